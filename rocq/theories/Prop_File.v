(** * C72: the model file (custom operators, serialised options, packed filters). *)
From Coq Require Import QArith String.
From Verif Require Import Base Spec Bits Bitpack Padding Prepare Options Lifecycle Threshold IR IRProofs IRRules IRSound IRTerm IRWell
  IRTf IRPrep IRPass IRPassRule IRPassProof IRPassTame IRRun IRRunTop IRFile Prop_IR Prop_Prep Prop_Run.
Open Scope string_scope.
Open Scope list_scope.
Open Scope Z_scope.

(** ** The file of a verified program. After packing the filters ([q]) the
    legalisation pass produces a file [F]
    - with the same results and operands, in the same order;
    - without operators of the lq dialect: every one became a custom operator with one
      of the four registered codes, nothing else became one;
    - from which the translation pass recovers [q] exactly: every operator with every
      attribute. *)
Theorem C72_file_round_trip p :
  Forall verified p -> (forall r F a, In (r, OConst (VF F), a) p -> nonneg (sh F)) ->
  exists q F, pack_pass p = Some q /\ legalize q = Some F /\ translate F = Some q /\
    Forall2 (fun i j => fst (fst i) = fst (fst j) /\ snd i = snd j /\
      match snd (fst i), snd (fst j) with
      | FOp OQuant, FCustom c _ => c = "LceQuantize"
      | FOp ODequant, FCustom c _ => c = "LceDequantize"
      | FOp (OConv _), FCustom c _ => c = "LceBconv2d"
      | FOp (OBMaxPool _), FCustom c _ => c = "LceBMaxPool2d"
      | FOp o, FOp o' => is_lce o = false /\ o' = o
      | FWords d l, FWords d' l' => d' = d /\ l' = l
      | _, _ => False
      end) q F.
Proof.
  intros HV HN.
  destruct (pack_static (def p) p HV) as (ll & F & E1 & E2 & E3).
  { intros f F HD. exact (HN f F [] (def_In _ _ _ _ HD)). }
  exists (List.concat ll), F. unfold pack_pass. rewrite E1. split; [reflexivity|]. split; [exact E2|]. split; [exact E3|].
  assert (HC : Forall (fun i : finstr => match snd (fst i) with FCustom _ _ => False | _ => True end) (List.concat ll)).
  { clear - E1. revert ll E1. generalize (def p). intros D. induction p as [|i p IH]; intros ll E1.
    - injection E1 as <-. constructor.
    - cbn [map] in E1. apply seqo_cons in E1. destruct E1 as (l & ll' & L1 & L2 & ->). cbn [List.concat]. apply Forall_app. split; [|apply IH; exact L2].
      assert (K : forall o a, Forall (fun i : finstr => match snd (fst i) with FCustom _ _ => False | _ => True end) [(T (iid i), FOp o, a)])
        by (intros; constructor; [exact I|constructor]).
      unfold pack_instr in L1. destruct (iop i) as [v| | | | | |k ac|ac|mp ac|pp|c|x]; try (injection L1 as <-; apply K).
      destruct (iargs i) as [|x [|f a]]; try (injection L1 as <-; apply K).
      destruct (D f) as [[[[G| | | |]| | | | | | | | | | |] [|]]|]; try (injection L1 as <-; apply K).
      destruct (Nat.eqb _ 4); [|injection L1 as <-; apply K]. destruct (Bitpack_const G) as [[d w]|]; [|discriminate].
      cbn [bind] in L1. injection L1 as <-. constructor; [exact I|apply K]. }
  clear - E2 HC. revert F E2. induction HC as [|[[r o] a] q Hi _ IH]; intros F E2.
  - injection E2 as <-. constructor.
  - unfold legalize in E2. cbn [map] in E2. apply seqo_cons in E2. destruct E2 as (j & F' & L1 & L2 & ->). constructor; [|apply IH; exact L2].
    cbn [fst snd] in *. destruct o as [o|d l|]; [|injection L1 as <-; cbn; auto|contradiction].
    cbn [legalize_instr] in L1. destruct o as [v| | | | | |k ac|ac|mp ac|pp|c|x]; cbn [legalize_op] in L1; try (injection L1 as <-; cbn; auto; fail).
    + destruct (bpool_options (po_of pp)) as [mm|]; [|discriminate]. cbn [bind] in L1. injection L1 as <-. cbn. auto.
    + destruct (bconv_options (bo_of c)) as [mm|]; [|discriminate]. cbn [bind] in L1. injection L1 as <-. cbn. auto.
Qed.
Print Assumptions C72_file_round_trip.

(** Custom operators of others pass through the translation. *)
Theorem C72_other_custom_operators_kept r code m a :
  ~ In code ["LceQuantize"; "LceDequantize"; "LceBMaxPool2d"; "LceBconv2d"] ->
  translate_instr (r, FCustom code m, a) = Some (r, FCustom code m, a).
Proof.
  intros H. unfold translate_instr.
  destruct (String.eqb_spec code "LceQuantize") as [->|_]; [destruct H; cbn; auto|].
  destruct (String.eqb_spec code "LceDequantize") as [->|_]; [destruct H; cbn; auto|].
  destruct (String.eqb_spec code "LceBMaxPool2d") as [->|_]; [destruct H; cbn; auto|].
  destruct (String.eqb_spec code "LceBconv2d") as [->|_]; [destruct H; cbn; auto 6|]. reflexivity.
Qed.
Print Assumptions C72_other_custom_operators_kept.

(** ** Running the file. Whatever the two registration flags, the interpreter finds
    every operator, every Init accepts its options, and every execution ends with the
    program's values in memory. *)
Theorem C72_file_computes_the_program :
  forall (use_reference_bconv use_indirect_bgemm : bool) (tfl : op -> list buf -> buf -> Prop) (ty : tid -> list Z) (args : list nat)
    (p : list instr) (e0 e : env) (m : fmem),
  tflite_ok tfl -> ssa args p -> const_filters p -> Forall verified p ->
  fits_machine (if use_reference_bconv then KReference else if use_indirect_bgemm then KIndirect else KBgemm) (fun r => ty (T r)) p e0 ->
  eval p e0 = Some e ->
  mem_ok e0 (fun x => m (T x)) ->
  exists q F, pack_pass p = Some q /\ legalize q = Some F /\
    frun (register use_reference_bconv use_indirect_bgemm) tfl ty F m (fun m' => mem_ok e (fun x => m' (T x))).
Proof.
  intros ur ui tfl ty args p e0 e m HT HS HC HV HF HE HM.
  destruct (file_ok ur ui tfl ty args p e0 e m HT HS HC HV HF HE HM) as (q & F & E1 & E2 & _ & E4). exists q, F. auto.
Qed.
Print Assumptions C72_file_computes_the_program.

Lemma frun_mono reg tfl ty p : forall m (P Q : fmem -> Prop), (forall m, P m -> Q m) -> frun reg tfl ty p m P -> frun reg tfl ty p m Q.
Proof.
  induction p as [|[[r o] a] p IH]; intros m P Q HPQ H; cbn [frun] in *; [auto|]. destruct (flook m a) as [bs|]; [|exact H].
  unfold fexec in *. destruct o as [o|d l|code mm].
  - destruct H as (H1 & H2 & H3). split; [exact H1|]. split; [exact H2|]. intros b Hb. eapply IH; [exact HPQ|auto].
  - destruct H as [H1 H2]. split; [exact H1|]. eapply IH; eauto.
  - destruct (resolve reg code) as [[| |kt|]|]; [| | | |exact H]; try (eapply exec_mono; [|exact H]; intros b; cbv beta; apply IH; exact HPQ).
    destruct bs as [|[|d l| | |] [|[|fd fl| | |] [|mu [|bi [|th [|]]]]]]; try exact H. destruct (bconv_init mm) as [at'|]; [|exact H].
    unfold conv_node in *. intros extra Hx. destruct (H extra Hx) as (rr & HP & HE). exists rr. split; [exact HP|].
    intros es st fb ib S X1 X2 X3 X4 X5 X6 X7 X8. eapply IRRunConv.Eval_mono; [|exact (HE es st fb ib S X1 X2 X3 X4 X5 X6 X7 X8)].
    intros [o|o|o] Ho; try exact Ho; eapply IH; eauto.
Qed.

Lemma steps_ssa arm S outs p q : ssa S p -> steps (fun _ => as_is) arm S outs p q -> ssa S q.
Proof.
  intros HS H. induction H as [p|p p' q H1 H2 IH]; [exact HS|]. apply IH. exact (proj1 (step_down as_is arm S outs p p' HS H1)).
Qed.

(** ** From the TensorFlow graph to the file. As C68, with the file: conversion in any
    order of rewriting, packing, legalisation, execution of the file. *)
Theorem C72_model_file_computes_the_graph :
  forall (use_reference_bconv use_indirect_bgemm : bool) (tfl : op -> list buf -> buf -> Prop) (ty : tid -> list Z) (arm : bool)
    (args outs outs' : list nat) (p q q' : list instr) (e0 e : env) (n : nat) (m : fmem),
  ssa args p -> (forall x, In x outs -> In x (args ++ map iid p)) -> eval p e0 = Some e -> sane p e -> calm p e ->
  psteps (shapes e0) arm args n (p, outs) (q, outs') ->
  steps (fun _ => as_is) arm args outs' q q' ->
  tflite_ok tfl -> const_filters q' -> Forall verified q' ->
  fits_machine (if use_reference_bconv then KReference else if use_indirect_bgemm then KIndirect else KBgemm) (fun r => ty (T r)) q' e0 ->
  mem_ok e0 (fun x => m (T x)) ->
  exists w F, pack_pass q' = Some w /\ legalize w = Some F /\
    frun (register use_reference_bconv use_indirect_bgemm) tfl ty F m (fun m' =>
      Forall2 (fun x y => forall v, e x = Some v -> exists b, m' (T y) = Some b /\ rep v b) outs outs').
Proof.
  intros ur ui tfl ty arm args outs outs' p q q' e0 e n m HS HO HE HA HCa Hp Hs HT HC HV HF HM.
  destruct (psteps_good arm args e0 n _ _ Hp e (conj HS (conj HO (conj HE HA)))) as (e1 & (G1 & G2 & G3 & G4) & R).
  assert (Ht := psteps_calm arm args e0 n _ _ Hp e (conj HS (conj HO (conj HE HA))) HCa).
  cbn [fst snd] in *.
  destruct (C64_any_rewriting_order arm args outs' q q' e0 e1 G1 G2 G3 (calm_tame _ _ (Ht e1 G3)) Hs) as (e2 & E2 & R2).
  assert (HS' : ssa args q') by exact (steps_ssa _ _ _ _ _ G1 Hs).
  destruct (C72_file_computes_the_program ur ui tfl ty args q' e0 e2 m HT HS' HC HV HF E2 HM) as (w & F & P1 & P2 & P3).
  exists w, F. split; [exact P1|]. split; [exact P2|]. eapply frun_mono; [|exact P3].
  intros m' Hm. revert R R2. clear - Hm. intros R. induction R as [|x y xs ys R1 R3 IH]; intros R2; constructor.
  - intros v Hv. destruct (R1 v Hv) as (w & Ew & Vw). destruct (R2 y w (or_introl eq_refl) Ew) as (u & Eu & Vu).
    destruct (Hm y u Eu) as (b & Eb & Rb). exists b. split; [exact Eb|]. apply (rep_veq v u); [exact (veq_trans _ _ _ Vw Vu)|exact Rb].
  - apply IH. intros z v Hz. apply R2. right. exact Hz.
Qed.
Print Assumptions C72_model_file_computes_the_graph.

(** ** An example: the model of Prop_Run.v, in the file. Filters 1 and -1 are packed to
    the words 0 and 1; the convolution's options are eight integers. *)
Definition fileU (fw : list Z) (th : list Z -> Z) (w : list Z -> Q) : list finstr :=
  [(T 15%nat, FCustom "LceQuantize" [], [T 0%nat]); (T 35%nat, FOp (OConst (VF (mkT [1; 1; 1; 2]%Z w))), []); (T 36%nat, FOp ONone, []); (T 37%nat, FOp ONone, []);
   (T 38%nat, FOp (OConst (VInt (mkT [2]%Z th))), []);
   (PF 16%nat, FWords [2; 1; 1; 1] fw, []);
   (T 16%nat, FCustom "LceBconv2d" [("channels_in", put_u32 1); ("dilation_height_factor", put_u32 1); ("dilation_width_factor", put_u32 1);
      ("fused_activation_function", put_enum 0); ("pad_values", put_u32 0); ("padding", put_enum 1);
      ("stride_height", put_u32 1); ("stride_width", put_u32 1)], [T 15%nat; PF 16%nat; T 36%nat; T 37%nat; T 38%nat]);
   (T 14%nat, FCustom "LceDequantize" [], [T 16%nat])].
Definition wU (i : list Z) : Q := match i with [_; _; _; o] => if o =? 0 then 1%Q else (- (1))%Q | _ => 0%Q end.
Example progU_file th : exists q, pack_pass (progU wU th) = Some q /\ legalize q = Some (fileU [0; 1] th wU) /\
  translate (fileU [0; 1] th wU) = Some q /\ length q = 8%nat.
Proof. eexists. split; [reflexivity|]. split; [reflexivity|]. split; reflexivity. Qed.
Example progU_verified w th : Forall verified (progU w th).
Proof. unfold progU. repeat constructor; try exact I; cbn; try lia; try discriminate. Qed.
(** The file of that model, converted from the TensorFlow graph, computes the graph with every kernel. *)
Example progS_file_runs : exists n q q',
  psteps (shapes image) true [0%nat] n (progS, [14%nat]) (q, [14%nat]) /\
  steps (fun _ => as_is) true [0%nat] [14%nat] q q' /\
  forall ur ui tfl m, tflite_ok tfl -> mem_ok image (fun x => m (T x)) ->
    exists w F, pack_pass q' = Some w /\ legalize w = Some F /\ length F = 8%nat /\
    frun (register ur ui) tfl (fun x => match x with T y => tyS y | PF _ => [] end) F m (fun m' => exists t b,
      m' (T 14%nat) = Some b /\ rep (VF t) b /\ sh t = [2; 2; 1; 1] /\
      (at_ t [0; 0; 0; 0]%Z == 1)%Q /\ (at_ t [1; 0; 0; 0]%Z == 1)%Q /\ (at_ t [0; 1; 0; 0]%Z == - (1))%Q /\ (at_ t [1; 1; 0; 0]%Z == - (1))%Q).
Proof.
  destruct progS_prepared as (n & w & _ & _ & Hp). destruct (progT_optimised w) as (w' & th & Ho).
  exists n, (progT w), (progU w' th). split; [exact Hp|]. split; [exact Ho|]. intros ur ui tfl m HT HM.
  destruct progS_sane as (e & HE & Hs & Hk). destruct progS_values as (e' & t1 & t6 & t8 & t11 & t14 & HE' & _ & _ & _ & _ & _ & E14 & S14 & V).
  rewrite HE in HE'. injection HE' as <-.
  destruct (C72_model_file_computes_the_graph ur ui tfl (fun x => match x with T y => tyS y | PF _ => [] end) true [0%nat] [14%nat] [14%nat]
      progS (progT w) (progU w' th) image e n m progS_ssa) as (x & F & P1 & P2 & P3); auto.
  - intros x [<-|[]]. cbn. tauto.
  - apply progU_const.
  - apply progU_verified.
  - apply progU_fits.
  - exists x, F. split; [exact P1|]. split; [exact P2|]. split.
    { unfold pack_pass, progU in P1. cbn [map] in P1.
      repeat match type of P1 with context [pack_instr ?D (?r, OConv ?c, ?a)] => destruct (pack_instr D (r, OConv c, a)) as [pl|] eqn:EP end.
      2:{ discriminate P1. }
      cbn in P1. injection P1 as <-.
      assert (L2 : length pl = 2%nat).
      { unfold pack_instr in EP. cbn -[Bitpack_const] in EP.
        match type of EP with context [Bitpack_const ?G] => destruct (Bitpack_const G) as [[d l]|] end; cbn in EP; [|discriminate].
        injection EP as <-. reflexivity. }
      assert (LL : forall (a : list finstr) b, legalize a = Some b -> length b = length a).
      { induction a as [|y a IH]; intros b Hb; [injection Hb as <-; reflexivity|]. unfold legalize in Hb. cbn [map] in Hb. apply seqo_cons in Hb.
        destruct Hb as (c & d & _ & Hd & ->). cbn [length]. f_equal. apply IH. exact Hd. }
      rewrite (LL _ _ P2). cbn [length]. rewrite app_length, L2. reflexivity. }
    eapply frun_mono; [|exact P3]. intros m' Hf. cbv beta in Hf. inversion Hf as [|? ? ? ? H1 H2]; subst. destruct (H1 _ E14) as (b & Eb & Rb).
    exists t14, b. split; [exact Eb|]. split; [exact Rb|]. split; [exact S14|]. exact V.
Qed.
