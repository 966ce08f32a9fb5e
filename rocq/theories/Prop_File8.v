(** * C77: the model file of a quantised model. *)
From Coq Require Import QArith String.
From Verif Require Import Base Spec Bits Bitpack Padding Prepare Options Lifecycle Threshold IR IRProofs IRRules IRSound IRTerm IRWell
  IRTf IRPrep IRPass IRPassRule IRPassProof IRPassTame IRFuse IRInt8 IRRun IRRunTop IRFile IRRun8 IRFile8 Prop_IR Prop_Prep Prop_Run Prop_File Prop_Int8 Prop_Run8.
Open Scope string_scope.
Open Scope list_scope.
Open Scope Z_scope.

(** ** Nothing is lost in the file. From the custom operators, their options and the
    types of the tensors ([tab]) the program is recovered: the same operators with the
    same attributes, scales and zero points, in the same order, on the same operands
    except that convolutions read their packed filter. No lq operator is left. *)
Definition results (q : list finstr) : list finstr := filter (fun j => match fst (fst j) with T _ => true | PF _ => false end) q.
Definition same_instr (i : instr) (j : finstr) : Prop :=
  fst (fst j) = T (iid i) /\ snd (fst j) = FOp (iop i) /\
  (snd j = map T (iargs i) \/ is_bconv (iop i) = true /\ exists x f a, iargs i = x :: f :: a /\ snd j = T x :: PF (iid i) :: map T a).
Lemma retype_erase tab i a : typed8 tab i -> (a = map T (iargs i) \/ is_bconv (iop i) = true) ->
  retype tab (T (iid i), FOp (erase (iop i)), a) = (T (iid i), FOp (iop i), a).
Proof.
  intros Ht Ha. unfold typed8 in Ht. unfold erase. destruct (k8 (iop i)) as [[s z|s z|z|s z|c s z]|] eqn:E8.
  - destruct (iop i); try discriminate. reflexivity.
  - destruct (iop i); try discriminate. reflexivity.
  - destruct Ht as (Eo & x & s & Ex & Et). rewrite Eo in *. destruct Ha as [-> | Ha]; [|discriminate Ha]. rewrite Ex. cbn [map retype]. rewrite Et. reflexivity.
  - destruct Ht as (Eo & Et). rewrite Eo. cbn [retype]. rewrite Et. reflexivity.
  - destruct Ht as (Eo & Et). rewrite Eo. cbn [retype]. rewrite Et. reflexivity.
  - destruct (iop i) as [v| | | | | |k ac|ac|mp ac|p|c|x] eqn:Eo; try reflexivity.
    + destruct Ht as (x & Ex & Et). destruct Ha as [-> | Ha]; [|discriminate Ha]. rewrite Ex. cbn [map retype]. rewrite Et. reflexivity.
    + cbn [retype]. rewrite Ht. reflexivity.
    + cbn [retype]. rewrite Ht. reflexivity.
Qed.
Lemma pack_results tab D i l : typed8 tab i -> pack_instr D (erase_i i) = Some l -> exists j, results (map (retype tab) l) = [j] /\ same_instr i j.
Proof.
  intros Ht Hl. unfold pack_instr, erase_i in Hl. cbn [iop iid iargs fst snd] in Hl.
  assert (Keep : Some [(T (iid i), FOp (erase (iop i)), map T (iargs i))] = Some l -> exists j, results (map (retype tab) l) = [j] /\ same_instr i j).
  { intros E. injection E as <-. cbn [map]. rewrite (retype_erase tab i _ Ht (or_introl eq_refl)). eexists. split; [reflexivity|]. split; [reflexivity|split; [reflexivity|left; reflexivity]]. }
  destruct (erase (iop i)) as [v| | | | | |k ac|ac|mp ac|pp|c|x] eqn:Ee; try exact (Keep Hl).
  destruct (iargs i) as [|x [|f a]] eqn:Ea; try exact (Keep Hl). destruct (D f) as [[[[G| | | |]| | | | | | | | | | |] [|]]|]; try exact (Keep Hl).
  destruct (Nat.eqb _ 4); [|exact (Keep Hl)]. destruct (Bitpack_const G) as [[d w]|]; [|discriminate]. cbn [bind] in Hl. injection Hl as <-.
  assert (Hb := erase_conv _ _ Ee). cbn [map]. rewrite <- Ee, (retype_erase tab i _ Ht (or_intror Hb)). eexists. split; [reflexivity|].
  split; [reflexivity|split; [reflexivity|right]]. split; [exact Hb|]. exists x, f, a. rewrite Ea. auto.
Qed.
Lemma results_app a b : results (a ++ b) = results a ++ results b.
Proof. apply filter_app. Qed.
Lemma erase_erase o : erase (erase o) = erase o.
Proof. unfold erase at 2 3. destruct (k8 o) as [[s z|s z|z|s z|c s z]|] eqn:E; try reflexivity; unfold erase; rewrite E; reflexivity. Qed.
Definition erased (j : finstr) : Prop := match snd (fst j) with FOp o => erase o = o | _ => True end.
Lemma pack_erased D i l : pack_instr D (erase_i i) = Some l -> Forall erased l.
Proof.
  intros Hl. unfold pack_instr, erase_i in Hl. cbn [iop iid iargs fst snd] in Hl.
  assert (K : forall r a, erased (r, FOp (erase (iop i)), a)) by (intros r a; apply erase_erase).
  assert (Keep : Some [(T (iid i), FOp (erase (iop i)), map T (iargs i))] = Some l -> Forall erased l) by (intros E; injection E as <-; constructor; [apply K|constructor]).
  destruct (erase (iop i)) as [v| | | | | |k ac|ac|mp ac|pp|c|x] eqn:Ee; try exact (Keep Hl).
  destruct (iargs i) as [|x [|f a]] eqn:Ea; try exact (Keep Hl). destruct (D f) as [[[[G| | | |]| | | | | | | | | | |] [|]]|]; try exact (Keep Hl).
  destruct (Nat.eqb _ 4); [|exact (Keep Hl)]. destruct (Bitpack_const G) as [[d w]|]; [|discriminate]. cbn [bind] in Hl. injection Hl as <-.
  constructor; [exact I|]. constructor; [apply K|constructor].
Qed.
Lemma pass_erased p q : pack_pass (map erase_i p) = Some q -> Forall erased q.
Proof.
  unfold pack_pass. generalize (def (map erase_i p)). intros D E. destruct (seqo (map (pack_instr D) (map erase_i p))) as [ll|] eqn:El; [|discriminate].
  cbn [bind] in E. injection E as <-. revert ll El. induction p as [|i p IH]; intros ll El; [injection El as <-; constructor|].
  cbn [map] in El. apply seqo_cons in El. destruct El as (l & ll' & L1 & L2 & ->). cbn [List.concat]. apply Forall_app. split; [exact (pack_erased D i l L1)|exact (IH ll' L2)].
Qed.
Theorem C77_file_round_trip tab p :
  Forall verified8 p -> Forall (typed8 tab) p -> (forall r F a, In (r, OConst (VF F), a) p -> nonneg (sh F)) ->
  exists F q, file8 p = Some F /\ translate F = Some q /\ Forall2 same_instr p (results (map (retype tab) q)) /\
    Forall (fun j => match snd (fst j) with FOp o => lce8 o = false | FCustom c _ => In c ["LceQuantize"; "LceDequantize"; "LceBconv2d"; "LceBMaxPool2d"] | FWords _ _ => True end) F.
Proof.
  intros HV HTy HN.
  destruct (C72_file_round_trip (map erase_i p)) as (q & F & E1 & E2 & E3 & E4).
  { rewrite Forall_map. exact HV. }
  { intros r G a Hi. apply in_map_iff in Hi. destruct Hi as ([[r' o'] a'] & Hi & Hin). assert (Ho := f_equal iop Hi). unfold erase_i in Ho.
    cbn [iop fst snd] in Ho. apply (proj1 (erase_const _ _)) in Ho. subst o'. exact (HN _ _ _ Hin). }
  exists F, q. unfold file8. rewrite E1. split; [exact E2|]. split; [exact E3|]. split.
  - unfold pack_pass in E1. revert q E1 E2 E3 E4. generalize (def (map erase_i p)). intros D q E1 _ _ _. destruct (seqo (map (pack_instr D) (map erase_i p))) as [ll|] eqn:El; [|discriminate].
    cbn [bind] in E1. injection E1 as <-. revert ll El. clear HV HN. induction HTy as [|i p Hi _ IH]; intros ll El.
    + injection El as <-. constructor.
    + cbn [map] in El. apply seqo_cons in El. destruct El as (l & ll' & L1 & L2 & ->). cbn [List.concat]. rewrite map_app, results_app.
      destruct (pack_results tab D i l Hi L1) as (j & -> & Hj). constructor; [exact Hj|exact (IH ll' L2)].
  - assert (Er := pass_erased _ _ E1). clear - E4 Er. induction E4 as [|[[r o] a] [[r' o'] a'] q F (_ & _ & H) _ IH]; [constructor|]. inversion Er as [|? ? Er1 Er2]; subst.
    constructor; [|exact (IH Er2)]. cbn [fst snd] in *. destruct o' as [o'|d l|c m]; [|exact I|].
    + destruct o as [o|d l|c m]; [|contradiction|contradiction].
      assert (K : is_lce o = false /\ o' = o) by (destruct o; try contradiction; exact H). destruct K as (K & ->).
      unfold lce8. unfold erased in Er1. cbn [fst snd] in Er1. rewrite Er1. exact K.
    + destruct o as [o|d l|c' m']; [|contradiction|contradiction]. destruct o; try contradiction; try (destruct H; discriminate); subst c; cbn; tauto.
Qed.
Print Assumptions C77_file_round_trip.

(** ** Running the file: whatever the registration flags, every operator is found,
    its options are accepted, and every execution, in any state of the nodes and with
    any schedule, ends with the program's values in memory. *)
Theorem C77_file_computes_the_quantised_program :
  forall (use_reference_bconv use_indirect_bgemm : bool) (tfl : op -> list buf -> buf -> Prop) (tab : qtab) (ty : tid -> list Z) (args : list nat)
    (p : list instr) (e0 e : env) (m : fmem),
  tflite_ok tfl -> ssa args p -> const_filters8 p -> Forall verified8 p -> Forall (typed8 tab) p ->
  fits_machine8 (if use_reference_bconv then KReference else if use_indirect_bgemm then KIndirect else KBgemm) (fun r => ty (T r)) p e0 ->
  eval p e0 = Some e -> mem_ok e0 (fun x => m (T x)) ->
  exists F, file8 p = Some F /\
    frun8 (register use_reference_bconv use_indirect_bgemm) tfl tab ty F m (fun m' => mem_ok e (fun x => m' (T x))).
Proof.
  intros ur ui tfl tab ty args p e0 e m HT HS HC HV HTy HF HE HM. exact (file_ok8 ur ui tfl tab ty args p e0 e m HT HS HC HV HTy HF HE HM).
Qed.
Print Assumptions C77_file_computes_the_quantised_program.

(** ** From the program before the quantise pass to the file. Only that program has to
    be typed: the pass keeps the types. The file computes what the program without the
    pairs around convolution parameters computes (C73). *)
Theorem C77_quantised_model_file_computes_the_graph :
  forall (use_reference_bconv use_indirect_bgemm : bool) (tfl : op -> list buf -> buf -> Prop) (tab : qtab) (ty : tid -> list Z) (args outs : list nat)
    (p q : list instr) (e0 e : env) (n : nat) (m : fmem),
  ssa args p -> (forall x, In x outs -> In x (args ++ map iid p)) -> params_clean p -> Forall (typed8 tab) p ->
  eval (strip p) e0 = Some e -> no_ties (strip p) e ->
  isteps outs n p q -> (forall q', ~ istep outs q q') ->
  tflite_ok tfl -> const_filters8 q -> Forall verified8 q ->
  fits_machine8 (if use_reference_bconv then KReference else if use_indirect_bgemm then KIndirect else KBgemm) (fun r => ty (T r)) q e0 ->
  mem_ok e0 (fun x => m (T x)) ->
  exists F, file8 q = Some F /\
    frun8 (register use_reference_bconv use_indirect_bgemm) tfl tab ty F m (fun m' =>
      forall x v, In x outs -> e x = Some v -> exists b, m' (T x) = Some b /\ rep v b).
Proof.
  intros ur ui tfl tab ty args outs p q e0 e n m HS HO HC HTy HE HN HR HF HT HCF HVq HFM HM.
  destruct (C73_quantise_pass args e0 p outs n q e HS HO HC HE HN HR HF) as (e' & E' & HV).
  assert (HSq : ssa args q) by exact (isteps_ssa args outs n p q HS HR).
  destruct (C77_file_computes_the_quantised_program ur ui tfl tab ty args q e0 e' m HT HSq HCF HVq (isteps_typed8 tab outs n p q HR HTy) HFM E' HM) as (F & E1 & E2).
  exists F. split; [exact E1|]. eapply frun8_mono; [|exact E2].
  intros m' Hm x v Hx Hv. destruct (HV x v Hx Hv) as (w & Ew & Vw). destruct (Hm x w Ew) as (b & Eb & Rb).
  exists b. split; [exact Eb|]. exact (rep_veq v w b Vw Rb).
Qed.
Print Assumptions C77_quantised_model_file_computes_the_graph.

(** ** The example of C73 and C74 in a file. Tensor 0 is the int8 input (scale 1/4, zero
    point 3), tensor 12 the int8 output (1, 0). *)
Definition ex_tab : qtab := fun x => match x with T 0%nat => Some ((1 # 4)%Q, 3) | T 5%nat | T 8%nat | T 12%nat => Some (1%Q, 0) | _ => None end.
Definition ex_file (w : list Z) : list finstr :=
  [(T 2%nat, FCustom "LceQuantize" [], [T 0%nat]); (T 3%nat, FOp (OConst filt), []); (T 4%nat, FOp (OConst (vec1 (13 # 10))), []); (T 7%nat, FOp (OConst (vec1 0)), []);
   (T 10%nat, FOp ONone, []); (PF 12%nat, FWords [1; 1; 1; 1] w, []);
   (T 12%nat, FCustom "LceBconv2d" [("channels_in", put_u32 2); ("dilation_height_factor", put_u32 1); ("dilation_width_factor", put_u32 1);
      ("fused_activation_function", put_enum 0); ("pad_values", put_u32 0); ("padding", put_enum 1);
      ("stride_height", put_u32 1); ("stride_width", put_u32 1)], [T 2%nat; PF 12%nat; T 4%nat; T 7%nat; T 10%nat])].
Lemma ex_typed : Forall (typed8 ex_tab) ex_p.
Proof.
  unfold ex_p. repeat constructor; cbn; eauto.
Qed.
Lemma ex_verified : Forall verified8 ex_q.
Proof. unfold ex_q, verified8, erase_i. repeat constructor; try exact I; cbn; try lia; try discriminate. Qed.
Example C77_case : (exists w, file8 ex_q = Some (ex_file w)) /\
  (exists n, isteps [12%nat] n ex_p ex_q) /\ (exists m : fmem, mem_ok ex_e0 (fun x => m (T x))) /\
  forall ur ui tfl m, tflite_ok tfl -> mem_ok ex_e0 (fun x => m (T x)) ->
    exists F, file8 ex_q = Some F /\ frun8 (register ur ui) tfl ex_tab (fun _ => []) F m (fun m' => m' (T 12%nat) = Some (BI [1; 1; 1; 1] [3])).
Proof.
  destruct C73_case as (C1 & C2 & C3 & (e & C4 & C5) & C6 & C7 & C8 & _).
  split; [eexists; vm_compute; reflexivity|]. split; [exists 9%nat; exact C6|]. split.
  { destruct C74_case as (_ & _ & (m & Hm) & _). exists (fun x => match x with T y => m y | PF _ => None end). exact Hm. }
  intros ur ui tfl m HT HM.
  destruct (C77_quantised_model_file_computes_the_graph ur ui tfl ex_tab (fun _ => []) [0%nat] [12%nat] ex_p ex_q ex_e0 e 9 m C1 C2 C3 ex_typed C4 C5 C6 C7 HT ex_const ex_verified (ex_fits _) HM) as (F & E1 & E2).
  exists F. split; [exact E1|]. eapply frun8_mono; [|exact E2].
  intros m' H. rewrite C4 in C8. unfold int_at in C8. destruct (e 12%nat) as [[| | |t|]|] eqn:E12; try discriminate. injection C8 as C8.
  destruct (H 12%nat _ (or_introl eq_refl) E12) as (b & Eb & Rb). rewrite Eb. f_equal.
  destruct b as [| | |d l|]; try contradiction. destruct Rb as (_ & Hd & Hl & Hv).
  assert (St : sh t = [1; 1; 1; 1]).
  { assert (K : match eval (strip ex_p) ex_e0 with Some e => match e 12%nat with Some (VInt t) => Some (sh t) | _ => None end | None => None end = Some [1; 1; 1; 1])
      by (vm_compute; reflexivity). rewrite C4, E12 in K. injection K as K. exact K. }
  rewrite St in *. subst d. cbn in Hl. destruct l as [|a [|? ?]]; try (unfold zlen in Hl; cbn in Hl; lia). cbn [rev app]. f_equal.
  destruct (Hv [0; 0; 0; 0]) as (x & Ex & Rx); [repeat constructor; lia|]. injection Ex as <-. rewrite <- Rx, C8. reflexivity.
Qed.
