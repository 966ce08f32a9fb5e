(** * C74: a quantised model, run by the interpreter with LCE's int8 kernels, computes
    what the converter's input computes. *)
From Coq Require Import QArith.
From Verif Require Import Base Spec Bits Bitpack Padding Prepare Lifecycle Threshold IR IRProofs IRRules IRSound IRTerm IRWell
  IRTf IRPrep IRPass IRPassRule IRPassProof IRFuse IRInt8 IRRun IRRunProof IRRunTop IRRun8 Prop_Int8.
Open Scope Z_scope.

(** ** One program with int8 operators. As C68, with LceQuantize of int8 tensors,
    LceDequantize to int8 tensors and LceBconv2d with int8 output run by their kernels:
    for the reference, BGEMM and indirect convolution kernel, any schedule, any history
    and any contents of the output buffers, all executions succeed and end in a memory
    that holds the mathematical values of all results. *)
Theorem C74_machine_computes_quantised_program :
  forall (kt : kernel_type) (tfl : op -> list buf -> buf -> Prop) (ty : nat -> list Z) (p : list instr) (e0 e : env) (m : mem),
  tflite_ok tfl -> const_filters8 p -> fits_machine8 kt ty p e0 ->
  eval p e0 = Some e -> mem_ok e0 m ->
  run8 kt tfl (def p) ty p m (mem_ok e).
Proof. intros kt tfl ty p e0 e m HT HC HF HE HM. exact (run8_ok kt tfl (def p) ty p e0 m e HT HM HE HF HC). Qed.
Print Assumptions C74_machine_computes_quantised_program.

(** ** Through the quantise pass. [p]: the program before it, with tfl.quantize and
    tfl.dequantize around the LCE operators; [strip p]: without those around the
    parameters of convolutions (C73). The pass runs to its end in any order, the
    result [q] is executed. The output buffers hold what [strip p] computes. *)
Theorem C74_quantised_model_computes_the_graph :
  forall (kt : kernel_type) (tfl : op -> list buf -> buf -> Prop) (ty : nat -> list Z) (args outs : list nat)
    (p q : list instr) (e0 e : env) (n : nat) (m : mem),
  ssa args p -> (forall x, In x outs -> In x (args ++ map iid p)) -> params_clean p ->
  eval (strip p) e0 = Some e -> no_ties (strip p) e ->
  isteps outs n p q -> (forall q', ~ istep outs q q') ->
  tflite_ok tfl -> const_filters8 q -> fits_machine8 kt ty q e0 -> mem_ok e0 m ->
  run8 kt tfl (def q) ty q m (fun m' => forall x v, In x outs -> e x = Some v -> exists b, m' x = Some b /\ rep v b).
Proof.
  intros kt tfl ty args outs p q e0 e n m HS HO HC HE HN HR HF HT HCF HFM HM.
  destruct (C73_quantise_pass args e0 p outs n q e HS HO HC HE HN HR HF) as (e' & E' & HV).
  eapply run8_mono; [|exact (C74_machine_computes_quantised_program kt tfl ty q e0 e' m HT HCF HFM E' HM)].
  intros m' Hm x v Hx Hv. destruct (HV x v Hx Hv) as (w & Ew & Vw). destruct (Hm x w Ew) as (b & Eb & Rb).
  exists b. split; [exact Eb|]. exact (rep_veq v w b Vw Rb).
Qed.
Print Assumptions C74_quantised_model_computes_the_graph.

(** ** Int8 results are int8 values: tfl.quantize, LceDequantize to int8 and
    LceBconv2d with int8 output give numbers between -128 and 127, as LceQuantize
    requires of its input. *)
Theorem C74_results_are_int8 : forall (o : op) (vs : list value) (t : tensor Z) (i : list Z),
  (exists s z, o = tfl_quant s z) \/ (exists s z, o = lq_dequant8 s z) \/ (exists c s z, o = lq_conv8 c s z) ->
  denote o vs = Some (VInt t) -> in_range (sh t) i -> -128 <= at_ t i <= 127.
Proof.
  intros o vs t i [(s & z & ->)|[(s & z & ->)|(c & s & z & ->)]] H Hi.
  - change (tq_fun s z vs = Some (VInt t)) in H. destruct vs as [|[u| | | |] [|]]; try discriminate. cbn [tq_fun] in H.
    destruct (ok8 s z); [|discriminate]. injection H as <-. cbn [tmap at_]. unfold clamp8. lia.
  - change (ldq8_fun s z vs = Some (VInt t)) in H. destruct vs as [|[|u| | |] [|]]; try discriminate. cbn [ldq8_fun] in H.
    destruct (ok8 s z) eqn:E8; [|discriminate]. injection H as <-. destruct (ok8_inv _ _ E8) as [Hs Hz].
    assert (Ho := offset_nonneg s Hs). unfold Quantize.int8_offset in Ho. cbn [tmap at_]. destruct (at_ u i); cbv zeta; lia.
  - change (lc8_fun c s z vs = Some (VInt t)) in H. unfold lc8_fun in H.
    destruct vs as [|[|ti| | |] vs]; try discriminate. destruct vs as [|[tf| | | |] vs]; try discriminate.
    destruct vs as [|[tm| | | |] vs]; try discriminate. destruct vs as [|[tb| | | |] vs]; try discriminate.
    destruct vs as [|[| | | |] vs]; try discriminate. destruct vs; try discriminate.
    destruct (bc_float c ti tf tm tb) as [[u| | | |]|]; try discriminate.
    destruct (ok8 s z); [|discriminate]. injection H as <-. cbn [tmap at_]. unfold clamp8. lia.
Qed.
Print Assumptions C74_results_are_int8.

(** ** The example of C73 on the machine *)
Definition ex_ty (x : nat) : list Z := [].
Lemma ex_const : const_filters8 ex_q.
Proof.
  intros r o a Hi HB. cbn [ex_q In] in Hi. repeat (destruct Hi as [Hi|Hi]; [|]); try contradiction;
    (assert (Ho := f_equal iop Hi); cbn [iop fst snd] in Ho; subst o; try discriminate HB).
  assert (Ha := f_equal iargs Hi). cbn [iargs fst snd] in Ha. subst a. eexists. reflexivity.
Qed.
Lemma ex_fits kt : fits_machine8 kt ex_ty ex_q ex_e0.
Proof.
  assert (ND : forall o, k8 o = None \/ (exists z, o = lq_quant8 z) \/ (exists c s z, o = lq_conv8 c s z) ->
    o <> ODequant -> ~ (o = ODequant \/ exists s z, k8 o = Some (LDQ8 s z))).
  { intros o [K|[(z & ->)|(c & s & z & ->)]] N [H|(s' & z' & H)]; try contradiction; try congruence; discriminate H. }
  assert (N4 : forall a b c d, 0 <= a -> 0 <= b -> 0 <= c -> 0 <= d -> nonneg [a; b; c; d]) by (intros; repeat constructor; assumption).
  unfold ex_q. cbn [fits_machine8].
  intros vs v Hl Hd. injection Hl as <-. change (denote (lq_quant8 3)) with (lq8_fun 3) in Hd. injection Hd as <-.
  split.
  { split; [reflexivity|]. split; [lia|]. split; [discriminate|]. intros i Hi. cbn [sh at_] in *. destruct (in_range4 _ _ _ _ _ Hi) as (a & b & c & d & -> & H1 & _).
    assert (D : a = 0 \/ a = 1) by lia. destruct D as [-> | ->]; lia. }
  split; [split; [apply N4; lia|discriminate]|]. split; [intros K; exfalso; revert K; apply ND; [right; left; eexists; reflexivity|discriminate]|].
  intros vs v Hl Hd. injection Hl as <-. injection Hd as <-. split; [constructor|]. split; [split; [apply N4; lia|exact I]|].
  split; [intros K; exfalso; revert K; apply ND; [left; reflexivity|discriminate]|].
  intros vs v Hl Hd. injection Hl as <-. injection Hd as <-. split; [constructor|]. split; [split; [repeat constructor; lia|exact I]|].
  split; [intros K; exfalso; revert K; apply ND; [left; reflexivity|discriminate]|].
  intros vs v Hl Hd. injection Hl as <-. injection Hd as <-. split; [constructor|]. split; [split; [repeat constructor; lia|exact I]|].
  split; [intros K; exfalso; revert K; apply ND; [left; reflexivity|discriminate]|].
  intros vs v Hl Hd. injection Hl as <-. injection Hd as <-. split; [constructor|]. split; [split; [constructor|exact I]|].
  split; [intros K; exfalso; revert K; apply ND; [left; reflexivity|discriminate]|].
  intros vs v Hl Hd. cbn [look upd Nat.eqb] in Hl. injection Hl as <-.
  match type of Hd with denote ?o ?l = _ => assert (K : exists t, denote o l = Some (VInt t) /\ sh t = [1; 1; 1; 1]) by (eexists; split; reflexivity) end.
  destruct K as (t & Et & St). rewrite Et in Hd. injection Hd as <-. clear Et.
  split.
  { split; [reflexivity|]. split; [|discriminate].
    cbn [op_ok sh tmap cv1 ca_sh ca_sw ca_dh ca_dw ca_pad ca_padv ca_act].
    unfold eff. repeat (split; [lia|]). split; [right; split; [reflexivity|lia]|]. split; [lia|]. split; [left; reflexivity|].
    split; [discriminate|]. split; [reflexivity|]. intros _ g Hg. injection Hg as <-. split; [cbn; lia|].
    cbn. intros ox fx H1 H2. change (out_size PadValid 1 1 1 1) with 1 in H1. lia. }
  split; [split; [cbn [vshape]; rewrite St; apply N4; lia|exact I]|].
  split; [intros K; exfalso; revert K; apply ND; [right; right; do 3 eexists; reflexivity|discriminate]|exact I].
Qed.
Example C74_case : exists n, isteps [12%nat] n ex_p ex_q /\
  (exists m, mem_ok ex_e0 m) /\
  forall kt tfl m, tflite_ok tfl -> mem_ok ex_e0 m ->
    run8 kt tfl (def ex_q) ex_ty ex_q m (fun m' => m' 12%nat = Some (BI [1; 1; 1; 1] [3])).
Proof.
  exists 9%nat. destruct C73_case as (C1 & C2 & C3 & (e & C4 & C5) & C6 & C7 & C8 & _). split; [exact C6|]. split.
  { exists (fun x => if Nat.eqb x 0 then Some (BI [1; 1; 1; 2] [5; 3]) else None). intros x v Hv. unfold ex_e0 in Hv.
    destruct x as [|x]; [|discriminate]. injection Hv as <-. eexists. split; [reflexivity|].
    split; [repeat constructor; lia|]. split; [reflexivity|]. split; [reflexivity|]. cbn [sh]. intros i Hi.
    destruct (in_range4 _ _ _ _ _ Hi) as (a & b & c & d & -> & H1 & H2 & H3 & H4).
    assert (b = 0) by lia. assert (c = 0) by lia. assert (d = 0) by lia. assert (D : a = 0 \/ a = 1) by lia. subst. destruct D as [-> | ->]; eexists; split; reflexivity. }
  intros kt tfl m HT HM.
  eapply run8_mono; [|apply (C74_quantised_model_computes_the_graph kt tfl ex_ty [0%nat] [12%nat] ex_p ex_q ex_e0 e 9 m C1 C2 C3 C4 C5 C6 C7 HT ex_const (ex_fits kt) HM)].
  intros m' H. rewrite C4 in C8. unfold int_at in C8. destruct (e 12%nat) as [[| | |t|]|] eqn:E12; try discriminate. injection C8 as C8.
  destruct (H 12%nat _ (or_introl eq_refl) E12) as (b & Eb & Rb). rewrite Eb. f_equal.
  destruct b as [| | |d l|]; try contradiction. destruct Rb as (_ & Hd & Hl & Hv).
  assert (St : sh t = [1; 1; 1; 1]).
  { assert (K : match eval (strip ex_p) ex_e0 with Some e => match e 12%nat with Some (VInt t) => Some (sh t) | _ => None end | None => None end = Some [1; 1; 1; 1])
      by (vm_compute; reflexivity). rewrite C4, E12 in K. injection K as K. exact K. }
  rewrite St in *. subst d. cbn in Hl. destruct l as [|a [|? ?]]; try (unfold zlen in Hl; cbn in Hl; lia). cbn [rev app]. f_equal.
  destruct (Hv [0; 0; 0; 0]) as (x & Ex & Rx); [repeat constructor; lia|]. injection Ex as <-. rewrite <- Rx, C8. reflexivity.
Qed.
