(** * C84, int8 outputs: AArch64 stores the byte of the reference kernel wherever the
      float value is not halfway between two integers. *)
From Coq Require Import ZArith Lia QArith Qabs SpecFloat.
From Verif Require Import Base Spec Bits Bitpack Loop4 Float32 Reference OutputTransform RefTheorems Padding ThresholdFloat ThresholdMargin FloatSetup FloatConv Bgemm BgemmProofs BgemmConv Select
  A64 A64Bgemm A64Lemmas A64Trans A64Kernel44 A64Rel A64Conv A32 IeeeOps AsmFloat AsmInt8 Prop_Bgemm Prop_A64 Prop_A64b Prop_A32 Prop_FloatAccuracy Prop_BuildsFloat.
From Flocq Require Import BinarySingleNaN.
Open Scope Z_scope.

Lemma sgn_mod v : -128 <= v <= 127 -> sgn 8 (v mod 256) = v.
Proof. intros H. unfold sgn. change (2 ^ (8 - 1)) with 128. change (2 ^ 8) with 256. destruct (Z.ltb_spec (v mod 256) 128); Z.to_euclidean_division_equations; lia. Qed.
Lemma signed_bytes l : Forall (fun v => -128 <= v <= 127) l -> map (sgn 8) (vec 1 l) = l.
Proof.
  intros H. induction H as [|v l Hv Hl IH]; [reflexivity|]. transitivity (sgn 8 (v mod 256) :: map (sgn 8) (vec 1 l)); [reflexivity|].
  rewrite IH, (sgn_mod v Hv). reflexivity.
Qed.

Section C84i.
  Variables (pad : padding) (p : bconv) (a : activation) (input filter mw bw : list Z) (scale_w zp : Z) (o : otparams) (S : schedule) (t : otp spec_float).
  Hypothesis C : conv_call pad p input filter S.
  Hypothesis (Hm : zlen mw = out_c p) (Hb : zlen bw = out_c p).
  (** [t]: what OneTimeSetup makes of the multipliers and biases and of the output's
      scale (a binary32 word) and zero point. *)
  Hypothesis HT : one_time_setup32 p a mw bw (widen (decode32 scale_w)) (sf_ofZ 53 1024 zp) = Some t.
  Hypothesis ST : stored t o.
  Variables (out out1 : list Z) (outf : list spec_float).
  Hypothesis (Ho : zlen out = out_pixels (geom_of p) * out_c p) (H1 : zlen out1 = out_pixels (geom_of p) * out_c p) (Hf : zlen outf = out_pixels (geom_of p) * out_c p).

  (** The output tensor, read as int8, is the reference kernel's result [res] at every
      position whose float value before the conversion is finite and not halfway. *)
  Definition same_int8 (out' : list Z) : Prop :=
    zlen out' = zlen out /\
    exists res ys, eval_ref_int8_32 p a input filter mw bw scale_w zp out1 = Some res /\
      BConv2DReference_val p input filter (run_float sfops t) outf = Some ys /\
      forall i y, rd ys i = Some y -> is_finite_SF y = true -> ~ tie (SF2Q y) -> rd (map (sgn 8) out') i = rd res i.

  Lemma from_bytes n (K : (list Z -> Prop) -> Prop) (Kmono : forall Q Q' : list Z -> Prop, (forall d, Q d -> Q' d) -> K Q -> K Q') :
    0 <= backtransform_add p < 2 ^ 30 -> n <= zlen (p_mul o) -> n <= zlen (p_bias o) ->
    (p_cmin o <= p_cmax o -> tr_ok o n -> forall ref0, zlen ref0 = out_pixels (geom_of p) * out_c p ->
       K (fun out' => exists ref, BConv2DReference_val p input filter (run_of ieee DInt8 o) ref0 = Some ref /\ out' = vec 1 ref)) ->
    K same_int8.
  Proof.
    intros Hbt L1 L2 HK. destruct C.
    destruct (setup_range p a mw bw t _ _ cc_wf Hm Hb HT Hbt) as (_ & _ & IC). destruct ST as (E1 & E2 & _).
    destruct (reference_bytes p a mw bw t _ _ cc_wf Hm Hb HT Hbt o input filter out1 out1 outf ST cc_in cc_fl H1 H1 Hf) as (asm & res & ys & R1 & R2 & R3 & R4 & R5 & R6).
    eapply Kmono; [|apply (HK ltac:(rewrite E1, E2; exact IC) (stored_tr p a mw bw t _ _ cc_wf Hm Hb HT Hbt o n ST L1 L2) _ H1)].
    intros d (ref & E & ->). rewrite R1 in E. injection E as <-. unfold same_int8. rewrite zlen_vec. change (Z.of_nat 1) with 1. split; [lia|].
    exists res, ys. split; [unfold eval_ref_int8_32; rewrite HT; exact R2|]. split; [exact R3|].
    intros i y Hy Fy Ty. rewrite (signed_bytes asm R5). exact (R6 i y Hy Fy Ty).
  Qed.

  (** 16-bit accumulators *)
  Theorem C84_int8_8x4 :
    bgemm_uses_int16 true p = true -> conv_schedule_ok 4 8 4 p input S ->
    round_up (out_c p) 8 <= zlen (p_mul o) -> round_up (out_c p) 8 <= zlen (p_bias o) ->
    asm_conv ieee (k84 DInt8) DInt8 o 8 S p input filter out same_int8.
  Proof.
    intros H16 HS L1 L2. destruct (bt_taps pad p input filter S C) as [E P]. destruct (int16_taps pad p input filter S C H16) as [HX _].
    apply (from_bytes (round_up (out_c p) 8)); try assumption; [intros Q Q' HQ; apply conv_k_mono, HQ|rewrite E; lia|].
    intros Hc Htr ref0 H0. refine (C54_conv_asm_8x4 pad p input filter ieee o S C DInt8 ref0 out ieee_ok eq_refl Hc H16 HS Htr H0 _).
    change (Z.of_nat (esize DInt8)) with 1. lia.
  Qed.
  (** 32-bit accumulators *)
  Theorem C84_int8_4x4 :
    f_h p * f_w p * in_d p < 2 ^ 22 -> conv_schedule_ok 4 4 4 p input S ->
    round_up (out_c p) 4 <= zlen (p_mul o) -> round_up (out_c p) 4 <= zlen (p_bias o) ->
    asm_conv ieee (k44 false DInt8) DInt8 o 4 S p input filter out same_int8.
  Proof.
    intros Hk HS L1 L2.
    apply (from_bytes (round_up (out_c p) 4)); try assumption; [intros Q Q' HQ; apply conv_k_mono, HQ|exact (bt_deep pad p input filter S C Hk)|].
    intros Hc Htr ref0 H0. refine (C54_conv_asm_4x4 pad p input filter ieee o S C DInt8 ref0 out ieee_ok eq_refl Hc Hk HS Htr H0 _).
    change (Z.of_nat (esize DInt8)) with 1. lia.
  Qed.
End C84i.
Print Assumptions C84_int8_8x4.
Print Assumptions C84_int8_4x4.

(** The channels of C84_case, scale 3/4 and zero point -3: the hypotheses hold, and the
    reference kernel's float results include values that are not halfway. *)
Definition t84i : option (otp spec_float) := one_time_setup32 ex19_p ActRelu ex84m ex84b (widen (decode32 ex62s)) (sf_ofZ 53 1024 (-3)).
Definition ot84i : otparams :=
  match t84i with
  | Some t => {| p_cmin := ot_min t; p_cmax := ot_max t; p_mul := map encode32 (ot_mult t) ++ []; p_bias := map encode32 (ot_bias t) ++ [7]; p_thr := [] |}
  | None => ot8 end.
Example C84_int8_case :
  (forall t, one_time_setup32 ex19_p ActRelu ex84m ex84b (widen (decode32 ex62s)) (sf_ofZ 53 1024 (-3)) = Some t -> stored t ot84i) /\ t84i <> None /\
  round_up (out_c ex19_p) 8 <= zlen (p_mul ot84i) /\ round_up (out_c ex19_p) 8 <= zlen (p_bias ot84i) /\
  exists res ys, eval_ref_int8_32 ex19_p ActRelu ex19_in ex19_fl ex84m ex84b ex62s (-3) (repeat 0 30) = Some res /\
    (let* t := t84i in BConv2DReference_val ex19_p ex19_in ex19_fl (run_float sfops t) (repeat (S754_zero false) 30)) = Some ys /\
    zlen ys = 30 /\ (forall y, In y ys -> is_finite_SF y = true).
Proof.
  split.
  { intros t Ht. unfold ot84i. change (t84i = Some t) in Ht. rewrite Ht. split; [reflexivity|]. split; [reflexivity|]. exists [], [7]. repeat (split; [reflexivity|]).
    split; [constructor|]. constructor; [unfold pat; lia|constructor]. }
  split; [vm_compute; discriminate|]. split; [vm_compute; congruence|]. split; [vm_compute; congruence|].
  eexists. eexists. split; [vm_compute; reflexivity|]. split; [vm_compute; reflexivity|]. split; [reflexivity|].
  intros y Hy. repeat (destruct Hy as [<- |Hy]; [reflexivity|]). destruct Hy.
Qed.
