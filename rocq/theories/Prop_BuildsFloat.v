(** * C84: float outputs of the Arm assembly kernels are the reference kernel's, bit for bit. *)
From Coq Require Import ZArith Lia QArith Qabs SpecFloat.
From Verif Require Import Base Spec Bits Bitpack Loop4 Float32 Reference OutputTransform Quantize RefTheorems Padding ThresholdFloat Threshold ThresholdMargin ThresholdConv ThresholdMargin FloatSetup FloatConv Log Bgemm BgemmProofs BgemmConv IndirectTop Select Check
  A64 A64Bgemm A64Lemmas A64Trans A64Kernel44 A64Rel A64Conv A32 A64Rel Prepare Lifecycle EndToEnd IeeeOps AsmFloat Prop_Builds Prop_Bgemm Prop_A64 Prop_A64b Prop_A32 Prop_Arm32Conv Prop_FloatAccuracy
  Indirect IndirectBuf ZeroPad FloatZeroPad Prop_Indirect Prop_FloatOpt.
From Flocq Require Import BinarySingleNaN.
Open Scope Z_scope.

(** The bytes of the output tensor, read as binary32 numbers. *)
Definition floats (bytes : list Z) : list spec_float := map decode32 (lanes 4 bytes).

Lemma floats_words res : Forall (fun x => valid32 x = true) res -> floats (vec 4 (map encode32 res)) = res.
Proof.
  intros H. unfold floats. rewrite lanes4, !map_map. induction H as [|x l Hx Hl IH]; [reflexivity|]. cbn [map]. rewrite IH. f_equal.
  rewrite Z.mod_small by apply encode_range. apply decode_encode. exact Hx.
Qed.

Section C84.
  Variables (pad : padding) (p : bconv) (a : activation) (input filter mw bw : list Z) (o : otparams) (S : schedule) (t : otp spec_float).
  (** A convolution (one or VALID padding, no groups) with its C++ parameters: the
      multipliers and biases as binary32 words, what OneTimeSetup makes of them in
      double and single precision, and a parameter block that holds that, with any
      words behind the arrays. *)
  Hypothesis C : conv_call pad p input filter S.
  Hypothesis (Hm : zlen mw = out_c p) (Hb : zlen bw = out_c p).
  Hypothesis HT : one_time_setup32 p a mw bw (sf_ofZ 53 1024 1) (sf_ofZ 53 1024 0) = Some t.
  Hypothesis ST : stored t o.
  Variables (out : list Z) (out1 : list spec_float).
  Hypothesis (Ho : zlen out = 4 * (out_pixels (geom_of p) * out_c p)) (H1 : zlen out1 = out_pixels (geom_of p) * out_c p).

  (** What the output tensor holds: exactly the numbers of the reference kernel. *)
  Definition same_floats (out' : list Z) : Prop :=
    zlen out' = zlen out /\ eval_ref_float32 p a input filter mw bw out1 = Some (floats out').

  Lemma from_words n (K : (list Z -> Prop) -> Prop) (Kmono : forall Q Q' : list Z -> Prop, (forall d, Q d -> Q' d) -> K Q -> K Q') :
    0 <= backtransform_add p < 2 ^ 30 -> n <= zlen (p_mul o) -> n <= zlen (p_bias o) ->
    (p_cmin o <= p_cmax o -> tr_ok o n -> forall ref0, zlen ref0 = out_pixels (geom_of p) * out_c p ->
       K (fun out' => exists ref, BConv2DReference_val p input filter (run_of ieee DFloat o) ref0 = Some ref /\ out' = vec 4 ref)) ->
    K same_floats.
  Proof.
    intros Hbt L1 L2 HK. destruct C.
    destruct (setup_range p a mw bw t _ _ cc_wf Hm Hb HT Hbt) as (_ & _ & IC). destruct ST as (E1 & E2 & _).
    destruct (reference_words p a mw bw t _ _ cc_wf Hm Hb HT Hbt o input filter (repeat 0 (Z.to_nat (out_pixels (geom_of p) * out_c p))) out1 ST cc_in cc_fl) as (res & R1 & R2 & R3 & R4).
    { rewrite zlen_repeat. apply Z2Nat.id. rewrite <- H1. apply zlen_nonneg. }
    { exact H1. }
    assert (H0 : zlen (repeat 0 (Z.to_nat (out_pixels (geom_of p) * out_c p))) = out_pixels (geom_of p) * out_c p) by (rewrite zlen_repeat; apply Z2Nat.id; rewrite <- H1; apply zlen_nonneg).
    eapply Kmono; [|apply (HK ltac:(rewrite E1, E2; exact IC) (stored_tr p a mw bw t _ _ cc_wf Hm Hb HT Hbt o n ST L1 L2) _ H0)].
    intros d (ref & E & ->). rewrite R3 in E. injection E as <-. unfold same_floats. rewrite zlen_vec. change (Z.of_nat 4) with 4. split.
    - unfold zlen in *. rewrite map_length. lia.
    - rewrite (floats_words res R4). unfold eval_ref_float32. rewrite HT. exact R1.
  Qed.
  Lemma bt_taps : backtransform_add p = taps (geom_of p) /\ 0 <= taps (geom_of p).
  Proof.
    destruct C. destruct (wf_facts p cc_wf) as (_&_&_&_&_&_&_&_&HCI&_). unfold backtransform_add, taps. cbn [geom_of gKH gKW gCI].
    rewrite cc_groups, Z.quot_1_r, Z.div_1_r in *. split; [ring|]. assert (0 <= f_h p * f_w p) by nia. nia.
  Qed.
  Lemma bt_deep : f_h p * f_w p * in_d p < 2 ^ 22 -> 0 <= backtransform_add p < 2 ^ 30.
  Proof.
    intros H. destruct bt_taps as [E P]. rewrite E. split; [exact P|]. destruct C.
    unfold taps. cbn [geom_of gKH gKW gCI]. rewrite cc_groups, Z.div_1_r. rewrite (wf_ind p cc_wf) in H.
    assert (W : channels_in p <= 32 * words (channels_in p)) by (unfold words; Z.to_euclidean_division_equations; lia).
    assert (0 < f_h p * f_w p) by nia. nia.
  Qed.

  (** AArch64, 16-bit accumulators *)
  Theorem C84_aarch64_8x4 :
    bgemm_uses_int16 true p = true -> conv_schedule_ok 4 8 4 p input S ->
    round_up (out_c p) 8 <= zlen (p_mul o) -> round_up (out_c p) 8 <= zlen (p_bias o) ->
    asm_conv ieee (k84 DFloat) DFloat o 8 S p input filter out same_floats.
  Proof.
    intros H16 HS L1 L2. destruct bt_taps as [E P]. destruct (int16_taps pad p input filter S C H16) as [HX _].
    apply (from_words (round_up (out_c p) 8)); try assumption; [intros Q Q' HQ; apply conv_k_mono, HQ|rewrite E; lia|].
    intros Hc Htr ref0 H0. exact (C54_conv_asm_8x4 pad p input filter ieee o S C DFloat ref0 out ieee_ok eq_refl Hc H16 HS Htr H0 Ho).
  Qed.
  (** AArch64, 32-bit accumulators *)
  Theorem C84_aarch64_4x4 :
    f_h p * f_w p * in_d p < 2 ^ 22 -> conv_schedule_ok 4 4 4 p input S ->
    round_up (out_c p) 4 <= zlen (p_mul o) -> round_up (out_c p) 4 <= zlen (p_bias o) ->
    asm_conv ieee (k44 false DFloat) DFloat o 4 S p input filter out same_floats.
  Proof.
    intros Hk HS L1 L2.
    apply (from_words (round_up (out_c p) 4)); try assumption; [intros Q Q' HQ; apply conv_k_mono, HQ|exact (bt_deep Hk)|].
    intros Hc Htr ref0 H0. exact (C54_conv_asm_4x4 pad p input filter ieee o S C DFloat ref0 out ieee_ok eq_refl Hc Hk HS Htr H0 Ho).
  Qed.
  (** 32-bit Arm *)
  Theorem C84_arm32 :
    f_h p * f_w p * in_d p < 2 ^ 22 -> conv_schedule_ok 4 4 4 p input S ->
    round_up (out_c p) 4 <= zlen (p_mul o) -> round_up (out_c p) 4 <= zlen (p_bias o) ->
    conv_k (K32 ieee DFloat o) DFloat 4 S p input filter out same_floats.
  Proof.
    intros Hk HS L1 L2.
    apply (from_words (round_up (out_c p) 4)); try assumption; [intros Q Q' HQ; apply conv_k_mono, HQ|exact (bt_deep Hk)|].
    intros Hc Htr ref0 H0. exact (C70_conv_arm32_float pad p input filter ieee o S C ieee_ok Hc Hk HS Htr ref0 out H0 Ho).
  Qed.

  (** Hence the accuracy of C62 on the Arm builds: whatever kernel leaves [same_floats],
      each number it writes is finite and within C62's bound of the exact value. *)
  Theorem C84_accuracy out' : same_floats out' -> taps (geom_of p) <= 2 ^ 22 ->
    (forall w, In w mw \/ In w bw -> finite32 w = true /\ (Qabs (exact32 w) <= inject_Z (2 ^ 100))%Q) ->
    forall b y x c m bi, 0 <= b < batches p -> 0 <= y < out_h p -> 0 <= x < out_w p -> rd mw c = Some m -> rd bw c = Some bi ->
      exists w, rd (lanes 4 out') (out_pixel (geom_of p) b y x * out_c p + c) = Some w /\ is_finite_SF (decode32 w) = true /\
        (Qabs (exact32 w - exact_out p a input filter m bi b y x c) <= (1 # 2 ^ 21) * magnitude p m bi + (1 # 2 ^ 125))%Q.
  Proof.
    intros [_ HE] Ht Ok b y x c m bi Hbb Hy Hx Hcm Hcb. destruct C.
    assert (Hz : pad_same p && (pad_value p =? 0) = false) by (destruct cc_pad as [-> | ->]; [reflexivity|destruct (pad_same p); reflexivity]).
    destruct (C62_float_output_accuracy p a input filter mw bw out1 cc_wf cc_in cc_fl ltac:(rewrite Hz; discriminate) Ht Hm Hb Ok H1) as (res & E & _ & V).
    rewrite HE in E. injection E as E. destruct (V b y x c m bi Hbb Hy Hx Hcm Hcb) as (r & Er & Fr & _ & B).
    rewrite <- E in Er. unfold floats in Er. rewrite rd_map in Er. destruct (rd (lanes 4 out') _) as [w|] eqn:Ew; [|discriminate]. injection Er as <-.
    exists w. split; [reflexivity|]. split; [exact Fr|exact B].
  Qed.
End C84.
Print Assumptions C84_aarch64_8x4.
Print Assumptions C84_aarch64_4x4.
Print Assumptions C84_arm32.
Print Assumptions C84_accuracy.

(** ** SAME padding with zeros *)

(** The kernels pad with ones; the C++ code then corrects the output (optimized_bgemm.h
    152-181). [with_ones]: the convolution the kernel computes. *)
Definition with_ones (p : bconv) : bconv :=
  {| batches := batches p; in_h := in_h p; in_w := in_w p; in_d := in_d p; out_c := out_c p; f_h := f_h p; f_w := f_w p; f_d := f_d p;
     out_h := out_h p; out_w := out_w p; channels_in := channels_in p; groups := groups p; s_h := s_h p; s_w := s_w p;
     dl_h := dl_h p; dl_w := dl_w p; pad_h := pad_h p; pad_w := pad_w p; pad_same := pad_same p; pad_value := 1 |}.
(** The assembly and then the correction: what the indirect kernel gives, bit for bit;
    hence within C71's bound of the exact result. *)
Definition zero_padded (p : bconv) (a : activation) (input filter mw bw out : list Z) (out1 : list spec_float) (out' : list Z) : Prop :=
  zlen out' = zlen out /\
  forall buf, let corrected := let* cache := padding_buffer32 p filter mw buf in correct32 p cache (floats out') in
    corrected = eval_indirect_float32 p a input filter mw bw buf out1 /\
    (float_case p a input filter mw bw buf out1 -> exists res, corrected = Some res /\ accurate p a input filter mw bw out1 res).
Lemma ones_then_correct pad p a input filter mw bw S t out out1 d :
  conv_call pad (with_ones p) input filter S -> zlen mw = out_c p -> zlen bw = out_c p ->
  one_time_setup32 p a mw bw (sf_ofZ 53 1024 1) (sf_ofZ 53 1024 0) = Some t -> 1 <= f_d p -> int32_indices p ->
  zlen out1 = out_pixels (geom_of p) * out_c p ->
  same_floats (with_ones p) a input filter mw bw out out1 d -> zero_padded p a input filter mw bw out out1 d.
Proof.
  intros C Hm Hb HT Hfd Hint H1 [L E]. split; [exact L|]. intros buf corrected.
  assert (EI : indirect_val p input filter (run_float sfops t) out1 = Some (floats d)).
  { change (indirect_val p input filter (run_float sfops t) out1) with (indirect_val (with_ones p) input filter (run_float sfops t) out1).
    destruct C.
    unfold eval_ref_float32 in E. change (one_time_setup32 (with_ones p) a mw bw) with (one_time_setup32 p a mw bw) in E. rewrite HT in E. cbn [bind] in E.
    destruct (C13_indirect_equals_reference _ (with_ones p) input filter (run_float sfops t) out1 cc_wf cc_in cc_fl cc_fh cc_fw Hfd Hint (or_intror eq_refl)) as (o1 & E1 & E2).
    - intros accum c Hc. destruct (setup_entry (with_ones p) a mw bw t _ _ cc_wf Hm Hb HT c Hc) as (m & bi & Em & Eb & _). unfold run_float. rewrite Em, Eb. eexists. reflexivity.
    - exact H1.
    - rewrite E1. rewrite E in E2. congruence. }
  assert (EC : corrected = eval_indirect_float32 p a input filter mw bw buf out1).
  { unfold corrected, eval_indirect_float32. rewrite HT. cbn [bind]. destruct (padding_buffer32 p filter mw buf) as [cache|]; [|reflexivity]. cbn [bind]. rewrite EI. reflexivity. }
  split; [exact EC|]. intros FC. destruct (C71_indirect_accuracy p a input filter mw bw buf out1 FC Hfd Hint) as (res & Er & Ar).
  exists res. split; [rewrite EC; exact Er|exact Ar].
Qed.
Section Zero.
  Variables (pad : padding) (p : bconv) (a : activation) (input filter mw bw : list Z) (o : otparams) (S : schedule) (t : otp spec_float) (out : list Z) (out1 : list spec_float).
  Hypothesis C : conv_call pad (with_ones p) input filter S.
  Hypothesis (Hm : zlen mw = out_c p) (Hb : zlen bw = out_c p).
  Hypothesis HT : one_time_setup32 p a mw bw (sf_ofZ 53 1024 1) (sf_ofZ 53 1024 0) = Some t.
  Hypothesis ST : stored t o.
  Hypothesis (Hfd : 1 <= f_d p) (Hint : int32_indices p).
  Hypothesis (Ho : zlen out = 4 * (out_pixels (geom_of p) * out_c p)) (H1 : zlen out1 = out_pixels (geom_of p) * out_c p).

  Theorem C84_zero_padding :
    bgemm_uses_int16 true p = true -> conv_schedule_ok 4 8 4 p input S -> round_up (out_c p) 8 <= zlen (p_mul o) -> round_up (out_c p) 8 <= zlen (p_bias o) ->
    asm_conv ieee (k84 DFloat) DFloat o 8 S p input filter out (zero_padded p a input filter mw bw out out1).
  Proof.
    intros H16 HS L1 L2.
    change (asm_conv ieee (k84 DFloat) DFloat o 8 S p input filter out) with (asm_conv ieee (k84 DFloat) DFloat o 8 S (with_ones p) input filter out).
    eapply conv_k_mono; [|exact (C84_aarch64_8x4 pad (with_ones p) a input filter mw bw o S t C Hm Hb HT ST out out1 Ho H1 H16 HS L1 L2)].
    intros d Hd. exact (ones_then_correct pad p a input filter mw bw S t out out1 d C Hm Hb HT Hfd Hint H1 Hd).
  Qed.
  Theorem C84_zero_padding_4x4 :
    f_h p * f_w p * in_d p < 2 ^ 22 -> conv_schedule_ok 4 4 4 p input S -> round_up (out_c p) 4 <= zlen (p_mul o) -> round_up (out_c p) 4 <= zlen (p_bias o) ->
    asm_conv ieee (k44 false DFloat) DFloat o 4 S p input filter out (zero_padded p a input filter mw bw out out1).
  Proof.
    intros Hk HS L1 L2.
    change (asm_conv ieee (k44 false DFloat) DFloat o 4 S p input filter out) with (asm_conv ieee (k44 false DFloat) DFloat o 4 S (with_ones p) input filter out).
    eapply conv_k_mono; [|exact (C84_aarch64_4x4 pad (with_ones p) a input filter mw bw o S t C Hm Hb HT ST out out1 Ho H1 Hk HS L1 L2)].
    intros d Hd. exact (ones_then_correct pad p a input filter mw bw S t out out1 d C Hm Hb HT Hfd Hint H1 Hd).
  Qed.
  Theorem C84_zero_padding_arm32 :
    f_h p * f_w p * in_d p < 2 ^ 22 -> conv_schedule_ok 4 4 4 p input S -> round_up (out_c p) 4 <= zlen (p_mul o) -> round_up (out_c p) 4 <= zlen (p_bias o) ->
    conv_k (K32 ieee DFloat o) DFloat 4 S p input filter out (zero_padded p a input filter mw bw out out1).
  Proof.
    intros Hk HS L1 L2.
    change (conv_k (K32 ieee DFloat o) DFloat 4 S p input filter out) with (conv_k (K32 ieee DFloat o) DFloat 4 S (with_ones p) input filter out).
    eapply conv_k_mono; [|exact (C84_arm32 pad (with_ones p) a input filter mw bw o S t C Hm Hb HT ST out out1 Ho H1 Hk HS L1 L2)].
    intros d Hd. exact (ones_then_correct pad p a input filter mw bw S t out out1 d C Hm Hb HT Hfd Hint H1 Hd).
  Qed.
End Zero.
Print Assumptions C84_zero_padding.
Print Assumptions C84_zero_padding_4x4.
Print Assumptions C84_zero_padding_arm32.

(** C47 on AArch64, for float outputs: after any history of resizes, allocations and new
    inputs that leaves the operator ready, every number the 8x4 assembly writes on the
    present input is finite and within C62's bound of the mathematical result. [mw], [bw]
    are the binary32 words of the multiplier and bias tensors; the other hypotheses are
    those of C83_invoke_aarch64, and no zero padding. *)
Theorem C84_invoke_aarch64 (w : world) (es : list event) (st : istate) (mw bw : list Z) (o : otparams) (S0 : sched) (S : schedule) (out : list Z) :
  world_ok KBgemm w -> run_events KBgemm w es init_state = Some st -> st_ready st = true -> wd_out w = TFloat32 ->
  wd_mul w = map exact32 mw -> wd_bias w = map exact32 bw ->
  (forall x, In x mw \/ In x bw -> finite32 x = true /\ (Qabs (exact32 x) <= inject_Z (2 ^ 100))%Q) ->
  (at_pad (wd_a w) = PadSame -> at_pv (wd_a w) = 1) ->
  (forall r, Prepare KBgemm (wd_a w) (node_of w (st_ish st)) = Some (Ok r) ->
     let p := params_of (wd_a w) r (st_ish st) (ti_dims (wd_filter_t w)) (pr_out r) in
     call_ok KReference w (st_ish st) p (st_input st) S0 /\
     (forall t, one_time_setup32 p (at_act (wd_a w)) mw bw (sf_ofZ 53 1024 1) (sf_ofZ 53 1024 0) = Some t -> stored t o) /\
     out_c p < 2 ^ 29 /\ out_pixels (geom_of p) < 2 ^ 31 - 8 /\
     4 * sc_lstride S < 2 ^ 32 /\ 4 * sc_rstride S < 2 ^ 32 /\ Forall nonempty (sc_blocks S) /\ conv_schedule_ok 4 8 4 p (st_input st) S /\
     bgemm_uses_int16 true p = true /\ round_up (out_c p) 8 <= zlen (p_mul o) /\ round_up (out_c p) 8 <= zlen (p_bias o) /\
     zlen out = 4 * elements (pr_out r)) ->
  exists r, Prepare KBgemm (wd_a w) (node_of w (st_ish st)) = Some (Ok r) /\
    let p := params_of (wd_a w) r (st_ish st) (ti_dims (wd_filter_t w)) (pr_out r) in
    asm_conv ieee (k84 DFloat) DFloat o 8 S p (st_input st) (wd_filter w) out (fun out' =>
      zlen out' = zlen out /\
      forall b y x c m bi, 0 <= b < batches p -> 0 <= y < out_h p -> 0 <= x < out_w p -> rd (wd_mul w) c = Some m -> rd (wd_bias w) c = Some bi ->
        exists v, rd (lanes 4 out') (out_pixel (geom_of p) b y x * out_c p + c) = Some v /\ is_finite_SF (decode32 v) = true /\
          (Qabs (exact32 v - (m * inject_Z (act_spec (at_act (wd_a w)) (the_value w p (st_input st) b y x c)) + bi))
             <= (1 # 2 ^ 21) * (Qabs bi + inject_Z (taps (geom_of p)) * Qabs m) + (1 # 2 ^ 125))%Q).
Proof.
  intros HW HE HR EO EM EB Ok Hpv HC. destruct (run_INV KBgemm w HW es _ _ (INV_init KBgemm w) HE HR) as (HP & _).
  exists (od_prep (st_od st)). split; [exact HP|]. cbv zeta. destruct (HC _ HP) as (C1 & C2 & C3 & C4 & C5 & C6 & C7 & C8 & C9 & C10 & C11 & C12). clear HC.
  set (r := od_prep (st_od st)) in *. set (p := params_of (wd_a w) r (st_ish st) (ti_dims (wd_filter_t w)) (pr_out r)) in *.
  destruct (prepared_facts w (st_ish st) r (st_input st) S0 HW HP C1) as (WF & PP & HG & Hin & Hfl & EL & G1 & G2 & G3 & G4 & _ & Hpad & _ & HM). fold p in WF, PP, HG, Hin, Hfl, EL, G1, G2, G3, G4, Hpad, HM.
  rewrite EO in EL. cbn [ttype_eqb] in EL. destruct (HM ltac:(rewrite EO; discriminate)) as [Hm Hb].
  assert (EZ : pad_same p && (pad_value p =? 0) = false).
  { unfold p. cbn [params_of pad_same pad_value]. destruct (at_pad (wd_a w)) eqn:Ep; try reflexivity. rewrite (Hpv eq_refl). reflexivity. }
  specialize (Hpad EZ).
  assert (HC : conv_call (at_pad (wd_a w)) p (st_input st) (wd_filter w) S) by (constructor; assumption).
  assert (Lm : zlen mw = out_c p) by (rewrite EM in Hm; unfold zlen in *; rewrite map_length in Hm; exact Hm).
  assert (Lb : zlen bw = out_c p) by (rewrite EB in Hb; unfold zlen in *; rewrite map_length in Hb; exact Hb).
  destruct (setup32_ok p (at_act (wd_a w)) mw bw (sf_ofZ 53 1024 1) (sf_ofZ 53 1024 0) (out_c_nonneg p WF) Lm Lb) as (t & HT & _).
  set (out1 := repeat (S754_zero false) (Z.to_nat (elements (pr_out r)))).
  assert (L1 : zlen out1 = out_pixels (geom_of p) * out_c p).
  { unfold out1. rewrite zlen_repeat, Z2Nat.id; [exact EL|]. assert (0 <= zlen out) by apply zlen_nonneg. lia. }
  assert (Ht : taps (geom_of p) <= 2 ^ 22) by (destruct (int16_taps _ _ _ _ _ HC C9) as [X _]; lia).
  eapply conv_k_mono; [|apply (C84_aarch64_8x4 (at_pad (wd_a w)) p (at_act (wd_a w)) (st_input st) (wd_filter w) mw bw o S t HC Lm Lb HT (C2 t HT) out out1 ltac:(rewrite C12, EL; reflexivity) L1 C9 C8 C10 C11)].
  intros d HS. split; [exact (proj1 HS)|]. intros b y x c m bi Hbb Hy Hx Hcm Hcb.
  rewrite EM, rd_map in Hcm. rewrite EB, rd_map in Hcb. destruct (rd mw c) as [m'|] eqn:Em; [|discriminate]. destruct (rd bw c) as [b'|] eqn:Eb; [|discriminate].
  injection Hcm as <-. injection Hcb as <-.
  destruct (C84_accuracy (at_pad (wd_a w)) p (at_act (wd_a w)) (st_input st) (wd_filter w) mw bw S HC Lm Lb out out1 L1 d HS Ht Ok b y x c m' b' Hbb Hy Hx Em Eb) as (v & Ev & Fv & Bv).
  exists v. split; [exact Ev|]. split; [exact Fv|]. exact Bv.
Qed.
Print Assumptions C84_invoke_aarch64.

(** A case: the convolution of C54 with relu, multipliers 0.5, 0, -0.75, 2, 0.1 and biases -3.5,
    -1, 100, -3, -0.3 as an operator given two inputs. *)
Definition ex84m : list Z := [1056964608; 0; 3208642560; 1073741824; 1036831949].
Definition ex84b : list Z := [3227516928; 3212836864; 1120403456; 3225419776; 3197737370].
Definition ex84_w : world :=
  {| wd_a := {| at_sh := 1; at_sw := 2; at_dh := 1; at_dw := 1; at_pad := PadSame; at_pv := 1; at_cin := 20; at_act := ActRelu |};
     wd_filter_t := {| ti_type := TInt32; ti_dims := [5; 1; 3; 1] |}; wd_filter := ex19_fl;
     wd_mul_t := {| ti_type := TFloat32; ti_dims := [5] |}; wd_mul := map exact32 ex84m; wd_bias_t := {| ti_type := TFloat32; ti_dims := [5] |}; wd_bias := map exact32 ex84b;
     wd_thr_t := {| ti_type := TOther; ti_dims := [] |}; wd_thr := [];
     wd_out := TFloat32; wd_affine := true; wd_scale := 1%Q; wd_zp := 0 |}.
Definition t84 : option (otp spec_float) := one_time_setup32 ex19_p ActRelu ex84m ex84b (sf_ofZ 53 1024 1) (sf_ofZ 53 1024 0).
Definition ot84 : otparams :=
  match t84 with
  | Some t => {| p_cmin := ot_min t; p_cmax := ot_max t; p_mul := map encode32 (ot_mult t) ++ []; p_bias := map encode32 (ot_bias t) ++ [7]; p_thr := [] |}
  | None => ot8 end.
Example C84_case : conv_call PadSame ex19_p ex19_in ex19_fl ex_sched8 /\ zlen ex84m = out_c ex19_p /\ zlen ex84b = out_c ex19_p /\
  (forall t, one_time_setup32 ex19_p ActRelu ex84m ex84b (sf_ofZ 53 1024 1) (sf_ofZ 53 1024 0) = Some t -> stored t ot84) /\ t84 <> None /\
  bgemm_uses_int16 true ex19_p = true /\ conv_schedule_ok 4 8 4 ex19_p ex19_in ex_sched8 /\
  round_up (out_c ex19_p) 8 <= zlen (p_mul ot84) /\ round_up (out_c ex19_p) 8 <= zlen (p_bias ot84) /\
  f_h ex19_p * f_w ex19_p * in_d ex19_p < 2 ^ 22 /\ conv_schedule_ok 4 4 4 ex19_p ex19_in ex_sched /\
  (forall x, In x ex84m \/ In x ex84b -> finite32 x = true /\ (Qabs (exact32 x) <= inject_Z (2 ^ 100))%Q).
Proof.
  destruct C54_case as (A & B & C & _). destruct C54_case44 as (_ & D & E & _).
  split; [exact A|]. split; [reflexivity|]. split; [reflexivity|]. split.
  { intros t Ht. unfold ot84. change (t84 = Some t) in Ht. rewrite Ht. split; [reflexivity|]. split; [reflexivity|]. exists [], [7]. repeat (split; [reflexivity|]).
    split; [constructor|]. constructor; [unfold pat; lia|constructor]. }
  split; [vm_compute; discriminate|]. split; [exact B|]. split; [exact C|]. split; [vm_compute; congruence|]. split; [vm_compute; congruence|]. split; [exact D|]. split; [exact E|].
  intros x [H|H]; repeat (destruct H as [<- |H]; [split; vm_compute; congruence|]); destruct H.
Qed.
Example C84_invoke_case : world_ok KBgemm ex84_w /\
  exists st r, run_events KBgemm ex84_w ex83_es init_state = Some st /\ st_ready st = true /\ st_ish st = [1; 3; 4; 1] /\ st_input st = ex19_in /\
    Prepare KBgemm (wd_a ex84_w) (node_of ex84_w (st_ish st)) = Some (Ok r) /\
    params_of (wd_a ex84_w) r (st_ish st) (ti_dims (wd_filter_t ex84_w)) (pr_out r) = ex19_p /\ elements (pr_out r) = 30 /\
    forall S0, call_ok KReference ex84_w (st_ish st) ex19_p (st_input st) S0.
Proof.
  split.
  { unfold world_ok. do 10 (split; [vm_compute; discriminate|]). split; [|split; [intros _; split; reflexivity|intros _ H; discriminate H]].
    intros g Hg. vm_compute in Hg. injection Hg as <-. apply packedb_ok; [discriminate|vm_compute; reflexivity]. }
  eexists. eexists. split; [vm_compute; reflexivity|]. split; [reflexivity|]. split; [reflexivity|]. split; [vm_compute; reflexivity|].
  split; [vm_compute; reflexivity|]. split; [vm_compute; reflexivity|]. split; [vm_compute; reflexivity|].
  intros S0. constructor; try (intros H; discriminate H).
  - vm_compute. intuition congruence.
  - reflexivity.
  - apply packedb_ok; vm_compute; congruence.
  - vm_compute. reflexivity.
  - right. reflexivity.
  - vm_compute. reflexivity.
  - intros H. exfalso. apply H. reflexivity.
Qed.
(** ... and with zero padding. *)
Definition ex84_z : bconv :=
  {| batches := 1; in_h := 3; in_w := 4; in_d := 1; out_c := 5; f_h := 1; f_w := 3; f_d := 1;
     out_h := 3; out_w := 2; channels_in := 20; groups := 1; s_h := 1; s_w := 2;
     dl_h := 1; dl_w := 1; pad_h := 0; pad_w := 0; pad_same := true; pad_value := 0 |}.
Definition zeros84 (n : Z) : list spec_float := repeat (S754_zero false) (Z.to_nat n).
Example C84_zero_case : with_ones ex84_z = ex19_p /\ 1 <= f_d ex84_z /\ int32_indices ex84_z /\ bgemm_uses_int16 true ex84_z = true /\
  conv_schedule_ok 4 8 4 ex84_z ex19_in ex_sched8 /\
  f_h ex84_z * f_w ex84_z * in_d ex84_z < 2 ^ 22 /\ conv_schedule_ok 4 4 4 ex84_z ex19_in ex_sched /\
  float_case ex84_z ActNone ex19_in ex19_fl ex84m ex84b (zeros84 (GetCacheSize (f_h ex84_z) (f_w ex84_z) (out_c ex84_z) (dl_h ex84_z) (dl_w ex84_z))) (zeros84 30).
Proof.
  destruct ex19_ok as ([] & HP & _ & Hin & Hfl & _). destruct C54_case as (_ & B & C & _). destruct C54_case44 as (_ & D & E & _).
  split; [reflexivity|]. split; [cbn; lia|]. split.
  { split; [cbn; lia|]. intros ox fx Hx Hf. cbn in *. lia. }
  split; [exact B|]. split; [exact C|]. split; [exact D|]. split; [exact E|]. split; [constructor; vm_compute; intuition congruence|]. split; [exact Hin|]. split; [exact Hfl|].
  split; [exists PadSame; exact HP|]. split; [intros _; split; [reflexivity|]; vm_compute; split; congruence|]. split; [vm_compute; intuition congruence|].
  split; [vm_compute; congruence|]. split; [reflexivity|]. split; [reflexivity|]. split; [apply C84_case|]. split; vm_compute; reflexivity.
Qed.
