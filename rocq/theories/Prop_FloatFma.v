(** * Property C79: the accuracy of the float path does not depend on which
    multiplication-additions the compiler fuses. *)
From Coq Require Import QArith Qabs SpecFloat Lia Psatz.
From Flocq Require Import BinarySingleNaN.
From Verif Require Import Base Spec Bits Bitpack Float32 Reference OutputTransform Quantize RefTheorems Padding Log Bgemm BgemmProofs
  IndirectBuf IndirectTop BgemmConv Indirect Threshold ThresholdFloat ThresholdMargin ThresholdConv FloatSetup FloatAccuracy FloatConv
  ZeroPad FloatZeroPad FloatFma FloatFmaOpt Check Prop_Reference Prop_FloatAccuracy Prop_ZeroPad Prop_Bgemm Prop_FloatOpt.
Open Scope Z_scope.

(** The fused operation used below is Flocq's, on all binary32 and all binary64 data. *)
Theorem C79_fma32_is_ieee (x y z : binary_float 24 128) :
  sf_fma 24 128 (B2SF x) (B2SF y) (B2SF z) = B2SF (@Bfma 24 128 p24 e128 mode_NE x y z).
Proof. apply fma_eq. Qed.
Print Assumptions C79_fma32_is_ieee.
Theorem C79_fma64_is_ieee (x y z : binary_float 53 1024) :
  sf_fma 53 1024 (B2SF x) (B2SF y) (B2SF z) = B2SF (@Bfma 53 1024 p53 e1024 mode_NE x y z).
Proof. apply fma_eq. Qed.
Print Assumptions C79_fma64_is_ieee.

(** The reference kernel. [cs]: the channels whose bias is set up with a fused
    operation; [k]: the accumulator values and channels transformed with one. *)
Theorem C79_float_reference cs k p a input filter mw bw out :
  bconv_wf p ->
  packed input (in_pixels (geom_of p)) (channels_in p) ->
  packed filter (filter_pixels (geom_of p)) (channels_in p / groups p) ->
  (pad_same p && (pad_value p =? 0) = true -> (channels_in p / groups p) mod 2 = 0) ->
  taps (geom_of p) <= 2 ^ 22 ->
  zlen mw = out_c p -> zlen bw = out_c p ->
  (forall w, In w mw \/ In w bw -> finite32 w = true /\ (Qabs (exact32 w) <= inject_Z (2 ^ 100))%Q) ->
  zlen out = out_pixels (geom_of p) * out_c p ->
  exists out', eval_ref_float32_c cs k p a input filter mw bw out = Some out' /\
    zlen out' = zlen out /\
    forall b y x c m bi, 0 <= b < batches p -> 0 <= y < out_h p -> 0 <= x < out_w p ->
      rd mw c = Some m -> rd bw c = Some bi ->
      exists r, rd out' (out_pixel (geom_of p) b y x * out_c p + c) = Some r /\ is_finite_SF r = true /\
        (Qabs (SF2Q r - exact_out p a input filter m bi b y x c) <= (1 # 2 ^ 21) * magnitude p m bi + (1 # 2 ^ 125))%Q.
Proof.
  intros WF Hin Hfl Hev Ht Hm Hb Ok Ho.
  assert (Ok' : forall l, l = mw \/ l = bw -> forall c w, rd l c = Some w -> finite32 w = true /\ (Qabs (exact32 w) <= inject_Z (2 ^ 100) * 1)%Q).
  { intros l Hl c w Hr. assert (I : In w l) by (unfold rd in Hr; destruct (c <? 0); try discriminate; eapply nth_error_In; exact Hr).
    destruct (Ok w) as [F B]; [destruct Hl as [-> | ->]; auto|]. split; [exact F|]. rewrite Qmult_1_r. exact B. }
  destruct (eval32_c cs k p WF input filter mw bw Hin Hfl Hev Ht Hm Hb a (sf_ofZ 53 1024 1) 1%Q 0 ltac:(lia) scale_one ltac:(discriminate) ltac:(discriminate)
    (Ok' mw (or_introl eq_refl)) (Ok' bw (or_intror eq_refl)) out Ho) as (out' & E & L & V).
  exists out'. split; [exact E|]. split; [exact L|]. intros b y x c m bi H1 H2 H3 H4 H5.
  destruct (V b y x c m bi H1 H2 H3 H4 H5) as (r & Er & Fr & Cr). exists r. split; [exact Er|]. split; [exact Fr|].
  unfold yq32, dq32, delta in Cr. change (the_conv p input filter b y x c) with
    (conv (geom_of p) (if pad_same p && (pad_value p =? 0) then 0 else 1) (input_pm (geom_of p) input) (filter_pm (geom_of p) filter) b y x c) in Cr.
  fold (exact_out p a input filter m bi b y x c) in Cr. fold (magnitude p m bi) in Cr.
  setoid_replace (SF2Q r - exact_out p a input filter m bi b y x c)%Q with (SF2Q r - (exact_out p a input filter m bi b y x c / 1 + inject_Z 0))%Q by (unfold inject_Z; field).
  eapply Qle_trans; [exact Cr|]. apply Qplus_le_compat; [|apply Qle_refl]. apply Qle_lteq. right. change (Qabs (inject_Z 0)) with 0%Q. field.
Qed.
Print Assumptions C79_float_reference.

Theorem C79_int8_reference cs k p a input filter mw bw scale_w zp out :
  bconv_wf p ->
  packed input (in_pixels (geom_of p)) (channels_in p) ->
  packed filter (filter_pixels (geom_of p)) (channels_in p / groups p) ->
  (pad_same p && (pad_value p =? 0) = true -> (channels_in p / groups p) mod 2 = 0) ->
  taps (geom_of p) <= 2 ^ 22 ->
  zlen mw = out_c p -> zlen bw = out_c p ->
  finite32 scale_w = true -> ((1 # 2 ^ 126) <= exact32 scale_w)%Q -> -128 <= zp <= 127 ->
  (forall w, In w mw \/ In w bw -> finite32 w = true /\ (Qabs (exact32 w) <= inject_Z (2 ^ 100) * exact32 scale_w)%Q) ->
  zlen out = out_pixels (geom_of p) * out_c p ->
  exists out', eval_ref_int8_32_c cs k p a input filter mw bw scale_w zp out = Some out' /\
    zlen out' = zlen out /\
    forall b y x c m bi, 0 <= b < batches p -> 0 <= y < out_h p -> 0 <= x < out_w p ->
      rd mw c = Some m -> rd bw c = Some bi ->
      let e := int8_exact p a input filter m bi scale_w zp b y x c in
      let d := int8_delta p m bi scale_w zp in
      exists v z, rd out' (out_pixel (geom_of p) b y x * out_c p + c) = Some v /\
        v = Z.max (-128) (Z.min 127 z) /\ (Qabs (e - inject_Z z) <= (1 # 2) + d)%Q /\
        ((forall i, ~ (Qabs (e - (inject_Z i + (1 # 2))) <= d)%Q) -> v = Z.max (-128) (Z.min 127 (round_haz e))) /\
        ((d < 1)%Q -> Z.abs (v - Z.max (-128) (Z.min 127 (round_haz e))) <= 1).
Proof.
  intros WF Hin Hfl Hev Ht Hm Hb Fs Hs Hzp Ok Ho.
  assert (Ok' : forall l, l = mw \/ l = bw -> forall c w, rd l c = Some w -> finite32 w = true /\ (Qabs (exact32 w) <= inject_Z (2 ^ 100) * exact32 scale_w)%Q).
  { intros l Hl c w Hr. assert (I : In w l) by (unfold rd in Hr; destruct (c <? 0); try discriminate; eapply nth_error_In; exact Hr).
    apply Ok. destruct Hl as [-> | ->]; auto. }
  destruct (eval32_int8_c cs k p WF input filter mw bw Hin Hfl Hev Ht Hm Hb a (widen (decode32 scale_w)) (exact32 scale_w) zp ltac:(lia) (scale_word scale_w Fs) Hs
    (finite32_lt scale_w Fs) (Ok' mw (or_introl eq_refl)) (Ok' bw (or_intror eq_refl)) out Ho) as (out' & E & L & V).
  exists out'. split; [exact E|]. split; [exact L|]. intros b y x c m bi H1 H2 H3 H4 H5.
  destruct (V b y x c m bi H1 H2 H3 H4 H5) as (z & Er & Cr). exists (Z.max (-128) (Z.min 127 z)), z. split; [exact Er|]. split; [reflexivity|].
  split; [exact Cr|].
  assert (Dp : (0 <= int8_delta p m bi scale_w zp)%Q).
  { unfold int8_delta, magnitude. assert (0 < exact32 scale_w)%Q by (eapply Qlt_le_trans; [|exact Hs]; reflexivity).
    assert (T0 : 0 <= taps (geom_of p)) by (rewrite (taps_bt p WF); exact (taps_nn p WF)).
    assert (0 <= Qabs (exact32 bi) + inject_Z (taps (geom_of p)) * Qabs (exact32 m))%Q.
    { rewrite <- (Qplus_0_l 0). apply Qplus_le_compat; [apply Qabs_nonneg|]. apply Qmult_le_0_compat; [rewrite Zle_Qle in T0; exact T0|apply Qabs_nonneg]. }
    assert (0 <= (Qabs (exact32 bi) + inject_Z (taps (geom_of p)) * Qabs (exact32 m)) / exact32 scale_w)%Q
      by (apply Qle_shift_div_l; [assumption|rewrite Qmult_0_l; assumption]).
    assert (0 <= Qabs (inject_Z zp))%Q by apply Qabs_nonneg.
    rewrite <- (Qplus_0_l 0). apply Qplus_le_compat; [|discriminate]. apply Qmult_le_0_compat; [discriminate|]. lra. }
  exact (near_exact _ _ z Dp Cr).
Qed.
Print Assumptions C79_int8_reference.

(** The optimised kernels, with zero padding. *)
Theorem C79_float_indirect cs k p a input filter mw bw buf out :
  float_case p a input filter mw bw buf out -> 1 <= f_d p -> int32_indices p ->
  exists o, eval_indirect_float32_c cs k p a input filter mw bw buf out = Some o /\ accurate p a input filter mw bw out o.
Proof.
  intros (WF & Hi & Hf & (pad & HP) & Hz & (h1 & h2 & h3 & h4 & h5 & h6) & Ht & Hm & Hb & Ok & Hbuf & Ho) Hfd Hint.
  destruct (indirect32_c cs k pad p WF input filter mw bw Hi Hf HP a (fun z => proj1 (Hz z)) h1 h2 h3 h4 h5 h6 (fun z => proj2 (Hz z)) Ht Hm Hb
    (words_ok mw (fun w I => Ok w (or_introl I))) (words_ok bw (fun w I => Ok w (or_intror I))) buf out Hbuf Ho Hfd Hint) as (o & E & L & C).
  exists o. split; [exact E|]. split; [exact L|exact C].
Qed.
Print Assumptions C79_float_indirect.
Theorem C79_float_bgemm cs k p a input filter mw bw buf out kr lc rc sch :
  float_case p a input filter mw bw buf out -> groups p = 1 ->
  0 < kr -> 0 < lc -> 0 < rc -> conv_schedule_ok kr lc rc p input sch ->
  eval_bgemm_float32_c cs k kr lc rc sch p a input filter mw bw buf out (accurate p a input filter mw bw out).
Proof.
  intros (WF & Hi & Hf & (pad & HP) & Hz & (h1 & h2 & h3 & h4 & h5 & h6) & Ht & Hm & Hb & Ok & Hbuf & Ho).
  exact (bgemm32_c cs k pad p WF input filter mw bw Hi Hf HP a (fun z => proj1 (Hz z)) h1 h2 h3 h4 h5 h6 (fun z => proj2 (Hz z)) Ht Hm Hb
    (words_ok mw (fun w I => Ok w (or_introl I))) (words_ok bw (fun w I => Ok w (or_intror I))) buf out Hbuf Ho kr lc rc sch).
Qed.
Print Assumptions C79_float_bgemm.

(** Two builds of the reference kernel: the float outputs differ by at most twice the
    bound, the int8 outputs nowhere outside the ties of C63. The choice may even change
    from one output element to the next: the claims are per element. *)
Theorem C79_builds_agree cs k cs' k' p a input filter mw bw out :
  bconv_wf p ->
  packed input (in_pixels (geom_of p)) (channels_in p) ->
  packed filter (filter_pixels (geom_of p)) (channels_in p / groups p) ->
  (pad_same p && (pad_value p =? 0) = true -> (channels_in p / groups p) mod 2 = 0) ->
  taps (geom_of p) <= 2 ^ 22 ->
  zlen mw = out_c p -> zlen bw = out_c p ->
  (forall w, In w mw \/ In w bw -> finite32 w = true /\ (Qabs (exact32 w) <= inject_Z (2 ^ 100))%Q) ->
  zlen out = out_pixels (geom_of p) * out_c p ->
  exists o o', eval_ref_float32_c cs k p a input filter mw bw out = Some o /\
    eval_ref_float32_c cs' k' p a input filter mw bw out = Some o' /\
    forall b y x c m bi, 0 <= b < batches p -> 0 <= y < out_h p -> 0 <= x < out_w p ->
      rd mw c = Some m -> rd bw c = Some bi ->
      exists r r', rd o (out_pixel (geom_of p) b y x * out_c p + c) = Some r /\ rd o' (out_pixel (geom_of p) b y x * out_c p + c) = Some r' /\
        (Qabs (SF2Q r - SF2Q r') <= (1 # 2 ^ 20) * magnitude p m bi + (1 # 2 ^ 124))%Q.
Proof.
  intros WF Hin Hfl Hev Ht Hm Hb Ok Ho.
  destruct (C79_float_reference cs k p a input filter mw bw out WF Hin Hfl Hev Ht Hm Hb Ok Ho) as (o & E & L & C).
  destruct (C79_float_reference cs' k' p a input filter mw bw out WF Hin Hfl Hev Ht Hm Hb Ok Ho) as (o' & E' & L' & C').
  exists o, o'. split; [exact E|]. split; [exact E'|]. intros b y x c m bi H1 H2 H3 H4 H5.
  destruct (C b y x c m bi H1 H2 H3 H4 H5) as (r & Hr & _ & Cr). destruct (C' b y x c m bi H1 H2 H3 H4 H5) as (r' & Hr' & _ & Cr').
  exists r, r'. split; [exact Hr|]. split; [exact Hr'|].
  set (e := exact_out p a input filter m bi b y x c) in *. set (g := magnitude p m bi) in *.
  setoid_replace (SF2Q r - SF2Q r')%Q with ((SF2Q r - e) + - (SF2Q r' - e))%Q by ring.
  eapply Qle_trans; [apply Qabs_triangle|]. rewrite Qabs_opp.
  eapply Qle_trans; [apply Qplus_le_compat; [exact Cr|exact Cr']|].
  apply Qle_lteq. right.
  assert (E1 : ((1 # 2 ^ 20) == 2 * (1 # 2 ^ 21))%Q) by reflexivity.
  assert (E3 : ((1 # 2 ^ 124) == 2 * (1 # 2 ^ 125))%Q) by reflexivity.
  rewrite E1, E3. generalize (1 # 2 ^ 21)%Q (1 # 2 ^ 125)%Q. intros q1 q2. ring.
Qed.
Print Assumptions C79_builds_agree.

(** Without any fusion this is the computation of C62 and C63. *)
Theorem C79_unfused p a input filter mw bw out :
  eval_ref_float32_c (fun _ => false) (fun _ _ => false) p a input filter mw bw out = eval_ref_float32 p a input filter mw bw out.
Proof. reflexivity. Qed.
Print Assumptions C79_unfused.

(** ** Cases *)
(** The hypotheses are those of C62 and C63: see [C62_case]. The choice matters:
    with multiplier 0.1f, bias -0.3f and accumulator 90 the fused and the unfused
    output transform give different floats. *)
Example C79_choice_matters :
  forall t, one_time_setup32_c (fun _ => false) (ex_p 0) ActNone [1036831949; 1036831949; 1036831949; 1036831949] [3197737370; 0; 0; 0] (sf_ofZ 53 1024 1) (sf_ofZ 53 1024 0) = Some t ->
  exists acc, run_float_c true t acc 0 <> run_float_c false t acc 0.
Proof. intros t Ht. vm_compute in Ht. injection Ht as <-. exists 90. vm_compute. congruence. Qed.
(** A double-precision case: 3 * 0x1.5555555555555p-2 - 1 is -2^-54 when fused, and 0 otherwise. *)
Example C79_fma_case :
  sf_fma 53 1024 (sf_ofZ 53 1024 3) (S754_finite false 6004799503160661 (-54)) (sf_ofZ 53 1024 (-1)) = S754_finite true 4503599627370496 (-106) /\
  SFadd 53 1024 (SFmul 53 1024 (sf_ofZ 53 1024 3) (S754_finite false 6004799503160661 (-54))) (sf_ofZ 53 1024 (-1)) = S754_zero false.
Proof. split; vm_compute; reflexivity. Qed.
(** And so do whole outputs: a build that fuses the output transform is not
    bit-identical to one that does not. *)
Theorem C79_bit_identical_refuted :
  ~ forall cs k cs' k' p a input filter mw bw out,
    bconv_wf p ->
    packed input (in_pixels (geom_of p)) (channels_in p) ->
    packed filter (filter_pixels (geom_of p)) (channels_in p / groups p) ->
    (pad_same p && (pad_value p =? 0) = true -> (channels_in p / groups p) mod 2 = 0) ->
    taps (geom_of p) <= 2 ^ 22 ->
    zlen mw = out_c p -> zlen bw = out_c p ->
    (forall w, In w mw \/ In w bw -> finite32 w = true /\ (Qabs (exact32 w) <= inject_Z (2 ^ 100))%Q) ->
    zlen out = out_pixels (geom_of p) * out_c p ->
    eval_ref_float32_c cs k p a input filter mw bw out = eval_ref_float32_c cs' k' p a input filter mw bw out.
Proof.
  intros H. assert (D : finite32 1036831949 = true /\ finite32 1045220557 = true /\ (Qabs (exact32 1036831949) <= inject_Z (2 ^ 100))%Q /\ (Qabs (exact32 1045220557) <= inject_Z (2 ^ 100))%Q)
    by (repeat split; vm_compute; congruence). destruct D as (F1 & F2 & Q1 & Q2).
  destruct (ex71_case 1036831949 1045220557 F1 F2 Q1 Q2) as (WF & Hi & Hf & _ & _ & _ & Ht & Hm & Hb & Ok & _ & Ho).
  assert (K := H (fun _ => false) (fun _ _ => true) (fun _ => false) (fun _ _ => false) ex71_p ActNone ex71_in ex71_fl [1036831949] [1045220557] (zeros 9)
    WF Hi Hf ltac:(reflexivity) Ht Hm Hb Ok Ho).
  vm_compute in K. discriminate K.
Qed.
Print Assumptions C79_bit_identical_refuted.
