(** * Property C12, positive part: where binary32 thresholds are right. *)
From Coq Require Import QArith Qabs SpecFloat.
From Verif Require Import Base Spec Bits Bitpack Float32 Reference OutputTransform Quantize RefTheorems Threshold
  ThresholdFloat ThresholdMargin ThresholdConv Check Prop_Reference Prop_Threshold.
Open Scope Z_scope.

(** ** C12. The converter computes the thresholds in binary32 (optimize.cc 185-241);
    multipliers and biases are binary32 words. On the left the unfused program in
    exact arithmetic on the same words; on the right the converter's program.
    They agree wherever the exact output [r] is not negligible against the terms it
    is a sum of: |r| > 2^-19 (|bias| + taps |mult|). *)
Theorem C12_float_thresholds_with_margin p a input F mw bw buf1 buf2 outf outb :
  bconv_wf p ->
  packed input (in_pixels (geom_of p)) (channels_in p) ->
  pad_same p && (pad_value p =? 0) = false ->     (* VALID, or SAME with one padding *)
  1 <= taps (geom_of p) <= 2 ^ 22 ->
  let ci := channels_in p / groups p in
  let fp := filter_pixels (geom_of p) in
  zlen F = fp * ci -> (forall i v, rd F i = Some v -> v = f32_one \/ v = f32_minus_one) ->
  zlen mw = out_c p -> zlen bw = out_c p ->
  (forall c w, rd mw c = Some w -> mult_ok w) -> (forall c w, rd bw c = Some w -> bias_ok w) ->
  zlen buf1 = fp * words ci -> zlen buf2 = fp * words ci ->
  zlen outf = out_pixels (geom_of p) * out_c p ->
  zlen outb = out_pixels (geom_of p) * words (out_c p) ->
  exists f1 f2 yf yb,
    quantize_float fp ci F buf1 = Some f1 /\
    eval_ref_float p a input f1 (map exact32 mw) (map exact32 bw) outf = Some yf /\
    quantize_float fp ci (mul_by_signs (f_h p * f_w p * ci) F (signs_of F32 (map decode32 mw))) buf2 = Some f2 /\
    eval_ref_bits p input f2
      (GetBitpackedOutputThresholds F32 (f_h p) (f_w p) ci (map decode32 mw) (map decode32 bw) a) outb = Some yb /\
    packed yb (out_pixels (geom_of p)) (out_c p) /\
    forall b y x c m bi, 0 <= b < batches p -> 0 <= y < out_h p -> 0 <= x < out_w p ->
      rd mw c = Some m -> rd bw c = Some bi ->
      exists r, rd yf (out_pixel (geom_of p) b y x * out_c p + c) = Some r /\
        ((exact32 m == 0 \/
          Qabs (exact32 bi) + inject_Z (taps (geom_of p)) * Qabs (exact32 m) < inject_Z (2 ^ 19) * Qabs r)%Q ->
         (bit_of yb (words (out_c p)) (out_pixel (geom_of p) b y x) c = true <-> (r < 0)%Q)).
Proof.
  exact (fun WF Hi Hn Ht H1 H2 H3 H4 H5 H6 => float_bits p a input F mw bw WF Hi Hn Ht H1 H2 H3 H4 H5 H6 buf1 buf2 outf outb).
Qed.
Print Assumptions C12_float_thresholds_with_margin.

(** Under the same margin the float32 output the unfused program really computes
    (one-time setup in double, rounded, then float32 multiply and add) has that sign
    too: the fused bit is the sign of the float that would have been written. *)
Theorem C12_float_output_sign_with_margin a bt x mw bw :
  1 <= bt <= 2 ^ 22 -> 0 <= x <= bt -> mult_ok mw -> bias_ok bw -> ~ (exact32 mw == 0)%Q ->
  let y := (exact32 mw * inject_Z (act_spec a (bt - 2 * x)) + exact32 bw)%Q in
  (Qabs (exact32 bw) + inject_Z bt * Qabs (exact32 mw) < inject_Z (2 ^ 19) * Qabs y)%Q ->
  (exists yr, runtime32 a bt (decode32 mw) (decode32 bw) x = Some yr /\ (SFltb yr (S754_zero false) = true <-> (y < 0)%Q)) /\
  ((threshold_one F32 (c_ofZ F32 bt) (c_ofZ F32 (fst (clamp_min_max a bt))) (c_ofZ F32 (snd (clamp_min_max a bt)))
      (decode32 mw) (decode32 bw) <? (if Qle_bool 0 (exact32 mw) then x else bt - x)) = true <-> (y < 0)%Q).
Proof.
  intros Hbt Hx [Fm [Z0|[M1 M2]]] [Fb Mb] Hn y Hy; [contradiction|].
  exact (conj (runtime_Q a bt x mw bw Hbt Hx Fm Fb M1 M2 Mb Hy) (threshold_Q a bt x mw bw Hbt Hx Fm Fb M1 M2 Mb Hy)).
Qed.
Print Assumptions C12_float_output_sign_with_margin.

(** Case: multipliers 0.5, 0, -0.75, 2 and biases -3.5, -1, 100, -3 (words), on the
    geometry of C11's example (192 taps). *)
Definition ex12m : list Z := [1056964608; 0; 3208642560; 1073741824].
Definition ex12b : list Z := [3227516928; 3212836864; 1120403456; 3225419776].
Example C12_case_words : forall c w, (rd ex12m c = Some w -> mult_ok w) /\ (rd ex12b c = Some w -> bias_ok w).
Proof.
  assert (M : forall w, In w ex12m -> mult_ok w).
  { intros w [<- |[<- |[<- |[<- |[]]]]]; (split; [reflexivity|]); try (left; reflexivity); right; split; vm_compute; discriminate. }
  assert (B : forall w, In w ex12b -> bias_ok w).
  { intros w [<- |[<- |[<- |[<- |[]]]]]; (split; [reflexivity|]); vm_compute; discriminate. }
  intros c w. split; intros H; [apply M|apply B]; unfold rd in H; destruct (c <? 0); try discriminate; eapply nth_error_In; exact H.
Qed.
Example C12_case :
  1 <= taps (geom_of (ex_p 1)) <= 2 ^ 22 /\ zlen ex12m = out_c (ex_p 1) /\ zlen ex12b = out_c (ex_p 1) /\
  map exact32 ex12m <> [] /\
  GetBitpackedOutputThresholds F32 2 3 32 (map decode32 ex12m) (map decode32 ex12b) ActNone = [92; int32_min; 162; 95] /\
  (* 90 mismatches of 192 with multiplier 0.5, bias -3.5: output 2.5, well outside the margin *)
  (Qabs (exact32 3227516928) + inject_Z 192 * Qabs (exact32 1056964608) <
     inject_Z (2 ^ 19) * Qabs (exact32 1056964608 * inject_Z (act_spec ActNone (192 - 2 * 90)) + exact32 3227516928))%Q /\
  (* bias -2^-12, multiplier 0.5, 96 mismatches of 192: the output -2^-12 still is outside, -2^-13 no longer *)
  (Qabs (exact32 3112173568) + inject_Z 192 * Qabs (exact32 1056964608) <
     inject_Z (2 ^ 19) * Qabs (exact32 1056964608 * inject_Z (act_spec ActNone (192 - 2 * 96)) + exact32 3112173568))%Q /\
  ~ (Qabs (exact32 3103784960) + inject_Z 192 * Qabs (exact32 1056964608) <
     inject_Z (2 ^ 19) * Qabs (exact32 1056964608 * inject_Z (act_spec ActNone (192 - 2 * 96)) + exact32 3103784960))%Q.
Proof. repeat split; vm_compute; congruence. Qed.
