(** * Properties C11, C12: thresholds for bit-packed convolution output. *)
From Coq Require Import QArith SpecFloat.
From Verif Require Import Base Spec Bits Bitpack Float32 Reference OutputTransform Quantize RefTheorems Threshold
  ThresholdFloat Check Prop_Reference.
Open Scope Z_scope.

(** ** C11. Left: the unfused program, quantise(bconv2d(input, F; mult, bias)).
    Right: the converter's replacement, filter multiplied by the multipliers'
    signs, thresholds instead of multiplier and bias. Same bit everywhere. *)
Theorem C11_converter_thresholds p a input F mults biases buf1 buf2 outf outb :
  bconv_wf p ->
  packed input (in_pixels (geom_of p)) (channels_in p) ->
  pad_same p && (pad_value p =? 0) = false ->     (* VALID, or SAME with one padding *)
  taps (geom_of p) < 2 ^ 31 ->
  let ci := channels_in p / groups p in
  let fp := filter_pixels (geom_of p) in
  zlen F = fp * ci -> (forall i v, rd F i = Some v -> v = f32_one \/ v = f32_minus_one) ->
  zlen mults = out_c p -> zlen biases = out_c p ->
  zlen buf1 = fp * words ci -> zlen buf2 = fp * words ci ->
  zlen outf = out_pixels (geom_of p) * out_c p ->
  zlen outb = out_pixels (geom_of p) * words (out_c p) ->
  exists f1 f2 yf yb,
    quantize_float fp ci F buf1 = Some f1 /\
    eval_ref_float p a input f1 mults biases outf = Some yf /\
    quantize_float fp ci (mul_by_signs (f_h p * f_w p * ci) F (signs_of Qcarrier mults)) buf2 = Some f2 /\
    eval_ref_bits p input f2
      (GetBitpackedOutputThresholds Qcarrier (f_h p) (f_w p) ci mults biases a) outb = Some yb /\
    packed yb (out_pixels (geom_of p)) (out_c p) /\
    forall b y x c, 0 <= b < batches p -> 0 <= y < out_h p -> 0 <= x < out_w p -> 0 <= c < out_c p ->
      exists r, rd yf (out_pixel (geom_of p) b y x * out_c p + c) = Some r /\
        (bit_of yb (words (out_c p)) (out_pixel (geom_of p) b y x) c = true <-> (r < 0)%Q).
Proof.
  exact (fun WF Hi Hn Hs H1 H2 H3 H4 H5 H6 H7 H8 =>
    match bitpacked_output p a input F mults biases WF Hi Hn Hs H1 H2 H3 H4 buf1 buf2 outf outb H5 H6 H7 H8 with
    | ex_intro _ f1 (ex_intro _ f2 (ex_intro _ yf (ex_intro _ yb (conj a1 (conj a2 (conj a3 (conj a4 a5))))))) =>
        ex_intro _ f1 (ex_intro _ f2 (ex_intro _ yf (ex_intro _ yb (conj a1 (conj a3 (conj a2 (conj a4 a5)))))))
    end).
Qed.
Print Assumptions C11_converter_thresholds.

(** The stored thresholds are 32-bit integers. *)
Theorem C11_thresholds_fit p a (mults biases : list Q) c t :
  bconv_wf p -> taps (geom_of p) < 2 ^ 31 -> zlen mults = out_c p -> zlen biases = out_c p ->
  rd (GetBitpackedOutputThresholds Qcarrier (f_h p) (f_w p) (channels_in p / groups p) mults biases a) c = Some t ->
  - 2 ^ 31 <= t < 2 ^ 31.
Proof. exact (fun WF Hs Hm Hb => thresholds_int32 p a mults biases WF Hs Hm Hb c t). Qed.
Print Assumptions C11_thresholds_fit.

(** Two groups of 32 channels, 4 output channels, 6 taps of 32; positive, zero
    and negative multipliers and a clamp that does and does not cross zero. *)
Definition ex11_F : list Z := map (fun i => if i mod 3 =? 0 then f32_minus_one else f32_one) (zrange 768).
Example C11_case : zlen ex11_F = filter_pixels (geom_of (ex_p 1)) * (channels_in (ex_p 1) / groups (ex_p 1)) /\
  pad_same (ex_p 1) && (pad_value (ex_p 1) =? 0) = false /\
  GetBitpackedOutputThresholds Qcarrier 2 3 32 [1#2; 0; -(3#4); 2]%Q [-(7#2); -(1); 100; -(3)]%Q ActNone
    = [92; int32_min; 162; 95] /\
  GetBitpackedOutputThresholds Qcarrier 2 3 32 [1#2; 0; -(3#4); 2]%Q [-(7#2); 1; 100; 3]%Q ActRelu6
    = [int32_min; int32_max; int32_max; int32_max].
Proof. repeat split; vm_compute; reflexivity. Qed.
Example C11_case_pm : forall i v, rd ex11_F i = Some v -> v = f32_one \/ v = f32_minus_one.
Proof.
  intros i v H. unfold ex11_F in H. rewrite rd_map in H. destruct (rd (zrange 768) i) as [k|]; [|discriminate].
  cbn in H. injection H as <-. destruct (_ =? _); auto.
Qed.

(** ** C12. The claim as written is false in binary32: the float quotient and sum
    round across the integer threshold. *)
Theorem C12_float_thresholds_refuted :
  exists (bt mw bw x : Z) (y : spec_float),
    word mw /\ word bw /\ 0 <= x <= bt /\
    let m := decode32 mw in let b := decode32 bw in
    (threshold_one F32 (c_ofZ F32 bt) (c_ofZ F32 (- bt)) (c_ofZ F32 bt) m b <? x) = false /\
    (SF2Q m * inject_Z (bt - 2 * x) + SF2Q b < 0)%Q /\
    runtime32 ActNone bt m b x = Some y /\ SFltb y (S754_zero false) = true.
Proof. exact float_threshold_wrong. Qed.
Print Assumptions C12_float_thresholds_refuted.
