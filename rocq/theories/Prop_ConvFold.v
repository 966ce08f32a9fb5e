(** * Properties C31, C44, C45, C46: converter folding and int8 rewrites. *)
From Coq Require Import SpecFloat QArith.
From Verif Require Import Base Spec Bits Bitpack Float32 Reference OutputTransform Quantize RefTheorems ThresholdFloat
  ConvFold Check.
Open Scope Z_scope.

(** ** C31. Folding LceQuantize of a float constant gives the runtime's words;
    [out] is any runtime output buffer. *)
Theorem C31_quantize_fold rows cols vals out :
  0 <= rows -> 0 <= cols -> zlen vals = rows * cols -> zlen out = rows * words cols ->
  Bitpack_f32 rows cols vals = quantize_float rows cols vals out /\ Bitpack_f32 rows cols vals <> None.
Proof. exact (fold_quantize rows cols vals out). Qed.
Print Assumptions C31_quantize_fold.

(** Folding LceDequantize to float. [i], [o]: input and output shapes. *)
Theorem C31_dequantize_fold_float i o vals dst :
  shape_fits i o = true -> shape_nonneg o -> zlen vals = size4 i -> zlen dst = size4 o ->
  Unpack_f32 i o vals = dequantize_float (rows_of o) (cols_of o) vals dst /\ Unpack_f32 i o vals <> None.
Proof. exact (fold_dequantize_float i o vals dst). Qed.
Print Assumptions C31_dequantize_fold_float.

(** Folding LceDequantize to int8, 1/scale in exact arithmetic. *)
Theorem C31_dequantize_fold_int8 scale zp i o vals dst :
  (0 < scale)%Q -> -128 <= zp <= 127 ->
  shape_fits i o = true -> shape_nonneg o -> zlen vals = size4 i -> zlen dst = size4 o ->
  Unpack_int8 (round_haz (1 / scale)) (round_haz (- (1) / scale)) zp i o vals =
    dequantize_int8 (round_haz (1 / scale)) zp (rows_of o) (cols_of o) vals dst /\
  Unpack_int8 (round_haz (1 / scale)) (round_haz (- (1) / scale)) zp i o vals <> None.
Proof. exact (fold_int8_exact scale zp i o vals dst). Qed.
Print Assumptions C31_dequantize_fold_int8.

(** In IEEE arithmetic the int8 claim is false: the converter divides in double
    precision, the runtime in single precision with the scale rounded to float.
    For scale = 2/7 and zero point 0 a clear bit becomes 4 in the converter and 3
    at run time. *)
Theorem C31_double_scale_refuted :
  let scale := SFdiv 53 1024 (dbl_of 2) (dbl_of 7) in
  let rp := conv_offset scale in
  Unpack_int8 rp (- rp) 0 (1, 1, 1, 1) (1, 1, 1, 1) [0] = Some [4] /\
  dequantize_int8 (run_offset scale) 0 1 1 [0] [0] = Some [3].
Proof. exact fold_int8_wrong. Qed.
Print Assumptions C31_double_scale_refuted.

(** The runtime does divide in single precision: 1.0f / 0.6666667f rounds up to 1.5 and
    then to 2, though the exact quotient is below 1.5. *)
Example C31_single_division : let scale := SFdiv 53 1024 (dbl_of 2) (dbl_of 3) in
  run_offset scale = 2 /\ (SF2Q (dbl_to_flt scale) * (3 # 2) > 1)%Q.
Proof. cbv zeta. split; vm_compute; reflexivity. Qed.

Example C31_case : shape_fits (1, 2, 1, 2) (1, 2, 1, 40) = true /\ shape_nonneg (1, 2, 1, 40) /\
  Unpack_int8 50 (-50) (-100) (1, 1, 1, 1) (1, 1, 1, 2) [2] = Some [-50; -128] /\
  Unpack_f32 (1, 1, 1, 1) (1, 1, 1, 2) [2] = Some [f32_one; f32_minus_one] /\
  Bitpack_f32 1 2 [f32_one; f32_minus_one] = Some [2].
Proof. split; [reflexivity|]. split; [cbn; lia|]. split; [|split]; vm_compute; reflexivity. Qed.

(** ** C44. TFL_Quantize(LceDequantize(p)) is the int8 LceDequantize(p). *)
Theorem C44_quantize_after_dequantize scale zp rows cols p (d1 : list Q) (d2 : list Z) :
  (0 < scale)%Q -> -128 <= zp <= 127 -> 0 <= rows -> 0 <= cols ->
  zlen p = rows * words cols -> zlen d1 = rows * cols -> zlen d2 = rows * cols ->
  exists u, dequantize_Q rows cols p d1 = Some u /\
    dequantize_int8 (round_haz (1 / scale)) zp rows cols p d2 =
      Some (map (fun v => Z.max (-128) (Z.min 127 (round_haz (v / scale) + zp))) u).
Proof. exact (quantize_dequantize scale zp rows cols p d1 d2). Qed.
Print Assumptions C44_quantize_after_dequantize.
Example C44_case : dequantize_Q 1 3 [2] [0; 0; 0]%Q = Some [1; - (1); 1]%Q /\
  dequantize_int8 (round_haz (1 / (3 # 1000))) (-5) 1 3 [2] [0; 0; 0] = Some [127; -128; 127] /\
  dequantize_int8 (round_haz (1 / (2 # 5))) (-5) 1 3 [2] [0; 0; 0] = Some [-2; -8; -2].
Proof. split; [|split]; vm_compute; reflexivity. Qed.

(** ** C45. LceQuantize(TFL_Dequantize(q)) is LceQuantize(q) on the int8 tensor. *)
Theorem C45_quantize_of_int8 scale zp rows cols (q : list Z) out :
  (0 < scale)%Q -> -128 <= zp <= 127 -> 0 <= rows -> 0 <= cols ->
  (forall i v, rd q i = Some v -> -128 <= v <= 127) -> zlen q = rows * cols -> zlen out = rows * words cols ->
  quantize_Q rows cols (map (fun v => (scale * inject_Z (v - zp))%Q) q) out = quantize_int8 zp rows cols q out /\
  quantize_int8 zp rows cols q out <> None.
Proof. exact (quantize_of_dequantize scale zp rows cols q out). Qed.
Print Assumptions C45_quantize_of_int8.
Example C45_case : quantize_int8 (-3) 1 4 [-128; -3; -4; 127] [0] = Some [5] /\
  quantize_Q 1 4 (map (fun v => ((1 # 7) * inject_Z (v - -3))%Q) [-128; -3; -4; 127]) [0] = Some [5].
Proof. split; vm_compute; reflexivity. Qed.

(** ** C46. TFL_Quantize(float BConv2d) becomes an int8 BConv2d: the same int8
    value, except possibly (by one) where the float output is exactly halfway
    between two quantised values and the zero point moves it across zero. *)
Theorem C46_quantize_of_bconv p a input filter post_mul post_bias scale zp outf outi :
  bconv_wf p ->
  packed input (in_pixels (geom_of p)) (channels_in p) ->
  packed filter (filter_pixels (geom_of p)) (channels_in p / groups p) ->
  (pad_same p && (pad_value p =? 0) = true -> (channels_in p / groups p) mod 2 = 0) ->
  taps (geom_of p) < 2 ^ 31 ->
  zlen post_mul = out_c p -> zlen post_bias = out_c p -> (0 < scale)%Q ->
  zlen outf = out_pixels (geom_of p) * out_c p -> zlen outi = out_pixels (geom_of p) * out_c p ->
  exists yf yi, eval_ref_float p a input filter post_mul post_bias outf = Some yf /\
    eval_ref_int8 p a input filter post_mul post_bias scale zp outi = Some yi /\
    forall b y x c, 0 <= b < batches p -> 0 <= y < out_h p -> 0 <= x < out_w p -> 0 <= c < out_c p ->
      exists r q, rd yf (out_pixel (geom_of p) b y x * out_c p + c) = Some r /\
        rd yi (out_pixel (geom_of p) b y x * out_c p + c) = Some q /\
        let q' := Z.max (-128) (Z.min 127 (round_haz (r / scale) + zp)) in
        (q = q' \/
         (exists n : Z, r / scale == inject_Z n + (1 # 2))%Q /\ Z.abs (q - q') <= 1 /\
         ((r < 0 /\ 0 <= r / scale + inject_Z zp) \/ (0 <= r /\ r / scale + inject_Z zp < 0))%Q).
Proof.
  exact (fun WF Hi Hf He Hz Hm Hb Hs =>
    quantize_bconv p a input filter post_mul post_bias scale zp WF Hi Hf He Hz Hm Hb Hs outf outi).
Qed.
Print Assumptions C46_quantize_of_bconv.

(** The exception is real: one channel, 1x1, output -1/2, scale 1, zero point 1. *)
Definition ex46_p : bconv :=
  {| batches := 1; in_h := 1; in_w := 1; in_d := 1; out_c := 1; f_h := 1; f_w := 1; f_d := 1;
     out_h := 1; out_w := 1; channels_in := 1; groups := 1; s_h := 1; s_w := 1; dl_h := 1; dl_w := 1;
     pad_h := 0; pad_w := 0; pad_same := false; pad_value := 0 |}.
Theorem C46_tie_refuted :
  exists r, eval_ref_float ex46_p ActNone [1] [0] [1 # 2]%Q [0]%Q [0]%Q = Some [r] /\
    Z.max (-128) (Z.min 127 (round_haz (r / 1) + 1)) = 0 /\
    eval_ref_int8 ex46_p ActNone [1] [0] [1 # 2]%Q [0]%Q 1 1 [0] = Some [1].
Proof. eexists. split; [vm_compute; reflexivity|]. split; vm_compute; reflexivity. Qed.
Print Assumptions C46_tie_refuted.
Example C46_case : bconv_wf ex46_p /\ packed [1] (in_pixels (geom_of ex46_p)) (channels_in ex46_p) /\
  packed [0] (filter_pixels (geom_of ex46_p)) (channels_in ex46_p / groups ex46_p) /\ taps (geom_of ex46_p) < 2 ^ 31.
Proof.
  split; [constructor; vm_compute; intuition congruence|].
  split; [apply packedb_ok; [vm_compute; congruence|vm_compute; reflexivity]|].
  split; [apply packedb_ok; [vm_compute; congruence|vm_compute; reflexivity]|]. vm_compute. reflexivity.
Qed.
