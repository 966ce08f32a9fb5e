(** * The convolution's one-time setup and output transform in IEEE arithmetic
    (tflite/kernels/bconv2d.cc OneTimeSetup, core/bconv2d/output_transform.h). *)
From Coq Require Import ZArith SpecFloat QArith Qround.
From Verif Require Import Base Spec Bits Bitpack Float32 Reference OutputTransform RefTheorems ThresholdFloat.
Open Scope Z_scope.

(** ** Model *)
(** Conversion float -> double (bconv2d.cc 364-372). *)
Definition widen (x : spec_float) : spec_float :=
  match x with S754_finite s m e => binary_round 53 1024 s m e | _ => x end.
(** bconv2d.cc 373-377: one channel; all in double, stored to a float. *)
Definition setup_channel (bt : Z) (scale zp post_mul post_bias : spec_float) : spec_float * spec_float :=
  (sf_round32 (SFdiv 53 1024 (SFmul 53 1024 (sf_ofZ 53 1024 (-1)) post_mul) scale),
   sf_round32 (SFadd 53 1024
     (SFdiv 53 1024 (SFadd 53 1024 post_bias (SFmul 53 1024 (sf_ofZ 53 1024 bt) post_mul)) scale) zp)).
(** bconv2d.cc 355-389 on binary32 words; [scale], [zp]: the doubles of lines 364-367. *)
Definition one_time_setup32 (p : bconv) (a : activation) (post_mul post_bias : list Z) (scale zp : spec_float) : option (otp spec_float) :=
  let bt := backtransform_add p in
  let n := out_c p + Z.quot 16 4 in
  let z := repeat (S754_zero false) (Z.to_nat n) in
  let* (mult, bias) := for_ 0 (out_c p) (fun i '(mult, bias) =>
    let* pmul := rd post_mul i in
    let* pb := rd post_bias i in
    let '(m', b') := setup_channel bt scale zp (widen (decode32 pmul)) (widen (decode32 pb)) in
    let* mult := wr mult i m' in
    let* bias := wr bias i b' in
    Some (mult, bias)) (z, z) in
  let (nmin, nmax) := activation_range a in
  let nmin := Z.max nmin (-1 * bt) in
  let nmax := Z.min nmax bt in
  Some {| ot_min := -1 * nmax + bt; ot_max := -1 * nmin + bt; ot_mult := mult; ot_bias := bias |}.
(** output_transform.h 103-112, 130-148 with IEEE arithmetic; [f_round] is std::round
    (the conversion to int32 is not modelled out of range). *)
Definition sfops : fops spec_float :=
  {| f_ofZ := sf_ofZ 24 128; f_mul := SFmul 24 128; f_add := SFadd 24 128; f_round := fun x => round_haz (SF2Q x) |}.
Definition eval_ref_float32 (p : bconv) (a : activation) (input filter mw bw : list Z) (out : list spec_float) : option (list spec_float) :=
  let* t := one_time_setup32 p a mw bw (sf_ofZ 53 1024 1) (sf_ofZ 53 1024 0) in
  BConv2DReference_val p input filter (run_float sfops t) out.
Definition eval_ref_int8_32 (p : bconv) (a : activation) (input filter mw bw : list Z) (scale_w zp : Z) (out : list Z) : option (list Z) :=
  let* t := one_time_setup32 p a mw bw (widen (decode32 scale_w)) (sf_ofZ 53 1024 zp) in
  BConv2DReference_val p input filter (run_int8 sfops t) out.

