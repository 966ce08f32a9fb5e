(** * ThresholdFloat: the same converter code in IEEE binary32, and the runtime's
    own float output, to compare the two. *)
From Coq Require Import QArith Qround SpecFloat.
From Verif Require Import Base Spec Bitpack Float32 Reference OutputTransform Threshold.
Open Scope Z_scope.

(** Integer to float32 ([static_cast<float>(std::int32_t)]). *)
Definition sf_ofZ (prec emax : Z) (n : Z) : spec_float := binary_normalize prec emax n 0 false.
(** float -> double (exact) followed by the rest, and double -> float. *)
Definition sf_round32 (x : spec_float) : spec_float :=
  match x with S754_finite s m e => binary_round 24 128 s m e | _ => x end.
(** [std::floor(0.5 * x)]: the product with 0.5 is computed in double, where it
    is exact for every float32. Converting infinity or NaN to an integer is
    undefined in C++; it is 0 here and never used in a theorem. *)
Definition sf_half_floor (x : spec_float) : Z :=
  match x with
  | S754_finite s m e =>
      let n := if s then Z.neg m else Z.pos m in
      if 1 <=? e then n * 2 ^ (e - 1) else n / 2 ^ (1 - e)
  | _ => 0
  end.
Definition F32 : carrier :=
  {| cF := spec_float; c_ofZ := sf_ofZ 24 128;
     c_mul := SFmul 24 128; c_add := SFadd 24 128; c_div := SFdiv 24 128; c_abs := SFabs;
     c_ltb := SFltb; c_eqb := SFeqb; c_geb := fun x y => SFleb y x;
     c_half_floor := sf_half_floor |}.

(** The runtime's output transform in float32: bconv2d.cc 364-380 (double
    arithmetic, rounded to float when stored) for float output. *)
Definition setup32 (bt : Z) (post_mul post_bias : spec_float) : spec_float * spec_float :=
  let one := sf_ofZ 53 1024 1 in
  let zero := sf_ofZ 53 1024 0 in
  (sf_round32 (SFdiv 53 1024 (SFmul 53 1024 (sf_ofZ 53 1024 (-1)) post_mul) one),
   sf_round32 (SFadd 53 1024
     (SFdiv 53 1024 (SFadd 53 1024 post_bias (SFmul 53 1024 (sf_ofZ 53 1024 bt) post_mul)) one) zero)).
Definition F32ops : fops spec_float :=
  {| f_ofZ := sf_ofZ 24 128; f_mul := SFmul 24 128; f_add := SFadd 24 128; f_round := fun _ => 0 |}.
(** The float output for accumulator [accum] (output_transform.h 103-112). *)
Definition runtime32 (a : activation) (bt : Z) (m b : spec_float) (accum : Z) : option spec_float :=
  let '(m', b') := setup32 bt m b in
  let (nmin, nmax) := activation_range a in
  run_float F32ops {| ot_min := -1 * Z.min nmax bt + bt; ot_max := -1 * Z.max nmin (-1 * bt) + bt;
                      ot_mult := [m']; ot_bias := [b'] |} accum 0.

(** The value of a float. *)
Definition SF2Q (x : spec_float) : Q :=
  match x with
  | S754_finite s m e =>
      ((if s then Z.neg m else Z.pos m) # 1) * (if 0 <=? e then inject_Z (2 ^ e) else 1 # (Z.to_pos (2 ^ (- e))))
  | _ => 0
  end%Q.

(** 9 taps, multiplier 0x1.12b26ap-2, bias -0x1.e0b83ap+0, accumulator 1. *)
Definition ex12_m : Z := 1049188661.
Definition ex12_b : Z := 3220200477.

Lemma float_threshold_wrong :
  exists (bt mw bw x : Z) (y : spec_float),
    word mw /\ word bw /\ 0 <= x <= bt /\
    let m := decode32 mw in let b := decode32 bw in
    (* the converter's threshold writes bit 0 at accumulator x ... *)
    (threshold_one F32 (c_ofZ F32 bt) (c_ofZ F32 (- bt)) (c_ofZ F32 bt) m b <? x) = false /\
    (* ... but the exact output is negative ... *)
    (SF2Q m * inject_Z (bt - 2 * x) + SF2Q b < 0)%Q /\
    (* ... and so is the float output the runtime computes without the fusion *)
    runtime32 ActNone bt m b x = Some y /\ SFltb y (S754_zero false) = true.
Proof.
  exists 9, ex12_m, ex12_b, 1, (S754_finite true 8388608 (-47)).
  split; [vm_compute; intuition congruence|]. split; [vm_compute; intuition congruence|].
  split; [lia|]. cbv zeta. split; [vm_compute; reflexivity|].
  split; [vm_compute; reflexivity|]. split; vm_compute; reflexivity.
Qed.
