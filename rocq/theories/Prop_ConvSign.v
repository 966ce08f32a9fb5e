(** * Properties C32, C33: converter rewrites around quantisation (IEEE binary32). *)
From Coq Require Import SpecFloat.
From Verif Require Import Base Spec Bits Bitpack Float32 FloatOrder Quantize ConvSign.

(** ** C32. [X] and [T] are float tensors without NaN (infinities, subnormals,
    signed zeros and overflowing differences included); [out] is the result
    buffer. Quantize(X >= T) and Quantize(X - T) are the same words. *)
Theorem C32_greater_equal rows cols X T out :
  0 <= rows -> 0 <= cols -> zlen X = rows * cols -> zlen T = rows * cols -> zlen out = rows * words cols ->
  (forall i v, rd X i = Some v -> valid32 v /\ is_nan v = false) ->
  (forall i v, rd T i = Some v -> valid32 v /\ is_nan v = false) ->
  quantize_bool rows cols (map2 sf_ge X T) out = quantize_sf rows cols (map2 sf_sub X T) out /\
  quantize_sf rows cols (map2 sf_sub X T) out <> None.
Proof. exact (fun Hr Hc HX HT HO => ge_rewrite rows cols X T out Hr Hc HX HT HO). Qed.
Print Assumptions C32_greater_equal.

(** Comparison with a constant +0 or -0: the comparison is simply dropped. *)
Theorem C32_greater_equal_zero rows cols X out (zs : bool) :
  0 <= rows -> 0 <= cols -> zlen X = rows * cols -> zlen out = rows * words cols ->
  (forall i v, rd X i = Some v -> valid32 v /\ is_nan v = false) ->
  quantize_bool rows cols (map (fun x => sf_ge x (S754_zero zs)) X) out = quantize_sf rows cols X out /\
  quantize_sf rows cols X out <> None.
Proof. exact (fun Hr Hc HX HO => ge_zero_rewrite rows cols X X out Hr Hc HX HX HO zs). Qed.
Print Assumptions C32_greater_equal_zero.

(** L <= R and R >= L are the same tensor (NaN included). *)
Theorem C32_less_equal L R : map2 sf_le L R = map2 sf_ge R L.
Proof. exact (le_rewrite L R). Qed.
Print Assumptions C32_less_equal.

(** The float tensors above and the 32-bit patterns the runtime stores. *)
Theorem C32_patterns rows cols (inp out : list Z) :
  0 <= rows -> 0 <= cols -> zlen inp = rows * cols -> zlen out = rows * words cols ->
  quantize_sf rows cols (map decode32 inp) out = quantize_float rows cols inp out.
Proof. exact (quantize_sf_words rows cols inp out). Qed.
Print Assumptions C32_patterns.
Theorem C32_patterns_valid w : word w -> valid32 (decode32 w).
Proof. exact (decode32_valid w). Qed.
Print Assumptions C32_patterns_valid.

(** With a NaN the rewrite does change the bit: NaN >= t is false, but NaN - t is
    not negative. *)
Theorem C32_nan_refuted : exists X T,
  zlen X = 1 /\ zlen T = 1 /\
  quantize_bool 1 1 (map2 sf_ge X T) [0] = Some [1] /\ quantize_sf 1 1 (map2 sf_sub X T) [0] = Some [0].
Proof. exists [S754_nan], [sf_one]. split; [|split; [|split]]; vm_compute; reflexivity. Qed.
Print Assumptions C32_nan_refuted.

(** Smallest subnormals, overflow to infinity, and equal infinities (whose
    difference is NaN). *)
Example C32_case :
  let tiny := S754_finite false 1 (-149) in let big := S754_finite false 16777215 104 in
  let nbig := S754_finite true 16777215 104 in
  let X := [tiny; S754_zero true; nbig; S754_infinity false; S754_infinity true; sf_one] in
  let T := [S754_finite false 2 (-149); S754_zero false; big; S754_infinity false; S754_infinity true; sf_one] in
  forallb (fun v => negb (is_nan v)) (X ++ T) = true /\ Forall valid32 (X ++ T) /\
  map2 sf_sub X T = [S754_finite true 1 (-149); S754_zero true; S754_infinity true; S754_nan; S754_nan; S754_zero false] /\
  quantize_sf 1 6 (map2 sf_sub X T) [0] = Some [5] /\ quantize_bool 1 6 (map2 sf_ge X T) [0] = Some [5].
Proof.
  cbv zeta. split; [vm_compute; reflexivity|]. split.
  { repeat (apply Forall_cons; [cbn [valid32 sf_one]; unfold sf_one, valid32; lia|]). apply Forall_nil. }
  split; [vm_compute; reflexivity|]. split; vm_compute; reflexivity.
Qed.

(** ** C33. select(cond, 1, -1) becomes Dequantize(Quantize(cond)). *)
Theorem C33_select rows cols (B : list bool) out dst :
  0 <= rows -> 0 <= cols -> zlen B = rows * cols -> zlen out = rows * words cols -> zlen dst = rows * cols ->
  exists p, quantize_bool rows cols (map Z.b2z B) out = Some p /\
    dequantize_sf rows cols p dst = Some (map (fun b : bool => if b then sf_one else sf_minus_one) B).
Proof. exact (dequant_quant_bool rows cols B out dst). Qed.
Print Assumptions C33_select.

(** select(cond, -1, 1) becomes Dequantize(Quantize(not cond)). *)
Theorem C33_select_negated rows cols (B : list bool) out dst :
  0 <= rows -> 0 <= cols -> zlen B = rows * cols -> zlen out = rows * words cols -> zlen dst = rows * cols ->
  exists p, quantize_bool rows cols (map Z.b2z (map negb B)) out = Some p /\
    dequantize_sf rows cols p dst = Some (map (fun b : bool => if b then sf_minus_one else sf_one) B).
Proof. exact (dequant_quant_not rows cols B out dst). Qed.
Print Assumptions C33_select_negated.

(** The replacement of Sign(Sign(x)+c): Dequantize(Quantize(x)) is -1 where
    x < 0 and +1 elsewhere. *)
Theorem C33_replacement rows cols X out dst :
  0 <= rows -> 0 <= cols -> zlen X = rows * cols -> zlen out = rows * words cols -> zlen dst = rows * cols ->
  exists p, quantize_sf rows cols X out = Some p /\
    dequantize_sf rows cols p dst =
      Some (map (fun x => if SFltb x (S754_zero false) then sf_minus_one else sf_one) X).
Proof. exact (dequant_quant rows cols X out dst). Qed.
Print Assumptions C33_replacement.

(** Sign(Sign(x)+c) is that value for every non-NaN x exactly when 0 < c < 1 ... *)
Theorem C33_sign_sign_iff c : valid32 c -> is_fin c = true ->
  ((forall x, valid32 x -> is_nan x = false ->
      sf_sign (sf_add (sf_sign x) c) = if SFltb x (S754_zero false) then sf_minus_one else sf_one) <->
   SFltb (S754_zero false) c = true /\ SFltb c sf_one = true).
Proof. exact (sign_sign_iff c). Qed.
Print Assumptions C33_sign_sign_iff.

(** ... but the pattern accepts every c: e.g. c = 2 turns Sign(Sign(-1)+2) = 1
    into -1. *)
Theorem C33_any_constant_refuted : exists c x,
  valid32 c /\ is_fin c = true /\ valid32 x /\ is_fin x = true /\
  sf_sign (sf_add (sf_sign x) c) = sf_one /\
  (exists p, quantize_sf 1 1 [x] [0] = Some p /\ dequantize_sf 1 1 p [sf_one] = Some [sf_minus_one]).
Proof. exact sign_sign_any. Qed.
Print Assumptions C33_any_constant_refuted.

(** larq's own constant, 0.1f. *)
Example C33_larq_constant : let c := decode32 1036831949 in
  valid32 c /\ is_fin c = true /\ SFltb (S754_zero false) c = true /\ SFltb c sf_one = true.
Proof.
  cbv zeta. split; [apply decode32_valid; unfold word; lia|]. split; [|split]; vm_compute; reflexivity.
Qed.
