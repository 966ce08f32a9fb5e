(** * Properties C01, C02, C05, C30: packing and unpacking. *)
From Coq Require Import QArith.
From Verif Require Import Base Spec Bits Bitpack Float32 Quantize Check.
Open Scope Z_scope.

(** ** C01: packing records exactly the sign of every element *)
Theorem C01_quantize_float rows cols inp out :
  0 <= rows -> 0 <= cols -> zlen inp = rows * cols -> zlen out = rows * words cols ->
  (forall i v, rd inp i = Some v -> word v) ->
  exists out', quantize_float rows cols inp out = Some out' /\ packed out' rows cols /\
    forall r c v, 0 <= r < rows -> 0 <= c < cols -> rd inp (r * cols + c) = Some v ->
      bit_of out' (words cols) r c = negative32 v.
Proof. exact (quantize_float_ok rows cols inp out). Qed.
Print Assumptions C01_quantize_float.

(** Any integer element type (int8: -128..127, uint8: 0..255) and any zero point,
    inside or outside the type's range. The last hypothesis excludes exactly the
    case of C05. *)
Theorem C01_quantize_int lo hi zp rows cols inp out :
  lo <= hi -> (forall i v, rd inp i = Some v -> lo <= v <= hi) ->
  0 <= rows -> 0 <= cols -> zlen inp = rows * cols -> zlen out = rows * words cols ->
  (cols mod 32 = 31 -> zp <= hi) ->
  exists out', bitpack_matrix (int_elem lo hi) inp rows cols out zp = Some out' /\
    packed out' rows cols /\
    forall r c v, 0 <= r < rows -> 0 <= c < cols -> rd inp (r * cols + c) = Some v ->
      bit_of out' (words cols) r c = (v <? zp).
Proof. exact (quantize_int_ok lo hi zp rows cols inp out). Qed.
Print Assumptions C01_quantize_int.

Theorem C01_quantize_bool rows cols inp out :
  (forall i v, rd inp i = Some v -> 0 <= v <= 255) ->
  0 <= rows -> 0 <= cols -> zlen inp = rows * cols -> zlen out = rows * words cols ->
  exists out', quantize_bool rows cols inp out = Some out' /\ packed out' rows cols /\
    forall r c v, 0 <= r < rows -> 0 <= c < cols -> rd inp (r * cols + c) = Some v ->
      bit_of out' (words cols) r c = (v =? 0).
Proof. exact (quantize_bool_ok rows cols inp out). Qed.
Print Assumptions C01_quantize_bool.

(** Two rows of 33 int8 columns, zero point 3: two words per row. *)
Definition ex_int8 : list Z := map (fun i => i mod 7) (zrange 66).
Example C01_int8_case :
  zlen ex_int8 = 2 * 33 /\ (forall i v, rd ex_int8 i = Some v -> -128 <= v <= 127) /\
  bitpack_matrix int8_elem ex_int8 2 33 (repeat 9 4) 3 =
    Some (map (fun bits => fold_right (fun b a => b + 2 * a) 0 (map (fun v => Z.b2z (v <? 3)) bits))
       [firstn 32 ex_int8; firstn 1 (skipn 32 ex_int8);
        firstn 32 (skipn 33 ex_int8); firstn 1 (skipn 65 ex_int8)]).
Proof. split; [reflexivity|]. split; [apply all_in_ok; reflexivity|vm_compute; reflexivity]. Qed.
(** Zero point above the type's maximum with padding: ones, then zero padding. *)
Example C01_zp_above_case : bitpack_matrix int8_elem ex_int8 2 33 (repeat 9 4) 300 =
  Some [2 ^ 32 - 1; 1; 2 ^ 32 - 1; 1].
Proof. vm_compute. reflexivity. Qed.
(** Float: -1, -0, +0, 1, smallest negative subnormal, -inf, NaN with sign. *)
Example C01_float_case :
  let inp := [f32_minus_one; 2 ^ 31; 0; f32_one; 2 ^ 31 + 1; 511 * 2 ^ 23; 511 * 2 ^ 23 + 1] in
  (forall i v, rd inp i = Some v -> word v) /\
  quantize_float 1 7 inp [7] = Some [1 + 2 ^ 4 + 2 ^ 5].
Proof.
  split; [|vm_compute; reflexivity].
  intros i v H. assert (0 <= v <= 2 ^ 32 - 1); [|unfold word; lia].
  eapply (all_in_ok 0 (2 ^ 32 - 1)); [|exact H]. vm_compute. reflexivity.
Qed.

(** ** C02: dequantize after quantize *)
Theorem C02_round_trip_float rows cols inp out dst :
  0 <= rows -> 0 <= cols -> zlen inp = rows * cols -> zlen out = rows * words cols ->
  zlen dst = rows * cols -> (forall i v, rd inp i = Some v -> word v) ->
  exists p res, quantize_float rows cols inp out = Some p /\
    dequantize_float rows cols p dst = Some res /\ zlen res = rows * cols /\
    forall i v, rd inp i = Some v ->
      rd res i = Some (if negative32 v then 0xbf800000 else 0x3f800000).
Proof. exact (float_round_trip rows cols inp out dst). Qed.
Print Assumptions C02_round_trip_float.

(** Those bit patterns are the floats -1 and +1 (2^23 * 2^-23). *)
Theorem C02_float_values :
  (decode32 0xbf800000 = SpecFloat.S754_finite true 8388608 (-23)) /\
  (decode32 0x3f800000 = SpecFloat.S754_finite false 8388608 (-23)) /\ 8388608 = 2 ^ 23.
Proof. repeat split; reflexivity. Qed.
Print Assumptions C02_float_values.

(** Dequantising alone: bit 1 is -1.0 (float), false (bool); bit 0 is +1.0, true. *)
Theorem C02_dequantize rows cols p dst :
  0 <= rows -> 0 <= cols -> zlen p = rows * words cols -> zlen dst = rows * cols ->
  (exists u, dequantize_float rows cols p dst = Some u /\ zlen u = rows * cols /\
     forall r c, 0 <= r < rows -> 0 <= c < cols ->
       rd u (r * cols + c) = Some (if bit_of p (words cols) r c then 0xbf800000 else 0x3f800000)) /\
  (exists u, dequantize_bool rows cols p dst = Some u /\ zlen u = rows * cols /\
     forall r c, 0 <= r < rows -> 0 <= c < cols ->
       rd u (r * cols + c) = Some (if bit_of p (words cols) r c then 0 else 1)).
Proof.
  intros Hr Hc Hp Hd. split.
  - apply wp_iff. apply unpack_matrix_wp; [lia|lia|lia|lia|]. intros u (A & _ & B). split; [lia|exact B].
  - apply wp_iff. apply unpack_matrix_wp; [lia|lia|lia|lia|]. intros u (A & _ & B). split; [lia|exact B].
Qed.
Print Assumptions C02_dequantize.

(** For any integer element type, zero point and pair of results. *)
Theorem C02_round_trip_int lo hi {T} inp rows cols out (dst : list T) zp (z o : T) :
  lo <= hi -> (forall i v, rd inp i = Some v -> lo <= v <= hi) ->
  0 <= rows -> 0 <= cols -> zlen inp = rows * cols -> zlen out = rows * words cols ->
  zlen dst = rows * cols -> (cols mod 32 = 31 -> zp <= hi) ->
  exists p res, bitpack_matrix (int_elem lo hi) inp rows cols out zp = Some p /\
    unpack_matrix p rows cols dst z o = Some res /\ zlen res = rows * cols /\
    (forall i v, rd inp i = Some v -> rd res i = Some (if v <? zp then o else z)).
Proof. exact (int_round_trip lo hi inp rows cols out dst zp z o). Qed.
Print Assumptions C02_round_trip_int.

(** Packing what was unpacked gives the same words. *)
Theorem C02_float_bits_round_trip p rows cols dst out :
  0 <= rows -> 0 <= cols -> packed p rows cols -> zlen dst = rows * cols ->
  zlen out = rows * words cols ->
  exists u, dequantize_float rows cols p dst = Some u /\ quantize_float rows cols u out = Some p.
Proof. exact (float_pack_unpack p rows cols dst out). Qed.
Print Assumptions C02_float_bits_round_trip.

Theorem C02_bool_bits_round_trip p rows cols dst out :
  0 <= rows -> 0 <= cols -> packed p rows cols -> zlen dst = rows * cols ->
  zlen out = rows * words cols ->
  exists u, dequantize_bool rows cols p dst = Some u /\ quantize_bool rows cols u out = Some p.
Proof. exact (bool_pack_unpack p rows cols dst out). Qed.
Print Assumptions C02_bool_bits_round_trip.

Example C02_case : packed [2 ^ 32 - 2; 5; 77; 2] 2 35 /\
  exists u, dequantize_float 2 35 [2 ^ 32 - 2; 5; 77; 2] (repeat 0 70) = Some u /\
            rd u 0 = Some f32_one /\ rd u 1 = Some f32_minus_one /\
            quantize_float 2 35 u (repeat 0 4) = Some [2 ^ 32 - 2; 5; 77; 2].
Proof.
  split; [apply packedb_ok; [lia|vm_compute; reflexivity]|].
  eexists. split; [vm_compute; reflexivity|]. repeat split; vm_compute; reflexivity.
Qed.

(** ** C05: undefined behaviour in packing *)
(** The statement "packing never executes undefined behaviour" is false: with a
    zero point above the type's maximum and a column count congruent to 31
    modulo 32 the code evaluates [(1 << 31) - 1] in type int. *)
Theorem C05_packing_ub_refuted :
  exists zp rows cols inp out,
    0 <= rows /\ 0 <= cols /\ zlen inp = rows * cols /\ zlen out = rows * words cols /\
    (forall i v, rd inp i = Some v -> -128 <= v <= 127) /\
    quantize_int8 zp rows cols inp out = None.
Proof.
  exists 128, 1, 31, (repeat 0 31), [0]. repeat split; try reflexivity; try (vm_compute; congruence).
  all: match goal with H : rd _ _ = Some _ |- _ => eapply (all_in_ok (-128) 127) in H; [lia|reflexivity] end.
Qed.
Print Assumptions C05_packing_ub_refuted.

(** It is the only such case: packing is defined for every other zero point and
    column count (and for float and bool always). *)
Theorem C05_packing_defined_otherwise zp rows cols inp out :
  (forall i v, rd inp i = Some v -> -128 <= v <= 127) ->
  0 <= rows -> 0 <= cols -> zlen inp = rows * cols -> zlen out = rows * words cols ->
  ~ (cols mod 32 = 31 /\ 127 < zp) ->
  quantize_int8 zp rows cols inp out <> None.
Proof. exact (quantize_int8_defined zp rows cols inp out). Qed.
Print Assumptions C05_packing_defined_otherwise.

(** ** C30: int8 dequantize then quantize *)
(** [offset] is TfLiteRound(1/scale). *)
Theorem C30_int8_bits_round_trip scale zp p rows cols dst out :
  0 <= rows -> 0 <= cols -> packed p rows cols -> zlen dst = rows * cols ->
  zlen out = rows * words cols -> (0 < scale)%Q -> (scale <= 2)%Q -> -128 < zp <= 127 ->
  exists u, dequantize_int8 (int8_offset scale) zp rows cols p dst = Some u /\
            quantize_int8 zp rows cols u out = Some p.
Proof. exact (int8_scale_round_trip scale zp p rows cols dst out). Qed.
Print Assumptions C30_int8_bits_round_trip.

Example C30_case : (0 < 1 # 50)%Q /\ int8_offset (1 # 50) = 50 /\ int8_offset 2 = 1 /\
  exists u, dequantize_int8 50 (-100) 1 2 [2] [0; 0] = Some u /\ u = [-50; -128] /\
            quantize_int8 (-100) 1 2 u [0] = Some [2].
Proof.
  split; [reflexivity|]. split; [vm_compute; reflexivity|]. split; [vm_compute; reflexivity|].
  eexists. split; [vm_compute; reflexivity|]. split; vm_compute; reflexivity.
Qed.

(** The unrestricted statement is false: with the lowest zero point, -1 cannot be
    represented; with a scale above 2 the offset rounds to 0. *)
Theorem C30_lowest_zero_point_refuted :
  exists p dst u q, packed p 1 1 /\ dequantize_int8 (int8_offset 1) (-128) 1 1 p dst = Some u /\
    quantize_int8 (-128) 1 1 u [0] = Some q /\ q <> p.
Proof.
  exists [1], [0], [-128], [0]. split; [apply packedb_ok; [lia|vm_compute; reflexivity]|].
  repeat split; try (vm_compute; reflexivity). discriminate.
Qed.
Print Assumptions C30_lowest_zero_point_refuted.

Theorem C30_large_scale_refuted :
  exists p dst u q, packed p 1 1 /\ dequantize_int8 (int8_offset 3) 0 1 1 p dst = Some u /\
    quantize_int8 0 1 1 u [0] = Some q /\ q <> p.
Proof.
  exists [1], [0], [0], [0]. split; [apply packedb_ok; [lia|vm_compute; reflexivity]|].
  repeat split; try (vm_compute; reflexivity). discriminate.
Qed.
Print Assumptions C30_large_scale_refuted.
