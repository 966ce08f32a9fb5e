(** * Quantize: the LceQuantize / LceDequantize operators
    (tflite/kernels/quantization.cc, core/bitpacking/utils.h). *)
From Coq Require Import SpecFloat QArith Qround Lqa.
From Verif Require Import Base Spec Bits Bitpack Float32 Reference OutputTransform.
Open Scope Z_scope.

(** bitpacking/utils.h bitpack_tensor: a tensor is packed as a matrix whose rows
    are its pixels and whose columns are its last dimension. *)
Definition bitpack_tensor (E : elemtype) (rows cols : Z) (inp : list (et E)) (zp : Z) (out : list Z) :=
  bitpack_matrix E inp rows cols out zp.

(** quantization.cc 76-113 QuantizeEval, portable code path: float data are
    32-bit patterns; the int8 zero point is the tensor's int32 parameter; bools
    are bytes (false is the zero byte). *)
Definition quantize_float (rows cols : Z) (inp : list Z) (out : list Z) :=
  bitpack_tensor float_elem rows cols inp 0 out.
Definition quantize_int8 (zp rows cols : Z) (inp : list Z) (out : list Z) :=
  bitpack_tensor int8_elem rows cols inp zp out.
Definition quantize_bool (rows cols : Z) (inp : list Z) (out : list Z) :=
  bitpack_tensor uint8_elem rows cols inp 1 out.

(** float +1 and -1 *)
Definition f32_one : Z := 127 * 2 ^ 23.
Definition f32_minus_one : Z := 2 ^ 31 + 127 * 2 ^ 23.

(** quantization.cc 115-149 DequantizeEval. For int8, [offset] is
    TfLiteRound(1/scale) (see QuantInt8.v). The [std::int8_t] conversions wrap. *)
Definition dequantize_float (rows cols : Z) (inp : list Z) (out : list Z) :=
  unpack_matrix inp rows cols out f32_one f32_minus_one.
Definition to_int8 (x : Z) : Z := (x + 128) mod 256 - 128.
Definition dequantize_int8 (offset zp rows cols : Z) (inp : list Z) (out : list Z) :=
  unpack_matrix inp rows cols out
    (to_int8 (Z.min 127 (zp + offset))) (to_int8 (Z.max (-128) (zp - offset))).
Definition dequantize_bool (rows cols : Z) (inp : list Z) (out : list Z) :=
  unpack_matrix inp rows cols out 1 0.

(** ** Proofs *)
Lemma int_irrefl lo hi : forall z : et (int_elem lo hi), et_ltb (int_elem lo hi) z z = false.
Proof. intros z. cbn. apply Z.ltb_irrefl. Qed.
Lemma float_irrefl : forall z : et float_elem, et_ltb float_elem z z = false.
Proof. exact flt_irrefl. Qed.

Lemma float_no_ub cols zp : packing_ub float_elem cols zp = false.
Proof. reflexivity. Qed.

Lemma int_no_ub lo hi cols zp : lo <= hi -> (cols mod 32 = 31 -> zp <= hi) ->
  packing_ub (int_elem lo hi) cols zp = false.
Proof.
  intros Hl H. unfold packing_ub. cbn. destruct (Z.leb_spec zp lo); cbn; [reflexivity|].
  destruct (Z.ltb_spec hi zp); cbn; [|reflexivity]. destruct (Z.eqb_spec (cols mod 32) 31); [lia|reflexivity].
Qed.

Lemma quantize_float_ok rows cols inp out :
  0 <= rows -> 0 <= cols -> zlen inp = rows * cols -> zlen out = rows * words cols ->
  (forall i v, rd inp i = Some v -> word v) ->
  exists out', quantize_float rows cols inp out = Some out' /\ packed out' rows cols /\
    forall r c v, 0 <= r < rows -> 0 <= c < cols -> rd inp (r * cols + c) = Some v ->
      bit_of out' (words cols) r c = negative32 v.
Proof.
  intros Hr Hc Hi Ho Hw.
  destruct (pack_correct float_elem float_irrefl inp rows cols out 0 Hr Hc Hi Ho eq_refl) as (o & H1 & H2 & H3).
  exists o. split; [exact H1|]. split; [exact H2|]. intros r c v Hrr Hcc Hv.
  rewrite (H3 r c v Hrr Hcc Hv). unfold below. cbn. apply flt_zero. eapply Hw; eauto.
Qed.

Lemma quantize_int_ok lo hi zp rows cols inp out :
  lo <= hi -> (forall i v, rd inp i = Some v -> lo <= v <= hi) ->
  0 <= rows -> 0 <= cols -> zlen inp = rows * cols -> zlen out = rows * words cols ->
  (cols mod 32 = 31 -> zp <= hi) ->
  exists out', bitpack_matrix (int_elem lo hi) inp rows cols out zp = Some out' /\ packed out' rows cols /\
    forall r c v, 0 <= r < rows -> 0 <= c < cols -> rd inp (r * cols + c) = Some v ->
      bit_of out' (words cols) r c = (v <? zp).
Proof.
  intros Hlh Hv Hr Hc Hi Ho Hub.
  destruct (pack_correct (int_elem lo hi) (int_irrefl lo hi) inp rows cols out zp Hr Hc Hi Ho
              (int_no_ub lo hi cols zp Hlh Hub)) as (o & H1 & H2 & H3).
  exists o. split; [exact H1|]. split; [exact H2|]. intros r c v Hrr Hcc Hrd.
  rewrite (H3 r c v Hrr Hcc Hrd). apply below_int. eapply Hv; eauto.
Qed.

Lemma quantize_bool_ok rows cols inp out :
  (forall i v, rd inp i = Some v -> 0 <= v <= 255) ->
  0 <= rows -> 0 <= cols -> zlen inp = rows * cols -> zlen out = rows * words cols ->
  exists out', quantize_bool rows cols inp out = Some out' /\ packed out' rows cols /\
    forall r c v, 0 <= r < rows -> 0 <= c < cols -> rd inp (r * cols + c) = Some v ->
      bit_of out' (words cols) r c = (v =? 0).
Proof.
  intros Hv Hr Hc Hi Ho.
  destruct (quantize_int_ok 0 255 1 rows cols inp out ltac:(lia) Hv Hr Hc Hi Ho ltac:(lia)) as (o & H1 & H2 & H3).
  exists o. split; [exact H1|]. split; [exact H2|]. intros r c v Hrr Hcc Hrd.
  rewrite (H3 r c v Hrr Hcc Hrd). specialize (Hv _ _ Hrd). lia.
Qed.

(** Round trips. *)
Lemma float_round_trip rows cols inp out dst :
  0 <= rows -> 0 <= cols -> zlen inp = rows * cols -> zlen out = rows * words cols ->
  zlen dst = rows * cols -> (forall i v, rd inp i = Some v -> word v) ->
  exists p res, quantize_float rows cols inp out = Some p /\
    dequantize_float rows cols p dst = Some res /\ zlen res = rows * cols /\
    forall i v, rd inp i = Some v ->
      rd res i = Some (if negative32 v then f32_minus_one else f32_one).
Proof.
  intros Hr Hc Hi Ho Hd Hw.
  destruct (unpack_pack float_elem float_irrefl inp rows cols out dst 0 f32_one f32_minus_one
     Hr Hc Hi Ho Hd eq_refl) as (p & res & H1 & H2 & H3 & H4).
  exists p, res. split; [exact H1|]. split; [exact H2|]. split; [exact H3|].
  intros i v Hv. rewrite (H4 i v Hv). unfold below; cbn. rewrite flt_zero by (eapply Hw; eauto). reflexivity.
Qed.

Lemma float_pack_unpack p rows cols dst out :
  0 <= rows -> 0 <= cols -> packed p rows cols -> zlen dst = rows * cols ->
  zlen out = rows * words cols ->
  exists u, dequantize_float rows cols p dst = Some u /\ quantize_float rows cols u out = Some p.
Proof.
  intros Hr Hc Hp Hd Ho. apply (pack_unpack float_elem float_irrefl); auto.
Qed.

Lemma bool_pack_unpack p rows cols dst out :
  0 <= rows -> 0 <= cols -> packed p rows cols -> zlen dst = rows * cols ->
  zlen out = rows * words cols ->
  exists u, dequantize_bool rows cols p dst = Some u /\ quantize_bool rows cols u out = Some p.
Proof.
  intros Hr Hc Hp Hd Ho. apply (pack_unpack uint8_elem (int_irrefl _ _)); auto.
Qed.

(** TfLiteRound(1.0f / scale) in exact arithmetic. *)
Definition int8_offset (scale : Q) : Z := round_haz (1 / scale).

Lemma int8_offset_pos scale : (0 < scale)%Q -> ((scale <= 2)%Q <-> 1 <= int8_offset scale).
Proof.
  intros Hs. unfold int8_offset, round_haz.
  assert (Hi : (0 < 1 / scale)%Q).
  { apply Qlt_shift_div_l; [exact Hs|]. rewrite Qmult_0_l. reflexivity. }
  assert (Hb : Qle_bool 0 (1 / scale) = true) by (apply Qle_bool_iff, Qlt_le_weak, Hi).
  rewrite Hb.
  assert (Hmul : (1 / scale * scale == 1)%Q) by (field; intros E; rewrite E in Hs; discriminate).
  set (q := (1 / scale)%Q) in *. clearbody q.
  split; intros H.
  - assert (H2 : (inject_Z 1 <= q + (1 # 2))%Q) by (unfold inject_Z; nra).
    apply Qfloor_resp_le in H2. rewrite Qfloor_Z in H2. exact H2.
  - assert (H1 : (inject_Z 1 <= q + (1 # 2))%Q).
    { eapply Qle_trans; [|apply Qfloor_le]. rewrite <- Zle_Qle. exact H. }
    unfold inject_Z in H1. nra.
Qed.

Lemma int8_pack_unpack offset zp p rows cols dst out :
  0 <= rows -> 0 <= cols -> packed p rows cols -> zlen dst = rows * cols ->
  zlen out = rows * words cols -> 1 <= offset -> -128 < zp <= 127 ->
  exists u, dequantize_int8 offset zp rows cols p dst = Some u /\ quantize_int8 zp rows cols u out = Some p.
Proof.
  intros Hr Hc Hp Hd Ho Hoff Hz. apply (pack_unpack int8_elem (int_irrefl _ _)); auto.
  - apply int_no_ub; lia.
  - unfold below, to_int8. cbn [et_lo et_hi et_ltb et_cast int8_elem int_elem].
    destruct (Z.leb_spec zp (-128)); [lia|]. destruct (Z.ltb_spec 127 zp); lia.
  - unfold below, to_int8. cbn [et_lo et_hi et_ltb et_cast int8_elem int_elem].
    destruct (Z.leb_spec zp (-128)); [lia|]. destruct (Z.ltb_spec 127 zp); lia.
Qed.

Lemma int8_scale_round_trip scale zp p rows cols dst out :
  0 <= rows -> 0 <= cols -> packed p rows cols -> zlen dst = rows * cols ->
  zlen out = rows * words cols -> (0 < scale)%Q -> (scale <= 2)%Q -> -128 < zp <= 127 ->
  exists u, dequantize_int8 (int8_offset scale) zp rows cols p dst = Some u /\
            quantize_int8 zp rows cols u out = Some p.
Proof.
  intros Hr Hc Hp Hd Ho Hs Hs2 Hz. apply int8_pack_unpack; auto.
  apply int8_offset_pos; auto.
Qed.

Lemma quantize_int8_defined zp rows cols inp out :
  (forall i v, rd inp i = Some v -> -128 <= v <= 127) ->
  0 <= rows -> 0 <= cols -> zlen inp = rows * cols -> zlen out = rows * words cols ->
  ~ (cols mod 32 = 31 /\ 127 < zp) ->
  quantize_int8 zp rows cols inp out <> None.
Proof.
  intros Hv Hr Hc Hi Ho Hub.
  destruct (quantize_int_ok (-128) 127 zp rows cols inp out ltac:(lia) Hv Hr Hc Hi Ho ltac:(lia)) as (o & H1 & _).
  unfold quantize_int8, bitpack_tensor. change int8_elem with (int_elem (-128) 127).
  rewrite H1. discriminate.
Qed.

Lemma int_round_trip lo hi {T} inp rows cols out (dst : list T) zp (z o : T) :
  lo <= hi -> (forall i v, rd inp i = Some v -> lo <= v <= hi) ->
  0 <= rows -> 0 <= cols -> zlen inp = rows * cols -> zlen out = rows * words cols ->
  zlen dst = rows * cols -> (cols mod 32 = 31 -> zp <= hi) ->
  exists p res, bitpack_matrix (int_elem lo hi) inp rows cols out zp = Some p /\
    unpack_matrix p rows cols dst z o = Some res /\ zlen res = rows * cols /\
    (forall i v, rd inp i = Some v -> rd res i = Some (if v <? zp then o else z)).
Proof.
  intros Hl Hv Hr Hc Hi Ho Hd Hub.
  destruct (unpack_pack (int_elem lo hi) (int_irrefl lo hi) inp rows cols out dst zp z o Hr Hc Hi Ho Hd
     (int_no_ub lo hi cols zp Hl Hub)) as (p & res & H1 & H2 & H3 & H4).
  exists p, res. repeat (split; [assumption|]). intros i v Hrd.
  rewrite (H4 i v Hrd), (below_int lo hi v zp (Hv _ _ Hrd)). reflexivity.
Qed.
