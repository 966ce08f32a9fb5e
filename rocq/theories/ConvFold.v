(** * ConvFold: constant folding of LceQuantize / LceDequantize in the converter
    (mlir/transforms/bitpack.cc, ir/lce_ops.cc 75-87) and the int8 rewrites of
    mlir/transforms/quantize_patterns.td. *)
From Coq Require Import SpecFloat QArith Qround Lqa.
From Verif Require Import Base Spec Bits Bitpack Float32 FloatOrder Reference OutputTransform Quantize RefTheorems
  ThresholdFloat.
Open Scope Z_scope.

(** bitpack.cc 18-56 Bitpack for float elements. std::vector is zero-filled; the
    copy loop is the identity on the element list. *)
Definition Bitpack_f32 (rows cols : Z) (vals : list Z) : option (list Z) :=
  bitpack_matrix float_elem vals rows cols (repeat 0 (Z.to_nat (rows * words cols))) 0.

(** bitpack.cc 58-110 Unpack. [in_shape] and [out_shape] are 4-D; None is nullptr
    (no folding). *)
Definition shape4 := (Z * Z * Z * Z)%type.
Definition shape_fits (i o : shape4) : bool :=
  let '(i0, i1, i2, i3) := i in let '(o0, o1, o2, o3) := o in
  (i0 =? o0) && (i1 =? o1) && (i2 =? o2) && (i3 =? words o3).
Definition rows_of (o : shape4) : Z := let '(o0, o1, o2, _) := o in o0 * o1 * o2.
Definition cols_of (o : shape4) : Z := let '(_, _, _, o3) := o in o3.
Definition Unpack_f32 (i o : shape4) (vals : list Z) : option (list Z) :=
  if shape_fits i o then
    unpack_matrix vals (rows_of o) (cols_of o) (repeat 0 (Z.to_nat (rows_of o * cols_of o))) f32_one f32_minus_one
  else None.
(** [rp] = round(+1.0 / scale), [rm] = round(-1.0 / scale). *)
Definition Unpack_int8 (rp rm zp : Z) (i o : shape4) (vals : list Z) : option (list Z) :=
  if shape_fits i o then
    unpack_matrix vals (rows_of o) (cols_of o) (repeat 0 (Z.to_nat (rows_of o * cols_of o)))
      (saturate (zp + rp)) (saturate (zp + rm))
  else None.

(** TFL Quantize (TFLite AffineQuantize, outside /repo) in exact arithmetic. *)
Definition tfl_quantize (scale : Q) (zp : Z) (v : Q) : Z :=
  Z.max (-128) (Z.min 127 (round_haz (v / scale) + zp)).
(** TFL Dequantize in exact arithmetic. *)
Definition tfl_dequantize (scale : Q) (zp : Z) (q : Z) : Q := (scale * inject_Z (q - zp))%Q.
(** LceDequantize to float and LceQuantize of floats, on rationals. *)
Definition q_elem : elemtype :=
  {| et := Q; et_ltb := fun a b => negb (Qle_bool b a); et_cast := inject_Z; et_zero := 0%Q;
     et_lo := None; et_hi := None |}.
Definition dequantize_Q (rows cols : Z) (inp : list Z) (out : list Q) : option (list Q) :=
  unpack_matrix inp rows cols out 1%Q (- (1))%Q.
Definition quantize_Q (rows cols : Z) (inp : list Q) (out : list Z) : option (list Z) :=
  bitpack_tensor q_elem rows cols inp 0 out.

(** ** Proofs *)
Lemma unpack_correct {T} inp rows cols (out : list T) z o :
  0 <= rows -> 0 <= cols -> zlen inp = rows * words cols -> zlen out = rows * cols ->
  exists res, unpack_matrix inp rows cols out z o = Some res /\ zlen res = rows * cols /\
    forall r c, 0 <= r < rows -> 0 <= c < cols ->
      rd res (r * cols + c) = Some (if bit_of inp (words cols) r c then o else z).
Proof.
  intros Hr Hc Hi Ho. apply wp_iff. apply unpack_matrix_wp; try lia.
  intros out' (L & _ & H). split; [congruence|]. exact H.
Qed.

Lemma row_col rows cols i : 0 <= rows -> 0 <= i < rows * cols -> 0 <= cols ->
  exists r c, 0 <= r < rows /\ 0 <= c < cols /\ i = r * cols + c.
Proof.
  intros Hr Hi Hc. assert (0 < cols) by nia. exists (i / cols), (i mod cols).
  assert (D := Z.div_mod i cols ltac:(lia)). assert (M := Z.mod_pos_bound i cols ltac:(lia)).
  split; [|split; [exact M|lia]]. split; [apply Z.div_pos; lia|]. apply Z.div_lt_upper_bound; lia.
Qed.

Lemma unpack_buf {T S} (f : T -> S) inp rows cols (o1 : list T) (o2 : list S) z o :
  0 <= rows -> 0 <= cols -> zlen inp = rows * words cols -> zlen o1 = rows * cols -> zlen o2 = rows * cols ->
  exists u, unpack_matrix inp rows cols o1 z o = Some u /\
            unpack_matrix inp rows cols o2 (f z) (f o) = Some (map f u).
Proof.
  intros Hr Hc Hi H1 H2.
  destruct (unpack_correct inp rows cols o1 z o Hr Hc Hi H1) as (u & E1 & L1 & R1).
  destruct (unpack_correct inp rows cols o2 (f z) (f o) Hr Hc Hi H2) as (v & E2 & L2 & R2).
  exists u. split; [exact E1|]. rewrite E2. f_equal. apply rd_ext; [rewrite zlen_map; congruence|].
  intros i Hii. rewrite L2 in Hii. destruct (row_col rows cols i Hr Hii Hc) as (r & c & Hrr & Hcc & ->).
  rewrite R2, rd_map, R1 by assumption. cbn [option_map]. destruct (bit_of inp (words cols) r c); reflexivity.
Qed.

Lemma pack_buf E (h : forall z : et E, et_ltb E z z = false) inp rows cols o1 o2 zp :
  0 <= rows -> 0 <= cols -> zlen inp = rows * cols -> zlen o1 = rows * words cols -> zlen o2 = rows * words cols ->
  packing_ub E cols zp = false ->
  exists p, bitpack_matrix E inp rows cols o1 zp = Some p /\ bitpack_matrix E inp rows cols o2 zp = Some p /\
    packed p rows cols.
Proof.
  intros Hr Hc Hi H1 H2 U.
  destruct (pack_correct E h inp rows cols o1 zp Hr Hc Hi H1 U) as (p & Ep & Pp & Bp).
  destruct (pack_correct E h inp rows cols o2 zp Hr Hc Hi H2 U) as (q & Eq & Pq & Bq).
  exists p. split; [exact Ep|]. split; [|exact Pp]. rewrite Eq. f_equal. symmetry.
  apply (packed_bits_inj p q rows cols Hc Pp Pq). intros r c Hrr Hcc.
  destruct (rd_some inp (r * cols + c) ltac:(nia)) as [v Ev].
  rewrite (Bp r c v Hrr Hcc Ev), (Bq r c v Hrr Hcc Ev). reflexivity.
Qed.

Lemma fold_quantize rows cols vals out :
  0 <= rows -> 0 <= cols -> zlen vals = rows * cols -> zlen out = rows * words cols ->
  Bitpack_f32 rows cols vals = quantize_float rows cols vals out /\ Bitpack_f32 rows cols vals <> None.
Proof.
  intros Hr Hc Hi Ho. assert (HW := words_nonneg cols Hc).
  destruct (pack_buf float_elem float_irrefl vals rows cols (repeat 0 (Z.to_nat (rows * words cols))) out 0
    Hr Hc Hi ltac:(rewrite zlen_repeat; nia) Ho eq_refl) as (p & E1 & E2 & _).
  unfold Bitpack_f32, quantize_float, bitpack_tensor. rewrite E1, E2. split; [reflexivity|discriminate].
Qed.

Definition shape_nonneg (s : shape4) : Prop := let '(a, b, c, d) := s in 0 <= a /\ 0 <= b /\ 0 <= c /\ 0 <= d.
Definition size4 (s : shape4) : Z := let '(a, b, c, d) := s in a * b * c * d.

Lemma shape_facts i o : shape_fits i o = true -> shape_nonneg o ->
  0 <= rows_of o /\ 0 <= cols_of o /\ size4 i = rows_of o * words (cols_of o) /\ size4 o = rows_of o * cols_of o.
Proof.
  destruct i as [[[i0 i1] i2] i3], o as [[[o0 o1] o2] o3]. cbn.
  rewrite !andb_true_iff, !Z.eqb_eq. intros (((-> & ->) & ->) & ->) (A & B & C & D).
  repeat split; try assumption; try reflexivity. apply Z.mul_nonneg_nonneg; [apply Z.mul_nonneg_nonneg|]; assumption.
Qed.

Lemma fold_dequantize_float i o vals dst :
  shape_fits i o = true -> shape_nonneg o -> zlen vals = size4 i -> zlen dst = size4 o ->
  Unpack_f32 i o vals = dequantize_float (rows_of o) (cols_of o) vals dst /\ Unpack_f32 i o vals <> None.
Proof.
  intros Hf Hn Hv Hd. destruct (shape_facts i o Hf Hn) as (Hr & Hc & Ei & Eo).
  unfold Unpack_f32, dequantize_float. rewrite Hf.
  destruct (unpack_buf (fun x : Z => x) vals (rows_of o) (cols_of o)
    (repeat 0 (Z.to_nat (rows_of o * cols_of o))) dst f32_one f32_minus_one Hr Hc ltac:(congruence)
    ltac:(rewrite zlen_repeat; nia) ltac:(congruence)) as (u & E1 & E2).
  rewrite E1, E2, map_id. split; [reflexivity|discriminate].
Qed.

Lemma to_int8_id x : -128 <= x <= 127 -> to_int8 x = x.
Proof. intros H. unfold to_int8. rewrite Z.mod_small; lia. Qed.

Lemma int8_results off zp : 0 <= off -> -128 <= zp <= 127 ->
  saturate (zp + off) = to_int8 (Z.min 127 (zp + off)) /\
  saturate (zp + - off) = to_int8 (Z.max (-128) (zp - off)).
Proof. intros H1 H2. unfold saturate. rewrite !to_int8_id by lia. lia. Qed.

Lemma fold_dequantize_int8 off zp i o vals dst :
  0 <= off -> -128 <= zp <= 127 ->
  shape_fits i o = true -> shape_nonneg o -> zlen vals = size4 i -> zlen dst = size4 o ->
  Unpack_int8 off (- off) zp i o vals = dequantize_int8 off zp (rows_of o) (cols_of o) vals dst /\
  Unpack_int8 off (- off) zp i o vals <> None.
Proof.
  intros Ho Hz Hf Hn Hv Hd. destruct (shape_facts i o Hf Hn) as (Hr & Hc & Ei & Eo).
  unfold Unpack_int8, dequantize_int8. rewrite Hf. destruct (int8_results off zp Ho Hz) as [<- <-].
  destruct (unpack_buf (fun x : Z => x) vals (rows_of o) (cols_of o)
    (repeat 0 (Z.to_nat (rows_of o * cols_of o))) dst (saturate (zp + off)) (saturate (zp + - off)) Hr Hc ltac:(congruence)
    ltac:(rewrite zlen_repeat; nia) ltac:(congruence)) as (u & E1 & E2).
  rewrite E1, E2, map_id. split; [reflexivity|discriminate].
Qed.

Lemma Qle_bool_false a b : Qle_bool a b = false <-> (b < a)%Q.
Proof.
  split; intros H.
  - apply Qnot_le_lt. intros L. apply Qle_bool_iff in L. congruence.
  - apply not_true_iff_false. intros L. apply Qle_bool_iff in L. apply Qle_not_lt in L. contradiction.
Qed.

Lemma round_haz_nonneg q : (0 <= q)%Q -> round_haz q = Qfloor (q + (1 # 2)).
Proof. intros H. unfold round_haz. apply Qle_bool_iff in H. rewrite H. reflexivity. Qed.
Lemma round_haz_neg q : (q < 0)%Q -> round_haz q = - Qfloor (- q + (1 # 2)).
Proof. intros H. unfold round_haz. apply Qle_bool_false in H. rewrite H. reflexivity. Qed.

Lemma round_haz_opp q : round_haz (- q) = - round_haz q.
Proof.
  destruct (Qlt_le_dec q 0) as [H|H].
  - rewrite (round_haz_neg q H), round_haz_nonneg by lra. lia.
  - destruct (Qeq_dec q 0) as [E|E].
    + rewrite (round_haz_comp (- q) 0), (round_haz_comp q 0) by lra. reflexivity.
    + rewrite (round_haz_neg (- q)) by lra. rewrite (round_haz_nonneg q H). f_equal.
      apply Qfloor_comp. ring.
Qed.

Lemma int8_offset_nonneg scale : (0 < scale)%Q -> 0 <= int8_offset scale.
Proof.
  intros Hs. unfold int8_offset.
  assert (H : (0 <= 1 / scale)%Q) by (apply Qlt_le_weak, Qlt_shift_div_l; [exact Hs|lra]).
  rewrite round_haz_nonneg by exact H.
  assert (F : (inject_Z 0 <= 1 / scale + (1 # 2))%Q) by (unfold inject_Z; lra).
  apply Qfloor_resp_le in F. rewrite Qfloor_Z in F. exact F.
Qed.

Lemma int8_offset_minus scale : ~ (scale == 0)%Q -> round_haz (- (1) / scale) = - int8_offset scale.
Proof.
  intros H. unfold int8_offset. rewrite <- round_haz_opp. apply round_haz_comp. field. exact H.
Qed.

(** TFL_Quantize(LceDequantize(p)) = int8 LceDequantize(p) *)
Lemma quantize_dequantize scale zp rows cols p (d1 : list Q) (d2 : list Z) :
  (0 < scale)%Q -> -128 <= zp <= 127 -> 0 <= rows -> 0 <= cols ->
  zlen p = rows * words cols -> zlen d1 = rows * cols -> zlen d2 = rows * cols ->
  exists u, dequantize_Q rows cols p d1 = Some u /\
    dequantize_int8 (int8_offset scale) zp rows cols p d2 = Some (map (tfl_quantize scale zp) u).
Proof.
  intros Hs Hz Hr Hc Hp H1 H2.
  assert (Hn : ~ (scale == 0)%Q) by (intros E; rewrite E in Hs; discriminate).
  destruct (unpack_buf (tfl_quantize scale zp) p rows cols d1 d2 1%Q (- (1))%Q Hr Hc Hp H1 H2) as (u & E1 & E2).
  exists u. split; [exact E1|]. unfold dequantize_int8. rewrite <- E2.
  unfold tfl_quantize. rewrite int8_offset_minus by exact Hn. fold (int8_offset scale).
  assert (HO := int8_offset_nonneg scale Hs). rewrite !to_int8_id by lia. f_equal; lia.
Qed.

(** LceQuantize(TFL_Dequantize(q)) = LceQuantize(q) *)
Lemma q_irrefl : forall z : et q_elem, et_ltb q_elem z z = false.
Proof. intros z. cbn. apply negb_false_iff, Qle_bool_iff, Qle_refl. Qed.

Lemma dequant_neg scale zp q : (0 < scale)%Q -> negb (Qle_bool 0 (tfl_dequantize scale zp q)) = (q <? zp).
Proof.
  intros Hs. unfold tfl_dequantize. destruct (Z.ltb_spec q zp).
  - apply negb_true_iff, Qle_bool_false.
    assert (inject_Z (q - zp) <= inject_Z (-1))%Q by (rewrite <- Zle_Qle; lia). unfold inject_Z in *. nra.
  - apply negb_false_iff, Qle_bool_iff.
    assert (inject_Z 0 <= inject_Z (q - zp))%Q by (rewrite <- Zle_Qle; lia). unfold inject_Z in *. nra.
Qed.

Lemma pack_ext2 E1 E2 (h1 : forall z : et E1, et_ltb E1 z z = false) (h2 : forall z : et E2, et_ltb E2 z z = false)
    l1 (f : et E1 -> et E2) rows cols out zp1 zp2 :
  0 <= rows -> 0 <= cols -> zlen l1 = rows * cols -> zlen out = rows * words cols ->
  packing_ub E1 cols zp1 = false -> packing_ub E2 cols zp2 = false ->
  (forall i v, rd l1 i = Some v -> below E1 v zp1 = below E2 (f v) zp2) ->
  exists p, bitpack_matrix E1 l1 rows cols out zp1 = Some p /\ bitpack_matrix E2 (map f l1) rows cols out zp2 = Some p.
Proof.
  intros Hr Hc H1 Ho U1 U2 H.
  destruct (pack_correct E1 h1 l1 rows cols out zp1 Hr Hc H1 Ho U1) as (p & Ep & Pp & Bp).
  destruct (pack_correct E2 h2 (map f l1) rows cols out zp2 Hr Hc ltac:(rewrite zlen_map; exact H1) Ho U2) as (q & Eq & Pq & Bq).
  exists p. split; [exact Ep|]. rewrite Eq. f_equal. symmetry.
  apply (packed_bits_inj p q rows cols Hc Pp Pq). intros r c Hrr Hcc.
  destruct (rd_some l1 (r * cols + c) ltac:(nia)) as [v Ev].
  rewrite (Bp r c v Hrr Hcc Ev), (Bq r c (f v) Hrr Hcc ltac:(rewrite rd_map, Ev; reflexivity)). eapply H; eauto.
Qed.

Lemma quantize_of_dequantize scale zp rows cols (q : list Z) out :
  (0 < scale)%Q -> -128 <= zp <= 127 -> 0 <= rows -> 0 <= cols ->
  (forall i v, rd q i = Some v -> -128 <= v <= 127) -> zlen q = rows * cols -> zlen out = rows * words cols ->
  quantize_Q rows cols (map (tfl_dequantize scale zp) q) out = quantize_int8 zp rows cols q out /\
  quantize_int8 zp rows cols q out <> None.
Proof.
  intros Hs Hz Hr Hc Hv Hq Ho.
  destruct (pack_ext2 int8_elem q_elem (int_irrefl _ _) q_irrefl q (tfl_dequantize scale zp) rows cols out zp 0)
    as (p & E1 & E2); auto.
  - apply int_no_ub; lia.
  - intros i v Hi. unfold below at 2. cbn [et_lo et_hi et_ltb et_cast q_elem].
    change (inject_Z 0) with 0%Q. rewrite dequant_neg by exact Hs.
    apply below_int. eapply Hv; exact Hi.
  - assert (F1 : quantize_Q rows cols (map (tfl_dequantize scale zp) q) out = Some p) by exact E2.
    assert (F2 : quantize_int8 zp rows cols q out = Some p) by exact E1.
    rewrite F1, F2. split; [reflexivity|discriminate].
Qed.

(** TFL_Quantize(float BConv2d) vs int8 BConv2d: round(t) + zp vs round(t + zp). *)
Lemma Qfloor_add q z : Qfloor (q + inject_Z z) = Qfloor q + z.
Proof.
  assert (A := Qfloor_le q). assert (B := Qlt_floor q).
  assert (A2 := Qfloor_le (q + inject_Z z)). assert (B2 := Qlt_floor (q + inject_Z z)).
  rewrite inject_Z_plus in B, B2. change (inject_Z 1) with 1%Q in *.
  assert (H1 : (inject_Z (Qfloor (q + inject_Z z)) < inject_Z (Qfloor q + z + 1))%Q)
    by (rewrite !inject_Z_plus; change (inject_Z 1) with 1%Q; lra).
  assert (H2 : (inject_Z (Qfloor q + z) < inject_Z (Qfloor (q + inject_Z z) + 1))%Q)
    by (rewrite !inject_Z_plus; change (inject_Z 1) with 1%Q; lra).
  rewrite <- Zlt_Qlt in H1, H2. lia.
Qed.

(** A tie: exactly halfway between two integers. *)
Definition is_tie (t : Q) : Prop := exists n : Z, (t == inject_Z n + (1 # 2))%Q.

Lemma floor_neg_tie q : - Qfloor (- q + (1 # 2)) = Qfloor (q + (1 # 2)) \/
  is_tie q /\ - Qfloor (- q + (1 # 2)) = Qfloor (q + (1 # 2)) - 1.
Proof.
  assert (A := Qfloor_le (- q + (1 # 2))). assert (B := Qlt_floor (- q + (1 # 2))).
  assert (A2 := Qfloor_le (q + (1 # 2))). assert (B2 := Qlt_floor (q + (1 # 2))).
  set (m := Qfloor (- q + (1 # 2))) in *. set (n := Qfloor (q + (1 # 2))) in *. clearbody m n.
  rewrite inject_Z_plus in B, B2. change (inject_Z 1) with 1%Q in *.
  assert (H1 : (inject_Z (m + n) <= inject_Z 1)%Q) by (rewrite inject_Z_plus; change (inject_Z 1) with 1%Q; lra).
  assert (H2 : (inject_Z (-1) < inject_Z (m + n))%Q) by (rewrite inject_Z_plus; change (inject_Z (-1)) with (- (1))%Q; lra).
  rewrite <- Zle_Qle in H1. rewrite <- Zlt_Qlt in H2.
  destruct (Z.eq_dec (m + n) 0) as [E|E]; [left; lia|right]. assert (E1 : m + n = 1) by lia. split; [|lia].
  exists (n - 1). replace (n - 1) with (n + -1) by lia. rewrite inject_Z_plus.
  assert (E2 : (inject_Z (m + n) == 1)%Q) by (rewrite E1; reflexivity). rewrite inject_Z_plus in E2.
  change (inject_Z (-1)) with (- (1))%Q. lra.
Qed.

Lemma round_shift t z :
  round_haz t + z = round_haz (t + inject_Z z) \/
  is_tie t /\ ((t < 0 /\ 0 <= t + inject_Z z) \/ (0 <= t /\ t + inject_Z z < 0))%Q /\
  Z.abs (round_haz t + z - round_haz (t + inject_Z z)) = 1.
Proof.
  assert (EF : forall a, Qfloor (a + inject_Z z + (1 # 2)) = Qfloor (a + (1 # 2)) + z).
  { intros a. rewrite <- Qfloor_add. apply Qfloor_comp. ring. }
  assert (EN : Qfloor (- (t + inject_Z z) + (1 # 2)) = Qfloor (- t + (1 # 2)) - z).
  { unfold Zminus. rewrite <- Qfloor_add. apply Qfloor_comp. rewrite inject_Z_opp. ring. }
  destruct (Qlt_le_dec t 0) as [H1|H1], (Qlt_le_dec (t + inject_Z z) 0) as [H2|H2].
  - left. rewrite !round_haz_neg by assumption. rewrite EN. lia.
  - rewrite (round_haz_neg t H1), (round_haz_nonneg _ H2), EF.
    destruct (floor_neg_tie t) as [E|(T & E)]; [left; lia|right].
    split; [exact T|]. split; [left; split; assumption|]. lia.
  - rewrite (round_haz_nonneg t H1), (round_haz_neg _ H2), EN.
    destruct (floor_neg_tie t) as [E|(T & E)]; [left; lia|right].
    split; [exact T|]. split; [right; split; assumption|]. lia.
  - left. rewrite !round_haz_nonneg by assumption. rewrite EF. reflexivity.
Qed.

Section Conv.
  Variables (p : bconv) (a : activation) (input filter : list Z) (post_mul post_bias : list Q) (scale : Q) (zp : Z).
  Hypothesis WF : bconv_wf p.
  Hypothesis Hin : packed input (in_pixels (geom_of p)) (channels_in p).
  Hypothesis Hfl : packed filter (filter_pixels (geom_of p)) (channels_in p / groups p).
  Hypothesis Hev : pad_same p && (pad_value p =? 0) = true -> (channels_in p / groups p) mod 2 = 0.
  Hypothesis Hsz : taps (geom_of p) < 2 ^ 31.
  Hypotheses (Hm : zlen post_mul = out_c p) (Hb : zlen post_bias = out_c p) (Hs : (0 < scale)%Q).

  Lemma quantize_bconv outf outi :
    zlen outf = out_pixels (geom_of p) * out_c p -> zlen outi = out_pixels (geom_of p) * out_c p ->
    exists yf yi, eval_ref_float p a input filter post_mul post_bias outf = Some yf /\
      eval_ref_int8 p a input filter post_mul post_bias scale zp outi = Some yi /\
      forall b y x c, 0 <= b < batches p -> 0 <= y < out_h p -> 0 <= x < out_w p -> 0 <= c < out_c p ->
        exists r q, rd yf (out_pixel (geom_of p) b y x * out_c p + c) = Some r /\
          rd yi (out_pixel (geom_of p) b y x * out_c p + c) = Some q /\
          (q = tfl_quantize scale zp r \/
           is_tie (r / scale) /\ Z.abs (q - tfl_quantize scale zp r) <= 1 /\
           ((r < 0 /\ 0 <= r / scale + inject_Z zp) \/ (0 <= r /\ r / scale + inject_Z zp < 0))%Q).
  Proof.
    intros Ho1 Ho2.
    destruct (eval_ref_float_ok p WF input filter Hin Hfl Hev Hsz a post_mul post_bias outf Hm Hb Ho1) as (yf & E1 & _ & R1).
    destruct (eval_ref_int8_ok p WF input filter Hin Hfl Hev Hsz a post_mul post_bias scale zp outi Hm Hb Ho2 Hs) as (yi & E2 & _ & R2).
    exists yf, yi. split; [exact E1|]. split; [exact E2|]. intros b y x c H1 H2 H3 H4.
    destruct (rd_some post_mul c ltac:(lia)) as [m Em]. destruct (rd_some post_bias c ltac:(lia)) as [bi Ebi].
    destruct (R1 b y x c m bi H1 H2 H3 Em Ebi) as (r & Er & Vr).
    specialize (R2 b y x c m bi H1 H2 H3 Em Ebi). exists r. eexists. split; [exact Er|]. split; [exact R2|].
    set (v := (m * inject_Z (act_spec a _) + bi)%Q) in *. clearbody v.
    assert (Hn : ~ (scale == 0)%Q) by (intros E; rewrite E in Hs; discriminate).
    rewrite (round_haz_comp (v / scale + inject_Z zp) (r / scale + inject_Z zp)) by (rewrite Vr; reflexivity).
    unfold tfl_quantize. assert (Hrs : ((r / scale) * scale == r)%Q) by (field; exact Hn).
    destruct (round_shift (r / scale) zp) as [E|(T & S & D)].
    - left. rewrite E. reflexivity.
    - right. split; [exact T|]. split; [clear - D; lia|]. destruct S as [[S1 S2]|[S1 S2]]; [left|right]; split; auto; nra.
  Qed.
End Conv.

(** ** Folding in IEEE arithmetic: double in the converter, float at run time *)
Definition dbl_to_flt (x : spec_float) : spec_float :=
  match x with S754_finite s m e => binary_round 24 128 s m e | _ => x end.
Definition dbl_one : spec_float := S754_finite false (Z.to_pos (2 ^ 52)) (-52).
Definition flt_one : spec_float := S754_finite false (Z.to_pos (2 ^ 23)) (-23).
(** bitpack.cc 99: core::round(float) of the double quotient +1.0 / scale. *)
Definition conv_offset (scale : spec_float) : Z := round_haz (SF2Q (dbl_to_flt (SFdiv 53 1024 dbl_one scale))).
(** quantization.cc 133: TfLiteRound(1.0f / scale), scale stored as float. *)
Definition run_offset (scale : spec_float) : Z := round_haz (SF2Q (SFdiv 24 128 flt_one (dbl_to_flt scale))).

(** scale = 2/7 in double precision: 1/scale is 3.5 in the converter, but 1.0f / 0.2857143f
    is just below 3.5. *)
Definition dbl_of (n : Z) : spec_float := binary_normalize 53 1024 n 0 false.
Lemma fold_scale_wrong : let scale := SFdiv 53 1024 (dbl_of 2) (dbl_of 7) in
  conv_offset scale = 4 /\ run_offset scale = 3.
Proof. cbv zeta. split; vm_compute; reflexivity. Qed.

Lemma fold_int8_wrong :
  let scale := SFdiv 53 1024 (dbl_of 2) (dbl_of 7) in
  let rp := conv_offset scale in
  Unpack_int8 rp (- rp) 0 (1, 1, 1, 1) (1, 1, 1, 1) [0] = Some [4] /\
  dequantize_int8 (run_offset scale) 0 1 1 [0] [0] = Some [3].
Proof.
  cbv zeta. destruct fold_scale_wrong as [E1 E2]. rewrite E1, E2. split; vm_compute; reflexivity.
Qed.

Lemma fold_int8_exact scale zp i o vals dst :
  (0 < scale)%Q -> -128 <= zp <= 127 ->
  shape_fits i o = true -> shape_nonneg o -> zlen vals = size4 i -> zlen dst = size4 o ->
  Unpack_int8 (round_haz (1 / scale)) (round_haz (- (1) / scale)) zp i o vals =
    dequantize_int8 (round_haz (1 / scale)) zp (rows_of o) (cols_of o) vals dst /\
  Unpack_int8 (round_haz (1 / scale)) (round_haz (- (1) / scale)) zp i o vals <> None.
Proof.
  intros Hs Hz. rewrite int8_offset_minus by (intros E; rewrite E in Hs; discriminate).
  apply fold_dequantize_int8; [apply int8_offset_nonneg; exact Hs|exact Hz].
Qed.
