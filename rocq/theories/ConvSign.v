(** * ConvSign: converter rewrites around quantisation,
    mlir/transforms/optimize_patterns_common.td 17-45 and
    prepare_patterns_common.td 25-66. Float tensors are lists of binary32
    values (standard library [spec_float]). *)
From Coq Require Import SpecFloat.
From Verif Require Import Base Spec Bits Bitpack Float32 FloatOrder Quantize.

(** Float tensors as [spec_float]: LceQuantize on them (see [quantize_sf_words]
    for the agreement with the 32-bit patterns of Quantize.v). *)
Definition sf_elem : elemtype :=
  {| et := spec_float; et_ltb := SFltb; et_cast := fun _ => S754_zero false; et_zero := S754_zero false;
     et_lo := None; et_hi := None |}.
Definition quantize_sf (rows cols : Z) (inp : list spec_float) (out : list Z) : option (list Z) :=
  bitpack_tensor sf_elem rows cols inp 0 out.
Definition sf_one : spec_float := S754_finite false 8388608 (-23).
Definition sf_minus_one : spec_float := S754_finite true 8388608 (-23).
Definition dequantize_sf (rows cols : Z) (inp : list Z) (out : list spec_float) : option (list spec_float) :=
  unpack_matrix inp rows cols out sf_one sf_minus_one.

(** TFL GreaterEqual, LessEqual, Sub (no activation) and TF Sign, element-wise,
    in IEEE binary32. Booleans are the bytes 0 and 1. *)
Definition sf_ge (x y : spec_float) : Z := Z.b2z (SFleb y x).
Definition sf_le (x y : spec_float) : Z := Z.b2z (SFleb x y).
Definition sf_sub := SFsub 24 128.
Definition sf_add := SFadd 24 128.
Definition sf_sign (x : spec_float) : spec_float :=
  if SFltb (S754_zero false) x then sf_one
  else if SFltb x (S754_zero false) then sf_minus_one
  else if is_nan x then S754_nan else S754_zero false.
Definition map2 {A B C} (f : A -> B -> C) (l1 : list A) (l2 : list B) : list C :=
  map (fun '(a, b) => f a b) (combine l1 l2).

(** ** Proofs *)
Lemma sf_irrefl : forall z : et sf_elem, et_ltb sf_elem z z = false.
Proof. exact SFltb_irrefl. Qed.

Lemma zlen_map2 {A B C} (f : A -> B -> C) l1 l2 : zlen l1 = zlen l2 -> zlen (map2 f l1 l2) = zlen l1.
Proof. unfold map2, zlen. rewrite map_length, combine_length. lia. Qed.

Lemma rd_map2 {A B C} (f : A -> B -> C) (l1 : list A) (l2 : list B) i a b :
  rd l1 i = Some a -> rd l2 i = Some b -> rd (map2 f l1 l2) i = Some (f a b).
Proof.
  unfold map2. rewrite rd_map. unfold rd. destruct (i <? 0); [discriminate|].
  generalize (Z.to_nat i). clear. revert l2.
  induction l1 as [|x l1 IH]; intros [|y l2] [|n] H1 H2; cbn in *; try discriminate.
  - congruence.
  - apply IH; assumption.
Qed.

(** Two element types, element-wise the same "below" bit: same words. *)
Lemma pack_ext E1 E2 (h1 : forall z : et E1, et_ltb E1 z z = false) (h2 : forall z : et E2, et_ltb E2 z z = false)
    l1 l2 rows cols out zp1 zp2 :
  0 <= rows -> 0 <= cols -> zlen l1 = rows * cols -> zlen l2 = rows * cols -> zlen out = rows * words cols ->
  packing_ub E1 cols zp1 = false -> packing_ub E2 cols zp2 = false ->
  (forall i v1 v2, rd l1 i = Some v1 -> rd l2 i = Some v2 -> below E1 v1 zp1 = below E2 v2 zp2) ->
  exists p, bitpack_matrix E1 l1 rows cols out zp1 = Some p /\ bitpack_matrix E2 l2 rows cols out zp2 = Some p.
Proof.
  intros Hr Hc H1 H2 Ho U1 U2 H.
  destruct (pack_correct E1 h1 l1 rows cols out zp1 Hr Hc H1 Ho U1) as (p & Ep & Pp & Bp).
  destruct (pack_correct E2 h2 l2 rows cols out zp2 Hr Hc H2 Ho U2) as (q & Eq & Pq & Bq).
  exists p. split; [exact Ep|]. rewrite Eq. f_equal. symmetry.
  apply (packed_bits_inj p q rows cols Hc Pp Pq). intros r c Hrr Hcc.
  assert (Hi : 0 <= r * cols + c < rows * cols) by nia.
  destruct (rd_some l1 (r * cols + c) ltac:(lia)) as [v1 E1']. destruct (rd_some l2 (r * cols + c) ltac:(lia)) as [v2 E2'].
  rewrite (Bp r c v1 Hrr Hcc E1'), (Bq r c v2 Hrr Hcc E2'). eapply H; eauto.
Qed.

Lemma quantize_sf_words rows cols (inp out : list Z) :
  0 <= rows -> 0 <= cols -> zlen inp = rows * cols -> zlen out = rows * words cols ->
  quantize_sf rows cols (map decode32 inp) out = quantize_float rows cols inp out.
Proof.
  intros Hr Hc Hi Ho.
  destruct (pack_ext sf_elem float_elem sf_irrefl float_irrefl (map decode32 inp) inp rows cols out 0 0) as (p & E1 & E2);
    auto; try (rewrite zlen_map; exact Hi).
  - intros i v1 v2 H1 H2.
    assert (H3 : rd (map decode32 inp) i = Some (decode32 v2)) by (rewrite rd_map; change (rd inp i = Some v2) in H2; rewrite H2; reflexivity).
    assert (H4 : v1 = decode32 v2) by (change (rd (map decode32 inp) i = Some v1) in H1; congruence). rewrite H4. reflexivity.
  - unfold quantize_sf, quantize_float, bitpack_tensor. rewrite E1, E2. reflexivity.
Qed.

Lemma uint8_no_ub cols : packing_ub uint8_elem cols 1 = false.
Proof. apply int_no_ub; lia. Qed.

Lemma below_sf v : below sf_elem v 0 = fneg v. Proof. reflexivity. Qed.
Lemma below_bool b : below uint8_elem (Z.b2z b) 1 = negb b. Proof. destruct b; reflexivity. Qed.

Definition good (l : list spec_float) : Prop := forall i v, rd l i = Some v -> valid32 v /\ is_nan v = false.

Lemma ge_bit x t : valid32 x -> valid32 t -> is_nan x = false -> is_nan t = false ->
  negb (SFleb t x) = fneg (sf_sub x t).
Proof.
  intros. unfold sf_sub. rewrite SFsub_neg, SFleb_fv by assumption. rewrite Z.ltb_antisym. reflexivity.
Qed.

Section Tensors.
  Variables (rows cols : Z) (X T : list spec_float) (out : list Z).
  Hypotheses (Hr : 0 <= rows) (Hc : 0 <= cols).
  Hypotheses (HX : zlen X = rows * cols) (HT : zlen T = rows * cols) (HO : zlen out = rows * words cols).

  Lemma ge_rewrite : good X -> good T ->
    quantize_bool rows cols (map2 sf_ge X T) out = quantize_sf rows cols (map2 sf_sub X T) out /\
    quantize_sf rows cols (map2 sf_sub X T) out <> None.
  Proof.
    intros GX GT.
    destruct (pack_ext uint8_elem sf_elem (int_irrefl _ _) sf_irrefl (map2 sf_ge X T) (map2 sf_sub X T) rows cols out 1 0)
      as (p & E1 & E2); auto; try (rewrite zlen_map2; congruence); try apply uint8_no_ub.
    - intros i v1 v2 H1 H2. assert (Hi := rd_bounds _ _ _ H1). rewrite zlen_map2 in Hi by congruence.
      destruct (rd_some X i Hi) as [x Ex]. destruct (rd_some T i ltac:(lia)) as [t Et].
      assert (F1 := rd_map2 sf_ge _ _ _ _ _ Ex Et). assert (F2 := rd_map2 sf_sub _ _ _ _ _ Ex Et).
      assert (v1 = sf_ge x t) by (change (rd (map2 sf_ge X T) i = Some v1) in H1; congruence).
      assert (v2 = sf_sub x t) by (change (rd (map2 sf_sub X T) i = Some v2) in H2; congruence). subst v1 v2.
      rewrite below_sf. unfold sf_ge. rewrite below_bool.
      destruct (GX i x Ex), (GT i t Et). apply ge_bit; assumption.
    - unfold quantize_bool, quantize_sf, bitpack_tensor. rewrite E1, E2. split; congruence.
  Qed.

  Lemma ge_zero_rewrite (zs : bool) : good X ->
    quantize_bool rows cols (map (fun x => sf_ge x (S754_zero zs)) X) out = quantize_sf rows cols X out /\
    quantize_sf rows cols X out <> None.
  Proof.
    intros GX.
    destruct (pack_ext uint8_elem sf_elem (int_irrefl _ _) sf_irrefl (map (fun x => sf_ge x (S754_zero zs)) X) X rows cols out 1 0)
      as (p & E1 & E2); auto; try (rewrite zlen_map; congruence); try apply uint8_no_ub.
    - intros i v1 v2 H1 H2. change (rd X i = Some v2) in H2.
      assert (F1 : rd (map (fun x => sf_ge x (S754_zero zs)) X) i = Some (sf_ge v2 (S754_zero zs))) by (rewrite rd_map, H2; reflexivity).
      assert (v1 = sf_ge v2 (S754_zero zs))
        by (change (rd (map (fun x => sf_ge x (S754_zero zs)) X) i = Some v1) in H1; congruence). subst v1.
      rewrite below_sf. unfold sf_ge. rewrite below_bool. destruct (GX i v2 H2) as [V N].
      unfold fneg. rewrite SFleb_fv, SFltb_fv; auto; try exact I. cbn [fv]. rewrite Z.ltb_antisym. reflexivity.
    - unfold quantize_bool, quantize_sf, bitpack_tensor. rewrite E1, E2. split; congruence.
  Qed.
End Tensors.

Lemma le_rewrite L R : map2 sf_le L R = map2 (fun r l => sf_ge r l) R L.
Proof.
  unfold map2. revert R. induction L as [|l L IH]; intros [|r R]; cbn; try reflexivity.
  f_equal. apply IH.
Qed.

(** ** Sign patterns *)
Definition binarise (x : spec_float) : spec_float := if fneg x then sf_minus_one else sf_one.

Lemma dequant_quant rows cols X out dst :
  0 <= rows -> 0 <= cols -> zlen X = rows * cols -> zlen out = rows * words cols -> zlen dst = rows * cols ->
  exists p, quantize_sf rows cols X out = Some p /\ dequantize_sf rows cols p dst = Some (map binarise X).
Proof.
  intros Hr Hc HX Ho Hd.
  destruct (unpack_pack sf_elem sf_irrefl X rows cols out dst 0 sf_one sf_minus_one Hr Hc HX Ho Hd eq_refl)
    as (p & res & H1 & H2 & H3 & H4).
  exists p. split; [exact H1|]. unfold dequantize_sf. rewrite H2. f_equal.
  apply rd_ext; [rewrite zlen_map; congruence|]. intros i Hi.
  destruct (rd_some X i ltac:(lia)) as [v Hv]. rewrite (H4 i v Hv), rd_map, Hv. reflexivity.
Qed.

Lemma dequant_quant_bool rows cols (B : list bool) out dst :
  0 <= rows -> 0 <= cols -> zlen B = rows * cols -> zlen out = rows * words cols -> zlen dst = rows * cols ->
  exists p, quantize_bool rows cols (map Z.b2z B) out = Some p /\
    dequantize_sf rows cols p dst = Some (map (fun b : bool => if b then sf_one else sf_minus_one) B).
Proof.
  intros Hr Hc HX Ho Hd.
  destruct (unpack_pack uint8_elem (int_irrefl _ _) (map Z.b2z B) rows cols out dst 1 sf_one sf_minus_one Hr Hc
    ltac:(rewrite zlen_map; exact HX) Ho Hd (uint8_no_ub cols)) as (p & res & H1 & H2 & H3 & H4).
  exists p. split; [exact H1|]. unfold dequantize_sf. rewrite H2. f_equal.
  apply rd_ext; [rewrite zlen_map; congruence|]. intros i Hi.
  destruct (rd_some B i ltac:(lia)) as [v Hv].
  assert (Hv2 : rd (map Z.b2z B) i = Some (Z.b2z v)) by (rewrite rd_map, Hv; reflexivity).
  rewrite (H4 i _ Hv2), rd_map, Hv. cbn [option_map]. rewrite below_bool. destruct v; reflexivity.
Qed.

(** Sign(Sign(x) + c) *)
Definition sign_sign (c x : spec_float) : spec_float := sf_sign (sf_add (sf_sign x) c).

Lemma sf_sign_cases x : valid32 x -> is_nan x = false ->
  sf_sign x = if fv x <? 0 then sf_minus_one else if 0 <? fv x then sf_one else S754_zero false.
Proof.
  intros V N. unfold sf_sign. rewrite !SFltb_fv by (auto; exact I). cbn [fv]. rewrite N.
  destruct (Z.ltb_spec 0 (fv x)), (Z.ltb_spec (fv x) 0); try reflexivity; lia.
Qed.

Lemma fv_one : fv sf_one = 2 ^ 149 /\ fv sf_minus_one = - 2 ^ 149.
Proof. split; vm_compute; reflexivity. Qed.
Lemma valid_one : valid32 sf_one /\ valid32 sf_minus_one.
Proof. split; cbn; lia. Qed.

Lemma sign_of_add x c : valid32 x -> valid32 c -> is_fin x = true -> is_fin c = true ->
  sf_sign (sf_add x c) = if fv x + fv c <? 0 then sf_minus_one else if 0 <? fv x + fv c then sf_one else S754_zero false.
Proof.
  intros V1 V2 F1 F2. destruct (SFadd_sign x c V1 V2 F1 F2) as (S1 & S2 & S3).
  unfold sf_sign, sf_add. unfold fneg in S1. rewrite S1, S2, S3.
  destruct (Z.ltb_spec (fv x + fv c) 0), (Z.ltb_spec 0 (fv x + fv c)); try reflexivity; lia.
Qed.

(** 0 < c < 1 is exactly when the rewrite is right on every non-NaN input. *)
Lemma sign_sign_iff c : valid32 c -> is_fin c = true ->
  ((forall x, valid32 x -> is_nan x = false -> sign_sign c x = binarise x) <->
   SFltb (S754_zero false) c = true /\ SFltb c sf_one = true).
Proof.
  intros Vc Fc. assert (Nc : is_nan c = false) by (destruct c; try discriminate; reflexivity).
  destruct fv_one as [E1 E2], valid_one as [V1 V2].
  rewrite !SFltb_fv by (auto; exact I). rewrite E1, !Z.ltb_lt. cbn [fv].
  assert (HP : 0 < 2 ^ 149) by (apply pow_pos_pos; lia).
  set (P := 2 ^ 149) in *. clearbody P.
  assert (S1 := sign_of_add sf_one c V1 Vc eq_refl Fc). rewrite E1 in S1.
  assert (S2 := sign_of_add sf_minus_one c V2 Vc eq_refl Fc). rewrite E2 in S2.
  assert (S0 := sign_of_add (S754_zero false) c I Vc eq_refl Fc). cbn [fv] in S0. rewrite Z.add_0_l in S0.
  assert (D : sf_one <> sf_minus_one /\ sf_one <> S754_zero false /\ sf_minus_one <> S754_zero false)
    by (unfold sf_one, sf_minus_one; repeat split; discriminate).
  destruct D as (D1 & D2 & D3).
  split.
  - intros H. split.
    + specialize (H (S754_zero false) I eq_refl). unfold sign_sign in H.
      change (sf_sign (S754_zero false)) with (S754_zero false) in H. rewrite S0 in H.
      change (binarise (S754_zero false)) with sf_one in H.
      destruct (Z.ltb_spec (fv c) 0); [congruence|]. destruct (Z.ltb_spec 0 (fv c)); [lia|congruence].
    + specialize (H sf_minus_one V2 eq_refl). unfold sign_sign in H.
      change (sf_sign sf_minus_one) with sf_minus_one in H. rewrite S2 in H.
      change (binarise sf_minus_one) with sf_minus_one in H.
      destruct (Z.ltb_spec (- P + fv c) 0); [lia|]. destruct (Z.ltb_spec 0 (- P + fv c)); congruence.
  - intros [Hc0 Hc1] x Vx Nx. unfold sign_sign, binarise, fneg. rewrite (sf_sign_cases x Vx Nx).
    rewrite SFltb_fv by (auto; exact I). cbn [fv].
    destruct (Z.ltb_spec (fv x) 0).
    + rewrite S2. destruct (Z.ltb_spec (- P + fv c) 0); [reflexivity|lia].
    + destruct (Z.ltb_spec 0 (fv x)).
      * rewrite S1. destruct (Z.ltb_spec (P + fv c) 0); [lia|]. destruct (Z.ltb_spec 0 (P + fv c)); [reflexivity|lia].
      * rewrite S0. destruct (Z.ltb_spec (fv c) 0); [lia|]. destruct (Z.ltb_spec 0 (fv c)); [reflexivity|lia].
Qed.

Lemma dequant_quant_not rows cols (B : list bool) out dst :
  0 <= rows -> 0 <= cols -> zlen B = rows * cols -> zlen out = rows * words cols -> zlen dst = rows * cols ->
  exists p, quantize_bool rows cols (map Z.b2z (map negb B)) out = Some p /\
    dequantize_sf rows cols p dst = Some (map (fun b : bool => if b then sf_minus_one else sf_one) B).
Proof.
  intros Hr Hc HX Ho Hd.
  destruct (dequant_quant_bool rows cols (map negb B) out dst Hr Hc ltac:(rewrite zlen_map; exact HX) Ho Hd)
    as (p & H1 & H2).
  exists p. split; [exact H1|]. rewrite H2, map_map. f_equal. apply map_ext. intros []; reflexivity.
Qed.

Lemma sign_sign_any : exists c x,
  valid32 c /\ is_fin c = true /\ valid32 x /\ is_fin x = true /\
  sf_sign (sf_add (sf_sign x) c) = sf_one /\
  (exists p, quantize_sf 1 1 [x] [0] = Some p /\ dequantize_sf 1 1 p [sf_one] = Some [sf_minus_one]).
Proof.
  exists (S754_finite false 8388608 (-22)), sf_minus_one. unfold sf_minus_one.
  do 5 (split; [first [reflexivity | cbn; lia | vm_compute; reflexivity]|]).
  exists [1]. split; vm_compute; reflexivity.
Qed.
