(** * The int8 (de)quantisation rewrites (C44, C45) in IEEE arithmetic.

    TensorFlow Lite's own Dequantize and Quantize are outside /repo. Dequantize is
    modelled in the two forms TensorFlow Lite has: the product in double, cast to
    float (the reference kernel, whose scale parameter is a double), and the
    product in single precision (the vectorised kernel). Quantize divides in
    single precision, rounds half away from zero, adds the zero point, clamps. *)
From Coq Require Import ZArith Reals Psatz Lia SpecFloat QArith Qreals Qround.
From Flocq Require Import Core Relative Operations Digits Float_prop BinarySingleNaN.
From Verif Require Import Base Spec Float32 OutputTransform ThresholdFloat FlocqBridge ThresholdMargin FloatSetup FloatAccuracy Bitpack
  Bits Reference Quantize RefTheorems FloatOrder ConvSign ConvFold.
Open Scope R_scope.

#[local] Instance q24 : Prec_gt_0 24 := eq_refl.
#[local] Instance q53 : Prec_gt_0 53 := eq_refl.
#[local] Instance f128 : Prec_lt_emax 24 128 := eq_refl.
#[local] Instance f1024 : Prec_lt_emax 53 1024 := eq_refl.

(** The scale of a tensor is a float32, given by its word [s]. *)
Definition dequant_double (s zp q : Z) : spec_float :=
  sf_round32 (SFmul 53 1024 (widen (decode32 s)) (sf_ofZ 53 1024 (q - zp))).
Definition dequant_single (s zp q : Z) : spec_float :=
  SFmul 24 128 (decode32 s) (sf_ofZ 24 128 (q - zp)).
(** TFL Quantize of a float to int8. *)
Definition quant_single (s zp : Z) (v : spec_float) : Z :=
  Z.max (-128) (Z.min 127 (round_haz (SF2Q (SFdiv 24 128 v (decode32 s))) + zp)).
(** larq_compute_engine/tflite/kernels/quantization.cc 132: TfLiteRound(1.0f / scale). *)
Definition offset_single (s : Z) : Z := round_haz (SF2Q (SFdiv 24 128 sf_one (decode32 s))).

Section Sign.
  Variables (prec emax : Z).
  Context (Hp : Prec_gt_0 prec) (Hm : Prec_lt_emax prec emax).
  Hypothesis (H1 : (1 < prec)%Z).
  Notation tiny := (bpow radix2 (3 - emax - prec)).
  Notation rnd := (rnd prec emax).
  Lemma tiny_format : generic_format radix2 (SpecFloat.fexp prec emax) tiny.
  Proof.
    apply (generic_format_FLT radix2 (3 - emax - prec) prec). apply (FLT_spec radix2 _ _ _ (Float radix2 1 (3 - emax - prec))).
    - unfold F2R. cbn [Fnum Fexp]. now rewrite Rmult_1_l.
    - cbn [Fnum]. change (Z.abs 1) with 1%Z. apply (Zpower_gt_1 radix2 prec). lia.
    - simpl. lia.
  Qed.
  Lemma tiny_le a : generic_format radix2 (SpecFloat.fexp prec emax) a -> 0 < a -> tiny <= a.
  Proof.
    intros F Ha. apply (FLT_format_generic radix2 (3 - emax - prec) prec) in F. destruct F as [[m e] E Hn He]. simpl in *.
    unfold F2R in E. simpl in E. assert (0 < m)%Z.
    { apply lt_IZR. assert (B := bpow_gt_0 radix2 e). rewrite E in Ha. destruct (Rlt_le_dec 0 (IZR m)) as [|N]; [assumption|nra]. }
    rewrite E. apply Rle_trans with (bpow radix2 e); [apply bpow_le; exact He|].
    assert (1 <= IZR m) by (apply IZR_le; lia). assert (B := bpow_gt_0 radix2 e). nra.
  Qed.
  Lemma rnd_opp a : rnd (- a) = - rnd a.
  Proof. unfold FlocqBridge.rnd. apply round_NE_opp. Qed.
  Lemma rnd_keeps_t t a : generic_format radix2 (SpecFloat.fexp prec emax) t -> 0 < t -> t <= Rabs a ->
    (0 < a -> t <= rnd a) /\ (a < 0 -> rnd a <= - t).
  Proof.
    intros F P H. assert (T := rnd_id prec emax t F). split; intros S.
    - rewrite <- T. apply rnd_le; auto. rewrite Rabs_pos_eq in H by lra. exact H.
    - rewrite <- T, <- rnd_opp. apply rnd_le; auto. rewrite Rabs_left in H by lra. lra.
  Qed.
  Lemma rnd_keeps a : tiny <= Rabs a -> (0 < a -> tiny <= rnd a) /\ (a < 0 -> rnd a <= - tiny).
  Proof. apply rnd_keeps_t; [exact tiny_format|apply bpow_gt_0]. Qed.
  Lemma Bltb_zero (X : binary_float prec emax) : is_finite X = true -> SFltb (B2SF X) (S754_zero false) = Rlt_bool (B2R X) 0.
  Proof. intros F. exact (Bltb_correct prec emax X (B754_zero false) F eq_refl). Qed.

  (** A product with a positive number keeps the sign of the other factor, unless it underflows to zero. *)
  Lemma mul_sign x y a b : rep prec emax x a -> rep prec emax y b -> 0 < a -> tiny <= Rabs (a * b) ->
    SFltb (SFmul prec emax x y) (S754_zero false) = Rlt_bool b 0.
  Proof.
    intros (X & <- & Fx & <-) (Y & <- & Fy & <-) Ha Hab.
    assert (C := Bmult_correct prec emax Hp Hm mode_NE X Y). rewrite (mul_eq prec emax Hp Hm X Y).
    assert (Hb : B2R Y <> 0). { intros E. rewrite E, Rmult_0_r, Rabs_R0 in Hab. assert (P := bpow_gt_0 radix2 (3 - emax - prec)). lra. }
    change (round radix2 (SpecFloat.fexp prec emax) (round_mode mode_NE) (B2R X * B2R Y)) with (rnd (B2R X * B2R Y)) in C.
    destruct (rnd_keeps _ Hab) as [K1 K2]. assert (P := bpow_gt_0 radix2 (3 - emax - prec)).
    destruct (Rlt_bool_spec (Rabs (rnd (B2R X * B2R Y))) (bpow radix2 emax)) as [L|L].
    - destruct C as (C1 & C2 & _). rewrite Bltb_zero by now rewrite C2, Fx, Fy. rewrite C1.
      destruct (Rlt_le_dec (B2R Y) 0) as [N|N].
      + rewrite (Rlt_bool_true (B2R Y) 0) by exact N. apply Rlt_bool_true. assert (B2R X * B2R Y < 0) by nra. specialize (K2 H). lra.
      + rewrite (Rlt_bool_false (B2R Y) 0) by exact N. apply Rlt_bool_false. assert (0 < B2R X * B2R Y) by nra. specialize (K1 H). lra.
    - rewrite C. unfold binary_overflow. cbn [overflow_to_inf].
      assert (Sx : Bsign X = false).
      { destruct X as [s|s| |s m e B]; try discriminate Fx; [simpl in Ha; lra|]. destruct s; [|reflexivity]. exfalso.
        simpl in Ha. assert (F2R (Float radix2 (Z.neg m) e) < 0) by (apply F2R_lt_0; reflexivity). simpl in *. lra. }
      rewrite Sx, xorb_false_l.
      destruct Y as [s|s| |s m e B]; try discriminate Fy; [simpl in Hb; lra|]. simpl Bsign. simpl B2R in *.
      destruct s; symmetry; [apply Rlt_bool_true|apply Rlt_bool_false].
      + apply F2R_lt_0. reflexivity.
      + apply F2R_ge_0. discriminate.
  Qed.
  Lemma normalize_sign m e sz : tiny <= Rabs (F2R (Float radix2 m e)) ->
    SFltb (SpecFloat.binary_normalize prec emax m e sz) (S754_zero false) = Rlt_bool (F2R (Float radix2 m e)) 0.
  Proof.
    set (r := F2R (Float radix2 m e)). intros H. rewrite (binary_normalize_eq prec emax Hp Hm m e sz).
    assert (C := binary_normalize_correct prec emax Hp Hm mode_NE m e sz). cbv zeta in C. fold r in C.
    change (round radix2 (SpecFloat.fexp prec emax) (round_mode mode_NE) r) with (rnd r) in C.
    destruct (rnd_keeps _ H) as [K1 K2]. assert (P := bpow_gt_0 radix2 (3 - emax - prec)).
    assert (N0 : r <> 0). { intros E. rewrite E, Rabs_R0 in H. lra. }
    destruct (Rlt_bool_spec (Rabs (rnd r)) (bpow radix2 emax)) as [L|L].
    - destruct C as (C1 & C2 & _). rewrite Bltb_zero by exact C2. rewrite C1.
      destruct (Rlt_le_dec r 0) as [N|N].
      + rewrite (Rlt_bool_true r 0) by exact N. apply Rlt_bool_true. specialize (K2 N). lra.
      + rewrite (Rlt_bool_false r 0) by exact N. apply Rlt_bool_false. assert (0 < r) by lra. specialize (K1 H0). lra.
    - rewrite C. unfold binary_overflow. cbn [overflow_to_inf]. now destruct (Rlt_bool r 0).
  Qed.
End Sign.

Definition positive32 (s : Z) : Prop := word s /\ finite32 s = true /\ SFltb (S754_zero false) (decode32 s) = true.

Section Rewrites.
  Variable (s : Z).
  Hypothesis (Hs : positive32 s).
  Let S := SF2R radix2 (decode32 s).
  Lemma rep_s : rep24 (decode32 s) S.
  Proof. apply rep_decode. apply Hs. Qed.
  Lemma S_gt : 0 < S.
  Proof.
    destruct Hs as (_ & _ & L). rewrite (rep_ltb 24 128 _ _ _ _ (rep_zero 24 128 false) rep_s) in L.
    destruct (Rlt_bool_spec 0 S); [assumption|discriminate].
  Qed.
  Lemma S_tiny : bpow radix2 (-149) <= S.
  Proof. assert (F := rep_format 24 128 _ _ rep_s). apply tiny_le in F; [exact F|exact q24|exact S_gt]. Qed.
  Lemma S_max : S < bpow radix2 128.
  Proof.
    destruct rep_s as (X & _ & F & E). rewrite <- E. assert (B := abs_B2R_lt_emax 24 128 X). apply Rabs_lt_inv in B. lra.
  Qed.
  Lemma prod_tiny d : d <> 0%Z -> bpow radix2 (-149) <= Rabs (S * IZR d).
  Proof.
    intros Hd. rewrite Rabs_mult, (Rabs_pos_eq S) by (assert (P := S_gt); lra).
    assert (1 <= Rabs (IZR d)). { rewrite <- abs_IZR. apply IZR_le. lia. }
    assert (T := S_tiny). assert (P := bpow_gt_0 radix2 (-149)). nra.
  Qed.
  Lemma IZR_neg_bool d : Rlt_bool (IZR d) 0 = (d <? 0)%Z.
  Proof.
    destruct (Z.ltb_spec d 0).
    - apply Rlt_bool_true. apply IZR_lt. assumption.
    - apply Rlt_bool_false. apply IZR_le. assumption.
  Qed.
  Lemma single_sign zp q : (Z.abs (q - zp) < 2 ^ 24)%Z -> fneg (dequant_single s zp q) = (q <? zp)%Z.
  Proof.
    intros H. unfold fneg, dequant_single. replace (q <? zp)%Z with (q - zp <? 0)%Z by (destruct (Z.ltb_spec q zp), (Z.ltb_spec (q - zp) 0); lia).
    set (d := (q - zp)%Z) in *. destruct (Z.eq_dec d 0) as [E|N].
    - rewrite E. change (sf_ofZ 24 128 0) with (S754_zero false). destruct Hs as (_ & F & _). unfold finite32 in F.
      destruct (decode32 s); try discriminate; reflexivity.
    - rewrite (mul_sign 24 128 q24 f128 eq_refl _ _ S (IZR d) rep_s (rep_ofZ24 d H) S_gt (prod_tiny d N)). apply IZR_neg_bool.
  Qed.
  Lemma double_sign zp q : (Z.abs (q - zp) < 2 ^ 24)%Z -> fneg (dequant_double s zp q) = (q <? zp)%Z.
  Proof.
    intros H. unfold fneg, dequant_double. replace (q <? zp)%Z with (q - zp <? 0)%Z by (destruct (Z.ltb_spec q zp), (Z.ltb_spec (q - zp) 0); lia).
    set (d := (q - zp)%Z) in *. assert (RW := widen_rep _ _ rep_s). destruct (Z.eq_dec d 0) as [E|N].
    - rewrite E. change (sf_ofZ 53 1024 0) with (S754_zero false). destruct RW as (X & <- & F & _).
      destruct X; try discriminate; reflexivity.
    - assert (B : Rabs (rd53 (S * IZR d)) < bpow radix2 1024).
      { apply (rd_fits _ 152); [|lia]. rewrite Rabs_mult, (Rabs_pos_eq S) by (assert (P := S_gt); lra).
        assert (D := Z_abs_lt_IZR d 24 ltac:(lia) H). assert (M := S_max). assert (P := S_gt).
        replace 152%Z with (128 + 24)%Z by reflexivity. rewrite bpow_plus.
        apply Rmult_le_compat; try lra. apply Rabs_pos. }
      assert (RP := rep_mul 53 1024 q53 f1024 _ _ _ _ RW (rep_ofZ53 d H) B).
      assert (K : (0 < S * IZR d -> bpow radix2 (-149) <= rd53 (S * IZR d)) /\ (S * IZR d < 0 -> rd53 (S * IZR d) <= - bpow radix2 (-149))).
      { assert (F0 : generic_format radix2 (SpecFloat.fexp 24 128) (bpow radix2 (-149))) by (apply (tiny_format 24 128); reflexivity).
        apply format_24_53 in F0. apply (rnd_keeps_t 53 1024); first [exact q53|exact F0|apply bpow_gt_0|exact (prod_tiny d N)|idtac]. }
      assert (P := S_gt). assert (T := bpow_gt_0 radix2 (-149)).
      destruct RP as (X & <- & F & E).
      assert (Hd : (0 < d)%Z /\ 0 < S * IZR d \/ (d < 0)%Z /\ S * IZR d < 0).
      { destruct (Z_lt_le_dec 0 d) as [L|L]; [left|right]; (split; [lia|]).
        - apply IZR_lt in L. nra.
        - assert (L2 : (d < 0)%Z) by lia. apply IZR_lt in L2. nra. }
      assert (A : bpow radix2 (-149) <= Rabs (B2R X)).
      { rewrite E. destruct K as [K1 K2]. destruct Hd as [[_ L]|[_ L]].
        - rewrite Rabs_pos_eq by (specialize (K1 L); lra). exact (K1 L).
        - rewrite Rabs_left by (specialize (K2 L); lra). specialize (K2 L). lra. }
      destruct X as [z|z| |z m e Be]; try discriminate F; [simpl in A; rewrite Rabs_R0 in A; lra|].
      cbn [B2SF sf_round32].
      assert (En : SpecFloat.binary_round 24 128 z m e = SpecFloat.binary_normalize 24 128 (cond_Zopp z (Zpos m)) e z) by (destruct z; reflexivity).
      rewrite En. rewrite (normalize_sign 24 128 q24 f128 eq_refl) by exact A.
      change (F2R (Float radix2 (cond_Zopp z (Zpos m)) e)) with (B2R (B754_finite z m e Be : binary_float 53 1024)). rewrite E.
      destruct K as [K1 K2]. destruct Hd as [[D L]|[D L]].
      + rewrite Rlt_bool_false by (specialize (K1 L); lra). symmetry. apply Z.ltb_ge. lia.
      + rewrite Rlt_bool_true by (specialize (K2 L); lra). symmetry. apply Z.ltb_lt. lia.
  Qed.
End Rewrites.

Open Scope Z_scope.
Lemma pack_dequantised s zp rows cols (q : list Z) out (f : Z -> spec_float) :
  positive32 s -> -128 <= zp <= 127 -> 0 <= rows -> 0 <= cols ->
  (forall i v, rd q i = Some v -> -128 <= v <= 127) -> zlen q = rows * cols -> zlen out = rows * words cols ->
  (forall v, -128 <= v <= 127 -> fneg (f v) = (v <? zp)) ->
  quantize_sf rows cols (map f q) out = quantize_int8 zp rows cols q out /\ quantize_int8 zp rows cols q out <> None.
Proof.
  intros Hs Hz Hr Hc Hv Hq Ho Hf.
  destruct (pack_ext2 int8_elem sf_elem (int_irrefl _ _) sf_irrefl q f rows cols out zp 0) as (p & E1 & E2); auto.
  - apply int_no_ub; lia.
  - intros i v Hi. rewrite below_sf. rewrite Hf by (eapply Hv; exact Hi). apply below_int. eapply Hv; exact Hi.
  - assert (F1 : quantize_sf rows cols (map f q) out = Some p) by exact E2.
    assert (F2 : quantize_int8 zp rows cols q out = Some p) by exact E1.
    rewrite F1, F2. split; [reflexivity|discriminate].
Qed.

(** ** C44 *)
Lemma round_aux_opp sg m e l : SpecFloat.binary_round_aux 24 128 (negb sg) m e l = SFopp (SpecFloat.binary_round_aux 24 128 sg m e l).
Proof.
  unfold SpecFloat.binary_round_aux. destruct (SpecFloat.shr_fexp 24 128 m e l) as [r e1].
  destruct (SpecFloat.shr_fexp 24 128 _ e1 loc_Exact) as [r2 e2]. destruct (shr_m r2); try reflexivity.
  now destruct (e2 <=? 128 - 24).
Qed.
Lemma div_minus_one x : SFdiv 24 128 sf_minus_one x = SFopp (SFdiv 24 128 sf_one x).
Proof.
  destruct x as [z|z| |z m e]; [now destruct z|now destruct z|reflexivity|]. unfold sf_minus_one, sf_one, SFdiv.
  match goal with |- context [SpecFloat.SFdiv_core_binary ?a ?b ?c ?d ?e1 ?f] => destruct (SpecFloat.SFdiv_core_binary a b c d e1 f) as [[mz ez] lz] end.
  rewrite <- round_aux_opp. now destruct z.
Qed.
Lemma SF2Q_opp x : (SF2Q (SFopp x) == - SF2Q x)%Q.
Proof.
  destruct x as [z|z| |z m e]; try reflexivity. unfold SF2Q, SFopp.
  set (k := if 0 <=? e then _ else _). destruct z; cbn [negb].
  - change (Z.neg m # 1)%Q with (- (Z.pos m # 1))%Q. ring.
  - change (Z.neg m # 1)%Q with (- (Z.pos m # 1))%Q. ring.
Qed.
Lemma round_aux_nonneg m e l : (0 <= SF2Q (SpecFloat.binary_round_aux 24 128 false m e l))%Q.
Proof.
  unfold SpecFloat.binary_round_aux. destruct (SpecFloat.shr_fexp 24 128 m e l) as [r e1].
  destruct (SpecFloat.shr_fexp 24 128 _ e1 loc_Exact) as [r2 e2]. destruct (shr_m r2); try (cbn; discriminate).
  destruct (e2 <=? 128 - 24); [|cbn; discriminate]. unfold SF2Q.
  apply Qmult_le_0_compat; [discriminate|]. destruct (0 <=? e2); [|discriminate].
  change 0%Q with (inject_Z 0). rewrite <- Zle_Qle. apply Z.pow_nonneg. lia.
Qed.
Lemma offset_single_nonneg s : positive32 s -> 0 <= offset_single s.
Proof.
  intros (_ & _ & L). unfold offset_single.
  assert (H : (0 <= SF2Q (SFdiv 24 128 sf_one (decode32 s)))%Q).
  { destruct (decode32 s) as [z|z| |z m e]; try (cbn; discriminate). destruct z; [discriminate L|].
    unfold sf_one, SFdiv.
    match goal with |- context [SpecFloat.SFdiv_core_binary ?a ?b ?c ?d ?e1 ?f] => destruct (SpecFloat.SFdiv_core_binary a b c d e1 f) as [[mz ez] lz] end.
    apply round_aux_nonneg. }
  rewrite round_haz_nonneg by exact H.
  assert (F : (inject_Z 0 <= SF2Q (SFdiv 24 128 sf_one (decode32 s)) + (1 # 2))%Q) by (unfold inject_Z; lra).
  apply Qfloor_resp_le in F. rewrite Qfloor_Z in F. exact F.
Qed.
Lemma offset_single_minus s : round_haz (SF2Q (SFdiv 24 128 sf_minus_one (decode32 s))) = - offset_single s.
Proof.
  rewrite div_minus_one. unfold offset_single. rewrite <- round_haz_opp. apply round_haz_comp. apply SF2Q_opp.
Qed.
Lemma quantize_dequantised s zp rows cols p (d1 : list spec_float) (d2 : list Z) :
  positive32 s -> -128 <= zp <= 127 -> 0 <= rows -> 0 <= cols ->
  zlen p = rows * words cols -> zlen d1 = rows * cols -> zlen d2 = rows * cols ->
  exists u, dequantize_sf rows cols p d1 = Some u /\
    dequantize_int8 (offset_single s) zp rows cols p d2 = Some (map (quant_single s zp) u).
Proof.
  intros Hs Hz Hr Hc Hp H1 H2.
  destruct (unpack_buf (quant_single s zp) p rows cols d1 d2 sf_one sf_minus_one Hr Hc Hp H1 H2) as (u & E1 & E2).
  exists u. split; [exact E1|]. unfold dequantize_int8. rewrite <- E2.
  unfold quant_single. rewrite offset_single_minus. fold (offset_single s).
  assert (HO := offset_single_nonneg s Hs). rewrite !to_int8_id by lia. f_equal; lia.
Qed.
