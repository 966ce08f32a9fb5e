(** * Fused multiply-add: the convolution's float arithmetic under compiler contraction.

    C++ lets a compiler contract [a * b + c] into one fused operation with a single
    rounding ([-ffp-contract=on], the default of clang since 14, [fast] of gcc; on
    AArch64 every target has the instruction). Two expressions of the float path have
    that shape: the bias of bconv2d.cc 375-377 in double, and the output transform of
    output_transform.h 110-111 (and 145-146) in float. The compiler may contract either,
    at some places and not at others (a vectorised body and its scalar tail). *)
From Coq Require Import ZArith Reals Psatz Lia SpecFloat QArith Qround Qreals Qabs.
From Flocq Require Import Core Operations BinarySingleNaN.
From Verif Require Import Base Spec Bits Bitpack Float32 Reference OutputTransform Quantize RefTheorems Threshold ThresholdFloat FlocqBridge ThresholdMargin ThresholdConv FloatSetup FloatAccuracy FloatConv.
#[local] Existing Instance p24.
#[local] Existing Instance p53.
#[local] Existing Instance e128.
#[local] Existing Instance e1024.

(** ** Model *)
Open Scope Z_scope.
(** The signed integer significand of a finite datum, scaled to exponent [e'] <= [e]. *)
Definition aligned (s : bool) (m : positive) (e e' : Z) : Z := (if s then Z.neg m else Z.pos m) * 2 ^ (e - e').
(** IEEE 754-2008 5.4.1 fusedMultiplyAdd: x*y + z with one rounding. If z is zero and
    the product is not, that is the rounded product; if z is infinite and the factors
    are finite, z; if a factor is zero, infinite or NaN the product is exact, and the
    result is that of the two operations. *)
Definition sf_fma (prec emax : Z) (x y z : spec_float) : spec_float :=
  match x, y, z with
  | S754_finite sx mx ex, S754_finite sy my ey, S754_finite sz mz ez =>
      let e := Z.min (ex + ey) ez in
      SpecFloat.binary_normalize prec emax (aligned (xorb sx sy) (mx * my) (ex + ey) e + aligned sz mz ez e) e false
  | S754_finite _ _ _, S754_finite _ _ _, S754_infinity _ => z
  | S754_finite _ _ _, S754_finite _ _ _, S754_zero _ => SFmul prec emax x y
  | _, _, _ => SFadd prec emax (SFmul prec emax x y) z
  end.
(** bconv2d.cc 373-377 with the sum contracted if [cs]. *)
Definition setup_channel_c (cs : bool) (bt : Z) (scale zp post_mul post_bias : spec_float) : spec_float * spec_float :=
  (sf_round32 (SFdiv 53 1024 (SFmul 53 1024 (sf_ofZ 53 1024 (-1)) post_mul) scale),
   sf_round32 (SFadd 53 1024
     (SFdiv 53 1024 (if cs then sf_fma 53 1024 (sf_ofZ 53 1024 bt) post_mul post_bias
                     else SFadd 53 1024 post_bias (SFmul 53 1024 (sf_ofZ 53 1024 bt) post_mul)) scale) zp)).
(** bconv2d.cc 355-389; [cs c]: is the sum of channel c contracted. *)
Definition one_time_setup32_c (cs : Z -> bool) (p : bconv) (a : activation) (post_mul post_bias : list Z) (scale zp : spec_float) : option (otp spec_float) :=
  let bt := backtransform_add p in
  let n := out_c p + Z.quot 16 4 in
  let z := repeat (S754_zero false) (Z.to_nat n) in
  let* (mult, bias) := for_ 0 (out_c p) (fun i '(mult, bias) =>
    let* pmul := rd post_mul i in
    let* pb := rd post_bias i in
    let '(m', b') := setup_channel_c (cs i) bt scale zp (widen (decode32 pmul)) (widen (decode32 pb)) in
    let* mult := wr mult i m' in
    let* bias := wr bias i b' in
    Some (mult, bias)) (z, z) in
  let (nmin, nmax) := activation_range a in
  let nmin := Z.max nmin (-1 * bt) in
  let nmax := Z.min nmax bt in
  Some {| ot_min := -1 * nmax + bt; ot_max := -1 * nmin + bt; ot_mult := mult; ot_bias := bias |}.
(** output_transform.h 103-112; [k]: is the multiplication-addition contracted. *)
Definition run_float_c (k : bool) (t : otp spec_float) (accum c : Z) : option spec_float :=
  let x := Z.shiftl accum 1 in
  let x := Z.max (Z.min x (ot_max t)) (ot_min t) in
  let* m := rd (ot_mult t) c in
  let* b := rd (ot_bias t) c in
  Some (if k then sf_fma 24 128 (sf_ofZ 24 128 x) m b else SFadd 24 128 (SFmul 24 128 (sf_ofZ 24 128 x) m) b).
(** output_transform.h 130-148. *)
Definition run_int8_c (k : bool) (t : otp spec_float) (accum c : Z) : option Z :=
  let* y := run_float_c k t accum c in
  Some (saturate (round_haz (SF2Q y))).
(** The reference kernel on float and on int8 outputs, the choice in the output transform
    made per accumulator value and channel. *)
Definition eval_ref_float32_c (cs : Z -> bool) (k : Z -> Z -> bool) (p : bconv) (a : activation) (input filter mw bw : list Z) (out : list spec_float) : option (list spec_float) :=
  let* t := one_time_setup32_c cs p a mw bw (sf_ofZ 53 1024 1) (sf_ofZ 53 1024 0) in
  BConv2DReference_val p input filter (fun acc c => run_float_c (k acc c) t acc c) out.
Definition eval_ref_int8_32_c (cs : Z -> bool) (k : Z -> Z -> bool) (p : bconv) (a : activation) (input filter mw bw : list Z) (scale_w zp : Z) (out : list Z) : option (list Z) :=
  let* t := one_time_setup32_c cs p a mw bw (widen (decode32 scale_w)) (sf_ofZ 53 1024 zp) in
  BConv2DReference_val p input filter (fun acc c => run_int8_c (k acc c) t acc c) out.

(** ** [sf_fma] rounds once *)
Section Fma.
  Variables (prec emax : Z).
  Context (Hp : Prec_gt_0 prec) (Hm : Prec_lt_emax prec emax).
  Open Scope R_scope.
  Lemma aligned_R s m e e' : (e' <= e)%Z -> F2R (Float radix2 (aligned s m e e') e') = F2R (Float radix2 (cond_Zopp s (Zpos m)) e).
  Proof.
    intros H. unfold aligned, F2R. cbn [Fnum Fexp]. rewrite mult_IZR.
    replace (IZR (2 ^ (e - e'))) with (bpow radix2 (e - e')) by (symmetry; apply (IZR_Zpower radix2); lia).
    rewrite Rmult_assoc, <- bpow_plus. replace (e - e' + e')%Z with e by lia. now destruct s.
  Qed.
  Lemma rep_fma x y z a b c : rep prec emax x a -> rep prec emax y b -> rep prec emax z c ->
    Rabs (rnd prec emax (a * b + c)) < bpow radix2 emax -> rep prec emax (sf_fma prec emax x y z) (rnd prec emax (a * b + c)).
  Proof.
    intros Rx Ry Rz H.
    assert (two : Rabs (rnd prec emax (a * b)) < bpow radix2 emax -> rnd prec emax (rnd prec emax (a * b) + c) = rnd prec emax (a * b + c) ->
      rep prec emax (SFadd prec emax (SFmul prec emax x y) z) (rnd prec emax (a * b + c))).
    { intros H1 H2. rewrite <- H2. apply (rep_add prec emax Hp Hm); [apply (rep_mul prec emax Hp Hm); assumption|exact Rz|]. now rewrite H2. }
    assert (E0 : a * b = 0 -> rep prec emax (SFadd prec emax (SFmul prec emax x y) z) (rnd prec emax (a * b + c))).
    { intros E. apply two; rewrite E, (rnd_0 prec emax); [rewrite Rabs_R0; apply bpow_gt_0|reflexivity]. }
    assert (Ez : c = 0 -> rep prec emax (SFmul prec emax x y) (rnd prec emax (a * b + c))).
    { intros E. rewrite E, Rplus_0_r in *. apply (rep_mul prec emax Hp Hm); assumption. }
    destruct Rx as (X & <- & Fx & <-). destruct Ry as (Y & <- & Fy & <-). destruct Rz as (Z' & <- & Fz & <-).
    destruct X as [sx|sx| |sx mx ex Bx]; try discriminate.
    { destruct Y as [sy|sy| |sy my ey By]; try discriminate; cbn [B2SF sf_fma] in *; apply E0; simpl; ring. }
    destruct Y as [sy|sy| |sy my ey By]; try discriminate.
    { cbn [B2SF sf_fma] in *; apply E0; simpl; ring. }
    destruct Z' as [sz|sz| |sz mz ez Bz]; try discriminate.
    { cbn [B2SF sf_fma] in *; apply Ez; reflexivity. }
    cbn [B2SF sf_fma B2R] in *. clear two E0 Ez. set (e := Z.min (ex + ey) ez).
    assert (E : F2R (Float radix2 (cond_Zopp sx (Zpos mx)) ex) * F2R (Float radix2 (cond_Zopp sy (Zpos my)) ey) +
      F2R (Float radix2 (cond_Zopp sz (Zpos mz)) ez) =
      F2R (Float radix2 (aligned (xorb sx sy) (mx * my) (ex + ey) e + aligned sz mz ez e) e)).
    { replace (F2R (Float radix2 (aligned (xorb sx sy) (mx * my) (ex + ey) e + aligned sz mz ez e) e)) with
        (F2R (Float radix2 (aligned (xorb sx sy) (mx * my) (ex + ey) e) e) + F2R (Float radix2 (aligned sz mz ez e) e))
        by (unfold F2R; cbn [Fnum Fexp]; rewrite plus_IZR; ring).
      rewrite !aligned_R by (unfold e; lia). f_equal. rewrite <- F2R_mult. f_equal. unfold Fmult. f_equal.
      destruct sx, sy; reflexivity. }
    rewrite E in *. apply (rep_normalize prec emax Hp Hm). exact H.
  Qed.
End Fma.

(** ** [sf_fma] is Flocq's fused operation *)
Section FmaEq.
  Variables (prec emax : Z).
  Context (Hp : Prec_gt_0 prec) (Hm : Prec_lt_emax prec emax).
  Lemma aligned_shift s m e e' : aligned s m e e' = cond_Zopp s (Zpos m) * Zpower radix2 (e - e').
  Proof. unfold aligned. change (Zpower radix2 (e - e')) with (2 ^ (e - e')). now destruct s. Qed.
  Lemma mul_xorb sx sy mx my : cond_Zopp sx (Zpos mx) * cond_Zopp sy (Zpos my) = cond_Zopp (xorb sx sy) (Zpos (mx * my)).
  Proof. now destruct sx, sy. Qed.
  Lemma fma_eq (x y z : binary_float prec emax) : sf_fma prec emax (B2SF x) (B2SF y) (B2SF z) = B2SF (Bfma mode_NE x y z).
  Proof.
    destruct x as [sx|sx| |sx mx ex Bx]; destruct y as [sy|sy| |sy my ey By];
      try (destruct z as [sz|sz| |sz mz ez Bz]; simpl; try reflexivity; unfold Bfma_szero; simpl; try reflexivity;
           try (destruct sx, sy, sz; reflexivity); fail).
    destruct z as [sz|sz| |sz mz ez Bz]; try reflexivity.
    - change (SFmul prec emax (B2SF (B754_finite sx mx ex Bx)) (B2SF (B754_finite sy my ey By)) =
        B2SF (Bfma mode_NE (B754_finite sx mx ex Bx) (B754_finite sy my ey By) (B754_zero sz))).
      rewrite (mul_eq prec emax Hp Hm). set (x := B754_finite sx mx ex Bx). set (y := B754_finite sy my ey By).
      assert (C1 := Bmult_correct prec emax Hp Hm mode_NE x y).
      assert (C2 := Bfma_correct prec emax Hp Hm mode_NE x y (B754_zero sz) eq_refl eq_refl eq_refl). cbv zeta in C2.
      change (B2R (B754_zero sz)) with 0%R in C2. rewrite Rplus_0_r in C2.
      assert (Es : xorb sx sy = Rlt_bool (B2R x * B2R y) 0 /\ (B2R x * B2R y <> 0)%R).
      { unfold x, y. cbn [B2R]. rewrite <- F2R_mult. unfold Fmult. rewrite mul_xorb. split.
        - destruct (xorb sx sy); symmetry; [apply Rlt_bool_true, Float_prop.F2R_lt_0; reflexivity|apply Rlt_bool_false, Float_prop.F2R_ge_0; simpl; lia].
        - intros E. apply Float_prop.eq_0_F2R in E. now destruct (xorb sx sy). }
      destruct Es as [Es En]. destruct (Rlt_bool _ _).
      + destruct C1 as (A1 & A2 & A3), C2 as (A4 & A5 & A6). f_equal. apply B2R_Bsign_inj.
        * rewrite A2. reflexivity.
        * exact A5.
        * now rewrite A1, A4.
        * rewrite A3, A6; [|destruct (Bmult mode_NE x y); easy]. simpl Bsign. rewrite Es.
          destruct (Rcompare_spec (B2R x * B2R y) 0) as [L|L|L]; [now apply Rlt_bool_true|now elim En|apply Rlt_bool_false; lra].
      + rewrite C1, C2. simpl Bsign. now rewrite Es.
    - cbn [B2SF sf_fma Bfma]. now destruct (SFmul _ _ _ _).
    - cbn [B2SF sf_fma Bfma]. cbv beta iota zeta delta [Fmult Fplus Falign]. rewrite mul_xorb.
      assert (K : forall m e s, SpecFloat.binary_normalize prec emax m e false = B2SF (binary_normalize prec emax Hp Hm mode_NE m e s) \/ m = 0).
      { intros m e s. destruct (Z.eq_dec m 0) as [->|Hn]; [right; reflexivity|left]. rewrite <- (binary_normalize_eq prec emax Hp Hm). destruct m; easy. }
      set (sz' := Bfma_szero _ _ _ _ _ _).
      assert (Sz : xorb sx sy <> sz -> sz' = false) by (intros N; unfold sz', Bfma_szero; cbn [Bsign]; destruct (Bool.eqb_spec (xorb sx sy) sz); [contradiction|reflexivity]).
      assert (E : forall m e, (m = 0 -> xorb sx sy <> sz) -> SpecFloat.binary_normalize prec emax m e false = B2SF (binary_normalize prec emax Hp Hm mode_NE m e sz')).
      { intros m e N. destruct (K m e sz') as [H|H]; [exact H|]. rewrite (Sz (N H)). apply binary_normalize_eq. }
      clear K Sz. clearbody sz'.
      destruct (Zle_bool_spec (ex + ey) ez) as [L|L].
      + rewrite Z.min_l by lia. rewrite !aligned_shift. rewrite Z.sub_diag. change (Zpower radix2 0) with 1. rewrite Z.mul_1_r.
        apply E. clear E. intros E Ex. assert (0 < Zpower radix2 (ez - (ex + ey))) by (change (0 < 2 ^ (ez - (ex + ey))); lia).
        rewrite Ex in E. set (q := Zpower radix2 _) in *. clearbody q. assert (0 < Zpos (mx * my)) by lia. assert (0 < Zpos mz) by lia.
        set (u1 := Zpos (mx * my)) in *. set (u2 := Zpos mz) in *. clearbody u1 u2. destruct sz; cbn [cond_Zopp] in E; nia.
      + rewrite Z.min_r by lia. rewrite !aligned_shift. rewrite Z.sub_diag. change (Zpower radix2 0) with 1. rewrite Z.mul_1_r.
        apply E. clear E. intros E Ex. assert (0 < Zpower radix2 (ex + ey - ez)) by (change (0 < 2 ^ (ex + ey - ez)); lia).
        rewrite Ex in E. set (q := Zpower radix2 _) in *. clearbody q. assert (0 < Zpos (mx * my)) by lia. assert (0 < Zpos mz) by lia.
        set (u1 := Zpos (mx * my)) in *. set (u2 := Zpos mz) in *. clearbody u1 u2. destruct sz; cbn [cond_Zopp] in E; nia.
  Qed.
End FmaEq.

(** ** Real analysis: either choice *)
Open Scope R_scope.
Section AccF.
  Variables (cs k : bool) (T M B S Z X : R).
  Hypothesis HT : 0 <= T <= bpow radix2 22.
  Hypothesis HS : bpow radix2 (-126) <= S.
  Hypothesis HX : 0 <= X <= 2 * T.
  Definition c2c : R := if cs then rd53 (T * M + B) else c2 T M B.
  Definition c3c : R := rd53 (c2c / S).
  Definition c4c : R := rd53 (c3c + Z).
  Definition abc : R := rn c4c.
  Definition ayc : R := if k then rn (X * am' M S + abc) else rn (aw M S X + abc).
  Let m := M / S.
  Let A := Rabs M / S.
  Let TA := T * (Rabs M / S).
  Let w := (Rabs B + T * Rabs M) / S.
  Let W := w + Rabs Z.
  Let tau := bpow radix2 22 * eta.
  Ltac facts := destruct (acc_facts T M B S Z HT HS) as (F1 & [F2 F2'] & F3 & F4 & F5 & [F6 F6']); assert (P := S_pos S HS).
  Lemma c2c_near : Rabs (c2c / S - (B + T * M) / S) <= 0.0021 * (U * w) + 0.0021 * eta.
  Proof.
    unfold c2c. destruct cs; [|exact (c2_near T M B S Z HT HS)].
    facts. assert (HTM : Rabs (T * M) = T * Rabs M) by (rewrite Rabs_mult, (Rabs_pos_eq T) by lra; reflexivity).
    assert (H : Rabs (T * M + B - (B + T * M)) <= 0) by (replace (T * M + B - (B + T * M)) with 0 by ring; rewrite Rabs_R0; lra).
    assert (K : Rabs (B + T * M) <= Rabs B + T * Rabs M) by (rewrite <- HTM; apply Rabs_triang).
    assert (N2 := rd_near2 _ _ _ _ K H). assert (D := div_near _ _ S _ P N2). eapply Rle_trans; [exact D|].
    assert (Hw : (0 + U / 1000 * (Rabs B + T * Rabs M + 0) + e2) / S = U / 1000 * w + e2 / S) by (unfold w; field; lra).
    rewrite Hw. fold w in F2'. fold TA in F2, F2'. rewrite U_val in *. lra.
  Qed.
  Lemma c3c_near : Rabs (c3c - (B + T * M) / S) <= 0.004 * (U * w) + 0.004 * eta.
  Proof. facts. assert (N := rd_near _ _ _ _ (w_abs T M B S HT HS) c2c_near). fold c3c in N. fold w TA in F2, F2'. fold w in N. rewrite U_val in *. lra. Qed.
  Lemma c4c_near : Rabs (c4c - ((B + T * M) / S + Z)) <= 0.006 * (U * W) + 0.006 * eta.
  Proof.
    facts. assert (H := c3c_near). replace (c3c - (B + T * M) / S) with (c3c + Z - ((B + T * M) / S + Z)) in H by ring.
    assert (N := rd_near _ _ _ _ (W_abs T M B S Z HT HS) H). fold c4c in N. fold w in F2, F2', F3, N. fold W in F3, N. fold TA in F2, F2'. rewrite U_val in *. lra.
  Qed.
  Lemma abc_near : Rabs (abc - ((B + T * M) / S + Z)) <= 1.01 * (U * W) + 1.01 * eta.
  Proof. facts. assert (N := rn_near _ _ _ _ (W_abs T M B S Z HT HS) c4c_near). fold abc in N. fold w in F2, F2', F3, N. fold W in F3, N. fold TA in F2, F2'. rewrite U_val in *. lra. Qed.
  Definition presum : R := if k then X * am' M S + abc else aw M S X + abc.
  Lemma presum_near : Rabs (presum - yexact T M B S Z X) <= 5.2 * (U * W) + 2.2 * tau.
  Proof.
    facts. assert (N2 := abc_near). fold w in F2, F2', F3. fold W in F3. fold TA in F2, F2'. fold tau in F5. unfold presum. destruct k.
    - replace (X * am' M S + abc - yexact T M B S Z X) with ((X * am' M S - - (X * (M / S))) + (abc - ((B + T * M) / S + Z))) by (unfold yexact; field; lra).
      eapply Rle_trans; [apply Rabs_triang|]. assert (N1 := aXm_near T M B S Z X HT HS HX). fold TA tau in N1. rewrite U_val in *. lra.
    - replace (aw M S X + abc - yexact T M B S Z X) with ((aw M S X - - (X * (M / S))) + (abc - ((B + T * M) / S + Z))) by (unfold yexact; field; lra).
      eapply Rle_trans; [apply Rabs_triang|]. assert (N1 := aw_near T M B S Z X HT HS HX). fold TA tau in N1. rewrite U_val in *. lra.
  Qed.
  Lemma ayc_presum : ayc = rn presum.
  Proof. unfold ayc, presum. now destruct k. Qed.
  Lemma ayc_near : Rabs (ayc - yexact T M B S Z X) <= 8 * (U * W) + 8 * tau.
  Proof.
    facts. assert (N := rn_near _ _ _ _ (y_abs T M B S Z X HS HX) presum_near). rewrite <- ayc_presum in N.
    fold w in F2, F2', F3, N. fold W in F3, N. fold TA in F2, F2'. fold tau in F5. rewrite U_val in *. lra.
  Qed.
End AccF.

Section DataF.
  Variables (cs k : bool) (bt X zp : Z) (mw bw : Z) (scale : spec_float) (S : R).
  Notation M := (Q2R (exact32 mw)).
  Notation B := (Q2R (exact32 bw)).
  Hypothesis Hbt : (0 <= bt <= 2 ^ 22)%Z.
  Hypothesis HX : (0 <= X <= 2 * bt)%Z.
  Hypothesis Hzp : (Z.abs zp <= 2 ^ 20)%Z.
  Hypothesis Fm : finite32 mw = true.
  Hypothesis Fb : finite32 bw = true.
  Hypothesis Rs : rep53 scale S.
  Hypothesis HS : bpow radix2 (-126) <= S.
  Hypothesis HS2 : S <= bpow radix2 128.
  Hypothesis HM : Rabs M <= bpow radix2 100 * S.
  Hypothesis HB : Rabs B <= bpow radix2 100 * S.
  Notation T := (IZR bt).
  Notation Zr := (IZR zp).
  Let HT := hT bt zp Hbt.
  Let HXr := hX bt X zp HX.
  Definition ch : spec_float * spec_float := setup_channel_c cs bt scale (sf_ofZ 53 1024 zp) (widen (decode32 mw)) (widen (decode32 bw)).
  Ltac big := destruct (consts zp) as (K1 & K2 & K3 & K4 & K5); assert (J1 := hTA bt zp mw S Hbt HS HM); assert (J2 := hA mw S HS HM); assert (J3 := hB bw S HS HB); assert (J4 := hZ zp Hzp);
    assert (J5 := acc_facts T M B S Zr HT HS); rewrite ?(w_split bt mw bw S HS) in *; rewrite U_val in *.
  Lemma R_mult_c : rep24 (fst ch) (am' M S).
  Proof. exact (R_mult bt zp mw bw scale S Hbt Hzp Fm Rs HS HS2 HM HB). Qed.
  Lemma R_sum_c : rep53 (if cs then sf_fma 53 1024 (sf_ofZ 53 1024 bt) (widen (decode32 mw)) (widen (decode32 bw))
      else SFadd 53 1024 (widen (decode32 bw)) (SFmul 53 1024 (sf_ofZ 53 1024 bt) (widen (decode32 mw)))) (c2c cs T M B).
  Proof.
    assert (G := TM_big bt zp mw S Hbt HS2 HM). assert (GB := B_big bw S HS2 HB).
    assert (Rm := R_m mw Fm). assert (Rb := R_b bw Fb).
    unfold c2c. destruct cs.
    - apply (rep_fma 53 1024 p53 e1024); [apply rep_ofZ53; lia|exact Rm|exact Rb|]. apply (rd_fits _ 251); [|lia]. eapply Rle_trans; [apply Rabs_triang|].
      assert (bpow radix2 228 <= bpow radix2 250) by (apply bpow_le; lia).
      replace (bpow radix2 251) with (2 * bpow radix2 250) by (change 251%Z with (1 + 250)%Z; rewrite bpow_plus; f_equal). lra.
    - assert (R1 : rep53 (SFmul 53 1024 (sf_ofZ 53 1024 bt) (widen (decode32 mw))) (c1 T M)).
      { apply (rep_mul 53 1024 p53 e1024); [apply rep_ofZ53; lia|exact Rm|]. apply (rd_fits _ 250); [exact G|lia]. }
      assert (C1 : Rabs (c1 T M) <= bpow radix2 251).
      { assert (E := d_err (T * M)). fold (c1 T M) in E. apply near_abs in E. assert (Hu := U_val). assert (He := eta_U).
        assert (1 <= bpow radix2 250) by (change 1 with (bpow radix2 0); apply bpow_le; lia).
        replace (bpow radix2 251) with (2 * bpow radix2 250) by (change 251%Z with (1 + 250)%Z; rewrite bpow_plus; f_equal). rewrite Hu in *. lra. }
      apply (rep_add 53 1024 p53 e1024); [exact Rb|exact R1|]. apply (rd_fits _ 252); [|lia]. eapply Rle_trans; [apply Rabs_triang|].
      assert (bpow radix2 228 <= bpow radix2 251) by (apply bpow_le; lia).
      replace (bpow radix2 252) with (2 * bpow radix2 251) by (change 252%Z with (1 + 251)%Z; rewrite bpow_plus; f_equal). lra.
  Qed.
  Lemma R_bias_c : rep24 (snd ch) (abc cs T M B S Zr).
  Proof.
    unfold ch, setup_channel_c. cbn [snd]. assert (P := S_pos S HS). assert (R2 := R_sum_c).
    assert (N2 := c2c_near cs T M B S Zr HT HS). assert (N3 := c3c_near cs T M B S Zr HT HS). assert (N4 := c4c_near cs T M B S Zr HT HS).
    assert (V1 := w_abs T M B S HT HS). assert (V2 := W_abs T M B S Zr HT HS).
    assert (R3 := rep_div 53 1024 p53 e1024 _ _ _ _ R2 Rs ltac:(lra)). fold (c3c cs T M B S) in R3.
    replace (c3c cs T M B S - (B + T * M) / S) with (c3c cs T M B S + Zr - ((B + T * M) / S + Zr)) in N3 by ring.
    apply round32_rep.
    - apply (rep_add 53 1024 p53 e1024); [apply R3; apply (rd_fits _ 126); [|lia]; eapply near_big; [exact N2|]; big; lra|apply rep_ofZ53; lia|].
      apply (rd_fits _ 126); [|lia]. eapply near_big; [exact N3|]. big. lra.
    - eapply near_big; [exact N4|]. big. lra.
  Qed.
  Lemma R_out_c : rep24 (if k then sf_fma 24 128 (sf_ofZ 24 128 X) (fst ch) (snd ch) else SFadd 24 128 (SFmul 24 128 (sf_ofZ 24 128 X) (fst ch)) (snd ch))
    (ayc cs k T M B S Zr (IZR X)).
  Proof.
    assert (N1 := aXm_near T M B S Zr (IZR X) HT HS HXr). assert (V1 := aXM_abs T M B S Zr (IZR X) HT HS HXr).
    assert (N2 := presum_near cs k T M B S Zr (IZR X) HT HS HXr). assert (V2 := y_abs T M B S Zr (IZR X) HS HXr).
    assert (Fit : Rabs (rn (presum cs k T M B S Zr (IZR X))) < bpow radix2 128) by (apply rn_small; eapply near_big; [exact N2|]; big; lra).
    unfold ayc, presum in *. destruct k.
    - apply (rep_fma 24 128 p24 e128); [apply rep_ofZ24; lia|apply R_mult_c|apply R_bias_c|exact Fit].
    - apply (rep_add 24 128 p24 e128); [|apply R_bias_c|exact Fit].
      apply (rep_mul 24 128 p24 e128); [apply rep_ofZ24; lia|apply R_mult_c|]. apply rn_small. eapply near_big; [exact N1|]. big. lra.
  Qed.
End DataF.

(** ** Whole convolutions *)
Open Scope Z_scope.
Lemma setup32_c_ok cs p a mw bw scale zp :
  0 <= out_c p -> zlen mw = out_c p -> zlen bw = out_c p ->
  exists t, one_time_setup32_c cs p a mw bw scale zp = Some t /\
    ot_min t = - Z.min (snd (activation_range a)) (backtransform_add p) + backtransform_add p /\
    ot_max t = - Z.max (fst (activation_range a)) (- backtransform_add p) + backtransform_add p /\
    (forall c m b, rd mw c = Some m -> rd bw c = Some b ->
       rd (ot_mult t) c = Some (fst (setup_channel_c (cs c) (backtransform_add p) scale zp (widen (decode32 m)) (widen (decode32 b)))) /\
       rd (ot_bias t) c = Some (snd (setup_channel_c (cs c) (backtransform_add p) scale zp (widen (decode32 m)) (widen (decode32 b))))).
Proof.
  intros Hc Hm Hb. apply wp_iff. unfold one_time_setup32_c. apply wp_bind.
  set (bt := backtransform_add p).
  apply (for_wp (fun k '(mult, bias) => zlen mult = out_c p + 4 /\ zlen bias = out_c p + 4 /\
    (forall c m b, c < k -> rd mw c = Some m -> rd bw c = Some b ->
       rd mult c = Some (fst (setup_channel_c (cs c) bt scale zp (widen (decode32 m)) (widen (decode32 b)))) /\
       rd bias c = Some (snd (setup_channel_c (cs c) bt scale zp (widen (decode32 m)) (widen (decode32 b))))))).
  - rewrite !zlen_repeat. change (Z.quot 16 4) with 4.
    split; [lia|]. split; [lia|]. intros c m b Hlt H. apply rd_bounds in H. lia.
  - intros i (mult, bias) Hi (L1 & L2 & H1).
    apply wp_bind, rd_wp; [lia|]. intros pm0 Hpm.
    apply wp_bind, rd_wp; [lia|]. intros pb0 Hpb.
    destruct (setup_channel_c (cs i) bt scale zp (widen (decode32 pm0)) (widen (decode32 pb0))) as [m' b'] eqn:E.
    apply wp_bind, wr_wp; [lia|]. intros mult' L1' S1 O1.
    apply wp_bind, wr_wp; [lia|]. intros bias' L2' S2 O2.
    apply wp_ret. split; [lia|]. split; [lia|].
    intros c m b Hlt Hcm Hcb. destruct (Z.eq_dec c i) as [->|Hne].
    + assert (m = pm0) by congruence. assert (b = pb0) by congruence. subst m b. rewrite E. cbn [fst snd]. split; assumption.
    + rewrite O1, O2 by exact Hne. apply H1; [lia|exact Hcm|exact Hcb].
  - rewrite Z.max_r by lia. intros (mult, bias) (L1 & L2 & H1).
    destruct (activation_range a) as [nmin nmax] eqn:E. cbn [fst snd].
    apply wp_ret; cbn [ot_min ot_max ot_mult ot_bias].
    split; [lia|]. split; [lia|].
    intros c m b Hcm Hcb. apply H1; auto. apply rd_bounds in Hcm. lia.
Qed.

Section ElemF.
  Variables (cs k : bool) (a : activation) (bt x zp mw bw : Z) (scale : spec_float) (s : Q).
  Hypothesis Hbt : 0 <= bt <= 2 ^ 22.
  Hypothesis Hx : 0 <= x <= bt.
  Hypothesis Hzp : Z.abs zp <= 2 ^ 20.
  Hypothesis Fm : finite32 mw = true.
  Hypothesis Fb : finite32 bw = true.
  Hypothesis Rs : scale_is scale s.
  Hypothesis Hs1 : ((1 # 2 ^ 126) <= s)%Q.
  Hypothesis Hs2 : (s <= inject_Z (2 ^ 128))%Q.
  Hypothesis Hm : (Qabs (exact32 mw) <= inject_Z (2 ^ 100) * s)%Q.
  Hypothesis Hb : (Qabs (exact32 bw) <= inject_Z (2 ^ 100) * s)%Q.
  Let X := bt - act_spec a (bt - 2 * x).
  Let y := ((exact32 mw * inject_Z (act_spec a (bt - 2 * x)) + exact32 bw) / s + inject_Z zp)%Q.
  Notation chv := (ch cs bt zp mw bw scale).
  Lemma elem_close_c : exists r,
    (if k then sf_fma 24 128 (sf_ofZ 24 128 X) (fst chv) (snd chv) else SFadd 24 128 (SFmul 24 128 (sf_ofZ 24 128 X) (fst chv)) (snd chv)) = r /\
    is_finite_SF r = true /\ (Qabs (SF2Q r - y) <= delta bt (exact32 mw) (exact32 bw) s zp)%Q.
  Proof.
    assert (HX : 0 <= X <= 2 * bt) by (unfold X; clear - Hbt Hx; destruct a; cbn [act_spec]; lia).
    assert (Sp : (0 < s)%Q) by (eapply Qlt_le_trans; [|exact Hs1]; reflexivity). assert (Sp' : (0 < Q2R s)%R) by (rewrite <- RMicromega.Q2R_0; apply Qlt_Rlt; exact Sp).
    assert (HS : (bpow radix2 (-126) <= Q2R s)%R) by (rewrite bpow126; apply Qle_Rle; exact Hs1).
    assert (HS2 : (Q2R s <= bpow radix2 128)%R) by (rewrite bpow_Z by lia; apply Qle_Rle; exact Hs2).
    assert (HM : (Rabs (Q2R (exact32 mw)) <= bpow radix2 100 * Q2R s)%R) by (rewrite bpow_Z by lia; rewrite <- Q2R_abs, <- Q2R_mult; apply Qle_Rle; exact Hm).
    assert (HB : (Rabs (Q2R (exact32 bw)) <= bpow radix2 100 * Q2R s)%R) by (rewrite bpow_Z by lia; rewrite <- Q2R_abs, <- Q2R_mult; apply Qle_Rle; exact Hb).
    assert (R := R_out_c cs k bt X zp mw bw scale (Q2R s) Hbt HX Hzp Fm Fb Rs HS HS2 HM HB).
    assert (HTr := hT bt 0 Hbt).
    assert (N := ayc_near cs k (IZR bt) (Q2R (exact32 mw)) (Q2R (exact32 bw)) (Q2R s) (IZR zp) (IZR X) HTr HS (hX bt X 0 HX)).
    eexists. split; [reflexivity|]. destruct (rep_val _ _ _ _ R) as [Fr Er]. split; [exact Fr|].
    apply Rle_Qle. rewrite Q2R_abs, Q2R_minus, SF2Q_R, Er.
    assert (Ey : Q2R y = yexact (IZR bt) (Q2R (exact32 mw)) (Q2R (exact32 bw)) (Q2R s) (IZR zp) (IZR X)).
    { unfold y, yexact, X. rewrite Q2R_plus, Q2R_div by (intros E; rewrite E in Sp; discriminate). rewrite Q2R_plus, Q2R_mult, !Q2R_Z, minus_IZR. f_equal. f_equal. ring. }
    rewrite Ey. eapply Rle_trans; [exact N|]. unfold delta.
    rewrite Q2R_plus, Q2R_mult, Q2R_plus, Q2R_div by (intros E; rewrite E in Sp; discriminate).
    rewrite Q2R_plus, Q2R_mult, !Q2R_abs, !Q2R_Z, <- U21. rewrite <- Rmult_assoc. apply Rplus_le_compat_l. exact tau_small.
  Qed.
  Lemma run_close_c (t : otp spec_float) c :
    ot_min t = - Z.min (snd (activation_range a)) bt + bt ->
    ot_max t = - Z.max (fst (activation_range a)) (- bt) + bt ->
    rd (ot_mult t) c = Some (fst chv) ->
    rd (ot_bias t) c = Some (snd chv) ->
    exists r, run_float_c k t x c = Some r /\ is_finite_SF r = true /\ (Qabs (SF2Q r - y) <= delta bt (exact32 mw) (exact32 bw) s zp)%Q.
  Proof.
    intros E1 E2 E3 E4. unfold run_float_c. rewrite E3, E4. cbn [bind]. rewrite E1, E2.
    replace (Z.max _ _) with X.
    - destruct elem_close_c as (r & Er & Fr & Cr). exists r. split; [f_equal; exact Er|]. split; assumption.
    - unfold X. rewrite <- (clamp_act a bt (bt - 2 * x)) by lia. rewrite Z.shiftl_mul_pow2 by lia.
      replace (bt - (bt - 2 * x)) with (x * 2 ^ 1) by lia. lia.
  Qed.
End ElemF.

Section ConvF.
  Variables (cs : Z -> bool) (k : Z -> Z -> bool).
  Variable p : bconv.
  Hypothesis WF : bconv_wf p.
  Variables input filter mw bw : list Z.
  Hypothesis Hin : packed input (in_pixels (geom_of p)) (channels_in p).
  Hypothesis Hfl : packed filter (filter_pixels (geom_of p)) (channels_in p / groups p).
  Hypothesis Hev : zero_padding p = true -> (channels_in p / groups p) mod 2 = 0.
  Hypothesis Hsmall : taps (geom_of p) <= 2 ^ 22.
  Hypothesis Hm : zlen mw = out_c p.
  Hypothesis Hb : zlen bw = out_c p.
  Variables (a : activation) (scale : spec_float) (s : Q) (zp : Z).
  Hypothesis Hzp : Z.abs zp <= 2 ^ 20.
  Hypothesis Rs : scale_is scale s.
  Hypothesis Hs1 : ((1 # 2 ^ 126) <= s)%Q.
  Hypothesis Hs2 : (s <= inject_Z (2 ^ 128))%Q.
  Hypothesis Mok : forall c w, rd mw c = Some w -> finite32 w = true /\ (Qabs (exact32 w) <= inject_Z (2 ^ 100) * s)%Q.
  Hypothesis Bok : forall c w, rd bw c = Some w -> finite32 w = true /\ (Qabs (exact32 w) <= inject_Z (2 ^ 100) * s)%Q.
  Notation tc := (the_conv p input filter).
  Notation yq := (yq32 a s zp).
  Notation dq := (dq32 p s zp).
  Lemma run32_c kk t b y x c m bi : one_time_setup32_c cs p a mw bw scale (sf_ofZ 53 1024 zp) = Some t -> 0 <= b < batches p ->
    rd mw c = Some m -> rd bw c = Some bi ->
    exists r, run_float_c kk t (acc_ref p input filter b y x c) c = Some r /\ is_finite_SF r = true /\
      (Qabs (SF2Q r - yq m bi (tc b y x c)) <= dq m bi)%Q.
  Proof.
    intros Ht Hbb Hcm Hcb. assert (Hc := rd_bounds _ _ _ Hcm). rewrite Hm in Hc. assert (HOC := out_c_nonneg p WF).
    destruct (setup32_c_ok cs p a mw bw scale (sf_ofZ 53 1024 zp) HOC Hm Hb) as (t' & Ht' & E1 & E2 & E3).
    assert (t' = t) by congruence. subst t'. destruct (E3 c m bi Hcm Hcb) as [E4 E5].
    destruct (acc_conv p WF input filter Hin Hfl Hev b y x c Hbb Hc) as [EC BC].
    destruct (Mok _ _ Hcm) as [Fm Qm]. destruct (Bok _ _ Hcb) as [Fb Qb].
    unfold dq32, yq32. assert (Tn := taps_nn p WF). rewrite (taps_bt p WF) in *.
    destruct (run_close_c (cs c) kk a (backtransform_add p) (acc_ref p input filter b y x c) zp m bi scale s (conj Tn Hsmall) BC Hzp Fm Fb Rs Hs1 Hs2 Qm Qb t c E1 E2 E4 E5)
      as (r & Er & Fr & Cr). rewrite EC in Cr. exists r. split; [exact Er|]. split; assumption.
  Qed.
  Lemma eval32_c out : zlen out = out_pixels (geom_of p) * out_c p ->
    exists out', (let* t := one_time_setup32_c cs p a mw bw scale (sf_ofZ 53 1024 zp) in BConv2DReference_val p input filter (fun acc c => run_float_c (k acc c) t acc c) out) = Some out' /\
      zlen out' = zlen out /\
      forall b y x c m bi, 0 <= b < batches p -> 0 <= y < out_h p -> 0 <= x < out_w p ->
        rd mw c = Some m -> rd bw c = Some bi ->
        exists r, rd out' (out_pixel (geom_of p) b y x * out_c p + c) = Some r /\ is_finite_SF r = true /\
          (Qabs (SF2Q r - yq m bi (tc b y x c)) <= dq m bi)%Q.
  Proof.
    intros Ho. assert (HOC := out_c_nonneg p WF). destruct (setup32_c_ok cs p a mw bw scale (sf_ofZ 53 1024 zp) HOC Hm Hb) as (t & Ht & _).
    rewrite Ht. cbn [bind]. set (run := fun acc c => run_float_c (k acc c) t acc c).
    set (v := fun b y x c => match run (acc_ref p input filter b y x c) c with Some r => r | None => S754_nan end).
    destruct (reference_val_ok p WF input filter Hin Hfl run v out) as (out' & H1 & H2 & H3).
    - intros b y x c Hbb Hy Hx Hc. destruct (rd_some mw c ltac:(lia)) as [m Hcm]. destruct (rd_some bw c ltac:(lia)) as [bi Hcb].
      destruct (run32_c (k (acc_ref p input filter b y x c) c) t b y x c m bi Ht Hbb Hcm Hcb) as (r & Hr & _). unfold v, run. rewrite Hr. reflexivity.
    - rewrite Ho. unfold out_pixels. cbn. lia.
    - exists out'. split; [exact H1|]. split; [exact H2|].
      intros b y x c m bi Hbb Hy Hx Hcm Hcb. assert (Hc := rd_bounds _ _ _ Hcm). rewrite Hm in Hc.
      destruct (run32_c (k (acc_ref p input filter b y x c) c) t b y x c m bi Ht Hbb Hcm Hcb) as (r & Hr & Fr & Cr). exists r. split; [|split; assumption].
      specialize (H3 b y x c Hbb Hy Hx Hc). unfold v, run in H3. rewrite Hr in H3. exact H3.
  Qed.
  Lemma eval32_int8_c out : zlen out = out_pixels (geom_of p) * out_c p ->
    exists out', (let* t := one_time_setup32_c cs p a mw bw scale (sf_ofZ 53 1024 zp) in BConv2DReference_val p input filter (fun acc c => run_int8_c (k acc c) t acc c) out) = Some out' /\
      zlen out' = zlen out /\
      forall b y x c m bi, 0 <= b < batches p -> 0 <= y < out_h p -> 0 <= x < out_w p ->
        rd mw c = Some m -> rd bw c = Some bi ->
        exists z, rd out' (out_pixel (geom_of p) b y x * out_c p + c) = Some (Z.max (-128) (Z.min 127 z)) /\
          (Qabs (yq m bi (tc b y x c) - inject_Z z) <= (1 # 2) + dq m bi)%Q.
  Proof.
    intros Ho. assert (HOC := out_c_nonneg p WF). destruct (setup32_c_ok cs p a mw bw scale (sf_ofZ 53 1024 zp) HOC Hm Hb) as (t & Ht & _).
    rewrite Ht. cbn [bind]. set (run := fun acc c => run_int8_c (k acc c) t acc c).
    set (v := fun b y x c => match run (acc_ref p input filter b y x c) c with Some r => r | None => 0 end).
    destruct (reference_val_ok p WF input filter Hin Hfl run v out) as (out' & H1 & H2 & H3).
    - intros b y x c Hbb Hy Hx Hc. destruct (rd_some mw c ltac:(lia)) as [m Hcm]. destruct (rd_some bw c ltac:(lia)) as [bi Hcb].
      destruct (run32_c (k (acc_ref p input filter b y x c) c) t b y x c m bi Ht Hbb Hcm Hcb) as (r & Hr & _). unfold v, run, run_int8_c. rewrite Hr. reflexivity.
    - rewrite Ho. unfold out_pixels. cbn. lia.
    - exists out'. split; [exact H1|]. split; [exact H2|].
      intros b y x c m bi Hbb Hy Hx Hcm Hcb. assert (Hc := rd_bounds _ _ _ Hcm). rewrite Hm in Hc.
      destruct (run32_c (k (acc_ref p input filter b y x c) c) t b y x c m bi Ht Hbb Hcm Hcb) as (r & Hr & Fr & Cr). exists (round_haz (SF2Q r)).
      specialize (H3 b y x c Hbb Hy Hx Hc). unfold v, run, run_int8_c in H3. rewrite Hr in H3. cbn [bind] in H3.
      split; [etransitivity; [exact H3|]; f_equal; unfold saturate; lia|].
      destruct (round_haz_nearest (SF2Q r)) as [Nr _]. set (q := SF2Q r) in *. set (Y := yq m bi (tc b y x c)) in *.
      setoid_replace (Y - inject_Z (round_haz q))%Q with ((q - inject_Z (round_haz q)) + (Y - q))%Q by ring.
      eapply Qle_trans; [apply Qabs_triangle|]. apply Qplus_le_compat; [exact Nr|].
      setoid_replace (Y - q)%Q with (- (q - Y))%Q by ring. rewrite Qabs_opp. exact Cr.
  Qed.
End ConvF.
