(** * When binary32 thresholds are right (C12): error analysis of the converter's
    threshold computation and of the runtime's output transform. *)
From Coq Require Import ZArith Reals Psatz Lia SpecFloat QArith Qreals Qabs.
From Flocq Require Import Core Relative Operations Digits Float_prop BinarySingleNaN.
From Verif Require Import Base Spec Float32 OutputTransform Threshold ThresholdFloat FlocqBridge.
Open Scope R_scope.

#[local] Instance p24 : Prec_gt_0 24 := eq_refl.
#[local] Instance p53 : Prec_gt_0 53 := eq_refl.
#[local] Instance e128 : Prec_lt_emax 24 128 := eq_refl.
#[local] Instance e1024 : Prec_lt_emax 53 1024 := eq_refl.
Notation rep24 := (rep 24 128).
Notation rep53 := (rep 53 1024).
Notation rn := (rnd 24 128).
Notation rd53 := (rnd 53 1024).
Definition U : R := bpow radix2 (-24).
Definition eta : R := bpow radix2 (-150).

Lemma rn_err a : Rabs (rn a - a) <= U * Rabs a + eta.
Proof. exact (rnd_err 24 128 p24 a). Qed.
Lemma rd_err a : Rabs (rd53 a - a) <= bpow radix2 (-53) * Rabs a + bpow radix2 (-1075).
Proof. exact (rnd_err 53 1024 p53 a). Qed.
Lemma U_val : U = / 16777216.
Proof. unfold U. simpl. f_equal. Qed.
Lemma eta_U : 0 < eta <= U / 1000.
Proof.
  split; [apply bpow_gt_0|]. unfold eta. replace (-150)%Z with (-24 + -126)%Z by lia. rewrite bpow_plus. fold U.
  assert (0 < U) by apply bpow_gt_0. assert (bpow radix2 (-126) <= bpow radix2 (-10)) by (apply bpow_le; lia).
  assert (bpow radix2 (-10) <= / 1000) by (simpl; lra). unfold Rdiv. apply Rmult_le_compat_l; lra.
Qed.
Lemma eta_M M : bpow radix2 (-126) <= M -> eta <= U * M.
Proof.
  intros H. unfold eta. replace (-150)%Z with (-24 + -126)%Z by lia. rewrite bpow_plus. fold U. apply Rmult_le_compat_l; [apply bpow_ge_0|exact H].
Qed.
(** The double precision errors, very generously. *)
Lemma d_err a : Rabs (rd53 a - a) <= U / 1000 * Rabs a + eta / 1000.
Proof.
  eapply Rle_trans; [apply rd_err|]. apply Rplus_le_compat.
  - apply Rmult_le_compat_r; [apply Rabs_pos|]. replace (-53)%Z with (-24 + -29)%Z by lia. rewrite bpow_plus. fold U.
    assert (0 < U) by apply bpow_gt_0. assert (bpow radix2 (-29) <= / 1000) by (simpl; lra). unfold Rdiv. apply Rmult_le_compat_l; lra.
  - replace (-1075)%Z with (-150 + -925)%Z by lia. rewrite bpow_plus. fold eta.
    assert (0 < eta) by apply bpow_gt_0. assert (bpow radix2 (-925) <= bpow radix2 (-10)) by (apply bpow_le; lia).
    assert (bpow radix2 (-10) <= / 1000) by (simpl; lra). unfold Rdiv. apply Rmult_le_compat_l; lra.
Qed.

(** ** Representations *)
Lemma rn_small a : Rabs a <= bpow radix2 126 -> Rabs (rn a) < bpow radix2 128.
Proof.
  intros H. assert (E := rn_err a). assert (B := Rabs_triang_inv (rn a) a). assert (Hu := U_val). assert (He := eta_U).
  assert (H1 : 1 <= bpow radix2 126) by (change 1 with (bpow radix2 0); apply bpow_le; lia).
  replace (bpow radix2 128) with (4 * bpow radix2 126) by (replace 128%Z with (2 + 126)%Z by lia; rewrite bpow_plus; simpl (bpow radix2 2); lra).
  assert (U * Rabs a <= Rabs a) by (rewrite Hu; assert (0 <= Rabs a) by apply Rabs_pos; lra). lra.
Qed.
Lemma rd_small a : Rabs a <= bpow radix2 200 -> Rabs (rd53 a) < bpow radix2 1024.
Proof.
  intros H. assert (E := d_err a). assert (B := Rabs_triang_inv (rd53 a) a). assert (Hu := U_val). assert (He := eta_U).
  assert (H1 : 1 <= bpow radix2 200) by (change 1 with (bpow radix2 0); apply bpow_le; lia).
  apply (Rlt_le_trans _ (4 * bpow radix2 200)).
  - assert (0 <= Rabs a) by apply Rabs_pos. rewrite Hu in *. lra.
  - replace 4 with (bpow radix2 2) by reflexivity. rewrite <- bpow_plus. apply bpow_le. lia.
Qed.
Lemma format_Z prec emax n : (0 < prec < 100)%Z -> (110 < emax)%Z -> (Z.abs n < 2 ^ prec)%Z -> generic_format radix2 (SpecFloat.fexp prec emax) (IZR n).
Proof.
  intros Hp He Hn. apply (generic_format_FLT radix2 (3 - emax - prec) prec).
  apply (FLT_spec radix2 (3 - emax - prec) prec _ (Float radix2 n 0)); [unfold F2R; simpl; ring|exact Hn|cbn [Fexp]; lia].
Qed.
Lemma Z_abs_lt_IZR n k : (0 <= k)%Z -> (Z.abs n < 2 ^ k)%Z -> Rabs (IZR n) < bpow radix2 k.
Proof. intros Hk H. rewrite <- abs_IZR. rewrite <- (IZR_Zpower radix2) by exact Hk. apply IZR_lt. exact H. Qed.
Lemma F2R_0e n : F2R (Float radix2 n 0) = IZR n.
Proof. unfold F2R. simpl. ring. Qed.
Lemma rep_ofZ24 n : (Z.abs n < 2 ^ 24)%Z -> rep24 (sf_ofZ 24 128 n) (IZR n).
Proof.
  intros H. assert (E : rn (F2R (Float radix2 n 0)) = IZR n).
  { rewrite F2R_0e. apply rnd_id. apply format_Z; lia. }
  unfold sf_ofZ. rewrite <- E. apply (rep_normalize 24 128 p24 e128). rewrite E.
  eapply Rlt_trans; [apply (Z_abs_lt_IZR n 24); lia|]. apply bpow_lt. lia.
Qed.
Lemma rep_ofZ53 n : (Z.abs n < 2 ^ 24)%Z -> rep53 (sf_ofZ 53 1024 n) (IZR n).
Proof.
  intros H. assert (E : rd53 (F2R (Float radix2 n 0)) = IZR n).
  { rewrite F2R_0e. apply rnd_id. apply format_Z; lia. }
  unfold sf_ofZ. rewrite <- E. apply (rep_normalize 53 1024 p53 e1024). rewrite E.
  eapply Rlt_trans; [apply (Z_abs_lt_IZR n 24); lia|]. apply bpow_lt. lia.
Qed.
Lemma digits_lt m k : (0 <= k)%Z -> (Zpos m < 2 ^ k)%Z -> (Zpos (digits2_pos m) <= k)%Z.
Proof. intros Hk H. rewrite Zpos_digits2_pos. apply (Zdigits_le_Zpower radix2). simpl Z.abs. exact H. Qed.
Lemma digits_ge m k : (2 ^ k <= Zpos m)%Z -> (k < Zpos (digits2_pos m))%Z.
Proof. intros H. rewrite Zpos_digits2_pos. apply (Zdigits_gt_Zpower radix2). simpl Z.abs. exact H. Qed.
Lemma decode_valid w : valid_binary 24 128 (decode32 w) = true.
Proof.
  unfold decode32. set (e := ((w / 2 ^ 23) mod 2 ^ 8)%Z). set (m := (w mod 2 ^ 23)%Z).
  assert (He : (0 <= e < 256)%Z) by (apply Z.mod_pos_bound; lia).
  assert (Hm : (0 <= m < 2 ^ 23)%Z) by (apply Z.mod_pos_bound; lia).
  clearbody e m. destruct (Z.eqb_spec e 255); [destruct (Z.eqb m 0); reflexivity|]. destruct (Z.eqb_spec e 0).
  - destruct m as [|q|q]; try reflexivity. cbn [valid_binary]. unfold bounded, canonical_mantissa.
    assert (D := digits_lt q 23 ltac:(lia) ltac:(lia)). unfold SpecFloat.fexp, SpecFloat.emin.
    apply andb_true_intro. split; [apply Zeq_is_eq_bool; lia|reflexivity].
  - destruct (m + 2 ^ 23)%Z as [|q|q] eqn:Em; try reflexivity. cbn [valid_binary]. unfold bounded, canonical_mantissa.
    assert (D := digits_lt q 24 ltac:(lia) ltac:(lia)). assert (D' := digits_ge q 23 ltac:(lia)). unfold SpecFloat.fexp, SpecFloat.emin.
    apply andb_true_intro. split; [apply Zeq_is_eq_bool; lia|apply Zle_bool_true; lia].
Qed.
Definition finite32 (w : Z) : bool := is_finite_SF (decode32 w).
Lemma rep_decode w : finite32 w = true -> rep24 (decode32 w) (SF2R radix2 (decode32 w)).
Proof. intros H. apply valid_rep; [apply decode_valid|]. split; [exact H|reflexivity]. Qed.
Lemma SF2Q_R x : Q2R (SF2Q x) = SF2R radix2 x.
Proof.
  destruct x as [s|s| |s m e]; try (unfold SF2Q, SF2R, Q2R; simpl; lra).
  unfold SF2Q, SF2R. rewrite Q2R_mult. unfold F2R. cbn [Fnum Fexp]. f_equal.
  - unfold Q2R. cbn [Qnum Qden]. destruct s; simpl cond_Zopp; lra.
  - destruct (Z.leb_spec 0 e) as [He|He].
    + unfold Q2R, inject_Z. cbn [Qnum Qden]. rewrite <- (IZR_Zpower radix2) by exact He. change (Z.pow_pos _ _) with 1%Z. simpl (radix_val radix2). lra.
    + unfold Q2R. cbn [Qnum Qden]. rewrite Z2Pos.id by (apply Z.pow_pos_nonneg; lia).
      replace e with (- - e)%Z at 2 by lia. rewrite bpow_opp. rewrite <- (IZR_Zpower radix2) by lia. simpl (radix_val radix2). lra.
Qed.
Lemma round32_rep x r : rep53 x r -> Rabs r <= bpow radix2 126 -> rep24 (sf_round32 x) (rn r).
Proof.
  intros (X & <- & Fx & <-) H. destruct X as [s|s| |s m e Be]; try discriminate.
  - simpl. rewrite rnd_0. apply rep_zero.
  - cbn [B2SF sf_round32]. assert (E : SpecFloat.binary_round 24 128 s m e = SpecFloat.binary_normalize 24 128 (cond_Zopp s (Zpos m)) e s) by (destruct s; reflexivity).
    rewrite E. apply (rep_normalize 24 128 p24 e128). apply rn_small. exact H.
Qed.
Lemma half_floor_rep x r : rep24 x r -> sf_half_floor x = Zfloor (r / 2).
Proof.
  intros (X & <- & Fx & <-). destruct X as [s|s| |s m e Be]; try discriminate.
  - simpl. symmetry. apply Zfloor_imp. simpl. lra.
  - cbn [B2SF sf_half_floor]. simpl B2R. set (n := if s then Z.neg m else Z.pos m).
    assert (En : cond_Zopp s (Zpos m) = n) by (unfold n; destruct s; reflexivity). rewrite En. unfold F2R. cbn [Fnum Fexp].
    destruct (Z.leb_spec 1 e) as [He|He].
    + symmetry. replace (IZR n * bpow radix2 e / 2) with (IZR (n * 2 ^ (e - 1))).
      * apply Zfloor_IZR.
      * rewrite mult_IZR. change 2%Z with (radix_val radix2) at 1. rewrite IZR_Zpower by lia. replace e with (e - 1 + 1)%Z at 2 by lia. rewrite bpow_plus. simpl (bpow radix2 1). lra.
    + replace (IZR n * bpow radix2 e / 2) with (IZR n / IZR (2 ^ (1 - e))).
      * symmetry. apply Zfloor_div. assert (0 < 2 ^ (1 - e))%Z by (apply Z.pow_pos_nonneg; lia). lia.
      * change 2%Z with (radix_val radix2) at 1. rewrite IZR_Zpower by lia. replace (1 - e)%Z with (- (e + -1))%Z by lia. rewrite bpow_opp, bpow_plus. simpl (bpow radix2 (-1)). 
        assert (0 < bpow radix2 e) by apply bpow_gt_0. change (IZR (Z.pow_pos 2 1)) with 2. field. lra.
Qed.

(** ** The converter, in real arithmetic *)
Lemma rn_neg a : rn a < 0 -> a < 0.
Proof. intros H. destruct (Rlt_or_le a 0) as [L|L]; [exact L|]. apply (rnd_le 24 128 p24) in L. rewrite rnd_0 in L. lra. Qed.
Lemma rn_nonneg a : 0 <= rn a -> - (2 * eta) <= a.
Proof.
  intros H. destruct (Rlt_or_le a 0) as [L|L]; [|assert (E := eta_U); lra].
  assert (E := rn_err a). rewrite (Rabs_left a) in E by exact L. assert (Hu := U_val). assert (He := eta_U).
  assert (G := Rle_abs (rn a - a)). rewrite Hu in *. lra.
Qed.
Lemma rn_bounds a k : Rabs a <= k -> a - (U * k + eta) <= rn a <= a + (U * k + eta).
Proof.
  intros H. assert (E := rn_err a). assert (Hu : 0 < U) by apply bpow_gt_0.
  assert (U * Rabs a <= U * k) by (apply Rmult_le_compat_l; lra). apply Rabs_le_inv in E. lra.
Qed.
Lemma rd_bounds53 a k : Rabs a <= k -> a - (U / 1000 * k + eta / 1000) <= rd53 a <= a + (U / 1000 * k + eta / 1000).
Proof.
  intros H. assert (E := d_err a). assert (Hu : 0 < U) by apply bpow_gt_0.
  assert (U / 1000 * Rabs a <= U / 1000 * k) by (apply Rmult_le_compat_l; lra). apply Rabs_le_inv in E. lra.
Qed.
Section Converter.
  Variables (T M B e1 e2 c : R).
  Hypothesis HT : 1 <= T.
  Hypothesis HM : bpow radix2 (-126) <= M.
  Hypothesis He1 : Rabs e1 <= 6 * T.
  Hypothesis He2 : Rabs e2 <= 6 * T.
  Definition Qt : R := B / M.
  Lemma M_pos : 0 < M.
  Proof. eapply Rlt_le_trans; [apply bpow_gt_0|exact HM]. Qed.
  Lemma B_Q : B = Qt * M.
  Proof. unfold Qt. assert (H := M_pos). field. lra. Qed.
  Lemma TM_U : eta <= U * (T * M).
  Proof.
    eapply Rle_trans; [apply (eta_M M HM)|]. apply Rmult_le_compat_l; [apply bpow_ge_0|]. assert (H := M_pos).
    rewrite <- (Rmult_1_l M) at 1. apply Rmult_le_compat_r; lra.
  Qed.
  Lemma prod_bound e : Rabs e <= 6 * T -> e * M - 7 * (U * (T * M)) <= rn (e * M) <= e * M + 7 * (U * (T * M)).
  Proof.
    intros He. assert (H := M_pos). assert (G : Rabs (e * M) <= 6 * (T * M)).
    { rewrite Rabs_mult, (Rabs_pos_eq M) by lra. replace (6 * (T * M)) with (6 * T * M) by ring. apply Rmult_le_compat_r; lra. }
    assert (R := rn_bounds _ _ G). assert (E := TM_U). lra.
  Qed.
  Lemma scale_lt e k : e * M + B < k * (T * M) -> e + Qt < k * T.
  Proof.
    intros H. apply (Rmult_lt_reg_r M); [apply M_pos|]. rewrite B_Q in H. lra.
  Qed.
  Lemma scale_ge e k : k * (T * M) <= e * M + B -> k * T <= e + Qt.
  Proof.
    intros H. apply (Rmult_le_reg_r M); [apply M_pos|]. rewrite B_Q in H. lra.
  Qed.
  Lemma start_neg e : Rabs e <= 6 * T -> rn (rn (e * M) + B) < 0 -> e + Qt < 7 * U * T.
  Proof. intros He H. apply rn_neg in H. assert (P := prod_bound e He). apply scale_lt. lra. Qed.
  Lemma start_nonneg e : Rabs e <= 6 * T -> 0 <= rn (rn (e * M) + B) -> - (9 * U) * T <= e + Qt.
  Proof. intros He H. apply rn_nonneg in H. assert (P := prod_bound e He). assert (E := TM_U). apply scale_ge. lra. Qed.
  Lemma UT : 0 < U * T /\ U * T <= T / 1000 /\ eta <= U * T / 1000.
  Proof.
    assert (Hu := U_val). assert (E := eta_U). assert (Hu0 : 0 < U) by apply bpow_gt_0.
    split; [apply Rmult_lt_0_compat; lra|]. split; [rewrite Hu; lra|]. eapply Rle_trans; [apply E|].
    unfold Rdiv. apply Rmult_le_compat_r; [lra|]. rewrite <- (Rmult_1_r U) at 1. apply Rmult_le_compat_l; lra.
  Qed.
  (** The value the general case halves. *)
  Definition vt : R := rn (rn Qt + T).
  Lemma mixed_Q : e1 + Qt < 7 * U * T -> - (9 * U) * T <= e2 + Qt -> Rabs Qt <= 7 * T.
  Proof.
    intros H1 H2. assert (X := UT). apply Rabs_le_inv in He1. apply Rabs_le_inv in He2. apply Rabs_le. lra.
  Qed.
  Lemma v_bound : Rabs Qt <= 7 * T -> Qt + T - 16 * (U * T) <= vt <= Qt + T + 16 * (U * T).
  Proof.
    intros H. assert (X := UT). assert (R1 := rn_bounds _ _ H). apply Rabs_le_inv in H.
    assert (H2 : Rabs (rn Qt + T) <= 8.1 * T) by (apply Rabs_le; lra).
    assert (R2 := rn_bounds _ _ H2). unfold vt. lra.
  Qed.
  Hypothesis He : e1 <= e2.
  Definition cl : R := Rmax e1 (Rmin e2 c).
  Hypothesis margin : Rabs (cl + Qt) > 32 * U * (Rabs Qt + T).
  Lemma cl_in : e1 <= cl <= e2.
  Proof.
    unfold cl. split; [apply Rmax_l|]. apply Rmax_lub; [exact He|apply Rmin_l].
  Qed.
  Lemma marg : cl + Qt < - 32 * (U * T) \/ 32 * (U * T) < cl + Qt.
  Proof.
    assert (X := UT). assert (P : 0 <= U * Rabs Qt) by (apply Rmult_le_pos; [apply bpow_ge_0|apply Rabs_pos]).
    assert (K := margin). clear margin. unfold Rabs at 1 in K. destruct (Rcase_abs (cl + Qt)); [left|right]; lra.
  Qed.
  Lemma both_neg : rn (rn (e1 * M) + B) < 0 -> rn (rn (e2 * M) + B) < 0 -> cl + Qt < 0.
  Proof. intros _ H. assert (S := start_neg e2 He2 H). assert (C := cl_in). assert (K := marg). assert (X := UT). lra. Qed.
  Lemma both_nonneg : 0 <= rn (rn (e1 * M) + B) -> 0 <= rn (rn (e2 * M) + B) -> 0 < cl + Qt.
  Proof. intros H _. assert (S := start_nonneg e1 He1 H). assert (C := cl_in). assert (K := marg). assert (X := UT). lra. Qed.
  Lemma mixed : rn (rn (e1 * M) + B) < 0 -> 0 <= rn (rn (e2 * M) + B) -> (vt < T - c <-> cl + Qt < 0).
  Proof.
    intros H1 H2. assert (S1 := start_neg e1 He1 H1). assert (S2 := start_nonneg e2 He2 H2).
    assert (V := v_bound (mixed_Q S1 S2)). assert (K := marg). assert (X := UT).
    unfold cl in *. unfold Rmax, Rmin in *. destruct (Rle_dec e2 c); destruct (Rle_dec e1 _); split; intros; lra.
  Qed.
  Lemma order : rn (rn (e1 * M) + B) <= rn (rn (e2 * M) + B).
  Proof.
    apply rnd_le; [exact p24|]. apply Rplus_le_compat_r. apply rnd_le; [exact p24|]. apply Rmult_le_compat_r; [assert (P := M_pos); lra|exact He].
  Qed.
End Converter.

(** ** The converter, on binary32 data *)
Lemma Rlt_bool_iff a b (t : bool) : (t = true <-> a < b) -> t = Rlt_bool a b.
Proof.
  intros H. destruct t; symmetry; [apply Rlt_bool_true; now apply H|apply Rlt_bool_false].
  destruct (Rlt_or_le a b) as [L|L]; [apply H in L; discriminate|exact L].
Qed.
Lemma Zfloor_lt_iff r n : (Zfloor r < n)%Z <-> r < IZR n.
Proof.
  split; intros H.
  - apply (Rlt_le_trans _ (IZR (Zfloor r) + 1)); [apply Zfloor_ub|]. rewrite <- plus_IZR. apply IZR_le. lia.
  - apply lt_IZR. eapply Rle_lt_trans; [apply Zfloor_lb|exact H].
Qed.
Definition thr_tail (e1 e2 am b btf : spec_float) : Z :=
  let range_start := SFadd 24 128 (SFmul 24 128 e1 am) b in
  let range_end := SFadd 24 128 (SFmul 24 128 e2 am) b in
  if SFltb range_start (S754_zero false) && SFltb range_end (S754_zero false) then int32_min
  else if SFleb (S754_zero false) range_start && SFleb (S754_zero false) range_end then int32_max
  else sf_half_floor (SFadd 24 128 (SFdiv 24 128 b am) btf).
Lemma small_126 a k : Rabs a <= bpow radix2 k -> (k <= 126)%Z -> Rabs (rn a) < bpow radix2 128.
Proof. intros H Hk. apply rn_small. eapply Rle_trans; [exact H|]. apply bpow_le. exact Hk. Qed.
Section ConvF.
  Variables (bt E1 E2 x : Z) (am b : spec_float) (M B : R).
  Hypothesis Hbt : (1 <= bt <= 2 ^ 22)%Z.
  Hypothesis HE1 : (Z.abs E1 <= 6 * bt)%Z.
  Hypothesis HE2 : (Z.abs E2 <= 6 * bt)%Z.
  Hypothesis HE : (E1 <= E2)%Z.
  Hypothesis Hx : (0 <= x <= bt)%Z.
  Hypothesis Ram : rep24 am M.
  Hypothesis Rb : rep24 b B.
  Hypothesis HM : bpow radix2 (-126) <= M.
  Hypothesis HM2 : M <= bpow radix2 100.
  Hypothesis HB : Rabs B <= bpow radix2 100.
  Let T := IZR bt.
  Hypothesis margin : Rabs (cl (IZR E1) (IZR E2) (IZR (bt - 2 * x)) + Qt M B) > 32 * U * (Rabs (Qt M B) + T).
  Lemma T1 : 1 <= T.
  Proof. apply (IZR_le 1). lia. Qed.
  Lemma T2 : T <= bpow radix2 22.
  Proof. replace (bpow radix2 22) with (IZR (2 ^ 22)) by reflexivity. apply IZR_le. lia. Qed.
  Lemma absE e : (Z.abs e <= 6 * bt)%Z -> Rabs (IZR e) <= 6 * T.
  Proof. intros H. rewrite <- abs_IZR. unfold T. rewrite <- (mult_IZR 6). apply IZR_le. exact H. Qed.
  Lemma eM_small e : (Z.abs e <= 6 * bt)%Z -> Rabs (IZR e * M) <= bpow radix2 125.
  Proof.
    intros H. assert (P := M_pos M HM). rewrite Rabs_mult, (Rabs_pos_eq M) by lra.
    apply (Rle_trans _ (bpow radix2 25 * bpow radix2 100)); [|rewrite <- bpow_plus; apply Rle_refl].
    apply Rmult_le_compat; [apply Rabs_pos|lra| |exact HM2]. eapply Rle_trans; [apply absE; exact H|].
    replace (bpow radix2 25) with (8 * bpow radix2 22) by (simpl; lra). assert (G := T2). assert (G1 := T1). lra.
  Qed.
  Lemma pow_100_125 : 2 * bpow radix2 100 <= bpow radix2 125.
  Proof. change 2 with (bpow radix2 1). rewrite <- bpow_plus. apply bpow_le. lia. Qed.
  Lemma sum_small e : (Z.abs e <= 6 * bt)%Z -> Rabs (rn (IZR e * M) + B) <= bpow radix2 126.
  Proof.
    intros H. assert (S := eM_small e H). assert (R := rn_bounds _ _ S). apply Rabs_le_inv in S. assert (G := Rabs_le_inv _ _ HB).
    assert (P := pow_100_125). assert (Hu := U_val). assert (He := eta_U). replace (bpow radix2 126) with (2 * bpow radix2 125) by (replace 126%Z with (1 + 125)%Z by lia; rewrite bpow_plus; simpl (bpow radix2 1); lra).
    assert (1000 <= bpow radix2 125) by (apply (Rle_trans _ (bpow radix2 10)); [simpl; lra|]; apply bpow_le; lia).
    apply Rabs_le. rewrite Hu in *. lra.
  Qed.
  Lemma rep_range e es : rep24 es (IZR e) -> (Z.abs e <= 6 * bt)%Z -> rep24 (SFadd 24 128 (SFmul 24 128 es am) b) (rn (rn (IZR e * M) + B)).
  Proof.
    intros He H. apply (rep_add 24 128 p24 e128).
    - apply (rep_mul 24 128 p24 e128); [exact He|exact Ram|]. apply (small_126 _ 125); [apply eM_small; exact H|lia].
    - exact Rb.
    - apply rn_small. apply sum_small. exact H.
  Qed.
  Lemma thr_tail_ok e1 e2 : rep24 e1 (IZR E1) -> rep24 e2 (IZR E2) ->
    (thr_tail e1 e2 am b (sf_ofZ 24 128 bt) <? x)%Z = Rlt_bool (cl (IZR E1) (IZR E2) (IZR (bt - 2 * x)) + Qt M B) 0.
  Proof.
    intros H1 H2. assert (S1 := rep_range E1 e1 H1 HE1). assert (S2 := rep_range E2 e2 H2 HE2).
    assert (A1 := absE E1 HE1). assert (A2 := absE E2 HE2). assert (AE : IZR E1 <= IZR E2) by (apply IZR_le; exact HE).
    unfold thr_tail. rewrite (rep_ltb _ _ _ _ _ _ S1 (rep_zero _ _ false)), (rep_ltb _ _ _ _ _ _ S2 (rep_zero _ _ false)).
    rewrite (rep_leb _ _ _ _ _ _ (rep_zero _ _ false) S1), (rep_leb _ _ _ _ _ _ (rep_zero _ _ false) S2).
    assert (O := order M B (IZR E1) (IZR E2) HM AE). unfold int32_min, int32_max.
    destruct (Rlt_bool_spec (rn (rn (IZR E1 * M) + B)) 0) as [L1|L1];
      destruct (Rlt_bool_spec (rn (rn (IZR E2 * M) + B)) 0) as [L2|L2]; cbn [andb].
    - rewrite Rlt_bool_true by (apply (both_neg T M B (IZR E1) (IZR E2)); auto using T1). apply Z.ltb_lt. lia.
    - rewrite (Rle_bool_false 0 (rn (rn (IZR E1 * M) + B))) by exact L1. cbn [andb].
      assert (Sn := start_neg T M B T1 HM (IZR E1) A1 L1). assert (Sp := start_nonneg T M B T1 HM (IZR E2) A2 L2).
      assert (BQ := mixed_Q T M B (IZR E1) (IZR E2) T1 A1 A2 Sn Sp).
      assert (V : rep24 (SFadd 24 128 (SFdiv 24 128 b am) (sf_ofZ 24 128 bt)) (vt T M B)).
      { assert (P22 := T2). assert (P1 := T1). assert (P := M_pos M HM).
        assert (Q1 : Rabs (Qt M B) <= bpow radix2 25) by (replace (bpow radix2 25) with (8 * bpow radix2 22) by (simpl; lra); lra).
        assert (R := rn_bounds _ _ Q1). assert (Q1' := Rabs_le_inv _ _ Q1). assert (Hu := U_val). assert (He := eta_U).
        apply (rep_add 24 128 p24 e128).
        - apply (rep_div 24 128 p24 e128); [exact Rb|exact Ram|lra|]. apply (small_126 _ 25); [exact Q1|lia].
        - apply rep_ofZ24. lia.
        - apply (small_126 _ 27); [|lia]. replace (bpow radix2 27) with (4 * bpow radix2 25) by (simpl; lra).
          replace (bpow radix2 22) with (bpow radix2 25 / 8) in P22 by (simpl; lra).
          fold T. fold (Qt M B). apply Rabs_le. rewrite Hu in *. assert (1 <= bpow radix2 25) by (simpl; lra). lra. }
      rewrite (half_floor_rep _ _ V). apply Rlt_bool_iff. rewrite Z.ltb_lt, Zfloor_lt_iff.
      rewrite <- (mixed T M B (IZR E1) (IZR E2) (IZR (bt - 2 * x)) T1 HM A1 A2 AE margin L1 L2).
      rewrite minus_IZR, mult_IZR. fold T. split; intros; lra.
    - exfalso. lra.
    - rewrite !Rle_bool_true by assumption. cbn [andb]. rewrite Rlt_bool_false by (apply Rlt_le, (both_nonneg T M B (IZR E1) (IZR E2)); auto using T1).
      apply Z.ltb_ge. lia.
  Qed.
End ConvF.

Lemma rep_eqb x y a b : rep24 x a -> rep24 y b -> SFeqb x y = Req_bool a b.
Proof. intros (X & <- & Fx & <-) (Y & <- & Fy & <-). exact (Beqb_correct 24 128 X Y Fx Fy). Qed.
Lemma cl_Z a b c : cl (IZR a) (IZR b) (IZR c) = IZR (Z.max a (Z.min b c)).
Proof.
  unfold cl, Rmax, Rmin. destruct (Rle_dec (IZR b) (IZR c)) as [L|L].
  - apply le_IZR in L. rewrite Z.min_l by exact L. destruct (Rle_dec (IZR a) (IZR b)) as [K|K]; [apply le_IZR in K; now rewrite Z.max_r|].
    rewrite Z.max_l; [reflexivity|]. apply Rnot_le_lt, lt_IZR in K. lia.
  - apply Rnot_le_lt, lt_IZR in L. rewrite Z.min_r by lia. destruct (Rle_dec (IZR a) (IZR c)) as [K|K]; [apply le_IZR in K; now rewrite Z.max_r|].
    rewrite Z.max_l; [reflexivity|]. apply Rnot_le_lt, lt_IZR in K. lia.
Qed.
Definition signed_x (neg : bool) (bt x : Z) : Z := if neg then (bt - x)%Z else x.
Lemma threshold_margin a bt x m b mr br : (1 <= bt <= 2 ^ 22)%Z -> (0 <= x <= bt)%Z -> rep24 m mr -> rep24 b br ->
  bpow radix2 (-126) <= Rabs mr <= bpow radix2 100 -> Rabs br <= bpow radix2 100 ->
  let y := mr * IZR (act_spec a (bt - 2 * x)) + br in
  Rabs y > 32 * U * (Rabs br + IZR bt * Rabs mr) ->
  let '(cmin, cmax) := clamp_min_max a bt in
  (threshold_one F32 (c_ofZ F32 bt) (c_ofZ F32 cmin) (c_ofZ F32 cmax) m b <? signed_x (Rlt_bool mr 0) bt x)%Z = Rlt_bool y 0.
Proof.
  intros Hbt Hx Rm Rb [Hm1 Hm2] HB y Hy. destruct (clamp_min_max a bt) as [cmin cmax] eqn:Ec.
  assert (Hc : (Z.abs cmin <= 6 * bt /\ Z.abs cmax <= 6 * bt /\ Z.abs cmin < 2 ^ 24 /\ Z.abs cmax < 2 ^ 24 /\ cmin <= cmax /\
    act_spec a (bt - 2 * x) = Z.max cmin (Z.min cmax (bt - 2 * x)))%Z).
  { assert (Ec1 := f_equal fst Ec). assert (Ec2 := f_equal snd Ec). cbn [fst snd] in Ec1, Ec2. subst cmin cmax. clear - Hbt Hx.
    destruct a; cbn [act_spec clamp_min_max fst snd]; lia. }
  destruct Hc as (C1 & C2 & C3 & C4 & C5 & C6). clear Ec.
  assert (Hp : 0 < Rabs mr) by (eapply Rlt_le_trans; [apply bpow_gt_0|exact Hm1]).
  assert (Hn : mr <> 0) by (intros ->; rewrite Rabs_R0 in Hp; lra).
  unfold threshold_one. cbn [c_eqb c_ltb c_geb c_ofZ c_mul c_add c_div c_abs c_half_floor F32].
  change (sf_ofZ 24 128 0) with (S754_zero false).
  rewrite (rep_eqb _ _ _ _ Rm (rep_zero 24 128 false)), Req_bool_false by exact Hn.
  rewrite (rep_ltb _ _ _ _ _ _ (rep_zero 24 128 false) Rm).
  assert (Ram := rep_abs _ _ _ _ Rm).
  assert (HQ : Rabs (Qt (Rabs mr) br) = Rabs br / Rabs mr) by (unfold Qt, Rdiv; rewrite Rabs_mult, Rabs_inv, Rabs_Rabsolu; reflexivity).
  assert (Mk : forall z, z * Rabs mr + br = y -> Rabs (z + Qt (Rabs mr) br) > 32 * U * (Rabs (Qt (Rabs mr) br) + IZR bt) /\
    Rlt_bool (z + Qt (Rabs mr) br) 0 = Rlt_bool y 0).
  { intros z Ez. assert (Ey : y = (z + Qt (Rabs mr) br) * Rabs mr) by (rewrite <- Ez; unfold Qt; field; lra). split.
    - rewrite HQ. apply Rlt_gt. apply (Rmult_lt_reg_r (Rabs mr)); [exact Hp|]. apply Rgt_lt in Hy. rewrite Ey, Rabs_mult, Rabs_Rabsolu in Hy.
      eapply Rle_lt_trans; [|exact Hy]. apply Req_le. field. lra.
    - apply Rlt_bool_iff. rewrite Ey. split; intros H.
      + destruct (Rlt_bool_spec (z + Qt (Rabs mr) br) 0) as [L|L]; [|discriminate]. rewrite <- (Rmult_0_l (Rabs mr)). apply Rmult_lt_compat_r; assumption.
      + apply Rlt_bool_true. apply (Rmult_lt_reg_r (Rabs mr)); [exact Hp|]. rewrite Rmult_0_l. exact H. }
  destruct (Rlt_bool_spec 0 mr) as [L|L].
  - rewrite Rlt_bool_false by lra. unfold signed_x.
    destruct (Mk (IZR (act_spec a (bt - 2 * x)))) as [M1 M2]; [rewrite (Rabs_pos_eq mr) by lra; unfold y; ring|].
    rewrite <- M2. rewrite C6, <- cl_Z in M1 |- *.
    refine (thr_tail_ok bt cmin cmax x (SFabs m) b (Rabs mr) br Hbt C1 C2 C5 Hx Ram Rb Hm1 Hm2 HB M1 _ _ _ _); apply rep_ofZ24; assumption.
  - assert (L' : mr < 0) by lra. rewrite Rlt_bool_true by exact L'. unfold signed_x.
    destruct (Mk (IZR (- act_spec a (bt - 2 * x)))) as [M1 M2]; [rewrite (Rabs_left mr) by exact L'; rewrite opp_IZR; unfold y; ring|].
    assert (C6' : (- act_spec a (bt - 2 * x) = Z.max (- cmax) (Z.min (- cmin) (bt - 2 * (bt - x))))%Z) by (rewrite C6; lia).
    rewrite <- M2. rewrite C6', <- cl_Z in M1 |- *.
    assert (Neg : forall n, (Z.abs n < 2 ^ 24)%Z -> rep24 (SFmul 24 128 (sf_ofZ 24 128 (-1)) (sf_ofZ 24 128 n)) (IZR (- n))).
    { intros n Hnn. assert (E : rn (IZR (-1) * IZR n) = IZR (- n)).
      { rewrite <- mult_IZR. replace (-1 * n)%Z with (- n)%Z by lia. apply rnd_id. apply format_Z; lia. }
      rewrite <- E. apply (rep_mul 24 128 p24 e128); [apply rep_ofZ24; lia|apply rep_ofZ24; exact Hnn|].
      rewrite E. eapply Rlt_trans; [apply (Z_abs_lt_IZR _ 24); lia|]. apply bpow_lt. lia. }
    refine (thr_tail_ok bt (- cmax) (- cmin) (bt - x) (SFabs m) b (Rabs mr) br Hbt _ _ _ _ Ram Rb Hm1 Hm2 HB M1 _ _ _ _);
      [lia|lia|lia|lia|apply Neg; assumption|apply Neg; assumption].
Qed.

(** ** The runtime *)
Lemma near_abs a b k : Rabs (a - b) <= k -> Rabs a <= Rabs b + k.
Proof. intros H. replace a with (b + (a - b)) by ring. eapply Rle_trans; [apply Rabs_triang|]. lra. Qed.
Lemma rn_near a b k d : Rabs b <= k -> Rabs (a - b) <= d -> Rabs (rn a - b) <= d + U * (k + d) + eta.
Proof.
  intros Hk Hd. replace (rn a - b) with ((rn a - a) + (a - b)) by ring. eapply Rle_trans; [apply Rabs_triang|].
  assert (E := rn_err a). assert (N := near_abs _ _ _ Hd). assert (0 < U) by apply bpow_gt_0.
  assert (U * Rabs a <= U * (k + d)) by (apply Rmult_le_compat_l; lra). lra.
Qed.
Lemma rd_near a b k d : Rabs b <= k -> Rabs (a - b) <= d -> Rabs (rd53 a - b) <= d + U / 1000 * (k + d) + eta / 1000.
Proof.
  intros Hk Hd. replace (rd53 a - b) with ((rd53 a - a) + (a - b)) by ring. eapply Rle_trans; [apply Rabs_triang|].
  assert (E := d_err a). assert (N := near_abs _ _ _ Hd). assert (0 < U) by apply bpow_gt_0.
  assert (U / 1000 * Rabs a <= U / 1000 * (k + d)) by (apply Rmult_le_compat_l; lra). lra.
Qed.
Section RunR.
  Variables (T M B X : R).
  Hypothesis HT : 1 <= T.
  Hypothesis HM : bpow radix2 (-126) <= Rabs M.
  Hypothesis HX : 0 <= X <= 2 * T.
  Definition g1 : R := rd53 (-1 * M).
  Definition g2 : R := rd53 (g1 / 1).
  Definition mm : R := rn g2.
  Definition q1 : R := rd53 (T * M).
  Definition q2 : R := rd53 (B + q1).
  Definition q3 : R := rd53 (q2 / 1).
  Definition q4 : R := rd53 (q3 + 0).
  Definition bb : R := rn q4.
  Definition ww : R := rn (X * mm).
  Definition yy : R := rn (ww + bb).
  Let A := Rabs M.
  Let TA := T * Rabs M.
  Let W := Rabs B + TA.
  Lemma A_facts : 0 < A /\ A <= TA /\ eta <= U * A /\ 0 < eta /\ TA <= W.
  Proof.
    assert (0 < A) by (eapply Rlt_le_trans; [apply bpow_gt_0|exact HM]). repeat split; [assumption| |apply eta_M; exact HM|apply eta_U|].
    - unfold TA. fold A. rewrite <- (Rmult_1_l A) at 1. apply Rmult_le_compat_r; lra.
    - unfold W. assert (0 <= Rabs B) by apply Rabs_pos. lra.
  Qed.
  Lemma g1_near : Rabs (g1 - - M) <= 0.003 * (U * A).
  Proof.
    destruct A_facts as (F1 & F2 & F3 & F4 & F5). assert (H : Rabs (-1 * M - - M) <= 0) by (replace (-1 * M - - M) with 0 by ring; rewrite Rabs_R0; lra).
    assert (K : Rabs (- M) <= A) by (rewrite Rabs_Ropp; apply Rle_refl). assert (N := rd_near _ _ _ _ K H). fold g1 in N. rewrite U_val in *. lra.
  Qed.
  Lemma g2_near : Rabs (g2 - - M) <= 0.006 * (U * A).
  Proof.
    destruct A_facts as (F1 & F2 & F3 & F4 & F5). assert (H := g1_near). assert (K : Rabs (- M) <= A) by (rewrite Rabs_Ropp; apply Rle_refl).
    replace g1 with (g1 / 1) in H by field. assert (N := rd_near _ _ _ _ K H). fold g2 in N. rewrite U_val in *. lra.
  Qed.
  Lemma mm_near : Rabs (mm - - M) <= 2.01 * (U * A).
  Proof.
    destruct A_facts as (F1 & F2 & F3 & F4 & F5). assert (H := g2_near). assert (K : Rabs (- M) <= A) by (rewrite Rabs_Ropp; apply Rle_refl).
    assert (N := rn_near _ _ _ _ K H). fold mm in N. rewrite U_val in *. lra.
  Qed.
  Lemma TM_abs : Rabs (T * M) = TA.
  Proof. rewrite Rabs_mult, (Rabs_pos_eq T) by lra. reflexivity. Qed.
  Lemma q1_near : Rabs (q1 - T * M) <= 0.003 * (U * TA).
  Proof.
    destruct A_facts as (F1 & F2 & F3 & F4 & F5). assert (H : Rabs (T * M - T * M) <= 0) by (replace (T * M - T * M) with 0 by ring; rewrite Rabs_R0; lra).
    assert (K : Rabs (T * M) <= TA) by (rewrite TM_abs; apply Rle_refl). assert (N := rd_near _ _ _ _ K H). fold q1 in N. rewrite U_val in *. lra.
  Qed.
  Lemma BTM_abs : Rabs (B + T * M) <= W.
  Proof. eapply Rle_trans; [apply Rabs_triang|]. rewrite TM_abs. apply Rle_refl. Qed.
  Lemma q2_near : Rabs (q2 - (B + T * M)) <= 0.006 * (U * W).
  Proof.
    destruct A_facts as (F1 & F2 & F3 & F4 & F5). assert (H := q1_near). replace (q1 - T * M) with (B + q1 - (B + T * M)) in H by ring.
    assert (N := rd_near _ _ _ _ BTM_abs H). fold q2 in N. rewrite U_val in *. lra.
  Qed.
  Lemma q3_near : Rabs (q3 - (B + T * M)) <= 0.009 * (U * W).
  Proof.
    destruct A_facts as (F1 & F2 & F3 & F4 & F5). assert (H := q2_near). replace q2 with (q2 / 1) in H by field.
    assert (N := rd_near _ _ _ _ BTM_abs H). fold q3 in N. rewrite U_val in *. lra.
  Qed.
  Lemma q4_near : Rabs (q4 - (B + T * M)) <= 0.012 * (U * W).
  Proof.
    destruct A_facts as (F1 & F2 & F3 & F4 & F5). assert (H := q3_near). replace q3 with (q3 + 0) in H by ring.
    assert (N := rd_near _ _ _ _ BTM_abs H). fold q4 in N. rewrite U_val in *. lra.
  Qed.
  Lemma bb_near : Rabs (bb - (B + T * M)) <= 2.02 * (U * W).
  Proof.
    destruct A_facts as (F1 & F2 & F3 & F4 & F5). assert (H := q4_near).
    assert (N := rn_near _ _ _ _ BTM_abs H). fold bb in N. rewrite U_val in *. lra.
  Qed.
  Lemma Xm_near : Rabs (X * mm - - (X * M)) <= 4.02 * (U * TA).
  Proof.
    replace (X * mm - - (X * M)) with (X * (mm - - M)) by ring. rewrite Rabs_mult, (Rabs_pos_eq X) by lra.
    destruct A_facts as (F1 & F2 & F3 & F4 & F5).
    replace (4.02 * (U * TA)) with (2 * T * (2.01 * (U * A))) by (unfold TA, A; generalize (Rabs M); intros; lra).
    apply Rmult_le_compat; [lra|apply Rabs_pos|lra|apply mm_near].
  Qed.
  Lemma XM_abs : Rabs (- (X * M)) <= 2 * TA.
  Proof. rewrite Rabs_Ropp, Rabs_mult, (Rabs_pos_eq X) by lra. unfold TA. rewrite <- Rmult_assoc. apply Rmult_le_compat_r; [apply Rabs_pos|lra]. Qed.
  Lemma ww_near : Rabs (ww - - (X * M)) <= 7.1 * (U * TA).
  Proof.
    destruct A_facts as (F1 & F2 & F3 & F4 & F5). assert (N := rn_near _ _ _ _ XM_abs Xm_near). fold ww in N. rewrite U_val in *. lra.
  Qed.
  Definition yq : R := M * (T - X) + B.
  Lemma sum_near : Rabs (ww + bb - yq) <= 9.2 * (U * W).
  Proof.
    destruct A_facts as (F1 & F2 & F3 & F4 & F5). replace (ww + bb - yq) with ((ww - - (X * M)) + (bb - (B + T * M))) by (unfold yq; ring).
    eapply Rle_trans; [apply Rabs_triang|]. assert (N1 := ww_near). assert (N2 := bb_near). rewrite U_val in *. lra.
  Qed.
  Lemma yy_sign : Rabs yq > 32 * U * W -> Rlt_bool yy 0 = Rlt_bool yq 0.
  Proof.
    intros H. destruct A_facts as (F1 & F2 & F3 & F4 & F5). assert (N := sum_near). apply Rabs_le_inv in N.
    assert (E := rn_err (ww + bb)). fold yy in E. apply Rabs_le_inv in E. unfold Rabs in H. destruct (Rcase_abs yq) as [L|L].
    - rewrite (Rlt_bool_true yq) by lra. apply Rlt_bool_true. rewrite Rabs_left in E by (rewrite U_val in *; lra). rewrite U_val in *. lra.
    - rewrite (Rlt_bool_false yq) by lra. apply Rlt_bool_false. rewrite Rabs_pos_eq in E by (rewrite U_val in *; lra). rewrite U_val in *. lra.
  Qed.
End RunR.

Lemma rd_small126 a k : Rabs a <= k -> k <= bpow radix2 126 -> Rabs (rd53 a) < bpow radix2 1024.
Proof. intros H Hk. apply rd_small. eapply Rle_trans; [exact H|]. eapply Rle_trans; [exact Hk|]. apply bpow_le. lia. Qed.
Lemma div1_rep x r : rep53 x r -> Rabs r <= bpow radix2 126 -> rep53 (SFdiv 53 1024 x (sf_ofZ 53 1024 1)) (rd53 (r / 1)).
Proof.
  intros H Hr. apply (rep_div 53 1024 p53 e1024); [exact H|apply rep_ofZ53; lia|lra|].
  apply (rd_small126 _ (bpow radix2 126)); [replace (r / 1) with r by field; exact Hr|apply Rle_refl].
Qed.
Lemma add0_rep x r : rep53 x r -> Rabs r <= bpow radix2 126 -> rep53 (SFadd 53 1024 x (sf_ofZ 53 1024 0)) (rd53 (r + 0)).
Proof.
  intros H Hr. apply (rep_add 53 1024 p53 e1024); [exact H|apply rep_ofZ53; lia|].
  apply (rd_small126 _ (bpow radix2 126)); [rewrite Rplus_0_r; exact Hr|apply Rle_refl].
Qed.
Section RunF.
  Variables (bt X : Z) (m b : spec_float) (M B : R).
  Hypothesis Hbt : (1 <= bt <= 2 ^ 22)%Z.
  Hypothesis HX : (0 <= X <= 2 * bt)%Z.
  Hypothesis Rm : rep24 m M.
  Hypothesis Rb : rep24 b B.
  Hypothesis HM : bpow radix2 (-126) <= Rabs M.
  Hypothesis HM2 : Rabs M <= bpow radix2 100.
  Hypothesis HB : Rabs B <= bpow radix2 100.
  Notation T := (IZR bt).
  Lemma rT1 : 1 <= T.
  Proof. apply (IZR_le 1). lia. Qed.
  Lemma rX : 0 <= IZR X <= 2 * T.
  Proof. rewrite <- (mult_IZR 2). split; apply IZR_le; lia. Qed.
  Lemma TA_small : T * Rabs M <= bpow radix2 122.
  Proof.
    apply (Rle_trans _ (bpow radix2 22 * bpow radix2 100)); [|rewrite <- bpow_plus; apply Rle_refl].
    apply Rmult_le_compat; [assert (G := rT1); lra|apply Rabs_pos| |exact HM2].
    replace (bpow radix2 22) with (IZR (2 ^ 22)) by reflexivity. apply IZR_le. lia.
  Qed.
  Lemma pows : 2 * bpow radix2 100 <= bpow radix2 122 /\ bpow radix2 126 = 16 * bpow radix2 122 /\ 1 <= bpow radix2 122.
  Proof.
    split; [change 2 with (bpow radix2 1); rewrite <- bpow_plus; apply bpow_le; lia|]. split.
    - change 126%Z with (4 + 122)%Z. rewrite bpow_plus. f_equal.
    - change 1 with (bpow radix2 0). apply bpow_le. lia.
  Qed.
  Lemma M_ne : M <> 0.
  Proof. intros E. rewrite E, Rabs_R0 in HM. assert (G := bpow_gt_0 radix2 (-126)). lra. Qed.
  Lemma near_small a c k : Rabs (a - c) <= k -> Rabs c + k <= bpow radix2 126 -> Rabs a <= bpow radix2 126.
  Proof. intros H K. apply near_abs in H. lra. Qed.
  Ltac sm := let A1 := fresh in let A2 := fresh in let A3 := fresh in
    assert (A1 := pows); assert (A2 := TA_small); assert (A3 := rT1); assert (A4 := A_facts T M B rT1 HM); rewrite U_val in *.
  Lemma m_rep : rep24 (sf_round32 (SFdiv 53 1024 (SFmul 53 1024 (sf_ofZ 53 1024 (-1)) m) (sf_ofZ 53 1024 1))) (mm M).
  Proof.
    assert (R1 : rep53 (SFmul 53 1024 (sf_ofZ 53 1024 (-1)) m) (g1 M)).
    { apply (rep_mul_any 53 1024 p53 e1024); [apply rep_ofZ53; lia| |apply (rep_val 24 128); exact Rm|exact M_ne|].
      - replace (Rabs (IZR (-1))) with 1 by (rewrite Rabs_left; lra). change 1 with (bpow radix2 0). apply bpow_le. lia.
      - apply (rd_small126 _ (Rabs M)); [replace (-1 * M) with (- M) by ring; rewrite Rabs_Ropp; apply Rle_refl|]. sm. lra. }
    assert (N1 := g1_near 1 M B (Rle_refl 1) HM). assert (N2 := g2_near 1 M B (Rle_refl 1) HM).
    apply round32_rep.
    - apply div1_rep; [exact R1|]. eapply near_small; [exact N1|]. rewrite Rabs_Ropp. sm. lra.
    - eapply near_small; [exact N2|]. rewrite Rabs_Ropp. sm. lra.
  Qed.
  Lemma b_rep : rep24 (sf_round32 (SFadd 53 1024
     (SFdiv 53 1024 (SFadd 53 1024 b (SFmul 53 1024 (sf_ofZ 53 1024 bt) m)) (sf_ofZ 53 1024 1)) (sf_ofZ 53 1024 0))) (bb T M B).
  Proof.
    assert (N1 := q1_near T M B rT1 HM). assert (N2 := q2_near T M B rT1 HM). assert (N3 := q3_near T M B rT1 HM). assert (N4 := q4_near T M B rT1 HM).
    assert (TMa := TM_abs T M rT1). assert (BT := BTM_abs T M B rT1).
    assert (R1 : rep53 (SFmul 53 1024 (sf_ofZ 53 1024 bt) m) (q1 T M)).
    { apply (rep_mul_any 53 1024 p53 e1024); [apply rep_ofZ53; lia| |apply (rep_val 24 128); exact Rm|exact M_ne|].
      - apply (Rle_trans _ 1); [change 1 with (bpow radix2 0); apply bpow_le; lia|]. eapply Rle_trans; [apply rT1|apply Rle_abs].
      - apply (rd_small126 _ (T * Rabs M)); [rewrite TMa; apply Rle_refl|]. sm. lra. }
    assert (R2 : rep53 (SFadd 53 1024 b (SFmul 53 1024 (sf_ofZ 53 1024 bt) m)) (q2 T M B)).
    { assert (Hq1 : q1 T M <> 0).
      { intros E. rewrite E in N1. replace (0 - T * M) with (- (T * M)) in N1 by ring. rewrite Rabs_Ropp, TMa in N1. sm. lra. }
      destruct (Req_dec B 0) as [E0|N0].
      - assert (Hb : exists s, b = S754_zero s).
        { destruct Rb as (X' & <- & Fx & Ex). rewrite E0 in Ex. destruct X' as [s|s| |s mx ex Bx]; try discriminate; [exists s; reflexivity|].
          exfalso. simpl in Ex. apply eq_0_F2R in Ex. destruct s; discriminate. }
        destruct Hb as [s ->]. unfold q2. rewrite E0, Rplus_0_l. rewrite (rnd_id 53 1024) by exact (rep_format _ _ _ _ R1).
        destruct R1 as (X' & E' & Fx & Ex). rewrite <- E'. exists X'. split; [|split; assumption].
        destruct X' as [s'|s'| |s' mx ex Bx]; try discriminate; [|reflexivity]. simpl in Ex. exfalso. apply Hq1. symmetry. exact Ex.
      - apply (rep_add_any 53 1024 p53 e1024); [apply (rep_val 24 128); exact Rb|apply (rep_val 53 1024); exact R1|exact N0|exact Hq1|].
        apply (rd_small126 _ (bpow radix2 126)); [|apply Rle_refl]. replace (q1 T M - T * M) with (B + q1 T M - (B + T * M)) in N1 by ring.
        eapply near_small; [exact N1|]. sm. lra. }
    apply round32_rep.
    - apply add0_rep.
      + apply div1_rep; [exact R2|]. eapply near_small; [exact N2|]. sm. lra.
      + eapply near_small; [exact N3|]. sm. lra.
    - eapply near_small; [exact N4|]. sm. lra.
  Qed.
  Lemma y_rep : rep24 (SFadd 24 128 (SFmul 24 128 (sf_ofZ 24 128 X) (fst (setup32 bt m b))) (snd (setup32 bt m b))) (yy T M B (IZR X)).
  Proof.
    unfold setup32. cbn [fst snd]. assert (Bt := bb_near T M B rT1 HM). assert (Xn := Xm_near T M B (IZR X) rT1 HM rX). assert (Wn := ww_near T M B (IZR X) rT1 HM rX).
    assert (BT := BTM_abs T M B rT1). assert (XA := XM_abs T M (IZR X) rX).
    apply (rep_add 24 128 p24 e128).
    - apply (rep_mul 24 128 p24 e128); [apply rep_ofZ24; lia|apply m_rep|]. apply rn_small. eapply near_small; [exact Xn|]. sm. lra.
    - apply b_rep.
    - apply rn_small. assert (Sn := sum_near T M B (IZR X) rT1 HM rX). eapply near_small; [exact Sn|].
      apply near_abs in Bt. unfold yq. replace (M * (T - IZR X) + B) with ((B + T * M) + - (IZR X * M)) by ring.
      assert (Tr := Rabs_triang (B + T * M) (- (IZR X * M))). sm. lra.
  Qed.
End RunF.
Lemma runtime_margin a bt x m b mr br : (1 <= bt <= 2 ^ 22)%Z -> (0 <= x <= bt)%Z -> rep24 m mr -> rep24 b br ->
  bpow radix2 (-126) <= Rabs mr <= bpow radix2 100 -> Rabs br <= bpow radix2 100 ->
  let y := mr * IZR (act_spec a (bt - 2 * x)) + br in
  Rabs y > 32 * U * (Rabs br + IZR bt * Rabs mr) ->
  exists yr, runtime32 a bt m b x = Some yr /\ SFltb yr (S754_zero false) = Rlt_bool y 0.
Proof.
  intros Hbt Hx Rm Rb [Hm1 Hm2] HB y Hy.
  set (X := Z.max (Z.min (Z.shiftl x 1) (-1 * Z.max (fst (activation_range a)) (-1 * bt) + bt)) (-1 * Z.min (snd (activation_range a)) bt + bt)).
  assert (EX : (X = bt - act_spec a (bt - 2 * x))%Z).
  { rewrite <- (clamp_act a bt (bt - 2 * x)) by lia. unfold X. rewrite Z.shiftl_mul_pow2 by lia.
    replace (bt - (bt - 2 * x))%Z with (x * 2 ^ 1)%Z by lia. lia. }
  assert (HX : (0 <= X <= 2 * bt)%Z) by (rewrite EX; clear - Hbt Hx; destruct a; cbn [act_spec]; lia).
  assert (Y := y_rep bt X m b mr br Hbt HX Rm Rb Hm1 Hm2 HB).
  unfold runtime32. destruct (setup32 bt m b) as [m' b']. cbn [fst snd] in Y. rewrite (surjective_pairing (activation_range a)).
  unfold run_float. cbn [ot_min ot_max ot_mult ot_bias f_ofZ f_mul f_add F32ops]. fold X.
  change (rd [m'] 0) with (Some m'). change (rd [b'] 0) with (Some b'). cbn [bind]. eexists. split; [reflexivity|].
  rewrite (rep_ltb _ _ _ _ _ _ Y (rep_zero 24 128 false)).
  assert (Eq : yq (IZR bt) mr br (IZR X) = y) by (unfold yq, y; rewrite EX, minus_IZR; ring).
  rewrite <- Eq in Hy |- *. apply yy_sign; [apply rT1; exact Hbt|exact Hm1|apply rX; exact HX|exact Hy].
Qed.
