(** * How far the binary32 outputs of the convolution are from exact arithmetic.
    bconv2d.cc OneTimeSetup in binary64 and output_transform.h in binary32. *)
From Coq Require Import ZArith Reals Psatz Lia SpecFloat QArith Qround Qreals Qabs.
From Flocq Require Import Core BinarySingleNaN.
From Verif Require Import Base Spec Bits Bitpack Float32 Reference OutputTransform Quantize RefTheorems Threshold ThresholdFloat FlocqBridge ThresholdMargin ThresholdConv FloatSetup.
#[local] Existing Instance p24.
#[local] Existing Instance p53.
#[local] Existing Instance e128.
#[local] Existing Instance e1024.

(** ** Real analysis *)
Open Scope R_scope.
Definition e2 : R := bpow radix2 (-1075).
Lemma rd_near2 a b k d : Rabs b <= k -> Rabs (a - b) <= d -> Rabs (rd53 a - b) <= d + U / 1000 * (k + d) + e2.
Proof.
  intros Hk Hd. replace (rd53 a - b) with ((rd53 a - a) + (a - b)) by ring. eapply Rle_trans; [apply Rabs_triang|].
  assert (E := rd_err a). assert (N := near_abs _ _ _ Hd). assert (0 < U) by apply bpow_gt_0.
  assert (H1 : bpow radix2 (-53) * Rabs a <= U / 1000 * (k + d)).
  { apply Rmult_le_compat; [apply bpow_ge_0|apply Rabs_pos| |lra]. replace (-53)%Z with (-24 + -29)%Z by lia. rewrite bpow_plus. fold U.
    assert (bpow radix2 (-29) <= / 1000) by (simpl; lra). unfold Rdiv. apply Rmult_le_compat_l; lra. }
  unfold e2. lra.
Qed.
Lemma div_near a b S d : 0 < S -> Rabs (a - b) <= d -> Rabs (a / S - b / S) <= d / S.
Proof.
  intros HS H. replace (a / S - b / S) with ((a - b) * / S) by (field; lra). rewrite Rabs_mult, (Rabs_pos_eq (/ S)).
  - apply Rmult_le_compat_r; [|exact H]. left. now apply Rinv_0_lt_compat.
  - left. now apply Rinv_0_lt_compat.
Qed.
Section Acc.
  Variables (T M B S Z X : R).
  Hypothesis HT : 0 <= T <= bpow radix2 22.
  Hypothesis HS : bpow radix2 (-126) <= S.
  Hypothesis HX : 0 <= X <= 2 * T.
  Definition a1 : R := rd53 (-1 * M).
  Definition a2 : R := rd53 (a1 / S).
  Definition am' : R := rn a2.
  Definition c1 : R := rd53 (T * M).
  Definition c2 : R := rd53 (B + c1).
  Definition c3 : R := rd53 (c2 / S).
  Definition c4 : R := rd53 (c3 + Z).
  Definition ab' : R := rn c4.
  Definition aw : R := rn (X * am').
  Definition ay : R := rn (aw + ab').
  Let m := M / S.
  Let A := Rabs M / S.
  Let TA := T * (Rabs M / S).
  Let w := (Rabs B + T * Rabs M) / S.
  Let W := w + Rabs Z.
  Let tau := bpow radix2 22 * eta.
  Lemma S_pos : 0 < S.
  Proof. eapply Rlt_le_trans; [apply bpow_gt_0|exact HS]. Qed.
  Lemma abs_div r : Rabs (r / S) = Rabs r / S.
  Proof. unfold Rdiv. rewrite Rabs_mult. f_equal. apply Rabs_pos_eq. left. apply Rinv_0_lt_compat, S_pos. Qed.
  Lemma acc_facts : 0 <= A /\ 0 <= TA <= w /\ w <= W /\ 0 < eta /\ 1000 * eta <= tau /\ 0 <= e2 / S <= eta / 1000.
  Proof.
    assert (P := S_pos). assert (I := Rinv_0_lt_compat _ P). assert (0 <= Rabs M) by apply Rabs_pos. assert (0 <= Rabs B) by apply Rabs_pos.
    assert (HA : 0 <= A) by (apply Rmult_le_pos; lra). assert (0 < eta) by apply bpow_gt_0.
    split; [assumption|]. split.
    { split; [apply Rmult_le_pos; [lra|exact HA]|]. unfold TA, w. replace (T * (Rabs M / S)) with (T * Rabs M / S) by (field; lra).
      unfold Rdiv. apply Rmult_le_compat_r; lra. }
    split; [unfold W; assert (0 <= Rabs Z) by apply Rabs_pos; lra|]. split; [assumption|]. split.
    { unfold tau. apply Rmult_le_compat_r; [lra|]. simpl. lra. }
    split; [apply Rmult_le_pos; [apply bpow_ge_0|lra]|]. apply (Rle_trans _ (e2 * bpow radix2 126)).
    - apply Rmult_le_compat_l; [apply bpow_ge_0|]. change 126%Z with (- -126)%Z. rewrite bpow_opp. apply Rinv_le; [apply bpow_gt_0|exact HS].
    - unfold e2, eta, Rdiv. rewrite <- bpow_plus. apply (Rle_trans _ (bpow radix2 (-150) * bpow radix2 (-10))).
      + rewrite <- bpow_plus. apply bpow_le. lia.
      + apply Rmult_le_compat_l; [apply bpow_ge_0|]. simpl. lra.
  Qed.
  Ltac facts := destruct acc_facts as (F1 & [F2 F2'] & F3 & F4 & F5 & [F6 F6']); assert (P := S_pos).
  Lemma a1_near : Rabs (a1 / S - - m) <= U / 1000 * A + eta / 1000.
  Proof.
    facts. assert (H : Rabs (-1 * M - - M) <= 0) by (replace (-1 * M - - M) with 0 by ring; rewrite Rabs_R0; lra).
    assert (K : Rabs (- M) <= Rabs M) by (rewrite Rabs_Ropp; apply Rle_refl). assert (N := rd_near2 _ _ _ _ K H). fold a1 in N.
    assert (D := div_near _ _ S _ P N). replace (- M / S) with (- m) in D by (unfold m; field; lra).
    eapply Rle_trans; [exact D|]. unfold A. replace ((0 + U / 1000 * (Rabs M + 0) + e2) / S) with (U / 1000 * (Rabs M / S) + e2 / S) by (field; lra). lra.
  Qed.
  Lemma m_A : Rabs (- m) <= A.
  Proof. rewrite Rabs_Ropp. unfold m. rewrite abs_div. apply Rle_refl. Qed.
  Lemma a2_near : Rabs (a2 - - m) <= 0.003 * (U * A) + 0.003 * eta.
  Proof. facts. assert (N := rd_near _ _ _ _ m_A a1_near). fold a2 in N. rewrite U_val in *. lra. Qed.
  Lemma am_near : Rabs (am' - - m) <= 1.01 * (U * A) + 1.01 * eta.
  Proof. facts. assert (N := rn_near _ _ _ _ m_A a2_near). fold am' in N. rewrite U_val in *. lra. Qed.
  Lemma c2_near : Rabs (c2 / S - (B + T * M) / S) <= 0.0021 * (U * w) + 0.0021 * eta.
  Proof.
    facts. assert (HTM : Rabs (T * M) = T * Rabs M) by (rewrite Rabs_mult, (Rabs_pos_eq T) by lra; reflexivity).
    assert (H : Rabs (T * M - T * M) <= 0) by (replace (T * M - T * M) with 0 by ring; rewrite Rabs_R0; lra).
    assert (N := rd_near2 _ _ _ _ (Req_le _ _ HTM) H). fold c1 in N.
    replace (c1 - T * M) with (B + c1 - (B + T * M)) in N by ring.
    assert (K : Rabs (B + T * M) <= Rabs B + T * Rabs M) by (rewrite <- HTM; apply Rabs_triang).
    assert (N2 := rd_near2 _ _ _ _ K N). fold c2 in N2. assert (D := div_near _ _ S _ P N2). eapply Rle_trans; [exact D|].
    assert (Hw : (0 + U / 1000 * (T * Rabs M + 0) + e2 + U / 1000 * (Rabs B + T * Rabs M + (0 + U / 1000 * (T * Rabs M + 0) + e2)) + e2) / S =
      U / 1000 * TA + 2 * (e2 / S) + U / 1000 * (w + U / 1000 * TA + e2 / S)) by (unfold TA, w; field; lra).
    rewrite Hw. rewrite U_val in *. lra.
  Qed.
  Lemma w_abs : Rabs ((B + T * M) / S) <= w.
  Proof.
    assert (P := S_pos). rewrite abs_div. unfold w, Rdiv. apply Rmult_le_compat_r; [left; now apply Rinv_0_lt_compat|].
    eapply Rle_trans; [apply Rabs_triang|]. rewrite Rabs_mult, (Rabs_pos_eq T) by lra. apply Rle_refl.
  Qed.
  Lemma c3_near : Rabs (c3 - (B + T * M) / S) <= 0.004 * (U * w) + 0.004 * eta.
  Proof. facts. assert (N := rd_near _ _ _ _ w_abs c2_near). fold c3 in N. rewrite U_val in *. lra. Qed.
  Lemma W_abs : Rabs ((B + T * M) / S + Z) <= W.
  Proof. eapply Rle_trans; [apply Rabs_triang|]. assert (H := w_abs). unfold W. lra. Qed.
  Lemma c4_near : Rabs (c4 - ((B + T * M) / S + Z)) <= 0.006 * (U * W) + 0.006 * eta.
  Proof.
    facts. assert (H := c3_near). replace (c3 - (B + T * M) / S) with (c3 + Z - ((B + T * M) / S + Z)) in H by ring.
    assert (N := rd_near _ _ _ _ W_abs H). fold c4 in N. rewrite U_val in *. lra.
  Qed.
  Lemma ab_near : Rabs (ab' - ((B + T * M) / S + Z)) <= 1.01 * (U * W) + 1.01 * eta.
  Proof. facts. assert (N := rn_near _ _ _ _ W_abs c4_near). fold ab' in N. rewrite U_val in *. lra. Qed.
  Lemma aXm_near : Rabs (X * am' - - (X * m)) <= 2.02 * (U * TA) + 2.02 * tau.
  Proof.
    facts. replace (X * am' - - (X * m)) with (X * (am' - - m)) by ring. rewrite Rabs_mult, (Rabs_pos_eq X) by lra.
    apply (Rle_trans _ (2 * T * (1.01 * (U * A) + 1.01 * eta))); [apply Rmult_le_compat; [lra|apply Rabs_pos|lra|apply am_near]|].
    assert (T * eta <= tau) by (unfold tau; apply Rmult_le_compat_r; lra).
    replace (2 * T * (1.01 * (U * A) + 1.01 * eta)) with (2.02 * (U * TA) + 2.02 * (T * eta)) by (unfold TA; fold A; generalize A; intros; lra). lra.
  Qed.
  Lemma aXM_abs : Rabs (- (X * m)) <= 2 * TA.
  Proof.
    facts. rewrite Rabs_Ropp, Rabs_mult, (Rabs_pos_eq X) by lra. unfold m. rewrite abs_div. fold A. unfold TA. fold A.
    rewrite <- Rmult_assoc. apply Rmult_le_compat_r; lra.
  Qed.
  Lemma aw_near : Rabs (aw - - (X * m)) <= 4.1 * (U * TA) + 2.1 * tau.
  Proof. facts. assert (N := rn_near _ _ _ _ aXM_abs aXm_near). fold aw in N. rewrite U_val in *. lra. Qed.
  Definition yexact : R := (M * (T - X) + B) / S + Z.
  Lemma asum_near : Rabs (aw + ab' - yexact) <= 5.2 * (U * W) + 2.2 * tau.
  Proof.
    facts. replace (aw + ab' - yexact) with ((aw - - (X * m)) + (ab' - ((B + T * M) / S + Z))) by (unfold yexact, m; field; lra).
    eapply Rle_trans; [apply Rabs_triang|]. assert (N1 := aw_near). assert (N2 := ab_near). rewrite U_val in *. lra.
  Qed.
  Lemma y_abs : Rabs yexact <= W.
  Proof.
    assert (P := S_pos). unfold yexact. eapply Rle_trans; [apply Rabs_triang|]. rewrite abs_div. unfold W, w, Rdiv. apply Rplus_le_compat_r.
    apply Rmult_le_compat_r; [left; now apply Rinv_0_lt_compat|]. eapply Rle_trans; [apply Rabs_triang|].
    rewrite Rabs_mult. assert (Rabs (T - X) <= T) by (apply Rabs_le; lra). assert (0 <= Rabs M) by apply Rabs_pos.
    assert (Rabs M * Rabs (T - X) <= T * Rabs M) by (rewrite (Rmult_comm T); apply Rmult_le_compat_l; assumption). lra.
  Qed.
  Lemma ay_near : Rabs (ay - yexact) <= 8 * (U * W) + 8 * tau.
  Proof. facts. assert (N := rn_near _ _ _ _ y_abs asum_near). fold ay in N. rewrite U_val in *. lra. Qed.
End Acc.

(** ** On data *)
Lemma rd_fits a k : Rabs a <= bpow radix2 k -> (k <= 900)%Z -> Rabs (rd53 a) < bpow radix2 1024.
Proof.
  intros H Hk. assert (H9 : Rabs a <= bpow radix2 900) by (eapply Rle_trans; [exact H|apply bpow_le; exact Hk]).
  assert (E := d_err a). assert (B := Rabs_triang_inv (rd53 a) a). assert (Hu := U_val). assert (He := eta_U).
  assert (H1 : 1 <= bpow radix2 900) by (change 1 with (bpow radix2 0); apply bpow_le; lia).
  apply (Rlt_le_trans _ (4 * bpow radix2 900)).
  - assert (0 <= Rabs a) by apply Rabs_pos. rewrite Hu in *. lra.
  - replace 4 with (bpow radix2 2) by reflexivity. rewrite <- bpow_plus. apply bpow_le. lia.
Qed.
Lemma format_24_53 r : generic_format radix2 (SpecFloat.fexp 24 128) r -> generic_format radix2 (SpecFloat.fexp 53 1024) r.
Proof.
  intros H. apply (FLT_format_generic radix2 (3 - 128 - 24) 24) in H. destruct H as [f E Hn He].
  apply (generic_format_FLT radix2 (3 - 1024 - 53) 53). apply (FLT_spec radix2 _ _ _ f); [exact E| |lia].
  eapply Z.lt_trans; [exact Hn|]. reflexivity.
Qed.
Lemma widen_rep x r : rep24 x r -> rep53 (widen x) r.
Proof.
  intros R. assert (F := format_24_53 _ (rep_format _ _ _ _ R)). assert (E := rnd_id 53 1024 _ F). destruct R as (X & <- & Fx & Ex).
  destruct X as [s|s| |s m e Be]; try discriminate.
  - simpl in Ex. rewrite <- Ex. simpl. apply rep_zero.
  - cbn [B2SF widen]. assert (E' : SpecFloat.binary_round 53 1024 s m e = SpecFloat.binary_normalize 53 1024 (cond_Zopp s (Zpos m)) e s) by (destruct s; reflexivity).
    rewrite E'. simpl in Ex. rewrite <- E. rewrite <- Ex. apply (rep_normalize 53 1024 p53 e1024). rewrite Ex, E.
    apply (Rlt_trans _ (bpow radix2 128)); [|apply bpow_lt; lia]. rewrite <- Ex. apply (abs_B2R_lt_emax 24 128 (B754_finite s m e Be)).
Qed.
Section Data.
  Variables (bt X zp : Z) (mw bw : Z) (scale : spec_float) (S : R).
  Let M := Q2R (exact32 mw).
  Let B := Q2R (exact32 bw).
  Hypothesis Hbt : (0 <= bt <= 2 ^ 22)%Z.
  Hypothesis HX : (0 <= X <= 2 * bt)%Z.
  Hypothesis Hzp : (Z.abs zp <= 2 ^ 20)%Z.
  Hypothesis Fm : finite32 mw = true.
  Hypothesis Fb : finite32 bw = true.
  Hypothesis Rs : rep53 scale S.
  Hypothesis HS : bpow radix2 (-126) <= S.
  Hypothesis HS2 : S <= bpow radix2 128.
  Hypothesis HM : Rabs M <= bpow radix2 100 * S.
  Hypothesis HB : Rabs B <= bpow radix2 100 * S.
  Notation T := (IZR bt).
  Notation Zr := (IZR zp).
  Lemma hT : 0 <= T <= bpow radix2 22.
  Proof. replace (bpow radix2 22) with (IZR (2 ^ 22)) by reflexivity. split; apply IZR_le; lia. Qed.
  Lemma hX : 0 <= IZR X <= 2 * T.
  Proof. rewrite <- (mult_IZR 2). split; apply IZR_le; lia. Qed.
  Lemma hZ : Rabs Zr <= bpow radix2 20.
  Proof. rewrite <- abs_IZR. replace (bpow radix2 20) with (IZR (2 ^ 20)) by reflexivity. apply IZR_le. exact Hzp. Qed.
  Lemma hA : Rabs M / S <= bpow radix2 100.
  Proof. assert (P := S_pos S HS). apply (Rmult_le_reg_r S); [exact P|]. replace (Rabs M / S * S) with (Rabs M) by (field; lra). exact HM. Qed.
  Lemma hB : Rabs B / S <= bpow radix2 100.
  Proof. assert (P := S_pos S HS). apply (Rmult_le_reg_r S); [exact P|]. replace (Rabs B / S * S) with (Rabs B) by (field; lra). exact HB. Qed.
  Lemma hTA : T * (Rabs M / S) <= bpow radix2 122.
  Proof.
    replace (bpow radix2 122) with (bpow radix2 22 * bpow radix2 100) by (rewrite <- bpow_plus; reflexivity).
    assert (P := S_pos S HS). apply Rmult_le_compat; [apply hT| |apply hT|apply hA].
    apply Rmult_le_pos; [apply Rabs_pos|left; now apply Rinv_0_lt_compat].
  Qed.
  Lemma w_split : (Rabs B + T * Rabs M) / S = Rabs B / S + T * (Rabs M / S).
  Proof. assert (P := S_pos S HS). field. lra. Qed.
  Lemma consts : bpow radix2 100 <= bpow radix2 122 /\ bpow radix2 20 <= bpow radix2 122 /\ bpow radix2 126 = 16 * bpow radix2 122 /\ 1 <= bpow radix2 122 /\ bpow radix2 22 * eta <= 1.
  Proof.
    split; [apply bpow_le; lia|]. split; [apply bpow_le; lia|]. split; [change 126%Z with (4 + 122)%Z; rewrite bpow_plus; f_equal|].
    split; [change 1 with (bpow radix2 0); apply bpow_le; lia|]. unfold eta. rewrite <- bpow_plus. change 1 with (bpow radix2 0). apply bpow_le. lia.
  Qed.
  Lemma M_big : Rabs M <= bpow radix2 228.
  Proof.
    eapply Rle_trans; [exact HM|]. replace (bpow radix2 228) with (bpow radix2 100 * bpow radix2 128) by (rewrite <- bpow_plus; reflexivity).
    apply Rmult_le_compat_l; [apply bpow_ge_0|exact HS2].
  Qed.
  Lemma B_big : Rabs B <= bpow radix2 228.
  Proof.
    eapply Rle_trans; [exact HB|]. replace (bpow radix2 228) with (bpow radix2 100 * bpow radix2 128) by (rewrite <- bpow_plus; reflexivity).
    apply Rmult_le_compat_l; [apply bpow_ge_0|exact HS2].
  Qed.
  Lemma TM_big : Rabs (T * M) <= bpow radix2 250.
  Proof.
    rewrite Rabs_mult, (Rabs_pos_eq T) by apply hT. replace (bpow radix2 250) with (bpow radix2 22 * bpow radix2 228) by (rewrite <- bpow_plus; reflexivity).
    apply Rmult_le_compat; [apply hT|apply Rabs_pos|apply hT|apply M_big].
  Qed.
  Lemma near_big a c k : Rabs (a - c) <= k -> Rabs c + k <= bpow radix2 126 -> Rabs a <= bpow radix2 126.
  Proof. intros H K. apply near_abs in H. lra. Qed.
  Lemma R_m : rep53 (widen (decode32 mw)) M.
  Proof. apply widen_rep. exact (repm mw Fm). Qed.
  Lemma R_b : rep53 (widen (decode32 bw)) B.
  Proof. apply widen_rep. exact (repb bw Fb). Qed.
  Ltac big := destruct consts as (K1 & K2 & K3 & K4 & K5); assert (J1 := hTA); assert (J2 := hA); assert (J3 := hB); assert (J4 := hZ);
    assert (J5 := acc_facts T M B S Zr hT HS); rewrite ?w_split in *; rewrite U_val in *.
  Lemma R_mult : rep24 (fst (setup_channel bt scale (sf_ofZ 53 1024 zp) (widen (decode32 mw)) (widen (decode32 bw)))) (am' M S).
  Proof.
    unfold setup_channel. cbn [fst]. assert (P := S_pos S HS).
    assert (R1 : rep53 (SFmul 53 1024 (sf_ofZ 53 1024 (-1)) (widen (decode32 mw))) (a1 M)).
    { apply (rep_mul 53 1024 p53 e1024); [apply rep_ofZ53; lia|exact R_m|]. apply (rd_fits _ 228); [|lia].
      replace (-1 * M) with (- M) by ring. rewrite Rabs_Ropp. exact M_big. }
    assert (N1 := a1_near T M B S Zr hT HS). assert (N2 := a2_near T M B S Zr hT HS). assert (MA := m_A M S HS).
    apply round32_rep.
    - apply (rep_div 53 1024 p53 e1024); [exact R1|exact Rs|lra|]. apply (rd_fits _ 126); [|lia]. eapply near_big; [exact N1|]. big. lra.
    - eapply near_big; [exact N2|]. big. lra.
  Qed.
  Lemma R_bias : rep24 (snd (setup_channel bt scale (sf_ofZ 53 1024 zp) (widen (decode32 mw)) (widen (decode32 bw)))) (ab' T M B S Zr).
  Proof.
    unfold setup_channel. cbn [snd]. assert (P := S_pos S HS).
    assert (R1 : rep53 (SFmul 53 1024 (sf_ofZ 53 1024 bt) (widen (decode32 mw))) (c1 T M)).
    { apply (rep_mul 53 1024 p53 e1024); [apply rep_ofZ53; lia|exact R_m|]. apply (rd_fits _ 250); [exact TM_big|lia]. }
    assert (C1 : Rabs (c1 T M) <= bpow radix2 251).
    { assert (E := d_err (T * M)). fold (c1 T M) in E. apply near_abs in E. assert (G := TM_big). assert (Hu := U_val). assert (He := eta_U).
      assert (1 <= bpow radix2 250) by (change 1 with (bpow radix2 0); apply bpow_le; lia).
      replace (bpow radix2 251) with (2 * bpow radix2 250) by (change 251%Z with (1 + 250)%Z; rewrite bpow_plus; f_equal). rewrite Hu in *. lra. }
    assert (R2 : rep53 (SFadd 53 1024 (widen (decode32 bw)) (SFmul 53 1024 (sf_ofZ 53 1024 bt) (widen (decode32 mw)))) (c2 T M B)).
    { apply (rep_add 53 1024 p53 e1024); [exact R_b|exact R1|]. apply (rd_fits _ 252); [|lia]. eapply Rle_trans; [apply Rabs_triang|].
      assert (G := B_big). assert (bpow radix2 228 <= bpow radix2 251) by (apply bpow_le; lia).
      replace (bpow radix2 252) with (2 * bpow radix2 251) by (change 252%Z with (1 + 251)%Z; rewrite bpow_plus; f_equal). lra. }
    assert (N2 := c2_near T M B S Zr hT HS). assert (N3 := c3_near T M B S Zr hT HS). assert (N4 := c4_near T M B S Zr hT HS).
    assert (V1 := w_abs T M B S hT HS). assert (V2 := W_abs T M B S Zr hT HS).
    assert (R3 : rep53 (SFdiv 53 1024 (SFadd 53 1024 (widen (decode32 bw)) (SFmul 53 1024 (sf_ofZ 53 1024 bt) (widen (decode32 mw)))) scale) (c3 T M B S)).
    { apply (rep_div 53 1024 p53 e1024); [exact R2|exact Rs|lra|]. apply (rd_fits _ 126); [|lia]. eapply near_big; [exact N2|]. big. lra. }
    replace (c3 T M B S - (B + T * M) / S) with (c3 T M B S + Zr - ((B + T * M) / S + Zr)) in N3 by ring.
    apply round32_rep.
    - apply (rep_add 53 1024 p53 e1024); [exact R3|apply rep_ofZ53; lia|]. apply (rd_fits _ 126); [|lia]. eapply near_big; [exact N3|]. big. lra.
    - eapply near_big; [exact N4|]. big. lra.
  Qed.
  Lemma R_out : rep24 (SFadd 24 128 (SFmul 24 128 (sf_ofZ 24 128 X) (fst (setup_channel bt scale (sf_ofZ 53 1024 zp) (widen (decode32 mw)) (widen (decode32 bw)))))
      (snd (setup_channel bt scale (sf_ofZ 53 1024 zp) (widen (decode32 mw)) (widen (decode32 bw))))) (ay T M B S Zr (IZR X)).
  Proof.
    assert (N1 := aXm_near T M B S Zr (IZR X) hT HS hX). assert (V1 := aXM_abs T M B S Zr (IZR X) hT HS hX).
    assert (N2 := asum_near T M B S Zr (IZR X) hT HS hX). assert (V2 := y_abs T M B S Zr (IZR X) HS hX).
    apply (rep_add 24 128 p24 e128).
    - apply (rep_mul 24 128 p24 e128); [apply rep_ofZ24; lia|apply R_mult|]. apply rn_small. eapply near_big; [exact N1|]. big. lra.
    - apply R_bias.
    - apply rn_small. eapply near_big; [exact N2|]. big. lra.
  Qed.
End Data.
