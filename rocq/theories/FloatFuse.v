(** * TFL_Quantize of a float convolution against the int8 convolution, in IEEE
    arithmetic (C46). *)
From Coq Require Import ZArith Reals Psatz Lia SpecFloat QArith Qabs Qreals.
From Flocq Require Import Core BinarySingleNaN.
From Verif Require Import Base Spec Float32 OutputTransform Quantize Threshold ThresholdFloat FlocqBridge ThresholdMargin ThresholdConv FloatSetup FloatConv
  ConvSign ConvFold FloatDequant RefTheorems.

#[local] Instance r24 : Prec_gt_0 24 := eq_refl.
#[local] Instance r128 : Prec_lt_emax 24 128 := eq_refl.

Section Div.
  Variables (r : spec_float) (w : Z) (y d : Q).
  Hypothesis (Fr : fin24 r) (Fw : finite32 w = true) (Hs : ((1 # 2 ^ 126) <= exact32 w)%Q).
  Hypothesis (Hy : (Qabs (SF2Q r - y) <= d)%Q).
  Hypothesis (Hbig : (Qabs y + d <= inject_Z (2 ^ 125) * exact32 w)%Q).
  Notation s := (exact32 w).
  Lemma s_gt0 : (0 < s)%Q. Proof. eapply Qlt_le_trans; [|exact Hs]. reflexivity. Qed.
  Lemma d_ge0 : (0 <= d)%Q. Proof. eapply Qle_trans; [apply Qabs_nonneg|exact Hy]. Qed.
  Lemma r_abs : (Qabs (SF2Q r) <= Qabs y + d)%Q.
  Proof.
    setoid_replace (SF2Q r) with (y + (SF2Q r - y))%Q by ring. eapply Qle_trans; [apply Qabs_triangle|].
    apply Qplus_le_compat; [apply Qle_refl|exact Hy].
  Qed.
  Open Scope R_scope.
  Lemma div_rep : rep24 (SFdiv 24 128 r (decode32 w)) (rn (Q2R (SF2Q r) / Q2R s)).
  Proof.
    assert (Rr : rep24 r (Q2R (SF2Q r))) by (apply valid_rep; [apply Fr|split; [apply Fr|symmetry; apply SF2Q_R]]).
    assert (Rw : rep24 (decode32 w) (Q2R s)) by (unfold exact32; rewrite SF2Q_R; apply rep_decode; exact Fw).
    assert (P : 0 < Q2R s) by (rewrite <- RMicromega.Q2R_0; apply Qlt_Rlt; exact s_gt0).
    apply (rep_div 24 128 r24 r128); auto; [lra|]. apply rn_small. unfold Rdiv. rewrite Rabs_mult, Rabs_inv, (Rabs_pos_eq (Q2R s)) by lra.
    assert (A := r_abs). assert (B : (Qabs (SF2Q r) <= inject_Z (2 ^ 125) * s)%Q) by (eapply Qle_trans; [exact A|exact Hbig]).
    apply Qle_Rle in B. rewrite Q2R_abs, Q2R_mult in B. rewrite <- bpow_Z in B by lia.
    apply Rle_trans with (bpow radix2 125); [|apply bpow_le; lia].
    apply (Rmult_le_reg_r (Q2R s)); [exact P|]. rewrite Rmult_assoc, Rinv_l by lra. lra.
  Qed.
  Lemma div_close_R : Rabs (Q2R (SF2Q (SFdiv 24 128 r (decode32 w))) - Q2R (SF2Q r) / Q2R s) <= U * Rabs (Q2R (SF2Q r) / Q2R s) + eta.
  Proof. destruct (rep_val _ _ _ _ div_rep) as [_ E]. rewrite SF2Q_R, E. apply rn_err. Qed.
  Open Scope Q_scope.
  Lemma div_close : Qabs (SF2Q (SFdiv 24 128 r (decode32 w)) - SF2Q r / s) <= (1 # 2 ^ 24) * Qabs (SF2Q r / s) + (1 # 2 ^ 126).
  Proof.
    assert (N : ~ s == 0) by (intros E; assert (P := s_gt0); rewrite E in P; discriminate).
    apply Rle_Qle. rewrite Q2R_abs, Q2R_minus, Q2R_div by exact N.
    eapply Rle_trans; [exact div_close_R|]. rewrite Q2R_plus, Q2R_mult, Q2R_abs, Q2R_div by exact N.
    assert (EU : U = Q2R (1 # 2 ^ 24)) by (rewrite U_val; unfold Q2R; cbn [Qnum Qden]; rewrite Rmult_1_l; reflexivity).
    rewrite <- EU. apply Rplus_le_compat_l. rewrite <- bpow_m126. apply bpow_le. lia.
  Qed.
  Lemma quotient_near : Qabs (SF2Q (SFdiv 24 128 r (decode32 w)) - y / s) <= d / s + (1 # 2 ^ 24) * ((Qabs y + d) / s) + (1 # 2 ^ 126).
  Proof.
    assert (P := s_gt0). assert (N : ~ s == 0) by (intros E; rewrite E in P; discriminate).
    assert (I : 0 <= / s) by (apply Qinv_le_0_compat; lra).
    assert (As : forall q, Qabs (q / s) == Qabs q / s).
    { intros q. unfold Qdiv. rewrite Qabs_Qmult, (Qabs_pos (/ s)) by exact I. reflexivity. }
    setoid_replace (SF2Q (SFdiv 24 128 r (decode32 w)) - y / s) with ((SF2Q (SFdiv 24 128 r (decode32 w)) - SF2Q r / s) + (SF2Q r - y) / s) by (field; exact N).
    eapply Qle_trans; [apply Qabs_triangle|].
    assert (A1 := div_close). rewrite As in A1. assert (A2 : Qabs ((SF2Q r - y) / s) <= d / s) by (rewrite As; unfold Qdiv; apply Qmult_le_compat_r; [exact Hy|exact I]).
    assert (A3 : Qabs (SF2Q r) / s <= (Qabs y + d) / s) by (unfold Qdiv; apply Qmult_le_compat_r; [exact r_abs|exact I]).
    revert A1 A2 A3. generalize (Qabs ((SF2Q r - y) / s)) (Qabs (SF2Q (SFdiv 24 128 r (decode32 w)) - SF2Q r / s)) (Qabs (SF2Q r) / s) ((Qabs y + d) / s) (d / s).
    intros q1 q2 q3 q4 q5 A1 A2 A3.
    eapply Qle_trans; [apply Qplus_le_compat; [exact A1|exact A2]|].
    setoid_replace (q5 + (1 # 2 ^ 24) * q4 + (1 # 2 ^ 126)) with ((1 # 2 ^ 24) * q4 + (1 # 2 ^ 126) + q5) by ring.
    apply Qplus_le_compat; [|apply Qle_refl]. apply Qplus_le_compat; [|apply Qle_refl].
    rewrite (Qmult_comm _ q3), (Qmult_comm _ q4). apply Qmult_le_compat_r; [exact A3|discriminate].
  Qed.
End Div.

(** Two integers, each within 1/2 + D of the same number, saturated. *)
Open Scope Q_scope.
Lemma both_near (e D : Q) (z1 z2 : Z) :
  Qabs (e - inject_Z z1) <= (1 # 2) + D -> Qabs (e - inject_Z z2) <= (1 # 2) + D -> D < 1 # 2 ->
  (Z.abs (Z.max (-128) (Z.min 127 z1) - Z.max (-128) (Z.min 127 z2)) <= 1)%Z.
Proof.
  intros H1 H2 HD. apply Qabs_Qle_condition in H1, H2.
  assert (K : inject_Z (z1 - z2) < inject_Z 2 /\ inject_Z (z2 - z1) < inject_Z 2).
  { unfold Z.sub. rewrite !inject_Z_plus, !inject_Z_opp. change (inject_Z 2) with 2. split; lra. }
  destruct K as [K1 K2]. rewrite <- Zlt_Qlt in K1, K2. lia.
Qed.

(** The distance allowed, in quantised units: 2^-20 of the magnitude, plus terms
    for denormals. *)
Definition fuse_delta (mag s : Q) (zp : Z) : Q :=
  (1 # 2 ^ 20) * (mag / s + Qabs (inject_Z zp)) + (1 # 2 ^ 124) / s + (1 # 2 ^ 125).
Lemma big_aux (a mag s k cs : Q) : 0 <= s -> a <= mag -> mag <= cs -> k <= 2 * s -> s <= cs -> a + ((1 # 2 ^ 21) * mag + k) <= 4 * cs.
Proof. change (1 # 2 ^ 21) with (1 # 2097152). intros. lra. Qed.
Lemma fuse_near r w y mag zp :
  fin24 r -> finite32 w = true -> (1 # 2 ^ 126) <= exact32 w ->
  Qabs (SF2Q r - y) <= (1 # 2 ^ 21) * mag + (1 # 2 ^ 125) -> Qabs y <= mag -> mag <= inject_Z (2 ^ 123) * exact32 w ->
  Qabs ((y / exact32 w + inject_Z zp) - inject_Z (round_haz (SF2Q (SFdiv 24 128 r (decode32 w))) + zp)) <= (1 # 2) + fuse_delta mag (exact32 w) zp.
Proof.
  intros Fr Fw Hs Hr Hy Hm. set (s := exact32 w) in *. set (d := (1 # 2 ^ 21) * mag + (1 # 2 ^ 125)) in *.
  assert (P : 0 < s) by (eapply Qlt_le_trans; [|exact Hs]; reflexivity). assert (N : ~ s == 0) by (intros E; rewrite E in P; discriminate).
  assert (Hbig : Qabs y + d <= inject_Z (2 ^ 125) * s).
  { unfold d. clear - Hs Hy Hm. set (a := Qabs y) in *. assert (Hs2 : (1 # 2 ^ 125) <= 2 * s).
    { setoid_replace (1 # 2 ^ 125) with (2 * (1 # 2 ^ 126)) by reflexivity. apply Qmult_le_l; [reflexivity|exact Hs]. }
    assert (Hc : s <= inject_Z (2 ^ 123) * s).
    { setoid_replace s with (1 * s) at 1 by ring. apply Qmult_le_compat_r; [discriminate|]. eapply Qle_trans; [|exact Hs]. discriminate. }
    assert (P0 : 0 <= s) by (eapply Qle_trans; [|exact Hs]; discriminate).
    change (inject_Z (2 ^ 125)) with (4 * inject_Z (2 ^ 123)). rewrite <- Qmult_assoc. exact (big_aux a mag s _ _ P0 Hy Hm Hs2 Hc). }
  assert (Q1 := quotient_near r w y d Fr Fw Hs Hr Hbig). fold s in Q1.
  set (f := SF2Q (SFdiv 24 128 r (decode32 w))) in *. rewrite inject_Z_plus.
  destruct (round_haz_nearest f) as [Nr _]. set (n := inject_Z (round_haz f)) in *.
  setoid_replace (y / s + inject_Z zp - (n + inject_Z zp)) with ((f - n) + - (f - y / s)) by ring.
  eapply Qle_trans; [apply Qabs_triangle|]. apply Qplus_le_compat; [exact Nr|]. rewrite Qabs_opp.
  eapply Qle_trans; [exact Q1|]. unfold fuse_delta, d.
  assert (A : 0 <= Qabs (inject_Z zp)) by apply Qabs_nonneg. set (z := Qabs (inject_Z zp)) in *.
  assert (My : Qabs y / s <= mag / s) by (unfold Qdiv; apply Qmult_le_compat_r; [exact Hy|apply Qinv_le_0_compat; lra]).
  assert (Mp : 0 <= mag / s).
  { apply Qle_shift_div_l; [exact P|]. rewrite Qmult_0_l. eapply Qle_trans; [apply Qabs_nonneg|exact Hy]. }
  setoid_replace (((1 # 2 ^ 21) * mag + (1 # 2 ^ 125)) / s) with ((1 # 2 ^ 21) * (mag / s) + (1 # 2 ^ 125) * (1 / s)) by (field; exact N).
  setoid_replace ((Qabs y + ((1 # 2 ^ 21) * mag + (1 # 2 ^ 125))) / s) with (Qabs y / s + ((1 # 2 ^ 21) * (mag / s) + (1 # 2 ^ 125) * (1 / s))) by (field; exact N).
  setoid_replace ((1 # 2 ^ 124) / s) with (2 * ((1 # 2 ^ 125) * (1 / s))) by (setoid_replace (1 # 2 ^ 124) with (2 * (1 # 2 ^ 125)) by reflexivity; field; exact N).
  assert (Ip : 0 <= (1 # 2 ^ 125) * (1 / s)).
  { apply Qmult_le_0_compat; [discriminate|]. apply Qle_shift_div_l; [exact P|]. rewrite Qmult_0_l. discriminate. }
  assert (E126 : (1 # 2 ^ 126) <= (1 # 2 ^ 125)) by (vm_compute; discriminate).
  revert My Mp Ip E126 A. generalize ((1 # 2 ^ 125) * (1 / s)) (Qabs y / s) (mag / s) (1 # 2 ^ 126) (1 # 2 ^ 125) z.
  change (1 # 2 ^ 21) with (1 # 2097152). change (1 # 2 ^ 24) with (1 # 16777216). change (1 # 2 ^ 20) with (1 # 1048576).
  intros. lra.
Qed.
