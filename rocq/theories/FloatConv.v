(** * Accuracy of whole convolutions in IEEE arithmetic, on the rationals. *)
From Coq Require Import ZArith Reals Psatz Lia SpecFloat QArith Qround Qreals Qabs.
From Flocq Require Import Core BinarySingleNaN.
From Verif Require Import Base Spec Bits Bitpack Float32 Reference OutputTransform Quantize RefTheorems Threshold ThresholdFloat FlocqBridge ThresholdMargin ThresholdConv FloatSetup FloatAccuracy.
Open Scope Z_scope.

Lemma setup32_ok p a mw bw scale zp :
  0 <= out_c p -> zlen mw = out_c p -> zlen bw = out_c p ->
  exists t, one_time_setup32 p a mw bw scale zp = Some t /\
    ot_min t = - Z.min (snd (activation_range a)) (backtransform_add p) + backtransform_add p /\
    ot_max t = - Z.max (fst (activation_range a)) (- backtransform_add p) + backtransform_add p /\
    (forall c m b, rd mw c = Some m -> rd bw c = Some b ->
       rd (ot_mult t) c = Some (fst (setup_channel (backtransform_add p) scale zp (widen (decode32 m)) (widen (decode32 b)))) /\
       rd (ot_bias t) c = Some (snd (setup_channel (backtransform_add p) scale zp (widen (decode32 m)) (widen (decode32 b))))).
Proof.
  intros Hc Hm Hb. apply wp_iff. unfold one_time_setup32. apply wp_bind.
  set (bt := backtransform_add p).
  apply (for_wp (fun k '(mult, bias) => zlen mult = out_c p + 4 /\ zlen bias = out_c p + 4 /\
    (forall c m b, c < k -> rd mw c = Some m -> rd bw c = Some b ->
       rd mult c = Some (fst (setup_channel bt scale zp (widen (decode32 m)) (widen (decode32 b)))) /\
       rd bias c = Some (snd (setup_channel bt scale zp (widen (decode32 m)) (widen (decode32 b))))))).
  - rewrite !zlen_repeat. change (Z.quot 16 4) with 4.
    split; [lia|]. split; [lia|]. intros c m b Hlt H. apply rd_bounds in H. lia.
  - intros i (mult, bias) Hi (L1 & L2 & H1).
    apply wp_bind, rd_wp; [lia|]. intros pm0 Hpm.
    apply wp_bind, rd_wp; [lia|]. intros pb0 Hpb.
    destruct (setup_channel bt scale zp (widen (decode32 pm0)) (widen (decode32 pb0))) as [m' b'] eqn:E.
    apply wp_bind, wr_wp; [lia|]. intros mult' L1' S1 O1.
    apply wp_bind, wr_wp; [lia|]. intros bias' L2' S2 O2.
    apply wp_ret. split; [lia|]. split; [lia|].
    intros c m b Hlt Hcm Hcb. destruct (Z.eq_dec c i) as [->|Hne].
    + assert (m = pm0) by congruence. assert (b = pb0) by congruence. subst m b. rewrite E. cbn [fst snd]. split; assumption.
    + rewrite O1, O2 by exact Hne. apply H1; [lia|exact Hcm|exact Hcb].
  - rewrite Z.max_r by lia. intros (mult, bias) (L1 & L2 & H1).
    destruct (activation_range a) as [nmin nmax] eqn:E. cbn [fst snd].
    apply wp_ret; cbn [ot_min ot_max ot_mult ot_bias].
    split; [lia|]. split; [lia|].
    intros c m b Hcm Hcb. apply H1; auto. apply rd_bounds in Hcm. lia.
Qed.

(** The binary64 value [s] stands for the scale [q]. *)
Definition scale_is (s : spec_float) (q : Q) : Prop := rep53 s (Q2R q).
Lemma scale_one : scale_is (sf_ofZ 53 1024 1) 1.
Proof. unfold scale_is. rewrite RMicromega.Q2R_1. apply rep_ofZ53. lia. Qed.
Lemma scale_word w : finite32 w = true -> scale_is (widen (decode32 w)) (exact32 w).
Proof. intros H. apply widen_rep. exact (repm w H). Qed.

Lemma bpow_m126 : (bpow radix2 (-126) = Q2R (1 # 2 ^ 126))%R. Proof. exact bpow126. Qed.
Lemma bpow_Z k : 0 <= k -> (bpow radix2 k = Q2R (inject_Z (2 ^ k)))%R.
Proof. intros H. rewrite Q2R_Z. symmetry. apply (IZR_Zpower radix2). exact H. Qed.
Definition delta (bt : Z) (m b s : Q) (zp : Z) : Q :=
  ((1 # 2 ^ 21) * ((Qabs b + inject_Z bt * Qabs m) / s + Qabs (inject_Z zp)) + (1 # 2 ^ 125))%Q.
Lemma tau_small : (8 * (bpow radix2 22 * eta) <= Q2R (1 # 2 ^ 125))%R.
Proof.
  replace 8%R with (bpow radix2 3) by reflexivity. unfold eta. rewrite <- !bpow_plus. apply Req_le.
  unfold Q2R. cbn [Qnum Qden]. rewrite Rmult_1_l. reflexivity.
Qed.
Lemma U21 : (8 * U = Q2R (1 # 2 ^ 21))%R.
Proof. unfold U. replace 8%R with (bpow radix2 3) by reflexivity. rewrite <- bpow_plus. unfold Q2R. cbn [Qnum Qden]. rewrite Rmult_1_l. reflexivity. Qed.
(** A well-formed finite float32. *)
Definition fin24 (r : spec_float) : Prop := is_finite_SF r = true /\ valid_binary 24 128 r = true.
Lemma rep_fin24 r x : rep24 r x -> fin24 r.
Proof. intros (B & <- & F & _). split; [rewrite is_finite_SF_B2SF; exact F|apply valid_binary_B2SF]. Qed.

Section Elem.
  Variables (a : activation) (bt x zp mw bw : Z) (scale : spec_float) (s : Q).
  Hypothesis Hbt : 0 <= bt <= 2 ^ 22.
  Hypothesis Hx : 0 <= x <= bt.
  Hypothesis Hzp : Z.abs zp <= 2 ^ 20.
  Hypothesis Fm : finite32 mw = true.
  Hypothesis Fb : finite32 bw = true.
  Hypothesis Rs : scale_is scale s.
  Hypothesis Hs1 : ((1 # 2 ^ 126) <= s)%Q.
  Hypothesis Hs2 : (s <= inject_Z (2 ^ 128))%Q.
  Hypothesis Hm : (Qabs (exact32 mw) <= inject_Z (2 ^ 100) * s)%Q.
  Hypothesis Hb : (Qabs (exact32 bw) <= inject_Z (2 ^ 100) * s)%Q.
  Let X := bt - act_spec a (bt - 2 * x).
  Let y := ((exact32 mw * inject_Z (act_spec a (bt - 2 * x)) + exact32 bw) / s + inject_Z zp)%Q.
  Lemma X_range : 0 <= X <= 2 * bt.
  Proof. unfold X. clear - Hbt Hx. destruct a; cbn [act_spec]; lia. Qed.
  Lemma s_pos : (0 < s)%Q.
  Proof. eapply Qlt_le_trans; [|exact Hs1]. reflexivity. Qed.
  Lemma elem_close : exists r,
    SFadd 24 128 (SFmul 24 128 (sf_ofZ 24 128 X) (fst (setup_channel bt scale (sf_ofZ 53 1024 zp) (widen (decode32 mw)) (widen (decode32 bw)))))
      (snd (setup_channel bt scale (sf_ofZ 53 1024 zp) (widen (decode32 mw)) (widen (decode32 bw)))) = r /\
    fin24 r /\ (Qabs (SF2Q r - y) <= delta bt (exact32 mw) (exact32 bw) s zp)%Q.
  Proof.
    assert (HX := X_range). assert (Sp := s_pos). assert (Sp' : (0 < Q2R s)%R) by (rewrite <- RMicromega.Q2R_0; apply Qlt_Rlt; exact Sp).
    assert (HS : (bpow radix2 (-126) <= Q2R s)%R) by (rewrite bpow126; apply Qle_Rle; exact Hs1).
    assert (HS2 : (Q2R s <= bpow radix2 128)%R) by (rewrite bpow_Z by lia; apply Qle_Rle; exact Hs2).
    assert (HM : (Rabs (Q2R (exact32 mw)) <= bpow radix2 100 * Q2R s)%R) by (rewrite bpow_Z by lia; rewrite <- Q2R_abs, <- Q2R_mult; apply Qle_Rle; exact Hm).
    assert (HB : (Rabs (Q2R (exact32 bw)) <= bpow radix2 100 * Q2R s)%R) by (rewrite bpow_Z by lia; rewrite <- Q2R_abs, <- Q2R_mult; apply Qle_Rle; exact Hb).
    assert (R := R_out bt X zp mw bw scale (Q2R s) Hbt HX Hzp Fm Fb Rs HS HS2 HM HB).
    assert (HTr := hT bt 0 Hbt).
    assert (N := ay_near (IZR bt) (Q2R (exact32 mw)) (Q2R (exact32 bw)) (Q2R s) (IZR zp) (IZR X) HTr HS (hX bt X 0 HX)).
    eexists. split; [reflexivity|]. destruct (rep_val _ _ _ _ R) as [Fr Er]. split; [exact (rep_fin24 _ _ R)|].
    apply Rle_Qle. rewrite Q2R_abs, Q2R_minus, SF2Q_R, Er.
    assert (Ey : Q2R y = yexact (IZR bt) (Q2R (exact32 mw)) (Q2R (exact32 bw)) (Q2R s) (IZR zp) (IZR X)).
    { unfold y, yexact, X. rewrite Q2R_plus, Q2R_div by (intros E; rewrite E in Sp; discriminate). rewrite Q2R_plus, Q2R_mult, !Q2R_Z, minus_IZR. f_equal. f_equal. ring. }
    rewrite Ey. eapply Rle_trans; [exact N|]. unfold delta.
    rewrite Q2R_plus, Q2R_mult, Q2R_plus, Q2R_div by (intros E; rewrite E in Sp; discriminate).
    rewrite Q2R_plus, Q2R_mult, !Q2R_abs, !Q2R_Z, <- U21. rewrite <- Rmult_assoc. apply Rplus_le_compat_l. exact tau_small.
  Qed.
  Lemma run_close (t : otp spec_float) c :
    ot_min t = - Z.min (snd (activation_range a)) bt + bt ->
    ot_max t = - Z.max (fst (activation_range a)) (- bt) + bt ->
    rd (ot_mult t) c = Some (fst (setup_channel bt scale (sf_ofZ 53 1024 zp) (widen (decode32 mw)) (widen (decode32 bw)))) ->
    rd (ot_bias t) c = Some (snd (setup_channel bt scale (sf_ofZ 53 1024 zp) (widen (decode32 mw)) (widen (decode32 bw)))) ->
    exists r, run_float sfops t x c = Some r /\ fin24 r /\ (Qabs (SF2Q r - y) <= delta bt (exact32 mw) (exact32 bw) s zp)%Q.
  Proof.
    intros E1 E2 E3 E4. unfold run_float. rewrite E3, E4. cbn [bind f_add f_mul f_ofZ sfops]. rewrite E1, E2.
    replace (Z.max _ _) with X.
    - destruct elem_close as (r & Er & Fr & Cr). exists r. split; [f_equal; exact Er|]. split; assumption.
    - unfold X. rewrite <- (clamp_act a bt (bt - 2 * x)) by lia. rewrite Z.shiftl_mul_pow2 by lia.
      replace (bt - (bt - 2 * x)) with (x * 2 ^ 1) by lia. lia.
  Qed.
End Elem.

Section Conv32.
  Variable p : bconv.
  Hypothesis WF : bconv_wf p.
  Variables input filter mw bw : list Z.
  Hypothesis Hin : packed input (in_pixels (geom_of p)) (channels_in p).
  Hypothesis Hfl : packed filter (filter_pixels (geom_of p)) (channels_in p / groups p).
  Hypothesis Hev : zero_padding p = true -> (channels_in p / groups p) mod 2 = 0.
  Hypothesis Hsmall : taps (geom_of p) <= 2 ^ 22.
  Hypothesis Hm : zlen mw = out_c p.
  Hypothesis Hb : zlen bw = out_c p.
  Variables (a : activation) (scale : spec_float) (s : Q) (zp : Z).
  Hypothesis Hzp : Z.abs zp <= 2 ^ 20.
  Hypothesis Rs : scale_is scale s.
  Hypothesis Hs1 : ((1 # 2 ^ 126) <= s)%Q.
  Hypothesis Hs2 : (s <= inject_Z (2 ^ 128))%Q.
  Hypothesis Mok : forall c w, rd mw c = Some w -> finite32 w = true /\ (Qabs (exact32 w) <= inject_Z (2 ^ 100) * s)%Q.
  Hypothesis Bok : forall c w, rd bw c = Some w -> finite32 w = true /\ (Qabs (exact32 w) <= inject_Z (2 ^ 100) * s)%Q.
  Notation tc := (the_conv p input filter).
  Definition yq32 (m bi : Z) (v : Z) : Q := ((exact32 m * inject_Z (act_spec a v) + exact32 bi) / s + inject_Z zp)%Q.
  Definition dq32 (m bi : Z) : Q := delta (taps (geom_of p)) (exact32 m) (exact32 bi) s zp.
  Lemma taps_nn : 0 <= backtransform_add p.
  Proof. destruct (wf_facts p WF) as (_&_&_&HKH&HKW&_&_&_&HCI&_). rewrite <- (taps_bt p WF). unfold taps. cbn. repeat apply Z.mul_nonneg_nonneg; assumption. Qed.
  Lemma run32 t b y x c m bi : one_time_setup32 p a mw bw scale (sf_ofZ 53 1024 zp) = Some t -> 0 <= b < batches p ->
    rd mw c = Some m -> rd bw c = Some bi ->
    exists r, run_float sfops t (acc_ref p input filter b y x c) c = Some r /\ fin24 r /\
      (Qabs (SF2Q r - yq32 m bi (tc b y x c)) <= dq32 m bi)%Q.
  Proof.
    intros Ht Hbb Hcm Hcb. assert (Hc := rd_bounds _ _ _ Hcm). rewrite Hm in Hc. assert (HOC := out_c_nonneg p WF).
    destruct (setup32_ok p a mw bw scale (sf_ofZ 53 1024 zp) HOC Hm Hb) as (t' & Ht' & E1 & E2 & E3).
    assert (t' = t) by congruence. subst t'. destruct (E3 c m bi Hcm Hcb) as [E4 E5].
    destruct (acc_conv p WF input filter Hin Hfl Hev b y x c Hbb Hc) as [EC BC].
    destruct (Mok _ _ Hcm) as [Fm Qm]. destruct (Bok _ _ Hcb) as [Fb Qb].
    unfold dq32, yq32. assert (Tn := taps_nn). rewrite (taps_bt p WF) in *.
    destruct (run_close a (backtransform_add p) (acc_ref p input filter b y x c) zp m bi scale s (conj Tn Hsmall) BC Hzp Fm Fb Rs Hs1 Hs2 Qm Qb t c E1 E2 E4 E5)
      as (r & Er & Fr & Cr). rewrite EC in Cr. exists r. split; [exact Er|]. split; assumption.
  Qed.
  Lemma eval32 out : zlen out = out_pixels (geom_of p) * out_c p ->
    exists out', (let* t := one_time_setup32 p a mw bw scale (sf_ofZ 53 1024 zp) in BConv2DReference_val p input filter (run_float sfops t) out) = Some out' /\
      zlen out' = zlen out /\
      forall b y x c m bi, 0 <= b < batches p -> 0 <= y < out_h p -> 0 <= x < out_w p ->
        rd mw c = Some m -> rd bw c = Some bi ->
        exists r, rd out' (out_pixel (geom_of p) b y x * out_c p + c) = Some r /\ fin24 r /\
          (Qabs (SF2Q r - yq32 m bi (tc b y x c)) <= dq32 m bi)%Q.
  Proof.
    intros Ho. assert (HOC := out_c_nonneg p WF). destruct (setup32_ok p a mw bw scale (sf_ofZ 53 1024 zp) HOC Hm Hb) as (t & Ht & _).
    rewrite Ht. cbn [bind].
    set (v := fun b y x c => match run_float sfops t (acc_ref p input filter b y x c) c with Some r => r | None => S754_nan end).
    destruct (reference_val_ok p WF input filter Hin Hfl (run_float sfops t) v out) as (out' & H1 & H2 & H3).
    - intros b y x c Hbb Hy Hx Hc. destruct (rd_some mw c ltac:(lia)) as [m Hcm]. destruct (rd_some bw c ltac:(lia)) as [bi Hcb].
      destruct (run32 t b y x c m bi Ht Hbb Hcm Hcb) as (r & Hr & _). unfold v. rewrite Hr. reflexivity.
    - rewrite Ho. unfold out_pixels. cbn. lia.
    - exists out'. split; [exact H1|]. split; [exact H2|].
      intros b y x c m bi Hbb Hy Hx Hcm Hcb. assert (Hc := rd_bounds _ _ _ Hcm). rewrite Hm in Hc.
      destruct (run32 t b y x c m bi Ht Hbb Hcm Hcb) as (r & Hr & Fr & Cr). exists r. split; [|split; assumption].
      specialize (H3 b y x c Hbb Hy Hx Hc). unfold v in H3. rewrite Hr in H3. exact H3.
  Qed.
  Lemma eval32_int8 out : zlen out = out_pixels (geom_of p) * out_c p ->
    exists out', (let* t := one_time_setup32 p a mw bw scale (sf_ofZ 53 1024 zp) in BConv2DReference_val p input filter (run_int8 sfops t) out) = Some out' /\
      zlen out' = zlen out /\
      forall b y x c m bi, 0 <= b < batches p -> 0 <= y < out_h p -> 0 <= x < out_w p ->
        rd mw c = Some m -> rd bw c = Some bi ->
        exists z, rd out' (out_pixel (geom_of p) b y x * out_c p + c) = Some (Z.max (-128) (Z.min 127 z)) /\
          (Qabs (yq32 m bi (tc b y x c) - inject_Z z) <= (1 # 2) + dq32 m bi)%Q.
  Proof.
    intros Ho. assert (HOC := out_c_nonneg p WF). destruct (setup32_ok p a mw bw scale (sf_ofZ 53 1024 zp) HOC Hm Hb) as (t & Ht & _).
    rewrite Ht. cbn [bind].
    set (v := fun b y x c => match run_int8 sfops t (acc_ref p input filter b y x c) c with Some r => r | None => 0 end).
    destruct (reference_val_ok p WF input filter Hin Hfl (run_int8 sfops t) v out) as (out' & H1 & H2 & H3).
    - intros b y x c Hbb Hy Hx Hc. destruct (rd_some mw c ltac:(lia)) as [m Hcm]. destruct (rd_some bw c ltac:(lia)) as [bi Hcb].
      destruct (run32 t b y x c m bi Ht Hbb Hcm Hcb) as (r & Hr & _). unfold v, run_int8. rewrite Hr. reflexivity.
    - rewrite Ho. unfold out_pixels. cbn. lia.
    - exists out'. split; [exact H1|]. split; [exact H2|].
      intros b y x c m bi Hbb Hy Hx Hcm Hcb. assert (Hc := rd_bounds _ _ _ Hcm). rewrite Hm in Hc.
      destruct (run32 t b y x c m bi Ht Hbb Hcm Hcb) as (r & Hr & Fr & Cr). exists (round_haz (SF2Q r)).
      specialize (H3 b y x c Hbb Hy Hx Hc). unfold v, run_int8 in H3. rewrite Hr in H3. cbn [bind f_round sfops] in H3.
      split; [etransitivity; [exact H3|]; f_equal; unfold saturate; lia|].
      destruct (round_haz_nearest (SF2Q r)) as [Nr _]. set (q := SF2Q r) in *. set (Y := yq32 m bi (tc b y x c)) in *.
      setoid_replace (Y - inject_Z (round_haz q))%Q with ((q - inject_Z (round_haz q)) + (Y - q))%Q by ring.
      eapply Qle_trans; [apply Qabs_triangle|]. apply Qplus_le_compat; [exact Nr|].
      setoid_replace (Y - q)%Q with (- (q - Y))%Q by ring. rewrite Qabs_opp. exact Cr.
  Qed.
End Conv32.
Lemma finite32_lt w : finite32 w = true -> (exact32 w <= inject_Z (2 ^ 128))%Q.
Proof.
  intros H. apply Rle_Qle. rewrite <- bpow_Z by lia. destruct (repm w H) as (X & _ & Fx & Ex). unfold exact32. rewrite <- Ex.
  apply Rlt_le. eapply Rle_lt_trans; [apply Rle_abs|]. apply abs_B2R_lt_emax.
Qed.
