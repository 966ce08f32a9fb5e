(** * C12: the margin theorem on rationals, and for whole bit-packed convolutions. *)
From Coq Require Import ZArith Reals Psatz Lia SpecFloat QArith Qreals Qabs.
From Flocq Require Import Core BinarySingleNaN.
From Verif Require Import Base Spec Bits Bitpack Float32 Reference OutputTransform Quantize RefTheorems Threshold ThresholdFloat FlocqBridge ThresholdMargin.
Open Scope R_scope.

Lemma Q2R_abs q : Q2R (Qabs q) = Rabs (Q2R q).
Proof.
  destruct (Qlt_le_dec q 0) as [H|H].
  - rewrite (Qeq_eqR _ _ (Qabs_neg q (Qlt_le_weak _ _ H))), Q2R_opp. apply Qlt_Rlt in H. rewrite RMicromega.Q2R_0 in H. now rewrite Rabs_left.
  - rewrite (Qeq_eqR _ _ (Qabs_pos q H)). apply Qle_Rle in H. rewrite RMicromega.Q2R_0 in H. now rewrite Rabs_pos_eq.
Qed.
Lemma Q2R_Z n : Q2R (inject_Z n) = IZR n.
Proof. unfold Q2R, inject_Z. cbn [Qnum Qden]. field. Qed.
Lemma Qlt0_R q : (q < 0)%Q <-> Q2R q < 0.
Proof. rewrite <- RMicromega.Q2R_0. split; [apply Qlt_Rlt|apply Rlt_Qlt]. Qed.
Lemma bpow100 : bpow radix2 100 = Q2R (inject_Z (2 ^ 100)).
Proof. rewrite Q2R_Z. symmetry. apply (IZR_Zpower radix2). lia. Qed.
Lemma bpow126 : bpow radix2 (-126) = Q2R (1 # 2 ^ 126).
Proof. unfold Q2R. cbn [Qnum Qden]. rewrite Rmult_1_l. reflexivity. Qed.
Section Q.
  Variables (a : activation) (bt x mw bw : Z).
  Let m := decode32 mw.
  Let b := decode32 bw.
  Hypothesis Hbt : (1 <= bt <= 2 ^ 22)%Z.
  Hypothesis Hx : (0 <= x <= bt)%Z.
  Hypothesis Fm : finite32 mw = true.
  Hypothesis Fb : finite32 bw = true.
  Hypothesis Hm1 : ((1 # 2 ^ 126) <= Qabs (SF2Q m))%Q.
  Hypothesis Hm2 : (Qabs (SF2Q m) <= inject_Z (2 ^ 100))%Q.
  Hypothesis Hb : (Qabs (SF2Q b) <= inject_Z (2 ^ 100))%Q.
  Let y := (SF2Q m * inject_Z (act_spec a (bt - 2 * x)) + SF2Q b)%Q.
  Hypothesis Hy : (Qabs (SF2Q b) + inject_Z bt * Qabs (SF2Q m) < inject_Z (2 ^ 19) * Qabs y)%Q.
  Notation mr := (Q2R (SF2Q m)).
  Notation br := (Q2R (SF2Q b)).
  Lemma y_R : Q2R y = mr * IZR (act_spec a (bt - 2 * x)) + br.
  Proof. unfold y. now rewrite Q2R_plus, Q2R_mult, Q2R_Z. Qed.
  Lemma m_R : bpow radix2 (-126) <= Rabs mr <= bpow radix2 100.
  Proof. rewrite <- !Q2R_abs, bpow100, bpow126. split; apply Qle_Rle; assumption. Qed.
  Lemma b_R : Rabs br <= bpow radix2 100.
  Proof. rewrite <- Q2R_abs, bpow100. apply Qle_Rle. assumption. Qed.
  Lemma marg_R : Rabs (mr * IZR (act_spec a (bt - 2 * x)) + br) > 32 * U * (Rabs br + IZR bt * Rabs mr).
  Proof.
    rewrite <- y_R. assert (H := Qlt_Rlt _ _ Hy). rewrite Q2R_plus, !Q2R_mult, !Q2R_Z, !Q2R_abs in H.
    rewrite U_val. set (w := Rabs br + IZR bt * Rabs mr) in *. change (2 ^ 19)%Z with 524288%Z in H. lra.
  Qed.
  Lemma repm : rep24 m mr.
  Proof. rewrite SF2Q_R. apply rep_decode. exact Fm. Qed.
  Lemma repb : rep24 b br.
  Proof. rewrite SF2Q_R. apply rep_decode. exact Fb. Qed.
  Lemma neg_m : SFltb m (S754_zero false) = Rlt_bool mr 0.
  Proof. exact (rep_ltb 24 128 _ _ _ _ repm (rep_zero 24 128 false)). Qed.
  Lemma neg_Q : Qle_bool 0 (SF2Q m) = negb (Rlt_bool mr 0).
  Proof.
    destruct (Rlt_bool_spec mr 0) as [L|L].
    - apply Qlt0_R in L. destruct (Qle_bool 0 (SF2Q m)) eqn:E; [|reflexivity]. apply Qle_bool_iff in E. exfalso. apply (Qlt_not_le _ _ L E).
    - apply Qle_bool_iff. apply Rle_Qle. rewrite RMicromega.Q2R_0. exact L.
  Qed.
  Lemma bool_iff (t : bool) : t = Rlt_bool (Q2R y) 0 -> (t = true <-> (y < 0)%Q).
  Proof. intros ->. rewrite Qlt0_R. destruct (Rlt_bool_spec (Q2R y) 0); split; intros; try lra; try reflexivity; discriminate. Qed.
  Lemma threshold_Q :
    (threshold_one F32 (c_ofZ F32 bt) (c_ofZ F32 (fst (clamp_min_max a bt))) (c_ofZ F32 (snd (clamp_min_max a bt))) m b
       <? (if Qle_bool 0 (SF2Q m) then x else bt - x))%Z = true <-> (y < 0)%Q.
  Proof.
    apply bool_iff. assert (K := threshold_margin a bt x m b mr br Hbt Hx repm repb m_R b_R marg_R).
    destruct (clamp_min_max a bt) as [c1 c2]. cbn [fst snd]. rewrite y_R, <- K. f_equal. unfold signed_x. rewrite neg_Q. now destruct (Rlt_bool mr 0).
  Qed.
  Lemma runtime_Q : exists yr, runtime32 a bt m b x = Some yr /\ (SFltb yr (S754_zero false) = true <-> (y < 0)%Q).
  Proof.
    destruct (runtime_margin a bt x m b mr br Hbt Hx repm repb m_R b_R marg_R) as (yr & E & S). exists yr. split; [exact E|].
    apply bool_iff. rewrite y_R. exact S.
  Qed.
End Q.
Open Scope Z_scope.
(** A zero multiplier needs no margin. *)
Lemma threshold_zero btf c1 c2 mw bw x : finite32 mw = true -> finite32 bw = true -> (SF2Q (decode32 mw) == 0)%Q -> 0 <= x < 2 ^ 31 - 1 ->
  (threshold_one F32 btf c1 c2 (decode32 mw) (decode32 bw) <? x) = true <-> (SF2Q (decode32 bw) < 0)%Q.
Proof.
  intros Fm Fb E Hx. unfold threshold_one. cbn [c_eqb c_ltb F32 c_ofZ]. change (sf_ofZ 24 128 0) with (S754_zero false).
  assert (Rm := repm mw Fm). assert (Rb := repb bw Fb). apply Qeq_eqR in E. rewrite RMicromega.Q2R_0 in E.
  rewrite (rep_eqb _ _ _ _ Rm (rep_zero 24 128 false)), (Req_bool_true _ _ E), (rep_ltb _ _ _ _ _ _ Rb (rep_zero 24 128 false)), Qlt0_R.
  unfold int32_min, int32_max. destruct (Rlt_bool_spec (Q2R (SF2Q (decode32 bw))) 0) as [L|L]; rewrite Z.ltb_lt.
  - split; [intros _; exact L|intros _; lia].
  - split; [lia|intros H; exfalso; lra].
Qed.
Lemma sign_Q mw : finite32 mw = true -> c_geb F32 (decode32 mw) (c_ofZ F32 0) = Qle_bool 0 (SF2Q (decode32 mw)).
Proof.
  intros Fm. rewrite (neg_Q mw). cbn [c_geb F32 c_ofZ]. change (sf_ofZ 24 128 0) with (S754_zero false).
  rewrite (rep_leb _ _ _ _ _ _ (rep_zero 24 128 false) (repm mw Fm)). unfold Rle_bool, Rlt_bool.
  destruct (Rcompare_spec 0 (Q2R (SF2Q (decode32 mw)))); destruct (Rcompare_spec (Q2R (SF2Q (decode32 mw))) 0); try reflexivity; exfalso; lra.
Qed.

(** Multipliers and biases the theorem covers: finite, the multiplier zero or normal and at most 2^100, the bias at most 2^100. *)
Definition mult_ok (w : Z) : Prop := finite32 w = true /\
  ((SF2Q (decode32 w) == 0)%Q \/ ((1 # 2 ^ 126) <= Qabs (SF2Q (decode32 w)) /\ Qabs (SF2Q (decode32 w)) <= inject_Z (2 ^ 100))%Q).
Definition bias_ok (w : Z) : Prop := finite32 w = true /\ (Qabs (SF2Q (decode32 w)) <= inject_Z (2 ^ 100))%Q.
Definition exact32 (w : Z) : Q := SF2Q (decode32 w).

Lemma signs_eq mw : (forall c w, rd mw c = Some w -> mult_ok w) -> signs_of F32 (map decode32 mw) = signs_of Qcarrier (map exact32 mw).
Proof.
  intros H. unfold signs_of. rewrite !map_map. apply map_ext_in. intros w Hw. apply In_nth_error in Hw. destruct Hw as [n Hn].
  assert (Hr : rd mw (Z.of_nat n) = Some w) by (unfold rd; destruct (Z.ltb_spec (Z.of_nat n) 0); [lia|]; rewrite Nat2Z.id; exact Hn).
  destruct (H _ _ Hr) as [F _]. exact (sign_Q w F).
Qed.
Section Conv.
  Variables (p : bconv) (a : activation) (input F mw bw : list Z).
  Hypothesis WF : bconv_wf p.
  Hypothesis Hin : packed input (in_pixels (geom_of p)) (channels_in p).
  Hypothesis Hnz : pad_same p && (pad_value p =? 0) = false.
  Hypothesis Htaps : 1 <= taps (geom_of p) <= 2 ^ 22.
  Let CI := channels_in p / groups p.
  Let FP := filter_pixels (geom_of p).
  Hypothesis HF : zlen F = FP * CI.
  Hypothesis Hpm : forall i v, rd F i = Some v -> v = f32_one \/ v = f32_minus_one.
  Hypothesis Hm : zlen mw = out_c p.
  Hypothesis Hb : zlen bw = out_c p.
  Hypothesis Mok : forall c w, rd mw c = Some w -> mult_ok w.
  Hypothesis Bok : forall c w, rd bw c = Some w -> bias_ok w.
  Let TT := GetBitpackedOutputThresholds F32 (f_h p) (f_w p) CI (map decode32 mw) (map decode32 bw) a.
  Lemma len_TT : zlen TT = out_c p.
  Proof.
    unfold TT, GetBitpackedOutputThresholds. destruct (clamp_min_max _ _). rewrite zlen_map.
    etransitivity; [apply (zlen_combine (X := cF F32) (Y := cF F32)); rewrite !zlen_map; exact (eq_trans Hm (eq_sym Hb))|]. rewrite zlen_map. exact Hm.
  Qed.
  Lemma rd_TT c m b : rd mw c = Some m -> rd bw c = Some b ->
    rd TT c = Some (threshold_one F32 (c_ofZ F32 (backtransform_add p)) (c_ofZ F32 (fst (clamp_min_max a (backtransform_add p))))
      (c_ofZ F32 (snd (clamp_min_max a (backtransform_add p)))) (decode32 m) (decode32 b)).
  Proof.
    intros H1 H2. unfold TT, GetBitpackedOutputThresholds.
    assert (E : f_h p * f_w p * CI = backtransform_add p) by (rewrite <- (taps_bt p WF); reflexivity).
    rewrite E. destruct (clamp_min_max a (backtransform_add p)) as [c1 c2]. cbn [fst snd]. rewrite rd_map.
    rewrite (rd_combine (X := cF F32) (Y := cF F32) (map decode32 mw) (map decode32 bw) c (decode32 m) (decode32 b));
      [reflexivity|rewrite rd_map, H1; reflexivity|rewrite rd_map, H2; reflexivity].
  Qed.
  Lemma float_bits buf1 buf2 outf outb :
    zlen buf1 = FP * words CI -> zlen buf2 = FP * words CI ->
    zlen outf = out_pixels (geom_of p) * out_c p -> zlen outb = out_pixels (geom_of p) * words (out_c p) ->
    exists f1 f2 yf yb,
      quantize_float FP CI F buf1 = Some f1 /\
      eval_ref_float p a input f1 (map exact32 mw) (map exact32 bw) outf = Some yf /\
      quantize_float FP CI (mul_by_signs (f_h p * f_w p * CI) F (signs_of F32 (map decode32 mw))) buf2 = Some f2 /\
      eval_ref_bits p input f2 TT outb = Some yb /\
      packed yb (out_pixels (geom_of p)) (out_c p) /\
      forall b y x c m bi, 0 <= b < batches p -> 0 <= y < out_h p -> 0 <= x < out_w p ->
        rd mw c = Some m -> rd bw c = Some bi ->
        exists r, rd yf (out_pixel (geom_of p) b y x * out_c p + c) = Some r /\
          ((exact32 m == 0 \/ Qabs (exact32 bi) + inject_Z (taps (geom_of p)) * Qabs (exact32 m) < inject_Z (2 ^ 19) * Qabs r)%Q ->
           (bit_of yb (words (out_c p)) (out_pixel (geom_of p) b y x) c = true <-> (r < 0)%Q)).
  Proof.
    intros L1 L2 L3 L4. assert (Hsm : taps (geom_of p) < 2 ^ 31) by (clear - Htaps; lia).
    destruct (bits_any p a input F (map exact32 mw) (map exact32 bw) WF Hin Hnz Hsm HF Hpm ltac:(rewrite zlen_map; exact Hm) ltac:(rewrite zlen_map; exact Hb)
      TT buf1 buf2 outf outb len_TT L1 L2 L3 L4) as (f1 & f2 & yf & yb & E1 & E2 & E3 & E4 & E5 & V).
    exists f1, f2, yf, yb. split; [exact E1|]. split; [exact E3|]. split; [rewrite (signs_eq mw Mok); exact E2|]. split; [exact E4|]. split; [exact E5|].
    intros b y x c m bi Hbb Hy Hx Hcm Hcb. assert (Hc := rd_bounds _ _ _ Hcm). rewrite Hm in Hc.
    destruct (V b y x c (exact32 m) (exact32 bi) _ Hbb Hy Hx Hc ltac:(rewrite rd_map, Hcm; reflexivity) ltac:(rewrite rd_map, Hcb; reflexivity) (rd_TT c m bi Hcm Hcb))
      as (r & v & k & Hr & Er & Bv & Ek & Bt).
    exists r. split; [exact Hr|]. intros Mg. rewrite Bt. clear Bt V E1 E2 E3 E4 E5.
    destruct (Mok _ _ Hcm) as [Fm Mm]. destruct (Bok _ _ Hcb) as [Fb Mb]. rewrite (taps_bt p WF) in *.
    set (bt := backtransform_add p) in *. set (t := threshold_one _ _ _ _ _ _).
    assert (Ht : 2 * t < bt - flip (exact32 m) v <-> (t <? k) = true) by (rewrite Z.ltb_lt, Ek; lia). rewrite Ht.
    assert (Hk : 0 <= k <= bt) by (unfold flip in Ek; destruct (Qle_bool 0 (exact32 m)); lia).
    destruct Mm as [Z0|[M1 M2]].
    - unfold t. rewrite (threshold_zero _ _ _ m bi k Fm Fb Z0) by lia. rewrite Er. unfold exact32 in *.
      setoid_replace (SF2Q (decode32 m) * inject_Z (act_spec a v) + SF2Q (decode32 bi))%Q with (SF2Q (decode32 bi)) by (rewrite Z0; ring). reflexivity.
    - destruct Mg as [Z0|Mg]; [exfalso; unfold exact32 in Z0; rewrite Z0 in M1; vm_compute in M1; congruence|].
      set (x0 := if Qle_bool 0 (exact32 m) then k else bt - k).
      assert (Ev : v = bt - 2 * x0) by (unfold x0; unfold flip in Ek; destruct (Qle_bool 0 (exact32 m)); lia).
      assert (Hx0 : 0 <= x0 <= bt) by (unfold x0; destruct (Qle_bool 0 (exact32 m)); lia).
      assert (Mg' : (Qabs (exact32 bi) + inject_Z bt * Qabs (exact32 m) < inject_Z (2 ^ 19) * Qabs (exact32 m * inject_Z (act_spec a (bt - 2 * x0)) + exact32 bi))%Q)
        by (rewrite <- Ev, <- Er; exact Mg).
      assert (K := threshold_Q a bt x0 m bi Htaps Hx0 Fm Fb M1 M2 Mb Mg'). fold t in K.
      replace (if Qle_bool 0 (SF2Q (decode32 m)) then x0 else bt - x0) with k in K.
      + rewrite K, Er, Ev. reflexivity.
      + unfold x0, exact32. destruct (Qle_bool 0 (SF2Q (decode32 m))); lia.
  Qed.
End Conv.
