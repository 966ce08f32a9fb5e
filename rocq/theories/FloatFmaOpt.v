(** * Compiler contraction in the optimised kernels. The zero-padding correction has
    nothing to contract: its products are stored to a buffer by one function
    (zero_padding_correction.h 167-168) and added by another (290). *)
From Coq Require Import ZArith Reals Psatz Lia SpecFloat QArith Qround Qreals Qabs.
From Flocq Require Import Core BinarySingleNaN.
From Verif Require Import Base Spec Bits Loop4 Bitpack Float32 Reference OutputTransform Quantize RefTheorems Padding
  Log Bgemm BgemmProofs IndirectBuf IndirectTop BgemmConv Indirect
  Threshold ThresholdFloat FlocqBridge ThresholdMargin ThresholdConv FloatSetup FloatAccuracy FloatConv ZeroPad FloatZeroPad FloatFma.
#[local] Existing Instance p24.
#[local] Existing Instance e128.
Open Scope Z_scope.

(** ** Model *)
Definition run_choice (k : Z -> Z -> bool) (t : otp spec_float) (acc c : Z) : option spec_float := run_float_c (k acc c) t acc c.
(** bconv2d.cc 416-496 as in FloatZeroPad, with the choices. *)
Definition eval_bgemm_float32_c (cs : Z -> bool) (k : Z -> Z -> bool) (kr lc rc : Z) (sch : schedule) (p : bconv) (a : activation) (input filter mw bw : list Z)
    (buf out : list spec_float) (Post : list spec_float -> Prop) : Prop :=
  wp (one_time_setup32_c cs p a mw bw (sf_ofZ 53 1024 1) (sf_ofZ 53 1024 0)) (fun t =>
  wp (padding_buffer32 p filter mw buf) (fun cache =>
  bgemm_conv_val kr lc rc sch p input filter (run_choice k t) out (fun out =>
  wp (correct32 p cache out) Post))).
Definition eval_indirect_float32_c (cs : Z -> bool) (k : Z -> Z -> bool) (p : bconv) (a : activation) (input filter mw bw : list Z)
    (buf out : list spec_float) : option (list spec_float) :=
  let* t := one_time_setup32_c cs p a mw bw (sf_ofZ 53 1024 1) (sf_ofZ 53 1024 0) in
  let* cache := padding_buffer32 p filter mw buf in
  let* out := indirect_val p input filter (run_choice k t) out in
  correct32 p cache out.

(** ** One output *)
Open Scope R_scope.
Section ElemZF.
  Variables (cs k : bool) (bt mw bw : Z).
  Hypothesis Hbt : (0 <= bt <= 2 ^ 22)%Z.
  Hypothesis Fm : finite32 mw = true.
  Hypothesis Fb : finite32 bw = true.
  Hypothesis Hm : (Qabs (exact32 mw) <= inject_Z (2 ^ 100))%Q.
  Hypothesis Hb : (Qabs (exact32 bw) <= inject_Z (2 ^ 100))%Q.
  Notation sc := (setup_channel_c cs bt (sf_ofZ 53 1024 1) (sf_ofZ 53 1024 0) (widen (decode32 mw)) (widen (decode32 bw))).
  Notation M := (Q2R (exact32 mw)).
  Notation B := (Q2R (exact32 bw)).
  Lemma run_rep_c a x (t : otp spec_float) c : (0 <= x <= bt)%Z ->
    ot_min t = (- Z.min (snd (activation_range a)) bt + bt)%Z ->
    ot_max t = (- Z.max (fst (activation_range a)) (- bt) + bt)%Z ->
    rd (ot_mult t) c = Some (fst sc) -> rd (ot_bias t) c = Some (snd sc) ->
    exists r v, run_float_c k t x c = Some r /\ rep24 r v /\
      Rabs (v - (M * IZR (act_spec a (bt - 2 * x)) + B)) <= 8 * U * W32 bt mw bw + t32.
  Proof.
    intros Hx E1 E2 E3 E4. unfold run_float_c. rewrite E3, E4. cbn [bind]. rewrite E1, E2.
    set (X := (bt - act_spec a (bt - 2 * x))%Z).
    assert (HX : (0 <= X <= 2 * bt)%Z) by (unfold X; clear - Hbt Hx; destruct a; cbn [act_spec]; lia).
    replace (Z.max _ _) with X.
    2:{ unfold X. rewrite <- (clamp_act a bt (bt - 2 * x)) by lia. rewrite Z.shiftl_mul_pow2 by lia.
        replace (bt - (bt - 2 * x))%Z with (x * 2 ^ 1)%Z by lia. lia. }
    destruct (boundM mw bw Hm Hb) as [HM HB].
    assert (S1 : bpow radix2 (-126) <= 1) by (change 1 with (bpow radix2 0); apply bpow_le; lia).
    assert (S2 : 1 <= bpow radix2 128) by (change 1 with (bpow radix2 0); apply bpow_le; lia).
    assert (R := R_out_c cs k bt X 0 mw bw (sf_ofZ 53 1024 1) 1 Hbt HX ltac:(lia) Fm Fb (rep_ofZ53 1 ltac:(lia)) S1 S2 ltac:(lra) ltac:(lra)).
    assert (N := ayc_near cs k (IZR bt) M B 1 (IZR 0) (IZR X) (hT bt 0 Hbt) S1 (hX bt X 0 HX)).
    eexists. eexists. split; [reflexivity|]. split; [exact R|].
    replace (M * IZR (act_spec a (bt - 2 * x)) + B) with (yexact (IZR bt) M B 1 (IZR 0) (IZR X)).
    - eapply Rle_trans; [exact N|]. rewrite Rabs_R0. unfold t32, W32. apply Req_le. field.
    - unfold yexact, X. rewrite minus_IZR. field.
  Qed.
End ElemZF.

Open Scope Z_scope.
(** ** Whole convolutions *)
Section Conv32ZF.
  Variables (cs : Z -> bool) (kk : Z -> Z -> bool).
  Variables (pad : padding) (p : bconv).
  Hypothesis WF : bconv_wf p.
  Variables input filter mw bw : list Z.
  Hypothesis Hin : packed input (in_pixels (geom_of p)) (channels_in p).
  Hypothesis Hfl : packed filter (filter_pixels (geom_of p)) (channels_in p / groups p).
  Hypothesis HP : prepared pad p.
  Variable a : activation.
  Hypothesis Hact : zero_padding p = true -> a = ActNone.
  Hypothesis (Hfh : 1 <= f_h p) (Hfw : 1 <= f_w p) (Hsh : 1 <= s_h p) (Hsw : 1 <= s_w p)
             (Hdh : 1 <= dl_h p) (Hdw : 1 <= dl_w p).
  Hypothesis Hfit : zero_padding p = true -> eff (f_h p) (dl_h p) <= in_h p /\ eff (f_w p) (dl_w p) <= in_w p.
  Hypothesis Hsmall : taps (geom_of p) <= 2 ^ 22.
  Hypothesis (Hm : zlen mw = out_c p) (Hb : zlen bw = out_c p).
  Hypothesis Mok : forall c w, rd mw c = Some w -> finite32 w = true /\ (Qabs (exact32 w) <= inject_Z (2 ^ 100))%Q.
  Hypothesis Bok : forall c w, rd bw c = Some w -> finite32 w = true /\ (Qabs (exact32 w) <= inject_Z (2 ^ 100))%Q.
  Variables buf out : list spec_float.
  Hypothesis Hbuf : zlen buf = GetCacheSize (f_h p) (f_w p) (out_c p) (dl_h p) (dl_w p).
  Hypothesis Hout : zlen out = out_pixels (geom_of p) * out_c p.
  Notation cv k := (conv (geom_of p) k (input_pm (geom_of p) input) (filter_pm (geom_of p) filter)).
  Let bt := taps (geom_of p).

  Notation run_c := (run_choice kk).
  Notation close_result_c := (close_result p input filter mw bw a out).

  Lemma bt_range_c : 0 <= bt <= 2 ^ 22.
  Proof. assert (H := taps_nn p WF). rewrite <- (taps_bt p WF) in H. fold bt in H. split; [exact H|exact Hsmall]. Qed.
  Lemma cv_abs_c k b y x c : -1 <= k <= 1 -> Z.abs (cv k b y x c) <= bt.
  Proof.
    intros Hk. destruct (wf_facts p WF) as (_&_&_&HKH&HKW&_&_&_&HCI&_).
    assert (B : - taps (geom_of p) <= cv k b y x c <= taps (geom_of p)) by (apply conv_bound; auto; intros; apply pm_bound).
    fold bt in B. lia.
  Qed.
  Lemma tap_abs_c oc fy fx : Z.abs (tap_total p filter oc fy fx) <= channels_in p / groups p.
  Proof.
    destruct (wf_facts p WF) as (_&_&_&_&_&_&_&_&HCI&_). unfold tap_total.
    assert (K := sum_abs (channels_in p / groups p) (fun c => filter_pm (geom_of p) filter oc fy fx c) 1 HCI).
    rewrite Z.mul_1_r in K. apply K. intros i _. unfold filter_pm.
    assert (H := pm_bound (bit_of filter (words (gCI (geom_of p))) ((oc * gKH (geom_of p) + fy) * gKW (geom_of p) + fx) i)). lia.
  Qed.

  (** The convolution with ones outside the image. *)
  Lemma run1_c t b y x c m bi :
    one_time_setup32_c cs p a mw bw (sf_ofZ 53 1024 1) (sf_ofZ 53 1024 0) = Some t -> 0 <= b < batches p ->
    rd mw c = Some m -> rd bw c = Some bi ->
    exists r v, run_c t (acc_one p input filter b y x c) c = Some r /\ rep24 r v /\
      (Rabs (v - (Q2R (exact32 m) * IZR (act_spec a (cv 1 b y x c)) + Q2R (exact32 bi))) <= 8 * U * W32 bt m bi + t32)%R.
  Proof.
    intros Ht Hbb Hcm Hcb. assert (Hc := rd_bounds _ _ _ Hcm). rewrite Hm in Hc. assert (HOC := out_c_nonneg p WF).
    destruct (setup32_c_ok cs p a mw bw (sf_ofZ 53 1024 1) (sf_ofZ 53 1024 0) HOC Hm Hb) as (t' & Ht' & E1 & E2 & E3).
    assert (t' = t) by congruence. subst t'. destruct (E3 c m bi Hcm Hcb) as [E4 E5].
    rewrite <- (taps_bt p WF) in E1, E2, E4, E5. fold bt in E1, E2, E4, E5.
    assert (EC := acc_one_conv p WF input filter Hin Hfl b y x c Hbb Hc). fold bt in EC.
    assert (BC := cv_abs_c 1 b y x c ltac:(lia)). rewrite <- EC in BC.
    destruct (Mok _ _ Hcm) as [Fm Qm]. destruct (Bok _ _ Hcb) as [Fb Qb]. assert (T := bt_range_c).
    destruct (run_rep_c (cs c) (kk (acc_one p input filter b y x c) c) bt m bi T Fm Fb Qm Qb a (acc_one p input filter b y x c) t c ltac:(lia) E1 E2 E4 E5) as (r & v & Er & Rr & Cr).
    rewrite EC in Cr. exists r, v. split; [exact Er|]. split; assumption.
  Qed.
  Definition v1_c (t : otp spec_float) (b y x c : Z) : spec_float :=
    match run_c t (acc_one p input filter b y x c) c with Some r => r | None => S754_nan end.
  Lemma run_v1_c t : one_time_setup32_c cs p a mw bw (sf_ofZ 53 1024 1) (sf_ofZ 53 1024 0) = Some t ->
    forall b y x c, 0 <= b < batches p -> 0 <= c < out_c p ->
    run_c t (acc_one p input filter b y x c) c = Some (v1_c t b y x c).
  Proof.
    intros Ht b y x c Hbb Hc. destruct (rd_some mw c ltac:(lia)) as [m Hcm]. destruct (rd_some bw c ltac:(lia)) as [bi Hcb].
    destruct (run1_c t b y x c m bi Ht Hbb Hcm Hcb) as (r & v & Er & _). unfold v1_c. rewrite Er. reflexivity.
  Qed.
  Let kv (dir y x oc : Z) : spec_float :=
    match rd mw oc with
    | Some m => sf_emit m (cf32 filter (f_h p) (f_w p) (channels_in p / groups p) (dl_h p) (dl_w p) dir y x oc)
    | None => S754_nan end.
  Lemma taps_split_c : bt = f_h p * f_w p * (channels_in p / groups p).
  Proof. unfold bt, taps. cbn. reflexivity. Qed.

  Lemma corrected32_c t : one_time_setup32_c cs p a mw bw (sf_ofZ 53 1024 1) (sf_ofZ 53 1024 0) = Some t ->
    wp (padding_buffer32 p filter mw buf) (fun cache => forall o, zlen o = zlen out ->
      (forall b y x c, 0 <= b < batches p -> 0 <= y < out_h p -> 0 <= x < out_w p -> 0 <= c < out_c p ->
         rd o (Offset (out_h p) (out_w p) (out_c p) b y x c) = Some (v1_c t b y x c)) ->
      wp (correct32 p cache o) close_result_c).
  Proof.
    intros Ht. unfold padding_buffer32, correct32. destruct (zero_padding p) eqn:Ez.
    - (* zero padding *)
      assert (EP : pad = PadSame).
      { destruct HP as (_ & _ & Hu & Hs). unfold zero_padding in Ez. apply andb_prop in Ez. destruct Ez as [Ez _]. rewrite Ez in Hs.
        destruct pad; congruence || reflexivity. }
      rewrite EP in HP. destruct (Hfit eq_refl) as [Heh Hew]. assert (Ea := Hact eq_refl). assert (HOC := out_c_nonneg p WF).
      destruct (wf_facts p WF) as (_&_&_&_&_&_&_&_&HCI&_).
      assert (Hcur := cur_ok p WF filter Hfl). rewrite (quot_ci p WF) in *.
      assert (Hcb : forall oc fy fx, 0 <= oc < out_c p -> 0 <= fy < f_h p -> 0 <= fx < f_w p ->
        Z.abs (tap_total p filter oc fy fx) <= channels_in p / groups p) by (intros; apply tap_abs_c).
      assert (HT := Hsmall). fold bt in HT. rewrite taps_split_c in HT.
      assert (Hloop := cf32_loop filter (f_h p) (f_w p) (out_c p) (channels_in p / groups p) (dl_h p) (dl_w p) (tap_total p filter)
        Hfh Hfw HCI Hcur Hcb HT).
      destruct (cacheg_ok (S754_zero false) sf_plus sf_emit filter (f_h p) (f_w p) (out_c p) (channels_in p / groups p) (dl_h p) (dl_w p) mw
        (cf32 filter (f_h p) (f_w p) (channels_in p / groups p) (dl_h p) (dl_w p)) Hfh Hfw HOC Hdh Hdw Hm Hloop buf Hbuf) as (cache & Ec & _ & Cc).
      rewrite Ec. cbn [wp]. intros o Lo Ho.
      assert (Lo' : zlen o = out_pixels (geom_of p) * out_c p) by congruence.
      eapply wp_mono; [apply (applyg_ok p WF HP Hfh Hfw Hsh Hsw Hdh Hdw Heh Hew (SFadd 24 128) (tap_total p filter) cache kv)|].
      + intros dir y x oc H1 H2 H3 H4. destruct (rd_some mw oc ltac:(lia)) as [m Em]. assert (K := Cc dir y x oc m H1 H2 H3 Em).
        unfold kv. rewrite Em. exact K.
      + exact Lo'.
      + intros o' (L' & C'). split; [congruence|]. intros b y x c m bi Hbb Hy Hx Hcm Hcb'.
        assert (Hc := rd_bounds _ _ _ Hcm). rewrite Hm in Hc.
        destruct (run1_c t b y x c m bi Ht Hbb Hcm Hcb') as (r0 & v & Er & Rr & Vr).
        destruct (C' b y x c (v1_c t b y x c) Hbb Hy Hx Hc (Ho b y x c Hbb Hy Hx Hc)) as (r & Hr & HF).
        assert (Ev : v1_c t b y x c = r0) by (unfold v1_c; rewrite Er; reflexivity). rewrite Ev in HF.
        rewrite Ea in Vr |- *. cbn [act_spec] in Vr |- *. rewrite Ez.
        destruct (Mok _ _ Hcm) as [Fm Qm]. destruct (Bok _ _ Hcb') as [Fb Qb].
        assert (CS := conv_split p filter (input_pm (geom_of p) input) b y x c). rewrite CS in Vr.
        exists r. split; [exact Hr|].
        assert (Fin : exists v', rep24 r v' /\ (Rabs (v' - (Q2R (exact32 m) * IZR (cv 0 b y x c) + Q2R (exact32 bi))) <= 16 * U * W32 bt m bi + 2 * t32)%R).
        { destruct HF as [[-> E0]|(dir & Y & X & Hd & HY & HX & -> & E0)].
          - exists v. split; [exact Rr|]. rewrite E0, Z.add_0_r in Vr. eapply Rle_trans; [exact Vr|].
            destruct (W_small bt m bi bt_range_c Qm Qb) as [W0 _]. destruct t32_facts as [T0 _]. assert (He := eta_U). rewrite U_val in *. lra.
          - unfold kv. rewrite Hcm.
            apply (fix_rep bt m bi bt_range_c Fm Qm Qb r0 v (cv 0 b y x c) (outside_sum p (tap_total p filter) y x c)); try assumption.
            + apply cv_abs_c. lia.
            + rewrite <- E0. rewrite taps_split_c. eapply corr_abs; eauto.
            + rewrite <- E0. eapply cf32_rep; eauto. }
        destruct Fin as (v' & Rv & Cv').
        apply (to_Q bt m bi r v'); [exact Rv|]. rewrite Q2R_plus, Q2R_mult, Q2R_Z. exact Cv'.
    - cbn [wp]. intros o Lo Ho. split; [exact Lo|]. intros b y x c m bi Hbb Hy Hx Hcm Hcb'. rewrite Ez.
      assert (Hc := rd_bounds _ _ _ Hcm). rewrite Hm in Hc.
      destruct (run1_c t b y x c m bi Ht Hbb Hcm Hcb') as (r0 & v & Er & Rr & Vr).
      assert (Ev : v1_c t b y x c = r0) by (unfold v1_c; rewrite Er; reflexivity).
      exists r0. split; [etransitivity; [apply (Ho b y x c Hbb Hy Hx Hc)|congruence]|].
      destruct (Mok _ _ Hcm) as [Fm Qm]. destruct (Bok _ _ Hcb') as [Fb Qb].
      apply (to_Q bt m bi r0 v); [exact Rr|]. rewrite Q2R_plus, Q2R_mult, Q2R_Z. eapply Rle_trans; [exact Vr|].
      destruct (W_small bt m bi bt_range_c Qm Qb) as [W0 _]. destruct t32_facts as [T0 _]. assert (He := eta_U). rewrite U_val in *. lra.
  Qed.

  Lemma setup32_some_c : exists t, one_time_setup32_c cs p a mw bw (sf_ofZ 53 1024 1) (sf_ofZ 53 1024 0) = Some t.
  Proof.
    destruct (setup32_c_ok cs p a mw bw (sf_ofZ 53 1024 1) (sf_ofZ 53 1024 0) (out_c_nonneg p WF) Hm Hb) as (t & Ht & _). exists t. exact Ht.
  Qed.
  Lemma indirect32_c : 1 <= f_d p -> int32_indices p ->
    exists o, eval_indirect_float32_c cs kk p a input filter mw bw buf out = Some o /\ close_result_c o.
  Proof.
    intros Hfd Hint. apply wp_iff. unfold eval_indirect_float32_c.
    destruct setup32_some_c as [t Ht]. rewrite Ht. cbn [bind].
    assert (HC := corrected32_c t Ht). apply wp_iff in HC. destruct HC as (cache & Ec & HC). rewrite Ec. cbn [bind].
    destruct (indirect_val_one p WF input filter Hin Hfl Hfh Hfw Hfd Hint (run_c t) (v1_c t) out) as (o & E & L & C).
    - intros. apply run_v1_c; assumption.
    - exact Hout.
    - rewrite E. cbn [bind]. apply HC; assumption.
  Qed.
  Lemma bgemm32_c kr lc rc sch : groups p = 1 ->
    0 < kr -> 0 < lc -> 0 < rc -> conv_schedule_ok kr lc rc p input sch ->
    eval_bgemm_float32_c cs kk kr lc rc sch p a input filter mw bw buf out close_result_c.
  Proof.
    intros HG Hkr Hlc Hrc HS. unfold eval_bgemm_float32_c.
    destruct setup32_some_c as [t Ht]. rewrite Ht. cbn [wp].
    assert (HC := corrected32_c t Ht). apply wp_iff in HC. destruct HC as (cache & Ec & HC). rewrite Ec. cbn [wp].
    eapply bgemm_conv_val_mono.
    - apply (bgemm_val_one pad p WF input filter Hin Hfl HG HP kr lc rc sch Hkr Hlc Hrc HS (run_c t) (v1_c t) out).
      + intros. apply run_v1_c; assumption.
      + exact Hout.
    - intros o (L & C). apply HC; assumption.
  Qed.
End Conv32ZF.
