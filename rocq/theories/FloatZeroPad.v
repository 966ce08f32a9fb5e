(** * The zero-padding correction of the optimised kernels in IEEE arithmetic. *)
From Coq Require Import ZArith Reals Psatz Lia SpecFloat QArith Qround Qreals Qabs.
From Flocq Require Import Core BinarySingleNaN.
From Verif Require Import Base Spec Bits Loop4 Bitpack Float32 Reference OutputTransform Quantize RefTheorems Padding
  Log Bgemm BgemmProofs IndirectBuf IndirectTop BgemmConv Indirect
  Threshold ThresholdFloat FlocqBridge ThresholdMargin ThresholdConv FloatSetup FloatAccuracy FloatConv ZeroPad.
#[local] Existing Instance p24.
#[local] Existing Instance e128.
Open Scope Z_scope.

(** ** Model *)
(** zero_padding_correction.h 114, 133, 138-155: [corrections] are floats, the
    int [cur_correction] is converted to float and added. *)
Definition sf_plus (c : spec_float) (k : Z) : spec_float := SFadd 24 128 c (sf_ofZ 24 128 k).
(** zero_padding_correction.h 167-168: (-1.0f * m) * correction, [m] a binary32 word. *)
Definition sf_emit (m : Z) (c : spec_float) : spec_float :=
  SFmul 24 128 (SFmul 24 128 (sf_ofZ 24 128 (-1)) (decode32 m)) c.
(** bconv2d.cc 337-352 *)
Definition padding_buffer32 (p : bconv) (filter mw : list Z) (buf : list spec_float) : option (list spec_float) :=
  if zero_padding p then
    CacheG (S754_zero false) sf_plus sf_emit filter (f_h p) (f_w p) (out_c p) (Z.quot (channels_in p) (groups p))
      (dl_h p) (dl_w p) mw buf
  else Some buf.
(** optimized_bgemm.h 152-181 / optimized_indirect_bgemm.h 37-62 *)
Definition correct32 (p : bconv) (cache out : list spec_float) : option (list spec_float) :=
  if zero_padding p then ApplyG (SFadd 24 128) p cache out else Some out.
(** bconv2d.cc 416-496: setup, kernel and correction with float output. *)
Definition eval_bgemm_float32 (kr lc rc : Z) (sch : schedule) (p : bconv) (a : activation) (input filter mw bw : list Z)
    (buf out : list spec_float) (Post : list spec_float -> Prop) : Prop :=
  wp (one_time_setup32 p a mw bw (sf_ofZ 53 1024 1) (sf_ofZ 53 1024 0)) (fun t =>
  wp (padding_buffer32 p filter mw buf) (fun cache =>
  bgemm_conv_val kr lc rc sch p input filter (run_float sfops t) out (fun out =>
  wp (correct32 p cache out) Post))).
Definition eval_indirect_float32 (p : bconv) (a : activation) (input filter mw bw : list Z)
    (buf out : list spec_float) : option (list spec_float) :=
  let* t := one_time_setup32 p a mw bw (sf_ofZ 53 1024 1) (sf_ofZ 53 1024 0) in
  let* cache := padding_buffer32 p filter mw buf in
  let* out := indirect_val p input filter (run_float sfops t) out in
  correct32 p cache out.

(** ** The sums of taps are exact *)
Lemma sum_abs n f B : 0 <= n -> (forall i, 0 <= i < n -> Z.abs (f i) <= B) -> Z.abs (sum_ n f) <= n * B.
Proof.
  intros Hn. pattern n. apply natlike_ind; [|clear n Hn; intros n Hn IH H|exact Hn].
  - intros _. rewrite sum_0 by lia. lia.
  - unfold Z.succ. rewrite sum_succ by lia. assert (H1 := IH ltac:(intros; apply H; lia)). assert (H2 := H n ltac:(lia)). lia.
Qed.
Lemma sf_plus_rep c k v : rep24 c (IZR k) -> Z.abs v <= 2 ^ 22 -> Z.abs (k + v) <= 2 ^ 22 -> rep24 (sf_plus c v) (IZR (k + v)).
Proof.
  intros Hc Hv Hk. assert (E : rn (IZR k + IZR v) = IZR (k + v)) by (rewrite <- plus_IZR; apply rnd_id; apply format_Z; lia).
  rewrite <- E. apply (rep_add 24 128 p24 e128); [exact Hc|apply rep_ofZ24; lia|]. rewrite E.
  eapply Rlt_trans; [apply (Z_abs_lt_IZR _ 24); lia|]. apply bpow_lt. lia.
Qed.
Section Cache32.
  Variables (filter : list Z) (fh fw fc ci dr dc : Z) (cur : Z -> Z -> Z -> Z).
  Hypothesis (Hfh : 1 <= fh) (Hfw : 1 <= fw) (Hci : 0 <= ci).
  Hypothesis Hcur : forall oc fy fx, 0 <= oc < fc -> 0 <= fy < fh -> 0 <= fx < fw ->
    cur_correction filter fh fw ci oc fy fx = Some (cur oc fy fx).
  Hypothesis Hcb : forall oc fy fx, 0 <= oc < fc -> 0 <= fy < fh -> 0 <= fx < fw -> Z.abs (cur oc fy fx) <= ci.
  Hypothesis Hsmall : fh * fw * ci <= 2 ^ 22.
  Let efh := (fh - 1) * dr + 1.
  Let efw := (fw - 1) * dc + 1.
  Definition loop32 (y x oc : Z) : option (spec_float * spec_float * spec_float * spec_float) :=
    for_ 0 fh (fun fy s => for_ 0 fw (fun fx '(c0, c1, c2, c3) =>
        let* cur := cur_correction filter fh fw ci oc fy fx in
        let ex := dc * fx in
        let ey := dr * fy in
        let c0 := if (ey <? y) || (ex <? x) then sf_plus c0 cur else c0 in
        let c1 := if (ey <? y) || (efw - ex <=? x) then sf_plus c1 cur else c1 in
        let c2 := if (efh - ey <=? y) || (ex <? x) then sf_plus c2 cur else c2 in
        let c3 := if (efh - ey <=? y) || (efw - ex <=? x) then sf_plus c3 cur else c3 in
        Some (c0, c1, c2, c3)) s) (S754_zero false, S754_zero false, S754_zero false, S754_zero false).
  Definition cf32 (dir y x oc : Z) : spec_float :=
    match loop32 y x oc with
    | Some (c0, c1, c2, c3) => if dir =? 0 then c0 else if dir =? 1 then c1 else if dir =? 2 then c2 else c3
    | None => S754_nan end.
  Definition R4 (k : Z -> Z) (q : spec_float * spec_float * spec_float * spec_float) : Prop :=
    let '(c0, c1, c2, c3) := q in
    rep24 c0 (IZR (k 0)) /\ rep24 c1 (IZR (k 1)) /\ rep24 c2 (IZR (k 2)) /\ rep24 c3 (IZR (k 3)).
  Lemma loop32_ok y x oc : 0 <= oc < fc ->
    exists q, loop32 y x oc = Some q /\ R4 (fun dir => corr fh fw dr dc cur dir y x oc) q.
  Proof.
    intros Hoc. apply wp_iff. unfold loop32.
    set (t := fun dir fy fx => if case_cond efh efw dr dc dir y x fy fx then cur oc fy fx else 0).
    assert (Ht : forall dir fy fx, 0 <= fy < fh -> 0 <= fx < fw -> Z.abs (t dir fy fx) <= ci).
    { intros dir fy fx Hy Hx. unfold t. destruct (case_cond _ _ _ _ _ _ _ _ _); [apply Hcb; assumption|]. lia. }
    assert (Hp : forall dir fy fx, 0 <= fy < fh -> 0 <= fx <= fw ->
      Z.abs (sum_ fy (fun fy => sum_ fw (t dir fy)) + sum_ fx (t dir fy)) <= 2 ^ 22).
    { intros dir fy fx Hy Hx.
      assert (A1 : Z.abs (sum_ fy (fun fy => sum_ fw (t dir fy))) <= fy * (fw * ci)).
      { apply sum_abs; [lia|]. intros i Hi. apply sum_abs; [lia|]. intros j Hj. apply Ht; lia. }
      assert (A2 : Z.abs (sum_ fx (t dir fy)) <= fx * ci).
      { apply sum_abs; [lia|]. intros j Hj. apply Ht; lia. }
      assert (A3 : fx * ci <= fw * ci) by (apply Z.mul_le_mono_nonneg_r; lia).
      assert (A4 : (fy + 1) * (fw * ci) <= fh * (fw * ci)) by (apply Z.mul_le_mono_nonneg_r; [apply Z.mul_nonneg_nonneg; lia|lia]).
      rewrite Z.mul_assoc in A4. lia. }
    apply (for_wp (fun fy q => R4 (fun dir => sum_ fy (fun fy => sum_ fw (t dir fy))) q)).
    - cbn [R4]. rewrite !sum_0 by lia. repeat split; apply rep_zero.
    - intros fy q Hfy Hq.
      apply (for_wp (fun fx q => R4 (fun dir => sum_ fy (fun fy => sum_ fw (t dir fy)) + sum_ fx (t dir fy)) q)).
      + destruct q as (((c0, c1), c2), c3). cbn [R4] in *. rewrite !(sum_0 0) by lia. rewrite !Z.add_0_r. exact Hq.
      + intros fx (((c0, c1), c2), c3) Hfx (R0 & R1 & R2 & R3). rewrite Hcur by assumption. cbn [bind wp].
        assert (K : forall dir (cnd : bool) c, cnd = case_cond efh efw dr dc dir y x fy fx ->
          rep24 c (IZR (sum_ fy (fun fy => sum_ fw (t dir fy)) + sum_ fx (t dir fy))) ->
          rep24 (if cnd then sf_plus c (cur oc fy fx) else c) (IZR (sum_ fy (fun fy => sum_ fw (t dir fy)) + sum_ (fx + 1) (t dir fy)))).
        { intros dir cnd c -> Hc. assert (B := Hp dir fy (fx + 1) Hfy ltac:(lia)). rewrite sum_succ in * by lia.
          rewrite Z.add_assoc in *.
          assert (Et : t dir fy fx = if case_cond efh efw dr dc dir y x fy fx then cur oc fy fx else 0) by reflexivity.
          assert (Bt := Ht dir fy fx Hfy Hfx).
          assert (Bci : ci <= 2 ^ 22) by (clear - Hsmall Hfh Hfw Hci; nia).
          destruct (case_cond _ _ _ _ _ _ _ _ _); rewrite Et in *.
          - apply sf_plus_rep; [exact Hc|lia|exact B].
          - rewrite Z.add_0_r. exact Hc. }
        cbv zeta. cbn [R4].
        split; [apply (K 0); [reflexivity|exact R0]|]. split; [apply (K 1); [reflexivity|exact R1]|].
        split; [apply (K 2); [reflexivity|exact R2]|apply (K 3); [reflexivity|exact R3]].
      + intros (((c0, c1), c2), c3) Hq'. rewrite Z.max_r in Hq' by lia. cbn [R4] in *. rewrite !(sum_succ fy) by lia. exact Hq'.
    - rewrite Z.max_r by lia. intros q Hq. exact Hq.
  Qed.
  Lemma cf32_loop y x oc : 0 <= oc < fc -> loop32 y x oc = Some (cf32 0 y x oc, cf32 1 y x oc, cf32 2 y x oc, cf32 3 y x oc).
  Proof. intros H. destruct (loop32_ok y x oc H) as ((((c0, c1), c2), c3) & E & _). unfold cf32. rewrite E. reflexivity. Qed.
  Lemma cf32_rep dir y x oc : 0 <= dir < 4 -> 0 <= oc < fc -> rep24 (cf32 dir y x oc) (IZR (corr fh fw dr dc cur dir y x oc)).
  Proof.
    intros Hd H. destruct (loop32_ok y x oc H) as ((((c0, c1), c2), c3) & E & R0 & R1 & R2 & R3). unfold cf32. rewrite E.
    assert (K : dir = 0 \/ dir = 1 \/ dir = 2 \/ dir = 3) by lia. destruct K as [-> | [-> | [-> | ->]]]; assumption.
  Qed.
  Lemma corr_abs dir y x oc : 0 <= oc < fc -> Z.abs (corr fh fw dr dc cur dir y x oc) <= fh * fw * ci.
  Proof.
    intros Hoc. unfold corr, sel_sum. rewrite <- Z.mul_assoc. apply sum_abs; [lia|]. intros fy Hy. apply sum_abs; [lia|].
    intros fx Hx. destruct (case_cond _ _ _ _ _ _ _ _ _); [apply Hcb; assumption|]. lia.
  Qed.
End Cache32.

(** ** One corrected output *)
Open Scope R_scope.
Lemma fix_near T M B c0 K r0 t :
  0 <= T -> Rabs c0 <= T -> Rabs K <= T -> 100 * eta <= t ->
  let W := Rabs B + T * Rabs M in
  Rabs (r0 - (M * (c0 + K) + B)) <= 8 * U * W + t ->
  Rabs (r0 + rn (-1 * M * K) - (M * c0 + B)) <= 9 * U * W + t + eta /\
  Rabs (rn (r0 + rn (-1 * M * K)) - (M * c0 + B)) <= 16 * U * W + 2 * t.
Proof.
  intros HT Hc HK Ht W Hr. assert (E1 := rn_err (-1 * M * K)).
  assert (HM := Rabs_pos M). assert (HB := Rabs_pos B).
  assert (A1 : Rabs (-1 * M * K) <= T * Rabs M).
  { replace (-1 * M * K) with (K * - M) by ring. rewrite Rabs_mult, Rabs_Ropp. apply Rmult_le_compat_r; assumption. }
  assert (A2 : Rabs (M * c0 + B) <= W).
  { eapply Rle_trans; [apply Rabs_triang|]. rewrite Rabs_mult. unfold W. assert (Rabs M * Rabs c0 <= T * Rabs M) by (rewrite Rmult_comm; apply Rmult_le_compat_r; assumption). lra. }
  assert (TM : T * Rabs M <= W) by (unfold W; lra). assert (TM0 : 0 <= T * Rabs M) by (apply Rmult_le_pos; assumption).
  set (kv := rn (-1 * M * K)) in *.
  assert (A3 : Rabs (r0 + kv - (M * c0 + B)) <= 9 * U * W + t + eta).
  { replace (r0 + kv - (M * c0 + B)) with ((r0 - (M * (c0 + K) + B)) + (kv - -1 * M * K)) by ring.
    eapply Rle_trans; [apply Rabs_triang|]. rewrite U_val in *. lra. }
  split; [exact A3|].
  assert (E2 := rn_err (r0 + kv)). assert (N := near_abs _ _ _ A3).
  replace (rn (r0 + kv) - (M * c0 + B)) with ((rn (r0 + kv) - (r0 + kv)) + (r0 + kv - (M * c0 + B))) by ring.
  eapply Rle_trans; [apply Rabs_triang|]. assert (He := eta_U). rewrite U_val in *. lra.
Qed.
Lemma neg_exact w : finite32 w = true -> rep24 (SFmul 24 128 (sf_ofZ 24 128 (-1)) (decode32 w)) (-1 * SF2R radix2 (decode32 w)).
Proof.
  intros H. assert (R := rep_decode w H). assert (F := rep_format _ _ _ _ R).
  assert (E : rn (IZR (-1) * SF2R radix2 (decode32 w)) = -1 * SF2R radix2 (decode32 w)).
  { replace (IZR (-1) * SF2R radix2 (decode32 w)) with (- SF2R radix2 (decode32 w)) by ring.
    replace (-1 * SF2R radix2 (decode32 w)) with (- SF2R radix2 (decode32 w)) by ring.
    apply rnd_id. apply generic_format_opp. exact F. }
  rewrite <- E at 1. apply (rep_mul 24 128 p24 e128); [apply rep_ofZ24; lia|exact R|]. rewrite E.
  replace (-1 * SF2R radix2 (decode32 w)) with (- SF2R radix2 (decode32 w)) by ring. rewrite Rabs_Ropp.
  destruct R as (X & _ & _ & <-). apply abs_B2R_lt_emax.
Qed.

Section Elem32.
  Variables (bt mw bw : Z).
  Hypothesis Hbt : (0 <= bt <= 2 ^ 22)%Z.
  Hypothesis Fm : finite32 mw = true.
  Hypothesis Fb : finite32 bw = true.
  Hypothesis Hm : (Qabs (exact32 mw) <= inject_Z (2 ^ 100))%Q.
  Hypothesis Hb : (Qabs (exact32 bw) <= inject_Z (2 ^ 100))%Q.
  Notation sc := (setup_channel bt (sf_ofZ 53 1024 1) (sf_ofZ 53 1024 0) (widen (decode32 mw)) (widen (decode32 bw))).
  Notation M := (Q2R (exact32 mw)).
  Notation B := (Q2R (exact32 bw)).
  Definition t32 : R := 8 * (bpow radix2 22 * eta).
  Definition W32 : R := Rabs B + IZR bt * Rabs M.
  Lemma boundM : Rabs M <= bpow radix2 100 /\ Rabs B <= bpow radix2 100.
  Proof. rewrite (bpow_Z 100) by lia. rewrite <- !Q2R_abs. split; apply Qle_Rle; assumption. Qed.
  Lemma W_small : 0 <= W32 /\ W32 <= 2 * bpow radix2 122.
  Proof.
    destruct boundM as [HM HB]. unfold W32. assert (T := hT bt 0 Hbt). assert (0 <= Rabs M) by apply Rabs_pos. assert (0 <= Rabs B) by apply Rabs_pos.
    assert (IZR bt * Rabs M <= bpow radix2 122).
    { replace (bpow radix2 122) with (bpow radix2 22 * bpow radix2 100) by (rewrite <- bpow_plus; reflexivity). apply Rmult_le_compat; tauto || lra. }
    assert (bpow radix2 100 <= bpow radix2 122) by (apply bpow_le; lia). split; [|lra].
    assert (0 <= IZR bt * Rabs M) by (apply Rmult_le_pos; lra). lra.
  Qed.
  Lemma t32_facts : 100 * eta <= t32 /\ t32 <= 1.
  Proof.
    unfold t32. assert (0 < eta) by apply bpow_gt_0. split.
    - assert (16 <= bpow radix2 22) by (change 16 with (bpow radix2 4); apply bpow_le; lia).
      assert (16 * eta <= bpow radix2 22 * eta) by (apply Rmult_le_compat_r; lra). lra.
    - replace 8 with (bpow radix2 3) by reflexivity. unfold eta. rewrite <- !bpow_plus. change 1 with (bpow radix2 0). apply bpow_le. lia.
  Qed.
  Lemma run_rep a x (t : otp spec_float) c : (0 <= x <= bt)%Z ->
    ot_min t = (- Z.min (snd (activation_range a)) bt + bt)%Z ->
    ot_max t = (- Z.max (fst (activation_range a)) (- bt) + bt)%Z ->
    rd (ot_mult t) c = Some (fst sc) -> rd (ot_bias t) c = Some (snd sc) ->
    exists r v, run_float sfops t x c = Some r /\ rep24 r v /\
      Rabs (v - (M * IZR (act_spec a (bt - 2 * x)) + B)) <= 8 * U * W32 + t32.
  Proof.
    intros Hx E1 E2 E3 E4. unfold run_float. rewrite E3, E4. cbn [bind f_add f_mul f_ofZ sfops]. rewrite E1, E2.
    set (X := (bt - act_spec a (bt - 2 * x))%Z).
    assert (HX : (0 <= X <= 2 * bt)%Z) by (unfold X; clear - Hbt Hx; destruct a; cbn [act_spec]; lia).
    replace (Z.max _ _) with X.
    2:{ unfold X. rewrite <- (clamp_act a bt (bt - 2 * x)) by lia. rewrite Z.shiftl_mul_pow2 by lia.
        replace (bt - (bt - 2 * x))%Z with (x * 2 ^ 1)%Z by lia. lia. }
    destruct boundM as [HM HB].
    assert (S1 : bpow radix2 (-126) <= 1) by (change 1 with (bpow radix2 0); apply bpow_le; lia).
    assert (S2 : 1 <= bpow radix2 128) by (change 1 with (bpow radix2 0); apply bpow_le; lia).
    assert (R := R_out bt X 0 mw bw (sf_ofZ 53 1024 1) 1 Hbt HX ltac:(lia) Fm Fb (rep_ofZ53 1 ltac:(lia)) S1 S2 ltac:(lra) ltac:(lra)).
    assert (N := ay_near (IZR bt) M B 1 (IZR 0) (IZR X) (hT bt 0 Hbt) S1 (hX bt X 0 HX)).
    eexists. eexists. split; [reflexivity|]. split; [exact R|].
    replace (M * IZR (act_spec a (bt - 2 * x)) + B) with (yexact (IZR bt) M B 1 (IZR 0) (IZR X)).
    - eapply Rle_trans; [exact N|]. rewrite Rabs_R0. unfold t32, W32. apply Req_le. field.
    - unfold yexact, X. rewrite minus_IZR. field.
  Qed.
  (** The corrected output, for the sum [K] of the taps outside the image. *)
  Lemma fix_rep r v c0 K (k : spec_float) :
    rep24 r v -> Rabs (v - (M * IZR (c0 + K) + B)) <= 8 * U * W32 + t32 ->
    (Z.abs c0 <= bt)%Z -> (Z.abs K <= bt)%Z -> rep24 k (IZR K) ->
    exists v', rep24 (SFadd 24 128 r (sf_emit mw k)) v' /\ Rabs (v' - (M * IZR c0 + B)) <= 16 * U * W32 + 2 * t32.
  Proof.
    intros Rr Hv Hc HK Rk. destruct t32_facts as [T1 T2]. destruct W_small as [W0 W1]. destruct boundM as [HM HB].
    assert (H0 : 0 <= IZR bt) by (apply IZR_le; lia).
    assert (Hc' : Rabs (IZR c0) <= IZR bt) by (rewrite <- abs_IZR; apply IZR_le; exact Hc).
    assert (HK' : Rabs (IZR K) <= IZR bt) by (rewrite <- abs_IZR; apply IZR_le; exact HK).
    rewrite plus_IZR in Hv.
    destruct (fix_near (IZR bt) M B (IZR c0) (IZR K) v t32 H0 Hc' HK' T1 Hv) as [A1 A2]. fold W32 in A1, A2.
    assert (HMK : Rabs (-1 * M * IZR K) <= W32).
    { replace (-1 * M * IZR K) with (IZR K * - M) by ring. rewrite Rabs_mult, Rabs_Ropp.
      assert (Rabs (IZR K) * Rabs M <= IZR bt * Rabs M) by (apply Rmult_le_compat_r; [apply Rabs_pos|assumption]).
      unfold W32. assert (0 <= Rabs B) by apply Rabs_pos. lra. }
    assert (P : bpow radix2 126 = 16 * bpow radix2 122) by (change 126%Z with (4 + 122)%Z; rewrite bpow_plus; f_equal).
    assert (P1 : 1 <= bpow radix2 122) by (change 1 with (bpow radix2 0); apply bpow_le; lia).
    assert (He := eta_U).
    assert (HMc : Rabs (M * IZR c0 + B) <= W32).
    { eapply Rle_trans; [apply Rabs_triang|]. rewrite Rabs_mult. unfold W32.
      assert (Rabs M * Rabs (IZR c0) <= IZR bt * Rabs M) by (rewrite Rmult_comm; apply Rmult_le_compat_r; [apply Rabs_pos|assumption]). lra. }
    exists (rn (v + rn (-1 * M * IZR K))). split; [|exact A2].
    apply (rep_add 24 128 p24 e128); [exact Rr| |].
    - unfold sf_emit. apply (rep_mul 24 128 p24 e128); [|exact Rk|].
      + assert (Q := neg_exact mw Fm). rewrite <- (SF2Q_R (decode32 mw)) in Q. exact Q.
      + apply rn_small. rewrite P. lra.
    - apply rn_small. apply near_abs in A1. rewrite P. rewrite U_val in *. lra.
  Qed.
  (** On the rationals. *)
  Lemma to_Q r v e : rep24 r v -> Rabs (v - Q2R e) <= 16 * U * W32 + 2 * t32 ->
    is_finite_SF r = true /\ (Qabs (SF2Q r - e) <= (1 # 2 ^ 20) * (Qabs (exact32 bw) + inject_Z bt * Qabs (exact32 mw)) + (1 # 2 ^ 124))%Q.
  Proof.
    intros Rr Hv. destruct (rep_val _ _ _ _ Rr) as [Fr Er]. split; [exact Fr|]. apply Rle_Qle.
    rewrite Q2R_abs, Q2R_minus, SF2Q_R, Er. eapply Rle_trans; [exact Hv|].
    rewrite Q2R_plus, Q2R_mult, Q2R_plus, Q2R_mult, !Q2R_abs, Q2R_Z. fold W32.
    assert (E2 : Q2R (inject_Z 2) = 2) by apply (Q2R_Z 2).
    assert (E20 : Q2R (1 # 2 ^ 20) = 16 * U).
    { replace (16 * U) with (2 * (8 * U)) by ring. rewrite U21. rewrite <- E2 at 1. rewrite <- Q2R_mult. apply Qeq_eqR. reflexivity. }
    assert (E124 : Q2R (1 # 2 ^ 124) = 2 * Q2R (1 # 2 ^ 125)).
    { rewrite <- E2 at 1. rewrite <- Q2R_mult. apply Qeq_eqR. reflexivity. }
    rewrite E20, E124. assert (Ts := tau_small). fold t32 in Ts. lra.
  Qed.
End Elem32.

Open Scope Z_scope.
(** ** Whole convolutions *)
Section Conv32Z.
  Variables (pad : padding) (p : bconv).
  Hypothesis WF : bconv_wf p.
  Variables input filter mw bw : list Z.
  Hypothesis Hin : packed input (in_pixels (geom_of p)) (channels_in p).
  Hypothesis Hfl : packed filter (filter_pixels (geom_of p)) (channels_in p / groups p).
  Hypothesis HP : prepared pad p.
  Variable a : activation.
  Hypothesis Hact : zero_padding p = true -> a = ActNone.
  Hypothesis (Hfh : 1 <= f_h p) (Hfw : 1 <= f_w p) (Hsh : 1 <= s_h p) (Hsw : 1 <= s_w p)
             (Hdh : 1 <= dl_h p) (Hdw : 1 <= dl_w p).
  Hypothesis Hfit : zero_padding p = true -> eff (f_h p) (dl_h p) <= in_h p /\ eff (f_w p) (dl_w p) <= in_w p.
  Hypothesis Hsmall : taps (geom_of p) <= 2 ^ 22.
  Hypothesis (Hm : zlen mw = out_c p) (Hb : zlen bw = out_c p).
  Hypothesis Mok : forall c w, rd mw c = Some w -> finite32 w = true /\ (Qabs (exact32 w) <= inject_Z (2 ^ 100))%Q.
  Hypothesis Bok : forall c w, rd bw c = Some w -> finite32 w = true /\ (Qabs (exact32 w) <= inject_Z (2 ^ 100))%Q.
  Variables buf out : list spec_float.
  Hypothesis Hbuf : zlen buf = GetCacheSize (f_h p) (f_w p) (out_c p) (dl_h p) (dl_w p).
  Hypothesis Hout : zlen out = out_pixels (geom_of p) * out_c p.
  Notation cv k := (conv (geom_of p) k (input_pm (geom_of p) input) (filter_pm (geom_of p) filter)).
  Let bt := taps (geom_of p).

  Definition close_result (o : list spec_float) : Prop :=
    zlen o = zlen out /\
    forall b y x c m bi, 0 <= b < batches p -> 0 <= y < out_h p -> 0 <= x < out_w p ->
      rd mw c = Some m -> rd bw c = Some bi ->
      exists r, rd o (out_pixel (geom_of p) b y x * out_c p + c) = Some r /\ is_finite_SF r = true /\
        (Qabs (SF2Q r - (exact32 m * inject_Z (act_spec a (cv (if zero_padding p then 0 else 1) b y x c)) + exact32 bi))
         <= (1 # 2 ^ 20) * (Qabs (exact32 bi) + inject_Z bt * Qabs (exact32 m)) + (1 # 2 ^ 124))%Q.

  Lemma bt_range : 0 <= bt <= 2 ^ 22.
  Proof. assert (H := taps_nn p WF). rewrite <- (taps_bt p WF) in H. fold bt in H. split; [exact H|exact Hsmall]. Qed.
  Lemma cv_abs k b y x c : -1 <= k <= 1 -> Z.abs (cv k b y x c) <= bt.
  Proof.
    intros Hk. destruct (wf_facts p WF) as (_&_&_&HKH&HKW&_&_&_&HCI&_).
    assert (B : - taps (geom_of p) <= cv k b y x c <= taps (geom_of p)) by (apply conv_bound; auto; intros; apply pm_bound).
    fold bt in B. lia.
  Qed.
  Lemma tap_abs oc fy fx : Z.abs (tap_total p filter oc fy fx) <= channels_in p / groups p.
  Proof.
    destruct (wf_facts p WF) as (_&_&_&_&_&_&_&_&HCI&_). unfold tap_total.
    assert (K := sum_abs (channels_in p / groups p) (fun c => filter_pm (geom_of p) filter oc fy fx c) 1 HCI).
    rewrite Z.mul_1_r in K. apply K. intros i _. unfold filter_pm.
    assert (H := pm_bound (bit_of filter (words (gCI (geom_of p))) ((oc * gKH (geom_of p) + fy) * gKW (geom_of p) + fx) i)). lia.
  Qed.

  (** The convolution with ones outside the image. *)
  Lemma run1 t b y x c m bi :
    one_time_setup32 p a mw bw (sf_ofZ 53 1024 1) (sf_ofZ 53 1024 0) = Some t -> 0 <= b < batches p ->
    rd mw c = Some m -> rd bw c = Some bi ->
    exists r v, run_float sfops t (acc_one p input filter b y x c) c = Some r /\ rep24 r v /\
      (Rabs (v - (Q2R (exact32 m) * IZR (act_spec a (cv 1 b y x c)) + Q2R (exact32 bi))) <= 8 * U * W32 bt m bi + t32)%R.
  Proof.
    intros Ht Hbb Hcm Hcb. assert (Hc := rd_bounds _ _ _ Hcm). rewrite Hm in Hc. assert (HOC := out_c_nonneg p WF).
    destruct (setup32_ok p a mw bw (sf_ofZ 53 1024 1) (sf_ofZ 53 1024 0) HOC Hm Hb) as (t' & Ht' & E1 & E2 & E3).
    assert (t' = t) by congruence. subst t'. destruct (E3 c m bi Hcm Hcb) as [E4 E5].
    rewrite <- (taps_bt p WF) in E1, E2, E4, E5. fold bt in E1, E2, E4, E5.
    assert (EC := acc_one_conv p WF input filter Hin Hfl b y x c Hbb Hc). fold bt in EC.
    assert (BC := cv_abs 1 b y x c ltac:(lia)). rewrite <- EC in BC.
    destruct (Mok _ _ Hcm) as [Fm Qm]. destruct (Bok _ _ Hcb) as [Fb Qb]. assert (T := bt_range).
    destruct (run_rep bt m bi T Fm Fb Qm Qb a (acc_one p input filter b y x c) t c ltac:(lia) E1 E2 E4 E5) as (r & v & Er & Rr & Cr).
    rewrite EC in Cr. exists r, v. split; [exact Er|]. split; assumption.
  Qed.
  Definition v1 (t : otp spec_float) (b y x c : Z) : spec_float :=
    match run_float sfops t (acc_one p input filter b y x c) c with Some r => r | None => S754_nan end.
  Lemma run_v1 t : one_time_setup32 p a mw bw (sf_ofZ 53 1024 1) (sf_ofZ 53 1024 0) = Some t ->
    forall b y x c, 0 <= b < batches p -> 0 <= c < out_c p ->
    run_float sfops t (acc_one p input filter b y x c) c = Some (v1 t b y x c).
  Proof.
    intros Ht b y x c Hbb Hc. destruct (rd_some mw c ltac:(lia)) as [m Hcm]. destruct (rd_some bw c ltac:(lia)) as [bi Hcb].
    destruct (run1 t b y x c m bi Ht Hbb Hcm Hcb) as (r & v & Er & _). unfold v1. rewrite Er. reflexivity.
  Qed.
  Let kv (dir y x oc : Z) : spec_float :=
    match rd mw oc with
    | Some m => sf_emit m (cf32 filter (f_h p) (f_w p) (channels_in p / groups p) (dl_h p) (dl_w p) dir y x oc)
    | None => S754_nan end.
  Lemma taps_split : bt = f_h p * f_w p * (channels_in p / groups p).
  Proof. unfold bt, taps. cbn. reflexivity. Qed.

  Lemma corrected32 t : one_time_setup32 p a mw bw (sf_ofZ 53 1024 1) (sf_ofZ 53 1024 0) = Some t ->
    wp (padding_buffer32 p filter mw buf) (fun cache => forall o, zlen o = zlen out ->
      (forall b y x c, 0 <= b < batches p -> 0 <= y < out_h p -> 0 <= x < out_w p -> 0 <= c < out_c p ->
         rd o (Offset (out_h p) (out_w p) (out_c p) b y x c) = Some (v1 t b y x c)) ->
      wp (correct32 p cache o) close_result).
  Proof.
    intros Ht. unfold padding_buffer32, correct32. destruct (zero_padding p) eqn:Ez.
    - (* zero padding *)
      assert (EP : pad = PadSame).
      { destruct HP as (_ & _ & Hu & Hs). unfold zero_padding in Ez. apply andb_prop in Ez. destruct Ez as [Ez _]. rewrite Ez in Hs.
        destruct pad; congruence || reflexivity. }
      rewrite EP in HP. destruct (Hfit eq_refl) as [Heh Hew]. assert (Ea := Hact eq_refl). assert (HOC := out_c_nonneg p WF).
      destruct (wf_facts p WF) as (_&_&_&_&_&_&_&_&HCI&_).
      assert (Hcur := cur_ok p WF filter Hfl). rewrite (quot_ci p WF) in *.
      assert (Hcb : forall oc fy fx, 0 <= oc < out_c p -> 0 <= fy < f_h p -> 0 <= fx < f_w p ->
        Z.abs (tap_total p filter oc fy fx) <= channels_in p / groups p) by (intros; apply tap_abs).
      assert (HT := Hsmall). fold bt in HT. rewrite taps_split in HT.
      assert (Hloop := cf32_loop filter (f_h p) (f_w p) (out_c p) (channels_in p / groups p) (dl_h p) (dl_w p) (tap_total p filter)
        Hfh Hfw HCI Hcur Hcb HT).
      destruct (cacheg_ok (S754_zero false) sf_plus sf_emit filter (f_h p) (f_w p) (out_c p) (channels_in p / groups p) (dl_h p) (dl_w p) mw
        (cf32 filter (f_h p) (f_w p) (channels_in p / groups p) (dl_h p) (dl_w p)) Hfh Hfw HOC Hdh Hdw Hm Hloop buf Hbuf) as (cache & Ec & _ & Cc).
      rewrite Ec. cbn [wp]. intros o Lo Ho.
      assert (Lo' : zlen o = out_pixels (geom_of p) * out_c p) by congruence.
      eapply wp_mono; [apply (applyg_ok p WF HP Hfh Hfw Hsh Hsw Hdh Hdw Heh Hew (SFadd 24 128) (tap_total p filter) cache kv)|].
      + intros dir y x oc H1 H2 H3 H4. destruct (rd_some mw oc ltac:(lia)) as [m Em]. assert (K := Cc dir y x oc m H1 H2 H3 Em).
        unfold kv. rewrite Em. exact K.
      + exact Lo'.
      + intros o' (L' & C'). split; [congruence|]. intros b y x c m bi Hbb Hy Hx Hcm Hcb'.
        assert (Hc := rd_bounds _ _ _ Hcm). rewrite Hm in Hc.
        destruct (run1 t b y x c m bi Ht Hbb Hcm Hcb') as (r0 & v & Er & Rr & Vr).
        destruct (C' b y x c (v1 t b y x c) Hbb Hy Hx Hc (Ho b y x c Hbb Hy Hx Hc)) as (r & Hr & HF).
        assert (Ev : v1 t b y x c = r0) by (unfold v1; rewrite Er; reflexivity). rewrite Ev in HF.
        rewrite Ea in Vr |- *. cbn [act_spec] in Vr |- *. rewrite Ez.
        destruct (Mok _ _ Hcm) as [Fm Qm]. destruct (Bok _ _ Hcb') as [Fb Qb].
        assert (CS := conv_split p filter (input_pm (geom_of p) input) b y x c). rewrite CS in Vr.
        exists r. split; [exact Hr|].
        assert (Fin : exists v', rep24 r v' /\ (Rabs (v' - (Q2R (exact32 m) * IZR (cv 0 b y x c) + Q2R (exact32 bi))) <= 16 * U * W32 bt m bi + 2 * t32)%R).
        { destruct HF as [[-> E0]|(dir & Y & X & Hd & HY & HX & -> & E0)].
          - exists v. split; [exact Rr|]. rewrite E0, Z.add_0_r in Vr. eapply Rle_trans; [exact Vr|].
            destruct (W_small bt m bi bt_range Qm Qb) as [W0 _]. destruct t32_facts as [T0 _]. assert (He := eta_U). rewrite U_val in *. lra.
          - unfold kv. rewrite Hcm.
            apply (fix_rep bt m bi bt_range Fm Qm Qb r0 v (cv 0 b y x c) (outside_sum p (tap_total p filter) y x c)); try assumption.
            + apply cv_abs. lia.
            + rewrite <- E0. rewrite taps_split. eapply corr_abs; eauto.
            + rewrite <- E0. eapply cf32_rep; eauto. }
        destruct Fin as (v' & Rv & Cv').
        apply (to_Q bt m bi r v'); [exact Rv|]. rewrite Q2R_plus, Q2R_mult, Q2R_Z. exact Cv'.
    - cbn [wp]. intros o Lo Ho. split; [exact Lo|]. intros b y x c m bi Hbb Hy Hx Hcm Hcb'. rewrite Ez.
      assert (Hc := rd_bounds _ _ _ Hcm). rewrite Hm in Hc.
      destruct (run1 t b y x c m bi Ht Hbb Hcm Hcb') as (r0 & v & Er & Rr & Vr).
      assert (Ev : v1 t b y x c = r0) by (unfold v1; rewrite Er; reflexivity).
      exists r0. split; [etransitivity; [apply (Ho b y x c Hbb Hy Hx Hc)|congruence]|].
      destruct (Mok _ _ Hcm) as [Fm Qm]. destruct (Bok _ _ Hcb') as [Fb Qb].
      apply (to_Q bt m bi r0 v); [exact Rr|]. rewrite Q2R_plus, Q2R_mult, Q2R_Z. eapply Rle_trans; [exact Vr|].
      destruct (W_small bt m bi bt_range Qm Qb) as [W0 _]. destruct t32_facts as [T0 _]. assert (He := eta_U). rewrite U_val in *. lra.
  Qed.

  Lemma setup32_some : exists t, one_time_setup32 p a mw bw (sf_ofZ 53 1024 1) (sf_ofZ 53 1024 0) = Some t.
  Proof.
    destruct (setup32_ok p a mw bw (sf_ofZ 53 1024 1) (sf_ofZ 53 1024 0) (out_c_nonneg p WF) Hm Hb) as (t & Ht & _). exists t. exact Ht.
  Qed.
  Lemma indirect32 : 1 <= f_d p -> int32_indices p ->
    exists o, eval_indirect_float32 p a input filter mw bw buf out = Some o /\ close_result o.
  Proof.
    intros Hfd Hint. apply wp_iff. unfold eval_indirect_float32.
    destruct setup32_some as [t Ht]. rewrite Ht. cbn [bind].
    assert (HC := corrected32 t Ht). apply wp_iff in HC. destruct HC as (cache & Ec & HC). rewrite Ec. cbn [bind].
    destruct (indirect_val_one p WF input filter Hin Hfl Hfh Hfw Hfd Hint (run_float sfops t) (v1 t) out) as (o & E & L & C).
    - intros. apply run_v1; assumption.
    - exact Hout.
    - rewrite E. cbn [bind]. apply HC; assumption.
  Qed.
  Lemma bgemm32 kr lc rc sch : groups p = 1 ->
    0 < kr -> 0 < lc -> 0 < rc -> conv_schedule_ok kr lc rc p input sch ->
    eval_bgemm_float32 kr lc rc sch p a input filter mw bw buf out close_result.
  Proof.
    intros HG Hkr Hlc Hrc HS. unfold eval_bgemm_float32.
    destruct setup32_some as [t Ht]. rewrite Ht. cbn [wp].
    assert (HC := corrected32 t Ht). apply wp_iff in HC. destruct HC as (cache & Ec & HC). rewrite Ec. cbn [wp].
    eapply bgemm_conv_val_mono.
    - apply (bgemm_val_one pad p WF input filter Hin Hfl HG HP kr lc rc sch Hkr Hlc Hrc HS (run_float sfops t) (v1 t) out).
      + intros. apply run_v1; assumption.
      + exact Hout.
    - intros o (L & C). apply HC; assumption.
  Qed.
End Conv32Z.
