(** * IndirectBuf: the indirection buffer (proofs). *)
From Verif Require Import Base Spec Bits Loop4 Reference Bitpack Indirect IndirectPack.

(** Every int32 value the buffer computation compares as unsigned. *)
Definition int32_indices (p : bconv) : Prop :=
  0 <= in_w p < 2 ^ 31 /\
  forall ox fx, 0 <= ox < out_w p -> 0 <= fx < f_w p ->
    - 2 ^ 31 <= ox * s_w p + fx * dl_w p - pad_w p < 2 ^ 31.

Lemma FastBoundsCheck_ok i n : - 2 ^ 31 <= i < 2 ^ 31 -> 0 <= n < 2 ^ 31 ->
  FastBoundsCheck i n = (0 <=? i) && (i <? n).
Proof. intros Hi Hn. unfold FastBoundsCheck. lia. Qed.

(** The pointer for output pixel number [pix] and filter tap (fy, fx). *)
Definition pixel_ptr (p : bconv) (pix fy fx : Z) : iptr :=
  let b := pix / (out_h p * out_w p) in
  let y := (pix mod (out_h p * out_w p)) / out_w p * s_h p + fy * dl_h p - pad_h p in
  let x := pix mod out_w p * s_w p + fx * dl_w p - pad_w p in
  if inside (geom_of p) y x then PIn (((b * in_h p + y) * in_w p + x) * in_d p) else PZero 0.

Section Buf.
  Variable k : kern.
  Variable p : bconv.
  Variable T : Z.
  Let bpx := bs_px k.
  Let fs := f_h p * f_w p.
  Let N := k_npix k.
  Hypothesis (Kfs : k_fs k = fs) (KN : N = batches p * out_h p * out_w p) (Kd : k_in_depth k = in_d p)
    (Hbpx : 0 < bpx) (HfH : 0 <= f_h p) (HfW : 0 <= f_w p)
    (HB : 0 <= batches p) (HOH : 0 <= out_h p) (HOW : 0 <= out_w p)
    (HT0 : 0 <= T) (HT : (T - 1) * bpx < N <= T * bpx)
    (Hint : int32_indices p).

  Definition ipos (t off fy fx : Z) : Z := (t * fs + (fy * f_w p + fx)) * bpx + off.

  Definition finv (n : Z) (buf : list iptr) : Prop :=
    zlen buf = T * bpx * fs + bpx /\
    (forall j, T * bpx * fs <= j < T * bpx * fs + bpx -> rd buf j = Some (PIn 0)) /\
    forall t off fy fx, 0 <= t < T -> 0 <= off < bpx -> 0 <= fy < f_h p -> 0 <= fx < f_w p ->
      Offset bpx (f_h p) (f_w p) t off fy fx < n ->
      rd buf (ipos t off fy fx) = Some (pixel_ptr p (Z.min (t * bpx + off) (N - 1)) fy fx).

  Lemma ipos_bounds t off fy fx :
    0 <= t < T -> 0 <= off < bpx -> 0 <= fy < f_h p -> 0 <= fx < f_w p ->
    0 <= ipos t off fy fx < T * bpx * fs.
  Proof.
    intros Ht Ho Hy Hx. unfold ipos.
    assert (Hk : 0 <= fy * f_w p + fx < fs) by (unfold fs; clear - HfH HfW Hy Hx; nia).
    replace (T * bpx * fs) with (T * fs * bpx) by ring.
    clearbody bpx fs. apply pixel_bounds; auto.
  Qed.

  Lemma ipos_inj t off fy fx t' off' fy' fx' :
    0 <= off < bpx -> 0 <= fy < f_h p -> 0 <= fx < f_w p ->
    0 <= off' < bpx -> 0 <= fy' < f_h p -> 0 <= fx' < f_w p ->
    ipos t off fy fx = ipos t' off' fy' fx' -> t = t' /\ off = off' /\ fy = fy' /\ fx = fx'.
  Proof.
    unfold ipos. intros Ho Hy Hx Ho' Hy' Hx' E.
    destruct (radix_inj _ _ _ _ _ Ho Ho' E) as [E1 ->].
    assert (Hk : 0 <= fy * f_w p + fx < fs) by (unfold fs; clear - HfH HfW Hy Hx; nia).
    assert (Hk' : 0 <= fy' * f_w p + fx' < fs) by (unfold fs; clear - HfH HfW Hy' Hx'; nia).
    destruct (radix_inj _ _ _ _ _ Hk Hk' E1) as [-> E2].
    destruct (radix_inj _ _ _ _ _ Hx Hx' E2) as [-> ->]. auto.
  Qed.

  (** Writing the pointer of (t, off, fy, fx) extends the invariant by one. *)
  Lemma finv_wr t off fy fx n buf v :
    0 <= t < T -> 0 <= off < bpx -> 0 <= fy < f_h p -> 0 <= fx < f_w p ->
    finv n buf -> n = Offset bpx (f_h p) (f_w p) t off fy fx ->
    v = pixel_ptr p (Z.min (t * bpx + off) (N - 1)) fy fx ->
    wp (wr buf (ipos t off fy fx) v) (finv (n + 1)).
  Proof.
    intros Ht Ho Hy Hx (Hl & Htl & Hc) -> ->. assert (HB1 := ipos_bounds t off fy fx Ht Ho Hy Hx).
    apply wr_wp; [lia|]. intros buf' Hl' Hs Hoth. split; [lia|].
    split; [intros j Hj; rewrite Hoth by lia; apply Htl, Hj|].
    intros t' off' fy' fx' Ht' Ho' Hy' Hx' Hlt.
    destruct (Z.eq_dec (ipos t' off' fy' fx') (ipos t off fy fx)) as [Eq|Ne].
    - rewrite Eq, Hs. destruct (ipos_inj _ _ _ _ _ _ _ _ Ho' Hy' Hx' Ho Hy Hx Eq) as (->&->&->&->). reflexivity.
    - rewrite Hoth by exact Ne. apply Hc; auto.
      assert (Offset bpx (f_h p) (f_w p) t' off' fy' fx' <> Offset bpx (f_h p) (f_w p) t off fy fx); [|lia].
      intros E. destruct (Offset_inj _ _ _ _ _ _ _ _ _ _ _ Ho' Hy' Hx' Ho Hy Hx E) as (->&->&->&->).
      apply Ne. reflexivity.
  Qed.

  (** The entries after the last tile keep the input pointer they were filled with. *)
  Lemma FillIndirectionBuffer_wp_tail (Q : list iptr -> Prop) :
    (forall buf, zlen buf = T * bpx * fs + bpx ->
       (forall j, T * bpx * fs <= j < T * bpx * fs + bpx -> rd buf j = Some (PIn 0)) ->
       (forall t off fy fx, 0 <= t < T -> 0 <= off < bpx -> 0 <= fy < f_h p -> 0 <= fx < f_w p ->
         rd buf (ipos t off fy fx) = Some (pixel_ptr p (Z.min (t * bpx + off) (N - 1)) fy fx)) ->
       Q buf) ->
    wp (FillIndirectionBuffer k p) Q.
  Proof.
    intros HQ. unfold FillIndirectionBuffer. rewrite Kfs, Kd. fold bpx. fold N.
    assert (HN : 0 <= N) by (rewrite KN; clear - HB HOH HOW; assert (0 <= batches p * out_h p) by nia; nia).
    assert (Hfs0 : 0 <= fs) by (unfold fs; clear - HfH HfW; nia).
    rewrite (ceil_mul N bpx T) by lia.
    assert (HTb : 0 <= T * bpx) by (clear - HT0 Hbpx; clearbody bpx; nia).
    eapply wp_mono with (P := finv (T * (bpx * (f_h p * f_w p)))).
    2:{ intros buf (Hl & Htl & Hc). apply HQ; [exact Hl|exact Htl|]. intros. apply Hc; auto.
        assert (HO := Offset_bounds T bpx (f_h p) (f_w p) t off fy fx). 
        replace (T * (bpx * (f_h p * f_w p))) with (T * bpx * f_h p * f_w p) by ring.
        apply HO; auto. }
    assert (HFW := finv_wr).
    assert (HI0 : finv 0 (repeat (PIn 0) (Z.to_nat (T * bpx * fs + bpx)))).
    { split; [|split].
      - rewrite zlen_repeat, Z2Nat.id; [reflexivity|].
        clear - HTb Hfs0 Hbpx. assert (0 <= T * bpx * fs) by (apply Z.mul_nonneg_nonneg; lia). lia.
      - intros j Hj. assert (0 <= T * bpx * fs) by (apply Z.mul_nonneg_nonneg; assumption).
        apply rd_repeat. lia.
      - intros t off fy fx Ht Ho Hy Hx Hlt.
        assert (HO := Offset_bounds T bpx (f_h p) (f_w p) t off fy fx Ht Ho Hy Hx). lia. }
    apply (for_step_cnt finv HI0 (T * bpx) bpx T (bpx * (f_h p * f_w p))); [lia|lia|split; [|lia]|ring|].
    { clear - Hbpx. clearbody bpx. lia. }
    intros t b1 Ht _ Hb1.
    apply (for_cnt finv Hb1 bpx (f_h p * f_w p)); [lia|ring|].
    intros off b2 Hoff Hb2.
    set (pix := Z.min (t * bpx + off) (N - 1)).
    assert (Hpix : 0 <= pix < N).
    { assert (0 < N). { clear - Ht HT Hbpx. clearbody bpx N. nia. }
      assert (0 <= t * bpx) by (clear - Ht Hbpx; clearbody bpx; nia). lia. }
    assert (HOw : 0 < out_w p /\ 0 < out_h p /\ 0 < out_h p * out_w p).
    { clear - KN Hpix HB HOH HOW. clearbody N pix. assert (0 < batches p * out_h p * out_w p) by lia.
      assert (out_w p <> 0) by (intros E; rewrite E in *; lia).
      assert (out_h p <> 0) by (intros E; rewrite E in *; lia). nia. }
    unfold cmod. rewrite !cdiv_nz by lia. cbn [bind].
    destruct (Z.eqb_spec (out_w p) 0); [lia|]. destruct (Z.eqb_spec (out_h p * out_w p) 0); [lia|].
    cbn [bind]. rewrite !Z.rem_mod_nonneg by lia. rewrite (cdiv_nz _ (out_w p)) by lia. cbn [bind].
    assert (Hmod := Z.mod_pos_bound pix (out_h p * out_w p) ltac:(lia)).
    assert (Hmodw := Z.mod_pos_bound pix (out_w p) ltac:(lia)).
    rewrite !Z.quot_div_nonneg by lia.
    set (oy := pix mod (out_h p * out_w p) / out_w p) in *.
    set (ox := pix mod out_w p) in *. set (ob := pix / (out_h p * out_w p)) in *.
    apply (for_cnt finv Hb2 (f_h p) (f_w p)); [lia|ring|].
    intros fy b3 Hfy Hb3. 
    assert (Estart : forall fx, 0 + t * (bpx * (f_h p * f_w p)) + off * (f_h p * f_w p) + fy * f_w p + fx
       = Offset bpx (f_h p) (f_w p) t off fy fx) by (intros; unfold Offset; ring).
    assert (Epos : forall fx, t * bpx * fs + (fy * f_w p + fx) * bpx + off = ipos t off fy fx)
      by (intros; unfold ipos; ring).
    destruct ((0 <=? oy * s_h p + fy * dl_h p - pad_h p)
              && (oy * s_h p + fy * dl_h p - pad_h p <? in_h p)) eqn:EY.
    - apply (for_cnt finv Hb3 (f_w p) 1); [lia|ring|]. intros fx b4 Hfx Hb4.
      rewrite Z.mul_1_r, Estart in Hb4. rewrite Z.mul_1_r, Estart, Epos.
      destruct Hint as [Hiw Hix]. rewrite FastBoundsCheck_ok by (auto; lia).
      assert (EP : pixel_ptr p pix fy fx =
         if (0 <=? ox * s_w p + fx * dl_w p - pad_w p) && (ox * s_w p + fx * dl_w p - pad_w p <? in_w p)
         then PIn ((ob * in_h p * in_w p + (oy * s_h p + fy * dl_h p - pad_h p) * in_w p
                    + (ox * s_w p + fx * dl_w p - pad_w p)) * in_d p) else PZero 0).
      { unfold pixel_ptr. cbv zeta. fold oy ox ob. unfold inside. cbn [geom_of gH gW]. rewrite EY.
        cbn [andb]. 
        destruct ((0 <=? ox * s_w p + fx * dl_w p - pad_w p) && (ox * s_w p + fx * dl_w p - pad_w p <? in_w p));
          [|reflexivity]. f_equal. ring. }
      destruct ((0 <=? ox * s_w p + fx * dl_w p - pad_w p) && _);
        apply HFW; auto; symmetry; exact EP.
    - apply (for_cnt finv Hb3 (f_w p) 1); [lia|ring|]. intros fx b4 Hfx Hb4.
      rewrite Z.mul_1_r, Estart in Hb4. rewrite Z.mul_1_r, Estart, Epos.
      apply HFW; auto. unfold pixel_ptr. cbv zeta. fold pix. fold oy. unfold inside. cbn [geom_of gH gW].
      rewrite EY. reflexivity.
  Qed.
  Lemma FillIndirectionBuffer_wp (Q : list iptr -> Prop) :
    (forall buf, zlen buf = T * bpx * fs + bpx ->
       (forall t off fy fx, 0 <= t < T -> 0 <= off < bpx -> 0 <= fy < f_h p -> 0 <= fx < f_w p ->
         rd buf (ipos t off fy fx) = Some (pixel_ptr p (Z.min (t * bpx + off) (N - 1)) fy fx)) ->
       Q buf) ->
    wp (FillIndirectionBuffer k p) Q.
  Proof. intros HQ. apply FillIndirectionBuffer_wp_tail. auto. Qed.
End Buf.
