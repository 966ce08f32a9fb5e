(** * IndirectPack: weight packing and the indirection buffer (proofs). *)
From Verif Require Import Base Spec Bits Loop4 Reference Bitpack Indirect.

Lemma ceil_mul a b m : 0 < b -> 0 <= a -> (m - 1) * b < a <= m * b -> Ceil a b = m * b.
Proof.
  intros Hb Ha Hm. unfold Ceil, CeilDiv. rewrite Z.quot_div_nonneg by lia.
  f_equal. symmetry. apply Z.div_unique with (r := a + b - 1 - b * m); nia.
Qed.

Section Pack.
  Variable k : kern.
  (** groups, output channels per group, filter size, depth words per group,
      channel blocks per group, depth blocks. *)
  Variables G CO fs fd nblk nci : Z.
  Let boc := bs_oc k.
  Let bd := bs_d k.
  Variable filter : list Z.
  Hypothesis (HG : 0 < G) (HCO : 0 < CO) (Hfs : 0 <= fs) (Hnci : 0 <= nci) (Hnblk : 0 < nblk)
    (Hboc : 0 < boc) (Hbd : 0 < bd) (Efd : fd = nci * bd)
    (Hblk : (nblk - 1) * boc < CO <= nblk * boc)
    (Hlen : zlen filter = G * CO * fs * fd).
  Hypothesis (Kd : k_in_depth k = G * fd) (Koc : k_oc k = G * CO) (Kfs : k_fs k = fs) (KG : k_groups k = G).

  (** Position in the packed weights of depth offset [co] of channel [bo] of
      chunk (g, blk, fi, ci). *)
  Definition wpos (g blk fi ci bo co : Z) : Z :=
    (Offset nblk fs nci g blk fi ci * boc + bo) * bd + co.
  (** The filter word it stands for: channel g*CO+blk*boc+bo, tap fi, word ci*bd+co. *)
  Definition fpos (g blk fi ci bo co : Z) : Z :=
    ((g * CO + blk * boc + bo) * fs + fi) * fd + ci * bd + co.
  Definition psize : Z := G * (nblk * boc) * fs * fd + boc * bd.

  Definition pinv (n : Z) (st : list Z * Z) : Prop :=
    snd st = n /\ zlen (fst st) = psize /\
    forall g blk fi ci bo co,
      0 <= g < G -> 0 <= blk < nblk -> 0 <= fi < fs -> 0 <= ci < nci ->
      0 <= bo < boc -> 0 <= co < bd -> blk * boc + bo < CO ->
      wpos g blk fi ci bo co < n ->
      rd (fst st) (wpos g blk fi ci bo co) = rd filter (fpos g blk fi ci bo co).

  Lemma fpos_bounds g blk fi ci bo co :
    0 <= g < G -> 0 <= blk < nblk -> 0 <= fi < fs -> 0 <= ci < nci ->
    0 <= bo < boc -> 0 <= co < bd -> blk * boc + bo < CO ->
    0 <= fpos g blk fi ci bo co < zlen filter.
  Proof.
    clearbody boc bd. intros Hg Hb Hfi Hci Hbo Hco Hv. unfold fpos.
    set (cc := blk * boc + bo) in *. assert (Hcc : 0 <= cc < CO) by nia.
    replace (g * CO + blk * boc + bo) with (g * CO + cc) by (unfold cc; ring). clearbody cc.
    assert (Hch : 0 <= g * CO + cc < G * CO) by nia.
    set (d := ci * bd + co). assert (Hd : 0 <= d < fd) by (unfold d; nia).
    replace (((g * CO + cc) * fs + fi) * fd + ci * bd + co) with (((g * CO + cc) * fs + fi) * fd + d)
      by (unfold d; ring).
    rewrite Hlen. apply pixel_bounds; auto.
  Qed.

  Lemma wpos_bounds g blk fi ci bo co :
    0 <= g < G -> 0 <= blk < nblk -> 0 <= fi < fs -> 0 <= ci < nci ->
    0 <= bo < boc -> 0 <= co < bd ->
    0 <= wpos g blk fi ci bo co < psize - boc * bd.
  Proof.
    clearbody boc bd. intros Hg Hb Hfi Hci Hbo Hco. unfold wpos, psize.
    assert (HO := Offset_bounds G nblk fs nci g blk fi ci Hg Hb Hfi Hci).
    replace (G * (nblk * boc) * fs * fd + boc * bd - boc * bd)
      with (G * nblk * fs * nci * boc * bd) by (rewrite Efd; ring).
    apply pixel_bounds; auto.
  Qed.

  Lemma wpos_inj g blk fi ci bo co g' blk' fi' ci' bo' co' :
    0 <= blk < nblk -> 0 <= fi < fs -> 0 <= ci < nci -> 0 <= bo < boc -> 0 <= co < bd ->
    0 <= blk' < nblk -> 0 <= fi' < fs -> 0 <= ci' < nci -> 0 <= bo' < boc -> 0 <= co' < bd ->
    wpos g blk fi ci bo co = wpos g' blk' fi' ci' bo' co' ->
    g = g' /\ blk = blk' /\ fi = fi' /\ ci = ci' /\ bo = bo' /\ co = co'.
  Proof.
    intros H1 H2 H3 H4 H5 H1' H2' H3' H4' H5' E. unfold wpos in E.
    destruct (radix_inj _ _ _ _ _ H5 H5' E) as [E1 ->].
    destruct (radix_inj _ _ _ _ _ H4 H4' E1) as [E2 ->].
    destruct (Offset_inj _ _ _ _ _ _ _ _ _ _ _ H1 H2 H3 H1' H2' H3' E2) as (-> & -> & -> & ->).
    auto 10.
  Qed.

  Lemma PackWeights_wp (Q : list Z -> Prop) :
    (forall pw, zlen pw = psize ->
      (forall g blk fi ci bo co,
        0 <= g < G -> 0 <= blk < nblk -> 0 <= fi < fs -> 0 <= ci < nci ->
        0 <= bo < boc -> 0 <= co < bd -> blk * boc + bo < CO ->
        rd pw (wpos g blk fi ci bo co) = rd filter (fpos g blk fi ci bo co)) -> Q pw) ->
    wp (PackWeights k filter) Q.
  Proof.
    intros HQ. unfold PackWeights. rewrite Kd, Koc, Kfs, KG. fold boc bd.
    clear Kd Koc Kfs KG.
    assert (Hfd : 0 <= fd) by (rewrite Efd; clearbody bd; nia).
    rewrite !cdiv_nz by lia. cbn [bind].
    rewrite !(Z.mul_comm G), !Z.quot_mul by lia.
    rewrite (ceil_mul CO boc nblk) by lia.
    rewrite !(Z.mul_comm (nblk * boc) G). change (G * (nblk * boc) * fs * fd + boc * bd) with psize.
    assert (HWB := wpos_bounds). assert (HFB := fpos_bounds). assert (HWI := wpos_inj).
    assert (Hps : 0 <= psize).
    { unfold psize. clearbody boc bd. assert (0 <= G * (nblk * boc)) by nia.
      assert (0 <= G * (nblk * boc) * fs) by nia. nia. }
    apply wp_bind.
    set (chunk := boc * bd).
    eapply wp_mono with (P := pinv (G * (nblk * (fs * (nci * chunk))))).
    2:{ intros (pw, idx) (_ & Hl & Hc). apply wp_ret. cbn [fst] in *. apply HQ; [exact Hl|].
        intros. apply Hc; auto.
        replace (G * (nblk * (fs * (nci * chunk)))) with (psize - boc * bd)
          by (unfold psize, chunk; rewrite Efd; ring).
        apply HWB; auto. }
    assert (H0 : pinv 0 (repeat 0 (Z.to_nat psize), 0)).
    { split; [reflexivity|]. cbn [fst]. split; [rewrite zlen_repeat; lia|].
      intros g blk fi ci bo co Hg Hb Hf Hci Hbo Hco _ Hlt.
      specialize (HWB g blk fi ci bo co Hg Hb Hf Hci Hbo Hco). lia. }
    apply (for_cnt pinv H0 G (nblk * (fs * (nci * chunk)))); [lia|ring|].
    intros g st Hg Hst.
    apply (for_step_cnt pinv Hst CO boc nblk (fs * (nci * chunk))); [lia|lia|lia|ring|].
    intros blk st1 Hb Hb2 Hst1.
    apply (for_cnt pinv Hst1 fs (nci * chunk)); [lia|ring|].
    intros fi st2 Hfi Hst2.
    apply (for_step_cnt pinv Hst2 fd bd nci chunk);
      [lia|lia|rewrite Efd; clearbody bd; clear -Hbd; nia|ring|].
    intros ci st3 Hci _ Hst3.
    set (n0 := _ + ci * chunk) in *.
    assert (En0 : n0 = wpos g blk fi ci 0 0) by (unfold n0, wpos, Offset, chunk; ring).
    clearbody n0. clear Hst Hst1 Hst2.
    set (bsz := Z.min (CO - blk * boc) boc).
    assert (Hbsz : 0 < bsz <= boc) by lia.
    apply wp_bind.
    eapply wp_mono; [apply (for_cnt pinv Hst3 bsz bd (n0 + bsz * bd)); [lia|lia|]|].
    - (* one channel of the block *)
      intros bo st4 Hbo Hst4.
      apply (for_cnt pinv Hst4 bd 1); [lia|lia|].
      intros co (pw, idx) Hco (Hidx & Hl & Hc). cbn [fst snd] in *.
      assert (Hv : blk * boc + bo < CO) by (unfold bsz in Hbo; lia).
      assert (Hbo' : 0 <= bo < boc) by lia.
      replace (g * CO * fs * fd + (blk * boc + bo) * fs * fd + fi * fd + ci * bd + co)
        with (fpos g blk fi ci bo co) by (unfold fpos; ring).
      specialize (HFB g blk fi ci bo co Hg Hb Hfi Hci Hbo' Hco Hv).
      specialize (HWB g blk fi ci bo co Hg Hb Hfi Hci Hbo' Hco).
      assert (Eidx : idx = wpos g blk fi ci bo co).
      { rewrite Hidx, En0. unfold wpos. ring. }
      assert (0 < boc * bd) by (clear -Hboc Hbd; clearbody boc bd; nia).
      apply wp_bind, rd_wp; [exact HFB|]. intros w Hw. apply wp_bind.
      apply wr_wp; [lia|]. intros pw' Hl' Hs Ho. apply wp_ret.
      split; [cbn; lia|]. cbn [fst]. split; [congruence|].
      intros g' blk' fi' ci' bo' co' Hg' Hb' Hf' Hci' Hbo2 Hco' Hv' Hlt.
      destruct (Z.eq_dec (wpos g' blk' fi' ci' bo' co') idx) as [Eq|Ne].
      + rewrite Eq, Hs. rewrite Eidx in Eq.
        destruct (HWI _ _ _ _ _ _ _ _ _ _ _ _ Hb' Hf' Hci' Hbo2 Hco' Hb Hfi Hci Hbo' Hco Eq)
          as (->&->&->&->&->&->). symmetry. exact Hw.
      + rewrite Ho by exact Ne. apply Hc; auto. lia.
    - (* skip the unused channels of the block *)
      intros (pw, idx) (Hidx & Hl & Hc). cbn [fst snd] in *. apply wp_ret.
      split; [cbn; unfold chunk; lia|]. split; [exact Hl|]. cbn [fst].
      intros g' blk' fi' ci' bo' co' Hg' Hb' Hf' Hci' Hbo2 Hco' Hv' Hlt.
      destruct (Z.lt_ge_cases (wpos g' blk' fi' ci' bo' co') (n0 + bsz * bd)) as [Hlt2|Hge].
      + apply Hc; auto.
      + exfalso. rewrite En0 in *. unfold wpos in Hlt, Hge. unfold chunk in Hlt.
        set (q := Offset nblk fs nci g blk fi ci) in *.
        set (q' := Offset nblk fs nci g' blk' fi' ci') in *.
        assert (Eq : q' = q /\ bsz <= bo').
        { clear - Hlt Hge Hbo2 Hco' Hbsz Hboc Hbd. clearbody boc bd q q' bsz.
          assert (A1 : q' * boc + bo' < (q + 1) * boc) by nia.
          assert (B1 : q * boc + bsz <= q' * boc + bo') by nia.
          assert (q' < q + 1) by nia. assert (q <= q') by nia. split; [lia|]. nia. }
        destruct Eq as [Eq Hbb]. unfold q, q' in Eq.
        destruct (Offset_inj _ _ _ _ _ _ _ _ _ _ _ Hb' Hf' Hci' Hb Hfi Hci Eq) as (->&->&->&->).
        unfold bsz in Hbb. lia.
  Qed.
End Pack.
