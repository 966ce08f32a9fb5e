(** * A64IndVal: the sums the indirect assembly kernels accumulate are the accumulators
    of the convolution. *)
From Verif Require Import Base Spec Bits Log Reference Loop4 RefTheorems Indirect IndirectPack IndirectBuf IndirectRun IndirectTop Bgemm Select A64 A64Bgemm A64Lemmas A64Block44 A64Ind A64IndBlk A64IndLoop A64IndAcc A64IndOut.
Open Scope Z_scope.

Lemma bp_sum A B n : forall a b, bp (wlist A a n) (wlist B b n) = sum_ (Z.of_nat n) (fun j => xor_popcount (wat A (a + j)) (wat B (b + j))).
Proof.
  induction n as [|n IH]; intros a b; [reflexivity|]. cbn [wlist]. unfold bp in *. cbn [zipw map sumz fold_right].
  replace (Z.of_nat (Datatypes.S n)) with (1 + Z.of_nat n) by lia. rewrite sum_split by lia.
  assert (S1 : forall h, sum_ 1 h = h 0) by (intros h; change 1 with (0 + 1); rewrite sum_succ, sum_0 by lia; reflexivity). rewrite S1, !Z.add_0_r. unfold xor_popcount at 1.
  f_equal. unfold sumz in IH. rewrite IH. apply sum_ext. intros j _. rewrite !Z.add_assoc. reflexivity.
Qed.

Section Val.
  Variables (p : bconv) (input filter over_in over_zero : list Z).
  Hypothesis WF : bconv_wf p.
  Hypothesis Hip : packed input (in_pixels (geom_of p)) (channels_in p).
  Hypothesis Hfl : packed filter (filter_pixels (geom_of p)) (channels_in p / groups p).
  Hypotheses (HfH : 1 <= f_h p) (HfW : 1 <= f_w p) (Hfd1 : 1 <= f_d p).
  Variables (Dn : nat) (o : otparams) (pw : list Z) (ibuf : list iptr).
  Notation D := (Z.of_nat Dn).
  Notation fs := (f_h p * f_w p).
  Notation N := (batches p * out_h p * out_w p).
  Notation CO := (out_c p / groups p).
  Notation nblk := ((CO + 8 - 1) / 8).
  Notation depth := (f_d p / D).
  Notation E := (ienv pw (input ++ over_in) (repeat 0 (Z.to_nat (fs * in_d p)) ++ over_zero) ibuf o).
  Definition qpix (pix fi : Z) : iptr := pixel_ptr p pix (fi / f_w p) (fi mod f_w p).

  Lemma ind_gfd : in_d p = groups p * f_d p.
  Proof. apply (ind_groups p WF). Qed.
  Lemma fs_pos : 0 < fs.
  Proof. clear - HfH HfW. nia. Qed.
  Lemma qpix_cases pix fi : 0 <= pix < N ->
    (exists q, qpix pix fi = PIn q /\ 0 <= q /\ q + in_d p <= zlen input /\ forall w, tap_word p input pix fi w = word_at input (q + w)) \/
    (qpix pix fi = PZero 0 /\ forall w, tap_word p input pix fi w = 0).
  Proof.
    intros Hpix. unfold qpix, pixel_ptr, tap_word. cbv zeta.
    match goal with |- context [inside _ ?yy ?xx] => set (y := yy); set (x := xx) end.
    destruct (inside (geom_of p) y x) eqn:Ei; [left|right; split; reflexivity].
    eexists. split; [reflexivity|]. destruct (wf_facts p WF) as (HB&HH&HW&HKH&HKW&HOH&HOW&Hg&HCI&HCO&_).
    unfold inside in Ei. cbn [geom_of gH gW] in Ei. apply andb_true_iff in Ei. destruct Ei as [Ei Ex2]. apply andb_true_iff in Ei. destruct Ei as [Ei Ex1].
    apply andb_true_iff in Ei. destruct Ei as [Ey1 Ey2].
    apply Z.leb_le in Ey1, Ex1. apply Z.ltb_lt in Ey2, Ex2.
    assert (HHW : 0 < out_h p * out_w p).
    { clear - Hpix HB HOH HOW. assert (out_h p * out_w p <> 0); [|nia]. intros H. rewrite <- Z.mul_assoc, H in Hpix. lia. }
    assert (Hb : 0 <= pix / (out_h p * out_w p) < batches p).
    { split; [apply Z.div_pos; lia|]. apply Z.div_lt_upper_bound; [lia|]. clear - Hpix. lia. }
    set (b := pix / (out_h p * out_w p)) in *. clearbody y x b.
    assert (B := pixel_bounds (batches p) (in_h p) (in_w p) b y x Hb (conj Ey1 Ey2) (conj Ex1 Ex2)).
    assert (Hd : 0 <= in_d p) by (rewrite ind_gfd; clear - Hg Hfd1; nia).
    rewrite (input_len p WF input Hip). split; [|split].
    - clear - B Hd. nia.
    - clear - B Hd. nia.
    - reflexivity.
  Qed.
  Lemma ind_ge : 0 <= in_d p.
  Proof. destruct (wf_facts p WF) as (HB&HH&HW&HKH&HKW&HOH&HOW&Hg&HCI&HCO&_). rewrite ind_gfd. clear - Hg Hfd1. nia. Qed.
  Lemma zlen_in : zlen (e_in E) = zlen input + zlen over_in.
  Proof. apply zlen_app. Qed.
  Lemma zlen_zero : in_d p + zlen over_zero <= zlen (e_zero E).
  Proof.
    cbn [ienv e_zero]. rewrite zlen_app, zlen_repeat. assert (F := fs_pos). assert (I := ind_ge). rewrite Z2Nat.id by nia. clear - F I. nia.
  Qed.
  Lemma qpix_inb pix fi d n : 0 <= pix < N -> 0 <= d -> d + n <= in_d p -> inb E (qadd (qpix pix fi) d) n.
  Proof.
    intros Hp Hd Hn. apply inb_qadd. destruct (qpix_cases pix fi Hp) as [(q & -> & H0 & H1 & _) | [-> _]]; cbn [ioff imem].
    - rewrite zlen_in. assert (0 <= zlen over_in) by apply zlen_nonneg. lia.
    - assert (Z := zlen_zero). assert (0 <= zlen over_zero) by apply zlen_nonneg. lia.
  Qed.
  Lemma qpix_inb_over pix fi n : 0 <= pix < N -> 0 <= n -> n <= zlen over_in -> n <= zlen over_zero -> inb E (qadd (qpix pix fi) (in_d p)) n.
  Proof.
    intros Hp Hn H1 H2. assert (I := ind_ge). apply inb_qadd. destruct (qpix_cases pix fi Hp) as [(q & -> & H0 & H3 & _) | [-> _]]; cbn [ioff imem].
    - rewrite zlen_in. lia.
    - assert (Z := zlen_zero). lia.
  Qed.
  Lemma qpix_wat pix fi w : 0 <= pix < N -> 0 <= w < in_d p -> wat (imem E (qpix pix fi)) (ioff (qpix pix fi) + w) = tap_word p input pix fi w.
  Proof.
    intros Hp Hw. destruct (qpix_cases pix fi Hp) as [(q & -> & H0 & H3 & Ht) | [-> Ht]]; cbn [ioff imem]; rewrite Ht; unfold wat.
    - cbn [ienv e_in]. rewrite rd_app_l by lia. reflexivity.
    - cbn [ienv e_zero]. assert (F := fs_pos). rewrite rd_app_l, rd_repeat; [reflexivity| |]; rewrite ?zlen_repeat; rewrite Z2Nat.id by nia; clear - F Hw; nia.
  Qed.

  Hypotheses (HD : 1 <= D) (Hdiv : f_d p mod D = 0).
  Hypothesis Hpw : forall oc fi d, 0 <= oc < out_c p -> 0 <= fi < fs -> 0 <= d < f_d p ->
        rd pw ((((((oc / CO) * nblk + oc mod CO / 8) * fs + fi) * depth + d / D) * 8 + oc mod CO mod 8) * D + d mod D)
        = rd filter ((oc * fs + fi) * f_d p + d).
  Lemma depth_mul : f_d p = depth * D.
  Proof. clear - HD Hdiv. rewrite Z.mul_comm. apply Z.div_exact; lia. Qed.
  Lemma acc_val (qt : Z -> nat -> iptr) i pix g blk j : 0 <= pix < N -> (forall fi, 0 <= fi < fs -> qt fi i = qpix pix fi) ->
    0 <= g < groups p -> 0 <= blk -> 0 <= j < 8 -> 8 * blk + j < CO ->
    sum_ (fs * depth) (fun m => bp (xs E Dn depth (g * f_d p) qt i m)
       (wlist pw ((g * nblk + blk) * (8 * fs * f_d p) + 8 * D * m + D * j) Dn))
    = pix_acc p input filter pix (g * CO + 8 * blk + j).
  Proof.
    intros Hpix Hqt Hg Hblk Hj Hjc. destruct (wf_facts p WF) as (HB&HH&HW&HKH&HKW&HOH&HOW&Hg0&HCI&HCO&_).
    assert (DM := depth_mul). assert (Hdep : 0 < depth) by (clear - DM HD Hfd1; nia). assert (F := fs_pos).
    unfold pix_acc. rewrite <- (partial_full p WF). unfold partial_acc.
    replace (fs * f_d p) with (fs * depth * D) by (rewrite DM at 2; ring).
    rewrite (sum_flat (fs * depth) D) by nia. apply sum_ext. intros m Hm.
    unfold xs, xq. rewrite iwords_qadd, bp_sum. apply sum_ext. intros co Hco. cbv zeta.
    assert (Hfi : 0 <= m / depth < fs) by (split; [apply Z.div_pos; lia|apply Z.div_lt_upper_bound; lia]).
    assert (Hci := Z.mod_pos_bound m depth Hdep).
    assert (Em : m = m / depth * depth + m mod depth) by (rewrite Z.mul_comm; apply Z.div_mod; lia).
    set (fi := m / depth) in *. set (ci := m mod depth) in *.
    assert (Hd : 0 <= ci * D + co < f_d p) by (rewrite DM; clear - Hci Hco; nia).
    assert (Eq : m * D + co = fi * f_d p + (ci * D + co)) by (clearbody fi ci; clear - DM Em; set (dd := f_d p / D) in *; clearbody dd; rewrite DM, Em; ring).
    rewrite Eq. rewrite (Z.add_comm (fi * f_d p)), Z.div_add, Z.mod_add, (Z.div_small (ci * D + co)), (Z.mod_small (ci * D + co)), Z.add_0_l by lia.
    assert (Hoc : 0 <= g * CO + 8 * blk + j < out_c p) by (rewrite (wf_cout p WF) at 2; clear - Hg Hblk Hj Hjc HCO; nia).
    assert (Eg : (g * CO + 8 * blk + j) / CO = g).
    { replace (g * CO + 8 * blk + j) with (8 * blk + j + g * CO) by ring. rewrite Z.div_add, Z.div_small by lia. lia. }
    assert (Er : (g * CO + 8 * blk + j) mod CO = 8 * blk + j).
    { replace (g * CO + 8 * blk + j) with (8 * blk + j + g * CO) by ring. rewrite Z.mod_add, Z.mod_small by lia. reflexivity. }
    f_equal.
    - rewrite Hqt by exact Hfi. replace (ioff (qpix pix fi) + (g * f_d p + D * ci) + co) with (ioff (qpix pix fi) + (g * f_d p + (ci * D + co))) by ring.
      rewrite qpix_wat; [|exact Hpix|rewrite ind_gfd; clear - Hg Hd; nia].
      unfold tap_word. cbv zeta. rewrite Eg.
      replace (fi / f_w p * dl_h p) with (dl_h p * (fi / f_w p)) by ring. replace (fi mod f_w p * dl_w p) with (dl_w p * (fi mod f_w p)) by ring.
      match goal with |- (if inside _ (?a + ?b - ?c) (?d + ?e - ?f) then _ else _) = _ => replace (a + b - c) with (a - c + b) by ring; replace (d + e - f) with (d - f + e) by ring end.
      reflexivity.
    - assert (R := Hpw _ fi (ci * D + co) Hoc Hfi Hd). rewrite Eg, Er in R.
      replace ((8 * blk + j) / 8) with blk in R by (replace (8 * blk + j) with (j + blk * 8) by ring; rewrite Z.div_add, Z.div_small by lia; lia).
      replace ((8 * blk + j) mod 8) with j in R by (replace (8 * blk + j) with (j + blk * 8) by ring; rewrite Z.mod_add, Z.mod_small by lia; reflexivity).
      rewrite (Z.add_comm (ci * D)), Z.div_add, Z.mod_add, (Z.div_small co), (Z.mod_small co), Z.add_0_l in R by lia.
      unfold wat, word_at. unfold Offset.
      replace ((g * nblk + blk) * (8 * fs * f_d p) + 8 * D * m + D * j + co) with (((((g * nblk + blk) * fs + fi) * depth + ci) * 8 + j) * D + co).
      2: { clearbody fi ci. clear - DM Em. set (dd := f_d p / D) in *. clearbody dd. rewrite DM, Em. ring. }
      rewrite R. change (word_at filter (((g * CO + 8 * blk + j) * fs + fi) * f_d p + (co + ci * D)) = word_at filter ((((g * CO + 8 * blk + j) * f_h p + fi / f_w p) * f_w p + fi mod f_w p) * f_d p + (ci * D + co))). apply f_equal.
      assert (Efi : fi = fi / f_w p * f_w p + fi mod f_w p) by (rewrite Z.mul_comm; apply Z.div_mod; lia).
      set (fy := fi / f_w p) in *. set (fx := fi mod f_w p) in *. clearbody fy fx. rewrite Efi. ring.
  Qed.
End Val.
