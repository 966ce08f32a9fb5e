(** * IndirectTop: the indirect BGEMM convolution equals the reference kernel. *)
From Verif Require Import Base Spec Bits Loop4 Reference Bitpack Indirect IndirectPack IndirectBuf IndirectRun
  OutputTransform RefTheorems.

Lemma xor_popcount_comm a b : xor_popcount a b = xor_popcount b a.
Proof. unfold xor_popcount. rewrite Z.lxor_comm. reflexivity. Qed.

(** ** int16 view of an int32 array *)
Lemma pair_ind {A} (P : list A -> Prop) :
  P [] -> (forall a, P [a]) -> (forall a b l, P l -> P (a :: b :: l)) -> forall l, P l.
Proof.
  intros H0 H1 H2. assert (forall l, P l /\ forall a, P (a :: l)); [|firstorder].
  induction l as [|a l [IH1 IH2]]; split; auto.
Qed.
Lemma zlen_cons {A} (a : A) l : zlen (a :: l) = zlen l + 1.
Proof. unfold zlen. cbn [length]. lia. Qed.
Lemma rd_cons0 {A} (a : A) l : rd (a :: l) 0 = Some a.
Proof. reflexivity. Qed.
Lemma rd_consS {A} (a : A) l i : 0 < i -> rd (a :: l) i = rd l (i - 1).
Proof.
  intros H. unfold rd. destruct (Z.ltb_spec i 0); [lia|]. destruct (Z.ltb_spec (i - 1) 0); [lia|].
  replace (Z.to_nat i) with (S (Z.to_nat (i - 1))) by lia. reflexivity.
Qed.

Lemma zlen_halves ws : zlen (halves_of ws) = 2 * zlen ws.
Proof. induction ws as [|w ws IH]; [reflexivity|]. cbn [halves_of]. rewrite !zlen_cons, IH. lia. Qed.

Lemma rd_halves_zero ws i : (forall j, 0 <= j < zlen ws -> rd ws j = Some 0) ->
  0 <= i < 2 * zlen ws -> rd (halves_of ws) i = Some 0.
Proof.
  revert i; induction ws as [|w ws IH]; intros i H Hi; [cbn in Hi; lia|]. cbn [halves_of].
  rewrite zlen_cons in *.
  assert (Hw : w = 0) by (specialize (H 0 ltac:(pose proof (zlen_nonneg ws); lia)); injection H; auto). subst w.
  destruct (Z.eq_dec i 0) as [->|]; [reflexivity|]. destruct (Z.eq_dec i 1) as [->|]; [reflexivity|].
  rewrite !rd_consS by lia. apply IH; [|lia]. intros j Hj. specialize (H (j + 1) ltac:(lia)).
  rewrite rd_consS in H by lia. replace (j + 1 - 1) with j in H by lia. exact H.
Qed.

Lemma zlen_words_of hs : zlen (words_of hs) = zlen hs / 2.
Proof.
  induction hs as [|a|a b l IH] using pair_ind; [reflexivity|reflexivity|].
  cbn [words_of]. rewrite !zlen_cons, IH. lia.
Qed.
Lemma rd_words_of hs i lo hi : rd hs (2 * i) = Some lo -> rd hs (2 * i + 1) = Some hi ->
  rd (words_of hs) i = Some (lo + 2 ^ 16 * hi).
Proof.
  revert i; induction hs as [|a|a b l IH] using pair_ind; intros i H1 H2.
  - assert (Hb := rd_bounds _ _ _ H1). cbn in Hb. lia.
  - assert (Hb := rd_bounds _ _ _ H1). assert (Hb2 := rd_bounds _ _ _ H2). change (zlen [a]) with 1 in *. lia.
  - assert (Hb := rd_bounds _ _ _ H1). cbn [words_of].
    destruct (Z.eq_dec i 0) as [->|].
    + cbv in H1, H2. injection H1 as <-. injection H2 as <-. reflexivity.
    + rewrite rd_consS by lia. apply IH.
      * rewrite !rd_consS in H1 by lia. replace (2 * (i - 1)) with (2 * i - 1 - 1) by lia. exact H1.
      * rewrite !rd_consS in H2 by lia. replace (2 * (i - 1) + 1) with (2 * i + 1 - 1 - 1) by lia. exact H2.
Qed.

(** Joining two 16-bit halves. *)
Lemma halfw_range V oc q : 0 <= halfw V oc q < 2 ^ 16.
Proof.
  unfold halfw. set (f := fun i => _). assert (Hp := bitsn_nonneg 16 f). split; [exact Hp|].
  destruct (Z.eq_dec (bitsn 16 f) 0) as [->|Hn]; [lia|].
  apply Z.log2_lt_pow2; [lia|]. destruct (Z.lt_ge_cases (Z.log2 (bitsn 16 f)) 16) as [|Hge]; [assumption|].
  assert (HT := testbit_bitsn 16 f (Z.log2 (bitsn 16 f)) ltac:(lia)).
  rewrite Z.bit_log2 in HT by lia. change (Z.of_nat 16) with 16 in HT.
  destruct (Z.ltb_spec (Z.log2 (bitsn 16 f)) 16); [lia|discriminate].
Qed.

Lemma testbit_join lo hi i : 0 <= lo < 2 ^ 16 -> 0 <= hi -> 0 <= i ->
  Z.testbit (lo + 2 ^ 16 * hi) i = if i <? 16 then Z.testbit lo i else Z.testbit hi (i - 16).
Proof.
  intros Hl Hh Hi. destruct (Z.ltb_spec i 16).
  - rewrite <- (Z.mod_pow2_bits_low (lo + 2 ^ 16 * hi) 16 i) by lia.
    replace ((lo + 2 ^ 16 * hi) mod 2 ^ 16) with lo by lia. reflexivity.
  - replace i with (i - 16 + 16) at 1 by lia. rewrite <- Z.div_pow2_bits by lia.
    replace ((lo + 2 ^ 16 * hi) / 2 ^ 16) with hi by lia. reflexivity.
Qed.

Section Top.
  Variable p : bconv.
  Hypothesis WF : bconv_wf p.
  Variables input filter : list Z.
  Hypothesis Hin : packed input (in_pixels (geom_of p)) (channels_in p).
  Hypothesis Hfl : packed filter (filter_pixels (geom_of p)) (channels_in p / groups p).
  Hypothesis (HfH : 1 <= f_h p) (HfW : 1 <= f_w p) (Hfd : 1 <= f_d p).
  Hypothesis Hint : int32_indices p.

  Let k := mk_kern 4 2 1 p.
  Let G := groups p.
  Let CO := out_c p / groups p.
  Let fs := f_h p * f_w p.
  Let nblk := (CO + 3) / 4.
  Let N := batches p * out_h p * out_w p.
  Let zero := repeat 0 (Z.to_nat (k_fs k * k_in_depth k)).

  (** Word [w] under tap [ki] of output pixel [pix]. *)
  Definition tap_word (pix ki w : Z) : Z :=
    let b := pix / (out_h p * out_w p) in
    let y := (pix mod (out_h p * out_w p)) / out_w p * s_h p + ki / f_w p * dl_h p - pad_h p in
    let x := pix mod out_w p * s_w p + ki mod f_w p * dl_w p - pad_w p in
    if inside (geom_of p) y x then word_at input (((b * in_h p + y) * in_w p + x) * in_d p + w) else 0.

  Lemma facts :
    0 <= batches p /\ 0 <= in_h p /\ 0 <= in_w p /\ 0 <= out_h p /\ 0 <= out_w p /\ 0 < G /\ 0 < CO /\
    0 < fs /\ 0 < nblk /\ (nblk - 1) * 4 < CO <= nblk * 4 /\ 0 <= N /\ out_c p = G * CO /\ in_d p = G * f_d p.
  Proof.
    destruct (wf_facts p WF) as (HB&HH&HW&HKH&HKW&HOH&HOW&Hg&HCI&HCO&_). fold CO in HCO. fold G in Hg.
    assert (0 < fs) by (unfold fs; nia).
    assert (0 <= N) by (unfold N; assert (0 <= batches p * out_h p) by nia; nia).
    assert (HCc := wf_cout p WF). assert (HId := ind_groups p WF).
    repeat split; auto; unfold nblk; lia.
  Qed.

  Lemma pixel_range pix : 0 <= pix < N ->
    0 <= pix / (out_h p * out_w p) < batches p /\
    0 <= pix mod out_w p < out_w p /\ 0 <= pix mod (out_h p * out_w p) / out_w p < out_h p /\
    pix = (pix / (out_h p * out_w p) * out_h p + pix mod (out_h p * out_w p) / out_w p) * out_w p + pix mod out_w p.
  Proof.
    intros Hp. destruct facts as (HB&HH&HW&HOH&HOW&_). unfold N in Hp.
    destruct (pixel_decode _ _ _ pix HB HOH HOW Hp) as (b & y & x & Hb & Hy & Hx & E).
    assert (0 < out_w p) by lia. assert (0 < out_h p) by lia. assert (0 < out_h p * out_w p) by nia.
    assert (E1 : pix / (out_h p * out_w p) = b).
    { symmetry. apply Z.div_unique with (r := y * out_w p + x); [left; nia|]. rewrite E. ring. }
    assert (E2 : pix mod (out_h p * out_w p) = y * out_w p + x).
    { symmetry. apply Z.mod_unique with (q := b); [left; nia|]. rewrite E. ring. }
    assert (E3 : pix mod out_w p = x).
    { symmetry. apply Z.mod_unique with (q := b * out_h p + y); [left; lia|]. rewrite E. ring. }
    assert (E4 : (y * out_w p + x) / out_w p = y).
    { symmetry. apply Z.div_unique with (r := x); [left; lia|]. ring. }
    rewrite E2, E1, E3, E4. repeat split; auto; lia.
  Qed.

  Lemma pixel_of b oy ox : 0 <= b < batches p -> 0 <= oy < out_h p -> 0 <= ox < out_w p ->
    let pix := (b * out_h p + oy) * out_w p + ox in
    0 <= pix < N /\ pix / (out_h p * out_w p) = b /\ pix mod out_w p = ox /\
    pix mod (out_h p * out_w p) / out_w p = oy.
  Proof.
    intros Hb Hy Hx pix. assert (HB := pixel_bounds _ _ _ b oy ox Hb Hy Hx). fold pix in HB. fold N in HB.
    assert (0 < out_h p * out_w p) by nia. split; [exact HB|].
    assert (E2 : pix mod (out_h p * out_w p) = oy * out_w p + ox).
    { symmetry. apply Z.mod_unique with (q := b); [left; nia|]. unfold pix. ring. }
    split; [|split].
    - symmetry. apply Z.div_unique with (r := oy * out_w p + ox); [left; nia|]. unfold pix. ring.
    - symmetry. apply Z.mod_unique with (q := b * out_h p + oy); [left; lia|]. unfold pix. ring.
    - rewrite E2. symmetry. apply Z.div_unique with (r := ox); [left; lia|]. ring.
  Qed.

  (** What the kernel needs of the two prepared buffers. *)
  Definition buffers_ok (pw : list Z) (ibuf : list iptr) : Prop :=
    zlen pw = G * (nblk * 4) * fs * f_d p + 4 /\
    (forall t ki j, 0 <= t -> 2 * t < N -> 0 <= ki < fs -> 0 <= j < 2 ->
      exists q, rd ibuf ((t * fs + ki) * 2 + j) = Some q /\
        forall w, 0 <= w < G * f_d p -> deref input zero q w = Some (tap_word (Z.min (2 * t + j) (N - 1)) ki w)) /\
    (forall pix g blk i, 0 <= pix < N -> 0 <= g < G -> 0 <= blk < nblk -> 0 <= i < 4 -> 4 * blk + i < CO ->
      S4 pw fs (f_d p) nblk tap_word pix g blk i =
      acc_one p input filter (pix / (out_h p * out_w p)) (pix mod (out_h p * out_w p) / out_w p) (pix mod out_w p)
        (g * CO + 4 * blk + i)).

  Lemma S4_acc_one pw pix g blk i :
    (forall fi ci, 0 <= fi < fs -> 0 <= ci < f_d p ->
       rd pw ((((g * nblk + blk) * fs + fi) * f_d p + ci) * 4 + i)
       = rd filter (((g * CO + 4 * blk + i) * fs + fi) * f_d p + ci)) ->
    0 <= g < G -> 4 * blk + i < CO -> 0 <= blk -> 0 <= i ->
    S4 pw fs (f_d p) nblk tap_word pix g blk i =
      acc_one p input filter (pix / (out_h p * out_w p)) (pix mod (out_h p * out_w p) / out_w p) (pix mod out_w p)
        (g * CO + 4 * blk + i).
  Proof.
    intros Hpw Hg Hlt Hb0 Hi0. unfold S4, acc_one. match goal with |- sum_ fs ?f = _ => change (sum_ fs f) with (sum_ (f_h p * f_w p) f) end.
    rewrite sum_flat by lia.
    apply sum_ext. intros fy Hfy. apply sum_ext. intros fx Hfx. unfold acc_tap. cbv zeta.
    apply sum_ext. intros ic Hic.
    assert (Hki : 0 <= fy * f_w p + fx < fs) by (unfold fs; nia).
    rewrite xor_popcount_comm. f_equal.
    - unfold tap_word. cbv zeta.
      replace ((fy * f_w p + fx) / f_w p) with fy by (apply Z.div_unique with (r := fx); lia).
      replace ((fy * f_w p + fx) mod f_w p) with fx by (apply Z.mod_unique with (q := fy); lia).
      fold CO.
      replace ((g * CO + 4 * blk + i) / CO) with g
        by (apply Z.div_unique with (r := 4 * blk + i); [left; lia|ring]).
      match goal with |- (if inside _ ?a ?b then _ else _) = (if inside _ ?c ?d then _ else _) =>
        replace a with c by ring; replace b with d by ring end.
      destruct (inside _ _ _); [|reflexivity]. unfold Offset. f_equal; ring.
    - unfold word_at. rewrite Hpw by auto. unfold Offset, fs.
      match goal with |- match rd _ ?a with _ => _ end = match rd _ ?b with _ => _ end =>
        replace a with b by ring end. reflexivity.
  Qed.

  Lemma prepare_buffers (Q : list Z -> list iptr -> Prop) :
    (forall pw ibuf, buffers_ok pw ibuf -> Q pw ibuf) ->
    wp (let* pw := PackWeights k filter in let* ibuf := FillIndirectionBuffer k p in Some (pw, ibuf))
       (fun r => Q (fst r) (snd r)).
  Proof.
    intros HQ. destruct facts as (HB&HH&HW&HOH&HOW&HG&HCO&Hfs&Hnblk&Hblk&HN&Eoc&Eind).
    apply wp_bind.
    eapply (PackWeights_wp k G CO fs (f_d p) nblk (f_d p) filter); try reflexivity; try lia; try exact Eoc; try exact Eind.
    all: try (change (bs_oc k) with 4; lia). all: try (change (bs_d k) with 1; lia).
    { rewrite (filter_len p WF filter Hfl), Eoc. unfold fs. ring. }
    intros pw Hlpw Hpw. apply wp_bind.
    set (T := (N + 1) / 2).
    eapply (FillIndirectionBuffer_wp k p T); try reflexivity; try lia; try exact Hint.
    all: try (unfold T; lia). all: try (change (bs_px k) with 2; change (k_npix k) with N; unfold T; lia).
    intros ibuf Hlb Hib. apply wp_ret. cbn [fst snd]. apply HQ.
    split; [|split].
    - rewrite Hlpw. unfold psize. cbn [bs_oc bs_d k mk_kern]. ring.
    - intros t ki j Ht0 Ht Hki Hj.
      assert (Hfy : 0 <= ki / f_w p < f_h p).
      { split; [apply Z.div_pos; lia|]. apply Z.div_lt_upper_bound; [lia|]. unfold fs in Hki. lia. }
      assert (Hfx := Z.mod_pos_bound ki (f_w p) ltac:(lia)).
      assert (Eki : ki / f_w p * f_w p + ki mod f_w p = ki) by (rewrite Z.mul_comm; symmetry; apply Z.div_mod; lia).
      specialize (Hib t j (ki / f_w p) (ki mod f_w p) ltac:(unfold T; lia) ltac:(cbn; lia) Hfy Hfx).
      unfold ipos in Hib. cbn [bs_px k_npix k mk_kern] in Hib. fold N fs in Hib. rewrite Eki in Hib.
      replace (t * 2 + j) with (2 * t + j) in Hib by lia.
      eexists. split; [exact Hib|]. intros w Hw.
      set (pix := Z.min (2 * t + j) (N - 1)).
      assert (Hpix : 0 <= pix < N) by lia.
      destruct (pixel_range pix Hpix) as (Hb & Hx & Hy & _).
      unfold pixel_ptr, tap_word. cbv zeta.
      destruct (inside _ _ _) eqn:EI; cbn [deref].
      + apply word_at_ok. rewrite (input_len p WF input Hin).
        match type of EI with inside _ ?y ?x = true => set (yy := y) in *; set (xx := x) in * end.
        clearbody yy xx. unfold inside in EI. cbn [geom_of gH gW] in EI.
        assert (Hyy : 0 <= yy < in_h p) by (clear - EI; lia).
        assert (Hxx : 0 <= xx < in_w p) by (clear - EI; lia).
        exact (Offset_bounds (batches p) (in_h p) (in_w p) (in_d p) (pix / (out_h p * out_w p)) yy xx w
             Hb Hyy Hxx ltac:(rewrite Eind; exact Hw)).
      + apply rd_repeat. cbn [k_fs k_in_depth k mk_kern]. fold fs. rewrite Eind.
        assert (HM : forall a b c, 0 <= c < a -> 0 < b -> 0 + c < Z.of_nat (Z.to_nat (b * a))) by (clear; intros; nia).
        split; [clear - Hw; lia|]. apply HM; auto.
    - intros pix g blk i Hpix Hg Hb Hi Hlt. apply S4_acc_one; auto; [|lia|lia].
      intros fi ci Hfi Hci. specialize (Hpw g blk fi ci i 0 Hg Hb Hfi Hci).
      unfold wpos, fpos, Offset in Hpw. cbn [bs_oc bs_d k mk_kern] in Hpw.
      specialize (Hpw Hi ltac:(lia) ltac:(lia)).
      match type of Hpw with rd _ ?a = rd _ ?b => 
        replace a with ((((g * nblk + blk) * fs + fi) * f_d p + ci) * 4 + i) in Hpw by ring;
        replace b with (((g * CO + 4 * blk + i) * fs + fi) * f_d p + ci) in Hpw by ring end.
      exact Hpw.
  Qed.

  Definition pix_acc (pix c : Z) : Z :=
    acc_one p input filter (pix / (out_h p * out_w p)) (pix mod (out_h p * out_w p) / out_w p) (pix mod out_w p) c.

  (** The float / int8 kernel on any even-aligned range of output pixels. *)
  Lemma indirect_range_ok {T} (run : Z -> Z -> option T) (v : Z -> Z -> T) pw ibuf ts pe out :
    buffers_ok pw ibuf ->
    (forall pix c, 0 <= pix < N -> 0 <= c < out_c p -> run (pix_acc pix c) c = Some (v pix c)) ->
    0 <= ts -> 2 * ts <= pe <= N -> zlen out = N * out_c p ->
    wp (run_val k pw input zero ibuf (f_d p) run (2 * ts) pe out) (fun out' =>
      zlen out' = zlen out /\
      (forall pix c, 2 * ts <= pix < pe -> 0 <= c < out_c p -> rd out' (pix * out_c p + c) = Some (v pix c)) /\
      (forall j, ~ 2 * ts * out_c p <= j < pe * out_c p -> rd out' j = rd out j)).
  Proof.
    intros (Hpw & Hib & HS) Hrun Hts Hpe Hlen.
    destruct facts as (HB&HH&HW&HOH&HOW&HG&HCO&Hfs&Hnblk&Hblk&HN&Eoc&Eind). rewrite Eoc in *.
    eapply (run_val_wp k pw input zero ibuf G CO fs (f_d p) nblk N); try lia; try reflexivity; try eassumption.
    - intros pix g blk i Hpix Hg Hb Hi Hlt. rewrite HS by auto.
      apply Hrun; [exact Hpix|]. clear -Hg Hb Hi Hlt. assert (g * CO + CO <= G * CO) by nia. nia.
    - intros out' H1 H2 H3. auto.
  Qed.

  Lemma indirect_val_one {T} (run : Z -> Z -> option T) (v : Z -> Z -> Z -> Z -> T) out :
    (forall b y x c, 0 <= b < batches p -> 0 <= y < out_h p -> 0 <= x < out_w p -> 0 <= c < out_c p ->
       run (acc_one p input filter b y x c) c = Some (v b y x c)) ->
    zlen out = N * out_c p ->
    exists out', indirect_val p input filter run out = Some out' /\ zlen out' = zlen out /\
      (forall b y x c, 0 <= b < batches p -> 0 <= y < out_h p -> 0 <= x < out_w p -> 0 <= c < out_c p ->
         rd out' (Offset (out_h p) (out_w p) (out_c p) b y x c) = Some (v b y x c)).
  Proof.
    intros Hrun Hlen. apply wp_iff. unfold indirect_val. fold k.
    destruct facts as (HB&HH&HW&HOH&HOW&HG&HCO&Hfs&Hnblk&Hblk&HN&Eoc&Eind).
    assert (HP := prepare_buffers (fun pw ibuf => buffers_ok pw ibuf) ltac:(auto)).
    destruct (PackWeights k filter) as [pw|]; cbn [bind] in *; [|contradiction].
    destruct (FillIndirectionBuffer k p) as [ibuf|]; cbn [bind wp fst snd] in *; [|contradiction].
    change (k_in_depth k) with (in_d p) at 1. change (k_groups k) with G. rewrite Eind at 1.
    rewrite cdiv_nz by lia. cbn [bind]. rewrite (Z.mul_comm G), Z.quot_mul by lia.
    change (k_npix k) with N. fold zero.
    set (v' := fun pix c => v (pix / (out_h p * out_w p)) (pix mod (out_h p * out_w p) / out_w p) (pix mod out_w p) c).
    eapply wp_mono; [apply (indirect_range_ok run v' pw ibuf 0 N out HP); [|lia|lia|exact Hlen]|].
    - intros pix c Hpix Hc. destruct (pixel_range pix Hpix) as (Hb & Hx & Hy & _). exact (Hrun _ _ _ c Hb Hy Hx Hc).
    - intros out' (H1 & H2 & _). split; [exact H1|]. intros b y x c Hb Hy Hx Hc.
      destruct (pixel_of b y x Hb Hy Hx) as (Hpix & E1 & E2 & E3).
      unfold Offset. rewrite H2 by (auto; lia). unfold v'. rewrite E1, E2, E3. reflexivity.
  Qed.

  (** Equality with the reference kernel when outside pixels count as +1. *)
  Lemma indirect_eq_reference_val {T} (run : Z -> Z -> option T) out :
    zero_padding p = false ->
    (forall a c, 0 <= c < out_c p -> exists r, run a c = Some r) ->
    zlen out = N * out_c p ->
    exists out', indirect_val p input filter run out = Some out' /\
                 BConv2DReference_val p input filter run out = Some out'.
  Proof.
    intros HZ Htot Hlen.
    destruct facts as (HB&HH&HW&HOH&HOW&HG&HCO&Hfs&Hnblk&Hblk&HN&Eoc&Eind).
    (* the value every kernel stores *)
    destruct (Z.eq_dec N 0) as [HN0|HN0].
    { (* no output pixel: both return [out] *)
      assert (Hl0 : zlen out = 0) by (rewrite Hlen, HN0; lia).
      assert (out = []) by (destruct out; [reflexivity|unfold zlen in Hl0; cbn in Hl0; lia]). subst out.
      assert (Hnone : forall b y x, 0 <= b < batches p -> 0 <= y < out_h p -> 0 <= x < out_w p -> False).
      { intros b y x Hb Hy Hx. assert (HBd := pixel_bounds _ _ _ b y x Hb Hy Hx). fold N in HBd. lia. }
      destruct (run 0 0) as [d|] eqn:Ed.
      2:{ destruct (Htot 0 0 ltac:(rewrite Eoc; nia)) as [r Hr]. congruence. }
      destruct (indirect_val_one run (fun _ _ _ _ => d) []) as (o1 & E1 & L1 & _);
        [intros; exfalso; eauto|exact Hlen|].
      destruct (reference_val_ok p WF input filter Hin Hfl run (fun _ _ _ _ => d) []) as (o2 & E2 & L2 & _);
        [intros; exfalso; eauto|exact Hlen|].
      assert (o1 = []) by (destruct o1; [reflexivity|unfold zlen in L1; cbn in L1; lia]).
      assert (o2 = []) by (destruct o2; [reflexivity|unfold zlen in L2; cbn in L2; lia]).
      subst. exists []. auto. }
    destruct (Htot 0 0 ltac:(rewrite Eoc; nia)) as [d _].
    set (v := fun b y x c => match run (acc_one p input filter b y x c) c with Some r => r | None => d end).
    assert (Hv : forall b y x c, 0 <= c < out_c p -> run (acc_one p input filter b y x c) c = Some (v b y x c)).
    { intros b y x c Hc. unfold v. destruct (Htot (acc_one p input filter b y x c) c Hc) as [r ->]. reflexivity. }
    destruct (indirect_val_one run v out) as (o1 & E1 & L1 & C1); [auto|exact Hlen|].
    destruct (reference_val_ok p WF input filter Hin Hfl run v out) as (o2 & E2 & L2 & C2).
    { intros b y x c Hb Hy Hx Hc. rewrite (acc_ref_one p input filter b y x c HZ). auto. }
    { exact Hlen. }
    exists o1. split; [exact E1|]. rewrite E2. f_equal. apply rd_ext; [congruence|].
    intros i Hi. rewrite L2, Hlen in Hi. assert (0 < out_c p) by (rewrite Eoc; nia).
    assert (Hq : 0 <= i / out_c p < N) by (split; [apply Z.div_pos; lia|apply Z.div_lt_upper_bound; lia]).
    destruct (pixel_decode _ _ _ (i / out_c p) HB HOH HOW Hq) as (b & y & x & Hb & Hy & Hx & Eq).
    assert (Hm := Z.mod_pos_bound i (out_c p) ltac:(lia)).
    assert (Ei : i = Offset (out_h p) (out_w p) (out_c p) b y x (i mod out_c p)).
    { unfold Offset. rewrite <- Eq, Z.mul_comm. apply Z.div_mod. lia. }
    rewrite Ei, C1, C2 by auto. reflexivity.
  Qed.
  (** ** Bitpacked output *)
  Lemma indirect_bits_one (run : Z -> Z -> option bool) (v : Z -> Z -> Z -> Z -> bool) out :
    (forall b y x c, 0 <= b < batches p -> 0 <= y < out_h p -> 0 <= x < out_w p -> 0 <= c < out_c p ->
       run (acc_one p input filter b y x c) c = Some (v b y x c)) ->
    (forall a c, 0 <= c < out_c p + 3 -> exists r, run a c = Some r) ->
    zlen out = N * words (out_c p) ->
    exists out', indirect_bits p input filter run out = Some out' /\
      packed out' N (out_c p) /\
      (forall b y x c, 0 <= b < batches p -> 0 <= y < out_h p -> 0 <= x < out_w p -> 0 <= c < out_c p ->
         bit_of out' (words (out_c p)) (out_pixel (geom_of p) b y x) c = v b y x c).
  Proof.
    intros Hrun Htot Hlen. apply wp_iff. unfold indirect_bits. fold k.
    destruct facts as (HB&HH&HW&HOH&HOW&HG&HCO&Hfs&Hnblk&Hblk&HN&Eoc&Eind).
    assert (HP := prepare_buffers (fun pw ibuf => buffers_ok pw ibuf) ltac:(auto)).
    destruct (PackWeights k filter) as [pw|]; cbn [bind] in *; [|contradiction].
    destruct (FillIndirectionBuffer k p) as [ibuf|]; cbn [bind wp fst snd] in *; [|contradiction].
    change (k_in_depth k) with (in_d p) at 1. change (k_groups k) with G. rewrite Eind at 1.
    rewrite cdiv_nz by lia. cbn [bind]. rewrite (Z.mul_comm G), Z.quot_mul by lia.
    change (k_npix k) with N. change (k_oc k) with (out_c p). fold zero.
    assert (Hoc : 0 < out_c p) by (rewrite Eoc; nia).
    rewrite GetBitpackedSize_words by lia.
    assert (HW32 := words_mul32 (out_c p) ltac:(lia)). set (W := words (out_c p)) in *.
    apply wp_bind.
    apply (wp_mono _ (fun o => zlen o = N * W /\
             (out_c p mod 32 <> 0 -> forall j, 0 <= j < zlen o -> rd o j = Some 0))).
    { rewrite Z.rem_mod_nonneg by lia. destruct (Z.eqb_spec (out_c p mod 32) 0).
      - apply wp_ret. split; [exact Hlen|contradiction].
      - apply fill_wp; [lia|lia|]. intros o Hl Hz _. split; [lia|]. intros _ j Hj. apply Hz. lia. }
    intros o (Hlo & Hz). apply wp_bind.
    destruct HP as (Hpw & Hib & HS).
    set (V := fun pix c => v (pix / (out_h p * out_w p)) (pix mod (out_h p * out_w p) / out_w p) (pix mod out_w p) c).
    apply (run_packed_wp k pw input zero ibuf G CO fs (f_d p) nblk N HG HCO Hfs ltac:(lia) Hnblk Hblk HN Eoc eq_refl eq_refl
             Hpw tap_word Hib run V) with (ts := 0).
    { intros pix g blk i Hpix Hg Hb Hi Hlt. rewrite HS by auto.
      destruct (pixel_range pix Hpix) as (Hb' & Hx & Hy & _).
      assert (Hc : 0 <= g * CO + 4 * blk + i < out_c p).
      { rewrite Eoc. clearbody G CO nblk. clear - Hg Hb Hi Hlt.
        assert (g * CO + CO <= G * CO) by nia. nia. }
      exact (Hrun _ _ _ _ Hb' Hy Hx Hc). }
    { rewrite <- Eoc. exact Htot. }
    { lia. }
    { lia. }
    { rewrite zlen_halves, <- Eoc. fold W. lia. }
    rewrite <- Eoc. fold W. intros hs Hlh Hhs. apply wp_ret.
    rewrite zlen_halves in Hlh.
    (* every word *)
    assert (Hword : forall pix w, 0 <= pix < N -> 0 <= w < W ->
      exists x, rd (words_of hs) (pix * W + w) = Some x /\ word x /\
        forall i, 0 <= i < 32 -> Z.testbit x i = (32 * w + i <? out_c p) && V pix (32 * w + i)).
    { intros pix w Hpix Hw.
      assert (Hhalf : forall q, 0 <= q < 2 * W ->
        exists h, rd hs (pix * (2 * W) + q) = Some h /\ 0 <= h < 2 ^ 16 /\
          forall i, 0 <= i < 16 -> Z.testbit h i = (16 * q + i <? out_c p) && V pix (16 * q + i)).
      { intros q Hq. rewrite Hhs by exact Hq.
        destruct (Z.leb_spec (2 * 0) pix); [|lia]. destruct (Z.ltb_spec pix N); [|lia]. cbn [andb].
        destruct (Z.ltb_spec q ((out_c p + 15) / 16)) as [Hlt|Hge].
        - eexists. split; [reflexivity|]. split; [apply halfw_range|].
          intros i Hi. unfold halfw. rewrite testbit_bitsn by lia. change (Z.of_nat 16) with 16.
          destruct (Z.ltb_spec i 16); [reflexivity|lia].
        - exists 0. assert (Hm : out_c p mod 32 <> 0) by lia.
          split; [|split; [lia|]].
          + apply rd_halves_zero; [exact (Hz Hm)|]. rewrite Hlo. clear - Hpix Hq Hw. nia.
          + intros i Hi. rewrite Z.bits_0. destruct (Z.ltb_spec (16 * q + i) (out_c p)); [lia|reflexivity]. }
      destruct (Hhalf (2 * w) ltac:(lia)) as (lo & Elo & Hlo' & Blo).
      destruct (Hhalf (2 * w + 1) ltac:(lia)) as (hi & Ehi & Hhi & Bhi).
      exists (lo + 2 ^ 16 * hi). split; [|split].
      - apply rd_words_of; [rewrite <- Elo; f_equal; ring|rewrite <- Ehi; f_equal; ring].
      - unfold word. lia.
      - intros i Hi. rewrite testbit_join by lia. destruct (Z.ltb_spec i 16).
        + rewrite Blo by lia. replace (16 * (2 * w) + i) with (32 * w + i) by lia. reflexivity.
        + rewrite Bhi by lia. replace (16 * (2 * w + 1) + (i - 16)) with (32 * w + i) by lia. reflexivity. }
    assert (Hbit : forall pix c, 0 <= pix < N -> 0 <= c < 32 * W ->
       bit_of (words_of hs) W pix c = (c <? out_c p) && V pix c).
    { intros pix c Hpix Hc. destruct (Hword pix (c / 32) Hpix ltac:(lia)) as (x & Ex & _ & Bx).
      unfold bit_of. rewrite Ex, Bx by lia. replace (32 * (c / 32) + c mod 32) with c by lia. reflexivity. }
    assert (Hlw : zlen (words_of hs) = N * W) by (rewrite zlen_words_of; lia).
    split; [split; [|split]|].
    - fold W. exact Hlw.
    - intros i w Hi. assert (Hb := rd_bounds _ _ _ Hi). rewrite Hlw in Hb.
      assert (0 < W) by lia.
      assert (Hq : 0 <= i / W < N) by (split; [apply Z.div_pos; lia|apply Z.div_lt_upper_bound; lia]).
      destruct (Hword (i / W) (i mod W) Hq (Z.mod_pos_bound i W ltac:(lia))) as (x & Ex & Hx & _).
      rewrite (Z.mul_comm (i / W)), <- Z.div_mod in Ex by lia. congruence.
    - intros q c Hq Hc. fold W in Hc |- *. rewrite Hbit by lia. destruct (Z.ltb_spec c (out_c p)); [lia|reflexivity].
    - intros b y x c Hb Hy Hx Hc. destruct (pixel_of b y x Hb Hy Hx) as (Hpix & E1 & E2 & E3).
      change (out_pixel (geom_of p) b y x) with ((b * out_h p + y) * out_w p + x).
      assert (Hc32 : 0 <= c < 32 * W) by (clear - Hc HW32; lia).
      rewrite (Hbit _ _ Hpix Hc32). unfold V. rewrite E1, E2, E3.
      destruct (Z.ltb_spec c (out_c p)); [reflexivity|clear - Hc H; lia].
  Qed.

  Lemma indirect_eq_reference_bits (run : Z -> Z -> option bool) out :
    zero_padding p = false ->
    (forall a c, 0 <= c < out_c p + 3 -> exists r, run a c = Some r) ->
    zlen out = N * words (out_c p) ->
    exists out', indirect_bits p input filter run out = Some out' /\
                 BConv2DReference_bits p input filter run (words (out_c p)) out = Some out' /\
                 packed out' N (out_c p).
  Proof.
    intros HZ Htot Hlen.
    destruct facts as (HB&HH&HW&HOH&HOW&HG&HCO&Hfs&Hnblk&Hblk&HN&Eoc&Eind).
    assert (Hoc : 0 < out_c p) by (rewrite Eoc; nia).
    set (v := fun b y x c => match run (acc_one p input filter b y x c) c with Some r => r | None => false end).
    assert (Hv : forall b y x c, 0 <= c < out_c p -> run (acc_one p input filter b y x c) c = Some (v b y x c)).
    { intros b y x c Hc. unfold v. destruct (Htot (acc_one p input filter b y x c) c ltac:(lia)) as [r ->]. reflexivity. }
    destruct (indirect_bits_one run v out) as (o1 & E1 & P1 & C1); [auto|exact Htot|exact Hlen|].
    destruct (reference_bits_ok p WF input filter Hin Hfl run v out) as (o2 & E2 & P2 & C2).
    { intros b y x c Hb Hy Hx Hc. rewrite (acc_ref_one p input filter b y x c HZ). auto. }
    { exact Hlen. }
    exists o1. split; [exact E1|]. split; [|exact P1]. rewrite E2. f_equal.
    apply (packed_bits_inj o2 o1 N (out_c p)); [lia|exact P2|exact P1|].
    intros r c Hr Hc. destruct (pixel_decode _ _ _ r HB HOH HOW Hr) as (b & y & x & Hb & Hy & Hx & ->).
    transitivity (v b y x c); [apply C2; auto|symmetry; apply C1; auto].
  Qed.
End Top.

Lemma ceil_blocks a b : 0 < b -> ((a + b - 1) / b - 1) * b < a <= (a + b - 1) / b * b.
Proof. intros Hb. nia. Qed.

(** ** The prepared buffers for any block sizes (the AArch64 kernels use 8x4x1,
    8x4x2 and 8x4x4; the portable one 4x2x1). *)
Section AnyBlock.
  Variables boc bpx bd : Z.
  Variable p : bconv.
  Hypothesis WF : bconv_wf p.
  Variable filter : list Z.
  Hypothesis Hfl : packed filter (filter_pixels (geom_of p)) (channels_in p / groups p).
  Hypothesis (Hboc : 0 < boc) (Hbpx : 0 < bpx) (Hbd : 0 < bd) (Hdiv : f_d p mod bd = 0).

  Let CO := out_c p / groups p.
  Let fs := f_h p * f_w p.
  Let nblk := (CO + boc - 1) / boc.
  Let nci := f_d p / bd.

  Lemma pack_weights_content :
    exists pw, PackWeights (mk_kern boc bpx bd p) filter = Some pw /\
      forall o fi d, 0 <= o < out_c p -> 0 <= fi < fs -> 0 <= d < f_d p ->
        rd pw ((((((o / CO) * nblk + o mod CO / boc) * fs + fi) * nci + d / bd) * boc + o mod CO mod boc) * bd + d mod bd)
        = rd filter ((o * fs + fi) * f_d p + d).
  Proof.
    destruct (wf_facts p WF) as (HB&HH&HW&HKH&HKW&HOH&HOW&Hg&HCI&HCO&_). fold CO in HCO.
    assert (Hfd := f_d_nonneg p WF).
    assert (Hfs : 0 <= fs) by (unfold fs; nia).
    assert (HCc := wf_cout p WF). fold CO in HCc. assert (HId := ind_groups p WF).
    assert (Hblk := ceil_blocks CO boc Hboc). fold nblk in Hblk.
    assert (Hnblk : 0 < nblk) by (clear - Hblk HCO Hboc; clearbody nblk CO; nia).
    assert (Efd : f_d p = nci * bd) by (unfold nci; lia).
    assert (Hnci : 0 <= nci) by (unfold nci; apply Z.div_pos; lia).
    apply wp_iff.
    eapply (PackWeights_wp (mk_kern boc bpx bd p) (groups p) CO fs (f_d p) nblk nci filter);
      try reflexivity; try assumption.
    { rewrite (filter_len p WF filter Hfl), HCc. unfold fs. ring. }
    intros pw _ Hpw o fi d Ho Hfi Hd.
    assert (Hgo := group_bounds p WF o Ho). fold CO in Hgo.
    assert (Hr := Z.mod_pos_bound o CO HCO).
    assert (Hbo := Z.mod_pos_bound (o mod CO) boc Hboc).
    assert (Hco := Z.mod_pos_bound d bd Hbd).
    assert (Hci : 0 <= d / bd < nci).
    { split; [apply Z.div_pos; lia|]. apply Z.div_lt_upper_bound; lia. }
    assert (Hbk : 0 <= o mod CO / boc < nblk).
    { split; [apply Z.div_pos; lia|]. apply Z.div_lt_upper_bound; lia. }
    assert (Em : o mod CO / boc * boc + o mod CO mod boc = o mod CO)
      by (rewrite Z.mul_comm; symmetry; apply Z.div_mod; lia).
    assert (Ed : d / bd * bd + d mod bd = d) by (rewrite Z.mul_comm; symmetry; apply Z.div_mod; lia).
    assert (Eo : o / CO * CO + o mod CO = o) by (rewrite Z.mul_comm; symmetry; apply Z.div_mod; lia).
    specialize (Hpw (o / CO) (o mod CO / boc) fi (d / bd) (o mod CO mod boc) (d mod bd) Hgo Hbk Hfi Hci Hbo Hco).
    cbn [bs_oc mk_kern] in Hpw. rewrite Em in Hpw. specialize (Hpw ltac:(lia)).
    unfold wpos, fpos, Offset in Hpw. cbn [bs_oc bs_d mk_kern] in Hpw.
    rewrite Hpw. f_equal.
    rewrite <- (Z.add_assoc _ (d / bd * bd)), Ed. do 2 f_equal.
    rewrite <- Z.add_assoc, Em, Eo. reflexivity.
  Qed.

End AnyBlock.

Section AnyBlockBuf.
  Variables boc bpx bd : Z.
  Variable p : bconv.
  Hypothesis WF : bconv_wf p.
  Hypothesis Hbpx : 0 < bpx.
  Let fs := f_h p * f_w p.
  Hypothesis Hint : int32_indices p.

  Lemma indirection_content :
    exists buf, FillIndirectionBuffer (mk_kern boc bpx bd p) p = Some buf /\
      forall b oy ox fy fx, 0 <= b < batches p -> 0 <= oy < out_h p -> 0 <= ox < out_w p ->
        0 <= fy < f_h p -> 0 <= fx < f_w p ->
        let pix := (b * out_h p + oy) * out_w p + ox in
        rd buf ((pix / bpx * fs + (fy * f_w p + fx)) * bpx + pix mod bpx) =
        Some (let y := oy * s_h p - pad_h p + fy * dl_h p in
              let x := ox * s_w p - pad_w p + fx * dl_w p in
              if inside (geom_of p) y x then PIn (((b * in_h p + y) * in_w p + x) * in_d p) else PZero 0).
  Proof.
    destruct (wf_facts p WF) as (HB&HH&HW&HKH&HKW&HOH&HOW&Hg&HCI&HCO&_).
    set (N := batches p * out_h p * out_w p).
    assert (HN : 0 <= N) by (unfold N; assert (0 <= batches p * out_h p) by nia; nia).
    set (T := (N + bpx - 1) / bpx). assert (HT := ceil_blocks N bpx Hbpx). fold T in HT.
    assert (HT0 : 0 <= T) by (unfold T; apply Z.div_pos; lia).
    apply wp_iff.
    eapply (FillIndirectionBuffer_wp (mk_kern boc bpx bd p) p T); try reflexivity; try assumption.
    intros buf _ Hbuf b oy ox fy fx Hb Hoy Hox Hfy Hfx pix.
    destruct (pixel_of p b oy ox Hb Hoy Hox) as (Hpix & E1 & E2 & E3). fold pix in Hpix, E1, E2, E3.
    assert (Hpixm := Z.mod_pos_bound pix bpx Hbpx).
    assert (Hpixd : 0 <= pix / bpx < T).
    { split; [apply Z.div_pos; lia|]. apply Z.div_lt_upper_bound; [lia|]. fold N in Hpix. lia. }
    assert (Ep : pix / bpx * bpx + pix mod bpx = pix) by (rewrite Z.mul_comm; symmetry; apply Z.div_mod; lia).
    specialize (Hbuf (pix / bpx) (pix mod bpx) fy fx Hpixd Hpixm Hfy Hfx).
    unfold ipos in Hbuf. cbn [bs_px k_npix mk_kern] in Hbuf. fold N fs in Hbuf. fold N in Hpix.
    rewrite Ep, Z.min_l in Hbuf by lia. rewrite Hbuf. f_equal. unfold pixel_ptr. cbv zeta.
    rewrite E1, E2, E3.
    replace (oy * s_h p + fy * dl_h p - pad_h p) with (oy * s_h p - pad_h p + fy * dl_h p) by ring.
    replace (ox * s_w p + fx * dl_w p - pad_w p) with (ox * s_w p - pad_w p + fx * dl_w p) by ring.
    reflexivity.
  Qed.
End AnyBlockBuf.

(** ** Statements used by Prop_Indirect.v *)
Lemma zero_padding_one p : pad_same p = false \/ pad_value p = 1 -> zero_padding p = false.
Proof. unfold zero_padding. intros [-> | ->]; [reflexivity|]. apply andb_false_r. Qed.

(** The kernel run on one range of pixels, on freshly prepared buffers. *)
Definition indirect_range {T} (p : bconv) (input filter : list Z) (run : Z -> Z -> option T)
    (ps pe : Z) (out : list T) : option (list T) :=
  let k := mk_kern 4 2 1 p in
  let* pw := PackWeights k filter in
  let* ibuf := FillIndirectionBuffer k p in
  let zero := repeat 0 (Z.to_nat (k_fs k * k_in_depth k)) in
  let* idpg := cdiv (k_in_depth k) (k_groups k) in
  run_val k pw input zero ibuf idpg run ps pe out.

Lemma indirect_range_spec {T} p input filter (run : Z -> Z -> option T) ts pe out :
  bconv_wf p ->
  packed input (in_pixels (geom_of p)) (channels_in p) ->
  packed filter (filter_pixels (geom_of p)) (channels_in p / groups p) ->
  1 <= f_h p -> 1 <= f_w p -> 1 <= f_d p -> int32_indices p ->
  (forall a c, 0 <= c < out_c p -> exists r, run a c = Some r) ->
  0 <= ts -> 2 * ts <= pe <= out_pixels (geom_of p) ->
  zlen out = out_pixels (geom_of p) * out_c p ->
  exists out', indirect_range p input filter run (2 * ts) pe out = Some out' /\
    zlen out' = zlen out /\
    (forall j, ~ 2 * ts * out_c p <= j < pe * out_c p -> rd out' j = rd out j) /\
    (forall b y x c, 0 <= b < batches p -> 0 <= y < out_h p -> 0 <= x < out_w p -> 0 <= c < out_c p ->
       2 * ts <= out_pixel (geom_of p) b y x < pe ->
       rd out' (out_pixel (geom_of p) b y x * out_c p + c) = run (acc_one p input filter b y x c) c).
Proof.
  intros WF Hin Hfl HfH HfW Hfd Hint Htot Hts Hpe Hlen.
  destruct (facts p WF HfH HfW Hfd) as (HB&HH&HW&HOH&HOW&HG&HCO&Hfs&Hnblk&Hblk&HN&Eoc&Eind).
  apply wp_iff. unfold indirect_range.
  set (k := mk_kern 4 2 1 p).
  assert (HP := prepare_buffers p WF input filter Hin Hfl HfH HfW Hfd Hint _ (fun pw ibuf H => H)). fold k in HP.
  destruct (PackWeights k filter) as [pw|]; cbn [bind] in *; [|contradiction].
  destruct (FillIndirectionBuffer k p) as [ibuf|]; cbn [bind wp fst snd] in *; [|contradiction].
  change (k_in_depth k) with (in_d p) at 1. change (k_groups k) with (groups p). rewrite Eind at 1.
  rewrite cdiv_nz by lia. cbn [bind]. rewrite (Z.mul_comm (groups p)), Z.quot_mul by lia.
  assert (Hoc : 0 < out_c p) by (rewrite Eoc; nia).
  destruct (Htot 0 0 ltac:(lia)) as [d _].
  set (v := fun pix c => match run (pix_acc p input filter pix c) c with Some r => r | None => d end).
  assert (Hv : forall pix c, 0 <= c < out_c p -> run (pix_acc p input filter pix c) c = Some (v pix c)).
  { intros pix c Hc. unfold v. destruct (Htot (pix_acc p input filter pix c) c Hc) as [r ->]. reflexivity. }
  eapply wp_mono; [apply (indirect_range_ok p WF input filter HfH HfW Hfd run v pw ibuf ts pe out HP);
                   [auto|exact Hts|exact Hpe|exact Hlen]|].
  intros out' (H1 & H2 & H3). split; [exact H1|]. split; [exact H3|].
  intros b y x c Hb Hy Hx Hc Hpix. rewrite H2 by auto. rewrite <- Hv by exact Hc.
  destruct (pixel_of p b y x Hb Hy Hx) as (_ & E1 & E2 & E3).
  unfold pix_acc. change (out_pixel (geom_of p) b y x) with ((b * out_h p + y) * out_w p + x).
  rewrite E1, E2, E3. reflexivity.
Qed.

(** The range kernel agrees with the reference on its range and leaves the rest. *)
Lemma indirect_range_reference {T} p input filter (run : Z -> Z -> option T) ps pe out :
  bconv_wf p ->
  packed input (in_pixels (geom_of p)) (channels_in p) ->
  packed filter (filter_pixels (geom_of p)) (channels_in p / groups p) ->
  1 <= f_h p -> 1 <= f_w p -> 1 <= f_d p -> int32_indices p ->
  pad_same p = false \/ pad_value p = 1 ->
  (forall a c, 0 <= c < out_c p -> exists r, run a c = Some r) ->
  ps mod 2 = 0 -> 0 <= ps <= pe -> pe <= out_pixels (geom_of p) ->
  zlen out = out_pixels (geom_of p) * out_c p ->
  exists out' ref, indirect_range p input filter run ps pe out = Some out' /\
    BConv2DReference_val p input filter run out = Some ref /\
    zlen out' = zlen out /\
    forall j, 0 <= j < zlen out ->
      rd out' j = if (ps * out_c p <=? j) && (j <? pe * out_c p) then rd ref j else rd out j.
Proof.
  intros WF Hin Hfl HfH HfW Hfd Hint Hpad Htot Hev Hps Hpe Hlen.
  destruct (facts p WF HfH HfW Hfd) as (HB&HH&HW&HOH&HOW&HG&HCO&Hfs&Hnblk&Hblk&HN&Eoc&Eind).
  replace ps with (2 * (ps / 2)) by lia. set (ts := ps / 2) in *.
  destruct (indirect_range_spec p input filter run ts pe out WF Hin Hfl HfH HfW Hfd Hint Htot)
    as (o1 & E1 & L1 & U1 & C1); [lia|lia|exact Hlen|].
  assert (Hoc : 0 < out_c p) by (rewrite Eoc; nia).
  destruct (Htot 0 0 ltac:(lia)) as [d _].
  set (v := fun b y x c => match run (acc_one p input filter b y x c) c with Some r => r | None => d end).
  assert (Hv : forall b y x c, 0 <= c < out_c p -> run (acc_one p input filter b y x c) c = Some (v b y x c)).
  { intros b y x c Hc. unfold v. destruct (Htot (acc_one p input filter b y x c) c Hc) as [r ->]. reflexivity. }
  destruct (reference_val_ok p WF input filter Hin Hfl run v out) as (o2 & E2 & L2 & C2).
  { intros b y x c Hb Hy Hx Hc.
    rewrite (acc_ref_one p input filter b y x c (zero_padding_one p Hpad)). auto. }
  { exact Hlen. }
  exists o1, o2. split; [exact E1|]. split; [exact E2|]. split; [exact L1|]. intros j Hj.
  destruct (Z.leb_spec (2 * ts * out_c p) j); [destruct (Z.ltb_spec j (pe * out_c p))|];
    cbn [andb]; [|apply U1; lia|apply U1; lia].
  rewrite Hlen in Hj.
  assert (Hq : 0 <= j / out_c p < out_pixels (geom_of p))
    by (split; [apply Z.div_pos; lia|apply Z.div_lt_upper_bound; lia]).
  destruct (pixel_decode _ _ _ (j / out_c p) HB HOH HOW Hq) as (b & y & x & Hb & Hy & Hx & Eq).
  assert (Hm := Z.mod_pos_bound j (out_c p) ltac:(lia)).
  assert (Ei : j = out_pixel (geom_of p) b y x * out_c p + j mod out_c p).
  { change (out_pixel (geom_of p) b y x) with ((b * out_h p + y) * out_w p + x).
    rewrite <- Eq, Z.mul_comm. apply Z.div_mod. lia. }
  assert (Hr : 2 * ts <= out_pixel (geom_of p) b y x < pe).
  { change (out_pixel (geom_of p) b y x) with ((b * out_h p + y) * out_w p + x). rewrite <- Eq.
    split; [apply Z.div_le_lower_bound; lia|apply Z.div_lt_upper_bound; lia]. }
  assert (HC1 := C1 b y x (j mod out_c p) Hb Hy Hx Hm Hr). rewrite <- Ei in HC1.
  assert (HC2 := C2 b y x (j mod out_c p) Hb Hy Hx Hm). unfold Offset in HC2.
  change (out_pixel (geom_of p) b y x) with ((b * out_h p + y) * out_w p + x) in Ei. rewrite <- Ei in HC2.
  rewrite HC1, HC2. auto.
Qed.

(** Thresholds followed by at least three more words of any value. *)
Lemma indirect_bits_thresholds p input filter thresholds extra out :
  bconv_wf p ->
  packed input (in_pixels (geom_of p)) (channels_in p) ->
  packed filter (filter_pixels (geom_of p)) (channels_in p / groups p) ->
  1 <= f_h p -> 1 <= f_w p -> 1 <= f_d p -> int32_indices p ->
  pad_same p = false \/ pad_value p = 1 ->
  zlen thresholds = out_c p -> 3 <= zlen extra ->
  zlen out = out_pixels (geom_of p) * words (out_c p) ->
  exists out', indirect_bits p input filter (run_bits (thresholds ++ extra)) out = Some out' /\
    eval_ref_bits p input filter thresholds out = Some out' /\
    packed out' (out_pixels (geom_of p)) (out_c p).
Proof.
  intros WF Hin Hfl HfH HfW Hfd Hint Hpad Hth Hex Hlen.
  destruct (facts p WF HfH HfW Hfd) as (HB&HH&HW&HOH&HOW&HG&HCO&Hfs&Hnblk&Hblk&HN&Eoc&Eind).
  assert (Hoc : 0 < out_c p) by (rewrite Eoc; nia).
  set (v := fun b y x c => word_at thresholds c <? acc_one p input filter b y x c).
  assert (Hr : forall a c, 0 <= c < out_c p -> run_bits thresholds a c = Some (word_at thresholds c <? a)).
  { intros a c Hc. unfold run_bits. rewrite (word_at_ok thresholds) by lia. reflexivity. }
  destruct (indirect_bits_one p WF input filter Hin Hfl HfH HfW Hfd Hint (run_bits (thresholds ++ extra)) v out)
    as (o1 & E1 & P1 & C1).
  { intros b y x c Hb Hy Hx Hc. unfold run_bits. rewrite rd_app_l by lia. apply Hr. exact Hc. }
  { intros a c Hc. unfold run_bits. destruct (rd_some (thresholds ++ extra) c) as [t ->];
      [rewrite zlen_app; lia|]. cbn [bind]. eauto. }
  { exact Hlen. }
  destruct (reference_bits_ok p WF input filter Hin Hfl (run_bits thresholds) v out) as (o2 & E2 & P2 & C2).
  { intros b y x c Hb Hy Hx Hc.
    rewrite (acc_ref_one p input filter b y x c (zero_padding_one p Hpad)). apply Hr. exact Hc. }
  { exact Hlen. }
  exists o1. split; [exact E1|]. split; [|exact P1]. 
  unfold eval_ref_bits. rewrite E2. f_equal.
  apply (packed_bits_inj o2 o1 (out_pixels (geom_of p)) (out_c p)); [lia|exact P2|exact P1|].
  intros r c Hr' Hc. destruct (pixel_decode _ _ _ r HB HOH HOW Hr') as (b & y & x & Hb & Hy & Hx & ->).
  transitivity (v b y x c); [apply C2; auto|symmetry; apply C1; auto].
Qed.
