(** * A64IndTop: EvalOptIndirectBGEMM with the assembly kernels. *)
From Verif Require Import Base Spec Bits Log Reference Loop4 OutputTransform RefTheorems Indirect IndirectPack IndirectBuf IndirectRun IndirectTop Bgemm BgemmProofs Select A64 A64Bgemm A64Lemmas A64Trans A64Block44 A64Kernel44 A64Rel A64Ind A64IndBlk A64IndLoop A64IndAcc A64IndOut A64IndVal A64IndStore A64IndRun.
Open Scope Z_scope.

Lemma pack_len boc bpx bd p filter : bconv_wf p -> packed filter (filter_pixels (geom_of p)) (channels_in p / groups p) ->
  0 < boc -> 0 < bd -> f_d p mod bd = 0 ->
  wp (PackWeights (mk_kern boc bpx bd p) filter) (fun pw =>
    zlen pw = groups p * ((out_c p / groups p + boc - 1) / boc * boc) * (f_h p * f_w p) * f_d p + boc * bd).
Proof.
  intros WF Hfl Hboc Hbd Hdiv.
  set (CO := out_c p / groups p). set (fs := f_h p * f_w p). set (nblk := (CO + boc - 1) / boc). set (nci := f_d p / bd).
  destruct (wf_facts p WF) as (HB&HH&HW&HKH&HKW&HOH&HOW&Hg&HCI&HCO&_). fold CO in HCO.
  assert (Hfd := f_d_nonneg p WF).
  assert (Hfs : 0 <= fs) by (unfold fs; clear - HKH HKW; nia).
  assert (HCc := wf_cout p WF). fold CO in HCc. assert (HId := ind_groups p WF).
  assert (Hblk := ceil_blocks CO boc Hboc). fold nblk in Hblk.
  assert (Hnblk : 0 < nblk) by (clear - Hblk HCO Hboc; clearbody nblk CO; nia).
  assert (Efd : f_d p = nci * bd) by (unfold nci; lia).
  assert (Hnci : 0 <= nci) by (unfold nci; apply Z.div_pos; lia).
  eapply (PackWeights_wp (mk_kern boc bpx bd p) (groups p) CO fs (f_d p) nblk nci filter); try reflexivity; try assumption.
  { rewrite (filter_len p WF filter Hfl), HCc. unfold fs. ring. }
  intros pw H _. exact H.
Qed.
Lemma indirection_tail boc bpx bd p : bconv_wf p -> 0 < bpx -> int32_indices p ->
  wp (FillIndirectionBuffer (mk_kern boc bpx bd p) p) (fun buf =>
    let N := batches p * out_h p * out_w p in let fs := f_h p * f_w p in
    (forall j, (N + bpx - 1) / bpx * bpx * fs <= j < (N + bpx - 1) / bpx * bpx * fs + bpx -> rd buf j = Some (PIn 0)) /\
    (forall t off fy fx, 0 <= t < (N + bpx - 1) / bpx -> 0 <= off < bpx -> 0 <= fy < f_h p -> 0 <= fx < f_w p ->
      rd buf ((t * fs + (fy * f_w p + fx)) * bpx + off) = Some (pixel_ptr p (Z.min (t * bpx + off) (N - 1)) fy fx))).
Proof.
  intros WF Hbpx Hint. destruct (wf_facts p WF) as (HB&HH&HW&HKH&HKW&HOH&HOW&Hg&HCI&HCO&_).
  set (N := batches p * out_h p * out_w p).
  assert (HN : 0 <= N) by (unfold N; assert (0 <= batches p * out_h p) by nia; nia).
  assert (HT := ceil_blocks N bpx Hbpx).
  assert (HT0 : 0 <= (N + bpx - 1) / bpx) by (apply Z.div_pos; lia).
  eapply (FillIndirectionBuffer_wp_tail (mk_kern boc bpx bd p) p ((N + bpx - 1) / bpx)); try reflexivity; try assumption.
  intros buf _ H1 H2. split; [exact H1|exact H2].
Qed.

Section Top.
  Variables (ops : nops) (ty : dtype) (o : otparams) (p : bconv) (input filter over_in over_zero : list Z) (D : Z) (deep grouped : bool).
  Notation CO := (out_c p / groups p).
  Hypothesis WF : bconv_wf p.
  Hypothesis Hip : packed input (in_pixels (geom_of p)) (channels_in p).
  Hypothesis Hfl : packed filter (filter_pixels (geom_of p)) (channels_in p / groups p).
  Hypotheses (HfH : 1 <= f_h p) (HfW : 1 <= f_w p) (Hfd1 : 1 <= f_d p) (HiH : 1 <= in_h p) (HiW : 1 <= in_w p).
  Hypothesis Hint : int32_indices p.
  Hypotheses (Hfs32 : f_h p * f_w p < 2 ^ 31) (Hfd32 : f_d p < 2 ^ 31).
  Hypothesis Hsel : SelectRuntimeKernel true p = Some (Kernel8x4 D deep grouped).
  Hypothesis Hov : 1 < groups p -> D <= zlen over_in /\ D <= zlen over_zero.
  Hypotheses (Hops : nops_ok ops) (Hty : is_bits ty = false) (Hc : p_cmin o <= p_cmax o).
  Hypothesis HT : tr_ok o ((groups p - 1) * CO + round_up CO 8).

  Lemma indirect_asm_pix ts pe out (K : list Z -> Prop) : 0 <= ts -> 4 * ts <= pe <= batches p * out_h p * out_w p -> zlen out = batches p * out_h p * out_w p * out_c p ->
    (forall out', zlen out' = zlen out ->
      (forall pix c, 4 * ts <= pix < pe -> 0 <= c < out_c p -> rd out' (pix * out_c p + c) = run_of ops ty o (pix_acc p input filter pix c mod 2 ^ 16) c) ->
      (forall j, ~ (4 * ts * out_c p <= j < pe * out_c p) -> rd out' j = rd out j) -> K out') ->
    indirect_asm_range ops ty o D deep grouped p input filter over_in over_zero (4 * ts) pe out K.
  Proof.
    intros Hts Hpe Hl HK.
    destruct (select_facts true p D deep grouped WF Hsel) as (_ & HDin & Hdiv & Hdp & Hgr).
    assert (HDn : exists Dn : nat, D = Z.of_nat Dn /\ In Dn [1; 2; 4]%nat).
    { exists (Z.to_nat D). cbn [In] in *. destruct HDin as [<- | [<- | [<- | []]]]; cbn; tauto. }
    destruct HDn as (Dn & -> & HD). clear HDin.
    destruct (wf_facts p WF) as (HB&HH&HW&HKH&HKW&HOH&HOW&Hg&HCI&HCO&_).
    assert (D1 : 1 <= Z.of_nat Dn) by (destruct HD as [<- | [<- | [<- | []]]]; lia).
    unfold indirect_asm_range.
    destruct (pack_weights_content 8 4 (Z.of_nat Dn) p WF filter Hfl ltac:(lia) ltac:(lia) Hdiv) as (pw & Epw & Hpw).
    assert (PL := pack_len 8 4 (Z.of_nat Dn) p filter WF Hfl ltac:(lia) ltac:(lia) Hdiv). rewrite Epw in PL |- *. cbn [wp] in PL |- *.
    refine (wp_mono _ _ _ (indirection_tail 8 4 (Z.of_nat Dn) p WF ltac:(lia) Hint) _). cbv zeta. intros ibuf (Btail & Bcont).
    destruct HT. rewrite (Z.mul_comm _ 8) in PL || idtac.
    assert (E8 : round_up CO 8 = 8 * ((CO + 8 - 1) / 8)) by (unfold round_up; ring). rewrite E8 in *.
    change (k_fs (mk_kern 8 4 (Z.of_nat Dn) p)) with (f_h p * f_w p). change (k_in_depth (mk_kern 8 4 (Z.of_nat Dn) p)) with (in_d p).
    assert (Eoc := wf_cout p WF). assert (Hoc : 0 < out_c p) by (clear - Eoc Hg HCO; set (X := CO) in *; clearbody X; nia).
    assert (Hnb := ceil_blocks CO 8 ltac:(lia)).
    assert (Hlast : out_c p <= (groups p - 1) * CO + 8 * ((CO + 8 - 1) / 8)) by (clear - Eoc Hnb; set (Y := (CO + 8 - 1) / 8) in *; clearbody Y; set (X := CO) in *; clearbody X; nia).
    apply (Run_ok ops ty o p input filter over_in over_zero Dn deep grouped pw ibuf); try assumption.
    - destruct deep.
      + assert (Z.of_nat Dn < f_d p) by (apply Hdp; reflexivity). assert (DM := depth_mul p Dn D1 Hdiv). clear - H DM D1. set (X := f_d p / Z.of_nat Dn) in *. clearbody X. nia.
      + assert (~ Z.of_nat Dn < f_d p) by (intros H; apply Hdp in H; discriminate). assert (DM := depth_mul p Dn D1 Hdiv). clear - H DM D1 Hfd1. set (X := f_d p / Z.of_nat Dn) in *. clearbody X. nia.
    - intros Eg. rewrite Eg in Hgr. destruct (Z_lt_le_dec 1 (groups p)) as [H|H]; [apply Hgr in H; discriminate|lia].
    - intros Eg. apply Hov, Hgr, Eg.
    - rewrite PL. ring.
    - intros t fi i Ht Htn Hfi Hi. unfold qpix.
      assert (Em : fi = fi / f_w p * f_w p + fi mod f_w p) by (rewrite Z.mul_comm; apply Z.div_mod; lia).
      replace (4 * t) with (t * 4) by ring. rewrite Em at 1. apply Bcont.
      + Z.to_euclidean_division_equations; lia.
      + exact Hi.
      + split; [apply Z.div_pos; lia|]. apply Z.div_lt_upper_bound; lia.
      + apply Z.mod_pos_bound. lia.
    - intros t i Ht Htn Htl Hi. apply Btail.
      replace ((batches p * out_h p * out_w p + 4 - 1) / 4) with (t + 1) by (Z.to_euclidean_division_equations; lia). lia.
    - intros out' L1 V1 U1. apply HK; [exact L1| |exact U1]. intros pix c Hpix Hcc. rewrite V1 by assumption. unfold v.
      symmetry. apply run_oval; [exact Hc|lia|lia].
  Qed.

  (** With the coordinates of the output. *)
  Lemma indirect_asm_spec ts pe out : 0 <= ts -> 4 * ts <= pe <= out_pixels (geom_of p) -> zlen out = out_pixels (geom_of p) * out_c p ->
    indirect_asm_range ops ty o D deep grouped p input filter over_in over_zero (4 * ts) pe out (fun out' =>
      zlen out' = zlen out /\ (forall j, ~ 4 * ts * out_c p <= j < pe * out_c p -> rd out' j = rd out j) /\
      (forall b y x c, 0 <= b < batches p -> 0 <= y < out_h p -> 0 <= x < out_w p -> 0 <= c < out_c p -> 4 * ts <= out_pixel (geom_of p) b y x < pe ->
        rd out' (out_pixel (geom_of p) b y x * out_c p + c) = run_of ops ty o (acc_one p input filter b y x c mod 2 ^ 16) c)).
  Proof.
    intros Hts Hpe Hl. apply indirect_asm_pix; [exact Hts|exact Hpe|exact Hl|]. intros out' L1 V1 U1. split; [exact L1|]. split; [exact U1|].
    intros b y x c Hb Hy Hx Hcc Hr. rewrite V1 by assumption.
    destruct (pixel_of p b y x Hb Hy Hx) as (_ & E1 & E2 & E3).
    unfold pix_acc. change (out_pixel (geom_of p) b y x) with ((b * out_h p + y) * out_w p + x). rewrite E1, E2, E3. reflexivity.
  Qed.
  (** The reference, on the range. *)
  Lemma indirect_asm_reference ps pe out : pad_same p = false \/ pad_value p = 1 ->
    (forall b y x c, 0 <= b < batches p -> 0 <= y < out_h p -> 0 <= x < out_w p -> 0 <= c < out_c p -> acc_one p input filter b y x c < 2 ^ 16) ->
    ps mod 4 = 0 -> 0 <= ps <= pe -> pe <= out_pixels (geom_of p) -> zlen out = out_pixels (geom_of p) * out_c p ->
    exists ref, BConv2DReference_val p input filter (run_of ops ty o) out = Some ref /\ zlen ref = zlen out /\
    indirect_asm_range ops ty o D deep grouped p input filter over_in over_zero ps pe out (fun out' =>
      zlen out' = zlen out /\
      forall j, 0 <= j < zlen out -> rd out' j = if (ps * out_c p <=? j) && (j <? pe * out_c p) then rd ref j else rd out j).
  Proof.
    intros Hpad Hfit Hev Hps Hpe Hlen.
    destruct (facts p WF HfH HfW Hfd1) as (HB&HH&HW&HOH&HOW&HG&HCO&Hfs&Hnblk&Hblk&HN&Eoc&Eind).
    assert (Hq4 : ps = 4 * (ps / 4)) by lia. rewrite Hq4. set (ts := ps / 4) in *.
    assert (Hts : 0 <= ts) by (clear - Hq4 Hps; clearbody ts; lia). assert (Hps' : 4 * ts <= pe) by (rewrite <- Hq4; lia). assert (Hpe' : pe <= batches p * out_h p * out_w p) by exact Hpe.
    assert (Hoc : 0 < out_c p) by (clear - Eoc HG HCO; set (X := CO) in *; clearbody X; nia).
    assert (Hnb := ceil_blocks CO 8 ltac:(lia)).
    assert (Hlast : out_c p <= (groups p - 1) * CO + round_up CO 8).
    { unfold round_up. clear - Eoc Hnb. set (Y := (CO + 8 - 1) / 8) in *. clearbody Y. set (X := CO) in *. clearbody X. nia. }
    assert (Hrun : forall acc c, 0 <= c < out_c p -> run_of ops ty o acc c = Some (oval ops ty o acc c)).
    { intros acc c Hcc. destruct HT. apply run_oval; [exact Hc|lia|lia]. }
    destruct (reference_val_ok p WF input filter Hip Hfl (run_of ops ty o) (fun b y x c => oval ops ty o (acc_one p input filter b y x c) c) out) as (ref & E2 & L2 & C2).
    { intros b y x c Hb Hy Hx Hcc. rewrite (acc_ref_one p input filter b y x c (zero_padding_one p Hpad)). apply Hrun, Hcc. }
    { exact Hlen. }
    exists ref. split; [exact E2|]. split; [exact L2|].
    apply indirect_asm_pix; [exact Hts|split; assumption|exact Hlen|]. intros out' L1 V1 U1. split; [exact L1|]. intros j Hj.
    destruct (Z.leb_spec (4 * ts * out_c p) j); [destruct (Z.ltb_spec j (pe * out_c p))|]; cbn [andb]; [|apply U1; lia|apply U1; lia].
    rewrite Hlen in Hj.
    assert (Hq : 0 <= j / out_c p < out_pixels (geom_of p)) by (split; [apply Z.div_pos; lia|apply Z.div_lt_upper_bound; lia]).
    destruct (pixel_decode _ _ _ (j / out_c p) HB HOH HOW Hq) as (b & y & x & Hb & Hy & Hx & Eq).
    assert (Hm := Z.mod_pos_bound j (out_c p) ltac:(lia)).
    assert (Ei : j = j / out_c p * out_c p + j mod out_c p) by (rewrite Z.mul_comm; apply Z.div_mod; lia).
    assert (Hr : 4 * ts <= j / out_c p < pe) by (split; [apply Z.div_le_lower_bound; lia|apply Z.div_lt_upper_bound; lia]).
    assert (HC1 := V1 (j / out_c p) (j mod out_c p) Hr Hm). rewrite <- Ei in HC1. rewrite HC1.
    assert (HC2 := C2 b y x (j mod out_c p) Hb Hy Hx Hm). unfold Offset in HC2. rewrite <- Eq, <- Ei in HC2. rewrite HC2.
    destruct (pixel_of p b y x Hb Hy Hx) as (_ & E3 & E4 & E5).
    unfold pix_acc. rewrite Eq, E3, E4, E5. rewrite Z.mod_small; [apply Hrun, Hm|].
    assert (B := acc_one_bound p WF input filter Hip Hfl b y x (j mod out_c p) Hb Hm). split; [lia|apply Hfit; assumption].
  Qed.
End Top.

(** The continuation-passing definitions are monotone. *)
Section Mono.
  Variables (ops : nops) (t : dtype) (o : otparams) (D : Z) (deep grouped : bool) (k : kern).
  Variables (pw input zero : list Z) (ibuf : list iptr).
  Lemma asm_stmt_mono prog vin xin (K K' : st -> Prop) : (forall s, K s -> K' s) -> asm_stmt ops o pw input zero ibuf prog vin xin K -> asm_stmt ops o pw input zero ibuf prog vin xin K'.
  Proof. intros HK H s H1 H2. destruct (H s H1 H2) as (n & W). exists n. exact (wp_mono _ _ _ W HK). Qed.
  Lemma block_mono idpg ocpg ip s (K K' : ist -> Prop) : (forall s, K s -> K' s) -> block ops t o D deep grouped k pw input zero ibuf idpg ocpg ip s K -> block ops t o D deep grouped k pw input zero ibuf idpg ocpg ip s K'.
  Proof.
    intros HK H. unfold block, AccumulationLoop in *. refine (wp_mono _ _ _ H _). intros aps. apply asm_stmt_mono. intros s1.
    destruct (sx s1 W_PTR) as [|[] w]; try exact (fun x => x). cbv zeta. unfold Transform. apply asm_stmt_mono. intros s2 W.
    refine (wp_mono _ _ _ W _). intros ((out, n), c'). apply HK.
  Qed.
  Lemma chan_mono fuel idpg ocpg ip (K K' : list Z -> Prop) : (forall s, K s -> K' s) -> forall s, chan_loop ops t o D deep grouped k pw input zero ibuf fuel idpg ocpg ip s K -> chan_loop ops t o D deep grouped k pw input zero ibuf fuel idpg ocpg ip s K'.
  Proof.
    intros HK. induction fuel as [|fuel IH]; intros s; [exact (fun x => x)|]. cbn [chan_loop]. apply block_mono. intros s'.
    destruct (s_c s' <? k_oc k); [apply IH|apply HK].
  Qed.
  Lemma pixel_mono n idpg ocpg pe (K K' : list Z -> Prop) : (forall s, K s -> K' s) -> forall pi out, pixel_loop ops t o D deep grouped k pw input zero ibuf n idpg ocpg pi pe out K -> pixel_loop ops t o D deep grouped k pw input zero ibuf n idpg ocpg pi pe out K'.
  Proof.
    intros HK. induction n as [|n IH]; intros pi out; [apply HK|]. cbn [pixel_loop]. unfold pixels4. cbv zeta. intros W. refine (wp_mono _ _ _ W _). intros ws W1.
    refine (wp_mono _ _ _ W1 _). intros acts. apply chan_mono. intros out'. apply IH.
  Qed.
End Mono.
Lemma indirect_asm_mono ops t o D deep grouped p input filter over_in over_zero ps pe out (K K' : list Z -> Prop) : (forall l, K l -> K' l) ->
  indirect_asm_range ops t o D deep grouped p input filter over_in over_zero ps pe out K -> indirect_asm_range ops t o D deep grouped p input filter over_in over_zero ps pe out K'.
Proof.
  intros HK W. unfold indirect_asm_range in *. cbv zeta in *. refine (wp_mono _ _ _ W _). intros pw W1. refine (wp_mono _ _ _ W1 _). intros ibuf W2. unfold Run in *.
  refine (wp_mono _ _ _ W2 _). intros idpg W3. refine (wp_mono _ _ _ W3 _). intros ocpg W4. cbv beta in *.
  destruct ((k_fs (mk_kern 8 4 D p) <? 1) || (idpg <? D) || (ocpg <? 1)); [apply HK, W4|]. revert W4. apply pixel_mono, HK.
Qed.
