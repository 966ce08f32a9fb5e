(** * A64IndRun: the loops over channels and pixels of the indirect assembly kernels. *)
From Verif Require Import Base Spec Bits Log Reference Loop4 RefTheorems Indirect IndirectPack IndirectBuf IndirectRun IndirectTop Bgemm Select A64 A64Bgemm A64Lemmas A64Trans A64Block44 A64Ind A64IndBlk A64IndLoop A64IndAcc A64IndOut A64IndVal A64IndStore.
Open Scope Z_scope.

Lemma words_at_ok ws n : forall i, 0 <= i -> i + Z.of_nat n <= zlen ws -> words_at (rd ws) i n = Some (wlist ws i n).
Proof.
  induction n as [|n IH]; intros i H0 Hl; [reflexivity|]. cbn [words_at wlist].
  destruct (rd_some ws i ltac:(lia)) as [w Hw]. rewrite IH by lia. unfold wat. rewrite Hw. reflexivity.
Qed.
Lemma words_at_ext (f g : Z -> option Z) n : forall i, (forall j, i <= j < i + Z.of_nat n -> f j = g j) -> words_at f i n = words_at g i n.
Proof. induction n as [|n IH]; intros i H; [reflexivity|]. cbn [words_at]. rewrite (H i) by lia. rewrite (IH (i + 1)); [reflexivity|]. intros j Hj. apply H. lia. Qed.
Lemma words_at_shift (f : Z -> option Z) d n : forall i, words_at (fun j => f (d + j)) i n = words_at f (d + i) n.
Proof. induction n as [|n IH]; intros i; [reflexivity|]. cbn [words_at]. rewrite IH, Z.add_assoc. reflexivity. Qed.
Lemma omap_map {A B} (f : A -> option B) g l : (forall x, In x l -> f x = Some (g x)) -> omap f l = Some (map g l).
Proof.
  induction l as [|x l IH]; intros H; [reflexivity|]. cbn [omap map]. rewrite (H x) by (left; reflexivity). rewrite IH by (intros y Hy; apply H; right; exact Hy). reflexivity.
Qed.

Section RunProof.
  Variables (ops : nops) (ty : dtype) (o : otparams) (p : bconv) (input filter over_in over_zero : list Z).
  Variables (Dn : nat) (deep grouped : bool) (pw : list Z) (ibuf : list iptr).
  Notation D := (Z.of_nat Dn).
  Notation fs := (f_h p * f_w p).
  Notation N := (batches p * out_h p * out_w p).
  Notation G := (groups p).
  Notation CO := (out_c p / groups p).
  Notation nblk := ((CO + 8 - 1) / 8).
  Notation depth := (f_d p / D).
  Notation k := (mk_kern 8 4 D p).
  Notation zero := (repeat 0 (Z.to_nat (fs * in_d p)) ++ over_zero).
  Notation E := (ienv pw (input ++ over_in) zero ibuf o).
  Hypothesis WF : bconv_wf p.
  Hypothesis Hip : packed input (in_pixels (geom_of p)) (channels_in p).
  Hypotheses (HfH : 1 <= f_h p) (HfW : 1 <= f_w p) (Hfd1 : 1 <= f_d p) (HiH : 1 <= in_h p) (HiW : 1 <= in_w p).
  Hypothesis HD : In Dn [1; 2; 4]%nat.
  Hypothesis Hdiv : f_d p mod D = 0.
  Hypotheses (Hfs32 : fs < 2 ^ 31) (Hfd32 : f_d p < 2 ^ 31).
  Hypothesis Hdeep : if deep then 2 <= depth else depth = 1.
  Hypothesis Hgr : grouped = false -> G = 1.
  Hypothesis Hov : grouped = true -> D <= zlen over_in /\ D <= zlen over_zero.
  Hypotheses (Hops : nops_ok ops) (Hty : is_bits ty = false).
  Hypotheses (Hmin : int32 (p_cmin o)) (Hmax : int32 (p_cmax o)) (Hmp : Forall pat (p_mul o)) (Hbp : Forall pat (p_bias o)).
  Hypotheses (Hmu : (G - 1) * CO + 8 * nblk <= zlen (p_mul o)) (Hbi : (G - 1) * CO + 8 * nblk <= zlen (p_bias o)).
  Hypothesis Hpwl : zlen pw = G * (nblk * 8) * fs * f_d p + 8 * D.
  Hypothesis Hpw : forall oc fi d, 0 <= oc < out_c p -> 0 <= fi < fs -> 0 <= d < f_d p ->
        rd pw ((((((oc / CO) * nblk + oc mod CO / 8) * fs + fi) * depth + d / D) * 8 + oc mod CO mod 8) * D + d mod D)
        = rd filter ((oc * fs + fi) * f_d p + d).
  Hypothesis Hib : forall t fi i, 0 <= t -> 4 * t < N -> 0 <= fi < fs -> 0 <= i < 4 ->
    rd ibuf ((t * fs + fi) * 4 + i) = Some (qpix p (Z.min (4 * t + i) (N - 1)) fi).
  Hypothesis Htail : forall t i, 0 <= t -> 4 * t < N -> N <= 4 * (t + 1) -> 0 <= i < 4 -> rd ibuf ((t + 1) * fs * 4 + i) = Some (PIn 0).

  Definition v (pix c : Z) : Z := oval ops ty o (pix_acc p input filter pix c mod 2 ^ 16) c.

  Lemma rfacts : 1 <= D <= 4 /\ 0 < G /\ 0 < CO /\ 0 < nblk /\ (nblk - 1) * 8 < CO <= nblk * 8 /\ 0 < fs /\ out_c p = G * CO /\ in_d p = G * f_d p /\
    0 < depth /\ f_d p = depth * D /\ 0 <= batches p /\ 0 <= out_h p /\ 0 <= out_w p.
  Proof.
    destruct (wf_facts p WF) as (HB&HH&HW&HKH&HKW&HOH&HOW&Hg&HCI&HCO&_).
    assert (D1 : 1 <= D <= 4) by (destruct HD as [<- | [<- | [<- | []]]]; lia).
    assert (B := ceil_blocks CO 8 ltac:(lia)). assert (DM := depth_mul p Dn (proj1 D1) Hdiv).
    assert (Q1 : 0 < fs) by (clear - HfH HfW; nia). assert (Q2 : 0 < depth) by (clear - DM Hfd1 D1; nia).
    assert (Q3 := wf_cout p WF). assert (Q4 := ind_groups p WF). assert (Q5 : 0 < nblk) by (clear - B HCO; lia).
    repeat split; assumption || lia.
  Qed.

  (** ** One tile of four pixels *)
  Section Tile.
    Variables (t pe : Z) (out0 : list Z).
    Hypotheses (Ht : 0 <= t) (Hpe : 4 * t < pe <= N) (Hl0 : zlen out0 = N * out_c p).
    Notation ip := (4 * t * fs).
    Definition qt (fi : Z) (i : nat) : iptr :=
      if fi <? fs then qpix p (Z.min (4 * t + Z.of_nat i) (N - 1)) fi
      else if 4 * (t + 1) <? N then qpix p (Z.min (4 * (t + 1) + Z.of_nat i) (N - 1)) 0 else PIn 0.
    Lemma qt_rd fi i : 0 <= fi <= fs -> (i < 4)%nat -> rd ibuf (ip + 4 * fi + Z.of_nat i) = Some (qt fi i).
    Proof.
      intros Hfi Hi. unfold qt. destruct (Z.ltb_spec fi fs).
      - rewrite <- Hib by lia. f_equal. ring.
      - replace fi with fs by lia. destruct (Z.ltb_spec (4 * (t + 1)) N).
        + rewrite <- Hib by (pose proof rfacts; lia). f_equal. ring.
        + rewrite <- (Htail t (Z.of_nat i)) by lia. f_equal. ring.
    Qed.
    Lemma pix_in i : (i < 4)%nat -> 0 <= Z.min (4 * t + Z.of_nat i) (N - 1) < N.
    Proof. intros Hi. lia. Qed.
    Lemma qt_inb fi i d n : 0 <= fi <= fs -> (i < 4)%nat -> 0 <= d -> 0 <= n -> d + n <= in_d p -> inb E (qadd (qt fi i) d) n.
    Proof.
      intros Hfi Hi Hd Hn Hdn. unfold qt. destruct (Z.ltb_spec fi fs).
      - apply (qpix_inb p input over_in over_zero WF Hip HfH HfW Hfd1); [lia|lia|lia].
      - destruct (Z.ltb_spec (4 * (t + 1)) N).
        + apply (qpix_inb p input over_in over_zero WF Hip HfH HfW Hfd1); [lia|lia|lia].
        + apply inb_qadd. cbn [ioff imem ienv e_in]. rewrite zlen_app. rewrite (input_len p WF input Hip).
          assert (0 <= zlen over_in) by apply zlen_nonneg.
          assert (in_d p <= batches p * in_h p * in_w p * in_d p); [|lia].
          destruct rfacts as (R1&R2&R3&R4&R5&R6&R7&R8&R9&R10&R11&R12&R13).
          assert (Hb1 : 1 <= batches p). { clear - Hpe Ht R11 R12 R13. assert (0 < batches p * out_h p * out_w p) by lia. assert (batches p <> 0) by (intros E; rewrite E in *; lia). lia. }
          assert (Hb2 : 1 <= batches p * in_h p) by (clear - Hb1 HiH; nia). assert (Hb3 : 1 <= batches p * in_h p * in_w p) by (clear - Hb2 HiW; nia).
          clear - Hb3 Hd Hn Hdn. nia.
    Qed.
    Definition kpos (g blk : Z) : Z := (g * nblk + blk) * (8 * fs * f_d p).
    Record binv (g blk : Z) (s : ist) : Prop := {
      bi_w : s_w s = wvecs Dn pw (kpos g blk);
      bi_a : s_a s = avecs o Dn pw (input ++ over_in) zero ibuf (fun i => qadd (qt 0 i) (g * f_d p));
      bi_wp : s_wp s = 4 * (kpos g blk + 8 * D);
      bi_ido : s_ido s = g * f_d p; bi_ge : s_ge s = (g + 1) * CO; bi_c : s_c s = g * CO + 8 * blk;
      bi_p0 : s_p0 s = px pe t 0 * out_c p + s_c s; bi_p1 : s_p1 s = px pe t 1 * out_c p + s_c s;
      bi_p2 : s_p2 s = px pe t 2 * out_c p + s_c s; bi_p3 : s_p3 s = px pe t 3 * out_c p + s_c s;
      bi_out : cinv (out_c p) pe t v out0 (s_c s) (s_out s) }.
    Lemma block_bounds g blk : 0 <= g < G -> 0 <= blk < nblk -> g * nblk + blk + 1 <= G * nblk.
    Proof. clear. intros Hg Hb. nia. Qed.
    Lemma kpos_bounds g blk : 0 <= g < G -> 0 <= blk < nblk -> 0 <= kpos g blk /\ kpos g blk + 8 * fs * f_d p + 8 * D <= zlen pw.
    Proof.
      intros Hg Hb. assert (B := block_bounds g blk Hg Hb). rewrite Hpwl. unfold kpos.
      destruct rfacts as (R1&R2&R3&R4&R5&R6&R7&R8&R9&R10&R11&R12&R13).
      assert (X : 0 <= 8 * fs * f_d p) by (clear - R6 Hfd1; nia).
      assert (Y : 0 <= g * nblk + blk) by (clear - Hg Hb; nia).
      replace (G * (nblk * 8) * fs * f_d p) with ((G * nblk) * (8 * fs * f_d p)) by ring.
      set (W := 8 * fs * f_d p) in *. set (M := G * nblk) in *. set (n := g * nblk + blk) in *. clearbody W M n. split; [nia|].
      assert ((n + 1) * W <= M * W) by (apply Z.mul_le_mono_nonneg_r; lia). lia.
    Qed.
    Lemma block_ok g blk s (K : ist -> Prop) : 0 <= g < G -> 0 <= blk < nblk -> binv g blk s ->
      (forall s', blk + 1 < nblk -> binv g (blk + 1) s' -> K s') ->
      (forall s', blk + 1 = nblk -> g + 1 < G -> binv (g + 1) 0 s' -> K s') ->
      (forall s', blk + 1 = nblk -> g + 1 = G -> s_c s' = out_c p -> cinv (out_c p) pe t v out0 (out_c p) (s_out s') -> K s') ->
      block ops ty o D deep grouped k pw (input ++ over_in) zero ibuf (f_d p) CO ip s K.
    Proof.
      intros Hg Hblk [Bw Ba Bwp Bido Bge Bc B0 B1 B2 B3 Bo] HK1 HK2 HK3.
      destruct rfacts as (R1&R2&R3&R4&R5&R6&R7&R8&R9&R10&R11&R12&R13).
      destruct (kpos_bounds g blk Hg Hblk) as [P0 P1].
      unfold block. rewrite Bw, Ba, Bwp, Bido, Bge, Bc.
      replace (Z.quot (f_d p) D) with depth by (symmetry; apply Z.quot_div_nonneg; lia).
      assert (Epos : kpos g blk + 8 * D * (fs * depth + 1) = kpos g blk + 8 * fs * f_d p + 8 * D).
      { clear - R10. set (dd := f_d p / D) in *. clearbody dd. rewrite R10. ring. }
      assert (Hido0 : grouped = false -> g * f_d p = 0) by (intros Eg; assert (g = 0) by (specialize (Hgr Eg); lia); subst g; lia).
      assert (Hgf : 0 <= g * f_d p) by (clear - Hg Hfd1; nia).
      assert (Hgi : g * f_d p + f_d p <= in_d p) by (rewrite R8; clear - Hg Hfd1; nia).
      apply (AccumulationLoop_ok ops o Dn deep grouped k pw (input ++ over_in) zero ibuf depth ip (g * f_d p) (kpos g blk) qt HD).
      { change (k_fs k) with fs. lia. }
      { split; [lia|]. assert (depth <= f_d p) by (clear - R10 R1 R9; nia). lia. }
      { exact Hdeep. }
      { exact Hido0. }
      { exact P0. }
      { change (k_fs k) with fs. lia. }
      { intros fi i Hfi Hi. apply qt_rd; [exact Hfi|exact Hi]. }
      { intros fi i Hfi Hi. change (k_fs k) with fs in Hfi. apply qt_inb; [lia|exact Hi|lia|clear - R1 R9; nia|]. rewrite (Z.mul_comm D), <- R10. lia. }
      { intros i Hi. change (k_fs k) with fs. apply qt_inb; [lia|exact Hi|lia|lia|]. assert (D <= f_d p) by (clear - R10 R1 R9; nia). lia. }
      change (k_fs k) with fs. rewrite Epos.
      set (c := g * CO + 8 * blk) in *. set (ge := (g + 1) * CO) in *.
      assert (Hnx : (ge - 8 <=? c) = (blk + 1 =? nblk)).
      { unfold ge, c. destruct (Z.eqb_spec (blk + 1) nblk); [apply Z.leb_le|apply Z.leb_gt]; lia. }
      rewrite Hnx.
      assert (Hnext : (if grouped && (blk + 1 =? nblk) then g * f_d p + f_d p else g * f_d p) = (if grouped && (blk + 1 =? nblk) then g + 1 else g) * f_d p)
        by (destruct (grouped && (blk + 1 =? nblk)); ring).
      assert (Hnext2 : (if grouped && (blk + 1 =? nblk) then ge + CO else ge) = ((if grouped && (blk + 1 =? nblk) then g + 1 else g) + 1) * CO)
        by (unfold ge; destruct (grouped && (blk + 1 =? nblk)); ring).
      rewrite Hnext, Hnext2. set (g' := if grouped && (blk + 1 =? nblk) then g + 1 else g) in *.
      assert (Hg' : g' = g \/ grouped = true /\ blk + 1 = nblk /\ g' = g + 1).
      { unfold g'. destruct grouped; [|auto]. cbn [andb]. destruct (Z.eqb_spec (blk + 1) nblk); auto. }
      assert (Hc0 : 0 <= c) by (unfold c; clear - Hg Hblk R3; nia).
      assert (Hcm : c + 8 <= (G - 1) * CO + 8 * nblk) by (unfold c; clear - Hg Hblk R3; nia).
      assert (Hcge : c < ge) by (unfold c, ge; clear - R5 Hblk; nia).
      assert (Hgeo : ge <= out_c p) by (unfold ge; rewrite R7; clear - Hg R3; nia).
      apply (Transform_ok ops ty o Dn grouped pw (input ++ over_in) zero ibuf ip (g' * f_d p) (kpos g blk + 8 * fs * f_d p) c (fun i => qt 0 i)
               (fun i j => sum_ (fs * depth) (fun m => bp (xs E Dn depth (g * f_d p) qt i m) (wlist pw (kpos g blk + 8 * D * m + D * j) Dn)))); try assumption.
      { intros Eg. destruct Hg' as [-> | (H & _)]; [auto|rewrite Eg in H; discriminate]. }
      { clear - P0 R6 Hfd1. nia. }
      { lia. }
      { lia. }
      { intros i Hi. rewrite <- (qt_rd 0 i) by lia. f_equal. ring. }
      { intros i Hi. assert (HDf : D <= f_d p) by (clear - R10 R1 R9; nia).
        destruct (Z.eq_dec g' G) as [Eg|Ng].
        - destruct Hg' as [Eq | (Gt & _ & _)]; [lia|]. rewrite Eg, <- R8. unfold qt. destruct (Z.ltb_spec 0 fs); [|lia].
          destruct (Hov Gt). apply (qpix_inb_over p input over_in over_zero WF Hip HfH HfW Hfd1); lia.
        - assert (G0 : 0 <= g' /\ g' + 1 <= G) by (destruct Hg' as [-> | (_ & _ & ->)]; lia).
          apply qt_inb; [lia|exact Hi|clear - G0 Hfd1; nia|lia|]. rewrite R8. clear - G0 HDf R1. nia. }
      assert (Hval : forall i j, (i < 4)%nat -> 4 * t + Z.of_nat i < pe -> 0 <= j < Z.min 8 (ge - c) ->
        oval ops ty o (sum_ (fs * depth) (fun m => bp (xs E Dn depth (g * f_d p) qt i m) (wlist pw (kpos g blk + 8 * D * m + D * j) Dn)) mod 2 ^ 16) (c + j) = v (4 * t + Z.of_nat i) (c + j)).
      { intros i j Hi Hp Hj. unfold v. f_equal. f_equal. unfold kpos.
        rewrite (acc_val p input filter over_in over_zero WF Hip HfH HfW Hfd1 Dn o pw ibuf (proj1 R1) Hdiv Hpw qt i (4 * t + Z.of_nat i) g blk j).
        - unfold c. reflexivity.
        - lia.
        - intros fi Hfi. unfold qt. destruct (Z.ltb_spec fi fs); [|lia]. rewrite Z.min_l by lia. reflexivity.
        - exact Hg.
        - lia.
        - lia.
        - unfold ge, c in Hj. clear - Hj. lia. }
      assert (Hoc : 0 < out_c p) by lia.
      rewrite B0, B1, B2, B3, Bc.
      unfold outs.
      eapply (store_block_ok (out_c p) N pe t v out0 Hoc Ht Hpe Hl0 (s_out s) ge c (Z.min 8 (ge - c))
         (fun i j => oval ops ty o (sum_ (fs * depth) (fun m => bp (xs E Dn depth (g * f_d p) qt i m) (wlist pw (kpos g blk + 8 * D * m + D * j) Dn)) mod 2 ^ 16) (c + j))).
      { rewrite <- Bc. exact Bo. }
      { lia. }
      { exact Hgeo. }
      { reflexivity. }
      { exact Hval. }
      intros out' Ho'. cbv beta iota.
      destruct (Z.eq_dec (blk + 1) nblk) as [El|Nl].
      - assert (Ec : c + Z.min 8 (ge - c) = ge) by (unfold c, ge; rewrite Z.min_r by (clear - R5 El; lia); ring).
        destruct (Z.eq_dec (g + 1) G) as [EG|NG].
        + assert (Ege : ge = out_c p) by (unfold ge; rewrite EG; symmetry; exact R7).
          apply HK3; [exact El|exact EG| |]; cbn [s_c s_out].
          * rewrite Ec. exact Ege.
          * rewrite Ec, Ege in Ho'. exact Ho'.
        + assert (Eg' : g' = g + 1).
          { unfold g'. destruct grouped; [|specialize (Hgr eq_refl); lia]. rewrite (proj2 (Z.eqb_eq _ _) El). reflexivity. }
          apply HK2; [exact El|lia|].
          assert (Ek : kpos g blk + 8 * fs * f_d p = kpos (g + 1) 0) by (unfold kpos; rewrite <- El; ring).
          rewrite Ek, Eg'.
          assert (Eo : forall i, px pe t i * out_c p + c + Z.min 8 (ge - c) = px pe t i * out_c p + ge) by (intros i; rewrite <- Ec at 2; ring).
          constructor; cbn [s_w s_a s_wp s_ido s_ge s_c s_p0 s_p1 s_p2 s_p3 s_out]; rewrite ?Eo, ?Ec; try reflexivity.
          * unfold ge. ring.
          * rewrite Ec in Ho'. exact Ho'.
      - assert (Eg' : g' = g).
        { unfold g'. rewrite (proj2 (Z.eqb_neq _ _) Nl), andb_false_r. reflexivity. }
        assert (Em : Z.min 8 (ge - c) = 8) by (unfold ge, c; apply Z.min_l; clear - R5 Nl Hblk; lia).
        apply HK1; [lia|]. rewrite Eg'.
        assert (Ek : kpos g blk + 8 * fs * f_d p = kpos g (blk + 1)) by (unfold kpos; ring).
        rewrite Ek, Em. rewrite Em in Ho'.
        assert (Ec : c + 8 = g * CO + 8 * (blk + 1)) by (unfold c; ring).
        assert (Eo : forall i, px pe t i * out_c p + c + 8 = px pe t i * out_c p + (c + 8)) by (intros i; ring).
        constructor; cbn [s_w s_a s_wp s_ido s_ge s_c s_p0 s_p1 s_p2 s_p3 s_out]; rewrite ?Eo; try reflexivity; assumption.
    Qed.
    Lemma chan_loop_ok (K : list Z -> Prop) : (forall out, cinv (out_c p) pe t v out0 (out_c p) out -> K out) -> forall fuel g blk s, 0 <= g < G -> 0 <= blk < nblk ->
      binv g blk s -> G * nblk - (g * nblk + blk) <= Z.of_nat fuel ->
      chan_loop ops ty o D deep grouped k pw (input ++ over_in) zero ibuf fuel (f_d p) CO ip s K.
    Proof.
      intros HK. induction fuel as [|fuel IH]; intros g blk s Hg Hblk Hs Hf.
      { assert (B := block_bounds g blk Hg Hblk). lia. }
      destruct rfacts as (R1&R2&R3&R4&R5&R6&R7&R8&R9&R10&R11&R12&R13).
      cbn [chan_loop]. change (k_oc k) with (out_c p). apply (block_ok g blk); [exact Hg|exact Hblk|exact Hs| | |].
      - intros s' Hl Hs'. rewrite (bi_c _ _ _ Hs').
        destruct (Z.ltb_spec (g * CO + 8 * (blk + 1)) (out_c p)) as [H|H].
        + apply (IH g (blk + 1)); [exact Hg|lia|exact Hs'|lia].
        + exfalso. clear - H Hl R5 Hg R3 R7. set (Y := nblk) in *. clearbody Y. set (X := out_c p / G) in *. clearbody X. nia.
      - intros s' Hl Hgl Hs'. rewrite (bi_c _ _ _ Hs').
        destruct (Z.ltb_spec ((g + 1) * CO + 8 * 0) (out_c p)) as [H|H].
        + apply (IH (g + 1) 0); [lia|lia|exact Hs'|]. replace ((g + 1) * nblk + 0) with (g * nblk + (blk + 1)) by (rewrite Hl; ring). lia.
        + exfalso. clear - H Hgl R3 R7. set (X := out_c p / G) in *. clearbody X. nia.
      - intros s' _ _ Hc Ho. rewrite Hc, Z.ltb_irrefl. apply HK, Ho.
    Qed.
    Lemma pixels4_ok (K : list Z -> Prop) : (forall out, cinv (out_c p) pe t v out0 (out_c p) out -> K out) ->
      pixels4 ops ty o D deep grouped k pw (input ++ over_in) zero ibuf (f_d p) CO (4 * t) pe out0 K.
    Proof.
      intros HK. destruct rfacts as (R1&R2&R3&R4&R5&R6&R7&R8&R9&R10&R11&R12&R13).
      destruct (kpos_bounds 0 0 ltac:(lia) ltac:(lia)) as [P0 P1]. change (kpos 0 0) with 0 in P1.
      assert (HDf : D <= f_d p) by (clear - R10 R1 R9; nia).
      assert (Hfi : f_d p <= in_d p) by (rewrite R8; clear - R2 Hfd1; nia).
      unfold pixels4. change (k_fs k) with fs. change (k_oc k) with (out_c p).
      assert (X8 : 0 <= 8 * fs * f_d p) by (clear - R6 Hfd1; nia).
      rewrite (omap_map _ (fun i => vec 4 (wlist pw (0 + 4 * Z.of_nat i) 4))).
      2: { intros i Hi. apply in_seq in Hi. unfold vld1q. rewrite words_at_ok by lia. rewrite Z.add_0_l. reflexivity. }
      cbn [wp].
      rewrite (omap_map _ (fun i => vec 4 (rep Dn (iwords E (qadd (qt 0 i) (0 * f_d p)) Dn)))).
      2: { intros i Hi. apply in_seq in Hi. replace (4 * t * fs + Z.of_nat i) with (4 * t * fs + 4 * 0 + Z.of_nat i) by ring. rewrite qt_rd by lia. cbn [bind].
        assert (I := qt_inb 0 i (0 * f_d p) D ltac:(lia) ltac:(lia) ltac:(lia) ltac:(lia) ltac:(lia)). apply inb_qadd in I.
        rewrite iwords_qadd. rewrite Nat2Z.id.
        rewrite (words_at_ext _ (fun j => rd (imem E (qt 0 i)) (ioff (qt 0 i) + 0 * f_d p + j))).
        2: { intros j Hj. rewrite Z.mul_0_l, Z.add_0_r. destruct (qt 0 i); reflexivity. }
        rewrite words_at_shift. rewrite words_at_ok; [rewrite Z.add_0_r; reflexivity|lia|lia]. }
      cbn [wp]. apply (chan_loop_ok K HK) with (g := 0) (blk := 0); [lia|lia| |].
      - assert (P0' : forall i, px pe t i * out_c p = px pe t i * out_c p + 0) by (intros i; ring).
        constructor; cbn [s_w s_a s_wp s_ido s_ge s_c s_p0 s_p1 s_p2 s_p3 s_out]; try reflexivity.
        + unfold wvecs. replace (Z.to_nat (2 * D)) with (2 * Dn)%nat by lia. reflexivity.
        + rewrite Z.mul_1_l. reflexivity.
        + rewrite (px_0 pe t). ring.
        + unfold px. change (Z.of_nat 1 + 1) with 2. destruct (Z.ltb_spec (pe - 4 * t) 2); ring.
        + unfold px. change (Z.of_nat 2 + 1) with 3. destruct (Z.ltb_spec (pe - 4 * t) 3); [ring|]. change (Z.of_nat 2) with 2. ring.
        + unfold px. change (Z.of_nat 3 + 1) with 4. destruct (Z.ltb_spec (pe - 4 * t) 4); [ring|]. change (Z.of_nat 3) with 3. ring.
        + split; [reflexivity|]. split; [|reflexivity]. intros pix c' _ Hc'. lia.
      - assert (nblk <= CO) by lia. rewrite Nat2Z.inj_succ, Z2Nat.id by lia. clear - H R2 R7. set (Y := nblk) in *. clearbody Y. set (X := out_c p / G) in *. clearbody X. nia.
    Qed.
  End Tile.

  (** ** All tiles of the range *)
  Section Range.
    Variables (ts pe : Z) (out0 : list Z).
    Hypotheses (Hts : 0 <= ts) (Hpe : 4 * ts <= pe <= N) (Hl0 : zlen out0 = N * out_c p).
    Definition rinv (t : Z) (out : list Z) : Prop :=
      zlen out = zlen out0 /\
      (forall pix c, 4 * ts <= pix < Z.min (4 * t) pe -> 0 <= c < out_c p -> rd out (pix * out_c p + c) = Some (v pix c)) /\
      (forall j, ~ (4 * ts * out_c p <= j < pe * out_c p) -> rd out j = rd out0 j).
    Lemma pixel_loop_ok (K : list Z -> Prop) : (forall out, rinv ((pe + 3) / 4) out -> K out) ->
      forall n t out, ts <= t -> Z.of_nat n = (pe + 3) / 4 - t -> rinv t out ->
      pixel_loop ops ty o D deep grouped k pw (input ++ over_in) zero ibuf n (f_d p) CO (4 * t) pe out K.
    Proof.
      intros HK. destruct rfacts as (R1&R2&R3&R4&R5&R6&R7&R8&R9&R10&R11&R12&R13). assert (Hoc : 0 < out_c p) by (clear - R2 R3 R7; set (X := out_c p / G) in *; clearbody X; nia).
      induction n as [|n IH]; intros t out Ht Hn (I1 & I2 & I3).
      - cbn [pixel_loop]. apply HK. replace ((pe + 3) / 4) with t by lia. split; [exact I1|]. split; assumption.
      - cbn [pixel_loop].
        assert (Htp : 4 * t < pe) by (clear - Hn; Z.to_euclidean_division_equations; lia).
        apply pixels4_ok; [lia|lia|lia|]. intros out' (J1 & J2 & J3).
        replace (4 * t + 4) with (4 * (t + 1)) by ring. apply IH; [lia|lia|].
        split; [lia|]. split.
        + intros pix c Hpix Hc. destruct (Z_lt_le_dec pix (4 * t)) as [Hlt|Hge].
          * rewrite J3; [apply I2; [lia|exact Hc]|]. clear - Hlt Hc Hoc. nia.
          * apply J2; [lia|exact Hc].
        + intros j Hj. rewrite J3; [apply I3, Hj|]. clear - Hj Ht Hoc Htp. intros [A B]. apply Hj. split; [nia|].
          assert (Z.min (4 * t + 4) pe * out_c p <= pe * out_c p) by (apply Z.mul_le_mono_nonneg_r; lia). lia.
    Qed.
    Lemma Run_ok (K : list Z -> Prop) :
      (forall out, zlen out = zlen out0 -> (forall pix c, 4 * ts <= pix < pe -> 0 <= c < out_c p -> rd out (pix * out_c p + c) = Some (v pix c)) ->
        (forall j, ~ (4 * ts * out_c p <= j < pe * out_c p) -> rd out j = rd out0 j) -> K out) ->
      Run ops ty o D deep grouped k pw (input ++ over_in) zero ibuf (4 * ts) pe out0 K.
    Proof.
      intros HK. destruct rfacts as (R1&R2&R3&R4&R5&R6&R7&R8&R9&R10&R11&R12&R13).
      unfold Run. change (k_in_depth k) with (in_d p). change (k_groups k) with G. change (k_oc k) with (out_c p). change (k_fs k) with fs.
      rewrite !cdiv_nz by lia. cbn [wp].
      replace (Z.quot (in_d p) G) with (f_d p) by (rewrite R8, Z.mul_comm, Z.quot_mul by lia; reflexivity).
      replace (Z.quot (out_c p) G) with CO by (symmetry; apply Z.quot_div_nonneg; [clear - R2 R3 R7; set (X := out_c p / G) in *; clearbody X; nia|lia]).
      assert (HDf : D <= f_d p) by (clear - R10 R1 R9; nia).
      destruct (Z.ltb_spec fs 1); [lia|]. destruct (Z.ltb_spec (f_d p) D); [lia|]. destruct (Z.ltb_spec CO 1); [lia|]. cbn [orb].
      apply pixel_loop_ok.
      - intros out (J1 & J2 & J3). apply HK; [exact J1| |exact J3]. intros pix c Hpix Hc. apply J2; [|exact Hc].
        rewrite Z.min_r; [exact Hpix|]. Z.to_euclidean_division_equations; lia.
      - lia.
      - rewrite Z2Nat.id; Z.to_euclidean_division_equations; lia.
      - split; [reflexivity|]. split; [|reflexivity]. intros pix c Hpix _. lia.
    Qed.
  End Range.
End RunProof.
