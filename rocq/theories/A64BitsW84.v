(** * A64BitsW84: storing the bit-packed output of one 8x4 block; the whole kernel. *)
From Verif Require Import Base Spec Bits Log Bgemm A64 A64Bgemm A64Lemmas A64K44 A64Store A64Trans A64Seg A64Block44 A64Write44 A64Main44 A64Loop44 A64Kernel44 A64Acc84 A64Block84 A64Write84 A64Loop84 A64Kernel84 A64Bits84.
Open Scope Z_scope.

Section Instr.
  Variables (ops : nops) (E : env).
  Lemma wp_st1b v p q s d x f g fl tm lg (Q : st -> Prop) : g p = Ptr RDst d -> g q = Int s -> firstn 1 (f v) = [x] ->
    Q (mk f (xupd g p (Ptr RDst (d + s))) fl tm ((d, x) :: lg)) -> wp (exec1 ops E (ST1B v p (Some q)) (mk f g fl tm lg)) Q.
  Proof.
    intros Hp Hq Hx H. cbn [exec1]. unfold store_at. cbn [sx sv mk]. rewrite Hp, Hx. cbn [store log_list bind]. unfold getx. cbn [sx mk]. rewrite Hq.
    cbn [int_of bind wp]. rewrite Z.add_0_r. exact H.
  Qed.
  Lemma wp_st1b_last v p d x f g fl tm lg (Q : st -> Prop) : g p = Ptr RDst d -> firstn 1 (f v) = [x] ->
    Q (mk f g fl tm ((d, x) :: lg)) -> wp (exec1 ops E (ST1B v p None) (mk f g fl tm lg)) Q.
  Proof.
    intros Hp Hx H. cbn [exec1]. unfold store_at. cbn [sx sv mk]. rewrite Hp, Hx. cbn [store log_list bind wp]. rewrite Z.add_0_r. exact H.
  Qed.
  Lemma wp_subs d a z x f g fl tm lg (Q : st -> Prop) : g a = Int x -> 0 <= z <= x -> x < 2 ^ 31 ->
    Q (mk f (xupd g d (Int (x - z))) (x, z) tm lg) -> wp (exec1 ops E (SUBSWI d a z) (mk f g fl tm lg)) Q.
  Proof.
    intros Ha Hz Hx H. cbn [exec1]. unfold getw, getx, setw. cbn [sx mk]. rewrite Ha. cbn [int_of bind]. rewrite (sgnw x) by lia. rewrite (wmod x), (wmod (x - z)) by lia. exact H.
  Qed.
  Lemma wp_lsl1 d a b n f g fl tm lg (Q : st -> Prop) : g a = Int 1 -> g b = Int n -> 0 <= n <= 8 ->
    Q (mk f (xupd g d (Int (2 ^ n))) fl tm lg) -> wp (exec1 ops E (LSLW d a b) (mk f g fl tm lg)) Q.
  Proof.
    intros Ha Hb Hn H. cbn [exec1]. unfold getw, getx, setw. cbn [sx mk]. rewrite Ha, Hb. cbn [int_of bind].
    assert (P : 0 <= 2 ^ n <= 256) by (split; [apply Z.pow_nonneg; lia|change 256 with (2 ^ 8); apply Z.pow_le_mono_r; lia]).
    rewrite (wmod 1), (wmod n), (Z.mod_small n 32), Z.mul_1_l, (wmod (2 ^ n)) by lia. exact H.
  Qed.
  Lemma wp_subwi d a z x f g fl tm lg (Q : st -> Prop) : g a = Int x -> 0 <= z <= x -> x < 2 ^ 31 ->
    Q (mk f (xupd g d (Int (x - z))) fl tm lg) -> wp (exec1 ops E (SUBWI d a z) (mk f g fl tm lg)) Q.
  Proof.
    intros Ha Hz Hx H. cbn [exec1]. unfold getw, getx, setw. cbn [sx mk]. rewrite Ha. cbn [int_of bind]. rewrite (wmod x), (wmod (x - z)) by lia. exact H.
  Qed.
  Lemma wp_insb v a z f g fl tm lg (Q : st -> Prop) : g a = Int z -> 0 <= z < 256 ->
    Q (mk (vupd f v (z :: skipn 1 (f v))) g fl tm lg) -> wp (exec1 ops E (INSB v a) (mk f g fl tm lg)) Q.
  Proof.
    intros Ha Hz H. cbn [exec1]. unfold getw, getx. cbn [sx mk]. rewrite Ha. cbn [int_of bind]. rewrite (wmod z) by lia. unfold v_insb0. cbn [le_split app].
    rewrite Z.mod_small by exact Hz. exact H.
  Qed.
End Instr.
Lemma and8_first x m l : 0 <= x < 256 -> firstn 1 (v_and8 (vec 2 [x] ++ repeat 0 14) (m :: l)) = [Z.land x m].
Proof. intros H. unfold v_and8, v_and. cbn [vec flat_map le_split app zipw firstn]. rewrite Z.mod_small by exact H. reflexivity. Qed.

Definition kb : list instr := k84 DBits.
Definition obw : nat := (o8_post DBits + length k84_bits_compute)%nat.
Section BitsWrite.
  Variables (ops : nops) (E : env) (Q : st -> Prop) (bv : Z -> Z -> bool) (nr nc d stride : Z).
  Hypothesis (Hnr : 1 <= nr <= 8) (Hnc : 1 <= nc <= 4).
  (** The byte stored for column [j]. *)
  Definition colbyte (j : Z) : Z := byte8 (fun i => (i <? nr) && bv i j).
  Definition blkB (k : Z) (e : Z * Z) : Prop := exists j, 0 <= j < k /\ e = (d + j * stride, colbyte j).
  Lemma blkB_step k lg lg0 : 0 <= k -> (forall e, In e lg <-> In e lg0 \/ blkB k e) -> forall e, In e ((d + k * stride, colbyte k) :: lg) <-> In e lg0 \/ blkB (k + 1) e.
  Proof.
    intros Hk H e. cbn [In]. rewrite H. split.
    - intros [<- | [A | (j & Hj & ->)]]; [right; exists k; split; [lia|reflexivity]|auto|right; exists j; split; [lia|reflexivity]].
    - intros [A | (j & Hj & ->)]; [auto|]. assert (j = k \/ j < k) as [-> | B] by lia; [auto|]. right. right. exists j. split; [lia|reflexivity].
  Qed.
  Lemma blkB_0 lg0 : forall e, In e lg0 <-> In e lg0 \/ blkB 0 e.
  Proof. intros e. split; [auto|]. intros [A | (j & Hj & _)]; [exact A|lia]. Qed.
  Variables (f : nat -> list Z) (g : xreg -> val) (tm : list Z) (lg : list (Z * Z)).
  Hypothesis Hh : forall j, 0 <= j < 4 -> f (20 + Z.to_nat j)%nat = vec 2 [byte8 (fun i => bv i j)] ++ repeat 0 14.
  Hypothesis (GD : g DST = Ptr RDst d) (G11 : g (Xr 11) = Int stride) (G1 : g (Xr 1) = Int nr) (G2 : g (Xr 2) = Int nc).
  Hypothesis Hend : forall f' g' fl' lg', (forall q, (q < 20 \/ q = 31)%nat -> f' q = f q) -> same_x [Xr 3; Xr 14; Xr 15] g' g ->
    (forall e, In e lg' <-> In e lg \/ blkB nc e) -> ends ops E kb Q (o8_next DBits) (mk f' g' fl' tm lg').

  Lemma ends_label61 f' g' fl' lg' : (forall q, (q < 20 \/ q = 31)%nat -> f' q = f q) -> same_x [Xr 3; Xr 14; Xr 15] g' g ->
    (forall e, In e lg' <-> In e lg \/ blkB nc e) -> ends ops E kb Q (obw + 28) (mk f' g' fl' tm lg').
  Proof.
    intros A B C. assert (C1 : code_at kb (obw + 28) [LBL 61]) by reflexivity. eapply ends_exec; [exact C1|reflexivity|].
    apply wp_exec_cons, wp_lbl. cbn [exec wp]. change (obw + 28 + length [LBL 61])%nat with (o8_next DBits). apply Hend; assumption.
  Qed.
  Lemma full_col j : nr = 8 -> 0 <= j < 4 -> firstn 1 (f (20 + Z.to_nat j)%nat) = [colbyte j].
  Proof.
    intros N Hj. rewrite Hh by exact Hj. rewrite first_byte, Z.mod_small by apply byte8_range. f_equal. unfold colbyte. apply byte8_ext. intros i Hi. rewrite N.
    destruct (Z.ltb_spec i 8); [reflexivity|lia].
  Qed.
  Lemma slow_col (k : Z) v f' g' fl' lg' : v = (20 + Z.to_nat k)%nat -> 0 <= k < nc -> k < 3 -> code_at kb (obw + 7 + 4 * Z.to_nat k) [V (VAND8 v v 30); SUBSWI (Xr 14) (Xr 14) 1; ST1B v (Xr 3) (Some (Xr 11)); BC LE 61] ->
    f' v = f v -> (exists l, f' 30%nat = (2 ^ nr - 1) :: l) -> (forall q, (q < 20 \/ q = 31)%nat -> f' q = f q) -> same_x [Xr 3; Xr 14; Xr 15] g' g ->
    g' (Xr 3) = Ptr RDst (d + k * stride) -> g' (Xr 14) = Int (nc - k) -> (forall e, In e lg' <-> In e lg \/ blkB k e) ->
    (k + 1 < nc -> forall f2 g2 fl2 lg2, (forall q, q <> v -> f2 q = f' q) -> same_x [Xr 3; Xr 14; Xr 15] g2 g ->
       g2 (Xr 3) = Ptr RDst (d + (k + 1) * stride) -> g2 (Xr 14) = Int (nc - (k + 1)) -> (forall e, In e lg2 <-> In e lg \/ blkB (k + 1) e) ->
       ends ops E kb Q (obw + 7 + 4 * Z.to_nat (k + 1)) (mk f2 g2 fl2 tm lg2)) ->
    ends ops E kb Q (obw + 7 + 4 * Z.to_nat k) (mk f' g' fl' tm lg').
  Proof.
    intros Hv Hk Hk3 C F (l & F30) K S G3 G14 Hlg HN.
    apply (code_at_app kb [V (VAND8 v v 30); SUBSWI (Xr 14) (Xr 14) 1; ST1B v (Xr 3) (Some (Xr 11))]) in C. destruct C as [C1 C2].
    apply code_at_cons in C2. destruct C2 as [C2 _].
    eapply ends_exec; [exact C1|reflexivity|].
    apply wp_exec_cons, wp_v. apply wp_exec_cons. eapply (wp_subs _ _ _ _ _ (nc - k)); [exact G14|lia|lia|].
    apply wp_exec_cons. eapply (wp_st1b _ _ _ _ _ stride (d + k * stride) (colbyte k)); [exact G3|cbn [xupd xeqb Nat.eqb]; rewrite S by reflexivity; exact G11| |].
    { cbn [vrun fold_left vexec1]. unfold vupd. rewrite Nat.eqb_refl, F, F30. rewrite Hv, Hh by lia. rewrite and8_first by apply byte8_range. f_equal. unfold colbyte. apply byte8_mask. exact Hnr. }
    cbn [exec wp]. cbn [length] in *.
    assert (Sg : same_x [Xr 3; Xr 14; Xr 15] (xupd (xupd g' (Xr 14) (Int (nc - k - 1))) (Xr 3) (Ptr RDst (d + k * stride + stride))) g) by sx.
    assert (Kf : forall q, q <> v -> vrun ops [VAND8 v v 30] f' q = f' q).
    { intros q Hq. cbn [vrun fold_left vexec1]. unfold vupd. destruct (Nat.eqb_spec q v); [contradiction|reflexivity]. }
    assert (Hl := blkB_step k lg' lg ltac:(lia) Hlg).
    eapply (ends_bc _ _ _ _ _ _ _ _ (obw + 28)%nat); [exact C2|reflexivity| |]; cbn [cond_holds sfl mk]; intros Hc.
    - apply ends_label61; [|exact Sg|]. { intros q Hq. rewrite Kf by lia. apply K, Hq. }
      assert (E1 : nc = k + 1) by lia. rewrite E1. exact Hl.
    - replace (Datatypes.S (obw + 7 + 4 * Z.to_nat k + 3)) with (obw + 7 + 4 * Z.to_nat (k + 1))%nat by lia.
      apply HN; [lia|exact Kf|exact Sg| | |exact Hl].
      + cbn [xupd xeqb Nat.eqb]. f_equal. ring.
      + cbn [xupd xeqb Nat.eqb]. f_equal. ring.
  Qed.
  (** 903-941 *)
  Lemma ends_bits_write fl : cond_holds EQ fl = (nr =? 8) && (nc =? 4) -> ends ops E kb Q obw (mk f g fl tm lg).
  Proof.
    intros Hfl.
    eapply (ends_bc _ _ _ _ _ _ EQ 60 (obw + 22)%nat); [reflexivity|reflexivity| |]; cbn [sfl mk]; rewrite Hfl; intros Hc.
    - assert (N8 : nr = 8) by lia. assert (N4 : nc = 4) by lia.
      assert (C : code_at kb (obw + 22) [LBL 60; MOVX (Xr 3) DST; ST1B 20 (Xr 3) (Some (Xr 11)); ST1B 21 (Xr 3) (Some (Xr 11)); ST1B 22 (Xr 3) (Some (Xr 11)); ST1B 23 (Xr 3) None]) by reflexivity.
      eapply ends_exec; [exact C|reflexivity|]. apply wp_exec_cons, wp_lbl, wp_exec_cons, wp_movx.
      apply wp_exec_cons. eapply (wp_st1b _ _ _ _ _ stride d (colbyte 0)); [exact GD|exact G11|exact (full_col 0 N8 ltac:(lia))|].
      apply wp_exec_cons. eapply (wp_st1b _ _ _ _ _ stride (d + stride) (colbyte 1)); [reflexivity|exact G11|exact (full_col 1 N8 ltac:(lia))|].
      apply wp_exec_cons. eapply (wp_st1b _ _ _ _ _ stride (d + stride + stride) (colbyte 2)); [reflexivity|exact G11|exact (full_col 2 N8 ltac:(lia))|].
      apply wp_exec_cons. eapply (wp_st1b_last _ _ _ _ (d + stride + stride + stride) (colbyte 3)); [reflexivity|exact (full_col 3 N8 ltac:(lia))|].
      cbn [exec wp]. change (obw + 22 + length [LBL 60; MOVX (Xr 3) DST; ST1B 20 (Xr 3) (Some (Xr 11)); ST1B 21 (Xr 3) (Some (Xr 11)); ST1B 22 (Xr 3) (Some (Xr 11)); ST1B 23 (Xr 3) None])%nat with (obw + 28)%nat.
      apply ends_label61; [reflexivity|sx|].
      assert (B1 := blkB_step 0 _ _ ltac:(lia) (blkB_0 lg)). assert (B2 := blkB_step 1 _ _ ltac:(lia) B1). assert (B3 := blkB_step 2 _ _ ltac:(lia) B2). assert (B4 := blkB_step 3 _ _ ltac:(lia) B3).
      rewrite N4. replace (d + 0 * stride) with d in B4 by ring. replace (d + 1 * stride) with (d + stride) in B4 by ring. replace (d + 2 * stride) with (d + stride + stride) in B4 by ring.
      replace (d + 3 * stride) with (d + stride + stride + stride) in B4 by ring. exact B4.
    - assert (C : code_at kb (Datatypes.S obw) [MOVI (Xr 15) 1; LSLW (Xr 15) (Xr 15) (Xr 1); SUBWI (Xr 15) (Xr 15) 1; INSB 30 (Xr 15); MOVW (Xr 14) (Xr 2); MOVX (Xr 3) DST]) by reflexivity.
      assert (P : 2 <= 2 ^ nr <= 256) by (split; [change 2 with (2 ^ 1) at 1; apply Z.pow_le_mono_r; lia|change 256 with (2 ^ 8); apply Z.pow_le_mono_r; lia]).
      eapply ends_exec; [exact C|reflexivity|]. apply wp_exec_cons, wp_movi.
      apply wp_exec_cons. eapply (wp_lsl1 _ _ _ _ _ nr); [reflexivity|exact G1|lia|]. apply wp_exec_cons. eapply (wp_subwi _ _ _ _ _ (2 ^ nr)); [reflexivity|lia|lia|].
      apply wp_exec_cons. eapply (wp_insb _ _ _ _ (2 ^ nr - 1)); [reflexivity|lia|]. apply wp_exec_cons. eapply (wp_movw _ _ _ _ nc); [exact G2|lia|].
      apply wp_exec_cons, wp_movx. cbn [exec wp]. change (Datatypes.S obw + length _)%nat with (obw + 7 + 4 * Z.to_nat 0)%nat.
      match goal with |- ends _ _ _ _ _ (mk ?ff ?gg _ _ _) => set (f1 := ff); set (g1 := gg) end.
      assert (S1 : same_x [Xr 3; Xr 14; Xr 15] g1 g) by (unfold g1; sx).
      assert (K1 : forall q, (q <> 30)%nat -> f1 q = f q) by (intros q Hq; unfold f1, vupd; destruct (Nat.eqb_spec q 30); [contradiction|reflexivity]).
      assert (F30 : exists l, f1 30%nat = (2 ^ nr - 1) :: l) by (eexists; reflexivity).
      assert (G3 : g1 (Xr 3) = Ptr RDst (d + 0 * stride)) by (unfold g1; cbn [xupd xeqb Nat.eqb]; rewrite GD; f_equal; ring).
      assert (G14 : g1 (Xr 14) = Int (nc - 0)) by (unfold g1; cbn [xupd xeqb Nat.eqb]; f_equal; ring).
      clearbody f1 g1.
      apply (slow_col 0 20%nat); [reflexivity|lia|lia|reflexivity|apply K1; lia|exact F30|intros q Hq; apply K1; lia|exact S1|exact G3|exact G14|apply blkB_0|].
      intros N1 f2 g2 fl2 lg2 K2 S2 G23 G214 L2. change (0 + 1) with 1 in *.
      apply (slow_col 1 21%nat); [reflexivity|lia|lia|reflexivity|rewrite K2, K1 by lia; reflexivity|rewrite K2 by lia; exact F30|intros q Hq; rewrite K2, K1 by lia; reflexivity|exact S2|exact G23|exact G214|exact L2|].
      intros N2 f3 g3 fl3 lg3 K3 S3 G33 G314 L3. change (1 + 1) with 2 in *.
      apply (slow_col 2 22%nat); [reflexivity|lia|lia|reflexivity|rewrite K3, K2, K1 by lia; reflexivity|rewrite K3, K2 by lia; exact F30|intros q Hq; rewrite K3, K2, K1 by lia; reflexivity|exact S3|exact G33|exact G314|exact L3|].
      intros N3 f4 g4 fl4 lg4 K4 S4 G43 G414 L4. change (2 + 1) with 3 in *.
      assert (C3 : code_at kb (obw + 7 + 4 * Z.to_nat 3) [V (VAND8 23 23 30); ST1B 23 (Xr 3) None]) by reflexivity.
      eapply ends_exec; [exact C3|reflexivity|]. apply wp_exec_cons, wp_v. apply wp_exec_cons. eapply (wp_st1b_last _ _ _ _ (d + 3 * stride) (colbyte 3)); [exact G43| |].
      { cbn [vrun fold_left vexec1]. unfold vupd. rewrite Nat.eqb_refl. rewrite !K4, !K3, !K2, !K1 by lia. destruct F30 as (l & F30). rewrite F30. change 23%nat with (20 + Z.to_nat 3)%nat. rewrite (Hh 3) by lia.
        rewrite and8_first by apply byte8_range. f_equal. unfold colbyte. apply byte8_mask. exact Hnr. }
      cbn [exec wp]. eapply (ends_b _ _ _ _ _ _ 61 (obw + 28)%nat); [reflexivity|reflexivity|].
      apply ends_label61; [|exact S4|].
      + intros q Hq. cbn [vrun fold_left vexec1]. unfold vupd. destruct (Nat.eqb_spec q 23); [lia|]. rewrite K4, K3, K2, K1 by lia. reflexivity.
      + assert (N4 : nc = 3 + 1) by lia. rewrite N4. apply blkB_step; [lia|exact L4].
  Qed.
End BitsWrite.

Section PostBits.
  Variables (ops : nops) (o : otparams) (L R : list Z) (ls rs G rows cols sr sc er ec : Z).
  Hypothesis (K : call_ok 8 DBits o L R ls rs G rows cols sr sc er ec) (T : th_ok o er).
  Let E := mkenv DBits L R 8 ls rs (4 * G) rows cols sr sc er ec o.
  Definition hb (i j : Z) : bool := hbit o L R ls rs G i j.
  Definition blkBits (r c : Z) (e : Z * Z) : Prop :=
    blkB (fun i j => hb (r + i) (c + j)) (Z.min (rows - r) 8) (dp DBits (dstr DBits rows) r c) (dstr DBits rows) (Z.min (cols - c) 4) e.
  Lemma post_bits84 Q : post_spec ops E DBits L R ls rs G rows cols sr sc er ec (dstr DBits rows) (fun f => f 31%nat = mask31) blkBits 0 Q.
  Proof.
    intros row col nl nr f g fl tm lg Hr1 Hr2 Hr3 Hc1 Hc2 Hc3 Hnl Hnl2 Hnr Hnr2 A M C GR GL GRh GD G1 G2 G3 G4 Htm HQ.
    destruct K, T.
    assert (P64 : e_par E 64 = Some (Ptr RThr 0)) by reflexivity.
    assert (Cp := post8_code DBits). change (k84_post DBits) with (k84_bits_compute ++ k84_bits_write) in Cp.
    apply code_at_app in Cp. destruct Cp as [C1 C2].
    assert (R8 : row + 8 < rows + 8) by lia. assert (C4 : col + 4 < cols + 4) by lia.
    eapply ends_exec; [exact C1|reflexivity|].
    apply (wp_bits8 ops E o L R ls rs G eq_refl eq_refl eq_refl P64 th_int _ _ _ _ _ row col nl nr (Z.min (rows - row) 8) (Z.min (cols - col) 4)); try assumption; try lia.
    intros f' g' fl' Hh M' Hl H8 GL' GR' S' Hfl.
    apply (ends_bits_write ops E Q (fun i j => hb (row + i) (col + j)) (Z.min (rows - row) 8) (Z.min (cols - col) 4) (dp DBits (dstr DBits rows) row col) (dstr DBits rows)); try lia; try exact Hfl.
    { destruct Hh as (h0 & h1 & h2 & h3). intros j Hj.
      assert (j = 0 \/ j = 1 \/ j = 2 \/ j = 3) as [-> | [-> | [-> | ->]]] by lia; [|exact h1|exact h2|exact h3]. rewrite Z.add_0_r. exact h0. }
    { rewrite S' by reflexivity. exact GD. }
    { rewrite S' by reflexivity. exact (d11 _ _ _ _ _ _ _ _ _ _ C). }
    { rewrite S' by reflexivity. exact G1. }
    { rewrite S' by reflexivity. exact G2. }
    intros f2 g2 fl2 lg2 K2 S2 L2. apply HQ; try assumption; try reflexivity.
    - unfold lregs8 in *. rewrite !K2 by lia. exact Hl.
    - rewrite K2 by lia. exact H8.
    - rewrite K2 by lia. exact M'.
    - rewrite S2 by reflexivity. exact GL'.
    - rewrite S2 by reflexivity. exact GR'.
    - apply (same_x_trans _ _ g'); eapply same_x_incl; [|exact S2| |exact S']; reflexivity.
  Qed.
  (** What the kernel stores: for every column of the range that exists, and every
      group of eight rows, one byte; its bits beyond the last row are 0. *)
  Definition storedB (e : Z * Z) : Prop :=
    exists r c, sr <= r < er /\ r mod 8 = 0 /\ sc <= c < Z.min ec cols /\
      e = (4 * (c * CeilDiv rows 32) + r / 8, byte8 (fun i => (r + i <? rows) && hb (r + i) c)).
  Lemma done8_bits e : done8 blkBits sr sc er sr ec e <-> storedB e.
  Proof.
    destruct K. unfold done8, storedB, blkBits, blkB, colbyte, dp, dstr, dstep.
    assert (EB : forall r c, byte8 (fun i => (i <? Z.min (rows - r) 8) && hb (r + i) c) = byte8 (fun i => (r + i <? rows) && hb (r + i) c)).
    { intros r c. apply byte8_ext. intros i Hi. f_equal. destruct (Z.ltb_spec i (Z.min (rows - r) 8)), (Z.ltb_spec (r + i) rows); lia || reflexivity. }
    split.
    - intros (r & c & B & M8 & M4 & j & Hj & ->). exists r, (c + j). assert (c + 4 <= ec) by (Z.to_euclidean_division_equations; lia).
      split; [lia|]. split; [exact M8|]. split; [lia|]. rewrite EB. f_equal. ring.
    - intros (r & c & Hr & M8 & Hc & ->). exists r, (c - c mod 4).
      assert (Mj := Z.mod_pos_bound c 4 ltac:(lia)). assert (A4 : (c - c mod 4) mod 4 = 0) by (Z.to_euclidean_division_equations; lia).
      assert (sc <= c - c mod 4) by (Z.to_euclidean_division_equations; lia).
      split; [lia|]. split; [exact M8|]. split; [exact A4|]. exists (c mod 4). split; [lia|]. rewrite EB. replace (c - c mod 4 + c mod 4) with c by ring. f_equal. ring.
  Qed.
End PostBits.

Lemma asm84_bits ops o L R ls rs G rows cols sr sc er ec f g tmp : 128 * G < 2 ^ 30 ->
  call_ok 8 DBits o L R ls rs G rows cols sr sc er ec -> th_ok o er ->
  exists n, wp (asm_kernel ops (k84 DBits) n DBits f g tmp L R 8 ls rs (4 * G) rows cols sr sc er ec o)
    (fun lg => forall e, In e lg <-> storedB o L R ls rs G rows cols sr sc er ec e).
Proof.
  intros HG2 K T.
  assert (D : dstr DBits rows < 2 ^ 32).
  { assert (B := k_rows _ _ _ _ _ _ _ _ _ _ _ _ _ _ K). unfold dstr, CeilDiv. Z.to_euclidean_division_equations; lia. }
  destruct (asm84_gen ops DBits o L R ls rs G rows cols sr sc er ec ltac:(lia) K D (fun f => f 31%nat = mask31) (blkBits o L R ls rs G rows cols) 0
    (fun f f' A B => eq_trans A B) (fun f H => H eq_refl) (post_bits84 ops o L R ls rs G rows cols sr sc er ec K T) f g tmp ltac:(unfold zlen; lia)) as (n & Hn).
  exists n. eapply wp_mono; [exact Hn|]. cbv beta. intros lg Hlg e. rewrite Hlg. apply (done8_bits o L R ls rs G rows cols sr sc er ec K).
Qed.
