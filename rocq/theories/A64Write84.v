(** * A64Write84: storing one 8x4 block of BinaryKernelNeon8x4 (float, int8). *)
From Verif Require Import Base Spec Bits Log Bgemm A64 A64Bgemm A64Lemmas A64K44 A64Store A64Trans A64Seg A64Block44 A64Write44 A64Main44 A64Acc84 A64Block84.
Open Scope Z_scope.

Section Write8.
  Variables (ops : nops) (E : env) (t : dtype).
  Variable vals : Z -> Z -> Z.
  Definition colb (j : Z) : list Z := vec (esize t) (colv8 vals j).
  (** One column of 1064-1084. *)
  Definition stc (j : nat) : list instr :=
    if is_float t then [STR (20 + 2 * j) 16 (Xr 3) 0; STR (21 + 2 * j) 16 (Xr 3) 16] else [STR (20 + j) 8 (Xr 3) 0].
  Definition nextc : list instr := [ADDX (Xr 3) (Xr 3) (Xr 4) 0].
  Lemma store_cols : k84_store t = stc 0 ++ nextc ++ stc 1 ++ nextc ++ stc 2 ++ nextc ++ stc 3.
  Proof. unfold k84_store, stc, nextc. destruct (is_float t); reflexivity. Qed.
  Lemma zlen_colb j : zlen (colb j) = 8 * Z.of_nat (esize t).
  Proof. unfold colb. rewrite vec_zlen. change (zlen (colv8 vals j)) with 8. ring. Qed.
  Lemma firstn16 l : length l = 4%nat -> firstn 16 (vec 4 l) = vec 4 l.
  Proof. intros H. apply firstn_all2. rewrite vec_length, H. reflexivity. Qed.
  Lemma colb_float j : is_float t = true -> colb j = vec 4 (firstn 4 (colv8 vals j)) ++ vec 4 (skipn 4 (colv8 vals j)).
  Proof. intros H. unfold colb, esize. rewrite H, <- vec_app. reflexivity. Qed.
  Lemma wp_col_dst j f g fl tm lg d (Q : st -> Prop) : 0 <= j < 4 -> held8 t vals f -> g (Xr 3) = Ptr RDst d ->
    Q (mk f g fl tm (log_list lg d (colb j))) -> wp (exec ops E (stc (Z.to_nat j)) (mk f g fl tm lg)) Q.
  Proof.
    intros Hj Hh G3 HQ. destruct (Hh j Hj) as [HF HI]. unfold stc. destruct (is_float t) eqn:Hf.
    - destruct (HF eq_refl) as [H1 H2]. apply wp_exec_cons. eapply wp_str_dst; [exact G3|]. apply wp_exec_cons. eapply wp_str_dst; [exact G3|]. cbn [exec wp].
      rewrite H1, H2, !firstn16 by reflexivity. rewrite colb_float, log_list_app in HQ by exact Hf. rewrite Z.add_0_r. exact HQ.
    - apply wp_exec_cons. eapply wp_str_dst; [exact G3|]. cbn [exec wp]. rewrite HI by reflexivity. rewrite Z.add_0_r.
      unfold colb, esize in HQ. rewrite Hf in HQ. exact HQ.
  Qed.
  Lemma wp_col_tmp j f g fl tm lg o (Q : st -> Prop) : 0 <= j < 4 -> held8 t vals f -> g (Xr 3) = Ptr RTmp o ->
    0 <= o -> o + 8 * Z.of_nat (esize t) <= zlen tm ->
    (forall tm', zlen tm' = zlen tm -> (forall q x, rd (colb j) q = Some x -> rd tm' (o + q) = Some x) ->
       (forall a, a < o -> rd tm' a = rd tm a) -> Q (mk f g fl tm' lg)) ->
    wp (exec ops E (stc (Z.to_nat j)) (mk f g fl tm lg)) Q.
  Proof.
    intros Hj Hh G3 Ho Hl HQ. destruct (Hh j Hj) as [HF HI]. unfold stc. destruct (is_float t) eqn:Hf.
    - assert (He : Z.of_nat (esize t) = 4) by (unfold esize; rewrite Hf; reflexivity). rewrite He in Hl.
      destruct (HF eq_refl) as [H1 H2].
      assert (F1 : firstn 16 (f (20 + 2 * Z.to_nat j)%nat) = vec 4 (firstn 4 (colv8 vals j))) by (rewrite H1; apply firstn16; reflexivity).
      assert (F2 : firstn 16 (f (21 + 2 * Z.to_nat j)%nat) = vec 4 (skipn 4 (colv8 vals j))) by (rewrite H2; apply firstn16; reflexivity).
      assert (Z1 : zlen (vec 4 (firstn 4 (colv8 vals j))) = 16) by reflexivity.
      assert (Z2 : zlen (vec 4 (skipn 4 (colv8 vals j))) = 16) by reflexivity.
      apply wp_exec_cons. eapply wp_str_tmp; [exact G3|lia|rewrite F1, Z1; lia|]. rewrite F1, Z1. intros tm1 L1 S1 K1.
      apply wp_exec_cons. eapply wp_str_tmp; [exact G3|lia|rewrite F2, Z2; lia|]. rewrite F2, Z2. intros tm2 L2 S2 K2. cbn [exec wp].
      apply HQ; [congruence| |].
      + intros q x Hq. rewrite colb_float in Hq by exact Hf. assert (B := rd_bounds _ _ _ Hq).
        destruct (Z.lt_ge_cases q 16) as [Hlt | Hge].
        * assert (Hq1 : rd (vec 4 (firstn 4 (colv8 vals j))) q = Some x).
          { destruct (rd (vec 4 (firstn 4 (colv8 vals j))) q) as [y|] eqn:Ey.
            - apply (rd_app_l _ (vec 4 (skipn 4 (colv8 vals j)))) in Ey. congruence.
            - exfalso. destruct (rd_some (vec 4 (firstn 4 (colv8 vals j))) q) as [y Hy]; [lia|congruence]. }
          rewrite K2 by lia. rewrite <- (S1 q x Hq1). f_equal. ring.
        * assert (Hq1 : rd (vec 4 (skipn 4 (colv8 vals j))) (q - 16) = Some x).
          { rewrite zlen_app in B. destruct (rd (vec 4 (skipn 4 (colv8 vals j))) (q - 16)) as [y|] eqn:Ey.
            - apply (rd_app_r (vec 4 (firstn 4 (colv8 vals j)))) in Ey. rewrite Z1 in Ey. replace (16 + (q - 16)) with q in Ey by ring. congruence.
            - exfalso. destruct (rd_some (vec 4 (skipn 4 (colv8 vals j))) (q - 16)) as [y Hy]; [lia|congruence]. }
          rewrite <- (S2 (q - 16) x Hq1). f_equal. ring.
      + intros a Ha. rewrite K2, K1 by lia. reflexivity.
    - assert (He : esize t = 1%nat) by (unfold esize; rewrite Hf; reflexivity).
      assert (Hb : firstn 8 (f (20 + Z.to_nat j)%nat) = colb j) by (unfold colb; rewrite He; apply HI; reflexivity).
      assert (Zb := zlen_colb j). rewrite He in *. change (Z.of_nat 1) with 1 in *.
      apply wp_exec_cons. eapply wp_str_tmp; [exact G3|lia|rewrite Hb; lia|]. rewrite Hb. intros tm1 L1 S1 K1. cbn [exec wp].
      apply HQ; [exact L1| |].
      + intros q x Hq. rewrite <- (S1 q x Hq). f_equal. ring.
      + intros a Ha. apply K1. lia.
  Qed.
  Lemma colv8_rd j i : 0 <= i < 8 -> rd (colv8 vals j) i = Some (vals i j).
  Proof. intros Hi. assert (i = 0 \/ i = 1 \/ i = 2 \/ i = 3 \/ i = 4 \/ i = 5 \/ i = 6 \/ i = 7) as [-> | [-> | [-> | [-> | [-> | [-> | [-> | ->]]]]]]] by lia; reflexivity. Qed.

  (** 1064-1084, destination case *)
  Lemma wp_store8_dst f g fl tm lg d s (Q : st -> Prop) : held8 t vals f -> g (Xr 3) = Ptr RDst d -> g (Xr 4) = Int s ->
    (forall g' lg', same_x [Xr 3] g' g -> (forall e, In e lg' <-> In e lg \/ blkD t d s vals 8 4 e) -> Q (mk f g' fl tm lg')) ->
    wp (exec ops E (k84_store t) (mk f g fl tm lg)) Q.
  Proof.
    intros Hh G3 G4 HQ. rewrite store_cols.
    apply wp_exec_app. eapply (wp_col_dst 0); [lia|exact Hh|exact G3|]. apply wp_exec_app, wp_exec_cons. eapply wp_addx; [exact G3|exact G4|]. cbn [exec wp].
    apply wp_exec_app. eapply (wp_col_dst 1); [lia|exact Hh|reflexivity|]. apply wp_exec_app, wp_exec_cons. eapply wp_addx; [reflexivity|exact G4|]. cbn [exec wp].
    apply wp_exec_app. eapply (wp_col_dst 2); [lia|exact Hh|reflexivity|]. apply wp_exec_app, wp_exec_cons. eapply wp_addx; [reflexivity|exact G4|]. cbn [exec wp].
    eapply (wp_col_dst 3); [lia|exact Hh|reflexivity|].
    apply HQ; [sx|]. change (2 ^ 0) with 1. rewrite !Z.mul_1_r.
    intros e. unfold colb. rewrite !log_vec_in. split.
    - assert (G : forall j base, 0 <= j < 4 -> base = d + j * s ->
        (exists i x q v, rd (colv8 vals j) i = Some x /\ rd (le_split (esize t) x) q = Some v /\ e = (base + Z.of_nat (esize t) * i + q, v)) ->
        blkD t d s vals 8 4 e).
      { intros j base Hj -> (i & x & q & v & Hi & Hq & ->). assert (B := rd_bounds _ _ _ Hi). change (zlen (colv8 vals j)) with 8 in B.
        rewrite colv8_rd in Hi by lia. injection Hi as <-. exists i, j, q, v. auto. }
      intros [[[[H | H] | H] | H] | H]; [auto| | | |]; right;
        [apply (G 0 d)|apply (G 1 (d + s))|apply (G 2 (d + s + s))|apply (G 3 (d + s + s + s))]; try lia; exact H.
    - intros [H | (i & j & q & v & Hi & Hj & Hq & ->)]; [auto|].
      assert (W : forall base, base = d + j * s -> exists i0 x q0 v0, rd (colv8 vals j) i0 = Some x /\ rd (le_split (esize t) x) q0 = Some v0 /\
        (d + j * s + Z.of_nat (esize t) * i + q, v) = (base + Z.of_nat (esize t) * i0 + q0, v0)).
      { intros base ->. exists i, (vals i j), q, v. rewrite colv8_rd by lia. auto. }
      assert (j = 0 \/ j = 1 \/ j = 2 \/ j = 3) as [-> | [-> | [-> | ->]]] by lia.
      + left. left. left. right. apply W. ring.
      + left. left. right. apply W. ring.
      + left. right. apply W. ring.
      + right. apply W. ring.
  Qed.
  (** 1064-1084, scratch buffer case *)
  Definition in_tmp8 (tm : list Z) : Prop := forall i j q v, 0 <= i < 8 -> 0 <= j < 4 -> rd (le_split (esize t) (vals i j)) q = Some v ->
    rd tm (j * (8 * Z.of_nat (esize t)) + Z.of_nat (esize t) * i + q) = Some v.
  Lemma wp_store8_tmp f g fl tm lg (Q : st -> Prop) : held8 t vals f -> g (Xr 3) = Ptr RTmp 0 -> g (Xr 4) = Int (8 * Z.of_nat (esize t)) ->
    32 * Z.of_nat (esize t) <= zlen tm ->
    (forall g' tm', same_x [Xr 3] g' g -> zlen tm' = zlen tm -> in_tmp8 tm' -> Q (mk f g' fl tm' lg)) ->
    wp (exec ops E (k84_store t) (mk f g fl tm lg)) Q.
  Proof.
    intros Hh G3 G4 Hlen HQ. rewrite store_cols.
    assert (He14 : 1 <= Z.of_nat (esize t)) by (unfold esize; destruct (is_float t); lia).
    set (s := 8 * Z.of_nat (esize t)) in *. change (2 ^ 0) with 1 in *.
    apply wp_exec_app. eapply (wp_col_tmp 0); [lia|exact Hh|exact G3|lia|lia|]. intros tm1 L1 S1 K1.
    apply wp_exec_app, wp_exec_cons. eapply wp_addx; [exact G3|exact G4|]. cbn [exec wp]. change (2 ^ 0) with 1.
    apply wp_exec_app. eapply (wp_col_tmp 1); [lia|exact Hh|reflexivity|lia|lia|]. intros tm2 L2 S2 K2.
    apply wp_exec_app, wp_exec_cons. eapply wp_addx; [reflexivity|exact G4|]. cbn [exec wp]. change (2 ^ 0) with 1.
    apply wp_exec_app. eapply (wp_col_tmp 2); [lia|exact Hh|reflexivity|lia|lia|]. intros tm3 L3 S3 K3.
    apply wp_exec_app, wp_exec_cons. eapply wp_addx; [reflexivity|exact G4|]. cbn [exec wp]. change (2 ^ 0) with 1.
    eapply (wp_col_tmp 3); [lia|exact Hh|reflexivity|lia|lia|]. intros tm4 L4 S4 K4.
    apply HQ; [sx|congruence|].
    intros i j q v Hi Hj Hq. assert (Hb := rd_bounds _ _ _ Hq). unfold zlen in Hb. rewrite le_split_length in Hb.
    assert (RV := rd_vec (esize t) (colv8 vals j) i (vals i j) q v (colv8_rd j i Hi) Hq). fold (colb j) in RV.
    fold s. assert (0 <= Z.of_nat (esize t) * i + q < s) by (unfold s; nia).
    set (w := Z.of_nat (esize t) * i + q) in *. replace (j * s + Z.of_nat (esize t) * i + q) with (j * s + w) by (unfold w; ring).
    assert (j = 0 \/ j = 1 \/ j = 2 \/ j = 3) as [-> | [-> | [-> | ->]]] by lia.
    - rewrite K4, K3, K2 by lia. apply S1, RV.
    - rewrite K4, K3 by lia. replace (1 * s + w) with (0 + s * 1 + w) by ring. apply S2, RV.
    - rewrite K4 by lia. replace (2 * s + w) with (0 + s * 1 + s * 1 + w) by ring. apply S3, RV.
    - replace (3 * s + w) with (0 + s * 1 + s * 1 + s * 1 + w) by ring. apply S4, RV.
  Qed.
  Lemma store8_straight : straight (k84_store t) = true.
  Proof. unfold k84_store. destruct (is_float t); reflexivity. Qed.
End Write8.

Section WriteCtl8.
  Variables (ops : nops) (E : env) (t : dtype) (p : list instr) (Q : st -> Prop) (pc : nat).
  Hypothesis Hc : code_at p pc (k84_write t).
  Let sl := length (k84_store t).
  Hypothesis (F30 : find 30 p 0 = Some (pc + 4)%nat) (F31 : find 31 p 0 = Some (pc + 7)%nat)
    (F50 : find 50 p 0 = Some (pc + 8 + sl + 1 + 3)%nat) (F51 : find 51 p 0 = Some (pc + 8 + sl + 1 + 5)%nat)
    (F41 : find 41 p 0 = Some (pc + 8 + sl + 1 + 16)%nat).
  Variables (vals : Z -> Z -> Z) (nr nc d stride : Z).
  Hypothesis (Hnr : 1 <= nr <= 8) (Hnc : 1 <= nc <= 4).
  Lemma ends_write84 f g fl tm lg : held8 t vals f -> g TMPBUF = Ptr RTmp 0 -> g DST = Ptr RDst d -> g (Xr 11) = Int stride ->
    g (Xr 1) = Int nr -> g (Xr 2) = Int nc -> cond_holds EQ fl = (nr =? 8) && (nc =? 4) -> 32 * Z.of_nat (esize t) <= zlen tm ->
    (forall g' fl' tm' lg', same_x [Xr 3; Xr 4; Xr 13; Xr 14; Xr 15] g' g -> zlen tm' = zlen tm ->
       (forall e, In e lg' <-> In e lg \/ blkD t d stride vals nr nc e) ->
       ends ops E p Q (pc + length (k84_write t)) (mk f g' fl' tm' lg')) ->
    ends ops E p Q pc (mk f g fl tm lg).
  Proof.
    intros Hh GT GD G11 G1 G2 Hfl Htm HQ. assert (Hc' := Hc). unfold k84_write in Hc'. cbn [app] in Hc'.
    apply code_at_cons in Hc'. destruct Hc' as [C0 Hc'].
    apply (code_at_app p [MOVX (Xr 3) TMPBUF; MOVI (Xr 4) (if is_float t then 32 else 8)]) in Hc'. destruct Hc' as [C1 Hc'].
    apply code_at_cons in Hc'. destruct Hc' as [C3 Hc'].
    apply (code_at_app p [LBL 30; MOVX (Xr 3) DST; MOVX (Xr 4) (Xr 11); LBL 31]) in Hc'. destruct Hc' as [C4 Hc'].
    assert (C7 : code_at p (pc + 7) [LBL 31]).
    { clear - C4. apply (code_at_app p [LBL 30; MOVX (Xr 3) DST; MOVX (Xr 4) (Xr 11)] _ [LBL 31]) in C4. destruct C4 as [_ C4].
      cbn [length] in C4. replace (pc + 7)%nat with (S (S pc + 2) + 3)%nat by lia. exact C4. }
    apply code_at_app in Hc'. destruct Hc' as [C8 Hc']. apply code_at_cons in Hc'. destruct Hc' as [C9 Hc'].
    apply code_at_app in Hc'. destruct Hc' as [C10 C11]. cbn [length] in *.
    replace (S (S pc + 2) + 4)%nat with (pc + 8)%nat in * by lia.
    assert (Lw : length (k84_write t) = (8 + sl + 1 + 16 + 1)%nat).
    { unfold k84_write. rewrite !app_length. cbn [length]. unfold sl. change (length (k_copy t 8)) with 16%nat. lia. }
    change (length (k_copy t 8)) with 16%nat in C11. fold sl in C9, C10, C11.
    assert (L41 : forall g' fl' tm' lg', same_x [Xr 3; Xr 4; Xr 13; Xr 14; Xr 15] g' g -> zlen tm' = zlen tm ->
       (forall e, In e lg' <-> In e lg \/ blkD t d stride vals nr nc e) ->
       ends ops E p Q (pc + 8 + sl + 1 + 16) (mk f g' fl' tm' lg')).
    { intros g' fl' tm' lg' A4 A5 A6. eapply ends_exec.
      { replace (pc + 8 + sl + 1 + 16)%nat with (S (pc + 8 + sl) + 16)%nat by lia. exact C11. }
      { reflexivity. }
      apply wp_exec_cons, wp_lbl. cbn [exec wp length].
      replace (pc + 8 + sl + 1 + 16 + 1)%nat with (pc + length (k84_write t))%nat by lia.
      apply HQ; assumption. }
    assert (Sx : forall g1 g2, same_x [Xr 3; Xr 4] g1 g -> same_x [Xr 3] g2 g1 -> same_x [Xr 3; Xr 4; Xr 13; Xr 14; Xr 15] g2 g).
    { intros g1 g2 A B q Hq. cbn [forallb] in Hq. destruct (xeqb q (Xr 3)) eqn:Q3; [discriminate|]. destruct (xeqb q (Xr 4)) eqn:Q4; [discriminate|].
      rewrite B, A; [reflexivity| |]; cbn [forallb]; rewrite Q3, ?Q4; reflexivity. }
    eapply ends_bc; [exact C0|exact F30| |]; rewrite ?Hfl; cbn [sfl mk]; intros Hcond.
    - cbn [sfl mk] in Hcond. rewrite Hfl in Hcond. assert (nr = 8 /\ nc = 4) as [N1 N2] by lia. subst nr nc.
      eapply ends_exec; [replace (pc + 4)%nat with (S (S pc + 2)) by lia; exact C4|reflexivity|].
      apply wp_exec_cons, wp_lbl, wp_exec_cons, wp_movx, wp_exec_cons, wp_movx, wp_exec_cons, wp_lbl. cbn [exec wp length].
      replace (pc + 4 + 4)%nat with (pc + 8)%nat by lia.
      eapply ends_exec; [exact C8|exact (store8_straight t)|].
      eapply (wp_store8_dst ops E t vals _ _ _ _ _ d stride); [exact Hh|exact GD|exact G11|].
      intros g' lg' A3 A4. fold sl. eapply ends_bc; [exact C9|exact F41| |].
      + intros _. apply L41; [|reflexivity|exact A4]. eapply Sx; [|exact A3]. sx.
      + cbn [sfl mk]. rewrite Hfl. discriminate.
    - cbn [sfl mk] in Hcond. rewrite Hfl in Hcond.
      eapply ends_exec; [exact C1|reflexivity|]. apply wp_exec_cons, wp_movx, wp_exec_cons, wp_movi. cbn [exec wp length].
      eapply ends_b; [exact C3|exact F31|]. eapply ends_exec; [exact C7|reflexivity|].
      apply wp_exec_cons, wp_lbl. cbn [exec wp length]. replace (pc + 7 + 1)%nat with (pc + 8)%nat by lia.
      eapply ends_exec; [exact C8|exact (store8_straight t)|].
      eapply (wp_store8_tmp ops E t vals); [exact Hh|exact GT| |exact Htm|].
      { cbn [xupd xeqb Nat.eqb]. f_equal. unfold esize. destruct (is_float t); reflexivity. }
      intros g' tm' A3 A4 A5. fold sl. eapply ends_bc; [exact C9|exact F41| |]; cbn [sfl mk]; rewrite Hfl; [congruence|]. intros _.
      assert (Gs : same_x [Xr 3; Xr 4; Xr 13; Xr 14; Xr 15] g' g) by (eapply Sx; [|exact A3]; sx).
      apply (ends_copy ops E p Q t 8 nr nc d stride vals ltac:(lia) ltac:(lia) (S (pc + 8 + sl)) f g' tm' lg).
      + exact C10.
      + replace (S (pc + 8 + sl) + 3)%nat with (pc + 8 + sl + 1 + 3)%nat by lia. exact F50.
      + replace (S (pc + 8 + sl) + 5)%nat with (pc + 8 + sl + 1 + 5)%nat by lia. exact F51.
      + rewrite Gs by reflexivity. exact G1.
      + rewrite Gs by reflexivity. exact G2.
      + rewrite Gs by reflexivity. exact G11.
      + rewrite Gs by reflexivity. exact GT.
      + rewrite Gs by reflexivity. exact GD.
      + intros i j q v Hi Hj Hq. apply A5; [lia|lia|exact Hq].
      + intros g2 fl2 lg2 B1 B2. replace (S (pc + 8 + sl) + 16)%nat with (pc + 8 + sl + 1 + 16)%nat by lia.
        apply L41; [|exact A4|exact B2]. eapply same_x_trans; [exact B1|exact Gs].
  Qed.
End WriteCtl8.

(** 1119-1168 and the loop test *)
Definition dstep (t : dtype) : Z := match t with DFloat => 32 | DInt8 => 8 | DBits => 1 end.
Section Next8.
  Variables (ops : nops) (E : env) (t : dtype) (p : list instr) (Q : st -> Prop) (pc : nat).
  Hypothesis Hc : code_at p pc (k84_next t).
  Hypothesis (F20 : find 20 p 0 = Some (pc + 9)%nat) (F21 : find 21 p 0 = Some (pc + 14)%nat).
  Variable top : nat.
  Hypothesis F1 : find 1 p 0 = Some top.
  Lemma ends_next84 f g fl tm lg row col sr rl cl d dc stride :
    g ROW = Int row -> g COL = Int col -> g (Xr 6) = Int sr -> g (Xr 7) = Int rl -> g (Xr 8) = Int cl -> g (Xr 11) = Int stride ->
    g DST = Ptr RDst d -> g DST_COL = Ptr RDst dc ->
    0 <= row < 2 ^ 31 - 8 -> 0 <= col < 2 ^ 31 - 4 -> 0 <= sr < 2 ^ 31 -> 0 <= rl < 2 ^ 31 -> 0 <= cl < 2 ^ 31 ->
    (row <> rl -> forall f' g' fl', zeroed f' -> (forall q, (q < 24 \/ 28 <= q)%nat -> f' q = f q) -> g' ROW = Int (row + 8) -> g' (Xr 1) = Int 4 -> g' DST = Ptr RDst (d + dstep t) ->
       same_x [ROW; Xr 1; DST] g' g ->
       ends ops E p Q (if col <=? cl then top else (pc + 18)%nat) (mk f' g' fl' tm lg)) ->
    (row = rl -> forall f' g' fl', zeroed f' -> (forall q, (q < 24 \/ 28 <= q)%nat -> f' q = f q) -> g' ROW = Int sr -> g' COL = Int (col + 4) -> g' (Xr 1) = Int 4 ->
       g' DST_COL = Ptr RDst (dc + stride * 4) -> g' DST = Ptr RDst (dc + stride * 4) -> same_x [ROW; COL; DST_COL; DST; Xr 1] g' g ->
       ends ops E p Q (if col + 4 <=? cl then top else (pc + 18)%nat) (mk f' g' fl' tm lg)) ->
    ends ops E p Q pc (mk f g fl tm lg).
  Proof.
    intros GR GC G6 G7 G8 G11 GD GDC Hr Hcl Hsr Hrl Hcc K1 K2. assert (Hc' := Hc). unfold k84_next, zero in Hc'. fold (dstep t) in Hc'. cbn [app] in Hc'.
    apply (code_at_app p (map V [VZERO 24; VZERO 25; VZERO 26; VZERO 27]%nat)) in Hc'. destruct Hc' as [CZ Hc']. cbn [length map] in Hc'.
    apply code_at_cons in Hc'. destruct Hc' as [C0 Hc']. apply code_at_cons in Hc'. destruct Hc' as [C1 Hc'].
    apply (code_at_app p [ADDWI ROW ROW 8; ADDXI DST DST (dstep t)]) in Hc'. destruct Hc' as [C2 Hc']. apply code_at_cons in Hc'. destruct Hc' as [C3 Hc'].
    apply (code_at_app p [LBL 20; MOVW ROW (Xr 6); ADDWI COL COL 4; ADDX DST_COL DST_COL (Xr 11) 2; MOVX DST DST_COL]) in Hc'. destruct Hc' as [C4 Hc'].
    apply (code_at_app p [LBL 21; CMPW COL (Xr 8); MOVI (Xr 1) 4]) in Hc'. destruct Hc' as [C9 Hc'].
    apply code_at_cons in Hc'. destruct Hc' as [C12 _]. cbn [length] in *.
    replace (S (S (S (pc + 4)) + 2))%nat with (pc + 9)%nat in * by lia.
    replace (pc + 9 + 5)%nat with (pc + 14)%nat in * by lia.
    eapply ends_exec; [exact CZ|reflexivity|]. apply wp_vs. cbn [length map].
    set (f1 := vrun ops [VZERO 24; VZERO 25; VZERO 26; VZERO 27]%nat f).
    assert (Zf : zeroed f1) by (repeat split).
    assert (Of : forall q, (q < 24 \/ 28 <= q)%nat -> f1 q = f q).
    { intros q Hq. unfold f1. cbn [vrun fold_left vexec1]. unfold vupd.
      destruct (Nat.eqb_spec q 27); [lia|]. destruct (Nat.eqb_spec q 26); [lia|]. destruct (Nat.eqb_spec q 25); [lia|]. destruct (Nat.eqb_spec q 24); [lia|]. reflexivity. }
    clearbody f1.
    assert (L21 : forall g1 fl1 c1, g1 COL = Int c1 -> g1 (Xr 8) = Int cl -> 0 <= c1 < 2 ^ 31 ->
      (forall fl', ends ops E p Q (if c1 <=? cl then top else (pc + 18)%nat) (mk f1 (xupd g1 (Xr 1) (Int 4)) fl' tm lg)) ->
      ends ops E p Q (pc + 14) (mk f1 g1 fl1 tm lg)).
    { intros g1 fl1 c1 A1 A2 A3 A4. eapply ends_exec; [exact C9|reflexivity|].
      apply wp_exec_cons, wp_lbl, wp_exec_cons. eapply wp_cmpw; [exact A1|exact A2|lia|lia|]. apply wp_exec_cons, wp_movi. cbn [exec wp length].
      eapply ends_bc; [exact C12|exact F1| |]; cbn [cond_holds sfl mk]; intros Hcd.
      - specialize (A4 (c1, cl)). rewrite Hcd in A4. exact A4.
      - specialize (A4 (c1, cl)). rewrite Hcd in A4. replace (S (pc + 14 + 3)) with (pc + 18)%nat by lia. exact A4. }
    apply (ends_exec _ _ _ _ _ _ [CMPW ROW (Xr 7)]); [apply code_at_cons; split; [exact C0|reflexivity]|reflexivity|].
    apply wp_exec_cons. eapply wp_cmpw; [exact GR|exact G7|lia|lia|]. cbn [exec wp length]. replace (pc + 4 + 1)%nat with (S (pc + 4)) by lia.
    eapply ends_bc; [exact C1|exact F20| |]; cbn [cond_holds sfl mk]; intros Hcond.
    - apply Z.eqb_eq in Hcond. eapply ends_exec; [exact C4|reflexivity|].
      apply wp_exec_cons, wp_lbl, wp_exec_cons. eapply wp_movw; [exact G6|lia|].
      apply wp_exec_cons. eapply wp_addwi; [exact GC|lia|lia|].
      apply wp_exec_cons. eapply wp_addx; [exact GDC|exact G11|]. apply wp_exec_cons, wp_movx. cbn [exec wp length].
      replace (pc + 9 + 5)%nat with (pc + 14)%nat by lia.
      eapply (L21 _ _ (col + 4)); [reflexivity|exact G8|lia|]. intros fl'.
      apply K2; [exact Hcond|exact Zf|exact Of|reflexivity|reflexivity|reflexivity|reflexivity|reflexivity|sx].
    - apply Z.eqb_neq in Hcond.
      eapply ends_exec; [exact C2|reflexivity|].
      apply wp_exec_cons. eapply wp_addwi; [exact GR|lia|lia|]. apply wp_exec_cons. eapply wp_addxi; [exact GD|]. cbn [exec wp length].
      eapply ends_b; [exact C3|exact F21|]. eapply (L21 _ _ col); [exact GC|exact G8|lia|]. intros fl'.
      apply K1; [exact Hcond|exact Zf|exact Of|reflexivity|reflexivity|reflexivity|sx].
  Qed.
End Next8.
