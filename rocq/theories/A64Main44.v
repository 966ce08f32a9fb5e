(** * A64Main44: control flow of BinaryKernelNeon4x4. *)
From Verif Require Import Base Spec Bits Log Bgemm A64 A64Bgemm A64Lemmas A64K44 A64Store A64Trans A64Seg A64Block44 A64Write44.
Open Scope Z_scope.

Ltac code H := unfold code_at; exact H.
Section WriteCtl.
  Variables (ops : nops) (E : env) (t : dtype) (p : list instr) (Q : st -> Prop) (pc : nat).
  Hypothesis Ht : is_bits t = false.
  Hypothesis Hc : code_at p pc (k44_write t).
  Let sl := length (k44_store t).
  Hypothesis (F30 : find 30 p 0 = Some (pc + 4)%nat) (F31 : find 31 p 0 = Some (pc + 7)%nat)
    (F50 : find 50 p 0 = Some (pc + 8 + sl + 1 + 3)%nat) (F51 : find 51 p 0 = Some (pc + 8 + sl + 1 + 5)%nat)
    (F41 : find 41 p 0 = Some (pc + 8 + sl + 1 + 16)%nat).
  Variables (vals : Z -> Z -> Z) (nr nc d stride : Z).
  Hypothesis (Hnr : 1 <= nr <= 4) (Hnc : 1 <= nc <= 4).
  Lemma store_straight : straight (k44_store t) = true.
  Proof. unfold k44_store. destruct (is_float t); reflexivity. Qed.
  Lemma ends_write f g fl tm lg : held t vals f -> g TMPBUF = Ptr RTmp 0 -> g DST = Ptr RDst d -> g (Xr 11) = Int stride ->
    g (Xr 1) = Int nr -> g (Xr 2) = Int nc -> cond_holds EQ fl = (nr =? 4) && (nc =? 4) -> 16 * Z.of_nat (esize t) <= zlen tm ->
    (forall f' g' fl' tm' lg', zeroed f' -> (forall q, (q < 8)%nat -> f' q = f q) -> g' DST = Ptr RDst (d + 4 * Z.of_nat (esize t)) ->
       same_x [Xr 3; Xr 4; Xr 13; Xr 14; Xr 15; DST] g' g -> zlen tm' = zlen tm ->
       (forall e, In e lg' <-> In e lg \/ blkD t d stride vals nr nc e) ->
       ends ops E p Q (pc + length (k44_write t)) (mk f' g' fl' tm' lg')) ->
    ends ops E p Q pc (mk f g fl tm lg).
  Proof.
    intros Hh GT GD G11 G1 G2 Hfl Htm HQ. assert (Hc' := Hc). unfold k44_write in Hc'. cbn [app] in Hc'.
    apply code_at_cons in Hc'. destruct Hc' as [C0 Hc'].
    apply (code_at_app p [MOVX (Xr 3) TMPBUF; MOVI (Xr 4) (if is_float t then 16 else 4)]) in Hc'. destruct Hc' as [C1 Hc'].
    apply code_at_cons in Hc'. destruct Hc' as [C3 Hc'].
    apply (code_at_app p [LBL 30; MOVX (Xr 3) DST; MOVX (Xr 4) (Xr 11); LBL 31]) in Hc'. destruct Hc' as [C4 Hc'].
    assert (C7 : code_at p (pc + 7) [LBL 31]).
    { clear - C4. apply (code_at_app p [LBL 30; MOVX (Xr 3) DST; MOVX (Xr 4) (Xr 11)] _ [LBL 31]) in C4. destruct C4 as [_ C4].
      cbn [length] in C4. replace (pc + 7)%nat with (S (S pc + 2) + 3)%nat by lia. exact C4. }
    apply code_at_app in Hc'. destruct Hc' as [C8 Hc']. apply code_at_cons in Hc'. destruct Hc' as [C9 Hc'].
    apply code_at_app in Hc'. destruct Hc' as [C10 C11]. cbn [length] in *.
    replace (S (S pc + 2) + 4)%nat with (pc + 8)%nat in * by lia.
    assert (Lw : length (k44_write t) = (8 + sl + 1 + 16 + 2)%nat).
    { unfold k44_write. rewrite !app_length. cbn [length]. unfold sl. change (length (k_copy t 4)) with 16%nat. lia. }
    change (length (k_copy t 4)) with 16%nat in C11. fold sl in C9, C10, C11.
    (* label 41 *)
    assert (L41 : forall f' g' fl' tm' lg', zeroed f' -> (forall q, (q < 8)%nat -> f' q = f q) -> g' DST = Ptr RDst d ->
       same_x [Xr 3; Xr 4; Xr 13; Xr 14; Xr 15] g' g -> zlen tm' = zlen tm ->
       (forall e, In e lg' <-> In e lg \/ blkD t d stride vals nr nc e) ->
       ends ops E p Q (pc + 8 + sl + 1 + 16) (mk f' g' fl' tm' lg')).
    { intros f' g' fl' tm' lg' A1 A2 A3 A4 A5 A6. eapply ends_exec.
      { replace (pc + 8 + sl + 1 + 16)%nat with (S (pc + 8 + sl) + 16)%nat by lia. exact C11. }
      { reflexivity. }
      apply wp_exec_cons, wp_lbl, wp_exec_cons. eapply wp_addxi; [exact A3|]. cbn [exec wp length].
      replace (pc + 8 + sl + 1 + 16 + 2)%nat with (pc + length (k44_write t))%nat by lia.
      apply HQ; [exact A1|exact A2| | |exact A5|exact A6].
      - cbn [xupd xeqb]. f_equal. unfold esize. destruct (is_float t); lia.
      - intros q Hq. rewrite <- A4.
        + apply xupd_other. destruct (xeqb q DST) eqn:Eq; [|reflexivity]. apply xeqb_eq in Eq. subst q. discriminate Hq.
        + cbn [forallb] in *. destruct (xeqb q (Xr 3)), (xeqb q (Xr 4)), (xeqb q (Xr 13)), (xeqb q (Xr 14)), (xeqb q (Xr 15)); try discriminate Hq; reflexivity. }
    (* label 31: after choosing the target *)
    assert (Sx : forall g1 g2, same_x [Xr 3; Xr 4] g1 g -> same_x [Xr 3] g2 g1 -> same_x [Xr 3; Xr 4; Xr 13; Xr 14; Xr 15] g2 g).
    { intros g1 g2 A B q Hq. cbn [forallb] in Hq. destruct (xeqb q (Xr 3)) eqn:Q3; [discriminate|]. destruct (xeqb q (Xr 4)) eqn:Q4; [discriminate|].
      rewrite B, A; [reflexivity| |]; cbn [forallb]; rewrite Q3, ?Q4; reflexivity. }
    eapply ends_bc; [exact C0|exact F30| |]; rewrite ?Hfl; cbn [sfl mk]; intros Hcond.
    - cbn [sfl mk] in Hcond. rewrite Hfl in Hcond. assert (nr = 4 /\ nc = 4) as [N1 N2] by lia. subst nr nc.
      eapply ends_exec; [replace (pc + 4)%nat with (S (S pc + 2)) by lia; exact C4|reflexivity|].
      apply wp_exec_cons, wp_lbl, wp_exec_cons, wp_movx, wp_exec_cons, wp_movx, wp_exec_cons, wp_lbl. cbn [exec wp length].
      replace (pc + 4 + 4)%nat with (pc + 8)%nat by lia.
      eapply ends_exec; [exact C8|exact store_straight|].
      eapply (wp_store_dst ops E t vals _ _ _ _ _ d stride); [exact Ht|exact Hh|exact GD|exact G11|].
      intros f' g' lg' A1 A2 A3 A4. fold sl. eapply ends_bc; [exact C9|exact F41| |].
      + intros _. apply L41; [exact A1|exact A2|rewrite A3 by reflexivity; exact GD| |reflexivity|exact A4].
        eapply Sx; [|exact A3]. sx.
      + cbn [sfl mk]. rewrite Hfl. discriminate.
    - cbn [sfl mk] in Hcond. rewrite Hfl in Hcond.
      eapply ends_exec; [exact C1|reflexivity|]. apply wp_exec_cons, wp_movx, wp_exec_cons, wp_movi. cbn [exec wp length].
      eapply ends_b; [exact C3|exact F31|]. eapply ends_exec; [exact C7|reflexivity|].
      apply wp_exec_cons, wp_lbl. cbn [exec wp length]. replace (pc + 7 + 1)%nat with (pc + 8)%nat by lia.
      eapply ends_exec; [exact C8|exact store_straight|].
      eapply (wp_store_tmp ops E t vals); [exact Ht|exact Hh|exact GT| |exact Htm|].
      { cbn [xupd xeqb Nat.eqb]. f_equal. unfold esize. destruct (is_float t); reflexivity. }
      intros f' g' tm' A1 A2 A3 A4 A5. fold sl. eapply ends_bc; [exact C9|exact F41| |]; cbn [sfl mk]; rewrite Hfl; [congruence|]. intros _.
      assert (Gs : same_x [Xr 3; Xr 4; Xr 13; Xr 14; Xr 15] g' g) by (eapply Sx; [|exact A3]; sx).
      apply (ends_copy ops E p Q t 4 nr nc d stride vals ltac:(lia) ltac:(lia) (S (pc + 8 + sl)) f' g' tm' lg).
      + exact C10.
      + replace (S (pc + 8 + sl) + 3)%nat with (pc + 8 + sl + 1 + 3)%nat by lia. exact F50.
      + replace (S (pc + 8 + sl) + 5)%nat with (pc + 8 + sl + 1 + 5)%nat by lia. exact F51.
      + rewrite Gs by reflexivity. exact G1.
      + rewrite Gs by reflexivity. exact G2.
      + rewrite Gs by reflexivity. exact G11.
      + rewrite Gs by reflexivity. exact GT.
      + rewrite Gs by reflexivity. exact GD.
      + intros i j q v Hi Hj Hq. apply A5; [lia|lia|exact Hq].
      + intros g2 fl2 lg2 B1 B2. replace (S (pc + 8 + sl) + 16)%nat with (pc + 8 + sl + 1 + 16)%nat by lia.
        apply L41; [exact A1|exact A2| | |exact A4|exact B2].
        * rewrite B1, Gs by reflexivity. exact GD.
        * eapply same_x_trans; [exact B1|exact Gs].
  Qed.
End WriteCtl.

(** 530-552 and the loop test *)
Section Next.
  Variables (ops : nops) (E : env) (p : list instr) (Q : st -> Prop) (pc : nat).
  Hypothesis Hc : code_at p pc k44_next.
  Hypothesis (F20 : find 20 p 0 = Some (pc + 4)%nat) (F21 : find 21 p 0 = Some (pc + 9)%nat).
  Variable top : nat.
  Hypothesis F1 : find 1 p 0 = Some top.
  Lemma ends_next f g fl tm lg row col sr rl cl d dc stride :
    g ROW = Int row -> g COL = Int col -> g (Xr 6) = Int sr -> g (Xr 7) = Int rl -> g (Xr 8) = Int cl -> g (Xr 11) = Int stride ->
    g DST = Ptr RDst d -> g DST_COL = Ptr RDst dc ->
    0 <= row < 2 ^ 31 - 4 -> 0 <= col < 2 ^ 31 - 4 -> 0 <= sr < 2 ^ 31 -> 0 <= rl < 2 ^ 31 -> 0 <= cl < 2 ^ 31 ->
    (row <> rl -> forall g' fl', g' ROW = Int (row + 4) -> g' (Xr 1) = Int 4 -> same_x [ROW; Xr 1] g' g ->
       ends ops E p Q (if col <=? cl then top else (pc + 13)%nat) (mk f g' fl' tm lg)) ->
    (row = rl -> forall g' fl', g' ROW = Int sr -> g' COL = Int (col + 4) -> g' (Xr 1) = Int 4 ->
       g' DST_COL = Ptr RDst (dc + stride * 4) -> g' DST = Ptr RDst (dc + stride * 4) -> same_x [ROW; COL; DST_COL; DST; Xr 1] g' g ->
       ends ops E p Q (if col + 4 <=? cl then top else (pc + 13)%nat) (mk f g' fl' tm lg)) ->
    ends ops E p Q pc (mk f g fl tm lg).
  Proof.
    intros GR GC G6 G7 G8 G11 GD GDC Hr Hcl Hsr Hrl Hcc K1 K2. assert (Hc' := Hc). unfold k44_next in Hc'.
    apply code_at_cons in Hc'. destruct Hc' as [C0 Hc']. apply code_at_cons in Hc'. destruct Hc' as [C1 Hc'].
    apply code_at_cons in Hc'. destruct Hc' as [C2 Hc']. apply code_at_cons in Hc'. destruct Hc' as [C3 Hc'].
    apply (code_at_app p [LBL 20; MOVW ROW (Xr 6); ADDWI COL COL 4; ADDX DST_COL DST_COL (Xr 11) 2; MOVX DST DST_COL]) in Hc'. destruct Hc' as [C4 Hc'].
    apply (code_at_app p [LBL 21; CMPW COL (Xr 8); MOVI (Xr 1) 4]) in Hc'. destruct Hc' as [C9 Hc'].
    apply code_at_cons in Hc'. destruct Hc' as [C12 _]. cbn [length] in *.
    replace (S (S (S (S pc))) + 5)%nat with (pc + 9)%nat in * by lia.
    assert (L21 : forall g1 fl1 c1, g1 COL = Int c1 -> g1 (Xr 8) = Int cl -> 0 <= c1 < 2 ^ 31 ->
      (forall fl', ends ops E p Q (if c1 <=? cl then top else (pc + 13)%nat) (mk f (xupd g1 (Xr 1) (Int 4)) fl' tm lg)) ->
      ends ops E p Q (pc + 9) (mk f g1 fl1 tm lg)).
    { intros g1 fl1 c1 A1 A2 A3 A4. eapply ends_exec; [exact C9|reflexivity|].
      apply wp_exec_cons, wp_lbl, wp_exec_cons. eapply wp_cmpw; [exact A1|exact A2|lia|lia|]. apply wp_exec_cons, wp_movi. cbn [exec wp length].
      eapply ends_bc; [exact C12|exact F1| |]; cbn [cond_holds sfl mk]; intros Hcd.
      - specialize (A4 (c1, cl)). rewrite Hcd in A4. exact A4.
      - specialize (A4 (c1, cl)). rewrite Hcd in A4. replace (S (pc + 9 + 3)) with (pc + 13)%nat by lia. exact A4. }
    apply (ends_exec _ _ _ _ _ _ [CMPW ROW (Xr 7)]); [apply code_at_cons; split; [exact C0|reflexivity]|reflexivity|].
    apply wp_exec_cons. eapply wp_cmpw; [exact GR|exact G7|lia|lia|]. cbn [exec wp length]. replace (pc + 1)%nat with (S pc) by lia.
    eapply ends_bc; [exact C1|exact F20| |]; cbn [cond_holds sfl mk]; intros Hcond.
    - apply Z.eqb_eq in Hcond. eapply ends_exec; [replace (pc + 4)%nat with (S (S (S (S pc)))) by lia; exact C4|reflexivity|].
      apply wp_exec_cons, wp_lbl, wp_exec_cons. eapply wp_movw; [exact G6|lia|].
      apply wp_exec_cons. eapply wp_addwi; [exact GC|lia|lia|].
      apply wp_exec_cons. eapply wp_addx; [exact GDC|exact G11|]. apply wp_exec_cons, wp_movx. cbn [exec wp length].
      replace (pc + 4 + 5)%nat with (pc + 9)%nat by lia.
      eapply (L21 _ _ (col + 4)); [reflexivity|exact G8|lia|]. intros fl'.
      apply K2; [exact Hcond|reflexivity|reflexivity|reflexivity|reflexivity|reflexivity|sx].
    - apply Z.eqb_neq in Hcond.
      apply (ends_exec _ _ _ _ _ _ [ADDWI ROW ROW 4]); [apply code_at_cons; split; [exact C2|reflexivity]|reflexivity|].
      apply wp_exec_cons. eapply wp_addwi; [exact GR|lia|lia|]. cbn [exec wp length]. replace (S (S pc) + 1)%nat with (S (S (S pc))) by lia.
      eapply ends_b; [exact C3|exact F21|]. eapply (L21 _ _ col); [exact GC|exact G8|lia|]. intros fl'.
      apply K1; [exact Hcond|reflexivity|reflexivity|sx].
  Qed.
End Next.
