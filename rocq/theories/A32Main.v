(** * A32Main: control flow of the 32-bit Arm kernel. *)
From Verif Require Import Base Spec Bits Log Bgemm A64 A64Bgemm A64Lemmas A64K44 A64Store A64Trans A64Seg A64Block44 A64Write44 A64Main44 A64Loop44 A32 A32Acc A32Store A32Block.
Open Scope Z_scope.

Section WriteCtl32.
  Variables (ops : nops) (E : env) (t : dtype) (p : list instr) (Q : st -> Prop) (pc : nat).
  Hypothesis Ht : is_bits t = false.
  Hypothesis Hc : code_at p pc (k32_write t).
  Hypothesis (F30 : find 30 p 0 = Some (pc + 4)%nat) (F31 : find 31 p 0 = Some (pc + 7)%nat)
    (F50 : find 50 p 0 = Some (pc + 24)%nat) (F51 : find 51 p 0 = Some (pc + 26)%nat)
    (F41 : find 41 p 0 = Some (pc + 37)%nat).
  Variables (vals : Z -> Z -> Z) (nr nc d stride : Z).
  Hypothesis (Hnr : 1 <= nr <= 4) (Hnc : 1 <= nc <= 4) (P44 : e_par E 44 = Some (Int stride)) (Hst : 0 <= stride < 2 ^ 32).
  Lemma store32_straight : straight (k32_store t) = true.
  Proof. reflexivity. Qed.
  (** 427-512 *)
  Lemma ends_write32 f g fl tm lg : held32 t vals f -> g TMPBUF = Ptr RTmp 0 -> g DST = Ptr RDst d ->
    g (Xr 1) = Int nr -> g (Xr 2) = Int nc -> cond_holds EQ fl = (nr =? 4) && (nc =? 4) -> 16 * Z.of_nat (esize t) <= zlen tm ->
    (forall f' g' fl' tm' lg', zeroed32 f' -> (forall q, (q < 8)%nat -> f' q = f q) -> g' DST = Ptr RDst (d + 4 * Z.of_nat (esize t)) ->
       same_x [Xr 3; Xr 4; Xr 5; Xr 6; Xr 8; Xr 10; DST] g' g -> zlen tm' = zlen tm ->
       (forall e, In e lg' <-> In e lg \/ blkD t d stride vals nr nc e) ->
       ends ops E p Q (pc + length (k32_write t)) (mk f' g' fl' tm' lg')) ->
    ends ops E p Q pc (mk f g fl tm lg).
  Proof.
    intros Hh GT GD G1 G2 Hfl Htm HQ. assert (Hc' := Hc). unfold k32_write in Hc'. cbn [app] in Hc'.
    apply code_at_cons in Hc'. destruct Hc' as [C0 Hc'].
    apply (code_at_app p [MOVX (Xr 3) TMPBUF; MOVI (Xr 4) (if is_float t then 16 else 4)]) in Hc'. destruct Hc' as [C1 Hc'].
    apply code_at_cons in Hc'. destruct Hc' as [C3 Hc'].
    apply (code_at_app p [LBL 30; MOVX (Xr 3) DST; LDRW (Xr 4) 44; LBL 31]) in Hc'. destruct Hc' as [C4 Hc'].
    assert (C7 : code_at p (pc + 7) [LBL 31]).
    { clear - C4. apply (code_at_app p [LBL 30; MOVX (Xr 3) DST; LDRW (Xr 4) 44] _ [LBL 31]) in C4. destruct C4 as [_ C4].
      cbn [length] in C4. replace (pc + 7)%nat with (S (S pc + 2) + 3)%nat by lia. exact C4. }
    apply code_at_app in Hc'. destruct Hc' as [C8 Hc']. apply code_at_cons in Hc'. destruct Hc' as [C9 Hc'].
    apply code_at_app in Hc'. destruct Hc' as [C10 C11].
    change (length (k32_store t)) with 11%nat in *. change (length (k32_copy t)) with 17%nat in *. change (length (k32_write t)) with 41%nat in *.
    cbn [length] in *. replace (S (S pc + 2) + 4)%nat with (pc + 8)%nat in * by lia.
    replace (S (pc + 8 + 11)) with (pc + 20)%nat in * by lia. replace (pc + 20 + 17)%nat with (pc + 37)%nat in * by lia.
    replace (pc + 8 + 11)%nat with (pc + 19)%nat in * by lia.
    assert (C10' : code_at p (pc + 20) [LDRW (Xr 8) 44] /\ code_at p (pc + 21) (copy_body t)).
    { apply (code_at_app p [LDRW (Xr 8) 44] _ (copy_body t)) in C10. destruct C10 as [X Y]. split; [exact X|].
      replace (pc + 21)%nat with (pc + 20 + 1)%nat by lia. exact Y. }
    destruct C10' as [C20 C21]. clear C10.
    (* label 41 *)
    assert (L41 : forall f' g' fl' tm' lg', zeroed32 f' -> (forall q, (q < 8)%nat -> f' q = f q) -> g' DST = Ptr RDst d ->
       same_x [Xr 3; Xr 4; Xr 5; Xr 6; Xr 8; Xr 10] g' g -> zlen tm' = zlen tm ->
       (forall e, In e lg' <-> In e lg \/ blkD t d stride vals nr nc e) ->
       ends ops E p Q (pc + 37) (mk f' g' fl' tm' lg')).
    { intros f' g' fl' tm' lg' A1 A2 A3 A4 A5 A6. eapply ends_exec; [exact C11|reflexivity|].
      apply wp_exec_cons, wp_lbl, wp_exec_cons, wp_movx, wp_exec_cons. eapply wp_addxi; [exact A3|]. apply wp_exec_cons, wp_movx. cbn [exec wp length].
      replace (pc + 37 + 4)%nat with (pc + 41)%nat by lia.
      apply HQ; [exact A1|exact A2| | |exact A5|exact A6].
      - cbn [xupd xeqb Nat.eqb]. f_equal. unfold esize. destruct (is_float t); lia.
      - sx. eapply same_x_incl; [|exact A4]. reflexivity. }
    eapply ends_bc; [exact C0|exact F30| |]; rewrite ?Hfl; cbn [sfl mk]; intros Hcond.
    - cbn [sfl mk] in Hcond. rewrite Hfl in Hcond. assert (nr = 4 /\ nc = 4) as [N1 N2] by lia. subst nr nc.
      eapply ends_exec; [replace (pc + 4)%nat with (S (S pc + 2)) by lia; exact C4|reflexivity|].
      apply wp_exec_cons, wp_lbl, wp_exec_cons, wp_movx, wp_exec_cons. eapply wp_ldrw; [exact P44|]. rewrite Z.mod_small by exact Hst.
      apply wp_exec_cons, wp_lbl. cbn [exec wp length].
      replace (pc + 4 + 4)%nat with (pc + 8)%nat by lia.
      eapply ends_exec; [exact C8|exact store32_straight|].
      eapply (wp_store_dst32 ops E t vals _ _ _ _ _ d stride); [exact Ht|exact Hh|exact GD|reflexivity|].
      intros f' g' lg' A1 A2 A3 A4. change (length (k32_store t)) with 11%nat. replace (pc + 8 + 11)%nat with (pc + 19)%nat by lia.
      eapply ends_bc; [exact C9|exact F41| |].
      + intros _. apply L41; [exact A1|exact A2|rewrite A3 by reflexivity; exact GD| |reflexivity|exact A4].
        eapply same_x_trans; [eapply same_x_incl; [|exact A3]; reflexivity|]. sx.
      + cbn [sfl mk]. rewrite Hfl. discriminate.
    - cbn [sfl mk] in Hcond. rewrite Hfl in Hcond.
      eapply ends_exec; [exact C1|reflexivity|]. apply wp_exec_cons, wp_movx, wp_exec_cons, wp_movi. cbn [exec wp length].
      eapply ends_b; [exact C3|exact F31|]. eapply ends_exec; [exact C7|reflexivity|].
      apply wp_exec_cons, wp_lbl. cbn [exec wp length]. replace (pc + 7 + 1)%nat with (pc + 8)%nat by lia.
      eapply ends_exec; [exact C8|exact store32_straight|].
      eapply (wp_store_tmp32 ops E t vals); [exact Ht|exact Hh|exact GT| |exact Htm|].
      { cbn [xupd xeqb Nat.eqb]. f_equal. unfold esize. destruct (is_float t); reflexivity. }
      intros f' g' tm' A1 A2 A3 A4 A5. change (length (k32_store t)) with 11%nat. replace (pc + 8 + 11)%nat with (pc + 19)%nat by lia.
      eapply ends_bc; [exact C9|exact F41| |]; cbn [sfl mk]; rewrite Hfl; [congruence|]. intros _.
      replace (S (pc + 19)) with (pc + 20)%nat by lia.
      eapply ends_exec; [exact C20|reflexivity|]. apply wp_exec_cons. eapply wp_ldrw; [exact P44|]. rewrite Z.mod_small by exact Hst. cbn [exec wp length].
      replace (pc + 20 + 1)%nat with (pc + 21)%nat by lia.
      assert (Gs : same_x [Xr 3; Xr 4; Xr 5; Xr 6; Xr 8; Xr 10] g' g).
      { eapply same_x_trans; [eapply same_x_incl; [|exact A3]; reflexivity|]. sx. }
      apply (ends_copy32 ops E p Q t nr nc d stride vals ltac:(lia) ltac:(lia) (pc + 21) f' _ tm' lg).
      + exact C21.
      + replace (pc + 21 + 3)%nat with (pc + 24)%nat by lia. exact F50.
      + replace (pc + 21 + 5)%nat with (pc + 26)%nat by lia. exact F51.
      + rewrite xupd_other by reflexivity. rewrite Gs by reflexivity. exact G1.
      + rewrite xupd_other by reflexivity. rewrite Gs by reflexivity. exact G2.
      + reflexivity.
      + rewrite xupd_other by reflexivity. rewrite Gs by reflexivity. exact GT.
      + rewrite xupd_other by reflexivity. rewrite Gs by reflexivity. exact GD.
      + intros i j q v Hi Hj Hq. apply A5; [lia|lia|exact Hq].
      + intros g2 fl2 lg2 B1 B2. replace (pc + 21 + 16)%nat with (pc + 37)%nat by lia.
        apply L41; [exact A1|exact A2| | |exact A4|exact B2].
        * rewrite B1 by reflexivity. rewrite xupd_other by reflexivity. rewrite Gs by reflexivity. exact GD.
        * eapply same_x_trans; [eapply same_x_incl; [|exact B1]; reflexivity|]. sx.
  Qed.
End WriteCtl32.

(** 267-298 *)
Section Advance32.
  Variables (ops : nops) (E : env) (p : list instr) (Q : st -> Prop) (pc : nat).
  Hypothesis Hc : code_at p pc k32_advance.
  Hypothesis (F4 : find 4 p 0 = Some (pc + 9)%nat) (F5 : find 5 p 0 = Some (pc + 20)%nat).
  Lemma ends_advance32 f g fl tm lg row col rl cl a b a5 x9 x10 :
    e_par E 20 = Some (Int rl) -> e_par E 24 = Some (Int cl) -> e_par E 0 = Some (Ptr RLhs a5) -> e_par E 36 = Some (Int x9) -> e_par E 40 = Some (Int x10) ->
    g ROW = Int row -> g COL = Int col -> g LHS_COL = Ptr RLhs a -> g RHS_COL = Ptr RRhs b ->
    0 <= row < 2 ^ 31 -> 0 <= col < 2 ^ 31 -> 0 <= rl < 2 ^ 31 -> 0 <= cl < 2 ^ 31 -> 0 <= x9 < 2 ^ 32 -> 0 <= x10 < 2 ^ 32 ->
    (forall g' fl', g' LHS_COL = Ptr RLhs (if row <? rl then a + x9 * 2 ^ 2 else a5) ->
       g' RHS_COL = Ptr RRhs (if row <? rl then b else if col <? cl then b + x10 * 2 ^ 2 else b) ->
       same_x [LHS_COL; RHS_COL; Xr 1; Xr 3; Xr 4; Xr 5; Xr 8; Xr 10] g' g -> ends ops E p Q (pc + 21) (mk f g' fl' tm lg)) ->
    ends ops E p Q pc (mk f g fl tm lg).
  Proof.
    intros P20 P24 P0 P36 P40 GR GC GL GRH Hr Hcl Hrl Hcc H9 H10 HQ. assert (Hc' := Hc). unfold k32_advance in Hc'.
    apply (code_at_app p [LDRW (Xr 3) 20; MOVX (Xr 1) ROW; CMPW (Xr 1) (Xr 3)]) in Hc'. destruct Hc' as [C0 Hc'].
    apply code_at_cons in Hc'. destruct Hc' as [C3 Hc'].
    apply (code_at_app p [LDRW (Xr 1) 36; MOVX (Xr 4) LHS_COL; ADDX (Xr 4) (Xr 4) (Xr 1) 2; MOVX LHS_COL (Xr 4)]) in Hc'. destruct Hc' as [C4 Hc'].
    apply code_at_cons in Hc'. destruct Hc' as [C8 Hc'].
    apply (code_at_app p [LBL 4; LDRX (Xr 5) 0; MOVX LHS_COL (Xr 5); LDRW (Xr 4) 24; MOVX (Xr 8) COL; CMPW (Xr 8) (Xr 4)]) in Hc'. destruct Hc' as [C9 Hc'].
    apply code_at_cons in Hc'. destruct Hc' as [C15 Hc'].
    apply (code_at_app p [LDRW (Xr 1) 40; MOVX (Xr 10) RHS_COL; ADDX (Xr 10) (Xr 10) (Xr 1) 2; MOVX RHS_COL (Xr 10)]) in Hc'. destruct Hc' as [C16 Hc'].
    apply code_at_cons in Hc'. destruct Hc' as [C20 _]. cbn [length] in *.
    replace (S (S (pc + 3) + 4)) with (pc + 9)%nat in * by lia. replace (S (pc + 3) + 4)%nat with (pc + 8)%nat in * by lia.
    replace (S (pc + 9 + 6) + 4)%nat with (pc + 20)%nat in * by lia. replace (S (pc + 9 + 6))%nat with (pc + 16)%nat in * by lia.
    replace (pc + 9 + 6)%nat with (pc + 15)%nat in * by lia. replace (S (pc + 3)) with (pc + 4)%nat in * by lia.
    assert (L5 : forall g' fl', g' LHS_COL = Ptr RLhs (if row <? rl then a + x9 * 2 ^ 2 else a5) ->
       g' RHS_COL = Ptr RRhs (if row <? rl then b else if col <? cl then b + x10 * 2 ^ 2 else b) ->
       same_x [LHS_COL; RHS_COL; Xr 1; Xr 3; Xr 4; Xr 5; Xr 8; Xr 10] g' g -> ends ops E p Q (pc + 20) (mk f g' fl' tm lg)).
    { intros g' fl' H1 H2 H3. apply (ends_exec _ _ _ _ _ _ [LBL 5]); [apply code_at_cons; split; [exact C20|reflexivity]|reflexivity|].
      cbn [exec exec1 bind wp length]. replace (pc + 20 + 1)%nat with (pc + 21)%nat by lia. apply HQ; assumption. }
    eapply ends_exec; [exact C0|reflexivity|].
    apply wp_exec_cons. eapply wp_ldrw; [exact P20|]. rewrite wmod by lia. apply wp_exec_cons, wp_movx.
    apply wp_exec_cons. eapply wp_cmpw; [exact GR|reflexivity|lia|lia|]. cbn [exec wp length].
    eapply ends_bc; [exact C3|exact F4| |]; cbn [cond_holds sfl mk]; intros Hcond.
    - apply Z.leb_le in Hcond. assert (T1 : (row <? rl) = false) by (apply Z.ltb_ge; lia). rewrite T1 in L5.
      eapply ends_exec; [exact C9|reflexivity|].
      apply wp_exec_cons, wp_lbl, wp_exec_cons. eapply wp_ldrx; [exact P0|]. apply wp_exec_cons, wp_movx, wp_exec_cons.
      eapply wp_ldrw; [exact P24|]. rewrite (wmod cl) by lia. apply wp_exec_cons, wp_movx, wp_exec_cons.
      eapply wp_cmpw; [exact GC|reflexivity|lia|lia|]. cbn [exec wp length]. replace (pc + 9 + 6)%nat with (pc + 15)%nat by lia.
      eapply ends_bc; [exact C15|exact F5| |]; cbn [cond_holds sfl mk]; intros Hcd2.
      + apply Z.leb_le in Hcd2. assert (T2 : (col <? cl) = false) by (apply Z.ltb_ge; lia). rewrite T2 in L5.
        apply L5; [reflexivity|rewrite !xupd_other by reflexivity; exact GRH|sx].
      + apply Z.leb_gt in Hcd2. assert (T2 : (col <? cl) = true) by (apply Z.ltb_lt; lia). rewrite T2 in L5.
        eapply ends_exec; [replace (S (pc + 15)) with (pc + 16)%nat by lia; exact C16|reflexivity|].
        apply wp_exec_cons. eapply wp_ldrw; [exact P40|]. rewrite (Z.mod_small x10) by exact H10. apply wp_exec_cons, wp_movx, wp_exec_cons.
        eapply wp_addx; [cbn [xupd xeqb Nat.eqb]; exact GRH|reflexivity|]. apply wp_exec_cons, wp_movx. cbn [exec wp length].
        replace (S (pc + 15) + 4)%nat with (pc + 20)%nat by lia.
        apply L5; [reflexivity|reflexivity|sx].
    - apply Z.leb_gt in Hcond. assert (T1 : (row <? rl) = true) by (apply Z.ltb_lt; lia). rewrite T1 in L5.
      replace (S (pc + 3)) with (pc + 4)%nat by lia.
      eapply ends_exec; [exact C4|reflexivity|].
      apply wp_exec_cons. eapply wp_ldrw; [exact P36|]. rewrite (Z.mod_small x9) by exact H9. apply wp_exec_cons, wp_movx, wp_exec_cons.
      eapply wp_addx; [cbn [xupd xeqb Nat.eqb]; exact GL|reflexivity|]. apply wp_exec_cons, wp_movx. cbn [exec wp length].
      replace (pc + 4 + 4)%nat with (pc + 8)%nat by lia.
      eapply ends_b; [exact C8|exact F5|]. apply L5; [reflexivity|rewrite !xupd_other by reflexivity; exact GRH|sx].
  Qed.
End Advance32.

(** 519-570 *)
Section Next32.
  Variables (ops : nops) (E : env) (p : list instr) (Q : st -> Prop) (pc : nat).
  Hypothesis Hc : code_at p pc k32_next.
  Hypothesis (F20 : find 20 p 0 = Some (pc + 9)%nat) (F21 : find 21 p 0 = Some (pc + 19)%nat).
  Variable top : nat.
  Hypothesis F1 : find 1 p 0 = Some top.
  Lemma ends_next32 f g fl tm lg row col sr rl cl d dc stride a5 :
    e_par E 0 = Some a5 -> e_par E 12 = Some (Int sr) -> e_par E 20 = Some (Int rl) -> e_par E 24 = Some (Int cl) -> e_par E 44 = Some (Int stride) ->
    g ROW = Int row -> g COL = Int col -> g DST = Ptr RDst d -> g DST_COL = Ptr RDst dc ->
    0 <= row < 2 ^ 31 - 4 -> 0 <= col < 2 ^ 31 - 4 -> 0 <= sr < 2 ^ 31 -> 0 <= rl < 2 ^ 31 -> 0 <= cl < 2 ^ 31 -> 0 <= stride < 2 ^ 32 ->
    (row <> rl -> forall g' fl', g' ROW = Int (row + 4) -> g' (Xr 1) = Int 4 -> same_x [ROW; Xr 1; Xr 3; Xr 4; Xr 5; Xr 6; Xr 8] g' g ->
       ends ops E p Q (if col <=? cl then top else (pc + 25)%nat) (mk f g' fl' tm lg)) ->
    (row = rl -> forall g' fl', g' ROW = Int sr -> g' COL = Int (col + 4) -> g' (Xr 1) = Int 4 ->
       g' DST_COL = Ptr RDst (dc + stride * 4) -> g' DST = Ptr RDst (dc + stride * 4) ->
       same_x [ROW; COL; DST_COL; DST; Xr 1; Xr 3; Xr 4; Xr 5; Xr 6; Xr 8] g' g ->
       ends ops E p Q (if col + 4 <=? cl then top else (pc + 25)%nat) (mk f g' fl' tm lg)) ->
    ends ops E p Q pc (mk f g fl tm lg).
  Proof.
    intros P0 P12 P20 P24 P44 GR GC GD GDC Hr Hcl Hsr Hrl Hcc Hst K1 K2. assert (Hc' := Hc). unfold k32_next in Hc'.
    apply (code_at_app p [LDRX (Xr 5) 0; LDRW (Xr 6) 12; LDRW (Xr 3) 20; MOVX (Xr 8) ROW; CMPW (Xr 8) (Xr 3)]) in Hc'. destruct Hc' as [C0 Hc'].
    apply code_at_cons in Hc'. destruct Hc' as [C5 Hc'].
    apply (code_at_app p [ADDWI (Xr 8) (Xr 8) 4; MOVX ROW (Xr 8)]) in Hc'. destruct Hc' as [C6 Hc'].
    apply code_at_cons in Hc'. destruct Hc' as [C8 Hc'].
    apply (code_at_app p [LBL 20; MOVX ROW (Xr 6); MOVX (Xr 4) COL; ADDWI (Xr 4) (Xr 4) 4; MOVX COL (Xr 4);
      LDRW (Xr 8) 44; MOVX (Xr 1) DST_COL; ADDX (Xr 1) (Xr 1) (Xr 8) 2; MOVX DST_COL (Xr 1); MOVX DST (Xr 1)]) in Hc'. destruct Hc' as [C9 Hc'].
    apply (code_at_app p [LBL 21; LDRW (Xr 4) 24; MOVX (Xr 8) COL; CMPW (Xr 8) (Xr 4); MOVI (Xr 1) 4]) in Hc'. destruct Hc' as [C19 Hc'].
    apply code_at_cons in Hc'. destruct Hc' as [C24 _]. cbn [length] in *.
    replace (S (pc + 5) + 2)%nat with (pc + 8)%nat in * by lia. replace (S (pc + 8)) with (pc + 9)%nat in * by lia.
    replace (pc + 9 + 10)%nat with (pc + 19)%nat in * by lia. replace (pc + 19 + 5)%nat with (pc + 24)%nat in * by lia.
    replace (S (pc + 5)) with (pc + 6)%nat in * by lia.
    assert (L21 : forall g1 fl1 c1, g1 COL = Int c1 -> 0 <= c1 < 2 ^ 31 ->
      (forall fl', ends ops E p Q (if c1 <=? cl then top else (pc + 25)%nat) (mk f (xupd (xupd (xupd g1 (Xr 4) (Int cl)) (Xr 8) (g1 COL)) (Xr 1) (Int 4)) fl' tm lg)) ->
      ends ops E p Q (pc + 19) (mk f g1 fl1 tm lg)).
    { intros g1 fl1 c1 A1 A3 A4. eapply ends_exec; [exact C19|reflexivity|].
      apply wp_exec_cons, wp_lbl, wp_exec_cons. eapply wp_ldrw; [exact P24|]. rewrite (wmod cl) by lia. apply wp_exec_cons, wp_movx, wp_exec_cons.
      eapply wp_cmpw; [exact A1|reflexivity|lia|lia|]. apply wp_exec_cons, wp_movi. cbn [exec wp length].
      replace (pc + 19 + 5)%nat with (pc + 24)%nat by lia.
      eapply ends_bc; [exact C24|exact F1| |]; cbn [cond_holds sfl mk]; intros Hcd.
      - specialize (A4 (c1, cl)). rewrite Hcd in A4. exact A4.
      - specialize (A4 (c1, cl)). rewrite Hcd in A4. replace (S (pc + 24)) with (pc + 25)%nat by lia. exact A4. }
    eapply ends_exec; [exact C0|reflexivity|].
    apply wp_exec_cons. eapply wp_ldrx; [exact P0|]. apply wp_exec_cons. eapply wp_ldrw; [exact P12|]. rewrite wmod by lia.
    apply wp_exec_cons. eapply wp_ldrw; [exact P20|]. rewrite (wmod rl) by lia. apply wp_exec_cons, wp_movx, wp_exec_cons.
    eapply wp_cmpw; [exact GR|reflexivity|lia|lia|]. cbn [exec wp length].
    eapply ends_bc; [exact C5|exact F20| |]; cbn [cond_holds sfl mk]; intros Hcond.
    - apply Z.eqb_eq in Hcond. eapply ends_exec; [exact C9|reflexivity|].
      apply wp_exec_cons, wp_lbl, wp_exec_cons, wp_movx, wp_exec_cons, wp_movx, wp_exec_cons. eapply wp_addwi; [exact GC|lia|lia|].
      apply wp_exec_cons, wp_movx, wp_exec_cons. eapply wp_ldrw; [exact P44|]. rewrite (Z.mod_small stride) by exact Hst.
      apply wp_exec_cons, wp_movx, wp_exec_cons. eapply wp_addx; [exact GDC|reflexivity|].
      apply wp_exec_cons, wp_movx, wp_exec_cons, wp_movx. cbn [exec wp length].
      replace (pc + 9 + 10)%nat with (pc + 19)%nat by lia.
      eapply (L21 _ _ (col + 4)); [reflexivity|lia|]. intros fl'.
      apply K2; [exact Hcond|reflexivity|reflexivity|reflexivity|reflexivity|reflexivity|sx].
    - apply Z.eqb_neq in Hcond. replace (S (pc + 5)) with (pc + 6)%nat by lia.
      eapply ends_exec; [exact C6|reflexivity|].
      apply wp_exec_cons. eapply wp_addwi; [exact GR|lia|lia|]. apply wp_exec_cons, wp_movx. cbn [exec wp length].
      replace (pc + 6 + 2)%nat with (pc + 8)%nat by lia.
      eapply ends_b; [exact C8|exact F21|]. eapply (L21 _ _ col); [exact GC|lia|]. intros fl'.
      apply K1; [exact Hcond|reflexivity|reflexivity|sx].
  Qed.
End Next32.
