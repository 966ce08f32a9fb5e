(** * A64Loop44: BinaryKernelNeon4x4 over all blocks of its range. *)
From Verif Require Import Base Spec Bits Log Bgemm A64 A64Bgemm A64Lemmas A64K44 A64Store A64Trans A64Seg A64Block44 A64Write44 A64Main44.
Open Scope Z_scope.

Lemma same_x_incl a b g' g : forallb (fun x => existsb (xeqb x) b) a = true -> same_x a g' g -> same_x b g' g.
Proof.
  intros Hi H q Hq. apply H. clear H. induction a as [|x a IH]; [reflexivity|]. cbn [forallb] in *. apply andb_prop in Hi. destruct Hi as [Hx Hi].
  rewrite (IH Hi), andb_true_r. destruct (xeqb q x) eqn:E; [|reflexivity]. apply xeqb_eq in E. subst q. exfalso. clear - Hx Hq.
  induction b as [|y b IHb]; [discriminate|]. cbn [existsb forallb] in *. destruct (xeqb x y); [discriminate|]. cbn in *. auto.
Qed.

(** The bytes of the elements computed before block (row, col), blocks being
    visited column by column: [V i j] is the value of element (i, j). *)
Section Done.
  Variables (es : nat) (V : Z -> Z -> Z) (rows cols sr sc er : Z).
  Definition ent (i j : Z) (e : Z * Z) : Prop :=
    exists q v, rd (le_split es (V i j)) q = Some v /\ e = (Z.of_nat es * (j * rows + i) + q, v).
  Definition done (row col : Z) (e : Z * Z) : Prop :=
    exists i j, (sc <= j < col /\ sr <= i < er \/ col <= j < col + 4 /\ sr <= i < row) /\ sc <= j /\ i < rows /\ j < cols /\ ent i j e.
  Lemma done_wrap col e : sc <= col -> done er col e <-> done sr (col + 4) e.
  Proof.
    intros Hc. split; intros (i & j & H & H0 & H1 & H2 & H3); exists i, j; (split; [|auto]); lia.
  Qed.
  Lemma done_first e : ~ done sr sc e.
  Proof. intros (i & j & H & _). lia. Qed.
End Done.
Lemma done_step t V rows cols sr sc er row col e rb : 1 <= rb -> sr <= row < rows -> sc <= col < cols -> row + rb <= er ->
  done (esize t) V rows cols sr sc er (row + rb) col e <->
  done (esize t) V rows cols sr sc er row col e \/
  blkD t (Z.of_nat (esize t) * (col * rows + row)) (Z.of_nat (esize t) * rows) (fun i j => V (row + i) (col + j))
    (Z.min (rows - row) rb) (Z.min (cols - col) 4) e.
Proof.
  intros Hb Hr Hc He. split.
  - intros (i & j & H & H0 & H1 & H2 & H3).
    assert ((col <= j < col + 4 /\ row <= i < row + rb) \/ (sc <= j < col /\ sr <= i < er \/ col <= j < col + 4 /\ sr <= i < row)) as [B | B] by lia.
    + right. destruct H3 as (q & v & Hq & ->). exists (i - row), (j - col), q, v.
      split; [lia|]. split; [lia|]. split; [replace (row + (i - row)) with i by ring; replace (col + (j - col)) with j by ring; exact Hq|].
      f_equal. ring.
    + left. exists i, j. auto.
  - intros [(i & j & H & H0 & H1 & H2 & H3) | (i & j & q & v & Hi & Hj & Hq & ->)].
    + exists i, j. split; [lia|auto].
    + exists (row + i), (col + j). split; [lia|]. split; [lia|]. split; [lia|]. split; [lia|]. exists q, v. split; [exact Hq|]. f_equal. ring.
Qed.

Definition o_top := length k44_init.
Definition o_adv (ms : bool) := (o_top + 1 + length (k44_accum ms))%nat.
Definition o_load ms := (o_adv ms + 10)%nat.
Definition o_tr ms := (o_load ms + length k44_load)%nat.
Definition o_fit ms t := (o_tr ms + length (k44_transform t))%nat.
Definition o_wr ms t := (o_fit ms t + length k44_fit)%nat.
Definition o_next ms t := (o_wr ms t + length (k44_write t))%nat.
Definition o_end ms t := (o_next ms t + 13)%nat.
Section Code.
  Variables (ms : bool) (t : dtype).
  Hypothesis Ht : is_bits t = false.
  Lemma adv_code : code_at (k44 ms t) (o_adv ms) (k_advance 2).
  Proof. destruct t, ms; reflexivity || discriminate. Qed.
  Lemma adv_f4 : find 4 (k44 ms t) 0 = Some ((o_adv ms) + 4)%nat. Proof. destruct t, ms; reflexivity || discriminate. Qed.
  Lemma adv_f5 : find 5 (k44 ms t) 0 = Some ((o_adv ms) + 9)%nat. Proof. destruct t, ms; reflexivity || discriminate. Qed.
  Lemma mid_code : code_at (k44 ms t) (o_load ms) (k44_load ++ k44_transform t ++ k44_fit).
  Proof. destruct t, ms; reflexivity || discriminate. Qed.
  Lemma wr_code : code_at (k44 ms t) (o_wr ms t) (k44_write t). Proof. destruct t, ms; reflexivity || discriminate. Qed.
  Lemma wr_find : find 30 (k44 ms t) 0 = Some ((o_wr ms t) + 4)%nat /\ find 31 (k44 ms t) 0 = Some ((o_wr ms t) + 7)%nat /\
    find 50 (k44 ms t) 0 = Some ((o_wr ms t) + 8 + length (k44_store t) + 1 + 3)%nat /\ find 51 (k44 ms t) 0 = Some ((o_wr ms t) + 8 + length (k44_store t) + 1 + 5)%nat /\
    find 41 (k44 ms t) 0 = Some ((o_wr ms t) + 8 + length (k44_store t) + 1 + 16)%nat.
  Proof. destruct t, ms; (discriminate || (split; [reflexivity|split; [reflexivity|split; [reflexivity|split; reflexivity]]])). Qed.
  Lemma next_code : code_at (k44 ms t) (o_next ms t) k44_next. Proof. destruct t, ms; reflexivity || discriminate. Qed.
  Lemma next_find : find 20 (k44 ms t) 0 = Some ((o_next ms t) + 4)%nat /\ find 21 (k44 ms t) 0 = Some ((o_next ms t) + 9)%nat /\ find 1 (k44 ms t) 0 = Some o_top.
  Proof. destruct t, ms; (discriminate || (split; [reflexivity|split; reflexivity])). Qed.
  Lemma mid_straight : straight (k44_load ++ k44_transform t ++ k44_fit) = true.
  Proof. destruct t; reflexivity || discriminate. Qed.
End Code.

Section Main.
  Variables (ops : nops) (E : env) (t : dtype) (o : otparams) (L R : list Z) (ls rs G rows cols sr sc er ec : Z) (ms : bool).
  Hypothesis (Hops : nops_ok ops) (Ht : is_bits t = false).
  Hypothesis (EL : e_lhs E = L) (ER : e_rhs E = R) (EM : e_mul E = p_mul o) (EB : e_bias E = p_bias o).
  Hypothesis (P64 : e_par E 64 = Some (Int (p_cmin o))) (P68 : e_par E 68 = Some (Int (p_cmax o)))
    (P72 : e_par E 72 = Some (Ptr RMul 0)) (P80 : e_par E 80 = Some (Ptr RBias 0)).
  Hypothesis (P0 : e_par E 0 = Some (Ptr RLhs (4 * (sr * ls)))) (P24 : e_par E 24 = Some (Int sr))
    (P32 : e_par E 32 = Some (Int (er - 4))) (P36 : e_par E 36 = Some (Int (ec - 4)))
    (P48 : e_par E 48 = Some (Int (4 * ls))) (P52 : e_par E 52 = Some (Int (4 * rs)))
    (P56 : e_par E 56 = Some (Int (Z.of_nat (esize t) * rows))) (P60 : e_par E 60 = Some (Int (4 * G))).
  Hypothesis (Hmin : int32 (p_cmin o)) (Hmax : int32 (p_cmax o)) (Hmul : Forall pat (p_mul o)) (Hbias : Forall pat (p_bias o)).
  Hypothesis (HG : 1 <= G) (HG2 : 128 * G < 2 ^ 30).
  Hypothesis (Hsr : 0 <= sr < er) (Hsc : 0 <= sc < ec) (Msr : sr mod 4 = 0) (Msc : sc mod 4 = 0) (Mer : er mod 4 = 0) (Mec : ec mod 4 = 0).
  Hypothesis (Her : er < rows + 4) (Hec : ec < cols + 4) (Hrows : rows < 2 ^ 31 - 8) (Hcols : cols < 2 ^ 31 - 8).
  Hypothesis (Hls : 4 * G <= ls) (Hrs : 4 * G <= rs) (HlsB : 4 * ls < 2 ^ 32) (HrsB : 4 * rs < 2 ^ 32) (HstB : Z.of_nat (esize t) * rows < 2 ^ 32).
  Hypothesis (HL : er * ls <= zlen L) (HR : ec * rs <= zlen R) (HM : er <= zlen (p_mul o)) (HB : er <= zlen (p_bias o)).

  Variable Q : st -> Prop.
  (** Accumulation of one block, from the label to the end of the depth loop. *)
  Definition acc_spec : Prop := forall bl br f g fl tm lg, 0 <= bl -> 0 <= br -> bl + 16 * G <= zlen L -> br + 16 * G <= zlen R ->
    lregs L bl f 0 0 -> rregs R br f 4 0 -> ptrs bl br g 1 -> g (Xr 1) = Int 4 -> g (Xr 12) = Int (4 * G) -> zeroed f ->
    (forall f' g' fl', aregs L R bl br f' G G G G -> same_x [Xr 1; Xr 2; LHS; RHS] g' g -> ends ops E (k44 ms t) Q (o_adv ms) (mk f' g' fl' tm lg)) ->
    ends ops E (k44 ms t) Q o_top (mk f g fl tm lg).
  Hypothesis Hacc : acc_spec.

  Record consts (g : xreg -> val) : Prop := {
    c5 : g (Xr 5) = Ptr RLhs (4 * (sr * ls)); c6 : g (Xr 6) = Int sr; c7 : g (Xr 7) = Int (er - 4); c8 : g (Xr 8) = Int (ec - 4);
    c9 : g (Xr 9) = Int (4 * ls); c10 : g (Xr 10) = Int (4 * rs); c11 : g (Xr 11) = Int (Z.of_nat (esize t) * rows);
    c12 : g (Xr 12) = Int (4 * G); cR : g DST_ROWS = Int rows; cC : g DST_COLS = Int cols; cT : g TMPBUF = Ptr RTmp 0 }.
  Definition vary : list xreg := [Xr 1; Xr 2; Xr 3; Xr 4; Xr 13; Xr 14; Xr 15; LHS; RHS; LHS_COL; RHS_COL; DST; DST_COL; ROW; COL].
  Lemma consts_same g g' : consts g -> same_x vary g' g -> consts g'.
  Proof. intros [] H. constructor; rewrite H by reflexivity; assumption. Qed.
  Record inv44 (row col : Z) (f : nat -> list Z) (g : xreg -> val) (tm : list Z) (lg : list (Z * Z)) : Prop := {
    i_c : consts g; i_row : g ROW = Int row; i_col : g COL = Int col;
    i_lc : g LHS_COL = Ptr RLhs (4 * (row * ls)); i_rc : g RHS_COL = Ptr RRhs (4 * (col * rs));
    i_d : g DST = Ptr RDst (Z.of_nat (esize t) * (col * rows + row)); i_dc : g DST_COL = Ptr RDst (Z.of_nat (esize t) * (col * rows + sr));
    i_p : ptrs (row * ls) (col * rs) g 1; i_1 : g (Xr 1) = Int 4;
    i_l : lregs L (row * ls) f 0 0; i_r : rregs R (col * rs) f 4 0; i_z : zeroed f; i_tm : 16 * Z.of_nat (esize t) <= zlen tm;
    i_lg : forall e, In e lg <-> done (esize t) (V44 ops t o L R ls rs G) rows cols sr sc er row col e }.


  Lemma lb_ok a s l k n : 0 <= a -> a + 4 <= k -> 4 * G <= s -> k * s <= n -> l = a * s -> 0 <= l /\ l + 16 * G <= n /\ l + 16 <= n.
  Proof using HG. clear - HG. intros. subst l. nia. Qed.
  (** One block. *)
  Lemma ends_block row col f g fl tm lg : sr <= row -> row + 4 <= er -> row mod 4 = 0 -> sc <= col -> col + 4 <= ec -> col mod 4 = 0 ->
    inv44 row col f g tm lg ->
    (row + 4 < er -> forall f' g' fl' tm' lg', inv44 (row + 4) col f' g' tm' lg' -> ends ops E (k44 ms t) Q o_top (mk f' g' fl' tm' lg')) ->
    (row + 4 = er -> col + 4 < ec -> forall f' g' fl' tm' lg', inv44 sr (col + 4) f' g' tm' lg' -> ends ops E (k44 ms t) Q o_top (mk f' g' fl' tm' lg')) ->
    (row + 4 = er -> col + 4 = ec -> forall f' g' fl' tm' lg', (forall e, In e lg' <-> done (esize t) (V44 ops t o L R ls rs G) rows cols sr sc er sr (col + 4) e) ->
       ends ops E (k44 ms t) Q (o_end ms t) (mk f' g' fl' tm' lg')) ->
    ends ops E (k44 ms t) Q o_top (mk f g fl tm lg).
  Proof.
    intros Hr1 Hr2 Hr3 Hc1 Hc2 Hc3 [IC IR ICl ILc IRc Id Idc Ip I1 Il Ir Iz Itm Ilg] K1 K2 K3.
    destruct (lb_ok row ls _ er _ ltac:(lia) Hr2 Hls HL eq_refl) as (La & Lb & Lc).
    destruct (lb_ok col rs _ ec _ ltac:(lia) Hc2 Hrs HR eq_refl) as (Ra & Rb & Rc).
    apply (Hacc (row * ls) (col * rs)); try assumption; [exact (c12 _ IC)|]. intros f1 g1 fl1 A1 S1.
    set (nl := if row <? er - 4 then (row + 4) * ls else sr * ls).
    set (nr := if row <? er - 4 then col * rs else if col <? ec - 4 then (col + 4) * rs else col * rs).
    assert (IC1 : consts g1) by (eapply consts_same; [exact IC|eapply same_x_incl; [|exact S1]; reflexivity]).
    eapply (ends_advance _ _ _ _ _ 2 (adv_code ms t Ht) (adv_f4 ms t Ht) (adv_f5 ms t Ht) _ _ _ _ _ row col (er - 4) (ec - 4) (4 * (row * ls)) (4 * (col * rs)) (4 * (sr * ls)) (4 * ls) (4 * rs)).
    { rewrite S1 by reflexivity. exact IR. }
    { rewrite S1 by reflexivity. exact ICl. }
    { exact (c7 _ IC1). }
    { exact (c8 _ IC1). }
    { rewrite S1 by reflexivity. exact ILc. }
    { rewrite S1 by reflexivity. exact IRc. }
    { exact (c5 _ IC1). }
    { exact (c9 _ IC1). }
    { exact (c10 _ IC1). }
    1-4: lia.
    intros g2 fl2 GL2 GR2 S2. change (o_adv ms + 10)%nat with (o_load ms).
    assert (IC2 : consts g2) by (eapply consts_same; [exact IC1|eapply same_x_incl; [|exact S2]; reflexivity]).
    assert (NL : 0 <= nl /\ nl + 16 <= zlen L).
    { unfold nl. destruct (Z.ltb_spec row (er - 4)).
      - destruct (lb_ok (row + 4) ls _ er _ ltac:(lia) ltac:(lia) Hls HL eq_refl). lia.
      - destruct (lb_ok sr ls _ er _ ltac:(lia) ltac:(lia) Hls HL eq_refl). lia. }
    assert (NR : 0 <= nr /\ nr + 16 <= zlen R).
    { unfold nr. destruct (row <? er - 4); [lia|]. destruct (Z.ltb_spec col (ec - 4)); [|lia].
      destruct (lb_ok (col + 4) rs _ ec _ ltac:(lia) ltac:(lia) Hrs HR eq_refl). lia. }
    eapply ends_exec; [exact (mid_code ms t Ht)|exact (mid_straight t Ht)|].
    apply wp_exec_app. eapply (wp_load _ _ o L R EL ER EM EB P72 P80 f1 g2 fl2 tm lg row nl nr).
    { rewrite GL2. unfold nl. f_equal. change (2 ^ 2) with 4. destruct (row <? er - 4); ring. }
    { rewrite GR2. unfold nr. f_equal. change (2 ^ 2) with 4. destruct (row <? er - 4); [ring|]. destruct (col <? ec - 4); ring. }
    { rewrite S2, S1 by reflexivity. exact IR. }
    1-7: lia.
    intros f3 g3 B1 B2 B3 B14 B15 Bq S3.
    assert (IC3 : consts g3) by (eapply consts_same; [exact IC2|eapply same_x_incl; [|exact S3]; reflexivity]).
    apply wp_exec_app. eapply (wp_transform _ _ t o L R ls rs G Hops Ht P64 P68 Hmin Hmax Hmul Hbias HG HG2 f3 g3 fl2 tm lg row col); [exact Hr3|exact Hc3| |exact B14|exact B15|].
    { destruct A1 as (A24 & A25 & A26 & A27). unfold aregs. rewrite !Bq by lia. auto. }
    intros f4 g4 D1 D2 S4.
    assert (IC4 : consts g4) by (eapply consts_same; [exact IC3|eapply same_x_incl; [|exact S4]; reflexivity]).
    eapply (wp_fit _ _ (fun _ _ => 0) f4 g4 fl2 tm lg rows cols row col); [exact (cR _ IC4)|exact (cC _ IC4)| | |lia|lia|lia|lia|].
    { rewrite S4, S3, S2, S1 by reflexivity. exact IR. }
    { rewrite S4, S3, S2, S1 by reflexivity. exact ICl. }
    intros g5 fl5 G51 G52 S5 Hfl5.
    assert (IC5 : consts g5) by (eapply consts_same; [exact IC4|eapply same_x_incl; [|exact S5]; reflexivity]).
    replace (o_load ms + length (k44_load ++ k44_transform t ++ k44_fit))%nat with (o_wr ms t).
    2:{ unfold o_wr, o_fit, o_tr. rewrite !app_length. lia. }
    destruct (wr_find ms t Ht) as (W30 & W31 & W50 & W51 & W41).
    eapply (ends_write _ _ t _ _ _ Ht (wr_code ms t Ht) W30 W31 W50 W51 W41 (fun i j => V44 ops t o L R ls rs G (row + i) (col + j))
              (Z.min (rows - row) 4) (Z.min (cols - col) 4) (Z.of_nat (esize t) * (col * rows + row)) (Z.of_nat (esize t) * rows)); [lia|lia| |exact (cT _ IC5)| |exact (c11 _ IC5)|exact G51|exact G52|exact Hfl5|exact Itm|].
    { intros j Hj. rewrite D1 by exact Hj. unfold outs, colv. rewrite Z.add_0_r. reflexivity. }
    { rewrite S5, S4, S3, S2, S1 by reflexivity. exact Id. }
    intros f6 g6 fl6 tm6 lg6 Z6 F6 D6 S6 T6 L6.
    assert (IC6 : consts g6) by (eapply consts_same; [exact IC5|eapply same_x_incl; [|exact S6]; reflexivity]).
    assert (L6' : forall e, In e lg6 <-> done (esize t) (V44 ops t o L R ls rs G) rows cols sr sc er (row + 4) col e).
    { intros e. rewrite L6, Ilg. symmetry. apply done_step; lia. }
    assert (Bl : lregs L nl f6 0 0).
    { destruct B1 as (b0 & b1 & b2 & b3). unfold lregs. cbn [Nat.add] in *. rewrite !F6, !D2 by lia. auto. }
    assert (Br : rregs R nr f6 4 0).
    { destruct B2 as (b0 & b1 & b2 & b3). unfold rregs. cbn [Nat.add] in *. rewrite !F6, !D2 by lia. auto. }
    assert (Bp : ptrs nl nr g6 1).
    { destruct B3 as (b0 & b1). unfold ptrs. rewrite !S6, !S5, !S4 by reflexivity. auto. }
    destruct (next_find ms t Ht) as (N20 & N21 & N1).
    change (o_wr ms t + length (k44_write t))%nat with (o_next ms t).
    eapply (ends_next _ _ _ _ _ (next_code ms t Ht) N20 N21 _ N1 _ _ _ _ _ row col sr (er - 4) (ec - 4) (Z.of_nat (esize t) * (col * rows + row) + 4 * Z.of_nat (esize t))
              (Z.of_nat (esize t) * (col * rows + sr)) (Z.of_nat (esize t) * rows)).
    { rewrite S6, S5, S4, S3, S2, S1 by reflexivity. exact IR. }
    { rewrite S6, S5, S4, S3, S2, S1 by reflexivity. exact ICl. }
    { exact (c6 _ IC6). }
    { exact (c7 _ IC6). }
    { exact (c8 _ IC6). }
    { exact (c11 _ IC6). }
    { exact D6. }
    { rewrite S6, S5, S4, S3, S2, S1 by reflexivity. exact Idc. }
    1-5: lia.
    - (* next row block *)
      intros Hne g7 fl7 R7 X7 S7. destruct (Z.leb_spec col (ec - 4)) as [_|]; [|lia].
      assert (T1 : (row <? er - 4) = true) by (apply Z.ltb_lt; Z.to_euclidean_division_equations; lia).
      unfold nl, nr in *. rewrite T1 in *.
      apply K1; [apply Z.ltb_lt in T1; lia|]. constructor.
      + eapply consts_same; [exact IC6|eapply same_x_incl; [|exact S7]; reflexivity].
      + exact R7.
      + rewrite S7, S6, S5, S4, S3, S2, S1 by reflexivity. exact ICl.
      + rewrite S7, S6, S5, S4, S3 by reflexivity. rewrite GL2. f_equal. change (2 ^ 2) with 4. ring.
      + rewrite S7, S6, S5, S4, S3 by reflexivity. exact GR2.
      + rewrite S7 by reflexivity. rewrite D6. f_equal. ring.
      + rewrite S7, S6, S5, S4, S3, S2, S1 by reflexivity. exact Idc.
      + destruct Bp as [b0 b1]. unfold ptrs. rewrite !S7 by reflexivity. auto.
      + exact X7.
      + exact Bl.
      + exact Br.
      + exact Z6.
      + lia.
      + exact L6'.
    - intros He g7 fl7 R7 C7 X7 DC7 D7 S7.
      assert (T1 : (row <? er - 4) = false) by (apply Z.ltb_ge; lia).
      assert (L7 : forall e, In e lg6 <-> done (esize t) (V44 ops t o L R ls rs G) rows cols sr sc er sr (col + 4) e).
      { intros e. rewrite L6'. replace (row + 4) with er by lia. apply done_wrap. lia. }
      destruct (Z.leb_spec (col + 4) (ec - 4)) as [Hcc|Hcc].
      + assert (T2 : (col <? ec - 4) = true) by (apply Z.ltb_lt; lia). unfold nl, nr in *. rewrite T1, T2 in *.
        apply K2; [lia|lia|]. constructor.
        * eapply consts_same; [exact IC6|eapply same_x_incl; [|exact S7]; reflexivity].
        * exact R7.
        * exact C7.
        * rewrite S7, S6, S5, S4, S3 by reflexivity. exact GL2.
        * rewrite S7, S6, S5, S4, S3 by reflexivity. rewrite GR2. f_equal. change (2 ^ 2) with 4. ring.
        * rewrite D7. f_equal. ring.
        * rewrite DC7. f_equal. ring.
        * destruct Bp as [b0 b1]. unfold ptrs. rewrite !S7 by reflexivity. auto.
        * exact X7.
        * exact Bl.
        * exact Br.
        * exact Z6.
        * lia.
        * exact L7.
      + change (o_next ms t + 13)%nat with (o_end ms t). apply K3; [lia| |exact L7].
        Z.to_euclidean_division_equations; lia.
  Qed.
  Lemma ends_blocks m : forall row col f g fl tm lg, (ec - col) * (er - sr) + (er - row) <= Z.of_nat m ->
    sr <= row -> row + 4 <= er -> row mod 4 = 0 -> sc <= col -> col + 4 <= ec -> col mod 4 = 0 -> inv44 row col f g tm lg ->
    (forall f' g' fl' tm' lg', (forall e, In e lg' <-> done (esize t) (V44 ops t o L R ls rs G) rows cols sr sc er sr ec e) ->
       ends ops E (k44 ms t) Q (o_end ms t) (mk f' g' fl' tm' lg')) ->
    ends ops E (k44 ms t) Q o_top (mk f g fl tm lg).
  Proof.
    induction m as [|m IH]; intros row col f g fl tm lg Hm Hr1 Hr2 Hr3 Hc1 Hc2 Hc3 HI HE.
    - exfalso. clear - Hm Hr1 Hr2 Hc2 Hsr. nia.
    - eapply (ends_block row col); try assumption.
      + intros Hlt f' g' fl' tm' lg' HI'. apply (IH (row + 4) col); try assumption; Z.to_euclidean_division_equations; lia.
      + intros He Hlt f' g' fl' tm' lg' HI'. apply (IH sr (col + 4)); try assumption; try (Z.to_euclidean_division_equations; lia).
      + intros He Hc f' g' fl' tm' lg' Hlg. apply HE. rewrite <- Hc. exact Hlg.
  Qed.
End Main.
