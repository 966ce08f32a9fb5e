(** * A32Kernel: what one call of the 32-bit Arm kernel stores. *)
From Verif Require Import Base Spec Bits Log Bgemm A64 A64Bgemm A64Lemmas A64K44 A64Store A64Trans A64Seg A64Block44 A64Write44 A64Main44 A64Loop44 A64Kernel44
  A32 A32Acc A32Store A32Block A32Main.
Open Scope Z_scope.

Definition q_acc := 22%nat. Definition q_adv := (q_acc + 141)%nat. Definition q_load := (q_adv + 21)%nat.
Definition q_wr t := (q_load + length (k32_load ++ k32_transform t ++ k32_fit))%nat.
Definition q_next t := (q_wr t + 41)%nat. Definition q_end t := (q_next t + 25)%nat.
Section Code.
  Variables (t : dtype).
  Hypothesis Ht : is_bits t = false.
  Ltac dt := destruct t; [reflexivity|reflexivity|discriminate].
  Lemma init_code32 : code_at (k32 t) 0 k32_init. Proof. dt. Qed.
  Lemma top_code32 : code_at (k32 t) 21 [LBL 1]. Proof. dt. Qed.
  Lemma acc_code32 : code_at (k32 t) q_acc k32_accum. Proof. dt. Qed.
  Lemma acc_find32 : find 2 (k32 t) 0 = Some (q_acc + 67)%nat /\ find 79 (k32 t) 0 = Some (q_acc + 140)%nat. Proof. split; dt. Qed.
  Lemma adv_code32 : code_at (k32 t) q_adv k32_advance. Proof. dt. Qed.
  Lemma adv_find32 : find 4 (k32 t) 0 = Some (q_adv + 9)%nat /\ find 5 (k32 t) 0 = Some (q_adv + 20)%nat. Proof. split; dt. Qed.
  Lemma mid_code32 : code_at (k32 t) q_load (k32_load ++ k32_transform t ++ k32_fit). Proof. dt. Qed.
  Lemma mid_straight32 : straight (k32_load ++ k32_transform t ++ k32_fit) = true. Proof. dt. Qed.
  Lemma wr_code32 : code_at (k32 t) (q_wr t) (k32_write t). Proof. dt. Qed.
  Lemma wr_find32 : find 30 (k32 t) 0 = Some (q_wr t + 4)%nat /\ find 31 (k32 t) 0 = Some (q_wr t + 7)%nat /\
    find 50 (k32 t) 0 = Some (q_wr t + 24)%nat /\ find 51 (k32 t) 0 = Some (q_wr t + 26)%nat /\ find 41 (k32 t) 0 = Some (q_wr t + 37)%nat.
  Proof. split; [dt|split; [dt|split; [dt|split; dt]]]. Qed.
  Lemma next_code32 : code_at (k32 t) (q_next t) k32_next. Proof. dt. Qed.
  Lemma next_find32 : find 20 (k32 t) 0 = Some (q_next t + 9)%nat /\ find 21 (k32 t) 0 = Some (q_next t + 19)%nat /\ find 1 (k32 t) 0 = Some 21%nat.
  Proof. split; [dt|split; dt]. Qed.
  Lemma end_code32 : nth_error (k32 t) (q_end t) = None. Proof. dt. Qed.
End Code.

Section Main.
  Variables (ops : nops) (E : env) (t : dtype) (o : otparams) (L R : list Z) (ls rs G rows cols sr sc er ec : Z).
  Hypothesis (Hops : nops_ok ops) (Ht : is_bits t = false).
  Hypothesis (EL : e_lhs E = L) (ER : e_rhs E = R) (EM : e_mul E = p_mul o) (EB : e_bias E = p_bias o).
  Hypothesis (EP : forall off, e_par E off = par_fields32 t ls rs (4 * G) rows cols sr sc er ec o off).
  Hypothesis (K : call_ok 4 t o L R ls rs G rows cols sr sc er ec) (T : tr_ok o er) (HG2 : 128 * G < 2 ^ 30).
  Variable Q : st -> Prop.
  Let V := V44 (a32 ops) t o L R ls rs G.
  Definition vary32 : list xreg := [Xr 1; Xr 2; Xr 3; Xr 4; Xr 5; Xr 6; Xr 8; Xr 10; LHS; RHS; LHS_COL; RHS_COL; DST; DST_COL; ROW; COL].
  Record inv32 (row col : Z) (f : nat -> list Z) (g : xreg -> val) (tm : list Z) (lg : list (Z * Z)) : Prop := {
    j_t : g TMPBUF = Ptr RTmp 0; j_row : g ROW = Int row; j_col : g COL = Int col;
    j_lc : g LHS_COL = Ptr RLhs (4 * (row * ls)); j_rc : g RHS_COL = Ptr RRhs (4 * (col * rs));
    j_d : g DST = Ptr RDst (Z.of_nat (esize t) * (col * rows + row)); j_dc : g DST_COL = Ptr RDst (Z.of_nat (esize t) * (col * rows + sr));
    j_p : ptrs (row * ls) (col * rs) g 1; j_1 : g (Xr 1) = Int 4;
    j_l : lregs L (row * ls) f 0 0; j_r : rregs R (col * rs) f 4 0; j_z : zeroed32 f; j_tm : 16 * Z.of_nat (esize t) <= zlen tm;
    j_lg : forall e, In e lg <-> done (esize t) V rows cols sr sc er row col e }.
  (** One block. *)
  Lemma ends_block32 row col f g fl tm lg : sr <= row -> row + 4 <= er -> row mod 4 = 0 -> sc <= col -> col + 4 <= ec -> col mod 4 = 0 ->
    inv32 row col f g tm lg ->
    (row + 4 < er -> forall f' g' fl' tm' lg', inv32 (row + 4) col f' g' tm' lg' -> ends ops E (k32 t) Q 21 (mk f' g' fl' tm' lg')) ->
    (row + 4 = er -> col + 4 < ec -> forall f' g' fl' tm' lg', inv32 sr (col + 4) f' g' tm' lg' -> ends ops E (k32 t) Q 21 (mk f' g' fl' tm' lg')) ->
    (row + 4 = er -> col + 4 = ec -> forall f' g' fl' tm' lg', (forall e, In e lg' <-> done (esize t) V rows cols sr sc er sr (col + 4) e) ->
       ends ops E (k32 t) Q (q_end t) (mk f' g' fl' tm' lg')) ->
    ends ops E (k32 t) Q 21 (mk f g fl tm lg).
  Proof.
    intros Hr1 Hr2 Hr3 Hc1 Hc2 Hc3 [IT IR ICl ILc IRc Id Idc Ip I1 Il Ir Iz Itm Ilg] K1 K2 K3.
    destruct K as [HG Hsr Hsc Msr Mer Msc Mec Her Hec Hrows Hcols Hls Hrs HlsB HrsB HstB HL HR].
    destruct T as [Hmin Hmax Hmul Hbias HM HB].
    assert (Hes : 0 <= Z.of_nat (esize t) * rows) by (clear - Her Hr1 Hr2 Hsr; nia).
    assert (P0 : e_par E 0 = Some (Ptr RLhs (4 * (sr * ls)))) by (rewrite EP; reflexivity).
    assert (P12 : e_par E 12 = Some (Int sr)) by (rewrite EP; reflexivity).
    assert (P20 : e_par E 20 = Some (Int (er - 4))) by (rewrite EP; reflexivity).
    assert (P24 : e_par E 24 = Some (Int (ec - 4))) by (rewrite EP; reflexivity).
    assert (P28 : e_par E 28 = Some (Int rows)) by (rewrite EP; reflexivity).
    assert (P32 : e_par E 32 = Some (Int cols)) by (rewrite EP; reflexivity).
    assert (P36 : e_par E 36 = Some (Int (4 * ls))) by (rewrite EP; reflexivity).
    assert (P40 : e_par E 40 = Some (Int (4 * rs))) by (rewrite EP; reflexivity).
    assert (P44 : e_par E 44 = Some (Int (Z.of_nat (esize t) * rows))) by (rewrite EP; reflexivity).
    assert (P48 : e_par E 48 = Some (Int (4 * G))) by (rewrite EP; reflexivity).
    assert (P52 : e_par E 52 = Some (Int (p_cmin o))) by (rewrite EP; reflexivity).
    assert (P56 : e_par E 56 = Some (Int (p_cmax o))) by (rewrite EP; reflexivity).
    assert (P60 : e_par E 60 = Some (Ptr RMul 0)) by (rewrite EP; reflexivity).
    assert (P64 : e_par E 64 = Some (Ptr RBias 0)) by (rewrite EP; reflexivity).
    destruct (lb_ok G HG row ls _ er _ ltac:(lia) Hr2 Hls HL eq_refl) as (La & Lb & Lc).
    destruct (lb_ok G HG col rs _ ec _ ltac:(lia) Hc2 Hrs HR eq_refl) as (Ra & Rb & Rc).
    eapply ends_exec; [exact (top_code32 t Ht)|reflexivity|]. apply wp_exec_cons, wp_lbl. cbn [exec wp]. change (21 + length [LBL 1])%nat with q_acc.
    destruct (acc_find32 t Ht) as [A2 A79].
    eapply (ends_accum32 ops E L R (row * ls) (col * rs) G EL ER P48 La Ra HG ltac:(lia) Lb Rb (k32 t) Q q_acc g tm lg (acc_code32 t Ht) A2 A79); try assumption.
    intros f1 g1 fl1 A1 S1. change (q_acc + length k32_accum)%nat with q_adv.
    set (nl := if row <? er - 4 then (row + 4) * ls else sr * ls).
    set (nr := if row <? er - 4 then col * rs else if col <? ec - 4 then (col + 4) * rs else col * rs).
    destruct (adv_find32 t Ht) as [D4 D5].
    eapply (ends_advance32 _ _ _ _ _ (adv_code32 t Ht) D4 D5 _ _ _ _ _ row col (er - 4) (ec - 4) (4 * (row * ls)) (4 * (col * rs)) (4 * (sr * ls)) (4 * ls) (4 * rs) P20 P24 P0 P36 P40).
    { rewrite S1 by reflexivity. exact IR. }
    { rewrite S1 by reflexivity. exact ICl. }
    { rewrite S1 by reflexivity. exact ILc. }
    { rewrite S1 by reflexivity. exact IRc. }
    1-6: lia.
    intros g2 fl2 GL2 GR2 S2. change (q_adv + 21)%nat with q_load.
    assert (NL : 0 <= nl /\ nl + 16 <= zlen L).
    { unfold nl. destruct (Z.ltb_spec row (er - 4)).
      - destruct (lb_ok G HG (row + 4) ls _ er _ ltac:(lia) ltac:(lia) Hls HL eq_refl). lia.
      - destruct (lb_ok G HG sr ls _ er _ ltac:(lia) ltac:(lia) Hls HL eq_refl). lia. }
    assert (NR : 0 <= nr /\ nr + 16 <= zlen R).
    { unfold nr. destruct (row <? er - 4); [lia|]. destruct (Z.ltb_spec col (ec - 4)); [|lia].
      destruct (lb_ok G HG (col + 4) rs _ ec _ ltac:(lia) ltac:(lia) Hrs HR eq_refl). lia. }
    eapply ends_exec; [exact (mid_code32 t Ht)|exact (mid_straight32 t Ht)|].
    apply wp_exec_app. eapply (wp_load32 _ _ o L R EL ER EM EB P60 P64 f1 g2 fl2 tm lg row nl nr).
    { rewrite GL2. unfold nl. f_equal. change (2 ^ 2) with 4. destruct (row <? er - 4); ring. }
    { rewrite GR2. unfold nr. f_equal. change (2 ^ 2) with 4. destruct (row <? er - 4); [ring|]. destruct (col <? ec - 4); ring. }
    { rewrite S2, S1 by reflexivity. exact IR. }
    1-7: lia.
    intros f3 g3 B1 B2 B3 B14 B15 Bq S3.
    apply wp_exec_app. eapply (wp_transform32 _ _ t o L R ls rs G Hops Ht P52 P56 Hmin Hmax Hmul Hbias HG HG2 f3 g3 fl2 tm lg row col); [exact Hr3|exact Hc3| |exact B14|exact B15|].
    { destruct A1 as (A24 & A25 & A26 & A27). unfold aregs32. rewrite !Bq by (clear; lia). auto. }
    intros f4 g4 D1 D2 S4.
    eapply (wp_fit32 _ _ (fun _ _ => 0) f4 g4 fl2 tm lg rows cols row col _ P28 P32); [| |lia|lia|lia|lia|].
    { rewrite S4, S3, S2, S1 by reflexivity. exact IR. }
    { rewrite S4, S3, S2, S1 by reflexivity. exact ICl. }
    intros g5 fl5 G51 G52 S5 Hfl5.
    change (q_load + length (k32_load ++ k32_transform t ++ k32_fit))%nat with (q_wr t).
    destruct (wr_find32 t Ht) as (W30 & W31 & W50 & W51 & W41).
    assert (S05 : same_x vary32 g5 g).
    { repeat first [eapply same_x_trans; [eapply same_x_incl; [|eassumption]; reflexivity|]|apply same_x_refl]. }
    eapply (ends_write32 _ _ t _ _ _ Ht (wr_code32 t Ht) W30 W31 W50 W51 W41 (fun i j => V (row + i) (col + j))
              (Z.min (rows - row) 4) (Z.min (cols - col) 4) (Z.of_nat (esize t) * (col * rows + row)) (Z.of_nat (esize t) * rows)); [lia|lia|exact P44|lia| | | |exact G51|exact G52|exact Hfl5|exact Itm|].
    { intros j Hj. rewrite D1 by exact Hj. unfold outs, colv. fold V. rewrite Z.add_0_r. reflexivity. }
    { rewrite S05 by reflexivity. exact IT. }
    { rewrite S5, S4, S3, S2, S1 by reflexivity. exact Id. }
    intros f6 g6 fl6 tm6 lg6 Z6 F6 D6 S6 T6 L6.
    assert (L6' : forall e, In e lg6 <-> done (esize t) V rows cols sr sc er (row + 4) col e).
    { intros e. rewrite L6, Ilg. symmetry. apply done_step; lia. }
    assert (Bl : lregs L nl f6 0 0).
    { destruct B1 as (b0 & b1 & b2 & b3). unfold lregs. cbn [Nat.add] in *. rewrite !F6, !D2 by (clear; lia). auto. }
    assert (Br : rregs R nr f6 4 0).
    { destruct B2 as (b0 & b1 & b2 & b3). unfold rregs. cbn [Nat.add] in *. rewrite !F6, !D2 by (clear; lia). auto. }
    assert (Bp : ptrs nl nr g6 1).
    { destruct B3 as (b0 & b1). unfold ptrs. rewrite !S6, !S5, !S4 by reflexivity. auto. }
    destruct (next_find32 t Ht) as (N20 & N21 & N1).
    change (q_wr t + length (k32_write t))%nat with (q_next t).
    eapply (ends_next32 _ _ _ _ _ (next_code32 t Ht) N20 N21 _ N1 _ _ _ _ _ row col sr (er - 4) (ec - 4) (Z.of_nat (esize t) * (col * rows + row) + 4 * Z.of_nat (esize t))
              (Z.of_nat (esize t) * (col * rows + sr)) (Z.of_nat (esize t) * rows) _ P0 P12 P20 P24 P44).
    { rewrite S6, S5, S4, S3, S2, S1 by reflexivity. exact IR. }
    { rewrite S6, S5, S4, S3, S2, S1 by reflexivity. exact ICl. }
    { exact D6. }
    { rewrite S6, S5, S4, S3, S2, S1 by reflexivity. exact Idc. }
    1-6: lia.
    - (* next row block *)
      intros Hne g7 fl7 R7 X7 S7. destruct (Z.leb_spec col (ec - 4)) as [_|]; [|lia].
      assert (T1 : (row <? er - 4) = true) by (apply Z.ltb_lt; Z.to_euclidean_division_equations; lia).
      unfold nl, nr in *. rewrite T1 in *.
      apply K1; [apply Z.ltb_lt in T1; lia|]. constructor.
      + rewrite S7, S6, S05 by reflexivity. exact IT.
      + exact R7.
      + rewrite S7, S6, S5, S4, S3, S2, S1 by reflexivity. exact ICl.
      + rewrite S7, S6, S5, S4, S3 by reflexivity. rewrite GL2. f_equal. change (2 ^ 2) with 4. ring.
      + rewrite S7, S6, S5, S4, S3 by reflexivity. exact GR2.
      + rewrite S7 by reflexivity. rewrite D6. f_equal. ring.
      + rewrite S7, S6, S5, S4, S3, S2, S1 by reflexivity. exact Idc.
      + destruct Bp as [b0 b1]. unfold ptrs. rewrite !S7 by reflexivity. auto.
      + exact X7.
      + exact Bl.
      + exact Br.
      + exact Z6.
      + lia.
      + exact L6'.
    - intros He g7 fl7 R7 C7 X7 DC7 D7 S7.
      assert (T1 : (row <? er - 4) = false) by (apply Z.ltb_ge; lia).
      assert (L7 : forall e, In e lg6 <-> done (esize t) V rows cols sr sc er sr (col + 4) e).
      { intros e. rewrite L6'. replace (row + 4) with er by lia. apply done_wrap. lia. }
      destruct (Z.leb_spec (col + 4) (ec - 4)) as [Hcc|Hcc].
      + assert (T2 : (col <? ec - 4) = true) by (apply Z.ltb_lt; lia). unfold nl, nr in *. rewrite T1, T2 in *.
        apply K2; [lia|lia|]. constructor.
        * rewrite S7, S6, S05 by reflexivity. exact IT.
        * exact R7.
        * exact C7.
        * rewrite S7, S6, S5, S4, S3 by reflexivity. exact GL2.
        * rewrite S7, S6, S5, S4, S3 by reflexivity. rewrite GR2. f_equal. change (2 ^ 2) with 4. ring.
        * rewrite D7. f_equal. ring.
        * rewrite DC7. f_equal. ring.
        * destruct Bp as [b0 b1]. unfold ptrs. rewrite !S7 by reflexivity. auto.
        * exact X7.
        * exact Bl.
        * exact Br.
        * exact Z6.
        * lia.
        * exact L7.
      + change (q_next t + 25)%nat with (q_end t). apply K3; [lia| |exact L7].
        Z.to_euclidean_division_equations; lia.
  Qed.
  Lemma ends_blocks32 m : forall row col f g fl tm lg, (ec - col) * (er - sr) + (er - row) <= Z.of_nat m ->
    sr <= row -> row + 4 <= er -> row mod 4 = 0 -> sc <= col -> col + 4 <= ec -> col mod 4 = 0 -> inv32 row col f g tm lg ->
    (forall f' g' fl' tm' lg', (forall e, In e lg' <-> done (esize t) V rows cols sr sc er sr ec e) ->
       ends ops E (k32 t) Q (q_end t) (mk f' g' fl' tm' lg')) ->
    ends ops E (k32 t) Q 21 (mk f g fl tm lg).
  Proof.
    assert (Hsr := k_sr _ _ _ _ _ _ _ _ _ _ _ _ _ _ K). assert (Hsc := k_sc _ _ _ _ _ _ _ _ _ _ _ _ _ _ K).
    assert (Msr := k_msr _ _ _ _ _ _ _ _ _ _ _ _ _ _ K). assert (Mer := k_mer _ _ _ _ _ _ _ _ _ _ _ _ _ _ K).
    assert (Mec := k_mec _ _ _ _ _ _ _ _ _ _ _ _ _ _ K).
    induction m as [|m IH]; intros row col f g fl tm lg Hm Hr1 Hr2 Hr3 Hc1 Hc2 Hc3 HI HE.
    - exfalso. clear - Hm Hr1 Hr2 Hc2 Hsr. nia.
    - eapply (ends_block32 row col); try assumption.
      + intros Hlt f' g' fl' tm' lg' HI'. apply (IH (row + 4) col); try assumption; Z.to_euclidean_division_equations; lia.
      + intros He Hlt f' g' fl' tm' lg' HI'. apply (IH sr (col + 4)); try assumption; try (Z.to_euclidean_division_equations; lia).
      + intros He Hc f' g' fl' tm' lg' Hlg. apply HE. rewrite <- Hc. exact Hlg.
  Qed.
End Main.

Section Kernel.
  Variables (ops : nops) (t : dtype) (o : otparams) (L R : list Z) (ls rs G rows cols sr sc er ec : Z).
  Hypothesis (Hops : nops_ok ops) (Ht : is_bits t = false) (HG2 : 128 * G < 2 ^ 30).
  Hypothesis (K : call_ok 4 t o L R ls rs G rows cols sr sc er ec) (T : tr_ok o er).
  Let E := env32 t L R ls rs (4 * G) rows cols sr sc er ec o.
  Lemma asm32 f g tmp : 16 * Z.of_nat (esize t) <= zlen tmp ->
    exists n, wp (asm_kernel32 ops n t f g tmp L R ls rs (4 * G) rows cols sr sc er ec o)
                 (fun lg => forall e, In e lg <-> stored (a32 ops) t o L R ls rs G rows cols sr sc er ec e).
  Proof.
    intros Htm. assert (K0 := K). destruct K0 as [HG Hsr Hsc Msr Mer Msc Mec Her Hec Hrows Hcols Hls Hrs HlsB HrsB HstB HL HR].
    assert (EP : forall off, e_par E off = par_fields32 t ls rs (4 * G) rows cols sr sc er ec o off) by reflexivity.
    assert (P0 : e_par E 0 = Some (Ptr RLhs (4 * (sr * ls)))) by (rewrite EP; reflexivity).
    assert (P4 : e_par E 4 = Some (Ptr RRhs (4 * (sc * rs)))) by (rewrite EP; reflexivity).
    assert (P8 : e_par E 8 = Some (Ptr RDst (Z.of_nat (esize t) * (sc * rows + sr)))) by (rewrite EP; reflexivity).
    assert (P12 : e_par E 12 = Some (Int sr)) by (rewrite EP; reflexivity).
    assert (P16 : e_par E 16 = Some (Int sc)) by (rewrite EP; reflexivity).
    set (s0 := mk f (start_regs32 g ls rs sr sc) (0, 0) tmp []).
    assert (H : ends ops E (k32 t) (fun s => forall e, In e (slog s) <-> stored (a32 ops) t o L R ls rs G rows cols sr sc er ec e) 0 s0).
    2:{ destruct H as [n Hn]. exists n. unfold asm_kernel32. apply wp_bind. eapply wp_mono; [exact Hn|]. intros s Hs. exact Hs. }
    eapply ends_exec; [exact (init_code32 t Ht)|reflexivity|]. unfold k32_init. cbn [app zero]. unfold s0.
    assert (A1 : 0 <= sr * ls) by (clear - Hsr Hls HG; nia). assert (A2 : 0 <= sc * rs) by (clear - Hsc Hrs HG; nia).
    assert (A3 : sr * ls + 16 <= zlen L).
    { destruct (lb_ok G HG sr ls _ er _ ltac:(lia) ltac:(Z.to_euclidean_division_equations; lia) Hls HL eq_refl). lia. }
    assert (A4 : sc * rs + 16 <= zlen R).
    { destruct (lb_ok G HG sc rs _ ec _ ltac:(lia) ltac:(Z.to_euclidean_division_equations; lia) Hrs HR eq_refl). lia. }
    apply wp_exec_cons. eapply wp_ldrx; [exact P8|]. apply wp_exec_cons, wp_movx.
    apply wp_exec_cons. eapply wp_ldrx; [exact P8|]. apply wp_exec_cons, wp_movx.
    apply wp_exec_cons. eapply wp_ldrw; [exact P12|]. rewrite wmod by lia. apply wp_exec_cons, wp_movx.
    apply wp_exec_cons. eapply wp_ldrw; [exact P16|]. rewrite (wmod sc) by lia. apply wp_exec_cons, wp_movx.
    apply wp_exec_cons. eapply wp_ldrx; [exact P0|]. apply wp_exec_cons, wp_movx.
    apply wp_exec_cons. eapply wp_ldrx; [exact P4|]. apply wp_exec_cons, wp_movx.
    apply wp_exec_cons, wp_v, wp_exec_cons, wp_v, wp_exec_cons, wp_v, wp_exec_cons, wp_v.
    apply wp_exec_app.
    apply (wp_loads32 ops E L R (sr * ls) (sc * rs) 1 eq_refl eq_refl A1 A2 ltac:(lia) ltac:(lia) 0); [lia| |].
    { unfold ptrs. rewrite !Z.mul_0_r, !Z.add_0_r. split; reflexivity. }
    intros f1 g1 B1 B2 B3 B4 B5. apply wp_exec_cons, wp_movi. cbn [exec wp]. change (0 + length k32_init)%nat with 21%nat.
    eapply (ends_blocks32 ops E t o L R ls rs G rows cols sr sc er ec Hops Ht eq_refl eq_refl eq_refl eq_refl EP K T HG2 _ (Z.to_nat ((ec - sc) * (er - sr) + (er - sr))) sr sc);
      try assumption; try lia; try (Z.to_euclidean_division_equations; lia).
    - constructor; try (rewrite xupd_other by reflexivity; rewrite B5 by reflexivity; reflexivity).
      + destruct B4 as [b0 b1]. unfold ptrs. rewrite !xupd_other by reflexivity. auto.
      + reflexivity.
      + exact B1.
      + exact B2.
      + unfold zeroed32. rewrite !B3 by lia. repeat split.
      + exact Htm.
      + intros e. split; [intros []|]. intros H. exact (done_first _ _ _ _ _ _ _ _ H).
    - intros f' g' fl' tm' lg' Hlg. apply ends_end.
      + exact (end_code32 t Ht).
      + cbn [slog mk]. intros e. rewrite Hlg. unfold done, stored. split.
        * intros (i & j & H & H0 & H1 & H2 & H3). exists i, j. split; [lia|]. split; [lia|exact H3].
        * intros (i & j & H & H0 & H1). exists i, j. split; [lia|]. split; [lia|]. split; [lia|]. split; [lia|exact H1].
  Qed.
End Kernel.
