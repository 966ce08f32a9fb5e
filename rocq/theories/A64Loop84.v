(** * A64Loop84: BinaryKernelNeon8x4 over all blocks of its range, for any output
    phase (float, int8 or bit-packed). *)
From Verif Require Import Base Spec Bits Log Bgemm A64 A64Bgemm A64Lemmas A64K44 A64Store A64Trans A64Seg A64Block44 A64Write44 A64Main44 A64Loop44 A64Acc84 A64Block84 A64Write84.
Open Scope Z_scope.

Definition k84_post (t : dtype) : list instr := if is_bits t then k84_bits_compute ++ k84_bits_write else k84_transform t ++ k84_write t.
Definition o8_top t := length (k84_init t).
Definition o8_adv t := (o8_top t + 1 + length k84_accum)%nat.
Definition o8_fit t := (o8_adv t + 10)%nat.
Definition o8_post t := (o8_fit t + 10)%nat.
Definition o8_next t := (o8_post t + length (k84_post t))%nat.
Definition o8_end t := (o8_next t + 18)%nat.
Section Code8.
  Variable t : dtype.
  Lemma acc8_code : code_at (k84 t) (o8_top t) ((LBL 1 :: LCE_XOR 8) ++ plain8). Proof. destruct t; reflexivity. Qed.
  Lemma acc8_find : find 2 (k84 t) 0 = Some (o8_top t + length (LBL 1 :: LCE_XOR 8) + 2)%nat /\
    find 79 (k84 t) 0 = Some (o8_top t + length (LBL 1 :: LCE_XOR 8) + 3 + length k84_loop + 1)%nat.
  Proof. destruct t; split; reflexivity. Qed.
  Lemma adv8_code : code_at (k84 t) (o8_adv t) (k_advance 3). Proof. destruct t; reflexivity. Qed.
  Lemma adv8_f4 : find 4 (k84 t) 0 = Some (o8_adv t + 4)%nat. Proof. destruct t; reflexivity. Qed.
  Lemma adv8_f5 : find 5 (k84 t) 0 = Some (o8_adv t + 9)%nat. Proof. destruct t; reflexivity. Qed.
  Lemma fit8_code : code_at (k84 t) (o8_fit t) k84_fit. Proof. destruct t; reflexivity. Qed.
  Lemma post8_code : code_at (k84 t) (o8_post t) (k84_post t). Proof. destruct t; reflexivity. Qed.
  Lemma next8_code : code_at (k84 t) (o8_next t) (k84_next t). Proof. destruct t; reflexivity. Qed.
  Lemma next8_find : find 20 (k84 t) 0 = Some (o8_next t + 9)%nat /\ find 21 (k84 t) 0 = Some (o8_next t + 14)%nat /\ find 1 (k84 t) 0 = Some (o8_top t).
  Proof. destruct t; (split; [reflexivity|split; reflexivity]). Qed.
End Code8.

(** The entries of the blocks visited before block (row, col), column by column. *)
Section Done8.
  Variables (blk : Z -> Z -> Z * Z -> Prop) (sr sc er : Z).
  Definition done8 (row col : Z) (e : Z * Z) : Prop :=
    exists r c, (sc <= c < col /\ sr <= r < er \/ c = col /\ sr <= r < row) /\ r mod 8 = 0 /\ c mod 4 = 0 /\ blk r c e.
  Lemma done8_step row col e : sr <= row -> row mod 8 = 0 -> col mod 4 = 0 -> done8 (row + 8) col e <-> done8 row col e \/ blk row col e.
  Proof.
    intros Hr M8 M4. split.
    - intros (r & c & H & Hr8 & Hc4 & Hb). destruct (Z.eq_dec c col) as [-> | Hn]; [destruct (Z.eq_dec r row) as [-> | Hm]|].
      + right. exact Hb.
      + left. exists r, col. split; [|auto]. assert (sr <= r < row \/ row <= r < row + 8 \/ col < col /\ sr <= r < er) as [B | [B | B]] by lia; [lia| |lia].
        exfalso. apply Hm. clear - M8 Hr8 B. Z.to_euclidean_division_equations; lia.
      + left. exists r, c. split; [lia|auto].
    - intros [(r & c & H & Hr8 & Hc4 & Hb) | Hb].
      + exists r, c. split; [lia|auto].
      + exists row, col. split; [lia|auto].
  Qed.
  Lemma done8_wrap col e : sc <= col -> col mod 4 = 0 -> done8 er col e <-> done8 sr (col + 4) e.
  Proof.
    intros Hc M4. split; intros (r & c & H & Hr8 & Hc4 & Hb); exists r, c; (split; [|auto]).
    - lia.
    - assert (c < col \/ c = col \/ col < c < col + 4 \/ col + 4 <= c) as [B | [B | [B | B]]] by lia; [lia|lia| |lia].
      exfalso. clear - M4 Hc4 B. Z.to_euclidean_division_equations; lia.
  Qed.
  Lemma done8_first e : ~ done8 sr sc e.
  Proof. intros (r & c & H & _). lia. Qed.
End Done8.

Section Main8.
  Variables (ops : nops) (E : env) (t : dtype) (L R : list Z) (ls rs G rows cols sr sc er ec stride : Z).
  (** Condition on the vector registers kept between blocks; entries of a block;
      condition on the scratch buffer. *)
  Variables (kf : (nat -> list Z) -> Prop) (blk : Z -> Z -> Z * Z -> Prop) (tmn : Z).
  Hypothesis Kf31 : forall f f', f' 31%nat = f 31%nat -> kf f -> kf f'.
  Hypothesis (EL : e_lhs E = L) (ER : e_rhs E = R).
  Hypothesis (HG : 1 <= G) (HGb : 4 * G < 2 ^ 31 - 8).
  Hypothesis (Hsr : 0 <= sr < er) (Hsc : 0 <= sc < ec) (Msr : sr mod 8 = 0) (Msc : sc mod 4 = 0) (Mer : er mod 8 = 0) (Mec : ec mod 4 = 0).
  Hypothesis (Her : er < rows + 8) (Hec : ec < cols + 4) (Hrows : rows < 2 ^ 31 - 8) (Hcols : cols < 2 ^ 31 - 8).
  Hypothesis (Hls : 4 * G <= ls) (Hrs : 4 * G <= rs).
  Hypothesis (HL : er * ls <= zlen L) (HR : ec * rs <= zlen R).
  Variable Q : st -> Prop.

  Record consts8 (g : xreg -> val) : Prop := {
    d5 : g (Xr 5) = Ptr RLhs (4 * (sr * ls)); d6 : g (Xr 6) = Int sr; d7 : g (Xr 7) = Int (er - 8); d8 : g (Xr 8) = Int (ec - 4);
    d9 : g (Xr 9) = Int (4 * ls); d10 : g (Xr 10) = Int (4 * rs); d11 : g (Xr 11) = Int stride;
    d12 : g (Xr 12) = Int (4 * G); dR : g DST_ROWS = Int rows; dC : g DST_COLS = Int cols; dT : g TMPBUF = Ptr RTmp 0; dP : g PARAMS = Ptr RPar 0 }.
  Lemma consts8_same g g' : consts8 g -> same_x vary g' g -> consts8 g'.
  Proof. intros [] H. constructor; rewrite H by reflexivity; assumption. Qed.
  Definition dp (row col : Z) : Z := col * stride + dstep t * (row / 8).
  (** The output phase of one block. *)
  Definition post_spec : Prop := forall row col nl nr f g fl tm lg,
    sr <= row -> row + 8 <= er -> row mod 8 = 0 -> sc <= col -> col + 4 <= ec -> col mod 4 = 0 ->
    0 <= nl -> nl + 32 <= zlen L -> 0 <= nr -> nr + 4 <= zlen R ->
    aregs8 L R (row * ls) (col * rs) f G G G G -> kf f -> consts8 g ->
    g ROW = Int row -> g LHS = Ptr RLhs (4 * nl) -> g RHS = Ptr RRhs (4 * nr) -> g DST = Ptr RDst (dp row col) ->
    g (Xr 1) = Int (Z.min (rows - row) 8) -> g (Xr 2) = Int (Z.min (cols - col) 4) -> g (Xr 3) = Int 8 -> g (Xr 4) = Int 4 -> tmn <= zlen tm ->
    (forall f' g' fl' tm' lg', lregs8 L nl f' 0 -> f' 8%nat = vec 4 (wlist R nr 4) -> kf f' ->
       g' LHS = Ptr RLhs (4 * (nl + 32)) -> g' RHS = Ptr RRhs (4 * (nr + 4)) ->
       same_x [Xr 3; Xr 4; Xr 13; Xr 14; Xr 15; LHS; RHS] g' g -> zlen tm' = zlen tm ->
       (forall e, In e lg' <-> In e lg \/ blk row col e) -> ends ops E (k84 t) Q (o8_next t) (mk f' g' fl' tm' lg')) ->
    ends ops E (k84 t) Q (o8_post t) (mk f g fl tm lg).
  Hypothesis Hpost : post_spec.

  Record inv84 (row col : Z) (f : nat -> list Z) (g : xreg -> val) (tm : list Z) (lg : list (Z * Z)) : Prop := {
    v_c : consts8 g; v_row : g ROW = Int row; v_col : g COL = Int col;
    v_lc : g LHS_COL = Ptr RLhs (4 * (row * ls)); v_rc : g RHS_COL = Ptr RRhs (4 * (col * rs));
    v_d : g DST = Ptr RDst (dp row col); v_dc : g DST_COL = Ptr RDst (dp sr col);
    v_pl : g LHS = Ptr RLhs (4 * (row * ls + 32)); v_pr : g RHS = Ptr RRhs (4 * (col * rs + 4)); v_1 : g (Xr 1) = Int 4;
    v_l : lregs8 L (row * ls) f 0; v_r : f 8%nat = vec 4 (wlist R (col * rs) 4); v_z : zeroed f; v_kf : kf f; v_tm : tmn <= zlen tm;
    v_lg : forall e, In e lg <-> done8 blk sr sc er row col e }.

  Lemma lb8 a s l k n : 0 <= a -> a + 8 <= k -> 4 * G <= s -> k * s <= n -> l = a * s -> 0 <= l /\ l + 32 * G <= n /\ l + 32 <= n.
  Proof using HG. clear - HG. intros. subst l. nia. Qed.
  Lemma lb4 a s l k n : 0 <= a -> a + 4 <= k -> 4 * G <= s -> k * s <= n -> l = a * s -> 0 <= l /\ l + 16 * G <= n /\ l + 4 <= n.
  Proof using HG. clear - HG. intros. subst l. nia. Qed.
  Lemma dp_row row col : row mod 8 = 0 -> dp (row + 8) col = dp row col + dstep t.
  Proof using. clear. intros H. unfold dp. replace ((row + 8) / 8) with (row / 8 + 1) by (Z.to_euclidean_division_equations; lia). ring. Qed.
  Lemma dp_col row col : dp row (col + 4) = dp row col + stride * 4.
  Proof using. clear. unfold dp. ring. Qed.

  (** Accumulation of one block: from the label to the end of the depth loop. *)
  Lemma ends_acc8 bl br f g fl tm lg : 0 <= bl -> 0 <= br -> bl + 32 * G <= zlen L -> br + 16 * G <= zlen R ->
    lregs8 L bl f 0 -> f 8%nat = vec 4 (wlist R br 4) -> g LHS = Ptr RLhs (4 * (bl + 32)) -> g RHS = Ptr RRhs (4 * (br + 4)) ->
    g (Xr 1) = Int 4 -> g (Xr 12) = Int (4 * G) -> zeroed f ->
    (forall f' g' fl', aregs8 L R bl br f' G G G G -> same_x [Xr 1; LHS; RHS] g' g -> (forall q, (28 <= q)%nat -> f' q = f q) ->
       ends ops E (k84 t) Q (o8_adv t) (mk f' g' fl' tm lg)) ->
    ends ops E (k84 t) Q (o8_top t) (mk f g fl tm lg).
  Proof.
    intros Hbl Hbr HlL HlR Hl H8 PL PR H1 H12 (z0 & z1 & z2 & z3) HQ.
    assert (C := acc8_code t). apply code_at_app in C. destruct C as [C1 C2]. destruct (acc8_find t) as [F2 F79].
    eapply ends_exec; [exact C1|reflexivity|]. apply wp_exec_cons, wp_lbl. apply wp_xor. intros f' X K.
    assert (K' : forall q, (q < 12)%nat -> f' q = f q) by (intros q Hq; apply K; left; exact Hq).
    assert (K2 : forall q, (24 <= q)%nat -> f' q = f q) by (intros q Hq; apply K; right; exact Hq).
    eapply (ends_plain8 ops E L R bl br G EL ER Hbl Hbr HGb HlL HlR (k84 t) Q _ g tm lg C2 F2 F79 H12 f') with (n := 0); [|lia| |reflexivity].
    - intros f2 g2 fl2 A S2 O. replace (o8_top t + length (LBL 1 :: LCE_XOR 8) + length plain8)%nat with (o8_adv t) by (unfold o8_adv; rewrite <- !Nat.add_assoc; f_equal; reflexivity).
      apply HQ; [exact A|exact S2|]. intros q Hq. rewrite O, K2 by lia. reflexivity.
    - constructor.
      + destruct Hl as (l0 & l1 & l2 & l3 & l4 & l5 & l6 & l7). unfold lregs8. rewrite !K' by lia. repeat (split; [assumption|]). assumption.
      + rewrite H8 in X. unfold xor8 in *. rewrite !(K' 0%nat), !(K' 1%nat), !(K' 2%nat), !(K' 3%nat), !(K' 4%nat), !(K' 5%nat), !(K' 6%nat), !(K' 7%nat) by lia.
        unfold Rg8. replace (br + 16 * 0 + 4 * 0) with br by ring. exact X.
      + unfold aregs8. rewrite !K2 by lia. rewrite z0, z1, z2, z3. unfold accs8, accv8. rewrite !sum_0 by lia. repeat split.
      + rewrite PL. reflexivity.
      + rewrite PR. f_equal. lia.
      + rewrite H1. reflexivity.
      + apply same_x_refl.
  Qed.

  (** One block. *)
  Lemma ends_block84 row col f g fl tm lg : sr <= row -> row + 8 <= er -> row mod 8 = 0 -> sc <= col -> col + 4 <= ec -> col mod 4 = 0 ->
    inv84 row col f g tm lg ->
    (row + 8 < er -> forall f' g' fl' tm' lg', inv84 (row + 8) col f' g' tm' lg' -> ends ops E (k84 t) Q (o8_top t) (mk f' g' fl' tm' lg')) ->
    (row + 8 = er -> col + 4 < ec -> forall f' g' fl' tm' lg', inv84 sr (col + 4) f' g' tm' lg' -> ends ops E (k84 t) Q (o8_top t) (mk f' g' fl' tm' lg')) ->
    (row + 8 = er -> col + 4 = ec -> forall f' g' fl' tm' lg', (forall e, In e lg' <-> done8 blk sr sc er sr (col + 4) e) ->
       ends ops E (k84 t) Q (o8_end t) (mk f' g' fl' tm' lg')) ->
    ends ops E (k84 t) Q (o8_top t) (mk f g fl tm lg).
  Proof.
    intros Hr1 Hr2 Hr3 Hc1 Hc2 Hc3 [IC IR ICl ILc IRc Id Idc Ipl Ipr I1 Il Ir Iz Ikf Itm Ilg] K1 K2 K3.
    destruct (lb8 row ls _ er _ ltac:(lia) Hr2 Hls HL eq_refl) as (La & Lb & Lc).
    destruct (lb4 col rs _ ec _ ltac:(lia) Hc2 Hrs HR eq_refl) as (Ra & Rb & Rc).
    apply (ends_acc8 (row * ls) (col * rs)); try assumption; [exact (d12 _ IC)|]. intros f1 g1 fl1 A1 S1 O1.
    set (nl := if row <? er - 8 then (row + 8) * ls else sr * ls).
    set (nr := if row <? er - 8 then col * rs else if col <? ec - 4 then (col + 4) * rs else col * rs).
    assert (IC1 : consts8 g1) by (eapply consts8_same; [exact IC|eapply same_x_incl; [|exact S1]; reflexivity]).
    eapply (ends_advance _ _ _ _ _ 3 (adv8_code t) (adv8_f4 t) (adv8_f5 t) _ _ _ _ _ row col (er - 8) (ec - 4) (4 * (row * ls)) (4 * (col * rs)) (4 * (sr * ls)) (4 * ls) (4 * rs)).
    { rewrite S1 by reflexivity. exact IR. }
    { rewrite S1 by reflexivity. exact ICl. }
    { exact (d7 _ IC1). }
    { exact (d8 _ IC1). }
    { rewrite S1 by reflexivity. exact ILc. }
    { rewrite S1 by reflexivity. exact IRc. }
    { exact (d5 _ IC1). }
    { exact (d9 _ IC1). }
    { exact (d10 _ IC1). }
    1-4: lia.
    intros g2 fl2 GL2 GR2 S2. change (o8_adv t + 10)%nat with (o8_fit t).
    assert (IC2 : consts8 g2) by (eapply consts8_same; [exact IC1|eapply same_x_incl; [|exact S2]; reflexivity]).
    assert (NL : 0 <= nl /\ nl + 32 <= zlen L).
    { unfold nl. destruct (Z.ltb_spec row (er - 8)).
      - destruct (lb8 (row + 8) ls _ er _ ltac:(lia) ltac:(lia) Hls HL eq_refl). lia.
      - destruct (lb8 sr ls _ er _ ltac:(lia) ltac:(lia) Hls HL eq_refl). lia. }
    assert (NR : 0 <= nr /\ nr + 4 <= zlen R).
    { unfold nr. destruct (row <? er - 8); [lia|]. destruct (Z.ltb_spec col (ec - 4)); [|lia].
      destruct (lb4 (col + 4) rs _ ec _ ltac:(lia) ltac:(lia) Hrs HR eq_refl). lia. }
    eapply ends_exec; [exact (fit8_code t)|reflexivity|].
    eapply (wp_fit8 _ _ f1 g2 fl2 tm lg rows cols row col); [exact (dR _ IC2)|exact (dC _ IC2)| | |lia|lia|lia|lia|].
    { rewrite S2, S1 by reflexivity. exact IR. }
    { rewrite S2, S1 by reflexivity. exact ICl. }
    intros g3 fl3 G31 G32 G33 G34 GL3 GR3 S3. change (o8_fit t + length k84_fit)%nat with (o8_post t).
    assert (IC3 : consts8 g3) by (eapply consts8_same; [exact IC2|eapply same_x_incl; [|exact S3]; reflexivity]).
    eapply (Hpost row col nl nr f1 g3 fl3 tm lg); try assumption; try lia.
    { eapply Kf31; [|exact Ikf]. apply O1. lia. }
    { rewrite S3, S2, S1 by reflexivity. exact IR. }
    { rewrite GL3, GL2. unfold nl. f_equal. change (2 ^ 3) with 8. destruct (row <? er - 8); ring. }
    { rewrite GR3, GR2. unfold nr. f_equal. change (2 ^ 2) with 4. destruct (row <? er - 8); [ring|]. destruct (col <? ec - 4); ring. }
    { rewrite S3, S2, S1 by reflexivity. exact Id. }
    intros f6 g6 fl6 tm6 lg6 Bl Br Bk BL BR S6 T6 L6.
    assert (IC6 : consts8 g6) by (eapply consts8_same; [exact IC3|eapply same_x_incl; [|exact S6]; reflexivity]).
    assert (L6' : forall e, In e lg6 <-> done8 blk sr sc er (row + 8) col e).
    { intros e. rewrite L6, Ilg. symmetry. apply done8_step; assumption. }
    destruct (next8_find t) as (N20 & N21 & N1).
    eapply (ends_next84 _ _ t _ _ _ (next8_code t) N20 N21 _ N1 _ _ _ _ _ row col sr (er - 8) (ec - 4) (dp row col) (dp sr col) stride).
    { rewrite S6, S3, S2, S1 by reflexivity. exact IR. }
    { rewrite S6, S3, S2, S1 by reflexivity. exact ICl. }
    { exact (d6 _ IC6). }
    { exact (d7 _ IC6). }
    { exact (d8 _ IC6). }
    { exact (d11 _ IC6). }
    { rewrite S6, S3, S2, S1 by reflexivity. exact Id. }
    { rewrite S6, S3, S2, S1 by reflexivity. exact Idc. }
    1-5: lia.
    - intros Hne f7 g7 fl7 Z7 O7 R7 X7 D7 S7. destruct (Z.leb_spec col (ec - 4)) as [_|]; [|lia].
      assert (T1 : (row <? er - 8) = true) by (apply Z.ltb_lt; Z.to_euclidean_division_equations; lia).
      unfold nl, nr in *. rewrite T1 in *.
      apply K1; [apply Z.ltb_lt in T1; lia|]. constructor.
      + eapply consts8_same; [exact IC6|eapply same_x_incl; [|exact S7]; reflexivity].
      + exact R7.
      + rewrite S7, S6, S3, S2, S1 by reflexivity. exact ICl.
      + rewrite S7, S6, S3 by reflexivity. rewrite GL2. f_equal. change (2 ^ 3) with 8. ring.
      + rewrite S7, S6, S3 by reflexivity. exact GR2.
      + rewrite D7. f_equal. symmetry. apply dp_row, Hr3.
      + rewrite S7, S6, S3, S2, S1 by reflexivity. exact Idc.
      + rewrite S7 by reflexivity. exact BL.
      + rewrite S7 by reflexivity. exact BR.
      + exact X7.
      + unfold lregs8 in *. rewrite !O7 by lia. exact Bl.
      + rewrite O7 by lia. exact Br.
      + exact Z7.
      + eapply Kf31; [|exact Bk]. apply O7. lia.
      + lia.
      + exact L6'.
    - intros He f7 g7 fl7 Z7 O7 R7 C7 X7 DC7 D7 S7.
      assert (T1 : (row <? er - 8) = false) by (apply Z.ltb_ge; lia).
      assert (L7 : forall e, In e lg6 <-> done8 blk sr sc er sr (col + 4) e).
      { intros e. rewrite L6'. replace (row + 8) with er by lia. apply done8_wrap; assumption. }
      destruct (Z.leb_spec (col + 4) (ec - 4)) as [Hcc|Hcc].
      + assert (T2 : (col <? ec - 4) = true) by (apply Z.ltb_lt; lia). unfold nl, nr in *. rewrite T1, T2 in *.
        apply K2; [lia|lia|]. constructor.
        * eapply consts8_same; [exact IC6|eapply same_x_incl; [|exact S7]; reflexivity].
        * exact R7.
        * exact C7.
        * rewrite S7, S6, S3 by reflexivity. exact GL2.
        * rewrite S7, S6, S3 by reflexivity. rewrite GR2. f_equal. change (2 ^ 2) with 4. ring.
        * rewrite D7. f_equal. symmetry. apply dp_col.
        * rewrite DC7. f_equal. symmetry. apply dp_col.
        * rewrite S7 by reflexivity. exact BL.
        * rewrite S7 by reflexivity. exact BR.
        * exact X7.
        * unfold lregs8 in *. rewrite !O7 by lia. exact Bl.
        * rewrite O7 by lia. exact Br.
        * exact Z7.
        * eapply Kf31; [|exact Bk]. apply O7. lia.
        * lia.
        * exact L7.
      + change (o8_next t + 18)%nat with (o8_end t). apply K3; [lia| |exact L7].
        Z.to_euclidean_division_equations; lia.
  Qed.
  Lemma ends_blocks84 m : forall row col f g fl tm lg, (ec - col) * (er - sr) + (er - row) <= Z.of_nat m ->
    sr <= row -> row + 8 <= er -> row mod 8 = 0 -> sc <= col -> col + 4 <= ec -> col mod 4 = 0 -> inv84 row col f g tm lg ->
    (forall f' g' fl' tm' lg', (forall e, In e lg' <-> done8 blk sr sc er sr ec e) ->
       ends ops E (k84 t) Q (o8_end t) (mk f' g' fl' tm' lg')) ->
    ends ops E (k84 t) Q (o8_top t) (mk f g fl tm lg).
  Proof.
    induction m as [|m IH]; intros row col f g fl tm lg Hm Hr1 Hr2 Hr3 Hc1 Hc2 Hc3 HI HE.
    - exfalso. clear - Hm Hr1 Hr2 Hc2 Hsr. nia.
    - eapply (ends_block84 row col); try assumption.
      + intros Hlt f' g' fl' tm' lg' HI'. apply (IH (row + 8) col); try assumption; Z.to_euclidean_division_equations; lia.
      + intros He Hlt f' g' fl' tm' lg' HI'. apply (IH sr (col + 4)); try assumption; try (Z.to_euclidean_division_equations; lia).
      + intros He Hc f' g' fl' tm' lg' Hlg. apply HE. rewrite <- Hc. exact Hlg.
  Qed.
End Main8.
