(** * A64Block84: loading and transforming one 8x4 block of BinaryKernelNeon8x4. *)
From Verif Require Import Base Spec Bits Log Bgemm A64 A64Bgemm A64Lemmas A64K44 A64Store A64Trans A64Seg A64Block44 A64Acc84.
Open Scope Z_scope.

(** ** Loads of two registers, of a parameter word *)
Section Loads8.
  Variables (ops : nops) (E : env).
  Lemma wp_ld2 d0 d1 p f g fl tm lg r ws k (Q : st -> Prop) : g p = Ptr r (4 * k) -> word_region E r ws -> 0 <= k -> k + 8 <= zlen ws ->
    Q (mk (vupd (vupd f d0 (vec 4 (wlist ws k 4))) d1 (vec 4 (wlist ws (k + 4) 4))) (xupd g p (Ptr r (4 * (k + 8)))) fl tm lg) ->
    wp (exec1 ops E (LD1 [d0; d1] p true) (mk f g fl tm lg)) Q.
  Proof.
    intros Hp Hr H0 Hk HQ. cbn [exec1 sx mk]. rewrite Hp. cbn [ld_regs].
    rewrite (load16 E _ r ws k) by (auto; lia). cbn [bind].
    replace (4 * k + 16) with (4 * (k + 4)) by ring. rewrite (load16 E _ r ws (k + 4)) by (auto; lia). cbn [bind].
    replace (4 * k + 16 * zlen [d0; d1]) with (4 * (k + 8)) by (change (zlen [d0; d1]) with 2; ring). exact HQ.
  Qed.
  Lemma wp_ld2n d0 d1 p f g fl tm lg r ws k (Q : st -> Prop) : g p = Ptr r (4 * k) -> word_region E r ws -> 0 <= k -> k + 8 <= zlen ws ->
    Q (mk (vupd (vupd f d0 (vec 4 (wlist ws k 4))) d1 (vec 4 (wlist ws (k + 4) 4))) g fl tm lg) ->
    wp (exec1 ops E (LD1 [d0; d1] p false) (mk f g fl tm lg)) Q.
  Proof.
    intros Hp Hr H0 Hk HQ. cbn [exec1 sx mk]. rewrite Hp. cbn [ld_regs].
    rewrite (load16 E _ r ws k) by (auto; lia). cbn [bind].
    replace (4 * k + 16) with (4 * (k + 4)) by ring. rewrite (load16 E _ r ws (k + 4)) by (auto; lia). cbn [bind]. exact HQ.
  Qed.
  Lemma wp_ld1r d p f g fl tm lg off z (Q : st -> Prop) : g p = Ptr RPar off -> off mod 4 = 0 -> e_par E off = Some (Int z) ->
    Q (mk (vupd f d (v_dup4 (z mod 2 ^ 32))) g fl tm lg) -> wp (exec1 ops E (LD1R d p) (mk f g fl tm lg)) Q.
  Proof.
    intros Hp Hm He HQ. cbn [exec1]. unfold load_at. cbn [sx mk]. rewrite Hp. cbn [loadn load_byte].
    assert (B : forall j, 0 <= j < 4 -> (off + 0 + j) mod 4 = j /\ off + 0 + j - (off + 0 + j) mod 4 = off) by (intros j Hj; Z.to_euclidean_division_equations; lia).
    destruct (B 0 ltac:(lia)) as [M0 D0]. destruct (B 1 ltac:(lia)) as [M1 D1]. destruct (B 2 ltac:(lia)) as [M2 D2]. destruct (B 3 ltac:(lia)) as [M3 D3].
    replace (off + 0 + 1 + 1 + 1) with (off + 0 + 3) by ring. replace (off + 0 + 1 + 1) with (off + 0 + 2) by ring.
    replace (off + 0 + 0) with (off + 0) in * by ring. rewrite D0, D1, D2, D3, M0, M1, M2, M3, He. cbn [bind].
    change [(z / 2 ^ (8 * 0)) mod 256; (z / 2 ^ (8 * 1)) mod 256; (z / 2 ^ (8 * 2)) mod 256; (z / 2 ^ (8 * 3)) mod 256]
      with [(z / 1) mod 256; (z / 256) mod 256; (z / 65536) mod 256; (z / 16777216) mod 256].
    assert (EQ : [(z / 1) mod 256; (z / 256) mod 256; (z / 65536) mod 256; (z / 16777216) mod 256] = le_split 4 z).
    { cbn [le_split]. rewrite !Z.div_div, Z.div_1_r by lia. reflexivity. }
    rewrite EQ, le_join_split. exact HQ.
  Qed.
End Loads8.

(** ** Lanes *)
Lemma firstn_vec2 a b : length a = 4%nat -> firstn 8 (vec 2 (a ++ b)) = vec 2 a.
Proof. intros H. rewrite vec_app. apply firstn_app_len. rewrite vec_length, H. reflexivity. Qed.
Lemma skipn_vec2 a b : length a = 4%nat -> skipn 8 (vec 2 (a ++ b)) = vec 2 b.
Proof. intros H. rewrite vec_app. apply skipn_app_len. rewrite vec_length, H. reflexivity. Qed.
Lemma ushll_ok n a b : length a = 4%nat -> Forall (fun x => 0 <= x < 65536) a ->
  v_ushll n (vec 2 (a ++ b)) = vec 4 (map (fun x => x * 2 ^ n) a).
Proof. intros H Hf. unfold v_ushll. rewrite firstn_vec2, lanes2, map_mod_id by assumption. reflexivity. Qed.
Lemma ushll2_ok n a b : length a = 4%nat -> Forall (fun x => 0 <= x < 65536) b ->
  v_ushll2 n (vec 2 (a ++ b)) = vec 4 (map (fun x => x * 2 ^ n) b).
Proof. intros H Hf. unfold v_ushll2. rewrite skipn_vec2, lanes2, map_mod_id by assumption. reflexivity. Qed.
Lemma sq16_ok ops ys : nops_ok ops -> Forall pat ys -> map sat16 (lanes 4 (v_fcvtns ops (vec 4 ys))) = map (fun y => clampz (-32768) 32767 (n_cvtns ops y)) ys.
Proof.
  intros Hops Hys. unfold v_fcvtns. rewrite (lanes4 ys), (map_mod_id _ ys) by exact Hys. rewrite lanes4, !map_map. apply map_ext. intros y.
  apply sat16m, (no_cvt ops Hops).
Qed.
Lemma int8_8 ops xs ys : nops_ok ops -> Forall pat xs -> Forall pat ys -> length xs = 4%nat -> length ys = 4%nat ->
  firstn 8 (v_sqxtn8b (v_sqxtn8h (v_sqxtn4h (v_fcvtns ops (vec 4 xs))) (v_fcvtns ops (vec 4 ys))))
  = vec 1 (map (fun y => sat8z (n_cvtns ops y)) (xs ++ ys)).
Proof.
  intros Hops Hxs Hys Hl1 Hl2. unfold v_sqxtn8b, v_sqxtn8h, v_sqxtn4h. rewrite !sq16_ok by assumption.
  set (xs1 := map _ xs). set (ys1 := map _ ys).
  assert (E1 : firstn 8 (vec 2 xs1 ++ repeat 0 8) = vec 2 xs1).
  { apply firstn_app_len. unfold xs1. rewrite vec_length, map_length, Hl1. reflexivity. }
  rewrite E1, <- vec_app, lanes2.
  rewrite firstn_app_len by (rewrite vec_length, !map_length, app_length; unfold xs1, ys1; rewrite !map_length, Hl1, Hl2; reflexivity).
  unfold xs1, ys1. rewrite <- map_app, !map_map. f_equal. apply map_ext. intros y. apply sat_sat.
Qed.

Section Block8.
  Variables (ops : nops) (E : env) (t : dtype) (o : otparams) (L R : list Z) (ls rs G : Z).
  Hypothesis (EL : e_lhs E = L) (ER : e_rhs E = R).
  (** 818-836 *)
  Lemma wp_fit8 f g fl tm lg rows cols row col (Q : st -> Prop) :
    g DST_ROWS = Int rows -> g DST_COLS = Int cols -> g ROW = Int row -> g COL = Int col ->
    0 <= row < rows -> rows < 2 ^ 31 -> 0 <= col < cols -> cols < 2 ^ 31 ->
    (forall g' fl', g' (Xr 1) = Int (Z.min (rows - row) 8) -> g' (Xr 2) = Int (Z.min (cols - col) 4) -> g' (Xr 3) = Int 8 -> g' (Xr 4) = Int 4 ->
       g' LHS = g LHS_COL -> g' RHS = g RHS_COL -> same_x [Xr 1; Xr 2; Xr 3; Xr 4; LHS; RHS] g' g -> Q (mk f g' fl' tm lg)) ->
    wp (exec ops E k84_fit (mk f g fl tm lg)) Q.
  Proof.
    intros GR GC Gr Gc Hr1 Hr2 Hc1 Hc2 HQ. unfold k84_fit.
    apply wp_exec_cons, wp_movx, wp_exec_cons, wp_movx.
    apply wp_exec_cons. eapply wp_subw; [exact GR|exact Gr|lia|lia|].
    apply wp_exec_cons. eapply wp_subw; [exact GC|exact Gc|lia|lia|].
    apply wp_exec_cons, wp_movi, wp_exec_cons, wp_movi. apply wp_exec_cons. eapply wp_cmpwi; [reflexivity|lia|].
    apply wp_exec_cons. eapply wp_csel_le; [reflexivity|reflexivity|lia|lia|].
    assert (M : forall z k, (if z <=? k then z else k) = Z.min z k) by (intros z k; destruct (Z.leb_spec z k); lia). rewrite M.
    apply wp_exec_cons. eapply wp_cmpwi; [reflexivity|lia|].
    apply wp_exec_cons. eapply wp_csel_le; [reflexivity|reflexivity|lia|lia|]. rewrite M.
    cbn [exec wp]. apply HQ; [reflexivity|reflexivity|reflexivity|reflexivity|reflexivity|reflexivity|sx].
  Qed.

  Hypothesis (Hops : nops_ok ops) (Ht : is_bits t = false).
  Hypothesis (EM : e_mul E = p_mul o) (EB : e_bias E = p_bias o).
  Hypothesis (P64 : e_par E 64 = Some (Int (p_cmin o))) (P68 : e_par E 68 = Some (Int (p_cmax o)))
    (P72 : e_par E 72 = Some (Ptr RMul 0)) (P80 : e_par E 80 = Some (Ptr RBias 0)).
  Hypothesis (Hmin : int32 (p_cmin o)) (Hmax : int32 (p_cmax o)) (Hmul : Forall pat (p_mul o)) (Hbias : Forall pat (p_bias o)).
  (** The accumulators are 16-bit lanes. *)
  Definition pacc16 (i j : Z) : Z := pacc 8 L R ls rs G i j mod 2 ^ 16.
  Definition V84 (i j : Z) : Z := oval ops t o (pacc16 i j) i.

  Lemma accv8_pacc row col i j : row mod 8 = 0 -> col mod 4 = 0 -> 0 <= i < 8 -> 0 <= j < 4 ->
    accv8 L R (row * ls) (col * rs) i j G = pacc 8 L R ls rs G (row + i) (col + j).
  Proof.
    intros Hr Hc Hi Hj. unfold accv8, pacc. apply sum_ext. intros g _. unfold grp, Rg8, Lg8.
    assert (M8 : (row + i) mod 8 = i) by (Z.to_euclidean_division_equations; lia).
    assert (M4 : (col + j) mod 4 = j) by (Z.to_euclidean_division_equations; lia).
    rewrite M8, M4. replace (row + i - i) with row by ring. replace (col + j - j) with col by ring. reflexivity.
  Qed.
  Definition pac4 (row j : Z) : list Z := [pacc16 row j; pacc16 (row + 1) j; pacc16 (row + 2) j; pacc16 (row + 3) j].
  Lemma vec2_mod l : vec 2 l = vec 2 (map (fun x => x mod 2 ^ 16) l).
  Proof.
    unfold vec. induction l as [|x l IH]; [reflexivity|]. cbn [flat_map map]. rewrite IH. f_equal. cbn [le_split]. change (2 ^ 16) with (256 * 256).
    f_equal; [|f_equal]; Z.to_euclidean_division_equations; lia.
  Qed.
  Lemma accs8_pac row col j : row mod 8 = 0 -> col mod 4 = 0 -> 0 <= j < 4 ->
    vec 2 (accs8 L R (row * ls) (col * rs) j G) = vec 2 (pac4 row (col + j) ++ pac4 (row + 4) (col + j)).
  Proof.
    intros Hr Hc Hj. rewrite vec2_mod. f_equal. unfold accs8. rewrite !accv8_pacc by (assumption || lia). unfold pac4, pacc16. cbn [app map]. rewrite Z.add_0_r.
    replace (row + 4 + 1) with (row + 5) by ring. replace (row + 4 + 2) with (row + 6) by ring. replace (row + 4 + 3) with (row + 7) by ring. reflexivity.
  Qed.
  Lemma pac4_bd row j : Forall (fun x => 0 <= x < 65536) (pac4 row j).
  Proof.
    unfold pac4, pacc16. change 65536 with (2 ^ 16). repeat (constructor; [apply Z.mod_pos_bound; lia|]). constructor.
  Qed.
  Definition out4 (row j : Z) : list Z := [V84 row j; V84 (row + 1) j; V84 (row + 2) j; V84 (row + 3) j].
  Definition raw4 (row j : Z) : list Z := zipw (fun '(x, m) b => tval ops (p_cmin o) (p_cmax o) x m b)
    (zipw pair (map (fun x => x * 2 ^ 1) (pac4 row j)) (wlist (p_mul o) row 4)) (wlist (p_bias o) row 4).
  Lemma raw4_ok row j : 
    v_fadd ops (v_fmul ops (v_scvtf ops (v_smin (v_smax (vec 4 (map (fun x => x * 2 ^ 1) (pac4 row j))) (v_dup4 (p_cmin o mod 2 ^ 32))) (v_dup4 (p_cmax o mod 2 ^ 32))))
      (vec 4 (wlist (p_mul o) row 4))) (vec 4 (wlist (p_bias o) row 4)) = vec 4 (raw4 row j).
  Proof.
    apply trans4; [exact Hops|exact Hmin|exact Hmax| |apply wlist_pat, Hmul|apply wlist_pat, Hbias|reflexivity].
    assert (B := pac4_bd row j). apply Forall_forall. intros x Hx. apply in_map_iff in Hx. destruct Hx as (y & <- & Hy).
    rewrite Forall_forall in B. specialize (B y Hy). unfold int32. change (2 ^ 1) with 2. lia.
  Qed.
  Lemma raw4_pat row j : Forall pat (raw4 row j).
  Proof. unfold raw4, pac4. cbn [map wlist zipw]. repeat (constructor; [apply tval_pat, Hops|]). constructor. Qed.
  Lemma raw4_out row j : (if is_int8 t then map (fun y => sat8z (n_cvtns ops y)) (raw4 row j) else raw4 row j) = out4 row j.
  Proof.
    unfold raw4, pac4, out4, V84, oval. cbn [map wlist zipw]. change (2 ^ 1) with 2. rewrite !(Z.mul_comm _ 2).
    replace (row + 1 + 1) with (row + 2) by ring. replace (row + 2 + 1) with (row + 3) by ring.
    destruct (is_int8 t); reflexivity.
  Qed.

  (** What the output registers hold: columns of the block. *)
  Definition colv8 (vals : Z -> Z -> Z) (j : Z) : list Z := [vals 0 j; vals 1 j; vals 2 j; vals 3 j; vals 4 j; vals 5 j; vals 6 j; vals 7 j].
  Definition held8 (vals : Z -> Z -> Z) (f : nat -> list Z) : Prop := forall j, 0 <= j < 4 ->
    (is_float t = true -> f (20 + 2 * Z.to_nat j)%nat = vec 4 (firstn 4 (colv8 vals j)) /\ f (21 + 2 * Z.to_nat j)%nat = vec 4 (skipn 4 (colv8 vals j))) /\
    (is_float t = false -> firstn 8 (f (20 + Z.to_nat j)%nat) = vec 1 (colv8 vals j)).
  (** 944-1042 *)
  Lemma wp_transform8 f g fl tm lg row col a b x1 x2 (Q : st -> Prop) : row mod 8 = 0 -> col mod 4 = 0 ->
    0 <= row -> row + 8 <= zlen (p_mul o) -> row + 8 <= zlen (p_bias o) -> 0 <= a -> a + 32 <= zlen L -> 0 <= b -> b + 4 <= zlen R ->
    aregs8 L R (row * ls) (col * rs) f G G G G ->
    g PARAMS = Ptr RPar 0 -> g ROW = Int row -> g LHS = Ptr RLhs (4 * a) -> g RHS = Ptr RRhs (4 * b) ->
    g (Xr 1) = Int x1 -> g (Xr 2) = Int x2 -> g (Xr 3) = Int 8 -> g (Xr 4) = Int 4 -> 0 <= x1 < 2 ^ 31 -> 0 <= x2 < 2 ^ 31 ->
    (forall f' g' fl', held8 (fun i j => V84 (row + i) (col + j)) f' ->
       lregs8 L a f' 0 -> f' 8%nat = vec 4 (wlist R b 4) -> g' LHS = Ptr RLhs (4 * (a + 32)) -> g' RHS = Ptr RRhs (4 * (b + 4)) ->
       same_x [Xr 14; Xr 15; LHS; RHS] g' g -> cond_holds EQ fl' = (x1 =? 8) && (x2 =? 4) -> Q (mk f' g' fl' tm lg)) ->
    wp (exec ops E (k84_transform t) (mk f g fl tm lg)) Q.
  Proof.
    intros Hr Hc H0 Hm Hb Ha Hal Hb0 Hbl (A0 & A1 & A2 & A3) GP GR GL GRh G1 G2 G3 G4 Hx1 Hx2 HQ.
    set (vi := when (is_int8 t) (map V (map (fun r => VFCVTNS r r) (seq 20 8) ++
      [VSQXTN4H 28 20; VSQXTN8H 28 21; VSQXTN4H 29 22; VSQXTN8H 29 23; VSQXTN4H 30 24; VSQXTN8H 30 25; VSQXTN4H 31 26; VSQXTN8H 31 27;
       VSQXTN8B 20 28; VSQXTN8B 21 29; VSQXTN8B 22 30; VSQXTN8B 23 31]%nat))).
    change (k84_transform t) with
     ([ADDXI (Xr 14) PARAMS 64; ADDXI (Xr 15) PARAMS 68] ++ map V [VUSHLL 20 24 1; VUSHLL2 21 24 1]%nat ++ LD1R 29 (Xr 14) ::
      map V [VUSHLL 22 25 1; VUSHLL2 23 25 1]%nat ++ LD1R 30 (Xr 15) :: map V [VUSHLL 24 26 1; VUSHLL2 25 26 1]%nat ++ LD1 [8]%nat RHS true ::
      map V [VUSHLL 26 27 1; VUSHLL2 27 27 1]%nat ++ LDRX (Xr 14) 72 :: LDRX (Xr 15) 80 ::
      LD1 [0; 1]%nat LHS true :: map V [VSMAX 20 20 29; VSMAX 21 21 29]%nat ++ LD1 [2; 3]%nat LHS true :: map V [VSMAX 22 22 29; VSMAX 23 23 29]%nat ++
      LD1 [4; 5]%nat LHS true :: map V [VSMAX 24 24 29; VSMAX 25 25 29]%nat ++ LD1 [6; 7]%nat LHS true :: map V [VSMAX 26 26 29; VSMAX 27 27 29]%nat ++
      ADDX (Xr 14) (Xr 14) ROW 2 :: ADDX (Xr 15) (Xr 15) ROW 2 :: map V (map (fun r => VSMIN r r 30) (seq 20 4)) ++ LD1 [28; 29]%nat (Xr 14) false ::
      map V (map (fun r => VSMIN r r 30) (seq 24 4) ++ map (fun r => VSCVTF r r) (seq 20 4)) ++ LD1 [30; 31]%nat (Xr 15) false ::
      map V (map (fun r => VSCVTF r r) (seq 24 4) ++ [VFMUL 20 20 28; VFMUL 21 21 29; VFMUL 22 22 28; VFMUL 23 23 29;
        VFMUL 24 24 28; VFMUL 25 25 29; VFMUL 26 26 28; VFMUL 27 27 29; VFADD 20 20 30; VFADD 21 21 31; VFADD 22 22 30; VFADD 23 23 31;
        VFADD 24 24 30; VFADD 25 25 31; VFADD 26 26 30; VFADD 27 27 31]%nat) ++ vi ++ [CMPW (Xr 1) (Xr 3); CCMPEQ (Xr 2) (Xr 4)]).
    apply wp_exec_app, wp_exec_cons. eapply wp_addxi; [exact GP|]. apply wp_exec_cons. eapply wp_addxi; [exact GP|]. cbn [exec wp].
    apply wp_exec_app, wp_vs, wp_exec_cons. eapply (wp_ld1r _ _ _ _ _ _ _ _ _ 64); [reflexivity|reflexivity|exact P64|].
    apply wp_exec_app, wp_vs, wp_exec_cons. eapply (wp_ld1r _ _ _ _ _ _ _ _ _ 68); [reflexivity|reflexivity|exact P68|].
    apply wp_exec_app, wp_vs, wp_exec_cons. eapply (wp_ld1 _ _ _ _ _ _ _ _ _ RRhs R b); [exact GRh|exact ER|lia|lia|].
    apply wp_exec_app, wp_vs, wp_exec_cons. eapply wp_ldrx; [exact P72|]. apply wp_exec_cons. eapply wp_ldrx; [exact P80|].
    apply wp_exec_cons. eapply (wp_ld2 _ _ _ _ _ _ _ _ _ _ RLhs L a); [exact GL|exact EL|lia|lia|].
    apply wp_exec_app, wp_vs, wp_exec_cons. eapply (wp_ld2 _ _ _ _ _ _ _ _ _ _ RLhs L (a + 8)); [reflexivity|exact EL|lia|lia|].
    apply wp_exec_app, wp_vs, wp_exec_cons. eapply (wp_ld2 _ _ _ _ _ _ _ _ _ _ RLhs L (a + 8 + 8)); [reflexivity|exact EL|lia|lia|].
    apply wp_exec_app, wp_vs, wp_exec_cons. eapply (wp_ld2 _ _ _ _ _ _ _ _ _ _ RLhs L (a + 8 + 8 + 8)); [reflexivity|exact EL|lia|lia|].
    apply wp_exec_app, wp_vs.
    apply wp_exec_cons. eapply (wp_addx _ _ _ _ _ _ RMul 0 row); [reflexivity|exact GR|].
    apply wp_exec_cons. eapply (wp_addx _ _ _ _ _ _ RBias 0 row); [reflexivity|exact GR|].
    apply wp_exec_app, wp_vs, wp_exec_cons. eapply (wp_ld2n _ _ _ _ _ _ _ _ _ _ RMul (p_mul o) row); [cbn [xupd xeqb Nat.eqb]; f_equal; change (2 ^ 2) with 4; ring|exact EM|lia|lia|].
    apply wp_exec_app, wp_vs, wp_exec_cons. eapply (wp_ld2n _ _ _ _ _ _ _ _ _ _ RBias (p_bias o) row); [cbn [xupd xeqb Nat.eqb]; f_equal; change (2 ^ 2) with 4; ring|exact EB|lia|lia|].
    apply wp_exec_app, wp_vs.
    match goal with |- wp (exec ops E _ (mk ?ff ?gg _ _ _)) _ => set (f1 := ff); set (g1 := gg) end.
    assert (S1 : same_x [Xr 14; Xr 15; LHS; RHS] g1 g) by (unfold g1; sx).
    assert (GL1 : g1 LHS = Ptr RLhs (4 * (a + 8 + 8 + 8 + 8))) by reflexivity.
    assert (GR1 : g1 RHS = Ptr RRhs (4 * (b + 4))) by reflexivity.
    assert (L1 : lregs8 L a f1 0).
    { assert (A : f1 0%nat = vec 4 (wlist L a 4) /\ f1 1%nat = vec 4 (wlist L (a + 4) 4) /\ f1 2%nat = vec 4 (wlist L (a + 8) 4) /\ f1 3%nat = vec 4 (wlist L (a + 8 + 4) 4) /\
        f1 4%nat = vec 4 (wlist L (a + 8 + 8) 4) /\ f1 5%nat = vec 4 (wlist L (a + 8 + 8 + 4) 4) /\ f1 6%nat = vec 4 (wlist L (a + 8 + 8 + 8) 4) /\ f1 7%nat = vec 4 (wlist L (a + 8 + 8 + 8 + 4) 4)).
      { unfold f1. repeat split; vsok. }
      unfold lregs8, Lg8. replace (a + 32 * 0 + 4 * 0) with a by ring. replace (a + 32 * 0 + 4 * 1) with (a + 4) by ring.
      replace (a + 32 * 0 + 4 * 2) with (a + 8) by ring. replace (a + 32 * 0 + 4 * 3) with (a + 8 + 4) by ring. replace (a + 32 * 0 + 4 * 4) with (a + 8 + 8) by ring.
      replace (a + 32 * 0 + 4 * 5) with (a + 8 + 8 + 4) by ring. replace (a + 32 * 0 + 4 * 6) with (a + 8 + 8 + 8) by ring.
      replace (a + 32 * 0 + 4 * 7) with (a + 8 + 8 + 8 + 4) by ring. exact A. }
    assert (F8 : f1 8%nat = vec 4 (wlist R b 4)) by (unfold f1; vsok).
    set (tr := fun c k => v_fadd ops (v_fmul ops (v_scvtf ops (v_smin (v_smax c (v_dup4 (p_cmin o mod 2 ^ 32))) (v_dup4 (p_cmax o mod 2 ^ 32))))
          (vec 4 (wlist (p_mul o) k 4))) (vec 4 (wlist (p_bias o) k 4))).
    assert (T1 : f1 20%nat = tr (v_ushll 1 (f 24%nat)) row /\ f1 21%nat = tr (v_ushll2 1 (f 24%nat)) (row + 4) /\
      f1 22%nat = tr (v_ushll 1 (f 25%nat)) row /\ f1 23%nat = tr (v_ushll2 1 (f 25%nat)) (row + 4) /\
      f1 24%nat = tr (v_ushll 1 (f 26%nat)) row /\ f1 25%nat = tr (v_ushll2 1 (f 26%nat)) (row + 4) /\
      f1 26%nat = tr (v_ushll 1 (f 27%nat)) row /\ f1 27%nat = tr (v_ushll2 1 (f 27%nat)) (row + 4)).
    { unfold f1, tr. repeat split; cbv [vrun fold_left vexec1 vupd Nat.eqb map app sv mk Nat.add seq]; reflexivity. }
    assert (T2 : forall j fr, 0 <= j < 4 -> fr = vec 2 (accs8 L R (row * ls) (col * rs) j G) ->
      tr (v_ushll 1 fr) row = vec 4 (raw4 row (col + j)) /\ tr (v_ushll2 1 fr) (row + 4) = vec 4 (raw4 (row + 4) (col + j))).
    { intros j fr Hj ->. rewrite accs8_pac by assumption. rewrite ushll_ok, ushll2_ok by (reflexivity || apply pac4_bd). unfold tr. rewrite !raw4_ok. auto. }
    destruct T1 as (t0 & t1 & t2 & t3 & t4 & t5 & t6 & t7).
    destruct (T2 0 _ ltac:(lia) A0) as [u0 u1]. destruct (T2 1 _ ltac:(lia) A1) as [u2 u3]. destruct (T2 2 _ ltac:(lia) A2) as [u4 u5]. destruct (T2 3 _ ltac:(lia) A3) as [u6 u7].
    rewrite u0 in t0. rewrite u1 in t1. rewrite u2 in t2. rewrite u3 in t3. rewrite u4 in t4. rewrite u5 in t5. rewrite u6 in t6. rewrite u7 in t7.
    clear u0 u1 u2 u3 u4 u5 u6 u7 T2. clearbody f1 g1. clear tr.
    assert (CV : forall j, colv8 (fun i j0 => V84 (row + i) (col + j0)) j = out4 row (col + j) ++ out4 (row + 4) (col + j)).
    { intros j. unfold colv8, out4. cbn [app]. rewrite Z.add_0_r.
      replace (row + 4 + 1) with (row + 5) by ring. replace (row + 4 + 2) with (row + 6) by ring. replace (row + 4 + 3) with (row + 7) by ring. reflexivity. }
    assert (Fin : forall f2 (Hh : held8 (fun i j => V84 (row + i) (col + j)) f2) (Hl : lregs8 L a f2 0) (H8 : f2 8%nat = vec 4 (wlist R b 4)),
      wp (exec ops E [CMPW (Xr 1) (Xr 3); CCMPEQ (Xr 2) (Xr 4)] (mk f2 g1 fl tm lg)) Q).
    { intros f2 Hh Hl H8. apply wp_exec_cons. eapply (wp_cmpw _ _ _ _ _ _ _ _ _ x1 8); [rewrite S1 by reflexivity; exact G1|rewrite S1 by reflexivity; exact G3|lia|lia|].
      apply wp_exec_cons. eapply (wp_ccmp _ _ _ _ x2 4); [rewrite S1 by reflexivity; exact G2|rewrite S1 by reflexivity; exact G4|lia|lia|]. intros fl' Hfl. cbn [exec wp].
      apply HQ; [exact Hh|exact Hl|exact H8| |exact GR1|exact S1|exact Hfl]. rewrite GL1. f_equal. ring. }
    assert (J : forall (P : Z -> Prop), P 0 -> P 1 -> P 2 -> P 3 -> forall j, 0 <= j < 4 -> P j).
    { intros P P0' P1' P2' P3' j Hj. assert (j = 0 \/ j = 1 \/ j = 2 \/ j = 3) as [-> | [-> | [-> | ->]]] by lia; assumption. }
    assert (RO := raw4_out). unfold vi. destruct (is_int8 t) eqn:Hi.
    - assert (Hf : is_float t = false) by (destruct t; discriminate || reflexivity). cbn [when].
      apply wp_exec_app, wp_vs. match goal with |- context [vrun ops ?v f1] => set (vs := v) end. apply Fin.
      + assert (I8 : forall j d0 d1, d0 = vec 4 (raw4 row (col + j)) -> d1 = vec 4 (raw4 (row + 4) (col + j)) ->
          firstn 8 (v_sqxtn8b (v_sqxtn8h (v_sqxtn4h (v_fcvtns ops d0)) (v_fcvtns ops d1))) = vec 1 (colv8 (fun i j0 => V84 (row + i) (col + j0)) j)).
        { intros j d0 d1 -> ->. rewrite int8_8 by (try apply raw4_pat; try exact Hops; reflexivity). rewrite map_app, !RO, <- CV. reflexivity. }
        unfold held8. rewrite Hf. apply J; (split; [discriminate|]); intros _.
        * rewrite <- (I8 0 _ _ t0 t1). unfold vs. cbv [vrun fold_left vexec1 vupd Nat.eqb map app sv mk Nat.add seq Z.to_nat]. reflexivity.
        * rewrite <- (I8 1 _ _ t2 t3). change (Z.to_nat 1) with 1%nat. unfold vs. cbv [vrun fold_left vexec1 vupd Nat.eqb map app sv mk Nat.add seq]. reflexivity.
        * rewrite <- (I8 2 _ _ t4 t5). change (Z.to_nat 2) with 2%nat. unfold vs. cbv [vrun fold_left vexec1 vupd Nat.eqb map app sv mk Nat.add seq]. reflexivity.
        * rewrite <- (I8 3 _ _ t6 t7). change (Z.to_nat 3) with 3%nat. unfold vs. cbv [vrun fold_left vexec1 vupd Nat.eqb map app sv mk Nat.add seq]. reflexivity.
      + unfold lregs8. rewrite !vrun_other by reflexivity. exact L1.
      + rewrite vrun_other by reflexivity. exact F8.
    - assert (Hf : is_float t = true) by (destruct t; discriminate || reflexivity). cbn [when app]. apply Fin; [|exact L1|exact F8].
      unfold held8. rewrite Hf.
      assert (FI : forall j, firstn 4 (colv8 (fun i j0 => V84 (row + i) (col + j0)) j) = raw4 row (col + j) /\ skipn 4 (colv8 (fun i j0 => V84 (row + i) (col + j0)) j) = raw4 (row + 4) (col + j)).
      { intros j. rewrite CV, <- !RO. split; [apply firstn_app_len; reflexivity|apply skipn_app_len; reflexivity]. }
      apply J; (split; [intros _|discriminate]); match goal with |- context [colv8 _ ?j] => destruct (FI j) as [-> ->] end; split; assumption.
  Qed.
End Block8.
