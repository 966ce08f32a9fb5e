(** * A64Bits84: the bit-packed output variant of BinaryKernelNeon8x4. *)
From Verif Require Import Base Spec Bits Log Bgemm A64 A64Bgemm A64Lemmas A64K44 A64Store A64Trans A64Seg A64Block44 A64Write44 A64Main44 A64Loop44 A64Kernel44 A64Acc84 A64Block84 A64Write84 A64Loop84 A64Kernel84.
Open Scope Z_scope.

(** A byte from its eight bits, lowest first. *)
Definition byte8 (b : Z -> bool) : Z :=
  Z.b2z (b 0) + 2 * Z.b2z (b 1) + 4 * Z.b2z (b 2) + 8 * Z.b2z (b 3) + 16 * Z.b2z (b 4) + 32 * Z.b2z (b 5) + 64 * Z.b2z (b 6) + 128 * Z.b2z (b 7).
Lemma b2z01 b : 0 <= Z.b2z b <= 1.
Proof. destruct b; cbn; lia. Qed.
Lemma byte8_range b : 0 <= byte8 b < 256.
Proof.
  unfold byte8. assert (H := fun i => b2z01 (b i)).
  assert (H0 := H 0). assert (H1 := H 1). assert (H2 := H 2). assert (H3 := H 3). assert (H4 := H 4). assert (H5 := H 5). assert (H6 := H 6). assert (H7 := H 7). lia.
Qed.
Lemma byte8_ext b b' : (forall i, 0 <= i < 8 -> b i = b' i) -> byte8 b = byte8 b'.
Proof. intros H. unfold byte8. rewrite !H by lia. reflexivity. Qed.
Lemma byte8_mask b n : 1 <= n <= 8 -> Z.land (byte8 b) (2 ^ n - 1) = byte8 (fun i => (i <? n) && b i).
Proof.
  intros Hn. replace (2 ^ n - 1) with (Z.ones n) by (rewrite Z.ones_equiv; lia). rewrite Z.land_ones by lia.
  assert (H := fun i => b2z01 (b i)).
  assert (H0 := H 0). assert (H1 := H 1). assert (H2 := H 2). assert (H3 := H 3). assert (H4 := H 4). assert (H5 := H 5). assert (H6 := H 6). assert (H7 := H 7).
  clear H. unfold byte8.
  assert (n = 1 \/ n = 2 \/ n = 3 \/ n = 4 \/ n = 5 \/ n = 6 \/ n = 7 \/ n = 8) as [-> | [-> | [-> | [-> | [-> | [-> | [-> | ->]]]]]]] by lia;
    cbn [Z.ltb Z.compare Pos.compare Pos.compare_cont andb]; change (Z.b2z false) with 0;
    generalize dependent (Z.b2z (b 0)); generalize dependent (Z.b2z (b 1)); generalize dependent (Z.b2z (b 2)); generalize dependent (Z.b2z (b 3));
    generalize dependent (Z.b2z (b 4)); generalize dependent (Z.b2z (b 5)); generalize dependent (Z.b2z (b 6)); generalize dependent (Z.b2z (b 7)); intros.
  - change (2 ^ 1) with 2. Z.to_euclidean_division_equations; lia.
  - change (2 ^ 2) with 4. Z.to_euclidean_division_equations; lia.
  - change (2 ^ 3) with 8. Z.to_euclidean_division_equations; lia.
  - change (2 ^ 4) with 16. Z.to_euclidean_division_equations; lia.
  - change (2 ^ 5) with 32. Z.to_euclidean_division_equations; lia.
  - change (2 ^ 6) with 64. Z.to_euclidean_division_equations; lia.
  - change (2 ^ 7) with 128. Z.to_euclidean_division_equations; lia.
  - change (2 ^ 8) with 256. Z.to_euclidean_division_equations; lia.
Qed.
Lemma byte8_testbit b i : 0 <= i < 8 -> Z.testbit (byte8 b) i = b i.
Proof.
  intros Hi. unfold byte8.
  assert (i = 0 \/ i = 1 \/ i = 2 \/ i = 3 \/ i = 4 \/ i = 5 \/ i = 6 \/ i = 7) as [-> | [-> | [-> | [-> | [-> | [-> | [-> | ->]]]]]]] by lia;
  destruct (b 0), (b 1), (b 2), (b 3), (b 4), (b 5), (b 6), (b 7); reflexivity.
Qed.

(** ** Lanes *)
Lemma land_mod a b : Z.land a b mod 256 = Z.land (a mod 256) (b mod 256).
Proof.
  apply Z.bits_inj'. intros n Hn. rewrite Z.land_spec. change 256 with (2 ^ 8).
  destruct (Z.lt_ge_cases n 8).
  - rewrite !Z.mod_pow2_bits_low, Z.land_spec by lia. reflexivity.
  - rewrite !Z.mod_pow2_bits_high by lia. reflexivity.
Qed.
Lemma land_div a b : Z.land a b / 256 = Z.land (a / 256) (b / 256).
Proof. change 256 with (2 ^ 8). rewrite <- !Z.shiftr_div_pow2 by lia. apply Z.shiftr_land. Qed.
Lemma le_split_land k : forall a b, zipw Z.land (le_split k a) (le_split k b) = le_split k (Z.land a b).
Proof. induction k as [|k IH]; intros a b; [reflexivity|]. cbn [le_split zipw]. rewrite IH, land_mod, land_div. reflexivity. Qed.
Lemma v_and_vec k a : forall b, v_and (vec k a) (vec k b) = vec k (zipw Z.land a b).
Proof.
  unfold v_and. induction a as [|x a IH]; intros [|y b]; cbn [zipw vec flat_map]; try reflexivity.
  - destruct (le_split k x ++ flat_map (le_split k) a); reflexivity.
  - rewrite zipw_app by (rewrite !le_split_length; reflexivity). rewrite le_split_land. f_equal. apply IH.
Qed.
(** All ones or all zeros. *)
Definition sel (w : Z) (b : bool) : Z := if b then 2 ^ w - 1 else 0.
Lemma cmgt_ok a t : Forall (fun x => 0 <= x < 65536) a -> Forall int32 t ->
  v_cmgt (vec 4 (map (fun x => x * 2 ^ 0) a)) (vec 4 t) = vec 4 (zipw (fun x y => sel 32 (y <? x)) a t).
Proof.
  intros Ha Ht. unfold v_cmgt. rewrite (lanes4 t), (lanes4 (map _ a)). f_equal. revert t Ht.
  induction Ha as [|x a Hx Ha IH]; intros t Ht; [reflexivity|]. destruct Ht as [|y t Hy Ht]; [reflexivity|]. cbn [map zipw]. rewrite IH by exact Ht. f_equal.
  change (x * 2 ^ 0) with (x * 1). rewrite Z.mul_1_r. rewrite (sgnm y), (sgnm x) by (exact Hy || (unfold int32; lia)). reflexivity.
Qed.
Lemma xtn_ok a t a' t' : length a = 4%nat -> length t = 4%nat -> length a' = 4%nat -> length t' = 4%nat ->
  v_xtn2 (v_xtn (vec 4 (zipw (fun x y => sel 32 (y <? x)) a t))) (vec 4 (zipw (fun x y => sel 32 (y <? x)) a' t'))
  = vec 2 (zipw (fun x y => sel 32 (y <? x)) (a ++ a') (t ++ t')).
Proof.
  intros Ha Ht Ha' Ht'. unfold v_xtn2, v_xtn. rewrite (lanes4 (zipw _ a t)), (lanes4 (zipw _ a' t')).
  assert (M : forall a t, map (fun z => z mod 2 ^ 32) (zipw (fun x y => sel 32 (y <? x)) a t) = zipw (fun x y => sel 32 (y <? x)) a t).
  { intros x y. apply map_mod_id. revert y. induction x as [|p x IH]; intros [|q y]; cbn [zipw]; constructor; [|apply IH]. unfold sel. destruct (q <? p); lia. }
  rewrite !M, firstn_app_len, <- vec_app, zipw_app by (rewrite ?vec_length, ?(zipw_length _ _ _ 4) by assumption; lia). reflexivity.
Qed.
Lemma bits_ok a t : length a = 8%nat -> length t = 8%nat ->
  v_addv (v_and (vec 2 (zipw (fun x y => sel 32 (y <? x)) a t)) mask31) = vec 2 [byte8 (fun i => wat t i <? wat a i)] ++ repeat 0 14.
Proof.
  intros Ha Ht. destruct a as [|a0 [|a1 [|a2 [|a3 [|a4 [|a5 [|a6 [|a7 [|]]]]]]]]]; try discriminate.
  destruct t as [|t0 [|t1 [|t2 [|t3 [|t4 [|t5 [|t6 [|t7 [|]]]]]]]]]; try discriminate.
  unfold v_addv, mask31. rewrite v_and_vec, lanes2. cbn [zipw map].
  assert (S : forall b c, 0 <= c < 65536 -> Z.land (sel 32 b) c mod 65536 = c * Z.b2z b).
  { intros b c Hc. unfold sel. destruct b.
    - change (2 ^ 32 - 1) with (Z.ones 32). rewrite Z.land_comm, Z.land_ones by lia. rewrite (Z.mod_small c) by lia. rewrite Z.mod_small by lia. cbn. ring.
    - rewrite Z.land_0_l, Z.mod_0_l by lia. cbn. ring. }
  rewrite !S by lia. cbn [fold_right]. unfold byte8.
  change (wat [a0; a1; a2; a3; a4; a5; a6; a7] 0) with a0. change (wat [a0; a1; a2; a3; a4; a5; a6; a7] 1) with a1.
  change (wat [a0; a1; a2; a3; a4; a5; a6; a7] 2) with a2. change (wat [a0; a1; a2; a3; a4; a5; a6; a7] 3) with a3.
  change (wat [a0; a1; a2; a3; a4; a5; a6; a7] 4) with a4. change (wat [a0; a1; a2; a3; a4; a5; a6; a7] 5) with a5.
  change (wat [a0; a1; a2; a3; a4; a5; a6; a7] 6) with a6. change (wat [a0; a1; a2; a3; a4; a5; a6; a7] 7) with a7.
  change (wat [t0; t1; t2; t3; t4; t5; t6; t7] 0) with t0. change (wat [t0; t1; t2; t3; t4; t5; t6; t7] 1) with t1.
  change (wat [t0; t1; t2; t3; t4; t5; t6; t7] 2) with t2. change (wat [t0; t1; t2; t3; t4; t5; t6; t7] 3) with t3.
  change (wat [t0; t1; t2; t3; t4; t5; t6; t7] 4) with t4. change (wat [t0; t1; t2; t3; t4; t5; t6; t7] 5) with t5.
  change (wat [t0; t1; t2; t3; t4; t5; t6; t7] 6) with t6. change (wat [t0; t1; t2; t3; t4; t5; t6; t7] 7) with t7.
  f_equal. f_equal. f_equal. ring.
Qed.
Lemma first_byte x l : firstn 1 (vec 2 [x] ++ l) = [x mod 256].
Proof. reflexivity. Qed.

Record th_ok (o : otparams) (n : Z) : Prop := { th_int : Forall int32 (p_thr o); th_len : n <= zlen (p_thr o) }.
Lemma wlist_int32 ws n : forall k, Forall int32 ws -> Forall int32 (wlist ws k n).
Proof.
  induction n as [|n IH]; intros k H; cbn [wlist]; constructor; [|apply IH, H].
  unfold wat. destruct (rd ws k) as [v|] eqn:E; [|unfold int32; lia]. unfold rd in E. destruct (k <? 0); [discriminate|].
  rewrite Forall_forall in H. apply H. eapply nth_error_In. exact E.
Qed.
Section Bits8.
  Variables (ops : nops) (E : env) (o : otparams) (L R : list Z) (ls rs G : Z).
  Hypothesis (EL : e_lhs E = L) (ER : e_rhs E = R) (ET : e_thr E = p_thr o) (P64 : e_par E 64 = Some (Ptr RThr 0)).
  Hypothesis (Hthr : Forall int32 (p_thr o)).
  (** The bit of output channel [i], pixel [j]; the byte of channels [row, row + 8). *)
  Definition hbit (i j : Z) : bool := wat (p_thr o) i <? pacc16 L R ls rs G i j.
  Definition bytev (row j : Z) : Z := byte8 (fun i => hbit (row + i) j).
  Definition held_bits (row col : Z) (f : nat -> list Z) : Prop :=
    f 20%nat = vec 2 [bytev row col] ++ repeat 0 14 /\ f 21%nat = vec 2 [bytev row (col + 1)] ++ repeat 0 14 /\
    f 22%nat = vec 2 [bytev row (col + 2)] ++ repeat 0 14 /\ f 23%nat = vec 2 [bytev row (col + 3)] ++ repeat 0 14.
  Definition bitv (fr t0 t1 : list Z) : list Z := v_addv (v_and (v_xtn2 (v_xtn (v_cmgt (v_ushll 0 fr) t0)) (v_cmgt (v_ushll2 0 fr) t1)) mask31).
  Lemma bitv_ok row col j fr : row mod 8 = 0 -> col mod 4 = 0 -> 0 <= j < 4 -> fr = vec 2 (accs8 L R (row * ls) (col * rs) j G) ->
    bitv fr (vec 4 (wlist (p_thr o) row 4)) (vec 4 (wlist (p_thr o) (row + 4) 4)) = vec 2 [bytev row (col + j)] ++ repeat 0 14.
  Proof.
    intros Hr Hc Hj ->. unfold bitv.
    assert (B := fun row j => pac4_bd L R ls rs G row j).
    rewrite (accs8_pac L R ls rs G) by assumption. rewrite ushll_ok, ushll2_ok by (reflexivity || apply B).
    rewrite !cmgt_ok by (apply B || (apply wlist_int32, Hthr)). rewrite xtn_ok by reflexivity. rewrite bits_ok by reflexivity.
    assert (EB : byte8 (fun i => wat (wlist (p_thr o) row 4 ++ wlist (p_thr o) (row + 4) 4) i <? wat (pac4 L R ls rs G row (col + j) ++ pac4 L R ls rs G (row + 4) (col + j)) i) = bytev row (col + j)); [|rewrite EB; reflexivity].
    apply byte8_ext. intros i Hi. unfold hbit, pac4. cbn [wlist app].
    assert (X : forall a, row + 4 + a = row + (4 + a)) by (intros; ring). assert (Y : row + 1 + 1 = row + 2) by ring. assert (Y2 : row + 2 + 1 = row + 3) by ring.
    rewrite Y, Y2. rewrite !X. change (4 + 1) with 5. change (4 + 2) with 6. change (4 + 3) with 7.
    assert (Y3 : row + 5 + 1 = row + 6) by ring. assert (Y4 : row + 6 + 1 = row + 7) by ring. rewrite Y3, Y4.
    assert (i = 0 \/ i = 1 \/ i = 2 \/ i = 3 \/ i = 4 \/ i = 5 \/ i = 6 \/ i = 7) as [-> | [-> | [-> | [-> | [-> | [-> | [-> | ->]]]]]]] by lia;
      rewrite ?Z.add_0_r; reflexivity.
  Qed.
  (** 838-902 *)
  Lemma wp_bits8 f g fl tm lg row col a b x1 x2 (Q : st -> Prop) : row mod 8 = 0 -> col mod 4 = 0 ->
    0 <= row -> row + 8 <= zlen (p_thr o) -> 0 <= a -> a + 32 <= zlen L -> 0 <= b -> b + 4 <= zlen R ->
    aregs8 L R (row * ls) (col * rs) f G G G G -> f 31%nat = mask31 ->
    g ROW = Int row -> g LHS = Ptr RLhs (4 * a) -> g RHS = Ptr RRhs (4 * b) ->
    g (Xr 1) = Int x1 -> g (Xr 2) = Int x2 -> g (Xr 3) = Int 8 -> g (Xr 4) = Int 4 -> 0 <= x1 < 2 ^ 31 -> 0 <= x2 < 2 ^ 31 ->
    (forall f' g' fl', held_bits row col f' -> f' 31%nat = mask31 ->
       lregs8 L a f' 0 -> f' 8%nat = vec 4 (wlist R b 4) -> g' LHS = Ptr RLhs (4 * (a + 32)) -> g' RHS = Ptr RRhs (4 * (b + 4)) ->
       same_x [Xr 14; LHS; RHS] g' g -> cond_holds EQ fl' = (x1 =? 8) && (x2 =? 4) -> Q (mk f' g' fl' tm lg)) ->
    wp (exec ops E k84_bits_compute (mk f g fl tm lg)) Q.
  Proof.
    intros Hr Hc H0 Hm Ha Hal Hb0 Hbl (A0 & A1 & A2 & A3) M31 GR GL GRh G1 G2 G3 G4 Hx1 Hx2 HQ.
    change k84_bits_compute with
     ([LDRX (Xr 14) 64; ADDX (Xr 14) (Xr 14) ROW 2; LD1 [29; 30]%nat (Xr 14) false] ++
      map V [VUSHLL 20 24 0; VUSHLL2 21 24 0; VUSHLL 22 25 0; VUSHLL2 23 25 0]%nat ++ LD1 [8]%nat RHS true ::
      map V [VUSHLL 24 26 0; VUSHLL2 25 26 0; VUSHLL 26 27 0; VUSHLL2 27 27 0]%nat ++ LD1 [0; 1]%nat LHS true ::
      map V [VCMGT 20 20 29; VCMGT 21 21 30; VCMGT 22 22 29; VCMGT 23 23 30]%nat ++ LD1 [2; 3]%nat LHS true ::
      map V [VCMGT 24 24 29; VCMGT 25 25 30; VCMGT 26 26 29; VCMGT 27 27 30]%nat ++ LD1 [4; 5]%nat LHS true ::
      map V [VXTN 20 20; VXTN2 20 21; VXTN 21 22; VXTN2 21 23]%nat ++ LD1 [6; 7]%nat LHS true ::
      map V [VXTN 22 24; VXTN2 22 25; VXTN 23 26; VXTN2 23 27; VAND 20 20 31; VAND 21 21 31; VAND 22 22 31; VAND 23 23 31;
         VADDV 20 20; VADDV 21 21; VADDV 22 22; VADDV 23 23]%nat ++ [CMPW (Xr 1) (Xr 3); CCMPEQ (Xr 2) (Xr 4)]).
    apply wp_exec_app, wp_exec_cons. eapply wp_ldrx; [exact P64|].
    apply wp_exec_cons. eapply (wp_addx _ _ _ _ _ _ RThr 0 row); [reflexivity|exact GR|].
    apply wp_exec_cons. eapply (wp_ld2n _ _ _ _ _ _ _ _ _ _ RThr (p_thr o) row); [cbn [xupd xeqb Nat.eqb]; f_equal; change (2 ^ 2) with 4; ring|exact ET|lia|lia|]. cbn [exec wp].
    apply wp_exec_app, wp_vs, wp_exec_cons. eapply (wp_ld1 _ _ _ _ _ _ _ _ _ RRhs R b); [exact GRh|exact ER|lia|lia|].
    apply wp_exec_app, wp_vs, wp_exec_cons. eapply (wp_ld2 _ _ _ _ _ _ _ _ _ _ RLhs L a); [exact GL|exact EL|lia|lia|].
    apply wp_exec_app, wp_vs, wp_exec_cons. eapply (wp_ld2 _ _ _ _ _ _ _ _ _ _ RLhs L (a + 8)); [reflexivity|exact EL|lia|lia|].
    apply wp_exec_app, wp_vs, wp_exec_cons. eapply (wp_ld2 _ _ _ _ _ _ _ _ _ _ RLhs L (a + 8 + 8)); [reflexivity|exact EL|lia|lia|].
    apply wp_exec_app, wp_vs, wp_exec_cons. eapply (wp_ld2 _ _ _ _ _ _ _ _ _ _ RLhs L (a + 8 + 8 + 8)); [reflexivity|exact EL|lia|lia|].
    apply wp_exec_app, wp_vs.
    match goal with |- wp (exec ops E _ (mk ?ff ?gg _ _ _)) _ => set (f1 := ff); set (g1 := gg) end.
    assert (S1 : same_x [Xr 14; LHS; RHS] g1 g) by (unfold g1; sx).
    assert (GL1 : g1 LHS = Ptr RLhs (4 * (a + 8 + 8 + 8 + 8))) by reflexivity.
    assert (GR1 : g1 RHS = Ptr RRhs (4 * (b + 4))) by reflexivity.
    assert (L1 : lregs8 L a f1 0).
    { assert (A : f1 0%nat = vec 4 (wlist L a 4) /\ f1 1%nat = vec 4 (wlist L (a + 4) 4) /\ f1 2%nat = vec 4 (wlist L (a + 8) 4) /\ f1 3%nat = vec 4 (wlist L (a + 8 + 4) 4) /\
        f1 4%nat = vec 4 (wlist L (a + 8 + 8) 4) /\ f1 5%nat = vec 4 (wlist L (a + 8 + 8 + 4) 4) /\ f1 6%nat = vec 4 (wlist L (a + 8 + 8 + 8) 4) /\ f1 7%nat = vec 4 (wlist L (a + 8 + 8 + 8 + 4) 4)).
      { unfold f1. repeat split; vsok. }
      unfold lregs8, Lg8. replace (a + 32 * 0 + 4 * 0) with a by ring. replace (a + 32 * 0 + 4 * 1) with (a + 4) by ring.
      replace (a + 32 * 0 + 4 * 2) with (a + 8) by ring. replace (a + 32 * 0 + 4 * 3) with (a + 8 + 4) by ring. replace (a + 32 * 0 + 4 * 4) with (a + 8 + 8) by ring.
      replace (a + 32 * 0 + 4 * 5) with (a + 8 + 8 + 4) by ring. replace (a + 32 * 0 + 4 * 6) with (a + 8 + 8 + 8) by ring.
      replace (a + 32 * 0 + 4 * 7) with (a + 8 + 8 + 8 + 4) by ring. exact A. }
    assert (F8 : f1 8%nat = vec 4 (wlist R b 4)) by (unfold f1; vsok).
    assert (F31 : f1 31%nat = f 31%nat) by (unfold f1; vsok).
    assert (T1 : forall m31, f 31%nat = m31 ->
      f1 20%nat = v_addv (v_and (v_xtn2 (v_xtn (v_cmgt (v_ushll 0 (f 24%nat)) (vec 4 (wlist (p_thr o) row 4)))) (v_cmgt (v_ushll2 0 (f 24%nat)) (vec 4 (wlist (p_thr o) (row + 4) 4)))) m31) /\
      f1 21%nat = v_addv (v_and (v_xtn2 (v_xtn (v_cmgt (v_ushll 0 (f 25%nat)) (vec 4 (wlist (p_thr o) row 4)))) (v_cmgt (v_ushll2 0 (f 25%nat)) (vec 4 (wlist (p_thr o) (row + 4) 4)))) m31) /\
      f1 22%nat = v_addv (v_and (v_xtn2 (v_xtn (v_cmgt (v_ushll 0 (f 26%nat)) (vec 4 (wlist (p_thr o) row 4)))) (v_cmgt (v_ushll2 0 (f 26%nat)) (vec 4 (wlist (p_thr o) (row + 4) 4)))) m31) /\
      f1 23%nat = v_addv (v_and (v_xtn2 (v_xtn (v_cmgt (v_ushll 0 (f 27%nat)) (vec 4 (wlist (p_thr o) row 4)))) (v_cmgt (v_ushll2 0 (f 27%nat)) (vec 4 (wlist (p_thr o) (row + 4) 4)))) m31)).
    { intros m31 <-. unfold f1. repeat split; cbv [vrun fold_left vexec1 vupd Nat.eqb map app sv mk Nat.add seq]; reflexivity. }
    specialize (T1 mask31 M31). destruct T1 as (t0 & t1 & t2 & t3). clearbody f1 g1.
    assert (Hh : held_bits row col f1).
    { unfold held_bits. rewrite t0, t1, t2, t3. split; [|split; [|split]].
      - assert (B := bitv_ok row col 0 _ Hr Hc ltac:(lia) A0). rewrite Z.add_0_r in B. exact B.
      - exact (bitv_ok row col 1 _ Hr Hc ltac:(lia) A1).
      - exact (bitv_ok row col 2 _ Hr Hc ltac:(lia) A2).
      - exact (bitv_ok row col 3 _ Hr Hc ltac:(lia) A3). }
    apply wp_exec_cons. eapply (wp_cmpw _ _ _ _ _ _ _ _ _ x1 8); [rewrite S1 by reflexivity; exact G1|rewrite S1 by reflexivity; exact G3|lia|lia|].
    apply wp_exec_cons. eapply (wp_ccmp _ _ _ _ x2 4); [rewrite S1 by reflexivity; exact G2|rewrite S1 by reflexivity; exact G4|lia|lia|]. intros fl' Hfl. cbn [exec wp].
    apply HQ; [exact Hh|rewrite F31; exact M31|exact L1|exact F8| |exact GR1|exact S1|exact Hfl]. rewrite GL1. f_equal. ring.
  Qed.
End Bits8.
