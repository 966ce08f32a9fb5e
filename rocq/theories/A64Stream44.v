(** * A64Stream44: the RUY_OPT(MAX_STREAMING) branch of BinaryKernelNeon4x4
    (kernels_aarch64.h 236-276). *)
From Verif Require Import Base Spec Bits Log Bgemm A64 A64Bgemm A64Lemmas A64K44 A64Store A64Trans A64Seg A64Block44 A64Write44 A64Main44 A64Loop44 A64Kernel44.
Open Scope Z_scope.

(** The body of loop 80 and what follows it. *)
Definition ks_body : list instr :=
  [LD1 [4]%nat RHS true] ++
  LCE_BMLA_LD_RHS 25 5 0 1 2 3 ++ LCE_BMLA_LD_RHS 26 6 0 1 2 3 ++ LCE_BMLA_LD_ALL 27 7 0 1 2 3 ++
  LCE_BMLA_LD_RHS 24 12 8 9 10 11 ++ LCE_BMLA_LD_RHS 25 13 8 9 10 11 ++ LCE_BMLA_LD_RHS 26 14 8 9 10 11 ++
  LCE_BMLA_LD_ALL 27 15 8 9 10 11 ++ LCE_BMLA 24 4 0 1 2 3 ++
  [ADDWI (Xr 1) (Xr 1) 8; CMPW (Xr 1) (Xr 2)].
Definition ks_post : list instr :=
  LCE_BMLA 24 12 8 9 10 11 ++ LCE_BMLA 25 13 8 9 10 11 ++ LCE_BMLA 26 14 8 9 10 11 ++ LCE_BMLA 27 15 8 9 10 11.
Definition ks_pre : list instr :=
  [LD1 [8; 9; 10; 11]%nat LHS true; LD1 [12; 13; 14; 15]%nat RHS true; MOVI (Xr 1) 8].

Lemma zipw_swap (a : list Z) : forall b c, zipw Z.add (zipw Z.add a b) c = zipw Z.add (zipw Z.add a c) b.
Proof.
  induction a as [|x a IH]; intros b c; [reflexivity|]. destruct b as [|y b], c as [|z c]; try reflexivity. cbn [zipw]. rewrite IH. f_equal. lia.
Qed.
Section Stream.
  Variables (ops : nops) (E : env) (L R : list Z) (bl br G : Z).
  Hypothesis (HL : e_lhs E = L) (HR : e_rhs E = R) (Hbl : 0 <= bl) (Hbr : 0 <= br) (HG : 1 <= G) (HGb : 4 * G < 2 ^ 31 - 8).
  Hypothesis (HlL : bl + 16 * G <= zlen L) (HlR : br + 16 * G <= zlen R).
  Ltac inm := unfold minst; cbn [In]; tauto.
  Notation Lg := (Lg L bl). Notation Rg := (Rg R br). Notation accv := (accv L R bl br). Notation accs := (accs L R bl br).
  (** The accumulators of column [j] with group [g] added. *)
  Definition plus (a : list Z) (g j : Z) : list Z := zipw Z.add a [bp (Rg g j) (Lg g 0); bp (Rg g j) (Lg g 1); bp (Rg g j) (Lg g 2); bp (Rg g j) (Lg g 3)].
  Lemma plus_ok a g j : length a = 4%nat ->
    bmla_val (vec 4 a) (vec 4 (Rg g j)) (vec 4 (Lg g 0)) (vec 4 (Lg g 1)) (vec 4 (Lg g 2)) (vec 4 (Lg g 3)) = vec 4 (plus a g j).
  Proof. intros Ha. rewrite bmla_ok by (try apply wlist_length; exact Ha). reflexivity. Qed.
  Lemma plus_accs j n : 0 <= n -> plus (accs j n) n j = accs j (n + 1).
  Proof. intros H. unfold plus, A64K44.accs. cbn [zipw]. rewrite !accv_S by exact H. reflexivity. Qed.
  Lemma plus_comm a j g h : length a = 4%nat -> plus (plus a g j) h j = plus (plus a h j) g j.
  Proof.
    intros _. unfold plus. apply zipw_swap.
  Qed.
  Lemma plus2 j n : 0 <= n -> plus (plus (accs j n) (n + 1) j) n j = accs j (n + 2).
  Proof. intros H. rewrite plus_comm by reflexivity. rewrite !plus_accs by lia. replace (n + 1 + 1) with (n + 2) by ring. reflexivity. Qed.

  Record sinv (g0 : xreg -> val) (n : Z) (f : nat -> list Z) (g : xreg -> val) : Prop := {
    si_l : lregs L bl f 0 n; si_l2 : lregs L bl f 8 (n + 1); si_r : rregs R br f 4 n; si_r2 : rregs R br f 12 (n + 1);
    si_a : aregs L R bl br f (n + 1) n n n; si_p : ptrs bl br g (n + 2);
    si_1 : g (Xr 1) = Int (4 * (n + 2)); si_x : same_x [Xr 1; LHS; RHS] g g0 }.

  Lemma wp_sbody g0 n f g fl tm lg (Q : st -> Prop) : 0 <= n -> n + 4 <= G -> sinv g0 n f g -> g0 (Xr 2) = Int (4 * G) ->
    (forall f' g', sinv g0 (n + 2) f' g' -> Q (mk f' g' (4 * (n + 4), 4 * G) tm lg)) ->
    wp (exec ops E ks_body (mk f g fl tm lg)) Q.
  Proof.
    intros Hn HnG [(L0 & L1 & L2 & L3) (L8 & L9 & L10 & L11) (R0 & R1 & R2 & R3) (R12 & R13 & R14 & R15) (A0 & A1 & A2 & A3) (PL & PR) X1 Xs] H2 HQ.
    cbn [Nat.add] in *. unfold ks_body.
    apply wp_exec_app, wp_exec_cons. eapply wp_ld1; [exact PR|exact HR|lia|lia|]. cbn [exec wp].
    replace (br + 16 * (n + 2) + 4) with (br + 16 * (n + 2) + 4 * 1) by ring.
    apply wp_exec_app. eapply wp_bmla_ld_rhs; [inm|reflexivity|exact HR|lia|lia|]. intros f1 g1 F1 F1r F1o G1 G1o.
    replace (br + 16 * (n + 2) + 4 * 1 + 4) with (br + 16 * (n + 2) + 4 * 2) in * by ring.
    apply wp_exec_app. eapply wp_bmla_ld_rhs; [inm|exact G1|exact HR|lia|lia|]. intros f2 g2 F2 F2r F2o G2 G2o.
    replace (br + 16 * (n + 2) + 4 * 2 + 4) with (br + 16 * (n + 2) + 4 * 3) in * by ring.
    apply wp_exec_app. eapply (wp_bmla_ld_all _ _ 27 7 0 1 2 3 f2 g2 _ _ _ L R (bl + 16 * (n + 2))); [inm|exact G2|exact HR|lia|lia| |exact HL|lia|lia|].
    { rewrite G2o, G1o by reflexivity. exact PL. }
    intros f3 g3 F3 F3r F30 F31 F32 F33 F3o G3r G3l G3o.
    replace (br + 16 * (n + 2) + 4 * 3 + 4) with (br + 16 * (n + 3)) in * by ring.
    replace (bl + 16 * (n + 2) + 16) with (bl + 16 * (n + 3)) in * by ring.
    apply wp_exec_app. eapply wp_bmla_ld_rhs; [inm|exact G3r|exact HR|lia|lia|]. intros f4 g4 F4 F4r F4o G4 G4o.
    replace (br + 16 * (n + 3) + 4) with (br + 16 * (n + 3) + 4 * 1) in * by ring.
    apply wp_exec_app. eapply wp_bmla_ld_rhs; [inm|exact G4|exact HR|lia|lia|]. intros f5 g5 F5 F5r F5o G5 G5o.
    replace (br + 16 * (n + 3) + 4 * 1 + 4) with (br + 16 * (n + 3) + 4 * 2) in * by ring.
    apply wp_exec_app. eapply wp_bmla_ld_rhs; [inm|exact G5|exact HR|lia|lia|]. intros f6 g6 F6 F6r F6o G6 G6o.
    replace (br + 16 * (n + 3) + 4 * 2 + 4) with (br + 16 * (n + 3) + 4 * 3) in * by ring.
    apply wp_exec_app. eapply (wp_bmla_ld_all _ _ 27 15 8 9 10 11 f6 g6 _ _ _ L R (bl + 16 * (n + 3))); [inm|exact G6|exact HR|lia|lia| |exact HL|lia|lia|].
    { rewrite G6o, G5o, G4o by reflexivity. exact G3l. }
    intros f7 g7 F7 F7r F70 F71 F72 F73 F7o G7r G7l G7o.
    apply wp_exec_app, wp_bmla; [inm|]. intros f8 F8 F8o.
    apply wp_exec_cons. eapply (wp_addwi _ _ _ _ _ _ _ _ _ _ (4 * (n + 2))); [|lia|lia|].
    { rewrite G7o, G6o, G5o, G4o, G3o, G2o, G1o by reflexivity. exact X1. }
    apply wp_exec_cons. eapply (wp_cmpw _ _ _ _ _ _ _ _ _ (4 * (n + 2) + 8) (4 * G)); [reflexivity| |lia|lia|].
    { rewrite xupd_other by reflexivity. rewrite G7o, G6o, G5o, G4o, G3o, G2o, G1o by reflexivity. rewrite xupd_other by reflexivity.
      rewrite Xs by reflexivity. exact H2. }
    cbn [exec wp]. replace (4 * (n + 2) + 8) with (4 * (n + 4)) by ring.
    (* group n *)
    assert (E25 : f3 25%nat = vec 4 (accs 1 (n + 1))).
    { rewrite F3o, F2o, F1 by (reflexivity || lia). rewrite !vupd_other by reflexivity. rewrite A1, R1, L0, L1, L2, L3. apply accs_S, Hn. }
    assert (E26 : f3 26%nat = vec 4 (accs 2 (n + 1))).
    { rewrite F3o, F2 by (reflexivity || lia). rewrite !F1o by (reflexivity || lia). rewrite !vupd_other by reflexivity.
      rewrite A2, R2, L0, L1, L2, L3. apply accs_S, Hn. }
    assert (E27 : f3 27%nat = vec 4 (accs 3 (n + 1))).
    { rewrite F3 by (reflexivity || lia). rewrite !F2o, !F1o by (reflexivity || lia). rewrite !vupd_other by reflexivity.
      rewrite A3, R3, L0, L1, L2, L3. apply accs_S, Hn. }
    assert (E24 : f3 24%nat = vec 4 (accs 0 (n + 1))).
    { rewrite F3o, F2o, F1o by (reflexivity || lia). rewrite vupd_other by reflexivity. exact A0. }
    assert (Keep : forall q, (q < 28)%nat -> existsb (Nat.eqb q) [0; 1; 2; 3; 4; 5; 6; 7; 24; 25; 26; 27]%nat = false -> f3 q = f q).
    { intros q Hq Hx. cbn [existsb] in Hx. repeat (apply orb_false_iff in Hx; let A := fresh "N" in destruct Hx as [A Hx]).
      rewrite F3o, F2o, F1o by assumption. apply vupd_other. assumption. }
    assert (E8 : f3 8%nat = vec 4 (Lg (n + 1) 0)) by (rewrite Keep by (reflexivity || lia); exact L8).
    assert (E9 : f3 9%nat = vec 4 (Lg (n + 1) 1)) by (rewrite Keep by (reflexivity || lia); exact L9).
    assert (E10 : f3 10%nat = vec 4 (Lg (n + 1) 2)) by (rewrite Keep by (reflexivity || lia); exact L10).
    assert (E11 : f3 11%nat = vec 4 (Lg (n + 1) 3)) by (rewrite Keep by (reflexivity || lia); exact L11).
    assert (E12 : f3 12%nat = vec 4 (Rg (n + 1) 0)) by (rewrite Keep by (reflexivity || lia); exact R12).
    assert (E13 : f3 13%nat = vec 4 (Rg (n + 1) 1)) by (rewrite Keep by (reflexivity || lia); exact R13).
    assert (E14 : f3 14%nat = vec 4 (Rg (n + 1) 2)) by (rewrite Keep by (reflexivity || lia); exact R14).
    assert (E15 : f3 15%nat = vec 4 (Rg (n + 1) 3)) by (rewrite Keep by (reflexivity || lia); exact R15).
    (* group n + 1 *)
    replace (n + 2) with (n + 1 + 1) in * by ring.
    assert (H24 : f7 24%nat = vec 4 (accs 0 (n + 1 + 1))).
    { rewrite F7o, F6o, F5o, F4 by (reflexivity || lia). rewrite E24, E12, E8, E9, E10, E11. apply accs_S. lia. }
    assert (H25 : f7 25%nat = vec 4 (accs 1 (n + 1 + 1))).
    { rewrite F7o, F6o, F5 by (reflexivity || lia). rewrite !F4o by (reflexivity || lia). rewrite E25, E13, E8, E9, E10, E11. apply accs_S. lia. }
    assert (H26 : f7 26%nat = vec 4 (accs 2 (n + 1 + 1))).
    { rewrite F7o, F6 by (reflexivity || lia). rewrite !F5o, !F4o by (reflexivity || lia). rewrite E26, E14, E8, E9, E10, E11. apply accs_S. lia. }
    assert (H27 : f7 27%nat = vec 4 (accs 3 (n + 1 + 1))).
    { rewrite F7. rewrite !F6o, !F5o, !F4o by (reflexivity || lia). rewrite E27, E15, E8, E9, E10, E11. apply accs_S. lia. }
    assert (Keep7 : forall q, (q < 28)%nat -> existsb (Nat.eqb q) [8; 9; 10; 11; 12; 13; 14; 15; 24; 25; 26; 27]%nat = false -> f7 q = f3 q).
    { intros q Hq Hx. cbn [existsb] in Hx. repeat (apply orb_false_iff in Hx; let A := fresh "N" in destruct Hx as [A Hx]).
      rewrite F7o, F6o, F5o, F4o by assumption. reflexivity. }
    replace (bl + 16 * (n + 1 + 1) + 4) with (bl + 16 * (n + 1 + 1) + 4 * 1) in * by ring.
    replace (bl + 16 * (n + 1 + 1) + 8) with (bl + 16 * (n + 1 + 1) + 4 * 2) in * by ring.
    replace (bl + 16 * (n + 1 + 1) + 12) with (bl + 16 * (n + 1 + 1) + 4 * 3) in * by ring.
    replace (n + 3) with (n + 1 + 1 + 1) in * by ring.
    replace (bl + 16 * (n + 1 + 1 + 1) + 4) with (bl + 16 * (n + 1 + 1 + 1) + 4 * 1) in * by ring.
    replace (bl + 16 * (n + 1 + 1 + 1) + 8) with (bl + 16 * (n + 1 + 1 + 1) + 4 * 2) in * by ring.
    replace (bl + 16 * (n + 1 + 1 + 1) + 12) with (bl + 16 * (n + 1 + 1 + 1) + 4 * 3) in * by ring.
    assert (J0 : f7 0%nat = vec 4 (Lg (n + 1 + 1) 0)) by (rewrite Keep7, F30 by (reflexivity || lia); unfold A64K44.Lg; rewrite Z.mul_0_r, Z.add_0_r; reflexivity).
    assert (J1 : f7 1%nat = vec 4 (Lg (n + 1 + 1) 1)) by (rewrite Keep7 by (reflexivity || lia); exact F31).
    assert (J2 : f7 2%nat = vec 4 (Lg (n + 1 + 1) 2)) by (rewrite Keep7 by (reflexivity || lia); exact F32).
    assert (J3 : f7 3%nat = vec 4 (Lg (n + 1 + 1) 3)) by (rewrite Keep7 by (reflexivity || lia); exact F33).
    assert (J4 : f7 4%nat = vec 4 (Rg (n + 1 + 1) 0)).
    { rewrite Keep7, F3o, F2o, F1o by (reflexivity || lia). cbn [vupd Nat.eqb]. unfold A64K44.Rg. rewrite Z.mul_0_r, Z.add_0_r. reflexivity. }
    apply HQ. constructor.
    - unfold lregs. cbn [Nat.add]. rewrite !F8o by (reflexivity || lia). auto.
    - unfold lregs. cbn [Nat.add]. rewrite !F8o by (reflexivity || lia). rewrite F70. unfold A64K44.Lg. rewrite Z.mul_0_r, Z.add_0_r. auto.
    - unfold rregs. cbn [Nat.add]. rewrite !F8o by (reflexivity || lia). split; [exact J4|]. rewrite !Keep7 by (reflexivity || lia).
      rewrite (F3o 5%nat), (F3o 6%nat), (F2o 5%nat), F1r, F2r by (reflexivity || lia). auto.
    - unfold rregs. cbn [Nat.add]. rewrite !F8o by (reflexivity || lia).
      rewrite (F7o 12%nat), (F7o 13%nat), (F7o 14%nat), (F6o 12%nat), (F6o 13%nat), (F5o 12%nat), F4r, F5r, F6r by (reflexivity || lia).
      split; [unfold A64K44.Rg; rewrite Z.mul_0_r, Z.add_0_r; reflexivity|auto].
    - unfold aregs. rewrite (F8o 25%nat), (F8o 26%nat), (F8o 27%nat), F8 by (reflexivity || lia). split; [|auto].
      rewrite H24, J4, J0, J1, J2, J3. apply accs_S. lia.
    - split.
      + rewrite xupd_other by reflexivity. rewrite G7l. f_equal. ring.
      + rewrite xupd_other by reflexivity. rewrite G7r. f_equal. ring.
    - cbn [xupd xeqb Nat.eqb]. f_equal. ring.
    - intros q Hq. cbn [forallb] in Hq. destruct (xeqb q (Xr 1)) eqn:Q1; [discriminate|]. destruct (xeqb q LHS) eqn:Q2; [discriminate|].
      destruct (xeqb q RHS) eqn:Q3; [discriminate|]. rewrite xupd_other by exact Q1. rewrite G7o, G6o, G5o, G4o, G3o, G2o, G1o, xupd_other by assumption.
      apply Xs. cbn [forallb]. rewrite Q1, Q2, Q3. reflexivity.
  Qed.

  (** After the loop: group [n + 1] is added, group [n] still missing in v25-v27. *)
  Lemma wp_spost n f g fl tm lg (Q : st -> Prop) : 0 <= n -> lregs L bl f 0 n -> lregs L bl f 8 (n + 1) -> rregs R br f 4 n -> rregs R br f 12 (n + 1) ->
    aregs L R bl br f (n + 1) n n n ->
    (forall f', lregs L bl f' 0 n -> rregs R br f' 4 n -> f' 24%nat = vec 4 (accs 0 (n + 2)) -> f' 25%nat = vec 4 (plus (accs 1 n) (n + 1) 1) ->
       f' 26%nat = vec 4 (plus (accs 2 n) (n + 1) 2) -> f' 27%nat = vec 4 (plus (accs 3 n) (n + 1) 3) -> Q (mk f' g fl tm lg)) ->
    wp (exec ops E ks_post (mk f g fl tm lg)) Q.
  Proof.
    intros Hn (L0 & L1 & L2 & L3) (L8 & L9 & L10 & L11) (R0 & R1 & R2 & R3) (R12 & R13 & R14 & R15) (A0 & A1 & A2 & A3) HQ. cbn [Nat.add] in *.
    unfold ks_post. apply wp_exec_app, wp_bmla; [inm|]. intros f1 F1 F1o. apply wp_exec_app, wp_bmla; [inm|]. intros f2 F2 F2o.
    apply wp_exec_app, wp_bmla; [inm|]. intros f3 F3 F3o. apply wp_bmla; [inm|]. intros f4 F4 F4o.
    apply HQ.
    - unfold lregs. cbn [Nat.add]. rewrite !F4o, !F3o, !F2o, !F1o by (reflexivity || lia). auto.
    - unfold rregs. cbn [Nat.add]. rewrite !F4o, !F3o, !F2o, !F1o by (reflexivity || lia). auto.
    - rewrite F4o, F3o, F2o, F1 by (reflexivity || lia). rewrite A0, R12, L8, L9, L10, L11. replace (n + 2) with (n + 1 + 1) by ring. apply accs_S. lia.
    - rewrite F4o, F3o, F2 by (reflexivity || lia). rewrite !F1o by (reflexivity || lia). rewrite A1, R13, L8, L9, L10, L11. apply plus_ok. reflexivity.
    - rewrite F4o, F3 by (reflexivity || lia). rewrite !F2o, !F1o by (reflexivity || lia). rewrite A2, R14, L8, L9, L10, L11. apply plus_ok. reflexivity.
    - rewrite F4. rewrite !F3o, !F2o, !F1o by (reflexivity || lia). rewrite A3, R15, L8, L9, L10, L11. apply plus_ok. reflexivity.
  Qed.
  (** The tail adds it. *)
  Lemma wp_stail n f g fl tm lg (Q : st -> Prop) : 0 <= n -> lregs L bl f 0 n -> rregs R br f 4 n -> f 24%nat = vec 4 (accs 0 (n + 2)) ->
    f 25%nat = vec 4 (plus (accs 1 n) (n + 1) 1) -> f 26%nat = vec 4 (plus (accs 2 n) (n + 1) 2) -> f 27%nat = vec 4 (plus (accs 3 n) (n + 1) 3) ->
    (forall f', aregs L R bl br f' (n + 2) (n + 2) (n + 2) (n + 2) -> Q (mk f' g fl tm lg)) ->
    wp (exec ops E k44_tail (mk f g fl tm lg)) Q.
  Proof.
    intros Hn (L0 & L1 & L2 & L3) (R0 & R1 & R2 & R3) A0 A1 A2 A3 HQ. cbn [Nat.add] in *.
    unfold k44_tail. apply wp_exec_app, wp_bmla; [inm|]. intros f1 F1 F1o.
    apply wp_exec_app, wp_bmla; [inm|]. intros f2 F2 F2o. apply wp_bmla; [inm|]. intros f3 F3 F3o.
    apply HQ. unfold aregs. rewrite (F3o 24%nat), (F3o 25%nat), (F3o 26%nat), F3, (F2o 24%nat), (F2o 25%nat), F2, (F1o 24%nat), F1 by (reflexivity || lia).
    rewrite !F2o, !F1o by (reflexivity || lia). rewrite A0, A1, A2, A3, R1, R2, R3, L0, L1, L2, L3.
    rewrite !plus_ok by reflexivity. rewrite !plus2 by exact Hn. auto.
  Qed.
End Stream.

Lemma land_m4 G : Z.land (4 * G) (-4) = 4 * G.
Proof.
  replace (4 * G) with (Z.shiftl G 2) by (rewrite Z.shiftl_mul_pow2 by lia; change (2 ^ 2) with 4; ring).
  apply Z.bits_inj'. intros n Hn. rewrite Z.land_spec. change (-4) with (Z.shiftl (-1) 2). rewrite !Z.shiftl_spec by lia.
  destruct (Z.leb_spec 0 (n - 2)); [rewrite Z.bits_m1 by lia; apply andb_true_r|rewrite Z.testbit_neg_r by lia; reflexivity].
Qed.
(** With streaming, the accumulation is right when depth is 4 or a multiple of 8
    that is at least 16. *)
Lemma acc_stream ops E L R G t Q : e_lhs E = L -> e_rhs E = R -> 1 <= G -> 128 * G < 2 ^ 30 -> is_bits t = false ->
  G = 1 \/ (4 <= G /\ G mod 2 = 0) -> acc_spec ops E t L R G true Q.
Proof.
  intros EL ER HG HG2 Ht HGe bl br f g fl tm lg Hbl Hbr HlL HlR Hl Hr Hp H1 H12 Hz HQ.
  set (pre := [ANDWI (Xr 2) (Xr 12) (-4)] ++ ks_pre).
  assert (C : code_at (k44 true t) o_top ((LBL 1 :: LCE_BMLA 24 4 0 1 2 3 ++ [CMPWI (Xr 12) 8]) ++ [BC LT 78] ++ pre ++ (LBL 80 :: ks_body) ++ [BC LT 80] ++ ks_post ++ LBL 78 :: plain))
    by (destruct t; reflexivity || discriminate).
  assert (o1 := eq_refl : (o_top + 15 = 30)%nat).
  apply code_at_app in C. destruct C as [C1 C]. apply code_at_cons in C. destruct C as [C2 C].
  apply code_at_app in C. destruct C as [C3 C]. apply code_at_app in C. destruct C as [C4 C]. apply code_at_cons in C. destruct C as [C5 C].
  apply code_at_app in C. destruct C as [C6 C]. assert (C78 := C). apply code_at_cons in C78. destruct C78 as [C7 C8].
  match type of C2 with nth_error _ ?x = _ => set (p1 := x) in *; assert (E1 : p1 = 30%nat) by reflexivity end.
  match type of C4 with code_at _ ?x _ => set (p80 := x) in *; assert (E80 : p80 = 35%nat) by reflexivity end.
  match type of C5 with nth_error _ ?x = _ => set (p5 := x) in *; assert (E5 : p5 = (p80 + S (length ks_body))%nat) by reflexivity end.
  match type of C with code_at _ ?x _ => set (p78 := x) in *; assert (E78 : p78 = (S p5 + length ks_post)%nat) by reflexivity end.
  assert (F78 : find 78 (k44 true t) 0 = Some p78) by (destruct t; reflexivity || discriminate).
  assert (F80 : find 80 (k44 true t) 0 = Some p80) by (destruct t; reflexivity || discriminate).
  assert (F2 : find 2 (k44 true t) 0 = Some (S p78 + 2)%nat) by (destruct t; reflexivity || discriminate).
  assert (F79 : find 79 (k44 true t) 0 = Some (S p78 + 3 + length k44_loop + 1)%nat) by (destruct t; reflexivity || discriminate).
  assert (Eadv : o_adv true = (S p78 + length plain)%nat) by reflexivity.
  clearbody p1 p80 p5 p78.
  eapply ends_exec; [exact C1|reflexivity|]. apply wp_exec_cons, wp_lbl, wp_exec_app. destruct Hz as (z0 & z1 & z2 & z3).
  apply (wp_first ops E L R bl br); try assumption. intros f' A1 A2 A3.
  apply wp_exec_cons. eapply wp_cmpwi; [exact H12|lia|]. cbn [exec wp].
  change (o_top + length (LBL 1%nat :: LCE_BMLA 24 4 0 1 2 3 ++ [CMPWI (Xr 12) 8]))%nat with 30%nat. rewrite <- E1.
  destruct HGe as [-> | [HG4 HGm]].
  - eapply ends_bc; [exact C2|exact F78| |]; cbn [cond_holds sfl mk]; [intros _|discriminate].
    apply (ends_exec _ _ _ _ _ _ [LBL 78]); [apply code_at_cons; split; [exact C7|reflexivity]|reflexivity|]. apply wp_exec_cons, wp_lbl. cbn [exec wp length].
    replace (p78 + 1)%nat with (S p78) by lia.
    eapply (ends_plain ops E L R bl br 1 EL ER Hbl Hbr ltac:(lia) HlL HlR (k44 true t) Q _ g); [exact C8|exact F2|exact F79|exact H12| |instantiate (1 := 0); lia|].
    + intros f2 g2 fl2 B1 B2. rewrite <- Eadv. apply HQ; [exact B1|]. eapply same_x_incl; [|exact B2]. reflexivity.
    + constructor; try assumption. apply same_x_refl.
  - eapply ends_bc; [exact C2|exact F78| |]; cbn [cond_holds sfl mk]; [intros Hc; apply Z.ltb_lt in Hc; lia|intros _].
    set (g1 := xupd g (Xr 2) (Int (4 * G))).
    (* label 78 *)
    assert (A78 : forall f2 g2 fl2, lregs L bl f2 0 (G - 2) -> rregs R br f2 4 (G - 2) -> f2 24%nat = vec 4 (accs L R bl br 0 G) ->
       f2 25%nat = vec 4 (plus L R bl br (accs L R bl br 1 (G - 2)) (G - 2 + 1) 1) -> f2 26%nat = vec 4 (plus L R bl br (accs L R bl br 2 (G - 2)) (G - 2 + 1) 2) ->
       f2 27%nat = vec 4 (plus L R bl br (accs L R bl br 3 (G - 2)) (G - 2 + 1) 3) -> g2 (Xr 1) = Int (4 * G) -> same_x [Xr 1; LHS; RHS] g2 g1 ->
       ends ops E (k44 true t) Q p78 (mk f2 g2 fl2 tm lg)).
    { intros f2 g2 fl2 B1 B2 B3 B4 B5 B6 B7 B8. unfold plain in C8.
      apply code_at_cons in C8. destruct C8 as [D0 D]. apply code_at_cons in D. destruct D as [D1 D]. apply code_at_cons in D. destruct D as [D2 D].
      apply code_at_app in D. destruct D as [D3 D]. apply code_at_cons in D. destruct D as [D4 D5].
      apply (ends_exec _ _ _ _ _ _ [LBL 78; CMPW (Xr 1) (Xr 12)]); [apply code_at_cons; split; [exact C7|apply code_at_cons; split; [exact D0|reflexivity]]|reflexivity|].
      apply wp_exec_cons, wp_lbl, wp_exec_cons. eapply (wp_cmpw _ _ _ _ _ _ _ _ _ (4 * G) (4 * G)); [exact B7|rewrite B8 by reflexivity; exact H12|lia|lia|]. cbn [exec wp length].
      eapply ends_bc; [replace (p78 + 2)%nat with (S (S p78)) by lia; exact D1|exact F79| |]; cbn [cond_holds sfl mk]; [intros _|rewrite Z.eqb_refl; discriminate].
      replace (S p78 + 3 + length k44_loop + 1)%nat with (S (S (S (S (S p78))) + length k44_loop)) by lia.
      eapply ends_exec; [exact D5|reflexivity|].
      apply wp_exec_cons, wp_lbl. apply (wp_stail ops E L R bl br (G - 2)); try assumption; [lia|replace (G - 2 + 2) with G by ring; exact B3|].
      intros f3 B9. replace (G - 2 + 2) with G in B9 by ring.
      match goal with |- ends _ _ _ _ ?x _ => replace x with (o_adv true) end.
      2:{ rewrite Eadv. unfold plain. rewrite !app_length. cbn [length app]. lia. }
      apply HQ; [exact B9|]. intros q Hq. rewrite B8.
      - apply xupd_other. cbn [forallb] in Hq. destruct (xeqb q (Xr 2)); [|reflexivity]. destruct (xeqb q (Xr 1)); discriminate Hq.
      - cbn [forallb] in Hq |- *. destruct (xeqb q (Xr 1)), (xeqb q (Xr 2)), (xeqb q LHS), (xeqb q RHS); try discriminate Hq; reflexivity. }
    assert (A80 : forall m n f2 g2 fl2, G = n + 4 + 2 * Z.of_nat m -> 0 <= n -> sinv L R bl br g1 n f2 g2 -> ends ops E (k44 true t) Q p80 (mk f2 g2 fl2 tm lg)).
    { induction m as [|m IH]; intros n f2 g2 fl2 Em Hn Hi.
      all: eapply ends_exec; [exact C4|reflexivity|]; apply wp_exec_cons, wp_lbl;
        apply (wp_sbody ops E L R bl br G EL ER Hbl Hbr ltac:(lia) HlL HlR g1 n); [lia|lia|exact Hi|reflexivity|]; intros f3 g3 Hi3;
        change (length (LBL 80 :: ks_body)) with (S (length ks_body)); rewrite <- E5.
      all: eapply ends_bc; [exact C5|exact F80| |]; cbn [cond_holds sfl mk]; intros Hcc.
      - apply Z.ltb_lt in Hcc. lia.
      - eapply ends_exec; [exact C6|reflexivity|]. destruct Hi3 as [I1 I2 I3 I4 I5 I6 I7 I8].
        apply (wp_spost ops E L R bl br (n + 2)); try assumption; [lia|]. intros f4 J1 J2 J3 J4 J5 J6. rewrite <- E78.
        replace (n + 2 + 2) with G in J3, I7 by lia. replace (n + 2) with (G - 2) in * by lia. apply A78; assumption.
      - apply (IH (n + 2)); [lia|lia|exact Hi3].
      - apply Z.ltb_ge in Hcc. lia. }
    eapply ends_exec; [exact C3|reflexivity|]. unfold pre, ks_pre. cbn [app].
    apply wp_exec_cons. cbn [exec1]. unfold getw, getx, setw. cbn [A64.sx mk]. rewrite H12. cbn [int_of bind]. rewrite (wmod (4 * G)), land_m4, (wmod (4 * G)) by lia. cbn [wp].
    change (set_x (mk f' g (4 * G, 8) tm lg) (Xr 2) (Int (4 * G))) with (mk f' g1 (4 * G, 8) tm lg).
    destruct Hp as [Pl Pr].
    apply wp_exec_cons. eapply (wp_ld4 _ _ _ _ _ _ _ _ _ _ _ _ RLhs L (bl + 16)); [unfold g1; rewrite xupd_other by reflexivity; rewrite Pl; f_equal; ring|exact EL|lia|lia|].
    apply wp_exec_cons. eapply (wp_ld4 _ _ _ _ _ _ _ _ _ _ _ _ RRhs R (br + 16)); [unfold g1; rewrite !xupd_other by reflexivity; rewrite Pr; f_equal; ring|exact ER|lia|lia|].
    apply wp_exec_cons, wp_movi. cbn [exec wp].
    match goal with |- ends _ _ _ _ ?x _ => replace x with p80 by (cbn [length]; lia) end.
    apply (A80 (Z.to_nat ((G - 4) / 2)) 0).
    + rewrite Z2Nat.id by (apply Z.div_pos; lia). Z.to_euclidean_division_equations; lia.
    + lia.
    + constructor.
      * exact A1.
      * unfold lregs, Lg. replace (bl + 16 * (0 + 1)) with (bl + 16) by ring. rewrite !Z.mul_0_r, !Z.add_0_r. repeat split.
      * exact A2.
      * unfold rregs, Rg. replace (br + 16 * (0 + 1)) with (br + 16) by ring. rewrite !Z.mul_0_r, !Z.add_0_r. repeat split.
      * exact A3.
      * unfold ptrs. split; cbn [xupd xeqb Nat.eqb]; f_equal; ring.
      * reflexivity.
      * sx.
Qed.
