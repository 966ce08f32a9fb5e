(** * A64Acc84: the accumulation of one 8x4 block in BinaryKernelNeon8x4. *)
From Verif Require Import Base Spec Bits Log Bgemm A64 A64Bgemm A64Lemmas A64K44 A64Store A64Trans A64Seg.
Open Scope Z_scope.

Ltac vsok := cbv [vrun fold_left vexec1 vupd Nat.eqb map app sv mk Nat.add]; reflexivity.
(** The register lies outside the temporaries v12-v23. *)
Definition keeps (q : nat) : Prop := (q < 12)%nat \/ (24 <= q)%nat.
Lemma keeps_neq q k : keeps q -> (12 <= k < 24)%nat -> Nat.eqb q k = false.
Proof. intros H Hk. apply Nat.eqb_neq. unfold keeps in H. lia. Qed.
Definition minst8 (d r : nat) : Prop := In (d, r) [(24, 9); (25, 10); (26, 11)]%nat.
Definition xor8 (f : nat -> list Z) (r : list Z) (l : nat -> list Z) : Prop :=
  f 12%nat = v_eor r (l 0%nat) /\ f 13%nat = v_eor r (l 1%nat) /\ f 14%nat = v_eor r (l 2%nat) /\ f 15%nat = v_eor r (l 3%nat) /\
  f 16%nat = v_eor r (l 4%nat) /\ f 17%nat = v_eor r (l 5%nat) /\ f 18%nat = v_eor r (l 6%nat) /\ f 19%nat = v_eor r (l 7%nat).
Definition accf (f : nat -> list Z) (d : nat) : list Z :=
  acc8_val (f d) (f 12%nat) (f 13%nat) (f 14%nat) (f 15%nat) (f 16%nat) (f 17%nat) (f 18%nat) (f 19%nat).

Section Macros.
  Variables (ops : nops) (E : env).
  Ltac inst H := unfold minst8 in H; cbn [In] in H;
    repeat (destruct H as [H | H]; [injection H as <- <-|]); [..|contradiction].
  Ltac kp Hk := cbn [untouched forallb vdst]; rewrite ?(keeps_neq _ 12 Hk), ?(keeps_neq _ 13 Hk), ?(keeps_neq _ 14 Hk), ?(keeps_neq _ 15 Hk),
    ?(keeps_neq _ 16 Hk), ?(keeps_neq _ 17 Hk), ?(keeps_neq _ 18 Hk), ?(keeps_neq _ 19 Hk), ?(keeps_neq _ 20 Hk), ?(keeps_neq _ 21 Hk),
    ?(keeps_neq _ 22 Hk), ?(keeps_neq _ 23 Hk) by lia.

  Lemma wp_xor f g fl tm lg (Q : st -> Prop) :
    (forall f', xor8 f' (f 8%nat) f -> (forall q, keeps q -> f' q = f q) -> Q (mk f' g fl tm lg)) ->
    wp (exec ops E (LCE_XOR 8) (mk f g fl tm lg)) Q.
  Proof.
    intros HQ. change (LCE_XOR 8) with (map V (map (fun i => VEOR (12 + i) 8 i) (seq 0 8))).
    apply wp_vs, HQ.
    - repeat split; vsok.
    - intros q Hk. apply vrun_other. cbn [map seq Nat.add]. kp Hk. reflexivity.
  Qed.
  Lemma wp_cnt f g fl tm lg (Q : st -> Prop) :
    (forall f', f' 27%nat = accf f 27 -> (forall q, keeps q -> Nat.eqb q 27 = false -> f' q = f q) -> Q (mk f' g fl tm lg)) ->
    wp (exec ops E (LCE_CNT_ACCUM 27) (mk f g fl tm lg)) Q.
  Proof.
    intros HQ. change (LCE_CNT_ACCUM 27) with (map V [VCNT 12 12; VCNT 13 13; VCNT 14 14; VCNT 15 15; VADDP 20 12 13; VCNT 16 16; VADDP 21 14 15;
      VCNT 17 17; VCNT 18 18; VCNT 19 19; VADDP 20 20 21; VADDP 22 16 17; VADDP 23 18 19; VADDP 22 22 23; VADDP 20 20 22; VUADALP2 27 20]%nat).
    apply wp_vs, HQ; [vsok|]. intros q Hk Hq. apply vrun_other. kp Hk. rewrite Hq. reflexivity.
  Qed.
  Lemma wp_cnt_rhs d r f g fl tm lg R k (Q : st -> Prop) : minst8 d r ->
    g RHS = Ptr RRhs (4 * k) -> e_rhs E = R -> 0 <= k -> k + 4 <= zlen R ->
    (forall f' g', f' d = accf f d -> f' r = vec 4 (wlist R k 4) -> xor8 f' (vec 4 (wlist R k 4)) f ->
       (forall q, keeps q -> Nat.eqb q d = false -> Nat.eqb q r = false -> f' q = f q) ->
       g' RHS = Ptr RRhs (4 * (k + 4)) -> same_x [RHS] g' g -> Q (mk f' g' fl tm lg)) ->
    wp (exec ops E (LCE_CNT_ACCUM_LD_RHS_XOR d r) (mk f g fl tm lg)) Q.
  Proof.
    intros H Hp HR H0 Hk HQ.
    set (vs := map (fun q => VCNT q q) (seq 12 8) ++ [VADDP 20 12 13; VADDP 21 14 15; VADDP 22 16 17; VADDP 23 18 19; VEOR 12 r 0; VEOR 13 r 1;
      VADDP 20 20 21; VADDP 22 22 23; VEOR 14 r 2; VEOR 15 r 3; VEOR 16 r 4; VADDP 20 20 22; VEOR 17 r 5; VEOR 18 r 6; VEOR 19 r 7; VUADALP2 d 20]%nat).
    change (LCE_CNT_ACCUM_LD_RHS_XOR d r) with (LD1 [r] RHS true :: map V vs).
    apply wp_exec_cons. eapply wp_ld1; [exact Hp|exact HR|exact H0|exact Hk|]. apply wp_vs. unfold vs. apply HQ; clear HQ.
    - inst H; vsok.
    - inst H; vsok.
    - inst H; repeat split; vsok.
    - intros q Kq Hd Hr. rewrite vrun_other; [apply vupd_other, Hr|]. cbn [map seq Nat.add app]. kp Kq. rewrite Hd. reflexivity.
    - reflexivity.
    - sx.
  Qed.
  Lemma wp_cnt_all f g fl tm lg L R kl kr (Q : st -> Prop) :
    g RHS = Ptr RRhs (4 * kr) -> e_rhs E = R -> 0 <= kr -> kr + 4 <= zlen R ->
    g LHS = Ptr RLhs (4 * kl) -> e_lhs E = L -> 0 <= kl -> kl + 32 <= zlen L ->
    (forall f' g', f' 27%nat = accf f 27 -> f' 8%nat = vec 4 (wlist R kr 4) ->
       (f' 0%nat = vec 4 (wlist L kl 4) /\ f' 1%nat = vec 4 (wlist L (kl + 4) 4) /\ f' 2%nat = vec 4 (wlist L (kl + 8) 4) /\
        f' 3%nat = vec 4 (wlist L (kl + 12) 4) /\ f' 4%nat = vec 4 (wlist L (kl + 16) 4) /\ f' 5%nat = vec 4 (wlist L (kl + 16 + 4) 4) /\
        f' 6%nat = vec 4 (wlist L (kl + 16 + 8) 4) /\ f' 7%nat = vec 4 (wlist L (kl + 16 + 12) 4)) ->
       xor8 f' (vec 4 (wlist R kr 4)) f' ->
       (forall q, (24 <= q)%nat -> Nat.eqb q 27 = false -> f' q = f q) ->
       g' RHS = Ptr RRhs (4 * (kr + 4)) -> g' LHS = Ptr RLhs (4 * (kl + 32)) -> same_x [LHS; RHS] g' g -> Q (mk f' g' fl tm lg)) ->
    wp (exec ops E (LCE_CNT_ACCUM_LD_ALL_XOR 27 8) (mk f g fl tm lg)) Q.
  Proof.
    intros Hp HR H0 Hk Hl HL H1 H2 HQ.
    change (LCE_CNT_ACCUM_LD_ALL_XOR 27 8) with (LD1 [8]%nat RHS true :: map V [VCNT 12 12; VCNT 13 13]%nat ++ LD1 [0; 1; 2; 3]%nat LHS true ::
      map V [VCNT 14 14; VCNT 15 15; VCNT 16 16; VCNT 17 17]%nat ++ LD1 [4; 5; 6; 7]%nat LHS true ::
      map V [VCNT 18 18; VCNT 19 19; VADDP 20 12 13; VADDP 21 14 15; VADDP 22 16 17; VADDP 23 18 19; VEOR 12 8 0; VEOR 13 8 1;
        VADDP 20 20 21; VADDP 22 22 23; VEOR 14 8 2; VEOR 15 8 3; VEOR 16 8 4; VADDP 20 20 22; VEOR 17 8 5; VEOR 18 8 6; VEOR 19 8 7; VUADALP2 27 20]%nat).
    apply wp_exec_cons. eapply wp_ld1; [exact Hp|exact HR|exact H0|exact Hk|].
    apply wp_exec_app, wp_vs, wp_exec_cons. eapply (wp_ld4 _ _ _ _ _ _ _ _ _ _ _ _ RLhs L kl); [exact Hl|exact HL|lia|lia|].
    apply wp_exec_app, wp_vs, wp_exec_cons. eapply (wp_ld4 _ _ _ _ _ _ _ _ _ _ _ _ RLhs L (kl + 16)); [reflexivity|exact HL|lia|lia|].
    apply wp_vs. replace (kl + 16 + 16) with (kl + 32) by ring. apply HQ; clear HQ.
    - vsok.
    - vsok.
    - repeat split; vsok.
    - repeat split; vsok.
    - intros q Kq Hq. assert (Hk' : keeps q) by (right; exact Kq).
      rewrite vrun_other by (kp Hk'; rewrite Hq; reflexivity). rewrite !vupd_other by (apply Nat.eqb_neq; lia).
      rewrite vrun_other by (kp Hk'; reflexivity). rewrite !vupd_other by (apply Nat.eqb_neq; lia).
      rewrite vrun_other by (kp Hk'; reflexivity). apply vupd_other, Nat.eqb_neq. lia.
    - reflexivity.
    - reflexivity.
    - sx.
  Qed.
End Macros.

(** ** The depth loop *)
Section Accum8.
  Variables (ops : nops) (E : env) (L R : list Z) (bl br G : Z).
  Hypothesis (HL : e_lhs E = L) (HR : e_rhs E = R) (Hbl : 0 <= bl) (Hbr : 0 <= br) (HG : 1 <= G) (HGb : 4 * G < 2 ^ 31 - 8).
  Hypothesis (HlL : bl + 32 * G <= zlen L) (HlR : br + 16 * G <= zlen R).
  Definition Lg8 (g i : Z) : list Z := wlist L (bl + 32 * g + 4 * i) 4.
  Definition Rg8 (g j : Z) : list Z := wlist R (br + 16 * g + 4 * j) 4.
  Definition accv8 (i j n : Z) : Z := sum_ n (fun g => bp (Rg8 g j) (Lg8 g i)).
  Definition accs8 (j n : Z) : list Z := [accv8 0 j n; accv8 1 j n; accv8 2 j n; accv8 3 j n; accv8 4 j n; accv8 5 j n; accv8 6 j n; accv8 7 j n].
  Definition lregs8 (f : nat -> list Z) (g : Z) : Prop :=
    f 0%nat = vec 4 (Lg8 g 0) /\ f 1%nat = vec 4 (Lg8 g 1) /\ f 2%nat = vec 4 (Lg8 g 2) /\ f 3%nat = vec 4 (Lg8 g 3) /\
    f 4%nat = vec 4 (Lg8 g 4) /\ f 5%nat = vec 4 (Lg8 g 5) /\ f 6%nat = vec 4 (Lg8 g 6) /\ f 7%nat = vec 4 (Lg8 g 7).
  Definition aregs8 (f : nat -> list Z) (n0 n1 n2 n3 : Z) : Prop :=
    f 24%nat = vec 2 (accs8 0 n0) /\ f 25%nat = vec 2 (accs8 1 n1) /\ f 26%nat = vec 2 (accs8 2 n2) /\ f 27%nat = vec 2 (accs8 3 n3).
  Lemma accv8_S i j n : 0 <= n -> accv8 i j (n + 1) = accv8 i j n + bp (Rg8 n j) (Lg8 n i).
  Proof. intros H. unfold accv8. rewrite sum_succ by exact H. reflexivity. Qed.
  (** The registers hold column [j] of group [n] XORed with the rows of group [n]. *)
  Lemma accf_S f d j n : 0 <= n -> f d = vec 2 (accs8 j n) -> (exists fl, lregs8 fl n /\ xor8 f (vec 4 (Rg8 n j)) fl) ->
    accf f d = vec 2 (accs8 j (n + 1)).
  Proof.
    intros Hn Hd (fl & (l0 & l1 & l2 & l3 & l4 & l5 & l6 & l7) & (x0 & x1 & x2 & x3 & x4 & x5 & x6 & x7)).
    unfold accf. rewrite Hd, x0, x1, x2, x3, x4, x5, x6, x7, l0, l1, l2, l3, l4, l5, l6, l7.
    rewrite acc8_ok by (try apply wlist_length; reflexivity). f_equal. unfold accs8. rewrite !accv8_S by exact Hn. reflexivity.
  Qed.
  Record linv8 (g0 : xreg -> val) (n : Z) (f : nat -> list Z) (g : xreg -> val) : Prop := {
    l8_l : lregs8 f n; l8_x : xor8 f (vec 4 (Rg8 n 0)) f; l8_a : aregs8 f n n n n;
    l8_pl : g LHS = Ptr RLhs (4 * (bl + 32 * (n + 1))); l8_pr : g RHS = Ptr RRhs (4 * (br + 16 * n + 4));
    l8_1 : g (Xr 1) = Int (4 * (n + 1)); l8_s : same_x [Xr 1; LHS; RHS] g g0 }.
  (** Columns 0-2 of a group, leaving column 3 XORed: the shared part of the loop
      body and of the tail. *)
  Definition three : list instr := LCE_CNT_ACCUM_LD_RHS_XOR 24 9 ++ LCE_CNT_ACCUM_LD_RHS_XOR 25 10 ++ LCE_CNT_ACCUM_LD_RHS_XOR 26 11.
  Ltac inm := unfold minst8; cbn [In]; tauto.
  Lemma wp_three n f g fl tm lg (Q : st -> Prop) : 0 <= n < G -> lregs8 f n -> xor8 f (vec 4 (Rg8 n 0)) f -> aregs8 f n n n n ->
    g RHS = Ptr RRhs (4 * (br + 16 * n + 4)) ->
    (forall f' g', lregs8 f' n -> xor8 f' (vec 4 (Rg8 n 3)) f' -> aregs8 f' (n + 1) (n + 1) (n + 1) n ->
       g' RHS = Ptr RRhs (4 * (br + 16 * (n + 1))) -> same_x [RHS] g' g -> (forall q, (28 <= q)%nat -> f' q = f q) -> Q (mk f' g' fl tm lg)) ->
    wp (exec ops E three (mk f g fl tm lg)) Q.
  Proof.
    intros Hn Hl Hx (A0 & A1 & A2 & A3) PR HQ. unfold three.
    assert (LR : forall f f', lregs8 f n -> (forall q, (q < 8)%nat -> f' q = f q) -> lregs8 f' n).
    { intros h h' H Hq. unfold lregs8 in *. rewrite !Hq by lia. exact H. }
    assert (XL : forall h r f f', xor8 h r f -> (forall q, (q < 8)%nat -> f' q = f q) -> xor8 h r f').
    { intros h r h1 h2 H Hq. unfold xor8 in *. rewrite !Hq by lia. exact H. }
    assert (KQ : forall q d r, (q < 8)%nat -> (8 < d)%nat -> (8 < r)%nat -> keeps q /\ Nat.eqb q d = false /\ Nat.eqb q r = false).
    { intros q d r H1 H2 H3. split; [left; lia|]. split; apply Nat.eqb_neq; lia. }
    apply wp_exec_app. eapply (wp_cnt_rhs _ _ 24 9 f g fl tm lg R (br + 16 * n + 4)); [inm|exact PR|exact HR|lia|lia|].
    intros f1 g1 F1 F1r F1x F1o G1 S1.
    apply wp_exec_app. eapply (wp_cnt_rhs _ _ 25 10 f1 g1 fl tm lg R (br + 16 * n + 4 + 4)); [inm|exact G1|exact HR|lia|lia|].
    intros f2 g2 F2 F2r F2x F2o G2 S2.
    eapply (wp_cnt_rhs _ _ 26 11 f2 g2 fl tm lg R (br + 16 * n + 4 + 4 + 4)); [inm|exact G2|exact HR|lia|lia|].
    intros f3 g3 F3 F3r F3x F3o G3 S3.
    replace (br + 16 * n + 4) with (br + 16 * n + 4 * 1) in * by ring.
    replace (br + 16 * n + 4 * 1 + 4) with (br + 16 * n + 4 * 2) in * by ring.
    replace (br + 16 * n + 4 * 2 + 4) with (br + 16 * n + 4 * 3) in * by ring.
    assert (Hl1 : lregs8 f1 n) by (apply (LR f); [exact Hl|intros q Hq; destruct (KQ q 24%nat 9%nat) as (a & b & c); try lia; apply F1o; assumption]).
    assert (Hl2 : lregs8 f2 n) by (apply (LR f1); [exact Hl1|intros q Hq; destruct (KQ q 25%nat 10%nat) as (a & b & c); try lia; apply F2o; assumption]).
    assert (Hl3 : lregs8 f3 n) by (apply (LR f2); [exact Hl2|intros q Hq; destruct (KQ q 26%nat 11%nat) as (a & b & c); try lia; apply F3o; assumption]).
    assert (K24 : forall q, (24 <= q)%nat -> keeps q) by (intros; right; assumption).
    apply HQ.
    - exact Hl3.
    - eapply XL; [exact F3x|]. intros q Hq. destruct (KQ q 26%nat 11%nat) as (a & b & c); try lia. apply F3o; assumption.
    - split; [|split; [|split]].
      + rewrite F3o, F2o, F1 by (try reflexivity; apply K24; lia). apply accf_S; [lia|exact A0|eauto].
      + rewrite F3o, F2 by (try reflexivity; apply K24; lia). apply accf_S; [lia| |exists f; split; [exact Hl|exact F1x]].
        rewrite F1o by (try reflexivity; apply K24; lia). exact A1.
      + rewrite F3. apply accf_S; [lia| |exists f1; split; [exact Hl1|exact F2x]].
        rewrite F2o, F1o by (try reflexivity; apply K24; lia). exact A2.
      + rewrite F3o, F2o, F1o by (try reflexivity; apply K24; lia). exact A3.
    - rewrite G3. f_equal. ring.
    - eapply same_x_trans; [exact S3|]. eapply same_x_trans; [exact S2|exact S1].
    - intros q Hq. rewrite F3o, F2o, F1o by (try (apply K24; lia); apply Nat.eqb_neq; lia). reflexivity.
  Qed.

  Lemma wp_loop8 g0 n f g fl tm lg (Q : st -> Prop) : 0 <= n -> n + 1 < G -> linv8 g0 n f g -> g0 (Xr 12) = Int (4 * G) ->
    (forall f' g', linv8 g0 (n + 1) f' g' -> (forall q, (28 <= q)%nat -> f' q = f q) -> Q (mk f' g' (4 * (n + 2), 4 * G) tm lg)) ->
    wp (exec ops E k84_loop (mk f g fl tm lg)) Q.
  Proof.
    intros Hn HnG [Hl Hx Ha PL PR X1 Xs] H12 HQ.
    change k84_loop with (three ++ [ADDWI (Xr 1) (Xr 1) 4; CMPW (Xr 1) (Xr 12)] ++ LCE_CNT_ACCUM_LD_ALL_XOR 27 8).
    apply wp_exec_app. apply (wp_three n); [lia|exact Hl|exact Hx|exact Ha|exact PR|]. intros f1 g1 L1 XX1 (A0 & A1 & A2 & A3) P1 S1 Hi1.
    apply wp_exec_app, wp_exec_cons. eapply (wp_addwi _ _ _ _ _ _ _ _ _ _ (4 * (n + 1))); [rewrite S1 by reflexivity; exact X1|lia|lia|].
    apply wp_exec_cons. eapply (wp_cmpw _ _ _ _ _ _ _ _ _ (4 * (n + 1) + 4) (4 * G)); [reflexivity| |lia|lia|].
    { rewrite xupd_other by reflexivity. rewrite S1, Xs by reflexivity. exact H12. }
    cbn [exec wp]. replace (4 * (n + 1) + 4) with (4 * (n + 2)) by ring.
    eapply (wp_cnt_all _ _ _ _ _ _ _ L R (bl + 32 * (n + 1)) (br + 16 * (n + 1))); [exact P1|exact HR|lia|lia| |exact HL|lia|lia|].
    { rewrite xupd_other by reflexivity. rewrite S1 by reflexivity. exact PL. }
    intros f2 g2 F27 F8 (l0 & l1 & l2 & l3 & l4 & l5 & l6 & l7) FX Fo GR2 GL2 S2.
    replace (bl + 32 * (n + 1)) with (bl + 32 * (n + 1) + 4 * 0) in l0 by ring.
    replace (bl + 32 * (n + 1) + 4) with (bl + 32 * (n + 1) + 4 * 1) in l1 by ring.
    replace (bl + 32 * (n + 1) + 8) with (bl + 32 * (n + 1) + 4 * 2) in l2 by ring.
    replace (bl + 32 * (n + 1) + 12) with (bl + 32 * (n + 1) + 4 * 3) in l3 by ring.
    replace (bl + 32 * (n + 1) + 16) with (bl + 32 * (n + 1) + 4 * 4) in l4 by ring.
    replace (bl + 32 * (n + 1) + 16 + 4) with (bl + 32 * (n + 1) + 4 * 5) in l5 by ring.
    replace (bl + 32 * (n + 1) + 16 + 8) with (bl + 32 * (n + 1) + 4 * 6) in l6 by ring.
    replace (bl + 32 * (n + 1) + 16 + 12) with (bl + 32 * (n + 1) + 4 * 7) in l7 by ring.
    apply HQ; [constructor|].
    - unfold lregs8, Lg8. auto 10.
    - unfold Rg8. rewrite Z.mul_0_r, Z.add_0_r. exact FX.
    - split; [|split; [|split]].
      + rewrite Fo by (reflexivity || lia). exact A0.
      + rewrite Fo by (reflexivity || lia). exact A1.
      + rewrite Fo by (reflexivity || lia). exact A2.
      + rewrite F27. apply accf_S; [lia|exact A3|eauto].
    - rewrite GL2. f_equal. ring.
    - exact GR2.
    - rewrite S2 by reflexivity. cbn [xupd xeqb Nat.eqb]. f_equal. ring.
    - intros q Hq. cbn [forallb] in Hq. destruct (xeqb q (Xr 1)) eqn:Q1; [discriminate|]. destruct (xeqb q LHS) eqn:Q2; [discriminate|].
      destruct (xeqb q RHS) eqn:Q3; [discriminate|]. rewrite S2 by (cbn [forallb]; rewrite Q2, Q3; reflexivity). rewrite xupd_other by exact Q1.
      rewrite S1 by (cbn [forallb]; rewrite Q3; reflexivity). apply Xs. cbn [forallb]. rewrite Q1, Q2, Q3. reflexivity.
    - intros q Hq. rewrite Fo by (try lia; apply Nat.eqb_neq; lia). apply Hi1, Hq.
  Qed.
  Lemma wp_tail8 n f g fl tm lg (Q : st -> Prop) : 0 <= n < G -> lregs8 f n -> xor8 f (vec 4 (Rg8 n 0)) f -> aregs8 f n n n n ->
    g RHS = Ptr RRhs (4 * (br + 16 * n + 4)) ->
    (forall f' g', aregs8 f' (n + 1) (n + 1) (n + 1) (n + 1) -> same_x [RHS] g' g -> (forall q, (28 <= q)%nat -> f' q = f q) -> Q (mk f' g' fl tm lg)) ->
    wp (exec ops E k84_tail (mk f g fl tm lg)) Q.
  Proof.
    intros Hn Hl Hx Ha PR HQ. change k84_tail with (three ++ LCE_CNT_ACCUM 27).
    apply wp_exec_app. apply (wp_three n); [lia|exact Hl|exact Hx|exact Ha|exact PR|]. intros f1 g1 L1 XX1 (A0 & A1 & A2 & A3) P1 S1 Hi1.
    apply wp_cnt. intros f2 F27 Fo. assert (K24 : forall q, (24 <= q)%nat -> keeps q) by (intros; right; assumption). apply HQ.
    - split; [|split; [|split]].
      + rewrite Fo by (try reflexivity; apply K24; lia). exact A0.
      + rewrite Fo by (try reflexivity; apply K24; lia). exact A1.
      + rewrite Fo by (try reflexivity; apply K24; lia). exact A2.
      + rewrite F27. apply accf_S; [lia|exact A3|eauto].
    - exact S1.
    - intros q Hq. rewrite Fo by (try (apply K24; lia); apply Nat.eqb_neq; lia). apply Hi1, Hq.
  Qed.

  Variables (p : list instr) (Q : st -> Prop).
  Definition plain8 : list instr := [CMPW (Xr 1) (Xr 12); BC EQ 79; LBL 2] ++ k84_loop ++ [BC LT 2; LBL 79] ++ k84_tail.
  Lemma loop8_straight : straight k84_loop = true. Proof. reflexivity. Qed.
  Lemma tail8_straight : straight k84_tail = true. Proof. reflexivity. Qed.
  Lemma ends_plain8 pc g0 tm lg : code_at p pc plain8 -> find 2 p 0 = Some (pc + 2)%nat -> find 79 p 0 = Some (pc + 3 + length k84_loop + 1)%nat ->
    g0 (Xr 12) = Int (4 * G) -> forall f0,
    (forall f g fl, aregs8 f G G G G -> same_x [Xr 1; LHS; RHS] g g0 -> (forall q, (28 <= q)%nat -> f q = f0 q) -> ends ops E p Q (pc + length plain8) (mk f g fl tm lg)) ->
    forall n f g fl, 0 <= n < G -> linv8 g0 n f g -> (forall q, (28 <= q)%nat -> f q = f0 q) -> ends ops E p Q pc (mk f g fl tm lg).
  Proof.
    intros Hc F2 F79 H12 f0 Hend. unfold plain8 in Hc. cbn [app] in Hc.
    apply code_at_cons in Hc. destruct Hc as [C1 Hc]. apply code_at_cons in Hc. destruct Hc as [C2 Hc]. apply code_at_cons in Hc. destruct Hc as [C3 Hc].
    apply code_at_app in Hc. destruct Hc as [C4 Hc]. apply code_at_cons in Hc. destruct Hc as [C5 Hc]. apply code_at_cons in Hc. destruct Hc as [C6 C7].
    assert (A79 : forall n f g fl, n + 1 = G -> 0 <= n -> linv8 g0 n f g -> (forall q, (28 <= q)%nat -> f q = f0 q) -> ends ops E p Q (pc + 3 + length k84_loop + 1) (mk f g fl tm lg)).
    { intros n f g fl En Hn [LI1 LI2 LI3 LI4 LI5 LI6 LI7] Hf0.
      apply (ends_exec _ _ _ _ _ _ [LBL 79]); [|reflexivity|].
      { apply code_at_cons. split; [|reflexivity]. replace (pc + 3 + length k84_loop + 1)%nat with (S (S (S (S pc)) + length k84_loop)) by lia. exact C6. }
      cbn [exec exec1 bind wp length].
      apply (ends_exec _ _ _ _ _ _ k84_tail); [|exact tail8_straight|].
      { replace (pc + 3 + length k84_loop + 1 + 1)%nat with (S (S (S (S (S pc)) + length k84_loop))) by lia. exact C7. }
      apply (wp_tail8 n); auto; [lia|]. intros f' g' Ha S' Hq'.
      replace (pc + 3 + length k84_loop + 1 + 1 + length k84_tail)%nat with (pc + length plain8)%nat.
      2:{ unfold plain8. rewrite !app_length. cbn [length]. lia. }
      apply Hend; [rewrite En in Ha; exact Ha| |intros q Hq; rewrite Hq' by exact Hq; apply Hf0, Hq].
      intros q Hq. rewrite <- (LI7 q Hq). apply S'. cbn [forallb] in *. destruct (xeqb q (Xr 1)); [discriminate|]. destruct (xeqb q LHS); [discriminate|]. exact Hq. }
    assert (A2 : forall m n f g fl, G = n + 2 + Z.of_nat m -> 0 <= n -> linv8 g0 n f g -> (forall q, (28 <= q)%nat -> f q = f0 q) -> ends ops E p Q (pc + 2) (mk f g fl tm lg)).
    { induction m as [|m IH]; intros n f g fl Em Hn Hi Hf0.
      all: apply (ends_exec _ _ _ _ _ _ (LBL 2 :: k84_loop));
        [apply code_at_cons; split; [replace (pc + 2)%nat with (S (S pc)) by lia; exact C3|replace (S (pc + 2)) with (S (S (S pc))) by lia; exact C4]|exact loop8_straight|].
      all: apply wp_exec_cons; cbn [exec1 wp]; apply (wp_loop8 g0 n); [lia|lia|exact Hi|exact H12|]; intros f' g' Hi' Hq'.
      all: assert (Hf1 : forall q, (28 <= q)%nat -> f' q = f0 q) by (intros q Hq; rewrite Hq' by exact Hq; apply Hf0, Hq).
      all: replace (pc + 2 + length (LBL 2 :: k84_loop))%nat with (S (S (S pc)) + length k84_loop)%nat by (cbn [length]; lia).
      all: eapply ends_bc; [exact C5|exact F2| |]; cbn [cond_holds sfl mk]; intros Hcc.
      - apply Z.ltb_lt in Hcc. lia.
      - replace (S (S (S (S pc)) + length k84_loop)) with (pc + 3 + length k84_loop + 1)%nat by lia. apply (A79 (n + 1)); [lia|lia|exact Hi'|exact Hf1].
      - apply (IH (n + 1)); [lia|lia|exact Hi'|exact Hf1].
      - apply Z.ltb_ge in Hcc. lia. }
    intros n f g fl Hn Hi Hf0. apply (ends_exec _ _ _ _ _ _ [CMPW (Xr 1) (Xr 12)]); [apply code_at_cons; split; [exact C1|reflexivity]|reflexivity|].
    apply wp_exec_cons. destruct Hi as [LI1 LI2 LI3 LI4 LI5 LI6 LI7].
    eapply (wp_cmpw _ _ _ _ _ _ _ _ _ (4 * (n + 1)) (4 * G)); [exact LI6|rewrite LI7 by reflexivity; exact H12|lia|lia|]. cbn [exec wp].
    replace (pc + length [CMPW (Xr 1) (Xr 12)])%nat with (S pc) by (cbn [length]; lia).
    eapply ends_bc; [exact C2|exact F79| |]; cbn [cond_holds sfl mk]; intros Hcc.
    - apply Z.eqb_eq in Hcc. apply (A79 n); [lia|lia| |exact Hf0]. constructor; assumption.
    - apply Z.eqb_neq in Hcc. replace (S (S pc)) with (pc + 2)%nat by lia. apply (A2 (Z.to_nat (G - n - 2)) n); [lia|lia| |exact Hf0]. constructor; assumption.
  Qed.
End Accum8.
