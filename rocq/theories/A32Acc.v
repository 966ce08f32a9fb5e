(** * A32Acc: the accumulation loop of the 32-bit Arm kernel computes the binary
    product of its block. *)
From Verif Require Import Base Spec Bits Log Bgemm A64 A64Bgemm A64Lemmas A64K44 A64Store A64Trans A64Seg A32.
Open Scope Z_scope.

(** ** Pairwise adds on d registers add up like the 128-bit addp *)
Definition P8 (x : list Z) : list Z := map (fun z => z mod 256) (pairs x).
Lemma pairs_app2 a : forall b, Nat.even (length a) = true -> pairs (a ++ b) = pairs a ++ pairs b.
Proof.
  induction a as [a IH] using (induction_ltof1 _ (@length Z)); unfold ltof in IH. intros b H.
  destruct a as [|x [|y a]]; [reflexivity|discriminate|]. cbn [app pairs]. rewrite IH; [reflexivity|cbn; lia|exact H].
Qed.
Lemma pairs_len n : forall a, length a = (2 * n)%nat -> length (pairs a) = n.
Proof.
  induction n as [|n IH]; intros a H; [destruct a; [reflexivity|discriminate]|].
  destruct a as [|x [|y a]]; [discriminate|cbn in H; lia|]. cbn [pairs length] in *. rewrite IH; [reflexivity|lia].
Qed.
Lemma P8_len a : length a = 16%nat -> length (P8 a) = 8%nat.
Proof. intros H. unfold P8. rewrite map_length. apply pairs_len. exact H. Qed.
Lemma addp_P8 a b : length a = 16%nat -> v_addp a b = P8 a ++ P8 b.
Proof. intros H. unfold v_addp, P8. rewrite pairs_app2 by (rewrite H; reflexivity). apply map_app. Qed.
Lemma first8 (a b : list Z) : length a = 8%nat -> firstn 8 (a ++ b) = a.
Proof. intros H. rewrite <- H. rewrite firstn_app, firstn_all, Nat.sub_diag. apply app_nil_r. Qed.
Lemma skip8 (a b : list Z) : length a = 8%nat -> skipn 8 (a ++ b) = b.
Proof. intros H. rewrite <- H. rewrite skipn_app, skipn_all, Nat.sub_diag. reflexivity. Qed.

(** The register combinations the kernel uses. *)
Definition minst32 (d r : nat) : Prop := In (d, r) [(8, 4); (9, 5); (10, 6); (11, 7)]%nat.
Section Macros.
  Variables (ops : nops) (E : env).
  Definition bvs (d r : nat) : list vinstr :=
    [VEOR 12 r 0; VEOR 13 r 1; VEOR 14 r 2; VEOR 15 r 3; VCNT 12 12; VCNT 13 13; VCNT 14 14; VCNT 15 15;
     VPADDD 24 24 25; VPADDD 25 26 27; VPADDD 28 28 29; VPADDD 29 30 31; VPADDD 24 24 25; VPADDD 25 28 29; VUADDLP 12 12; VUADALP4 d 12]%nat.
  Lemma wp_bmla32 d r f g fl tm lg (Q : st -> Prop) : minst32 d r ->
    length (f r) = 16%nat -> length (f 0%nat) = 16%nat -> length (f 1%nat) = 16%nat -> length (f 2%nat) = 16%nat -> length (f 3%nat) = 16%nat ->
    (forall f', f' d = bmla_val (f d) (f r) (f 0%nat) (f 1%nat) (f 2%nat) (f 3%nat) ->
                (forall q, (q < 12)%nat -> Nat.eqb q d = false -> f' q = f q) -> Q (mk f' g fl tm lg)) ->
    wp (exec ops E (BMLA32 d r 0 1 2 3) (mk f g fl tm lg)) Q.
  Proof.
    intros H Hr H0 H1 H2 H3 HQ. change (BMLA32 d r 0 1 2 3) with (map V (bvs d r)). apply wp_vs. apply HQ; clear HQ.
    - unfold bmla_val.
      assert (ZL : forall l, length l = 16%nat -> length (v_cnt (v_eor (f r) l)) = 16%nat).
      { intros l Hl. unfold v_cnt, v_eor. rewrite map_length. apply zipw_length; assumption. }
      pose proof (ZL _ H0) as La. pose proof (ZL _ H1) as Lb. pose proof (ZL _ H2) as Lc. pose proof (ZL _ H3) as Ld.
      set (a := v_cnt (v_eor (f r) (f 0%nat))) in *. set (b := v_cnt (v_eor (f r) (f 1%nat))) in *.
      set (c := v_cnt (v_eor (f r) (f 2%nat))) in *. set (e := v_cnt (v_eor (f r) (f 3%nat))) in *.
      rewrite addp_P8 by (rewrite addp_P8 by assumption; rewrite app_length, !P8_len by assumption; reflexivity).
      rewrite (addp_P8 a b), (addp_P8 c e) by assumption.
      set (u := P8 (firstn 8 a ++ skipn 8 a) ++ skipn 8 a).
      set (u2 := firstn 8 u ++ P8 (firstn 8 b ++ skipn 8 b)).
      set (w := P8 (firstn 8 c ++ skipn 8 c) ++ skipn 8 c).
      set (w2 := firstn 8 w ++ P8 (firstn 8 e ++ skipn 8 e)).
      set (u3 := P8 (firstn 8 u2 ++ skipn 8 u2) ++ skipn 8 u2).
      set (u4 := firstn 8 u3 ++ P8 (firstn 8 w2 ++ skipn 8 w2)).
      assert (EV : vrun ops (bvs d r) f d = v_uadalp4 (f d) (v_uaddlp u4)).
      { unfold minst32 in H. cbn [In] in H. repeat (destruct H as [H | H]; [injection H as <- <-; reflexivity|]). contradiction. }
      rewrite EV. f_equal. f_equal. unfold u4, u3, u2, u, w2, w. rewrite !firstn_skipn.
      rewrite !(first8 (P8 a)), !(first8 (P8 c)) by (apply P8_len; assumption).
      rewrite first8; [reflexivity|]. apply P8_len. rewrite app_length, !P8_len by assumption. reflexivity.
    - intros q Hq Hn. apply vrun_other. cbn [bvs untouched forallb vdst Nat.div2]. rewrite Hn.
      do 12 (destruct q as [|q]; [reflexivity|]). lia.
  Qed.
  Lemma wp_ld2 d0 d1 p f g fl tm lg r ws k (Q : st -> Prop) : g p = Ptr r (4 * k) -> word_region E r ws -> 0 <= k -> k + 8 <= zlen ws ->
    Q (mk (vupd (vupd f d0 (vec 4 (wlist ws k 4))) d1 (vec 4 (wlist ws (k + 4) 4))) (xupd g p (Ptr r (4 * (k + 8)))) fl tm lg) ->
    wp (exec1 ops E (LD1 [d0; d1] p true) (mk f g fl tm lg)) Q.
  Proof.
    intros Hp Hr H0 Hk HQ. cbn [exec1 sx mk]. rewrite Hp. cbn [ld_regs].
    rewrite (load16 E _ r ws k) by (auto; lia). cbn [bind].
    replace (4 * k + 16) with (4 * (k + 4)) by ring. rewrite (load16 E _ r ws (k + 4)) by (auto; lia). cbn [bind].
    replace (4 * k + 16 * zlen [d0; d1]) with (4 * (k + 8)) by (change (zlen [d0; d1]) with 2; ring). exact HQ.
  Qed.
End Macros.

Section Accum.
  Variables (ops : nops) (E : env) (L R : list Z) (bl br G : Z).
  Hypothesis (HL : e_lhs E = L) (HR : e_rhs E = R) (P48 : e_par E 48 = Some (Int (4 * G))).
  Hypothesis (Hbl : 0 <= bl) (Hbr : 0 <= br) (HG : 1 <= G) (HGb : 4 * G < 2 ^ 31 - 8).
  Hypothesis (HlL : bl + 16 * G <= zlen L) (HlR : br + 16 * G <= zlen R).
  Definition aregs32 (f : nat -> list Z) (n : Z) : Prop :=
    f 8%nat = vec 4 (accs L R bl br 0 n) /\ f 9%nat = vec 4 (accs L R bl br 1 n) /\
    f 10%nat = vec 4 (accs L R bl br 2 n) /\ f 11%nat = vec 4 (accs L R bl br 3 n).
  (** 208-212, 239-243, 319-322 *)
  Lemma wp_loads32 n f g fl tm lg (Q : st -> Prop) : 0 <= n < G -> ptrs bl br g n ->
    (forall f' g', lregs L bl f' 0 n -> rregs R br f' 4 n -> (forall q, (8 <= q)%nat -> f' q = f q) -> ptrs bl br g' (n + 1) ->
       same_x [LHS; RHS] g' g -> Q (mk f' g' fl tm lg)) ->
    wp (exec ops E loads32 (mk f g fl tm lg)) Q.
  Proof.
    intros Hn (PL & PR) HQ. unfold loads32.
    apply wp_exec_cons. eapply (wp_ld2 _ _ _ _ _ _ _ _ _ _ RLhs L (bl + 16 * n)); [exact PL|exact HL|lia|lia|].
    apply wp_exec_cons. eapply (wp_ld2 _ _ _ _ _ _ _ _ _ _ RLhs L (bl + 16 * n + 8)); [reflexivity|exact HL|lia|lia|].
    apply wp_exec_cons. eapply (wp_ld2 _ _ _ _ _ _ _ _ _ _ RRhs R (br + 16 * n)); [exact PR|exact HR|lia|lia|].
    apply wp_exec_cons. eapply (wp_ld2 _ _ _ _ _ _ _ _ _ _ RRhs R (br + 16 * n + 8)); [reflexivity|exact HR|lia|lia|].
    cbn [exec wp]. apply HQ.
    - unfold lregs, Lg. cbn [Nat.add vupd Nat.eqb]. rewrite !Z.mul_0_r, !Z.add_0_r.
      replace (bl + 16 * n + 8 + 4) with (bl + 16 * n + 4 * 3) by ring. auto.
    - unfold rregs, Rg. cbn [Nat.add vupd Nat.eqb]. rewrite !Z.mul_0_r, !Z.add_0_r.
      replace (br + 16 * n + 8 + 4) with (br + 16 * n + 4 * 3) by ring. auto.
    - intros q Hq. rewrite !vupd_other by (apply Nat.eqb_neq; lia). reflexivity.
    - unfold ptrs. cbn [xupd xeqb Nat.eqb]. split; f_equal; ring.
    - sx.
  Qed.
  Lemma wp_bmla_all n f g fl tm lg (Q : st -> Prop) : 0 <= n -> lregs L bl f 0 n -> rregs R br f 4 n -> aregs32 f n ->
    (forall f', aregs32 f' (n + 1) -> Q (mk f' g fl tm lg)) -> wp (exec ops E BMLA32_all (mk f g fl tm lg)) Q.
  Proof.
    intros Hn (L0 & L1 & L2 & L3) (R0 & R1 & R2 & R3) (A0 & A1 & A2 & A3) HQ. cbn [Nat.add] in *.
    assert (Z4 : forall l k, length (vec 4 (wlist l k 4)) = 16%nat) by (intros; rewrite vec_length, wlist_length; reflexivity).
    unfold Lg, Rg in *.
    unfold BMLA32_all. apply wp_exec_app. apply wp_bmla32; [unfold minst32; cbn; tauto|rewrite ?R0, ?L0, ?L1, ?L2, ?L3; apply Z4..|]. intros f1 F1 F1o.
    assert (K1 : forall q, (q < 12)%nat -> q <> 8%nat -> f1 q = f q) by (intros q Hq Hne; apply F1o; [lia|apply Nat.eqb_neq, Hne]). clear F1o.
    apply wp_exec_app. apply wp_bmla32; [unfold minst32; cbn; tauto|rewrite !K1 by lia; rewrite ?R1, ?L0, ?L1, ?L2, ?L3; apply Z4..|]. intros f2 F2 F2o.
    assert (K2 : forall q, (q < 12)%nat -> q <> 9%nat -> f2 q = f1 q) by (intros q Hq Hne; apply F2o; [lia|apply Nat.eqb_neq, Hne]). clear F2o.
    apply wp_exec_app. apply wp_bmla32; [unfold minst32; cbn; tauto|rewrite !K2, !K1 by lia; rewrite ?R2, ?L0, ?L1, ?L2, ?L3; apply Z4..|]. intros f3 F3 F3o.
    assert (K3 : forall q, (q < 12)%nat -> q <> 10%nat -> f3 q = f2 q) by (intros q Hq Hne; apply F3o; [lia|apply Nat.eqb_neq, Hne]). clear F3o.
    apply wp_bmla32; [unfold minst32; cbn; tauto|rewrite !K3, !K2, !K1 by lia; rewrite ?R3, ?L0, ?L1, ?L2, ?L3; apply Z4..|]. intros f4 F4 F4o.
    assert (K4 : forall q, (q < 12)%nat -> q <> 11%nat -> f4 q = f3 q) by (intros q Hq Hne; apply F4o; [lia|apply Nat.eqb_neq, Hne]). clear F4o.
    apply HQ. unfold aregs32.
    rewrite (K4 8%nat), (K3 8%nat), (K2 8%nat), F1 by lia. rewrite A0, R0, L0, L1, L2, L3.
    rewrite (K4 9%nat), (K3 9%nat), F2 by lia. rewrite !K1 by lia. rewrite A1, R1, L0, L1, L2, L3.
    rewrite (K4 10%nat), F3 by lia. rewrite !K2 by lia. rewrite !K1 by lia. rewrite A2, R2, L0, L1, L2, L3.
    rewrite F4. rewrite !K3 by lia. rewrite !K2 by lia. rewrite !K1 by lia. rewrite A3, R3, L0, L1, L2, L3.
    fold (Lg L bl n 0) (Lg L bl n 1) (Lg L bl n 2) (Lg L bl n 3) (Rg R br n 0) (Rg R br n 1) (Rg R br n 2) (Rg R br n 3).
    rewrite !accs_S by exact Hn. auto.
  Qed.

  (** 223-258: [n] groups are accumulated when the loop is entered. *)
  Variables (p : list instr) (Q : st -> Prop).
  Record linv32 (g0 : xreg -> val) (n : Z) (f : nat -> list Z) (g : xreg -> val) : Prop := {
    li_a32 : aregs32 f n; li_p32 : ptrs bl br g n; li_132 : g (Xr 1) = Int (4 * n); li_x32 : same_x [Xr 1; Xr 2; LHS; RHS] g g0 }.
  Lemma wp_k32_loop g0 n f g fl tm lg (Q' : st -> Prop) : 1 <= n < G -> linv32 g0 n f g ->
    (forall f' g', linv32 g0 (n + 1) f' g' -> Q' (mk f' g' (4 * (n + 1), 4 * G) tm lg)) ->
    wp (exec ops E k32_loop (mk f g fl tm lg)) Q'.
  Proof.
    intros Hn [(A0 & A1 & A2 & A3) LP L1 LX] HQ. unfold k32_loop. apply wp_exec_app.
    apply (wp_loads32 n); [lia|exact LP|]. intros f1 g1 Fl Fr Fo Gp Gx.
    cbn [app]. apply wp_exec_cons. eapply (wp_addwi _ _ _ _ _ _ _ _ _ _ (4 * n)); [rewrite Gx by reflexivity; exact L1|lia|lia|].
    apply wp_exec_cons. eapply wp_ldrw; [exact P48|]. rewrite wmod by lia.
    apply wp_exec_cons. eapply (wp_cmpw _ _ _ _ _ _ _ _ _ (4 * n + 4) (4 * G)); [reflexivity|reflexivity|lia|lia|].
    apply (wp_bmla_all n); [lia|exact Fl|exact Fr| |].
    { unfold aregs32. rewrite !Fo by lia. auto. }
    intros f2 A. replace (4 * n + 4) with (4 * (n + 1)) by ring. apply HQ. constructor.
    - exact A.
    - destruct Gp as [GL GR]. split; rewrite !xupd_other by reflexivity; assumption.
    - reflexivity.
    - sx. eapply same_x_trans; [|exact LX]. intros q Hq. apply Gx. cbn [forallb] in *.
      destruct (xeqb q (Xr 1)), (xeqb q (Xr 2)), (xeqb q LHS), (xeqb q RHS); try discriminate; reflexivity.
  Qed.
  Lemma loop32_straight : straight k32_loop = true. Proof. reflexivity. Qed.
  Lemma ends_accum32 pc g0 tm lg :
    code_at p pc k32_accum -> find 2 p 0 = Some (pc + 67)%nat -> find 79 p 0 = Some (pc + 140)%nat ->
    (forall f g fl, aregs32 f G -> same_x [Xr 1; Xr 2; LHS; RHS] g g0 -> ends ops E p Q (pc + length k32_accum) (mk f g fl tm lg)) ->
    forall f fl, lregs L bl f 0 0 -> rregs R br f 4 0 -> aregs32 f 0 -> ptrs bl br g0 1 -> g0 (Xr 1) = Int 4 ->
      ends ops E p Q pc (mk f g0 fl tm lg).
  Proof.
    intros Hc F2 F79 Hend. unfold k32_accum in Hc.
    apply code_at_app in Hc. destruct Hc as [C0 Hc]. apply code_at_cons in Hc. destruct Hc as [C1 Hc].
    apply code_at_cons in Hc. destruct Hc as [C2 Hc]. apply code_at_cons in Hc. destruct Hc as [C3 Hc]. apply code_at_cons in Hc. destruct Hc as [C4 Hc].
    apply code_at_app in Hc. destruct Hc as [C5 Hc]. apply code_at_cons in Hc. destruct Hc as [C6 Hc]. apply code_at_cons in Hc. destruct Hc as [C7 _].
    change (length BMLA32_all) with 64%nat in *. change (length k32_loop) with 71%nat in *. change (length k32_accum) with 141%nat in Hend.
    assert (A79 : forall f g fl, linv32 g0 G f g -> ends ops E p Q (pc + 140) (mk f g fl tm lg)).
    { intros f g fl [LA LP L1 LX]. apply (ends_exec _ _ _ _ _ _ [LBL 79]); [|reflexivity|].
      { apply code_at_cons. split; [|reflexivity]. replace (pc + 140)%nat with (S (S (S (S (S (pc + 64)))) + 71)) by lia. exact C7. }
      cbn [exec exec1 bind wp length]. replace (pc + 140 + 1)%nat with (pc + 141)%nat by lia. apply Hend; assumption. }
    assert (A2 : forall m n f g fl, G = n + 1 + Z.of_nat m -> 1 <= n -> linv32 g0 n f g -> ends ops E p Q (pc + 67) (mk f g fl tm lg)).
    { induction m as [|m IH]; intros n f g fl Em Hn Hi.
      all: apply (ends_exec _ _ _ _ _ _ (LBL 2 :: k32_loop));
        [apply code_at_cons; split; [replace (pc + 67)%nat with (S (S (S (pc + 64)))) by lia; exact C4|replace (S (pc + 67)) with (S (S (S (S (pc + 64))))) by lia; exact C5]|exact loop32_straight|].
      all: apply wp_exec_cons, wp_lbl; apply (wp_k32_loop g0 n); [lia|exact Hi|]; intros f' g' Hi'.
      all: replace (pc + 67 + length (LBL 2 :: k32_loop))%nat with (S (S (S (S (pc + 64)))) + 71)%nat by (change (length (LBL 2 :: k32_loop)) with 72%nat; lia).
      all: eapply ends_bc; [exact C6|exact F2| |]; cbn [cond_holds sfl mk]; intros Hcc.
      - apply Z.ltb_lt in Hcc. lia.
      - replace (S (S (S (S (S (pc + 64)))) + 71))%nat with (pc + 140)%nat by lia. apply A79. replace G with (n + 1) by lia. exact Hi'.
      - apply (IH (n + 1)); [lia|lia|exact Hi'].
      - apply Z.ltb_ge in Hcc. lia. }
    intros f fl Hl Hr Ha Hp H1. apply (ends_exec _ _ _ _ _ _ BMLA32_all); [exact C0|reflexivity|].
    apply (wp_bmla_all 0); [lia|exact Hl|exact Hr|exact Ha|]. change (0 + 1) with 1. intros f1 A1.
    apply (ends_exec _ _ _ _ _ _ [LDRW (Xr 2) 48; CMPW (Xr 1) (Xr 2)]).
    { change (length BMLA32_all) with 64%nat. apply code_at_cons. split; [exact C1|]. apply code_at_cons. split; [exact C2|reflexivity]. }
    { reflexivity. }
    apply wp_exec_cons. eapply wp_ldrw; [exact P48|]. rewrite wmod by lia.
    apply wp_exec_cons. eapply (wp_cmpw _ _ _ _ _ _ _ _ _ 4 (4 * G)); [rewrite xupd_other by reflexivity; exact H1|reflexivity|lia|lia|]. cbn [exec wp].
    assert (LI : linv32 g0 1 f1 (xupd g0 (Xr 2) (Int (4 * G)))).
    { constructor; [exact A1|destruct Hp as [GL GR]; split; rewrite xupd_other by reflexivity; assumption|rewrite xupd_other by reflexivity; exact H1|sx]. }
    eapply ends_bc; [replace (pc + length BMLA32_all + length _)%nat with (S (S (pc + 64))) by (change (length BMLA32_all) with 64%nat; cbn [length]; lia); exact C3|exact F79| |];
      cbn [cond_holds sfl mk]; intros Hcc.
    - apply Z.eqb_eq in Hcc. apply A79. replace G with 1 at 1 by lia. exact LI.
    - apply Z.eqb_neq in Hcc. replace (S (pc + length BMLA32_all + length [LDRW (Xr 2) 48; CMPW (Xr 1) (Xr 2)])) with (pc + 67)%nat
        by (change (length BMLA32_all) with 64%nat; cbn [length]; lia).
      apply (A2 (Z.to_nat (G - 2)) 1); [lia|lia|exact LI].
  Qed.
End Accum.
