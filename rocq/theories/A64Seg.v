(** * A64Seg: the scalar segments shared by the assembly kernels. *)
From Verif Require Import Base Spec Bits Log Bgemm A64 A64Bgemm A64Lemmas A64K44 A64Store A64Trans.
Open Scope Z_scope.

(** ** Single instructions *)
Section One.
  Variables (ops : nops) (E : env).
  Lemma wp_v v f g fl tm lg (Q : st -> Prop) : Q (mk (vrun ops [v] f) g fl tm lg) -> wp (exec1 ops E (V v) (mk f g fl tm lg)) Q.
  Proof. intros H. exact H. Qed.
  Lemma wp_movx d a f g fl tm lg (Q : st -> Prop) : Q (mk f (xupd g d (g a)) fl tm lg) -> wp (exec1 ops E (MOVX d a) (mk f g fl tm lg)) Q.
  Proof. intros H. exact H. Qed.
  Lemma wp_movi d z f g fl tm lg (Q : st -> Prop) : Q (mk f (xupd g d (Int z)) fl tm lg) -> wp (exec1 ops E (MOVI d z) (mk f g fl tm lg)) Q.
  Proof. intros H. exact H. Qed.
  Lemma wp_lbl n f g fl tm lg (Q : st -> Prop) : Q (mk f g fl tm lg) -> wp (exec1 ops E (LBL n) (mk f g fl tm lg)) Q.
  Proof. intros H. exact H. Qed.
  Lemma wp_movw d a z f g fl tm lg (Q : st -> Prop) : g a = Int z -> 0 <= z < 2 ^ 31 -> Q (mk f (xupd g d (Int z)) fl tm lg) ->
    wp (exec1 ops E (MOVW d a) (mk f g fl tm lg)) Q.
  Proof. intros Ha Hz H. cbn [exec1]. unfold getw, getx, setw. cbn [sx mk]. rewrite Ha. cbn [int_of bind]. rewrite !wmod by (rewrite ?wmod; lia). exact H. Qed.
  Lemma wp_addx d a b sh r o z f g fl tm lg (Q : st -> Prop) : g a = Ptr r o -> g b = Int z ->
    Q (mk f (xupd g d (Ptr r (o + z * 2 ^ sh))) fl tm lg) -> wp (exec1 ops E (ADDX d a b sh) (mk f g fl tm lg)) Q.
  Proof. intros Ha Hb H. cbn [exec1]. unfold getx. cbn [sx mk]. rewrite Hb. cbn [int_of bind]. rewrite Ha. exact H. Qed.
  Lemma wp_addxi d a z r o f g fl tm lg (Q : st -> Prop) : g a = Ptr r o ->
    Q (mk f (xupd g d (Ptr r (o + z))) fl tm lg) -> wp (exec1 ops E (ADDXI d a z) (mk f g fl tm lg)) Q.
  Proof. intros Ha H. cbn [exec1]. cbn [sx mk]. rewrite Ha. exact H. Qed.
  Lemma wp_ldrx d off v f g fl tm lg (Q : st -> Prop) : e_par E off = Some v -> Q (mk f (xupd g d v) fl tm lg) ->
    wp (exec1 ops E (LDRX d off) (mk f g fl tm lg)) Q.
  Proof. intros Ha H. cbn [exec1]. rewrite Ha. exact H. Qed.
  Lemma wp_ldrw d off z f g fl tm lg (Q : st -> Prop) : e_par E off = Some (Int z) -> Q (mk f (xupd g d (Int (z mod 2 ^ 32))) fl tm lg) ->
    wp (exec1 ops E (LDRW d off) (mk f g fl tm lg)) Q.
  Proof. intros Ha H. cbn [exec1]. rewrite Ha. exact H. Qed.
  Lemma wp_dup d w z f g fl tm lg (Q : st -> Prop) : g w = Int z -> 0 <= z < 2 ^ 32 -> Q (mk (vupd f d (v_dup4 z)) g fl tm lg) ->
    wp (exec1 ops E (DUP d w) (mk f g fl tm lg)) Q.
  Proof. intros Ha Hz H. cbn [exec1]. unfold getw, getx. cbn [sx mk]. rewrite Ha. cbn [int_of bind]. rewrite Z.mod_small by exact Hz. exact H. Qed.
  Lemma wp_subw d a b x y f g fl tm lg (Q : st -> Prop) : g a = Int x -> g b = Int y -> 0 <= y <= x -> x < 2 ^ 31 ->
    Q (mk f (xupd g d (Int (x - y))) fl tm lg) -> wp (exec1 ops E (SUBW d a b) (mk f g fl tm lg)) Q.
  Proof.
    intros Ha Hb H1 H2 H. cbn [exec1]. unfold getw, getx, setw. cbn [sx mk]. rewrite Ha, Hb. cbn [int_of bind].
    rewrite (wmod x), (wmod y), (wmod (x - y)) by lia. exact H.
  Qed.
  Lemma wp_cmpwi a z x f g fl tm lg (Q : st -> Prop) : g a = Int x -> 0 <= x < 2 ^ 31 -> Q (mk f g (x, z) tm lg) ->
    wp (exec1 ops E (CMPWI a z) (mk f g fl tm lg)) Q.
  Proof. intros Ha Hx H. cbn [exec1]. unfold getw, getx. cbn [sx mk]. rewrite Ha. cbn [int_of bind]. rewrite sgnw by exact Hx. exact H. Qed.
  Lemma wp_csel_le d a b x y u v f g tm lg (Q : st -> Prop) : g a = Int x -> g b = Int y -> 0 <= x < 2 ^ 31 -> 0 <= y < 2 ^ 31 ->
    Q (mk f (xupd g d (Int (if u <=? v then x else y))) (u, v) tm lg) -> wp (exec1 ops E (CSELW d a b LE) (mk f g (u, v) tm lg)) Q.
  Proof.
    intros Ha Hb Hx Hy H. cbn [exec1 cond_holds sfl mk]. unfold getw, getx, setw. destruct (u <=? v); cbn [sx mk].
    - rewrite Ha. cbn [int_of bind]. rewrite !wmod by (rewrite ?wmod; lia). exact H.
    - rewrite Hb. cbn [int_of bind]. rewrite !wmod by (rewrite ?wmod; lia). exact H.
  Qed.
  Lemma wp_ccmp a b x y u v f g tm lg (Q : st -> Prop) : g a = Int x -> g b = Int y -> 0 <= x < 2 ^ 31 -> 0 <= y < 2 ^ 31 ->
    (forall fl, cond_holds EQ fl = (u =? v) && (x =? y) -> Q (mk f g fl tm lg)) -> wp (exec1 ops E (CCMPEQ a b) (mk f g (u, v) tm lg)) Q.
  Proof.
    intros Ha Hb Hx Hy H. cbn [exec1]. unfold getw, getx. cbn [sx mk]. rewrite Ha, Hb. cbn [int_of bind wp]. cbn [cond_holds sfl mk].
    destruct (u =? v).
    - apply H. rewrite !sgnw by assumption. reflexivity.
    - apply H. reflexivity.
  Qed.
  Lemma wp_str_dst v n p off o f g fl tm lg (Q : st -> Prop) : g p = Ptr RDst o -> Q (mk f g fl tm (log_list lg (o + off) (firstn n (f v)))) ->
    wp (exec1 ops E (STR v n p off) (mk f g fl tm lg)) Q.
  Proof. intros Hp H. cbn [exec1]. unfold store_at. cbn [sx mk]. rewrite Hp. exact H. Qed.
  Lemma wp_str_tmp v n p off o f g fl tm lg (Q : st -> Prop) : g p = Ptr RTmp o -> 0 <= o + off -> o + off + zlen (firstn n (f v)) <= zlen tm ->
    (forall tm', zlen tm' = zlen tm -> (forall q x, rd (firstn n (f v)) q = Some x -> rd tm' (o + off + q) = Some x) ->
       (forall a, a < o + off \/ o + off + zlen (firstn n (f v)) <= a -> rd tm' a = rd tm a) -> Q (mk f g fl tm' lg)) ->
    wp (exec1 ops E (STR v n p off) (mk f g fl tm lg)) Q.
  Proof.
    intros Hp H0 Hl H. cbn [exec1]. unfold store_at. cbn [sx mk]. rewrite Hp. cbn [store stmp mk sv]. apply wp_bind.
    apply wr_list_wp; [exact H0|exact Hl|]. intros m' H1 H2 H3. cbn [wp]. apply H; auto.
  Qed.
End One.

Lemma mod32_range z : 0 <= z mod 2 ^ 32 < 2 ^ 32.
Proof. apply Z.mod_pos_bound. lia. Qed.
Lemma same_x_trans a g1 g2 g3 : same_x a g1 g2 -> same_x a g2 g3 -> same_x a g1 g3.
Proof. intros H1 H2 q Hq. rewrite H1, H2 by exact Hq. reflexivity. Qed.
Lemma xeqb_eq a b : xeqb a b = true -> a = b.
Proof. destruct a, b; cbn; intros H; try discriminate; try reflexivity. apply Nat.eqb_eq in H. congruence. Qed.
Lemma same_x_upd a g d v g0 : existsb (xeqb d) a = true -> same_x a g g0 -> same_x a (xupd g d v) g0.
Proof.
  intros Hd H q Hq. rewrite xupd_other; [apply H, Hq|]. destruct (xeqb q d) eqn:Eq; [|reflexivity].
  apply xeqb_eq in Eq. subst q. clear - Hd Hq. induction a as [|x a IH]; cbn in *; [discriminate|].
  destruct (xeqb d x); [discriminate|]. cbn in *. auto.
Qed.
Lemma same_x_refl a g : same_x a g g.
Proof. intros q _. reflexivity. Qed.
Ltac sx := repeat (apply same_x_upd; [reflexivity|]); try assumption; try apply same_x_refl.

(** ** Moving to the next block's columns (kernels_aarch64.h 313-334, 792-816) *)
Section Advance.
  Variables (ops : nops) (E : env) (p : list instr) (Q : st -> Prop) (pc : nat) (sh : Z).
  Hypothesis Hc : code_at p pc (k_advance sh).
  Hypothesis (F4 : find 4 p 0 = Some (pc + 4)%nat) (F5 : find 5 p 0 = Some (pc + 9)%nat).
  Lemma ends_advance f g fl tm lg row col rl cl a b a5 x9 x10 :
    g ROW = Int row -> g COL = Int col -> g (Xr 7) = Int rl -> g (Xr 8) = Int cl -> g LHS_COL = Ptr RLhs a -> g RHS_COL = Ptr RRhs b ->
    g (Xr 5) = Ptr RLhs a5 -> g (Xr 9) = Int x9 -> g (Xr 10) = Int x10 ->
    0 <= row < 2 ^ 31 -> 0 <= col < 2 ^ 31 -> 0 <= rl < 2 ^ 31 -> 0 <= cl < 2 ^ 31 ->
    (forall g' fl', g' LHS_COL = Ptr RLhs (if row <? rl then a + x9 * 2 ^ sh else a5) ->
       g' RHS_COL = Ptr RRhs (if row <? rl then b else if col <? cl then b + x10 * 2 ^ 2 else b) ->
       same_x [LHS_COL; RHS_COL] g' g -> ends ops E p Q (pc + 10) (mk f g' fl' tm lg)) ->
    ends ops E p Q pc (mk f g fl tm lg).
  Proof.
    intros GR GC G7 G8 GL GRH G5 G9 G10 Hr Hcl Hrl Hcc HQ. assert (Hc' := Hc). unfold k_advance in Hc'.
    apply code_at_cons in Hc'. destruct Hc' as [C0 Hc']. apply code_at_cons in Hc'. destruct Hc' as [C1 Hc'].
    apply code_at_cons in Hc'. destruct Hc' as [C2 Hc']. apply code_at_cons in Hc'. destruct Hc' as [C3 Hc'].
    apply (code_at_app p [LBL 4; MOVX LHS_COL (Xr 5); CMPW COL (Xr 8)]) in Hc'. destruct Hc' as [C4 Hc'].
    apply code_at_cons in Hc'. destruct Hc' as [C7 Hc']. apply code_at_cons in Hc'. destruct Hc' as [C8 Hc'].
    apply code_at_cons in Hc'. destruct Hc' as [C9 _]. cbn [length] in *.
    assert (L5 : forall g' fl', g' LHS_COL = Ptr RLhs (if row <? rl then a + x9 * 2 ^ sh else a5) ->
       g' RHS_COL = Ptr RRhs (if row <? rl then b else if col <? cl then b + x10 * 2 ^ 2 else b) ->
       same_x [LHS_COL; RHS_COL] g' g -> ends ops E p Q (pc + 9) (mk f g' fl' tm lg)).
    { intros g' fl' H1 H2 H3. apply (ends_exec _ _ _ _ _ _ [LBL 5]).
      - apply code_at_cons. split; [|reflexivity]. replace (pc + 9)%nat with (S (S (S (S (S (S pc))) + 3))) by lia. exact C9.
      - reflexivity.
      - cbn [exec exec1 bind wp length]. replace (pc + 9 + 1)%nat with (pc + 10)%nat by lia. apply HQ; assumption. }
    apply (ends_exec _ _ _ _ _ _ [CMPW ROW (Xr 7)]); [apply code_at_cons; split; [exact C0|reflexivity]|reflexivity|].
    apply wp_exec_cons. eapply wp_cmpw; [exact GR|exact G7|lia|lia|]. cbn [exec wp length]. replace (pc + 1)%nat with (S pc) by lia.
    eapply ends_bc; [exact C1|exact F4| |]; cbn [cond_holds sfl mk]; intros Hcond.
    - apply Z.leb_le in Hcond. assert (T1 : (row <? rl) = false) by (apply Z.ltb_ge; lia). rewrite T1 in L5.
      apply (ends_exec _ _ _ _ _ _ [LBL 4; MOVX LHS_COL (Xr 5); CMPW COL (Xr 8)]); [replace (pc + 4)%nat with (S (S (S (S pc)))) by lia; exact C4|reflexivity|].
      apply wp_exec_cons, wp_lbl, wp_exec_cons, wp_movx, wp_exec_cons.
      eapply wp_cmpw; [rewrite xupd_other by reflexivity; exact GC|rewrite xupd_other by reflexivity; exact G8|lia|lia|]. cbn [exec wp length].
      eapply ends_bc; [replace (pc + 4 + 3)%nat with (S (S (S (S pc))) + 3)%nat by lia; exact C7|exact F5| |]; cbn [cond_holds sfl mk]; intros Hcd2.
      + apply Z.leb_le in Hcd2. assert (T2 : (col <? cl) = false) by (apply Z.ltb_ge; lia). rewrite T2 in L5.
        apply L5; [cbn [xupd xeqb]; exact G5|rewrite xupd_other by reflexivity; exact GRH|sx].
      + apply Z.leb_gt in Hcd2. assert (T2 : (col <? cl) = true) by (apply Z.ltb_lt; lia). rewrite T2 in L5.
        apply (ends_exec _ _ _ _ _ _ [ADDX RHS_COL RHS_COL (Xr 10) 2]).
        { apply code_at_cons. split; [|reflexivity]. replace (S (pc + 4 + 3)) with (S (S (S (S (S pc))) + 3)) by lia. exact C8. }
        { reflexivity. }
        apply wp_exec_cons. eapply wp_addx; [rewrite xupd_other by reflexivity; exact GRH|rewrite xupd_other by reflexivity; exact G10|].
        cbn [exec wp length]. replace (S (pc + 4 + 3) + 1)%nat with (pc + 9)%nat by lia.
        apply L5; [rewrite xupd_other by reflexivity; cbn [xupd xeqb]; exact G5|reflexivity|sx].
    - apply Z.leb_gt in Hcond. assert (T1 : (row <? rl) = true) by (apply Z.ltb_lt; lia). rewrite T1 in L5.
      apply (ends_exec _ _ _ _ _ _ [ADDX LHS_COL LHS_COL (Xr 9) sh]); [apply code_at_cons; split; [exact C2|reflexivity]|reflexivity|].
      apply wp_exec_cons. eapply wp_addx; [exact GL|exact G9|]. cbn [exec wp length]. replace (S (S pc) + 1)%nat with (S (S (S pc))) by lia.
      eapply ends_b; [exact C3|exact F5|]. apply L5; [reflexivity|rewrite xupd_other by reflexivity; exact GRH|sx].
  Qed.
End Advance.
