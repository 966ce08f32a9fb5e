(** * A64Store: what the store phases of the assembly kernels write. *)
From Verif Require Import Base Spec Bits Log Bgemm A64 A64Bgemm A64Lemmas A64K44.
Open Scope Z_scope.

(** ** Stores to the destination log and to the scratch buffer *)
Lemma rd_cons {A} (x : A) l q : rd (x :: l) q = if q =? 0 then Some x else rd l (q - 1).
Proof.
  unfold rd. destruct (Z.ltb_spec q 0).
  - destruct (Z.eqb_spec q 0); [lia|]. destruct (Z.ltb_spec (q - 1) 0); [reflexivity|lia].
  - destruct (Z.eqb_spec q 0) as [-> | Hn]; [reflexivity|]. destruct (Z.ltb_spec (q - 1) 0); [lia|].
    replace (Z.to_nat q) with (S (Z.to_nat (q - 1))) by lia. reflexivity.
Qed.
Lemma log_list_in bs : forall l o e, In e (log_list l o bs) <-> In e l \/ exists q v, rd bs q = Some v /\ e = (o + q, v).
Proof.
  induction bs as [|b bs IH]; intros l o e; cbn [log_list].
  - split; [auto|]. intros [H | (q & v & Hq & _)]; [exact H|]. apply rd_bounds in Hq. change (zlen []) with 0 in Hq. lia.
  - rewrite IH. cbn [In]. split.
    + intros [[H | H] | (q & v & Hq & ->)]; [|auto|].
      * right. exists 0, b. rewrite rd_cons. cbn. rewrite <- H, Z.add_0_r. auto.
      * right. exists (q + 1), v. rewrite rd_cons. destruct (Z.eqb_spec (q + 1) 0) as [E0 | ].
        { apply rd_bounds in Hq. lia. }
        replace (q + 1 - 1) with q by ring. split; [exact Hq|]. f_equal. ring.
    + intros [H | (q & v & Hq & ->)]; [auto|]. rewrite rd_cons in Hq. destruct (Z.eqb_spec q 0) as [-> | Hn].
      * injection Hq as ->. left. left. f_equal. ring.
      * right. exists (q - 1), v. split; [exact Hq|]. f_equal. ring.
Qed.
Lemma log_list_app bs : forall bs' l o, log_list l o (bs ++ bs') = log_list (log_list l o bs) (o + zlen bs) bs'.
Proof.
  induction bs as [|b bs IH]; intros bs' l o; cbn [app log_list].
  - change (zlen []) with 0. rewrite Z.add_0_r. reflexivity.
  - rewrite IH. f_equal. unfold zlen. cbn [length]. lia.
Qed.
(** Entries written by storing a vector of [k]-byte lanes. *)
Lemma log_vec_in k : forall ls l o e, In e (log_list l o (vec k ls)) <->
  In e l \/ exists i x q v, rd ls i = Some x /\ rd (le_split k x) q = Some v /\ e = (o + Z.of_nat k * i + q, v).
Proof.
  induction ls as [|x ls IH]; intros l o e.
  - cbn. split; [auto|]. intros [H | (i & x & q & v & Hi & _)]; [exact H|]. apply rd_bounds in Hi. change (zlen []) with 0 in Hi. lia.
  - change (vec k (x :: ls)) with (le_split k x ++ vec k ls). rewrite log_list_app, IH, log_list_in.
    assert (Z1 : zlen (le_split k x) = Z.of_nat k) by (unfold zlen; rewrite le_split_length; reflexivity). rewrite Z1.
    split.
    + intros [[H | (q & v & Hq & ->)] | (i & y & q & v & Hi & Hq & ->)]; [auto| |].
      * right. exists 0, x, q, v. rewrite rd_cons. cbn. split; [reflexivity|]. split; [exact Hq|]. f_equal. ring.
      * right. exists (i + 1), y, q, v. rewrite rd_cons. assert (B := rd_bounds _ _ _ Hi). destruct (Z.eqb_spec (i + 1) 0); [lia|].
        replace (i + 1 - 1) with i by ring. split; [exact Hi|]. split; [exact Hq|]. f_equal. ring.
    + intros [H | (i & y & q & v & Hi & Hq & ->)]; [auto|]. rewrite rd_cons in Hi. destruct (Z.eqb_spec i 0) as [-> | Hn].
      * injection Hi as ->. left. right. exists q, v. split; [exact Hq|]. f_equal. ring.
      * right. exists (i - 1), y, q, v. split; [exact Hi|]. split; [exact Hq|]. f_equal. ring.
Qed.

Lemma wr_list_wp bs : forall m o (Q : list Z -> Prop), 0 <= o -> o + zlen bs <= zlen m ->
  (forall m', zlen m' = zlen m -> (forall q v, rd bs q = Some v -> rd m' (o + q) = Some v) ->
     (forall a, a < o \/ o + zlen bs <= a -> rd m' a = rd m a) -> Q m') ->
  wp (wr_list m o bs) Q.
Proof.
  induction bs as [|b bs IH]; intros m o Q Ho Hl HQ.
  - cbn. apply HQ; [reflexivity| |reflexivity]. intros q v Hq. apply rd_bounds in Hq. change (zlen []) with 0 in Hq. lia.
  - assert (Zc : zlen (b :: bs) = 1 + zlen bs) by (unfold zlen; cbn [length]; lia). rewrite Zc in *.
    assert (Znn := zlen_nonneg bs).
    cbn [wr_list]. apply wp_bind, wr_wp; [lia|]. intros m1 Hl1 Hs1 Ho1. apply IH; [lia|lia|].
    intros m2 Hl2 Hs2 Ho2. apply HQ; [congruence| |].
    + intros q v Hq. rewrite rd_cons in Hq. destruct (Z.eqb_spec q 0) as [-> | Hn].
      * injection Hq as ->. rewrite Z.add_0_r, Ho2 by lia. exact Hs1.
      * rewrite <- (Hs2 (q - 1) v Hq). f_equal. ring.
    + intros a Ha. rewrite Ho2 by lia. apply Ho1. lia.
Qed.
Lemma loadn_rd E s n bs : forall o, length bs = n -> (forall q v, rd bs q = Some v -> rd (stmp s) (o + q) = Some v) ->
  loadn E s RTmp o n = Some bs.
Proof.
  revert n. induction bs as [|b bs IH]; intros n o Hn Hr; cbn in Hn; subst n; [reflexivity|].
  cbn [loadn load_byte]. rewrite <- (Z.add_0_r o) at 1. rewrite (Hr 0 b) by (rewrite rd_cons; reflexivity). cbn [bind].
  rewrite (IH (length bs)); [reflexivity|reflexivity|]. intros q v Hq.
  replace (o + 1 + q) with (o + (q + 1)) by ring. apply Hr. rewrite rd_cons.
  assert (B := rd_bounds _ _ _ Hq). destruct (Z.eqb_spec (q + 1) 0); [lia|]. replace (q + 1 - 1) with q by ring. exact Hq.
Qed.
Lemma le_split_join k x : le_split k (le_join (le_split k x)) = le_split k x.
Proof. rewrite le_join_split. apply le_split_mod. Qed.

(** ** The copy loop of partial blocks *)
Section Copy.
  Variables (ops : nops) (E : env) (p : list instr) (Q : st -> Prop) (t : dtype) (rb nr nc d0 stride : Z) (vals : Z -> Z -> Z).
  Hypothesis (Hnr : 1 <= nr < 2 ^ 31 - 1) (Hnc : 1 <= nc < 2 ^ 31 - 1).
  Let es := Z.of_nat (esize t).
  (** The stores of the top left [nr] x [nc] elements: element (i, j) goes to
      byte position d0 + j*stride + es*i. *)
  Definition blkD (n c : Z) (e : Z * Z) : Prop :=
    exists i j q v, 0 <= i < n /\ 0 <= j < c /\ rd (le_split (esize t) (vals i j)) q = Some v /\
      e = (d0 + j * stride + Z.of_nat (esize t) * i + q, v).
  Definition curD (j i : Z) (e : Z * Z) : Prop :=
    exists i' j' q v, (0 <= i' < nr /\ 0 <= j' < j \/ 0 <= i' < i /\ j' = j) /\ rd (le_split (esize t) (vals i' j')) q = Some v /\
      e = (d0 + j' * stride + Z.of_nat (esize t) * i' + q, v).
  Variables (pc : nat) (f : nat -> list Z) (g0 : xreg -> val) (tm : list Z) (lg0 : list (Z * Z)).
  Hypothesis Hc : code_at p pc (k_copy t rb).
  Hypothesis (F50 : find 50 p 0 = Some (pc + 3)%nat) (F51 : find 51 p 0 = Some (pc + 5)%nat).
  Hypothesis (G1 : g0 (Xr 1) = Int nr) (G2 : g0 (Xr 2) = Int nc) (G11 : g0 (Xr 11) = Int stride) (GT : g0 TMPBUF = Ptr RTmp 0)
    (GD : g0 DST = Ptr RDst d0).
  Hypothesis Htm : forall i j q v, 0 <= i < nr -> 0 <= j < nc -> rd (le_split (esize t) (vals i j)) q = Some v ->
    rd tm (j * (rb * es) + es * i + q) = Some v.
  Hypothesis Hend : forall g fl lg, same_x [Xr 3; Xr 4; Xr 13; Xr 14; Xr 15] g g0 -> (forall e, In e lg <-> In e lg0 \/ blkD nr nc e) ->
    ends ops E p Q (pc + 16) (mk f g fl tm lg).
  Record cinv (j i : Z) (g : xreg -> val) (lg : list (Z * Z)) : Prop := {
    ci_3 : g (Xr 3) = Ptr RTmp (j * (rb * es)); ci_4 : g (Xr 4) = Ptr RDst (d0 + j * stride); ci_14 : g (Xr 14) = Int j;
    ci_15 : 0 <= i -> g (Xr 15) = Int i; ci_x : same_x [Xr 3; Xr 4; Xr 13; Xr 14; Xr 15] g g0;
    ci_l : forall e, In e lg <-> In e lg0 \/ curD j i e }.
  Lemma es_shift : 2 ^ eshift t = es.
  Proof. unfold es, eshift, esize. destruct (is_float t); reflexivity. Qed.

  Lemma copy_step j i g fl lg (Q' : st -> Prop) : 0 <= i < nr -> 0 <= j < nc -> cinv j i g lg ->
    (forall g' lg', cinv j (i + 1) g' lg' -> Q' (mk f g' (i + 1, nr) tm lg')) ->
    wp (exec ops E [LBL 51; LDRT (Xr 13) (esize t) (Xr 3) (Xr 15) (eshift t); STRT (Xr 13) (esize t) (Xr 4) (Xr 15) (eshift t);
        ADDWI (Xr 15) (Xr 15) 1; CMPW (Xr 15) (Xr 1)] (mk f g fl tm lg)) Q'.
  Proof.
    intros Hi Hj [C3 C4 C14 C15 Cx Cl] HQ. specialize (C15 ltac:(lia)).
    apply wp_exec_cons. cbn [exec1 wp].
    apply wp_exec_cons. cbn [exec1]. unfold getx. cbn [sx mk]. rewrite C15. cbn [int_of bind]. unfold load_at. cbn [sx mk]. rewrite C3, es_shift.
    rewrite (loadn_rd E _ (esize t) (le_split (esize t) (vals i j))); [|apply le_split_length|].
    2:{ intros q v Hq. cbn [stmp mk]. rewrite <- (Htm i j q v Hi Hj Hq). f_equal. ring. }
    cbn [bind wp].
    apply wp_exec_cons. cbn [exec1]. unfold getx, set_x. cbn [sx mk xupd xeqb Nat.eqb]. rewrite C15. cbn [int_of bind].
    unfold store_at. cbn [sx xupd xeqb Nat.eqb]. rewrite C4, es_shift. cbn [store bind wp sv sx sfl stmp slog].
    apply wp_exec_cons. fold (mk f (xupd g (Xr 13) (Int (le_join (le_split (esize t) (vals i j))))) fl tm
      (log_list lg (d0 + j * stride + i * es) (le_split (esize t) (le_join (le_split (esize t) (vals i j)))))).
    rewrite le_split_join.
    eapply (wp_addwi _ _ _ _ _ _ _ _ _ _ i); [rewrite xupd_other by reflexivity; exact C15|lia|lia|].
    apply wp_exec_cons. eapply (wp_cmpw _ _ _ _ _ _ _ _ _ (i + 1) nr); [reflexivity| |lia|lia|].
    { rewrite !xupd_other by reflexivity. rewrite Cx by reflexivity. exact G1. }
    cbn [exec wp]. apply HQ. constructor; try (rewrite !xupd_other by reflexivity; assumption).
    - reflexivity.
    - intros q Hq. rewrite <- Cx by exact Hq. cbn [forallb] in Hq.
      destruct (xeqb q (Xr 3)); [discriminate|]. destruct (xeqb q (Xr 4)); [discriminate|]. destruct (xeqb q (Xr 13)) eqn:E13; [discriminate|].
      destruct (xeqb q (Xr 14)); [discriminate|]. destruct (xeqb q (Xr 15)) eqn:E15; [discriminate|]. rewrite !xupd_other by assumption. reflexivity.
    - intros e. rewrite log_list_in, Cl. split.
      + intros [[H | (i' & j' & q & v & Hij & Hq & ->)] | (q & v & Hq & ->)]; [auto| |].
        * right. exists i', j', q, v. split; [lia|]. auto.
        * right. exists i, j, q, v. split; [lia|]. split; [exact Hq|]. f_equal. fold es. ring.
      + intros [H | (i' & j' & q & v & Hij & Hq & ->)]; [auto|].
        destruct (Z.eq_dec j' j) as [-> | Hne]; [destruct (Z.eq_dec i' i) as [-> | Hni]|].
        * right. exists q, v. split; [exact Hq|]. f_equal. fold es. ring.
        * left. right. exists i', j, q, v. split; [lia|]. auto.
        * left. right. exists i', j', q, v. split; [lia|]. auto.
  Qed.

  Lemma ends_copy fl : ends ops E p Q pc (mk f g0 fl tm lg0).
  Proof.
    assert (Hc' := Hc). unfold k_copy in Hc'.
    apply (code_at_app p [MOVX (Xr 3) TMPBUF; MOVX (Xr 4) DST; MOVI (Xr 14) 0]) in Hc'. destruct Hc' as [C1 Hc'].
    apply (code_at_app p [LBL 50; MOVI (Xr 15) 0]) in Hc'. destruct Hc' as [C2 Hc'].
    apply (code_at_app p [LBL 51; LDRT (Xr 13) (esize t) (Xr 3) (Xr 15) (eshift t); STRT (Xr 13) (esize t) (Xr 4) (Xr 15) (eshift t);
        ADDWI (Xr 15) (Xr 15) 1; CMPW (Xr 15) (Xr 1)]) in Hc'. destruct Hc' as [C3 Hc'].
    apply code_at_cons in Hc'. destruct Hc' as [C4 Hc'].
    apply (code_at_app p [ADDWI (Xr 14) (Xr 14) 1; ADDXI (Xr 3) (Xr 3) (rb * Z.of_nat (esize t)); ADDX (Xr 4) (Xr 4) (Xr 11) 0;
        CMPW (Xr 14) (Xr 2)]) in Hc'. destruct Hc' as [C5 Hc'].
    apply code_at_cons in Hc'. destruct Hc' as [C6 _]. cbn [length] in *.
    (* one column, from row i *)
    assert (Inner : forall j, 0 <= j < nc ->
      (forall g fl lg, cinv j nr g lg -> ends ops E p Q (pc + 11) (mk f g fl tm lg)) ->
      forall m i g fl lg, nr = i + 1 + Z.of_nat m -> 0 <= i -> cinv j i g lg -> ends ops E p Q (pc + 5) (mk f g fl tm lg)).
    { intros j Hj Hnext. induction m as [|m IH]; intros i g fl' lg Em Hi Hci.
      all: eapply ends_exec; [replace (pc + 5)%nat with (pc + 3 + 2)%nat by lia; exact C3|reflexivity|].
      all: apply (copy_step j i); [lia|lia|exact Hci|]; intros g' lg' Hci'.
      all: eapply ends_bc; [replace (pc + 5 + _)%nat with (pc + 3 + 2 + 5)%nat by (cbn [length]; lia); exact C4|exact F51| |]; cbn [cond_holds sfl mk]; intros Hcc.
      - apply Z.ltb_lt in Hcc. lia.
      - replace (S _) with (pc + 11)%nat by (cbn [length]; lia). apply Hnext. replace nr with (i + 1) by lia. exact Hci'.
      - apply (IH (i + 1)); [lia|lia|exact Hci'].
      - apply Z.ltb_ge in Hcc. lia. }
    assert (Outer : forall m j g fl lg, nc = j + 1 + Z.of_nat m -> 0 <= j -> cinv j (-1) g lg -> ends ops E p Q (pc + 3) (mk f g fl tm lg)).
    { assert (Col : forall j g fl lg, 0 <= j < nc -> cinv j (-1) g lg ->
        (forall g fl lg, cinv j nr g lg -> ends ops E p Q (pc + 11) (mk f g fl tm lg)) -> ends ops E p Q (pc + 3) (mk f g fl tm lg)).
      { intros j g fl' lg Hj [D3 D4 D14 D15 Dx Dl] Hn. eapply ends_exec; [exact C2|reflexivity|].
        apply wp_exec_cons. cbn [exec1 wp]. apply wp_exec_cons. cbn [exec1 wp exec].
        replace (pc + 3 + length _)%nat with (pc + 5)%nat by (cbn [length]; lia).
        apply (Inner j Hj Hn (Z.to_nat (nr - 1)) 0); [lia|lia|].
        constructor; try (unfold set_x; cbn [sx mk]; rewrite !xupd_other by reflexivity; assumption).
        - reflexivity.
        - intros q Hq. rewrite <- Dx by exact Hq. cbn [forallb] in Hq. destruct (xeqb q (Xr 15)) eqn:E15; [rewrite !andb_false_r in Hq; discriminate|].
          cbn [sx mk]. rewrite xupd_other by exact E15. reflexivity.
        - intros e. cbn [slog mk]. rewrite Dl. split; (intros [H | (i' & j' & q & v & Hij & H)]; [auto|right; exists i', j', q, v; split; [lia|exact H]]). }
      assert (Next : forall j g fl lg (Q' : st -> Prop), 0 <= j < nc -> cinv j nr g lg ->
        (forall g' lg', cinv (j + 1) (-1) g' lg' -> Q' (mk f g' (j + 1, nc) tm lg')) ->
        wp (exec ops E [ADDWI (Xr 14) (Xr 14) 1; ADDXI (Xr 3) (Xr 3) (rb * Z.of_nat (esize t)); ADDX (Xr 4) (Xr 4) (Xr 11) 0;
          CMPW (Xr 14) (Xr 2)] (mk f g fl tm lg)) Q').
      { intros j g fl' lg Q' Hj [D3 D4 D14 D15 Dx Dl] HQ.
        apply wp_exec_cons. eapply (wp_addwi _ _ _ _ _ _ _ _ _ _ j); [exact D14|lia|lia|].
        apply wp_exec_cons. cbn [exec1 wp]. unfold set_x. cbn [sx sv sfl stmp slog mk].
        rewrite (xupd_other _ (Xr 14) _ (Xr 3)) by reflexivity. rewrite D3. cbn [addv].
        apply wp_exec_cons. cbn [exec1]. unfold getx. cbn [sx]. rewrite !(xupd_other _ _ _ (Xr 11)) by reflexivity. rewrite Dx by reflexivity. rewrite G11.
        cbn [int_of bind wp]. unfold set_x. cbn [sx sv sfl stmp slog]. rewrite !(xupd_other _ _ _ (Xr 4)) by reflexivity. rewrite D4. cbn [addv].
        apply wp_exec_cons. eapply (wp_cmpw _ _ _ _ _ _ _ _ _ (j + 1) nc); [reflexivity| |lia|lia|].
        { rewrite !xupd_other by reflexivity. rewrite Dx by reflexivity. exact G2. }
        cbn [exec wp]. apply HQ. constructor.
        - rewrite xupd_other by reflexivity. cbn [xupd xeqb Nat.eqb]. f_equal. fold es. ring.
        - cbn [xupd xeqb Nat.eqb]. f_equal. ring.
        - rewrite !xupd_other by reflexivity. reflexivity.
        - intros Hf. lia.
        - intros q Hq. rewrite <- Dx by exact Hq. cbn [forallb] in Hq.
          destruct (xeqb q (Xr 3)) eqn:E3; [discriminate|]. destruct (xeqb q (Xr 4)) eqn:E4; [discriminate|]. destruct (xeqb q (Xr 13)); [discriminate|].
          destruct (xeqb q (Xr 14)) eqn:E14; [discriminate|]. rewrite !xupd_other by assumption. reflexivity.
        - intros e. rewrite Dl. split; (intros [H | (i' & j' & q & v & Hij & H)]; [auto|right; exists i', j', q, v; split; [lia|exact H]]). }
      induction m as [|m IH]; intros j g fl' lg Em Hj Hci.
      all: apply (Col j); [lia|exact Hci|]; intros g1 fl1 lg1 Hc1.
      all: eapply ends_exec; [replace (pc + 11)%nat with (S (pc + 3 + 2 + 5))%nat by lia; exact C5|reflexivity|].
      all: apply (Next j); [lia|exact Hc1|]; intros g2 lg2 Hc2.
      all: eapply ends_bc; [replace (pc + 11 + _)%nat with (S (pc + 3 + 2 + 5) + 4)%nat by (cbn [length]; lia); exact C6|exact F50| |]; cbn [cond_holds sfl mk]; intros Hcc.
      - apply Z.ltb_lt in Hcc. lia.
      - replace (S _) with (pc + 16)%nat by (cbn [length]; lia). destruct Hc2 as [D3 D4 D14 D15 Dx Dl]. apply Hend; [exact Dx|].
        intros e. rewrite Dl. split; (intros [H | (i' & j' & q & v & Hij)]; [auto|right; exists i', j', q, v]).
        + destruct Hij as (Hij & H). split; [lia|]. split; [lia|exact H].
        + destruct Hij as (H1 & H2 & H). split; [lia|exact H].
      - apply (IH (j + 1)); [lia|lia|exact Hc2].
      - apply Z.ltb_ge in Hcc. lia. }
    eapply ends_exec; [exact C1|reflexivity|].
    apply wp_exec_cons. cbn [exec1 wp]. apply wp_exec_cons. cbn [exec1 wp]. apply wp_exec_cons. cbn [exec1 wp exec]. unfold set_x. cbn [sx sv sfl stmp slog mk].
    replace (pc + length _)%nat with (pc + 3)%nat by (cbn [length]; lia).
    apply (Outer (Z.to_nat (nc - 1)) 0); [lia|lia|]. constructor.
    - rewrite !xupd_other by reflexivity. cbn [xupd xeqb Nat.eqb]. rewrite GT. reflexivity.
    - rewrite xupd_other by reflexivity. cbn [xupd xeqb Nat.eqb]. rewrite GD. f_equal. ring.
    - reflexivity.
    - intros Hf; lia.
    - intros q Hq. cbn [forallb] in Hq. destruct (xeqb q (Xr 3)) eqn:E3; [discriminate|]. destruct (xeqb q (Xr 4)) eqn:E4; [discriminate|].
      destruct (xeqb q (Xr 13)); [discriminate|]. destruct (xeqb q (Xr 14)) eqn:E14; [discriminate|]. rewrite !xupd_other by assumption. reflexivity.
    - intros e. split; [auto|]. intros [H | (i' & j' & q & v & Hij & H)]; [exact H|]. lia.
  Qed.
End Copy.
