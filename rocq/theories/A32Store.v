(** * A32Store: what the store phase of the 32-bit Arm kernel writes. *)
From Verif Require Import Base Spec Bits Log Bgemm A64 A64Bgemm A64Lemmas A64K44 A64Store A64Trans A64Seg A64Block44 A64Write44 A32 A32Acc.
Open Scope Z_scope.

(** kernels_arm32.h 478-505: the copy loop without the load of the stride. *)
Definition copy_body (t : dtype) : list instr := tl (k32_copy t).
(** ** The copy loop of partial blocks *)
Section Copy32.
  Variables (ops : nops) (E : env) (p : list instr) (Q : st -> Prop) (t : dtype) (nr nc d0 stride : Z) (vals : Z -> Z -> Z).
  Hypothesis (Hnr : 1 <= nr < 2 ^ 31 - 1) (Hnc : 1 <= nc < 2 ^ 31 - 1).
  Let es := Z.of_nat (esize t).
  Definition curD32 (j i : Z) (e : Z * Z) : Prop :=
    exists i' j' q v, (0 <= i' < nr /\ 0 <= j' < j \/ 0 <= i' < i /\ j' = j) /\ rd (le_split (esize t) (vals i' j')) q = Some v /\
      e = (d0 + j' * stride + Z.of_nat (esize t) * i' + q, v).
  Variables (pc : nat) (f : nat -> list Z) (g0 : xreg -> val) (tm : list Z) (lg0 : list (Z * Z)).
  Hypothesis Hc : code_at p pc (copy_body t).
  Hypothesis (F50 : find 50 p 0 = Some (pc + 3)%nat) (F51 : find 51 p 0 = Some (pc + 5)%nat).
  Hypothesis (G1 : g0 (Xr 1) = Int nr) (G2 : g0 (Xr 2) = Int nc) (G11 : g0 (Xr 8) = Int stride) (GT : g0 TMPBUF = Ptr RTmp 0)
    (GD : g0 DST = Ptr RDst d0).
  Hypothesis Htm : forall i j q v, 0 <= i < nr -> 0 <= j < nc -> rd (le_split (esize t) (vals i j)) q = Some v ->
    rd tm (j * (4 * es) + es * i + q) = Some v.
  Hypothesis Hend : forall g fl lg, same_x [Xr 3; Xr 4; Xr 10; Xr 6; Xr 5] g g0 -> (forall e, In e lg <-> In e lg0 \/ blkD t d0 stride vals nr nc e) ->
    ends ops E p Q (pc + 16) (mk f g fl tm lg).
  Record cinv32 (j i : Z) (g : xreg -> val) (lg : list (Z * Z)) : Prop := {
    ci_3_32 : g (Xr 3) = Ptr RTmp (j * (4 * es)); ci_4_32 : g (Xr 4) = Ptr RDst (d0 + j * stride); ci_14_32 : g (Xr 6) = Int j;
    ci_15_32 : 0 <= i -> g (Xr 5) = Int i; ci_x_32 : same_x [Xr 3; Xr 4; Xr 10; Xr 6; Xr 5] g g0;
    ci_l_32 : forall e, In e lg <-> In e lg0 \/ curD32 j i e }.
  Lemma es_shift32 : 2 ^ eshift t = es.
  Proof. unfold es, eshift, esize. destruct (is_float t); reflexivity. Qed.

  Lemma copy_step32 j i g fl lg (Q' : st -> Prop) : 0 <= i < nr -> 0 <= j < nc -> cinv32 j i g lg ->
    (forall g' lg', cinv32 j (i + 1) g' lg' -> Q' (mk f g' (i + 1, nr) tm lg')) ->
    wp (exec ops E [LBL 51; LDRT (Xr 10) (esize t) (Xr 3) (Xr 5) (eshift t); STRT (Xr 10) (esize t) (Xr 4) (Xr 5) (eshift t);
        ADDWI (Xr 5) (Xr 5) 1; CMPW (Xr 5) (Xr 1)] (mk f g fl tm lg)) Q'.
  Proof.
    intros Hi Hj [C3 C4 C14 C15 Cx Cl] HQ. specialize (C15 ltac:(lia)).
    apply wp_exec_cons. cbn [exec1 wp].
    apply wp_exec_cons. cbn [exec1]. unfold getx. cbn [sx mk]. rewrite C15. cbn [int_of bind]. unfold load_at. cbn [sx mk]. rewrite C3, es_shift32.
    rewrite (loadn_rd E _ (esize t) (le_split (esize t) (vals i j))); [|apply le_split_length|].
    2:{ intros q v Hq. cbn [stmp mk]. rewrite <- (Htm i j q v Hi Hj Hq). f_equal. ring. }
    cbn [bind wp].
    apply wp_exec_cons. cbn [exec1]. unfold getx, set_x. cbn [sx mk xupd xeqb Nat.eqb]. rewrite C15. cbn [int_of bind].
    unfold store_at. cbn [sx xupd xeqb Nat.eqb]. rewrite C4, es_shift32. cbn [store bind wp sv sx sfl stmp slog].
    apply wp_exec_cons. fold (mk f (xupd g (Xr 10) (Int (le_join (le_split (esize t) (vals i j))))) fl tm
      (log_list lg (d0 + j * stride + i * es) (le_split (esize t) (le_join (le_split (esize t) (vals i j)))))).
    rewrite le_split_join.
    eapply (wp_addwi _ _ _ _ _ _ _ _ _ _ i); [rewrite xupd_other by reflexivity; exact C15|lia|lia|].
    apply wp_exec_cons. eapply (wp_cmpw _ _ _ _ _ _ _ _ _ (i + 1) nr); [reflexivity| |lia|lia|].
    { rewrite !xupd_other by reflexivity. rewrite Cx by reflexivity. exact G1. }
    cbn [exec wp]. apply HQ. constructor; try (rewrite !xupd_other by reflexivity; assumption).
    - reflexivity.
    - intros q Hq. rewrite <- Cx by exact Hq. cbn [forallb] in Hq.
      destruct (xeqb q (Xr 3)); [discriminate|]. destruct (xeqb q (Xr 4)); [discriminate|]. destruct (xeqb q (Xr 10)) eqn:E13; [discriminate|].
      destruct (xeqb q (Xr 6)); [discriminate|]. destruct (xeqb q (Xr 5)) eqn:E15; [discriminate|]. rewrite !xupd_other by assumption. reflexivity.
    - intros e. rewrite log_list_in, Cl. split.
      + intros [[H | (i' & j' & q & v & Hij & Hq & ->)] | (q & v & Hq & ->)]; [auto| |].
        * right. exists i', j', q, v. split; [lia|]. auto.
        * right. exists i, j, q, v. split; [lia|]. split; [exact Hq|]. f_equal. fold es. ring.
      + intros [H | (i' & j' & q & v & Hij & Hq & ->)]; [auto|].
        destruct (Z.eq_dec j' j) as [-> | Hne]; [destruct (Z.eq_dec i' i) as [-> | Hni]|].
        * right. exists q, v. split; [exact Hq|]. f_equal. fold es. ring.
        * left. right. exists i', j, q, v. split; [lia|]. auto.
        * left. right. exists i', j', q, v. split; [lia|]. auto.
  Qed.

  Lemma ends_copy32 fl : ends ops E p Q pc (mk f g0 fl tm lg0).
  Proof.
    assert (Hc' := Hc). cbn [copy_body k32_copy tl] in Hc'.
    apply (code_at_app p [MOVX (Xr 3) TMPBUF; MOVX (Xr 4) DST; MOVI (Xr 6) 0]) in Hc'. destruct Hc' as [C1 Hc'].
    apply (code_at_app p [LBL 50; MOVI (Xr 5) 0]) in Hc'. destruct Hc' as [C2 Hc'].
    apply (code_at_app p [LBL 51; LDRT (Xr 10) (esize t) (Xr 3) (Xr 5) (eshift t); STRT (Xr 10) (esize t) (Xr 4) (Xr 5) (eshift t);
        ADDWI (Xr 5) (Xr 5) 1; CMPW (Xr 5) (Xr 1)]) in Hc'. destruct Hc' as [C3 Hc'].
    apply code_at_cons in Hc'. destruct Hc' as [C4 Hc'].
    apply (code_at_app p [ADDWI (Xr 6) (Xr 6) 1; ADDXI (Xr 3) (Xr 3) (4 * Z.of_nat (esize t)); ADDX (Xr 4) (Xr 4) (Xr 8) 0;
        CMPW (Xr 6) (Xr 2)]) in Hc'. destruct Hc' as [C5 Hc'].
    apply code_at_cons in Hc'. destruct Hc' as [C6 _]. cbn [length] in *.
    (* one column, from row i *)
    assert (Inner : forall j, 0 <= j < nc ->
      (forall g fl lg, cinv32 j nr g lg -> ends ops E p Q (pc + 11) (mk f g fl tm lg)) ->
      forall m i g fl lg, nr = i + 1 + Z.of_nat m -> 0 <= i -> cinv32 j i g lg -> ends ops E p Q (pc + 5) (mk f g fl tm lg)).
    { intros j Hj Hnext. induction m as [|m IH]; intros i g fl' lg Em Hi Hci.
      all: eapply ends_exec; [replace (pc + 5)%nat with (pc + 3 + 2)%nat by lia; exact C3|reflexivity|].
      all: apply (copy_step32 j i); [lia|lia|exact Hci|]; intros g' lg' Hci'.
      all: eapply ends_bc; [replace (pc + 5 + _)%nat with (pc + 3 + 2 + 5)%nat by (cbn [length]; lia); exact C4|exact F51| |]; cbn [cond_holds sfl mk]; intros Hcc.
      - apply Z.ltb_lt in Hcc. lia.
      - replace (S _) with (pc + 11)%nat by (cbn [length]; lia). apply Hnext. replace nr with (i + 1) by lia. exact Hci'.
      - apply (IH (i + 1)); [lia|lia|exact Hci'].
      - apply Z.ltb_ge in Hcc. lia. }
    assert (Outer : forall m j g fl lg, nc = j + 1 + Z.of_nat m -> 0 <= j -> cinv32 j (-1) g lg -> ends ops E p Q (pc + 3) (mk f g fl tm lg)).
    { assert (Col : forall j g fl lg, 0 <= j < nc -> cinv32 j (-1) g lg ->
        (forall g fl lg, cinv32 j nr g lg -> ends ops E p Q (pc + 11) (mk f g fl tm lg)) -> ends ops E p Q (pc + 3) (mk f g fl tm lg)).
      { intros j g fl' lg Hj [D3 D4 D14 D15 Dx Dl] Hn. eapply ends_exec; [exact C2|reflexivity|].
        apply wp_exec_cons. cbn [exec1 wp]. apply wp_exec_cons. cbn [exec1 wp exec].
        replace (pc + 3 + length _)%nat with (pc + 5)%nat by (cbn [length]; lia).
        apply (Inner j Hj Hn (Z.to_nat (nr - 1)) 0); [lia|lia|].
        constructor; try (unfold set_x; cbn [sx mk]; rewrite !xupd_other by reflexivity; assumption).
        - reflexivity.
        - intros q Hq. rewrite <- Dx by exact Hq. cbn [forallb] in Hq. destruct (xeqb q (Xr 5)) eqn:E15; [rewrite !andb_false_r in Hq; discriminate|].
          cbn [sx mk]. rewrite xupd_other by exact E15. reflexivity.
        - intros e. cbn [slog mk]. rewrite Dl. split; (intros [H | (i' & j' & q & v & Hij & H)]; [auto|right; exists i', j', q, v; split; [lia|exact H]]). }
      assert (Next : forall j g fl lg (Q' : st -> Prop), 0 <= j < nc -> cinv32 j nr g lg ->
        (forall g' lg', cinv32 (j + 1) (-1) g' lg' -> Q' (mk f g' (j + 1, nc) tm lg')) ->
        wp (exec ops E [ADDWI (Xr 6) (Xr 6) 1; ADDXI (Xr 3) (Xr 3) (4 * Z.of_nat (esize t)); ADDX (Xr 4) (Xr 4) (Xr 8) 0;
          CMPW (Xr 6) (Xr 2)] (mk f g fl tm lg)) Q').
      { intros j g fl' lg Q' Hj [D3 D4 D14 D15 Dx Dl] HQ.
        apply wp_exec_cons. eapply (wp_addwi _ _ _ _ _ _ _ _ _ _ j); [exact D14|lia|lia|].
        apply wp_exec_cons. cbn [exec1 wp]. unfold set_x. cbn [sx sv sfl stmp slog mk].
        rewrite (xupd_other _ (Xr 6) _ (Xr 3)) by reflexivity. rewrite D3. cbn [addv].
        apply wp_exec_cons. cbn [exec1]. unfold getx. cbn [sx]. rewrite !(xupd_other _ _ _ (Xr 8)) by reflexivity. rewrite Dx by reflexivity. rewrite G11.
        cbn [int_of bind wp]. unfold set_x. cbn [sx sv sfl stmp slog]. rewrite !(xupd_other _ _ _ (Xr 4)) by reflexivity. rewrite D4. cbn [addv].
        apply wp_exec_cons. eapply (wp_cmpw _ _ _ _ _ _ _ _ _ (j + 1) nc); [reflexivity| |lia|lia|].
        { rewrite !xupd_other by reflexivity. rewrite Dx by reflexivity. exact G2. }
        cbn [exec wp]. apply HQ. constructor.
        - rewrite xupd_other by reflexivity. cbn [xupd xeqb Nat.eqb]. f_equal. fold es. ring.
        - cbn [xupd xeqb Nat.eqb]. f_equal. ring.
        - rewrite !xupd_other by reflexivity. reflexivity.
        - intros Hf. lia.
        - intros q Hq. rewrite <- Dx by exact Hq. cbn [forallb] in Hq.
          destruct (xeqb q (Xr 3)) eqn:E3; [discriminate|]. destruct (xeqb q (Xr 4)) eqn:E4; [discriminate|]. destruct (xeqb q (Xr 10)); [discriminate|].
          destruct (xeqb q (Xr 6)) eqn:E14; [discriminate|]. rewrite !xupd_other by assumption. reflexivity.
        - intros e. rewrite Dl. split; (intros [H | (i' & j' & q & v & Hij & H)]; [auto|right; exists i', j', q, v; split; [lia|exact H]]). }
      induction m as [|m IH]; intros j g fl' lg Em Hj Hci.
      all: apply (Col j); [lia|exact Hci|]; intros g1 fl1 lg1 Hc1.
      all: eapply ends_exec; [replace (pc + 11)%nat with (S (pc + 3 + 2 + 5))%nat by lia; exact C5|reflexivity|].
      all: apply (Next j); [lia|exact Hc1|]; intros g2 lg2 Hc2.
      all: eapply ends_bc; [replace (pc + 11 + _)%nat with (S (pc + 3 + 2 + 5) + 4)%nat by (cbn [length]; lia); exact C6|exact F50| |]; cbn [cond_holds sfl mk]; intros Hcc.
      - apply Z.ltb_lt in Hcc. lia.
      - replace (S _) with (pc + 16)%nat by (cbn [length]; lia). destruct Hc2 as [D3 D4 D14 D15 Dx Dl]. apply Hend; [exact Dx|].
        intros e. rewrite Dl. split; (intros [H | (i' & j' & q & v & Hij)]; [auto|right; exists i', j', q, v]).
        + destruct Hij as (Hij & H). split; [lia|]. split; [lia|exact H].
        + destruct Hij as (H1 & H2 & H). split; [lia|exact H].
      - apply (IH (j + 1)); [lia|lia|exact Hc2].
      - apply Z.ltb_ge in Hcc. lia. }
    eapply ends_exec; [exact C1|reflexivity|].
    apply wp_exec_cons. cbn [exec1 wp]. apply wp_exec_cons. cbn [exec1 wp]. apply wp_exec_cons. cbn [exec1 wp exec]. unfold set_x. cbn [sx sv sfl stmp slog mk].
    replace (pc + length _)%nat with (pc + 3)%nat by (cbn [length]; lia).
    apply (Outer (Z.to_nat (nc - 1)) 0); [lia|lia|]. constructor.
    - rewrite !xupd_other by reflexivity. cbn [xupd xeqb Nat.eqb]. rewrite GT. reflexivity.
    - rewrite xupd_other by reflexivity. cbn [xupd xeqb Nat.eqb]. rewrite GD. f_equal. ring.
    - reflexivity.
    - intros Hf; lia.
    - intros q Hq. cbn [forallb] in Hq. destruct (xeqb q (Xr 3)) eqn:E3; [discriminate|]. destruct (xeqb q (Xr 4)) eqn:E4; [discriminate|].
      destruct (xeqb q (Xr 10)); [discriminate|]. destruct (xeqb q (Xr 6)) eqn:E14; [discriminate|]. rewrite !xupd_other by assumption. reflexivity.
    - intros e. split; [auto|]. intros [H | (i' & j' & q & v & Hij & H)]; [exact H|]. lia.
  Qed.
End Copy32.

Section Write32.
  Variables (ops : nops) (E : env) (t : dtype).
  (** Output lanes of the four columns of the block. *)
  Variable vals : Z -> Z -> Z.
  Definition held32 (f : nat -> list Z) : Prop :=
    forall j, 0 <= j < 4 -> firstn (4 * esize t) (f (8 + Z.to_nat j)%nat) = vec (esize t) (colv vals j).
  Definition zeroed32 (f : nat -> list Z) : Prop :=
    f 8%nat = repeat 0 16 /\ f 9%nat = repeat 0 16 /\ f 10%nat = repeat 0 16 /\ f 11%nat = repeat 0 16.
  Lemma held432 f : held32 f -> firstn (4 * esize t) (f 8%nat) = vec (esize t) (colv vals 0) /\ firstn (4 * esize t) (f 9%nat) = vec (esize t) (colv vals 1) /\
    firstn (4 * esize t) (f 10%nat) = vec (esize t) (colv vals 2) /\ firstn (4 * esize t) (f 11%nat) = vec (esize t) (colv vals 3).
  Proof. intros H. repeat split; [apply (H 0)|apply (H 1)|apply (H 2)|apply (H 3)]; lia. Qed.

  Lemma wp_csel_gt d a b x y u v f g tm lg (Q : st -> Prop) : g a = Int x -> g b = Int y -> 0 <= x < 2 ^ 31 -> 0 <= y < 2 ^ 31 ->
    Q (mk f (xupd g d (Int (if v <? u then x else y))) (u, v) tm lg) -> wp (exec1 ops E (CSELW d a b GT) (mk f g (u, v) tm lg)) Q.
  Proof.
    intros Ha Hb Hx Hy H. cbn [exec1 cond_holds sfl mk]. unfold getw, getx, setw. destruct (v <? u); cbn [sx mk].
    - rewrite Ha. cbn [int_of bind]. rewrite !wmod by (rewrite ?wmod; lia). exact H.
    - rewrite Hb. cbn [int_of bind]. rewrite !wmod by (rewrite ?wmod; lia). exact H.
  Qed.
  Lemma wp_cmpeq a b x y u v f g tm lg (Q : st -> Prop) : g a = Int x -> g b = Int y -> 0 <= x < 2 ^ 31 -> 0 <= y < 2 ^ 31 ->
    (forall fl, cond_holds EQ fl = (u =? v) && (x =? y) -> Q (mk f g fl tm lg)) -> wp (exec1 ops E (CMPEQ a b) (mk f g (u, v) tm lg)) Q.
  Proof.
    intros Ha Hb Hx Hy H. cbn [exec1]. unfold getw, getx. cbn [sx mk]. rewrite Ha, Hb. cbn [int_of bind wp]. cbn [cond_holds sfl mk].
    destruct (u =? v) eqn:Euv.
    - apply H. rewrite !sgnw by assumption. reflexivity.
    - apply H. cbn [cond_holds]. rewrite Euv. reflexivity.
  Qed.
  (** 401-425 *)
  Lemma wp_fit32 f g fl tm lg rows cols row col (Q : st -> Prop) :
    e_par E 28 = Some (Int rows) -> e_par E 32 = Some (Int cols) -> g ROW = Int row -> g COL = Int col ->
    0 <= row < rows -> rows < 2 ^ 31 -> 0 <= col < cols -> cols < 2 ^ 31 ->
    (forall g' fl', g' (Xr 1) = Int (Z.min (rows - row) 4) -> g' (Xr 2) = Int (Z.min (cols - col) 4) ->
       same_x [Xr 1; Xr 2; Xr 3; Xr 4; Xr 5; Xr 8] g' g ->
       cond_holds EQ fl' = (Z.min (rows - row) 4 =? 4) && (Z.min (cols - col) 4 =? 4) -> Q (mk f g' fl' tm lg)) ->
    wp (exec ops E k32_fit (mk f g fl tm lg)) Q.
  Proof.
    intros GR GC Gr Gc Hr1 Hr2 Hc1 Hc2 HQ. unfold k32_fit.
    apply wp_exec_cons. eapply wp_ldrw; [exact GR|]. rewrite wmod by lia. apply wp_exec_cons, wp_movx.
    apply wp_exec_cons. eapply wp_subw; [reflexivity|exact Gr|lia|lia|].
    apply wp_exec_cons. eapply wp_ldrw; [exact GC|]. rewrite (wmod cols) by lia. apply wp_exec_cons, wp_movx.
    apply wp_exec_cons. eapply wp_subw; [reflexivity|exact Gc|lia|lia|].
    apply wp_exec_cons, wp_movi. apply wp_exec_cons, wp_movi. apply wp_exec_cons. eapply wp_cmpwi; [reflexivity|lia|].
    apply wp_exec_cons. eapply wp_csel_gt; [reflexivity|reflexivity|lia|lia|].
    assert (M : forall z, (if 4 <? z then 4 else z) = Z.min z 4) by (intros z; destruct (Z.ltb_spec 4 z); lia). rewrite M.
    apply wp_exec_cons. eapply wp_cmpwi; [reflexivity|lia|].
    apply wp_exec_cons. eapply wp_csel_gt; [reflexivity|reflexivity|lia|lia|]. rewrite M.
    apply wp_exec_cons. eapply (wp_cmpw _ _ _ _ _ _ _ _ _ (Z.min (rows - row) 4) 4); [reflexivity|reflexivity|lia|lia|].
    apply wp_exec_cons. eapply (wp_cmpeq _ _ (Z.min (cols - col) 4) 4); [reflexivity|reflexivity|lia|lia|].
    intros fl' Hfl. cbn [exec wp]. apply HQ; [reflexivity|reflexivity|sx|exact Hfl].
  Qed.

  (** 447-466, destination case *)
  Lemma wp_store_dst32 f g fl tm lg d s (Q : st -> Prop) : is_bits t = false -> held32 f -> g (Xr 3) = Ptr RDst d -> g (Xr 4) = Int s ->
    (forall f' g' lg', zeroed32 f' -> (forall q, (q < 8)%nat -> f' q = f q) -> same_x [Xr 3] g' g ->
       (forall e, In e lg' <-> In e lg \/ blkD t d s vals 4 4 e) -> Q (mk f' g' fl tm lg')) ->
    wp (exec ops E (k32_store t) (mk f g fl tm lg)) Q.
  Proof.
    intros Ht Hh G3 G4 HQ. destruct (held432 f Hh) as (H0 & H1 & H2 & H3).
    assert (Fin : forall e, In e (log_list (log_list (log_list (log_list lg (d + 0) (vec (esize t) (colv vals 0))) (d + s * 2 ^ 0 + 0) (vec (esize t) (colv vals 1)))
        (d + s * 2 ^ 0 + s * 2 ^ 0 + 0) (vec (esize t) (colv vals 2))) (d + s * 2 ^ 0 + s * 2 ^ 0 + s * 2 ^ 0 + 0) (vec (esize t) (colv vals 3)))
        <-> In e lg \/ blkD t d s vals 4 4 e).
    { assert (CR : forall j i, 0 <= i < 4 -> rd (colv vals j) i = Some (vals i j)).
      { intros j i Hi. assert (i = 0 \/ i = 1 \/ i = 2 \/ i = 3) as [-> | [-> | [-> | ->]]] by lia; reflexivity. }
      intros e. rewrite !log_vec_in. change (2 ^ 0) with 1. split.
      - assert (G : forall j base, 0 <= j < 4 -> base = d + j * s ->
          (exists i x q v, rd (colv vals j) i = Some x /\ rd (le_split (esize t) x) q = Some v /\ e = (base + Z.of_nat (esize t) * i + q, v)) ->
          blkD t d s vals 4 4 e).
        { intros j base Hj -> (i & x & q & v & Hi & Hq & ->). assert (B := rd_bounds _ _ _ Hi). change (zlen (colv vals j)) with 4 in B.
          rewrite CR in Hi by lia. injection Hi as <-. exists i, j, q, v. auto. }
        intros [[[[H | H] | H] | H] | H]; [auto| | | |]; right;
          [apply (G 0 (d + 0))|apply (G 1 (d + s * 1 + 0))|apply (G 2 (d + s * 1 + s * 1 + 0))|apply (G 3 (d + s * 1 + s * 1 + s * 1 + 0))]; try lia; exact H.
      - intros [H | (i & j & q & v & Hi & Hj & Hq & ->)]; [auto|].
        assert (W : forall base, base = d + j * s -> exists i0 x q0 v0, rd (colv vals j) i0 = Some x /\ rd (le_split (esize t) x) q0 = Some v0 /\
          (d + j * s + Z.of_nat (esize t) * i + q, v) = (base + Z.of_nat (esize t) * i0 + q0, v0)).
        { intros base ->. exists i, (vals i j), q, v. rewrite CR by lia. auto. }
        assert (j = 0 \/ j = 1 \/ j = 2 \/ j = 3) as [-> | [-> | [-> | ->]]] by lia.
        + left. left. left. right. apply W. ring.
        + left. left. right. apply W. ring.
        + left. right. apply W. ring.
        + right. apply W. ring. }
    unfold k32_store. cbv zeta. cbn [app zero].
    apply wp_exec_cons. eapply wp_str_dst; [exact G3|]. rewrite H0.
    apply wp_exec_cons. eapply wp_addx; [exact G3|exact G4|]. apply wp_exec_cons.
    eapply wp_str_dst; [reflexivity|]. rewrite H1. apply wp_exec_cons. eapply wp_addx; [reflexivity|exact G4|].
    apply wp_exec_cons, wp_v, wp_exec_cons, wp_v, wp_exec_cons.
    eapply wp_str_dst; [reflexivity|]. apply wp_exec_cons. eapply wp_addx; [reflexivity|exact G4|]. apply wp_exec_cons.
    eapply wp_str_dst; [reflexivity|]. apply wp_exec_cons, wp_v, wp_exec_cons, wp_v. cbn [exec wp].
    rewrite !(vrun_other ops [VZERO 9] _ 10%nat), !(vrun_other ops [VZERO 8] _ 10%nat), H2 by reflexivity.
    rewrite !(vrun_other ops [VZERO 9] _ 11%nat), !(vrun_other ops [VZERO 8] _ 11%nat), H3 by reflexivity.
    apply HQ; [repeat split| |sx|exact Fin]. intros q Hq. do 8 (destruct q as [|q]; [reflexivity|]). lia.
  Qed.

  (** 447-466, scratch buffer case *)
  Lemma wp_store_tmp32 f g fl tm lg (Q : st -> Prop) : is_bits t = false -> held32 f -> g (Xr 3) = Ptr RTmp 0 -> g (Xr 4) = Int (4 * Z.of_nat (esize t)) ->
    16 * Z.of_nat (esize t) <= zlen tm ->
    (forall f' g' tm', zeroed32 f' -> (forall q, (q < 8)%nat -> f' q = f q) -> same_x [Xr 3] g' g -> zlen tm' = zlen tm -> in_tmp t vals tm' ->
       Q (mk f' g' fl tm' lg)) ->
    wp (exec ops E (k32_store t) (mk f g fl tm lg)) Q.
  Proof.
    intros Ht Hh G3 G4 Hlen HQ. destruct (held432 f Hh) as (H0 & H1 & H2 & H3).
    assert (ZV : forall j, zlen (vec (esize t) (colv vals j)) = 4 * Z.of_nat (esize t)) by (intros j; rewrite vec_zlen; change (zlen (colv vals j)) with 4; ring).
    assert (He14 : Z.of_nat (esize t) = 4 \/ Z.of_nat (esize t) = 1) by (unfold esize; destruct (is_float t); [left|right]; reflexivity).
    set (s := 4 * Z.of_nat (esize t)) in *.
    (* the four stores, in order *)
    assert (Fin : forall tm1 tm2 tm3 tm4 o1 o2 o3, o1 = s -> o2 = 2 * s -> o3 = 3 * s ->
      (forall q x, rd (vec (esize t) (colv vals 0)) q = Some x -> rd tm1 (0 + 0 + q) = Some x) ->
      (forall q x, rd (vec (esize t) (colv vals 1)) q = Some x -> rd tm2 (o1 + 0 + q) = Some x) ->
      (forall q x, rd (vec (esize t) (colv vals 2)) q = Some x -> rd tm3 (o2 + 0 + q) = Some x) ->
      (forall q x, rd (vec (esize t) (colv vals 3)) q = Some x -> rd tm4 (o3 + 0 + q) = Some x) ->
      (forall a, a < o1 + 0 -> rd tm2 a = rd tm1 a) -> (forall a, a < o2 + 0 -> rd tm3 a = rd tm2 a) -> (forall a, a < o3 + 0 -> rd tm4 a = rd tm3 a) ->
      in_tmp t vals tm4).
    { intros tm1 tm2 tm3 tm4 o1 o2 o3 -> -> -> S1 S2 S3 S4 K2 K3 K4 i j q v Hi Hj Hq.
      assert (Hb := rd_bounds _ _ _ Hq). unfold zlen in Hb. rewrite le_split_length in Hb.
      assert (CR : rd (colv vals j) i = Some (vals i j)).
      { assert (i = 0 \/ i = 1 \/ i = 2 \/ i = 3) as [-> | [-> | [-> | ->]]] by lia; reflexivity. }
      assert (RV := rd_vec (esize t) (colv vals j) i (vals i j) q v CR Hq).
      fold s. assert (0 <= Z.of_nat (esize t) * i + q < s) by (unfold s; nia).
      assert (j = 0 \/ j = 1 \/ j = 2 \/ j = 3) as [-> | [-> | [-> | ->]]] by lia.
      - replace (0 * s + Z.of_nat (esize t) * i + q) with (0 + 0 + (Z.of_nat (esize t) * i + q)) by ring.
        rewrite K4, K3, K2 by lia. apply S1, RV.
      - replace (1 * s + Z.of_nat (esize t) * i + q) with (s + 0 + (Z.of_nat (esize t) * i + q)) by ring.
        rewrite K4, K3 by lia. apply S2, RV.
      - replace (2 * s + Z.of_nat (esize t) * i + q) with (2 * s + 0 + (Z.of_nat (esize t) * i + q)) by ring.
        rewrite K4 by lia. apply S3, RV.
      - replace (3 * s + Z.of_nat (esize t) * i + q) with (3 * s + 0 + (Z.of_nat (esize t) * i + q)) by ring. apply S4, RV. }
    unfold k32_store. cbv zeta. cbn [app zero].
    apply wp_exec_cons. eapply wp_str_tmp; [exact G3|lia|rewrite H0, ZV; lia|]. rewrite H0. intros tm1 Z1 S1 K1.
    apply wp_exec_cons. eapply wp_addx; [exact G3|exact G4|]. apply wp_exec_cons. change (2 ^ 0) with 1.
    eapply wp_str_tmp; [reflexivity|lia|rewrite H1, ZV; lia|]. rewrite H1. intros tm2 Z2 S2 K2. apply wp_exec_cons. eapply wp_addx; [reflexivity|exact G4|].
    apply wp_exec_cons, wp_v, wp_exec_cons, wp_v, wp_exec_cons. change (2 ^ 0) with 1.
    assert (E10 : vrun ops [VZERO 9] (vrun ops [VZERO 8] f) 10%nat = f 10%nat) by reflexivity.
    assert (E11 : vrun ops [VZERO 9] (vrun ops [VZERO 8] f) 11%nat = f 11%nat) by reflexivity.
    eapply wp_str_tmp; [reflexivity|lia|rewrite E10, H2, ZV; lia|]. rewrite E10, H2. intros tm3 Z3 S3 K3.
    apply wp_exec_cons. eapply wp_addx; [reflexivity|exact G4|]. apply wp_exec_cons. change (2 ^ 0) with 1.
    eapply wp_str_tmp; [reflexivity|lia|rewrite E11, H3, ZV; lia|]. rewrite E11, H3. intros tm4 Z4 S4 K4.
    apply wp_exec_cons, wp_v, wp_exec_cons, wp_v. cbn [exec wp].
    apply HQ; [repeat split| |sx|congruence|].
    - intros q Hq. do 8 (destruct q as [|q]; [reflexivity|]). lia.
    - eapply (Fin tm1 tm2 tm3 tm4); [| | |exact S1|exact S2|exact S3|exact S4|intros; apply K2; left; assumption|intros; apply K3; left; assumption|intros; apply K4; left; assumption]; lia.
  Qed.
End Write32.
