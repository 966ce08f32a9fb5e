(** * GraphProofs: proofs about GraphUtil. *)
From Coq Require Import String Permutation.
From Verif Require Import Base Spec Misc GraphUtil.
Open Scope list_scope.
Open Scope Z_scope.

(** ** Renumbering *)
Definition count_lt (i : Z) (R : list Z) : Z := zlen (filter (fun r => r <? i) R).
(** The new index of tensor [i] when the tensors in [R] are removed. *)
Definition newidx (R : list Z) (i : Z) : Z := i - count_lt i R.

Lemma mem_In x l : mem x l = true <-> In x l.
Proof.
  unfold mem. rewrite existsb_exists. split.
  - intros (y & H & E). apply Z.eqb_eq in E. subst. exact H.
  - intros H. exists x. split; [exact H|apply Z.eqb_refl].
Qed.
Lemma mem_false x l : mem x l = false <-> ~ In x l.
Proof. rewrite <- mem_In. destruct (mem x l); split; congruence. Qed.

Lemma count_cons i r R : count_lt i (r :: R) = (if r <? i then 1 else 0) + count_lt i R.
Proof. unfold count_lt, zlen. cbn [filter]. destruct (r <? i); cbn [length]; lia. Qed.
Lemma count_perm i R R' : Permutation R R' -> count_lt i R = count_lt i R'.
Proof. induction 1; rewrite ?count_cons; lia. Qed.
Lemma count_nonneg i R : 0 <= count_lt i R.
Proof. unfold count_lt, zlen. lia. Qed.
Lemma count_le_len i R : count_lt i R <= zlen R.
Proof. induction R as [|r R IH]; [reflexivity|]. rewrite count_cons. unfold zlen in *. cbn [length]. destruct (r <? i); lia. Qed.
Lemma count_mono i j R : i <= j -> count_lt i R <= count_lt j R.
Proof.
  intros H. induction R as [|r R IH]; [reflexivity|]. rewrite !count_cons.
  destruct (Z.ltb_spec r i), (Z.ltb_spec r j); lia.
Qed.
Lemma count_all i R : (forall r, In r R -> r < i) -> count_lt i R = zlen R.
Proof.
  induction R as [|r R IH]; intros H; [reflexivity|]. rewrite count_cons, IH by (intros; apply H; right; assumption).
  assert (r < i) by (apply H; left; reflexivity). replace (r <? i) with true by lia. unfold zlen. cbn [length]. lia.
Qed.
Lemma count_none i R : (forall r, In r R -> i <= r) -> count_lt i R = 0.
Proof.
  induction R as [|r R IH]; intros H; [reflexivity|]. rewrite count_cons, IH by (intros; apply H; right; assumption).
  assert (i <= r) by (apply H; left; reflexivity). replace (r <? i) with false by lia. lia.
Qed.
Lemma count_succ i R : NoDup R -> count_lt (i + 1) R = count_lt i R + (if mem i R then 1 else 0).
Proof.
  induction R as [|r R IH]; intros H; [reflexivity|]. inversion H as [|? ? Hn Hd]; subst.
  rewrite !count_cons, IH by exact Hd. cbn [mem existsb]. fold (mem i R). destruct (Z.eqb_spec i r) as [->|Hne].
  - apply mem_false in Hn. rewrite Hn. replace (r <? r + 1) with true by lia. replace (r <? r) with false by lia. cbn [orb]. lia.
  - cbn [orb]. destruct (Z.ltb_spec r (i + 1)), (Z.ltb_spec r i); lia.
Qed.

(** The new indices are in order and distinct. *)
Lemma newidx_lt R i j : NoDup R -> ~ In i R -> i < j -> newidx R i < newidx R j.
Proof.
  intros Hd Hi Hij. unfold newidx.
  assert (G : forall k, 0 <= k -> newidx R i < newidx R (i + 1 + k)).
  { apply (natlike_ind (fun k => newidx R i < newidx R (i + 1 + k))).
    - unfold newidx. rewrite Z.add_0_r, count_succ by exact Hd. apply mem_false in Hi. rewrite Hi. lia.
    - intros k Hk IH. unfold newidx in *. replace (i + 1 + Z.succ k) with (i + 1 + k + 1) by lia. rewrite count_succ by exact Hd.
      destruct (mem (i + 1 + k) R); lia. }
  specialize (G (j - i - 1) ltac:(lia)). unfold newidx in G. replace (i + 1 + (j - i - 1)) with j in G by lia. exact G.
Qed.
Lemma newidx_inj R i j : NoDup R -> ~ In i R -> ~ In j R -> newidx R i = newidx R j -> i = j.
Proof.
  intros Hd Hi Hj E. destruct (Z.lt_trichotomy i j) as [H|[H|H]]; [|exact H|].
  - pose proof (newidx_lt R i j Hd Hi H). lia.
  - pose proof (newidx_lt R j i Hd Hj H). lia.
Qed.
Lemma newidx_neg R i : (forall r, In r R -> 0 <= r) -> i < 0 -> newidx R i = i.
Proof. intros H Hi. unfold newidx. rewrite count_none; [lia|]. intros r Hr. specialize (H r Hr). lia. Qed.

(** The dictionary. *)
Lemma range_shift idx i k : i <> idx -> (idx + 1 <=? i) && (i <? idx + 1 + k) = (idx <=? i) && (i <? idx + Z.succ k).
Proof. intros H. destruct (Z.leb_spec (idx + 1) i), (Z.ltb_spec i (idx + 1 + k)), (Z.leb_spec idx i), (Z.ltb_spec i (idx + Z.succ k)); try reflexivity; lia. Qed.
Lemma dget_old_to_new R : NoDup R -> forall k idx i,
  dget (old_to_new k idx (count_lt idx R) R) i =
  if (idx <=? i) && (i <? idx + Z.of_nat k) && negb (mem i R) then Some (newidx R i) else None.
Proof.
  intros Hd. induction k as [|k IH]; intros idx i; cbn [old_to_new].
  - cbn [dget]. destruct (Z.leb_spec idx i), (Z.ltb_spec i (idx + Z.of_nat 0)); try reflexivity; lia.
  - destruct (mem idx R) eqn:E.
    + replace (count_lt idx R + 1) with (count_lt (idx + 1) R) by (rewrite count_succ, E by exact Hd; lia).
      rewrite IH. destruct (Z.eq_dec i idx) as [->|Hne].
      * rewrite E. rewrite !andb_false_r. reflexivity.
      * rewrite (range_shift idx i (Z.of_nat k)), Nat2Z.inj_succ by exact Hne. reflexivity.
    + cbn [dget]. replace (count_lt idx R) with (count_lt (idx + 1) R) by (rewrite count_succ, E by exact Hd; lia).
      destruct (Z.eqb_spec idx i) as [->|Hne].
      * rewrite E. rewrite Z.leb_refl, (proj2 (Z.ltb_lt i _)) by lia. cbn [andb negb]. f_equal. unfold newidx.
        rewrite count_succ, E by exact Hd. lia.
      * rewrite IH, (range_shift idx i (Z.of_nat k)), Nat2Z.inj_succ by congruence. reflexivity.
Qed.
Lemma dget_full R n i : NoDup R -> (forall r, In r R -> 0 <= r) -> 0 <= n ->
  dget (old_to_new (Z.to_nat n) 0 0 R) i = if (0 <=? i) && (i <? n) && negb (mem i R) then Some (newidx R i) else None.
Proof.
  intros Hd Hp Hn. replace 0 with (count_lt 0 R) at 2 by (apply count_none; exact Hp). rewrite dget_old_to_new by exact Hd.
  rewrite Z2Nat.id, Z.add_0_l by exact Hn. reflexivity.
Qed.

(** Sorting and popping. *)
Fixpoint descending (l : list Z) : Prop :=
  match l with [] => True | x :: l' => (forall y, In y l' -> y < x) /\ descending l' end.
Lemma insert_perm x l : Permutation (insert_desc x l) (x :: l).
Proof.
  induction l as [|y l IH]; cbn; [reflexivity|]. destruct (y <=? x); [reflexivity|].
  rewrite IH. apply perm_swap.
Qed.
Lemma sorted_perm l : Permutation (sorted_desc l) l.
Proof. induction l as [|x l IH]; cbn; [reflexivity|]. rewrite insert_perm, IH. reflexivity. Qed.
Lemma insert_descending x l : descending l -> ~ In x l -> descending (insert_desc x l).
Proof.
  induction l as [|y l IH]; intros Hd Hn; cbn; [split; [intros ? []|exact I]|].
  destruct Hd as [H1 H2]. destruct (Z.leb_spec y x).
  - split; [|split; assumption]. intros z [<-|Hz]; [assert (y <> x) by (intros ->; apply Hn; left; reflexivity); lia|].
    specialize (H1 z Hz). lia.
  - split.
    + intros z Hz. apply (Permutation_in _ (insert_perm x l)) in Hz. destruct Hz as [<-|Hz]; [exact H|exact (H1 z Hz)].
    + apply IH; [exact H2|]. intros Hx. apply Hn. right. exact Hx.
Qed.
Lemma sorted_descending l : NoDup l -> descending (sorted_desc l).
Proof.
  induction 1 as [|x l Hn Hd IH]; [exact I|]. cbn. apply insert_descending; [exact IH|].
  intros H. apply Hn. exact (Permutation_in _ (sorted_perm l) H).
Qed.
Lemma rd_firstn {A} (l : list A) k i : i < k -> rd (firstn (Z.to_nat k) l) i = rd l i.
Proof.
  intros H. unfold rd. destruct (Z.ltb_spec i 0); [reflexivity|]. apply nth_error_firstn. lia.
Qed.
Lemma zlen_pop {A} (l : list A) r : 0 <= r < zlen l -> zlen (pop l r) = zlen l - 1.
Proof.
  intros H. unfold pop, zlen in *. rewrite app_length, firstn_length, skipn_length. lia.
Qed.
Lemma rd_pop_lt {A} (l : list A) r i : 0 <= r < zlen l -> i < r -> rd (pop l r) i = rd l i.
Proof.
  intros Hr Hi. unfold pop. rewrite rd_app_l; [apply rd_firstn; exact Hi|]. unfold zlen in *. rewrite firstn_length. lia.
Qed.
Lemma rd_pop_gt {A} (l : list A) r i : 0 <= r < zlen l -> r < i -> rd (pop l r) (i - 1) = rd l i.
Proof.
  intros Hr Hi. unfold pop. assert (Hf : zlen (firstn (Z.to_nat r) l) = r) by (unfold zlen in *; rewrite firstn_length; lia).
  rewrite rd_app_r by lia. rewrite Hf. unfold rd. replace (i - 1 - r <? 0) with false by lia. replace (i <? 0) with false by lia.
  rewrite nth_error_skipn. f_equal. lia.
Qed.
Lemma rd_pops {A} : forall R (l : list A) i, descending R -> (forall r, In r R -> 0 <= r < zlen l) -> ~ In i R ->
  rd (fold_left pop R l) (newidx R i) = rd l i /\ zlen (fold_left pop R l) = zlen l - zlen R.
Proof.
  induction R as [|r R IH]; intros l i Hd Hb Hn.
  - cbn. unfold newidx, count_lt, zlen. cbn. rewrite !Z.sub_0_r. split; reflexivity.
  - destruct Hd as [H1 H2]. cbn [fold_left].
    assert (Hr : 0 <= r < zlen l) by (apply Hb; left; reflexivity).
    assert (Hlp := zlen_pop l r Hr).
    assert (Hb' : forall q, In q R -> 0 <= q < zlen (pop l r)).
    { intros q Hq. specialize (H1 q Hq). specialize (Hb q ltac:(right; exact Hq)). lia. }
    assert (Hi : i <> r) by (intros ->; apply Hn; left; reflexivity).
    assert (Hn' : ~ In i R) by (intros Hx; apply Hn; right; exact Hx).
    assert (Hz : zlen (r :: R) = zlen R + 1) by (unfold zlen; cbn [length]; lia).
    destruct (Z.lt_ge_cases i r) as [Hlt|Hge].
    + destruct (IH (pop l r) i H2 Hb' Hn') as [E1 E2]. split; [|lia].
      unfold newidx in *. rewrite count_cons. replace (r <? i) with false by lia. rewrite Z.add_0_l, E1. apply rd_pop_lt; assumption.
    + assert (Hn2 : ~ In (i - 1) R) by (intros Hx; specialize (H1 _ Hx); lia).
      destruct (IH (pop l r) (i - 1) H2 Hb' Hn2) as [E1 E2]. split; [|lia].
      unfold newidx in *. rewrite count_cons. replace (r <? i) with true by lia.
      rewrite (count_all i R) by (intros q Hq; specialize (H1 q Hq); lia).
      rewrite (count_all (i - 1) R) in E1 by (intros q Hq; specialize (H1 q Hq); lia).
      replace (i - (1 + zlen R)) with (i - 1 - zlen R) by lia. rewrite E1. apply rd_pop_gt; [exact Hr|lia].
Qed.

(** The shortcut: if the smallest removed index is n - |R|, the removed tensors
    are exactly the last |R|. *)
Lemma minl_le : forall R x r, In r (x :: R) -> minl x R <= r.
Proof.
  induction R as [|y R IH]; intros x r Hr; cbn [minl].
  - destruct Hr as [<-|[]]. lia.
  - destruct Hr as [<-|[<-|Hr]].
    + specialize (IH (Z.min x y) (Z.min x y) ltac:(left; reflexivity)). lia.
    + specialize (IH (Z.min x y) (Z.min x y) ltac:(left; reflexivity)). lia.
    + apply IH. right. exact Hr.
Qed.
Lemma minl_in : forall R x, In (minl x R) (x :: R).
Proof.
  induction R as [|y R IH]; intros x; cbn [minl]; [left; reflexivity|].
  destruct (IH (Z.min x y)) as [H|H]; [|right; right; exact H].
  rewrite <- H. destruct (Z.min_spec x y) as [[_ ->]|[_ ->]]; [left; reflexivity|right; left; reflexivity].
Qed.
Lemma count_range : forall R a n, NoDup R -> (forall r, In r R -> a <= r < n) -> a <= n -> zlen R = n - a -> forall i, a <= i < n -> In i R.
Proof.
  intros R a n Hd Hb Han Hl i Hi.
  assert (Hc : forall k, 0 <= k -> a + k <= n -> count_lt (a + k) R <= k).
  { apply (natlike_ind (fun k => a + k <= n -> count_lt (a + k) R <= k)).
    - intros _. rewrite count_none; [lia|]. intros r Hr. specialize (Hb r Hr). lia.
    - intros k Hk IH Hkn. replace (a + Z.succ k) with (a + k + 1) by lia. rewrite count_succ by exact Hd. specialize (IH ltac:(lia)). destruct (mem (a + k) R); lia. }
  destruct (mem i R) eqn:E; [apply mem_In; exact E|]. exfalso.
  assert (Hu : forall k, 0 <= k -> i + 1 + k <= n -> count_lt (i + 1 + k) R <= i - a + k).
  { apply (natlike_ind (fun k => i + 1 + k <= n -> count_lt (i + 1 + k) R <= i - a + k)).
    - intros _. rewrite Z.add_0_r, count_succ, E by exact Hd. specialize (Hc (i - a) ltac:(lia) ltac:(lia)). replace (a + (i - a)) with i in Hc by lia. lia.
    - intros k Hk IH Hkn. replace (i + 1 + Z.succ k) with (i + 1 + k + 1) by lia. rewrite count_succ by exact Hd. specialize (IH ltac:(lia)). destruct (mem (i + 1 + k) R); lia. }
  specialize (Hu (n - i - 1) ltac:(lia) ltac:(lia)). replace (i + 1 + (n - i - 1)) with n in Hu by lia.
  rewrite (count_all n R) in Hu by (intros r Hr; specialize (Hb r Hr); lia). lia.
Qed.

(** ** remove_tensors *)
Section Remove.
  Context {V : Type}.
  Notation graph := (@graph V).
  Definition ref_ok (n : Z) (R : list Z) (i : Z) : Prop := i = -1 \/ (0 <= i < n /\ ~ In i R).
  Definition op_refs_ok (n : Z) (R : list Z) (o : oper) : Prop := Forall (ref_ok n R) (o_in o) /\ Forall (ref_ok n R) (o_out o).
  Definition rename_op (f : Z -> Z) (o : oper) : oper :=
    {| o_code := o_code o; o_opts := o_opts o; o_in := map f (o_in o); o_out := map f (o_out o) |}.

  Lemma update_ok R n l : NoDup R -> (forall r, In r R -> 0 <= r) -> 0 <= n -> Forall (ref_ok n R) l ->
    update_tensors (old_to_new (Z.to_nat n) 0 0 R) l = map (newidx R) l.
  Proof.
    intros Hd Hp Hn H. unfold update_tensors. apply map_ext_Forall. eapply Forall_impl; [|exact H]. intros i Hi. cbn beta.
    rewrite dget_full by assumption. destruct Hi as [-> | [Hi Hr]].
    - cbn [Z.leb Z.compare andb]. rewrite newidx_neg by (assumption || lia). reflexivity.
    - apply mem_false in Hr. rewrite Hr. replace (0 <=? i) with true by lia. replace (i <? n) with true by lia. reflexivity.
  Qed.
  Lemma update_sig_ok R n l : NoDup R -> (forall r, In r R -> 0 <= r) -> 0 <= n -> Forall (ref_ok n R) l ->
    update_sig (old_to_new (Z.to_nat n) 0 0 R) l = map (newidx R) l.
  Proof.
    intros Hd Hp Hn H. unfold update_sig. apply map_ext_Forall. eapply Forall_impl; [|exact H]. intros i Hi. cbn beta.
    rewrite dget_full by assumption. destruct Hi as [-> | [Hi Hr]].
    - cbn [Z.leb Z.compare andb]. rewrite newidx_neg by (assumption || lia). reflexivity.
    - apply mem_false in Hr. rewrite Hr. replace (0 <=? i) with true by lia. replace (i <? n) with true by lia. reflexivity.
  Qed.
  Lemma map_newidx_id R l (P : Z -> Prop) : (forall i, P i -> newidx R i = i) -> Forall P l -> map (newidx R) l = l.
  Proof. intros H Hl. induction Hl as [|i l Hi Hl IH]; [reflexivity|]. cbn. rewrite H, IH by exact Hi. reflexivity. Qed.

  Lemma remove_tensors_spec (g : graph) sigs R : let n := zlen (g_tensors g) in
    NoDup R -> (forall r, In r R -> 0 <= r < n) ->
    let (g', sigs') := remove_tensors g sigs R in
    zlen (g_tensors g') = n - zlen R /\
    (forall i, ~ In i R -> rd (g_tensors g') (newidx R i) = rd (g_tensors g) i) /\
    (Forall (ref_ok n R) (g_in g) -> g_in g' = map (newidx R) (g_in g)) /\
    (Forall (ref_ok n R) (g_out g) -> g_out g' = map (newidx R) (g_out g)) /\
    (Forall (op_refs_ok n R) (g_ops g) -> g_ops g' = map (rename_op (newidx R)) (g_ops g)) /\
    match sigs with
    | [] => sigs' = []
    | (i, o) :: rest => exists i' o', sigs' = (i', o') :: rest /\
        (Forall (ref_ok n R) i -> i' = map (newidx R) i) /\ (Forall (ref_ok n R) o -> o' = map (newidx R) o)
    end.
  Proof.
    intros n Hd Hb. assert (Hn : 0 <= n) by (unfold n, zlen; lia).
    assert (Hp : forall r, In r R -> 0 <= r) by (intros r Hr; apply Hb; exact Hr).
    destruct R as [|r R'] eqn:ER; unfold remove_tensors.
    - assert (E : forall l, map (newidx []) l = l).
      { intros l. rewrite (map_ext (newidx []) (fun x => x)); [apply map_id|]. intros a. unfold newidx, count_lt. cbn. lia. }
      split; [unfold n, zlen; cbn; lia|]. split; [intros i _; unfold newidx, count_lt; cbn; f_equal; lia|].
      split; [intros _; symmetry; apply E|]. split; [intros _; symmetry; apply E|]. split.
      + intros _. rewrite (map_ext (rename_op (newidx [])) (fun x => x)); [symmetry; apply map_id|]. intros [c q i o]. unfold rename_op. cbn. rewrite !E. reflexivity.
      + destruct sigs as [|[i o] rest]; [reflexivity|]. exists i, o. split; [reflexivity|]. split; intros _; symmetry; apply E.
    - rewrite <- ER in *. fold n.
      assert (Hmin : In (minl r R') R) by (rewrite ER; apply minl_in).
      assert (Hle : forall q, In q R -> minl r R' <= q) by (intros q Hq; apply minl_le; rewrite <- ER; exact Hq).
      clear ER. set (mn := minl r R') in *.
      destruct (Z.eqb_spec mn (n - zlen R)) as [Em|_].
      + assert (Hm := Hb mn Hmin).
        assert (Hall : forall i, mn <= i < n -> In i R).
        { apply (count_range R mn n Hd); [|lia|lia]. intros q Hq. specialize (Hb q Hq). specialize (Hle q Hq). lia. }
        assert (Hid : forall i, ref_ok n R i -> newidx R i = i).
        { intros i [-> | [Hi Hr]]; [apply newidx_neg; [exact Hp|lia]|]. unfold newidx. rewrite count_none; [lia|].
          intros q Hq. assert (~ mn <= i) by (intros Hx; apply Hr; apply Hall; lia). specialize (Hle q Hq). lia. }
        cbn [g_tensors g_in g_out g_ops].
        split; [unfold n, zlen in *; rewrite firstn_length; lia|]. split.
        { intros i Hi. destruct (Z.lt_ge_cases i 0).
          { rewrite newidx_neg by assumption. rewrite !rd_none by lia. reflexivity. }
          destruct (Z.lt_ge_cases i n).
          { rewrite Hid by (right; split; [lia|exact Hi]). apply rd_firstn. destruct (Z.lt_ge_cases i mn); [assumption|]. exfalso. apply Hi, Hall. lia. }
          rewrite (rd_none (g_tensors g)) by (unfold n in *; lia). apply rd_none. unfold newidx.
          assert (count_lt i R <= zlen R) by apply count_le_len. unfold n, zlen in *. rewrite firstn_length. lia. }
        split; [intros H; symmetry; exact (map_newidx_id R _ _ Hid H)|].
        split; [intros H; symmetry; exact (map_newidx_id R _ _ Hid H)|]. split.
        { intros H. clear - H Hid. induction H as [|o l [H1 H2] Hl IH]; [reflexivity|]. cbn [map]. rewrite <- IH. f_equal.
          unfold rename_op. rewrite !(map_newidx_id R _ _ Hid) by assumption. destruct o; reflexivity. }
        destruct sigs as [|[i o] rest]; [reflexivity|]. exists i, o. split; [reflexivity|].
        split; intros H; symmetry; exact (map_newidx_id R _ _ Hid H).
      + assert (Hdesc := sorted_descending R Hd).
        assert (Hsb : forall q, In q (sorted_desc R) -> 0 <= q < zlen (g_tensors g)).
        { intros q Hq. apply Hb. exact (Permutation_in _ (sorted_perm R) Hq). }
        assert (Hnew : forall i, newidx (sorted_desc R) i = newidx R i).
        { intros i. unfold newidx. rewrite (count_perm i _ _ (sorted_perm R)). reflexivity. }
        cbn [g_tensors g_in g_out g_ops]. split; [|split; [|split; [|split; [|split]]]].
        * assert (Hnot : ~ In n (sorted_desc R)) by (intros Hx; specialize (Hsb _ Hx); unfold n in *; lia).
          destruct (rd_pops (sorted_desc R) (g_tensors g) n Hdesc Hsb Hnot) as [_ E]. rewrite E.
          unfold n, zlen. rewrite (Permutation_length (sorted_perm R)). reflexivity.
        * intros i Hi. assert (Hnot : ~ In i (sorted_desc R)) by (intros Hx; apply Hi; exact (Permutation_in _ (sorted_perm R) Hx)).
          destruct (rd_pops (sorted_desc R) (g_tensors g) i Hdesc Hsb Hnot) as [E _]. rewrite <- Hnew. exact E.
        * intros H. apply update_ok; assumption.
        * intros H. apply update_ok; assumption.
        * intros H. apply map_ext_Forall. eapply Forall_impl; [|exact H]. intros o [H1 H2]. unfold update_op, rename_op.
          rewrite !update_ok by assumption. reflexivity.
        * destruct sigs as [|[i o] rest]; [reflexivity|]. eexists. eexists. split; [reflexivity|].
          split; intros H; apply update_sig_ok; assumption.
  Qed.

  (** ** Removing unreferenced tensors preserves the meaning. *)
  Variable sem : Z * Z -> list (option (@tensor V * V)) -> list (@tensor V) -> option (list V).
  Notation eval := (eval sem). Notation eval_op := (eval_op sem). Notation eval_ops := (eval_ops sem).

  Definition env_rel (n : Z) (R : list Z) (e e' : @env V) : Prop := forall i, 0 <= i < n -> ~ In i R -> e' (newidx R i) = e i.
  Definition strict_ok (n : Z) (R : list Z) (i : Z) : Prop := 0 <= i < n /\ ~ In i R.
  Lemma set_all_rel n R : NoDup R -> forall is vs e e', Forall (strict_ok n R) is -> env_rel n R e e' ->
    env_rel n R (set_all e is vs) (set_all e' (map (newidx R) is) vs).
  Proof.
    intros Hd. induction is as [|i is IH]; intros vs e e' Hs H; [exact H|]. destruct vs as [|v vs]; [exact H|].
    cbn [map set_all]. inversion Hs as [|? ? Hi Hs']; subst. apply IH; [exact Hs'|].
    intros j Hj Hr. destruct Hi as [Hi1 Hi2]. destruct (Z.eqb_spec j i) as [->|Hne].
    - rewrite Z.eqb_refl. reflexivity.
    - destruct (Z.eqb_spec (newidx R j) (newidx R i)) as [E|_]; [|apply H; assumption].
      exfalso. apply Hne. exact (newidx_inj R j i Hd Hr Hi2 E).
  Qed.
  Lemma map_eq_Forall {A B} (f g : A -> B) (h : A -> A) P l : Forall P l -> (forall x, P x -> f (h x) = g x) -> map f (map h l) = map g l.
  Proof. intros Hl H. rewrite map_map. apply map_ext_Forall. eapply Forall_impl; [|exact Hl]. exact H. Qed.

  Definition g_refs_ok (R : list Z) (g : graph) : Prop :=
    let n := zlen (g_tensors g) in
    Forall (strict_ok n R) (g_in g) /\ Forall (strict_ok n R) (g_out g) /\
    Forall (fun o => Forall (ref_ok n R) (o_in o) /\ Forall (strict_ok n R) (o_out o)) (g_ops g).

  Lemma remove_tensors_meaning (g : graph) sigs R xs : NoDup R -> (forall r, In r R -> 0 <= r < zlen (g_tensors g)) ->
    g_refs_ok R g -> eval (fst (remove_tensors g sigs R)) xs = eval g xs.
  Proof.
    intros Hd Hb (Hin & Hout & Hops). pose proof (remove_tensors_spec g sigs R Hd Hb) as HS. cbn zeta in HS.
    destruct (remove_tensors g sigs R) as [g' sigs']. cbn [fst]. set (n := zlen (g_tensors g)) in *.
    assert (Hw : forall i, strict_ok n R i -> ref_ok n R i) by (intros i H; right; exact H).
    destruct HS as (_ & Ht & Ei & Eo & Eops & _).
    rewrite Forall_forall in Ei. specialize (Ei (fun i H => Hw i (proj1 (Forall_forall _ _) Hin i H))).
    rewrite Forall_forall in Eo. specialize (Eo (fun i H => Hw i (proj1 (Forall_forall _ _) Hout i H))).
    assert (Eops' : g_ops g' = map (rename_op (newidx R)) (g_ops g)).
    { apply Eops. eapply Forall_impl; [|exact Hops]. intros o [H1 H2]. split; [exact H1|]. eapply Forall_impl; [|exact H2]. exact Hw. }
    unfold eval. rewrite Ei, Eo, Eops'. unfold zlen at 2. rewrite map_length. fold (zlen (g_in g)).
    destruct (zlen xs =? zlen (g_in g)); [|reflexivity].
    assert (Hops2 : forall ops, Forall (fun o => Forall (ref_ok n R) (o_in o) /\ Forall (strict_ok n R) (o_out o)) ops ->
      forall e e', env_rel n R e e' ->
      match eval_ops (g_tensors g) e ops, eval_ops (g_tensors g') e' (map (rename_op (newidx R)) ops) with
      | Some e1, Some e1' => env_rel n R e1 e1' | None, None => True | _, _ => False end).
    { induction 1 as [|o ops [H1 H2] _ IH]; intros e e' He; cbn [map GraphUtil.eval_ops]; [exact He|].
      assert (Eop : match eval_op (g_tensors g) e o, eval_op (g_tensors g') e' (rename_op (newidx R) o) with
        | Some e1, Some e1' => env_rel n R e1 e1' | None, None => True | _, _ => False end).
      { unfold eval_op. cbn [rename_op o_in o_out o_code o_opts].
        rewrite (map_eq_Forall (arg (g_tensors g') e') (arg (g_tensors g) e) (newidx R) (ref_ok n R)) by
          (exact H1 || (intros i [-> | [Hi Hr]];
             [rewrite newidx_neg by (lia || (intros r Hr; apply Hb; exact Hr)); reflexivity|];
             unfold arg; rewrite Ht, (He i Hi Hr) by exact Hr;
             replace (i =? -1) with false by lia;
             replace (newidx R i =? -1) with false; [reflexivity|];
             symmetry; apply Z.eqb_neq; intros E;
             assert (HX : newidx R (-1) < newidx R i) by (apply newidx_lt; [exact Hd| |lia]; intros Hx; specialize (Hb _ Hx); lia);
             rewrite newidx_neg in HX by (lia || (intros r Hr'; apply Hb; exact Hr')); lia)).
        destruct (all_some (map (arg (g_tensors g) e) (o_in o))) as [ins|]; [|exact I]. cbn [bind].
        rewrite (map_eq_Forall (rd (g_tensors g')) (rd (g_tensors g)) (newidx R) (strict_ok n R)) by
          (exact H2 || (intros i [Hi Hr]; apply Ht; exact Hr)).
        destruct (all_some (map (rd (g_tensors g)) (o_out o))) as [outs|]; [|exact I]. cbn [bind].
        destruct (sem (o_code o, o_opts o) ins outs) as [vs|]; [|exact I]. cbn [bind].
        replace (zlen (map (newidx R) (o_out o))) with (zlen (o_out o)) by (unfold zlen; rewrite map_length; reflexivity).
        destruct (zlen vs =? zlen (o_out o)); [|exact I]. apply set_all_rel; assumption. }
      destruct (eval_op (g_tensors g) e o) as [e1|], (eval_op (g_tensors g') e' (rename_op (newidx R) o)) as [e1'|]; try contradiction; [|exact I].
      cbn [bind]. apply IH. exact Eop. }
    assert (H0 : env_rel n R (set_all (consts (g_tensors g)) (g_in g) xs) (set_all (consts (g_tensors g')) (map (newidx R) (g_in g)) xs)).
    { apply set_all_rel; [exact Hd|exact Hin|]. intros i Hi Hr. unfold consts. rewrite Ht by exact Hr. reflexivity. }
    specialize (Hops2 (g_ops g) Hops _ _ H0).
    destruct (eval_ops (g_tensors g) _ (g_ops g)) as [e1|], (eval_ops (g_tensors g') _ _) as [e1'|]; try contradiction; [|reflexivity].
    cbn [bind]. f_equal. apply (map_eq_Forall e1' e1 (newidx R) (strict_ok n R)); [exact Hout|].
    intros i [Hi Hr]. apply Hops2; assumption.
  Qed.
End Remove.

(** ** Stripping preserves the meaning. *)
Lemma all_some_length {A} (l : list (option A)) r : all_some l = Some r -> length l = length r.
Proof. intros H. apply all_some_ok in H. rewrite H. apply map_length. Qed.
Lemma all_some_map_in {A B} (f : A -> option B) l r x : all_some (map f l) = Some r -> In x l -> exists y, f x = Some y /\ In y r.
Proof.
  intros H Hx. apply all_some_ok in H. assert (Hi : In (f x) (map Some r)) by (rewrite <- H; apply in_map; exact Hx).
  apply in_map_iff in Hi. destruct Hi as (y & E & Hy). exists y. split; [symmetry; exact E|exact Hy].
Qed.
Lemma all_some_exists {A B} (f : A -> option B) l : (forall x, In x l -> exists y, f x = Some y) -> exists r, all_some (map f l) = Some r.
Proof.
  induction l as [|x l IH]; intros H; [exists []; reflexivity|]. destruct (H x ltac:(left; reflexivity)) as [y Hy].
  destruct IH as [r Hr]; [intros z Hz; apply H; right; exact Hz|]. exists (y :: r). cbn. rewrite Hy. cbn. rewrite Hr. reflexivity.
Qed.

Section Strip.
  Context {V : Type}.
  Notation graph := (@graph V).
  Variable sem : Z * Z -> list (option (@tensor V * V)) -> list (@tensor V) -> option (list V).
  Notation eval := (eval sem). Notation eval_op := (eval_op sem). Notation eval_ops := (eval_ops sem).
  Notation env := (@env V).

  (** *** set_all *)
  Lemma set_all_out : forall is (vs : list V) (e : env) i, ~ In i is -> set_all e is vs i = e i.
  Proof.
    induction is as [|j is IH]; intros vs e i H; [reflexivity|]. destruct vs as [|v vs]; [reflexivity|]. cbn [set_all].
    rewrite IH by (intros Hx; apply H; right; exact Hx). destruct (Z.eqb_spec i j) as [->|]; [|reflexivity]. exfalso. apply H. left. reflexivity.
  Qed.
  Lemma set_all_map : forall is (vs : list V) (e : env), NoDup is -> length is = length vs -> map (set_all e is vs) is = map Some vs.
  Proof.
    induction is as [|j is IH]; intros vs e Hd Hl; destruct vs as [|v vs]; try discriminate; [reflexivity|].
    inversion Hd as [|? ? Hn Hd']; subst. cbn [map]. f_equal.
    - cbn [set_all]. rewrite set_all_out by exact Hn. rewrite Z.eqb_refl. reflexivity.
    - cbn [set_all]. apply IH; [exact Hd'|]. injection Hl as Hl. exact Hl.
  Qed.
  Lemma set_all_le (P : Z -> Prop) : forall is (vs : list V) (e e1 : env), (forall i v, P i -> e i = Some v -> e1 i = Some v) ->
    forall i v, P i -> set_all e is vs i = Some v -> set_all e1 is vs i = Some v.
  Proof.
    induction is as [|j is IH]; intros vs e e1 H; [exact H|]. destruct vs as [|w vs]; [exact H|]. cbn [set_all]. apply IH.
    intros i v Hi. destruct (i =? j); [tauto|]. apply H. exact Hi.
  Qed.
  (** Setting inputs to the values another environment gives them. *)
  Lemma set_all_from (ef : env) : forall is (vs : list V) (e : env), map ef is = map Some vs ->
    forall i, set_all e is vs i = if mem i is then ef i else e i.
  Proof.
    induction is as [|j is IH]; intros vs e H i; [reflexivity|]. destruct vs as [|v vs]; [discriminate|].
    cbn [map] in H. injection H as H1 H2. cbn [set_all]. rewrite IH by exact H2. cbn [mem existsb]. fold (mem i is).
    destruct (Z.eqb_spec i j) as [->|Hne]; cbn [orb]; [|reflexivity]. rewrite H1. destruct (mem j is); reflexivity.
  Qed.

  (** *** What a finished run says about the final environment. *)
  Definition op_holds (T : list (@tensor V)) (ef : env) (o : oper) : Prop :=
    exists ins touts vs, all_some (map (arg T ef) (o_in o)) = Some ins /\ all_some (map (rd T) (o_out o)) = Some touts /\
      sem (o_code o, o_opts o) ins touts = Some vs /\ map ef (o_out o) = map Some vs.
  Definition outs_of (ops : list oper) : list Z := flat_map o_out ops.
  Lemma arg_le T (e e' : env) i a : (forall j v, e j = Some v -> e' j = Some v) -> arg T e i = Some a -> arg T e' i = Some a.
  Proof.
    intros H. unfold arg. destruct (i =? -1); [tauto|]. destruct (rd T i) as [t|]; [|discriminate]. cbn [bind].
    destruct (e i) as [v|] eqn:E; [|discriminate]. rewrite (H i v E). tauto.
  Qed.
  Lemma args_le T (e e' : env) l r (P : Z -> Prop) : (forall j v, P j -> e j = Some v -> e' j = Some v) -> Forall (fun j => j = -1 \/ P j) l ->
    all_some (map (arg T e) l) = Some r -> all_some (map (arg T e') l) = Some r.
  Proof.
    intros H Hl E. apply all_some_ok. apply all_some_ok in E. rewrite <- E. apply map_ext_in. intros i Hi.
    assert (Hs : In (arg T e i) (map Some r)) by (rewrite <- E; apply in_map; exact Hi).
    apply in_map_iff in Hs. destruct Hs as (a & Ea & _). rewrite <- Ea.
    rewrite Forall_forall in Hl. specialize (Hl i Hi). unfold arg in *. destruct (Z.eqb_spec i (-1)) as [->|Hn]; [congruence|].
    destruct Hl as [Hl|Hl]; [contradiction|]. destruct (rd T i) as [t|]; [|discriminate]. cbn [bind] in *.
    destruct (e i) as [v|] eqn:Ev; [|discriminate]. rewrite (H i v Hl Ev). symmetry. exact Ea.
  Qed.
  Lemma eval_op_inv T (e e' : env) o : eval_op T e o = Some e' -> exists ins touts vs,
    all_some (map (arg T e) (o_in o)) = Some ins /\ all_some (map (rd T) (o_out o)) = Some touts /\
    sem (o_code o, o_opts o) ins touts = Some vs /\ length (o_out o) = length vs /\ e' = set_all e (o_out o) vs.
  Proof.
    unfold GraphUtil.eval_op. destruct (all_some (map (arg T e) (o_in o))) as [ins|]; [|discriminate]. cbn [bind].
    destruct (all_some (map (rd T) (o_out o))) as [touts|]; [|discriminate]. cbn [bind].
    destruct (sem (o_code o, o_opts o) ins touts) as [vs|] eqn:Es; [|discriminate]. cbn [bind].
    destruct (Z.eqb_spec (zlen vs) (zlen (o_out o))) as [Hl|]; [|discriminate]. intros H. injection H as <-.
    exists ins, touts, vs. repeat (split; [reflexivity || assumption|]). split; [unfold zlen in Hl; lia|reflexivity].
  Qed.
  Lemma eval_ops_holds T : forall ops (e ef : env), NoDup (outs_of ops) -> (forall i, In i (outs_of ops) -> e i = None) ->
    eval_ops T e ops = Some ef ->
    (forall i v, e i = Some v -> ef i = Some v) /\ (forall o, In o ops -> op_holds T ef o).
  Proof.
    induction ops as [|o ops IH]; intros e ef Hd Hnone H; cbn [GraphUtil.eval_ops] in H.
    - injection H as <-. split; [tauto|]. intros o [].
    - destruct (eval_op T e o) as [e'|] eqn:Eo; [|discriminate]. cbn [bind] in H.
      destruct (eval_op_inv T e e' o Eo) as (ins & touts & vs & E1 & E2 & E3 & E4 & ->).
      unfold outs_of in Hd, Hnone. cbn [flat_map] in Hd, Hnone. fold (outs_of ops) in Hd, Hnone.
      destruct (IH (set_all e (o_out o) vs) ef) as [M O]; [|..|exact H|].
      { clear - Hd. induction (o_out o) as [|x l IHl]; [exact Hd|]. inversion Hd; subst. apply IHl. assumption. }
      { intros i Hi. rewrite set_all_out; [apply Hnone, in_or_app; right; exact Hi|].
        intros Hx. clear - Hd Hi Hx. induction (o_out o) as [|x l IHl]; [destruct Hx|]. inversion Hd as [|? ? Hn Hd']; subst.
        destruct Hx as [-> | Hx]; [apply Hn, in_or_app; right; exact Hi|]. exact (IHl Hd' Hx). }
      assert (Hmono : forall i v, e i = Some v -> set_all e (o_out o) vs i = Some v).
      { intros i v Hv. rewrite set_all_out; [exact Hv|]. intros Hx. rewrite (Hnone i) in Hv by (apply in_or_app; left; exact Hx). discriminate. }
      assert (Hdo : NoDup (o_out o)).
      { clear - Hd. induction (o_out o) as [|x l IHl]; [constructor|]. inversion Hd as [|? ? Hn Hd']; subst. constructor; [|exact (IHl Hd')].
        intros Hx. apply Hn, in_or_app. left. exact Hx. }
      split; [intros i v Hv; apply M, Hmono, Hv|].
      intros q [<-|Hq]; [|exact (O q Hq)]. exists ins, touts, vs. split; [|split; [exact E2|split; [exact E3|]]].
      + apply (args_le T e ef (o_in o) ins (fun _ => True)); [|apply Forall_forall; intros; right; exact I|exact E1].
        intros j v _ Hv. apply M, Hmono, Hv.
      + pose proof (set_all_map (o_out o) vs e Hdo E4) as Hs. rewrite <- Hs. apply map_ext_in. intros i Hi.
        assert (Hin : In (set_all e (o_out o) vs i) (map Some vs)) by (rewrite <- Hs; apply in_map; exact Hi).
        apply in_map_iff in Hin. destruct Hin as (v & Ev & _). rewrite <- Ev. apply M. symmetry. exact Ev.
  Qed.

  (** *** The loops over the removed operators *)
  Definition ins_of (ks : list kind) : list (Z * Z) := flat_map (fun k => match k with KIn e i => [(e, i)] | _ => [] end) ks.
  Definition outsl_of (ks : list kind) : list (Z * Z) := flat_map (fun k => match k with KOut e i => [(e, i)] | _ => [] end) ks.
  Definition exts_of (ks : list kind) : list Z := flat_map (fun k => match k with KIn e _ => [e] | KOut e _ => [e] | KNone => [] end) ks.
  Definition ren (l : list (Z * Z)) (x : Z) : Z := fold_left (fun x p => if x =? fst p then snd p else x) l x.
  Definition set_adds (l R : list Z) : list Z := fold_left (fun R x => set_add x R) l R.
  Lemma strip_fold : forall ks ins outs sigs R, exists sigs',
    fold_left strip_step ks (ins, outs, sigs, R) = (map (ren (ins_of ks)) ins, map (ren (outsl_of ks)) outs, sigs', set_adds (exts_of ks) R).
  Proof.
    induction ks as [|k ks IH]; intros ins outs sigs R.
    - exists sigs. cbn. unfold ren. cbn. rewrite !map_id. reflexivity.
    - cbn [fold_left]. destruct k as [e i|e i|]; cbn [strip_step].
      + destruct (IH (replace e i ins) outs (on_first_sig (replace e i) (fun l => l) sigs) (set_add e R)) as [s' E].
        exists s'. rewrite E. unfold replace. rewrite map_map. reflexivity.
      + destruct (IH ins (replace e i outs) (on_first_sig (fun l => l) (replace e i) sigs) (set_add e R)) as [s' E].
        exists s'. rewrite E. unfold replace. rewrite map_map. reflexivity.
      + exact (IH ins outs sigs R).
  Qed.
  Lemma ren_none l x : (forall i, ~ In (x, i) l) -> ren l x = x.
  Proof.
    revert x. induction l as [|[e i] l IH]; intros x H; [reflexivity|]. unfold ren. cbn [fold_left fst snd].
    destruct (Z.eqb_spec x e) as [->|_]; [exfalso; apply (H i); left; reflexivity|]. apply IH. intros j Hj. apply (H j). right. exact Hj.
  Qed.
  Lemma ren_some l x i : In (x, i) l -> (forall j, In (x, j) l -> j = i) -> (forall j, ~ In (i, j) l) -> ren l x = i.
  Proof.
    induction l as [|[e k] l IH]; intros H Hf Hn; [destruct H|]. unfold ren. cbn [fold_left fst snd].
    destruct (Z.eqb_spec x e) as [->|Hne].
    - rewrite (Hf k) by (left; reflexivity). apply ren_none. intros j Hj. apply (Hn j). right. exact Hj.
    - destruct H as [H|H]; [congruence|]. apply IH; [exact H| |]; intros j Hj; [apply Hf|apply (Hn j)]; right; exact Hj.
  Qed.
  Lemma set_adds_spec : forall l R, (forall x, In x (set_adds l R) <-> In x R \/ In x l) /\ (NoDup R -> NoDup (set_adds l R)).
  Proof.
    induction l as [|y l IH]; intros R; [split; [intros x; cbn; tauto|tauto]|]. unfold set_adds. cbn [fold_left].
    destruct (IH (set_add y R)) as [H1 H2]. split.
    - intros x. rewrite (H1 x). unfold set_add. destruct (mem y R) eqn:E.
      + apply mem_In in E. split; [intros [H|H]; [left; exact H|right; right; exact H]|]. intros [H|[<-|H]]; [left; exact H|left; exact E|right; exact H].
      + rewrite in_app_iff. cbn. tauto.
    - intros Hd. apply H2. unfold set_add. destruct (mem y R) eqn:E; [exact Hd|]. apply mem_false in E.
      apply NoDup_rev in Hd. rewrite <- (rev_involutive (R ++ [y])). apply NoDup_rev. rewrite rev_app_distr. cbn. constructor; [|exact Hd].
      intros Hx. apply E. apply in_rev. exact Hx.
  Qed.

  (** *** Well-formed graphs *)
  Definition in_range (g : graph) (i : Z) : Prop := 0 <= i < zlen (g_tensors g).
  Definition refs_in_range (g : graph) : Prop :=
    Forall (in_range g) (g_in g) /\ Forall (in_range g) (g_out g) /\
    Forall (fun o => Forall (fun i => i = -1 \/ in_range g i) (o_in o) /\ Forall (in_range g) (o_out o)) (g_ops g).
  (** Static single assignment: no tensor is written twice; graph inputs and
      constants are not written. *)
  Definition ssa (g : graph) : Prop :=
    NoDup (outs_of (g_ops g)) /\ NoDup (g_in g) /\
    forall i, In i (outs_of (g_ops g)) -> ~ In i (g_in g) /\ consts (g_tensors g) i = None.
  (** The operators marked for removal have the shape the code assumes, ... *)
  Definition kop_shape (g : graph) (p : kind * oper) : Prop :=
    match fst p with
    | KIn e i => o_in (snd p) = [e] /\ o_out (snd p) = [i] /\ In e (g_in g) /\ in_range g i
    | KOut e i => o_in (snd p) = [i] /\ o_out (snd p) = [e] /\ In e (g_out g) /\ in_range g i
    | KNone => True
    end.
  Definition removed (kinds : list kind) (x : Z) : Prop := In x (exts_of kinds).
  Record phase_ok (g : graph) (kinds : list kind) : Prop := {
    po_len : length kinds = length (g_ops g);
    po_shape : Forall (kop_shape g) (combine kinds (g_ops g));
    po_fun : forall e i j, In (KIn e i) kinds -> In (KIn e j) kinds -> i = j;
    po_int_in : forall e i, In (KIn e i) kinds -> ~ removed kinds i;
    po_int_out : forall e i, In (KOut e i) kinds -> ~ removed kinds i;
    po_in_not_out : forall e i, In (KIn e i) kinds -> ~ In e (g_out g);
    po_kept : forall o i, In (KNone, o) (combine kinds (g_ops g)) -> In i (o_in o) -> ~ removed kinds i
  }.

  Lemma in_combine_ops {A} (ks : list A) (ops : list oper) k : length ks = length ops -> In k ks -> exists o, In (k, o) (combine ks ops).
  Proof.
    revert ops. induction ks as [|a ks IH]; intros ops Hl Hk; [destruct Hk|]. destruct ops as [|o ops]; [discriminate|].
    destruct Hk as [->|Hk]; [exists o; left; reflexivity|]. injection Hl as Hl. destruct (IH ops Hl Hk) as [q Hq]. exists q. right. exact Hq.
  Qed.
  Lemma ins_of_In ks e i : In (e, i) (ins_of ks) <-> In (KIn e i) ks.
  Proof.
    unfold ins_of. rewrite in_flat_map. split.
    - intros (k & Hk & H). destruct k; cbn in H; intuition congruence.
    - intros H. exists (KIn e i). split; [exact H|left; reflexivity].
  Qed.
  Lemma outsl_of_In ks e i : In (e, i) (outsl_of ks) <-> In (KOut e i) ks.
  Proof.
    unfold outsl_of. rewrite in_flat_map. split.
    - intros (k & Hk & H). destruct k; cbn in H; intuition congruence.
    - intros H. exists (KOut e i). split; [exact H|left; reflexivity].
  Qed.
  Lemma exts_of_In ks x : In x (exts_of ks) <-> exists i, In (KIn x i) ks \/ In (KOut x i) ks.
  Proof.
    unfold exts_of. rewrite in_flat_map. split.
    - intros (k & Hk & H). destruct k as [e i|e i|]; cbn in H; [destruct H as [H|[]]; subst; exists i; left; exact Hk|destruct H as [H|[]]; subst; exists i; right; exact Hk|destruct H].
    - intros (i & [H|H]); [exists (KIn x i)|exists (KOut x i)]; (split; [exact H|left; reflexivity]).
  Qed.
  Lemma in_filter_kinds ks k : In k (filter is_in ks ++ filter is_out ks) <-> In k ks /\ k <> KNone.
  Proof. rewrite in_app_iff, !filter_In. destruct k; cbn; split; intuition (try discriminate). Qed.
  Lemma ins_of_filter ks e i : In (e, i) (ins_of (filter is_in ks ++ filter is_out ks)) <-> In (KIn e i) ks.
  Proof. rewrite ins_of_In, in_filter_kinds. split; [tauto|intros H; split; [exact H|discriminate]]. Qed.
  Lemma outsl_of_filter ks e i : In (e, i) (outsl_of (filter is_in ks ++ filter is_out ks)) <-> In (KOut e i) ks.
  Proof. rewrite outsl_of_In, in_filter_kinds. split; [tauto|intros H; split; [exact H|discriminate]]. Qed.
  Lemma exts_of_filter ks x : In x (exts_of (filter is_in ks ++ filter is_out ks)) <-> removed ks x.
  Proof.
    unfold removed. rewrite !exts_of_In. split; intros (i & H); exists i; rewrite !in_filter_kinds in *; [tauto|].
    destruct H as [H|H]; [left|right]; (split; [exact H|discriminate]).
  Qed.

  Lemma kin_dec ks e : (exists i, In (KIn e i) ks) \/ (forall i, ~ In (KIn e i) ks).
  Proof.
    induction ks as [|k ks [[i Hi]|Hn]]; [right; intros i []|left; exists i; right; exact Hi|].
    destruct k as [a b|a b|]; [destruct (Z.eq_dec a e) as [->|Hne]; [left; exists b; left; reflexivity|]|..];
      (right; intros i [Hi|Hi]; [congruence|exact (Hn i Hi)]).
  Qed.
  Lemma kout_dec ks e : (exists i, In (KOut e i) ks) \/ (forall i, ~ In (KOut e i) ks).
  Proof.
    induction ks as [|k ks [[i Hi]|Hn]]; [right; intros i []|left; exists i; right; exact Hi|].
    destruct k as [a b|a b|]; [|destruct (Z.eq_dec a e) as [->|Hne]; [left; exists b; left; reflexivity|]|];
      (right; intros i [Hi|Hi]; [congruence|exact (Hn i Hi)]).
  Qed.

  (** Two operators writing the same tensor are the same. *)
  Lemma nodup_writer {A} : forall (l : list (A * oper)), NoDup (flat_map (fun p => o_out (snd p)) l) ->
    forall p q x, In p l -> In q l -> In x (o_out (snd p)) -> In x (o_out (snd q)) -> p = q.
  Proof.
    induction l as [|a l IH]; intros Hd p q x Hp Hq Hxp Hxq; [destruct Hp|]. cbn [flat_map] in Hd.
    assert (Hsplit : NoDup (flat_map (fun p => o_out (snd p)) l) /\ forall y, In y (o_out (snd a)) -> ~ In y (flat_map (fun p => o_out (snd p)) l)).
    { clear - Hd. induction (o_out (snd a)) as [|y m IHm]; [split; [exact Hd|intros y []]|]. inversion Hd as [|? ? Hn Hd']; subst.
      destruct (IHm Hd') as [H1 H2]. split; [exact H1|]. intros z [<-|Hz]; [intros Hx; apply Hn, in_or_app; right; exact Hx|exact (H2 z Hz)]. }
    destruct Hsplit as [Hd' Hdis]. destruct Hp as [<-|Hp], Hq as [<-|Hq].
    - reflexivity.
    - exfalso. apply (Hdis x Hxp). apply in_flat_map. exists q. split; assumption.
    - exfalso. apply (Hdis x Hxq). apply in_flat_map. exists p. split; assumption.
    - exact (IH Hd' p q x Hp Hq Hxp Hxq).
  Qed.
  Lemma combine_outs {A} (ks : list A) ops : length ks = length ops -> flat_map (fun p => o_out (snd p)) (combine ks ops) = outs_of ops.
  Proof.
    revert ops. induction ks as [|k ks IH]; intros [|o ops] Hl; try discriminate; [reflexivity|]. injection Hl as Hl. cbn. rewrite (IH ops Hl). reflexivity.
  Qed.

  (** *** Simulation *)
  Lemma sim T (Rm : Z -> Prop) (ef : env) : forall kinds ops (e e1 : env),
    length kinds = length ops -> NoDup (outs_of ops) -> (forall i, In i (outs_of ops) -> e i = None) ->
    eval_ops T e ops = Some ef ->
    (forall i v, ~ Rm i -> e i = Some v -> e1 i = Some v) ->
    (forall x i o, In (KIn x i, o) (combine kinds ops) -> o_out o = [i] /\ e1 i = ef i) ->
    (forall x i o, In (KOut x i, o) (combine kinds ops) -> o_out o = [x] /\ Rm x) ->
    (forall o i, In (KNone, o) (combine kinds ops) -> In i (o_in o) -> ~ Rm i) ->
    exists e1f, eval_ops T e1 (keep kinds ops) = Some e1f /\ forall i v, ~ Rm i -> ef i = Some v -> e1f i = Some v.
  Proof.
    induction kinds as [|k kinds IH]; intros ops e e1 Hl Hd Hnone H Hrel Hin Hout Hkept; destruct ops as [|o ops]; try discriminate.
    - cbn in H. injection H as <-. exists e1. split; [reflexivity|exact Hrel].
    - injection Hl as Hl. pose proof (eval_ops_holds T (o :: ops) e ef Hd Hnone H) as [Hmono _].
      cbn [GraphUtil.eval_ops] in H. destruct (eval_op T e o) as [e'|] eqn:Eo; [|discriminate]. cbn [bind] in H.
      destruct (eval_op_inv T e e' o Eo) as (ins & touts & vs & E1 & E2 & E3 & E4 & ->).
      unfold outs_of in Hd, Hnone. cbn [flat_map] in Hd, Hnone. fold (outs_of ops) in Hd, Hnone.
      assert (Hsp : NoDup (outs_of ops) /\ (forall y, In y (o_out o) -> ~ In y (outs_of ops)) /\ NoDup (o_out o)).
      { clear - Hd. induction (o_out o) as [|y m IHm]; [repeat split; [exact Hd|intros y []|constructor]|]. inversion Hd as [|? ? Hn Hd']; subst.
        destruct (IHm Hd') as (H1 & H2 & H3). split; [exact H1|]. split.
        - intros z [<-|Hz]; [intros Hx; apply Hn, in_or_app; right; exact Hx|exact (H2 z Hz)].
        - constructor; [|exact H3]. intros Hx. apply Hn, in_or_app. left. exact Hx. }
      destruct Hsp as (Hd' & Hdis & Hdo).
      assert (Hnone' : forall i, In i (outs_of ops) -> set_all e (o_out o) vs i = None).
      { intros i Hi. rewrite set_all_out; [apply Hnone, in_or_app; right; exact Hi|]. intros Hx. exact (Hdis i Hx Hi). }
      destruct (eval_ops_holds T ops _ ef Hd' Hnone' H) as [Hmono' _].
      assert (Hin' : forall x i q, In (KIn x i, q) (combine kinds ops) -> o_out q = [i] /\ In i (outs_of ops)).
      { intros x i q Hq. destruct (Hin x i q ltac:(right; exact Hq)) as [Ho _]. split; [exact Ho|].
        unfold outs_of. apply in_flat_map. exists q. split; [exact (in_combine_r _ _ _ _ Hq)|]. rewrite Ho. left. reflexivity. }
      destruct k as [x i|x i|]; cbn [keep].
      + destruct (Hin x i o ltac:(left; reflexivity)) as [Ho He1].
        apply (IH ops (set_all e (o_out o) vs) e1 Hl Hd' Hnone' H).
        * intros j v Hj Hv. destruct (Z.eq_dec j i) as [->|Hne].
          -- rewrite He1. apply Hmono'. exact Hv.
          -- apply Hrel; [exact Hj|]. rewrite set_all_out in Hv; [exact Hv|]. rewrite Ho. intros [->|[]]. contradiction.
        * intros y j q Hq. apply Hin with (x := y). right. exact Hq.
        * intros y j q Hq. apply Hout with (i := j). right. exact Hq.
        * intros q j Hq. apply Hkept. right. exact Hq.
      + destruct (Hout x i o ltac:(left; reflexivity)) as [Ho Hx].
        apply (IH ops (set_all e (o_out o) vs) e1 Hl Hd' Hnone' H).
        * intros j v Hj Hv. apply Hrel; [exact Hj|]. rewrite set_all_out in Hv; [exact Hv|]. rewrite Ho. intros [->|[]]. contradiction.
        * intros y j q Hq. apply Hin with (x := y). right. exact Hq.
        * intros y j q Hq. apply Hout with (i := j). right. exact Hq.
        * intros q j Hq. apply Hkept. right. exact Hq.
      + assert (Eop : eval_op T e1 o = Some (set_all e1 (o_out o) vs)).
        { unfold GraphUtil.eval_op. rewrite (args_le T e e1 (o_in o) ins (fun j => ~ Rm j)); [|exact Hrel| |exact E1].
          - cbn [bind]. rewrite E2. cbn [bind]. rewrite E3. cbn [bind]. replace (zlen vs =? zlen (o_out o)) with true by (unfold zlen; lia). reflexivity.
          - apply Forall_forall. intros j Hj. right. exact (Hkept o j ltac:(left; reflexivity) Hj). }
        cbn [GraphUtil.eval_ops]. rewrite Eop. cbn [bind].
        apply (IH ops (set_all e (o_out o) vs) (set_all e1 (o_out o) vs) Hl Hd' Hnone' H).
        * intros j v Hj. apply (set_all_le (fun j => ~ Rm j)); [|exact Hj]. exact Hrel.
        * intros y j q Hq. destruct (Hin' y j q Hq) as [Hoq Hjo]. split; [exact Hoq|].
          rewrite set_all_out by (intros Hx; exact (Hdis j Hx Hjo)). apply (Hin y j q). right. exact Hq.
        * intros y j q Hq. apply Hout with (i := j). right. exact Hq.
        * intros q j Hq. apply Hkept. right. exact Hq.
  Qed.

  (** One operator with one input and one output, applied to a value. *)
  Definition run1 (T : list (@tensor V)) (o : oper) (a b : Z) (x y : V) : Prop :=
    exists ta tb, rd T a = Some ta /\ rd T b = Some tb /\ sem (o_code o, o_opts o) [Some (ta, x)] [tb] = Some [y].
  Lemma op_holds_run1 T (ef : env) o a b x : o_in o = [a] -> o_out o = [b] -> 0 <= a -> ef a = Some x -> op_holds T ef o ->
    exists y, ef b = Some y /\ run1 T o a b x y.
  Proof.
    intros Ha Hb Hp Hx (ins & touts & vs & E1 & E2 & E3 & E4). rewrite Ha in E1. rewrite Hb in E2, E4. cbn in E1, E2, E4.
    unfold arg in E1. replace (a =? -1) with false in E1 by lia. rewrite Hx in E1.
    destruct (rd T a) as [ta|] eqn:Ra; [|discriminate]. cbn in E1. injection E1 as <-.
    destruct (rd T b) as [tb|] eqn:Rb; [|discriminate]. cbn in E2. injection E2 as <-.
    destruct vs as [|y [|]]; try discriminate. injection E4 as E4. exists y. split; [exact E4|]. exists ta, tb. auto.
  Qed.

  (** The stripped graph, described: [ri], [ro] redirect inputs and outputs to
      the integer tensors, [R] is the set of removed tensors. *)
  Definition struct_ok (g : graph) sigs kinds (ri ro : Z -> Z) (R : list Z) : Prop :=
    (forall x, In x R <-> removed kinds x) /\ NoDup R /\ (forall r, In r R -> 0 <= r < zlen (g_tensors g)) /\
    (forall e i, In (KIn e i) kinds -> ri e = i) /\ (forall e, (forall i, ~ In (KIn e i) kinds) -> ri e = e) /\
    (forall e i, In (KOut e i) kinds -> ro e = i) /\ (forall e, (forall i, ~ In (KOut e i) kinds) -> ro e = e) /\
    let g1 := {| g_tensors := g_tensors g; g_in := map ri (g_in g); g_out := map ro (g_out g); g_ops := keep kinds (g_ops g) |} in
    g_refs_ok R g1 /\ exists sigs1, strip g sigs kinds = remove_tensors g1 sigs1 R.
  Lemma keep_combine : forall kinds ops o, In o (keep kinds ops) -> In (KNone, o) (combine kinds ops).
  Proof.
    induction kinds as [|k l IH]; intros ops o Ho; [destruct Ho|].
    destruct ops as [|q ops]; [destruct k; destruct Ho|]. destruct k; cbn in Ho |- *; [right; exact (IH ops o Ho)|right; exact (IH ops o Ho)|].
    destruct Ho as [->|Ho]; [left; reflexivity|right; exact (IH ops o Ho)].
  Qed.
  Lemma strip_struct (g : graph) sigs kinds : refs_in_range g -> ssa g -> phase_ok g kinds -> exists ri ro R, struct_ok g sigs kinds ri ro R.
  Proof.
    intros (Wi & Wo & Wops) (Hd & Hdi & Hssa) P. rewrite Forall_forall in Wi, Wo, Wops.
    assert (Hshape := po_shape g kinds P). rewrite Forall_forall in Hshape. assert (Hlen := po_len g kinds P).
    set (ks := filter is_in kinds ++ filter is_out kinds).
    set (ri := ren (ins_of ks)) in *. set (ro := ren (outsl_of ks)) in *. set (R := set_adds (exts_of ks) []) in *.
    exists ri, ro, R.
    assert (HR : forall x, In x R <-> removed kinds x).
    { intros x. unfold R. rewrite (proj1 (set_adds_spec (exts_of ks) []) x). cbn [In]. rewrite <- (exts_of_filter kinds x). unfold ks. tauto. }
    assert (HRd : NoDup R) by (apply (proj2 (set_adds_spec (exts_of ks) [])); constructor).
    assert (Hri : forall e i, In (KIn e i) kinds -> ri e = i).
    { intros e i Hk. apply ren_some; [apply ins_of_filter; exact Hk| |].
      - intros j Hj. apply ins_of_filter in Hj. exact (po_fun g kinds P e j i Hj Hk).
      - intros j Hj. apply ins_of_filter in Hj. apply (po_int_in g kinds P e i Hk). apply exts_of_In. exists j. left. exact Hj. }
    assert (Hri0 : forall e, (forall i, ~ In (KIn e i) kinds) -> ri e = e).
    { intros e Hk. apply ren_none. intros i Hi. apply ins_of_filter in Hi. exact (Hk i Hi). }
    assert (Hpn : NoDup (flat_map (fun p => o_out (snd p)) (combine kinds (g_ops g)))) by (rewrite combine_outs by exact Hlen; exact Hd).
    assert (Hro : forall e i, In (KOut e i) kinds -> ro e = i).
    { intros e i Hk. apply ren_some; [apply outsl_of_filter; exact Hk| |].
      - intros j Hj. apply outsl_of_filter in Hj. destruct (in_combine_ops kinds (g_ops g) _ Hlen Hk) as [o1 Ho1]. destruct (in_combine_ops kinds (g_ops g) _ Hlen Hj) as [o2 Ho2].
        pose proof (Hshape _ Ho1) as S1. pose proof (Hshape _ Ho2) as S2. cbn in S1, S2. destruct S1 as (_ & S1 & _), S2 as (_ & S2 & _).
        assert (E := nodup_writer _ Hpn _ _ e Ho1 Ho2). cbn [snd] in E. rewrite S1, S2 in E. specialize (E ltac:(left; reflexivity) ltac:(left; reflexivity)). congruence.
      - intros j Hj. apply outsl_of_filter in Hj. apply (po_int_out g kinds P e i Hk). apply exts_of_In. exists j. right. exact Hj. }
    assert (Hro0 : forall e, (forall i, ~ In (KOut e i) kinds) -> ro e = e).
    { intros e Hk. apply ren_none. intros i Hi. apply outsl_of_filter in Hi. exact (Hk i Hi). }
    assert (HinR : forall e, In e (g_in g) -> (forall i, ~ In (KIn e i) kinds) -> ~ removed kinds e).
    { intros e He Hk Hx. apply exts_of_In in Hx. destruct Hx as (i & [Hx|Hx]); [exact (Hk i Hx)|].
      destruct (in_combine_ops kinds (g_ops g) _ Hlen Hx) as [o Ho]. pose proof (Hshape _ Ho) as So. cbn in So. destruct So as (_ & So & _).
      assert (Hout : In e (outs_of (g_ops g))) by (apply in_flat_map; exists o; split; [exact (in_combine_r _ _ _ _ Ho)|rewrite So; left; reflexivity]).
      exact (proj1 (Hssa e Hout) He). }
    assert (HoutR : forall e, In e (g_out g) -> (forall i, ~ In (KOut e i) kinds) -> ~ removed kinds e).
    { intros e He Hk Hx. apply exts_of_In in Hx. destruct Hx as (i & [Hx|Hx]); [|exact (Hk i Hx)]. exact (po_in_not_out g kinds P e i Hx He). }
    (* renumbering *)
    set (g1 := {| g_tensors := g_tensors g; g_in := map ri (g_in g); g_out := map ro (g_out g); g_ops := keep kinds (g_ops g) |}).
    assert (HRr : forall r, In r R -> 0 <= r < zlen (g_tensors g1)).
    { intros r Hr. apply HR, exts_of_In in Hr. destruct Hr as (i & [Hr|Hr]); destruct (in_combine_ops kinds (g_ops g) _ Hlen Hr) as [o Ho];
      pose proof (Hshape _ Ho) as So; cbn in So; destruct So as (_ & _ & So & _); [exact (Wi _ So)|exact (Wo _ So)]. }
    assert (Hrefs : g_refs_ok R g1).
    { unfold g_refs_ok, strict_ok, ref_ok. cbn [g_tensors g_in g_out g_ops g1]. split; [|split].
      - apply Forall_forall. intros x Hx. apply in_map_iff in Hx. destruct Hx as (e & <- & He). rewrite HR.
        destruct (kin_dec kinds e) as [[i Hi]|Hi].
        + rewrite (Hri e i Hi). split; [|exact (po_int_in g kinds P e i Hi)].
          destruct (in_combine_ops kinds (g_ops g) _ Hlen Hi) as [o Ho]. pose proof (Hshape _ Ho) as So. cbn in So. apply So.
        + rewrite (Hri0 e Hi). split; [exact (Wi e He)|exact (HinR e He Hi)].
      - apply Forall_forall. intros x Hx. apply in_map_iff in Hx. destruct Hx as (e & <- & He). rewrite HR.
        destruct (kout_dec kinds e) as [[i Hi]|Hi].
        + rewrite (Hro e i Hi). split; [|exact (po_int_out g kinds P e i Hi)].
          destruct (in_combine_ops kinds (g_ops g) _ Hlen Hi) as [o Ho]. pose proof (Hshape _ Ho) as So. cbn in So. apply So.
        + rewrite (Hro0 e Hi). split; [exact (Wo e He)|exact (HoutR e He Hi)].
      - apply Forall_forall. intros o Ho. apply keep_combine in Ho. pose proof (in_combine_r _ _ _ _ Ho) as Hoo.
        destruct (Wops o Hoo) as [W1 W2]. rewrite Forall_forall in W1, W2. split; apply Forall_forall; intros i Hi.
        + destruct (W1 i Hi) as [->|W]; [left; reflexivity|right]. split; [exact W|]. rewrite HR. exact (po_kept g kinds P o i Ho Hi).
        + split; [exact (W2 i Hi)|]. rewrite HR. intros Hx. apply exts_of_In in Hx.
          assert (Hout : In i (outs_of (g_ops g))) by (apply in_flat_map; exists o; split; assumption).
          destruct Hx as (j & [Hx|Hx]); destruct (in_combine_ops kinds (g_ops g) _ Hlen Hx) as [o2 Ho2]; pose proof (Hshape _ Ho2) as So; cbn in So.
          * destruct So as (_ & _ & So & _). exact (proj1 (Hssa i Hout) So).
          * destruct So as (_ & So & _). assert (E := nodup_writer _ Hpn _ _ i Ho Ho2 Hi). cbn [snd] in E. rewrite So in E. specialize (E ltac:(left; reflexivity)). discriminate. }
    split; [exact HR|]. split; [exact HRd|]. split; [exact HRr|]. split; [exact Hri|]. split; [exact Hri0|]. split; [exact Hro|]. split; [exact Hro0|].
    split; [exact Hrefs|]. destruct (strip_fold ks (g_in g) (g_out g) sigs []) as [sigs1 Efold]. exists sigs1.
    unfold strip, strip1. fold ks. rewrite Efold. reflexivity.
  Qed.

  Lemma strip_meaning (g : graph) sigs kinds xs ys : refs_in_range g -> ssa g -> phase_ok g kinds -> eval g xs = Some ys ->
    exists xs' ys', eval (fst (strip g sigs kinds)) xs' = Some ys' /\
      zlen xs' = zlen xs /\ zlen ys' = zlen ys /\
      (forall k e, rd (g_in g) k = Some e -> exists x x', rd xs k = Some x /\ rd xs' k = Some x' /\
         (forall i o, In (KIn e i, o) (combine kinds (g_ops g)) -> run1 (g_tensors g) o e i x x') /\
         ((forall i, ~ In (KIn e i) kinds) -> x' = x)) /\
      (forall k e, rd (g_out g) k = Some e -> exists y y', rd ys k = Some y /\ rd ys' k = Some y' /\
         (forall i o, In (KOut e i, o) (combine kinds (g_ops g)) -> run1 (g_tensors g) o i e y' y) /\
         ((forall i, ~ In (KOut e i) kinds) -> y' = y)).
  Proof.
    intros W SS P HE. destruct (strip_struct g sigs kinds W SS P) as (ri & ro & R & HR & HRd & HRr & Hri & Hri0 & Hro & Hro0 & Hrefs & sigs1 & Estrip).
    destruct W as (Wi & Wo & Wops), SS as (Hd & Hdi & Hssa). rewrite Forall_forall in Wi, Wo, Wops.
    assert (Hshape := po_shape g kinds P). rewrite Forall_forall in Hshape. assert (Hlen := po_len g kinds P).
    (* the run *)
    unfold GraphUtil.eval in HE. destruct (Z.eqb_spec (zlen xs) (zlen (g_in g))) as [Hxl|]; [|discriminate].
    set (T := g_tensors g) in *. set (e0 := set_all (consts T) (g_in g) xs) in *.
    destruct (eval_ops T e0 (g_ops g)) as [ef|] eqn:Eops; [|discriminate]. cbn [bind] in HE.
    assert (Hnone : forall i, In i (outs_of (g_ops g)) -> e0 i = None).
    { intros i Hi. destruct (Hssa i Hi) as [H1 H2]. unfold e0. rewrite set_all_out by exact H1. exact H2. }
    destruct (eval_ops_holds T (g_ops g) e0 ef Hd Hnone Eops) as [Hmono Hholds].
    assert (Hx0 : map e0 (g_in g) = map Some xs) by (apply set_all_map; [exact Hdi|unfold zlen in Hxl; lia]).
    assert (HxE : forall k e, rd (g_in g) k = Some e -> exists x, rd xs k = Some x /\ ef e = Some x).
    { intros k e Hk. assert (E : rd (map e0 (g_in g)) k = rd (map Some xs) k) by (rewrite Hx0; reflexivity).
      rewrite !rd_map, Hk in E. destruct (rd xs k) as [x|]; [|discriminate]. cbn in E. injection E as E. exists x. split; [reflexivity|]. apply Hmono, E. }
    assert (HxI : forall e, In e (g_in g) -> exists x, ef e = Some x).
    { intros e He. assert (Hi : In (e0 e) (map Some xs)) by (rewrite <- Hx0; apply in_map; exact He).
      apply in_map_iff in Hi. destruct Hi as (x & E & _). exists x. apply Hmono. symmetry. exact E. }
    assert (Hrun : forall e i o, In (KIn e i, o) (combine kinds (g_ops g)) -> exists x y, ef e = Some x /\ ef i = Some y /\ run1 T o e i x y).
    { intros e i o Ho. specialize (Hshape _ Ho). cbn in Hshape. destruct Hshape as (H1 & H2 & H3 & _). destruct (HxI e H3) as [x Hx].
      destruct (op_holds_run1 T ef o e i x H1 H2) as (y & Hy & Hr); [specialize (Wi e H3); unfold in_range in Wi; lia|exact Hx|apply Hholds; exact (in_combine_r _ _ _ _ Ho)|].
      exists x, y. auto. }
    rewrite Estrip. set (g1 := {| g_tensors := _ |}) in *.
    assert (Hpn : NoDup (flat_map (fun p => o_out (snd p)) (combine kinds (g_ops g)))) by (rewrite combine_outs by exact Hlen; exact Hd).
    assert (HoutR : forall e, In e (g_out g) -> (forall i, ~ In (KOut e i) kinds) -> ~ removed kinds e).
    { intros e He Hk Hx. apply exts_of_In in Hx. destruct Hx as (i & [Hx|Hx]); [|exact (Hk i Hx)]. exact (po_in_not_out g kinds P e i Hx He). }
    (* inputs of the new graph *)
    destruct (all_some_exists ef (map ri (g_in g))) as [xs' Exs'].
    { intros x Hx. apply in_map_iff in Hx. destruct Hx as (e & <- & He). destruct (kin_dec kinds e) as [[i Hi]|Hi].
      - rewrite (Hri e i Hi). destruct (in_combine_ops kinds (g_ops g) _ Hlen Hi) as [o Ho]. destruct (Hrun e i o Ho) as (x & y & _ & Hy & _). exists y. exact Hy.
      - rewrite (Hri0 e Hi). exact (HxI e He). }
    apply all_some_ok in Exs'. set (e1 := set_all (consts T) (map ri (g_in g)) xs').
    assert (He1 : forall i, e1 i = if mem i (map ri (g_in g)) then ef i else consts T i) by (apply set_all_from; exact Exs').
    destruct (sim T (removed kinds) ef kinds (g_ops g) e0 e1 Hlen Hd Hnone Eops) as (e1f & Ee1 & Hle).
    { intros i v Hi Hv. rewrite He1. destruct (mem i (map ri (g_in g))) eqn:Em; [apply Hmono; exact Hv|].
      apply mem_false in Em. unfold e0 in Hv. rewrite set_all_out in Hv; [exact Hv|]. intros Hx. apply Em. apply in_map_iff. exists i. split; [|exact Hx].
      apply Hri0. intros j Hj. apply Hi. apply exts_of_In. exists j. left. exact Hj. }
    { intros x i o Ho. pose proof (Hshape _ Ho) as So. cbn in So. destruct So as (_ & S2 & S3 & _). split; [exact S2|]. rewrite He1.
      replace (mem i (map ri (g_in g))) with true; [reflexivity|]. symmetry. apply mem_In. apply in_map_iff. exists x. split; [|exact S3].
      apply Hri. exact (in_combine_l _ _ _ _ Ho). }
    { intros x i o Ho. pose proof (Hshape _ Ho) as So. cbn in So. split; [apply So|]. apply exts_of_In. exists i. right. exact (in_combine_l _ _ _ _ Ho). }
    { exact (po_kept g kinds P). }
    (* outputs *)
    assert (HyE : forall k e, rd (g_out g) k = Some e -> exists y y' i', rd ys k = Some y /\ ef e = Some y /\ i' = ro e /\ e1f i' = Some y' /\
       (forall i o, In (KOut e i, o) (combine kinds (g_ops g)) -> run1 T o i e y' y) /\ ((forall i, ~ In (KOut e i) kinds) -> y' = y)).
    { intros k e Hk. apply all_some_ok in HE. assert (E : rd (map ef (g_out g)) k = rd (map Some ys) k) by (rewrite HE; reflexivity).
      rewrite !rd_map, Hk in E. destruct (rd ys k) as [y|]; [|discriminate]. cbn in E. injection E as E.
      destruct (kout_dec kinds e) as [[i Hi]|Hi].
      - destruct (in_combine_ops kinds (g_ops g) _ Hlen Hi) as [o Ho]. pose proof (Hshape _ Ho) as So. cbn in So. destruct So as (S1 & S2 & S3 & S4).
        assert (Hh := Hholds o (in_combine_r _ _ _ _ Ho)).
        assert (Hdef : exists z, ef i = Some z).
        { destruct Hh as (ins & touts & vs & E1 & _). rewrite S1 in E1. cbn in E1. unfold arg in E1.
          replace (i =? -1) with false in E1 by (unfold in_range in S4; lia). destruct (rd T i); [|discriminate]. destruct (ef i) as [z|]; [|discriminate]. exists z. reflexivity. }
        destruct Hdef as [z Hz]. destruct (op_holds_run1 T ef o i e z S1 S2) as (y2 & Hy2 & Hr); [unfold in_range in S4; lia|exact Hz|exact Hh|].
        assert (y2 = y) by congruence. subst y2. exists y, z, i. split; [reflexivity|]. split; [exact E|]. split; [symmetry; exact (Hro e i Hi)|].
        split; [apply Hle; [exact (po_int_out g kinds P e i Hi)|exact Hz]|]. split; [|intros Hn; exfalso; exact (Hn i Hi)].
        intros j o2 Ho2. pose proof (Hshape _ Ho2) as So2. cbn in So2. destruct So2 as (_ & T2 & _).
        assert (Ee := nodup_writer _ Hpn _ _ e Ho Ho2). cbn [snd] in Ee. rewrite S2, T2 in Ee. specialize (Ee ltac:(left; reflexivity) ltac:(left; reflexivity)).
        injection Ee as -> ->. exact Hr.
      - exists y, y, e. split; [reflexivity|]. split; [exact E|]. split; [symmetry; exact (Hro0 e Hi)|].
        split; [apply Hle; [|exact E]; exact (HoutR e (rd_in _ _ _ Hk) Hi)|]. split; [|reflexivity].
        intros i o Ho. exfalso. apply (Hi i). exact (in_combine_l _ _ _ _ Ho). }
    destruct (all_some_exists e1f (map ro (g_out g))) as [ys' Eys'].
    { intros x Hx. apply in_map_iff in Hx. destruct Hx as (e & <- & He). apply In_nth_error in He. destruct He as [k Hk].
      destruct (HyE (Z.of_nat k) e) as (y & y' & i' & _ & _ & -> & Hy' & _).
      { unfold rd. rewrite (proj2 (Z.ltb_ge _ _) (Nat2Z.is_nonneg k)), Nat2Z.id. exact Hk. }
      exists y'. exact Hy'. }
    exists xs', ys'. split; [|split; [|split; [|split]]].
    - change (eval (fst (remove_tensors g1 sigs1 R)) xs' = Some ys'). rewrite (remove_tensors_meaning sem g1 sigs1 R xs' HRd HRr Hrefs). unfold GraphUtil.eval. cbn [g_tensors g_in g_out g_ops g1].
      assert (Hl' : length (map ri (g_in g)) = length xs') by (rewrite <- (map_length ef), Exs'; apply map_length).
      replace (zlen xs' =? zlen (map ri (g_in g))) with true by (unfold zlen; rewrite Hl'; lia).
      fold e1. rewrite Ee1. cbn [bind]. exact Eys'.
    - assert (Hl' : length (map ri (g_in g)) = length xs') by (rewrite <- (map_length ef), Exs'; apply map_length).
      rewrite map_length in Hl'. unfold zlen in *. lia.
    - apply all_some_length in Eys'. apply all_some_length in HE. rewrite !map_length in Eys'. rewrite map_length in HE. unfold zlen. f_equal. congruence.
    - intros k e Hk. destruct (HxE k e Hk) as (x & Hx1 & Hx2).
      assert (E : rd (map ef (map ri (g_in g))) k = rd (map Some xs') k) by (rewrite Exs'; reflexivity).
      rewrite !rd_map, Hk in E. destruct (rd xs' k) as [x'|]; [|discriminate]. cbn in E. injection E as E.
      exists x, x'. split; [exact Hx1|]. split; [reflexivity|]. split.
      + intros i o Ho. rewrite (Hri e i (in_combine_l _ _ _ _ Ho)) in E. destruct (Hrun e i o Ho) as (a & b & Ha & Hb & Hr).
        assert (a = x) by congruence. assert (b = x') by congruence. subst. exact Hr.
      + intros Hn. rewrite (Hri0 e Hn) in E. congruence.
    - intros k e Hk. destruct (HyE k e Hk) as (y & y' & i' & Hy & _ & -> & Hy' & Hr & Hn).
      assert (E : rd (map e1f (map ro (g_out g))) k = rd (map Some ys') k) by (apply all_some_ok in Eys'; rewrite Eys'; reflexivity).
      rewrite !rd_map, Hk in E. destruct (rd ys' k) as [z|]; [|discriminate]. cbn in E. rewrite Hy' in E. injection E as E. subst z.
      exists y, y'. auto.
  Qed.
End Strip.
