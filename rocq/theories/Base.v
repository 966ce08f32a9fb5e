(** * Base: option monad with explicit failure, loops, memory, finite sums.

    Nothing here models a particular function of the repository; it is the
    vocabulary in which the model is written.

    - [None] is the distinguished "undefined behaviour / out of bounds" outcome.
    - An array in memory is a list; [rd]/[wr] fail when the index is outside it.
    - A C++ loop [for (int i = lo; i < hi; ++i)] is [for_ lo hi body]. *)
From Coq Require Export List ZArith Lia Bool.
Export ListNotations.
Open Scope Z_scope.

Ltac Zify.zify_post_hook ::= Z.to_euclidean_division_equations.

(** ** Option monad *)
Definition bind {A B} (m : option A) (k : A -> option B) : option B :=
  match m with Some a => k a | None => None end.
Notation "'let*' x ':=' m 'in' k" := (bind m (fun x => k))
  (at level 200, x pattern, m at level 100, k at level 200, right associativity).

(** [wp m Q]: [m] does not fail and its result satisfies [Q]. *)
Definition wp {A} (m : option A) (Q : A -> Prop) : Prop :=
  match m with Some a => Q a | None => False end.

Lemma wp_iff {A} (m : option A) (Q : A -> Prop) :
  wp m Q <-> exists a, m = Some a /\ Q a.
Proof.
  destruct m as [a|]; cbn; split; intros H.
  - exists a; auto.
  - destruct H as (a' & E & H); injection E as <-; exact H.
  - contradiction.
  - destruct H as (a' & E & _); discriminate.
Qed.

Lemma wp_bind {A B} (m : option A) (k : A -> option B) Q :
  wp m (fun a => wp (k a) Q) -> wp (bind m k) Q.
Proof. destruct m; cbn; auto. Qed.

Lemma wp_ret {A} (a : A) (Q : A -> Prop) : Q a -> wp (Some a) Q.
Proof. cbn; auto. Qed.

Lemma wp_mono {A} (m : option A) (P Q : A -> Prop) :
  wp m P -> (forall a, P a -> Q a) -> wp m Q.
Proof. destruct m; cbn; auto. Qed.

Lemma wp_eq {A} (m : option A) (a : A) (Q : A -> Prop) :
  m = Some a -> Q a -> wp m Q.
Proof. intros ->; cbn; auto. Qed.

(** C integer division and remainder: truncating, undefined for divisor 0. *)
Definition cdiv (a b : Z) : option Z := if b =? 0 then None else Some (Z.quot a b).
Definition cmod (a b : Z) : option Z := if b =? 0 then None else Some (Z.rem a b).

Lemma cdiv_nz a b : b <> 0 -> cdiv a b = Some (Z.quot a b).
Proof. unfold cdiv; intros H; destruct (Z.eqb_spec b 0); [contradiction|reflexivity]. Qed.

(** ** Loops *)
Section Loops.
  Context {S : Type}.
  Fixpoint forn (n : nat) (i : Z) (body : Z -> S -> option S) (s : S) : option S :=
    match n with
    | O => Some s
    | Datatypes.S n' => let* s' := body i s in forn n' (i + 1) body s'
    end.
  (** [for (int i = lo; i < hi; ++i) s = body(i, s)] *)
  Definition for_ (lo hi : Z) (body : Z -> S -> option S) (s : S) : option S :=
    forn (Z.to_nat (hi - lo)) lo body s.

  Lemma forn_wp (I : Z -> S -> Prop) body n : forall i s,
    I i s ->
    (forall j t, i <= j < i + Z.of_nat n -> I j t -> wp (body j t) (I (j + 1))) ->
    wp (forn n i body s) (I (i + Z.of_nat n)).
  Proof.
    induction n as [|n IH]; intros i s H0 Hs.
    - cbn [forn]. rewrite Nat2Z.inj_0, Z.add_0_r. exact H0.
    - cbn [forn]. apply wp_bind. eapply wp_mono; [apply Hs; [lia|exact H0]|].
      intros t Ht.
      replace (i + Z.of_nat (Datatypes.S n)) with (i + 1 + Z.of_nat n) by lia.
      apply IH; [exact Ht|]. intros j u Hj Hu. apply Hs; [lia|exact Hu].
  Qed.

  Lemma for_wp (I : Z -> S -> Prop) lo hi body s (Q : S -> Prop) :
    I lo s ->
    (forall i t, lo <= i < hi -> I i t -> wp (body i t) (I (i + 1))) ->
    (forall t, I (Z.max lo hi) t -> Q t) ->
    wp (for_ lo hi body s) Q.
  Proof.
    intros H0 Hs HQ. unfold for_. eapply wp_mono.
    - apply (forn_wp I); [exact H0|]. intros j t Hj Ht. apply Hs; [lia|exact Ht].
    - intros t Ht. apply HQ. replace (Z.max lo hi) with (lo + Z.of_nat (Z.to_nat (hi - lo))) by lia.
      exact Ht.
  Qed.

  Lemma for_empty lo hi body s : hi <= lo -> for_ lo hi body s = Some s.
  Proof. intros H. unfold for_. replace (Z.to_nat (hi - lo)) with O by lia. reflexivity. Qed.

  Lemma for_ext lo hi b1 b2 s :
    (forall i t, lo <= i < hi -> b1 i t = b2 i t) ->
    for_ lo hi b1 s = for_ lo hi b2 s.
  Proof.
    unfold for_. intros H.
    assert (G : forall n i t, (forall j u, i <= j < i + Z.of_nat n -> b1 j u = b2 j u) ->
              forn n i b1 t = forn n i b2 t).
    { induction n as [|n IH]; intros i t Hn; [reflexivity|].
      cbn [forn]. rewrite (Hn i t) by lia. destruct (b2 i t) as [u|]; cbn; [|reflexivity].
      apply IH. intros; apply Hn; lia. }
    apply G. intros j u Hj; apply H; lia.
  Qed.

  (** [while (cond(s)) s = body(s)] with explicit fuel; exhaustion is [None]. *)
  Fixpoint while_ (fuel : nat) (cond : S -> bool) (body : S -> option S) (s : S)
    : option S :=
    match fuel with
    | O => None
    | Datatypes.S fuel' =>
        if cond s then let* s' := body s in while_ fuel' cond body s' else Some s
    end.

  Lemma while_wp (I : S -> Prop) (mu : S -> Z) cond body (Q : S -> Prop) :
    (forall s, I s -> 0 <= mu s) ->
    (forall s, I s -> cond s = true ->
       wp (body s) (fun s' => I s' /\ mu s' < mu s)) ->
    (forall s, I s -> cond s = false -> Q s) ->
    forall fuel s, I s -> mu s < Z.of_nat fuel ->
    wp (while_ fuel cond body s) Q.
  Proof.
    intros Hp Hs HQ. induction fuel as [|fuel IH]; intros s HI Hmu.
    - specialize (Hp s HI). lia.
    - cbn [while_]. destruct (cond s) eqn:E.
      + apply wp_bind. eapply wp_mono; [exact (Hs s HI E)|].
        intros s' [HI' Hlt]. apply IH; [exact HI'|lia].
      + apply HQ; auto.
  Qed.
End Loops.

(** [for (int i = lo; i < hi; i += step)], for [step > 0]: the number of
    iterations is ceil((hi-lo)/step). *)
Definition for_step {S} (lo hi step : Z) (body : Z -> S -> option S) (s : S) : option S :=
  for_ 0 ((hi - lo + step - 1) / step) (fun k s => body (lo + k * step) s) s.

(** ** Memory *)
Definition zlen {A} (m : list A) : Z := Z.of_nat (length m).

Definition rd {A} (m : list A) (i : Z) : option A :=
  if i <? 0 then None else nth_error m (Z.to_nat i).

Fixpoint upd_nat {A} (m : list A) (i : nat) (v : A) : list A :=
  match m, i with
  | [], _ => []
  | _ :: t, O => v :: t
  | h :: t, S i' => h :: upd_nat t i' v
  end.

Definition wr {A} (m : list A) (i : Z) (v : A) : option (list A) :=
  if (0 <=? i) && (i <? zlen m) then Some (upd_nat m (Z.to_nat i) v) else None.

Section Mem.
  Context {A : Type}.
  Implicit Types m : list A.

  Lemma length_upd_nat m i v : length (upd_nat m i v) = length m.
  Proof. revert i; induction m as [|h t IH]; intros [|i]; cbn; auto. Qed.

  Lemma zlen_nonneg m : 0 <= zlen m.
  Proof. unfold zlen; lia. Qed.

  Lemma nth_error_upd_nat_same m i v :
    (i < length m)%nat -> nth_error (upd_nat m i v) i = Some v.
  Proof.
    revert i; induction m as [|h t IH]; intros [|i] H; cbn in *; try lia; auto.
    apply IH; lia.
  Qed.

  Lemma nth_error_upd_nat_other m i j v :
    i <> j -> nth_error (upd_nat m i v) j = nth_error m j.
  Proof.
    revert i j; induction m as [|h t IH]; intros [|i] [|j] H; cbn; auto; try lia.
  Qed.

  Lemma rd_bounds m i v : rd m i = Some v -> 0 <= i < zlen m.
  Proof.
    unfold rd, zlen. destruct (Z.ltb_spec i 0); [discriminate|]. intros H1.
    assert (nth_error m (Z.to_nat i) <> None) by congruence.
    apply nth_error_Some in H0. lia.
  Qed.

  Lemma rd_some m i : 0 <= i < zlen m -> exists v, rd m i = Some v.
  Proof.
    unfold rd, zlen. intros H. destruct (Z.ltb_spec i 0); [lia|].
    destruct (nth_error m (Z.to_nat i)) eqn:E; [eauto|].
    apply nth_error_None in E. lia.
  Qed.

  Lemma rd_none m i : ~ 0 <= i < zlen m -> rd m i = None.
  Proof.
    unfold rd, zlen. intros H. destruct (Z.ltb_spec i 0); [reflexivity|].
    apply nth_error_None. lia.
  Qed.

  Lemma wr_some m i v : 0 <= i < zlen m -> wr m i v = Some (upd_nat m (Z.to_nat i) v).
  Proof.
    intros H. unfold wr. replace ((0 <=? i) && (i <? zlen m)) with true by lia. reflexivity.
  Qed.

  Lemma wr_wp m i v (Q : list A -> Prop) :
    0 <= i < zlen m ->
    (forall m', zlen m' = zlen m -> rd m' i = Some v ->
       (forall j, j <> i -> rd m' j = rd m j) -> Q m') ->
    wp (wr m i v) Q.
  Proof.
    intros H HQ. rewrite wr_some by exact H. cbn. apply HQ.
    - unfold zlen. rewrite length_upd_nat. reflexivity.
    - unfold rd, zlen in *. destruct (Z.ltb_spec i 0); [lia|].
      apply nth_error_upd_nat_same. lia.
    - intros j Hj. unfold rd. destruct (Z.ltb_spec j 0); [reflexivity|].
      apply nth_error_upd_nat_other. lia.
  Qed.

  Lemma rd_wp m i (Q : A -> Prop) :
    0 <= i < zlen m -> (forall v, rd m i = Some v -> Q v) -> wp (rd m i) Q.
  Proof. intros H HQ. destruct (rd_some m i H) as [v E]. rewrite E. cbn. auto. Qed.

  (** Two arrays that agree at every index are equal. *)
  Lemma rd_ext m1 m2 :
    zlen m1 = zlen m2 -> (forall i, 0 <= i < zlen m1 -> rd m1 i = rd m2 i) -> m1 = m2.
  Proof.
    unfold zlen. intros Hl H.
    assert (E : forall i, nth_error m1 i = nth_error m2 i);
      [|clear Hl H; revert m2 E; induction m1 as [|a m1 IH]; intros [|b m2] E; auto;
        [specialize (E O); discriminate|specialize (E O); discriminate|];
        f_equal; [specialize (E O); injection E; auto|apply IH; intros i; apply (E (S i))]].
    intros i.
    destruct (Nat.lt_ge_cases i (length m1)) as [Hi|Hi].
    - specialize (H (Z.of_nat i) ltac:(lia)). unfold rd in H.
      destruct (Z.ltb_spec (Z.of_nat i) 0); [lia|]. rewrite Nat2Z.id in H. exact H.
    - rewrite (proj2 (nth_error_None m1 i)) by lia.
      symmetry. apply nth_error_None. lia.
  Qed.

  Lemma rd_repeat (v : A) n i : 0 <= i < Z.of_nat n -> rd (repeat v n) i = Some v.
  Proof.
    intros H. unfold rd. destruct (Z.ltb_spec i 0); [lia|].
    rewrite nth_error_repeat by lia. reflexivity.
  Qed.

  Lemma zlen_repeat (v : A) n : zlen (repeat v n) = Z.of_nat n.
  Proof. unfold zlen. rewrite repeat_length. reflexivity. Qed.

  Lemma zlen_app m1 m2 : zlen (m1 ++ m2) = zlen m1 + zlen m2.
  Proof. unfold zlen. rewrite app_length. lia. Qed.

  Lemma rd_app_l m1 m2 i : i < zlen m1 -> rd (m1 ++ m2) i = rd m1 i.
  Proof.
    intros H. unfold rd, zlen in *. destruct (Z.ltb_spec i 0); [reflexivity|].
    apply nth_error_app1. lia.
  Qed.

  Lemma rd_app_r m1 m2 i : zlen m1 <= i -> rd (m1 ++ m2) i = rd m2 (i - zlen m1).
  Proof.
    intros H. unfold rd, zlen in *. destruct (Z.ltb_spec i 0); [lia|].
    destruct (Z.ltb_spec (i - Z.of_nat (length m1)) 0); [lia|].
    rewrite nth_error_app2 by lia. f_equal. lia.
  Qed.
End Mem.

Lemma rd_map {A B} (f : A -> B) m i : rd (map f m) i = option_map f (rd m i).
Proof.
  unfold rd. destruct (i <? 0); [reflexivity|].
  revert m; induction (Z.to_nat i) as [|n IH]; intros [|h t]; cbn; auto.
Qed.
Lemma zlen_map {A B} (f : A -> B) m : zlen (map f m) = zlen m.
Proof. unfold zlen. rewrite map_length. reflexivity. Qed.

(** [build n f] is the array [f 0; ...; f (n-1)]. *)
Definition build {A} (n : Z) (f : Z -> A) : list A :=
  map (fun k => f (Z.of_nat k)) (seq 0 (Z.to_nat n)).
Lemma zlen_build {A} n (f : Z -> A) : 0 <= n -> zlen (build n f) = n.
Proof. intros H. unfold zlen, build. rewrite map_length, seq_length. lia. Qed.
Lemma rd_build {A} n (f : Z -> A) i : 0 <= i < n -> rd (build n f) i = Some (f i).
Proof.
  intros H. unfold rd, build. destruct (Z.ltb_spec i 0); [lia|].
  rewrite nth_error_map, nth_error_nth' with (d := O) by (rewrite seq_length; lia).
  rewrite seq_nth by lia. cbn. f_equal. f_equal. lia.
Qed.

(** ** Finite sums *)
Fixpoint sumn (n : nat) (f : Z -> Z) : Z :=
  match n with O => 0 | S n' => sumn n' f + f (Z.of_nat n') end.
(** [sum_ n f] = f 0 + ... + f (n-1). *)
Definition sum_ (n : Z) (f : Z -> Z) : Z := sumn (Z.to_nat n) f.

Lemma sum_0 n f : n <= 0 -> sum_ n f = 0.
Proof. intros H. unfold sum_. replace (Z.to_nat n) with O by lia. reflexivity. Qed.
Lemma sum_succ n f : 0 <= n -> sum_ (n + 1) f = sum_ n f + f n.
Proof.
  intros H. unfold sum_. replace (Z.to_nat (n + 1)) with (S (Z.to_nat n)) by lia.
  cbn [sumn]. f_equal. f_equal. lia.
Qed.

Lemma sum_ind (P : Z -> Prop) n :
  0 <= n -> P 0 -> (forall k, 0 <= k < n -> P k -> P (k + 1)) -> P n.
Proof.
  intros Hn H0 Hs.
  assert (G : forall k : nat, Z.of_nat k <= n -> P (Z.of_nat k)).
  { induction k as [|k IH]; intros Hk; [exact H0|].
    replace (Z.of_nat (S k)) with (Z.of_nat k + 1) by lia.
    apply Hs; [lia|]. apply IH; lia. }
  replace n with (Z.of_nat (Z.to_nat n)) by lia. apply G. lia.
Qed.

Lemma sum_ext n f g : (forall i, 0 <= i < n -> f i = g i) -> sum_ n f = sum_ n g.
Proof.
  intros H. destruct (Z.le_gt_cases n 0) as [Hn|Hn]; [rewrite !sum_0 by lia; reflexivity|].
  apply (sum_ind (fun k => sum_ k f = sum_ k g)); [lia|reflexivity|].
  intros k Hk IH. rewrite !sum_succ, IH, H by lia. reflexivity.
Qed.
Lemma sum_plus n f g : sum_ n (fun i => f i + g i) = sum_ n f + sum_ n g.
Proof.
  destruct (Z.le_gt_cases n 0) as [Hn|Hn]; [rewrite !sum_0 by lia; reflexivity|].
  apply (sum_ind (fun k => sum_ k (fun i => f i + g i) = sum_ k f + sum_ k g)); [lia|reflexivity|].
  intros k Hk IH. rewrite !sum_succ, IH by lia. lia.
Qed.
Lemma sum_scale n c f : sum_ n (fun i => c * f i) = c * sum_ n f.
Proof.
  destruct (Z.le_gt_cases n 0) as [Hn|Hn]; [rewrite !sum_0 by lia; lia|].
  apply (sum_ind (fun k => sum_ k (fun i => c * f i) = c * sum_ k f)); [lia|rewrite !sum_0 by lia; lia|].
  intros k Hk IH. rewrite !sum_succ, IH by lia. lia.
Qed.
Lemma sum_const n c : 0 <= n -> sum_ n (fun _ => c) = n * c.
Proof.
  intros Hn. apply (sum_ind (fun k => sum_ k (fun _ => c) = k * c)); [lia|reflexivity|].
  intros k Hk IH. rewrite sum_succ, IH by lia. lia.
Qed.
Lemma sum_zero n f : (forall i, 0 <= i < n -> f i = 0) -> sum_ n f = 0.
Proof.
  intros H. destruct (Z.le_gt_cases n 0) as [Hn|Hn]; [apply sum_0; lia|].
  rewrite (sum_ext n f (fun _ => 0)) by exact H. rewrite sum_const by lia. lia.
Qed.
Lemma sum_split n m f : 0 <= n -> 0 <= m ->
  sum_ (n + m) f = sum_ n f + sum_ m (fun i => f (n + i)).
Proof.
  intros Hn Hm.
  apply (sum_ind (fun k => sum_ (n + k) f = sum_ n f + sum_ k (fun i => f (n + i)))); [lia| |].
  - rewrite Z.add_0_r, (sum_0 0) by lia. lia.
  - intros k Hk IH. rewrite Z.add_assoc, !sum_succ, IH by lia. lia.
Qed.
(** Sum over a flattened index. *)
Lemma sum_flat n m f : 0 <= n -> 0 <= m ->
  sum_ (n * m) f = sum_ n (fun i => sum_ m (fun j => f (i * m + j))).
Proof.
  intros Hn Hm.
  apply (sum_ind (fun k => sum_ (k * m) f = sum_ k (fun i => sum_ m (fun j => f (i * m + j)))));
    [lia|rewrite !sum_0 by lia; reflexivity|].
  intros k Hk IH. rewrite sum_succ by lia.
  replace ((k + 1) * m) with (k * m + m) by lia. rewrite sum_split, IH by nia.
  reflexivity.
Qed.
Lemma sum_mono n f g : (forall i, 0 <= i < n -> f i <= g i) -> sum_ n f <= sum_ n g.
Proof.
  intros H. destruct (Z.le_gt_cases n 0) as [Hn|Hn]; [rewrite !sum_0 by lia; lia|].
  apply (sum_ind (fun k => sum_ k f <= sum_ k g)); [lia|rewrite !sum_0 by lia; lia|].
  intros k Hk IH. rewrite !sum_succ by lia. specialize (H k Hk). lia.
Qed.
Lemma sum_nonneg n f : (forall i, 0 <= i < n -> 0 <= f i) -> 0 <= sum_ n f.
Proof.
  intros H. destruct (Z.le_gt_cases n 0) as [Hn|Hn]; [rewrite !sum_0 by lia; lia|].
  rewrite <- (sum_zero n (fun _ => 0)) by auto. apply sum_mono. auto.
Qed.
Lemma sum_swap n m f :
  sum_ n (fun i => sum_ m (fun j => f i j)) = sum_ m (fun j => sum_ n (fun i => f i j)).
Proof.
  destruct (Z.le_gt_cases n 0) as [Hn|Hn].
  { rewrite (sum_0 n) by lia. rewrite sum_zero; [reflexivity|]. intros; apply sum_0; lia. }
  apply (sum_ind (fun k => sum_ k (fun i => sum_ m (fun j => f i j))
                         = sum_ m (fun j => sum_ k (fun i => f i j)))); [lia| |].
  - rewrite sum_0 by lia. rewrite sum_zero; [reflexivity|]. intros; apply sum_0; lia.
  - intros k Hk IH. rewrite sum_succ, IH by lia. rewrite <- sum_plus.
    apply sum_ext. intros. rewrite sum_succ by lia. reflexivity.
Qed.
Lemma sum_opp n f : sum_ n (fun i => - f i) = - sum_ n f.
Proof.
  rewrite (sum_ext n (fun i => - f i) (fun i => (-1) * f i)) by (intros; lia).
  rewrite sum_scale. lia.
Qed.
Lemma sum_minus n f g : sum_ n (fun i => f i - g i) = sum_ n f - sum_ n g.
Proof.
  rewrite (sum_ext n (fun i => f i - g i) (fun i => f i + - g i)) by (intros; lia).
  rewrite sum_plus, sum_opp. lia.
Qed.
(** Extending a sum with zero terms. *)
Lemma sum_extend n m f : 0 <= n <= m -> (forall i, n <= i < m -> f i = 0) ->
  sum_ m f = sum_ n f.
Proof.
  intros H Hz. replace m with (n + (m - n)) by lia. rewrite sum_split by lia.
  rewrite (sum_zero (m - n)); [lia|]. intros; apply Hz; lia.
Qed.

(** An accumulation loop computes a sum. *)
Lemma for_sum lo hi (f : Z -> Z) (body : Z -> Z -> option Z) a (Q : Z -> Prop) :
  lo <= hi ->
  (forall i acc, lo <= i < hi -> body i acc = Some (acc + f (i - lo))) ->
  Q (a + sum_ (hi - lo) f) ->
  wp (for_ lo hi body a) Q.
Proof.
  intros Hl Hb HQ.
  apply (for_wp (fun i acc => acc = a + sum_ (i - lo) f)).
  - rewrite Z.sub_diag, sum_0 by lia. lia.
  - intros i t Hi ->. rewrite Hb by exact Hi. cbn.
    replace (i + 1 - lo) with (i - lo + 1) by lia. rewrite sum_succ by lia. lia.
  - intros t ->. rewrite Z.max_r by lia. exact HQ.
Qed.

Lemma for_sum_eq hi (f : Z -> Z) (body : Z -> Z -> option Z) a :
  0 <= hi ->
  (forall i acc, 0 <= i < hi -> body i acc = Some (acc + f i)) ->
  for_ 0 hi body a = Some (a + sum_ hi f).
Proof.
  intros Hl Hb.
  assert (H : wp (for_ 0 hi body a) (fun r => r = a + sum_ hi f)).
  { apply (for_sum 0 hi f); [exact Hl| |rewrite Z.sub_0_r; reflexivity].
    intros. rewrite Z.sub_0_r. apply Hb; assumption. }
  apply wp_iff in H. destruct H as (r & -> & ->). reflexivity.
Qed.

(** ** C arithmetic helpers shared by many functions *)
(** core/types.h 94-102: CeilDiv, Ceil (non-negative operands, divisor > 0). *)
Definition CeilDiv (a b : Z) : Z := Z.quot (a + b - 1) b.
Definition Ceil (a b : Z) : Z := CeilDiv a b * b.

Lemma rd_in {A} (m : list A) i v : rd m i = Some v -> In v m.
Proof. unfold rd. destruct (i <? 0); [discriminate|]. apply nth_error_In. Qed.
