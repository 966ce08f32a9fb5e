(** * A64Lemmas: lanes, the popcount trees, loads, and running code. *)
From Verif Require Import Base Spec Bits Log Bgemm A64 A64Bgemm.
Open Scope Z_scope.

(** ** Bytes and lanes *)
Lemma le_split_length k : forall z, length (le_split k z) = k.
Proof. induction k as [|k IH]; intros z; cbn [le_split length]; [reflexivity|]. rewrite IH. reflexivity. Qed.
Lemma pow256 k : 2 ^ (8 * Z.of_nat (Datatypes.S k)) = 256 * 2 ^ (8 * Z.of_nat k).
Proof. replace (8 * Z.of_nat (Datatypes.S k)) with (8 + 8 * Z.of_nat k) by lia. rewrite Z.pow_add_r by lia. reflexivity. Qed.
Lemma le_join_split k : forall z, le_join (le_split k z) = z mod 2 ^ (8 * Z.of_nat k).
Proof.
  induction k as [|k IH]; intros z; cbn [le_split le_join].
  - cbn. rewrite Z.mod_1_r. reflexivity.
  - rewrite IH, pow256. assert (0 < 2 ^ (8 * Z.of_nat k)) by (apply Z.pow_pos_nonneg; lia).
    rewrite Z.rem_mul_r by lia. reflexivity.
Qed.
Lemma le_split_mod k : forall z, le_split k (z mod 2 ^ (8 * Z.of_nat k)) = le_split k z.
Proof.
  induction k as [|k IH]; intros z; [reflexivity|]. cbn [le_split]. rewrite pow256.
  assert (0 < 2 ^ (8 * Z.of_nat k)) by (apply Z.pow_pos_nonneg; lia).
  rewrite Z.rem_mul_r by lia. f_equal.
  - rewrite (Z.mul_comm 256), Z.mod_add, Z.mod_mod by lia. reflexivity.
  - rewrite (Z.mul_comm 256), Z.div_add by lia. rewrite (Z.div_small (z mod 256)) by (apply Z.mod_pos_bound; lia).
    rewrite Z.add_0_l. apply IH.
Qed.
Lemma le_split_cong k a b : a mod 2 ^ (8 * Z.of_nat k) = b mod 2 ^ (8 * Z.of_nat k) -> le_split k a = le_split k b.
Proof. intros H. rewrite <- (le_split_mod k a), <- (le_split_mod k b), H. reflexivity. Qed.
Lemma vec_length k ls : length (vec k ls) = (k * length ls)%nat.
Proof. induction ls as [|x ls IH]; cbn; [lia|]. rewrite app_length, le_split_length. unfold vec in IH. rewrite IH. lia. Qed.
Lemma firstn_app_len {A} (a b : list A) n : length a = n -> firstn n (a ++ b) = a.
Proof. intros <-. rewrite firstn_app, Nat.sub_diag, firstn_all. cbn. apply app_nil_r. Qed.
Lemma skipn_app_len {A} (a b : list A) n : length a = n -> skipn n (a ++ b) = b.
Proof. intros <-. rewrite skipn_app, Nat.sub_diag, skipn_all. reflexivity. Qed.
Lemma chunks_vec k ls : chunks k (length ls) (vec k ls) = map (le_split k) ls.
Proof.
  induction ls as [|x ls IH]; [reflexivity|]. cbn [length chunks map].
  change (vec k (x :: ls)) with (le_split k x ++ vec k ls).
  rewrite firstn_app_len, skipn_app_len by apply le_split_length. rewrite IH. reflexivity.
Qed.
Lemma lanes_vec k ls : (0 < k)%nat -> lanes k (vec k ls) = map (fun z => z mod 2 ^ (8 * Z.of_nat k)) ls.
Proof.
  intros Hk. unfold lanes. rewrite vec_length, Nat.mul_comm, Nat.div_mul by lia. rewrite chunks_vec, map_map.
  apply map_ext. intros z. apply le_join_split.
Qed.
Lemma vec_app k a b : vec k (a ++ b) = vec k a ++ vec k b.
Proof. apply flat_map_app. Qed.
Lemma lanes2 ls : lanes 2 (vec 2 ls) = map (fun z => z mod 65536) ls.
Proof. apply (lanes_vec 2). lia. Qed.
Lemma lanes4 ls : lanes 4 (vec 4 ls) = map (fun z => z mod 2 ^ 32) ls.
Proof. apply (lanes_vec 4). lia. Qed.
Lemma map_mod_id m l : Forall (fun x => 0 <= x < m) l -> map (fun x => x mod m) l = l.
Proof. induction 1 as [|x l Hx _ IH]; [reflexivity|]. cbn [map]. rewrite IH, Z.mod_small by exact Hx. reflexivity. Qed.
(** [vec] only depends on the lanes modulo their size. *)
Lemma vec_cong k a b : Forall2 (fun x y => x mod 2 ^ (8 * Z.of_nat k) = y mod 2 ^ (8 * Z.of_nat k)) a b -> vec k a = vec k b.
Proof. induction 1 as [|x y a b H _ IH]; [reflexivity|]. cbn. unfold vec in IH. rewrite IH, (le_split_cong k x y H). reflexivity. Qed.
Lemma vec_add k a b : vec k (zipw Z.add (map (fun z => z mod 2 ^ (8 * Z.of_nat k)) a) b) = vec k (zipw Z.add a b).
Proof.
  apply vec_cong. assert (P : 2 ^ (8 * Z.of_nat k) <> 0) by (apply Z.pow_nonzero; lia). revert P.
  generalize (2 ^ (8 * Z.of_nat k)) as m. intros m P.
  revert b. induction a as [|x a IH]; intros [|y b]; cbn [map zipw]; constructor; auto.
  apply Z.add_mod_idemp_l, P.
Qed.

(** ** Popcounts *)
Lemma testbit_mod256 z i : 0 <= i < 8 -> Z.testbit (z mod 256) i = Z.testbit z i.
Proof. intros H. change 256 with (2 ^ 8). apply Z.mod_pow2_bits_low. lia. Qed.
Lemma popcount8_byte z : popcount8 (z mod 256) = sum_ 8 (fun i => Z.b2z (Z.testbit z i)).
Proof. apply sum_ext. intros i Hi. rewrite testbit_mod256 by lia. reflexivity. Qed.
Lemma popcount_bytes w :
  popcount8 (w mod 256) + popcount8 (w / 256 mod 256) + (popcount8 (w / 256 / 256 mod 256) + popcount8 (w / 256 / 256 / 256 mod 256))
  = popcount32 w.
Proof.
  rewrite !popcount8_byte. unfold popcount32.
  change 32 with (8 + (8 + (8 + 8))). rewrite (sum_split 8 (8 + (8 + 8))), (sum_split 8 (8 + 8)), (sum_split 8 8) by lia.
  assert (D : forall z i, 0 <= i -> Z.testbit (z / 256) i = Z.testbit z (8 + i)).
  { intros z i Hi. change 256 with (2 ^ 8). rewrite Z.div_pow2_bits by lia. f_equal. lia. }
  assert (E1 : forall z, sum_ 8 (fun i => Z.b2z (Z.testbit (z / 256) i)) = sum_ 8 (fun i => Z.b2z (Z.testbit z (8 + i)))).
  { intros z. apply sum_ext. intros i Hi. rewrite D by lia. reflexivity. }
  rewrite !E1.
  rewrite (sum_ext 8 (fun i => Z.b2z (Z.testbit (w / 256) (8 + i))) (fun i => Z.b2z (Z.testbit w (8 + (8 + i))))).
  2:{ intros i Hi. rewrite D by lia. reflexivity. }
  rewrite (sum_ext 8 (fun i => Z.b2z (Z.testbit (w / 256 / 256) (8 + i))) (fun i => Z.b2z (Z.testbit w (8 + (8 + (8 + i)))))).
  2:{ intros i Hi. rewrite !D by lia. reflexivity. }
  ring.
Qed.
Lemma popcount8_bounds b : 0 <= popcount8 b <= 8.
Proof.
  unfold popcount8. split; [apply sum_nonneg; intros; destruct (Z.testbit b i); cbn; lia|].
  replace 8 with (sum_ 8 (fun _ => 1)) at 2 by (rewrite sum_const by lia; lia).
  apply sum_mono. intros i _. destruct (Z.testbit b i); cbn; lia.
Qed.
Lemma lxor_mod a b : Z.lxor a b mod 256 = Z.lxor (a mod 256) (b mod 256).
Proof.
  apply Z.bits_inj'. intros n Hn. rewrite Z.lxor_spec. change 256 with (2 ^ 8).
  destruct (Z.lt_ge_cases n 8).
  - rewrite !Z.mod_pow2_bits_low, Z.lxor_spec by lia. reflexivity.
  - rewrite !Z.mod_pow2_bits_high by lia. reflexivity.
Qed.
Lemma lxor_div a b : Z.lxor a b / 256 = Z.lxor (a / 256) (b / 256).
Proof. change 256 with (2 ^ 8). rewrite <- !Z.shiftr_div_pow2 by lia. apply Z.shiftr_lxor. Qed.
Lemma le_split_lxor k : forall a b, zipw Z.lxor (le_split k a) (le_split k b) = le_split k (Z.lxor a b).
Proof.
  induction k as [|k IH]; intros a b; [reflexivity|]. cbn [le_split zipw]. rewrite IH, lxor_mod, lxor_div. reflexivity.
Qed.
Lemma zipw_app {A B C} (f : A -> B -> C) a a' b b' : length a = length b ->
  zipw f (a ++ a') (b ++ b') = zipw f a b ++ zipw f a' b'.
Proof. revert b. induction a as [|x a IH]; intros [|y b] H; cbn in *; try discriminate; [reflexivity|]. rewrite IH by lia. reflexivity. Qed.
Lemma v_eor_vec k a : forall b, v_eor (vec k a) (vec k b) = vec k (zipw Z.lxor a b).
Proof.
  unfold v_eor. induction a as [|x a IH]; intros [|y b]; cbn [zipw vec flat_map]; try reflexivity.
  - destruct (le_split k x ++ _); reflexivity.
  - rewrite zipw_app by (rewrite !le_split_length; reflexivity). rewrite le_split_lxor. unfold vec in IH. rewrite IH. reflexivity.
Qed.

Lemma pairs_app a b : Nat.Even (length a) -> pairs (a ++ b) = pairs a ++ pairs b.
Proof.
  intros [n Hn]. revert a Hn. induction n as [|n IH]; intros a Hn.
  - destruct a; [reflexivity|discriminate].
  - destruct a as [|x [|y a]]; cbn in Hn; try lia. cbn [app pairs]. rewrite IH by lia. reflexivity.
Qed.
Lemma list_ind2 {A} (P : list A -> Prop) : P [] -> (forall x, P [x]) -> (forall x y l, P l -> P (x :: y :: l)) -> forall l, P l.
Proof. intros H0 H1 H2. fix IH 1. intros [|x [|y l]]; [exact H0|apply H1|]. apply H2, IH. Qed.
Lemma pairs_bound m : forall a, Forall (fun x => 0 <= x <= m) a -> Forall (fun x => 0 <= x <= 2 * m) (pairs a).
Proof.
  apply (list_ind2 (fun a => Forall (fun x => 0 <= x <= m) a -> Forall (fun x => 0 <= x <= 2 * m) (pairs a))).
  - intros _. constructor.
  - intros x _. constructor.
  - intros x y l IH H. cbn [pairs]. apply Forall_cons_iff in H. destruct H as [Hx H]. apply Forall_cons_iff in H. destruct H as [Hy H].
    constructor; [lia|auto].
Qed.
Lemma cnt_bound v : Forall (fun x => 0 <= x <= 8) (v_cnt v).
Proof. unfold v_cnt. apply Forall_forall. intros x Hx. apply in_map_iff in Hx. destruct Hx as (b & <- & _). apply popcount8_bounds. Qed.
Lemma cnt_length v : length (v_cnt v) = length v.
Proof. apply map_length. Qed.
(** The 32-bit popcounts are the sums of four byte counts. *)
Lemma pairs_cnt ws : pairs (pairs (v_cnt (vec 4 ws))) = map popcount32 ws.
Proof.
  induction ws as [|w ws IH]; [reflexivity|].
  change (vec 4 (w :: ws)) with (le_split 4 w ++ vec 4 ws). unfold v_cnt. rewrite map_app.
  cbn [le_split map app pairs]. rewrite popcount_bytes. f_equal. exact IH.
Qed.
Lemma addp_noov m a b : 2 * m < 256 -> Forall (fun x => 0 <= x <= m) a -> Forall (fun x => 0 <= x <= m) b -> Nat.Even (length a) ->
  v_addp a b = pairs a ++ pairs b.
Proof.
  intros Hm Ha Hb He. unfold v_addp. rewrite pairs_app by exact He. apply map_mod_id.
  apply Forall_app. split; [apply pairs_bound in Ha|apply pairs_bound in Hb]; eapply Forall_impl; [|exact Ha| |exact Hb]; cbv beta; intros; lia.
Qed.
Lemma pairs_length a : length (pairs a) = (length a / 2)%nat.
Proof.
  revert a. apply list_ind2; [reflexivity|reflexivity|]. intros x y l IH. cbn [pairs length]. rewrite IH.
  replace (Datatypes.S (Datatypes.S (length l))) with (length l + 1 * 2)%nat by lia. rewrite Nat.div_add by lia. lia.
Qed.
Lemma even_len {A} (l : list A) n : length l = (2 * n)%nat -> Nat.Even (length l).
Proof. intros H. exists n. exact H. Qed.

(** addp(addp(cnt a, cnt b), addp(cnt c, cnt d)): sixteen word popcounts. *)
Lemma addp_tree a b c d : length a = 4%nat -> length b = 4%nat -> length c = 4%nat -> length d = 4%nat ->
  v_addp (v_addp (v_cnt (vec 4 a)) (v_cnt (vec 4 b))) (v_addp (v_cnt (vec 4 c)) (v_cnt (vec 4 d)))
  = map popcount32 (a ++ b ++ c ++ d).
Proof.
  intros La Lb Lc Ld.
  assert (C : forall x : list Z, length x = 4%nat -> length (v_cnt (vec 4 x)) = 16%nat).
  { intros x Hx. rewrite cnt_length, vec_length, Hx. reflexivity. }
  assert (A1 : forall x y : list Z, length x = 4%nat -> v_addp (v_cnt (vec 4 x)) (v_cnt (vec 4 y)) = pairs (v_cnt (vec 4 x)) ++ pairs (v_cnt (vec 4 y))).
  { intros x y Hx. apply (addp_noov 8); [lia|apply cnt_bound|apply cnt_bound|]. apply (even_len _ 8). apply C, Hx. }
  rewrite !A1 by assumption.
  assert (Bd : forall x : list Z, Forall (fun t => 0 <= t <= 16) (pairs (v_cnt (vec 4 x)))).
  { intros x. apply (pairs_bound 8), cnt_bound. }
  assert (PL : forall x : list Z, length x = 4%nat -> length (pairs (v_cnt (vec 4 x))) = 8%nat).
  { intros x Hx. rewrite pairs_length, C by assumption. reflexivity. }
  rewrite (addp_noov 16); [|lia|apply Forall_app; auto|apply Forall_app; auto|].
  2:{ apply (even_len _ 8). rewrite app_length, !PL by assumption. reflexivity. }
  rewrite !pairs_app by (apply (even_len _ 4); apply PL; assumption).
  rewrite !pairs_cnt, !map_app, <- !app_assoc. reflexivity.
Qed.
Definition sumz (l : list Z) : Z := fold_right Z.add 0 l.
(** Popcount of the differing bits of two registers. *)
Definition bp (r l : list Z) : Z := sumz (map popcount32 (zipw Z.lxor r l)).

Definition bmla_val (d r l1 l2 l3 l4 : list Z) : list Z :=
  v_uadalp4 d (v_uaddlp (v_addp (v_addp (v_cnt (v_eor r l1)) (v_cnt (v_eor r l2)))
                                (v_addp (v_cnt (v_eor r l3)) (v_cnt (v_eor r l4))))).
Lemma len4 {A} (l : list A) : length l = 4%nat -> exists a b c d, l = [a; b; c; d].
Proof. destruct l as [|a [|b [|c [|d [|]]]]]; cbn; intros H; try discriminate. exists a, b, c, d. reflexivity. Qed.
Lemma zipw_length {A B C} (f : A -> B -> C) a b n : length a = n -> length b = n -> length (zipw f a b) = n.
Proof. revert b n. induction a as [|x a IH]; intros [|y b] n Ha Hb; cbn in *; try lia. destruct n; [lia|]. rewrite (IH b n) by lia. reflexivity. Qed.

Lemma bmla_ok acc r l1 l2 l3 l4 :
  length acc = 4%nat -> length r = 4%nat -> length l1 = 4%nat -> length l2 = 4%nat -> length l3 = 4%nat -> length l4 = 4%nat ->
  bmla_val (vec 4 acc) (vec 4 r) (vec 4 l1) (vec 4 l2) (vec 4 l3) (vec 4 l4)
  = vec 4 (zipw Z.add acc [bp r l1; bp r l2; bp r l3; bp r l4]).
Proof.
  intros La Lr L1 L2 L3 L4. unfold bmla_val. rewrite !v_eor_vec.
  rewrite addp_tree by (apply zipw_length; assumption).
  unfold v_uaddlp, v_uadalp4. rewrite lanes2, lanes4.
  rewrite (map_mod_id 65536).
  2:{ eapply Forall_impl; [|apply (pairs_bound 32)]; [cbv beta; intros; lia|].
      apply Forall_forall. intros x Hx. apply in_map_iff in Hx. destruct Hx as (b & <- & _). apply popcount32_bounds. }
  change (2 ^ 32) with (2 ^ (8 * Z.of_nat 4)). rewrite vec_add. f_equal. f_equal. unfold bp, sumz.
  rewrite !map_app.
  assert (Z4 : forall l, length l = 4%nat -> length (map popcount32 (zipw Z.lxor r l)) = 4%nat)
    by (intros; rewrite map_length; apply zipw_length; assumption).
  destruct (len4 _ (Z4 l1 L1)) as (a0 & a1 & a2 & a3 & ->). destruct (len4 _ (Z4 l2 L2)) as (b0 & b1 & b2 & b3 & ->).
  destruct (len4 _ (Z4 l3 L3)) as (c0 & c1 & c2 & c3 & ->). destruct (len4 _ (Z4 l4 L4)) as (d0 & d1 & d2 & d3 & ->).
  cbn [app pairs fold_right]. repeat (apply (f_equal2 (@cons Z)); [ring|]). reflexivity.
Qed.

(** The 8-row tree of the 8x4 kernel. *)
Definition acc8_val (d x1 x2 x3 x4 x5 x6 x7 x8 : list Z) : list Z :=
  v_uadalp2 d (v_addp
    (v_addp (v_addp (v_cnt x1) (v_cnt x2)) (v_addp (v_cnt x3) (v_cnt x4)))
    (v_addp (v_addp (v_cnt x5) (v_cnt x6)) (v_addp (v_cnt x7) (v_cnt x8)))).
Lemma acc8_ok acc r l1 l2 l3 l4 l5 l6 l7 l8 :
  length acc = 8%nat -> length r = 4%nat -> length l1 = 4%nat -> length l2 = 4%nat -> length l3 = 4%nat -> length l4 = 4%nat ->
  length l5 = 4%nat -> length l6 = 4%nat -> length l7 = 4%nat -> length l8 = 4%nat ->
  acc8_val (vec 2 acc) (v_eor (vec 4 r) (vec 4 l1)) (v_eor (vec 4 r) (vec 4 l2)) (v_eor (vec 4 r) (vec 4 l3)) (v_eor (vec 4 r) (vec 4 l4))
    (v_eor (vec 4 r) (vec 4 l5)) (v_eor (vec 4 r) (vec 4 l6)) (v_eor (vec 4 r) (vec 4 l7)) (v_eor (vec 4 r) (vec 4 l8))
  = vec 2 (zipw Z.add acc [bp r l1; bp r l2; bp r l3; bp r l4; bp r l5; bp r l6; bp r l7; bp r l8]).
Proof.
  intros La Lr L1 L2 L3 L4 L5 L6 L7 L8. unfold acc8_val. rewrite !v_eor_vec.
  rewrite !addp_tree by (apply zipw_length; assumption).
  assert (Bd : forall x, Forall (fun t => 0 <= t <= 32) (map popcount32 x)).
  { intros l. apply Forall_forall. intros x Hx. apply in_map_iff in Hx. destruct Hx as (b & <- & _). apply popcount32_bounds. }
  assert (Z4 := fun l H => zipw_length Z.lxor r l 4 Lr H).
  rewrite (addp_noov 32); [|lia|apply Bd|apply Bd|].
  2:{ apply (even_len _ 8). rewrite map_length, !app_length, !Z4 by assumption. reflexivity. }
  unfold v_uadalp2. rewrite lanes2. change 65536 with (2 ^ (8 * Z.of_nat 2)). rewrite vec_add. f_equal. f_equal. unfold bp, sumz. rewrite !map_app. clear Z4.
  assert (Z4 : forall l, length l = 4%nat -> length (map popcount32 (zipw Z.lxor r l)) = 4%nat)
    by (intros; rewrite map_length; apply zipw_length; assumption).
  destruct (len4 _ (Z4 l1 L1)) as (a0 & a1 & a2 & a3 & ->). destruct (len4 _ (Z4 l2 L2)) as (b0 & b1 & b2 & b3 & ->).
  destruct (len4 _ (Z4 l3 L3)) as (c0 & c1 & c2 & c3 & ->). destruct (len4 _ (Z4 l4 L4)) as (d0 & d1 & d2 & d3 & ->).
  destruct (len4 _ (Z4 l5 L5)) as (e0 & e1 & e2 & e3 & ->). destruct (len4 _ (Z4 l6 L6)) as (f0 & f1 & f2 & f3 & ->).
  destruct (len4 _ (Z4 l7 L7)) as (g0 & g1 & g2 & g3 & ->). destruct (len4 _ (Z4 l8 L8)) as (h0 & h1 & h2 & h3 & ->).
  cbn [app pairs fold_right]. repeat (apply (f_equal2 (@cons Z)); [ring|]). reflexivity.
Qed.

(** ** Loads *)
(** [n] words from position [k]. *)
Fixpoint wlist (ws : list Z) (k : Z) (n : nat) : list Z :=
  match n with O => [] | Datatypes.S n' => wat ws k :: wlist ws (k + 1) n' end.
Lemma wlist_length ws n : forall k, length (wlist ws k n) = n.
Proof. induction n as [|n IH]; intros k; cbn; [reflexivity|]. rewrite IH. reflexivity. Qed.
Definition word_region (E : env) (r : region) (ws : list Z) : Prop :=
  match r with RLhs => e_lhs E = ws | RRhs => e_rhs E = ws | RMul => e_mul E = ws | RBias => e_bias E = ws | RThr => e_thr E = ws
             | RIn => e_in E = ws | RZero => e_zero E = ws | _ => False end.
Lemma rd_some {A} (m : list A) i : 0 <= i < zlen m -> exists v, rd m i = Some v.
Proof.
  intros H. unfold rd, zlen in *. destruct (Z.ltb_spec i 0); [lia|].
  destruct (nth_error m (Z.to_nat i)) eqn:E; [eauto|]. apply nth_error_None in E. lia.
Qed.
Lemma rd_wat (m : list Z) i : 0 <= i < zlen m -> rd m i = Some (wat m i).
Proof. intros H. unfold wat. destruct (rd_some m i H) as (v & ->). reflexivity. Qed.
Lemma load_word_byte E s r ws k j : word_region E r ws -> 0 <= k < zlen ws -> 0 <= j < 4 ->
  load_byte E s r (4 * k + j) = Some ((wat ws k / 2 ^ (8 * j)) mod 256).
Proof.
  intros Hr Hk Hj. assert (D : (4 * k + j) / 4 = k) by (Z.to_euclidean_division_equations; lia).
  assert (M : (4 * k + j) mod 4 = j) by (Z.to_euclidean_division_equations; lia).
  destruct r; cbn in Hr; try contradiction; cbn [load_byte]; unfold word_byte; rewrite D, M, Hr, (rd_wat ws k Hk); reflexivity.
Qed.
Lemma loadn_app E s r n m : forall o, loadn E s r o (n + m) =
  (let* a := loadn E s r o n in let* b := loadn E s r (o + Z.of_nat n) m in Some (a ++ b)).
Proof.
  induction n as [|n IH]; intros o.
  - cbn [Nat.add loadn bind app]. rewrite Z.add_0_r. destruct (loadn E s r o m); reflexivity.
  - cbn [Nat.add loadn]. destruct (load_byte E s r o); [|reflexivity]. cbn [bind]. rewrite IH.
    replace (o + 1 + Z.of_nat n) with (o + Z.of_nat (Datatypes.S n)) by lia.
    destruct (loadn E s r (o + 1) n); [|reflexivity]. cbn [bind].
    destruct (loadn E s r (o + Z.of_nat (Datatypes.S n)) m); reflexivity.
Qed.
Lemma loadn_word E s r ws k : word_region E r ws -> 0 <= k < zlen ws -> loadn E s r (4 * k) 4 = Some (le_split 4 (wat ws k)).
Proof.
  intros Hr Hk. cbn [loadn].
  replace (4 * k) with (4 * k + 0) at 1 by ring. rewrite (load_word_byte E s r ws k 0) by (auto; lia). cbn [bind].
  rewrite (load_word_byte E s r ws k 1) by (auto; lia). cbn [bind].
  replace (4 * k + 1 + 1) with (4 * k + 2) by ring. rewrite (load_word_byte E s r ws k 2) by (auto; lia). cbn [bind].
  replace (4 * k + 2 + 1) with (4 * k + 3) by ring. rewrite (load_word_byte E s r ws k 3) by (auto; lia). cbn [bind].
  cbn [le_split]. rewrite !Z.div_div by lia. change (2 ^ (8 * 0)) with 1. rewrite Z.div_1_r. reflexivity.
Qed.
Lemma loadn_words E s r ws n : word_region E r ws -> forall k, 0 <= k -> k + Z.of_nat n <= zlen ws ->
  loadn E s r (4 * k) (4 * n) = Some (vec 4 (wlist ws k n)).
Proof.
  intros Hr. induction n as [|n IH]; intros k Hk Hn; [reflexivity|].
  replace (4 * Datatypes.S n)%nat with (4 + 4 * n)%nat by lia. rewrite loadn_app, (loadn_word E s r ws) by (auto; lia). cbn [bind].
  replace (4 * k + Z.of_nat 4) with (4 * (k + 1)) by lia. rewrite IH by lia. reflexivity.
Qed.
Lemma load16 E s r ws k : word_region E r ws -> 0 <= k -> k + 4 <= zlen ws ->
  loadn E s r (4 * k) 16 = Some (vec 4 (wlist ws k 4)).
Proof. intros Hr H0 H. apply (loadn_words E s r ws 4 Hr k H0). exact H. Qed.

(** ** Running code *)
Definition branch (i : instr) : bool := match i with B _ | BC _ _ => true | _ => false end.
Definition straight (p : list instr) : bool := forallb (fun i => negb (branch i)) p.
Definition code_at (p : list instr) (pc : nat) (blk : list instr) : Prop := firstn (length blk) (skipn pc p) = blk.
Lemma code_at_cons p pc i blk : code_at p pc (i :: blk) <-> nth_error p pc = Some i /\ code_at p (Datatypes.S pc) blk.
Proof.
  unfold code_at. cbn [length].
  revert p. induction pc as [|pc IH]; intros p.
  - destruct p as [|j p]; cbn; [split; [discriminate|intros [H _]; discriminate]|].
    split; [intros H; injection H as -> H; rewrite H; auto|intros [H ->]; injection H as ->; reflexivity].
  - destruct p as [|j p]; [|apply IH]. cbn. split; [discriminate|intros [H _]; discriminate].
Qed.
Lemma code_at_app p a : forall pc b, code_at p pc (a ++ b) <-> code_at p pc a /\ code_at p (pc + length a) b.
Proof.
  induction a as [|i a IH]; intros pc b.
  - cbn [app length]. rewrite Nat.add_0_r. unfold code_at at 2. cbn. tauto.
  - cbn [app]. rewrite !code_at_cons, IH. cbn [length]. replace (Datatypes.S pc + length a)%nat with (pc + Datatypes.S (length a))%nat by lia. tauto.
Qed.
Lemma exec_app ops E a : forall b s, exec ops E (a ++ b) s = (let* s' := exec ops E a s in exec ops E b s').
Proof. induction a as [|i a IH]; intros b s; [reflexivity|]. cbn [app exec]. destruct (exec1 ops E i s); [|reflexivity]. cbn [bind]. apply IH. Qed.

Section Ends.
  Variables (ops : nops) (E : env) (p : list instr) (Q : st -> Prop).
  (** Control reaches the end of the program in a state satisfying [Q]. *)
  Definition ends (pc : nat) (s : st) : Prop := exists n, wp (run ops E p n pc s) Q.
  Lemma run_straight blk : forall pc n s, code_at p pc blk -> straight blk = true ->
    run ops E p (length blk + n) pc s = (let* s' := exec ops E blk s in run ops E p n (pc + length blk) s').
  Proof.
    induction blk as [|i blk IH]; intros pc n s Hc Hs.
    - cbn. rewrite Nat.add_0_r. reflexivity.
    - apply code_at_cons in Hc. destruct Hc as [Hi Hc]. cbn [straight forallb] in Hs. apply andb_true_iff in Hs. destruct Hs as [Hb Hs].
      cbn [length Nat.add run]. rewrite Hi.
      assert (Hgen : (let* s' := exec1 ops E i s in run ops E p (length blk + n) (Datatypes.S pc) s')
                     = (let* s' := exec ops E (i :: blk) s in run ops E p n (pc + Datatypes.S (length blk)) s')).
      { cbn [exec]. destruct (exec1 ops E i s) as [s1|]; [|reflexivity]. cbn [bind]. rewrite IH by assumption.
        replace (Datatypes.S pc + length blk)%nat with (pc + Datatypes.S (length blk))%nat by lia. reflexivity. }
      destruct i; try exact Hgen; discriminate Hb.
  Qed.
  Lemma ends_exec pc s blk : code_at p pc blk -> straight blk = true ->
    wp (exec ops E blk s) (ends (pc + length blk)) -> ends pc s.
  Proof.
    intros Hc Hs H. destruct (exec ops E blk s) as [s'|] eqn:Ex; [|contradiction]. destruct H as [n Hn].
    exists (length blk + n)%nat. rewrite run_straight by assumption. rewrite Ex. exact Hn.
  Qed.
  Lemma ends_b pc s n q : nth_error p pc = Some (B n) -> find n p 0 = Some q -> ends q s -> ends pc s.
  Proof. intros Hi Hf [k Hk]. exists (Datatypes.S k). cbn [run]. rewrite Hi, Hf. exact Hk. Qed.
  Lemma ends_bc pc s c n q : nth_error p pc = Some (BC c n) -> find n p 0 = Some q ->
    (cond_holds c (sfl s) = true -> ends q s) -> (cond_holds c (sfl s) = false -> ends (Datatypes.S pc) s) -> ends pc s.
  Proof.
    intros Hi Hf Ht He. destruct (cond_holds c (sfl s)) eqn:Ec.
    - destruct (Ht eq_refl) as [k Hk]. exists (Datatypes.S k). cbn [run]. rewrite Hi, Ec, Hf. exact Hk.
    - destruct (He eq_refl) as [k Hk]. exists (Datatypes.S k). cbn [run]. rewrite Hi, Ec. exact Hk.
  Qed.
  Lemma ends_end pc s : nth_error p pc = None -> Q s -> ends pc s.
  Proof. intros Hi HQ. exists 1%nat. cbn [run]. rewrite Hi. exact HQ. Qed.
End Ends.
Lemma run_more ops E p n : forall m pc s r, (n <= m)%nat -> run ops E p n pc s = Some r -> run ops E p m pc s = Some r.
Proof.
  induction n as [|n IH]; intros m pc s r Hm H; [discriminate|].
  destruct m as [|m]; [lia|]. cbn [run] in *. destruct (nth_error p pc) as [i|]; [|exact H].
  destruct i; try (destruct (exec1 ops E _ s) as [s1|]; [|discriminate]; cbn [bind] in *; apply (IH m); [lia|exact H]).
  - destruct (find n0 p 0); [|discriminate]. cbn [bind] in *. apply (IH m); [lia|exact H].
  - destruct (cond_holds c (sfl s)).
    + destruct (find n0 p 0); [|discriminate]. cbn [bind] in *. apply (IH m); [lia|exact H].
    + apply (IH m); [lia|exact H].
Qed.
