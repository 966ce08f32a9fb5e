(** * Check: boolean checkers for the specification's predicates, used only to
    show on concrete data that hypotheses of the theorems are satisfiable. *)
From Verif Require Import Base Spec Bits.

Definition zrange (n : Z) : list Z := map Z.of_nat (seq 0 (Z.to_nat n)).

Lemma in_zrange n i : 0 <= i < n -> In i (zrange n).
Proof.
  intros H. unfold zrange. apply in_map_iff. exists (Z.to_nat i). split; [lia|].
  apply in_seq. lia.
Qed.

Definition packedb (data : list Z) (n c : Z) : bool :=
  (zlen data =? n * words c)
  && forallb (fun w => (0 <=? w) && (w <? 2 ^ 32)) data
  && forallb (fun p => forallb (fun k => (k <? c) || negb (bit_of data (words c) p k))
                               (zrange (32 * words c))) (zrange n).

Lemma packedb_ok data n c : 0 <= c -> packedb data n c = true -> packed data n c.
Proof.
  unfold packedb. intros Hc H. apply andb_prop in H. destruct H as [H H3].
  apply andb_prop in H. destruct H as [H1 H2]. rewrite forallb_forall in H2, H3.
  split; [lia|]. split.
  - intros i w Hi. unfold rd in Hi. destruct (i <? 0); [discriminate|].
    specialize (H2 w (nth_error_In _ _ Hi)). unfold word. lia.
  - intros p k Hp Hk. specialize (H3 p (in_zrange n p Hp)). rewrite forallb_forall in H3.
    specialize (H3 k (in_zrange (32 * words c) k ltac:(lia))).
    destruct (bit_of data (words c) p k); [|reflexivity].
    rewrite orb_false_r in H3. lia.
Qed.

Definition all_in (lo hi : Z) (l : list Z) : bool := forallb (fun v => (lo <=? v) && (v <=? hi)) l.
Lemma all_in_ok lo hi l : all_in lo hi l = true -> forall i v, rd l i = Some v -> lo <= v <= hi.
Proof.
  unfold all_in. intros H i v Hi. rewrite forallb_forall in H. unfold rd in Hi.
  destruct (i <? 0); [discriminate|]. specialize (H v (nth_error_In _ _ Hi)). lia.
Qed.
