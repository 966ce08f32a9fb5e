(** * Log: tasks described by the stores they perform, and their interleavings.

    A task that only reads read-only memory is described by the list of stores
    (position, value) it issues. A parallel run of several tasks is *any*
    interleaving of their stores; we quantify over the larger class of all
    permutations of all the stores. *)
From Verif Require Import Base.
From Coq Require Export Permutation.

Section Log.
  Context {T : Type}.
  Definition log := list (Z * T).

  (** Perform the stores in order; out of bounds is [None]. *)
  Fixpoint apply_log (m : list T) (l : log) : option (list T) :=
    match l with
    | [] => Some m
    | (i, v) :: l => let* m := wr m i v in apply_log m l
    end.

  (** Every task terminates without undefined behaviour, and whatever the order
      in which the stores reach memory, the final memory satisfies [Q]. *)
  Definition concurrently (tasks : list (option log)) (m : list T) (Q : list T -> Prop) : Prop :=
    exists logs, tasks = map Some logs /\
      forall order, Permutation (concat logs) order -> wp (apply_log m order) Q.

  Lemma apply_log_ok (l : log) : forall m,
    (forall e, In e l -> 0 <= fst e < zlen m) ->
    (forall e e', In e l -> In e' l -> fst e = fst e' -> snd e = snd e') ->
    wp (apply_log m l) (fun m' => zlen m' = zlen m /\
      (forall e, In e l -> rd m' (fst e) = Some (snd e)) /\
      (forall j, (forall e, In e l -> fst e <> j) -> rd m' j = rd m j)).
  Proof.
    induction l as [|[i v] l IH]; intros m Hb Hd; cbn [apply_log].
    - cbn. repeat split; auto. intros e [].
    - apply wp_bind. apply wr_wp; [apply (Hb (i, v)); left; reflexivity|].
      intros m1 Hl1 Hs1 Ho1.
      eapply wp_mono; [apply IH|].
      + intros e He. rewrite Hl1. apply Hb. right. exact He.
      + intros e e' He He'. apply Hd; right; assumption.
      + intros m2 (Hl2 & Hi2 & Ho2). split; [congruence|]. split.
        * intros e [<-|He]; [|apply Hi2; exact He]. cbn.
          destruct (in_dec Z.eq_dec i (map fst l)) as [Hin|Hni].
          { apply in_map_iff in Hin. destruct Hin as (e & Ee & He).
            rewrite <- Ee, (Hi2 e He). f_equal.
            apply (Hd e (i, v)); [right; exact He|left; reflexivity|exact Ee]. }
          { rewrite Ho2, Hs1; [reflexivity|]. intros e He Ee. apply Hni.
            rewrite <- Ee. apply in_map. exact He. }
        * intros j Hj. rewrite Ho2 by (intros; apply Hj; right; assumption).
          apply Ho1. intros ->. apply (Hj (i, v)); [left; reflexivity|reflexivity].
  Qed.

  (** A task is good for [V] on [P] if each store is at a position in [P] with
      value [V]; it covers [C] if every position of [C] is stored to. *)
  Definition good (P : Z -> Prop) (V : Z -> T) (l : log) : Prop :=
    forall e, In e l -> P (fst e) /\ snd e = V (fst e).
  Definition covers (C : Z -> Prop) (l : log) : Prop := forall i, C i -> exists v, In (i, v) l.

  Lemma concurrently_ok (P : Z -> Prop) (V : Z -> T) (tasks : list (option log)) (m : list T) :
    (forall i, P i -> 0 <= i < zlen m) ->
    Forall (fun t => wp t (good P V)) tasks ->
    (forall logs, tasks = map Some logs -> forall i, P i -> exists l, In l logs /\ covers (fun j => j = i) l) ->
    concurrently tasks m (fun m' => zlen m' = zlen m /\
      (forall i, P i -> rd m' i = Some (V i)) /\ (forall j, ~ P j -> rd m' j = rd m j)).
  Proof.
    intros HP Hg Hc.
    assert (HL : exists logs, tasks = map Some logs /\ Forall (good P V) logs).
    { clear Hc. induction Hg as [|t ts Ht _ (logs & -> & Hl)].
      - exists []. split; [reflexivity|constructor].
      - destruct t as [l|]; [|contradiction]. exists (l :: logs). split; [reflexivity|].
        constructor; assumption. }
    destruct HL as (logs & E & Hl). exists logs. split; [exact E|].
    intros order Hperm.
    assert (Hin : forall e, In e order -> P (fst e) /\ snd e = V (fst e)).
    { intros e He. apply Permutation_sym in Hperm. apply (Permutation_in _ Hperm) in He.
      apply in_concat in He. destruct He as (l & Hll & He).
      rewrite Forall_forall in Hl. apply (Hl l Hll e He). }
    eapply wp_mono; [apply apply_log_ok|].
    - intros e He. apply HP, Hin, He.
    - intros e e' He He' Ee. destruct (Hin e He) as [_ ->]. destruct (Hin e' He') as [_ ->].
      rewrite Ee. reflexivity.
    - intros m' (Hlen & Hi & Ho). split; [exact Hlen|]. split.
      + intros i Pi. destruct (Hc logs E i Pi) as (l & Hll & Hcov).
        destruct (Hcov i eq_refl) as (v & Hv).
        assert (Hio : In (i, v) order).
        { apply (Permutation_in _ Hperm). apply in_concat. exists l. auto. }
        destruct (Hin _ Hio) as [_ Ev]. cbn in Ev. rewrite <- Ev. apply (Hi _ Hio).
      + intros j Hj. apply Ho. intros e He Ee. apply Hj. rewrite <- Ee. apply Hin, He.
  Qed.

  (** Loops that append to a log. *)
  Lemma good_nil P V : good P V [].
  Proof. intros e []. Qed.
  Lemma good_cons (P : Z -> Prop) (V : Z -> T) i l : P i -> good P V l -> good P V ((i, V i) :: l).
  Proof. intros Hi Hl e [<-|He]; [cbn; auto|apply Hl, He]. Qed.

  (** [step P V C m]: from any good log, [m] yields a good, larger log
      covering [C]. *)
  Definition emits (P : Z -> Prop) (V : Z -> T) (C : Z -> Prop) (m : log -> option log) : Prop :=
    forall l, good P V l -> wp (m l) (fun l' => good P V l' /\ incl l l' /\ covers C l').

  Lemma emits_for P V (C : Z -> Z -> Prop) lo hi body :
    (forall i, lo <= i < hi -> emits P V (C i) (body i)) ->
    emits P V (fun j => exists i, lo <= i < hi /\ C i j) (for_ lo hi body).
  Proof.
    intros Hb l Hl.
    apply (for_wp (fun i l' => good P V l' /\ incl l l' /\ forall k, lo <= k < i -> covers (C k) l')).
    - split; [exact Hl|]. split; [apply incl_refl|]. intros; lia.
    - intros i l' Hi (Hg & Hinc & Hc). eapply wp_mono; [apply (Hb i Hi l' Hg)|].
      intros l2 (Hg2 & Hi2 & Hc2). split; [exact Hg2|]. split; [eapply incl_tran; eassumption|].
      intros k Hk. destruct (Z.eq_dec k i) as [->|Hne]; [exact Hc2|].
      intros j Hj. destruct (Hc k ltac:(lia) j Hj) as (v & Hv). exists v. apply Hi2, Hv.
    - intros l' (Hg & Hinc & Hc). split; [exact Hg|]. split; [exact Hinc|].
      intros j (i & Hi & Hj). apply (Hc i); [lia|exact Hj].
  Qed.

  Lemma emits_one (P : Z -> Prop) (V : Z -> T) i v : P i -> v = V i ->
    emits P V (fun j => j = i) (fun l => Some ((i, v) :: l)).
  Proof.
    intros Hi -> l Hl. cbn. split; [apply good_cons; assumption|]. split.
    - intros e He. right. exact He.
    - intros j ->. exists (V i). left. reflexivity.
  Qed.

  Lemma emits_seq P V C1 C2 m1 m2 : emits P V C1 m1 -> emits P V C2 m2 ->
    emits P V (fun j => C1 j \/ C2 j) (fun l => let* l := m1 l in m2 l).
  Proof.
    intros H1 H2 l Hl. apply wp_bind. eapply wp_mono; [apply H1, Hl|].
    intros l1 (Hg1 & Hi1 & Hc1). eapply wp_mono; [apply H2, Hg1|].
    intros l2 (Hg2 & Hi2 & Hc2). split; [exact Hg2|]. split; [eapply incl_tran; eassumption|].
    intros j [Hj|Hj]; [|apply Hc2, Hj]. destruct (Hc1 j Hj) as (v & Hv). exists v. apply Hi2, Hv.
  Qed.

  Lemma emits_weaken P V (C C' : Z -> Prop) m :
    emits P V C m -> (forall j, C' j -> C j) -> emits P V C' m.
  Proof.
    intros H Hs l Hl. eapply wp_mono; [apply H, Hl|]. intros l' (Hg & Hi & Hc).
    split; [exact Hg|]. split; [exact Hi|]. intros j Hj. apply Hc, Hs, Hj.
  Qed.

  Lemma emits_ext P V C m m' : (forall l, m l = m' l) -> emits P V C m -> emits P V C m'.
  Proof. intros E H l Hl. rewrite <- E. apply H, Hl. Qed.

  Lemma emits_skip P V : emits P V (fun _ => False) (fun l => Some l).
  Proof. intros l Hl. cbn. split; [exact Hl|]. split; [apply incl_refl|]. intros j []. Qed.

  (** From tasks to a parallel run. *)
  Lemma concurrently_emits {B} (P : Z -> Prop) (V : Z -> T) (C : B -> Z -> Prop)
      (task : B -> log -> option log) (bs : list B) m :
    (forall i, P i -> 0 <= i < zlen m) ->
    (forall b, In b bs -> emits P V (C b) (task b)) ->
    (forall i, P i -> exists b, In b bs /\ C b i) ->
    concurrently (map (fun b => task b []) bs) m (fun m' => zlen m' = zlen m /\
      (forall i, P i -> rd m' i = Some (V i)) /\ (forall j, ~ P j -> rd m' j = rd m j)).
  Proof.
    intros HP He Hc. apply concurrently_ok; [exact HP| |].
    - apply Forall_forall. intros t Ht. apply in_map_iff in Ht. destruct Ht as (b & <- & Hb).
      eapply wp_mono; [apply (He b Hb []), good_nil|]. intros l (H & _). exact H.
    - intros logs E i Pi. destruct (Hc i Pi) as (b & Hb & Hci).
      assert (Hm : In (task b []) (map Some logs)) by (rewrite <- E; apply (in_map (fun b => task b [])); exact Hb).
      apply in_map_iff in Hm. destruct Hm as (l & El & Hl). exists l. split; [exact Hl|].
      specialize (He b Hb [] (good_nil P V)). rewrite <- El in He. cbn in He.
      destruct He as (_ & _ & Hcv). intros j ->. apply Hcv, Hci.
  Qed.
End Log.
Arguments log T : clear implicits.

Lemma concurrently_mono {T} tasks (m : list T) (Q Q' : list T -> Prop) :
  concurrently tasks m Q -> (forall m', Q m' -> Q' m') -> concurrently tasks m Q'.
Proof.
  intros (logs & E & H) HQ. exists logs. split; [exact E|]. intros o Ho.
  eapply wp_mono; [apply H, Ho|exact HQ].
Qed.
