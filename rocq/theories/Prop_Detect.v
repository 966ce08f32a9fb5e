(** * C76: the detection post-processing pass *)
From Coq Require Import String QArith.
From Verif Require Import Base Detect.
Open Scope string_scope.
Open Scope list_scope.
Open Scope Z_scope.

(** ** Specification *)
(** Static single assignment: operands are defined before, results are new. *)
Fixpoint dssa (S : list nat) (p : list inst) : Prop :=
  match p with
  | [] => True
  | i :: p' => (forall x, In x (i_args i) -> In x S) /\ NoDup (map fst (i_res i)) /\
      (forall x, In x (map fst (i_res i)) -> ~ In x S) /\ dssa (S ++ map fst (i_res i)) p'
  end.
(** What is asked of the integer kernel: where the float kernel on the dequantised
    tensors gives boxes, classes, scores and a count, the integer kernel on the
    quantised tensors gives the same boxes, classes and count, and scores that
    dequantise to the float kernel's, quantised as the scores it was given. *)
Definition integer_kernel {V} (sem : opk -> list (ty * V) -> list ty -> option (list V)) : Prop :=
  forall opts tb vb tbf fb shs sc z vs tsf fs ta va taf fa sh0 sh1 sh2 sh3 o0 o1 o2 o3,
  sem KDequantize [(tb, vb)] [tbf] = Some [fb] ->
  sem KDequantize [((shs, EQ8 sc z), vs)] [tsf] = Some [fs] ->
  sem KDequantize [(ta, va)] [taf] = Some [fa] ->
  sem (KCustom "TFLite_Detection_PostProcess" opts) [(tbf, fb); (tsf, fs); (taf, fa)] [(sh0, EI32); (sh1, EI32); (sh2, EF32); (sh3, EI32)] = Some [o0; o1; o2; o3] ->
  exists q, sem (KCustom "TFLite_Detection_PostProcess" opts) [(tb, vb); ((shs, EQ8 sc z), vs); (ta, va)]
              [(sh0, EI32); (sh1, EI32); (sh2, EQ8 sc z); (sh3, EI32)] = Some [o0; o1; q; o3] /\
    sem KDequantize [((sh2, EQ8 sc z), q)] [(sh2, EF32)] = Some [o2].
(** An environment for the function's arguments. *)
Definition fits_args {V} (A : list (nat * ty)) (e : nat -> option (ty * V)) : Prop :=
  NoDup (map fst A) /\ (forall x t, In (x, t) A -> exists v, e x = Some (t, v)) /\ (forall x, ~ In x (map fst A) -> e x = None).
(** The operators that may do something besides computing their results, other than
    detection operators. *)
Definition effects (p : list inst) : list inst :=
  filter (fun i => match i_op i with KEffect _ => true | KCustom c _ => negb (String.eqb c "TFLite_Detection_PostProcess") | _ => false end) p.
(** A result of a Dequantize. *)
Definition dequantized (p : list inst) (x : nat) : Prop := exists i y t, In i p /\ i_op i = KDequantize /\ i_args i = [y] /\ i_res i = [(x, t)].
(** The values with their types. *)
Definition types (A : list (nat * ty)) (p : list inst) : list (nat * ty) := A ++ flat_map i_res p.
(** Every Dequantize reads a tensor quantised per tensor to int8. *)
Definition int8_dequantize (A : list (nat * ty)) (p : list inst) : Prop :=
  forall i x, In i p -> i_op i = KDequantize -> In x (i_args i) -> exists sh sc z, In (x, (sh, EQ8 sc z)) (types A p).
(** Detection operators are those with this code. *)
Definition is_detection (i : inst) : Prop := exists opts, i_op i = KCustom "TFLite_Detection_PostProcess" opts.

(** ** Proofs *)
Lemma ids_app p q : ids (p ++ q) = ids p ++ ids q.
Proof. unfold ids. apply flat_map_app. Qed.
Lemma ids_cons i p : ids (i :: p) = map fst (i_res i) ++ ids p.
Proof. reflexivity. Qed.
Lemma dssa_app : forall p q S, dssa S (p ++ q) <-> dssa S p /\ dssa (S ++ ids p) q.
Proof.
  induction p as [|i p IH]; intros q S; cbn [app dssa].
  - unfold ids. cbn. rewrite app_nil_r. tauto.
  - rewrite IH, ids_cons, app_assoc. tauto.
Qed.
Lemma dssa_change : forall p S S', dssa S p -> (forall i x, In i p -> In x (i_args i) -> In x S -> In x S') -> (forall x, In x (ids p) -> ~ In x S') -> dssa S' p.
Proof.
  induction p as [|i p IH]; intros S S' H H1 H2; [exact I|]. destruct H as (Ha & Hn & Hr & Hp). cbn [dssa]. split; [|split; [exact Hn|split]].
  - intros x Hx. apply (H1 i x (or_introl eq_refl) Hx). exact (Ha x Hx).
  - intros x Hx. apply H2. rewrite ids_cons. apply in_or_app. left. exact Hx.
  - apply (IH (S ++ map fst (i_res i))); [exact Hp| |].
    + intros j x Hj Hx HS. apply in_app_or in HS. apply in_or_app. destruct HS as [HS | HS]; [left; apply (H1 j x); [right; exact Hj|exact Hx|exact HS]|right; exact HS].
    + intros x Hx HS. apply in_app_or in HS. destruct HS as [HS | HS].
      * apply (H2 x); [rewrite ids_cons; apply in_or_app; right; exact Hx|exact HS].
      * assert (Hd : forall q T, dssa T q -> forall y, In y (ids q) -> ~ In y T).
        { clear. induction q as [|j q IHq]; intros T (_ & _ & Hr & Hq) y Hy || intros T Hq y Hy; [destruct Hy|]. rewrite ids_cons in Hy. apply in_app_or in Hy. destruct Hy as [Hy | Hy]; [exact (Hr y Hy)|].
          intros HT. apply (IHq _ Hq y Hy). apply in_or_app. left. exact HT. }
        apply (Hd p _ Hp x Hx). apply in_or_app. right. exact HS.
Qed.
Lemma dssa_new : forall p S, dssa S p -> forall x, In x (ids p) -> ~ In x S.
Proof.
  induction p as [|i p IH]; intros S H x Hx; [destruct Hx|]. destruct H as (_ & _ & Hr & Hp). rewrite ids_cons in Hx. apply in_app_or in Hx. destruct Hx as [Hx | Hx]; [exact (Hr x Hx)|].
  intros HT. apply (IH _ Hp x Hx). apply in_or_app. left. exact HT.
Qed.
Lemma dssa_args : forall p S i x, dssa S p -> In i p -> In x (i_args i) -> In x (S ++ ids p).
Proof.
  induction p as [|j p IH]; intros S i x H Hi Hx; [destruct Hi|]. destruct H as (Ha & _ & _ & Hp). rewrite ids_cons. destruct Hi as [-> | Hi].
  - apply in_or_app. left. exact (Ha x Hx).
  - rewrite app_assoc. exact (IH _ i x Hp Hi Hx).
Qed.
Lemma in_ids p x : In x (ids p) <-> exists i t, In i p /\ In (x, t) (i_res i).
Proof.
  unfold ids. rewrite in_flat_map. split.
  - intros (i & Hi & Hx). apply in_map_iff in Hx. destruct Hx as ((y & t) & <- & Hx). exists i, t. auto.
  - intros (i & t & Hi & Hx). exists i. split; [exact Hi|]. apply in_map_iff. exists (x, t). auto.
Qed.
Lemma def_in_some : forall p x i, def_in p x = Some i -> In i p /\ In x (map fst (i_res i)).
Proof.
  induction p as [|j p IH]; intros x i H; [discriminate|]. cbn [def_in] in H. destruct (existsb (Nat.eqb x) (map fst (i_res j))) eqn:E.
  - injection H as <-. apply existsb_exists in E. destruct E as (y & Hy & E). apply Nat.eqb_eq in E. subst. auto using in_eq.
  - destruct (IH x i H). auto using in_cons.
Qed.
Lemma dequantize_input_some p x y : dequantize_input p x = Some y -> exists i, In i p /\ i_op i = KDequantize /\ i_args i = [y] /\ exists t, i_res i = [(x, t)].
Proof.
  unfold dequantize_input. destruct (def_in p x) as [i|] eqn:E; [|discriminate]. apply def_in_some in E. destruct E as [Hi Hx].
  destruct (i_op i) eqn:Eo; try discriminate. destruct (i_args i) as [|z [|]] eqn:Ea; try discriminate. destruct (i_res i) as [|[w t] [|]] eqn:Er; try discriminate. intros H. injection H as ->. destruct Hx as [<- | []]. cbn [fst]. exists i. split; [exact Hi|split; [exact Eo|split; [exact Ea|exists t; exact Er]]].
Qed.
(** What a match looks like. *)
Lemma detection_replace A p fresh i l : detection A p fresh i = Replace l -> exists opts b s a b' s' a' r0 r1 r2 r3 sh0 sh1 sh2 sh3 shs sc z,
  i = {| i_op := KCustom "TFLite_Detection_PostProcess" opts; i_args := [b; s; a]; i_res := [(r0, (sh0, EI32)); (r1, (sh1, EI32)); (r2, (sh2, EF32)); (r3, (sh3, EI32))] |} /\
  dequantize_input p b = Some b' /\ dequantize_input p s = Some s' /\ dequantize_input p a = Some a' /\ type_of A p s' = Some (shs, EQ8 sc z) /\
  l = [ {| i_op := KCustom "TFLite_Detection_PostProcess" opts; i_args := [b'; s'; a']; i_res := [(r0, (sh0, EI32)); (r1, (sh1, EI32)); (fresh, (sh2, EQ8 sc z)); (r3, (sh3, EI32))] |};
        {| i_op := KDequantize; i_args := [fresh]; i_res := [(r2, (sh2, EF32))] |} ].
Proof.
  intros H. destruct i as [o args res]. unfold detection in H. cbn [i_op i_args i_res] in H. destruct o as [|code opts| |]; try discriminate.
  destruct (String.eqb_spec code "TFLite_Detection_PostProcess") as [-> | E]; cbn [negb] in H; [|discriminate].
  destruct args as [|b [|s [|a [|]]]]; try discriminate.
  destruct res as [|[r0 [sh0 e0]] res]; try discriminate. destruct res as [|[r1 [sh1 e1]] res]; try discriminate.
  destruct res as [|[r2 [sh2 e2]] res]; try discriminate. destruct res as [|[r3 [sh3 e3]] res]; try discriminate. destruct res; try discriminate.
  destruct (dequantize_input p b) as [b'|] eqn:Eb; [|discriminate]. destruct (dequantize_input p s) as [s'|] eqn:Es; [|discriminate]. destruct (dequantize_input p a) as [a'|] eqn:Ea; [|discriminate].
  destruct (ety_eqb e0 EI32) eqn:E0; [|discriminate]. destruct (ety_eqb e1 EI32) eqn:E1; [|discriminate]. destruct (ety_eqb e2 EF32) eqn:E2; [|discriminate]. destruct (ety_eqb e3 EI32) eqn:E3; [|discriminate].
  cbn [andb] in H. destruct e0; try discriminate. destruct e1; try discriminate. destruct e2; try discriminate. destruct e3; try discriminate.
  destruct (type_of A p s') as [[shs [| | |sc z| |]]|] eqn:Et; try discriminate. injection H as <-.
  exists opts, b, s, a, b', s', a', r0, r1, r2, r3, sh0, sh1, sh2, sh3, shs, sc, z. auto 10.
Qed.

(** *** SSA is kept *)
Lemma dstep_ssa A outs p q : dssa (map fst A) p -> dstep A outs p q -> dssa (map fst A) q.
Proof.
  intros H St. destruct St as [pre i post fresh l Hd Hf | pre i post Hp Hu].
  - apply detection_replace in Hd. destruct Hd as (opts & b & s & a & b' & s' & a' & r0 & r1 & r2 & r3 & sh0 & sh1 & sh2 & sh3 & shs & sc & z & -> & Eb & Es & Ea & _ & ->).
    apply dssa_app in H. destruct H as [H1 (H2 & H3 & H4 & H5)]. apply dssa_app. split; [exact H1|].
    assert (Hin : forall x y, dequantize_input pre x = Some y -> In y (map fst A ++ ids pre)).
    { intros x y Hx. apply dequantize_input_some in Hx. destruct Hx as (j & Hj & _ & Hja & _). apply (dssa_args pre _ j y H1 Hj). rewrite Hja. left. reflexivity. }
    assert (Hff : ~ In fresh (map fst A ++ ids pre) /\ ~ In fresh [r0; r1; r2; r3] /\ ~ In fresh (ids post)).
    { rewrite ids_app, ids_cons in Hf. cbn [i_res map fst] in Hf. repeat rewrite in_app_iff in Hf. rewrite in_app_iff. cbn [In] in *. tauto. }
    destruct Hff as (F1 & F2 & F3). cbn [i_res i_args i_op map fst] in *.
    assert (N := H3). inversion N as [|? ? N0 N']; subst. inversion N' as [|? ? N1 N'']; subst. inversion N'' as [|? ? N2 N''']; subst. clear N N' N''.
    cbn [app dssa i_res i_args map fst]. split; [|split; [|split; [|split; [|split; [|split]]]]].
    + intros x [<- | [<- | [<- | []]]]; [apply (Hin b)|apply (Hin s)|apply (Hin a)]; assumption.
    + cbn [In] in *. assert (r0 <> r1 /\ r0 <> r3 /\ r1 <> r3 /\ fresh <> r0 /\ fresh <> r1 /\ fresh <> r3) as (D1 & D2 & D3 & D4 & D5 & D6) by (repeat split; intros ->; tauto).
      constructor; [cbn [In]; intros [Q | [Q | [Q | []]]]; congruence|]. constructor; [cbn [In]; intros [Q | [Q | []]]; congruence|]. constructor; [cbn [In]; intros [Q | []]; congruence|]. constructor; [intros []|constructor].
    + intros x [<- | [<- | [<- | [<- | []]]]]; [apply (H4 r0)|apply (H4 r1)|exact F1|apply (H4 r3)]; cbn; tauto.
    + intros x [<- | []]. apply in_or_app. right. cbn. tauto.
    + repeat constructor. intros [].
    + intros x [<- | []] Hx. apply in_app_or in Hx. destruct Hx as [Hx | Hx]; [apply (H4 r2); [cbn; tauto|exact Hx]|]. cbn [In] in *. destruct Hx as [Hx | [Hx | [Hx | [Hx | []]]]]; [apply N0|apply N1|apply F2|apply N2]; cbn; auto.
    + apply (dssa_change post ((map fst A ++ ids pre) ++ [r0; r1; r2; r3])); [exact H5| |].
      * intros j x _ _ Hx. rewrite !in_app_iff in *. cbn [In] in *. tauto.
      * intros x Hx HS. pose proof (dssa_new post _ H5 x Hx) as Hn. rewrite !in_app_iff in *. cbn [In] in *. destruct HS as [[HS | HS] | HS]; [tauto| |tauto].
        destruct HS as [HS | [HS | [HS | [HS | []]]]]; try tauto. subst. tauto.
  - apply dssa_app in H. destruct H as [H1 (H2 & H3 & H4 & H5)]. apply dssa_app. split; [exact H1|].
    apply (dssa_change post ((map fst A ++ ids pre) ++ map fst (i_res i))); [exact H5| |].
    + intros j x Hj Hx HS. apply in_app_or in HS. destruct HS as [HS | HS]; [exact HS|]. exfalso. apply (Hu x HS). right. exists j. split; [apply in_or_app; right; right; exact Hj|exact Hx].
    + intros x Hx HS. apply (dssa_new post _ H5 x Hx). apply in_or_app. left. exact HS.
Qed.

Section Sound.
  Context {V : Type}.
  Variable sem : opk -> list (ty * V) -> list ty -> option (list V).
  Hypothesis kernel : integer_kernel sem.
  Notation denv := (nat -> option (ty * V)).
  Definition same (X : nat -> Prop) (e e' : denv) : Prop := forall x, X x -> e x = e' x.

  Lemma dset_same X : forall l vs (e e' e1 : denv), same X e e' -> dset e l vs = Some e1 -> exists e1', dset e' l vs = Some e1' /\ same X e1 e1'.
  Proof.
    induction l as [|[x t] l IH]; intros [|v vs] e e' e1 H E; cbn in *; try discriminate; [injection E as <-; exists e'; auto|].
    apply (IH vs (dupd e x (t, v))); [|exact E]. intros y Hy. unfold dupd. destruct (Nat.eqb y x); [reflexivity|exact (H y Hy)].
  Qed.
  Lemma dset_out : forall l vs (e e1 : denv) y, dset e l vs = Some e1 -> ~ In y (map fst l) -> e1 y = e y.
  Proof.
    induction l as [|[x t] l IH]; intros [|v vs] e e1 y E Hy; cbn in *; try discriminate; [injection E as <-; reflexivity|].
    rewrite (IH vs _ e1 y E) by tauto. unfold dupd. destruct (Nat.eqb_spec y x); [subst; tauto|reflexivity].
  Qed.
  Lemma dlook_same X : forall l (e e' : denv), same X e e' -> (forall x, In x l -> X x) -> dlook e l = dlook e' l.
  Proof. induction l as [|x l IH]; intros e e' H HX; [reflexivity|]. cbn. rewrite (H x) by (apply HX; left; reflexivity). rewrite (IH e e' H) by (intros y Hy; apply HX; right; exact Hy). reflexivity. Qed.
  Lemma deval_same X : forall p (e e' e1 : denv), same X e e' -> (forall i x, In i p -> In x (i_args i) -> X x) -> deval sem e p = Some e1 -> exists e1', deval sem e' p = Some e1' /\ same X e1 e1'.
  Proof.
    induction p as [|i p IH]; intros e e' e1 H HX E; cbn in *; [injection E as <-; exists e'; auto|].
    unfold dexec in *. rewrite <- (dlook_same X (i_args i) e e' H) by (intros x Hx; apply (HX i x); auto).
    destruct (dlook e (i_args i)) as [vs|]; [|discriminate]. destruct (sem (i_op i) vs (map snd (i_res i))) as [rs|]; [|discriminate].
    destruct (dset e (i_res i) rs) as [e2|] eqn:E2; [|discriminate]. destruct (dset_same X _ _ _ e' _ H E2) as (e2' & E2' & H2). rewrite E2'.
    apply (IH e2 e2' e1 H2); [|exact E]. intros j x Hj. apply (HX j x). auto.
  Qed.
  Lemma deval_app : forall p q (e : denv), deval sem e (p ++ q) = match deval sem e p with Some e1 => deval sem e1 q | None => None end.
  Proof. induction p as [|i p IH]; intros q e; [reflexivity|]. cbn. destruct (dexec sem e i); [apply IH|reflexivity]. Qed.
  Lemma deval_out : forall p (e e1 : denv) y, deval sem e p = Some e1 -> ~ In y (ids p) -> e1 y = e y.
  Proof.
    induction p as [|i p IH]; intros e e1 y E Hy; cbn [deval] in E; [injection E as <-; reflexivity|]. rewrite ids_cons, in_app_iff in Hy. unfold dexec in E.
    destruct (dlook e (i_args i)); [|discriminate]. destruct (sem _ _ _) as [rs|]; [|discriminate]. destruct (dset e (i_res i) rs) as [e2|] eqn:E2; [|discriminate].
    rewrite (IH e2 e1 y E) by tauto. apply (dset_out _ _ _ _ _ E2). tauto.
  Qed.
  (** The types in the environment. *)
  Definition typed (T : list (nat * ty)) (e : denv) : Prop := forall x t v, e x = Some (t, v) -> In (x, t) T.
  Lemma dset_typed : forall l vs T (e e1 : denv), typed T e -> dset e l vs = Some e1 -> typed (T ++ l) e1.
  Proof.
    induction l as [|[x t] l IH]; intros [|v vs] T e e1 H E; cbn in *; try discriminate; [injection E as <-; rewrite app_nil_r; exact H|].
    change (T ++ (x, t) :: l) with (T ++ [(x, t)] ++ l). rewrite app_assoc. apply (IH vs _ (dupd e x (t, v))); [|exact E].
    intros y t' v' Hy. unfold dupd in Hy. apply in_or_app. destruct (Nat.eqb_spec y x); [injection Hy as <- <-; subst; right; left; reflexivity|left; exact (H y t' v' Hy)].
  Qed.
  Lemma deval_typed : forall p T (e e1 : denv), typed T e -> deval sem e p = Some e1 -> typed (T ++ flat_map i_res p) e1.
  Proof.
    induction p as [|i p IH]; intros T e e1 H E; cbn [deval] in E; [injection E as <-; cbn; rewrite app_nil_r; exact H|]. unfold dexec in E.
    destruct (dlook e (i_args i)); [|discriminate]. destruct (sem _ _ _) as [rs|]; [|discriminate]. destruct (dset e (i_res i) rs) as [e2|] eqn:E2; [|discriminate].
    cbn [flat_map]. rewrite app_assoc. apply (IH _ e2); [|exact E]. exact (dset_typed _ _ _ _ _ H E2).
  Qed.
  (** After a prefix, each of its instructions still holds. *)
  Lemma dequantize_holds : forall p S (e e1 : denv) i x y t, dssa S p -> deval sem e p = Some e1 -> In i p -> i_op i = KDequantize -> i_args i = [y] -> i_res i = [(x, t)] ->
    exists ty0 v f, e1 y = Some (ty0, v) /\ e1 x = Some (t, f) /\ sem KDequantize [(ty0, v)] [t] = Some [f].
  Proof.
    induction p as [|j p IH]; intros S e e1 i x y t HS E Hi Ho Ha Hr; [destruct Hi|]. destruct HS as (H1 & H2 & H3 & H4). cbn [deval] in E. destruct (dexec sem e j) as [e2|] eqn:E2; [|discriminate].
    destruct Hi as [-> | Hi]; [|exact (IH _ e2 e1 i x y t H4 E Hi Ho Ha Hr)].
    unfold dexec in E2. rewrite Ha, Ho, Hr in E2. cbn [dlook map snd] in E2. destruct (e y) as [[ty0 v]|] eqn:Ey; [|discriminate].
    destruct (sem KDequantize [(ty0, v)] [t]) as [rs|] eqn:Es; [|discriminate]. cbn [dset] in E2. destruct rs as [|f [|]]; try discriminate. cbn [dset] in E2. injection E2 as <-.
    rewrite Hr, Ha in *. cbn [map fst In] in *. exists ty0, v, f.
    assert (Hyn : y <> x) by (intros ->; apply (H3 x); auto). split; [|split; [|exact Es]].
    - rewrite (deval_out _ _ _ y E); [unfold dupd; destruct (Nat.eqb_spec y x); [contradiction|exact Ey]|]. intros Hy. apply (dssa_new _ _ H4 y Hy). apply in_or_app. left. apply H1. auto.
    - rewrite (deval_out _ _ _ x E); [unfold dupd; rewrite Nat.eqb_refl; reflexivity|]. intros Hy. apply (dssa_new _ _ H4 x Hy). apply in_or_app. right. left. reflexivity.
  Qed.

  (** *** One step *)
  Definition outs_in (A : list (nat * ty)) (outs : list nat) (p : list inst) : Prop := forall x, In x outs -> In x (map fst A ++ ids p).
  Lemma assoc_in : forall l x t, assoc l x = Some t -> In (x, t) l.
  Proof. induction l as [|[y u] l IH]; intros x t H; [discriminate|]. cbn in H. destruct (Nat.eqb_spec x y); [injection H as ->; subst; left; reflexivity|right; exact (IH x t H)]. Qed.
  Lemma names_types A p : map fst (types A p) = map fst A ++ ids p.
  Proof. unfold types, ids. rewrite map_app. f_equal. induction p as [|i p IH]; [reflexivity|]. cbn. rewrite map_app, IH. reflexivity. Qed.
  Lemma NoDup_app_i : forall (a b : list nat), NoDup a -> NoDup b -> (forall x, In x b -> ~ In x a) -> NoDup (a ++ b).
  Proof. induction a as [|y a IH]; intros b Ha Hb H; [exact Hb|]. inversion Ha; subst. cbn. constructor; [rewrite in_app_iff; intros [Q | Q]; [contradiction|apply (H y Q); left; reflexivity]|]. apply IH; auto. intros x Hx Q. apply (H x Hx). right. exact Q. Qed.
  Lemma dssa_nodup : forall p S, NoDup S -> dssa S p -> NoDup (S ++ ids p).
  Proof.
    induction p as [|i p IH]; intros S H Hs; [cbn; rewrite app_nil_r; exact H|]. destruct Hs as (_ & H2 & H3 & H4). rewrite ids_cons, app_assoc. apply IH; [|exact H4]. apply NoDup_app_i; assumption.
  Qed.
  Lemma nodup_fst : forall (l : list (nat * ty)) x t u, NoDup (map fst l) -> In (x, t) l -> In (x, u) l -> t = u.
  Proof.
    induction l as [|[y w] l IH]; intros x t u H Ht Hu; [destruct Ht|]. cbn in H. inversion H as [|? ? H1 H2]; subst.
    destruct Ht as [Ht | Ht], Hu as [Hu | Hu].
    - congruence.
    - exfalso. injection Ht as -> ->. apply H1. apply in_map_iff. exists (x, u). auto.
    - exfalso. injection Hu as -> ->. apply H1. apply in_map_iff. exists (x, t). auto.
    - exact (IH x t u H2 Ht Hu).
  Qed.
  Lemma outs_step A outs p q : outs_in A outs p -> dstep A outs p q -> outs_in A outs q.
  Proof.
    intros H St x Hx. specialize (H x Hx). destruct St as [pre i post fresh l Hd Hf | pre i post Hp Hu].
    - apply detection_replace in Hd. destruct Hd as (opts & b & s & a & b' & s' & a' & r0 & r1 & r2 & r3 & sh0 & sh1 & sh2 & sh3 & shs & sc & z & -> & _ & _ & _ & _ & ->).
      rewrite !ids_app, !ids_cons in *. cbn [i_res map fst ids flat_map app] in *. rewrite !in_app_iff in *. cbn [In] in *. tauto.
    - rewrite !ids_app, !ids_cons in *. rewrite !in_app_iff in *. destruct H as [H | [H | [H | H]]]; auto. exfalso. apply (Hu x H). left. exact Hx.
  Qed.
  Lemma dstep_sound A outs p q e0 e : fits_args A e0 -> dssa (map fst A) p -> outs_in A outs p -> deval sem e0 p = Some e -> dstep A outs p q ->
    exists e', deval sem e0 q = Some e' /\ (forall x, In x outs -> e' x = e x).
  Proof.
    intros (FA1 & FA2 & FA3) HS Ho E St. destruct St as [pre i post fresh l Hd Hf | pre i post Hp Hu].
    - apply detection_replace in Hd. destruct Hd as (opts & b & s & a & b' & s' & a' & r0 & r1 & r2 & r3 & sh0 & sh1 & sh2 & sh3 & shs & sc & z & -> & Eb & Es & Ea & Et & ->).
      pose proof (fun i x => dssa_args _ _ i x HS) as Hargs.
      apply dssa_app in HS. destruct HS as [H1 (H2 & H3 & H4 & H5)]. cbn [i_res i_args map fst] in *.
      rewrite deval_app in E. destruct (deval sem e0 pre) as [e1|] eqn:E1; [|discriminate]. cbn [deval] in E.
      destruct (dexec sem e1 _) as [e2|] eqn:E2 in E; [|discriminate].
      apply dequantize_input_some in Eb. destruct Eb as (ib & Hib & Ob & Ab & tbf & Rb). apply dequantize_input_some in Es. destruct Es as (is_ & His & Os & As & tsf & Rs). apply dequantize_input_some in Ea. destruct Ea as (ia & Hia & Oa & Aa & taf & Ra).
      destruct (dequantize_holds _ _ _ _ ib b b' tbf H1 E1 Hib Ob Ab Rb) as (tb & vb & fb & Yb & Xb & Sb).
      destruct (dequantize_holds _ _ _ _ is_ s s' tsf H1 E1 His Os As Rs) as (ts & vs & fs & Ys & Xs & Ss).
      destruct (dequantize_holds _ _ _ _ ia a a' taf H1 E1 Hia Oa Aa Ra) as (ta & va & fa & Ya & Xa & Sa).
      assert (ts = (shs, EQ8 sc z)) as ->.
      { assert (T0 : typed A e0).
        { intros x t v Hx. destruct (in_dec Nat.eq_dec x (map fst A)) as [Hin | Hin]; [|rewrite (FA3 x Hin) in Hx; discriminate]. apply in_map_iff in Hin. destruct Hin as ((y & t') & <- & Hin). destruct (FA2 y t' Hin) as [v' Hv]. cbn [fst] in Hx. rewrite Hv in Hx. injection Hx as <- _. exact Hin. }
        pose proof (deval_typed _ _ _ _ T0 E1 s' ts vs Ys) as Hts. apply assoc_in in Et. apply (nodup_fst (types A pre) s'); [|exact Hts|exact Et]. rewrite names_types. apply dssa_nodup; assumption. }
      unfold dexec in E2. cbn [i_args i_op i_res dlook map snd] in E2. rewrite Xb, Xs, Xa in E2.
      destruct (sem _ _ _) as [rs|] eqn:Er in E2; [|discriminate].
      destruct rs as [|o0 [|o1 [|o2 [|o3 [|]]]]]; try discriminate. cbn [dset] in E2. injection E2 as <-.
      destruct (kernel opts tb vb tbf fb shs sc z vs tsf fs ta va taf fa sh0 sh1 sh2 sh3 o0 o1 o2 o3 Sb Ss Sa Er) as (qv & K1 & K2).
      assert (Hff : ~ In fresh (map fst A ++ ids pre) /\ ~ In fresh [r0; r1; r2; r3] /\ ~ In fresh (ids post)).
      { rewrite ids_app, ids_cons in Hf. cbn [i_res map fst] in Hf. repeat rewrite in_app_iff in Hf. rewrite in_app_iff. cbn [In] in *. tauto. }
      destruct Hff as (F1 & F2 & F3). cbn [In] in F2.
      inversion H3 as [|? ? N0 N']; subst. inversion N' as [|? ? N1 N'']; subst. inversion N'' as [|? ? N2 N''']; subst. cbn [In] in N0, N1, N2.
      assert (D : r0 <> r1 /\ r0 <> r2 /\ r0 <> r3 /\ r1 <> r2 /\ r1 <> r3 /\ r2 <> r3 /\ fresh <> r0 /\ fresh <> r1 /\ fresh <> r2 /\ fresh <> r3) by (repeat split; intros ->; tauto).
      destruct (deval_same (fun x => x <> fresh) post (dupd (dupd (dupd (dupd e1 r0 ((sh0, EI32), o0)) r1 ((sh1, EI32), o1)) r2 ((sh2, EF32), o2)) r3 ((sh3, EI32), o3)) (dupd (dupd (dupd (dupd (dupd e1 r0 ((sh0, EI32), o0)) r1 ((sh1, EI32), o1)) fresh ((sh2, EQ8 sc z), qv)) r3 ((sh3, EI32), o3)) r2 ((sh2, EF32), o2)) e) as (e' & E' & Hs').
      { intros x Hx. unfold dupd. destruct D as (D1 & D2 & D3 & D4 & D5 & D6 & D7 & D8 & D9 & D10).
        destruct (Nat.eqb_spec x r3); [subst; rewrite (proj2 (Nat.eqb_neq r3 r2)) by congruence; reflexivity|]. destruct (Nat.eqb_spec x r2); [reflexivity|]. destruct (Nat.eqb_spec x fresh); [contradiction|]. reflexivity. }
      { intros j x Hj Hx ->. apply Hf. rewrite ids_app, app_assoc. rewrite ids_app, app_assoc in Hargs. apply (Hargs j fresh); [apply in_or_app; right; right; exact Hj|exact Hx]. }
      { exact E. }
      exists e'. split.
      + rewrite deval_app, E1. cbn [app deval].
        assert (X1 : dexec sem e1 {| i_op := KCustom "TFLite_Detection_PostProcess" opts; i_args := [b'; s'; a']; i_res := [(r0, (sh0, EI32)); (r1, (sh1, EI32)); (fresh, (sh2, EQ8 sc z)); (r3, (sh3, EI32))] |} =
                     Some (dupd (dupd (dupd (dupd e1 r0 ((sh0, EI32), o0)) r1 ((sh1, EI32), o1)) fresh ((sh2, EQ8 sc z), qv)) r3 ((sh3, EI32), o3))).
        { unfold dexec. cbn [i_args i_op i_res dlook map snd]. rewrite Yb, Ys, Ya. cbn [map snd]. unfold ty in *. rewrite K1. reflexivity. }
        rewrite X1. set (e4 := dupd (dupd (dupd (dupd e1 r0 _) r1 _) fresh _) r3 _) in *.
        assert (Q : e4 fresh = Some ((sh2, EQ8 sc z), qv)).
        { unfold e4, dupd. rewrite (proj2 (Nat.eqb_neq fresh r3)) by tauto. rewrite Nat.eqb_refl. reflexivity. }
        assert (X2 : dexec sem e4 {| i_op := KDequantize; i_args := [fresh]; i_res := [(r2, (sh2, EF32))] |} = Some (dupd e4 r2 ((sh2, EF32), o2))).
        { unfold dexec. cbn [i_args i_op i_res dlook map snd]. rewrite Q. unfold ty in *. rewrite K2. reflexivity. }
        rewrite X2. exact E'.
      + intros x Hx. symmetry. apply Hs'. intros ->. apply Hf. apply (Ho fresh Hx).
    - rewrite deval_app in E. destruct (deval sem e0 pre) as [e1|] eqn:E1; [|discriminate]. cbn [deval] in E. destruct (dexec sem e1 i) as [e2|] eqn:E2; [|discriminate].
      destruct (deval_same (fun x => ~ In x (map fst (i_res i))) post e2 e1 e) as (e' & E' & Hs').
      { intros x Hx. unfold dexec in E2. destruct (dlook e1 (i_args i)); [|discriminate]. destruct (sem _ _ _) as [rs|]; [|discriminate]. exact (dset_out _ _ _ _ _ E2 Hx). }
      { intros j x Hj Hx Hin. apply (Hu x Hin). right. exists j. split; [apply in_or_app; right; right; exact Hj|exact Hx]. }
      { exact E. }
      exists e'. split; [rewrite deval_app, E1; exact E'|]. intros x Hx. symmetry. apply Hs'. intros Hin. apply (Hu x Hin). left. exact Hx.
  Qed.
  Lemma dsteps_sound A outs n p q : dsteps A outs n p q -> forall e0 e, fits_args A e0 -> dssa (map fst A) p -> outs_in A outs p -> deval sem e0 p = Some e ->
    exists e', deval sem e0 q = Some e' /\ (forall x, In x outs -> e' x = e x).
  Proof.
    induction 1 as [p | n p q r St _ IH]; intros e0 e HA HS Ho E; [exists e; auto|].
    destruct (dstep_sound A outs p q e0 e HA HS Ho E St) as (e1 & E1 & H1). destruct (IH e0 e1 HA (dstep_ssa _ _ _ _ HS St) (outs_step _ _ _ _ Ho St) E1) as (e2 & E2 & H2).
    exists e2. split; [exact E2|]. intros x Hx. rewrite (H2 x Hx). exact (H1 x Hx).
  Qed.
End Sound.

Lemma effects_app p q : effects (p ++ q) = effects p ++ effects q.
Proof. apply filter_app. Qed.
Lemma dstep_effects A outs p q : dstep A outs p q -> effects q = effects p.
Proof.
  intros St. destruct St as [pre i post fresh l Hd Hf | pre i post Hp Hu].
  - apply detection_replace in Hd. destruct Hd as (opts & b & s & a & b' & s' & a' & r0 & r1 & r2 & r3 & sh0 & sh1 & sh2 & sh3 & shs & sc & z & -> & _ & _ & _ & _ & ->).
    rewrite !effects_app. reflexivity.
  - rewrite !effects_app. f_equal. destruct i as [o args res]. destruct o; try discriminate Hp; reflexivity.
Qed.

(** For every program in static single assignment form, every order in which the
    pass and the driver's dead code elimination may proceed, and every run of the
    program: the result still runs, the function's outputs have the same types and
    values, and no operator with other effects was touched. This rests on what the
    integer kernel promises (it is not in this repository). *)
Theorem C76_any_order : forall V (sem : opk -> list (ty * V) -> list ty -> option (list V)), integer_kernel sem ->
  forall A outs n p q (e0 e : nat -> option (ty * V)), fits_args A e0 -> dssa (map fst A) p -> (forall x, In x outs -> In x (map fst A ++ ids p)) ->
  deval sem e0 p = Some e -> dsteps A outs n p q ->
  (exists e', deval sem e0 q = Some e' /\ forall x, In x outs -> e' x = e x) /\ dssa (map fst A) q /\ effects q = effects p.
Proof.
  intros V sem K A outs n p q e0 e HA HS Ho E St. split; [exact (dsteps_sound sem K A outs n p q St e0 e HA HS Ho E)|].
  clear E. induction St as [p | n p q r St _ IH]; [auto|]. destruct (IH (dstep_ssa _ _ _ _ HS St) (outs_step _ _ _ _ Ho St)) as [H1 H2]. split; [exact H1|]. rewrite H2. exact (dstep_effects _ _ _ _ St).
Qed.
Print Assumptions C76_any_order.

(** It stops: there are at most three steps per operator. *)
Definition weight (i : inst) : nat := match i_op i, i_res i with KCustom _ _, [_; _; (_, (_, EF32)); _] => 3 | _, _ => 1 end.
Definition total (p : list inst) : nat := list_sum (map weight p).
Lemma total_app p q : total (p ++ q) = (total p + total q)%nat.
Proof. unfold total. rewrite map_app, list_sum_app. reflexivity. Qed.
Lemma total_cons i p : total (i :: p) = (weight i + total p)%nat.
Proof. reflexivity. Qed.
Lemma weight_bounds i : (1 <= weight i <= 3)%nat.
Proof. unfold weight. destruct (i_op i); try lia. destruct (i_res i) as [|? [|? [|[? [? []]] [|? [|]]]]]; lia. Qed.
Lemma dstep_total A outs p q : dstep A outs p q -> (total q < total p)%nat.
Proof.
  intros St. destruct St as [pre i post fresh l Hd Hf | pre i post Hp Hu].
  - apply detection_replace in Hd. destruct Hd as (opts & b & s & a & b' & s' & a' & r0 & r1 & r2 & r3 & sh0 & sh1 & sh2 & sh3 & shs & sc & z & -> & _ & _ & _ & _ & ->).
    cbn [app]. rewrite !total_app, !total_cons. cbn [weight i_op i_res]. lia.
  - rewrite !total_app, total_cons. pose proof (weight_bounds i). lia.
Qed.
Theorem C76_terminates : forall A outs n p q, dsteps A outs n p q -> (n <= 3 * length p)%nat.
Proof.
  intros A outs n p q St. assert (H : (n + total q <= total p)%nat).
  { induction St as [p | n p q r St _ IH]; [lia|]. pose proof (dstep_total _ _ _ _ St). lia. }
  assert (H2 : (total p <= 3 * length p)%nat). { clear. induction p as [|i p IH]; [cbn; lia|]. rewrite total_cons. cbn [length]. pose proof (weight_bounds i). lia. }
  lia.
Qed.
Print Assumptions C76_terminates.

(** Types: the outputs keep theirs, and each detection operator is an old one or one
    whose score result is quantised exactly as the scores it reads. *)
Definition well_quantised (A : list (nat * ty)) (p : list inst) (i : inst) : Prop :=
  exists opts b s a r0 r1 r2 r3 sh0 sh1 sh2 sh3 shs sc z,
    i = {| i_op := KCustom "TFLite_Detection_PostProcess" opts; i_args := [b; s; a]; i_res := [(r0, (sh0, EI32)); (r1, (sh1, EI32)); (r2, (sh2, EQ8 sc z)); (r3, (sh3, EI32))] |} /\
    In (s, (shs, EQ8 sc z)) (types A p).
Lemma types_app A p q x : In x (types A (p ++ q)) <-> In x (types A p) \/ In x (flat_map i_res q).
Proof. unfold types. rewrite flat_map_app, !in_app_iff. tauto. Qed.
(** A used value keeps its type. *)
Lemma dstep_types A outs p q x t : dstep A outs p q -> In (x, t) (types A p) -> used p outs x -> In (x, t) (types A q).
Proof.
  intros St. destruct St as [pre i post fresh l Hd Hf | pre i post Hp Hu]; intros H Hux.
  - apply detection_replace in Hd. destruct Hd as (opts & b & s & a & b' & s' & a' & r0 & r1 & r2 & r3 & sh0 & sh1 & sh2 & sh3 & shs & sc & z & -> & _ & _ & _ & _ & ->).
    rewrite types_app in *. cbn [flat_map i_res app] in *. cbn [In] in *. tauto.
  - rewrite types_app in *. cbn [flat_map] in H. rewrite in_app_iff in H. destruct H as [H | [H | H]]; auto. exfalso. apply (Hu x); [|exact Hux]. apply in_map_iff. exists (x, t). auto.
Qed.
(** A value used afterwards was used before, or is new. *)
Lemma dstep_inst A outs p q j : dstep A outs p q -> dssa (map fst A) p -> In j q -> In j p \/
  (exists b s a b' s' a' sc z shs pre, (exists post0, p = pre ++ post0) /\ dequantize_input pre b = Some b' /\ dequantize_input pre s = Some s' /\ dequantize_input pre a = Some a' /\ In (s', (shs, EQ8 sc z)) (types A pre) /\
     (exists opts r0 r1 r2 r3 sh0 sh1 sh2 sh3, j = {| i_op := KCustom "TFLite_Detection_PostProcess" opts; i_args := [b'; s'; a']; i_res := [(r0, (sh0, EI32)); (r1, (sh1, EI32)); (r2, (sh2, EQ8 sc z)); (r3, (sh3, EI32))] |} \/
        exists r, j = {| i_op := KDequantize; i_args := [r2]; i_res := [(r, (sh2, EF32))] |} /\ In (r2, (sh2, EQ8 sc z)) (types A q))).
Proof.
  intros St HS. destruct St as [pre i post fresh l Hd Hf | pre i post Hp Hu]; intros Hj.
  - apply detection_replace in Hd. destruct Hd as (opts & b & s & a & b' & s' & a' & r0 & r1 & r2 & r3 & sh0 & sh1 & sh2 & sh3 & shs & sc & z & Ei & Eb & Es & Ea & Et & ->).
    apply in_app_or in Hj. destruct Hj as [Hj | Hj]; [left; apply in_or_app; auto|]. cbn [app] in Hj.
    destruct Hj as [Hj | [Hj | Hj]]; [| |left; apply in_or_app; right; right; exact Hj]; right; exists b, s, a, b', s', a', sc, z, shs, pre; (split; [exists (i :: post); reflexivity|split; [exact Eb|split; [exact Es|split; [exact Ea|split; [apply assoc_in; exact Et|]]]]]).
    + exists opts, r0, r1, fresh, r3, sh0, sh1, sh2, sh3. left. symmetry. exact Hj.
    + exists opts, r0, r1, fresh, r3, sh0, sh1, sh2, sh3. right. exists r2. split; [symmetry; exact Hj|]. rewrite types_app. right. cbn. tauto.
  - left. apply in_app_or in Hj. apply in_or_app. destruct Hj; [auto|right; right; assumption].
Qed.

Lemma dequantize_input_used outs p pre post0 x y : p = pre ++ post0 -> dequantize_input pre x = Some y -> used p outs y.
Proof. intros -> H. apply dequantize_input_some in H. destruct H as (i & Hi & _ & Ha & _). right. exists i. split; [apply in_or_app; left; exact Hi|rewrite Ha; left; reflexivity]. Qed.
Lemma types_prefix A pre post x : In x (types A pre) -> In x (types A (pre ++ post)).
Proof. intros H. rewrite types_app. left. exact H. Qed.
Theorem C76_types : forall A outs n p q, dssa (map fst A) p -> dsteps A outs n p q ->
  (forall x t, In x outs -> In (x, t) (types A p) -> In (x, t) (types A q)) /\
  (forall i, In i q -> is_detection i -> In i p \/ well_quantised A q i).
Proof.
  intros A outs n p q HS St.
  enough (H : forall p0, (forall i, In i p -> is_detection i -> In i p0 \/ well_quantised A p i) ->
     (forall x t, In x outs -> In (x, t) (types A p) -> In (x, t) (types A q)) /\ (forall i, In i q -> is_detection i -> In i p0 \/ well_quantised A q i)) by (apply (H p); auto).
  intros p0. revert HS. induction St as [p | n p q r St _ IH]; intros HS Hw; [auto|].
  destruct (IH (dstep_ssa _ _ _ _ HS St)) as [H1 H2].
  - intros j Hj Hd. destruct (dstep_inst _ _ _ _ j St HS Hj) as [Hjp | (b & s & a & b' & s' & a' & sc & z & shs & pre & (post0 & Hp) & Eb & Es & Ea & Ht & opts & r0 & r1 & r2 & r3 & sh0 & sh1 & sh2 & sh3 & Hjj)].
    + destruct (Hw j Hjp Hd) as [Ho | (opts & b & s & a & r0 & r1 & r2 & r3 & sh0 & sh1 & sh2 & sh3 & shs & sc & z & Ej & Ht)]; [left; exact Ho|right].
      exists opts, b, s, a, r0, r1, r2, r3, sh0, sh1, sh2, sh3, shs, sc, z. split; [exact Ej|]. apply (dstep_types _ _ _ _ _ _ St Ht). right. exists j. split; [exact Hjp|]. rewrite Ej. cbn. auto.
    + destruct Hjj as [Ej | (r' & Ej & _)]; [|destruct Hd as [o Hd]; rewrite Ej in Hd; discriminate Hd]. right.
      exists opts, b', s', a', r0, r1, r2, r3, sh0, sh1, sh2, sh3, shs, sc, z. split; [exact Ej|]. apply (dstep_types _ _ _ _ _ _ St); [subst p; apply types_prefix; exact Ht|]. exact (dequantize_input_used outs p pre post0 s s' Hp Es).
  - split; [|exact H2]. intros x t Hx Ht. apply (H1 x t Hx). apply (dstep_types _ _ _ _ _ _ St Ht). left. exact Hx.
Qed.
Print Assumptions C76_types.

(** When every Dequantize reads per-tensor int8 data, the pass never aborts, whatever
    it has done so far, and every new detection operator reads int8 tensors only. *)
Lemma dstep_int8 A outs p q : dssa (map fst A) p -> int8_dequantize A p -> dstep A outs p q -> int8_dequantize A q.
Proof.
  intros HS H8 St j x Hj Ho Hx. destruct (dstep_inst _ _ _ _ j St HS Hj) as [Hjp | (b & s & a & b' & s' & a' & sc & z & shs & pre & _ & _ & _ & _ & _ & opts & r0 & r1 & r2 & r3 & sh0 & sh1 & sh2 & sh3 & Hjj)].
  - destruct (H8 j x Hjp Ho Hx) as (sh & sc & z & Ht). exists sh, sc, z. apply (dstep_types _ _ _ _ _ _ St Ht). right. exists j. auto.
  - destruct Hjj as [Ej | (r' & Ej & Ht)]; [subst j; discriminate Ho|]. subst j. cbn in Hx. destruct Hx as [<- | []]. exists sh2, sc, z. exact Ht.
Qed.
Lemma assoc_some : forall l x t, NoDup (map fst l) -> In (x, t) l -> assoc l x = Some t.
Proof.
  induction l as [|[y u] l IH]; intros x t H Hx; [destruct Hx|]. cbn in *. inversion H as [|? ? H1 H2]; subst. destruct Hx as [Hx | Hx].
  - injection Hx as -> ->. rewrite Nat.eqb_refl. reflexivity.
  - destruct (Nat.eqb_spec x y) as [-> | _]; [exfalso; apply H1; apply in_map_iff; exists (y, t); auto|]. exact (IH x t H2 Hx).
Qed.
Lemma scores_type A pre post s s' : NoDup (map fst A) -> dssa (map fst A) (pre ++ post) -> int8_dequantize A (pre ++ post) -> dequantize_input pre s = Some s' ->
  exists sh sc z, type_of A pre s' = Some (sh, EQ8 sc z).
Proof.
  intros HA HS H8 Es. apply dequantize_input_some in Es. destruct Es as (j & Hj & Oj & Aj & t & Rj).
  destruct (H8 j s') as (sh & sc & z & Ht); [apply in_or_app; auto|exact Oj|rewrite Aj; left; reflexivity|]. exists sh, sc, z.
  pose proof (dssa_nodup _ _ HA HS) as ND. apply dssa_app in HS. destruct HS as [H1 H2].
  assert (Hs : In s' (map fst A ++ ids pre)) by (apply (dssa_args pre _ j s' H1 Hj); rewrite Aj; left; reflexivity).
  apply assoc_some; [change (NoDup (map fst (types A pre))); rewrite names_types; apply dssa_nodup; assumption|].
  change (In (s', (sh, EQ8 sc z)) (types A pre)). rewrite types_app in Ht. destruct Ht as [Ht | Ht]; [exact Ht|]. exfalso.
  apply (dssa_new _ _ H2 s'); [|exact Hs]. unfold ids. apply in_flat_map in Ht. destruct Ht as (k & Hk & Ht). apply in_flat_map. exists k. split; [exact Hk|]. apply in_map_iff. exists (s', (sh, EQ8 sc z)). auto.
Qed.
Lemma detection_abort A p fresh i : detection A p fresh i = Abort -> exists b s a b' s' a',
  i_args i = [b; s; a] /\ dequantize_input p b = Some b' /\ dequantize_input p s = Some s' /\ dequantize_input p a = Some a' /\ forall sh sc z, type_of A p s' <> Some (sh, EQ8 sc z).
Proof.
  intros H. unfold detection in H. destruct (i_op i) as [|code opts| |]; try discriminate.
  destruct (negb (String.eqb code "TFLite_Detection_PostProcess")); [discriminate|].
  destruct (i_args i) as [|b [|s [|a [|]]]]; try discriminate.
  destruct (i_res i) as [|[r0 [sh0 e0]] res]; try discriminate. destruct res as [|[r1 [sh1 e1]] res]; try discriminate.
  destruct res as [|[r2 [sh2 e2]] res]; try discriminate. destruct res as [|[r3 [sh3 e3]] res]; try discriminate. destruct res; try discriminate.
  destruct (dequantize_input p b) as [b'|] eqn:Eb; [|discriminate]. destruct (dequantize_input p s) as [s'|] eqn:Es; [|discriminate]. destruct (dequantize_input p a) as [a'|] eqn:Ea; [|discriminate].
  exists b, s, a, b', s', a'. split; [reflexivity|split; [exact Eb|split; [exact Es|split; [exact Ea|]]]]. intros sh sc z Et. rewrite Et in H.
  destruct (ety_eqb e0 EI32 && ety_eqb e1 EI32 && ety_eqb e2 EF32 && ety_eqb e3 EI32); discriminate.
Qed.
Theorem C76_no_abort : forall A outs n p q, NoDup (map fst A) -> dssa (map fst A) p -> int8_dequantize A p -> dsteps A outs n p q ->
  (forall pre i post fresh, q = pre ++ i :: post -> detection A pre fresh i <> Abort) /\
  (forall i x, In i q -> is_detection i -> In x (i_args i) -> In i p \/ exists sh sc z, In (x, (sh, EQ8 sc z)) (types A q)).
Proof.
  intros A outs n p q HA HS H8 St.
  enough (H : forall p0, (forall i x, In i p -> is_detection i -> In x (i_args i) -> In i p0 \/ exists sh sc z, In (x, (sh, EQ8 sc z)) (types A p)) ->
     (dssa (map fst A) q /\ int8_dequantize A q) /\ (forall i x, In i q -> is_detection i -> In x (i_args i) -> In i p0 \/ exists sh sc z, In (x, (sh, EQ8 sc z)) (types A q))).
  { destruct (H p) as [[Q1 Q2] Q3]; [auto|]. split; [|exact Q3]. intros pre i post fresh -> Hab. apply detection_abort in Hab. destruct Hab as (b & s & a & b' & s' & a' & _ & _ & Es & _ & Hn).
    destruct (scores_type A pre (i :: post) s s' HA Q1 Q2 Es) as (sh & sc & z & Et). exact (Hn sh sc z Et). }
  intros p0. revert HS H8. induction St as [p | n p q r St _ IH]; intros HS H8 Hw; [auto|].
  apply IH; [exact (dstep_ssa _ _ _ _ HS St)|exact (dstep_int8 _ _ _ _ HS H8 St)|].
  intros j x Hj Hd Hx. destruct (dstep_inst _ _ _ _ j St HS Hj) as [Hjp | (b & s & a & b' & s' & a' & sc & z & shs & pre & (post0 & Hp) & Eb & Es & Ea & Ht & opts & r0 & r1 & r2 & r3 & sh0 & sh1 & sh2 & sh3 & Hjj)].
  - destruct (Hw j x Hjp Hd Hx) as [Ho | (sh & sc & z & Ht)]; [left; exact Ho|right]. exists sh, sc, z. apply (dstep_types _ _ _ _ _ _ St Ht). right. exists j. auto.
  - destruct Hjj as [Ej | (r' & Ej & _)]; [|destruct Hd as [o Hd]; rewrite Ej in Hd; discriminate Hd]. right.
    assert (G : forall w w', dequantize_input pre w = Some w' -> exists sh sc z, In (w', (sh, EQ8 sc z)) (types A q)).
    { intros w w' Ew. rewrite Hp in HS, H8. destruct (scores_type A pre post0 w w' HA HS H8 Ew) as (sh & sc1 & z1 & Et). exists sh, sc1, z1. apply assoc_in in Et. apply (dstep_types _ _ _ _ _ _ St); [rewrite Hp; apply types_prefix; exact Et|]. exact (dequantize_input_used outs p pre post0 w w' Hp Ew). }
    rewrite Ej in Hx. cbn in Hx. destruct Hx as [<- | [<- | [<- | []]]]; [exact (G b b' Eb)|exact (G s s' Es)|exact (G a a' Ea)].
Qed.
Print Assumptions C76_no_abort.

(** Where the pass has nothing left to do, no float detection operator on three
    dequantised tensors is left. *)
Lemma def_in_ssa : forall p T i x, dssa T p -> In i p -> In x (map fst (i_res i)) -> def_in p x = Some i.
Proof.
  induction p as [|j p IH]; intros T i x HS Hi Hx; [destruct Hi|]. destruct HS as (_ & _ & H3 & H4). cbn [def_in]. destruct Hi as [-> | Hi].
  - assert (E : existsb (Nat.eqb x) (map fst (i_res i)) = true) by (apply existsb_exists; exists x; split; [exact Hx|apply Nat.eqb_refl]). rewrite E. reflexivity.
  - destruct (existsb (Nat.eqb x) (map fst (i_res j))) eqn:E; [|exact (IH _ i x H4 Hi Hx)]. exfalso. apply existsb_exists in E. destruct E as (y & Hy & E). apply Nat.eqb_eq in E. subst y.
    apply (dssa_new _ _ H4 x); [|apply in_or_app; right; exact Hy]. apply in_flat_map. exists i. auto.
Qed.
Theorem C76_complete : forall A outs p, NoDup (map fst A) -> dssa (map fst A) p -> int8_dequantize A p -> (forall q, ~ dstep A outs p q) ->
  forall i b s a r0 r1 r2 r3 sh0 sh1 sh2 sh3, In i p -> is_detection i -> i_args i = [b; s; a] ->
  i_res i = [(r0, (sh0, EI32)); (r1, (sh1, EI32)); (r2, (sh2, EF32)); (r3, (sh3, EI32))] ->
  ~ (dequantized p b /\ dequantized p s /\ dequantized p a).
Proof.
  intros A outs p HA HS H8 Hn i b s a r0 r1 r2 r3 sh0 sh1 sh2 sh3 Hi [opts Ho] Ha Hr (Db & Ds & Da).
  apply in_split in Hi. destruct Hi as (pre & post & ->). pose proof HS as HS0. apply dssa_app in HS. destruct HS as [H1 H2].
  assert (G : forall x, In x (i_args i) -> dequantized (pre ++ i :: post) x -> exists y, dequantize_input pre x = Some y).
  { intros x Hx (j & y & t & Hj & Oj & Aj & Rj). exists y.
    assert (Hjp : In j pre).
    { apply in_app_or in Hj. destruct Hj as [Hj | Hj]; [exact Hj|exfalso]. destruct H2 as (G1 & G2 & G3 & G4). apply (dssa_new (i :: post) (map fst A ++ ids pre)) with (x := x); [cbn [dssa]; auto|apply in_flat_map; exists j; split; [exact Hj|rewrite Rj; left; reflexivity]|exact (G1 x Hx)]. }
    unfold dequantize_input. rewrite (def_in_ssa pre _ j x H1 Hjp) by (rewrite Rj; left; reflexivity). rewrite Oj, Aj, Rj. reflexivity. }
  destruct (G b) as [b' Eb]; [rewrite Ha; cbn; auto|exact Db|]. destruct (G s) as [s' Es]; [rewrite Ha; cbn; auto|exact Ds|]. destruct (G a) as [a' Ea]; [rewrite Ha; cbn; auto|exact Da|].
  destruct (scores_type A pre (i :: post) s s' HA HS0 H8 Es) as (shs & sc & z & Et).
  set (names := map fst A ++ ids (pre ++ i :: post)).
  assert (Hf : ~ In (Datatypes.S (list_max names)) names). { intros Hin. pose proof (proj1 (list_max_le names (list_max names)) (le_n _)) as F. rewrite Forall_forall in F. specialize (F _ Hin). lia. }
  eapply Hn. eapply (DS_rule A outs pre i post (Datatypes.S (list_max names))); [|exact Hf].
  unfold detection. rewrite Ho, Ha, Hr, Eb, Es, Ea, Et. reflexivity.
Qed.
Print Assumptions C76_complete.

(** ** Without that hypothesis it is false: a Dequantize also widens float16 and
    per-axis data. With float16 scores the cast fails; with float16 boxes the new
    operator is given float16 boxes. *)
Definition toy (eb es : ety) : list (nat * ty) * list inst :=
  ([(0%nat, ([4], eb)); (1%nat, ([4], es)); (2%nat, ([4], EQ8 1 0))],
   [ {| i_op := KDequantize; i_args := [0%nat]; i_res := [(3%nat, ([4], EF32))] |};
     {| i_op := KDequantize; i_args := [1%nat]; i_res := [(4%nat, ([4], EF32))] |};
     {| i_op := KDequantize; i_args := [2%nat]; i_res := [(5%nat, ([4], EF32))] |};
     {| i_op := KCustom "TFLite_Detection_PostProcess" 7; i_args := [3; 4; 5]%nat;
        i_res := [(6%nat, ([4], EI32)); (7%nat, ([1], EI32)); (8%nat, ([1], EF32)); (9%nat, ([1], EI32))] |} ]).
Definition toy_pre (eb es : ety) : list inst := firstn 3 (snd (toy eb es)).
Definition toy_op : inst := nth 3 (snd (toy EF16 EF16)) {| i_op := KEffect 0; i_args := []; i_res := [] |}.
Lemma toy_split eb es : snd (toy eb es) = toy_pre eb es ++ toy_op :: [].
Proof. reflexivity. Qed.
Lemma toy_ssa eb es : dssa (map fst (fst (toy eb es))) (snd (toy eb es)).
Proof.
  cbn. repeat match goal with |- _ /\ _ => split | |- NoDup _ => constructor | |- True => exact I | |- forall x, _ => intros x Hx; cbn in *; lia | |- ~ _ => cbn; lia end.
Qed.
Theorem C76_half_float_refuted :
  (exists A pre i fresh, dssa (map fst A) (pre ++ [i]) /\ detection A pre fresh i = Abort) /\
  (exists A outs p q i, dssa (map fst A) p /\ dsteps A outs 1 p q /\ In i q /\ is_detection i /\ ~ In i p /\
     exists x sh, In x (i_args i) /\ In (x, (sh, EF16)) (types A q)).
Proof.
  split.
  - exists (fst (toy (EQ8 1 0) EF16)), (toy_pre (EQ8 1 0) EF16), toy_op, 10%nat. split; [exact (toy_ssa (EQ8 1 0) EF16)|reflexivity].
  - destruct (detection (fst (toy EF16 (EQ8 1 0))) (toy_pre EF16 (EQ8 1 0)) 10 toy_op) as [| |l] eqn:E; [discriminate E|discriminate E|].
    exists (fst (toy EF16 (EQ8 1 0))), [6; 7; 8; 9]%nat, (snd (toy EF16 (EQ8 1 0))), (toy_pre EF16 (EQ8 1 0) ++ l ++ []).
    exists {| i_op := KCustom "TFLite_Detection_PostProcess" 7; i_args := [0; 1; 2]%nat; i_res := [(6%nat, ([4], EI32)); (7%nat, ([1], EI32)); (10%nat, ([1], EQ8 1 0)); (9%nat, ([1], EI32))] |}.
    split; [exact (toy_ssa EF16 (EQ8 1 0))|]. split.
    + eapply dsteps_S; [|apply dsteps_0]. rewrite toy_split. apply (DS_rule _ _ _ _ _ 10); [exact E|]. cbn. intuition lia.
    + injection E as <-. split; [apply in_or_app; right; left; reflexivity|]. split; [exists 7; reflexivity|]. split.
      * cbn. intros [H | [H | [H | [H | []]]]]; discriminate H.
      * exists 0%nat, [4]. split; [left; reflexivity|left; reflexivity].
Qed.
Print Assumptions C76_half_float_refuted.

(** ** A concrete kernel and program. The kernel returns the boxes' sum times 2048,
    the number of scores, the scores and a count. *)
Definition toy_dq (t : ty) (v : Q) : option Q := match snd t with EQ8 sc z => Some (sc * (v - inject_Z z))%Q | _ => None end.
Definition toy_sem (o : opk) (args : list (ty * Q)) (res : list ty) : option (list Q) :=
  match o, args, res with
  | KDequantize, [(t, v)], [(_, EF32)] => match toy_dq t v with Some f => Some [f] | None => None end
  | KCustom _ _, [(tb, vb); (ts, vs); (ta, va)], [_; _; _; _] =>
      match snd ts with
      | EQ8 _ _ => match toy_dq tb vb, toy_dq ta va with Some fb, Some fa => Some [(2048 * (fb + fa))%Q; 1%Q; vs; 1%Q] | _, _ => None end
      | EF32 => Some [(2048 * (vb + va))%Q; 1%Q; vs; 1%Q]
      | _ => None
      end
  | _, _, _ => None
  end.
Lemma toy_kernel : integer_kernel toy_sem.
Proof.
  intros opts tb vb tbf fb shs sc z vs tsf fs ta va taf fa sh0 sh1 sh2 sh3 o0 o1 o2 o3 Hb Hs Ha Hd.
  unfold toy_sem in *. destruct tbf as [sb [| | | | |]]; try discriminate. destruct tsf as [ss [| | | | |]]; try discriminate. destruct taf as [sa [| | | | |]]; try discriminate.
  cbn [snd] in *. destruct (toy_dq tb vb) as [fb'|] eqn:Eb; [|discriminate]. destruct (toy_dq ta va) as [fa'|] eqn:Ea; [|discriminate]. cbn [toy_dq snd] in *.
  injection Hb as ->. injection Ha as ->. injection Hs as <-. injection Hd as <- <- <- <-. exists vs. split; reflexivity.
Qed.
Definition toy_env : nat -> option (ty * Q) := fun x =>
  match x with 0%nat => Some (([4], EQ8 (1#2) 3), 7%Q) | 1%nat => Some (([4], EQ8 (1#4) (-5)), 11%Q) | 2%nat => Some (([4], EQ8 1 0), 2%Q) | _ => None end.
Example C76_example : exists A p e q, integer_kernel toy_sem /\ fits_args A toy_env /\ dssa (map fst A) p /\ int8_dequantize A p /\ deval toy_sem toy_env p = Some e /\
  e 8%nat = Some (([1], EF32), (16 # 4)%Q) /\ dsteps A [6; 7; 8; 9]%nat 4 p q /\
  q = [ {| i_op := KCustom "TFLite_Detection_PostProcess" 7; i_args := [0; 1; 2]%nat; i_res := [(6%nat, ([4], EI32)); (7%nat, ([1], EI32)); (10%nat, ([1], EQ8 (1#4) (-5))); (9%nat, ([1], EI32))] |};
        {| i_op := KDequantize; i_args := [10%nat]; i_res := [(8%nat, ([1], EF32))] |} ].
Proof.
  exists (fst (toy (EQ8 (1#2) 3) (EQ8 (1#4) (-5)))), (snd (toy (EQ8 (1#2) 3) (EQ8 (1#4) (-5)))).
  destruct (deval toy_sem toy_env (snd (toy (EQ8 (1#2) 3) (EQ8 (1#4) (-5))))) as [e|] eqn:E; [|discriminate E].
  exists e. eexists. split; [exact toy_kernel|]. split; [|split; [apply toy_ssa|split; [|split; [reflexivity|split; [injection E as <-; reflexivity|split; [|reflexivity]]]]]].
  - split; [|split].
    + cbn. repeat constructor; cbn; lia.
    + cbn. intros x t [H | [H | [H | []]]]; injection H as <- <-; cbn; eexists; reflexivity.
    + intros x Hx. cbn in Hx. destruct x as [|[|[|x]]]; [exfalso; apply Hx; auto|exfalso; apply Hx; auto|exfalso; apply Hx; auto|reflexivity].
  - intros i x Hi Ho Hx. cbn in Hi. destruct Hi as [<- | [<- | [<- | [<- | []]]]]; cbn in Hx; try discriminate Ho; destruct Hx as [<- | []].
    + exists [4], (1#2)%Q, 3. cbn. auto.
    + exists [4], (1#4)%Q, (-5). cbn. auto.
    + exists [4], 1%Q, 0. cbn. auto.
  - eapply dsteps_S.
    { rewrite toy_split. apply (DS_rule _ _ _ _ _ 10); [reflexivity|]. cbn. intuition lia. }
    cbn [app toy_pre toy snd firstn].
    Ltac dead := cbn; intros ? [<- | []] [H | (j & H & Hx)]; [cbn in H; lia|cbn in H; repeat (destruct H as [<- | H]; [cbn in Hx; lia|]); destruct H].
    eapply dsteps_S; [apply (DS_dead _ _ []); [reflexivity|dead]|]. eapply dsteps_S; [apply (DS_dead _ _ []); [reflexivity|dead]|]. eapply dsteps_S; [apply (DS_dead _ _ []); [reflexivity|dead]|].
    apply dsteps_0.
Qed.
