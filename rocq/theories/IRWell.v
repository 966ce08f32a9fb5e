(** * IRWell: conditions on the initial program only.

    [IRSound] asks for conditions at every rewriting. Here they are derived from
    conditions on the program the pass starts from. *)
From Coq Require Import QArith.
From Verif Require Import Base Spec Padding Threshold IR IRProofs IRRules IRSound IRTerm.
Open Scope Z_scope.

(** Values that constant folding can reach. *)
Definition pure (o : op) : bool := match o with OQuant | ODequant | OBin _ _ | OGe | OLe => true | _ => false end.
Inductive cst (p : list instr) : nat -> Prop :=
| cst_c x v a : def p x = Some (OConst v, a) -> cst p x
| cst_f x o a : def p x = Some (o, a) -> pure o = true -> (forall y, In y a -> cst p y) -> cst p x.

(** The constant [y] is at most a vector and combining it with [x] keeps [x]'s shape. *)
Definition small_const (e : env) (x y : nat) : Prop :=
  forall vx vy, e x = Some vx -> e y = Some vy ->
    (length (vshape vy) <= 1)%nat /\ bsh (vshape vx) (vshape vy) = Some (vshape vx).
Definition binary_filter (t : tensor Q) : Prop :=
  (forall i, in_range (sh t) i -> at_ t i == 1 \/ at_ t i == - (1))%Q /\ numel (removelast (sh t)) < 2 ^ 31.

Definition instr_ok (p : list instr) (e : env) (i : instr) : Prop :=
  match iop i, iargs i with
  | OBin _ _, [x; y] => cst p y -> ~ cst p x -> small_const e x y
  | OGe, [x; y] => cst p y -> small_const e x y
  | OLe, [y; x] => cst p y -> small_const e x y
  | OMaxPool _ a, _ => a = ActNone \/ a = ActReluN1To1
  | OConv _, _ :: f :: _ => forall t, e f = Some (VF t) -> binary_filter t
  | _, _ => True
  end.
Definition tame (p : list instr) (e : env) : Prop := forall i, In i p -> instr_ok p e i.

Lemma cst_inv p x : cst p x -> exists o a, def p x = Some (o, a) /\
  ((exists v, o = OConst v) \/ pure o = true /\ forall y, In y a -> cst p y).
Proof. intros H. inversion H; subst; eauto 8. Qed.

Lemma def_in S p r o a : ssa S p -> In (r, o, a) p -> def p r = Some (o, a).
Proof.
  intros HS Hi. assert (ND := NoDup_ids S p HS). clear HS. unfold def.
  induction p as [|[[x q] b] p IH]; [contradiction|]. cbn [find iid fst]. inversion ND as [|? ? N1 ND']; subst.
  destruct Hi as [E|Hi].
  - injection E as -> -> ->. rewrite Nat.eqb_refl. reflexivity.
  - destruct (Nat.eqb_spec x r) as [->|_]; [|exact (IH Hi ND')]. exfalso. apply N1. apply in_map_iff. exists (r, o, a). auto.
Qed.
Lemma def_mem p x o a : def p x = Some (o, a) -> In (x, o, a) p.
Proof. intros H. destruct (def_split _ _ _ _ H) as (A & B & -> & _). apply in_or_app. right. left. reflexivity. Qed.
Lemma def_ids p x : ~ In x (map iid p) -> def p x = None.
Proof.
  intros H. destruct (def p x) as [[o a]|] eqn:E; [|reflexivity]. exfalso. apply H, in_map_iff.
  exists (x, o, a). split; [reflexivity|]. apply def_mem, E.
Qed.

(** The two programs of a step agree on what is constant. *)
Section Same.
  Variables (S : list nat) (pre post news : list instr) (r : nat) (o o' : op) (a a' : list nat).
  Let p := pre ++ (r, o, a) :: post.
  Let q := pre ++ news ++ (r, o', a') :: post.
  Hypothesis HSp : ssa S p.
  Hypothesis HSq : ssa S q.
  Hypothesis NF : forall x, In x (map iid news) -> ~ In x S /\ ~ In x (map iid p).
  Lemma same_def x : ~ In x (map iid news) -> x <> r -> def q x = def p x.
  Proof.
    intros Hn Hr. unfold p, q. destruct (in_dec Nat.eq_dec x (map iid pre)) as [Hp|Hp].
    - rewrite !(def_app_in pre) by exact Hp. reflexivity.
    - rewrite !(def_app_notin pre) by exact Hp. rewrite (def_app_notin news) by exact Hn.
      unfold def. cbn [find iid fst]. destruct (Nat.eqb_spec r x); [congruence|reflexivity].
  Qed.
  Lemma same_args x b ob : def p x = Some (ob, b) -> forall y, In y b -> ~ In y (map iid news).
  Proof.
    intros H y Hy C. destruct (NF y C) as [C1 C2]. assert (K := args_scope S p HSp _ y (def_mem _ _ _ _ H) Hy).
    apply in_app_or in K. destruct K as [K|K]; [apply C2, in_rev, K|contradiction].
  Qed.
  Lemma same_r : def p r = Some (o, a).
  Proof. apply (def_in S); [exact HSp|]. apply in_or_app. right. left. reflexivity. Qed.
  Lemma same_r' : def q r = Some (o', a').
  Proof. apply (def_in S); [exact HSq|]. apply in_or_app. right. apply in_or_app. right. left. reflexivity. Qed.
  Lemma same_news x on an : In (x, on, an) news -> def q x = Some (on, an).
  Proof. intros H. apply (def_in S); [exact HSq|]. apply in_or_app. right. apply in_or_app. left. exact H. Qed.

  Lemma cst_same_fwd : (cst p r -> cst q r) -> forall x, cst p x -> cst q x.
  Proof.
    intros Hr x H. assert (G : ~ In x (map iid news)).
    { intros C. destruct (NF x C) as [_ C2]. destruct (cst_inv _ _ H) as (ob & b & E & _). apply C2, in_map_iff.
      exists (x, ob, b). split; [reflexivity|]. apply def_mem, E. }
    induction H as [x v b E|x ob b E P H IH].
    - destruct (Nat.eq_dec x r) as [->|N]; [apply Hr; eapply cst_c, E|]. eapply cst_c. rewrite same_def by assumption. exact E.
    - destruct (Nat.eq_dec x r) as [->|N]; [apply Hr; eapply cst_f; eassumption|]. eapply cst_f; [rewrite same_def by assumption; exact E|exact P|].
      intros y Hy. apply IH; [exact Hy|]. eapply same_args; eassumption.
  Qed.
  Lemma cst_same_bwd : (cst q r -> cst p r) -> forall x, ~ In x (map iid news) -> cst q x -> cst p x.
  Proof.
    intros Hr x G H. induction H as [x v b E|x ob b E P H IH].
    - destruct (Nat.eq_dec x r) as [->|N]; [apply Hr; eapply cst_c, E|]. eapply cst_c. rewrite <- same_def by assumption. exact E.
    - destruct (Nat.eq_dec x r) as [->|N]; [apply Hr; eapply cst_f; eassumption|]. rewrite same_def in E by assumption.
      eapply cst_f; [exact E|exact P|]. intros y Hy. apply IH; [exact Hy|]. eapply same_args; eassumption.
  Qed.
End Same.

(** Whether a value is constant depends on what precedes it. *)
Lemma cst_pre S pre post x : ssa S (pre ++ post) -> In x (rev (map iid pre) ++ S) -> (cst (pre ++ post) x <-> cst pre x).
Proof.
  intros HS Hx. assert (HS1 : ssa S pre) by (apply ssa_app in HS; tauto).
  assert (D : forall y, In y (rev (map iid pre) ++ S) -> def (pre ++ post) y = def pre y).
  { intros y Hy. destruct (in_dec Nat.eq_dec y (map iid pre)) as [Hp|Hp]; [apply def_app_in, Hp|].
    rewrite (def_ids pre) by exact Hp. apply def_ids. intros C. apply (ssa_notin _ _ HS y C).
    apply in_app_or in Hy. destruct Hy as [Hy|Hy]; [|exact Hy]. apply in_rev in Hy. contradiction. }
  split; intros H; induction H as [x v b E|x ob b E P H IH].
  - eapply cst_c. rewrite <- D by exact Hx. exact E.
  - rewrite D in E by exact Hx. eapply cst_f; [exact E|exact P|]. intros y Hy. apply IH; [exact Hy|].
    apply (def_scope S pre x ob b HS1 E), Hy.
  - eapply cst_c. rewrite D by exact Hx. exact E.
  - eapply cst_f; [rewrite D by exact Hx; exact E|exact P|]. intros y Hy. apply IH; [exact Hy|].
    apply (def_scope S pre x ob b HS1 E), Hy.
Qed.

Lemma cst_def p x o a : def p x = Some (o, a) -> pure o = true -> (cst p x <-> forall y, In y a -> cst p y).
Proof.
  intros E P. split.
  - intros H. destruct (cst_inv _ _ H) as (o1 & a1 & E1 & D). rewrite E in E1. injection E1 as <- <-.
    destruct D as [[v ->]|[_ D]]; [discriminate|exact D].
  - intros H. eapply cst_f; eassumption.
Qed.
Lemma cst_no p x o a : def p x = Some (o, a) -> pure o = false -> (forall v, o <> OConst v) -> ~ cst p x.
Proof.
  intros E P N H. destruct (cst_inv _ _ H) as (o1 & a1 & E1 & D). rewrite E in E1. injection E1 as <- <-.
  destruct D as [[v ->]|[D _]]; [apply (N v eq_refl)|congruence].
Qed.

Lemma rule_cst G arm S pre post r o a inner news o' a' :
  let p := pre ++ (r, o, a) :: post in let q := pre ++ news ++ (r, o', a') :: post in
  ssa S p -> ssa S q -> rule G arm (def pre) (o, a) inner news (o', a') -> (cst p r <-> cst q r).
Proof.
  intros p q HSp HSq R.
  assert (HS1 : ssa S pre) by (apply ssa_app in HSp; tauto).
  assert (Rp : def p r = Some (o, a)) by (apply (same_r S pre post r o a HSp)).
  assert (Rq : def q r = Some (o', a')) by (apply (same_r' S pre post news r o' a' HSq)).
  assert (Np : forall x on an, In (x, on, an) news -> def q x = Some (on, an)) by (intros x on an; apply (same_news S pre post news r o' a' HSq)).
  assert (Cp : forall x, In x (rev (map iid pre) ++ S) -> (cst p x <-> cst pre x)) by (intros x Hx; apply (cst_pre S); assumption).
  assert (Cq : forall x, In x (rev (map iid pre) ++ S) -> (cst q x <-> cst pre x)) by (intros x Hx; apply (cst_pre S); assumption).
  assert (Ci : forall x o1 a1, def pre x = Some (o1, a1) -> In x (rev (map iid pre) ++ S) /\ forall y, In y a1 -> In y (rev (map iid pre) ++ S)).
  { intros x o1 a1 H. destruct (def_scope S pre x o1 a1 HS1 H) as [H1 H2]. split; [|intros y Hy; apply H2, Hy].
    apply in_or_app. left. apply in_rev. rewrite rev_involutive. exact H1. }
  clearbody p q. inversion R; subst; clear R;
  (match goal with HD : def pre inner = Some _ |- _ => rename HD into DI end);
  destruct (Ci _ _ _ DI) as [K1 K2].
  - rewrite (cst_def _ _ _ _ Rp), (cst_def _ _ _ _ Rq) by reflexivity.
    split; intros H y [<-|[]].
    + specialize (H inner (or_introl eq_refl)). rewrite Cp in H by exact K1. rewrite (cst_def _ _ _ _ DI) in H by reflexivity.
      apply Cq; [apply K2; left; reflexivity|]. apply H. left. reflexivity.
    + specialize (H x (or_introl eq_refl)). rewrite Cq in H by (apply K2; left; reflexivity).
      rewrite Cp by exact K1. rewrite (cst_def _ _ _ _ DI) by reflexivity. intros y [<-|[<-|[]]]; [exact H|].
      match goal with HC : def pre c = Some _ |- _ => eapply cst_c, HC end.
  - rewrite (cst_def _ _ _ _ Rp), (cst_def _ _ _ _ Rq) by reflexivity.
    assert (F1 := Np f1 _ _ (or_introl eq_refl)).
    split; intros H y [<-|[]].
    + specialize (H inner (or_introl eq_refl)). rewrite Cp in H by exact K1. rewrite (cst_def _ _ _ _ DI) in H by reflexivity.
      rewrite (cst_def _ _ _ _ F1) by reflexivity. intros y Hy. apply Cq; [apply K2, Hy|apply H, Hy].
    + specialize (H f1 (or_introl eq_refl)). rewrite (cst_def _ _ _ _ F1) in H by reflexivity. rewrite Cp by exact K1.
      rewrite (cst_def _ _ _ _ DI) by reflexivity. intros y Hy. apply Cq; [apply K2, Hy|apply H, Hy].
  - rewrite (cst_def _ _ _ _ Rp), (cst_def _ _ _ _ Rq) by reflexivity.
    assert (F1 := Np f1 _ _ (or_introl eq_refl)).
    split; intros H y [<-|[]].
    + specialize (H inner (or_introl eq_refl)). rewrite Cp in H by exact K1. rewrite (cst_def _ _ _ _ DI) in H by reflexivity.
      rewrite (cst_def _ _ _ _ F1) by reflexivity. intros y Hy.
      assert (Hy' : In y [l; r0]) by (cbn in *; tauto). apply Cq; [apply K2, Hy'|apply H, Hy'].
    + specialize (H f1 (or_introl eq_refl)). rewrite (cst_def _ _ _ _ F1) in H by reflexivity. rewrite Cp by exact K1.
      rewrite (cst_def _ _ _ _ DI) by reflexivity. intros y Hy.
      assert (Hy' : In y [r0; l]) by (cbn in *; tauto). apply Cq; [apply K2, Hy|apply H, Hy'].
  - split; intros H; exfalso; [|eapply (cst_no q); [exact Rq|reflexivity|discriminate|exact H]].
    rewrite (cst_def _ _ _ _ Rp) in H by reflexivity. specialize (H inner (or_introl eq_refl)). rewrite Cp in H by exact K1.
    revert H. eapply cst_no; [exact DI|reflexivity|discriminate].
  - split; intros H; exfalso; [|eapply (cst_no q); [exact Rq|reflexivity|discriminate|exact H]].
    rewrite (cst_def _ _ _ _ Rp) in H by reflexivity. specialize (H inner (or_introl eq_refl)). rewrite Cp in H by exact K1.
    revert H. eapply cst_no; [exact DI|reflexivity|discriminate].
  - split; intros H; exfalso; [|eapply (cst_no q); [exact Rq|reflexivity|discriminate|exact H]].
    eapply (cst_no p); [exact Rp|reflexivity|discriminate|exact H].
  - split; intros H; exfalso; [|eapply (cst_no q); [exact Rq|reflexivity|discriminate|exact H]].
    rewrite (cst_def _ _ _ _ Rp) in H by reflexivity. specialize (H inner (or_introl eq_refl)). rewrite Cp in H by exact K1.
    revert H. eapply cst_no; [exact DI|reflexivity|discriminate].
  - split; intros H; exfalso; [|eapply (cst_no q); [exact Rq|reflexivity|discriminate|exact H]].
    rewrite (cst_def _ _ _ _ Rp) in H by reflexivity. specialize (H inner (or_introl eq_refl)). rewrite Cp in H by exact K1.
    revert H. eapply cst_no; [exact DI|reflexivity|discriminate].
Qed.

(** A value equal to another has its shape. *)
Lemma veq_shape v w : veq v w -> vshape v = vshape w.
Proof. destruct v, w; cbn; try contradiction; try (intros [H _]; exact H). reflexivity. Qed.
Lemma veq_filter t w : veq (VF t) w -> binary_filter t -> forall t', w = VF t' -> binary_filter t'.
Proof.
  intros H [B1 B2] t' ->. cbn in H. destruct H as [Hs He]. split; [|rewrite <- Hs; exact B2].
  intros i Hi. rewrite <- Hs in Hi. rewrite <- (He i Hi). apply B1, Hi.
Qed.

(** The conditions on the program give the conditions of the rule that is applied. *)
Lemma tame_rule arm S pre post r o a inner news o' a' e0 e :
  let p := pre ++ (r, o, a) :: post in
  ssa S p -> eval p e0 = Some e -> tame p e ->
  rule as_is arm (def pre) (o, a) inner news (o', a') ->
  rule (fits e0 p) arm (def pre) (o, a) inner news (o', a').
Proof.
  intros p HSp HE HT R.
  assert (HS1 : ssa S pre) by (apply ssa_app in HSp; tauto).
  assert (Rp : In (r, o, a) p) by (apply in_or_app; right; left; reflexivity).
  assert (Dp : forall x o1 a1, def pre x = Some (o1, a1) -> def p x = Some (o1, a1)).
  { intros x o1 a1 H. unfold p. rewrite def_app_in; [exact H|]. apply (def_scope S pre x o1 a1 HS1 H). }
  assert (Vc : forall x v, def pre x = Some (OConst v, []) -> e x = Some v).
  { intros x v H. destruct (eval_def p S e0 e x _ _ HSp HE (Dp _ _ _ H)) as (vs & w & H1 & H2 & H3 & _).
    cbn in H1. injection H1 as <-. cbn in H2. injection H2 as <-. exact H3. }
  assert (Va : forall x o1 a1, def pre x = Some (o1, a1) -> exists v, e x = Some v).
  { intros x o1 a1 H. destruct (eval_def p S e0 e x _ _ HSp HE (Dp _ _ _ H)) as (vs & w & _ & _ & H3 & _). eauto. }
  inversion R; subst; clear R;
  (match goal with HD : def pre inner = Some _ |- _ => rename HD into DI end);
  assert (TI := HT _ (def_mem _ _ _ _ (Dp _ _ _ DI))); assert (TR := HT _ Rp); cbn [instr_ok iop iargs fst snd] in TI, TR.
  - match goal with HC : def pre c = Some _ |- _ => rename HC into DC end.
    eapply R_ge_zero; try eassumption. cbn [fits g_const].
    destruct (eval_def p S e0 e inner _ _ HSp HE (Dp _ _ _ DI)) as (vs & w & H1 & _).
    apply look_cons in H1. destruct H1 as (vx & us & Ex & _ & _).
    destruct (TI (cst_c _ _ _ _ (Dp _ _ _ DC)) vx (VF t) Ex (Vc _ _ DC)) as [T1 T2]. split; [exact T1|]. eauto.
  - eapply R_ge; eassumption.
  - eapply R_le; eassumption.
  - match goal with HC : def pre v = Some _ |- _ => rename HC into DC end.
    eapply R_add; try eassumption. cbn [fits g_const]. destruct (Va _ _ _ DI) as [vx Ex].
    destruct (TR (cst_c _ _ _ _ (Dp _ _ _ DC)) (cst_no _ _ _ _ (Dp _ _ _ DI) eq_refl ltac:(discriminate)) vx (VF tv) Ex (Vc _ _ DC)) as [T1 T2].
    split; [exact T1|]. eauto.
  - match goal with HC : def pre v = Some _ |- _ => rename HC into DC end.
    eapply R_mul; try eassumption. cbn [fits g_const]. destruct (Va _ _ _ DI) as [vx Ex].
    destruct (TR (cst_c _ _ _ _ (Dp _ _ _ DC)) (cst_no _ _ _ _ (Dp _ _ _ DI) eq_refl ltac:(discriminate)) vx (VF tv) Ex (Vc _ _ DC)) as [T1 T2].
    split; [exact T1|]. eauto.
  - eapply R_act; eassumption.
  - eapply R_pool; [reflexivity|eassumption|exact TI].
  - match goal with HC : def pre f = Some _ |- _ => rename HC into DC end.
    eapply R_bits; try eassumption. cbn [fits g_filter]. exact (TI tf (Vc _ _ DC)).
Qed.

(** Multiplying a binary filter by the signs keeps it binary. *)
Lemma bix_range s : forall t u i, bsh s t = Some u -> in_range u i -> in_range s (bix s i).
Proof.
  induction s as [|d s IH]; intros t u i H Hi; [destruct i; constructor|]. destruct t as [|k t].
  - cbn in H. injection H as <-. inversion Hi as [|? j ? i' Hj Hi']; subst. cbn [bix]. constructor.
    + destruct (Z.eqb_spec d 1); lia.
    + apply (IH [] s i'); [destruct s; reflexivity|exact Hi'].
  - cbn [bsh] in H. destruct (bsh s t) as [w|] eqn:E; [|discriminate].
    destruct (Z.eqb_spec d k) as [->|]; [|destruct (Z.eqb_spec k 1) as [->|]; [|destruct (Z.eqb_spec d 1) as [->|]; [|discriminate]]];
    injection H as <-; inversion Hi as [|? j ? i' Hj Hi']; subst; cbn [bix]; (constructor; [|apply (IH t w i'); assumption]);
    match goal with |- context [?z =? 1] => destruct (Z.eqb_spec z 1) end; lia.
Qed.
Lemma signs_filter ci kw kh co f m u : sh f = [ci; kw; kh; co] -> binary_filter f -> bmap2 Qmult f (signs_4d m) = Some u -> binary_filter u.
Proof.
  intros Hs [B1 B2] H. unfold bmap2 in H. destruct (bsh (sh f) (sh (signs_4d m))) as [s|] eqn:E; [|discriminate]. injection H as <-.
  split; cbn [sh at_].
  - intros i Hi. assert (K := bix_range _ _ _ _ E Hi). specialize (B1 _ K). cbn [signs_4d at_].
    destruct (Qle_bool _ _); destruct B1 as [-> | ->]; cbn; [left|right|right|left]; reflexivity.
  - rewrite Hs in E, B2. cbn [signs_4d sh bsh] in E. set (L := last (sh m) 1) in *.
    assert (K : exists z, s = [ci; kw; kh; z]).
    { destruct (co =? L); [|destruct (L =? 1); [|destruct (co =? 1); [|discriminate]]]; cbn in E;
      repeat (match type of E with context [?z =? 1] => destruct (Z.eqb_spec z 1) as [->|]; cbn in E end); injection E as <-; eauto. }
    destruct K as [z ->]. exact B2.
Qed.

(** An instruction that stays keeps its condition. *)
Lemma instr_ok_same p q e e' i :
  (forall x, In x (iargs i) -> (cst q x <-> cst p x)) ->
  (forall x w, In x (iargs i) -> e' x = Some w -> exists v, e x = Some v /\ veq v w) ->
  instr_ok p e i -> instr_ok q e' i.
Proof.
  destruct i as [[r o] a]. unfold instr_ok. cbn [iop iargs fst snd]. intros HC HV H.
  assert (SM : forall x y, In x a -> In y a -> small_const e x y -> small_const e' x y).
  { intros x y Hx Hy HS vx vy Ex Ey. destruct (HV x vx Hx Ex) as (wx & Wx & Qx). destruct (HV y vy Hy Ey) as (wy & Wy & Qy).
    rewrite <- (veq_shape _ _ Qx), <- (veq_shape _ _ Qy). apply HS; assumption. }
  destruct o; auto.
  - destruct a as [|x [|y [|? ?]]]; auto. intros Hy. apply SM; cbn; auto. apply H. apply HC; cbn; auto.
  - destruct a as [|y [|x [|? ?]]]; auto. intros Hy. apply SM; cbn; auto. apply H. apply HC; cbn; auto.
  - destruct a as [|x [|y [|? ?]]]; auto. intros Hy Hx. apply SM; cbn; auto. apply H; [apply HC; cbn; auto|].
    intros C. apply Hx, HC; cbn; auto.
  - destruct a as [|x [|f a]]; auto. intros t Ht. destruct (HV f _ (or_intror (or_introl eq_refl)) Ht) as (w & Ew & Vw).
    destruct w as [t0| | | |]; try contradiction. specialize (H t0 Ew). eapply veq_filter; eauto.
Qed.

Lemma look_some e l vs x : look e l = Some vs -> In x l -> exists v, e x = Some v.
Proof.
  revert vs. induction l as [|y l IH]; intros vs H Hx; [contradiction|]. apply look_cons in H. destruct H as (v & us & E1 & E2 & _).
  destruct Hx as [->|Hx]; eauto.
Qed.
Lemma conv_filter_shape c vs v : denote (OConv c) vs = Some v -> forall i f rest, vs = i :: VF f :: rest ->
  exists ci kw kh co, sh f = [ci; kw; kh; co].
Proof.
  intros H i f rest ->. assert (K : forall s, bc_geom c s (sh f) <> None -> exists ci kw kh co, sh f = [ci; kw; kh; co]).
  { intros s. unfold bc_geom. destruct s as [|? [|? [|? [|? [|? ?]]]]]; try congruence.
    destruct (sh f) as [|? [|? [|? [|? [|? ?]]]]]; try congruence. eauto. }
  cbn in H. destruct i as [|ti| | |]; try discriminate. destruct rest as [|m [|b [|t [|? ?]]]]; try discriminate;
  try (destruct m; discriminate); try (destruct m; try discriminate; destruct b; discriminate);
  try (destruct m; try discriminate; destruct b; try discriminate; destruct t; discriminate).
  destruct m; try discriminate; destruct b; try discriminate; destruct t; try discriminate; apply (K (sh ti)); intros C;
  [unfold bc_float in H | unfold bc_bits in H]; rewrite C in H; discriminate.
Qed.

Theorem step_tame arm S outs e0 p q e :
  ssa S p -> (forall x, In x outs -> In x (S ++ map iid p)) -> eval p e0 = Some e -> tame p e ->
  step as_is arm S outs p q -> step (fits e0 p) arm S outs p q /\ forall e', eval q e0 = Some e' -> tame q e'.
Proof.
  intros HS HO HE HT Hst.
  assert (HF : step (fits e0 p) arm S outs p q).
  { inversion Hst as [pre r o a post inner news o' a' R U1 U0 ND NF E1 E2
      | pre r o a post vs v Fo HC HD U0 E1 E2 | pre i post U0 E1 E2]; subst.
    - eapply S_rule; try eassumption. eapply tame_rule; eassumption.
    - eapply S_fold; eassumption.
    - eapply S_dead; eassumption. }
  split; [exact HF|]. intros e' HE'.
  destruct (step_sound_all arm S outs e0 p q e HS HO HF HE) as (HSq & _ & e2 & E2' & L). rewrite HE' in E2'. injection E2' as <-. clear HF.
  (* values seen by the instructions that stay *)
  assert (Keep : forall i, In i p -> In i q -> (forall x, In x (iargs i) -> (cst q x <-> cst p x)) -> instr_ok q e' i).
  { intros [[r o] a] Hp Hq HC. apply (instr_ok_same p q e e' _ HC); [|apply HT, Hp].
    intros x w Hx Ew. cbn [iargs snd] in Hx.
    destruct (eval_def p S e0 e r o a HS HE (def_in S p r o a HS Hp)) as (vs & v & Lk & _ & _ & _ & Sc).
    destruct (look_some _ _ _ x Lk Hx) as [vx Ex].
    assert (X1 : In x (S ++ map iid p)) by (specialize (Sc x Hx); rewrite !in_app_iff, <- in_rev in *; tauto).
    assert (X2 : In x (S ++ map iid q)) by (assert (K := args_scope S q HSq _ x Hq Hx); rewrite !in_app_iff, <- in_rev in *; tauto).
    destruct (L x vx X1 X2 Ex) as (w' & Ew' & Vw). rewrite Ew in Ew'. injection Ew' as <-. eauto. }
  inversion Hst as [pre r o a post inner news o' a' R U1 U0 ND NF E1 E2
      | pre r o a post vs v Fo HC HD U0 E1 E2 | pre i post U0 E1 E2]; subst.
  - set (p := pre ++ (r, o, a) :: post) in *. set (q := pre ++ news ++ (r, o', a') :: post) in *.
    assert (HS1 : ssa S pre) by (apply ssa_app in HS; tauto).
    assert (Cr : cst p r <-> cst q r) by (apply (rule_cst as_is arm S pre post r o a inner news o' a'); assumption).
    assert (Ceq : forall x, ~ In x (map iid news) -> (cst q x <-> cst p x)).
    { intros x Hx. split.
      - apply (cst_same_bwd S pre post news r o o' a a'); auto. apply Cr.
      - apply (cst_same_fwd S pre post news r o o' a a'); auto. apply Cr. }
    assert (Old : forall i, In i p -> forall x, In x (iargs i) -> ~ In x (map iid news)).
    { intros i Hi x Hx C. destruct (NF x C) as [C1 C2]. assert (K := args_scope S p HS _ x Hi Hx).
      apply in_app_or in K. destruct K as [K|K]; [apply C2, in_rev, K|contradiction]. }
    intros i Hi. assert (Hi' := Hi). unfold q in Hi'. apply in_app_or in Hi'. destruct Hi' as [Hi'|Hi'].
    { assert (Hp : In i p) by (apply in_or_app; left; exact Hi'). apply Keep; [exact Hp|exact Hi|].
      intros x Hx. apply Ceq. eapply Old; eassumption. }
    apply in_app_or in Hi'. cbn [In] in Hi'.
    assert (Hn : In i news \/ i = (r, o', a') \/ In i post) by (destruct Hi' as [?|[?|?]]; auto). clear Hi'.
    destruct Hn as [Hn|[Hn|Hi']].
    3:{ assert (Hp : In i p) by (apply in_or_app; right; right; exact Hi'). apply Keep; [exact Hp|exact Hi|].
      intros x Hx. apply Ceq. eapply Old; eassumption. }
    all: assert (Dp : forall x o1 a1, def pre x = Some (o1, a1) -> def p x = Some (o1, a1)) by
      (intros x o1 a1 H; unfold p; rewrite def_app_in; [exact H|]; apply (def_scope S pre x o1 a1 HS1 H)).
    all: assert (Vold : forall x ox b y w, def pre x = Some (ox, b) -> In y b -> e' y = Some w -> exists v, e y = Some v /\ veq v w).
    1,3: (intros x ox b y w Hd Hy Ew;
      destruct (eval_def p S e0 e x ox b HS HE (Dp _ _ _ Hd)) as (vs & v & Lk & _ & _ & _ & Sc);
      destruct (look_some _ _ _ y Lk Hy) as [vx Ex];
      assert (X1 : In y (S ++ map iid p)) by (specialize (Sc y Hy); rewrite !in_app_iff, <- in_rev in *; tauto);
      assert (X2 : In y (S ++ map iid q)) by (unfold p, q in *; rewrite !map_app in *; cbn [map] in *; rewrite !in_app_iff in *; cbn [In] in *; tauto);
      destruct (L y vx X1 X2 Ex) as (w' & Ew' & Vw); rewrite Ew in Ew'; injection Ew' as <-; eauto).
    + (* a new operation *)
      inversion R; subst; clear R; cbn [In] in Hn;
      (match goal with HD : def pre inner = Some _ |- _ => rename HD into DI end);
      assert (TI := HT _ (def_mem _ _ _ _ (Dp _ _ _ DI))); cbn [instr_ok iop iargs fst snd] in TI.
      all: repeat (match type of Hn with _ \/ _ => destruct Hn as [<-|Hn] end); try contradiction; cbn [instr_ok iop iargs fst snd]; try exact I.
      * intros Hc _ vx vy Ex Ey. destruct (Vold _ _ _ x vx DI (or_introl eq_refl) Ex) as (wx & Wx & Qx).
        destruct (Vold _ _ _ c vy DI (or_intror (or_introl eq_refl)) Ey) as (wy & Wy & Qy).
        rewrite <- (veq_shape _ _ Qx), <- (veq_shape _ _ Qy). apply TI; auto. apply Ceq; [|exact Hc].
        apply (Old _ (def_mem _ _ _ _ (Dp _ _ _ DI))). cbn; auto.
      * intros Hc vx vy Ex Ey. destruct (Vold _ _ _ r0 vx DI (or_intror (or_introl eq_refl)) Ex) as (wx & Wx & Qx).
        destruct (Vold _ _ _ l vy DI (or_introl eq_refl) Ey) as (wy & Wy & Qy).
        rewrite <- (veq_shape _ _ Qx), <- (veq_shape _ _ Qy). apply TI; auto. apply Ceq; [|exact Hc].
        apply (Old _ (def_mem _ _ _ _ (Dp _ _ _ DI))). cbn; auto.
      * intros _ N. exfalso. apply N. eapply cst_c. apply (same_news S pre post _ r _ _ HSq f1). left. reflexivity.
      * intros _ N. exfalso. apply N. eapply cst_c. apply (same_news S pre post _ r _ _ HSq f1). left. reflexivity.
      * intros _ N. exfalso. apply N. eapply cst_c. apply (same_news S pre post _ r _ _ HSq f4). cbn; auto.
      * intros _ N. exfalso. apply N. eapply cst_c. apply (same_news S pre post _ r _ _ HSq f1). left. reflexivity.
    + subst i. inversion R; subst; clear R;
      (match goal with HD : def pre inner = Some _ |- _ => rename HD into DI end);
      assert (TI := HT _ (def_mem _ _ _ _ (Dp _ _ _ DI))); cbn [instr_ok iop iargs fst snd] in TI; cbn [instr_ok iop iargs fst snd]; try exact I.
      1,2,3: (intros t0 Ht; destruct (Vold _ _ _ f _ DI (or_intror (or_introl eq_refl)) Ht) as (w & Ew & Vw);
        destruct w as [tw| | | |]; try contradiction; specialize (TI tw Ew); eapply veq_filter; eauto).
      intros t0 Ht.
      match goal with HC : def pre f = Some _ |- _ => rename HC into DF end.
      assert (D3 := same_news S pre post _ r _ _ HSq f3 _ _ (or_intror (or_intror (or_introl eq_refl)))).
      assert (D1 := same_news S pre post _ r _ _ HSq f1 _ _ (or_introl eq_refl)).
      assert (D2 := same_news S pre post _ r _ _ HSq f2 _ _ (or_intror (or_introl eq_refl))).
      fold q in D1, D2, D3.
      destruct (eval_def q S e0 e' _ _ _ HSq HE' D3) as (v3 & w3 & L3 & N3 & E3 & _).
      destruct (eval_def q S e0 e' _ _ _ HSq HE' D2) as (v2 & w2 & L2 & N2 & E2 & _).
      destruct (eval_def q S e0 e' _ _ _ HSq HE' D1) as (v1 & w1 & L1 & N1 & E1 & _).
      cbn in L1, L2. injection L1 as <-. injection L2 as <-. cbn in N1, N2. injection N1 as <-. injection N2 as <-.
      cbn [look] in L3. rewrite E1, E2 in L3. injection L3 as <-. cbn [denote] in N3.
      rewrite Ht in E3. injection E3 as <-.
      destruct (eval_def p S e0 e inner _ _ HS HE (Dp _ _ _ DI)) as (vi & wi & Li & Ni & _).
      destruct (eval_def p S e0 e f _ _ HS HE (Dp _ _ _ DF)) as (vf & wf & Lf & Nf & Ef & _).
      cbn in Lf. injection Lf as <-. cbn in Nf. injection Nf as <-. specialize (TI tf Ef).
      cbn [look] in Li. destruct (e i) as [v_i|]; [|discriminate]. rewrite Ef in Li.
      destruct (e m); [|discriminate]. destruct (e b); [|discriminate]. destruct (e t); [|discriminate]. injection Li as <-.
      destruct (conv_filter_shape _ _ _ Ni _ _ _ eq_refl) as (ci & kw & kh & co & Hsh).
      unfold bmap2 in N3. destruct (bsh (sh tf) (sh (signs_4d tm))) as [s|] eqn:Eb; [|discriminate]. cbn [option_map] in N3. injection N3 as <-.
      eapply signs_filter; [exact Hsh|exact TI|]. unfold bmap2. rewrite Eb. reflexivity.
  - set (p := pre ++ (r, o, a) :: post) in *. set (q := pre ++ (r, OConst v, []) :: post) in *.
    assert (NF : forall x, In x (map iid (@nil instr)) -> ~ In x S /\ ~ In x (map iid p)) by (intros x []).
    assert (Cr : cst p r).
    { eapply cst_f; [apply (same_r S pre post r o a HS)| |].
      - destruct o; try discriminate; reflexivity.
      - intros y Hy. assert (K : exists w, def pre y = Some (OConst w, [])).
        { clear - HC Hy. induction HC; [contradiction|]. destruct Hy as [->|Hy]; eauto. }
        destruct K as [w K]. eapply cst_c. unfold p. rewrite def_app_in; [exact K|]. apply in_map_iff. exists (y, OConst w, []).
        split; [reflexivity|]. apply def_mem, K. }
    assert (Cr' : cst q r) by (eapply cst_c, (same_r' S pre post [] r (OConst v) [] HSq)).
    assert (Ceq : forall x, cst q x <-> cst p x).
    { intros x. split.
      - apply (cst_same_bwd S pre post [] r o (OConst v) a []); auto. 
      - apply (cst_same_fwd S pre post [] r o (OConst v) a []); auto. }
    intros i Hi. assert (Hi' := Hi). unfold q in Hi'. apply in_app_or in Hi'. destruct Hi' as [Hi'|[<-|Hi']].
    + apply Keep; [apply in_or_app; left; exact Hi'|exact Hi|auto].
    + exact I.
    + apply Keep; [apply in_or_app; right; right; exact Hi'|exact Hi|auto].
  - destruct i as [[r o] a]. cbn [iid fst] in U0. destruct (uses_zero _ _ _ U0) as [N1 N2].
    set (p := pre ++ (r, o, a) :: post) in *. set (q := pre ++ post) in *.
    assert (Dq : forall x, x <> r -> def q x = def p x).
    { intros x Hx. unfold p, q. destruct (in_dec Nat.eq_dec x (map iid pre)) as [Hp|Hp].
      - rewrite !(def_app_in pre) by exact Hp. reflexivity.
      - rewrite !(def_app_notin pre) by exact Hp. unfold def. cbn [find iid fst]. destruct (Nat.eqb_spec r x); [congruence|reflexivity]. }
    assert (Ar : forall x ox b, def p x = Some (ox, b) -> forall y, In y b -> y <> r).
    { intros x ox b H y Hy ->. apply (N2 _ (def_mem _ _ _ _ H) Hy). }
    assert (Ceq : forall x, x <> r -> (cst q x <-> cst p x)).
    { intros x Hx. split; intros H; induction H as [x v b E|x ob b E P H IH].
      - eapply cst_c. rewrite <- Dq by exact Hx. exact E.
      - rewrite Dq in E by exact Hx. eapply cst_f; [exact E|exact P|]. intros y Hy. apply IH; [exact Hy|]. eapply Ar; eassumption.
      - eapply cst_c. rewrite Dq by exact Hx. exact E.
      - eapply cst_f; [rewrite Dq by exact Hx; exact E|exact P|]. intros y Hy. apply IH; [exact Hy|]. eapply Ar; eassumption. }
    intros i Hi. assert (Hp : In i p) by (unfold p; apply in_app_or in Hi; apply in_or_app; cbn [In]; tauto).
    apply Keep; [exact Hp|exact Hi|]. intros x Hx. apply Ceq. intros ->. apply (N2 i Hp Hx).
Qed.

Theorem steps_tame arm S outs e0 p q e :
  ssa S p -> (forall x, In x outs -> In x (S ++ map iid p)) ->
  steps (fun _ => as_is) arm S outs p q -> eval p e0 = Some e -> tame p e ->
  exists e', eval q e0 = Some e' /\ ele outs e e'.
Proof.
  intros HS HO Hst. revert e HS HO. induction Hst as [p|p p' q H1 H2 IH]; intros e HS HO HE HT.
  - exists e. split; [exact HE|]. intros x w _ Hw. exists w. split; [exact Hw|apply veq_refl].
  - destruct (step_tame arm S outs e0 p p' e HS HO HE HT H1) as [H1' HT'].
    destruct (step_sound arm S outs e0 p p' e HS HO H1' HE) as (HS' & HO' & e1 & E1 & L1).
    destruct (IH e1 HS' HO' E1 (HT' e1 E1)) as (e2 & E2 & L2). exists e2. split; [exact E2|]. eapply ele_trans; eassumption.
Qed.
