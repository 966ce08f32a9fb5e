(** * IRPassProof: the prepare pass keeps a function's results, and stops. *)
From Coq Require Import QArith Qabs.
From Verif Require Import Base Spec Padding Threshold FusePad ConvBinary IR IRProofs IRRules IRSound IRTerm IRWell IRTf IRPrep IRPass IRPassRule.
Open Scope Z_scope.

(** ** Definitions in edited programs *)
Lemma def_cons (i : instr) p x : def (i :: p) x = if Nat.eqb (iid i) x then Some (iop i, iargs i) else def p x.
Proof. unfold def. cbn [find]. destruct (Nat.eqb (iid i) x); reflexivity. Qed.
Lemma def_app p q x : def (p ++ q) x = match def p x with Some z => Some z | None => def q x end.
Proof.
  induction p as [|i p IH]; [reflexivity|]. cbn [app]. rewrite !def_cons. destruct (Nat.eqb (iid i) x); [reflexivity|exact IH].
Qed.
Lemma def_none p x : ~ In x (map iid p) -> def p x = None.
Proof.
  induction p as [|i p IH]; [reflexivity|]. rewrite def_cons. cbn [map In]. intros H.
  destruct (Nat.eqb_spec (iid i) x) as [E|E]; [exfalso; apply H; left; exact E|]. apply IH. tauto.
Qed.
Lemma def_in p x z : def p x = Some z -> In x (map iid p).
Proof.
  intros H. destruct (in_dec Nat.eq_dec x (map iid p)) as [Hi|Hi]; [exact Hi|]. rewrite (def_none _ _ Hi) in H. discriminate.
Qed.
Lemma def_instr p x o a : def p x = Some (o, a) -> In (x, o, a) p.
Proof.
  induction p as [|[[r o1] a1] p IH]; [discriminate|]. rewrite def_cons. cbn [iid iop iargs fst snd].
  destruct (Nat.eqb_spec r x) as [->|N]; [intros H; injection H as -> ->; left; reflexivity|right; auto].
Qed.
Lemma def_sbi r x p y : def (map (sbi r x) p) y = option_map (fun z => (fst z, map (sb r x) (snd z))) (def p y).
Proof.
  induction p as [|[[k o] a] p IH]; [reflexivity|]. cbn [map]. rewrite !def_cons. cbn [sbi iid iop iargs fst snd].
  destruct (Nat.eqb k y); [reflexivity|exact IH].
Qed.
Lemma ssa_args S p : ssa S p -> forall i x, In i p -> In x (iargs i) -> In x (S ++ map iid p).
Proof.
  revert S. induction p as [|[[r o] a] p IH]; [intros S _ i x []|]. intros S (H1 & _ & H3) i x [<-|Hi] Hx.
  - apply in_or_app. left. apply H1, Hx.
  - specialize (IH _ H3 i x Hi Hx). cbn [map iid fst]. rewrite in_app_iff in *. cbn [In] in *. tauto.
Qed.
Lemma eval_id S p e0 e x : ssa S p -> eval p e0 = Some e -> In x (map iid p) -> exists v, e x = Some v.
Proof.
  intros HS HE Hx. apply in_map_iff in Hx. destruct Hx as ([[r o] a] & <- & Hi). cbn [iid fst].
  destruct (in_split _ _ Hi) as (A & B & ->). rewrite eval_app in HE. apply ssa_app in HS. destruct HS as [_ (_ & _ & HS)].
  destruct (eval A e0) as [e1|]; [|discriminate]. cbn [eval] in HE. destruct (look e1 a); [|discriminate].
  destruct (denote o l) as [v|]; [|discriminate]. exists v. rewrite (eval_frame _ _ _ r HE); [apply upd_same|].
  intros C. apply (ssa_notin _ _ HS r C). left. reflexivity.
Qed.
(** Values still there are the old ones, seen from the new program. *)
Lemma back S p q e0 e e' x w : ssa S p -> ssa S q -> eval p e0 = Some e -> eval q e0 = Some e' ->
  In x (S ++ map iid p) -> (forall v, e x = Some v -> exists w, e' x = Some w /\ veq v w) -> e' x = Some w -> exists v, e x = Some v /\ veq v w.
Proof.
  intros Hp Hq HE HE' Hx HV Hw. apply in_app_or in Hx. destruct Hx as [Hx|Hx].
  - exists w. split; [|apply veq_refl]. rewrite <- Hw, (eval_frame _ _ _ x HE), (eval_frame _ _ _ x HE'); [reflexivity| |];
    intros C; [apply (ssa_notin _ _ Hq x C Hx)|apply (ssa_notin _ _ Hp x C Hx)].
  - destruct (eval_id _ _ _ _ _ Hp HE Hx) as [v Ev]. exists v. split; [exact Ev|]. destruct (HV v Ev) as (w' & Ew & V). congruence.
Qed.

(** ** The operations a pattern inserts *)
Definition plain (o : op) : Prop := neutral o /\ ~ special o.
Lemma plain_other x : ek x = KOther -> plain (OOther x).
Proof. intros H. split; [exact H|]. intros [E|[E|[E|E]]]; [| | |discriminate]; injection E as ->; discriminate H. Qed.
Lemma prule_plain arm T D r o a news o' a' : prule arm T D r (o, a) news (o', a') ->
  (forall i, In i news -> plain (iop i)) /\ plain o'.
Proof.
  intros R. assert (P1 : forall v, plain (OConst v)) by (intros v; split; [exact I|intros [E|[E|[E|E]]]; discriminate]).
  assert (P2 : plain OQuant) by (split; [exact I|intros [E|[E|[E|E]]]; discriminate]).
  assert (P3 : plain ODequant) by (split; [exact I|intros [E|[E|[E|E]]]; discriminate]).
  assert (P4 : plain ONone) by (split; [exact I|intros [E|[E|[E|E]]]; discriminate]).
  assert (P5 : plain (OBin Div ActNone)) by (split; [exact I|intros [E|[E|[E|E]]]; discriminate]).
  assert (P6 : forall c, plain (OConv c)) by (intros c; split; [exact I|intros [E|[E|[E|E]]]; discriminate]).
  inversion R; subst; (split; [|auto]); intros i0 Hi; unfold weights in Hi; cbn [In] in Hi;
  repeat (destruct Hi as [<-|Hi]; [cbn [iop fst snd]; first [apply P1|apply P2|apply P3|apply P4|apply P5|apply plain_other; reflexivity]|]); contradiction.
Qed.

(** ** One step *)
Definition related (e e' : env) (x y : nat) : Prop := forall v, e x = Some v -> exists w, e' y = Some w /\ veq v w.
Definition good (S : list nat) (e0 : env) (p : list instr) (outs : list nat) (e : env) : Prop :=
  ssa S p /\ (forall x, In x outs -> In x (S ++ map iid p)) /\ eval p e0 = Some e /\ sane p e.
Lemma F2_same {A} (R : A -> A -> Prop) l : (forall x, In x l -> R x x) -> Forall2 R l l.
Proof. induction l as [|x l IH]; intros H; constructor; [apply H; left; reflexivity|apply IH; intros; apply H; right; assumption]. Qed.

Lemma splice_good S outs e0 pre r o a post news o' a' e :
  let p := pre ++ (r, o, a) :: post in
  let SC := rev (map iid pre) ++ S in
  good S e0 p outs e ->
  (forall x, In x (map iid news) -> ~ In x S /\ ~ In x (map iid p)) ->
  (forall ep vs v, eval pre e0 = Some ep -> look ep a = Some vs -> denote o vs = Some v ->
     ssa SC news /\ (forall x, In x a' -> In x (rev (map iid news) ++ SC)) /\
     exists e1 vs' v', eval news ep = Some e1 /\ look e1 a' = Some vs' /\ denote o' vs' = Some v' /\ veq v v') ->
  (forall i, In i news -> plain (iop i)) -> plain o' ->
  let q := pre ++ news ++ (r, o', a') :: post in
  exists e', good S e0 q outs e' /\ Forall2 (related e e') outs outs.
Proof.
  intros p SC (HS & HO & HE & HA) NF HL HP1 HP2 q.
  destruct (splice_sound S outs e0 pre r o a post news o' a' e HS HO NF HE HL) as (HS' & HO' & e' & HE' & HV). fold p in HV; fold q in HS', HO', HE'.
  exists e'. split; [|apply F2_same; intros x Hx v Hv; apply (HV x v); [apply HO, Hx|exact Hv]].
  split; [exact HS'|]. split; [exact HO'|]. split; [exact HE'|].
  assert (DQ : forall y z, In y (S ++ map iid p) -> def q y = Some z -> y <> r -> def p y = Some z).
  { intros y z Hy Hz Hn. unfold q in Hz. unfold p. rewrite !def_app, def_cons in *. cbn [iid fst] in *.
    rewrite (def_none news) in Hz.
    - destruct (Nat.eqb_spec r y) as [E|E]; [congruence|]. exact Hz.
    - intros C. destruct (NF y C) as [N1 N2]. apply in_app_or in Hy. tauto. }
  assert (TR : forall y o1 a1, In y (S ++ map iid p) -> def q y = Some (o1, a1) -> special o1 ->
    exists y1 a0, thr p y y1 /\ def p y1 = Some (o1, a0) /\ a1 = map (fun x => x) a0 /\ forall z, In z a0 -> In z (S ++ map iid p)).
  { intros y o1 a1 Hy Hz Hsp. assert (Hn : y <> r).
    { intros ->. unfold q in Hz. rewrite !def_app, def_cons in Hz. cbn [iid iop iargs fst snd] in Hz. rewrite Nat.eqb_refl in Hz.
      rewrite (def_none news) in Hz; [|intros C; destruct (NF r C) as [_ N2]; apply N2; unfold p; rewrite map_app; apply in_or_app; right; left; reflexivity].
      rewrite (def_none pre) in Hz; [injection Hz as <- <-; apply (proj2 HP2), Hsp|].
      intros C. unfold p in HS. apply ssa_app in HS. destruct HS as [_ (_ & N & _)]. apply N. apply in_or_app. left. rewrite <- in_rev. exact C. }
    assert (Hd := DQ y _ Hy Hz Hn). exists y, a1. split; [constructor|]. split; [exact Hd|]. split; [symmetry; apply map_id|].
    intros z Hin. apply (ssa_args _ _ HS (y, o1, a1)); [apply def_instr, Hd|exact Hin]. }
  assert (VB : forall y w, In y (S ++ map iid p) -> e' y = Some w -> exists v, e y = Some v /\ veq v w).
  { intros y w Hy Hw. eapply (back S p q e0 e e'); eauto. }
  assert (KEEP : forall i, In i p -> sane_instr q e' i).
  { intros i Hi. apply (sane_kept p q e e' (fun x => x) (fun y => In y (S ++ map iid p)) TR VB i i); auto.
    - symmetry. apply map_id.
    - intros y [<-|Hy]; [apply in_or_app; right; apply in_map, Hi|]. eapply ssa_args; eauto. }
  intros i Hi. unfold q in Hi. apply in_app_or in Hi. destruct Hi as [Hi|Hi].
  - apply KEEP. unfold p. apply in_or_app. left. exact Hi.
  - apply in_app_or in Hi. destruct Hi as [Hi|[<-|Hi]].
    + apply sane_neutral, HP1, Hi.
    + apply sane_neutral. exact (proj1 HP2).
    + apply KEEP. unfold p. apply in_or_app. right. right. exact Hi.
Qed.

(** *** Removing an identity *)
Lemma sb_id r x y : y <> r -> sb r x y = y.
Proof. intros H. unfold sb. destruct (Nat.eqb_spec y r); [contradiction|reflexivity]. Qed.
Lemma sb_r r x : sb r x r = x.
Proof. unfold sb. rewrite Nat.eqb_refl. reflexivity. Qed.
Lemma map_sb_id r x l : ~ In r l -> map (sb r x) l = l.
Proof. intros H. rewrite <- (map_id l) at 2. apply map_ext_in. intros y Hy. apply sb_id. intros ->. contradiction. Qed.
Lemma look_sb r x e1 e2 l : (forall y, e1 y = e2 (sb r x y)) -> look e2 (map (sb r x) l) = look e1 l.
Proof. intros H. induction l as [|y l IH]; [reflexivity|]. cbn [map look]. rewrite <- H, IH. reflexivity. Qed.
Lemma eval_sb r x p : forall e1 e2 e1', ~ In r (map iid p) -> ~ In x (map iid p) -> (forall y, e1 y = e2 (sb r x y)) ->
  eval p e1 = Some e1' -> exists e2', eval (map (sbi r x) p) e2 = Some e2' /\ forall y, e1' y = e2' (sb r x y).
Proof.
  induction p as [|[[k o] a] p IH]; intros e1 e2 e1' Nr Nx HI HE.
  - cbn in *. injection HE as <-. eauto.
  - cbn [eval map sbi iid iop iargs fst snd] in *. cbn [In] in Nr, Nx. rewrite (look_sb _ _ _ _ _ HI).
    destruct (look e1 a) as [vs|]; [|discriminate]. destruct (denote o vs) as [v|]; [|discriminate].
    apply (IH (upd e1 k v)); try tauto. intros y. unfold upd. destruct (Nat.eqb_spec y k) as [->|N].
    + rewrite sb_id by (intros ->; apply Nr; left; reflexivity). rewrite Nat.eqb_refl. reflexivity.
    + rewrite HI. unfold sb. destruct (Nat.eqb_spec y r) as [->|N2]; [destruct (Nat.eqb_spec x k); [subst; tauto|reflexivity]|].
      destruct (Nat.eqb_spec y k); [contradiction|reflexivity].
Qed.
Lemma ids_sbi r x p : map iid (map (sbi r x) p) = map iid p.
Proof. rewrite map_map. apply map_ext. reflexivity. Qed.
Lemma ssa_sbi r x p : forall S S', In x S' -> (forall y, In y S -> y <> r -> In y S') -> (forall y, In y S' -> In y S) -> In r S -> ssa S p -> ssa S' (map (sbi r x) p).
Proof.
  induction p as [|[[k o] a] p IH]; intros S S' Hx H1 H2 Hr HS; [exact I|]. destruct HS as (A1 & A2 & A3).
  cbn [map sbi iid iop iargs fst snd ssa]. split; [|split].
  - intros y Hy. apply in_map_iff in Hy. destruct Hy as (z & <- & Hz). specialize (A1 z Hz).
    destruct (Nat.eq_dec z r) as [->|N]; [rewrite sb_r; exact Hx|rewrite sb_id by exact N; apply H1; assumption].
  - intros C. apply A2, H2, C.
  - apply (IH (k :: S)); cbn [In]; auto.
    + intros y [->|Hy] N; auto.
    + intros y [->|Hy]; auto.
Qed.

Lemma identity_good S outs e0 pre r x post e :
  good S e0 (pre ++ (r, tf_identity, [x]) :: post) outs e ->
  exists e', good S e0 (pre ++ map (sbi r x) post) (map (sb r x) outs) e' /\ Forall2 (related e e') outs (map (sb r x) outs).
Proof.
  set (p := pre ++ (r, tf_identity, [x]) :: post). set (q := pre ++ map (sbi r x) post).
  intros (HS & HO & HE & HA). assert (HS0 := HS). unfold p in HS0. apply ssa_app in HS0. destruct HS0 as [HS1 (HS2 & HS3 & HS4)].
  set (SC := rev (map iid pre) ++ S) in *. assert (Ix : In x SC) by (apply HS2; left; reflexivity).
  assert (Nx : x <> r) by (intros ->; contradiction).
  assert (Hev := HE). unfold p in Hev. rewrite eval_app in Hev. destruct (eval pre e0) as [ep|] eqn:Ep; [|discriminate].
  cbn [eval look] in Hev. destruct (ep x) as [v|] eqn:Ex; [|discriminate]. change (denote tf_identity [v]) with (Some v) in Hev. cbv iota in Hev.
  assert (Nrp : ~ In r (map iid post)) by (intros C; apply (ssa_notin _ _ HS4 r C); left; reflexivity).
  assert (Nxp : ~ In x (map iid post)) by (intros C; apply (ssa_notin _ _ HS4 x C); right; exact Ix).
  destruct (eval_sb r x post (upd ep r v) ep e Nrp Nxp) as (e' & HE' & HV); [|exact Hev|].
  { intros y. unfold upd, sb. destruct (Nat.eqb_spec y r) as [->|N]; [symmetry; exact Ex|reflexivity]. }
  assert (HEq : eval q e0 = Some e') by (unfold q; rewrite eval_app, Ep; exact HE').
  assert (HS' : ssa S q).
  { unfold q. apply ssa_app. split; [exact HS1|]. fold SC. apply (ssa_sbi r x post (r :: SC) SC); auto.
    - intros y [->|Hy] N; [contradiction|exact Hy].
    - intros y Hy. right. exact Hy.
    - left. reflexivity. }
  assert (Sc : forall y, In y (S ++ map iid p) -> In (sb r x y) (S ++ map iid q)).
  { intros y Hy. unfold q. rewrite map_app, ids_sbi. unfold SC in Ix. destruct (Nat.eq_dec y r) as [->|N].
    - rewrite sb_r. rewrite !in_app_iff in *. rewrite <- in_rev in Ix. tauto.
    - rewrite sb_id by exact N. unfold p in Hy. rewrite map_app in Hy. cbn [map iid fst] in Hy. rewrite !in_app_iff in *. cbn [In] in Hy. intuition congruence. }
  exists e'. split.
  2:{ clear - HV. induction outs as [|y l IH]; constructor; [|exact IH]. intros w Hw. exists w. split; [rewrite <- HV; exact Hw|apply veq_refl]. }
  split; [exact HS'|]. split.
  { intros y Hy. apply in_map_iff in Hy. destruct Hy as (z & <- & Hz). apply Sc, HO, Hz. }
  split; [exact HEq|].
  set (K := fun y => In y (S ++ map iid p)).
  assert (Dr : def p r = Some (tf_identity, [x])).
  { unfold p. rewrite def_app, def_cons. cbn [iid iop iargs fst snd]. rewrite Nat.eqb_refl. rewrite (def_none pre); [reflexivity|].
    intros C. apply HS3. apply in_or_app. left. rewrite <- in_rev. exact C. }
  assert (ArgPre : forall i, In i pre -> ~ In r (iargs i)).
  { intros i Hi C. assert (B := ssa_args _ _ HS1 i r Hi C). apply HS3. unfold SC. rewrite in_app_iff in *. rewrite <- in_rev. tauto. }
  assert (TR : forall y o1 a1, K y -> def q (sb r x y) = Some (o1, a1) -> special o1 ->
    exists y1 a0, thr p y y1 /\ def p y1 = Some (o1, a0) /\ a1 = map (sb r x) a0 /\ forall z, In z a0 -> K z).
  { intros y o1 a1 Hy Hz Hsp.
    assert (GO : forall u, u <> r -> def q u = Some (o1, a1) -> exists a0, def p u = Some (o1, a0) /\ a1 = map (sb r x) a0 /\ forall z, In z a0 -> K z).
    { intros u Nu Hu. unfold q in Hu. rewrite def_app in Hu. destruct (def pre u) as [[o2 a2]|] eqn:Eu.
      - injection Hu as -> ->. exists a1. assert (Hd : def p u = Some (o1, a1)) by (unfold p; apply def_pre; exact Eu).
        split; [exact Hd|]. split.
        + symmetry. apply map_sb_id. exact (ArgPre (u, o1, a1) (def_instr _ _ _ _ Eu)).
        + intros z Hin. apply (ssa_args _ _ HS (u, o1, a1)); [apply def_instr, Hd|exact Hin].
      - rewrite def_sbi in Hu. destruct (def post u) as [[o2 a2]|] eqn:Eu2; [|discriminate]. cbn [option_map fst snd] in Hu. injection Hu as -> <-.
        assert (Hd : def p u = Some (o1, a2)).
        { unfold p. rewrite def_app, Eu, def_cons. cbn [iid fst]. destruct (Nat.eqb_spec r u); [congruence|exact Eu2]. }
        exists a2. split; [exact Hd|]. split; [reflexivity|].
        intros z Hin. apply (ssa_args _ _ HS (u, o1, a2)); [apply def_instr, Hd|exact Hin]. }
    destruct (Nat.eq_dec y r) as [->|N].
    - rewrite sb_r in Hz. destruct (GO x Nx Hz) as (a0 & G1 & G2 & G3). exists x, a0. split; [|auto].
      eapply thr_step; [exact Dr|constructor].
    - rewrite sb_id in Hz by exact N. destruct (GO y N Hz) as (a0 & G1 & G2 & G3). exists y, a0. split; [constructor|auto]. }
  assert (VB : forall y w, K y -> e' (sb r x y) = Some w -> exists v, e y = Some v /\ veq v w).
  { intros y w _ Hw. exists w. split; [rewrite HV; exact Hw|apply veq_refl]. }
  intros i Hi. unfold q in Hi. apply in_app_or in Hi. destruct Hi as [Hi|Hi].
  - assert (Hp : In i p) by (apply in_or_app; left; exact Hi).
    apply (sane_kept p q e e' (sb r x) K TR VB i i); auto.
    + symmetry. apply map_sb_id, ArgPre, Hi.
    + symmetry. apply sb_id. intros E. apply HS3. apply in_or_app. left. rewrite <- in_rev, <- E. apply in_map, Hi.
    + intros y [<-|Hy]; [apply in_or_app; right; apply in_map, Hp|]. eapply ssa_args; eauto.
  - apply in_map_iff in Hi. destruct Hi as (i0 & <- & Hi). assert (Hp : In i0 p) by (apply in_or_app; right; right; exact Hi).
    apply (sane_kept p q e e' (sb r x) K TR VB (sbi r x i0) i0); auto.
    + symmetry. apply sb_id. intros E. change (iid i0 = r) in E. apply Nrp. rewrite <- E. apply in_map, Hi.
    + intros y [<-|Hy]; [apply in_or_app; right; apply in_map, Hp|]. eapply ssa_args; eauto.
Qed.

Lemma dead_good S outs e0 pre i post e :
  uses (pre ++ i :: post) outs (iid i) = 0%nat -> good S e0 (pre ++ i :: post) outs e ->
  exists e', good S e0 (pre ++ post) outs e' /\ Forall2 (related e e') outs outs.
Proof.
  intros U0 (HS & HO & HE & HA). assert (U := uses_zero _ _ _ U0). destruct U as [N1 N2].
  set (p := pre ++ i :: post) in *. set (q := pre ++ post) in *. set (r := iid i) in *.
  assert (HS0 := HS). unfold p in HS0. apply ssa_app in HS0. destruct HS0 as [HS1 HS2]. set (SC := rev (map iid pre) ++ S) in *.
  assert (HS3 : ~ In r SC /\ ssa (r :: SC) post) by (destruct i as [[r0 o] a]; destruct HS2 as (_ & A & B); split; [exact A|exact B]).
  destruct HS3 as [Hr HS3]. clear HS2.
  assert (HS' : ssa SC post).
  { apply (ssa_weaken post _ _ HS3).
    - intros j x Hj Hx [->|Hs]; [|exact Hs]. exfalso. apply (N2 j); [|exact Hx]. apply in_or_app. right. right. exact Hj.
    - intros x Hx C. apply (ssa_notin _ _ HS3 x Hx). right. exact C. }
  assert (HSq : ssa S q) by (apply ssa_app; split; assumption).
  assert (HEv : exists e', eval q e0 = Some e' /\ forall x v, In x (S ++ map iid q) -> e x = Some v -> exists w, e' x = Some w /\ veq v w).
  { unfold p in HE. rewrite eval_app in HE. unfold q. rewrite eval_app. destruct (eval pre e0) as [ep|]; [|discriminate].
    assert (HL : exists v, eval post (upd ep r v) = Some e).
    { unfold r. destruct i as [[r0 o] a]. cbn [eval iid fst] in *. destruct (look ep a); [|discriminate]. destruct (denote o l) as [v|]; [|discriminate]. eauto. }
    destruct HL as [v HL].
    assert (HLe : ele SC (upd ep r v) ep).
    { intros x w Hx Hw. rewrite upd_other in Hw by congruence. exists w. split; [exact Hw|apply veq_refl]. }
    destruct (eval_ele post SC _ _ _ HS' HLe HL) as (e2 & E2 & L2). exists e2. split; [exact E2|].
    intros x w Hx Hw. apply (L2 x w); [|exact Hw]. clear - Hx. subst SC.
    rewrite !map_app in *. rewrite !in_app_iff in *. rewrite <- !in_rev. tauto. }
  destruct HEv as (e' & HE' & HV).
  assert (HOq : forall x, In x outs -> In x (S ++ map iid q)).
  { intros x Hx. assert (x <> r) by congruence. specialize (HO x Hx). unfold p, q in *. rewrite !map_app in *. cbn [map] in HO. fold r in HO.
    rewrite !in_app_iff in *. cbn [In] in HO. intuition congruence. }
  exists e'. split; [|apply F2_same; intros x Hx v Hv; apply (HV x v); [apply HOq, Hx|exact Hv]].
  split; [exact HSq|]. split; [exact HOq|]. split; [exact HE'|].
  set (K := fun y => In y (S ++ map iid q)).
  assert (Kp : forall y, K y -> In y (S ++ map iid p)).
  { intros y Hy. unfold K, p, q in *. rewrite !map_app in *. cbn [map]. rewrite !in_app_iff in *. cbn [In]. tauto. }
  assert (TR : forall y o1 a1, K y -> def q y = Some (o1, a1) -> special o1 ->
    exists y1 a0, thr p y y1 /\ def p y1 = Some (o1, a0) /\ a1 = map (fun x => x) a0 /\ forall z, In z a0 -> K z).
  { intros y o1 a1 Hy Hz _. exists y, a1. split; [constructor|]. split; [|split; [symmetry; apply map_id|]].
    - unfold p, q in *. rewrite def_app, def_cons in *. fold r. destruct (def pre y) as [z|] eqn:E; [exact Hz|].
      destruct (Nat.eqb_spec r y) as [->|N]; [|exact Hz]. exfalso.
      apply (ssa_notin _ _ HS3 y (def_in _ _ _ Hz)). left. reflexivity.
    - intros z Hin. apply (ssa_args _ _ HSq (y, o1, a1)); [apply def_instr, Hz|exact Hin]. }
  assert (VB : forall y w, K y -> e' y = Some w -> exists v, e y = Some v /\ veq v w).
  { intros y w Hy Hw. eapply (back S p q e0 e e'); eauto. }
  intros j Hj. assert (Hp : In j p) by (unfold p, q in *; rewrite in_app_iff in *; cbn [In]; tauto).
  apply (sane_kept p q e e' (fun x => x) K TR VB j j); auto.
  - symmetry. apply map_id.
  - intros y [<-|Hy]; [apply in_or_app; right; apply in_map, Hj|]. eapply ssa_args; eauto.
Qed.

Theorem pstep_good arm S e0 p outs q outs' e :
  pstep (shapes e0) arm S (p, outs) (q, outs') -> good S e0 p outs e ->
  exists e', good S e0 q outs' e' /\ Forall2 (related e e') outs outs'.
Proof.
  intros H HG. inversion H as [pre r o a post news o' a' outs0 R ND NF E1 E2 | pre r o a post vs v outs0 NC HC HD E1 E2
    | pre i post outs0 U0 E1 E2 | pre r x post outs0 E1 E2]; subst; clear H.
  - destruct (prule_plain _ _ _ _ _ _ _ _ _ R) as [P1 P2].
    apply (splice_good S outs' e0 pre r o a post news o' a' e HG); auto.
    intros ep vs v Ep El Ed. destruct HG as (HS & HO & HE & HA).
    apply (prule_sound arm S e0 e ep pre post r o a vs v HS HE HA Ep El Ed news o' a' R ND).
    intros x Hx C. destruct (NF x Hx) as [A B]. apply in_app_or in C. destruct C as [C|C]; [|contradiction].
    apply B. rewrite map_app. apply in_or_app. left. apply in_rev. exact C.
  - apply (splice_good S outs' e0 pre r o a post [] (OConst v) [] e HG).
    + intros x [].
    + intros ep vs' w Ep El Ed. split; [exact I|]. split; [intros x []|]. exists ep, [], v. cbn [eval look denote].
      do 3 (split; [reflexivity|]). destruct HG as (HS & _). apply ssa_app in HS. destruct HS as [HS1 _].
      assert (El' : look ep a = Some vs).
      { clear - HC HS1 Ep. induction HC as [|x v l vs Hx HC IH]; [reflexivity|]. cbn [look].
        destruct (d_const S pre e0 ep HS1 Ep x v Hx) as [-> _]. rewrite IH. reflexivity. }
      assert (E : Some w = Some v) by congruence. injection E as ->. apply veq_refl.
    + intros i [].
    + split; [exact I|intros [E|[E|[E|E]]]; discriminate].
  - apply (dead_good _ _ _ _ i); assumption.
  - apply identity_good. exact HG.
Qed.

(** Any finite sequence of actions. *)
Inductive psteps (T : list instr -> nat -> list Z) (arm : bool) (S : list nat) : nat -> list instr * list nat -> list instr * list nat -> Prop :=
| psteps_0 s : psteps T arm S 0 s s
| psteps_S n s t u : pstep T arm S s t -> psteps T arm S n t u -> psteps T arm S (Datatypes.S n) s u.

Theorem psteps_good arm S e0 n s t : psteps (shapes e0) arm S n s t -> forall e, good S e0 (fst s) (snd s) e ->
  exists e', good S e0 (fst t) (snd t) e' /\ Forall2 (related e e') (snd s) (snd t).
Proof.
  intros H. induction H as [s|n [p outs] [p' outs'] u H1 H2 IH]; intros e HG.
  - exists e. split; [exact HG|]. apply F2_same. intros x _ v Hv. exists v. split; [exact Hv|apply veq_refl].
  - cbn [fst snd] in *. destruct (pstep_good arm S e0 p outs p' outs' e H1 HG) as (e1 & G1 & R1).
    destruct (IH e1 G1) as (e2 & G2 & R2). exists e2. split; [exact G2|].
    clear - R1 R2. revert R2. generalize (snd u) as l. induction R1 as [|x y l1 l2 Hxy R1 IH]; intros l R2; inversion R2; subst; constructor.
    + intros v Hv. destruct (Hxy v Hv) as (w & Ew & V1). match goal with H : related e1 e2 y _ |- _ => destruct (H w Ew) as (z & Ez & V2) end.
      exists z. split; [exact Ez|]. eapply veq_trans; eassumption.
    + apply IH. assumption.
Qed.

(** ** Termination: every action makes this smaller. *)
Definition pweight (o : op) : nat :=
  match o with
  | OConst _ => 1
  | OOther x => match ek x with KConv2D _ => 13 | KSelect _ => 9 | KSign => 5 | _ => 2 end
  | _ => 2
  end.
Fixpoint psize (p : list instr) : nat := match p with [] => 0 | i :: p' => pweight (iop i) + psize p' end.
Lemma psize_app p q : psize (p ++ q) = (psize p + psize q)%nat.
Proof. induction p as [|i p IH]; cbn [app psize]; [reflexivity|]. rewrite IH. lia. Qed.
Lemma psize_bound p : (psize p <= 13 * length p)%nat.
Proof.
  induction p as [|i p IH]; cbn [psize length]; [lia|]. assert (pweight (iop i) <= 13)%nat; [|lia].
  destruct (iop i) as [| | | | | | | | | | |x]; cbn [pweight]; try lia. destruct (ek x); lia.
Qed.
Lemma psize_sbi r x p : psize (map (sbi r x) p) = psize p.
Proof. induction p as [|i p IH]; [reflexivity|]. cbn [map psize]. rewrite IH. reflexivity. Qed.
Lemma prule_size arm T D r o a news o' a' : prule arm T D r (o, a) news (o', a') -> (psize news + pweight o' < pweight o)%nat.
Proof. intros R. inversion R; subst; cbn; lia. Qed.
Theorem pstep_size T arm S s t : pstep T arm S s t -> (psize (fst t) < psize (fst s))%nat.
Proof.
  intros H. inversion H; subst; cbn [fst]; rewrite ?psize_app; cbn [psize iop fst snd]; rewrite ?psize_app, ?psize_sbi; cbn [psize iop fst snd].
  - match goal with R : prule _ _ _ _ _ _ _ |- _ => apply prule_size in R end. lia.
  - assert (2 <= pweight o)%nat; [|cbn [pweight]; lia].
    destruct o as [w| | | | | | | | | | |x]; cbn [pweight]; try lia.
    + destruct vs; [|discriminate]. match goal with HC : consts _ a [] |- _ => inversion HC; subst; contradiction end.
    + destruct (ek x); lia.
  - assert (0 < pweight (iop i))%nat; [|lia]. destruct (iop i) as [| | | | | | | | | | |x]; cbn [pweight]; try lia. destruct (ek x); lia.
  - cbn [pweight tf_identity ek]. lia.
Qed.
Theorem psteps_size T arm S n s t : psteps T arm S n s t -> (n + psize (fst t) <= psize (fst s))%nat.
Proof.
  intros H. induction H as [s|n s t u H1 H2 IH]; [lia|]. assert (K := pstep_size _ _ _ _ _ H1). lia.
Qed.
