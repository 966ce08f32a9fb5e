(** * IRPass: the prepare pass as a rewriting system, and its soundness. *)
From Coq Require Import QArith Qabs.
From Verif Require Import Base Spec Padding Threshold FusePad ConvBinary IR IRProofs IRRules IRSound IRTerm IRWell IRTf IRPrep.
Open Scope Z_scope.

(** ** The pass *)
Definition sb (r x y : nat) : nat := if Nat.eqb y r then x else y.
Definition sbi (r x : nat) (i : instr) : instr := (iid i, iop i, map (sb r x) (iargs i)).

(** One action of applyPatternsAndFoldGreedily on a function with results [outs],
    in the op-removal pass (op_removal.cc, op_removal_patterns.td: tf.Identity,
    tf.CheckNumerics, tf.Snapshot, tf.StopGradient and tf.PlaceholderWithDefault
    are [tf_identity]) or the prepare pass (prepare_tf.cc 164-182): a pattern, a
    fold of an operation whose operands are all constants, the removal of a dead
    operation, or the removal of an identity. Not modelled:
    ConvertTFDilatedConvOp (TensorFlow's own pattern), and the driver's merging of
    equal constants. [T p x]:
    the static shape of [x] in [p]. *)
Inductive pstep (T : list instr -> nat -> list Z) (arm : bool) (S : list nat) : list instr * list nat -> list instr * list nat -> Prop :=
| PS_rule pre r o a post news o' a' outs :
    prule arm (T (pre ++ (r, o, a) :: post)) (def pre) r (o, a) news (o', a') ->
    NoDup (map iid news) ->
    (forall x, In x (map iid news) -> ~ In x S /\ ~ In x (map iid (pre ++ (r, o, a) :: post))) ->
    pstep T arm S (pre ++ (r, o, a) :: post, outs) (pre ++ news ++ (r, o', a') :: post, outs)
| PS_fold pre r o a post vs v outs :
    a <> [] -> consts (def pre) a vs -> denote o vs = Some v ->
    pstep T arm S (pre ++ (r, o, a) :: post, outs) (pre ++ (r, OConst v, []) :: post, outs)
| PS_dead pre i post outs :
    uses (pre ++ i :: post) outs (iid i) = 0%nat ->
    pstep T arm S (pre ++ i :: post, outs) (pre ++ post, outs)
| PS_identity pre r x post outs :
    pstep T arm S (pre ++ (r, tf_identity, [x]) :: post, outs) (pre ++ map (sbi r x) post, map (sb r x) outs).

(** Static shapes: those of the run (every shape is known, and TensorFlow's shape inference is right). *)
Definition shapes (e0 : env) (p : list instr) (x : nat) : list Z :=
  match eval p e0 with Some e => match e x with Some v => vshape v | None => [] end | None => [] end.

(** ** Conditions on the program the pass starts from *)
(** [z] is [x], or [x] seen through identities. *)
Inductive thr (p : list instr) : nat -> nat -> Prop :=
| thr_refl x : thr p x x
| thr_step x y z : def p x = Some (tf_identity, [y]) -> thr p y z -> thr p x z.

Definition pm1 (t : tensor Q) : Prop := forall i, in_range (sh t) i -> (at_ t i == 1 \/ at_ t i == - (1))%Q.
(** A tf.Select whose branches are 1 and -1: the condition has their shape, or is a scalar. *)
Definition sane_select (e : env) (o : op) (a : list nat) : Prop :=
  forall c x y tc tx, o = tf_select true -> a = [c; x; y] -> e c = Some (VBool tc) -> e x = Some (VF tx) -> pm1 tx ->
    sh tc = sh tx \/ sh tc = [].
(** Sign(Sign(x) + c): [c] lies strictly between 0 and 1 and does not enlarge [x]. *)
Definition sane_sign (p : list instr) (e : env) (o : op) (a : list nat) : Prop :=
  forall s s' b c b' x ts tc, o = tf_sign -> a = [s] -> thr p s s' ->
    (def p s' = Some (OBin Add ActNone, [b; c]) \/ def p s' = Some (OBin Add ActNone, [c; b])) ->
    thr p b b' -> def p b' = Some (tf_sign, [x]) -> e b = Some (VF ts) -> e c = Some (VF tc) ->
    (forall i, in_range (sh tc) i -> 0 < at_ tc i /\ at_ tc i < 1)%Q /\ bsh (sh ts) (sh tc) = Some (sh ts).
(** Conv2D with a filter that is taken for binary: it is binary. *)
Definition sane_filter (e : env) (o : op) (a : list nat) : Prop :=
  forall k d f F, o = tf_conv2d k -> a = [d; f] -> e f = Some (VF F) -> is_binary F = true -> exact_filter F.
(** VALID Conv2D of an explicitly padded tensor, where the padding is taken for SAME padding: it splits as SAME does. *)
Definition sane_pad (p : list instr) (e : env) (r : nat) (o : op) (a : list nat) : Prop :=
  forall k d f d' x pd pv ti tp F v, o = tf_conv2d k -> a = [d; f] -> thr p d d' -> def p d' = Some (tf_pad, [x; pd; pv]) ->
    e x = Some (VF ti) -> e pd = Some (VInt tp) -> e f = Some (VF F) -> e r = Some v ->
    same_padding tp (sh ti) (vshape v) k = true -> split_ok k tp (sh ti) (sh F).
Definition sane_instr (p : list instr) (e : env) (i : instr) : Prop :=
  sane_select e (iop i) (iargs i) /\ sane_sign p e (iop i) (iargs i) /\ sane_filter e (iop i) (iargs i) /\
  sane_pad p e (iid i) (iop i) (iargs i).
Definition sane (p : list instr) (e : env) : Prop := forall i, In i p -> sane_instr p e i.

(** ** Conditions are kept *)
Definition special (o : op) : Prop := o = tf_identity \/ o = tf_sign \/ o = tf_pad \/ o = OBin Add ActNone.
Definition neutral (o : op) : Prop := match o with OOther x => ek x = KOther | _ => True end.

Lemma pm1_teq t t' : teq Qeq t t' -> pm1 t' -> pm1 t.
Proof.
  intros [Hs He] HP. intros i Hi. rewrite (He i Hi). apply HP. rewrite <- Hs. exact Hi.
Qed.
Lemma rng_In n k : In k (rng n) -> 0 <= k < n.
Proof. unfold rng, build. rewrite in_map_iff. intros (j & <- & Hj). apply in_seq in Hj. lia. Qed.
Lemma forallb_ext2 {A} (f g : A -> bool) l : (forall x, In x l -> f x = g x) -> forallb f l = forallb g l.
Proof. intros H. induction l as [|x l IH]; [reflexivity|]. cbn. rewrite H by (left; reflexivity). rewrite IH; [reflexivity|]. intros; apply H; right; assumption. Qed.
Lemma Qle_bool_wd a b c d : (a == b)%Q -> (c == d)%Q -> Qle_bool a c = Qle_bool b d.
Proof. intros H1 H2. rewrite H1, H2. reflexivity. Qed.
Lemma is_binary_teq F F' : teq Qeq F F' -> is_binary F = is_binary F'.
Proof.
  intros [Hs He]. unfold is_binary. rewrite <- Hs. destruct (sh F) as [|Co [|ci [|KW [|KH [|]]]]] eqn:E; try reflexivity.
  apply forallb_ext2. intros h Hh. apply rng_In in Hh. apply forallb_ext2. intros w Hw. apply rng_In in Hw.
  apply forallb_ext2. intros i Hi. apply rng_In in Hi. apply forallb_ext2. intros o Ho. apply rng_In in Ho.
  assert (E1 : (at_ F [o; 0; 0; 0]%Z == at_ F' [o; 0; 0; 0]%Z)%Q) by (apply He; repeat constructor; lia).
  assert (E2 : (at_ F [o; i; w; h] == at_ F' [o; i; w; h])%Q) by (apply He; repeat constructor; lia).
  cbv zeta. f_equal; [f_equal; apply Qle_bool_wd|apply Qle_bool_wd]; try reflexivity; [rewrite E1; reflexivity|].
  rewrite E1, E2. reflexivity.
Qed.
Lemma exact_teq F F' : teq Qeq F F' -> exact_filter F -> exact_filter F'.
Proof.
  intros [Hs He] H o k x y Hi. rewrite <- Hs in Hi. rewrite <- (He _ Hi).
  assert (H0 : in_range (sh F) [o; 0; 0; 0]).
  { inversion Hi as [|? ? ? ? J1 K1]; subst. inversion K1 as [|? ? ? ? J2 K2]; subst. inversion K2 as [|? ? ? ? J3 K3]; subst.
    inversion K3 as [|? ? ? ? J4 K4]; subst. inversion K4; subst. repeat constructor; lia. }
  rewrite <- (He _ H0). apply H, Hi.
Qed.
Lemma sh24 (l : list Z) : (forall A (x y : A), match l with [2; 4] => x | _ => y end = y) \/ l = [2; 4].
Proof.
  destruct l as [|p0 l]; [left; reflexivity|]. destruct p0 as [|[q|[q|q|]|]|q]; try (left; reflexivity). destruct l as [|z l]; [left; reflexivity|].
  destruct z as [|[q|[q|[q|q|]|]|]|q]; try (left; reflexivity). destruct l; [right; reflexivity|left; reflexivity].
Qed.
Lemma same_padding_teq tp tp' si so k : teq eq tp tp' -> same_padding tp si so k = same_padding tp' si so k.
Proof.
  intros [Hs He]. unfold same_padding. rewrite <- Hs. destruct (sh24 (sh tp)) as [E|E].
  - rewrite !E. reflexivity.
  - rewrite E in *. destruct si as [|? [|? [|? [|? [|]]]]]; try reflexivity. destruct so as [|? [|? [|? [|? [|]]]]]; try reflexivity.
    rewrite !He by (repeat constructor; lia). reflexivity.
Qed.
Lemma same_padding_24 tp si so k : same_padding tp si so k = true -> sh tp = [2; 4].
Proof. unfold same_padding. destruct (sh24 (sh tp)) as [E|E]; [rewrite E; discriminate|auto]. Qed.
Lemma split_teq k tp tp' si sf : teq eq tp tp' -> sh tp = [2; 4] -> split_ok k tp si sf -> split_ok k tp' si sf.
Proof.
  intros [Hs He] E. unfold split_ok. destruct si as [|? [|? [|? [|? [|]]]]]; auto. destruct sf as [|? [|? [|? [|? [|]]]]]; auto.
  rewrite E in He. rewrite !He by (repeat constructor; lia). auto.
Qed.

Section Transfer.
  Variables (p q : list instr) (e e' : env) (rho : nat -> nat) (K : nat -> Prop).
  Hypothesis Hdef : forall y o1 a1, K y -> def q (rho y) = Some (o1, a1) -> special o1 ->
    exists y1 a0, thr p y y1 /\ def p y1 = Some (o1, a0) /\ a1 = map rho a0 /\ forall z, In z a0 -> K z.
  Hypothesis Hval : forall y w, K y -> e' (rho y) = Some w -> exists v, e y = Some v /\ veq v w.

  Lemma thr_trans x y z : thr p x y -> thr p y z -> thr p x z.
  Proof. intros H1 H2. induction H1; [exact H2|]. eapply thr_step; eauto. Qed.
  Lemma map1 (l : list nat) y : [y] = map rho l -> exists z, l = [z] /\ y = rho z.
  Proof. destruct l as [|z [|]]; cbn; intros H; try discriminate. injection H as ->. eauto. Qed.
  Lemma map2' (l : list nat) y z : [y; z] = map rho l -> exists u v, l = [u; v] /\ y = rho u /\ z = rho v.
  Proof. destruct l as [|u [|v [|]]]; cbn; intros H; try discriminate. injection H as -> ->. eauto 6. Qed.
  Lemma map3' (l : list nat) x y z : [x; y; z] = map rho l -> exists t u v, l = [t; u; v] /\ x = rho t /\ y = rho u /\ z = rho v.
  Proof. destruct l as [|t [|u [|v [|]]]]; cbn; intros H; try discriminate. injection H as -> -> ->. eauto 8. Qed.

  Lemma thr_back x z : thr q x z -> forall y, K y -> x = rho y -> exists z0, thr p y z0 /\ z = rho z0 /\ K z0.
  Proof.
    intros H. induction H as [x|x u z E H IH]; intros y Ky ->.
    - exists y. split; [constructor|auto].
    - destruct (Hdef y _ _ Ky E (or_introl eq_refl)) as (y1 & a0 & T1 & D1 & M & KA).
      destruct (map1 _ _ M) as (u0 & -> & ->). destruct (IH u0 (KA u0 (or_introl eq_refl)) eq_refl) as (z0 & T2 & -> & K0).
      exists z0. split; [|auto]. apply (thr_trans _ _ _ T1). eapply thr_step; eassumption.
  Qed.
  Lemma val_F y t : K y -> e' (rho y) = Some (VF t) -> exists t0, e y = Some (VF t0) /\ teq Qeq t0 t.
  Proof. intros Ky H. destruct (Hval _ _ Ky H) as ([t0| | | |] & E & V); try contradiction. eauto. Qed.
  Lemma val_Bool y t : K y -> e' (rho y) = Some (VBool t) -> exists t0, e y = Some (VBool t0) /\ teq eq t0 t.
  Proof. intros Ky H. destruct (Hval _ _ Ky H) as ([| |t0| |] & E & V); try contradiction. eauto. Qed.
  Lemma val_Int y t : K y -> e' (rho y) = Some (VInt t) -> exists t0, e y = Some (VInt t0) /\ teq eq t0 t.
  Proof. intros Ky H. destruct (Hval _ _ Ky H) as ([| | |t0|] & E & V); try contradiction. eauto. Qed.

  Lemma sane_kept i i0 : iop i = iop i0 -> iargs i = map rho (iargs i0) -> iid i = rho (iid i0) ->
    (forall y, In y (iid i0 :: iargs i0) -> K y) -> sane_instr p e i0 -> sane_instr q e' i.
  Proof.
    destruct i as [[r o] a], i0 as [[r0 o0] a0]. unfold sane_instr. cbn [iop iargs iid fst snd]. intros -> -> -> HK (S1 & S2 & S3 & S4).
    assert (KA : forall y, In y a0 -> K y) by (intros y Hy; apply HK; right; exact Hy).
    split; [|split; [|split]].
    - intros c x y tc tx Ho Ha Hc Hx Hp. destruct (map3' _ _ _ _ (eq_sym Ha)) as (c0 & x0 & y0 & -> & -> & -> & ->).
      destruct (val_Bool c0 tc (KA _ (or_introl eq_refl)) Hc) as (tc0 & Ec & Tc).
      destruct (val_F x0 tx (KA _ (or_intror (or_introl eq_refl))) Hx) as (tx0 & Ex & Tx).
      rewrite <- (proj1 Tc), <- (proj1 Tx). apply (S1 c0 x0 y0 tc0 tx0 Ho eq_refl Ec Ex). apply (pm1_teq _ _ Tx Hp).
    - intros s s' b c b' x ts tc Ho Ha H1 H2 H3 H4 Hb Hc. destruct (map1 _ _ (eq_sym Ha)) as (s0 & -> & ->).
      destruct (thr_back _ _ H1 s0 (KA _ (or_introl eq_refl)) eq_refl) as (s1 & T1 & -> & K1).
      assert (HA : exists s2 b0 c0, thr p s0 s2 /\ (def p s2 = Some (OBin Add ActNone, [b0; c0]) \/ def p s2 = Some (OBin Add ActNone, [c0; b0])) /\
        b = rho b0 /\ c = rho c0 /\ K b0 /\ K c0).
      { assert (SP : special (OBin Add ActNone)) by (unfold special; auto).
        destruct H2 as [H2|H2]; destruct (Hdef s1 _ _ K1 H2 SP) as (s2 & a2 & T2 & D2 & M & KA2);
        destruct (map2' _ _ _ M) as (u & v & -> & -> & ->); [exists s2, u, v|exists s2, v, u];
        (split; [eapply thr_trans; eassumption|]); cbn [In] in KA2; auto 10. }
      destruct HA as (s2 & b0 & c0 & T2 & D2 & -> & -> & Kb & Kc).
      destruct (thr_back _ _ H3 b0 Kb eq_refl) as (b1 & T3 & -> & Kb1).
      destruct (Hdef b1 _ _ Kb1 H4 (or_intror (or_introl eq_refl))) as (b2 & a3 & T4 & D4 & M & _).
      destruct (map1 _ _ M) as (x0 & -> & _).
      destruct (val_F b0 ts Kb Hb) as (ts0 & Eb & Tb). destruct (val_F c0 tc Kc Hc) as (tc0 & Ec & Tc).
      destruct (S2 s0 s2 b0 c0 b2 x0 ts0 tc0 Ho eq_refl T2 D2 (thr_trans _ _ _ T3 T4) D4 Eb Ec) as [R1 R2].
      destruct Tb as [Sb _]. destruct Tc as [Sc Tc]. rewrite <- Sb, <- Sc. split; [|exact R2].
      intros i Hi. rewrite <- (Tc i Hi). apply R1, Hi.
    - intros k d f F Ho Ha Hf HB. destruct (map2' _ _ _ (eq_sym Ha)) as (d0 & f0 & -> & -> & ->).
      destruct (val_F f0 F (KA _ (or_intror (or_introl eq_refl))) Hf) as (F0 & EF & TF).
      apply (exact_teq F0 F TF). apply (S3 k d0 f0 F0 Ho eq_refl EF). rewrite (is_binary_teq _ _ TF). exact HB.
    - intros k d f d' x pd pv ti tp F v Ho Ha H1 H2 Hx Hp Hf Hr HS. destruct (map2' _ _ _ (eq_sym Ha)) as (d0 & f0 & -> & -> & ->).
      destruct (thr_back _ _ H1 d0 (KA _ (or_introl eq_refl)) eq_refl) as (d1 & T1 & -> & K1).
      destruct (Hdef d1 _ _ K1 H2 (or_intror (or_intror (or_introl eq_refl)))) as (d2 & a2 & T2 & D2 & M & KA2).
      destruct (map3' _ _ _ _ M) as (x0 & pd0 & pv0 & -> & -> & -> & ->).
      destruct (val_F x0 ti (KA2 _ (or_introl eq_refl)) Hx) as (ti0 & Ex & Tx).
      destruct (val_Int pd0 tp (KA2 _ (or_intror (or_introl eq_refl))) Hp) as (tp0 & Ep & Tp).
      destruct (val_F f0 F (KA _ (or_intror (or_introl eq_refl))) Hf) as (F0 & EF & TF).
      destruct (Hval r0 v (HK _ (or_introl eq_refl)) Hr) as (v0 & Er & Vr).
      rewrite <- (proj1 Tx), <- (veq_shape _ _ Vr), <- (same_padding_teq _ _ _ _ _ Tp) in HS.
      rewrite <- (proj1 Tx), <- (proj1 TF). apply (split_teq _ tp0 tp); [exact Tp|eapply same_padding_24; exact HS|].
      apply (S4 k d0 f0 d2 x0 pd0 pv0 ti0 tp0 F0 v0); auto. eapply thr_trans; eassumption.
  Qed.
  Lemma sane_neutral i : neutral (iop i) -> sane_instr q e' i.
  Proof.
    intros H. unfold sane_instr, sane_select, sane_sign, sane_filter, sane_pad.
    repeat split; intros; match goal with HE : iop i = _ |- _ => rewrite HE in H; discriminate H end.
  Qed.
End Transfer.

(** ** Splicing in new operations *)
Lemma splice_sound S outs e0 pre r o a post news o' a' e :
  let p := pre ++ (r, o, a) :: post in
  let SC := rev (map iid pre) ++ S in
  ssa S p -> (forall x, In x outs -> In x (S ++ map iid p)) ->
  (forall x, In x (map iid news) -> ~ In x S /\ ~ In x (map iid p)) ->
  eval p e0 = Some e ->
  (forall ep vs v, eval pre e0 = Some ep -> look ep a = Some vs -> denote o vs = Some v ->
     ssa SC news /\ (forall x, In x a' -> In x (rev (map iid news) ++ SC)) /\
     exists e1 vs' v', eval news ep = Some e1 /\ look e1 a' = Some vs' /\ denote o' vs' = Some v' /\ veq v v') ->
  let q := pre ++ news ++ (r, o', a') :: post in
  ssa S q /\ (forall x, In x outs -> In x (S ++ map iid q)) /\
  exists e', eval q e0 = Some e' /\ forall x v, In x (S ++ map iid p) -> e x = Some v -> exists w, e' x = Some w /\ veq v w.
Proof.
  intros p SC HS HO NF HE HL q. subst p q. apply ssa_app in HS. destruct HS as [HS1 HS2]. fold SC in HS2.
  cbn [ssa] in HS2. destruct HS2 as (Ha & Hr & HS3).
  rewrite eval_app in HE. destruct (eval pre e0) as [ep|] eqn:Ep; [|discriminate]. cbn [eval] in HE.
  destruct (look ep a) as [vs|] eqn:El; [|discriminate]. destruct (denote o vs) as [v|] eqn:Ed; [|discriminate].
  destruct (HL ep vs v eq_refl El Ed) as (SN & SA & e1 & vs' & v' & En & Lk & Dn & Vv). clear HL.
  assert (NF' : forall x, In x (map iid news) -> ~ In x SC /\ x <> r /\ ~ In x (map iid post)).
  { intros x Hx. destruct (NF x Hx) as [NF1 NF2]. rewrite map_app in NF2. cbn [map] in NF2. split; [|split].
    - intros C. apply in_app_or in C. destruct C as [C|C]; [|contradiction]. apply NF2, in_or_app. left. apply in_rev, C.
    - intros ->. apply NF2, in_or_app. right. left. reflexivity.
    - intros C. apply NF2, in_or_app. right. right. exact C. }
  assert (HS3' : ssa (r :: rev (map iid news) ++ SC) post).
  { apply (ssa_weaken post _ _ HS3).
    - intros i x _ _ [->|Hx]; [left; reflexivity|right; apply in_or_app; right; exact Hx].
    - intros x Hx [->|C]; [apply (ssa_notin _ _ HS3 x Hx); left; reflexivity|]. apply in_app_or in C. destruct C as [C|C].
      + apply in_rev in C. destruct (NF' x C) as (_ & _ & C3). contradiction.
      + apply (ssa_notin _ _ HS3 x Hx). right. exact C. }
  split; [|split].
  + apply ssa_app. split; [exact HS1|]. fold SC. apply ssa_app. split; [exact SN|]. split; [exact SA|]. split; [|exact HS3'].
    intros C. apply in_app_or in C. destruct C as [C|C]; [|contradiction]. apply in_rev in C. destruct (NF' r C) as (_ & C2 & _). congruence.
  + intros x Hx. specialize (HO x Hx). clear - HO. rewrite !map_app in *. cbn [map] in *. rewrite !in_app_iff in *. cbn [In] in *. tauto.
  + rewrite eval_app, Ep, eval_app, En. cbn [eval]. rewrite Lk, Dn.
    assert (HLe : ele (r :: SC) (upd ep r v) (upd e1 r v')).
    { intros x w [->|Hx] Hw.
      - rewrite upd_same in *. injection Hw as <-. eauto.
      - assert (x <> r) by congruence. rewrite upd_other in * by assumption.
        rewrite (eval_frame _ _ _ x En) by (intros C; apply (proj1 (NF' x C)), Hx). exists w. split; [exact Hw|apply veq_refl]. }
    destruct (eval_ele post (r :: SC) _ _ _ HS3 HLe HE) as (e2 & E2 & L2). exists e2. split; [exact E2|].
    intros x w Hx Hw. apply (L2 x w); [|exact Hw]. clear - Hx. subst SC.
    rewrite !map_app in *. cbn [map iid fst] in *. rewrite !in_app_iff in *. cbn [In] in *. rewrite in_app_iff, <- !in_rev. tauto.
Qed.

(** The operations computing the weights of a binary convolution. *)
Lemma weights_eval F f1 f2 f3 f4 f5 f6 f7 SC ep tv tt :
  NoDup [f1; f2; f3; f4; f5; f6; f7] -> (forall x, In x [f1; f2; f3; f4; f5; f6; f7] -> ~ In x SC) ->
  denote (OBin Div ActNone) [VF F; VF (scale_vec F)] = Some (VF tv) -> transpose_fun [VF tv] = Some (VF tt) ->
  ssa SC (weights F f1 f2 f3 f4 f5 f6 f7) /\
  exists e1, eval (weights F f1 f2 f3 f4 f5 f6 f7) ep = Some e1 /\ e1 f4 = Some (VF tt) /\ e1 f5 = Some (VF (scale_vec F)) /\
    e1 f6 = Some (VF (zero_vec F)) /\ e1 f7 = Some VNone /\ forall x, In x SC -> e1 x = ep x.
Proof.
  intros ND NI Hd Ht.
  inversion ND as [|? ? N1 ND1]; subst. inversion ND1 as [|? ? N2 ND2]; subst. inversion ND2 as [|? ? N3 ND3]; subst.
  inversion ND3 as [|? ? N4 ND4]; subst. inversion ND4 as [|? ? N5 ND5]; subst. inversion ND5 as [|? ? N6 ND6]; subst.
  clear ND ND1 ND2 ND3 ND4 ND5 ND6. cbn [In] in N1, N2, N3, N4, N5, N6.
  assert (I1 := NI f1 ltac:(cbn; auto 10)). assert (I2 := NI f2 ltac:(cbn; auto 10)). assert (I3 := NI f3 ltac:(cbn; auto 10)).
  assert (I4 := NI f4 ltac:(cbn; auto 10)). assert (I5 := NI f5 ltac:(cbn; auto 10)). assert (I6 := NI f6 ltac:(cbn; auto 10)).
  assert (I7 := NI f7 ltac:(cbn; auto 10)).
  assert (U : forall (e : env) r v x, x <> r -> upd e r v x = e x) by (intros; apply upd_other; assumption).
  unfold weights. split.
  - cbn [ssa In].
    repeat match goal with
    | |- _ /\ _ => split
    | |- True => exact I
    | |- forall q, False -> _ => intros q []
    | |- ~ _ => let C := fresh in intros C; repeat (match type of C with _ \/ _ => destruct C as [C|C] end); subst; tauto
    | |- forall q, _ \/ _ -> _ => let C := fresh in intros q C; repeat (match type of C with _ \/ _ => destruct C as [C|C] end); subst; tauto
    end.
  - cbn [eval look denote tf_transpose3012 ef]. rewrite upd_same. rewrite U by (intros ->; tauto). rewrite upd_same.
    cbn [denote] in Hd. rewrite Hd. cbn [option_map] in *. rewrite upd_same. rewrite Ht.
    eexists. split; [reflexivity|].
    split; [rewrite !U by (intros ->; tauto); apply upd_same|]. split; [rewrite !U by (intros ->; tauto); apply upd_same|].
    split; [rewrite !U by (intros ->; tauto); apply upd_same|]. split; [apply upd_same|].
    intros x Hx. rewrite !U by (intros ->; tauto). reflexivity.
Qed.
