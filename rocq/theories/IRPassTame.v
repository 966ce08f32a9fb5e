(** * IRPassTame: the conditions of the optimisation pass (IRWell), asked of the
    program the prepare pass starts from. *)
From Coq Require Import QArith Qabs.
From Verif Require Import Base Spec Padding Threshold FusePad ConvBinary IR IRProofs IRRules IRSound IRTerm IRWell IRTf IRPrep IRPass IRPassRule IRPassProof.
Open Scope Z_scope.

(** [x] is computed from constants alone. *)
Inductive cv (p : list instr) : nat -> Prop :=
| cv_c x v a : def p x = Some (OConst v, a) -> cv p x
| cv_f x o a : def p x = Some (o, a) -> (forall y, In y a -> cv p y) -> cv p x.

(** Binary operators and comparisons: an operand computed from constants is a
    scalar or a vector and does not enlarge the other one. Max-pooling has no
    activation but ReluN1To1. Filters of binary convolutions are binary. *)
Definition calm_op (p : list instr) (e : env) (o : op) (a : list nat) : Prop :=
  match o, a with
  | OBin _ _, [x; y] => cv p y -> ~ cst p x -> small_const e x y
  | OGe, [x; y] => cv p y -> small_const e x y
  | OLe, [y; x] => cv p y -> small_const e x y
  | OMaxPool _ a, _ => a = ActNone \/ a = ActReluN1To1
  | OConv _, _ :: f :: _ => forall t, e f = Some (VF t) -> binary_filter t
  | _, _ => True
  end.
(** In Sign(Sign(x) + c), [c] is computed from constants. *)
Definition calm_sign (p : list instr) (o : op) (a : list nat) : Prop :=
  forall s s' b c b' x, o = tf_sign -> a = [s] -> thr p s s' ->
    (def p s' = Some (OBin Add ActNone, [b; c]) \/ def p s' = Some (OBin Add ActNone, [c; b])) ->
    thr p b b' -> def p b' = Some (tf_sign, [x]) -> cv p c.
(** Conv2D with a filter taken for binary: fewer than 2^31 taps. *)
Definition calm_filter (e : env) (o : op) (a : list nat) : Prop :=
  forall k d f F, o = tf_conv2d k -> a = [d; f] -> e f = Some (VF F) -> is_binary F = true -> numel (tl (sh F)) < 2 ^ 31.
Definition calm_instr (p : list instr) (e : env) (i : instr) : Prop :=
  calm_op p e (iop i) (iargs i) /\ calm_sign p (iop i) (iargs i) /\ calm_filter e (iop i) (iargs i).
Definition calm (p : list instr) (e : env) : Prop := forall i, In i p -> calm_instr p e i.

Lemma cst_cv p x : cst p x -> cv p x.
Proof. intros H. induction H as [x v a H|x o a H _ _ IH]; [eapply cv_c; exact H|eapply cv_f; eauto]. Qed.
Theorem calm_tame p e : calm p e -> tame p e.
Proof.
  intros H i Hi. destruct (H i Hi) as [C _]. unfold instr_ok, calm_op in *. destruct (iop i); auto;
  destruct (iargs i) as [|x [|y [|]]]; auto using cst_cv.
Qed.
Lemma cv_inv p x o a : cv p x -> def p x = Some (o, a) -> (exists v, o = OConst v) \/ forall y, In y a -> cv p y.
Proof. intros [z v b H|z o' b H K] D; rewrite H in D; injection D as <- <-; eauto. Qed.
Lemma binary_filter_teq t t' : teq Qeq t t' -> binary_filter t -> binary_filter t'.
Proof. intros [H1 H2] [K1 K2]. unfold binary_filter. rewrite <- H1. split; [|exact K2]. intros i Hi. rewrite <- (H2 i Hi). apply K1, Hi. Qed.

Section Transfer.
  Variables (p q : list instr) (e e' : env) (rho : nat -> nat) (K : nat -> Prop).
  Hypothesis Hdef : forall y o1 a1, K y -> def q (rho y) = Some (o1, a1) -> special o1 ->
    exists y1 a0, thr p y y1 /\ def p y1 = Some (o1, a0) /\ a1 = map rho a0 /\ forall z, In z a0 -> K z.
  Hypothesis Hval : forall y w, K y -> e' (rho y) = Some w -> exists v, e y = Some v /\ veq v w.
  Hypothesis Hcv : forall y, K y -> cv q (rho y) -> cv p y.
  Hypothesis Hvc : forall y, K y -> cv p y -> cv q (rho y).
  Hypothesis Hcst : forall y, K y -> cst p y -> cst q (rho y).

  Lemma small_kept x y : K x -> K y -> small_const e x y -> small_const e' (rho x) (rho y).
  Proof.
    intros Kx Ky H vx vy Hx Hy. destruct (Hval _ _ Kx Hx) as (wx & Ex & Vx). destruct (Hval _ _ Ky Hy) as (wy & Ey & Vy).
    rewrite <- (veq_shape _ _ Vx), <- (veq_shape _ _ Vy). exact (H wx wy Ex Ey).
  Qed.
  Lemma calm_kept i i0 : iop i = iop i0 -> iargs i = map rho (iargs i0) ->
    (forall y, In y (iargs i0) -> K y) -> calm_instr p e i0 -> calm_instr q e' i.
  Proof.
    destruct i as [[r o] a], i0 as [[r0 o0] a0]. unfold calm_instr. cbn [iop iargs iid fst snd]. intros -> -> KA (S1 & S2 & S3).
    split; [|split].
    - unfold calm_op in *. destruct o0; try exact I; try exact S1;
        destruct a0 as [|x [|y a0]]; cbn [map]; try exact I.
      all: try (destruct a0; cbn [map]; try exact I; cbn [In] in KA; intros C; try intros N;
        first [apply small_kept; auto 8; fail|intros t0; apply (small_kept _ _ ltac:(auto 8) ltac:(auto 8)); auto 8]; fail).
      + intros t Ht. cbn [In] in KA. destruct (Hval y _ (KA y (or_intror (or_introl eq_refl))) Ht) as (w & Ew & Vw).
        destruct w as [w| | | |]; try contradiction. apply (binary_filter_teq w t Vw). apply S1, Ew.
    - intros s s' b c b' x Ho Ha H1 H2 H3 H4. destruct (map1 _ _ _ (eq_sym Ha)) as (s0 & -> & ->).
      destruct (thr_back p q rho K Hdef _ _ H1 s0 (KA _ (or_introl eq_refl)) eq_refl) as (s1 & T1 & -> & K1).
      assert (HA : exists s2 b0 c0, thr p s0 s2 /\ (def p s2 = Some (OBin Add ActNone, [b0; c0]) \/ def p s2 = Some (OBin Add ActNone, [c0; b0])) /\
        b = rho b0 /\ c = rho c0 /\ K b0 /\ K c0).
      { assert (SP : special (OBin Add ActNone)) by (unfold special; auto).
        destruct H2 as [H2|H2]; destruct (Hdef s1 _ _ K1 H2 SP) as (s2 & a2 & T2 & D2 & M & KA2);
        destruct (map2' _ _ _ _ M) as (u & v & -> & -> & ->); [exists s2, u, v|exists s2, v, u];
        (split; [eapply thr_trans; eassumption|]); cbn [In] in KA2; auto 10. }
      destruct HA as (s2 & b0 & c0 & T2 & D2 & -> & -> & Kb & Kc).
      destruct (thr_back p q rho K Hdef _ _ H3 b0 Kb eq_refl) as (b1 & T3 & -> & Kb1).
      destruct (Hdef b1 _ _ Kb1 H4 (or_intror (or_introl eq_refl))) as (b2 & a3 & T4 & D4 & M & _).
      destruct (map1 _ _ _ M) as (x0 & -> & _). apply Hvc; [exact Kc|].
      apply (S2 s0 s2 b0 c0 b2 x0 Ho eq_refl T2 D2 (thr_trans _ _ _ _ T3 T4) D4).
    - intros k d f F Ho Ha Hf HB. destruct (map2' _ _ _ _ (eq_sym Ha)) as (d0 & f0 & -> & -> & ->).
      destruct (val_F e e' rho K Hval f0 F (KA _ (or_intror (or_introl eq_refl))) Hf) as (F0 & EF & TF).
      rewrite <- (proj1 TF). apply (S3 k d0 f0 F0 Ho eq_refl EF). rewrite (is_binary_teq _ _ TF). exact HB.
  Qed.
End Transfer.

(** ** Splicing *)
Section Splice.
  Variables (Sg : list nat) (e0 : env) (pre : list instr) (r : nat) (o : op) (a : list nat) (post news : list instr) (o' : op) (a' : list nat) (e : env).
  Let p := pre ++ (r, o, a) :: post.
  Let SC := rev (map iid pre) ++ Sg.
  Let q := pre ++ news ++ (r, o', a') :: post.
  Hypothesis HS : ssa Sg p.
  Hypothesis HE : eval p e0 = Some e.
  Hypothesis NF : forall x, In x (map iid news) -> ~ In x Sg /\ ~ In x (map iid p).
  Hypothesis HL : forall ep vs v, eval pre e0 = Some ep -> look ep a = Some vs -> denote o vs = Some v ->
     ssa SC news /\ (forall x, In x a' -> In x (rev (map iid news) ++ SC)) /\
     exists e1 vs' v', eval news ep = Some e1 /\ look e1 a' = Some vs' /\ denote o' vs' = Some v' /\ veq v v'.
  Hypothesis HP2 : plain o'.
  Let K y := In y (Sg ++ map iid p).

  Lemma sp_ids y : K y -> ~ In y (map iid news).
  Proof. intros Hy C. destruct (NF y C) as [N1 N2]. unfold K in Hy. apply in_app_or in Hy. tauto. Qed.
  Lemma sp_r_pre : ~ In r (map iid pre).
  Proof. intros C. assert (H := HS). unfold p in H. apply ssa_app in H. destruct H as [_ (_ & N & _)]. apply N. apply in_or_app. left. rewrite <- in_rev. exact C. Qed.
  Lemma sp_Kr : K r.
  Proof. unfold K, p. rewrite map_app. apply in_or_app. right. apply in_or_app. right. left. reflexivity. Qed.
  Lemma sp_def y : K y -> y <> r -> def q y = def p y.
  Proof.
    intros Hy Hn. unfold q, p. rewrite !def_app, !def_cons. cbn [iid fst]. rewrite (def_none news) by (apply sp_ids, Hy).
    destruct (Nat.eqb_spec r y) as [E|E]; [congruence|reflexivity].
  Qed.
  Lemma sp_def_r : def q r = Some (o', a').
  Proof.
    unfold q. rewrite !def_app, !def_cons. cbn [iid iop iargs fst snd]. rewrite Nat.eqb_refl.
    rewrite (def_none news) by (apply sp_ids, sp_Kr). rewrite (def_none pre) by apply sp_r_pre. reflexivity.
  Qed.
  Lemma sp_pdef_r : def p r = Some (o, a).
  Proof. unfold p. rewrite !def_app, !def_cons. cbn [iid iop iargs fst snd]. rewrite Nat.eqb_refl, (def_none pre) by apply sp_r_pre. reflexivity. Qed.
  Lemma sp_def_new x z : def news x = Some z -> def q x = Some z.
  Proof.
    intros H. unfold q. rewrite !def_app, H. rewrite (def_none pre); [reflexivity|]. intros C. apply (proj2 (NF x (def_in _ _ _ H))).
    unfold p. rewrite map_app. apply in_or_app. left. exact C.
  Qed.
  Lemma sp_Kargs y o1 a1 : def p y = Some (o1, a1) -> forall z, In z a1 -> K z.
  Proof. intros Hd z Hin. apply (ssa_args _ _ HS (y, o1, a1)); [apply def_instr, Hd|exact Hin]. Qed.
  Lemma sp_rel : exists e', ssa Sg q /\ eval q e0 = Some e' /\ forall x v, K x -> e x = Some v -> exists w, e' x = Some w /\ veq v w.
  Proof.
    destruct (splice_sound Sg [] e0 pre r o a post news o' a' e HS ltac:(intros x []) NF HE HL) as (H1 & _ & e' & H2 & H3).
    exists e'. auto.
  Qed.
  Hypothesis Hcv : forall y, K y -> cv q y -> cv p y.
  Hypothesis Hvc : forall y, K y -> cv p y -> cv q y.
  Hypothesis Hcst : forall y, K y -> cst p y -> cst q y.
  Hypothesis Hcalm : calm p e.
  Hypothesis Hnew : forall e' i, ssa Sg q -> eval q e0 = Some e' -> In i (news ++ [(r, o', a')]) -> calm_instr q e' i.
  Lemma splice_calm : exists e', eval q e0 = Some e' /\ calm q e'.
  Proof.
    destruct sp_rel as (e' & HSq & HE' & HV). exists e'. split; [exact HE'|].
    assert (TR : forall y o1 a1, K y -> def q y = Some (o1, a1) -> special o1 ->
      exists y1 a0, thr p y y1 /\ def p y1 = Some (o1, a0) /\ a1 = map (fun x => x) a0 /\ forall z, In z a0 -> K z).
    { intros y o1 a1 Hy Hz Hsp. assert (Hn : y <> r).
      { intros ->. rewrite sp_def_r in Hz. injection Hz as <- <-. apply (proj2 HP2), Hsp. }
      rewrite sp_def in Hz by assumption. exists y, a1. split; [constructor|]. split; [exact Hz|]. split; [symmetry; apply map_id|].
      apply (sp_Kargs _ _ _ Hz). }
    assert (VB : forall y w, K y -> e' y = Some w -> exists v, e y = Some v /\ veq v w).
    { intros y w Hy Hw. eapply (back Sg p q e0 e e'); eauto. }
    assert (KEEP : forall i, In i p -> calm_instr q e' i).
    { intros i Hi. apply (calm_kept p q e e' (fun x => x) K TR VB Hcv Hvc Hcst i i); auto.
      - symmetry. apply map_id.
      - intros y Hy. eapply ssa_args; eauto. }
    intros i Hi. unfold q in Hi. apply in_app_or in Hi. destruct Hi as [Hi|Hi].
    - apply KEEP. unfold p. apply in_or_app. left. exact Hi.
    - apply in_app_or in Hi. destruct Hi as [Hi|[<-|Hi]].
      + apply Hnew; auto. apply in_or_app. left. exact Hi.
      + apply Hnew; auto. apply in_or_app. right. left. reflexivity.
      + apply KEEP. unfold p. apply in_or_app. right. right. exact Hi.
  Qed.
End Splice.

(** Constants through a splice. [Kn]: what the new operations being computed from
    constants gives. *)
Section SpliceConst.
  Variables (Sg : list nat) (e0 : env) (pre : list instr) (r : nat) (o : op) (a : list nat) (post news : list instr) (o' : op) (a' : list nat).
  Let p := pre ++ (r, o, a) :: post.
  Let q := pre ++ news ++ (r, o', a') :: post.
  Hypothesis HS : ssa Sg p.
  Hypothesis NF : forall x, In x (map iid news) -> ~ In x Sg /\ ~ In x (map iid p).
  Let K y := In y (Sg ++ map iid p).
  Lemma q_r : def q r = Some (o', a'). Proof. apply (sp_def_r Sg pre r o a post news o' a' HS NF). Qed.
  Lemma p_r : def p r = Some (o, a). Proof. apply (sp_pdef_r Sg pre r o a post HS). Qed.
  Lemma q_def y : K y -> y <> r -> def q y = def p y. Proof. apply (sp_def Sg pre r o a post news o' a' NF y). Qed.
  Variable Kn : Prop.
  Let P y := (In y (map iid news) -> Kn) /\ (~ In y (map iid news) -> cv p y).
  Hypothesis Hn : forall x o1 a1, def news x = Some (o1, a1) -> (exists v, o1 = OConst v) \/ (forall y, In y a1 -> P y) -> Kn.
  Hypothesis Hr : (exists v, o' = OConst v) \/ (forall y, In y a' -> P y) -> cv p r.
  Lemma sc_back y : cv q y -> P y.
  Proof.
    assert (G : forall y o1 a1, def q y = Some (o1, a1) -> (exists v, o1 = OConst v) \/ (forall z, In z a1 -> P z) -> P y).
    { intros y0 o1 a1 Hd H. destruct (in_dec Nat.eq_dec y0 (map iid news)) as [Hi|Hi].
      - split; [|contradiction]. intros _. apply (Hn y0 o1 a1); [|exact H].
        unfold q in Hd. rewrite !def_app in Hd. rewrite (def_none pre) in Hd.
        + destruct (def news y0) eqn:E; [congruence|]. exfalso. clear - Hi E. induction news as [|i l IH]; [contradiction|].
          rewrite def_cons in E. destruct (Nat.eqb_spec (iid i) y0) as [|N]; [discriminate|]. destruct Hi as [Hi|Hi]; [contradiction|]. auto.
        + intros C. apply (proj2 (NF y0 Hi)). unfold p. rewrite map_app. apply in_or_app. left. exact C.
      - split; [contradiction|]. intros _. destruct (Nat.eq_dec y0 r) as [->|Ny].
        + rewrite q_r in Hd. injection Hd as <- <-. apply Hr, H.
        + assert (Hp : def p y0 = Some (o1, a1)).
          { rewrite <- (q_def y0); [exact Hd| |exact Ny].
            unfold q in Hd. apply def_in in Hd. rewrite !map_app in Hd. cbn [map iid fst] in Hd.
            unfold K, p. rewrite map_app. cbn [map iid fst]. rewrite !in_app_iff in *. cbn [In] in *. tauto. }
          destruct H as [[v ->]|H]; [eapply cv_c; exact Hp|]. eapply cv_f; [exact Hp|]. intros z Hz. apply (H z Hz).
          intros C. apply (sp_ids Sg pre r o a post news NF z); [|exact C]. exact (sp_Kargs Sg pre r o a post HS y0 o1 a1 Hp z Hz). }
    intros H. induction H as [y0 v b Hd|y0 o1 b Hd _ IH]; eapply G; eauto.
  Qed.
  Lemma sc_cv y : K y -> cv q y -> cv p y.
  Proof. intros Hy H. apply (sc_back y H). apply (sp_ids Sg pre r o a post news NF y Hy). Qed.
  Hypothesis Hf : cv p r -> (forall y, In y a -> cv q y) -> cv q r.
  Hypothesis Hoc : pure o = true \/ (exists v, o = OConst v) -> exists v, o' = OConst v.
  Lemma sc_vc y : K y -> cv p y -> cv q y.
  Proof.
    intros Hy H. revert Hy. induction H as [y0 v b Hd|y0 o1 b Hd Hb IH]; intros Hy; destruct (Nat.eq_dec y0 r) as [->|Ny].
    - rewrite p_r in Hd. injection Hd as Ho _. destruct (Hoc (or_intror (ex_intro _ v Ho))) as [w Hw].
      eapply cv_c. rewrite q_r, Hw. reflexivity.
    - eapply cv_c. rewrite (q_def y0 Hy Ny). exact Hd.
    - apply Hf; [eapply cv_f; eauto|]. rewrite p_r in Hd. injection Hd as _ Ha. intros z Hz. rewrite Ha in Hz. apply IH; [exact Hz|].
      apply (sp_Kargs Sg pre r o a post HS r o a p_r). rewrite Ha. exact Hz.
    - eapply cv_f; [rewrite (q_def y0 Hy Ny); exact Hd|].
      intros z Hz. apply IH; [exact Hz|]. exact (sp_Kargs Sg pre r o a post HS y0 o1 b Hd z Hz).
  Qed.
  Lemma sc_cst y : K y -> cst p y -> cst q y.
  Proof.
    intros Hy H. revert Hy. induction H as [y0 v b Hd|y0 o1 b Hd Hp Hb IH]; intros Hy; destruct (Nat.eq_dec y0 r) as [->|Ny].
    - rewrite p_r in Hd. injection Hd as Ho _. destruct (Hoc (or_intror (ex_intro _ v Ho))) as [w Hw].
      eapply cst_c. rewrite q_r, Hw. reflexivity.
    - eapply cst_c. rewrite (q_def y0 Hy Ny). exact Hd.
    - rewrite p_r in Hd. injection Hd as Ho _. rewrite <- Ho in Hp. destruct (Hoc (or_introl Hp)) as [w Hw].
      eapply cst_c. rewrite q_r, Hw. reflexivity.
    - eapply cst_f; [rewrite (q_def y0 Hy Ny); exact Hd|exact Hp|].
      intros z Hz. apply IH; [exact Hz|]. exact (sp_Kargs Sg pre r o a post HS y0 o1 b Hd z Hz).
  Qed.
End SpliceConst.

Lemma calm_neutral p e i : neutral (iop i) -> calm_op p e (iop i) (iargs i) -> calm_instr p e i.
Proof.
  intros H C. split; [exact C|]. unfold calm_sign, calm_filter.
  split; intros; match goal with HE : iop i = _ |- _ => rewrite HE in H; discriminate H end.
Qed.
Lemma binary_weights F Co ci KW KH tt : sh F = [Co; ci; KW; KH] -> is_binary F = true -> exact_filter F -> numel (tl (sh F)) < 2 ^ 31 ->
  sh tt = [ci; KW; KH; Co] ->
  (forall o k x y, 0 <= o < Co -> 0 <= k < ci -> 0 <= x < KW -> 0 <= y < KH -> (at_ tt [k; x; y; o] == at_ F [o; k; x; y] / Qabs (at_ F [o; 0; 0; 0]%Z))%Q) ->
  binary_filter tt.
Proof.
  intros SF HB HX HN ST HV. split; [|rewrite ST; rewrite SF in HN; exact HN]. rewrite ST. intros i Hi. apply in_range4 in Hi.
  destruct Hi as (k & x & y & o & -> & Hk & Hx & Hy & Ho). rewrite HV by assumption.
  assert (P := binary_scale Co ci KW KH F o SF HB ltac:(lia) ltac:(lia) ltac:(lia) Ho).
  assert (E : (Qabs (at_ F [o; k; x; y]) == Qabs (at_ F [o; 0; 0; 0]%Z))%Q).
  { apply HX. rewrite SF. repeat constructor; lia. }
  set (s := Qabs (at_ F [o; 0; 0; 0]%Z)) in *. set (v := at_ F [o; k; x; y]) in *. clearbody s v.
  assert (N : ~ (s == 0)%Q) by (intros C; rewrite C in P; discriminate P).
  destruct (Qlt_le_dec v 0) as [L|L].
  - right. rewrite Qabs_neg in E by (apply Qlt_le_weak, L). rewrite <- E. field. rewrite <- E in N. intros C. apply N. rewrite C. reflexivity.
  - left. rewrite Qabs_pos in E by exact L. rewrite E. field. exact N.
Qed.

Lemma def_nodup l x o a : NoDup (map iid l) -> In (x, o, a) l -> def l x = Some (o, a).
Proof.
  induction l as [|i l IH]; intros N H; [contradiction|]. inversion N as [|? ? N1 N2]; subst. rewrite def_cons. destruct H as [->|H].
  - cbn [iid iop iargs fst snd]. rewrite Nat.eqb_refl. reflexivity.
  - destruct (Nat.eqb_spec (iid i) x) as [E|_]; [|auto]. exfalso. apply N1. rewrite E. change x with (iid (x, o, a)). apply in_map, H.
Qed.
Lemma weights_cv F f1 f2 f3 f4 f5 f6 f7 q : (forall x z, def (weights F f1 f2 f3 f4 f5 f6 f7) x = Some z -> def q x = Some z) ->
  NoDup (map iid (weights F f1 f2 f3 f4 f5 f6 f7)) -> forall z, In z [f4; f5; f6; f7] -> cv q z.
Proof.
  intros HN ND. assert (W := fun x o a H => HN x _ (def_nodup _ x o a ND H)). unfold weights in W. cbn [In] in W.
  assert (C1 : cv q f1) by (eapply cv_c, W; auto). assert (C2 : cv q f2) by (eapply cv_c, W; auto).
  assert (C3 : cv q f3) by (eapply cv_f; [apply W; auto|]; intros z [<-|[<-|[]]]; assumption).
  intros z [<-|[<-|[<-|[<-|[]]]]].
  - eapply cv_f; [apply W; auto|]. intros z [<-|[]]. exact C3.
  - eapply cv_c, W. auto 8.
  - eapply cv_c, W. auto 8.
  - eapply cv_f; [apply W; auto 10|]. intros z [].
Qed.
Lemma rule_reqs arm T D r o a news o' a' p q :
  prule arm T D r (o, a) news (o', a') ->
  (forall x z, D x = Some z -> def p x = Some z) -> (forall x z, D x = Some z -> def q x = Some z) ->
  def p r = Some (o, a) -> def q r = Some (o', a') -> NoDup (map iid news) -> (forall x z, def news x = Some z -> def q x = Some z) ->
  (forall x, In x a -> ~ In x (map iid news)) -> (forall x o1 a1 y, D x = Some (o1, a1) -> In y a1 -> ~ In y (map iid news)) ->
  calm_sign p o a ->
  exists Kn : Prop, let P y := (In y (map iid news) -> Kn) /\ (~ In y (map iid news) -> cv p y) in
  (forall x o1 a1, def news x = Some (o1, a1) -> (exists v, o1 = OConst v) \/ (forall y, In y a1 -> P y) -> Kn) /\
  ((exists v, o' = OConst v) \/ (forall y, In y a' -> P y) -> cv p r) /\
  (cv p r -> (forall y, In y a -> cv q y) -> cv q r) /\
  (pure o = true \/ (exists v, o = OConst v) -> exists v, o' = OConst v).
Proof.
  intros R DP DQ PR QR ND HN AN PA CS.
  assert (CC : forall x v b pp, def pp x = Some (OConst v, b) -> cv pp x) by (intros; eapply cv_c; eassumption).
  inversion R; subst; clear R.
  - (* select *) exists (cv p c). cbv zeta. cbn [map iid fst snd In] in *. split; [|split; [|split]].
    + intros z o1 a1 Hd H. rewrite !def_cons in Hd. cbn [iid iop iargs fst snd] in Hd.
      destruct (Nat.eqb_spec f1 z) as [<-|N1]; [|destruct (Nat.eqb_spec f2 z) as [<-|N2]; [|discriminate]]; injection Hd as <- <-.
      * destruct H as [[v Hv]|H]; [discriminate|]. apply (proj2 (H c (or_introl eq_refl))). apply AN. auto.
      * destruct H as [[v Hv]|H]; [discriminate|]. apply (proj1 (H f1 (or_introl eq_refl))). auto.
    + intros [[v Hv]|H]; [discriminate|]. assert (C := proj1 (H f2 (or_introl eq_refl)) ltac:(auto)).
      eapply cv_f; [exact PR|]. intros z [<-|[<-|[<-|[]]]]; eauto.
    + intros _ H. eapply cv_f; [exact QR|]. intros z [<-|[]]. eapply cv_f.
      * apply HN. rewrite !def_cons. cbn [iid iop iargs fst snd]. inversion ND as [|? ? N1 _]; subst.
        destruct (Nat.eqb_spec f1 f2) as [E|_]; [exfalso; apply N1; left; auto|]. rewrite Nat.eqb_refl. reflexivity.
      * intros z [<-|[]]. eapply cv_f; [apply HN; rewrite !def_cons; cbn [iid iop iargs fst snd]; rewrite Nat.eqb_refl; reflexivity|].
        intros z [<-|[]]. apply H. auto.
    + intros [H|[? H]]; discriminate H.
  - (* select, swapped *) exists (cv p c). cbv zeta. cbn [map iid fst snd In] in *.
    inversion ND as [|? ? N1 ND1]; subst. inversion ND1 as [|? ? N2 _]; subst. cbn [In] in N1, N2. split; [|split; [|split]].
    + intros z o1 a1 Hd H. rewrite !def_cons in Hd. cbn [iid iop iargs fst snd] in Hd.
      destruct (Nat.eqb_spec f0 z) as [<-|M1]; [|destruct (Nat.eqb_spec f1 z) as [<-|M2]; [|destruct (Nat.eqb_spec f2 z) as [<-|M3]; [|discriminate]]]; injection Hd as <- <-;
        (destruct H as [[v Hv]|H]; [discriminate|]).
      * apply (proj2 (H c (or_introl eq_refl))). apply AN. auto.
      * apply (proj1 (H f0 (or_introl eq_refl))). auto.
      * apply (proj1 (H f1 (or_introl eq_refl))). auto.
    + intros [[v Hv]|H]; [discriminate|]. assert (C := proj1 (H f2 (or_introl eq_refl)) ltac:(auto)).
      eapply cv_f; [exact PR|]. intros z [<-|[<-|[<-|[]]]]; eauto.
    + intros _ H. eapply cv_f; [exact QR|]. intros z [<-|[]]. eapply cv_f.
      * apply HN. rewrite !def_cons. cbn [iid iop iargs fst snd].
        destruct (Nat.eqb_spec f0 f2) as [E|_]; [exfalso; apply N1; auto|].
        destruct (Nat.eqb_spec f1 f2) as [E|_]; [exfalso; apply N2; auto|]. rewrite Nat.eqb_refl. reflexivity.
      * intros z [<-|[]]. eapply cv_f.
        -- apply HN. rewrite !def_cons. cbn [iid iop iargs fst snd].
           destruct (Nat.eqb_spec f0 f1) as [E|_]; [exfalso; apply N1; auto|]. rewrite Nat.eqb_refl. reflexivity.
        -- intros z [<-|[]]. eapply cv_f; [apply HN; rewrite !def_cons; cbn [iid iop iargs fst snd]; rewrite Nat.eqb_refl; reflexivity|].
           intros z [<-|[]]. apply H. auto.
    + intros [H|[? H]]; discriminate H.
  - (* sign *) match goal with HA : D ?a1 = _ \/ _, HB : D b = _ |- _ => rename HA into DA; rename HB into DB; rename a1 into s end.
    exists (cv p x). cbv zeta. cbn [map iid fst snd In] in *. split; [|split; [|split]].
    + intros z o1 a1 Hd H. rewrite !def_cons in Hd. cbn [iid iop iargs fst snd] in Hd.
      destruct (Nat.eqb_spec f1 z) as [<-|N1]; [|discriminate]. injection Hd as <- <-. destruct H as [[v Hv]|H]; [discriminate|].
      apply (proj2 (H x (or_introl eq_refl))). apply (PA _ _ _ x DB). left. reflexivity.
    + intros [[v Hv]|H]; [discriminate|]. assert (C := proj1 (H f1 (or_introl eq_refl)) ltac:(auto)).
      assert (Cb : cv p b) by (eapply cv_f; [apply DP, DB|]; intros z [<-|[]]; exact C).
      assert (Cc : cv p c).
      { apply (CS s s b c b x eq_refl eq_refl); [constructor| |constructor|apply DP, DB]. destruct DA as [DA|DA]; [left|right]; apply DP, DA. }
      eapply cv_f; [exact PR|]. intros z [<-|[]]. destruct DA as [DA|DA]; (eapply cv_f; [apply DP, DA|]; intros z [<-|[<-|[]]]; assumption).
    + intros _ H. specialize (H s (or_introl eq_refl)).
      assert (Cb : cv q b).
      { destruct DA as [DA|DA]; destruct (cv_inv _ _ _ _ H (DQ _ _ DA)) as [[v Hv]|G]; try discriminate; apply G; cbn; auto. }
      destruct (cv_inv _ _ _ _ Cb (DQ _ _ DB)) as [[v Hv]|G]; [discriminate|]. specialize (G x (or_introl eq_refl)).
      eapply cv_f; [exact QR|]. intros z [<-|[]]. eapply cv_f; [apply HN; rewrite !def_cons; cbn [iid iop iargs fst snd]; rewrite Nat.eqb_refl; reflexivity|].
      intros z [<-|[]]. exact G.
    + intros [H|[? H]]; discriminate H.
  - (* conv *) match goal with HA : D d = _, HB : D f = _ |- _ => rename HA into DA; rename HB into DB end.
    exists True. cbv zeta. split; [auto|]. split; [|split].
    + intros [[v Hv]|H]; [discriminate|]. assert (C := proj2 (H i (or_introl eq_refl)) (PA _ _ _ i DA (or_introl eq_refl))).
      eapply cv_f; [exact PR|]. intros z [<-|[<-|[]]]; [|eauto]. eapply cv_f; [apply DP, DA|]. intros z [<-|[]]. exact C.
    + intros _ H. assert (Cd := H d (or_introl eq_refl)). destruct (cv_inv _ _ _ _ Cd (DQ _ _ DA)) as [[v Hv]|G]; [discriminate|].
      eapply cv_f; [exact QR|]. intros z [<-|Hz]; [apply G; left; reflexivity|]. exact (weights_cv F f1 f2 f3 f4 f5 f6 f7 q HN ND z Hz).
    + intros [H|[? H]]; discriminate H.
  - match goal with HA : D d = _, HB : D f = _, HX : D x = _, HP : D pd = _, HV : D pv = _ |- _ =>
      rename HA into DA; rename HB into DB; rename HX into DX; rename HP into DPD; rename HV into DV end.
    exists True. cbv zeta. split; [auto|]. split; [|split].
    + intros [[v Hv]|H]; [discriminate|]. assert (C := proj2 (H i (or_introl eq_refl)) (PA _ _ _ i DX (or_introl eq_refl))).
      eapply cv_f; [exact PR|]. intros z [<-|[<-|[]]]; [|eauto]. eapply cv_f; [apply DP, DA|]. intros z [<-|[<-|[<-|[]]]]; [|eauto|eauto].
      eapply cv_f; [apply DP, DX|]. intros z [<-|[]]. exact C.
    + intros _ H. assert (Cd := H d (or_introl eq_refl)). destruct (cv_inv _ _ _ _ Cd (DQ _ _ DA)) as [[v Hv]|G]; [discriminate|].
      assert (Cx := G x (or_introl eq_refl)). destruct (cv_inv _ _ _ _ Cx (DQ _ _ DX)) as [[v Hv]|G2]; [discriminate|].
      eapply cv_f; [exact QR|]. intros z [<-|Hz]; [apply G2; left; reflexivity|]. exact (weights_cv F f1 f2 f3 f4 f5 f6 f7 q HN ND z Hz).
    + intros [H|[? H]]; discriminate H.
Qed.

Section RuleCalm.
  Variables (arm : bool) (Sg : list nat) (e0 : env) (pre post : list instr) (r : nat) (o : op) (a : list nat) (news : list instr) (o' : op) (a' : list nat) (e : env).
  Let p := pre ++ (r, o, a) :: post.
  Let q := pre ++ news ++ (r, o', a') :: post.
  Hypothesis HS : ssa Sg p.
  Hypothesis HE : eval p e0 = Some e.
  Hypothesis HA : sane p e.
  Hypothesis HC : calm p e.
  Hypothesis R : prule arm (shapes e0 p) (def pre) r (o, a) news (o', a').
  Hypothesis ND : NoDup (map iid news).
  Hypothesis NF : forall x, In x (map iid news) -> ~ In x Sg /\ ~ In x (map iid p).

  Lemma rule_HL : forall ep vs v, eval pre e0 = Some ep -> look ep a = Some vs -> denote o vs = Some v ->
     ssa (rev (map iid pre) ++ Sg) news /\ (forall x, In x a' -> In x (rev (map iid news) ++ rev (map iid pre) ++ Sg)) /\
     exists e1 vs' v', eval news ep = Some e1 /\ look e1 a' = Some vs' /\ denote o' vs' = Some v' /\ veq v v'.
  Proof.
    intros ep vs v Ep El Ed.
    apply (prule_sound arm Sg e0 e ep pre post r o a vs v HS HE HA Ep El Ed news o' a' R ND).
    intros x Hx C. destruct (NF x Hx) as [A B]. apply in_app_or in C. destruct C as [C|C]; [|contradiction].
    apply B. unfold p. rewrite map_app. apply in_or_app. left. apply in_rev. exact C.
  Qed.
  Lemma q_pre x z : def pre x = Some z -> def q x = Some z.
  Proof. apply def_pre. Qed.
  Lemma p_pre x z : def pre x = Some z -> def p x = Some z.
  Proof. apply def_pre. Qed.
  Lemma pre_new x z : def pre x = Some z -> ~ In x (map iid news).
  Proof. intros H C. apply (proj2 (NF x C)). unfold p. rewrite map_app. apply in_or_app. left. eapply def_in, H. Qed.
  Lemma arg_new x : In x a -> ~ In x (map iid news).
  Proof.
    intros H C. destruct (NF x C) as [A B]. assert (I := ssa_args _ _ HS (r, o, a) x ltac:(apply in_or_app; right; left; reflexivity) H).
    apply in_app_or in I. tauto.
  Qed.
  Lemma pre_arg x o1 a1 y : def pre x = Some (o1, a1) -> In y a1 -> ~ In y (map iid news).
  Proof.
    intros H Hy C. destruct (NF y C) as [A B]. assert (I := ssa_args _ _ HS (x, o1, a1) y ltac:(apply in_or_app; left; apply def_instr; exact H) Hy).
    apply in_app_or in I. tauto.
  Qed.
  Let K y := In y (Sg ++ map iid p).
  Lemma rule_sign : calm_sign p o a.
  Proof. apply (HC (r, o, a)). apply in_or_app. right. left. reflexivity. Qed.
  Lemma rule_consts : (forall y, K y -> cv q y -> cv p y) /\ (forall y, K y -> cv p y -> cv q y) /\ (forall y, K y -> cst p y -> cst q y).
  Proof.
    destruct (rule_reqs arm (shapes e0 p) (def pre) r o a news o' a' p q R p_pre q_pre (p_r Sg pre r o a post HS) (q_r Sg pre r o a post news o' a' HS NF)
      ND (fun x z => sp_def_new Sg pre r o a post news o' a' NF x z) arg_new pre_arg rule_sign) as (Kn & R1 & R2 & R3 & R4).
    split; [exact (sc_cv Sg pre r o a post news o' a' HS NF Kn R1 R2)|].
    split; [exact (sc_vc Sg pre r o a post news o' a' HS NF R3 R4)|exact (sc_cst Sg pre r o a post news o' a' HS NF R4)].
  Qed.
End RuleCalm.

(** The new operations of a rule are calm. *)
Lemma rule_new arm T D r o a news o' a' q e e' Sg e0 :
  prule arm T D r (o, a) news (o', a') -> NoDup (map iid news) -> (forall x z, def news x = Some z -> def q x = Some z) ->
  ssa Sg q -> eval q e0 = Some e' ->
  sane_filter e o a -> calm_filter e o a -> (forall x v, D x = Some (OConst v, []) -> e x = Some v) ->
  (forall k d f F, o = tf_conv2d k -> a = [d; f] -> e f = Some (VF F) -> exists Co ci KW KH, sh F = [Co; ci; KW; KH]) ->
  forall i, In i (news ++ [(r, o', a')]) -> calm_instr q e' i.
Proof.
  intros R ND HN HSq HE' SF CF HD HSh i Hi. destruct (prule_plain _ _ _ _ _ _ _ _ _ R) as [P1 P2].
  apply calm_neutral.
  { apply in_app_or in Hi. destruct Hi as [Hi|[<-|[]]]; [apply (P1 i Hi)|exact (proj1 P2)]. }
  assert (CONV : forall k d f F f1 f2 f3 f4 f5 f6 f7, news = weights F f1 f2 f3 f4 f5 f6 f7 -> o = tf_conv2d k -> a = [d; f] ->
    D f = Some (OConst (VF F), []) -> is_binary F = true ->
    (forall j, In j news -> calm_op q e' (iop j) (iargs j)) /\ forall t, e' f4 = Some (VF t) -> binary_filter t).
  { intros k d f F f1 f2 f3 f4 f5 f6 f7 -> -> -> Df HB. assert (W := fun x o a H => HN x _ (def_nodup _ x o a ND H)). unfold weights in W. cbn [In] in W.
    split.
    - intros j Hj. unfold weights in Hj. cbn [In] in Hj. repeat (destruct Hj as [<-|Hj]; [cbn [iop iargs fst snd]; try exact I|]); try contradiction.
      intros _ N. exfalso. apply N. eapply cst_c, W. auto.
    - intros t Ht. destruct (HSh k d f F eq_refl eq_refl (HD _ _ Df)) as (Co & ci & KW & KH & SH).
      destruct (weights_val F Co ci KW KH SH) as (tv & tt & Dv & Dt & St & Vt).
      assert (E1 : e' f1 = Some (VF F)).
      { destruct (eval_def q Sg e0 e' f1 _ _ HSq HE' (W f1 _ _ (or_introl eq_refl))) as (vs & v & L & Dn & Ev & _). cbn in L. injection L as <-. cbn in Dn. injection Dn as <-. exact Ev. }
      assert (E2 : e' f2 = Some (VF (scale_vec F))).
      { destruct (eval_def q Sg e0 e' f2 _ _ HSq HE' (W f2 _ _ (or_intror (or_introl eq_refl)))) as (vs & v & L & Dn & Ev & _). cbn in L. injection L as <-. cbn in Dn. injection Dn as <-. exact Ev. }
      assert (E3 : e' f3 = Some (VF tv)).
      { destruct (eval_def q Sg e0 e' f3 _ _ HSq HE' (W f3 _ _ (or_intror (or_intror (or_introl eq_refl))))) as (vs & v & L & Dn & Ev & _).
        cbn [look] in L. rewrite E1, E2 in L. injection L as <-. rewrite Dv in Dn. injection Dn as <-. exact Ev. }
      destruct (eval_def q Sg e0 e' f4 _ _ HSq HE' (W f4 _ _ (or_intror (or_intror (or_intror (or_introl eq_refl)))))) as (vs & v & L & Dn & Ev & _).
      cbn [look] in L. rewrite E3 in L. injection L as <-. change (transpose_fun [VF tv] = Some v) in Dn. rewrite Dt in Dn. injection Dn as <-.
      rewrite Ht in Ev. injection Ev as ->.
      apply (binary_weights F Co ci KW KH tt SH HB); [|exact (CF k d f F eq_refl eq_refl (HD _ _ Df) HB)|exact St|exact Vt].
      exact (SF k d f F eq_refl eq_refl (HD _ _ Df) HB). }
  inversion R; subst; clear R.
  - cbn in Hi. repeat (destruct Hi as [<-|Hi]; [exact I|]). contradiction.
  - cbn in Hi. repeat (destruct Hi as [<-|Hi]; [exact I|]). contradiction.
  - cbn in Hi. repeat (destruct Hi as [<-|Hi]; [exact I|]). contradiction.
  - destruct (CONV k d f F f1 f2 f3 f4 f5 f6 f7 eq_refl eq_refl eq_refl ltac:(assumption) ltac:(assumption)) as [C1 C2].
    apply in_app_or in Hi. destruct Hi as [Hi|[<-|[]]]; [apply C1, Hi|exact C2].
  - destruct (CONV k d f F f1 f2 f3 f4 f5 f6 f7 eq_refl eq_refl eq_refl ltac:(assumption) ltac:(assumption)) as [C1 C2].
    apply in_app_or in Hi. destruct Hi as [Hi|[<-|[]]]; [apply C1, Hi|exact C2].
Qed.

(** ** The four actions *)
Lemma rule_calm arm Sg e0 pre r o a post news o' a' e :
  ssa Sg (pre ++ (r, o, a) :: post) -> eval (pre ++ (r, o, a) :: post) e0 = Some e ->
  sane (pre ++ (r, o, a) :: post) e -> calm (pre ++ (r, o, a) :: post) e ->
  prule arm (shapes e0 (pre ++ (r, o, a) :: post)) (def pre) r (o, a) news (o', a') ->
  NoDup (map iid news) -> (forall x, In x (map iid news) -> ~ In x Sg /\ ~ In x (map iid (pre ++ (r, o, a) :: post))) ->
  exists e', eval (pre ++ news ++ (r, o', a') :: post) e0 = Some e' /\ calm (pre ++ news ++ (r, o', a') :: post) e'.
Proof.
  intros HS HE HA HC R ND NF. set (p := pre ++ (r, o, a) :: post) in *.
  destruct (prule_plain _ _ _ _ _ _ _ _ _ R) as [P1 P2].
  destruct (rule_consts arm Sg e0 pre post r o a news o' a' e HS HC R ND NF) as (C1 & C2 & C3).
  apply (splice_calm Sg e0 pre r o a post news o' a' e HS HE NF (rule_HL arm Sg e0 pre post r o a news o' a' e HS HE HA R ND NF) P2 C1 C2 C3 HC).
  intros e' i HSq HE' Hi. assert (Ip : In (r, o, a) p) by (apply in_or_app; right; left; reflexivity).
  assert (Dr : def p r = Some (o, a)) by exact (p_r Sg pre r o a post HS).
  apply (rule_new arm (shapes e0 p) (def pre) r o a news o' a' (pre ++ news ++ (r, o', a') :: post) e e' Sg e0 R ND); auto.
  - exact (fun x z => sp_def_new Sg pre r o a post news o' a' NF x z).
  - apply (HA _ Ip).
  - apply (HC _ Ip).
  - intros x v Hx. destruct (eval_def p Sg e0 e x _ _ HS HE (def_pre pre _ _ _ Hx)) as (vs & w & L & Dn & Ev & _).
    cbn in L. injection L as <-. cbn in Dn. injection Dn as <-. exact Ev.
  - intros k d f F -> -> Ef. destruct (eval_def p Sg e0 e r _ _ HS HE Dr) as (vs & w & L & Dn & Ev & _).
    cbn [look] in L. destruct (e d) as [vd|]; [|discriminate]. rewrite Ef in L. injection L as <-.
    change (conv_fun k [vd; VF F] = Some w) in Dn. destruct vd as [t| | | |]; try discriminate. cbn [conv_fun] in Dn. unfold conv_sem in Dn.
    destruct (tf_geom k (sh t) (sh F)) as [g|] eqn:G; [|discriminate]. unfold tf_geom in G.
    destruct (sh t) as [|? [|? [|? [|? [|]]]]]; try discriminate. destruct (sh F) as [|Co [|ci [|KW [|KH [|]]]]]; try discriminate. eauto.
Qed.

Lemma fold_calm Sg e0 pre r o a post vs v e :
  ssa Sg (pre ++ (r, o, a) :: post) -> eval (pre ++ (r, o, a) :: post) e0 = Some e -> calm (pre ++ (r, o, a) :: post) e ->
  consts (def pre) a vs -> denote o vs = Some v ->
  exists e', eval (pre ++ (r, OConst v, []) :: post) e0 = Some e' /\ calm (pre ++ (r, OConst v, []) :: post) e'.
Proof.
  intros HS HE HC Hc Hd. set (p := pre ++ (r, o, a) :: post) in *.
  assert (NF : forall x, In x (map iid []) -> ~ In x Sg /\ ~ In x (map iid p)) by (intros x []).
  assert (PL : plain (OConst v)) by (split; [exact I|intros [E|[E|[E|E]]]; discriminate]).
  assert (CA : forall x, In x a -> cv p x).
  { intros x Hx. assert (exists w, def pre x = Some (OConst w, [])) as [w Hw].
    { clear - Hc Hx. induction Hc as [|y w l ws Hy Hc IH]; [contradiction|]. destruct Hx as [<-|Hx]; eauto. }
    eapply cv_c, def_pre, Hw. }
  apply (splice_calm Sg e0 pre r o a post [] (OConst v) [] e HS HE NF).
  - intros ep vs' w Ep El Ed. split; [exact I|]. split; [intros x []|]. exists ep, [], v. cbn [eval look denote].
    do 3 (split; [reflexivity|]). assert (HS0 := HS). unfold p in HS0. apply ssa_app in HS0. destruct HS0 as [HS1 _].
    assert (El' : look ep a = Some vs).
    { clear - Hc HS1 Ep. induction Hc as [|x v l vs Hx HC IH]; [reflexivity|]. cbn [look].
      destruct (d_const Sg pre e0 ep HS1 Ep x v Hx) as [-> _]. rewrite IH. reflexivity. }
    assert (E : Some w = Some v) by congruence. injection E as ->. apply veq_refl.
  - exact PL.
  - apply (sc_cv Sg pre r o a post [] (OConst v) [] HS NF True); [auto|]. intros _. eapply cv_f; [apply (p_r Sg pre r o a post HS)|exact CA].
  - apply (sc_vc Sg pre r o a post [] (OConst v) [] HS NF); [|eauto]. intros _ _. eapply cv_c, (q_r Sg pre r o a post [] (OConst v) [] HS NF).
  - apply (sc_cst Sg pre r o a post [] (OConst v) [] HS NF). eauto.
  - exact HC.
  - intros e' i _ _ [<-|[]]. apply calm_neutral; exact I.
Qed.

Lemma identity_calm Sg e0 pre r x post e :
  let p := pre ++ (r, tf_identity, [x]) :: post in let q := pre ++ map (sbi r x) post in
  ssa Sg p -> eval p e0 = Some e -> calm p e -> exists e', eval q e0 = Some e' /\ calm q e'.
Proof.
  intros p q HS HE HC. assert (HS0 := HS). unfold p in HS0. apply ssa_app in HS0. destruct HS0 as [HS1 (HS2 & HS3 & HS4)].
  set (SC := rev (map iid pre) ++ Sg) in *. assert (Ix : In x SC) by (apply HS2; left; reflexivity).
  assert (Nx : x <> r) by (intros ->; contradiction).
  assert (Hev := HE). unfold p in Hev. rewrite eval_app in Hev. destruct (eval pre e0) as [ep|] eqn:Ep; [|discriminate].
  cbn [eval look] in Hev. destruct (ep x) as [v|] eqn:Ex; [|discriminate]. change (denote tf_identity [v]) with (Some v) in Hev. cbv iota in Hev.
  assert (Nrp : ~ In r (map iid post)) by (intros C; apply (ssa_notin _ _ HS4 r C); left; reflexivity).
  assert (Nxp : ~ In x (map iid post)) by (intros C; apply (ssa_notin _ _ HS4 x C); right; exact Ix).
  destruct (eval_sb r x post (upd ep r v) ep e Nrp Nxp) as (e' & HE' & HV); [|exact Hev|].
  { intros y. unfold upd, sb. destruct (Nat.eqb_spec y r) as [->|N]; [symmetry; exact Ex|reflexivity]. }
  assert (HEq : eval q e0 = Some e') by (unfold q; rewrite eval_app, Ep; exact HE').
  exists e'. split; [exact HEq|].
  set (K := fun y => In y (Sg ++ map iid p)).
  assert (Rpre : ~ In r (map iid pre)) by (intros C; apply HS3; apply in_or_app; left; rewrite <- in_rev; exact C).
  assert (Dr : def p r = Some (tf_identity, [x])).
  { unfold p. rewrite def_app, def_cons. cbn [iid iop iargs fst snd]. rewrite Nat.eqb_refl. rewrite (def_none pre) by exact Rpre. reflexivity. }
  assert (Drq : def q r = None).
  { apply def_none. unfold q. rewrite map_app, ids_sbi, in_app_iff. tauto. }
  assert (ArgPre : forall i, In i pre -> ~ In r (iargs i)).
  { intros i Hi C. assert (B := ssa_args _ _ HS1 i r Hi C). apply HS3. unfold SC. rewrite in_app_iff in *. rewrite <- in_rev. tauto. }
  assert (GO : forall u o1 a1, u <> r -> def q u = Some (o1, a1) -> exists a0, def p u = Some (o1, a0) /\ a1 = map (sb r x) a0 /\ forall z, In z a0 -> K z).
  { intros u o1 a1 Nu Hu. unfold q in Hu. rewrite def_app in Hu. destruct (def pre u) as [[o2 a2]|] eqn:Eu.
    - injection Hu as -> ->. exists a1. assert (Hd : def p u = Some (o1, a1)) by (unfold p; apply def_pre; exact Eu).
      split; [exact Hd|]. split.
      + symmetry. apply map_sb_id. exact (ArgPre (u, o1, a1) (def_instr _ _ _ _ Eu)).
      + intros z Hin. apply (ssa_args _ _ HS (u, o1, a1)); [apply def_instr, Hd|exact Hin].
    - rewrite def_sbi in Hu. destruct (def post u) as [[o2 a2]|] eqn:Eu2; [|discriminate]. cbn [option_map fst snd] in Hu. injection Hu as -> <-.
      assert (Hd : def p u = Some (o1, a2)).
      { unfold p. rewrite def_app, Eu, def_cons. cbn [iid fst]. destruct (Nat.eqb_spec r u); [congruence|exact Eu2]. }
      exists a2. split; [exact Hd|]. split; [reflexivity|].
      intros z Hin. apply (ssa_args _ _ HS (u, o1, a2)); [apply def_instr, Hd|exact Hin]. }
  assert (OG : forall u o1 a1, u <> r -> def p u = Some (o1, a1) -> def q u = Some (o1, map (sb r x) a1)).
  { intros u o1 a1 Nu Hu. unfold p in Hu. unfold q. rewrite def_app in *. destruct (def pre u) as [[o2 a2]|] eqn:Eu.
    - injection Hu as -> ->. rewrite map_sb_id; [reflexivity|]. exact (ArgPre (u, o1, a1) (def_instr _ _ _ _ Eu)).
    - rewrite def_cons in Hu. cbn [iid fst] in Hu. destruct (Nat.eqb_spec r u) as [->|_]; [congruence|]. rewrite def_sbi, Hu. reflexivity. }
  assert (TR : forall y o1 a1, K y -> def q (sb r x y) = Some (o1, a1) -> special o1 ->
    exists y1 a0, thr p y y1 /\ def p y1 = Some (o1, a0) /\ a1 = map (sb r x) a0 /\ forall z, In z a0 -> K z).
  { intros y o1 a1 Hy Hz Hsp. destruct (Nat.eq_dec y r) as [->|N].
    - rewrite sb_r in Hz. destruct (GO x _ _ Nx Hz) as (a0 & G1 & G2 & G3). exists x, a0. split; [|auto].
      eapply thr_step; [exact Dr|constructor].
    - rewrite sb_id in Hz by exact N. destruct (GO y _ _ N Hz) as (a0 & G1 & G2 & G3). exists y, a0. split; [constructor|auto]. }
  assert (VB : forall y w, K y -> e' (sb r x y) = Some w -> exists v, e y = Some v /\ veq v w).
  { intros y w _ Hw. exists w. split; [rewrite HV; exact Hw|apply veq_refl]. }
  assert (B1 : forall z, cv q z -> cv p z).
  { intros z H. induction H as [z w b Hz|z o1 b Hz _ IH].
    - assert (Nz : z <> r) by congruence. destruct (GO z _ _ Nz Hz) as (a0 & G1 & _). eapply cv_c, G1.
    - assert (Nz : z <> r) by congruence. destruct (GO z _ _ Nz Hz) as (a0 & G1 & -> & _). eapply cv_f; [exact G1|].
      intros y Hy. assert (C := IH _ (in_map (sb r x) _ _ Hy)). destruct (Nat.eq_dec y r) as [->|Ny].
      + rewrite sb_r in C. eapply cv_f; [exact Dr|]. intros u [<-|[]]. exact C.
      + rewrite sb_id in C by exact Ny. exact C. }
  assert (C1 : forall y, K y -> cv q (sb r x y) -> cv p y).
  { intros y _ H. apply B1 in H. destruct (Nat.eq_dec y r) as [->|Ny].
    - rewrite sb_r in H. eapply cv_f; [exact Dr|]. intros u [<-|[]]. exact H.
    - rewrite sb_id in H by exact Ny. exact H. }
  assert (C2 : forall y, K y -> cv p y -> cv q (sb r x y)).
  { intros y _ H. induction H as [z w b Hz|z o1 b Hz _ IH].
    - assert (Nz : z <> r) by (intros ->; rewrite Dr in Hz; discriminate Hz). rewrite sb_id by exact Nz. eapply cv_c, (OG z _ _ Nz Hz).
    - destruct (Nat.eq_dec z r) as [->|Nz].
      + rewrite Dr in Hz. assert (Eb : [x] = b) by congruence. rewrite sb_r. rewrite <- Eb in IH. specialize (IH x (or_introl eq_refl)). rewrite sb_id in IH by exact Nx. exact IH.
      + rewrite sb_id by exact Nz. eapply cv_f; [exact (OG z _ _ Nz Hz)|]. intros u Hu. apply in_map_iff in Hu. destruct Hu as (y & <- & Hy). apply IH, Hy. }
  assert (NR : forall y, cst p y -> y <> r).
  { intros y H ->. inversion H as [z w b Hz|z o1 b Hz Hp _]; subst; rewrite Dr in Hz; [discriminate|].
    apply (f_equal (fun u => match u with Some (oo, _) => pure oo | None => false end)) in Hz. cbn [pure tf_identity] in Hz. rewrite Hp in Hz. discriminate Hz. }
  assert (C3 : forall y, K y -> cst p y -> cst q (sb r x y)).
  { intros y _ H. rewrite sb_id by exact (NR y H). induction H as [z w b Hz|z o1 b Hz Hp Hb IH].
    - assert (Nz : z <> r) by (intros ->; rewrite Dr in Hz; discriminate Hz). eapply cst_c, (OG z _ _ Nz Hz).
    - assert (Nz := NR z (cst_f _ _ _ _ Hz Hp Hb)). eapply cst_f; [exact (OG z _ _ Nz Hz)|exact Hp|].
      intros u Hu. apply in_map_iff in Hu. destruct Hu as (y & <- & Hy). rewrite sb_id by exact (NR y (Hb y Hy)). apply IH, Hy. }
  intros i Hi. unfold q in Hi. apply in_app_or in Hi. destruct Hi as [Hi|Hi].
  - assert (Hp : In i p) by (apply in_or_app; left; exact Hi).
    apply (calm_kept p q e e' (sb r x) K TR VB C1 C2 C3 i i); auto.
    + symmetry. apply map_sb_id, ArgPre, Hi.
    + intros y Hy. eapply ssa_args; eauto.
  - apply in_map_iff in Hi. destruct Hi as (i0 & <- & Hi). assert (Hp : In i0 p) by (apply in_or_app; right; right; exact Hi).
    apply (calm_kept p q e e' (sb r x) K TR VB C1 C2 C3 (sbi r x i0) i0); auto.
    intros y Hy. eapply ssa_args; eauto.
Qed.

Lemma dead_calm Sg outs e0 pre i post e :
  let p := pre ++ i :: post in let q := pre ++ post in
  uses p outs (iid i) = 0%nat -> ssa Sg p -> eval p e0 = Some e -> calm p e -> exists e', eval q e0 = Some e' /\ calm q e'.
Proof.
  intros p q U0 HS HE HC. assert (U := uses_zero _ _ _ U0). destruct U as [_ N2]. set (r := iid i) in *.
  assert (HS0 := HS). unfold p in HS0. apply ssa_app in HS0. destruct HS0 as [HS1 HS2]. set (SC := rev (map iid pre) ++ Sg) in *.
  assert (HS3 : ~ In r SC /\ ssa (r :: SC) post) by (destruct i as [[r0 o] a]; destruct HS2 as (_ & A & B); split; [exact A|exact B]).
  destruct HS3 as [Hr HS3]. clear HS2.
  assert (HS' : ssa SC post).
  { apply (ssa_weaken post _ _ HS3).
    - intros j x Hj Hx [->|Hs]; [|exact Hs]. exfalso. apply (N2 j); [|exact Hx]. apply in_or_app. right. right. exact Hj.
    - intros x Hx C. apply (ssa_notin _ _ HS3 x Hx). right. exact C. }
  assert (HSq : ssa Sg q) by (apply ssa_app; split; assumption).
  assert (HEv : exists e', eval q e0 = Some e' /\ forall x v, In x (Sg ++ map iid q) -> e x = Some v -> exists w, e' x = Some w /\ veq v w).
  { unfold p in HE. rewrite eval_app in HE. unfold q. rewrite eval_app. destruct (eval pre e0) as [ep|]; [|discriminate].
    assert (HL : exists v, eval post (upd ep r v) = Some e).
    { unfold r. destruct i as [[r0 o] a]. cbn [eval iid fst] in *. destruct (look ep a); [|discriminate]. destruct (denote o l) as [v|]; [|discriminate]. eauto. }
    destruct HL as [v HL].
    assert (HLe : ele SC (upd ep r v) ep).
    { intros x w Hx Hw. rewrite upd_other in Hw by congruence. exists w. split; [exact Hw|apply veq_refl]. }
    destruct (eval_ele post SC _ _ _ HS' HLe HL) as (e2 & E2 & L2). exists e2. split; [exact E2|].
    intros x w Hx Hw. apply (L2 x w); [|exact Hw]. clear - Hx. subst SC.
    rewrite !map_app in *. rewrite !in_app_iff in *. rewrite <- !in_rev. tauto. }
  destruct HEv as (e' & HE' & HV). exists e'. split; [exact HE'|].
  set (K := fun y => In y (Sg ++ map iid q)).
  assert (Kp : forall y, K y -> In y (Sg ++ map iid p)).
  { intros y Hy. unfold K, p, q in *. rewrite !map_app in *. cbn [map]. rewrite !in_app_iff in *. cbn [In]. tauto. }
  assert (Kr : ~ K r).
  { intros C. unfold K, q in C. rewrite map_app, !in_app_iff in C. unfold SC in Hr. rewrite in_app_iff, <- in_rev in Hr.
    destruct C as [C|[C|C]]; [tauto|tauto|]. apply (ssa_notin _ _ HS3 r C). left. reflexivity. }
  assert (DQ : forall y, y <> r -> def q y = def p y).
  { intros y Ny. unfold p, q. rewrite !def_app, def_cons. fold r. destruct (Nat.eqb_spec r y); [congruence|reflexivity]. }
  assert (KA : forall y o1 a1, def q y = Some (o1, a1) -> forall z, In z a1 -> K z).
  { intros y o1 a1 Hz z Hin. apply (ssa_args _ _ HSq (y, o1, a1)); [apply def_instr, Hz|exact Hin]. }
  assert (QR : def q r = None).
  { apply def_none. intros C. apply Kr. unfold K. apply in_or_app. right. exact C. }
  assert (TR : forall y o1 a1, K y -> def q y = Some (o1, a1) -> special o1 ->
    exists y1 a0, thr p y y1 /\ def p y1 = Some (o1, a0) /\ a1 = map (fun x => x) a0 /\ forall z, In z a0 -> K z).
  { intros y o1 a1 Hy Hz _. exists y, a1. split; [constructor|]. split; [|split; [symmetry; apply map_id|exact (KA _ _ _ Hz)]].
    rewrite <- DQ; [exact Hz|congruence]. }
  assert (VB : forall y w, K y -> e' y = Some w -> exists v, e y = Some v /\ veq v w).
  { intros y w Hy Hw. eapply (back Sg p q e0 e e'); eauto. }
  assert (C1 : forall y, K y -> cv q y -> cv p y).
  { intros y _ H. induction H as [z w b Hz|z o1 b Hz _ IH]; (assert (Nz : z <> r) by congruence); rewrite DQ in Hz by exact Nz; [eapply cv_c|eapply cv_f]; eauto. }
  assert (C2 : forall y, K y -> cv p y -> cv q y).
  { intros y Ky H. revert Ky. induction H as [z w b Hz|z o1 b Hz _ IH]; intros Ky; (assert (Nz : z <> r) by congruence); rewrite <- DQ in Hz by exact Nz;
      [eapply cv_c; exact Hz|]. eapply cv_f; [exact Hz|]. intros u Hu. apply IH; [exact Hu|]. exact (KA _ _ _ Hz u Hu). }
  assert (C3 : forall y, K y -> cst p y -> cst q y).
  { intros y Ky H. revert Ky. induction H as [z w b Hz|z o1 b Hz Hp _ IH]; intros Ky; (assert (Nz : z <> r) by congruence); rewrite <- DQ in Hz by exact Nz;
      [eapply cst_c; exact Hz|]. eapply cst_f; [exact Hz|exact Hp|]. intros u Hu. apply IH; [exact Hu|]. exact (KA _ _ _ Hz u Hu). }
  intros j Hj. assert (Hp : In j p) by (unfold p, q in *; rewrite in_app_iff in *; cbn [In]; tauto).
  apply (calm_kept p q e e' (fun x => x) K TR VB C1 C2 C3 j j); auto.
  - symmetry. apply map_id.
  - intros y Hy. eapply ssa_args; eauto.
Qed.

Theorem pstep_calm arm Sg e0 p outs q outs' e :
  pstep (shapes e0) arm Sg (p, outs) (q, outs') -> ssa Sg p -> eval p e0 = Some e -> sane p e -> calm p e ->
  exists e', eval q e0 = Some e' /\ calm q e'.
Proof.
  intros H HS HE HA HC. inversion H as [pre r o a post news o' a' outs0 R ND NF E1 E2 | pre r o a post vs v outs0 NC Hc HD E1 E2
    | pre i post outs0 U0 E1 E2 | pre r x post outs0 E1 E2]; subst; clear H.
  - eapply rule_calm; eassumption.
  - eapply fold_calm; eassumption.
  - eapply dead_calm; eassumption.
  - eapply identity_calm; eassumption.
Qed.
Theorem psteps_calm arm Sg e0 n s t : psteps (shapes e0) arm Sg n s t -> forall e, good Sg e0 (fst s) (snd s) e -> calm (fst s) e ->
  forall e', eval (fst t) e0 = Some e' -> calm (fst t) e'.
Proof.
  intros H. induction H as [s|n [p outs] [q outs'] t H1 H IH]; intros e HG HC e' HE'.
  - destruct HG as (_ & _ & HE & _). rewrite HE in HE'. injection HE' as <-. exact HC.
  - destruct (pstep_good arm Sg e0 p outs q outs' e H1 HG) as (e1 & G1 & _).
    destruct HG as (HS & _ & HE & HA). destruct (pstep_calm arm Sg e0 p outs q outs' e H1 HS HE HA HC) as (e2 & E2 & C2).
    destruct G1 as (G1 & G2 & G3 & G4). rewrite E2 in G3. injection G3 as ->.
    apply (IH e1); [split; [exact G1|split; [exact G2|split; [exact E2|exact G4]]]|exact C2|exact HE'].
Qed.
