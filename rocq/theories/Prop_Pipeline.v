(** * C78: the converter's pipeline as a whole. *)
From Coq Require Import QArith Qabs String Lqa.
From Verif Require Import Base Spec Bits Bitpack Padding Prepare Options Lifecycle Threshold IR IRProofs IRRules IRSound IRTerm IRWell
  IRTf IRPrep IRPass IRPassRule IRPassProof IRPassTame IRFuse IRInt8 IRRun IRRunTop IRFile IRRun8 IRFile8 Pipeline
  Prop_IR Prop_Prep Prop_Run Prop_Fuse Prop_File Prop_Int8 Prop_Run8 Prop_File8.
Open Scope string_scope.
Open Scope list_scope.
Open Scope Z_scope.

Lemma F2_veq_refl vs : Forall2 veq vs vs.
Proof. induction vs; constructor; [apply veq_refl|assumption]. Qed.
Lemma F2_veq_trans us : forall vs ws, Forall2 veq us vs -> Forall2 veq vs ws -> Forall2 veq us ws.
Proof.
  induction us as [|u us IH]; intros vs ws H1 H2; inversion H1; subst; inversion H2; subst; constructor; [eapply veq_trans; eassumption|].
  eapply IH; eassumption.
Qed.
(** Results related through outputs that may have been renamed. *)
Lemma kept_values (e e' : env) outs outs' : Forall2 (fun x y => forall v, e x = Some v -> exists w, e' y = Some w /\ veq v w) outs outs' ->
  forall vs, Forall2 (fun x v => e x = Some v) outs vs -> exists ws, Forall2 (fun x w => e' x = Some w) outs' ws /\ Forall2 veq vs ws.
Proof.
  induction 1 as [|x y xs ys H _ IH]; intros vs Hv; inversion Hv; subst; [exists []; split; constructor|].
  match goal with A : e x = Some ?v, B : Forall2 _ xs ?l |- _ => destruct (H v A) as (w & W1 & W2); destruct (IH l B) as (ws & W3 & W4) end.
  exists (w :: ws). split; constructor; assumption.
Qed.
Lemma same_outs (e e' : env) outs : (forall x v, In x outs -> e x = Some v -> exists w, e' x = Some w /\ veq v w) ->
  Forall2 (fun x y => forall v, e x = Some v -> exists w, e' y = Some w /\ veq v w) outs outs.
Proof. intros H. apply F2_same. intros x Hx v. exact (H x v Hx). Qed.

(** ** A pass of this repository keeps well-formedness and results *)
Lemma steps_outs arm A outs p q e0 e : ssa A p -> (forall x, In x outs -> In x (A ++ map iid p)) ->
  steps (fun _ => as_is) arm A outs p q -> eval p e0 = Some e -> tame p e -> forall x, In x outs -> In x (A ++ map iid q).
Proof.
  intros HS HO Hst. revert e HS HO. induction Hst as [p|p p' q H1 H2 IH]; intros e HS HO HE HT; [exact HO|].
  destruct (step_tame arm A outs e0 p p' e HS HO HE HT H1) as [H1' HT'].
  destruct (step_sound arm A outs e0 p p' e HS HO H1' HE) as (HS' & HO' & e1 & E1 & L1). exact (IH e1 HS' HO' E1 (HT' e1 E1)).
Qed.
Lemma own_pass arm P s s' vs : own P = true -> (forall f, does f arm P s s' -> well_formed s -> ready P s -> computes s vs ->
  well_formed s' /\ m_in s' = m_in s /\ m_args s' = m_args s /\ exists ws, computes s' ws /\ Forall2 veq vs ws).
Proof.
  intros HP f HD [HS HO] HR (e & HE & HV). destruct P; try discriminate HP; cbn [does ready] in *.
  - subst s'. split; [split; assumption|]. split; [reflexivity|split; [reflexivity|]]. exists vs. split; [exists e; split; assumption|apply F2_veq_refl].
  - destruct HD as (Ea & Ei & n & Hst). destruct (psteps_good arm _ _ n _ _ Hst e (conj HS (conj HO (conj HE (HR e HE))))) as (e1 & (G1 & G2 & G3 & _) & R).
    cbn [fst snd] in *. destruct (kept_values e e1 _ _ R vs HV) as (ws & W1 & W2). split; [|split; [exact Ei|split; [exact Ea|exists ws; split; [exists e1|exact W2]]]].
    + split; rewrite Ea; assumption.
    + rewrite Ei. split; assumption.
  - destruct HD as (Ea & Ei & n & Hst). destruct (psteps_good arm _ _ n _ _ Hst e (conj HS (conj HO (conj HE (HR e HE))))) as (e1 & (G1 & G2 & G3 & _) & R).
    cbn [fst snd] in *. destruct (kept_values e e1 _ _ R vs HV) as (ws & W1 & W2). split; [|split; [exact Ei|split; [exact Ea|exists ws; split; [exists e1|exact W2]]]].
    + split; rewrite Ea; assumption.
    + rewrite Ei. split; assumption.
  - destruct HD as (Ea & Ei & Eo & Hst). destruct (C64_any_rewriting_order arm _ _ _ _ _ e HS HO HE (HR e HE) Hst) as (e1 & E1 & R).
    destruct (kept_values e e1 _ _ (same_outs _ _ _ R) vs HV) as (ws & W1 & W2). split; [|split; [exact Ei|split; [exact Ea|exists ws; split; [exists e1|exact W2]]]].
    + split; rewrite Ea; [exact (steps_ssa _ _ _ _ _ HS Hst)|]. rewrite Eo. exact (steps_outs arm _ _ _ _ _ e HS HO Hst HE (HR e HE)).
    + rewrite Ei, Eo. split; assumption.
  - subst s'. split; [split; assumption|]. split; [reflexivity|split; [reflexivity|]]. exists vs. split; [exists e; split; assumption|apply F2_veq_refl].
  - destruct HD as (Ea & Ei & Eo & n & Hst). destruct (fsteps_good _ _ n _ _ _ Hst e (conj HS (conj HO (conj HE (HR e HE))))) as (e1 & (G1 & G2 & G3 & _) & R).
    destruct (kept_values e e1 _ _ R vs HV) as (ws & W1 & W2). split; [|split; [exact Ei|split; [exact Ea|exists ws; split; [exists e1|exact W2]]]].
    + split; rewrite Ea; [exact G1|]. rewrite Eo. exact G2.
    + rewrite Ei, Eo. split; assumption.
  - subst s'. split; [split; assumption|]. split; [reflexivity|split; [reflexivity|]]. exists vs. split; [exists e; split; assumption|apply F2_veq_refl].
  - subst s'. split; [split; assumption|]. split; [reflexivity|split; [reflexivity|]]. exists vs. split; [exists e; split; assumption|apply F2_veq_refl].
Qed.
Lemma quantise_pass f arm s s' ws : does f arm LCEQuantize s s' -> well_formed s -> params_clean (m_prog s) -> computes_stripped s ws ->
  well_formed s' /\ exists us, computes s' us /\ Forall2 veq ws us.
Proof.
  intros (Ea & Ei & Eo & (n & Hst) & HF) [HS HO] HC (e & HE & HN & HV).
  destruct (isteps_good (m_args s) (m_in s) n _ _ _ Hst e (conj HS (conj HO (conj HC (conj HE HN))))) as (e1 & (G1 & G2 & _ & G4 & _) & R).
  rewrite (strip_finished _ _ _ G1 HF) in G4. destruct (kept_values e e1 _ _ R ws HV) as (us & U1 & U2). split.
  - split; rewrite Ea; [exact G1|]. rewrite Eo. exact G2.
  - exists us. split; [|exact U2]. exists e1. rewrite Ei, Eo. split; assumption.
Qed.

(** ** The pipeline: whatever the passes of TensorFlow and MLIR do, the results of the
    converted program are reached from those of the model through the changes of those
    passes, and the dropped parameter pairs, alone, in the order of the pipeline. *)
Theorem C78_pipeline :
  forall (foreign : string -> model -> model -> Prop) (arm : bool) (drift : pass -> list value -> list value -> Prop)
    (ps : list pass) (s s' : model) (tr : list (pass * model * model)) (vs : list value),
  runs foreign arm ps s tr s' -> well_formed s -> computes s vs ->
  (forall P t t', In (P, t, t') tr -> ready P t) ->
  (forall n t t' us, In (Foreign n, t, t') tr -> well_formed t -> computes t us -> well_formed t' /\ exists us', computes t' us' /\ drift (Foreign n) us us') ->
  (forall t t' us, In (LCEQuantize, t, t') tr -> well_formed t -> computes t us -> exists us', computes_stripped t us' /\ drift LCEQuantize us us') ->
  well_formed s' /\ exists ws, computes s' ws /\ composed drift ps vs ws.
Proof.
  intros f arm drift ps s s' tr vs HR. revert vs. induction HR as [s|P ps s s1 s' tr HD HR IH]; intros vs HW HC Hrdy Hfor Hq.
  - split; [exact HW|]. exists vs. split; [exact HC|apply F2_veq_refl].
  - assert (K : forall us, well_formed s1 /\ computes s1 us -> well_formed s' /\ exists ws, computes s' ws /\ composed drift ps us ws).
    { intros us [W1 C1]. apply (IH us W1 C1); intros; [eapply Hrdy|eapply Hfor|eapply Hq]; try (right; eassumption); eassumption. }
    assert (C0 : forall us vs' ws, Forall2 veq us vs' -> composed drift ps vs' ws -> composed drift ps us ws).
    { intros us vs' ws H1 H2. destruct ps as [|P' ps']; [exact (F2_veq_trans _ _ _ H1 H2)|]. destruct H2 as (a & b & A1 & A2 & A3). exists a, b. split; [exact (F2_veq_trans _ _ _ H1 A1)|]. split; assumption. }
    destruct (own P) eqn:EP.
    + destruct (own_pass arm P s s1 vs EP f HD HW (Hrdy _ _ _ (or_introl eq_refl)) HC) as (W1 & _ & _ & us & C1 & V1).
      destruct (K us (conj W1 C1)) as (W' & ws & C2 & C3). split; [exact W'|]. exists ws. split; [exact C2|]. cbn [composed]. rewrite EP. exists us, us. auto.
    + destruct P; try discriminate EP.
      * destruct (Hq s s1 vs (or_introl eq_refl) HW HC) as (us' & S1 & D1). destruct (quantise_pass f arm s s1 us' HD HW (Hrdy _ _ _ (or_introl eq_refl)) S1) as (W1 & us & C1 & V1).
        destruct (K us (conj W1 C1)) as (W' & ws & C2 & C3). split; [exact W'|]. exists ws. split; [exact C2|]. cbn [composed own]. exists vs, us'.
        split; [apply F2_veq_refl|]. split; [exact D1|]. exact (C0 us' us ws V1 C3).
      * destruct (Hfor name s s1 vs (or_introl eq_refl) HW HC) as (W1 & us & C1 & D1).
        destruct (K us (conj W1 C1)) as (W' & ws & C2 & C3). split; [exact W'|]. exists ws. split; [exact C2|]. cbn [composed own]. exists vs, us.
        split; [apply F2_veq_refl|]. split; assumption.
Qed.
Print Assumptions C78_pipeline.

(** ** Where the passes stand. Whatever the options, the LCE operators are replaced by
    custom operators in the very last pass; the passes of this repository come in the
    order batch size, op removal, prepare, optimise (twice), bitpack, fuse padding, quantise,
    legalise; the quantise pass runs exactly when quantisation is asked for, and again
    directly after default ranges have been put in, and once more later; the LCE patterns
    for TensorFlow operators run before TensorFlow's own, on frozen weights; those for
    TFLite operators after legalisation. Shapes are inferred anew directly after the
    batch size is set. *)
Definition own_order (c : config) : list pass :=
  [SetBatchSize; OpRemoval; PrepareLCE; OptimizeLCE; OptimizeLCE; BitpackWeights; FusePadding] ++
  (if c_quantise c then [LCEQuantize] ++ (if c_range c then [LCEQuantize] else []) ++ [DetectionPostProcess; LCEQuantize] else []) ++ [LegalizeLCE].
Definition is_foreign (P : pass) : bool := match P with Foreign _ => true | _ => false end.
Definition pass_eqb (a b : pass) : bool :=
  match a, b with
  | SetBatchSize, SetBatchSize | OpRemoval, OpRemoval | PrepareLCE, PrepareLCE | OptimizeLCE, OptimizeLCE | BitpackWeights, BitpackWeights | FusePadding, FusePadding
  | LCEQuantize, LCEQuantize | DetectionPostProcess, DetectionPostProcess | LegalizeLCE, LegalizeLCE => true
  | Foreign n, Foreign m => String.eqb n m
  | _, _ => false
  end.
Lemma pass_refl P : pass_eqb P P = true.
Proof. destruct P; try reflexivity. apply String.eqb_refl. Qed.
Lemma pass_eqb_eq P R : pass_eqb P R = true -> P = R.
Proof. destruct P, R; try discriminate; try reflexivity. intros H. cbn in H. apply String.eqb_eq in H. subst. reflexivity. Qed.
Fixpoint check (P : pass) (f : list pass -> list pass -> bool) (pre l : list pass) : bool :=
  match l with [] => true | R :: l' => (if pass_eqb P R then f (rev pre) l' else true) && check P f (R :: pre) l' end.
Theorem C78_order : forall c,
  filter (fun P => negb (is_foreign P)) (conversion c) = own_order c /\
  (exists ps, conversion c = ps ++ [LegalizeLCE]) /\
  (forall ps qs, conversion c = ps ++ Foreign "TFL::DefaultQuantParams" :: qs -> c_range c = true /\ exists qs', qs = LCEQuantize :: qs' /\ In LCEQuantize qs') /\
  (forall ps qs, conversion c = ps ++ PrepareLCE :: qs -> In (Foreign "FreezeGlobalTensors") ps /\ (c_session c = true -> In (Foreign "FreezeVariables") ps)) /\
  (forall ps qs, conversion c = ps ++ Foreign "TFL::PrepareTF" :: qs -> In PrepareLCE ps) /\
  (forall ps qs, conversion c = ps ++ OptimizeLCE :: qs -> In (Foreign "TFL::LegalizeTF") ps) /\
  (forall ps qs, conversion c = ps ++ SetBatchSize :: qs -> exists qs', qs = Foreign "TF::ShapeInference" :: qs').
Proof.
  assert (K : forall (P : pass) (f : list pass -> list pass -> bool) l, check P f [] l = true -> forall ps qs, l = ps ++ P :: qs -> f ps qs = true).
  { intros P f l H ps qs ->. assert (G : forall ps pre, check P f pre (ps ++ P :: qs) = true -> f (rev pre ++ ps) qs = true).
    { clear. induction ps as [|p ps IH]; intros pre H; cbn [app check] in H; apply andb_true_iff in H; destruct H as [H1 H2].
      - rewrite pass_refl in H1. rewrite app_nil_r. exact H1.
      - specialize (IH _ H2). cbn [rev] in IH. rewrite <- app_assoc in IH. exact IH. }
    exact (G ps [] H). }
  assert (M : forall P l, existsb (pass_eqb P) l = true -> In P l).
  { intros P l H. apply existsb_exists in H. destruct H as (x & Hx & E). apply pass_eqb_eq in E. subst x. exact Hx. }
  intros c. split; [destruct c as [[] [] [] []]; reflexivity|]. split.
  { exists (removelast (conversion c)). destruct c as [[] [] [] []]; reflexivity. }
  split; [|split; [|split; [|split]]].
  - intros ps qs E. assert (H := K (Foreign "TFL::DefaultQuantParams") (fun _ qs => c_range c && match qs with R :: qs' => pass_eqb LCEQuantize R && existsb (pass_eqb LCEQuantize) qs' | [] => false end) (conversion c) ltac:(destruct c as [[] [] [] []]; vm_compute; reflexivity) ps qs E).
    apply andb_true_iff in H. destruct H as [H1 H2]. split; [exact H1|]. destruct qs as [|R qs]; [discriminate H2|]. apply andb_true_iff in H2. destruct H2 as [H2 H3].
    apply pass_eqb_eq in H2. subst R. exists qs. split; [reflexivity|exact (M _ _ H3)].
  - intros ps qs E. assert (H := K PrepareLCE (fun ps _ => existsb (pass_eqb (Foreign "FreezeGlobalTensors")) ps && (negb (c_session c) || existsb (pass_eqb (Foreign "FreezeVariables")) ps)) (conversion c)
      ltac:(destruct c as [[] [] [] []]; vm_compute; reflexivity) ps qs E).
    apply andb_true_iff in H. destruct H as [H1 H2]. split; [exact (M _ _ H1)|]. intros Es. rewrite Es in H2. exact (M _ _ H2).
  - intros ps qs E. apply M. exact (K (Foreign "TFL::PrepareTF") (fun ps _ => existsb (pass_eqb PrepareLCE) ps) (conversion c) ltac:(destruct c as [[] [] [] []]; vm_compute; reflexivity) ps qs E).
  - intros ps qs E. apply M. exact (K OptimizeLCE (fun ps _ => existsb (pass_eqb (Foreign "TFL::LegalizeTF")) ps) (conversion c) ltac:(destruct c as [[] [] [] []]; vm_compute; reflexivity) ps qs E).
  - intros ps qs E. assert (H := K SetBatchSize (fun _ qs => match qs with R :: _ => pass_eqb (Foreign "TF::ShapeInference") R | [] => false end) (conversion c) ltac:(destruct c as [[] [] [] []]; vm_compute; reflexivity) ps qs E).
    destruct qs as [|R qs]; [discriminate H|]. apply pass_eqb_eq in H. subst R. exists qs. reflexivity.
Qed.
Print Assumptions C78_order.

(** ** How far the results can move: no further than those passes move them, added up. *)
Lemma abs_same (x y : Q) : (x == y)%Q -> (Qabs (x - y) <= 0)%Q.
Proof. intros H. rewrite H. setoid_replace (y - y)%Q with 0%Q by ring. discriminate. Qed.
Lemma veq_near v w : veq v w -> near 0 v w.
Proof.
  destruct v as [tv|tv|tv|tv|], w as [tw|tw|tw|tw|]; cbn [veq near]; try contradiction; try tauto; intros [E H]; (split; [exact E|]); intros i Hi; specialize (H i Hi); apply abs_same.
  - exact H.
  - rewrite H. reflexivity.
Qed.
Lemma tri (a b x y z : Q) : (Qabs (x - y) <= a)%Q -> (Qabs (y - z) <= b)%Q -> (Qabs (x - z) <= a + b)%Q.
Proof. intros H1 H2. setoid_replace (x - z)%Q with ((x - y) + (y - z))%Q by ring. eapply Qle_trans; [apply Qabs_triangle|]. apply Qplus_le_compat; assumption. Qed.
Lemma near_trans a b u v w : near a u v -> near b v w -> near (a + b) u w.
Proof.
  destruct u as [tu|tu|tu|tu|], v as [tv|tv|tv|tv|]; try contradiction; destruct w as [tw|tw|tw|tw|]; try contradiction; cbn [near veq]; intros H1 H2; try (exact I);
    destruct H1 as [S1 E1], H2 as [S2 E2]; (split; [congruence|]); intros i Hi; specialize (E1 i Hi); rewrite S1 in Hi; specialize (E2 i Hi).
  - eapply tri; eassumption.
  - congruence.
  - congruence.
  - eapply tri; eassumption.
Qed.
Lemma F2_near_trans a b us : forall vs ws, Forall2 (near a) us vs -> Forall2 (near b) vs ws -> Forall2 (near (a + b)) us ws.
Proof.
  induction us as [|u us IH]; intros vs ws H1 H2; inversion H1; subst; inversion H2; subst; constructor; [eapply near_trans; eassumption|]. eapply IH; eassumption.
Qed.
Lemma near_comp a b v w : (a == b)%Q -> near a v w -> near b v w.
Proof.
  intros E. destruct v, w; cbn; try contradiction; try tauto; intros [S H]; (split; [exact S|]); intros i Hi; specialize (H i Hi); cbn beta in *; rewrite <- E; exact H.
Qed.
Lemma F2_near_comp a b vs ws : (a == b)%Q -> Forall2 (near a) vs ws -> Forall2 (near b) vs ws.
Proof. intros E H. induction H; constructor; [eapply near_comp; eassumption|assumption]. Qed.
Lemma F2_veq_near vs ws : Forall2 veq vs ws -> Forall2 (near 0) vs ws.
Proof. induction 1; constructor; [apply veq_near|]; assumption. Qed.
Theorem C78_error_budget :
  forall (drift : pass -> list value -> list value -> Prop) (d : pass -> Q) (ps : list pass) (vs ws : list value),
  (forall P us us', In P ps -> own P = false -> drift P us us' -> Forall2 (near (d P)) us us') ->
  composed drift ps vs ws -> Forall2 (near (total d ps)) vs ws.
Proof.
  intros drift d ps. induction ps as [|P ps IH]; intros vs ws HD H.
  - apply F2_veq_near. exact H.
  - destruct H as (us & us' & H1 & H2 & H3). assert (H4 := IH us' ws (fun R a b Hi => HD R a b (or_intror Hi)) H3). cbn [total].
    assert (H5 : Forall2 (near (if own P then 0 else d P)) us us').
    { destruct (own P) eqn:EP; [subst us'; apply F2_veq_near, F2_veq_refl|]. apply HD; auto. left. reflexivity. }
    eapply F2_near_comp; [|exact (F2_near_trans _ _ _ _ _ (F2_veq_near _ _ H1) (F2_near_trans _ _ _ _ _ H5 H4))]. ring.
Qed.
Print Assumptions C78_error_budget.
Theorem C78_exact :
  forall (drift : pass -> list value -> list value -> Prop) (ps : list pass) (vs ws : list value),
  (forall P us us', In P ps -> own P = false -> drift P us us' -> Forall2 veq us us') -> composed drift ps vs ws -> Forall2 veq vs ws.
Proof.
  intros drift ps. induction ps as [|P ps IH]; intros vs ws HD H; [exact H|].
  destruct H as (us & us' & H1 & H2 & H3). assert (H4 := IH us' ws (fun R a b Hi => HD R a b (or_intror Hi)) H3).
  apply (F2_veq_trans _ us); [exact H1|]. destruct (own P) eqn:EP; [subst us'; exact H4|]. apply (F2_veq_trans _ us'); [|exact H4]. apply (HD P); auto. left. reflexivity.
Qed.
Print Assumptions C78_exact.

(** Steps inside the passes that do not change results, such as the merging of equal
    constants, leave the account over the pipeline's own passes. *)
Lemma interleaved_refl ps : interleaved ps ps.
Proof. induction ps as [|P ps IH]; [constructor|]. apply (il_cons P [] ps ps); [intros n []|exact IH]. Qed.
Lemma composed_veq drift ps : forall us vs ws, Forall2 veq us vs -> composed drift ps vs ws -> composed drift ps us ws.
Proof.
  intros us vs ws H1 H2. destruct ps as [|P ps]; [exact (F2_veq_trans _ _ _ H1 H2)|]. destruct H2 as (a & b & A1 & A2 & A3). exists a, b.
  split; [exact (F2_veq_trans _ _ _ H1 A1)|]. split; assumption.
Qed.
Theorem C78_interleaved :
  forall (drift : pass -> list value -> list value -> Prop) (ps qs : list pass) (vs ws : list value),
  interleaved ps qs ->
  (forall P n us us', In P ps -> In n (within P) -> drift (Foreign n) us us' -> Forall2 veq us us') ->
  composed drift qs vs ws -> composed drift ps vs ws.
Proof.
  intros drift ps qs vs ws HI. revert vs ws. induction HI as [|P l ps qs HN HI IH]; intros vs ws HD H; [exact H|].
  assert (IH' : forall a b, composed drift qs a b -> composed drift ps a b).
  { intros a b. apply IH. intros R n us us' HR. apply HD. right. exact HR. }
  clear IH. revert vs H. induction l as [|n l IHl]; intros vs H.
  - cbn [rounds app] in H. destruct H as (us & us' & H1 & H2 & H3). exists us, us'. split; [exact H1|]. split; [exact H2|exact (IH' _ _ H3)].
  - assert (Hn : In n (within P)) by (apply HN; left; reflexivity).
    assert (HO : own P = true) by (destruct P; try reflexivity; contradiction).
    cbn [rounds app] in H. cbn [composed] in H. rewrite HO in H. destruct H as (us & us' & H1 & -> & u1 & u2 & H2 & H3 & H4). cbn [own] in H3.
    apply IHl; [intros k Hk; apply HN; right; exact Hk|]. apply composed_veq with u2; [|exact H4].
    exact (F2_veq_trans _ _ _ H1 (F2_veq_trans _ _ _ H2 (HD P n u1 u2 (or_introl eq_refl) Hn H3))).
Qed.
Print Assumptions C78_interleaved.

Lemma const_storable kt ty p : forall e e', eval p e = Some e' -> fits_machine8 kt ty p e -> forall r v a, In (r, OConst v, a) p -> storable v.
Proof.
  induction p as [|[[r o] a] p IH]; intros e e' HE HF r' v' a' Hi; [contradiction|]. cbn [eval fits_machine8] in *.
  destruct (look e a) as [vs|] eqn:El; [|discriminate]. destruct (denote o vs) as [w|] eqn:Ed; [|discriminate].
  destruct (HF vs w eq_refl Ed) as (_ & F2 & _ & F4). destruct Hi as [E|Hi]; [|exact (IH _ _ HE F4 _ _ _ Hi)].
  assert (Ho := f_equal iop E). cbn in Ho. subst o. destruct vs; [|discriminate Ed]. cbn in Ed. injection Ed as <-. exact F2.
Qed.
(** ** From the model to the buffers. [s]: the imported TensorFlow model with an input,
    [vs]: its results. The pipeline runs, with passes of TensorFlow and MLIR that do
    what [foreign] says, and the last program is written to a file; the interpreter runs
    the file on the input of the last program. *)
Theorem C78_converted_file_computes_the_model :
  forall (foreign : string -> model -> model -> Prop) (arm : bool) (drift : pass -> list value -> list value -> Prop) (c : config) (ps : list pass)
    (s s' : model) (tr : list (pass * model * model)) (vs : list value)
    (use_reference_bconv use_indirect_bgemm : bool) (tfl : op -> list buf -> buf -> Prop) (tab : qtab) (ty : tid -> list Z) (m : fmem),
  interleaved (conversion c) ps -> runs foreign arm ps s tr s' -> well_formed s -> computes s vs ->
  (forall P t t', In (P, t, t') tr -> ready P t) ->
  (forall n t t' us, In (Foreign n, t, t') tr -> well_formed t -> computes t us -> well_formed t' /\ exists us', computes t' us' /\ drift (Foreign n) us us') ->
  (forall t t' us, In (LCEQuantize, t, t') tr -> well_formed t -> computes t us -> exists us', computes_stripped t us' /\ drift LCEQuantize us us') ->
  tflite_ok tfl -> const_filters8 (m_prog s') -> Forall verified8 (m_prog s') -> Forall (typed8 tab) (m_prog s') ->
  fits_machine8 (if use_reference_bconv then KReference else if use_indirect_bgemm then KIndirect else KBgemm) (fun r => ty (T r)) (m_prog s') (m_in s') ->
  mem_ok (m_in s') (fun x => m (T x)) ->
  exists F ws, file8 (m_prog s') = Some F /\ composed drift ps vs ws /\
    Forall (fun j => match snd (fst j) with FOp o => lce8 o = false | FCustom n _ => In n ["LceQuantize"; "LceDequantize"; "LceBconv2d"; "LceBMaxPool2d"] | FWords _ _ => True end) F /\
    frun8 (register use_reference_bconv use_indirect_bgemm) tfl tab ty F m (fun m' =>
      Forall2 (fun x w => exists b, m' (T x) = Some b /\ rep w b) (m_outs s') ws).
Proof.
  intros f arm drift c ps s s' tr vs ur ui tfl tab ty m _ HR HW HC Hrdy Hfor Hq HT HCF HV HTy HFM HM.
  destruct (C78_pipeline f arm drift _ s s' tr vs HR HW HC Hrdy Hfor Hq) as ([HS HO] & ws & (e & HE & HWs) & HCo).
  destruct (C77_file_computes_the_quantised_program ur ui tfl tab ty (m_args s') (m_prog s') (m_in s') e m HT HS HCF HV HTy HFM HE HM) as (F & E1 & E2).
  exists F, ws. split; [exact E1|]. split; [exact HCo|]. split.
  - destruct (C77_file_round_trip tab (m_prog s') HV HTy) as (F' & q & F1 & _ & _ & F4).
    { intros r G a Hi. exact (proj1 (const_storable _ _ _ _ _ HE HFM _ _ _ Hi)). }
    rewrite F1 in E1. injection E1 as <-. exact F4.
  - eapply frun8_mono; [|exact E2]. intros m' Hm. clear - HWs Hm. induction HWs as [|x w xs ws Hx _ IH]; constructor; [exact (Hm x w Hx)|exact IH].
Qed.
Print Assumptions C78_converted_file_computes_the_model.

(** ** A conversion: the network of C73, whose parameter 1.3 is quantised with scale 1,
    goes through the pipeline of a quantised model. Its result is 2; the file computes
    3, within the budget of the two runs of the quantise pass. *)
Definition ex_c : config := {| c_quantise := true; c_range := false; c_saved_model := false; c_session := false |}.
Definition ex_s : model := {| m_args := [0%nat]; m_prog := ex_p; m_outs := [12%nat]; m_in := ex_e0 |}.
Definition ex_t : model := {| m_args := [0%nat]; m_prog := ex_q; m_outs := [12%nat]; m_in := ex_e0 |}.
Definition ex_foreign : string -> model -> model -> Prop := fun _ s s' => s' = s.
Definition ex_drift (P : pass) (us us' : list value) : Prop := match P with LCEQuantize => Forall2 (near 1) us us' | _ => us' = us end.
Definition ex_d (P : pass) : Q := match P with LCEQuantize => 1 | _ => 0 end.
Ltac in_ex H := cbn [ex_p In] in H; repeat (destruct H as [H|H]; [apply triple in H; destruct H as (? & ? & ?)|]); try contradiction.
Lemma ex_sane e : sane ex_p e.
Proof.
  intros [[r o] a] Hi. split; [|split; [|split]]; cbn [iop iargs iid fst snd].
  - intros c x y tc tx Ho. exfalso. in_ex Hi; subst; other Ho.
  - intros s s' b c b' x ts tc Ho. exfalso. in_ex Hi; subst; other Ho.
  - intros k d f F Ho Ha. exfalso. in_ex Hi; subst; try discriminate Ha; try other Ho.
  - intros k d f d' x pd pv ti tp F v Ho Ha. exfalso. in_ex Hi; subst; try discriminate Ha; try other Ho.
Qed.
Lemma ex_fuse_sane e : fuse_sane ex_p e.
Proof.
  intros kd k a r d f b x ti tp F sf v Hin. exfalso. in_ex Hin; match goal with H : tfl_conv _ _ _ = _ |- _ => other H | H : _ = tfl_conv _ _ _ |- _ => other H end.
Qed.
Lemma ex_tame e : eval ex_p ex_e0 = Some e -> tame ex_p e.
Proof.
  intros HE [[r o] a] Hi. in_ex Hi; subst; try exact I. cbn [instr_ok iop iargs fst snd]. intros t Ht.
  assert (K : match eval ex_p ex_e0 with Some e => e 3%nat | None => None end = Some filt) by (vm_compute; reflexivity). rewrite HE, Ht in K. injection K as ->.
  split; [intros i _; left; reflexivity|vm_compute; reflexivity].
Qed.
Lemma runs_app f arm ps qs : forall s t u tr tr', runs f arm ps s tr t -> runs f arm qs t tr' u -> runs f arm (ps ++ qs) s (tr ++ tr') u.
Proof. intros s t u tr tr' H. revert tr' u. induction H as [s|P ps s s1 s' tr HD _ IH]; intros tr' u H'; [exact H'|]. cbn [app]. econstructor; [exact HD|]. apply IH. exact H'. Qed.
Lemma runs_idle f arm ps s : (forall P, In P ps -> does f arm P s s) -> runs f arm ps s (map (fun P => (P, s, s)) ps) s.
Proof. induction ps as [|P ps IH]; intros H; [constructor|]. cbn [map]. econstructor; [apply H; left; reflexivity|]. apply IH. intros R HR. apply H. right. exact HR. Qed.
Definition ex_before : list pass := firstn 46 (conversion ex_c).
Definition ex_after : list pass := skipn 47 (conversion ex_c).
Definition ex_tr : list (pass * model * model) := map (fun P => (P, ex_s, ex_s)) ex_before ++ (LCEQuantize, ex_s, ex_t) :: map (fun P => (P, ex_t, ex_t)) ex_after.
Lemma ex_split : conversion ex_c = ex_before ++ LCEQuantize :: ex_after.
Proof. reflexivity. Qed.
Lemma ex_runs : runs ex_foreign true (conversion ex_c) ex_s ex_tr ex_t.
Proof.
  destruct C73_case as (C1 & C2 & C3 & C4 & C6 & C7 & _).
  rewrite ex_split. apply runs_app with ex_s.
  - apply runs_idle. intros P HP. destruct P; cbn [does ex_s m_args m_prog m_outs m_in]; try (split; [reflexivity|split; [reflexivity|]]); try reflexivity.
    + exists 0%nat. constructor.
    + exists 0%nat. constructor.
    + split; [reflexivity|constructor].
    + split; [reflexivity|exists 0%nat; constructor].
    + exfalso. vm_compute in HP. repeat (destruct HP as [HP|HP]; [discriminate HP|]). exact HP.
  - econstructor.
    + cbn [does ex_s ex_t m_args m_prog m_outs m_in]. split; [reflexivity|split; [reflexivity|split; [reflexivity|]]]. split; [exists 9%nat; exact C6|exact C7].
    + apply runs_idle. intros P HP. destruct P; cbn [does ex_t m_args m_prog m_outs m_in]; try (split; [reflexivity|split; [reflexivity|]]); try reflexivity.
      * exists 0%nat. constructor.
      * exists 0%nat. constructor.
      * split; [reflexivity|constructor].
      * split; [reflexivity|exists 0%nat; constructor].
      * split; [reflexivity|]. split; [exists 0%nat; constructor|exact C7].
Qed.
Definition out12 (k : Z) : list value := [VInt (mkT [1; 1; 1; 1] (fun _ => k))].
Lemma ex_in P t t' : In (P, t, t') ex_tr -> t = ex_s /\ In P (ex_before ++ [LCEQuantize]) \/ t = ex_t /\ In P ex_after.
Proof.
  intros H. unfold ex_tr in H. apply in_app_or in H. destruct H as [H|[H|H]].
  - apply in_map_iff in H. destruct H as (R & E & HR). injection E as -> <- _. left. split; [reflexivity|]. apply in_or_app. left. exact HR.
  - injection H as <- <- _. left. split; [reflexivity|]. apply in_or_app. right. left. reflexivity.
  - apply in_map_iff in H. destruct H as (R & E & HR). injection E as -> <- _. right. split; [reflexivity|exact HR].
Qed.
Lemma ex_igood : exists e e', eval (strip ex_p) ex_e0 = Some e /\ no_ties (strip ex_p) e /\ igood [0%nat] ex_e0 ex_q [12%nat] e'.
Proof.
  destruct C73_case as (C1 & C2 & C3 & (e & C4 & C5) & C6 & C7 & _).
  destruct (isteps_good [0%nat] ex_e0 9 [12%nat] ex_p ex_q C6 e (conj C1 (conj C2 (conj C3 (conj C4 C5))))) as (e' & G & _). exists e, e'. auto.
Qed.
Lemma ex_value (p : list instr) e k : eval p ex_e0 = Some e ->
  match eval p ex_e0 with Some e => match e 12%nat with Some (VInt t) => Some (sh t, at_ t [0; 0; 0; 0]) | _ => None end | None => None end = Some ([1; 1; 1; 1], k) ->
  exists t, e 12%nat = Some (VInt t) /\ veq (VInt t) (VInt (mkT [1; 1; 1; 1] (fun _ => k))).
Proof.
  intros HE H. rewrite HE in H. destruct (e 12%nat) as [[| | |t|]|]; try discriminate. injection H as H1 H2. exists t. split; [reflexivity|].
  split; [exact H1|]. intros i Hi. rewrite H1 in Hi. cbn [at_].
  assert (E : i = [0; 0; 0; 0]) by (repeat (inversion Hi as [|? ? ? ? ? Hi']; subst; clear Hi; rename Hi' into Hi); inversion Hi; subst; repeat f_equal; lia).
  rewrite E. exact H2.
Qed.
Example C78_case :
  runs ex_foreign true (conversion ex_c) ex_s ex_tr ex_t /\ well_formed ex_s /\ (exists vs, computes ex_s vs /\ Forall2 veq vs (out12 2)) /\
  (exists m : fmem, mem_ok ex_e0 (fun x => m (T x))) /\ (total ex_d (conversion ex_c) == 2)%Q /\
  forall ur ui tfl m, tflite_ok tfl -> mem_ok ex_e0 (fun x => m (T x)) ->
    exists F ws, file8 ex_q = Some F /\ Forall2 (near 2) (out12 2) ws /\
      frun8 (register ur ui) tfl ex_tab (fun _ => []) F m (fun m' => exists b, m' (T 12%nat) = Some b /\ Forall2 rep ws [b]).
Proof.
  destruct C73_case as (C1 & C2 & C3 & _ & C6 & C7 & _). destruct ex_igood as (es & eq & S1 & S2 & (G1 & G2 & G3 & G4 & G5)).
  assert (W : well_formed ex_s) by (split; [exact C1|exact C2]).
  assert (V : exists e, eval ex_p ex_e0 = Some e) by (assert (K : (match eval ex_p ex_e0 with Some _ => true | None => false end) = true) by (vm_compute; reflexivity); destruct (eval ex_p ex_e0) as [e|]; [exists e; reflexivity|discriminate K]).
  destruct V as (e & HE).
  destruct (ex_value ex_p e 2 HE ltac:(vm_compute; reflexivity)) as (t & T1 & T2).
  destruct (ex_value (strip ex_p) es 3 S1 ltac:(vm_compute; reflexivity)) as (u & U1 & U2).
  assert (Cs : computes ex_s [VInt t]) by (exists e; split; [exact HE|constructor; [exact T1|constructor]]).
  assert (FS : strip ex_q = ex_q) by exact (strip_finished _ _ _ G1 C7).
  split; [exact ex_runs|]. split; [exact W|]. split; [exists [VInt t]; split; [exact Cs|constructor; [exact T2|constructor]]|].
  split. { destruct C77_case as (_ & _ & K & _). exact K. }
  split; [vm_compute; reflexivity|].
  intros ur ui tfl m HT HM.
  destruct (C78_converted_file_computes_the_model ex_foreign true ex_drift ex_c (conversion ex_c) ex_s ex_t ex_tr [VInt t] ur ui tfl ex_tab (fun _ => []) m (interleaved_refl _) ex_runs W Cs) as (F & ws & F1 & F2 & _ & F4).
  - intros P t1 t2 Hi. destruct (ex_in _ _ _ Hi) as [[-> HP]|[-> HP]].
    + destruct P; cbn [ready ex_s m_prog m_in]; try exact I; [intros e1 _; apply ex_sane|intros e1 _; apply ex_sane|intros e1 E1; exact (ex_tame e1 E1)|intros e1 _; apply ex_fuse_sane|exact C3].
    + destruct P; try exact I; try exact G3; exfalso; vm_compute in HP; repeat (destruct HP as [HP|HP]; [discriminate HP|]); exact HP.
  - intros n t1 t2 us Hi HW HC. assert (E : t2 = t1).
    { unfold ex_tr in Hi. apply in_app_or in Hi. destruct Hi as [Hi|[Hi|Hi]]; [|discriminate Hi|]; apply in_map_iff in Hi; destruct Hi as (R & E & _); congruence. }
    subst t2. split; [exact HW|]. exists us. split; [exact HC|reflexivity].
  - intros t1 t2 us Hi HW (e1 & E1 & V1). destruct (ex_in _ _ _ Hi) as [[-> HP]|[-> HP]].
    + cbn [ex_s m_prog m_in m_outs] in E1, V1. rewrite HE in E1. injection E1 as <-. inversion V1 as [|? ? ? ? V2 V3]; subst. inversion V3; subst. rewrite T1 in V2. injection V2 as <-.
      exists [VInt u]. split; [exists es; split; [exact S1|split; [exact S2|constructor; [exact U1|constructor]]]|]. constructor; [|constructor].
      destruct T2 as [A1 A2], U2 as [B1 B2]. cbn in A1, A2, B1, B2. split; [congruence|]. intros i Hi'. cbn beta. rewrite (A2 i Hi'). rewrite A1, <- B1 in Hi'. rewrite (B2 i Hi'). discriminate.
    + exists us. cbn [ex_t m_prog m_in m_outs] in *. rewrite FS in G4, G5. rewrite G4 in E1. injection E1 as <-. split.
      * exists eq. cbn [ex_t m_prog m_in m_outs]. rewrite FS. auto.
      * clear. cbn [ex_drift]. induction us as [|v us IH]; constructor; [|exact IH]. destruct v as [a|a|a|a|]; cbn [near veq]; try exact I; (split; [reflexivity|]); intros i _; cbn beta; try reflexivity;
          (eapply Qle_trans; [apply abs_same; reflexivity|discriminate]).
  - exact HT.
  - exact ex_const.
  - exact ex_verified.
  - apply (isteps_typed8 ex_tab [12%nat] 9 ex_p ex_q C6 ex_typed).
  - apply ex_fits.
  - exact HM.
  - exists F, ws. split; [exact F1|]. split.
    + assert (N := C78_error_budget ex_drift ex_d (conversion ex_c) [VInt t] ws).
      assert (N' : Forall2 (near (total ex_d (conversion ex_c))) [VInt t] ws).
      { apply N; [|exact F2]. intros P us us' _ HP HD. destruct P; try discriminate HP; cbn [ex_drift ex_d] in *; [exact HD|subst us'; apply F2_veq_near, F2_veq_refl]. }
      apply (F2_near_comp (0 + total ex_d (conversion ex_c))); [vm_compute; reflexivity|]. apply (F2_near_trans _ _ _ [VInt t]); [|exact N'].
      apply F2_veq_near. constructor; [|constructor]. apply veq_sym. exact T2.
    + eapply frun8_mono; [|exact F4]. intros m' H. cbn [ex_t m_outs] in H. inversion H as [|x w xs ws' (b & B1 & B2) H2]; subst. inversion H2; subst. exists b. split; [exact B1|]. constructor; [exact B2|constructor].
Qed.
