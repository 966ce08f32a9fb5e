(** * C81: a failed conversion is reported and returns no file; a reported success is the
    translation of what the whole pipeline made. *)
From Coq Require Import String QArith.
From Verif Require Import Base Spec IR IRProofs IRSound IRTerm IRWell IRTf IRPass IRPassProof IRFuse IRInt8 IRFile8 Pipeline Flow Prop_Int8 Prop_Pipeline.
Open Scope string_scope.
Open Scope list_scope.

Section Lemmas.
  Context {M : Type}.
  Variable attempt : pass -> M -> bool * M * list string.
  Notation run := (run attempt). Notation succeeded := (succeeded attempt).
  Lemma run_ok ps : forall m m' d l, run ps m = (true, m', d, l) -> succeeded ps m m' d /\ l = ps.
  Proof.
    induction ps as [|P ps IH]; intros m m' d l H; cbn [Flow.run] in H.
    - injection H as <- <- <-. split; [constructor|reflexivity].
    - destruct (attempt P m) as [[ok m1] d1] eqn:E. destruct ok; [|discriminate].
      destruct (run ps m1) as [[[ok2 m2] d2] l2] eqn:E2. injection H as -> <- <- <-.
      destruct (IH _ _ _ _ E2) as [K ->]. split; [econstructor; eassumption|reflexivity].
  Qed.
  Lemma ok_run ps m m' d : succeeded ps m m' d -> run ps m = (true, m', d, ps).
  Proof. induction 1 as [|P ps m m1 m2 d d' E _ IH]; cbn [Flow.run]; [reflexivity|]. rewrite E, IH. reflexivity. Qed.
  Lemma run_fails ps : forall m m' d l, run ps m = (false, m', d, l) ->
    exists ls P qs m1 d1 d2, ps = ls ++ P :: qs /\ l = ls ++ [P] /\ succeeded ls m m1 d1 /\ attempt P m1 = (false, m', d2) /\ d = d1 ++ d2.
  Proof.
    induction ps as [|P ps IH]; intros m m' d l H; cbn [Flow.run] in H; [discriminate|].
    destruct (attempt P m) as [[ok m1] d1] eqn:E. destruct ok.
    - destruct (run ps m1) as [[[ok2 m2] d2] l2] eqn:E2. injection H as -> <- <- <-.
      destruct (IH _ _ _ _ E2) as (ls & P' & qs & m3 & d3 & d4 & -> & -> & K1 & K2 & ->).
      exists (P :: ls), P', qs, m3, (d1 ++ d3), d4. split; [reflexivity|]. split; [reflexivity|]. split; [econstructor; eassumption|]. split; [exact K2|]. apply app_assoc.
    - injection H as <- <- <-. exists [], P, ps, m, [], d1. split; [reflexivity|]. split; [reflexivity|]. split; [constructor|]. split; [exact E|reflexivity].
  Qed.
  Lemma succeeded_app ps qs m m1 m2 d d' : succeeded ps m m1 d -> succeeded qs m1 m2 d' -> succeeded (ps ++ qs) m m2 (d ++ d').
  Proof.
    induction 1 as [|P ps m m3 m4 e e' E _ IH]; intros H; [exact H|]. cbn [app]. rewrite <- app_assoc. econstructor; [exact E|]. apply IH. exact H.
  Qed.
  Lemma succeeded_split ps qs : forall m m2 d, succeeded (ps ++ qs) m m2 d -> exists m1 d1 d2, succeeded ps m m1 d1 /\ succeeded qs m1 m2 d2 /\ d = d1 ++ d2.
  Proof.
    induction ps as [|P ps IH]; intros m m2 d H; cbn [app] in H; [exists m, [], d; split; [constructor|split; [exact H|reflexivity]]|].
    inversion H as [|? ? ? m3 ? d1 d2 E K]; subst. destruct (IH _ _ _ K) as (m1 & e1 & e2 & K1 & K2 & ->).
    exists m1, (d1 ++ e1), e2. split; [econstructor; eassumption|]. split; [exact K2|]. apply app_assoc.
  Qed.
End Lemmas.

(** ** Control flow of TensorFlow 1 is refused before anything is changed *)
Fixpoint operation_size (o : operation) : nat := match o with Operation _ r => Datatypes.S (list_sum (map operation_size r)) end.
Lemma walk_spec o : walk_interrupted o = true <-> exists n, In n v1_ops /\ contains n o.
Proof.
  assert (K : forall k o, (operation_size o <= k)%nat -> (walk_interrupted o = true <-> exists n, In n v1_ops /\ contains n o)).
  { clear. induction k as [|k IH]; intros [n r] Hs; [cbn in Hs; lia|].
    assert (I : forall o, In o r -> (walk_interrupted o = true <-> exists n, In n v1_ops /\ contains n o)).
    { intros o Ho. apply IH. cbn [operation_size] in Hs. clear IH. assert (operation_size o <= list_sum (map operation_size r))%nat; [|lia].
      clear Hs. induction r as [|x r IHr]; [contradiction|]. cbn [map list_sum fold_right]. change (fold_right Nat.add 0%nat (map operation_size r)) with (list_sum (map operation_size r)).
      destruct Ho as [->|Ho]; [lia|]. specialize (IHr Ho). lia. }
    change (walk_interrupted (Operation n r)) with (existsb walk_interrupted r || existsb (String.eqb n) v1_ops)%bool. rewrite orb_true_iff, !existsb_exists. split.
    - intros [(o & Ho & W)|(x & Hx & E)].
      + apply (I o Ho) in W. destruct W as (x & Hx & C). exists x. split; [exact Hx|]. econstructor; eassumption.
      + apply String.eqb_eq in E. subst x. exists n. split; [exact Hx|constructor].
    - intros (x & Hx & C). inversion C as [? ?|? ? o ? Ho C']; subst.
      + right. exists n. split; [exact Hx|apply String.eqb_refl].
      + left. exists o. split; [exact Ho|]. apply (I o Ho). exists x. split; assumption. }
  exact (K (operation_size o) o (le_n _)).
Qed.
Theorem C81_old_control_flow_refused :
  forall {M} operations attempt translate verify print (c : config) (export : bool) (m : M) (result : string) (n : string),
  In n ["tf_executor.Switch"; "tf_executor.Merge"; "tf_executor.Enter"; "tf_executor.Exit"; "tf_executor.NextIteration.Sink"; "tf_executor.NextIteration.Source"] ->
  contains n (operations m) ->
  exists msgs, ConvertTFExecutorToTFLOrFlatbuffer operations attempt translate verify print c true export m result = (StError UnknownError msgs, result, []).
Proof.
  intros M ops att tr ver pr c ex m r n Hn HC. exists ["The graph has Control Flow V1 ops."]. unfold ConvertTFExecutorToTFLOrFlatbuffer. cbn [negb].
  rewrite (proj2 (walk_spec (ops m)) (ex_intro _ n (conj Hn HC))). reflexivity.
Qed.
Print Assumptions C81_old_control_flow_refused.

(** ** A reported success is one: every pass of the pipeline succeeded, in its order, and
    the file is the translation of what they made, which is valid; unless a pass before
    variable freezing failed without saying why, and then nothing is written. *)
Theorem C81_success :
  forall {M} operations attempt translate verify print (c : config) (cl_ok : bool) (m : M) (result file : string) (started : list pass),
  ConvertTFExecutorToTFLOrFlatbuffer operations attempt translate verify print c cl_ok false m result = (StOk, file, started) ->
  (started = conversion c /\ (forall n, In n v1_ops -> ~ contains n (operations m)) /\
   exists m' d, succeeded attempt (conversion c) m m' d /\ fst (translate m') = Some file /\ fst (verify m') = true) \/
  (file = result /\ exists ps P qs m1 m2, pre_freezing = ps ++ P :: qs /\ started = ps ++ [P] /\ succeeded attempt ps m m1 [] /\ attempt P m1 = (false, m2, [])).
Proof.
  intros M ops att tr ver pr c cl m r f st H. unfold ConvertTFExecutorToTFLOrFlatbuffer in H.
  destruct cl; [|discriminate]. cbn [negb] in H. destruct (walk_interrupted (ops m)) eqn:EW; [discriminate|].
  destruct (run att pre_freezing m) as [[[ok1 m1] d1] l1] eqn:E1. destruct ok1; cbn [negb] in H.
  2:{ right. destruct d1 as [|? ?]; [|discriminate]. injection H as <- <-. split; [reflexivity|].
      destruct (run_fails _ _ _ _ _ _ E1) as (ls & P & qs & m2 & e1 & e2 & K1 & K2 & K3 & K4 & K5).
      symmetry in K5. apply app_eq_nil in K5. destruct K5 as [-> ->]. exists ls, P, qs, m2, m1. repeat split; assumption. }
  destruct (run att (if c_session c then [Foreign "FreezeVariables"] else []) m1) as [[[ok2 m2] d2] l2] eqn:E2. destruct ok2; cbn [negb] in H; [|discriminate].
  destruct (run att (post_freezing c) m2) as [[[ok3 m3] d3] l3] eqn:E3. destruct ok3; cbn [negb] in H; [|discriminate].
  destruct (tr m3) as [[file|] d4] eqn:E4; [|discriminate]. destruct (ver m3) as [valid d5] eqn:E5. destruct valid; cbn [negb] in H; [|discriminate].
  injection H as <- <-. left.
  destruct (run_ok _ _ _ _ _ _ E1) as [S1 ->]. destruct (run_ok _ _ _ _ _ _ E2) as [S2 ->]. destruct (run_ok _ _ _ _ _ _ E3) as [S3 ->].
  split; [reflexivity|]. split.
  - intros n Hn HC. rewrite (proj2 (walk_spec (ops m)) (ex_intro _ n (conj Hn HC))) in EW. discriminate.
  - exists m3, (d1 ++ d2 ++ d3). split; [|split; [rewrite E4; reflexivity|rewrite E5; reflexivity]].
    exact (succeeded_app _ _ _ _ _ _ _ _ S1 (succeeded_app _ _ _ _ _ _ _ _ S2 S3)).
Qed.
Print Assumptions C81_success.

(** ** And conversely: if everything succeeds there is a file, whatever has been reported
    on the way. *)
Theorem C81_complete :
  forall {M} operations attempt translate verify print (c : config) (m m' : M) (result file : string) (d : list string),
  (forall n, In n v1_ops -> ~ contains n (operations m)) ->
  succeeded attempt (conversion c) m m' d -> fst (translate m') = Some file -> fst (verify m') = true ->
  ConvertTFExecutorToTFLOrFlatbuffer operations attempt translate verify print c true false m result = (StOk, file, conversion c).
Proof.
  intros M ops att tr ver pr c m m' r f d HV HS HT HVer. unfold ConvertTFExecutorToTFLOrFlatbuffer. cbn [negb].
  destruct (walk_interrupted (ops m)) eqn:EW. { apply walk_spec in EW. destruct EW as (n & H1 & H2). destruct (HV n H1 H2). }
  unfold conversion in HS. destruct (succeeded_split _ _ _ _ _ _ HS) as (m1 & d1 & d' & S1 & HS' & ->). destruct (succeeded_split _ _ _ _ _ _ HS') as (m2 & d2 & d3 & S2 & S3 & ->).
  rewrite (ok_run _ _ _ _ _ S1). cbn [negb]. rewrite (ok_run _ _ _ _ _ S2). cbn [negb]. rewrite (ok_run _ _ _ _ _ S3). cbn [negb].
  destruct (tr m') as [o d4]. cbn [fst] in HT. subst o. destruct (ver m') as [v d5]. cbn [fst] in HVer. subst v. reflexivity.
Qed.
Print Assumptions C81_complete.

(** ** Bytes reach Python only from a successful conversion, if the passes before variable
    freezing say why they fail. *)
Theorem C81_bytes :
  forall {M} operations attempt translate verify print (c : config) (cl_ok : bool) (m : M) (file : string),
  (forall P m1 m2, In P pre_freezing -> attempt P m1 <> (false, m2, [])) ->
  flatbuffer_bytes operations attempt translate verify print c cl_ok m = Some file ->
  (forall n, In n v1_ops -> ~ contains n (operations m)) /\
  exists m' d, succeeded attempt (conversion c) m m' d /\ fst (translate m') = Some file /\ fst (verify m') = true.
Proof.
  intros M ops att tr ver pr c cl m f HL H. unfold flatbuffer_bytes in H.
  destruct (ConvertTFExecutorToTFLOrFlatbuffer ops att tr ver pr c cl false m "") as [[[|] r] l] eqn:E; [|discriminate]. injection H as ->.
  destruct (C81_success _ _ _ _ _ _ _ _ _ _ _ E) as [(_ & K1 & K2)|(_ & ps & P & qs & m1 & m2 & K1 & _ & _ & K4)]; [split; assumption|].
  destruct (HL P m1 m2); [rewrite K1; apply in_or_app; right; left; reflexivity|exact K4].
Qed.
Print Assumptions C81_bytes.

(** ** No pass runs on what a failed pass left: the passes started are a first part of
    the pipeline, and before each of them all earlier ones had succeeded. *)
Theorem C81_stops_at_failure :
  forall {M} operations attempt translate verify print (c : config) (cl_ok export : bool) (m : M) (result : string) st file started,
  ConvertTFExecutorToTFLOrFlatbuffer operations attempt translate verify print c cl_ok export m result = (st, file, started) ->
  (exists rest, started ++ rest = conversion c ++ (if export then [Foreign "PrintOpStats"] else [])) /\
  forall ps P qs, started = ps ++ P :: qs -> exists m1 d, succeeded attempt ps m m1 d.
Proof.
  intros M ops att tr ver pr c cl ex m r st f l H.
  assert (A : forall ps m1 m2 d1 d l' o, o = true \/ o = false -> succeeded att ps m m1 d1 -> forall ps', run att ps' m1 = (o, m2, d, l') ->
    (exists rest, l' ++ rest = ps') /\ forall qs P qs', ps ++ l' = qs ++ P :: qs' -> exists m3 d3, succeeded att qs m m3 d3).
  { clear. intros ps m1 m2 d1 d l' o Ho HS ps' HR.
    assert (B : forall ls, (exists m3 d3, succeeded att ls m m3 d3) -> forall qs P qs', (exists R, ls ++ R = qs ++ P :: qs' /\ (R = [] \/ exists Q, R = [Q])) -> exists m3 d3, succeeded att qs m m3 d3).
    { intros ls (m3 & d3 & HL) qs P qs' (R & E & HR'). assert (D : exists t, ls = qs ++ t).
      { destruct HR' as [->|(Q & ->)].
        - rewrite app_nil_r in E. exists (P :: qs'). exact E.
        - destruct qs' as [|q qs' _] using rev_ind.
          + apply app_inj_tail in E. destruct E as [-> _]. exists []. rewrite app_nil_r. reflexivity.
          + rewrite app_comm_cons, app_assoc in E. apply app_inj_tail in E. destruct E as [-> _]. exists (P :: qs'). reflexivity. }
      destruct D as (t & ->). destruct (succeeded_split _ _ _ _ _ _ HL) as (m4 & e1 & e2 & K & _). exists m4, e1. exact K. }
    destruct o.
    - destruct (run_ok _ _ _ _ _ _ HR) as [K ->]. split; [exists []; apply app_nil_r|]. intros qs P qs' E. apply (B (ps ++ ps')) with P qs'.
      + exists m2, (d1 ++ d). exact (succeeded_app _ _ _ _ _ _ _ _ HS K).
      + exists []. rewrite app_nil_r. split; [exact E|left; reflexivity].
    - destruct (run_fails _ _ _ _ _ _ HR) as (ls & Q & rest & m3 & e1 & e2 & -> & -> & K1 & K2 & ->). split; [exists rest; rewrite <- app_assoc; reflexivity|].
      intros qs P qs' E. apply (B (ps ++ ls)) with P qs'.
      + exists m3, (d1 ++ e1). exact (succeeded_app _ _ _ _ _ _ _ _ HS K1).
      + exists [Q]. rewrite <- app_assoc. split; [exact E|right; exists Q; reflexivity]. }
  assert (T : forall b : bool, b = true \/ b = false) by (intros []; auto).
  assert (Z : forall ps P qs, @nil pass = ps ++ P :: qs -> exists m1 d, succeeded att ps m m1 d) by (intros [|] P qs E; discriminate).
  revert H. unfold ConvertTFExecutorToTFLOrFlatbuffer, conversion. generalize pre_freezing, (post_freezing c), (if c_session c then [Foreign "FreezeVariables"] else []). intros PF QF FV H.
  destruct cl; cbn [negb] in H; [|injection H as <- <- <-; split; [eexists; reflexivity|exact Z]].
  destruct (walk_interrupted (ops m)); [injection H as <- <- <-; split; [eexists; reflexivity|exact Z]|].
  destruct (run att PF m) as [[[ok1 m1] d1] l1] eqn:E1. destruct (A [] m m1 [] d1 l1 ok1 (T _) (succeeded_nil _ _) _ E1) as [(r1 & R1) C1]. destruct ok1; cbn [negb] in H.
  2:{ injection H as <- <- <-. split; [|exact C1]. exists (r1 ++ FV ++ QF ++ (if ex then [Foreign "PrintOpStats"] else [])). rewrite <- !app_assoc, (app_assoc l1), R1. reflexivity. }
  destruct (run_ok _ _ _ _ _ _ E1) as [S1 ->]. clear C1 R1 r1.
  destruct (run att FV m1) as [[[ok2 m2] d2] l2] eqn:E2.
  destruct (A _ m1 m2 _ d2 l2 ok2 (T _) S1 _ E2) as [(r2 & R2) C2]. destruct ok2; cbn [negb] in H.
  2:{ injection H as <- <- <-. split; [|exact C2]. exists (r2 ++ QF ++ (if ex then [Foreign "PrintOpStats"] else [])). rewrite <- !app_assoc. apply f_equal. rewrite <- R2, <- !app_assoc. reflexivity. }
  destruct (run_ok _ _ _ _ _ _ E2) as [S2 ->]. assert (S12 := succeeded_app _ _ _ _ _ _ _ _ S1 S2). clear C2 R2 r2.
  destruct (run att QF m2) as [[[ok3 m3] d3] l3] eqn:E3.
  destruct (A _ m2 m3 _ d3 l3 ok3 (T _) S12 _ E3) as [(r3 & R3) C3]. rewrite <- app_assoc in C3. destruct ok3; cbn [negb] in H.
  2:{ injection H as <- <- <-. split; [|exact C3]. exists (r3 ++ (if ex then [Foreign "PrintOpStats"] else [])). rewrite <- !app_assoc. do 2 apply f_equal. rewrite <- R3, <- !app_assoc. reflexivity. }
  destruct (run_ok _ _ _ _ _ _ E3) as [S3 ->]. assert (S123 := succeeded_app _ _ _ _ _ _ _ _ S12 S3). clear R3 r3.
  destruct ex.
  - destruct (run att [Foreign "PrintOpStats"] m3) as [[[ok4 m4] d4] l4] eqn:E4.
    destruct (A _ m3 m4 _ d4 l4 ok4 (T _) S123 _ E4) as [(r4 & R4) C4]. rewrite <- !app_assoc in C4.
    destruct ok4; cbn [negb] in H; injection H as <- <- <-; (split; [|exact C4]); exists r4; rewrite <- !app_assoc; do 3 apply f_equal; exact R4.
  - destruct (tr m3) as [[file|] d4]; [destruct (ver m3) as [v d5]; destruct v; cbn [negb] in H|]; injection H as <- <- <-; (split; [|exact C3]); exists []; rewrite !app_nil_r; reflexivity.
Qed.
Print Assumptions C81_stops_at_failure.

(** ** Exporting MLIR instead reports any error diagnostic, even of passes that succeed. *)
Theorem C81_export :
  forall {M} operations attempt translate verify print (c : config) (m m' : M) (result : string) (d : list string),
  (forall n, In n v1_ops -> ~ contains n (operations m)) ->
  succeeded attempt (conversion c ++ [Foreign "PrintOpStats"]) m m' d ->
  ConvertTFExecutorToTFLOrFlatbuffer operations attempt translate verify print c true true m result =
    (match d with [] => StOk | _ => StError UnknownError d end, String.append result (print m'), conversion c ++ [Foreign "PrintOpStats"]).
Proof.
  intros M ops att tr ver pr c m m' r d HV HS. unfold ConvertTFExecutorToTFLOrFlatbuffer. cbn [negb].
  destruct (walk_interrupted (ops m)) eqn:EW. { apply walk_spec in EW. destruct EW as (n & H1 & H2). destruct (HV n H1 H2). }
  unfold conversion in *. rewrite <- !app_assoc in HS. destruct (succeeded_split _ _ _ _ _ _ HS) as (m1 & d1 & d' & S1 & HS' & ->).
  destruct (succeeded_split _ _ _ _ _ _ HS') as (m2 & d2 & d'' & S2 & HS'' & ->). destruct (succeeded_split _ _ _ _ _ _ HS'') as (m3 & d3 & d4 & S3 & S4 & ->).
  rewrite (ok_run _ _ _ _ _ S1). cbn [negb]. rewrite (ok_run _ _ _ _ _ S2). cbn [negb]. rewrite (ok_run _ _ _ _ _ S3). cbn [negb]. rewrite (ok_run _ _ _ _ _ S4). cbn [negb].
  rewrite <- !app_assoc. reflexivity.
Qed.
Print Assumptions C81_export.

(** ** With C78: what the returned file computes. The passes of this repository do what
    C78 says of them when they succeed, with steps of TensorFlow's dilation pattern and
    of the driver's merging of constants in between; the file is the translation of a program whose
    results are reached from the model's through TensorFlow's own passes and dropped
    parameter pairs alone. [program]: what a module says; [given P m1]: pass [P] is
    started on [m1]. *)
Definition given {M} (attempt : pass -> M -> bool * M * list string) (c : config) (m : M) (P : pass) (m1 : M) : Prop :=
  exists ps qs d, conversion c = ps ++ P :: qs /\ succeeded attempt ps m m1 d.
Definition anything : string -> model -> model -> Prop := fun _ _ _ => True.
Lemma runs_passes f arm ps s tr s' : runs f arm ps s tr s' -> map (fun x => fst (fst x)) tr = ps.
Proof. induction 1 as [|P ps s s1 s' tr _ _ IH]; [reflexivity|]. cbn [map fst]. now rewrite IH. Qed.
Lemma rounds_in P l R : In R (rounds P l) -> R = P \/ exists n, R = Foreign n.
Proof.
  induction l as [|n l IH]; cbn [rounds In]; [intros [H|[]]; left; congruence|]. intros [H|[H|H]]; [left; congruence|right; exists n; congruence|exact (IH H)].
Qed.
Lemma succeeded_runs {M} (program : M -> model) arm (attempt : pass -> M -> bool * M * list string) (good : pass * model * model -> Prop) :
  forall ps m m' d, succeeded attempt ps m m' d ->
  (forall qs P qs' m1 m2 d1 d2, ps = qs ++ P :: qs' -> succeeded attempt qs m m1 d1 -> attempt P m1 = (true, m2, d2) ->
     exists l tr, (forall n, In n l -> In n (within P)) /\ runs anything arm (rounds P l) (program m1) tr (program m2) /\ forall x, In x tr -> good x) ->
  exists qs tr, interleaved ps qs /\ runs anything arm qs (program m) tr (program m') /\ forall x, In x tr -> good x.
Proof.
  intros ps m m' d H. induction H as [m|P ps m m1 m' d d' E _ IH]; intros HD.
  - exists [], []. split; [constructor|]. split; [constructor|]. intros x [].
  - destruct (HD [] P ps m m1 [] d eq_refl (succeeded_nil _ _) E) as (l & t1 & A1 & A2 & A3).
    destruct IH as (qs & tr & B1 & B2 & B3).
    + intros qs R qs' m2 m3 d2 d3 -> HS HA. apply (HD (P :: qs) R qs' m2 m3 (d ++ d2) d3 eq_refl); [|exact HA]. econstructor; eassumption.
    + exists (rounds P l ++ qs), (t1 ++ tr). split; [constructor; assumption|]. split; [apply runs_app with (program m1); assumption|].
      intros x Hx. apply in_app_or in Hx. destruct Hx as [Hx|Hx]; [exact (A3 x Hx)|exact (B3 x Hx)].
Qed.
Theorem C81_returned_file_keeps_results :
  forall {M} operations attempt translate verify print (program : M -> model) (arm : bool) (drift : pass -> list value -> list value -> Prop)
    (c : config) (cl_ok : bool) (m : M) (vs : list value) (file : string),
  (forall P m1 m2 d, is_foreign P = false -> given attempt c m P m1 -> attempt P m1 = (true, m2, d) ->
     exists l tr, (forall n, In n l -> In n (within P)) /\ runs anything arm (rounds P l) (program m1) tr (program m2) /\
       (forall Q t t', In (Q, t, t') tr -> ready Q t) /\
       (forall n t t' us, In (Foreign n, t, t') tr -> well_formed t -> computes t us -> well_formed t' /\ exists us', computes t' us' /\ drift (Foreign n) us us')) ->
  (forall P m1 m2, In P pre_freezing -> attempt P m1 <> (false, m2, [])) ->
  (forall n m1 m2 d us, given attempt c m (Foreign n) m1 -> attempt (Foreign n) m1 = (true, m2, d) -> well_formed (program m1) -> computes (program m1) us ->
     well_formed (program m2) /\ exists us', computes (program m2) us' /\ drift (Foreign n) us us') ->
  (forall m1 us, given attempt c m LCEQuantize m1 -> well_formed (program m1) -> computes (program m1) us ->
     exists us', computes_stripped (program m1) us' /\ drift LCEQuantize us us') ->
  well_formed (program m) -> computes (program m) vs ->
  flatbuffer_bytes operations attempt translate verify print c cl_ok m = Some file ->
  exists m' ps ws, fst (translate m') = Some file /\ fst (verify m') = true /\ well_formed (program m') /\ computes (program m') ws /\
    interleaved (conversion c) ps /\ composed drift ps vs ws.
Proof.
  intros M ops att tr ver pr prog arm drift c cl m vs file HD HL HF HQ HW HC HB.
  destruct (C81_bytes _ _ _ _ _ _ _ _ _ HL HB) as (_ & m' & d & K1 & K2 & K3).
  destruct (succeeded_runs prog arm att (fun x => let '(P, t, t') := x in ready P t /\
      (forall n us, P = Foreign n -> well_formed t -> computes t us -> well_formed t' /\ exists us', computes t' us' /\ drift (Foreign n) us us') /\
      (forall us, P = LCEQuantize -> well_formed t -> computes t us -> exists us', computes_stripped t us' /\ drift LCEQuantize us us')) _ _ _ _ K1) as (ps & t & HI & Ht & IN).
  { intros qs P qs' m1 m2 d1 d2 E HS HA.
    assert (HG : given att c m P m1) by (exists qs, qs', d1; split; assumption).
    destruct (is_foreign P) eqn:EF.
    - destruct P; try discriminate EF. exists [], [(Foreign name, prog m1, prog m2)]. split; [intros n []|]. split; [econstructor; [exact I|constructor]|].
      intros x [<-|[]]. split; [exact I|]. split; [|intros us Hn; discriminate Hn]. intros n us Hn. injection Hn as <-. exact (HF name m1 m2 d2 us HG HA).
    - destruct (HD P m1 m2 d2 EF HG HA) as (l & t & A1 & A2 & A3 & A4). exists l, t. split; [exact A1|]. split; [exact A2|].
      intros [[R a] b] Hx. split; [exact (A3 R a b Hx)|]. split; [intros n us ->; exact (A4 n a b us Hx)|].
      intros us ->. assert (Hr : In LCEQuantize (rounds P l)) by (rewrite <- (runs_passes _ _ _ _ _ _ A2); change LCEQuantize with (fst (fst (LCEQuantize, a, b))); apply (in_map (fun x : pass * model * model => fst (fst x))); exact Hx).
      destruct (rounds_in _ _ _ Hr) as [<-|[n Hn]]; [|discriminate Hn].
      assert (l = []) as -> by (destruct l as [|n l]; [reflexivity|destruct (A1 n (or_introl eq_refl))]).
      cbn [rounds] in A2. inversion A2 as [|? ? ? ? ? ? D1 D2]; subst. inversion D2; subst. destruct Hx as [Hx|[]]. injection Hx as <- _. exact (HQ m1 us HG). }
  destruct (C78_pipeline anything arm drift ps (prog m) (prog m') t vs Ht HW HC) as (W & ws & C & D).
  - intros P a b Hi. exact (proj1 (IN _ Hi)).
  - intros n a b us Hi. exact (proj1 (proj2 (IN _ Hi)) n us eq_refl).
  - intros a b us Hi. exact (proj2 (proj2 (IN _ Hi)) us eq_refl).
  - exists m', ps, ws. repeat split; try assumption; apply W.
Qed.
Print Assumptions C81_returned_file_keeps_results.

(** ** Names in the file are first parts of the names in the program, of at most 50
    characters, and short names are kept. (That no two tensors have the same name is
    up to the base class, which numbers equal ones afterwards.) *)
Lemma substring_prefix k : forall s, prefix (substring 0 k s) s = true.
Proof.
  induction k as [|k IH]; intros [|a s]; try reflexivity. cbn [substring prefix].
  destruct (Ascii.ascii_dec a a); [apply IH|congruence].
Qed.
Lemma prefix_refl s : prefix s s = true.
Proof. induction s as [|a s IH]; [reflexivity|]. cbn. destruct (Ascii.ascii_dec a a); [exact IH|congruence]. Qed.
Lemma substring_full k : forall s, (k <= String.length s)%nat -> String.length (substring 0 k s) = k.
Proof. induction k as [|k IH]; intros [|a s] H; cbn in *; try reflexivity; try lia. rewrite IH; lia. Qed.
Theorem C81_names :
  forall name : string, prefix (GetName name) name = true /\ String.length (GetName name) = Nat.min 50 (String.length name).
Proof.
  intros n. unfold GetName. destruct (Nat.ltb_spec 50 (String.length n)).
  - split; [apply substring_prefix|]. rewrite substring_full; lia.
  - split; [apply prefix_refl|lia].
Qed.
Print Assumptions C81_names.

(** ** Cases *)
(** The module is the list of passes done; the canonicaliser reports an error and
    succeeds. The conversion returns the file; exporting MLIR does not. *)
Definition case_attempt (P : pass) (m : list pass) : bool * list pass * list string :=
  (true, m ++ [P], match P with Foreign n => if String.eqb n "Canonicalizer" then ["cannot simplify"] else [] | _ => [] end).
Definition case_module (v1 : bool) (_ : list pass) : operation :=
  Operation "builtin.module" [Operation "func.func" [Operation "tf.Conv2D" []; Operation (if v1 then "tf_executor.Merge" else "tf_executor.graph") []]].
Definition case_file (m : list pass) : option string * list string := (Some (if pass_eqb (last m OpRemoval) LegalizeLCE then "TFL3" else "?"), []).
Definition case_verify (m : list pass) : bool * list string := (true, []).
Example C81_case :
  flatbuffer_bytes (case_module false) case_attempt case_file case_verify (fun _ => "module") ex_c true [] = Some "TFL3" /\
  fst (ConvertTFExecutorToTFLOrFlatbuffer (case_module false) case_attempt case_file case_verify (fun _ => "module") ex_c true true [] "") =
    (StError UnknownError (repeat "cannot simplify" 5), "module") /\
  flatbuffer_bytes (case_module true) case_attempt case_file case_verify (fun _ => "module") ex_c true [] = None /\
  flatbuffer_bytes (case_module false) case_attempt case_file (fun _ => (false, [])) (fun _ => "module") ex_c true [] = None /\
  (exists m' d, succeeded case_attempt (conversion ex_c ++ [Foreign "PrintOpStats"]) [] m' d /\ d <> []) /\
  (forall P m1 m2, In P pre_freezing -> case_attempt P m1 <> (false, m2, [])).
Proof.
  split; [vm_compute; reflexivity|]. split; [vm_compute; reflexivity|]. split; [vm_compute; reflexivity|]. split; [vm_compute; reflexivity|]. split.
  - assert (K : forall ps m, exists d, succeeded case_attempt ps m (m ++ ps) d /\ d = concat (map (fun P => snd (case_attempt P [])) ps)).
    { induction ps as [|P ps IH]; intros m; [exists []; rewrite app_nil_r; split; [constructor|reflexivity]|].
      destruct (IH (m ++ [P])) as (d & H & E). rewrite <- app_assoc in H. exists (snd (case_attempt P []) ++ d). split; [econstructor; [reflexivity|exact H]|]. rewrite E. reflexivity. }
    destruct (K (conversion ex_c ++ [Foreign "PrintOpStats"]) []) as (d & H & E). eexists. exists d. split; [exact H|]. rewrite E. vm_compute. discriminate.
  - intros P m1 m2 _ H. discriminate H.
Qed.

(** ** A success that is none: TensorFlow's shape inference fails before variables are
    frozen and reports nothing; the status is OK and Python gets an empty byte string. *)
Theorem C81_silent_failure_refuted :
  exists (M : Type) operations (attempt : pass -> M -> bool * M * list string) translate verify print (c : config) (m : M) (m1 : M),
    attempt (Foreign "TF::ShapeInference") m = (false, m1, []) /\
    (forall m1 m2 d, ~ succeeded attempt (conversion c) m1 m2 d) /\
    flatbuffer_bytes operations attempt translate verify print c true m = Some "".
Proof.
  exists unit, (fun _ => Operation "builtin.module" []), (fun P m => (negb (pass_eqb P (Foreign "TF::ShapeInference")), m, [])),
    (fun _ => (Some "TFL3", [])), (fun _ => (true, [])), (fun _ => ""), ex_c, tt, tt.
  split; [reflexivity|]. split; [|vm_compute; reflexivity].
  intros m1 m2 d H. change (conversion ex_c) with (firstn 4 (conversion ex_c) ++ Foreign "TF::ShapeInference" :: skipn 5 (conversion ex_c)) in H.
  destruct (succeeded_split _ _ _ _ _ _ H) as (m3 & d1 & d2 & _ & H2 & _). inversion H2 as [|? ? ? ? ? ? ? E]; subst. discriminate E.
Qed.
Print Assumptions C81_silent_failure_refuted.

(** The conversion of C78_case, with an error reported on the way. *)
Definition case2_attempt (P : pass) (b : bool) : bool * bool * list string :=
  match P with LCEQuantize => (true, true, ["quantised"]) | _ => (true, b, []) end.
Definition case2_program (b : bool) : model := if b then ex_t else ex_s.
Lemma case2_before ps b d : ~ In LCEQuantize ps -> succeeded case2_attempt ps false b d -> b = false.
Proof.
  assert (K : forall ps m b d, succeeded case2_attempt ps m b d -> ~ In LCEQuantize ps -> m = b).
  { clear. intros ps m b d H. induction H as [m|P ps m m1 m2 d d' E _ IH]; intros HN; [reflexivity|].
    assert (N : ~ In LCEQuantize ps) by (intros Hi; apply HN; right; exact Hi). specialize (IH N). subst m2.
    assert (P <> LCEQuantize) by (intros ->; apply HN; left; reflexivity). destruct P; try (injection E as <- <-; reflexivity). congruence. }
  intros HN H. symmetry. exact (K _ _ _ _ H HN).
Qed.
Lemma case2_after ps b d : In LCEQuantize ps -> succeeded case2_attempt ps false b d -> b = true.
Proof.
  assert (K : forall ps m b d, succeeded case2_attempt ps m b d -> m = true \/ In LCEQuantize ps -> b = true).
  { clear. intros ps m b d H. induction H as [m|P ps m m1 m2 d d' E _ IH]; intros [HN|HN]; [exact HN|contradiction| |].
    - subst m. apply IH. left. destruct P; injection E as <- <-; reflexivity.
    - destruct HN as [->|HN]; [|apply IH; right; exact HN]. apply IH. left. injection E as <- <-. reflexivity. }
  intros HN H. exact (K _ _ _ _ H (or_intror HN)).
Qed.
Lemma case2_given P b : given case2_attempt ex_c false P b -> b = false /\ In P (ex_before ++ [LCEQuantize]) \/ b = true /\ In P ex_after.
Proof.
  intros (ps & qs & d & E & H). destruct (in_dec (fun a b : pass => ltac:(destruct (pass_eqb a b) eqn:K; [left; exact (pass_eqb_eq _ _ K)|right; intros ->; rewrite pass_refl in K; discriminate]) : {a = b} + {a <> b}) LCEQuantize ps) as [Hi|Hi].
  - right. split; [exact (case2_after _ _ _ Hi H)|]. rewrite ex_split in E. clear H.
    assert (G : forall B ps, ~ In LCEQuantize B -> In LCEQuantize ps -> B ++ LCEQuantize :: ex_after = ps ++ P :: qs -> In P ex_after).
    { clear. induction B as [|x B IH]; intros [|y ps] HB Hp E; try contradiction; cbn [app] in E; injection E as <- E.
      - rewrite E. apply in_or_app. right. left. reflexivity.
      - apply (IH ps); [intros K; apply HB; right; exact K| |exact E]. destruct Hp as [->|Hp]; [destruct HB; left; reflexivity|exact Hp]. }
    apply (G ex_before ps); [|exact Hi|exact E]. intros K. vm_compute in K. repeat (destruct K as [K|K]; [discriminate K|]). exact K.
  - left. split; [exact (case2_before _ _ _ Hi H)|]. rewrite ex_split in E. clear H.
    assert (G : forall B ps, ~ In LCEQuantize ps -> B ++ LCEQuantize :: ex_after = ps ++ P :: qs -> In P (B ++ [LCEQuantize])).
    { clear. induction B as [|x B IH]; intros [|y ps] Hp E; cbn [app] in *; injection E as <- E; [left; reflexivity|destruct Hp; left; reflexivity|left; reflexivity|].
      right. apply (IH ps); [intros K; apply Hp; right; exact K|exact E]. }
    exact (G ex_before ps Hi E).
Qed.
Example C81_returned_case :
  exists ws, computes ex_t ws /\ Forall2 (near 2) (out12 2) ws /\
    flatbuffer_bytes (fun _ => Operation "builtin.module" []) case2_attempt (fun b : bool => (Some (if b then "TFL3" else "?"), [])) (fun _ => (true, [])) (fun _ => "") ex_c true false = Some "TFL3".
Proof.
  destruct C73_case as (C1 & C2 & C3 & _ & C6 & C7 & _). destruct ex_igood as (es & eq & S1 & S2 & (G1 & G2 & G3 & G4 & G5)).
  assert (W : well_formed ex_s) by (split; [exact C1|exact C2]).
  assert (V : exists e, eval ex_p ex_e0 = Some e) by (assert (K : (match eval ex_p ex_e0 with Some _ => true | None => false end) = true) by (vm_compute; reflexivity); destruct (eval ex_p ex_e0) as [e|]; [exists e; reflexivity|discriminate]).
  destruct V as (e & HE).
  destruct (ex_value ex_p e 2 HE ltac:(vm_compute; reflexivity)) as (t & T1 & T2).
  destruct (ex_value (strip ex_p) es 3 S1 ltac:(vm_compute; reflexivity)) as (u & U1 & U2).
  assert (Cs : computes ex_s [VInt t]) by (exists e; split; [exact HE|constructor; [exact T1|constructor]]).
  assert (FS : strip ex_q = ex_q) by exact (strip_finished _ _ _ G1 C7).
  assert (B : flatbuffer_bytes (fun _ => Operation "builtin.module" []) case2_attempt (fun b : bool => (Some (if b then "TFL3" else "?"), [])) (fun _ => (true, [])) (fun _ => "") ex_c true false = Some "TFL3") by (vm_compute; reflexivity).
  destruct (C81_returned_file_keeps_results (fun _ => Operation "builtin.module" []) case2_attempt (fun b : bool => (Some (if b then "TFL3" else "?"), [])) (fun _ => (true, [])) (fun _ => "")
    case2_program true ex_drift ex_c true false [VInt t] "TFL3") as (m' & ps & ws & F1 & _ & F2 & F3 & F5 & F4).
  - intros P m1 m2 d HP Hg E. exists [], [(P, case2_program m1, case2_program m2)]. split; [intros n []|]. split; [|split].
    + econstructor; [|constructor]. clear Hg. destruct P; cbn [is_foreign] in HP; try discriminate; injection E as <- _; cbn [does]; try reflexivity; destruct m1; cbn [case2_program ex_s ex_t m_args m_prog m_outs m_in];
        (split; [reflexivity|split; [reflexivity|]]); try (split; [reflexivity|]); try (exists 0%nat; constructor); try solve [constructor].
      * split; [exists 0%nat; constructor|exact C7].
      * split; [exists 9%nat; exact C6|exact C7].
    + intros R t1 t2 [Hx|[]]. injection Hx as <- <- _. clear E. destruct (case2_given P m1 Hg) as [[-> HP']|[-> HP']].
      * destruct P; cbn [ready case2_program ex_s m_prog m_in]; try exact I; [intros e1 _; apply ex_sane|intros e1 _; apply ex_sane|intros e1 E1; exact (ex_tame e1 E1)|intros e1 _; apply ex_fuse_sane|exact C3].
      * destruct P; try exact I; try exact G3; exfalso; vm_compute in HP'; repeat (destruct HP' as [HP'|HP']; [discriminate HP'|]); exact HP'.
    + intros n t1 t2 us [Hx|[]]. exfalso. injection Hx as -> _ _. discriminate HP.
  - intros P m1 m2 _ E. destruct P; discriminate E.
  - intros n m1 m2 d us _ E HW HC. injection E as <- _. split; [exact HW|]. exists us. split; [exact HC|reflexivity].
  - intros m1 us Hg HW (e1 & E1 & V1). destruct (case2_given _ m1 Hg) as [[-> HP]|[-> HP]].
    + cbn [case2_program ex_s m_prog m_in m_outs] in E1, V1. rewrite HE in E1. injection E1 as <-. inversion V1 as [|? ? ? ? V2 V3]; subst. inversion V3; subst. rewrite T1 in V2. injection V2 as <-.
      exists [VInt u]. split; [exists es; split; [exact S1|split; [exact S2|constructor; [exact U1|constructor]]]|]. constructor; [|constructor].
      destruct T2 as [A1 A2], U2 as [B1 B2]. cbn in A1, A2, B1, B2. split; [congruence|]. intros i Hi'. cbn beta. rewrite (A2 i Hi'). rewrite A1, <- B1 in Hi'. rewrite (B2 i Hi'). discriminate.
    + exists us. cbn [case2_program ex_t m_prog m_in m_outs] in *. rewrite FS in G4, G5. rewrite G4 in E1. injection E1 as <-. split.
      * exists eq. cbn [case2_program ex_t m_prog m_in m_outs]. rewrite FS. auto.
      * clear. cbn [ex_drift]. induction us as [|v us IH]; constructor; [|exact IH]. destruct v as [a|a|a|a|]; cbn [near veq]; try exact I; (split; [reflexivity|]); intros i _; cbn beta; try reflexivity;
          (eapply Qle_trans; [apply abs_same; reflexivity|discriminate]).
  - exact W.
  - exact Cs.
  - exact B.
  - assert (m' = true) as -> by (destruct m'; [reflexivity|cbn in F1; discriminate F1]). exists ws. split; [exact F3|]. split; [|exact B].
    assert (N' : Forall2 (near (total ex_d (conversion ex_c))) [VInt t] ws).
    { apply (C78_error_budget ex_drift ex_d (conversion ex_c) [VInt t] ws); [|apply (C78_interleaved ex_drift (conversion ex_c) ps); [exact F5| |exact F4]; intros P n us us' _ _ HD; cbn [ex_drift] in HD; subst us'; apply F2_veq_refl]. intros P us us' _ HP HD. destruct P; try discriminate HP; cbn [ex_drift ex_d] in *; [exact HD|subst us'; apply F2_veq_near, F2_veq_refl]. }
    apply (F2_near_comp (0 + total ex_d (conversion ex_c))); [vm_compute; reflexivity|]. apply (F2_near_trans _ _ _ [VInt t]); [|exact N'].
    apply F2_veq_near. constructor; [|constructor]. apply veq_sym. exact T2.
Qed.
