(** * C75: the converter's front end *)
From Coq Require Import Ascii String QArith.
From Verif Require Import Base Spec Misc GraphUtil GraphProofs GraphTop Converter.
Open Scope string_scope.
Open Scope list_scope.
Open Scope Z_scope.

(** ** Specification *)
Definition supported (t : dtype) : Prop := t = DFloat32 \/ t = DInt8.
Definition names_target (s : string) (t : lce_target) : Prop := (s = "arm" /\ t = ARM) \/ (s = "xcore" /\ t = XCORE).
Definition valid (eager : bool) (o : options) : Prop :=
  supported (op_in o) /\ supported (op_out o) /\ (exists t, names_target (op_target o) t) /\ eager = true.
(** The warning printed when a default range is given. *)
Definition range_warning {Module} (o : options) : list (@event Module) := match op_range o with Some _ => [WarnRange] | None => [] end.
(** The quantisation settings the SavedModel path hands to the pipeline: integer
    inference always, the user's range if there is one. *)
Definition saved_specs (n : Z) (o : options) : specs :=
  {| sp_qint8 := true; sp_inputs := n; sp_default := op_range o; sp_ptq := match op_range o with Some _ => true | None => false end |}.
(** The requested types applied to the pipeline's model. *)
Definition retyped {V} (o : options) (m0 m : @tfmodel V) : Prop :=
  if dtype_eqb (op_in o) DFloat32 && dtype_eqb (op_out o) DFloat32 then m = m0
  else modify_io m0 (dtype_eqb (op_in o) DInt8) (dtype_eqb (op_out o) DInt8) = Some m.
(** A shape as given to the importer: the known dimensions as they are, an unknown
    first dimension as 1; a scalar's shape is left open. *)
Definition known_shape (sh : list (option Z)) (s : list Z) : Prop :=
  Forall2 (fun d z => d = Some z) (tl sh) (tl s) /\
  match sh, s with [], [] => True | None :: _, 1 :: _ => True | Some d :: _, z :: _ => z = d | _, _ => False end.
Definition describes (i : input) (a : string * dtype * option (list Z)) : Prop :=
  exists sh s, i_shape i = Some sh /\ known_shape sh s /\
    a = (i_name i, i_dtype i, match s with [] => None | _ => Some s end).
(** Operators that are there for quantisation-aware training. *)
Definition trained_quantised {Graph} (fz : @frozen Graph) : Prop :=
  exists op,
    In op ["FakeQuantWithMinMaxVars"; "FakeQuantWithMinMaxVarsPerChannel"; "FakeQuantWithMinMaxArgs";
            "FakeQuantWithMinMaxArgsPerChannel"; "QuantizeAndDequantizeV2"; "QuantizeAndDequantizeV3"] /\
    (In op (f_nodes fz) \/ exists f, In f (f_functions fz) /\ In op f).

(** The settings of the GraphDef path: integer inference only if the graph was
    trained for it or a range was given. *)
Definition graph_specs (q : bool) (n : Z) (o : options) : specs :=
  if q then {| sp_qint8 := true; sp_inputs := n; sp_default := op_range o; sp_ptq := false |}
  else {| sp_qint8 := false; sp_inputs := 0; sp_default := None; sp_ptq := false |}.
Definition data_inputs {Graph} (fz : @frozen Graph) : list input := filter (fun i => negb (dtype_eqb (i_dtype i) DResource)) (f_inputs fz).

(** ** Lemmas about runs *)
Lemma then_inr {Module A B} (p : @run Module A) (f : A -> run B) b : snd (andThen p f) = inr b <-> exists a, snd p = inr a /\ snd (f a) = inr b.
Proof.
  unfold andThen. destruct p as [l [e|a]]; cbn; split.
  - discriminate.
  - intros (a & E & _). discriminate.
  - intros E. exists a. auto.
  - intros (a' & E & F). injection E as ->. exact F.
Qed.
Lemma then_fst {Module A B} (p : @run Module A) (f : A -> run B) a : snd p = inr a -> fst (andThen p f) = fst p ++ fst (f a).
Proof. intros E. unfold andThen. rewrite E. reflexivity. Qed.
Lemma run_split {Module A} (p : @run Module A) tr a : p = (tr, a) -> fst p = tr /\ snd p = a.
Proof. intros ->. auto. Qed.
Lemma then_or {Module A B} (x : option A) e a (f : A -> @run Module B) : x = Some a -> andThen (orRaise x e) f = f a.
Proof. intros ->. unfold andThen, orRaise, ret. cbn. destruct (f a). reflexivity. Qed.
Lemma then_run {Module A B} (p : @run Module A) l a (f : A -> run B) l' r : p = (l, inr a) -> f a = (l', r) -> andThen p f = (l ++ l', r).
Proof. intros -> E. unfold andThen. cbn. rewrite E. reflexivity. Qed.
Lemma or_inr {Module A} (o : option A) e a : snd (orRaise (Module := Module) o e) = inr a <-> o = Some a.
Proof. destruct o; cbn; split; intros H; inversion H; reflexivity. Qed.
Lemma or_fst {Module A} (o : option A) e : fst (orRaise (Module := Module) o e) = [].
Proof. destruct o; reflexivity. Qed.

Lemma dtype_eqb_eq a b : dtype_eqb a b = true <-> a = b.
Proof. destruct a, b; cbn; split; intros H; try discriminate; reflexivity. Qed.
Lemma get_target_ok s t : get_target s = Some t <-> names_target s t.
Proof.
  unfold get_target, names_target. destruct (String.eqb_spec s "arm") as [-> | E1].
  - split; [intros H; injection H as <-; auto|]. intros [[_ ->] | [H _]]; [reflexivity|discriminate].
  - destruct (String.eqb_spec s "xcore") as [-> | E2].
    + split; [intros H; injection H as <-; auto|]. intros [[H _] | [_ ->]]; [discriminate|reflexivity].
    + split; [discriminate|]. intros [[H _] | [H _]]; contradiction.
Qed.

Lemma validate_ok {Module} eager o : (valid eager o -> validate (Module := Module) eager o = (range_warning o, inr tt)) /\
  (~ valid eager o -> exists e, validate (Module := Module) eager o = ([], inl e) /\ (eager = true -> e = ValueError)).
Proof.
  unfold validate, valid, supported, range_warning.
  destruct (op_in o) eqn:Ei; cbn -[String.eqb];
    try (split; [intros ([H | H] & _); discriminate|intros _; exists ValueError; split; [reflexivity|reflexivity]]);
  (destruct (op_out o) eqn:Eo; cbn -[String.eqb];
    try (split; [intros (_ & [H | H] & _); discriminate|intros _; exists ValueError; split; [reflexivity|reflexivity]]));
  (destruct (String.eqb (op_target o) "arm" || String.eqb (op_target o) "xcore") eqn:Et; cbn [negb];
   [|split; [|intros _; exists ValueError; split; [reflexivity|reflexivity]]; intros (_ & _ & (t & Ht) & _); apply orb_false_iff in Et; destruct Et as [E1 E2];
     apply String.eqb_neq in E1; apply String.eqb_neq in E2; destruct Ht as [[H _] | [H _]]; contradiction]);
  (assert (Hn : exists t, names_target (op_target o) t) by (apply orb_true_iff in Et; destruct Et as [E1 | E1]; apply String.eqb_eq in E1; rewrite E1; [exists ARM; left|exists XCORE; right]; auto));
  (destruct eager; cbn [negb]; [|split; [intros (_ & _ & _ & H); discriminate|intros _; exists RuntimeError; split; [reflexivity|discriminate]]]);
  (split; [intros _; destruct (op_range o); reflexivity|intros H; exfalso; apply H; auto]).
Qed.

Lemma io_requested_ok o : io_requested o = negb (dtype_eqb (op_in o) DFloat32 && dtype_eqb (op_out o) DFloat32).
Proof. unfold io_requested. rewrite negb_andb. reflexivity. Qed.

(** GetNumInputs: the one function with the attribute. *)
Lemma find_entry_some : forall fs a r, find_entry fs (Some a) = Some r <-> r = Some a /\ Forall (fun f => f = None) fs.
Proof.
  induction fs as [|[b|] fs IH]; intros a r; cbn.
  - split; [intros H; injection H as <-; auto|]. intros [-> _]. reflexivity.
  - split; [discriminate|]. intros [_ H]. inversion H. discriminate.
  - rewrite IH. split; intros [-> H]; (split; [reflexivity|]); [constructor; auto|inversion H; assumption].
Qed.
Lemma find_entry_none : forall fs a, find_entry fs None = Some (Some a) <-> exists pre post, fs = pre ++ Some a :: post /\ Forall (fun f => f = None) (pre ++ post).
Proof.
  induction fs as [|[b|] fs IH]; intros a; cbn.
  - split; [discriminate|]. intros (pre & post & E & _). destruct pre; discriminate.
  - rewrite find_entry_some. split.
    + intros [E F]. injection E as ->. exists [], fs. auto.
    + intros (pre & post & E & F). destruct pre as [|p pre]; cbn in E; injection E as Ea Eb.
      * subst. auto.
      * subst. cbn in F. inversion F. discriminate.
  - rewrite IH. split.
    + intros (pre & post & -> & F). exists (None :: pre), post. split; [reflexivity|]. constructor; auto.
    + intros (pre & post & E & F). destruct pre as [|p pre]; cbn in E; [discriminate|]. injection E as Ea Eb. subst. exists pre, post. split; [reflexivity|]. inversion F. assumption.
Qed.
Theorem C75_input_count : forall fs n, num_inputs fs = Some n <->
  exists pre post names, fs = pre ++ Some (Some names) :: post /\ Forall (fun f => f = None) (pre ++ post) /\ n = pieces names.
Proof.
  intros fs n. unfold num_inputs. split.
  - destruct (find_entry fs None) as [[[names|]|]|] eqn:E; try discriminate. intros H. injection H as <-. apply find_entry_none in E. destruct E as (pre & post & E & F). exists pre, post, names. auto.
  - intros (pre & post & names & E & F & ->). assert (H : find_entry fs None = Some (Some (Some names))) by (apply find_entry_none; exists pre, post; auto). rewrite H. reflexivity.
Qed.
Lemma num_inputs_pos fs n : num_inputs fs = Some n -> 1 <= n.
Proof.
  intros H. apply C75_input_count in H. destruct H as (_ & _ & s & _ & _ & ->). unfold pieces.
  assert (0 <= commas s); [|lia]. induction s as [|c s IH]; [cbn; lia|]. change (commas (String c s)) with ((if Ascii.eqb c ","%char then 1 else 0) + commas s). destruct (Ascii.eqb c ","%char); lia.
Qed.

(** Inputs and shapes *)
Lemma each_inr {Module A B} (f : A -> @run Module B) : forall l bs, snd (each f l) = inr bs <-> Forall2 (fun a b => snd (f a) = inr b) l bs.
Proof.
  induction l as [|a l IH]; intros bs; cbn [each].
  - split; [intros H; injection H as <-; constructor|]. intros H. inversion H. reflexivity.
  - rewrite then_inr. split.
    + intros (b & Eb & H). apply then_inr in H. destruct H as (bs' & Es & H). injection H as <-. constructor; [exact Eb|]. apply IH. exact Es.
    + intros H. inversion H as [|a0 b l0 bs' Hb Hs E1 E2]; subst. exists b. split; [exact Hb|]. apply then_inr. exists bs'. split; [apply IH; exact Hs|reflexivity].
Qed.
Lemma each_fst {Module A B} (f : A -> @run Module B) : (forall a, fst (f a) = []) -> forall l, fst (each f l) = [].
Proof.
  intros H. induction l as [|a l IH]; [reflexivity|]. cbn [each]. unfold andThen at 1. destruct (snd (f a)) as [e|b]; cbn [fst]; rewrite H; [reflexivity|]. cbn [app].
  unfold andThen. destruct (snd (each f l)); cbn [fst]; rewrite IH; reflexivity.
Qed.
Lemma fix_fst {Module} i : fst (fix_shape (Module := Module) i) = [].
Proof. unfold fix_shape, andThen. destruct (i_shape i) as [sh|]; cbn; [|reflexivity]. destruct (existsb is_none (tl sh)); [reflexivity|]. destruct sh as [|[|] ?]; reflexivity. Qed.
Lemma toarr_fst {Module} p : fst (to_array (Module := Module) p) = [].
Proof. unfold to_array, andThen. destruct (all_some (snd p)); reflexivity. Qed.
Lemma all_some_F2 : forall (l : list (option Z)) r, all_some l = Some r <-> Forall2 (fun d z => d = Some z) l r.
Proof.
  induction l as [|d l IH]; intros r; cbn.
  - split; [intros H; injection H as <-; constructor|]. intros H. inversion H. reflexivity.
  - destruct d as [z|]; cbn.
    + destruct (all_some l) as [r'|] eqn:E; cbn; split.
      * intros H. injection H as <-. constructor; [reflexivity|]. apply IH. reflexivity.
      * intros H. inversion H as [|? z' ? r0 Hz Hr]; subst. injection Hz as ->. apply IH in Hr. injection Hr as ->. reflexivity.
      * discriminate.
      * intros H. inversion H as [|? z' ? r0 Hz Hr]; subst. apply IH in Hr. discriminate.
    + split; [discriminate|]. intros H. inversion H. discriminate.
Qed.
Lemma no_none_F2 : forall l : list (option Z), existsb is_none l = false -> exists r, Forall2 (fun d z => d = Some z) l r.
Proof.
  induction l as [|[z|] l IH]; cbn; intros H; [exists []; constructor| |discriminate]. destruct (IH H) as [r Hr]. exists (z :: r). constructor; auto.
Qed.
Lemma F2_no_none : forall (l : list (option Z)) r, Forall2 (fun d z => d = Some z) l r -> existsb is_none l = false.
Proof. intros l r H. induction H as [|d z l r -> _ IH]; [reflexivity|exact IH]. Qed.
Lemma fix_ok {Module} i s : (exists sh', snd (fix_shape (Module := Module) i) = inr sh' /\ all_some sh' = Some s) <-> exists sh, i_shape i = Some sh /\ known_shape sh s.
Proof.
  unfold fix_shape, known_shape. split.
  - intros (sh' & H & Ha). apply then_inr in H. destruct H as (sh & Es & H). apply or_inr in Es. exists sh. split; [exact Es|].
    destruct (existsb is_none (tl sh)) eqn:En; [discriminate|]. apply all_some_F2 in Ha. destruct sh as [|[d|] sh]; cbn in H; injection H as <-.
    + inversion Ha. split; [constructor|exact I].
    + inversion Ha as [|? z ? r Hz Hr]; subst. injection Hz as ->. split; [exact Hr|reflexivity].
    + inversion Ha as [|? z ? r Hz Hr]; subst. injection Hz as <-. split; [exact Hr|exact I].
  - intros (sh & Es & Ht & Hh). rewrite Es. rewrite (then_or _ _ sh) by reflexivity. rewrite (F2_no_none _ _ Ht).
    destruct sh as [|[d|] sh], s as [|z s]; cbn in Hh, Ht; try contradiction.
    + exists []. split; reflexivity.
    + subst. exists (Some d :: sh). split; [reflexivity|]. apply all_some_F2. constructor; auto.
    + destruct z as [|[?|?|]|]; try contradiction. exists (Some 1 :: sh). split; [reflexivity|]. apply all_some_F2. constructor; auto.
Qed.
Definition described (a : array) : string * dtype * option (list Z) := (a_name a, a_dtype a, translate_shape (a_shape a)).
Lemma arrays_ok {Module} : forall ins args,
  (exists shapes arrays, Forall2 (fun i sh => snd (fix_shape (Module := Module) i) = inr sh) ins shapes /\
     Forall2 (fun p a => snd (to_array (Module := Module) p) = inr a) (combine ins shapes) arrays /\ args = map described arrays) <-> Forall2 describes ins args.
Proof.
  induction ins as [|i ins IH]; intros args.
  - split.
    + intros (shapes & arrays & H1 & H2 & ->). cbn in H2. inversion H2. constructor.
    + intros H. inversion H. exists [], []. repeat constructor.
  - split.
    + intros (shapes & arrays & H1 & H2 & ->). inversion H1 as [|? sh ? shapes' Hsh Hshs]; subst. cbn [combine] in H2. inversion H2 as [|? a ? arrays' Ha Has]; subst. cbn [map]. constructor.
      * unfold to_array in Ha. apply then_inr in Ha. destruct Ha as (s & Es & Ha). cbn [fst snd] in *. injection Ha as <-. apply or_inr in Es.
        destruct (proj1 (fix_ok (Module := Module) i s) (ex_intro _ sh (conj Hsh Es))) as (sh0 & E0 & Hk). exists sh0, s. split; [exact E0|]. split; [exact Hk|reflexivity].
      * apply IH. exists shapes', arrays'. auto.
    + intros H. inversion H as [|? a ? args' Ha Has]; subst. apply IH in Has. destruct Has as (shapes & arrays & H1 & H2 & ->). destruct Ha as (sh0 & s & E0 & Hk & ->).
      destruct (proj2 (fix_ok (Module := Module) i s) (ex_intro _ sh0 (conj E0 Hk))) as (sh & Hsh & Es).
      exists (sh :: shapes), ({| a_name := i_name i; a_dtype := i_dtype i; a_shape := s |} :: arrays). split; [constructor; assumption|]. split; [|reflexivity]. cbn [combine]. constructor; [|exact H2].
      unfold to_array. cbn [fst snd]. rewrite (then_or _ _ s) by exact Es. reflexivity.
Qed.
Lemma training_ok {Graph} (fz : @frozen Graph) : contains_training_quant_op (f_nodes fz) (f_functions fz) = true <-> trained_quantised fz.
Proof.
  assert (Hop : forall op, is_training_quant op = true <-> In op
    ["FakeQuantWithMinMaxVars"; "FakeQuantWithMinMaxVarsPerChannel"; "FakeQuantWithMinMaxArgs"; "FakeQuantWithMinMaxArgsPerChannel"; "QuantizeAndDequantizeV2"; "QuantizeAndDequantizeV3"]).
  { intros op. unfold is_training_quant. rewrite existsb_exists. split; [intros (x & H1 & H2); apply String.eqb_eq in H2; subst; exact H1|intros H; exists op; split; [exact H|apply String.eqb_refl]]. }
  unfold contains_training_quant_op, trained_quantised. rewrite orb_true_iff, !existsb_exists. split.
  - intros [(op & H1 & H2) | (f & H1 & H2)]; [exists op; apply Hop in H2; auto|]. apply existsb_exists in H2. destruct H2 as (op & H2 & H3). apply Hop in H3. exists op. split; [exact H3|right; exists f; auto].
  - intros (op & Ht & [H | (f & H1 & H2)]); apply Hop in Ht; [left; exists op; auto|right; exists f; split; [exact H1|]; apply existsb_exists; exists op; auto].
Qed.

Section Theorems.
  Context {V Saved Module Graph : Type}.
  Variable parse_saved : Saved -> option Z.
  Variable import_saved : Saved -> Z -> option Module.
  Variable import_graph : Graph -> list (string * dtype * option (list Z)) -> list string -> option Module.
  Variable entries : Module -> list (option (option string)).
  Variable flatbuffer : Module -> lce_target -> specs -> option (@tfmodel V).
  Notation convert_saved := (convert_saved_model parse_saved import_saved entries flatbuffer).
  Notation convert_keras := (convert_keras_model parse_saved import_saved import_graph entries flatbuffer).
  Notation fallback := (graphdef_path import_graph flatbuffer).

  (** Unsupported arguments are refused before anything is done. *)
  Theorem C75_saved_rejects : forall eager o s, ~ valid eager o ->
    exists e, convert_saved eager o s = ([], inl e) /\ (eager = true -> e = ValueError).
  Proof.
    intros eager o s H. destruct (proj2 (validate_ok (Module := Module) eager o) H) as (e & E & F). exists e. split; [|exact F].
    unfold convert_saved_model, andThen. rewrite E. reflexivity.
  Qed.
  Theorem C75_keras_rejects : forall eager o (k : @keras Saved Graph),
    k_is_model k = false \/ (exists p, k_policy k = Some p /\ p <> "float32") \/ ~ valid eager o ->
    exists e, convert_keras eager o k = ([], inl e) /\ (eager = true -> e = ValueError).
  Proof.
    intros eager o k H. unfold convert_keras_model. destruct (k_is_model k); cbn [negb]; [|exists ValueError; auto].
    destruct H as [H | [(p & Hp & Hn) | H]]; [discriminate| |].
    - rewrite Hp. destruct (String.eqb_spec p "float32"); [contradiction|]. exists ValueError. auto.
    - destruct (match k_policy k with Some p => _ | None => _ end); [exists ValueError; auto|].
      destruct (proj2 (validate_ok (Module := Module) eager o) H) as (e & E & F). exists e. split; [|exact F]. unfold andThen. rewrite E. reflexivity.
  Qed.

  (** convert_saved_model succeeds exactly when every step does; the pipeline is
      then run once, for the target and range asked for, and its model is returned
      as it is if float32 was asked for on both sides. *)
  Theorem C75_saved_model : forall eager o s m tr,
    convert_saved eager o s = (tr, inr m) <->
    exists version t md n m0, valid eager o /\ parse_saved s = Some version /\ (version = 1 \/ version = 2) /\
      names_target (op_target o) t /\ import_saved s version = Some md /\ num_inputs (entries md) = Some n /\
      flatbuffer md t (saved_specs n o) = Some m0 /\ retyped o m0 m /\ tr = range_warning o ++ [Backend md t (saved_specs n o)].
  Proof.
    intros eager o s m tr. unfold convert_saved_model. split.
    - intros H. destruct (run_split _ _ _ H) as [Ef Es]. clear H.
      pose proof (validate_ok (Module := Module) eager o) as [Hv Hn].
      apply then_inr in Es. destruct Es as (u & Eu & Es). destruct u.
      assert (Hval : valid eager o).
      { destruct (op_in o) eqn:Ei, (op_out o) eqn:Eo; unfold validate in Eu; rewrite ?Ei, ?Eo in Eu; cbn -[String.eqb] in Eu; try discriminate;
        (destruct (String.eqb (op_target o) "arm" || String.eqb (op_target o) "xcore") eqn:Et; cbn [negb] in Eu; [|discriminate]; destruct eager; [|discriminate];
         unfold valid, supported; rewrite Ei, Eo; split; [auto|split; [auto|split; [|reflexivity]]];
         apply orb_true_iff in Et; destruct Et as [E1 | E1]; apply String.eqb_eq in E1; rewrite E1; [exists ARM; left|exists XCORE; right]; auto). }
      rewrite (then_fst _ _ tt Eu) in Ef. rewrite (Hv Hval) in Ef. cbn [fst] in Ef.
      apply then_inr in Es. destruct Es as (version & Ep & Es). rewrite (then_fst _ _ version Ep), or_fst in Ef. apply or_inr in Ep. cbn [app] in Ef.
      destruct ((version =? 1) || (version =? 2)) eqn:Ever; cbn [negb] in Es, Ef; [|discriminate].
      apply then_inr in Es. destruct Es as (m0 & E0 & Es). rewrite (then_fst _ _ m0 E0) in Ef.
      unfold saved_to_flatbuffer in E0, Ef. apply then_inr in E0. destruct E0 as (t & Et & E0). rewrite (then_fst _ _ t Et), or_fst in Ef. apply or_inr in Et. cbn [app] in Ef.
      apply then_inr in E0. destruct E0 as (md & Em & E0). rewrite (then_fst _ _ md Em), or_fst in Ef. apply or_inr in Em. cbn [app] in Ef.
      apply then_inr in E0. destruct E0 as (n & En & E0). rewrite (then_fst _ _ n En), or_fst in Ef. apply or_inr in En. cbn [app] in Ef.
      unfold convert_module in E0, Ef. pose proof (num_inputs_pos _ _ En) as Hpos.
      assert (Esp : make_specs true n (op_range o) true = saved_specs n o) by (unfold make_specs, saved_specs; rewrite Z.max_r by lia; reflexivity). rewrite Esp in *.
      apply then_inr in E0. destruct E0 as (u & _ & E0). apply or_inr in E0.
      exists version, t, md, n, m0. split; [exact Hval|]. split; [exact Ep|]. split; [lia|]. split; [apply get_target_ok; exact Et|]. split; [exact Em|]. split; [exact En|]. split; [exact E0|]. split.
      + unfold retyped. rewrite io_requested_ok in Es. destruct (dtype_eqb (op_in o) DFloat32 && dtype_eqb (op_out o) DFloat32); cbn [negb] in Es.
        * injection Es as <-. reflexivity.
        * unfold set_io in Es. apply or_inr in Es. exact Es.
      + rewrite <- Ef. f_equal. rewrite E0. cbn. destruct (io_requested o); [|reflexivity]. unfold set_io. rewrite or_fst. reflexivity.
    - intros (version & t & md & n & m0 & Hval & Ep & Ever & Et & Em & En & E0 & Er & ->).
      apply get_target_ok in Et. pose proof (num_inputs_pos _ _ En) as Hpos.
      assert (Esp : make_specs true n (op_range o) true = saved_specs n o) by (unfold make_specs, saved_specs; rewrite Z.max_r by lia; reflexivity).
      apply (then_run _ _ tt); [exact (proj1 (validate_ok eager o) Hval)|]. rewrite (then_or _ _ version) by exact Ep.
      replace ((version =? 1) || (version =? 2)) with true by lia. cbn [negb].
      change ([Backend md t (saved_specs n o)]) with ([Backend md t (saved_specs n o)] ++ []). apply (then_run _ _ m0).
      + unfold saved_to_flatbuffer. rewrite (then_or _ _ t) by exact Et. rewrite (then_or _ _ md) by exact Em. rewrite (then_or _ _ n) by exact En.
        unfold convert_module. rewrite Esp. cbv zeta. apply (then_run _ [Backend md t (saved_specs n o)] tt _ []); [reflexivity|]. rewrite E0. reflexivity.
      + unfold retyped in Er. rewrite io_requested_ok. destruct (dtype_eqb (op_in o) DFloat32 && dtype_eqb (op_out o) DFloat32); cbn [negb].
        * subst. reflexivity.
        * unfold set_io. rewrite Er. reflexivity.
  Qed.

  (** Whatever fails along the way, the pipeline is only ever run for the target
      asked for, with exactly the range asked for, and quantising if there is one. *)
  Lemma in_then {A B} x (p : @run Module A) (f : A -> run B) : In x (fst (andThen p f)) -> In x (fst p) \/ exists a, snd p = inr a /\ In x (fst (f a)).
  Proof. unfold andThen. destruct (snd p) as [e|a]; cbn [fst]; intros H; [left; exact H|]. apply in_app_or in H. destruct H as [H | H]; [left; exact H|right; exists a; auto]. Qed.
  Definition as_asked (o : options) (x : @event Module) : Prop :=
    forall md t sp, x = Backend md t sp -> names_target (op_target o) t /\ sp_default sp = op_range o /\ (op_range o <> None -> sp_qint8 sp = true).
  Lemma validate_events eager o x : In x (fst (validate eager o)) -> as_asked o x.
  Proof.
    unfold validate. repeat match goal with |- context [if negb ?c then _ else _] => destruct (negb c); [intros []|] end. destruct (op_range o); [|intros []]. intros [<- | []] md t sp E. discriminate.
  Qed.
  Lemma module_events o md t n q p x : names_target (op_target o) t -> (op_range o <> None -> q = true) ->
    In x (fst (convert_module flatbuffer md t (op_range o) n q p)) -> as_asked o x.
  Proof.
    intros Ht Hq H. unfold convert_module in H. apply in_then in H. destruct H as [[<- | []] | (u & _ & H)]; [|rewrite or_fst in H; destruct H].
    intros md' t' sp' E. injection E as <- <- <-. split; [exact Ht|]. unfold make_specs. destruct q; cbn; [auto|]. destruct (op_range o); [|split; [reflexivity|intros H; contradiction]].
    assert (false = true) by (apply Hq; discriminate). discriminate.
  Qed.
  Lemma saved_events eager o s x : In x (fst (convert_saved eager o s)) -> as_asked o x.
  Proof.
    intros H. unfold convert_saved_model in H. apply in_then in H. destruct H as [H | (u & _ & H)]; [exact (validate_events _ _ _ H)|].
    apply in_then in H. destruct H as [H | (version & _ & H)]; [rewrite or_fst in H; destruct H|]. destruct (negb _); [destruct H|].
    apply in_then in H. destruct H as [H | (m & _ & H)].
    - unfold saved_to_flatbuffer in H. apply in_then in H. destruct H as [H | (t & Et & H)]; [rewrite or_fst in H; destruct H|]. apply or_inr, get_target_ok in Et.
      apply in_then in H. destruct H as [H | (md & _ & H)]; [rewrite or_fst in H; destruct H|].
      apply in_then in H. destruct H as [H | (n & _ & H)]; [rewrite or_fst in H; destruct H|].
      exact (module_events o md t n true true x Et (fun _ => eq_refl) H).
    - destruct (io_requested o); [unfold set_io in H; rewrite or_fst in H|]; destruct H.
  Qed.
  Lemma fallback_events o (k : @keras Saved Graph) x : In x (fst (fallback o k)) -> as_asked o x.
  Proof.
    intros H. unfold graphdef_path in H. apply in_then in H. destruct H as [H | (fz & _ & H)]; [rewrite or_fst in H; destruct H|].
    apply in_then in H. destruct H as [H | (sh & _ & H)]; [rewrite (each_fst _ fix_fst) in H; destruct H|].
    apply in_then in H. destruct H as [H | (ar & _ & H)]; [rewrite (each_fst _ toarr_fst) in H; destruct H|].
    apply in_then in H. destruct H as [H | (m & _ & H)].
    - unfold graphdef_to_flatbuffer in H. apply in_then in H. destruct H as [H | (t & Et & H)]; [rewrite or_fst in H; destruct H|]. apply or_inr, get_target_ok in Et.
      apply in_then in H. destruct H as [H | (md & _ & H)]; [rewrite or_fst in H; destruct H|].
      eapply module_events; [exact Et| |exact H]. intros Hr. apply orb_true_iff. right. destruct (op_range o); [reflexivity|contradiction].
    - destruct (_ && io_requested o); [unfold set_io in H; rewrite or_fst in H|]; destruct H.
  Qed.
  Theorem C75_pipeline_calls : forall eager o md t sp,
    (forall s, In (Backend md t sp) (fst (convert_saved eager o s)) ->
       names_target (op_target o) t /\ sp_default sp = op_range o /\ (op_range o <> None -> sp_qint8 sp = true)) /\
    (forall k : @keras Saved Graph, In (Backend md t sp) (fst (convert_keras eager o k)) ->
       names_target (op_target o) t /\ sp_default sp = op_range o /\ (op_range o <> None -> sp_qint8 sp = true)).
  Proof.
    intros eager o md t sp. split.
    - intros s H. exact (saved_events eager o s _ H md t sp eq_refl).
    - intros k H. unfold convert_keras_model in H. destruct (negb _); [destruct H|]. destruct (match k_policy k with Some p => _ | None => _ end); [destruct H|].
      apply in_then in H. destruct H as [H | (u & _ & H)]; [exact (validate_events _ _ _ H md t sp eq_refl)|].
      assert (Hs : forall x, In x (fst (do s <- orRaise (k_save k) OtherError; do _ <- emit Save; convert_saved eager o s)) -> as_asked o x).
      { intros x Hx. apply in_then in Hx. destruct Hx as [Hx | (s & _ & Hx)]; [rewrite or_fst in Hx; destruct Hx|].
        apply in_then in Hx. destruct Hx as [[<- | []] | (v & _ & Hx)]; [intros ? ? ? E; discriminate|]. exact (saved_events eager o s x Hx). }
      unfold except in H. destruct (snd _) as [e|m]; [|exact (Hs _ H md t sp eq_refl)]. cbn [fst] in H. apply in_app_or in H. destruct H as [H | H]; [exact (Hs _ H md t sp eq_refl)|].
      apply in_then in H. destruct H as [[H | []] | (v & _ & H)]; [discriminate|]. exact (fallback_events o k _ H md t sp eq_refl).
  Qed.

  (** The fallback of convert_keras_model: every input but resources is described
      to the importer with a completely known shape (a scalar's is left open), and
      the requested types are applied only if the graph is quantised. *)
  Theorem C75_graphdef : forall o (k : @keras Saved Graph) m tr,
    fallback o k = (tr, inr m) <->
    exists fz q args t md m0, k_trace k = Some fz /\
      (q = true <-> trained_quantised fz \/ exists r, op_range o = Some r) /\
      Forall2 describes (data_inputs fz) args /\ names_target (op_target o) t /\ import_graph (f_graph fz) args (f_outputs fz) = Some md /\
      flatbuffer md t (graph_specs q (zlen args) o) = Some m0 /\
      (if q then retyped o m0 m else m = m0) /\ tr = [Backend md t (graph_specs q (zlen args) o)].
  Proof.
    intros o k m tr. unfold graphdef_path. split.
    - intros H. destruct (run_split _ _ _ H) as [Ef Es]. clear H.
      apply then_inr in Es. destruct Es as (fz & Ek & Es). rewrite (then_fst _ _ fz Ek), or_fst in Ef. apply or_inr in Ek. cbn [app] in Ef.
      set (q := contains_training_quant_op _ _ || _) in *. fold (data_inputs fz) in *.
      assert (Hq : q = true <-> trained_quantised fz \/ exists r, op_range o = Some r).
      { unfold q. rewrite orb_true_iff, training_ok. destruct (op_range o) as [r|]; cbn; split; intros [H | H]; auto; try discriminate; [right; exists r; reflexivity|destruct H as [r H]; discriminate]. }
      apply then_inr in Es. destruct Es as (shapes & E1 & Es). rewrite (then_fst _ _ shapes E1), (each_fst _ fix_fst) in Ef. apply each_inr in E1. cbn [app] in Ef.
      apply then_inr in Es. destruct Es as (arrays & E2 & Es). rewrite (then_fst _ _ arrays E2), (each_fst _ toarr_fst) in Ef. apply each_inr in E2. cbn [app] in Ef.
      assert (Hd : Forall2 describes (data_inputs fz) (map described arrays)) by (apply (arrays_ok (Module := Module)); exists shapes, arrays; auto).
      apply then_inr in Es. destruct Es as (m0 & E0 & Es). rewrite (then_fst _ _ m0 E0) in Ef. unfold graphdef_to_flatbuffer in E0, Ef.
      apply then_inr in E0. destruct E0 as (t & Et & E0). rewrite (then_fst _ _ t Et), or_fst in Ef. apply or_inr in Et. cbn [app] in Ef.
      apply then_inr in E0. destruct E0 as (md & Em & E0). rewrite (then_fst _ _ md Em), or_fst in Ef. apply or_inr in Em. cbn [app] in Ef.
      unfold convert_module in E0, Ef. assert (Esp : make_specs q (zlen arrays) (op_range o) false = graph_specs q (zlen (map described arrays)) o).
      { unfold make_specs, graph_specs. destruct q; [|reflexivity]. unfold zlen. rewrite map_length, Z.max_r by lia. destruct (op_range o); reflexivity. }
      rewrite Esp in *. apply then_inr in E0. destruct E0 as (u & _ & E0). apply or_inr in E0.
      exists fz, q, (map described arrays), t, md, m0. split; [exact Ek|]. split; [exact Hq|]. split; [exact Hd|]. split; [apply get_target_ok; exact Et|]. split; [exact Em|]. split; [exact E0|]. split.
      + rewrite io_requested_ok in Es. destruct q; cbn [andb] in Es; [|injection Es as <-; reflexivity]. unfold retyped.
        destruct (dtype_eqb (op_in o) DFloat32 && dtype_eqb (op_out o) DFloat32); cbn [negb] in Es; [injection Es as <-; reflexivity|unfold set_io in Es; apply or_inr in Es; exact Es].
      + rewrite <- Ef, E0. cbn. destruct (q && io_requested o); [unfold set_io; rewrite or_fst|]; reflexivity.
    - intros (fz & q & args & t & md & m0 & Ek & Hq & Hd & Et & Em & E0 & Er & ->). apply get_target_ok in Et. rewrite (then_or _ _ fz) by exact Ek. fold (data_inputs fz).
      assert (Eq : contains_training_quant_op (f_nodes fz) (f_functions fz) || negb (is_none (op_range o)) = q).
      { apply eq_true_iff_eq. rewrite Hq, orb_true_iff, training_ok. destruct (op_range o) as [r|]; cbn; split; intros [H | H]; auto; try discriminate; [right; exists r; reflexivity|destruct H as [r H]; discriminate]. }
      rewrite Eq. cbv zeta. apply (arrays_ok (Module := Module)) in Hd. destruct Hd as (shapes & arrays & H1 & H2 & ->).
      assert (Esp : make_specs q (zlen arrays) (op_range o) false = graph_specs q (zlen (map described arrays)) o).
      { unfold make_specs, graph_specs. destruct q; [|reflexivity]. unfold zlen. rewrite map_length, Z.max_r by lia. destruct (op_range o); reflexivity. }
      rewrite <- Esp in *. set (sp := make_specs q (zlen arrays) (op_range o) false) in *.
      change [Backend md t sp] with ([] ++ ([] ++ ([Backend md t sp] ++ @nil event))). apply (then_run _ _ shapes).
      { apply each_inr in H1. rewrite (surjective_pairing (each _ _)), H1, (each_fst _ fix_fst). reflexivity. }
      apply (then_run _ _ arrays).
      { apply each_inr in H2. rewrite (surjective_pairing (each _ _)), H2, (each_fst _ toarr_fst). reflexivity. }
      apply (then_run _ _ m0).
      + unfold graphdef_to_flatbuffer. rewrite (then_or _ _ t) by exact Et. rewrite (then_or _ _ md) by exact Em. unfold convert_module. fold sp. cbv zeta.
        apply (then_run _ [Backend md t sp] tt _ []); [reflexivity|]. rewrite E0. reflexivity.
      + rewrite io_requested_ok. destruct q; cbn [andb]; [|subst; reflexivity]. unfold retyped in Er.
        destruct (dtype_eqb (op_in o) DFloat32 && dtype_eqb (op_out o) DFloat32); cbn [negb]; [subst; reflexivity|unfold set_io; rewrite Er; reflexivity].
  Qed.

  (** convert_keras_model is the SavedModel conversion if that succeeds, whatever
      the fallback would do, and the fallback otherwise. *)
  Theorem C75_keras : forall eager o (k : @keras Saved Graph),
    k_is_model k = true -> (forall p, k_policy k = Some p -> p = "float32") -> valid eager o ->
    (forall s m, k_save k = Some s -> snd (convert_saved eager o s) = inr m -> snd (convert_keras eager o k) = inr m) /\
    ((k_save k = None \/ exists s e, k_save k = Some s /\ snd (convert_saved eager o s) = inl e) ->
       snd (convert_keras eager o k) = snd (fallback o k)).
  Proof.
    intros eager o k Hk Hp Hv. unfold convert_keras_model. rewrite Hk. cbn [negb].
    assert (Epol : match k_policy k with Some p => negb (String.eqb p "float32") | None => false end = false).
    { destruct (k_policy k) as [p|]; [|reflexivity]. rewrite (Hp p eq_refl). reflexivity. }
    rewrite Epol. unfold andThen at 1. rewrite (proj1 (validate_ok (Module := Module) eager o) Hv). cbn [snd fst]. split.
    - intros s m Es Em. rewrite Es. unfold except. rewrite (then_or _ _ s) by reflexivity. unfold andThen. cbn [emit fst snd]. rewrite Em. reflexivity.
    - intros H. unfold except. assert (Hf : snd (do _ <- emit WarnFallback; fallback o k) = snd (fallback o k)) by reflexivity.
      destruct H as [-> | (s & e & -> & Ee)].
      + cbn [orRaise raise andThen snd fst]. exact Hf.
      + rewrite (then_or _ _ s) by reflexivity. change (snd (andThen (emit Save) (fun _ => convert_saved eager o s))) with (snd (convert_saved eager o s)). rewrite Ee. exact Hf.
  Qed.
End Theorems.
Print Assumptions C75_input_count.
Print Assumptions C75_saved_rejects.
Print Assumptions C75_keras_rejects.
Print Assumptions C75_saved_model.
Print Assumptions C75_pipeline_calls.
Print Assumptions C75_graphdef.
Print Assumptions C75_keras.

(** ** The requested types *)
(** A pipeline result the retyping can work on: references are to tensors, single
    assignment, Quantize and Dequantize are unary, a float input that is quantised
    is used for nothing else, a dequantised output is not read again. *)
Record io_ready {V} (m : @tfmodel V) (g : @graph V) : Prop := {
  ir_first : rd (m_graphs m) 0 = Some g;
  ir_refs : refs_in_range g;
  ir_ssa : ssa g;
  ir_q : unary (qcode m) g;
  ir_d : unary (dcode m) g;
  ir_in : forall o e i, input_op (qcode m) g o e i -> ~ In e (g_out g) /\ forall o', In o' (g_ops g) -> In e (o_in o') -> o' = o;
  ir_out : forall o e i o', output_op (dcode m) g o e i -> In o' (g_ops g) -> ~ In e (o_in o')
}.
Definition quantised_input {V} (m : @tfmodel V) (g : @graph V) (e : Z) : Prop := exists o i, input_op (qcode m) g o e i.
Definition dequantised_output {V} (m : @tfmodel V) (g : @graph V) (e : Z) : Prop := exists o i, output_op (dcode m) g o e i.

Lemma in_rd {A} (l : list A) x : In x l -> exists k, rd l k = Some x.
Proof.
  intros H. apply In_nth_error in H. destruct H as [n Hn]. exists (Z.of_nat n). unfold rd. destruct (Z.ltb_spec (Z.of_nat n) 0); [lia|]. rewrite Nat2Z.id. exact Hn.
Qed.
Lemma modify_types {V} (m m' : @tfmodel V) a b g : io_ready m g -> modify_io m a b = Some m' ->
  exists g', rd (m_graphs m') 0 = Some g' /\ zlen (g_in g') = zlen (g_in g) /\ zlen (g_out g') = zlen (g_out g) /\
    (forall k e, rd (g_in g) k = Some e -> exists e', rd (g_in g') k = Some e' /\
       (a = true -> quantised_input m g e -> type_at g' e' (fun t => t = INT8)) /\
       (a = false \/ ~ quantised_input m g e -> rd (g_tensors g') e' = rd (g_tensors g) e)) /\
    (forall k e, rd (g_out g) k = Some e -> exists e', rd (g_out g') k = Some e' /\
       (b = true -> dequantised_output m g e -> type_at g' e' (fun t => t = INT8)) /\
       (b = false \/ ~ dequantised_output m g e -> rd (g_tensors g') e' = rd (g_tensors g) e)).
Proof.
  intros [Hg W SS Uq Ud Hi Ho] Hm. pose (sem := fun (_ : Z * Z) (_ : list (option (@tensor V * V))) (_ : list (@tensor V)) => @None (list V)).
  destruct (modify_struct sem m m' a b g Hg Hm W Uq Ud (fun _ => Hi) (fun _ => Ho)) as (kinds & P & Eg & _ & _ & Bi & Bo).
  destruct (strip_struct sem g (m_sigs m) kinds W SS P) as (ri & ro & R & HR & HRd & HRr & R1 & R2 & R3 & R4 & Hrefs & sg1 & Est).
  set (gm := {| g_tensors := _ |}) in *. pose proof (remove_tensors_spec gm sg1 R HRd HRr) as Spec. rewrite Est in Eg.
  destruct (remove_tensors gm sg1 R) as [g' s1]. cbn [fst] in Eg. cbn zeta in Spec. destruct Spec as (_ & Ht & Ei & Eo & _ & _).
  destruct Hrefs as (F1 & F2 & _). cbn [g_tensors g_in g_out g_ops gm] in *. set (n := zlen (g_tensors g)) in *.
  assert (Hw : forall i, strict_ok n R i -> ref_ok n R i) by (intros i H; right; exact H).
  specialize (Ei ltac:(eapply Forall_impl; [exact Hw|exact F1])). specialize (Eo ltac:(eapply Forall_impl; [exact Hw|exact F2])).
  assert (Hcl : exists kinds0, all_some (map (classify (qcode m) (dcode m) g) (g_ops g)) = Some kinds0).
  { unfold modify_io, readable in Hm. rewrite Hg in Hm. cbn [bind] in Hm. destruct (rd (g_in g) 0); [|discriminate]. cbn [bind] in Hm. unfold qcode, dcode.
    destruct (quant_codes m) as [[q|] [d|]]; cbn [fst snd]; try discriminate; (destruct (all_some (map (classify _ _ g) (g_ops g))) as [k0|]; [exists k0; reflexivity|discriminate]). }
  destruct Hcl as (kinds0 & Hk0).
  assert (Ti : forall o e i, input_op (qcode m) g o e i -> type_at g i (fun t => t = INT8)).
  { intros o e i Hop. assert (Hin : In o (g_ops g)) by apply Hop. destruct (all_some_map_in _ _ _ o Hk0 Hin) as (k & Ek & _).
    destruct (classify_inv m false false g W Uq Ud ltac:(discriminate) ltac:(discriminate) o k Hin Ek) as [(e' & i' & _ & (_ & _ & Y1 & Y2 & _) & _ & _ & T)|[(e' & i' & _ & (_ & Y & _) & _)|(_ & H1 & _)]].
    - destruct Hop as (_ & _ & X1 & X2 & _). rewrite X2 in Y2. injection Y2 as <-. exact T.
    - exfalso. destruct Hop as (_ & Hc & _). destruct (quant_codes_ok m o) as [Q D]. destruct (Q Hc) as (c1 & E1 & G1). destruct (D Y) as (c2 & E2 & G2). rewrite E1 in E2. injection E2 as <-. rewrite G1 in G2. discriminate.
    - exfalso. exact (H1 e i Hop). }
  assert (To : forall o e i, output_op (dcode m) g o e i -> type_at g i (fun t => t = INT8)).
  { intros o e i Hop. assert (Hin : In o (g_ops g)) by apply Hop. destruct (all_some_map_in _ _ _ o Hk0 Hin) as (k & Ek & _).
    destruct (classify_inv m false false g W Uq Ud ltac:(discriminate) ltac:(discriminate) o k Hin Ek) as [(e' & i' & _ & (_ & Y & _) & _)|[(e' & i' & _ & (_ & _ & Y1 & Y2 & _) & _ & _ & T)|(_ & _ & H1)]].
    - exfalso. destruct Hop as (_ & Hc & _). destruct (quant_codes_ok m o) as [Q D]. destruct (Q Y) as (c1 & E1 & G1). destruct (D Hc) as (c2 & E2 & G2). rewrite E1 in E2. injection E2 as <-. rewrite G1 in G2. discriminate.
    - destruct Hop as (_ & _ & X1 & X2 & _). rewrite X1 in Y1. injection Y1 as <-. exact T.
    - exfalso. exact (H1 e i Hop). }
  assert (Lk := po_len g kinds P). rewrite Forall_forall in F1, F2.
  exists g'. split; [rewrite Eg; destruct (m_graphs m); [discriminate|reflexivity]|]. split; [rewrite Ei; unfold zlen; rewrite !map_length; reflexivity|]. split; [rewrite Eo; unfold zlen; rewrite !map_length; reflexivity|]. split.
  - intros k e Hk. exists (newidx R (ri e)). split; [rewrite Ei, !rd_map, Hk; reflexivity|].
    assert (Hs : strict_ok n R (ri e)) by (apply F1; apply in_map; exact (rd_in _ _ _ Hk)). split.
    + intros Ha (o & i & Hop). assert (E : ri e = i).
      { apply R1. assert (Hc : In (KIn e i, o) (combine kinds (g_ops g))) by (apply Bi; auto). exact (in_combine_l _ _ _ _ Hc). }
      rewrite E in *. destruct (Ti o e i Hop) as (t & T1 & T2). exists t. split; [rewrite (Ht i (proj2 Hs)); exact T1|exact T2].
    + intros Hn. rewrite (Ht (ri e) (proj2 Hs)). f_equal. apply R2. intros i Hki. destruct (in_combine_ops kinds (g_ops g) _ Lk Hki) as (o & Hc). apply Bi in Hc. destruct Hc as [Ha Hop].
      destruct Hn as [Hn | Hn]; [congruence|]. apply Hn. exists o, i. exact Hop.
  - intros k e Hk. exists (newidx R (ro e)). split; [rewrite Eo, !rd_map, Hk; reflexivity|].
    assert (Hs : strict_ok n R (ro e)) by (apply F2; apply in_map; exact (rd_in _ _ _ Hk)). split.
    + intros Ha (o & i & Hop). assert (E : ro e = i).
      { apply R3. assert (Hc : In (KOut e i, o) (combine kinds (g_ops g))) by (apply Bo; auto). exact (in_combine_l _ _ _ _ Hc). }
      rewrite E in *. destruct (To o e i Hop) as (t & T1 & T2). exists t. split; [rewrite (Ht i (proj2 Hs)); exact T1|exact T2].
    + intros Hn. rewrite (Ht (ro e) (proj2 Hs)). f_equal. apply R4. intros i Hki. destruct (in_combine_ops kinds (g_ops g) _ Lk Hki) as (o & Hc). apply Bo in Hc. destruct Hc as [Ha Hop].
      destruct Hn as [Hn | Hn]; [congruence|]. apply Hn. exists o, i. exact Hop.
Qed.

(** Retyping keeps the number and order of the inputs and outputs. A side for
    which int8 was asked is int8 wherever the pipeline quantised it; everywhere
    else the tensor is the pipeline's. *)
Theorem C75_types_by_position : forall V (m0 m : @tfmodel V) o g, io_ready m0 g -> retyped o m0 m ->
  exists g', rd (m_graphs m) 0 = Some g' /\ zlen (g_in g') = zlen (g_in g) /\ zlen (g_out g') = zlen (g_out g) /\
    (forall k e, rd (g_in g) k = Some e -> exists e', rd (g_in g') k = Some e' /\
       (op_in o = DInt8 -> quantised_input m0 g e -> type_at g' e' (fun t => t = INT8)) /\
       (op_in o <> DInt8 \/ ~ quantised_input m0 g e -> rd (g_tensors g') e' = rd (g_tensors g) e)) /\
    (forall k e, rd (g_out g) k = Some e -> exists e', rd (g_out g') k = Some e' /\
       (op_out o = DInt8 -> dequantised_output m0 g e -> type_at g' e' (fun t => t = INT8)) /\
       (op_out o <> DInt8 \/ ~ dequantised_output m0 g e -> rd (g_tensors g') e' = rd (g_tensors g) e)).
Proof.
  intros V m0 m o g Hr H. unfold retyped in H. destruct (dtype_eqb (op_in o) DFloat32 && dtype_eqb (op_out o) DFloat32) eqn:E.
  - subst. apply andb_true_iff in E. destruct E as [E1 E2]. apply dtype_eqb_eq in E1, E2. exists g. split; [apply Hr|]. split; [reflexivity|]. split; [reflexivity|].
    split; intros k e Hk; exists e; (split; [exact Hk|]); (split; [intros E; congruence|reflexivity]).
  - assert (Hb : forall t, t <> DInt8 -> dtype_eqb t DInt8 = false) by (intros [| | |] Ht; try reflexivity; contradiction).
    destruct (modify_types m0 m _ _ g Hr H) as (g' & H1 & H2 & H3 & H4 & H5). exists g'. split; [exact H1|]. split; [exact H2|]. split; [exact H3|]. split.
    + intros k e Hk. destruct (H4 k e Hk) as (e' & E1 & E2 & E3). exists e'. split; [exact E1|]. split.
      * intros Ht. apply E2. rewrite Ht. reflexivity.
      * intros [Hn | Hn]; apply E3; [left; apply Hb; exact Hn|right; exact Hn].
    + intros k e Hk. destruct (H5 k e Hk) as (e' & E1 & E2 & E3). exists e'. split; [exact E1|]. split.
      * intros Ht. apply E2. rewrite Ht. reflexivity.
      * intros [Hn | Hn]; apply E3; [left; apply Hb; exact Hn|right; exact Hn].
Qed.
Print Assumptions C75_types_by_position.

(** The first subgraph's inputs (outputs) all have type [t]. *)
Definition inputs_typed {V} (m : @tfmodel V) (t : Z) : Prop := exists g, rd (m_graphs m) 0 = Some g /\ Forall (fun i => type_at g i (fun x => x = t)) (g_in g).
Definition outputs_typed {V} (m : @tfmodel V) (t : Z) : Prop := exists g, rd (m_graphs m) 0 = Some g /\ Forall (fun i => type_at g i (fun x => x = t)) (g_out g).

(** So int8 is what the user gets on a side where the pipeline quantised every
    input (output). Every model either converter returns is of this form, [m0]
    being what the pipeline produced, unless the Keras fallback found nothing to
    quantise (C75_graphdef). *)
Theorem C75_requested_types : forall V (m0 m : @tfmodel V) o g, io_ready m0 g -> retyped o m0 m ->
  (op_in o = DInt8 -> (forall e, In e (g_in g) -> quantised_input m0 g e) -> inputs_typed m INT8) /\
  (op_out o = DInt8 -> (forall e, In e (g_out g) -> dequantised_output m0 g e) -> outputs_typed m INT8).
Proof.
  intros V m0 m o g Hr H. destruct (C75_types_by_position V m0 m o g Hr H) as (g' & H1 & H2 & H3 & H4 & H5). split; intros Ht Hall; exists g'; (split; [exact H1|]); apply Forall_forall; intros e' He'.
  - apply in_rd in He'. destruct He' as (k & Hk). assert (Hb := rd_bounds _ _ _ Hk). rewrite H2 in Hb. destruct (rd_some (g_in g) k Hb) as [e He].
    destruct (H4 k e He) as (e2 & E1 & E2 & _). rewrite Hk in E1. injection E1 as <-. exact (E2 Ht (Hall e (rd_in _ _ _ He))).
  - apply in_rd in He'. destruct He' as (k & Hk). assert (Hb := rd_bounds _ _ _ Hk). rewrite H3 in Hb. destruct (rd_some (g_out g) k Hb) as [e He].
    destruct (H5 k e He) as (e2 & E1 & E2 & _). rewrite Hk in E1. injection E1 as <-. exact (E2 Ht (Hall e (rd_in _ _ _ He))).
Qed.
Print Assumptions C75_requested_types.

(** ** The claim as written is refuted *)
Definition ft : @tensor Z := {| t_type := 0; t_const := None; t_meta := 0 |}.
Definition it : @tensor Z := {| t_type := 9; t_const := None; t_meta := 0 |}.
Definition mkop c a b := {| o_code := c; o_opts := 0; o_in := a; o_out := [b] |}.
Definition code_of b := {| c_builtin := b; c_custom := EmptyString |}.
(** A float model: RELU (19) from input 0 to output 1. *)
Definition float_m : @tfmodel Z :=
  {| m_codes := [code_of 19]; m_graphs := [{| g_tensors := [ft; ft]; g_in := [0]; g_out := [1]; g_ops := [mkop 0 [0] 1] |}]; m_sigs := [([0], [1])] |}.
(** One entry function with one input, a traced function with an unknown batch. *)
Definition one_entry (_ : unit) : list (option (option string)) := [None; Some (Some "x")].
Definition relu_fn : @frozen unit :=
  {| f_graph := tt; f_nodes := ["Placeholder"; "Relu"]; f_functions := []; f_inputs := [{| i_name := "x"; i_dtype := DFloat32; i_shape := Some [None; Some 4] |}]; f_outputs := ["y"] |}.
Definition relu_keras : @keras unit unit := {| k_is_model := true; k_policy := Some "float32"; k_save := Some tt; k_trace := Some relu_fn |}.
Definition int8_io : options := {| op_in := DInt8; op_out := DInt8; op_target := "arm"; op_range := None |}.
Definition const_back (m : @tfmodel Z) (_ : unit) (_ : lce_target) (_ : specs) : option (@tfmodel Z) := Some m.
Definition imp_s (_ : unit) (_ : Z) : option unit := Some tt.
Definition imp_g (_ : unit) (_ : list (string * dtype * option (list Z))) (_ : list string) : option unit := Some tt.

(** A Keras model without quantisation, int8 asked for on both sides:
    convert_saved_model reports that this is impossible; convert_keras_model
    catches that and returns the float model. *)
Theorem C75_int8_request_refuted : exists m, valid true int8_io /\
  snd (convert_saved_model (fun _ => Some 2) imp_s one_entry (const_back float_m) true int8_io tt) = inl ValueError /\
  snd (convert_keras_model (fun _ => Some 2) imp_s imp_g one_entry (const_back float_m) true int8_io relu_keras) = inr m /\
  inputs_typed m FLOAT32 /\ outputs_typed m FLOAT32 /\ ~ inputs_typed m INT8 /\ ~ outputs_typed m INT8.
Proof.
  exists float_m. split; [repeat split; try (right; reflexivity); exists ARM; left; split; reflexivity|]. split; [reflexivity|]. split; [reflexivity|].
  assert (Hg : forall g, rd (m_graphs float_m) 0 = Some g -> g = {| g_tensors := [ft; ft]; g_in := [0]; g_out := [1]; g_ops := [mkop 0 [0] 1] |}) by (intros g H; injection H as <-; reflexivity).
  split; [|split; [|split]].
  - eexists. split; [reflexivity|]. repeat constructor. exists ft. split; reflexivity.
  - eexists. split; [reflexivity|]. repeat constructor. exists ft. split; reflexivity.
  - intros (g & H & F). rewrite (Hg g H) in F. inversion F as [|? ? (t & E1 & E2) _]. cbn in E1. injection E1 as <-. discriminate.
  - intros (g & H & F). rewrite (Hg g H) in F. inversion F as [|? ? (t & E1 & E2) _]. cbn in E1. injection E1 as <-. discriminate.
Qed.
Print Assumptions C75_int8_request_refuted.

(** Two inputs, one of which the pipeline quantised: int8 was asked for, the
    other input stays float32 and nothing is reported. *)
Definition mixed_g : @graph Z := {| g_tensors := [ft; ft; it; it; ft]; g_in := [0; 1]; g_out := [4];
  g_ops := [mkop 0 [0] 2; mkop 2 [2; 1] 3; mkop 1 [3] 4] |}.
Definition mixed_m : @tfmodel Z := {| m_codes := [code_of 114; code_of 6; code_of 0]; m_graphs := [mixed_g]; m_sigs := [([0; 1], [4])] |}.
Definition mixed_g' : @graph Z := {| g_tensors := [ft; it; it]; g_in := [1; 0]; g_out := [2]; g_ops := [mkop 2 [1; 0] 2] |}.
Lemma mixed_ready : io_ready mixed_m mixed_g.
Proof.
  assert (Hq : qcode mixed_m = Some 0) by reflexivity. assert (Hd : dcode mixed_m = Some 1) by reflexivity.
  constructor; rewrite ?Hq, ?Hd.
  - reflexivity.
  - unfold refs_in_range, in_range. cbn. repeat (constructor; try lia; cbn).
  - split; [|split].
    + cbn. repeat (constructor; [cbn; intuition discriminate|]). constructor.
    + cbn. repeat (constructor; [cbn; intuition discriminate|]). constructor.
    + cbn. intros i H. destruct H as [<- | [<- | [<- | []]]]; (split; [intuition discriminate|reflexivity]).
  - intros o H Hc. cbn in H. destruct H as [<- | [<- | [<- | []]]]; try discriminate. exists 0, 2. repeat split; discriminate.
  - intros o H Hc. cbn in H. destruct H as [<- | [<- | [<- | []]]]; try discriminate. exists 3, 4. repeat split; discriminate.
  - intros o e i (Ho & Hc & H1 & H2 & H3). cbn in Ho. destruct Ho as [<- | [<- | [<- | []]]]; try discriminate. injection H1 as <-. split; [cbn; intuition discriminate|].
    intros o' Ho' Hi. cbn in Ho'. destruct Ho' as [<- | [<- | [<- | []]]]; try reflexivity; cbn in Hi; intuition discriminate.
  - intros o e i o' (Ho & Hc & H1 & H2 & H3) Ho'. cbn in Ho. destruct Ho as [<- | [<- | [<- | []]]]; try discriminate. injection H2 as <-.
    cbn in Ho'. destruct Ho' as [<- | [<- | [<- | []]]]; cbn; intuition discriminate.
Qed.
Theorem C75_mixed_inputs_refuted : exists m, valid true int8_io /\ io_ready mixed_m mixed_g /\
  snd (convert_saved_model (fun _ => Some 2) imp_s one_entry (const_back mixed_m) true int8_io tt) = inr m /\
  rd (m_graphs m) 0 = Some mixed_g' /\ type_at mixed_g' 1 (fun t => t = INT8) /\ type_at mixed_g' 0 (fun t => t = FLOAT32) /\ ~ inputs_typed m INT8.
Proof.
  exists {| m_codes := m_codes mixed_m; m_graphs := [mixed_g']; m_sigs := [([1; 0], [2])] |}.
  split; [repeat split; try (right; reflexivity); exists ARM; left; split; reflexivity|]. split; [exact mixed_ready|]. split; [reflexivity|]. split; [reflexivity|].
  split; [exists it; split; reflexivity|]. split; [exists ft; split; reflexivity|].
  intros (g & H & F). injection H as <-. inversion F as [|? ? _ F2]. inversion F2 as [|? ? (t & E1 & E2) _]. cbn in E1. injection E1 as <-. discriminate.
Qed.
Print Assumptions C75_mixed_inputs_refuted.

(** ** A case the positive theorems apply to: one quantised input, one output. *)
Definition q_g : @graph Z := {| g_tensors := [ft; it; it; ft]; g_in := [0]; g_out := [3]; g_ops := [mkop 0 [0] 1; mkop 2 [1] 2; mkop 1 [2] 3] |}.
Definition q_m : @tfmodel Z := {| m_codes := [code_of 114; code_of 6; code_of 19]; m_graphs := [q_g]; m_sigs := [([0], [3])] |}.
Example C75_case : io_ready q_m q_g /\ (forall e, In e (g_in q_g) -> quantised_input q_m q_g e) /\ (forall e, In e (g_out q_g) -> dequantised_output q_m q_g e) /\
  convert_keras_model (fun _ => Some 1) imp_s imp_g one_entry (const_back q_m) true int8_io relu_keras =
    ([Save; Backend tt ARM {| sp_qint8 := true; sp_inputs := 1; sp_default := None; sp_ptq := false |}],
     inr {| m_codes := m_codes q_m; m_graphs := [{| g_tensors := [it; it]; g_in := [0]; g_out := [1]; g_ops := [mkop 2 [0] 1] |}]; m_sigs := [([0], [1])] |}).
Proof.
  assert (Hq : qcode q_m = Some 0) by reflexivity. assert (Hd : dcode q_m = Some 1) by reflexivity.
  split; [|split; [|split; [|reflexivity]]].
  - constructor; rewrite ?Hq, ?Hd.
    + reflexivity.
    + unfold refs_in_range, in_range. cbn. repeat (constructor; try lia; cbn).
    + split; [|split].
      * cbn. repeat (constructor; [cbn; intuition discriminate|]). constructor.
      * cbn. repeat (constructor; [cbn; intuition discriminate|]). constructor.
      * cbn. intros i H. destruct H as [<- | [<- | [<- | []]]]; (split; [intuition discriminate|reflexivity]).
    + intros o H Hc. cbn in H. destruct H as [<- | [<- | [<- | []]]]; try discriminate. exists 0, 1. repeat split; discriminate.
    + intros o H Hc. cbn in H. destruct H as [<- | [<- | [<- | []]]]; try discriminate. exists 2, 3. repeat split; discriminate.
    + intros o e i (Ho & Hc & H1 & H2 & H3). cbn in Ho. destruct Ho as [<- | [<- | [<- | []]]]; try discriminate. injection H1 as <-. split; [cbn; intuition discriminate|].
      intros o' Ho' Hi. cbn in Ho'. destruct Ho' as [<- | [<- | [<- | []]]]; try reflexivity; cbn in Hi; intuition discriminate.
    + intros o e i o' (Ho & Hc & H1 & H2 & H3) Ho'. cbn in Ho. destruct Ho as [<- | [<- | [<- | []]]]; try discriminate. injection H2 as <-.
      cbn in Ho'. destruct Ho' as [<- | [<- | [<- | []]]]; cbn; intuition discriminate.
  - intros e [<- | []]. exists (mkop 0 [0] 1), 1. rewrite Hq. unfold input_op. cbn. intuition.
  - intros e [<- | []]. exists (mkop 1 [2] 3), 2. rewrite Hd. unfold output_op. cbn. intuition.
Qed.
(** The fallback: saving fails, a batch dimension is unknown, a range is given;
    the importer sees the shape [1; 4]. *)
Definition only_1_4 (_ : unit) (args : list (string * dtype * option (list Z))) (_ : list string) : option unit :=
  match args with [("x", DFloat32, Some [1; 4])] => Some tt | _ => None end.
Example C75_fallback_case :
  convert_keras_model (fun _ => Some 1) imp_s only_1_4 one_entry (const_back q_m) true {| op_in := DFloat32; op_out := DFloat32; op_target := "xcore"; op_range := Some ((-3)%Q, 3%Q) |}
    {| k_is_model := true; k_policy := None; k_save := None; k_trace := Some relu_fn |} =
  ([WarnRange; WarnFallback; Backend tt XCORE {| sp_qint8 := true; sp_inputs := 1; sp_default := Some ((-3)%Q, 3%Q); sp_ptq := false |}], inr q_m).
Proof. reflexivity. Qed.
(** Nothing happens when an argument is unsupported. *)
Example C75_reject_case :
  ~ valid true {| op_in := DOther; op_out := DInt8; op_target := "arm"; op_range := None |} /\ ~ valid true {| op_in := DInt8; op_out := DInt8; op_target := "x86"; op_range := None |}.
Proof.
  split; [intros ([H | H] & _); discriminate|]. intros (_ & _ & (t & [[H _] | [H _]]) & _); discriminate.
Qed.
