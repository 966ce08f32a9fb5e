(** * Property C80: what the interpreter object reports about a model is what predict
    accepts and returns. *)
From Verif Require Import Base Spec Float32 Accessors.
From Coq Require Import SpecFloat QArith.
Open Scope Z_scope.

(** ** What is asked of numpy and TFLite *)
(** Bytes of one element; strings have no fixed size. *)
Definition item (t : ttype) : option Z :=
  match t with
  | TF32 | TI32 => Some 4 | TU8 | TI8 | TBool => Some 1 | TI16 => Some 2 | TI64 => Some 8
  | TStr | TNone | TOther _ => None
  end.
Definition elements (shape : list Z) : Z := fold_right Z.mul 1 shape.
(** TFLite allocates, and numpy holds, one item per element. *)
Definition sized (t : tensor) : Prop := forall k, item (t_type t) = Some k -> t_bytes t = k * elements (t_dims t).
Definition numpy (a : array) : Prop := forall k, item (type_of_py (a_dtype a)) = Some k -> zlen (a_bytes a) = k * elements (a_shape a).

(** ** Proofs *)
Lemma set_ok st ids l st' : NoDup ids -> length l = length ids -> set_inputs ids l st = (true, st') ->
  Forall2 (fun i a => exists t, set_tensor (st i) a = Some t) ids l /\
  (forall n i a, nth_error ids n = Some i -> nth_error l n = Some a -> st' i = set_raw (st i) (a_bytes a)) /\
  (forall j, ~ In j ids -> st' j = st j).
Proof.
  revert l st. induction ids as [|i ids IH]; intros [|a l] st ND HL H; try discriminate.
  - injection H as <-. split; [constructor|]. split; [intros [|n] ? ? E; discriminate|reflexivity].
  - cbn [set_inputs] in H. destruct (set_tensor (st i) a) as [t|] eqn:E; [|discriminate].
    inversion ND as [|? ? N1 N2]; subst. destruct (IH l (upd st i t) N2 ltac:(simpl in HL; lia) H) as (A & B & C).
    assert (Et : t = set_raw (st i) (a_bytes a)).
    { unfold set_tensor in E. destruct (negb _); [discriminate|]. destruct (negb _); [discriminate|]. destruct (negb _); [discriminate|]. destruct (negb _); [discriminate|].
      now injection E. }
    assert (U : forall j, j <> i -> upd st i t j = st j) by (intros j Hj; unfold upd; destruct (Z.eqb_spec j i); congruence).
    assert (Ui : upd st i t i = t) by (unfold upd; now rewrite Z.eqb_refl).
    assert (V : forall l', Forall2 (fun j b => exists t', set_tensor (upd st i t j) b = Some t') ids l' -> Forall2 (fun j b => exists t', set_tensor (st j) b = Some t') ids l').
    { clear - N1 U. intros l' F. induction F as [|j b ids l' Hj F IHF]; [constructor|]. constructor.
      - rewrite U in Hj; [exact Hj|]. intros ->. apply N1. now left.
      - apply IHF. intros Hin. apply N1. now right. }
    split; [constructor; [exists t; exact E|exact (V _ A)]|]. split.
    + intros [|n] j b Hj Hb; cbn in Hj, Hb.
      * injection Hj as <-. injection Hb as <-. rewrite (C i N1), Ui. exact Et.
      * rewrite (B n j b Hj Hb), U; [reflexivity|]. intros ->. apply N1. eapply nth_error_In. exact Hj.
    + intros j Hj. rewrite C, U; [reflexivity| |]; intros K; apply Hj; [subst; now left|now right].
Qed.
Lemma set_fail ids l st : NoDup ids -> (exists st', set_inputs ids l st = (false, st')) \/ (exists st', set_inputs ids l st = (true, st')).
Proof. intros _. destruct (set_inputs ids l st) as [[|] st']; [right|left]; exists st'; reflexivity. Qed.
Lemma set_all ids l st : NoDup ids -> Forall2 (fun i a => exists t, set_tensor (st i) a = Some t) ids l -> exists st', set_inputs ids l st = (true, st').
Proof.
  revert l st. induction ids as [|i ids IH]; intros l st ND F; inversion F as [|? a ? l' [t Ht] F']; subst.
  - exists st. reflexivity.
  - cbn [set_inputs]. rewrite Ht. inversion ND as [|? ? N1 N2]; subst. apply IH; [exact N2|].
    clear - N1 F'. induction F' as [|j b ids l' Hj F' IHF]; [constructor|]. constructor.
    + unfold upd. destruct (Z.eqb_spec j i); [exfalso; apply N1; subst; now left|exact Hj].
    + apply IHF. intros Hin. apply N1. now right.
Qed.
(** What the failed calls leave: only the contents of input tensors can have changed. *)
Lemma set_leaves ids l st b st' : set_inputs ids l st = (b, st') ->
  forall j, (In j ids -> exists d, st' j = set_raw (st j) d) /\ (~ In j ids -> st' j = st j).
Proof.
  revert l st. induction ids as [|i ids IH]; intros l st H j.
  - cbn in H. injection H as <- <-. split; [intros []|reflexivity].
  - assert (Same : st' = st -> (In j (i :: ids) -> exists d, st' j = set_raw (st j) d) /\ (~ In j (i :: ids) -> st' j = st j)).
    { intros ->. split; [intros _; exists (t_raw (st j)); destruct (st j); reflexivity|reflexivity]. }
    destruct l as [|a l]; cbn [set_inputs] in H; [injection H as _ <-; now apply Same|].
    destruct (set_tensor (st i) a) as [t|] eqn:E; [|injection H as _ <-; now apply Same]. clear Same.
    assert (Et : t = set_raw (st i) (a_bytes a)).
    { unfold set_tensor in E. destruct (negb _); [discriminate|]. destruct (negb _); [discriminate|]. destruct (negb _); [discriminate|]. destruct (negb _); [discriminate|].
      now injection E. }
    destruct (IH l (upd st i t) H j) as [A B]. split.
    + intros _. destruct (in_dec Z.eq_dec j ids) as [Hin|Hn].
      * destruct (A Hin) as [d Hd]. rewrite Hd. unfold upd. destruct (Z.eqb_spec j i) as [->|]; [|exists d; reflexivity].
        exists d. rewrite Et. reflexivity.
      * rewrite (B Hn). unfold upd. destruct (Z.eqb_spec j i) as [->|]; [exists (a_bytes a); exact Et|exists (t_raw (st j)); destruct (st j); reflexivity].
    + intros Hn. rewrite B by (intros K; apply Hn; now right). unfold upd. destruct (Z.eqb_spec j i); [exfalso; apply Hn; subst; now left|reflexivity].
Qed.
Lemma fits_iff st ids l ds : get_types st ids = Some ds -> (forall i, In i ids -> sized (st i) /\ t_type (st i) <> TStr) -> Forall numpy l ->
  (Forall2 (fun i a => exists t, set_tensor (st i) a = Some t) ids l <-> map a_dtype l = ds /\ map a_shape l = get_shapes st ids).
Proof.
  intros Hd HS HN. unfold get_types in Hd. apply all_spec in Hd. unfold get_shapes. split.
  - intros F. revert ds Hd. clear HS HN. induction F as [|i a ids l [t Ht] F IH]; intros [|d ds] Hd; cbn [map] in *; try discriminate; [split; reflexivity|].
    injection Hd as Hd1 Hd2. destruct (IH ds Hd2) as [I1 I2].
    assert (K := proj1 (set_tensor_ok (st i) a) (ex_intro _ t Ht)). destruct K as (K1 & K2 & _).
    split; f_equal; try assumption. rewrite <- K1 in Hd1. destruct (a_dtype a); cbn in Hd1; congruence.
  - intros [H1 H2]. revert l ds Hd H1 H2 HN. induction ids as [|i ids IH]; intros [|a l] [|d ds] Hd H1 H2 HN; cbn [map] in *; try discriminate; [constructor|].
    injection Hd as Hd1 Hd2. injection H1 as H1 H1'. injection H2 as H2 H2'. inversion HN as [|? ? N1 N2]; subst.
    constructor; [|apply (IH (fun j Hj => HS j (or_intror Hj)) l (map a_dtype l)); auto].
    apply set_tensor_ok. assert (Et := type_back _ _ Hd1). split; [exact Et|]. split; [exact H2|].
    destruct (HS i (or_introl eq_refl)) as [S1 S2]. unfold numpy in N1. rewrite Et in N1. unfold sized in S1.
    destruct (item (t_type (st i))) as [k|] eqn:Ek.
    + rewrite (N1 k eq_refl), (S1 k eq_refl), H2. reflexivity.
    + exfalso. destruct (t_type (st i)); try discriminate; now apply S2.
Qed.

(** ** C80: inputs. If the types of the inputs can be reported at all, predict runs the
    model exactly on the lists of arrays with the reported types and shapes: it then
    invokes the interpreter on the tensors with these contents. Any other list raises an
    exception without running the model, whatever the model is. *)
Theorem C80_reported_is_accepted ins st l ds :
  NoDup ins -> (forall i, In i ins -> sized (st i) /\ t_type (st i) <> TStr) -> Forall numpy l ->
  get_types st ins = Some ds ->
  (map a_dtype l = ds /\ map a_shape l = get_shapes st ins ->
     exists st', (forall n i a, nth_error ins n = Some i -> nth_error l n = Some a -> st' i = set_raw (st i) (a_bytes a)) /\
       (forall j, ~ In j ins -> st' j = st j) /\
       forall outs inv, predict {| i_inputs := ins; i_outputs := outs; i_invoke := inv |} st l =
         (if fst (inv st') then all (map (fun i => result_of (snd (inv st') i)) outs) else None, snd (inv st'))) /\
  (~ (map a_dtype l = ds /\ map a_shape l = get_shapes st ins) ->
     exists st', (forall j, (In j ins -> exists d, st' j = set_raw (st j) d) /\ (~ In j ins -> st' j = st j)) /\
       forall outs inv, predict {| i_inputs := ins; i_outputs := outs; i_invoke := inv |} st l = (None, st')).
Proof.
  intros ND HS HN Hd. assert (F := fits_iff st ins l ds Hd HS HN).
  assert (Hlen : map a_dtype l = ds -> length l = length ins).
  { intros H. unfold get_types in Hd. apply all_spec in Hd. apply (f_equal (@length _)) in Hd. rewrite !map_length in Hd. rewrite <- H in Hd. rewrite map_length in Hd. congruence. }
  split.
  - intros H. assert (HL := Hlen (proj1 H)). destruct (set_all ins l st ND (proj2 F H)) as [st' Es]. exists st'.
    destruct (set_ok st ins l st' ND HL Es) as (_ & A & B). split; [exact A|]. split; [exact B|].
    intros outs inv. unfold predict. cbn [i_inputs i_outputs i_invoke]. replace (zlen l =? zlen ins) with true by (symmetry; apply Z.eqb_eq; unfold zlen; lia).
    cbn [negb]. rewrite Es. cbn [negb]. destruct (inv st') as [[|] s2]; reflexivity.
  - intros H. unfold predict. cbn [i_inputs i_outputs i_invoke]. destruct (Z.eqb_spec (zlen l) (zlen ins)) as [HL|HL]; cbn [negb].
    2:{ exists st. split; [|reflexivity]. intros j. split; [|reflexivity]. intros _. exists (t_raw (st j)). destruct (st j); reflexivity. }
    destruct (set_inputs ins l st) as [b st'] eqn:Es. destruct b.
    + exfalso. apply H. apply F. unfold zlen in HL. exact (proj1 (set_ok st ins l st' ND ltac:(lia) Es)).
    + exists st'. split; [exact (set_leaves ins l st false st' Es)|]. reflexivity.
Qed.
Print Assumptions C80_reported_is_accepted.

(** Outputs: when predict returns, the results have the types and shapes the accessors
    report (the interpreter keeps them when it runs), and hold the output tensors. *)
Theorem C80_results_as_reported m st l r st' ds :
  (forall s i, t_type (snd (i_invoke m s) i) = t_type (s i) /\ t_dims (snd (i_invoke m s) i) = t_dims (s i)) ->
  get_types st (i_outputs m) = Some ds -> predict m st l = (Some r, st') ->
  map a_dtype r = ds /\ map a_shape r = get_shapes st (i_outputs m) /\ map a_bytes r = map (fun i => t_raw (st' i)) (i_outputs m).
Proof.
  intros HI Hd H. unfold predict in H. destruct (negb _); [discriminate|]. destruct (set_inputs (i_inputs m) l st) as [b s1] eqn:E1.
  destruct b; cbn [negb] in H; [|discriminate]. assert (HI1 := HI s1). destruct (i_invoke m s1) as [c s2] eqn:E2. destruct c; cbn [negb] in H; [|discriminate].
  injection H as H <-. cbn [snd] in HI1.
  assert (K : forall j, t_type (s2 j) = t_type (st j) /\ t_dims (s2 j) = t_dims (st j)).
  { intros j. destruct (HI1 j) as [A B]. rewrite A, B. destruct (set_leaves _ _ _ _ _ E1 j) as [C D].
    destruct (in_dec Z.eq_dec j (i_inputs m)) as [Hin|Hn]; [destruct (C Hin) as [d ->]; split; reflexivity|rewrite (D Hn); split; reflexivity]. }
  apply all_spec in H, Hd. unfold get_shapes. revert r ds H Hd. induction (i_outputs m) as [|i ids IH]; intros [|a r] [|d ds] H Hd; cbn [map] in *; try discriminate; [repeat split|].
  injection H as H H'. injection Hd as Hd Hd'. destruct (IH r ds H' Hd') as (A & B & C). destruct (K i) as [K1 K2].
  unfold result_of in H. rewrite K1, Hd in H. cbn [bind] in H. injection H as <-. cbn [a_dtype a_shape a_bytes]. rewrite A, B, C, K2. repeat split.
Qed.
Print Assumptions C80_results_as_reported.

(** The types are reported unless some tensor has a type without a dtype; then the
    accessor raises, and so does predict for outputs. *)
Theorem C80_types_reported st ids :
  (exists ds, get_types st ids = Some ds) <-> Forall (fun i => match t_type (st i) with TNone | TOther _ => False | _ => True end) ids.
Proof.
  unfold get_types. split.
  - intros [ds H]. apply all_spec in H. revert ds H. induction ids as [|i ids IH]; intros [|d ds] H; cbn [map] in H; try discriminate; constructor.
    + injection H as H _. destruct (t_type (st i)); cbn in H; discriminate || exact I.
    + injection H as _ H. exact (IH ds H).
  - intros F. induction F as [|i ids Hi F [ds IH]]; [exists []; reflexivity|]. cbn [map all]. rewrite IH.
    destruct (t_type (st i)); try contradiction; eexists; reflexivity.
Qed.
Print Assumptions C80_types_reported.

(** ** Scales and zero points *)
(** How TFLite's loader fills a tensor from the model file's quantisation [(scales, zero
    points)] (InterpreterBuilder::ParseQuantization and GetLegacyQuantization, external):
    none if there are no scales; the legacy fields hold the one scale and zero point, or 0. *)
Definition loaded (scales zeros : list Z) (t : tensor) : Prop :=
  match scales with
  | [] => t_quant t = QNone
  | [s] => t_quant t = QAffine (Some {| q_scale := Some scales; q_zero := Some zeros |}) /\ t_scale t = s /\ zeros = [t_zero t]
  | _ => t_quant t = QAffine (Some {| q_scale := Some scales; q_zero := Some zeros |}) /\ t_scale t = 0 /\ t_zero t = 0 /\ length zeros = length scales
  end.
(** One number per tensor: the file's, provided the scale is not NaN; nothing for a tensor
    without quantisation; per channel: the file's list of scales. *)
Theorem C80_scales_from_the_file st files :
  Forall (fun f => let '(i, (ss, zs)) := f in loaded ss zs (st i) /\ forall s, In s ss -> decode32 s <> S754_nan) files ->
  get_scales st (map fst files) =
    Some (map (fun f => match fst (snd f) with [] => SNone | [s] => SOne s | ss => SList ss end) files).
Proof.
  intros F. unfold get_scales. apply all_spec. rewrite !map_map. induction F as [|[i [ss zs]] files [Hl Hn] F IH]; [reflexivity|].
  cbn [map fst snd]. f_equal; [|exact IH]. unfold scale_of. destruct ss as [|s [|s2 ss]]; cbn [loaded] in Hl.
  - rewrite Hl. reflexivity.
  - destruct Hl as (Q & Es & Ez). rewrite Q. cbn [bind q_scale]. rewrite Es.
    assert (K : SFeqb (decode32 s) (decode32 s) = true).
    { assert (N := Hn s (or_introl eq_refl)). unfold SFeqb. destruct (decode32 s) as [b|b| |b m e]; try congruence; try (destruct b; reflexivity).
      cbn. rewrite Z.compare_refl, Pos.compare_cont_refl. destruct b; reflexivity. }
    now rewrite K.
  - destruct Hl as (Q & _). rewrite Q. reflexivity.
Qed.
Print Assumptions C80_scales_from_the_file.
(** And an exception exactly for an affine quantisation without parameters or scales, or
    with one scale that does not equal (as a float) the tensor's own. *)
Lemma all_none {A} (l : list (option A)) : all l = None <-> In None l.
Proof.
  induction l as [|[a|] l IH]; cbn [all In]; [split; [discriminate|intros []]| |split; auto].
  destruct (all l) as [r|]; cbn [bind]; split; intros H; try discriminate.
  - destruct H as [H|H]; [discriminate|]. apply IH in H. discriminate.
  - right. now apply IH.
  - reflexivity.
Qed.
Theorem C80_scales_refused st ids :
  get_scales st ids = None <->
  exists i, In i ids /\
    ((t_quant (st i) = QAffine None) \/
     (exists z, t_quant (st i) = QAffine (Some {| q_scale := None; q_zero := z |})) \/
     (exists s z, t_quant (st i) = QAffine (Some {| q_scale := Some [s]; q_zero := z |}) /\ SFeqb (decode32 s) (decode32 (t_scale (st i))) = false)).
Proof.
  unfold get_scales. rewrite all_none, in_map_iff. split.
  - intros (i & E & Hi). exists i. split; [exact Hi|]. unfold scale_of in E.
    destruct (t_quant (st i)) as [|[[[ss|] z]|]|k]; cbn [bind q_scale] in E; try discriminate; [|right; left; exists z; reflexivity|left; reflexivity].
    destruct ss as [|s [|s2 ss]]; try discriminate. right; right. exists s, z. split; [reflexivity|].
    destruct (SFeqb _ _); [discriminate|reflexivity].
  - intros (i & Hi & H). exists i. split; [|exact Hi]. unfold scale_of. destruct H as [E|[[z E]|[s [z [E K]]]]]; rewrite E; cbn [bind q_scale]; try reflexivity.
    now rewrite K.
Qed.
Print Assumptions C80_scales_refused.
Theorem C80_zero_points_from_the_file st files :
  Forall (fun f => let '(i, (ss, zs)) := f in loaded ss zs (st i) /\ ((2 <= length ss)%nat -> forall z, In z zs -> z = 0)) files ->
  get_zero_points st (map fst files) =
    Some (map (fun f => match fst (snd f) with [] => None | [_] => Some (nth 0 (snd (snd f)) 0) | _ => Some 0 end) files).
Proof.
  intros F. unfold get_zero_points. apply all_spec. rewrite !map_map. induction F as [|[i [ss zs]] files [Hl Hn] F IH]; [reflexivity|].
  cbn [map fst snd]. f_equal; [|exact IH]. unfold zero_point_of. destruct ss as [|s [|s2 ss]]; cbn [loaded] in Hl.
  - rewrite Hl. reflexivity.
  - destruct Hl as (Q & Es & Ez). rewrite Q. cbn [bind q_zero]. rewrite Ez. cbn [forallb nth]. rewrite Z.eqb_refl. reflexivity.
  - destruct Hl as (Q & _ & Ez & _). rewrite Q. cbn [bind q_zero]. rewrite Ez.
    replace (forallb (fun z => z =? 0) zs) with true; [reflexivity|]. symmetry. apply forallb_forall. intros z Hz. apply Z.eqb_eq. apply Hn; [simpl; lia|exact Hz].
Qed.
Print Assumptions C80_zero_points_from_the_file.
(** The comment at line 220 asks that all channels have the same zero point; the check
    compares with the legacy field, which is 0 for such tensors: a common nonzero zero
    point makes the accessor raise. *)
Theorem C80_common_zero_point_refuted :
  ~ forall st i ss zs z, loaded ss zs (st i) -> (forall y, In y zs -> y = z) -> zs <> [] -> get_zero_points st [i] = Some [Some z].
Proof.
  intros H.
  set (t := {| t_type := TI8; t_dims := [2]; t_bytes := 2; t_raw := [0; 0]; t_quant := QAffine (Some {| q_scale := Some [1065353216; 1065353216]; q_zero := Some [3; 3] |}); t_scale := 0; t_zero := 0 |}).
  assert (K := H (fun _ => t) 0 [1065353216; 1065353216] [3; 3] 3 ltac:(repeat split) ltac:(intros y [<- |[<- |[]]]; reflexivity) ltac:(discriminate)).
  vm_compute in K. discriminate K.
Qed.
Print Assumptions C80_common_zero_point_refuted.

(** ** A case: one int8 input [1;2] with scale 0.5 and zero point -3, one float output. *)
Definition ex80_st : state := fun i =>
  if i =? 0 then {| t_type := TI8; t_dims := [1; 2]; t_bytes := 2; t_raw := [9; 9]; t_quant := QAffine (Some {| q_scale := Some [1056964608]; q_zero := Some [-3] |}); t_scale := 1056964608; t_zero := -3 |}
  else {| t_type := TF32; t_dims := [1]; t_bytes := 4; t_raw := [0; 0; 128; 63]; t_quant := QNone; t_scale := 0; t_zero := 0 |}.
Definition ex80_m : interp := {| i_inputs := [0]; i_outputs := [1]; i_invoke := fun s => (true, upd s 1 (set_raw (s 1) (t_raw (s 0) ++ t_raw (s 0)))) |}.
Example C80_case :
  get_types ex80_st [0] = Some [DI8] /\ get_shapes ex80_st [0] = [[1; 2]] /\ get_scales ex80_st [0; 1] = Some [SOne 1056964608; SNone] /\
  get_zero_points ex80_st [0; 1] = Some [Some (-3); None] /\ loaded [1056964608] [-3] (ex80_st 0) /\ loaded [] [] (ex80_st 1) /\
  (forall i, In i [0] -> sized (ex80_st i) /\ t_type (ex80_st i) <> TStr) /\
  numpy {| a_dtype := DI8; a_shape := [1; 2]; a_bytes := [5; 6] |} /\
  fst (predict ex80_m ex80_st [{| a_dtype := DI8; a_shape := [1; 2]; a_bytes := [5; 6] |}]) = Some [{| a_dtype := DF32; a_shape := [1]; a_bytes := [5; 6; 5; 6] |}] /\
  fst (predict ex80_m ex80_st [{| a_dtype := DF32; a_shape := [1; 2]; a_bytes := [5; 6; 5; 6; 5; 6; 5; 6] |}]) = None.
Proof.
  do 4 (split; [reflexivity|]). split; [repeat split|]. split; [reflexivity|].
  split; [intros i [<- |[]]; split; [intros k [= <-]; reflexivity|discriminate]|]. split; [intros k [= <-]; reflexivity|]. split; reflexivity.
Qed.
Example C80_refused_case :
  let t := {| t_type := TI8; t_dims := [1]; t_bytes := 1; t_raw := [0]; t_quant := QAffine (Some {| q_scale := Some [1056964608]; q_zero := Some [0] |}); t_scale := 1065353216; t_zero := 0 |} in
  get_scales (fun _ => t) [0] = None.
Proof. reflexivity. Qed.
