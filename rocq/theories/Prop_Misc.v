(** * C40 (operator registration), C41 (batch size pass), C42 (Python predict). *)
From Coq Require Import String.
From Verif Require Import Base Spec Prepare Options Misc.
Open Scope string_scope.
Open Scope Z_scope.

(** ** C40 *)
(** Specification: the kernel the documentation promises for a flag combination. *)
Definition documented_kernel (ruy use_reference use_indirect : bool) : kernel_type :=
  match use_reference, use_indirect with
  | true, _ => KReference
  | false, true => KIndirect
  | false, false => if ruy then KBgemm else KReference
  end.

Theorem C40_registration : forall ruy r use_reference use_indirect,
  let r' := RegisterLCECustomOps ruy r use_reference use_indirect in
  (r' "LceBconv2d" = Some (RBconv (documented_kernel ruy use_reference use_indirect)) /\
   r' "LceQuantize" = Some RQuantize /\ r' "LceDequantize" = Some RDequantize /\ r' "LceBMaxPool2d" = Some RMaxPool) /\
  (** every operator the converter emits is found, with its own kernel *)
  (forall o, exists x, r' (custom_code o) = Some x /\
     match o with LqQuantize => x = RQuantize | LqDequantize => x = RDequantize
                | LqBconv2d => exists k, x = RBconv k | LqBMaxPool2d => x = RMaxPool end) /\
  (** no other operator is touched, whatever was registered before *)
  (forall n, n <> "LceBconv2d" -> n <> "LceQuantize" -> n <> "LceDequantize" -> n <> "LceBMaxPool2d" -> r' n = r n).
Proof.
  intros ruy r ur ui. cbn zeta. split; [|split].
  - destruct ruy, ur, ui; repeat split; reflexivity.
  - intros o. destruct o, ruy, ur, ui; (eexists; split; [reflexivity|]; try reflexivity; eexists; reflexivity).
  - intros n H1 H2 H3 H4. unfold RegisterLCECustomOps, AddCustom.
    apply String.eqb_neq in H1, H2, H3, H4. destruct ur, ui; cbv zeta; rewrite H1, H2, H3, H4; reflexivity.
Qed.
Print Assumptions C40_registration.

(** The benchmark tool measures the kernel its flags ask for, and the default one without
    flags; the Java library uses the default one. What is assumed of TFLite's parser: a
    flag that is known and given takes its value, one not given keeps it; other boolean
    parameters do not matter. [value argv n]: the value given for flag [n], if any. *)
Theorem C40_programs :
  forall (parse : list string -> list string -> params -> option params) (value : list string -> string -> option bool)
    (base_flags : list string) (base : params) (ruy : bool) (r : resolver),
  (forall known argv p p' n v, parse known argv p = Some p' -> p n = Some v ->
     p' n = if in_dec string_dec n known then match value argv n with Some w => Some w | None => Some v end else Some v) ->
  (forall argv, match parse (GetFlags base_flags) argv (DefaultParams base) with
     | None => benchmark parse base_flags base argv ruy r = None
     | Some _ => exists r', benchmark parse base_flags base argv ruy r = Some r' /\
         let flag n := match value argv n with Some w => w | None => false end in
         r' "LceBconv2d" = Some (RBconv (documented_kernel ruy (flag "use_reference_bconv") (flag "use_indirect_bgemm"))) /\
         r' "LceQuantize" = Some RQuantize /\ r' "LceDequantize" = Some RDequantize /\ r' "LceBMaxPool2d" = Some RMaxPool
     end) /\
  CreateOpResolver ruy r "LceBconv2d" = Some (RBconv (documented_kernel ruy false false)) /\
  (forall n, In n ["LceQuantize"; "LceDequantize"; "LceBMaxPool2d"] -> CreateOpResolver ruy r n <> None) /\
  (forall n, ~ In n ["LceBconv2d"; "LceQuantize"; "LceDequantize"; "LceBMaxPool2d"] -> CreateOpResolver ruy r n = r n).
Proof.
  intros parse value bf base ruy r HP. split; [|split; [|split]].
  - intros argv. destruct (parse (GetFlags bf) argv (DefaultParams base)) as [p|] eqn:E; [|unfold benchmark; rewrite E; reflexivity].
    assert (K1 := HP _ _ _ _ "use_reference_bconv" false E eq_refl). assert (K2 := HP _ _ _ _ "use_indirect_bgemm" false E eq_refl).
    destruct (in_dec string_dec "use_reference_bconv" (GetFlags bf)) as [I1|N]; [|destruct N; unfold GetFlags; apply in_or_app; right; left; reflexivity].
    destruct (in_dec string_dec "use_indirect_bgemm" (GetFlags bf)) as [I2|N]; [|destruct N; unfold GetFlags; apply in_or_app; right; right; left; reflexivity].
    unfold benchmark. rewrite E. unfold bind. cbn beta iota zeta.
    destruct (value argv "use_reference_bconv") as [a|]; destruct (value argv "use_indirect_bgemm") as [b|]; rewrite K1, K2; eexists; (split; [reflexivity|]); exact (proj1 (C40_registration ruy r _ _)).
  - exact (proj1 (proj1 (C40_registration ruy r false false))).
  - intros n [<-|[<-|[<-|[]]]]; destruct ruy; discriminate.
  - intros n Hn. apply (proj2 (proj2 (C40_registration ruy r false false))); intros ->; apply Hn; cbn; auto.
Qed.
Print Assumptions C40_programs.
(** A parser of "--name=true". *)
Definition case_value (argv : list string) (n : string) : option bool := if in_dec string_dec ("--" ++ n ++ "=true") argv then Some true else None.
Definition case_parse (known argv : list string) (p : params) : option params :=
  if in_dec string_dec "--help" argv then None else
  Some (fun n => match p n with Some v => if in_dec string_dec n known then match case_value argv n with Some w => Some w | None => Some v end else Some v | None => None end).
Example C40_programs_case :
  (forall known argv p p' n v, case_parse known argv p = Some p' -> p n = Some v ->
     p' n = if in_dec string_dec n known then match case_value argv n with Some w => Some w | None => Some v end else Some v) /\
  match benchmark case_parse ["num_runs"] (fun _ => None) ["--graph=m.tflite"; "--use_indirect_bgemm=true"] true (fun _ => None) with
  | Some r => r "LceBconv2d" = Some (RBconv KIndirect) | None => False end /\
  match benchmark case_parse ["num_runs"] (fun _ => None) ["--graph=m.tflite"] true (fun _ => None) with
  | Some r => r "LceBconv2d" = Some (RBconv KBgemm) | None => False end /\
  benchmark case_parse ["num_runs"] (fun _ => None) ["--help"] true (fun _ => None) = None.
Proof.
  split; [|repeat split; reflexivity]. intros known argv p p' n v E H. unfold case_parse in E. destruct (in_dec string_dec "--help" argv); [discriminate|].
  injection E as <-. rewrite H. reflexivity.
Qed.

(** ** C41 *)
Theorem C41_set_batch_size : forall f,
  let f' := SetBatchSizePass f in
  Forall2 batch_one (fn_inputs f) (fn_inputs f') /\ Forall2 batch_one (fn_args f) (fn_args f') /\
  fn_results f' = fn_results f /\
  (fn_inputs f = fn_args f -> fn_inputs f' = fn_args f') /\
  SetBatchSizePass f' = f'.
Proof.
  intros f. cbn zeta. unfold SetBatchSizePass. cbn.
  assert (G : forall l, Forall2 batch_one l (map or_same l)).
  { induction l as [|t l IH]; constructor; [apply or_same_ok|exact IH]. }
  assert (I : forall l, map or_same (map or_same l) = map or_same l).
  { intros l. rewrite map_map. apply map_ext. apply or_same_idem. }
  repeat split; try apply G.
  - intros ->. reflexivity.
  - rewrite !I. reflexivity.
Qed.
Print Assumptions C41_set_batch_size.
(** Every kind of type at once: dynamic batch with another dynamic dimension,
    static batch, scalar, unranked, not a tensor. *)
Example C41_example :
  let t := [Ranked [None; Some 224; None; Some 3] 0; Ranked [Some 5; None] 0; Ranked [] 1; Unranked 0; NotTensor 7] in
  fn_inputs (SetBatchSizePass {| fn_inputs := t; fn_results := [Ranked [None; Some 10] 0]; fn_args := t |}) =
  [Ranked [Some 1; Some 224; None; Some 3] 0; Ranked [Some 5; None] 0; Ranked [] 1; Unranked 0; NotTensor 7].
Proof. reflexivity. Qed.

(** ** C42 *)
(** For one or more samples: output j of predict is the concatenation, in order,
    of output j of the per-sample runs, and nothing else. [runs] is execution of
    the interpreter on one sample after the other. *)
Theorem C42_predict_concatenates : forall (D Ty S : Type) (ty_eqb : Ty -> Ty -> bool) (m : @model D Ty S) st x samples os (spec : list (Ty * Z * list Z)),
  (forall t, ty_eqb t t = true) ->
  data_generator x = Some samples -> runs ty_eqb S m st samples os -> os <> [] -> md_outs S m = zlen spec ->
  (forall o, In o os -> length o = length spec /\
     forall j a t n r, nth_error o j = Some a -> nth_error spec j = Some (t, n, r) -> a_type a = t /\ a_shape a = n :: r) ->
  exists outs, predict ty_eqb S m st x = Some (if md_outs S m =? 1 then match outs with [o] => ROne o | _ => RMany outs end else RMany outs) /\
    length outs = length spec /\
    forall j t n r, nth_error spec j = Some (t, n, r) -> exists col,
      map (fun o => nth_error o j) os = map Some col /\
      nth_error outs j = Some {| a_type := t; a_shape := zlen os * n :: r; a_data := concat (map a_data col) |}.
Proof. intros D Ty S ty_eqb. exact (predict_samples ty_eqb S). Qed.
Print Assumptions C42_predict_concatenates.

(** The samples are the rows of the input array, each with batch size one. *)
Theorem C42_samples_of_array : forall (D Ty : Type) (a : @array D Ty) n rest, array_ok a -> a_shape a = n :: rest ->
  exists samples, data_generator (XArray a) = Some samples /\ zlen samples = n /\
    forall i, 0 <= i < n -> exists d, rd samples i = Some [{| a_type := a_type a; a_shape := 1 :: rest; a_data := d |}] /\
      zlen d = volume rest /\ forall k, 0 <= k < volume rest -> rd d k = rd (a_data a) (i * volume rest + k).
Proof. intros D Ty. exact generator_array. Qed.
Print Assumptions C42_samples_of_array.

(** For a list of arrays with equally many rows, sample i is row i of each. *)
Theorem C42_samples_of_list : forall (D Ty : Type) (l : list (@array D Ty)) n, l <> [] ->
  (forall a, In a l -> array_ok a /\ exists rest, a_shape a = n :: rest) ->
  exists samples, data_generator (XList l) = Some samples /\ zlen samples = n /\
    forall i, 0 <= i < n -> exists s, rd samples i = Some s /\ zlen s = zlen l /\
      forall j a, rd l j = Some a -> exists one, rd s j = Some one /\
        exists sj, data_generator (XArray a) = Some sj /\ rd sj i = Some [one].
Proof. intros D Ty. exact generator_list. Qed.
Print Assumptions C42_samples_of_list.

(** For an iterator, sample i is what it yields i-th, one array or several: each with
    its own type and data, and a leading dimension of one. *)
Theorem C42_samples_of_iterator : forall (D Ty : Type) (l : list (@array D Ty + list (@array D Ty))),
  exists samples, data_generator (XIter l) = Some samples /\ length samples = length l /\
    forall i y, nth_error l i = Some y -> exists s, nth_error samples i = Some s /\
      let given := match y with inl a => [a] | inr l' => l' end in
      length s = length given /\
      forall j a, nth_error given j = Some a -> nth_error s j = Some {| a_type := a_type a; a_shape := 1 :: a_shape a; a_data := a_data a |}.
Proof.
  intros D Ty l. eexists. split; [reflexivity|]. split; [apply map_length|]. intros i y Hy. eexists. split; [exact (map_nth_error _ _ _ Hy)|].
  destruct y as [a|l']; cbn [length].
  - split; [reflexivity|]. intros [|j] b Hb; cbn in Hb |- *; [injection Hb as <-; reflexivity|destruct j; discriminate].
  - split; [apply map_length|]. intros j b Hb. rewrite (map_nth_error _ _ _ Hb). reflexivity.
Qed.
Print Assumptions C42_samples_of_iterator.

(** Whatever the model does, a sample with the wrong number of inputs, or with an
    input of the wrong type or shape, makes predict raise. *)
Theorem C42_predict_rejects : forall (D Ty S : Type) (ty_eqb : Ty -> Ty -> bool) (m : @model D Ty S) st x samples s,
  data_generator x = Some samples -> In s samples ->
  (zlen s <> zlen (md_in S m) \/
   exists j a t sh, rd s j = Some a /\ rd (md_in S m) j = Some (t, sh) /\ (ty_eqb (a_type a) t = false \/ a_shape a <> sh)) ->
  predict ty_eqb S m st x = None.
Proof.
  intros D Ty S ty_eqb m st x samples s Hg Hs Hbad. apply (predict_rejects ty_eqb S m st x samples s Hg Hs).
  intros [Hl Ha]. destruct Hbad as [Hbad|(j & a & t & sh & H1 & H2 & H3)]; [exact (Hbad Hl)|].
  destruct (Ha j a t sh H1 H2) as [E1 E2]. destruct H3 as [H3|H3]; congruence.
Qed.
Print Assumptions C42_predict_rejects.

(** A stateful model with two inputs and two outputs: it returns the sum of each
    input plus the number of earlier calls. *)
Definition ex_model : @model Z bool Z :=
  {| md_in := [(true, [1; 2]); (false, [1])]; md_outs := 2;
     md_invoke := fun st bufs => match bufs with
       | [[a; b]; [c]] => Some ([{| a_type := true; a_shape := [1; 1]; a_data := [a + b + st] |};
                                 {| a_type := false; a_shape := [1]; a_data := [c + st] |}], st + 1)
       | _ => None end |}.
Definition ex_input : @data Z bool :=
  XList [{| a_type := true; a_shape := [3; 2]; a_data := [1; 2; 10; 20; 5; 6] |}; {| a_type := false; a_shape := [3]; a_data := [7; 8; 9] |}].
Example C42_example : predict Bool.eqb Z ex_model 0 ex_input =
  Some (RMany [{| a_type := true; a_shape := [3; 1]; a_data := [3; 31; 13] |}; {| a_type := false; a_shape := [3]; a_data := [7; 9; 11] |}]).
Proof. reflexivity. Qed.
Example C42_hypotheses : exists samples os, data_generator ex_input = Some samples /\ runs Bool.eqb Z ex_model 0 samples os /\ zlen os = 3 /\
  forall o, In o os -> length o = 2%nat /\
     forall j a t n r, nth_error o j = Some a -> nth_error [(true, 1, [1]); (false, 1, [])] j = Some (t, n, r) -> a_type a = t /\ a_shape a = n :: r.
Proof.
  eexists. eexists. split; [reflexivity|]. split; [|split].
  - econstructor; [reflexivity|]. econstructor; [reflexivity|]. econstructor; [reflexivity|]. constructor.
  - reflexivity.
  - intros o Ho. repeat (destruct Ho as [<- | Ho]; [split; [reflexivity|]; intros [|[|[|j]]] a t n r; cbn; try discriminate; intros H1 H2; injection H1 as <-; injection H2 as <- <- <-; split; reflexivity|]).
    destruct Ho.
Qed.

(** "Any number of samples" is false of zero samples: a model with one output
    raises IndexError, and one with several outputs returns no output at all
    instead of empty ones. *)
Theorem C42_zero_samples_refuted : exists (m : @model Z bool unit) (x : @data Z bool),
  data_generator x = Some [] /\ md_outs unit m = 1 /\ predict Bool.eqb unit m tt x = None /\
  exists m2, md_outs unit m2 = 2 /\ predict Bool.eqb unit m2 tt x = Some (RMany []).
Proof.
  exists {| md_in := [(true, [1; 2])]; md_outs := 1; md_invoke := fun st b => Some ([{| a_type := true; a_shape := [1; 2]; a_data := concat b |}], st) |}.
  exists (XArray {| a_type := true; a_shape := [0; 2]; a_data := [] |}).
  split; [reflexivity|]. split; [reflexivity|]. split; [reflexivity|].
  exists {| md_in := [(true, [1; 2])]; md_outs := 2; md_invoke := fun st b => Some ([{| a_type := true; a_shape := [1; 2]; a_data := concat b |}; {| a_type := true; a_shape := [1; 2]; a_data := concat b |}], st) |}.
  split; reflexivity.
Qed.
Print Assumptions C42_zero_samples_refuted.

(** Nor are inputs with unequal numbers of rows rejected: the extra rows are
    silently dropped. *)
Theorem C42_unequal_rows_refuted : exists (m : @model Z bool Z) a b r,
  array_ok a /\ array_ok b /\ a_shape a = [3; 2] /\ a_shape b = [1] /\
  predict Bool.eqb Z m 0 (XList [a; b]) = Some (RMany r) /\ forall o, In o r -> exists rest, a_shape o = 1 :: rest.
Proof.
  exists ex_model, {| a_type := true; a_shape := [3; 2]; a_data := [1; 2; 10; 20; 5; 6] |}, {| a_type := false; a_shape := [1]; a_data := [7] |}.
  eexists. repeat (split; [try reflexivity|]).
  - cbn. intros d Hd. repeat (destruct Hd as [<- | Hd]; [lia|]). destruct Hd.
  - cbn. intros d Hd. repeat (destruct Hd as [<- | Hd]; [lia|]). destruct Hd.
  - cbn. intros o Ho. repeat (destruct Ho as [<- | Ho]; [eexists; reflexivity|]). destruct Ho.
Qed.
Print Assumptions C42_unequal_rows_refuted.
