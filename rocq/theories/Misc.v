(** * Misc: operator registration (tflite/kernels/lce_ops_register.h), the batch
    size pass (mlir/transforms/set_batch_size.cc), and the Python interpreter
    (tflite/python/interpreter_base.py, interpreter_wrapper_utils.h). *)
From Coq Require Import String.
From Verif Require Import Base Spec Prepare Options.
Open Scope string_scope.
Open Scope Z_scope.

(** ** Registration *)
Inductive registration := RQuantize | RDequantize | RBconv (k : kernel_type) | RMaxPool | RForeign (id : Z).
(** A MutableOpResolver (external): custom names to registrations; AddCustom
    overwrites. *)
Definition resolver := string -> option registration.
Definition AddCustom (r : resolver) (name : string) (x : registration) : resolver :=
  fun n => if String.eqb n name then Some x else r n.
(** bconv2d.cc 593-599; [ruy]: TFLITE_WITH_RUY is defined. *)
Definition Register_BCONV_2D (ruy : bool) : registration := RBconv (if ruy then KBgemm else KReference).
(** lce_ops_register.h 26-57 *)
Definition RegisterLCECustomOps (ruy : bool) (r : resolver) (use_reference_bconv use_indirect_bgemm : bool) : resolver :=
  let r := AddCustom r "LceQuantize" RQuantize in
  let r := AddCustom r "LceDequantize" RDequantize in
  let r := if use_reference_bconv then AddCustom r "LceBconv2d" (RBconv KReference)
           else if use_indirect_bgemm then AddCustom r "LceBconv2d" (RBconv KIndirect)
           else AddCustom r "LceBconv2d" (Register_BCONV_2D ruy) in
  AddCustom r "LceBMaxPool2d" RMaxPool.
(** legalize_tflite.cc 24-41 and 48-51: the custom code is "Lce" and the operation
    name without its first three characters. *)
Fixpoint drop_front (n : nat) (s : string) : string :=
  match n, s with Datatypes.S n', String _ s' => drop_front n' s' | _, _ => s end.
Inductive lq_op := LqQuantize | LqDequantize | LqBconv2d | LqBMaxPool2d.
Definition operation_name (o : lq_op) : string :=
  match o with LqQuantize => "lq.Quantize" | LqDequantize => "lq.Dequantize" | LqBconv2d => "lq.Bconv2d" | LqBMaxPool2d => "lq.BMaxPool2d" end.
Definition custom_code (o : lq_op) : string := "Lce" ++ drop_front 3 (operation_name o).

(** ** Programs that register the operators *)
(** Boolean parameters of TFLite's benchmark tool by name (external; other types left
    out). *)
Definition params := string -> option bool.
Definition AddParam (p : params) (name : string) (v : bool) : params := fun n => if String.eqb n name then Some v else p n.
(** benchmark/lce_benchmark_tflite_model.cc 24-32 *)
Definition DefaultParams (base : params) : params :=
  AddParam (AddParam base "use_reference_bconv" false) "use_indirect_bgemm" false.
(** lce_benchmark_tflite_model.cc 40-54: the flags the tool knows *)
Definition GetFlags (base : list string) : list string := base ++ ["use_reference_bconv"; "use_indirect_bgemm"].
(** lce_benchmark_tflite_model.cc 65-71 and lce_benchmark_main.cc 24-48. [parse]: TFLite's
    ParseFlags (external), given the known flags; None: an error. The global variables,
    false at first (lce_benchmark_main.cc 24-25), are bound by reference and read when the
    base class makes its op resolver; the result is that resolver (None: the benchmark
    fails before it makes one). *)
Definition benchmark (parse : list string -> list string -> params -> option params) (base_flags : list string) (base : params)
    (argv : list string) (ruy : bool) (r : resolver) : option resolver :=
  let* p := parse (GetFlags base_flags) argv (DefaultParams base) in
  let* use_reference_bconv := p "use_reference_bconv" in
  let* use_indirect_bgemm := p "use_indirect_bgemm" in
  Some (RegisterLCECustomOps ruy r use_reference_bconv use_indirect_bgemm).
(** java/lce_ops_jni.cc 24-28: default arguments (lce_ops_register.h 26-28) *)
Definition CreateOpResolver (ruy : bool) (builtin : resolver) : resolver := RegisterLCECustomOps ruy builtin false false.

(** ** Batch size *)
(** MLIR types: ranked tensors with dimensions (None: dynamic) and element type,
    unranked tensors, anything else. *)
Inductive mtype := Ranked (shape : list (option Z)) (elt : Z) | Unranked (elt : Z) | NotTensor (id : Z).
(** set_batch_size.cc 9-22; the null result is None. *)
Definition SetBatchSize (t : mtype) : option mtype :=
  match t with
  | Ranked (None :: rest) e => Some (Ranked (Some 1 :: rest) e)
  | _ => None
  end.
Record func := { fn_inputs : list mtype; fn_results : list mtype; fn_args : list mtype }.
Definition or_same (t : mtype) : mtype := match SetBatchSize t with Some t' => t' | None => t end.
(** set_batch_size.cc 29-56 *)
Definition SetBatchSizePass (f : func) : func :=
  {| fn_inputs := map or_same (fn_inputs f); fn_results := fn_results f; fn_args := map or_same (fn_args f) |}.

(** What the property says of one type. *)
Definition batch_one (t t' : mtype) : Prop :=
  match t with
  | Ranked (d :: rest) e => t' = Ranked (match d with None => Some 1 | Some n => Some n end :: rest) e
  | _ => t' = t
  end.
Lemma or_same_ok t : batch_one t (or_same t).
Proof. destruct t as [[|[n|] rest] e|e|i]; reflexivity. Qed.
Lemma or_same_idem t : or_same (or_same t) = or_same t.
Proof. destruct t as [[|[n|] rest] e|e|i]; reflexivity. Qed.

(** ** The interpreter *)
Section Interpreter.
  Context {D Ty : Type}.
  Variable ty_eqb : Ty -> Ty -> bool.
  (** Numpy arrays in C order. *)
  Record array := { a_type : Ty; a_shape : list Z; a_data : list D }.
  Definition volume (s : list Z) : Z := fold_right Z.mul 1 s.
  Definition array_ok (a : array) : Prop := zlen (a_data a) = volume (a_shape a) /\ forall d, In d (a_shape a) -> 0 <= d.

  (** np.expand_dims(a, axis=0) *)
  Definition expand_dims (a : array) : array := {| a_type := a_type a; a_shape := 1 :: a_shape a; a_data := a_data a |}.
  (** Iterating over an array; a 0-dimensional array cannot be iterated (None). *)
  Fixpoint chunks (n : nat) (k : nat) (l : list D) : list (list D) :=
    match n with O => [] | Datatypes.S n' => firstn k l :: chunks n' k (skipn k l) end.
  Definition iterate (a : array) : option (list array) :=
    match a_shape a with
    | [] => None
    | n :: rest => Some (map (fun d => {| a_type := a_type a; a_shape := rest; a_data := d |})
                             (chunks (Z.to_nat n) (Z.to_nat (volume rest)) (a_data a)))
    end.
  (** zip( *xs ): stops at the shortest; no arguments: empty. *)
  Fixpoint zip_with_cons {A} (xs : list A) (rows : list (list A)) : list (list A) :=
    match xs, rows with x :: xs', r :: rows' => (x :: r) :: zip_with_cons xs' rows' | _, _ => [] end.
  Fixpoint zipstar {A} (xs : list (list A)) : list (list A) :=
    match xs with [] => [] | [x] => map (fun a => [a]) x | x :: xs' => zip_with_cons x (zipstar xs') end.
  Fixpoint all_some {A} (l : list (option A)) : option (list A) :=
    match l with [] => Some [] | o :: l' => let* x := o in let* r := all_some l' in Some (x :: r) end.

  (** interpreter_base.py 6, 10-27 *)
  Inductive data := XArray (a : array) | XList (l : list array) | XIter (l : list (array + list array)) | XOther.
  Definition data_generator (x : data) : option (list (list array)) :=
    match x with
    | XArray a => let* s := iterate a in Some (map (fun i => [expand_dims i]) s)
    | XList l => let* s := all_some (map iterate l) in Some (map (map expand_dims) (zipstar s))
    | XIter l => Some (map (fun i => match i with inl a => [expand_dims a] | inr l => map expand_dims l end) l)
    | XOther => None
    end.

  (** The wrapped interpreter: input tensors (type and shape), number of output
      tensors, and Invoke, which maps the hidden state and the input tensors'
      contents to output tensors and a new state, or fails. *)
  Variable S : Type.
  Record model := { md_in : list (Ty * list Z); md_outs : Z; md_invoke : S -> list (list D) -> option (list array * S) }.
  Definition shape_eqb (a b : list Z) : bool := if list_eq_dec Z.eq_dec a b then true else false.
  (** interpreter_wrapper_utils.h 133-169 SetTensorFromNumpy: None is an
      exception. The element sizes agree when the types do, so nbytes is the
      tensor's byte count when type and shape agree. *)
  Definition set_tensor (spec : Ty * list Z) (a : array) : option (list D) :=
    if ty_eqb (a_type a) (fst spec) then if shape_eqb (a_shape a) (snd spec) then Some (a_data a) else None else None.
  (** interpreter_wrapper_utils.h 269-303 predict *)
  Definition predict1 (m : model) (st : S) (inputs : list array) : option (list array * S) :=
    if zlen inputs =? zlen (md_in m) then
      let* bufs := all_some (map (fun p => set_tensor (fst p) (snd p)) (combine (md_in m) inputs)) in
      md_invoke m st bufs
    else None.
  Fixpoint predict_all (m : model) (st : S) (samples : list (list array)) : option (list (list array)) :=
    match samples with
    | [] => Some []
    | x :: xs => let* (o, st) := predict1 m st x in let* r := predict_all m st xs in Some (o :: r)
    end.
  (** np.concatenate along axis 0: at least one array, all of rank >= 1, same
      type and trailing dimensions (None otherwise: ValueError). *)
  Definition concatenate (l : list array) : option array :=
    match l with
    | [] => None
    | a :: _ =>
        match a_shape a with
        | [] => None
        | _ :: rest =>
            let* ns := all_some (map (fun b => match a_shape b with
                 | n :: r => if shape_eqb r rest && ty_eqb (a_type b) (a_type a) then Some n else None | [] => None end) l) in
            Some {| a_type := a_type a; a_shape := fold_right Z.add 0 ns :: rest; a_data := concat (map a_data l) |}
        end
    end.
  Inductive result := ROne (a : array) | RMany (l : list array).
  (** interpreter_base.py 77-99 predict (verbose only adds a progress bar). *)
  Definition predict (m : model) (st : S) (x : data) : option result :=
    let* samples := data_generator x in
    let* preds := predict_all m st samples in
    let* outputs := all_some (map concatenate (zipstar preds)) in
    if md_outs m =? 1 then let* o := rd outputs 0 in Some (ROne o) else Some (RMany outputs).

  (** *** Proofs *)
  Lemma all_some_ok {A} (l : list (option A)) r : all_some l = Some r <-> l = map Some r.
  Proof.
    revert r. induction l as [|o l IH]; intros r; cbn.
    - split; [intros H; injection H as <-; reflexivity|]. destruct r; [reflexivity|discriminate].
    - destruct o as [x|]; cbn.
      + destruct (all_some l) as [r'|] eqn:E; cbn.
        * split.
          -- intros H. injection H as <-. rewrite (proj1 (IH r') eq_refl). reflexivity.
          -- intros H. destruct r as [|y r]; [discriminate|]. injection H as H1 H2. subst y.
             apply IH in H2. injection H2 as ->. reflexivity.
        * split; [discriminate|]. intros H. destruct r as [|y r]; [discriminate|]. injection H as _ H2. apply IH in H2. discriminate.
      + split; [discriminate|]. destruct r; discriminate.
  Qed.
  Lemma length_zip_cons {A} (xs : list A) rows : length (zip_with_cons xs rows) = Nat.min (length xs) (length rows).
  Proof. revert rows. induction xs as [|x xs IH]; intros [|r rows]; cbn; try reflexivity. rewrite IH. reflexivity. Qed.
  Lemma nth_zip_cons {A} (xs : list A) rows j x r : nth_error xs j = Some x -> nth_error rows j = Some r ->
    nth_error (zip_with_cons xs rows) j = Some (x :: r).
  Proof.
    revert rows j. induction xs as [|y xs IH]; intros [|q rows] [|j]; cbn; try discriminate; [congruence|]. apply IH.
  Qed.
  Lemma length_zipstar {A} (xs : list (list A)) m : xs <> [] -> (forall l, In l xs -> length l = m) -> length (zipstar xs) = m.
  Proof.
    induction xs as [|x xs IH]; [congruence|]. intros _ H. destruct xs as [|y xs].
    - cbn. rewrite map_length. apply H. left. reflexivity.
    - change (zipstar (x :: y :: xs)) with (zip_with_cons x (zipstar (y :: xs))). rewrite length_zip_cons, (IH ltac:(discriminate)) by (intros l Hl; apply H; right; exact Hl).
      rewrite (H x) by (left; reflexivity). lia.
  Qed.
  Lemma nth_zipstar {A} (xs : list (list A)) j col : xs <> [] -> map (fun l => nth_error l j) xs = map Some col ->
    nth_error (zipstar xs) j = Some col.
  Proof.
    revert col. induction xs as [|x xs IH]; [congruence|]. intros col _ H. destruct xs as [|y xs].
    - destruct col as [|c [|]]; try discriminate. injection H as H. cbn. rewrite nth_error_map, H. reflexivity.
    - destruct col as [|c col]; [discriminate|]. cbn [map] in H. injection H as H1 H2.
      change (zipstar (x :: y :: xs)) with (zip_with_cons x (zipstar (y :: xs))). apply nth_zip_cons; [exact H1|]. apply IH; [discriminate|exact H2].
  Qed.
  Lemma nth_zipstar_none {A} (xs : list (list A)) j x : In x xs -> (length x <= j)%nat -> nth_error (zipstar xs) j = None.
  Proof.
    intros Hx Hl. apply nth_error_None. revert Hx. induction xs as [|y xs IH]; [intros []|]. intros Hx.
    destruct xs as [|z xs].
    - destruct Hx as [->|[]]. cbn. rewrite map_length. exact Hl.
    - change (zipstar (y :: z :: xs)) with (zip_with_cons y (zipstar (z :: xs))). rewrite length_zip_cons.
      destruct Hx as [->|Hx]; [lia|]. specialize (IH Hx). lia.
  Qed.

  (** Samples of an array. *)
  Lemma skipn_skipn {A} : forall a b (l : list A), skipn a (skipn b l) = skipn (b + a) l.
  Proof. intros a b. induction b as [|b IH]; intros l; [reflexivity|]. destruct l as [|x l]; [destruct a; reflexivity|]. apply IH. Qed.
  Lemma nth_error_firstn {A} : forall k j (l : list A), (j < k)%nat -> nth_error (firstn k l) j = nth_error l j.
  Proof. induction k as [|k IH]; intros j l Hj; [lia|]. destruct l as [|x l]; [reflexivity|]. destruct j as [|j]; [reflexivity|]. cbn. apply IH. lia. Qed.
  Lemma nth_error_skipn {A} : forall k j (l : list A), nth_error (skipn k l) j = nth_error l (k + j).
  Proof. induction k as [|k IH]; intros j l; [reflexivity|]. destruct l as [|x l]; [destruct j; reflexivity|]. apply IH. Qed.
  Lemma length_chunks n k l : length (chunks n k l) = n.
  Proof. revert l. induction n as [|n IH]; intros l; [reflexivity|]. cbn. rewrite IH. reflexivity. Qed.
  Lemma nth_chunks n k : forall l i, (i < n)%nat -> nth_error (chunks n k l) i = Some (firstn k (skipn (i * k) l)).
  Proof.
    induction n as [|n IH]; intros l i Hi; [lia|]. destruct i as [|i]; [reflexivity|]. cbn [chunks nth_error].
    rewrite IH by lia. f_equal. f_equal. rewrite skipn_skipn. reflexivity.
  Qed.
  Lemma concat_chunks n k : forall l, length l = (n * k)%nat -> concat (chunks n k l) = l.
  Proof.
    induction n as [|n IH]; intros l Hl; cbn [chunks concat]; [destruct l; [reflexivity|discriminate]|].
    rewrite IH by (rewrite skipn_length; lia). apply firstn_skipn.
  Qed.

  (** Sequential execution, one sample after the other. *)
  Inductive runs (m : model) : S -> list (list array) -> list (list array) -> Prop :=
  | runs_nil st : runs m st [] []
  | runs_cons st x xs o st' os : predict1 m st x = Some (o, st') -> runs m st' xs os -> runs m st (x :: xs) (o :: os).
  Lemma predict_all_runs m st xs os : predict_all m st xs = Some os <-> runs m st xs os.
  Proof.
    split.
    - revert st os. induction xs as [|x xs IH]; intros st os; cbn [predict_all]; [intros H; injection H as <-; constructor|].
      destruct (predict1 m st x) as [[o st']|] eqn:E; [|discriminate]. cbn [bind]. destruct (predict_all m st' xs) as [r|] eqn:E2; [|discriminate].
      cbn [bind]. intros H. injection H as <-. econstructor; [exact E|]. apply IH. exact E2.
    - induction 1 as [st|st x xs o st' os E _ IH]; [reflexivity|]. cbn [predict_all]. rewrite E. cbn [bind]. rewrite IH. reflexivity.
  Qed.

  (** Concatenating arrays of one shape n0 :: rest. *)
  Lemma concatenate_ok l t n0 rest : l <> [] -> (forall t, ty_eqb t t = true) ->
    (forall a, In a l -> a_type a = t /\ a_shape a = n0 :: rest) ->
    concatenate l = Some {| a_type := t; a_shape := zlen l * n0 :: rest; a_data := concat (map a_data l) |}.
  Proof.
    intros Hne Hty H. destruct l as [|a l]; [congruence|]. clear Hne. unfold concatenate.
    destruct (H a ltac:(left; reflexivity)) as [Ht Hs]. rewrite Hs, Ht.
    set (f := fun b => match a_shape b with [] => None | n :: r => if shape_eqb r rest && ty_eqb (a_type b) t then Some n else None end).
    assert (G : forall q, (forall b, In b q -> a_type b = t /\ a_shape b = n0 :: rest) -> all_some (map f q) = Some (repeat n0 (length q))).
    { induction q as [|b q IH]; intros Hq; [reflexivity|]. cbn [map all_some length repeat].
      destruct (Hq b ltac:(left; reflexivity)) as [Hb1 Hb2]. unfold f at 1. rewrite Hb1, Hb2, Hty.
      unfold shape_eqb. destruct (list_eq_dec Z.eq_dec rest rest); [|congruence]. cbn [andb bind].
      rewrite IH by (intros c Hc; apply Hq; right; exact Hc). reflexivity. }
    rewrite G by exact H. cbn [bind]. f_equal. f_equal. f_equal. unfold zlen. clear.
    induction (length (a :: l)) as [|k IH]; [reflexivity|]. cbn [repeat fold_right]. rewrite IH. lia.
  Qed.

  (** The whole predict, given the samples: [spec] gives the type, first
      dimension and remaining dimensions of each output tensor. *)
  Lemma predict_samples m st x samples os (spec : list (Ty * Z * list Z)) :
    (forall t, ty_eqb t t = true) ->
    data_generator x = Some samples -> runs m st samples os -> os <> [] -> md_outs m = zlen spec ->
    (forall o, In o os -> length o = length spec /\
       forall j a t n r, nth_error o j = Some a -> nth_error spec j = Some (t, n, r) -> a_type a = t /\ a_shape a = n :: r) ->
    exists outs, predict m st x = Some (if md_outs m =? 1 then match outs with [o] => ROne o | _ => RMany outs end else RMany outs) /\
      length outs = length spec /\
      forall j t n r, nth_error spec j = Some (t, n, r) -> exists col,
        map (fun o => nth_error o j) os = map Some col /\
        nth_error outs j = Some {| a_type := t; a_shape := zlen os * n :: r; a_data := concat (map a_data col) |}.
  Proof.
    intros Hty Hg Hr Hne Hmo Hspec.
    assert (Hz : length (zipstar os) = length spec).
    { apply length_zipstar; [exact Hne|]. intros o Ho. apply Hspec. exact Ho. }
    assert (Hcol : forall j, (j < length spec)%nat -> exists col, map (fun o => nth_error o j) os = map Some col).
    { intros j Hj. clear - Hspec Hj. induction os as [|o os IH]; [exists []; reflexivity|].
      destruct IH as [col Hc]; [intros o' Ho'; apply Hspec; right; exact Ho'|].
      destruct (nth_error o j) as [a|] eqn:E; [exists (a :: col); cbn; rewrite E, Hc; reflexivity|].
      exfalso. apply nth_error_None in E. destruct (Hspec o ltac:(left; reflexivity)) as [Hl _]. lia. }
    assert (Hcc : forall j t n r col, nth_error spec j = Some (t, n, r) -> map (fun o => nth_error o j) os = map Some col ->
       concatenate col = Some {| a_type := t; a_shape := zlen os * n :: r; a_data := concat (map a_data col) |}).
    { intros j t n r col Hs Hc. assert (Hlen : length col = length os).
      { rewrite <- (map_length Some col), <- Hc. apply map_length. }
      replace (zlen os) with (zlen col) by (unfold zlen; lia). apply concatenate_ok; [|exact Hty|].
      - intros ->. destruct os; [congruence|discriminate].
      - intros a Ha. apply (in_map Some) in Ha. rewrite <- Hc in Ha. apply in_map_iff in Ha. destruct Ha as (o & Ho & Hin).
        destruct (Hspec o Hin) as [_ Hq]. exact (Hq j a t n r Ho Hs). }
    assert (Houts : exists outs, all_some (map concatenate (zipstar os)) = Some outs /\ length outs = length spec /\
      forall j t n r, nth_error spec j = Some (t, n, r) -> exists col,
        map (fun o => nth_error o j) os = map Some col /\
        nth_error outs j = Some {| a_type := t; a_shape := zlen os * n :: r; a_data := concat (map a_data col) |}).
    { assert (Hall : exists outs, all_some (map concatenate (zipstar os)) = Some outs).
      { assert (G : forall l, (forall c, In c l -> exists a, concatenate c = Some a) -> exists outs, all_some (map concatenate l) = Some outs).
        { induction l as [|c l IH]; intros Hl; [exists []; reflexivity|]. destruct (Hl c ltac:(left; reflexivity)) as [a Ha].
          destruct IH as [outs Ho]; [intros c' Hc'; apply Hl; right; exact Hc'|]. exists (a :: outs). cbn. rewrite Ha. cbn. rewrite Ho. reflexivity. }
        apply G. intros c Hc. apply In_nth_error in Hc. destruct Hc as [j Hj].
        assert (Hjl : (j < length spec)%nat) by (rewrite <- Hz; apply nth_error_Some; congruence).
        destruct (Hcol j Hjl) as [col Hcl]. rewrite (nth_zipstar os j col Hne Hcl) in Hj. injection Hj as <-.
        destruct (nth_error spec j) as [[[t n] r]|] eqn:Es; [|apply nth_error_None in Es; lia]. eauto. }
      destruct Hall as [outs Ho]. exists outs. split; [exact Ho|]. apply all_some_ok in Ho.
      split; [rewrite <- Hz, <- (map_length concatenate), Ho, map_length; reflexivity|].
      intros j t n r Hs. assert (Hjl : (j < length spec)%nat) by (apply nth_error_Some; congruence).
      destruct (Hcol j Hjl) as [col Hcl]. exists col. split; [exact Hcl|].
      assert (E : nth_error (map concatenate (zipstar os)) j = nth_error (map Some outs) j) by (rewrite Ho; reflexivity).
      rewrite !nth_error_map, (nth_zipstar os j col Hne Hcl) in E. cbn [option_map] in E.
      rewrite (Hcc j t n r col Hs Hcl) in E. destruct (nth_error outs j) as [o|]; [|discriminate]. injection E as <-. reflexivity. }
    destruct Houts as (outs & Ho & Hlo & Hj). exists outs. split; [|split; [exact Hlo|exact Hj]].
    unfold predict. rewrite Hg. cbn [bind]. rewrite (proj2 (predict_all_runs m st samples os) Hr). cbn [bind]. rewrite Ho. cbn [bind].
    destruct (Z.eqb_spec (md_outs m) 1) as [H1|H1]; [|reflexivity].
    destruct outs as [|o [|o2 outs]].
    - cbn in Hlo. unfold zlen in Hmo. rewrite <- Hlo in Hmo. cbn in Hmo. lia.
    - reflexivity.
    - cbn in Hlo. unfold zlen in Hmo. rewrite <- Hlo in Hmo. cbn in Hmo. lia.
  Qed.

  (** Samples of an array input. *)
  Lemma generator_array a n rest : array_ok a -> a_shape a = n :: rest ->
    exists samples, data_generator (XArray a) = Some samples /\ zlen samples = n /\
      forall i, 0 <= i < n -> exists d, rd samples i = Some [{| a_type := a_type a; a_shape := 1 :: rest; a_data := d |}] /\
        zlen d = volume rest /\ forall k, 0 <= k < volume rest -> rd d k = rd (a_data a) (i * volume rest + k).
  Proof.
    intros [Hv Hp] Hs. unfold data_generator, iterate. rewrite Hs. cbn [bind]. eexists. split; [reflexivity|].
    assert (Hn : 0 <= n) by (apply Hp; rewrite Hs; left; reflexivity).
    assert (Hr : 0 <= volume rest).
    { assert (G : forall l, (forall d, In d l -> 0 <= d) -> 0 <= volume l).
      { induction l as [|d l IH]; intros Hl; cbn; [lia|]. apply Z.mul_nonneg_nonneg; [apply Hl; left; reflexivity|]. apply IH. intros; apply Hl; right; assumption. }
      apply G. intros d Hd. apply Hp. rewrite Hs. right. exact Hd. }
    split; [unfold zlen; rewrite !map_length, length_chunks; lia|].
    intros i Hi. exists (firstn (Z.to_nat (volume rest)) (skipn (Z.to_nat i * Z.to_nat (volume rest)) (a_data a))).
    assert (Hv' : zlen (a_data a) = n * volume rest) by (rewrite Hv, Hs; reflexivity).
    assert (Hib : (i + 1) * volume rest <= n * volume rest) by (apply Z.mul_le_mono_nonneg_r; lia).
    split; [|split].
    - unfold rd. replace (i <? 0) with false by lia. rewrite !nth_error_map, nth_chunks by lia. reflexivity.
    - unfold zlen in *. rewrite firstn_length, skipn_length. nia.
    - intros k Hk. unfold rd. replace (k <? 0) with false by lia. replace (i * volume rest + k <? 0) with false by nia.
      rewrite nth_error_firstn by lia. rewrite nth_error_skipn. f_equal. nia.
  Qed.
  (** Samples of a list of arrays with the same number of rows. *)
  Lemma generator_list l n : l <> [] -> (forall a, In a l -> array_ok a /\ exists rest, a_shape a = n :: rest) ->
    exists samples, data_generator (XList l) = Some samples /\ zlen samples = n /\
      forall i, 0 <= i < n -> exists s, rd samples i = Some s /\ zlen s = zlen l /\
        forall j a, rd l j = Some a -> exists one, rd s j = Some one /\
          exists sj, data_generator (XArray a) = Some sj /\ rd sj i = Some [one].
  Proof.
    intros Hne H.
    assert (Hit : exists its, all_some (map iterate l) = Some its /\ length its = length l /\
      forall j a, nth_error l j = Some a -> exists it, nth_error its j = Some it /\ iterate a = Some it /\ length it = Z.to_nat n).
    { clear Hne. induction l as [|a l IH].
      - exists []. split; [reflexivity|]. split; [reflexivity|]. intros [|j] a; discriminate.
      - destruct IH as (its & E & El & En); [intros b Hb; apply H; right; exact Hb|].
        destruct (H a ltac:(left; reflexivity)) as [_ [rest Hs]].
        destruct (iterate a) as [it|] eqn:Ei; [|unfold iterate in Ei; rewrite Hs in Ei; discriminate].
        exists (it :: its). cbn [map all_some]. rewrite Ei. cbn [bind]. rewrite E. cbn [bind]. split; [reflexivity|].
        split; [cbn; rewrite El; reflexivity|]. intros [|j] b; cbn [nth_error].
        + intros Hb. injection Hb as <-. exists it. split; [reflexivity|]. split; [exact Ei|].
          unfold iterate in Ei. rewrite Hs in Ei. injection Ei as <-. rewrite map_length, length_chunks. reflexivity.
        + apply En. }
    destruct Hit as (its & E & El & En).
    assert (Hn : 0 <= n).
    { destruct l as [|a l]; [congruence|]. destruct (H a ltac:(left; reflexivity)) as [[_ Hp] [rest Hs]]. apply Hp. rewrite Hs. left. reflexivity. }
    assert (Hine : its <> []). { intros ->. destruct l; [congruence|discriminate]. }
    assert (Hlen : forall it, In it its -> length it = Z.to_nat n).
    { intros it Hi. apply In_nth_error in Hi. destruct Hi as [j Hj].
      destruct (nth_error l j) as [a|] eqn:Ea.
      - destruct (En j a Ea) as (it' & E1 & _ & E3). congruence.
      - apply nth_error_None in Ea. assert (j < length its)%nat by (apply nth_error_Some; congruence). lia. }
    unfold data_generator at 1. rewrite E. cbn [bind]. eexists. split; [reflexivity|].
    split; [unfold zlen; rewrite map_length, (length_zipstar its (Z.to_nat n) Hine Hlen); lia|].
    intros i Hi.
    assert (Hcol : exists col, map (fun it => nth_error it (Z.to_nat i)) its = map Some col).
    { clear - Hlen Hi. induction its as [|it its IH]; [exists []; reflexivity|].
      destruct IH as [col Hc]; [intros x Hx; apply Hlen; right; exact Hx|].
      destruct (nth_error it (Z.to_nat i)) as [a|] eqn:Ea; [exists (a :: col); cbn; rewrite Ea, Hc; reflexivity|].
      apply nth_error_None in Ea. rewrite (Hlen it ltac:(left; reflexivity)) in Ea. lia. }
    destruct Hcol as [col Hcol]. exists (map expand_dims col).
    assert (Hcl : length col = length its). { rewrite <- (map_length Some col), <- Hcol. apply map_length. }
    split; [unfold rd; replace (i <? 0) with false by lia; rewrite nth_error_map, (nth_zipstar its _ col Hine Hcol); reflexivity|].
    split; [unfold zlen; rewrite map_length; lia|].
    intros j a Ha. unfold rd in Ha. destruct (Z.ltb_spec j 0) as [|Hj]; [discriminate|].
    destruct (En _ a Ha) as (it & E1 & E2 & E3).
    assert (Ec : nth_error (map (fun it => nth_error it (Z.to_nat i)) its) (Z.to_nat j) = nth_error (map Some col) (Z.to_nat j)) by (rewrite Hcol; reflexivity).
    rewrite !nth_error_map, E1 in Ec. cbn [option_map] in Ec.
    destruct (nth_error col (Z.to_nat j)) as [c|] eqn:Ecj; [|discriminate]. cbn [option_map] in Ec. injection Ec as Ec.
    exists (expand_dims c). split.
    { unfold rd. replace (j <? 0) with false by lia. rewrite nth_error_map, Ecj. reflexivity. }
    exists (map (fun i => [expand_dims i]) it). split; [unfold data_generator; rewrite E2; reflexivity|].
    unfold rd. replace (i <? 0) with false by lia. rewrite nth_error_map, Ec. reflexivity.
  Qed.

  (** Rejection. *)
  Definition accepts (m : model) (inputs : list array) : Prop :=
    zlen inputs = zlen (md_in m) /\
    forall j a t s, rd inputs j = Some a -> rd (md_in m) j = Some (t, s) -> ty_eqb (a_type a) t = true /\ a_shape a = s.
  Lemma predict1_accepts m st inputs r : predict1 m st inputs = Some r -> accepts m inputs.
  Proof.
    unfold predict1. destruct (Z.eqb_spec (zlen inputs) (zlen (md_in m))) as [Hl|]; [|discriminate].
    destruct (all_some _) as [bufs|] eqn:E; [|discriminate]. intros _. split; [exact Hl|].
    apply all_some_ok in E. intros j a t s Ha Hs. unfold rd in Ha, Hs. destruct (j <? 0); [discriminate|].
    assert (Ec : nth_error (combine (md_in m) inputs) (Z.to_nat j) = Some ((t, s), a)).
    { clear - Ha Hs. revert inputs Ha Hs. generalize (Z.to_nat j) as k, (md_in m) as l. induction k as [|k IH]; intros [|x l] [|y q]; cbn; try discriminate; [congruence|].
      apply IH. }
    assert (Em : nth_error (map Some bufs) (Z.to_nat j) = Some (set_tensor (t, s) a)).
    { rewrite <- E, nth_error_map, Ec. reflexivity. }
    rewrite nth_error_map in Em. destruct (nth_error bufs (Z.to_nat j)) as [b|]; [|discriminate]. cbn in Em. injection Em as Em.
    unfold set_tensor, shape_eqb in Em. cbn [fst snd] in Em. destruct (ty_eqb (a_type a) t); [|discriminate].
    destruct (list_eq_dec Z.eq_dec (a_shape a) s); [|discriminate]. split; [reflexivity|assumption].
  Qed.
  Lemma predict_rejects m st x samples s : data_generator x = Some samples -> In s samples -> ~ accepts m s -> predict m st x = None.
  Proof.
    intros Hg Hs Hn. unfold predict. rewrite Hg. cbn [bind].
    destruct (predict_all m st samples) as [os|] eqn:E; [|reflexivity]. exfalso. apply Hn. apply predict_all_runs in E.
    clear Hg. induction E as [st|st x' xs o st' os E1 E2 IH]; [destruct Hs|].
    destruct Hs as [<-|Hs]; [exact (predict1_accepts _ _ _ _ E1)|exact (IH Hs)].
  Qed.
End Interpreter.
