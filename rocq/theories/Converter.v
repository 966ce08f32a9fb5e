(** * The converter's front end

    larq_compute_engine/mlir/python/converter.py, with the C++ entry points it
    calls: python/common.cc, python/saved_model_tfl_flatbuffer.cc and
    python/graphdef_tfl_flatbuffer.cc.

    What TensorFlow and MLIR do is left abstract (section variables, so every
    theorem holds for all of them): importing a SavedModel or a GraphDef into an
    MLIR module, running the pass pipeline and writing the flatbuffer. What is
    modelled: the validation of the arguments, which of these functions are called,
    in which order and with which arguments, which exceptions are raised and which
    are swallowed, and the post-processing of the result
    (modify_integer_quantized_model_io_type, GraphUtil.v).

    A run is the list of effects that happened and the outcome. Not modelled:
    warnings' texts, the temporary directory, debug information. *)
From Coq Require Import Ascii String QArith.
From Verif Require Import Base Spec Misc GraphUtil.
Open Scope string_scope.
Open Scope list_scope.
Open Scope Z_scope.

(** tf.DType, as far as the converter looks at it (converter.py:69-78). *)
Inductive dtype := DFloat32 | DInt8 | DResource | DOther.
Definition dtype_eqb (a b : dtype) : bool :=
  match a, b with DFloat32, DFloat32 | DInt8, DInt8 | DResource, DResource | DOther, DOther => true | _, _ => false end.

Inductive exn := ValueError | RuntimeError | OtherError.

(** common.h: enum LCETarget. *)
Inductive lce_target := ARM | XCORE.

(** The arguments common to both entry points (converter.py:94-101, 166-173). *)
Record options := { op_in : dtype; op_out : dtype; op_target : string; op_range : option (Q * Q) }.

(** The fields of mlir::quant::QuantizationSpecs that common.cc:81-118 sets:
    inference_type is DT_QINT8 (otherwise the default DT_FLOAT), the number of
    entries of input_ranges (all of them empty), default_ranges,
    post_training_quantization. *)
Record specs := { sp_qint8 : bool; sp_inputs : Z; sp_default : option (Q * Q); sp_ptq : bool }.
Definition no_specs : specs := {| sp_qint8 := false; sp_inputs := 0; sp_default := None; sp_ptq := false |}.

(** common.cc:81-118. *)
Definition make_specs (should_quantize : bool) (num_inputs : Z) (default_ranges : option (Q * Q)) (mark_ptq : bool) : specs :=
  if should_quantize then
    {| sp_qint8 := true; sp_inputs := Z.max 0 num_inputs; sp_default := default_ranges;
       sp_ptq := match default_ranges with Some _ => mark_ptq | None => false end |}
  else no_specs.

(** llvm::StringRef::split(names, ","), keeping empty pieces: the number of
    pieces (common.cc:69-70). *)
Fixpoint commas (s : string) : Z :=
  match s with EmptyString => 0 | String c s' => (if Ascii.eqb c ","%char then 1 else 0) + commas s' end.
Definition pieces (s : string) : Z := 1 + commas s.

(** common.cc:40-72, GetNumInputs: the functions of the module, each with its
    tf.entry_function attribute if any, which has an "inputs" entry or not. *)
Fixpoint find_entry (fs : list (option (option string))) (found : option (option string)) : option (option (option string)) :=
  match fs with
  | [] => Some found
  | None :: fs' => find_entry fs' found
  | Some a :: fs' => match found with Some _ => None | None => find_entry fs' (Some a) end
  end.
Definition num_inputs (fs : list (option (option string))) : option Z :=
  match find_entry fs None with Some (Some (Some names)) => Some (pieces names) | _ => None end.

(** common.cc:30-38. *)
Definition get_target (s : string) : option lce_target :=
  if String.eqb s "arm" then Some ARM else if String.eqb s "xcore" then Some XCORE else None.

(** converter.py:41-59. A graph: the operator of each node and, for each library
    function, the operators of its nodes. *)
Definition training_quant_ops : list string :=
  ["FakeQuantWithMinMaxVars"; "FakeQuantWithMinMaxVarsPerChannel"; "FakeQuantWithMinMaxArgs";
   "FakeQuantWithMinMaxArgsPerChannel"; "QuantizeAndDequantizeV2"; "QuantizeAndDequantizeV3"].
Definition is_training_quant (op : string) : bool := existsb (String.eqb op) training_quant_ops.
Definition contains_training_quant_op (nodes : list string) (functions : list (list string)) : bool :=
  existsb is_training_quant nodes || existsb (existsb is_training_quant) functions.

Section Converter.
  Context {V : Type}.
  Context {Saved Module Graph : Type}.

  (** An input tensor of a frozen function: its name, type and shape (None: the
      rank is unknown; a dimension is None if unknown). *)
  Record input := { i_name : string; i_dtype : dtype; i_shape : option (list (option Z)) }.
  (** The arguments of convert_graphdef_to_tflite_flatbuffer that describe an input. *)
  Record array := { a_name : string; a_dtype : dtype; a_shape : list Z }.
  Record frozen := { f_graph : Graph; f_nodes : list string; f_functions : list (list string); f_inputs : list input; f_outputs : list string }.
  (** What convert_keras_model is given. [k_policy] is the name of the dtype
      policy, if there is one; saving and tracing may raise. *)
  Record keras := { k_is_model : bool; k_policy : option string; k_save : option Saved; k_trace : option frozen }.

  (** SavedModel: its schema version and its content. Parsing may raise. *)
  Variable parse_saved : Saved -> option Z.
  (** saved_model_tfl_flatbuffer.cc:71-78, ImportSavedModel with the serving tag
      and the default serving signature (converter.py:134-135). *)
  Variable import_saved : Saved -> Z -> option Module.
  (** graphdef_tfl_flatbuffer.cc:40-62: parsing the array descriptions and
      ConvertGraphdefToMlir. A shape is None if it was empty. *)
  Variable import_graph : Graph -> list (string * dtype * option (list Z)) -> list string -> option Module.
  (** The functions of a module (see [find_entry]). *)
  Variable entries : Module -> list (option (option string)).
  (** ConvertTFExecutorToTFLOrFlatbuffer: the pass pipeline and the export. *)
  Variable flatbuffer : Module -> lce_target -> specs -> option (@tfmodel V).

  Inductive event :=
  | WarnRange | WarnFallback | Save
  | Backend (m : Module) (t : lce_target) (s : specs).
  Definition run (A : Type) : Type := (list event * (exn + A))%type.
  Definition ret {A} (a : A) : run A := ([], inr a).
  Definition raise {A} (e : exn) : run A := ([], inl e).
  Definition emit (e : event) : run unit := ([e], inr tt).
  Definition andThen {A B} (p : run A) (f : A -> run B) : run B :=
    match snd p with inl e => (fst p, inl e) | inr a => (fst p ++ fst (f a), snd (f a)) end.
  Definition orRaise {A} (o : option A) (e : exn) : run A := match o with Some a => ret a | None => raise e end.
  (** try: return p; except Exception: h *)
  Definition except {A} (p h : run A) : run A :=
    match snd p with inr a => p | inl _ => (fst p ++ fst h, snd h) end.
  Notation "'do' x <- p ; q" := (andThen p (fun x => q)) (at level 200, x pattern, p at level 100, q at level 200).

  (** common.cc:74-130. *)
  Definition convert_module (md : Module) (t : lce_target) (range : option (Q * Q)) (n : Z) (should_quantize mark_ptq : bool) : run (@tfmodel V) :=
    let sp := make_specs should_quantize n range mark_ptq in
    do _ <- emit (Backend md t sp);
    orRaise (flatbuffer md t sp) RuntimeError.

  (** saved_model_tfl_flatbuffer.cc:34-91. The list of exported names is never
      empty (converter.py:135). *)
  Definition saved_to_flatbuffer (s : Saved) (version : Z) (target : string) (range : option (Q * Q)) : run (@tfmodel V) :=
    do t <- orRaise (get_target target) RuntimeError;
    do md <- orRaise (import_saved s version) RuntimeError;
    do n <- orRaise (num_inputs (entries md)) RuntimeError;
    convert_module md t range n true true.

  (** graphdef_tfl_flatbuffer.cc:15-70; lines 30-38 turn empty shapes into none. *)
  Definition translate_shape (s : list Z) : option (list Z) := match s with [] => None | _ => Some s end.
  Definition graphdef_to_flatbuffer (gd : Graph) (ins : list array) (outs : list string) (should_quantize : bool) (target : string) (range : option (Q * Q)) : run (@tfmodel V) :=
    do t <- orRaise (get_target target) RuntimeError;
    do md <- orRaise (import_graph gd (map (fun a => (a_name a, a_dtype a, translate_shape (a_shape a))) ins) outs) RuntimeError;
    convert_module md t range (zlen ins) should_quantize false.

  (** converter.py:62-91. [eager] is tf.executing_eagerly(). *)
  Definition validate (eager : bool) (o : options) : run unit :=
    if negb (dtype_eqb (op_in o) DFloat32 || dtype_eqb (op_in o) DInt8) then raise ValueError else
    if negb (dtype_eqb (op_out o) DFloat32 || dtype_eqb (op_out o) DInt8) then raise ValueError else
    if negb (String.eqb (op_target o) "arm" || String.eqb (op_target o) "xcore") then raise ValueError else
    if negb eager then raise RuntimeError else
    match op_range o with Some _ => emit WarnRange | None => ret tt end.

  (** converter.py:156, 272: the requested types differ from the default. *)
  Definition io_requested (o : options) : bool := negb (dtype_eqb (op_in o) DFloat32) || negb (dtype_eqb (op_out o) DFloat32).
  Definition set_io (m : @tfmodel V) (o : options) : run (@tfmodel V) :=
    orRaise (modify_io m (dtype_eqb (op_in o) DInt8) (dtype_eqb (op_out o) DInt8)) ValueError.

  (** converter.py:94-163. *)
  Definition convert_saved_model (eager : bool) (o : options) (s : Saved) : run (@tfmodel V) :=
    do _ <- validate eager o;
    do version <- orRaise (parse_saved s) OtherError;
    if negb ((version =? 1) || (version =? 2)) then raise ValueError else
    do m <- saved_to_flatbuffer s version (op_target o) (op_range o);
    if io_requested o then set_io m o else ret m.

  (** converter.py:245-258: the shape check of one input; the batch dimension
      becomes 1 if it is unknown. What reaches the C++ side must be a list of
      integers: pybind11 raises on None. *)
  Definition is_none {A} (o : option A) : bool := match o with None => true | Some _ => false end.
  Definition fix_shape (i : input) : run (list (option Z)) :=
    do shape <- orRaise (i_shape i) ValueError;
    if existsb is_none (tl shape) then raise ValueError else
    match shape with None :: rest => ret (Some 1 :: rest) | _ => ret shape end.
  Fixpoint each {A B} (f : A -> run B) (l : list A) : run (list B) :=
    match l with [] => ret [] | a :: l' => do b <- f a; do bs <- each f l'; ret (b :: bs) end.
  Definition to_array (p : input * list (option Z)) : run array :=
    do sh <- orRaise (all_some (snd p)) OtherError;
    ret {| a_name := i_name (fst p); a_dtype := i_dtype (fst p); a_shape := sh |}.

  (** converter.py:232-280. *)
  Definition graphdef_path (o : options) (k : keras) : run (@tfmodel V) :=
    do fz <- orRaise (k_trace k) OtherError;
    let ins := filter (fun i => negb (dtype_eqb (i_dtype i) DResource)) (f_inputs fz) in
    let should_quantize := contains_training_quant_op (f_nodes fz) (f_functions fz) || negb (is_none (op_range o)) in
    do shapes <- each fix_shape ins;
    do arrays <- each to_array (combine ins shapes);
    do m <- graphdef_to_flatbuffer (f_graph fz) arrays (f_outputs fz) should_quantize (op_target o) (op_range o);
    if should_quantize && io_requested o then set_io m o else ret m.

  (** converter.py:166-280. *)
  Definition convert_keras_model (eager : bool) (o : options) (k : keras) : run (@tfmodel V) :=
    if negb (k_is_model k) then raise ValueError else
    if match k_policy k with Some p => negb (String.eqb p "float32") | None => false end then raise ValueError else
    do _ <- validate eager o;
    except
      (do s <- orRaise (k_save k) OtherError; do _ <- emit Save; convert_saved_model eager o s)
      (do _ <- emit WarnFallback; graphdef_path o k).
End Converter.
Notation "'do' x <- p ; q" := (andThen p (fun x => q)) (at level 200, x pattern, p at level 100, q at level 200).
