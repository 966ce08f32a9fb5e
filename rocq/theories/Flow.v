(** * Flow: errors in a conversion (C81).

    larq_compute_engine/mlir/tf_to_tfl_flatbuffer.cc and the end of
    mlir/python/common.cc: which failures are reported, and what is returned then.
    What passes, the translation to a flatbuffer and the verifier do is left abstract:
    they may change the module, fail and emit error diagnostics as they like. Not
    modelled: texts of messages other than those of this file, debug dumps, the
    collection of error codes for metrics, and diagnostics that are not errors
    (StatusScopedDiagnosticHandler ignores them unless verbose logging is on). *)
From Coq Require Import String.
From Verif Require Import Base Pipeline.
Open Scope string_scope.
Open Scope list_scope.

(** absl::Status; an error has a code and the texts it is made of. *)
Inductive code := UnknownError | InternalError | InvalidArgumentError.
Inductive status := StOk | StError (c : code) (messages : list string).

(** mlir::StatusScopedDiagnosticHandler (TensorFlow, external), with the error
    diagnostics emitted so far. ConsumeStatus: no diagnostics, no error. *)
Definition ConsumeStatus (diags : list string) : status :=
  match diags with [] => StOk | _ => StError UnknownError diags end.
(** Combine, given a status that is an error. *)
Definition Combine (c : code) (message : string) (diags : list string) : status := StError c (message :: diags).

(** An operation and the operations in its regions. *)
Inductive operation := Operation (name : string) (regions : list operation).
(** tf_to_tfl_flatbuffer.cc:25-30, IsControlFlowV1Op. *)
Definition v1_ops : list string :=
  ["tf_executor.Switch"; "tf_executor.Merge"; "tf_executor.Enter"; "tf_executor.Exit";
   "tf_executor.NextIteration.Sink"; "tf_executor.NextIteration.Source"].
Definition IsControlFlowV1Op (o : operation) : bool := match o with Operation n _ => existsb (String.eqb n) v1_ops end.
(** module.walk: nested operations first; an interrupted walk stops (lines 33-36). *)
Fixpoint walk_interrupted (o : operation) : bool :=
  match o with Operation n r => existsb walk_interrupted r || IsControlFlowV1Op o end.

(** tf_to_tfl_flatbuffer.cc:52-60: names of tensors in the file. *)
Definition GetName (name : string) : string := if Nat.ltb 50 (String.length name) then substring 0 50 name else name.

Section Flow.
  Context {M : Type}.
  (** The operations of a module. *)
  Variable operations : M -> operation.
  (** Running one pass: success, the module after it, error diagnostics. *)
  Variable attempt : pass -> M -> bool * M * list string.
  (** tflite::MlirToFlatBufferTranslateFunction, module.verifyInvariants,
      module.print. *)
  Variable translate : M -> option string * list string.
  Variable verify : M -> bool * list string.
  Variable print : M -> string.

  (** mlir::PassManager::run stops at the first pass that fails. The last component
      is the list of passes started. *)
  Fixpoint run (ps : list pass) (m : M) : bool * M * list string * list pass :=
    match ps with
    | [] => (true, m, [], [])
    | P :: ps' =>
        let '(ok, m1, d) := attempt P m in
        if ok then let '(ok', m2, d', l) := run ps' m1 in (ok', m2, d ++ d', P :: l) else (false, m1, d, [P])
    end.

  (** tf_to_tfl_flatbuffer.cc:62-150, ConvertTFExecutorToTFLOrFlatbuffer: the status, the
      string written to, the passes started. [cl_ok]: applyPassManagerCLOptions
      succeeds; [result]: what the string holds before. *)
  Definition ConvertTFExecutorToTFLOrFlatbuffer (c : config) (cl_ok export_to_mlir : bool) (m : M) (result : string) : status * string * list pass :=
    if negb cl_ok then (StError InternalError ["Failed to apply MLIR pass manager CL options."], result, []) else
    if walk_interrupted (operations m) then (ConsumeStatus ["The graph has Control Flow V1 ops."], result, []) else
    let '(ok1, m1, d1, l1) := run pre_freezing m in
    if negb ok1 then (ConsumeStatus d1, result, l1) else
    let '(ok2, m2, d2, l2) := run (if c_session c then [Foreign "FreezeVariables"] else []) m1 in
    if negb ok2 then (Combine InvalidArgumentError "Variable constant folding is failed." (d1 ++ d2), result, l1 ++ l2) else
    let '(ok3, m3, d3, l3) := run (post_freezing c) m2 in
    if negb ok3 then (Combine InvalidArgumentError "Variable constant folding failed." (d1 ++ d2 ++ d3), result, l1 ++ l2 ++ l3) else
    if export_to_mlir then
      let '(ok4, m4, d4, l4) := run [Foreign "PrintOpStats"] m3 in
      if negb ok4 then (ConsumeStatus (d1 ++ d2 ++ d3 ++ d4), result, l1 ++ l2 ++ l3 ++ l4)
      else (ConsumeStatus (d1 ++ d2 ++ d3 ++ d4), String.append result (print m4), l1 ++ l2 ++ l3 ++ l4)
    else
      match translate m3 with
      | (None, d4) => (Combine InternalError "Could not translate MLIR to FlatBuffer." (d1 ++ d2 ++ d3 ++ d4), result, l1 ++ l2 ++ l3)
      | (Some file, d4) =>
          let (valid, d5) := verify m3 in
          if negb valid then (Combine InternalError "Final module is invalid." (d1 ++ d2 ++ d3 ++ d4 ++ d5), file, l1 ++ l2 ++ l3)
          else (StOk, file, l1 ++ l2 ++ l3)
      end.

  (** common.cc:117-128: the bytes handed to Python, or a RuntimeError. *)
  Definition flatbuffer_bytes (c : config) (cl_ok : bool) (m : M) : option string :=
    match ConvertTFExecutorToTFLOrFlatbuffer c cl_ok false m "" with
    | (StOk, result, _) => Some result
    | _ => None
    end.

  (** ** What is said about it *)
  (** The passes run one after the other, all of them succeeding; with everything they
      reported. *)
  Inductive succeeded : list pass -> M -> M -> list string -> Prop :=
  | succeeded_nil m : succeeded [] m m []
  | succeeded_cons P ps m m1 m2 d d' : attempt P m = (true, m1, d) -> succeeded ps m1 m2 d' -> succeeded (P :: ps) m m2 (d ++ d').
End Flow.

(** An operation of this name is somewhere in the module. *)
Inductive contains : string -> operation -> Prop :=
| contains_here n r : contains n (Operation n r)
| contains_below n n' o r : In o r -> contains n o -> contains n (Operation n' r).
