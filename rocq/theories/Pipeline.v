(** * Pipeline: the converter's pass pipeline (C78).

    larq_compute_engine/mlir/tf_tfl_passes.cc and tf_to_tfl_flatbuffer.cc: which
    passes run and in which order, those of this repository by the models of
    IRPass.v, IR.v, IRFuse.v, IRInt8.v and IRFile8.v, those of TensorFlow and MLIR
    as unknown relations. Not modelled: IsValidGraph, diagnostics and statuses,
    tensor names, passes that fail (a run here is one in which every pass
    succeeded), export_to_mlir. *)
From Coq Require Import QArith Qabs String.
From Verif Require Import Base Spec IR IRProofs IRSound IRTerm IRWell IRTf IRPass IRPassProof IRFuse IRInt8 IRFile8.
Open Scope string_scope.
Open Scope list_scope.
Open Scope Z_scope.

(** A pass: one of this repository, or one of TensorFlow or MLIR. *)
Inductive pass :=
| SetBatchSize | OpRemoval | PrepareLCE | OptimizeLCE | BitpackWeights | FusePadding | LCEQuantize | DetectionPostProcess | LegalizeLCE
| Foreign (name : string).

(** What the pipeline depends on: quant_specs.RunPropagationAndRewriteQuantizationPasses()
    (or another QDQ mode), whether a default range is given, whether the model comes
    from a directory, whether a session is given (graph definitions are frozen already). *)
Record config := { c_quantise : bool; c_range : bool; c_saved_model : bool; c_session : bool }.

(** tf_tfl_passes.cc:26-75, AddQuantizationPasses. *)
Definition AddQuantizationPasses (c : config) : list pass :=
  [Foreign "TFL::PrepareQuantize"; LCEQuantize] ++
  (if c_range c then [Foreign "TFL::DefaultQuantParams"; LCEQuantize] else []) ++
  [DetectionPostProcess; Foreign "TFL::Quantize"; Foreign "TFL::PostQuantize"; LCEQuantize; Foreign "TFL::PostQuantize";
   Foreign "TFL::OptimizeOpOrder"; Foreign "TFL::Optimize"].

(** tf_tfl_passes.cc:81-115, AddPreVariableFreezingTFToLCETFLConversionPasses. *)
Definition pre_freezing : list pass :=
  [Foreign "TFL::RaiseCustomOps"; Foreign "TF::StandardPipeline"; Foreign "TF::DeviceIndexSelector"; Foreign "Canonicalizer";
   Foreign "TF::ShapeInference"; Foreign "TF::FunctionalControlFlowToRegions"; Foreign "TFDevice::DecomposeResourceOps";
   Foreign "TF::RegionControlFlowToFunctional"].

(** tf_tfl_passes.cc:120-291, AddPostVariableFreezingTFToLCETFLConversionPasses. *)
Definition post_freezing (c : config) : list pass :=
  [Foreign "TFL::PrepareCompositeFunctions"; Foreign "Inliner"; Foreign "SymbolDCE"; Foreign "TFL::LowerStaticTensorList";
   Foreign "OptimizeGlobalTensors"; SetBatchSize; Foreign "TF::ShapeInference"; Foreign "TFL::LegalizeTFWhile"; Foreign "Inliner";
   OpRemoval; Foreign "FreezeGlobalTensors"] ++
  (if c_saved_model c then [Foreign "FreezeAssets"] else []) ++
  [Foreign "TFL::ReduceWhileOperands"; Foreign "Canonicalizer"; Foreign "CSE"; Foreign "SymbolDCE"; Foreign "TF::ShapeInference";
   Foreign "TF::LayoutOptimization"; PrepareLCE; Foreign "TFL::PrepareTF"; Foreign "Canonicalizer"; Foreign "TF::ShapeInference"; Foreign "Inliner";
   Foreign "TF::InitTextFileToImport"; Foreign "TFL::LegalizeTF"; Foreign "TFL::AnalyzeVariables"; Foreign "TFL::LegalizeVariables";
   Foreign "TFL::LegalizeHashTables"; OptimizeLCE; Foreign "TFL::Optimize"; OptimizeLCE; BitpackWeights; Foreign "TFL::OptimizeFunctionalOps";
   Foreign "TFL::RaiseCustomOps"; Foreign "SymbolDCE"; Foreign "Canonicalizer"; Foreign "CSE"; FusePadding] ++
  (if c_quantise c then AddQuantizationPasses c ++ [Foreign "TFL::PostQuantizeRemoveQDQ"] else []) ++
  [Foreign "Canonicalizer"; Foreign "TFL::SplitMergedOperands"; Foreign "TFL::InsertCallOnceOp"; Foreign "TFL::UnfoldLargeSplatConstant";
   Foreign "TFL::WhileOutline"; Foreign "TFL::RuntimeVerify"; LegalizeLCE].

(** tf_to_tfl_flatbuffer.cc:62-127, ConvertTFExecutorToTFLOrFlatbuffer: the passes
    before freezing, FreezeVariables when a session is given, the passes after. *)
Definition conversion (c : config) : list pass :=
  pre_freezing ++ (if c_session c then [Foreign "FreezeVariables"] else []) ++ post_freezing c.

(** What else the greedy driver does inside a pattern pass, between that pass's own
    steps: TensorFlow's pattern for dilated convolutions, which the prepare pass adds
    to its own (prepare_tf.cc 169-172), and the driver's merging of equal constants. *)
Definition within (P : pass) : list string :=
  match P with
  | PrepareLCE => ["TFL::ConvertTFDilatedConvOp"; "MLIR::MergeConstants"]
  | OpRemoval | OptimizeLCE | FusePadding => ["MLIR::MergeConstants"]
  | _ => []
  end.
(** [P] with such steps in between, any number of times. *)
Fixpoint rounds (P : pass) (l : list string) : list pass :=
  match l with [] => [P] | n :: l' => P :: Foreign n :: rounds P l' end.
(** [qs]: the passes [ps], each with such steps in between. *)
Inductive interleaved : list pass -> list pass -> Prop :=
| il_nil : interleaved [] []
| il_cons P l ps qs : (forall n, In n l -> In n (within P)) -> interleaved ps qs -> interleaved (P :: ps) (rounds P l ++ qs).

(** A program being converted, with an input: arguments, operations, results. *)
Record model := { m_args : list nat; m_prog : list instr; m_outs : list nat; m_in : env }.

Section Passes.
(** What TensorFlow's and MLIR's passes may do. *)
Variable foreign : string -> model -> model -> Prop.
(** LCETarget is ARM. *)
Variable arm : bool.

(** One pass: the patterns of the pass, applied in any order; the quantise pass until
    none applies (isteps). The weights are packed, and the operators renamed, by
    [file8]: later passes do not look at packed filters. The batch size pass changes the
    static types of the arguments only (C41), which these programs do not carry: the
    input at hand is one of the new types. The detection pass works on
    operators with several results, which these programs have not (Detect.v, C76). *)
Definition does (P : pass) (s s' : model) : Prop :=
  match P with
  | Foreign n => foreign n s s'
  | SetBatchSize | DetectionPostProcess | BitpackWeights | LegalizeLCE => s' = s
  | _ => m_args s' = m_args s /\ m_in s' = m_in s /\
      match P with
      | OpRemoval | PrepareLCE => exists n, psteps (shapes (m_in s)) arm (m_args s) n (m_prog s, m_outs s) (m_prog s', m_outs s')
      | OptimizeLCE => m_outs s' = m_outs s /\ steps (fun _ => as_is) arm (m_args s) (m_outs s) (m_prog s) (m_prog s')
      | FusePadding => m_outs s' = m_outs s /\ exists n, fsteps (shapes (m_in s)) (m_outs s) n (m_prog s) (m_prog s')
      | LCEQuantize => m_outs s' = m_outs s /\ (exists n, isteps (m_outs s) n (m_prog s) (m_prog s')) /\ forall q, ~ istep (m_outs s) (m_prog s') q
      | _ => True
      end
  end.

(** Running a list of passes; each with the program before and after. *)
Inductive runs : list pass -> model -> list (pass * model * model) -> model -> Prop :=
| runs_nil s : runs [] s [] s
| runs_cons P ps s s1 s' tr : does P s s1 -> runs ps s1 tr s' -> runs (P :: ps) s ((P, s, s1) :: tr) s'.
End Passes.

(** ** What is said about a conversion *)
(** Every value is defined once, before it is used, and the results are values. *)
Definition well_formed (s : model) : Prop := ssa (m_args s) (m_prog s) /\ forall x, In x (m_outs s) -> In x (m_args s ++ map iid (m_prog s)).
(** The results, for the input at hand. *)
Definition computes (s : model) (vs : list value) : Prop :=
  exists e, eval (m_prog s) (m_in s) = Some e /\ Forall2 (fun x v => e x = Some v) (m_outs s) vs.
(** ... without the quantise/dequantise pairs around convolution parameters. *)
Definition computes_stripped (s : model) (vs : list value) : Prop :=
  exists e, eval (strip (m_prog s)) (m_in s) = Some e /\ no_ties (strip (m_prog s)) e /\ Forall2 (fun x v => e x = Some v) (m_outs s) vs.

(** What a pass of this repository needs of the program it is given (C66, C64, C69, C73). *)
Definition ready (P : pass) (s : model) : Prop :=
  match P with
  | OpRemoval | PrepareLCE => forall e, eval (m_prog s) (m_in s) = Some e -> sane (m_prog s) e
  | OptimizeLCE => forall e, eval (m_prog s) (m_in s) = Some e -> tame (m_prog s) e
  | FusePadding => forall e, eval (m_prog s) (m_in s) = Some e -> fuse_sane (m_prog s) e
  | LCEQuantize => params_clean (m_prog s)
  | _ => True
  end.

(** The only passes that may change results: TensorFlow's and MLIR's, and the
    quantise pass, by dropping parameter pairs. *)
Definition own (P : pass) : bool := match P with Foreign _ | LCEQuantize => false | _ => true end.
(** [drift P vs ws]: pass [P] may turn results [vs] into [ws]. Passes one after the
    other, up to the equality of values [veq]. *)
Fixpoint composed (drift : pass -> list value -> list value -> Prop) (ps : list pass) (vs ws : list value) : Prop :=
  match ps with
  | [] => Forall2 veq vs ws
  | P :: ps' => exists us us', Forall2 veq vs us /\ (if own P then us' = us else drift P us us') /\ composed drift ps' us' ws
  end.

(** Distance: same types and shapes, no element changed by more than [d]. *)
Definition near (d : Q) (v w : value) : Prop :=
  match v, w with
  | VF a, VF b => teq (fun x y => (Qabs (x - y) <= d)%Q) a b
  | VInt a, VInt b => teq (fun x y => (Qabs (inject_Z x - inject_Z y) <= d)%Q) a b
  | _, _ => veq v w
  end.
Fixpoint total (d : pass -> Q) (ps : list pass) : Q :=
  match ps with [] => 0%Q | P :: ps' => ((if own P then 0 else d P) + total d ps')%Q end.
