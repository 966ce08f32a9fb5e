(** * IR: the converter's optimisation pass (mlir/transforms/optimize.cc,
    optimize_patterns_common.td, optimize_patterns_target_arm.td,
    bitpack_activations_patterns.td) as rewriting of programs.

    A program is a list of SSA instructions. Tensors have shapes, and the binary
    operators broadcast, as in TFLite. Numbers are exact (rationals). *)
From Coq Require Import QArith Qminmax.
From Verif Require Import Base Spec Padding Threshold.
Open Scope Z_scope.

(** ** Tensors. Shapes and indices are written innermost dimension first: the
    NHWC shape [n,h,w,c] is [[c; w; h; n]], the vector [c] is [[c]], a scalar is [[]]. *)
Record tensor (A : Type) := mkT { sh : list Z; at_ : list Z -> A }.
Arguments mkT {A}. Arguments sh {A}. Arguments at_ {A}.

Definition in_range (s i : list Z) : Prop := Forall2 (fun d k => 0 <= k < d) s i.

(** The k-th element in memory order (row major). *)
Fixpoint unravel (s : list Z) (k : Z) : list Z :=
  match s with [] => [] | d :: s' => k mod d :: unravel s' (k / d) end.
Fixpoint numel (s : list Z) : Z := match s with [] => 1 | d :: s' => d * numel s' end.
Definition flat {A} (t : tensor A) (k : Z) : A := at_ t (unravel (sh t) k).

(** NumPy broadcasting (TFLite's rule): dimensions are aligned at the innermost
    end; equal, or one of them 1. *)
Fixpoint bsh (s t : list Z) : option (list Z) :=
  match s, t with
  | [], t => Some t
  | s, [] => Some s
  | d :: s', e :: t' =>
      match bsh s' t' with
      | Some r => if d =? e then Some (d :: r) else if e =? 1 then Some (d :: r)
                  else if d =? 1 then Some (e :: r) else None
      | None => None
      end
  end.
(** The element of an operand of shape [s] used at index [i] of the result. *)
Fixpoint bix (s i : list Z) : list Z :=
  match s, i with
  | d :: s', k :: i' => (if d =? 1 then 0 else k) :: bix s' i'
  | _, _ => []
  end.
Definition bmap2 {A B C} (f : A -> B -> C) (a : tensor A) (b : tensor B) : option (tensor C) :=
  match bsh (sh a) (sh b) with
  | Some s => Some (mkT s (fun i => f (at_ a (bix (sh a) i)) (at_ b (bix (sh b) i))))
  | None => None
  end.
Definition tmap {A B} (f : A -> B) (a : tensor A) : tensor B := mkT (sh a) (fun i => f (at_ a i)).

(** ** Values. [VBits]: a bit-packed tensor, shown unpacked: [true] is a set bit,
    which stands for -1 (C01 and C06 relate this to the packed words). [VBool]:
    an i1 tensor. [VInt]: int32 thresholds. [VNone]: tfl.no_value. *)
Inductive value :=
| VF (t : tensor Q) | VBits (t : tensor bool) | VBool (t : tensor bool) | VInt (t : tensor Z) | VNone.

Definition teq {A} (R : A -> A -> Prop) (a b : tensor A) : Prop :=
  sh a = sh b /\ forall i, in_range (sh a) i -> R (at_ a i) (at_ b i).
(** The same value: same type, same shape, same elements. *)
Definition veq (v w : value) : Prop :=
  match v, w with
  | VF a, VF b => teq Qeq a b
  | VBits a, VBits b => teq eq a b
  | VBool a, VBool b => teq eq a b
  | VInt a, VInt b => teq eq a b
  | VNone, VNone => True
  | _, _ => False
  end.
Definition vshape (v : value) : list Z :=
  match v with VF t => sh t | VBits t => sh t | VBool t => sh t | VInt t => sh t | VNone => [] end.

(** ** Operators *)
Inductive binop := Add | Sub | Mul | Div.
Definition bin (k : binop) : Q -> Q -> Q :=
  match k with Add => Qplus | Sub => Qminus | Mul => Qmult | Div => Qdiv end.

Definition actQ (a : activation) (x : Q) : Q :=
  match a with
  | ActNone => x
  | ActRelu => Qmax 0 x
  | ActReluN1To1 => Qmax (- (1)) (Qmin 1 x)
  | ActRelu6 => Qmax 0 (Qmin 6 x)
  end%Q.

(** LQ_Bconv2dOp's attributes, lce_ops.td 124-143 *)
Record cattr := {
  ca_cin : Z; ca_dh : Z; ca_dw : Z; ca_act : activation;
  ca_padv : Z; ca_pad : padding; ca_sh : Z; ca_sw : Z
}.
(** Max pooling attributes: padding, stride_w, stride_h, filter_width, filter_height *)
Record pattr := { pa_pad : padding; pa_sw : Z; pa_sh : Z; pa_fw : Z; pa_fh : Z }.

(** Any other operator: a function of its operands' values, and what the patterns
    of the prepare pass see it as ([IRTf]). *)
Record tcattr := { tc_pad : padding; tc_sh : Z; tc_sw : Z; tc_dh : Z; tc_dw : Z }.  (* tf.Conv2D: padding, strides, dilations *)
(** Quantised operators, as the patterns of the quantise pass see them ([IRInt8]):
    tfl.quantize and tfl.dequantize with scale and zero point; LceQuantize of an int8
    tensor; LceDequantize and LceBconv2d with int8 results. *)
Inductive kind8 := TQ (s : Q) (z : Z) | TDQ (s : Q) (z : Z) | LQ8 (z : Z) | LDQ8 (s : Q) (z : Z) | LC8 (c : cattr) (s : Q) (z : Z).
Inductive kind := KConv2D (c : tcattr) | KSelect (v1 : bool) | KSign | KPad | KIdentity | KOther | K8 (k : kind8).
Record extop := {
  ek : kind;
  ef : list value -> option value;
  ef_ok : forall vs ws v, Forall2 veq vs ws -> ef vs = Some v -> exists w, ef ws = Some w /\ veq v w
}.

Inductive op :=
| OConst (v : value)                        (* arith.constant *)
| ONone                                     (* tfl.no_value *)
| OQuant | ODequant                         (* lq.Quantize, lq.Dequantize to float *)
| OGe | OLe                                 (* tfl.greater_equal, tfl.less_equal *)
| OBin (k : binop) (a : activation)         (* tfl.add, sub, mul, div with fused activation *)
| OAct (a : activation)                     (* tfl.relu, relu_n1_to_1, relu6 *)
| OMaxPool (p : pattr) (a : activation)     (* tfl.max_pool_2d *)
| OBMaxPool (p : pattr)                     (* lq.BMaxPool2d *)
| OConv (c : cattr)                         (* lq.Bconv2d: input, filter, multiplier, bias, threshold *)
| OOther (x : extop).

(** *** Meaning of the operators *)

(** Rows (or columns) of a window inside an image of [n] rows. *)
Definition win (n o s p f : Z) : list Z :=
  filter (fun i => (0 <=? i) && (i <? n)) (map (fun k => o * s - p + k) (build f (fun k => k))).
Definition window_list {A} (t : tensor A) (p : pattr) (H W py px c x y b : Z) : list A :=
  flat_map (fun iy => map (fun ix => at_ t [c; ix; iy; b]) (win W x (pa_sw p) px (pa_fw p)))
           (win H y (pa_sh p) py (pa_fh p)).
(** Maximum. TFLite starts from the lowest float; -1 plays that role for an empty
    window (no window is empty, C39). *)
Definition maxl (l : list Q) : Q := match l with [] => - (1) | x :: l' => fold_left Qmax l' x end%Q.
Definition pool {A B} (f : list A -> B) (p : pattr) (t : tensor A) : option (tensor B) :=
  match sh t with
  | [C; W; H; N] =>
      let '(oh, py) := padding1D (pa_pad p) H (pa_fh p) (pa_sh p) 1 in
      let '(ow, px) := padding1D (pa_pad p) W (pa_fw p) (pa_sw p) 1 in
      Some (mkT [C; ow; oh; N] (fun i => match i with
        | [c; x; y; b] => f (window_list t p H W py px c x y b) | _ => f [] end))
  | _ => None
  end.

(** The geometry bconv2d.cc 148-211 computes, or None where Prepare fails. The
    filter has shape [Co,KH,KW,ci]; groups as in bconv2d.cc 174-190. Empty channel
    dimensions are treated as failures too. *)
Definition is_same (p : padding) : bool := match p with PadSame => true | _ => false end.
Definition bc_geom (c : cattr) (si sf : list Z) : option geom :=
  match si, sf with
  | [C; W; H; N], [ci; KW; KH; Co] =>
      if (C =? ca_cin c) && (0 <? C) && (0 <? ci) && (0 <=? KW) && (0 <=? KH) && (C mod ci =? 0) && (Co mod (C / ci) =? 0) &&
         ((C =? ci) || (ci mod 32 =? 0)) then
        let '(oh, py) := padding1D (ca_pad c) H KH (ca_sh c) (ca_dh c) in
        let '(ow, px) := padding1D (ca_pad c) W KW (ca_sw c) (ca_dw c) in
        Some {| gB := N; gH := H; gW := W; gKH := KH; gKW := KW; gOH := oh; gOW := ow;
                gSH := ca_sh c; gSW := ca_sw c; gDH := ca_dh c; gDW := ca_dw c; gPH := py; gPW := px;
                gG := C / ci; gCI := ci; gCO := Co / (C / ci) |}
      else None
  | _, _ => None
  end.
(** Zero padding: bconv2d.cc 192-204 (accepted by some kernel). *)
Definition pad_ok (c : cattr) (float_out : bool) : bool :=
  negb (is_same (ca_pad c) && (ca_padv c =? 0)) ||
  (Z.even (ca_cin c)) || (float_out && match ca_act c with ActNone => true | _ => false end).
(** The value of the pixels outside the image (none is used with VALID padding). *)
Definition pad_pixel (c : cattr) : Z := if is_same (ca_pad c) && (ca_padv c =? 0) then 0 else 1.
(** The +1/-1 convolution; filter elements count by their sign. *)
Definition bc_conv (c : cattr) (g : geom) (ti : tensor bool) (tf : tensor Q) (b y x o : Z) : Z :=
  conv g (pad_pixel c) (fun b y x k => pm (at_ ti [k; x; y; b]))
       (fun o fy fx k => pm (Qlt_bool (at_ tf [k; fx; fy; o]) 0)) b y x o.
Definition out_sh (g : geom) (Co : Z) : list Z := [Co; gOW g; gOH g; gB g].
Definition dim_out (sf : list Z) : Z := match sf with [_; _; _; Co] => Co | _ => 0 end.
(** Float output: C08's formula; Prepare's checks bconv2d.cc 221-229. *)
Definition bc_float (c : cattr) (ti : tensor bool) (tf m b : tensor Q) : option value :=
  match bc_geom c (sh ti) (sh tf) with
  | Some g =>
      let Co := dim_out (sh tf) in
      if pad_ok c true && match sh m, sh b with [d], [e] => (d =? Co) && (e =? Co) | _, _ => false end
      then Some (VF (mkT (out_sh g Co) (fun i => match i with
        | [o; x; y; n] => (at_ m [o] * inject_Z (act_spec (ca_act c) (bc_conv c g ti tf n y x o)) + at_ b [o])%Q
        | _ => 0%Q end)))
      else None
  | None => None
  end.
(** Bit-packed output: a set bit iff the number of mismatches exceeds the
    threshold (C10); Prepare's checks bconv2d.cc 213-217. *)
Definition bc_bits (c : cattr) (ti : tensor bool) (tf : tensor Q) (th : tensor Z) : option value :=
  match bc_geom c (sh ti) (sh tf) with
  | Some g =>
      let Co := dim_out (sh tf) in
      if pad_ok c false && match sh th with [d] => d =? Co | _ => false end
      then Some (VBits (mkT (out_sh g Co) (fun i => match i with
        | [o; x; y; n] => at_ th [o] <? (taps g - bc_conv c g ti tf n y x o) / 2
        | _ => false end)))
      else None
  | None => None
  end.

Definition denote (o : op) (vs : list value) : option value :=
  match o, vs with
  | OConst v, [] => Some v
  | ONone, [] => Some VNone
  | OQuant, [VF t] => Some (VBits (tmap (fun x => Qlt_bool x 0) t))       (* quantization.cc: sign bit *)
  | OQuant, [VBool t] => Some (VBits (tmap negb t))                       (* true is +1 *)
  | ODequant, [VBits t] => Some (VF (tmap (fun b => inject_Z (pm b)) t))
  | OGe, [VF a; VF b] => option_map VBool (bmap2 (fun x y => Qle_bool y x) a b)
  | OLe, [VF a; VF b] => option_map VBool (bmap2 (fun x y => Qle_bool x y) a b)
  | OBin k f, [VF a; VF b] => option_map VF (bmap2 (fun x y => actQ f (bin k x y)) a b)
  | OAct f, [VF a] => Some (VF (tmap (actQ f) a))
  | OMaxPool p f, [VF a] => option_map VF (pool (fun l => actQ f (maxl l)) p a)
  | OBMaxPool p, [VBits a] => option_map VBits (pool (forallb (fun b => b)) p a)
  | OConv c, [VBits i; VF f; VF m; VF b; VNone] => bc_float c i f m b
  | OConv c, [VBits i; VF f; VNone; VNone; VInt t] => bc_bits c i f t
  | OOther x, vs => ef x vs
  | _, _ => None
  end.

(** ** Programs *)
Definition instr : Type := nat * op * list nat.
Definition iid (i : instr) : nat := fst (fst i).
Definition iop (i : instr) : op := snd (fst i).
Definition iargs (i : instr) : list nat := snd i.

Definition env := nat -> option value.
Definition upd (e : env) (r : nat) (v : value) : env := fun x => if Nat.eqb x r then Some v else e x.
Fixpoint look (e : env) (l : list nat) : option (list value) :=
  match l with
  | [] => Some []
  | x :: l' => match e x, look e l' with Some v, Some vs => Some (v :: vs) | _, _ => None end
  end.
(** Runs every instruction in order; None if one of them fails. *)
Fixpoint eval (p : list instr) (e : env) : option env :=
  match p with
  | [] => Some e
  | (r, o, a) :: p' =>
      match look e a with
      | Some vs => match denote o vs with Some v => eval p' (upd e r v) | None => None end
      | None => None
      end
  end.

(** SSA form: [S] are the ids of the function's arguments. *)
Fixpoint ssa (S : list nat) (p : list instr) : Prop :=
  match p with
  | [] => True
  | (r, o, a) :: p' => (forall x, In x a -> In x S) /\ ~ In r S /\ ssa (r :: S) p'
  end.

Definition def (p : list instr) (x : nat) : option (op * list nat) :=
  match find (fun i => Nat.eqb (iid i) x) p with Some i => Some (iop i, iargs i) | None => None end.
Definition cnt (x : nat) (l : list nat) : nat := count_occ Nat.eq_dec l x.
(** Number of uses of [x]: as an operand, or as a result of the function. *)
Fixpoint uses (p : list instr) (outs : list nat) (x : nat) : nat :=
  match p with [] => cnt x outs | i :: p' => (cnt x (iargs i) + uses p' outs x)%nat end.

(** ** The patterns *)
(** common.h 9-16 IsConstantValue *)
Definition is_constant (t : tensor Q) (v : Q) : bool :=
  forallb (fun k => Qeq_bool (flat t k) v) (build (numel (sh t)) (fun k => k)).
(** optimize.cc 190-203 GetSignsOfVectorAndBroadcast4D. The assertion that the
    vector has rank 1 does nothing in a release build; the length is the
    outermost dimension. *)
Definition signs_4d (m : tensor Q) : tensor Q :=
  mkT [1; 1; 1; last (sh m) 1] (fun i => if Qle_bool 0 (flat m (last i 0)) then 1%Q else (- (1))%Q).
(** optimize.cc 205-245 GetBitpackedOutputThresholds, 131-188: llvm::zip stops at
    the shorter of the two arrays. *)
Definition thresholds (f m b : tensor Q) (a : activation) : tensor Z :=
  let bt := match sh f with [ci; kw; kh; _] => kh * kw * ci | _ => 0 end in
  let '(lo, hi) := clamp_min_max a bt in
  mkT [Z.min (numel (sh m)) (numel (sh b))] (fun i =>
    let k := match i with [k] => k | _ => 0 end in
    threshold_one Qcarrier (inject_Z bt) (inject_Z lo) (inject_Z hi) (flat m k) (flat b k)).

(** What must hold of the constants and attributes for the patterns to be right;
    the code checks none of it. [g_const x s]: a constant of shape [s] is
    combined with [x]. *)
Record guard := {
  g_const : nat -> list Z -> Prop;
  g_filter : tensor Q -> Prop;
  g_act : activation -> Prop
}.
(** The patterns as they are in the code. *)
Definition as_is : guard := {| g_const := fun _ _ => True; g_filter := fun _ => True; g_act := fun _ => True |}.

Definition with_act (c : cattr) (a : activation) : cattr :=
  {| ca_cin := ca_cin c; ca_dh := ca_dh c; ca_dw := ca_dw c; ca_act := a; ca_padv := ca_padv c;
     ca_pad := ca_pad c; ca_sh := ca_sh c; ca_sw := ca_sw c |}.

(** [rule G arm D root inner news root']: the operation [root] (operator and
    operands), whose operand [inner] is defined by a matching operation, is
    replaced by [root'] after inserting [news]. [D] finds definitions. *)
Section Rules.
  Variable G : guard.
  Variable arm : bool.
  Variable D : nat -> option (op * list nat).
  Inductive rule : op * list nat -> nat -> list instr -> op * list nat -> Prop :=
  (* optimize_patterns_common.td 17-23 *)
  | R_ge_zero g x c t :
      D g = Some (OGe, [x; c]) -> D c = Some (OConst (VF t), []) -> is_constant t 0 = true ->
      g_const G x (sh t) ->
      rule (OQuant, [g]) g [] (OQuant, [x])
  (* 25-31 *)
  | R_ge g x c f1 :
      D g = Some (OGe, [x; c]) ->
      rule (OQuant, [g]) g [(f1, OBin Sub ActNone, [x; c])] (OQuant, [f1])
  (* 33-37 *)
  | R_le g l r f1 :
      D g = Some (OLe, [l; r]) ->
      rule (OQuant, [g]) g [(f1, OGe, [r; l])] (OQuant, [f1])
  (* 40-75 FuseAddOrSubWithBConv2D *)
  | R_add k cv v c i f m b t tb tv f1 f2 f3 :
      (k = Add \/ k = Sub) ->
      D cv = Some (OConv c, [i; f; m; b; t]) ->
      D b = Some (OConst (VF tb), []) -> D v = Some (OConst (VF tv), []) ->
      g_const G cv (sh tv) ->
      rule (OBin k ActNone, [cv; v]) cv
        [(f1, OConst (VF tb), []); (f2, OConst (VF tv), []); (f3, OBin k ActNone, [f1; f2])]
        (OConv c, [i; f; m; f3; t])
  (* 78-115 FuseMulOrDivWithBConv2D *)
  | R_mul k cv v c i f m b t tm tb tv f1 f2 f3 f4 f5 f6 :
      (k = Mul \/ k = Div) ->
      D cv = Some (OConv c, [i; f; m; b; t]) ->
      D m = Some (OConst (VF tm), []) -> D b = Some (OConst (VF tb), []) -> D v = Some (OConst (VF tv), []) ->
      g_const G cv (sh tv) ->
      rule (OBin k ActNone, [cv; v]) cv
        [(f1, OConst (VF tm), []); (f2, OConst (VF tv), []); (f3, OBin k ActNone, [f1; f2]);
         (f4, OConst (VF tb), []); (f5, OConst (VF tv), []); (f6, OBin k ActNone, [f4; f5])]
        (OConv c, [i; f; f3; f6; t])
  (* 119-182 FuseActFnIntoConvOpPat: VALID padding, or SAME padding with ones *)
  | R_act a cv c i f m b t tm tb f1 f2 :
      a <> ActNone ->
      D cv = Some (OConv c, [i; f; m; b; t]) ->
      D m = Some (OConst (VF tm), []) -> is_constant tm 1 = true ->
      D b = Some (OConst (VF tb), []) -> is_constant tb 0 = true ->
      ca_act c = ActNone ->
      (ca_pad c = PadValid \/ (ca_pad c = PadSame /\ ca_padv c = 1)) ->
      rule (OAct a, [cv]) cv [(f1, OConst (VF tm), []); (f2, OConst (VF tb), [])]
        (OConv (with_act c a), [i; f; f1; f2; t])
  (* optimize_patterns_target_arm.td 4-20 *)
  | R_pool mp x p a f1 :
      arm = true ->
      D mp = Some (OMaxPool p a, [x]) ->
      g_act G a ->
      rule (OQuant, [mp]) mp [(f1, OQuant, [x])] (OBMaxPool p, [f1])
  (* bitpack_activations_patterns.td 20-60 *)
  | R_bits cv c i f m b t tf tm tb f1 f2 f3 f4 f5 f6 :
      D cv = Some (OConv c, [i; f; m; b; t]) ->
      D f = Some (OConst (VF tf), []) -> D m = Some (OConst (VF tm), []) -> D b = Some (OConst (VF tb), []) ->
      D t = Some (ONone, []) ->
      (ca_pad c = PadValid /\ ca_padv c = 0 \/ ca_pad c = PadSame /\ ca_padv c = 1) ->
      g_filter G tf ->
      rule (OQuant, [cv]) cv
        [(f1, OConst (VF tf), []); (f2, OConst (VF (signs_4d tm)), []); (f3, OBin Mul ActNone, [f1; f2]);
         (f4, ONone, []); (f5, ONone, []); (f6, OConst (VInt (thresholds tf tm tb (ca_act c))), [])]
        (OConv c, [i; f3; f4; f5; f6]).
End Rules.

(** Operators with a constant folder: lce_ops.cc 70-83, TFL's arithmetic. *)
Definition foldable (o : op) : bool :=
  match o with OQuant | ODequant | OBin _ _ => true | _ => false end.
Definition consts (D : nat -> option (op * list nat)) (l : list nat) (vs : list value) : Prop :=
  Forall2 (fun x v => D x = Some (OConst v, [])) l vs.

(** One action of applyPatternsAndFoldGreedily (optimize.cc 261-274) on a function
    with results [outs], in any order: a pattern at an operation that is not
    dead, whose matched operand has one use; a fold; or the removal of a dead
    operation. The driver is free to choose. *)
Inductive step (G : guard) (arm : bool) (S : list nat) (outs : list nat) : list instr -> list instr -> Prop :=
| S_rule pre r o a post inner news o' a' :
    rule G arm (def pre) (o, a) inner news (o', a') ->
    (uses (pre ++ (r, o, a) :: post) outs inner = 1)%nat ->                  (* HasOneUse *)
    (0 < uses (pre ++ (r, o, a) :: post) outs r)%nat ->
    NoDup (map iid news) ->
    (forall x, In x (map iid news) -> ~ In x S /\ ~ In x (map iid (pre ++ (r, o, a) :: post))) ->
    step G arm S outs (pre ++ (r, o, a) :: post) (pre ++ news ++ (r, o', a') :: post)
| S_fold pre r o a post vs v :
    foldable o = true -> consts (def pre) a vs -> denote o vs = Some v ->
    (0 < uses (pre ++ (r, o, a) :: post) outs r)%nat ->
    step G arm S outs (pre ++ (r, o, a) :: post) (pre ++ (r, OConst v, []) :: post)
| S_dead pre i post :
    uses (pre ++ i :: post) outs (iid i) = 0%nat ->
    step G arm S outs (pre ++ i :: post) (pre ++ post).

(** Any finite sequence of steps, the guard being re-evaluated at every program. *)
Inductive steps (G : list instr -> guard) (arm : bool) (S outs : list nat) : list instr -> list instr -> Prop :=
| steps_nil p : steps G arm S outs p p
| steps_cons p q r : step (G p) arm S outs p q -> steps G arm S outs q r -> steps G arm S outs p r.

(** The conditions under which the theorem holds, for a run from [e0]: fused or
    dropped constants have rank at most 1 and do not enlarge the tensor they are
    combined with; binary filters hold only +1 and -1; max pooling before a
    quantise has no activation, or RELU_N1_TO_1. *)
Definition fits (e0 : env) (p : list instr) : guard :=
  {| g_const := fun x s => (length s <= 1)%nat /\
       exists e v, eval p e0 = Some e /\ e x = Some v /\ bsh (vshape v) s = Some (vshape v);
     g_filter := fun t => (forall i, in_range (sh t) i -> at_ t i == 1 \/ at_ t i == - (1))%Q /\
       numel (removelast (sh t)) < 2 ^ 31;
     g_act := fun a => a = ActNone \/ a = ActReluN1To1 |}.
