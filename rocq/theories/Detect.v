(** * The detection post-processing pass

    larq_compute_engine/mlir/transforms/detection_postprocess.cc: the custom
    operator TFLite_Detection_PostProcess is made to read the quantised tensors
    behind its three Dequantize operands and to produce quantised scores, which are
    dequantised afterwards.

    The operator has four results, so programs here are lists of instructions with
    any number of results. Types are explicit, as the pass looks at them. What the
    operators compute is left abstract (section variables). The driver
    (applyPatternsAndFoldGreedily) applies the pattern anywhere, in any order, and
    erases operators without memory effects whose results are unused; constant
    folding of other operators is not modelled here (it is in IRInt8.v). *)
From Coq Require Import String QArith.
From Verif Require Import Base.
Open Scope string_scope.
Open Scope list_scope.
Open Scope Z_scope.

(** Element types, as far as the pass distinguishes them: 32-bit integers, floats,
    half floats, !quant.uniform<i8:f32, scale:zero point>, per-axis quantised
    types, others. *)
Inductive ety := EI32 | EF32 | EF16 | EQ8 (scale : Q) (zp : Z) | EAxis | EOther.
(** A shaped type. *)
Definition ty : Type := (list Z * ety)%type.

Inductive opk :=
| KDequantize                              (* tfl.dequantize *)
| KCustom (code : string) (options : Z)    (* tfl.custom; the option bytes are opaque *)
| KPure (o : Z)                            (* any operator without memory effects *)
| KEffect (o : Z).                         (* any other operator *)
Record inst := { i_op : opk; i_args : list nat; i_res : list (nat * ty) }.
Definition ids (p : list inst) : list nat := flat_map (fun i => map fst (i_res i)) p.

(** Value::getDefiningOp, dyn_cast to DequantizeOp (detection_postprocess.cc:54-78).
    A tfl.dequantize has one operand and one result. *)
Fixpoint def_in (p : list inst) (x : nat) : option inst :=
  match p with [] => None | i :: p' => if existsb (Nat.eqb x) (map fst (i_res i)) then Some i else def_in p' x end.
Definition dequantize_input (p : list inst) (x : nat) : option nat :=
  match def_in p x with
  | Some i => match i_op i, i_args i, i_res i with KDequantize, [y], [_] => Some y | _, _, _ => None end
  | None => None
  end.
(** The type of a value: of an argument of the function or of a result. *)
Fixpoint assoc (l : list (nat * ty)) (x : nat) : option ty :=
  match l with [] => None | (y, t) :: l' => if Nat.eqb x y then Some t else assoc l' x end.
Definition type_of (A : list (nat * ty)) (p : list inst) (x : nat) : option ty := assoc (A ++ flat_map i_res p) x.

(** What the pattern does: it does not match, it aborts (a failed cast<>), or it
    replaces the operator by some operators. *)
Inductive outcome := NoMatch | Abort | Replace (l : list inst).
Definition ety_eqb (a b : ety) : bool :=
  match a, b with
  | EI32, EI32 | EF32, EF32 | EF16, EF16 => true
  | _, _ => false
  end.
(** detection_postprocess.cc:27-165. [A], [p] are the function's arguments and the
    operators before this one, [fresh] the new value. Lines 80-102 compare the
    result types with i32, i32, f32, i32; line 122 casts the scores' element type to
    UniformQuantizedType. The new operator's results 0, 1 and 3 replace the old
    ones everywhere, so they keep their names here. *)
Definition detection (A : list (nat * ty)) (p : list inst) (fresh : nat) (i : inst) : outcome :=
  match i_op i with
  | KCustom code opts =>
      if negb (String.eqb code "TFLite_Detection_PostProcess") then NoMatch else
      match i_args i, i_res i with
      | [b; s; a], [(r0, (sh0, e0)); (r1, (sh1, e1)); (r2, (sh2, e2)); (r3, (sh3, e3))] =>
          match dequantize_input p b, dequantize_input p s, dequantize_input p a with
          | Some b', Some s', Some a' =>
              if ety_eqb e0 EI32 && ety_eqb e1 EI32 && ety_eqb e2 EF32 && ety_eqb e3 EI32 then
                match type_of A p s' with
                | Some (_, EQ8 sc z) =>
                    Replace [ {| i_op := KCustom "TFLite_Detection_PostProcess" opts; i_args := [b'; s'; a'];
                                 i_res := [(r0, (sh0, EI32)); (r1, (sh1, EI32)); (fresh, (sh2, EQ8 sc z)); (r3, (sh3, EI32))] |};
                              {| i_op := KDequantize; i_args := [fresh]; i_res := [(r2, (sh2, EF32))] |} ]
                | _ => Abort
                end
              else NoMatch
          | _, _, _ => NoMatch
          end
      | _, _ => NoMatch
      end
  | _ => NoMatch
  end.

Definition pure (o : opk) : bool := match o with KDequantize | KPure _ => true | _ => false end.
Definition used (p : list inst) (outs : list nat) (x : nat) : Prop := In x outs \/ exists i, In i p /\ In x (i_args i).
Inductive dstep (A : list (nat * ty)) (outs : list nat) : list inst -> list inst -> Prop :=
| DS_rule pre i post fresh l :
    detection A pre fresh i = Replace l -> ~ In fresh (map fst A ++ ids (pre ++ i :: post)) ->
    dstep A outs (pre ++ i :: post) (pre ++ l ++ post)
| DS_dead pre i post :
    pure (i_op i) = true -> (forall x, In x (map fst (i_res i)) -> ~ used (pre ++ i :: post) outs x) ->
    dstep A outs (pre ++ i :: post) (pre ++ post).
Inductive dsteps (A : list (nat * ty)) (outs : list nat) : nat -> list inst -> list inst -> Prop :=
| dsteps_0 p : dsteps A outs 0 p p
| dsteps_S n p q r : dstep A outs p q -> dsteps A outs n q r -> dsteps A outs (Datatypes.S n) p r.

(** ** What programs compute *)
Section Sem.
  Context {V : Type}.
  Variable sem : opk -> list (ty * V) -> list ty -> option (list V).
  Definition denv : Type := nat -> option (ty * V).
  Definition dupd (e : denv) (x : nat) (v : ty * V) : denv := fun y => if Nat.eqb y x then Some v else e y.
  Fixpoint dset (e : denv) (l : list (nat * ty)) (vs : list V) : option denv :=
    match l, vs with
    | [], [] => Some e
    | (x, t) :: l', v :: vs' => dset (dupd e x (t, v)) l' vs'
    | _, _ => None
    end.
  Fixpoint dlook (e : denv) (l : list nat) : option (list (ty * V)) :=
    match l with
    | [] => Some []
    | x :: l' => match e x, dlook e l' with Some v, Some vs => Some (v :: vs) | _, _ => None end
    end.
  Definition dexec (e : denv) (i : inst) : option denv :=
    match dlook e (i_args i) with
    | Some vs => match sem (i_op i) vs (map snd (i_res i)) with Some rs => dset e (i_res i) rs | None => None end
    | None => None
    end.
  Fixpoint deval (e : denv) (p : list inst) : option denv :=
    match p with [] => Some e | i :: p' => match dexec e i with Some e' => deval e' p' | None => None end end.
End Sem.
