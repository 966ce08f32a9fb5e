(** * The C++ half of the Python interpreter: types, shapes, scales and zero points
    reported for the inputs and outputs, and predict on one sample
    (tflite/python/interpreter_wrapper_utils.h). [Misc.v] models the Python half. *)
From Verif Require Import Base Spec Float32.
From Coq Require Import SpecFloat.
Open Scope Z_scope.

(** ** Model *)
(** TfLiteType (tensorflow/lite/c/common.h, external); [TOther]: any other code. *)
Inductive ttype := TNone | TF32 | TI32 | TU8 | TI64 | TStr | TBool | TI16 | TI8 | TOther (k : Z).
(** The dtype objects numpy has for the eight C++ types named in lines 97-104, which are
    compared by identity, and any other dtype object. *)
Inductive dtype := DF32 | DU8 | DI8 | DI16 | DI32 | DI64 | DBool | DStr | DObj (k : Z).
(** interpreter_wrapper_utils.h 96-106 *)
Definition type_of_py (d : dtype) : ttype :=
  match d with
  | DF32 => TF32 | DU8 => TU8 | DI8 => TI8 | DI16 => TI16 | DI32 => TI32 | DI64 => TI64 | DBool => TBool | DStr => TStr
  | DObj _ => TNone
  end.
(** interpreter_wrapper_utils.h 108-131; None: an exception. *)
Definition py_of_type (t : ttype) : option dtype :=
  match t with
  | TF32 => Some DF32 | TU8 => Some DU8 | TI8 => Some DI8 | TI16 => Some DI16 | TI32 => Some DI32 | TI64 => Some DI64
  | TBool => Some DBool | TStr => Some DStr
  | TNone | TOther _ => None
  end.
(** TfLiteAffineQuantization, TfLiteQuantization (external); a null pointer is None.
    Scales are binary32 words. *)
Record affine := { q_scale : option (list Z); q_zero : option (list Z) }.
Inductive quantization := QNone | QAffine (p : option affine) | QOther (k : Z).
(** TfLiteTensor (external): the fields the wrapper reads or writes. *)
Record tensor := { t_type : ttype; t_dims : list Z; t_bytes : Z; t_raw : list Z; t_quant : quantization; t_scale : Z; t_zero : Z }.
Definition set_raw (t : tensor) (d : list Z) : tensor :=
  {| t_type := t_type t; t_dims := t_dims t; t_bytes := t_bytes t; t_raw := d; t_quant := t_quant t; t_scale := t_scale t; t_zero := t_zero t |}.
(** A contiguous numpy array: pybind11::array::ensure with c_style (line 283) makes one of
    any array, of the same dtype, shape and elements. [a_bytes]: its bytes in row-major order. *)
Record array := { a_dtype : dtype; a_shape : list Z; a_bytes : list Z }.
(** The interpreter: its tensors, and Invoke, which maps the tensors to new ones or fails. *)
Definition state := Z -> tensor.
Record interp := { i_inputs : list Z; i_outputs : list Z; i_invoke : state -> bool * state }.
Fixpoint all {A} (l : list (option A)) : option (list A) :=
  match l with
  | [] => Some []
  | None :: _ => None
  | Some a :: l => let* r := all l in Some (a :: r)
  end.
(** Lines 171-183, 185-200; None: an exception. *)
Definition get_types (st : state) (ids : list Z) : option (list dtype) := all (map (fun i => py_of_type (t_type (st i))) ids).
Definition get_shapes (st : state) (ids : list Z) : list (list Z) := map (fun i => t_dims (st i)) ids.
(** Lines 202-233, one tensor. *)
Definition zero_point_of (t : tensor) : option (option Z) :=
  match t_quant t with
  | QAffine p =>
      let* p := p in
      let* zs := q_zero p in
      if forallb (fun z => z =? t_zero t) zs then Some (Some (t_zero t)) else None
  | _ => Some None
  end.
Definition get_zero_points (st : state) (ids : list Z) : option (list (option Z)) := all (map (fun i => zero_point_of (st i)) ids).
(** Lines 235-267, one tensor: None, a float or a list of floats. *)
Inductive scale_py := SNone | SOne (s : Z) | SList (l : list Z).
Definition scale_of (t : tensor) : option scale_py :=
  match t_quant t with
  | QAffine p =>
      let* p := p in
      let* ss := q_scale p in
      match ss with
      | [s] => if SFeqb (decode32 s) (decode32 (t_scale t)) then Some (SOne (t_scale t)) else None
      | _ => Some (SList ss)
      end
  | _ => Some SNone
  end.
Definition get_scales (st : state) (ids : list Z) : option (list scale_py) := all (map (fun i => scale_of (st i)) ids).
(** Lines 133-169 SetTensorFromNumpy; None: an exception. The four checks in order. *)
Fixpoint same_dims (l m : list Z) : bool :=
  match l, m with
  | [], [] => true
  | x :: l, y :: m => (x =? y) && same_dims l m
  | _, _ => false
  end.
Definition ttype_eqb (a b : ttype) : bool :=
  match a, b with
  | TNone, TNone | TF32, TF32 | TI32, TI32 | TU8, TU8 | TI64, TI64 | TStr, TStr | TBool, TBool | TI16, TI16 | TI8, TI8 => true
  | TOther j, TOther k => j =? k
  | _, _ => false
  end.
Definition set_tensor (t : tensor) (a : array) : option tensor :=
  if negb (ttype_eqb (type_of_py (a_dtype a)) (t_type t)) then None
  else if negb (zlen (a_shape a) =? zlen (t_dims t)) then None
  else if negb (same_dims (t_dims t) (a_shape a)) then None
  else if negb (zlen (a_bytes a) =? t_bytes t) then None
  else Some (set_raw t (a_bytes a)).
Definition upd (st : state) (i : Z) (t : tensor) : state := fun j => if j =? i then t else st j.
(** Lines 269-303 predict: an exception (None) or the list of results, and the state left
    behind, on the null-checked interpreter. *)
Fixpoint set_inputs (ids : list Z) (l : list array) (st : state) : bool * state :=
  match ids, l with
  | i :: ids, a :: l => match set_tensor (st i) a with
                        | None => (false, st)
                        | Some t => set_inputs ids l (upd st i t)
                        end
  | _, _ => (true, st)
  end.
Definition result_of (t : tensor) : option array :=
  let* d := py_of_type (t_type t) in Some {| a_dtype := d; a_shape := t_dims t; a_bytes := t_raw t |}.
Definition predict (m : interp) (st : state) (l : list array) : option (list array) * state :=
  if negb (zlen l =? zlen (i_inputs m)) then (None, st)
  else let '(ok, st) := set_inputs (i_inputs m) l st in
  if negb ok then (None, st)
  else let '(ok, st) := i_invoke m st in
  if negb ok then (None, st)
  else (all (map (fun i => result_of (st i)) (i_outputs m)), st).

(** ** Proofs *)
Lemma all_spec {A} (l : list (option A)) r : all l = Some r <-> l = map Some r.
Proof.
  revert r. induction l as [|[a|] l IH]; intros r; cbn [all].
  - split; [intros [= <-]; reflexivity|]. destruct r; [reflexivity|discriminate].
  - split.
    + destruct (all l) as [r'|] eqn:E; [|discriminate]. intros [= <-]. cbn [map]. f_equal. now apply IH.
    + destruct r as [|b r]; [discriminate|]. cbn [map]. intros [= -> H]. apply IH in H. now rewrite H.
  - split; [discriminate|]. destruct r; discriminate.
Qed.
Lemma all_none {A} (l : list (option A)) : all l = None <-> In None l.
Proof.
  induction l as [|[a|] l IH]; cbn [all In].
  - split; [discriminate|contradiction].
  - destruct (all l) as [r|] eqn:E; cbn [bind].
    + split; [discriminate|]. intros [H|H]; [discriminate|]. apply IH in H. discriminate.
    + split; [|reflexivity]. intros _. right. now apply IH.
  - split; [now left|reflexivity].
Qed.
Lemma ttype_eqb_ok a b : ttype_eqb a b = true <-> a = b.
Proof. split; [|intros <-; destruct a; cbn; try reflexivity; apply Z.eqb_refl]. destruct a, b; cbn; try discriminate; try reflexivity. intros H. apply Z.eqb_eq in H. now subst. Qed.
Lemma same_dims_ok l m : same_dims l m = true <-> l = m.
Proof.
  revert m. induction l as [|x l IH]; intros [|y m]; cbn [same_dims]; try (split; congruence).
  rewrite andb_true_iff, Z.eqb_eq, IH. split; [intros [-> ->]; reflexivity|]. intros [= -> ->]. now split.
Qed.
Lemma type_back t d : py_of_type t = Some d -> type_of_py d = t.
Proof. destruct t; cbn; intros [= <-]; reflexivity. Qed.
Lemma type_forth d : type_of_py d <> TNone -> py_of_type (type_of_py d) = Some d.
Proof. destruct d; cbn; congruence. Qed.
Lemma set_tensor_ok t a : (exists t', set_tensor t a = Some t') <->
  type_of_py (a_dtype a) = t_type t /\ a_shape a = t_dims t /\ zlen (a_bytes a) = t_bytes t.
Proof.
  unfold set_tensor. destruct (ttype_eqb _ _) eqn:E1; cbn [negb].
  2:{ split; [intros [t' H]; discriminate|]. intros [H _]. apply ttype_eqb_ok in H. congruence. }
  apply ttype_eqb_ok in E1. destruct (zlen (a_shape a) =? zlen (t_dims t)) eqn:E2; cbn [negb].
  2:{ split; [intros [t' H]; discriminate|]. intros (_ & H & _). rewrite H in E2. rewrite Z.eqb_refl in E2. discriminate. }
  destruct (same_dims _ _) eqn:E3; cbn [negb].
  2:{ split; [intros [t' H]; discriminate|]. intros (_ & H & _). symmetry in H. apply same_dims_ok in H. congruence. }
  apply same_dims_ok in E3. destruct (Z.eqb_spec (zlen (a_bytes a)) (t_bytes t)); cbn [negb].
  - split; [|intros _; eexists; reflexivity]. intros _. split; [assumption|]. split; congruence.
  - split; [intros [t' H]; discriminate|]. tauto.
Qed.
