(** * GraphUtil: the flatbuffer utilities of mlir/python/util.py, with an
    evaluation semantics of TFLite subgraphs. *)
From Coq Require Import String Permutation.
From Verif Require Import Base Spec Misc.
Open Scope string_scope.
Open Scope Z_scope.

Section GraphUtil.
  Context {V : Type}.

  (** ** Models as objects (tflite_schema.ModelT; generated code, external).
      A tensor is its type, constant contents and anything else ([t_meta]: name,
      shape, quantization, ...); an operator is its opcode index, options, and
      tensor indices (-1: absent optional input). *)
  Record tensor := { t_type : Z; t_const : option V; t_meta : Z }.
  Record oper := { o_code : Z; o_opts : Z; o_in : list Z; o_out : list Z }.
  Record graph := { g_tensors : list tensor; g_in : list Z; g_out : list Z; g_ops : list oper }.
  Record opcode := { c_builtin : Z; c_custom : string }.
  (** A SignatureDef is the tensor indices of its inputs and outputs. *)
  Record tfmodel := { m_codes : list opcode; m_graphs : list graph; m_sigs : list (list Z * list Z) }.
  Definition FLOAT32 := 0. Definition INT32 := 2. Definition INT8 := 9.
  Definition B_DEQUANTIZE := 6. Definition B_QUANTIZE := 114.

  Definition mem (x : Z) (l : list Z) : bool := existsb (Z.eqb x) l.
  (** Python indexing: negative indices count from the end. *)
  Definition pyrd {A} (l : list A) (i : Z) : option A := if i <? 0 then rd l (zlen l + i) else rd l i.

  (** ** Removing tensors: util.py 66-105 *)
  Fixpoint minl (x : Z) (l : list Z) : Z := match l with [] => x | y :: l' => minl (Z.min x y) l' end.
  (** util.py 81-87: the dictionary d_old_to_new_tensors, for indices idx ... idx+k-1. *)
  Fixpoint old_to_new (k : nat) (idx left_shift_by : Z) (R : list Z) : list (Z * Z) :=
    match k with
    | O => []
    | Datatypes.S k' => if mem idx R then old_to_new k' (idx + 1) (left_shift_by + 1) R
                        else (idx, idx - left_shift_by) :: old_to_new k' (idx + 1) left_shift_by R
    end.
  Fixpoint dget (d : list (Z * Z)) (i : Z) : option Z :=
    match d with [] => None | (a, b) :: d' => if a =? i then Some b else dget d' i end.
  (** util.py 90-92 update_tensors *)
  Definition update_tensors (d : list (Z * Z)) (l : list Z) : list Z :=
    map (fun ti => match dget d ti with Some j => j | None => -1 end) l.
  (** util.py 57-63 _update_signature_def_tensors *)
  Definition update_sig (d : list (Z * Z)) (l : list Z) : list Z :=
    map (fun ti => match dget d ti with Some j => j | None => ti end) l.
  Definition on_first_sig (f g : list Z -> list Z) (s : list (list Z * list Z)) : list (list Z * list Z) :=
    match s with [] => [] | (i, o) :: s' => (f i, g o) :: s' end.
  (** sorted(R, reverse=True) *)
  Fixpoint insert_desc (x : Z) (l : list Z) : list Z :=
    match l with [] => [x] | y :: l' => if y <=? x then x :: l else y :: insert_desc x l' end.
  Definition sorted_desc (l : list Z) : list Z := fold_right insert_desc [] l.
  (** list.pop(idx), for an index in the list (otherwise IndexError, which cannot
      happen here: the indices removed are indices of tensors). *)
  Definition pop {A} (l : list A) (i : Z) : list A := firstn (Z.to_nat i) l ++ skipn (Z.to_nat i + 1) l.
  Definition update_op (d : list (Z * Z)) (o : oper) : oper :=
    {| o_code := o_code o; o_opts := o_opts o; o_in := update_tensors d (o_in o); o_out := update_tensors d (o_out o) |}.
  (** util.py 66-105 _remove_tensors_from_model; [R] is the set, without
      duplicates. *)
  Definition remove_tensors (g : graph) (sigs : list (list Z * list Z)) (R : list Z) : graph * list (list Z * list Z) :=
    match R with
    | [] => (g, sigs)
    | r :: R' =>
        let n := zlen (g_tensors g) in
        if minl r R' =? n - zlen R then
          ({| g_tensors := firstn (Z.to_nat (minl r R')) (g_tensors g); g_in := g_in g; g_out := g_out g; g_ops := g_ops g |}, sigs)
        else
          let d := old_to_new (Z.to_nat n) 0 0 R in
          ({| g_tensors := fold_left pop (sorted_desc R) (g_tensors g);
              g_in := update_tensors d (g_in g); g_out := update_tensors d (g_out g);
              g_ops := map (update_op d) (g_ops g) |},
           on_first_sig (update_sig d) (update_sig d) sigs)
    end.

  (** ** Finding the operators to strip *)
  (** util.py 115-122, 242-249: the last index of each of two kinds of opcode seen
      before both were seen. *)
  Fixpoint scan (p q : opcode -> bool) (idx : Z) (codes : list opcode) (a b : option Z) : option Z * option Z :=
    match codes with
    | [] => (a, b)
    | c :: cs =>
        let a' := if p c then Some idx else a in
        let b' := if p c then b else if q c then Some idx else b in
        match a', b' with Some _, Some _ => (a', b') | _, _ => scan p q (idx + 1) cs a' b' end
    end.
  Definition is_code (o : oper) (i : option Z) : bool := match i with Some k => o_code o =? k | None => false end.
  (** An operator to remove: graph input [ext] quantised to [int], or [int]
      dequantised to graph output [ext]; or an operator to keep. *)
  Inductive kind := KIn (ext int : Z) | KOut (ext int : Z) | KNone.
  Definition check_types (g : graph) (ext int : Z) (ext_ok int_ok : Z -> bool) (k : kind) : option kind :=
    let* te := pyrd (g_tensors g) ext in let* ti := pyrd (g_tensors g) int in
    if ext_ok (t_type te) then if int_ok (t_type ti) then Some k else None else None.
  (** The condition [op.opcodeIndex == idx and op.inputs[0] in subgraph.inputs]. *)
  Definition first_in (idx : option Z) (o : oper) (refs io : list Z) : option bool :=
    if is_code o idx then let* t := rd refs 0 in Some (mem t io) else Some false.
  (** util.py 129-171: one iteration of the loop of _find_int8_quantized_inputs_outputs *)
  Definition classify (qi di : option Z) (g : graph) (o : oper) : option kind :=
    let* isin := first_in qi o (o_in o) (g_in g) in
    if isin : bool then
      let* e := rd (o_in o) 0 in let* i := rd (o_out o) 0 in
      check_types g e i (Z.eqb FLOAT32) (Z.eqb INT8) (KIn e i)
    else
      let* isout := first_in di o (o_out o) (g_out g) in
      if isout : bool then
        let* e := rd (o_out o) 0 in let* i := rd (o_in o) 0 in
        check_types g e i (Z.eqb FLOAT32) (Z.eqb INT8) (KOut e i)
      else Some KNone.
  (** util.py 262-294 (Dequantize) and 316-351 (LceDequantize): only outputs. *)
  Definition classify_out (di : option Z) (ext_ok int_ok : Z -> bool) (g : graph) (o : oper) : option kind :=
    let* isout := first_in di o (o_out o) (g_out g) in
    if isout : bool then
      let* e := rd (o_out o) 0 in let* i := rd (o_in o) 0 in
      check_types g e i ext_ok int_ok (KOut e i)
    else Some KNone.

  (** ** Stripping *)
  Definition replace (a b : Z) (l : list Z) : list Z := map (fun x => if x =? a then b else x) l.
  Definition set_add (x : Z) (R : list Z) : list Z := if mem x R then R else R ++ [x].
  Definition st := (list Z * list Z * list (list Z * list Z) * list Z)%type.
  (** util.py 195-204, 208-217, 297-305, 354-362: the body of the loops over the
      operators to remove; the state is inputs, outputs, signatures and the set. *)
  Definition strip_step (s : st) (k : kind) : st :=
    let '(ins, outs, sigs, R) := s in
    match k with
    | KIn e i => (replace e i ins, outs, on_first_sig (replace e i) (fun l => l) sigs, set_add e R)
    | KOut e i => (ins, replace e i outs, on_first_sig (fun l => l) (replace e i) sigs, set_add e R)
    | KNone => s
    end.
  (** Only operators of kind KNone are kept (operators.remove compares identity). *)
  Fixpoint keep (kinds : list kind) (ops : list oper) : list oper :=
    match kinds, ops with
    | KNone :: ks, o :: os => o :: keep ks os
    | _ :: ks, _ :: os => keep ks os
    | _, _ => []
    end.
  (** One stripping phase: the loops over the operators, inputs first, and the
      removal of tensors. *)
  Definition is_in (k : kind) : bool := match k with KIn _ _ => true | _ => false end.
  Definition is_out (k : kind) : bool := match k with KOut _ _ => true | _ => false end.
  Definition strip1 (g : graph) (sigs : list (list Z * list Z)) (kinds : list kind) : graph * list (list Z * list Z) * list Z :=
    let '(ins, outs, sigs', R) := fold_left strip_step (filter is_in kinds ++ filter is_out kinds) (g_in g, g_out g, sigs, []) in
    ({| g_tensors := g_tensors g; g_in := ins; g_out := outs; g_ops := keep kinds (g_ops g) |}, sigs', R).
  Definition strip (g : graph) (sigs : list (list Z * list Z)) (kinds : list kind) : graph * list (list Z * list Z) :=
    let '(g1, s1, R) := strip1 g sigs kinds in remove_tensors g1 s1 R.
  (** With the type argument left at float32 the operators found stay. *)
  Definition wanted (in_int8 out_int8 : bool) (k : kind) : kind :=
    match k with KIn _ _ => if in_int8 then k else KNone | KOut _ _ => if out_int8 then k else KNone | KNone => KNone end.
  Definition quant_codes (m : tfmodel) : option Z * option Z :=
    scan (fun c => c_builtin c =? B_QUANTIZE) (fun c => c_builtin c =? B_DEQUANTIZE) 0 (m_codes m) None None.
  Definition set_first {A} (x : A) (l : list A) : list A := match l with [] => [] | _ :: l' => x :: l' end.
  (** util.py 39-45: reading the model needs a first subgraph with an input. *)
  Definition readable (m : tfmodel) : option graph :=
    let* g := rd (m_graphs m) 0 in let* _ := rd (g_in g) 0 in Some g.
  (** util.py 176-222 modify_integer_quantized_model_io_type *)
  Definition modify_io (m : tfmodel) (in_int8 out_int8 : bool) : option tfmodel :=
    let* g := readable m in
    let (qi, di) := quant_codes m in
    match qi, di with
    | None, None => None
    | _, _ =>
        let* kinds := all_some (map (classify qi di g) (g_ops g)) in
        let (g', s') := strip g (m_sigs m) (map (wanted in_int8 out_int8) kinds) in
        Some {| m_codes := m_codes m; m_graphs := set_first g' (m_graphs m); m_sigs := s' |}
    end.

  Definition lce_codes (m : tfmodel) : option Z * option Z :=
    scan (fun c => String.eqb (c_custom c) "LceDequantize") (fun c => c_builtin c =? B_DEQUANTIZE) 0 (m_codes m) None None.
  (** util.py 238-365 _strip_lcedequantize_ops_subgraph *)
  Definition strip_lce_subgraph (li di : option Z) (g : graph) (sigs : list (list Z * list Z)) : option (graph * list (list Z * list Z)) :=
    match li, di with
    | None, None => None
    | _, _ =>
        let* (g, sigs) := match di with
          | None => Some (g, sigs)
          | Some _ =>
              let* kinds := all_some (map (classify_out di (Z.eqb FLOAT32) (Z.eqb INT8) g) (g_ops g)) in
              Some (strip g sigs kinds)
          end in
        let* kinds := all_some (map (classify_out li (fun t => (t =? FLOAT32) || (t =? INT8)) (Z.eqb INT32) g) (g_ops g)) in
        Some (strip g sigs kinds)
    end.
  Fixpoint strip_lce_all (li di : option Z) (gs : list graph) (sigs : list (list Z * list Z)) : option (list graph * list (list Z * list Z)) :=
    match gs with
    | [] => Some ([], sigs)
    | g :: gs' => let* (g', s') := strip_lce_subgraph li di g sigs in let* (r, s'') := strip_lce_all li di gs' s' in Some (g' :: r, s'')
    end.
  (** util.py 225-235 strip_lcedequantize_ops *)
  Definition strip_lce (m : tfmodel) : option tfmodel :=
    let* _ := readable m in
    let (li, di) := lce_codes m in
    let* (gs, s) := strip_lce_all li di (m_graphs m) (m_sigs m) in
    Some {| m_codes := m_codes m; m_graphs := gs; m_sigs := s |}.

  (** ** Meaning of a graph (TFLite's interpreter, external): operators run in
      order, each reading defined tensors and writing its outputs. *)
  Variable sem : Z * Z -> list (option (tensor * V)) -> list tensor -> option (list V).
  Definition env := Z -> option V.
  Definition arg (T : list tensor) (e : env) (i : Z) : option (option (tensor * V)) :=
    if i =? -1 then Some None else let* t := rd T i in let* v := e i in Some (Some (t, v)).
  Fixpoint set_all (e : env) (is : list Z) (vs : list V) : env :=
    match is, vs with i :: is', v :: vs' => set_all (fun j => if j =? i then Some v else e j) is' vs' | _, _ => e end.
  Definition eval_op (T : list tensor) (e : env) (o : oper) : option env :=
    let* ins := all_some (map (arg T e) (o_in o)) in
    let* outs := all_some (map (rd T) (o_out o)) in
    let* vs := sem (o_code o, o_opts o) ins outs in
    if zlen vs =? zlen (o_out o) then Some (set_all e (o_out o) vs) else None.
  Fixpoint eval_ops (T : list tensor) (e : env) (ops : list oper) : option env :=
    match ops with [] => Some e | o :: os => let* e' := eval_op T e o in eval_ops T e' os end.
  Definition consts (T : list tensor) : env := fun i => let* t := rd T i in t_const t.
  Definition eval (g : graph) (xs : list V) : option (list V) :=
    if zlen xs =? zlen (g_in g) then
      let* e := eval_ops (g_tensors g) (set_all (consts (g_tensors g)) (g_in g) xs) (g_ops g) in
      all_some (map e (g_out g))
    else None.
End GraphUtil.
