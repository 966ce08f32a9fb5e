(** * C36, C37: the flatbuffer utilities. *)
From Coq Require Import String.
From Verif Require Import Base Spec Misc GraphUtil GraphProofs GraphTop.
Open Scope string_scope.
Open Scope list_scope.
Open Scope Z_scope.

(** ** C36: renumbering *)
(** A reference is fine if it is absent (-1) or to a tensor that is not removed. *)
Definition kept_ref (n : Z) (R : list Z) (i : Z) : Prop := i = -1 \/ (0 <= i < n /\ ~ In i R).

Theorem C36_references_follow_tensors : forall (V : Type) (g : @graph V) sigs R,
  NoDup R -> (forall r, In r R -> 0 <= r < zlen (g_tensors g)) ->
  let n := zlen (g_tensors g) in
  let (g', sigs') := remove_tensors g sigs R in
  zlen (g_tensors g') = n - zlen R /\
  exists new : Z -> Z, new (-1) = -1 /\
    (forall i, 0 <= i < n -> ~ In i R -> 0 <= new i < zlen (g_tensors g') /\ rd (g_tensors g') (new i) = rd (g_tensors g) i) /\
    (forall i j, 0 <= i < j -> ~ In i R -> new i < new j) /\
    (Forall (kept_ref n R) (g_in g) -> g_in g' = map new (g_in g)) /\
    (Forall (kept_ref n R) (g_out g) -> g_out g' = map new (g_out g)) /\
    (Forall (fun o => Forall (kept_ref n R) (o_in o) /\ Forall (kept_ref n R) (o_out o)) (g_ops g) ->
       g_ops g' = map (fun o => {| o_code := o_code o; o_opts := o_opts o; o_in := map new (o_in o); o_out := map new (o_out o) |}) (g_ops g)) /\
    match sigs with
    | [] => sigs' = []
    | (i, o) :: rest => exists i' o', sigs' = (i', o') :: rest /\
        (Forall (kept_ref n R) i -> i' = map new i) /\ (Forall (kept_ref n R) o -> o' = map new o)
    end.
Proof.
  intros V g sigs R Hd Hb n. pose proof (remove_tensors_spec g sigs R Hd Hb) as HS. cbn zeta in HS.
  destruct (remove_tensors g sigs R) as [g' sigs']. destruct HS as (H1 & H2 & H3 & H4 & H5 & H6). split; [exact H1|].
  exists (newidx R). split; [apply newidx_neg; [intros r Hr; apply Hb; exact Hr|lia]|].
  split; [|split; [intros i j Hij Hi; apply newidx_lt; [exact Hd|exact Hi|lia]|split; [exact H3|split; [exact H4|split; [exact H5|exact H6]]]]].
  intros i Hi Hr. specialize (H2 i Hr). split; [|exact H2]. destruct (rd_some (g_tensors g) i Hi) as [t Ti]. rewrite Ti in H2. exact (rd_bounds _ _ _ H2).
Qed.
Print Assumptions C36_references_follow_tensors.

(** Hence a graph that does not refer to the removed tensors computes the same
    function, for every meaning of the operators. *)
Theorem C36_removal_preserves_meaning : forall (V : Type) sem (g : @graph V) sigs R xs,
  NoDup R -> (forall r, In r R -> 0 <= r < zlen (g_tensors g)) ->
  g_refs_ok R g -> eval sem (fst (remove_tensors g sigs R)) xs = eval sem g xs.
Proof. intros V sem. exact (remove_tensors_meaning sem). Qed.
Print Assumptions C36_removal_preserves_meaning.

(** modify_integer_quantized_model_io_type: the new model on the quantised inputs
    gives outputs whose dequantisation is what the old model gave; inputs and
    outputs that are not (de)quantised at the border are unchanged. *)
Theorem C36_modify_io_meaning : forall (V : Type) sem (m m' : @tfmodel V) a b g,
  rd (m_graphs m) 0 = Some g -> modify_io m a b = Some m' ->
  refs_in_range g -> ssa g -> unary (qcode m) g -> unary (dcode m) g ->
  (** a removed input tensor is used by the removed operator only *)
  (a = true -> forall o e i, input_op (qcode m) g o e i -> ~ In e (g_out g) /\ forall o', In o' (g_ops g) -> In e (o_in o') -> o' = o) ->
  (** a removed output tensor is not read *)
  (b = true -> forall o e i o', output_op (dcode m) g o e i -> In o' (g_ops g) -> ~ In e (o_in o')) ->
  forall xs ys, eval sem g xs = Some ys -> exists g' xs' ys', rd (m_graphs m') 0 = Some g' /\ eval sem g' xs' = Some ys' /\
    zlen xs' = zlen xs /\ zlen ys' = zlen ys /\
    (forall k e, rd (g_in g) k = Some e -> exists x x', rd xs k = Some x /\ rd xs' k = Some x' /\
       (forall o i, a = true -> input_op (qcode m) g o e i -> run1 sem (g_tensors g) o e i x x') /\
       ((a = false \/ forall o i, ~ input_op (qcode m) g o e i) -> x' = x)) /\
    (forall k e, rd (g_out g) k = Some e -> exists y y', rd ys k = Some y /\ rd ys' k = Some y' /\
       (forall o i, b = true -> output_op (dcode m) g o e i -> run1 sem (g_tensors g) o i e y' y) /\
       ((b = false \/ forall o i, ~ output_op (dcode m) g o e i) -> y' = y)).
Proof. intros V sem m m' a b g Hg Hm W SS Uq Ud Hi Ho xs ys. exact (modify_meaning sem m m' a b g Hg Hm W SS Uq Ud Hi Ho xs ys). Qed.
Print Assumptions C36_modify_io_meaning.

(** The codes looked for are those of QUANTIZE and DEQUANTIZE. *)
Theorem C36_codes : forall (V : Type) (m : @tfmodel V) o,
  (is_code o (qcode m) = true -> has_builtin m o 114) /\ (is_code o (dcode m) = true -> has_builtin m o 6).
Proof. intros V. exact quant_codes_ok. Qed.
Print Assumptions C36_codes.

(** strip_lcedequantize_ops, on each subgraph: the new outputs are bitpacked;
    applying the removed LceDequantize and then the removed Dequantize gives the
    old outputs. *)
Theorem C36_strip_lce_meaning : forall (V : Type) sem li di (g g2 : @graph V) sigs s2,
  strip_lce_subgraph li di g sigs = Some (g2, s2) ->
  (forall o, is_code o li = true -> is_code o di = true -> False) ->
  refs_in_range g -> ssa g -> unary li g -> unary di g ->
  (forall o e i o', output_op di g o e i -> In o' (g_ops g) -> ~ In e (o_in o')) ->
  (forall o e c j o', lce_op li di g o e c j -> In o' (g_ops g) -> In c (o_in o') -> exists e', output_op di g o' e' c) ->
  refs_in_range g2 /\
  forall xs ys, eval sem g xs = Some ys -> exists ys2, eval sem g2 xs = Some ys2 /\ zlen ys2 = zlen ys /\
    forall k e, rd (g_out g) k = Some e -> exists y ym y2, rd ys k = Some y /\ rd ys2 k = Some y2 /\
      (forall o i, output_op di g o e i -> run1 sem (g_tensors g) o i e ym y) /\ ((forall o i, ~ output_op di g o e i) -> ym = y) /\
      (forall o c j, lce_op li di g o e c j -> run1 sem (g_tensors g) o j c y2 ym) /\ ((forall o c j, ~ lce_op li di g o e c j) -> y2 = ym).
Proof. intros V sem li di g g2 sigs s2. exact (lce_meaning sem li di g sigs g2 s2). Qed.
Print Assumptions C36_strip_lce_meaning.

(** *** A concrete model: input 0 (float) -Quantize-> 1 -Double+3-> 2 (+ constant
    tensor 3) -> 4 -Dequantize-> 5 (float output). *)
Definition ft : @tensor Z := {| t_type := 0; t_const := None; t_meta := 0 |}.
Definition it : @tensor Z := {| t_type := 9; t_const := None; t_meta := 0 |}.
Definition ct : @tensor Z := {| t_type := 9; t_const := Some 5; t_meta := 0 |}.
Definition opq a b := {| o_code := 1; o_opts := 0; o_in := [a]; o_out := [b] |}.
Definition opd a b := {| o_code := 2; o_opts := 0; o_in := [a]; o_out := [b] |}.
Definition opadd a b c := {| o_code := 0; o_opts := 0; o_in := [a; b; -1]; o_out := [c] |}.
Definition ex_codes := [{| c_builtin := 0; c_custom := EmptyString |}; {| c_builtin := 114; c_custom := EmptyString |}; {| c_builtin := 6; c_custom := EmptyString |}].
Definition ex_sem (c : Z * Z) (ins : list (option (@tensor Z * Z))) (outs : list (@tensor Z)) : option (list Z) :=
  match fst c, ins with
  | 0, [Some (_, x); Some (_, y); None] => Some [x + y]
  | 1, [Some (_, x)] => Some [x / 10]
  | 2, [Some (_, x)] => Some [x * 10]
  | _, _ => None
  end.
Definition ex_g : @graph Z :=
  {| g_tensors := [ft; it; ct; it; ft]; g_in := [0]; g_out := [4]; g_ops := [opq 0 1; opadd 1 2 3; opd 3 4] |}.
Definition ex_m := {| m_codes := ex_codes; m_graphs := [ex_g]; m_sigs := [([0], [4])] |}.
Example C36_example_result : modify_io ex_m true true =
  Some {| m_codes := ex_codes;
          m_graphs := [{| g_tensors := [it; ct; it]; g_in := [0]; g_out := [2]; g_ops := [opadd 0 1 2] |}]; m_sigs := [([0], [2])] |}.
Proof. reflexivity. Qed.
Ltac cases H := repeat (destruct H as [<- | H]); try (destruct H).
Example C36_example_hypotheses :
  rd (m_graphs ex_m) 0 = Some ex_g /\ refs_in_range ex_g /\ ssa ex_g /\ unary (qcode ex_m) ex_g /\ unary (dcode ex_m) ex_g /\
  (forall o e i, input_op (qcode ex_m) ex_g o e i -> ~ In e (g_out ex_g) /\ forall o', In o' (g_ops ex_g) -> In e (o_in o') -> o' = o) /\
  (forall o e i o', output_op (dcode ex_m) ex_g o e i -> In o' (g_ops ex_g) -> ~ In e (o_in o')) /\
  eval ex_sem ex_g [72] = Some [120].
Proof.
  split; [reflexivity|]. split; [|split; [|split; [|split; [|split; [|split]]]]].
  - unfold refs_in_range, in_range. cbn. repeat (constructor; try lia; cbn).
  - split; [|split].
    + cbn. repeat (constructor; [cbn; intuition discriminate|]). constructor.
    + cbn. repeat (constructor; [cbn; intuition discriminate|]). constructor.
    + cbn. intros i H. cases H; (split; [intuition discriminate|reflexivity]).
  - intros o H Hc. cbn in H. cases H; try discriminate. exists 0, 1. repeat split; discriminate.
  - intros o H Hc. cbn in H. cases H; try discriminate. exists 3, 4. repeat split; discriminate.
  - intros o e i (Ho & Hc & H1 & H2 & H3). cbn in Ho. cases Ho; try discriminate. injection H1 as <-. split; [cbn; intuition discriminate|].
    intros o' Ho' Hi. cbn in Ho'. cases Ho'; try reflexivity; cbn in Hi; intuition discriminate.
  - intros o e i o' (Ho & Hc & H1 & H2 & H3) Ho'. cbn in Ho. cases Ho; try discriminate. injection H2 as <-.
    cbn in Ho'. cases Ho'; cbn; intuition discriminate.
  - reflexivity.
Qed.
(** The new model on the quantised input 7 = 72 / 10 gives 12, and 12 * 10 = 120. *)
Example C36_example_run : eval ex_sem {| g_tensors := [it; ct; it]; g_in := [0]; g_out := [2]; g_ops := [opadd 0 1 2] |} [7] = Some [12].
Proof. reflexivity. Qed.

(** LceDequantize (code 1 below) to int8 and then Dequantize (code 2). *)
Definition bt : @tensor Z := {| t_type := 2; t_const := None; t_meta := 0 |}.
Definition lce_g : @graph Z :=
  {| g_tensors := [ft; bt; it; ft]; g_in := [0]; g_out := [3]; g_ops := [{| o_code := 0; o_opts := 0; o_in := [0]; o_out := [1] |}; opq 1 2; opd 2 3] |}.
Example C36_lce_example : strip_lce_subgraph (Some 1) (Some 2) lce_g [([0], [3])] =
  Some ({| g_tensors := [ft; bt]; g_in := [0]; g_out := [1]; g_ops := [{| o_code := 0; o_opts := 0; o_in := [0]; o_out := [1] |}] |}, [([0], [1])]).
Proof. reflexivity. Qed.
Example C36_lce_hypotheses :
  refs_in_range lce_g /\ ssa lce_g /\ unary (Some 1) lce_g /\ unary (Some 2) lce_g /\
  (forall o e i o', output_op (Some 2) lce_g o e i -> In o' (g_ops lce_g) -> ~ In e (o_in o')) /\
  (forall o e c j o', lce_op (Some 1) (Some 2) lce_g o e c j -> In o' (g_ops lce_g) -> In c (o_in o') -> exists e', output_op (Some 2) lce_g o' e' c).
Proof.
  split; [|split; [|split; [|split; [|split]]]].
  - unfold refs_in_range, in_range. cbn. repeat (constructor; try lia; cbn).
  - split; [|split].
    + cbn. repeat (constructor; [cbn; intuition discriminate|]). constructor.
    + cbn. repeat (constructor; [cbn; intuition discriminate|]). constructor.
    + cbn. intros i H. cases H; (split; [intuition discriminate|reflexivity]).
  - intros o H Hc. cbn in H. cases H; try discriminate. exists 1, 2. repeat split; discriminate.
  - intros o H Hc. cbn in H. cases H; try discriminate. exists 2, 3. repeat split; discriminate.
  - intros o e i o' (Ho & Hc & H1 & H2 & H3) Ho'. cbn in Ho. cases Ho; try discriminate. injection H2 as <-.
    cbn in Ho'. cases Ho'; cbn; intuition discriminate.
  - intros o e c j o' (_ & _ & Ho & Hc & H1 & H2) Ho' Hi. cbn in Ho. cases Ho; try discriminate. injection H2 as <-.
    cbn in Ho'. cases Ho'; cbn in Hi; try (intuition discriminate). exists 3. unfold output_op. cbn. intuition.
Qed.

(** "Every remaining reference" is false of a model with a second signature: it is
    not updated, although it refers to no removed tensor. Here tensor 0 is
    removed, and the second signature's reference to tensor 1 now denotes what was
    tensor 2. *)
Theorem C36_second_signature_refuted : exists (g g' : @graph Z) sigs sigs' R s,
  NoDup R /\ (forall r, In r R -> 0 <= r < zlen (g_tensors g)) /\ remove_tensors g sigs R = (g', sigs') /\
  rd sigs 1 = Some s /\ rd sigs' 1 = Some s /\
  Forall (kept_ref (zlen (g_tensors g)) R) (fst s ++ snd s) /\
  exists i, In i (fst s) /\ rd (g_tensors g') i <> rd (g_tensors g) i.
Proof.
  exists {| g_tensors := [ft; it; ct]; g_in := [1]; g_out := [2]; g_ops := [] |}.
  exists {| g_tensors := [it; ct]; g_in := [0]; g_out := [1]; g_ops := [] |}.
  exists [([1], [2]); ([1], [2])], [([0], [1]); ([1], [2])], [0], ([1], [2]).
  split; [repeat constructor; intros []|]. split; [intros r [<- | []]; cbn; lia|].
  split; [reflexivity|]. split; [reflexivity|]. split; [reflexivity|]. split.
  - unfold kept_ref. cbn. constructor; [|constructor; [|constructor]]; right; (split; [lia|intuition discriminate]).
  - exists 1. split; [left; reflexivity|]. discriminate.
Qed.
Print Assumptions C36_second_signature_refuted.

(** Nor of a model with a second subgraph: stripping it renumbers the first
    signature, which belongs to the first subgraph. Both subgraphs below are
    stripped correctly, but the signature's output, tensor 1 of the first
    subgraph, becomes tensor 0, the first subgraph's input. *)
Definition opc a b := {| o_code := 0; o_opts := 0; o_in := [a]; o_out := [b] |}.
Definition two_m : @tfmodel Z :=
  {| m_codes := [{| c_builtin := 0; c_custom := EmptyString |}; {| c_builtin := 32; c_custom := "LceDequantize" |}];
     m_graphs := [{| g_tensors := [ft; bt; ft]; g_in := [0]; g_out := [2]; g_ops := [opc 0 1; opq 1 2] |};
                  {| g_tensors := [ft; ft; bt]; g_in := [1]; g_out := [0]; g_ops := [opc 1 2; opq 2 0] |}];
     m_sigs := [([0], [2])] |}.
Theorem C36_other_subgraph_refuted : exists m' g g' j,
  rd (m_graphs two_m) 0 = Some g /\ m_sigs two_m = [(g_in g, g_out g)] /\ Forall refs_in_range (m_graphs two_m) /\
  strip_lce two_m = Some m' /\ rd (m_graphs m') 0 = Some g' /\ g_out g' = [1] /\ m_sigs m' = [([0], [j])] /\ j = 0.
Proof.
  exists {| m_codes := m_codes two_m;
     m_graphs := [{| g_tensors := [ft; bt]; g_in := [0]; g_out := [1]; g_ops := [opc 0 1] |};
                  {| g_tensors := [ft; bt]; g_in := [0]; g_out := [1]; g_ops := [opc 0 1] |}];
     m_sigs := [([0], [0])] |}.
  exists {| g_tensors := [ft; bt; ft]; g_in := [0]; g_out := [2]; g_ops := [opc 0 1; opq 1 2] |}.
  exists {| g_tensors := [ft; bt]; g_in := [0]; g_out := [1]; g_ops := [opc 0 1] |}, 0.
  split; [reflexivity|]. split; [reflexivity|]. split; [|repeat (split; [reflexivity|]); reflexivity].
  unfold refs_in_range, in_range. cbn. repeat (constructor; try lia; cbn).
Qed.
Print Assumptions C36_other_subgraph_refuted.

(** ** C37 *)
(** Used after the removed operators are gone: read by a remaining operator, or a
    graph output. The property fails: here the float input also feeds an
    operator that stays. The tensor is removed and the operator is left with an
    absent input. *)
Theorem C37_second_consumer_refuted : exists (m m' : @tfmodel Z) g g' o o',
  rd (m_graphs m) 0 = Some g /\ modify_io m true true = Some m' /\ rd (m_graphs m') 0 = Some g' /\
  refs_in_range g /\ ssa g /\ eval ex_sem g [72] = Some [120; 77] /\
  (** [o] adds tensors 0 and 2; in the result it has lost the first *)
  In o (g_ops g) /\ o_in o = [0; 2; -1] /\ g_ops g' = [opadd 0 1 2; o'] /\ o_in o' = [-1; 1; -1] /\
  forall x, eval ex_sem g' x = None.
Proof.
  exists {| m_codes := ex_codes; m_graphs := [{| g_tensors := [ft; it; ct; it; ft; ft]; g_in := [0]; g_out := [4; 5]; g_ops := [opq 0 1; opadd 1 2 3; opd 3 4; opadd 0 2 5] |}]; m_sigs := [] |}.
  pose (g' := {| g_tensors := [it; ct; it; ft]; g_in := [0]; g_out := [2; 3]; g_ops := [opadd 0 1 2; {| o_code := 0; o_opts := 0; o_in := [-1; 1; -1]; o_out := [3] |}] |} : @graph Z).
  exists {| m_codes := ex_codes; m_graphs := [g']; m_sigs := [] |}. eexists. exists g', (opadd 0 2 5). eexists.
  split; [reflexivity|]. split; [reflexivity|]. split; [reflexivity|]. split; [|split; [|split; [reflexivity|split; [|split; [reflexivity|split; [reflexivity|split; [reflexivity|]]]]]]].
  - unfold refs_in_range, in_range. cbn. repeat (constructor; try lia; cbn).
  - split; [|split].
    + cbn. repeat (constructor; [cbn; intuition discriminate|]). constructor.
    + cbn. repeat (constructor; [cbn; intuition discriminate|]). constructor.
    + cbn. intros i H. cases H; (split; [intuition discriminate|reflexivity]).
  - cbn. auto.
  - intros x. unfold eval. destruct (Z.eqb_spec (zlen x) (zlen (g_in g'))) as [Hl|]; [|reflexivity].
    destruct x as [|v [|w x]]; reflexivity.
Qed.
Print Assumptions C37_second_consumer_refuted.

(** In the fast path the index is not even cleared: it stays, out of range. *)
Theorem C37_dangling_refuted : exists (m m' : @tfmodel Z) g g' o x,
  rd (m_graphs m) 0 = Some g /\ modify_io m true false = Some m' /\ rd (m_graphs m') 0 = Some g' /\
  refs_in_range g /\ In o (g_ops g') /\ In x (o_in o) /\ zlen (g_tensors g') <= x.
Proof.
  exists {| m_codes := ex_codes; m_graphs := [{| g_tensors := [it; ct; it; ft; ft; ft]; g_in := [5]; g_out := [3; 4]; g_ops := [opq 5 0; opadd 0 1 2; opd 2 3; opadd 5 1 4] |}]; m_sigs := [] |}.
  pose (g' := {| g_tensors := [it; ct; it; ft; ft]; g_in := [0]; g_out := [3; 4]; g_ops := [opadd 0 1 2; opd 2 3; opadd 5 1 4] |} : @graph Z).
  exists {| m_codes := ex_codes; m_graphs := [g']; m_sigs := [] |}. eexists. exists g', (opadd 5 1 4), 5.
  split; [reflexivity|]. split; [reflexivity|]. split; [reflexivity|]. split; [|split; [|split]].
  - unfold refs_in_range, in_range. cbn. repeat (constructor; try lia; cbn).
  - cbn. auto.
  - cbn. auto.
  - cbn. lia.
Qed.
Print Assumptions C37_dangling_refuted.

(** A float input quantised by two operators: both are removed, but only the first
    integer tensor becomes an input; the second is never written. *)
Theorem C37_two_quantizers_refuted : exists (m m' : @tfmodel Z) g g' o x,
  rd (m_graphs m) 0 = Some g /\ modify_io m true false = Some m' /\ rd (m_graphs m') 0 = Some g' /\
  refs_in_range g /\ ssa g /\ eval ex_sem g [72] = Some [14] /\
  In o (g_ops g') /\ In x (o_in o) /\ ~ In x (g_in g') /\ ~ In x (outs_of (g_ops g')) /\ consts (g_tensors g') x = None.
Proof.
  exists {| m_codes := ex_codes; m_graphs := [{| g_tensors := [ft; it; it; it]; g_in := [0]; g_out := [3]; g_ops := [opq 0 1; opq 0 2; opadd 1 2 3] |}]; m_sigs := [] |}.
  pose (g' := {| g_tensors := [it; it; it]; g_in := [0]; g_out := [2]; g_ops := [opadd 0 1 2] |} : @graph Z).
  exists {| m_codes := ex_codes; m_graphs := [g']; m_sigs := [] |}. eexists. exists g', (opadd 0 1 2), 1.
  split; [reflexivity|]. split; [reflexivity|]. split; [reflexivity|]. split; [|split; [|split; [reflexivity|]]].
  - unfold refs_in_range, in_range. cbn. repeat (constructor; try lia; cbn).
  - split; [|split].
    + cbn. repeat (constructor; [cbn; intuition discriminate|]). constructor.
    + cbn. repeat (constructor; [cbn; intuition discriminate|]). constructor.
    + cbn. intros i H. cases H; (split; [intuition discriminate|reflexivity]).
  - cbn. intuition discriminate.
Qed.
Print Assumptions C37_two_quantizers_refuted.

(** It holds when the removed tensors have no other use: every reference of the
    result is to one of its tensors, and absent inputs were absent before. *)
Theorem C37_sole_use : forall (V : Type) (m m' : @tfmodel V) a b g,
  rd (m_graphs m) 0 = Some g -> modify_io m a b = Some m' ->
  refs_in_range g -> ssa g -> unary (qcode m) g -> unary (dcode m) g ->
  (a = true -> forall o e i, input_op (qcode m) g o e i -> ~ In e (g_out g) /\ forall o', In o' (g_ops g) -> In e (o_in o') -> o' = o) ->
  (b = true -> forall o e i o', output_op (dcode m) g o e i -> In o' (g_ops g) -> ~ In e (o_in o')) ->
  exists g', rd (m_graphs m') 0 = Some g' /\ refs_in_range g' /\
    forall o', In o' (g_ops g') -> exists o, In o (g_ops g) /\ o_code o' = o_code o /\ o_opts o' = o_opts o /\
      zlen (o_in o') = zlen (o_in o) /\ zlen (o_out o') = zlen (o_out o) /\
      (forall k i, rd (o_in o) k = Some i -> exists j, rd (o_in o') k = Some j /\ (j = -1 <-> i = -1) /\ rd (g_tensors g') j = rd (g_tensors g) i) /\
      (forall k i, rd (o_out o) k = Some i -> exists j, rd (o_out o') k = Some j /\ rd (g_tensors g') j = rd (g_tensors g) i).
Proof. intros V m m' a b g Hg Hm W SS Uq Ud Hi Ho. exact (modify_in_range (fun _ _ _ => None) m m' a b g Hg Hm W SS Uq Ud Hi Ho). Qed.
Print Assumptions C37_sole_use.
