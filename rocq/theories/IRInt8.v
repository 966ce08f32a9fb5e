(** * IRInt8: the converter's quantise pass on whole programs
    (mlir/transforms/quantize.cc, quantize_patterns.td). *)
From Coq Require Import QArith Qminmax Lqa.
From Verif Require Import Base Spec Padding Threshold Reference OutputTransform Quantize ConvFold IR IRProofs IRRules IRSound IRTerm
  IRWell IRTf FusePad IRPass IRPassRule IRPassProof IRFuse.
Open Scope Z_scope.

(** ** The quantised operators. An int8 tensor is shown as [VInt]. Scales are positive
    and zero points are int8 values, or the operator fails (MLIR's quantised types). *)
Definition ok8 (s : Q) (z : Z) : bool := Qlt_bool 0 s && (-128 <=? z) && (z <=? 127).
Definition clamp8 (v : Z) : Z := Z.max (-128) (Z.min 127 v).
(** tfl.quantize, tfl.dequantize: the rounding of TFLite's AffineQuantize (half away
    from zero), as in [ConvFold.tfl_quantize], [tfl_dequantize]. Simplified: int8,
    one scale per tensor, no requantisation of an int8 input. *)
Definition tq_fun (s : Q) (z : Z) (vs : list value) : option value :=
  match vs with [VF t] => if ok8 s z then Some (VInt (tmap (fun r => clamp8 (round_haz (r / s) + z)) t)) else None | _ => None end.
Definition tdq_fun (s : Q) (z : Z) (vs : list value) : option value :=
  match vs with [VInt t] => if ok8 s z then Some (VF (tmap (fun v => (s * inject_Z (v - z))%Q) t)) else None | _ => None end.
(** tflite/kernels/quantization.cc 76-87: LceQuantize of int8 compares with the zero point *)
Definition lq8_fun (z : Z) (vs : list value) : option value :=
  match vs with [VInt t] => Some (VBits (tmap (fun v => v <? z) t)) | _ => None end.
(** quantization.cc 116-145: LceDequantize with int8 output *)
Definition ldq8_fun (s : Q) (z : Z) (vs : list value) : option value :=
  match vs with
  | [VBits t] => if ok8 s z then Some (VInt (tmap (fun b : bool => let off := round_haz (1 / s) in
      if b then Z.max (-128) (z - off) else Z.min 127 (z + off)) t)) else None
  | _ => None
  end.
(** bconv2d.cc with int8 output: core/bconv2d/output_transform.h 125-144 after
    bconv2d.cc 353-391 (multiplier and bias divided by the scale, zero point added) *)
Definition lc8_fun (c : cattr) (s : Q) (z : Z) (vs : list value) : option value :=
  match vs with
  | [VBits i; VF f; VF m; VF b; VNone] =>
      match bc_float c i f m b with
      | Some (VF t) => if ok8 s z then Some (VInt (tmap (fun r => clamp8 (round_haz (r / s + inject_Z z))) t)) else None
      | _ => None
      end
  | _ => None
  end.

Lemma tmap_teq {A B} (R : A -> A -> Prop) (f : A -> B) (a b : tensor A) :
  (forall x y, R x y -> f x = f y) -> teq R a b -> teq eq (tmap f a) (tmap f b).
Proof. intros Hf [H1 H2]. split; [exact H1|]. intros i Hi. cbn in *. apply Hf, H2, Hi. Qed.
Lemma F2_1 {A B} (R : A -> B -> Prop) x l : Forall2 R [x] l -> exists y, l = [y] /\ R x y.
Proof. intros H. inversion H as [|? ? ? ? H1 H2]; subst. inversion H2; subst. eauto. Qed.

Lemma tq_ok s z : proper (tq_fun s z).
Proof.
  intros vs ws v H E. destruct vs as [|[t| | | |] [|]]; try discriminate. destruct (F2_1 _ _ _ H) as (w & -> & V).
  destruct w as [u| | | |]; try contradiction. cbn [tq_fun] in *. destruct (ok8 s z); [|discriminate]. injection E as <-.
  eexists. split; [reflexivity|]. change (teq Qeq t u) in V. apply (tmap_teq Qeq _ _ _ (fun x y HR => f_equal (fun r => clamp8 (r + z))
    (round_haz_comp _ _ (Qdiv_comp _ _ HR _ _ (Qeq_refl s)))) V).
Qed.
Lemma tdq_ok s z : proper (tdq_fun s z).
Proof.
  intros vs ws v H E. destruct vs as [|[| | |t|] [|]]; try discriminate. destruct (F2_1 _ _ _ H) as (w & -> & V).
  destruct w as [| | |u|]; try contradiction. cbn [tdq_fun] in *. destruct (ok8 s z); [|discriminate]. injection E as <-.
  eexists. split; [reflexivity|]. destruct V as [V1 V2]. split; [exact V1|]. intros i Hi. cbn in *. rewrite V2 by exact Hi. reflexivity.
Qed.
Lemma lq8_ok z : proper (lq8_fun z).
Proof.
  intros vs ws v H E. destruct vs as [|[| | |t|] [|]]; try discriminate. destruct (F2_1 _ _ _ H) as (w & -> & V).
  destruct w as [| | |u|]; try contradiction. cbn [lq8_fun] in *. injection E as <-.
  eexists. split; [reflexivity|]. change (teq eq t u) in V. apply (tmap_teq eq); [intros ? ? ->; reflexivity|exact V].
Qed.
Lemma ldq8_ok s z : proper (ldq8_fun s z).
Proof.
  intros vs ws v H E. destruct vs as [|[|t| | |] [|]]; try discriminate. destruct (F2_1 _ _ _ H) as (w & -> & V).
  destruct w as [|u| | |]; try contradiction. cbn [ldq8_fun] in *. destruct (ok8 s z); [|discriminate]. injection E as <-.
  eexists. split; [reflexivity|]. change (teq eq t u) in V. apply (tmap_teq eq); [intros ? ? ->; reflexivity|exact V].
Qed.
Lemma lc8_ok c s z : proper (lc8_fun c s z).
Proof.
  intros vs ws v H E. unfold lc8_fun in E. destruct vs as [|[|i| | |] vs]; try discriminate. destruct vs as [|[f| | | |] vs]; try discriminate.
  destruct vs as [|[m| | | |] vs]; try discriminate. destruct vs as [|[b| | | |] vs]; try discriminate.
  destruct vs as [|[| | | |] vs]; try discriminate. destruct vs; try discriminate.
  destruct (bc_float c i f m b) as [[t| | | |]|] eqn:EB; try discriminate. destruct (ok8 s z) eqn:E8; [|discriminate]. injection E as <-.
  destruct (denote_proper (OConv c) [VBits i; VF f; VF m; VF b; VNone] ws (VF t) H EB) as (w & Ew & V).
  inversion H as [|? w1 ? l1 V1 H1]; subst. inversion H1 as [|? w2 ? l2 V2 H2]; subst. inversion H2 as [|? w3 ? l3 V3 H3]; subst.
  inversion H3 as [|? w4 ? l4 V4 H4]; subst. inversion H4 as [|? w5 ? l5 V5 H5]; subst. inversion H5; subst.
  destruct w1 as [|i'| | |]; try contradiction. destruct w2 as [f'| | | |]; try contradiction. destruct w3 as [m'| | | |]; try contradiction.
  destruct w4 as [b'| | | |]; try contradiction. destruct w5 as [| | | |]; try contradiction. destruct w as [u| | | |]; try contradiction.
  cbn [denote] in Ew. unfold lc8_fun. rewrite Ew, E8. eexists. split; [reflexivity|]. change (teq Qeq t u) in V.
  apply (tmap_teq Qeq); [|exact V]. intros x y HR. f_equal. apply round_haz_comp. rewrite HR. reflexivity.
Qed.
Definition tfl_quant (s : Q) (z : Z) : op := OOther {| ek := K8 (TQ s z); ef := tq_fun s z; ef_ok := tq_ok s z |}.
Definition tfl_dequant (s : Q) (z : Z) : op := OOther {| ek := K8 (TDQ s z); ef := tdq_fun s z; ef_ok := tdq_ok s z |}.
Definition lq_quant8 (z : Z) : op := OOther {| ek := K8 (LQ8 z); ef := lq8_fun z; ef_ok := lq8_ok z |}.
Definition lq_dequant8 (s : Q) (z : Z) : op := OOther {| ek := K8 (LDQ8 s z); ef := ldq8_fun s z; ef_ok := ldq8_ok s z |}.
Definition lq_conv8 (c : cattr) (s : Q) (z : Z) : op := OOther {| ek := K8 (LC8 c s z); ef := lc8_fun c s z; ef_ok := lc8_ok c s z |}.

Definition is_tq (o : op) : bool := match o with OOther x => match ek x with K8 (TQ _ _) => true | _ => false end | _ => false end.
Definition is_tdq (o : op) : bool := match o with OOther x => match ek x with K8 (TDQ _ _) => true | _ => false end | _ => false end.
(** LQ_Bconv2dOp with any result type *)
Definition is_bconv (o : op) : bool :=
  match o with OConv _ => true | OOther x => match ek x with K8 (LC8 _ _ _) => true | _ => false end | _ => false end.

(** [src D m = Some x]: [m] is Dequantize(Quantize(x)). *)
Definition src (D : nat -> option (op * list nat)) (m : nat) : option nat :=
  match D m with
  | Some (o, [q]) => if is_tdq o then
      match D q with Some (o', [x]) => if is_tq o' then Some x else None | _ => None end else None
  | _ => None
  end.

(** ** The patterns. [irule D root inner root']: [inner] must have one use. *)
Inductive irule (D : nat -> option (op * list nat)) : op * list nat -> option nat -> op * list nat -> Prop :=
(* quantize_patterns.td 6-34: Dequantize(Quantize(x)) of both parameters becomes x *)
| I_par o i f m b t m' b' :
    is_bconv o = true -> src D m = Some m' -> src D b = Some b' ->
    irule D (o, [i; f; m; b; t]) None (o, [i; f; m'; b'; t])
(* 39-68 *)
| I_conv c s z cv a :
    D cv = Some (OConv c, a) ->
    irule D (tfl_quant s z, [cv]) (Some cv) (lq_conv8 c s z, a)
(* 70-72 *)
| I_deq s z d x :
    D d = Some (ODequant, [x]) ->
    irule D (tfl_quant s z, [d]) (Some d) (lq_dequant8 s z, [x])
(* 74-76 *)
| I_quant s z d x :
    D d = Some (tfl_dequant s z, [x]) ->
    irule D (OQuant, [d]) (Some d) (lq_quant8 z, [x]).

(** Constant folding: not of the convolutions (no folder, lce_ops.td), and not of
    tfl.quantize and tfl.dequantize. *)
Definition foldable (o : op) : bool := negb (is_tq o) && negb (is_tdq o) && negb (is_bconv o).
(** One action of applyPatternsAndFoldGreedily (quantize.cc 32-37), in any order. *)
Inductive istep (outs : list nat) : list instr -> list instr -> Prop :=
| IS_rule pre r o a post inner o' a' :
    irule (def pre) (o, a) inner (o', a') ->
    (forall x, inner = Some x -> uses (pre ++ (r, o, a) :: post) outs x = 1%nat) ->      (* HasOneUse *)
    istep outs (pre ++ (r, o, a) :: post) (pre ++ (r, o', a') :: post)
| IS_fold pre r o a post vs v :
    foldable o = true -> a <> [] -> consts (def pre) a vs -> denote o vs = Some v ->
    istep outs (pre ++ (r, o, a) :: post) (pre ++ (r, OConst v, []) :: post)
| IS_dead pre i post :
    uses (pre ++ i :: post) outs (iid i) = 0%nat ->
    istep outs (pre ++ i :: post) (pre ++ post).
Inductive isteps (outs : list nat) : nat -> list instr -> list instr -> Prop :=
| isteps_0 p : isteps outs 0 p p
| isteps_S n p q r : istep outs p q -> isteps outs n q r -> isteps outs (Datatypes.S n) p r.

(** ** What the pass computes: the program whose convolutions use their multiplier and
    bias without the quantise/dequantise pairs. *)
Fixpoint chase (D : nat -> option (op * list nat)) (n : nat) (m b : nat) : nat * nat :=
  match n with
  | O => (m, b)
  | Datatypes.S n' => match src D m, src D b with Some m', Some b' => chase D n' m' b' | _, _ => (m, b) end
  end.
Definition strip_args (D : nat -> option (op * list nat)) (n : nat) (o : op) (a : list nat) : list nat :=
  match a with
  | [x; f; m; b; t] => if is_bconv o then let '(m', b') := chase D n m b in [x; f; m'; b'; t] else a
  | _ => a
  end.
Definition strip_i (D : nat -> option (op * list nat)) (n : nat) (i : instr) : instr :=
  (iid i, iop i, strip_args D n (iop i) (iargs i)).
Definition strip (p : list instr) : list instr := map (strip_i (def p) (length p)) p.

(** Parameters behind such pairs. *)
Inductive behind (D : nat -> option (op * list nat)) : nat -> nat -> Prop :=
| behind_0 m : behind D m m
| behind_S m x y : src D m = Some x -> behind D x y -> behind D m y.
(** No multiplier or bias is a quantised convolution result, or a quantised
    LceDequantize: such a parameter would match two patterns. *)
Definition params_clean (p : list instr) : Prop :=
  forall r o i f m b t k y x, In (r, o, [i; f; m; b; t]) p -> is_bconv o = true -> k = m \/ k = b ->
    behind (def p) k y -> src (def p) y = Some x ->
    (forall c a, def p x <> Some (OConv c, a)) /\ (forall a, def p x <> Some (ODequant, a)).
(** A result of a convolution about to be quantised is not exactly halfway between two
    int8 values with the zero point moving it across zero (C46). *)
Definition crosses (t : Q) (z : Z) : Prop :=
  is_tie t /\ ((t < 0 /\ 0 <= t + inject_Z z) \/ (0 <= t /\ t + inject_Z z < 0))%Q.
Definition no_ties (p : list instr) (e : env) : Prop :=
  forall r s z cv c a t i, In (r, tfl_quant s z, [cv]) p -> In (cv, OConv c, a) p -> e cv = Some (VF t) ->
    in_range (sh t) i -> ~ crosses (at_ t i / s) z.

(** ** Positions of definitions *)
Fixpoint pos (p : list instr) (x : nat) : nat :=
  match p with
  | [] => 0
  | i :: p' => if Nat.eqb (iid i) x then 1 else match pos p' x with O => 0 | Datatypes.S k => Datatypes.S (Datatypes.S k) end
  end.
Lemma pos_le p x : (pos p x <= length p)%nat.
Proof. induction p as [|i p IH]; cbn [pos length]; [lia|]. destruct (Nat.eqb _ _); [lia|]. destruct (pos p x); lia. Qed.
Lemma pos_out p x : ~ In x (map iid p) -> pos p x = 0%nat.
Proof.
  induction p as [|i p IH]; cbn [pos map In]; intros H; [reflexivity|]. destruct (Nat.eqb_spec (iid i) x) as [E|_]; [tauto|].
  rewrite IH by tauto. reflexivity.
Qed.
Lemma pos_app_in p q x : In x (map iid p) -> pos (p ++ q) x = pos p x.
Proof.
  induction p as [|i p IH]; cbn [pos map In app]; [tauto|]. intros H. destruct (Nat.eqb_spec (iid i) x) as [E|N]; [reflexivity|].
  rewrite IH by tauto. reflexivity.
Qed.
Lemma pos_mid p i q : ~ In (iid i) (map iid p) -> pos (p ++ i :: q) (iid i) = Datatypes.S (length p).
Proof.
  induction p as [|j p IH]; cbn [pos map In app length]; intros H; [rewrite Nat.eqb_refl; reflexivity|].
  destruct (Nat.eqb_spec (iid j) (iid i)) as [E|N]; [tauto|]. rewrite IH by tauto. reflexivity.
Qed.
Lemma scope_in (S : list nat) (pre : list instr) x : In x (rev (map iid pre) ++ S) <-> In x (map iid pre) \/ In x S.
Proof. rewrite in_app_iff, <- in_rev. reflexivity. Qed.
Lemma ssa_mid S pre r o a post : ssa S (pre ++ (r, o, a) :: post) ->
  ssa S pre /\ (forall x, In x a -> In x (map iid pre) \/ In x S) /\ ~ In r (map iid pre) /\ ~ In r S /\ ~ In r (map iid post).
Proof.
  intros H. apply ssa_app in H. destruct H as [H1 (H2 & H3 & H4)]. rewrite scope_in in H3.
  split; [exact H1|]. split; [intros x Hx; apply scope_in, H2, Hx|]. split; [tauto|]. split; [tauto|].
  intros C. apply (ssa_notin _ _ H4 r C). left. reflexivity.
Qed.
Lemma pos_args S p r o a y : ssa S p -> In (r, o, a) p -> In y a -> (pos p y < pos p r)%nat.
Proof.
  intros HS Hi Hy. apply in_split in Hi. destruct Hi as (pre & post & ->).
  assert (HS' := HS). destruct (ssa_mid _ _ _ _ _ _ HS) as (H1 & H2 & H3 & H4 & H5).
  change r with (iid (r, o, a)) at 2. rewrite pos_mid by exact H3. destruct (H2 y Hy) as [K|K].
  - rewrite pos_app_in by exact K. assert (B := pos_le pre y). lia.
  - rewrite pos_out; [lia|]. intros C. exact (ssa_notin _ _ HS' y C K).
Qed.

(** ** Pairs *)
Lemma src_inv D m x : src D m = Some x -> exists o q o', D m = Some (o, [q]) /\ is_tdq o = true /\ D q = Some (o', [x]) /\ is_tq o' = true.
Proof.
  unfold src. destruct (D m) as [[o [|q [|]]]|] eqn:E1; try discriminate. destruct (is_tdq o) eqn:E2; [|discriminate].
  destruct (D q) as [[o' [|y [|]]]|] eqn:E3; try discriminate. destruct (is_tq o') eqn:E4; [|discriminate]. intros H. injection H as ->. eauto 10.
Qed.
Lemma src_intro D m x o q o' : D m = Some (o, [q]) -> is_tdq o = true -> D q = Some (o', [x]) -> is_tq o' = true -> src D m = Some x.
Proof. intros H1 H2 H3 H4. unfold src. rewrite H1, H2, H3, H4. reflexivity. Qed.
Lemma src_pos S p m x : ssa S p -> src (def p) m = Some x -> (pos p x < pos p m)%nat.
Proof.
  intros HS H. apply src_inv in H. destruct H as (o & q & o' & H1 & _ & H2 & _).
  assert (A := pos_args S p _ _ _ q HS (def_instr _ _ _ _ H1) (or_introl eq_refl)).
  assert (B := pos_args S p _ _ _ x HS (def_instr _ _ _ _ H2) (or_introl eq_refl)). lia.
Qed.
Definition done (D : nat -> option (op * list nat)) (c : nat * nat) : Prop := src D (fst c) = None \/ src D (snd c) = None.
Lemma chase_done S p n : forall m b, ssa S p -> (pos p m <= n)%nat -> done (def p) (chase (def p) n m b).
Proof.
  induction n as [|n IH]; intros m b HS Hm; cbn [chase].
  - left. cbn [fst]. destruct (src (def p) m) as [x|] eqn:E; [|reflexivity]. assert (A := src_pos S p m x HS E). lia.
  - destruct (src (def p) m) as [x|] eqn:E; [|left; exact E]. destruct (src (def p) b) as [y|] eqn:E2; [|right; exact E2].
    apply IH; [exact HS|]. assert (A := src_pos S p m x HS E). lia.
Qed.
Lemma chase_fix D n m b : done D (m, b) -> chase D n m b = (m, b).
Proof. intros H. destruct n; [reflexivity|]. cbn [chase]. destruct H as [H|H]; cbn [fst snd] in H; rewrite H; [reflexivity|]. destruct (src D m); reflexivity. Qed.
Lemma chase_same D n : forall k m b, done D (chase D n m b) -> done D (chase D k m b) -> chase D n m b = chase D k m b.
Proof.
  induction n as [|n IH]; intros k m b H1 H2.
  - cbn [chase] in *. symmetry. apply chase_fix, H1.
  - destruct k as [|k]; [cbn [chase] in H2; cbn [chase]; apply (chase_fix D (Datatypes.S n) m b H2)|].
    cbn [chase] in *. destruct (src D m) as [x|]; [|reflexivity]. destruct (src D b) as [y|]; [|reflexivity]. apply IH; assumption.
Qed.
Lemma behind_trans D x y z : behind D x y -> behind D y z -> behind D x z.
Proof. intros H. induction H; intros H2; [exact H2|]. econstructor; [eassumption|auto]. Qed.
Lemma chase_behind D n : forall m b, behind D m (fst (chase D n m b)) /\ behind D b (snd (chase D n m b)).
Proof.
  induction n as [|n IH]; intros m b; cbn [chase fst snd]; [split; constructor|].
  destruct (src D m) as [x|] eqn:E1; [|split; constructor]. destruct (src D b) as [y|] eqn:E2; [|split; constructor].
  destruct (IH x y) as [A B]. split; econstructor; eassumption.
Qed.
Lemma chase_ext D D' n : forall m b, (forall y, behind D m y \/ behind D b y -> src D' y = src D y) -> chase D' n m b = chase D n m b.
Proof.
  induction n as [|n IH]; intros m b H; cbn [chase]; [reflexivity|].
  rewrite (H m), (H b) by (auto using behind_0). destruct (src D m) as [x|] eqn:E1; [|reflexivity].
  destruct (src D b) as [y|] eqn:E2; [|reflexivity]. apply IH. intros u [Hu|Hu]; apply H; [left|right]; econstructor; eassumption.
Qed.

(** Scope *)
Lemma def_scope S pre rest x : ssa S (pre ++ rest) -> In x (map iid pre) \/ In x S -> def (pre ++ rest) x = def pre x.
Proof.
  intros HS Hx. destruct (in_dec Nat.eq_dec x (map iid pre)) as [Hi|Hi]; [apply def_app_in, Hi|].
  destruct Hx as [Hx|Hx]; [contradiction|]. rewrite (def_none pre x Hi). apply def_none. intros C. exact (ssa_notin _ _ HS x C Hx).
Qed.
Lemma def_args S p x o a y : ssa S p -> def p x = Some (o, a) -> In y a -> In y (map iid p) \/ In y S.
Proof. intros HS H Hy. assert (A := ssa_args S p HS _ y (def_instr _ _ _ _ H) Hy). apply in_app_or in A. tauto. Qed.
Lemma src_scope S (pre rest : list instr) m : ssa S (pre ++ rest) -> In m (map iid pre) \/ In m S ->
  src (def (pre ++ rest)) m = src (def pre) m /\ forall x, src (def pre) m = Some x -> In x (map iid pre) \/ In x S.
Proof.
  intros HS Hm. assert (HS1 := proj1 (proj1 (ssa_app _ _ _) HS)). split.
  - unfold src. rewrite (def_scope S pre rest m HS Hm). destruct (def pre m) as [[o [|q [|]]]|] eqn:E; try reflexivity.
    destruct (is_tdq o); [|reflexivity]. rewrite (def_scope S pre rest q HS); [reflexivity|].
    eapply (def_args S pre); [exact HS1|exact E|left; reflexivity].
  - intros x H. apply src_inv in H. destruct H as (o & q & o' & H1 & _ & H2 & _). eapply (def_args S pre); [exact HS1|exact H2|left; reflexivity].
Qed.
Lemma behind_scope S pre rest m y : ssa S (pre ++ rest) -> behind (def (pre ++ rest)) m y -> In m (map iid pre) \/ In m S ->
  In y (map iid pre) \/ In y S.
Proof.
  intros HS H. induction H as [m|m x y H1 H2 IH]; intros Hm; [exact Hm|]. apply IH.
  destruct (src_scope S pre rest m HS Hm) as [A B]. apply B. rewrite <- A. exact H1.
Qed.
Lemma strip_args_in D n o a x : In x (strip_args D n o a) -> exists y, In y a /\ behind D y x.
Proof.
  unfold strip_args. destruct a as [|i [|f [|m [|b [|t [|]]]]]]; try (intros H; exists x; split; [exact H|constructor]).
  destruct (is_bconv o); [|intros H; exists x; split; [exact H|constructor]].
  destruct (chase D n m b) as [m' b'] eqn:E. destruct (chase_behind D n m b) as [A B]. rewrite E in A, B. cbn [fst snd] in A, B.
  cbn [In]. intros [<-|[<-|[<-|[<-|[<-|[]]]]]]; eauto 10 using behind_0.
Qed.
Lemma ssa_strip_gen S p n : ssa S p -> forall pre post, p = pre ++ post ->
  ssa (rev (map iid pre) ++ S) (map (strip_i (def p) n) post).
Proof.
  intros HS pre post. revert pre. induction post as [|[[r o] a] post IH]; intros pre ->; [exact I|]. cbn [map]. unfold strip_i at 1. cbn [iid iop iargs fst snd ssa].
  destruct (ssa_mid _ _ _ _ _ _ HS) as (H1 & H2 & H3 & H4 & H5). split; [|split].
  - intros x Hx. apply strip_args_in in Hx. destruct Hx as (y & Hy & HB). apply scope_in.
    eapply behind_scope; [exact HS|exact HB|]. apply H2, Hy.
  - rewrite scope_in. tauto.
  - assert (E : pre ++ (r, o, a) :: post = (pre ++ [(r, o, a)]) ++ post) by (rewrite <- app_assoc; reflexivity).
    specialize (IH (pre ++ [(r, o, a)]) E). rewrite map_app, rev_app_distr in IH. exact IH.
Qed.
Lemma ssa_strip S p : ssa S p -> ssa S (strip p).
Proof. intros H. exact (ssa_strip_gen S p (length p) H [] p eq_refl). Qed.
Lemma iids_strip D n p : map iid (map (strip_i D n) p) = map iid p.
Proof. rewrite map_map. apply map_ext. reflexivity. Qed.
Lemma def_strip D n p x : def (map (strip_i D n) p) x = match def p x with Some (o, a) => Some (o, strip_args D n o a) | None => None end.
Proof.
  induction p as [|[[r o] a] p IH]; [reflexivity|]. cbn [map]. rewrite !def_cons. unfold strip_i at 1 2 3. cbn [iid iop iargs fst snd].
  destruct (Nat.eqb r x); [reflexivity|exact IH].
Qed.
Lemma strip_other D n o a : is_bconv o = false -> strip_args D n o a = a.
Proof. intros H. unfold strip_args. rewrite H. destruct a as [|? [|? [|? [|? [|? [|]]]]]]; reflexivity. Qed.

(** ** One action on the stripped program *)
Definition is_param (p : list instr) (k : nat) : Prop :=
  exists r o i f m b t, In (r, o, [i; f; m; b; t]) p /\ is_bconv o = true /\ (k = m \/ k = b).
Lemma clean_param p : params_clean p <-> forall k y x, is_param p k -> behind (def p) k y -> src (def p) y = Some x ->
  (forall c a, def p x <> Some (OConv c, a)) /\ (forall a, def p x <> Some (ODequant, a)).
Proof.
  split.
  - intros H k y x (r & o & i & f & m & b & t & H1 & H2 & H3) HB HX. exact (H r o i f m b t k y x H1 H2 H3 HB HX).
  - intros H r o i f m b t k y x H1 H2 H3 HB HX. apply (H k y x); [|exact HB|exact HX]. exists r, o, i, f, m, b, t. auto.
Qed.
Definition quantish (o : op) : bool := is_tq o || is_tdq o.

Section Agree.
  Variables p q : list instr.
  Hypothesis Hsub : forall z o a, def q z = Some (o, a) -> quantish o = true -> def p z = Some (o, a).
  Lemma agree_src m x : src (def q) m = Some x -> src (def p) m = Some x.
  Proof.
    intros H. apply src_inv in H. destruct H as (o & y & o' & H1 & H2 & H3 & H4).
    apply (src_intro _ _ _ o y o'); auto; apply Hsub; auto; unfold quantish; [rewrite H2; apply orb_true_r|rewrite H4; reflexivity].
  Qed.
  Lemma agree_behind m y : behind (def q) m y -> behind (def p) m y.
  Proof. intros H. induction H as [m|m x y H1 H2 IH]; [constructor|]. econstructor; [apply agree_src; eassumption|exact IH]. Qed.
  Hypothesis Hpar : forall k, is_param q k -> exists k0, is_param p k0 /\ behind (def p) k0 k.
  Hypothesis Hcv : forall x o a, def q x = Some (o, a) -> (exists c, o = OConv c) \/ o = ODequant -> exists a0, def p x = Some (o, a0).
  Lemma agree_clean : params_clean p -> params_clean q.
  Proof.
    rewrite !clean_param. intros H k y x HP HB HX. destruct (Hpar k HP) as (k0 & HP0 & HB0).
    destruct (H k0 y x HP0) as [A B]; [eapply behind_trans; [exact HB0|apply agree_behind, HB]|apply agree_src, HX|]. split.
    - intros c a E. destruct (Hcv x _ _ E) as (a0 & E0); [left; eauto|]. exact (A _ _ E0).
    - intros a E. destruct (Hcv x _ _ E) as (a0 & E0); [right; reflexivity|]. exact (B _ E0).
  Qed.
End Agree.

Section Replace.
  Variables (S : list nat) (pre post : list instr) (r : nat) (o o' : op) (a a' : list nat).
  Let p := pre ++ (r, o, a) :: post.
  Let q := pre ++ (r, o', a') :: post.
  Hypothesis HS : ssa S p.
  Hypothesis Ha' : forall x, In x a' -> In x (map iid pre) \/ In x S.
  Lemma rp_ssa : ssa S q.
  Proof.
    unfold q. unfold p in HS. apply ssa_app in HS. apply ssa_app. destruct HS as [H1 (H2 & H3 & H4)]. split; [exact H1|].
    split; [intros x Hx; apply scope_in, Ha', Hx|]. split; [exact H3|exact H4].
  Qed.
  Lemma rp_def x : x <> r -> def q x = def p x.
  Proof.
    intros N. unfold p, q. rewrite !def_app. destruct (def pre x); [reflexivity|]. rewrite !def_cons. cbn [iid fst].
    destruct (Nat.eqb_spec r x); [congruence|reflexivity].
  Qed.
  Lemma rp_def_p : def p r = Some (o, a).
  Proof. apply (IRWell.def_in S); [exact HS|]. apply in_or_app. right. left. reflexivity. Qed.
  Lemma rp_def_q : def q r = Some (o', a').
  Proof. apply (IRWell.def_in S); [exact rp_ssa|]. apply in_or_app. right. left. reflexivity. Qed.
  Hypothesis Ho' : quantish o' = false.
  Hypothesis Ho : is_tdq o = false.
  Lemma rp_sub z u b : def q z = Some (u, b) -> quantish u = true -> def p z = Some (u, b).
  Proof.
    intros H HQ. destruct (Nat.eq_dec z r) as [->|N]; [|rewrite <- rp_def by exact N; exact H].
    rewrite rp_def_q in H. injection H as <- <-. congruence.
  Qed.
  (* where the replaced operation is a quantise, it is not behind a parameter *)
  Lemma rp_src y : (forall x, src (def p) y = Some x -> is_tq o = true -> a <> [x]) -> src (def q) y = src (def p) y.
  Proof.
    intros HX. destruct (src (def q) y) as [x|] eqn:E; [symmetry; apply (agree_src p q rp_sub), E|].
    destruct (src (def p) y) as [x|] eqn:E2; [|reflexivity]. exfalso.
    apply src_inv in E2. destruct E2 as (u & z & u' & H1 & H2 & H3 & H4).
    assert (N1 : y <> r). { intros ->. rewrite rp_def_p in H1. injection H1 as <- _. congruence. }
    assert (N2 : z <> r).
    { intros ->. rewrite rp_def_p in H3. injection H3 as <- E3. apply (HX x eq_refl H4 E3). }
    rewrite (src_intro (def q) y x u z u') in E; [discriminate| | | |]; rewrite ?rp_def by assumption; assumption.
  Qed.
End Replace.

(** New parameters are old ones, or behind them. *)
Lemma param_app_in p i k : In i p -> is_bconv (iop i) = true -> (exists x f m b t, iargs i = [x; f; m; b; t] /\ (k = m \/ k = b)) -> is_param p k.
Proof.
  intros Hi Hb (x & f & m & b & t & Ha & Hk). destruct i as [[r o] a]. cbn [iop iargs fst snd] in *. subst a.
  exists r, o, x, f, m, b, t. auto.
Qed.
Lemma replace_param pre r o a post o' a' (P : nat -> Prop) :
  (forall k, is_param (pre ++ (r, o, a) :: post) k -> P k) ->
  (forall i f m b t k, is_bconv o' = true -> a' = [i; f; m; b; t] -> k = m \/ k = b -> P k) ->
  forall k, is_param (pre ++ (r, o', a') :: post) k -> P k.
Proof.
  intros H1 H2 k (r1 & o1 & i & f & m & b & t & Hi & Hb & Hk). apply in_app_or in Hi. destruct Hi as [Hi|[Hi|Hi]].
  - apply H1. exists r1, o1, i, f, m, b, t. split; [apply in_or_app; left; exact Hi|auto].
  - assert (E := Hi). apply (f_equal iop) in E. cbn in E. subst o1. apply (f_equal iargs) in Hi. cbn in Hi.
    apply (H2 i f m b t); assumption.
  - apply H1. exists r1, o1, i, f, m, b, t. split; [apply in_or_app; right; right; exact Hi|auto].
Qed.

(** The stripped program after replacing one operation. *)
Lemma strip_replace S (pre : list instr) r o a (post : list instr) o' a' :
  let p := pre ++ (r, o, a) :: post in
  let q := pre ++ (r, o', a') :: post in
  let f := strip_i (def p) (length p) in
  ssa S p -> (forall x, In x a' -> In x (map iid pre) \/ In x S) ->
  (forall k y, is_param q k -> behind (def p) k y -> src (def q) y = src (def p) y) ->
  strip q = map f pre ++ (r, o', strip_args (def p) (length p) o' a') :: map f post.
Proof.
  intros p q f HS Ha HA. unfold strip.
  assert (EL : @length instr q = @length instr p) by (unfold p, q; rewrite !app_length; reflexivity). rewrite EL.
  assert (EF : forall i, In i q -> strip_i (def q) (length p) i = f i).
  { intros [[r1 o1] a1] Hi. unfold f, strip_i. cbn [iid iop iargs fst snd]. f_equal. unfold strip_args.
    destruct a1 as [|i1 [|f1 [|m1 [|b1 [|t1 [|]]]]]]; try reflexivity. destruct (is_bconv o1) eqn:EB; [|reflexivity].
    rewrite (chase_ext (def p) (def q)); [reflexivity|]. intros y [Hy|Hy]; [apply (HA m1)|apply (HA b1)]; auto; exists r1, o1, i1, f1, m1, b1, t1; auto. }
  etransitivity; [apply (map_ext_in _ f q EF)|]. unfold q. rewrite map_app. reflexivity.
Qed.

Definition igood (S : list nat) (e0 : env) (p : list instr) (outs : list nat) (e : env) : Prop :=
  ssa S p /\ (forall x, In x outs -> In x (S ++ map iid p)) /\ params_clean p /\ eval (strip p) e0 = Some e /\ no_ties (strip p) e.

Lemma crosses_comp a b z : (a == b)%Q -> crosses a z -> crosses b z.
Proof. intros H [(n & Hn) H2]. split; [exists n; rewrite <- H; exact Hn|]. rewrite <- H. exact H2. Qed.
Lemma ties_kept S p q e0 e e' :
  ssa S p -> ssa S q -> eval p e0 = Some e -> eval q e0 = Some e' ->
  (forall x v, In x (S ++ map iid p) -> In x (S ++ map iid q) -> e x = Some v -> exists w, e' x = Some w /\ veq v w) ->
  (forall r s z cv, In (r, tfl_quant s z, [cv]) q -> In (r, tfl_quant s z, [cv]) p) ->
  (forall cv c a, In (cv, OConv c, a) q -> exists a0, In (cv, OConv c, a0) p) ->
  no_ties p e -> no_ties q e'.
Proof.
  intros HP HQ HE HE' HV H1 H2 HN r s z cv c a t i Hq Hc Ht Hi HX. destruct (H2 _ _ _ Hc) as (a0 & Hc0).
  assert (K1 : In cv (S ++ map iid p)) by (apply in_or_app; right; apply (in_map iid) in Hc0; exact Hc0).
  assert (K2 : In cv (S ++ map iid q)) by (apply in_or_app; right; apply (in_map iid) in Hc; exact Hc).
  destruct (back S p q e0 e e' cv (VF t) HP HQ HE HE' K1) as (v & Ev & V); [intros v Hv; apply (HV cv v K1 K2 Hv)|exact Ht|].
  destruct v as [t0| | | |]; try contradiction. destruct V as [Vs Ve]. rewrite <- Vs in Hi.
  apply (HN r s z cv c a0 t0 i (H1 _ _ _ _ Hq) Hc0 Ev Hi). apply (crosses_comp (at_ t i / s)); [|exact HX]. rewrite (Ve i Hi). reflexivity.
Qed.

Lemma ireplace S outs e0 (pre : list instr) r o a (post : list instr) o' a' e :
  let p := pre ++ (r, o, a) :: post in
  let q := pre ++ (r, o', a') :: post in
  let f := strip_i (def p) (length p) in
  igood S e0 p outs e ->
  is_bconv o = false -> is_tdq o = false ->
  (is_tq o = true -> exists x b, a = [x] /\ (def p x = Some (ODequant, b) \/ exists c, def p x = Some (OConv c, b))) ->
  quantish o' = false -> (forall c, o' <> OConv c) -> o' <> ODequant ->
  (forall x, In x a' -> In x (map iid pre) \/ In x S) ->
  (forall i f m b t k, is_bconv o' = true -> a' = [i; f; m; b; t] -> k = m \/ k = b -> is_param p k) ->
  (forall ep vs v, eval (map f pre) e0 = Some ep -> look ep a = Some vs -> denote o vs = Some v ->
     exists vs' v', look ep (strip_args (def p) (length p) o' a') = Some vs' /\ denote o' vs' = Some v' /\ veq v v') ->
  exists e', igood S e0 q outs e' /\ Forall2 (related e e') outs outs.
Proof.
  intros p q f (HS & HO & HC & HE & HN) B1 B2 B3 B4 B5 B6 HA HPr HL.
  assert (HSq : ssa S q) by (apply (rp_ssa S pre post r o o' a a' HS HA)).
  assert (Hpar : forall k, is_param q k -> is_param p k).
  { apply (replace_param pre r o a post o' a' (is_param p)); [auto|]. intros. eapply HPr; eassumption. }
  assert (Hsub := rp_sub S pre post r o o' a a' HS HA B4 B2). fold p q in Hsub.
  assert (HCq : params_clean q).
  { apply (agree_clean p q Hsub); [intros k Hk; exists k; split; [apply Hpar, Hk|constructor]| |exact HC].
    intros x u b E HU. destruct (Nat.eq_dec x r) as [->|N]; [|exists b; rewrite <- E; symmetry; exact (rp_def pre post r o o' a a' x N)].
    exfalso. assert (E2 := eq_trans (eq_sym E) (rp_def_q S pre post r o o' a a' HS HA)). injection E2 as -> ->.
    destruct HU as [[c HU]|HU]; [exact (B5 c HU)|exact (B6 HU)]. }
  assert (Hsrc : forall k y, is_param q k -> behind (def p) k y -> src (def q) y = src (def p) y).
  { intros k y Hk Hb. apply (rp_src S pre post r o o' a a' HS HA B4 B2). intros x Hx Ht E.
    destruct (proj1 (clean_param p) HC k y x (Hpar k Hk) Hb Hx) as [C1 C2].
    destruct (B3 Ht) as (x1 & b & E1 & D1). rewrite E1 in E. injection E as <-.
    destruct D1 as [D1|(c & D1)]; [exact (C2 _ D1)|exact (C1 _ _ D1)]. }
  assert (Eq := strip_replace S pre r o a post o' a' HS HA Hsrc). cbv zeta in Eq. fold p q f in Eq.
  assert (Ep : strip p = map f pre ++ (r, o, a) :: map f post).
  { unfold strip. change (map f p = map f pre ++ (r, o, a) :: map f post). unfold p. rewrite map_app. cbn [map]. f_equal. f_equal.
    unfold f, strip_i. cbn [iid iop iargs fst snd]. rewrite strip_other by exact B1. reflexivity. }
  assert (HSp' := ssa_strip S p HS). assert (HSq' := ssa_strip S q HSq).
  rewrite Ep in HSp', HE, HN.
  assert (EI : map iid (map f pre ++ (r, o, a) :: map f post) = map iid p).
  { unfold p. rewrite !map_app. cbn [map]. unfold f. rewrite !iids_strip. reflexivity. }
  assert (EIn : forall x, In x outs -> In x (S ++ map iid (map f pre ++ (r, o, a) :: map f post))).
  { intros x Hx. rewrite EI. apply HO, Hx. }
  destruct (splice_sound S outs e0 (map f pre) r o a (map f post) [] o' (strip_args (def p) (length p) o' a') e HSp') as (HS' & HO' & e' & HE' & HV).
  - exact EIn.
  - intros x [].
  - exact HE.
  - intros ep vs v E1 E2 E3. split; [exact I|]. split.
    + intros x Hx. cbn [map rev app]. apply strip_args_in in Hx. destruct Hx as (y & Hy & HB). apply scope_in. unfold f. rewrite iids_strip.
      eapply (behind_scope S pre ((r, o, a) :: post)); [exact HS|exact HB|apply HA, Hy].
    + destruct (HL ep vs v E1 E2 E3) as (vs' & v' & L1 & L2 & L3). exists ep, vs', v'. split; [reflexivity|auto].
  - assert (HE2 : eval (strip q) e0 = Some e') by (rewrite Eq; exact HE').
    exists e'. split; [|apply F2_same; intros x Hx v Hv; apply (HV x v); [exact (EIn x Hx)|exact Hv]].
    assert (EIq : map iid q = map iid p) by (unfold p, q; rewrite !map_app; reflexivity).
    split; [exact HSq|]. split; [intros x Hx; rewrite EIq; apply HO, Hx|]. split; [exact HCq|]. split; [exact HE2|].
    apply (ties_kept S (map f pre ++ (r, o, a) :: map f post) (strip q) e0 e e'); auto.
    + intros r1 s z cv Hi. rewrite Eq in Hi. apply in_app_or in Hi. apply in_or_app. destruct Hi as [Hi|[Hi|Hi]]; [auto| |cbn [In]; auto].
      exfalso. apply (f_equal iop) in Hi. cbn in Hi. subst o'. discriminate.
    + intros cv c a1 Hi. exists a1. rewrite Eq in Hi. apply in_app_or in Hi. apply in_or_app. destruct Hi as [Hi|[Hi|Hi]]; [auto| |cbn [In]; auto].
      exfalso. apply (f_equal iop) in Hi. cbn in Hi. exact (B5 _ Hi).
Qed.

(** Dropping a pair *)
Lemma ipar S outs e0 (pre : list instr) r o i f m b t (post : list instr) m' b' e :
  let p := pre ++ (r, o, [i; f; m; b; t]) :: post in
  let q := pre ++ (r, o, [i; f; m'; b'; t]) :: post in
  igood S e0 p outs e -> is_bconv o = true -> src (def pre) m = Some m' -> src (def pre) b = Some b' -> igood S e0 q outs e.
Proof.
  intros p q (HS & HO & HC & HE & HN) HB Hm Hb.
  destruct (ssa_mid _ _ _ _ _ _ HS) as (H1 & H2 & H3 & H4 & H5).
  destruct (src_scope S pre ((r, o, [i; f; m; b; t]) :: post) m HS (H2 m ltac:(cbn; auto))) as [A1 A2].
  destruct (src_scope S pre ((r, o, [i; f; m; b; t]) :: post) b HS (H2 b ltac:(cbn; auto))) as [A3 A4].
  rewrite Hm in A1. rewrite Hb in A3. change (src (def p) m = Some m') in A1. change (src (def p) b = Some b') in A3.
  assert (HA : forall x, In x [i; f; m'; b'; t] -> In x (map iid pre) \/ In x S).
  { intros x [<-|[<-|[<-|[<-|[<-|[]]]]]]; [apply H2; cbn; auto|apply H2; cbn; auto|apply A2, Hm|apply A4, Hb|apply H2; cbn; auto 10]. }
  assert (HSq : ssa S q) by (apply (rp_ssa S pre post r o o _ _ HS HA)).
  assert (NQ : quantish o = false /\ is_tq o = false /\ is_tdq o = false).
  { clear - HB. unfold quantish, is_tq, is_tdq, is_bconv in *. destruct o as [| | | | | | | | | | |x]; auto. destruct (ek x) as [| | | | | |[]]; try discriminate; auto. }
  destruct NQ as (N1 & N2 & N3).
  assert (Hsub := rp_sub S pre post r o o _ _ HS HA N1 N3). fold p q in Hsub.
  assert (Hpar : forall k, is_param q k -> exists k0, is_param p k0 /\ behind (def p) k0 k).
  { apply (replace_param pre r o [i; f; m; b; t] post o [i; f; m'; b'; t]); [intros k Hk; exists k; split; [exact Hk|constructor]|].
    intros i1 f1 m1 b1 t1 k _ E Hk. injection E as <- <- <- <- <-.
    assert (Hin : In (r, o, [i; f; m; b; t]) p) by (apply in_or_app; right; left; reflexivity).
    destruct Hk as [-> | ->]; [exists m|exists b]; (split; [exists r, o, i, f, m, b, t; auto|econstructor; [eassumption|constructor]]). }
  assert (Hsrc : forall y, src (def q) y = src (def p) y).
  { intros y. apply (rp_src S pre post r o o _ _ HS HA N1 N3). congruence. }
  assert (HCq : params_clean q).
  { apply (agree_clean p q Hsub); [exact Hpar| |exact HC].
    intros x u c E HU. destruct (Nat.eq_dec x r) as [->|N]; [|exists c; rewrite <- E; symmetry; exact (rp_def pre post r o o _ _ x N)].
    exists [i; f; m; b; t]. assert (E2 := eq_trans (eq_sym E) (rp_def_q S pre post r o o _ _ HS HA)). injection E2 as -> ->.
    apply (rp_def_p S pre post r o _ HS). }
  assert (Eq : strip q = strip p).
  { assert (E := strip_replace S pre r o [i; f; m; b; t] post o [i; f; m'; b'; t] HS HA (fun k y _ _ => Hsrc y)). cbv zeta in E. fold p q in E.
    rewrite E. set (g := strip_i (def p) (length p)). change (strip p) with (map g p).
    replace (map g p) with (map g pre ++ g (r, o, [i; f; m; b; t]) :: map g post) by (unfold p; rewrite map_app; reflexivity).
    f_equal. f_equal. unfold g, strip_i. cbn [iid iop iargs fst snd]. f_equal. unfold strip_args. rewrite HB.
    assert (EC : chase (def p) (length p) m b = chase (def p) (length p) m' b').
    { assert (C1 := chase_done S p (Datatypes.S (length p)) m b HS (Nat.le_le_succ_r _ _ (pos_le p m))).
      assert (C2 := chase_done S p (length p) m b HS (pos_le p m)).
      rewrite (chase_same (def p) (length p) (Datatypes.S (length p)) m b C2 C1). cbn [chase]. rewrite A1, A3. reflexivity. }
    rewrite EC. reflexivity. }
  unfold igood. rewrite Eq.
  assert (EIq : map iid q = map iid p) by (unfold p, q; rewrite !map_app; reflexivity).
  split; [exact HSq|]. split; [intros x Hx; rewrite EIq; apply HO, Hx|]. auto.
Qed.

(** Removing an unused operation *)
Lemma uses_none p outs x : ~ In x outs -> (forall i, In i p -> ~ In x (iargs i)) -> uses p outs x = 0%nat.
Proof.
  intros H1 H2. induction p as [|j p IH]; cbn [uses]; [apply cnt_zero, H1|].
  rewrite cnt_zero by (apply H2; left; reflexivity). rewrite IH by (intros i Hi; apply H2; right; exact Hi). reflexivity.
Qed.
Lemma unused_behind p x k y : (forall i, In i p -> ~ In x (iargs i)) -> behind (def p) k y -> k <> x -> y <> x.
Proof.
  intros H HB. induction HB as [m|m u y H1 H2 IH]; intros N; [exact N|]. apply IH. intros ->.
  apply src_inv in H1. destruct H1 as (o & q & o' & _ & _ & H3 & _). apply (H _ (def_instr _ _ _ _ H3)). left. reflexivity.
Qed.
Lemma ssa_remove S (pre post : list instr) i : ssa S (pre ++ i :: post) -> (forall j, In j post -> ~ In (iid i) (iargs j)) -> ssa S (pre ++ post).
Proof.
  destruct i as [[r o] a]. intros HS H. apply ssa_app in HS. apply ssa_app. destruct HS as [H1 (_ & H3 & H4)]. split; [exact H1|].
  apply (ssa_weaken post _ _ H4).
  - intros j x Hj Hx [<-|K]; [exfalso; exact (H j Hj Hx)|exact K].
  - intros x Hx C. apply (ssa_notin _ _ H4 x Hx). right. exact C.
Qed.

Lemma idead S outs e0 (pre : list instr) i (post : list instr) e :
  let p := pre ++ i :: post in
  let q := pre ++ post in
  uses p outs (iid i) = 0%nat -> igood S e0 p outs e -> exists e', igood S e0 q outs e' /\ Forall2 (related e e') outs outs.
Proof.
  intros p q U0 (HS & HO & HC & HE & HN). destruct (uses_zero _ _ _ U0) as [U1 U2]. set (r := iid i) in *.
  assert (HSq : ssa S q).
  { apply (ssa_remove S pre post i HS). intros j Hj. apply U2. unfold p. apply in_or_app. right. right. exact Hj. }
  assert (Hincl : forall j, In j q -> In j p).
  { intros j Hj. unfold p, q in *. apply in_app_or in Hj. apply in_or_app. cbn [In]. tauto. }
  assert (Hdef : forall z, z <> r -> def q z = def p z).
  { intros z N. unfold p, q. rewrite !def_app, def_cons. destruct (def pre z); [reflexivity|]. destruct (Nat.eqb_spec (iid i) z) as [E|_]; [|reflexivity].
    exfalso. apply N. symmetry. exact E. }
  assert (Hr : forall o a, def q r <> Some (o, a)).
  { intros o a E. apply def_instr, (in_map iid) in E. cbn [iid fst] in E. destruct i as [[r0 o0] a0]. cbn in r.
    destruct (ssa_mid _ _ _ _ _ _ HS) as (_ & _ & K1 & _ & K2). unfold q in E. rewrite map_app in E. apply in_app_or in E.
    destruct E as [E|E]; [exact (K1 E)|exact (K2 E)]. }
  assert (Hdq : forall z o a, def q z = Some (o, a) -> def p z = Some (o, a)).
  { intros z o a E. destruct (Nat.eq_dec z r) as [->|N]; [exfalso; exact (Hr _ _ E)|]. rewrite <- Hdef by exact N. exact E. }
  assert (Hpar : forall k, is_param q k -> is_param p k /\ k <> r).
  { intros k (r1 & o1 & x & f & m & b & t & K1 & K2 & K3). split; [exists r1, o1, x, f, m, b, t; auto|].
    intros ->. apply (U2 _ (Hincl _ K1)). cbn [iargs snd In]. destruct K3 as [<- | <-]; auto 10. }
  assert (Hsrc : forall y, y <> r -> src (def q) y = src (def p) y).
  { intros y N. unfold src. rewrite (Hdef y N). destruct (def p y) as [[o [|z [|]]]|] eqn:E; try reflexivity. destruct (is_tdq o); [|reflexivity].
    rewrite Hdef; [reflexivity|]. intros ->. apply (U2 _ (def_instr _ _ _ _ E)). left. reflexivity. }
  assert (HCq : params_clean q).
  { apply (agree_clean p q); [intros z o a E _; apply Hdq, E| | |exact HC].
    - intros k Hk. exists k. split; [apply (Hpar k Hk)|constructor].
    - intros x o a E _. exists a. apply Hdq, E. }
  set (f := strip_i (def p) (length p)).
  assert (Ep : strip p = map f pre ++ f i :: map f post) by (unfold strip; fold f; unfold p; rewrite map_app; reflexivity).
  assert (Eq : strip q = map f pre ++ map f post).
  { rewrite <- map_app. change (pre ++ post) with q. unfold strip. apply map_ext_in. intros [[r1 o1] a1] Hi. unfold f, strip_i. cbn [iid iop iargs fst snd].
    f_equal. unfold strip_args. destruct a1 as [|i1 [|f1 [|m1 [|b1 [|t1 [|]]]]]]; try reflexivity. destruct (is_bconv o1) eqn:EB; [|reflexivity].
    assert (Pm : is_param q m1) by (exists r1, o1, i1, f1, m1, b1, t1; auto). assert (Pb : is_param q b1) by (exists r1, o1, i1, f1, m1, b1, t1; auto).
    assert (HB : forall k y, is_param q k -> behind (def p) k y -> src (def q) y = src (def p) y).
    { intros k y Hk Hy. apply Hsrc. apply (unused_behind p r k y U2 Hy). apply (Hpar k Hk). }
    assert (EX : chase (def q) (length q) m1 b1 = chase (def p) (length q) m1 b1).
    { apply chase_ext. intros y [Hy|Hy]; [apply (HB m1)|apply (HB b1)]; assumption. }
    assert (C1 := chase_done S q (length q) m1 b1 HSq (pos_le q m1)). rewrite EX in C1.
    destruct (chase_behind (def p) (length q) m1 b1) as [K1 K2].
    assert (C2 : done (def p) (chase (def p) (length q) m1 b1)).
    { unfold done in *. rewrite (HB m1 _ Pm K1), (HB b1 _ Pb K2) in C1. exact C1. }
    rewrite EX. rewrite (chase_same (def p) (length q) (length p) m1 b1 C2 (chase_done S p (length p) m1 b1 HS (pos_le p m1))). reflexivity. }
  assert (HSp' := ssa_strip S p HS).
  assert (EIp : map iid (strip p) = map iid p) by (unfold strip; apply iids_strip).
  assert (EIq : map iid (strip q) = map iid q) by (unfold strip; apply iids_strip).
  assert (U' : uses (map f pre ++ f i :: map f post) outs (iid (f i)) = 0%nat).
  { rewrite <- Ep. change (iid (f i)) with r. apply uses_none; [exact U1|]. intros j Hj C. unfold strip in Hj. apply in_map_iff in Hj.
    destruct Hj as ([[r1 o1] a1] & <- & Hj). unfold strip_i in C. cbn [iid iop iargs fst snd] in C. apply strip_args_in in C.
    destruct C as (y & Hy & HB). apply (unused_behind p r y r U2 HB); [|reflexivity]. intros ->. exact (U2 _ Hj Hy). }
  assert (HOp : forall x, In x outs -> In x (S ++ map iid (strip p))) by (intros x Hx; rewrite EIp; apply HO, Hx).
  rewrite Ep in HSp', HE, HN, HOp.
  destruct (step_sound_all true S outs e0 _ _ e HSp' HOp (S_dead _ _ _ _ (map f pre) (f i) (map f post) U') HE) as (HS' & HO' & e' & HE' & HV).
  rewrite <- Ep in HSp', HE, HN, HOp, HV. rewrite <- Eq in HS', HO', HE'.
  assert (HI : forall x, In x (S ++ map iid (strip q)) -> In x (S ++ map iid (strip p))).
  { intros x. rewrite EIp, EIq. unfold p, q. rewrite !map_app. cbn [map]. rewrite !in_app_iff. cbn [In]. tauto. }
  assert (HV' : forall x v, In x (S ++ map iid (strip q)) -> e x = Some v -> exists w, e' x = Some w /\ veq v w).
  { intros x v Hx. rewrite <- Eq in HV. apply HV; [apply HI, Hx|exact Hx]. }
  exists e'. split; [|apply F2_same; intros x Hx v Hv; apply (HV' x v); [apply HO', Hx|exact Hv]].
  split; [exact HSq|]. split; [rewrite <- EIq; exact HO'|]. split; [exact HCq|]. split; [exact HE'|].
  apply (ties_kept S (strip p) (strip q) e0 e e'); auto.
  - intros r1 s z cv Hi. rewrite Ep. rewrite Eq in Hi. apply in_app_or in Hi. apply in_or_app. cbn [In]. tauto.
  - intros cv c a Hi. exists a. rewrite Ep. rewrite Eq in Hi. apply in_app_or in Hi. apply in_or_app. cbn [In]. tauto.
Qed.

(** ** Values *)
Lemma Qlt_bool_iff x y : Qlt_bool x y = true <-> (x < y)%Q.
Proof. destruct (Qlt_bool_spec x y); split; (congruence || tauto). Qed.
Lemma ok8_inv s z : ok8 s z = true -> (0 < s)%Q /\ -128 <= z <= 127.
Proof. unfold ok8. rewrite !andb_true_iff, !Z.leb_le. intros [[H1 H2] H3]. split; [|lia]. apply Qlt_bool_iff, H1. Qed.
Lemma conv8_value r s z : ~ crosses (r / s) z -> clamp8 (round_haz (r / s) + z) = clamp8 (round_haz (r / s + inject_Z z)).
Proof. intros H. destruct (round_shift (r / s) z) as [E|(T & C & _)]; [rewrite E; reflexivity|]. exfalso. apply H. split; assumption. Qed.
Lemma deq8_value s z b : (0 < s)%Q -> -128 <= z <= 127 -> clamp8 (round_haz (inject_Z (pm b) / s) + z) =
  let off := round_haz (1 / s) in if b then Z.max (-128) (z - off) else Z.min 127 (z + off).
Proof.
  intros Hs Hz. assert (Hn : ~ (s == 0)%Q) by lra. cbv zeta.
  assert (Ho : 0 <= round_haz (1 / s)).
  { rewrite round_haz_nonneg. - apply (Qround.Qfloor_resp_le 0). assert (0 < 1 / s)%Q by (apply Qlt_shift_div_l; lra). lra.
    - apply Qle_shift_div_l; lra. }
  destruct b; unfold pm, clamp8.
  - replace (round_haz (inject_Z (-1) / s)) with (- round_haz (1 / s)); [lia|].
    rewrite <- round_haz_opp. apply round_haz_comp. change (inject_Z (-1)) with (- (1))%Q. field. exact Hn.
  - change (inject_Z 1) with 1%Q. lia.
Qed.
Lemma quant8_value s z v : (0 < s)%Q -> Qlt_bool (s * inject_Z (v - z)) 0 = (v <? z).
Proof.
  intros Hs. apply bool_eq. rewrite Qlt_bool_iff, Z.ltb_lt. split; intros H.
  - destruct (Z_lt_ge_dec v z) as [L|L]; [exact L|]. exfalso. assert (0 <= inject_Z (v - z))%Q by (change 0%Q with (inject_Z 0); rewrite <- Zle_Qle; lia). nra.
  - assert (inject_Z (v - z) <= inject_Z (-1))%Q by (rewrite <- Zle_Qle; lia). change (inject_Z (-1)) with (- (1))%Q in *. nra.
Qed.

(** ** Every action keeps the meaning *)
Lemma conv_float c vs t : denote (OConv c) vs = Some (VF t) -> exists i f m b, vs = [VBits i; VF f; VF m; VF b; VNone] /\ bc_float c i f m b = Some (VF t).
Proof.
  intros H. destruct vs as [|[|i| | |] vs]; try discriminate. destruct vs as [|[f| | | |] vs]; try discriminate.
  destruct vs as [|[m| | | |] vs]; try discriminate.
  - destruct vs as [|[b| | | |] vs]; try discriminate. destruct vs as [|[| | | |] vs]; try discriminate. destruct vs; try discriminate.
    exists i, f, m, b. split; [reflexivity|exact H].
  - destruct vs as [|[| | | |] vs]; try discriminate. destruct vs as [|[| | |th|] vs]; try discriminate. destruct vs; try discriminate.
    cbn [denote] in H. unfold bc_bits in H. destruct (bc_geom _ _ _); [|discriminate]. destruct (_ && _); discriminate.
Qed.
Lemma look1 ep x vs : look ep [x] = Some vs -> exists u, ep x = Some u /\ vs = [u].
Proof. cbn [look]. destruct (ep x) as [u|]; [|discriminate]. intros H. injection H as <-. eauto. Qed.
Theorem istep_good S e0 p outs q e :
  istep outs p q -> igood S e0 p outs e -> exists e', igood S e0 q outs e' /\ Forall2 (related e e') outs outs.
Proof.
  intros H HG. inversion H as [pre r o a post inner o' a' R U E1 E2 | pre r o a post vs v FO NC HC HD E1 E2 | pre i post U0 E1 E2]; subst; clear H.
  - assert (HG' := HG). destruct HG' as (HS & HO & HC & HE & HN).
    destruct (ssa_mid _ _ _ _ _ _ HS) as (H1 & H2 & H3 & H4 & H5).
    set (p := pre ++ (r, o, a) :: post) in *. set (f := strip_i (def p) (length p)).
    assert (HSf : ssa S (map f pre)).
    { assert (K := ssa_strip S p HS). unfold strip in K. fold f in K. unfold p in K. rewrite map_app in K. apply ssa_app in K. exact (proj1 K). }
    inversion R as [o1 i f1 m b t m' b' HB Hm Hb E3 E4 | c s z cv a1 Hd E3 E4 | s z d x Hd E3 E4 | s z d x Hd E3 E4]; subst; clear R.
    + exists e. split; [apply (ipar S outs e0 pre r o' i f1 m b t post m' b' e HG HB Hm Hb)|].
      apply F2_same. intros x _ v Hv. exists v. split; [exact Hv|apply veq_refl].
    + assert (Hdp : def p cv = Some (OConv c, a')) by (unfold p; apply (def_pre pre _ cv _ Hd)).
      apply (ireplace S outs e0 pre r (tfl_quant s z) [cv] post (lq_conv8 c s z) a' e HG); try reflexivity; try discriminate.
      * intros _. exists cv, a'. split; [reflexivity|]. right. exists c. exact Hdp.
      * intros x Hx. apply (def_args S pre cv (OConv c) a' x H1 Hd Hx).
      * intros i f1 m b t k _ -> Hk. exists cv, (OConv c), i, f1, m, b, t. split; [apply def_instr, Hdp|]. split; [reflexivity|exact Hk].
      * intros ep vs v Ep El Ed. change (eval (map f pre) e0 = Some ep) in Ep.
        destruct (look1 _ _ _ El) as (u & Eu & ->). cbn [denote tfl_quant ef] in Ed.
        destruct u as [t| | | |]; try discriminate. cbn [tq_fun] in Ed. destruct (ok8 s z) eqn:E8; [|discriminate]. injection Ed as <-.
        assert (Hdf : def (map f pre) cv = Some (OConv c, strip_args (def p) (length p) (OConv c) a')) by (unfold f; rewrite def_strip, Hd; reflexivity).
        destruct (d_any S (map f pre) e0 ep HSf Ep cv _ _ Hdf) as (ws & w & L1 & L2 & L3 & L4 & _).
        assert (w = VF t) by congruence. subst w. destruct (conv_float _ _ _ L2) as (i1 & f1 & m1 & b1 & -> & EB).
        exists [VBits i1; VF f1; VF m1; VF b1; VNone]. eexists. split; [exact L1|]. cbn [denote lq_conv8 ef]. unfold lc8_fun. rewrite EB, E8. split; [reflexivity|].
        split; [reflexivity|]. intros ix Hix. cbn [tmap at_ sh] in *. apply conv8_value.
        assert (Eq : strip p = map f pre ++ (r, tfl_quant s z, [cv]) :: map f post).
        { unfold strip. fold f. unfold p. rewrite map_app. reflexivity. }
        assert (Hin : In (cv, OConv c, strip_args (def p) (length p) (OConv c) a') (strip p)).
        { rewrite Eq. apply in_or_app. left. apply def_instr, Hdf. }
        apply (HN r s z cv c (strip_args (def p) (length p) (OConv c) a') t ix); [rewrite Eq; apply in_or_app; right; left; reflexivity|exact Hin| |exact Hix].
        assert (HE2 := HE). rewrite Eq in HE2. assert (HS2 := ssa_strip S p HS). rewrite Eq in HS2.
        eapply (fr_keep S e0 e ep (map f pre) (map f post) r (tfl_quant s z) [cv] [VF t] _ HS2 HE2 Ep El); [cbn [denote tfl_quant ef tq_fun]; rewrite E8; reflexivity|exact L4|exact L3].
    + assert (Hdp : def p d = Some (ODequant, [x])) by (unfold p; apply (def_pre pre _ d _ Hd)).
      apply (ireplace S outs e0 pre r (tfl_quant s z) [d] post (lq_dequant8 s z) [x] e HG); try reflexivity; try discriminate.
      * intros _. exists d, [x]. split; [reflexivity|]. left. exact Hdp.
      * intros y Hy. apply (def_args S pre d ODequant [x] y H1 Hd Hy).
      * intros ep vs v Ep El Ed. change (eval (map f pre) e0 = Some ep) in Ep.
        destruct (look1 _ _ _ El) as (u & Eu & ->). cbn [denote tfl_quant ef] in Ed.
        destruct u as [t| | | |]; try discriminate. cbn [tq_fun] in Ed. destruct (ok8 s z) eqn:E8; [|discriminate]. injection Ed as <-.
        assert (Hdf : def (map f pre) d = Some (ODequant, [x])) by (unfold f; rewrite def_strip, Hd; reflexivity).
        destruct (d_any S (map f pre) e0 ep HSf Ep d _ _ Hdf) as (ws & w & L1 & L2 & L3 & L4 & _).
        assert (w = VF t) by congruence. subst w. destruct (look1 _ _ _ L1) as (u & Ex & ->). destruct u as [|tb| | |]; try discriminate.
        injection L2 as <-. exists [VBits tb]. eexists. split; [exact L1|]. cbn [denote lq_dequant8 ef ldq8_fun]. rewrite E8. split; [reflexivity|].
        destruct (ok8_inv _ _ E8) as [K1 K2]. split; [reflexivity|]. intros ix Hix. cbn [tmap at_ sh] in *. exact (deq8_value s z _ K1 K2).
    + assert (Hdp : def p d = Some (tfl_dequant s z, [x])) by (unfold p; apply (def_pre pre _ d _ Hd)).
      apply (ireplace S outs e0 pre r OQuant [d] post (lq_quant8 z) [x] e HG); try reflexivity; try discriminate.
      * intros y Hy. apply (def_args S pre d (tfl_dequant s z) [x] y H1 Hd Hy).
      * intros ep vs v Ep El Ed. change (eval (map f pre) e0 = Some ep) in Ep.
        destruct (look1 _ _ _ El) as (u & Eu & ->).
        assert (Hdf : def (map f pre) d = Some (tfl_dequant s z, [x])) by (unfold f; rewrite def_strip, Hd; reflexivity).
        destruct (d_any S (map f pre) e0 ep HSf Ep d _ _ Hdf) as (ws & w & L1 & L2 & L3 & L4 & _).
        assert (w = u) by congruence. subst w. destruct (look1 _ _ _ L1) as (u1 & Ex & ->). cbn [denote tfl_dequant ef] in L2.
        destruct u1 as [| | |tz|]; try discriminate. cbn [tdq_fun] in L2. destruct (ok8 s z) eqn:E8; [|discriminate]. injection L2 as <-.
        cbn [denote] in Ed. injection Ed as <-. exists [VInt tz]. eexists. split; [exact L1|]. cbn [denote lq_quant8 ef lq8_fun]. split; [reflexivity|].
        destruct (ok8_inv _ _ E8) as [K1 K2]. split; [reflexivity|]. intros ix Hix. cbn [tmap at_ sh] in *. exact (quant8_value s z _ K1).
  - assert (HG' := HG). destruct HG' as (HS & HO & _). unfold foldable in FO. rewrite !andb_true_iff, !negb_true_iff in FO. destruct FO as [[F1 F2] F3].
    apply (ireplace S outs e0 pre r o a post (OConst v) [] e HG); auto; try discriminate; try congruence.
    + intros x [].
    + intros ep vs' w Ep El Ed. exists [], v. cbn [look denote strip_args]. do 2 (split; [reflexivity|]).
      set (f := strip_i (def (pre ++ (r, o, a) :: post)) (length (pre ++ (r, o, a) :: post))) in *.
      assert (HSf : ssa S (map f pre)).
      { assert (K := ssa_strip S _ HS). unfold strip in K. fold f in K. rewrite map_app in K. apply ssa_app in K. exact (proj1 K). }
      assert (El' : look ep a = Some vs).
      { assert (HX : forall x c, def pre x = Some (OConst c, []) -> ep x = Some c).
        { intros x c Hx. assert (Hx' : def (map f pre) x = Some (OConst c, [])) by (unfold f; rewrite def_strip, Hx; reflexivity).
          exact (proj1 (d_const S (map f pre) e0 ep HSf Ep x c Hx')). }
        clear - HC HX. induction HC as [|x v l vs Hx HC IH]; [reflexivity|]. cbn [look]. rewrite (HX x v Hx), IH. reflexivity. }
      assert (E : Some w = Some v) by congruence. injection E as ->. apply veq_refl.
  - apply (idead S outs e0 pre i post e U0 HG).
Qed.
Theorem isteps_good S e0 n outs p q : isteps outs n p q -> forall e, igood S e0 p outs e ->
  exists e', igood S e0 q outs e' /\ Forall2 (related e e') outs outs.
Proof.
  intros H. induction H as [p|n p q u H1 H2 IH]; intros e HG.
  - exists e. split; [exact HG|]. apply F2_same. intros x _ v Hv. exists v. split; [exact Hv|apply veq_refl].
  - destruct (istep_good S e0 p outs q e H1 HG) as (e1 & G1 & R1). destruct (IH e1 G1) as (e2 & G2 & R2). exists e2. split; [exact G2|].
    apply F2_same. intros x Hx v Hv. destruct (F2_diag _ _ R1 x Hx v Hv) as (w & Ew & V1).
    destruct (F2_diag _ _ R2 x Hx w Ew) as (z & Ez & V2). exists z. split; [exact Ez|]. eapply veq_trans; eassumption.
Qed.

(** ** When no pattern applies, no pair is left *)
Theorem strip_finished S outs q : ssa S q -> (forall q', ~ istep outs q q') -> strip q = q.
Proof.
  intros HS HN. unfold strip. transitivity (map (fun i : instr => i) q); [|apply map_id]. apply map_ext_in. intros [[r o] a] Hi. unfold strip_i. cbn [iid iop iargs fst snd]. f_equal.
  unfold strip_args. destruct a as [|i [|f [|m [|b [|t [|]]]]]]; try reflexivity. destruct (is_bconv o) eqn:HB; [|reflexivity].
  rewrite chase_fix; [reflexivity|]. unfold done. cbn [fst snd].
  destruct (src (def q) m) as [m'|] eqn:E1; [|left; reflexivity]. destruct (src (def q) b) as [b'|] eqn:E2; [|right; reflexivity]. exfalso.
  apply in_split in Hi. destruct Hi as (pre & post & ->). destruct (ssa_mid _ _ _ _ _ _ HS) as (_ & H2 & _).
  destruct (src_scope S pre _ m HS (H2 m ltac:(cbn; auto))) as [A1 _]. destruct (src_scope S pre _ b HS (H2 b ltac:(cbn; auto))) as [A2 _].
  apply (HN (pre ++ (r, o, [i; f; m'; b'; t]) :: post)). apply (IS_rule outs pre r o [i; f; m; b; t] post None o [i; f; m'; b'; t]); [|discriminate].
  apply I_par; [exact HB|rewrite <- A1; exact E1|rewrite <- A2; exact E2].
Qed.

(** ** Termination *)
Definition iweight (N : nat) (p : list instr) (i : instr) : nat :=
  match iop i with
  | OConst _ => 1
  | OQuant => 3
  | o => if is_bconv o then match iargs i with [_; _; m; _; _] => 2 + pos p m | _ => 2 end
         else if is_tq o then N + 3 else 2
  end.
Definition isum (N : nat) (w p : list instr) : nat := list_sum (map (iweight N w) p).
Definition isize (N : nat) (p : list instr) : nat := isum N p p.
Lemma isum_app N w p q : isum N w (p ++ q) = (isum N w p + isum N w q)%nat.
Proof. unfold isum. rewrite map_app. apply list_sum_app. Qed.
Lemma isum_cons N w i q : isum N w (i :: q) = (iweight N w i + isum N w q)%nat.
Proof. reflexivity. Qed.
Lemma iweight_bound N p i : (length p <= N)%nat -> (1 <= iweight N p i <= N + 3)%nat.
Proof.
  intros H. unfold iweight. assert (K : forall x, (pos p x <= N)%nat) by (intros x; assert (B := pos_le p x); lia).
  destruct (iop i) as [| | | | | | | | | | |x]; cbn [is_bconv is_tq]; try lia.
  - destruct (iargs i) as [|? [|? [|m [|? [|? [|]]]]]]; try lia; specialize (K m); lia.
  - destruct (ek x) as [| | | | | |[]]; try lia. destruct (iargs i) as [|? [|? [|m [|? [|? [|]]]]]]; try lia; specialize (K m); lia.
Qed.
Lemma isum_bound N w p : (length w <= N)%nat -> (isum N w p <= length p * (N + 3))%nat.
Proof. intros H. induction p as [|i p IH]; [cbn; lia|]. rewrite isum_cons. assert (K := iweight_bound N w i H). cbn [length]. lia. Qed.
Lemma pos_ids p q x : map iid p = map iid q -> pos p x = pos q x.
Proof.
  revert q. induction p as [|i p IH]; intros [|j q] H; try discriminate; [reflexivity|]. cbn [map] in H. injection H as H1 H2. cbn [pos].
  rewrite H1, (IH q H2). reflexivity.
Qed.
Lemma isum_pos N w w' p : (forall x, (pos w' x <= pos w x)%nat) -> (isum N w' p <= isum N w p)%nat.
Proof.
  intros H. induction p as [|i p IH]; [cbn; lia|]. rewrite !isum_cons.
  assert (iweight N w' i <= iweight N w i)%nat; [|lia]. unfold iweight. destruct (iop i); try lia.
  all: destruct (is_bconv _); [|lia]. all: destruct (iargs i) as [|? [|? [|m [|? [|? [|]]]]]]; try lia. all: specialize (H m); lia.
Qed.
Lemma pos_remove (pre post : list instr) i x : x <> iid i -> (pos (pre ++ post) x <= pos (pre ++ i :: post) x)%nat.
Proof.
  intros N. induction pre as [|j pre IH]; cbn [app pos].
  - destruct (Nat.eqb_spec (iid i) x) as [E|_]; [congruence|]. destruct (pos post x); lia.
  - destruct (Nat.eqb (iid j) x); [lia|]. destruct (pos (pre ++ post) x), (pos (pre ++ i :: post) x); lia.
Qed.
Lemma isize_replace N (pre post : list instr) i j :
  iid i = iid j -> (iweight N (pre ++ i :: post) j < iweight N (pre ++ i :: post) i)%nat -> (isize N (pre ++ j :: post) < isize N (pre ++ i :: post))%nat.
Proof.
  intros HI HW. assert (EI : map iid (pre ++ j :: post) = map iid (pre ++ i :: post)) by (rewrite !map_app; cbn [map]; rewrite HI; reflexivity).
  unfold isize. assert (K := isum_pos N (pre ++ i :: post) (pre ++ j :: post) (pre ++ j :: post) ltac:(intros x; rewrite (pos_ids _ _ x EI); lia)).
  rewrite !isum_app, !isum_cons in *. lia.
Qed.
Theorem istep_size S N outs p q : ssa S p -> (length p <= N)%nat -> istep outs p q -> (isize N q < isize N p)%nat /\ (length q <= length p)%nat.
Proof.
  intros HS HN H. inversion H as [pre r o a post inner o' a' R U E1 E2 | pre r o a post vs v FO NC HC HD E1 E2 | pre i post U0 E1 E2]; subst; clear H.
  - split; [|rewrite !app_length; cbn [length]; lia]. apply isize_replace; [reflexivity|]. set (p := (pre ++ (r, o, a) :: post) : list instr) in *.
    change (iweight N p (r, o', a') < iweight N p (r, o, a))%nat. change (ssa S p) in HS. change (length p <= N)%nat in HN.
    assert (HX : forall m m', In m a -> src (def pre) m = Some m' -> src (def p) m = Some m').
    { intros m m' Hm E. destruct (ssa_mid _ _ _ _ _ _ HS) as (_ & H2 & _). etransitivity; [apply (src_scope S pre _ m HS (H2 m Hm))|exact E]. }
    clearbody p.
    inversion R as [o1 i f1 m b t m' b' HB Hm Hb E3 E4 | c s z cv a1 Hd E3 E4 | s z d x Hd E3 E4 | s z d x Hd E3 E4]; subst; clear R.
    + assert (K := src_pos S p m m' HS (HX m m' ltac:(cbn; auto) Hm)).
      unfold iweight. cbn [iop iargs fst snd]. destruct o'; try discriminate HB; rewrite HB; lia.
    + assert (K := iweight_bound N p (r, OConv c, a') HN). unfold iweight in *. cbn [iop iargs fst snd is_bconv is_tq tfl_quant lq_conv8 ek] in *.
      destruct a' as [|? [|? [|m [|? [|? [|]]]]]]; try lia. assert (B := pos_le p m). lia.
    + unfold iweight. cbn [iop iargs fst snd is_bconv is_tq tfl_quant lq_dequant8 ek]. lia.
    + unfold iweight. cbn [iop iargs fst snd is_bconv is_tq lq_quant8 ek]. lia.
  - split; [|rewrite !app_length; cbn [length]; lia]. apply isize_replace; [reflexivity|]. unfold iweight. cbn [iop iargs fst snd].
    destruct o as [w| | | | | | | | | | |x]; try (cbn [is_bconv is_tq]; lia).
    + destruct vs; [|discriminate]. inversion HC; subst. contradiction.
    + discriminate FO.
    + destruct (is_bconv (OOther x)); [destruct a as [|? [|? [|m [|? [|? [|]]]]]]; lia|]. destruct (is_tq (OOther x)); lia.
  - split; [|rewrite !app_length; cbn [length]; lia]. unfold isize. set (p := pre ++ i :: post) in *.
    assert (HP : forall x, (pos (pre ++ post) x <= pos p x)%nat).
    { intros x. destruct (Nat.eq_dec x (iid i)) as [->|N1]; [|apply pos_remove, N1]. rewrite pos_out; [lia|].
      destruct i as [[r o] a]. destruct (ssa_mid _ _ _ _ _ _ HS) as (_ & _ & K1 & _ & K2). rewrite map_app, in_app_iff. cbn [iid fst]. tauto. }
    assert (K := isum_pos N p (pre ++ post) (pre ++ post) HP). assert (K2 := iweight_bound N p i HN).
    assert (K3 : isum N p p = (isum N p pre + (iweight N p i + isum N p post))%nat) by (unfold p at 2; rewrite isum_app, isum_cons; reflexivity).
    rewrite (isum_app N p pre post) in K. lia.
Qed.
Theorem istep_ssa S outs p q : ssa S p -> istep outs p q -> ssa S q.
Proof.
  intros HS H. inversion H as [pre r o a post inner o' a' R U E1 E2 | pre r o a post vs v FO NC HC HD E1 E2 | pre i post U0 E1 E2]; subst; clear H.
  - apply (rp_ssa S pre post r o o' a a' HS). destruct (ssa_mid _ _ _ _ _ _ HS) as (H1 & H2 & _).
    inversion R as [o1 i f1 m b t m' b' HB Hm Hb E3 E4 | c s z cv a1 Hd E3 E4 | s z d x Hd E3 E4 | s z d x Hd E3 E4]; subst; clear R.
    + destruct (src_scope S pre _ m HS (H2 m ltac:(cbn; auto))) as [_ A1]. destruct (src_scope S pre _ b HS (H2 b ltac:(cbn; auto))) as [_ A2].
      intros x [<-|[<-|[<-|[<-|[<-|[]]]]]]; [apply H2; cbn; auto|apply H2; cbn; auto|apply A1, Hm|apply A2, Hb|apply H2; cbn; auto 10].
    + intros x Hx. exact (def_args S pre _ _ _ x H1 Hd Hx).
    + intros y Hy. exact (def_args S pre _ _ _ y H1 Hd Hy).
    + intros y Hy. exact (def_args S pre _ _ _ y H1 Hd Hy).
  - apply (rp_ssa S pre post r o (OConst v) a [] HS). intros x [].
  - destruct (uses_zero _ _ _ U0) as [_ U2]. apply (ssa_remove S pre post i HS). intros j Hj. apply U2. apply in_or_app. right. right. exact Hj.
Qed.
Theorem isteps_size S N outs n p q : isteps outs n p q -> ssa S p -> (length p <= N)%nat -> (n + isize N q <= isize N p)%nat.
Proof.
  intros H. induction H as [p|n p q r H1 H2 IH]; intros HS HN; [lia|].
  destruct (istep_size S N outs p q HS HN H1) as [K1 K2]. specialize (IH (istep_ssa S outs p q HS H1) ltac:(lia)). lia.
Qed.
