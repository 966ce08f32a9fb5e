(** * C64, C65: the converter's optimisation pass, whatever order it works in.

    The pass (optimize.cc 261-274) hands its patterns to MLIR's greedy driver,
    which applies them, folds constants and removes dead operations in an order
    of its own choosing. [step as_is] is one such action, any of them; the
    patterns are as in the code, none of their missing checks added. *)
From Coq Require Import QArith.
From Verif Require Import Base Spec Padding Threshold IR IRProofs IRRules IRSound IRTerm IRWell.
Open Scope Z_scope.

(** [tame p e]: what the exported model must satisfy. For every operation of the
    program [p], whose values in the run at hand are [e]:
    - a constant operand of tfl.add/sub/mul/div, greater_equal or less_equal that
      is combined with a computed tensor is a scalar or a vector, and does not
      enlarge that tensor by broadcasting;
    - filters of binary convolutions hold +1 and -1 only, fewer than 2^31 per
      output channel;
    - tfl.max_pool_2d has no fused activation, or RELU_N1_TO_1. *)
Theorem C64_any_rewriting_order : forall (arm : bool) (args outs : list nat) (p q : list instr) (e0 e : env),
  ssa args p -> (forall x, In x outs -> In x (args ++ map iid p)) ->
  eval p e0 = Some e -> tame p e ->
  steps (fun _ => as_is) arm args outs p q ->
  exists e', eval q e0 = Some e' /\
    forall x v, In x outs -> e x = Some v -> exists w, e' x = Some w /\ veq v w.
Proof. intros arm args outs p q e0 e HS HO HE HT Hst. apply (steps_tame arm args outs e0 p q e HS HO Hst HE HT). Qed.
Print Assumptions C64_any_rewriting_order.

(** A run of [n] actions. *)
Inductive nsteps (arm : bool) (args outs : list nat) : nat -> list instr -> list instr -> Prop :=
| nsteps_0 p : nsteps arm args outs 0 p p
| nsteps_S n p q r : step as_is arm args outs p q -> nsteps arm args outs n q r -> nsteps arm args outs (S n) p r.

Theorem C65_rewriting_ends : forall (arm : bool) (args outs : list nat) (p : list instr), ssa args p ->
  (forall n q, nsteps arm args outs n p q -> (n <= 36 * length p)%nat /\ ssa args q) /\
  (forall f : nat -> list instr, f 0%nat = p -> ~ forall n, step as_is arm args outs (f n) (f (S n))).
Proof.
  intros arm args outs p HS.
  assert (B : forall n p q, ssa args p -> nsteps arm args outs n p q -> (n + potential q outs <= potential p outs)%nat /\ ssa args q).
  { clear. intros n p q HS H. induction H as [p|n p q r H1 H2 IH]; [split; [lia|exact HS]|].
    destruct (step_down as_is arm args outs p q HS H1) as [HS' HP]. destruct (IH HS') as [I1 I2]. split; [lia|exact I2]. }
  assert (K : (potential p outs <= 36 * length p)%nat) by (assert (W := weight_bound p outs); unfold potential; lia).
  split.
  - intros n q H. destruct (B n p q HS H) as [B1 B2]. split; [lia|exact B2].
  - intros f F0 Hf.
    assert (N : forall n k, nsteps arm args outs n (f k) (f (k + n)%nat)).
    { induction n as [|n IH]; intros k; [rewrite Nat.add_0_r; constructor|]. econstructor; [apply Hf|].
      replace (k + S n)%nat with (S k + n)%nat by lia. apply IH. }
    specialize (N (S (36 * length p)) 0%nat). rewrite F0 in N. destruct (B _ _ _ HS N) as [B1 _]. lia.
Qed.
Print Assumptions C65_rewriting_ends.

(** ** A program that meets the hypotheses: Quantize, 1x1 convolution with two
    output channels, multiplication by (2, -3), addition of (-1, 4), Quantize. *)
Definition vec (l : list Z) : value := VF (mkT [Zlength l] (fun i => match i with [k] => inject_Z (nth (Z.to_nat k) l 0) | _ => 0%Q end)).
Definition filt (co : Z) : value := VF (mkT [1; 1; 1; co] (fun i => match i with [_; _; _; o] => if o =? 0 then 1%Q else (- (1))%Q | _ => 1%Q end)).
Definition attrs : cattr := {| ca_cin := 1; ca_dh := 1; ca_dw := 1; ca_act := ActNone; ca_padv := 0; ca_pad := PadValid; ca_sh := 1; ca_sw := 1 |}.
(** Input: one image of one row of two pixels, 3 and -2. *)
Definition image : env := fun x => if Nat.eqb x 0 then
  Some (VF (mkT [1; 2; 1; 1] (fun i => match i with [_; k; _; _] => if k =? 0 then 3%Q else (- (2))%Q | _ => 0%Q end))) else None.
Definition prog1 : list instr :=
  [(1, OQuant, [0]); (2, OConst (filt 2), []); (3, OConst (vec [1; 1]%Z), []); (4, OConst (vec [0; 0]%Z), []); (5, ONone, []);
   (6, OConv attrs, [1; 2; 3; 4; 5]); (7, OConst (vec [2; -3]%Z), []); (8, OBin Mul ActNone, [6; 7]);
   (9, OConst (vec [-1; 4]%Z), []); (10, OBin Add ActNone, [8; 9]); (11, OQuant, [10])]%nat.

Example prog1_ssa : ssa [0%nat] prog1.
Proof. cbn. intuition (subst; auto 20; discriminate). Qed.
Example prog1_runs : exists e, eval prog1 image = Some e /\ tame prog1 e.
Proof.
  eexists. split; [reflexivity|]. intros i Hi. cbn [prog1 In] in Hi.
  repeat (destruct Hi as [<-|Hi]; [cbn [instr_ok iop iargs fst snd]; try exact I|]); try contradiction.
  - intros t Ht. cbn in Ht. injection Ht as <-. split; [|cbn; lia]. intros i Hi. cbn [at_].
    destruct i as [|? [|? [|? [|o [|? ?]]]]]; try (left; reflexivity). destruct (o =? 0); [left|right]; reflexivity.
  - intros _ _ vx vy Hx Hy. cbn in Hx, Hy. injection Hx as <-. injection Hy as <-. cbn. split; [lia|reflexivity].
  - intros _ _ vx vy Hx Hy. cbn in Hx, Hy. injection Hx as <-. injection Hy as <-. cbn. split; [lia|reflexivity].
Qed.

(** Tools for running the pass on a concrete program: act at position [k]. *)
Ltac side := match goal with
  | |- NoDup _ => cbn; repeat constructor; cbn; intuition discriminate
  | |- forall x, In x _ -> _ => cbn; intros ? ?; intuition (subst; auto; discriminate)
  | |- (_ = _)%nat => reflexivity
  | |- (_ < _)%nat => cbn; lia
  end.
Ltac at_pos k tac :=
  match goal with |- steps _ ?arm ?args ?outs ?p ?q =>
    let pre := eval cbn [firstn] in (firstn k p) in
    let rest := eval cbn [skipn] in (skipn k p) in
    match rest with (?r, ?o, ?a) :: ?post => tac arm args outs p pre r o a post end end.
Ltac do_rule R arm args outs p pre r o a post :=
  eapply (steps_cons _ arm args outs p _ _);
    [eapply (S_rule as_is arm args outs pre r o a post); [R|side|side|side|side]|cbn [app]].
Ltac do_fold arm args outs p pre r o a post :=
  eapply (steps_cons _ arm args outs p _ _);
    [eapply (S_fold as_is arm args outs pre r o a post);
       [reflexivity|repeat constructor|reflexivity|cbn; lia]|cbn [app]].
Ltac do_dead arm args outs p pre r o a post :=
  eapply (steps_cons _ arm args outs p _ _); [eapply (S_dead as_is arm args outs pre (r, o, a) post); reflexivity|cbn [app]].

(** ** Without the condition on constants the claim is false. A constant with one
    value per pixel is added to a convolution: the pass turns it into the bias,
    and the thresholds are then computed from its first value only.
    ("TODO: Check shapes before fusing", optimize_patterns_common.td 39) *)
Definition perpixel : value := VF (mkT [1; 2; 1; 1] (fun i => match i with [_; k; _; _] => if k =? 0 then (- (5))%Q else 5%Q | _ => 0%Q end)).
Definition prog2 : list instr :=
  [(1, OQuant, [0]); (2, OConst (filt 1), []); (3, OConst (vec [1]%Z), []); (4, OConst (vec [0]%Z), []); (5, ONone, []);
   (6, OConv attrs, [1; 2; 3; 4; 5]); (7, OConst perpixel, []); (8, OBin Add ActNone, [6; 7]); (9, OQuant, [8])]%nat.
Theorem C64_refuted_per_pixel_bias : exists q e e' t t',
  ssa [0%nat] prog2 /\ steps (fun _ => as_is) true [0%nat] [9%nat] prog2 q /\
  eval prog2 image = Some e /\ eval q image = Some e' /\
  e 9%nat = Some (VBits t) /\ e' 9%nat = Some (VBits t') /\
  at_ t [0; 1; 0; 0] = false /\ at_ t' [0; 1; 0; 0] = true.
Proof.
  do 5 eexists. split; [cbn; intuition (subst; auto 20; discriminate)|].
  split.
  { unfold prog2.
    at_pos 7%nat ltac:(do_rule ltac:(eapply (R_add as_is true _ Add 6 7 attrs 1 2 3 4 5 _ _ 10 11 12)%nat; [left; reflexivity|reflexivity|reflexivity|reflexivity|exact I])).
    at_pos 9%nat do_fold.
    at_pos 11%nat ltac:(do_rule ltac:(eapply (R_bits as_is true _ 8 attrs 1 2 3 12 5 _ _ _ 13 14 15 16 17 18)%nat; [reflexivity|reflexivity|reflexivity|reflexivity|reflexivity|left; split; reflexivity|exact I])).
    at_pos 10%nat do_dead.
    apply steps_nil. }
  split; [reflexivity|]. split; [reflexivity|]. split; [reflexivity|]. split; [reflexivity|]. split; vm_compute; reflexivity.
Qed.
Print Assumptions C64_refuted_per_pixel_bias.

(** A multiplier written with shape [1,1,1,C] instead of [C]: only the sign of
    its first channel reaches the filter (the rank assertion of optimize.cc
    190-203 is off in release builds). *)
Definition row (l : list Z) : value :=
  VF (mkT [Zlength l; 1; 1; 1] (fun i => match i with [k; _; _; _] => inject_Z (nth (Z.to_nat k) l 0) | _ => 0%Q end)).
Definition prog3 : list instr :=
  [(1, OQuant, [0]); (2, OConst (filt 2), []); (3, OConst (vec [1; 1]%Z), []); (4, OConst (vec [0; 0]%Z), []); (5, ONone, []);
   (6, OConv attrs, [1; 2; 3; 4; 5]); (7, OConst (row [1; -1]%Z), []); (8, OBin Mul ActNone, [6; 7]); (9, OQuant, [8])]%nat.
Theorem C64_refuted_multiplier_shape : exists q e e' t t',
  ssa [0%nat] prog3 /\ steps (fun _ => as_is) true [0%nat] [9%nat] prog3 q /\
  eval prog3 image = Some e /\ eval q image = Some e' /\
  e 9%nat = Some (VBits t) /\ e' 9%nat = Some (VBits t') /\
  at_ t [1; 0; 0; 0] = false /\ at_ t' [1; 0; 0; 0] = true.
Proof.
  do 5 eexists. split; [cbn; intuition (subst; auto 20; discriminate)|].
  split.
  { unfold prog3.
    at_pos 7%nat ltac:(do_rule ltac:(eapply (R_mul as_is true _ Mul 6 7 attrs 1 2 3 4 5 _ _ _ 10 11 12 13 14 15)%nat; [left; reflexivity|reflexivity|reflexivity|reflexivity|reflexivity|exact I])).
    at_pos 9%nat do_fold. at_pos 12%nat do_fold.
    at_pos 14%nat ltac:(do_rule ltac:(eapply (R_bits as_is true _ 8 attrs 1 2 12 15 5 _ _ _ 16 17 18 19 20 21)%nat; [reflexivity|reflexivity|reflexivity|reflexivity|reflexivity|left; split; reflexivity|exact I])).
    at_pos 13%nat do_dead.
    apply steps_nil. }
  split; [reflexivity|]. split; [reflexivity|]. split; [reflexivity|]. split; [reflexivity|]. split; vm_compute; reflexivity.
Qed.
Print Assumptions C64_refuted_multiplier_shape.

(** The pass on [prog1] (a few dead constants left): everything ends up in one convolution with thresholds. *)
Example prog1_optimised : exists q e' t',
  steps (fun _ => as_is) true [0%nat] [11%nat] prog1 q /\ eval q image = Some e' /\ e' 11%nat = Some (VBits t') /\
  map (at_ t') [[0; 0; 0; 0]; [1; 0; 0; 0]; [0; 1; 0; 0]; [1; 1; 0; 0]] = [false; false; true; false] /\
  length q = 12%nat.
Proof.
  do 3 eexists. split.
  { unfold prog1.
    at_pos 7%nat ltac:(do_rule ltac:(eapply (R_mul as_is true _ Mul 6 7 attrs 1 2 3 4 5 _ _ _ 12 13 14 15 16 17)%nat; [left; reflexivity|reflexivity|reflexivity|reflexivity|reflexivity|exact I])).
    at_pos 9%nat do_fold. at_pos 12%nat do_fold.
    at_pos 15%nat ltac:(do_rule ltac:(eapply (R_add as_is true _ Add 8 9 attrs 1 2 14 17 5 _ _ 18 19 20)%nat; [left; reflexivity|reflexivity|reflexivity|reflexivity|exact I])).
    at_pos 17%nat do_fold.
    at_pos 19%nat ltac:(do_rule ltac:(eapply (R_bits as_is true _ 10 attrs 1 2 14 20 5 _ _ _ 21 22 23 24 25 26)%nat; [reflexivity|reflexivity|reflexivity|reflexivity|reflexivity|left; split; reflexivity|exact I])).
    at_pos 18%nat do_dead. at_pos 17%nat do_dead. at_pos 16%nat do_dead. at_pos 15%nat do_dead.
    at_pos 14%nat do_dead. at_pos 13%nat do_dead. at_pos 12%nat do_dead. at_pos 11%nat do_dead. at_pos 10%nat do_dead. at_pos 9%nat do_dead. at_pos 8%nat do_dead. at_pos 7%nat do_dead.
    at_pos 6%nat do_dead. at_pos 5%nat do_dead. 
    apply steps_nil. }
  split; [reflexivity|]. split; [reflexivity|]. split; vm_compute; reflexivity.
Qed.
