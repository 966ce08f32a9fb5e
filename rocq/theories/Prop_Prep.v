(** * C66, C67: the converter's op-removal and prepare passes, whatever order they
    work in.

    [pstep]: one action of MLIR's greedy driver with the patterns of the two
    passes, any of them. The patterns are as in the code, none of their missing
    checks added. *)
From Coq Require Import QArith Qabs.
From Verif Require Import Base Spec Padding Threshold FusePad ConvBinary IR IRProofs IRRules IRSound IRTerm IRWell IRTf IRPrep IRPass IRPassRule IRPassProof Prop_IR.
Open Scope Z_scope.

(** [sane p e]: what the exported model must satisfy. For every operation of [p],
    whose values in the run at hand are [e], looking through identities:
    - where tf.Select has branches that are 1 and -1 everywhere, the condition has
      their shape or is a scalar (tf.SelectV2: nothing);
    - in Sign(Sign(x) + c), [c] is between 0 and 1, exclusive, and does not enlarge
      x by broadcasting;
    - a Conv2D filter that is within the tolerance of being binary is binary: all
      entries of an output channel have the same magnitude;
    - a VALID Conv2D of an explicitly padded tensor whose padding looks like SAME
      padding: per dimension, the stride is 1 or the padding before the image is
      the one SAME padding would use. *)
Theorem C66_any_rewriting_order : forall (arm : bool) (args : list nat) (p q : list instr) (outs outs' : list nat) (e0 e : env) (n : nat),
  ssa args p -> (forall x, In x outs -> In x (args ++ map iid p)) ->
  eval p e0 = Some e -> sane p e ->
  psteps (shapes e0) arm args n (p, outs) (q, outs') ->
  ssa args q /\ exists e', eval q e0 = Some e' /\
    Forall2 (fun x y => forall v, e x = Some v -> exists w, e' y = Some w /\ veq v w) outs outs'.
Proof.
  intros arm args p q outs outs' e0 e n HS HO HE HA Hst.
  destruct (psteps_good arm args e0 n _ _ Hst e (conj HS (conj HO (conj HE HA)))) as (e' & (G1 & G2 & G3 & G4) & R).
  split; [exact G1|]. exists e'. split; [exact G3|exact R].
Qed.
Print Assumptions C66_any_rewriting_order.

Theorem C67_rewriting_ends : forall (T : list instr -> nat -> list Z) (arm : bool) (args outs : list nat) (p : list instr),
  (forall n s, psteps T arm args n (p, outs) s -> (n <= 13 * length p)%nat) /\
  (forall f : nat -> list instr * list nat, f 0%nat = (p, outs) -> ~ forall n, pstep T arm args (f n) (f (S n))).
Proof.
  intros T arm args outs p. assert (K := psize_bound p).
  assert (B : forall n s, psteps T arm args n (p, outs) s -> (n <= 13 * length p)%nat).
  { intros n s H. apply psteps_size in H. cbn [fst] in H. lia. }
  split; [exact B|]. intros f F0 Hf.
  assert (N : forall n k, psteps T arm args n (f k) (f (k + n)%nat)).
  { induction n as [|n IH]; intros k; [rewrite Nat.add_0_r; constructor|]. econstructor; [apply Hf|].
    replace (k + S n)%nat with (S k + n)%nat by lia. apply IH. }
  specialize (N (S (13 * length p)) 0%nat). rewrite F0 in N. apply B in N. lia.
Qed.
Print Assumptions C67_rewriting_ends.

(** ** A program that meets the hypotheses: larq's quantiser (identity, x >= 0,
    where(_, 1, -1)), padding with ones, and a 1x3 convolution with filter
    (2, -2, 2). The input is one row of two pixels, 3 and -2. *)
Definition scal (q : Q) : value := VF (mkT [] (fun _ => q)).
Definition pads (h w : Z * Z) : value := VInt (mkT [2; 4] (fun i => match i with
  | [0; 1] => fst h | [1; 1] => snd h | [0; 2] => fst w | [1; 2] => snd w | _ => 0 end)).
Definition wrow (l : list Q) : tensor Q := mkT [1; 1; Zlength l; 1] (fun i => match i with [_; _; k; _] => nth (Z.to_nat k) l 0%Q | _ => 0%Q end).
Definition kattr (p : padding) (s : Z) : tcattr := {| tc_pad := p; tc_sh := 1; tc_sw := s; tc_dh := 1; tc_dw := 1 |}.
Definition progA : list instr :=
  [(1, tf_identity, [0]); (2, OConst (scal 0), []); (3, OGe, [1; 2]); (4, OConst (scal 1), []); (5, OConst (scal (- (1))), []);
   (6, tf_select false, [3; 4; 5]); (7, OConst (pads (0, 0) (1, 1))%Z, []); (8, OConst (scal 1), []); (9, tf_pad, [6; 7; 8]);
   (10, OConst (VF (wrow [2; - (2); 2]%Q)), []); (11, tf_conv2d (kattr PadValid 1), [9; 10])]%nat.

Example progA_ssa : ssa [0%nat] progA.
Proof. cbn. intuition (subst; auto 20; discriminate). Qed.
Ltac other H := solve [discriminate H | apply (f_equal (fun o => match o with OOther x => ek x | _ => KOther end)) in H; discriminate H].
Ltac same H := apply (f_equal (fun o => match o with OOther x => ek x | _ => KOther end)) in H; injection H as <-.
Example progA_runs : exists e, eval progA image = Some e /\ sane progA e.
Proof.
  eexists. split; [reflexivity|]. intros i Hi. cbn [progA In] in Hi.
  repeat (destruct Hi as [<-|Hi]; [split; [|split; [|split]]; cbn [iop iargs iid fst snd]|]); try contradiction;
    try (unfold sane_select, sane_sign, sane_filter, sane_pad; intros;
         match goal with H : _ = tf_select true |- _ => other H | H : _ = tf_sign |- _ => other H | H : _ = tf_conv2d _ |- _ => other H end).
  - intros k d f F Hk Ha HF _. injection Ha as <- <-. change (Some (VF (wrow [2; - (2); 2]%Q)) = Some (VF F)) in HF. injection HF as <-. intros o c x y Hi. cbn [sh wrow] in Hi.
    apply in_range4 in Hi. destruct Hi as (o' & c' & x' & y' & E & Ho & Hc & Hx & Hy). injection E as <- <- <- <-. cbn in Ho, Hc, Hx, Hy.
    assert (D : x = 0 \/ x = 1 \/ x = 2) by lia. destruct D as [-> | [-> | ->]]; reflexivity.
  - intros k d f d' x pd pv ti tp F v Hk Ha _ _ _ _ _ _ _. same Hk. unfold split_ok. destruct (sh ti) as [|? [|? [|? [|? [|]]]]]; try exact I.
    destruct (sh F) as [|? [|? [|? [|? [|]]]]]; try exact I. split; left; reflexivity.
Qed.

(** Tools for running the pass on a concrete program: act at position [k]. *)
Ltac p_at k tac :=
  match goal with |- psteps ?T ?arm ?args _ (?p, ?outs) _ =>
    let pre := eval cbn [firstn] in (firstn k p) in
    let rest := eval cbn [skipn] in (skipn k p) in
    match rest with (?r, ?o, ?a) :: ?post => eapply psteps_S; [tac T arm args outs pre r o a post|cbv [app map sbi sb iid iop iargs fst snd Nat.eqb weights]] end end.
Ltac p_rule R T arm args outs pre r o a post := eapply (PS_rule T arm args pre r o a post); [R|side|side].
Ltac p_fold T arm args outs pre r o a post := eapply (PS_fold T arm args pre r o a post); [discriminate|repeat constructor|reflexivity].
Ltac p_dead T arm args outs pre r o a post := eapply (PS_dead T arm args pre (r, o, a) post); reflexivity.
Ltac p_id T arm args outs pre r o a post := match a with [?x] => eapply (PS_identity T arm args pre r x post) end.

(** The passes on [progA]: one binary convolution, padded with ones. *)
Example progA_prepared : exists n q e' t c a, psteps (shapes image) true [0%nat] n (progA, [11%nat]) (q, [11%nat]) /\
  eval q image = Some e' /\ e' 11%nat = Some (VF t) /\ def q 11%nat = Some (OConv c, a) /\ ca_pad c = PadSame /\ ca_padv c = 1 /\
  (forall i o a, In (i, o, a) q -> o <> tf_conv2d (kattr PadValid 1) /\ o <> tf_select false /\ o <> tf_pad) /\
  (at_ t [0; 0; 0; 0]%Z == - (2))%Q /\ (at_ t [0; 1; 0; 0]%Z == 6)%Q.
Proof.
  do 6 eexists. split.
  { unfold progA. 
    p_at 0%nat p_id.
    p_at 4%nat ltac:(p_rule ltac:(eapply (P_select true _ _ false 6 3 4 5 _ _ 12 13)%nat; [reflexivity|reflexivity|reflexivity|reflexivity])).
    p_at 11%nat ltac:(p_rule ltac:(eapply (P_convpad true _ _ (kattr PadValid 1) 11 9 6 13 7 8 _ _ 10 _ 14 15 16 17 18 19 20)%nat;
      [reflexivity|reflexivity|reflexivity|reflexivity|reflexivity|vm_compute; reflexivity|vm_compute; reflexivity|vm_compute; reflexivity|vm_compute; reflexivity|reflexivity])).
    p_at 9%nat p_dead.
    p_at 12%nat p_fold. p_at 13%nat p_fold.
    apply psteps_0. }
  split; [reflexivity|]. split; [reflexivity|]. split; [reflexivity|]. split; [reflexivity|]. split; [reflexivity|]. split.
  { intros i o a Hi. cbn [In] in Hi. repeat (destruct Hi as [E|Hi]; [injection E as <- <- <-; repeat split; intros C; other C|]). contradiction. }
  split; vm_compute; reflexivity.
Qed.

(** ** Each condition is needed. *)
Ltac w_conv := first [reflexivity|vm_compute; reflexivity].
(** Sign(Sign(x) + 2) is 1; the pass makes it the sign of x. *)
Definition progB : list instr :=
  [(1, tf_sign, [0]); (2, OConst (scal 2), []); (3, OBin Add ActNone, [1; 2]); (4, tf_sign, [3])]%nat.
Theorem C66_refuted_sign_shift : exists n q e e' t t',
  ssa [0%nat] progB /\ psteps (shapes image) true [0%nat] n (progB, [4%nat]) (q, [4%nat]) /\
  eval progB image = Some e /\ eval q image = Some e' /\ e 4%nat = Some (VF t) /\ e' 4%nat = Some (VF t') /\
  (at_ t [0; 1; 0; 0]%Z == 1)%Q /\ (at_ t' [0; 1; 0; 0]%Z == - (1))%Q.
Proof.
  do 6 eexists. split; [cbn; intuition (subst; auto 20; discriminate)|]. split.
  { unfold progB. p_at 3%nat ltac:(p_rule ltac:(eapply (P_sign true _ _ 4 3 1 2 0 5)%nat; [left; reflexivity|reflexivity])). apply psteps_0. }
  split; [reflexivity|]. split; [reflexivity|]. split; [reflexivity|]. split; [reflexivity|]. split; vm_compute; reflexivity.
Qed.
Print Assumptions C66_refuted_sign_shift.

(** tf.Select whose condition is a vector, which chooses rows: the pass lets it
    choose columns. A 2x2 tensor, condition (true, false). *)
Definition square (q : Q) : value := VF (mkT [2; 2] (fun _ => q)).
Definition cond : env := fun x => if Nat.eqb x 0 then Some (VBool (mkT [2] (fun i => match i with [k] => k =? 0 | _ => false end))) else None.
Definition progC : list instr :=
  [(1, OConst (square 1), []); (2, OConst (square (- (1))), []); (3, tf_select true, [0; 1; 2])]%nat.
Theorem C66_refuted_vector_condition : exists n q e e' t t',
  ssa [0%nat] progC /\ psteps (shapes cond) true [0%nat] n (progC, [3%nat]) (q, [3%nat]) /\
  eval progC cond = Some e /\ eval q cond = Some e' /\ e 3%nat = Some (VF t) /\ e' 3%nat = Some (VF t') /\
  (at_ t [0; 1]%Z == - (1))%Q /\ (at_ t' [0; 1]%Z == 1)%Q.
Proof.
  do 6 eexists. split; [cbn; intuition (subst; auto 20; discriminate)|]. split.
  { unfold progC. p_at 2%nat ltac:(p_rule ltac:(eapply (P_select true _ _ true 3 0 1 2 _ _ 4 5)%nat; [reflexivity|reflexivity|reflexivity|reflexivity])). apply psteps_0. }
  split; [reflexivity|]. split; [reflexivity|]. split; [reflexivity|]. split; [reflexivity|]. split; vm_compute; reflexivity.
Qed.
Print Assumptions C66_refuted_vector_condition.

(** A filter (1, 1001/1000), which passes for binary. *)
Definition nearly : tensor Q := wrow [1; 1001 # 1000]%Q.
Definition progD : list instr :=
  [(1, OQuant, [0]); (2, ODequant, [1]); (3, OConst (VF nearly), []); (4, tf_conv2d (kattr PadValid 1), [2; 3])]%nat.
Theorem C66_refuted_nearly_binary : exists n q e e' t t',
  ssa [0%nat] progD /\ psteps (shapes image) true [0%nat] n (progD, [4%nat]) (q, [4%nat]) /\
  eval progD image = Some e /\ eval q image = Some e' /\ e 4%nat = Some (VF t) /\ e' 4%nat = Some (VF t') /\
  (at_ t [0; 0; 0; 0]%Z == - (1 # 1000))%Q /\ (at_ t' [0; 0; 0; 0]%Z == 0)%Q.
Proof.
  do 6 eexists. split; [cbn; intuition (subst; auto 20; discriminate)|]. split.
  { unfold progD. p_at 3%nat ltac:(p_rule ltac:(eapply (P_conv true _ _ (kattr PadValid 1) 4 2 1 3 _ 5 6 7 8 9 10 11)%nat;
      [reflexivity|reflexivity|vm_compute; reflexivity|vm_compute; reflexivity|left; reflexivity])). apply psteps_0. }
  split; [reflexivity|]. split; [reflexivity|]. split; [reflexivity|]. split; [reflexivity|]. split; vm_compute; reflexivity.
Qed.
Print Assumptions C66_refuted_nearly_binary.

(** Padding 1 on both sides, stride 2, four pixels (+1, -1, +1, +1), filter
    (1, 1, 1): SAME padding would put nothing before the image. *)
Definition image4 : env := fun x => if Nat.eqb x 0 then
  Some (VF (mkT [1; 4; 1; 1] (fun i => match i with [_; k; _; _] => if k =? 1 then (- (1))%Q else 1%Q | _ => 0%Q end))) else None.
Definition progE : list instr :=
  [(1, OQuant, [0]); (2, ODequant, [1]); (3, OConst (pads (0, 0) (1, 1))%Z, []); (4, OConst (scal 1), []); (5, tf_pad, [2; 3; 4]);
   (6, OConst (VF (wrow [1; 1; 1]%Q)), []); (7, tf_conv2d (kattr PadValid 2), [5; 6])]%nat.
Theorem C66_refuted_strided_padding : exists n q e e' t t',
  ssa [0%nat] progE /\ psteps (shapes image4) true [0%nat] n (progE, [7%nat]) (q, [7%nat]) /\
  eval progE image4 = Some e /\ eval q image4 = Some e' /\ e 7%nat = Some (VF t) /\ e' 7%nat = Some (VF t') /\
  (at_ t [0; 1; 0; 0]%Z == 1)%Q /\ (at_ t' [0; 1; 0; 0]%Z == 3)%Q.
Proof.
  do 6 eexists. split; [cbn; intuition (subst; auto 20; discriminate)|]. split.
  { unfold progE. p_at 6%nat ltac:(p_rule ltac:(eapply (P_convpad true _ _ (kattr PadValid 2) 7 5 2 1 3 4 _ _ 6 _ 8 9 10 11 12 13 14)%nat;
      [reflexivity|reflexivity|reflexivity|reflexivity|reflexivity|vm_compute; reflexivity|vm_compute; reflexivity|vm_compute; reflexivity|vm_compute; reflexivity|reflexivity])). apply psteps_0. }
  split; [reflexivity|]. split; [reflexivity|]. split; [reflexivity|]. split; [reflexivity|]. split; vm_compute; reflexivity.
Qed.
Print Assumptions C66_refuted_strided_padding.
(** tf.PadV2 pads every dimension: one value 5, channels 1 and 2, width 0 and 1, value 9. *)
Example pad_semantics :
  match pad_fun [VF (mkT [1; 1; 1; 1] (fun _ => 5%Q)); VInt (mkT [2; 4] (fun i => match i with [0; 3] => 1 | [1; 3] => 2 | [1; 2] => 1 | _ => 0 end));
                 VF (mkT [] (fun _ => 9%Q))] with
  | Some (VF t) => Some (sh t, map (fun c => at_ t [c; 0; 0; 0]) [0; 1; 2; 3], map (fun c => at_ t [c; 1; 0; 0]) [0; 1; 2; 3])
  | _ => None
  end = Some ([4; 2; 1; 1], [9; 5; 9; 9]%Q, [9; 9; 9; 9]%Q).
Proof. vm_compute. reflexivity. Qed.
