(** * C68: a converted model, run by the interpreter with LCE's kernels, computes
    what the exported TensorFlow graph computes. *)
From Coq Require Import QArith.
From Verif Require Import Base Spec Bits Bitpack Padding Prepare Lifecycle Threshold IR IRProofs IRRules IRSound IRTerm IRWell
  IRTf IRPrep IRPass IRPassRule IRPassProof IRPassTame IRRun IRRunTop Prop_IR Prop_Prep.
Open Scope Z_scope.

(** ** One program in the LCE dialect. [eval p e0 = Some e]: the mathematical values
    of all its results, from inputs [e0]. Every execution of the flatbuffer
    ([run]; reference, BGEMM or indirect kernel) from a memory that holds the inputs
    - succeeds: no operator is rejected, no kernel leaves its buffers, whatever the
      contents of the output buffers, the history of the convolution nodes and the
      schedule of the matrix multiplications;
    - ends in a memory that holds all those values. *)
Theorem C68_machine_computes_the_graph :
  forall (kt : kernel_type) (tfl : op -> list buf -> buf -> Prop) (ty : nat -> list Z) (p : list instr) (e0 e : env) (m : mem),
  tflite_ok tfl -> const_filters p -> fits_machine kt ty p e0 ->
  eval p e0 = Some e -> mem_ok e0 m ->
  run kt tfl (def p) ty p m (mem_ok e).
Proof. intros kt tfl ty p e0 e m HT HC HF HE HM. exact (run_ok kt tfl (def p) ty p e0 m e HT HM HE HF HC). Qed.
Print Assumptions C68_machine_computes_the_graph.

(** ** The whole way. [sane p e]: as in C66. [calm p e]: what the optimisation pass
    needs (C64), asked of the original graph; for every operation, in the run at hand,
    - the second operand of an arithmetic operator or a comparison, if it is computed
      from constants alone, is a scalar or vector and does not enlarge the first;
    - in Sign(Sign(x) + c), [c] is computed from constants;
    - max-pooling has no fused activation but ReluN1To1;
    - a Conv2D filter that is within the tolerance of being binary has fewer than 2^31
      taps, and the filter of a convolution that already is binary consists of 1 and -1.
    A TensorFlow graph [p] is taken through the op-removal and
    prepare passes (to [q], in any order of rewriting) and the optimisation and
    bitpacking passes (to [q'], in any order); the flatbuffer is executed. The output
    buffers hold what [p] computes. *)
Theorem C68_converted_model_computes_the_graph :
  forall (kt : kernel_type) (tfl : op -> list buf -> buf -> Prop) (ty : nat -> list Z) (arm : bool) (args outs outs' : list nat)
    (p q q' : list instr) (e0 e : env) (n : nat) (m : mem),
  ssa args p -> (forall x, In x outs -> In x (args ++ map iid p)) -> eval p e0 = Some e -> sane p e -> calm p e ->
  psteps (shapes e0) arm args n (p, outs) (q, outs') ->
  steps (fun _ => as_is) arm args outs' q q' ->
  tflite_ok tfl -> const_filters q' -> fits_machine kt ty q' e0 -> mem_ok e0 m ->
  run kt tfl (def q') ty q' m (fun m' =>
    Forall2 (fun x y => forall v, e x = Some v -> exists b, m' y = Some b /\ rep v b) outs outs').
Proof.
  intros kt tfl ty arm args outs outs' p q q' e0 e n m HS HO HE HA HCa Hp Hs HT HC HF HM.
  destruct (psteps_good arm args e0 n _ _ Hp e (conj HS (conj HO (conj HE HA)))) as (e1 & (G1 & G2 & G3 & G4) & R).
  assert (Ht := psteps_calm arm args e0 n _ _ Hp e (conj HS (conj HO (conj HE HA))) HCa).
  cbn [fst snd] in *.
  destruct (C64_any_rewriting_order arm args outs' q q' e0 e1 G1 G2 G3 (calm_tame _ _ (Ht e1 G3)) Hs) as (e2 & E2 & R2).
  eapply run_mono; [|exact (C68_machine_computes_the_graph kt tfl ty q' e0 e2 m HT HC HF E2 HM)].
  intros m' Hm. revert R R2. clear - Hm. intros R. induction R as [|x y xs ys R1 R3 IH]; intros R2; constructor.
  - intros v Hv. destruct (R1 v Hv) as (w & Ew & Vw). destruct (R2 y w (or_introl eq_refl) Ew) as (u & Eu & Vu).
    destruct (Hm y u Eu) as (b & Eb & Rb). exists b. split; [exact Eb|]. apply (rep_veq v u); [exact (veq_trans _ _ _ Vw Vu)|exact Rb].
  - apply IH. intros z v Hz. apply R2. right. exact Hz.
Qed.
Print Assumptions C68_converted_model_computes_the_graph.

(** Builtins that meet the assumption exist, and so does a buffer for every value. *)
Theorem C68_builtins_exist : exists tfl, tflite_ok tfl.
Proof. exact tflite_exists. Qed.
Print Assumptions C68_builtins_exist.
Theorem C68_values_have_buffers : forall v, storable v -> exists b, rep v b.
Proof. exact storable_rep. Qed.
Print Assumptions C68_values_have_buffers.

(** ** A model that meets the hypotheses, from TensorFlow to memory: larq's ste_sign
    (Sign(Sign x + 0.1)), a 1x1 convolution with filters 3 and -2, multiplication by
    (2, -3), addition of (-1, 4) (a batch normalisation), ste_sign. *)
Definition two_filters : tensor Q := mkT [2; 1; 1; 1] (fun i => match i with o :: _ => if o =? 0 then 3%Q else (- (2))%Q | _ => 0%Q end).
Definition progS : list instr :=
  [(1, tf_sign, [0]); (2, OConst (scal (1 # 10)), []); (3, OBin Add ActNone, [1; 2]); (4, tf_sign, [3]);
   (5, OConst (VF two_filters), []); (6, tf_conv2d (kattr PadValid 1), [4; 5]);
   (7, OConst (vec [2; -3]%Z), []); (8, OBin Mul ActNone, [6; 7]);
   (9, OConst (vec [-1; 4]%Z), []); (10, OBin Add ActNone, [8; 9]);
   (11, tf_sign, [10]); (12, OConst (scal (1 # 10)), []); (13, OBin Add ActNone, [11; 12]); (14, tf_sign, [13])]%nat.
Example progS_ssa : ssa [0%nat] progS.
Proof. cbn. intuition (subst; auto 20; discriminate). Qed.
Lemma progS_values : exists e t1 t6 t8 t11 t14, eval progS image = Some e /\
  (e 1%nat = Some (VF t1) /\ sh t1 = [1; 2; 1; 1]) /\ (e 6%nat = Some (VF t6) /\ sh t6 = [2; 2; 1; 1]) /\
  (e 8%nat = Some (VF t8) /\ sh t8 = [2; 2; 1; 1]) /\ (e 11%nat = Some (VF t11) /\ sh t11 = [2; 2; 1; 1]) /\
  (e 2%nat = Some (scal (1 # 10)) /\ e 12%nat = Some (scal (1 # 10)) /\ e 5%nat = Some (VF two_filters) /\
   e 7%nat = Some (vec [2; -3]) /\ e 9%nat = Some (vec [-1; 4])) /\
  e 14%nat = Some (VF t14) /\ sh t14 = [2; 2; 1; 1] /\
  (at_ t14 [0; 0; 0; 0]%Z == 1)%Q /\ (at_ t14 [1; 0; 0; 0]%Z == 1)%Q /\
  (at_ t14 [0; 1; 0; 0]%Z == - (1))%Q /\ (at_ t14 [1; 1; 0; 0]%Z == - (1))%Q.
Proof.
  do 6 eexists. split; [reflexivity|]. do 4 (split; [split; reflexivity|]). split; [do 4 (split; [reflexivity|]); reflexivity|].
  split; [reflexivity|]. split; [reflexivity|]. split; [vm_compute; reflexivity|]. split; [vm_compute; reflexivity|]. split; vm_compute; reflexivity.
Qed.
Lemma no_ids p x y : (forall a b, def p a <> Some (tf_identity, b)) -> thr p x y -> y = x.
Proof. intros H [z|a b c E _]; [reflexivity|]. destruct (H _ _ E). Qed.
Lemma def_in p x o a : def p x = Some (o, a) -> In (x, o, a) p.
Proof.
  unfold def. destruct (find _ p) as [[[y o'] a']|] eqn:E; [|discriminate]. intros H. injection H as <- <-.
  apply find_some in E. destruct E as [E1 E2]. apply Nat.eqb_eq in E2. cbn in E2. subst. exact E1.
Qed.
Lemma triple (x y : nat) (o o' : op) (a a' : list nat) : (x, o, a) = (y, o', a') -> y = x /\ o' = o /\ a' = a.
Proof. intros E. injection E. auto. Qed.
Ltac in_cases H := cbn [progS In] in H; repeat (destruct H as [H|H]; [apply triple in H; destruct H as (? & ? & ?)|]); try contradiction.
Ltac otherop o := match goal with H : o = _ |- _ => other H | H : _ = o |- _ => other H end.
Lemma progS_no_ids a b : def progS a <> Some (tf_identity, b).
Proof. intros E. apply def_in in E. in_cases E; otherop tf_identity. Qed.
Lemma progS_sign s b c x : (def progS s = Some (OBin Add ActNone, [b; c]) \/ def progS s = Some (OBin Add ActNone, [c; b])) ->
  def progS b = Some (tf_sign, [x]) -> (b = 1%nat /\ c = 2%nat) \/ (b = 11%nat /\ c = 12%nat).
Proof.
  intros Hd Hb. apply def_in in Hb. destruct Hd as [Hd|Hd]; apply def_in in Hd; in_cases Hd; try discriminate;
    match goal with H : [_; _] = [_; _] |- _ => injection H; clear H; intros end; subst b c;
    try (left; split; reflexivity); try (right; split; reflexivity); exfalso; in_cases Hb; try discriminate; otherop tf_sign.
Qed.
Example progS_sane : exists e, eval progS image = Some e /\ sane progS e /\ calm progS e.
Proof.
  destruct progS_values as (e & t1 & t6 & t8 & t11 & t14 & HE & (E1 & S1) & (E6 & S6) & (E8 & S8) & (E11 & S11) & (E2 & E12 & E5 & E7 & E9) & _).
  exists e. split; [exact HE|]. assert (Kq : (0 < 1 # 10 < 1)%Q) by (split; reflexivity). split.
  - intros [[r o] a] Hi. split; [|split; [|split]]; cbn [iop iargs iid fst snd].
    + intros c x y tc tx Ho. exfalso. in_cases Hi; subst; other Ho.
    + intros s s' b c b' x ts tc Ho Ha Ts Hd Tb Hb Es Ec.
      apply (no_ids _ _ _ progS_no_ids) in Ts, Tb. subst s' b' a o.
      destruct (progS_sign s b c x Hd Hb) as [[-> ->]|[-> ->]].
      * rewrite E2 in Ec. rewrite E1 in Es. injection Es as <-. injection Ec as <-. rewrite S1. split; [intros; exact Kq|reflexivity].
      * rewrite E12 in Ec. rewrite E11 in Es. injection Es as <-. injection Ec as <-. rewrite S11. split; [intros; exact Kq|reflexivity].
    + intros k d f F Ho Ha HF _.
      in_cases Hi; subst; try other Ho. injection Ha as <- <-. rewrite E5 in HF. injection HF as <-.
      intros o c x y Hi. apply in_range4 in Hi. destruct Hi as (o' & c' & x' & y' & E & Ho' & Hc & Hx & Hy). injection E as <- <- <- <-. reflexivity.
    + intros k d f d' x pd pv ti tp F v Ho Ha T Hd. exfalso. apply def_in in Hd. in_cases Hd; otherop tf_pad.
  - assert (SM : forall x y tx vy, e x = Some (VF tx) -> e y = Some vy -> (length (vshape vy) <= 1)%nat -> bsh (sh tx) (vshape vy) = Some (sh tx) -> small_const e x y).
    { intros x y tx vy Hx Hy L B vx wy Hx' Hy'. rewrite Hx in Hx'. rewrite Hy in Hy'. injection Hx' as <-. injection Hy' as <-. auto. }
    intros [[r o] a] Hi. split; [|split]; cbn [iop iargs iid fst snd].
    + in_cases Hi; subst; try exact I; intros _ _; eapply SM; try eassumption; try (cbn; lia); rewrite ?S1, ?S6, ?S8, ?S11; reflexivity.
    + intros s s' b c b' x Ho Ha Ts Hd Tb Hb. apply (no_ids _ _ _ progS_no_ids) in Ts, Tb. subst s' b'.
      destruct (progS_sign s b c x Hd Hb) as [[-> ->]|[-> ->]]; eapply cv_c; reflexivity.
    + intros k d f F Ho Ha HF _. in_cases Hi; subst; try other Ho. injection Ha as <- <-. rewrite E5 in HF. injection HF as <-. reflexivity.
Qed.
(** What the prepare pass makes of it: one binary convolution. *)
Definition cS : cattr := battr 1 (kattr PadValid 1) 0 PadValid.
Definition progT (w : list Z -> Q) : list instr :=
  [(15, OQuant, [0]); (20, OConst (VF (mkT [1; 1; 1; 2]%Z w)), []); (21, OConst (VF (scale_vec two_filters)), []);
   (22, OConst (VF (zero_vec two_filters)), []); (23, ONone, []); (6, OConv cS, [15; 20; 21; 22; 23]);
   (7, OConst (vec [2; -3]%Z), []); (8, OBin Mul ActNone, [6; 7]); (9, OConst (vec [-1; 4]%Z), []);
   (10, OBin Add ActNone, [8; 9]); (16, OQuant, [10]); (14, ODequant, [16])]%nat.
Example progS_prepared : exists n w, (w [0; 0; 0; 0]%Z == 1)%Q /\ (w [0; 0; 0; 1]%Z == - (1))%Q /\
  psteps (shapes image) true [0%nat] n (progS, [14%nat]) (progT w, [14%nat]).
Proof.
  do 2 eexists. refine ((fun H => conj (proj1 (proj2 H)) (conj (proj2 (proj2 H)) (proj1 H))) _). split.
  { unfold progS.
    p_at 3%nat ltac:(p_rule ltac:(eapply (P_sign true _ _ 4 3 1 2 0 15)%nat; [left; reflexivity|reflexivity])).
    p_at 14%nat ltac:(p_rule ltac:(eapply (P_sign true _ _ 14 13 11 12 10 16)%nat; [left; reflexivity|reflexivity])).
    p_at 6%nat ltac:(p_rule ltac:(eapply (P_conv true _ _ (kattr PadValid 1) 6 4 15 5 _ 17 18 19 20 21 22 23)%nat;
      [reflexivity|reflexivity|vm_compute; reflexivity|vm_compute; reflexivity|left; reflexivity])).
    p_at 20%nat p_dead. p_at 19%nat p_dead. p_at 18%nat p_dead.
    p_at 8%nat p_fold. p_at 9%nat p_fold.
    p_at 8%nat p_dead. p_at 7%nat p_dead. p_at 6%nat p_dead. p_at 5%nat p_dead. p_at 4%nat p_dead. p_at 2%nat p_dead. p_at 1%nat p_dead. p_at 0%nat p_dead.
    match goal with |- psteps _ _ _ _ (?p, _) _ => match p with context [hd 0 ?x] => change (hd 0 x) with 1 end end.
    apply psteps_0. }
  split; vm_compute; reflexivity.
Qed.
(** What the optimiser makes of it: one convolution with thresholds. *)
Definition progU (w : list Z -> Q) (th : list Z -> Z) : list instr :=
  [(15, OQuant, [0]); (35, OConst (VF (mkT [1; 1; 1; 2]%Z w)), []); (36, ONone, []); (37, ONone, []);
   (38, OConst (VInt (mkT [2]%Z th)), []); (16, OConv cS, [15; 35; 36; 37; 38]); (14, ODequant, [16])]%nat.
Example progT_optimised w : exists w' th, steps (fun _ => as_is) true [0%nat] [14%nat] (progT w) (progU w' th).
Proof.
  do 2 eexists. unfold progT.
  at_pos 7%nat ltac:(do_rule ltac:(eapply (R_mul as_is true _ Mul 6 7 cS 15 20 21 22 23 _ _ _ 24 25 26 27 28 29)%nat; [left; reflexivity|reflexivity|reflexivity|reflexivity|reflexivity|exact I])).
  at_pos 9%nat do_fold. at_pos 12%nat do_fold.
  at_pos 15%nat ltac:(do_rule ltac:(eapply (R_add as_is true _ Add 8 9 cS 15 20 26 29 23 _ _ 30 31 32)%nat; [left; reflexivity|reflexivity|reflexivity|reflexivity|exact I])).
  at_pos 17%nat do_fold.
  at_pos 19%nat ltac:(do_rule ltac:(eapply (R_bits as_is true _ 10 cS 15 20 26 32 23 _ _ _ 33 34 35 36 37 38)%nat; [reflexivity|reflexivity|reflexivity|reflexivity|reflexivity|left; split; reflexivity|exact I])).
  at_pos 21%nat do_fold.
  at_pos 20%nat do_dead. at_pos 19%nat do_dead. at_pos 18%nat do_dead. at_pos 17%nat do_dead. at_pos 16%nat do_dead. at_pos 15%nat do_dead. at_pos 14%nat do_dead. at_pos 13%nat do_dead. at_pos 12%nat do_dead. at_pos 11%nat do_dead. at_pos 10%nat do_dead. at_pos 9%nat do_dead. at_pos 8%nat do_dead. at_pos 7%nat do_dead. at_pos 6%nat do_dead. at_pos 5%nat do_dead. at_pos 4%nat do_dead. at_pos 3%nat do_dead. at_pos 2%nat do_dead. at_pos 1%nat do_dead.
  apply steps_nil.
Qed.
(** It fits the machine, whichever kernel. *)
Definition tyS (x : nat) : list Z := if Nat.eqb x 14 then [1; 1; 2; 2] else [].
Lemma progU_const w th : const_filters (progU w th).
Proof. intros r o a Hi. cbn [progU In] in Hi. repeat (destruct Hi as [Hi|Hi]; [apply triple in Hi; destruct Hi as (-> & -> & ->); try exact I|]); [|contradiction]. eexists. reflexivity. Qed.
Lemma progU_fits kt w th : fits_machine kt tyS (progU w th) image.
Proof.
  assert (N4 : forall a b c d, 0 <= a -> 0 <= b -> 0 <= c -> 0 <= d -> nonneg [a; b; c; d]) by (intros; repeat constructor; assumption).
  unfold progU. cbn [fits_machine].
  intros vs v Hl Hd. cbn in Hl. injection Hl as <-. cbn [denote] in Hd. injection Hd as <-.
  split; [cbn; discriminate|]. split; [split; [apply N4; lia|discriminate]|]. split; [discriminate|].
  intros vs v Hl Hd. injection Hl as <-. injection Hd as <-. split; [constructor|]. split; [split; [apply N4; lia|exact I]|]. split; [discriminate|].
  intros vs v Hl Hd. injection Hl as <-. injection Hd as <-. split; [constructor|]. split; [split; [constructor|exact I]|]. split; [discriminate|].
  intros vs v Hl Hd. injection Hl as <-. injection Hd as <-. split; [constructor|]. split; [split; [constructor|exact I]|]. split; [discriminate|].
  intros vs v Hl Hd. injection Hl as <-. injection Hd as <-. split; [constructor|]. split; [split; [repeat constructor; lia|exact I]|]. split; [discriminate|].
  intros vs v Hl Hd. cbn [look upd Nat.eqb image] in Hl. injection Hl as <-.
  match type of Hd with denote ?o ?l = _ => assert (K : exists t, denote o l = Some (VBits t) /\ sh t = [2; 2; 1; 1]) by (eexists; split; reflexivity) end.
  destruct K as (t & Et & St). rewrite Et in Hd. injection Hd as <-. clear Et.
  split.
  { cbn [op_ok sh tmap cS battr kattr ca_sh ca_sw ca_dh ca_dw ca_pad ca_padv ca_act tc_sh tc_sw tc_dh tc_dw tc_pad].
    unfold eff. repeat (split; [lia|]). split; [right; split; [reflexivity|lia]|]. split; [lia|]. split; [left; reflexivity|].
    split; [discriminate|]. split; [reflexivity|]. intros _ g Hg. injection Hg as <-. split; [cbn; lia|].
    cbn. intros ox fx H1 H2. change (out_size PadValid 2 1 1 1) with 2 in H1. lia. }
  split; [split; [cbn [vshape]; rewrite St; apply N4; lia|rewrite St; discriminate]|]. split; [discriminate|].
  intros vs v Hl Hd. cbn [look upd Nat.eqb] in Hl. injection Hl as <-.  cbn [denote] in Hd. injection Hd as <-.
  split; [cbn; discriminate|]. split; [split; [cbn [vshape tmap sh]; rewrite St; apply N4; lia|exact I]|]. split; [|exact I].
  intros _. cbn [vshape tmap sh]. rewrite St. reflexivity.
Qed.
Example mem_exists : exists m, mem_ok image m.
Proof.
  exists (fun x => if Nat.eqb x 0 then Some (BF [1; 1; 2; 1] [3; - (2)]%Q) else None). intros x v Hv. unfold image in Hv.
  destruct (Nat.eqb_spec x 0) as [->|]; [|discriminate]. injection Hv as <-. eexists. split; [reflexivity|].
  split; [repeat constructor; lia|]. split; [reflexivity|]. split; [reflexivity|]. cbn [sh]. intros i Hi.
  apply in_range4 in Hi. destruct Hi as (c & x & y & o & -> & Hc & Hx & Hy & Ho).
  assert (c = 0) by lia. assert (y = 0) by lia. assert (o = 0) by lia. assert (D : x = 0 \/ x = 1) by lia. subst. destruct D as [-> | ->]; eexists; split; reflexivity.
Qed.
Example progS_runs : exists n q q',
  psteps (shapes image) true [0%nat] n (progS, [14%nat]) (q, [14%nat]) /\
  steps (fun _ => as_is) true [0%nat] [14%nat] q q' /\ length q' = 7%nat /\
  forall kt tfl m, tflite_ok tfl -> mem_ok image m ->
    run kt tfl (def q') tyS q' m (fun m' => exists a b c d,
      m' 14%nat = Some (BF [1; 1; 2; 2] [a; b; c; d]) /\ (a == 1)%Q /\ (b == 1)%Q /\ (c == - (1))%Q /\ (d == - (1))%Q).
Proof.
  destruct progS_prepared as (n & w & _ & _ & Hp). destruct (progT_optimised w) as (w' & th & Ho).
  exists n, (progT w), (progU w' th). split; [exact Hp|]. split; [exact Ho|]. split; [reflexivity|]. intros kt tfl m HT HM.
  destruct progS_sane as (e & HE & Hs & Hk). destruct progS_values as (e' & t1 & t6 & t8 & t11 & t14 & HE' & _ & _ & _ & _ & _ & E14 & S14 & V).
  rewrite HE in HE'. injection HE' as <-.
  eapply run_mono; [|apply (C68_converted_model_computes_the_graph kt tfl tyS true [0%nat] [14%nat] [14%nat] progS (progT w) (progU w' th) image e n m progS_ssa)].
  - intros m' Hf. inversion Hf as [|? ? ? ? H1 H2]; subst. destruct (H1 _ E14) as (b & Eb & Rb). rewrite Eb.
    destruct b as [d l|d l|d l|d l|]; try contradiction. destruct Rb as (_ & Hd & Hl & Hv). rewrite S14 in *. subst d. cbn in Hl.
    destruct l as [|a [|b [|c [|d [|? ?]]]]]; try (unfold zlen in Hl; cbn in Hl; lia). exists a, b, c, d. split; [reflexivity|].
    assert (K : forall x y q, 0 <= x < 2 -> 0 <= y < 2 -> rd [a; b; c; d] (y * 2 + x) = Some q -> (at_ t14 [x; y; 0; 0]%Z == q)%Q).
    { intros x y q Hx Hy Hq. destruct (Hv [x; y; 0; 0]) as (q' & Eq & Ev); [repeat constructor; lia|]. 
      replace (ravel [2; 2; 1; 1] [x; y; 0; 0]) with (y * 2 + x) in Eq by (unfold ravel; lia). rewrite Hq in Eq. injection Eq as <-. exact Ev. }
    destruct V as (V1 & V2 & V3 & V4).
    rewrite <- (K 0 0 a), <- (K 1 0 b), <- (K 0 1 c), <- (K 1 1 d) by (lia || reflexivity). auto.
  - intros x [<-|[]]. cbn. tauto.
  - exact HE.
  - exact Hs.
  - exact Hk.
  - exact Hp.
  - exact Ho.
  - exact HT.
  - apply progU_const.
  - apply progU_fits.
  - exact HM.
Qed.

(** The convolution of the graph takes zero padding exactly when some kernel's Prepare does. *)
Theorem C68_zero_padding_accepted c out :
  pad_ok c (ttype_eqb out TFloat32) = true <-> exists kt, zero_pad_guard kt (attrs_of c) out = true.
Proof.
  assert (E2 : (Z.rem (ca_cin c) 2 =? 0) = Z.even (ca_cin c)).
  { rewrite Zeven_mod. assert (Q := Z.quot_rem' (ca_cin c) 2). assert (D := Z.div_mod (ca_cin c) 2 ltac:(lia)). assert (B := Z.mod_pos_bound (ca_cin c) 2 ltac:(lia)).
    assert (A := Z.rem_bound_abs (ca_cin c) 2 ltac:(lia)). destruct (Z.eqb_spec (Z.rem (ca_cin c) 2) 0); destruct (Zeq_bool (ca_cin c mod 2) 0) eqn:E; try reflexivity; exfalso;
      [apply Zeq_bool_neq in E|apply Zeq_bool_eq in E]; lia. }
  unfold pad_ok, zero_pad_guard, attrs_of. cbn [at_pad at_pv at_cin at_act]. rewrite E2. split.
  - intros H. destruct (ca_pad c); cbn [is_same andb negb orb] in H; try (exists KReference; reflexivity).
    destruct (ca_padv c =? 0); [|exists KReference; reflexivity]. cbn [negb orb] in H. apply orb_true_iff in H. destruct H as [H | H]; [exists KReference; exact H|exists KBgemm; exact H].
  - intros [kt H]. destruct (ca_pad c); cbn [is_same andb negb orb]; try reflexivity.
    destruct (ca_padv c =? 0); [|reflexivity]. cbn [negb orb]. apply orb_true_iff. destruct kt; auto.
Qed.
Print Assumptions C68_zero_padding_accepted.
