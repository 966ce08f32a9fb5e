(** * C69: the padding-fusion pass on whole programs. *)
From Coq Require Import QArith.
From Verif Require Import Base Spec Padding Prepare Lifecycle Threshold FusePad IR IRProofs IRRules IRSound IRTerm IRWell
  IRTf IRPrep IRPass IRPassRule IRPassProof IRPassTame IRRun IRRunTop IRFuse Prop_IR Prop_Prep Prop_Run.
Open Scope Z_scope.

(** ** Results. [fsteps (shapes e0) outs n p q]: [n] rewrites of fuse_padding.cc, in
    any order, lead from [p] to [q]; [e]: the values of [p] from inputs [e0].
    [fuse_sane p e]: wherever zero padding in front of a VALID convolution is taken
    for SAME padding, it splits as SAME padding does. *)
Theorem C69_any_order :
  forall (args outs : list nat) (n : nat) (p q : list instr) (e0 e : env),
  ssa args p -> (forall x, In x outs -> In x (args ++ map iid p)) -> eval p e0 = Some e -> fuse_sane p e ->
  fsteps (shapes e0) outs n p q ->
  exists e', eval q e0 = Some e' /\
    forall x v, In x outs -> e x = Some v -> exists w, e' x = Some w /\ veq v w.
Proof.
  intros args outs n p q e0 e HS HO HE HF H.
  destruct (fsteps_good args e0 n outs p q H e (conj HS (conj HO (conj HE HF)))) as (e' & (_ & _ & HE' & _) & R).
  exists e'. split; [exact HE'|]. intros x v Hx. exact (F2_diag _ _ R x Hx v).
Qed.
Print Assumptions C69_any_order.

(** With stride 1 nothing is asked. *)
Theorem C69_stride_one :
  forall (args outs : list nat) (n : nat) (p q : list instr) (e0 e : env),
  ssa args p -> (forall x, In x outs -> In x (args ++ map iid p)) -> eval p e0 = Some e ->
  (forall r kd k a l, In (r, tfl_conv kd k a, l) p -> tc_sh k = 1 /\ tc_sw k = 1) ->
  fsteps (shapes e0) outs n p q ->
  exists e', eval q e0 = Some e' /\
    forall x v, In x outs -> e x = Some v -> exists w, e' x = Some w /\ veq v w.
Proof.
  intros args outs n p q e0 e HS HO HE H1 HSt. apply (C69_any_order args outs n p q e0 e); auto.
  intros kd k a r d f b x ti tp F sf v Hin _ _ _ _ _ _ _. destruct (H1 _ _ _ _ _ Hin) as [A B].
  unfold split_ok. destruct (sh ti) as [|? [|? [|? [|? [|]]]]]; auto. destruct sf as [|? [|? [|? [|? [|]]]]]; auto.
Qed.
Print Assumptions C69_stride_one.

(** ** It stops *)
Theorem C69_terminates : forall T outs n p q, fsteps T outs n p q -> (n <= 3 * length p)%nat.
Proof. intros T outs n p q H. assert (A := fsteps_size _ _ _ _ _ H). assert (B := fsize_bound p). lia. Qed.
Print Assumptions C69_terminates.

(** ** A program: depthwise 3x3 convolution with stride 1 on a zero-padded 2x3 image with
    two channels, then a padded 1x3 convolution with bias and ReLU *)
Definition picture : env := fun x => if Nat.eqb x 0 then
  Some (VF (mkT [2; 3; 2; 1] (fun i => match i with [c; x; y; _] => inject_Z (10 * y + 3 * x - 7 * c) | _ => 0%Q end))) else None.
Definition dw_filter : tensor Q := mkT [2; 3; 3; 1] (fun i => match i with [o; x; y; _] => inject_Z (x + 2 * y - 3 * o) | _ => 0%Q end).
Definition row_filter : tensor Q := mkT [2; 3; 1; 1] (fun i => match i with [c; x; _; _] => inject_Z (x - c) | _ => 0%Q end).
Definition progF : list instr :=
  [(1, OConst (pads (1, 1) (1, 1))%Z, []); (2, tfl_pad, [0; 1]); (3, OConst (VF dw_filter), []); (4, ONone, []);
   (5, tfl_conv (Depthwise 1) (kattr PadValid 1) ActNone, [2; 3; 4]);
   (6, OConst (pads (0, 0) (1, 1))%Z, []); (7, OConst (scal 0), []); (8, tfl_padv2, [5; 6; 7]);
   (9, OConst (VF row_filter), []); (10, OConst (vec [-5]%Z), []);
   (11, tfl_conv Full (kattr PadValid 1) ActRelu, [8; 9; 10])]%nat.
Definition progF' : list instr :=
  [(3, OConst (VF dw_filter), []); (4, ONone, []);
   (5, tfl_conv (Depthwise 1) (to_same (kattr PadValid 1)) ActNone, [0; 3; 4]);
   (9, OConst (VF row_filter), []); (10, OConst (vec [-5]%Z), []);
   (11, tfl_conv Full (to_same (kattr PadValid 1)) ActRelu, [5; 9; 10])]%nat.
Example progF_ssa : ssa [0%nat] progF.
Proof. cbn. intuition (subst; auto 20; discriminate). Qed.
Example progF_runs : exists e t, eval progF picture = Some e /\ e 11%nat = Some (VF t) /\ sh t = [1; 3; 2; 1] /\
  (at_ t [0; 0; 0; 0]%Z == 651)%Q.
Proof. do 2 eexists. split; [reflexivity|]. split; [reflexivity|]. split; [reflexivity|]. vm_compute. reflexivity. Qed.
Example progF_runs' : exists e t, eval progF' picture = Some e /\ e 11%nat = Some (VF t) /\ sh t = [1; 3; 2; 1] /\
  (at_ t [0; 0; 0; 0]%Z == 651)%Q.
Proof. do 2 eexists. split; [reflexivity|]. split; [reflexivity|]. split; [reflexivity|]. vm_compute. reflexivity. Qed.

(** [progF'] is what the pass makes of [progF]. *)
Lemma split_at {A} (k : nat) (l : list A) x : nth_error l k = Some x -> l = firstn k l ++ x :: skipn (Datatypes.S k) l.
Proof. revert l. induction k as [|k IH]; intros [|y l] H; try discriminate; cbn in *; [injection H as <-; reflexivity|]. f_equal. apply IH, H. Qed.
Lemma drop_at T outs k p i : nth_error p k = Some i -> uses p outs (iid i) = 0%nat ->
  fstep T outs p (firstn k p ++ skipn (Datatypes.S k) p).
Proof. intros H U. rewrite (split_at _ _ _ H) at 1. apply FS_dead. rewrite <- (split_at _ _ _ H). exact U. Qed.
Lemma put_at T outs k p r o a inner o' a' : nth_error p k = Some (r, o, a) ->
  frule (T p) (def (firstn k p)) r (o, a) inner (o', a') -> uses p outs inner = 1%nat ->
  fstep T outs p (firstn k p ++ (r, o', a') :: skipn (Datatypes.S k) p).
Proof.
  intros H R U. rewrite (split_at _ _ _ H) at 1. apply (FS_rule _ _ _ _ _ _ _ inner); rewrite <- (split_at _ _ _ H); assumption.
Qed.
Example progF_fuses : fsteps (shapes picture) [11%nat] 7 progF progF'.
Proof.
  eapply fsteps_S. { eapply (put_at _ _ 4 _ _ _ _ 2 (tfl_conv (Depthwise 1) (to_same (kattr PadValid 1)) ActNone) [0; 3; 4]%nat); [reflexivity| |reflexivity].
    eapply F_pad; reflexivity. }
  eapply fsteps_S. { cbn [firstn skipn app progF]. eapply (put_at _ _ 10 _ _ _ _ 8 (tfl_conv Full (to_same (kattr PadValid 1)) ActRelu) [5; 9; 10]%nat); [reflexivity| |reflexivity].
    eapply F_padv2; reflexivity. }
  cbn [firstn skipn app progF].
  eapply fsteps_S; [eapply (drop_at _ _ 7); reflexivity|]. cbn [firstn skipn app].
  eapply fsteps_S; [eapply (drop_at _ _ 6); reflexivity|]. cbn [firstn skipn app].
  eapply fsteps_S; [eapply (drop_at _ _ 5); reflexivity|]. cbn [firstn skipn app].
  eapply fsteps_S; [eapply (drop_at _ _ 1); reflexivity|]. cbn [firstn skipn app].
  eapply fsteps_S; [eapply (drop_at _ _ 0); reflexivity|]. cbn [firstn skipn app].
  apply fsteps_0.
Qed.

(** ** Without the condition the pass changes results: a 3x3 box filter with stride 2 on a
    4x4 image padded by one on each side (SAME padding would be none before, one after) *)
Definition stride2 : tcattr := {| tc_pad := PadValid; tc_sh := 2; tc_sw := 2; tc_dh := 1; tc_dw := 1 |}.
Definition ramp4 : env := fun x => if Nat.eqb x 0 then
  Some (VF (mkT [1; 4; 4; 1] (fun i => match i with [_; x; y; _] => inject_Z (4 * y + x) | _ => 0%Q end))) else None.
Definition box : tensor Q := mkT [1; 3; 3; 1] (fun _ => 1%Q).
Definition progG : list instr :=
  [(1, OConst (pads (1, 1) (1, 1))%Z, []); (2, tfl_pad, [0; 1]); (3, OConst (VF box), []); (4, ONone, []);
   (5, tfl_conv Full stride2 ActNone, [2; 3; 4])]%nat.
Definition progG' : list instr :=
  [(3, OConst (VF box), []); (4, ONone, []); (5, tfl_conv Full (to_same stride2) ActNone, [0; 3; 4])]%nat.
Example progG_fuses : fsteps (shapes ramp4) [5%nat] 3 progG progG'.
Proof.
  eapply fsteps_S. { eapply (put_at _ _ 4 _ _ _ _ 2 (tfl_conv Full (to_same stride2) ActNone) [0; 3; 4]%nat); [reflexivity| |reflexivity].
    eapply F_pad; reflexivity. }
  cbn [firstn skipn app progG].
  eapply fsteps_S; [eapply (drop_at _ _ 1); reflexivity|]. cbn [firstn skipn app].
  eapply fsteps_S; [eapply (drop_at _ _ 0); reflexivity|]. cbn [firstn skipn app].
  apply fsteps_0.
Qed.
Lemma progG_values : exists e t e' t', eval progG ramp4 = Some e /\ e 5%nat = Some (VF t) /\ eval progG' ramp4 = Some e' /\ e' 5%nat = Some (VF t') /\
  sh t = [1; 2; 2; 1] /\ sh t' = [1; 2; 2; 1] /\ (at_ t [0; 0; 0; 0]%Z == 10)%Q /\ (at_ t' [0; 0; 0; 0]%Z == 45)%Q.
Proof. do 4 eexists. do 6 (split; [reflexivity|]). split; vm_compute; reflexivity. Qed.
Theorem C69_stride2_refuted :
  ~ (forall (args outs : list nat) (n : nat) (p q : list instr) (e0 e : env),
     ssa args p -> (forall x, In x outs -> In x (args ++ map iid p)) -> eval p e0 = Some e ->
     fsteps (shapes e0) outs n p q ->
     exists e', eval q e0 = Some e' /\
       forall x v, In x outs -> e x = Some v -> exists w, e' x = Some w /\ veq v w).
Proof.
  intros H. destruct progG_values as (e & t & e' & t' & E & T & E' & T' & Ht & Ht' & V & V').
  destruct (H [0%nat] [5%nat] 3%nat progG progG' ramp4 e) as (e1 & E1 & R).
  - cbn. intuition (subst; auto 20; discriminate).
  - intros x [<-|[]]. cbn. tauto.
  - exact E.
  - exact progG_fuses.
  - assert (e1 = e') by congruence. subst e1. destruct (R 5%nat _ (or_introl eq_refl) T) as (w & Ew & Vw).
    assert (w = VF t') by congruence. subst w. change (teq Qeq t t') in Vw. destruct Vw as [_ Vw].
    assert (A : in_range (sh t) [0; 0; 0; 0]) by (rewrite Ht; repeat constructor; lia).
    specialize (Vw _ A). rewrite V, V' in Vw. discriminate.
Qed.
Print Assumptions C69_stride2_refuted.

(** ** The whole chain: preparation, [ql] (what TensorFlow's own passes make of it, assumed
    to keep the outputs and to be readable by the later passes), optimisation, padding
    fusion, execution. *)
Theorem C69_whole_chain :
  forall (kt : kernel_type) (tfl : op -> list buf -> buf -> Prop) (ty : nat -> list Z) (arm : bool) (args outs outs' : list nat)
    (p q ql q' q'' : list instr) (e0 e : env) (n k : nat) (m : mem),
  ssa args p -> (forall x, In x outs -> In x (args ++ map iid p)) -> eval p e0 = Some e -> sane p e ->
  psteps (shapes e0) arm args n (p, outs) (q, outs') ->
  (forall eq, eval q e0 = Some eq ->
     ssa args ql /\ (forall x, In x outs' -> In x (args ++ map iid ql)) /\
     exists el, eval ql e0 = Some el /\ tame ql el /\ fuse_sane ql el /\
       forall x v, In x outs' -> eq x = Some v -> exists w, el x = Some w /\ veq v w) ->
  steps (fun _ => as_is) arm args outs' ql q' ->
  fsteps (shapes e0) outs' k q' q'' ->
  tflite_ok tfl -> const_filters q'' -> fits_machine kt ty q'' e0 -> mem_ok e0 m ->
  run kt tfl (def q'') ty q'' m (fun m' =>
    Forall2 (fun x y => forall v, e x = Some v -> exists b, m' y = Some b /\ rep v b) outs outs').
Proof.
  intros kt tfl ty arm args outs outs' p q ql q' q'' e0 e n k m HS HO HE HA Hp HL Hs Hf HT HC HF HM.
  destruct (psteps_good arm args e0 n _ _ Hp e (conj HS (conj HO (conj HE HA)))) as (e1 & (G1 & G2 & G3 & G4) & R).
  cbn [fst snd] in *. destruct (HL e1 G3) as (L1 & L2 & el & L3 & L4 & L5 & L6).
  destruct (steps_fuse arm args outs' e0 ql q' el L1 L2 Hs L3 L4 L5) as (e2 & F2 & R2).
  destruct (fsteps_good args e0 k outs' q' q'' Hf e2 F2) as (e3 & (_ & _ & E3 & _) & R3).
  eapply run_mono; [|exact (C68_machine_computes_the_graph kt tfl ty q'' e0 e3 m HT HC HF E3 HM)].
  intros m' Hm. assert (R4 : forall y v, In y outs' -> e1 y = Some v -> exists b, m' y = Some b /\ rep v b).
  { intros y v Hy Hv. destruct (L6 y v Hy Hv) as (w & Ew & Vw). destruct (R2 y w Hy Ew) as (u & Eu & Vu).
    destruct (F2_diag _ _ R3 y Hy u Eu) as (z & Ez & Vz). destruct (Hm y z Ez) as (b & Eb & Rb). exists b. split; [exact Eb|].
    apply (rep_veq v z); [|exact Rb]. exact (veq_trans _ _ _ Vw (veq_trans _ _ _ Vu Vz)). }
  revert R R4. clear. intros R. induction R as [|x y xs ys R1 R3 IH]; intros R4; constructor.
  - intros v Hv. destruct (R1 v Hv) as (w & Ew & Vw). destruct (R4 y w (or_introl eq_refl) Ew) as (b & Eb & Rb).
    exists b. split; [exact Eb|]. apply (rep_veq v w); assumption.
  - apply IH. intros z v Hz. apply R4. right. exact Hz.
Qed.
Print Assumptions C69_whole_chain.

(** The hypotheses are met by [progF]: every machine and every TFLite leaves the value
    651 of [progF_runs] in the first element of the output of [progF']. *)
Ltac in_prog H := cbn [progF progF' In] in H; repeat (destruct H as [H|H]; [apply triple in H; destruct H as (? & ? & ?)|]); try contradiction.
Lemma conv_attr kd k a kd' k' a' : tfl_conv kd k a = tfl_conv kd' k' a' -> k = k'.
Proof. intros H. apply (f_equal (fun o => match o with OOther x => ek x | _ => KOther end)) in H. cbn in H. injection H. auto. Qed.
Lemma progF_unit r kd k a l : In (r, tfl_conv kd k a, l) progF -> tc_sh k = 1 /\ tc_sw k = 1.
Proof. intros H. in_prog H; try (otherop (tfl_conv kd k a)); match goal with E : tfl_conv _ _ _ = _ |- _ => apply conv_attr in E; subst k end; split; reflexivity. Qed.
Lemma progF_sane e : sane progF e.
Proof.
  intros [[r o] a] Hi. split; [|split; [|split]]; cbn [iop iargs iid fst snd].
  - intros c x y tc tx Ho. exfalso. in_prog Hi; subst; other Ho.
  - intros s s' b c b' x ts tc Ho. exfalso. in_prog Hi; subst; other Ho.
  - intros k d f F Ho Ha. exfalso. in_prog Hi; subst; try discriminate Ha; try other Ho.
  - intros k d f d' x pd pv ti tp F v Ho Ha. exfalso. in_prog Hi; subst; try discriminate Ha; try other Ho.
Qed.
Lemma progF_tame e : tame progF e.
Proof. intros [[r o] a] Hi. in_prog Hi; subst; exact I. Qed.
Lemma progF_fuse_sane e : fuse_sane progF e.
Proof.
  intros kd k a r d f b x ti tp F sf v Hin _ _ _ _ _ _ _. destruct (progF_unit _ _ _ _ _ Hin) as [A B].
  unfold split_ok. destruct (sh ti) as [|? [|? [|? [|? [|]]]]]; auto. destruct sf as [|? [|? [|? [|? [|]]]]]; auto.
Qed.
Lemma progF_const : const_filters progF'.
Proof. intros r o a Hi. in_prog Hi; subst; exact I. Qed.
Lemma progF_fits kt ty : fits_machine kt ty progF' picture.
Proof.
  assert (N4 : forall a b c d, 0 <= a -> 0 <= b -> 0 <= c -> 0 <= d -> nonneg [a; b; c; d]) by (intros; repeat constructor; assumption).
  unfold progF'. cbn [fits_machine].
  intros vs v Hl Hd. cbn in Hl. injection Hl as <-. injection Hd as <-. split; [intros _; repeat constructor|]. split; [split; [apply N4; lia|exact I]|]. split; [discriminate|].
  intros vs v Hl Hd. cbn in Hl. injection Hl as <-. injection Hd as <-. split; [intros _; repeat constructor|]. split; [split; [constructor|exact I]|]. split; [discriminate|].
  intros vs v Hl Hd. cbn [look upd Nat.eqb picture] in Hl. injection Hl as <-.
  match type of Hd with denote ?o ?l = _ => assert (K : exists t, denote o l = Some (VF t) /\ sh t = [2; 3; 2; 1]) by (eexists; split; reflexivity) end.
  destruct K as (t & Et & St). rewrite Et in Hd. injection Hd as <-. clear Et.
  split; [intros _; repeat constructor|]. split; [split; [cbn [vshape]; rewrite St; apply N4; lia|exact I]|]. split; [discriminate|].
  intros vs v Hl Hd. cbn in Hl. injection Hl as <-. injection Hd as <-. split; [intros _; repeat constructor|]. split; [split; [apply N4; lia|exact I]|]. split; [discriminate|].
  intros vs v Hl Hd. cbn in Hl. injection Hl as <-. injection Hd as <-. split; [intros _; repeat constructor|]. split; [split; [constructor; [vm_compute; discriminate|constructor]|exact I]|]. split; [discriminate|].
  intros vs v Hl Hd. cbn [look upd Nat.eqb] in Hl. injection Hl as <-. 
  match type of Hd with denote ?o [VF t; ?y; ?z] = _ => assert (K : exists u, denote o [VF t; y; z] = Some (VF u) /\ sh u = [1; 3; 2; 1]) end.
  { cbn [denote tfl_conv ef lconv_fun]. unfold lconv_sem. rewrite St. eexists. split; reflexivity. }
  destruct K as (u & Eu & Su). rewrite Eu in Hd. injection Hd as <-. clear Eu.
  split; [intros _; repeat constructor|]. split; [split; [cbn [vshape]; rewrite Su; apply N4; lia|exact I]|]. split; [discriminate|exact I].
Qed.
Example C69_chain_example : forall kt tfl ty m, tflite_ok tfl -> mem_ok picture m ->
  run kt tfl (def progF') ty progF' m (fun m' => exists l q, m' 11%nat = Some (BF [1; 2; 3; 1] l) /\ rd l 0 = Some q /\ (q == 651)%Q).
Proof.
  intros kt tfl ty m HT HM. destruct progF_runs as (e & t & HE & E11 & S11 & V).
  assert (HO : forall x, In x [11%nat] -> In x ([0%nat] ++ map iid progF)) by (intros x [<-|[]]; cbn; tauto).
  eapply run_mono; [|apply (C69_whole_chain kt tfl ty true [0%nat] [11%nat] [11%nat] progF progF progF progF progF' picture e 0 7 m progF_ssa HO HE)].
  - intros m' Hf. inversion Hf as [|? ? ? ? H1 H2]; subst. destruct (H1 _ E11) as (b & Eb & Rb). rewrite Eb.
    destruct b as [d l|d l|d l|d l|]; try contradiction. destruct Rb as (_ & Hd & Hl & Hv). rewrite S11 in *. subst d.
    destruct (Hv [0; 0; 0; 0]) as (q & Eq & Ev); [repeat constructor; lia|]. exists l, q. split; [reflexivity|].
    replace (ravel [1; 3; 2; 1] [0; 0; 0; 0]) with 0 in Eq by reflexivity. split; [exact Eq|]. rewrite <- Ev. exact V.
  - apply progF_sane.
  - apply psteps_0.
  - intros e1 HE1. assert (e1 = e) by congruence. subst e1. split; [exact progF_ssa|]. split; [exact HO|]. exists e. split; [exact HE|].
    split; [apply progF_tame|]. split; [apply progF_fuse_sane|]. intros x v _ Hv. exists v. split; [exact Hv|apply veq_refl].
  - constructor.
  - exact progF_fuses.
  - exact HT.
  - exact progF_const.
  - apply progF_fits.
  - exact HM.
Qed.
