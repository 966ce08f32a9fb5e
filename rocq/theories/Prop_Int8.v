(** C73: the converter's quantise pass on whole programs. *)
From Coq Require Import QArith Qminmax Lqa.
From Verif Require Import Base Spec Padding Threshold OutputTransform ConvFold IR IRProofs IRSound IRTerm IRWell IRTf IRPassProof IRInt8.
Open Scope Z_scope.

(** Whatever order quantize.cc applies its patterns, folds and removes dead
    operations in: once no pattern applies any more, the program computes what the
    original computes with every convolution using its multiplier and bias without
    their quantise/dequantise pairs ([strip]). *)
Theorem C73_quantise_pass args e0 p outs n q e :
  ssa args p -> (forall x, In x outs -> In x (args ++ map iid p)) -> params_clean p ->
  eval (strip p) e0 = Some e -> no_ties (strip p) e ->
  isteps outs n p q -> (forall q', ~ istep outs q q') ->
  exists e', eval q e0 = Some e' /\ forall x v, In x outs -> e x = Some v -> exists w, e' x = Some w /\ veq v w.
Proof.
  intros HS HO HC HE HN HR HF. destruct (isteps_good args e0 n outs p q HR e) as (e' & (G1 & _ & _ & G4 & _) & G6).
  { split; [exact HS|]. split; [exact HO|]. split; [exact HC|]. split; [exact HE|exact HN]. }
  exists e'. rewrite (strip_finished args outs q G1 HF) in G4. split; [exact G4|]. intros x v Hx Hv. exact (IRFuse.F2_diag _ _ G6 x Hx v Hv).
Qed.
Print Assumptions C73_quantise_pass.

(** A program without such pairs keeps its own meaning, at every moment of the pass. *)
Theorem C73_no_pairs args e0 p outs n q e :
  ssa args p -> (forall x, In x outs -> In x (args ++ map iid p)) ->
  (forall r o i f m b t, In (r, o, [i; f; m; b; t]) p -> is_bconv o = true -> src (def p) m = None /\ src (def p) b = None) ->
  eval p e0 = Some e -> no_ties p e -> isteps outs n p q ->
  exists e', eval (strip q) e0 = Some e' /\ forall x v, In x outs -> e x = Some v -> exists w, e' x = Some w /\ veq v w.
Proof.
  intros HS HO HP HE HN HR.
  assert (ES : strip p = p).
  { unfold strip. transitivity (map (fun i : instr => i) p); [|apply map_id]. apply map_ext_in. intros [[r o] a] Hi. unfold strip_i. cbn [iid iop iargs fst snd]. f_equal.
    unfold strip_args. destruct a as [|i [|f [|m [|b [|t [|]]]]]]; try reflexivity. destruct (is_bconv o) eqn:HB; [|reflexivity].
    destruct (HP _ _ _ _ _ _ _ Hi HB) as [H1 _]. rewrite chase_fix; [reflexivity|]. left. exact H1. }
  destruct (isteps_good args e0 n outs p q HR e) as (e' & (G1 & _ & _ & G4 & _) & G6).
  { split; [exact HS|]. split; [exact HO|]. rewrite ES. split; [|split; assumption].
    intros r o i f m b t k y x Hi HB Hk Hb Hx. exfalso. destruct (HP _ _ _ _ _ _ _ Hi HB) as [H1 H2].
    destruct Hb as [k|k u y H3 _]; destruct Hk as [-> | ->]; congruence. }
  exists e'. split; [exact G4|]. intros x v Hx Hv. exact (IRFuse.F2_diag _ _ G6 x Hx v Hv).
Qed.
Print Assumptions C73_no_pairs.

(** The pass stops, after at most len (len + 3) actions. *)
Theorem C73_quantise_terminates args outs n p q :
  ssa args p -> isteps outs n p q -> (n <= length p * (length p + 3))%nat.
Proof.
  intros HS HR. assert (K := isteps_size args (length p) outs n p q HR HS (Nat.le_refl _)).
  assert (B := isum_bound (length p) p p (Nat.le_refl _)). unfold isize in K at 2. lia.
Qed.
Print Assumptions C73_quantise_terminates.

(** ** A program with all four patterns *)
Definition vec1 (x : Q) : value := VF (mkT [1] (fun _ => x)).
Definition filt : value := VF (mkT [2; 1; 1; 1] (fun _ => 1%Q)).
Definition cv1 : cattr := {| ca_cin := 2; ca_dh := 1; ca_dw := 1; ca_act := ActNone; ca_padv := 0; ca_pad := PadValid; ca_sh := 1; ca_sw := 1 |}.
Definition ex_p : list instr :=
  [(1, tfl_dequant (1 # 4) 3, [0]); (2, OQuant, [1]); (3, OConst filt, []);
   (4, OConst (vec1 (13 # 10)), []); (5, tfl_quant 1 0, [4]); (6, tfl_dequant 1 0, [5]);
   (7, OConst (vec1 0), []); (8, tfl_quant 1 0, [7]); (9, tfl_dequant 1 0, [8]);
   (10, ONone, []); (11, OConv cv1, [2; 3; 6; 9; 10]); (12, tfl_quant 1 0, [11])]%nat.
Definition ex_e0 : env := fun x => match x with O => Some (VInt (mkT [2; 1; 1; 1] (fun i => match i with 0 :: _ => 5 | _ => 3 end))) | _ => None end.
Definition ex_q : list instr :=
  [(2, lq_quant8 3, [0]); (3, OConst filt, []); (4, OConst (vec1 (13 # 10)), []); (7, OConst (vec1 0), []);
   (10, ONone, []); (12, lq_conv8 cv1 1 0, [2; 3; 4; 7; 10])]%nat.
Definition int_at (e : option env) (x : nat) (i : list Z) : option Z :=
  match e with Some e => match e x with Some (VInt t) => Some (at_ t i) | _ => None end | None => None end.
Definition q_at (e : option env) (x : nat) (i : list Z) : option Q :=
  match e with Some e => match e x with Some (VF t) => Some (Qred (at_ t i)) | _ => None end | None => None end.
Lemma nth_split {A} (p : list A) k i : nth_error p k = Some i -> p = firstn k p ++ i :: skipn (Datatypes.S k) p.
Proof. revert k. induction p as [|j p IH]; intros [|k] H; try discriminate; cbn in *; [congruence|]. f_equal. apply IH, H. Qed.
Lemma step_rule outs (p : list instr) k r o a inner o' a' : nth_error p k = Some (r, o, a) -> irule (def (firstn k p)) (o, a) inner (o', a') ->
  (forall x, inner = Some x -> uses p outs x = 1%nat) -> istep outs p (firstn k p ++ (r, o', a') :: skipn (Datatypes.S k) p).
Proof. intros H R U. rewrite (nth_split p k _ H) in U |- * at 1. apply (IS_rule outs _ r o a _ inner o' a' R U). Qed.
Lemma step_dead outs (p : list instr) k i : nth_error p k = Some i -> uses p outs (iid i) = 0%nat -> istep outs p (firstn k p ++ skipn (Datatypes.S k) p).
Proof. intros H U. rewrite (nth_split p k _ H) in U |- * at 1. apply (IS_dead outs _ i _ U). Qed.
Ltac dead k := eapply isteps_S; [eapply (step_dead _ _ k); reflexivity|].
Lemma ex_run : isteps [12%nat] 9 ex_p ex_q.
Proof.
  eapply isteps_S; [eapply (step_rule _ _ 10); [reflexivity|apply I_par; reflexivity|discriminate]|].
  eapply isteps_S; [eapply (step_rule _ _ 11); [reflexivity|apply I_conv; reflexivity|intros x E; injection E as <-; reflexivity]|].
  eapply isteps_S; [eapply (step_rule _ _ 1); [reflexivity|eapply I_quant; reflexivity|intros x E; injection E as <-; reflexivity]|].
  dead 10%nat. dead 8%nat. dead 7%nat. dead 5%nat. dead 4%nat. dead 0%nat. apply isteps_0.
Qed.
Lemma app_cons_inv {A} (pre : list A) i post l : pre ++ i :: post = l -> exists k, nth_error l k = Some i /\ pre = firstn k l /\ post = skipn (Datatypes.S k) l.
Proof.
  intros <-. exists (length pre). rewrite nth_error_app2, Nat.sub_diag, firstn_app, Nat.sub_diag, firstn_all by lia. cbn [nth_error firstn].
  rewrite app_nil_r. split; [reflexivity|]. split; [reflexivity|]. induction pre; [reflexivity|assumption].
Qed.
Lemma rule_cases D o a inner o' a' : irule D (o, a) inner (o', a') ->
  (is_bconv o = true /\ exists i f m b t m' b', a = [i; f; m; b; t] /\ src D m = Some m' /\ src D b = Some b') \/ is_tq o = true \/
  (o = OQuant /\ exists d, a = [d] /\ D d <> None).
Proof.
  intros R. inversion R as [o1 i f m b t m' b' HB Hm Hb E3 E4 | c s z cv a1 Hd E3 E4 | s z d x Hd E3 E4 | s z d x Hd E3 E4]; subst.
  - left. split; [exact HB|]. exists i, f, m, b, t, m', b'. auto.
  - right. left. reflexivity.
  - right. left. reflexivity.
  - right. right. split; [reflexivity|]. exists d. split; [reflexivity|]. congruence.
Qed.
Lemma triple3 (x x' : nat) (o o' : op) (a a' : list nat) : Some (x, o, a) = Some (x', o', a') -> x' = x /\ o' = o /\ a' = a.
Proof. intros H. injection H. auto. Qed.
Lemma ex_finished q' : ~ istep [12%nat] ex_q q'.
Proof.
  intros H. inversion H as [pre r o a post inner o' a' R U E1 E2 | pre r o a post vs v FO NC HC HD E1 E2 | pre i post U0 E1 E2]; clear H;
    apply app_cons_inv in E1; destruct E1 as (k & E1 & -> & ->).
  - apply rule_cases in R.
    destruct k as [|[|[|[|[|[|k]]]]]]; try (destruct k; discriminate E1); apply triple3 in E1; destruct E1 as (-> & -> & ->);
    destruct R as [[R1 (i & f & m & b & t & m' & b' & R2 & R3 & R4)]|[R|[R _]]]; try discriminate.
    injection R2 as <- <- <- <- <-. discriminate R3.
  - destruct k as [|[|[|[|[|[|k]]]]]]; try (destruct k; discriminate E1); apply triple3 in E1; destruct E1 as (-> & -> & ->); try contradiction; try discriminate.
    inversion HC as [|? ? ? ? H1 _]; subst. discriminate H1.
  - assert (E3 : forall x y : instr, Some x = Some y -> y = x) by (intros; congruence).
    destruct k as [|[|[|[|[|[|k]]]]]]; try (destruct k; discriminate E1); cbn [nth_error ex_q] in E1; apply E3 in E1; subst i; discriminate U0.
Qed.

Lemma ex_values : exists e, eval (strip ex_p) ex_e0 = Some e /\
  forall t i, e 11%nat = Some (VF t) -> in_range (sh t) i -> (at_ t i == 13 # 5)%Q /\ sh t = [1; 1; 1; 1].
Proof.
  assert (HV : match eval (strip ex_p) ex_e0 with
    | Some e => match e 11%nat with Some (VF t) => Some (sh t, Qred (at_ t [0; 0; 0; 0])) | _ => None end | None => None end = Some ([1; 1; 1; 1], (13 # 5)%Q))
    by (vm_compute; reflexivity).
  destruct (eval (strip ex_p) ex_e0) as [e|]; [|discriminate]. exists e. split; [reflexivity|]. intros t i Ht Hi. rewrite Ht in HV.
  injection HV as E1 E2. rewrite E1 in *. destruct (in_range4 _ _ _ _ _ Hi) as (a & b & c & d & -> & H1 & H2 & H3 & H4).
  replace a with 0 by lia. replace b with 0 by lia. replace c with 0 by lia. replace d with 0 by lia.
  split; [|reflexivity]. rewrite <- (Qred_correct (at_ t _)), E2. reflexivity.
Qed.
Example C73_case :
  ssa [0%nat] ex_p /\ (forall x, In x [12%nat] -> In x ([0%nat] ++ map iid ex_p)) /\ params_clean ex_p /\
  (exists e, eval (strip ex_p) ex_e0 = Some e /\ no_ties (strip ex_p) e) /\
  isteps [12%nat] 9 ex_p ex_q /\ (forall q', ~ istep [12%nat] ex_q q') /\
  int_at (eval (strip ex_p) ex_e0) 12 [0; 0; 0; 0] = Some 3 /\ int_at (eval ex_q ex_e0) 12 [0; 0; 0; 0] = Some 3.
Proof.
  split; [cbn; intuition congruence|]. split; [intros x [<-|[]]; cbn; auto 20|].
  split.
  { apply clean_param. intros k y x (r & o & i & f & m & b & t & Hi & HB & Hk) Hb Hx.
    assert (Hk' : k = 6%nat \/ k = 9%nat).
    { cbn [In ex_p] in Hi. repeat (destruct Hi as [Hi|Hi]; [try (apply (f_equal iargs) in Hi; discriminate Hi)|]); [|destruct Hi].
      apply (f_equal iargs) in Hi. cbn in Hi. injection Hi as <- <- <- <- <-. tauto. }
    assert (Hy : y = k).
    { inversion Hb as [? E1|? u ? E1 E2 E3]; [reflexivity|]. subst. exfalso.
      assert (Hu : u = 4%nat \/ u = 7%nat) by (destruct Hk' as [-> | ->]; vm_compute in E1; injection E1 as <-; auto).
      assert (Hs : src (def ex_p) u = None) by (destruct Hu as [-> | ->]; reflexivity).
      destruct E2 as [?|? ? ? E4 _]; congruence. }
    subst y. assert (Hx' : x = 4%nat \/ x = 7%nat) by (destruct Hk' as [-> | ->]; vm_compute in Hx; injection Hx as <-; auto).
    destruct Hx' as [-> | ->]; split; intros; discriminate. }
  split.
  { destruct ex_values as (e & E1 & E2). exists e. split; [exact E1|]. intros r s z cv c a t i Hq Hc Ht Hi [HT _].
    assert (Hcv : cv = 11%nat).
    { cbn [In strip ex_p map] in Hc. repeat (destruct Hc as [Hc|Hc]; [try (apply (f_equal iop) in Hc; discriminate Hc)|]); [|destruct Hc].
      apply (f_equal iid) in Hc. symmetry. exact Hc. }
    subst cv.
    assert (Hs : s = 1%Q).
    { cbn [In strip ex_p map] in Hq. repeat (destruct Hq as [Hq|Hq]; [first [apply (f_equal iop) in Hq; discriminate Hq|assert (Ha := f_equal iargs Hq); discriminate Ha|idtac]|]); [|destruct Hq].
      apply (f_equal iop) in Hq. apply (f_equal (fun o => match o with OOther x => ek x | _ => KOther end)) in Hq. cbn in Hq. injection Hq as <- _. reflexivity. }
    subst s. destruct (E2 t i Ht Hi) as [E3 _]. destruct HT as (n & HT). rewrite E3 in HT. change ((13 # 5) / 1)%Q with (13 # 5)%Q in HT.
    assert (HZ : inject_Z (10 * n) == inject_Z 21) by (rewrite inject_Z_mult; change (inject_Z 10) with (10 # 1)%Q; change (inject_Z 21) with (21 # 1)%Q; lra).
    rewrite inject_Z_injective in HZ. lia. }
  split; [exact ex_run|]. split; [exact ex_finished|]. split; vm_compute; reflexivity.
Qed.

(** ** The pass does not keep the meaning of the program as it stands: a parameter
    that really was rounded to int8 (1.3 to 1, in the example) is used unrounded. *)
Theorem C73_parameters_refuted :
  isteps [12%nat] 9 ex_p ex_q /\
  int_at (eval ex_p ex_e0) 12 [0; 0; 0; 0] = Some 2 /\ int_at (eval ex_q ex_e0) 12 [0; 0; 0; 0] = Some 3.
Proof. split; [exact ex_run|]. split; vm_compute; reflexivity. Qed.
Print Assumptions C73_parameters_refuted.

(** ** [params_clean] is needed: a multiplier that is a quantised LceDequantize
    matches two patterns, and the result depends on which is tried first. *)
Definition ord_p : list instr :=
  [(3, ODequant, [1]); (4, tfl_quant (3 # 4) 0, [3]); (5, tfl_dequant (3 # 4) 0, [4]);
   (6, OConst (vec1 0), []); (7, tfl_quant 1 0, [6]); (8, tfl_dequant 1 0, [7]);
   (9, OConst filt, []); (10, ONone, []); (11, OConv cv1, [0; 9; 5; 8; 10])]%nat.
Definition ord_e0 : env := fun x => match x with
  | O => Some (VBits (mkT [2; 1; 1; 1] (fun _ => false))) | 1%nat => Some (VBits (mkT [1] (fun _ => false))) | _ => None end.
Definition ord_q1 : list instr :=
  [(3, ODequant, [1]); (6, OConst (vec1 0), []); (9, OConst filt, []); (10, ONone, []); (11, OConv cv1, [0; 9; 3; 6; 10])]%nat.
Definition ord_q2 : list instr :=
  [(4, lq_dequant8 (3 # 4) 0, [1]); (5, tfl_dequant (3 # 4) 0, [4]);
   (6, OConst (vec1 0), []); (7, tfl_quant 1 0, [6]); (8, tfl_dequant 1 0, [7]);
   (9, OConst filt, []); (10, ONone, []); (11, OConv cv1, [0; 9; 5; 8; 10])]%nat.
Lemma finished outs l :
  (forall k r o a, nth_error l k = Some (r, o, a) ->
     (is_bconv o = true -> forall i f m b t, a = [i; f; m; b; t] -> src (def (firstn k l)) m = None \/ src (def (firstn k l)) b = None) /\
     (is_tq o = true -> forall d, a = [d] -> forall c x, def (firstn k l) d <> Some (OConv c, x) /\ def (firstn k l) d <> Some (ODequant, x)) /\
     o <> OQuant /\
     (foldable o = true -> match a with [] => True | x :: _ => forall v, def (firstn k l) x <> Some (OConst v, []) end) /\
     uses l outs r <> 0%nat) ->
  forall q, ~ istep outs l q.
Proof.
  intros HF q H. inversion H as [pre r o a post inner o' a' R U E1 E2 | pre r o a post vs v FO NC HC HD E1 E2 | pre i post U0 E1 E2]; clear H.
  - assert (E3 := E1). apply app_cons_inv in E3. destruct E3 as (k & E3 & -> & ->). destruct (HF k r o a E3) as (H1 & H2 & H3 & H4 & H5).
    inversion R as [o1 i f m b t m' b' HB Hm Hb E4 E5 | c s z cv a1 Hd E4 E5 | s z d x Hd E4 E5 | s z d x Hd E4 E5]; subst.
    + destruct (H1 HB _ _ _ _ _ eq_refl) as [K|K]; [discriminate (eq_trans (eq_sym Hm) K)|discriminate (eq_trans (eq_sym Hb) K)].
    + exact (proj1 (H2 eq_refl cv eq_refl _ _) Hd).
    + exact (proj2 (H2 eq_refl d eq_refl cv1 _) Hd).
    + apply H3. reflexivity.
  - assert (E3 := E1). apply app_cons_inv in E3. destruct E3 as (k & E3 & -> & ->). destruct (HF k r o a E3) as (H1 & H2 & H3 & H4 & H5).
    destruct HC as [|x v1 a1 vs1 K1 K2]; [contradiction|]. exact (H4 FO v1 K1).
  - assert (E3 := E1). apply app_cons_inv in E3. destruct E3 as (k & E3 & _ & _). destruct i as [[r o] a]. destruct (HF k r o a E3) as (_ & _ & _ & _ & H5).
    rewrite E1 in U0. exact (H5 U0).
Qed.
Ltac fin := split; [first [discriminate|intros _ i f m b t E; injection E as <- <- <- <- <-; first [left; reflexivity|right; reflexivity]]|];
  split; [first [discriminate|intros _ d E c x; injection E as <-; split; discriminate]|];
  split; [discriminate|]; split; [first [discriminate|intros _; first [exact I|intros v; discriminate]]|discriminate].
Theorem C73_order_refuted :
  isteps [11%nat] 5 ord_p ord_q1 /\ (forall q, ~ istep [11%nat] ord_q1 q) /\
  isteps [11%nat] 2 ord_p ord_q2 /\ (forall q, ~ istep [11%nat] ord_q2 q) /\
  q_at (eval ord_q1 ord_e0) 11 [0; 0; 0; 0] = Some 2%Q /\ q_at (eval ord_q2 ord_e0) 11 [0; 0; 0; 0] = Some (3 # 2)%Q.
Proof.
  split.
  { eapply isteps_S; [eapply (step_rule _ _ 8); [reflexivity|apply I_par; reflexivity|discriminate]|].
    dead 5%nat. dead 4%nat. dead 2%nat. dead 1%nat. apply isteps_0. }
  split.
  { apply finished. intros k r o a E. destruct k as [|[|[|[|[|k]]]]]; try (destruct k; discriminate E); apply triple3 in E; destruct E as (-> & -> & ->); fin. }
  split.
  { eapply isteps_S; [eapply (step_rule _ _ 1); [reflexivity|eapply I_deq; reflexivity|intros x E; injection E as <-; reflexivity]|].
    dead 0%nat. apply isteps_0. }
  split.
  { apply finished. intros k r o a E. destruct k as [|[|[|[|[|[|[|[|k]]]]]]]]; try (destruct k; discriminate E); apply triple3 in E; destruct E as (-> & -> & ->); fin. }
  split; vm_compute; reflexivity.
Qed.
Print Assumptions C73_order_refuted.
