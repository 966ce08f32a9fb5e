(** * GraphTop: the two public functions of mlir/python/util.py. *)
From Coq Require Import String Permutation.
From Verif Require Import Base Spec Misc GraphUtil GraphProofs.
Open Scope list_scope.
Open Scope Z_scope.

Lemma combine_in {A} (f : oper -> option A) ops ks : all_some (map f ops) = Some ks ->
  length ks = length ops /\ (forall k o, In (k, o) (combine ks ops) -> In o ops /\ f o = Some k) /\
  (forall o, In o ops -> exists k, f o = Some k /\ In (k, o) (combine ks ops)) /\
  (forall k, In k ks -> exists o, In o ops /\ f o = Some k).
Proof.
  intros H. apply all_some_ok in H. revert ks H. induction ops as [|o ops IH]; intros [|k ks] H; try discriminate.
  - repeat split; try (intros; contradiction); intros ? [].
  - cbn [map] in H. injection H as H1 H2. destruct (IH ks H2) as (L & A1 & A2 & A3). split; [cbn; rewrite L; reflexivity|]. split; [|split].
    + intros k' o' [E|E]; [injection E as <- <-; split; [left; reflexivity|exact H1]|]. destruct (A1 k' o' E). split; [right|]; assumption.
    + intros o' [<-|Ho]; [exists k; split; [exact H1|left; reflexivity]|]. destruct (A2 o' Ho) as (k' & E & Hk). exists k'. split; [exact E|right; exact Hk].
    + intros k' [<-|Hk]; [exists o; split; [left; reflexivity|exact H1]|]. destruct (A3 k' Hk) as (o' & Ho & E). exists o'. split; [right; exact Ho|exact E].
Qed.

(** The opcode indices found. *)
Lemma scan_spec p q : forall codes idx a b a' b', (forall c, p c = true -> q c = false) ->
  scan p q idx codes a b = (a', b') ->
  (a' = a \/ exists k c, a' = Some (idx + k) /\ rd codes k = Some c /\ p c = true) /\
  (b' = b \/ exists k c, b' = Some (idx + k) /\ rd codes k = Some c /\ q c = true).
Proof.
  intros codes. induction codes as [|c cs IH]; intros idx a b a' b' Hpq H; cbn [scan] in H.
  - injection H as <- <-. split; left; reflexivity.
  - assert (S0 : forall (x : opcode) k, rd cs k = Some x -> rd (c :: cs) (1 + k) = Some x).
    { intros x k Hk. pose proof (rd_bounds _ _ _ Hk). unfold rd in *. destruct (Z.ltb_spec k 0); [lia|]. destruct (Z.ltb_spec (1 + k) 0); [lia|].
      replace (Z.to_nat (1 + k)) with (Datatypes.S (Z.to_nat k)) by lia. exact Hk. }
    assert (G : forall a1 b1, (a1 = a \/ (a1 = Some idx /\ p c = true)) -> (b1 = b \/ (b1 = Some idx /\ q c = true)) ->
      (a' = a1 \/ exists k c, a' = Some (idx + 1 + k) /\ rd cs k = Some c /\ p c = true) ->
      (b' = b1 \/ exists k c, b' = Some (idx + 1 + k) /\ rd cs k = Some c /\ q c = true) ->
      (a' = a \/ exists k c0, a' = Some (idx + k) /\ rd (c :: cs) k = Some c0 /\ p c0 = true) /\
      (b' = b \/ exists k c0, b' = Some (idx + k) /\ rd (c :: cs) k = Some c0 /\ q c0 = true)).
    { intros a1 b1 Ha Hb Ha' Hb'. split.
      - destruct Ha' as [->|(k & x & E1 & E2 & E3)]; [destruct Ha as [->|[-> Hp]]; [left; reflexivity|]|].
        + right. exists 0, c. rewrite Z.add_0_r. auto.
        + right. exists (1 + k), x. split; [rewrite E1; f_equal; lia|]. split; [apply S0; exact E2|exact E3].
      - destruct Hb' as [->|(k & x & E1 & E2 & E3)]; [destruct Hb as [->|[-> Hp]]; [left; reflexivity|]|].
        + right. exists 0, c. rewrite Z.add_0_r. auto.
        + right. exists (1 + k), x. split; [rewrite E1; f_equal; lia|]. split; [apply S0; exact E2|exact E3]. }
    destruct (p c) eqn:Ep; [|destruct (q c) eqn:Eq].
    + destruct b as [b0|].
      * injection H as <- <-. apply (G (Some idx) (Some b0)); auto.
      * destruct (IH _ _ _ _ _ Hpq H) as [I1 I2]. apply (G (Some idx) None); auto.
    + destruct a as [a0|].
      * injection H as <- <-. apply (G (Some a0) (Some idx)); auto.
      * destruct (IH _ _ _ _ _ Hpq H) as [I1 I2]. apply (G None (Some idx)); auto.
    + destruct a as [a0|], b as [b0|].
      * injection H as <- <-. apply (G (Some a0) (Some b0)); auto.
      * destruct (IH _ _ _ _ _ Hpq H) as [I1 I2]. apply (G (Some a0) None); auto.
      * destruct (IH _ _ _ _ _ Hpq H) as [I1 I2]. apply (G None (Some b0)); auto.
      * destruct (IH _ _ _ _ _ Hpq H) as [I1 I2]. apply (G None None); auto.
Qed.

Section Top.
  Context {V : Type}.
  Notation graph := (@graph V). Notation tfmodel := (@tfmodel V).
  Variable sem : Z * Z -> list (option (@tensor V * V)) -> list (@tensor V) -> option (list V).
  Notation eval := (eval sem).

  (** An operator's opcode entry. *)
  Definition has_builtin (m : tfmodel) (o : oper) (b : Z) : Prop := exists c, rd (m_codes m) (o_code o) = Some c /\ c_builtin c = b.
  Lemma quant_codes_ok m o : (is_code o (fst (quant_codes m)) = true -> has_builtin m o B_QUANTIZE) /\
    (is_code o (snd (quant_codes m)) = true -> has_builtin m o B_DEQUANTIZE).
  Proof.
    unfold quant_codes. destruct (scan _ _ 0 (m_codes m) None None) as [a b] eqn:E. apply scan_spec in E.
    - destruct E as [Ea Eb]. cbn [fst snd]. unfold is_code, has_builtin. split.
      + destruct Ea as [->|(k & c & -> & H1 & H2)]; [discriminate|]. intros H. apply Z.eqb_eq in H. rewrite H. exists c. split; [exact H1|]. apply Z.eqb_eq in H2. exact H2.
      + destruct Eb as [->|(k & c & -> & H1 & H2)]; [discriminate|]. intros H. apply Z.eqb_eq in H. rewrite H. exists c. split; [exact H1|]. apply Z.eqb_eq in H2. exact H2.
    - intros c H. apply Z.eqb_eq in H. rewrite H. reflexivity.
  Qed.

  (** ** Specification: operators at the border of a graph *)
  (** [o] quantises graph input [e] to [i]. *)
  Definition input_op (code : option Z) (g : graph) (o : oper) (e i : Z) : Prop :=
    In o (g_ops g) /\ is_code o code = true /\ o_in o = [e] /\ o_out o = [i] /\ In e (g_in g).
  (** [o] dequantises [i] to graph output [e]. *)
  Definition output_op (code : option Z) (g : graph) (o : oper) (e i : Z) : Prop :=
    In o (g_ops g) /\ is_code o code = true /\ o_in o = [i] /\ o_out o = [e] /\ In e (g_out g).
  (** Operators with this code have one input, which is present, and one output. *)
  Definition unary (code : option Z) (g : graph) : Prop :=
    forall o, In o (g_ops g) -> is_code o code = true -> exists x y, o_in o = [x] /\ x <> -1 /\ o_out o = [y].

  Lemma pyrd_nonneg {A} (l : list A) i : 0 <= i -> pyrd l i = rd l i.
  Proof. intros H. unfold pyrd. replace (i <? 0) with false by lia. reflexivity. Qed.
  Lemma check_types_inv g e i f h k k' : 0 <= e -> 0 <= i -> check_types (V := V) g e i f h k = Some k' ->
    k' = k /\ exists te ti, rd (g_tensors g) e = Some te /\ rd (g_tensors g) i = Some ti /\ f (t_type te) = true /\ h (t_type ti) = true.
  Proof.
    intros He Hi. unfold check_types. rewrite !pyrd_nonneg by assumption.
    destruct (rd (g_tensors g) e) as [te|]; [|discriminate]. destruct (rd (g_tensors g) i) as [ti|]; [|discriminate]. cbn [bind].
    destruct (f (t_type te)) eqn:Ef; [|discriminate]. destruct (h (t_type ti)) eqn:Eh; [|discriminate]. intros H. injection H as <-.
    split; [reflexivity|]. exists te, ti. auto.
  Qed.
  Definition type_at (g : graph) (i : Z) (P : Z -> Prop) : Prop := exists t, rd (g_tensors g) i = Some t /\ P (t_type t).
  Lemma first_in_unary code o refs io x : refs = [x] -> first_in code o refs io = Some (is_code o code && mem x io).
  Proof. intros ->. unfold first_in. destruct (is_code o code); reflexivity. Qed.
  Lemma unary_range code g o x y : refs_in_range g -> In o (g_ops g) -> o_in o = [x] -> x <> -1 -> o_out o = [y] -> unary code g -> 0 <= x /\ 0 <= y /\ in_range g x /\ in_range g y.
  Proof.
    intros (_ & _ & W) Ho Hx Hn Hy _. rewrite Forall_forall in W. destruct (W o Ho) as [W1 W2]. rewrite Hx in W1. rewrite Hy in W2.
    apply Forall_inv in W1, W2. destruct W1 as [W1|W1]; [contradiction|]. unfold in_range in *. lia.
  Qed.

  (** ** Outputs only (LceDequantize, Dequantize) *)
  Section Out.
    Variables (code : option Z) (f h : Z -> bool).
    Hypothesis disj : forall t, f t = true -> h t = true -> False.
    Lemma classify_out_inv g o k : refs_in_range g -> unary code g -> In o (g_ops g) -> classify_out code f h g o = Some k ->
      (k = KNone /\ forall e i, ~ output_op code g o e i) \/
      exists e i, k = KOut e i /\ output_op code g o e i /\ in_range g i /\ type_at g e (fun t => f t = true) /\ type_at g i (fun t => h t = true).
    Proof.
      intros W U Ho H. unfold classify_out, first_in in H. destruct (is_code o code) eqn:Ec.
      - destruct (U o Ho Ec) as (x & y & Hx & Hn & Hy). destruct (unary_range code g o x y W Ho Hx Hn Hy U) as (P1 & P2 & R1 & R2).
        rewrite Hx, Hy in H. cbn [rd Z.ltb Z.compare Z.to_nat nth_error bind] in H. destruct (mem y (g_out g)) eqn:Em.
        + cbn [bind rd Z.ltb Z.compare Z.to_nat nth_error] in H. apply check_types_inv in H; [|lia|lia]. destruct H as (-> & te & ti & H1 & H2 & H3 & H4). right. exists y, x.
          apply mem_In in Em. split; [reflexivity|]. split; [unfold output_op; auto|]. split; [exact R1|]. split; [exists te; auto|exists ti; auto].
        + left. injection H as <-. split; [reflexivity|]. intros e i (_ & _ & _ & E & Hin). apply mem_false in Em. apply Em. congruence.
      - cbn [bind] in H. left. injection H as <-. split; [reflexivity|]. intros e i (_ & E & _). congruence.
    Qed.
    Lemma out_phase_ok g kinds : refs_in_range g -> unary code g ->
      (forall o e i o', output_op code g o e i -> In o' (g_ops g) -> ~ In e (o_in o')) ->
      all_some (map (classify_out code f h g) (g_ops g)) = Some kinds -> phase_ok g kinds.
    Proof.
      intros W U Hs H. destruct (combine_in _ _ _ H) as (L & A1 & A2 & A3).
      assert (Hno : forall e i, ~ In (KIn e i) kinds).
      { intros e i Hk. destruct (A3 _ Hk) as (o & Ho & E). destruct (classify_out_inv g o _ W U Ho E) as [[? _]|(? & ? & ? & _)]; discriminate. }
      assert (Hrm : forall x, removed kinds x -> exists o i, output_op code g o x i /\ type_at g x (fun t => f t = true)).
      { intros x Hx. apply exts_of_In in Hx. destruct Hx as (i & [Hx|Hx]); [exfalso; exact (Hno _ _ Hx)|].
        destruct (A3 _ Hx) as (o & Ho & E). destruct (classify_out_inv g o _ W U Ho E) as [[? _]|(e & j & Ek & Hop & _ & Ht & _)]; [discriminate|].
        injection Ek as <- <-. exists o, i. auto. }
      constructor.
      - exact L.
      - apply Forall_forall. intros [k o] Hko. destruct (A1 k o Hko) as [Ho E]. unfold kop_shape. cbn [fst snd].
        destruct (classify_out_inv g o k W U Ho E) as [[-> _]|(e & i & -> & (_ & _ & H1 & H2 & H3) & H4 & _)]; auto.
      - intros e i j Hk. exfalso. exact (Hno _ _ Hk).
      - intros e i Hk. exfalso. exact (Hno _ _ Hk).
      - intros e i Hk Hr. destruct (A3 _ Hk) as (o & Ho & E). destruct (classify_out_inv g o _ W U Ho E) as [[? _]|(e' & i' & Ek & _ & _ & _ & Ht)]; [discriminate|].
        injection Ek as <- <-. destruct (Hrm i Hr) as (o2 & j & _ & Ht2). destruct Ht as (t1 & R1 & F1), Ht2 as (t2 & R2 & F2).
        assert (t1 = t2) by congruence. subst. exact (disj _ F2 F1).
      - intros e i Hk. exfalso. exact (Hno _ _ Hk).
      - intros o i Hko Hi Hr. destruct (A1 _ _ Hko) as [Ho _]. destruct (Hrm i Hr) as (o2 & j & Hop & _). exact (Hs o2 i j o Hop Ho Hi).
    Qed.
    (** Kinds against the specification. *)
    Lemma out_kinds g kinds : refs_in_range g -> unary code g -> all_some (map (classify_out code f h g) (g_ops g)) = Some kinds ->
      (forall e i o, In (KOut e i, o) (combine kinds (g_ops g)) <-> output_op code g o e i) /\
      (forall e i, In (KOut e i) kinds <-> exists o, output_op code g o e i) /\ (forall e i, ~ In (KIn e i) kinds) /\
      (forall o, In (KNone, o) (combine kinds (g_ops g)) <-> In o (g_ops g) /\ forall e i, ~ output_op code g o e i).
    Proof.
      intros W U H. destruct (combine_in _ _ _ H) as (L & A1 & A2 & A3).
      assert (B : forall e i o, In (KOut e i, o) (combine kinds (g_ops g)) <-> output_op code g o e i).
      { intros e i o. split.
        - intros Hk. destruct (A1 _ _ Hk) as [Ho E]. destruct (classify_out_inv g o _ W U Ho E) as [[? _]|(e' & i' & Ek & Hop & _)]; [discriminate|]. injection Ek as <- <-. exact Hop.
        - intros Hop. assert (Hop' := Hop). destruct Hop' as (Ho & _ & X1 & X2 & _). destruct (A2 o Ho) as (k & E & Hk). destruct (classify_out_inv g o _ W U Ho E) as [[_ Hn]|(e' & i' & -> & (_ & _ & Y1 & Y2 & _) & _)].
          + exfalso. exact (Hn e i Hop).
          + rewrite X1 in Y1. rewrite X2 in Y2. injection Y1 as <-. injection Y2 as <-. exact Hk. }
      split; [exact B|]. split; [|split].
      - intros e i. split.
        + intros Hk. destruct (in_combine_ops kinds (g_ops g) _ L Hk) as [o Ho]. exists o. apply B. exact Ho.
        + intros (o & Hop). apply B in Hop. exact (in_combine_l _ _ _ _ Hop).
      - intros e i Hk. destruct (A3 _ Hk) as (o & Ho & E). destruct (classify_out_inv g o _ W U Ho E) as [[? _]|(? & ? & ? & _)]; discriminate.
      - intros o. split.
        + intros Hk. destruct (A1 _ _ Hk) as [Ho E]. split; [exact Ho|]. destruct (classify_out_inv g o _ W U Ho E) as [[_ Hn]|(? & ? & ? & _)]; [exact Hn|discriminate].
        + intros [Ho Hn]. destruct (A2 o Ho) as (k & E & Hk). destruct (classify_out_inv g o _ W U Ho E) as [[-> _]|(e' & i' & _ & Hop & _)]; [exact Hk|]. exfalso. exact (Hn _ _ Hop).
    Qed.
  End Out.

  (** After a phase every reference is still to a tensor. *)
  Definition same_refs (g g' : graph) : Prop :=
    forall o', In o' (g_ops g') -> exists o, In o (g_ops g) /\ o_code o' = o_code o /\ o_opts o' = o_opts o /\
      zlen (o_in o') = zlen (o_in o) /\ zlen (o_out o') = zlen (o_out o) /\
      (forall k i, rd (o_in o) k = Some i -> exists j, rd (o_in o') k = Some j /\ (j = -1 <-> i = -1) /\ rd (g_tensors g') j = rd (g_tensors g) i) /\
      (forall k i, rd (o_out o) k = Some i -> exists j, rd (o_out o') k = Some j /\ rd (g_tensors g') j = rd (g_tensors g) i).
  Lemma strip_in_range (g : graph) sigs kinds : refs_in_range g -> ssa g -> phase_ok g kinds ->
    refs_in_range (fst (strip g sigs kinds)) /\ same_refs g (fst (strip g sigs kinds)).
  Proof.
    intros W SS P. destruct (strip_struct sem g sigs kinds W SS P) as (ri & ro & R & HR & HRd & HRr & _ & _ & _ & _ & Hrefs & sg1 & Est).
    set (gm := {| g_tensors := _ |}) in *. pose proof (remove_tensors_spec gm sg1 R HRd HRr) as Spec. rewrite Est.
    destruct (remove_tensors gm sg1 R) as [g1 s1]. cbn [fst]. cbn zeta in Spec. destruct Spec as (Zl & Ht & Ei & Eo & Eops & _).
    destruct Hrefs as (F1 & F2 & F3). cbn [g_tensors g_in g_out g_ops gm] in *. set (n := zlen (g_tensors g)) in *.
    assert (Hw : forall i, strict_ok n R i -> ref_ok n R i) by (intros i H; right; exact H).
    assert (Hrng : forall i, strict_ok n R i -> in_range g1 (newidx R i)).
    { intros i [H1 H2]. destruct (rd_some (g_tensors g) i H1) as [t Ti]. rewrite <- (Ht i H2) in Ti. exact (rd_bounds _ _ _ Ti). }
    assert (Hneg : newidx R (-1) = -1) by (apply newidx_neg; [intros r Hr; apply HRr; exact Hr|lia]).
    split; [split; [|split]|].
    - rewrite Ei by (eapply Forall_impl; [exact Hw|exact F1]). apply Forall_map. eapply Forall_impl; [|exact F1]. exact Hrng.
    - rewrite Eo by (eapply Forall_impl; [exact Hw|exact F2]). apply Forall_map. eapply Forall_impl; [|exact F2]. exact Hrng.
    - rewrite Eops by (eapply Forall_impl; [|exact F3]; intros o [G1 G2]; split; [exact G1|]; eapply Forall_impl; [exact Hw|exact G2]).
      apply Forall_map. eapply Forall_impl; [|exact F3]. intros o [G1 G2]. cbn [rename_op o_in o_out]. split; apply Forall_map.
      + eapply Forall_impl; [|exact G1]. intros i [->|Hi]; [left; exact Hneg|right; exact (Hrng i Hi)].
      + eapply Forall_impl; [|exact G2]. exact Hrng.
    - intros o' Ho'. rewrite Eops in Ho' by (eapply Forall_impl; [|exact F3]; intros o [G1 G2]; split; [exact G1|]; eapply Forall_impl; [exact Hw|exact G2]).
      apply in_map_iff in Ho'. destruct Ho' as (o & <- & Ho). rewrite Forall_forall in F3. destruct (F3 o Ho) as [G1 G2]. rewrite Forall_forall in G1, G2.
      exists o. split; [exact (in_combine_r _ _ _ _ (keep_combine _ _ _ Ho))|]. cbn [rename_op o_in o_out o_code o_opts]. split; [reflexivity|]. split; [reflexivity|].
      split; [unfold zlen; rewrite map_length; reflexivity|]. split; [unfold zlen; rewrite map_length; reflexivity|]. split; intros k i Hk; exists (newidx R i); (split; [rewrite rd_map, Hk; reflexivity|]).
      + destruct (G1 i (rd_in _ _ _ Hk)) as [-> | Hs].
        * rewrite Hneg. split; [tauto|]. rewrite !rd_none by lia. reflexivity.
        * pose proof (Hrng i Hs) as Hr. destruct Hs as [Hs1 Hs2]. split; [unfold in_range in Hr; lia|]. exact (Ht i Hs2).
      + exact (Ht i (proj2 (G2 i (rd_in _ _ _ Hk)))).
  Qed.

  (** ** modify_integer_quantized_model_io_type *)
  Section Modify.
    Variables (m m' : tfmodel) (a b : bool) (g : graph).
    Hypothesis Hg : rd (m_graphs m) 0 = Some g.
    Hypothesis Hmod : modify_io m a b = Some m'.
    Definition qcode := fst (quant_codes m).
    Definition dcode := snd (quant_codes m).
    Hypothesis W : refs_in_range g.
    Hypothesis SS : ssa g.
    Hypothesis Uq : unary qcode g.
    Hypothesis Ud : unary dcode g.
    Hypothesis sole_in : a = true -> forall o e i, input_op qcode g o e i -> ~ In e (g_out g) /\ forall o', In o' (g_ops g) -> In e (o_in o') -> o' = o.
    Hypothesis sole_out : b = true -> forall o e i o', output_op dcode g o e i -> In o' (g_ops g) -> ~ In e (o_in o').

    Lemma codes_disjoint o : is_code o qcode = true -> is_code o dcode = true -> False.
    Proof.
      intros H1 H2. destruct (quant_codes_ok m o) as [Q D]. destruct (Q H1) as (c1 & E1 & F1). destruct (D H2) as (c2 & E2 & F2).
      assert (c1 = c2) by congruence. subst. rewrite F1 in F2. discriminate.
    Qed.
    Lemma classify_inv o k : In o (g_ops g) -> classify qcode dcode g o = Some k ->
      (exists e i, k = KIn e i /\ input_op qcode g o e i /\ in_range g i /\ type_at g e (fun t => t = FLOAT32) /\ type_at g i (fun t => t = INT8)) \/
      (exists e i, k = KOut e i /\ output_op dcode g o e i /\ in_range g i /\ type_at g e (fun t => t = FLOAT32) /\ type_at g i (fun t => t = INT8)) \/
      (k = KNone /\ (forall e i, ~ input_op qcode g o e i) /\ (forall e i, ~ output_op dcode g o e i)).
    Proof.
      intros Ho H. unfold classify in H. destruct (is_code o qcode) eqn:Ec.
      - assert (Ed : is_code o dcode = false) by (destruct (is_code o dcode) eqn:E; [exfalso; exact (codes_disjoint o Ec E)|reflexivity]).
        destruct (Uq o Ho Ec) as (x & y & Hx & Hn & Hy). destruct (unary_range qcode g o x y W Ho Hx Hn Hy Uq) as (P1 & P2 & R1 & R2).
        rewrite (first_in_unary qcode o _ (g_in g) x Hx), Ec in H. cbn [andb bind] in H. destruct (mem x (g_in g)) eqn:Em.
        + rewrite Hx, Hy in H. cbn [bind rd Z.ltb Z.compare Z.to_nat nth_error] in H. apply check_types_inv in H; [|lia|lia]. destruct H as (-> & te & ti & H1 & H2 & H3 & H4). left. exists x, y.
          apply mem_In in Em. apply Z.eqb_eq in H3, H4. split; [reflexivity|]. split; [unfold input_op; auto|]. split; [exact R2|]. split; [exists te; auto|exists ti; auto].
        + unfold first_in in H. rewrite Ed in H. cbn [bind] in H. right. right. injection H as <-. split; [reflexivity|]. split.
          * intros e i (_ & _ & E & _ & Hin). apply mem_false in Em. apply Em. congruence.
          * intros e i (_ & E & _). congruence.
      - unfold first_in in H. rewrite Ec in H. cbn [bind] in H. destruct (is_code o dcode) eqn:Ed.
        + destruct (Ud o Ho Ed) as (x & y & Hx & Hn & Hy). destruct (unary_range dcode g o x y W Ho Hx Hn Hy Ud) as (P1 & P2 & R1 & R2).
          rewrite Hx, Hy in H. cbn [rd Z.ltb Z.compare Z.to_nat nth_error bind] in H. destruct (mem y (g_out g)) eqn:Em.
          * cbn [bind rd Z.ltb Z.compare Z.to_nat nth_error] in H. apply check_types_inv in H; [|lia|lia]. destruct H as (-> & te & ti & H1 & H2 & H3 & H4). right. left. exists y, x.
            apply mem_In in Em. apply Z.eqb_eq in H3, H4. split; [reflexivity|]. split; [unfold output_op; auto|]. split; [exact R1|]. split; [exists te; auto|exists ti; auto].
          * right. right. injection H as <-. split; [reflexivity|]. split; [intros e i (_ & E & _); congruence|]. intros e i (_ & _ & _ & E & Hin). apply mem_false in Em. apply Em. congruence.
        + cbn [bind] in H. right. right. injection H as <-. split; [reflexivity|]. split; intros e i (_ & E & _); congruence.
    Qed.

    Lemma modify_struct : exists kinds, phase_ok g kinds /\
      m_graphs m' = set_first (fst (strip g (m_sigs m) kinds)) (m_graphs m) /\ m_sigs m' = snd (strip g (m_sigs m) kinds) /\ m_codes m' = m_codes m /\
      (forall e i o, In (KIn e i, o) (combine kinds (g_ops g)) <-> a = true /\ input_op qcode g o e i) /\
      (forall e i o, In (KOut e i, o) (combine kinds (g_ops g)) <-> b = true /\ output_op dcode g o e i).
    Proof.
      unfold modify_io, readable in Hmod. rewrite Hg in Hmod. cbn [bind] in Hmod. destruct (rd (g_in g) 0); [|discriminate]. cbn [bind] in Hmod.
      destruct (quant_codes m) as [qi di] eqn:Eq.
      assert (Hb : exists kinds0, all_some (map (classify qi di g) (g_ops g)) = Some kinds0 /\
        (let (g', s') := strip g (m_sigs m) (map (wanted a b) kinds0) in Some {| m_codes := m_codes m; m_graphs := set_first g' (m_graphs m); m_sigs := s' |}) = Some m').
      { destruct qi, di; try discriminate; (destruct (all_some (map (classify _ _ g) (g_ops g))) as [k0|]; [|discriminate]; exists k0; split; [reflexivity|exact Hmod]). }
      destruct Hb as (kinds0 & Hk0 & Hm'). destruct (strip g (m_sigs m) (map (wanted a b) kinds0)) as [g' s'] eqn:Es.
      injection Hm' as <-. exists (map (wanted a b) kinds0). rewrite Es. cbn [fst snd m_graphs m_sigs m_codes].
      assert (Hcl : forall o k, In o (g_ops g) -> classify qi di g o = Some k -> _) by (intros o k; pose proof (classify_inv o k) as HH; unfold qcode, dcode in HH; rewrite Eq in HH; exact HH).
      assert (Eqc : qi = qcode) by (unfold qcode; rewrite Eq; reflexivity). assert (Edc : di = dcode) by (unfold dcode; rewrite Eq; reflexivity).
      cbn [fst snd] in Hcl. rewrite Eqc, Edc in *. clear Eq.
      set (f := fun o => option_map (wanted a b) (classify qcode dcode g o)).
      assert (Hk : all_some (map f (g_ops g)) = Some (map (wanted a b) kinds0)).
      { apply all_some_ok. apply all_some_ok in Hk0. unfold f. rewrite <- (map_map (classify qcode dcode g) (option_map (wanted a b))), Hk0, !map_map. reflexivity. }
      set (kinds := map (wanted a b) kinds0) in *. destruct (combine_in f _ _ Hk) as (L & A1 & A2 & A3).
      assert (Hf : forall o k, In o (g_ops g) -> f o = Some k ->
        (exists e i, k = KIn e i /\ a = true /\ input_op qcode g o e i /\ in_range g i /\ type_at g e (fun t => t = FLOAT32) /\ type_at g i (fun t => t = INT8)) \/
        (exists e i, k = KOut e i /\ b = true /\ output_op dcode g o e i /\ in_range g i /\ type_at g e (fun t => t = FLOAT32) /\ type_at g i (fun t => t = INT8)) \/
        (k = KNone /\ (forall e i, ~ (a = true /\ input_op qcode g o e i)) /\ (forall e i, ~ (b = true /\ output_op dcode g o e i)))).
      { intros o k Ho E. unfold f in E. destruct (classify qcode dcode g o) as [k0|] eqn:Ec; [|discriminate]. cbn in E. injection E as <-.
        destruct (Hcl o k0 Ho Ec) as [(e & i & -> & H1 & H2)|[(e & i & -> & H1 & H2)|(-> & H1 & H2)]]; cbn [wanted].
        - destruct a; [left; exists e, i; tauto|]. right. right. split; [reflexivity|]. split; [intros ? ? [? _]; discriminate|].
          intros e' i' [_ (_ & H3 & _)]. destruct H1 as (_ & H1 & _). exact (codes_disjoint o H1 H3).
        - destruct b; [right; left; exists e, i; tauto|]. right. right. split; [reflexivity|]. split; [|intros ? ? [? _]; discriminate].
          intros e' i' [_ (_ & H3 & _)]. destruct H1 as (_ & H1 & _). exact (codes_disjoint o H3 H1).
        - right. right. split; [reflexivity|]. split; intros e i [_ H]; [exact (H1 e i H)|exact (H2 e i H)]. }
      assert (Bi : forall e i o, In (KIn e i, o) (combine kinds (g_ops g)) <-> a = true /\ input_op qcode g o e i).
      { intros e i o. split.
        - intros Hko. destruct (A1 _ _ Hko) as [Ho E]. destruct (Hf o _ Ho E) as [(e' & i' & Ek & H1 & H2 & _)|[(e' & i' & Ek & _)|(Ek & _)]]; try discriminate. injection Ek as <- <-. auto.
        - intros [Ha Hop]. assert (Hop' := Hop). destruct Hop' as (Ho & _ & X1 & X2 & _). destruct (A2 o Ho) as (k & E & Hko).
          destruct (Hf o _ Ho E) as [(e' & i' & -> & _ & (_ & _ & Y1 & Y2 & _) & _)|[(e' & i' & -> & _ & (_ & Y & _) & _)|(-> & H1 & _)]].
          + rewrite X1 in Y1. rewrite X2 in Y2. injection Y1 as <-. injection Y2 as <-. exact Hko.
          + exfalso. destruct Hop as (_ & Hc & _). exact (codes_disjoint o Hc Y).
          + exfalso. exact (H1 e i (conj Ha Hop)). }
      assert (Bo : forall e i o, In (KOut e i, o) (combine kinds (g_ops g)) <-> b = true /\ output_op dcode g o e i).
      { intros e i o. split.
        - intros Hko. destruct (A1 _ _ Hko) as [Ho E]. destruct (Hf o _ Ho E) as [(e' & i' & Ek & _)|[(e' & i' & Ek & H1 & H2 & _)|(Ek & _)]]; try discriminate. injection Ek as <- <-. auto.
        - intros [Hb Hop]. assert (Hop' := Hop). destruct Hop' as (Ho & _ & X1 & X2 & _). destruct (A2 o Ho) as (k & E & Hko).
          destruct (Hf o _ Ho E) as [(e' & i' & -> & _ & (_ & Y & _) & _)|[(e' & i' & -> & _ & (_ & _ & Y1 & Y2 & _) & _)|(-> & _ & H1)]].
          + exfalso. destruct Hop as (_ & Hc & _). exact (codes_disjoint o Y Hc).
          + rewrite X1 in Y1. rewrite X2 in Y2. injection Y1 as <-. injection Y2 as <-. exact Hko.
          + exfalso. exact (H1 e i (conj Hb Hop)). }
      assert (Hrm : forall x, removed kinds x -> type_at g x (fun t => t = FLOAT32) /\
        ((a = true /\ exists o i, input_op qcode g o x i) \/ (b = true /\ exists o i, output_op dcode g o x i))).
      { intros x Hx. apply exts_of_In in Hx. destruct Hx as (i & [Hx|Hx]); destruct (A3 _ Hx) as (o & Ho & E);
        destruct (Hf o _ Ho E) as [(e' & i' & Ek & H1 & H2 & _ & Ht & _)|[(e' & i' & Ek & H1 & H2 & _ & Ht & _)|(Ek & _)]]; try discriminate; injection Ek as <- <-; split; try exact Ht; [left|right]; (split; [exact H1|exists o, i; exact H2]). }
      assert (Hint : forall x, type_at g x (fun t => t = INT8) -> ~ removed kinds x).
      { intros x (t & R1 & T1) Hx. destruct (Hrm x Hx) as [(t2 & R2 & T2) _]. assert (t = t2) by congruence. subst t2. rewrite T1 in T2. discriminate. }
      split; [|split; [reflexivity|split; [reflexivity|split; [reflexivity|split; [exact Bi|exact Bo]]]]].
      constructor.
      - exact L.
      - apply Forall_forall. intros [k o] Hko. destruct (A1 k o Hko) as [Ho E]. unfold kop_shape. cbn [fst snd].
        destruct (Hf o k Ho E) as [(e & i & -> & _ & (_ & _ & H1 & H2 & H3) & H4 & _)|[(e & i & -> & _ & (_ & _ & H1 & H2 & H3) & H4 & _)|(-> & _)]]; auto.
      - intros e i j Hi Hj. destruct (in_combine_ops kinds (g_ops g) _ L Hi) as [o1 O1]. destruct (in_combine_ops kinds (g_ops g) _ L Hj) as [o2 O2].
        apply Bi in O1. apply Bi in O2. destruct O1 as [Ha O1], O2 as [_ O2]. destruct (sole_in Ha o1 e i O1) as [_ Hs].
        destruct O2 as (I2 & _ & J2 & K2 & _). assert (o2 = o1) by (apply Hs; [exact I2|rewrite J2; left; reflexivity]). subst.
        destruct O1 as (_ & _ & _ & K1 & _). congruence.
      - intros e i Hi. destruct (A3 _ Hi) as (o & Ho & E). apply Hint. destruct (Hf o _ Ho E) as [(e' & i' & Ek & _ & _ & _ & _ & Ht)|[(? & ? & ? & _)|(? & _)]]; try discriminate. injection Ek as <- <-. exact Ht.
      - intros e i Hi. destruct (A3 _ Hi) as (o & Ho & E). apply Hint. destruct (Hf o _ Ho E) as [(? & ? & ? & _)|[(e' & i' & Ek & _ & _ & _ & _ & Ht)|(? & _)]]; try discriminate. injection Ek as <- <-. exact Ht.
      - intros e i Hi. destruct (in_combine_ops kinds (g_ops g) _ L Hi) as [o1 O1]. apply Bi in O1. destruct O1 as [Ha O1]. exact (proj1 (sole_in Ha o1 e i O1)).
      - intros o i Hko Hi Hr. destruct (A1 _ _ Hko) as [Ho Ek]. destruct (Hrm i Hr) as [_ [(Ha & o1 & j & O1)|(Hb & o1 & j & O1)]].
        + destruct (sole_in Ha o1 i j O1) as [_ Hs]. assert (o = o1) by (apply Hs; assumption). subst o1.
          destruct (Hf o _ Ho Ek) as [(? & ? & ? & _)|[(? & ? & ? & _)|(_ & Hn & _)]]; try discriminate. exact (Hn i j (conj Ha O1)).
        + exact (sole_out Hb o1 i j o O1 Ho Hi).
    Qed.

    Lemma modify_in_range : exists g', rd (m_graphs m') 0 = Some g' /\ refs_in_range g' /\ same_refs g g'.
    Proof.
      destruct modify_struct as (kinds & P & Eg & _). exists (fst (strip g (m_sigs m) kinds)). split.
      - rewrite Eg. destruct (m_graphs m); [discriminate|reflexivity].
      - apply strip_in_range; assumption.
    Qed.
    Lemma modify_meaning xs ys : eval g xs = Some ys -> exists g' xs' ys', rd (m_graphs m') 0 = Some g' /\ eval g' xs' = Some ys' /\
      zlen xs' = zlen xs /\ zlen ys' = zlen ys /\
      (forall k e, rd (g_in g) k = Some e -> exists x x', rd xs k = Some x /\ rd xs' k = Some x' /\
         (forall o i, a = true -> input_op qcode g o e i -> run1 sem (g_tensors g) o e i x x') /\
         ((a = false \/ forall o i, ~ input_op qcode g o e i) -> x' = x)) /\
      (forall k e, rd (g_out g) k = Some e -> exists y y', rd ys k = Some y /\ rd ys' k = Some y' /\
         (forall o i, b = true -> output_op dcode g o e i -> run1 sem (g_tensors g) o i e y' y) /\
         ((b = false \/ forall o i, ~ output_op dcode g o e i) -> y' = y)).
    Proof.
      intros HE. destruct modify_struct as (kinds & P & Eg & _ & _ & Bi & Bo).
      destruct (strip_meaning sem g (m_sigs m) kinds xs ys W SS P HE) as (xs' & ys' & E & L1 & L2 & Hi & Ho).
      exists (fst (strip g (m_sigs m) kinds)), xs', ys'. split; [|split; [exact E|split; [exact L1|split; [exact L2|split]]]].
      - rewrite Eg. destruct (m_graphs m); [discriminate|reflexivity].
      - intros k e Hk. destruct (Hi k e Hk) as (x & x' & H1 & H2 & H3 & H4). exists x, x'. split; [exact H1|]. split; [exact H2|]. split.
        + intros o i Ha Hop. apply (H3 i o). apply Bi. auto.
        + intros Hn. apply H4. intros i Hx. destruct (in_combine_ops kinds (g_ops g) _ (po_len _ _ P) Hx) as [o Ho']. apply Bi in Ho'. destruct Ho' as [Ha Hop].
          destruct Hn as [Hn|Hn]; [congruence|exact (Hn o i Hop)].
      - intros k e Hk. destruct (Ho k e Hk) as (y & y' & H1 & H2 & H3 & H4). exists y, y'. split; [exact H1|]. split; [exact H2|]. split.
        + intros o i Hb Hop. apply (H3 i o). apply Bo. auto.
        + intros Hn. apply H4. intros i Hx. destruct (in_combine_ops kinds (g_ops g) _ (po_len _ _ P) Hx) as [o Ho']. apply Bo in Ho'. destruct Ho' as [Hb Hop].
          destruct Hn as [Hn|Hn]; [congruence|exact (Hn o i Hop)].
    Qed.
  End Modify.

  (** ** strip_lcedequantize_ops *)
  Lemma lce_codes_ok (m : tfmodel) o : (is_code o (fst (lce_codes m)) = true -> exists c, rd (m_codes m) (o_code o) = Some c /\ c_custom c = "LceDequantize"%string) /\
    (is_code o (snd (lce_codes m)) = true -> has_builtin m o B_DEQUANTIZE).
  Proof.
    unfold lce_codes. destruct (scan _ _ 0 (m_codes m) None None) as [a b] eqn:E.
    assert (G : forall codes idx a b a' b', scan (fun c => String.eqb (c_custom c) "LceDequantize") (fun c => c_builtin c =? B_DEQUANTIZE) idx codes a b = (a', b') ->
      scan (fun c => String.eqb (c_custom c) "LceDequantize") (fun c => negb (String.eqb (c_custom c) "LceDequantize") && (c_builtin c =? B_DEQUANTIZE)) idx codes a b = (a', b')).
    { induction codes as [|c cs IH]; intros idx x y x' y'; cbn [scan]; [tauto|]. destruct (String.eqb (c_custom c) "LceDequantize"); cbn [negb andb].
      - destruct y; [tauto|apply IH].
      - destruct (c_builtin c =? B_DEQUANTIZE); destruct x, y; first [tauto|apply IH]. }
    apply G in E. apply scan_spec in E.
    - destruct E as [Ea Eb]. cbn [fst snd]. unfold is_code, has_builtin. split.
      + destruct Ea as [->|(k & c & -> & H1 & H2)]; [discriminate|]. intros H. apply Z.eqb_eq in H. rewrite H. exists c. split; [exact H1|]. apply String.eqb_eq in H2. exact H2.
      + destruct Eb as [->|(k & c & -> & H1 & H2)]; [discriminate|]. intros H. apply Z.eqb_eq in H. rewrite H. exists c. split; [exact H1|].
        apply andb_true_iff in H2. destruct H2 as [_ H2]. apply Z.eqb_eq in H2. exact H2.
    - intros c H. rewrite H. reflexivity.
  Qed.

  Lemma strip_none (g : graph) sigs ops' : (forall k, In k ops' -> k = KNone) -> length ops' = length (g_ops g) -> strip g sigs ops' = (g, sigs).
  Proof.
    intros H Hl. unfold strip, strip1.
    assert (F : forall f : kind -> bool, f KNone = false -> filter f ops' = []).
    { intros f Hf. clear Hl. induction ops' as [|k l IH]; [reflexivity|]. cbn. rewrite (H k ltac:(left; reflexivity)), Hf. apply IH. intros q Hq. apply H. right. exact Hq. }
    rewrite !F by reflexivity. cbn [app fold_left remove_tensors]. destruct g as [T gi go ops]. cbn [g_tensors g_in g_out g_ops] in *. do 2 f_equal.
    clear F. revert ops Hl. induction ops' as [|k l IH]; intros [|o ops] Hl; try discriminate; [reflexivity|]. rewrite (H k ltac:(left; reflexivity)). cbn.
    f_equal. apply IH; [intros q Hq; apply H; right; exact Hq|]. injection Hl as Hl. exact Hl.
  Qed.
  Definition f1 := Z.eqb FLOAT32. Definition h1 := Z.eqb INT8.
  Definition f2 := fun t => (t =? FLOAT32) || (t =? INT8). Definition h2 := Z.eqb INT32.
  Lemma disj1 t : f1 t = true -> h1 t = true -> False.
  Proof. unfold f1, h1. intros H1 H2. apply Z.eqb_eq in H1, H2. subst. discriminate. Qed.
  Lemma disj2 t : f2 t = true -> h2 t = true -> False.
  Proof. unfold f2, h2. intros H1 H2. apply Z.eqb_eq in H2. subst. discriminate. Qed.
  Lemma strip_lce_phases li di (g : graph) sigs r : strip_lce_subgraph li di g sigs = Some r -> exists kinds1 (g1 : graph) s1 kinds2,
    all_some (map (classify_out di f1 h1 g) (g_ops g)) = Some kinds1 /\ strip g sigs kinds1 = (g1, s1) /\
    all_some (map (classify_out li f2 h2 g1) (g_ops g1)) = Some kinds2 /\ strip g1 s1 kinds2 = r.
  Proof.
    unfold strip_lce_subgraph. fold f1 h1 f2 h2. intros H.
    assert (H' : (let* (g0, sigs0) := match di with None => Some (g, sigs) | Some _ => let* kinds := all_some (map (classify_out di f1 h1 g) (g_ops g)) in Some (strip g sigs kinds) end in
      let* kinds := all_some (map (classify_out li f2 h2 g0) (g_ops g0)) in Some (strip g0 sigs0 kinds)) = Some r) by (destruct li, di; (exact H || discriminate)). clear H.
    destruct di as [d|].
    - destruct (all_some (map (classify_out (Some d) f1 h1 g) (g_ops g))) as [k1|] eqn:E1; [|discriminate]. cbn [bind] in H'.
      destruct (strip g sigs k1) as [g1 s1] eqn:Es. destruct (all_some (map (classify_out li f2 h2 g1) (g_ops g1))) as [k2|] eqn:E2; [|discriminate]. cbn [bind] in H'.
      injection H' as H'. exists k1, g1, s1, k2. auto.
    - cbn [bind] in H'. destruct (all_some (map (classify_out li f2 h2 g) (g_ops g))) as [k2|] eqn:E2; [|discriminate]. cbn [bind] in H'. injection H' as H'.
      exists (map (fun _ => KNone) (g_ops g)), g, sigs, k2. split; [|split; [|auto]].
      + apply all_some_ok. rewrite map_map. reflexivity.
      + apply strip_none; [|apply map_length]. intros k Hk. apply in_map_iff in Hk. destruct Hk as (? & <- & _). reflexivity.
  Qed.

  (** An output phase, described. *)
  Lemma outs_rename f l : outs_of (map (rename_op f) l) = map f (outs_of l).
  Proof. unfold outs_of. induction l as [|o l IH]; [reflexivity|]. cbn. rewrite map_app, IH. reflexivity. Qed.
  Lemma outs_keep_in kinds ops i : In i (outs_of (keep kinds ops)) -> In i (outs_of ops).
  Proof.
    intros H. apply in_flat_map in H. destruct H as (o & Ho & Hi). apply keep_combine in Ho. apply in_flat_map. exists o. split; [exact (in_combine_r _ _ _ _ Ho)|exact Hi].
  Qed.
  Lemma outs_keep_nodup : forall kinds ops, NoDup (outs_of ops) -> NoDup (outs_of (keep kinds ops)).
  Proof.
    assert (App : forall (l1 l2 : list Z), NoDup (l1 ++ l2) -> NoDup l2) by (induction l1 as [|x l1 IH]; intros l2 H; [exact H|]; inversion H; subst; apply IH; assumption).
    induction kinds as [|k l IH]; intros ops H; [constructor|]. destruct ops as [|o ops]; [destruct k; constructor|].
    unfold outs_of in H. cbn [flat_map] in H. destruct k; cbn [keep]; [apply IH; exact (App _ _ H)|apply IH; exact (App _ _ H)|].
    unfold outs_of. cbn [flat_map]. fold (outs_of (keep l ops)).
    assert (G : forall l1, NoDup (l1 ++ outs_of ops) -> NoDup (l1 ++ outs_of (keep l ops))).
    { induction l1 as [|x l1 IH1]; intros Hd; [apply IH; exact Hd|]. inversion Hd as [|? ? Hn Hd']; subst. cbn. constructor; [|exact (IH1 Hd')].
      intros Hx. apply Hn. apply in_app_iff in Hx. apply in_app_iff. destruct Hx as [Hx|Hx]; [left; exact Hx|right; exact (outs_keep_in _ _ _ Hx)]. }
    apply G. exact H.
  Qed.
  Lemma nodup_map_newidx R l : NoDup R -> Forall (fun i => ~ In i R) l -> NoDup l -> NoDup (map (newidx R) l).
  Proof.
    intros HR Hl Hd. induction Hd as [|x l Hn Hd IH]; [constructor|]. inversion Hl as [|? ? Hx Hl']; subst. cbn. constructor; [|exact (IH Hl')].
    intros Hi. apply in_map_iff in Hi. destruct Hi as (y & E & Hy). rewrite Forall_forall in Hl'. apply newidx_inj in E; [|exact HR|exact (Hl' y Hy)|exact Hx]. subst. contradiction.
  Qed.

  Section Lce.
    Variables (li di : option Z) (g : graph) (sigs : list (list Z * list Z)) (g2 : graph) (s2 : list (list Z * list Z)).
    Hypothesis Hrun : strip_lce_subgraph li di g sigs = Some (g2, s2).
    Hypothesis Hcodes : forall o, is_code o li = true -> is_code o di = true -> False.
    Hypothesis W : refs_in_range g.
    Hypothesis SS : ssa g.
    Hypothesis Ul : unary li g.
    Hypothesis Ud : unary di g.
    (** Tensor [c] is what output [e] becomes once its Dequantize, if any, is gone. *)
    Definition source (e c : Z) : Prop := (exists o, output_op di g o e c) \/ (c = e /\ forall o i, ~ output_op di g o e i).
    (** [o] is an LceDequantize from [j] to [c], the source of output [e]. *)
    Definition lce_op (o : oper) (e c j : Z) : Prop :=
      In e (g_out g) /\ source e c /\ In o (g_ops g) /\ is_code o li = true /\ o_in o = [j] /\ o_out o = [c].
    Hypothesis sole_out : forall o e i o', output_op di g o e i -> In o' (g_ops g) -> ~ In e (o_in o').
    Hypothesis sole_lce : forall o e c j o', lce_op o e c j -> In o' (g_ops g) -> In c (o_in o') -> exists e', output_op di g o' e' c.

    Lemma lce_meaning : refs_in_range g2 /\ forall xs ys, eval g xs = Some ys -> exists ys2, eval g2 xs = Some ys2 /\ zlen ys2 = zlen ys /\
      forall k e, rd (g_out g) k = Some e -> exists y ym y2, rd ys k = Some y /\ rd ys2 k = Some y2 /\
        (forall o i, output_op di g o e i -> run1 sem (g_tensors g) o i e ym y) /\ ((forall o i, ~ output_op di g o e i) -> ym = y) /\
        (forall o c j, lce_op o e c j -> run1 sem (g_tensors g) o j c y2 ym) /\ ((forall o c j, ~ lce_op o e c j) -> y2 = ym).
    Proof.
      destruct (strip_lce_phases li di g sigs _ Hrun) as (k1 & g1 & s1 & k2 & C1 & S1 & C2 & S2).
      assert (P1 := out_phase_ok di f1 h1 disj1 g k1 W Ud sole_out C1).
      destruct (out_kinds di f1 h1 disj1 g k1 W Ud C1) as (B1 & B1' & N1 & K1).
      destruct (strip_struct sem g sigs k1 W SS P1) as (ri & ro & R & HR & HRd & HRr & _ & Hri0 & Hro & Hro0 & Hrefs & sg1 & Est).
      rewrite S1 in Est. set (gm := {| g_tensors := _ |}) in *.
      pose proof (remove_tensors_spec gm sg1 R HRd HRr) as Spec. rewrite <- Est in Spec. cbn zeta in Spec. destruct Spec as (Zl & Ht & Ei & Eo & Eops & _).
      destruct Hrefs as (F1 & F2 & F3). cbn [g_tensors g_in g_out g_ops gm] in *. set (n := zlen (g_tensors g)) in *.
      assert (Hw : forall i, strict_ok n R i -> ref_ok n R i) by (intros i H; right; exact H).
      assert (Ei' : g_in g1 = map (newidx R) (g_in g)).
      { rewrite Ei by (eapply Forall_impl; [exact Hw|exact F1]). f_equal. rewrite <- (map_id (g_in g)) at 2. apply map_ext. intros e. apply Hri0. apply N1. }
      assert (Eo' : g_out g1 = map (fun e => newidx R (ro e)) (g_out g)).
      { rewrite Eo by (eapply Forall_impl; [exact Hw|exact F2]). rewrite map_map. reflexivity. }
      assert (Eops' : g_ops g1 = map (rename_op (newidx R)) (keep k1 (g_ops g))).
      { apply Eops. eapply Forall_impl; [|exact F3]. intros o [G1 G2]. split; [exact G1|]. eapply Forall_impl; [exact Hw|exact G2]. }
      clear Ei Eo Eops.
      assert (Hrng : forall i, strict_ok n R i -> in_range g1 (newidx R i)).
      { intros i [H1 H2]. destruct (rd_some (g_tensors g) i H1) as [t Ti]. rewrite <- (Ht i H2) in Ti. exact (rd_bounds _ _ _ Ti). }
      assert (Hneg : newidx R (-1) = -1) by (apply newidx_neg; [intros r Hr; apply HRr; exact Hr|lia]).
      rewrite Forall_forall in F1, F2, F3.
      assert (Hokinv : forall o i, In o (keep k1 (g_ops g)) -> In i (o_in o) -> i = -1 \/ strict_ok n R i).
      { intros o i Ho Hi. destruct (F3 o Ho) as [G1 _]. rewrite Forall_forall in G1. destruct (G1 i Hi) as [->|G]; [left; reflexivity|right; exact G]. }
      assert (Hokout : forall o i, In o (keep k1 (g_ops g)) -> In i (o_out o) -> strict_ok n R i).
      { intros o i Ho Hi. destruct (F3 o Ho) as [_ G]. rewrite Forall_forall in G. exact (G i Hi). }
      assert (W1 : refs_in_range g1).
      { split; [|split].
        - rewrite Ei'. apply Forall_forall. intros x Hx. apply in_map_iff in Hx. destruct Hx as (e & <- & He). apply Hrng.
          assert (In (ri e) (map ri (g_in g))) by (apply in_map; exact He). rewrite (Hri0 e (fun i => N1 e i)) in H. exact (F1 e H).
        - rewrite Eo'. apply Forall_forall. intros x Hx. apply in_map_iff in Hx. destruct Hx as (e & <- & He). apply Hrng. apply F2. apply in_map. exact He.
        - rewrite Eops'. apply Forall_forall. intros x Hx. apply in_map_iff in Hx. destruct Hx as (o & <- & Ho). cbn [rename_op o_in o_out]. split; apply Forall_forall; intros y Hy; apply in_map_iff in Hy; destruct Hy as (i & <- & Hi).
          + destruct (Hokinv o i Ho Hi) as [->|Hs]; [left; exact Hneg|right; exact (Hrng i Hs)].
          + exact (Hrng i (Hokout o i Ho Hi)). }
      assert (HkeepO : forall i, In i (outs_of (keep k1 (g_ops g))) -> strict_ok n R i).
      { intros i Hi. apply in_flat_map in Hi. destruct Hi as (o & Ho & Hi). exact (Hokout o i Ho Hi). }
      assert (HinS : forall e, In e (g_in g) -> strict_ok n R e).
      { intros e He. assert (In (ri e) (map ri (g_in g))) by (apply in_map; exact He). rewrite (Hri0 e (fun i => N1 e i)) in H. exact (F1 e H). }
      assert (SS1 : ssa g1).
      { destruct SS as (D1 & D2 & D3). split; [|split].
        - rewrite Eops', outs_rename. apply nodup_map_newidx; [exact HRd| |apply outs_keep_nodup; exact D1]. apply Forall_forall. intros i Hi. apply (HkeepO i Hi).
        - rewrite Ei'. apply nodup_map_newidx; [exact HRd| |exact D2]. apply Forall_forall. intros i Hi. apply (HinS i Hi).
        - rewrite Eops', outs_rename. intros x Hx. apply in_map_iff in Hx. destruct Hx as (i & <- & Hi). destruct (D3 i (outs_keep_in _ _ _ Hi)) as [E1 E2]. split.
          + rewrite Ei'. intros Hx. apply in_map_iff in Hx. destruct Hx as (e & E & He). apply newidx_inj in E; [|exact HRd|apply (HinS e He)|apply (HkeepO i Hi)]. subst. contradiction.
          + unfold consts in *. rewrite Ht by apply (HkeepO i Hi). exact E2. }
      assert (Hkeep_ex : forall o, In o (g_ops g) -> is_code o li = true -> In o (keep k1 (g_ops g))).
      { intros o Ho Hc. assert (Hn : In (KNone, o) (combine k1 (g_ops g))).
        { apply K1. split; [exact Ho|]. intros e i (_ & Hd & _). exact (Hcodes o Hc Hd). }
        clear - Hn. revert Hn. generalize (g_ops g) as ops. induction k1 as [|k l IH]; intros ops Hn; [destruct Hn|]. destruct ops as [|q ops]; [destruct Hn|].
        destruct Hn as [E|Hn]; [injection E as -> ->; left; reflexivity|]. destruct k; cbn [keep]; [exact (IH ops Hn)|exact (IH ops Hn)|right; exact (IH ops Hn)]. }
      assert (Ul1 : unary li g1).
      { intros o1 Ho1 Hc. rewrite Eops' in Ho1. apply in_map_iff in Ho1. destruct Ho1 as (o & <- & Ho). pose proof (in_combine_r _ _ _ _ (keep_combine _ _ _ Ho)) as Hoo.
        destruct (Ul o Hoo Hc) as (x & y & Hx & Hn & Hy). exists (newidx R x), (newidx R y). cbn [rename_op o_in o_out]. rewrite Hx, Hy. split; [reflexivity|]. split; [|reflexivity].
        destruct (Hokinv o x Ho ltac:(rewrite Hx; left; reflexivity)) as [->|Hs]; [contradiction|]. pose proof (Hrng x Hs) as Hr. unfold in_range in Hr. lia. }
      (* LceDequantize operators of g1 are those of the original graph *)
      assert (Hsrc : forall e c, In e (g_out g) -> source e c -> ro e = c).
      { intros e c He [(o & Hop)|(-> & Hn)]; [apply Hro; apply B1'; exists o; exact Hop|]. apply Hro0. intros i Hi. apply B1' in Hi. destruct Hi as [o Hop]. exact (Hn o i Hop). }
      assert (Hsrc2 : forall e, source e (ro e)).
      { intros e. destruct (kout_dec k1 e) as [[i Hi]|Hn].
        - rewrite (Hro e i Hi). left. apply B1'. exact Hi.
        - rewrite (Hro0 e Hn). right. split; [reflexivity|]. intros o i Hop. apply (Hn i). apply B1'. exists o. exact Hop. }
      assert (Hlce : forall o e c j, lce_op o e c j -> ro e = c /\ strict_ok n R c /\ strict_ok n R j /\ In o (keep k1 (g_ops g)) /\
         output_op li g1 (rename_op (newidx R) o) (newidx R c) (newidx R j)).
      { intros o e c j (He & Hs & Ho & Hc & Hj & Hcc). assert (Ek := Hkeep_ex o Ho Hc). assert (Er := Hsrc e c He Hs).
        split; [exact Er|]. assert (Hcs : strict_ok n R c) by (apply (Hokout o c Ek); rewrite Hcc; left; reflexivity).
        assert (Hjs : strict_ok n R j).
        { destruct (Hokinv o j Ek ltac:(rewrite Hj; left; reflexivity)) as [->|Hsj]; [|exact Hsj]. destruct (Ul o Ho Hc) as (x & y & Hx & Hn & _). congruence. }
        split; [exact Hcs|]. split; [exact Hjs|]. split; [exact Ek|]. unfold output_op. split; [rewrite Eops'; apply in_map; exact Ek|].
        split; [exact Hc|]. cbn [rename_op o_in o_out]. rewrite Hj, Hcc. split; [reflexivity|]. split; [reflexivity|]. rewrite Eo'. apply in_map_iff. exists e. rewrite Er. auto. }
      assert (Hlce_inv : forall o1 x j1, output_op li g1 o1 x j1 -> forall e, In e (g_out g) -> newidx R (ro e) = x -> exists o c j, o1 = rename_op (newidx R) o /\ lce_op o e c j /\ x = newidx R c /\ j1 = newidx R j).
      { intros o1 x j1 (Ho1 & Hc & Hj & Hx & _) e He Ex. rewrite Eops' in Ho1. apply in_map_iff in Ho1. destruct Ho1 as (o & <- & Ho).
        pose proof (in_combine_r _ _ _ _ (keep_combine _ _ _ Ho)) as Hoo. destruct (Ul o Hoo Hc) as (a & b & Ha & Hn & Hb). cbn [rename_op o_in o_out] in Hj, Hx. rewrite Ha in Hj. rewrite Hb in Hx.
        injection Hj as <-. injection Hx as <-. exists o, b, a. split; [reflexivity|]. split; [|auto]. unfold lce_op.
        assert (Eb : ro e = b).
        { apply newidx_inj in Ex; [exact Ex|exact HRd| |]; [apply F2; apply in_map; exact He|apply (Hokout o b Ho); rewrite Hb; left; reflexivity]. }
        split; [exact He|]. split; [rewrite <- Eb; apply Hsrc2|]. auto. }
      assert (sole1 : forall o1 x j1 o', output_op li g1 o1 x j1 -> In o' (g_ops g1) -> ~ In x (o_in o')).
      { intros o1 x j1 o' Hop Ho' Hx. assert (Hout : In x (g_out g1)) by apply Hop. rewrite Eo' in Hout. apply in_map_iff in Hout. destruct Hout as (e & Ex & He).
        destruct (Hlce_inv o1 x j1 Hop e He Ex) as (o & c & j & -> & Hl & -> & ->). destruct (Hlce o e c j Hl) as (Er & Hcs & _).
        rewrite Eops' in Ho'. apply in_map_iff in Ho'. destruct Ho' as (q & <- & Hq). cbn [rename_op o_in] in Hx. apply in_map_iff in Hx. destruct Hx as (i & Ei & Hi).
        assert (i = c).
        { destruct (Hokinv q i Hq Hi) as [->|Hs]; [|apply newidx_inj in Ei; [exact Ei|exact HRd|apply Hs|apply Hcs]].
          exfalso. rewrite Hneg in Ei. pose proof (Hrng c Hcs) as Hr. unfold in_range in Hr. lia. }
        subst i. pose proof (keep_combine _ _ _ Hq) as Hqn. apply K1 in Hqn. destruct Hqn as [Hqq Hqn]. destruct (sole_lce o e c j q Hl Hqq Hi) as [e' He']. exact (Hqn _ _ He'). }
      (* two applications of strip_meaning *)
      assert (P2 := out_phase_ok li f2 h2 disj2 g1 k2 W1 Ul1 sole1 C2).
      destruct (out_kinds li f2 h2 disj2 g1 k2 W1 Ul1 C2) as (B2 & B2' & N2 & _).
      split; [pose proof (proj1 (strip_in_range g1 s1 k2 W1 SS1 P2)) as Hrange; rewrite S2 in Hrange; exact Hrange|].
      intros xs ys HE. destruct (strip_meaning sem g sigs k1 xs ys W SS P1 HE) as (xs1 & ys1 & E1 & L1 & L1' & I1 & O1). rewrite S1 in E1. cbn [fst] in E1.
      destruct (strip_meaning sem g1 s1 k2 xs1 ys1 W1 SS1 P2 E1) as (xs2 & ys2 & E2 & L2 & L2' & I2 & O2). rewrite S2 in E2. cbn [fst] in E2.
      assert (Hlx : zlen xs = zlen (g_in g)).
      { unfold GraphUtil.eval in HE. destruct (Z.eqb_spec (zlen xs) (zlen (g_in g))); [assumption|discriminate]. }
      assert (X1 : xs1 = xs).
      { apply rd_ext; [exact L1|]. intros k Hk. destruct (rd_some (g_in g) k ltac:(lia)) as [e Hke].
        destruct (I1 k e Hke) as (x & x' & Hx & Hx' & _ & Hn). rewrite Hx, Hx', (Hn (fun i => N1 e i)). reflexivity. }
      assert (X2 : xs2 = xs1).
      { apply rd_ext; [exact L2|]. intros k Hk. assert (Hl1 : zlen (g_in g1) = zlen (g_in g)) by (rewrite Ei'; unfold zlen; rewrite map_length; reflexivity).
        destruct (rd_some (g_in g1) k ltac:(lia)) as [e Hke].
        destruct (I2 k e Hke) as (x & x' & Hx & Hx' & _ & Hn). rewrite Hx, Hx', (Hn (fun i => N2 e i)). reflexivity. }
      subst xs2 xs1. exists ys2. split; [exact E2|]. split; [lia|].
      intros k e Hke. destruct (O1 k e Hke) as (y & ym & Hy & Hym & A1 & A2).
      assert (Hke1 : rd (g_out g1) k = Some (newidx R (ro e))) by (rewrite Eo', rd_map, Hke; reflexivity).
      destruct (O2 k _ Hke1) as (ym' & y2 & Hym' & Hy2 & A3 & A4). assert (ym' = ym) by congruence. subst ym'.
      exists y, ym, y2. split; [exact Hy|]. split; [exact Hy2|]. split; [|split; [|split]].
      - intros o i Hop. apply (A1 i o). apply B1. exact Hop.
      - intros Hn. apply A2. intros i Hi. apply B1' in Hi. destruct Hi as [o Ho]. exact (Hn o i Ho).
      - intros o c j Hl. destruct (Hlce o e c j Hl) as (Er & Hcs & Hjs & Hk & Hop). apply B2 in Hop. rewrite <- Er in Hop.
        specialize (A3 _ _ Hop). destruct A3 as (ta & tb & Ra & Rb & Hs). rewrite Er in Rb. rewrite Ht in Ra by apply Hjs. rewrite Ht in Rb by apply Hcs.
        exists ta, tb. auto.
      - intros Hn. apply A4. intros i Hi. apply B2' in Hi. destruct Hi as [o1 Ho1]. destruct (Hlce_inv o1 _ i Ho1 e (rd_in _ _ _ Hke) eq_refl) as (o & c & j & _ & Hl & _). exact (Hn o c j Hl).
    Qed.
  End Lce.
End Top.
