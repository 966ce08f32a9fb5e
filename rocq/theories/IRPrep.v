(** * IRPrep: the patterns of the prepare pass (mlir/transforms/prepare_tf.cc,
    prepare_patterns_common.td, prepare_patterns_target_arm.td,
    op_removal_patterns.td) as rewriting of programs, and what each pattern does to
    the values. *)
From Coq Require Import QArith Qabs Lqa.
From Verif Require Import Base Spec Padding Threshold FusePad ConvBinary Prepare IR IRProofs IRRules IRTf.
Open Scope Z_scope.

(** prepare_tf.cc 66-90 IsBinaryFilter, HWIO filter (constants as in ConvBinary). *)
Definition rng (n : Z) : list Z := build n (fun k => k).
Definition is_binary (F : tensor Q) : bool :=
  match sh F with
  | [Co; ci; KW; KH] =>
      forallb (fun h => forallb (fun w => forallb (fun i => forallb (fun o =>
        let scale := at_ F [o; 0; 0; 0] in
        let value := at_ F [o; i; w; h] in
        negb (Qle_bool (Qabs scale) eps32) && Qle_bool (Qabs (Qabs (value / scale) - 1)) tol32)
      (rng Co)) (rng ci)) (rng KW)) (rng KH)
  | _ => false
  end.
(** 48-64 GetScaleVector, 39-46 GetConstantVector 0 *)
Definition scale_vec (F : tensor Q) : tensor Q :=
  mkT [hwio_out (sh F)] (fun i => match i with [o] => Qabs (at_ F [o; 0; 0; 0]) | _ => 0%Q end).
Definition zero_vec (F : tensor Q) : tensor Q := mkT [hwio_out (sh F)] (fun _ => 0%Q).
(** 126-152 HasValidFilterShape *)
Definition valid_filter (C : Z) (F : tensor Q) : bool :=
  match sh F with
  | [_; ci; _; _] => (C mod ci =? 0) && (negb (1 <? C / ci) || (ci mod 32 =? 0))
  | _ => false
  end.
(** 92-120 IsSamePadding on shapes (innermost first) and the paddings operand *)
Definition same_padding (p : tensor Z) (si so : list Z) (c : tcattr) : bool :=
  match sh p, si, so with
  | [2; 4], [_; W; H; _], [_; ow; oh; _] =>
      IsSamePadding (at_ p [0; 0], at_ p [1; 0]) (at_ p [0; 1], at_ p [1; 1]) (at_ p [0; 2], at_ p [1; 2])
                    (at_ p [0; 3], at_ p [1; 3]) H W oh ow (tc_sh c) (tc_sw c)
  | _, _, _ => false
  end.
Definition battr (C : Z) (k : tcattr) (padv : Z) (pad : padding) : cattr :=
  {| ca_cin := C; ca_dh := tc_dh k; ca_dw := tc_dw k; ca_act := ActNone; ca_padv := padv; ca_pad := pad;
     ca_sh := tc_sh k; ca_sw := tc_sw k |}.
Definition weights (F : tensor Q) (f1 f2 f3 f4 f5 f6 f7 : nat) : list instr :=
  [(f1, OConst (VF F), []); (f2, OConst (VF (scale_vec F)), []); (f3, OBin Div ActNone, [f1; f2]);
   (f4, tf_transpose3012, [f3]); (f5, OConst (VF (scale_vec F)), []); (f6, OConst (VF (zero_vec F)), []); (f7, ONone, [])].

(** [prule arm T D r root news root']: operation [root], with result [r], is
    replaced by [root'] after inserting [news]. [T]: the static shapes. *)
Section Rules.
  Variable arm : bool.
  Variable T : nat -> list Z.
  Variable D : nat -> option (op * list nat).
  Inductive prule : nat -> op * list nat -> list instr -> op * list nat -> Prop :=
  (* prepare_patterns_common.td 27-40; tf.Shape of the result is its static shape *)
  | P_select v1 r c x y tx ty f1 f2 :
      D x = Some (OConst (VF tx), []) -> is_constant tx 1 = true ->
      D y = Some (OConst (VF ty), []) -> is_constant ty (- (1)) = true ->
      prule r (tf_select v1, [c; x; y]) [(f1, tf_broadcast_to (T r), [c]); (f2, OQuant, [f1])] (ODequant, [f2])
  (* 41-53 *)
  | P_select_not v1 r c x y tx ty f0 f1 f2 :
      D x = Some (OConst (VF tx), []) -> is_constant tx (- (1)) = true ->
      D y = Some (OConst (VF ty), []) -> is_constant ty 1 = true ->
      prule r (tf_select v1, [c; x; y]) [(f0, tf_not, [c]); (f1, tf_broadcast_to (T r), [f0]); (f2, OQuant, [f1])] (ODequant, [f2])
  (* 60-63 *)
  | P_sign r a b c x f1 :
      D a = Some (OBin Add ActNone, [b; c]) \/ D a = Some (OBin Add ActNone, [c; b]) ->
      D b = Some (tf_sign, [x]) ->
      prule r (tf_sign, [a]) [(f1, OQuant, [x])] (ODequant, [f1])
  (* 95-130, prepare_patterns_target_arm.td 4 *)
  | P_conv k r d i f F f1 f2 f3 f4 f5 f6 f7 :
      D d = Some (ODequant, [i]) -> D f = Some (OConst (VF F), []) ->
      is_binary F = true -> valid_filter (hd 0 (T d)) F = true ->
      (tc_pad k = PadValid \/ arm = true /\ tc_pad k = PadSame) ->
      prule r (tf_conv2d k, [d; f]) (weights F f1 f2 f3 f4 f5 f6 f7)
        (OConv (battr (hd 0 (T d)) k 0 (tc_pad k)), [i; f4; f5; f6; f7])
  (* 139-178 *)
  | P_convpad k r d x i pd pv tp tv f F f1 f2 f3 f4 f5 f6 f7 :
      D d = Some (tf_pad, [x; pd; pv]) -> D x = Some (ODequant, [i]) ->
      D pd = Some (OConst (VInt tp), []) -> D pv = Some (OConst (VF tv), []) ->
      D f = Some (OConst (VF F), []) ->
      is_binary F = true -> (numel (sh tv) =? 1) && Qeq_bool (flat tv 0) 1 = true ->
      same_padding tp (T i) (T r) k = true -> valid_filter (hd 0 (T x)) F = true ->
      tc_pad k = PadValid ->
      prule r (tf_conv2d k, [d; f]) (weights F f1 f2 f3 f4 f5 f6 f7)
        (OConv (battr (hd 0 (T x)) k 1 PadSame), [i; f4; f5; f6; f7]).
End Rules.

(** ** What the patterns do to values *)
Lemma bsh_refl s : bsh s s = Some s.
Proof. induction s as [|d s IH]; [reflexivity|]. cbn. rewrite IH, Z.eqb_refl. reflexivity. Qed.
Lemma bsh_absorb s : forall t r, bsh s t = Some r -> bsh s r = Some r.
Proof.
  induction s as [|d s IH]; intros t r H; [reflexivity|]. destruct t as [|e t].
  - cbn in H. injection H as <-. apply bsh_refl.
  - cbn [bsh] in H. destruct (bsh s t) as [u|] eqn:E; [|discriminate]. specialize (IH t u E).
    destruct (Z.eqb_spec d e) as [->|]; [injection H as <-; cbn; rewrite IH, Z.eqb_refl; reflexivity|].
    destruct (Z.eqb_spec e 1) as [->|]; [injection H as <-; cbn; rewrite IH, Z.eqb_refl; reflexivity|].
    destruct (Z.eqb_spec d 1) as [->|]; [|discriminate]. injection H as <-. cbn [bsh]. rewrite IH.
    destruct (Z.eqb_spec 1 e); [congruence|]. destruct (Z.eqb_spec e 1); [congruence|]. reflexivity.
Qed.
Lemma bsh_to_true s t : bsh s t = Some t -> bsh_to s t = true.
Proof. intros H. unfold bsh_to. rewrite H. destruct (list_eq_dec Z.eq_dec t t); congruence. Qed.
Lemma bix_nil i : bix [] i = [].
Proof. destruct i; reflexivity. Qed.

(** What a select with constant branches [a], [b] is: [a] or [b] by the
    condition, which broadcasts to the result's shape. *)
Lemma select_const v1 c x y u a b :
  select_sem v1 c x y = Some u -> is_constant x a = true -> is_constant y b = true ->
  (v1 = true -> sh c = sh x \/ sh c = []) ->
  bsh (sh c) (sh u) = Some (sh u) /\
  forall i, in_range (sh u) i -> (at_ u i == if at_ c (bix (sh c) i) then a else b)%Q.
Proof.
  intros H Ha Hb Hc. unfold select_sem in H.
  assert (SL : forall (t : bool) (p q : Q), (p == a)%Q -> (q == b)%Q -> (sel t p q == if t then a else b)%Q) by (intros [|] p q Hp Hq; assumption).
  destruct v1.
  - specialize (Hc eq_refl). destruct (list_eq_dec Z.eq_dec (sh x) (sh y)) as [Exy|]; [|discriminate].
    destruct (list_eq_dec Z.eq_dec (sh c) (sh x)) as [Ecx|Ncx].
    + injection H as <-. cbn [sh at_]. rewrite Ecx. split; [apply bsh_refl|]. intros i Hi. rewrite bix_same by exact Hi.
      apply SL; [eapply is_constant_ok; eassumption|eapply is_constant_ok; [eassumption|rewrite <- Exy; exact Hi]].
    + destruct Hc as [Hc|Hc]; [contradiction|]. rewrite Hc in *. injection H as <-. cbn [sh at_]. split; [reflexivity|].
      intros i Hi. rewrite bix_nil.
      apply SL; [eapply is_constant_ok; eassumption|eapply is_constant_ok; [eassumption|rewrite <- Exy; exact Hi]].
  - destruct (bsh (sh x) (sh y)) as [s|] eqn:Es; [|discriminate]. destruct (bsh (sh c) s) as [r|] eqn:Er; [|discriminate].
    injection H as <-. cbn [sh at_]. split; [eapply bsh_absorb, Er|]. intros i Hi. assert (Ki := bsh_r _ _ _ _ Er Hi).
    apply SL; eapply is_constant_ok; try eassumption; [eapply bsh_l|eapply bsh_r]; eassumption.
Qed.

Lemma select_quant v1 c x y v : select_fun v1 [VBool c; VF x; VF y] = Some v ->
  is_constant x 1 = true -> is_constant y (- (1)) = true -> (v1 = true -> sh c = sh x \/ sh c = []) ->
  exists b q w, broadcast_fun (vshape v) [VBool c] = Some b /\ denote OQuant [b] = Some q /\ denote ODequant [q] = Some w /\ veq v w.
Proof.
  intros H Hx Hy Hc. cbn [select_fun] in H. apply option_map_some in H. destruct H as (u & H & ->).
  destruct (select_const _ _ _ _ _ _ _ H Hx Hy Hc) as [Hb Hv]. cbn [vshape broadcast_fun].
  rewrite bsh_to_true by exact Hb. do 3 eexists. split; [reflexivity|]. split; [reflexivity|]. split; [reflexivity|].
  cbn. split; [reflexivity|]. intros i Hi. rewrite (Hv i Hi). unfold tmap. cbn [at_]. destruct (at_ c (bix (sh c) i)); reflexivity.
Qed.
Lemma select_quant_not v1 c x y v : select_fun v1 [VBool c; VF x; VF y] = Some v ->
  is_constant x (- (1)) = true -> is_constant y 1 = true -> (v1 = true -> sh c = sh x \/ sh c = []) ->
  exists n b q w, not_fun [VBool c] = Some n /\ broadcast_fun (vshape v) [n] = Some b /\
    denote OQuant [b] = Some q /\ denote ODequant [q] = Some w /\ veq v w.
Proof.
  intros H Hx Hy Hc. cbn [select_fun] in H. apply option_map_some in H. destruct H as (u & H & ->).
  destruct (select_const _ _ _ _ _ _ _ H Hx Hy Hc) as [Hb Hv]. eexists. cbn [vshape not_fun].
  do 3 eexists. split; [reflexivity|]. cbn [broadcast_fun sh tmap]. rewrite bsh_to_true by exact Hb.
  split; [reflexivity|]. split; [reflexivity|]. split; [reflexivity|].
  cbn. split; [reflexivity|]. intros i Hi. rewrite (Hv i Hi). unfold tmap. cbn [at_]. destruct (at_ c (bix (sh c) i)); reflexivity.
Qed.

Lemma Qlt_bool_spec x y : reflect (x < y)%Q (Qlt_bool x y).
Proof.
  unfold Qlt_bool. destruct (Qle_bool y x) eqn:E; constructor.
  - apply Qle_bool_iff in E. apply Qle_not_lt, E.
  - apply Qnot_le_lt. intros C. apply Qle_bool_iff in C. congruence.
Qed.
Lemma sign_shift x c : (0 < c)%Q -> (c < 1)%Q -> (signQ (signQ x + c) == inject_Z (pm (Qlt_bool x 0)))%Q.
Proof.
  intros H0 H1. unfold signQ at 2. destruct (Qlt_bool_spec 0 x) as [A|A], (Qlt_bool_spec x 0) as [B|B]; unfold signQ.
  - exfalso. lra.
  - destruct (Qlt_bool_spec 0 (1 + c)) as [_|C]; [reflexivity|]. exfalso. lra.
  - destruct (Qlt_bool_spec 0 (- (1) + c)) as [C|_]; [exfalso; lra|].
    destruct (Qlt_bool_spec (- (1) + c) 0) as [_|C]; [reflexivity|]. exfalso. lra.
  - destruct (Qlt_bool_spec 0 (0 + c)) as [_|C]; [reflexivity|]. exfalso. lra.
Qed.
Lemma sign_quant x ts tc (b : bool) v : (forall i, in_range (sh tc) i -> 0 < at_ tc i /\ at_ tc i < 1)%Q ->
  bsh (sh x) (sh tc) = Some (sh x) -> ts = tmap signQ x ->
  (exists s, denote (OBin Add ActNone) (if b then [VF ts; VF tc] else [VF tc; VF ts]) = Some s /\ sign_fun [s] = Some v) ->
  exists q w, denote OQuant [VF x] = Some q /\ denote ODequant [q] = Some w /\ veq v w.
Proof.
  intros Hc Hs -> (s & H1 & H2). do 2 eexists. split; [reflexivity|]. split; [reflexivity|].
  destruct b; cbn [denote] in H1; unfold bmap2 in H1; cbn [sh tmap] in H1; [|rewrite (bsh_comm (sh tc)) in H1];
  rewrite Hs in H1; cbn [option_map] in H1; injection H1 as <-; cbn [sign_fun] in H2; injection H2 as <-;
  (split; [reflexivity|]); cbn [sh at_ tmap]; intros i Hi; rewrite (bix_same (sh x)) by exact Hi;
  destruct (Hc _ (bsh_r _ _ _ _ Hs Hi)) as [C1 C2]; cbn [actQ bin].
  - apply sign_shift; assumption.
  - rewrite <- (sign_shift (at_ x i) _ C1 C2). unfold signQ at 1 3.
    rewrite (Qlt_bool_comp _ _ (Qeq_refl 0%Q) _ _ (Qplus_comm _ (signQ (at_ x i)))), (Qlt_bool_comp _ _ (Qplus_comm _ (signQ (at_ x i))) _ _ (Qeq_refl 0%Q)). reflexivity.
Qed.

(** *** Convolutions *)
Lemma sumQ_scale n s f h : (forall i, 0 <= i < n -> (f i == s * inject_Z (h i))%Q) -> (sumQ n f == s * inject_Z (sum_ n h))%Q.
Proof.
  intros H. unfold sumQ, sum_. assert (G : forall i, 0 <= i < Z.of_nat (Z.to_nat n) -> (f i == s * inject_Z (h i))%Q) by (intros; apply H; lia).
  clear H. revert G. generalize (Z.to_nat n) as k. induction k as [|k IH]; intros G.
  - cbn. ring.
  - cbn [sumnQ sumn]. rewrite IH by (intros; apply G; lia). rewrite G by lia. rewrite inject_Z_plus. ring.
Qed.
Lemma convq_conv g g' padv I Iz F Fz s b y x o :
  gKH g = gKH g' -> gKW g = gKW g' -> gCI g = gCI g' -> gCO g = gCO g' ->
  (forall fy fx c, 0 <= fy < gKH g -> 0 <= fx < gKW g -> 0 <= c < gCI g ->
    (tap g 0 I b y x fy fx (o / gCO g * gCI g + c)%Z == inject_Z (tap g' padv Iz b y x fy fx (o / gCO g * gCI g + c)%Z))%Q /\
    (F o fy fx c == s * inject_Z (Fz o fy fx c))%Q) ->
  (convq g I F b y x o == s * inject_Z (conv g' padv Iz Fz b y x o))%Q.
Proof.
  intros E1 E2 E3 E4 H. rewrite conv_tap. unfold convq. rewrite <- E1, <- E2, <- E3, <- E4.
  apply sumQ_scale. intros fy Hfy. apply sumQ_scale. intros fx Hfx. apply sumQ_scale. intros c Hc.
  destruct (H fy fx c Hfy Hfx Hc) as [H1 H2]. rewrite H1, H2, inject_Z_mult. ring.
Qed.

(** Every entry is + or - the first entry of its channel. *)
Definition exact_filter (F : tensor Q) : Prop :=
  forall o k x y, in_range (sh F) [o; k; x; y] -> (Qabs (at_ F [o; k; x; y]%Z) == Qabs (at_ F [o; 0; 0; 0]%Z))%Q.
Lemma In_rng n k : 0 <= k < n -> In k (rng n).
Proof. intros H. unfold rng, build. apply in_map_iff. exists (Z.to_nat k). split; [lia|]. apply in_seq. lia. Qed.
Lemma binary_scale Co ci KW KH F o : sh F = [Co; ci; KW; KH] -> is_binary F = true -> 0 < ci -> 0 < KW -> 0 < KH -> 0 <= o < Co ->
  (0 < Qabs (at_ F [o; 0; 0; 0]%Z))%Q.
Proof.
  intros Hs H H1 H2 H3 Ho. unfold is_binary in H. rewrite Hs in H.
  rewrite forallb_forall in H. specialize (H 0 (In_rng KH 0 ltac:(lia))).
  rewrite forallb_forall in H. specialize (H 0 (In_rng KW 0 ltac:(lia))).
  rewrite forallb_forall in H. specialize (H 0 (In_rng ci 0 ltac:(lia))).
  rewrite forallb_forall in H. specialize (H o (In_rng Co o ltac:(lia))).
  apply andb_true_iff in H. destruct H as [H _]. apply negb_true_iff in H.
  apply Qlt_trans with eps32; [reflexivity|]. apply Qnot_le_lt. intros C. apply Qle_bool_iff in C. congruence.
Qed.
Lemma pm_scale v s : (0 < s)%Q -> (Qabs v == s)%Q -> (v == s * inject_Z (pm (Qlt_bool (v / s) 0)))%Q.
Proof.
  intros Hs Hv. assert (E : (v == v / s * s)%Q) by (field; lra).
  assert (K : (Qabs v == v \/ Qabs v == - v)%Q).
  { destruct (Qlt_le_dec v 0) as [L|L]; [right; apply Qabs_neg; lra|left; apply Qabs_pos; lra]. }
  destruct (Qlt_bool_spec (v / s) 0) as [L|L]; cbn [pm].
  - assert (Hneg : (v < 0)%Q).
    { rewrite E. setoid_replace 0%Q with (0 * s)%Q by ring. apply Qmult_lt_r; assumption. }
    rewrite Qabs_neg in Hv by lra. change (inject_Z (-1)) with (- (1))%Q. lra.
  - assert (Hpos : (0 <= v)%Q).
    { rewrite E. setoid_replace 0%Q with (0 * s)%Q by ring. apply Qmult_le_r; [exact Hs|]. apply Qnot_lt_le. exact L. }
    rewrite Qabs_pos in Hv by lra. change (inject_Z 1) with 1%Q. lra.
Qed.

Lemma weights_val F Co ci KW KH : sh F = [Co; ci; KW; KH] -> exists tv tt,
  denote (OBin Div ActNone) [VF F; VF (scale_vec F)] = Some (VF tv) /\ transpose_fun [VF tv] = Some (VF tt) /\
  sh tt = [ci; KW; KH; Co] /\
  forall o k x y, 0 <= o < Co -> 0 <= k < ci -> 0 <= x < KW -> 0 <= y < KH ->
    (at_ tt [k; x; y; o] == at_ F [o; k; x; y] / Qabs (at_ F [o; 0; 0; 0]%Z))%Q.
Proof.
  intros Hs. cbn [denote]. unfold bmap2, scale_vec. cbn [sh at_]. rewrite Hs. cbn [hwio_out bsh]. rewrite Z.eqb_refl. cbn [option_map].
  eexists. eexists. split; [reflexivity|]. cbn [transpose_fun sh at_]. split; [reflexivity|]. split; [reflexivity|]. cbn [at_].
  intros o k x y Ho Hk Hx Hy. cbn [bix actQ bin]. rewrite !if1 by assumption. reflexivity.
Qed.

Lemma recognise k t F ti c g g' Co ci KW KH :
  tf_geom k (sh t) (sh F) = Some g -> sh F = [Co; ci; KW; KH] -> bc_geom c (sh ti) [ci; KW; KH; Co] = Some g' ->
  gKH g = gKH g' /\ gKW g = gKW g' /\ gCI g = gCI g' /\ gCO g = gCO g' /\ gOW g = gOW g' /\ gOH g = gOH g' /\ gB g = gB g' ->
  is_binary F = true -> exact_filter F -> ca_act c = ActNone -> pad_ok c true = true ->
  (forall n y x o fy fx ch, 0 <= n < gB g -> 0 <= y < gOH g -> 0 <= x < gOW g -> 0 <= o < Co ->
     0 <= fy < gKH g -> 0 <= fx < gKW g -> 0 <= ch < gCI g ->
     (tap g 0 (fun n y x k => at_ t [k; x; y; n]) n y x fy fx (o / gCO g * gCI g + ch)%Z ==
      inject_Z (tap g' (pad_pixel c) (fun b y x k => pm (at_ ti [k; x; y; b])) n y x fy fx (o / gCO g * gCI g + ch)%Z))%Q) ->
  forall v, conv_fun k [VF t; VF F] = Some v ->
  exists tv tt w, denote (OBin Div ActNone) [VF F; VF (scale_vec F)] = Some (VF tv) /\ transpose_fun [VF tv] = Some (VF tt) /\
    denote (OConv c) [VBits ti; VF tt; VF (scale_vec F); VF (zero_vec F); VNone] = Some w /\ veq v w.
Proof.
  intros Hg Hs Hg' (E1 & E2 & E3 & E4 & E5 & E6 & E7) HB HX HA HP HT v Hv.
  destruct (weights_val F Co ci KW KH Hs) as (tv & tt & W1 & W2 & W3 & W4). exists tv, tt.
  destruct (tf_geom_inv _ _ _ _ Hg) as (C & W & H & N & ci' & KW' & KH' & Co' & Es & Ef & HC & Hci & HKW & HKH & DC & HG & DCo & _ & _ & _ & _ & Gg).
  rewrite Hs in Ef. injection Ef as <- <- <- <-.
  eexists. split; [exact W1|]. split; [exact W2|]. cbn [denote]. split.
  { apply (bc_float_mk c ti tt _ _ g' Co); [rewrite W3; exact Hg'|rewrite W3; reflexivity|unfold scale_vec; cbn [sh]; rewrite Hs; reflexivity|
      unfold zero_vec; cbn [sh]; rewrite Hs; reflexivity|exact HP]. }
  cbn [conv_fun] in Hv. unfold conv_sem in Hv. rewrite Hg in Hv. injection Hv as <-. cbn [veq].
  split; cbn [sh at_]; rewrite Hs; cbn [hwio_out].
  - unfold out_sh. rewrite E5, E6, E7. reflexivity.
  - unfold out_sh. intros i Hi. destruct (in_range4 _ _ _ _ _ Hi) as (o & x & y & n & -> & Ho & Hx & Hy & Hn).
    rewrite HA. cbn [act_spec]. unfold scale_vec, zero_vec. cbn [at_].
    assert (Hsc := binary_scale _ _ _ _ _ o Hs HB Hci HKW HKH Ho).
    rewrite Qplus_0_r. unfold bc_conv. apply convq_conv; try assumption.
    intros fy fx ch Hfy Hfx Hch. split; [apply HT; assumption|].
    assert (G1 : gKH g = KH /\ gKW g = KW /\ gCI g = ci) by (rewrite Gg; auto). destruct G1 as (G1 & G2 & G3).
    rewrite G1 in Hfy. rewrite G2 in Hfx. rewrite G3 in Hch.
    assert (K := W4 o ch fx fy Ho Hch Hfx Hfy). rewrite (Qlt_bool_comp _ _ K _ _ (Qeq_refl 0%Q)).
    apply pm_scale; [exact Hsc|]. apply HX. rewrite Hs. repeat constructor; lia.
Qed.
Definition depm (ti : tensor bool) : tensor Q := tmap (fun b => inject_Z (pm b)) ti.
Lemma valid_filter_groups C ci Co KW KH F : sh F = [Co; ci; KW; KH] -> 0 < C -> 0 < ci -> valid_filter C F = true ->
  (C =? ci) || (ci mod 32 =? 0) = true.
Proof.
  intros Hs HC Hci H. unfold valid_filter in H. rewrite Hs in H. apply andb_true_iff in H. destruct H as [H1 H2].
  apply Z.eqb_eq in H1. apply orb_true_iff in H2. apply orb_true_iff. destruct H2 as [H2|H2]; [left|right; exact H2].
  apply negb_true_iff, Z.ltb_ge in H2. apply Z.eqb_eq. assert (D := Z.div_mod C ci ltac:(lia)). rewrite H1 in D.
  assert (0 < C / ci). { destruct (Z_lt_le_dec 0 (C / ci)); [assumption|]. assert (ci * (C / ci) <= 0) by (apply Z.mul_nonneg_nonpos; lia). lia. }
  replace (C / ci) with 1 in D by lia. lia.
Qed.
Lemma geom_agree k padv pad C W H N Co ci KW KH :
  0 < C -> 0 < ci -> 0 < KW -> 0 < KH -> C mod ci = 0 -> Co mod (C / ci) = 0 -> (C =? ci) || (ci mod 32 =? 0) = true ->
  bc_geom (battr C k padv pad) [C; W; H; N] [ci; KW; KH; Co] = Some
    {| gB := N; gH := H; gW := W; gKH := KH; gKW := KW; gOH := fst (padding1D pad H KH (tc_sh k) (tc_dh k));
         gOW := fst (padding1D pad W KW (tc_sw k) (tc_dw k));
         gSH := tc_sh k; gSW := tc_sw k; gDH := tc_dh k; gDW := tc_dw k;
         gPH := snd (padding1D pad H KH (tc_sh k) (tc_dh k)); gPW := snd (padding1D pad W KW (tc_sw k) (tc_dw k));
         gG := C / ci; gCI := ci; gCO := Co / (C / ci) |}.
Proof.
  intros HC Hci HKW HKH H1 H2 H3. unfold bc_geom. cbn [battr ca_cin ca_pad ca_sh ca_sw ca_dh ca_dw].
  rewrite Z.eqb_refl, H1, H2, H3. replace (0 <? C) with true by (symmetry; apply Z.ltb_lt; lia).
  replace (0 <? ci) with true by (symmetry; apply Z.ltb_lt; lia). replace (0 <=? KW) with true by (symmetry; apply Z.leb_le; lia).
  replace (0 <=? KH) with true by (symmetry; apply Z.leb_le; lia). cbn [andb Z.eqb].
  destruct (padding1D pad H KH _ _), (padding1D pad W KW _ _). reflexivity.
Qed.
Lemma image_ok_spec p n k d : image_ok p n k d = true -> 0 <= n /\ (p = PadSame \/ p = PadValid /\ eff k d <= n).
Proof.
  unfold image_ok. rewrite andb_true_iff, Z.leb_le. intros [H1 H2]. split; [exact H1|].
  destruct p; [auto|right; split; [reflexivity|apply Z.leb_le, H2]|discriminate].
Qed.

Lemma conv_plain k ti F v :
  conv_fun k [VF (depm ti); VF F] = Some v -> is_binary F = true -> exact_filter F -> valid_filter (hd 0 (sh ti)) F = true ->
  exists tv tt w, denote (OBin Div ActNone) [VF F; VF (scale_vec F)] = Some (VF tv) /\ transpose_fun [VF tv] = Some (VF tt) /\
    denote (OConv (battr (hd 0 (sh ti)) k 0 (tc_pad k))) [VBits ti; VF tt; VF (scale_vec F); VF (zero_vec F); VNone] = Some w /\ veq v w.
Proof.
  intros Hv HB HX HF. assert (Hv0 := Hv). cbn [conv_fun] in Hv0. unfold conv_sem in Hv0.
  destruct (tf_geom k (sh (depm ti)) (sh F)) as [g|] eqn:Hg; [|discriminate]. clear Hv0.
  destruct (tf_geom_inv _ _ _ _ Hg) as (C & W & H & N & ci & KW & KH & Co & Es & Ef & HC & Hci & HKW & HKH & DC & HG & DCo & M1 & M2 & (S1 & S2 & S3 & S4) & (I1 & I2) & Gg).
  unfold depm in Es. cbn [tmap sh] in Es. rewrite Es in *. cbn [hd] in *.
  assert (HV := valid_filter_groups C ci Co KW KH F Ef HC Hci HF).
  assert (G' := geom_agree k 0 (tc_pad k) C W H N Co ci KW KH HC Hci HKW HKH M1 M2 HV). rewrite <- Gg in G'.
  apply image_ok_spec in I1, I2. destruct I1 as [I1 J1], I2 as [I2 J2].
  destruct (padding_spec (tc_pad k) H KH (tc_sh k) (tc_dh k) I1 ltac:(lia) ltac:(lia) ltac:(lia) J1) as [P1 _].
  destruct (padding_spec (tc_pad k) W KW (tc_sw k) (tc_dw k) I2 ltac:(lia) ltac:(lia) ltac:(lia) J2) as [P2 _].
  apply (recognise k (depm ti) F ti _ g g Co ci KW KH); try assumption.
  - rewrite Es. exact G'.
  - auto 10.
  - reflexivity.
  - unfold pad_ok. cbn. destruct (is_same (tc_pad k)); cbn; rewrite ?orb_true_r; reflexivity.
  - intros n y x o fy fx ch Hn Hy Hx Ho Hfy Hfx Hch. unfold tap. destruct (inside g _ _) eqn:E; [reflexivity|].
    unfold pad_pixel. cbn [battr ca_pad ca_padv]. destruct J1 as [J1|[J1 J1']]; [rewrite J1; reflexivity|]. exfalso.
    destruct J2 as [J2|[_ J2']]; [congruence|]. rewrite Gg in *. cbn [gH gW gKH gKW gOH gOW gSH gSW gDH gDW gPH gPW gCI gB] in *.
    rewrite P1, P2 in *. rewrite J1 in *. cbn [fst snd out_size pad_before] in *.
    unfold inside in E. cbn [gH gW] in E.
    assert (V1 := valid_tap H KH (tc_sh k) (tc_dh k) y fy ltac:(lia) ltac:(lia) ltac:(lia) Hy Hfy).
    assert (V2 := valid_tap W KW (tc_sw k) (tc_dw k) x fx ltac:(lia) ltac:(lia) ltac:(lia) Hx Hfx).
    rewrite !Z.sub_0_r in E. clear - E V1 V2. repeat (apply andb_false_iff in E; destruct E as [E|E]); rewrite ?Z.leb_gt, ?Z.ltb_ge in E; lia.
Qed.

(** The total explicit padding splits as SAME splits its own (C26). *)
Definition split_ok (k : tcattr) (tp : tensor Z) (si sf : list Z) : Prop :=
  match si, sf with
  | [_; W; H; _], [_; _; KW; KH] =>
      (tc_sh k = 1 \/ (at_ tp [0; 1] + at_ tp [1; 1]) / 2 = same_total H KH (tc_sh k) (tc_dh k) / 2) /\
      (tc_sw k = 1 \/ (at_ tp [0; 2] + at_ tp [1; 2]) / 2 = same_total W KW (tc_sw k) (tc_dw k) / 2)
  | _, _ => True
  end.

Lemma conv_padded k ti tp tv0 F t v :
  pad_fun [VF (depm ti); VInt tp; VF tv0] = Some (VF t) -> conv_fun k [VF t; VF F] = Some v ->
  is_binary F = true -> exact_filter F -> valid_filter (hd 0 (sh ti)) F = true -> tc_pad k = PadValid ->
  (flat tv0 0 == 1)%Q -> same_padding tp (sh ti) (vshape v) k = true -> split_ok k tp (sh ti) (sh F) ->
  exists tv tt w, denote (OBin Div ActNone) [VF F; VF (scale_vec F)] = Some (VF tv) /\ transpose_fun [VF tv] = Some (VF tt) /\
    denote (OConv (battr (hd 0 (sh ti)) k 1 PadSame)) [VBits ti; VF tt; VF (scale_vec F); VF (zero_vec F); VNone] = Some w /\ veq v w.
Proof.
  intros Hpad Hv HB HX HF HPad Hone HSP Hspl.
  cbn [pad_fun] in Hpad. destruct (forallb _ _ && _ && pads_ok tp) eqn:EP; [|discriminate]. apply andb_true_iff in EP. destruct EP as [EP0 EP].
  apply andb_true_iff in EP0. destruct EP0 as [_ EP0]. unfold depm in EP0. cbn [sh tmap] in EP0.
  apply option_map_some in Hpad. destruct Hpad as (t' & Hpad & E). injection E as <-.
  unfold pad_sem in Hpad. unfold depm in Hpad. cbn [sh tmap] in Hpad.
  unfold same_padding in HSP. destruct (sh tp) as [|p0 l] eqn:Esp; [discriminate|].
  destruct (list_eq_dec Z.eq_dec (p0 :: l) [2; 4]) as [El|En].
  2:{ exfalso. destruct p0 as [|[q|[q|q|]|]|q]; try discriminate. destruct l as [|z l]; try discriminate.
      destruct z as [|[q|[q|[q|q|]|]|]|q]; try discriminate. destruct l; try discriminate. congruence. }
  injection El as -> ->.
  destruct (sh ti) as [|C [|W [|H [|N [|? ?]]]]] eqn:Esi; try discriminate.
  cbn [forallb] in EP0. repeat rewrite andb_true_iff in EP0. rewrite !Z.leb_le in EP0. destruct EP0 as (_ & NW & NH & _).
  unfold pads_ok in EP. cbn [forallb] in EP. repeat rewrite andb_true_iff in EP. rewrite !Z.leb_le in EP.
  destruct EP as ((Q1 & Q2) & (Q3 & Q4) & (Q5 & Q6) & (Q7 & Q8) & _).
  destruct (vshape v) as [|a1 [|ow [|oh [|a4 [|? ?]]]]] eqn:Evs; try discriminate.
  assert (HSP0 := HSP). unfold IsSamePadding in HSP0. cbn [fst snd] in HSP0. repeat rewrite andb_true_iff in HSP0.
  destruct HSP0 as (((B0 & B1) & B2) & B3). unfold IsNoPadding in B0, B3. rewrite !andb_true_iff, !Z.eqb_eq in B0, B3.
  destruct B0 as [B01 B02], B3 as [B31 B32]. clear Q1 Q2 Q7 Q8.
  rewrite B01, B02, B31, B32 in *. rewrite !Z.add_0_r in Hpad. cbv beta zeta in Hpad. injection Hpad as <-.
  set (pt := at_ tp [0; 1]) in *. set (pb := at_ tp [1; 1]) in *. set (pl := at_ tp [0; 2]) in *. set (pr := at_ tp [1; 2]) in *.
  assert (Hv0 := Hv). cbn [conv_fun] in Hv0. unfold conv_sem in Hv0. cbn [sh] in Hv0.
  destruct (tf_geom k [C; W + pl + pr; H + pt + pb; N] (sh F)) as [g|] eqn:Hg; [|discriminate].
  injection Hv0 as Hv0. rewrite <- Hv0 in Evs. cbn [vshape sh out_sh] in Evs. unfold out_sh in Evs. injection Evs as _ Eow Eoh _. clear Hv0.
  destruct (tf_geom_inv _ _ _ _ Hg) as (C' & W' & H' & N' & ci & KW & KH & Co & Es & Ef & HC & Hci & HKW & HKH & DC & HG & DCo & M1 & M2 & (S1 & S2 & S3 & S4) & (I1 & I2) & Gg).
  injection Es as <- <- <- <-. cbn [hd] in *.
  assert (HV := valid_filter_groups C ci Co KW KH F Ef HC Hci HF).
  assert (G' := geom_agree k 1 PadSame C W H N Co ci KW KH HC Hci HKW HKH M1 M2 HV).
  apply image_ok_spec in I1, I2. destruct I1 as [I1 J1], I2 as [I2 J2]. rewrite HPad in *.
  destruct J1 as [J1|[_ J1]]; [discriminate|]. destruct J2 as [J2|[_ J2]]; [discriminate|].
  destruct (padding_spec PadValid (H + pt + pb) KH (tc_sh k) (tc_dh k) I1 ltac:(lia) ltac:(lia) ltac:(lia) (or_intror (conj eq_refl J1))) as [P1 _].
  destruct (padding_spec PadValid (W + pl + pr) KW (tc_sw k) (tc_dw k) I2 ltac:(lia) ltac:(lia) ltac:(lia) (or_intror (conj eq_refl J2))) as [P2 _].
  rewrite P1, P2 in Gg. cbn [fst snd out_size pad_before] in Gg.
  rewrite !padding_same in G' by lia. cbn [fst snd] in G'.
  fold (same_geom N H W KH KW (tc_sh k) (tc_sw k) (tc_dh k) (tc_dw k) (C / ci) ci (Co / (C / ci))) in G'.
  fold (valid_geom N (H + pt + pb) (W + pl + pr) KH KW (tc_sh k) (tc_sw k) (tc_dh k) (tc_dw k) (C / ci) ci (Co / (C / ci))) in Gg.
  set (g2 := same_geom _ _ _ _ _ _ _ _ _ _ _ _) in *.
  rewrite <- Eow, <- Eoh, Gg in HSP. rewrite Ef in Hspl. destruct Hspl as [Sp1 Sp2].
  assert (HK2 : 1 <= KH /\ 1 <= KW) by lia. assert (HS2 : 1 <= tc_sh k /\ 1 <= tc_sw k) by lia.
  assert (HD2 : 1 <= tc_dh k /\ 1 <= tc_dw k) by lia. assert (HP2 : 0 <= pt /\ 0 <= pb /\ 0 <= pl /\ 0 <= pr) by lia.
  destruct (fuse_shape N H W KH KW (tc_sh k) (tc_sw k) (tc_dh k) (tc_dw k) (C / ci) ci (Co / (C / ci)) pt pb pl pr HS2 HP2 HSP) as [FS1 FS2].
  eapply (recognise k _ F ti _ g g2 Co ci KW KH); try eassumption; try reflexivity.
  - exact Hg.
  - rewrite Esi. exact G'.
  - rewrite Gg. subst g2. cbn [gKH gKW gCI gCO gB valid_geom same_geom]. auto 10.
  - intros n y x o fy fx ch Hn Hy Hx Ho Hfy Hfx Hch. rewrite Gg in *. clear Gg g.
    cbn [gOH gOW gKH gKW gCI gB gCO valid_geom] in Hn, Hy, Hx, Hfy, Hfx, Hch |- *.
    assert (HK := channel_range C ci Co o ch Hci DC HG DCo Ho Hch).
    set (cc := o / (Co / (C / ci)) * ci + ch) in *.
    assert (FT := fuse_tap N H W KH KW (tc_sh k) (tc_sw k) (tc_dh k) (tc_dw k) (C / ci) ci (Co / (C / ci)) pt pb pl pr
      HK2 HS2 HD2 HP2 HSP Sp1 Sp2 (inject_Z 1) (fun b y x c => inject_Z (pm (at_ ti [c; x; y; b]))) n y x fy fx cc Hy Hx Hfy Hfx).
    assert (V1 := valid_tap (H + pt + pb) KH (tc_sh k) (tc_dh k) y fy ltac:(lia) ltac:(lia) ltac:(lia) Hy Hfy).
    assert (V2 := valid_tap (W + pl + pr) KW (tc_sw k) (tc_dw k) x fx ltac:(lia) ltac:(lia) ltac:(lia) Hx Hfx).
    transitivity (tap g2 (inject_Z 1) (fun b y x c => inject_Z (pm (at_ ti [c; x; y; b]))) n y x fy fx cc).
    2:{ unfold tap. destruct (inside g2 _ _); reflexivity. }
    fold g2 in FT. rewrite <- FT. unfold tap at 1 2, inside. cbn [gH gW gSH gSW gDH gDW gPH gPW valid_geom]. rewrite !Z.sub_0_r.
    replace ((0 <=? _) && _ && _ && _) with true.
    2:{ symmetry. rewrite !andb_true_iff, !Z.leb_le, !Z.ltb_lt. lia. }
    set (yy := y * tc_sh k + fy * tc_dh k) in *. set (xx := x * tc_sw k + fx * tc_dw k) in *. clearbody yy xx.
    unfold padded. cbn [at_]. rewrite ?Z.sub_0_r.
    replace ((0 <=? cc) && (cc <? C) && _ && _ && _ && _ && _ && _) with ((pt <=? yy) && (yy <? pt + H) && (pl <=? xx) && (xx <? pl + W)).
    2:{ apply bool_eq. rewrite !andb_true_iff, !Z.leb_le, !Z.ltb_lt. lia. }
    destruct (_ && _ && _ && _); [reflexivity|exact Hone].
Qed.
