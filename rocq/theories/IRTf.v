(** * IRTf: the pass that injects the binary operators (mlir/transforms/prepare_tf.cc,
    prepare_patterns_common.td, prepare_patterns_target_arm.td), the removal of
    pass-through operations (op_removal_patterns.td) and the packing of the
    weights (bitpack_weights_patterns.td), on the programs of [IR].

    TensorFlow's operators are functions of their operands' values. tf.AddV2 and
    tf.Div are [OBin Add ActNone] and [OBin Div ActNone]. *)
From Coq Require Import QArith Qabs.
From Verif Require Import Base Spec Padding Threshold FusePad ConvBinary IR IRProofs.
Open Scope Z_scope.

(** ** Meaning of the TensorFlow operators *)

(** tf.Conv2D, NHWC, filter [KH,KW,ci,Co]. Pixels outside the image are 0. Groups
    as in TensorFlow: C/ci of them. Empty filters, non-positive strides or
    dilations, and VALID filters larger than the image are errors. *)
Definition image_ok (p : padding) (n k d : Z) : bool :=
  (0 <=? n) && match p with PadSame => true | PadValid => eff k d <=? n | PadUnknown => false end.
Definition tf_geom (c : tcattr) (si sf : list Z) : option geom :=
  match si, sf with
  | [C; W; H; N], [Co; ci; KW; KH] =>
      if (0 <? C) && (0 <? ci) && (0 <? KW) && (0 <? KH) && (C mod ci =? 0) && (Co mod (C / ci) =? 0) &&
         (0 <? tc_sh c) && (0 <? tc_sw c) && (0 <? tc_dh c) && (0 <? tc_dw c) &&
         image_ok (tc_pad c) H KH (tc_dh c) && image_ok (tc_pad c) W KW (tc_dw c) then
        let '(oh, py) := padding1D (tc_pad c) H KH (tc_sh c) (tc_dh c) in
        let '(ow, px) := padding1D (tc_pad c) W KW (tc_sw c) (tc_dw c) in
        Some {| gB := N; gH := H; gW := W; gKH := KH; gKW := KW; gOH := oh; gOW := ow;
                gSH := tc_sh c; gSW := tc_sw c; gDH := tc_dh c; gDW := tc_dw c; gPH := py; gPW := px;
                gG := C / ci; gCI := ci; gCO := Co / (C / ci) |}
      else None
  | _, _ => None
  end.
Definition convq (g : geom) (I F : Z -> Z -> Z -> Z -> Q) (b oy ox o : Z) : Q :=
  sumQ (gKH g) (fun fy => sumQ (gKW g) (fun fx => sumQ (gCI g) (fun c =>
    (tap g 0 I b oy ox fy fx (o / gCO g * gCI g + c) * F o fy fx c)%Q))).
Definition hwio_out (sf : list Z) : Z := match sf with [Co; _; _; _] => Co | _ => 0 end.
Definition conv_sem (c : tcattr) (t f : tensor Q) : option value :=
  match tf_geom c (sh t) (sh f) with
  | Some g => Some (VF (mkT (out_sh g (hwio_out (sh f))) (fun i => match i with
      | [o; x; y; n] => convq g (fun n y x k => at_ t [k; x; y; n]) (fun o fy fx k => at_ f [o; k; fx; fy]) n y x o
      | _ => 0%Q end)))
  | None => None
  end.
Definition conv_fun (c : tcattr) (vs : list value) : option value :=
  match vs with [VF t; VF f] => conv_sem c t f | _ => None end.

(** tf.Sign *)
Definition signQ (x : Q) : Q := if Qlt_bool 0 x then 1 else if Qlt_bool x 0 then - (1) else 0.
Definition sign_fun (vs : list value) : option value :=
  match vs with [VF t] => Some (VF (tmap signQ t)) | _ => None end.

(** tf.Select ([v1]): the condition has the operands' shape, or is a vector that
    chooses along the outermost dimension, or a scalar. tf.SelectV2: everything broadcasts. *)
Definition sel {A} (c : bool) (x y : A) : A := if c then x else y.
Definition select_sem (v1 : bool) (c : tensor bool) (x y : tensor Q) : option (tensor Q) :=
  if v1 then
    if list_eq_dec Z.eq_dec (sh x) (sh y) then
      if list_eq_dec Z.eq_dec (sh c) (sh x) then
        Some (mkT (sh x) (fun i => sel (at_ c i) (at_ x i) (at_ y i)))
      else match sh c, rev (sh x) with
           | [], _ => Some (mkT (sh x) (fun i => sel (at_ c []) (at_ x i) (at_ y i)))
           | [n], m :: _ => if n =? m then Some (mkT (sh x) (fun i => sel (at_ c [last i 0]) (at_ x i) (at_ y i))) else None
           | _, _ => None
           end
    else None
  else
    match bsh (sh x) (sh y) with
    | Some s => match bsh (sh c) s with
        | Some r => Some (mkT r (fun i => sel (at_ c (bix (sh c) i)) (at_ x (bix (sh x) (bix s i))) (at_ y (bix (sh y) (bix s i)))))
        | None => None end
    | None => None
    end.
Definition select_fun (v1 : bool) (vs : list value) : option value :=
  match vs with [VBool c; VF x; VF y] => option_map VF (select_sem v1 c x y) | _ => None end.

Definition bsh_to (s t : list Z) : bool :=
  match bsh s t with Some r => if list_eq_dec Z.eq_dec r t then true else false | None => false end.
(** tf.LogicalNot, tf.BroadcastTo to a known shape, tf.Transpose by (3,0,1,2) *)
Definition not_fun (vs : list value) : option value :=
  match vs with [VBool c] => Some (VBool (tmap negb c)) | _ => None end.
Definition broadcast_fun (s : list Z) (vs : list value) : option value :=
  match vs with
  | [VBool c] => if bsh_to (sh c) s then Some (VBool (mkT s (fun i => at_ c (bix (sh c) i)))) else None
  | _ => None
  end.
Definition transpose_fun (vs : list value) : option value :=
  match vs with
  | [VF t] => match sh t with
      | [o; k; x; y] => Some (VF (mkT [k; x; y; o] (fun i => match i with [k; x; y; o] => at_ t [o; k; x; y] | _ => 0%Q end)))
      | _ => None end
  | _ => None
  end.
(** tf.PadV2 of a 4D tensor: paddings [4,2], not negative; one padding value;
    sizes are not negative *)
Definition pads_ok (p : tensor Z) : bool :=
  forallb (fun d => (0 <=? at_ p [0; d]) && (0 <=? at_ p [1; d])) [0; 1; 2; 3].
Definition pad_sem (t : tensor Q) (p : tensor Z) (v : tensor Q) : option (tensor Q) :=
  match sh t, sh p with
  | [C; W; H; N], [2; 4] =>
      let bf d := at_ p [0; d] in let af d := at_ p [1; d] in
      Some (mkT [C + bf 3 + af 3; W + bf 2 + af 2; H + bf 1 + af 1; N + bf 0 + af 0] (fun i => match i with
        | [c; x; y; n] =>
            if (0 <=? c - bf 3) && (c - bf 3 <? C) && (0 <=? x - bf 2) && (x - bf 2 <? W) &&
               (0 <=? y - bf 1) && (y - bf 1 <? H) && (0 <=? n - bf 0) && (n - bf 0 <? N)
            then at_ t [c - bf 3; x - bf 2; y - bf 1; n - bf 0] else flat v 0
        | _ => 0%Q end))
  | _, _ => None
  end.
Definition pad_fun (vs : list value) : option value :=
  match vs with [VF t; VInt p; VF v] => if forallb (fun d => d =? 1) (sh v) && forallb (fun d => 0 <=? d) (sh t) && pads_ok p then option_map VF (pad_sem t p v) else None | _ => None end.
Definition identity_fun (vs : list value) : option value := match vs with [v] => Some v | _ => None end.
(** *** Equal operands give equal results *)
Ltac fun1 F := inversion F as [|? ? ? ? H1 F1]; subst; clear F; try discriminate.
Lemma F2_1 {A} (R : A -> A -> Prop) a ws : Forall2 R [a] ws -> exists a', ws = [a'] /\ R a a'.
Proof. intros H. inversion H as [|? a' ? ? H1 H2]; subst. inversion H2; subst. eauto. Qed.
Lemma F2_2 {A} (R : A -> A -> Prop) a b ws : Forall2 R [a; b] ws -> exists a' b', ws = [a'; b'] /\ R a a' /\ R b b'.
Proof. intros H. inversion H as [|? a' ? ? H1 H2]; subst. apply F2_1 in H2. destruct H2 as (b' & -> & H2). eauto 6. Qed.
Lemma F2_3 {A} (R : A -> A -> Prop) a b c ws : Forall2 R [a; b; c] ws ->
  exists a' b' c', ws = [a'; b'; c'] /\ R a a' /\ R b b' /\ R c c'.
Proof. intros H. inversion H as [|? a' ? ? H1 H2]; subst. apply F2_2 in H2. destruct H2 as (b' & c' & -> & H2 & H3). eauto 8. Qed.
Lemma veq_F t w : veq (VF t) w -> exists t', w = VF t' /\ teq Qeq t t'.
Proof. destruct w; cbn; try contradiction. eauto. Qed.
Lemma veq_Bool t w : veq (VBool t) w -> exists t', w = VBool t' /\ teq eq t t'.
Proof. destruct w; cbn; try contradiction. eauto. Qed.
Lemma veq_Bits t w : veq (VBits t) w -> exists t', w = VBits t' /\ teq eq t t'.
Proof. destruct w; cbn; try contradiction. eauto. Qed.
Lemma veq_Int t w : veq (VInt t) w -> exists t', w = VInt t' /\ teq eq t t'.
Proof. destruct w; cbn; try contradiction. eauto. Qed.

Definition proper (f : list value -> option value) : Prop :=
  forall vs ws v, Forall2 veq vs ws -> f vs = Some v -> exists w, f ws = Some w /\ veq v w.

Lemma sumQ_ext n f g : (forall i, 0 <= i < n -> (f i == g i)%Q) -> (sumQ n f == sumQ n g)%Q.
Proof.
  intros H. unfold sumQ. assert (G : forall i, 0 <= i < Z.of_nat (Z.to_nat n) -> (f i == g i)%Q) by (intros; apply H; lia).
  clear H. revert G. generalize (Z.to_nat n) as k. induction k as [|k IH]; intros G; [reflexivity|].
  cbn [sumnQ]. rewrite IH by (intros; apply G; lia). rewrite G by lia. reflexivity.
Qed.
Lemma tf_geom_inv c si sf g : tf_geom c si sf = Some g -> exists C W H N ci KW KH Co,
  si = [C; W; H; N] /\ sf = [Co; ci; KW; KH] /\ 0 < C /\ 0 < ci /\ 0 < KW /\ 0 < KH /\
  C = C / ci * ci /\ 0 < C / ci /\ Co = Co / (C / ci) * (C / ci) /\ C mod ci = 0 /\ Co mod (C / ci) = 0 /\
  (0 < tc_sh c /\ 0 < tc_sw c /\ 0 < tc_dh c /\ 0 < tc_dw c) /\
  (image_ok (tc_pad c) H KH (tc_dh c) = true /\ image_ok (tc_pad c) W KW (tc_dw c) = true) /\
  g = {| gB := N; gH := H; gW := W; gKH := KH; gKW := KW; gOH := fst (padding1D (tc_pad c) H KH (tc_sh c) (tc_dh c));
         gOW := fst (padding1D (tc_pad c) W KW (tc_sw c) (tc_dw c));
         gSH := tc_sh c; gSW := tc_sw c; gDH := tc_dh c; gDW := tc_dw c;
         gPH := snd (padding1D (tc_pad c) H KH (tc_sh c) (tc_dh c)); gPW := snd (padding1D (tc_pad c) W KW (tc_sw c) (tc_dw c));
         gG := C / ci; gCI := ci; gCO := Co / (C / ci) |}.
Proof.
  unfold tf_geom. destruct si as [|C [|W [|H [|N [|]]]]]; try discriminate.
  destruct sf as [|Co [|ci [|KW [|KH [|]]]]]; try discriminate.
  destruct (_ && _) eqn:E; [|discriminate].
  destruct (padding1D (tc_pad c) H KH (tc_sh c) (tc_dh c)) as [oh py] eqn:P1.
  destruct (padding1D (tc_pad c) W KW (tc_sw c) (tc_dw c)) as [ow px] eqn:P2. intros Hg. injection Hg as <-.
  repeat rewrite andb_true_iff in E. destruct E as (((((((((((E2 & E3) & E4) & E5) & E6) & E7) & E8) & E9) & E10) & E11) & E12) & E13).
  apply Z.eqb_eq in E6, E7. apply Z.ltb_lt in E2, E3, E4, E5, E8, E9, E10, E11.
  assert (D1 := Z.div_mod C ci ltac:(lia)).
  assert (Hpos : 0 < C / ci).
  { apply Z.div_str_pos. split; [lia|]. apply Z.divide_pos_le; [lia|]. apply Z.mod_divide; lia. }
  assert (D2 := Z.div_mod Co (C / ci) ltac:(lia)).
  exists C, W, H, N, ci, KW, KH, Co. rewrite P1, P2. cbn [fst snd]. do 6 (split; [first [reflexivity|assumption]|]).
  split; [lia|]. split; [exact Hpos|]. split; [lia|]. split; [exact E6|]. split; [exact E7|]. split; [auto|]. split; [auto|reflexivity].
Qed.
Lemma convq_ext g I I' F F' b y x o :
  (forall y x k, 0 <= y < gH g -> 0 <= x < gW g -> 0 <= k < gCI g ->
     (I b y x (o / gCO g * gCI g + k)%Z == I' b y x (o / gCO g * gCI g + k)%Z)%Q) ->
  (forall fy fx k, 0 <= fy < gKH g -> 0 <= fx < gKW g -> 0 <= k < gCI g -> (F o fy fx k == F' o fy fx k)%Q) ->
  (convq g I F b y x o == convq g I' F' b y x o)%Q.
Proof.
  intros HI HF. unfold convq. apply sumQ_ext. intros fy Hfy. apply sumQ_ext. intros fx Hfx. apply sumQ_ext. intros k Hk.
  rewrite (HF fy fx k Hfy Hfx Hk). unfold tap. destruct (inside g _ _) eqn:E; [|reflexivity].
  unfold inside in E. repeat rewrite andb_true_iff in E. destruct E as (((E1 & E2) & E3) & E4).
  apply Z.leb_le in E1, E3. apply Z.ltb_lt in E2, E4. rewrite HI by (auto; lia). reflexivity.
Qed.
Lemma conv_ok c : proper (conv_fun c).
Proof.
  intros vs ws v F H. destruct vs as [|[t| | | |] [|[f| | | |] [|]]]; try discriminate.
  apply F2_2 in F. destruct F as (a & b & -> & Va & Vb). apply veq_F in Va. destruct Va as (t' & -> & Ti).
  apply veq_F in Vb. destruct Vb as (f' & -> & Tf). cbn [conv_fun] in *. unfold conv_sem in *.
  rewrite <- (proj1 Ti), <- (proj1 Tf). destruct (tf_geom c (sh t) (sh f)) as [g|] eqn:Eg; [|discriminate]. injection H as <-.
  eexists. split; [reflexivity|]. split; [reflexivity|]. cbn [sh at_]. unfold out_sh. intros i Hi.
  destruct (in_range4 _ _ _ _ _ Hi) as (o & x & y & n & -> & Ho & Hx & Hy & Hn).
  destruct (tf_geom_inv _ _ _ _ Eg) as (C & W & H & N & ci & KW & KH & Co & Es & Ef & HC & Hci & HKW & HKH & DC & HG & DCo & _ & _ & _ & _ & Gg).
  destruct Ti as [_ Ti]. destruct Tf as [_ Tf]. rewrite Es in Ti. rewrite Ef in Tf, Ho. cbn [hwio_out] in Ho.
  apply convq_ext; rewrite Gg; cbn [gH gW gCI gCO gKH gKW gB] in *.
  - intros y' x' k Hy' Hx' Hk. apply Ti. assert (HK := channel_range C ci Co o k Hci DC HG DCo Ho Hk).
    rewrite Gg in Hn. cbn [gB] in Hn. repeat constructor; lia.
  - intros fy fx k Hfy Hfx Hk. apply Tf. repeat constructor; lia.
Qed.

Global Instance Qlt_bool_comp : Proper (Qeq ==> Qeq ==> eq) Qlt_bool.
Proof. intros x x' Hx y y' Hy. unfold Qlt_bool. rewrite Hx, Hy. reflexivity. Qed.
Lemma sign_ok : proper sign_fun.
Proof.
  intros vs ws v F H. destruct vs as [|[t| | | |] [|]]; try discriminate.
  apply F2_1 in F. destruct F as (a & -> & Va). apply veq_F in Va. destruct Va as (t' & -> & Ti).
  cbn in *. injection H as <-. eexists. split; [reflexivity|]. cbn. apply (tmap_proper Qeq Qeq); [|exact Ti].
  intros x x' E. unfold signQ. rewrite (Qlt_bool_comp _ _ (Qeq_refl 0%Q) _ _ E), (Qlt_bool_comp _ _ E _ _ (Qeq_refl 0%Q)). reflexivity.
Qed.
Lemma last_range s i : in_range s i -> s <> [] -> 0 <= last i 0 < last s 0.
Proof.
  intros H. induction H as [|d k s i Hk H IH]; [congruence|]. intros _. destruct s as [|d2 s].
  - inversion H; subst. cbn. exact Hk.
  - inversion H as [|? k2 ? i2 Hk2 H2]; subst. specialize (IH ltac:(discriminate)). exact IH.
Qed.
Lemma last_rev {A} (l : list A) m r d : rev l = m :: r -> last l d = m.
Proof. intros H. rewrite <- (rev_involutive l), H. cbn [rev]. apply last_last. Qed.
Lemma select_ok v1 : proper (select_fun v1).
Proof.
  intros vs ws v F H. destruct vs as [|[| |c| |] [|[x| | | |] [|[y| | | |] [|]]]]; try discriminate.
  apply F2_3 in F. destruct F as (a & b & d & -> & Va & Vb & Vd). apply veq_Bool in Va. destruct Va as (c' & -> & [Sc Tc]).
  apply veq_F in Vb. destruct Vb as (x' & -> & [Sx Tx]). apply veq_F in Vd. destruct Vd as (y' & -> & [Sy Ty]).
  cbn [select_fun] in *. apply option_map_some in H. destruct H as (u & H & ->).
  assert (Ssel : forall (b b' : bool) (p p' q q' : Q), b = b' -> (p == p')%Q -> (q == q')%Q -> (sel b p q == sel b' p' q')%Q).
  { intros b b' p p' q q' -> Hp Hq. destruct b'; assumption. }
  unfold select_sem in *. rewrite <- Sc, <- Sx, <- Sy. destruct v1.
  - destruct (list_eq_dec Z.eq_dec (sh x) (sh y)) as [Exy|]; [|discriminate].
    destruct (list_eq_dec Z.eq_dec (sh c) (sh x)) as [Ecx|Ncx].
    + injection H as <-. eexists. split; [reflexivity|]. split; [reflexivity|]. cbn [sh at_]. intros i Hi.
      apply Ssel; [apply Tc; rewrite Ecx; exact Hi|apply Tx, Hi|apply Ty; rewrite <- Exy; exact Hi].
    + destruct (sh c) as [|n [|? ?]].
      * injection H as <-. eexists. split; [reflexivity|]. split; [reflexivity|]. cbn [sh at_]. intros i Hi.
        apply Ssel; [apply Tc; constructor|apply Tx, Hi|apply Ty; rewrite <- Exy; exact Hi].
      * destruct (rev (sh x)) as [|m r] eqn:Er; [discriminate|]. destruct (Z.eqb_spec n m) as [->|]; [|discriminate].
        injection H as <-. eexists. split; [reflexivity|]. split; [reflexivity|]. cbn [sh at_]. intros i Hi.
        apply Ssel; [|apply Tx, Hi|apply Ty; rewrite <- Exy; exact Hi]. apply Tc.
        assert (K := last_range _ _ Hi ltac:(intros E; rewrite E in Er; discriminate)). rewrite (last_rev _ _ _ _ Er) in K.
        apply range1. exact K.
      * destruct (rev (sh x)); discriminate.
  - destruct (bsh (sh x) (sh y)) as [s|] eqn:Es; [|discriminate]. destruct (bsh (sh c) s) as [r|] eqn:Er; [|discriminate].
    injection H as <-. eexists. split; [reflexivity|]. split; [reflexivity|]. cbn [sh at_]. intros i Hi.
    assert (Ki := bsh_r _ _ _ _ Er Hi).
    apply Ssel; [apply Tc; eapply bsh_l; eassumption|apply Tx; eapply bsh_l; eassumption|apply Ty; eapply bsh_r; eassumption].
Qed.
Lemma not_ok : proper not_fun.
Proof.
  intros vs ws v F H. destruct vs as [|[| |t| |] [|]]; try discriminate.
  apply F2_1 in F. destruct F as (a & -> & Va). apply veq_Bool in Va. destruct Va as (t' & -> & Ti).
  cbn in *. injection H as <-. eexists. split; [reflexivity|]. cbn. apply (tmap_proper eq eq); [|exact Ti]. congruence.
Qed.
Lemma bsh_to_spec s t : bsh_to s t = true -> bsh s t = Some t.
Proof. unfold bsh_to. destruct (bsh s t) as [r|]; [|discriminate]. destruct (list_eq_dec Z.eq_dec r t); [congruence|discriminate]. Qed.
Lemma broadcast_ok s : proper (broadcast_fun s).
Proof.
  intros vs ws v F H. destruct vs as [|[| |t| |] [|]]; try discriminate.
  apply F2_1 in F. destruct F as (a & -> & Va). apply veq_Bool in Va. destruct Va as (t' & -> & [Ss Ti]).
  cbn [broadcast_fun] in *. rewrite <- Ss. destruct (bsh_to (sh t) s) eqn:E; [|discriminate]. apply bsh_to_spec in E.
  injection H as <-. eexists. split; [reflexivity|]. split; [reflexivity|]. cbn [sh at_]. intros i Hi. apply Ti. eapply bsh_l; eassumption.
Qed.
Lemma transpose_ok : proper transpose_fun.
Proof.
  intros vs ws v F H. destruct vs as [|[t| | | |] [|]]; try discriminate.
  apply F2_1 in F. destruct F as (a & -> & Va). apply veq_F in Va. destruct Va as (t' & -> & [Ss Ti]).
  cbn [transpose_fun] in *. rewrite <- Ss. destruct (sh t) as [|o [|k [|x [|y [|]]]]]; try discriminate. injection H as <-.
  eexists. split; [reflexivity|]. split; [reflexivity|]. cbn [sh at_]. intros i Hi.
  destruct (in_range4 _ _ _ _ _ Hi) as (k1 & x1 & y1 & o1 & -> & Hk & Hx & Hy & Ho). apply Ti. repeat constructor; lia.
Qed.

Lemma in_range2 a b i : in_range [a; b] i -> exists x y, i = [x; y] /\ 0 <= x < a /\ 0 <= y < b.
Proof.
  intros H. inversion H as [|? x ? i2 H1 H2]; subst. apply in_range1 in H2. destruct H2 as (y & -> & H2). eauto.
Qed.
Lemma unravel_0 s : Forall (fun d => 0 < d) s -> in_range s (unravel s 0).
Proof.
  intros HP. induction HP as [|d s Hd HP IH]; cbn [unravel]; [constructor|]. constructor; [apply Z.mod_pos_bound; lia|]. rewrite Zdiv_0_l. exact IH.
Qed.
Lemma padv2_ok : proper pad_fun.
Proof.
  intros vs ws v F H. destruct vs as [|[t| | | |] [|[| | |p|] [|[x| | | |] [|]]]]; try discriminate.
  apply F2_3 in F. destruct F as (a & b & d & -> & Va & Vb & Vd). apply veq_F in Va. destruct Va as (t' & -> & [St Tt]).
  apply veq_Int in Vb. destruct Vb as (p' & -> & [Sp Tp]). apply veq_F in Vd. destruct Vd as (x' & -> & [Sx Tx]).
  cbn [pad_fun] in *. destruct (forallb _ (sh x)) eqn:Ex; [|discriminate].
  destruct (forallb _ (sh t)) eqn:Edt; [|discriminate].
  assert (Ox : in_range (sh x) (unravel (sh x) 0)).
  { apply unravel_0. apply Forall_forall. intros z Hz. rewrite forallb_forall in Ex. specialize (Ex z Hz). apply Z.eqb_eq in Ex. lia. }
  rewrite <- Sx, Ex, <- St, Edt. cbn [andb] in *. unfold pad_sem in *.
  destruct (pads_ok p) eqn:Ep; [|discriminate].
  rewrite <- Sp, <- ?St. destruct (sh t) as [|C [|W [|H0 [|N [|]]]]] eqn:Et; try discriminate.
  destruct (sh p) as [|p0 l] eqn:Esp; [discriminate|].
  destruct (list_eq_dec Z.eq_dec (p0 :: l) [2; 4]) as [El|En].
  2:{ exfalso. destruct p0 as [|[q|[q|q|]|]|q]; try discriminate. destruct l as [|z l]; try discriminate.
      destruct z as [|[q|[q|[q|q|]|]|]|q]; try discriminate. destruct l; try discriminate. congruence. }
  injection El as -> ->.
  assert (P : forall z d, In z [0; 1] -> In d [0; 1; 2; 3] -> at_ p [z; d] = at_ p' [z; d]).
  { intros z d Hz Hd. apply Tp. cbn in Hz, Hd. repeat constructor; lia. }
  assert (Pf : forall d, In d [0; 1; 2; 3] -> at_ p [0; d] = at_ p' [0; d]) by (intros d Hd; apply P; [cbn; auto|exact Hd]).
  assert (Pa : forall d, In d [0; 1; 2; 3] -> at_ p [1; d] = at_ p' [1; d]) by (intros d Hd; apply P; [cbn; auto|exact Hd]).
  assert (Ep' : pads_ok p' = true).
  { unfold pads_ok in *. rewrite forallb_forall in *. intros d Hd. rewrite <- Pf, <- Pa by exact Hd. apply Ep, Hd. }
  rewrite Ep'. cbv beta iota zeta in H. cbn [option_map] in H. injection H as <-. cbv beta iota zeta. cbn [option_map].
  eexists. split; [reflexivity|]. split; cbn [sh at_].
  { rewrite !Pf, !Pa by (cbn; auto). reflexivity. }
  intros i Hi. destruct (in_range4 _ _ _ _ _ Hi) as (c & x1 & y & n & -> & Hc & Hx & Hy & Hn).
  rewrite <- !Pf by (cbn; auto). destruct (_ && _) eqn:E.
  - repeat rewrite andb_true_iff in E. destruct E as (((((((E1 & E2) & E3) & E4) & E5) & E6) & E7) & E8).
    apply Z.leb_le in E1, E3, E5, E7. apply Z.ltb_lt in E2, E4, E6, E8. apply Tt. repeat constructor; lia.
  - unfold flat. rewrite <- Sx. apply Tx, Ox.
Qed.
Lemma identity_ok : proper identity_fun.
Proof.
  intros vs ws v F H. destruct vs as [|u [|]]; try discriminate. injection H as <-.
  apply F2_1 in F. destruct F as (a & -> & Va). exists a. split; [reflexivity|exact Va].
Qed.

(** *** The operators *)
Definition tf_conv2d (c : tcattr) : op := OOther {| ek := KConv2D c; ef := conv_fun c; ef_ok := conv_ok c |}.
Definition tf_sign : op := OOther {| ek := KSign; ef := sign_fun; ef_ok := sign_ok |}.
Definition tf_select (v1 : bool) : op := OOther {| ek := KSelect v1; ef := select_fun v1; ef_ok := select_ok v1 |}.
Definition tf_not : op := OOther {| ek := KOther; ef := not_fun; ef_ok := not_ok |}.
Definition tf_broadcast_to (s : list Z) : op := OOther {| ek := KOther; ef := broadcast_fun s; ef_ok := broadcast_ok s |}.
Definition tf_transpose3012 : op := OOther {| ek := KOther; ef := transpose_fun; ef_ok := transpose_ok |}.
Definition tf_pad : op := OOther {| ek := KPad; ef := pad_fun; ef_ok := padv2_ok |}.
Definition tf_identity : op := OOther {| ek := KIdentity; ef := identity_fun; ef_ok := identity_ok |}.
