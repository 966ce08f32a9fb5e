(** * IRFuse: the padding-fusion pass (mlir/transforms/fuse_padding.cc,
    fuse_padding.td) as rewriting of the programs of IR.v. It runs after the
    optimisation pass (tf_tfl_passes.cc 254-255). *)
From Coq Require Import QArith.
From Verif Require Import Base Spec Padding Threshold FusePad ConvBinary Prepare IR IRProofs IRRules IRSound IRTerm IRWell IRTf IRPrep IRPass IRPassProof.
Open Scope Z_scope.

(** ** Meaning of TFLite's convolutions and paddings (floating point, NHWC) *)
(** tfl.conv_2d: filter [Co,KH,KW,ci]. tfl.depthwise_conv_2d: filter [1,KH,KW,Co],
    Co = C * depth_multiplier, output channel o reads input channel
    o / depth_multiplier. Both as TensorFlow's convolution with the filter laid out
    [KH,KW,ci,Co]. *)
Inductive ckind := Full | Depthwise (depth_multiplier : Z).
Definition hwio (kd : ckind) (si sf : list Z) : option (list Z) :=
  match kd, si, sf with
  | Full, _, [ci; KW; KH; Co] => Some [Co; ci; KW; KH]
  | Depthwise m, C :: _, [Co; KW; KH; 1] => if Co =? C * m then Some [Co; 1; KW; KH] else None
  | _, _, _ => None
  end.
Definition filter_at (kd : ckind) (f : tensor Q) (o fy fx k : Z) : Q :=
  match kd with Full => at_ f [k; fx; fy; o] | Depthwise _ => at_ f [o; fx; fy; 0] end.
(** The bias: a vector with one element per output channel, or none. *)
Definition bias_ok (b : value) (Co : Z) : bool :=
  match b with VF t => match sh t with [n] => n =? Co | _ => false end | VNone => true | _ => false end.
Definition bias_at (b : value) (o : Z) : Q := match b with VF t => at_ t [o] | _ => 0%Q end.
Definition lconv_sem (kd : ckind) (k : tcattr) (a : activation) (t f : tensor Q) (b : value) : option value :=
  match hwio kd (sh t) (sh f) with
  | Some sf =>
      match tf_geom k (sh t) sf with
      | Some g =>
          if bias_ok b (hwio_out sf) then
            Some (VF (mkT (out_sh g (hwio_out sf)) (fun i => match i with
              | [o; x; y; n] => actQ a (convq g (fun n y x k => at_ t [k; x; y; n]) (filter_at kd f) n y x o + bias_at b o)%Q
              | _ => 0%Q end)))
          else None
      | None => None
      end
  | None => None
  end.
Definition lconv_fun (kd : ckind) (k : tcattr) (a : activation) (vs : list value) : option value :=
  match vs with [VF t; VF f; b] => lconv_sem kd k a t f b | _ => None end.
(** tfl.pad pads with zeros; tfl.padv2 is [tf_pad] of IRTf. *)
Definition zero : value := VF (mkT [] (fun _ => 0%Q)).
Definition lpad_fun (vs : list value) : option value :=
  match vs with [t; p] => pad_fun [t; p; zero] | _ => None end.

Lemma hwio_inv kd si sf s : hwio kd si sf = Some s ->
  exists ci KW KH Co, s = [Co; ci; KW; KH] /\
    match kd with Full => sf = [ci; KW; KH; Co] | Depthwise m => sf = [Co; KW; KH; 1] /\ ci = 1 /\ Co = hd 0 si * m end.
Proof.
  unfold hwio. destruct kd as [|m].
  - destruct sf as [|ci [|KW [|KH [|Co [|]]]]]; try discriminate. intros H. injection H as <-. exists ci, KW, KH, Co. auto.
  - destruct si as [|C si]; [discriminate|]. destruct sf as [|Co [|KW [|KH [|u [|]]]]]; try discriminate.
    + destruct u as [|[q|q|]|q]; try discriminate. destruct (Z.eqb_spec Co (C * m)); [|discriminate]. intros H. injection H as <-. exists 1, KW, KH, Co. auto.
    + destruct u as [|[q|q|]|q]; discriminate.
Qed.
Lemma filter_teq kd F F' si ci KW KH Co : teq Qeq F F' -> hwio kd si (sh F) = Some [Co; ci; KW; KH] ->
  forall o fy fx k, 0 <= o < Co -> 0 <= fy < KH -> 0 <= fx < KW -> 0 <= k < ci -> (filter_at kd F o fy fx k == filter_at kd F' o fy fx k)%Q.
Proof.
  intros [Hs He] H. destruct (hwio_inv _ _ _ _ H) as (ci' & KW' & KH' & Co' & E & HK). injection E as <- <- <- <-.
  intros o fy fx k Ho Hy Hx Hk. destruct kd as [|m]; cbn [filter_at].
  - apply He. rewrite HK. repeat constructor; lia.
  - destruct HK as (HK & -> & _). apply He. rewrite HK. repeat constructor; lia.
Qed.
Lemma bias_teq b b' Co : veq b b' -> bias_ok b Co = true -> bias_ok b' Co = true /\
  forall o, 0 <= o < Co -> (bias_at b o == bias_at b' o)%Q.
Proof.
  intros V H. destruct b as [t| | | |]; try discriminate; destruct b' as [t'| | | |]; try contradiction.
  - destruct V as [Vs Ve]. cbn [bias_ok bias_at] in *. rewrite <- Vs. split; [exact H|]. intros o Ho. apply Ve.
    destruct (sh t) as [|n [|]]; try discriminate. apply Z.eqb_eq in H. subst n. apply range1, Ho.
  - split; [reflexivity|]. intros; reflexivity.
Qed.
Lemma actQ_comp a x y : (x == y)%Q -> (actQ a x == actQ a y)%Q.
Proof. intros H. destruct a; cbn [actQ]; rewrite H; reflexivity. Qed.

Lemma lconv_ok kd k a : proper (lconv_fun kd k a).
Proof.
  intros vs ws v F H. destruct vs as [|[t| | | |] [|[f| | | |] [|b [|]]]]; try discriminate.
  apply F2_3 in F. destruct F as (u1 & u2 & b' & -> & Va & Vb & Vd). apply veq_F in Va. destruct Va as (t' & -> & Ti).
  apply veq_F in Vb. destruct Vb as (f' & -> & Tf). cbn [lconv_fun] in *. unfold lconv_sem in *.
  rewrite <- (proj1 Ti), <- (proj1 Tf). destruct (hwio kd (sh t) (sh f)) as [sf|] eqn:Eh; [|discriminate].
  destruct (tf_geom k (sh t) sf) as [g|] eqn:Eg; [|discriminate]. destruct (bias_ok b (hwio_out sf)) eqn:Eb; [|discriminate]. injection H as <-.
  destruct (bias_teq _ _ _ Vd Eb) as [-> Hb].
  eexists. split; [reflexivity|]. split; [reflexivity|]. cbn [sh at_]. unfold out_sh. intros i Hi.
  destruct (in_range4 _ _ _ _ _ Hi) as (o & x & y & n & -> & Ho & Hx & Hy & Hn).
  destruct (tf_geom_inv _ _ _ _ Eg) as (C & W & H & N & ci & KW & KH & Co & Es & Ef & HC & Hci & HKW & HKH & DC & HG & DCo & _ & _ & _ & _ & Gg).
  subst sf. assert (FT := filter_teq kd f f' _ _ _ _ _ Tf Eh). destruct Ti as [_ Ti]. rewrite Es in Ti. cbn [hwio_out] in *.
  apply actQ_comp. rewrite (Hb o Ho). apply Qplus_comp; [|reflexivity].
  apply convq_ext; rewrite Gg; cbn [gH gW gCI gCO gKH gKW gB] in *.
  - intros y' x' c Hy' Hx' Hk. apply Ti. assert (HK := channel_range C ci Co o c Hci DC HG DCo Ho Hk).
    rewrite Gg in Hn. cbn [gB] in Hn. repeat constructor; lia.
  - intros fy fx c Hfy Hfx Hk. apply FT; assumption.
Qed.
Lemma lpad_ok : proper lpad_fun.
Proof.
  intros vs ws v F H. destruct vs as [|t [|p [|]]]; try discriminate. apply F2_2 in F. destruct F as (t' & p' & -> & V1 & V2).
  cbn [lpad_fun] in *. apply (padv2_ok [t; p; zero]); [|exact H]. repeat constructor; auto.
Qed.
Definition tfl_conv (kd : ckind) (k : tcattr) (a : activation) : op :=
  OOther {| ek := KConv2D k; ef := lconv_fun kd k a; ef_ok := lconv_ok kd k a |}.
Definition tfl_pad : op := OOther {| ek := KOther; ef := lpad_fun; ef_ok := lpad_ok |}.
Definition tfl_padv2 : op := tf_pad.

(** ** The patterns *)
Definition to_same (k : tcattr) : tcattr :=
  {| tc_pad := PadSame; tc_sh := tc_sh k; tc_sw := tc_sw k; tc_dh := tc_dh k; tc_dw := tc_dw k |}.
(** padding.h 12-31 GetValidPadAttr: a [4,2] constant *)
Definition valid_pads (p : tensor Z) : bool := if list_eq_dec Z.eq_dec (sh p) [2; 4] then true else false.
(** fuse_padding.cc 9-13 *)
Definition NoBatchAndChannelPadding (p : tensor Z) : bool :=
  valid_pads p && IsNoPadding (at_ p [0; 0]) (at_ p [1; 0]) && IsNoPadding (at_ p [0; 3]) (at_ p [1; 3]).
(** fuse_padding.cc 17-33; [dim]: 1 is the height, 2 the width of an NHWC shape
    (which the model writes innermost first) *)
Definition IsSamePaddingPartial (p : tensor Z) (si so : list Z) (stride dim : Z) : bool :=
  valid_pads p && (zlen si =? 4) && (zlen so =? 4) &&
  IsSamePadding1D (at_ p [0; dim]) (at_ p [1; dim]) (nth (Z.to_nat (3 - dim)) si 0) (nth (Z.to_nat (3 - dim)) so 0) stride.
(** The constraints of the four patterns, fuse_padding.td 19-125, on the paddings and
    the static shapes of the pad's input and the convolution's output *)
Definition fusable (p : tensor Z) (si so : list Z) (k : tcattr) : bool :=
  NoBatchAndChannelPadding p && IsSamePaddingPartial p si so (tc_sh k) 1 && IsSamePaddingPartial p si so (tc_sw k) 2.
(** fuse_padding.td 8-12 ConstFloatValueIs<"0.0"> *)
Definition is_zero (v : tensor Q) : bool := (numel (sh v) =? 1) && Qeq_bool (flat v 0) 0.

(** [frule T D r root inner root'] *)
Inductive frule (T : nat -> list Z) (D : nat -> option (op * list nat)) : nat -> op * list nat -> nat -> op * list nat -> Prop :=
(* fuse_padding.td 23-46 (conv_2d), 78-104 (depthwise_conv_2d) *)
| F_pad kd k a r d f b x pd tp :
    D d = Some (tfl_pad, [x; pd]) -> D pd = Some (OConst (VInt tp), []) ->
    tc_pad k = PadValid -> fusable tp (T x) (T r) k = true ->
    frule T D r (tfl_conv kd k a, [d; f; b]) d (tfl_conv kd (to_same k) a, [x; f; b])
(* 50-76, 106-134 *)
| F_padv2 kd k a r d f b x pd pv tp tv :
    D d = Some (tfl_padv2, [x; pd; pv]) -> D pd = Some (OConst (VInt tp), []) -> D pv = Some (OConst (VF tv), []) ->
    is_zero tv = true -> tc_pad k = PadValid -> fusable tp (T x) (T r) k = true ->
    frule T D r (tfl_conv kd k a, [d; f; b]) d (tfl_conv kd (to_same k) a, [x; f; b]).

(** One action of applyPatternsAndFoldGreedily (fuse_padding.cc 48-54), in any order:
    a pattern whose pad has one use, a fold, or the removal of a dead operation. [T]:
    static shapes. *)
Inductive fstep (T : list instr -> nat -> list Z) (outs : list nat) : list instr -> list instr -> Prop :=
| FS_rule pre r o a post inner o' a' :
    frule (T (pre ++ (r, o, a) :: post)) (def pre) r (o, a) inner (o', a') ->
    (uses (pre ++ (r, o, a) :: post) outs inner = 1)%nat ->                  (* HasOneUse *)
    fstep T outs (pre ++ (r, o, a) :: post) (pre ++ (r, o', a') :: post)
| FS_fold pre r o a post vs v :
    a <> [] -> consts (def pre) a vs -> denote o vs = Some v ->
    fstep T outs (pre ++ (r, o, a) :: post) (pre ++ (r, OConst v, []) :: post)
| FS_dead pre i post :
    uses (pre ++ i :: post) outs (iid i) = 0%nat ->
    fstep T outs (pre ++ i :: post) (pre ++ post).
Inductive fsteps (T : list instr -> nat -> list Z) (outs : list nat) : nat -> list instr -> list instr -> Prop :=
| fsteps_0 p : fsteps T outs 0 p p
| fsteps_S n p q r : fstep T outs p q -> fsteps T outs n q r -> fsteps T outs (Datatypes.S n) p r.

(** ** What is asked of the program: where explicit padding is taken for SAME padding
    (VALID convolution of a tensor padded with zeros), it splits as SAME does (C26) *)
Definition padded_by (p : list instr) (e : env) (d x : nat) (tp : tensor Z) : Prop :=
  exists pd, e pd = Some (VInt tp) /\
    (def p d = Some (tfl_pad, [x; pd]) \/
     exists pv tv, def p d = Some (tfl_padv2, [x; pd; pv]) /\ e pv = Some (VF tv) /\
       forall i, in_range (sh tv) i -> (at_ tv i == 0)%Q).
Definition fuse_sane (p : list instr) (e : env) : Prop :=
  forall kd k a r d f b x ti tp F sf v, In (r, tfl_conv kd k a, [d; f; b]) p -> tc_pad k = PadValid ->
    padded_by p e d x tp -> e x = Some (VF ti) -> e f = Some (VF F) -> e r = Some v ->
    hwio kd (sh ti) (sh F) = Some sf -> fusable tp (sh ti) (vshape v) k = true -> split_ok k tp (sh ti) sf.

(** ** One pattern *)
Lemma fusable_same tp si so k : fusable tp si so k = true -> same_padding tp si so k = true /\ sh tp = [2; 4].
Proof.
  unfold fusable, NoBatchAndChannelPadding, IsSamePaddingPartial, same_padding, valid_pads.
  destruct (list_eq_dec Z.eq_dec (sh tp) [2; 4]) as [E|]; [|discriminate]. rewrite E. cbn [andb].
  destruct si as [|C [|W [|H [|N [|]]]]]; try (intros X; exfalso; revert X; rewrite !andb_true_iff, !Z.eqb_eq; unfold zlen; cbn [length]; lia).
  destruct so as [|Co [|OW [|OH [|ON [|]]]]]; try (intros X; exfalso; revert X; rewrite !andb_true_iff, !Z.eqb_eq; unfold zlen; cbn [length]; lia).
  change (Z.to_nat (3 - 1)) with 2%nat. change (Z.to_nat (3 - 2)) with 1%nat. cbn [nth]. unfold IsSamePadding. cbn [fst snd].
  rewrite !andb_true_iff. tauto.
Qed.

Lemma fuse_core kd k a t0 tp tv t F b v :
  pad_fun [VF t0; VInt tp; VF tv] = Some (VF t) -> lconv_fun kd k a [VF t; VF F; b] = Some v ->
  tc_pad k = PadValid -> (flat tv 0 == 0)%Q -> fusable tp (sh t0) (vshape v) k = true ->
  (forall sf, hwio kd (sh t0) (sh F) = Some sf -> split_ok k tp (sh t0) sf) ->
  exists w, lconv_fun kd (to_same k) a [VF t0; VF F; b] = Some w /\ veq v w.
Proof.
  intros Hpad Hv HPad Hz HFu Hspl. destruct (fusable_same _ _ _ _ HFu) as [HSP Esp]. clear HFu.
  cbn [pad_fun] in Hpad. destruct (forallb _ _ && _ && pads_ok tp) eqn:EP; [|discriminate]. apply andb_true_iff in EP. destruct EP as [EP0 EP].
  apply andb_true_iff in EP0. destruct EP0 as [_ EP0].
  apply option_map_some in Hpad. destruct Hpad as (t' & Hpad & E). injection E as <-.
  unfold pad_sem in Hpad. unfold same_padding in HSP. rewrite Esp in *.
  destruct (sh t0) as [|C [|W [|H [|N [|? ?]]]]] eqn:Esi; try discriminate.
  cbn [forallb] in EP0. repeat rewrite andb_true_iff in EP0. rewrite !Z.leb_le in EP0. destruct EP0 as (_ & NW & NH & _).
  unfold pads_ok in EP. cbn [forallb] in EP. repeat rewrite andb_true_iff in EP. rewrite !Z.leb_le in EP.
  destruct EP as ((Q1 & Q2) & (Q3 & Q4) & (Q5 & Q6) & (Q7 & Q8) & _).
  destruct (vshape v) as [|a1 [|ow [|oh [|a4 [|? ?]]]]] eqn:Evs; try discriminate.
  assert (HSP0 := HSP). unfold IsSamePadding in HSP0. cbn [fst snd] in HSP0. repeat rewrite andb_true_iff in HSP0.
  destruct HSP0 as (((B0 & B1) & B2) & B3). unfold IsNoPadding in B0, B3. rewrite !andb_true_iff, !Z.eqb_eq in B0, B3.
  destruct B0 as [B01 B02], B3 as [B31 B32]. clear Q1 Q2 Q7 Q8.
  rewrite B01, B02, B31, B32 in *. rewrite !Z.add_0_r in Hpad. cbv beta zeta in Hpad. injection Hpad as <-.
  set (pt := at_ tp [0; 1]) in *. set (pb := at_ tp [1; 1]) in *. set (pl := at_ tp [0; 2]) in *. set (pr := at_ tp [1; 2]) in *.
  cbn [lconv_fun] in Hv |- *. unfold lconv_sem in Hv |- *. cbn [sh] in Hv. rewrite Esi.
  assert (Eh : hwio kd [C; W + pl + pr; H + pt + pb; N] (sh F) = hwio kd [C; W; H; N] (sh F)) by (destruct kd; reflexivity).
  rewrite Eh in Hv. clear Eh. destruct (hwio kd [C; W; H; N] (sh F)) as [sf|]; [|discriminate]. specialize (Hspl sf eq_refl).
  destruct (tf_geom k [C; W + pl + pr; H + pt + pb; N] sf) as [g|] eqn:Hg; [|discriminate].
  destruct (bias_ok b (hwio_out sf)) eqn:Eb; [|discriminate].
  injection Hv as <-. cbn [vshape sh out_sh] in Evs. unfold out_sh in Evs. injection Evs as _ Eow Eoh _.
  destruct (tf_geom_inv _ _ _ _ Hg) as (C' & W' & H' & N' & ci & KW & KH & Co & Es & Ef & HC & Hci & HKW & HKH & DC & HG & DCo & M1 & M2 & (S1 & S2 & S3 & S4) & (I1 & I2) & Gg).
  injection Es as <- <- <- <-. subst sf.
  apply image_ok_spec in I1, I2. destruct I1 as [I1 J1], I2 as [I2 J2]. rewrite HPad in *.
  destruct J1 as [J1|[_ J1]]; [discriminate|]. destruct J2 as [J2|[_ J2]]; [discriminate|].
  destruct (padding_spec PadValid (H + pt + pb) KH (tc_sh k) (tc_dh k) I1 ltac:(lia) ltac:(lia) ltac:(lia) (or_intror (conj eq_refl J1))) as [P1 _].
  destruct (padding_spec PadValid (W + pl + pr) KW (tc_sw k) (tc_dw k) I2 ltac:(lia) ltac:(lia) ltac:(lia) (or_intror (conj eq_refl J2))) as [P2 _].
  rewrite P1, P2 in Gg. cbn [fst snd out_size pad_before] in Gg.
  set (g2 := same_geom N H W KH KW (tc_sh k) (tc_sw k) (tc_dh k) (tc_dw k) (C / ci) ci (Co / (C / ci))).
  assert (G' : tf_geom (to_same k) [C; W; H; N] [Co; ci; KW; KH] = Some g2).
  { unfold tf_geom, to_same, image_ok. cbn [tc_pad tc_sh tc_sw tc_dh tc_dw].
    rewrite (proj2 (Z.ltb_lt 0 C)), (proj2 (Z.ltb_lt 0 ci)), (proj2 (Z.ltb_lt 0 KW)), (proj2 (Z.ltb_lt 0 KH)), M1, M2 by lia.
    rewrite (proj2 (Z.ltb_lt 0 (tc_sh k))), (proj2 (Z.ltb_lt 0 (tc_sw k))), (proj2 (Z.ltb_lt 0 (tc_dh k))), (proj2 (Z.ltb_lt 0 (tc_dw k))) by lia.
    rewrite (proj2 (Z.leb_le 0 H)), (proj2 (Z.leb_le 0 W)) by lia. cbn [andb Z.eqb].
    rewrite !padding_same by lia. reflexivity. }
  fold (valid_geom N (H + pt + pb) (W + pl + pr) KH KW (tc_sh k) (tc_sw k) (tc_dh k) (tc_dw k) (C / ci) ci (Co / (C / ci))) in Gg.
  rewrite <- Eow, <- Eoh, Gg in HSP. destruct Hspl as [Sp1 Sp2].
  assert (HK2 : 1 <= KH /\ 1 <= KW) by lia. assert (HS2 : 1 <= tc_sh k /\ 1 <= tc_sw k) by lia.
  assert (HD2 : 1 <= tc_dh k /\ 1 <= tc_dw k) by lia. assert (HP2 : 0 <= pt /\ 0 <= pb /\ 0 <= pl /\ 0 <= pr) by lia.
  destruct (fuse_shape N H W KH KW (tc_sh k) (tc_sw k) (tc_dh k) (tc_dw k) (C / ci) ci (Co / (C / ci)) pt pb pl pr HS2 HP2 HSP) as [FS1 FS2].
  rewrite G'. eexists. split; [reflexivity|]. fold g2 in FS1, FS2. split; [cbn [sh]|cbn [sh at_]].
  { unfold out_sh. rewrite Gg. cbn [gOH gOW gB valid_geom]. cbn [gOH gOW valid_geom] in FS1, FS2. rewrite FS1, FS2. reflexivity. }
  intros i Hi. unfold out_sh in Hi. destruct (in_range4 _ _ _ _ _ Hi) as (o & x & y & n & -> & Ho & Hx & Hy & Hn). cbn [hwio_out] in Ho.
  apply actQ_comp. apply Qplus_comp; [|reflexivity]. rewrite Gg in *. clear Gg g Hg Hi. unfold convq.
  subst g2. cbn [gKH gKW gCI gCO valid_geom same_geom]. set (g2 := same_geom _ _ _ _ _ _ _ _ _ _ _ _) in *.
  apply sumQ_ext. intros fy Hfy. apply sumQ_ext. intros fx Hfx. apply sumQ_ext. intros ch Hch.
  apply Qmult_comp; [|reflexivity].
  cbn [gOH gOW gB valid_geom] in Hn, Hy, Hx.
  assert (HK := channel_range C ci Co o ch Hci DC HG DCo Ho Hch).
  set (cc := o / (Co / (C / ci)) * ci + ch) in *.
  assert (FT := fuse_tap N H W KH KW (tc_sh k) (tc_sw k) (tc_dh k) (tc_dw k) (C / ci) ci (Co / (C / ci)) pt pb pl pr
    HK2 HS2 HD2 HP2 HSP Sp1 Sp2 0%Q (fun b y x c => at_ t0 [c; x; y; b]) n y x fy fx cc Hy Hx Hfy Hfx).
  assert (V1 := valid_tap (H + pt + pb) KH (tc_sh k) (tc_dh k) y fy ltac:(lia) ltac:(lia) ltac:(lia) Hy Hfy).
  assert (V2 := valid_tap (W + pl + pr) KW (tc_sw k) (tc_dw k) x fx ltac:(lia) ltac:(lia) ltac:(lia) Hx Hfx).
  fold g2 in FT. rewrite <- FT. unfold tap, inside. cbn [gH gW gSH gSW gDH gDW gPH gPW valid_geom]. rewrite !Z.sub_0_r.
  replace ((0 <=? _) && _ && _ && _) with true.
  2:{ symmetry. rewrite !andb_true_iff, !Z.leb_le, !Z.ltb_lt. lia. }
  set (yy := y * tc_sh k + fy * tc_dh k) in *. set (xx := x * tc_sw k + fx * tc_dw k) in *. clearbody yy xx.
  unfold padded. cbn [at_]. rewrite ?Z.sub_0_r.
  replace ((0 <=? cc) && (cc <? C) && _ && _ && _ && _ && _ && _) with ((pt <=? yy) && (yy <? pt + H) && (pl <=? xx) && (xx <? pl + W)).
  2:{ apply bool_eq. rewrite !andb_true_iff, !Z.leb_le, !Z.ltb_lt. lia. }
  destruct (_ && _ && _ && _); [reflexivity|exact Hz].
Qed.

Lemma is_zero_all tv : is_zero tv = true -> (flat tv 0 == 0)%Q /\ forall i, in_range (sh tv) i -> (at_ tv i == 0)%Q.
Proof.
  unfold is_zero. rewrite andb_true_iff, Z.eqb_eq. intros [H1 H2]. apply Qeq_bool_eq in H2. split; [exact H2|].
  intros i Hi. destruct (ravel_ok _ _ Hi) as [R1 R2]. rewrite H1 in R1. replace (ravel (sh tv) i) with 0 in R2 by lia.
  unfold flat in H2. rewrite R2 in H2. exact H2.
Qed.

(** ** The condition is kept *)
Lemma fusable_teq tp tp' si so k : teq eq tp tp' -> fusable tp si so k = true -> fusable tp' si so k = true.
Proof.
  intros [Hs He] H. destruct (fusable_same _ _ _ _ H) as [_ E]. revert H.
  unfold fusable, NoBatchAndChannelPadding, IsSamePaddingPartial, valid_pads. rewrite <- Hs. rewrite E in *.
  rewrite !He by (repeat constructor; lia). auto.
Qed.
(** The operations the condition speaks about *)
Definition watched (o : op) : Prop :=
  (exists kd k a, o = tfl_conv kd k a /\ tc_pad k = PadValid) \/ o = tfl_pad \/ o = tfl_padv2.
Lemma fuse_kept S p q e0 e e' :
  ssa S p -> ssa S q -> eval p e0 = Some e -> eval q e0 = Some e' ->
  (forall x v, In x (S ++ map iid p) -> In x (S ++ map iid q) -> e x = Some v -> exists w, e' x = Some w /\ veq v w) ->
  (forall r o args, In (r, o, args) q -> watched o -> In (r, o, args) p) ->
  fuse_sane p e -> fuse_sane q e'.
Proof.
  intros HP HQ HE HE' HV HC HF kd k a r d f b x ti tp F sf v Hin HPad (pd & Epd & HB) Ex Ef Er Hh HFu.
  assert (Hinp : In (r, tfl_conv kd k a, [d; f; b]) p) by (apply HC; [exact Hin|left; eauto 10]).
  assert (HD : forall o args, def q d = Some (o, args) -> o = tfl_pad \/ o = tfl_padv2 -> def p d = Some (o, args)).
  { intros o args Hd Ho. apply (IRWell.def_in S p); [exact HP|]. apply HC; [apply def_instr, Hd|]. destruct Ho; [right; left|right; right]; assumption. }
  assert (SB : forall y w, In y (S ++ map iid p) -> In y (S ++ map iid q) -> e' y = Some w -> exists u, e y = Some u /\ veq u w).
  { intros y w Hy Hy' Hw. eapply (back S p q e0 e e'); eauto. }
  assert (KA : forall y, In y [d; f; b] -> In y (S ++ map iid p) /\ In y (S ++ map iid q))
    by (intros y Hy; split; [exact (ssa_args S p HP _ y Hinp Hy)|exact (ssa_args S q HQ _ y Hin Hy)]).
  assert (KB : forall o args y, def q d = Some (o, args) -> o = tfl_pad \/ o = tfl_padv2 -> In y args -> In y (S ++ map iid p) /\ In y (S ++ map iid q)).
  { intros o args y Hd Ho Hy. split; [exact (ssa_args S p HP _ y (def_instr _ _ _ _ (HD _ _ Hd Ho)) Hy)|exact (ssa_args S q HQ _ y (def_instr _ _ _ _ Hd) Hy)]. }
  assert (Kx : (In x (S ++ map iid p) /\ In x (S ++ map iid q)) /\ In pd (S ++ map iid p) /\ In pd (S ++ map iid q)).
  { destruct HB as [Hd|(pv & tv & Hd & _)]; split; apply (KB _ _ _ Hd); cbn; auto. }
  destruct Kx as [[Kx Kx'] [Kpd Kpd']].
  destruct (SB x _ Kx Kx' Ex) as (u1 & Ex0 & V1). destruct u1 as [ti0| | | |]; try contradiction.
  destruct (SB pd _ Kpd Kpd' Epd) as (u2 & Epd0 & V2). destruct u2 as [| | |tp0|]; try contradiction.
  destruct (SB f _ (proj1 (KA f ltac:(cbn; auto))) (proj2 (KA f ltac:(cbn; auto))) Ef) as (u3 & Ef0 & V3). destruct u3 as [F0| | | |]; try contradiction.
  destruct (SB r v) as (v0 & Er0 & V4);
    [apply in_or_app; right; apply (in_map iid) in Hinp; exact Hinp|apply in_or_app; right; apply (in_map iid) in Hin; exact Hin|exact Er|].
  change (teq Qeq ti0 ti) in V1. change (teq eq tp0 tp) in V2. change (teq Qeq F0 F) in V3.
  assert (HPB : padded_by p e d x tp0).
  { exists pd. split; [exact Epd0|]. destruct HB as [Hd|(pv & tv & Hd & Ev & Hz)].
    - left. apply HD; auto.
    - right. destruct (KB _ _ pv Hd ltac:(auto) ltac:(cbn; auto)) as [Kv Kv'].
      destruct (SB pv _ Kv Kv' Ev) as (u5 & Ev0 & V5). destruct u5 as [tv0| | | |]; try contradiction.
      destruct V5 as [Vs Ve]. exists pv, tv0. split; [apply HD; auto|]. split; [exact Ev0|].
      intros i Hi. rewrite (Ve i Hi). apply Hz. rewrite <- Vs. exact Hi. }
  assert (V2' : teq eq tp tp0) by (apply teq_sym; [congruence|exact V2]).
  assert (Hs := fusable_same _ _ _ _ HFu). destruct Hs as [_ Hs].
  rewrite <- (veq_shape _ _ V4), <- (proj1 V1) in HFu. rewrite <- (proj1 V1), <- (proj1 V3) in Hh.
  assert (HFu0 := fusable_teq _ _ _ _ _ V2' HFu).
  assert (R := HF kd k a r d f b x ti0 tp0 F0 sf v0 Hinp HPad HPB Ex0 Ef0 Er0 Hh HFu0).
  rewrite <- (proj1 V1). apply (split_teq k tp0 tp); [exact V2|destruct V2 as [Z1 _]; congruence|exact R].
Qed.

Definition fgood (S : list nat) (e0 : env) (p : list instr) (outs : list nat) (e : env) : Prop :=
  ssa S p /\ (forall x, In x outs -> In x (S ++ map iid p)) /\ eval p e0 = Some e /\ fuse_sane p e.

(** Replacing one operation *)
Lemma replace_good S outs e0 pre r o a post o' a' e :
  let p := pre ++ (r, o, a) :: post in
  let SC := rev (map iid pre) ++ S in
  fgood S e0 p outs e ->
  (forall ep vs v, eval pre e0 = Some ep -> look ep a = Some vs -> denote o vs = Some v ->
     (forall x, In x a' -> In x SC) /\ exists vs' v', look ep a' = Some vs' /\ denote o' vs' = Some v' /\ veq v v') ->
  (forall kd k b, o' = tfl_conv kd k b -> tc_pad k <> PadValid) -> o' <> tfl_pad -> o' <> tfl_padv2 ->
  let q := pre ++ (r, o', a') :: post in
  exists e', fgood S e0 q outs e' /\ Forall2 (related e e') outs outs.
Proof.
  intros p SC (HS & HO & HE & HA) HL H1 H2 H3 q.
  destruct (splice_sound S outs e0 pre r o a post [] o' a' e HS HO ltac:(intros x []) HE) as (HS' & HO' & e' & HE' & HV).
  { intros ep vs v Ep El Ed. destruct (HL ep vs v Ep El Ed) as (A & vs' & v' & B). split; [exact I|]. split; [exact A|].
    exists ep, vs', v'. cbn [eval]. tauto. }
  cbn [app] in HS', HO', HE'. fold p in HV; fold q in HS', HO', HE'.
  assert (EI : map iid q = map iid p) by (unfold p, q; rewrite !map_app; reflexivity).
  exists e'. split; [|apply F2_same; intros x Hx v Hv; apply (HV x v); [apply HO, Hx|exact Hv]].
  split; [exact HS'|]. split; [exact HO'|]. split; [exact HE'|].
  apply (fuse_kept S p q e0 e e'); auto.
  intros r1 o1 args Hi HW. unfold p, q in *. apply in_app_or in Hi. apply in_or_app. destruct Hi as [Hi|[Hi|Hi]]; [auto| |cbn [In]; auto].
  exfalso. assert (E : o' = o1) by (change o' with (iop (r, o', a')); rewrite Hi; reflexivity). subst o1.
  destruct HW as [(kd & k & b & E & HPad)|[E|E]]; [apply (H1 _ _ _ E HPad)|contradiction|contradiction].
Qed.
Lemma fdead_good S outs e0 pre i post e :
  uses (pre ++ i :: post) outs (iid i) = 0%nat -> fgood S e0 (pre ++ i :: post) outs e ->
  exists e', fgood S e0 (pre ++ post) outs e' /\ Forall2 (related e e') outs outs.
Proof.
  intros U0 (HS & HO & HE & HA).
  destruct (step_sound_all true S outs e0 (pre ++ i :: post) (pre ++ post) e HS HO (S_dead _ _ _ _ pre i post U0) HE) as (HS' & HO' & e' & HE' & HV).
  assert (HI : incl (map iid (pre ++ post)) (map iid (pre ++ i :: post))).
  { intros x. rewrite !map_app. cbn [map]. rewrite !in_app_iff. cbn [In]. tauto. }
  assert (HV' : forall x v, In x (S ++ map iid (pre ++ post)) -> e x = Some v -> exists w, e' x = Some w /\ veq v w).
  { intros x v Hx. apply HV; [|exact Hx]. apply in_app_or in Hx. apply in_or_app. destruct Hx; auto. }
  exists e'. split; [|apply F2_same; intros x Hx v Hv; apply (HV' x v); [apply HO', Hx|exact Hv]].
  split; [exact HS'|]. split; [exact HO'|]. split; [exact HE'|].
  apply (fuse_kept S (pre ++ i :: post) (pre ++ post) e0 e e'); auto.
  intros r o args Hi _. apply in_app_or in Hi. apply in_or_app. cbn [In]. tauto.
Qed.

(** The optimisation pass keeps the condition. *)
Lemma rule_unwatched G arm D o a inner news o' a' : rule G arm D (o, a) inner news (o', a') ->
  (forall i, In i news -> ~ watched (iop i)) /\ ~ watched o'.
Proof.
  assert (W : forall w, match w with OOther _ => True | _ => ~ watched w end).
  { intros w. destruct w; try exact I; (intros [(kd0 & k0 & b0 & E & _)|[E|E]]; discriminate E). }
  intros R. inversion R; subst; (split; [intros j Hj; cbn [In] in Hj; repeat (destruct Hj as [<-|Hj]; [cbn [iop fst snd]; match goal with |- ~ watched ?u => exact (W u) end|]); contradiction
    |match goal with |- ~ watched ?u => exact (W u) end]).
Qed.
Lemma step_fuse arm S outs e0 p q e :
  ssa S p -> (forall x, In x outs -> In x (S ++ map iid p)) -> step (fits e0 p) arm S outs p q -> eval p e0 = Some e -> fuse_sane p e ->
  forall e', eval q e0 = Some e' -> fuse_sane q e'.
Proof.
  intros HS HO Hst HE HF e' HE'. destruct (step_sound_all arm S outs e0 p q e HS HO Hst HE) as (HS' & _ & e1 & E1 & HV).
  assert (e1 = e') by congruence. subst e1. apply (fuse_kept S p q e0 e e'); auto.
  intros r0 o0 args Hi HW. inversion Hst as [pre r o a post inner news o' a' R U1 U0 ND NF EQ1 EQ2
    | pre r o a post vs v Fo HC HD U0 EQ1 EQ2 | pre i post U0 EQ1 EQ2]; subst.
  - destruct (rule_unwatched _ _ _ _ _ _ _ _ _ R) as [N1 N2]. apply in_or_app. apply in_app_or in Hi. destruct Hi as [Hi|Hi]; [auto|].
    apply in_app_or in Hi. destruct Hi as [Hi|[Hi|Hi]].
    + exfalso. apply (N1 _ Hi HW).
    + exfalso. assert (E : o' = o0) by (change o' with (iop (r, o', a')); rewrite Hi; reflexivity). subst o0. contradiction.
    + right. right. exact Hi.
  - apply in_or_app. apply in_app_or in Hi. destruct Hi as [Hi|[Hi|Hi]]; [auto| |right; right; exact Hi].
    exfalso. assert (E : OConst v = o0) by (change (OConst v) with (iop (r, OConst v, [])); rewrite Hi; reflexivity). subst o0.
    destruct HW as [(kd & k & b & E & _)|[E|E]]; discriminate E.
  - apply in_or_app. apply in_app_or in Hi. cbn [In]. tauto.
Qed.
Theorem steps_fuse arm S outs e0 p q e :
  ssa S p -> (forall x, In x outs -> In x (S ++ map iid p)) -> steps (fun _ => as_is) arm S outs p q ->
  eval p e0 = Some e -> tame p e -> fuse_sane p e ->
  exists e', fgood S e0 q outs e' /\ ele outs e e'.
Proof.
  intros HS HO Hst. revert e HS HO. induction Hst as [p|p p' q H1 H2 IH]; intros e HS HO HE HT HF.
  - exists e. split; [split; [exact HS|split; [exact HO|split; [exact HE|exact HF]]]|]. intros x w _ Hw. exists w. split; [exact Hw|apply veq_refl].
  - destruct (step_tame arm S outs e0 p p' e HS HO HE HT H1) as [H1' HT'].
    destruct (step_sound arm S outs e0 p p' e HS HO H1' HE) as (HS' & HO' & e1 & E1 & L1).
    assert (HF' := step_fuse arm S outs e0 p p' e HS HO H1' HE HF e1 E1).
    destruct (IH e1 HS' HO' E1 (HT' e1 E1) HF') as (e2 & E2 & L2). exists e2. split; [exact E2|]. eapply ele_trans; eassumption.
Qed.

Lemma shapes_of e0 p e x v : eval p e0 = Some e -> e x = Some v -> shapes e0 p x = vshape v.
Proof. intros H1 H2. unfold shapes. rewrite H1, H2. reflexivity. Qed.

Lemma pad_val vs v : pad_fun vs = Some v -> exists t p x u, vs = [VF t; VInt p; VF x] /\ v = VF u.
Proof.
  intros H. destruct vs as [|[t| | | |] [|[| | |p|] [|[x| | | |] [|]]]]; try discriminate. cbn [pad_fun] in H.
  destruct (_ && _ && _); [|discriminate]. apply option_map_some in H. destruct H as (u & _ & ->). eauto 10.
Qed.
Lemma lconv_val kd k a vs v : lconv_fun kd k a vs = Some v -> exists t f b, vs = [VF t; VF f; b].
Proof. intros H. destruct vs as [|[t| | | |] [|[f| | | |] [|b [|]]]]; try discriminate. eauto. Qed.

Section FuseRule.
  Variables (S : list nat) (e0 e ep : env) (pre post : list instr) (r : nat) (o : op) (a : list nat) (vs : list value) (v : value).
  Let p := pre ++ (r, o, a) :: post.
  Let SC := rev (map iid pre) ++ S.
  Hypothesis HS : ssa S p.
  Hypothesis HE : eval p e0 = Some e.
  Hypothesis HA : fuse_sane p e.
  Hypothesis Ep : eval pre e0 = Some ep.
  Hypothesis El : look ep a = Some vs.
  Hypothesis Ed : denote o vs = Some v.

  Lemma fr_keep x w : In x SC -> ep x = Some w -> e x = Some w.
  Proof.
    intros Hx Hw. assert (H := HE). unfold p in H. rewrite eval_app, Ep in H. cbn [eval] in H. rewrite El, Ed in H.
    assert (H2 := HS). unfold p in H2. apply ssa_app in H2. destruct H2 as [_ (_ & Hr & H3)]. fold SC in Hr, H3.
    rewrite (eval_frame _ _ _ x H), upd_other; [exact Hw|congruence|].
    intros C. apply (ssa_notin _ _ H3 x C). right. exact Hx.
  Qed.
  Lemma fr_res : e r = Some v.
  Proof.
    assert (H := HE). unfold p in H. rewrite eval_app, Ep in H. cbn [eval] in H. rewrite El, Ed in H.
    assert (H2 := HS). unfold p in H2. apply ssa_app in H2. destruct H2 as [_ (_ & Hr & H3)]. fold SC in Hr, H3.
    rewrite (eval_frame _ _ _ r H), upd_same; [reflexivity|]. intros C. apply (ssa_notin _ _ H3 r C). left. reflexivity.
  Qed.
  Lemma fr_def x z : def pre x = Some z -> def p x = Some z.
  Proof. intros H. unfold p. rewrite def_app, H. reflexivity. Qed.
  Lemma fr_ssa : ssa S pre.
  Proof. assert (H2 := HS). unfold p in H2. apply ssa_app in H2. exact (proj1 H2). Qed.
  Lemma fr_scope x : In x a -> In x SC.
  Proof. intros Hx. assert (H2 := HS). unfold p in H2. apply ssa_app in H2. destruct H2 as [_ (Ha & _)]. apply Ha, Hx. Qed.
End FuseRule.
Lemma look3 ep x y z vs : look ep [x; y; z] = Some vs -> exists u v w, ep x = Some u /\ ep y = Some v /\ ep z = Some w /\ vs = [u; v; w].
Proof.
  cbn [look]. destruct (ep x) as [u|]; [|discriminate]. destruct (ep y) as [v|]; [|discriminate]. destruct (ep z) as [w|]; [|discriminate].
  intros H. injection H as <-. eauto 10.
Qed.
Lemma look2 ep x y vs : look ep [x; y] = Some vs -> exists u v, ep x = Some u /\ ep y = Some v /\ vs = [u; v].
Proof.
  cbn [look]. destruct (ep x) as [u|]; [|discriminate]. destruct (ep y) as [v|]; [|discriminate].
  intros H. injection H as <-. eauto 10.
Qed.

Lemma frule_sound S e0 e ep pre post r o a vs v inner o' a' :
  let p := pre ++ (r, o, a) :: post in
  ssa S p -> eval p e0 = Some e -> fuse_sane p e -> eval pre e0 = Some ep -> look ep a = Some vs -> denote o vs = Some v ->
  frule (shapes e0 p) (def pre) r (o, a) inner (o', a') ->
  (forall x, In x a' -> In x (rev (map iid pre) ++ S)) /\ (exists vs' v', look ep a' = Some vs' /\ denote o' vs' = Some v' /\ veq v v') /\
  (forall kd k b, o' = tfl_conv kd k b -> tc_pad k <> PadValid) /\ o' <> tfl_pad /\ o' <> tfl_padv2.
Proof.
  intros p HS HE HA Ep El Ed R.
  assert (HSp := fr_ssa S pre post r o a HS).
  assert (Hsc := fr_scope S pre post r o a HS).
  assert (Hkeep := fr_keep S e0 e ep pre post r o a vs v HS HE Ep El Ed).
  assert (Hres := fr_res S e0 e ep pre post r o a vs v HS HE Ep El Ed).
  assert (Main : forall kd k b d f c x pd tv tp pv,
    o = tfl_conv kd k b -> a = [d; f; c] -> tc_pad k = PadValid -> (flat tv 0 == 0)%Q ->
    def pre pd = Some (OConst (VInt tp), []) -> fusable tp (shapes e0 p x) (shapes e0 p r) k = true ->
    (forall xs y, look ep [x; pd] = Some xs -> ep d = Some y -> exists t, xs = [VF t; VInt tp] /\ pad_fun [VF t; VInt tp; VF tv] = Some y) ->
    (exists dop dargs, def pre d = Some (dop, dargs) /\ In x dargs /\ In pd dargs /\ (dop = tfl_pad /\ dargs = [x; pd] \/ dop = tfl_padv2 /\ dargs = [x; pd; pv] /\
       def pre pv = Some (OConst (VF tv), []) /\ forall i, in_range (sh tv) i -> (at_ tv i == 0)%Q)) ->
    (forall y, In y [x; f; c] -> In y (rev (map iid pre) ++ S)) /\
    exists vs' v', look ep [x; f; c] = Some vs' /\ denote (tfl_conv kd (to_same k) b) vs' = Some v' /\ veq v v').
  { intros kd k b d f c x pd tv tp pv Ho Ha HPad Hz Hpd HFu Hpadf (dop & dargs & Hd & Hxd & Hpdd & HD).
    destruct (d_any S pre e0 ep HSp Ep d _ _ Hd) as (ds & dv & L2 & D2 & Edv & _ & Hds).
    assert (Kx := Hds x Hxd). assert (Kpd := Hds pd Hpdd).
    rewrite Ha in El. rewrite Ho in Ed. destruct (look3 _ _ _ _ _ El) as (u1 & u2 & u3 & G1 & G2 & G3 & ->).
    assert (Ex : exists vx, ep x = Some vx).
    { clear - L2 Hxd. revert ds L2. induction dargs as [|z l IH]; [destruct Hxd|]. intros ds L2. cbn [look] in L2.
      destruct (ep z) as [w|] eqn:Ew; [|discriminate]. destruct (look ep l) as [ws|]; [|discriminate].
      destruct Hxd as [->|Hx]; [eauto|]. apply (IH Hx ws eq_refl). }
    destruct Ex as [vx Ex]. destruct (d_const S pre e0 ep HSp Ep pd _ Hpd) as [Epd _].
    destruct (Hpadf [vx; VInt tp] u1) as (t0 & Et & HPF); [cbn [look]; rewrite Ex, Epd; reflexivity|exact G1|].
    injection Et as ->.
    destruct (pad_val _ _ HPF) as (t1 & p1 & x1 & t & _ & ->).
    change (lconv_fun kd k b [VF t; u2; u3] = Some v) in Ed.
    destruct (lconv_val _ _ _ _ _ Ed) as (t2 & F & b2 & EF). injection EF as <- -> <-.
    assert (KF : In f (rev (map iid pre) ++ S)) by (apply Hsc; rewrite Ha; cbn; auto).
    assert (Sx : shapes e0 p x = sh t0) by (apply (shapes_of e0 p e x (VF t0) HE); apply Hkeep; assumption).
    assert (Sr : shapes e0 p r = vshape v) by (apply (shapes_of e0 p e r v HE Hres)).
    rewrite Sx, Sr in HFu.
    destruct (fuse_core kd k b t0 tp tv t F u3 v HPF Ed HPad Hz HFu) as (w & Ew & Vw).
    - intros sf Hh.
      apply (HA kd k b r d f c x t0 tp F sf v); auto.
      + rewrite <- Ho, <- Ha. unfold p. apply in_or_app. right. left. reflexivity.
      + exists pd. split; [apply Hkeep; assumption|]. destruct HD as [[-> ->]|(-> & -> & Hpv & Hzz)].
        * left. apply fr_def, Hd.
        * right. destruct (d_const S pre e0 ep HSp Ep pv _ Hpv) as [Epv Kpv]. exists pv, tv. split; [apply fr_def, Hd|]. split; [apply Hkeep; assumption|exact Hzz].
    - split.
      + intros y [<-|[<-|[<-|[]]]]; [exact Kx|exact KF|apply Hsc; rewrite Ha; cbn; auto].
      + exists [VF t0; VF F; u3], w. cbn [look]. rewrite Ex, G2, G3. split; [reflexivity|]. split; [exact Ew|exact Vw]. }
  assert (NE : forall kd k b, (forall kd' k' b', tfl_conv kd (to_same k) b = tfl_conv kd' k' b' -> tc_pad k' <> PadValid) /\
     tfl_conv kd (to_same k) b <> tfl_pad /\ tfl_conv kd (to_same k) b <> tfl_padv2).
  { intros kd k b. split; [|split].
    - intros kd' k' b' E. assert (EK : KConv2D (to_same k) = KConv2D k').
      { change (KConv2D (to_same k)) with (match tfl_conv kd (to_same k) b with OOther x => ek x | _ => KOther end). rewrite E. reflexivity. }
      injection EK as <-. discriminate.
    - intros E. assert (EK : KConv2D (to_same k) = KOther).
      { change (KConv2D (to_same k)) with (match tfl_conv kd (to_same k) b with OOther x => ek x | _ => KOther end). rewrite E. reflexivity. }
      discriminate EK.
    - intros E. assert (EK : KConv2D (to_same k) = KPad).
      { change (KConv2D (to_same k)) with (match tfl_conv kd (to_same k) b with OOther x => ek x | _ => KOther end). rewrite E. reflexivity. }
      discriminate EK. }
  inversion R as [kd k b r1 d f c x pd tp Hd Hpd HPad HFu E1 E2 E3 E4 | kd k b r1 d f c x pd pv tp tv Hd Hpd Hpv HZ HPad HFu E1 E2 E3 E4].
  - match goal with HH : [x; f; c] = a' |- _ => rename HH into EB end. rewrite <- E3 in Hd. try rewrite <- E4. try rewrite <- EB. destruct (NE kd k b) as (N1 & N2 & N3).
    destruct (Main kd k b d f c x pd (mkT [] (fun _ => 0%Q)) tp x) as [M1 M2]; auto.
    + reflexivity.
    + intros xs y Hl Hy. destruct (d_any S pre e0 ep HSp Ep d _ _ Hd) as (ds & dv & L2 & D2 & Edv & _).
      change (lpad_fun ds = Some dv) in D2.
      destruct (look2 _ _ _ _ L2) as (w1 & w2 & W1 & W2 & ->). cbn [lpad_fun] in D2.
      destruct (pad_val _ _ D2) as (t1 & p1 & x1 & t & Et & _). injection Et as -> -> _.
      destruct (d_const S pre e0 ep HSp Ep pd _ Hpd) as [Epd _]. rewrite Epd in W2. injection W2 as <-.
      cbn [look] in Hl. rewrite W1, Epd in Hl. injection Hl as <-. exists t1. split; [reflexivity|]. rewrite <- Hy, Edv. exact D2.
    + exists tfl_pad, [x; pd]. cbn [In]. auto 10.
  - match goal with HH : [x; f; c] = a' |- _ => rename HH into EB end. rewrite <- E3 in Hd. try rewrite <- E4. try rewrite <- EB. destruct (NE kd k b) as (N1 & N2 & N3). destruct (is_zero_all _ HZ) as [Z1 Z2].
    destruct (Main kd k b d f c x pd tv tp pv) as [M1 M2]; auto.
    + intros xs y Hl Hy. destruct (d_any S pre e0 ep HSp Ep d _ _ Hd) as (ds & dv & L2 & D2 & Edv & _).
      change (pad_fun ds = Some dv) in D2.
      destruct (look3 _ _ _ _ _ L2) as (w1 & w2 & w3 & W1 & W2 & W3 & ->).
      destruct (pad_val _ _ D2) as (t1 & p1 & x1 & t & Et & _). injection Et as -> -> ->.
      destruct (d_const S pre e0 ep HSp Ep pd _ Hpd) as [Epd _]. rewrite Epd in W2. injection W2 as <-.
      destruct (d_const S pre e0 ep HSp Ep pv _ Hpv) as [Epv _]. rewrite Epv in W3. injection W3 as <-.
      cbn [look] in Hl. rewrite W1, Epd in Hl. injection Hl as <-. exists t1. split; [reflexivity|]. rewrite <- Hy, Edv. exact D2.
    + exists tfl_padv2, [x; pd; pv]. cbn [In]. auto 10.
Qed.

Theorem fstep_good S e0 p outs q e :
  fstep (shapes e0) outs p q -> fgood S e0 p outs e -> exists e', fgood S e0 q outs e' /\ Forall2 (related e e') outs outs.
Proof.
  intros H HG. inversion H as [pre r o a post inner o' a' R U E1 E2 | pre r o a post vs v NC HC HD E1 E2 | pre i post U0 E1 E2]; subst; clear H.
  - destruct HG as (HS & HO & HE & HA).
    assert (HX : exists ep vs v, eval pre e0 = Some ep /\ look ep a = Some vs /\ denote o vs = Some v).
    { clear - HE. rewrite eval_app in HE. destruct (eval pre e0) as [ep|]; [|discriminate]. cbn [eval] in HE.
      destruct (look ep a) as [vs|] eqn:E1; [|discriminate]. destruct (denote o vs) as [v|] eqn:E2; [|discriminate]. eauto 10. }
    destruct HX as (ep & vs & v & Ep & El & Ed).
    destruct (frule_sound S e0 e ep pre post r o a vs v inner o' a' HS HE HA Ep El Ed R) as (A1 & A2 & A3 & A4 & A5).
    apply (replace_good S outs e0 pre r o a post o' a' e); auto.
    + split; [exact HS|]. split; [exact HO|]. split; [exact HE|exact HA].
    + intros ep' vs' v' Ep' El' Ed'. assert (ep' = ep) by congruence. subst ep'. assert (vs' = vs) by congruence. subst vs'.
      assert (v' = v) by congruence. subst v'. split; [exact A1|exact A2].
  - apply (replace_good S outs e0 pre r o a post (OConst v) [] e); auto; try discriminate.
    intros ep vs' w Ep El Ed. split; [intros x []|]. exists [], v. cbn [look denote].
    do 2 (split; [reflexivity|]). destruct HG as (HS & _). apply ssa_app in HS. destruct HS as [HS1 _].
    assert (El' : look ep a = Some vs).
    { clear - HC HS1 Ep. induction HC as [|x v l vs Hx HC IH]; [reflexivity|]. cbn [look].
      destruct (d_const S pre e0 ep HS1 Ep x v Hx) as [-> _]. rewrite IH. reflexivity. }
    assert (E : Some w = Some v) by congruence. injection E as ->. apply veq_refl.
  - apply (fdead_good _ _ _ _ i); assumption.
Qed.
Lemma F2_diag {A} (R : A -> A -> Prop) l : Forall2 R l l -> forall x, In x l -> R x x.
Proof. induction l as [|y l IH]; intros H x Hx; [destruct Hx|]. inversion H; subst. destruct Hx as [<-|Hx]; [assumption|apply IH; assumption]. Qed.
Theorem fsteps_good S e0 n outs p q : fsteps (shapes e0) outs n p q -> forall e, fgood S e0 p outs e ->
  exists e', fgood S e0 q outs e' /\ Forall2 (related e e') outs outs.
Proof.
  intros H. induction H as [p|n p q u H1 H2 IH]; intros e HG.
  - exists e. split; [exact HG|]. apply F2_same. intros x _ v Hv. exists v. split; [exact Hv|apply veq_refl].
  - destruct (fstep_good S e0 p outs q e H1 HG) as (e1 & G1 & R1). destruct (IH e1 G1) as (e2 & G2 & R2). exists e2. split; [exact G2|].
    apply F2_same. intros x Hx v Hv. destruct (F2_diag _ _ R1 x Hx v Hv) as (w & Ew & V1).
    destruct (F2_diag _ _ R2 x Hx w Ew) as (z & Ez & V2). exists z. split; [exact Ez|]. eapply veq_trans; eassumption.
Qed.

(** ** Termination: every action makes this smaller *)
Definition fweight (o : op) : nat :=
  match o with
  | OConst _ => 1
  | OOther x => match ek x with KConv2D k => match tc_pad k with PadValid => 3 | _ => 2 end | _ => 2 end
  | _ => 2
  end.
Fixpoint fsize (p : list instr) : nat := match p with [] => 0 | i :: p' => fweight (iop i) + fsize p' end.
Lemma fsize_app p q : fsize (p ++ q) = (fsize p + fsize q)%nat.
Proof. induction p as [|i p IH]; cbn [app fsize]; [reflexivity|]. rewrite IH. lia. Qed.
Lemma fweight_pos o : (1 <= fweight o <= 3)%nat.
Proof. destruct o as [| | | | | | | | | | |x]; cbn [fweight]; try lia. destruct (ek x) as [k| | | | | |]; try lia. destruct (tc_pad k); lia. Qed.
Lemma fsize_bound p : (fsize p <= 3 * length p)%nat.
Proof. induction p as [|i p IH]; cbn [fsize length]; [lia|]. assert (H := fweight_pos (iop i)). lia. Qed.
Lemma frule_size T D r o a inner o' a' : frule T D r (o, a) inner (o', a') -> (fweight o' < fweight o)%nat.
Proof.
  intros R. inversion R; subst; cbn [fweight tfl_conv ek to_same tc_pad];
  match goal with H : tc_pad _ = PadValid |- _ => rewrite H end; lia.
Qed.
Theorem fstep_size T outs p q : fstep T outs p q -> (fsize q < fsize p)%nat.
Proof.
  intros H. inversion H as [pre r o a post inner o' a' R U E1 E2 | pre r o a post vs v NC HC HD E1 E2 | pre i post U0 E1 E2]; subst;
    rewrite ?fsize_app; cbn [fsize iop fst snd].
  - apply frule_size in R. lia.
  - assert (2 <= fweight o)%nat; [|cbn [fweight]; lia].
    destruct o as [w| | | | | | | | | | |x]; cbn [fweight]; try lia.
    + destruct vs; [|discriminate]. inversion HC; subst. contradiction.
    + destruct (ek x) as [k| | | | | |]; try lia. destruct (tc_pad k); lia.
  - assert (K := fweight_pos (iop i)). lia.
Qed.
Theorem fsteps_size T outs n p q : fsteps T outs n p q -> (n + fsize q <= fsize p)%nat.
Proof. intros H. induction H as [p|n p q r H1 H2 IH]; [lia|]. assert (K := fstep_size _ _ _ _ H1). lia. Qed.
