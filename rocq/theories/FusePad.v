(** * FusePad: fusing Pad / PadV2 into a following VALID convolution,
    mlir/transforms/padding.h, fuse_padding.cc 12-43, fuse_padding.td,
    prepare_tf.cc 90-115 and prepare_patterns_common.td 132-166. *)
From Verif Require Import Base Spec Padding Check.

(** core/types.h CeilDiv (C++ int division, operands non-negative). *)
Definition CeilDiv (x y : Z) : Z := (x + y - 1) / y.

(** padding.h 33-44. [pb], [pa]: the row of the paddings tensor. *)
Definition IsSamePadding1D (pb pa input_size output_size stride : Z) : bool :=
  let pad_total := pb + pa in
  (output_size =? CeilDiv input_size stride) && (pb =? pad_total / 2) && (pa =? (pad_total + 1) / 2).

(** padding.h 46-49 *)
Definition IsNoPadding (pb pa : Z) : bool := (pb =? 0) && (pa =? 0).

(** prepare_tf.cc IsSamePadding / the constraints of fuse_padding.td:
    [p0..p3] are the four rows of the [4,2] paddings tensor. *)
Definition IsSamePadding (p0 p1 p2 p3 : Z * Z) (in_h in_w out_h out_w sh sw : Z) : bool :=
  IsNoPadding (fst p0) (snd p0) && IsSamePadding1D (fst p1) (snd p1) in_h out_h sh &&
  IsSamePadding1D (fst p2) (snd p2) in_w out_w sw && IsNoPadding (fst p3) (snd p3).

(** ** Specification: padded tensors and convolutions *)

(** What Pad / PadV2 produces for rows [pt] and columns [pl] before the image. *)
Definition padded {V} (H W pt pl : Z) (padv : V) (I : Z -> Z -> Z -> Z -> V) (b y x c : Z) : V :=
  if (pt <=? y) && (y <? pt + H) && (pl <=? x) && (x <? pl + W) then I b (y - pt) (x - pl) c else padv.

(** The value a convolution multiplies with filter tap (fy, fx). *)
Definition tap {V} (g : geom) (padv : V) (I : Z -> Z -> Z -> Z -> V) (b oy ox fy fx c : Z) : V :=
  let y := oy * gSH g - gPH g + fy * gDH g in
  let x := ox * gSW g - gPW g + fx * gDW g in
  if inside g y x then I b y x c else padv.

(** The two programs' geometries: [k], [s], [d], filter size, strides, dilations. *)
Definition valid_geom (B H W KH KW SH SW DH DW G CI CO : Z) : geom :=
  {| gB := B; gH := H; gW := W; gKH := KH; gKW := KW; gOH := valid_out H KH SH DH; gOW := valid_out W KW SW DW;
     gSH := SH; gSW := SW; gDH := DH; gDW := DW; gPH := 0; gPW := 0; gG := G; gCI := CI; gCO := CO |}.
Definition same_geom (B H W KH KW SH SW DH DW G CI CO : Z) : geom :=
  {| gB := B; gH := H; gW := W; gKH := KH; gKW := KW; gOH := same_out H SH; gOW := same_out W SW;
     gSH := SH; gSW := SW; gDH := DH; gDW := DW; gPH := same_before H KH SH DH; gPW := same_before W KW SW DW;
     gG := G; gCI := CI; gCO := CO |}.

(** ** Proofs *)
Lemma accepted_total pb pa n k s d : 0 <= pb -> 0 <= pa -> 1 <= s -> 
  IsSamePadding1D pb pa n (valid_out (n + pb + pa) k s d) s = true ->
  valid_out (n + pb + pa) k s d = same_out n s /\
  same_total n k s d <= pb + pa <= same_total n k s d + (s - 1) /\ pb = (pb + pa) / 2.
Proof.
  intros Hb Ha Hs. unfold IsSamePadding1D, CeilDiv. fold (same_out n s). rewrite !andb_true_iff, !Z.eqb_eq.
  intros ((E & P1) & P2). split; [exact E|]. split; [|exact P1].
  unfold same_total. rewrite <- E. unfold valid_out. set (e := eff k d).
  assert (H := Z.div_mod (n + pb + pa - e + s) s ltac:(lia)).
  assert (H2 := Z.mod_pos_bound (n + pb + pa - e + s) s ltac:(lia)).
  set (q := (n + pb + pa - e + s) / s) in *. clearbody q. lia.
Qed.

Lemma accepted_before pb pa n k s d : 0 <= pb -> 0 <= pa -> 1 <= s ->
  IsSamePadding1D pb pa n (valid_out (n + pb + pa) k s d) s = true ->
  (s = 1 \/ (pb + pa) / 2 = same_total n k s d / 2) ->
  pb = same_before n k s d.
Proof.
  intros Hb Ha Hs HA HC. destruct (accepted_total pb pa n k s d Hb Ha Hs HA) as (_ & T & P).
  unfold same_before. destruct HC as [->|HC]; [|congruence].
  replace (same_total n k 1 d) with (pb + pa) by lia. exact P.
Qed.

Lemma valid_tap n k s d o t : 1 <= k -> 1 <= s -> 0 <= d -> 0 <= o < valid_out n k s d -> 0 <= t < k ->
  0 <= o * s + t * d < n.
Proof.
  intros Hk Hs Hd Ho Ht. unfold valid_out in Ho.
  assert (H := Z.div_mod (n - eff k d + s) s ltac:(lia)).
  assert (H2 := Z.mod_pos_bound (n - eff k d + s) s ltac:(lia)).
  set (q := (n - eff k d + s) / s) in *. clearbody q.
  assert (o * s <= (q - 1) * s) by (apply Z.mul_le_mono_nonneg_r; lia).
  assert (t * d <= (k - 1) * d) by (apply Z.mul_le_mono_nonneg_r; lia).
  assert (0 <= o * s) by (apply Z.mul_nonneg_nonneg; lia).
  assert (0 <= t * d) by (apply Z.mul_nonneg_nonneg; lia). unfold eff in *. lia.
Qed.

Lemma bool_eq (a b : bool) : (a = true <-> b = true) -> a = b.
Proof. destruct a, b; intros [H1 H2]; try reflexivity; [symmetry; apply H1; reflexivity|apply H2; reflexivity]. Qed.

Section Fuse.
  Context {V : Type}.
  Variables (B H W KH KW SH SW DH DW G CI CO pt pb pl pr : Z).
  Hypotheses (Hk : 1 <= KH /\ 1 <= KW) (Hs : 1 <= SH /\ 1 <= SW) (Hd : 1 <= DH /\ 1 <= DW).
  Hypotheses (Hp : 0 <= pt /\ 0 <= pb /\ 0 <= pl /\ 0 <= pr).
  Let g1 := valid_geom B (H + pt + pb) (W + pl + pr) KH KW SH SW DH DW G CI CO.
  Let g2 := same_geom B H W KH KW SH SW DH DW G CI CO.
  Hypothesis Hacc : IsSamePadding (0, 0) (pt, pb) (pl, pr) (0, 0) H W (gOH g1) (gOW g1) SH SW = true.
  Hypothesis Hh : SH = 1 \/ (pt + pb) / 2 = same_total H KH SH DH / 2.
  Hypothesis Hw : SW = 1 \/ (pl + pr) / 2 = same_total W KW SW DW / 2.

  Lemma acc_split : IsSamePadding1D pt pb H (valid_out (H + pt + pb) KH SH DH) SH = true /\
    IsSamePadding1D pl pr W (valid_out (W + pl + pr) KW SW DW) SW = true.
  Proof using Hacc.
    unfold IsSamePadding in Hacc. cbn [fst snd] in Hacc. rewrite !andb_true_iff in Hacc.
    destruct Hacc as (((_ & A) & B1) & _). exact (conj A B1).
  Qed.

  Lemma fuse_shape : gOH g1 = gOH g2 /\ gOW g1 = gOW g2.
  Proof using Hacc Hp Hs.
    destruct acc_split as [A1 A2]. cbn [g1 g2 gOH gOW valid_geom same_geom].
    clear Hh Hw. destruct Hp as (P1 & P2 & P3 & P4), Hs as (S1 & S2).
    split; [exact (proj1 (accepted_total pt pb H KH SH DH P1 P2 S1 A1))|exact (proj1 (accepted_total pl pr W KW SW DW P3 P4 S2 A2))].
  Qed.

  Lemma fuse_tap (padv : V) I b oy ox fy fx c :
    0 <= oy < gOH g1 -> 0 <= ox < gOW g1 -> 0 <= fy < KH -> 0 <= fx < KW ->
    tap g1 padv (padded H W pt pl padv I) b oy ox fy fx c = tap g2 padv I b oy ox fy fx c.
  Proof using Hacc Hp Hs Hk Hd Hh Hw.
    intros Hoy Hox Hfy Hfx. destruct acc_split as [A1 A2].
    assert (E1 := accepted_before pt pb H KH SH DH ltac:(tauto) ltac:(tauto) ltac:(tauto) A1 Hh).
    assert (E2 := accepted_before pl pr W KW SW DW ltac:(tauto) ltac:(tauto) ltac:(tauto) A2 Hw).
    cbn [g1 gOH gOW valid_geom] in Hoy, Hox.
    assert (Hd1 : 0 <= DH) by lia. assert (Hd2 : 0 <= DW) by lia.
    assert (T1 := valid_tap _ _ _ _ oy fy (proj1 Hk) (proj1 Hs) Hd1 Hoy Hfy).
    assert (T2 := valid_tap _ _ _ _ ox fx (proj2 Hk) (proj2 Hs) Hd2 Hox Hfx).
    unfold tap, padded, inside. cbn [g1 g2 gH gW gSH gSW gPH gPW gDH gDW valid_geom same_geom].
    rewrite <- E1, <- E2, !Z.sub_0_r.
    set (yy := oy * SH) in *. set (xx := ox * SW) in *. set (ty := fy * DH) in *. set (tx := fx * DW) in *.
    clearbody yy xx ty tx. clear A1 A2 E1 E2 Hoy Hox Hacc Hh Hw.
    replace ((0 <=? yy + ty) && (yy + ty <? H + pt + pb) && (0 <=? xx + tx) && (xx + tx <? W + pl + pr)) with true.
    2:{ symmetry. rewrite !andb_true_iff, !Z.leb_le, !Z.ltb_lt. tauto. }
    replace ((pt <=? yy + ty) && (yy + ty <? pt + H) && (pl <=? xx + tx) && (xx + tx <? pl + W))
      with ((0 <=? yy - pt + ty) && (yy - pt + ty <? H) && (0 <=? xx - pl + tx) && (xx - pl + tx <? W)).
    2:{ apply bool_eq. rewrite !andb_true_iff, !Z.leb_le, !Z.ltb_lt. lia. }
    destruct (_ && _ && _ && _); [|reflexivity]. f_equal; lia.
  Qed.
End Fuse.

Lemma conv_tap g padv I F b oy ox o :
  conv g padv I F b oy ox o =
  sum_ (gKH g) (fun fy => sum_ (gKW g) (fun fx => sum_ (gCI g) (fun c =>
    tap g padv I b oy ox fy fx (o / gCO g * gCI g + c) * F o fy fx c))).
Proof. reflexivity. Qed.

Lemma fuse_conv B H W KH KW SH SW DH DW G CI CO pt pb pl pr padv I F b oy ox o :
  1 <= KH /\ 1 <= KW -> 1 <= SH /\ 1 <= SW -> 1 <= DH /\ 1 <= DW ->
  0 <= pt /\ 0 <= pb /\ 0 <= pl /\ 0 <= pr ->
  let g1 := valid_geom B (H + pt + pb) (W + pl + pr) KH KW SH SW DH DW G CI CO in
  let g2 := same_geom B H W KH KW SH SW DH DW G CI CO in
  IsSamePadding (0, 0) (pt, pb) (pl, pr) (0, 0) H W (gOH g1) (gOW g1) SH SW = true ->
  SH = 1 \/ (pt + pb) / 2 = same_total H KH SH DH / 2 ->
  SW = 1 \/ (pl + pr) / 2 = same_total W KW SW DW / 2 ->
  0 <= oy < gOH g1 -> 0 <= ox < gOW g1 ->
  conv g1 padv (padded H W pt pl padv I) F b oy ox o = conv g2 padv I F b oy ox o.
Proof.
  intros Hk Hs Hd Hp g1 g2 HA Hh Hw Hy Hx. rewrite !conv_tap.
  apply sum_ext. intros fy Hfy. apply sum_ext. intros fx Hfx. apply sum_ext. intros c Hc.
  f_equal. apply fuse_tap; auto.
Qed.

(** 4x4 image, 3x3 filter, stride 2, one row/column of padding on each side:
    accepted, but SAME puts all of its padding after the image. *)
Lemma fuse_wrong :
  let g1 := valid_geom 1 (4 + 1 + 1) (4 + 1 + 1) 3 3 2 2 1 1 1 1 1 in
  let g2 := same_geom 1 4 4 3 3 2 2 1 1 1 1 1 in
  let I := fun (_ y x _ : Z) => y * 4 + x in let F := fun _ _ _ _ : Z => 1 in
  IsSamePadding (0, 0) (1, 1) (1, 1) (0, 0) 4 4 (gOH g1) (gOW g1) 2 2 = true /\
  conv g1 0 (padded 4 4 1 1 0 I) F 0 0 0 0 = 10 /\ conv g2 0 I F 0 0 0 0 = 45.
Proof. cbv zeta. split; [|split]; vm_compute; reflexivity. Qed.
