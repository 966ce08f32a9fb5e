(** * Spec: what the operators mean, independently of how they are computed.

    This file is the reading reference for the theorems: ordinary integer
    convolution of +1/-1 tensors, max pooling, SAME/VALID geometry, and how a
    bit-packed tensor denotes a +1/-1 tensor. It does not use the model. *)
From Verif Require Import Base.

(** A set bit stands for -1, a clear bit for +1. *)
Definition pm (b : bool) : Z := if b then -1 else 1.

(** Number of 32-bit words holding [n] bits. *)
Definition words (n : Z) : Z := (n + 31) / 32.

(** Bit [c] of pixel number [pix] in a tensor with [W] words per pixel. *)
Definition bit_of (data : list Z) (W pix c : Z) : bool :=
  match rd data (pix * W + c / 32) with
  | Some w => Z.testbit w (c mod 32)
  | None => false
  end.

(** All words are 32-bit patterns. *)
Definition word (w : Z) : Prop := 0 <= w < 2 ^ 32.

(** A packed array of [n] pixels with [c] channels each: right length, 32-bit
    words, and zero in the padding bits of the last word of each pixel. *)
Definition packed (data : list Z) (n c : Z) : Prop :=
  zlen data = n * words c /\
  (forall i w, rd data i = Some w -> word w) /\
  (forall p k, 0 <= p < n -> c <= k < 32 * words c -> bit_of data (words c) p k = false).

(** ** Convolution geometry *)
Record geom := {
  gB : Z;            (* batch *)
  gH : Z; gW : Z;    (* input height, width *)
  gKH : Z; gKW : Z;  (* filter height, width *)
  gOH : Z; gOW : Z;  (* output height, width *)
  gSH : Z; gSW : Z;  (* strides *)
  gDH : Z; gDW : Z;  (* dilation factors *)
  gPH : Z; gPW : Z;  (* rows/columns of padding before the image *)
  gG : Z;            (* groups *)
  gCI : Z;           (* input channels per group *)
  gCO : Z            (* output channels per group *)
}.

Definition inside (g : geom) (y x : Z) : bool :=
  (0 <=? y) && (y <? gH g) && (0 <=? x) && (x <? gW g).

(** Grouped, strided, dilated 2-D convolution of integer tensors. [padv] is
    the value of a pixel outside the image. [I b y x c], [F o fy fx c]. *)
Definition conv (g : geom) (padv : Z) (I F : Z -> Z -> Z -> Z -> Z) (b oy ox o : Z) : Z :=
  sum_ (gKH g) (fun fy => sum_ (gKW g) (fun fx => sum_ (gCI g) (fun c =>
    let y := oy * gSH g - gPH g + fy * gDH g in
    let x := ox * gSW g - gPW g + fx * gDW g in
    (if inside g y x then I b y x (o / gCO g * gCI g + c) else padv) * F o fy fx c))).

(** Number of terms in the sum. *)
Definition taps (g : geom) : Z := gKH g * gKW g * gCI g.

(** The +1/-1 tensors denoted by packed data. *)
Definition input_pm (g : geom) (data : list Z) (b y x c : Z) : Z :=
  pm (bit_of data (words (gG g * gCI g)) ((b * gH g + y) * gW g + x) c).
Definition filter_pm (g : geom) (data : list Z) (o fy fx c : Z) : Z :=
  pm (bit_of data (words (gCI g)) ((o * gKH g + fy) * gKW g + fx) c).

(** Well-formed geometry. Groups are only meaningful if every group occupies
    whole words (the runtime checks this). *)
Definition geom_ok (g : geom) : Prop :=
  0 <= gB g /\ 0 <= gH g /\ 0 <= gW g /\ 0 <= gKH g /\ 0 <= gKW g /\
  0 <= gOH g /\ 0 <= gOW g /\ 0 < gG g /\ 0 <= gCI g /\ 0 < gCO g /\
  (gG g = 1 \/ gCI g mod 32 = 0).

(** Number of pixels / channels, for the [packed] predicate. *)
Definition in_pixels (g : geom) : Z := gB g * gH g * gW g.
Definition filter_pixels (g : geom) : Z := gG g * gCO g * gKH g * gKW g.
Definition out_pixels (g : geom) : Z := gB g * gOH g * gOW g.
Definition out_pixel (g : geom) (b y x : Z) : Z := (b * gOH g + y) * gOW g + x.
Definition out_channels (g : geom) : Z := gG g * gCO g.

(** ** SAME / VALID geometry of one dimension (TensorFlow's definition) *)
Definition eff (k d : Z) : Z := (k - 1) * d + 1.
Definition same_out (n s : Z) : Z := (n + s - 1) / s.
Definition valid_out (n k s d : Z) : Z := (n - eff k d + s) / s.
(** Total padding and the part before the image. *)
Definition same_total (n k s d : Z) : Z := Z.max 0 ((same_out n s - 1) * s + eff k d - n).
Definition same_before (n k s d : Z) : Z := same_total n k s d / 2.

(** ** Max pooling of a +1/-1 tensor over the part of the window inside the
    image: [m] is the maximum iff it is one of the values and bounds them. *)
Definition window (sy sx py px fh fw H W oy ox y x : Z) : Prop :=
  oy * sy - py <= y < oy * sy - py + fh /\ ox * sx - px <= x < ox * sx - px + fw /\
  0 <= y < H /\ 0 <= x < W.
Definition is_max_over (P : Z -> Z -> Prop) (v : Z -> Z -> Z) (m : Z) : Prop :=
  (exists y x, P y x /\ v y x = m) /\ (forall y x, P y x -> v y x <= m).

(** ** Fused activation functions *)
Inductive activation := ActNone | ActRelu | ActReluN1To1 | ActRelu6.
Definition act_spec (a : activation) (x : Z) : Z :=
  match a with
  | ActNone => x
  | ActRelu => Z.max 0 x
  | ActReluN1To1 => Z.max (-1) (Z.min 1 x)
  | ActRelu6 => Z.max 0 (Z.min 6 x)
  end.
