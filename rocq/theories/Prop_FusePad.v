(** * Property C26: fusing explicit padding into a convolution. *)
From Verif Require Import Base Spec Padding FusePad.

(** Program 1: Pad the HxW image with [pt]/[pb] rows and [pl]/[pr] columns of
    value [padv], then a VALID convolution. Program 2: a SAME convolution of the
    image with padding value [padv]. [IsSamePadding] is the converter's test.

    Accepted => same output shape, always. *)
Theorem C26_output_shape B H W KH KW SH SW DH DW G CI CO pt pb pl pr :
  1 <= SH /\ 1 <= SW -> 0 <= pt /\ 0 <= pb /\ 0 <= pl /\ 0 <= pr ->
  let g1 := valid_geom B (H + pt + pb) (W + pl + pr) KH KW SH SW DH DW G CI CO in
  let g2 := same_geom B H W KH KW SH SW DH DW G CI CO in
  IsSamePadding (0, 0) (pt, pb) (pl, pr) (0, 0) H W (gOH g1) (gOW g1) SH SW = true ->
  gOH g1 = gOH g2 /\ gOW g1 = gOW g2.
Proof. exact (fun Hs Hp => fuse_shape B H W KH KW SH SW DH DW G CI CO pt pb pl pr Hs Hp). Qed.
Print Assumptions C26_output_shape.

(** Accepted, and each stride is 1 or the totals split alike: every filter tap
    of every output reads the same value in both programs (any element type). *)
Theorem C26_taps_equal_split (V : Type) B H W KH KW SH SW DH DW G CI CO pt pb pl pr (padv : V) I b oy ox fy fx c :
  1 <= KH /\ 1 <= KW -> 1 <= SH /\ 1 <= SW -> 1 <= DH /\ 1 <= DW ->
  0 <= pt /\ 0 <= pb /\ 0 <= pl /\ 0 <= pr ->
  let g1 := valid_geom B (H + pt + pb) (W + pl + pr) KH KW SH SW DH DW G CI CO in
  let g2 := same_geom B H W KH KW SH SW DH DW G CI CO in
  IsSamePadding (0, 0) (pt, pb) (pl, pr) (0, 0) H W (gOH g1) (gOW g1) SH SW = true ->
  SH = 1 \/ (pt + pb) / 2 = same_total H KH SH DH / 2 ->
  SW = 1 \/ (pl + pr) / 2 = same_total W KW SW DW / 2 ->
  0 <= oy < gOH g1 -> 0 <= ox < gOW g1 -> 0 <= fy < KH -> 0 <= fx < KW ->
  tap g1 padv (padded H W pt pl padv I) b oy ox fy fx c = tap g2 padv I b oy ox fy fx c.
Proof.
  exact (fun Hk Hs Hd Hp HA Hh Hw => fuse_tap B H W KH KW SH SW DH DW G CI CO pt pb pl pr Hk Hs Hd Hp HA Hh Hw padv I b oy ox fy fx c).
Qed.
Print Assumptions C26_taps_equal_split.

(** Hence the integer convolutions are equal. *)
Theorem C26_conv_equal_split B H W KH KW SH SW DH DW G CI CO pt pb pl pr padv I F b oy ox o :
  1 <= KH /\ 1 <= KW -> 1 <= SH /\ 1 <= SW -> 1 <= DH /\ 1 <= DW ->
  0 <= pt /\ 0 <= pb /\ 0 <= pl /\ 0 <= pr ->
  let g1 := valid_geom B (H + pt + pb) (W + pl + pr) KH KW SH SW DH DW G CI CO in
  let g2 := same_geom B H W KH KW SH SW DH DW G CI CO in
  IsSamePadding (0, 0) (pt, pb) (pl, pr) (0, 0) H W (gOH g1) (gOW g1) SH SW = true ->
  SH = 1 \/ (pt + pb) / 2 = same_total H KH SH DH / 2 ->
  SW = 1 \/ (pl + pr) / 2 = same_total W KW SW DW / 2 ->
  0 <= oy < gOH g1 -> 0 <= ox < gOW g1 ->
  conv g1 padv (padded H W pt pl padv I) F b oy ox o = conv g2 padv I F b oy ox o.
Proof. exact (fuse_conv B H W KH KW SH SW DH DW G CI CO pt pb pl pr padv I F b oy ox o). Qed.
Print Assumptions C26_conv_equal_split.

(** What the test does guarantee for any stride: the explicit total is at most
    stride-1 more than SAME's. *)
Theorem C26_slack pb pa n k s d : 0 <= pb -> 0 <= pa -> 1 <= s ->
  IsSamePadding1D pb pa n (valid_out (n + pb + pa) k s d) s = true ->
  valid_out (n + pb + pa) k s d = same_out n s /\
  same_total n k s d <= pb + pa <= same_total n k s d + (s - 1) /\ pb = (pb + pa) / 2.
Proof. exact (accepted_total pb pa n k s d). Qed.
Print Assumptions C26_slack.

(** The claim as written is false: 4x4 image, 3x3 filter, stride 2, padding 1 on
    every side (the usual "padding=1" layer). The test accepts; the first output
    of an all-ones filter changes from 10 to 45. *)
Theorem C26_stride2_refuted :
  let g1 := valid_geom 1 (4 + 1 + 1) (4 + 1 + 1) 3 3 2 2 1 1 1 1 1 in
  let g2 := same_geom 1 4 4 3 3 2 2 1 1 1 1 1 in
  let I := fun (_ y x _ : Z) => y * 4 + x in let F := fun _ _ _ _ : Z => 1 in
  IsSamePadding (0, 0) (1, 1) (1, 1) (0, 0) 4 4 (gOH g1) (gOW g1) 2 2 = true /\
  conv g1 0 (padded 4 4 1 1 0 I) F 0 0 0 0 = 10 /\ conv g2 0 I F 0 0 0 0 = 45.
Proof. exact fuse_wrong. Qed.
Print Assumptions C26_stride2_refuted.

(** Accepted with stride 1 (3x2 filter, dilation 2) and with stride 2 on an odd image. *)
Example C26_case :
  (let g := valid_geom 1 (7 + 2 + 2) (5 + 1 + 1) 3 2 1 1 2 2 1 1 1 in
   IsSamePadding (0, 0) (2, 2) (1, 1) (0, 0) 7 5 (gOH g) (gOW g) 1 1 = true) /\
  (let g := valid_geom 1 (5 + 1 + 1) (5 + 1 + 1) 3 3 2 2 1 1 1 1 1 in
   IsSamePadding (0, 0) (1, 1) (1, 1) (0, 0) 5 5 (gOH g) (gOW g) 2 2 = true /\
   (1 + 1) / 2 = same_total 5 3 2 1 / 2).
Proof. repeat split; vm_compute; reflexivity. Qed.
