(** * Padding: output sizes and padding amounts.

    ComputeOutSize and ComputePaddingHeightWidth are TFLite functions
    (tensorflow/lite/kernels/padding.h, external to /repo) called from
    tflite/kernels/bconv2d.cc 218-226 and tflite/kernels/bmaxpool.cc 61-64. *)
From Verif Require Import Base Spec.

Inductive padding := PadSame | PadValid | PadUnknown.

(** tensorflow/lite/kernels/padding.h ComputeOutSize *)
Definition ComputeOutSize (pad : padding) (image filter stride dilation : Z) : Z :=
  let eff := (filter - 1) * dilation + 1 in
  if stride =? 0 then 0 else
  match pad with
  | PadSame => Z.quot (image + stride - 1) stride
  | PadValid => Z.quot (image + stride - eff) stride
  | PadUnknown => 0
  end.

(** tensorflow/lite/kernels/padding.h ComputePaddingWithOffset (returned part) *)
Definition ComputePadding1D (stride dilation in_size filter out_size : Z) : Z :=
  let eff := (filter - 1) * dilation + 1 in
  let total := (out_size - 1) * stride + eff - in_size in
  Z.quot (Z.max 0 total) 2.

(** One dimension of ComputePaddingHeightWidth: (out size, padding before). *)
Definition padding1D (pad : padding) (in_size filter stride dilation : Z) : Z * Z :=
  let out := ComputeOutSize pad in_size filter stride dilation in
  (out, ComputePadding1D stride dilation in_size filter out).

Lemma padding_same n k s d : 0 <= n -> 1 <= k -> 1 <= s -> 1 <= d ->
  padding1D PadSame n k s d = (same_out n s, same_before n k s d).
Proof.
  intros Hn Hk Hs Hd. unfold padding1D, ComputeOutSize, ComputePadding1D, same_out, same_before, same_total, same_out, eff.
  destruct (Z.eqb_spec s 0); [lia|]. rewrite (Z.quot_div_nonneg (n + s - 1)) by lia.
  rewrite Z.quot_div_nonneg by lia. reflexivity.
Qed.

Lemma same_out_last n s : 0 <= n -> 1 <= s -> (same_out n s - 1) * s <= n - 1 < same_out n s * s.
Proof.
  intros Hn Hs. unfold same_out.
  assert (H := Z.div_mod (n + s - 1) s ltac:(lia)).
  assert (H2 := Z.mod_pos_bound (n + s - 1) s ltac:(lia)). nia.
Qed.

(** SAME: every window meets the image, and pads less than the filter. *)
Lemma same_window n k s d o : 1 <= n -> 1 <= k -> 1 <= s -> 1 <= d -> 0 <= o < same_out n s ->
  0 <= same_before n k s d /\ 2 * same_before n k s d <= eff k d - 1 /\
  o * s - same_before n k s d < n /\ 0 < o * s - same_before n k s d + eff k d.
Proof.
  intros Hn Hk Hs Hd Ho. assert (H := same_out_last n s ltac:(lia) Hs).
  assert (He : 1 <= eff k d) by (unfold eff; nia).
  assert (o * s <= (same_out n s - 1) * s) by nia. assert (0 <= o * s) by nia.
  unfold same_before, same_total. set (X := (same_out n s - 1) * s) in *. lia.
Qed.

(** VALID: no padding is added and every tap of every window is inside. *)
Lemma padding_valid n k s d : eff k d <= n -> 1 <= k -> 1 <= s -> 1 <= d ->
  padding1D PadValid n k s d = (valid_out n k s d, 0).
Proof.
  intros Hn Hk Hs Hd. unfold padding1D, ComputeOutSize, ComputePadding1D, valid_out, eff in *.
  destruct (Z.eqb_spec s 0); [lia|]. rewrite Z.quot_div_nonneg by nia.
  replace (n + s - ((k - 1) * d + 1)) with (n - ((k - 1) * d + 1) + s) by lia.
  set (e := (k - 1) * d + 1) in *. set (q := (n - e + s) / s).
  assert (H := Z.div_mod (n - e + s) s ltac:(lia)).
  assert (H2 := Z.mod_pos_bound (n - e + s) s ltac:(lia)). fold q in H.
  f_equal. replace (Z.max 0 ((q - 1) * s + e - n)) with 0 by nia. reflexivity.
Qed.

Lemma valid_inside n k s d o t : eff k d <= n -> 1 <= k -> 1 <= s -> 1 <= d ->
  0 <= o < valid_out n k s d -> 0 <= t < k -> 0 <= o * s - 0 + t * d < n.
Proof.
  intros Hn Hk Hs Hd Ho Ht. unfold valid_out in *.
  assert (H := Z.div_mod (n - eff k d + s) s ltac:(lia)).
  assert (H2 := Z.mod_pos_bound (n - eff k d + s) s ltac:(lia)). unfold eff in *.
  set (q := (n - ((k - 1) * d + 1) + s) / s) in *.
  assert (o * s <= (q - 1) * s) by nia. assert (t * d <= (k - 1) * d) by nia. nia.
Qed.

(** VALID with a filter larger than the image has no output. *)
Lemma valid_too_big n k s d : 1 <= k -> 1 <= s -> 1 <= d -> 0 <= n -> n < eff k d ->
  ComputeOutSize PadValid n k s d <= 0.
Proof.
  intros Hk Hs Hd Hn Hlt. unfold ComputeOutSize, eff in *. destruct (Z.eqb_spec s 0); [lia|].
  set (e := (k - 1) * d + 1) in *.
  destruct (Z.le_gt_cases 0 (n + s - e)).
  - rewrite Z.quot_small by lia. lia.
  - assert (Z.quot (n + s - e) s <= 0); [|lia].
    replace (n + s - e) with (- (e - n - s)) by lia. rewrite Z.quot_opp_l by lia.
    assert (0 <= Z.quot (e - n - s) s) by (apply Z.quot_pos; lia). lia.
Qed.

Lemma valid_geometry n k s d : eff k d <= n -> 1 <= k -> 1 <= s -> 1 <= d ->
  padding1D PadValid n k s d = (valid_out n k s d, 0) /\
  (forall o t, 0 <= o < valid_out n k s d -> 0 <= t < k -> 0 <= o * s + t * d < n) /\
  n < valid_out n k s d * s + eff k d.
Proof.
  intros Hn Hk Hs Hd. split; [apply padding_valid; assumption|]. split.
  - intros o t Ho Ht. assert (H := valid_inside n k s d o t Hn Hk Hs Hd Ho Ht). lia.
  - unfold valid_out. assert (H := Z.div_mod (n - eff k d + s) s ltac:(lia)).
    assert (H2 := Z.mod_pos_bound (n - eff k d + s) s ltac:(lia)). nia.
Qed.
