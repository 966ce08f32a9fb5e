(** * Properties C24 and C39: binary max pooling, SAME/VALID geometry. *)
From Verif Require Import Base Spec Bits Padding MaxPool Check.

(** ** C24: binary max pooling is max pooling of +1/-1 values *)
Theorem C24_maxpool pad b h w c fh fw sh sw input m out :
  pool_prepare pad b h w (words c) fh fw sh sw = Some m ->
  pad <> PadUnknown ->
  0 <= b -> 1 <= h -> 1 <= w -> 0 <= c -> 1 <= fh -> 1 <= fw -> 1 <= sh -> 1 <= sw ->
  (pad = PadValid -> fh <= h /\ fw <= w) ->
  packed input (b * h * w) c ->
  zlen out = b * moh m * mow m * words c ->
  exists out', BMaxPool m input out = Some out' /\
    packed out' (b * moh m * mow m) c /\
    forall i oy ox k, 0 <= i < b -> 0 <= oy < moh m -> 0 <= ox < mow m -> 0 <= k < c ->
      is_max_over
        (window sh sw (mph m) (mpw m) fh fw h w oy ox)
        (fun y x => pm (bit_of input (words c) ((i * h + y) * w + x) k))
        (pm (bit_of out' (words c) ((i * moh m + oy) * mow m + ox) k)).
Proof. exact (pool_end_to_end pad b h w c fh fw sh sw input m out). Qed.
Print Assumptions C24_maxpool.

(** Output size and padding are the SAME / VALID ones. *)
Theorem C24_geometry pad b h w d fh fw sh sw m :
  1 <= h -> 1 <= w -> 1 <= fh -> 1 <= fw -> 1 <= sh -> 1 <= sw ->
  pool_prepare pad b h w d fh fw sh sw = Some m ->
  (pad = PadSame -> moh m = same_out h sh /\ mow m = same_out w sw /\
                    mph m = same_before h fh sh 1 /\ mpw m = same_before w fw sw 1) /\
  (pad = PadValid -> fh <= h -> fw <= w ->
     moh m = valid_out h fh sh 1 /\ mow m = valid_out w fw sw 1 /\ mph m = 0 /\ mpw m = 0).
Proof. exact (pool_geometry pad b h w d fh fw sh sw m). Qed.
Print Assumptions C24_geometry.

Definition ex_img : list Z := map (fun i => (i * 2654435761 + 99) mod 2 ^ 32) (zrange 20).
Example C24_case : exists m, pool_prepare PadSame 1 4 5 (words 32) 3 2 2 3 = Some m /\
  packed ex_img (1 * 4 * 5) 32 /\ moh m = 2 /\ mow m = 2 /\ mph m = 0 /\ mpw m = 0 /\
  BMaxPool m ex_img (repeat 5 4) =
    Some [Z.land (Z.land (Z.land 99 (nth 1 ex_img 0)) (Z.land (nth 5 ex_img 0) (nth 6 ex_img 0)))
                 (Z.land (nth 10 ex_img 0) (nth 11 ex_img 0));
          Z.land (Z.land (Z.land (nth 3 ex_img 0) (nth 4 ex_img 0)) (Z.land (nth 8 ex_img 0) (nth 9 ex_img 0)))
                 (Z.land (nth 13 ex_img 0) (nth 14 ex_img 0));
          Z.land (Z.land (nth 10 ex_img 0) (nth 11 ex_img 0)) (Z.land (nth 15 ex_img 0) (nth 16 ex_img 0));
          Z.land (Z.land (nth 13 ex_img 0) (nth 14 ex_img 0)) (Z.land (nth 18 ex_img 0) (nth 19 ex_img 0))].
Proof.
  eexists. split; [vm_compute; reflexivity|].
  split; [apply packedb_ok; [lia|vm_compute; reflexivity]|]. repeat split; vm_compute; reflexivity.
Qed.

(** ** C39: SAME and VALID geometry *)
Theorem C39_same n k s d : 0 <= n -> 1 <= k -> 1 <= s -> 1 <= d ->
  padding1D PadSame n k s d = (same_out n s, same_before n k s d).
Proof. exact (padding_same n k s d). Qed.
Print Assumptions C39_same.

Theorem C39_same_windows_meet_image n k s d o :
  1 <= n -> 1 <= k -> 1 <= s -> 1 <= d -> 0 <= o < same_out n s ->
  0 <= same_before n k s d /\ 2 * same_before n k s d <= eff k d - 1 /\
  o * s - same_before n k s d < n /\ 0 < o * s - same_before n k s d + eff k d.
Proof. exact (same_window n k s d o). Qed.
Print Assumptions C39_same_windows_meet_image.

(** ceil(n / s) outputs: the last stride step starts inside the image. *)
Theorem C39_same_out_ceil n s : 0 <= n -> 1 <= s ->
  (same_out n s - 1) * s <= n - 1 < same_out n s * s.
Proof. exact (same_out_last n s). Qed.
Print Assumptions C39_same_out_ceil.

Theorem C39_valid n k s d : eff k d <= n -> 1 <= k -> 1 <= s -> 1 <= d ->
  padding1D PadValid n k s d = (valid_out n k s d, 0) /\
  (forall o t, 0 <= o < valid_out n k s d -> 0 <= t < k -> 0 <= o * s + t * d < n) /\
  n < valid_out n k s d * s + eff k d.
Proof. exact (valid_geometry n k s d). Qed.
Print Assumptions C39_valid.

Theorem C39_valid_filter_too_big n k s d :
  1 <= k -> 1 <= s -> 1 <= d -> 0 <= n -> n < eff k d -> ComputeOutSize PadValid n k s d <= 0.
Proof. exact (valid_too_big n k s d). Qed.
Print Assumptions C39_valid_filter_too_big.

Example C39_case : padding1D PadSame 7 3 2 2 = (4, 2) /\ padding1D PadValid 7 3 2 2 = (2, 0) /\ eff 3 2 <= 7.
Proof. repeat split; vm_compute; congruence. Qed.
