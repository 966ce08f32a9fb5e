(** * Select: which kernel (and accumulator width) the runtime picks. *)
From Verif Require Import Base Spec Bits Loop4 Reference OutputTransform RefTheorems Bgemm Padding BgemmConv.

Inductive kernel_choice :=
| Kernel8x4 (block_depth : Z) (depth_above_one_block grouped : bool)  (* uint16 accumulators *)
| Kernel4x2Portable.                                                  (* int32 accumulators *)

(** core/indirect_bgemm/select_kernel.h 44-51. C++ computes in std::size_t
    (64-bit: no overflow for any tensor that fits in memory). *)
Definition fits_in_uint16_accumulators (p : bconv) : option bool :=
  let flat_size := batches p * in_h p * in_w p * in_d p in
  let* max_accumulator_value := cdiv (32 * flat_size) (groups p) in
  Some (max_accumulator_value <? 65535).

(** select_kernel.h 28-127: float/int8 output; [aarch64] is __aarch64__. *)
Definition SelectRuntimeKernel (aarch64 : bool) (p : bconv) : option kernel_choice :=
  if aarch64 then
    let* fits := fits_in_uint16_accumulators p in
    if fits then
      let* d := cdiv (in_d p) (groups p) in
      let grouped := 1 <? groups p in
      if Z.rem d 4 =? 0 then Some (Kernel8x4 4 (4 <? d) grouped)
      else if Z.rem d 2 =? 0 then Some (Kernel8x4 2 (2 <? d) grouped)
      else Some (Kernel8x4 1 (1 <? d) grouped)
    else Some Kernel4x2Portable
  else Some Kernel4x2Portable.
(** select_kernel.h 129-143: bitpacked output. *)
Definition SelectRuntimeKernel_bits : kernel_choice := Kernel4x2Portable.

(** tflite/kernels/bconv2d.cc 519-539: accumulator width of the BGEMM kernel;
    [arm64] is RUY_PLATFORM_ARM_64. *)
Definition bgemm_uses_int16 (arm64 : bool) (p : bconv) : bool :=
  let depth := f_h p * f_w p * channels_in p in
  arm64 && (depth + 512 <? 2 ^ 16).

(** The value of the accumulator of output element (b,y,x,c) after the first
    [t] words (in tap-major order, as both kernels accumulate), outside pixels
    being all-zero words. *)
Definition partial_acc (p : bconv) (input filter : list Z) (b oy ox c t : Z) : Z :=
  sum_ t (fun q =>
    let ic := q mod f_d p in let tap := q / f_d p in
    let fy := tap / f_w p in let fx := tap mod f_w p in
    let y := oy * s_h p - pad_h p + dl_h p * fy in
    let x := ox * s_w p - pad_w p + dl_w p * fx in
    let g := c / (out_c p / groups p) in
    xor_popcount
      (if inside (geom_of p) y x
       then word_at input (Offset (in_h p) (in_w p) (in_d p) b y x (g * f_d p + ic)) else 0)
      (word_at filter (Offset (f_h p) (f_w p) (f_d p) c fy fx ic))).

Section Bound.
  Variable p : bconv.
  Hypothesis WF : bconv_wf p.
  Variables input filter : list Z.
  Hypothesis Hin : packed input (in_pixels (geom_of p)) (channels_in p).
  Hypothesis Hfl : packed filter (filter_pixels (geom_of p)) (channels_in p / groups p).

  Lemma partial_full b y x c :
    partial_acc p input filter b y x c (f_h p * f_w p * f_d p) = acc_one p input filter b y x c.
  Proof.
    destruct (wf_facts p WF) as (_&_&_&HKH&HKW&_&_&_&HCI&_). assert (Hfd := f_d_nonneg p WF).
    unfold partial_acc, acc_one.
    rewrite (sum_flat (f_h p * f_w p) (f_d p)) by nia. rewrite (sum_flat (f_h p) (f_w p)) by lia.
    apply sum_ext. intros fy Hfy. apply sum_ext. intros fx Hfx. unfold acc_tap. cbv zeta.
    apply sum_ext. intros ic Hic.
    rewrite <- (Z.div_unique_pos ((fy * f_w p + fx) * f_d p + ic) (f_d p) (fy * f_w p + fx) ic Hic) by ring.
    rewrite <- (Z.mod_unique_pos ((fy * f_w p + fx) * f_d p + ic) (f_d p) (fy * f_w p + fx) ic Hic) by ring.
    rewrite <- (Z.div_unique_pos (fy * f_w p + fx) (f_w p) fy fx Hfx) by ring.
    rewrite <- (Z.mod_unique_pos (fy * f_w p + fx) (f_w p) fy fx Hfx) by ring.
    reflexivity.
  Qed.

  Lemma acc_one_bound b y x c : 0 <= b < batches p -> 0 <= c < out_c p ->
    0 <= acc_one p input filter b y x c <= taps (geom_of p).
  Proof.
    intros Hb Hc. destruct (wf_facts p WF) as (_&_&_&HKH&HKW&_&_&_&HCI&_).
    assert (E := acc_one_conv p WF input filter Hin Hfl b y x c Hb Hc).
    assert (B : - taps (geom_of p) <= conv (geom_of p) 1 (input_pm (geom_of p) input)
                  (filter_pm (geom_of p) filter) b y x c <= taps (geom_of p)).
    { apply conv_bound; auto; try (intros; apply pm_bound). lia. }
    lia.
  Qed.

  Lemma partial_bound b y x c t : 0 <= b < batches p -> 0 <= c < out_c p ->
    0 <= t <= f_h p * f_w p * f_d p ->
    0 <= partial_acc p input filter b y x c t <= taps (geom_of p).
  Proof.
    intros Hb Hc Ht. assert (A := acc_one_bound b y x c Hb Hc).
    rewrite <- partial_full in A. unfold partial_acc in *.
    match type of A with _ <= sum_ _ ?f <= _ => set (F := f) in * end.
    assert (HF : forall i, 0 <= F i) by (intros i; unfold F; apply xor_popcount_bounds).
    split; [apply sum_nonneg; auto|].
    replace (f_h p * f_w p * f_d p) with (t + (f_h p * f_w p * f_d p - t)) in A by ring.
    rewrite sum_split in A by lia.
    assert (0 <= sum_ (f_h p * f_w p * f_d p - t) (fun i => F (t + i))) by (apply sum_nonneg; auto).
    lia.
  Qed.
End Bound.

(** BGEMM: 16-bit accumulators never overflow. *)
Lemma bgemm_int16_safe p input filter arm64 b y x c t :
  bconv_wf p ->
  packed input (in_pixels (geom_of p)) (channels_in p) ->
  packed filter (filter_pixels (geom_of p)) (channels_in p / groups p) ->
  groups p = 1 -> bgemm_uses_int16 arm64 p = true ->
  0 <= b < batches p -> 0 <= c < out_c p -> 0 <= t <= f_h p * f_w p * f_d p ->
  0 <= partial_acc p input filter b y x c t <= 65535.
Proof.
  intros WF Hin Hfl HG Hs Hb Hc Ht.
  assert (B := partial_bound p WF input filter Hin Hfl b y x c t Hb Hc Ht).
  unfold bgemm_uses_int16 in Hs. apply andb_prop in Hs. destruct Hs as [_ Hs].
  unfold taps in B. cbn [gKH gKW gCI geom_of] in B. rewrite HG, Z.div_1_r in B. lia.
Qed.

(** Indirect: safe when the filter has no more taps than there are input pixels. *)
Lemma indirect_uint16_safe p input filter bd a g b y x c t :
  bconv_wf p ->
  packed input (in_pixels (geom_of p)) (channels_in p) ->
  packed filter (filter_pixels (geom_of p)) (channels_in p / groups p) ->
  SelectRuntimeKernel true p = Some (Kernel8x4 bd a g) ->
  f_h p * f_w p <= batches p * in_h p * in_w p ->
  0 <= b < batches p -> 0 <= c < out_c p -> 0 <= t <= f_h p * f_w p * f_d p ->
  0 <= partial_acc p input filter b y x c t <= 65535.
Proof.
  intros WF Hin Hfl Hs Hfit Hb Hc Ht.
  assert (B := partial_bound p WF input filter Hin Hfl b y x c t Hb Hc Ht).
  destruct (wf_facts p WF) as (HB&HH&HW&HKH&HKW&_&_&Hg&HCI&_).
  unfold SelectRuntimeKernel, fits_in_uint16_accumulators in Hs.
  rewrite cdiv_nz in Hs by lia. cbn [bind] in Hs.
  destruct (_ <? 65535) eqn:E in Hs; [|discriminate].
  unfold taps in B. cbn [gKH gKW gCI geom_of] in B.
  rewrite (ind_groups p WF) in E.
  replace (32 * (batches p * in_h p * in_w p * (groups p * f_d p)))
    with (32 * (batches p * in_h p * in_w p) * f_d p * groups p) in E by ring.
  rewrite Z.quot_mul in E by lia.
  assert (HCI2 : channels_in p / groups p <= 32 * f_d p) by (rewrite (wf_fd p WF); unfold words; lia).
  set (CI := channels_in p / groups p) in *. set (M := batches p * in_h p * in_w p) in *.
  assert (0 <= f_h p * f_w p) by nia. set (F := f_h p * f_w p) in *.
  assert (F * CI <= M * (32 * f_d p)) by nia. lia.
Qed.

Lemma select_facts aarch64 p bd a g :
  bconv_wf p -> SelectRuntimeKernel aarch64 p = Some (Kernel8x4 bd a g) ->
  aarch64 = true /\ In bd [1; 2; 4] /\ f_d p mod bd = 0 /\
  (a = true <-> bd < f_d p) /\ (g = true <-> 1 < groups p).
Proof.
  intros WF Hs. destruct (wf_facts p WF) as (HB&HH&HW&HKH&HKW&_&_&Hg&HCI&_).
  assert (Hfd := f_d_nonneg p WF).
  unfold SelectRuntimeKernel, fits_in_uint16_accumulators in Hs. destruct aarch64; [|discriminate].
  rewrite !cdiv_nz in Hs by lia. cbn [bind] in Hs.
  destruct (_ <? 65535) in Hs; [|discriminate].
  rewrite (ind_groups p WF), (Z.mul_comm (groups p)), Z.quot_mul in Hs by lia.
  rewrite !Z.rem_mod_nonneg in Hs by lia.
  destruct (Z.eqb_spec (f_d p mod 4) 0); [|destruct (Z.eqb_spec (f_d p mod 2) 0)];
    injection Hs as <- <- <-; (split; [reflexivity|]; split; [cbn; tauto|]; split; [lia|]; split; lia).
Qed.

(** ** The witness against C22: a 3x3 SAME convolution of a 1x1 image with
    7296 channels (all +1), one filter (all -1). *)
Definition ex22_p : bconv :=
  {| batches := 1; in_h := 1; in_w := 1; in_d := 228; out_c := 1; f_h := 3; f_w := 3; f_d := 228;
     out_h := 1; out_w := 1; channels_in := 7296; groups := 1; s_h := 1; s_w := 1;
     dl_h := 1; dl_w := 1; pad_h := 1; pad_w := 1; pad_same := true; pad_value := 1 |}.

Lemma packed_repeat w n c k : word w -> c mod 32 = 0 -> 0 <= n -> 0 <= c -> Z.of_nat k = n * words c ->
  packed (repeat w k) n c.
Proof.
  intros Hw Hc Hn Hc0 Hk. split; [rewrite zlen_repeat; exact Hk|]. split.
  - intros i u Hu. assert (Hi := rd_bounds _ _ _ Hu). rewrite zlen_repeat in Hi.
    rewrite rd_repeat in Hu by exact Hi. congruence.
  - intros q j Hq Hj. unfold words in Hj. lia.
Qed.

Lemma ex22_overflow :
  exists p input filter b y x c,
    bconv_wf p /\ prepared PadSame p /\
    packed input (in_pixels (geom_of p)) (channels_in p) /\
    packed filter (filter_pixels (geom_of p)) (channels_in p / groups p) /\
    (exists bd a g, SelectRuntimeKernel true p = Some (Kernel8x4 bd a g)) /\
    0 <= b < batches p /\ 0 <= y < out_h p /\ 0 <= x < out_w p /\ 0 <= c < out_c p /\
    65535 < partial_acc p input filter b y x c (f_h p * f_w p * f_d p).
Proof.
  exists ex22_p, (repeat 0 (Z.to_nat 228)), (repeat (2 ^ 32 - 1) (Z.to_nat 2052)), 0, 0, 0, 0.
  assert (W : bconv_wf ex22_p) by (constructor; vm_compute; intuition congruence).
  split; [exact W|].
  split; [vm_compute; intuition congruence|].
  split; [apply packed_repeat; [unfold word; lia|reflexivity|vm_compute; congruence|vm_compute; congruence|
          rewrite Z2Nat.id by lia; reflexivity]|].
  split; [apply packed_repeat; [unfold word; lia|reflexivity|vm_compute; congruence|vm_compute; congruence|
          rewrite Z2Nat.id by lia; reflexivity]|].
  split; [do 3 eexists; vm_compute; reflexivity|].
  do 4 (split; [cbn; lia|]).
  rewrite partial_full by exact W. unfold acc_one, acc_tap.
  change (f_h ex22_p) with 3. change (f_w ex22_p) with 3. change (f_d ex22_p) with 228.
  rewrite (sum_ext 3 _ (fun _ => 21888)); [rewrite sum_const by lia; lia|]. intros fy Hfy.
  rewrite (sum_ext 3 _ (fun _ => 7296)); [rewrite sum_const by lia; lia|]. intros fx Hfx. cbv zeta.
  rewrite (sum_ext 228 _ (fun _ => 32)); [rewrite sum_const by lia; lia|]. intros ic Hic.
  match goal with |- xor_popcount ?a (word_at _ ?i) = _ => set (A := a); set (i0 := i) end.
  assert (HA : A = 0).
  { unfold A, word_at. destruct (inside _ _ _); [|reflexivity].
    match goal with |- context [rd ?m ?j] => destruct (rd m j) as [w|] eqn:E; [|reflexivity] end.
    assert (Hi := rd_bounds _ _ _ E). rewrite zlen_repeat in Hi. rewrite rd_repeat in E by exact Hi. congruence. }
  rewrite HA. unfold word_at. rewrite rd_repeat; [reflexivity|].
  unfold i0, Offset. cbn [f_h f_w f_d ex22_p]. rewrite Z2Nat.id by lia. lia.
Qed.
