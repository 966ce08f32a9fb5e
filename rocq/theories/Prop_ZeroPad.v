(** * Properties C20, C21: zero padding in the optimised kernels. *)
From Coq Require Import QArith.
From Verif Require Import Base Spec Bits Loop4 Reference OutputTransform RefTheorems Padding Log Bgemm BgemmProofs
  Indirect IndirectBuf IndirectTop BgemmConv ZeroPad Check Prop_Bgemm.
Open Scope Z_scope.

(** ** C20. [eval_indirect_float] / [eval_bgemm_float] are a whole evaluation:
    one-time setup (including filling the correction cache into a buffer with
    arbitrary contents), one-padded convolution, correction. *)
Theorem C20_indirect_zero_padding p input filter post_mul post_bias buf out :
  bconv_wf p ->
  packed input (in_pixels (geom_of p)) (channels_in p) ->
  packed filter (filter_pixels (geom_of p)) (channels_in p / groups p) ->
  prepared PadSame p -> pad_value p = 0 ->
  1 <= f_h p -> 1 <= f_w p -> 1 <= s_h p -> 1 <= s_w p -> 1 <= dl_h p -> 1 <= dl_w p ->
  eff (f_h p) (dl_h p) <= in_h p -> eff (f_w p) (dl_w p) <= in_w p ->
  taps (geom_of p) < 2 ^ 31 ->
  zlen post_mul = out_c p -> zlen post_bias = out_c p ->
  zlen buf = GetCacheSize (f_h p) (f_w p) (out_c p) (dl_h p) (dl_w p) ->
  zlen out = out_pixels (geom_of p) * out_c p ->
  1 <= f_d p -> int32_indices p ->
  exists out', eval_indirect_float p ActNone input filter post_mul post_bias buf out = Some out' /\
    zlen out' = zlen out /\
    forall b y x c m bi, 0 <= b < batches p -> 0 <= y < out_h p -> 0 <= x < out_w p ->
      rd post_mul c = Some m -> rd post_bias c = Some bi ->
      exists r, rd out' (out_pixel (geom_of p) b y x * out_c p + c) = Some r /\
        (r == m * inject_Z (conv (geom_of p) 0 (input_pm (geom_of p) input) (filter_pm (geom_of p) filter) b y x c)
              + bi)%Q.
Proof.
  exact (fun WF Hi Hf HP Hpv h1 h2 h3 h4 h5 h6 h7 h8 h9 h10 h11 h12 h13 =>
    indirect_zero_padded p WF input filter Hi Hf HP Hpv h1 h2 h3 h4 h5 h6 h7 h8 h9 post_mul post_bias buf out
      h10 h11 h12 h13).
Qed.
Print Assumptions C20_indirect_zero_padding.

Theorem C20_bgemm_zero_padding p input filter post_mul post_bias buf out kr lc rc S :
  bconv_wf p ->
  packed input (in_pixels (geom_of p)) (channels_in p) ->
  packed filter (filter_pixels (geom_of p)) (channels_in p / groups p) ->
  prepared PadSame p -> pad_value p = 0 ->
  1 <= f_h p -> 1 <= f_w p -> 1 <= s_h p -> 1 <= s_w p -> 1 <= dl_h p -> 1 <= dl_w p ->
  eff (f_h p) (dl_h p) <= in_h p -> eff (f_w p) (dl_w p) <= in_w p ->
  taps (geom_of p) < 2 ^ 31 ->
  zlen post_mul = out_c p -> zlen post_bias = out_c p ->
  zlen buf = GetCacheSize (f_h p) (f_w p) (out_c p) (dl_h p) (dl_w p) ->
  zlen out = out_pixels (geom_of p) * out_c p ->
  groups p = 1 -> 0 < kr -> 0 < lc -> 0 < rc -> conv_schedule_ok kr lc rc p input S ->
  eval_bgemm_float kr lc rc S p ActNone input filter post_mul post_bias buf out (fun out' =>
    zlen out' = zlen out /\
    forall b y x c m bi, 0 <= b < batches p -> 0 <= y < out_h p -> 0 <= x < out_w p ->
      rd post_mul c = Some m -> rd post_bias c = Some bi ->
      exists r, rd out' (out_pixel (geom_of p) b y x * out_c p + c) = Some r /\
        (r == m * inject_Z (conv (geom_of p) 0 (input_pm (geom_of p) input) (filter_pm (geom_of p) filter) b y x c)
              + bi)%Q).
Proof.
  exact (fun WF Hi Hf HP Hpv h1 h2 h3 h4 h5 h6 h7 h8 h9 h10 h11 h12 h13 =>
    bgemm_zero_padded p WF input filter Hi Hf HP Hpv h1 h2 h3 h4 h5 h6 h7 h8 h9 post_mul post_bias buf out
      h10 h11 h12 h13 kr lc rc S).
Qed.
Print Assumptions C20_bgemm_zero_padding.

(** ** C21 is false: with a 3x3 filter on a 2x2 image no correction is applied. *)
Definition ex21_p : bconv :=
  {| batches := 1; in_h := 2; in_w := 2; in_d := 1; out_c := 1; f_h := 3; f_w := 3; f_d := 1;
     out_h := 2; out_w := 2; channels_in := 2; groups := 1; s_h := 1; s_w := 1;
     dl_h := 1; dl_w := 1; pad_h := 1; pad_w := 1; pad_same := true; pad_value := 0 |}.
Theorem C21_large_filter_zero_padding_refuted :
  exists p input filter post_mul post_bias buf out,
    bconv_wf p /\
    packed input (in_pixels (geom_of p)) (channels_in p) /\
    packed filter (filter_pixels (geom_of p)) (channels_in p / groups p) /\
    prepared PadSame p /\ pad_value p = 0 /\ channels_in p mod 2 = 0 /\
    zlen post_mul = out_c p /\ zlen post_bias = out_c p /\
    zlen buf = GetCacheSize (f_h p) (f_w p) (out_c p) (dl_h p) (dl_w p) /\
    zlen out = out_pixels (geom_of p) * out_c p /\
    exists out' ref r r',
      eval_indirect_float p ActNone input filter post_mul post_bias buf out = Some out' /\
      eval_ref_float p ActNone input filter post_mul post_bias out = Some ref /\
      rd out' 0 = Some r /\ rd ref 0 = Some r' /\ ~ (r == r')%Q.
Proof.
  exists ex21_p, [0; 1; 2; 3], (repeat 0 9), [1%Q], [0%Q], (repeat 0%Q 36), (repeat 0%Q 4).
  split; [constructor; vm_compute; intuition congruence|].
  split; [apply packedb_ok; vm_compute; congruence|].
  split; [apply packedb_ok; vm_compute; congruence|].
  split; [vm_compute; intuition congruence|].
  split; [reflexivity|]. split; [reflexivity|]. split; [reflexivity|]. split; [reflexivity|].
  split; [reflexivity|]. split; [reflexivity|].
  do 4 eexists. split; [vm_compute; reflexivity|]. split; [vm_compute; reflexivity|].
  split; [reflexivity|]. split; [reflexivity|]. vm_compute. congruence.
Qed.
Print Assumptions C21_large_filter_zero_padding_refuted.

(** ** A case meeting the hypotheses of C20: the grouped, dilated, strided
    example with zero padding, and the BGEMM example with zero padding. *)
Definition ex20_p : bconv :=
  {| batches := 1; in_h := 3; in_w := 4; in_d := 2; out_c := 4; f_h := 2; f_w := 3; f_d := 1;
     out_h := 2; out_w := 2; channels_in := 64; groups := 2; s_h := 2; s_w := 2;
     dl_h := 2; dl_w := 1; pad_h := 1; pad_w := 0; pad_same := true; pad_value := 0 |}.
Example ex20 : prepared PadSame ex20_p /\ bconv_wf ex20_p /\
  eff (f_h ex20_p) (dl_h ex20_p) <= in_h ex20_p /\ eff (f_w ex20_p) (dl_w ex20_p) <= in_w ex20_p /\
  GetCacheSize (f_h ex20_p) (f_w ex20_p) (out_c ex20_p) (dl_h ex20_p) (dl_w ex20_p) = 144 /\
  int32_indices ex20_p.
Proof.
  split; [vm_compute; intuition congruence|]. split; [constructor; vm_compute; intuition congruence|].
  do 3 (split; [vm_compute; congruence|]).
  split; [vm_compute; intuition congruence|].
  unfold ex20_p; cbn [out_w f_w s_w dl_w pad_w]. intros ox fx Ho Hf. lia.
Qed.
Definition ex20b_p : bconv :=
  {| batches := 1; in_h := 3; in_w := 4; in_d := 1; out_c := 5; f_h := 1; f_w := 3; f_d := 1;
     out_h := 3; out_w := 2; channels_in := 20; groups := 1; s_h := 1; s_w := 2;
     dl_h := 1; dl_w := 1; pad_h := 0; pad_w := 0; pad_same := true; pad_value := 0 |}.
Example ex20b : prepared PadSame ex20b_p /\ bconv_wf ex20b_p /\ groups ex20b_p = 1 /\
  conv_schedule_ok 4 4 4 ex20b_p ex19_in ex_sched.
Proof.
  split; [vm_compute; intuition congruence|]. split; [constructor; vm_compute; intuition congruence|].
  split; [reflexivity|exact ex_sched_ok].
Qed.
