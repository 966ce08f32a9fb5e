(** * Properties C17-C19, C22, C23: BGEMM under every schedule, the BGEMM-based
    convolution, and 16-bit accumulators. *)
From Verif Require Import Base Spec Bits Loop4 Reference OutputTransform RefTheorems Padding Log Bgemm BgemmProofs
  IndirectTop BgemmConv Select Check.

(** ** C17: for every legal schedule (packing ranges, destination blocks, block
    sizes, every interleaving of the stores of concurrent tasks, every initial
    content of the packed buffers) the product is written everywhere. [BGemm …
    Q] says that every execution succeeds and ends in a destination satisfying Q. *)
Theorem C17_bgemm_every_schedule (T : Type) kr lc rc n k m S lhs rhs (run : Z -> Z -> option T)
    (v : Z -> Z -> T) dst :
  0 < kr -> 0 < lc -> 0 < rc -> 0 <= n -> 0 <= k -> 0 <= m ->
  zlen lhs = n * k -> zlen rhs = m * k ->
  schedule_ok kr lc rc n k m S ->
  (forall i j, 0 <= i < n -> 0 <= j < m ->
     run (sum_ k (fun q => xor_popcount (wat lhs (i * k + q)) (wat rhs (j * k + q)))) i = Some (v i j)) ->
  zlen dst = m * n ->
  BGemm kr lc rc S (fun PL PR => kernel_val PL PR run) n k m lhs rhs dst (fun dst' =>
    zlen dst' = zlen dst /\
    forall i j, 0 <= i < n -> 0 <= j < m -> rd dst' (j * n + i) = Some (v i j)).
Proof.
  exact (fun Hkr Hlc Hrc Hn Hk Hm Hl Hr HS =>
    bgemm_val_ok kr lc rc n k m S lhs rhs Hkr Hlc Hrc Hn Hk Hm Hl Hr HS run v dst).
Qed.
Print Assumptions C17_bgemm_every_schedule.

(** ** C18: bitpacked destination. *)
Theorem C18_bgemm_bitpacked_every_schedule kr lc rc n k m S lhs rhs (run : Z -> Z -> option bool)
    (v : Z -> Z -> bool) dst :
  0 < kr -> 0 < lc -> 0 < rc -> 0 <= n -> 0 <= k -> 0 <= m ->
  zlen lhs = n * k -> zlen rhs = m * k ->
  schedule_ok kr lc rc n k m S -> lc mod 32 = 0 ->
  (forall i j, 0 <= i < n -> 0 <= j < m ->
     run (sum_ k (fun q => xor_popcount (wat lhs (i * k + q)) (wat rhs (j * k + q)))) i = Some (v i j)) ->
  zlen dst = m * words n ->
  BGemm kr lc rc S (fun PL PR => kernel_bits PL PR run) n k m lhs rhs dst (fun dst' =>
    packed dst' m n /\
    forall i j, 0 <= i < n -> 0 <= j < m -> bit_of dst' (words n) j i = v i j).
Proof.
  exact (fun Hkr Hlc Hrc Hn Hk Hm Hl Hr HS H32 =>
    bgemm_bits_ok kr lc rc n k m S lhs rhs Hkr Hlc Hrc Hn Hk Hm Hl Hr HS run v dst H32).
Qed.
Print Assumptions C18_bgemm_bitpacked_every_schedule.

(** ** C19: the BGEMM-based convolution is the reference convolution. *)
Theorem C19_bgemm_conv_equals_reference (T : Type) pad p input filter kr lc rc S
    (run : Z -> Z -> option T) out :
  bconv_wf p ->
  packed input (in_pixels (geom_of p)) (channels_in p) ->
  packed filter (filter_pixels (geom_of p)) (channels_in p / groups p) ->
  groups p = 1 -> prepared pad p ->
  0 < kr -> 0 < lc -> 0 < rc -> conv_schedule_ok kr lc rc p input S ->
  pad_same p = false \/ pad_value p = 1 ->
  (forall accum c, 0 <= c < out_c p -> exists r, run accum c = Some r) ->
  zlen out = out_pixels (geom_of p) * out_c p ->
  bgemm_conv_val kr lc rc S p input filter run out (fun out' =>
    BConv2DReference_val p input filter run out = Some out').
Proof.
  exact (fun WF Hi Hf HG HP Hkr Hlc Hrc HS Hpad =>
    bgemm_eq_reference_val pad p WF input filter Hi Hf HG HP kr lc rc S Hkr Hlc Hrc HS run out
      (zero_padding_one p Hpad)).
Qed.
Print Assumptions C19_bgemm_conv_equals_reference.

Theorem C19_bgemm_conv_bitpacked_equals_reference pad p input filter kr lc rc S
    (run : Z -> Z -> option bool) out :
  bconv_wf p ->
  packed input (in_pixels (geom_of p)) (channels_in p) ->
  packed filter (filter_pixels (geom_of p)) (channels_in p / groups p) ->
  groups p = 1 -> prepared pad p ->
  0 < kr -> 0 < lc -> 0 < rc -> conv_schedule_ok kr lc rc p input S -> lc mod 32 = 0 ->
  pad_same p = false \/ pad_value p = 1 ->
  (forall accum c, 0 <= c < out_c p -> exists r, run accum c = Some r) ->
  zlen out = out_pixels (geom_of p) * words (out_c p) ->
  bgemm_conv_bits kr lc rc S p input filter run out (fun out' =>
    BConv2DReference_bits p input filter run (words (out_c p)) out = Some out' /\
    packed out' (out_pixels (geom_of p)) (out_c p)).
Proof.
  exact (fun WF Hi Hf HG HP Hkr Hlc Hrc HS H32 Hpad =>
    bgemm_eq_reference_bits pad p WF input filter Hi Hf HG HP kr lc rc S Hkr Hlc Hrc HS run out
      H32 (zero_padding_one p Hpad)).
Qed.
Print Assumptions C19_bgemm_conv_bitpacked_equals_reference.

(** ** C22: 16-bit accumulators of the indirect kernels. The claim is false as
    written: the selection formula bounds the number of input words, not the
    number of accumulated words, and a 3x3 SAME convolution on a 1x1 image
    overflows (accumulator 65664). *)
Theorem C22_indirect_uint16_overflow_refuted :
  exists p input filter b y x c,
    bconv_wf p /\ prepared PadSame p /\
    packed input (in_pixels (geom_of p)) (channels_in p) /\
    packed filter (filter_pixels (geom_of p)) (channels_in p / groups p) /\
    (exists bd a g, SelectRuntimeKernel true p = Some (Kernel8x4 bd a g)) /\
    0 <= b < batches p /\ 0 <= y < out_h p /\ 0 <= x < out_w p /\ 0 <= c < out_c p /\
    65535 < partial_acc p input filter b y x c (f_h p * f_w p * f_d p).
Proof.
  exact ex22_overflow.
Qed.
Print Assumptions C22_indirect_uint16_overflow_refuted.

(** It holds whenever the filter has no more taps than the input has pixels:
    every intermediate value of every accumulator fits in 16 bits. *)
Theorem C22_indirect_uint16_safe p input filter bd a g b y x c t :
  bconv_wf p ->
  packed input (in_pixels (geom_of p)) (channels_in p) ->
  packed filter (filter_pixels (geom_of p)) (channels_in p / groups p) ->
  SelectRuntimeKernel true p = Some (Kernel8x4 bd a g) ->
  f_h p * f_w p <= batches p * in_h p * in_w p ->
  0 <= b < batches p -> 0 <= c < out_c p -> 0 <= t <= f_h p * f_w p * f_d p ->
  0 <= partial_acc p input filter b y x c t <= 65535.
Proof. exact (indirect_uint16_safe p input filter bd a g b y x c t). Qed.
Print Assumptions C22_indirect_uint16_safe.

(** The selected block depth divides the filter depth (so the weights have no
    partial depth block), and the depth/grouped variants are chosen correctly. *)
Theorem C22_selected_kernel_fits_shape aarch64 p bd a g :
  bconv_wf p -> SelectRuntimeKernel aarch64 p = Some (Kernel8x4 bd a g) ->
  aarch64 = true /\ In bd [1; 2; 4] /\ f_d p mod bd = 0 /\
  (a = true <-> bd < f_d p) /\ (g = true <-> 1 < groups p).
Proof. exact (select_facts aarch64 p bd a g). Qed.
Print Assumptions C22_selected_kernel_fits_shape.

(** ** C23 *)
Theorem C23_bgemm_int16_safe p input filter arm64 b y x c t :
  bconv_wf p ->
  packed input (in_pixels (geom_of p)) (channels_in p) ->
  packed filter (filter_pixels (geom_of p)) (channels_in p / groups p) ->
  groups p = 1 -> bgemm_uses_int16 arm64 p = true ->
  0 <= b < batches p -> 0 <= c < out_c p -> 0 <= t <= f_h p * f_w p * f_d p ->
  0 <= partial_acc p input filter b y x c t <= 65535.
Proof. exact (bgemm_int16_safe p input filter arm64 b y x c t). Qed.
Print Assumptions C23_bgemm_int16_safe.
(** [partial_acc] after all words is the accumulator of the convolution. *)
Theorem C23_partial_is_accumulator p input filter b y x c :
  bconv_wf p ->
  packed input (in_pixels (geom_of p)) (channels_in p) ->
  packed filter (filter_pixels (geom_of p)) (channels_in p / groups p) ->
  0 <= b < batches p -> 0 <= c < out_c p ->
  taps (geom_of p) - 2 * partial_acc p input filter b y x c (f_h p * f_w p * f_d p) =
  conv (geom_of p) 1 (input_pm (geom_of p) input) (filter_pm (geom_of p) filter) b y x c.
Proof.
  exact (fun WF Hi Hf Hb Hc =>
    eq_trans (f_equal (fun a => taps (geom_of p) - 2 * a) (partial_full p WF input filter b y x c))
             (acc_one_conv p WF input filter Hi Hf b y x c Hb Hc)).
Qed.
Print Assumptions C23_partial_is_accumulator.

(** ** Concrete schedules: two blocks, 5x3 times 3x6, 4x4 kernel blocks. *)
Definition ex_sched : schedule :=
  {| sc_lpack := [(4, 8); (0, 4)]; sc_rpack := [(0, 8)];
     sc_blocks := [{| b_sr := 0; b_sc := 4; b_er := 8; b_ec := 8 |};
                   {| b_sr := 0; b_sc := 0; b_er := 8; b_ec := 4 |}];
     sc_fat := false; sc_lstride := 4; sc_rstride := 8;
     sc_lmem := repeat 77 32; sc_rmem := repeat 55 64 |}.
Example ex_sched_ok : schedule_ok 4 4 4 5 3 6 ex_sched.
Proof.
  constructor.
  - repeat (constructor; [vm_compute; intuition congruence|]); constructor.
  - intros c Hc. destruct (Z.ltb_spec c 4).
    + exists (0, 4). cbn. split; [tauto|lia].
    + exists (4, 8). cbn. split; [tauto|lia].
  - repeat (constructor; [vm_compute; intuition congruence|]); constructor.
  - intros c Hc. exists (0, 8). cbn. split; [tauto|lia].
  - repeat (constructor; [constructor; vm_compute; intuition congruence|]); constructor.
  - intros i j Hi Hj. destruct (Z.ltb_spec j 4);
      [exists {| b_sr := 0; b_sc := 0; b_er := 8; b_ec := 4 |}|exists {| b_sr := 0; b_sc := 4; b_er := 8; b_ec := 8 |}];
      cbn; (split; [tauto|lia]).
  - vm_compute; congruence.
  - vm_compute; congruence.
  - reflexivity.
  - reflexivity.
Qed.
(** A convolution needing im2col whose matrices this schedule serves: 1x3
    filter, stride 2 SAME, 5 output channels, 6 output pixels, one word. *)
Definition ex19_p : bconv :=
  {| batches := 1; in_h := 3; in_w := 4; in_d := 1; out_c := 5; f_h := 1; f_w := 3; f_d := 1;
     out_h := 3; out_w := 2; channels_in := 20; groups := 1; s_h := 1; s_w := 2;
     dl_h := 1; dl_w := 1; pad_h := 0; pad_w := 0; pad_same := true; pad_value := 1 |}.
Definition ex19_in : list Z := map (fun i => (i * 2654435761 + 12345) mod 2 ^ 20) (zrange 12).
Definition ex19_fl : list Z := map (fun i => (i * 1103515245 + 777) mod 2 ^ 20) (zrange 15).
Example ex19_ok : bconv_wf ex19_p /\ prepared PadSame ex19_p /\ groups ex19_p = 1 /\
  packed ex19_in (in_pixels (geom_of ex19_p)) (channels_in ex19_p) /\
  packed ex19_fl (filter_pixels (geom_of ex19_p)) (channels_in ex19_p / groups ex19_p) /\
  conv_schedule_ok 4 4 4 ex19_p ex19_in ex_sched.
Proof.
  split; [constructor; vm_compute; intuition congruence|].
  split; [vm_compute; intuition congruence|]. split; [reflexivity|].
  split; [apply packedb_ok; vm_compute; congruence|].
  split; [apply packedb_ok; vm_compute; congruence|].
  exact ex_sched_ok.
Qed.
(** A bitpacked schedule: 32-row blocks, 40 rows, one column, two blocks. *)
Definition ex_sched_bits : schedule :=
  {| sc_lpack := [(0, 64)]; sc_rpack := [(0, 1)];
     sc_blocks := [{| b_sr := 32; b_sc := 0; b_er := 64; b_ec := 1 |};
                   {| b_sr := 0; b_sc := 0; b_er := 32; b_ec := 1 |}];
     sc_fat := true; sc_lstride := 2; sc_rstride := 2;
     sc_lmem := repeat 77 128; sc_rmem := repeat 55 2 |}.
Example ex_sched_bits_ok : schedule_ok 1 32 1 40 2 1 ex_sched_bits.
Proof.
  constructor.
  - repeat (constructor; [vm_compute; intuition congruence|]); constructor.
  - intros c Hc. exists (0, 64). cbn. split; [tauto|lia].
  - repeat (constructor; [vm_compute; intuition congruence|]); constructor.
  - intros c Hc. exists (0, 1). cbn. split; [tauto|lia].
  - repeat (constructor; [constructor; vm_compute; intuition congruence|]); constructor.
  - intros i j Hi Hj. destruct (Z.ltb_spec i 32);
      [exists {| b_sr := 0; b_sc := 0; b_er := 32; b_ec := 1 |}|exists {| b_sr := 32; b_sc := 0; b_er := 64; b_ec := 1 |}];
      cbn; (split; [tauto|lia]).
  - vm_compute; congruence.
  - vm_compute; congruence.
  - reflexivity.
  - reflexivity.
Qed.
Example ex23 : bgemm_uses_int16 true ex19_p = true /\
  SelectRuntimeKernel true ex19_p = Some (Kernel8x4 1 false false) /\
  f_h ex19_p * f_w ex19_p <= batches ex19_p * in_h ex19_p * in_w ex19_p /\
  partial_acc ex19_p ex19_in ex19_fl 0 1 1 2 3 <> 0.
Proof. vm_compute. intuition congruence. Qed.
