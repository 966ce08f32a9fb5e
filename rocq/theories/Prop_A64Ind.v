(** * Properties C56, C57: the AArch64 assembly kernels of the indirect BGEMM. *)
From Verif Require Import Base Spec Bits Loop4 Log Bgemm Reference OutputTransform Padding RefTheorems Indirect IndirectBuf IndirectTop BgemmProofs BgemmConv Select Check
  A64 A64Bgemm A64Kernel44 A64Rel A64Trans A64Ind A64IndTop A64IndEval Prop_Bgemm Prop_A64 Prop_A64b.
Import Spec Reference.
Open Scope Z_scope.

(** A call of EvalOptIndirectBGEMM that selects one of the 8x4 assembly kernels. *)
Record asm_call (o : otparams) (p : bconv) (input filter : list Z) (D : Z) (deep grouped : bool) : Prop := {
  ac_wf : bconv_wf p;
  ac_in : packed input (in_pixels (geom_of p)) (channels_in p);
  ac_fl : packed filter (filter_pixels (geom_of p)) (channels_in p / groups p);
  ac_fh : 1 <= f_h p; ac_fw : 1 <= f_w p; ac_fd : 1 <= f_d p; ac_ih : 1 <= in_h p; ac_iw : 1 <= in_w p;
  ac_int : int32_indices p; ac_fs32 : f_h p * f_w p < 2 ^ 31; ac_fd32 : f_d p < 2 ^ 31;
  ac_sel : SelectRuntimeKernel true p = Some (Kernel8x4 D deep grouped);
  ac_clamp : p_cmin o <= p_cmax o }.
(** Addressable memory behind the arrays: per-channel arrays up to the next multiple of
    8 channels of the last group; for grouped convolutions one depth block behind the
    input and the zero buffer (C57 says when it is needed). *)
Definition readable (o : otparams) (p : bconv) (D : Z) (over_in over_zero : list Z) : Prop :=
  tr_ok o ((groups p - 1) * (out_c p / groups p) + round_up (out_c p / groups p) 8) /\
  (1 < groups p -> D <= zlen over_in /\ D <= zlen over_zero).

(** ** C56. [run_of ops ty o]: the portable output transform (C06, C07). The kernel
    computes the reference result with accumulators taken modulo 2^16 ... *)
Theorem C56_indirect_asm_is_16_bit ops ty o p input filter over_in over_zero D deep grouped ps pe out :
  nops_ok ops -> is_bits ty = false -> asm_call o p input filter D deep grouped -> readable o p D over_in over_zero ->
  ps mod 4 = 0 -> 0 <= ps <= pe -> pe <= out_pixels (geom_of p) -> zlen out = out_pixels (geom_of p) * out_c p ->
  indirect_asm_range ops ty o D deep grouped p input filter over_in over_zero ps pe out (fun out' =>
    zlen out' = zlen out /\
    (forall j, ~ ps * out_c p <= j < pe * out_c p -> rd out' j = rd out j) /\
    (forall b y x c, 0 <= b < batches p -> 0 <= y < out_h p -> 0 <= x < out_w p -> 0 <= c < out_c p -> ps <= out_pixel (geom_of p) b y x < pe ->
      rd out' (out_pixel (geom_of p) b y x * out_c p + c) = run_of ops ty o (acc_one p input filter b y x c mod 2 ^ 16) c)).
Proof.
  intros Hops Hty [] (HT & Hov) Hev Hps Hpe Hl. assert (E : ps = 4 * (ps / 4)) by lia. rewrite E. set (q := ps / 4) in *. clearbody q.
  apply indirect_asm_spec; try assumption; lia.
Qed.
Print Assumptions C56_indirect_asm_is_16_bit.
(** ... so it writes, on every range of pixels that starts at a multiple of 4, exactly
    what the reference kernel writes there, if the exact accumulators fit ... *)
Theorem C56_indirect_asm_equals_reference ops ty o p input filter over_in over_zero D deep grouped ps pe out :
  nops_ok ops -> is_bits ty = false -> asm_call o p input filter D deep grouped -> readable o p D over_in over_zero ->
  pad_same p = false \/ pad_value p = 1 ->
  (forall b y x c, 0 <= b < batches p -> 0 <= y < out_h p -> 0 <= x < out_w p -> 0 <= c < out_c p -> acc_one p input filter b y x c < 2 ^ 16) ->
  ps mod 4 = 0 -> 0 <= ps <= pe -> pe <= out_pixels (geom_of p) -> zlen out = out_pixels (geom_of p) * out_c p ->
  exists ref, BConv2DReference_val p input filter (run_of ops ty o) out = Some ref /\ zlen ref = zlen out /\
  indirect_asm_range ops ty o D deep grouped p input filter over_in over_zero ps pe out (fun out' =>
    zlen out' = zlen out /\
    forall j, 0 <= j < zlen out -> rd out' j = if (ps * out_c p <=? j) && (j <? pe * out_c p) then rd ref j else rd out j).
Proof.
  intros Hops Hty [] (HT & Hov) Hpad Hfit Hev Hps Hpe Hl. apply indirect_asm_reference; assumption.
Qed.
Print Assumptions C56_indirect_asm_equals_reference.
(** ... as they do when the filter has no more taps than the input has pixels ... *)
Lemma fits_small o p input filter D deep grouped : asm_call o p input filter D deep grouped ->
  f_h p * f_w p <= batches p * in_h p * in_w p ->
  forall b y x c, 0 <= b < batches p -> 0 <= c < out_c p -> acc_one p input filter b y x c < 2 ^ 16.
Proof.
  intros [] Hs b y x c Hb Hcc.
  assert (B := indirect_uint16_safe p input filter D deep grouped b y x c (f_h p * f_w p * f_d p) ac_wf0 ac_in0 ac_fl0 ac_sel0 Hs Hb Hcc).
  rewrite partial_full in B by exact ac_wf0. assert (0 <= f_h p * f_w p) by nia. assert (0 <= f_h p * f_w p * f_d p) by nia. lia.
Qed.
Lemma whole ops ty o p input filter over_in over_zero D deep grouped out :
  nops_ok ops -> is_bits ty = false -> asm_call o p input filter D deep grouped -> readable o p D over_in over_zero ->
  pad_same p = false \/ pad_value p = 1 ->
  (forall b y x c, 0 <= b < batches p -> 0 <= y < out_h p -> 0 <= x < out_w p -> 0 <= c < out_c p -> acc_one p input filter b y x c < 2 ^ 16) ->
  zlen out = out_pixels (geom_of p) * out_c p ->
  exists ref, BConv2DReference_val p input filter (run_of ops ty o) out = Some ref /\
  indirect_asm_range ops ty o D deep grouped p input filter over_in over_zero 0 (out_pixels (geom_of p)) out (eq ref).
Proof.
  intros Hops Hty Hac Hr Hpad Hfit Hl.
  assert (Hn : 0 <= out_pixels (geom_of p)).
  { destruct (wf_facts p (ac_wf _ _ _ _ _ _ _ Hac)) as (HB&_&_&_&_&HOH&HOW&_). change (0 <= batches p * out_h p * out_w p). assert (0 <= batches p * out_h p) by nia. nia. }
  destruct (C56_indirect_asm_equals_reference ops ty o p input filter over_in over_zero D deep grouped 0 (out_pixels (geom_of p)) out Hops Hty Hac Hr Hpad Hfit eq_refl ltac:(lia) ltac:(lia) Hl) as (ref & E & L & H).
  exists ref. split; [exact E|]. refine (indirect_asm_mono _ _ _ _ _ _ _ _ _ _ _ _ _ _ _ _ _ H). intros out' (L1 & H1).
  apply rd_ext; [congruence|]. intros j Hj. rewrite L in Hj. rewrite H1 by exact Hj. rewrite Hl in Hj.
  destruct (Z.leb_spec (0 * out_c p) j); [|lia]. destruct (Z.ltb_spec j (out_pixels (geom_of p) * out_c p)); [reflexivity|lia].
Qed.
Theorem C56_indirect_asm_small_filter ops ty o p input filter over_in over_zero D deep grouped out :
  nops_ok ops -> is_bits ty = false -> asm_call o p input filter D deep grouped -> readable o p D over_in over_zero ->
  pad_same p = false \/ pad_value p = 1 -> f_h p * f_w p <= batches p * in_h p * in_w p ->
  zlen out = out_pixels (geom_of p) * out_c p ->
  exists ref, BConv2DReference_val p input filter (run_of ops ty o) out = Some ref /\
  indirect_asm_range ops ty o D deep grouped p input filter over_in over_zero 0 (out_pixels (geom_of p)) out (eq ref).
Proof.
  intros Hops Hty Hac Hr Hpad Hs Hl. apply whole; try assumption. intros b y x c Hb _ _ Hcc. exact (fits_small _ _ _ _ _ _ _ Hac Hs b y x c Hb Hcc).
Qed.
Print Assumptions C56_indirect_asm_small_filter.
(** ... in particular always with VALID padding ... *)
Theorem C56_indirect_asm_valid ops ty o p input filter over_in over_zero D deep grouped out :
  nops_ok ops -> is_bits ty = false -> asm_call o p input filter D deep grouped -> readable o p D over_in over_zero ->
  prepared PadValid p -> 1 <= s_h p -> 1 <= s_w p -> 1 <= dl_h p -> 1 <= dl_w p -> zlen out = out_pixels (geom_of p) * out_c p ->
  exists ref, BConv2DReference_val p input filter (run_of ops ty o) out = Some ref /\
  indirect_asm_range ops ty o D deep grouped p input filter over_in over_zero 0 (out_pixels (geom_of p)) out (eq ref).
Proof.
  intros Hops Hty Hac Hr (Hph & Hpw & _ & Hps) Hsh Hsw Hdh Hdw Hl. apply whole; try assumption; [left; exact Hps|].
  intros b y x c Hb Hy Hx Hcc. apply (fits_small _ _ _ _ _ _ _ Hac); try assumption.
  destruct Hac.
  assert (X1 : f_h p <= in_h p).
  { injection Hph as Eh _. destruct (Z_lt_le_dec (in_h p) (eff (f_h p) (dl_h p))) as [Hlt|Hge].
    - assert (Q := valid_too_big (in_h p) (f_h p) (s_h p) (dl_h p) ltac:(lia) Hsh Hdh ltac:(lia) Hlt). lia.
    - unfold eff in Hge. nia. }
  assert (X2 : f_w p <= in_w p).
  { injection Hpw as Ew _. destruct (Z_lt_le_dec (in_w p) (eff (f_w p) (dl_w p))) as [Hlt|Hge].
    - assert (Q := valid_too_big (in_w p) (f_w p) (s_w p) (dl_w p) ltac:(lia) Hsw Hdw ltac:(lia) Hlt). lia.
    - unfold eff in Hge. nia. }
  assert (f_h p * f_w p <= in_h p * in_w p) by (apply Z.mul_le_mono_nonneg; lia).
  assert (0 <= in_h p * in_w p) by nia. nia.
Qed.
Print Assumptions C56_indirect_asm_valid.
(** ... but not for every convolution for which the runtime selects these kernels: a 3x3
    SAME convolution of a 1x1 image with 7296 channels (the case of C22). Input bits all
    0, filter bits all 1: the accumulator is 65664, and 65664 mod 2^16 = 128. *)
Definition in22 : list Z := repeat 0 (Z.to_nat 228).
Definition fl22 : list Z := repeat (2 ^ 32 - 1) (Z.to_nat 2052).
Lemma acc22 : acc_one ex22_p in22 fl22 0 0 0 0 = 65664.
Proof.
  unfold acc_one, acc_tap. change (f_h ex22_p) with 3. change (f_w ex22_p) with 3. change (f_d ex22_p) with 228.
  rewrite (sum_ext 3 _ (fun _ => 21888)); [rewrite sum_const by lia; lia|]. intros fy Hfy.
  rewrite (sum_ext 3 _ (fun _ => 7296)); [rewrite sum_const by lia; lia|]. intros fx Hfx. cbv zeta.
  rewrite (sum_ext 228 _ (fun _ => 32)); [rewrite sum_const by lia; lia|]. intros ic Hic.
  match goal with |- xor_popcount ?a (word_at _ ?i) = _ => set (A := a); set (i0 := i) end.
  assert (HA : A = 0).
  { unfold A, word_at, in22. destruct (inside _ _ _); [|reflexivity].
    match goal with |- context [rd ?m ?j] => destruct (rd m j) as [w|] eqn:E; [|reflexivity] end.
    assert (Hi := rd_bounds _ _ _ E). rewrite zlen_repeat in Hi. rewrite rd_repeat in E by exact Hi. congruence. }
  rewrite HA. unfold word_at, fl22. rewrite rd_repeat; [reflexivity|].
  unfold i0, Offset. cbn [f_h f_w f_d ex22_p]. rewrite Z2Nat.id by lia. lia.
Qed.
(** The transform doubles the accumulator (C06); multiplier 1, bias 0. *)
Definition ot22 : otparams := {| p_cmin := 0; p_cmax := 200000; p_mul := repeat 1 8; p_bias := repeat 0 8; p_thr := [] |}.
Lemma ot22_ok : tr_ok ot22 8.
Proof. constructor; try (unfold int32; cbn; lia); try (repeat (constructor; [unfold pat; lia|]); constructor); vm_compute; congruence. Qed.
Lemma call22 : asm_call ot22 ex22_p in22 fl22 4 true false.
Proof.
  constructor; try (cbn; lia).
  - constructor; vm_compute; intuition congruence.
  - apply packed_repeat; [unfold word; lia|reflexivity|vm_compute; congruence|vm_compute; congruence|rewrite Z2Nat.id by lia; reflexivity].
  - apply packed_repeat; [unfold word; lia|reflexivity|vm_compute; congruence|vm_compute; congruence|rewrite Z2Nat.id by lia; reflexivity].
  - split; [cbn; lia|]. cbn. intros ox fx H1 H2. lia.
  - vm_compute. reflexivity.
Qed.
Theorem C56_indirect_asm_overflow_refuted :
  exists p input filter D deep grouped o,
    asm_call o p input filter D deep grouped /\ readable o p D [] [] /\ prepared PadSame p /\ pad_value p = 1 /\
    BConv2DReference_val p input filter (run_of wops DFloat o) [0] = Some [131328] /\
    indirect_asm_range wops DFloat o D deep grouped p input filter [] [] 0 (out_pixels (geom_of p)) [0] (fun out' => out' = [256]).
Proof.
  exists ex22_p, in22, fl22, 4, true, false, ot22.
  assert (Hac := call22). assert (WF := ac_wf _ _ _ _ _ _ _ Hac).
  assert (Hr : readable ot22 ex22_p 4 [] []) by (split; [exact ot22_ok|cbn; lia]).
  split; [exact Hac|]. split; [exact Hr|]. split; [vm_compute; intuition congruence|]. split; [reflexivity|]. split.
  - destruct (reference_val_ok ex22_p WF in22 fl22 (ac_in _ _ _ _ _ _ _ Hac) (ac_fl _ _ _ _ _ _ _ Hac) (run_of wops DFloat ot22) (fun _ _ _ _ => 131328) [0]) as (ref & E & L & C).
    { intros b y x c Hb Hy Hx Hcc. cbn [ex22_p batches out_h out_w out_c] in Hb, Hy, Hx, Hcc. assert (b = 0) by lia. assert (y = 0) by lia. assert (x = 0) by lia. assert (c = 0) by lia. subst.
      rewrite (acc_ref_one ex22_p in22 fl22 0 0 0 0 (zero_padding_one ex22_p (or_intror eq_refl))), acc22. vm_compute. reflexivity. }
    { reflexivity. }
    rewrite E. f_equal. apply rd_ext; [rewrite L; reflexivity|]. intros i Hi. rewrite L in Hi. change (zlen [0]) with 1 in Hi. assert (i = 0) by lia. subst i.
    assert (Q := C 0 0 0 0 ltac:(cbn; lia) ltac:(cbn; lia) ltac:(cbn; lia) ltac:(cbn; lia)). exact Q.
  - refine (indirect_asm_mono _ _ _ _ _ _ _ _ _ _ _ _ _ _ _ _ _ (C56_indirect_asm_is_16_bit wops DFloat ot22 ex22_p in22 fl22 [] [] 4 true false 0 (out_pixels (geom_of ex22_p)) [0] wops_ok eq_refl Hac Hr eq_refl _ _ eq_refl)).
    + intros out' (L & _ & H). apply rd_ext; [exact L|]. intros i Hi. rewrite L in Hi. change (zlen [0]) with 1 in Hi. assert (i = 0) by lia. subst i.
      assert (Q := H 0 0 0 0 ltac:(cbn; lia) ltac:(cbn; lia) ltac:(cbn; lia) ltac:(cbn; lia) ltac:(cbn; lia)). rewrite acc22 in Q. exact Q.
    + cbn; lia.
    + lia.
Qed.
Print Assumptions C56_indirect_asm_overflow_refuted.

(** ** C57: with the arrays OneTimeSetup makes (out_c + 4 multipliers and biases) and no
    memory behind the input tensor and the zero buffer, the kernel runs without an
    access outside every array if the convolution is not grouped and out_c mod 8 is not
    1, 2 or 3. *)
Theorem C57_indirect_asm_reads_in_bounds ops ty o p input filter D deep ps pe out :
  nops_ok ops -> is_bits ty = false -> asm_call o p input filter D deep false -> setup_lens o (out_c p) ->
  out_c p mod 8 = 0 \/ 4 <= out_c p mod 8 ->
  ps mod 4 = 0 -> 0 <= ps <= pe -> pe <= out_pixels (geom_of p) -> zlen out = out_pixels (geom_of p) * out_c p ->
  indirect_asm_range ops ty o D deep false p input filter [] [] ps pe out (fun _ => True).
Proof.
  intros Hops Hty Hac (A & B & C & F & G & H) Hm Hev Hps Hpe Hl.
  assert (WF := ac_wf _ _ _ _ _ _ _ Hac). destruct (wf_facts p WF) as (_&_&_&_&_&_&_&HG&_).
  assert (EG : groups p = 1).
  { destruct (select_facts true p D deep false WF (ac_sel _ _ _ _ _ _ _ Hac)) as (_ & _ & _ & _ & Q). destruct (Z_lt_le_dec 1 (groups p)) as [X|X]; [apply Q in X; discriminate|lia]. }
  refine (indirect_asm_mono _ _ _ _ _ _ _ _ _ _ _ _ _ _ _ _ _ (C56_indirect_asm_is_16_bit ops ty o p input filter [] [] D deep false ps pe out Hops Hty Hac _ Hev Hps Hpe Hl)).
  - intros; exact I.
  - split; [|lia]. rewrite EG, Z.div_1_r. constructor; try assumption; rewrite ?G, ?H; unfold round_up; Z.to_euclidean_division_equations; lia.
Qed.
Print Assumptions C57_indirect_asm_reads_in_bounds.
(** For grouped convolutions the same with one depth block behind the input and the
    zero buffer. *)
Theorem C57_indirect_asm_grouped_reads ops ty o p input filter over_in over_zero D deep ps pe out :
  nops_ok ops -> is_bits ty = false -> asm_call o p input filter D deep true -> setup_lens o (out_c p) ->
  (out_c p / groups p) mod 8 = 0 \/ 4 <= (out_c p / groups p) mod 8 -> D <= zlen over_in -> D <= zlen over_zero ->
  ps mod 4 = 0 -> 0 <= ps <= pe -> pe <= out_pixels (geom_of p) -> zlen out = out_pixels (geom_of p) * out_c p ->
  indirect_asm_range ops ty o D deep true p input filter over_in over_zero ps pe out (fun _ => True).
Proof.
  intros Hops Hty Hac (A & B & C & F & G & H) Hm O1 O2 Hev Hps Hpe Hl.
  assert (WF := ac_wf _ _ _ _ _ _ _ Hac). assert (EC := wf_cout p WF).
  refine (indirect_asm_mono _ _ _ _ _ _ _ _ _ _ _ _ _ _ _ _ _ (C56_indirect_asm_is_16_bit ops ty o p input filter over_in over_zero D deep true ps pe out Hops Hty Hac _ Hev Hps Hpe Hl)).
  - intros; exact I.
  - split; [|lia]. set (CO := out_c p / groups p) in *. clearbody CO.
    assert (X : round_up CO 8 <= CO + 4) by (unfold round_up; Z.to_euclidean_division_equations; lia).
    constructor; try assumption; rewrite ?G, ?H, EC; lia.
Qed.
Print Assumptions C57_indirect_asm_grouped_reads.
(** False without these conditions. (a) Three output channels, as OneTimeSetup leaves the
    arrays: a fault; with one more entry there is none. (b) A grouped 1x1 convolution:
    the activations for the group after the last are loaded, from behind the last pixel
    of the input tensor; with one word more there is no fault. *)
Definition p57a : bconv :=
  {| batches := 1; in_h := 1; in_w := 1; in_d := 1; out_c := 3; f_h := 1; f_w := 1; f_d := 1;
     out_h := 1; out_w := 1; channels_in := 32; groups := 1; s_h := 1; s_w := 1;
     dl_h := 1; dl_w := 1; pad_h := 0; pad_w := 0; pad_same := false; pad_value := 0 |}.
Definition p57b : bconv :=
  {| batches := 1; in_h := 1; in_w := 1; in_d := 2; out_c := 16; f_h := 1; f_w := 1; f_d := 1;
     out_h := 1; out_w := 1; channels_in := 64; groups := 2; s_h := 1; s_w := 1;
     dl_h := 1; dl_w := 1; pad_h := 0; pad_w := 0; pad_same := false; pad_value := 0 |}.
Lemma p57_index p : out_w p = 1 -> f_w p = 1 -> in_w p = 1 -> s_w p = 1 -> dl_w p = 1 -> pad_w p = 0 -> int32_indices p.
Proof. intros A B C D E F. split; [lia|]. intros ox fx H1 H2. rewrite A in H1. rewrite B in H2. rewrite D, E, F. lia. Qed.
Lemma setup_ot_len n th : (n <= 1000)%nat -> setup_lens (ot_len (n + 4) th) (Z.of_nat n).
Proof.
  intros _. unfold setup_lens, int32. cbn [ot_len p_cmin p_cmax p_mul p_bias]. split; [lia|]. split; [lia|].
  split; [apply Forall_forall; intros x Hx; apply repeat_spec in Hx; subst; unfold pat; lia|].
  split; [apply Forall_forall; intros x Hx; apply repeat_spec in Hx; subst; unfold pat; lia|]. split; rewrite zlen_repeat; lia.
Qed.
Lemma call57a o : p_cmin o <= p_cmax o -> asm_call o p57a [5] [7; 7; 8] 1 false false.
Proof.
  intros Ho. constructor; try (cbn; lia); try exact Ho.
  - constructor; vm_compute; intuition congruence.
  - apply packedb_ok; [vm_compute; congruence|vm_compute; reflexivity].
  - apply packedb_ok; [vm_compute; congruence|vm_compute; reflexivity].
  - apply p57_index; reflexivity.
  - vm_compute. reflexivity.
Qed.
Lemma call57b o : p_cmin o <= p_cmax o -> asm_call o p57b [5; 6] (repeat 7 8 ++ repeat 3 8) 1 false true.
Proof.
  intros Ho. constructor; try (cbn; lia); try exact Ho.
  - constructor; vm_compute; intuition congruence.
  - apply packedb_ok; [vm_compute; congruence|vm_compute; reflexivity].
  - apply packedb_ok; [vm_compute; congruence|vm_compute; reflexivity].
  - apply p57_index; reflexivity.
  - vm_compute. reflexivity.
Qed.
Theorem C57_indirect_asm_over_read_refuted :
  (asm_call (ot_len 7 0) p57a [5] [7; 7; 8] 1 false false /\ setup_lens (ot_len 7 0) 3 /\ prepared PadValid p57a /\
   ~ indirect_asm_range wops DFloat (ot_len 7 0) 1 false false p57a [5] [7; 7; 8] [] [] 0 1 [0; 0; 0] (fun _ => True) /\
   indirect_asm_range wops DFloat (ot_len 8 0) 1 false false p57a [5] [7; 7; 8] [] [] 0 1 [0; 0; 0] (fun _ => True)) /\
  (asm_call (ot_len 20 0) p57b [5; 6] (repeat 7 8 ++ repeat 3 8) 1 false true /\ setup_lens (ot_len 20 0) 16 /\ prepared PadValid p57b /\
   ~ indirect_asm_range wops DFloat (ot_len 20 0) 1 false true p57b [5; 6] (repeat 7 8 ++ repeat 3 8) [] [9] 0 1 (repeat 0 16) (fun _ => True) /\
   indirect_asm_range wops DFloat (ot_len 20 0) 1 false true p57b [5; 6] (repeat 7 8 ++ repeat 3 8) [9] [9] 0 1 (repeat 0 16) (fun _ => True)).
Proof.
  split.
  - split; [apply call57a; cbn; lia|]. split; [apply (setup_ot_len 3); lia|]. split; [vm_compute; intuition congruence|]. split.
    + intros H. apply indirect_asm_res_ok in H. revert H. vm_compute. exact (fun x => x).
    + refine (indirect_asm_mono _ _ _ _ _ _ _ _ _ _ _ _ _ _ _ _ _ (C56_indirect_asm_is_16_bit wops DFloat (ot_len 8 0) p57a [5] [7; 7; 8] [] [] 1 false false 0 1 [0; 0; 0] wops_ok eq_refl (call57a _ _) _ eq_refl _ _ eq_refl)); try (intros; exact I); try (cbn; lia).
      split; [|cbn; lia]. destruct (setup_ot_len 4 0 ltac:(lia)) as (A & B & C & F & G & H). constructor; try assumption; vm_compute; congruence.
  - split; [apply call57b; cbn; lia|]. split; [apply (setup_ot_len 16); lia|]. split; [vm_compute; intuition congruence|]. split.
    + intros H. apply indirect_asm_res_ok in H. revert H. vm_compute. exact (fun x => x).
    + assert (Hac : asm_call (ot_len 20 0) p57b [5; 6] (repeat 7 8 ++ repeat 3 8) 1 false true) by (apply call57b; cbn; lia).
      refine (C57_indirect_asm_grouped_reads wops DFloat _ _ _ _ [9] [9] 1 false 0 1 (repeat 0 16) wops_ok eq_refl Hac (setup_ot_len 16 0 ltac:(lia)) (or_introl eq_refl) _ _ eq_refl _ _ eq_refl); cbn; lia.
Qed.
Print Assumptions C57_indirect_asm_over_read_refuted.

(** ** Concrete cases: the grouped convolution above, evaluated, and the hypotheses of C56. *)
Example C56_case : nops_ok wops /\ is_bits DFloat = false /\ asm_call (ot_len 20 0) p57b [5; 6] (repeat 7 8 ++ repeat 3 8) 1 false true /\
  readable (ot_len 20 0) p57b 1 [9] [9] /\ prepared PadValid p57b /\ zlen (repeat 0 16) = out_pixels (geom_of p57b) * out_c p57b /\
  indirect_asm_range wops DFloat (ot_len 20 0) 1 false true p57b [5; 6] (repeat 7 8 ++ repeat 3 8) [9] [9] 0 1 (repeat 0 16) (eq (repeat 2 8 ++ repeat 4 8)).
Proof.
  assert (Hr : readable (ot_len 20 0) p57b 1 [9] [9]).
  { split; [|cbn; lia]. destruct (setup_ot_len 16 0 ltac:(lia)) as (A & B & C & F & G & H). constructor; try assumption; vm_compute; congruence. }
  split; [exact wops_ok|]. split; [reflexivity|]. split; [apply call57b; cbn; lia|]. split; [exact Hr|]. split; [vm_compute; intuition congruence|]. split; [reflexivity|].
  destruct (C56_indirect_asm_valid wops DFloat (ot_len 20 0) p57b [5; 6] (repeat 7 8 ++ repeat 3 8) [9] [9] 1 false true (repeat 0 16)) as (ref & E & H);
    [exact wops_ok|reflexivity|apply call57b; cbn; lia|exact Hr|vm_compute; intuition congruence|cbn; lia|cbn; lia|cbn; lia|cbn; lia|reflexivity|].
  assert (X : ref = repeat 2 8 ++ repeat 4 8) by (assert (Some ref = Some (repeat 2 8 ++ repeat 4 8)) by (rewrite <- E; vm_compute; reflexivity); congruence).
  rewrite <- X. exact H.
Qed.
