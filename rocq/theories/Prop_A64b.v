(** * Properties C51-C55: the 8x4 AArch64 assembly kernel (16-bit accumulators)
    and the convolution run with the assembly kernels. *)
From Verif Require Import Base Spec Bits Reference OutputTransform Padding Log Bgemm BgemmProofs IndirectTop BgemmConv Select Check
  A64 A64Bgemm A64Lemmas A64K44 A64Store A64Trans A64Block44 A64Loop44 A64Kernel44 A64Val84 A64Rel A64Bits84 A64BitsW84 A64RelBits A64Conv Prop_Bgemm Prop_A64.
Open Scope Z_scope.

(** ** C51: one call of BinaryKernelNeon8x4 (float, int8) stores exactly the bytes of
    what the portable kernel would store if its accumulators were 16 bits wide and
    unsigned, whatever the registers and the scratch buffer held. *)
Theorem C51_asm_8x4_is_16_bit_portable ops t o L R ls rs G rows cols sr sc er ec f g tmp :
  nops_ok ops -> is_bits t = false -> p_cmin o <= p_cmax o -> 128 * G < 2 ^ 30 ->
  call_ok 8 t o L R ls rs G rows cols sr sc er ec -> tr_ok o er -> 32 * Z.of_nat (esize t) <= zlen tmp ->
  exists lp, kernel_val (pmat 8 L ls G) (pmat 4 R rs G) (fun a => run_of ops t o (a mod 2 ^ 16)) rows cols sr sc er ec [] = Some lp /\
  exists n lg, (forall n', (n <= n')%nat -> asm_kernel ops (k84 t) n' t f g tmp L R 8 ls rs (4 * G) rows cols sr sc er ec o = Some lg) /\
    bytes_of t lp lg.
Proof.
  intros Hops Ht Hc Hd K T Htm.
  exact (asm_portable wrap16 ops t o 8 (k84 t) ltac:(lia) Hc _ (asm84_ok ops t o Hops Ht) L R ls rs G rows cols sr sc er ec f g tmp Hd K T Htm).
Qed.
Print Assumptions C51_asm_8x4_is_16_bit_portable.
(** So, wherever the exact sums fit, it stores what the portable kernel stores. *)
Theorem C51_asm_8x4_equals_portable ops t o L R ls rs G rows cols sr sc er ec f g tmp :
  nops_ok ops -> is_bits t = false -> p_cmin o <= p_cmax o -> 128 * G < 2 ^ 30 ->
  call_ok 8 t o L R ls rs G rows cols sr sc er ec -> tr_ok o er -> 32 * Z.of_nat (esize t) <= zlen tmp ->
  (forall i j a, sr <= i < Z.min er rows -> sc <= j < Z.min ec cols -> accumulate (pmat 8 L ls G) (pmat 4 R rs G) i j = Some a -> 0 <= a < 2 ^ 16) ->
  exists lp, kernel_val (pmat 8 L ls G) (pmat 4 R rs G) (run_of ops t o) rows cols sr sc er ec [] = Some lp /\
  exists n lg, (forall n', (n <= n')%nat -> asm_kernel ops (k84 t) n' t f g tmp L R 8 ls rs (4 * G) rows cols sr sc er ec o = Some lg) /\
    bytes_of t lp lg.
Proof.
  intros Hops Ht Hc Hd K T Htm Hfit.
  destruct (asm_portable wrap16 ops t o 8 (k84 t) ltac:(lia) Hc _ (asm84_ok ops t o Hops Ht) L R ls rs G rows cols sr sc er ec f g tmp Hd K T Htm) as (lp & El & H).
  exists lp. split; [|exact H]. rewrite <- El. unfold kernel_val. symmetry.
  apply for_ext. intros i l Hi. apply for_ext. intros j l' Hj. specialize (Hfit i j).
  destruct (accumulate _ _ i j) as [a|]; [|reflexivity]. cbn [bind]. specialize (Hfit a Hi Hj eq_refl). unfold wrap16. rewrite Z.mod_small by exact Hfit. reflexivity.
Qed.
Print Assumptions C51_asm_8x4_equals_portable.

(** ** C52: BGEMM with the 8x4 kernel. *)
Theorem C52_bgemm_asm_8x4 ops t o S n k m lhs rhs dst (v : Z -> Z -> Z) :
  nops_ok ops -> is_bits t = false -> p_cmin o <= p_cmax o -> tr_ok o (round_up n 8) ->
  1 <= k < 2 ^ 24 -> 0 <= n < 2 ^ 30 - 8 -> 0 <= m < 2 ^ 31 - 8 -> 4 * sc_lstride S < 2 ^ 32 -> 4 * sc_rstride S < 2 ^ 32 ->
  zlen lhs = n * k -> zlen rhs = m * k -> schedule_ok 4 8 4 n k m S -> Forall nonempty (sc_blocks S) ->
  zlen dst = Z.of_nat (esize t) * (m * n) ->
  (forall i j, 0 <= i < n -> 0 <= j < m ->
     0 <= sum_ k (fun q => xor_popcount (wat lhs (i * k + q)) (wat rhs (j * k + q))) < 2 ^ 16) ->
  (forall i j, 0 <= i < n -> 0 <= j < m ->
     run_of ops t o (sum_ k (fun q => xor_popcount (wat lhs (i * k + q)) (wat rhs (j * k + q)))) i = Some (v i j)) ->
  BGemm_asm ops (k84 t) t o 8 S n k m lhs rhs dst (fun dst' => zlen dst' = zlen dst /\
    forall i j q, 0 <= i < n -> 0 <= j < m -> 0 <= q < Z.of_nat (esize t) ->
      rd dst' (Z.of_nat (esize t) * (j * n + i) + q) = rd (le_split (esize t) (v i j)) q).
Proof.
  intros Hops Ht Hc T Hk Hn Hm Hl Hr Zl Zr HS Hne Zd Hfit Hv.
  assert (HU := round_up_facts k 4 ltac:(lia) ltac:(lia)).
  assert (HG : 128 * (round_up k 4 / 4) < 2 ^ 30) by (Z.to_euclidean_division_equations; lia).
  assert (He : Z.of_nat (esize t) * n < 2 ^ 32) by (unfold esize; destruct (is_float t); lia).
  apply (bgemm_asm_ok wrap16 ops t o 8 (k84 t) (fun G => 128 * G < 2 ^ 30) ltac:(lia) Hc (asm84_ok ops t o Hops Ht)); try assumption; try lia.
  - intros i j Hi Hj. unfold wrap16. apply Z.mod_small. apply Hfit; assumption.
Qed.
Print Assumptions C52_bgemm_asm_8x4.

(** ** C53: bit-packed output. The destination holds bytes; [lanes 4 dst'] are its
    little-endian 32-bit words. No matter what the rows-per-block is, and for every
    schedule and interleaving, every bit is right and padding bits are 0. *)
Theorem C53_bgemm_asm_8x4_bitpacked ops o S n k m lhs rhs dst :
  th_ok o (round_up n 8) ->
  1 <= k < 2 ^ 24 -> 0 <= n < 2 ^ 31 - 8 -> 0 <= m < 2 ^ 31 - 8 -> 4 * sc_lstride S < 2 ^ 32 -> 4 * sc_rstride S < 2 ^ 32 ->
  zlen lhs = n * k -> zlen rhs = m * k -> schedule_ok 4 8 4 n k m S -> Forall nonempty (sc_blocks S) ->
  zlen dst = 4 * (m * words n) -> Forall (fun x => 0 <= x < 256) dst -> n mod 32 = 0 \/ Forall (fun x => x = 0) dst ->
  (forall i j, 0 <= i < n -> 0 <= j < m ->
     0 <= sum_ k (fun q => xor_popcount (wat lhs (i * k + q)) (wat rhs (j * k + q))) < 2 ^ 16) ->
  BGemm_asm ops (k84 DBits) DBits o 8 S n k m lhs rhs dst (fun dst' => zlen dst' = zlen dst /\ packed (lanes 4 dst') m n /\
    forall i j, 0 <= i < n -> 0 <= j < m -> bit_of (lanes 4 dst') (words n) j i =
      (wat (p_thr o) i <? sum_ k (fun q => xor_popcount (wat lhs (i * k + q)) (wat rhs (j * k + q))))).
Proof.
  intros T Hk Hn Hm Hl Hr Zl Zr HS Hne Zd Hb Hz Hfit.
  eapply BGemm_asm_mono; [|apply bgemm_asm_words; assumption]. cbv beta. intros d (A & B & C). split; [exact A|]. split; [exact B|].
  intros i j Hi Hj. rewrite C by assumption. unfold bproduct. rewrite Z.mod_small by (apply Hfit; assumption). reflexivity.
Qed.
Print Assumptions C53_bgemm_asm_8x4_bitpacked.

(** ** C54: the convolution with the kernel that is dispatched on AArch64: what the
    reference kernel writes, in the bytes of the output tensor. *)
Section C54.
  Variables (pad : padding) (p : bconv) (input filter : list Z) (ops : nops) (o : otparams) (S : schedule).
  (** The hypotheses shared by the three kernels. *)
  Record conv_call : Prop := {
    cc_wf : bconv_wf p; cc_in : packed input (in_pixels (geom_of p)) (channels_in p);
    cc_fl : packed filter (filter_pixels (geom_of p)) (channels_in p / groups p);
    cc_groups : groups p = 1; cc_prep : prepared pad p; cc_pad : pad_same p = false \/ pad_value p = 1;
    cc_ci : 1 <= channels_in p; cc_fh : 1 <= f_h p; cc_fw : 1 <= f_w p;
    cc_oc : out_c p < 2 ^ 29; cc_m : out_pixels (geom_of p) < 2 ^ 31 - 8;
    cc_ls : 4 * sc_lstride S < 2 ^ 32; cc_rs : 4 * sc_rstride S < 2 ^ 32; cc_ne : Forall nonempty (sc_blocks S) }.
  Hypothesis C : conv_call.
  Lemma int16_taps : bgemm_uses_int16 true p = true -> taps (geom_of p) < 2 ^ 16 /\ im2col_k p < 2 ^ 24.
  Proof.
    destruct C. intros H. unfold bgemm_uses_int16 in H. cbn [andb] in H. apply Z.ltb_lt in H.
    assert (E : taps (geom_of p) = f_h p * f_w p * channels_in p) by (unfold taps; cbn [gKH gKW gCI geom_of]; rewrite cc_groups0, Z.div_1_r; reflexivity).
    split; [lia|]. unfold im2col_k. rewrite (wf_ind p cc_wf0).
    assert (W : 0 <= words (channels_in p) <= channels_in p) by (unfold words; Z.to_euclidean_division_equations; lia).
    assert (0 <= f_h p * f_w p) by nia. nia.
  Qed.
  (** 16-bit accumulators: 8x4. *)
  Theorem C54_conv_asm_8x4 t ref0 out : nops_ok ops -> is_bits t = false -> p_cmin o <= p_cmax o ->
    bgemm_uses_int16 true p = true -> conv_schedule_ok 4 8 4 p input S -> tr_ok o (round_up (out_c p) 8) ->
    zlen ref0 = out_pixels (geom_of p) * out_c p -> zlen out = Z.of_nat (esize t) * (out_pixels (geom_of p) * out_c p) ->
    asm_conv ops (k84 t) t o 8 S p input filter out (fun out' =>
      exists ref, BConv2DReference_val p input filter (run_of ops t o) ref0 = Some ref /\ out' = vec (esize t) ref).
  Proof.
    intros Hops Ht Hc H16 HS HT Hl Ho. destruct (int16_taps H16) as [Htaps Hk]. destruct C.
    assert (HU := round_up_facts (im2col_k p) 4 ltac:(lia) ltac:(unfold im2col_k; assert (0 <= in_d p) by (rewrite (wf_ind p cc_wf0); unfold words; Z.to_euclidean_division_equations; lia); assert (0 <= f_h p * f_w p) by nia; nia)).
    apply (asm_conv_val pad p input filter cc_wf0 cc_in0 cc_fl0 cc_groups0 cc_prep0 (zero_padding_one p cc_pad0) cc_ci0 cc_fh0 cc_fw0 ops o S cc_oc0 cc_m0 cc_ls0 cc_rs0 cc_ne0
      wrap16 t 8 (k84 t) (fun G => 128 * G < 2 ^ 30) ltac:(lia) Hc (asm84_ok ops t o Hops Ht) Ht); try assumption.
    - cbv beta. Z.to_euclidean_division_equations; lia.
    - intros b y x c Hb Hy Hx Hcc. unfold wrap16. apply Z.mod_small.
      assert (A := acc_one_bound p cc_wf0 input filter cc_in0 cc_fl0 b y x c Hb Hcc). lia.
  Qed.
  Theorem C54_conv_asm_8x4_bitpacked ref0 out :
    bgemm_uses_int16 true p = true -> conv_schedule_ok 4 8 4 p input S -> th_ok o (round_up (out_c p) 8) ->
    zlen ref0 = out_pixels (geom_of p) * words (out_c p) -> zlen out = 4 * (out_pixels (geom_of p) * words (out_c p)) -> Forall (fun x => 0 <= x < 256) out ->
    asm_conv ops (k84 DBits) DBits o 8 S p input filter out (fun out' =>
      zlen out' = zlen out /\ packed (lanes 4 out') (out_pixels (geom_of p)) (out_c p) /\
      BConv2DReference_bits p input filter (run_bits (p_thr o)) (words (out_c p)) ref0 = Some (lanes 4 out')).
  Proof.
    intros H16 HS HT Hl Ho Hb. destruct (int16_taps H16) as [Htaps Hk]. destruct C.
    exact (asm_conv_bits pad p input filter cc_wf0 cc_in0 cc_fl0 cc_groups0 cc_prep0 (zero_padding_one p cc_pad0) cc_ci0 cc_fh0 cc_fw0 Hk ops o S cc_oc0 cc_m0 cc_ls0 cc_rs0 cc_ne0
      HS HT Htaps ref0 out Hl Ho Hb).
  Qed.
  (** 32-bit accumulators: 4x4 (without MAX_STREAMING), any depth below 2^24 words. *)
  Theorem C54_conv_asm_4x4 t ref0 out : nops_ok ops -> is_bits t = false -> p_cmin o <= p_cmax o ->
    f_h p * f_w p * in_d p < 2 ^ 22 -> conv_schedule_ok 4 4 4 p input S -> tr_ok o (round_up (out_c p) 4) ->
    zlen ref0 = out_pixels (geom_of p) * out_c p -> zlen out = Z.of_nat (esize t) * (out_pixels (geom_of p) * out_c p) ->
    asm_conv ops (k44 false t) t o 4 S p input filter out (fun out' =>
      exists ref, BConv2DReference_val p input filter (run_of ops t o) ref0 = Some ref /\ out' = vec (esize t) ref).
  Proof.
    intros Hops Ht Hc Hk HS HT Hl Ho. destruct C.
    assert (HU := round_up_facts (im2col_k p) 4 ltac:(lia) ltac:(unfold im2col_k; assert (0 <= in_d p) by (rewrite (wf_ind p cc_wf0); unfold words; Z.to_euclidean_division_equations; lia); assert (0 <= f_h p * f_w p) by nia; nia)).
    apply (asm_conv_val pad p input filter cc_wf0 cc_in0 cc_fl0 cc_groups0 cc_prep0 (zero_padding_one p cc_pad0) cc_ci0 cc_fh0 cc_fw0 ops o S cc_oc0 cc_m0 cc_ls0 cc_rs0 cc_ne0
      (fun a => a) t 4 (k44 false t) _ ltac:(lia) Hc (asm44_ok ops t o false Hops Ht) Ht); try assumption.
    - unfold im2col_k in *. split; [|discriminate]. Z.to_euclidean_division_equations; lia.
    - reflexivity.
  Qed.
  (** With MAX_STREAMING, for the depths at which it is correct (C50): the packed depth is
      4 words or a multiple of 8 from 16 on. *)
  Theorem C54_conv_asm_4x4_streaming t ref0 out : nops_ok ops -> is_bits t = false -> p_cmin o <= p_cmax o ->
    f_h p * f_w p * in_d p < 2 ^ 22 ->
    f_h p * f_w p * in_d p <= 4 \/ (12 < f_h p * f_w p * in_d p /\ 3 < (f_h p * f_w p * in_d p - 1) mod 8) ->
    conv_schedule_ok 4 4 4 p input S -> tr_ok o (round_up (out_c p) 4) ->
    zlen ref0 = out_pixels (geom_of p) * out_c p -> zlen out = Z.of_nat (esize t) * (out_pixels (geom_of p) * out_c p) ->
    asm_conv ops (k44 true t) t o 4 S p input filter out (fun out' =>
      exists ref, BConv2DReference_val p input filter (run_of ops t o) ref0 = Some ref /\ out' = vec (esize t) ref).
  Proof.
    intros Hops Ht Hc Hk Hd HS HT Hl Ho. destruct C.
    assert (Kp := k_pos p cc_wf0 cc_groups0 cc_ci0 cc_fh0 cc_fw0).
    assert (HU := round_up_facts (im2col_k p) 4 ltac:(lia) ltac:(lia)).
    apply (asm_conv_val pad p input filter cc_wf0 cc_in0 cc_fl0 cc_groups0 cc_prep0 (zero_padding_one p cc_pad0) cc_ci0 cc_fh0 cc_fw0 ops o S cc_oc0 cc_m0 cc_ls0 cc_rs0 cc_ne0
      (fun a => a) t 4 (k44 true t) _ ltac:(lia) Hc (asm44_ok ops t o true Hops Ht) Ht); try assumption.
    - unfold im2col_k in *. set (kk := f_h p * f_w p * in_d p) in *. clearbody kk. split; [Z.to_euclidean_division_equations; lia|]. intros _.
      destruct Hd as [Hd|[Hd1 Hd2]]; [left|right]; Z.to_euclidean_division_equations; lia.
    - reflexivity.
  Qed.
End C54.
Print Assumptions C54_conv_asm_8x4.
Print Assumptions C54_conv_asm_8x4_bitpacked.
Print Assumptions C54_conv_asm_4x4.
Print Assumptions C54_conv_asm_4x4_streaming.

(** ** C55: reads of the per-channel arrays. OneTimeSetup allocates out_c + 4
    multipliers and biases (bconv2d.cc 394-398), the thresholds tensor has out_c
    entries. The 4x4 kernel reads inside these arrays ... *)
Definition setup_lens (o : otparams) (n : Z) : Prop :=
  int32 (p_cmin o) /\ int32 (p_cmax o) /\ Forall pat (p_mul o) /\ Forall pat (p_bias o) /\ zlen (p_mul o) = n + 4 /\ zlen (p_bias o) = n + 4.
Theorem C55_4x4_reads_in_bounds ops t o L R ls rs G rows cols sr sc er ec f g tmp :
  nops_ok ops -> is_bits t = false -> p_cmin o <= p_cmax o -> 128 * G < 2 ^ 30 ->
  call_ok 4 t o L R ls rs G rows cols sr sc er ec -> setup_lens o rows -> 16 * Z.of_nat (esize t) <= zlen tmp ->
  exists n lg, asm_kernel ops (k44 false t) n t f g tmp L R 4 ls rs (4 * G) rows cols sr sc er ec o = Some lg.
Proof.
  intros Hops Ht Hc Hd K (A & B & C & D & E & F) Htm. assert (T : tr_ok o er) by (destruct K; constructor; try assumption; lia).
  destruct (C48_asm_4x4_equals_portable ops t o L R ls rs G rows cols sr sc er ec f g tmp Hops Ht Hc Hd K T Htm) as (_ & _ & n & lg & H & _).
  exists n, lg. apply H. lia.
Qed.
Print Assumptions C55_4x4_reads_in_bounds.
(** ... and the 8x4 kernel does unless out_c mod 8 is 1, 2 or 3 ... *)
Theorem C55_8x4_reads_in_bounds ops t o L R ls rs G rows cols sr sc er ec f g tmp :
  nops_ok ops -> is_bits t = false -> p_cmin o <= p_cmax o -> 128 * G < 2 ^ 30 ->
  call_ok 8 t o L R ls rs G rows cols sr sc er ec -> setup_lens o rows -> rows mod 8 = 0 \/ 4 <= rows mod 8 -> 32 * Z.of_nat (esize t) <= zlen tmp ->
  exists n lg, asm_kernel ops (k84 t) n t f g tmp L R 8 ls rs (4 * G) rows cols sr sc er ec o = Some lg.
Proof.
  intros Hops Ht Hc Hd K (A & B & C & D & E & F) Hr Htm.
  assert (T : tr_ok o er).
  { destruct K. assert (er <= rows + 4) by (Z.to_euclidean_division_equations; lia). constructor; try assumption; lia. }
  destruct (C51_asm_8x4_is_16_bit_portable ops t o L R ls rs G rows cols sr sc er ec f g tmp Hops Ht Hc Hd K T Htm) as (_ & _ & n & lg & H & _).
  exists n, lg. apply H. lia.
Qed.
Print Assumptions C55_8x4_reads_in_bounds.
Theorem C55_8x4_bitpacked_reads_in_bounds ops o L R ls rs G rows cols sr sc er ec f g tmp : 128 * G < 2 ^ 30 ->
  call_ok 8 DBits o L R ls rs G rows cols sr sc er ec -> Forall int32 (p_thr o) -> zlen (p_thr o) = rows -> rows mod 8 = 0 ->
  exists n lg, asm_kernel ops (k84 DBits) n DBits f g tmp L R 8 ls rs (4 * G) rows cols sr sc er ec o = Some lg.
Proof.
  intros Hd K Hi Hz Hr. assert (T : th_ok o er).
  { destruct K. constructor; [exact Hi|]. rewrite Hz. Z.to_euclidean_division_equations; lia. }
  destruct (asm84_bits ops o L R ls rs G rows cols sr sc er ec f g tmp Hd K T) as (n & H). apply wp_iff in H. destruct H as (lg & E & _). eauto.
Qed.
Print Assumptions C55_8x4_bitpacked_reads_in_bounds.
(** ... in which cases it reads past the end. [faults]: within [n] instructions one
    accesses memory outside every array. *)
Fixpoint faults (ops : nops) (E : env) (p : list instr) (n pc : nat) (s : st) : bool :=
  match n with
  | O => false
  | Datatypes.S n' =>
      match nth_error p pc with
      | None => false
      | Some (B l) => match find l p 0 with Some q => faults ops E p n' q s | None => false end
      | Some (BC c l) => if cond_holds c (sfl s) then match find l p 0 with Some q => faults ops E p n' q s | None => false end
                         else faults ops E p n' (Datatypes.S pc) s
      | Some i => match exec1 ops E i s with None => true | Some s' => faults ops E p n' (Datatypes.S pc) s' end
      end
  end.
Lemma faults_run ops E p n : forall pc s, faults ops E p n pc s = true -> forall fuel, run ops E p fuel pc s = None.
Proof.
  induction n as [|n IH]; intros pc s H fuel; [discriminate|]. destruct fuel as [|fuel]; [reflexivity|]. cbn [faults run] in *.
  destruct (nth_error p pc) as [i|]; [|discriminate].
  destruct i; try (destruct (exec1 ops E _ s) as [s1|]; [cbn [bind]; apply IH, H|reflexivity]).
  - destruct (find n0 p 0); [cbn [bind]; apply IH, H|reflexivity].
  - destruct (cond_holds c (sfl s)); [destruct (find n0 p 0); [cbn [bind]; apply IH, H|reflexivity]|apply IH, H].
Qed.
Definition ot_len (n : nat) (th : nat) : otparams := {| p_cmin := 0; p_cmax := 1000; p_mul := repeat 1 n; p_bias := repeat 0 n; p_thr := repeat 3 th |}.
Definition L8 : list Z := repeat 0 32.
Definition R8 : list Z := repeat 5 16.
Definition call8 (t : dtype) (rows : Z) (o : otparams) (fuel : nat) : option (list (Z * Z)) :=
  asm_kernel wops (k84 t) fuel t (fun _ => []) (fun _ => Int 0) (repeat 0 128) L8 R8 8 4 4 4 rows 1 0 0 8 4 o.
Lemma call8_faults t rows o n : faults wops (mkenv t L8 R8 8 4 4 4 rows 1 0 0 8 4 o) (k84 t) n 0 (start t (fun _ => []) (fun _ => Int 0) (repeat 0 128) 4 4 rows 1 0 0) = true ->
  forall fuel, call8 t rows o fuel = None.
Proof. intros H fuel. unfold call8, asm_kernel. rewrite (faults_run _ _ _ _ _ _ H). reflexivity. Qed.
Theorem C55_8x4_over_read_refuted :
  (** one output channel, arrays as OneTimeSetup makes them: no run of the kernel
      completes; with three more entries the same call completes. *)
  (setup_lens (ot_len 5 1) 1 /\ call_ok 8 DFloat (ot_len 5 1) L8 R8 4 4 1 1 1 0 0 8 4 /\
   (forall fuel, call8 DFloat 1 (ot_len 5 1) fuel = None) /\ (exists lg, call8 DFloat 1 (ot_len 8 1) 500 = Some lg)) /\
  (** the same for 2 and 3 channels, and for int8 *)
  (forall fuel, call8 DFloat 2 (ot_len 6 2) fuel = None) /\ (forall fuel, call8 DFloat 3 (ot_len 7 3) fuel = None) /\
  (forall fuel, call8 DInt8 3 (ot_len 7 3) fuel = None) /\
  (** bit-packed output: thresholds are not padded at all *)
  ((forall fuel, call8 DBits 7 (ot_len 11 7) fuel = None) /\ (exists lg, call8 DBits 7 (ot_len 11 8) 500 = Some lg)).
Proof.
  split; [split; [|split; [|split]]|split; [|split; [|split; [|split]]]].
  - unfold setup_lens, int32. cbn [ot_len p_cmin p_cmax p_mul p_bias]. split; [lia|]. split; [lia|].
    split; [repeat (constructor; [unfold pat; lia|]); constructor|]. split; [repeat (constructor; [unfold pat; lia|]); constructor|]. split; reflexivity.
  - constructor; try reflexivity; try lia; vm_compute; congruence.
  - apply (call8_faults _ _ _ 500). vm_compute. reflexivity.
  - eexists. vm_compute. reflexivity.
  - apply (call8_faults _ _ _ 500). vm_compute. reflexivity.
  - apply (call8_faults _ _ _ 500). vm_compute. reflexivity.
  - apply (call8_faults _ _ _ 500). vm_compute. reflexivity.
  - apply (call8_faults _ _ _ 500). vm_compute. reflexivity.
  - eexists. vm_compute. reflexivity.
Qed.
Print Assumptions C55_8x4_over_read_refuted.

(** ** Concrete cases. *)
Definition ex_sched8 : schedule :=
  {| sc_lpack := [(0, 8)]; sc_rpack := [(4, 8); (0, 4)];
     sc_blocks := [{| b_sr := 0; b_sc := 4; b_er := 8; b_ec := 8 |};
                   {| b_sr := 0; b_sc := 0; b_er := 8; b_ec := 4 |}];
     sc_fat := true; sc_lstride := 8; sc_rstride := 4;
     sc_lmem := repeat 77 64; sc_rmem := repeat 55 32 |}.
Example ex_sched8_ok : schedule_ok 4 8 4 5 3 6 ex_sched8.
Proof.
  constructor.
  - repeat (constructor; [vm_compute; intuition congruence|]); constructor.
  - intros c Hc. exists (0, 8). cbn. split; [tauto|lia].
  - repeat (constructor; [vm_compute; intuition congruence|]); constructor.
  - intros c Hc. destruct (Z.ltb_spec c 4).
    + exists (0, 4). cbn. split; [tauto|lia].
    + exists (4, 8). cbn. split; [tauto|lia].
  - repeat (constructor; [constructor; vm_compute; intuition congruence|]); constructor.
  - intros i j Hi Hj. destruct (Z.ltb_spec j 4);
      [exists {| b_sr := 0; b_sc := 0; b_er := 8; b_ec := 4 |}|exists {| b_sr := 0; b_sc := 4; b_er := 8; b_ec := 8 |}];
      cbn; (split; [tauto|lia]).
  - vm_compute; congruence.
  - vm_compute; congruence.
  - reflexivity.
  - reflexivity.
Qed.
Example C51_case : nops_ok wops /\ p_cmin ot0 <= p_cmax ot0 /\ call_ok 8 DFloat ot0 L12 R12 12 12 3 8 8 0 0 8 4 /\ tr_ok ot0 8 /\
  32 * Z.of_nat (esize DFloat) <= zlen (repeat 0 128) /\
  (forall i j a, 0 <= i < Z.min 8 8 -> 0 <= j < Z.min 4 8 -> accumulate (pmat 8 L12 12 3) (pmat 4 R12 12 3) i j = Some a -> 0 <= a < 2 ^ 16) /\
  accumulate (pmat 8 L12 12 3) (pmat 4 R12 12 3) 7 3 = Some 12.
Proof.
  split; [exact wops_ok|]. split; [cbn; lia|]. split; [constructor; try reflexivity; try lia; vm_compute; congruence|]. split; [apply ot0_ok; lia|].
  split; [vm_compute; congruence|]. split; [|vm_compute; reflexivity].
  intros i j a Hi Hj. assert (i = 0 \/ i = 1 \/ i = 2 \/ i = 3 \/ i = 4 \/ i = 5 \/ i = 6 \/ i = 7) as Ci by lia. assert (j = 0 \/ j = 1 \/ j = 2 \/ j = 3) as Cj by lia.
  destruct Ci as [-> | [-> | [-> | [-> | [-> | [-> | [-> | ->]]]]]]]; destruct Cj as [-> | [-> | [-> | ->]]];
    (intros H; assert (E : Some a = Some 12) by (rewrite <- H; vm_compute; reflexivity); injection E as ->; lia).
Qed.
Definition ot8 : otparams := {| p_cmin := 0; p_cmax := 100000; p_mul := repeat 1 9; p_bias := repeat 0 9; p_thr := repeat 7 8 |}.
Example C54_case : conv_call PadSame ex19_p ex19_in ex19_fl ex_sched8 /\ bgemm_uses_int16 true ex19_p = true /\ conv_schedule_ok 4 8 4 ex19_p ex19_in ex_sched8 /\
  tr_ok ot8 (round_up (out_c ex19_p) 8) /\ th_ok ot8 (round_up (out_c ex19_p) 8) /\
  zlen (repeat 9 120) = Z.of_nat (esize DFloat) * (out_pixels (geom_of ex19_p) * out_c ex19_p) /\
  zlen (repeat 9 24) = 4 * (out_pixels (geom_of ex19_p) * words (out_c ex19_p)).
Proof.
  destruct ex19_ok as (A & B & C & D & E & _).
  split; [constructor; try assumption; try (vm_compute; congruence)|].
  - right. reflexivity.
  - repeat (constructor; [split; reflexivity|]); constructor.
  - split; [reflexivity|]. split; [exact ex_sched8_ok|]. split.
    { constructor; try (unfold int32; cbn [ot8 p_cmin p_cmax]; lia); try (repeat (constructor; [unfold pat; lia|]); constructor); vm_compute; congruence. }
    split; [constructor; [repeat (constructor; [unfold int32; lia|]); constructor|vm_compute; congruence]|]. split; vm_compute; reflexivity.
Qed.
Example C54_case44 : conv_call PadSame ex19_p ex19_in ex19_fl ex_sched /\ f_h ex19_p * f_w ex19_p * in_d ex19_p < 2 ^ 22 /\
  conv_schedule_ok 4 4 4 ex19_p ex19_in ex_sched /\ tr_ok ot8 (round_up (out_c ex19_p) 4).
Proof.
  destruct ex19_ok as (A & B & C & D & E & F).
  split; [constructor; try assumption; try (vm_compute; congruence)|].
  - right. reflexivity.
  - repeat (constructor; [split; reflexivity|]); constructor.
  - split; [reflexivity|]. split; [exact F|].
    constructor; try (unfold int32; cbn [ot8 p_cmin p_cmax]; lia); try (repeat (constructor; [unfold pat; lia|]); constructor); vm_compute; congruence.
Qed.
