(** * Properties C48-C51: the AArch64 assembly BGEMM kernels. *)
From Verif Require Import Base Spec Bits Log OutputTransform Bgemm BgemmProofs A64 A64Bgemm A64Lemmas A64K44 A64Store A64Trans A64Seg A64Block44
  A64Loop44 A64Kernel44 A64Stream44 A64Rel Check Prop_Bgemm.
Open Scope Z_scope.

(** The depths (in groups of four words) for which the streaming 4x4 kernel is right;
    without MAX_STREAMING every depth is. *)
Definition depth44 (ms : bool) (G : Z) : Prop := 128 * G < 2 ^ 30 /\ (ms = true -> G = 1 \/ (4 <= G /\ G mod 2 = 0)).
Lemma asm44_ok ops t o ms : nops_ok ops -> is_bits t = false -> asm_ok (fun a => a) ops t o 4 (k44 ms t) (depth44 ms).
Proof.
  intros Hops Ht L R ls rs G rows cols sr sc er ec f g tmp [Hd1 Hd2] K T Htm.
  apply (asm44 ops t o L R ls rs G rows cols sr sc er ec ms Hops Ht Hd1 K T); [|exact Htm].
  intros Q. destruct ms.
  - apply acc_stream; try reflexivity; [exact (k_g _ _ _ _ _ _ _ _ _ _ _ _ _ _ K)|exact Hd1|exact Ht|auto].
  - apply acc_plain; try reflexivity; [exact (k_g _ _ _ _ _ _ _ _ _ _ _ _ _ _ K)|exact Hd1|exact Ht].
Qed.

(** ** C48: a call of BinaryKernelNeon4x4 stores exactly the bytes of the elements
    stored by the portable kernel on the same packed operands, and terminates,
    whatever the registers and the scratch buffer held. *)
Theorem C48_asm_4x4_equals_portable ops t o L R ls rs G rows cols sr sc er ec f g tmp :
  nops_ok ops -> is_bits t = false -> p_cmin o <= p_cmax o -> 128 * G < 2 ^ 30 ->
  call_ok 4 t o L R ls rs G rows cols sr sc er ec -> tr_ok o er -> 16 * Z.of_nat (esize t) <= zlen tmp ->
  exists lp, kernel_val (pmat 4 L ls G) (pmat 4 R rs G) (run_of ops t o) rows cols sr sc er ec [] = Some lp /\
  exists n lg, (forall n', (n <= n')%nat -> asm_kernel ops (k44 false t) n' t f g tmp L R 4 ls rs (4 * G) rows cols sr sc er ec o = Some lg) /\
    bytes_of t lp lg.
Proof.
  intros Hops Ht Hc Hd K T Htm.
  apply (asm_portable (fun a => a) ops t o 4 (k44 false t) ltac:(lia) Hc (depth44 false) (asm44_ok ops t o false Hops Ht)); try assumption.
  split; [exact Hd|discriminate].
Qed.
Print Assumptions C48_asm_4x4_equals_portable.


(** ** C49: BGEMM with the 4x4 assembly kernel (32-bit accumulators). Every kernel
    call terminates, and for every legal schedule and every interleaving of the
    byte stores the destination ends up holding the output transform of the
    binary product of every row and column. *)
Theorem C49_bgemm_asm_4x4 ops t o S n k m lhs rhs dst (v : Z -> Z -> Z) :
  nops_ok ops -> is_bits t = false -> p_cmin o <= p_cmax o -> tr_ok o (round_up n 4) ->
  1 <= k < 2 ^ 24 -> 0 <= n < 2 ^ 30 - 8 -> 0 <= m < 2 ^ 31 - 8 -> 4 * sc_lstride S < 2 ^ 32 -> 4 * sc_rstride S < 2 ^ 32 ->
  zlen lhs = n * k -> zlen rhs = m * k -> schedule_ok 4 4 4 n k m S -> Forall nonempty (sc_blocks S) ->
  zlen dst = Z.of_nat (esize t) * (m * n) ->
  (forall i j, 0 <= i < n -> 0 <= j < m ->
     run_of ops t o (sum_ k (fun q => xor_popcount (wat lhs (i * k + q)) (wat rhs (j * k + q)))) i = Some (v i j)) ->
  BGemm_asm ops (k44 false t) t o 4 S n k m lhs rhs dst (fun dst' => zlen dst' = zlen dst /\
    forall i j q, 0 <= i < n -> 0 <= j < m -> 0 <= q < Z.of_nat (esize t) ->
      rd dst' (Z.of_nat (esize t) * (j * n + i) + q) = rd (le_split (esize t) (v i j)) q).
Proof.
  intros Hops Ht Hc T Hk Hn Hm Hl Hr Zl Zr HS Hne Zd Hv.
  assert (HU := round_up_facts k 4 ltac:(lia) ltac:(lia)).
  apply (bgemm_asm_ok (fun a => a) ops t o 4 (k44 false t) (depth44 false) ltac:(lia) Hc (asm44_ok ops t o false Hops Ht)); try assumption; try lia.
  - split; [|discriminate]. Z.to_euclidean_division_equations; lia.
  - unfold esize. destruct (is_float t); lia.
Qed.
Print Assumptions C49_bgemm_asm_4x4.

(** ** C50: with RUY_OPT(MAX_STREAMING) (ruy's default) the same holds for depth 4
    and for multiples of 8 from 16 on... *)
Theorem C50_streaming_equals_portable ops t o L R ls rs G rows cols sr sc er ec f g tmp :
  nops_ok ops -> is_bits t = false -> p_cmin o <= p_cmax o -> 128 * G < 2 ^ 30 ->
  G = 1 \/ (4 <= G /\ G mod 2 = 0) ->
  call_ok 4 t o L R ls rs G rows cols sr sc er ec -> tr_ok o er -> 16 * Z.of_nat (esize t) <= zlen tmp ->
  exists lp, kernel_val (pmat 4 L ls G) (pmat 4 R rs G) (run_of ops t o) rows cols sr sc er ec [] = Some lp /\
  exists n lg, (forall n', (n <= n')%nat -> asm_kernel ops (k44 true t) n' t f g tmp L R 4 ls rs (4 * G) rows cols sr sc er ec o = Some lg) /\
    bytes_of t lp lg.
Proof.
  intros Hops Ht Hc Hd HG K T Htm.
  apply (asm_portable (fun a => a) ops t o 4 (k44 true t) ltac:(lia) Hc (depth44 true) (asm44_ok ops t o true Hops Ht)); try assumption.
  split; [exact Hd|auto].
Qed.
Print Assumptions C50_streaming_equals_portable.

(** ... but not for the other depths: the loop bound is rounded to 4 words while
    each iteration consumes 8. At depth 12 it accumulates 20 words per element:
    [call_ok] holds, all reads are in bounds, and 40 is stored instead of 24. *)
Definition wops : nops := {| n_ofZ := fun x => x mod 2 ^ 32; n_mul := fun x y => (x * y) mod 2 ^ 32; n_add := fun x y => (x + y) mod 2 ^ 32;
  n_cvtns := fun x => sgn 32 (x mod 2 ^ 32); n_cvt8 := fun x => sgn 32 ((256 * x) mod 2 ^ 32) |}.
Definition ot0 : otparams := {| p_cmin := 0; p_cmax := 100000; p_mul := [1; 1; 1; 1; 1; 1; 1; 1]; p_bias := [0; 0; 0; 0; 0; 0; 0; 0]; p_thr := [] |}.
Definition L12 : list Z := repeat 0 96.
Definition R12 : list Z := repeat 1 96.
Lemma sgn32_range z : - 2 ^ 31 <= sgn 32 (z mod 2 ^ 32) < 2 ^ 31.
Proof.
  assert (B := Z.mod_pos_bound z (2 ^ 32) ltac:(lia)). unfold sgn. change (2 ^ (32 - 1)) with (2 ^ 31).
  destruct (Z.ltb_spec (z mod 2 ^ 32) (2 ^ 31)); lia.
Qed.
Lemma wops_ok : nops_ok wops.
Proof.
  constructor; cbn [wops n_ofZ n_mul n_add n_cvtns n_cvt8]; try (intros; apply Z.mod_pos_bound; lia); intros x; apply sgn32_range.
Qed.
Lemma ot0_ok n : n <= 8 -> tr_ok ot0 n.
Proof.
  intros H. constructor; try (unfold int32; cbn; lia); try (repeat (constructor; [unfold pat; lia|]); constructor); exact H.
Qed.
Lemma call12_ok : call_ok 4 DFloat ot0 L12 R12 12 12 3 8 8 0 0 4 4.
Proof. constructor; try reflexivity; try lia; vm_compute; congruence. Qed.
Theorem C50_streaming_refuted :
  nops_ok wops /\ p_cmin ot0 <= p_cmax ot0 /\ call_ok 4 DFloat ot0 L12 R12 12 12 3 8 8 0 0 4 4 /\ tr_ok ot0 4 /\
  (exists lp, kernel_val (pmat 4 L12 12 3) (pmat 4 R12 12 3) (run_of wops DFloat ot0) 8 8 0 0 4 4 [] = Some lp /\ In (0, 24) lp) /\
  exists lg, asm_kernel wops (k44 true DFloat) 600 DFloat (fun _ => []) (fun _ => Int 0) (repeat 0 64) L12 R12 4 12 12 (4 * 3) 8 8 0 0 4 4 ot0 = Some lg /\
    In (0, 40) lg /\ ~ In (0, 24) lg.
Proof.
  split; [exact wops_ok|]. split; [cbn; lia|]. split; [exact call12_ok|]. split; [apply ot0_ok; lia|]. split.
  - eexists. split; [vm_compute; reflexivity|]. cbn [In]. tauto.
  - eexists. split; [vm_compute; reflexivity|]. split; [cbn [In]; tauto|]. cbn [In]. intuition congruence.
Qed.
Print Assumptions C50_streaming_refuted.

(** Non-vacuity of C48 and C49: the call above; and a 5 x 3 by 3 x 6 product
    under a two-block schedule. *)
Example C48_case : nops_ok wops /\ is_bits DFloat = false /\ p_cmin ot0 <= p_cmax ot0 /\ 128 * 3 < 2 ^ 30 /\
  call_ok 4 DFloat ot0 L12 R12 12 12 3 8 8 0 0 4 4 /\ tr_ok ot0 4 /\ 16 * Z.of_nat (esize DFloat) <= zlen (repeat 0 64).
Proof.
  split; [exact wops_ok|]. split; [reflexivity|]. split; [cbn; lia|]. split; [lia|]. split; [exact call12_ok|]. split; [apply ot0_ok; lia|].
  vm_compute; congruence.
Qed.
Example C49_case : nops_ok wops /\ tr_ok ot0 (round_up 5 4) /\ schedule_ok 4 4 4 5 3 6 ex_sched /\ Forall nonempty (sc_blocks ex_sched) /\
  zlen (repeat 0 120) = Z.of_nat (esize DFloat) * (6 * 5).
Proof.
  split; [exact wops_ok|]. split; [apply ot0_ok; vm_compute; congruence|]. split; [exact ex_sched_ok|].
  split; [repeat (constructor; [split; reflexivity|]); constructor|reflexivity].
Qed.
