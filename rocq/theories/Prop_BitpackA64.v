(** * Properties C03, C04: the AArch64 NEON packing routines against the portable
    ones. [g] is the unspecified content of the 32 vector registers on entry. *)
From Verif Require Import Base Spec Bits Bitpack Float32 Quantize BitpackA64 Check.
Open Scope Z_scope.

Definition vector_regs (g : list (list Z)) : Prop := length g = 32%nat /\ forall r, In r g -> length r = 16%nat.
Lemma vector_regs_shape g : vector_regs g -> shapeb g = true.
Proof.
  intros [H1 H2]. unfold shapeb. rewrite H1. cbn [Nat.eqb andb]. apply forallb_forall. intros r Hr. apply Nat.eqb_eq. auto.
Qed.

(** ** C03: int8 *)
(** Packing an array (bitpack_array): the AArch64 build and the portable build
    both succeed (every access in bounds) and give the same output array - the
    packed words and everything around them. *)
Theorem C03_int8_array_equals_portable g inp in_off n out out_off zp :
  vector_regs g -> 0 <= n -> 0 <= in_off -> in_off + n <= zlen inp ->
  0 <= out_off -> out_off + words n <= zlen out ->
  (forall i v, rd inp i = Some v -> -128 <= v <= 127) -> -128 <= zp <= 127 ->
  exists o, bitpack_array_a64_int8 g inp in_off n out out_off zp = Some o /\
            bitpack_array int8_elem inp in_off n out out_off zp = Some o.
Proof. intros H. exact (array_a64_int8_eq g inp in_off n out out_off zp (vector_regs_shape g H)). Qed.
Print Assumptions C03_int8_array_equals_portable.

(** The NEON routine itself, [N] blocks of 128 elements with exactly those
    readable and exactly 4 [N] words writable. *)
Theorem C03_int8_blocks g inp N out zp :
  vector_regs g -> 0 <= N -> zlen inp = 128 * N -> zlen out = 4 * N ->
  (forall i v, rd inp i = Some v -> -128 <= v <= 127) -> -128 <= zp <= 127 ->
  exists o, bitpack_neon_int8 g inp 0 N out 0 zp = Some o /\ zlen o = 4 * N /\
    forall q, 0 <= q < 4 * N -> exists w, rd o q = Some w /\ word w /\
      forall b v, 0 <= b < 32 -> rd inp (32 * q + b) = Some v -> Z.testbit w b = (v <? zp).
Proof.
  intros Hg HN Hi Ho Hv Hz. apply wp_iff. apply bitpack_neon_int8_wp; try assumption; try lia; [apply vector_regs_shape; exact Hg|].
  intros o (L & _ & W). split; [congruence|]. exact W.
Qed.
Print Assumptions C03_int8_blocks.

(** So LceQuantize of int8 data gives the same words in both builds, for every
    shape and every zero point. *)
Theorem C03_int8_quantize_equals_portable g inp rows cols out zp :
  vector_regs g -> 0 <= rows -> 0 <= cols -> zlen inp = rows * cols -> zlen out = rows * words cols ->
  (forall i v, rd inp i = Some v -> -128 <= v <= 127) ->
  bitpack_matrix_a64_int8 g inp rows cols out zp = quantize_int8 zp rows cols inp out.
Proof. intros H. exact (matrix_a64_int8_eq g inp rows cols out zp (vector_regs_shape g H)). Qed.
Print Assumptions C03_int8_quantize_equals_portable.

Definition ex_regs : list (list Z) := map (fun r => map (fun i => Z.of_nat (7 * r + 3 * i)) (seq 0 16)) (seq 0 32).
Lemma ex_regs_ok : vector_regs ex_regs.
Proof.
  split; [reflexivity|]. intros r Hr. unfold ex_regs in Hr. apply in_map_iff in Hr. destruct Hr as (k & <- & _).
  rewrite map_length. apply seq_length.
Qed.
(** Three blocks and a tail of 16 elements, zero point -5, at offsets 1 and 2. *)
Definition ex_in8 : list Z := map (fun i => (i * 37 + i * i) mod 256 - 128) (zrange 401).
Example C03_case :
  vector_regs ex_regs /\ (forall i v, rd ex_in8 i = Some v -> -128 <= v <= 127) /\ zlen ex_in8 = 1 + 400 /\ words 400 = 13 /\
  option_map (fun o => firstn 3 o) (bitpack_array_a64_int8 ex_regs ex_in8 1 400 (repeat 7 16) 2 (-5)) =
  option_map (fun o => firstn 3 o) (bitpack_array int8_elem ex_in8 1 400 (repeat 7 16) 2 (-5)) /\
  bitpack_array_a64_int8 ex_regs ex_in8 1 400 (repeat 7 16) 2 (-5) <> None.
Proof.
  split; [exact ex_regs_ok|]. split; [apply all_in_ok; reflexivity|]. split; [reflexivity|]. split; [reflexivity|].
  split; [vm_compute; reflexivity|vm_compute; discriminate].
Qed.

(** ** C04: float *)
(** The claim for every float32 input is false: negative zero is not below zero
    for the portable routine, but NEON records its sign bit; likewise for a NaN
    whose sign bit is set. *)
Theorem C04_float_equals_portable_refuted :
  exists g inp, vector_regs g /\ zlen inp = 128 /\ (forall i v, rd inp i = Some v -> word v) /\
    bitpack_array_a64_float g inp 0 128 [0; 0; 0; 0] 0 = Some [1; 0; 0; 0] /\
    bitpack_array float_elem inp 0 128 [0; 0; 0; 0] 0 0 = Some [0; 0; 0; 0].
Proof.
  exists ex_regs, (2 ^ 31 :: repeat 0 127). split; [exact ex_regs_ok|]. split; [reflexivity|]. split.
  - intros i v H. assert (0 <= v <= 2 ^ 32 - 1); [|unfold word; lia].
    eapply (all_in_ok 0 (2 ^ 32 - 1)); [|exact H]. vm_compute. reflexivity.
  - split; vm_compute; reflexivity.
Qed.
Print Assumptions C04_float_equals_portable_refuted.

Theorem C04_float_nan_refuted :
  exists g inp, vector_regs g /\ zlen inp = 128 /\ (forall i v, rd inp i = Some v -> word v) /\
    decode32 (nth 5 inp 0) = SpecFloat.S754_nan /\
    bitpack_array_a64_float g inp 0 128 [0; 0; 0; 0] 0 = Some [2 ^ 5; 0; 0; 0] /\
    bitpack_array float_elem inp 0 128 [0; 0; 0; 0] 0 0 = Some [0; 0; 0; 0].
Proof.
  exists ex_regs, (repeat 0 5 ++ [511 * 2 ^ 23 + 1] ++ repeat 0 122). split; [exact ex_regs_ok|]. split; [reflexivity|]. split.
  - intros i v H. assert (0 <= v <= 2 ^ 32 - 1); [|unfold word; lia].
    eapply (all_in_ok 0 (2 ^ 32 - 1)); [|exact H]. vm_compute. reflexivity.
  - split; [vm_compute; reflexivity|]. split; vm_compute; reflexivity.
Qed.
Print Assumptions C04_float_nan_refuted.

(** It holds whenever no element of the full 128-element blocks is a negative
    zero or a NaN with the sign bit set ([negative32]: the value is strictly
    negative). *)
Theorem C04_float_array_equals_portable g inp in_off n out out_off :
  vector_regs g -> 0 <= n -> 0 <= in_off -> in_off + n <= zlen inp ->
  0 <= out_off -> out_off + words n <= zlen out ->
  (forall i v, rd inp i = Some v -> word v) ->
  (forall i v, in_off <= i < in_off + 128 * (n / 128) -> rd inp i = Some v -> Z.testbit v 31 = negative32 v) ->
  exists o, bitpack_array_a64_float g inp in_off n out out_off = Some o /\
            bitpack_array float_elem inp in_off n out out_off 0 = Some o.
Proof. intros H. exact (array_a64_float_eq g inp in_off n out out_off (vector_regs_shape g H)). Qed.
Print Assumptions C04_float_array_equals_portable.

Theorem C04_float_quantize_equals_portable g inp rows cols out :
  vector_regs g -> 0 <= rows -> 0 <= cols -> zlen inp = rows * cols -> zlen out = rows * words cols ->
  (forall i v, rd inp i = Some v -> word v /\ Z.testbit v 31 = negative32 v) ->
  bitpack_matrix_a64_float g inp rows cols out 0 = quantize_float rows cols inp out.
Proof. intros H. exact (matrix_a64_float_eq g inp rows cols out (vector_regs_shape g H)). Qed.
Print Assumptions C04_float_quantize_equals_portable.

(** The excluded values are exactly -0 and the NaNs with the sign bit set. *)
Theorem C04_excluded_values v : word v ->
  (Z.testbit v 31 <> negative32 v <-> v = 2 ^ 31 \/ (Z.testbit v 31 = true /\ decode32 v = SpecFloat.S754_nan)).
Proof.
  intros Hw. unfold word in Hw. unfold negative32.
  destruct (Z.testbit v 31) eqn:Es.
  - assert (Hge : 2 ^ 31 <= v).
    { destruct (Z.le_gt_cases (2 ^ 31) v) as [|H]; [assumption|]. exfalso.
      destruct (Z.eq_dec v 0) as [->|]; [rewrite Z.bits_0 in Es; discriminate|].
      rewrite Z.bits_above_log2 in Es; [discriminate|lia|]. apply Z.log2_lt_pow2; lia. }
    set (m := v mod 2 ^ 31). assert (Em : v = 2 ^ 31 + m) by (unfold m; lia). assert (Hm : 0 <= m < 2 ^ 31) by (unfold m; lia).
    unfold decode32. rewrite Es. assert (E1 : v mod 2 ^ 23 = m mod 2 ^ 23) by lia. assert (E2 : (v / 2 ^ 23) mod 2 ^ 8 = m / 2 ^ 23) by lia.
    rewrite E1, E2. clearbody m. clear E1 E2. cbn [andb].
    destruct (Z.eqb_spec m 0) as [E0|E0]; cbn [negb andb].
    + split; [intros _; left; lia|discriminate].
    + destruct (Z.leb_spec m (255 * 2 ^ 23)) as [Hl|Hl].
      * split; [congruence|]. intros [H|[_ H]]; [lia|]. exfalso. destruct (Z.eqb_spec (m / 2 ^ 23) 255) as [Ea|Ea].
        -- replace (m mod 2 ^ 23) with 0 in H by lia. discriminate.
        -- destruct (m / 2 ^ 23 =? 0); [destruct (m mod 2 ^ 23); discriminate|].
           destruct (m mod 2 ^ 23 + 2 ^ 23) eqn:Eb; [lia|discriminate|lia].
      * split; [|discriminate]. intros _. right. split; [reflexivity|].
        replace (m / 2 ^ 23 =? 255) with true by lia. replace (m mod 2 ^ 23 =? 0) with false by lia. reflexivity.
  - cbn [andb]. split; [congruence|]. intros [H|[H _]]; [|discriminate]. rewrite H in Es. discriminate.
Qed.
Print Assumptions C04_excluded_values.

(** In every case: the whole run stays in bounds, the words of the full blocks
    record the sign bits, those of the tail the comparison with zero, and nothing
    else is written. *)
Theorem C04_float_records_sign_bits g inp in_off n out out_off :
  vector_regs g -> 0 <= n -> 0 <= in_off -> in_off + n <= zlen inp ->
  0 <= out_off -> out_off + words n <= zlen out -> (forall i v, rd inp i = Some v -> word v) ->
  exists o, bitpack_array_a64_float g inp in_off n out out_off = Some o /\ zlen o = zlen out /\
    (forall j, ~ out_off <= j < out_off + words n -> rd o j = rd out j) /\
    forall k b, 0 <= k < words n -> 0 <= b < 32 -> exists w, rd o (out_off + k) = Some w /\ word w /\
      (n <= 32 * k + b -> Z.testbit w b = false) /\
      (forall v, 32 * k + b < n -> rd inp (in_off + 32 * k + b) = Some v ->
         Z.testbit w b = if 32 * k + b <? 128 * (n / 128) then Z.testbit v 31 else negative32 v).
Proof.
  intros Hg Hn H1 H2 H3 H4 Hw. destruct (array_a64_float_ok g inp in_off n out out_off (vector_regs_shape g Hg) Hn H1 H2 H3 H4) as (o & Ho & L & U & W).
  exists o. split; [exact Ho|]. split; [exact L|]. split; [exact U|]. intros k b Hk Hb.
  destruct (W k Hk) as (w & R1 & R2 & R3). exists w. split; [exact R1|]. split; [exact R2|]. destruct (R3 b Hb) as [R4 R5].
  split; [exact R4|]. intros v Hlt Hv. rewrite (R5 v Hlt Hv). destruct (32 * k + b <? 128 * (n / 128)); [reflexivity|].
  apply flt_zero. eapply Hw; eauto.
Qed.
Print Assumptions C04_float_records_sign_bits.

(** 300 floats alternating between -1, 0, +inf and the smallest negative
    subnormal: two blocks, one whole word of the tail and a partial one. *)
Definition ex_f32 : list Z := map (fun i => nth (Z.to_nat (i mod 5)) [f32_minus_one; 0; 255 * 2 ^ 23; 2 ^ 31 + 1; f32_minus_one] 0) (zrange 300).
Example C04_case :
  forallb (fun v => (0 <=? v) && (v <? 2 ^ 32) && Bool.eqb (Z.testbit v 31) (negative32 v)) ex_f32 = true /\ zlen ex_f32 = 300 /\ words 300 = 10 /\
  (let* o := bitpack_array_a64_float ex_regs ex_f32 0 300 (repeat 7 10) 0 in Some (nth 4 o 0, nth 9 o 0)) =
  (let* o := bitpack_array float_elem ex_f32 0 300 (repeat 7 10) 0 0 in Some (nth 4 o 0, nth 9 o 0)) /\
  bitpack_array_a64_float ex_regs ex_f32 0 300 (repeat 7 10) 0 <> None.
Proof.
  split; [vm_compute; reflexivity|]. split; [reflexivity|]. split; [reflexivity|]. split; [vm_compute; reflexivity|vm_compute; discriminate].
Qed.
