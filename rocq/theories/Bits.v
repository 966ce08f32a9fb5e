(** * Bits: 32-bit words, bit setting, popcount. *)
From Verif Require Import Base Spec.

(** core/types.h 41-43 xor_popcount: [std::bitset<32>(a ^ b).count()]. *)
Definition popcount32 (w : Z) : Z := sum_ 32 (fun i => Z.b2z (Z.testbit w i)).
Definition xor_popcount (a b : Z) : Z := popcount32 (Z.lxor a b).

(** [w | (1 << i)] when [c], used wherever the code sets one bit. *)
Definition setbit_if (c : bool) (w i : Z) : Z :=
  if c then Z.lor w (Z.shiftl 1 i) else w.

Lemma testbit_setbit_if c w i j : 0 <= i -> 0 <= j ->
  Z.testbit (setbit_if c w i) j = Z.testbit w j || ((i =? j) && c).
Proof.
  intros Hi Hj. unfold setbit_if. destruct c; [|rewrite andb_false_r, orb_false_r; reflexivity].
  rewrite Z.lor_spec, andb_true_r. f_equal.
  rewrite Z.shiftl_1_l. destruct (Z.eqb_spec i j) as [->|H].
  - apply Z.pow2_bits_true; lia.
  - apply Z.pow2_bits_false; lia.
Qed.

Lemma testbit_inj32 a b : word a -> word b ->
  (forall i, 0 <= i < 32 -> Z.testbit a i = Z.testbit b i) -> a = b.
Proof.
  unfold word. intros Ha Hb H. apply Z.bits_inj'. intros n Hn.
  destruct (Z.lt_ge_cases n 32); [apply H; lia|].
  assert (G : forall x, 0 <= x < 2 ^ 32 -> Z.testbit x n = false).
  { intros x Hx. destruct (Z.eq_dec x 0) as [->|Hx0]; [apply Z.bits_0|].
    apply Z.bits_above_log2; [lia|].
    enough (Z.log2 x < 32) by lia. apply Z.log2_lt_pow2; lia. }
  rewrite !G by assumption. reflexivity.
Qed.

Lemma testbit_word_high w i : word w -> 32 <= i -> Z.testbit w i = false.
Proof.
  unfold word. intros Hx Hi. destruct (Z.eq_dec w 0) as [->|Hx0]; [apply Z.bits_0|].
  apply Z.bits_above_log2; [lia|]. enough (Z.log2 w < 32) by lia. apply Z.log2_lt_pow2; lia.
Qed.

Lemma word_of_bits w : 0 <= w -> (forall i, 32 <= i -> Z.testbit w i = false) -> word w.
Proof.
  intros H0 H. unfold word. split; [exact H0|].
  destruct (Z.eq_dec w 0) as [->|Hn]; [lia|].
  apply Z.log2_lt_pow2; [lia|]. destruct (Z.lt_ge_cases (Z.log2 w) 32); [assumption|].
  specialize (H (Z.log2 w) ltac:(lia)). rewrite Z.bit_log2 in H by lia. discriminate.
Qed.

Lemma setbit_if_nonneg c w i : 0 <= w -> 0 <= i -> 0 <= setbit_if c w i.
Proof.
  intros. unfold setbit_if. destruct c; [|assumption]. apply Z.lor_nonneg. split; [assumption|].
  apply Z.shiftl_nonneg. lia.
Qed.

Lemma setbit_if_word c w i : word w -> 0 <= i < 32 -> word (setbit_if c w i).
Proof.
  intros Hw Hi. apply word_of_bits.
  - apply setbit_if_nonneg; [apply Hw|lia].
  - intros j Hj. rewrite testbit_setbit_if by lia. rewrite (testbit_word_high w) by (auto; lia).
    cbn. destruct (Z.eqb_spec i j); [lia|reflexivity].
Qed.

Lemma word_0 : word 0. Proof. unfold word; lia. Qed.
Lemma word_ones : word (2 ^ 32 - 1). Proof. unfold word; lia. Qed.

Lemma word_lxor a b : word a -> word b -> word (Z.lxor a b).
Proof.
  intros Ha Hb. apply word_of_bits.
  - apply Z.lxor_nonneg. unfold word in *; lia.
  - intros i Hi. rewrite Z.lxor_spec, !testbit_word_high by (auto; lia). reflexivity.
Qed.
Lemma word_land a b : word a -> word b -> word (Z.land a b).
Proof.
  intros Ha Hb. apply word_of_bits.
  - apply Z.land_nonneg. unfold word in *; lia.
  - intros i Hi. rewrite Z.land_spec, !testbit_word_high by (auto; lia). reflexivity.
Qed.
Lemma word_lor a b : word a -> word b -> word (Z.lor a b).
Proof.
  intros Ha Hb. apply word_of_bits.
  - apply Z.lor_nonneg. unfold word in *; lia.
  - intros i Hi. rewrite Z.lor_spec, !testbit_word_high by (auto; lia). reflexivity.
Qed.

(** The +-1 product of two bits is 1 - 2*xor. *)
Lemma pm_mul a b : pm a * pm b = 1 - 2 * Z.b2z (xorb a b).
Proof. destruct a, b; reflexivity. Qed.

Lemma xor_popcount_spec a b :
  xor_popcount a b = sum_ 32 (fun i => Z.b2z (xorb (Z.testbit a i) (Z.testbit b i))).
Proof. unfold xor_popcount, popcount32. apply sum_ext. intros. rewrite Z.lxor_spec. reflexivity. Qed.

Lemma popcount32_bounds w : 0 <= popcount32 w <= 32.
Proof.
  unfold popcount32. split.
  - apply sum_nonneg. intros. destruct (Z.testbit w i); cbn; lia.
  - transitivity (sum_ 32 (fun _ => 1)); [|rewrite sum_const by lia; lia].
    apply sum_mono. intros. destruct (Z.testbit w i); cbn; lia.
Qed.
Lemma xor_popcount_bounds a b : 0 <= xor_popcount a b <= 32.
Proof. apply popcount32_bounds. Qed.

Lemma words_nonneg c : 0 <= c -> 0 <= words c.
Proof. unfold words. lia. Qed.
Lemma words_mul32 c : 0 <= c -> c <= 32 * words c < c + 32.
Proof. unfold words. lia. Qed.
