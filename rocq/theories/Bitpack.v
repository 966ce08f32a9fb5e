(** * Bitpack: model of core/bitpacking/bitpack.h (portable code paths). *)
From Verif Require Import Base Spec Bits.

(** The element types the templates are instantiated with. [et_lo]/[et_hi] are
    [std::numeric_limits<TIn>::lowest()/max()] when the int32 zero point can
    reach them ([None] for float: no int32 compares below FLT_LOWEST or above
    FLT_MAX). [et_ltb] is C++ [<] on the type, [et_cast] is
    [static_cast<TIn>(zero_point)], [et_zero] is [TIn(0)]. *)
Record elemtype := {
  et : Type;
  et_ltb : et -> et -> bool;
  et_cast : Z -> et;
  et_zero : et;
  et_lo : option Z;
  et_hi : option Z
}.

(** Integer element types: int8 (LceQuantize of int8), uint8 (bool input). *)
Definition int_elem (lo hi : Z) : elemtype :=
  {| et := Z; et_ltb := Z.ltb; et_cast := fun z => z; et_zero := 0;
     et_lo := Some lo; et_hi := Some hi |}.
Definition int8_elem := int_elem (-128) 127.
Definition uint8_elem := int_elem 0 255.

(** bitpack.h 24-26 GetBitpackedSize. *)
Definition GetBitpackedSize (n : Z) : Z := CeilDiv n 32.
(** bitpack.h 28-30 GetBitpackedMatrixSize. *)
Definition GetBitpackedMatrixSize (rows cols : Z) : Z := rows * GetBitpackedSize cols.

Section Pack.
  Variable E : elemtype.

  (** bitpack.h 32-110 (quantized) and 112-190 (float): bit-field member [bi] is
      [in[i] < zero_point] (float: [< 0], with zero_point DCHECKed to be 0).
      GCC/Clang ABI: member i of the bit-field struct is bit i of the int32. *)
  Definition bitpack_bitfield (inp : list (et E)) (off : Z) (zp : et E) : option Z :=
    for_ 0 32 (fun i w =>
      let* v := rd inp (off + i) in
      Some (setbit_if (et_ltb E v zp) w i)) 0.

  (** bitpack.h 207-248 bitpack_array, without the __aarch64__ block (for that
      see BitpackA64.v). [in_off]/[out_off] are the pointers' positions. *)
  Definition bitpack_array (inp : list (et E)) (in_off n : Z)
      (out : list Z) (out_off : Z) (zp : et E) : option (list Z) :=
    let num_packed := n / 32 in
    let left := n - 32 * num_packed in
    let* out := for_ 0 num_packed (fun k out =>
      let* w := bitpack_bitfield inp (in_off + 32 * k) zp in
      wr out (out_off + k) w) out in
    if left =? 0 then Some out else
      let buf0 := repeat (et_zero E) 32 in
      let* buf1 := for_ 0 left (fun i buf =>
        let* v := rd inp (in_off + 32 * num_packed + i) in wr buf i v) buf0 in
      let* buf := for_ left 32 (fun i buf => wr buf i zp) buf1 in
      let* w := bitpack_bitfield buf 0 zp in
      wr out (out_off + num_packed) w.

  (** [std::fill(out+lo, out+hi, v)] *)
  Definition fill (out : list Z) (lo hi v : Z) : option (list Z) :=
    for_ lo hi (fun i out => wr out i v) out.

  (** bitpack.h 279: [(1 << k) - 1] in type int: undefined for k = 31. *)
  Definition ones_prefix (k : Z) : option Z :=
    if k =? 31 then None else Some (2 ^ k - 1).

  (** bitpack.h 250-309 bitpack_matrix. *)
  Definition bitpack_matrix (inp : list (et E)) (rows cols : Z) (out : list Z) (zp : Z)
    : option (list Z) :=
    let W := GetBitpackedSize cols in
    if match et_lo E with Some lo => zp <=? lo | None => false end then
      fill out 0 (rows * W) 0
    else if match et_hi E with Some hi => hi <? zp | None => false end then
      if cols mod 32 =? 0 then fill out 0 (rows * W) (2 ^ 32 - 1)
      else
        let* v := ones_prefix (cols mod 32) in
        for_ 0 rows (fun r out =>
          let* out := fill out (r * W) (r * W + W - 1) (2 ^ 32 - 1) in
          wr out ((r + 1) * W - 1) v) out
    else
      let z := et_cast E zp in
      if cols mod 32 =? 0 then bitpack_array inp 0 (cols * rows) out 0 z
      else for_ 0 rows (fun r out => bitpack_array inp (r * cols) cols out (r * W) z) out.
End Pack.

(** bitpack.h 311-319 unpack_bitfield and 321-352 unpack_matrix. *)
Definition unpack_bitfield {T} (w : Z) (out : list T) (out_off n : Z) (zero_bit one_bit : T)
  : option (list T) :=
  for_ 0 n (fun i out =>
    wr out (out_off + i) (if Z.testbit w i then one_bit else zero_bit)) out.

Definition unpack_matrix {T} (inp : list Z) (rows cols : Z) (out : list T) (zero_bit one_bit : T)
  : option (list T) :=
  let full := cols / 32 in
  let left := cols - 32 * full in
  let W := if left =? 0 then full else full + 1 in  (* words consumed per row *)
  for_ 0 rows (fun r out =>
    let* out := for_ 0 full (fun k out =>
      let* w := rd inp (r * W + k) in
      unpack_bitfield w out (r * cols + 32 * k) 32 zero_bit one_bit) out in
    if left =? 0 then Some out else
      let* w := rd inp (r * W + full) in
      unpack_bitfield w out (r * cols + 32 * full) left zero_bit one_bit) out.

(** ** Proofs *)
Lemma GetBitpackedSize_words n : 0 <= n -> GetBitpackedSize n = words n.
Proof. unfold GetBitpackedSize, CeilDiv, words. lia. Qed.

Section PackProofs.
  Variable E : elemtype.
  Hypothesis ltb_irrefl : forall z : et E, et_ltb E z z = false.

  Lemma bitpack_bitfield_wp inp off zp (Q : Z -> Prop) :
    0 <= off -> off + 32 <= zlen inp ->
    (forall w, word w ->
       (forall i v, 0 <= i < 32 -> rd inp (off + i) = Some v ->
           Z.testbit w i = et_ltb E v zp) -> Q w) ->
    wp (bitpack_bitfield E inp off zp) Q.
  Proof.
    intros H0 Hl HQ. unfold bitpack_bitfield.
    apply (for_wp (fun k w => word w /\
       (forall i v, 0 <= i < k -> rd inp (off + i) = Some v -> Z.testbit w i = et_ltb E v zp) /\
       (forall i, k <= i -> Z.testbit w i = false))).
    - split; [apply word_0|]. split; [intros; lia|]. intros; apply Z.bits_0.
    - intros i w Hi (Hw & Hb & Hhi). apply wp_bind. apply rd_wp; [lia|]. intros v Hv.
      apply wp_ret. split; [apply setbit_if_word; auto|]. split.
      + intros j u Hj Hu. rewrite testbit_setbit_if by lia.
        destruct (Z.eqb_spec i j) as [->|Hne]; cbn.
        * rewrite Hhi by lia. rewrite Hv in Hu. injection Hu as <-. reflexivity.
        * rewrite orb_false_r. apply (Hb j u); [lia|exact Hu].
      + intros j Hj. destruct (Z.lt_ge_cases j 0); [lia|].
        rewrite testbit_setbit_if, Hhi by lia.
        destruct (Z.eqb_spec i j); [lia|reflexivity].
    - intros w (Hw & Hb & _). apply HQ; [exact Hw|]. intros i v Hi Hv. apply Hb; [lia|exact Hv].
  Qed.

  (** What a call to bitpack_array establishes. *)
  Definition array_post (inp : list (et E)) (in_off n : Z) (out : list Z) (out_off : Z)
      (zp : et E) (out' : list Z) : Prop :=
    zlen out' = zlen out /\
    (forall j, ~ out_off <= j < out_off + words n -> rd out' j = rd out j) /\
    (forall k, 0 <= k < words n -> exists w, rd out' (out_off + k) = Some w /\ word w /\
       forall b, 0 <= b < 32 ->
         (n <= 32 * k + b -> Z.testbit w b = false) /\
         (forall v, 32 * k + b < n -> rd inp (in_off + 32 * k + b) = Some v ->
            Z.testbit w b = et_ltb E v zp)).

  Lemma bitpack_array_wp inp in_off n out out_off zp (Q : list Z -> Prop) :
    0 <= n -> 0 <= in_off -> in_off + n <= zlen inp ->
    0 <= out_off -> out_off + words n <= zlen out ->
    (forall out', array_post inp in_off n out out_off zp out' -> Q out') ->
    wp (bitpack_array E inp in_off n out out_off zp) Q.
  Proof.
    intros Hn Hi0 Hi1 Ho0 Ho1 HQ. unfold bitpack_array.
    set (np := n / 32). set (left := n - 32 * np).
    assert (Hnp : 0 <= np) by (unfold np; lia).
    assert (Hleft : 0 <= left < 32) by (unfold left, np; lia).
    assert (Hwords : words n = if left =? 0 then np else np + 1).
    { unfold words, left, np. destruct (Z.eqb_spec (n - 32 * (n / 32)) 0); lia. }
    apply wp_bind.
    apply (for_wp (fun m out' => zlen out' = zlen out /\
      (forall j, ~ out_off <= j < out_off + m -> rd out' j = rd out j) /\
      (forall k, 0 <= k < m -> exists w, rd out' (out_off + k) = Some w /\ word w /\
         forall b v, 0 <= b < 32 -> rd inp (in_off + 32 * k + b) = Some v ->
            Z.testbit w b = et_ltb E v zp))).
    - split; [reflexivity|]. split; [reflexivity|]. intros; lia.
    - intros m o Hm (Hlen & Hfr & Hw). apply wp_bind.
      apply bitpack_bitfield_wp; [unfold np in *; lia|unfold np in *; lia|].
      intros w Hword Hbits. apply wr_wp.
      { rewrite Hlen. destruct (left =? 0); lia. }
      intros o' Hlen' Hsame Hoth. split; [congruence|]. split.
      + intros j Hj. rewrite Hoth by lia. apply Hfr. lia.
      + intros k Hk. destruct (Z.eq_dec k m) as [->|Hne].
        * exists w. split; [exact Hsame|]. split; [exact Hword|]. intros b v Hb Hv.
          apply Hbits; auto.
        * destruct (Hw k ltac:(lia)) as (w' & Hr & Hrest). exists w'.
          split; [rewrite Hoth by lia; exact Hr|exact Hrest].
    - rewrite Z.max_r by lia. intros o (Hlen & Hfr & Hw).
      destruct (Z.eqb_spec left 0) as [Hz|Hz].
      + apply wp_ret. apply HQ. split; [exact Hlen|]. rewrite Hwords.
        split; [exact Hfr|]. intros k Hk. destruct (Hw k Hk) as (w & Hr & Hword & Hb).
        exists w. split; [exact Hr|]. split; [exact Hword|]. intros b Hbb. split.
        * unfold left in Hz. intros; lia.
        * intros v _ Hv. apply Hb; auto.
      + apply wp_bind.
        apply (for_wp (fun m (buf : list (et E)) => zlen buf = 32 /\
           forall i, 0 <= i < m -> rd buf i = rd inp (in_off + 32 * np + i))).
        { split; [rewrite zlen_repeat; reflexivity|]. intros; lia. }
        { intros i buf Hi (Hl & Hb). apply wp_bind. apply rd_wp; [unfold left in *; lia|].
          intros v Hv. apply wr_wp; [lia|]. intros buf' Hl' Hs Ho. split; [congruence|].
          intros j Hj. destruct (Z.eq_dec j i) as [->|Hne]; [congruence|].
          rewrite Ho by lia. apply Hb; lia. }
        rewrite Z.max_r by lia. intros buf1 (Hl1 & Hb1). apply wp_bind.
        apply (for_wp (fun m (buf : list (et E)) => zlen buf = 32 /\
           (forall i, 0 <= i < left -> rd buf i = rd inp (in_off + 32 * np + i)) /\
           (forall i, left <= i < m -> rd buf i = Some zp))).
        { split; [exact Hl1|]. split; [exact Hb1|]. intros; lia. }
        { intros i buf Hi (Hl & Hb & Hz'). apply wr_wp; [lia|]. intros buf' Hl' Hs Ho.
          split; [congruence|]. split.
          - intros j Hj. rewrite Ho by lia. apply Hb; lia.
          - intros j Hj. destruct (Z.eq_dec j i) as [->|Hne]; [exact Hs|].
            rewrite Ho by lia. apply Hz'; lia. }
        rewrite Z.max_r by lia. intros buf (Hl & Hb & Hz').
        apply wp_bind. apply bitpack_bitfield_wp; [lia|lia|]. intros w Hword Hbits.
        apply wr_wp; [lia|].
        intros o' Hlen' Hsame Hoth. apply HQ. split; [congruence|].
        split.
        * rewrite Hwords. intros j Hj. rewrite Hoth by lia. apply Hfr; lia.
        * rewrite Hwords. intros k Hk. destruct (Z.eq_dec k np) as [->|Hne].
          -- exists w. split; [exact Hsame|]. split; [exact Hword|]. intros b Hbb. split.
             ++ intros Hge. rewrite (Hbits b zp Hbb); [apply ltb_irrefl|].
                cbn [Z.add]. apply Hz'. unfold left; lia.
             ++ intros v Hlt Hv. apply (Hbits b v Hbb). cbn [Z.add].
                rewrite Hb by (unfold left; lia). exact Hv.
          -- destruct (Hw k ltac:(lia)) as (w' & Hr & Hword' & Hb'). exists w'.
             split; [rewrite Hoth by lia; exact Hr|]. split; [exact Hword'|]. intros b Hbb. split.
             ++ unfold left, np in *. intros; lia.
             ++ intros v _ Hv. apply Hb'; auto.
  Qed.

  Lemma fill_wp out lo hi v (Q : list Z -> Prop) :
    0 <= lo -> hi <= zlen out ->
    (forall out', zlen out' = zlen out ->
       (forall j, lo <= j < hi -> rd out' j = Some v) ->
       (forall j, ~ lo <= j < hi -> rd out' j = rd out j) -> Q out') ->
    wp (fill out lo hi v) Q.
  Proof.
    intros H0 H1 HQ. unfold fill.
    apply (for_wp (fun m out' => zlen out' = zlen out /\
       (forall j, lo <= j < m -> rd out' j = Some v) /\
       (forall j, ~ lo <= j < m -> rd out' j = rd out j))).
    - split; [reflexivity|]. split; [intros; lia|reflexivity].
    - intros i o Hi (Hl & Hb & Hf). apply wr_wp; [lia|]. intros o' Hl' Hs Ho.
      split; [congruence|]. split.
      + intros j Hj. destruct (Z.eq_dec j i) as [->|]; [exact Hs|]. rewrite Ho by lia. apply Hb; lia.
      + intros j Hj. rewrite Ho by lia. apply Hf; lia.
    - intros o (Hl & Hb & Hf). apply HQ; [exact Hl| |]; intros j Hj; [apply Hb|apply Hf]; lia.
  Qed.

  (** Value of an element relative to the zero point, as the caller sees it:
      for types with bounds, the zero point may lie outside the type. *)
  Definition below (v : et E) (zp : Z) : bool :=
    if match et_lo E with Some lo => zp <=? lo | None => false end then false
    else if match et_hi E with Some hi => hi <? zp | None => false end then true
    else et_ltb E v (et_cast E zp).

  Definition matrix_post (inp : list (et E)) (rows cols : Z) (out : list Z) (zp : Z)
      (out' : list Z) : Prop :=
    zlen out' = zlen out /\
    (forall j, ~ 0 <= j < rows * words cols -> rd out' j = rd out j) /\
    (forall r k, 0 <= r < rows -> 0 <= k < words cols ->
       exists w, rd out' (r * words cols + k) = Some w /\ word w /\
       forall b, 0 <= b < 32 ->
         (cols <= 32 * k + b -> Z.testbit w b = false) /\
         (forall v, 32 * k + b < cols -> rd inp (r * cols + 32 * k + b) = Some v ->
            Z.testbit w b = below v zp)).

  Lemma testbit_ones_word b : 0 <= b < 32 -> Z.testbit (2 ^ 32 - 1) b = true.
  Proof.
    intros H. replace (2 ^ 32 - 1) with (Z.ones 32) by reflexivity.
    apply Z.ones_spec_low. lia.
  Qed.

  (** The one shape for which the code's own arithmetic is undefined. *)
  Definition packing_ub (cols zp : Z) : bool :=
    negb match et_lo E with Some lo => zp <=? lo | None => false end &&
    match et_hi E with Some hi => hi <? zp | None => false end && (cols mod 32 =? 31).

  Lemma bitpack_matrix_wp inp rows cols out zp (Q : list Z -> Prop) :
    0 <= rows -> 0 <= cols -> rows * cols <= zlen inp -> rows * words cols <= zlen out ->
    packing_ub cols zp = false ->
    (forall out', matrix_post inp rows cols out zp out' -> Q out') ->
    wp (bitpack_matrix E inp rows cols out zp) Q.
  Proof.
    intros Hr Hc Hin Hout Hub HQ. unfold bitpack_matrix.
    rewrite GetBitpackedSize_words by exact Hc.
    assert (HW := words_nonneg cols Hc). assert (HW32 := words_mul32 cols Hc).
    set (W := words cols) in *.
    unfold matrix_post, below in HQ; unfold packing_ub in Hub. fold W in HQ.
    destruct (match et_lo E with Some lo => zp <=? lo | None => false end) eqn:Elo.
    { apply fill_wp; [lia|lia|]. intros out' Hl Hb Hf. apply HQ.
      split; [exact Hl|]. split; [exact Hf|]. intros r k H1 H2. exists 0.
      split; [apply Hb; nia|]. split; [apply word_0|]. intros b Hbb.
      split; intros; apply Z.bits_0. }
    destruct (match et_hi E with Some hi => hi <? zp | None => false end) eqn:Ehi.
    - destruct (Z.eqb_spec (cols mod 32) 0) as [Hm|Hm].
      + apply fill_wp; [lia|lia|]. intros out' Hl Hb Hf. apply HQ.
        split; [exact Hl|]. split; [exact Hf|]. intros r k H1 H2. exists (2 ^ 32 - 1).
        split; [apply Hb; nia|]. split; [apply word_ones|]. intros b Hbb. split.
        * unfold W, words in *. intros; lia.
        * intros v _ _. apply testbit_ones_word; lia.
      + unfold ones_prefix. destruct (Z.eqb_spec (cols mod 32) 31) as [H31|H31].
        { cbn in Hub. discriminate. }
        cbn [bind].
        assert (HWp : W = cols / 32 + 1) by (unfold W, words; lia).
        set (pre := 2 ^ (cols mod 32) - 1).
        assert (Hpre : forall b, 0 <= b < 32 -> Z.testbit pre b = (b <? cols mod 32)).
        { intros b Hb. unfold pre. rewrite Z.sub_1_r.
          replace (Z.pred (2 ^ (cols mod 32))) with (Z.ones (cols mod 32))
            by (rewrite Z.ones_equiv; reflexivity).
          destruct (Z.ltb_spec b (cols mod 32)); [apply Z.ones_spec_low|apply Z.ones_spec_high]; lia. }
        assert (Hprew : word pre).
        { unfold pre, word. assert (2 ^ (cols mod 32) <= 2 ^ 31) by (apply Z.pow_le_mono_r; lia).
          assert (0 < 2 ^ (cols mod 32)) by (apply Z.pow_pos_nonneg; lia). lia. }
        apply (for_wp (fun m o => zlen o = zlen out /\
          (forall j, ~ 0 <= j < m * W -> rd o j = rd out j) /\
          (forall r k, 0 <= r < m -> 0 <= k < W ->
             rd o (r * W + k) = Some (if k =? W - 1 then pre else 2 ^ 32 - 1)))).
        * split; [reflexivity|]. split; [reflexivity|]. intros; lia.
        * intros r o Hrr (Hl & Hf & Hb). apply wp_bind. apply fill_wp; [nia|nia|].
          intros o1 Hl1 Hb1 Hf1. apply wr_wp; [nia|]. intros o2 Hl2 Hs2 Ho2.
          split; [congruence|]. split.
          -- intros j Hj. rewrite Ho2 by nia. rewrite Hf1 by nia. apply Hf. nia.
          -- intros r' k H1 H2. destruct (Z.eq_dec r' r) as [->|Hne].
             ++ destruct (Z.eqb_spec k (W - 1)) as [->|Hk].
                ** replace (r * W + (W - 1)) with ((r + 1) * W - 1) by lia. exact Hs2.
                ** rewrite Ho2 by lia. apply Hb1. lia.
             ++ rewrite Ho2 by nia. rewrite Hf1 by nia. apply Hb; lia.
        * rewrite Z.max_r by lia. intros o (Hl & Hf & Hb). apply HQ.
          split; [exact Hl|]. split; [exact Hf|]. intros r k H1 H2. eexists.
          split; [apply Hb; assumption|]. split.
          { destruct (k =? W - 1); [exact Hprew|apply word_ones]. }
          intros b Hbb. destruct (Z.eqb_spec k (W - 1)) as [->|Hk].
          -- rewrite Hpre by exact Hbb. split; [|intros v Hlt _]; lia.
          -- split; [lia|]. intros v Hlt _. apply testbit_ones_word; lia.
    - destruct (Z.eqb_spec (cols mod 32) 0) as [Hm|Hm].
      + assert (EW : words (cols * rows) = rows * W).
        { assert (HW' : cols = 32 * W) by (unfold W, words; lia).
          unfold words. rewrite HW'. replace (32 * W * rows + 31) with (31 + (rows * W) * 32) by lia.
          rewrite Z.div_add by lia. reflexivity. }
        assert (HW' : cols = 32 * W) by (unfold W, words; lia).
        apply bitpack_array_wp; [nia|lia|nia|lia|lia|].
        intros out' (Hl & Hf & Hw). apply HQ. rewrite EW in *. split; [exact Hl|].
        split; [intros j Hj; apply Hf; lia|]. intros r k H1 H2.
        destruct (Hw (r * W + k) ltac:(nia)) as (w & Hrd & Hword & Hb).
        exists w. split; [exact Hrd|]. split; [exact Hword|]. intros b Hbb.
        destruct (Hb b Hbb) as [Hb0 Hb1]. split; [intros; lia|].
        intros v Hlt Hv. apply Hb1; [nia|]. rewrite <- Hv. f_equal. nia.
      + apply (for_wp (fun m o => zlen o = zlen out /\
          (forall j, ~ 0 <= j < m * W -> rd o j = rd out j) /\
          (forall r k, 0 <= r < m -> 0 <= k < W ->
             exists w, rd o (r * W + k) = Some w /\ word w /\
             forall b, 0 <= b < 32 ->
               (cols <= 32 * k + b -> Z.testbit w b = false) /\
               (forall v, 32 * k + b < cols -> rd inp (r * cols + 32 * k + b) = Some v ->
                  Z.testbit w b = et_ltb E v (et_cast E zp))))).
        * split; [reflexivity|]. split; [reflexivity|]. intros; lia.
        * intros r o Hrr (Hl & Hf & Hb). apply bitpack_array_wp; fold W; [lia|nia|nia|nia|nia|].
          intros o' (Hl' & Hf' & Hw'). fold W in Hf', Hw'. split; [congruence|]. split.
          -- intros j Hj. rewrite Hf' by nia. apply Hf. nia.
          -- intros r' k H1 H2. destruct (Z.eq_dec r' r) as [->|Hne].
             ++ apply Hw'. lia.
             ++ destruct (Hb r' k ltac:(lia) H2) as (w & Hrd & Hrest). exists w.
                split; [rewrite Hf' by nia; exact Hrd|exact Hrest].
        * rewrite Z.max_r by lia. intros o Ho. apply HQ. exact Ho.
  Qed.
End PackProofs.

Section UnpackProofs.
  Context {T : Type}.
  Lemma unpack_bitfield_wp w (out : list T) off n z o (Q : list T -> Prop) :
    0 <= off -> off + n <= zlen out -> 0 <= n ->
    (forall out', zlen out' = zlen out ->
       (forall j, ~ off <= j < off + n -> rd out' j = rd out j) ->
       (forall i, 0 <= i < n -> rd out' (off + i) = Some (if Z.testbit w i then o else z)) ->
       Q out') ->
    wp (unpack_bitfield w out off n z o) Q.
  Proof.
    intros H0 H1 Hn HQ. unfold unpack_bitfield.
    apply (for_wp (fun m out' => zlen out' = zlen out /\
       (forall j, ~ off <= j < off + m -> rd out' j = rd out j) /\
       (forall i, 0 <= i < m -> rd out' (off + i) = Some (if Z.testbit w i then o else z)))).
    - split; [reflexivity|]. split; [reflexivity|]. intros; lia.
    - intros i t Hi (Hl & Hf & Hb). apply wr_wp; [lia|]. intros t' Hl' Hs Ho.
      split; [congruence|]. split.
      + intros j Hj. rewrite Ho by lia. apply Hf; lia.
      + intros j Hj. destruct (Z.eq_dec j i) as [->|]; [exact Hs|]. rewrite Ho by lia. apply Hb; lia.
    - intros t (Hl & Hf & Hb). apply HQ; [exact Hl| |]; intros j Hj; [apply Hf|apply Hb]; lia.
  Qed.

  Definition unpack_post (inp : list Z) (rows cols : Z) (out : list T) (z o : T) (out' : list T) :=
    zlen out' = zlen out /\
    (forall j, ~ 0 <= j < rows * cols -> rd out' j = rd out j) /\
    (forall r c, 0 <= r < rows -> 0 <= c < cols ->
       rd out' (r * cols + c) = Some (if bit_of inp (words cols) r c then o else z)).

  Lemma unpack_matrix_wp inp rows cols (out : list T) z o (Q : list T -> Prop) :
    0 <= rows -> 0 <= cols -> rows * words cols <= zlen inp -> rows * cols <= zlen out ->
    (forall out', unpack_post inp rows cols out z o out' -> Q out') ->
    wp (unpack_matrix inp rows cols out z o) Q.
  Proof.
    intros Hr Hc Hin Hout HQ. unfold unpack_matrix.
    set (full := cols / 32). set (left := cols - 32 * full).
    assert (HW : (if left =? 0 then full else full + 1) = words cols).
    { unfold words, left, full. destruct (Z.eqb_spec (cols - 32 * (cols / 32)) 0); lia. }
    rewrite HW. assert (HWn := words_nonneg cols Hc). unfold unpack_post in HQ.
    set (W := words cols) in *.
    assert (HfW : full <= W) by (unfold full, W, words; lia).
    assert (Hf32 : 0 <= full /\ 32 * full <= cols) by (unfold full; lia).
    assert (bitof : forall r k w i, 0 <= i < 32 -> rd inp (r * W + k) = Some w ->
              bit_of inp W r (32 * k + i) = Z.testbit w i).
    { intros r k w i Hi Hrd. unfold bit_of.
      replace ((32 * k + i) / 32) with k by lia. replace ((32 * k + i) mod 32) with i by lia.
      rewrite Hrd. reflexivity. }
    apply (for_wp (fun m out' => zlen out' = zlen out /\
      (forall j, ~ 0 <= j < m * cols -> rd out' j = rd out j) /\
      (forall r c, 0 <= r < m -> 0 <= c < cols ->
         rd out' (r * cols + c) = Some (if bit_of inp W r c then o else z)))).
    - split; [reflexivity|]. split; [reflexivity|]. intros; lia.
    - intros r t Hrr (Hl & Hf & Hb). apply wp_bind.
      apply (for_wp (fun k t' => zlen t' = zlen out /\
        (forall j, ~ r * cols <= j < r * cols + 32 * k -> rd t' j = rd t j) /\
        (forall c, 0 <= c < 32 * k ->
           rd t' (r * cols + c) = Some (if bit_of inp W r c then o else z)))).
      + split; [exact Hl|]. split; [reflexivity|]. intros; lia.
      + intros k t1 Hk (Hl1 & Hf1 & Hb1). apply wp_bind. apply rd_wp; [nia|]. intros w Hw.
        apply unpack_bitfield_wp; [nia|nia|lia|]. intros t2 Hl2 Hf2 Hb2.
        split; [congruence|]. split.
        * intros j Hj. rewrite Hf2 by lia. apply Hf1; lia.
        * intros c Hcc. destruct (Z.lt_ge_cases c (32 * k)).
          -- rewrite Hf2 by lia. apply Hb1; lia.
          -- replace c with (32 * k + (c - 32 * k)) by lia.
             rewrite (bitof r k w) by (auto; lia). rewrite Z.add_assoc. apply Hb2; lia.
      + rewrite Z.max_r by lia. intros t1 (Hl1 & Hf1 & Hb1).
        destruct (Z.eqb_spec left 0) as [Hz|Hz].
        * apply wp_ret. split; [exact Hl1|]. unfold left in Hz. split.
          -- intros j Hj. rewrite Hf1 by nia. apply Hf; nia.
          -- intros r' c H1 H2. destruct (Z.eq_dec r' r) as [->|Hne].
             ++ apply Hb1; lia.
             ++ rewrite Hf1 by nia. apply Hb; lia.
        * assert (W = full + 1) by lia. assert (0 <= left < 32) by (unfold left, full; lia).
          apply wp_bind. apply rd_wp; [nia|]. intros w Hw.
          apply unpack_bitfield_wp; [nia|unfold left in *; nia|lia|]. intros t2 Hl2 Hf2 Hb2.
          split; [congruence|]. split.
          -- intros j Hj. rewrite Hf2 by (unfold left in *; nia). rewrite Hf1 by nia. apply Hf; nia.
          -- intros r' c H1 H2. destruct (Z.eq_dec r' r) as [->|Hne].
             ++ destruct (Z.lt_ge_cases c (32 * full)).
                ** rewrite Hf2 by lia. apply Hb1; lia.
                ** replace c with (32 * full + (c - 32 * full)) by lia.
                   rewrite (bitof r full w) by (auto; unfold left in *; lia).
                   rewrite Z.add_assoc. apply Hb2; unfold left; lia.
             ++ rewrite Hf2 by (unfold left in *; nia). rewrite Hf1 by nia. apply Hb; lia.
    - rewrite Z.max_r by lia. intros t Ht. apply HQ. exact Ht.
  Qed.
End UnpackProofs.

(** ** Consequences stated with [packed] and [bit_of] *)
Section Facts.
  Variable E : elemtype.
  Hypothesis ltb_irrefl : forall z : et E, et_ltb E z z = false.

  Lemma matrix_post_packed inp rows cols out zp out' :
    0 <= rows -> 0 <= cols -> zlen out = rows * words cols ->
    matrix_post E inp rows cols out zp out' ->
    packed out' rows cols /\
    (forall r c v, 0 <= r < rows -> 0 <= c < cols -> rd inp (r * cols + c) = Some v ->
       bit_of out' (words cols) r c = below E v zp).
  Proof.
    intros Hr Hc Hlen (Hl & Hf & Hw). assert (HW := words_mul32 cols Hc).
    assert (Hbit : forall r c, 0 <= r < rows -> 0 <= c < 32 * words cols ->
      exists w, bit_of out' (words cols) r c = Z.testbit w (c mod 32) /\
         (cols <= c -> Z.testbit w (c mod 32) = false) /\
         (forall v, c < cols -> rd inp (r * cols + c) = Some v ->
            Z.testbit w (c mod 32) = below E v zp)).
    { intros r c H1 H2. destruct (Hw r (c / 32) H1 ltac:(lia)) as (w & Hrd & Hword & Hb).
      exists w. unfold bit_of. rewrite Hrd. split; [reflexivity|].
      destruct (Hb (c mod 32) ltac:(lia)) as [Hb0 Hb1].
      replace (32 * (c / 32) + c mod 32) with c in * by lia. split; [exact Hb0|].
      intros v Hlt Hv. apply Hb1; [exact Hlt|]. rewrite <- Hv. f_equal. lia. }
    split.
    - split; [congruence|]. split.
      + intros i w Hi. assert (Hb := rd_bounds _ _ _ Hi).
        assert (0 < words cols) by nia.
        destruct (Hw (i / words cols) (i mod words cols)) as (w' & Hrd & Hword & _).
        * split; [apply Z.div_pos; lia|]. apply Z.div_lt_upper_bound; nia.
        * apply Z.mod_pos_bound; lia.
        * replace (i / words cols * words cols + i mod words cols) with i in Hrd
            by (rewrite Z.mul_comm; apply Z.div_mod; lia).
          congruence.
      + intros p k Hp Hk. destruct (Hbit p k Hp ltac:(lia)) as (w & -> & Hz & _). apply Hz; lia.
    - intros r c v H1 H2 Hv. destruct (Hbit r c H1 ltac:(lia)) as (w & -> & _ & Hz). apply Hz; auto; lia.
  Qed.

  Lemma pack_correct inp rows cols out zp :
    0 <= rows -> 0 <= cols -> zlen inp = rows * cols -> zlen out = rows * words cols ->
    packing_ub E cols zp = false ->
    exists out', bitpack_matrix E inp rows cols out zp = Some out' /\
      packed out' rows cols /\
      (forall r c v, 0 <= r < rows -> 0 <= c < cols -> rd inp (r * cols + c) = Some v ->
         bit_of out' (words cols) r c = below E v zp).
  Proof.
    intros Hr Hc Hi Ho Hub. apply wp_iff.
    apply bitpack_matrix_wp; auto; try lia.
    intros out' Hp. eapply matrix_post_packed; eauto.
  Qed.

  Lemma unpack_pack {T} inp rows cols out (dst : list T) zp (z o : T) :
    0 <= rows -> 0 <= cols -> zlen inp = rows * cols -> zlen out = rows * words cols ->
    zlen dst = rows * cols -> packing_ub E cols zp = false ->
    exists p res, bitpack_matrix E inp rows cols out zp = Some p /\
      unpack_matrix p rows cols dst z o = Some res /\
      zlen res = rows * cols /\
      (forall i v, rd inp i = Some v -> rd res i = Some (if below E v zp then o else z)).
  Proof.
    intros Hr Hc Hi Ho Hd Hub.
    destruct (pack_correct inp rows cols out zp Hr Hc Hi Ho Hub) as (p & Hp & (Hlen & _) & Hbits).
    exists p.
    assert (H : wp (unpack_matrix p rows cols dst z o) (fun res => zlen res = rows * cols /\
      (forall i v, rd inp i = Some v -> rd res i = Some (if below E v zp then o else z)))).
    { apply unpack_matrix_wp; auto; try lia. intros res (Hl & Hf & Hu). split; [congruence|].
      intros i v Hv. assert (Hb := rd_bounds _ _ _ Hv). assert (0 < cols) by nia.
      assert (Hdm : i = i / cols * cols + i mod cols)
        by (rewrite Z.mul_comm; apply Z.div_mod; lia).
      assert (Hrow : 0 <= i / cols < rows)
        by (split; [apply Z.div_pos; lia|apply Z.div_lt_upper_bound; nia]).
      assert (Hcol : 0 <= i mod cols < cols) by (apply Z.mod_pos_bound; lia).
      rewrite Hdm at 1. rewrite Hu by assumption.
      rewrite (Hbits _ _ v Hrow Hcol); [reflexivity|]. rewrite <- Hdm. exact Hv. }
    apply wp_iff in H. destruct H as (res & -> & H1 & H2). exists res. auto.
  Qed.

  Lemma packed_bits_inj p q rows cols :
    0 <= cols -> packed p rows cols -> packed q rows cols ->
    (forall r c, 0 <= r < rows -> 0 <= c < cols ->
       bit_of p (words cols) r c = bit_of q (words cols) r c) -> p = q.
  Proof.
    intros Hc (Hl1 & Hw1 & Hz1) (Hl2 & Hw2 & Hz2) Hb. apply rd_ext; [congruence|].
    intros i Hi. assert (HW := words_mul32 cols Hc).
    set (W := words cols) in *.
    assert (0 < W) by (destruct (Z.eq_dec W 0) as [E0|]; [rewrite E0 in *; lia|lia]).
    destruct (rd_some p i Hi) as [a Ha]. destruct (rd_some q i ltac:(lia)) as [b Hbq].
    rewrite Ha, Hbq. f_equal.
    apply testbit_inj32; [eapply Hw1; eauto|eapply Hw2; eauto|]. intros t Ht.
    assert (Hdm : i = i / W * W + i mod W) by (rewrite Z.mul_comm; apply Z.div_mod; lia).
    assert (Hrow : 0 <= i / W < rows)
      by (split; [apply Z.div_pos; lia|apply Z.div_lt_upper_bound; nia]).
    assert (Hcol : 0 <= i mod W < W) by (apply Z.mod_pos_bound; lia).
    set (r := i / W) in *. set (k := i mod W) in *.
    assert (Ep : bit_of p W r (32 * k + t) = Z.testbit a t).
    { unfold bit_of. replace ((32 * k + t) / 32) with k by lia.
      replace ((32 * k + t) mod 32) with t by lia. rewrite <- Hdm, Ha. reflexivity. }
    assert (Eq : bit_of q W r (32 * k + t) = Z.testbit b t).
    { unfold bit_of. replace ((32 * k + t) / 32) with k by lia.
      replace ((32 * k + t) mod 32) with t by lia. rewrite <- Hdm, Hbq. reflexivity. }
    rewrite <- Ep, <- Eq. destruct (Z.lt_ge_cases (32 * k + t) cols).
    - apply Hb; lia.
    - rewrite Hz1, Hz2 by lia. reflexivity.
  Qed.

  Lemma pack_unpack p rows cols (dst : list (et E)) out zp (z o : et E) :
    0 <= rows -> 0 <= cols -> packed p rows cols ->
    zlen dst = rows * cols -> zlen out = rows * words cols -> packing_ub E cols zp = false ->
    below E o zp = true -> below E z zp = false ->
    exists u, unpack_matrix p rows cols dst z o = Some u /\
              bitpack_matrix E u rows cols out zp = Some p.
  Proof.
    intros Hr Hc Hp Hd Ho Hub Hone Hzero.
    assert (Hpl : zlen p = rows * words cols) by apply Hp.
    assert (H : wp (unpack_matrix p rows cols dst z o)
       (fun u => bitpack_matrix E u rows cols out zp = Some p)).
    { apply unpack_matrix_wp; auto; try lia. intros u (Hl & Hf & Hu).
      destruct (pack_correct u rows cols out zp Hr Hc ltac:(lia) Ho Hub) as (q & Hq & Hqp & Hqb).
      rewrite Hq. f_equal. apply (packed_bits_inj q p rows cols); auto.
      intros r c H1 H2. rewrite (Hqb r c _ H1 H2 (Hu r c H1 H2)).
      destruct (bit_of p (words cols) r c); assumption. }
    apply wp_iff in H. exact H.
  Qed.
End Facts.

(** For integer element types [below] is the comparison with the zero point. *)
Lemma below_int lo hi v zp : lo <= v <= hi -> below (int_elem lo hi) v zp = (v <? zp).
Proof.
  intros H. unfold below; cbn.
  destruct (Z.leb_spec zp lo); [symmetry; apply Z.ltb_ge; lia|].
  destruct (Z.ltb_spec hi zp); [symmetry; apply Z.ltb_lt; lia|]. reflexivity.
Qed.
