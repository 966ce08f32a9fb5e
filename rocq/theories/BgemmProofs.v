(** * BgemmProofs: packing and kernels for every schedule. *)
From Verif Require Import Base Spec Bits Log Bgemm IndirectRun.

Lemma emits_bind {T A} P (V : Z -> T) C (m : option A) (f : A -> log T -> option (log T)) :
  wp m (fun a => emits P V C (f a)) -> emits P V C (fun l => let* a := m in f a l).
Proof. destruct m as [a|]; cbn; [auto|contradiction]. Qed.

Lemma emits_for_step {T} P (V : Z -> T) (C : Z -> Z -> Prop) lo hi step body :
  0 < step ->
  (forall i, 0 <= i -> lo + i * step < hi -> emits P V (C (lo + i * step)) (body (lo + i * step))) ->
  emits P V (fun j => exists i, 0 <= i /\ lo + i * step < hi /\ C (lo + i * step) j) (for_step lo hi step body).
Proof.
  intros Hs Hb. unfold for_step.
  assert (A : forall i, 0 <= i -> (lo + i * step < hi <-> i < (hi - lo + step - 1) / step)) by (intros; nia).
  eapply emits_weaken; [apply (emits_for P V (fun i => C (lo + i * step)))|].
  - intros i Hi. apply Hb; [lia|]. apply A; lia.
  - intros j (i & Hi & Hl & Hc). exists i. split; [|exact Hc]. split; [lia|]. apply A; lia.
Qed.

(** ** pm_off *)
Lemma pm_off_bounds kr kc stride rows cols k c :
  0 < kr -> 0 < kc -> rows mod kr = 0 -> rows <= stride -> cols mod kc = 0 ->
  0 <= k < rows -> 0 <= c < cols ->
  0 <= pm_off kr kc stride k c < stride * cols.
Proof.
  intros Hr Hc Hm Hst Hcm Hk Hcc. unfold pm_off.
  assert (B1 := Z.mod_pos_bound k kr Hr). assert (B2 := Z.mod_pos_bound c kc Hc).
  assert (D1 := Z.div_mod k kr ltac:(lia)). assert (D2 := Z.div_mod c kc ltac:(lia)).
  assert (D3 := Z.div_mod rows kr ltac:(lia)). rewrite Hm in D3.
  assert (D4 := Z.div_mod cols kc ltac:(lia)). rewrite Hcm in D4.
  set (a := k mod kr) in *. set (b := c mod kc) in *. set (x := k / kr) in *. set (y := c / kc) in *.
  set (R := rows / kr) in *. set (S := cols / kc) in *. clearbody a b x y R S.
  assert (0 <= x < R) by nia. assert (0 <= y < S) by nia.
  replace (k - a) with (kr * x) by lia. replace (c - b) with (kc * y) by lia.
  assert (0 <= b * kr + a < kr * kc) by nia.
  assert (0 <= kr * x * kc + a + b * kr < R * (kr * kc)) by nia.
  assert (R * (kr * kc) <= kc * stride) by nia.
  assert (0 <= stride) by nia.
  assert (0 <= kc * y * stride) by (assert (0 <= kc * y) by nia; nia).
  assert (kc * y * stride + kc * stride <= stride * cols).
  { replace cols with (kc * S + 0) by lia. assert (y + 1 <= S) by lia.
    assert ((y + 1) * (kc * stride) <= S * (kc * stride)) by (apply Z.mul_le_mono_nonneg_r; nia). nia. }
  nia.
Qed.

Lemma round_up_facts n k : 0 < k -> 0 <= n -> n <= round_up n k < n + k /\ round_up n k mod k = 0.
Proof.
  intros Hk Hn. unfold round_up. split; [nia|]. apply Z.mod_mul. lia.
Qed.

(** ** Packing *)
Section Pack.
  Variables (kr kc : Z) (src : list Z) (rows cols stride : Z).
  Hypothesis (Hkr : 0 < kr) (Hkc : 0 < kc) (Hrows : 0 <= rows) (Hcols : 0 <= cols).
  Hypothesis Hsrc : zlen src = cols * rows.
  Hypothesis Hst : round_up rows kr <= stride.

  (** The element the packed matrix must hold. *)
  Definition selem (k c : Z) : Z := if (k <? rows) && (c <? cols) then wat src (c * rows + k) else 0.

  Variables lo hi : Z.   (* columns considered *)
  Definition ppos (i : Z) : Prop :=
    exists k c, 0 <= k < round_up rows kr /\ lo <= c < hi /\ i = pm_off kr kc stride k c.
  Definition holds (V : Z -> Z) : Prop := forall k c, 0 <= k < round_up rows kr -> 0 <= c ->
    V (pm_off kr kc stride k c) = selem k c.

End Pack.

Lemma src_load src rows cols k c : zlen src = cols * rows -> 0 <= k < rows -> 0 <= c < cols ->
  rd src (c * rows + k) = Some (wat src (c * rows + k)).
Proof.
  intros Hsrc Hk Hc. unfold wat.
  destruct (rd_some src (c * rows + k)) as [v ->]; [|reflexivity]. rewrite Hsrc. nia.
Qed.

Section PackAll.
  Variables (kr kc : Z) (src : list Z) (rows cols stride : Z).
  Hypothesis (Hkr : 0 < kr) (Hkc : 0 < kc) (Hrows : 0 <= rows) (Hcols : 0 <= cols).
  Hypothesis Hsrc : zlen src = cols * rows.
  Hypothesis Hst : round_up rows kr <= stride.
  Variable P : Z -> Prop.
  Variable V : Z -> Z.
  Hypothesis HV : holds kr kc src rows cols stride V.

  Lemma pack_any_ok lo hi :
    0 <= lo -> (forall i, ppos kr kc rows stride lo hi i -> P i) ->
    emits P V (ppos kr kc rows stride lo hi) (pack_any kr kc src rows cols rows stride lo hi).
  Proof.
    intros Hlo HP. unfold pack_any.
    eapply emits_weaken; [apply (emits_for P V (fun c j => exists k, 0 <= k < round_up rows kr /\ j = pm_off kr kc stride k c))|].
    - intros c Hc. eapply emits_weaken; [apply (emits_for P V (fun k j => j = pm_off kr kc stride k c))|].
      + intros k Hk.
        assert (E : (if (c <? cols) && (k <? rows) then rd src (c * rows + k) else Some 0)
                    = Some (selem src rows cols k c)).
        { unfold selem. rewrite (andb_comm (k <? rows)).
          destruct (Z.ltb_spec c cols); [|reflexivity]. destruct (Z.ltb_spec k rows); [|reflexivity].
          cbn [andb]. apply src_load with (cols := cols); auto; lia. }
        rewrite E. cbn [bind]. apply emits_one.
        * apply HP. exists k, c. auto.
        * symmetry. apply HV; lia.
      + intros j (k & Hk & ->). exists k. auto.
    - intros j (k & c & Hk & Hc & ->). exists c. split; [exact Hc|]. exists k. auto.
  Qed.
End PackAll.

Lemma emits_memcpy P (V : Z -> Z) load dst n :
  (forall r, 0 <= r < n -> load r = Some (V (dst + r)) /\ P (dst + r)) ->
  emits P V (fun j => dst <= j < dst + n) (memcpy_log load dst n).
Proof.
  intros H. unfold memcpy_log.
  eapply emits_weaken; [apply (emits_for P V (fun r j => j = dst + r))|].
  - intros r Hr. destruct (H r Hr) as [-> HP]. cbn [bind]. apply emits_one; auto.
  - intros j Hj. exists (j - dst). lia.
Qed.
Lemma emits_memset0 P (V : Z -> Z) dst n :
  (forall r, 0 <= r < n -> 0 = V (dst + r) /\ P (dst + r)) ->
  emits P V (fun j => dst <= j < dst + n) (memset0_log dst n).
Proof.
  intros H. unfold memset0_log.
  eapply emits_weaken; [apply (emits_for P V (fun r j => j = dst + r))|].
  - intros r Hr. destruct (H r Hr) as [-> HP]. apply emits_one; auto.
  - intros j Hj. exists (j - dst). lia.
Qed.

Section Pack44.
  Variables (src : list Z) (rows cols stride : Z).
  Hypothesis (Hrows : 0 <= rows) (Hcols : 0 <= cols).
  Hypothesis Hsrc : zlen src = cols * rows.
  Hypothesis Hst : round_up rows 4 <= stride.
  Variable P : Z -> Prop.
  Variable V : Z -> Z.
  Hypothesis HV : holds 4 4 src rows cols stride V.

  Lemma pm_off44 B q R r : 0 <= q < 4 -> 0 <= r < 4 -> 
    pm_off 4 4 stride (4 * R + r) (4 * B + q) = stride * (4 * B) + R * 16 + 4 * q + r.
  Proof.
    intros Hq Hr. unfold pm_off.
    replace ((4 * R + r) mod 4) with r by lia. replace ((4 * B + q) mod 4) with q by lia. ring.
  Qed.

  Lemma pack44_ok lo hi :
    0 <= lo -> lo mod 4 = 0 -> hi mod 4 = 0 ->
    (forall i, ppos 4 4 rows stride lo hi i -> P i) ->
    emits P V (ppos 4 4 rows stride lo hi) (pack44 src rows cols rows stride lo hi).
  Proof.
    intros Hlo Hlom Hhim HP. unfold pack44.
    assert (HR := round_up_facts rows 4 ltac:(lia) Hrows).
    set (PR := round_up rows 4) in *.
    eapply emits_weaken; [apply (emits_for_step P V
       (fun c j => exists k q, 0 <= k < PR /\ 0 <= q < 4 /\ j = pm_off 4 4 stride k (c + q)))|].
    { lia. }
    2:{ intros j (k & c & Hk & Hc & ->). exists ((c - lo) / 4). split; [lia|]. split; [lia|].
        exists k, ((c - lo) mod 4). split; [exact Hk|]. split; [lia|]. f_equal. lia. }
    intros b Hb Hlt. set (bc := lo + b * 4) in *.
    assert (EB : bc = 4 * (bc / 4)) by (unfold bc; lia). set (B := bc / 4) in *. clearbody B.
    assert (HB0 : 0 <= B) by (unfold bc in EB; lia).
    assert (Hbh : bc + 4 <= hi) by (unfold bc in *; lia).
    assert (Hbl : lo <= bc) by (unfold bc; lia).
    clearbody bc. subst bc.
    set (zero := fun q => (cols - 3 <=? 4 * B) && ((q =? 3) || (cols - q <=? 4 * B))).
    assert (Hz : forall q, 0 <= q < 4 -> zero q = (cols <=? 4 * B + q)).
    { intros q Hq. unfold zero.
      destruct (Z.leb_spec (cols - 3) (4 * B)), (Z.eqb_spec q 3), (Z.leb_spec (cols - q) (4 * B)),
        (Z.leb_spec cols (4 * B + q)); cbn; lia. }
    set (load := fun q it r =>
      let a := (if zero q then 0 else rows * (4 * B) + q * rows) + it * (if zero q then 0 else 4) + r in
      if zero q then rd [0; 0; 0; 0] a else rd src a).
    assert (Hload : forall q it r, 0 <= q < 4 -> 0 <= it -> 0 <= r < 4 -> 4 * it + r < rows ->
      load q it r = Some (V (stride * (4 * B) + it * 16 + 4 * q + r)) /\
      P (stride * (4 * B) + it * 16 + 4 * q + r)).
    { intros q it r Hq Hit Hr Hlt2. rewrite <- pm_off44 by assumption. split.
      - rewrite HV by lia. unfold load, selem. rewrite Hz by exact Hq.
        destruct (Z.leb_spec cols (4 * B + q)).
        + destruct (Z.ltb_spec (4 * B + q) cols); [lia|]. rewrite andb_false_r.
          cbv zeta. rewrite Z.mul_0_r, !Z.add_0_l.
          destruct (Z.eq_dec r 0) as [->|]; [reflexivity|]. destruct (Z.eq_dec r 1) as [->|]; [reflexivity|].
          destruct (Z.eq_dec r 2) as [->|]; [reflexivity|]. replace r with 3 by lia. reflexivity.
        + destruct (Z.ltb_spec (4 * B + q) cols); [|lia].
          destruct (Z.ltb_spec (4 * it + r) rows); [|lia]. cbn [andb]. cbv zeta.
          rewrite <- src_load with (cols := cols) by (auto; lia). f_equal. ring.
      - apply HP. exists (4 * it + r), (4 * B + q). split; [fold PR; lia|]. split; [lia|reflexivity]. }
    assert (Hset : forall q r, 0 <= q < 4 -> rows mod 4 <= r < 4 -> rows mod 4 <> 0 ->
      0 = V (stride * (4 * B) + rows / 4 * 16 + 4 * q + r) /\
      P (stride * (4 * B) + rows / 4 * 16 + 4 * q + r)).
    { intros q r Hq Hr Hne. rewrite <- pm_off44 by lia.
      assert (Hk : 0 <= 4 * (rows / 4) + r < PR) by lia. split.
      - rewrite HV by lia. unfold selem. destruct (Z.ltb_spec (4 * (rows / 4) + r) rows); [lia|reflexivity].
      - apply HP. exists (4 * (rows / 4) + r), (4 * B + q). split; [exact Hk|]. split; [lia|reflexivity]. }
    cbv zeta. fold load.
    eapply emits_weaken.
    - apply (emits_seq P V (fun j => exists it q r, 0 <= it < rows / 4 /\ 0 <= q < 4 /\ 0 <= r < 4 /\
                 j = stride * (4 * B) + it * 16 + 4 * q + r)
               (fun j => exists q r, rows mod 4 <> 0 /\ 0 <= q < 4 /\ 0 <= r < 4 /\
                 j = stride * (4 * B) + rows / 4 * 16 + 4 * q + r)).
      + eapply emits_weaken; [apply (emits_for_step P V
            (fun br j => exists q, 0 <= q < 4 /\
               stride * (4 * B) + br / 4 * 16 + 4 * q <= j < stride * (4 * B) + br / 4 * 16 + 4 * q + 4))|].
        * lia.
        * intros it Hit Hr. rewrite Z.add_0_l in *.
          replace (it * 4 / 4) with it by lia.
          eapply emits_weaken; [apply (emits_for P V
            (fun q j => stride * (4 * B) + it * 16 + 4 * q <= j < stride * (4 * B) + it * 16 + 4 * q + 4))|].
          -- intros q Hq. apply emits_memcpy. intros r Hr4. apply Hload; lia.
          -- intros j (q & Hq & Hj). exists q. auto.
        * intros j (it & q & r & Hit & Hq & Hr & ->). exists it. split; [lia|]. split; [lia|].
          exists q. replace ((0 + it * 4) / 4) with it by lia. split; [exact Hq|]. lia.
      + destruct (Z.eqb_spec (rows mod 4) 0) as [E0|E0]; cbn [negb].
        * eapply emits_weaken; [apply emits_skip|]. intros j (q & r & Hne & _). contradiction.
        * eapply emits_weaken; [apply (emits_for P V
            (fun q j => stride * (4 * B) + rows / 4 * 16 + 4 * q <= j < stride * (4 * B) + rows / 4 * 16 + 4 * q + 4))|].
          -- intros q Hq.
             set (dst := stride * (4 * B) + rows / 4 * 16 + 4 * q) in *.
             eapply emits_weaken; [apply emits_seq; [apply emits_memcpy|apply emits_memset0]|].
             ++ intros r Hr. apply Hload; try lia.
             ++ intros r Hr. rewrite <- Z.add_assoc. apply Hset; try lia.
             ++ intros j Hj. cbn beta. lia.
          -- intros j (q & r & _ & Hq & Hr & ->). exists q. split; [exact Hq|]. lia.
    - intros j (k & q & Hk & Hq & ->). cbn beta.
      assert (Ek : k = 4 * (k / 4) + k mod 4) by lia.
      destruct (Z.lt_ge_cases (k / 4) (rows / 4)) as [Hlk|Hge].
      + left. exists (k / 4), q, (k mod 4). split; [lia|]. split; [exact Hq|]. split; [lia|].
        rewrite <- pm_off44 by lia. f_equal. exact Ek.
      + right. exists q, (k mod 4). split; [lia|]. split; [exact Hq|]. split; [lia|].
        rewrite <- pm_off44 by lia. f_equal. lia.
  Qed.
End Pack44.

(** The value function exists: decode the position. *)
Definition pdecode (kr kc stride : Z) (i : Z) : Z * Z :=
  let cb := i / (kc * stride) in let rem := i mod (kc * stride) in
  let rb := rem / (kr * kc) in let rem2 := rem mod (kr * kc) in
  (rb * kr + rem2 mod kr, cb * kc + rem2 / kr).

Lemma pdecode_ok kr kc stride rows k c :
  0 < kr -> 0 < kc -> rows mod kr = 0 -> rows <= stride -> 0 <= k < rows -> 0 <= c ->
  pdecode kr kc stride (pm_off kr kc stride k c) = (k, c).
Proof.
  intros Hr Hc Hm Hst Hk Hcc. unfold pdecode, pm_off.
  assert (B1 := Z.mod_pos_bound k kr Hr). assert (B2 := Z.mod_pos_bound c kc Hc).
  assert (D1 := Z.div_mod k kr ltac:(lia)). assert (D2 := Z.div_mod c kc ltac:(lia)).
  assert (D3 := Z.div_mod rows kr ltac:(lia)). rewrite Hm in D3.
  set (a := k mod kr) in *. set (b := c mod kc) in *. set (x := k / kr) in *. set (y := c / kc) in *.
  set (R := rows / kr) in *. clearbody a b x y R.
  assert (0 <= x < R) by nia.
  assert (A1 : 0 <= b * kr + a < kr * kc) by nia.
  assert (x * (kr * kc) + (b * kr + a) < R * (kr * kc)) by nia.
  assert (R * (kr * kc) <= kc * stride) by nia.
  assert (A2 : 0 <= x * (kr * kc) + (b * kr + a) < kc * stride) by nia.
  replace ((k - a) * kc + (c - b) * stride + a + b * kr)
    with ((kc * stride) * y + (x * (kr * kc) + (b * kr + a)))
    by (replace (k - a) with (kr * x) by lia; replace (c - b) with (kc * y) by lia; ring).
  rewrite <- (Z.div_unique_pos _ (kc * stride) y _ A2 eq_refl).
  rewrite <- (Z.mod_unique_pos _ (kc * stride) y _ A2 eq_refl).
  assert (E : x * (kr * kc) + (b * kr + a) = (kr * kc) * x + (b * kr + a)) by ring. rewrite E.
  rewrite <- (Z.div_unique_pos _ (kr * kc) x _ A1 eq_refl).
  rewrite <- (Z.mod_unique_pos _ (kr * kc) x _ A1 eq_refl).
  rewrite <- (Z.div_unique_pos (b * kr + a) kr b a B1) by ring.
  rewrite <- (Z.mod_unique_pos (b * kr + a) kr b a B1) by ring.
  f_equal; lia.
Qed.

(** A fully packed matrix. *)
Definition pm_holds (pm : pmatrix) (src : list Z) (rows cols : Z) : Prop :=
  forall k c, 0 <= k < pm_rows pm -> 0 <= c < cols -> pm_elem pm k c = Some (selem src rows cols k c).

Lemma pack_all kr kc src rows cols stride (rs : list (Z * Z)) mem :
  0 < kr -> 0 < kc -> 0 <= rows -> 0 <= cols -> zlen src = cols * rows ->
  round_up rows kr <= stride -> zlen mem = stride * round_up cols kc ->
  Forall (range_ok cols kc) rs -> ranges_cover cols rs ->
  concurrently (map (fun r => RunRuyPack kr kc src rows cols rows stride (fst r) (snd r) []) rs) mem
    (fun m => pm_holds {| pm_data := m; pm_rows := round_up rows kr; pm_stride := stride; pm_kr := kr; pm_kc := kc |}
                src rows cols).
Proof.
  intros Hkr Hkc Hrows Hcols Hsrc Hst Hmem Hrs Hcov.
  rewrite Forall_forall in Hrs.
  assert (HR := round_up_facts rows kr Hkr Hrows). assert (HC := round_up_facts cols kc Hkc Hcols).
  set (V := fun i => let (k, c) := pdecode kr kc stride i in selem src rows cols k c).
  assert (HV : holds kr kc src rows cols stride V).
  { intros k c Hk Hc. unfold V. rewrite (pdecode_ok kr kc stride (round_up rows kr)) by (tauto || lia).
    reflexivity. }
  set (P := fun i => exists r, In r rs /\ ppos kr kc rows stride (fst r) (snd r) i).
  eapply concurrently_mono.
  - apply (concurrently_emits P V (fun r => ppos kr kc rows stride (fst r) (snd r))
             (fun r => RunRuyPack kr kc src rows cols rows stride (fst r) (snd r))).
    + intros i (r & Hr & k & c & Hk & Hc & ->). destruct (Hrs r Hr) as (H1 & H2 & H3 & H4).
      rewrite Hmem. eapply pm_off_bounds; try eassumption; try tauto; lia.
    + intros r Hr. destruct (Hrs r Hr) as (H1 & H2 & H3 & H4).
      assert (HP : forall i, ppos kr kc rows stride (fst r) (snd r) i -> P i) by (intros i Hi; exists r; auto).
      unfold RunRuyPack. destruct (Z.eqb_spec kr 4) as [->|]; [destruct (Z.eqb_spec kc 4) as [->|]|]; cbn [andb].
      * apply pack44_ok; auto; lia.
      * apply pack_any_ok; auto; lia.
      * apply pack_any_ok; auto; lia.
    + intros i (r & Hr & Hp). exists r. auto.
  - intros m' (_ & Hc & _) k c Hk Hcc. cbn in Hk. unfold pm_elem. cbn.
    rewrite Hc.
    + f_equal. apply HV; lia.
    + destruct (Hcov c Hcc) as (r & Hr & Hrc). exists r. split; [exact Hr|]. exists k, c. auto.
Qed.

(** ** Accumulation *)
Lemma accumulate_bproduct kr PL PR lhs rhs n k m i j :
  0 < kr -> 0 <= k ->
  pm_rows PL = round_up k kr -> pm_rows PR = round_up k kr ->
  pm_holds PL lhs k n -> pm_holds PR rhs k m ->
  0 <= i < n -> 0 <= j < m ->
  accumulate PL PR i j = Some (bproduct k lhs rhs i j).
Proof.
  intros Hkr Hk EL ER HL HR Hi Hj. assert (HU := round_up_facts k kr Hkr Hk).
  unfold accumulate, bproduct. rewrite EL.
  rewrite (for_sum_eq _ (fun q => xor_popcount (selem lhs k n q i) (selem rhs k m q j))).
  - rewrite Z.add_0_l. f_equal.
    rewrite (sum_extend k (round_up k kr)); [|lia|].
    2:{ intros q Hq. unfold selem. destruct (Z.ltb_spec q k); [lia|reflexivity]. }
    apply sum_ext. intros q Hq. unfold selem.
    destruct (Z.ltb_spec q k), (Z.ltb_spec i n), (Z.ltb_spec j m); try lia. reflexivity.
  - lia.
  - intros q acc Hq. rewrite HL by lia. cbn [bind]. rewrite HR by lia. reflexivity.
Qed.

(** ** The kernels *)
Section Kernels.
  Variables (PL PR : pmatrix) (n m : Z) (acc : Z -> Z -> Z).
  Hypothesis (Hn : 0 <= n) (Hm : 0 <= m).
  Hypothesis Hacc : forall i j, 0 <= i < n -> 0 <= j < m -> accumulate PL PR i j = Some (acc i j).

  Definition blk_pos (sr sc er ec : Z) (p : Z) : Prop :=
    exists i j, sr <= i < Z.min er n /\ sc <= j < Z.min ec m /\ p = i + j * n.

  Lemma kernel_val_ok {T} (run : Z -> Z -> option T) (v : Z -> Z -> T) P V sr sc er ec :
    (forall i j, 0 <= i < n -> 0 <= j < m -> run (acc i j) i = Some (v i j)) ->
    (forall i j, 0 <= i < n -> 0 <= j < m -> P (i + j * n) /\ V (i + j * n) = v i j) ->
    0 <= sr -> 0 <= sc ->
    emits P V (blk_pos sr sc er ec) (kernel_val PL PR run n m sr sc er ec).
  Proof.
    intros Hrun HPV Hsr Hsc. unfold kernel_val.
    eapply emits_weaken; [apply (emits_for P V (fun i p => exists j, sc <= j < Z.min ec m /\ p = i + j * n))|].
    - intros i Hi. eapply emits_weaken; [apply (emits_for P V (fun j p => p = i + j * n))|].
      + intros j Hj. rewrite Hacc by lia. cbn [bind]. rewrite Hrun by lia. cbn [bind].
        destruct (HPV i j ltac:(lia) ltac:(lia)) as [HP HVe]. apply emits_one; auto.
      + intros p (j & Hj & ->). exists j. auto.
    - intros p (i & j & Hi & Hj & ->). exists i. split; [exact Hi|]. exists j. auto.
  Qed.

  (** The word that bitpacked output must hold. *)
  Definition bword (v : Z -> Z -> bool) (w j : Z) : Z :=
    bitsn 32 (fun b => (32 * w + b <? n) && v (32 * w + b) j).
  Definition blk_wpos (sr sc er ec : Z) (p : Z) : Prop :=
    exists w j, 0 <= w /\ 32 * w < n /\ sr <= 32 * w < er /\ sc <= j < Z.min ec m /\ p = w + j * words n.

  Lemma kernel_bits_ok (run : Z -> Z -> option bool) (v : Z -> Z -> bool) P V sr sc er ec :
    (forall i j, 0 <= i < n -> 0 <= j < m -> run (acc i j) i = Some (v i j)) ->
    (forall w j, 0 <= w -> 32 * w < n -> 0 <= j < m -> P (w + j * words n) /\ V (w + j * words n) = bword v w j) ->
    0 <= sr -> 0 <= sc -> sr mod 32 = 0 -> er mod 32 = 0 ->
    emits P V (blk_wpos sr sc er ec) (kernel_bits PL PR run n m sr sc er ec).
  Proof.
    intros Hrun HPV Hsr Hsc Hsm Hem. unfold kernel_bits.
    assert (ECD : CeilDiv n 32 = words n).
    { unfold CeilDiv, words. rewrite Z.quot_div_nonneg by lia. f_equal. lia. }
    rewrite ECD.
    eapply emits_weaken; [apply (emits_for P V (fun j p => exists w, 0 <= w /\ 32 * w < n /\ sr <= 32 * w < er /\ p = w + j * words n))|].
    2:{ intros p (w & j & H1 & H2 & H3 & H4 & ->). exists j. split; [exact H4|]. exists w. auto. }
    intros j Hj l Hl. apply wp_bind.
    set (ce := Z.min er n).
    set (I := fun i (s : log Z * Z) => let (l', col) := s in
       good P V l' /\ incl l l' /\
       (forall w, sr <= 32 * w -> 32 * w < ce -> (32 * w + 32 <= i \/ ce <= i) -> exists u, In (w + j * words n, u) l') /\
       (i < ce -> 0 <= col /\ forall b, 0 <= b -> Z.testbit col b = (b <? i mod 32) && v (32 * (i / 32) + b) j)).
    apply (for_wp I).
    - unfold I. split; [exact Hl|]. split; [apply incl_refl|]. split; [intros; lia|].
      intros _. split; [lia|]. intros b Hb. rewrite Z.bits_0, Hsm. destruct (Z.ltb_spec b 0); [lia|reflexivity].
    - intros i (l', col) Hi (Hg & Hinc & Hcv & Hcol). unfold ce in Hi.
      rewrite Hacc by lia. cbn [bind]. rewrite Hrun by lia. cbn [bind].
      destruct (Hcol ltac:(unfold ce; lia)) as [Hc0 Hcb].
      replace ((i - sr) mod 32) with (i mod 32) by lia.
      replace ((i - sr + 1) mod 32) with ((i + 1) mod 32) by lia.
      set (col' := setbit_if (v i j) col (i mod 32)).
      assert (Hc' : 0 <= col') by (apply setbit_if_nonneg; lia).
      assert (Hb' : forall b, 0 <= b -> Z.testbit col' b = (b <=? i mod 32) && v (32 * (i / 32) + b) j).
      { intros b Hb. unfold col'. rewrite testbit_setbit_if by lia. rewrite Hcb by exact Hb.
        destruct (Z.eqb_spec (i mod 32) b) as [Eb|Eb].
        - replace (32 * (i / 32) + b) with i by lia.
          destruct (Z.ltb_spec b (i mod 32)); [lia|]. destruct (Z.leb_spec b (i mod 32)); [|lia]. reflexivity.
        - rewrite orb_false_r.
          destruct (Z.ltb_spec b (i mod 32)); destruct (Z.leb_spec b (i mod 32)); try lia; reflexivity. }
      assert (HPw := HPV (i / 32) j ltac:(lia) ltac:(lia) ltac:(lia)).
      assert (Hword : ((i + 1) mod 32 = 0 \/ i + 1 = ce) -> col' = V (i / 32 + j * words n)).
      { intros Hlast. destruct HPw as [_ ->]. unfold bword. apply Z.bits_inj'. intros b Hb.
        rewrite Hb' by exact Hb. rewrite testbit_bitsn by exact Hb. change (Z.of_nat 32) with 32.
        destruct (Z.leb_spec b (i mod 32)), (Z.ltb_spec b 32), (Z.ltb_spec (32 * (i / 32) + b) n); cbn;
          try reflexivity; unfold ce in *; lia. }
      destruct (((i + 1) mod 32 =? 0) || (i + 1 =? ce)) eqn:El; cbn [wp].
      + unfold I; cbv beta iota zeta. assert (Hlast : (i + 1) mod 32 = 0 \/ i + 1 = ce) by (unfold ce; lia).
        rewrite (Hword Hlast). split; [apply good_cons; [apply HPw|exact Hg]|].
        split; [intros e He; right; apply Hinc, He|]. split.
        * intros w H1 H2 H3. destruct (Z.eq_dec w (i / 32)) as [->|Hne]; [eexists; left; reflexivity|].
          destruct (Hcv w H1 H2) as (u & Hu); [|exists u; right; exact Hu].
          destruct H3; [left; lia|]. left. unfold ce in *. lia.
        * intros Hlt. split; [lia|]. intros b Hb. rewrite Z.bits_0.
          replace ((i + 1) mod 32) with 0 by (unfold ce in *; lia). destruct (Z.ltb_spec b 0); [lia|reflexivity].
      + unfold I; cbv beta iota zeta. split; [exact Hg|]. split; [exact Hinc|]. split.
        * intros w H1 H2 H3. apply (Hcv w H1 H2). unfold ce in *. lia.
        * intros Hlt. split; [exact Hc'|]. intros b Hb. rewrite Hb' by exact Hb.
          replace ((i + 1) / 32) with (i / 32) by lia. f_equal.
          destruct (Z.leb_spec b (i mod 32)), (Z.ltb_spec b ((i + 1) mod 32)); lia.
    - intros (l', col) (Hg & Hinc & Hcv & _). apply wp_ret. split; [exact Hg|]. split; [exact Hinc|].
      intros p (w & H1 & H2 & H3 & ->). apply (Hcv w); [lia|unfold ce; lia|]. right. lia.
  Qed.
End Kernels.

(** ** RunBGemmKernelTyped *)
Lemma for_step_ext {S} lo hi step (b1 b2 : Z -> S -> option S) s :
  (forall i t, b1 i t = b2 i t) -> for_step lo hi step b1 s = for_step lo hi step b2 s.
Proof. intros H. unfold for_step. apply for_ext. auto. Qed.

Lemma typed_ok {T} P (V : Z -> T) (C : Z -> Z -> Z -> Z -> Z -> Prop) kernel fat lc rc b rows cols
    (D : Z -> Prop) :
  0 < lc -> 0 < rc -> block_ok rows cols lc rc b ->
  (forall sr sc er ec, 0 <= sr -> 0 <= sc -> sr mod lc = 0 -> (er - sr) mod lc = 0 ->
     emits P V (C sr sc er ec) (kernel sr sc er ec)) ->
  (forall p, D p -> exists i j, b_sr b <= i < b_er b /\ b_sc b <= j < b_ec b /\
     forall sr sc er ec, b_sr b <= sr -> er <= b_er b -> sr mod lc = 0 -> er mod lc = 0 ->
       sr <= i < er -> sc <= j < ec -> C sr sc er ec p) ->
  emits P V D (RunBGemmKernelTyped fat lc rc kernel b).
Proof.
  intros Hlc Hrc Hb Hk HD. destruct Hb as [B1 B2 B3 B4 B5 B6 B7 B8].
  assert (Eer : b_er b mod lc = 0).
  { replace (b_er b) with (b_sr b + (b_er b - b_sr b)) by lia.
    rewrite Zplus_mod, B5, B7. reflexivity. }
  unfold RunBGemmKernelTyped. destruct fat.
  - eapply emits_weaken; [apply Hk; auto; lia|].
    intros p Hp. destruct (HD p Hp) as (i & j & Hi & Hj & HC). apply HC; auto; lia.
  - eapply emits_weaken.
    + apply (emits_for_step P V (fun col p => exists t, 0 <= t /\ b_sr b + t * lc < b_er b /\
         C (b_sr b + t * lc) col (Z.min (b_sr b + t * lc + lc) (b_er b)) (Z.min (col + rc) (b_ec b)) p)).
      * exact Hrc.
      * intros u Hu Hul.
        apply (emits_for_step P V (fun row p =>
          C row (b_sc b + u * rc) (Z.min (row + lc) (b_er b)) (Z.min (b_sc b + u * rc + rc) (b_ec b)) p)).
        { exact Hlc. }
        intros t Ht Htl. apply Hk.
        { nia. } { nia. } { rewrite Z.mod_add by lia. exact B5. }
        assert (Em : Z.min (b_sr b + t * lc + lc) (b_er b) = b_sr b + t * lc + lc).
        { apply Z.min_l. assert (D7 := Z.div_mod (b_er b - b_sr b) lc ltac:(lia)). rewrite B7 in D7.
          set (x := (b_er b - b_sr b) / lc) in *. clearbody x. clear - D7 Htl Hlc. assert (t < x) by (apply (Z.mul_lt_mono_pos_l lc); lia). assert (lc * (t + 1) <= lc * x) by (apply Z.mul_le_mono_nonneg_l; lia). lia. }
        rewrite Em. replace (b_sr b + t * lc + lc - (b_sr b + t * lc)) with lc by lia. apply Z.mod_same. lia.
    + intros p Hp. destruct (HD p Hp) as (i & j & Hi & Hj & HC). 
      assert (Dj := Z.div_mod (j - b_sc b) rc ltac:(lia)).
      assert (Mj := Z.mod_pos_bound (j - b_sc b) rc Hrc).
      assert (Di := Z.div_mod (i - b_sr b) lc ltac:(lia)).
      assert (Mi := Z.mod_pos_bound (i - b_sr b) lc Hlc).
      set (u := (j - b_sc b) / rc) in *. set (t := (i - b_sr b) / lc) in *.
      assert (Hu : 0 <= u) by (unfold u; apply Z.div_pos; lia).
      assert (Ht : 0 <= t) by (unfold t; apply Z.div_pos; lia).
      clearbody u t. clear B7 B8. assert (Htl : 0 <= t * lc) by (apply Z.mul_nonneg_nonneg; lia).
      exists u. split; [exact Hu|]. split; [lia|].
      exists t. split; [exact Ht|]. split; [lia|].
      apply HC; try lia.
      * rewrite Z.mod_add by lia. exact B5.
      * apply Z.min_case; [|exact Eer].
        replace (b_sr b + t * lc + lc) with (b_sr b + (t + 1) * lc) by ring.
        rewrite Z.mod_add by lia. exact B5.
Qed.

(** ** BGemm *)
Section Top.
  Variables (kr lc rc n k m : Z) (S : schedule) (lhs rhs : list Z).
  Hypothesis (Hkr : 0 < kr) (Hlc : 0 < lc) (Hrc : 0 < rc) (Hn : 0 <= n) (Hk : 0 <= k) (Hm : 0 <= m).
  Hypothesis Hl : zlen lhs = n * k.
  Hypothesis Hr : zlen rhs = m * k.
  Hypothesis HS : schedule_ok kr lc rc n k m S.

  Lemma bgemm_frame {T} (kernel : pmatrix -> pmatrix -> Z -> Z -> Z -> Z -> Z -> Z -> log T -> option (log T)) dst Q :
    (forall PL PR,
       (forall i j, 0 <= i < n -> 0 <= j < m -> accumulate PL PR i j = Some (bproduct k lhs rhs i j)) ->
       concurrently (map (fun b => RunBGemmKernelTyped (sc_fat S) lc rc (kernel PL PR n m) b []) (sc_blocks S)) dst Q) ->
    BGemm kr lc rc S kernel n k m lhs rhs dst Q.
  Proof.
    intros H. destruct HS as [S1 S2 S3 S4 S5 S6 S7 S8 S9 S10]. unfold BGemm.
    eapply concurrently_mono; [apply (pack_all kr lc lhs k n (sc_lstride S)); auto|].
    intros L HL. eapply concurrently_mono; [apply (pack_all kr rc rhs k m (sc_rstride S)); auto|].
    intros R HR. cbv zeta. apply H. intros i j Hi Hj.
    eapply (accumulate_bproduct kr _ _ lhs rhs n k m i j); eauto.
  Qed.

  Lemma bgemm_val_ok {T} (run : Z -> Z -> option T) (v : Z -> Z -> T) dst :
    (forall i j, 0 <= i < n -> 0 <= j < m -> run (bproduct k lhs rhs i j) i = Some (v i j)) ->
    zlen dst = m * n ->
    BGemm kr lc rc S (fun PL PR => kernel_val PL PR run) n k m lhs rhs dst (fun dst' =>
      zlen dst' = zlen dst /\
      forall i j, 0 <= i < n -> 0 <= j < m -> rd dst' (j * n + i) = Some (v i j)).
  Proof.
    intros Hrun Hd. apply bgemm_frame. intros PL PR Hacc.
    destruct HS as [_ _ _ _ S5 S6 _ _ _ _]. rewrite Forall_forall in S5.
    set (P := fun p => exists i j, 0 <= i < n /\ 0 <= j < m /\ p = i + j * n).
    set (V := fun p => v (p mod n) (p / n)).
    assert (HV : forall i j, 0 <= i < n -> 0 <= j < m -> V (i + j * n) = v i j).
    { intros i j Hi Hj. unfold V. rewrite Z.mod_add, Z.div_add by lia.
      rewrite Z.mod_small, Z.div_small by lia. reflexivity. }
    eapply concurrently_mono.
    - apply (concurrently_emits P V (fun b => blk_pos n m (b_sr b) (b_sc b) (b_er b) (b_ec b))
               (fun b => RunBGemmKernelTyped (sc_fat S) lc rc (kernel_val PL PR run n m) b)).
      + intros p (i & j & Hi & Hj & ->). rewrite Hd. nia.
      + intros b Hb. specialize (S5 b Hb).
        apply (typed_ok P V (blk_pos n m) _ (sc_fat S) lc rc b n m); auto.
        * intros sr sc er ec Hsr Hsc _ _. apply kernel_val_ok with (acc := bproduct k lhs rhs) (v := v); auto.
          intros i j Hi Hj. split; [exists i, j; auto|apply HV; auto].
        * intros p (i & j & Hi & Hj & ->). exists i, j. split; [lia|]. split; [lia|].
          intros sr sc er ec H1 H2 _ _ H3 H4. exists i, j. split; [lia|]. split; [lia|reflexivity].
      + intros p (i & j & Hi & Hj & ->). destruct (S6 i j Hi Hj) as (b & Hb & H1 & H2).
        exists b. split; [exact Hb|]. exists i, j. split; [lia|]. split; [lia|reflexivity].
    - intros d (Hlen & Hc & _). split; [exact Hlen|]. intros i j Hi Hj.
      replace (j * n + i) with (i + j * n) by ring. rewrite Hc by (exists i, j; auto).
      f_equal. apply HV; auto.
  Qed.

  Lemma bgemm_bits_ok (run : Z -> Z -> option bool) (v : Z -> Z -> bool) dst :
    lc mod 32 = 0 ->
    (forall i j, 0 <= i < n -> 0 <= j < m -> run (bproduct k lhs rhs i j) i = Some (v i j)) ->
    zlen dst = m * words n ->
    BGemm kr lc rc S (fun PL PR => kernel_bits PL PR run) n k m lhs rhs dst (fun dst' =>
      packed dst' m n /\
      forall i j, 0 <= i < n -> 0 <= j < m -> bit_of dst' (words n) j i = v i j).
  Proof.
    intros H32 Hrun Hd. apply bgemm_frame. intros PL PR Hacc.
    destruct HS as [_ _ _ _ S5 S6 _ _ _ _]. rewrite Forall_forall in S5.
    assert (Hw : 32 * words n < n + 32 /\ n <= 32 * words n) by (unfold words; lia).
    set (W := words n) in *.
    set (P := fun p => exists w j, 0 <= w < W /\ 0 <= j < m /\ p = w + j * W).
    set (V := fun p => bword n v (p mod W) (p / W)).
    assert (HV : forall w j, 0 <= w < W -> 0 <= j < m -> V (w + j * W) = bword n v w j).
    { intros i j Hi Hj. unfold V. rewrite Z.mod_add, Z.div_add by lia.
      rewrite Z.mod_small, Z.div_small by lia. reflexivity. }
    assert (Hmul : forall x, x mod lc = 0 -> x mod 32 = 0).
    { intros x Hx. apply Z.mod_divide; [lia|]. apply Z.divide_trans with lc; apply Z.mod_divide; lia. }
    eapply concurrently_mono.
    - apply (concurrently_emits P V (fun b => blk_wpos n m (b_sr b) (b_sc b) (b_er b) (b_ec b))
               (fun b => RunBGemmKernelTyped (sc_fat S) lc rc (kernel_bits PL PR run n m) b)).
      + intros p (i & j & Hi & Hj & ->). rewrite Hd. nia.
      + intros b Hb. specialize (S5 b Hb).
        apply (typed_ok P V (blk_wpos n m) _ (sc_fat S) lc rc b n m); auto.
        * intros sr sc er ec Hsr Hsc Hsm Hem. apply kernel_bits_ok with (acc := bproduct k lhs rhs) (v := v); auto.
          -- intros w j H1 H2 Hj. fold W. split; [exists w, j; split; [lia|auto]|apply HV; auto; lia].
          -- apply Hmul in Hem. apply Hmul in Hsm. lia.
        * intros p (w & j & H0 & H1 & H2 & H3 & ->). exists (32 * w), j. split; [lia|]. split; [lia|].
          intros sr sc er ec G1 G2 G3 G4 G5 G6. exists w, j. repeat split; try lia.
      + intros p (w & j & Hi & Hj & ->). destruct (S6 (32 * w) j ltac:(lia) Hj) as (b & Hb & H1 & H2).
        exists b. split; [exact Hb|]. exists w, j. repeat split; try lia.
    - intros d (Hlen & Hc & _).
      assert (Hbit : forall q c, 0 <= q < m -> 0 <= c < 32 * W -> bit_of d W q c = (c <? n) && v c q).
      { intros q c Hq Hcc. unfold bit_of. replace (q * W + c / 32) with (c / 32 + q * W) by ring.
        rewrite Hc by (exists (c / 32), q; split; [lia|auto]). rewrite HV by lia. unfold bword.
        rewrite testbit_bitsn by lia. change (Z.of_nat 32) with 32.
        replace (32 * (c / 32) + c mod 32) with c by lia.
        destruct (Z.ltb_spec (c mod 32) 32); [reflexivity|lia]. }
      split; [split; [|split]|].
      + rewrite Hlen. exact Hd.
      + intros i w Hi. assert (Hb := rd_bounds _ _ _ Hi). rewrite Hlen, Hd in Hb. fold W in Hb.
        assert (0 < W) by (destruct (Z.eq_dec W 0) as [E0|]; [rewrite E0 in *; lia|lia]).
        rewrite (Z.div_mod i W), Z.add_comm, Z.mul_comm in Hi by lia.
        assert (B1 := Z.mod_pos_bound i W ltac:(lia)).
        assert (B2 : 0 <= i / W < m) by (split; [apply Z.div_pos; lia|apply Z.div_lt_upper_bound; lia]).
        rewrite Hc in Hi by (exists (i mod W), (i / W); auto). injection Hi as <-.
        rewrite HV by auto. unfold bword. apply word_of_bits; [apply bitsn_nonneg|].
        intros b Hb32. rewrite testbit_bitsn by lia. change (Z.of_nat 32) with 32.
        destruct (Z.ltb_spec b 32); [lia|reflexivity].
      + intros q c Hq Hcc. rewrite Hbit by lia. destruct (Z.ltb_spec c n); [lia|reflexivity].
      + intros i j Hi Hj. rewrite Hbit by lia. destruct (Z.ltb_spec i n); [reflexivity|lia].
  Qed.
End Top.
