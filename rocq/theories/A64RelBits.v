(** * A64RelBits: BGEMM with the 8x4 assembly kernel and bit-packed output. *)
From Verif Require Import Base Spec Bits Log OutputTransform Bgemm BgemmProofs A64 A64Bgemm A64Lemmas A64K44 A64Store A64Trans A64Seg A64Block44 A64Loop44 A64Kernel44
  A64Block84 A64Rel A64Bits84 A64BitsW84 IndirectRun.
Open Scope Z_scope.

Section TopBits.
  Variables (ops : nops) (o : otparams) (n k m : Z) (S : schedule) (lhs rhs dst : list Z).
  Hypothesis (Hk : 1 <= k < 2 ^ 24) (Hl : zlen lhs = n * k) (Hr : zlen rhs = m * k).
  Hypothesis (HS : schedule_ok 4 8 4 n k m S) (Hne : Forall nonempty (sc_blocks S)).
  Hypothesis (Hn : 0 <= n < 2 ^ 31 - 8) (Hm : 0 <= m < 2 ^ 31 - 8)
    (Hlb : 4 * sc_lstride S < 2 ^ 32) (Hrsb : 4 * sc_rstride S < 2 ^ 32) (HT : th_ok o (round_up n 8)) (Hd : zlen dst = 4 * (m * words n)).
  Definition bitw (i j : Z) : bool := wat (p_thr o) i <? bproduct k lhs rhs i j mod 2 ^ 16.
  Definition bytew (j b : Z) : Z := byte8 (fun i => (8 * b + i <? n) && bitw (8 * b + i) j).

  Lemma bgemm_asm_bytes : BGemm_asm ops (k84 DBits) DBits o 8 S n k m lhs rhs dst (fun dst' => zlen dst' = zlen dst /\
    forall j b, 0 <= j < m -> 0 <= b < 4 * words n ->
      rd dst' (4 * (j * words n) + b) = if 8 * b <? n then Some (bytew j b) else rd dst (4 * (j * words n) + b)).
  Proof.
    assert (HW : 32 * words n < n + 32 /\ n <= 32 * words n) by (unfold words; Z.to_euclidean_division_equations; lia).
    assert (EW : CeilDiv n 32 = words n) by (unfold CeilDiv, words; f_equal; lia).
    destruct HS as [S1 S2 S3 S4 S5 S6 S7 S8 S9 S10]. rewrite Forall_forall in S5, Hne.
    assert (HU := round_up_facts k 4 ltac:(lia) ltac:(lia)). assert (HUn := round_up_facts n 8 ltac:(lia) ltac:(lia)). assert (HUm := round_up_facts m 4 ltac:(lia) ltac:(lia)).
    assert (EG : 4 * (round_up k 4 / 4) = round_up k 4) by (Z.to_euclidean_division_equations; lia).
    assert (HG2 : 128 * (round_up k 4 / 4) < 2 ^ 30) by lia.
    unfold BGemm_asm, BGemm_k.
    eapply concurrently_mono; [apply concurrently_zlen, (pack_all 4 8 lhs k n (sc_lstride S)); auto; lia|]. intros L [ZL HL].
    eapply concurrently_mono; [apply concurrently_zlen, (pack_all 4 4 rhs k m (sc_rstride S)); auto; lia|]. intros R [ZR HR].
    set (G := round_up k 4 / 4) in *. cbv zeta. set (bs := flat_map _ _).
    assert (HB : forall b, In b bs -> block_ok n m 8 4 b /\ nonempty b).
    { intros b Hb. apply in_flat_map in Hb. destruct Hb as (b0 & Hb0 & Hb). exact (in_calls _ _ _ 8 4 b0 b ltac:(lia) ltac:(lia) (S5 b0 Hb0) (Hne b0 Hb0) Hb). }
    assert (HK : forall b, In b bs -> call_ok 8 DBits o L R (sc_lstride S) (sc_rstride S) G n m (b_sr b) (b_sc b) (b_er b) (b_ec b) /\ th_ok o (b_er b)).
    { intros b Hb. destruct (HB b Hb) as [[B1 B2 B3 B4 B5 B6 B7 B8] [N1 N2]].
      assert (Me : b_er b mod 8 = 0) by (Z.to_euclidean_division_equations; lia).
      assert (Mc : b_ec b mod 4 = 0) by (Z.to_euclidean_division_equations; lia).
      assert (Ee : b_er b <= round_up n 8) by (Z.to_euclidean_division_equations; lia).
      assert (Ec : b_ec b <= round_up m 4) by (Z.to_euclidean_division_equations; lia).
      split.
      - constructor; try assumption; try lia.
        + cbn [esize is_float]. lia.
        + rewrite ZL, S9, Z.mul_comm. apply Z.mul_le_mono_nonneg_l; lia.
        + rewrite ZR, S10, Z.mul_comm. apply Z.mul_le_mono_nonneg_l; lia.
      - destruct HT. constructor; [assumption|lia]. }
    assert (HV : forall b i j, In b bs -> b_sr b <= i < Z.min (b_er b) n -> b_sc b <= j < Z.min (b_ec b) m -> hb o L R (sc_lstride S) (sc_rstride S) G i j = bitw i j).
    { intros b i j Hb Hi Hj. destruct (HK b Hb) as [[] _]. unfold hb, hbit, bitw, pacc16. do 2 f_equal.
      assert (Some (pacc 8 L R (sc_lstride S) (sc_rstride S) G i j) = Some (bproduct k lhs rhs i j)); [|congruence].
      rewrite <- (accumulate_pacc 8 L R (sc_lstride S) (sc_rstride S) G (b_er b) (b_ec b)) by (assumption || lia).
      rewrite EG. eapply (accumulate_bproduct 4 _ _ lhs rhs n k m i j); eauto; lia. }
    assert (HA : forall b lg, In b bs -> asm_run ops (k84 DBits) DBits o 8 L R (sc_lstride S) (sc_rstride S) G n m b lg ->
      forall e, In e lg <-> storedB o L R (sc_lstride S) (sc_rstride S) G n m (b_sr b) (b_sc b) (b_er b) (b_ec b) e).
    { intros b lg Hb (fuel & f & g & tmp & Ht & E). destruct (HK b Hb) as [K T]. unfold asm_call, k_call, K64 in E.
      destruct (asm84_bits ops o L R (sc_lstride S) (sc_rstride S) G n m (b_sr b) (b_sc b) (b_er b) (b_ec b) f g tmp HG2 K T) as (n0 & H). unfold asm_kernel in *.
      destruct (run _ _ _ fuel _ _) as [s|] eqn:Er; [|discriminate]. destruct (run _ _ _ n0 _ _) as [s0|] eqn:Er0; [|contradiction]. cbn [bind wp] in *.
      assert (s = s0).
      { assert (A1 := run_more _ _ _ fuel (Nat.max fuel n0) _ _ _ (Nat.le_max_l _ _) Er). assert (A2 := run_more _ _ _ n0 (Nat.max fuel n0) _ _ _ (Nat.le_max_r _ _) Er0). congruence. }
      subst s0. injection E as <-. exact H. }
    split.
    { intros b Hb f g tmp Ht. destruct (HK b Hb) as [K T].
      destruct (asm84_bits ops o L R (sc_lstride S) (sc_rstride S) G n m (b_sr b) (b_sc b) (b_er b) (b_ec b) f g tmp HG2 K T) as (n0 & H).
      apply wp_iff in H. destruct H as (lg & En & _). exists n0, lg. intros n' Hn'. unfold asm_call, k_call, K64, asm_kernel in *. destruct (run _ _ _ n0 _ _) as [s|] eqn:Er; [|discriminate].
      rewrite (run_more _ _ _ _ _ _ _ _ Hn' Er). exact En. }
    intros logs Hlogs.
    set (W := words n) in *.
    set (P := fun p => exists j b, 0 <= j < m /\ 0 <= b /\ 8 * b < n /\ p = 4 * (j * W) + b).
    set (V := fun p => bytew (p / (4 * W)) (p mod (4 * W))).
    assert (HVP : forall j b, 0 <= j < m -> 0 <= b < 4 * W -> V (4 * (j * W) + b) = bytew j b).
    { intros j b Hj Hb. unfold V.
      replace ((4 * (j * W) + b) / (4 * W)) with j by (apply (Z.div_unique_pos _ _ _ b); lia).
      replace ((4 * (j * W) + b) mod (4 * W)) with b by (apply (Z.mod_unique_pos _ _ j b); lia). reflexivity. }
    assert (Hin : forall lg, In lg logs -> exists b, In b bs /\ asm_run ops (k84 DBits) DBits o 8 L R (sc_lstride S) (sc_rstride S) G n m b lg).
    { clear - Hlogs. induction Hlogs as [|b lg bs logs Hb _ IH]; [intros lg []|]. intros l [<- | Hl]; [exists b; split; [left; reflexivity|exact Hb]|].
      destruct (IH l Hl) as (b' & Hb' & A). exists b'. split; [right; exact Hb'|exact A]. }
    assert (Hin2 : forall b, In b bs -> exists lg, In lg logs /\ asm_run ops (k84 DBits) DBits o 8 L R (sc_lstride S) (sc_rstride S) G n m b lg).
    { clear - Hlogs. induction Hlogs as [|b lg bs logs Hb _ IH]; [intros b []|]. intros b0 [<- | Hl]; [exists lg; split; [left; reflexivity|exact Hb]|].
      destruct (IH b0 Hl) as (b' & Hb' & A). exists b'. split; [right; exact Hb'|exact A]. }
    assert (Bd : forall j b, 0 <= j < m -> 0 <= b < 4 * W -> 0 <= 4 * (j * W) + b < zlen dst).
    { intros j b Hj Hb. rewrite Hd. clear - Hj Hb. nia. }
    assert (HP : forall p, P p -> 0 <= p < zlen dst).
    { intros p (j & b & Hj & Hb & Hb8 & ->). apply Bd; lia. }
    destruct (concurrently_ok P V (map Some logs) dst HP) as (logs' & El & H).
    - apply Forall_forall. intros x Hx. apply in_map_iff in Hx. destruct Hx as (lg & <- & Hx). cbn [wp]. destruct (Hin lg Hx) as (b & Hb & Ha).
      intros e He. apply (HA b lg Hb Ha) in He. destruct He as (r & c & Hr' & M8 & Hc & ->). cbn [fst snd].
      destruct (HK b Hb) as [K _]. destruct (HB b Hb) as [[B1 B2 B3 B4 B5 B6 B7 B8] [N1 N2]]. rewrite EW.
      assert (Rn : r < n) by (Z.to_euclidean_division_equations; lia). assert (E8 : 8 * (r / 8) = r) by (Z.to_euclidean_division_equations; lia).
      split; [exists c, (r / 8); repeat split; lia|]. rewrite HVP by lia. unfold bytew. apply byte8_ext. intros i Hi. rewrite E8.
      destruct (Z.ltb_spec (r + i) n); [|reflexivity]. cbn [andb]. apply (HV b); [exact Hb| |lia]. Z.to_euclidean_division_equations; lia.
    - intros logs' El p (j & b8 & Hj & Hb0 & Hb8 & ->).
      assert (logs' = logs) as ->.
      { clear - El. revert logs' El. induction logs as [|l logs IH]; intros [|l' logs'] E; try discriminate; [reflexivity|]. injection E as -> E. f_equal. auto. }
      destruct (S6 (8 * b8) j ltac:(lia) Hj) as (b0 & Hbb0 & G1 & G2).
      destruct (calls_cover (sc_fat S) n m 8 4 b0 (8 * b8) j ltac:(lia) ltac:(lia) (S5 b0 Hbb0) G1 G2) as (b & Hb & G3 & G4).
      assert (Hb' : In b bs) by (apply in_flat_map; exists b0; auto).
      destruct (Hin2 b Hb') as (lg & Hlg & Ha). exists lg. split; [exact Hlg|]. intros p ->. eexists.
      apply (HA b lg Hb' Ha). exists (8 * b8), j. split; [exact G3|]. split; [rewrite Z.mul_comm; apply Z.mod_mul; lia|]. split; [lia|].
      rewrite EW. replace (8 * b8 / 8) with b8 by (rewrite Z.mul_comm; symmetry; apply Z.div_mul; lia). reflexivity.
    - assert (logs' = logs) as ->.
      { clear - El. revert logs' El. induction logs as [|l logs IH]; intros [|l' logs'] E; try discriminate; [reflexivity|]. injection E as -> E. f_equal. auto. }
      intros order Ho. eapply wp_mono; [apply H, Ho|]. intros d' (D1 & D2 & D3). split; [exact D1|]. intros j b Hj Hb.
      destruct (Z.ltb_spec (8 * b) n).
      + rewrite D2 by (exists j, b; repeat split; lia). rewrite HVP by assumption. reflexivity.
      + apply D3. intros (j' & b' & Hj' & Hb' & Hb8' & E).
        assert (j = j') by (clear - E Hj Hj' Hb Hb' Hb8' HW; assert (b' < 4 * W) by lia; nia). subst j'. lia.
  Qed.
End TopBits.

(** ** The destination as 32-bit words (little endian). *)
Lemma skipn_plus {A} a : forall b (l : list A), skipn a (skipn b l) = skipn (b + a) l.
Proof. induction b as [|b IH]; intros l; [reflexivity|]. destruct l; cbn [skipn plus]; [apply skipn_nil|apply IH]. Qed.
Lemma nth_error_skip {A} i : forall b (l : list A), nth_error (skipn b l) i = nth_error l (b + i).
Proof. induction b as [|b IH]; intros l; [reflexivity|]. destruct l; cbn [skipn plus nth_error]; [destruct i; reflexivity|apply IH]. Qed.
Lemma chunks_nth {A} k : forall n (l : list A) p, (p < n)%nat -> nth_error (chunks k n l) p = Some (firstn k (skipn (k * p) l)).
Proof.
  induction n as [|n IH]; intros l p Hp; [lia|]. cbn [chunks]. destruct p as [|p].
  - rewrite Nat.mul_0_r. reflexivity.
  - cbn [nth_error]. rewrite IH by lia. rewrite skipn_plus. do 3 f_equal. lia.
Qed.
Lemma firstn4_rd l : forall p, (4 * p + 4 <= length l)%nat -> firstn 4 (skipn (4 * p) l) =
  [wat l (4 * Z.of_nat p); wat l (4 * Z.of_nat p + 1); wat l (4 * Z.of_nat p + 2); wat l (4 * Z.of_nat p + 3)].
Proof.
  intros p Hp. assert (W : forall i, (i < 4)%nat -> nth_error (skipn (4 * p) l) i = Some (wat l (4 * Z.of_nat p + Z.of_nat i))).
  { intros i Hi. rewrite nth_error_skip. unfold wat. assert (E : rd l (4 * Z.of_nat p + Z.of_nat i) = nth_error l (4 * p + i)).
    { unfold rd. destruct (Z.ltb_spec (4 * Z.of_nat p + Z.of_nat i) 0); [lia|]. f_equal. lia. }
    rewrite E. destruct (nth_error l (4 * p + i)) eqn:En; [reflexivity|]. apply nth_error_None in En. lia. }
  assert (W0 := W 0%nat ltac:(lia)). assert (W1 := W 1%nat ltac:(lia)). assert (W2 := W 2%nat ltac:(lia)). assert (W3 := W 3%nat ltac:(lia)). clear W.
  destruct (skipn (4 * p) l) as [|a [|b [|c [|d r]]]]; try discriminate. cbn [nth_error] in *. cbn [firstn].
  change (Z.of_nat 0) with 0 in W0. rewrite Z.add_0_r in W0. change (Z.of_nat 1) with 1 in W1. change (Z.of_nat 2) with 2 in W2. change (Z.of_nat 3) with 3 in W3. congruence.
Qed.
Lemma rd_lanes4 l N p : zlen l = 4 * N -> 0 <= p < N ->
  rd (lanes 4 l) p = Some (wat l (4 * p) + 256 * (wat l (4 * p + 1) + 256 * (wat l (4 * p + 2) + 256 * (wat l (4 * p + 3) + 256 * 0)))).
Proof.
  intros Hz Hp. unfold zlen in Hz. unfold lanes, rd. destruct (Z.ltb_spec p 0); [lia|]. rewrite nth_error_map.
  assert (EN : (length l / 4)%nat = Z.to_nat N). { assert (length l = (Z.to_nat N * 4)%nat) as -> by lia. apply Nat.div_mul. lia. }
  rewrite chunks_nth by lia. cbn [option_map]. rewrite firstn4_rd by lia. rewrite Z2Nat.id by lia. reflexivity.
Qed.
Lemma zlen_lanes4 l N : zlen l = 4 * N -> 0 <= N -> zlen (lanes 4 l) = N.
Proof.
  intros Hz Hp. unfold zlen in *. unfold lanes. rewrite map_length.
  assert (EN : (length l / 4)%nat = Z.to_nat N). { assert (length l = (Z.to_nat N * 4)%nat) as -> by lia. apply Nat.div_mul. lia. }
  rewrite EN. assert (C : forall n (x : list Z), length (chunks 4 n x) = n) by (induction n as [|n IH]; intros x; cbn [chunks length]; [reflexivity|rewrite IH; reflexivity]).
  rewrite C. lia.
Qed.
Lemma byte_testbit_low b x c : 0 <= b < 256 -> 0 <= c < 8 -> Z.testbit (b + 256 * x) c = Z.testbit b c.
Proof.
  intros Hb Hc. rewrite <- (Z.mod_pow2_bits_low (b + 256 * x) 8) by lia. f_equal. change (2 ^ 8) with 256. rewrite Z.mul_comm, Z.mod_add by lia. apply Z.mod_small, Hb.
Qed.
Lemma byte_testbit_high b x c : 0 <= b < 256 -> 8 <= c -> Z.testbit (b + 256 * x) c = Z.testbit x (c - 8).
Proof.
  intros Hb Hc. replace c with ((c - 8) + 8) at 1 by ring. rewrite <- Z.div_pow2_bits by lia. f_equal. change (2 ^ 8) with 256. rewrite Z.mul_comm, Z.div_add by lia. rewrite Z.div_small by lia. reflexivity.
Qed.
Lemma bit_lanes l N W j c : zlen l = 4 * N -> Forall (fun x => 0 <= x < 256) l -> 0 <= c < 32 * W -> 0 <= j * W -> j * W + W <= N ->
  bit_of (lanes 4 l) W j c = Z.testbit (wat l (4 * (j * W) + c / 8)) (c mod 8).
Proof.
  intros Hz Hb Hc H1 H2. unfold bit_of. set (q := c / 32). set (r := c mod 32).
  assert (Hq : c = 32 * q + r /\ 0 <= r < 32) by (unfold q, r; Z.to_euclidean_division_equations; lia). destruct Hq as [Ec Hr].
  assert (Hqb : 0 <= q < W) by lia. rewrite (rd_lanes4 l N) by (assumption || lia).
  assert (B : forall i, 0 <= wat l i < 256).
  { intros i. unfold wat. destruct (rd l i) as [v|] eqn:E; [|lia]. rewrite Forall_forall in Hb. apply Hb. unfold rd in E. destruct (i <? 0); [discriminate|]. eapply nth_error_In, E. }
  replace (c / 8) with (4 * q + r / 8) by (Z.to_euclidean_division_equations; lia). replace (c mod 8) with (r mod 8) by (Z.to_euclidean_division_equations; lia).
  replace (4 * (j * W) + (4 * q + r / 8)) with (4 * (j * W + q) + r / 8) by ring. clearbody q r. set (p := 4 * (j * W + q)). clearbody p.
  assert (r / 8 = 0 \/ r / 8 = 1 \/ r / 8 = 2 \/ r / 8 = 3) as [E | [E | [E | E]]] by (Z.to_euclidean_division_equations; lia); rewrite E;
    assert (Em : r mod 8 = r - 8 * (r / 8)) by (Z.to_euclidean_division_equations; lia); rewrite E in Em; rewrite Em.
  - rewrite byte_testbit_low by (apply B || (Z.to_euclidean_division_equations; lia)). f_equal; [f_equal; ring|lia].
  - rewrite byte_testbit_high, byte_testbit_low by (apply B || (Z.to_euclidean_division_equations; lia)). f_equal; ring.
  - rewrite !byte_testbit_high, byte_testbit_low by (apply B || (Z.to_euclidean_division_equations; lia)). f_equal; ring.
  - rewrite !byte_testbit_high, byte_testbit_low by (apply B || (Z.to_euclidean_division_equations; lia)). f_equal; ring.
Qed.
Lemma lanes4_word l N p w : zlen l = 4 * N -> Forall (fun x => 0 <= x < 256) l -> rd (lanes 4 l) p = Some w -> 0 <= N -> word w.
Proof.
  intros Hz Hb Hw HN. assert (Bp := rd_bounds _ _ _ Hw). rewrite (zlen_lanes4 l N) in Bp by assumption. rewrite (rd_lanes4 l N) in Hw by assumption. assert (E9 := f_equal (fun o => match o with Some v => v | None => 0 end) Hw). cbv beta iota in E9. rewrite <- E9.
  assert (B : forall i, 0 <= wat l i < 256).
  { intros i. unfold wat. destruct (rd l i) as [v|] eqn:E; [|lia]. rewrite Forall_forall in Hb. apply Hb. unfold rd in E. destruct (i <? 0); [discriminate|]. eapply nth_error_In, E. }
  assert (B0 := B (4 * p)). assert (B1 := B (4 * p + 1)). assert (B2 := B (4 * p + 2)). assert (B3 := B (4 * p + 3)). clear - B0 B1 B2 B3. unfold word. change (2 ^ 32) with 4294967296.
  generalize dependent (wat l (4 * p)). generalize dependent (wat l (4 * p + 1)). generalize dependent (wat l (4 * p + 2)). generalize dependent (wat l (4 * p + 3)). intros. lia.
Qed.

Section WordsTop.
  Variables (ops : nops) (o : otparams) (n k m : Z) (S : schedule) (lhs rhs dst : list Z).
  Hypothesis (Hk : 1 <= k < 2 ^ 24) (Hl : zlen lhs = n * k) (Hr : zlen rhs = m * k).
  Hypothesis (HS : schedule_ok 4 8 4 n k m S) (Hne : Forall nonempty (sc_blocks S)).
  Hypothesis (Hn : 0 <= n < 2 ^ 31 - 8) (Hm : 0 <= m < 2 ^ 31 - 8)
    (Hlb : 4 * sc_lstride S < 2 ^ 32) (Hrsb : 4 * sc_rstride S < 2 ^ 32) (HT : th_ok o (round_up n 8)) (Hd : zlen dst = 4 * (m * words n)).
  Hypothesis (Hb : Forall (fun x => 0 <= x < 256) dst) (Hz : n mod 32 = 0 \/ Forall (fun x => x = 0) dst).
  Lemma bgemm_asm_words : BGemm_asm ops (k84 DBits) DBits o 8 S n k m lhs rhs dst (fun dst' => zlen dst' = zlen dst /\ packed (lanes 4 dst') m n /\
    forall i j, 0 <= i < n -> 0 <= j < m -> bit_of (lanes 4 dst') (words n) j i = (wat (p_thr o) i <? bproduct k lhs rhs i j mod 2 ^ 16)).
  Proof.
    assert (Mono : forall ops prog t o rb S n k m lhs rhs dst (Q Q' : list Z -> Prop), (forall d, Q d -> Q' d) ->
      BGemm_asm ops prog t o rb S n k m lhs rhs dst Q -> BGemm_asm ops prog t o rb S n k m lhs rhs dst Q').
    { clear. intros ops prog t o rb S n k m lhs rhs dst Q Q' HQ H. unfold BGemm_asm, BGemm_k in *. eapply concurrently_mono; [exact H|]. cbv beta. intros L HL.
      eapply concurrently_mono; [exact HL|]. cbv beta zeta. intros R [A B]. split; [exact A|]. intros logs Hlogs order Ho. eapply wp_mono; [apply (B logs Hlogs order Ho)|exact HQ]. }
    assert (HW : 32 * words n < n + 32 /\ n <= 32 * words n) by (unfold words; Z.to_euclidean_division_equations; lia).
    eapply Mono; [|apply bgemm_asm_bytes; assumption]. cbv beta. intros d [Zd D].
    set (W := words n) in *.
    assert (HN : 0 <= m * W) by (apply Z.mul_nonneg_nonneg; lia).
    assert (Cell : forall p, 0 <= p < 4 * (m * W) -> exists j b, 0 <= j < m /\ 0 <= b < 4 * W /\ p = 4 * (j * W) + b).
    { intros p Hp. assert (HW4 : 0 < 4 * W) by (destruct (Z.eq_dec W 0) as [E0|]; [rewrite E0 in Hp; lia|lia]). exists (p / (4 * W)), (p mod (4 * W)).
      assert (Dm := Z.div_mod p (4 * W) ltac:(lia)). assert (Bm := Z.mod_pos_bound p (4 * W) HW4).
      split; [|split; [lia|lia]]. split; [apply Z.div_pos; lia|apply Z.div_lt_upper_bound; lia]. }
    assert (Hbd : Forall (fun x => 0 <= x < 256) d).
    { apply Forall_forall. intros x Hx. apply In_nth_error in Hx. destruct Hx as (p & Hx).
      assert (Hx' : rd d (Z.of_nat p) = Some x) by (unfold rd; destruct (Z.ltb_spec (Z.of_nat p) 0); [lia|rewrite Nat2Z.id; exact Hx]).
      assert (Bp := rd_bounds _ _ _ Hx'). rewrite Zd, Hd in Bp. destruct (Cell _ Bp) as (j & b & Hj & Hbb & E). rewrite E, D in Hx' by assumption.
      destruct (8 * b <? n); [injection Hx' as <-; apply byte8_range|]. rewrite Forall_forall in Hb. apply Hb. unfold rd in Hx'. destruct (_ <? 0); [discriminate|]. eapply nth_error_In, Hx'. }
    assert (Zd' : zlen d = 4 * (m * W)) by lia.
    assert (Hbit : forall j c, 0 <= j < m -> 0 <= c < 32 * W -> bit_of (lanes 4 d) W j c = (c <? n) && bitw o k lhs rhs c j).
    { intros j c Hj Hc. rewrite (bit_lanes d (m * W)) by (assumption || lia || nia). unfold wat. rewrite D by (try assumption; Z.to_euclidean_division_equations; lia).
      assert (Ec : c = 8 * (c / 8) + c mod 8 /\ 0 <= c mod 8 < 8) by (Z.to_euclidean_division_equations; lia). destruct Ec as [Ec Hc8].
      destruct (Z.ltb_spec (8 * (c / 8)) n).
      - unfold bytew. rewrite byte8_testbit by exact Hc8. rewrite <- Ec. reflexivity.
      - destruct Hz as [Hy | Hy]; [exfalso; unfold W, words in Hc; Z.to_euclidean_division_equations; lia|].
        assert (E0 : match rd dst (4 * (j * W) + c / 8) with Some v => v | None => 0 end = 0).
        { destruct (rd dst _) as [v|] eqn:Ev; [|reflexivity]. rewrite Forall_forall in Hy. apply Hy. unfold rd in Ev. destruct (_ <? 0); [discriminate|]. eapply nth_error_In, Ev. }
        rewrite E0, Z.testbit_0_l. destruct (Z.ltb_spec c n); [lia|reflexivity]. }
    split; [exact Zd|]. split; [split; [|split]|].
    - fold W. apply zlen_lanes4; assumption.
    - intros p w Hw. exact (lanes4_word d _ p w Zd' Hbd Hw HN).
    - intros j c Hj Hc. fold W in Hc |- *. rewrite Hbit by lia. destruct (Z.ltb_spec c n); [lia|reflexivity].
    - intros i j Hi Hj. rewrite Hbit by lia. destruct (Z.ltb_spec i n); [reflexivity|lia].
  Qed.
End WordsTop.
