(** * Properties C58-C61: the 32-bit Arm assembly BGEMM kernel, and the rounding of
    int8 outputs on the different kernels. *)
From Verif Require Import Base Spec Bits Log Float32 OutputTransform Bgemm BgemmProofs A64 A64Bgemm A64Lemmas A64K44 A64Store A64Trans A64Seg A64Block44
  A64Loop44 A64Kernel44 A64Stream44 A64Rel A32 A32Block A32Kernel IeeeOps Check Prop_Bgemm Prop_A64.
From Coq Require Import QArith Qabs.
Open Scope Z_scope.

Definition K32 (ops : nops) (t : dtype) (o : otparams) : kernel :=
  fun n f g tmp L R ls rs depth rows cols sr sc er ec => asm_kernel32 ops n t f g tmp L R ls rs depth rows cols sr sc er ec o.
Lemma K32_mono ops t o : fuel_mono (K32 ops t o).
Proof.
  intros n m f g tmp L R ls rs depth rows cols sr sc er ec lg Hnm H. unfold K32, asm_kernel32 in *.
  destruct (run _ _ _ n _ _) as [s|] eqn:Er; [|discriminate]. rewrite (run_more _ _ _ _ _ _ _ _ Hnm Er). exact H.
Qed.
Lemma K32_ok ops t o : nops_ok ops -> is_bits t = false -> k_ok (fun a => a) (a32 ops) t o 4 (K32 ops t o) (fun G => 128 * G < 2 ^ 30).
Proof.
  intros Hops Ht L R ls rs G rows cols sr sc er ec f g tmp Hd K T Htm.
  exact (asm32 ops t o L R ls rs G rows cols sr sc er ec Hops Ht Hd K T f g tmp Htm).
Qed.

(** ** C58: a call of the 32-bit Arm 4x4 kernel terminates and stores exactly the
    bytes of the elements stored by the portable kernel on the same packed operands,
    whatever the registers and the scratch buffer held. For int8 outputs the
    portable kernel is taken with the rounding the instruction sequence implements
    ([a32]: fixed point with 8 fractional bits, then a rounding shift; see C60);
    for float outputs it is the same transform. *)
Theorem C58_asm_arm32_equals_portable ops t o L R ls rs G rows cols sr sc er ec f g tmp :
  nops_ok ops -> is_bits t = false -> p_cmin o <= p_cmax o -> 128 * G < 2 ^ 30 ->
  call_ok 4 t o L R ls rs G rows cols sr sc er ec -> tr_ok o er -> 16 * Z.of_nat (esize t) <= zlen tmp ->
  exists lp, kernel_val (pmat 4 L ls G) (pmat 4 R rs G) (run_of (a32 ops) t o) rows cols sr sc er ec [] = Some lp /\
  (is_float t = true -> kernel_val (pmat 4 L ls G) (pmat 4 R rs G) (run_of ops t o) rows cols sr sc er ec [] = Some lp) /\
  exists n lg, (forall n', (n <= n')%nat -> asm_kernel32 ops n' t f g tmp L R ls rs (4 * G) rows cols sr sc er ec o = Some lg) /\
    bytes_of t lp lg.
Proof.
  intros Hops Ht Hc Hd K T Htm.
  destruct (k_portable (fun a => a) (a32 ops) t o 4 (K32 ops t o) (K32_mono ops t o) ltac:(lia) Hc _ (K32_ok ops t o Hops Ht) L R ls rs G rows cols sr sc er ec f g tmp Hd K T Htm)
    as (lp & A & B).
  exists lp. split; [exact A|]. split; [|exact B]. intros Hf. destruct t; try discriminate. exact A.
Qed.
Print Assumptions C58_asm_arm32_equals_portable.

(** ** C59: BGEMM with the 32-bit Arm kernel: for every legal schedule and every
    interleaving of the byte stores the destination ends up holding the output
    transform of the binary product of every row and column. *)
Theorem C59_bgemm_arm32 ops t o S n k m lhs rhs dst (v : Z -> Z -> Z) :
  nops_ok ops -> is_bits t = false -> p_cmin o <= p_cmax o -> tr_ok o (round_up n 4) ->
  1 <= k < 2 ^ 24 -> 0 <= n < 2 ^ 30 - 8 -> 0 <= m < 2 ^ 31 - 8 -> 4 * sc_lstride S < 2 ^ 32 -> 4 * sc_rstride S < 2 ^ 32 ->
  zlen lhs = n * k -> zlen rhs = m * k -> schedule_ok 4 4 4 n k m S -> Forall nonempty (sc_blocks S) ->
  zlen dst = Z.of_nat (esize t) * (m * n) ->
  (forall i j, 0 <= i < n -> 0 <= j < m ->
     run_of (a32 ops) t o (sum_ k (fun q => xor_popcount (wat lhs (i * k + q)) (wat rhs (j * k + q)))) i = Some (v i j)) ->
  BGemm_k (K32 ops t o) t 4 S n k m lhs rhs dst (fun dst' => zlen dst' = zlen dst /\
    forall i j q, 0 <= i < n -> 0 <= j < m -> 0 <= q < Z.of_nat (esize t) ->
      rd dst' (Z.of_nat (esize t) * (j * n + i) + q) = rd (le_split (esize t) (v i j)) q).
Proof.
  intros Hops Ht Hc T Hk Hn Hm Hl Hr Zl Zr HS Hne Zd Hv.
  assert (HU := round_up_facts k 4 ltac:(lia) ltac:(lia)).
  apply (bgemm_k_ok (fun a => a) (a32 ops) t o 4 (K32 ops t o) (fun G => 128 * G < 2 ^ 30) (K32_mono ops t o) ltac:(lia) Hc (K32_ok ops t o Hops Ht)); try assumption; try lia.
  unfold esize. destruct (is_float t); lia.
Qed.
Print Assumptions C59_bgemm_arm32.

(** ** int8 outputs of any of these kernels, element by element. *)
Lemma int8_elements ops o KK side L R ls rs G rows cols sr sc er ec f g tmp :
  fuel_mono KK -> k_ok (fun a => a) ops DInt8 o 4 KK side -> p_cmin o <= p_cmax o -> side G ->
  call_ok 4 DInt8 o L R ls rs G rows cols sr sc er ec -> tr_ok o er -> 16 <= zlen tmp ->
  exists lf, kernel_val (pmat 4 L ls G) (pmat 4 R rs G) (run_of ops DFloat o) rows cols sr sc er ec [] = Some lf /\
  exists n lg, (forall n', (n <= n')%nat -> KK n' f g tmp L R ls rs (4 * G) rows cols sr sc er ec = Some lg) /\
    (forall p b, In (p, b) lg -> exists y, In (p, y) lf) /\
    forall p y, In (p, y) lf -> forall b, In (p, b) lg <-> b = sat8z (n_cvtns ops y) mod 256.
Proof.
  intros Hm Hk Hc Hs K T Htm. assert (T' := T). assert (K' := K). destruct K', T'.
  destruct (kernel_val_in (pmat 4 L ls G) (pmat 4 R rs G) (run_of ops DFloat o) (Vp (fun a => a) ops DFloat o 4 L R ls rs G) rows cols sr sc er ec) as (lf & El & Hlf).
  { intros i j Hi Hj. unfold pmat. rewrite (accumulate_pacc 4 L R ls rs G er ec) by (assumption || lia). cbn [bind].
    apply run_oval; [exact Hc|lia|lia]. }
  exists lf. split; [exact El|]. destruct (Hk _ _ _ _ _ _ _ _ _ _ _ f g tmp Hs K T Htm) as (n & Hn).
  apply wp_iff in Hn. destruct Hn as (lg & En & Hlg). exists n, lg. split.
  { intros n' Hn'. exact (Hm _ _ _ _ _ _ _ _ _ _ _ _ _ _ _ _ _ Hn' En). }
  assert (HE : forall i j e, ent (esize DInt8) (Vp (fun a => a) ops DInt8 o 4 L R ls rs G) rows i j e <->
    e = (i + j * rows, sat8z (n_cvtns ops (Vp (fun a => a) ops DFloat o 4 L R ls rs G i j)) mod 256)).
  { intros i j e. unfold ent. change (Z.of_nat (esize DInt8)) with 1. change (esize DInt8) with 1%nat. cbn [le_split].
    change (Vp (fun a => a) ops DInt8 o 4 L R ls rs G i j) with (sat8z (n_cvtns ops (Vp (fun a => a) ops DFloat o 4 L R ls rs G i j))).
    set (x := sat8z _). clearbody x. split.
    - intros (q & v & Hq & ->). assert (q = 0). { apply rd_bounds in Hq. unfold zlen in Hq. cbn [length] in Hq. lia. }
      subst q. change (rd [x mod 256] 0) with (Some (x mod 256)) in Hq. injection Hq as <-. f_equal. ring.
    - intros ->. exists 0, (x mod 256). split; [reflexivity|]. f_equal. ring. }
  assert (HP : forall i j i' j', 0 <= i < rows -> 0 <= i' < rows -> i + j * rows = i' + j' * rows -> i = i' /\ j = j').
  { intros i j i' j' H1 H2 H3. assert (j = j') by nia. subst. lia. }
  split.
  - intros p b Hin. apply Hlg in Hin. destruct Hin as (i & j & Hi & Hj & He). apply HE in He. injection He as -> ->.
    eexists. apply Hlf. exists i, j. split; [exact Hi|]. split; [exact Hj|reflexivity].
  - intros p y Hin b. apply Hlf in Hin. destruct Hin as (i & j & Hi & Hj & E). injection E as -> ->. rewrite Hlg. split.
    + intros (i' & j' & Hi' & Hj' & He). apply HE in He. injection He as E1 ->.
      destruct (HP i j i' j') as [<- <-]; [lia|lia|exact E1|reflexivity].
    + intros ->. exists i, j. split; [exact Hi|]. split; [exact Hj|]. apply HE. reflexivity.
Qed.

Lemma sat8z_range x : -128 <= sat8z x <= 127.
Proof. unfold sat8z, clampz. lia. Qed.
(** The conversions of a finite pattern. *)
Lemma convert_units h y u : units y = Some u -> convert h y = sat32 (h u).
Proof. unfold convert. intros E. rewrite E. unfold units in E. destruct (decode32 y); try discriminate; reflexivity. Qed.
Lemma fval_units y q : fval y = Some q -> exists u, units y = Some u /\ q = (u # ulpD)%Q.
Proof. unfold fval. destruct (units y); [|discriminate]. intros E. injection E as <-. eauto. Qed.

(** ** C60: int8 outputs of the 32-bit Arm kernel. Every stored byte is the int8
    value within 1/2 + 1/256 of the float result of the output transform, but it is
    the int8 value *nearest* to it exactly if that result is not negative with a
    fractional part less than 1/256 beyond one half. *)
Theorem C60_arm32_int8_rounding ops o L R ls rs G rows cols sr sc er ec f g tmp :
  nops_ok ops -> n_cvt8 ops = n_cvt8 ieee -> p_cmin o <= p_cmax o -> 128 * G < 2 ^ 30 ->
  call_ok 4 DInt8 o L R ls rs G rows cols sr sc er ec -> tr_ok o er -> 16 <= zlen tmp ->
  exists lf, kernel_val (pmat 4 L ls G) (pmat 4 R rs G) (run_of ops DFloat o) rows cols sr sc er ec [] = Some lf /\
  exists n lg, (forall n', (n <= n')%nat -> asm_kernel32 ops n' DInt8 f g tmp L R ls rs (4 * G) rows cols sr sc er ec o = Some lg) /\
    (forall p b, In (p, b) lg -> exists y, In (p, y) lf) /\
    forall p y q, In (p, y) lf -> fval y = Some q ->
      exists v, -128 <= v <= 127 /\ (forall b, In (p, b) lg <-> b = v mod 256) /\
        int8_close q v /\ (int8_nearest q v <-> ~ unlucky q).
Proof.
  intros Hops H8 Hc Hd K T Htm.
  destruct (int8_elements (a32 ops) o (K32 ops DInt8 o) _ L R ls rs G rows cols sr sc er ec f g tmp (K32_mono _ _ _) (K32_ok ops DInt8 o Hops eq_refl) Hc Hd K T Htm)
    as (lf & A & n & lg & B & C & D).
  exists lf. split; [exact A|]. exists n, lg. split; [exact B|]. split; [exact C|].
  intros p y q Hin Hq. destruct (fval_units _ _ Hq) as (u & Hu & ->).
  exists (sat8z (n_cvtns (a32 ops) y)). split; [apply sat8z_range|]. split; [exact (D p y Hin)|].
  assert (E : sat8z (n_cvtns (a32 ops) y) = arm32_int8 u).
  { unfold arm32_int8, sat8z, clampz. cbn [a32 n_cvtns]. rewrite H8. cbn [ieee n_cvt8]. rewrite (convert_units _ _ _ Hu). lia. }
  rewrite E. split; [apply arm32_int8_close|apply arm32_int8_nearest].
Qed.
Print Assumptions C60_arm32_int8_rounding.

(** The claim that every kernel stores the nearest int8 value is false of this one:
    for a float result of -0.5009765625 (here the post-activation bias of every
    channel, with multiplier 0) it stores 0, and only -1 is nearest. *)
Definition o60 (b : Z) : otparams := {| p_cmin := 0; p_cmax := 100000; p_mul := repeat 0 8; p_bias := repeat b 8; p_thr := [] |}.
Lemma o60_ok b n : pat b -> n <= 8 -> tr_ok (o60 b) n.
Proof.
  intros Hb H. constructor; try (unfold int32; cbn; lia); try exact H; cbn [o60 p_mul p_bias repeat];
    repeat (constructor; [first [exact Hb|unfold pat; lia]|]); constructor.
Qed.
Lemma call60_ok b : call_ok 4 DInt8 (o60 b) L12 R12 12 12 3 8 8 0 0 4 4.
Proof. constructor; try reflexivity; try lia; vm_compute; congruence. Qed.
Theorem C60_nearest_refuted :
  nops_ok ieee /\ call_ok 4 DInt8 (o60 3204464640) L12 R12 12 12 3 8 8 0 0 4 4 /\ tr_ok (o60 3204464640) 4 /\
  (exists lf, kernel_val (pmat 4 L12 12 3) (pmat 4 R12 12 3) (run_of ieee DFloat (o60 3204464640)) 8 8 0 0 4 4 [] = Some lf /\ In (0, 3204464640) lf) /\
  (exists q, fval 3204464640 = Some q /\ (q == - (513 # 1024))%Q /\ (forall r, int8_nearest q r -> r = -1) /\ unlucky q) /\
  exists lg, asm_kernel32 ieee 600 DInt8 (fun _ => []) (fun _ => Int 0) (repeat 0 64) L12 R12 12 12 (4 * 3) 8 8 0 0 4 4 (o60 3204464640) = Some lg /\
    In (0, 0) lg /\ ~ In (0, 255) lg.
Proof.
  split; [exact ieee_ok|]. split; [apply call60_ok|]. split; [apply o60_ok; [unfold pat|]; lia|]. split.
  { eexists. split; [vm_compute; reflexivity|]. cbn [In]. tauto. }
  split.
  { assert (Eu : units 3204464640 = Some (-513 * 2 ^ 139)) by reflexivity.
    exists ((-513 * 2 ^ 139) # ulpD)%Q. split; [unfold fval; rewrite Eu; reflexivity|]. split; [reflexivity|].
    assert (ED : DD = 1024 * 2 ^ 139) by reflexivity. split.
    - intros r (z & Hz & ->). apply nearest_units in Hz. rewrite ED in Hz. set (h := 2 ^ 139) in *. assert (0 < h) by (unfold h; lia). clearbody h. clear - Hz H.
      assert (z = -1) by nia. subst z. reflexivity.
    - apply unlucky_units. exists 0. rewrite ED. set (h := 2 ^ 139). assert (0 < h) by (unfold h; lia). clearbody h. lia. }
  eexists. split; [vm_compute; reflexivity|]. split; [cbn [In]; tauto|]. cbn [In]. intuition congruence.
Qed.
Print Assumptions C60_nearest_refuted.

(** ** C61: int8 outputs of the AArch64 4x4 kernel (and, with the same rounding
    instruction, of the others): always the int8 value nearest to the float result,
    and the one the portable kernel stores (TfLiteRound, ties away from zero) unless
    the result is exactly half way between two integers. *)
Definition portable_int8 (u : Z) : Z := Z.max (-128) (Z.min 127 (round_away u)).
Theorem C61_aarch64_int8_rounding ops o ms L R ls rs G rows cols sr sc er ec f g tmp :
  nops_ok ops -> n_cvtns ops = n_cvtns ieee -> p_cmin o <= p_cmax o -> depth44 ms G ->
  call_ok 4 DInt8 o L R ls rs G rows cols sr sc er ec -> tr_ok o er -> 16 <= zlen tmp ->
  exists lf, kernel_val (pmat 4 L ls G) (pmat 4 R rs G) (run_of ops DFloat o) rows cols sr sc er ec [] = Some lf /\
  exists n lg, (forall n', (n <= n')%nat -> asm_kernel ops (k44 ms DInt8) n' DInt8 f g tmp L R 4 ls rs (4 * G) rows cols sr sc er ec o = Some lg) /\
    (forall p b, In (p, b) lg -> exists y, In (p, y) lf) /\
    forall p y u, In (p, y) lf -> units y = Some u ->
      exists v, -128 <= v <= 127 /\ (forall b, In (p, b) lg <-> b = v mod 256) /\
        int8_nearest (u # ulpD) v /\ int8_nearest (u # ulpD) (portable_int8 u) /\
        (~ tie (u # ulpD) -> v = portable_int8 u).
Proof.
  intros Hops H8 Hc Hd K T Htm.
  destruct (int8_elements ops o (K64 ops (k44 ms DInt8) DInt8 o 4) _ L R ls rs G rows cols sr sc er ec f g tmp (K64_mono _ _ _ _ _) (asm44_ok ops DInt8 o ms Hops eq_refl) Hc Hd K T Htm)
    as (lf & A & n & lg & B & C & D).
  exists lf. split; [exact A|]. exists n, lg. split; [exact B|]. split; [exact C|].
  intros p y u Hin Hu.
  assert (E : sat8z (n_cvtns ops y) = Z.max (-128) (Z.min 127 (round_even u))).
  { unfold sat8z, clampz. rewrite H8. cbn [ieee n_cvtns]. rewrite (convert_units _ _ _ Hu). unfold sat32. lia. }
  exists (sat8z (n_cvtns ops y)). split; [apply sat8z_range|]. split; [exact (D p y Hin)|]. rewrite E.
  split; [exists (round_even u); split; [apply round_even_nearest|reflexivity]|].
  split; [exists (round_away u); split; [apply round_away_nearest|reflexivity]|].
  intros Ht. unfold portable_int8. f_equal. f_equal. exact (nearest_unique u _ _ Ht (round_even_nearest u) (round_away_nearest u)).
Qed.
Print Assumptions C61_aarch64_int8_rounding.

(** On a tie they differ: for a float result of 0.5 the assembly stores 0, the
    portable kernel 1. *)
Theorem C61_ties_refuted :
  call_ok 4 DInt8 (o60 1056964608) L12 R12 12 12 3 8 8 0 0 4 4 /\ tr_ok (o60 1056964608) 4 /\
  (exists lf, kernel_val (pmat 4 L12 12 3) (pmat 4 R12 12 3) (run_of ieee DFloat (o60 1056964608)) 8 8 0 0 4 4 [] = Some lf /\ In (0, 1056964608) lf) /\
  (exists u, units 1056964608 = Some u /\ (u # ulpD == 1 # 2)%Q /\ portable_int8 u = 1) /\
  exists lg, asm_kernel ieee (k44 false DInt8) 600 DInt8 (fun _ => []) (fun _ => Int 0) (repeat 0 64) L12 R12 4 12 12 (4 * 3) 8 8 0 0 4 4 (o60 1056964608) = Some lg /\
    In (0, 0) lg /\ ~ In (0, 1) lg.
Proof.
  split; [apply call60_ok|]. split; [apply o60_ok; [unfold pat|]; lia|]. split.
  { eexists. split; [vm_compute; reflexivity|]. cbn [In]. tauto. }
  split; [exists (2 ^ 148); split; [reflexivity|]; split; reflexivity|].
  eexists. split; [vm_compute; reflexivity|]. split; [cbn [In]; tauto|]. cbn [In]. intuition congruence.
Qed.
Print Assumptions C61_ties_refuted.

(** Non-vacuity of C58-C61: the calls above, and the product of C49_case. *)
Example C58_case : nops_ok ieee /\ 128 * 3 < 2 ^ 30 /\ call_ok 4 DFloat ot0 L12 R12 12 12 3 8 8 0 0 4 4 /\ tr_ok ot0 4 /\
  16 * Z.of_nat (esize DFloat) <= zlen (repeat 0 64).
Proof. split; [exact ieee_ok|]. split; [lia|]. split; [exact call12_ok|]. split; [apply ot0_ok; lia|]. vm_compute; congruence. Qed.
Example C59_case : nops_ok ieee /\ tr_ok (o60 1056964608) (round_up 5 4) /\ schedule_ok 4 4 4 5 3 6 ex_sched /\ Forall nonempty (sc_blocks ex_sched) /\
  zlen (repeat 0 30) = Z.of_nat (esize DInt8) * (6 * 5).
Proof.
  split; [exact ieee_ok|]. split; [apply o60_ok; [unfold pat; lia|vm_compute; congruence]|]. split; [exact ex_sched_ok|].
  split; [repeat (constructor; [split; reflexivity|]); constructor|reflexivity].
Qed.
(** A lucky negative value: -0.75 rounds to -1 on every kernel. *)
Example C60_case : exists u, units 3208642560 = Some u /\ (u # ulpD == - (3 # 4))%Q /\ arm32_int8 u = -1 /\ portable_int8 u = -1 /\ ~ unlucky (u # ulpD).
Proof.
  exists (-3 * 2 ^ 147). split; [reflexivity|]. split; [reflexivity|]. split; [reflexivity|]. split; [reflexivity|].
  apply arm32_int8_nearest. exists (-1). split; [|reflexivity]. apply nearest_units.
  assert (ED : DD = 4 * 2 ^ 147) by reflexivity. rewrite ED. set (h := 2 ^ 147). assert (0 < h) by (unfold h; lia). clearbody h. lia.
Qed.
Example C61_case : depth44 false 3 /\ n_cvtns ieee = convert round_even /\ n_cvt8 ieee = convert trunc8.
Proof. split; [split; [lia|discriminate]|]. split; reflexivity. Qed.
