(** * A64Rel: the assembly kernels against the portable kernel and the product. *)
From Verif Require Import Base Spec Bits Log OutputTransform Bgemm BgemmProofs A64 A64Bgemm A64Lemmas A64K44 A64Store A64Trans A64Seg A64Block44 A64Loop44 A64Kernel44.
Open Scope Z_scope.

(** Operations and parameters as seen by the portable output transform. *)
Definition fops_of (ops : nops) : fops Z := {| f_ofZ := n_ofZ ops; f_mul := n_mul ops; f_add := n_add ops; f_round := n_cvtns ops |}.
Definition otp_of (o : otparams) : otp Z := {| ot_min := p_cmin o; ot_max := p_cmax o; ot_mult := p_mul o; ot_bias := p_bias o |}.
Definition run_of (ops : nops) (t : dtype) (o : otparams) : Z -> Z -> option Z :=
  if is_int8 t then run_int8 (fops_of ops) (otp_of o) else run_float (fops_of ops) (otp_of o).

Lemma rd_wat l i : 0 <= i < zlen l -> rd l i = Some (wat l i).
Proof. intros H. unfold wat. destruct (rd_some l i H) as (v & ->). reflexivity. Qed.

Lemma run_oval ops t o acc i : p_cmin o <= p_cmax o -> 0 <= i < zlen (p_mul o) -> 0 <= i < zlen (p_bias o) ->
  run_of ops t o acc i = Some (oval ops t o acc i).
Proof.
  intros Hc Hm Hb.
  assert (R : run_float (fops_of ops) (otp_of o) acc i = Some (tval ops (p_cmin o) (p_cmax o) (2 * acc) (wat (p_mul o) i) (wat (p_bias o) i))).
  { unfold run_float, tval. cbn [fops_of otp_of f_ofZ f_mul f_add f_round ot_min ot_max ot_mult ot_bias].
    rewrite (rd_wat _ _ Hm), (rd_wat _ _ Hb). cbn [bind]. rewrite Z.shiftl_mul_pow2 by lia. change (2 ^ 1) with 2.
    replace (Z.max (Z.min (acc * 2) (p_cmax o)) (p_cmin o)) with (Z.min (Z.max (2 * acc) (p_cmin o)) (p_cmax o)) by lia. reflexivity. }
  unfold run_of, oval. destruct (is_int8 t); [|exact R].
  unfold run_int8. rewrite R. cbn [bind fops_of f_round]. f_equal. unfold saturate, sat8z, clampz. lia.
Qed.

Lemma wlist4 l k : wlist l k 4 = [wat l k; wat l (k + 1); wat l (k + 2); wat l (k + 3)].
Proof. cbn [wlist]. rewrite <- !Z.add_assoc. reflexivity. Qed.
Lemma sum4 f : sum_ 4 f = f 0 + f 1 + f 2 + f 3.
Proof. change 4 with (0 + 1 + 1 + 1 + 1). rewrite !sum_succ by lia. rewrite sum_0 by lia. reflexivity. Qed.

(** The portable accumulation in groups of four words. *)
Lemma accumulate_pacc lb L R ls rs G er ec i j :
  0 < lb -> 0 <= G -> 4 * G <= ls -> 4 * G <= rs -> er mod lb = 0 -> ec mod 4 = 0 -> er * ls <= zlen L -> ec * rs <= zlen R ->
  0 <= i < er -> 0 <= j < ec ->
  accumulate {| pm_data := L; pm_rows := 4 * G; pm_stride := ls; pm_kr := 4; pm_kc := lb |}
    {| pm_data := R; pm_rows := 4 * G; pm_stride := rs; pm_kr := 4; pm_kc := 4 |} i j = Some (pacc lb L R ls rs G i j).
Proof.
  intros Hlb HG Hls Hrs Me Mc HL HR Hi Hj. unfold accumulate. cbn [pm_rows].
  set (PO := fun kc s q c => (q - q mod 4) * kc + (c - c mod kc) * s + q mod 4 + (c mod kc) * 4).
  rewrite (for_sum_eq _ (fun q => xor_popcount (wat L (PO lb ls q i)) (wat R (PO 4 rs q j)))).
  - rewrite Z.add_0_l. f_equal. replace (4 * G) with (G * 4) by ring. rewrite sum_flat by lia. unfold pacc. apply sum_ext. intros g Hg.
    rewrite sum4. unfold bp, grp. rewrite !wlist4. cbn [zipw map]. unfold sumz. cbn [fold_right]. unfold xor_popcount.
    assert (E : forall r, 0 <= r < 4 -> forall kc s c, PO kc s (g * 4 + r) c = (c - c mod kc) * s + 4 * kc * g + 4 * (c mod kc) + r).
    { intros r Hr kc s c. unfold PO. replace ((g * 4 + r) mod 4) with r by (Z.to_euclidean_division_equations; lia). ring. }
    assert (E0 : forall kc s c, PO kc s (g * 4 + 0) c = (c - c mod kc) * s + 4 * kc * g + 4 * (c mod kc)) by (intros; rewrite E by lia; ring).
    rewrite !E0, !(E 1), !(E 2), !(E 3) by lia. rewrite !(Z.lxor_comm (wat R _)). lia.
  - lia.
  - intros q acc Hq. unfold pm_elem. cbn [pm_data pm_kr pm_kc pm_stride].
    assert (M4 : 4 * G mod 4 = 0) by (rewrite Z.mul_comm; apply Z.mod_mul; lia).
    assert (B1 := pm_off_bounds 4 lb ls (4 * G) er q i ltac:(lia) Hlb M4 Hls Me Hq Hi).
    assert (B2 := pm_off_bounds 4 4 rs (4 * G) ec q j ltac:(lia) ltac:(lia) M4 Hrs Mc Hq Hj).
    rewrite (rd_wat L) by lia. cbn [bind]. rewrite (rd_wat R) by lia. reflexivity.
Qed.

(** The portable kernel's log, as a set. *)
Lemma for_log {T} lo hi (body : Z -> log T -> option (log T)) (S : Z -> Z * T -> Prop) :
  (forall i l, lo <= i < hi -> wp (body i l) (fun l' => forall e, In e l' <-> In e l \/ S i e)) ->
  forall l, wp (for_ lo hi body l) (fun l' => forall e, In e l' <-> In e l \/ exists i, lo <= i < hi /\ S i e).
Proof.
  intros H l. apply (for_wp (fun i l' => forall e, In e l' <-> In e l \/ exists k, lo <= k < i /\ S k e)).
  - intros e. split; [auto|]. intros [A | (k & Hk & _)]; [exact A|lia].
  - intros i l' Hi Hl. eapply wp_mono; [apply (H i l' Hi)|]. cbv beta. intros l2 H2 e. rewrite H2, Hl. split.
    + intros [[A | (k & Hk & A)] | A]; [auto|right; exists k; split; [lia|exact A]|right; exists i; split; [lia|exact A]].
    + intros [A | (k & Hk & A)]; [auto|]. assert (k < i \/ k = i) as [D | ->] by lia; [left; right; exists k; split; [lia|exact A]|right; exact A].
  - intros l' Hl e. rewrite Hl. split; (intros [A | (k & Hk & A)]; [left; exact A|right; exists k; split; [lia|exact A]]).
Qed.
Lemma kernel_val_in {T} PL PR (run : Z -> Z -> option T) (v : Z -> Z -> T) rows cols sr sc er ec :
  (forall i j, sr <= i < Z.min er rows -> sc <= j < Z.min ec cols -> (let* a := accumulate PL PR i j in run a i) = Some (v i j)) ->
  exists lp, kernel_val PL PR run rows cols sr sc er ec [] = Some lp /\
    forall e, In e lp <-> exists i j, sr <= i < Z.min er rows /\ sc <= j < Z.min ec cols /\ e = (i + j * rows, v i j).
Proof.
  intros H.
  assert (W : wp (kernel_val PL PR run rows cols sr sc er ec []) (fun l' => forall e, In e l' <-> In e [] \/
    exists i, sr <= i < Z.min er rows /\ exists j, sc <= j < Z.min ec cols /\ e = (i + j * rows, v i j))).
  { unfold kernel_val. apply (for_log _ _ _ (fun i e => exists j, sc <= j < Z.min ec cols /\ e = (i + j * rows, v i j))). intros i l Hi.
    apply (for_log _ _ _ (fun j e => e = (i + j * rows, v i j))). intros j l' Hj.
    specialize (H i j Hi Hj). destruct (accumulate PL PR i j) as [a|]; [|discriminate]. cbn [bind] in H |- *. rewrite H. cbn [bind wp].
    intros e. cbn [In]. split; intros [A | A]; auto. }
  apply wp_iff in W. destruct W as (lp & E & W). exists lp. split; [exact E|]. intros e. rewrite W. split.
  - intros [[] | (i & Hi & j & Hj & A)]. eauto.
  - intros (i & j & Hi & Hj & A). right. eauto.
Qed.

(** ** One kernel call. *)
Definition pmat (lb : Z) (D : list Z) (stride G : Z) : pmatrix :=
  {| pm_data := D; pm_rows := 4 * G; pm_stride := stride; pm_kr := 4; pm_kc := lb |}.
(** The byte log [lg] holds exactly the bytes (little endian) of the elements in
    the element log [lp]. *)
Definition bytes_of (t : dtype) (lp : log Z) (lg : list (Z * Z)) : Prop :=
  forall a b, In (a, b) lg <-> exists p v q, In (p, v) lp /\ rd (le_split (esize t) v) q = Some b /\ a = Z.of_nat (esize t) * p + q.
Definition storedV (t : dtype) (V : Z -> Z -> Z) (rows cols sr sc er ec : Z) (e : Z * Z) : Prop :=
  exists i j, sr <= i < Z.min er rows /\ sc <= j < Z.min ec cols /\ ent (esize t) V rows i j e.
(** [wrap]: what the width of the accumulator registers does to the exact sum. *)
Definition Vp (wrap : Z -> Z) ops t o rb L R ls rs G i j : Z := oval ops t o (wrap (pacc rb L R ls rs G i j)) i.

(** A kernel invocation as a function of the fuel, the initial registers and
    scratch buffer, the packed operands with their strides, and depth, size and range. *)
Definition kernel := nat -> (nat -> list Z) -> (xreg -> val) -> list Z -> list Z -> list Z -> Z -> Z -> Z -> Z -> Z -> Z -> Z -> Z -> Z -> option (list (Z * Z)).
Definition K64 (ops : nops) (prog : list instr) (t : dtype) (o : otparams) (rb : Z) : kernel :=
  fun n f g tmp L R ls rs depth rows cols sr sc er ec => asm_kernel ops prog n t f g tmp L R rb ls rs depth rows cols sr sc er ec o.
(** More fuel does not change the outcome. *)
Definition fuel_mono (K : kernel) : Prop := forall n m f g tmp L R ls rs depth rows cols sr sc er ec lg, (n <= m)%nat ->
  K n f g tmp L R ls rs depth rows cols sr sc er ec = Some lg -> K m f g tmp L R ls rs depth rows cols sr sc er ec = Some lg.
Lemma K64_mono ops prog t o rb : fuel_mono (K64 ops prog t o rb).
Proof.
  intros n m f g tmp L R ls rs depth rows cols sr sc er ec lg Hnm H. unfold K64, asm_kernel in *.
  destruct (run _ _ _ n _ _) as [s|] eqn:Er; [|discriminate]. rewrite (run_more _ _ _ _ _ _ _ _ Hnm Er). exact H.
Qed.

Section Rel.
  Variables (wrap : Z -> Z) (ops : nops) (t : dtype) (o : otparams) (rb : Z) (KK : kernel).
  Hypothesis (Hmono : fuel_mono KK) (Hrb : 0 < rb) (Hclamp : p_cmin o <= p_cmax o).
  (** What the symbolic execution of a kernel gives. *)
  Definition k_ok (side : Z -> Prop) : Prop := forall L R ls rs G rows cols sr sc er ec f g tmp, side G ->
    call_ok rb t o L R ls rs G rows cols sr sc er ec -> tr_ok o er -> 4 * rb * Z.of_nat (esize t) <= zlen tmp ->
    exists n, wp (KK n f g tmp L R ls rs (4 * G) rows cols sr sc er ec)
      (fun lg => forall e, In e lg <-> storedV t (Vp wrap ops t o rb L R ls rs G) rows cols sr sc er ec e).
  Variable side : Z -> Prop.
  Hypothesis Hasm : k_ok side.

  Lemma k_portable L R ls rs G rows cols sr sc er ec f g tmp : side G ->
    call_ok rb t o L R ls rs G rows cols sr sc er ec -> tr_ok o er -> 4 * rb * Z.of_nat (esize t) <= zlen tmp ->
    exists lp, kernel_val (pmat rb L ls G) (pmat 4 R rs G) (fun a => run_of ops t o (wrap a)) rows cols sr sc er ec [] = Some lp /\
    exists n lg, (forall n', (n <= n')%nat -> KK n' f g tmp L R ls rs (4 * G) rows cols sr sc er ec = Some lg) /\
      bytes_of t lp lg.
  Proof.
    intros Hs K T Htm. assert (T' := T). assert (K' := K). destruct K, T.
    destruct (kernel_val_in (pmat rb L ls G) (pmat 4 R rs G) (fun a => run_of ops t o (wrap a)) (Vp wrap ops t o rb L R ls rs G) rows cols sr sc er ec) as (lp & El & Hlp).
    { intros i j Hi Hj. unfold pmat. rewrite (accumulate_pacc rb L R ls rs G er ec) by (assumption || lia). cbn [bind].
      apply run_oval; [exact Hclamp|lia|lia]. }
    exists lp. split; [exact El|]. destruct (Hasm _ _ _ _ _ _ _ _ _ _ _ f g tmp Hs K' T' Htm) as (n & Hn).
    apply wp_iff in Hn. destruct Hn as (lg & En & Hlg). exists n, lg. split.
    { intros n' Hn'. exact (Hmono _ _ _ _ _ _ _ _ _ _ _ _ _ _ _ _ _ Hn' En). }
    intros a b. rewrite Hlg. unfold storedV. split.
    - intros (i & j & Hi & Hj & q & v & Hq & E). injection E as -> ->. exists (i + j * rows), (Vp wrap ops t o rb L R ls rs G i j), q.
      split; [apply Hlp; exists i, j; auto|]. split; [exact Hq|ring].
    - intros (p & v & q & Hp & Hq & ->). apply Hlp in Hp. destruct Hp as (i & j & Hi & Hj & E). injection E as -> ->.
      exists i, j. split; [exact Hi|]. split; [exact Hj|]. exists q, b. split; [exact Hq|]. f_equal. ring.
  Qed.
End Rel.

(** ** BGEMM with an assembly kernel. *)
(** kernels.h 233-273: one call for the whole block (FAT_KERNEL), or one per
    smallest block. *)
Definition calls (fat : bool) (lc rc : Z) (b : block) : list block :=
  if fat then [b]
  else flat_map (fun q => map (fun r =>
    let col := b_sc b + rc * Z.of_nat q in let row := b_sr b + lc * Z.of_nat r in
    {| b_sr := row; b_sc := col; b_er := Z.min (row + lc) (b_er b); b_ec := Z.min (col + rc) (b_ec b) |})
    (seq 0 (Z.to_nat ((b_er b - b_sr b) / lc)))) (seq 0 (Z.to_nat ((b_ec b - b_sc b) / rc))).
Definition k_call (K : kernel) L R ls rs G n m fuel f g tmp (b : block) : option (list (Z * Z)) :=
  K fuel f g tmp L R ls rs (4 * G) n m (b_sr b) (b_sc b) (b_er b) (b_ec b).
(** [lg] is what one call stores: whatever the registers and the scratch buffer hold. *)
Definition k_run (K : kernel) (t : dtype) (rb : Z) L R ls rs G n m (b : block) (lg : list (Z * Z)) : Prop :=
  exists fuel f g tmp, 4 * rb * Z.of_nat (esize t) <= zlen tmp /\ k_call K L R ls rs G n m fuel f g tmp b = Some lg.
(** As [BGemm], with the kernel calls replaced by runs of the assembly: every call
    terminates, and whatever the calls store and in whatever order the stores of
    all calls reach the destination bytes, [Q] holds at the end. *)
Definition BGemm_k (K : kernel) (t : dtype) (rb : Z) (S : schedule) (n k m : Z) (lhs rhs : list Z) (dst : list Z) (Q : list Z -> Prop) : Prop :=
  concurrently (map (fun r => RunRuyPack 4 rb lhs k n k (sc_lstride S) (fst r) (snd r) []) (sc_lpack S)) (sc_lmem S) (fun L =>
  concurrently (map (fun r => RunRuyPack 4 4 rhs k m k (sc_rstride S) (fst r) (snd r) []) (sc_rpack S)) (sc_rmem S) (fun R =>
  let bs := flat_map (calls (sc_fat S) rb 4) (sc_blocks S) in
  let G := round_up k 4 / 4 in
  (forall b, In b bs -> forall f g tmp, 4 * rb * Z.of_nat (esize t) <= zlen tmp ->
     exists n0 lg, forall fuel, (n0 <= fuel)%nat -> k_call K L R (sc_lstride S) (sc_rstride S) G n m fuel f g tmp b = Some lg) /\
  forall logs, Forall2 (k_run K t rb L R (sc_lstride S) (sc_rstride S) G n m) bs logs ->
  forall order, Permutation (concat logs) order -> wp (apply_log dst order) Q)).
(** The same with an AArch64 kernel. *)
Definition asm_call ops prog t o rb := k_call (K64 ops prog t o rb).
Definition asm_run ops prog t o rb := k_run (K64 ops prog t o rb) t rb.
Definition BGemm_asm ops prog t o rb := BGemm_k (K64 ops prog t o rb) t rb.
Definition asm_ok wrap ops t o rb prog := k_ok wrap ops t o rb (K64 ops prog t o rb).

Lemma apply_log_zlen {T} (l : log T) : forall m m', apply_log m l = Some m' -> zlen m' = zlen m.
Proof.
  induction l as [|[i v] l IH]; intros m m' H; cbn [apply_log] in H; [injection H as ->; reflexivity|].
  destruct (wr m i v) as [m1|] eqn:E; [|discriminate]. cbn [bind] in H. rewrite (IH _ _ H).
  unfold wr in E. destruct ((0 <=? i) && (i <? zlen m)); [|discriminate]. injection E as <-. unfold zlen. rewrite length_upd_nat. reflexivity.
Qed.
Lemma concurrently_zlen {T} tasks (m : list T) Q : concurrently tasks m Q -> concurrently tasks m (fun m' => zlen m' = zlen m /\ Q m').
Proof.
  intros (logs & E & H). exists logs. split; [exact E|]. intros order Ho. specialize (H order Ho).
  destruct (apply_log m order) as [m'|] eqn:Ea; [|contradiction]. split; [exact (apply_log_zlen _ _ _ Ea)|exact H].
Qed.

Definition nonempty (b : block) : Prop := b_sr b < b_er b /\ b_sc b < b_ec b.
Definition inside (b b' : block) : Prop := b_sr b' <= b_sr b /\ b_er b <= b_er b' /\ b_sc b' <= b_sc b /\ b_ec b <= b_ec b'.
Lemma in_calls fat rows cols lc rc b b' : 0 < lc -> 0 < rc -> block_ok rows cols lc rc b -> nonempty b -> In b' (calls fat lc rc b) ->
  block_ok rows cols lc rc b' /\ nonempty b'.
Proof.
  intros Hlc Hrc [B1 B2 B3 B4 B5 B6 B7 B8] [N1 N2] Hin. unfold calls in Hin. destruct fat.
  { destruct Hin as [<- | []]. split; [constructor; assumption|split; assumption]. }
  apply in_flat_map in Hin. destruct Hin as (q & Hq & Hin). apply in_map_iff in Hin. destruct Hin as (r & <- & Hr).
  apply in_seq in Hq. apply in_seq in Hr.
  assert (Dr := Z.div_mod (b_er b - b_sr b) lc ltac:(lia)). rewrite B7 in Dr.
  assert (Dq := Z.div_mod (b_ec b - b_sc b) rc ltac:(lia)). rewrite B8 in Dq.
  assert (Hq' : Z.of_nat q + 1 <= (b_ec b - b_sc b) / rc) by lia. assert (Hr' : Z.of_nat r + 1 <= (b_er b - b_sr b) / lc) by lia.
  set (x := (b_er b - b_sr b) / lc) in *. set (y := (b_ec b - b_sc b) / rc) in *.
  assert (A : lc * (Z.of_nat r + 1) <= lc * x) by (apply Z.mul_le_mono_nonneg_l; lia).
  assert (A' : rc * (Z.of_nat q + 1) <= rc * y) by (apply Z.mul_le_mono_nonneg_l; lia).
  assert (P0 : 0 <= lc * Z.of_nat r) by (apply Z.mul_nonneg_nonneg; lia). assert (P1 : 0 <= rc * Z.of_nat q) by (apply Z.mul_nonneg_nonneg; lia).
  clearbody x y. rewrite !Z.min_l by lia. split; [|split; cbn [b_sr b_er b_sc b_ec]; lia].
  constructor; cbn [b_sr b_er b_sc b_ec]; try lia.
  - rewrite Z.mul_comm, Z.mod_add by lia. exact B5.
  - rewrite Z.mul_comm, Z.mod_add by lia. exact B6.
  - replace (b_sr b + lc * Z.of_nat r + lc - (b_sr b + lc * Z.of_nat r)) with lc by ring. apply Z.mod_same. lia.
  - replace (b_sc b + rc * Z.of_nat q + rc - (b_sc b + rc * Z.of_nat q)) with rc by ring. apply Z.mod_same. lia.
Qed.
Lemma calls_cover fat rows cols lc rc b i j : 0 < lc -> 0 < rc -> block_ok rows cols lc rc b ->
  b_sr b <= i < b_er b -> b_sc b <= j < b_ec b -> exists b', In b' (calls fat lc rc b) /\ b_sr b' <= i < b_er b' /\ b_sc b' <= j < b_ec b'.
Proof.
  intros Hlc Hrc [B1 B2 B3 B4 B5 B6 B7 B8] Hi Hj. unfold calls. destruct fat; [exists b; split; [left; reflexivity|auto]|].
  assert (Di := Z.div_mod (i - b_sr b) lc ltac:(lia)). assert (Mi := Z.mod_pos_bound (i - b_sr b) lc Hlc).
  assert (Dj := Z.div_mod (j - b_sc b) rc ltac:(lia)). assert (Mj := Z.mod_pos_bound (j - b_sc b) rc Hrc).
  assert (Dr := Z.div_mod (b_er b - b_sr b) lc ltac:(lia)). rewrite B7 in Dr.
  assert (Dq := Z.div_mod (b_ec b - b_sc b) rc ltac:(lia)). rewrite B8 in Dq.
  assert (Pi : 0 <= (i - b_sr b) / lc) by (apply Z.div_pos; lia). assert (Pj : 0 <= (j - b_sc b) / rc) by (apply Z.div_pos; lia).
  set (r := (i - b_sr b) / lc) in *. set (q := (j - b_sc b) / rc) in *.
  set (x := (b_er b - b_sr b) / lc) in *. set (y := (b_ec b - b_sc b) / rc) in *. clearbody r q x y.
  assert (r < x) by (apply (Z.mul_lt_mono_pos_l lc); lia). assert (q < y) by (apply (Z.mul_lt_mono_pos_l rc); lia).
  eexists. split.
  - apply in_flat_map. exists (Z.to_nat q). split; [apply in_seq; lia|]. apply in_map_iff. exists (Z.to_nat r). split; [reflexivity|apply in_seq; lia].
  - cbn [b_sr b_er b_sc b_ec]. rewrite !Z2Nat.id by lia. lia.
Qed.

Section Top.
  Variables (wrap : Z -> Z) (ops : nops) (t : dtype) (o : otparams) (rb : Z) (KK : kernel) (side : Z -> Prop).
  Hypothesis (Hmono : fuel_mono KK) (Hrb : 0 < rb) (Hclamp : p_cmin o <= p_cmax o) (Hasm : k_ok wrap ops t o rb KK side).
  Variables (n k m : Z) (S : schedule) (lhs rhs dst : list Z).
  Hypothesis (Hk : 1 <= k) (Hside : side (round_up k 4 / 4)) (Hl : zlen lhs = n * k) (Hr : zlen rhs = m * k).
  Hypothesis (HS : schedule_ok 4 rb 4 n k m S) (Hne : Forall nonempty (sc_blocks S)).
  Hypothesis (Hn : 0 <= n < 2 ^ 31 - 8) (Hm : 0 <= m < 2 ^ 31 - 8) (Hnb : Z.of_nat (esize t) * n < 2 ^ 32)
    (Hlb : 4 * sc_lstride S < 2 ^ 32) (Hrsb : 4 * sc_rstride S < 2 ^ 32) (HT : tr_ok o (round_up n rb)) (Hd : zlen dst = Z.of_nat (esize t) * (m * n)).
  Let es := Z.of_nat (esize t).
  Variable v : Z -> Z -> Z.
  Hypothesis Hv : forall i j, 0 <= i < n -> 0 <= j < m -> run_of ops t o (bproduct k lhs rhs i j) i = Some (v i j).

  Hypothesis Hw : forall i j, 0 <= i < n -> 0 <= j < m -> wrap (bproduct k lhs rhs i j) = bproduct k lhs rhs i j.

  Lemma bgemm_k_ok : BGemm_k KK t rb S n k m lhs rhs dst (fun dst' => zlen dst' = zlen dst /\
    forall i j q, 0 <= i < n -> 0 <= j < m -> 0 <= q < es -> rd dst' (es * (j * n + i) + q) = rd (le_split (esize t) (v i j)) q).
  Proof.
    assert (Hes : 1 <= es) by (unfold es, esize; destruct (is_float t); lia).
    destruct HS as [S1 S2 S3 S4 S5 S6 S7 S8 S9 S10]. rewrite Forall_forall in S5, Hne.
    assert (HU := round_up_facts k 4 ltac:(lia) ltac:(lia)). assert (HUn := round_up_facts n rb Hrb ltac:(lia)). assert (HUm := round_up_facts m 4 ltac:(lia) ltac:(lia)).
    assert (EG : 4 * (round_up k 4 / 4) = round_up k 4) by (Z.to_euclidean_division_equations; lia).
    unfold BGemm_k.
    eapply concurrently_mono; [apply concurrently_zlen, (pack_all 4 rb lhs k n (sc_lstride S)); auto; lia|]. intros L [ZL HL].
    eapply concurrently_mono; [apply concurrently_zlen, (pack_all 4 4 rhs k m (sc_rstride S)); auto; lia|]. intros R [ZR HR].
    set (G := round_up k 4 / 4) in *. cbv zeta. set (bs := flat_map _ _).
    assert (HB : forall b, In b bs -> block_ok n m rb 4 b /\ nonempty b).
    { intros b Hb. apply in_flat_map in Hb. destruct Hb as (b0 & Hb0 & Hb). exact (in_calls _ _ _ _ 4 b0 b Hrb ltac:(lia) (S5 b0 Hb0) (Hne b0 Hb0) Hb). }
    assert (HK : forall b, In b bs -> call_ok rb t o L R (sc_lstride S) (sc_rstride S) G n m (b_sr b) (b_sc b) (b_er b) (b_ec b) /\ tr_ok o (b_er b)).
    { intros b Hb. destruct (HB b Hb) as [[B1 B2 B3 B4 B5 B6 B7 B8] [N1 N2]].
      assert (Me : b_er b mod rb = 0).
      { apply Z.mod_divide; [lia|]. apply Z.mod_divide in B5; [|lia]. apply Z.mod_divide in B7; [|lia].
        replace (b_er b) with (b_er b - b_sr b + b_sr b) by ring. apply Z.divide_add_r; assumption. }
      assert (Mc : b_ec b mod 4 = 0) by (Z.to_euclidean_division_equations; lia).
      assert (Ee : b_er b <= round_up n rb).
      { destruct HUn as [HUn HUn2]. apply Z.mod_divide in Me; [|lia]. apply Z.mod_divide in HUn2; [|lia]. destruct Me as (x & Ex), HUn2 as (y & Ey).
        rewrite Ex, Ey. apply Z.mul_le_mono_nonneg_r; [lia|]. assert (rb * x < rb * (y + 1)) by lia. apply Z.mul_lt_mono_pos_l in H; lia. }
      assert (Ec : b_ec b <= round_up m 4) by (Z.to_euclidean_division_equations; lia).
      split.
      - constructor; try assumption; try lia.
        + rewrite ZL, S9, Z.mul_comm. apply Z.mul_le_mono_nonneg_l; lia.
        + rewrite ZR, S10, Z.mul_comm. apply Z.mul_le_mono_nonneg_l; lia.
      - destruct HT. constructor; try assumption; lia. }
    set (VV := Vp wrap ops t o rb L R (sc_lstride S) (sc_rstride S) G).
    assert (HV : forall b i j, In b bs -> b_sr b <= i < Z.min (b_er b) n -> b_sc b <= j < Z.min (b_ec b) m -> VV i j = v i j).
    { intros b i j Hb Hi Hj. destruct (HK b Hb) as [[] []]. assert (Some (VV i j) = Some (v i j)); [|congruence].
      rewrite <- Hv, <- Hw by lia. unfold VV, Vp. rewrite <- (run_oval ops t o) by (assumption || lia). f_equal. f_equal.
      assert (Some (pacc rb L R (sc_lstride S) (sc_rstride S) G i j) = Some (bproduct k lhs rhs i j)); [|congruence].
      rewrite <- (accumulate_pacc rb L R (sc_lstride S) (sc_rstride S) G (b_er b) (b_ec b)) by (assumption || lia).
      rewrite EG. eapply (accumulate_bproduct 4 _ _ lhs rhs n k m i j); eauto; lia. }
    assert (HA : forall b lg, In b bs -> k_run KK t rb L R (sc_lstride S) (sc_rstride S) G n m b lg ->
      forall e, In e lg <-> storedV t VV n m (b_sr b) (b_sc b) (b_er b) (b_ec b) e).
    { intros b lg Hb (fuel & f & g & tmp & Ht & E). destruct (HK b Hb) as [K T]. unfold k_call in E.
      destruct (Hasm _ _ _ _ _ _ _ _ _ _ _ f g tmp Hside K T Ht) as (n0 & H).
      destruct (KK n0 _ _ _ _ _ _ _ _ _ _ _ _ _ _) as [lg0|] eqn:Er0; [|contradiction]. cbn [wp] in H.
      assert (lg = lg0) as ->; [|exact H].
      assert (A1 := Hmono _ _ _ _ _ _ _ _ _ _ _ _ _ _ _ _ _ (Nat.le_max_l fuel n0) E). assert (A2 := Hmono _ _ _ _ _ _ _ _ _ _ _ _ _ _ _ _ _ (Nat.le_max_r fuel n0) Er0). congruence. }
    split.
    { intros b Hb f g tmp Ht. destruct (HK b Hb) as [K T]. destruct (k_portable wrap ops t o rb KK Hmono Hrb Hclamp side Hasm _ _ _ _ _ _ _ _ _ _ _ f g tmp Hside K T Ht) as (_ & _ & n0 & lg & H & _).
      exists n0, lg. exact H. }
    intros logs Hlogs.
    set (P := fun p => exists i j q, 0 <= i < n /\ 0 <= j < m /\ 0 <= q < es /\ p = es * (j * n + i) + q).
    set (V := fun p => wat (le_split (esize t) (v ((p / es) mod n) (p / es / n))) (p mod es)).
    assert (HVP : forall i j q, 0 <= i < n -> 0 <= j < m -> 0 <= q < es -> V (es * (j * n + i) + q) = wat (le_split (esize t) (v i j)) q).
    { intros i j q Hi Hj Hq. unfold V.
      replace ((es * (j * n + i) + q) / es) with (j * n + i) by (apply (Z.div_unique_pos _ _ _ q); lia).
      replace ((es * (j * n + i) + q) mod es) with q by (apply (Z.mod_unique_pos _ _ (j * n + i) q); lia).
      replace ((j * n + i) mod n) with i by (apply (Z.mod_unique_pos _ _ j i); lia).
      replace ((j * n + i) / n) with j by (apply (Z.div_unique_pos _ _ j i); lia). reflexivity. }
    assert (Hin : forall lg, In lg logs -> exists b, In b bs /\ k_run KK t rb L R (sc_lstride S) (sc_rstride S) G n m b lg).
    { clear - Hlogs. induction Hlogs as [|b lg bs logs Hb _ IH]; [intros lg []|]. intros l [<- | Hl]; [exists b; split; [left; reflexivity|exact Hb]|].
      destruct (IH l Hl) as (b' & Hb' & A). exists b'. split; [right; exact Hb'|exact A]. }
    assert (Hin2 : forall b, In b bs -> exists lg, In lg logs /\ k_run KK t rb L R (sc_lstride S) (sc_rstride S) G n m b lg).
    { clear - Hlogs. induction Hlogs as [|b lg bs logs Hb _ IH]; [intros b []|]. intros b0 [<- | Hl]; [exists lg; split; [left; reflexivity|exact Hb]|].
      destruct (IH b0 Hl) as (b' & Hb' & A). exists b'. split; [right; exact Hb'|exact A]. }
    assert (HP : forall p, P p -> 0 <= p < zlen dst).
    { intros p (i & j & q & Hi & Hj & Hq & ->). rewrite Hd. fold es. clear - Hes Hi Hj Hq. assert (0 <= j * n + i) by nia. assert (j * n + i + 1 <= m * n) by nia. nia. }
    destruct (concurrently_ok P V (map Some logs) dst HP) as (logs' & El & H).
    - apply Forall_forall. intros x Hx. apply in_map_iff in Hx. destruct Hx as (lg & <- & Hx). cbn [wp]. destruct (Hin lg Hx) as (b & Hb & Ha).
      intros e He. apply (HA b lg Hb Ha) in He. destruct He as (i & j & Hi & Hj & q & w & Hq & ->). cbn [fst snd].
      destruct (HK b Hb) as [[] _]. assert (Bq := rd_bounds _ _ _ Hq). unfold zlen in Bq. rewrite le_split_length in Bq. fold es in Bq.
      split; [exists i, j, q; repeat split; try lia|]. fold es. rewrite HVP by lia. unfold wat. rewrite <- (HV b i j Hb) by lia. rewrite Hq. reflexivity.
    - intros logs' El p (i & j & q & Hi & Hj & Hq & ->).
      assert (logs' = logs) as ->.
      { clear - El. revert logs' El. induction logs as [|l logs IH]; intros [|l' logs'] E; try discriminate; [reflexivity|]. injection E as -> E. f_equal. auto. }
      destruct (S6 i j Hi Hj) as (b0 & Hb0 & G1 & G2).
      destruct (calls_cover (sc_fat S) n m rb 4 b0 i j Hrb ltac:(lia) (S5 b0 Hb0) G1 G2) as (b & Hb & G3 & G4).
      assert (Hb' : In b bs) by (apply in_flat_map; exists b0; auto).
      destruct (Hin2 b Hb') as (lg & Hlg & Ha). exists lg. split; [exact Hlg|]. intros p ->. exists (wat (le_split (esize t) (VV i j)) q).
      apply (HA b lg Hb' Ha). exists i, j. split; [lia|]. split; [lia|]. exists q, (wat (le_split (esize t) (VV i j)) q). split; [|reflexivity].
      apply rd_wat. unfold zlen. rewrite le_split_length. fold es. lia.
    - assert (logs' = logs) as ->.
      { clear - El. revert logs' El. induction logs as [|l logs IH]; intros [|l' logs'] E; try discriminate; [reflexivity|]. injection E as -> E. f_equal. auto. }
      intros order Ho. eapply wp_mono; [apply H, Ho|]. intros d' (D1 & D2 & _). split; [exact D1|]. intros i j q Hi Hj Hq.
      rewrite D2 by (exists i, j, q; auto). rewrite HVP by assumption. symmetry. apply rd_wat. unfold zlen. rewrite le_split_length. fold es. lia.
  Qed.
End Top.

Lemma asm_portable wrap ops t o rb prog : 0 < rb -> p_cmin o <= p_cmax o -> forall side, asm_ok wrap ops t o rb prog side ->
  forall L R ls rs G rows cols sr sc er ec f g tmp, side G ->
    call_ok rb t o L R ls rs G rows cols sr sc er ec -> tr_ok o er -> 4 * rb * Z.of_nat (esize t) <= zlen tmp ->
    exists lp, kernel_val (pmat rb L ls G) (pmat 4 R rs G) (fun a => run_of ops t o (wrap a)) rows cols sr sc er ec [] = Some lp /\
    exists n lg, (forall n', (n <= n')%nat -> asm_kernel ops prog n' t f g tmp L R rb ls rs (4 * G) rows cols sr sc er ec o = Some lg) /\
      bytes_of t lp lg.
Proof. intros Hrb Hc side Ha. exact (k_portable wrap ops t o rb (K64 ops prog t o rb) (K64_mono ops prog t o rb) Hrb Hc side Ha). Qed.
Definition bgemm_asm_ok wrap ops t o rb prog side := bgemm_k_ok wrap ops t o rb (K64 ops prog t o rb) side (K64_mono ops prog t o rb).
