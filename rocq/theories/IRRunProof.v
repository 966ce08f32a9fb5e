(** * IRRunProof: the machine of IRRun.v computes what IR.v's semantics says (C68). *)
From Coq Require Import QArith Lqa.
From Verif Require Import Base Spec Bits Bitpack Padding Reference OutputTransform MaxPool Quantize ConvFold
  Bgemm BgemmConv Prepare Lifecycle EndToEnd IndirectBuf Threshold IR IRProofs IRRules IRRun.
Open Scope Z_scope.

(** ** Shapes *)
Lemma numel_nonneg s : nonneg s -> 0 <= numel s.
Proof. intros H. induction H as [|d s Hd Hs IH]; cbn [numel]; nia. Qed.
Lemma range_nonneg s i : in_range s i -> nonneg s.
Proof. intros H. induction H; constructor; auto; lia. Qed.
Lemma range_inv C s i : in_range (C :: s) i -> exists c i', i = c :: i' /\ 0 <= c < C /\ in_range s i'.
Proof. intros H. inversion H as [|? c ? i' H1 H2]; subst. eauto. Qed.
Lemma ravel_cons C s c i : ravel (C :: s) (c :: i) = ravel s i * C + c.
Proof. cbn [ravel]. ring. Qed.
(** Every row number is the offset of an index. *)
Lemma unravel_ok s k : nonneg s -> 0 <= k < numel s -> in_range s (unravel s k) /\ ravel s (unravel s k) = k.
Proof.
  intros Hs. revert k. induction Hs as [|d s Hd Hs IH]; intros k Hk; cbn [numel unravel ravel] in *.
  - split; [constructor|lia].
  - assert (N := numel_nonneg s Hs). assert (0 < d) by nia. assert (0 < numel s) by nia.
    assert (Hm := Z.mod_pos_bound k d ltac:(lia)). assert (Hdm := Z.div_mod k d ltac:(lia)).
    destruct (IH (k / d)) as [I1 I2]; [split; [apply Z.div_pos; lia|apply Z.div_lt_upper_bound; lia]|].
    split; [constructor; [lia|exact I1]|]. rewrite I2. lia.
Qed.

(** ** LceQuantize *)
Lemma quantize_Q_ok rows cols inp out :
  0 <= rows -> 0 <= cols -> zlen inp = rows * cols -> zlen out = rows * words cols ->
  wp (quantize_Q rows cols inp out) (fun o => packed o rows cols /\
    forall r c v, 0 <= r < rows -> 0 <= c < cols -> rd inp (r * cols + c) = Some v ->
      bit_of o (words cols) r c = Qlt_bool v 0).
Proof.
  intros Hr Hc Hi Ho. unfold quantize_Q, bitpack_tensor.
  assert (Irr : forall z : et q_elem, et_ltb q_elem z z = false)
    by (intros z; cbn [et_ltb q_elem]; apply negb_false_iff, Qle_bool_iff, Qle_refl).
  apply bitpack_matrix_wp; try lia; [exact Irr|rewrite <- Hi; apply Z.le_refl|reflexivity|].
  intros o HP. exact (matrix_post_packed q_elem Irr inp rows cols out 0 o Hr Hc Ho HP).
Qed.
Lemma Qlt_bool_comp x y : (x == y)%Q -> Qlt_bool x 0 = Qlt_bool y 0.
Proof. intros E. unfold Qlt_bool. rewrite E. reflexivity. Qed.

Lemma quant_float_exec (t : tensor Q) d l : holds Qeq t d l -> sh t <> [] ->
  exists C s, rev d = C :: s /\ sh t = C :: s /\ forall out, zlen out = numel s * GetBitpackedSize C ->
    wp (quantize_Q (numel s) C l out) (fun o =>
      rep (VBits (tmap (fun x => Qlt_bool x 0) t)) (BW (rev (GetBitpackedSize C :: s)) o)).
Proof.
  intros (HN & -> & HL & HE) Hne. rewrite rev_involutive. destruct (sh t) as [|C s] eqn:Es; [congruence|].
  exists C, s. do 2 (split; [reflexivity|]). inversion HN as [|? ? HC Hs]; subst.
  assert (N := numel_nonneg s Hs). rewrite GetBitpackedSize_words by lia. intros out Ho. cbn [numel] in HL.
  eapply wp_mono; [apply quantize_Q_ok; try lia|]. intros o [P1 P2]. cbn [rep tmap sh at_]. rewrite Es.
  split; [exact HN|]. split; [reflexivity|]. split; [exact P1|]. intros c i Hi.
  destruct (range_inv _ _ _ Hi) as (c' & i' & E & Hc & Hi'). injection E as <- <-.
  destruct (HE _ Hi) as (x & Ex & Rx). rewrite ravel_cons in Ex. destruct (ravel_ok _ _ Hi') as [Hr _].
  rewrite (P2 _ _ x Hr Hc Ex). symmetry. apply Qlt_bool_comp. exact Rx.
Qed.
Lemma quant_bool_exec (t : tensor bool) d l : rep (VBool t) (BB d l) -> sh t <> [] ->
  exists C s, rev d = C :: s /\ sh t = C :: s /\ forall out, zlen out = numel s * GetBitpackedSize C ->
    wp (quantize_bool (numel s) C l out) (fun o =>
      rep (VBits (tmap negb t)) (BW (rev (GetBitpackedSize C :: s)) o)).
Proof.
  intros ((HN & -> & HL & HE) & HB) Hne. rewrite rev_involutive. destruct (sh t) as [|C s] eqn:Es; [congruence|].
  exists C, s. do 2 (split; [reflexivity|]). inversion HN as [|? ? HC Hs]; subst.
  assert (N := numel_nonneg s Hs). rewrite GetBitpackedSize_words by lia. intros out Ho. cbn [numel] in HL.
  destruct (quantize_bool_ok (numel s) C l out HB N HC ltac:(lia) Ho) as (o & Eo & P1 & P2). rewrite Eo.
  cbn [wp rep tmap sh at_]. rewrite Es.
  split; [exact HN|]. split; [reflexivity|]. split; [exact P1|]. intros c i Hi.
  destruct (range_inv _ _ _ Hi) as (c' & i' & E & Hc & Hi'). injection E as <- <-.
  destruct (HE _ Hi) as (x & Ex & Hx & ->). rewrite ravel_cons in Ex. destruct (ravel_ok _ _ Hi') as [Hr _].
  rewrite (P2 _ _ x Hr Hc Ex). rewrite Bool.negb_involutive. reflexivity.
Qed.

(** ** LceDequantize *)
Lemma dequant_exec (t : tensor bool) d l : rep (VBits t) (BW d l) ->
  exists C s, rev d = GetBitpackedSize C :: s /\ sh t = C :: s /\ forall out, zlen out = numel s * C ->
    wp (dequantize_Q (numel s) C l out) (fun o =>
      rep (VF (tmap (fun b => inject_Z (pm b)) t)) (BF (rev (C :: s)) o)).
Proof.
  cbn [rep]. destruct (sh t) as [|C s] eqn:Es; [intros []|]. intros (HN & -> & HP & HE). rewrite rev_involutive.
  inversion HN as [|? ? HC Hs]; subst. assert (N := numel_nonneg s Hs). exists C, s.
  rewrite GetBitpackedSize_words by lia. do 2 (split; [reflexivity|]). intros out Ho.
  destruct HP as (HL & _ & _). unfold dequantize_Q. apply unpack_matrix_wp; try lia.
  intros o (U1 & _ & U3). cbn [rep]. unfold holds. cbn [tmap sh at_]. rewrite Es.
  split; [exact HN|]. split; [reflexivity|]. split; [cbn [numel]; lia|]. intros i Hi.
  destruct (range_inv _ _ _ Hi) as (c & i' & -> & Hc & Hi'). destruct (ravel_ok _ _ Hi') as [Hr _].
  rewrite ravel_cons. eexists. split; [apply U3; auto|]. rewrite HE by exact Hi.
  destruct (at_ t (c :: i')); reflexivity.
Qed.

(** ** LceBMaxPool2d *)
Lemma win_iff n o s p f i : In i (win n o s p f) <-> 0 <= i < n /\ o * s - p <= i < o * s - p + f.
Proof.
  unfold win. rewrite filter_In, in_map_iff, andb_true_iff, Z.leb_le, Z.ltb_lt. split.
  - intros ((k & <- & Hk) & H). unfold build in Hk. apply in_map_iff in Hk. destruct Hk as (j & <- & Hj).
    apply in_seq in Hj. lia.
  - intros (H1 & H2). split; [|lia]. exists (i - (o * s - p)). split; [lia|]. unfold build. apply in_map_iff.
    exists (Z.to_nat (i - (o * s - p))). split; [lia|]. apply in_seq. lia.
Qed.
Lemma window_list_iff {A} (t : tensor A) p H W py px c x y b v :
  In v (window_list t p H W py px c x y b) <->
  exists iy ix, window (pa_sh p) (pa_sw p) py px (pa_fh p) (pa_fw p) H W y x iy ix /\ v = at_ t [c; ix; iy; b].
Proof.
  unfold window_list. rewrite in_flat_map. split.
  - intros (iy & Hy & Hv). apply in_map_iff in Hv. destruct Hv as (ix & <- & Hx). apply win_iff in Hy, Hx.
    exists iy, ix. unfold window. split; [lia|reflexivity].
  - intros (iy & ix & Hw & ->). unfold window in Hw. exists iy. split; [apply win_iff; lia|]. apply in_map_iff.
    exists ix. split; [reflexivity|]. apply win_iff. lia.
Qed.
Lemma pm_le_true a : pm a <= -1 -> a = true.
Proof. destruct a; [reflexivity|cbn; lia]. Qed.
Lemma pm_inj a b : pm a = pm b -> a = b.
Proof. destruct a, b; cbn; intros; try reflexivity; lia. Qed.

Lemma pool_exec kt p (t : tensor bool) d l v : rep (VBits t) (BW d l) ->
  denote (OBMaxPool p) [VBits t] = Some v -> op_ok kt (OBMaxPool p) [VBits t] ->
  exists b h w k, d = [b; h; w; k] /\
    wp (pool_prepare (pa_pad p) b h w k (pa_fh p) (pa_fw p) (pa_sh p) (pa_sw p)) (fun q =>
      forall out, zlen out = b * moh q * mow q * k ->
        wp (BMaxPool q l out) (fun o => rep v (BW [b; moh q; mow q; k] o))).
Proof.
  cbn [rep denote op_ok]. unfold pool. destruct (sh t) as [|C [|W [|H [|N [|]]]]] eqn:Es; try discriminate.
  intros (HN & -> & HP & HE) Hd (Hpad & HH & HW & Hfh & Hfw & Hsh & Hsw & Hfit).
  exists N, H, W, (words C). split; [reflexivity|].
  inversion HN as [|? ? HC HN1]; subst. inversion HN1 as [|? ? _ HN2]; subst. inversion HN2 as [|? ? _ HN3]; subst.
  inversion HN3 as [|? ? HNN _]; subst. cbn [numel] in HP.
  assert (Ez : (pa_sh p =? 0) || (pa_sw p =? 0) || (pa_fh p =? 0) || (pa_fw p =? 0) = false) by lia.
  destruct (pool_prepare (pa_pad p) N H W (words C) (pa_fh p) (pa_fw p) (pa_sh p) (pa_sw p)) as [q|] eqn:Eq.
  2:{ unfold pool_prepare in Eq. rewrite Ez in Eq.
      destruct (padding1D (pa_pad p) H (pa_fh p) (pa_sh p) 1), (padding1D (pa_pad p) W (pa_fw p) (pa_sw p) 1). discriminate. }
  cbn [wp]. intros out Ho.
  destruct (pool_end_to_end (pa_pad p) N H W C (pa_fh p) (pa_fw p) (pa_sh p) (pa_sw p) l q out Eq Hpad HNN HH HW HC
    Hfh Hfw Hsh Hsw Hfit) as (o & Eo & Po & Mo); [replace (N * H * W) with (W * (H * (N * 1))) by ring; exact HP|exact Ho|].
  rewrite Eo. cbn [wp].
  unfold pool_prepare in Eq. rewrite Ez in Eq.
  destruct (padding1D (pa_pad p) H (pa_fh p) (pa_sh p) 1) as [oh py] eqn:Ey.
  destruct (padding1D (pa_pad p) W (pa_fw p) (pa_sw p) 1) as [ow px] eqn:Ex. injection Eq as <-.
  cbn [moh mow mph mpw] in *. cbn [option_map] in Hd. injection Hd as <-. cbn [rep sh at_].
  assert (Hoh : 0 <= oh).
  { destruct (pa_pad p) eqn:Ep; [|destruct (Hfit eq_refl) as [F1 F2]|contradiction].
    - rewrite padding_same in Ey by lia. injection Ey as <- _. unfold same_out. apply Z.div_pos; lia.
    - destruct (valid_geometry H (pa_fh p) (pa_sh p) 1) as (E & _); [unfold eff; lia..|]. rewrite E in Ey. injection Ey as <- _.
      unfold valid_out, eff. apply Z.div_pos; lia. }
  assert (How : 0 <= ow).
  { destruct (pa_pad p) eqn:Ep; [|destruct (Hfit eq_refl) as [F1 F2]|contradiction].
    - rewrite padding_same in Ex by lia. injection Ex as <- _. unfold same_out. apply Z.div_pos; lia.
    - destruct (valid_geometry W (pa_fw p) (pa_sw p) 1) as (E & _); [unfold eff; lia..|]. rewrite E in Ex. injection Ex as <- _.
      unfold valid_out, eff. apply Z.div_pos; lia. }
  split; [repeat constructor; lia|]. split; [reflexivity|].
  split; [cbn [numel]; replace (ow * (oh * (N * 1))) with (N * oh * ow) by ring; exact Po|].
  intros c i Hi. destruct (range_inv _ _ _ Hi) as (c' & i' & E & Hc & Hi'). injection E as <- <-.
  destruct (range_inv _ _ _ Hi') as (x & i2 & -> & Hx & Hi2). destruct (range_inv _ _ _ Hi2) as (y & i3 & -> & Hy & Hi3).
  destruct (range_inv _ _ _ Hi3) as (n & i4 & -> & Hn & Hi4). inversion Hi4; subst.
  cbn [ravel]. replace (x + ow * (y + oh * (n + N * 0))) with ((n * oh + y) * ow + x) by ring.
  destruct (Mo n y x c Hn Hy Hx Hc) as ((iy & ix & Hw & Em) & Hall).
  assert (Hbit : forall iy ix, window (pa_sh p) (pa_sw p) py px (pa_fh p) (pa_fw p) H W y x iy ix ->
    bit_of l (words C) ((n * H + iy) * W + ix) c = at_ t [c; ix; iy; n]).
  { intros jy jx Hj. unfold window in Hj. rewrite <- (HE c [jx; jy; n]) by (repeat constructor; lia).
    cbn [ravel]. f_equal. ring. }
  destruct (bit_of o (words C) ((n * oh + y) * ow + x) c) eqn:Eb; symmetry.
  - apply forallb_forall. intros b Hb. apply window_list_iff in Hb. destruct Hb as (jy & jx & Hj & ->).
    specialize (Hall jy jx Hj). cbv beta in Hall. rewrite Hbit in Hall by exact Hj. apply pm_le_true. exact Hall.
  - cbv beta in Em. rewrite Hbit in Em by exact Hw. apply pm_inj in Em. apply not_true_is_false. intros F.
    rewrite forallb_forall in F. assert (K : at_ t [c; ix; iy; n] = true).
    { apply F. apply window_list_iff. exists iy, ix. split; [exact Hw|reflexivity]. }
    congruence.
Qed.
