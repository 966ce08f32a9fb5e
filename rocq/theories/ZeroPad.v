(** * ZeroPad: model of core/bconv2d/zero_padding_correction.h and its use by
    the two optimised kernels. Float arithmetic is exact rational arithmetic. *)
From Coq Require Import QArith Lqa.
From Verif Require Import Base Spec Bits Loop4 Bitpack Reference OutputTransform RefTheorems Padding
  Log Bgemm BgemmProofs IndirectBuf IndirectTop BgemmConv Indirect.
Open Scope Z_scope.

(** zero_padding_correction.h 31-38 *)
Definition GetCacheSize (fh fw fc dr dc : Z) : Z :=
  let efw := (fw - 1) * dc + 1 in
  let efh := (fh - 1) * dr + 1 in
  4 * efh * efw * fc.

(** zero_padding_correction.h 118-133: the sum over the input channels of one
    filter tap. (An integer; the C++ float holds it exactly below 2^24.) *)
Definition cur_correction (filter : list Z) (fh fw input_channels : Z) (oc fy fx : Z) : option Z :=
  let packed_channels := GetBitpackedSize input_channels in
  let* popcount := for_ 0 packed_channels (fun in_c popcount =>
    let filter_idx := oc * (fh * fw * packed_channels) + fy * (fw * packed_channels)
                      + fx * packed_channels + in_c in
    let* w := rd filter filter_idx in
    Some (popcount + xor_popcount w 0)) 0 in
  Some (input_channels - 2 * popcount).

(** zero_padding_correction.h 40-175. The loops do not look at the float values:
    [zero], [plus] are the initial value and the += of [corrections] (lines 114,
    138-155), [emit m c] is the product stored in the cache (lines 167-168). *)
Definition CacheG {F M T : Type} (zero : F) (plus : F -> Z -> F) (emit : M -> F -> T)
    (filter : list Z) (fh fw fc input_channels dr dc : Z)
    (mult : list M) (cache : list T) : option (list T) :=
  let efw := (fw - 1) * dc + 1 in
  let efh := (fh - 1) * dr + 1 in
  for_ 0 efh (fun y cache => for_ 0 efw (fun x cache => for_ 0 fc (fun oc cache =>
    let* (c0, c1, c2, c3) :=
      for_ 0 fh (fun fy s => for_ 0 fw (fun fx '(c0, c1, c2, c3) =>
        let* cur := cur_correction filter fh fw input_channels oc fy fx in
        let ex := dc * fx in
        let ey := dr * fy in
        let c0 := if (ey <? y) || (ex <? x) then plus c0 cur else c0 in
        let c1 := if (ey <? y) || (efw - ex <=? x) then plus c1 cur else c1 in
        let c2 := if (efh - ey <=? y) || (ex <? x) then plus c2 cur else c2 in
        let c3 := if (efh - ey <=? y) || (efw - ex <=? x) then plus c3 cur else c3 in
        Some (c0, c1, c2, c3)) s) (zero, zero, zero, zero) in
    for_ 0 4 (fun direction cache =>
      let output_idx := direction * (efh * efw * fc) + y * (efw * fc) + x * fc + oc in
      let* m := rd mult oc in
      let* corr := rd [c0; c1; c2; c3] direction in
      wr cache output_idx (emit m corr)) cache) cache) cache) cache.
(** With exact arithmetic. *)
Definition CacheCorrectionValues : list Z -> Z -> Z -> Z -> Z -> Z -> Z -> list Q -> list Q -> option (list Q) :=
  CacheG 0 Z.add (fun m corr => (- (1)) * m * inject_Z corr)%Q.

(** zero_padding_correction.h 178-306. The loop over out_x is a [while] because
    its body advances out_x. [add] is the float addition of line 298. *)
Definition ApplyG {T : Type} (add : T -> T -> T) (p : bconv) (cache : list T) (out : list T) : option (list T) :=
  let fc := out_c p in
  let efw := (f_w p - 1) * dl_w p + 1 in
  let efh := (f_h p - 1) * dl_h p + 1 in
  let left_offset := Z.quot ((out_w p - 1) * s_w p + efw - in_w p) 2 in
  let top_offset := Z.quot ((out_h p - 1) * s_h p + efh - in_h p) 2 in
  for_ 0 (batches p) (fun batch out => for_ 0 (out_h p) (fun out_y out =>
    let top := top_offset - out_y * s_h p in
    let bot := - top - in_h p + efh in
    let* (_, out) := while_ (Z.to_nat (out_w p) + 1)
      (fun '(out_x, _) => out_x <? out_w p)
      (fun '(out_x, out) =>
        let left := left_offset - out_x * s_w p in
        let right := - left - in_w p + efw in
        if (left <=? 0) && (right <=? 0) && (top <=? 0) && (bot <=? 0) then
          let* q := cdiv (in_w p + left_offset - efw + s_w p - 1) (s_w p) in
          let new_out_x := q - 1 in
          Some ((if out_x <? new_out_x then new_out_x else out_x) + 1, out)
        else
          let sel :=
            if (right <=? 0) && (0 <? top) && (bot <? 0) then
              Some (0, (if 0 <=? left then left else 0), top)
            else if (left <? 0) && (0 <? right) && (bot <=? 0) then
              Some (1, right, (if 0 <=? top then top else 0))
            else if (0 <? left) && (right <? 0) && (top <=? 0) then
              Some (2, left, (if 0 <=? bot then bot else 0))
            else if (left <=? 0) && (top <? 0) && (0 <? bot) then
              Some (3, (if 0 <=? right then right else 0), bot)
            else None in
          match sel with
          | None => Some (out_x + 1, out)                  (* "This cannot happen." *)
          | Some (case_num, cache_X, cache_Y) =>
              let cache_idx := case_num * (efh * efw * fc) + cache_Y * (efw * fc) + cache_X * fc in
              let out_idx := batch * out_h p * out_w p * fc + out_y * out_w p * fc + out_x * fc in
              let* out := for_ 0 fc (fun oc out =>
                let* o := rd out (out_idx + oc) in
                let* k := rd cache (cache_idx + oc) in
                wr out (out_idx + oc) (add o k)) out in
              Some (out_x + 1, out)
          end) (0, out) in
    Some out) out) out.
Definition ApplyCorrection : bconv -> list Q -> list Q -> option (list Q) := ApplyG Qplus.

(** tflite/kernels/bconv2d.cc 337-352 (OneTimeSetup): the padding buffer;
    [buf] is the vector after resizing (arbitrary contents). *)
Definition padding_buffer (p : bconv) (filter : list Z) (post_mul : list Q) (buf : list Q) : option (list Q) :=
  if zero_padding p then
    CacheCorrectionValues filter (f_h p) (f_w p) (out_c p) (Z.quot (channels_in p) (groups p))
      (dl_h p) (dl_w p) post_mul buf
  else Some buf.

(** optimized_bgemm.h 152-181 / optimized_indirect_bgemm.h 37-62, float output. *)
Definition correct (p : bconv) (cache out : list Q) : option (list Q) :=
  if zero_padding p then ApplyCorrection p cache out else Some out.

(** Eval of the two optimised kernels with float output (bconv2d.cc 416-496). *)
Definition eval_bgemm_float (kr lc rc : Z) (S : schedule) (p : bconv) (a : activation) (input filter : list Z)
    (post_mul post_bias buf out : list Q) (Post : list Q -> Prop) : Prop :=
  wp (one_time_setup p a post_mul post_bias 1 0) (fun t =>
  wp (padding_buffer p filter post_mul buf) (fun cache =>
  bgemm_conv_val kr lc rc S p input filter (run_float Qops t) out (fun out =>
  wp (correct p cache out) Post))).
Definition eval_indirect_float (p : bconv) (a : activation) (input filter : list Z)
    (post_mul post_bias buf out : list Q) : option (list Q) :=
  let* t := one_time_setup p a post_mul post_bias 1 0 in
  let* cache := padding_buffer p filter post_mul buf in
  let* out := indirect_val p input filter (run_float Qops t) out in
  correct p cache out.

Lemma radix_div d a b : 0 <= b < d -> (a * d + b) / d = a.
Proof. intros H. rewrite Z.add_comm, Z.div_add, Z.div_small by lia. lia. Qed.
Lemma radix_mod d a b : 0 <= b < d -> (a * d + b) mod d = b.
Proof. intros H. rewrite Z.add_comm, Z.mod_add, Z.mod_small by lia. lia. Qed.

(** ** One axis *)
Lemma axis_ok n k s d o :
  1 <= n -> 1 <= k -> 1 <= s -> 1 <= d -> eff k d <= n -> 0 <= o < same_out n s ->
  let e := (k - 1) * d + 1 in
  let off := Z.quot ((same_out n s - 1) * s + e - n) 2 in
  let lo := off - o * s in
  let hi := - lo - n + e in
  lo < e /\ hi < e /\ (0 < lo -> hi < 0) /\ (0 < hi -> lo < 0) /\
  (forall t, 0 <= t < k ->
     (d * t <? lo) = (o * s - same_before n k s d + t * d <? 0) /\
     (e - d * t <=? hi) = (n <=? o * s - same_before n k s d + t * d)) /\
  (* the skip *)
  Z.quot (n + off - e + s - 1) s <= same_out n s /\
  (lo <= 0 -> hi <= 0 ->
     let q := Z.quot (n + off - e + s - 1) s in
     forall o', o < o' -> o' < q -> off - o' * s <= 0 /\ - (off - o' * s) - n + e <= 0).
Proof.
  intros Hn Hk Hs Hd He Ho e off lo hi. unfold eff in He. fold e in He.
  assert (HL := same_out_last n s ltac:(lia) Hs).
  assert (Hos : 0 <= o * s <= (same_out n s - 1) * s) by nia.
  unfold same_before, same_total, eff. fold e.
  set (X := (same_out n s - 1) * s) in *. set (os := o * s) in *.
  assert (Hsx : same_out n s * s = X + s) by (unfold X; ring). rewrite Hsx in HL.
  assert (He1 : 1 <= e) by (unfold e; nia).
  assert (Hoff : X + e - n < 0 /\ off <= 0 /\ X + e - n <= off /\ 1 - s <= 2 * off \/
                 0 <= X + e - n /\ off = (X + e - n) / 2).
  { unfold off. clear -HL Hs He1. destruct (Z.ltb_spec (X + e - n) 0); [left|right]; lia. }
  clearbody off. unfold lo, hi.
  split; [lia|]. split; [lia|]. split; [lia|]. split; [lia|]. split.
  - intros t Ht. assert (Htd : 0 <= d * t <= (k - 1) * d) by nia.
    replace (t * d) with (d * t) by ring. set (td := d * t) in *. clearbody td.
    assert (Etd : td <= e - 1) by (unfold e; lia). clearbody e.
    destruct Hoff as [(H1 & H2 & H3 & H4)|[H1 ->]].
    + rewrite Z.max_l by lia. change (0 / 2) with 0. split; lia.
    + rewrite Z.max_r by lia. split; lia.
  - split.
    { clearbody e. rewrite Z.quot_div_nonneg by lia.
      apply Z.lt_succ_r. apply Z.div_lt_upper_bound; [lia|]. unfold Z.succ.
      replace (s * (same_out n s + 1)) with (same_out n s * s + s) by ring. rewrite Hsx. lia. }
    cbv zeta. intros Hlo Hhi o' H1 H2.
    rewrite Z.quot_div_nonneg in H2 by lia.
    assert (Hq := Z.div_mod (n + off - e + s - 1) s ltac:(lia)).
    assert (Hr := Z.mod_pos_bound (n + off - e + s - 1) s ltac:(lia)).
    set (q := (n + off - e + s - 1) / s) in *.
    assert (o * s <= o' * s) by nia. assert (o' * s <= (q - 1) * s) by nia. fold os in H. lia.
Qed.

(** ** The cache *)
(** Sum over the taps selected by [cond]. *)
Definition sel_sum (fh fw : Z) (cond : Z -> Z -> bool) (cur : Z -> Z -> Z) : Z :=
  sum_ fh (fun fy => sum_ fw (fun fx => if cond fy fx then cur fy fx else 0)).
Definition case_cond (efh efw dr dc dir y x fy fx : Z) : bool :=
  (if dir <? 2 then dr * fy <? y else efh - dr * fy <=? y) ||
  (if dir mod 2 =? 0 then dc * fx <? x else efw - dc * fx <=? x).

Lemma sel_sum_ext fh fw c1 c2 cur :
  (forall fy fx, 0 <= fy < fh -> 0 <= fx < fw -> c1 fy fx = c2 fy fx) ->
  sel_sum fh fw c1 cur = sel_sum fh fw c2 cur.
Proof.
  intros H. apply sum_ext. intros fy Hy. apply sum_ext. intros fx Hx. rewrite H by assumption. reflexivity.
Qed.

Definition quad : Type := Z * Z * Z * Z.
Lemma quad_sum n (f : Z -> quad) (body : Z -> quad -> option quad) s :
  0 <= n ->
  (forall i c0 c1 c2 c3, 0 <= i < n -> body i (c0, c1, c2, c3) =
     let '(d0, d1, d2, d3) := f i in Some (c0 + d0, c1 + d1, c2 + d2, c3 + d3)) ->
  for_ 0 n body s = let '(c0, c1, c2, c3) := s in
    Some (c0 + sum_ n (fun i => let '(d, _, _, _) := f i in d), c1 + sum_ n (fun i => let '(_, d, _, _) := f i in d),
          c2 + sum_ n (fun i => let '(_, _, d, _) := f i in d), c3 + sum_ n (fun i => let '(_, _, _, d) := f i in d)).
Proof.
  intros Hn Hb. destruct s as (((c0, c1), c2), c3).
  match goal with |- _ = Some ?R => assert (H : wp (for_ 0 n body (c0, c1, c2, c3)) (fun r => r = R)) end.
  2:{ apply wp_iff in H. destruct H as (r & -> & ->). reflexivity. }
  apply (for_wp (fun i (r : quad) => r =
    (c0 + sum_ i (fun i => let '(d, _, _, _) := f i in d), c1 + sum_ i (fun i => let '(_, d, _, _) := f i in d),
     c2 + sum_ i (fun i => let '(_, _, d, _) := f i in d), c3 + sum_ i (fun i => let '(_, _, _, d) := f i in d)))).
  - rewrite !sum_0, !Z.add_0_r by lia. reflexivity.
  - intros i t Hi ->. rewrite Hb by exact Hi. rewrite !sum_succ by lia.
    destruct (f i) as (((d0, d1), d2), d3). cbn [wp].
    rewrite <- !Z.add_assoc. reflexivity.
  - intros t ->. rewrite Z.max_r by lia. reflexivity.
Qed.

Section CacheGen.
  Context {F M T : Type}.
  Variables (zero : F) (plus : F -> Z -> F) (emit : M -> F -> T).
  Variables (filter : list Z) (fh fw fc ci dr dc : Z) (mult : list M) (cf : Z -> Z -> Z -> Z -> F).
  Hypothesis (Hfh : 1 <= fh) (Hfw : 1 <= fw) (Hfc : 0 <= fc) (Hdr : 1 <= dr) (Hdc : 1 <= dc).
  Hypothesis Hmult : zlen mult = fc.
  Let efh := (fh - 1) * dr + 1.
  Let efw := (fw - 1) * dc + 1.
  Hypothesis Hcf : forall y x oc, 0 <= oc < fc ->
    for_ 0 fh (fun fy s => for_ 0 fw (fun fx '(c0, c1, c2, c3) =>
        let* cur := cur_correction filter fh fw ci oc fy fx in
        let ex := dc * fx in
        let ey := dr * fy in
        let c0 := if (ey <? y) || (ex <? x) then plus c0 cur else c0 in
        let c1 := if (ey <? y) || (efw - ex <=? x) then plus c1 cur else c1 in
        let c2 := if (efh - ey <=? y) || (ex <? x) then plus c2 cur else c2 in
        let c3 := if (efh - ey <=? y) || (efw - ex <=? x) then plus c3 cur else c3 in
        Some (c0, c1, c2, c3)) s) (zero, zero, zero, zero)
    = Some (cf 0 y x oc, cf 1 y x oc, cf 2 y x oc, cf 3 y x oc).

  Lemma cacheg_ok cache : zlen cache = GetCacheSize fh fw fc dr dc ->
    exists cache', CacheG zero plus emit filter fh fw fc ci dr dc mult cache = Some cache' /\
      zlen cache' = zlen cache /\
      forall dir y x oc m, 0 <= dir < 4 -> 0 <= y < efh -> 0 <= x < efw -> rd mult oc = Some m ->
        rd cache' (dir * (efh * efw * fc) + y * (efw * fc) + x * fc + oc)
        = Some (emit m (cf dir y x oc)).
  Proof.
    intros Hlen. apply wp_iff. unfold CacheG.
    assert (Hefh : 1 <= efh) by (unfold efh; nia). assert (Hefw : 1 <= efw) by (unfold efw; nia).
    unfold GetCacheSize in Hlen. fold efh efw in Hlen |- *.
    set (V := fun dir q => match rd mult (q mod fc) with
      | Some m => Some (emit m (cf dir (q / fc / efw) (q / fc mod efw) (q mod fc)))
      | None => None end).
    set (N := efh * efw * fc) in *. assert (HN : 0 <= N) by (unfold N; nia).
    assert (Hlen4 : zlen cache = 4 * N) by (rewrite Hlen; unfold N; ring).
    set (Inv := fun n (c : list T) => zlen c = 4 * N /\
      forall dir q, 0 <= dir < 4 -> 0 <= q < n -> rd c (dir * N + q) = V dir q).
    assert (H0 : Inv 0 cache) by (split; [exact Hlen4|intros; lia]).
    eapply wp_mono.
    - apply (for_cnt Inv H0 efh (efw * fc) N); [lia|unfold N; ring|].
      intros y c Hy Hc. apply (for_cnt Inv Hc efw fc); [lia|ring|].
      intros x c1 Hx Hc1. apply (for_cnt Inv Hc1 fc 1); [lia|ring|].
      intros oc c2 Hoc Hc2. fold efh efw. rewrite Hcf by exact Hoc. cbn [bind].
      assert (Hq1 : 0 <= y * efw + x < efh * efw) by (apply radix_lt; assumption).
      assert (Hq2 : 0 <= (y * efw + x) * fc + oc < efh * efw * fc) by (apply radix_lt; assumption).
      replace (0 + y * (efw * fc) + x * fc + oc * 1) with ((y * efw + x) * fc + oc) in * by ring.
      fold N in Hq2. set (q := (y * efw + x) * fc + oc) in *.
      assert (HV : forall dir, match rd mult oc with Some m =>
          V dir q = Some (emit m (cf dir y x oc)) | None => False end).
      { intros dir. destruct (rd_some mult oc ltac:(lia)) as [m Hm]. rewrite Hm. unfold V.
        unfold q. rewrite !radix_div, !radix_mod by assumption. rewrite Hm. reflexivity. }
      destruct (rd_some mult oc ltac:(lia)) as [m Hm].
      assert (HV' : forall dir, V dir q = Some (emit m (cf dir y x oc))).
      { intros dir. specialize (HV dir). rewrite Hm in HV. exact HV. }
      assert (Eq : (y * efw + x) * fc + oc = q) by reflexivity.
      clearbody q. clear HV.
      apply (for_wp (fun k c => Inv q c /\ forall dir, 0 <= dir < k -> rd c (dir * N + q) = V dir q)).
      + split; [exact Hc2|intros; lia].
      + intros dir c3 Hd ((L3 & C3) & D3). rewrite Hm. cbn [bind].
        assert (Er : rd [cf 0 y x oc; cf 1 y x oc; cf 2 y x oc; cf 3 y x oc] dir = Some (cf dir y x oc)).
        { assert (Hcase : dir = 0 \/ dir = 1 \/ dir = 2 \/ dir = 3) by lia.
          destruct Hcase as [-> | [-> | [-> | ->]]]; reflexivity. }
        rewrite Er. cbn [bind]. specialize (HV' dir).
        replace (dir * N + y * (efw * fc) + x * fc + oc) with (dir * N + ((y * efw + x) * fc + oc)) by ring.
        rewrite Eq.
        assert (Hb := radix_lt 4 N dir q ltac:(lia) Hq2).
        apply wr_wp; [lia|]. intros c4 L4 S4 O4. split; [split; [lia|]|].
        * intros d2 q2 Hd2 Hq. rewrite O4; [apply C3; assumption|].
          intros E. apply radix_inj in E; lia.
        * intros d2 Hd2. destruct (Z.eq_dec d2 dir) as [-> | Hne]; [rewrite HV'; exact S4|].
          rewrite O4; [apply D3; lia|]. intros E. apply radix_inj in E; lia.
      + change (Z.max 0 4) with 4. intros c3 ((L3 & C3) & D3). split; [exact L3|].
        intros dir q2 Hd Hq. destruct (Z.eq_dec q2 q) as [-> | Hne]; [apply D3, Hd|apply C3; lia].
    - intros c (L & C). split; [lia|]. intros dir y x oc m Hd Hy Hx Hm.
      assert (Hoc := rd_bounds _ _ _ Hm). rewrite Hmult in Hoc.
      assert (Hq1 : 0 <= y * efw + x < efh * efw) by (apply radix_lt; assumption).
      assert (Hq2 : 0 <= (y * efw + x) * fc + oc < efh * efw * fc) by (apply radix_lt; assumption).
      replace (dir * N + y * (efw * fc) + x * fc + oc) with (dir * N + ((y * efw + x) * fc + oc)) by ring.
      rewrite C by assumption. unfold V.
      rewrite !radix_div, !radix_mod by assumption. rewrite Hm. reflexivity.
  Qed.
End CacheGen.

Section Cache.
  Variables (filter : list Z) (fh fw fc ci dr dc : Z) (mult : list Q) (cur : Z -> Z -> Z -> Z).
  Hypothesis (Hfh : 1 <= fh) (Hfw : 1 <= fw) (Hfc : 0 <= fc) (Hdr : 1 <= dr) (Hdc : 1 <= dc).
  Hypothesis Hmult : zlen mult = fc.
  Hypothesis Hcur : forall oc fy fx, 0 <= oc < fc -> 0 <= fy < fh -> 0 <= fx < fw ->
    cur_correction filter fh fw ci oc fy fx = Some (cur oc fy fx).
  Let efh := (fh - 1) * dr + 1.
  Let efw := (fw - 1) * dc + 1.
  Definition corr (dir y x oc : Z) : Z := sel_sum fh fw (case_cond efh efw dr dc dir y x) (cur oc).

  Lemma corrections_ok y x oc : 0 <= oc < fc ->
    for_ 0 fh (fun fy s => for_ 0 fw (fun fx '(c0, c1, c2, c3) =>
        let* cur := cur_correction filter fh fw ci oc fy fx in
        let ex := dc * fx in
        let ey := dr * fy in
        let c0 := if (ey <? y) || (ex <? x) then c0 + cur else c0 in
        let c1 := if (ey <? y) || (efw - ex <=? x) then c1 + cur else c1 in
        let c2 := if (efh - ey <=? y) || (ex <? x) then c2 + cur else c2 in
        let c3 := if (efh - ey <=? y) || (efw - ex <=? x) then c3 + cur else c3 in
        Some (c0, c1, c2, c3)) s) (0, 0, 0, 0)
    = Some (corr 0 y x oc, corr 1 y x oc, corr 2 y x oc, corr 3 y x oc).
  Proof.
    intros Hoc.
    set (t := fun dir fy fx => if case_cond efh efw dr dc dir y x fy fx then cur oc fy fx else 0).
    rewrite (quad_sum fh (fun fy => (sum_ fw (t 0 fy), sum_ fw (t 1 fy), sum_ fw (t 2 fy), sum_ fw (t 3 fy)))).
    - reflexivity.
    - lia.
    - intros fy c0 c1 c2 c3 Hfy.
      rewrite (quad_sum fw (fun fx => (t 0 fy fx, t 1 fy fx, t 2 fy fx, t 3 fy fx))).
      + reflexivity.
      + lia.
      + intros fx e0 e1 e2 e3 Hfx. rewrite Hcur by assumption. cbn [bind].
        unfold t, case_cond. change (0 mod 2 =? 0) with true. change (1 mod 2 =? 0) with false.
        change (2 mod 2 =? 0) with true. change (3 mod 2 =? 0) with false.
        change (0 <? 2) with true. change (1 <? 2) with true. change (2 <? 2) with false. change (3 <? 2) with false.
        cbv iota zeta.
        destruct (dr * fy <? y), (dc * fx <? x), (efw - dc * fx <=? x), (efh - dr * fy <=? y); cbn [orb];
          f_equal; repeat match goal with |- (_, _) = (_, _) => f_equal end; lia.
  Qed.

  Lemma cache_ok cache : zlen cache = GetCacheSize fh fw fc dr dc ->
    exists cache', CacheCorrectionValues filter fh fw fc ci dr dc mult cache = Some cache' /\
      zlen cache' = zlen cache /\
      forall dir y x oc m, 0 <= dir < 4 -> 0 <= y < efh -> 0 <= x < efw -> rd mult oc = Some m ->
        rd cache' (dir * (efh * efw * fc) + y * (efw * fc) + x * fc + oc)
        = Some ((- (1)) * m * inject_Z (corr dir y x oc))%Q.
  Proof.
    exact (cacheg_ok 0 Z.add (fun m corr => (- (1)) * m * inject_Z corr)%Q filter fh fw fc ci dr dc mult
      corr Hfh Hfw Hfc Hdr Hdc Hmult corrections_ok cache).
  Qed.
End Cache.

(** ** Applying the correction *)
Section Apply.
  Variable p : bconv.
  Hypothesis WF : bconv_wf p.
  Hypothesis HP : prepared PadSame p.
  Hypothesis (Hfh : 1 <= f_h p) (Hfw : 1 <= f_w p) (Hsh : 1 <= s_h p) (Hsw : 1 <= s_w p)
             (Hdh : 1 <= dl_h p) (Hdw : 1 <= dl_w p).
  Hypothesis (Heh : eff (f_h p) (dl_h p) <= in_h p) (Hew : eff (f_w p) (dl_w p) <= in_w p).
  Context {T : Type}.
  Variables (add : T -> T -> T) (cur : Z -> Z -> Z -> Z) (cache : list T) (kv : Z -> Z -> Z -> Z -> T).
  Let efh := (f_h p - 1) * dl_h p + 1.
  Let efw := (f_w p - 1) * dl_w p + 1.
  Hypothesis Hcv : forall dir y x oc, 0 <= dir < 4 -> 0 <= y < efh -> 0 <= x < efw -> 0 <= oc < out_c p ->
    rd cache (dir * (efh * efw * out_c p) + y * (efw * out_c p) + x * out_c p + oc) = Some (kv dir y x oc).

  (** Sum of the filter taps that fall outside the image. *)
  Definition outside_sum (oy ox oc : Z) : Z :=
    sel_sum (f_h p) (f_w p) (fun fy fx => negb (inside (geom_of p)
      (oy * s_h p - pad_h p + fy * dl_h p) (ox * s_w p - pad_w p + fx * dl_w p))) (cur oc).

  (** What happened to one output: nothing if no tap falls outside, else one addition. *)
  Definition fixed (y x c : Z) (r0 r : T) : Prop :=
    (r = r0 /\ outside_sum y x c = 0) \/
    (exists dir Y X, 0 <= dir < 4 /\ 0 <= Y < efh /\ 0 <= X < efw /\ r = add r0 (kv dir Y X c) /\
       corr (f_h p) (f_w p) (dl_h p) (dl_w p) cur dir Y X c = outside_sum y x c).

  Lemma applyg_ok out : zlen out = out_pixels (geom_of p) * out_c p ->
    wp (ApplyG add p cache out) (fun o => zlen o = zlen out /\
      forall b y x c r0, 0 <= b < batches p -> 0 <= y < out_h p -> 0 <= x < out_w p -> 0 <= c < out_c p ->
        rd out (Offset (out_h p) (out_w p) (out_c p) b y x c) = Some r0 ->
        exists r, rd o (Offset (out_h p) (out_w p) (out_c p) b y x c) = Some r /\ fixed y x c r0 r).
  Proof.
    intros Hlen. assert (Hoc := out_c_nonneg p WF).
    destruct (wf_facts p WF) as (HB&HH&HW&_&_&HOH&HOW&_).
    destruct HP as (P1 & P2 & _ & _).
    rewrite padding_same in P1, P2 by (unfold eff in *; nia).
    injection P1 as Eoh Eph. injection P2 as Eow Epw.
    unfold out_pixels in Hlen. cbn [gB gOH gOW geom_of] in Hlen.
    set (G := fun b y x c (w : T) => exists r0,
      rd out (Offset (out_h p) (out_w p) (out_c p) b y x c) = Some r0 /\ fixed y x c r0 w).
    set (U := upto (batches p) (out_h p) (out_w p) (out_c p) G).
    assert (Hefh : 1 <= efh) by (unfold efh; nia). assert (Hefw : 1 <= efw) by (unfold efw; nia).
    assert (Hih : 1 <= in_h p) by (unfold eff, efh in *; lia).
    assert (Hiw : 1 <= in_w p) by (unfold eff, efw in *; lia).
    (* pixels without correction need not be touched *)
    assert (Hskip : forall b y x x' t, 0 <= b < batches p -> 0 <= y < out_h p -> 0 <= x <= x' -> x' <= out_w p ->
      (forall i c, x <= i < x' -> 0 <= c < out_c p -> outside_sum y i c = 0) ->
      U (Offset (out_h p) (out_w p) (out_c p) b y x 0) out t ->
      U (Offset (out_h p) (out_w p) (out_c p) b y x' 0) out t).
    { intros b y x x' t Hb Hy Hx Hx' Hz (L & C & O). split; [exact L|]. split.
      - intros b1 y1 x1 c1 Hb1 Hy1 Hx1 Hc1 Hlt.
        destruct (Z.lt_ge_cases (Offset (out_h p) (out_w p) (out_c p) b1 y1 x1 c1)
                    (Offset (out_h p) (out_w p) (out_c p) b y x 0)) as [H|H]; [apply C; assumption|].
        assert (HO := Offset_bounds (batches p) (out_h p) (out_w p) (out_c p) b1 y1 x1 c1 Hb1 Hy1 Hx1 Hc1).
        destruct (rd_some out (Offset (out_h p) (out_w p) (out_c p) b1 y1 x1 c1) ltac:(lia)) as [r0 Hr0].
        exists r0. split; [rewrite O by lia; exact Hr0|]. exists r0. split; [exact Hr0|].
        assert (b1 = b /\ y1 = y /\ x <= x1 < x') as (-> & -> & Hxx).
        { unfold Offset in H, Hlt. rewrite Z.add_0_r in H, Hlt.
          assert (A1 : (b * out_h p + y) * out_w p + x <= (b1 * out_h p + y1) * out_w p + x1).
          { apply Z.lt_succ_r. apply (Zmult_lt_reg_r _ _ (out_c p)); [lia|]. unfold Z.succ. lia. }
          assert (A2 : (b1 * out_h p + y1) * out_w p + x1 < (b * out_h p + y) * out_w p + x').
          { apply (Zmult_lt_reg_r _ _ (out_c p)); lia. }
          assert (A3 : b * out_h p + y = b1 * out_h p + y1) by (clear -A1 A2 Hx Hx' Hx1; nia).
          rewrite A3 in A1, A2. apply radix_inj in A3; [|assumption|assumption]. lia. }
        left. split; [reflexivity|]. apply Hz; (assumption || lia).
      - intros j Hj. apply O.
        assert (Offset (out_h p) (out_w p) (out_c p) b y x 0 <= Offset (out_h p) (out_w p) (out_c p) b y x' 0)
          by (unfold Offset; nia). lia. }
    eapply wp_mono.
    - unfold ApplyG. fold efh efw.
      set (lo_x := Z.quot ((out_w p - 1) * s_w p + efw - in_w p) 2).
      set (lo_y := Z.quot ((out_h p - 1) * s_h p + efh - in_h p) 2).
      assert (U0 : U 0 out out) by apply upto_0.
      apply (for_cnt (fun n t => U n out t) U0 (batches p) (out_h p * (out_w p * out_c p))
               (batches p * out_h p * out_w p * out_c p)); [lia|ring|].
      intros b t Hb Ht. apply (for_cnt (fun n t => U n out t) Ht (out_h p) (out_w p * out_c p)); [lia|ring|].
      intros y t1 Hy Ht1.
      replace (0 + b * (out_h p * (out_w p * out_c p)) + y * (out_w p * out_c p))
        with (Offset (out_h p) (out_w p) (out_c p) b y 0 0) in * by (unfold Offset; ring).
      replace (Offset (out_h p) (out_w p) (out_c p) b y 0 0 + out_w p * out_c p)
        with (Offset (out_h p) (out_w p) (out_c p) b y (out_w p) 0) by (unfold Offset; ring).
      destruct (axis_ok (in_h p) (f_h p) (s_h p) (dl_h p) y Hih Hfh Hsh Hdh Heh (eq_ind _ (fun n => 0 <= y < n) Hy _ Eoh))
        as (Yl & Yh & Yx1 & Yx2 & Yt & _ & _).
      rewrite <- Eph in Yt. rewrite <- Eoh in Yl, Yh, Yx1, Yx2, Yt. fold efh lo_y in Yl, Yh, Yx1, Yx2, Yt.
      set (top := lo_y - y * s_h p) in *. set (bot := - top - in_h p + efh) in *.
      assert (Hsum : forall x c, 0 <= x < out_w p ->
        outside_sum y x c = sel_sum (f_h p) (f_w p) (fun fy fx =>
          ((dl_h p * fy <? top) || (efh - dl_h p * fy <=? bot)) ||
          ((dl_w p * fx <? lo_x - x * s_w p) ||
           (efw - dl_w p * fx <=? - (lo_x - x * s_w p) - in_w p + efw))) (cur c)).
      { intros x c Hx.
        destruct (axis_ok (in_w p) (f_w p) (s_w p) (dl_w p) x Hiw Hfw Hsw Hdw Hew
          (eq_ind _ (fun n => 0 <= x < n) Hx _ Eow)) as (_ & _ & _ & _ & Xt & _ & _).
        rewrite <- Epw in Xt. rewrite <- Eow in Xt. fold efw lo_x in Xt.
        unfold outside_sum. apply sel_sum_ext. intros fy fx Hfy Hfx.
        destruct (Yt fy Hfy) as [-> ->]. destruct (Xt fx Hfx) as [-> ->].
        unfold inside. cbn [gH gW geom_of].
        set (a := y * s_h p - pad_h p + fy * dl_h p). set (e := x * s_w p - pad_w p + fx * dl_w p). clearbody a e.
        clear. lia. }
      assert (Hzero : forall x c, 0 <= x < out_w p -> top <= 0 -> bot <= 0 ->
        lo_x - x * s_w p <= 0 -> - (lo_x - x * s_w p) - in_w p + efw <= 0 -> outside_sum y x c = 0).
      { intros x c Hx T1 T2 T3 T4. rewrite Hsum by exact Hx.
        rewrite (sel_sum_ext _ _ _ (fun _ _ => false)).
        - unfold sel_sum. apply sum_zero. intros. apply sum_zero. reflexivity.
        - intros fy fx Hfy Hfx.
          assert (0 <= dl_h p * fy <= (f_h p - 1) * dl_h p) by (clear -Hfy Hdh; nia).
          assert (0 <= dl_w p * fx <= (f_w p - 1) * dl_w p) by (clear -Hfx Hdw; nia).
          unfold efh, efw in *. clear -H H0 T1 T2 T3 T4. lia. }
      apply wp_bind.
      apply (while_wp (fun '(x, t) => 0 <= x <= out_w p /\ U (Offset (out_h p) (out_w p) (out_c p) b y x 0) out t)
               (fun '(x, _) => out_w p - x)).
      + intros (x, t2) (Hx & _). lia.
      + intros (x, t2) (Hx & Ht2) Hlt. apply Z.ltb_lt in Hlt.
        destruct (axis_ok (in_w p) (f_w p) (s_w p) (dl_w p) x Hiw Hfw Hsw Hdw Hew
          (eq_ind _ (fun n => 0 <= x < n) (conj (proj1 Hx) Hlt) _ Eow)) as (Xl & Xh & Xx1 & Xx2 & _ & Xq & Xs).
        rewrite <- Eow in Xl, Xh, Xx1, Xx2, Xq, Xs.
        fold efw lo_x in Xl, Xh, Xx1, Xx2, Xq, Xs.
        assert (Hsx := fun c => Hsum x c (conj (proj1 Hx) Hlt)).
        assert (Hzx := fun c => Hzero x c (conj (proj1 Hx) Hlt)).
        set (left := lo_x - x * s_w p) in *. set (right := - left - in_w p + efw) in *.
        destruct ((left <=? 0) && (right <=? 0) && (top <=? 0) && (bot <=? 0)) eqn:Eall.
        * assert (Z4 : left <= 0 /\ right <= 0 /\ top <= 0 /\ bot <= 0) by (clear -Eall; lia).
          destruct Z4 as (Z1 & Z2 & Z3 & Z4).
          rewrite cdiv_nz by lia. cbn [bind wp]. specialize (Xs Z1 Z2).
          set (q := Z.quot (in_w p + lo_x - efw + s_w p - 1) (s_w p)) in *. rename Xq into Hq.
          set (x' := if x <? q - 1 then q - 1 else x).
          assert (Hx' : x <= x' < out_w p) by (clear -Hx Hlt Hq; unfold x'; destruct (Z.ltb_spec x (q - 1)); lia).
          assert (Hs1 : 0 <= x <= x' + 1) by (clear -Hx Hx'; lia).
          assert (Hs2 : x' + 1 <= out_w p) by (clear -Hx'; lia).
          split; [|clear -Hx'; lia]. split; [clear -Hx Hx'; lia|].
          refine (Hskip b y x (x' + 1) t2 Hb Hy Hs1 Hs2 _ Ht2).
          intros i c Hi Hc. destruct (Z.eq_dec i x) as [-> | Hne]; [apply Hzx; assumption|].
          assert (Hi2 : x < i < q) by (clear -Hi Hne; unfold x' in *; destruct (Z.ltb_spec x (q - 1)); lia).
          destruct (Xs i (proj1 Hi2) (proj2 Hi2)) as [A1 A2]. apply Hzero; try assumption. clear -Hi Hx Hx'. lia.
        * clear Hskip Yt Xs Xq Hzero Hzx Hsum. clearbody right left bot top. clearbody lo_x lo_y.
          assert (Hwrite : forall dir X Y, 0 <= dir < 4 -> 0 <= Y < efh -> 0 <= X < efw ->
            (forall c, corr (f_h p) (f_w p) (dl_h p) (dl_w p) cur dir Y X c = outside_sum y x c) ->
            wp (for_ 0 (out_c p) (fun oc out =>
                let* o := rd out (b * out_h p * out_w p * out_c p + y * out_w p * out_c p + x * out_c p + oc) in
                let* k := rd cache (dir * (efh * efw * out_c p) + Y * (efw * out_c p) + X * out_c p + oc) in
                wr out (b * out_h p * out_w p * out_c p + y * out_w p * out_c p + x * out_c p + oc) (add o k)) t2)
             (U (Offset (out_h p) (out_w p) (out_c p) b y (x + 1) 0) out)).
          { intros dir X Y Hdir HY HX Hcorr.
            apply (for_cnt (fun n t => U n out t) Ht2 (out_c p) 1); [lia|unfold Offset; ring|].
            intros oc t3 Hc Ht3.
            replace (b * out_h p * out_w p * out_c p + y * out_w p * out_c p + x * out_c p + oc)
              with (Offset (out_h p) (out_w p) (out_c p) b y x oc) by (unfold Offset; ring).
            replace (Offset (out_h p) (out_w p) (out_c p) b y x 0 + oc * 1)
              with (Offset (out_h p) (out_w p) (out_c p) b y x oc) in * by (unfold Offset; ring).
            assert (HO := Offset_bounds (batches p) (out_h p) (out_w p) (out_c p) b y x oc Hb Hy ltac:(lia) Hc).
            assert (Hold : rd t3 (Offset (out_h p) (out_w p) (out_c p) b y x oc)
                           = rd out (Offset (out_h p) (out_w p) (out_c p) b y x oc)).
            { destruct Ht3 as (_ & _ & O3). apply O3. lia. }
            rewrite Hold.
            destruct (rd_some out (Offset (out_h p) (out_w p) (out_c p) b y x oc) ltac:(lia)) as [r0 Hr0].
            rewrite Hr0. cbn [bind]. rewrite (Hcv dir Y X oc Hdir HY HX Hc). cbn [bind].
            apply upto_wr; try assumption; try reflexivity; [lia|].
            exists r0. split; [exact Hr0|]. right. exists dir, Y, X.
            split; [exact Hdir|]. split; [exact HY|]. split; [exact HX|]. split; [reflexivity|apply Hcorr]. }
          assert (Hcorr : forall dir Y X, 0 <= dir < 4 ->
            (forall fy, 0 <= fy < f_h p -> 0 <= dl_h p * fy <= efh - 1 ->
               (if dir <? 2 then dl_h p * fy <? Y else efh - dl_h p * fy <=? Y)
               = (dl_h p * fy <? top) || (efh - dl_h p * fy <=? bot)) ->
            (forall fx, 0 <= fx < f_w p -> 0 <= dl_w p * fx <= efw - 1 ->
               (if dir mod 2 =? 0 then dl_w p * fx <? X else efw - dl_w p * fx <=? X)
               = (dl_w p * fx <? left) || (efw - dl_w p * fx <=? right)) ->
            forall c, corr (f_h p) (f_w p) (dl_h p) (dl_w p) cur dir Y X c = outside_sum y x c).
          { intros dir Y X Hdir HY HX c. rewrite Hsx. unfold corr. apply sel_sum_ext.
            intros fy fx Hfy Hfx. unfold case_cond. fold efh efw.
            rewrite HY, HX; [reflexivity|exact Hfx|unfold efw; clear -Hfx Hdw; nia|exact Hfy|unfold efh; clear -Hfy Hdh; nia]. }
          assert (Hdone : forall dir X Y, wp (for_ 0 (out_c p) (fun oc out =>
                let* o := rd out (b * out_h p * out_w p * out_c p + y * out_w p * out_c p + x * out_c p + oc) in
                let* k := rd cache (dir * (efh * efw * out_c p) + Y * (efw * out_c p) + X * out_c p + oc) in
                wr out (b * out_h p * out_w p * out_c p + y * out_w p * out_c p + x * out_c p + oc) (add o k)) t2)
             (U (Offset (out_h p) (out_w p) (out_c p) b y (x + 1) 0) out) ->
            wp (let* out := for_ 0 (out_c p) (fun oc out =>
                let* o := rd out (b * out_h p * out_w p * out_c p + y * out_w p * out_c p + x * out_c p + oc) in
                let* k := rd cache (dir * (efh * efw * out_c p) + Y * (efw * out_c p) + X * out_c p + oc) in
                wr out (b * out_h p * out_w p * out_c p + y * out_w p * out_c p + x * out_c p + oc) (add o k)) t2 in
                Some (x + 1, out))
             (fun s' => (let '(x, t) := s' in 0 <= x <= out_w p /\
                 U (Offset (out_h p) (out_w p) (out_c p) b y x 0) out t) /\
                 (let '(x, _) := s' in out_w p - x) < out_w p - x)).
          { intros dir X Y H. apply wp_bind. eapply wp_mono; [exact H|]. intros t3 Ht3. cbn [wp].
            split; [split; [lia|exact Ht3]|lia]. }
          clear Hsx.
          destruct ((right <=? 0) && (0 <? top) && (bot <? 0)) eqn:E0;
            [|destruct ((left <? 0) && (0 <? right) && (bot <=? 0)) eqn:E1;
              [|destruct ((0 <? left) && (right <? 0) && (top <=? 0)) eqn:E2;
                [|destruct ((left <=? 0) && (top <? 0) && (0 <? bot)) eqn:E3;
                  [|exfalso; clear -Eall E0 E1 E2 E3 Xx1 Xx2 Yx1 Yx2; lia]]]];
          (apply Hdone, Hwrite; [lia| | |apply Hcorr; [lia| |]]);
          try match goal with |- forall _, _ => intros t Ht Htd end;
          repeat match goal with
          | |- context [?d <? 2] => let v := eval vm_compute in (d <? 2) in change (d <? 2) with v
          | |- context [?d mod 2 =? 0] => let v := eval vm_compute in (d mod 2 =? 0) in change (d mod 2 =? 0) with v
          end; cbv iota;
          repeat match goal with H : _ && _ = true |- _ => apply andb_prop in H; destruct H end;
          repeat match goal with H : (_ <? _) = true |- _ => apply Z.ltb_lt in H
                               | H : (_ <=? _) = true |- _ => apply Z.leb_le in H end;
          repeat match goal with |- context [if 0 <=? ?a then _ else _] => destruct (Z.leb_spec 0 a) end;
          try (match type of Htd with _ <= ?a <= _ => generalize dependent a; intros td Htd end);
          clear Hwrite Hcorr Hdone Ht2 Ht1 Ht U0 HP Hcv WF; try clear Eoh Eph; try clear Eow Epw; 
          clear HB HH HW HOH HOW Heh Hew Hlen Hoc; lia.
      + intros (x, t2) (Hx & Ht2) Hge. apply Z.ltb_ge in Hge. cbn [wp].
        assert (Ex : x = out_w p) by lia. rewrite Ex in Ht2. exact Ht2.
      + split; [lia|exact Ht1].
      + lia.
    - intros o Ho. split; [apply Ho|]. intros b y x c r0 Hb Hy Hx Hc Hr0.
      destruct (upto_full _ _ _ _ _ _ _ Ho b y x c Hb Hy Hx Hc) as (w & Hw & r0' & E1 & E3).
      exists w. split; [exact Hw|]. congruence.
  Qed.
End Apply.
Section ApplyQ.
  Variable p : bconv.
  Hypothesis WF : bconv_wf p.
  Hypothesis HP : prepared PadSame p.
  Hypothesis (Hfh : 1 <= f_h p) (Hfw : 1 <= f_w p) (Hsh : 1 <= s_h p) (Hsw : 1 <= s_w p)
             (Hdh : 1 <= dl_h p) (Hdw : 1 <= dl_w p).
  Hypothesis (Heh : eff (f_h p) (dl_h p) <= in_h p) (Hew : eff (f_w p) (dl_w p) <= in_w p).
  Variables (mult : list Q) (cur : Z -> Z -> Z -> Z) (cache : list Q).
  Hypothesis Hmult : zlen mult = out_c p.
  Let efh := (f_h p - 1) * dl_h p + 1.
  Let efw := (f_w p - 1) * dl_w p + 1.
  Hypothesis Hcv : forall dir y x oc m, 0 <= dir < 4 -> 0 <= y < efh -> 0 <= x < efw -> rd mult oc = Some m ->
    rd cache (dir * (efh * efw * out_c p) + y * (efw * out_c p) + x * out_c p + oc)
    = Some ((- (1)) * m * inject_Z (corr (f_h p) (f_w p) (dl_h p) (dl_w p) cur dir y x oc))%Q.
  Lemma apply_ok out : zlen out = out_pixels (geom_of p) * out_c p ->
    wp (ApplyCorrection p cache out) (fun o => zlen o = zlen out /\
      forall b y x c r0 m, 0 <= b < batches p -> 0 <= y < out_h p -> 0 <= x < out_w p ->
        rd mult c = Some m -> rd out (Offset (out_h p) (out_w p) (out_c p) b y x c) = Some r0 ->
        exists r, rd o (Offset (out_h p) (out_w p) (out_c p) b y x c) = Some r /\
          (r == r0 - m * inject_Z (outside_sum p cur y x c))%Q).
  Proof.
    intros Hlen.
    set (mq := fun oc => match rd mult oc with Some m => m | None => 0%Q end).
    eapply wp_mono.
    - apply (applyg_ok p WF HP Hfh Hfw Hsh Hsw Hdh Hdw Heh Hew Qplus cur cache
        (fun dir y x oc => ((- (1)) * mq oc * inject_Z (corr (f_h p) (f_w p) (dl_h p) (dl_w p) cur dir y x oc))%Q)); [|exact Hlen].
      intros dir y x oc H1 H2 H3 H4. destruct (rd_some mult oc ltac:(lia)) as [m Hm].
      assert (K := Hcv dir y x oc m H1 H2 H3 Hm). unfold mq. rewrite Hm. exact K.
    - intros o (L & C). split; [exact L|]. intros b y x c r0 m Hb Hy Hx Hm Hr0.
      assert (Hc := rd_bounds _ _ _ Hm). rewrite Hmult in Hc.
      destruct (C b y x c r0 Hb Hy Hx Hc Hr0) as (r & Hr & [[-> E]|(dir & Y & X & _ & _ & _ & -> & E)]);
        eexists; (split; [exact Hr|]).
      + rewrite E. change (inject_Z 0) with 0%Q. ring.
      + cbv beta. unfold mq. rewrite Hm, E. ring.
  Qed.
End ApplyQ.

(** ** End to end *)
Section EndToEnd.
  Variable p : bconv.
  Hypothesis WF : bconv_wf p.
  Variables input filter : list Z.
  Hypothesis Hin : packed input (in_pixels (geom_of p)) (channels_in p).
  Hypothesis Hfl : packed filter (filter_pixels (geom_of p)) (channels_in p / groups p).

  (** The value of one filter tap summed over its channels. *)
  Definition tap_total (oc fy fx : Z) : Z :=
    sum_ (channels_in p / groups p) (fun c => filter_pm (geom_of p) filter oc fy fx c).

  Lemma quot_ci : Z.quot (channels_in p) (groups p) = channels_in p / groups p.
  Proof.
    destruct (wf_facts p WF) as (_&_&_&_&_&_&_&Hg&HCI&_).
    apply Z.quot_div_nonneg; [|lia]. rewrite (wf_cin p WF). nia.
  Qed.

  Lemma cur_ok oc fy fx : 0 <= oc < out_c p -> 0 <= fy < f_h p -> 0 <= fx < f_w p ->
    cur_correction filter (f_h p) (f_w p) (Z.quot (channels_in p) (groups p)) oc fy fx = Some (tap_total oc fy fx).
  Proof.
    intros Hoc Hfy Hfx. destruct (wf_facts p WF) as (HB&HH&HW&HKH&HKW&HOH&HOW&Hg&HCI&HCO&_).
    rewrite quot_ci. unfold cur_correction. rewrite GetBitpackedSize_words by exact HCI.
    rewrite <- (wf_fd p WF). assert (Hfd := f_d_nonneg p WF).
    set (W := fun ic => word_at filter (Offset (f_h p) (f_w p) (f_d p) oc fy fx ic)).
    rewrite (for_sum_eq (f_d p) (fun ic => xor_popcount (W ic) 0)); [|exact Hfd|].
    - cbn [bind]. f_equal.
      (* use the per-tap lemma on the all-one input *)
      unfold tap_total.
      rewrite (sum_ext (f_d p) _ (fun ic => xor_popcount 0 (W ic)))
        by (intros; unfold xor_popcount; rewrite Z.lxor_comm; reflexivity).
      replace (0 + sum_ (f_d p) (fun ic => xor_popcount 0 (W ic))) with
        (sum_ (f_d p) (fun ic => xor_popcount 0 (W ic))) by lia.
      clear Hin input.
      set (p1 := {| batches := 1; in_h := 0; in_w := 0; in_d := in_d p; out_c := out_c p; f_h := f_h p; f_w := f_w p;
        f_d := f_d p; out_h := out_h p; out_w := out_w p; channels_in := channels_in p; groups := groups p;
        s_h := s_h p; s_w := s_w p; dl_h := dl_h p; dl_w := dl_w p; pad_h := pad_h p; pad_w := pad_w p;
        pad_same := pad_same p; pad_value := pad_value p |}).
      assert (WF1 : bconv_wf p1).
      { destruct WF as [G1 G2 G3 G4 G5]. constructor; [|exact G2|exact G3|exact G4|exact G5].
        destruct G1 as (?&?&?&?&?&?&?&?&?&?&?). unfold geom_ok. cbn in *. repeat split; auto; lia. }
      assert (Hin1 : packed [] (in_pixels (geom_of p1)) (channels_in p1)).
      { split; [reflexivity|]. split; [intros i w Hw; apply rd_bounds in Hw; cbn in Hw; lia|].
        intros q k0 Hq. unfold in_pixels in Hq. cbn in Hq. lia. }
      assert (E := tap_sum p1 WF1 [] filter Hin1 Hfl 0 0 0 oc fy fx ltac:(cbn; lia) Hoc Hfy Hfx).
      assert (Hns : inside (geom_of p1) 0 0 = false) by reflexivity.
      rewrite Hns in E. cbn [f_h f_w f_d channels_in groups out_c p1 geom_of] in E. fold W in E.
      etransitivity; [exact E|]. apply sum_ext. intros c Hc. rewrite Z.mul_1_l. reflexivity.
    - intros ic acc Hic. unfold W.
      replace (oc * (f_h p * f_w p * f_d p) + fy * (f_w p * f_d p) + fx * f_d p + ic)
        with (Offset (f_h p) (f_w p) (f_d p) oc fy fx ic) by (unfold Offset; ring).
      assert (HO := Offset_bounds (out_c p) (f_h p) (f_w p) (f_d p) oc fy fx ic Hoc Hfy Hfx Hic).
      assert (HL := filter_len p WF filter Hfl). unfold word_at.
      destruct (rd_some filter (Offset (f_h p) (f_w p) (f_d p) oc fy fx ic) ltac:(lia)) as [w ->]. reflexivity.
  Qed.

  (** One-padded minus zero-padded convolution: the taps that fall outside. *)
  Lemma conv_split I b oy ox oc :
    conv (geom_of p) 1 I (filter_pm (geom_of p) filter) b oy ox oc
    = conv (geom_of p) 0 I (filter_pm (geom_of p) filter) b oy ox oc + outside_sum p tap_total oy ox oc.
  Proof.
    unfold conv, outside_sum, sel_sum, tap_total.
    cbn [gKH gKW gCI gSH gSW gPH gPW gDH gDW gCO geom_of].
    rewrite <- sum_plus. apply sum_ext. intros fy _. rewrite <- sum_plus. apply sum_ext. intros fx _. cbv zeta.
    destruct (inside _ _ _); cbn [negb].
    - rewrite Z.add_0_r. reflexivity.
    - rewrite <- sum_plus. apply sum_ext. intros c _. ring.
  Qed.

  Hypothesis HP : prepared PadSame p.
  Hypothesis Hpv : pad_value p = 0.
  Hypothesis (Hfh : 1 <= f_h p) (Hfw : 1 <= f_w p) (Hsh : 1 <= s_h p) (Hsw : 1 <= s_w p)
             (Hdh : 1 <= dl_h p) (Hdw : 1 <= dl_w p).
  Hypothesis (Heh : eff (f_h p) (dl_h p) <= in_h p) (Hew : eff (f_w p) (dl_w p) <= in_w p).
  Hypothesis Hsmall : taps (geom_of p) < 2 ^ 31.
  Variables post_mul post_bias buf out : list Q.
  Hypothesis (Hm : zlen post_mul = out_c p) (Hb : zlen post_bias = out_c p).
  Hypothesis Hbuf : zlen buf = GetCacheSize (f_h p) (f_w p) (out_c p) (dl_h p) (dl_w p).
  Hypothesis Hout : zlen out = out_pixels (geom_of p) * out_c p.

  Definition zero_padded_result (o : list Q) : Prop :=
    zlen o = zlen out /\
    forall b y x c m bi, 0 <= b < batches p -> 0 <= y < out_h p -> 0 <= x < out_w p ->
      rd post_mul c = Some m -> rd post_bias c = Some bi ->
      exists r, rd o (out_pixel (geom_of p) b y x * out_c p + c) = Some r /\
        (r == m * inject_Z (conv (geom_of p) 0 (input_pm (geom_of p) input) (filter_pm (geom_of p) filter) b y x c)
              + bi)%Q.

  Lemma zp_true : zero_padding p = true.
  Proof. unfold zero_padding. destruct HP as (_ & _ & _ & ->). rewrite Hpv. reflexivity. Qed.

  Lemma buffer_ok : wp (padding_buffer p filter post_mul buf) (fun cache => forall o,
    zlen o = zlen out -> wp (correct p cache o) (fun o' => zlen o' = zlen o /\
      forall b y x c r0 m, 0 <= b < batches p -> 0 <= y < out_h p -> 0 <= x < out_w p ->
        rd post_mul c = Some m -> rd o (Offset (out_h p) (out_w p) (out_c p) b y x c) = Some r0 ->
        exists r, rd o' (Offset (out_h p) (out_w p) (out_c p) b y x c) = Some r /\
          (r == r0 - m * inject_Z (outside_sum p tap_total y x c))%Q)).
  Proof.
    unfold padding_buffer, correct. rewrite zp_true. assert (Hoc := out_c_nonneg p WF).
    destruct (cache_ok filter (f_h p) (f_w p) (out_c p) (Z.quot (channels_in p) (groups p)) (dl_h p) (dl_w p)
      post_mul tap_total Hfh Hfw Hoc Hdh Hdw Hm cur_ok buf Hbuf) as (cache & E & L & C).
    rewrite E. cbn [wp]. intros o Ho.
    rewrite <- Ho in Hout.
    exact (apply_ok p WF HP Hfh Hfw Hsh Hsw Hdh Hdw Heh Hew post_mul tap_total cache Hm C o Hout).
  Qed.

  Lemma run_one t : one_time_setup p ActNone post_mul post_bias 1 0 = Some t ->
    forall b y x c m bi, 0 <= b < batches p -> rd post_mul c = Some m -> rd post_bias c = Some bi ->
    exists r, run_float Qops t (acc_one p input filter b y x c) c = Some r /\
      (r == m * inject_Z (conv (geom_of p) 1 (input_pm (geom_of p) input) (filter_pm (geom_of p) filter) b y x c)
            + bi)%Q.
  Proof.
    intros Ht b y x c m bi Hbb Hcm Hcb. assert (Hc := rd_bounds _ _ _ Hcm). rewrite Hm in Hc.
    assert (Hoc := out_c_nonneg p WF).
    destruct (wf_facts p WF) as (_&_&_&HKH&HKW&_&_&_&HCI&_).
    assert (EC := acc_one_conv p WF input filter Hin Hfl b y x c Hbb Hc).
    assert (B : - taps (geom_of p) <= conv (geom_of p) 1 (input_pm (geom_of p) input)
                  (filter_pm (geom_of p) filter) b y x c <= taps (geom_of p)).
    { apply conv_bound; auto; try (intros; apply pm_bound). lia. }
    rewrite taps_bt in * by exact WF.
    destruct (run_float_setup p ActNone post_mul post_bias 1 0 t (acc_one p input filter b y x c) c m bi)
      as (r & Hr & Er); auto; try lia; try discriminate.
    exists r. split; [exact Hr|]. rewrite Er, EC. cbn [act_spec]. field.
  Qed.

  Lemma corrected cache o t :
    one_time_setup p ActNone post_mul post_bias 1 0 = Some t ->
    padding_buffer p filter post_mul buf = Some cache ->
    zlen o = zlen out ->
    (forall b y x c, 0 <= b < batches p -> 0 <= y < out_h p -> 0 <= x < out_w p -> 0 <= c < out_c p ->
       rd o (Offset (out_h p) (out_w p) (out_c p) b y x c) = run_float Qops t (acc_one p input filter b y x c) c) ->
    wp (correct p cache o) zero_padded_result.
  Proof.
    intros Ht Hc Hl Ho. assert (HB := buffer_ok). rewrite Hc in HB. cbn [wp] in HB.
    eapply wp_mono; [apply HB; exact Hl|]. intros o' (L' & C'). split; [congruence|].
    intros b y x c m bi Hbb Hy Hx Hcm Hcb. assert (Hcc := rd_bounds _ _ _ Hcm). rewrite Hm in Hcc.
    destruct (run_one t Ht b y x c m bi Hbb Hcm Hcb) as (r0 & Hr0 & E0).
    destruct (C' b y x c r0 m Hbb Hy Hx Hcm) as (r & Hr & Er).
    { rewrite Ho by assumption. exact Hr0. }
    exists r. split; [exact Hr|]. rewrite Er, E0, conv_split, inject_Z_plus. ring.
  Qed.

  Lemma run_total t : one_time_setup p ActNone post_mul post_bias 1 0 = Some t ->
    forall b y x c, 0 <= b < batches p -> 0 <= c < out_c p ->
      run_float Qops t (acc_one p input filter b y x c) c =
      Some (match run_float Qops t (acc_one p input filter b y x c) c with Some r => r | None => 0%Q end).
  Proof.
    intros Ht b y x c Hbb Hc.
    destruct (rd_some post_mul c ltac:(lia)) as [m Hcm]. destruct (rd_some post_bias c ltac:(lia)) as [bi Hcb].
    destruct (run_one t Ht b y x c m bi Hbb Hcm Hcb) as (r & -> & _). reflexivity.
  Qed.

  Lemma setup_some : exists t, one_time_setup p ActNone post_mul post_bias 1 0 = Some t.
  Proof.
    destruct (setup_ok p ActNone post_mul post_bias 1 0 (out_c_nonneg p WF) Hm Hb) as (t & Ht & _). exists t. exact Ht.
  Qed.
  Lemma buffer_some : exists c, padding_buffer p filter post_mul buf = Some c.
  Proof. assert (H := buffer_ok). apply wp_iff in H. destruct H as (c & E & _). exists c. exact E. Qed.

  Lemma indirect_zero_padded : 1 <= f_d p -> int32_indices p ->
    exists o, eval_indirect_float p ActNone input filter post_mul post_bias buf out = Some o /\ zero_padded_result o.
  Proof.
    intros Hfd Hint. apply wp_iff. unfold eval_indirect_float.
    destruct setup_some as [t Ht]. destruct buffer_some as [c Hc]. rewrite Ht, Hc. cbn [bind].
    destruct (indirect_val_one p WF input filter Hin Hfl Hfh Hfw Hfd Hint (run_float Qops t)
      (fun b y x c => match run_float Qops t (acc_one p input filter b y x c) c with Some r => r | None => 0%Q end) out)
      as (o & E & L & C).
    - intros. apply run_total; assumption.
    - exact Hout.
    - rewrite E. cbn [bind]. apply (corrected c o t Ht Hc L). intros. rewrite C by assumption.
      symmetry. apply run_total; assumption.
  Qed.

  Lemma bgemm_zero_padded kr lc rc S : groups p = 1 ->
    0 < kr -> 0 < lc -> 0 < rc -> conv_schedule_ok kr lc rc p input S ->
    eval_bgemm_float kr lc rc S p ActNone input filter post_mul post_bias buf out zero_padded_result.
  Proof.
    intros HG Hkr Hlc Hrc HS. unfold eval_bgemm_float.
    destruct setup_some as [t Ht]. destruct buffer_some as [c Hc]. rewrite Ht, Hc. cbn [wp].
    eapply bgemm_conv_val_mono.
    - apply (bgemm_val_one PadSame p WF input filter Hin Hfl HG HP kr lc rc S Hkr Hlc Hrc HS (run_float Qops t)
        (fun b y x c => match run_float Qops t (acc_one p input filter b y x c) c with Some r => r | None => 0%Q end) out).
      + intros. apply run_total; assumption.
      + exact Hout.
    - intros o (L & C). apply (corrected c o t Ht Hc L). intros. rewrite C by assumption.
      symmetry. apply run_total; assumption.
  Qed.
End EndToEnd.
