(** * ConvPool: mlir/transforms/optimize_patterns_target_arm.td 4-20, which
    replaces LceQuantize(TFL_MaxPool2D(x, activation)) by
    LceBMaxPool2d(LceQuantize(x)), dropping the fused activation. *)
From Coq Require Import SpecFloat.
From Verif Require Import Base Spec Bits Loop4 Bitpack Float32 FloatOrder Padding MaxPool Quantize ConvSign Check.

(** TFLite's float MaxPool (reference_ops::MaxPool, outside /repo; written from
    its definition: running std::max from lowest(), then clamp with
    std::min(std::max(v, lo), hi)). *)
Definition sf_max (a b : spec_float) : spec_float := if SFltb a b then b else a.
Definition sf_min (a b : spec_float) : spec_float := if SFltb b a then b else a.
Definition sf_lowest : spec_float := S754_finite true 16777215 104.
Definition sf_highest : spec_float := S754_finite false 16777215 104.
Definition sf_six : spec_float := S754_finite false 12582912 (-21).
Definition act_lo (a : activation) : spec_float :=
  match a with ActNone => sf_lowest | ActReluN1To1 => sf_minus_one | _ => S754_zero false end.
Definition act_hi (a : activation) : spec_float :=
  match a with ActReluN1To1 => sf_one | ActRelu6 => sf_six | _ => sf_highest end.
Definition sf_clamp (a : activation) (v : spec_float) : spec_float := sf_min (sf_max v (act_lo a)) (act_hi a).

(** Pixels of the window of output (oy, ox), row by row. *)
Definition cells (m : mpool) (oy ox : Z) : list (Z * Z) :=
  let y0 := oy * msh m - mph m in let x0 := ox * msw m - mpw m in
  let ys := Z.max 0 (- y0) in let xs := Z.max 0 (- x0) in
  list_prod (map (fun i => y0 + ys + i) (zrange (Z.min (mfh m) (mh m - y0) - ys)))
            (map (fun i => x0 + xs + i) (zrange (Z.min (mfw m) (mw m - x0) - xs))).
Definition at_ (X : list spec_float) (i : Z) : spec_float := match rd X i with Some v => v | None => S754_nan end.
Definition pool_value (m : mpool) (c : Z) (X : list spec_float) (b oy ox k : Z) : spec_float :=
  fold_left (fun acc '(y, x) => sf_max acc (at_ X (((b * mh m + y) * mw m + x) * c + k))) (cells m oy ox) sf_lowest.
Definition max_pool_float (m : mpool) (c : Z) (a : activation) (X : list spec_float) : list spec_float :=
  map (fun i => let q := i / c in
         sf_clamp a (pool_value m c X (q / mow m / moh m) ((q / mow m) mod moh m) (q mod mow m) (i mod c)))
      (zrange (mb m * moh m * mow m * c)).

(** ** Proofs *)
Definition ok (v : spec_float) : Prop := valid32 v /\ is_nan v = false.

Lemma sf_max_ok a b : ok a -> ok b -> ok (sf_max a b) /\ fneg (sf_max a b) = fneg a && fneg b.
Proof.
  intros [Va Na] [Vb Nb]. unfold sf_max. rewrite SFltb_fv by assumption. unfold fneg.
  split; [destruct (_ <? _); split; assumption|].
  rewrite (SFltb_fv a), (SFltb_fv b) by (auto; exact I). cbn [fv].
  destruct (Z.ltb_spec (fv a) (fv b)); rewrite SFltb_fv by (auto; exact I); cbn [fv];
    destruct (Z.ltb_spec (fv a) 0), (Z.ltb_spec (fv b) 0); try reflexivity; lia.
Qed.
Lemma sf_min_ok a b : ok a -> ok b -> ok (sf_min a b) /\ fneg (sf_min a b) = fneg a || fneg b.
Proof.
  intros [Va Na] [Vb Nb]. unfold sf_min. rewrite SFltb_fv by assumption. unfold fneg.
  split; [destruct (_ <? _); split; assumption|].
  rewrite (SFltb_fv a), (SFltb_fv b) by (auto; exact I). cbn [fv].
  destruct (Z.ltb_spec (fv b) (fv a)); rewrite SFltb_fv by (auto; exact I); cbn [fv];
    destruct (Z.ltb_spec (fv a) 0), (Z.ltb_spec (fv b) 0); try reflexivity; lia.
Qed.
Lemma act_ok a : ok (act_lo a) /\ ok (act_hi a) /\ fneg (act_hi a) = false /\
  fneg (act_lo a) = match a with ActNone | ActReluN1To1 => true | _ => false end.
Proof.
  destruct a; cbn [act_lo act_hi]; unfold ok, valid32, sf_lowest, sf_highest, sf_one, sf_minus_one, sf_six;
    repeat split; try reflexivity; lia.
Qed.

Lemma clamp_neg a v : ok v ->
  fneg (sf_clamp a v) = match a with ActNone | ActReluN1To1 => fneg v | _ => false end.
Proof.
  intros Hv. destruct (act_ok a) as (L & U & HU & HL). unfold sf_clamp.
  destruct (sf_max_ok v _ Hv L) as [K E]. destruct (sf_min_ok _ _ K U) as [_ ->]. rewrite E, HU, HL.
  destruct a, (fneg v); reflexivity.
Qed.

Lemma pool_fold (f : Z * Z -> spec_float) l : (forall p, In p l -> ok (f p)) -> forall acc, ok acc ->
  ok (fold_left (fun acc p => sf_max acc (f p)) l acc) /\
  fneg (fold_left (fun acc p => sf_max acc (f p)) l acc) = fneg acc && forallb (fun p => fneg (f p)) l.
Proof.
  induction l as [|p l IH]; intros H acc Ha; cbn [fold_left forallb].
  - split; [exact Ha|]. rewrite andb_true_r. reflexivity.
  - destruct (sf_max_ok acc (f p) Ha (H p (or_introl eq_refl))) as [K E].
    destruct (IH (fun q Hq => H q (or_intror Hq)) _ K) as [K2 E2]. split; [exact K2|].
    rewrite E2, E, andb_assoc. reflexivity.
Qed.

Lemma zrange_in n i : In i (zrange n) <-> 0 <= i < n.
Proof.
  split; [|apply in_zrange]. unfold zrange. rewrite in_map_iff. intros (k & <- & Hk). apply in_seq in Hk. lia.
Qed.
Lemma zlen_zrange n : 0 <= n -> zlen (zrange n) = n.
Proof. intros H. unfold zlen, zrange. rewrite map_length, seq_length. lia. Qed.
Lemma rd_zrange n i : 0 <= i < n -> rd (zrange n) i = Some i.
Proof.
  intros H. unfold rd, zrange. destruct (Z.ltb_spec i 0); [lia|].
  rewrite nth_error_map, (nth_error_nth' _ 0%nat) by (rewrite seq_length; lia).
  rewrite seq_nth by lia. cbn [option_map]. f_equal. lia.
Qed.

Lemma cells_window m oy ox y x :
  In (y, x) (cells m oy ox) <->
  window (msh m) (msw m) (mph m) (mpw m) (mfh m) (mfw m) (mh m) (mw m) oy ox y x.
Proof.
  unfold cells, window. set (y0 := oy * msh m - mph m). set (x0 := ox * msw m - mpw m). cbv zeta.
  rewrite in_prod_iff, !in_map_iff. split.
  - intros [(i & <- & Hi) (j & <- & Hj)]. apply zrange_in in Hi, Hj. lia.
  - intros H. split; [exists (y - y0 - Z.max 0 (- y0))|exists (x - x0 - Z.max 0 (- x0))];
      rewrite zrange_in; lia.
Qed.

Lemma flat_bound q n c k : 0 <= q < n -> 0 <= k < c -> 0 <= q * c + k < n * c.
Proof. nia. Qed.

Lemma max_pool_rewrite pad b h w c fh fw sh sw m a X buf outq outb :
  pool_prepare pad b h w (words c) fh fw sh sw = Some m ->
  pad <> PadUnknown ->
  0 <= b -> 1 <= h -> 1 <= w -> 0 <= c -> 1 <= fh -> 1 <= fw -> 1 <= sh -> 1 <= sw ->
  (pad = PadValid -> fh <= h /\ fw <= w) ->
  zlen X = b * h * w * c -> (forall i v, rd X i = Some v -> ok v) ->
  zlen buf = b * h * w * words c ->
  zlen outq = b * moh m * mow m * words c -> zlen outb = b * moh m * mow m * words c ->
  a = ActNone \/ a = ActReluN1To1 ->
  exists p r, quantize_sf (b * h * w) c X buf = Some p /\
    BMaxPool m p outb = Some r /\
    quantize_sf (b * moh m * mow m) c (max_pool_float m c a X) outq = Some r.
Proof.
  intros Hp Hpad Hb Hh Hw Hc Hfh Hfw Hsh Hsw Hv HX OK Hbuf Hoq Hob Ha.
  assert (WF := pool_prepare_wf pad b h w (words c) fh fw sh sw m Hp Hpad Hb Hh Hw (words_nonneg c Hc) Hfh Hfw Hsh Hsw Hv).
  assert (HM : mb m = b /\ mh m = h /\ mw m = w /\ msh m = sh /\ msw m = sw /\ mfh m = fh /\ mfw m = fw).
  { unfold pool_prepare in Hp. destruct ((sh =? 0) || (sw =? 0) || (fh =? 0) || (fw =? 0)); [discriminate|].
    destruct (padding1D pad h fh sh 1), (padding1D pad w fw sw 1). injection Hp as <-. cbn. tauto. }
  destruct HM as (M1 & M2 & M3 & M4 & M5 & M6 & M7).
  destruct WF as [_ _ _ _ Woh Wow Wy Wx _ _].
  assert (Hr : 0 <= b * h * w) by (repeat apply Z.mul_nonneg_nonneg; lia).
  assert (Hro : 0 <= b * moh m * mow m) by (repeat apply Z.mul_nonneg_nonneg; lia).
  destruct (pack_correct sf_elem sf_irrefl X (b * h * w) c buf 0 Hr Hc HX Hbuf eq_refl) as (p & Ep & Pp & Bp).
  destruct (pool_end_to_end pad b h w c fh fw sh sw p m outb Hp Hpad Hb Hh Hw Hc Hfh Hfw Hsh Hsw Hv Pp Hob)
    as (r & Er & Pr & Br).
  set (Y := max_pool_float m c a X).
  assert (HY : zlen Y = b * moh m * mow m * c).
  { unfold Y, max_pool_float. rewrite zlen_map, zlen_zrange, M1; [reflexivity|].
    rewrite M1. apply Z.mul_nonneg_nonneg; [exact Hro|exact Hc]. }
  destruct (pack_correct sf_elem sf_irrefl Y (b * moh m * mow m) c outq 0 Hro Hc HY Hoq eq_refl) as (q & Eq & Pq & Bq).
  exists p, r. split; [exact Ep|]. split; [exact Er|].
  unfold quantize_sf, bitpack_tensor. rewrite Eq. f_equal.
  apply (packed_bits_inj q r (b * moh m * mow m) c Hc Pq Pr). intros px k Hpx Hk.
  assert (Hi : 0 <= px * c + k < b * moh m * mow m * c) by (apply flat_bound; assumption).
  assert (EY : rd Y (px * c + k) =
     Some (sf_clamp a (pool_value m c X (px / mow m / moh m) ((px / mow m) mod moh m) (px mod mow m) k))).
  { unfold Y, max_pool_float. rewrite rd_map, rd_zrange by (rewrite M1; exact Hi). cbn [option_map]. cbv zeta.
    replace ((px * c + k) / c) with px by (rewrite (Z.div_add_l px c k), Z.div_small; lia).
    replace ((px * c + k) mod c) with k by (rewrite Z.add_comm, Z.mod_add, Z.mod_small; lia). reflexivity. }
  rewrite (Bq px k _ Hpx Hk EY), below_sf.
  assert (Hmow : 0 < mow m) by nia. assert (Hmoh : 0 < moh m) by nia.
  set (bb := px / mow m / moh m). set (oy := (px / mow m) mod moh m). set (ox := px mod mow m).
  assert (Hbb : 0 <= bb < b).
  { unfold bb. split; [apply Z.div_pos; [apply Z.div_pos; lia|lia]|].
    apply Z.div_lt_upper_bound; [lia|]. apply Z.div_lt_upper_bound; [lia|]. lia. }
  assert (Hoy : 0 <= oy < moh m) by (apply Z.mod_pos_bound; lia).
  assert (Hox : 0 <= ox < mow m) by (apply Z.mod_pos_bound; lia).
  assert (Epx : px = (bb * moh m + oy) * mow m + ox).
  { unfold bb, oy, ox. rewrite (Z.mul_comm (px / mow m / moh m)), <- Z.div_mod by lia.
    rewrite (Z.mul_comm (px / mow m)), <- Z.div_mod by lia. reflexivity. }
  assert (HB := Br bb oy ox k Hbb Hoy Hox Hk). rewrite <- Epx in HB.
  clearbody bb oy ox.
  (* values in the window *)
  assert (HV : forall y x, In (y, x) (cells m oy ox) ->
     exists v, rd X (((bb * mh m + y) * mw m + x) * c + k) = Some v /\ ok v /\
       bit_of p (words c) ((bb * h + y) * w + x) k = fneg v).
  { intros y x HI. apply cells_window in HI. unfold window in HI. rewrite M2, M3 in HI.
    assert (P1 := pixel_bounds b h w bb y x Hbb ltac:(lia) ltac:(lia)).
    rewrite M2, M3. destruct (rd_some X (((bb * h + y) * w + x) * c + k) ltac:(rewrite HX; apply flat_bound; [exact P1|exact Hk])) as [v Ev].
    exists v. split; [exact Ev|]. split; [eapply OK; exact Ev|].
    rewrite (Bp _ k v P1 Hk Ev). apply below_sf. }
  pose (f := fun p : Z * Z => let (y, x) := p in at_ X (((bb * mh m + y) * mw m + x) * c + k)).
  assert (EP : pool_value m c X bb oy ox k = fold_left (fun acc p => sf_max acc (f p)) (cells m oy ox) sf_lowest).
  { unfold pool_value. generalize (cells m oy ox) sf_lowest. clear.
    induction l as [|[y x] l IH]; intros acc; [reflexivity|]. cbn [fold_left]. rewrite IH. reflexivity. }
  assert (Hf : forall q, In q (cells m oy ox) -> ok (f q)).
  { intros [y x] HI. destruct (HV y x HI) as (v & Ev & Kv & _). unfold f, at_. rewrite Ev. exact Kv. }
  destruct (act_ok ActNone) as (LO & _).
  destruct (pool_fold f (cells m oy ox) Hf sf_lowest LO) as [KP NP]. rewrite EP.
  rewrite (clamp_neg a _ KP).
  replace (match a with ActNone | ActReluN1To1 => _ | _ => _ end)
    with (forallb (fun p => fneg (f p)) (cells m oy ox)).
  2:{ rewrite NP. destruct Ha as [-> | ->]; reflexivity. }
  destruct HB as [(y & x & HW & HE) HA].
  assert (WC : forall y x, window sh sw (mph m) (mpw m) fh fw h w oy ox y x <-> In (y, x) (cells m oy ox)).
  { intros y1 x1. rewrite cells_window, M2, M3, M4, M5, M6, M7. reflexivity. }
  destruct (bit_of r (words c) px k) eqn:EB.
  - apply forallb_forall. intros [y1 x1] HI. destruct (HV y1 x1 HI) as (v & Ev & _ & Hbit).
    unfold f, at_. rewrite Ev, <- Hbit. apply WC in HI. specialize (HA y1 x1 HI).
    destruct (bit_of p (words c) ((bb * h + y1) * w + x1) k); [reflexivity|]. cbn in HA. lia.
  - apply not_true_iff_false. intros HT. rewrite forallb_forall in HT.
    apply WC in HW. specialize (HT (y, x) HW). destruct (HV y x HW) as (v & Ev & _ & Hbit).
    unfold f, at_ in HT. rewrite Ev, <- Hbit in HT. rewrite HT in HE. cbn in HE. lia.
Qed.

(** RELU / RELU6: a 1x1 image holding -1. *)
Lemma max_pool_relu a : a = ActRelu \/ a = ActRelu6 ->
  exists m p, pool_prepare PadValid 1 1 1 (words 1) 1 1 1 1 = Some m /\
    quantize_sf 1 1 [sf_minus_one] [0] = Some p /\ BMaxPool m p [0] = Some [1] /\
    quantize_sf 1 1 (max_pool_float m 1 a [sf_minus_one]) [0] = Some [0].
Proof.
  intros H. eexists. exists [1]. split; [vm_compute; reflexivity|].
  split; [vm_compute; reflexivity|]. split; [vm_compute; reflexivity|].
  destruct H as [-> | ->]; vm_compute; reflexivity.
Qed.
