(** * MaxPool: model of core/bmaxpool.h (BMaxPool). *)
From Verif Require Import Base Spec Bits Loop4 Padding.

(** BMaxPoolParams (bmaxpool.h 16-26) and the two shapes. *)
Record mpool := {
  mb : Z; mh : Z; mw : Z; md : Z;      (* input shape: batches, height, width, packed channels *)
  moh : Z; mow : Z;                    (* output height, width *)
  mfh : Z; mfw : Z; msh : Z; msw : Z;  (* filter, strides *)
  mph : Z; mpw : Z                     (* padding *)
}.

(** bmaxpool.h 28-89. The pointer [in_ptr] is an index into [input]. *)
Definition BMaxPool (m : mpool) (input out : list Z) : option (list Z) :=
  for_ 0 (mb m) (fun batch out =>
    for_ 0 (moh m) (fun out_y out =>
      for_ 0 (mow m) (fun out_x out =>
        let in_x_origin := out_x * msw m - mpw m in
        let in_y_origin := out_y * msh m - mph m in
        let filter_x_start := Z.max 0 (- in_x_origin) in
        let filter_y_start := Z.max 0 (- in_y_origin) in
        let in_x := in_x_origin + filter_x_start in
        let in_y := in_y_origin + filter_y_start in
        let filter_x_count := Z.min (mfw m - filter_x_start) (mw m - in_x) in
        let filter_y_count := Z.min (mfh m - filter_y_start) (mh m - in_y) in
        let x_stride := md m in
        let y_stride := md m * (mw m - filter_x_count) in
        let in_base := Offset (mh m) (mw m) (md m) batch in_y in_x 0 in
        let out_base := Offset (moh m) (mow m) (md m) batch out_y out_x 0 in
        for_ 0 (md m) (fun channel out =>
          let* (mx, _) :=
            for_ 0 filter_y_count (fun y '(mx, in_ptr) =>
              let* (mx, in_ptr) :=
                for_ 0 filter_x_count (fun x '(mx, in_ptr) =>
                  let* w := rd input in_ptr in
                  Some (Z.land mx w, in_ptr + x_stride)) (mx, in_ptr) in
              Some (mx, in_ptr + y_stride)) (2 ^ 32 - 1, in_base + channel) in
          wr out (out_base + channel) mx) out) out) out) out.

(** Well-formed pooling: sizes, and every window meets the image. *)
Record mpool_wf (m : mpool) : Prop := {
  mw_b : 0 <= mb m; mw_h : 0 <= mh m; mw_w : 0 <= mw m; mw_d : 0 <= md m;
  mw_oh : 0 <= moh m; mw_ow : 0 <= mow m;
  mw_y : forall oy, 0 <= oy < moh m -> 0 < mh m /\ oy * msh m - mph m < mh m /\ 0 < oy * msh m - mph m + mfh m;
  mw_x : forall ox, 0 <= ox < mow m -> 0 < mw m /\ ox * msw m - mpw m < mw m /\ 0 < ox * msw m - mpw m + mfw m;
  mw_fh : 1 <= mfh m; mw_fw : 1 <= mfw m
}.

(** bmaxpool.cc Prepare 41-74: rejects zero strides/filters; computes padding
    and output shape. [None] is kTfLiteError. *)
Definition pool_prepare (pad : padding) (b h w d fh fw sh sw : Z) : option mpool :=
  if (sh =? 0) || (sw =? 0) || (fh =? 0) || (fw =? 0) then None else
  let (oh, ph) := padding1D pad h fh sh 1 in
  let (ow, pw) := padding1D pad w fw sw 1 in
  Some {| mb := b; mh := h; mw := w; md := d; moh := oh; mow := ow;
          mfh := fh; mfw := fw; msh := sh; msw := sw; mph := ph; mpw := pw |}.

Section Proofs.
  Variable m : mpool.
  Hypothesis WF : mpool_wf m.
  Variable input : list Z.
  Hypothesis Hlen : zlen input = mb m * mh m * mw m * md m.
  Hypothesis Hword : forall i w, rd input i = Some w -> word w.

  (** The word written at (b, oy, ox, k): bitwise AND over the window. *)
  Definition pool_word (b oy ox k : Z) (w : Z) : Prop :=
    word w /\ forall i, 0 <= i < 32 ->
      (Z.testbit w i = true <->
       forall y x, window (msh m) (msw m) (mph m) (mpw m) (mfh m) (mfw m) (mh m) (mw m) oy ox y x ->
         exists v, rd input (Offset (mh m) (mw m) (md m) b y x k) = Some v /\ Z.testbit v i = true).

  Lemma maxpool_words out :
    zlen out = mb m * moh m * mow m * md m ->
    exists out', BMaxPool m input out = Some out' /\ zlen out' = zlen out /\
      forall b oy ox k, 0 <= b < mb m -> 0 <= oy < moh m -> 0 <= ox < mow m -> 0 <= k < md m ->
        exists w, rd out' (Offset (moh m) (mow m) (md m) b oy ox k) = Some w /\ pool_word b oy ox k w.
  Proof.
    intros Ho. destruct WF as [Wb Wh Ww Wd Woh Wow Wy Wx Wfh Wfw]. apply wp_iff. unfold BMaxPool.
    eapply wp_mono; [apply (for3_upto (mb m) (moh m) (mow m) (md m) Wb Woh Wow pool_word)|].
    2:{ intros o HO. split; [apply HO|]. intros. eapply upto_full; eauto. }
    intros b oy ox t Hb Hy Hx Ht. cbv zeta.
    set (x0 := ox * msw m - mpw m). set (y0 := oy * msh m - mph m).
    destruct (Wy oy Hy) as (Wy0 & Wy1 & Wy2). destruct (Wx ox Hx) as (Wx0 & Wx1 & Wx2). fold y0 in Wy1, Wy2. fold x0 in Wx1, Wx2.
    set (xs := Z.max 0 (- x0)). set (ys := Z.max 0 (- y0)).
    set (ix := x0 + xs). set (iy := y0 + ys).
    set (cx := Z.min (mfw m - xs) (mw m - ix)). set (cy := Z.min (mfh m - ys) (mh m - iy)).
    assert (Hcx : 1 <= cx) by (unfold cx, ix, xs; lia).
    assert (Hcy : 1 <= cy) by (unfold cy, iy, ys; lia).
    assert (Hix : 0 <= ix /\ ix + cx <= mw m) by (unfold cx, ix, xs; lia).
    assert (Hiy : 0 <= iy /\ iy + cy <= mh m) by (unfold cy, iy, ys; lia).
    assert (Hwin : forall y x, window (msh m) (msw m) (mph m) (mpw m) (mfh m) (mfw m) (mh m) (mw m) oy ox y x
              <-> iy <= y < iy + cy /\ ix <= x < ix + cx).
    { intros y x. unfold window. fold x0 y0. unfold cx, cy, ix, iy, xs, ys. lia. }
    set (base := Offset (moh m) (mow m) (md m) b oy ox 0) in *.
    replace (base + md m) with (base + md m * 1) by lia.
    apply for_upto; [lia| |exact Ht]. intros k t1 Hk Ht1.
    set (P := fun y x i => exists v, rd input (Offset (mh m) (mw m) (md m) b y x k) = Some v
                                     /\ Z.testbit v i = true).
    apply wp_bind.
    set (start := Offset (mh m) (mw m) (md m) b iy ix 0 + k).
    apply (for_wp (fun yy (s : Z * Z) => let (mx, ptr) := s in
       ptr = start + yy * (mw m * md m) /\ word mx /\
       forall i, 0 <= i < 32 -> (Z.testbit mx i = true <->
          forall y x, iy <= y < iy + yy -> ix <= x < ix + cx -> P y x i))).
    - split; [unfold start; lia|]. split; [apply word_ones|]. intros i Hi. split; [intros; lia|].
      intros _. replace (2 ^ 32 - 1) with (Z.ones 32) by reflexivity. apply Z.ones_spec_low. lia.
    - intros yy (mx, ptr) Hyy (Eptr & Hmx & Hbits). apply wp_bind.
      apply (for_wp (fun xx (s : Z * Z) => let (mx, ptr) := s in
         ptr = start + yy * (mw m * md m) + xx * md m /\ word mx /\
         forall i, 0 <= i < 32 -> (Z.testbit mx i = true <->
          (forall y x, iy <= y < iy + yy -> ix <= x < ix + cx -> P y x i) /\
          (forall x, ix <= x < ix + xx -> P (iy + yy) x i)))).
      + split; [lia|]. split; [exact Hmx|]. intros i Hi. rewrite Hbits by exact Hi.
        split; [intros HH; split; [exact HH|intros; lia]|intros [HH _]; exact HH].
      + intros xx (mx1, ptr1) Hxx (Eptr1 & Hmx1 & Hbits1).
        assert (Eo : ptr1 = Offset (mh m) (mw m) (md m) b (iy + yy) (ix + xx) k).
        { rewrite Eptr1. unfold start, Offset. ring. }
        assert (HO := Offset_bounds (mb m) (mh m) (mw m) (md m) b (iy + yy) (ix + xx) k Hb
                        ltac:(lia) ltac:(lia) Hk).
        apply wp_bind. apply rd_wp; [lia|]. intros w Hw. apply wp_ret.
        split; [lia|]. split; [apply word_land; [exact Hmx1|eapply Hword; eauto]|].
        intros i Hi. rewrite Z.land_spec, andb_true_iff, Hbits1 by exact Hi.
        rewrite Eo in Hw. split.
        * intros [[HA HB] HC]. split; [exact HA|]. intros x Hxr.
          destruct (Z.eq_dec x (ix + xx)) as [->|Hne]; [exists w; auto|apply HB; lia].
        * intros [HA HB]. split; [split; [exact HA|intros; apply HB; lia]|].
          destruct (HB (ix + xx) ltac:(lia)) as (v & Hv & Htv). congruence.
      + rewrite Z.max_r by lia. intros (mx1, ptr1) (Eptr1 & Hmx1 & Hbits1). apply wp_ret.
        split; [rewrite Eptr1; ring|]. split; [exact Hmx1|]. intros i Hi. rewrite Hbits1 by exact Hi.
        split.
        * intros [HA HB] y x Hyr Hxr. destruct (Z.eq_dec y (iy + yy)) as [->|Hne];
            [apply HB; exact Hxr|apply HA; lia].
        * intros HA. split; [intros; apply HA; lia|intros; apply HA; lia].
    - rewrite Z.max_r by lia. intros (mx, ptr) (_ & Hmx & Hbits).
      replace (base + (k + 1) * 1) with (base + k * 1 + 1) by lia.
      replace (base + k) with (Offset (moh m) (mow m) (md m) b oy ox k) by (unfold base, Offset; ring).
      eapply upto_wr; eauto; [unfold base, Offset; ring|].
      split; [exact Hmx|]. intros i Hi. rewrite Hbits by exact Hi. unfold P. split.
      + intros HA y x HW. apply Hwin in HW. apply HA; lia.
      + intros HA y x Hyr Hxr. apply HA. apply Hwin. lia.
  Qed.

  (** Max pooling of the +-1 values, for [c] channels packed in [md m] words. *)
  Lemma maxpool_correct c out :
    0 <= c -> md m = words c -> packed input (mb m * mh m * mw m) c ->
    zlen out = mb m * moh m * mow m * md m ->
    exists out', BMaxPool m input out = Some out' /\
      packed out' (mb m * moh m * mow m) c /\
      forall b oy ox k, 0 <= b < mb m -> 0 <= oy < moh m -> 0 <= ox < mow m -> 0 <= k < c ->
        is_max_over
          (window (msh m) (msw m) (mph m) (mpw m) (mfh m) (mfw m) (mh m) (mw m) oy ox)
          (fun y x => pm (bit_of input (words c) ((b * mh m + y) * mw m + x) k))
          (pm (bit_of out' (words c) ((b * moh m + oy) * mow m + ox) k)).
  Proof.
    intros Hc Ed Hp Ho. destruct (maxpool_words out Ho) as (out' & Hrun & Hl & Hw).
    destruct WF as [Wb Wh Ww Wd Woh Wow Wy Wx Wfh Wfw].
    assert (H32 := words_mul32 c Hc).
    exists out'. split; [exact Hrun|].
    assert (Hbit : forall b oy ox k, 0 <= b < mb m -> 0 <= oy < moh m -> 0 <= ox < mow m ->
       0 <= k < 32 * words c ->
       (bit_of out' (words c) ((b * moh m + oy) * mow m + ox) k = true <->
        forall y x, window (msh m) (msw m) (mph m) (mpw m) (mfh m) (mfw m) (mh m) (mw m) oy ox y x ->
          bit_of input (words c) ((b * mh m + y) * mw m + x) k = true)).
    { intros b oy ox k Hb Hy Hx Hk.
      destruct (Hw b oy ox (k / 32) Hb Hy Hx ltac:(lia)) as (w & Hrd & _ & HG).
      unfold bit_of at 1. unfold Offset in Hrd. rewrite Ed in Hrd. rewrite Hrd.
      rewrite (HG (k mod 32)) by lia. split.
      - intros HA y x HW. destruct (HA y x HW) as (v & Hv & Ht). unfold bit_of.
        unfold Offset in Hv. rewrite Ed in Hv. rewrite Hv. exact Ht.
      - intros HA y x HW. specialize (HA y x HW). unfold bit_of in HA. unfold Offset. rewrite Ed.
        destruct (rd input _) as [v|]; [exists v; auto|discriminate]. }
    assert (Hne : forall oy ox, 0 <= oy < moh m -> 0 <= ox < mow m -> exists y x,
       window (msh m) (msw m) (mph m) (mpw m) (mfh m) (mfw m) (mh m) (mw m) oy ox y x).
    { intros oy ox Hy Hx. specialize (Wy oy Hy). specialize (Wx ox Hx).
      exists (Z.max 0 (oy * msh m - mph m)), (Z.max 0 (ox * msw m - mpw m)). unfold window. lia. }
    split; [split; [|split]|].
    - rewrite Hl, Ho, Ed. reflexivity.
    - intros i w Hi. assert (Hb := rd_bounds _ _ _ Hi). rewrite Hl, Ho in Hb.
      assert (0 < md m) by (destruct (Z.eq_dec (md m) 0) as [E0|]; [rewrite E0 in *; lia|lia]).
      assert (Hq : 0 <= i / md m < mb m * moh m * mow m)
        by (split; [apply Z.div_pos; lia|apply Z.div_lt_upper_bound; lia]).
      destruct (pixel_decode _ _ _ (i / md m) Wb Woh Wow Hq) as (b & y & x & Hb1 & Hy & Hx & Eq).
      destruct (Hw b y x (i mod md m) Hb1 Hy Hx (Z.mod_pos_bound i (md m) ltac:(lia)))
        as (w' & Hw' & Hwd & _).
      unfold Offset in Hw'. rewrite <- Eq in Hw'.
      rewrite (Z.mul_comm (i / md m)), <- (Z.div_mod i (md m)) in Hw' by lia. congruence.
    - intros q k Hq Hk.
      destruct (pixel_decode _ _ _ q Wb Woh Wow Hq) as (b & y & x & Hb & Hy & Hx & ->).
      apply not_true_iff_false. intros HT.
      apply (Hbit b y x k Hb Hy Hx ltac:(lia)) with
        (y := Z.max 0 (y * msh m - mph m)) (x := Z.max 0 (x * msw m - mpw m)) in HT.
      + destruct Hp as (_ & _ & Hz). rewrite Hz in HT; [discriminate| |lia].
        specialize (Wy y Hy). specialize (Wx x Hx). apply pixel_bounds; lia.
      + specialize (Wy y Hy). specialize (Wx x Hx). unfold window. lia.
    - intros b oy ox k Hb Hy Hx Hk.
      assert (HB := Hbit b oy ox k Hb Hy Hx ltac:(lia)).
      set (ob := bit_of out' (words c) ((b * moh m + oy) * mow m + ox) k) in *.
      destruct ob eqn:E.
      + destruct (Hne oy ox Hy Hx) as (y & x & HW). split.
        * exists y, x. split; [exact HW|]. rewrite (proj1 HB) by auto. reflexivity.
        * intros y' x' HW'. rewrite (proj1 HB) by auto. cbn. lia.
      + split; [|intros y x _; destruct (bit_of input _ _ _); cbn; lia].
        (* some input in the window is +1: otherwise the output bit would be set *)
        specialize (Wy oy Hy). specialize (Wx ox Hx).
        set (y1 := Z.max 0 (oy * msh m - mph m)). set (x1 := Z.max 0 (ox * msw m - mpw m)).
        set (ny := Z.to_nat (Z.min (mh m) (oy * msh m - mph m + mfh m) - y1)).
        set (nx := Z.to_nat (Z.min (mw m) (ox * msw m - mpw m + mfw m) - x1)).
        set (cells := list_prod (seq 0 ny) (seq 0 nx)).
        destruct (existsb (fun '(a, e) => negb (bit_of input (words c)
            ((b * mh m + (y1 + Z.of_nat a)) * mw m + (x1 + Z.of_nat e)) k)) cells) eqn:EX.
        * apply existsb_exists in EX. destruct EX as ((a, e) & Hin & HX).
          apply in_prod_iff in Hin. rewrite !in_seq in Hin.
          exists (y1 + Z.of_nat a), (x1 + Z.of_nat e). split.
          { unfold window, ny, nx, y1, x1 in *. lia. }
          apply negb_true_iff in HX. rewrite HX. reflexivity.
        * exfalso. enough (HT : false = true) by discriminate. apply HB. intros y x HW.
          destruct (bit_of input (words c) ((b * mh m + y) * mw m + x) k) eqn:EB; [reflexivity|].
          assert (HE : existsb (fun '(a, e) => negb (bit_of input (words c)
            ((b * mh m + (y1 + Z.of_nat a)) * mw m + (x1 + Z.of_nat e)) k)) cells = true).
          { apply existsb_exists. exists (Z.to_nat (y - y1), Z.to_nat (x - x1)).
            unfold window in HW. split.
            - apply in_prod_iff. rewrite !in_seq. unfold ny, nx, y1, x1 in *. lia.
            - replace (y1 + Z.of_nat (Z.to_nat (y - y1))) with y by (unfold y1 in *; lia).
              replace (x1 + Z.of_nat (Z.to_nat (x - x1))) with x by (unfold x1 in *; lia).
              rewrite EB. reflexivity. }
          congruence.
  Qed.
End Proofs.

(** Prepare establishes well-formedness for SAME and for VALID. *)
Lemma pool_prepare_wf pad b h w d fh fw sh sw m :
  pool_prepare pad b h w d fh fw sh sw = Some m ->
  pad <> PadUnknown ->
  0 <= b -> 1 <= h -> 1 <= w -> 0 <= d -> 1 <= fh -> 1 <= fw -> 1 <= sh -> 1 <= sw ->
  (pad = PadValid -> fh <= h /\ fw <= w) ->
  mpool_wf m.
Proof.
  intros Hp Hu Hb Hh Hw Hd Hfh Hfw Hsh Hsw Hv. unfold pool_prepare in Hp.
  destruct ((sh =? 0) || (sw =? 0) || (fh =? 0) || (fw =? 0)); [discriminate|].
  assert (ef : forall k, eff k 1 = k) by (intros; unfold eff; lia).
  destruct pad; [| |contradiction].
  - rewrite !padding_same in Hp by lia. injection Hp as <-.
    assert (A := same_out_last h sh ltac:(lia) Hsh). assert (B := same_out_last w sw ltac:(lia) Hsw).
    constructor; cbn; try lia; try nia.
    + intros oy Hy. destruct (same_window h fh sh 1 oy) as (_ & _ & C & D); try lia.
      rewrite ef in D. lia.
    + intros ox Hx. destruct (same_window w fw sw 1 ox) as (_ & _ & C & D); try lia.
      rewrite ef in D. lia.
  - destruct (Hv eq_refl) as [V1 V2].
    rewrite !padding_valid in Hp by (rewrite ?ef; lia). injection Hp as <-.
    assert (P : forall n k s, k <= n -> 1 <= s -> 0 <= valid_out n k s 1).
    { intros n k s Hkn Hs. unfold valid_out. rewrite ef. apply Z.div_pos; lia. }
    constructor; cbn; try lia; try (apply P; lia).
    + intros oy Hy. assert (C := valid_inside h fh sh 1 oy 0). rewrite ef in C. nia.
    + intros ox Hx. assert (C := valid_inside w fw sw 1 ox 0). rewrite ef in C. nia.
Qed.

(** From the shapes to the result: what Prepare accepts, Eval computes. *)
Lemma pool_end_to_end pad b h w c fh fw sh sw input m out :
  pool_prepare pad b h w (words c) fh fw sh sw = Some m ->
  pad <> PadUnknown ->
  0 <= b -> 1 <= h -> 1 <= w -> 0 <= c -> 1 <= fh -> 1 <= fw -> 1 <= sh -> 1 <= sw ->
  (pad = PadValid -> fh <= h /\ fw <= w) ->
  packed input (b * h * w) c ->
  zlen out = b * moh m * mow m * words c ->
  exists out', BMaxPool m input out = Some out' /\
    packed out' (b * moh m * mow m) c /\
    forall i oy ox k, 0 <= i < b -> 0 <= oy < moh m -> 0 <= ox < mow m -> 0 <= k < c ->
      is_max_over
        (window sh sw (mph m) (mpw m) fh fw h w oy ox)
        (fun y x => pm (bit_of input (words c) ((i * h + y) * w + x) k))
        (pm (bit_of out' (words c) ((i * moh m + oy) * mow m + ox) k)).
Proof.
  intros Hp Hpad Hb Hh Hw Hc Hfh Hfw Hsh Hsw Hv Hin Hlen.
  assert (Hd := words_nonneg c Hc).
  assert (WF := pool_prepare_wf pad b h w (words c) fh fw sh sw m Hp Hpad Hb Hh Hw Hd Hfh Hfw Hsh Hsw Hv).
  unfold pool_prepare in Hp.
  destruct ((sh =? 0) || (sw =? 0) || (fh =? 0) || (fw =? 0)); [discriminate|].
  destruct (padding1D pad h fh sh 1) as [oh ph]. destruct (padding1D pad w fw sw 1) as [ow pw].
  injection Hp as <-. cbn in *.
  eapply (maxpool_correct _ WF input); cbn; auto.
  - apply Hin.
  - intros i v Hi. eapply (proj1 (proj2 Hin)); eauto.
Qed.

Lemma pool_geometry pad b h w d fh fw sh sw m :
  1 <= h -> 1 <= w -> 1 <= fh -> 1 <= fw -> 1 <= sh -> 1 <= sw ->
  pool_prepare pad b h w d fh fw sh sw = Some m ->
  (pad = PadSame -> moh m = same_out h sh /\ mow m = same_out w sw /\
                    mph m = same_before h fh sh 1 /\ mpw m = same_before w fw sw 1) /\
  (pad = PadValid -> fh <= h -> fw <= w ->
     moh m = valid_out h fh sh 1 /\ mow m = valid_out w fw sw 1 /\ mph m = 0 /\ mpw m = 0).
Proof.
  intros Hh Hw Hfh Hfw Hsh Hsw Hp. unfold pool_prepare in Hp.
  destruct ((sh =? 0) || (sw =? 0) || (fh =? 0) || (fw =? 0)); [discriminate|].
  split; intros ->.
  - rewrite !padding_same in Hp by lia. injection Hp as <-. cbn. auto.
  - intros H1 H2. rewrite !padding_valid in Hp by (unfold eff; lia). injection Hp as <-. cbn. auto.
Qed.
