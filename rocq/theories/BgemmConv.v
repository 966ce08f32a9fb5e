(** * BgemmConv: model of core/bconv2d/optimized_bgemm.h (im2col + BGEMM). *)
From Verif Require Import Base Spec Bits Loop4 Bitpack Reference OutputTransform RefTheorems Padding Log Bgemm
  BgemmProofs IndirectTop.

(** The geometry stored by Prepare (tflite/kernels/bconv2d.cc 200-210 calls
    ComputePaddingHeightWidth; 234-243 uses its output sizes). *)
Definition prepared (pad : padding) (p : bconv) : Prop :=
  (out_h p, pad_h p) = padding1D pad (in_h p) (f_h p) (s_h p) (dl_h p) /\
  (out_w p, pad_w p) = padding1D pad (in_w p) (f_w p) (s_w p) (dl_w p) /\
  pad <> PadUnknown /\ pad_same p = match pad with PadSame => true | _ => false end.

(** optimized_ops::Im2col and DilatedIm2col (tensorflow/lite/kernels/internal/
    optimized/im2col_utils.h, external): modelled by what they compute. Row
    [pix] holds the filter window of output pixel [pix]; taps outside the image
    are filled with [zero_byte] = 0 (optimized_bgemm.h 31). *)
Definition im2col_k (p : bconv) : Z := f_h p * f_w p * in_d p.
Definition im2col_elem (p : bconv) (input : list Z) (i : Z) : Z :=
  let K := im2col_k p in
  let pix := i / K in let r := i mod K in
  let tap := r / in_d p in let c := r mod in_d p in
  let fy := tap / f_w p in let fx := tap mod f_w p in
  let b := pix / (out_h p * out_w p) in
  let oy := pix mod (out_h p * out_w p) / out_w p in
  let ox := pix mod out_w p in
  let y := oy * s_h p - pad_h p + dl_h p * fy in
  let x := ox * s_w p - pad_w p + dl_w p * fx in
  if (0 <=? y) && (y <? in_h p) && (0 <=? x) && (x <? in_w p)
  then wat input (Offset (in_h p) (in_w p) (in_d p) b y x c) else 0.
Definition Im2col (p : bconv) (input : list Z) : list Z :=
  build (batches p * out_h p * out_w p * im2col_k p) (im2col_elem p input).

(** optimized_bgemm.h 19-65: im2col, returning (data, k, m) where k is the last
    dimension of the result shape and m the product of the others (129-130). *)
Definition im2col (p : bconv) (input : list Z) : list Z * Z * Z :=
  let need_dilated_im2col := negb (dl_w p =? 1) || negb (dl_h p =? 1) in
  let need_im2col := negb (s_w p =? 1) || negb (s_h p =? 1) || negb (f_w p =? 1) || negb (f_h p =? 1) in
  if need_dilated_im2col || need_im2col
  then (Im2col p input, im2col_k p, batches p * out_h p * out_w p)
  else (input, in_d p, batches p * in_h p * in_w p).

(** optimized_bgemm.h 67-161 for float/int8 output up to the call of
    ApplyCorrection (see ZeroPad.v), for a schedule [S]. *)
Definition bgemm_conv_val {T} (kr lc rc : Z) (S : schedule) (p : bconv) (input filter : list Z)
    (run : Z -> Z -> option T) (out : list T) (Q : list T -> Prop) : Prop :=
  let '(rhs, k, m) := im2col p input in
  BGemm kr lc rc S (fun PL PR => kernel_val PL PR run) (out_c p) k m filter rhs out Q.

(** The same for bitpacked output; the output is pre-filled with zeros when
    there are padding bits (optimized_bgemm.h 116-127). *)
Definition bgemm_conv_bits (kr lc rc : Z) (S : schedule) (p : bconv) (input filter : list Z)
    (run : Z -> Z -> option bool) (out : list Z) (Q : list Z -> Prop) : Prop :=
  let '(rhs, k, m) := im2col p input in
  let out := if negb (Z.rem (out_c p) 32 =? 0) then repeat 0 (length out) else out in
  BGemm kr lc rc S (fun PL PR => kernel_bits PL PR run) (out_c p) k m filter rhs out Q.

(** A schedule that is legal for the matrices of this convolution. *)
Definition conv_schedule_ok (kr lc rc : Z) (p : bconv) (input : list Z) (S : schedule) : Prop :=
  let '(_, k, m) := im2col p input in schedule_ok kr lc rc (out_c p) k m S.

Lemma radix_lt A B a b : 0 <= a < A -> 0 <= b < B -> 0 <= a * B + b < A * B.
Proof. nia. Qed.

Lemma padding_1x1 pad n : pad <> PadUnknown -> 0 <= n -> padding1D pad n 1 1 1 = (n, 0).
Proof.
  intros Hp Hn. unfold padding1D, ComputeOutSize, ComputePadding1D. cbn [Z.eqb].
  destruct pad; [| |contradiction]; rewrite Z.quot_1_r;
    (replace (n + 1 - 1) with n by lia) || (replace (n + 1 - ((1 - 1) * 1 + 1)) with n by lia);
    f_equal; replace (Z.max 0 _) with 0 by lia; reflexivity.
Qed.

Lemma bgemm_mono {T} kr lc rc S (kernel : pmatrix -> pmatrix -> Z -> Z -> Z -> Z -> Z -> Z -> log T -> option (log T))
    n k m lhs rhs dst (Q Q' : list T -> Prop) :
  BGemm kr lc rc S kernel n k m lhs rhs dst Q -> (forall o, Q o -> Q' o) ->
  BGemm kr lc rc S kernel n k m lhs rhs dst Q'.
Proof.
  intros H HQ. unfold BGemm in *. eapply concurrently_mono; [exact H|]. intros L HL.
  eapply concurrently_mono; [exact HL|]. intros R HR. cbv zeta in *.
  eapply concurrently_mono; [exact HR|exact HQ].
Qed.
Lemma bgemm_conv_val_mono {T} kr lc rc S p input filter (run : Z -> Z -> option T) out (Q Q' : list T -> Prop) :
  bgemm_conv_val kr lc rc S p input filter run out Q -> (forall o, Q o -> Q' o) ->
  bgemm_conv_val kr lc rc S p input filter run out Q'.
Proof.
  unfold bgemm_conv_val. destruct (im2col p input) as ((rhs, k), m). intros H HQ.
  eapply bgemm_mono; eassumption.
Qed.
Lemma bgemm_conv_bits_mono kr lc rc S p input filter run out (Q Q' : list Z -> Prop) :
  bgemm_conv_bits kr lc rc S p input filter run out Q -> (forall o, Q o -> Q' o) ->
  bgemm_conv_bits kr lc rc S p input filter run out Q'.
Proof.
  unfold bgemm_conv_bits. destruct (im2col p input) as ((rhs, k), m). intros H HQ.
  eapply bgemm_mono; eassumption.
Qed.

(** Two outputs with the same elements are equal. *)
Lemma out_ext {T} (p : bconv) (o1 o2 : list T) :
  0 <= batches p -> 0 <= out_h p -> 0 <= out_w p -> 0 < out_c p ->
  zlen o1 = batches p * out_h p * out_w p * out_c p -> zlen o2 = zlen o1 ->
  (forall b y x c, 0 <= b < batches p -> 0 <= y < out_h p -> 0 <= x < out_w p -> 0 <= c < out_c p ->
     rd o1 (Offset (out_h p) (out_w p) (out_c p) b y x c) = rd o2 (Offset (out_h p) (out_w p) (out_c p) b y x c)) ->
  o1 = o2.
Proof.
  intros HB HOH HOW Hoc L1 L2 H. apply rd_ext; [auto|]. intros i Hi. rewrite L1 in Hi.
  assert (Hq : 0 <= i / out_c p < batches p * out_h p * out_w p)
    by (split; [apply Z.div_pos; lia|apply Z.div_lt_upper_bound; lia]).
  destruct (pixel_decode _ _ _ (i / out_c p) HB HOH HOW Hq) as (b & y & x & Hb & Hy & Hx & Eq).
  assert (Hm := Z.mod_pos_bound i (out_c p) ltac:(lia)).
  assert (Ei : i = Offset (out_h p) (out_w p) (out_c p) b y x (i mod out_c p)).
  { unfold Offset. rewrite <- Eq, Z.mul_comm. apply Z.div_mod. lia. }
  rewrite Ei. apply H; auto.
Qed.

Section Conv.
  Variable pad : padding.
  Variable p : bconv.
  Hypothesis WF : bconv_wf p.
  Variables input filter : list Z.
  Hypothesis Hin : packed input (in_pixels (geom_of p)) (channels_in p).
  Hypothesis Hfl : packed filter (filter_pixels (geom_of p)) (channels_in p / groups p).
  Hypothesis HG : groups p = 1.
  Hypothesis HP : prepared pad p.
  Let N := batches p * out_h p * out_w p.

  Lemma ci_eq : f_d p = in_d p.
  Proof. rewrite (wf_fd p WF), (wf_ind p WF), HG, Z.div_1_r. reflexivity. Qed.

  Lemma ind_nonneg : 0 <= in_d p.
  Proof. rewrite <- ci_eq. apply f_d_nonneg. exact WF. Qed.

  (** What BGEMM is run on: k, m and the product. *)
  Lemma im2col_ok :
    let '(rhs, k, m) := im2col p input in
    m = N /\ 0 <= k /\ zlen rhs = m * k /\ zlen filter = out_c p * k /\
    forall b oy ox c, 0 <= b < batches p -> 0 <= oy < out_h p -> 0 <= ox < out_w p -> 0 <= c < out_c p ->
      bproduct k filter rhs c ((b * out_h p + oy) * out_w p + ox) = acc_one p input filter b oy ox c.
  Proof.
    destruct (wf_facts p WF) as (HB&HH&HW&HKH&HKW&HOH&HOW&Hg&HCI&HCO&_).
    assert (Hid := ind_nonneg). assert (Efd := ci_eq).
    assert (HL := filter_len p WF filter Hfl).
    assert (HCc := wf_cout p WF). rewrite HG, Z.div_1_r in HCc, HCO.
    assert (Hgrp : forall c, 0 <= c < out_c p -> c / (out_c p / groups p) = 0).
    { intros c Hc. rewrite HG, Z.div_1_r. apply Z.div_small. lia. }
    unfold im2col.
    destruct ((negb (dl_w p =? 1) || negb (dl_h p =? 1)) ||
              (negb (s_w p =? 1) || negb (s_h p =? 1) || negb (f_w p =? 1) || negb (f_h p =? 1))) eqn:Eneed.
    - assert (HK : 0 <= im2col_k p) by (unfold im2col_k; clear -HKH HKW Hid; assert (0 <= f_h p * f_w p) by nia; nia).
      split; [reflexivity|]. split; [exact HK|].
      assert (HN : 0 <= N) by (unfold N; clear -HB HOH HOW; assert (0 <= batches p * out_h p) by nia; nia).
      split; [unfold Im2col; rewrite zlen_build; [reflexivity|fold N; apply Z.mul_nonneg_nonneg; assumption]|].
      split; [rewrite HL, Efd; unfold im2col_k; ring|].
      intros b oy ox c Hb Hoy Hox Hc.
      set (pix := (b * out_h p + oy) * out_w p + ox).
      destruct (pixel_of p b oy ox Hb Hoy Hox) as (Hpix & E1 & E2 & E3). fold pix in Hpix, E1, E2, E3.
      fold N in Hpix.
      unfold bproduct, acc_one, im2col_k.
      assert (HKH0 : 0 <= f_h p) by (clear -HKH; lia). assert (HKW0 : 0 <= f_w p) by (clear -HKW; lia).
      rewrite (sum_flat (f_h p * f_w p) (in_d p) _ (Z.mul_nonneg_nonneg _ _ HKH0 HKW0) Hid).
      rewrite (sum_flat (f_h p) (f_w p) _ HKH0 HKW0).
      apply sum_ext. intros fy Hfy. apply sum_ext. intros fx Hfx. unfold acc_tap. cbv zeta.
      rewrite Hgrp, Z.mul_0_l, Efd by exact Hc. apply sum_ext. intros ic Hic.
      rewrite xor_popcount_comm. f_equal.
      + set (r := (fy * f_w p + fx) * in_d p + ic).
        assert (Hr : 0 <= r < im2col_k p).
        { unfold r, im2col_k. apply radix_lt; [apply radix_lt|]; assumption. }
        fold (im2col_k p). unfold Im2col, wat at 1. fold N. rewrite rd_build by (apply radix_lt; assumption).
        unfold im2col_elem. cbv zeta.
        rewrite <- (Z.div_unique_pos (pix * im2col_k p + r) (im2col_k p) pix r Hr) by ring.
        rewrite <- (Z.mod_unique_pos (pix * im2col_k p + r) (im2col_k p) pix r Hr) by ring.
        rewrite E1, E2, E3.
        assert (Er : r / in_d p = fy * f_w p + fx).
        { symmetry. apply Z.div_unique_pos with (r := ic); [exact Hic|unfold r; ring]. }
        assert (Er2 : r mod in_d p = ic).
        { symmetry. apply Z.mod_unique_pos with (q := fy * f_w p + fx); [exact Hic|unfold r; ring]. }
        rewrite Er, Er2.
        rewrite <- (Z.div_unique_pos (fy * f_w p + fx) (f_w p) fy fx Hfx) by ring.
        rewrite <- (Z.mod_unique_pos (fy * f_w p + fx) (f_w p) fy fx Hfx) by ring.
        unfold inside. cbn [gH gW geom_of].
        rewrite Z.add_0_l. reflexivity.
      + unfold wat, word_at, Offset. f_equal. f_equal.
        replace (c * (f_h p * f_w p * in_d p) + ((fy * f_w p + fx) * in_d p + ic))
          with (((c * f_h p + fy) * f_w p + fx) * in_d p + ic) by ring. reflexivity.
    - assert (A : dl_w p = 1 /\ dl_h p = 1 /\ s_w p = 1 /\ s_h p = 1 /\ f_w p = 1 /\ f_h p = 1).
      { repeat match type of Eneed with context [?a =? 1] => destruct (Z.eqb_spec a 1); cbn in Eneed; try discriminate end.
        tauto. }
      destruct A as (Adw & Adh & Asw & Ash & Afw & Afh).
      destruct HP as (P1 & P2 & P3 & _). rewrite Afh, Ash, Adh, padding_1x1 in P1 by auto.
      rewrite Afw, Asw, Adw, padding_1x1 in P2 by auto. injection P1 as Eoh Eph. injection P2 as Eow Epw.
      split; [unfold N; rewrite Eoh, Eow; reflexivity|]. split; [exact Hid|].
      split; [rewrite (input_len p WF input Hin); ring|]. split; [rewrite HL, Efd, Afh, Afw; ring|].
      intros b oy ox c Hb Hoy Hox Hc. unfold bproduct, acc_one. rewrite Afh, Afw.
      change (sum_ 1 ?f) with (0 + f 0). cbv beta. unfold sum_ at 2. cbn [Z.to_nat Pos.to_nat Pos.iter_op sumn].
      rewrite !Z.add_0_l. unfold acc_tap. cbv zeta.
      rewrite Hgrp, Z.mul_0_l, Efd by exact Hc. apply sum_ext. intros ic Hic.
      rewrite xor_popcount_comm. f_equal.
      + unfold inside. cbn [gH gW geom_of]. rewrite Ash, Asw, Eph, Epw, !Z.mul_0_r, !Z.add_0_r, !Z.sub_0_r, !Z.mul_1_r.
        destruct (Z.leb_spec 0 oy), (Z.ltb_spec oy (in_h p)), (Z.leb_spec 0 ox), (Z.ltb_spec ox (in_w p)); try lia.
        cbn [andb]. unfold wat, word_at, Offset. rewrite Eoh, Eow, Z.add_0_l. reflexivity.
      + unfold wat, word_at, Offset. rewrite Afh, Afw. 
        replace (c * in_d p + ic) with (((c * 1 + 0) * 1 + 0) * in_d p + ic) by ring. reflexivity.
  Qed.

  Variables (kr lc rc : Z) (S : schedule).
  Hypothesis (Hkr : 0 < kr) (Hlc : 0 < lc) (Hrc : 0 < rc).
  Hypothesis HS : conv_schedule_ok kr lc rc p input S.

  Lemma bgemm_val_one {T} (run : Z -> Z -> option T) (v : Z -> Z -> Z -> Z -> T) out :
    (forall b y x c, 0 <= b < batches p -> 0 <= y < out_h p -> 0 <= x < out_w p -> 0 <= c < out_c p ->
       run (acc_one p input filter b y x c) c = Some (v b y x c)) ->
    zlen out = N * out_c p ->
    bgemm_conv_val kr lc rc S p input filter run out (fun out' =>
      zlen out' = zlen out /\
      forall b y x c, 0 <= b < batches p -> 0 <= y < out_h p -> 0 <= x < out_w p -> 0 <= c < out_c p ->
        rd out' (Offset (out_h p) (out_w p) (out_c p) b y x c) = Some (v b y x c)).
  Proof.
    intros Hrun Hlen. assert (Hoc := out_c_nonneg p WF).
    destruct (wf_facts p WF) as (HB&HH&HW&HKH&HKW&HOH&HOW&_).
    unfold bgemm_conv_val. assert (HI := im2col_ok). unfold conv_schedule_ok in HS.
    destruct (im2col p input) as ((rhs, k), m). destruct HI as (-> & Hk & Hr & Hf & Hacc).
    set (v' := fun c pix => v (pix / (out_h p * out_w p)) (pix mod (out_h p * out_w p) / out_w p) (pix mod out_w p) c).
    assert (HN : 0 <= N) by (unfold N; clear -HB HOH HOW; assert (0 <= batches p * out_h p) by nia; nia).
    eapply bgemm_mono; [apply (bgemm_val_ok kr lc rc (out_c p) k N S filter rhs) with (v := v'); auto|].
    - intros c pix Hc Hpix.
      destruct (pixel_decode _ _ _ pix HB HOH HOW Hpix) as (b & y & x & Hb & Hy & Hx & ->).
      destruct (pixel_of p b y x Hb Hy Hx) as (_ & E1 & E2 & E3).
      rewrite Hacc by auto. unfold v'. rewrite E1, E2, E3. auto.
    - intros out' (Hl & Hv). split; [exact Hl|]. intros b y x c Hb Hy Hx Hc.
      destruct (pixel_of p b y x Hb Hy Hx) as (Hpix & E1 & E2 & E3).
      unfold Offset. rewrite Hv by auto. unfold v'. rewrite E1, E2, E3. reflexivity.
  Qed.

  Lemma bgemm_bits_one (run : Z -> Z -> option bool) (v : Z -> Z -> Z -> Z -> bool) out :
    lc mod 32 = 0 ->
    (forall b y x c, 0 <= b < batches p -> 0 <= y < out_h p -> 0 <= x < out_w p -> 0 <= c < out_c p ->
       run (acc_one p input filter b y x c) c = Some (v b y x c)) ->
    zlen out = N * words (out_c p) ->
    bgemm_conv_bits kr lc rc S p input filter run out (fun out' =>
      packed out' N (out_c p) /\
      forall b y x c, 0 <= b < batches p -> 0 <= y < out_h p -> 0 <= x < out_w p -> 0 <= c < out_c p ->
        bit_of out' (words (out_c p)) ((b * out_h p + y) * out_w p + x) c = v b y x c).
  Proof.
    intros H32 Hrun Hlen. assert (Hoc := out_c_nonneg p WF).
    destruct (wf_facts p WF) as (HB&HH&HW&HKH&HKW&HOH&HOW&_).
    unfold bgemm_conv_bits. assert (HI := im2col_ok). unfold conv_schedule_ok in HS.
    destruct (im2col p input) as ((rhs, k), m). destruct HI as (-> & Hk & Hr & Hf & Hacc).
    set (v' := fun c pix => v (pix / (out_h p * out_w p)) (pix mod (out_h p * out_w p) / out_w p) (pix mod out_w p) c).
    assert (HN : 0 <= N) by (unfold N; clear -HB HOH HOW; assert (0 <= batches p * out_h p) by nia; nia).
    eapply bgemm_mono; [apply (bgemm_bits_ok kr lc rc (out_c p) k N S filter rhs) with (v := v'); auto|].
    - intros c pix Hc Hpix.
      destruct (pixel_decode _ _ _ pix HB HOH HOW Hpix) as (b & y & x & Hb & Hy & Hx & ->).
      destruct (pixel_of p b y x Hb Hy Hx) as (_ & E1 & E2 & E3).
      rewrite Hacc by auto. unfold v'. rewrite E1, E2, E3. auto.
    - destruct (negb _); [|exact Hlen]. rewrite zlen_repeat. exact Hlen.
    - intros out' (Hl & Hv). split; [exact Hl|]. intros b y x c Hb Hy Hx Hc.
      destruct (pixel_of p b y x Hb Hy Hx) as (Hpix & E1 & E2 & E3).
      rewrite Hv by auto. unfold v'. rewrite E1, E2, E3. reflexivity.
  Qed.

  Lemma bgemm_eq_reference_val {T} (run : Z -> Z -> option T) out :
    zero_padding p = false ->
    (forall a c, 0 <= c < out_c p -> exists r, run a c = Some r) ->
    zlen out = N * out_c p ->
    bgemm_conv_val kr lc rc S p input filter run out (fun out' =>
      BConv2DReference_val p input filter run out = Some out').
  Proof.
    intros HZ Htot Hlen. assert (Hoc := out_c_nonneg p WF).
    destruct (wf_facts p WF) as (HB&HH&HW&HKH&HKW&HOH&HOW&Hg&HCI&HCO&_).
    assert (Hoc0 : 0 < out_c p) by (rewrite HG, Z.div_1_r in HCO; exact HCO).
    destruct (Htot 0 0 ltac:(lia)) as [d _].
    set (v := fun b y x c => match run (acc_one p input filter b y x c) c with Some r => r | None => d end).
    assert (Hv : forall b y x c, 0 <= c < out_c p -> run (acc_one p input filter b y x c) c = Some (v b y x c)).
    { intros b y x c Hc. unfold v. destruct (Htot (acc_one p input filter b y x c) c Hc) as [r ->]. reflexivity. }
    destruct (reference_val_ok p WF input filter Hin Hfl run v out) as (o2 & E2 & L2 & C2).
    { intros b y x c Hb Hy Hx Hc. rewrite (acc_ref_one p input filter b y x c HZ). auto. }
    { exact Hlen. }
    eapply bgemm_conv_val_mono; [apply bgemm_val_one with (v := v); auto|].
    intros o1 (L1 & C1). rewrite E2. f_equal.
    apply (out_ext p o2 o1 HB HOH HOW Hoc0); [rewrite L2; exact Hlen|congruence|].
    intros b y x c Hb Hy Hx Hc. rewrite C1, C2 by auto. reflexivity.
  Qed.

  Lemma bgemm_eq_reference_bits (run : Z -> Z -> option bool) out :
    lc mod 32 = 0 -> zero_padding p = false ->
    (forall a c, 0 <= c < out_c p -> exists r, run a c = Some r) ->
    zlen out = N * words (out_c p) ->
    bgemm_conv_bits kr lc rc S p input filter run out (fun out' =>
      BConv2DReference_bits p input filter run (words (out_c p)) out = Some out' /\ packed out' N (out_c p)).
  Proof.
    intros H32 HZ Htot Hlen. assert (Hoc := out_c_nonneg p WF).
    destruct (wf_facts p WF) as (HB&HH&HW&HKH&HKW&HOH&HOW&_).
    set (v := fun b y x c => match run (acc_one p input filter b y x c) c with Some r => r | None => false end).
    assert (Hv : forall b y x c, 0 <= c < out_c p -> run (acc_one p input filter b y x c) c = Some (v b y x c)).
    { intros b y x c Hc. unfold v. destruct (Htot (acc_one p input filter b y x c) c Hc) as [r ->]. reflexivity. }
    destruct (reference_bits_ok p WF input filter Hin Hfl run v out) as (o2 & E2 & P2 & C2).
    { intros b y x c Hb Hy Hx Hc. rewrite (acc_ref_one p input filter b y x c HZ). auto. }
    { exact Hlen. }
    eapply bgemm_conv_bits_mono; [apply bgemm_bits_one with (v := v); auto|].
    intros o1 (P1 & C1). split; [|exact P1]. rewrite E2. f_equal.
    apply (packed_bits_inj o2 o1 N (out_c p)); [lia|exact P2|exact P1|].
    intros r c Hr Hc. destruct (pixel_decode _ _ _ r HB HOH HOW Hr) as (b & y & x & Hb & Hy & Hx & ->).
    transitivity (v b y x c); [apply C2; auto|symmetry; apply C1; auto].
  Qed.
End Conv.
