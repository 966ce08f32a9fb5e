(** * Reference: model of core/bconv2d/reference.h (BConv2DReference). *)
From Verif Require Import Base Spec Bits Loop4.

(** The quantities BConv2DReference reads: BConv2DParams (core/bconv2d/params.h
    11-33) and the dimensions of the three shapes (reference.h 48-69). *)
Record bconv := {
  batches : Z; in_h : Z; in_w : Z; in_d : Z;   (* packed input shape *)
  out_c : Z; f_h : Z; f_w : Z; f_d : Z;        (* packed filter shape *)
  out_h : Z; out_w : Z;                        (* output shape dims 1, 2 *)
  channels_in : Z; groups : Z;
  s_h : Z; s_w : Z; dl_h : Z; dl_w : Z;        (* strides, dilations *)
  pad_h : Z; pad_w : Z;                        (* padding_values *)
  pad_same : bool; pad_value : Z
}.

Section Ref.
  Variable p : bconv.
  Variables input filter : list Z.

  (** reference.h 71-73 *)
  Definition zero_padding : bool := pad_same p && (pad_value p =? 0).

  (** reference.h 90-117: the accumulator of one output element. C++ int
      arithmetic is modelled in Z (no wrap-around). *)
  Definition ref_accum (batch out_y out_x out_channel : Z) : option Z :=
    let* cpg := cdiv (channels_in p) (groups p) in
    let binary_zero_point := Z.quot cpg 2 in                 (* lines 77-78 *)
    let* odpg := cdiv (out_c p) (groups p) in                (* line 59 *)
    let in_x_origin := out_x * s_w p - pad_w p in
    let in_y_origin := out_y * s_h p - pad_h p in
    let* group := cdiv out_channel odpg in
    for_ 0 (f_h p) (fun filter_y accum =>
      for_ 0 (f_w p) (fun filter_x accum =>
        let in_x := in_x_origin + dl_w p * filter_x in
        let in_y := in_y_origin + dl_h p * filter_y in
        let inside := (0 <=? in_x) && (in_x <? in_w p) && (0 <=? in_y) && (in_y <? in_h p) in
        if zero_padding && negb inside then Some (accum + binary_zero_point)
        else
          for_ 0 (f_d p) (fun in_channel accum =>
            let* input_value :=
              if inside then
                rd input (Offset (in_h p) (in_w p) (in_d p) batch in_y in_x
                                 (group * f_d p + in_channel))
              else Some 0 in
            let* filter_value :=
              rd filter (Offset (f_h p) (f_w p) (f_d p) out_channel filter_y filter_x in_channel) in
            Some (accum + xor_popcount input_value filter_value)) accum) accum) 0.

  (** reference.h 85-148 for float/int8 output (lines 139-145). [run accum c] is
      [output_transform.Run]; it may fail when it reads out of bounds. *)
  Definition BConv2DReference_val {T} (run : Z -> Z -> option T) (out : list T)
    : option (list T) :=
    for_ 0 (batches p) (fun batch out =>
      for_ 0 (out_h p) (fun out_y out =>
        for_ 0 (out_w p) (fun out_x out =>
          for_ 0 (out_c p) (fun out_channel out =>
            let* accum := ref_accum batch out_y out_x out_channel in
            let* v := run accum out_channel in
            wr out (Offset (out_h p) (out_w p) (out_c p) batch out_y out_x out_channel) v)
          out) out) out) out.

  (** reference.h 85-148 for bitpacked output (lines 118-137). [out_d] is the
      last dimension of the (packed) output shape. *)
  Definition BConv2DReference_bits (run : Z -> Z -> option bool) (out_d : Z) (out : list Z)
    : option (list Z) :=
    for_ 0 (batches p) (fun batch out =>
      for_ 0 (out_h p) (fun out_y out =>
        for_ 0 (out_w p) (fun out_x out =>
          let* (out, _) :=
            for_ 0 (out_c p) (fun out_channel '(out, column) =>
              let* accum := ref_accum batch out_y out_x out_channel in
              let* bit := run accum out_channel in
              let column := setbit_if bit column (out_channel mod 32) in
              if ((out_channel + 1) mod 32 =? 0) || (out_channel + 1 =? out_c p) then
                let* out := wr out (Offset (out_h p) (out_w p) out_d batch out_y out_x
                                           (out_channel / 32)) column in
                Some (out, 0)
              else Some (out, column)) (out, 0) in
          Some out) out) out) out.
End Ref.

(** ** The geometry a parameter set denotes, and well-formedness *)
Definition geom_of (p : bconv) : geom :=
  {| gB := batches p; gH := in_h p; gW := in_w p; gKH := f_h p; gKW := f_w p;
     gOH := out_h p; gOW := out_w p; gSH := s_h p; gSW := s_w p; gDH := dl_h p; gDW := dl_w p;
     gPH := pad_h p; gPW := pad_w p; gG := groups p;
     gCI := channels_in p / groups p; gCO := out_c p / groups p |}.

(** What [Prepare] and the DCHECKs at reference.h 51-83 establish. *)
Record bconv_wf (p : bconv) : Prop := {
  wf_geom : geom_ok (geom_of p);
  wf_cin : channels_in p = groups p * (channels_in p / groups p);
  wf_cout : out_c p = groups p * (out_c p / groups p);
  wf_fd : f_d p = words (channels_in p / groups p);
  wf_ind : in_d p = words (channels_in p)
}.

(** ** Pure value of the accumulator *)
Definition word_at (m : list Z) (i : Z) : Z := match rd m i with Some w => w | None => 0 end.

Definition acc_tap (p : bconv) (input filter : list Z) (b oy ox oc fy fx : Z) : Z :=
  let y := oy * s_h p - pad_h p + dl_h p * fy in
  let x := ox * s_w p - pad_w p + dl_w p * fx in
  let g := oc / (out_c p / groups p) in
  sum_ (f_d p) (fun ic =>
    xor_popcount
      (if inside (geom_of p) y x
       then word_at input (Offset (in_h p) (in_w p) (in_d p) b y x (g * f_d p + ic)) else 0)
      (word_at filter (Offset (f_h p) (f_w p) (f_d p) oc fy fx ic))).

(** Accumulator when outside pixels are all-zero words (+1). *)
Definition acc_one (p : bconv) (input filter : list Z) (b oy ox oc : Z) : Z :=
  sum_ (f_h p) (fun fy => sum_ (f_w p) (fun fx => acc_tap p input filter b oy ox oc fy fx)).

(** Accumulator of the reference kernel. *)
Definition acc_ref (p : bconv) (input filter : list Z) (b oy ox oc : Z) : Z :=
  sum_ (f_h p) (fun fy => sum_ (f_w p) (fun fx =>
    let y := oy * s_h p - pad_h p + dl_h p * fy in
    let x := ox * s_w p - pad_w p + dl_w p * fx in
    if zero_padding p && negb (inside (geom_of p) y x)
    then Z.quot (channels_in p / groups p) 2
    else acc_tap p input filter b oy ox oc fy fx)).

(** ** Proofs *)
Section RefProofs.
  Variable p : bconv.
  Hypothesis WF : bconv_wf p.
  Variables input filter : list Z.
  Hypothesis Hin : packed input (in_pixels (geom_of p)) (channels_in p).
  Hypothesis Hfl : packed filter (filter_pixels (geom_of p)) (channels_in p / groups p).

  Let CI := channels_in p / groups p.
  Let CO := out_c p / groups p.

  Lemma wf_facts :
    0 <= batches p /\ 0 <= in_h p /\ 0 <= in_w p /\ 0 <= f_h p /\ 0 <= f_w p /\
    0 <= out_h p /\ 0 <= out_w p /\ 0 < groups p /\ 0 <= CI /\ 0 < CO /\
    (groups p = 1 \/ CI mod 32 = 0).
  Proof. destruct (wf_geom p WF) as (?&?&?&?&?&?&?&?&?&?&?). cbn in *. tauto. Qed.

  Lemma input_len : zlen input = batches p * in_h p * in_w p * in_d p.
  Proof. destruct Hin as [H _]. rewrite H, (wf_ind p WF). reflexivity. Qed.

  Lemma filter_len : zlen filter = out_c p * f_h p * f_w p * f_d p.
  Proof.
    destruct Hfl as [H _]. rewrite H, (wf_fd p WF). unfold filter_pixels. cbn.
    rewrite <- (wf_cout p WF). reflexivity.
  Qed.

  (** Words of one group: groups * f_d = in_d. *)
  Lemma ind_groups : in_d p = groups p * f_d p.
  Proof.
    rewrite (wf_ind p WF), (wf_fd p WF). fold CI.
    destruct wf_facts as (_&_&_&_&_&_&_&Hg&HCI&_&[H1|H32]).
    - rewrite (wf_cin p WF). fold CI. rewrite H1, !Z.mul_1_l. reflexivity.
    - rewrite (wf_cin p WF). fold CI. unfold words.
      assert (EC : CI = CI / 32 * 32) by lia.
      replace (groups p * CI + 31) with (31 + groups p * (CI / 32) * 32) by nia.
      rewrite Z.div_add by lia. replace ((CI + 31) / 32) with (CI / 32) by lia.
      reflexivity.
  Qed.

  Lemma group_bounds oc : 0 <= oc < out_c p -> 0 <= oc / CO < groups p.
  Proof.
    intros H. destruct wf_facts as (_&_&_&_&_&_&_&Hg&_&HCO&_).
    assert (Hc := wf_cout p WF). fold CO in Hc.
    split; [apply Z.div_pos; lia|]. apply Z.div_lt_upper_bound; nia.
  Qed.

  Lemma f_d_nonneg : 0 <= f_d p.
  Proof. rewrite (wf_fd p WF). apply words_nonneg. apply wf_facts. Qed.

  Lemma word_at_ok (m : list Z) i : 0 <= i < zlen m -> rd m i = Some (word_at m i).
  Proof. intros H. unfold word_at. destruct (rd_some m i H) as [v ->]. reflexivity. Qed.

  Lemma input_index b y x oc ic :
    0 <= b < batches p -> 0 <= y < in_h p -> 0 <= x < in_w p -> 0 <= oc < out_c p ->
    0 <= ic < f_d p ->
    0 <= Offset (in_h p) (in_w p) (in_d p) b y x (oc / CO * f_d p + ic) < zlen input.
  Proof.
    intros Hb Hy Hx Hoc Hic. rewrite input_len.
    assert (Hg := group_bounds oc Hoc). apply Offset_bounds; auto.
    rewrite ind_groups. nia.
  Qed.

  Lemma filter_index oc fy fx ic :
    0 <= oc < out_c p -> 0 <= fy < f_h p -> 0 <= fx < f_w p -> 0 <= ic < f_d p ->
    0 <= Offset (f_h p) (f_w p) (f_d p) oc fy fx ic < zlen filter.
  Proof. intros. rewrite filter_len. apply Offset_bounds; auto. Qed.

  Lemma ref_accum_ok b oy ox oc :
    0 <= b < batches p -> 0 <= oc < out_c p ->
    ref_accum p input filter b oy ox oc = Some (acc_ref p input filter b oy ox oc).
  Proof.
    intros Hb Hoc. destruct wf_facts as (HB&HH&HW&HKH&HKW&HOH&HOW&Hg&HCI&HCO&_).
    unfold ref_accum. rewrite !cdiv_nz by lia. cbn [bind].
    rewrite !Z.quot_div_nonneg with (a := out_c p) by lia. fold CO.
    rewrite !cdiv_nz by lia. cbn [bind].
    assert (Hcin : 0 <= channels_in p) by (rewrite (wf_cin p WF); fold CI; nia).
    rewrite (Z.quot_div_nonneg (channels_in p) (groups p)) by lia. fold CI.
    rewrite (Z.quot_div_nonneg oc CO) by lia.
    unfold acc_ref. fold CI.
    rewrite (for_sum_eq (f_h p) (fun fy => sum_ (f_w p) (fun fx =>
      let y := oy * s_h p - pad_h p + dl_h p * fy in
      let x := ox * s_w p - pad_w p + dl_w p * fx in
      if zero_padding p && negb (inside (geom_of p) y x)
      then Z.quot CI 2 else acc_tap p input filter b oy ox oc fy fx)));
      [f_equal; lia|lia|].
    intros fy acc Hfy.
    rewrite (for_sum_eq (f_w p) (fun fx =>
      let y := oy * s_h p - pad_h p + dl_h p * fy in
      let x := ox * s_w p - pad_w p + dl_w p * fx in
      if zero_padding p && negb (inside (geom_of p) y x)
      then Z.quot CI 2 else acc_tap p input filter b oy ox oc fy fx)); [reflexivity|lia|].
    intros fx acc' Hfx. cbv zeta.
    set (y := oy * s_h p - pad_h p + dl_h p * fy).
    set (x := ox * s_w p - pad_w p + dl_w p * fx).
    replace ((0 <=? x) && (x <? in_w p) && (0 <=? y) && (y <? in_h p))
      with (inside (geom_of p) y x)
      by (unfold inside; cbn;
          destruct (0 <=? x), (x <? in_w p), (0 <=? y), (y <? in_h p); reflexivity).
    destruct (zero_padding p && negb (inside (geom_of p) y x)) eqn:EZ; [reflexivity|].
    unfold acc_tap. cbv zeta. fold y x CO.
    apply for_sum_eq; [apply f_d_nonneg|]. intros ic acc'' Hic.
    rewrite (word_at_ok filter) by (apply filter_index; auto).
    destruct (inside (geom_of p) y x) eqn:EI; cbn [bind]; [|reflexivity].
    rewrite (word_at_ok input); [reflexivity|].
    unfold inside in EI; cbn in EI. apply input_index; auto; lia.
  Qed.

  (** ** The accumulator against the mathematical convolution *)
  Lemma tap_sum b y x oc fy fx :
    0 <= b < batches p -> 0 <= oc < out_c p -> 0 <= fy < f_h p -> 0 <= fx < f_w p ->
    CI - 2 * sum_ (f_d p) (fun ic =>
      xor_popcount
        (if inside (geom_of p) y x
         then word_at input (Offset (in_h p) (in_w p) (in_d p) b y x (oc / CO * f_d p + ic)) else 0)
        (word_at filter (Offset (f_h p) (f_w p) (f_d p) oc fy fx ic)))
    = sum_ CI (fun c =>
       (if inside (geom_of p) y x then input_pm (geom_of p) input b y x (oc / CO * CI + c) else 1)
       * filter_pm (geom_of p) filter oc fy fx c).
  Proof.
    intros Hb Hoc Hfy Hfx.
    destruct wf_facts as (HB&HH&HW&HKH&HKW&HOH&HOW&Hg&HCI&HCO&Hgrp).
    assert (Hgb := group_bounds oc Hoc).
    assert (Hfd := f_d_nonneg). assert (Efd := wf_fd p WF). fold CI in Efd.
    assert (H32 := words_mul32 CI HCI). rewrite <- Efd in H32.
    assert (Efpix : filter_pixels (geom_of p) = out_c p * f_h p * f_w p).
    { unfold filter_pixels; cbn. rewrite <- (wf_cout p WF). reflexivity. }
    assert (Hfpix : 0 <= (oc * f_h p + fy) * f_w p + fx < filter_pixels (geom_of p)).
    { rewrite Efpix. assert (0 <= oc * f_h p + fy < out_c p * f_h p) by nia. nia. }
    (* bits *)
    set (fb := fun c => bit_of filter (f_d p) ((oc * f_h p + fy) * f_w p + fx) c).
    set (ib := fun c => if inside (geom_of p) y x
                 then bit_of input (in_d p) ((b * in_h p + y) * in_w p + x) (32 * (oc / CO * f_d p) + c)
                 else false).
    assert (Hx : forall ic, 0 <= ic < f_d p ->
      xor_popcount
        (if inside (geom_of p) y x
         then word_at input (Offset (in_h p) (in_w p) (in_d p) b y x (oc / CO * f_d p + ic)) else 0)
        (word_at filter (Offset (f_h p) (f_w p) (f_d p) oc fy fx ic))
      = sum_ 32 (fun i => Z.b2z (xorb (ib (ic * 32 + i)) (fb (ic * 32 + i))))).
    { intros ic Hic. rewrite xor_popcount_spec. apply sum_ext. intros i Hi. f_equal. f_equal.
      - unfold ib. destruct (inside (geom_of p) y x); [|apply Z.bits_0].
        unfold bit_of, word_at, Offset.
        replace ((32 * (oc / CO * f_d p) + (ic * 32 + i)) / 32) with (oc / CO * f_d p + ic)
          by (apply Z.div_unique with (r := i); lia).
        replace ((32 * (oc / CO * f_d p) + (ic * 32 + i)) mod 32) with i
          by (apply Z.mod_unique with (q := oc / CO * f_d p + ic); lia).
        destruct (rd input _); [reflexivity|]. apply Z.bits_0.
      - unfold fb, bit_of, word_at, Offset.
        replace ((ic * 32 + i) / 32) with ic by lia. replace ((ic * 32 + i) mod 32) with i by lia.
        destruct (rd filter _); [reflexivity|]. apply Z.bits_0. }
    rewrite (sum_ext _ _ _ Hx).
    rewrite <- (sum_flat (f_d p) 32 (fun c => Z.b2z (xorb (ib c) (fb c)))) by lia.
    rewrite (sum_extend CI (f_d p * 32)); [|lia|].
    - rewrite <- sum_scale.
      replace CI with (sum_ CI (fun _ => 1)) at 1 by (rewrite sum_const; lia).
      rewrite <- sum_minus. apply sum_ext. intros c Hc.
      unfold filter_pm. cbn [gKH gKW gCI geom_of]. fold CI. rewrite <- Efd.
      replace (bit_of filter (f_d p) ((oc * f_h p + fy) * f_w p + fx) c) with (fb c) by reflexivity.
      transitivity (pm (ib c) * pm (fb c)); [rewrite pm_mul; reflexivity|]. f_equal.
      unfold ib. destruct (inside (geom_of p) y x); [|reflexivity].
      unfold input_pm. cbn [gG gCI gH gW geom_of]. fold CI.
      replace (groups p * CI) with (channels_in p) by exact (wf_cin p WF). rewrite <- (wf_ind p WF).
      f_equal. f_equal.
      destruct Hgrp as [H1|H320].
      + replace (oc / CO) with 0 by lia. lia.
      + assert (CI = 32 * f_d p) by lia. nia.
    - intros c Hc.
      assert (Hf0 : fb c = false).
      { unfold fb. destruct Hfl as (_ & _ & Hz). fold CI in Hz. rewrite <- Efd in Hz.
        apply Hz; [exact Hfpix|lia]. }
      assert (Hi0 : ib c = false).
      { unfold ib. destruct (inside (geom_of p) y x) eqn:EI; [|reflexivity].
        unfold inside in EI; cbn in EI.
        destruct Hgrp as [H1|H320]; [|lia].
        replace (oc / CO) with 0 by lia. replace (32 * (0 * f_d p) + c) with c by lia.
        destruct Hin as (_ & _ & Hz). rewrite <- (wf_ind p WF) in Hz.
        assert (channels_in p = CI) by (rewrite (wf_cin p WF), H1; fold CI; rewrite ?H1; lia).
        assert (in_d p = f_d p) by (rewrite ind_groups; lia).
        apply Hz; [|lia]. unfold in_pixels; cbn.
        assert (0 <= b * in_h p + y < batches p * in_h p) by nia. nia. }
      rewrite Hf0, Hi0. reflexivity.
  Qed.

  (** Padding value that the reference kernel implements. *)
  Definition pad_spec : Z := if zero_padding p then 0 else 1.

  Lemma acc_ref_conv b oy ox oc :
    0 <= b < batches p -> 0 <= oc < out_c p ->
    (zero_padding p = true -> CI mod 2 = 0) ->
    taps (geom_of p) - 2 * acc_ref p input filter b oy ox oc
    = conv (geom_of p) pad_spec (input_pm (geom_of p) input) (filter_pm (geom_of p) filter) b oy ox oc.
  Proof.
    intros Hb Hoc Hev. destruct wf_facts as (HB&HH&HW&HKH&HKW&HOH&HOW&Hg&HCI&HCO&_).
    unfold taps, conv, acc_ref. cbn [gKH gKW gCI gSH gSW gPH gPW gDH gDW gCO geom_of].
    fold CI CO.
    replace (f_h p * f_w p * CI) with (sum_ (f_h p) (fun _ => sum_ (f_w p) (fun _ => CI)))
      by (rewrite !sum_const by lia; lia).
    rewrite <- sum_scale, <- sum_minus. apply sum_ext. intros fy Hfy.
    rewrite <- sum_scale, <- sum_minus. apply sum_ext. intros fx Hfx. cbv zeta.
    replace (dl_h p * fy) with (fy * dl_h p) by lia. replace (dl_w p * fx) with (fx * dl_w p) by lia.
    set (y := oy * s_h p - pad_h p + fy * dl_h p).
    set (x := ox * s_w p - pad_w p + fx * dl_w p).
    assert (HT := tap_sum b y x oc fy fx Hb Hoc Hfy Hfx).
    destruct (zero_padding p) eqn:EZ; cbn [andb]; unfold pad_spec; rewrite EZ.
    - destruct (inside (geom_of p) y x) eqn:EI; cbn [negb].
      + unfold acc_tap. cbv zeta.
        replace (oy * s_h p - pad_h p + dl_h p * fy) with y by (unfold y; lia).
        replace (ox * s_w p - pad_w p + dl_w p * fx) with x by (unfold x; lia).
        fold CO. rewrite EI. exact HT.
      + rewrite sum_zero by (intros; lia). specialize (Hev eq_refl). lia.
    - unfold acc_tap. cbv zeta.
      replace (oy * s_h p - pad_h p + dl_h p * fy) with y by (unfold y; lia).
      replace (ox * s_w p - pad_w p + dl_w p * fx) with x by (unfold x; lia).
      fold CO. exact HT.
  Qed.

  Lemma acc_ref_one b oy ox oc :
    zero_padding p = false -> acc_ref p input filter b oy ox oc = acc_one p input filter b oy ox oc.
  Proof.
    intros HZ. unfold acc_ref, acc_one. apply sum_ext; intros fy Hfy. apply sum_ext; intros fx Hfx.
    rewrite HZ. reflexivity.
  Qed.

  Lemma acc_one_conv b oy ox oc :
    0 <= b < batches p -> 0 <= oc < out_c p ->
    taps (geom_of p) - 2 * acc_one p input filter b oy ox oc
    = conv (geom_of p) 1 (input_pm (geom_of p) input) (filter_pm (geom_of p) filter) b oy ox oc.
  Proof.
    intros Hb Hoc. destruct wf_facts as (HB&HH&HW&HKH&HKW&HOH&HOW&Hg&HCI&HCO&_).
    unfold taps, conv, acc_one. cbn [gKH gKW gCI gSH gSW gPH gPW gDH gDW gCO geom_of].
    fold CI CO.
    replace (f_h p * f_w p * CI) with (sum_ (f_h p) (fun _ => sum_ (f_w p) (fun _ => CI)))
      by (rewrite !sum_const by lia; lia).
    rewrite <- sum_scale, <- sum_minus. apply sum_ext. intros fy Hfy.
    rewrite <- sum_scale, <- sum_minus. apply sum_ext. intros fx Hfx. cbv zeta.
    unfold acc_tap. cbv zeta. fold CO.
    replace (dl_h p * fy) with (fy * dl_h p) by lia. replace (dl_w p * fx) with (fx * dl_w p) by lia.
    apply tap_sum; auto.
  Qed.

  (** ** The loop nests *)
  Lemma out_c_nonneg : 0 <= out_c p.
  Proof.
    destruct wf_facts as (_&_&_&_&_&_&_&Hg&_&HCO&_). rewrite (wf_cout p WF). fold CO. nia.
  Qed.

  Lemma reference_val_ok {T} (run : Z -> Z -> option T) (v : Z -> Z -> Z -> Z -> T) out :
    (forall b y x c, 0 <= b < batches p -> 0 <= y < out_h p -> 0 <= x < out_w p ->
      0 <= c < out_c p -> run (acc_ref p input filter b y x c) c = Some (v b y x c)) ->
    zlen out = batches p * out_h p * out_w p * out_c p ->
    exists out', BConv2DReference_val p input filter run out = Some out' /\
      zlen out' = zlen out /\
      (forall b y x c, 0 <= b < batches p -> 0 <= y < out_h p -> 0 <= x < out_w p ->
         0 <= c < out_c p ->
         rd out' (Offset (out_h p) (out_w p) (out_c p) b y x c) = Some (v b y x c)).
  Proof.
    intros Hrun Hlen. destruct wf_facts as (HB&HH&HW&HKH&HKW&HOH&HOW&Hg&HCI&HCO&_).
    assert (HOC := out_c_nonneg).
    apply wp_iff. unfold BConv2DReference_val.
    set (G := fun b y x c w => w = v b y x c).
    eapply wp_mono; [apply (for3_upto (batches p) (out_h p) (out_w p) (out_c p) HB HOH HOW G)|].
    - intros b y x t Hb Hy Hx Ht.
      replace (Offset (out_h p) (out_w p) (out_c p) b y x 0 + out_c p) with
        (Offset (out_h p) (out_w p) (out_c p) b y x 0 + out_c p * 1) by lia.
      apply for_upto; [lia| |exact Ht]. intros c t3 Hc Ht3.
      rewrite ref_accum_ok by auto. cbn [bind]. rewrite Hrun by auto. cbn [bind].
      replace (Offset (out_h p) (out_w p) (out_c p) b y x 0 + (c + 1) * 1) with
        (Offset (out_h p) (out_w p) (out_c p) b y x 0 + c * 1 + 1) by lia.
      eapply upto_wr; eauto; [unfold Offset; lia|reflexivity].
    - intros o Ho. split; [apply Ho|]. intros b y x c Hb Hy Hx Hc.
      destruct (upto_full _ _ _ _ _ _ _ Ho b y x c Hb Hy Hx Hc) as (w & Hw & HG).
      unfold G in HG. congruence.
  Qed.

  (** Invariant of the channel loop with bitpacked output. *)
  Lemma reference_bits_ok (run : Z -> Z -> option bool) (v : Z -> Z -> Z -> Z -> bool) out :
    (forall b y x c, 0 <= b < batches p -> 0 <= y < out_h p -> 0 <= x < out_w p ->
      0 <= c < out_c p -> run (acc_ref p input filter b y x c) c = Some (v b y x c)) ->
    zlen out = out_pixels (geom_of p) * words (out_c p) ->
    exists out', BConv2DReference_bits p input filter run (words (out_c p)) out = Some out' /\
      packed out' (out_pixels (geom_of p)) (out_c p) /\
      (forall b y x c, 0 <= b < batches p -> 0 <= y < out_h p -> 0 <= x < out_w p ->
         0 <= c < out_c p ->
         bit_of out' (words (out_c p)) (out_pixel (geom_of p) b y x) c = v b y x c).
  Proof.
    intros Hrun Hlen. destruct wf_facts as (HB&HH&HW&HKH&HKW&HOH&HOW&Hg&HCI&HCO&_).
    assert (HOC := out_c_nonneg). assert (HWn := words_nonneg _ HOC).
    assert (HW32 := words_mul32 _ HOC).
    apply wp_iff. unfold BConv2DReference_bits. set (D := words (out_c p)) in *.
    set (G := fun b y x k w => word w /\ forall i, 0 <= i < 32 ->
                Z.testbit w i = (32 * k + i <? out_c p) && v b y x (32 * k + i)).
    eapply wp_mono; [apply (for3_upto (batches p) (out_h p) (out_w p) D HB HOH HOW G)|].
    - intros b y x t Hb Hy Hx Ht. apply wp_bind.
      set (base := Offset (out_h p) (out_w p) D b y x 0) in *.
      set (I := fun oc (s : list Z * Z) => let (o, col) := s in
        if oc =? out_c p then upto (batches p) (out_h p) (out_w p) D G (base + D) out o
        else upto (batches p) (out_h p) (out_w p) D G (base + oc / 32) out o /\
             word col /\ forall i, 0 <= i < 32 ->
               Z.testbit col i = (i <? oc mod 32) && v b y x (32 * (oc / 32) + i)).
      apply (for_wp I).
      + unfold I. destruct (Z.eqb_spec 0 (out_c p)) as [E0|E0].
        * assert (D = 0) by (unfold D, words; lia). replace (base + D) with base by lia. exact Ht.
        * split; [rewrite Z.div_0_l, Z.add_0_r by lia; exact Ht|]. split; [apply word_0|].
          intros i Hi. rewrite Z.bits_0, Z.mod_0_l by lia.
          destruct (Z.ltb_spec i 0); [lia|reflexivity].
      + intros oc (o, col) Hoc HI. unfold I in HI.
        destruct (Z.eqb_spec oc (out_c p)) as [|_]; [lia|]. destruct HI as (Hu & Hwc & Hbits).
        rewrite ref_accum_ok by auto. cbn [bind]. rewrite Hrun by auto. cbn [bind].
        set (col' := setbit_if (v b y x oc) col (oc mod 32)).
        assert (Hw' : word col') by (apply setbit_if_word; [exact Hwc|lia]).
        assert (Hb' : forall i, 0 <= i < 32 ->
          Z.testbit col' i = (i <=? oc mod 32) && v b y x (32 * (oc / 32) + i)).
        { intros i Hi. unfold col'. rewrite testbit_setbit_if by lia. rewrite Hbits by exact Hi.
          destruct (Z.eqb_spec (oc mod 32) i) as [Ei|Ei].
          - replace (32 * (oc / 32) + i) with oc by lia.
            destruct (Z.ltb_spec i (oc mod 32)); [lia|]. destruct (Z.leb_spec i (oc mod 32)); [|lia].
            reflexivity.
          - rewrite orb_false_r.
            destruct (Z.ltb_spec i (oc mod 32)); destruct (Z.leb_spec i (oc mod 32)); try lia;
              reflexivity. }
        destruct ((oc + 1) mod 32 =? 0) eqn:E1; [|destruct (oc + 1 =? out_c p) eqn:E2]; cbn [orb].
        3:{ apply wp_ret. unfold I. rewrite E2. split; [|split; [exact Hw'|]].
            - replace ((oc + 1) / 32) with (oc / 32) by lia. exact Hu.
            - intros i Hi. rewrite Hb' by exact Hi. replace ((oc + 1) / 32) with (oc / 32) by lia.
              f_equal. destruct (Z.leb_spec i (oc mod 32)), (Z.ltb_spec i ((oc + 1) mod 32));
                try lia; reflexivity. }
        all: apply wp_bind; eapply wp_mono;
          [eapply (upto_wr (batches p) (out_h p) (out_w p) D G out o (base + oc / 32));
            [rewrite Hlen; unfold out_pixels; cbn; fold D; lia|exact Hu|unfold base, Offset; lia
            |exact Hb|exact Hy|exact Hx|unfold D, words; lia|]|].
        1,3: split; [exact Hw'|]; intros i Hi; rewrite Hb' by exact Hi; f_equal;
          destruct (Z.leb_spec i (oc mod 32)), (Z.ltb_spec (32 * (oc / 32) + i) (out_c p));
            try lia; reflexivity.
        * intros o' Ho'. apply wp_ret. unfold I. destruct (Z.eqb_spec (oc + 1) (out_c p)) as [E2|E2].
          -- replace (base + D) with (base + oc / 32 + 1) by (unfold D, words; lia). exact Ho'.
          -- split; [|split; [apply word_0|]].
             ++ replace (base + (oc + 1) / 32) with (base + oc / 32 + 1) by lia. exact Ho'.
             ++ intros i Hi. rewrite Z.bits_0. destruct (Z.ltb_spec i ((oc + 1) mod 32)); [lia|reflexivity].
        * intros o' Ho'. apply wp_ret. unfold I. rewrite E2.
          replace (base + D) with (base + oc / 32 + 1) by (unfold D, words; lia). exact Ho'.
      + rewrite Z.max_r by lia. intros (o, col) HI. apply wp_ret. unfold I in HI.
        rewrite Z.eqb_refl in HI. exact HI.
    - intros o Ho.
      assert (Hbit : forall b y x c, 0 <= b < batches p -> 0 <= y < out_h p -> 0 <= x < out_w p ->
         0 <= c < 32 * D -> bit_of o D (out_pixel (geom_of p) b y x) c
            = (c <? out_c p) && v b y x c).
      { intros b y x c Hb Hy Hx Hc.
        destruct (upto_full _ _ _ _ _ _ _ Ho b y x (c / 32) Hb Hy Hx ltac:(lia)) as (w & Hw & _ & HG).
        unfold bit_of, out_pixel. cbn. unfold Offset in Hw. rewrite Hw, HG by lia.
        replace (32 * (c / 32) + c mod 32) with c by lia. reflexivity. }
      split; [split; [|split]|].
      + destruct Ho as [Hl _]. rewrite Hl; exact Hlen.
      + intros i w Hi. assert (Hb := rd_bounds _ _ _ Hi).
        assert (Hl : zlen o = out_pixels (geom_of p) * D) by (destruct Ho; congruence).
        assert (0 < D) by (destruct (Z.eq_dec D 0) as [E0|]; [rewrite E0 in *; lia|lia]).
        assert (Hq : 0 <= i / D < batches p * out_h p * out_w p).
        { unfold out_pixels in Hl; cbn in Hl.
          split; [apply Z.div_pos; lia|apply Z.div_lt_upper_bound; lia]. }
        destruct (pixel_decode _ _ _ (i / D) HB HOH HOW Hq) as (b & y & x & Hb1 & Hy & Hx & Eq).
        destruct (upto_full _ _ _ _ _ _ _ Ho b y x (i mod D) Hb1 Hy Hx
           (Z.mod_pos_bound i D ltac:(lia))) as (w' & Hw' & Hword & _).
        unfold Offset in Hw'. rewrite <- Eq in Hw'.
        rewrite (Z.mul_comm (i / D)), <- (Z.div_mod i D) in Hw' by lia. congruence.
      + intros q k Hq Hk. unfold out_pixels in Hq; cbn in Hq.
        destruct (pixel_decode _ _ _ q HB HOH HOW Hq) as (b & y & x & Hb & Hy & Hx & ->).
        change (bit_of o D (out_pixel (geom_of p) b y x) k = false).
        rewrite Hbit by (auto; lia). destruct (Z.ltb_spec k (out_c p)); [lia|reflexivity].
      + intros b y x c Hb Hy Hx Hc. rewrite Hbit by (auto; lia).
        destruct (Z.ltb_spec c (out_c p)); [reflexivity|lia].
  Qed.
End RefProofs.
