(** * RefTheorems: the reference kernel end to end. *)
From Coq Require Import QArith Qround Qabs Lqa.
From Verif Require Import Base Spec Bits Loop4 Reference OutputTransform.
Open Scope Z_scope.

(** A +-1 convolution (padding value 0 or 1) lies in [-taps, taps]. *)
Lemma conv_bound g padv I F b oy ox o :
  0 <= gKH g -> 0 <= gKW g -> 0 <= gCI g ->
  -1 <= padv <= 1 ->
  (forall b y x c, -1 <= I b y x c <= 1) -> (forall o y x c, -1 <= F o y x c <= 1) ->
  - taps g <= conv g padv I F b oy ox o <= taps g.
Proof.
  intros H1 H2 H3 Hp HI HF. unfold taps, conv.
  assert (E : gKH g * gKW g * gCI g
     = sum_ (gKH g) (fun _ => sum_ (gKW g) (fun _ => sum_ (gCI g) (fun _ => 1))))
    by (rewrite !sum_const by lia; lia).
  rewrite E. split.
  - rewrite <- sum_opp. apply sum_mono. intros fy _. rewrite <- sum_opp. apply sum_mono. intros fx _.
    rewrite <- sum_opp. apply sum_mono. intros c _. cbv zeta.
    set (y := _ - _ + _). set (x := _ - _ + _). clearbody y x.
    specialize (HI b y x (o / gCO g * gCI g + c)). specialize (HF o fy fx c).
    destruct (inside g y x); nia.
  - apply sum_mono. intros fy _. apply sum_mono. intros fx _. apply sum_mono. intros c _. cbv zeta.
    set (y := _ - _ + _). set (x := _ - _ + _). clearbody y x.
    specialize (HI b y x (o / gCO g * gCI g + c)). specialize (HF o fy fx c).
    destruct (inside g y x); nia.
Qed.

Lemma pm_bound b : -1 <= pm b <= 1.
Proof. destruct b; cbn; lia. Qed.

(** Evaluation of the reference kernel: EvalRef (bconv2d.cc 525-545) for float
    and int8 output: one-time setup, then BConv2DReference. *)
Definition eval_ref_float (p : bconv) (a : activation) (input filter : list Z)
    (post_mul post_bias : list Q) (out : list Q) : option (list Q) :=
  let* t := one_time_setup p a post_mul post_bias 1 0 in
  BConv2DReference_val p input filter (run_float Qops t) out.
Definition eval_ref_int8 (p : bconv) (a : activation) (input filter : list Z)
    (post_mul post_bias : list Q) (scale : Q) (zp : Z) (out : list Z) : option (list Z) :=
  let* t := one_time_setup p a post_mul post_bias scale (inject_Z zp) in
  BConv2DReference_val p input filter (run_int8 Qops t) out.
Definition eval_ref_bits (p : bconv) (input filter thresholds : list Z) (out : list Z)
  : option (list Z) :=
  BConv2DReference_bits p input filter (run_bits thresholds) (words (out_c p)) out.

Section EndToEnd.
  Variable p : bconv.
  Hypothesis WF : bconv_wf p.
  Variables input filter : list Z.
  Hypothesis Hin : packed input (in_pixels (geom_of p)) (channels_in p).
  Hypothesis Hfl : packed filter (filter_pixels (geom_of p)) (channels_in p / groups p).
  Hypothesis Hev : zero_padding p = true -> (channels_in p / groups p) mod 2 = 0.
  Hypothesis Hsmall : taps (geom_of p) < 2 ^ 31.

  (** The convolution that the reference kernel must compute. *)
  Definition the_conv (b y x c : Z) : Z :=
    conv (geom_of p) (if pad_same p && (pad_value p =? 0) then 0 else 1)
      (input_pm (geom_of p) input) (filter_pm (geom_of p) filter) b y x c.

  Lemma taps_bt : taps (geom_of p) = backtransform_add p.
  Proof.
    destruct (wf_facts p WF) as (_&_&_&_&_&_&_&Hg&HCI&_).
    unfold taps, backtransform_add. cbn.
    rewrite Z.quot_div_nonneg; [reflexivity| |lia].
    rewrite (wf_cin p WF). nia.
  Qed.

  Lemma acc_conv b y x c : 0 <= b < batches p -> 0 <= c < out_c p ->
    taps (geom_of p) - 2 * acc_ref p input filter b y x c = the_conv b y x c /\
    0 <= acc_ref p input filter b y x c <= taps (geom_of p).
  Proof.
    intros Hb Hc. destruct (wf_facts p WF) as (_&_&_&HKH&HKW&_&_&_&HCI&_).
    assert (E := acc_ref_conv p WF input filter Hin Hfl b y x c Hb Hc Hev).
    split; [exact E|].
    assert (B : - taps (geom_of p) <= the_conv b y x c <= taps (geom_of p)).
    { apply conv_bound; auto; try (intros; apply pm_bound).
      destruct (pad_same p && (pad_value p =? 0)); lia. }
    change (conv _ _ _ _ _ _ _ _) with (the_conv b y x c) in E. lia.
  Qed.

  Lemma eval_ref_float_ok a post_mul post_bias out :
    zlen post_mul = out_c p -> zlen post_bias = out_c p ->
    zlen out = out_pixels (geom_of p) * out_c p ->
    exists out', eval_ref_float p a input filter post_mul post_bias out = Some out' /\
      zlen out' = zlen out /\
      forall b y x c m bi, 0 <= b < batches p -> 0 <= y < out_h p -> 0 <= x < out_w p ->
        rd post_mul c = Some m -> rd post_bias c = Some bi ->
        exists r, rd out' (out_pixel (geom_of p) b y x * out_c p + c) = Some r /\
          (r == m * inject_Z (act_spec a (the_conv b y x c)) + bi)%Q.
  Proof.
    intros Hm Hb Ho. assert (HOC := out_c_nonneg p WF).
    destruct (setup_ok p a post_mul post_bias 1 0 HOC Hm Hb) as (t & Ht & _).
    unfold eval_ref_float. rewrite Ht. cbn [bind].
    assert (Hrun : forall b y x c m bi, 0 <= b < batches p ->
       rd post_mul c = Some m -> rd post_bias c = Some bi ->
       exists r, run_float Qops t (acc_ref p input filter b y x c) c = Some r /\
         (r == m * inject_Z (act_spec a (the_conv b y x c)) + bi)%Q).
    { intros b y x c m bi Hbb Hcm Hcb. assert (Hc := rd_bounds _ _ _ Hcm). rewrite Hm in Hc.
      destruct (acc_conv b y x c Hbb Hc) as [EC BC]. rewrite taps_bt in *.
      destruct (run_float_setup p a post_mul post_bias 1 0 t (acc_ref p input filter b y x c) c m bi)
        as (r & Hr & Er); auto; try lia; try discriminate.
      exists r. split; [exact Hr|]. rewrite Er, EC. field. }
    set (v := fun b y x c => match run_float Qops t (acc_ref p input filter b y x c) c with
                             | Some r => r | None => 0%Q end).
    destruct (reference_val_ok p WF input filter Hin Hfl (run_float Qops t) v out) as (out' & H1 & H2 & H3).
    - intros b y x c Hbb Hy Hx Hc.
      destruct (rd_some post_mul c ltac:(lia)) as [m Hcm].
      destruct (rd_some post_bias c ltac:(lia)) as [bi Hcb].
      destruct (Hrun b y x c m bi Hbb Hcm Hcb) as (r & Hr & _). unfold v. rewrite Hr. reflexivity.
    - rewrite Ho. unfold out_pixels. cbn. lia.
    - exists out'. split; [exact H1|]. split; [exact H2|].
      intros b y x c m bi Hbb Hy Hx Hcm Hcb. assert (Hc := rd_bounds _ _ _ Hcm). rewrite Hm in Hc.
      destruct (Hrun b y x c m bi Hbb Hcm Hcb) as (r & Hr & Er).
      exists r. split; [|exact Er]. specialize (H3 b y x c Hbb Hy Hx Hc).
      unfold v in H3. rewrite Hr in H3. exact H3.
  Qed.

  Lemma eval_ref_int8_ok a post_mul post_bias scale zp out :
    zlen post_mul = out_c p -> zlen post_bias = out_c p ->
    zlen out = out_pixels (geom_of p) * out_c p -> (0 < scale)%Q ->
    exists out', eval_ref_int8 p a input filter post_mul post_bias scale zp out = Some out' /\
      zlen out' = zlen out /\
      forall b y x c m bi, 0 <= b < batches p -> 0 <= y < out_h p -> 0 <= x < out_w p ->
        rd post_mul c = Some m -> rd post_bias c = Some bi ->
        rd out' (out_pixel (geom_of p) b y x * out_c p + c) =
          Some (Z.max (-128) (Z.min 127 (round_haz
            ((m * inject_Z (act_spec a (the_conv b y x c)) + bi) / scale + inject_Z zp)%Q))).
  Proof.
    intros Hm Hb Ho Hs. assert (HOC := out_c_nonneg p WF).
    assert (Hs0 : ~ (scale == 0)%Q) by (intros E; rewrite E in Hs; discriminate).
    destruct (setup_ok p a post_mul post_bias scale (inject_Z zp) HOC Hm Hb) as (t & Ht & _).
    unfold eval_ref_int8. rewrite Ht. cbn [bind].
    assert (Hrun : forall b y x c m bi, 0 <= b < batches p ->
       rd post_mul c = Some m -> rd post_bias c = Some bi ->
       run_int8 Qops t (acc_ref p input filter b y x c) c =
         Some (Z.max (-128) (Z.min 127 (round_haz
            ((m * inject_Z (act_spec a (the_conv b y x c)) + bi) / scale + inject_Z zp)%Q)))).
    { intros b y x c m bi Hbb Hcm Hcb. assert (Hc := rd_bounds _ _ _ Hcm). rewrite Hm in Hc.
      destruct (acc_conv b y x c Hbb Hc) as [EC BC]. rewrite taps_bt in *.
      destruct (run_float_setup p a post_mul post_bias scale (inject_Z zp) t
                 (acc_ref p input filter b y x c) c m bi)
        as (r & Hr & Er); auto; try lia.
      unfold run_int8. rewrite Hr. cbn [bind f_round Qops]. f_equal. unfold saturate.
      rewrite (round_haz_comp _ _ Er), EC. rewrite Z.max_comm, Z.min_comm. reflexivity. }
    set (v := fun b y x c => match run_int8 Qops t (acc_ref p input filter b y x c) c with
                             | Some r => r | None => 0 end).
    destruct (reference_val_ok p WF input filter Hin Hfl (run_int8 Qops t) v out) as (out' & H1 & H2 & H3).
    - intros b y x c Hbb Hy Hx Hc.
      destruct (rd_some post_mul c ltac:(lia)) as [m Hcm].
      destruct (rd_some post_bias c ltac:(lia)) as [bi Hcb].
      unfold v. rewrite (Hrun b y x c m bi Hbb Hcm Hcb). reflexivity.
    - rewrite Ho. unfold out_pixels. cbn. lia.
    - exists out'. split; [exact H1|]. split; [exact H2|].
      intros b y x c m bi Hbb Hy Hx Hcm Hcb. assert (Hc := rd_bounds _ _ _ Hcm). rewrite Hm in Hc.
      specialize (H3 b y x c Hbb Hy Hx Hc). unfold v in H3.
      rewrite (Hrun b y x c m bi Hbb Hcm Hcb) in H3. exact H3.
  Qed.

  Lemma eval_ref_bits_ok thresholds out :
    zlen thresholds = out_c p ->
    zlen out = out_pixels (geom_of p) * words (out_c p) ->
    exists out', eval_ref_bits p input filter thresholds out = Some out' /\
      packed out' (out_pixels (geom_of p)) (out_c p) /\
      forall b y x c t, 0 <= b < batches p -> 0 <= y < out_h p -> 0 <= x < out_w p ->
        rd thresholds c = Some t ->
        (bit_of out' (words (out_c p)) (out_pixel (geom_of p) b y x) c = true
         <-> 2 * t < taps (geom_of p) - the_conv b y x c).
  Proof.
    intros Ht Ho.
    set (v := fun b y x c => match rd thresholds c with
                             | Some t => t <? acc_ref p input filter b y x c | None => false end).
    destruct (reference_bits_ok p WF input filter Hin Hfl (run_bits thresholds) v out)
      as (out' & H1 & H2 & H3); [|exact Ho|].
    - intros b y x c Hb Hy Hx Hc. unfold run_bits, v.
      destruct (rd_some thresholds c ltac:(lia)) as [t ->]. reflexivity.
    - exists out'. split; [exact H1|]. split; [exact H2|].
      intros b y x c t Hb Hy Hx Hct. assert (Hc := rd_bounds _ _ _ Hct). rewrite Ht in Hc.
      rewrite H3 by auto. unfold v. rewrite Hct.
      destruct (acc_conv b y x c Hb Hc) as [EC BC]. lia.
  Qed.
End EndToEnd.

(** The kernel with the bare back-transform as output transform: every output
    element is the convolution. *)
Lemma reference_conv p input filter out :
  bconv_wf p ->
  packed input (in_pixels (geom_of p)) (channels_in p) ->
  packed filter (filter_pixels (geom_of p)) (channels_in p / groups p) ->
  (zero_padding p = true -> (channels_in p / groups p) mod 2 = 0) ->
  zlen out = out_pixels (geom_of p) * out_c p ->
  exists out',
    BConv2DReference_val p input filter (fun accum _ => Some (taps (geom_of p) - 2 * accum)) out
      = Some out' /\ zlen out' = zlen out /\
    forall b y x c, 0 <= b < batches p -> 0 <= y < out_h p -> 0 <= x < out_w p ->
      0 <= c < out_c p ->
      rd out' (out_pixel (geom_of p) b y x * out_c p + c) =
        Some (conv (geom_of p) (if pad_same p && (pad_value p =? 0) then 0 else 1)
          (input_pm (geom_of p) input) (filter_pm (geom_of p) filter) b y x c).
Proof.
  intros WF Hin Hfl Hev Ho.
  destruct (reference_val_ok p WF input filter Hin Hfl
    (fun accum _ => Some (taps (geom_of p) - 2 * accum)) (the_conv p input filter) out)
    as (out' & H1 & H2 & H3).
  - intros b y x c Hb Hy Hx Hc. f_equal. apply acc_conv; auto.
  - rewrite Ho. unfold out_pixels. cbn. lia.
  - exists out'. split; [exact H1|]. split; [exact H2|]. intros. apply H3; auto.
Qed.

Lemma reference_conv_one p input filter out :
  bconv_wf p ->
  packed input (in_pixels (geom_of p)) (channels_in p) ->
  packed filter (filter_pixels (geom_of p)) (channels_in p / groups p) ->
  zlen out = out_pixels (geom_of p) * out_c p ->
  pad_same p = false \/ pad_value p = 1 ->
  exists out',
    BConv2DReference_val p input filter (fun accum _ => Some (taps (geom_of p) - 2 * accum)) out
      = Some out' /\ zlen out' = zlen out /\
    forall b y x c, 0 <= b < batches p -> 0 <= y < out_h p -> 0 <= x < out_w p ->
      0 <= c < out_c p ->
      rd out' (out_pixel (geom_of p) b y x * out_c p + c) =
        Some (conv (geom_of p) 1 (input_pm (geom_of p) input) (filter_pm (geom_of p) filter) b y x c).
Proof.
  intros WF Hin Hfl Ho Hp.
  assert (E : pad_same p && (pad_value p =? 0) = false)
    by (destruct Hp as [-> | ->]; [reflexivity|apply andb_false_r]).
  destruct (reference_conv p input filter out WF Hin Hfl) as (out' & H); auto.
  - unfold zero_padding. rewrite E. discriminate.
  - exists out'. rewrite E in H. exact H.
Qed.

Lemma reference_conv_zero p input filter out :
  bconv_wf p ->
  packed input (in_pixels (geom_of p)) (channels_in p) ->
  packed filter (filter_pixels (geom_of p)) (channels_in p / groups p) ->
  zlen out = out_pixels (geom_of p) * out_c p ->
  pad_same p = true -> pad_value p = 0 -> (channels_in p / groups p) mod 2 = 0 ->
  exists out',
    BConv2DReference_val p input filter (fun accum _ => Some (taps (geom_of p) - 2 * accum)) out
      = Some out' /\ zlen out' = zlen out /\
    forall b y x c, 0 <= b < batches p -> 0 <= y < out_h p -> 0 <= x < out_w p ->
      0 <= c < out_c p ->
      rd out' (out_pixel (geom_of p) b y x * out_c p + c) =
        Some (conv (geom_of p) 0 (input_pm (geom_of p) input) (filter_pm (geom_of p) filter) b y x c).
Proof.
  intros WF Hin Hfl Ho H1 H2 Hev.
  assert (E : pad_same p && (pad_value p =? 0) = true) by (rewrite H1, H2; reflexivity).
  destruct (reference_conv p input filter out WF Hin Hfl) as (out' & H); auto.
  exists out'. rewrite E in H. exact H.
Qed.

Lemma round_haz_nearest q :
  (Qabs.Qabs (q - inject_Z (round_haz q)) <= 1 # 2)%Q /\
  ((q == inject_Z (round_haz q) + (1 # 2) -> (q < 0)) /\
   (q == inject_Z (round_haz q) - (1 # 2) -> (0 < q)))%Q.
Proof.
  unfold round_haz. destruct (Qle_bool 0 q) eqn:E.
  - apply Qle_bool_iff in E.
    assert (H1 := Qfloor_le (q + (1 # 2))). assert (H2 := Qlt_floor (q + (1 # 2))).
    rewrite inject_Z_plus in H2. set (n := Qfloor (q + (1 # 2))) in *. clearbody n.
    change (inject_Z 1) with 1%Q in H2.
    split; [apply Qabs.Qabs_Qle_condition; split; lra|]. split; intros H; [lra|].
    assert (Hn : 0 < n) by (rewrite Zlt_Qlt; change (inject_Z 0) with 0%Q; lra).
    assert (Hn1 : (inject_Z 1 <= inject_Z n)%Q) by (rewrite <- Zle_Qle; lia).
    change (inject_Z 1) with 1%Q in Hn1. lra.
  - assert (E' : (q < 0)%Q) by (apply Qnot_le_lt; intros H; apply Qle_bool_iff in H; congruence).
    assert (H1 := Qfloor_le (- q + (1 # 2))). assert (H2 := Qlt_floor (- q + (1 # 2))).
    rewrite inject_Z_plus in H2. rewrite inject_Z_opp.
    set (f := inject_Z (Qfloor (- q + (1 # 2)))) in *. clearbody f.
    change (inject_Z 1) with 1%Q in H2.
    split; [apply Qabs.Qabs_Qle_condition; split; lra|]. split; intros; lra.
Qed.
