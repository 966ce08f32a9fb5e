(** * AsmInt8: the int8 outputs of the AArch64 kernel and of the C++ output transform
    (proofs for C84). core/bgemm/kernels_aarch64.h: fcvtns (nearest, ties to even), then
    saturation; core/bconv2d/output_transform.h 130-148: std::round (ties away from
    zero), then saturation. No new model definitions. *)
From Coq Require Import ZArith Psatz Lia SpecFloat QArith Qabs.
From Flocq Require Import Core BinarySingleNaN.
From Verif Require Import Base Spec Bits Bitpack Loop4 Float32 Reference OutputTransform RefTheorems ThresholdFloat FlocqBridge ThresholdMargin FloatSetup FloatConv
  Bgemm BgemmProofs BgemmConv A64 A64Bgemm A64Lemmas A64Trans A64Kernel44 A64Rel A32 IeeeOps Prop_A32 AsmFloat.
Open Scope Z_scope.

Lemma units_encode y : valid32 y = true -> is_finite_SF y = true ->
  exists u, units (encode32 y) = Some u /\ (u # ulpD == SF2Q y)%Q.
Proof.
  intros V F. unfold units. rewrite (decode_encode y V). destruct y as [s|s| |s m e]; try discriminate.
  - exists 0. split; reflexivity.
  - assert (He : -149 <= e).
    { cbn [valid_binary] in V. unfold SpecFloat.bounded, SpecFloat.canonical_mantissa in V. apply andb_true_iff in V. destruct V as [V1 _].
      apply Zeq_bool_eq in V1. unfold SpecFloat.fexp, SpecFloat.emin in V1. lia. }
    eexists. split; [reflexivity|]. cbn [SF2Q].
    set (n := if s then Z.neg m else Z.pos m). replace ((if s then -1 else 1) * Zpos m * 2 ^ (e + 149)) with (n * 2 ^ (e + 149)) by (unfold n; destruct s; reflexivity).
    clearbody n. assert (D : Zpos ulpD = 2 ^ 149) by reflexivity.
    destruct (Z.leb_spec 0 e) as [L|L]; unfold Qeq, Qmult, inject_Z; cbn [Qnum Qden]; rewrite ?Pos.mul_1_l, ?Z.mul_1_r.
    + rewrite D, Z.pow_add_r by lia. ring.
    + rewrite D. assert (P : 0 < 2 ^ (- e)) by (apply Z.pow_pos_nonneg; lia). rewrite Z2Pos.id by exact P.
      assert (E : 2 ^ (e + 149) * 2 ^ (- e) = 2 ^ 149) by (rewrite <- Z.pow_add_r by lia; f_equal; lia). rewrite <- E. ring.
Qed.

(** Where the float value is not halfway between two integers, both roundings store
    the same byte. *)
Lemma convert_round y : valid32 y = true -> is_finite_SF y = true -> ~ tie (SF2Q y) ->
  saturate (convert round_even (encode32 y)) = saturate (round_haz (SF2Q y)).
Proof.
  intros V F HT. destruct (units_encode y V F) as (u & Eu & Eq). rewrite (convert_units _ _ _ Eu).
  assert (HT' : ~ tie (u # ulpD)) by (intros [z Hz]; apply HT; exists z; rewrite <- Eq; exact Hz).
  assert (N : nearest (u # ulpD) (round_haz (SF2Q y))).
  { unfold nearest. destruct (round_haz_nearest (SF2Q y)) as [N _]. rewrite <- Eq in N at 1. exact N. }
  rewrite (nearest_unique u _ _ HT' N (round_even_nearest u)). unfold saturate, sat32. lia.
Qed.

Section Setup.
  Variables (p : bconv) (a : activation) (mw bw : list Z) (t : otp spec_float) (scale zp : spec_float).
  Hypothesis WF : bconv_wf p.
  Hypothesis (Hm : zlen mw = out_c p) (Hb : zlen bw = out_c p).
  Hypothesis HT : one_time_setup32 p a mw bw scale zp = Some t.
  Hypothesis Hbt : 0 <= backtransform_add p < 2 ^ 30.

  Lemma reference_bytes o input filter out0 out1 outf : stored t o ->
    packed input (in_pixels (geom_of p)) (channels_in p) -> packed filter (filter_pixels (geom_of p)) (channels_in p / groups p) ->
    zlen out0 = out_pixels (geom_of p) * out_c p -> zlen out1 = out_pixels (geom_of p) * out_c p -> zlen outf = out_pixels (geom_of p) * out_c p ->
    exists asm res ys, BConv2DReference_val p input filter (run_of ieee DInt8 o) out0 = Some asm /\
      BConv2DReference_val p input filter (run_int8 sfops t) out1 = Some res /\
      BConv2DReference_val p input filter (run_float sfops t) outf = Some ys /\
      zlen asm = out_pixels (geom_of p) * out_c p /\ Forall (fun v => -128 <= v <= 127) asm /\
      forall i y, rd ys i = Some y -> is_finite_SF y = true -> ~ tie (SF2Q y) -> rd asm i = rd res i.
  Proof.
    intros ST Hin Hfl H0 H1 Hf. destruct (setup_range p a mw bw t _ _ WF Hm Hb HT Hbt) as (I1 & I2 & IC).
    set (v := fun b y x c => match run_float sfops t (acc_ref p input filter b y x c) c with Some r => r | None => S754_nan end).
    assert (Hv : forall b y x c, 0 <= c < out_c p -> run_float sfops t (acc_ref p input filter b y x c) c = Some (v b y x c) /\ valid32 (v b y x c) = true).
    { intros b y x c Hc. destruct (setup_entry p a mw bw t _ _ WF Hm Hb HT c Hc) as (m & bi & Em & Eb & Vm & Vb). unfold v, run_float. rewrite Em, Eb. cbn [bind sfops f_ofZ f_mul f_add].
      split; [reflexivity|]. apply valid_add; [apply valid_mul; [apply valid_ofZ|exact Vm]|exact Vb]. }
    destruct (reference_val_ok p WF input filter Hin Hfl (run_float sfops t) v outf) as (ys & Ey & Ly & Vy); [intros b y x c _ _ _ Hc; apply Hv; exact Hc|exact Hf|].
    destruct (reference_val_ok p WF input filter Hin Hfl (run_int8 sfops t) (fun b y x c => saturate (round_haz (SF2Q (v b y x c)))) out1) as (res & Er & Lr & Vr).
    { intros b y x c _ _ _ Hc. unfold run_int8. rewrite (proj1 (Hv b y x c Hc)). reflexivity. }
    { exact H1. }
    destruct (reference_val_ok p WF input filter Hin Hfl (run_of ieee DInt8 o) (fun b y x c => saturate (convert round_even (encode32 (v b y x c)))) out0) as (asm & Ea & La & Va).
    { intros b y x c _ _ _ Hc. destruct (setup_entry p a mw bw t _ _ WF Hm Hb HT c Hc) as (m & bi & Em & Eb & Vm & Vb).
      assert (R := run_words t o (acc_ref p input filter b y x c) c m bi ST I1 I2 IC Em Eb Vm Vb). rewrite (proj1 (Hv b y x c Hc)) in R.
      unfold run_of in R |- *. cbn [is_int8] in R |- *. unfold run_int8. rewrite R. reflexivity. }
    { exact H0. }
    destruct (wf_facts p WF) as (HB&_&_&_&_&HOH&HOW&_). assert (Hoc := out_c_nonneg p WF).
    assert (DEC : forall i, 0 <= i < out_pixels (geom_of p) * out_c p -> exists b y x c, 0 <= b < batches p /\ 0 <= y < out_h p /\ 0 <= x < out_w p /\ 0 <= c < out_c p /\ i = Offset (out_h p) (out_w p) (out_c p) b y x c).
    { intros i Bi. change (out_pixels (geom_of p)) with (batches p * out_h p * out_w p) in Bi.
      assert (Hoc0 : 0 < out_c p) by (destruct (Z.eq_dec (out_c p) 0) as [Ez|]; [rewrite Ez in Bi; lia|lia]).
      assert (Dc := Z.div_mod i (out_c p) ltac:(lia)). assert (Bc := Z.mod_pos_bound i (out_c p) Hoc0).
      assert (Hpix : 0 <= i / out_c p < batches p * out_h p * out_w p) by (split; [apply Z.div_pos; lia|apply Z.div_lt_upper_bound; lia]).
      set (pix := i / out_c p) in *. set (c := i mod out_c p) in *. clearbody pix c.
      destruct (pixel_decode _ _ _ pix HB HOH HOW Hpix) as (b & y & x & Hbb & Hy & Hx & Epix).
      exists b, y, x, c. repeat (split; [assumption|]). unfold Offset. rewrite Dc, Epix. ring. }
    exists asm, res, ys. split; [exact Ea|]. split; [exact Er|]. split; [exact Ey|]. split; [rewrite La; exact H0|]. split.
    - apply Forall_forall. intros w Hw. destruct (In_nth_error _ _ Hw) as [n Hn].
      assert (Hr : rd asm (Z.of_nat n) = Some w) by (unfold rd; destruct (Z.ltb_spec (Z.of_nat n) 0); [lia|rewrite Nat2Z.id; exact Hn]).
      assert (Bi := rd_bounds _ _ _ Hr). rewrite La, H0 in Bi. destruct (DEC _ Bi) as (b & y & x & c & Hbb & Hy & Hx & Hc & Ei).
      rewrite Ei, Va in Hr by assumption. injection Hr as <-. unfold saturate. lia.
    - intros i y Hy Fy Ty. assert (Bi := rd_bounds _ _ _ Hy). rewrite Ly, Hf in Bi. destruct (DEC _ Bi) as (b & yy & x & c & Hbb & Hyy & Hx & Hc & Ei).
      rewrite Ei in Hy |- *. rewrite Vy in Hy by assumption. injection Hy as <-. rewrite Va, Vr by assumption. f_equal.
      apply convert_round; [apply Hv; exact Hc|exact Fy|exact Ty].
  Qed.
End Setup.
