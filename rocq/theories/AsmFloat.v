(** * AsmFloat: the Arm kernels' float arithmetic on bit patterns computes the bit
    patterns of what the C++ output transform computes (proofs for C84).

    Models, on bit patterns, core/bgemm/kernels_aarch64.h and kernels_arm32.h with
    [IeeeOps.ieee]; core/bconv2d/output_transform.h 103-112 with SpecFloat
    (FloatSetup.v). No new model definitions except [stored]. *)
From Coq Require Import ZArith Psatz Lia SpecFloat.
From Flocq Require Import Core BinarySingleNaN.
From Verif Require Import Base Spec Bits Bitpack Loop4 Loop4 Float32 Reference OutputTransform RefTheorems ThresholdFloat FlocqBridge ThresholdMargin FloatSetup FloatConv
  Bgemm BgemmProofs BgemmConv A64 A64Bgemm A64Lemmas A64Trans A64Kernel44 A64Rel IeeeOps.
Open Scope Z_scope.
#[local] Instance s24 : Prec_gt_0 24 := eq_refl.
#[local] Instance s128 : Prec_lt_emax 24 128 := eq_refl.
#[local] Instance s53 : Prec_gt_0 53 := eq_refl.
#[local] Instance s1024 : Prec_lt_emax 53 1024 := eq_refl.
Notation valid32 := (valid_binary 24 128).

(** ** Results are canonical *)
Lemma valid_mul x y : valid32 x = true -> valid32 y = true -> valid32 (SFmul 24 128 x y) = true.
Proof. intros Hx Hy. rewrite <- (B2SF_SF2B 24 128 x Hx), <- (B2SF_SF2B 24 128 y Hy). rewrite (mul_eq 24 128 s24 s128). apply valid_binary_B2SF. Qed.
Lemma valid_add x y : valid32 x = true -> valid32 y = true -> valid32 (SFadd 24 128 x y) = true.
Proof. intros Hx Hy. rewrite <- (B2SF_SF2B 24 128 x Hx), <- (B2SF_SF2B 24 128 y Hy). rewrite (add_eq 24 128 s24 s128). apply valid_binary_B2SF. Qed.
Lemma valid_ofZ n : valid32 (sf_ofZ 24 128 n) = true.
Proof. unfold sf_ofZ. rewrite (binary_normalize_eq 24 128 s24 s128). apply valid_binary_B2SF. Qed.
Lemma valid_round32 x : valid32 (sf_round32 x) = true.
Proof.
  destruct x as [s|s| |s m e]; try reflexivity. cbn [sf_round32]. rewrite (binary_round_eq 24 128).
  exact (proj1 (binary_round_correct 24 128 s24 s128 mode_NE s m e)).
Qed.

(** ** Decoding is the inverse of encoding on canonical data *)
Lemma decode_fields (s : bool) ex mm : 0 <= ex < 256 -> 0 <= mm < 2 ^ 23 ->
  let w := (if s then 2 ^ 31 else 0) + ex * 2 ^ 23 + mm in
  0 <= w < 2 ^ 32 /\ Z.testbit w 31 = s /\ (w / 2 ^ 23) mod 2 ^ 8 = ex /\ w mod 2 ^ 23 = mm.
Proof.
  intros He Hm w.
  assert (Hw : w = (if s then 2147483648 else 0) + ex * 8388608 + mm) by (unfold w; destruct s; lia).
  change (2 ^ 23) with 8388608 in *. change (2 ^ 8) with 256. change (2 ^ 32) with 4294967296. clearbody w.
  split; [destruct s; lia|]. split.
  { rewrite Z.testbit_eqb by lia. change (2 ^ 31) with 2147483648. destruct s; destruct (Z.eqb_spec (w / 2147483648 mod 2) 1); try reflexivity; exfalso; Z.to_euclidean_division_equations; lia. }
  assert (E1 : w / 8388608 = (if s then 256 else 0) + ex) by (destruct s; Z.to_euclidean_division_equations; lia).
  rewrite E1. split; [destruct s; Z.to_euclidean_division_equations; lia|].
  rewrite Z.mod_eq by lia. rewrite E1. destruct s; lia.
Qed.
Lemma decode_encode x : valid32 x = true -> decode32 (encode32 x) = x.
Proof.
  intros V. destruct x as [s|s| |s m e].
  - destruct s; reflexivity.
  - destruct s; reflexivity.
  - reflexivity.
  - cbn [valid_binary] in V. unfold SpecFloat.bounded, SpecFloat.canonical_mantissa in V. apply andb_true_iff in V. destruct V as [V1 V2].
    apply Zeq_bool_eq in V1. apply Zle_bool_imp_le in V2. unfold SpecFloat.fexp, SpecFloat.emin in V1.
    change (3 - 128 - 24) with (-149) in V1. change (128 - 24) with 104 in V2.
    unfold encode32. destruct (Z.ltb_spec (Zpos m) (2 ^ 23)) as [L|L].
    + assert (D := digits_lt m 23 ltac:(lia) L). assert (Ee : e = -149) by lia. subst e.
      destruct (decode_fields s 0 (Zpos m) ltac:(lia) ltac:(lia)) as (R & T1 & T2 & T3). rewrite Z.mul_0_l, Z.add_0_r in *.
      rewrite Z.mod_small by exact R. unfold decode32. rewrite T1, T2, T3. reflexivity.
    + assert (D := digits_ge m 23 L). assert (L2 : Zpos m < 2 ^ 24).
      { destruct (Z.ltb_spec (Zpos m) (2 ^ 24)) as [K|K]; [exact K|]. assert (D2 := digits_ge m 24 K). lia. }
      assert (Hd : Zpos (digits2_pos m) = 24) by (assert (D3 := digits_lt m 24 ltac:(lia) L2); lia). rewrite Hd in V1.
      destruct (decode_fields s (e + 150) (Zpos m - 2 ^ 23) ltac:(lia) ltac:(lia)) as (R & T1 & T2 & T3).
      rewrite Z.add_assoc. rewrite Z.mod_small by exact R. unfold decode32. rewrite T1, T2, T3.
      destruct (Z.eqb_spec (e + 150) 255); [lia|]. destruct (Z.eqb_spec (e + 150) 0); [lia|].
      replace (Zpos m - 2 ^ 23 + 2 ^ 23) with (Zpos m) by lia. f_equal. lia.
Qed.

(** ** The output transform on bit patterns *)

(** [o] holds the bit patterns of the transform [t], with any words behind the arrays. *)
Definition stored (t : otp spec_float) (o : otparams) : Prop :=
  p_cmin o = ot_min t /\ p_cmax o = ot_max t /\
  exists em eb, p_mul o = map encode32 (ot_mult t) ++ em /\ p_bias o = map encode32 (ot_bias t) ++ eb /\ Forall pat em /\ Forall pat eb.

Lemma run_words t o acc c m b : stored t o -> int32 (ot_min t) -> int32 (ot_max t) -> ot_min t <= ot_max t ->
  rd (ot_mult t) c = Some m -> rd (ot_bias t) c = Some b -> valid32 m = true -> valid32 b = true ->
  run_of ieee DFloat o acc c = option_map encode32 (run_float sfops t acc c).
Proof.
  intros (E1 & E2 & em & eb & E3 & E4 & _) I1 I2 Hc Hm Hb Vm Vb. unfold run_of. cbn [is_int8]. unfold run_float, otp_of, fops_of. cbn [ot_min ot_max ot_mult ot_bias f_ofZ f_mul f_add].
  rewrite E1, E2, E3, E4, Hm, Hb.
  assert (Bm := rd_bounds _ _ _ Hm). assert (Bb := rd_bounds _ _ _ Hb).
  rewrite (rd_app_l (map encode32 (ot_mult t))), (rd_app_l (map encode32 (ot_bias t))), !rd_map, Hm, Hb by (unfold zlen in *; rewrite map_length; lia). cbn [option_map bind sfops f_ofZ f_mul f_add ieee n_ofZ n_mul n_add].
  set (x := Z.max (Z.min (Z.shiftl acc 1) (ot_max t)) (ot_min t)).
  assert (Hx : int32 x) by (unfold int32, x in *; lia). rewrite (sgnm x Hx). fold (sf_ofZ 24 128 x).
  rewrite (decode_encode _ (valid_ofZ x)), (decode_encode m Vm), (decode_encode b Vb), (decode_encode _ (valid_mul _ _ (valid_ofZ x) Vm)). reflexivity.
Qed.

(** ** The one-time setup *)
Section Setup.
  Variables (p : bconv) (a : activation) (mw bw : list Z) (t : otp spec_float) (scale zp : spec_float).
  Hypothesis WF : bconv_wf p.
  Hypothesis (Hm : zlen mw = out_c p) (Hb : zlen bw = out_c p).
  Hypothesis HT : one_time_setup32 p a mw bw scale zp = Some t.
  Hypothesis Hbt : 0 <= backtransform_add p < 2 ^ 30.

  Lemma setup_range : int32 (ot_min t) /\ int32 (ot_max t) /\ ot_min t <= ot_max t.
  Proof.
    destruct (setup32_ok p a mw bw scale zp (out_c_nonneg p WF) Hm Hb) as (t' & E & E1 & E2 & _). rewrite HT in E. injection E as <-.
    rewrite E1, E2. unfold int32. destruct a; cbn [activation_range fst snd]; lia.
  Qed.
  Lemma setup_entry c : 0 <= c < out_c p -> exists m b, rd (ot_mult t) c = Some m /\ rd (ot_bias t) c = Some b /\ valid32 m = true /\ valid32 b = true.
  Proof.
    intros Hc. destruct (setup32_ok p a mw bw scale zp (out_c_nonneg p WF) Hm Hb) as (t' & E & _ & _ & R). rewrite HT in E. injection E as <-.
    destruct (rd_some mw c ltac:(lia)) as [m Em]. destruct (rd_some bw c ltac:(lia)) as [b Eb]. destruct (R c m b Em Eb) as [R1 R2].
    eexists. eexists. split; [exact R1|]. split; [exact R2|]. split; apply valid_round32.
  Qed.
  Lemma stored_tr o n : stored t o -> n <= zlen (p_mul o) -> n <= zlen (p_bias o) -> tr_ok o n.
  Proof.
    intros (E1 & E2 & em & eb & E3 & E4 & P1 & P2) L1 L2. destruct setup_range as (I1 & I2 & _).
    assert (PM : forall l, Forall pat (map encode32 l)) by (intros l; apply Forall_forall; intros w Hw; apply in_map_iff in Hw; destruct Hw as (x & <- & _); apply encode_range).
    constructor; try assumption; [rewrite E1; exact I1|rewrite E2; exact I2|rewrite E3; apply Forall_app; auto|rewrite E4; apply Forall_app; auto].
  Qed.

  (** The reference kernel with the bit-pattern transform writes the patterns of the
      reference kernel with the C++ transform. *)
  Lemma reference_words o input filter out0 out1 : stored t o ->
    packed input (in_pixels (geom_of p)) (channels_in p) -> packed filter (filter_pixels (geom_of p)) (channels_in p / groups p) ->
    zlen out0 = out_pixels (geom_of p) * out_c p -> zlen out1 = out_pixels (geom_of p) * out_c p ->
    exists res, BConv2DReference_val p input filter (run_float sfops t) out1 = Some res /\ zlen res = zlen out1 /\
      BConv2DReference_val p input filter (run_of ieee DFloat o) out0 = Some (map encode32 res) /\ Forall (fun x => valid32 x = true) res.
  Proof.
    intros ST Hin Hfl H0 H1. destruct setup_range as (I1 & I2 & IC).
    set (v := fun b y x c => match run_float sfops t (acc_ref p input filter b y x c) c with Some r => r | None => S754_nan end).
    assert (Hv : forall b y x c, 0 <= c < out_c p -> run_float sfops t (acc_ref p input filter b y x c) c = Some (v b y x c) /\ valid32 (v b y x c) = true).
    { intros b y x c Hc. destruct (setup_entry c Hc) as (m & bi & Em & Eb & Vm & Vb). unfold v, run_float. rewrite Em, Eb. cbn [bind sfops f_ofZ f_mul f_add].
      split; [reflexivity|]. apply valid_add; [apply valid_mul; [apply valid_ofZ|exact Vm]|exact Vb]. }
    destruct (reference_val_ok p WF input filter Hin Hfl (run_float sfops t) v out1) as (r1 & E1 & L1 & V1); [intros b y x c _ _ _ Hc; apply Hv; exact Hc|exact H1|].
    destruct (reference_val_ok p WF input filter Hin Hfl (run_of ieee DFloat o) (fun b y x c => encode32 (v b y x c)) out0) as (r0 & E0 & L0 & V0).
    { intros b y x c _ _ _ Hc. destruct (setup_entry c Hc) as (m & bi & Em & Eb & Vm & Vb).
      rewrite (run_words t o (acc_ref p input filter b y x c) c m bi ST I1 I2 IC Em Eb Vm Vb). rewrite (proj1 (Hv b y x c Hc)). reflexivity. }
    { exact H0. }
    destruct (wf_facts p WF) as (HB&_&_&_&_&HOH&HOW&_). assert (Hoc := out_c_nonneg p WF).
    assert (DEC : forall i, 0 <= i < out_pixels (geom_of p) * out_c p -> exists b y x c, 0 <= b < batches p /\ 0 <= y < out_h p /\ 0 <= x < out_w p /\ 0 <= c < out_c p /\ i = Offset (out_h p) (out_w p) (out_c p) b y x c).
    { intros i Bi. change (out_pixels (geom_of p)) with (batches p * out_h p * out_w p) in Bi.
      assert (Hoc0 : 0 < out_c p) by (destruct (Z.eq_dec (out_c p) 0) as [Ez|]; [rewrite Ez in Bi; lia|lia]).
      assert (Dc := Z.div_mod i (out_c p) ltac:(lia)). assert (Bc := Z.mod_pos_bound i (out_c p) Hoc0).
      assert (Hpix : 0 <= i / out_c p < batches p * out_h p * out_w p) by (split; [apply Z.div_pos; lia|apply Z.div_lt_upper_bound; lia]).
      set (pix := i / out_c p) in *. set (c := i mod out_c p) in *. clearbody pix c.
      destruct (pixel_decode _ _ _ pix HB HOH HOW Hpix) as (b & y & x & Hbb & Hy & Hx & Epix).
      exists b, y, x, c. repeat (split; [assumption|]). unfold Offset. rewrite Dc, Epix. ring. }
    exists r1. split; [exact E1|]. split; [exact L1|]. split.
    - rewrite E0. f_equal. apply rd_ext; [unfold zlen in *; rewrite map_length; lia|]. intros i Hi. rewrite L0, H0 in Hi.
      destruct (DEC i Hi) as (b & y & x & c & Hbb & Hy & Hx & Hc & ->). rewrite rd_map, V0, V1 by assumption. reflexivity.
    - apply Forall_forall. intros w Hw. destruct (In_nth_error _ _ Hw) as [n Hn].
      assert (Hr : rd r1 (Z.of_nat n) = Some w) by (unfold rd; destruct (Z.ltb_spec (Z.of_nat n) 0); [lia|rewrite Nat2Z.id; exact Hn]).
      assert (Bi := rd_bounds _ _ _ Hr). rewrite L1, H1 in Bi. destruct (DEC _ Bi) as (b & y & x & c & Hbb & Hy & Hx & Hc & Ei).
      rewrite Ei, V1 in Hr by assumption. injection Hr as <-. apply Hv. exact Hc.
  Qed.
End Setup.
