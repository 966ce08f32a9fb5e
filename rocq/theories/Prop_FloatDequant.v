(** * Properties C44, C45 and C46 in IEEE arithmetic. *)
From Coq Require Import SpecFloat QArith Qabs Lia Psatz.
From Verif Require Import Base Spec Bits Bitpack Float32 Reference OutputTransform Quantize RefTheorems ThresholdFloat
  Threshold ThresholdMargin ThresholdConv FloatOrder FloatSetup FloatConv ConvSign ConvFold FloatDequant FloatFuse Check
  Prop_Reference Prop_FloatAccuracy.
Open Scope Z_scope.

(** ** C45. LceQuantize(TFL_Dequantize(q)) and LceQuantize(q): the same words, whether
    Dequantize multiplies in double precision and casts, or in single precision,
    for every positive finite float32 scale (the smallest denormals included: no
    difference from the zero point underflows). *)
Theorem C45_quantize_of_int8_double s zp rows cols (q : list Z) out :
  positive32 s -> -128 <= zp <= 127 -> 0 <= rows -> 0 <= cols ->
  (forall i v, rd q i = Some v -> -128 <= v <= 127) -> zlen q = rows * cols -> zlen out = rows * words cols ->
  quantize_sf rows cols (map (dequant_double s zp) q) out = quantize_int8 zp rows cols q out /\
  quantize_int8 zp rows cols q out <> None.
Proof.
  intros Hs Hz Hr Hc Hv Hq Ho. apply (pack_dequantised s); auto. intros v H. apply double_sign; [exact Hs|lia].
Qed.
Print Assumptions C45_quantize_of_int8_double.

Theorem C45_quantize_of_int8_single s zp rows cols (q : list Z) out :
  positive32 s -> -128 <= zp <= 127 -> 0 <= rows -> 0 <= cols ->
  (forall i v, rd q i = Some v -> -128 <= v <= 127) -> zlen q = rows * cols -> zlen out = rows * words cols ->
  quantize_sf rows cols (map (dequant_single s zp) q) out = quantize_int8 zp rows cols q out /\
  quantize_int8 zp rows cols q out <> None.
Proof.
  intros Hs Hz Hr Hc Hv Hq Ho. apply (pack_dequantised s); auto. intros v H. apply single_sign; [exact Hs|lia].
Qed.
Print Assumptions C45_quantize_of_int8_single.

(** ** C44. TFL_Quantize(LceDequantize(p)) and the int8 LceDequantize(p), both dividing in
    single precision by the same float32 scale. (When 1/scale does not fit an int
    the conversion is undefined in both programs; the statement is then void.) *)
Theorem C44_quantize_after_dequantize_float32 s zp rows cols p (d1 : list spec_float) (d2 : list Z) :
  positive32 s -> -128 <= zp <= 127 -> 0 <= rows -> 0 <= cols ->
  zlen p = rows * words cols -> zlen d1 = rows * cols -> zlen d2 = rows * cols ->
  exists u, dequantize_sf rows cols p d1 = Some u /\
    dequantize_int8 (offset_single s) zp rows cols p d2 = Some (map (quant_single s zp) u).
Proof. exact (quantize_dequantised s zp rows cols p d1 d2). Qed.
Print Assumptions C44_quantize_after_dequantize_float32.

(** Smallest denormal, 2/7 rounded to float32, and the largest float32. *)
Example C45_double_case : Forall positive32 [1; 1049774373; 2139095039] /\
  map (fun s => quantize_sf 1 4 (map (dequant_double s (-3)) [-128; -3; -4; 127]) [0]) [1; 1049774373; 2139095039] = [Some [5]; Some [5]; Some [5]] /\
  map (fun s => quantize_sf 1 4 (map (dequant_single s (-3)) [-128; -3; -4; 127]) [0]) [1; 1049774373; 2139095039] = [Some [5]; Some [5]; Some [5]] /\
  quantize_int8 (-3) 1 4 [-128; -3; -4; 127] [0] = Some [5].
Proof.
  split; [|split; [|split]; vm_compute; reflexivity].
  repeat constructor; vm_compute; try reflexivity; discriminate.
Qed.
(** Without [positive32] the rewrite is wrong: with scale 0 every bit is clear. *)
Example C45_zero_scale : quantize_sf 1 1 (map (dequant_single 0 (-3)) [-128]) [0] = Some [0] /\ quantize_int8 (-3) 1 1 [-128] [0] = Some [1].
Proof. split; vm_compute; reflexivity. Qed.
Example C44_float32_case : positive32 1049774373 /\ offset_single 1049774373 = 3 /\
  dequantize_int8 (offset_single 1049774373) (-5) 1 3 [2] [0; 0; 0] = Some [-2; -8; -2] /\
  option_map (map (quant_single 1049774373 (-5))) (dequantize_sf 1 3 [2] [S754_nan; S754_nan; S754_nan]) = Some [-2; -8; -2].
Proof. split; [|split; [|split]; vm_compute; reflexivity]. repeat constructor; vm_compute; try reflexivity; discriminate. Qed.

(** ** C46. Quantising the output of the float convolution, in single precision, and
    the int8 convolution, for the reference kernel with binary32 multipliers, biases
    and scale: never more than one apart, and equal unless the exact value is
    within [fuse_delta] (2^-20 of the magnitude of the terms, in quantised units)
    of a half-integer. *)
Lemma act_abs a v : Z.abs (act_spec a v) <= Z.abs v.
Proof. destruct a; cbn [act_spec]; lia. Qed.
Lemma exact_abs p a input filter m bi b y x c : bconv_wf p ->
  packed input (in_pixels (geom_of p)) (channels_in p) ->
  packed filter (filter_pixels (geom_of p)) (channels_in p / groups p) ->
  (pad_same p && (pad_value p =? 0) = true -> (channels_in p / groups p) mod 2 = 0) ->
  0 <= b < batches p -> 0 <= c < out_c p ->
  (Qabs (exact_out p a input filter m bi b y x c) <= magnitude p m bi)%Q.
Proof.
  intros WF Hin Hfl Hev Hb Hc. destruct (acc_conv p WF input filter Hin Hfl Hev b y x c Hb Hc) as [EC BC]. unfold the_conv in EC.
  unfold exact_out, magnitude. rewrite <- EC. set (k := taps (geom_of p) - 2 * acc_ref p input filter b y x c).
  assert (A : Z.abs (act_spec a k) <= taps (geom_of p)) by (assert (B := act_abs a k); unfold k in *; lia).
  eapply Qle_trans; [apply Qabs_triangle|]. rewrite Qplus_comm. apply Qplus_le_compat; [apply Qle_refl|].
  rewrite Qabs_Qmult, Qmult_comm. apply Qmult_le_compat_r; [|apply Qabs_nonneg]. rewrite Zle_Qle in A. exact A.
Qed.
Lemma magnitude_fits p m bi s : bconv_wf p -> taps (geom_of p) <= 2 ^ 22 -> (0 <= s)%Q ->
  (Qabs (exact32 m) <= inject_Z (2 ^ 100) * s)%Q -> (Qabs (exact32 bi) <= inject_Z (2 ^ 100) * s)%Q ->
  (magnitude p m bi <= inject_Z (2 ^ 123) * s)%Q.
Proof.
  intros WF Ht Hs Hm Hb. unfold magnitude. assert (T0 : 0 <= taps (geom_of p)) by (rewrite (taps_bt p WF); exact (taps_nn p WF)).
  assert (A : (inject_Z (taps (geom_of p)) * Qabs (exact32 m) <= inject_Z (2 ^ 22) * (inject_Z (2 ^ 100) * s))%Q).
  { eapply Qle_trans; [apply Qmult_le_compat_r; [rewrite Zle_Qle in Ht; exact Ht|apply Qabs_nonneg]|]. rewrite (Qmult_comm _ (Qabs _)), (Qmult_comm _ (_ * s)).
    apply Qmult_le_compat_r; [exact Hm|discriminate]. }
  eapply Qle_trans; [apply Qplus_le_compat; [exact Hb|exact A]|]. rewrite Qmult_assoc, <- Qmult_plus_distr_l. apply Qmult_le_compat_r; [|exact Hs]. vm_compute. discriminate.
Qed.
Theorem C46_quantize_of_bconv_float32 p a input filter mw bw scale_w zp outf outi :
  bconv_wf p ->
  packed input (in_pixels (geom_of p)) (channels_in p) ->
  packed filter (filter_pixels (geom_of p)) (channels_in p / groups p) ->
  (pad_same p && (pad_value p =? 0) = true -> (channels_in p / groups p) mod 2 = 0) ->
  taps (geom_of p) <= 2 ^ 22 ->
  zlen mw = out_c p -> zlen bw = out_c p ->
  finite32 scale_w = true -> ((1 # 2 ^ 126) <= exact32 scale_w)%Q -> -128 <= zp <= 127 ->
  (forall w, In w mw \/ In w bw -> finite32 w = true /\ (Qabs (exact32 w) <= inject_Z (2 ^ 100))%Q /\
     (Qabs (exact32 w) <= inject_Z (2 ^ 100) * exact32 scale_w)%Q) ->
  zlen outf = out_pixels (geom_of p) * out_c p -> zlen outi = out_pixels (geom_of p) * out_c p ->
  exists vf vi, eval_ref_float32 p a input filter mw bw outf = Some vf /\
    eval_ref_int8_32 p a input filter mw bw scale_w zp outi = Some vi /\
    forall b y x c m bi, 0 <= b < batches p -> 0 <= y < out_h p -> 0 <= x < out_w p ->
      rd mw c = Some m -> rd bw c = Some bi ->
      let e := int8_exact p a input filter m bi scale_w zp b y x c in
      let d := fuse_delta (magnitude p m bi) (exact32 scale_w) zp in
      exists r v, rd vf (out_pixel (geom_of p) b y x * out_c p + c) = Some r /\
        rd vi (out_pixel (geom_of p) b y x * out_c p + c) = Some v /\
        ((forall k, ~ (Qabs (e - (inject_Z k + (1 # 2))) <= d)%Q) -> quant_single scale_w zp r = v) /\
        ((d < 1 # 2)%Q -> Z.abs (quant_single scale_w zp r - v) <= 1).
Proof.
  intros WF Hin Hfl Hev Ht Hm Hb Fs Hs Hzp Ok Hof Hoi.
  destruct (C62_float_output_accuracy p a input filter mw bw outf WF Hin Hfl Hev Ht Hm Hb) as (vf & Ef & _ & Vf);
    [intros w Hw; destruct (Ok w Hw) as (A & B & _); auto|exact Hof|].
  destruct (C63_int8_output_accuracy p a input filter mw bw scale_w zp outi WF Hin Hfl Hev Ht Hm Hb Fs Hs Hzp) as (vi & Ei & _ & Vi);
    [intros w Hw; destruct (Ok w Hw) as (A & _ & B); auto|exact Hoi|].
  exists vf, vi. split; [exact Ef|]. split; [exact Ei|]. intros b y x c m bi H1 H2 H3 H4 H5 e d.
  destruct (Vf b y x c m bi H1 H2 H3 H4 H5) as (r & Er & Fr & Vr & Cr).
  destruct (Vi b y x c m bi H1 H2 H3 H4 H5) as (v & z & Ev & Zv & Cv & _). fold e in Cv.
  exists r, v. split; [exact Er|]. split; [exact Ev|].
  assert (Hc := rd_bounds _ _ _ H4). rewrite Hm in Hc.
  assert (In_rd : forall (l : list Z) i w, rd l i = Some w -> In w l) by (intros l i w Hr; unfold rd in Hr; destruct (i <? 0); try discriminate; eapply nth_error_In; exact Hr).
  destruct (Ok m (or_introl (In_rd _ _ _ H4))) as (_ & _ & Bm). destruct (Ok bi (or_intror (In_rd _ _ _ H5))) as (_ & _ & Bb).
  assert (P : (0 < exact32 scale_w)%Q) by (eapply Qlt_le_trans; [|exact Hs]; reflexivity).
  assert (Mf := magnitude_fits p m bi _ WF Ht (Qlt_le_weak _ _ P) Bm Bb).
  assert (Ea := exact_abs p a input filter m bi b y x c WF Hin Hfl Hev H1 Hc).
  assert (N := fuse_near r scale_w (exact_out p a input filter m bi b y x c) (magnitude p m bi) zp (conj Fr Vr) Fs Hs Cr Ea Mf).
  fold (int8_exact p a input filter m bi scale_w zp b y x c) in N. fold e in N. fold d in N.
  assert (Mp : (0 <= magnitude p m bi / exact32 scale_w)%Q).
  { apply Qle_shift_div_l; [exact P|]. rewrite Qmult_0_l. eapply Qle_trans; [apply Qabs_nonneg|exact Ea]. }
  assert (Zp : (0 <= Qabs (inject_Z zp))%Q) by apply Qabs_nonneg.
  assert (Ip : (0 <= (1 # 2 ^ 124) / exact32 scale_w)%Q) by (apply Qle_shift_div_l; [exact P|]; rewrite Qmult_0_l; discriminate).
  assert (D0 : (0 <= d)%Q).
  { unfold d, fuse_delta. revert Mp Zp Ip. generalize (magnitude p m bi / exact32 scale_w)%Q (Qabs (inject_Z zp)) ((1 # 2 ^ 124) / exact32 scale_w)%Q.
    change (1 # 2 ^ 20) with (1 # 1048576). change (1 # 2 ^ 125) with (1 # 42535295865117307932921825928971026432). intros. lra. }
  assert (Dle : (int8_delta p m bi scale_w zp <= d)%Q).
  { unfold d, fuse_delta, int8_delta. revert Mp Zp Ip. generalize (magnitude p m bi / exact32 scale_w)%Q (Qabs (inject_Z zp)) ((1 # 2 ^ 124) / exact32 scale_w)%Q (1 # 2 ^ 125).
    change (1 # 2 ^ 20) with (1 # 1048576). change (1 # 2 ^ 21) with (1 # 2097152). intros. lra. }
  assert (Cv' : (Qabs (e - inject_Z z) <= (1 # 2) + d)%Q) by (eapply Qle_trans; [exact Cv|]; apply Qplus_le_compat; [apply Qle_refl|exact Dle]).
  unfold quant_single. rewrite Zv. split.
  - intros Hk. rewrite (nearest_unique e d z D0 Cv' Hk), (nearest_unique e d _ D0 N Hk). reflexivity.
  - intros Hd. exact (both_near e d _ _ N Cv' Hd).
Qed.
Print Assumptions C46_quantize_of_bconv_float32.
(** The case of C62 and C63: the allowance is far below one half. *)
Example C46_float32_case : (fuse_delta (magnitude (ex_p 0) 1056964608 3227516928) (exact32 ex62s) (-3) < 1 # 5000)%Q /\
  (forall w, In w ex62m \/ In w ex62b -> finite32 w = true /\ (Qabs (exact32 w) <= inject_Z (2 ^ 100))%Q /\ (Qabs (exact32 w) <= inject_Z (2 ^ 100) * exact32 ex62s)%Q).
Proof.
  split; [vm_compute; reflexivity|].
  intros w [H|H]; repeat (destruct H as [<- |H]; [repeat split; vm_compute; congruence|]); destruct H.
Qed.
From Verif Require Prop_ConvFold.
(** In floats the exact value need not be a tie, nor need the zero point move it across
    zero: one channel, 1x1, output 0.49999997 (0x3effffff), scale 1, zero point 100. The
    exact value 100.49999997 is no half-integer; quantising the float output gives 100, as
    do exact arithmetic and both sides of C46 there; the fused operator gives 101, because
    its float bias, 100.49999997 before rounding, is 100.5. *)
Theorem C46_near_tie_refuted :
  exists r, eval_ref_float32 Prop_ConvFold.ex46_p ActNone [0] [0] [1056964607] [0] [S754_zero false] = Some [r] /\
    quant_single 1065353216 100 r = 100 /\
    eval_ref_int8_32 Prop_ConvFold.ex46_p ActNone [0] [0] [1056964607] [0] 1065353216 100 [0] = Some [101] /\
    (int8_exact Prop_ConvFold.ex46_p ActNone [0%Z] [0%Z] 1056964607%Z 0%Z 1065353216%Z 100%Z 0%Z 0%Z 0%Z 0%Z == 100 + (16777215 # 33554432))%Q /\
    (forall k, ~ (int8_exact Prop_ConvFold.ex46_p ActNone [0%Z] [0%Z] 1056964607%Z 0%Z 1065353216%Z 100%Z 0%Z 0%Z 0%Z 0%Z == inject_Z k + (1 # 2))%Q).
Proof.
  eexists. split; [vm_compute; reflexivity|]. split; [vm_compute; reflexivity|]. split; [vm_compute; reflexivity|].
  assert (E : (int8_exact Prop_ConvFold.ex46_p ActNone [0%Z] [0%Z] 1056964607%Z 0%Z 1065353216%Z 100%Z 0%Z 0%Z 0%Z 0%Z == 100 + (16777215 # 33554432))%Q) by (vm_compute; reflexivity).
  split; [exact E|]. intros k H. rewrite E in H. unfold Qeq, Qplus, inject_Z in H. cbn [Qnum Qden] in H. lia.
Qed.
Print Assumptions C46_near_tie_refuted.
