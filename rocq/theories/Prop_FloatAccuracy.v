(** * Properties C62, C63: accuracy of the convolution's float and int8 outputs in
    IEEE arithmetic, for the reference kernel. *)
From Coq Require Import QArith Qabs SpecFloat Lia Psatz.
From Flocq Require Import BinarySingleNaN.
From Verif Require Import Base Spec Bits Bitpack Float32 Reference OutputTransform Quantize RefTheorems Threshold
  ThresholdFloat ThresholdMargin ThresholdConv FloatSetup FloatAccuracy FloatConv Check Prop_Reference.
Open Scope Z_scope.

(** The real value a channel should have, as in C08 and C09, from binary32 words. *)
Definition exact_out (p : bconv) (a : activation) (input filter : list Z) (m bi : Z) (b y x c : Z) : Q :=
  (exact32 m * inject_Z (act_spec a
     (conv (geom_of p) (if pad_same p && (pad_value p =? 0) then 0 else 1)
        (input_pm (geom_of p) input) (filter_pm (geom_of p) filter) b y x c)) + exact32 bi)%Q.
(** What enters the sum: |bias| + taps |mult|. *)
Definition magnitude (p : bconv) (m bi : Z) : Q := (Qabs (exact32 bi) + inject_Z (taps (geom_of p)) * Qabs (exact32 m))%Q.

(** ** C62 *)
Theorem C62_float_output_accuracy p a input filter mw bw out :
  bconv_wf p ->
  packed input (in_pixels (geom_of p)) (channels_in p) ->
  packed filter (filter_pixels (geom_of p)) (channels_in p / groups p) ->
  (pad_same p && (pad_value p =? 0) = true -> (channels_in p / groups p) mod 2 = 0) ->
  taps (geom_of p) <= 2 ^ 22 ->
  zlen mw = out_c p -> zlen bw = out_c p ->
  (forall w, In w mw \/ In w bw -> finite32 w = true /\ (Qabs (exact32 w) <= inject_Z (2 ^ 100))%Q) ->
  zlen out = out_pixels (geom_of p) * out_c p ->
  exists out', eval_ref_float32 p a input filter mw bw out = Some out' /\
    zlen out' = zlen out /\
    forall b y x c m bi, 0 <= b < batches p -> 0 <= y < out_h p -> 0 <= x < out_w p ->
      rd mw c = Some m -> rd bw c = Some bi ->
      exists r, rd out' (out_pixel (geom_of p) b y x * out_c p + c) = Some r /\ is_finite_SF r = true /\ valid_binary 24 128 r = true /\
        (Qabs (SF2Q r - exact_out p a input filter m bi b y x c) <= (1 # 2 ^ 21) * magnitude p m bi + (1 # 2 ^ 125))%Q.
Proof.
  intros WF Hin Hfl Hev Ht Hm Hb Ok Ho.
  assert (Ok' : forall l, l = mw \/ l = bw -> forall c w, rd l c = Some w -> finite32 w = true /\ (Qabs (exact32 w) <= inject_Z (2 ^ 100) * 1)%Q).
  { intros l Hl c w Hr. assert (I : In w l) by (unfold rd in Hr; destruct (c <? 0); try discriminate; eapply nth_error_In; exact Hr).
    destruct (Ok w) as [F B]; [destruct Hl as [-> | ->]; auto|]. split; [exact F|]. rewrite Qmult_1_r. exact B. }
  destruct (eval32 p WF input filter mw bw Hin Hfl Hev Ht Hm Hb a (sf_ofZ 53 1024 1) 1%Q 0 ltac:(lia) scale_one ltac:(discriminate) ltac:(discriminate)
    (Ok' mw (or_introl eq_refl)) (Ok' bw (or_intror eq_refl)) out Ho) as (out' & E & L & V).
  exists out'. split; [exact E|]. split; [exact L|]. intros b y x c m bi H1 H2 H3 H4 H5.
  destruct (V b y x c m bi H1 H2 H3 H4 H5) as (r & Er & (Fr & Vr) & Cr). exists r. split; [exact Er|]. split; [exact Fr|]. split; [exact Vr|].
  unfold yq32, dq32, delta in Cr. change (the_conv p input filter b y x c) with
    (conv (geom_of p) (if pad_same p && (pad_value p =? 0) then 0 else 1) (input_pm (geom_of p) input) (filter_pm (geom_of p) filter) b y x c) in Cr.
  fold (exact_out p a input filter m bi b y x c) in Cr. fold (magnitude p m bi) in Cr.
  setoid_replace (SF2Q r - exact_out p a input filter m bi b y x c)%Q with (SF2Q r - (exact_out p a input filter m bi b y x c / 1 + inject_Z 0))%Q by (unfold inject_Z; field).
  eapply Qle_trans; [exact Cr|]. apply Qplus_le_compat; [|apply Qle_refl]. apply Qle_lteq. right. change (Qabs (inject_Z 0)) with 0%Q. field.
Qed.
Print Assumptions C62_float_output_accuracy.

Lemma nearest_unique y d z : (0 <= d)%Q -> (Qabs (y - inject_Z z) <= (1 # 2) + d)%Q ->
  (forall k, ~ (Qabs (y - (inject_Z k + (1 # 2))) <= d)%Q) -> z = round_haz y.
Proof.
  intros Hd Hz Hk. destruct (round_haz_nearest y) as [Nr _]. set (n := round_haz y) in *. apply Qabs_Qle_condition in Hz, Nr.
  destruct (Z.lt_trichotomy z n) as [L|[E|L]]; [exfalso|exact E|exfalso].
  - apply (Hk (n - 1)). apply Qabs_Qle_condition. unfold Z.sub. rewrite inject_Z_plus, inject_Z_opp. change (inject_Z 1) with 1%Q.
    assert (Hq : (inject_Z z <= inject_Z n - 1)%Q) by (assert (K : z <= n - 1) by lia; rewrite Zle_Qle in K; unfold Z.sub in K; rewrite inject_Z_plus, inject_Z_opp in K; exact K). lra.
  - apply (Hk n). apply Qabs_Qle_condition.
    assert (Hq : (inject_Z n + 1 <= inject_Z z)%Q) by (assert (K : n + 1 <= z) by lia; rewrite Zle_Qle in K; rewrite inject_Z_plus in K; exact K). lra.
Qed.
Lemma near_exact y d z : (0 <= d)%Q -> (Qabs (y - inject_Z z) <= (1 # 2) + d)%Q ->
  ((forall k, ~ (Qabs (y - (inject_Z k + (1 # 2))) <= d)%Q) -> Z.max (-128) (Z.min 127 z) = Z.max (-128) (Z.min 127 (round_haz y))) /\
  ((d < 1)%Q -> Z.abs (Z.max (-128) (Z.min 127 z) - Z.max (-128) (Z.min 127 (round_haz y))) <= 1).
Proof.
  intros Hd Hz. split; [intros Hk; now rewrite (nearest_unique y d z Hd Hz Hk)|]. intros H1.
  destruct (round_haz_nearest y) as [Nr _]. set (n := round_haz y) in *. apply Qabs_Qle_condition in Hz, Nr.
  assert (K : (inject_Z (z - n) < inject_Z 2 /\ inject_Z (n - z) < inject_Z 2)%Q).
  { unfold Z.sub. rewrite !inject_Z_plus, !inject_Z_opp. change (inject_Z 2) with 2%Q. split; lra. }
  destruct K as [K1 K2]. rewrite <- Zlt_Qlt in K1, K2. lia.
Qed.
Lemma near_small_int y d z : (Qabs (y - inject_Z z) <= (1 # 2) + d)%Q -> (Qabs y + d <= inject_Z (2 ^ 30))%Q -> Z.abs z < 2 ^ 31.
Proof.
  intros Hz Hy. assert (A : (Qabs (inject_Z z) <= inject_Z (2 ^ 30) + (1 # 2))%Q).
  { setoid_replace (inject_Z z) with (y + - (y - inject_Z z))%Q by ring. eapply Qle_trans; [apply Qabs_triangle|]. rewrite Qabs_opp. lra. }
  rewrite <- (inject_Z_abs z) in A || idtac. assert (B : (Qabs (inject_Z z) < inject_Z (2 ^ 31))%Q) by (eapply Qle_lt_trans; [exact A|reflexivity]).
  unfold Qlt, Qabs, inject_Z in B. cbn [Qnum Qden] in B. lia.
Qed.

(** ** C63. [scale_w] is the binary32 output scale, [zp] the zero point. *)
Definition int8_exact p a input filter m bi (scale_w zp : Z) b y x c : Q :=
  (exact_out p a input filter m bi b y x c / exact32 scale_w + inject_Z zp)%Q.
Definition int8_delta p m bi (scale_w zp : Z) : Q :=
  ((1 # 2 ^ 21) * (magnitude p m bi / exact32 scale_w + Qabs (inject_Z zp)) + (1 # 2 ^ 125))%Q.
Theorem C63_int8_output_accuracy p a input filter mw bw scale_w zp out :
  bconv_wf p ->
  packed input (in_pixels (geom_of p)) (channels_in p) ->
  packed filter (filter_pixels (geom_of p)) (channels_in p / groups p) ->
  (pad_same p && (pad_value p =? 0) = true -> (channels_in p / groups p) mod 2 = 0) ->
  taps (geom_of p) <= 2 ^ 22 ->
  zlen mw = out_c p -> zlen bw = out_c p ->
  finite32 scale_w = true -> ((1 # 2 ^ 126) <= exact32 scale_w)%Q -> -128 <= zp <= 127 ->
  (forall w, In w mw \/ In w bw -> finite32 w = true /\ (Qabs (exact32 w) <= inject_Z (2 ^ 100) * exact32 scale_w)%Q) ->
  zlen out = out_pixels (geom_of p) * out_c p ->
  exists out', eval_ref_int8_32 p a input filter mw bw scale_w zp out = Some out' /\
    zlen out' = zlen out /\
    forall b y x c m bi, 0 <= b < batches p -> 0 <= y < out_h p -> 0 <= x < out_w p ->
      rd mw c = Some m -> rd bw c = Some bi ->
      let e := int8_exact p a input filter m bi scale_w zp b y x c in
      let d := int8_delta p m bi scale_w zp in
      exists v z, rd out' (out_pixel (geom_of p) b y x * out_c p + c) = Some v /\
        (* v is an integer within 1/2 + d of the exact value, saturated *)
        v = Z.max (-128) (Z.min 127 z) /\ (Qabs (e - inject_Z z) <= (1 # 2) + d)%Q /\
        (* exactly the value of C09 if no half-integer is within d of the exact value *)
        ((forall k, ~ (Qabs (e - (inject_Z k + (1 # 2))) <= d)%Q) -> v = Z.max (-128) (Z.min 127 (round_haz e))) /\
        (* and off by at most one if d < 1 *)
        ((d < 1)%Q -> Z.abs (v - Z.max (-128) (Z.min 127 (round_haz e))) <= 1) /\
        (* the conversion of the rounded float to int32 is defined *)
        ((Qabs e + d <= inject_Z (2 ^ 30))%Q -> Z.abs z < 2 ^ 31).
Proof.
  intros WF Hin Hfl Hev Ht Hm Hb Fs Hs Hzp Ok Ho.
  assert (Ok' : forall l, l = mw \/ l = bw -> forall c w, rd l c = Some w -> finite32 w = true /\ (Qabs (exact32 w) <= inject_Z (2 ^ 100) * exact32 scale_w)%Q).
  { intros l Hl c w Hr. assert (I : In w l) by (unfold rd in Hr; destruct (c <? 0); try discriminate; eapply nth_error_In; exact Hr).
    apply Ok. destruct Hl as [-> | ->]; auto. }
  destruct (eval32_int8 p WF input filter mw bw Hin Hfl Hev Ht Hm Hb a (widen (decode32 scale_w)) (exact32 scale_w) zp ltac:(lia) (scale_word scale_w Fs) Hs
    (finite32_lt scale_w Fs) (Ok' mw (or_introl eq_refl)) (Ok' bw (or_intror eq_refl)) out Ho) as (out' & E & L & V).
  exists out'. split; [exact E|]. split; [exact L|]. intros b y x c m bi H1 H2 H3 H4 H5.
  destruct (V b y x c m bi H1 H2 H3 H4 H5) as (z & Er & Cr). exists (Z.max (-128) (Z.min 127 z)), z. split; [exact Er|]. split; [reflexivity|].
  split; [exact Cr|].
  assert (Dp : (0 <= int8_delta p m bi scale_w zp)%Q).
  { unfold int8_delta, magnitude. assert (0 < exact32 scale_w)%Q by (eapply Qlt_le_trans; [|exact Hs]; reflexivity).
    assert (T0 : 0 <= taps (geom_of p)) by (rewrite (taps_bt p WF); exact (taps_nn p WF)).
    assert (0 <= Qabs (exact32 bi) + inject_Z (taps (geom_of p)) * Qabs (exact32 m))%Q.
    { rewrite <- (Qplus_0_l 0). apply Qplus_le_compat; [apply Qabs_nonneg|]. apply Qmult_le_0_compat; [rewrite Zle_Qle in T0; exact T0|apply Qabs_nonneg]. }
    assert (0 <= (Qabs (exact32 bi) + inject_Z (taps (geom_of p)) * Qabs (exact32 m)) / exact32 scale_w)%Q
      by (apply Qle_shift_div_l; [assumption|rewrite Qmult_0_l; assumption]).
    assert (0 <= Qabs (inject_Z zp))%Q by apply Qabs_nonneg.
    rewrite <- (Qplus_0_l 0). apply Qplus_le_compat; [|discriminate]. apply Qmult_le_0_compat; [discriminate|]. lra. }
  destruct (near_exact _ _ z Dp Cr) as [N1 N2]. split; [exact N1|]. split; [exact N2|]. exact (near_small_int _ _ z Cr).
Qed.
Print Assumptions C63_int8_output_accuracy.


(** ** A case: the geometry of C08's example with 4 channels; multipliers 0.5, 0,
    -0.75, 2, biases -3.5, -1, 100, -3, scale 0.75, zero point -3. *)
Definition ex62m : list Z := [1056964608; 0; 3208642560; 1073741824].
Definition ex62b : list Z := [3227516928; 3212836864; 1120403456; 3225419776].
Definition ex62s : Z := 1061158912.
Example C62_case : zlen ex62m = out_c (ex_p 0) /\ zlen ex62b = out_c (ex_p 0) /\ taps (geom_of (ex_p 0)) <= 2 ^ 22 /\
  (forall w, In w ex62m \/ In w ex62b -> finite32 w = true /\ (Qabs (exact32 w) <= inject_Z (2 ^ 100))%Q /\ (Qabs (exact32 w) <= inject_Z (2 ^ 100) * exact32 ex62s)%Q) /\
  finite32 ex62s = true /\ ((1 # 2 ^ 126) <= exact32 ex62s)%Q /\ (exact32 ex62s == 3 # 4)%Q.
Proof.
  split; [reflexivity|]. split; [reflexivity|]. split; [vm_compute; congruence|]. split; [|repeat split; vm_compute; congruence].
  intros w [H|H]; repeat (destruct H as [<- |H]; [repeat split; vm_compute; congruence|]); destruct H.
Qed.
(** The bounds are small: 4.7e-5 for the float output of channel 0, 6.3e-5 for int8. *)
Example C62_bound : ((1 # 2 ^ 21) * magnitude (ex_p 0) 1056964608 3227516928 + (1 # 2 ^ 125) < 1 # 20000)%Q /\
  (int8_delta (ex_p 0) 1056964608 3227516928 ex62s (-3) < 1 # 10000)%Q.
Proof. split; vm_compute; reflexivity. Qed.
(** And rounding does happen: multiplier 0.1f, bias -0.3f, convolution value 12. *)
Example C62_rounds : exists t, one_time_setup32 (ex_p 0) ActNone [1036831949; 1036831949; 1036831949; 1036831949] [3197737370; 0; 0; 0] (sf_ofZ 53 1024 1) (sf_ofZ 53 1024 0) = Some t /\
  exists r, run_float sfops t 90 0 = Some r /\ ~ (SF2Q r == exact32 1036831949 * inject_Z (192 - 2 * 90) + exact32 3197737370)%Q.
Proof. eexists. split; [vm_compute; reflexivity|]. eexists. split; [vm_compute; reflexivity|]. vm_compute. congruence. Qed.
