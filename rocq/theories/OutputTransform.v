(** * OutputTransform: core/bconv2d/output_transform.h and the preparation of
    its parameters in tflite/kernels/bconv2d.cc (OneTimeSetup).

    Float arithmetic appears in two forms: abstractly ([fops]: any carrier and
    operations, so that equalities between kernels are bit-exact whatever the
    hardware does) and in exact rational arithmetic [Q]. *)
From Coq Require Import QArith Qround.
From Verif Require Import Base Spec Bits Reference.
Open Scope Z_scope.

(** The float operations used by OutputTransform::Run. *)
Record fops (F : Type) := {
  f_ofZ : Z -> F;           (* static_cast<float>(int32) *)
  f_mul : F -> F -> F;
  f_add : F -> F -> F;
  f_round : F -> Z          (* core::round: TfLiteRound *)
}.
Arguments f_ofZ {F}. Arguments f_mul {F}. Arguments f_add {F}. Arguments f_round {F}.

Record otp (F : Type) := {
  ot_min : Z; ot_max : Z; ot_mult : list F; ot_bias : list F }.
Arguments ot_min {F}. Arguments ot_max {F}. Arguments ot_mult {F}. Arguments ot_bias {F}.

(** core/types.h 46-56 / output_transform.h saturate (non-__arm__ branch). *)
Definition saturate (x : Z) : Z := Z.max (Z.min x 127) (-128).

Section Run.
  Context {F : Type} (ops : fops F).
  (** output_transform.h 103-112 (float). *)
  Definition run_float (t : otp F) (accum c : Z) : option F :=
    let x := Z.shiftl accum 1 in
    let x := Z.max (Z.min x (ot_max t)) (ot_min t) in
    let* m := rd (ot_mult t) c in
    let* b := rd (ot_bias t) c in
    Some (f_add ops (f_mul ops (f_ofZ ops x) m) b).
  (** output_transform.h 130-148 (int8). *)
  Definition run_int8 (t : otp F) (accum c : Z) : option Z :=
    let* y := run_float t accum c in
    Some (saturate (f_round ops y)).
End Run.

(** output_transform.h 165-172 (bitpacked). *)
Definition run_bits (thresholds : list Z) (accum c : Z) : option bool :=
  let* t := rd thresholds c in Some (t <? accum).

(** tflite CalculateActivationRange<int32> (kernels/kernel_util.h, external). *)
Definition activation_range (a : activation) : Z * Z :=
  match a with
  | ActNone => (- 2 ^ 31, 2 ^ 31 - 1)
  | ActRelu => (0, 2 ^ 31 - 1)
  | ActReluN1To1 => (-1, 1)
  | ActRelu6 => (0, 6)
  end.

(** bconv2d.cc 334-335 and 361-363 *)
Definition backtransform_add (p : bconv) : Z :=
  f_h p * f_w p * Z.quot (channels_in p) (groups p).

(** bconv2d.cc 355-389, with double/float arithmetic replaced by exact
    rational arithmetic. [scale] = 1, [zp] = 0 for float output. *)
Definition one_time_setup (p : bconv) (a : activation) (post_mul post_bias : list Q)
    (scale zp : Q) : option (otp Q) :=
  let bt := backtransform_add p in
  let n := out_c p + Z.quot 16 4 in
  let z := repeat 0%Q (Z.to_nat n) in
  let* (mult, bias) := for_ 0 (out_c p) (fun i '(mult, bias) =>
    let* pmul := rd post_mul i in
    let* pb := rd post_bias i in
    let* mult := wr mult i ((- (1)) * pmul / scale)%Q in
    let* bias := wr bias i ((pb + inject_Z bt * pmul) / scale + zp)%Q in
    Some (mult, bias)) (z, z) in
  let (nmin, nmax) := activation_range a in
  let nmin := Z.max nmin (-1 * bt) in
  let nmax := Z.min nmax bt in
  Some {| ot_min := -1 * nmax + bt; ot_max := -1 * nmin + bt;
          ot_mult := mult; ot_bias := bias |}.

(** std::round in exact arithmetic: nearest integer, halves away from zero. *)
Definition round_haz (q : Q) : Z :=
  if Qle_bool 0 q then Qfloor (q + (1 # 2)) else - Qfloor (- q + (1 # 2)).
Definition Qops : fops Q :=
  {| f_ofZ := inject_Z; f_mul := Qmult; f_add := Qplus; f_round := round_haz |}.

(** ** Proofs *)
Lemma Qle_bool_comp a b c d : a == b -> c == d -> Qle_bool a c = Qle_bool b d.
Proof. intros H1 H2. rewrite H1, H2. reflexivity. Qed.

Lemma round_haz_comp a b : a == b -> round_haz a = round_haz b.
Proof.
  intros H. unfold round_haz. rewrite (Qle_bool_comp 0 0 a b) by (auto; reflexivity).
  destruct (Qle_bool 0 b); [|f_equal]; apply Qfloor_comp; rewrite H; reflexivity.
Qed.

Lemma setup_ok p a post_mul post_bias scale zp :
  0 <= out_c p -> zlen post_mul = out_c p -> zlen post_bias = out_c p ->
  exists t, one_time_setup p a post_mul post_bias scale zp = Some t /\
    ot_min t = - Z.min (snd (activation_range a)) (backtransform_add p) + backtransform_add p /\
    ot_max t = - Z.max (fst (activation_range a)) (- backtransform_add p) + backtransform_add p /\
    zlen (ot_mult t) = out_c p + 4 /\ zlen (ot_bias t) = out_c p + 4 /\
    (forall c m, rd post_mul c = Some m ->
       rd (ot_mult t) c = Some ((- (1)) * m / scale)%Q) /\
    (forall c m b, rd post_mul c = Some m -> rd post_bias c = Some b ->
       rd (ot_bias t) c = Some ((b + inject_Z (backtransform_add p) * m) / scale + zp)%Q).
Proof.
  intros Hc Hm Hb. apply wp_iff. unfold one_time_setup. apply wp_bind.
  set (bt := backtransform_add p).
  apply (for_wp (fun k '(mult, bias) => zlen mult = out_c p + 4 /\ zlen bias = out_c p + 4 /\
    (forall c m, c < k -> rd post_mul c = Some m -> rd mult c = Some ((- (1)) * m / scale)%Q) /\
    (forall c m b, c < k -> rd post_mul c = Some m -> rd post_bias c = Some b ->
       rd bias c = Some ((b + inject_Z bt * m) / scale + zp)%Q))).
  - rewrite !zlen_repeat. change (Z.quot 16 4) with 4.
    split; [lia|]. split; [lia|]. split.
    + intros c m Hlt H. apply rd_bounds in H. lia.
    + intros c m b Hlt H. apply rd_bounds in H. lia.
  - intros i (mult, bias) Hi (L1 & L2 & H1 & H2).
    apply wp_bind, rd_wp; [lia|]. intros pm0 Hpm.
    apply wp_bind, rd_wp; [lia|]. intros pb0 Hpb.
    apply wp_bind, wr_wp; [lia|]. intros mult' L1' S1 O1.
    apply wp_bind, wr_wp; [lia|]. intros bias' L2' S2 O2.
    apply wp_ret. split; [lia|]. split; [lia|]. split.
    + intros c m Hlt Hcm. destruct (Z.eq_dec c i) as [->|Hne]; [congruence|].
      rewrite O1 by exact Hne. apply H1; [lia|exact Hcm].
    + intros c m b Hlt Hcm Hcb. destruct (Z.eq_dec c i) as [->|Hne]; [congruence|].
      rewrite O2 by exact Hne. apply H2; [lia|exact Hcm|exact Hcb].
  - rewrite Z.max_r by lia. intros (mult, bias) (L1 & L2 & H1 & H2).
    destruct (activation_range a) as [nmin nmax] eqn:E. cbn [fst snd].
    apply wp_ret; cbn [ot_min ot_max ot_mult ot_bias].
    split; [lia|]. split; [lia|]. split; [exact L1|]. split; [exact L2|]. split.
    + intros c m Hcm. apply H1; [|exact Hcm]. apply rd_bounds in Hcm. lia.
    + intros c m b Hcm Hcb. apply H2; auto. apply rd_bounds in Hcm. lia.
Qed.

(** The clamp in the shifted domain is the activation in the original domain. *)
Lemma clamp_act a bt x :
  0 <= bt < 2 ^ 31 -> - bt <= x <= bt ->
  bt - Z.max (Z.min (bt - x) (- Z.max (fst (activation_range a)) (- bt) + bt))
             (- Z.min (snd (activation_range a)) bt + bt) = act_spec a x.
Proof. intros Hb Hx. destruct a; cbn [activation_range fst snd act_spec]; lia. Qed.

Lemma run_float_setup p a post_mul post_bias scale zp t accum c m b :
  0 <= out_c p -> zlen post_mul = out_c p -> zlen post_bias = out_c p ->
  one_time_setup p a post_mul post_bias scale zp = Some t ->
  0 <= backtransform_add p < 2 ^ 31 -> 0 <= accum <= backtransform_add p ->
  ~ (scale == 0)%Q ->
  rd post_mul c = Some m -> rd post_bias c = Some b ->
  exists y, run_float Qops t accum c = Some y /\
    (y == (m * inject_Z (act_spec a (backtransform_add p - 2 * accum)) + b) / scale + zp)%Q.
Proof.
  intros Hc Hm Hb Ht Hbt Hacc Hs Hcm Hcb.
  destruct (setup_ok p a post_mul post_bias scale zp Hc Hm Hb)
    as (t' & Ht' & Hmin & Hmax & _ & _ & HM & HB).
  rewrite Ht in Ht'. injection Ht' as <-.
  unfold run_float. rewrite (HM c m Hcm), (HB c m b Hcm Hcb). cbn [bind]. eexists. split; [reflexivity|].
  rewrite <- (clamp_act a (backtransform_add p) (backtransform_add p - 2 * accum)) by lia.
  rewrite Hmin, Hmax. cbn [f_add f_mul f_ofZ Qops].
  rewrite Z.shiftl_mul_pow2 by lia.
  replace (backtransform_add p - (backtransform_add p - 2 * accum)) with (accum * 2 ^ 1) by lia.
  set (X := Z.max _ _). unfold Zminus. rewrite inject_Z_plus, inject_Z_opp.
  field. exact Hs.
Qed.
