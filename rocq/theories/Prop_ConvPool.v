(** * Property C25: quantising before instead of after max pooling. *)
From Coq Require Import SpecFloat.
From Verif Require Import Base Spec Bits Bitpack Float32 FloatOrder Padding MaxPool Quantize ConvSign ConvPool Check.

(** No activation or RELU_N1_TO_1: quantize(maxpool(X)) and bmaxpool(quantize(X))
    are the same words, for every non-NaN tensor [X] of [b*h*w] pixels and [c]
    channels. *)
Theorem C25_pool_then_quantize pad b h w c fh fw sh sw m a X buf outq outb :
  pool_prepare pad b h w (words c) fh fw sh sw = Some m ->
  pad <> PadUnknown ->
  0 <= b -> 1 <= h -> 1 <= w -> 0 <= c -> 1 <= fh -> 1 <= fw -> 1 <= sh -> 1 <= sw ->
  (pad = PadValid -> fh <= h /\ fw <= w) ->
  zlen X = b * h * w * c -> (forall i v, rd X i = Some v -> valid32 v /\ is_nan v = false) ->
  zlen buf = b * h * w * words c ->
  zlen outq = b * moh m * mow m * words c -> zlen outb = b * moh m * mow m * words c ->
  a = ActNone \/ a = ActReluN1To1 ->
  exists p r, quantize_sf (b * h * w) c X buf = Some p /\
    BMaxPool m p outb = Some r /\
    quantize_sf (b * moh m * mow m) c (max_pool_float m c a X) outq = Some r.
Proof. exact (max_pool_rewrite pad b h w c fh fw sh sw m a X buf outq outb). Qed.
Print Assumptions C25_pool_then_quantize.

(** The activation that the rewrite drops, with its bounds as IEEE values:
    mantissa x 2^exponent. RELU: 0; RELU6: 0 and 12582912 x 2^-21 = 6;
    RELU_N1_TO_1: -1 and 1; none: the lowest and highest finite floats. *)
Theorem C25_activation_bounds v :
  let lo := S754_finite true 16777215 104 in let hi := S754_finite false 16777215 104 in
  let clip l h x := if SFltb x l then (if SFltb h l then h else l) else if SFltb h x then h else x in
  sf_clamp ActNone v = clip lo hi v /\
  sf_clamp ActRelu v = clip (S754_zero false) hi v /\
  sf_clamp ActRelu6 v = clip (S754_zero false) (S754_finite false 12582912 (-21)) v /\
  sf_clamp ActReluN1To1 v = clip (S754_finite true 8388608 (-23)) (S754_finite false 8388608 (-23)) v.
Proof.
  intros lo hi clip. unfold clip, sf_clamp, sf_min, sf_max, act_lo, act_hi.
  split; [|split; [|split]]; destruct (SFltb v _); reflexivity.
Qed.
Print Assumptions C25_activation_bounds.

(** The rewrite does not look at the fused activation. With RELU or RELU6 it
    changes results: a 1x1 window holding -1 gives bit 0 before, bit 1 after. *)
Theorem C25_relu_refuted a : a = ActRelu \/ a = ActRelu6 ->
  exists m p, pool_prepare PadValid 1 1 1 (words 1) 1 1 1 1 = Some m /\
    quantize_sf 1 1 [sf_minus_one] [0] = Some p /\ BMaxPool m p [0] = Some [1] /\
    quantize_sf 1 1 (max_pool_float m 1 a [sf_minus_one]) [0] = Some [0].
Proof. exact (max_pool_relu a). Qed.
Print Assumptions C25_relu_refuted.

(** 1x3x3 image, 2 channels, 2x2 windows, stride 2, SAME: mixed signs, -0, infinity. *)
Definition ex25 : list spec_float :=
  [sf_one; sf_minus_one; sf_minus_one; sf_minus_one; sf_minus_one; sf_lowest;
   sf_minus_one; sf_minus_one; sf_lowest; sf_minus_one; S754_infinity true; sf_minus_one;
   S754_zero true; sf_minus_one; sf_minus_one; sf_six; sf_minus_one; sf_minus_one].
Example C25_case : exists m, pool_prepare PadSame 1 3 3 (words 2) 2 2 2 2 = Some m /\
  zlen ex25 = 1 * 3 * 3 * 2 /\ (forall i v, rd ex25 i = Some v -> valid32 v /\ is_nan v = false) /\
  max_pool_float m 2 ActReluN1To1 ex25 =
    [sf_one; sf_minus_one; sf_minus_one; sf_minus_one; S754_zero true; sf_one; sf_minus_one; sf_minus_one] /\
  quantize_sf 4 2 (max_pool_float m 2 ActReluN1To1 ex25) [0; 0; 0; 0] = Some [2; 3; 0; 3].
Proof.
  eexists. split; [vm_compute; reflexivity|]. split; [vm_compute; reflexivity|]. split.
  - intros i v H. apply rd_in in H.
    enough (F : Forall (fun v => valid32 v /\ is_nan v = false) ex25) by (rewrite Forall_forall in F; auto).
    unfold ex25, sf_one, sf_minus_one, sf_six, sf_lowest.
    repeat (apply Forall_cons; [unfold valid32, is_nan; (split; [lia|reflexivity]) || (split; [exact I|reflexivity])|]).
    apply Forall_nil.
  - split; vm_compute; reflexivity.
Qed.
