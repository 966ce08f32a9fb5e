(** * Properties C34, C35: recognising a binary convolution, and fusing
    element-wise operations into it (exact rational arithmetic). *)
From Coq Require Import QArith Qabs.
From Verif Require Import Base Spec Bits Bitpack Reference OutputTransform Quantize RefTheorems ConvFold ConvBinary Check
  Prop_Reference.
Open Scope Z_scope.

(** ** C34. [F] is the float filter of the original Conv2D in HWIO layout, which
    reads the +-1 values of [input]. The converter emits the binary convolution on
    the words of [binary_filter F] with multiplier [GetScaleVector F], bias 0 and no
    activation. If every entry of [F] is + or - its channel's first entry (as larq's
    weight quantisers produce), the result is exactly the original's. *)
Theorem C34_binary_filter_exact p input F buf out :
  let ci := channels_in p / groups p in
  let Fv := filt (f_w p) ci (out_c p) F in
  let padv := if pad_same p && (pad_value p =? 0) then 0 else 1 in
  bconv_wf p -> 0 < f_h p -> 0 < f_w p -> 0 < ci -> taps (geom_of p) < 2 ^ 31 ->
  packed input (in_pixels (geom_of p)) (channels_in p) ->
  (pad_same p && (pad_value p =? 0) = true -> ci mod 2 = 0) ->
  (forall oc fy fx c, 0 <= oc < out_c p -> 0 <= fy < f_h p -> 0 <= fx < f_w p -> 0 <= c < ci ->
     (0 < Qabs (Fv oc 0%Z 0%Z 0%Z) /\ Qabs (Fv oc fy fx c) == Qabs (Fv oc 0%Z 0%Z 0%Z))%Q) ->
  zlen buf = filter_pixels (geom_of p) * words ci -> zlen out = out_pixels (geom_of p) * out_c p ->
  exists f y,
    quantize_Q (filter_pixels (geom_of p)) ci (binary_filter (f_h p) (f_w p) ci (out_c p) F) buf = Some f /\
    eval_ref_float p ActNone input f (GetScaleVector (f_w p) ci (out_c p) F) (build (out_c p) (fun _ => 0%Q)) out
      = Some y /\
    forall b oy ox o, 0 <= b < batches p -> 0 <= oy < out_h p -> 0 <= ox < out_w p -> 0 <= o < out_c p ->
      exists r, rd y (out_pixel (geom_of p) b oy ox * out_c p + o) = Some r /\
        (r == conv_Q (geom_of p) padv (input_pm (geom_of p) input) Fv b oy ox o)%Q.
Proof.
  exact (fun WF H1 H2 H3 Hsz Hin Hev HF => recognise_exact p WF input F Hin Hev Hsz H1 H2 H3 HF buf out).
Qed.
Print Assumptions C34_binary_filter_exact.

(** Every filter the check accepts: the error is at most
    taps * 0.005 * |F[0,0,0,o]|. *)
Theorem C34_binary_filter_error p input F buf out :
  let ci := channels_in p / groups p in
  let Fv := filt (f_w p) ci (out_c p) F in
  let padv := if pad_same p && (pad_value p =? 0) then 0 else 1 in
  bconv_wf p -> 0 < f_h p -> 0 < f_w p -> 0 < ci -> taps (geom_of p) < 2 ^ 31 ->
  packed input (in_pixels (geom_of p)) (channels_in p) ->
  (pad_same p && (pad_value p =? 0) = true -> ci mod 2 = 0) ->
  IsBinaryFilter (f_h p) (f_w p) ci (out_c p) F = true ->
  zlen buf = filter_pixels (geom_of p) * words ci -> zlen out = out_pixels (geom_of p) * out_c p ->
  exists f y,
    quantize_Q (filter_pixels (geom_of p)) ci (binary_filter (f_h p) (f_w p) ci (out_c p) F) buf = Some f /\
    eval_ref_float p ActNone input f (GetScaleVector (f_w p) ci (out_c p) F) (build (out_c p) (fun _ => 0%Q)) out
      = Some y /\
    forall b oy ox o, 0 <= b < batches p -> 0 <= oy < out_h p -> 0 <= ox < out_w p -> 0 <= o < out_c p ->
      exists r, rd y (out_pixel (geom_of p) b oy ox * out_c p + o) = Some r /\
        (Qabs (r - conv_Q (geom_of p) padv (input_pm (geom_of p) input) Fv b oy ox o)
         <= inject_Z (taps (geom_of p)) * (tol32 * Qabs (Fv o 0%Z 0%Z 0%Z)))%Q.
Proof.
  exact (fun WF H1 H2 H3 Hsz Hin Hev HB => recognise_tol p WF input F Hin Hev Hsz H1 H2 H3 HB buf out).
Qed.
Print Assumptions C34_binary_filter_error.

(** The check accepts every filter that is exactly binary with a non-negligible scale. *)
Theorem C34_check_complete kh kw ci o F :
  (forall oc fy fx c, 0 <= oc < o -> 0 <= fy < kh -> 0 <= fx < kw -> 0 <= c < ci ->
     (eps32 < Qabs (filt kw ci o F oc 0 0 0) /\
      Qabs (filt kw ci o F oc fy fx c) == Qabs (filt kw ci o F oc 0 0 0))%Q) ->
  IsBinaryFilter kh kw ci o F = true.
Proof. exact (is_binary_complete kh kw ci o F). Qed.
Print Assumptions C34_check_complete.

(** Exactness for every accepted filter is false: 1x1, two input channels, filter
    [1; 1.004]; the original gives 2.004 on all-ones input, the rewritten graph 2. *)
Definition ex34_p : bconv :=
  {| batches := 1; in_h := 1; in_w := 1; in_d := 1; out_c := 1; f_h := 1; f_w := 1; f_d := 1;
     out_h := 1; out_w := 1; channels_in := 2; groups := 1; s_h := 1; s_w := 1; dl_h := 1; dl_w := 1;
     pad_h := 0; pad_w := 0; pad_same := false; pad_value := 0 |}.
Definition ex34_F : list Q := [1; 1004 # 1000]%Q.
Theorem C34_accepted_not_exact_refuted :
  IsBinaryFilter 1 1 2 1 ex34_F = true /\
  exists f r, quantize_Q 1 2 (binary_filter 1 1 2 1 ex34_F) [7] = Some f /\
    eval_ref_float ex34_p ActNone [0] f (GetScaleVector 1 2 1 ex34_F) [0%Q] [0%Q] = Some [r] /\
    (r == 2)%Q /\
    (conv_Q (geom_of ex34_p) 1 (input_pm (geom_of ex34_p) [0%Z]) (filt 1 2 1 ex34_F) 0%Z 0%Z 0%Z 0%Z == 2004 # 1000)%Q.
Proof.
  split; [vm_compute; reflexivity|]. eexists. eexists.
  split; [vm_compute; reflexivity|]. split; [vm_compute; reflexivity|]. split; vm_compute; reflexivity.
Qed.
Print Assumptions C34_accepted_not_exact_refuted.

Example C34_case : bconv_wf ex34_p /\ packed [2] (in_pixels (geom_of ex34_p)) (channels_in ex34_p) /\
  taps (geom_of ex34_p) < 2 ^ 31 /\ IsBinaryFilter 1 1 2 1 [3 # 7; - (3 # 7)]%Q = true /\
  IsBinaryFilter 1 1 2 1 [3 # 7; 2 # 7]%Q = false.
Proof.
  split; [constructor; vm_compute; intuition congruence|].
  split; [apply packedb_ok; [vm_compute; congruence|vm_compute; reflexivity]|].
  split; [reflexivity|]. split; vm_compute; reflexivity.
Qed.

(** ** C35. [fused_by p a input filter a' mul bias mul' bias' out h]: both kernels
    succeed, and every output of channel [c] with (a', mul', bias') is [h c]
    applied to the output with (a, mul, bias). [val] is the constant operand: one
    element, or one per output channel. *)
Theorem C35_fuse_add_sub p a input filter mul bias val out :
  bconv_wf p ->
  packed input (in_pixels (geom_of p)) (channels_in p) ->
  packed filter (filter_pixels (geom_of p)) (channels_in p / groups p) ->
  (pad_same p && (pad_value p =? 0) = true -> (channels_in p / groups p) mod 2 = 0) ->
  taps (geom_of p) < 2 ^ 31 ->
  zlen mul = out_c p -> zlen bias = out_c p -> zlen val = 1 \/ zlen val = out_c p ->
  zlen out = out_pixels (geom_of p) * out_c p ->
  fused_by p a input filter a mul bias mul (map2Q Qplus bias (bcast (out_c p) val)) out
    (fun c r => r + operand val c)%Q /\
  fused_by p a input filter a mul bias mul (map2Q Qminus bias (bcast (out_c p) val)) out
    (fun c r => r - operand val c)%Q.
Proof.
  exact (fun WF Hi Hf He Hz Lm Lb Lv Lo => conj
    (fuse_add p WF a input filter Hi Hf He Hz mul bias val out Lm Lb Lv Lo)
    (fuse_sub p WF a input filter Hi Hf He Hz mul bias val out Lm Lb Lv Lo)).
Qed.
Print Assumptions C35_fuse_add_sub.

Theorem C35_fuse_mul_div p a input filter mul bias val out :
  bconv_wf p ->
  packed input (in_pixels (geom_of p)) (channels_in p) ->
  packed filter (filter_pixels (geom_of p)) (channels_in p / groups p) ->
  (pad_same p && (pad_value p =? 0) = true -> (channels_in p / groups p) mod 2 = 0) ->
  taps (geom_of p) < 2 ^ 31 ->
  zlen mul = out_c p -> zlen bias = out_c p -> zlen val = 1 \/ zlen val = out_c p ->
  zlen out = out_pixels (geom_of p) * out_c p ->
  fused_by p a input filter a mul bias
    (map2Q Qmult mul (bcast (out_c p) val)) (map2Q Qmult bias (bcast (out_c p) val)) out
    (fun c r => r * operand val c)%Q /\
  fused_by p a input filter a mul bias
    (map2Q Qdiv mul (bcast (out_c p) val)) (map2Q Qdiv bias (bcast (out_c p) val)) out
    (fun c r => r / operand val c)%Q.
Proof.
  exact (fun WF Hi Hf He Hz Lm Lb Lv Lo => conj
    (fuse_mul p WF a input filter Hi Hf He Hz mul bias val out Lm Lb Lv Lo)
    (fuse_div p WF a input filter Hi Hf He Hz mul bias val out Lm Lb Lv Lo)).
Qed.
Print Assumptions C35_fuse_mul_div.

(** The activation rewrite requires unit multiplier, zero bias, no activation so
    far, and VALID padding or pad value one. *)
Theorem C35_fuse_activation p input filter a' mul bias out : bconv_wf p ->
  packed input (in_pixels (geom_of p)) (channels_in p) ->
  packed filter (filter_pixels (geom_of p)) (channels_in p / groups p) ->
  pad_same p = false \/ pad_value p = 1 ->
  taps (geom_of p) < 2 ^ 31 ->
  zlen mul = out_c p -> zlen bias = out_c p -> zlen out = out_pixels (geom_of p) * out_c p ->
  (forall c m, rd mul c = Some m -> (m == 1)%Q) -> (forall c b, rd bias c = Some b -> (b == 0)%Q) ->
  fused_by p ActNone input filter a' mul bias mul bias out (fun _ => relu_op a').
Proof. exact (fuse_activation p input filter a' mul bias out). Qed.
Print Assumptions C35_fuse_activation.

(** The guards are needed: with multiplier 1/2 fusing RELU6 would change 6 to 3. *)
Definition ex35_p : bconv :=
  {| batches := 1; in_h := 1; in_w := 1; in_d := 1; out_c := 1; f_h := 1; f_w := 1; f_d := 1;
     out_h := 1; out_w := 1; channels_in := 32; groups := 1; s_h := 1; s_w := 1; dl_h := 1; dl_w := 1;
     pad_h := 0; pad_w := 0; pad_same := false; pad_value := 0 |}.
Theorem C35_activation_guard_needed :
  exists r1 r2, eval_ref_float ex35_p ActNone [0] [0] [1 # 2]%Q [0%Q] [0%Q] = Some [r1] /\
    eval_ref_float ex35_p ActRelu6 [0] [0] [1 # 2]%Q [0%Q] [0%Q] = Some [r2] /\
    (relu_op ActRelu6 r1 == 6)%Q /\ (r2 == 3)%Q.
Proof.
  eexists. eexists. split; [vm_compute; reflexivity|]. split; [vm_compute; reflexivity|]. split; vm_compute; reflexivity.
Qed.
Print Assumptions C35_activation_guard_needed.

Example C35_case : let p := ex_p 1 in bconv_wf p /\
  packed ex_in (in_pixels (geom_of p)) (channels_in p) /\ taps (geom_of p) < 2 ^ 31 /\
  zlen [1; 1; 1; 1]%Q = out_c p /\ zlen (build 16 (fun _ => 0%Q)) = out_pixels (geom_of p) * out_c p.
Proof. split; [apply ex_wf|]. split; [apply ex_in_packed|]. split; [reflexivity|]. split; reflexivity. Qed.
