(** * Properties C06-C10: the reference binary convolution. *)
From Coq Require Import QArith.
From Verif Require Import Base Spec Bits Reference OutputTransform RefTheorems Check.
Open Scope Z_scope.

(** ** C06: VALID padding, or SAME padding with pad value one *)
Theorem C06_reference_one_padding p input filter out :
  bconv_wf p ->
  packed input (in_pixels (geom_of p)) (channels_in p) ->
  packed filter (filter_pixels (geom_of p)) (channels_in p / groups p) ->
  zlen out = out_pixels (geom_of p) * out_c p ->
  pad_same p = false \/ pad_value p = 1 ->
  exists out',
    BConv2DReference_val p input filter (fun accum _ => Some (taps (geom_of p) - 2 * accum)) out
      = Some out' /\ zlen out' = zlen out /\
    forall b y x c, 0 <= b < batches p -> 0 <= y < out_h p -> 0 <= x < out_w p ->
      0 <= c < out_c p ->
      rd out' (out_pixel (geom_of p) b y x * out_c p + c) =
        Some (conv (geom_of p) 1 (input_pm (geom_of p) input) (filter_pm (geom_of p) filter) b y x c).
Proof. exact (reference_conv_one p input filter out). Qed.
Print Assumptions C06_reference_one_padding.

(** ** C07: SAME padding with pad value zero *)
Theorem C07_reference_zero_padding p input filter out :
  bconv_wf p ->
  packed input (in_pixels (geom_of p)) (channels_in p) ->
  packed filter (filter_pixels (geom_of p)) (channels_in p / groups p) ->
  zlen out = out_pixels (geom_of p) * out_c p ->
  pad_same p = true -> pad_value p = 0 -> (channels_in p / groups p) mod 2 = 0 ->
  exists out',
    BConv2DReference_val p input filter (fun accum _ => Some (taps (geom_of p) - 2 * accum)) out
      = Some out' /\ zlen out' = zlen out /\
    forall b y x c, 0 <= b < batches p -> 0 <= y < out_h p -> 0 <= x < out_w p ->
      0 <= c < out_c p ->
      rd out' (out_pixel (geom_of p) b y x * out_c p + c) =
        Some (conv (geom_of p) 0 (input_pm (geom_of p) input) (filter_pm (geom_of p) filter) b y x c).
Proof. exact (reference_conv_zero p input filter out). Qed.
Print Assumptions C07_reference_zero_padding.

(** ** C08: float output *)
Theorem C08_reference_float p a input filter post_mul post_bias out :
  bconv_wf p ->
  packed input (in_pixels (geom_of p)) (channels_in p) ->
  packed filter (filter_pixels (geom_of p)) (channels_in p / groups p) ->
  (pad_same p && (pad_value p =? 0) = true -> (channels_in p / groups p) mod 2 = 0) ->
  taps (geom_of p) < 2 ^ 31 ->
  zlen post_mul = out_c p -> zlen post_bias = out_c p ->
  zlen out = out_pixels (geom_of p) * out_c p ->
  exists out', eval_ref_float p a input filter post_mul post_bias out = Some out' /\
    zlen out' = zlen out /\
    forall b y x c m bi, 0 <= b < batches p -> 0 <= y < out_h p -> 0 <= x < out_w p ->
      rd post_mul c = Some m -> rd post_bias c = Some bi ->
      exists r, rd out' (out_pixel (geom_of p) b y x * out_c p + c) = Some r /\
        (r == m * inject_Z (act_spec a
                 (conv (geom_of p) (if pad_same p && (pad_value p =? 0) then 0 else 1)
                   (input_pm (geom_of p) input) (filter_pm (geom_of p) filter) b y x c)) + bi)%Q.
Proof. exact (fun WF Hin Hfl Hev Hs => eval_ref_float_ok p WF input filter Hin Hfl Hev Hs a post_mul post_bias out). Qed.
Print Assumptions C08_reference_float.

(** ** C09: int8 output *)
Theorem C09_reference_int8 p a input filter post_mul post_bias scale zp out :
  bconv_wf p ->
  packed input (in_pixels (geom_of p)) (channels_in p) ->
  packed filter (filter_pixels (geom_of p)) (channels_in p / groups p) ->
  (pad_same p && (pad_value p =? 0) = true -> (channels_in p / groups p) mod 2 = 0) ->
  taps (geom_of p) < 2 ^ 31 ->
  zlen post_mul = out_c p -> zlen post_bias = out_c p ->
  zlen out = out_pixels (geom_of p) * out_c p -> (0 < scale)%Q ->
  exists out', eval_ref_int8 p a input filter post_mul post_bias scale zp out = Some out' /\
    zlen out' = zlen out /\
    forall b y x c m bi, 0 <= b < batches p -> 0 <= y < out_h p -> 0 <= x < out_w p ->
      rd post_mul c = Some m -> rd post_bias c = Some bi ->
      rd out' (out_pixel (geom_of p) b y x * out_c p + c) =
        Some (Z.max (-128) (Z.min 127 (round_haz
          ((m * inject_Z (act_spec a
               (conv (geom_of p) (if pad_same p && (pad_value p =? 0) then 0 else 1)
                 (input_pm (geom_of p) input) (filter_pm (geom_of p) filter) b y x c)) + bi) / scale
           + inject_Z zp)%Q))).
Proof. exact (fun WF Hin Hfl Hev Hs => eval_ref_int8_ok p WF input filter Hin Hfl Hev Hs a post_mul post_bias scale zp out). Qed.
Print Assumptions C09_reference_int8.

(** [round_haz] is the nearest integer, halves away from zero. *)
Theorem C09_round_haz_nearest q :
  (Qabs.Qabs (q - inject_Z (round_haz q)) <= 1 # 2)%Q /\
  ((q == inject_Z (round_haz q) + (1 # 2) -> (q < 0)) /\
   (q == inject_Z (round_haz q) - (1 # 2) -> (0 < q)))%Q.
Proof. exact (round_haz_nearest q). Qed.
Print Assumptions C09_round_haz_nearest.

(** ** C10: bitpacked output *)
Theorem C10_reference_bitpacked p input filter thresholds out :
  bconv_wf p ->
  packed input (in_pixels (geom_of p)) (channels_in p) ->
  packed filter (filter_pixels (geom_of p)) (channels_in p / groups p) ->
  (pad_same p && (pad_value p =? 0) = true -> (channels_in p / groups p) mod 2 = 0) ->
  zlen thresholds = out_c p ->
  zlen out = out_pixels (geom_of p) * words (out_c p) ->
  exists out', eval_ref_bits p input filter thresholds out = Some out' /\
    packed out' (out_pixels (geom_of p)) (out_c p) /\
    forall b y x c t, 0 <= b < batches p -> 0 <= y < out_h p -> 0 <= x < out_w p ->
      rd thresholds c = Some t ->
      (bit_of out' (words (out_c p)) (out_pixel (geom_of p) b y x) c = true
       <-> 2 * t < taps (geom_of p)
                   - conv (geom_of p) (if pad_same p && (pad_value p =? 0) then 0 else 1)
                       (input_pm (geom_of p) input) (filter_pm (geom_of p) filter) b y x c).
Proof. exact (fun WF Hin Hfl Hev => eval_ref_bits_ok p WF input filter Hin Hfl Hev thresholds out). Qed.
Print Assumptions C10_reference_bitpacked.

(** ** A concrete case: 2 groups of 32 input channels, 4 output channels, 3x3
    dilated filter on a 3x4 image, stride 2, SAME padding. *)
Definition ex_p (padv : Z) : bconv :=
  {| batches := 1; in_h := 3; in_w := 4; in_d := 2; out_c := 4; f_h := 2; f_w := 3; f_d := 1;
     out_h := 2; out_w := 2; channels_in := 64; groups := 2; s_h := 2; s_w := 2;
     dl_h := 2; dl_w := 1; pad_h := 1; pad_w := 0; pad_same := true; pad_value := padv |}.
Definition ex_in : list Z := map (fun i => (i * 2654435761 + 12345) mod 2 ^ 32) (zrange 24).
Definition ex_fl : list Z := map (fun i => (i * 1103515245 + 777) mod 2 ^ 32) (zrange 24).

Example ex_wf : forall v, bconv_wf (ex_p v).
Proof. intros v. constructor; vm_compute; intuition congruence. Qed.
Example ex_in_packed : forall v, packed ex_in (in_pixels (geom_of (ex_p v))) (channels_in (ex_p v)).
Proof. intros v. apply packedb_ok; [vm_compute; congruence|vm_compute; reflexivity]. Qed.
Example ex_fl_packed : forall v, packed ex_fl (filter_pixels (geom_of (ex_p v)))
    (channels_in (ex_p v) / groups (ex_p v)).
Proof. intros v. apply packedb_ok; [vm_compute; congruence|vm_compute; reflexivity]. Qed.
Example ex_other : (channels_in (ex_p 0) / groups (ex_p 0)) mod 2 = 0 /\ taps (geom_of (ex_p 0)) < 2 ^ 31 /\
  out_pixels (geom_of (ex_p 0)) * out_c (ex_p 0) = 16.
Proof. repeat split; vm_compute; reflexivity. Qed.
(** The padding value matters on this data and the outputs are not constant. *)
Example ex_values :
  map (fun c => conv (geom_of (ex_p 0)) 0 (input_pm (geom_of (ex_p 0)) ex_in)
                  (filter_pm (geom_of (ex_p 0)) ex_fl) 0 0 0 c) [0; 1; 2; 3] <>
  map (fun c => conv (geom_of (ex_p 0)) 1 (input_pm (geom_of (ex_p 0)) ex_in)
                  (filter_pm (geom_of (ex_p 0)) ex_fl) 0 0 0 c) [0; 1; 2; 3].
Proof. vm_compute. congruence. Qed.
