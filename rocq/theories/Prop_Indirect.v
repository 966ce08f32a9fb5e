(** * Properties C13-C16: the indirect binary convolution. *)
From Verif Require Import Base Spec Bits Reference OutputTransform RefTheorems Indirect IndirectBuf IndirectTop Check
  Prop_Reference.

(** ** C13: float / int8 output. [run] is any output transform that is defined
    on the channels 0 .. out_c-1. *)
Theorem C13_indirect_equals_reference (T : Type) p input filter (run : Z -> Z -> option T) out :
  bconv_wf p ->
  packed input (in_pixels (geom_of p)) (channels_in p) ->
  packed filter (filter_pixels (geom_of p)) (channels_in p / groups p) ->
  1 <= f_h p -> 1 <= f_w p -> 1 <= f_d p -> int32_indices p ->
  pad_same p = false \/ pad_value p = 1 ->
  (forall accum c, 0 <= c < out_c p -> exists r, run accum c = Some r) ->
  zlen out = out_pixels (geom_of p) * out_c p ->
  exists out', indirect_val p input filter run out = Some out' /\
               BConv2DReference_val p input filter run out = Some out'.
Proof.
  exact (fun WF Hi Hf h w d Hint Hpad Htot Hl =>
    indirect_eq_reference_val p WF input filter Hi Hf h w d Hint run out (zero_padding_one p Hpad) Htot Hl).
Qed.
Print Assumptions C13_indirect_equals_reference.

(** The value written, against the mathematical convolution (zero padding is
    treated as one-padding here; see C20 for its correction). *)
Theorem C13_indirect_is_convolution p input filter out :
  bconv_wf p ->
  packed input (in_pixels (geom_of p)) (channels_in p) ->
  packed filter (filter_pixels (geom_of p)) (channels_in p / groups p) ->
  1 <= f_h p -> 1 <= f_w p -> 1 <= f_d p -> int32_indices p ->
  zlen out = out_pixels (geom_of p) * out_c p ->
  exists out',
    indirect_val p input filter (fun accum _ => Some (taps (geom_of p) - 2 * accum)) out = Some out' /\
    zlen out' = zlen out /\
    forall b y x c, 0 <= b < batches p -> 0 <= y < out_h p -> 0 <= x < out_w p ->
      0 <= c < out_c p ->
      rd out' (out_pixel (geom_of p) b y x * out_c p + c) =
        Some (conv (geom_of p) 1 (input_pm (geom_of p) input) (filter_pm (geom_of p) filter) b y x c).
Proof.
  exact (fun WF Hi Hf h w d Hint =>
    indirect_val_one p WF input filter Hi Hf h w d Hint _ _ out
      (fun b y x c Hb Hy Hx Hc => f_equal Some (acc_one_conv p WF input filter Hi Hf b y x c Hb Hc))).
Qed.
Print Assumptions C13_indirect_is_convolution.

(** Running the kernel on any range of output pixels that starts at an even
    pixel writes the reference values of that range and nothing else, so any
    such partition, run in any order, gives the reference result. *)
Theorem C13_indirect_range (T : Type) p input filter (run : Z -> Z -> option T) ps pe out :
  bconv_wf p ->
  packed input (in_pixels (geom_of p)) (channels_in p) ->
  packed filter (filter_pixels (geom_of p)) (channels_in p / groups p) ->
  1 <= f_h p -> 1 <= f_w p -> 1 <= f_d p -> int32_indices p ->
  pad_same p = false \/ pad_value p = 1 ->
  (forall accum c, 0 <= c < out_c p -> exists r, run accum c = Some r) ->
  ps mod 2 = 0 -> 0 <= ps <= pe -> pe <= out_pixels (geom_of p) ->
  zlen out = out_pixels (geom_of p) * out_c p ->
  exists out' ref, indirect_range p input filter run ps pe out = Some out' /\
    BConv2DReference_val p input filter run out = Some ref /\
    zlen out' = zlen out /\
    forall j, 0 <= j < zlen out ->
      rd out' j = if (ps * out_c p <=? j) && (j <? pe * out_c p) then rd ref j else rd out j.
Proof. exact (indirect_range_reference p input filter run ps pe out). Qed.
Print Assumptions C13_indirect_range.

(** ** C14: bitpacked output. [extra] is whatever memory follows the thresholds. *)
Theorem C14_indirect_bitpacked_equals_reference p input filter thresholds extra out :
  bconv_wf p ->
  packed input (in_pixels (geom_of p)) (channels_in p) ->
  packed filter (filter_pixels (geom_of p)) (channels_in p / groups p) ->
  1 <= f_h p -> 1 <= f_w p -> 1 <= f_d p -> int32_indices p ->
  pad_same p = false \/ pad_value p = 1 ->
  zlen thresholds = out_c p -> 3 <= zlen extra ->
  zlen out = out_pixels (geom_of p) * words (out_c p) ->
  exists out', indirect_bits p input filter (run_bits (thresholds ++ extra)) out = Some out' /\
    eval_ref_bits p input filter thresholds out = Some out' /\
    packed out' (out_pixels (geom_of p)) (out_c p).
Proof. exact (indirect_bits_thresholds p input filter thresholds extra out). Qed.
Print Assumptions C14_indirect_bitpacked_equals_reference.

(** ** C15 is false: with exactly out_c thresholds the kernel reads past the
    end (up to three elements), although the reference kernel does not. *)
Definition ex15_p : bconv :=
  {| batches := 1; in_h := 1; in_w := 1; in_d := 1; out_c := 1; f_h := 1; f_w := 1; f_d := 1;
     out_h := 1; out_w := 1; channels_in := 32; groups := 1; s_h := 1; s_w := 1;
     dl_h := 1; dl_w := 1; pad_h := 0; pad_w := 0; pad_same := false; pad_value := 1 |}.
Theorem C15_threshold_overread_refuted :
  exists p input filter thresholds out,
    bconv_wf p /\
    packed input (in_pixels (geom_of p)) (channels_in p) /\
    packed filter (filter_pixels (geom_of p)) (channels_in p / groups p) /\
    pad_same p = false /\ zlen thresholds = out_c p /\
    zlen out = out_pixels (geom_of p) * words (out_c p) /\
    (exists ref, eval_ref_bits p input filter thresholds out = Some ref) /\
    indirect_bits p input filter (run_bits thresholds) out = None.
Proof.
  exists ex15_p, [5], [9], [7], [0].
  split; [constructor; vm_compute; intuition congruence|].
  split; [apply packedb_ok; vm_compute; congruence|].
  split; [apply packedb_ok; vm_compute; congruence|].
  split; [reflexivity|]. split; [reflexivity|]. split; [reflexivity|].
  split; [eexists; vm_compute; reflexivity|vm_compute; reflexivity].
Qed.
Print Assumptions C15_threshold_overread_refuted.

(** ** C16: the prepared buffers, for every block shape *)
Theorem C16_packed_weights boc bpx bd p filter :
  bconv_wf p ->
  packed filter (filter_pixels (geom_of p)) (channels_in p / groups p) ->
  0 < boc -> 0 < bd -> f_d p mod bd = 0 ->
  exists pw, PackWeights (mk_kern boc bpx bd p) filter = Some pw /\
    let CO := out_c p / groups p in
    let nblk := (CO + boc - 1) / boc in
    let nci := f_d p / bd in
    let fs := f_h p * f_w p in
    forall o fi d, 0 <= o < out_c p -> 0 <= fi < fs -> 0 <= d < f_d p ->
      (* group, block, tap, depth block, channel in block, depth in block *)
      rd pw ((((((o / CO) * nblk + o mod CO / boc) * fs + fi) * nci + d / bd) * boc + o mod CO mod boc) * bd
             + d mod bd)
      = rd filter ((o * fs + fi) * f_d p + d).
Proof. exact (fun WF Hf h1 h2 h3 => pack_weights_content boc bpx bd p WF filter Hf h1 h2 h3). Qed.
Print Assumptions C16_packed_weights.

Theorem C16_indirection_buffer boc bpx bd p :
  bconv_wf p -> 0 < bpx -> int32_indices p ->
  exists buf, FillIndirectionBuffer (mk_kern boc bpx bd p) p = Some buf /\
    forall b oy ox fy fx, 0 <= b < batches p -> 0 <= oy < out_h p -> 0 <= ox < out_w p ->
      0 <= fy < f_h p -> 0 <= fx < f_w p ->
      let pix := (b * out_h p + oy) * out_w p + ox in
      rd buf ((pix / bpx * (f_h p * f_w p) + (fy * f_w p + fx)) * bpx + pix mod bpx) =
      Some (let y := oy * s_h p - pad_h p + fy * dl_h p in
            let x := ox * s_w p - pad_w p + fx * dl_w p in
            if inside (geom_of p) y x then PIn (((b * in_h p + y) * in_w p + x) * in_d p) else PZero 0).
Proof. exact (fun WF h1 h2 => indirection_content boc bpx bd p WF h1 h2). Qed.
Print Assumptions C16_indirection_buffer.

(** ** The hypotheses are met by the grouped, dilated, strided example of
    Prop_Reference.v, whose 2x2 outputs and 2 channels per group leave both a
    partial channel block and (with [pe = 3]) a partial pixel block. *)
Example ex_int32 : int32_indices (ex_p 1).
Proof.
  split; [vm_compute; intuition congruence|].
  unfold ex_p; cbn [out_w f_w s_w dl_w pad_w]. intros ox fx Ho Hf. lia.
Qed.
Example ex_indirect :
  wp (indirect_bits (ex_p 1) ex_in ex_fl (run_bits ([96; 97; 90; 95] ++ [1; 2; 3])) (repeat 7 4))
     (fun o => exists w, nth_error o 1 = Some w /\ w <> 0) /\
  1 <= f_h (ex_p 1) /\ 1 <= f_w (ex_p 1) /\ 1 <= f_d (ex_p 1) /\ f_d (ex_p 1) mod 1 = 0.
Proof. vm_compute. repeat split; try congruence. eexists. split; [reflexivity|congruence]. Qed.
