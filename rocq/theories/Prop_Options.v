(** * Property C27: operator options, converter to runtime. *)
From Coq Require Import String.
From Verif Require Import Base Spec Padding MaxPool Prepare Options.
Open Scope string_scope.
Open Scope Z_scope.

(** Every attribute set the dialect verifies, with one of the four activations the
    runtime knows: the options are written; the runtime reads back the same
    values, or reports an error when pad_values is neither 0 nor 1; the
    translator reads back the same operation. *)
Theorem C27_bconv_round_trip o :
  bconv_verifies o -> bo_act o <> "TANH" -> bo_act o <> "SIGN_BIT" ->
  exists m, bconv_options o = Some m /\
    translate_bconv m = Some o /\
    (bo_pv o = 0 \/ bo_pv o = 1 ->
     exists a, bconv_init m = Some a /\
      at_sh a = bo_sh o /\ at_sw a = bo_sw o /\ at_dh a = bo_dh o /\ at_dw a = bo_dw o /\ at_cin a = bo_cin o /\
      at_pv a = bo_pv o /\ pad_means (bo_pad o) (at_pad a) /\ act_means (bo_act o) (at_act a)) /\
    (bo_pv o <> 0 -> bo_pv o <> 1 -> bconv_init m = None).
Proof. exact (bconv_round_trip o). Qed.
Print Assumptions C27_bconv_round_trip.

(** The verifier also accepts "TANH" and "SIGN_BIT", for which no options can be
    written (the string switch falls off its end). *)
Theorem C27_bconv_tanh_refuted : exists o, bconv_verifies o /\ bo_act o = "TANH" /\ bconv_options o = None.
Proof.
  exists {| bo_cin := 64; bo_dh := 1; bo_dw := 1; bo_act := "TANH"; bo_pv := 0; bo_pad := "SAME"; bo_sh := 1; bo_sw := 1 |}.
  split; [|split; reflexivity]. unfold bconv_verifies, i32, act_attr, pad_attr. cbn. intuition (auto; lia).
Qed.
Print Assumptions C27_bconv_tanh_refuted.

(** For any option map whatsoever (any subset of keys, any values): Init succeeds
    iff all eight keys are present and pad_values is 0 or 1 ... *)
Theorem C27_bconv_init_succeeds_iff m :
  (exists a, bconv_init m = Some a) <->
  (forall k, In k ["channels_in"; "dilation_height_factor"; "dilation_width_factor"; "fused_activation_function";
                   "pad_values"; "padding"; "stride_height"; "stride_width"] -> fx_null (get m k) = false) /\
  (AsInt32 (get m "pad_values") = 0 \/ AsInt32 (get m "pad_values") = 1).
Proof.
  rewrite bconv_init_iff. unfold bconv_keys. cbn [In].
  split; (intros [H H2]; split; [|exact H2]; intros k Hk; apply H; tauto).
Qed.
Print Assumptions C27_bconv_init_succeeds_iff.
(** ... and otherwise Prepare returns an error, whatever the kernel and tensors. *)
Theorem C27_bconv_bad_options_rejected kt m n : bconv_init m = None -> bconv_load kt m n = Some Rejected.
Proof. exact (bconv_load_rejects kt m n). Qed.
Print Assumptions C27_bconv_bad_options_rejected.

(** In particular an option that was never written is an error. *)
Theorem C27_bconv_missing_option_rejected kt m n k :
  In k ["channels_in"; "dilation_height_factor"; "dilation_width_factor"; "fused_activation_function";
        "pad_values"; "padding"; "stride_height"; "stride_width"] ->
  ~ In k (map fst m) -> bconv_load kt m n = Some Rejected.
Proof.
  intros Hk Hm. apply C27_bconv_bad_options_rejected. destruct (bconv_init m) as [a|] eqn:E; [|reflexivity]. exfalso.
  destruct (proj1 (C27_bconv_init_succeeds_iff m) (ex_intro _ a E)) as [H _]. specialize (H k Hk).
  assert (G : fx_null (get m k) = true); [|congruence]. clear - Hm.
  induction m as [|[k' v] m IH]; [reflexivity|]. cbn [get]. destruct (String.eqb_spec k k') as [->|_]; [destruct Hm; left; reflexivity|].
  apply IH. intros H. apply Hm. right. exact H.
Qed.
Print Assumptions C27_bconv_missing_option_rejected.

(** Every verified BMaxPool2d. *)
Theorem C27_bmaxpool_round_trip o : bpool_verifies o ->
  exists m, bpool_options o = Some m /\ translate_bpool m = Some o /\
    pa_fh (bpool_init m) = po_fh o /\ pa_fw (bpool_init m) = po_fw o /\
    pa_sh (bpool_init m) = po_sh o /\ pa_sw (bpool_init m) = po_sw o /\
    pad_means (po_pad o) (pa_pad (bpool_init m)).
Proof. exact (bpool_round_trip o). Qed.
Print Assumptions C27_bmaxpool_round_trip.

(** The runtime prepares the pool with the operator's filter, strides and padding. *)
Theorem C27_bmaxpool_prepared o b h w d : bpool_verifies o -> po_fh o <> 0 -> po_fw o <> 0 -> po_sh o <> 0 -> po_sw o <> 0 ->
  exists m p pad, bpool_options o = Some m /\ bpool_load m b h w d = Some p /\ pad_means (po_pad o) pad /\
    mb p = b /\ mh p = h /\ mw p = w /\ md p = d /\ mfh p = po_fh o /\ mfw p = po_fw o /\ msh p = po_sh o /\ msw p = po_sw o /\
    (moh p, mph p) = padding1D pad h (po_fh o) (po_sh o) 1 /\ (mow p, mpw p) = padding1D pad w (po_fw o) (po_sw o) 1.
Proof.
  intros V H1 H2 H3 H4. destruct (bpool_round_trip o V) as (m & E & _ & F1 & F2 & F3 & F4 & F5).
  exists m. unfold bpool_load, pool_prepare. rewrite F1, F2, F3, F4.
  destruct (Z.eqb_spec (po_sh o) 0) as [?|_]; [contradiction|]. destruct (Z.eqb_spec (po_sw o) 0) as [?|_]; [contradiction|].
  destruct (Z.eqb_spec (po_fh o) 0) as [?|_]; [contradiction|]. destruct (Z.eqb_spec (po_fw o) 0) as [?|_]; [contradiction|]. cbn [orb].
  destruct (padding1D _ h _ _ _) as [oh ph] eqn:Eh. destruct (padding1D _ w _ _ _) as [ow pw] eqn:Ew. eexists. exists (pa_pad (bpool_init m)).
  split; [exact E|]. split; [reflexivity|]. split; [exact F5|]. cbn [mb mh mw md mfh mfw msh msw moh mph mow mpw]. rewrite Eh, Ew. repeat split.
Qed.
Print Assumptions C27_bmaxpool_prepared.

Theorem C27_bmaxpool_missing_size_rejected m k b h w d :
  In k ["filter_height"; "filter_width"; "stride_height"; "stride_width"] ->
  get m k = null_ref -> bpool_load m b h w d = None.
Proof. exact (bpool_missing m k b h w d). Qed.
Print Assumptions C27_bmaxpool_missing_size_rejected.

(** But a missing "padding" is not reported: it silently means SAME. *)
Theorem C27_bmaxpool_missing_padding_refuted :
  exists m, get m "padding" = null_ref /\ pa_pad (bpool_init m) = PadSame /\
    exists p, bpool_load m 1 5 5 1 = Some p /\ moh p = 3.
Proof.
  exists [("stride_width", put_u32 2); ("stride_height", put_u32 2); ("filter_width", put_u32 2); ("filter_height", put_u32 2)].
  split; [reflexivity|]. split; [reflexivity|]. eexists. split; [vm_compute; reflexivity|reflexivity].
Qed.
Print Assumptions C27_bmaxpool_missing_padding_refuted.

Example C27_case :
  let o := {| bo_cin := 100; bo_dh := 2; bo_dw := 3; bo_act := "RELU6"; bo_pv := 1; bo_pad := "VALID"; bo_sh := 4; bo_sw := 5 |} in
  bconv_verifies o /\ bo_act o <> "TANH" /\ bo_act o <> "SIGN_BIT" /\
  (let* m := bconv_options o in bconv_init m) =
    Some {| at_sh := 4; at_sw := 5; at_dh := 2; at_dw := 3; at_pad := PadValid; at_pv := 1; at_cin := 100; at_act := ActRelu6 |}.
Proof.
  cbv zeta. split; [unfold bconv_verifies, i32, act_attr, pad_attr; cbn; intuition (auto; lia)|].
  split; [discriminate|]. split; [discriminate|]. vm_compute. reflexivity.
Qed.
(** A negative attribute survives the unsigned accessor. *)
Example C27_negative_case :
  let o := {| po_pad := "SAME"; po_sw := -3; po_sh := 2; po_fw := 2; po_fh := 2 |} in
  (let* m := bpool_options o in Some (pa_sw (bpool_init m))) = Some (-3).
Proof. vm_compute. reflexivity. Qed.
