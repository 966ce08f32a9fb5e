(** * Properties C38, C43: Prepare, and its agreement with the converter. *)
From Coq Require Import QArith.
From Verif Require Import Base Spec Bits Loop4 Bitpack Reference OutputTransform RefTheorems Padding
  Indirect IndirectBuf IndirectTop Log Bgemm BgemmProofs BgemmConv ZeroPad Prepare Lifecycle EndToEnd Check Prop_Lifecycle.
Open Scope Z_scope.

(** ** C38. If Prepare accepts a node with positive sizes whose input has the
    announced depth, then: groups divide the channels and the depths match
    ([bconv_wf]), the padding and the output size are TensorFlow's, the output has
    shape [batch, oh, ow, channels], the operands of the output transform have one
    element per channel, zero padding is used only where the kernel supports it,
    and the im2col buffer exists exactly when the BGEMM kernel uses it. *)
Theorem C38_prepare_sound kt a n r : Prepare kt a n = Some (Ok r) ->
  let ish := ti_dims (nd_in n) in let fsh := ti_dims (nd_filter n) in
  shapes_ok a ish fsh -> dim ish 3 = words (at_cin a) ->
  let p := params_of a r ish fsh (pr_out r) in
  bconv_wf p /\ prepared (at_pad a) p /\ (kt = KBgemm -> groups p = 1) /\
  pr_out r = [dim ish 0; out_size (at_pad a) (dim ish 1) (dim fsh 1) (at_sh a) (at_dh a);
              out_size (at_pad a) (dim ish 2) (dim fsh 2) (at_sw a) (at_dw a);
              if ttype_eqb (nd_out n) TInt32 then words (dim fsh 0) else dim fsh 0] /\
  (kt = KReference -> pad_same p && (pad_value p =? 0) = true -> (channels_in p / groups p) mod 2 = 0) /\
  (kt <> KReference -> pad_same p && (pad_value p =? 0) = true -> nd_out n = TFloat32 /\ at_act a = ActNone) /\
  (nd_out n = TInt32 -> ti_dims (nd_thr n) = [out_c p]) /\
  (nd_out n <> TInt32 -> ti_dims (nd_mul n) = [out_c p] /\ ti_dims (nd_bias n) = [out_c p]) /\
  (kt = KBgemm -> pr_im2col r =
     if negb (dl_w p =? 1) || negb (dl_h p =? 1) || (negb (s_w p =? 1) || negb (s_h p =? 1) || negb (f_w p =? 1) || negb (f_h p =? 1))
     then Some [batches p; out_h p; out_w p; im2col_k p] else None).
Proof. exact (prepare_sound kt a n r). Qed.
Print Assumptions C38_prepare_sound.

(** And then a first evaluation, with every kernel, makes no out-of-bounds access
    and returns the mathematical result in a tensor of the announced size. *)
Theorem C38_accepted_nodes_evaluate kt w ish r input S fb ib :
  world_ok kt w -> Prepare kt (wd_a w) (node_of w ish) = Some (Ok r) ->
  let p := params_of (wd_a w) r ish (ti_dims (wd_filter_t w)) (pr_out r) in
  call_ok kt w ish p input S ->
  (wd_out w = TFloat32 -> zlen fb = elements (pr_out r)) ->
  (wd_out w <> TFloat32 -> zlen ib = elements (pr_out r)) ->
  fresh kt w p input fb ib S (correct_output w p input).
Proof. exact (fun HW HP HC => fresh_correct kt w ish r input S HW HP HC fb ib). Qed.
Print Assumptions C38_accepted_nodes_evaluate.

(** What Prepare does not check. (1) The input's depth against channels_in: an
    accepted node whose evaluation reads outside the input. *)
Definition ex38_w (out : ttype) (pad : padding) (cin : Z) (mul : list Q) : world :=
  {| wd_a := {| at_sh := 1; at_sw := 1; at_dh := 1; at_dw := 1; at_pad := pad; at_pv := 0; at_cin := cin; at_act := ActNone |};
     wd_filter_t := {| ti_type := TInt32; ti_dims := [1; 1; 1; words cin] |}; wd_filter := repeat 0 (Z.to_nat (words cin));
     wd_mul_t := {| ti_type := TFloat32; ti_dims := [1] |}; wd_mul := mul;
     wd_bias_t := {| ti_type := TFloat32; ti_dims := [1] |}; wd_bias := [0%Q];
     wd_thr_t := {| ti_type := TInt32; ti_dims := [1] |}; wd_thr := [0; 0; 0; 0];
     wd_out := out; wd_affine := true; wd_scale := 1; wd_zp := 0 |}.
Theorem C38_input_depth_unchecked_refuted :
  exists w ish r input fb,
    world_ok KReference w /\
    Prepare KReference (wd_a w) (node_of w ish) = Some (Ok r) /\
    shapes_ok (wd_a w) ish (ti_dims (wd_filter_t w)) /\
    zlen input = elements ish /\ zlen fb = elements (pr_out r) /\ wd_out w = TFloat32 /\
    eval_ref_float (params_of (wd_a w) r ish (ti_dims (wd_filter_t w)) (pr_out r)) (at_act (wd_a w)) input
      (wd_filter w) (wd_mul w) (wd_bias w) fb = None.
Proof.
  exists (ex38_w TFloat32 PadValid 64 [1%Q]), [1; 1; 1; 1],
    (get_pr (Prepare KReference (wd_a (ex38_w TFloat32 PadValid 64 [1%Q])) (node_of (ex38_w TFloat32 PadValid 64 [1%Q]) [1; 1; 1; 1]))),
    [0], [0%Q].
  split.
  { unfold world_ok. do 10 (split; [vm_compute; discriminate|]).
    split; [|split; [split; reflexivity|intros _ _; reflexivity]].
    intros g Hg. vm_compute in Hg. injection Hg as <-. apply packedb_ok; [discriminate|vm_compute; reflexivity]. }
  split; [vm_compute; reflexivity|].
  split; [unfold shapes_ok; do 12 (split; [vm_compute; discriminate|]); right; split; [reflexivity|split; vm_compute; discriminate]|].
  split; [vm_compute; reflexivity|]. split; [vm_compute; reflexivity|]. split; [vm_compute; reflexivity|]. vm_compute. reflexivity.
Qed.
Print Assumptions C38_input_depth_unchecked_refuted.

(** (2) A filter of depth zero makes Prepare itself divide by zero. *)
Theorem C38_zero_filter_depth_refuted :
  exists kt a n, shapes_ok a (ti_dims (nd_in n)) [1; 1; 1; 1] /\ ti_dims (nd_filter n) = [1; 1; 1; 0] /\
    Prepare kt a n = None.
Proof.
  exists KReference, (wd_a (ex38_w TFloat32 PadValid 64 [1%Q])),
    {| nd_inputs := 5; nd_in := {| ti_type := TInt32; ti_dims := [1; 1; 1; 2] |};
       nd_filter := {| ti_type := TInt32; ti_dims := [1; 1; 1; 0] |};
       nd_mul := {| ti_type := TFloat32; ti_dims := [1] |}; nd_bias := {| ti_type := TFloat32; ti_dims := [1] |};
       nd_thr := {| ti_type := TInt32; ti_dims := [1] |}; nd_out := TFloat32; nd_affine := true; nd_dynamic := false |}.
  split; [unfold shapes_ok; do 12 (split; [vm_compute; discriminate|]); right; split; [reflexivity|split; vm_compute; discriminate]|].
  split; [reflexivity|]. vm_compute. reflexivity.
Qed.
Print Assumptions C38_zero_filter_depth_refuted.

(** (3) Bitpacked output with SAME-zero padding and no post-activation multiplier
    (which Prepare does not require for that type) is accepted by the reference
    kernel, whose first Eval then reads the missing multiplier. *)
Theorem C38_missing_multiplier_refuted :
  exists w es st, wd_out w = TInt32 /\ wd_mul w = [] /\
    run_events KReference w es init_state = Some st /\ st_ready st = true /\
    shapes_ok (wd_a w) (st_ish st) (ti_dims (wd_filter_t w)) /\ dim (st_ish st) 3 = words (at_cin (wd_a w)) /\
    zlen (st_input st) = elements (st_ish st) /\
    forall fb ib S Post, ~ Eval KReference w st fb ib S Post.
Proof.
  exists (ex38_w TInt32 PadSame 2 []), [EResize [1; 1; 1; 1]; EAllocate 0 no_prep; ESetInput [0]],
    (get_st (run_events KReference (ex38_w TInt32 PadSame 2 []) [EResize [1; 1; 1; 1]; EAllocate 0 no_prep; ESetInput [0]] init_state)).
  split; [reflexivity|]. split; [reflexivity|].
  split; [vm_compute; reflexivity|]. split; [vm_compute; reflexivity|].
  split; [unfold shapes_ok; do 12 (split; [vm_compute; discriminate|]); left; reflexivity|].
  split; [vm_compute; reflexivity|]. split; [vm_compute; reflexivity|].
  intros fb ib S Post H.
  assert (E : eval_od KReference (ex38_w TInt32 PadSame 2 [])
    (get_st (run_events KReference (ex38_w TInt32 PadSame 2 []) [EResize [1; 1; 1; 1]; EAllocate 0 no_prep; ESetInput [0]] init_state)) = None)
    by (vm_compute; reflexivity).
  unfold Eval in H. rewrite E in H. exact H.
Qed.
Print Assumptions C38_missing_multiplier_refuted.

(** ** C43. When the converter's filter-shape check passes for [total] input
    channels and a filter with [ci] input channels per group (and the output
    channels are divisible, as TensorFlow requires), the runtime infers exactly
    [total / ci] groups from the bitpacked filter depth; the BGEMM kernel rejects
    more than one group. *)
Theorem C43_groups_agree kt total ci oc : 1 <= total -> 1 <= ci -> 1 <= oc ->
  HasValidFilterShape total ci = Some true -> oc mod (total / ci) = 0 ->
  infer_groups kt total oc (words ci) =
    Some (match kt with KBgemm => if total / ci =? 1 then Ok 1 else Rejected | _ => Ok (total / ci) end).
Proof. exact (groups_agree kt total ci oc). Qed.
Print Assumptions C43_groups_agree.
(** Conversely, whatever number of groups the runtime accepts divides the channels
    into groups whose packed depth is the filter's. *)
Theorem C43_inferred_groups_consistent kt cin oc fd g : 1 <= cin -> 1 <= oc -> 1 <= fd ->
  infer_groups kt cin oc fd = Some (Ok g) ->
  1 <= g /\ cin = g * (cin / g) /\ oc = g * (oc / g) /\ fd = words (cin / g) /\ (g = 1 \/ (cin / g) mod 32 = 0).
Proof.
  exact (fun H1 H2 H3 H => match infer_groups_ok kt cin oc fd g H1 H2 H3 H with
    conj A (conj B (conj C (conj D (conj E _)))) => conj A (conj B (conj C (conj D E))) end).
Qed.
Print Assumptions C43_inferred_groups_consistent.
Example ex43 : HasValidFilterShape 128 32 = Some true /\ 8 mod (128 / 32) = 0 /\
  infer_groups KReference 128 8 (words 32) = Some (Ok 4) /\ HasValidFilterShape 96 48 = Some false /\
  HasValidFilterShape 64 0 = None.
Proof. vm_compute. repeat split; reflexivity. Qed.

(** Non-vacuity of C38: a grouped node with SAME-zero padding, accepted by the
    reference and the indirect kernel, meets every hypothesis. *)
Definition ex38_g : world :=
  {| wd_a := {| at_sh := 1; at_sw := 1; at_dh := 1; at_dw := 1; at_pad := PadSame; at_pv := 0; at_cin := 64; at_act := ActNone |};
     wd_filter_t := {| ti_type := TInt32; ti_dims := [2; 1; 2; 1] |}; wd_filter := [1; 2; 3; 4];
     wd_mul_t := {| ti_type := TFloat32; ti_dims := [2] |}; wd_mul := [1%Q; (1 # 2)%Q];
     wd_bias_t := {| ti_type := TFloat32; ti_dims := [2] |}; wd_bias := [0%Q; 3%Q];
     wd_thr_t := {| ti_type := TOther; ti_dims := [] |}; wd_thr := [];
     wd_out := TFloat32; wd_affine := true; wd_scale := 1; wd_zp := 0 |}.
Example ex38_world kt : kt <> KBgemm -> world_ok kt ex38_g.
Proof.
  intros HK. unfold world_ok. do 10 (split; [vm_compute; discriminate|]).
  split; [|split; [split; reflexivity|intros _ _; reflexivity]].
  intros g Hg. destruct kt; [|congruence|]; vm_compute in Hg; injection Hg as <-; (apply packedb_ok; [discriminate|vm_compute; reflexivity]).
Qed.
Example ex38_call kt : kt <> KBgemm -> exists r, Prepare kt (wd_a ex38_g) (node_of ex38_g [1; 2; 3; 2]) = Some (Ok r) /\
  elements (pr_out r) = 12 /\
  call_ok kt ex38_g [1; 2; 3; 2] (params_of (wd_a ex38_g) r [1; 2; 3; 2] [2; 1; 2; 1] (pr_out r))
    [1; 2; 3; 4; 5; 6; 7; 8; 9; 10; 11; 12] ex29_S.
Proof.
  intros HK. exists (get_pr (Prepare kt (wd_a ex38_g) (node_of ex38_g [1; 2; 3; 2]))).
  assert (E : Prepare kt (wd_a ex38_g) (node_of ex38_g [1; 2; 3; 2]) =
              Some (Ok {| pr_oc := 2; pr_fh := 1; pr_fw := 2; pr_groups := 2; pr_padh := 0; pr_padw := 0;
                          pr_out := [1; 2; 3; 2]; pr_im2col := None |}))
    by (destruct kt; [|congruence|]; vm_compute; reflexivity).
  rewrite E. cbn [get_pr]. split; [reflexivity|]. split; [reflexivity|].
  constructor.
  - unfold shapes_ok; do 12 (split; [vm_compute; discriminate|]); left; reflexivity.
  - reflexivity.
  - apply packedb_ok; [discriminate|vm_compute; reflexivity].
  - vm_compute. reflexivity.
  - left. reflexivity.
  - discriminate.
  - reflexivity.
  - congruence.
  - intros _. split; [split; [vm_compute; discriminate|vm_compute; reflexivity]|].
    intros ox fx Ho Hf. change (0 <= ox < 3) in Ho. change (0 <= fx < 2) in Hf.
    change (- 2 ^ 31 <= ox * 1 + fx * 1 - 0 < 2 ^ 31). lia.
  - intros _ _ _. split; vm_compute; discriminate.
Qed.
