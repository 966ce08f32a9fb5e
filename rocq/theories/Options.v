(** * Options: the operator options written by the converter
    (mlir/ir/lce_ops.cc 11-63), read by the runtime (tflite/kernels/bconv2d.cc
    84-131, bmaxpool.cc 20-33, utils.h) and read back by the translator
    (mlir/transforms/translate_tflite.cc 8-78). *)
From Coq Require Import String.
From Verif Require Import Base Spec Padding MaxPool Prepare.
Open Scope string_scope.
Open Scope Z_scope.

(** A flexbuffers map (external library): keys to references. A missing key gives
    a null reference; [fx_int] is the 64-bit integer read from the reference (0
    for a null one). *)
Record fref := { fx_null : bool; fx_int : Z }.
Definition fmap := list (string * fref).
Definition null_ref : fref := {| fx_null := true; fx_int := 0 |}.
Fixpoint get (m : fmap) (k : string) : fref :=
  match m with [] => null_ref | (k', v) :: m' => if String.eqb k k' then v else get m' k end.
(** Two's complement conversions: AsInt32 of an int64; an I32Attr's accessor
    returns uint32_t, which [fbb.Int] takes as int64. *)
Definition wrap32 (z : Z) : Z := (z + 2 ^ 31) mod 2 ^ 32 - 2 ^ 31.
Definition AsInt32 (r : fref) : Z := wrap32 (fx_int r).
Definition put_u32 (z : Z) : fref := {| fx_null := false; fx_int := z mod 2 ^ 32 |}.
Definition put_enum (z : Z) : fref := {| fx_null := false; fx_int := z |}.

(** ** Converter *)
(** Attributes of lq.Bconv2d and lq.BMaxPool2d (lce_ops.td 124-186). *)
Record bconv_op := {
  bo_cin : Z; bo_dh : Z; bo_dw : Z; bo_act : string; bo_pv : Z; bo_pad : string; bo_sh : Z; bo_sw : Z }.
Record bpool_op := { po_pad : string; po_sw : Z; po_sh : Z; po_fw : Z; po_fh : Z }.
(** The dialect's verifier: TFL_PaddingAttr, TFL_AFAttr, I32Attr. *)
Definition i32 (z : Z) : Prop := - 2 ^ 31 <= z < 2 ^ 31.
Definition pad_attr (s : string) : Prop := s = "SAME" \/ s = "VALID".
Definition act_attr (s : string) : Prop :=
  s = "NONE" \/ s = "RELU" \/ s = "RELU_N1_TO_1" \/ s = "RELU6" \/ s = "TANH" \/ s = "SIGN_BIT".
Definition bconv_verifies (o : bconv_op) : Prop :=
  i32 (bo_cin o) /\ i32 (bo_dh o) /\ i32 (bo_dw o) /\ act_attr (bo_act o) /\ i32 (bo_pv o) /\ pad_attr (bo_pad o) /\
  i32 (bo_sh o) /\ i32 (bo_sw o).
Definition bpool_verifies (o : bpool_op) : Prop :=
  pad_attr (po_pad o) /\ i32 (po_sw o) /\ i32 (po_sh o) /\ i32 (po_fw o) /\ i32 (po_fh o).

(** lce_ops.cc 12-16 and 18-25: a StringSwitch that matches nothing has no result
    ([None]). The numbers are the enums of TFLite's schema. *)
Definition ConvertPaddingAttr (s : string) : option Z :=
  if String.eqb s "SAME" then Some 0 else if String.eqb s "VALID" then Some 1 else None.
Definition ConvertActivationAttr (s : string) : option Z :=
  if String.eqb s "NONE" then Some 0 else if String.eqb s "RELU" then Some 1
  else if String.eqb s "RELU_N1_TO_1" then Some 2 else if String.eqb s "RELU6" then Some 3 else None.
(** lce_ops.cc 36-51 *)
Definition bconv_options (o : bconv_op) : option fmap :=
  let* act := ConvertActivationAttr (bo_act o) in
  let* pad := ConvertPaddingAttr (bo_pad o) in
  Some [("channels_in", put_u32 (bo_cin o)); ("dilation_height_factor", put_u32 (bo_dh o));
        ("dilation_width_factor", put_u32 (bo_dw o)); ("fused_activation_function", put_enum act);
        ("pad_values", put_u32 (bo_pv o)); ("padding", put_enum pad);
        ("stride_height", put_u32 (bo_sh o)); ("stride_width", put_u32 (bo_sw o))].
(** lce_ops.cc 53-64 *)
Definition bpool_options (o : bpool_op) : option fmap :=
  let* pad := ConvertPaddingAttr (po_pad o) in
  Some [("padding", put_enum pad); ("stride_width", put_u32 (po_sw o)); ("stride_height", put_u32 (po_sh o));
        ("filter_width", put_u32 (po_fw o)); ("filter_height", put_u32 (po_fh o))].

(** ** Runtime *)
(** utils.h 10-24 *)
Definition ConvertActivation (a : Z) : activation :=
  if a =? 0 then ActNone else if a =? 1 then ActRelu else if a =? 2 then ActReluN1To1 else if a =? 3 then ActRelu6 else ActNone.
(** utils.h 27-35 *)
Definition ConvertPadding (p : Z) : padding := if p =? 0 then PadSame else if p =? 1 then PadValid else PadUnknown.
(** bconv2d.cc 94-101 *)
Definition bconv_keys : list string :=
  ["stride_height"; "stride_width"; "dilation_height_factor"; "dilation_width_factor"; "padding"; "pad_values";
   "channels_in"; "fused_activation_function"].
(** bconv2d.cc 84-131 Init: [None] when it returns with successfully_initialized
    still false (Prepare then fails, bconv2d.cc 143-146). *)
Definition bconv_init (m : fmap) : option attrs :=
  if forallb (fun k => negb (fx_null (get m k))) bconv_keys then
    let pv := AsInt32 (get m "pad_values") in
    if negb (pv =? 0) && negb (pv =? 1) then None
    else Some {| at_sh := AsInt32 (get m "stride_height"); at_sw := AsInt32 (get m "stride_width");
                 at_dh := AsInt32 (get m "dilation_height_factor"); at_dw := AsInt32 (get m "dilation_width_factor");
                 at_pad := ConvertPadding (AsInt32 (get m "padding")); at_pv := pv;
                 at_cin := AsInt32 (get m "channels_in");
                 at_act := ConvertActivation (AsInt32 (get m "fused_activation_function")) |}
  else None.
(** bconv2d.cc 138-146 then Prepare.v. *)
Definition bconv_load (kt : kernel_type) (m : fmap) (n : node) : option (outcome prep) :=
  match bconv_init m with None => Some Rejected | Some a => Prepare kt a n end.
(** bmaxpool.cc 20-33 *)
Record pool_attrs := { pa_fh : Z; pa_fw : Z; pa_sh : Z; pa_sw : Z; pa_pad : padding }.
Definition bpool_init (m : fmap) : pool_attrs :=
  {| pa_fh := AsInt32 (get m "filter_height"); pa_fw := AsInt32 (get m "filter_width");
     pa_sh := AsInt32 (get m "stride_height"); pa_sw := AsInt32 (get m "stride_width");
     pa_pad := ConvertPadding (AsInt32 (get m "padding")) |}.
Definition bpool_load (m : fmap) (b h w d : Z) : option mpool :=
  let a := bpool_init m in pool_prepare (pa_pad a) b h w d (pa_fh a) (pa_fw a) (pa_sh a) (pa_sw a).

(** ** Translator *)
(** translate_tflite.cc 8-20: no return statement for other values ([None]). *)
Definition UnconvertActivation (a : Z) : option string :=
  if a =? 0 then Some "NONE" else if a =? 1 then Some "RELU" else if a =? 2 then Some "RELU_N1_TO_1"
  else if a =? 3 then Some "RELU6" else None.
Definition UnconvertPadding (p : Z) : option string := if p =? 0 then Some "SAME" else if p =? 1 then Some "VALID" else None.
(** translate_tflite.cc 57-78 *)
Definition translate_bconv (m : fmap) : option bconv_op :=
  let* act := UnconvertActivation (AsInt32 (get m "fused_activation_function")) in
  let* pad := UnconvertPadding (AsInt32 (get m "padding")) in
  Some {| bo_cin := AsInt32 (get m "channels_in"); bo_dh := AsInt32 (get m "dilation_height_factor");
          bo_dw := AsInt32 (get m "dilation_width_factor"); bo_act := act; bo_pv := AsInt32 (get m "pad_values");
          bo_pad := pad; bo_sh := AsInt32 (get m "stride_height"); bo_sw := AsInt32 (get m "stride_width") |}.
(** translate_tflite.cc 46-56 *)
Definition translate_bpool (m : fmap) : option bpool_op :=
  let* pad := UnconvertPadding (AsInt32 (get m "padding")) in
  Some {| po_pad := pad; po_sw := AsInt32 (get m "stride_width"); po_sh := AsInt32 (get m "stride_height");
          po_fw := AsInt32 (get m "filter_width"); po_fh := AsInt32 (get m "filter_height") |}.

(** ** Proofs *)
Lemma AsInt32_put z : i32 z -> AsInt32 (put_u32 z) = z.
Proof. intros H. unfold AsInt32, put_u32, wrap32, i32 in *. cbn [fx_int]. lia. Qed.

(** What the strings mean, independently of both sides. *)
Definition pad_means (s : string) (p : padding) : Prop := (s = "SAME" /\ p = PadSame) \/ (s = "VALID" /\ p = PadValid).
Definition act_means (s : string) (a : activation) : Prop :=
  (s = "NONE" /\ a = ActNone) \/ (s = "RELU" /\ a = ActRelu) \/ (s = "RELU_N1_TO_1" /\ a = ActReluN1To1) \/ (s = "RELU6" /\ a = ActRelu6).

Lemma bconv_round_trip o : bconv_verifies o -> bo_act o <> "TANH" -> bo_act o <> "SIGN_BIT" ->
  exists m, bconv_options o = Some m /\
    translate_bconv m = Some o /\
    (bo_pv o = 0 \/ bo_pv o = 1 ->
     exists a, bconv_init m = Some a /\
      at_sh a = bo_sh o /\ at_sw a = bo_sw o /\ at_dh a = bo_dh o /\ at_dw a = bo_dw o /\ at_cin a = bo_cin o /\
      at_pv a = bo_pv o /\ pad_means (bo_pad o) (at_pad a) /\ act_means (bo_act o) (at_act a)) /\
    (bo_pv o <> 0 -> bo_pv o <> 1 -> bconv_init m = None).
Proof.
  destruct o as [cin dh dw act pv pad sh sw]. cbn [bo_cin bo_dh bo_dw bo_act bo_pv bo_pad bo_sh bo_sw].
  intros (H1 & H2 & H3 & H4 & H5 & H6 & H7 & H8) Ht Hs. cbn [bo_cin bo_dh bo_dw bo_act bo_pv bo_pad bo_sh bo_sw] in *.
  assert (Ha : exists ka, ConvertActivationAttr act = Some ka /\ UnconvertActivation (wrap32 ka) = Some act /\ act_means act (ConvertActivation (wrap32 ka))).
  { unfold act_means. destruct H4 as [-> | [-> | [-> | [-> | [-> | ->]]]]]; [| | | |exfalso; apply Ht; reflexivity|exfalso; apply Hs; reflexivity];
      eexists; (split; [reflexivity|]); (split; [reflexivity|]).
    - left; split; reflexivity.
    - right; left; split; reflexivity.
    - right; right; left; split; reflexivity.
    - right; right; right; split; reflexivity. }
  assert (Hp : exists kp, ConvertPaddingAttr pad = Some kp /\ UnconvertPadding (wrap32 kp) = Some pad /\ pad_means pad (ConvertPadding (wrap32 kp))).
  { unfold pad_means. destruct H6 as [-> | ->]; eexists; (split; [reflexivity|]); (split; [reflexivity|]); cbn; auto. }
  destruct Ha as (ka & Ea & Ua & Ma). destruct Hp as (kp & Ep & Up & Mp).
  unfold bconv_options. cbn [bo_cin bo_dh bo_dw bo_act bo_pv bo_pad bo_sh bo_sw]. rewrite Ea, Ep. cbn [bind].
  eexists. split; [reflexivity|].
  pose proof (AsInt32_put cin H1) as E1. pose proof (AsInt32_put dh H2) as E2. pose proof (AsInt32_put dw H3) as E3.
  pose proof (AsInt32_put pv H5) as E5. pose proof (AsInt32_put sh H7) as E7. pose proof (AsInt32_put sw H8) as E8.
  unfold translate_bconv, bconv_init, bconv_keys. cbn [get String.eqb Ascii.eqb Bool.eqb forallb].
  change (AsInt32 (put_enum ka)) with (wrap32 ka). change (AsInt32 (put_enum kp)) with (wrap32 kp).
  rewrite Ua, Up, E1, E2, E3, E5, E7, E8. cbn [bind]. split; [reflexivity|].
  cbn [fx_null put_u32 put_enum negb andb]. split.
  - intros Hpv. replace (negb (pv =? 0) && negb (pv =? 1)) with false by lia. eexists. split; [reflexivity|].
    cbn. auto 10.
  - intros P0 P1. replace (negb (pv =? 0) && negb (pv =? 1)) with true by lia. reflexivity.
Qed.

Lemma bconv_init_iff m : (exists a, bconv_init m = Some a) <->
  (forall k, In k bconv_keys -> fx_null (get m k) = false) /\ (AsInt32 (get m "pad_values") = 0 \/ AsInt32 (get m "pad_values") = 1).
Proof.
  unfold bconv_init. destruct (forallb (fun k => negb (fx_null (get m k))) bconv_keys) eqn:E.
  - rewrite forallb_forall in E. split.
    + intros [a Ha]. split; [intros k Hk; apply negb_true_iff, E, Hk|].
      destruct (negb (AsInt32 (get m "pad_values") =? 0) && negb (AsInt32 (get m "pad_values") =? 1)) eqn:E2; [discriminate|]. lia.
    + intros [_ H]. replace (negb (AsInt32 (get m "pad_values") =? 0) && negb (AsInt32 (get m "pad_values") =? 1)) with false by lia. eauto.
  - split; [intros [a Ha]; discriminate|]. intros [H _]. exfalso.
    assert (forallb (fun k => negb (fx_null (get m k))) bconv_keys = true); [|congruence].
    apply forallb_forall. intros k Hk. rewrite (H k Hk). reflexivity.
Qed.
(** A failed Init is reported by Prepare, whatever the tensors. *)
Lemma bconv_load_rejects kt m n : bconv_init m = None -> bconv_load kt m n = Some Rejected.
Proof. intros H. unfold bconv_load. rewrite H. reflexivity. Qed.

Lemma bpool_round_trip o : bpool_verifies o ->
  exists m, bpool_options o = Some m /\ translate_bpool m = Some o /\
    pa_fh (bpool_init m) = po_fh o /\ pa_fw (bpool_init m) = po_fw o /\ pa_sh (bpool_init m) = po_sh o /\ pa_sw (bpool_init m) = po_sw o /\
    pad_means (po_pad o) (pa_pad (bpool_init m)).
Proof.
  destruct o as [pad sw sh fw fh]. intros (H1 & H2 & H3 & H4 & H5). cbn [po_pad po_sw po_sh po_fw po_fh] in *.
  assert (Hp : exists kp, ConvertPaddingAttr pad = Some kp /\ UnconvertPadding (wrap32 kp) = Some pad /\ pad_means pad (ConvertPadding (wrap32 kp))).
  { unfold pad_means. destruct H1 as [-> | ->]; eexists; (split; [reflexivity|]); (split; [reflexivity|]); cbn; auto. }
  destruct Hp as (kp & Ep & Up & Mp). unfold bpool_options. cbn [po_pad po_sw po_sh po_fw po_fh]. rewrite Ep. cbn [bind].
  eexists. split; [reflexivity|].
  pose proof (AsInt32_put sw H2) as E2. pose proof (AsInt32_put sh H3) as E3. pose proof (AsInt32_put fw H4) as E4. pose proof (AsInt32_put fh H5) as E5.
  unfold translate_bpool, bpool_init. cbn [get String.eqb Ascii.eqb Bool.eqb pa_fh pa_fw pa_sh pa_sw pa_pad].
  change (AsInt32 (put_enum kp)) with (wrap32 kp). rewrite Up, E2, E3, E4, E5. cbn [bind]. auto 10.
Qed.
(** Missing strides or filter sizes are rejected by Prepare. *)
Lemma bpool_missing m k b h w d : In k ["filter_height"; "filter_width"; "stride_height"; "stride_width"] ->
  get m k = null_ref -> bpool_load m b h w d = None.
Proof.
  intros Hk Hn. unfold bpool_load, bpool_init, pool_prepare. cbn [pa_fh pa_fw pa_sh pa_sw pa_pad].
  assert (E : AsInt32 (get m k) = 0) by (rewrite Hn; reflexivity).
  cbn [In] in Hk. destruct Hk as [<- | [<- | [<- | [<- | []]]]]; rewrite E; cbn [Z.eqb]; rewrite ?orb_true_r; reflexivity.
Qed.
