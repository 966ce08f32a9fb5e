(** * Prepare: model of Prepare<kernel_type> (tflite/kernels/bconv2d.cc 138-305),
    and of the converter's group check (mlir/transforms/prepare_tf.cc 117-147). *)
From Verif Require Import Base Spec Bits Bitpack Reference Padding BgemmConv.
Open Scope Z_scope.

(** bconv2d.cc 31-40 *)
Inductive kernel_type := KReference | KBgemm | KIndirect.
(** TfLiteType *)
Inductive ttype := TInt32 | TInt8 | TFloat32 | TOther.
Definition ttype_eqb (a b : ttype) : bool :=
  match a, b with TInt32, TInt32 | TInt8, TInt8 | TFloat32, TFloat32 | TOther, TOther => true | _, _ => false end.
Record tinfo := { ti_type : ttype; ti_dims : list Z }.
(** What Init stores in OpData (bconv2d.cc 101-130). *)
Record attrs := {
  at_sh : Z; at_sw : Z; at_dh : Z; at_dw : Z; at_pad : padding; at_pv : Z; at_cin : Z; at_act : activation }.
(** What Prepare looks at: number of inputs, the tensors, the output type, whether
    its quantisation is affine, whether the input is dynamically allocated. *)
Record node := {
  nd_inputs : Z; nd_in : tinfo; nd_filter : tinfo; nd_mul : tinfo; nd_bias : tinfo; nd_thr : tinfo;
  nd_out : ttype; nd_affine : bool; nd_dynamic : bool }.
(** What Prepare stores: params fields, the output shape, the im2col shape. *)
Record prep := {
  pr_oc : Z; pr_fh : Z; pr_fw : Z; pr_groups : Z; pr_padh : Z; pr_padw : Z;
  pr_out : list Z; pr_im2col : option (list Z) }.
Inductive outcome (A : Type) := Ok (a : A) | Rejected.
Arguments Ok {A}. Arguments Rejected {A}.

(** TF_LITE_ENSURE*: return kTfLiteError. *)
Definition ensure {A} (b : bool) (k : option (outcome A)) : option (outcome A) := if b then k else Some Rejected.
Definition rank (t : tinfo) : Z := zlen (ti_dims t).

(** bconv2d.cc 170-190. C division by zero is undefined ([None]). *)
Definition infer_groups (kt : kernel_type) (cin oc fd : Z) : option (outcome Z) :=
  let packed := GetBitpackedSize cin in
  if fd =? packed then Some (Ok 1)
  else
    ensure (match kt with KBgemm => false | _ => true end) (
    let* r := cmod packed fd in
    ensure (r =? 0) (
    let* groups := cdiv packed fd in
    let* group_size := cdiv cin groups in
    ensure (Z.rem group_size 32 =? 0) (
    let* r := cmod oc groups in
    ensure (r =? 0) (Some (Ok groups))))).

(** bconv2d.cc 192-204 *)
Definition zero_pad_guard (kt : kernel_type) (a : attrs) (out : ttype) : bool :=
  match at_pad a with
  | PadSame => if at_pv a =? 0 then
      match kt with
      | KReference => Z.rem (at_cin a) 2 =? 0
      | _ => ttype_eqb out TFloat32 && match at_act a with ActNone => true | _ => false end
      end else true
  | _ => true
  end.

(** bconv2d.cc 256-262 *)
Definition need_im2col (kt : kernel_type) (a : attrs) (fh fw : Z) : bool :=
  match kt with KBgemm => true | _ => false end &&
  (negb (at_sw a =? 1) || negb (at_sh a =? 1) || negb (at_dw a =? 1) || negb (at_dh a =? 1) ||
   negb (fw =? 1) || negb (fh =? 1)).

(** bconv2d.cc 138-305, after a successful Init. ResizeTensor and AddTensors are
    assumed to succeed. *)
Definition Prepare (kt : kernel_type) (a : attrs) (n : node) : option (outcome prep) :=
  ensure (nd_inputs n =? 5) (
  ensure (rank (nd_in n) =? 4) (ensure (rank (nd_filter n) =? 4) (
  ensure (ttype_eqb (ti_type (nd_in n)) TInt32) (ensure (ttype_eqb (ti_type (nd_filter n)) TInt32) (
  ensure (ttype_eqb (nd_out n) TInt32 || ttype_eqb (nd_out n) TInt8 || ttype_eqb (nd_out n) TFloat32) (
  let* oc := rd (ti_dims (nd_filter n)) 0 in
  let* fh := rd (ti_dims (nd_filter n)) 1 in
  let* fw := rd (ti_dims (nd_filter n)) 2 in
  let* fd := rd (ti_dims (nd_filter n)) 3 in
  let* g := infer_groups kt (at_cin a) oc fd in
  match g with Rejected => Some Rejected | Ok groups =>
  ensure (zero_pad_guard kt a (nd_out n)) (
  let* ih := rd (ti_dims (nd_in n)) 1 in
  let* iw := rd (ti_dims (nd_in n)) 2 in
  let '(out_h, pad_h) := padding1D (at_pad a) ih fh (at_sh a) (at_dh a) in
  let '(out_w, pad_w) := padding1D (at_pad a) iw fw (at_sw a) (at_dw a) in
  ensure (if ttype_eqb (nd_out n) TInt32 then
            (rank (nd_thr n) =? 1) && ttype_eqb (ti_type (nd_thr n)) TInt32
            && match rd (ti_dims (nd_thr n)) 0 with Some d => d =? oc | None => false end
          else
            ttype_eqb (ti_type (nd_mul n)) TFloat32 && ttype_eqb (ti_type (nd_bias n)) TFloat32
            && (rank (nd_mul n) =? 1) && (rank (nd_bias n) =? 1)
            && match rd (ti_dims (nd_mul n)) 0 with Some d => d =? oc | None => false end
            && match rd (ti_dims (nd_bias n)) 0 with Some d => d =? oc | None => false end) (
  ensure (if ttype_eqb (nd_out n) TInt8 then nd_affine n else true) (
  ensure (match kt with KIndirect => negb (nd_dynamic n) | _ => true end) (
  let* b := rd (ti_dims (nd_in n)) 0 in
  let out_shape := [b; out_h; out_w; if ttype_eqb (nd_out n) TInt32 then GetBitpackedSize oc else oc] in
  let im := if need_im2col kt a fh fw
            then Some [b; out_h; out_w; GetBitpackedSize (at_cin a) * fh * fw] else None in
  Some (Ok {| pr_oc := oc; pr_fh := fh; pr_fw := fw; pr_groups := groups; pr_padh := pad_h; pr_padw := pad_w;
              pr_out := out_shape; pr_im2col := im |})))))
  end)))))).

(** prepare_tf.cc 117-147; -1 (dynamic) sizes are excluded. [None]: modulo zero. *)
Definition HasValidFilterShape (total ci : Z) : option bool :=
  let* r := cmod total ci in
  if negb (r =? 0) then Some false
  else
    let* groups := cdiv total ci in
    Some (negb ((1 <? groups) && negb (Z.rem ci 32 =? 0))).

(** The parameters with which the kernels run: attributes and stored fields from
    OpData, sizes from the tensor shapes (e.g. reference.h 48-69). [ish], [fsh],
    [osh]: input, filter, output shapes. *)
Definition dim (l : list Z) (i : Z) : Z := match rd l i with Some v => v | None => 0 end.
Definition params_of (a : attrs) (r : prep) (ish fsh osh : list Z) : bconv :=
  {| batches := dim ish 0; in_h := dim ish 1; in_w := dim ish 2; in_d := dim ish 3;
     out_c := dim fsh 0; f_h := dim fsh 1; f_w := dim fsh 2; f_d := dim fsh 3;
     out_h := dim osh 1; out_w := dim osh 2; channels_in := at_cin a; groups := pr_groups r;
     s_h := at_sh a; s_w := at_sw a; dl_h := at_dh a; dl_w := at_dw a;
     pad_h := pr_padh r; pad_w := pr_padw r;
     pad_same := match at_pad a with PadSame => true | _ => false end; pad_value := at_pv a |}.

(** ** Proofs *)
Lemma infer_groups_ok kt cin oc fd g : 1 <= cin -> 1 <= oc -> 1 <= fd ->
  infer_groups kt cin oc fd = Some (Ok g) ->
  1 <= g /\ cin = g * (cin / g) /\ oc = g * (oc / g) /\ fd = words (cin / g) /\ (g = 1 \/ (cin / g) mod 32 = 0) /\
  (kt = KBgemm -> g = 1) /\ 1 <= oc / g /\ 1 <= cin / g.
Proof.
  intros Hc Ho Hf. unfold infer_groups. rewrite GetBitpackedSize_words by lia.
  destruct (Z.eqb_spec fd (words cin)) as [E|E].
  - intros H. injection H as <-. rewrite !Z.div_1_r. repeat split; auto; lia.
  - assert (Hw : 1 <= words cin) by (unfold words; lia).
    assert (K : kt = KBgemm \/ kt <> KBgemm) by (destruct kt; auto; right; discriminate).
    destruct K as [-> | K]; [discriminate|].
    unfold ensure at 1. replace (match kt with KBgemm => false | _ => true end) with true by (destruct kt; congruence).
    unfold cmod, cdiv. destruct (Z.eqb_spec fd 0); [lia|]. cbn [bind]. unfold ensure.
    destruct (Z.eqb_spec (Z.rem (words cin) fd) 0) as [E1|]; [|discriminate].
    rewrite Z.quot_div_nonneg by lia. rewrite Z.rem_mod_nonneg in E1 by lia.
    assert (Hq : words cin = fd * (words cin / fd)) by (assert (H := Z.div_mod (words cin) fd ltac:(lia)); lia).
    set (G := words cin / fd) in *. assert (HG : 2 <= G).
    { clearbody G. assert (G <> 1) by (intros ->; lia). assert (0 < G) by (clear - Hq Hw Hf; nia). lia. }
    clearbody G.
    destruct (Z.eqb_spec G 0); [lia|]. cbn [bind].
    rewrite Z.quot_div_nonneg by lia. 
    assert (Hgs : 0 <= cin / G) by (apply Z.div_pos; lia).
    rewrite Z.rem_mod_nonneg by lia. destruct (Z.eqb_spec ((cin / G) mod 32) 0) as [E2|]; [|discriminate].
    rewrite Z.rem_mod_nonneg by lia. cbn [bind].
    destruct (Z.eqb_spec (oc mod G) 0) as [E3|]; [|discriminate].
    intros H. injection H as <-.
    assert (D := Z.div_mod cin G ltac:(lia)). assert (M := Z.mod_pos_bound cin G ltac:(lia)).
    assert (Eo : oc = G * (oc / G)) by (assert (H := Z.div_mod oc G ltac:(lia)); lia).
    set (gs := cin / G) in *. set (r := cin mod G) in *. clearbody gs r.
    assert (D2 := Z.div_mod gs 32 ltac:(lia)). rewrite E2 in D2. set (k := gs / 32) in *. clearbody k.
    assert (Ew : words cin = G * k + (r + 31) / 32).
    { unfold words. replace (cin + 31) with (G * k * 32 + (r + 31)) by lia. rewrite Z.div_add_l by lia. reflexivity. }
    assert (Hr : 0 <= (r + 31) / 32 <= r) by lia.
    assert (Hk : fd = k /\ r = 0).
    { rewrite Ew in Hq. assert (fd = k) by (clear - Hq Hr M HG; nia). split; [assumption|]. subst fd. lia. }
    destruct Hk as [-> ->]. clear Ew Hq.
    set (oq := oc / G) in *. clearbody oq.
    repeat split; try lia; try nia; try tauto.
    unfold words. lia.
Qed.

Lemma dim_rd l i v : rd l i = Some v -> dim l i = v.
Proof. unfold dim. intros ->. reflexivity. Qed.

(** Everything a successful Prepare establishes. *)
Lemma prepare_inv kt a n r : Prepare kt a n = Some (Ok r) ->
  let ish := ti_dims (nd_in n) in let fsh := ti_dims (nd_filter n) in
  zlen ish = 4 /\ zlen fsh = 4 /\ pr_oc r = dim fsh 0 /\ pr_fh r = dim fsh 1 /\ pr_fw r = dim fsh 2 /\
  infer_groups kt (at_cin a) (dim fsh 0) (dim fsh 3) = Some (Ok (pr_groups r)) /\
  zero_pad_guard kt a (nd_out n) = true /\
  (exists oh ow, padding1D (at_pad a) (dim ish 1) (dim fsh 1) (at_sh a) (at_dh a) = (oh, pr_padh r) /\
     padding1D (at_pad a) (dim ish 2) (dim fsh 2) (at_sw a) (at_dw a) = (ow, pr_padw r) /\
     pr_out r = [dim ish 0; oh; ow; if ttype_eqb (nd_out n) TInt32 then GetBitpackedSize (dim fsh 0) else dim fsh 0] /\
     pr_im2col r = if need_im2col kt a (dim fsh 1) (dim fsh 2)
       then Some [dim ish 0; oh; ow; GetBitpackedSize (at_cin a) * dim fsh 1 * dim fsh 2] else None) /\
  (nd_out n = TInt32 -> ti_dims (nd_thr n) = [dim fsh 0]) /\
  (nd_out n <> TInt32 -> ti_dims (nd_mul n) = [dim fsh 0] /\ ti_dims (nd_bias n) = [dim fsh 0]) /\
  (nd_out n = TInt32 \/ nd_out n = TInt8 \/ nd_out n = TFloat32).
Proof.
  assert (one : forall (l : list Z) v, zlen l = 1 -> rd l 0 = Some v -> l = [v]).
  { intros [|x [|y l]] v L; try (unfold zlen in L; cbn in L; lia). cbn. congruence. }
  unfold Prepare, ensure, rank.
  destruct (nd_inputs n =? 5); [|discriminate].
  destruct (Z.eqb_spec (zlen (ti_dims (nd_in n))) 4) as [L1|]; [|discriminate].
  destruct (Z.eqb_spec (zlen (ti_dims (nd_filter n))) 4) as [L2|]; [|discriminate].
  destruct (ttype_eqb (ti_type (nd_in n)) TInt32); [|discriminate].
  destruct (ttype_eqb (ti_type (nd_filter n)) TInt32); [|discriminate].
  destruct (ttype_eqb (nd_out n) TInt32 || ttype_eqb (nd_out n) TInt8 || ttype_eqb (nd_out n) TFloat32) eqn:ET;
    [|discriminate].
  destruct (rd_some (ti_dims (nd_filter n)) 0 ltac:(lia)) as [oc E0].
  destruct (rd_some (ti_dims (nd_filter n)) 1 ltac:(lia)) as [fh E1].
  destruct (rd_some (ti_dims (nd_filter n)) 2 ltac:(lia)) as [fw E2].
  destruct (rd_some (ti_dims (nd_filter n)) 3 ltac:(lia)) as [fd E3].
  destruct (rd_some (ti_dims (nd_in n)) 0 ltac:(lia)) as [b D0].
  destruct (rd_some (ti_dims (nd_in n)) 1 ltac:(lia)) as [ih D1].
  destruct (rd_some (ti_dims (nd_in n)) 2 ltac:(lia)) as [iw D2].
  rewrite E0, E1, E2, E3. cbn [bind].
  destruct (infer_groups kt (at_cin a) oc fd) as [[g|]|] eqn:EG; try discriminate. cbn [bind].
  destruct (zero_pad_guard kt a (nd_out n)) eqn:EZ; [|discriminate].
  rewrite D0, D1, D2. cbn [bind].
  destruct (padding1D (at_pad a) ih fh (at_sh a) (at_dh a)) as [oh ph] eqn:P1.
  destruct (padding1D (at_pad a) iw fw (at_sw a) (at_dw a)) as [ow pw] eqn:P2.
  match goal with |- context [if (if ttype_eqb (nd_out n) TInt32 then ?A else ?B) then _ else _] =>
    destruct (if ttype_eqb (nd_out n) TInt32 then A else B) eqn:EC; [|discriminate] end.
  destruct (if ttype_eqb (nd_out n) TInt8 then nd_affine n else true); [|discriminate].
  destruct (match kt with KIndirect => negb (nd_dynamic n) | _ => true end); [|discriminate].
  intros H. injection H as <-. cbn [pr_oc pr_fh pr_fw pr_groups pr_padh pr_padw pr_out pr_im2col].
  rewrite (dim_rd _ _ _ E0), (dim_rd _ _ _ E1), (dim_rd _ _ _ E2), (dim_rd _ _ _ E3),
    (dim_rd _ _ _ D0), (dim_rd _ _ _ D1), (dim_rd _ _ _ D2).
  do 6 (split; [reflexivity || assumption|]). split; [reflexivity|].
  split; [exists oh, ow; rewrite P1, P2; auto|].
  assert (ob : forall l : list Z, match rd l 0 with Some d => d =? oc | None => false end = true -> rd l 0 = Some oc).
  { intros l. destruct (rd l 0); [|discriminate]. intros H%Z.eqb_eq. congruence. }
  split; [|split].
  - intros EO. rewrite EO in EC. cbn [ttype_eqb] in EC. rewrite !andb_true_iff, Z.eqb_eq in EC.
    apply one; [tauto|apply ob; tauto].
  - intros EO. replace (ttype_eqb (nd_out n) TInt32) with false in EC by (destruct (nd_out n) eqn:X; try reflexivity; congruence).
    rewrite !andb_true_iff, !Z.eqb_eq in EC. split; (apply one; [tauto|apply ob; tauto]).
  - destruct (nd_out n); auto. discriminate.
Qed.

(** The environment's side of the contract: positive dimensions, strides and
    dilations, and a filter no larger than the image for VALID padding. *)
Definition shapes_ok (a : attrs) (ish fsh : list Z) : Prop :=
  0 <= dim ish 0 /\ 0 <= dim ish 1 /\ 0 <= dim ish 2 /\
  1 <= dim fsh 0 /\ 1 <= dim fsh 1 /\ 1 <= dim fsh 2 /\ 1 <= dim fsh 3 /\
  1 <= at_cin a /\ 1 <= at_sh a /\ 1 <= at_sw a /\ 1 <= at_dh a /\ 1 <= at_dw a /\
  (at_pad a = PadSame \/
   at_pad a = PadValid /\ eff (dim fsh 1) (at_dh a) <= dim ish 1 /\ eff (dim fsh 2) (at_dw a) <= dim ish 2).

(** Output size along one dimension, as TensorFlow defines it. *)
Definition out_size (pad : padding) (n k s d : Z) : Z :=
  match pad with PadSame => same_out n s | _ => valid_out n k s d end.
Definition pad_before (pad : padding) (n k s d : Z) : Z :=
  match pad with PadSame => same_before n k s d | _ => 0 end.

Lemma padding_spec pad n k s d : 0 <= n -> 1 <= k -> 1 <= s -> 1 <= d ->
  (pad = PadSame \/ pad = PadValid /\ eff k d <= n) ->
  padding1D pad n k s d = (out_size pad n k s d, pad_before pad n k s d) /\ 0 <= out_size pad n k s d.
Proof.
  intros Hn Hk Hs Hd [-> | [-> He]]; cbn [out_size pad_before].
  - split; [apply padding_same; assumption|]. unfold same_out. apply Z.div_pos; lia.
  - split; [apply padding_valid; assumption|]. unfold valid_out. apply Z.div_pos; lia.
Qed.

Lemma prepare_sound kt a n r : Prepare kt a n = Some (Ok r) ->
  let ish := ti_dims (nd_in n) in let fsh := ti_dims (nd_filter n) in
  shapes_ok a ish fsh -> dim ish 3 = words (at_cin a) ->
  let p := params_of a r ish fsh (pr_out r) in
  bconv_wf p /\ prepared (at_pad a) p /\ (kt = KBgemm -> groups p = 1) /\
  pr_out r = [dim ish 0; out_size (at_pad a) (dim ish 1) (dim fsh 1) (at_sh a) (at_dh a);
              out_size (at_pad a) (dim ish 2) (dim fsh 2) (at_sw a) (at_dw a);
              if ttype_eqb (nd_out n) TInt32 then words (dim fsh 0) else dim fsh 0] /\
  (kt = KReference -> pad_same p && (pad_value p =? 0) = true -> (channels_in p / groups p) mod 2 = 0) /\
  (kt <> KReference -> pad_same p && (pad_value p =? 0) = true -> nd_out n = TFloat32 /\ at_act a = ActNone) /\
  (nd_out n = TInt32 -> ti_dims (nd_thr n) = [out_c p]) /\
  (nd_out n <> TInt32 -> ti_dims (nd_mul n) = [out_c p] /\ ti_dims (nd_bias n) = [out_c p]) /\
  (* the kernels' own decision to use the im2col buffer, and the buffer's size *)
  (kt = KBgemm -> pr_im2col r =
     if negb (dl_w p =? 1) || negb (dl_h p =? 1) || (negb (s_w p =? 1) || negb (s_h p =? 1) || negb (f_w p =? 1) || negb (f_h p =? 1))
     then Some [batches p; out_h p; out_w p; im2col_k p] else None).
Proof.
  intros HPr ish fsh HS Hd p.
  destruct (prepare_inv kt a n r HPr) as (L1 & L2 & Eoc & Efh & Efw & EG & EZ & (oh & ow & P1 & P2 & EO & EI) & T1 & T2 & T3).
  fold ish fsh in L1, L2, Eoc, Efh, Efw, EG, P1, P2, EO, EI, T1, T2.
  destruct HS as (B0 & B1 & B2 & F0 & F1 & F2 & F3 & C1 & S1 & S2 & D1 & D2 & HPad).
  destruct (infer_groups_ok _ _ _ _ _ C1 F0 F3 EG) as (G1 & G2 & G3 & G4 & G5 & G6 & G7 & G8).
  destruct (padding_spec (at_pad a) (dim ish 1) (dim fsh 1) (at_sh a) (at_dh a) B1 F1 S1 D1 ltac:(tauto)) as [Q1 O1].
  destruct (padding_spec (at_pad a) (dim ish 2) (dim fsh 2) (at_sw a) (at_dw a) B2 F2 S2 D2 ltac:(tauto)) as [Q2 O2].
  rewrite Q1 in P1. injection P1 as E1 E2. rewrite Q2 in P2. injection P2 as E3 E4. subst oh ow.
  assert (X1 : out_h p = out_size (at_pad a) (dim ish 1) (dim fsh 1) (at_sh a) (at_dh a))
    by (unfold p, params_of; cbn [out_h]; rewrite EO; reflexivity).
  assert (X2 : out_w p = out_size (at_pad a) (dim ish 2) (dim fsh 2) (at_sw a) (at_dw a))
    by (unfold p, params_of; cbn [out_w]; rewrite EO; reflexivity).
  assert (WF : bconv_wf p).
  { constructor.
    - unfold geom_ok, geom_of. cbn [gB gH gW gKH gKW gOH gOW gG gCI gCO].
      rewrite X1, X2. unfold p, params_of. cbn [batches in_h in_w f_h f_w channels_in groups out_c].
      repeat split; try assumption; lia.
    - exact G2.
    - exact G3.
    - exact G4.
    - exact Hd. }
  split; [exact WF|]. split.
  { unfold prepared. rewrite X1, X2. split; [|split; [|split]].
    - unfold p, params_of. cbn [pad_h in_h f_h s_h dl_h]. rewrite <- E2. symmetry. exact Q1.
    - unfold p, params_of. cbn [pad_w in_w f_w s_w dl_w]. rewrite <- E4. symmetry. exact Q2.
    - destruct HPad as [-> | [-> _]]; discriminate.
    - reflexivity. }
  split; [exact G6|]. split; [rewrite EO, GetBitpackedSize_words by lia; reflexivity|].
  split.
  { intros -> Hz. unfold zero_pad_guard in EZ. unfold p, params_of in Hz |- *. cbn [pad_same pad_value channels_in groups] in *.
    destruct (at_pad a); try discriminate. apply andb_true_iff in Hz. destruct Hz as [_ Hz]. rewrite Hz in EZ.
    apply Z.eqb_eq in EZ. rewrite Z.rem_mod_nonneg in EZ by lia.
    destruct G5 as [E | E]; [rewrite E, Z.div_1_r; exact EZ|]. clear - E. lia. }
  split.
  { intros HK Hz. unfold zero_pad_guard in EZ. unfold p, params_of in Hz. cbn [pad_same pad_value] in Hz.
    destruct (at_pad a); try discriminate. apply andb_true_iff in Hz. destruct Hz as [_ Hz]. rewrite Hz in EZ.
    destruct kt; [congruence| |]; apply andb_true_iff in EZ; destruct EZ as [A B];
      (split; [destruct (nd_out n); reflexivity || discriminate|destruct (at_act a); reflexivity || discriminate]). }
  split; [exact T1|]. split; [exact T2|].
  intros ->. rewrite EI. unfold need_im2col. cbn [andb].
  rewrite X1, X2. unfold im2col_k, p, params_of. cbn [dl_w dl_h s_w s_h f_w f_h batches in_d].
  rewrite GetBitpackedSize_words by lia. rewrite Hd.
  replace (words (at_cin a) * dim fsh 1 * dim fsh 2) with (dim fsh 1 * dim fsh 2 * words (at_cin a)) by ring.
  destruct (at_sw a =? 1), (at_sh a =? 1), (at_dw a =? 1), (at_dh a =? 1), (dim fsh 2 =? 1), (dim fsh 1 =? 1); reflexivity.
Qed.

(** ** Converter and runtime agree on the number of groups *)
Lemma groups_agree kt total ci oc : 1 <= total -> 1 <= ci -> 1 <= oc ->
  HasValidFilterShape total ci = Some true -> oc mod (total / ci) = 0 ->
  infer_groups kt total oc (words ci) =
    Some (match kt with KBgemm => if total / ci =? 1 then Ok 1 else Rejected | _ => Ok (total / ci) end).
Proof.
  intros Ht Hci Ho. unfold HasValidFilterShape, cmod, cdiv. destruct (Z.eqb_spec ci 0); [lia|]. cbn [bind].
  rewrite Z.rem_mod_nonneg, Z.quot_div_nonneg by lia.
  destruct (Z.eqb_spec (total mod ci) 0) as [E|]; [|discriminate]. cbn [negb].
  intros H Hoc. injection H as H.
  assert (Et : total = ci * (total / ci)) by (assert (H1 := Z.div_mod total ci ltac:(lia)); lia).
  set (g := total / ci) in *. assert (Hg : 1 <= g) by (clearbody g; nia).
  unfold infer_groups. rewrite GetBitpackedSize_words by lia.
  destruct (Z.eq_dec g 1) as [G1 | G1].
  - rewrite G1 in Et. rewrite G1. replace total with ci by lia. rewrite Z.eqb_refl. destruct kt; reflexivity.
  - destruct (Z.ltb_spec 1 g); [|lia]. cbn [andb] in H.
    apply negb_true_iff, negb_false_iff, Z.eqb_eq in H. rewrite Z.rem_mod_nonneg in H by lia.
    assert (Ec : ci = 32 * (ci / 32)) by (assert (H1 := Z.div_mod ci 32 ltac:(lia)); lia).
    set (k := ci / 32) in *. assert (Hk : 1 <= k) by lia.
    assert (Ew : words ci = k) by (unfold words; lia).
    assert (Ewt : words total = k * g).
    { unfold words. replace (total + 31) with (k * g * 32 + 31) by (clearbody k g; nia).
      rewrite Z.div_add_l by lia. change (31 / 32) with 0. lia. }
    rewrite Ew, Ewt. clearbody k g.
    destruct (Z.eqb_spec k (k * g)) as [E1|E1]; [exfalso; nia|].
    assert (K : kt = KBgemm \/ kt <> KBgemm) by (destruct kt; auto; right; discriminate).
    destruct K as [-> | K].
    { destruct (Z.eqb_spec g 1); [lia|]. reflexivity. }
    unfold ensure at 1. replace (match kt with KBgemm => false | _ => true end) with true by (destruct kt; congruence).
    unfold cmod, cdiv. destruct (Z.eqb_spec k 0); [lia|]. cbn [bind].
    rewrite Z.rem_mod_nonneg by nia. rewrite (Z.mul_comm k g), Z.mod_mul by lia. rewrite Z.quot_mul by lia.
    unfold ensure. rewrite Z.eqb_refl. destruct (Z.eqb_spec g 0); [lia|]. cbn [bind].
    rewrite Et. rewrite Z.quot_mul by lia. rewrite Z.rem_mod_nonneg by lia. rewrite H. rewrite Z.eqb_refl.
    rewrite Z.rem_mod_nonneg by lia. cbn [bind]. rewrite Hoc, Z.eqb_refl.
    destruct kt; try reflexivity. congruence.
Qed.
