(** * Lifecycle: a node's OpData across Prepare / Invoke calls
    (tflite/kernels/bconv2d.cc 46-75 OpData, 138-305 Prepare, 324-392 OneTimeSetup,
    416-548 Eval) and the interpreter protocol around it. *)
From Coq Require Import QArith.
From Verif Require Import Base Spec Bits Loop4 Bitpack Reference OutputTransform RefTheorems Padding
  Indirect IndirectBuf IndirectTop Log Bgemm BgemmProofs BgemmConv ZeroPad Prepare.
Open Scope Z_scope.

(** The parts of a model that do not change while the interpreter lives: the op's
    attributes, its constant operands and the output tensor's type and quantisation.
    [wd_thr] is the memory readable from the thresholds' address on. *)
Record world := {
  wd_a : attrs; wd_filter_t : tinfo; wd_filter : list Z;
  wd_mul_t : tinfo; wd_mul : list Q; wd_bias_t : tinfo; wd_bias : list Q; wd_thr_t : tinfo; wd_thr : list Z;
  wd_out : ttype; wd_affine : bool; wd_scale : Q; wd_zp : Z }.
(** The node as Prepare sees it, for input shape [ish]. *)
Definition node_of (w : world) (ish : list Z) : node :=
  {| nd_inputs := 5; nd_in := {| ti_type := TInt32; ti_dims := ish |}; nd_filter := wd_filter_t w;
     nd_mul := wd_mul_t w; nd_bias := wd_bias_t w; nd_thr := wd_thr_t w;
     nd_out := wd_out w; nd_affine := wd_affine w; nd_dynamic := false |}.

(** The indirect kernel object (core/indirect_bgemm/kernel.h): block parameters,
    packed weights, indirection buffer, output transform, and the address of the
    input buffer into which the indirection buffer points. *)
Record kobj := { ko_k : kern; ko_pw : list Z; ko_ibuf : list iptr; ko_ot : otp Q; ko_addr : Z }.
(** bconv2d.cc 46-75 *)
Record opdata := {
  od_prep : prep; od_ot : otp Q; od_buf : list Q; od_kernel : option kobj; od_done : bool }.
(** Interpreter state: the input tensor (shape, address, contents), the output
    shape, whether AllocateTensors has succeeded since the last resize, OpData. *)
Record istate := {
  st_ish : list Z; st_addr : Z; st_input : list Z; st_osh : list Z; st_ready : bool; st_od : opdata }.

Definition no_prep : prep :=
  {| pr_oc := 0; pr_fh := 0; pr_fw := 0; pr_groups := 0; pr_padh := 0; pr_padw := 0; pr_out := []; pr_im2col := None |}.
Definition no_ot : otp Q := {| ot_min := 0; ot_max := 0; ot_mult := []; ot_bias := [] |}.
(** After Init (bconv2d.cc 84-137). *)
Definition init_od : opdata :=
  {| od_prep := no_prep; od_ot := no_ot; od_buf := []; od_kernel := None; od_done := false |}.
Definition init_state : istate :=
  {| st_ish := []; st_addr := 0; st_input := []; st_osh := []; st_ready := false; st_od := init_od |}.

(** std::vector::resize *)
Definition resize (l : list Q) (n : Z) : list Q :=
  firstn (Z.to_nat n) l ++ repeat 0%Q (Z.to_nat n - length l).

Section Node.
  Variable kt : kernel_type.
  Variable w : world.
  Let a := wd_a w.
  Let fsh := ti_dims (wd_filter_t w).

  (** Parameters in force: stored fields and current tensor shapes. *)
  Definition cur (st : istate) (od : opdata) : bconv := params_of a (od_prep od) (st_ish st) fsh (st_osh st).

  (** bconv2d.cc 324-392 *)
  Definition OneTimeSetup (st : istate) (od : opdata) : option opdata :=
    let p := cur st od in
    let* buf :=
      if zero_padding p then
        padding_buffer p (wd_filter w) (wd_mul w)
          (resize (od_buf od) (GetCacheSize (f_h p) (f_w p) (out_c p) (dl_h p) (dl_w p)))
      else Some (od_buf od) in
    let* ot :=
      match wd_out w with
      | TFloat32 => one_time_setup p (at_act a) (wd_mul w) (wd_bias w) 1 0
      | TInt8 => one_time_setup p (at_act a) (wd_mul w) (wd_bias w) (wd_scale w) (inject_Z (wd_zp w))
      | _ => Some (od_ot od)
      end in
    Some {| od_prep := od_prep od; od_ot := ot; od_buf := buf; od_kernel := od_kernel od; od_done := true |}.

  (** bconv2d.cc 479-491, portable 4x2 kernel *)
  Definition make_kernel (p : bconv) (ot : otp Q) (addr : Z) : option kobj :=
    let k := mk_kern 4 2 1 p in
    let* pw := PackWeights k (wd_filter w) in
    let* ibuf := FillIndirectionBuffer k p in
    Some {| ko_k := k; ko_pw := pw; ko_ibuf := ibuf; ko_ot := ot; ko_addr := addr |}.

  (** The part of Eval that updates OpData (418-420, 463-465, 479-491, 501-503). *)
  Definition eval_od (st : istate) : option opdata :=
    let od := st_od st in
    let* od := if od_done od then Some od else OneTimeSetup st od in
    match kt, od_kernel od with
    | KIndirect, None =>
        let* k := make_kernel (cur st od) (od_ot od) (st_addr st) in
        Some {| od_prep := od_prep od; od_ot := od_ot od; od_buf := od_buf od; od_kernel := Some k; od_done := od_done od |}
    | _, _ => Some od
    end.

  (** kernel.h Dispatch: pointers into a buffer that is no longer the input buffer
      must not be dereferenced. *)
  Definition kobj_val {T} (k : kobj) (st : istate) (run : Z -> Z -> option T) (out : list T) : option (list T) :=
    if ko_addr k =? st_addr st then
      let zero := repeat 0 (Z.to_nat (k_fs (ko_k k) * k_in_depth (ko_k k))) in
      let* idpg := cdiv (k_in_depth (ko_k k)) (k_groups (ko_k k)) in
      run_val (ko_k k) (ko_pw k) (st_input st) zero (ko_ibuf k) idpg run 0 (k_npix (ko_k k)) out
    else None.
  Definition kobj_bits (k : kobj) (st : istate) (run : Z -> Z -> option bool) (out : list Z) : option (list Z) :=
    if ko_addr k =? st_addr st then
      let zero := repeat 0 (Z.to_nat (k_fs (ko_k k) * k_in_depth (ko_k k))) in
      let* idpg := cdiv (k_in_depth (ko_k k)) (k_groups (ko_k k)) in
      let* out := if Z.rem (k_oc (ko_k k)) 32 =? 0 then Some out
                  else fill out 0 (k_npix (ko_k k) * GetBitpackedSize (k_oc (ko_k k))) 0 in
      let* hs := run_packed (ko_k k) (ko_pw k) (st_input st) zero (ko_ibuf k) idpg run 0 (k_npix (ko_k k)) (halves_of out) in
      Some (words_of hs)
    else None.

  (** optimized_bgemm.h 35-63: the im2col buffer must exist iff it is used, and its
      shape gives the GEMM dimensions. *)
  Definition im2col_matches (p : bconv) (im : option (list Z)) : Prop :=
    im = if negb (dl_w p =? 1) || negb (dl_h p =? 1)
            || (negb (s_w p =? 1) || negb (s_h p =? 1) || negb (f_w p =? 1) || negb (f_h p =? 1))
         then Some [batches p; out_h p; out_w p; im2col_k p] else None.

  (** A GEMM schedule: block sizes and ruy's decomposition. *)
  Record sched := { sd_kr : Z; sd_lc : Z; sd_rc : Z; sd_s : schedule }.
  (** The value of the output tensor. *)
  Inductive outv := OutF (o : list Q) | OutI (o : list Z) | OutB (o : list Z).

  (** Eval (bconv2d.cc 416-565): with the output buffer [fb] (float) or [ib]
      (int8, bitpacked), under schedule [S], Eval is safe and its output satisfies
      [Post]. *)
  Definition Eval (st : istate) (fb : list Q) (ib : list Z) (S : sched) (Post : outv -> Prop) : Prop :=
    wp (eval_od st) (fun od =>
      let p := cur st od in
      match kt with
      | KReference =>
          match wd_out w with
          | TFloat32 => wp (BConv2DReference_val p (st_input st) (wd_filter w) (run_float Qops (od_ot od)) fb)
                          (fun o => Post (OutF o))
          | TInt8 => wp (BConv2DReference_val p (st_input st) (wd_filter w) (run_int8 Qops (od_ot od)) ib)
                       (fun o => Post (OutI o))
          | _ => wp (BConv2DReference_bits p (st_input st) (wd_filter w) (run_bits (wd_thr w)) (words (out_c p)) ib)
                   (fun o => Post (OutB o))
          end
      | KBgemm =>
          im2col_matches p (pr_im2col (od_prep od)) /\
          match wd_out w with
          | TFloat32 => bgemm_conv_val (sd_kr S) (sd_lc S) (sd_rc S) (sd_s S) p (st_input st) (wd_filter w)
                          (run_float Qops (od_ot od)) fb
                          (fun o => wp (correct p (od_buf od) o) (fun o => Post (OutF o)))
          | TInt8 => bgemm_conv_val (sd_kr S) (sd_lc S) (sd_rc S) (sd_s S) p (st_input st) (wd_filter w)
                       (run_int8 Qops (od_ot od)) ib (fun o => Post (OutI o))
          | _ => bgemm_conv_bits (sd_kr S) (sd_lc S) (sd_rc S) (sd_s S) p (st_input st) (wd_filter w)
                   (run_bits (wd_thr w)) ib (fun o => Post (OutB o))
          end
      | KIndirect =>
          match od_kernel od with
          | None => False
          | Some k =>
              match wd_out w with
              | TFloat32 => wp (kobj_val k st (run_float Qops (ko_ot k)) fb)
                              (fun o => wp (correct p (od_buf od) o) (fun o => Post (OutF o)))
              | TInt8 => wp (kobj_val k st (run_int8 Qops (ko_ot k)) ib) (fun o => Post (OutI o))
              | _ => wp (kobj_bits k st (run_bits (wd_thr w)) ib) (fun o => Post (OutB o))
              end
          end
      end).

  (** ** The interpreter protocol *)
  Inductive event :=
  | EResize (ish : list Z)              (* ResizeInputTensor *)
  | EAllocate (addr : Z) (junk : prep)  (* AllocateTensors: the arena places the input at [addr];
                                           [junk]: what a failing Prepare leaves in OpData *)
  | ESetInput (data : list Z)
  | EInvoke.

  Definition with_od (st : istate) (od : opdata) : istate :=
    {| st_ish := st_ish st; st_addr := st_addr st; st_input := st_input st; st_osh := st_osh st;
       st_ready := st_ready st; st_od := od |}.
  Definition prepared_od (od : opdata) (r : prep) (done : bool) : opdata :=
    {| od_prep := r; od_ot := od_ot od; od_buf := od_buf od; od_kernel := od_kernel od; od_done := done |}.

  (** Invoke before AllocateTensors reports an error and changes nothing. *)
  Definition step (e : event) (st : istate) : option istate :=
    match e with
    | EResize ish =>
        Some {| st_ish := ish; st_addr := st_addr st; st_input := st_input st; st_osh := st_osh st;
                st_ready := false; st_od := st_od st |}
    | ESetInput data =>
        Some {| st_ish := st_ish st; st_addr := st_addr st; st_input := data; st_osh := st_osh st;
                st_ready := st_ready st; st_od := st_od st |}
    | EAllocate addr junk =>
        let* o := Prepare kt a (node_of w (st_ish st)) in
        match o with
        | Ok r => Some {| st_ish := st_ish st; st_addr := addr; st_input := st_input st; st_osh := pr_out r;
                          st_ready := true; st_od := prepared_od (st_od st) r false |}
        | Rejected => Some {| st_ish := st_ish st; st_addr := addr; st_input := st_input st; st_osh := st_osh st;
                              st_ready := false; st_od := prepared_od (st_od st) junk (od_done (st_od st)) |}
        end
    | EInvoke => if st_ready st then let* od := eval_od st in Some (with_od st od) else Some st
    end.
  Fixpoint run_events (es : list event) (st : istate) : option istate :=
    match es with [] => Some st | e :: es' => let* st' := step e st in run_events es' st' end.

  (** ** Specification: what a single evaluation on a fresh node computes *)
  Definition fresh (p : bconv) (input : list Z) (fb : list Q) (ib : list Z) (S : sched) (Post : outv -> Prop) : Prop :=
    let buf := repeat 0%Q (Z.to_nat (GetCacheSize (f_h p) (f_w p) (out_c p) (dl_h p) (dl_w p))) in
    match kt, wd_out w with
    | KReference, TFloat32 =>
        wp (eval_ref_float p (at_act a) input (wd_filter w) (wd_mul w) (wd_bias w) fb) (fun o => Post (OutF o))
    | KReference, TInt8 =>
        wp (eval_ref_int8 p (at_act a) input (wd_filter w) (wd_mul w) (wd_bias w) (wd_scale w) (wd_zp w) ib)
           (fun o => Post (OutI o))
    | KReference, _ => wp (eval_ref_bits p input (wd_filter w) (wd_thr w) ib) (fun o => Post (OutB o))
    | KBgemm, TFloat32 =>
        eval_bgemm_float (sd_kr S) (sd_lc S) (sd_rc S) (sd_s S) p (at_act a) input (wd_filter w) (wd_mul w) (wd_bias w)
          buf fb (fun o => Post (OutF o))
    | KBgemm, TInt8 =>
        wp (one_time_setup p (at_act a) (wd_mul w) (wd_bias w) (wd_scale w) (inject_Z (wd_zp w))) (fun t =>
          bgemm_conv_val (sd_kr S) (sd_lc S) (sd_rc S) (sd_s S) p input (wd_filter w) (run_int8 Qops t) ib
            (fun o => Post (OutI o)))
    | KBgemm, _ =>
        bgemm_conv_bits (sd_kr S) (sd_lc S) (sd_rc S) (sd_s S) p input (wd_filter w) (run_bits (wd_thr w)) ib
          (fun o => Post (OutB o))
    | KIndirect, TFloat32 =>
        wp (eval_indirect_float p (at_act a) input (wd_filter w) (wd_mul w) (wd_bias w) buf fb) (fun o => Post (OutF o))
    | KIndirect, TInt8 =>
        wp (one_time_setup p (at_act a) (wd_mul w) (wd_bias w) (wd_scale w) (inject_Z (wd_zp w))) (fun t =>
          wp (indirect_val p input (wd_filter w) (run_int8 Qops t) ib) (fun o => Post (OutI o)))
    | KIndirect, _ => wp (indirect_bits p input (wd_filter w) (run_bits (wd_thr w)) ib) (fun o => Post (OutB o))
    end.

  (** Well-formed constants: dimensions at least one, strides and dilations at
      least one, a filter of the announced size in canonical packed form; a
      multiplier and bias per channel unless the output is bitpacked, and a
      multiplier even then if the padding is SAME-zero. *)
  Definition world_ok : Prop :=
    1 <= dim fsh 0 /\ 1 <= dim fsh 1 /\ 1 <= dim fsh 2 /\ 1 <= dim fsh 3 /\ 1 <= at_cin a /\
    1 <= at_sh a /\ 1 <= at_sw a /\ 1 <= at_dh a /\ 1 <= at_dw a /\ at_pad a <> PadUnknown /\
    (forall g, infer_groups kt (at_cin a) (dim fsh 0) (dim fsh 3) = Some (Ok g) ->
       packed (wd_filter w) (dim fsh 0 * dim fsh 1 * dim fsh 2) (at_cin a / g)) /\
    (wd_out w <> TInt32 -> zlen (wd_mul w) = dim fsh 0 /\ zlen (wd_bias w) = dim fsh 0) /\
    (at_pad a = PadSame -> at_pv a = 0 -> zlen (wd_mul w) = dim fsh 0).
End Node.

(** ** Proofs: the padding buffer does not depend on its old contents *)
Lemma zlen_resize l n : 0 <= n -> zlen (resize l n) = n.
Proof.
  intros Hn. unfold resize, zlen. rewrite app_length, firstn_length, repeat_length.
  destruct (Nat.min_spec (Z.to_nat n) (length l)) as [[? ->]|[? ->]]; lia.
Qed.

Section CacheIndep.
  Variables (filter : list Z) (fh fw fc ci dr dc : Z) (mult : list Q) (cur : Z -> Z -> Z -> Z).
  Hypothesis (Hfh : 1 <= fh) (Hfw : 1 <= fw) (Hfc : 0 <= fc) (Hdr : 1 <= dr) (Hdc : 1 <= dc).
  Hypothesis Hmult : zlen mult = fc.
  Hypothesis Hcur : forall oc fy fx, 0 <= oc < fc -> 0 <= fy < fh -> 0 <= fx < fw ->
    cur_correction filter fh fw ci oc fy fx = Some (cur oc fy fx).

  Lemma cache_indep c1 c2 :
    zlen c1 = GetCacheSize fh fw fc dr dc -> zlen c2 = GetCacheSize fh fw fc dr dc ->
    exists c, CacheCorrectionValues filter fh fw fc ci dr dc mult c1 = Some c /\
              CacheCorrectionValues filter fh fw fc ci dr dc mult c2 = Some c.
  Proof.
    intros L1 L2.
    destruct (cache_ok filter fh fw fc ci dr dc mult cur Hfh Hfw Hfc Hdr Hdc Hmult Hcur c1 L1) as (r1 & E1 & M1 & R1).
    destruct (cache_ok filter fh fw fc ci dr dc mult cur Hfh Hfw Hfc Hdr Hdc Hmult Hcur c2 L2) as (r2 & E2 & M2 & R2).
    exists r1. split; [exact E1|]. rewrite E2. f_equal. symmetry.
    apply rd_ext; [congruence|]. intros i Hi. rewrite M1, L1 in Hi. unfold GetCacheSize in Hi.
    set (efh := (fh - 1) * dr + 1) in *. set (efw := (fw - 1) * dc + 1) in *.
    assert (He : 1 <= efh) by (unfold efh; nia). assert (Hw : 1 <= efw) by (unfold efw; nia).
    assert (Hc : 1 <= fc) by (destruct (Z.eq_dec fc 0) as [Ez | ]; [rewrite Ez in Hi; lia|lia]).
    clearbody efh efw.
    assert (A1 := Z.div_mod i fc ltac:(lia)). assert (B1 := Z.mod_pos_bound i fc ltac:(lia)).
    set (oc := i mod fc) in *. set (q := i / fc) in *. clearbody oc q.
    assert (A2 := Z.div_mod q efw ltac:(lia)). assert (B2 := Z.mod_pos_bound q efw ltac:(lia)).
    set (x := q mod efw) in *. set (q2 := q / efw) in *. clearbody x q2.
    assert (A3 := Z.div_mod q2 efh ltac:(lia)). assert (B3 := Z.mod_pos_bound q2 efh ltac:(lia)).
    set (y := q2 mod efh) in *. set (dir := q2 / efh) in *. clearbody y dir.
    assert (Ei : i = dir * (efh * efw * fc) + y * (efw * fc) + x * fc + oc) by (rewrite A1, A2, A3; ring).
    assert (Hq : 0 <= q < 4 * efh * efw) by (clear - A1 B1 Hi Hc; nia).
    assert (Hq2 : 0 <= q2 < 4 * efh) by (clear - A2 B2 Hq Hw; nia).
    assert (Hd : 0 <= dir < 4) by (clear - A3 B3 Hq2 He; nia).
    destruct (rd_some mult oc ltac:(lia)) as [m Em].
    rewrite Ei, (R1 dir y x oc m Hd B3 B2 Em), (R2 dir y x oc m Hd B3 B2 Em). reflexivity.
  Qed.
End CacheIndep.

(** ** Proofs: what a node's data mean after any history *)
Section Inv.
  Variable kt : kernel_type.
  Variable w : world.
  Hypothesis HW : world_ok kt w.
  Notation a := (wd_a w).
  Notation fsh := (ti_dims (wd_filter_t w)).
  Definition zeros_for (p : bconv) : list Q :=
    repeat 0%Q (Z.to_nat (GetCacheSize (f_h p) (f_w p) (out_c p) (dl_h p) (dl_w p))).

  Lemma buffer_indep r ish osh b1 b2 :
    infer_groups kt (at_cin a) (dim fsh 0) (dim fsh 3) = Some (Ok (pr_groups r)) ->
    let p := params_of a r ish fsh osh in
    zero_padding p = true ->
    zlen b1 = GetCacheSize (f_h p) (f_w p) (out_c p) (dl_h p) (dl_w p) ->
    zlen b2 = GetCacheSize (f_h p) (f_w p) (out_c p) (dl_h p) (dl_w p) ->
    exists c, padding_buffer p (wd_filter w) (wd_mul w) b1 = Some c /\
              padding_buffer p (wd_filter w) (wd_mul w) b2 = Some c.
  Proof.
    intros HG p HZ L1 L2.
    destruct HW as (F0 & F1 & F2 & F3 & C1 & S1 & S2 & D1 & D2 & _ & HF & _ & HM).
    specialize (HF _ HG). destruct (infer_groups_ok _ _ _ _ _ C1 F0 F3 HG) as (G1 & G2 & G3 & G4 & G5 & _ & G7 & G8).
    assert (HZ' : at_pad a = PadSame /\ at_pv a = 0).
    { unfold zero_padding, p, params_of in HZ. cbn [pad_same pad_value] in HZ. apply andb_true_iff in HZ.
      destruct HZ as [A B]. apply Z.eqb_eq in B. split; [destruct (at_pad a); reflexivity || discriminate|exact B]. }
    specialize (HM (proj1 HZ') (proj2 HZ')).
    set (p0 := params_of a r [0; 0; 0; words (at_cin a)] fsh [0; 0; 0; 0]).
    assert (WF0 : bconv_wf p0).
    { constructor; [|exact G2|exact G3|exact G4|reflexivity].
      unfold geom_ok, geom_of, p0, params_of. cbn [gB gH gW gKH gKW gOH gOW gG gCI gCO batches in_h in_w f_h f_w out_h out_w
        channels_in groups out_c].
      change (dim [0; 0; 0; words (at_cin a)] 0) with 0. change (dim [0; 0; 0; words (at_cin a)] 1) with 0.
      change (dim [0; 0; 0; words (at_cin a)] 2) with 0. change (dim [0; 0; 0; 0] 1) with 0. change (dim [0; 0; 0; 0] 2) with 0.
      repeat split; try lia; exact G5. }
    unfold padding_buffer. rewrite HZ.
    assert (HFp : packed (wd_filter w) (filter_pixels (geom_of p0)) (channels_in p0 / groups p0)).
    { unfold filter_pixels. cbn [gG gCO gKH gKW geom_of]. cbn [p0 params_of groups out_c f_h f_w channels_in].
      replace (pr_groups r * (dim fsh 0 / pr_groups r)) with (dim fsh 0) by exact G3. exact HF. }
    apply (cache_indep (wd_filter w) (f_h p) (f_w p) (out_c p) (Z.quot (channels_in p) (groups p)) (dl_h p) (dl_w p)
             (wd_mul w) (tap_total p0 (wd_filter w)) F1 F2 ltac:(cbn; lia) D1 D2 HM); [|exact L1|exact L2].
    intros oc fy fx H1 H2 H3. exact (cur_ok p0 WF0 (wd_filter w) HFp oc fy fx H1 H2 H3).
  Qed.

  Definition ot_ok (p : bconv) (t : otp Q) : Prop :=
    match wd_out w with
    | TFloat32 => one_time_setup p (at_act a) (wd_mul w) (wd_bias w) 1 0 = Some t
    | TInt8 => one_time_setup p (at_act a) (wd_mul w) (wd_bias w) (wd_scale w) (inject_Z (wd_zp w)) = Some t
    | _ => True
    end.
  Definition setup_ok (p : bconv) (od : opdata) : Prop :=
    ot_ok p (od_ot od) /\
    (zero_padding p = true -> padding_buffer p (wd_filter w) (wd_mul w) (zeros_for p) = Some (od_buf od)).

  Lemma setup_spec st od :
    infer_groups kt (at_cin a) (dim fsh 0) (dim fsh 3) = Some (Ok (pr_groups (od_prep od))) ->
    let p := cur w st od in
    match OneTimeSetup w st od with
    | Some od' => od_prep od' = od_prep od /\ od_kernel od' = od_kernel od /\ od_done od' = true /\ setup_ok p od'
    | None => match wd_out w with
              | TFloat32 => one_time_setup p (at_act a) (wd_mul w) (wd_bias w) 1 0 = None
              | TInt8 => one_time_setup p (at_act a) (wd_mul w) (wd_bias w) (wd_scale w) (inject_Z (wd_zp w)) = None
              | _ => False
              end
    end.
  Proof.
    intros HG p. unfold OneTimeSetup. fold p.
    assert (HB : exists b, (if zero_padding p
              then padding_buffer p (wd_filter w) (wd_mul w) (resize (od_buf od) (GetCacheSize (f_h p) (f_w p) (out_c p) (dl_h p) (dl_w p)))
              else Some (od_buf od)) = Some b /\
              (zero_padding p = true -> padding_buffer p (wd_filter w) (wd_mul w) (zeros_for p) = Some b)).
    { destruct (zero_padding p) eqn:EZ; [|exists (od_buf od); split; [reflexivity|discriminate]].
      assert (HS : 0 <= GetCacheSize (f_h p) (f_w p) (out_c p) (dl_h p) (dl_w p)).
      { destruct HW as (F0 & F1 & F2 & F3 & C1 & S1 & S2 & D1 & D2 & _). unfold GetCacheSize, p, cur, params_of.
        cbn [f_h f_w out_c dl_h dl_w].
        set (x := (dim fsh 1 - 1) * at_dh a + 1). set (y := (dim fsh 2 - 1) * at_dw a + 1).
        assert (0 <= x) by (unfold x; nia). assert (0 <= y) by (unfold y; nia).
        repeat apply Z.mul_nonneg_nonneg; lia. }
      destruct (buffer_indep (od_prep od) (st_ish st) (st_osh st)
                  (resize (od_buf od) (GetCacheSize (f_h p) (f_w p) (out_c p) (dl_h p) (dl_w p))) (zeros_for p) HG EZ)
        as (c & E1 & E2).
      - apply zlen_resize. exact HS.
      - unfold zeros_for, zlen. rewrite repeat_length. rewrite Z2Nat.id; [reflexivity|exact HS].
      - exists c. split; [exact E1|]. intros _. exact E2. }
    destruct HB as (b & E1 & E2). rewrite E1. cbn [bind].
    destruct (wd_out w) eqn:EO; cbn [bind].
    - repeat (split; [reflexivity|]). split; [unfold ot_ok; rewrite EO; exact I|exact E2].
    - destruct (one_time_setup _ _ _ _ _ _) as [t|] eqn:ET; cbn [bind]; [|reflexivity].
      repeat (split; [reflexivity|]). split; [unfold ot_ok; rewrite EO; exact ET|exact E2].
    - destruct (one_time_setup _ _ _ _ _ _) as [t|] eqn:ET; cbn [bind]; [|reflexivity].
      repeat (split; [reflexivity|]). split; [unfold ot_ok; rewrite EO; exact ET|exact E2].
    - repeat (split; [reflexivity|]). split; [unfold ot_ok; rewrite EO; exact I|exact E2].
  Qed.

  (** The invariant of OpData under the protocol. *)
  Definition INV (st : istate) : Prop :=
    st_ready st = true ->
    Prepare kt a (node_of w (st_ish st)) = Some (Ok (od_prep (st_od st))) /\
    st_osh st = pr_out (od_prep (st_od st)) /\
    (od_done (st_od st) = true -> setup_ok (cur w st (st_od st)) (st_od st)).

  Lemma prep_groups st : INV st -> st_ready st = true ->
    infer_groups kt (at_cin a) (dim fsh 0) (dim fsh 3) = Some (Ok (pr_groups (od_prep (st_od st)))).
  Proof. intros HI HR. destruct (HI HR) as (HP & _). apply prepare_inv in HP. cbn in HP. tauto. Qed.

  (** The OpData on which a ready node evaluates. *)
  Lemma eval_od_ok st od : INV st -> st_ready st = true -> eval_od kt w st = Some od ->
    od_prep od = od_prep (st_od st) /\ od_done od = true /\ setup_ok (cur w st (st_od st)) od /\
    match kt with
    | KIndirect => match od_kernel (st_od st) with
                   | Some k => od_kernel od = Some k
                   | None => exists k, make_kernel w (cur w st (st_od st)) (od_ot od) (st_addr st) = Some k /\ od_kernel od = Some k
                   end
    | _ => od_kernel od = od_kernel (st_od st)
    end.
  Proof.
    intros HI HR. assert (HG := prep_groups st HI HR). destruct (HI HR) as (HP & HO & HD). unfold eval_od.
    assert (HS : forall od1, (if od_done (st_od st) then Some (st_od st) else OneTimeSetup w st (st_od st)) = Some od1 ->
       od_prep od1 = od_prep (st_od st) /\ od_kernel od1 = od_kernel (st_od st) /\ od_done od1 = true /\
       setup_ok (cur w st (st_od st)) od1).
    { intros od1. destruct (od_done (st_od st)) eqn:ED.
      - intros H. injection H as <-. auto.
      - intros H. assert (K := setup_spec st (st_od st) HG). cbv zeta in K. rewrite H in K. exact K. }
    destruct (if od_done (st_od st) then _ else _) as [od1|]; [|discriminate]. cbn [bind].
    destruct (HS od1 eq_refl) as (P1 & P2 & P3 & P4).
    assert (EC : cur w st od1 = cur w st (st_od st)) by (unfold cur; rewrite P1; reflexivity).
    destruct kt; [intros H; injection H as <-; auto|intros H; injection H as <-; auto|].
    rewrite P2. destruct (od_kernel (st_od st)) as [k|] eqn:EK.
    - intros H. injection H as <-. auto.
    - rewrite EC. destruct (make_kernel w (cur w st (st_od st)) (od_ot od1) (st_addr st)) as [k|] eqn:EM; [|discriminate].
      cbn [bind]. intros H. injection H as <-. cbn [od_prep od_done od_ot od_kernel od_buf].
      split; [exact P1|]. split; [exact P3|]. split; [exact P4|]. exists k. split; [exact EM|reflexivity].
  Qed.

  Lemma INV_step e st st' : INV st -> step kt w e st = Some st' -> INV st'.
  Proof.
    intros HI. destruct e as [ish|addr junk|data|]; cbn [step].
    - intros H. injection H as <-. intros HR. discriminate HR.
    - destruct (Prepare kt a (node_of w (st_ish st))) as [[r|]|] eqn:EP; cbn [bind]; [| |discriminate].
      + intros H. injection H as <-. intros _. cbn [st_ish st_od od_prep prepared_od st_osh od_done].
        split; [exact EP|]. split; [reflexivity|discriminate].
      + intros H. injection H as <-. intros HR. discriminate HR.
    - intros H. injection H as <-. exact HI.
    - destruct (st_ready st) eqn:ER; [|intros H; injection H as <-; exact HI].
      destruct (eval_od kt w st) as [od|] eqn:EE; [|discriminate]. cbn [bind].
      intros H. injection H as <-. intros _. cbn [with_od st_ish st_od st_osh].
      destruct (eval_od_ok st od HI ER EE) as (P1 & P2 & P3 & _). destruct (HI ER) as (HP & HO & HD).
      split; [rewrite P1; exact HP|]. split; [rewrite P1; exact HO|]. intros _.
      unfold cur in *. cbn [st_ish st_osh]. rewrite P1. exact P3.
  Qed.

  Lemma run_INV es st st' : INV st -> run_events kt w es st = Some st' -> INV st'.
  Proof.
    revert st. induction es as [|e es IH]; intros st HI; cbn [run_events]; [intros H; injection H as <-; exact HI|].
    destruct (step kt w e st) as [st1|] eqn:E; [|discriminate]. cbn [bind]. apply IH. eapply INV_step; eassumption.
  Qed.
  Lemma INV_init : INV init_state.
  Proof. intros H. discriminate H. Qed.

  Lemma run_app es1 es2 st :
    run_events kt w (es1 ++ es2) st = let* st' := run_events kt w es1 st in run_events kt w es2 st'.
  Proof.
    revert st. induction es1 as [|e es1 IH]; intros st; [reflexivity|]. cbn [app run_events].
    destruct (step kt w e st) as [st1|]; [|reflexivity]. cbn [bind]. apply IH.
  Qed.

  Lemma correct_eq p b1 b2 o : (zero_padding p = true -> b1 = b2) -> correct p b1 o = correct p b2 o.
  Proof. intros H. unfold correct. destruct (zero_padding p); [rewrite H; reflexivity|reflexivity]. Qed.

  (** *** Reference and BGEMM kernels *)
  Lemma eval_fresh st fb ib S Post : kt <> KIndirect -> INV st -> st_ready st = true ->
    (kt = KBgemm -> shapes_ok a (st_ish st) fsh /\ dim (st_ish st) 3 = words (at_cin a)) ->
    let p := params_of a (od_prep (st_od st)) (st_ish st) fsh (pr_out (od_prep (st_od st))) in
    Eval kt w st fb ib S Post <-> fresh kt w p (st_input st) fb ib S Post.
  Proof.
    intros HK HI HR HB p. assert (HG := prep_groups st HI HR). destruct (HI HR) as (HP & HO & HD).
    assert (Ep : cur w st (st_od st) = p) by (unfold cur, p; rewrite HO; reflexivity).
    assert (HT := prepare_inv _ _ _ _ HP). cbv zeta in HT.
    destruct HT as (_&_&_&_&_&_&_&_&_&_&HT). cbn [nd_out node_of] in HT.
    assert (HIM : kt = KBgemm -> im2col_matches p (pr_im2col (od_prep (st_od st)))).
    { intros E. destruct (HB E) as [HS Hd].
      exact (proj2 (proj2 (proj2 (proj2 (proj2 (proj2 (proj2 (proj2 (prepare_sound _ _ _ _ HP HS Hd)))))))) E). }
    destruct (eval_od kt w st) as [od|] eqn:EE.
    - destruct (eval_od_ok st od HI HR EE) as (P1 & P2 & (P3 & P4) & _). rewrite Ep in P3, P4.
      unfold Eval. rewrite EE. cbn [wp].
      assert (Ec : cur w st od = p) by (unfold cur, p; rewrite HO, P1; reflexivity). rewrite Ec, P1.
      unfold fresh, ot_ok in *. destruct kt; [| |congruence].
      + destruct (wd_out w) eqn:EO; try (unfold eval_ref_float, eval_ref_int8; rewrite P3; cbn [bind]); tauto.
      + assert (X := HIM eq_refl). destruct (wd_out w) eqn:EO; try tauto.
        * rewrite P3. cbn [wp]. tauto.
        * unfold eval_bgemm_float. rewrite P3. cbn [wp].
          fold (zeros_for p).
          assert (HC : exists c, padding_buffer p (wd_filter w) (wd_mul w) (zeros_for p) = Some c /\
                                 (zero_padding p = true -> od_buf od = c)).
          { destruct (zero_padding p) eqn:EZ; [exists (od_buf od); auto|].
            unfold padding_buffer. rewrite EZ. exists (zeros_for p). split; [reflexivity|discriminate]. }
          destruct HC as (c & E1 & E2). rewrite E1. cbn [wp].
          split.
          -- intros [_ H]. eapply bgemm_conv_val_mono; [exact H|]. intros o. cbn beta.
             rewrite (correct_eq p (od_buf od) c o E2). auto.
          -- intros H. split; [exact X|]. eapply bgemm_conv_val_mono; [exact H|]. intros o. cbn beta.
             rewrite (correct_eq p (od_buf od) c o E2). auto.
    - assert (HN : OneTimeSetup w st (st_od st) = None).
      { unfold eval_od in EE. destruct (od_done (st_od st)) eqn:ED; cbn [bind] in EE;
          [destruct kt; discriminate || congruence|].
        destruct (OneTimeSetup w st (st_od st)); [cbn [bind] in EE; destruct kt; discriminate || congruence|reflexivity]. }
      assert (K := setup_spec st (st_od st) HG). cbv zeta in K. rewrite HN, Ep in K.
      unfold Eval. rewrite EE. cbn [wp]. unfold fresh.
      destruct kt; [| |congruence]; destruct (wd_out w); try tauto;
        unfold eval_ref_float, eval_ref_int8, eval_bgemm_float; rewrite K; cbn [bind wp]; tauto.
  Qed.

  (** *** The indirect kernel, when every Invoke saw the present shape and address *)
  Definition same_setting (es : list event) (ish : list Z) (addr : Z) : Prop :=
    forall es1 es2 st1, es = es1 ++ EInvoke :: es2 ->
      run_events kt w es1 init_state = Some st1 -> st_ready st1 = true ->
      st_ish st1 = ish /\ st_addr st1 = addr.

  Lemma kernel_inv es ish addr st : kt = KIndirect -> same_setting es ish addr ->
    run_events kt w es init_state = Some st ->
    match od_kernel (st_od st) with
    | None => True
    | Some k => exists r t, Prepare kt a (node_of w ish) = Some (Ok r) /\
        let p := params_of a r ish fsh (pr_out r) in
        ot_ok p t /\ make_kernel w p t addr = Some k
    end.
  Proof.
    intros HK. revert st. induction es as [|e es IH] using rev_ind; intros st HS HE.
    - cbn in HE. injection HE as <-. exact I.
    - rewrite run_app in HE. destruct (run_events kt w es init_state) as [st0|] eqn:E0; [|discriminate].
      cbn [bind run_events] in HE.
      assert (HS0 : same_setting es ish addr).
      { intros es1 es2 st1 E. apply (HS es1 (es2 ++ [e]) st1). rewrite E, <- app_assoc. reflexivity. }
      specialize (IH st0 HS0 eq_refl). assert (HI := run_INV es _ _ INV_init E0).
      destruct (step kt w e st0) as [st1|] eqn:ES; [|discriminate]. cbn [bind] in HE. injection HE as <-.
      destruct e as [i|ad junk|data|]; cbn [step] in ES.
      + injection ES as <-. exact IH.
      + destruct (Prepare kt a (node_of w (st_ish st0))) as [[r|]|]; cbn [bind] in ES; [| |discriminate];
          injection ES as <-; exact IH.
      + injection ES as <-. exact IH.
      + destruct (st_ready st0) eqn:ER; [|injection ES as <-; exact IH].
        destruct (eval_od kt w st0) as [od|] eqn:EE; [|discriminate]. cbn [bind] in ES. injection ES as <-.
        cbn [with_od st_od].
        destruct (HS es [] st0 eq_refl E0 ER) as [X1 X2].
        destruct (eval_od_ok st0 od HI ER EE) as (P1 & P2 & (P3 & _) & P5). rewrite HK in P5.
        destruct (od_kernel (st_od st0)) as [k|] eqn:EK.
        * rewrite P5. exact IH.
        * destruct P5 as (k & EM & ->). destruct (HI ER) as (HP & HO & _).
          exists (od_prep (st_od st0)), (od_ot od). unfold cur in *. rewrite X1, X2, HO in *. auto.
  Qed.

  Lemma kobj_val_eq {T} p t k st addr (run : Z -> Z -> option T) out :
    make_kernel w p t addr = Some k -> st_addr st = addr ->
    kobj_val k st run out = indirect_val p (st_input st) (wd_filter w) run out /\ ko_ot k = t.
  Proof.
    unfold make_kernel, indirect_val. destruct (PackWeights _ _) as [pw|]; [|discriminate]. cbn [bind].
    destruct (FillIndirectionBuffer _ _) as [ib|]; [|discriminate]. cbn [bind]. intros H <-. injection H as <-.
    unfold kobj_val. cbn [ko_addr ko_k ko_pw ko_ibuf ko_ot]. rewrite Z.eqb_refl. split; reflexivity.
  Qed.
  Lemma kobj_bits_eq p t k st addr (run : Z -> Z -> option bool) out :
    make_kernel w p t addr = Some k -> st_addr st = addr ->
    kobj_bits k st run out = indirect_bits p (st_input st) (wd_filter w) run out.
  Proof.
    unfold make_kernel, indirect_bits. destruct (PackWeights _ _) as [pw|]; [|discriminate]. cbn [bind].
    destruct (FillIndirectionBuffer _ _) as [ib|]; [|discriminate]. cbn [bind]. intros H <-. injection H as <-.
    unfold kobj_bits. cbn [ko_addr ko_k ko_pw ko_ibuf ko_ot]. rewrite Z.eqb_refl. reflexivity.
  Qed.

  Lemma make_kernel_none p t addr : make_kernel w p t addr = None ->
    (forall T (run : Z -> Z -> option T) input out, indirect_val p input (wd_filter w) run out = None) /\
    (forall run input out, indirect_bits p input (wd_filter w) run out = None).
  Proof.
    unfold make_kernel, indirect_val, indirect_bits. destruct (PackWeights _ _) as [pw|]; [|auto]. cbn [bind].
    destruct (FillIndirectionBuffer _ _) as [ib|]; [discriminate|auto].
  Qed.

  Lemma eval_fresh_indirect es st fb ib S Post : kt = KIndirect ->
    run_events kt w es init_state = Some st -> st_ready st = true ->
    same_setting es (st_ish st) (st_addr st) ->
    let p := params_of a (od_prep (st_od st)) (st_ish st) fsh (pr_out (od_prep (st_od st))) in
    Eval kt w st fb ib S Post <-> fresh kt w p (st_input st) fb ib S Post.
  Proof.
    intros HK HE HR HSS p. assert (HI := run_INV es _ _ INV_init HE). assert (HG := prep_groups st HI HR).
    assert (KI := kernel_inv es _ _ st HK HSS HE).
    destruct (HI HR) as (HP & HO & HD).
    assert (Ep : cur w st (st_od st) = p) by (unfold cur, p; rewrite HO; reflexivity).
    destruct (eval_od kt w st) as [od|] eqn:EE.
    - destruct (eval_od_ok st od HI HR EE) as (P1 & P2 & (P3 & P4) & P5). rewrite Ep in P3, P4, P5. rewrite HK in P5.
      assert (HKO : exists k t, od_kernel od = Some k /\ make_kernel w p t (st_addr st) = Some k /\ ot_ok p t).
      { destruct (od_kernel (st_od st)) as [k|].
        - destruct KI as (r & t & Hr & K1 & K2). rewrite HP in Hr. injection Hr as <-. exists k, t. auto.
        - destruct P5 as (k & K1 & K2). exists k, (od_ot od). auto. }
      destruct HKO as (k & t & EK & EM & Ht).
      unfold Eval. rewrite EE. cbn [wp].
      assert (Ec : cur w st od = p) by (unfold cur, p; rewrite HO, P1; reflexivity). rewrite Ec, EK, HK.
      unfold fresh, ot_ok in *. destruct (wd_out w) eqn:EO.
      + rewrite (kobj_bits_eq p t k st (st_addr st) _ ib EM eq_refl). tauto.
      + destruct (kobj_val_eq p t k st (st_addr st) (run_int8 Qops (ko_ot k)) ib EM eq_refl) as [-> ->].
        rewrite Ht. cbn [wp]. tauto.
      + destruct (kobj_val_eq p t k st (st_addr st) (run_float Qops (ko_ot k)) fb EM eq_refl) as [-> ->].
        unfold eval_indirect_float. rewrite Ht. cbn [bind]. fold (zeros_for p).
        assert (HC : exists c, padding_buffer p (wd_filter w) (wd_mul w) (zeros_for p) = Some c /\
                               (zero_padding p = true -> od_buf od = c)).
        { destruct (zero_padding p) eqn:EZ; [exists (od_buf od); auto|].
          unfold padding_buffer. rewrite EZ. exists (zeros_for p). split; [reflexivity|discriminate]. }
        destruct HC as (c & E1 & E2). rewrite E1. cbn [bind].
        destruct (indirect_val _ _ _ _ _) as [o|]; cbn [bind wp]; [|tauto].
        rewrite (correct_eq p (od_buf od) c o E2). tauto.
      + rewrite (kobj_bits_eq p t k st (st_addr st) _ ib EM eq_refl). tauto.
    - unfold Eval. rewrite EE. cbn [wp]. unfold fresh. rewrite HK.
      unfold eval_od in EE. rewrite HK in EE.
      assert (HNS : (OneTimeSetup w st (st_od st) = None /\ od_done (st_od st) = false) \/
                    exists t, make_kernel w p t (st_addr st) = None).
      { destruct (od_done (st_od st)) eqn:ED; cbn [bind] in EE.
        - right. destruct (od_kernel (st_od st)); [discriminate|]. exists (od_ot (st_od st)). rewrite Ep in EE.
          destruct (make_kernel w p (od_ot (st_od st)) (st_addr st)); [discriminate|reflexivity].
        - assert (K := setup_spec st (st_od st) HG). cbv zeta in K.
          destruct (OneTimeSetup w st (st_od st)) as [od1|]; [|left; auto]. cbn [bind] in EE.
          destruct K as (K1 & K2 & _). assert (Ec : cur w st od1 = p) by (rewrite <- Ep; unfold cur; rewrite K1; reflexivity).
          rewrite Ec in EE. right. exists (od_ot od1). destruct (od_kernel od1); [discriminate|].
          destruct (make_kernel w p (od_ot od1) (st_addr st)); [discriminate|reflexivity]. }
      destruct HNS as [[HN _] | [t HN]].
      + assert (K := setup_spec st (st_od st) HG). cbv zeta in K. rewrite HN, Ep in K.
        destruct (wd_out w); try tauto; unfold eval_indirect_float; rewrite K; cbn [bind wp]; tauto.
      + destruct (make_kernel_none _ _ _ HN) as [N1 N2]. destruct (wd_out w).
        * rewrite N2. cbn [wp]. tauto.
        * destruct (one_time_setup _ _ _ _ _ _); cbn [wp]; [|tauto]. rewrite N1. cbn [wp]. tauto.
        * unfold eval_indirect_float. destruct (one_time_setup _ _ _ _ _ _); cbn [bind wp]; [|tauto].
          destruct (padding_buffer _ _ _ _); cbn [bind wp]; [|tauto]. rewrite N1. cbn [bind wp]. tauto.
        * rewrite N2. cbn [wp]. tauto.
  Qed.
End Inv.
