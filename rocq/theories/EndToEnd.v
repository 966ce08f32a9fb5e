(** * EndToEnd: a node that Prepare accepts evaluates without undefined behaviour
    and to the mathematical result, with every kernel (proofs for C38, C47). *)
From Coq Require Import QArith.
From Verif Require Import Base Spec Bits Loop4 Bitpack Reference OutputTransform RefTheorems Padding
  Indirect IndirectBuf IndirectTop Log Bgemm BgemmProofs BgemmConv ZeroPad Prepare Lifecycle.
Open Scope Z_scope.

(** Number of elements of a tensor of shape [l]. *)
Definition elements (l : list Z) : Z := fold_right Z.mul 1 l.

(** The mathematical result of the operator on [input]: a convolution of +1/-1
    values with padding by zeros or ones, followed by the output transform. *)
Definition pad_with (p : bconv) : Z := if pad_same p && (pad_value p =? 0) then 0 else 1.
Definition the_value (w : world) (p : bconv) (input : list Z) (b y x c : Z) : Z :=
  conv (geom_of p) (pad_with p) (input_pm (geom_of p) input) (filter_pm (geom_of p) (wd_filter w)) b y x c.
Definition correct_output (w : world) (p : bconv) (input : list Z) (o : outv) : Prop :=
  match wd_out w, o with
  | TFloat32, OutF o =>
      zlen o = out_pixels (geom_of p) * out_c p /\
      forall b y x c m bi, 0 <= b < batches p -> 0 <= y < out_h p -> 0 <= x < out_w p ->
        rd (wd_mul w) c = Some m -> rd (wd_bias w) c = Some bi ->
        exists v, rd o (out_pixel (geom_of p) b y x * out_c p + c) = Some v /\
          (v == m * inject_Z (act_spec (at_act (wd_a w)) (the_value w p input b y x c)) + bi)%Q
  | TInt8, OutI o =>
      zlen o = out_pixels (geom_of p) * out_c p /\
      forall b y x c m bi, 0 <= b < batches p -> 0 <= y < out_h p -> 0 <= x < out_w p ->
        rd (wd_mul w) c = Some m -> rd (wd_bias w) c = Some bi ->
        rd o (out_pixel (geom_of p) b y x * out_c p + c) =
          Some (Z.max (-128) (Z.min 127 (round_haz
            ((m * inject_Z (act_spec (at_act (wd_a w)) (the_value w p input b y x c)) + bi) / wd_scale w
             + inject_Z (wd_zp w))%Q)))
  | TInt32, OutB o =>
      packed o (out_pixels (geom_of p)) (out_c p) /\
      forall b y x c t, 0 <= b < batches p -> 0 <= y < out_h p -> 0 <= x < out_w p ->
        0 <= c < out_c p -> rd (wd_thr w) c = Some t ->
        (bit_of o (words (out_c p)) (out_pixel (geom_of p) b y x) c = true
         <-> 2 * t < taps (geom_of p) - the_value w p input b y x c)
  | _, _ => False
  end.

(** The contract of the caller beyond [world_ok] (three more readable words after
    the thresholds for the indirect kernel, see C15): sizes as announced by the
    shapes, sign bits in canonical packed form, a legal GEMM schedule, indices in
    int range for the indirect kernel, and (C21) for zero padding in the optimised
    kernels a dilated filter no larger than the image. *)
Record call_ok (kt : kernel_type) (w : world) (ish : list Z) (p : bconv) (input : list Z) (S : sched) : Prop := {
  co_shapes : shapes_ok (wd_a w) ish (ti_dims (wd_filter_t w));
  co_depth : dim ish 3 = words (at_cin (wd_a w));
  co_input : packed input (dim ish 0 * dim ish 1 * dim ish 2) (at_cin (wd_a w));
  co_taps : dim (ti_dims (wd_filter_t w)) 1 * dim (ti_dims (wd_filter_t w)) 2 * at_cin (wd_a w) < 2 ^ 31;
  co_pv : at_pv (wd_a w) = 0 \/ at_pv (wd_a w) = 1;
  co_thr : wd_out w = TInt32 ->
           dim (ti_dims (wd_filter_t w)) 0 + (match kt with KIndirect => 3 | _ => 0 end) <= zlen (wd_thr w);
  co_scale : (0 < wd_scale w)%Q;
  co_sched : kt = KBgemm -> 0 < sd_kr S /\ 0 < sd_lc S /\ 0 < sd_rc S /\ sd_lc S mod 32 = 0 /\
             conv_schedule_ok (sd_kr S) (sd_lc S) (sd_rc S) p input (sd_s S);
  co_int : kt = KIndirect -> int32_indices p;
  co_fit : kt <> KReference -> at_pad (wd_a w) = PadSame -> at_pv (wd_a w) = 0 ->
           eff (f_h p) (dl_h p) <= in_h p /\ eff (f_w p) (dl_w p) <= in_w p
}.

Lemma run_float_total p b mul bias scale zp t : 0 <= out_c p -> zlen mul = out_c p -> zlen bias = out_c p ->
  one_time_setup p b mul bias scale zp = Some t ->
  (forall accum c, 0 <= c < out_c p -> exists y, run_float Qops t accum c = Some y) /\
  (forall accum c, 0 <= c < out_c p -> exists y, run_int8 Qops t accum c = Some y).
Proof.
  intros H0 Hm Hb Ht.
  assert (A : forall accum c, 0 <= c < out_c p -> exists y, run_float Qops t accum c = Some y).
  { intros accum c Hc. destruct (OutputTransform.setup_ok p b mul bias scale zp H0 Hm Hb) as (t' & E & _ & _ & L1 & L2 & _).
    rewrite E in Ht. injection Ht as <-. unfold run_float.
    destruct (rd_some (ot_mult t') c ltac:(lia)) as [x ->]. destruct (rd_some (ot_bias t') c ltac:(lia)) as [y ->].
    cbn [bind]. eexists. reflexivity. }
  split; [exact A|]. intros accum c Hc. destruct (A accum c Hc) as [y E]. unfold run_int8. rewrite E. cbn [bind].
  eexists. reflexivity.
Qed.

(** [eval_ref_bits_ok] when more memory is readable after the thresholds. *)
Lemma eval_ref_bits_more p input filter thresholds out :
  bconv_wf p -> packed input (in_pixels (geom_of p)) (channels_in p) ->
  packed filter (filter_pixels (geom_of p)) (channels_in p / groups p) ->
  (pad_same p && (pad_value p =? 0) = true -> (channels_in p / groups p) mod 2 = 0) ->
  out_c p <= zlen thresholds ->
  zlen out = out_pixels (geom_of p) * words (out_c p) ->
  exists out', eval_ref_bits p input filter thresholds out = Some out' /\
    packed out' (out_pixels (geom_of p)) (out_c p) /\
    forall b y x c t, 0 <= b < batches p -> 0 <= y < out_h p -> 0 <= x < out_w p -> 0 <= c < out_c p ->
      rd thresholds c = Some t ->
      (bit_of out' (words (out_c p)) (out_pixel (geom_of p) b y x) c = true
       <-> 2 * t < taps (geom_of p) - the_conv p input filter b y x c).
Proof.
  intros WF Hin Hfl Hev Ht Ho.
  set (v := fun b y x c => match rd thresholds c with
                           | Some t => t <? acc_ref p input filter b y x c | None => false end).
  destruct (reference_bits_ok p WF input filter Hin Hfl (run_bits thresholds) v out)
    as (out' & H1 & H2 & H3); [|exact Ho|].
  - intros b y x c Hb Hy Hx Hc. unfold run_bits, v.
    destruct (rd_some thresholds c ltac:(lia)) as [t ->]. reflexivity.
  - exists out'. split; [exact H1|]. split; [exact H2|].
    intros b y x c t Hb Hy Hx Hc Hct.
    rewrite H3 by auto. unfold v. rewrite Hct.
    destruct (acc_conv p WF input filter Hin Hfl Hev b y x c Hb Hc) as [EC BC]. lia.
Qed.

Section E2E.
  Variables (kt : kernel_type) (w : world) (ish : list Z) (r : prep) (input : list Z) (S : sched).
  Notation a := (wd_a w).
  Notation fsh := (ti_dims (wd_filter_t w)).
  Notation p := (params_of (wd_a w) r ish (ti_dims (wd_filter_t w)) (pr_out r)).
  Hypothesis HW : world_ok kt w.
  Hypothesis HPr : Prepare kt a (node_of w ish) = Some (Ok r).
  Hypothesis HC : call_ok kt w ish p input S.

  Lemma e2e_facts :
    bconv_wf p /\ prepared (at_pad a) p /\
    packed input (in_pixels (geom_of p)) (channels_in p) /\
    packed (wd_filter w) (filter_pixels (geom_of p)) (channels_in p / groups p) /\
    taps (geom_of p) < 2 ^ 31 /\
    elements (pr_out r) = out_pixels (geom_of p) * (if ttype_eqb (wd_out w) TInt32 then words (out_c p) else out_c p) /\
    1 <= out_c p /\ 1 <= f_h p /\ 1 <= f_w p /\ 1 <= f_d p /\
    1 <= s_h p /\ 1 <= s_w p /\ 1 <= dl_h p /\ 1 <= dl_w p.
  Proof.
    destruct HC as [HS Hd Hin Htap _ _ _ _ _ _].
    destruct (prepare_sound kt a (node_of w ish) r HPr HS Hd) as (WF & PP & _ & EO & _).
    destruct HW as (F0 & F1 & F2 & F3 & C1 & S1 & S2 & D1 & D2 & _ & HF & _).
    destruct (prepare_inv _ _ _ _ HPr) as (_ & _ & _ & _ & _ & EG & _). cbn [ti_dims nd_filter node_of] in EG.
    specialize (HF _ EG). destruct (infer_groups_ok _ _ _ _ _ C1 F0 F3 EG) as (G1 & G2 & G3 & G4 & _ & _ & G7 & G8).
    cbn [ti_dims nd_in nd_filter node_of nd_out] in WF, PP, EO.
    split; [exact WF|]. split; [exact PP|]. split; [exact Hin|]. split.
    { unfold filter_pixels, geom_of, params_of. cbn [gG gCO gKH gKW groups out_c f_h f_w channels_in].
      rewrite <- G3. exact HF. }
    split.
    { unfold taps, geom_of, params_of. cbn [gKH gKW gCI f_h f_w channels_in groups].
      assert (at_cin a / pr_groups r <= at_cin a) by (clear - G1 G2 G8; set (q := at_cin a / pr_groups r) in *; clearbody q; nia).
      assert (0 <= dim fsh 1 * dim fsh 2) by nia.
      assert (dim fsh 1 * dim fsh 2 * (at_cin a / pr_groups r) <= dim fsh 1 * dim fsh 2 * at_cin a)
        by (apply Z.mul_le_mono_nonneg_l; assumption).
      lia. }
    split.
    { unfold elements, out_pixels, geom_of, params_of. cbn [gB gOH gOW batches out_h out_w out_c]. rewrite EO.
      cbn [fold_right].
      change (dim [?x; ?y; ?z; ?t] 1) with y. change (dim [?x; ?y; ?z; ?t] 2) with z.
      ring. }
    cbn [params_of out_c f_h f_w f_d s_h s_w dl_h dl_w]. repeat split; assumption.
  Qed.

  (** The reference evaluation, as a statement about [correct_output]. *)
  Lemma ref_even : kt = KReference -> pad_same p && (pad_value p =? 0) = true -> (channels_in p / groups p) mod 2 = 0.
  Proof.
    destruct HC as [HS Hd _ _ _ _ _ _ _ _].
    destruct (prepare_sound kt a (node_of w ish) r HPr HS Hd) as (_ & _ & _ & _ & X & _). exact X.
  Qed.
  Lemma opt_guard : kt <> KReference -> pad_same p && (pad_value p =? 0) = true -> wd_out w = TFloat32 /\ at_act a = ActNone.
  Proof.
    destruct HC as [HS Hd _ _ _ _ _ _ _ _].
    destruct (prepare_sound kt a (node_of w ish) r HPr HS Hd) as (_ & _ & _ & _ & _ & X & _). exact X.
  Qed.
  Lemma no_zero_pad : pad_same p && (pad_value p =? 0) = false -> pad_same p = false \/ pad_value p = 1.
  Proof.
    destruct HC as [_ _ _ _ Hpv _ _ _ _ _]. cbn [params_of pad_same pad_value].
    destruct Hpv as [-> | ->]; [|auto]. destruct (at_pad a); cbn; auto; discriminate.
  Qed.

  Section Ref.
    Hypothesis Hev : pad_same p && (pad_value p =? 0) = true -> (channels_in p / groups p) mod 2 = 0.
    Lemma e2e_ref_float fb : wd_out w = TFloat32 -> zlen fb = elements (pr_out r) ->
      exists o, eval_ref_float p (at_act a) input (wd_filter w) (wd_mul w) (wd_bias w) fb = Some o /\
                correct_output w p input (OutF o).
    Proof.
      intros EO HL. destruct e2e_facts as (WF & _ & Hin & Hfl & Ht & EL & _). rewrite EO in EL. cbn [ttype_eqb] in EL.
      destruct HW as (_ & _ & _ & _ & _ & _ & _ & _ & _ & _ & _ & HM & _). rewrite EO in HM.
      destruct (HM ltac:(discriminate)) as [Hm Hb].
      destruct (eval_ref_float_ok p WF input (wd_filter w) Hin Hfl Hev Ht (at_act a) (wd_mul w) (wd_bias w) fb Hm Hb
                  ltac:(rewrite HL; exact EL)) as (o & E & L & V).
      exists o. split; [exact E|]. unfold correct_output. rewrite EO. split; [rewrite L, HL; exact EL|exact V].
    Qed.
    Lemma e2e_ref_int8 ib : wd_out w = TInt8 -> zlen ib = elements (pr_out r) ->
      exists o, eval_ref_int8 p (at_act a) input (wd_filter w) (wd_mul w) (wd_bias w) (wd_scale w) (wd_zp w) ib = Some o /\
                correct_output w p input (OutI o).
    Proof.
      intros EO HL. destruct e2e_facts as (WF & _ & Hin & Hfl & Ht & EL & _). rewrite EO in EL. cbn [ttype_eqb] in EL.
      destruct HW as (_ & _ & _ & _ & _ & _ & _ & _ & _ & _ & _ & HM & _). rewrite EO in HM.
      destruct (HM ltac:(discriminate)) as [Hm Hb].
      destruct (eval_ref_int8_ok p WF input (wd_filter w) Hin Hfl Hev Ht (at_act a) (wd_mul w) (wd_bias w) (wd_scale w) (wd_zp w) ib Hm Hb
                  ltac:(rewrite HL; exact EL) (co_scale _ _ _ _ _ _ HC)) as (o & E & L & V).
      exists o. split; [exact E|]. unfold correct_output. rewrite EO. split; [rewrite L, HL; exact EL|exact V].
    Qed.
    Lemma e2e_ref_bits ib : wd_out w = TInt32 -> zlen ib = elements (pr_out r) ->
      exists o, eval_ref_bits p input (wd_filter w) (wd_thr w) ib = Some o /\ correct_output w p input (OutB o).
    Proof.
      intros EO HL. destruct e2e_facts as (WF & _ & Hin & Hfl & Ht & EL & _). rewrite EO in EL. cbn [ttype_eqb] in EL.
      assert (HTh : out_c p <= zlen (wd_thr w)).
      { assert (X := co_thr _ _ _ _ _ _ HC EO). unfold params_of. cbn [out_c]. destruct kt; lia. }
      destruct (eval_ref_bits_more p input (wd_filter w) (wd_thr w) ib WF Hin Hfl Hev HTh
                  ltac:(rewrite HL; exact EL)) as (o & E & L & V).
      exists o. split; [exact E|]. unfold correct_output. rewrite EO. split; [exact L|exact V].
    Qed.
  End Ref.

  Lemma fresh_correct fb ib :
    (wd_out w = TFloat32 -> zlen fb = elements (pr_out r)) ->
    (wd_out w <> TFloat32 -> zlen ib = elements (pr_out r)) ->
    fresh kt w p input fb ib S (correct_output w p input).
  Proof.
    intros HLf HLi.
    assert (HT := prepare_inv _ _ _ _ HPr). cbv zeta in HT.
    destruct HT as (_&_&_&_&_&_&_&_&_&_&HT). cbn [nd_out node_of] in HT.
    destruct e2e_facts as (WF & PP & Hin & Hfl & Ht & EL & O1 & FH & FW & FD & S1 & S2 & D1 & D2).
    assert (HM : wd_out w <> TInt32 -> zlen (wd_mul w) = out_c p /\ zlen (wd_bias w) = out_c p).
    { destruct HW as (_ & _ & _ & _ & _ & _ & _ & _ & _ & _ & _ & HM & _). exact HM. }
    destruct HC as [HS Hd _ _ Hpv Hthr Hsc Hsch Hint Hfit].
    assert (K : kt = KReference \/ kt <> KReference) by (destruct kt; auto; right; discriminate).
    destruct K as [K | K].
    { (* reference kernel *)
      assert (Hev := ref_even K). unfold fresh. rewrite K.
      destruct HT as [EO | [EO | EO]]; rewrite EO.
      - destruct (e2e_ref_bits Hev ib EO (HLi ltac:(rewrite EO; discriminate))) as (o & E & V). rewrite E. exact V.
      - destruct (e2e_ref_int8 Hev ib EO (HLi ltac:(rewrite EO; discriminate))) as (o & E & V). rewrite E. exact V.
      - destruct (e2e_ref_float Hev fb EO (HLf EO)) as (o & E & V). rewrite E. exact V. }
    destruct (pad_same p && (pad_value p =? 0)) eqn:EZ.
    { (* zero padding: float output without activation *)
      destruct (opt_guard K EZ) as [EO EA]. assert (HLf' := HLf EO). rewrite EO in EL. cbn [ttype_eqb] in EL.
      assert (Hz : at_pad a = PadSame /\ at_pv a = 0).
      { apply andb_true_iff in EZ. destruct EZ as [A B]. cbn [params_of pad_same pad_value] in A, B.
        apply Z.eqb_eq in B. split; [destruct (at_pad a); reflexivity || discriminate|exact B]. }
      destruct Hz as [Z1 Z2]. destruct (Hfit K Z1 Z2) as [E1 E2]. rewrite Z1 in PP.
      destruct (HM ltac:(rewrite EO; discriminate)) as [Hm Hb].
      set (buf := repeat 0%Q (Z.to_nat (GetCacheSize (f_h p) (f_w p) (out_c p) (dl_h p) (dl_w p)))).
      assert (Hbuf : zlen buf = GetCacheSize (f_h p) (f_w p) (out_c p) (dl_h p) (dl_w p)).
      { unfold buf. rewrite zlen_repeat. apply Z2Nat.id. unfold GetCacheSize.
        assert (0 <= (f_h p - 1) * dl_h p + 1) by nia. assert (0 <= (f_w p - 1) * dl_w p + 1) by nia.
        repeat apply Z.mul_nonneg_nonneg; lia. }
      assert (HR : forall o, zlen o = zlen fb ->
         (forall b y x c m bi, 0 <= b < batches p -> 0 <= y < out_h p -> 0 <= x < out_w p ->
            rd (wd_mul w) c = Some m -> rd (wd_bias w) c = Some bi ->
            exists r0, rd o (out_pixel (geom_of p) b y x * out_c p + c) = Some r0 /\
              (r0 == m * inject_Z (conv (geom_of p) 0 (input_pm (geom_of p) input) (filter_pm (geom_of p) (wd_filter w)) b y x c)
                    + bi)%Q) -> correct_output w p input (OutF o)).
      { intros o L V. unfold correct_output. rewrite EO. split; [rewrite L, HLf'; exact EL|].
        rewrite EA. unfold the_value, pad_with. rewrite EZ. exact V. }
      unfold fresh. rewrite EO, EA. destruct kt; [congruence| |].
      - destruct (Hsch eq_refl) as (H1 & H2 & H3 & _ & H5).
        assert (HG : groups p = 1) by exact (proj1 (proj2 (proj2 (prepare_sound KBgemm a (node_of w ish) r HPr HS Hd))) eq_refl).
        assert (X := bgemm_zero_padded p WF input (wd_filter w) Hin Hfl PP Z2 FH FW S1 S2 D1 D2 E1 E2 Ht
          (wd_mul w) (wd_bias w) buf fb Hm Hb Hbuf ltac:(rewrite HLf'; exact EL)
          (sd_kr S) (sd_lc S) (sd_rc S) (sd_s S) HG H1 H2 H3 H5).
        fold buf. unfold eval_bgemm_float in *.
        destruct (one_time_setup _ _ _ _ _ _); [|exact X]. cbn [wp] in *.
        destruct (padding_buffer _ _ _ _); [|exact X]. cbn [wp] in *.
        eapply bgemm_conv_val_mono; [exact X|]. intros o1. cbn beta.
        destruct (correct _ _ o1); [|auto]. cbn [wp]. intros (L & V). apply HR; assumption.
      - destruct (indirect_zero_padded p WF input (wd_filter w) Hin Hfl PP Z2 FH FW S1 S2 D1 D2 E1 E2 Ht
          (wd_mul w) (wd_bias w) buf fb Hm Hb Hbuf ltac:(rewrite HLf'; exact EL) FD (Hint eq_refl)) as (o & E & L & V).
        fold buf. rewrite E. cbn [wp]. apply HR; assumption. }
    (* one padding *)
    assert (Hpad := no_zero_pad EZ). assert (HO0 : 0 <= out_c p) by lia.
    assert (Hev : pad_same p && (pad_value p =? 0) = true -> (channels_in p / groups p) mod 2 = 0)
      by (intros X; rewrite X in EZ; discriminate).
    assert (HZF : zero_padding p = false) by exact EZ.
    assert (Hone := zero_padding_one p Hpad).
    assert (RB := e2e_ref_bits Hev ib). assert (RI := e2e_ref_int8 Hev ib). assert (RF := e2e_ref_float Hev fb).
    destruct kt eqn:EK; [congruence| |].
    - destruct (Hsch eq_refl) as (H1 & H2 & H3 & H4 & H5).
      assert (HG : groups p = 1) by exact (proj1 (proj2 (proj2 (prepare_sound KBgemm a (node_of w ish) r HPr HS Hd))) eq_refl).
      unfold fresh. destruct HT as [EO | [EO | EO]]; rewrite EO in EL |- *; cbn [ttype_eqb] in EL.
      + assert (Hl := HLi ltac:(rewrite EO; discriminate)).
        destruct (RB EO Hl) as (o & E & V). unfold eval_ref_bits in E.
        eapply bgemm_conv_bits_mono; [apply (bgemm_eq_reference_bits (at_pad a) p WF input (wd_filter w) Hin Hfl HG PP
          (sd_kr S) (sd_lc S) (sd_rc S) (sd_s S) H1 H2 H3 H5 (run_bits (wd_thr w)) ib)|].
        * exact H4.
        * exact Hone.
        * intros accum c Hc. unfold run_bits. assert (X := Hthr EO). unfold params_of in Hc. cbn [out_c] in Hc.
          destruct (rd_some (wd_thr w) c ltac:(lia)) as [t ->]. cbn [bind]. eexists. reflexivity.
        * rewrite Hl. exact EL.
        * intros o' (E' & _). rewrite E in E'. injection E' as <-. exact V.
      + assert (Hl := HLi ltac:(rewrite EO; discriminate)).
        destruct (RI EO Hl) as (o & E & V). unfold eval_ref_int8 in E.
        destruct (HM ltac:(rewrite EO; discriminate)) as [Hm Hb].
        destruct (one_time_setup _ _ _ _ _ _) as [t|] eqn:ET; [|discriminate]. cbn [bind wp] in *.
        destruct (run_float_total _ _ _ _ _ _ _ HO0 Hm Hb ET) as [_ R2].
        eapply bgemm_conv_val_mono; [apply (bgemm_eq_reference_val (at_pad a) p WF input (wd_filter w) Hin Hfl HG PP
          (sd_kr S) (sd_lc S) (sd_rc S) (sd_s S) H1 H2 H3 H5 (run_int8 Qops t) ib Hone R2)|].
        * rewrite Hl. exact EL.
        * intros o' E'. rewrite E in E'. injection E' as <-. exact V.
      + assert (Hl := HLf EO).
        destruct (RF EO Hl) as (o & E & V). unfold eval_ref_float in E. unfold eval_bgemm_float.
        destruct (HM ltac:(rewrite EO; discriminate)) as [Hm Hb].
        destruct (one_time_setup _ _ _ _ _ _) as [t|] eqn:ET; [|discriminate]. cbn [bind wp] in *.
        unfold padding_buffer, correct. rewrite HZF. cbn [wp].
        destruct (run_float_total _ _ _ _ _ _ _ HO0 Hm Hb ET) as [R1 _].
        eapply bgemm_conv_val_mono; [apply (bgemm_eq_reference_val (at_pad a) p WF input (wd_filter w) Hin Hfl HG PP
          (sd_kr S) (sd_lc S) (sd_rc S) (sd_s S) H1 H2 H3 H5 (run_float Qops t) fb Hone R1)|].
        * rewrite Hl. exact EL.
        * intros o' E'. rewrite E in E'. injection E' as <-. exact V.
    - assert (HI := Hint eq_refl).
      unfold fresh. destruct HT as [EO | [EO | EO]]; rewrite EO in EL |- *; cbn [ttype_eqb] in EL.
      + assert (Hl := HLi ltac:(rewrite EO; discriminate)).
        destruct (RB EO Hl) as (o & E & V). unfold eval_ref_bits in E.
        destruct (indirect_eq_reference_bits p WF input (wd_filter w) Hin Hfl FH FW FD HI (run_bits (wd_thr w)) ib) as (o' & E1 & E2 & _).
        * exact Hone.
        * intros accum c Hc. unfold run_bits. assert (X := Hthr EO). unfold params_of in Hc. cbn [out_c] in Hc.
          destruct (rd_some (wd_thr w) c ltac:(lia)) as [t ->]. cbn [bind]. eexists. reflexivity.
        * rewrite Hl. exact EL.
        * rewrite E1. cbn [wp]. rewrite E in E2. injection E2 as <-. exact V.
      + assert (Hl := HLi ltac:(rewrite EO; discriminate)).
        destruct (RI EO Hl) as (o & E & V). unfold eval_ref_int8 in E.
        destruct (HM ltac:(rewrite EO; discriminate)) as [Hm Hb].
        destruct (one_time_setup _ _ _ _ _ _) as [t|] eqn:ET; [|discriminate]. cbn [bind wp] in *.
        destruct (run_float_total _ _ _ _ _ _ _ HO0 Hm Hb ET) as [_ R2].
        destruct (indirect_eq_reference_val p WF input (wd_filter w) Hin Hfl FH FW FD HI (run_int8 Qops t) ib Hone R2
          ltac:(rewrite Hl; exact EL)) as (o' & E1 & E2).
        rewrite E1. cbn [wp]. rewrite E in E2. injection E2 as <-. exact V.
      + assert (Hl := HLf EO).
        destruct (RF EO Hl) as (o & E & V). unfold eval_ref_float in E. unfold eval_indirect_float.
        destruct (HM ltac:(rewrite EO; discriminate)) as [Hm Hb].
        destruct (one_time_setup _ _ _ _ _ _) as [t|] eqn:ET; [|discriminate]. cbn [bind wp] in *.
        unfold padding_buffer, correct. rewrite HZF. cbn [bind].
        destruct (run_float_total _ _ _ _ _ _ _ HO0 Hm Hb ET) as [R1 _].
        destruct (indirect_eq_reference_val p WF input (wd_filter w) Hin Hfl FH FW FD HI (run_float Qops t) fb Hone R1
          ltac:(rewrite Hl; exact EL)) as (o' & E1 & E2).
        rewrite E1. cbn [bind wp]. rewrite E in E2. injection E2 as <-. exact V.
  Qed.
End E2E.

(** ** Whole histories *)

Lemma invoke_correct kt w es st fb ib S :
  kt <> KIndirect -> world_ok kt w ->
  run_events kt w es init_state = Some st -> st_ready st = true ->
  (forall r, Prepare kt (wd_a w) (node_of w (st_ish st)) = Some (Ok r) ->
     let p := params_of (wd_a w) r (st_ish st) (ti_dims (wd_filter_t w)) (pr_out r) in
     call_ok kt w (st_ish st) p (st_input st) S /\
     (wd_out w = TFloat32 -> zlen fb = elements (pr_out r)) /\
     (wd_out w <> TFloat32 -> zlen ib = elements (pr_out r))) ->
  exists r, Prepare kt (wd_a w) (node_of w (st_ish st)) = Some (Ok r) /\
    let p := params_of (wd_a w) r (st_ish st) (ti_dims (wd_filter_t w)) (pr_out r) in
    Eval kt w st fb ib S (correct_output w p (st_input st)).
Proof.
  intros HK HW HE HR HC. assert (HI := run_INV kt w HW es _ _ (INV_init kt w) HE).
  destruct (HI HR) as (HP & _). exists (od_prep (st_od st)). split; [exact HP|]. cbv zeta.
  destruct (HC _ HP) as (C1 & C2 & C3). cbv zeta in C1.
  apply (eval_fresh kt w HW st fb ib S _ HK HI HR).
  - intros _. split; [exact (co_shapes _ _ _ _ _ _ C1)|exact (co_depth _ _ _ _ _ _ C1)].
  - exact (fresh_correct kt w (st_ish st) (od_prep (st_od st)) (st_input st) S HW HP C1 fb ib C2 C3).
Qed.

Lemma invoke_correct_indirect w es st fb ib S :
  world_ok KIndirect w ->
  run_events KIndirect w es init_state = Some st -> st_ready st = true ->
  (forall es1 es2 st1, es = es1 ++ EInvoke :: es2 ->
     run_events KIndirect w es1 init_state = Some st1 -> st_ready st1 = true ->
     st_ish st1 = st_ish st /\ st_addr st1 = st_addr st) ->
  (forall r, Prepare KIndirect (wd_a w) (node_of w (st_ish st)) = Some (Ok r) ->
     let p := params_of (wd_a w) r (st_ish st) (ti_dims (wd_filter_t w)) (pr_out r) in
     call_ok KIndirect w (st_ish st) p (st_input st) S /\
     (wd_out w = TFloat32 -> zlen fb = elements (pr_out r)) /\
     (wd_out w <> TFloat32 -> zlen ib = elements (pr_out r))) ->
  exists r, Prepare KIndirect (wd_a w) (node_of w (st_ish st)) = Some (Ok r) /\
    let p := params_of (wd_a w) r (st_ish st) (ti_dims (wd_filter_t w)) (pr_out r) in
    Eval KIndirect w st fb ib S (correct_output w p (st_input st)).
Proof.
  intros HW HE HR HS HC. assert (HI := run_INV KIndirect w HW es _ _ (INV_init KIndirect w) HE).
  destruct (HI HR) as (HP & _). exists (od_prep (st_od st)). split; [exact HP|]. cbv zeta.
  destruct (HC _ HP) as (C1 & C2 & C3). cbv zeta in C1.
  apply (eval_fresh_indirect KIndirect w HW es st fb ib S _ eq_refl HE HR HS).
  exact (fresh_correct KIndirect w (st_ish st) (od_prep (st_od st)) (st_input st) S HW HP C1 fb ib C2 C3).
Qed.
