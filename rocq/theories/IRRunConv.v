(** * IRRunConv: LceBconv2d on buffers computes the IR's convolution (for C68). *)
From Coq Require Import QArith Lqa.
From Verif Require Import Base Spec Bits Bitpack Padding Reference OutputTransform MaxPool Quantize ConvFold
  Bgemm BgemmConv ZeroPad Prepare Lifecycle EndToEnd IndirectBuf Threshold IR IRProofs IRRules IRRun IRRunProof.
Open Scope Z_scope.

Lemma Eval_mono kt w st fb ib S (P Q : outv -> Prop) : (forall o, P o -> Q o) ->
  Eval kt w st fb ib S P -> Eval kt w st fb ib S Q.
Proof.
  intros HPQ. unfold Eval. intros H. eapply wp_mono; [exact H|]. cbv beta zeta. clear H. intros od H.
  destruct kt.
  - destruct (wd_out w); (eapply wp_mono; [exact H|]); intros o Ho; apply HPQ; exact Ho.
  - destruct H as [H1 H]. split; [exact H1|].
    destruct (wd_out w); unfold bgemm_conv_val, bgemm_conv_bits in *; destruct (im2col _ _) as [[rhs k] m];
      (eapply bgemm_mono; [exact H|]); intros o Ho; cbv beta in *; try (apply HPQ; exact Ho).
    eapply wp_mono; [exact Ho|]. intros o' Ho'. apply HPQ. exact Ho'.
  - destruct (od_kernel od) as [k|]; [|exact H].
    destruct (wd_out w); (eapply wp_mono; [exact H|]); intros o Ho; cbv beta in *; try (apply HPQ; exact Ho).
    eapply wp_mono; [exact Ho|]. intros o' Ho'. apply HPQ. exact Ho'.
Qed.

(** C47 for the three kernels at once. *)
Lemma invoke_any kt w es st fb ib S :
  world_ok kt w -> run_events kt w es init_state = Some st -> st_ready st = true ->
  (kt = KIndirect -> same_setting kt w es (st_ish st) (st_addr st)) ->
  (forall r, Prepare kt (wd_a w) (node_of w (st_ish st)) = Some (Ok r) ->
     let p := params_of (wd_a w) r (st_ish st) (ti_dims (wd_filter_t w)) (pr_out r) in
     call_ok kt w (st_ish st) p (st_input st) S /\
     (wd_out w = TFloat32 -> zlen fb = elements (pr_out r)) /\
     (wd_out w <> TFloat32 -> zlen ib = elements (pr_out r))) ->
  exists r, Prepare kt (wd_a w) (node_of w (st_ish st)) = Some (Ok r) /\
    let p := params_of (wd_a w) r (st_ish st) (ti_dims (wd_filter_t w)) (pr_out r) in
    Eval kt w st fb ib S (correct_output w p (st_input st)).
Proof.
  intros HW Hrun Hr Hs HC. destruct kt.
  - apply (invoke_correct KReference w es); try assumption. discriminate.
  - apply (invoke_correct KBgemm w es); try assumption. discriminate.
  - apply (invoke_correct_indirect w es); try assumption. exact (Hs eq_refl).
Qed.

(** The filter shape passes the converter's check, so the runtime infers its groups. *)
Lemma groups_of C ci Co kt : 0 < C -> 0 < ci -> 1 <= Co -> C = C / ci * ci -> Co = Co / (C / ci) * (C / ci) ->
  (C = ci \/ ci mod 32 = 0) -> (kt = KBgemm -> ci = C) ->
  infer_groups kt C Co (words ci) = Some (Ok (C / ci)).
Proof.
  intros HC Hci HCo E1 E2 Hg Hb. assert (Hq : 0 < C / ci) by nia. rewrite groups_agree; [|lia|lia|lia| |].
  - destruct kt; try reflexivity. rewrite (Hb eq_refl), Z.div_same by lia. reflexivity.
  - unfold HasValidFilterShape, cmod, cdiv. destruct (Z.eqb_spec ci 0); [lia|]. cbn [bind].
    rewrite Z.rem_mod_nonneg, Z.quot_div_nonneg by lia.
    assert (E0 : C mod ci = 0) by (rewrite E1 at 1; apply Z.mod_mul; lia). rewrite E0. cbn [Z.eqb negb].
    destruct Hg as [Hg|Hg].
    + rewrite <- Hg, Z.div_same by lia. reflexivity.
    + rewrite Z.rem_mod_nonneg, Hg by lia. cbn [Z.eqb negb]. rewrite Bool.andb_false_r. reflexivity.
  - rewrite E2 at 1. apply Z.mod_mul. lia.
Qed.

Section conv.
  Variables (oq : option (Q * Z)) (kt : kernel_type) (c : cattr) (ti : tensor bool) (tf : tensor Q) (g : geom) (rest : list value).
  Variables (C W H N ci KW KH Co : Z) (l fl : list Z) (f : list Q) (m b t : buf) (extra : list Z).
  Hypothesis Hg : bc_geom c (sh ti) (sh tf) = Some g.
  Hypothesis Hi : sh ti = [C; W; H; N].
  Hypothesis Hf : sh tf = [ci; KW; KH; Co].
  Hypothesis Hok : op_ok kt (OConv c) (VBits ti :: VF tf :: rest).
  Hypothesis HNN : nonneg [C; W; H; N].
  Hypothesis HP : packed l (W * (H * (N * 1))) C.
  Hypothesis HE : forall k i, in_range [C; W; H; N] (k :: i) -> bit_of l (words C) (ravel [W; H; N] i) k = at_ ti (k :: i).
  Hypothesis HFP : packed fl (Co * KH * KW) ci.
  Hypothesis HFE : forall o fy fx k, 0 <= o < Co -> 0 <= fy < KH -> 0 <= fx < KW -> 0 <= k < ci ->
    bit_of fl (words ci) ((o * KH + fy) * KW + fx) k = Qlt_bool (at_ tf [k; fx; fy; o]) 0.
  Hypothesis Hextra : zlen extra = 3.
  Let w := world_of oq c [Co; KH; KW; GetBitpackedSize ci] fl m b t extra.
  Let d := [N; H; W; words C].

  Lemma conv_dims : C = ca_cin c /\ 0 < C /\ 0 < ci /\ C = C / ci * ci /\ 0 < C / ci /\ Co = Co / (C / ci) * (C / ci) /\
    (C = ci \/ ci mod 32 = 0) /\ C / (C / ci) = ci /\
    g = {| gB := N; gH := H; gW := W; gKH := KH; gKW := KW;
           gOH := fst (padding1D (ca_pad c) H KH (ca_sh c) (ca_dh c)); gOW := fst (padding1D (ca_pad c) W KW (ca_sw c) (ca_dw c));
           gSH := ca_sh c; gSW := ca_sw c; gDH := ca_dh c; gDW := ca_dw c;
           gPH := snd (padding1D (ca_pad c) H KH (ca_sh c) (ca_dh c)); gPW := snd (padding1D (ca_pad c) W KW (ca_sw c) (ca_dw c));
           gG := C / ci; gCI := ci; gCO := Co / (C / ci) |}.
  Proof.
    destruct (bc_geom_inv _ _ _ _ Hg) as (C' & W' & H' & N' & ci' & KW' & KH' & Co' & E1 & E2 & K1 & K2 & K3 & _ & _ & K4 & K5 & K6 & _).
    rewrite Hi in E1. rewrite Hf in E2. injection E1 as <- <- <- <-. injection E2 as <- <- <- <-.
    do 6 (split; [assumption|]). unfold bc_geom in Hg. rewrite Hi, Hf in Hg. destruct (_ && _) eqn:E in Hg; [|discriminate].
    repeat rewrite andb_true_iff in E. destruct E as (_ & E). apply orb_true_iff in E.
    split; [destruct E as [E|E]; [left; apply Z.eqb_eq, E|right; apply Z.eqb_eq, E]|].
    split; [rewrite K4 at 1; rewrite Z.mul_comm; apply Z.div_mul; lia|].
    destruct (padding1D (ca_pad c) H KH (ca_sh c) (ca_dh c)), (padding1D (ca_pad c) W KW (ca_sw c) (ca_dw c)).
    injection Hg as <-. reflexivity.
  Qed.

  (** What the node's operands look like in the two cases. *)
  Hypothesis Hcase :
    match oq, t with
    | None, BI td tl => td = [Co] /\ zlen tl = Co /\ m = BN /\ b = BN
    | _, _ => exists ml bl, m = BF [Co] ml /\ b = BF [Co] bl /\ zlen ml = Co /\ zlen bl = Co
    end.
  Hypothesis Hoq : (forall s z, oq = Some (s, z) -> 0 < s)%Q.
  Hypothesis Hzero : ca_pad c = PadSame -> ca_padv c = 0 ->
    wd_out w = TFloat32 \/ wd_out w = TInt8 /\ kt = KReference.

  Let r : prep :=
    {| pr_oc := Co; pr_fh := KH; pr_fw := KW; pr_groups := C / ci; pr_padh := gPH g; pr_padw := gPW g;
       pr_out := [N; gOH g; gOW g; if ttype_eqb (wd_out w) TInt32 then GetBitpackedSize Co else Co];
       pr_im2col := if need_im2col kt (attrs_of c) KH KW
            then Some [N; gOH g; gOW g; GetBitpackedSize C * KH * KW] else None |}.

  Lemma conv_prepare : Prepare kt (wd_a w) (node_of w d) = Some (Ok r).
  Proof.
    destruct conv_dims as (D1 & D2 & D3 & D4 & D5 & D6 & D7 & D8 & Eg).
    pose proof Hok as HK. cbn [op_ok] in HK. rewrite Hi, Hf in HK.
    destruct HK as (K1 & K2 & K3 & K4 & K5 & K6 & K7 & K8 & K9 & K10 & K11 & K12 & K13).
    unfold Prepare, node_of, w, world_of, rank, d.
    cbn [wd_a wd_filter_t wd_mul_t wd_bias_t wd_thr_t wd_out wd_affine nd_inputs nd_in nd_filter nd_mul nd_bias nd_thr nd_out nd_affine nd_dynamic ti_type ti_dims].
    replace (zlen [N; H; W; words C]) with 4 by reflexivity.
    replace (zlen [Co; KH; KW; GetBitpackedSize ci]) with 4 by reflexivity.
    cbn [Z.eqb Pos.eqb ttype_eqb ensure].
    set (ot := match oq, t with Some _, _ => TInt8 | None, BI _ _ => TInt32 | _, _ => TFloat32 end).
    assert (Eout : forall A (k : option (outcome A)), ensure (ttype_eqb ot TInt32 || ttype_eqb ot TInt8 || ttype_eqb ot TFloat32) k = k)
      by (intros; unfold ot; destruct oq, t; reflexivity).
    rewrite Eout. cbn [rd Z.ltb Z.compare Z.to_nat Pos.to_nat Pos.iter_op nth_error bind Nat.add].
    unfold rd; cbn [Z.ltb Z.compare Z.to_nat nth_error bind]. change (Pos.to_nat 1) with 1%nat. change (Pos.to_nat 2) with 2%nat. change (Pos.to_nat 3) with 3%nat.
    cbn [nth_error bind]. cbn [attrs_of at_cin]. rewrite <- D1. rewrite (GetBitpackedSize_words ci) by lia.
    rewrite groups_of by (try assumption; lia). cbn [bind].
    assert (EZ : zero_pad_guard kt (attrs_of c) ot = true).
    { unfold zero_pad_guard. cbn [attrs_of at_pad at_pv at_cin at_act]. destruct (ca_pad c) eqn:Ep; try reflexivity.
      destruct (Z.eqb_spec (ca_padv c) 0) as [Ev|Ev]; [|reflexivity].
      destruct (K11 eq_refl Ev) as [_ K11']. assert (Ho := Hzero eq_refl Ev). cbn [w world_of wd_out] in Ho. fold ot in Ho.
      destruct kt; [rewrite Z.rem_mod_nonneg, <- D1, K11' by lia; reflexivity| |];
        (destruct Ho as [Ho|[_ Ho]]; [|discriminate]); rewrite Ho; destruct K11' as [-> _]; reflexivity. }
    rewrite EZ. cbn [ensure attrs_of at_pad at_sh at_dh at_sw at_dw].
    destruct (padding1D (ca_pad c) H KH (ca_sh c) (ca_dh c)) as [oh py] eqn:Ey.
    destruct (padding1D (ca_pad c) W KW (ca_sw c) (ca_dw c)) as [ow px] eqn:Ex. cbn [fst snd] in Eg.
    unfold r, w, world_of. cbn [wd_out]. rewrite Eg. cbn [gOH gOW gPH gPW]. unfold attrs_of at 1. cbn [at_cin]. unfold ot.
    destruct oq as [sz|].
    { destruct Hcase as (ml & bl & -> & -> & H1 & H2). cbn [f_info ti_type ti_dims ttype_eqb zlen length rank]; cbn;
           rewrite Z.eqb_refl; cbn; destruct kt; reflexivity. }
    destruct t as [| | |td tl|];
      try (destruct Hcase as (ml & bl & -> & -> & H1 & H2); cbn [f_info ti_type ti_dims ttype_eqb zlen length rank]; cbn;
           rewrite Z.eqb_refl; cbn; destruct kt; reflexivity).
    destruct Hcase as (-> & H1 & H2 & H3). cbn. rewrite Z.eqb_refl. cbn. destruct kt; reflexivity.
  Qed.

  Let p := params_of (wd_a w) r d (ti_dims (wd_filter_t w)) (pr_out r).

  Lemma conv_geom : geom_of p = g.
  Proof.
    destruct conv_dims as (D1 & D2 & D3 & D4 & D5 & D6 & D7 & D8 & Eg).
    unfold p, geom_of, params_of, w, world_of, d, r, dim, rd.
    cbn [wd_a wd_filter_t ti_dims attrs_of at_sh at_sw at_dh at_dw at_cin at_pad at_pv pr_groups pr_padh pr_padw pr_out
         batches in_h in_w in_d out_c f_h f_w f_d out_h out_w channels_in groups s_h s_w dl_h dl_w pad_h pad_w
         Z.ltb Z.compare Z.to_nat]. change (Pos.to_nat 1) with 1%nat. change (Pos.to_nat 2) with 2%nat.
    cbn [nth_error]. rewrite <- D1, D8, Eg. reflexivity.
  Qed.

  Lemma conv_world : world_ok kt w.
  Proof.
    destruct conv_dims as (D1 & D2 & D3 & D4 & D5 & D6 & D7 & D8 & Eg).
    pose proof Hok as HK. cbn [op_ok] in HK. rewrite Hi, Hf in HK.
    destruct HK as (K1 & K2 & K3 & K4 & K5 & K6 & K7 & K8 & K9 & K10 & K11 & K12 & K13).
    unfold world_ok. cbn [w world_of wd_a wd_filter_t wd_filter ti_dims attrs_of at_sh at_sw at_dh at_dw at_cin at_pad at_pv].
    change (dim [Co; KH; KW; GetBitpackedSize ci] 0) with Co. change (dim [Co; KH; KW; GetBitpackedSize ci] 1) with KH.
    change (dim [Co; KH; KW; GetBitpackedSize ci] 2) with KW. change (dim [Co; KH; KW; GetBitpackedSize ci] 3) with (GetBitpackedSize ci).
    rewrite GetBitpackedSize_words by lia. rewrite <- D1. do 3 (split; [lia|]). split; [unfold words; lia|]. do 5 (split; [lia|]).
    split; [intros E; rewrite E in K8; destruct K8 as [K8|[K8 _]]; discriminate|].
    split; [|split].
    - intros g0 E0. rewrite groups_of in E0 by (try assumption; lia). injection E0 as <-. rewrite D8. exact HFP.
    - intros Ho. cbn [wd_out wd_mul wd_bias].
      destruct oq as [sz|]; [destruct Hcase as (ml & bl & -> & -> & H1 & H2); cbn [f_data]; split; assumption|].
      destruct t as [| | |td tl|];
        try (destruct Hcase as (ml & bl & -> & -> & H1 & H2); cbn [f_data]; split; assumption).
      exfalso. apply Ho. reflexivity.
    - intros Ep Ev. assert (Ho := Hzero Ep Ev). cbn [w world_of wd_out wd_mul] in *.
      destruct oq as [sz|]; [destruct Hcase as (ml & bl & -> & -> & H1 & H2); cbn [f_data]; assumption|].
      destruct t as [| | |td tl|];
        try (destruct Hcase as (ml & bl & -> & -> & H1 & H2); cbn [f_data]; assumption). destruct Ho as [Ho|[Ho _]]; discriminate.
  Qed.

  Lemma conv_call S :
    (kt = KBgemm -> 0 < sd_kr S /\ 0 < sd_lc S /\ 0 < sd_rc S /\ sd_lc S mod 32 = 0 /\
             conv_schedule_ok (sd_kr S) (sd_lc S) (sd_rc S) p l (sd_s S)) ->
    call_ok kt w d p l S.
  Proof.
    intros HS. destruct conv_dims as (D1 & D2 & D3 & D4 & D5 & D6 & D7 & D8 & Eg).
    pose proof Hok as HK. cbn [op_ok] in HK. rewrite Hi, Hf in HK.
    destruct HK as (K1 & K2 & K3 & K4 & K5 & K6 & K7 & K8 & K9 & K10 & K11 & K12 & K13).
    pose proof (Forall_inv HNN) as N1. pose proof (Forall_inv (Forall_inv_tail HNN)) as N3.
    pose proof (Forall_inv (Forall_inv_tail (Forall_inv_tail HNN))) as N5.
    pose proof (Forall_inv (Forall_inv_tail (Forall_inv_tail (Forall_inv_tail HNN)))) as N7. cbv beta in N1, N3, N5, N7.
    assert (Q0 : dim [Co; KH; KW; GetBitpackedSize ci] 0 = Co) by reflexivity.
    assert (Q1 : dim [Co; KH; KW; GetBitpackedSize ci] 1 = KH) by reflexivity.
    assert (Q2 : dim [Co; KH; KW; GetBitpackedSize ci] 2 = KW) by reflexivity.
    assert (Q3 : dim [Co; KH; KW; GetBitpackedSize ci] 3 = words ci) by (rewrite <- (GetBitpackedSize_words ci) by lia; reflexivity).
    assert (I0 : dim d 0 = N) by reflexivity. assert (I1 : dim d 1 = H) by reflexivity.
    assert (I2 : dim d 2 = W) by reflexivity. assert (I3 : dim d 3 = words C) by reflexivity.
    assert (Hw1 : 1 <= words ci) by (unfold words; lia).
    constructor; cbn [w world_of wd_a wd_filter_t wd_filter wd_thr wd_scale wd_out ti_dims attrs_of at_sh at_sw at_dh at_dw at_cin at_pad at_pv];
      rewrite ?Q0, ?Q1, ?Q2, ?I0, ?I1, ?I2, ?I3, <- ?D1.
    - unfold shapes_ok. cbn [attrs_of at_sh at_sw at_dh at_dw at_cin at_pad at_pv]. rewrite Q0, Q1, Q2, Q3, I0, I1, I2, <- D1.
      do 12 (split; [lia|]). exact K8.
    - reflexivity.
    - replace (N * H * W) with (W * (H * (N * 1))) by ring. exact HP.
    - lia.
    - exact K10.
    - intros Ho. destruct oq as [sz|]; [discriminate|]. destruct t as [| | |td tl|]; try discriminate. destruct Hcase as (-> & H1 & _). cbn [i_data].
      unfold zlen in *. rewrite app_length. destruct kt; lia.
    - destruct oq as [[s z]|]; [exact (Hoq s z eq_refl)|reflexivity].
    - exact HS.
    - intros Ek. assert (F := K13 Ek g). rewrite <- Hi, <- Hf in F. specialize (F Hg). unfold indirect_fits in F.
      rewrite <- conv_geom in F. unfold int32_indices. exact F.
    - intros Ek Ep Ev. destruct (K11 Ep Ev) as [_ K]. destruct kt; [congruence| |]; exact (proj2 K).
  Qed.

  (** The kernel's inner products are the IR's. *)
  Lemma conv_value n y x o : 0 <= n < N -> 0 <= o < Co ->
    the_value w p l n y x o = bc_conv c g ti tf n y x o.
  Proof.
    intros Hn Ho. destruct conv_dims as (D1 & D2 & D3 & D4 & D5 & D6 & D7 & D8 & Eg).
    unfold the_value. rewrite conv_geom. unfold bc_conv.
    assert (Ep : pad_with p = pad_pixel c).
    { unfold pad_with, pad_pixel, p, params_of, w, world_of. cbn [wd_a attrs_of pad_same pad_value at_pad at_pv].
      destruct (ca_pad c); reflexivity. }
    rewrite Ep. assert (Eco : gCO g = Co / (C / ci)) by (rewrite Eg; reflexivity).
    assert (Hco : 0 < Co / (C / ci)) by nia.
    assert (Eci : gCI g = ci) by (rewrite Eg; reflexivity). assert (EGG : gG g = C / ci) by (rewrite Eg; reflexivity).
    assert (EH : gH g = H) by (rewrite Eg; reflexivity). assert (EW : gW g = W) by (rewrite Eg; reflexivity).
    assert (EKH : gKH g = KH) by (rewrite Eg; reflexivity). assert (EKW : gKW g = KW) by (rewrite Eg; reflexivity).
    apply conv_ext.
    - intros yy xx k Hy Hx Hk. rewrite Eco, Eci in *. unfold input_pm. rewrite EGG, Eci, EH, EW in *. rewrite <- D4.
      assert (Hq : 0 <= o / (Co / (C / ci)) < C / ci).
      { split; [apply Z.div_pos; lia|]. apply Z.div_lt_upper_bound; [lia|]. rewrite <- D6. lia. }
      rewrite <- (HE (o / (Co / (C / ci)) * ci + k) [xx; yy; n]) by (constructor; [nia|repeat constructor; lia]).
      f_equal. f_equal. cbn [ravel]. ring.
    - intros fy fx k Hy Hx Hk. rewrite Eci, EKH, EKW in *. unfold filter_pm. rewrite Eci, EKH, EKW. f_equal. apply HFE; assumption.
  Qed.

  Lemma conv_eval es st fb ib S : run_events kt w es init_state = Some st -> st_ready st = true -> st_ish st = d -> st_input st = l ->
    (kt = KIndirect -> same_setting kt w es d (st_addr st)) ->
    (wd_out w = TFloat32 -> zlen fb = elements (pr_out r)) ->
    (wd_out w <> TFloat32 -> zlen ib = elements (pr_out r)) ->
    (kt = KBgemm -> 0 < sd_kr S /\ 0 < sd_lc S /\ 0 < sd_rc S /\ sd_lc S mod 32 = 0 /\
             conv_schedule_ok (sd_kr S) (sd_lc S) (sd_rc S) p l (sd_s S)) ->
    Eval kt w st fb ib S (correct_output w p l).
  Proof.
    intros Hrun Hrdy Hish Hin Hsame Hfb Hib HS.
    assert (HP' : forall r0, Prepare kt (wd_a w) (node_of w (st_ish st)) = Some (Ok r0) -> r0 = r).
    { rewrite Hish. intros r0 E0. rewrite conv_prepare in E0. congruence. }
    assert (HC : forall r0, Prepare kt (wd_a w) (node_of w (st_ish st)) = Some (Ok r0) ->
       let p := params_of (wd_a w) r0 (st_ish st) (ti_dims (wd_filter_t w)) (pr_out r0) in
       call_ok kt w (st_ish st) p (st_input st) S /\
       (wd_out w = TFloat32 -> zlen fb = elements (pr_out r0)) /\
       (wd_out w <> TFloat32 -> zlen ib = elements (pr_out r0))).
    { intros r0 E0. rewrite (HP' r0 E0), Hish, Hin. cbv zeta. split; [exact (conv_call S HS)|]. split; [exact Hfb|].
      exact Hib. }
    assert (K : exists r0, Prepare kt (wd_a w) (node_of w (st_ish st)) = Some (Ok r0) /\
      let p := params_of (wd_a w) r0 (st_ish st) (ti_dims (wd_filter_t w)) (pr_out r0) in
      Eval kt w st fb ib S (correct_output w p (st_input st))).
    { apply (invoke_any kt w es st fb ib S conv_world Hrun Hrdy); [rewrite Hish; exact Hsame|exact HC]. }
    destruct K as (r0 & E0 & K). rewrite (HP' r0 E0), Hish, Hin in K. exact K.
  Qed.
End conv.
