(** * IRRunTop: one operator, then whole programs, on the machine (C68). *)
From Coq Require Import QArith Lqa.
From Verif Require Import Base Spec Bits Bitpack Padding Reference OutputTransform MaxPool Quantize ConvFold
  Bgemm BgemmConv ZeroPad Prepare Lifecycle EndToEnd IndirectBuf Threshold IR IRProofs IRRules IRRun IRRunProof IRRunConv.
Open Scope Z_scope.

Lemma pack_filter (tf : tensor Q) fd f ci KW KH Co : holds Qeq tf fd f -> sh tf = [ci; KW; KH; Co] ->
  fd = [Co; KH; KW; ci] /\
  wp (quantize_Q (Co * KH * KW) ci f (repeat 0 (Z.to_nat (Co * KH * KW * GetBitpackedSize ci)))) (fun fl =>
    packed fl (Co * KH * KW) ci /\
    forall o fy fx k, 0 <= o < Co -> 0 <= fy < KH -> 0 <= fx < KW -> 0 <= k < ci ->
      bit_of fl (words ci) ((o * KH + fy) * KW + fx) k = Qlt_bool (at_ tf [k; fx; fy; o]) 0).
Proof.
  intros (HN & -> & HL & HE) Es. rewrite Es in *. split; [reflexivity|].
  pose proof (Forall_inv HN) as N1. pose proof (Forall_inv (Forall_inv_tail HN)) as N3.
  pose proof (Forall_inv (Forall_inv_tail (Forall_inv_tail HN))) as N5.
  pose proof (Forall_inv (Forall_inv_tail (Forall_inv_tail (Forall_inv_tail HN)))) as N7. cbv beta in N1, N3, N5, N7.
  cbn [numel] in HL. assert (R0 : 0 <= Co * KH * KW) by nia. rewrite GetBitpackedSize_words by lia.
  assert (W0 : 0 <= words ci) by (unfold words; apply Z.div_pos; lia).
  eapply wp_mono; [apply quantize_Q_ok; [lia|lia|rewrite HL; ring|]|].
  - unfold zlen. rewrite repeat_length, Z2Nat.id by nia. reflexivity.
  - cbv beta. intros fl [P1 P2]. split; [exact P1|]. intros o fy fx k Ho Hy Hx Hk.
    destruct (HE [k; fx; fy; o]) as (v & Ev & Rv); [repeat constructor; lia|].
    rewrite (P2 _ k v); [symmetry; apply Qlt_bool_comp; exact Rv| |exact Hk|].
    + assert (0 <= o * KH + fy < Co * KH) by nia. nia.
    + rewrite <- Ev. f_equal. cbn [ravel]. ring.
Qed.

Lemma holds_vec {A B} (R : A -> B -> Prop) (t : tensor A) d l n : holds R t d l -> sh t = [n] ->
  d = [n] /\ zlen l = n /\ forall k, 0 <= k < n -> exists x, rd l k = Some x /\ R (at_ t [k]) x.
Proof.
  intros (HN & -> & HL & HE) Es. rewrite Es in *. split; [reflexivity|]. cbn [numel] in HL. split; [lia|].
  intros k Hk. destruct (HE [k]) as (x & Ex & Rx); [repeat constructor; lia|]. exists x. split; [|exact Rx].
  rewrite <- Ex. f_equal. cbn [ravel]. ring.
Qed.
Lemma rd_app1 {A} (l1 l2 : list A) i x : rd l1 i = Some x -> rd (l1 ++ l2) i = Some x.
Proof.
  unfold rd. destruct (Z.ltb_spec i 0) as [Hneg|Hpos]; [discriminate|]. intros E. rewrite nth_error_app1; [exact E|].
  apply nth_error_Some. congruence.
Qed.

Lemma conv_float_exec kt c ti tf tm tb d l fd f mb bb v :
  rep (VBits ti) (BW d l) -> rep (VF tf) (BF fd f) -> rep (VF tm) mb -> rep (VF tb) bb ->
  bc_float c ti tf tm tb = Some v -> op_ok kt (OConv c) [VBits ti; VF tf; VF tm; VF tb; VNone] -> storable v ->
  conv_exec None kt c d l fd f mb bb BN (rep v).
Proof.
  intros Hi Hf Hm Hb Hv Hok Hst. destruct (bc_float_inv _ _ _ _ _ _ Hv) as (g & Co & Hg & Ed & Sm & Sb & Hpad & Ev).
  destruct (bc_geom_inv _ _ _ _ Hg) as (C & W & H & N & ci & KW & KH & Co' & Si & Sf & _).
  cbn [rep] in Hi. rewrite Si in Hi. destruct Hi as (HNN & -> & HP & HE).
  rewrite Sf in Ed. cbn [dim_out] in Ed. subst Co'.
  destruct mb as [md ml| | | |]; try contradiction. destruct bb as [bd bl| | | |]; try contradiction.
  destruct (holds_vec _ _ _ _ _ Hm Sm) as (-> & Lm & Em). destruct (holds_vec _ _ _ _ _ Hb Sb) as (-> & Lb & Eb).
  destruct (pack_filter _ _ _ _ _ _ _ Hf Sf) as (-> & HF). unfold conv_exec. eapply wp_mono; [exact HF|]. cbv beta.
  clear HF. intros fl [HFP HFE] extra Hx. cbv zeta. cbn [numel] in HP.
  set (w := world_of None c [Co; KH; KW; GetBitpackedSize ci] fl (BF [Co] ml) (BF [Co] bl) BN extra).
  assert (Hcase : match BN with
    | BI td tl => td = [Co] /\ zlen tl = Co /\ BF [Co] ml = BN /\ BF [Co] bl = BN
    | _ => exists ml' bl', BF [Co] ml = BF [Co] ml' /\ BF [Co] bl = BF [Co] bl' /\ zlen ml' = Co /\ zlen bl' = Co
    end) by (exists ml, bl; auto).
  assert (Hoq : forall s z, @None (Q * Z) = Some (s, z) -> (0 < s)%Q) by discriminate.
  assert (Hzero : ca_pad c = PadSame -> ca_padv c = 0 -> wd_out w = TFloat32 \/ wd_out w = TInt8 /\ kt = KReference) by (left; reflexivity).
  assert (HPr := conv_prepare None kt c ti tf g _ C W H N ci KW KH Co l fl (BF [Co] ml) (BF [Co] bl) BN extra Hg Si Sf Hok HE HFE Hcase Hoq Hzero).
  change (rev [words C; W; H; N]) with [N; H; W; words C].
  eexists. split; [exact HPr|]. intros es st fb ib S Hrun Hrdy Hish Hin Hsame Hfb Hib HS.
  assert (HEv := conv_eval None kt c ti tf g _ C W H N ci KW KH Co l fl (BF [Co] ml) (BF [Co] bl) BN extra Hg Si Sf Hok HNN HP HE HFP HFE Hx Hcase Hoq Hzero
    es st fb ib S Hrun Hrdy Hish Hin Hsame Hfb Hib HS).
  match type of HEv with Eval _ _ _ _ _ _ (correct_output _ ?q _) => set (p := q) in HEv end.
  assert (EG : geom_of p = g) by exact (conv_geom None kt c ti tf g C W H N ci KW KH Co l fl (BF [Co] ml) (BF [Co] bl) BN extra Hg Si Sf HE HFE).
  destruct (conv_dims c ti tf g C W H N ci KW KH Co l fl Hg Si Sf HE HFE) as (D1 & D2 & D3 & D4 & D5 & D6 & D7 & D8 & Eg).
  assert (EB : gB g = N) by (rewrite Eg; reflexivity).
  assert (EV : forall n y x o, 0 <= n < N -> 0 <= o < Co -> the_value w p l n y x o = bc_conv c g ti tf n y x o)
    by exact (conv_value None kt c ti tf g C W H N ci KW KH Co l fl (BF [Co] ml) (BF [Co] bl) BN extra Hg Si Sf HE HFE Hoq Hzero).
  assert (P1 : batches p = N) by reflexivity. assert (P2 : out_c p = Co) by reflexivity.
  assert (P3 : out_h p = gOH g) by reflexivity. assert (P4 : out_w p = gOW g) by reflexivity. clearbody p.
  eapply Eval_mono; [|exact HEv]. intros o. cbv beta. unfold correct_output. cbn [wd_out world_of].
  destruct o as [o|o|o]; try (intros F; exfalso; exact F). rewrite EG, P1, P2, P3, P4. intros (Lo & Ho).
  cbn [pr_out]. cbn [wd_out world_of ttype_eqb]. 
  rewrite Ev in Hst |- *. destruct Hst as [Hst _]. cbn [rep]. unfold holds. cbn [vshape sh at_] in *. unfold out_sh in *.
  rewrite EB in *. split; [exact Hst|]. split; [reflexivity|].
  split; [rewrite Lo; unfold out_pixels; rewrite EB; cbn [numel]; ring|].
  intros i Hi. destruct (range_inv _ _ _ Hi) as (k & i1 & -> & Hk & Hi1). destruct (range_inv _ _ _ Hi1) as (x & i2 & -> & Hxx & Hi2).
  destruct (range_inv _ _ _ Hi2) as (y & i3 & -> & Hy & Hi3). destruct (range_inv _ _ _ Hi3) as (n & i4 & -> & Hn & Hi4).
  inversion Hi4; subst i4. destruct (Em k Hk) as (mv & Rm & Qm). destruct (Eb k Hk) as (bv & Rb & Qb).
  destruct (Ho n y x k mv bv Hn Hy Hxx Rm Rb) as (u & Ru & Qu). exists u. split.
  - rewrite <- Ru. f_equal. unfold out_pixel. cbn [ravel]. ring.
  - rewrite Qu, <- Qm, <- Qb, EV by assumption. reflexivity.
Qed.

(** Bitpacked output. *)
Lemma bc_bits_inv c i f th v : bc_bits c i f th = Some v -> exists g Co,
  bc_geom c (sh i) (sh f) = Some g /\ dim_out (sh f) = Co /\ sh th = [Co] /\ pad_ok c false = true /\
  v = VBits (mkT (out_sh g Co) (fun i0 => match i0 with
        | [o; x; y; n] => at_ th [o] <? (taps g - bc_conv c g i f n y x o) / 2
        | _ => false end)).
Proof.
  unfold bc_bits. destruct (bc_geom c (sh i) (sh f)) as [g|]; [|discriminate].
  destruct (pad_ok c false) eqn:Ep; [|discriminate]. cbn [andb]. destruct (sh th) as [|e [|]]; try discriminate.
  destruct (Z.eqb_spec e (dim_out (sh f))) as [->|]; [|discriminate]. intros H. injection H as <-. exists g, (dim_out (sh f)). auto.
Qed.

Lemma conv_bits_exec kt c ti tf th d l fd f tb v :
  rep (VBits ti) (BW d l) -> rep (VF tf) (BF fd f) -> rep (VInt th) tb ->
  bc_bits c ti tf th = Some v -> op_ok kt (OConv c) [VBits ti; VF tf; VNone; VNone; VInt th] -> storable v ->
  conv_exec None kt c d l fd f BN BN tb (rep v).
Proof.
  intros Hi Hf Hm Hv Hok Hst. destruct (bc_bits_inv _ _ _ _ _ Hv) as (g & Co & Hg & Ed & Sm & Hpad & Ev).
  destruct (bc_geom_inv _ _ _ _ Hg) as (C & W & H & N & ci & KW & KH & Co' & Si & Sf & _).
  cbn [rep] in Hi. rewrite Si in Hi. destruct Hi as (HNN & -> & HP & HE).
  rewrite Sf in Ed. cbn [dim_out] in Ed. subst Co'.
  destruct tb as [| | |td tl|]; try contradiction.
  destruct (holds_vec _ _ _ _ _ Hm Sm) as (-> & Lt & Et).
  destruct (pack_filter _ _ _ _ _ _ _ Hf Sf) as (-> & HF). unfold conv_exec. eapply wp_mono; [exact HF|]. cbv beta.
  clear HF. intros fl [HFP HFE] extra Hx. cbv zeta. cbn [numel] in HP.
  set (w := world_of None c [Co; KH; KW; GetBitpackedSize ci] fl BN BN (BI [Co] tl) extra).
  assert (Hcase : match BI [Co] tl with
    | BI td tl => td = [Co] /\ zlen tl = Co /\ BN = BN /\ BN = BN
    | _ => exists ml' bl', BN = BF [Co] ml' /\ BN = BF [Co] bl' /\ zlen ml' = Co /\ zlen bl' = Co
    end) by auto.
  assert (Hoq : forall s z, @None (Q * Z) = Some (s, z) -> (0 < s)%Q) by discriminate.
  pose proof Hok as HK. cbn [op_ok] in HK. rewrite Si, Sf in HK.
  destruct HK as (K1 & K2 & K3 & _ & _ & _ & _ & _ & _ & _ & K11 & _).
  assert (Hzero : ca_pad c = PadSame -> ca_padv c = 0 -> wd_out w = TFloat32 \/ wd_out w = TInt8 /\ kt = KReference)
    by (intros E1 E2; destruct (proj1 (K11 E1 E2))).
  assert (HPr := conv_prepare None kt c ti tf g _ C W H N ci KW KH Co l fl BN BN (BI [Co] tl) extra Hg Si Sf Hok HE HFE Hcase Hoq Hzero).
  change (rev [words C; W; H; N]) with [N; H; W; words C].
  eexists. split; [exact HPr|]. intros es st fb ib S Hrun Hrdy Hish Hin Hsame Hfb Hib HS.
  assert (HEv := conv_eval None kt c ti tf g _ C W H N ci KW KH Co l fl BN BN (BI [Co] tl) extra Hg Si Sf Hok HNN HP HE HFP HFE Hx Hcase Hoq Hzero
    es st fb ib S Hrun Hrdy Hish Hin Hsame Hfb Hib HS).
  match type of HEv with Eval _ _ _ _ _ _ (correct_output _ ?q _) => set (p := q) in HEv end.
  assert (EG : geom_of p = g) by exact (conv_geom None kt c ti tf g C W H N ci KW KH Co l fl BN BN (BI [Co] tl) extra Hg Si Sf HE HFE).
  destruct (conv_dims c ti tf g C W H N ci KW KH Co l fl Hg Si Sf HE HFE) as (D1 & D2 & D3 & D4 & D5 & D6 & D7 & D8 & Eg).
  assert (EB : gB g = N) by (rewrite Eg; reflexivity).
  assert (EV : forall n y x o, 0 <= n < N -> 0 <= o < Co -> the_value w p l n y x o = bc_conv c g ti tf n y x o)
    by exact (conv_value None kt c ti tf g C W H N ci KW KH Co l fl BN BN (BI [Co] tl) extra Hg Si Sf HE HFE Hoq Hzero).
  assert (P1 : batches p = N) by reflexivity. assert (P2 : out_c p = Co) by reflexivity.
  assert (P3 : out_h p = gOH g) by reflexivity. assert (P4 : out_w p = gOW g) by reflexivity. clearbody p.
  eapply Eval_mono; [|exact HEv]. intros o. cbv beta. unfold correct_output. cbn [wd_out world_of].
  destruct o as [o|o|o]; try (intros F; exfalso; exact F). rewrite EG, P1, P2, P3, P4. intros (Ho & Hbit).
  cbn [pr_out]. cbn [wd_out world_of ttype_eqb].
  rewrite Ev in Hst |- *. destruct Hst as [Hst _]. cbn [rep]. cbn [vshape sh at_] in *. unfold out_sh in *.
  rewrite EB in *. split; [exact Hst|]. split; [rewrite GetBitpackedSize_words by lia; reflexivity|].
  split; [cbn [numel]; unfold out_pixels in Ho; rewrite EB in Ho; replace (gOW g * (gOH g * (N * 1))) with (N * gOH g * gOW g) by ring; exact Ho|].
  intros k i Hi. destruct (range_inv _ _ _ Hi) as (k' & i1 & E & Hk & Hi1). injection E as <- <-. destruct (range_inv _ _ _ Hi1) as (x & i2 & -> & Hxx & Hi2).
  destruct (range_inv _ _ _ Hi2) as (y & i3 & -> & Hy & Hi3). destruct (range_inv _ _ _ Hi3) as (n & i4 & -> & Hn & Hi4).
  inversion Hi4; subst i4. destruct (Et k Hk) as (tv & Rt & Qt). cbv beta in Qt.
  specialize (Hbit n y x k tv Hn Hy Hxx Hk (rd_app1 tl extra k tv Rt)). rewrite EV in Hbit by assumption.
  assert (Hev : Z.even (taps g - bc_conv c g ti tf n y x k) = true).
  { unfold bc_conv. assert (Epx : pad_pixel c = 1).
    { unfold pad_pixel. destruct (is_same (ca_pad c)) eqn:E1; [|reflexivity]. destruct (Z.eqb_spec (ca_padv c) 0) as [E2|E2]; [|reflexivity].
      exfalso. destruct (ca_pad c); try discriminate. destruct (proj1 (K11 eq_refl E2)). }
    rewrite Epx. apply conv_even; try (rewrite Eg; cbn [gKH gKW gCI]; lia); intros; apply pm_1. }
  apply Z.even_spec in Hev. destruct Hev as [h Eh]. rewrite Eh in *. rewrite (Z.mul_comm 2 h), Z.div_mul by lia.
  replace (ravel [gOW g; gOH g; N] [x; y; n]) with (out_pixel g n y x) by (unfold out_pixel; cbn [ravel]; ring).
  rewrite Qt. destruct (bit_of o (words Co) (out_pixel g n y x) k); symmetry.
  - apply Z.ltb_lt. assert (2 * tv < 2 * h) by (apply Hbit; reflexivity). lia.
  - apply Z.ltb_ge. destruct (Z.le_gt_cases h tv) as [Hle|Hgt]; [exact Hle|].
    assert (F : false = true) by (apply Hbit; lia). discriminate F.
Qed.

(** ** One operator *)
Lemma exec_ok kt tfl o vs bs od v : tflite_ok tfl -> Forall2 rep vs bs -> denote o vs = Some v ->
  op_ok kt o vs -> storable v -> (o = ODequant -> od = rev (vshape v)) -> exec kt tfl o bs od (rep v).
Proof.
  intros HT HR HD HO HS Hod.
  assert (Hbuiltin : is_lce o = false -> Forall (fun u => is_bits u = false) vs ->
      is_lce o = false /\ (exists b, tfl o bs b) /\ forall b, tfl o bs b -> rep v b)
    by (intros E1 E2; split; [exact E1|exact (HT o vs v bs E1 E2 HD HS HR)]).
  destruct o; try exact (Hbuiltin eq_refl (HO eq_refl)); clear Hbuiltin.
  - (* quantize *) destruct vs as [|x [|x' vs']]; [discriminate| |destruct x; discriminate].
    inversion HR as [|? b0 ? bs0 R1 R2]; subst. inversion R2; subst. cbn [op_ok] in HO. destruct x; try discriminate; cbn [denote] in HD; injection HD as <-;
      destruct b0; try contradiction; cbn [vshape] in HO; unfold exec.
    + destruct (quant_float_exec _ _ _ R1 HO) as (C & s & -> & _ & K). exact K.
    + destruct (quant_bool_exec _ _ _ R1 HO) as (C & s & -> & _ & K). exact K.
  - (* dequantize *) destruct vs as [|x [|x' vs']]; [discriminate| |destruct x; discriminate].
    inversion HR as [|? b0 ? bs0 R1 R2]; subst. inversion R2; subst. destruct x; try discriminate; cbn [denote] in HD; injection HD as <-;
      destruct b0; try contradiction. unfold exec. rewrite (Hod eq_refl). cbn [vshape tmap sh].
    destruct (dequant_exec _ _ _ R1) as (C & s & -> & Es & K). rewrite rev_involutive, Es.
    split; [reflexivity|]. split; [reflexivity|exact K].
  - (* pool *) destruct vs as [|x [|x' vs']]; [discriminate| |destruct x; discriminate].
    inversion HR as [|? b0 ? bs0 R1 R2]; subst. inversion R2; subst. destruct x; try discriminate;
      destruct b0; try contradiction. unfold exec.
    destruct (pool_exec kt p _ _ _ v R1 HD HO) as (b & h & w & k & -> & K). exact K.
  - (* conv *) cbn [denote] in HD. destruct vs as [|[|ti| | |] [|[tf| | | |] [|vm [|vb [|vt [|]]]]]]; try discriminate;
      try (destruct vm; discriminate); try (destruct vm; destruct vb; discriminate).
    + inversion HR as [|? b0 ? bs0 R0 HR1]; subst. inversion HR1 as [|? b1 ? bs1 R1 HR2]; subst. inversion HR2 as [|? b2 ? bs2 R2 HR3]; subst.
      inversion HR3 as [|? b3 ? bs3 R3 HR4]; subst. inversion HR4 as [|? b4 ? bs4 R4 HR5]; subst. inversion HR5; subst.
      destruct b0; try contradiction. destruct b1; try contradiction. unfold exec.
      destruct vm as [tm| | | |]; try discriminate; destruct vb as [tb| | | |]; try discriminate; destruct vt as [| | |th|]; try discriminate.
      * destruct b4; try contradiction. exact (conv_float_exec kt c ti tf tm tb _ _ _ _ b2 b3 v R0 R1 R2 R3 HD HO HS).
      * destruct b2; try contradiction. destruct b3; try contradiction. exact (conv_bits_exec kt c ti tf th _ _ _ _ b4 v R0 R1 R4 HD HO HS).
    + destruct vm; try discriminate; destruct vb; try discriminate; destruct vt; discriminate.
Qed.

(** ** Programs *)
Lemma mlook_ok e m l vs : mem_ok e m -> look e l = Some vs -> exists bs, mlook m l = Some bs /\ Forall2 rep vs bs.
Proof.
  intros HM. revert vs. induction l as [|x l IH]; intros vs H; cbn [look mlook] in *.
  - injection H as <-. exists []. split; [reflexivity|constructor].
  - destruct (e x) as [v|] eqn:Ex; [|discriminate]. destruct (look e l) as [us|] eqn:El; [|discriminate]. injection H as <-.
    destruct (HM x v Ex) as (b & -> & Rb). destruct (IH us eq_refl) as (bs & -> & Rs). exists (b :: bs). split; [reflexivity|constructor; assumption].
Qed.
Lemma mem_upd e m r v b : mem_ok e m -> rep v b -> mem_ok (upd e r v) (mupd m r b).
Proof.
  intros HM HR x u. unfold upd, mupd. destruct (Nat.eqb x r); [|apply HM]. intros E. injection E as <-. exists b. auto.
Qed.
Lemma exec_mono kt tfl o bs od (P Q : buf -> Prop) : (forall b, P b -> Q b) -> exec kt tfl o bs od P -> exec kt tfl o bs od Q.
Proof.
  intros HPQ.
  assert (B : is_lce o = false /\ (exists b, tfl o bs b) /\ (forall b, tfl o bs b -> P b) ->
    is_lce o = false /\ (exists b, tfl o bs b) /\ (forall b, tfl o bs b -> Q b)) by (intros (B1 & B2 & B3); auto).
  destruct o; try exact B; unfold exec.
  - destruct bs as [|x [|y bs]]; [exact B|destruct x; try exact B|destruct x; exact B].
    + destruct (rev d); [exact (fun F => F)|]. intros H out Ho. eapply wp_mono; [exact (H out Ho)|]. cbv beta. auto.
    + destruct (rev d); [exact (fun F => F)|]. intros H out Ho. eapply wp_mono; [exact (H out Ho)|]. cbv beta. auto.
  - destruct bs as [|x [|y bs]]; [exact B|destruct x; try exact B|destruct x; exact B].
    destruct (rev d); [exact (fun F => F)|]. destruct (rev od); [exact (fun F => F)|]. intros (H1 & H2 & H). split; [exact H1|]. split; [exact H2|].
    intros out Ho. eapply wp_mono; [exact (H out Ho)|]. cbv beta. auto.
  - destruct bs as [|x [|y bs]]; [exact B|destruct x; try exact B|destruct x; exact B].
    destruct d as [|? [|? [|? [|? [|]]]]]; try exact (fun F => F). intros H. eapply wp_mono; [exact H|]. cbv beta. intros q Hq out Ho.
    eapply wp_mono; [exact (Hq out Ho)|]. cbv beta. auto.
  - destruct bs as [|x1 [|x2 [|x3 [|x4 [|x5 [|x6 bs]]]]]]; try (destruct x1; try exact B; destruct x2; exact B); try (destruct x1; exact B); try exact B.
    destruct x1; try exact B. destruct x2; try exact B. unfold conv_exec.
    destruct d0 as [|? [|? [|? [|? [|]]]]]; try exact (fun F => F). intros H. eapply wp_mono; [exact H|]. cbv beta zeta. clear H.
    intros fl H extra Hx. destruct (H extra Hx) as (r & Hr & K). exists r. split; [exact Hr|].
    intros es st fb ib S0 H1 H2 H3 H4 H5 H6 H7 H8. eapply Eval_mono; [|exact (K es st fb ib S0 H1 H2 H3 H4 H5 H6 H7 H8)].
    intros out. destruct out; auto.
Qed.

Lemma run_ok kt tfl D ty p : forall e m e', tflite_ok tfl -> mem_ok e m -> eval p e = Some e' ->
  fits_machine kt ty p e -> (forall r o a, In (r, o, a) p -> filter_const D o a) ->
  run kt tfl D ty p m (mem_ok e').
Proof.
  induction p as [|[[r o] a] p IH]; intros e m e' HT HM HE HF HC; cbn [eval run fits_machine] in *.
  - injection HE as <-. exact HM.
  - split; [apply (HC r o a); left; reflexivity|].
    destruct (look e a) as [vs|] eqn:El; [|discriminate]. destruct (denote o vs) as [v|] eqn:Ed; [|discriminate].
    destruct (HF vs v eq_refl Ed) as (F1 & F2 & F3 & F4).
    destruct (mlook_ok e m a vs HM El) as (bs & -> & Rs).
    eapply exec_mono; [|apply (exec_ok kt tfl o vs bs (ty r) v HT Rs Ed F1 F2 F3)]. intros b Rb.
    apply (IH (upd e r v)); auto. apply mem_upd; assumption. intros; eapply HC; right; eassumption.
Qed.

Lemma run_mono kt tfl D ty p : forall m (P Q : mem -> Prop), (forall m, P m -> Q m) -> run kt tfl D ty p m P -> run kt tfl D ty p m Q.
Proof.
  induction p as [|[[r o] a] p IH]; intros m P Q HPQ H; cbn [run] in *; [auto|]. destruct H as [H1 H]. split; [exact H1|].
  destruct (mlook m a); [|exact H]. eapply exec_mono; [|exact H]. intros b. cbv beta. apply IH. exact HPQ.
Qed.

(** A buffer determines its value up to equality of elements (bits excepted: the
    number of channels is not recorded), and holds every equal value. *)
Lemma holds_teq {A B} (Q : A -> A -> Prop) (R : A -> B -> Prop) t t' d l :
  (forall a a' b, Q a a' -> R a' b -> R a b) -> teq Q t t' -> holds R t' d l -> holds R t d l.
Proof.
  intros HQ [Hs He] (HN & Hd & HL & HE). unfold holds. rewrite Hs. do 3 (split; [assumption|]). intros i Hi.
  destruct (HE i Hi) as (x & Ex & Rx). exists x. split; [exact Ex|]. apply (HQ _ (at_ t' i)); [apply He; rewrite Hs; exact Hi|exact Rx].
Qed.
Lemma rep_veq v w b : veq v w -> rep w b -> rep v b.
Proof.
  destruct v, w; try contradiction; cbn [veq]; intros HV; destruct b; try contradiction; cbn [rep].
  - apply (holds_teq Qeq Qeq); [intros a a' x E1 E2; rewrite E1; exact E2|exact HV].
  - destruct HV as [Hs He]. rewrite Hs. destruct (sh t0) as [|C s] eqn:Es; [intros []|]. intros (H1 & H2 & H3 & H4). do 3 (split; [assumption|]).
    intros c i Hi. rewrite (H4 c i Hi). symmetry. apply He. rewrite Hs. exact Hi.
  - intros [H1 H2]. split; [|exact H2]. revert H1. apply (holds_teq eq byte_bool); [intros a a' x -> H; exact H|exact HV].
  - apply (holds_teq eq eq); [intros; congruence|exact HV].
  - auto.
Qed.
Lemma holds_fun {A B} (Q : A -> A -> Prop) (R : A -> B -> Prop) t t' d l :
  (forall a a' b, R a b -> R a' b -> Q a a') -> holds R t d l -> holds R t' d l -> teq Q t t'.
Proof.
  intros HQ (HN & -> & HL & HE) (HN' & Hd & HL' & HE').
  assert (Es : sh t = sh t') by (rewrite <- (rev_involutive (sh t)), Hd, rev_involutive; reflexivity).
  split; [exact Es|]. intros i Hi. destruct (HE i Hi) as (x & Ex & Rx). rewrite Es in Ex, Hi. destruct (HE' i Hi) as (x' & Ex' & Rx').
  rewrite Ex in Ex'. injection Ex' as <-. exact (HQ _ _ x Rx Rx').
Qed.
Lemma rep_fun v w b : is_bits v = false -> rep v b -> rep w b -> veq v w.
Proof.
  intros HB. destruct v, b; try contradiction; try discriminate; destruct w; try contradiction; cbn [rep veq].
  - apply (holds_fun Qeq Qeq). intros a a' x E1 E2. rewrite E1, E2. reflexivity.
  - intros [H1 _] [H2 _]. revert H1 H2. apply (holds_fun eq byte_bool). intros a a' x [_ E1] [_ E2]. congruence.
  - apply (holds_fun eq eq). congruence.
  - auto.
Qed.
Definition put {A} (t : tensor A) : list A := build (numel (sh t)) (flat t).
Lemma put_ok {A B} (R : A -> B -> Prop) (f : A -> B) (t : tensor A) : nonneg (sh t) -> (forall a, R a (f a)) -> holds R t (rev (sh t)) (map f (put t)).
Proof.
  intros HN HR. assert (N := numel_nonneg _ HN). unfold holds, put. do 2 (split; [auto|]).
  split; [unfold zlen; rewrite map_length; exact (zlen_build (numel (sh t)) (flat t) N)|].
  intros i Hi. destruct (ravel_ok _ _ Hi) as [Hr Eu]. exists (f (at_ t i)). split; [|apply HR].
  assert (E := rd_build (numel (sh t)) (flat t) (ravel (sh t) i) Hr). unfold flat at 2 in E. rewrite Eu in E.
  unfold rd in *. destruct (_ <? 0); [discriminate|]. rewrite nth_error_map, E. reflexivity.
Qed.
Lemma storable_rep v : storable v -> exists b, rep v b.
Proof.
  intros [HN HB]. destruct v as [t|t|t|t|]; cbn [vshape] in HN.
  - exists (BF (rev (sh t)) (map (fun x => x) (put t))). cbn [rep]. apply put_ok; [exact HN|reflexivity].
  - assert (HF : holds Qeq (tmap (fun b => inject_Z (pm b)) t) (rev (sh t)) (map (fun x => x) (put (tmap (fun b => inject_Z (pm b)) t))))
      by (apply (put_ok Qeq (fun x => x) (tmap (fun b => inject_Z (pm b)) t)); [exact HN|reflexivity]).
    destruct (quant_float_exec _ _ _ HF) as (C & s & _ & Es & K); [exact HB|]. cbn [tmap sh] in Es.
    rewrite Es in HN. inversion HN as [|? ? HC Hs]; subst. assert (N := numel_nonneg s Hs).
    assert (W0 : 0 <= words C) by (unfold words; apply Z.div_pos; lia).
    specialize (K (repeat 0 (Z.to_nat (numel s * GetBitpackedSize C)))). rewrite GetBitpackedSize_words in K by lia.
    specialize (K ltac:(unfold zlen; rewrite repeat_length, Z2Nat.id by nia; reflexivity)).
    destruct (quantize_Q _ _ _ _) as [o|]; [|contradiction]. cbn [wp] in K. eexists. eapply rep_veq; [|exact K].
    split; [reflexivity|]. intros i Hi. cbn [tmap at_]. destruct (at_ t i); reflexivity.
  - exists (BB (rev (sh t)) (map (fun b : bool => if b then 1 else 0) (put t))). cbn [rep]. split.
    + apply put_ok; [exact HN|]. intros b. split; [destruct b; lia|destruct b; reflexivity].
    + intros i x. unfold rd. destruct (_ <? 0); [discriminate|]. rewrite nth_error_map. destruct (nth_error _ _) as [b|]; [|discriminate].
      cbn [option_map]. intros E. injection E as <-. destruct b; lia.
  - exists (BI (rev (sh t)) (map (fun x => x) (put t))). cbn [rep]. apply put_ok; [exact HN|reflexivity].
  - exists BN. exact I.
Qed.
(** Builtins with the required behaviour exist. *)
Lemma tflite_exists : exists tfl, tflite_ok tfl.
Proof.
  exists (fun o bs b => exists vs v, Forall (fun u => is_bits u = false) vs /\ Forall2 rep vs bs /\ denote o vs = Some v /\ rep v b).
  intros o vs v bs _ HB HD HS HR. split.
  - destruct (storable_rep v HS) as [b Rb]. exists b, vs, v. auto.
  - intros b (vs' & v' & HB' & HR' & HD' & Rb).
    assert (HV : Forall2 veq vs vs').
    { clear - HB HR HR'. revert vs' HR'. induction HR as [|u c us cs R1 R2 IH]; intros vs' HR'; inversion HR' as [|u' ? us' ? S1 S2]; subst; constructor.
      - exact (rep_fun u u' c (Forall_inv HB) R1 S1).
      - apply IH; [exact (Forall_inv_tail HB)|exact S2]. }
    destruct (denote_proper o vs vs' v HV HD) as (w & Ew & Vw). rewrite HD' in Ew. injection Ew as <-. exact (rep_veq v v' b Vw Rb).
Qed.
