(** * IRRun8: running quantised programs in memory, with LCE's int8 kernels (C74).

    As IRRun.v, with the three operators the quantise pass introduces: LceQuantize of
    an int8 tensor, LceDequantize to an int8 tensor, LceBconv2d with int8 output. An
    int8 tensor lies in a buffer [BI]. *)
From Coq Require Import QArith Qround Lqa.
From Verif Require Import Base Spec Bits Bitpack Padding Reference OutputTransform MaxPool Quantize ConvFold
  Bgemm BgemmConv ZeroPad Prepare Lifecycle EndToEnd IndirectBuf Threshold IR IRProofs IRRules IRTerm IRWell IRTf IRPass
  IRPassRule IRPassProof IRFuse IRInt8 IRRun IRRunProof IRRunConv IRRunTop.
Open Scope Z_scope.

Definition k8 (o : op) : option kind8 := match o with OOther x => match ek x with K8 k => Some k | _ => None end | _ => None end.

(** One operator. tflite/kernels/quantization.cc 40-54 (shapes), 76-87 (LceQuantize of
    int8: compare with the tensor's zero point), 116-145 (LceDequantize to int8);
    bconv2d.cc with an int8 output tensor. Everything else as in [exec]. *)
Definition exec8 (kt : kernel_type) (tfl : op -> list buf -> buf -> Prop) (o : op) (bs : list buf) (od : list Z)
    (Post : buf -> Prop) : Prop :=
  match k8 o with
  | Some (LQ8 z) =>
      match bs with
      | [BI d l] =>
          match rev d with
          | C :: s => forall out, zlen out = numel s * GetBitpackedSize C ->
              wp (quantize_int8 z (numel s) C l out) (fun o => Post (BW (rev (GetBitpackedSize C :: s)) o))
          | [] => False
          end
      | _ => False
      end
  | Some (LDQ8 sc z) =>
      match bs with
      | [BW d l] =>
          match rev d, rev od with
          | W :: s, C :: s' => s' = s /\ W = GetBitpackedSize C /\
              forall out, zlen out = numel s * C ->
                wp (dequantize_int8 (int8_offset sc) z (numel s) C l out) (fun o => Post (BI od o))
          | _, _ => False
          end
      | _ => False
      end
  | Some (LC8 c sc z) =>
      match bs with
      | [BW d l; BF fd f; m; b; BN] => conv_exec (Some (sc, z)) kt c d l fd f m b BN Post
      | _ => False
      end
  | _ => exec kt tfl o bs od Post
  end.

Definition filter_const8 (D : nat -> option (op * list nat)) (o : op) (a : list nat) : Prop :=
  is_bconv o = true -> match a with _ :: f :: _ => exists t, D f = Some (OConst (VF t), []) | _ => False end.
Fixpoint run8 (kt : kernel_type) (tfl : op -> list buf -> buf -> Prop) (D : nat -> option (op * list nat))
    (ty : nat -> list Z) (p : list instr) (m : mem) (Post : mem -> Prop) : Prop :=
  match p with
  | [] => Post m
  | (r, o, a) :: p' =>
      filter_const8 D o a /\
      match mlook m a with
      | Some bs => exec8 kt tfl o bs (ty r) (fun b => run8 kt tfl D ty p' (mupd m r b) Post)
      | None => False
      end
  end.

(** What the kernels need: as [op_ok]; the optimised kernels reject zero padding with
    int8 output (C38); LceQuantize's input consists of int8 values, its zero point is
    one (C30). *)
Definition op_ok8 (kt : kernel_type) (o : op) (vs : list value) : Prop :=
  match k8 o with
  | Some (LQ8 z) => o = lq_quant8 z /\ -128 <= z <= 127 /\
      match vs with [VInt t] => sh t <> [] /\ forall i, in_range (sh t) i -> -128 <= at_ t i <= 127 | _ => True end
  | Some (LDQ8 s z) => o = lq_dequant8 s z
  | Some (LC8 c s z) => o = lq_conv8 c s z /\ op_ok kt (OConv c) vs /\ (ca_pad c = PadSame -> ca_padv c = 0 -> kt = KReference)
  | _ => op_ok kt o vs
  end.
Fixpoint fits_machine8 (kt : kernel_type) (ty : nat -> list Z) (p : list instr) (e : env) : Prop :=
  match p with
  | [] => True
  | (r, o, a) :: p' =>
      forall vs v, look e a = Some vs -> denote o vs = Some v ->
        op_ok8 kt o vs /\ storable v /\ (o = ODequant \/ (exists s z, k8 o = Some (LDQ8 s z)) -> ty r = rev (vshape v)) /\
        fits_machine8 kt ty p' (upd e r v)
  end.
Definition const_filters8 (p : list instr) : Prop := forall r o a, In (r, o, a) p -> filter_const8 (def p) o a.

(** ** Proofs *)
Lemma holds_all {A} (P : A -> Prop) (t : tensor A) d l : holds eq t d l -> (forall i, in_range (sh t) i -> P (at_ t i)) ->
  forall k v, rd l k = Some v -> P v.
Proof.
  intros (HN & _ & HL & HE) HP k v Hk.
  assert (Hr : 0 <= k < numel (sh t)).
  { unfold rd in Hk. destruct (Z.ltb_spec k 0); [discriminate|]. split; [lia|]. rewrite <- HL. unfold zlen.
    assert (K : (Z.to_nat k < length l)%nat) by (apply nth_error_Some; congruence). lia. }
  destruct (unravel_ok (sh t) k HN Hr) as [Hi Ei]. destruct (HE _ Hi) as (x & Ex & Rx). rewrite Ei, Hk in Ex. injection Ex as <-.
  rewrite <- Rx. apply HP, Hi.
Qed.
Lemma quant8_exec z (t : tensor Z) d l : holds eq t d l -> sh t <> [] -> -128 <= z <= 127 ->
  (forall i, in_range (sh t) i -> -128 <= at_ t i <= 127) ->
  exists C s, rev d = C :: s /\ sh t = C :: s /\ forall out, zlen out = numel s * GetBitpackedSize C ->
    wp (quantize_int8 z (numel s) C l out) (fun o =>
      rep (VBits (tmap (fun v => v <? z) t)) (BW (rev (GetBitpackedSize C :: s)) o)).
Proof.
  intros HH Hne Hz HV. assert (HA := holds_all (fun v => -128 <= v <= 127) t d l HH HV). destruct HH as (HN & -> & HL & HE).
  rewrite rev_involutive. destruct (sh t) as [|C s] eqn:Es; [congruence|].
  exists C, s. do 2 (split; [reflexivity|]). inversion HN as [|? ? HC Hs]; subst.
  assert (N := numel_nonneg s Hs). rewrite GetBitpackedSize_words by lia. intros out Ho. cbn [numel] in HL.
  destruct (quantize_int_ok (-128) 127 z (numel s) C l out ltac:(lia) HA N HC ltac:(lia) Ho ltac:(lia)) as (o & Eo & P1 & P2).
  unfold quantize_int8, bitpack_tensor. change int8_elem with (int_elem (-128) 127). rewrite Eo.
  cbn [wp rep tmap sh at_]. rewrite Es.
  split; [exact HN|]. split; [reflexivity|]. split; [exact P1|]. intros c i Hi.
  destruct (range_inv _ _ _ Hi) as (c' & i' & E & Hc & Hi'). injection E as <- <-.
  destruct (HE _ Hi) as (x & Ex & Rx). rewrite ravel_cons in Ex. destruct (ravel_ok _ _ Hi') as [Hr _].
  rewrite (P2 _ _ x Hr Hc Ex), Rx. reflexivity.
Qed.
Lemma ok8_inv s z : ok8 s z = true -> (0 < s)%Q /\ -128 <= z <= 127.
Proof.
  unfold ok8. rewrite !andb_true_iff, !Z.leb_le. intros [[H1 H2] H3]. split; [|lia]. apply Qlt_bool_iff. exact H1.
Qed.
Lemma offset_nonneg s : (0 < s)%Q -> 0 <= int8_offset s.
Proof.
  intros Hs. unfold int8_offset.
  assert (H : (0 <= 1 / s)%Q) by (unfold Qdiv; rewrite Qmult_1_l; apply Qlt_le_weak, Qinv_lt_0_compat, Hs).
  rewrite round_haz_nonneg by exact H. change 0 with (Qfloor 0). apply Qfloor_resp_le. apply Qle_trans with (1 / s)%Q; [exact H|].
  rewrite <- (Qplus_0_r (1 / s)) at 1. apply Qplus_le_compat; [apply Qle_refl|discriminate].
Qed.
Lemma to_int8_id x : -128 <= x <= 127 -> to_int8 x = x.
Proof. intros H. unfold to_int8. rewrite Z.mod_small by lia. lia. Qed.
Lemma dequant8_exec sc z (t : tensor bool) d l : rep (VBits t) (BW d l) -> ok8 sc z = true ->
  exists C s, rev d = GetBitpackedSize C :: s /\ sh t = C :: s /\ forall out, zlen out = numel s * C ->
    wp (dequantize_int8 (int8_offset sc) z (numel s) C l out) (fun o =>
      rep (VInt (tmap (fun b : bool => let off := round_haz (1 / sc) in if b then Z.max (-128) (z - off) else Z.min 127 (z + off)) t)) (BI (rev (C :: s)) o)).
Proof.
  intros HR H8. destruct (ok8_inv _ _ H8) as [Hs Hz]. assert (Hoff := offset_nonneg sc Hs). revert HR.
  cbn [rep]. destruct (sh t) as [|C s] eqn:Es; [intros []|]. intros (HN & -> & HP & HE). rewrite rev_involutive.
  inversion HN as [|? ? HC Hs']; subst. assert (N := numel_nonneg s Hs'). exists C, s.
  rewrite GetBitpackedSize_words by lia. do 2 (split; [reflexivity|]). intros out Ho.
  destruct HP as (HL & _ & _). unfold dequantize_int8. apply unpack_matrix_wp; try lia.
  intros o (U1 & _ & U3). cbn [rep]. unfold holds. cbn [tmap sh at_]. rewrite Es.
  split; [exact HN|]. split; [reflexivity|]. split; [cbn [numel]; lia|]. intros i Hi.
  destruct (range_inv _ _ _ Hi) as (c & i' & -> & Hc & Hi'). destruct (ravel_ok _ _ Hi') as [Hr _].
  rewrite ravel_cons. eexists. split; [apply U3; auto|]. rewrite HE by exact Hi. unfold int8_offset in *.
  destruct (at_ t (c :: i')); cbv zeta; rewrite to_int8_id by lia; reflexivity.
Qed.

Lemma conv_int8_exec kt c ti tf tm tb sc z d l fd f mb bb v :
  rep (VBits ti) (BW d l) -> rep (VF tf) (BF fd f) -> rep (VF tm) mb -> rep (VF tb) bb ->
  lc8_fun c sc z [VBits ti; VF tf; VF tm; VF tb; VNone] = Some v ->
  op_ok kt (OConv c) [VBits ti; VF tf; VF tm; VF tb; VNone] -> (ca_pad c = PadSame -> ca_padv c = 0 -> kt = KReference) -> storable v ->
  conv_exec (Some (sc, z)) kt c d l fd f mb bb BN (rep v).
Proof.
  intros Hi Hf Hm Hb Hv Hok Hz0 Hst. cbn [lc8_fun] in Hv.
  destruct (bc_float c ti tf tm tb) as [v0|] eqn:Hv0; [|discriminate].
  destruct (bc_float_inv _ _ _ _ _ _ Hv0) as (g & Co & Hg & Ed & Sm & Sb & Hpad & Ev0). rewrite Ev0 in Hv. clear Hv0 Ev0 v0.
  destruct (ok8 sc z) eqn:H8; [|discriminate]. destruct (ok8_inv _ _ H8) as [Hs Hz]. injection Hv as Ev. symmetry in Ev.
  destruct (bc_geom_inv _ _ _ _ Hg) as (C & W & H & N & ci & KW & KH & Co' & Si & Sf & _).
  cbn [rep] in Hi. rewrite Si in Hi. destruct Hi as (HNN & -> & HP & HE).
  rewrite Sf in Ed. cbn [dim_out] in Ed. subst Co'.
  destruct mb as [md ml| | | |]; try contradiction. destruct bb as [bd bl| | | |]; try contradiction.
  destruct (holds_vec _ _ _ _ _ Hm Sm) as (-> & Lm & Em). destruct (holds_vec _ _ _ _ _ Hb Sb) as (-> & Lb & Eb).
  destruct (pack_filter _ _ _ _ _ _ _ Hf Sf) as (-> & HF). unfold conv_exec. eapply wp_mono; [exact HF|]. cbv beta.
  clear HF. intros fl [HFP HFE] extra Hx. cbv zeta. cbn [numel] in HP.
  set (w := world_of (Some (sc, z)) c [Co; KH; KW; GetBitpackedSize ci] fl (BF [Co] ml) (BF [Co] bl) BN extra).
  assert (Hcase : match Some (sc, z), BN with
    | None, BI td tl => td = [Co] /\ zlen tl = Co /\ BF [Co] ml = BN /\ BF [Co] bl = BN
    | _, _ => exists ml' bl', BF [Co] ml = BF [Co] ml' /\ BF [Co] bl = BF [Co] bl' /\ zlen ml' = Co /\ zlen bl' = Co
    end) by (exists ml, bl; auto).
  assert (Hoq : forall s z0, Some (sc, z) = Some (s, z0) -> (0 < s)%Q) by (intros s z0 E; injection E as <- <-; exact Hs).
  assert (Hzero : ca_pad c = PadSame -> ca_padv c = 0 -> wd_out w = TFloat32 \/ wd_out w = TInt8 /\ kt = KReference)
    by (intros E1 E2; right; split; [reflexivity|exact (Hz0 E1 E2)]).
  assert (HPr := conv_prepare (Some (sc, z)) kt c ti tf g _ C W H N ci KW KH Co l fl (BF [Co] ml) (BF [Co] bl) BN extra Hg Si Sf Hok HE HFE Hcase Hoq Hzero).
  change (rev [words C; W; H; N]) with [N; H; W; words C].
  eexists. split; [exact HPr|]. intros es st fb ib S Hrun Hrdy Hish Hin Hsame Hfb Hib HS.
  assert (HEv := conv_eval (Some (sc, z)) kt c ti tf g _ C W H N ci KW KH Co l fl (BF [Co] ml) (BF [Co] bl) BN extra Hg Si Sf Hok HNN HP HE HFP HFE Hx Hcase Hoq Hzero
    es st fb ib S Hrun Hrdy Hish Hin Hsame Hfb Hib HS).
  match type of HEv with Eval _ _ _ _ _ _ (correct_output _ ?q _) => set (p := q) in HEv end.
  assert (EG : geom_of p = g) by exact (conv_geom (Some (sc, z)) kt c ti tf g C W H N ci KW KH Co l fl (BF [Co] ml) (BF [Co] bl) BN extra Hg Si Sf HE HFE).
  destruct (conv_dims c ti tf g C W H N ci KW KH Co l fl Hg Si Sf HE HFE) as (D1 & D2 & D3 & D4 & D5 & D6 & D7 & D8 & Eg).
  assert (EB : gB g = N) by (rewrite Eg; reflexivity).
  assert (EV : forall n y x o, 0 <= n < N -> 0 <= o < Co -> the_value w p l n y x o = bc_conv c g ti tf n y x o)
    by exact (conv_value (Some (sc, z)) kt c ti tf g C W H N ci KW KH Co l fl (BF [Co] ml) (BF [Co] bl) BN extra Hg Si Sf HE HFE Hoq Hzero).
  assert (P1 : batches p = N) by reflexivity. assert (P2 : out_c p = Co) by reflexivity.
  assert (P3 : out_h p = gOH g) by reflexivity. assert (P4 : out_w p = gOW g) by reflexivity. clearbody p.
  eapply Eval_mono; [|exact HEv]. intros o. cbv beta. unfold correct_output. cbn [wd_out world_of].
  destruct o as [o|o|o]; try (intros F; exfalso; exact F). rewrite EG, P1, P2, P3, P4. intros (Lo & Ho).
  cbn [pr_out]. cbn [wd_out world_of ttype_eqb].
  rewrite Ev in Hst |- *. destruct Hst as [Hst _]. cbn [rep]. unfold holds. cbn [vshape sh at_ tmap] in *. unfold out_sh in *.
  rewrite EB in *. split; [exact Hst|]. split; [reflexivity|].
  split; [rewrite Lo; unfold out_pixels; rewrite EB; cbn [numel]; ring|].
  intros i Hi. destruct (range_inv _ _ _ Hi) as (k & i1 & -> & Hk & Hi1). destruct (range_inv _ _ _ Hi1) as (x & i2 & -> & Hxx & Hi2).
  destruct (range_inv _ _ _ Hi2) as (y & i3 & -> & Hy & Hi3). destruct (range_inv _ _ _ Hi3) as (n & i4 & -> & Hn & Hi4).
  inversion Hi4; subst i4. destruct (Em k Hk) as (mv & Rm & Qm). destruct (Eb k Hk) as (bv & Rb & Qb).
  assert (Ru := Ho n y x k mv bv Hn Hy Hxx Rm Rb). eexists. split.
  - rewrite <- Ru. f_equal. unfold out_pixel. cbn [ravel]. ring.
  - unfold clamp8. do 2 f_equal. apply round_haz_comp. rewrite EV by assumption. cbn [wd_scale wd_zp world_of wd_a attrs_of at_act w].
    rewrite <- Qm, <- Qb. reflexivity.
Qed.

(** ** One operator *)
Lemma exec8_ok kt tfl o vs bs od v : tflite_ok tfl -> Forall2 rep vs bs -> denote o vs = Some v ->
  op_ok8 kt o vs -> storable v -> (o = ODequant \/ (exists s z, k8 o = Some (LDQ8 s z)) -> od = rev (vshape v)) -> exec8 kt tfl o bs od (rep v).
Proof.
  intros HT HR HD HO HS Hod. unfold op_ok8 in HO. unfold exec8.
  assert (Hold : op_ok kt o vs -> exec kt tfl o bs od (rep v)) by (intros K; apply (exec_ok kt tfl o vs bs od v HT HR HD K HS); auto).
  destruct (k8 o) as [[s z|s z|z|s z|c s z]|] eqn:Ek; try exact (Hold HO).
  - (* quantize *) destruct HO as (-> & Hz & HO). change (lq8_fun z vs = Some v) in HD. destruct vs as [|[| | |t|] [|]]; try discriminate.
    destruct (F2_1 _ _ _ HR) as (b & -> & R). destruct b; try contradiction. destruct HO as [Hne HV]. injection HD as <-.
    destruct (quant8_exec z t _ _ R Hne Hz HV) as (C & s & -> & _ & K). exact K.
  - (* dequantize *) subst o. change (ldq8_fun s z vs = Some v) in HD. destruct vs as [|[|t| | |] [|]]; try discriminate.
    destruct (F2_1 _ _ _ HR) as (b & -> & R). destruct b; try contradiction. cbn [ldq8_fun] in HD. destruct (ok8 s z) eqn:E8; [|discriminate].
    injection HD as <-. rewrite (Hod (or_intror (ex_intro _ s (ex_intro _ z eq_refl)))). cbn [vshape tmap sh].
    destruct (dequant8_exec s z t _ _ R E8) as (C & s' & -> & Es & K). rewrite rev_involutive, Es.
    split; [reflexivity|]. split; [reflexivity|exact K].
  - (* conv *) destruct HO as (-> & HO & Hz0). change (lc8_fun c s z vs = Some v) in HD. unfold lc8_fun in HD.
    destruct vs as [|[|ti| | |] vs]; try discriminate. destruct vs as [|[tf| | | |] vs]; try discriminate.
    destruct vs as [|[tm| | | |] vs]; try discriminate. destruct vs as [|[tb| | | |] vs]; try discriminate.
    destruct vs as [|[| | | |] vs]; try discriminate. destruct vs; try discriminate.
    inversion HR as [|? b0 ? bs0 R0 HR1]; subst. inversion HR1 as [|? b1 ? bs1 R1 HR2]; subst. inversion HR2 as [|? b2 ? bs2 R2 HR3]; subst.
    inversion HR3 as [|? b3 ? bs3 R3 HR4]; subst. inversion HR4 as [|? b4 ? bs4 R4 HR5]; subst. inversion HR5; subst.
    destruct b0; try contradiction. destruct b1; try contradiction. destruct b4; try contradiction.
    exact (conv_int8_exec kt c ti tf tm tb s z _ _ _ _ b2 b3 v R0 R1 R2 R3 HD HO Hz0 HS).
Qed.
Lemma conv_exec_mono oq kt c d l fd f m b t (P Q : buf -> Prop) : (forall b, P b -> Q b) -> conv_exec oq kt c d l fd f m b t P -> conv_exec oq kt c d l fd f m b t Q.
Proof.
  intros HPQ. unfold conv_exec.
  destruct fd as [|? [|? [|? [|? [|]]]]]; try exact (fun F => F). intros H. eapply wp_mono; [exact H|]. cbv beta zeta. clear H.
  intros fl H extra Hx. destruct (H extra Hx) as (r & Hr & K). exists r. split; [exact Hr|].
  intros es st fb ib S0 H1 H2 H3 H4 H5 H6 H7 H8. eapply Eval_mono; [|exact (K es st fb ib S0 H1 H2 H3 H4 H5 H6 H7 H8)].
  intros out. destruct out; auto.
Qed.
Lemma exec8_mono kt tfl o bs od (P Q : buf -> Prop) : (forall b, P b -> Q b) -> exec8 kt tfl o bs od P -> exec8 kt tfl o bs od Q.
Proof.
  intros HPQ. unfold exec8. destruct (k8 o) as [[s z|s z|z|s z|c s z]|]; try (exact (exec_mono kt tfl o bs od P Q HPQ)).
  - destruct bs as [|[| | |d l|] [|]]; try exact (fun F => F). destruct (rev d); [exact (fun F => F)|]. intros H out Ho.
    eapply wp_mono; [exact (H out Ho)|]. cbv beta. auto.
  - destruct bs as [|[|d l| | |] [|]]; try exact (fun F => F). destruct (rev d); [exact (fun F => F)|]. destruct (rev od); [exact (fun F => F)|].
    intros (H1 & H2 & H). split; [exact H1|]. split; [exact H2|]. intros out Ho. eapply wp_mono; [exact (H out Ho)|]. cbv beta. auto.
  - destruct bs as [|[|d l| | |] bs]; try exact (fun F => F). destruct bs as [|[fd f| | | |] bs]; try exact (fun F => F).
    destruct bs as [|x bs]; try exact (fun F => F). destruct bs as [|y bs]; try exact (fun F => F).
    destruct bs as [|[| | | |] bs]; try exact (fun F => F). destruct bs; try exact (fun F => F). apply conv_exec_mono. exact HPQ.
Qed.
(** ** Programs *)
Lemma run8_ok kt tfl D ty p : forall e m e', tflite_ok tfl -> mem_ok e m -> eval p e = Some e' ->
  fits_machine8 kt ty p e -> (forall r o a, In (r, o, a) p -> filter_const8 D o a) ->
  run8 kt tfl D ty p m (mem_ok e').
Proof.
  induction p as [|[[r o] a] p IH]; intros e m e' HT HM HE HF HC; cbn [eval run8 fits_machine8] in *.
  - injection HE as <-. exact HM.
  - split; [apply (HC r o a); left; reflexivity|].
    destruct (look e a) as [vs|] eqn:El; [|discriminate]. destruct (denote o vs) as [v|] eqn:Ed; [|discriminate].
    destruct (HF vs v eq_refl Ed) as (F1 & F2 & F3 & F4).
    destruct (mlook_ok e m a vs HM El) as (bs & -> & Rs).
    eapply exec8_mono; [|apply (exec8_ok kt tfl o vs bs (ty r) v HT Rs Ed F1 F2 F3)]. intros b Rb.
    apply (IH (upd e r v)); auto. apply mem_upd; assumption. intros; eapply HC; right; eassumption.
Qed.
Lemma run8_mono kt tfl D ty p : forall m (P Q : mem -> Prop), (forall m, P m -> Q m) -> run8 kt tfl D ty p m P -> run8 kt tfl D ty p m Q.
Proof.
  induction p as [|[[r o] a] p IH]; intros m P Q HPQ H; cbn [run8] in *; [auto|]. destruct H as [H1 H]. split; [exact H1|].
  destruct (mlook m a); [|exact H]. eapply exec8_mono; [|exact H]. intros b. cbv beta. apply IH. exact HPQ.
Qed.
