(** * ConvBinary: recognising a binary convolution (mlir/transforms/prepare_tf.cc
    42-89, prepare_patterns_common.td 87-126) and fusing element-wise operations
    into it (optimize_patterns_common.td 47-180), in exact rational arithmetic. *)
From Coq Require Import QArith Qround Qabs Lqa.
From Verif Require Import Base Spec Bits Bitpack Reference OutputTransform Quantize RefTheorems ConvFold ConvPool FusePad Check.
Open Scope Z_scope.

(** The float filter, TensorFlow layout HWIO: [kh, kw, ci, o] are its four dimensions. *)
Definition at_q (F : list Q) (i : Z) : Q := match rd F i with Some v => v | None => 0%Q end.
Definition filt (kw ci o : Z) (F : list Q) (oc fy fx c : Z) : Q := at_q F (((fy * kw + fx) * ci + c) * o + oc).

(** prepare_tf.cc 50-64: |F[0,0,0,i]| per output channel. *)
Definition GetScaleVector (kw ci o : Z) (F : list Q) : list Q := build o (fun i => Qabs (filt kw ci o F i 0 0 0)).

(** std::numeric_limits<float>::epsilon() and 0.005f *)
Definition eps32 : Q := 1 # 8388608.
Definition tol32 : Q := 10737418 # 2147483648.
(** prepare_tf.cc 66-89 (type and rank tests omitted: they hold of the model's
    filters). Loops that return false early become [forallb]. *)
Definition IsBinaryFilter (kh kw ci o : Z) (F : list Q) : bool :=
  forallb (fun h => forallb (fun w => forallb (fun i => forallb (fun oc =>
    let scale := filt kw ci o F oc 0 0 0 in
    let value := filt kw ci o F oc h w i in
    negb (Qle_bool (Qabs scale) eps32) && Qle_bool (Qabs (Qabs (value / scale) - 1)) tol32)
  (zrange o)) (zrange ci)) (zrange kw)) (zrange kh).

(** prepare_patterns_common.td 99-104: TF_Div by the scale vector, then
    TF_Transpose {3,0,1,2} to OHWI. *)
Definition binary_filter (kh kw ci o : Z) (F : list Q) : list Q :=
  build (o * kh * kw * ci) (fun j =>
    let c := j mod ci in let q := j / ci in
    let fx := q mod kw in let fy := (q / kw) mod kh in let oc := q / kw / kh in
    (filt kw ci o F oc fy fx c / Qabs (filt kw ci o F oc 0 0 0))%Q).

(** ** Specification: convolution with a rational filter *)
Fixpoint sumnQ (n : nat) (f : Z -> Q) : Q :=
  match n with O => 0%Q | S n' => (sumnQ n' f + f (Z.of_nat n'))%Q end.
Definition sumQ (n : Z) (f : Z -> Q) : Q := sumnQ (Z.to_nat n) f.
Definition conv_Q (g : geom) (padv : Z) (I : Z -> Z -> Z -> Z -> Z) (F : Z -> Z -> Z -> Z -> Q) (b oy ox o : Z) : Q :=
  sumQ (gKH g) (fun fy => sumQ (gKW g) (fun fx => sumQ (gCI g) (fun c =>
    (inject_Z (tap g padv I b oy ox fy fx (o / gCO g * gCI g + c)) * F o fy fx c)%Q))).

(** ** Proofs: sums *)
Lemma sumQ_bound n s e (f : Z -> Z) (h : Z -> Q) : (0 <= n) ->
  (forall i, 0 <= i < n -> (Qabs (s * inject_Z (f i) - h i) <= e)%Q) ->
  (Qabs (s * inject_Z (sum_ n f) - sumQ n h) <= inject_Z n * e)%Q.
Proof.
  intros Hn H. unfold sum_, sumQ. rewrite <- (Z2Nat.id n) at 3 by exact Hn.
  assert (G : forall i, 0 <= i < Z.of_nat (Z.to_nat n) -> (Qabs (s * inject_Z (f i) - h i) <= e)%Q)
    by (intros; apply H; lia). clear H. revert G. generalize (Z.to_nat n) as k. clear.
  induction k as [|k IH]; intros G.
  - cbn [sumn sumnQ]. change (inject_Z 0) with 0%Q. assert (E : (s * 0 - 0 == 0)%Q) by ring. rewrite E.
    change (inject_Z (Z.of_nat 0)) with 0%Q. change (Qabs 0) with 0%Q. lra.
  - cbn [sumn sumnQ]. assert (H1 := IH ltac:(intros; apply G; lia)). assert (H2 := G (Z.of_nat k) ltac:(lia)).
    rewrite inject_Z_plus. replace (Z.of_nat (S k)) with (Z.of_nat k + 1) by lia. rewrite inject_Z_plus.
    eapply Qle_trans; [|apply Qle_trans with (inject_Z (Z.of_nat k) * e + e)%Q;
      [exact (Qplus_le_compat _ _ _ _ H1 H2)|change (inject_Z 1) with 1%Q; lra]].
    eapply Qle_trans; [|apply Qabs_triangle]. apply Qle_lteq. right. apply Qabs_wd. ring.
Qed.

Lemma conv_Q_bound g padv I Fz Fq b oy ox o (s e : Q) :
  0 <= gKH g -> 0 <= gKW g -> 0 <= gCI g ->
  (forall fy fx c, 0 <= fy < gKH g -> 0 <= fx < gKW g -> 0 <= c < gCI g ->
    (Qabs (s * inject_Z (tap g padv I b oy ox fy fx (o / gCO g * gCI g + c) * Fz o fy fx c)
          - inject_Z (tap g padv I b oy ox fy fx (o / gCO g * gCI g + c)) * Fq o fy fx c) <= e)%Q) ->
  (Qabs (s * inject_Z (conv g padv I Fz b oy ox o) - conv_Q g padv I Fq b oy ox o) <= inject_Z (taps g) * e)%Q.
Proof.
  intros H1 H2 H3 H. rewrite conv_tap. unfold conv_Q, taps. rewrite !inject_Z_mult.
  eapply Qle_trans; [apply (sumQ_bound _ s (inject_Z (gKW g) * (inject_Z (gCI g) * e))%Q); [exact H1|]|].
  - intros fy Hy. apply (sumQ_bound _ s (inject_Z (gCI g) * e)%Q); [exact H2|].
    intros fx Hx. apply (sumQ_bound _ s e); [exact H3|]. intros c Hc. apply H; assumption.
  - apply Qle_lteq. right. ring.
Qed.

(** ** Proofs: the rewritten filter *)
Section Filter.
  Variables (kh kw ci o : Z) (F : list Q).
  Hypotheses (H1 : 0 < kh) (H2 : 0 < kw) (H3 : 0 < ci) (H4 : 0 < o).

  Lemma rd_binary_filter oc fy fx c :
    0 <= oc < o -> 0 <= fy < kh -> 0 <= fx < kw -> 0 <= c < ci ->
    rd (binary_filter kh kw ci o F) (((oc * kh + fy) * kw + fx) * ci + c) =
      Some (filt kw ci o F oc fy fx c / Qabs (filt kw ci o F oc 0 0 0))%Q.
  Proof.
    intros Ho Hy Hx Hc. unfold binary_filter.
    assert (P1 : 0 <= oc * kh + fy < o * kh) by nia.
    assert (P2 : 0 <= (oc * kh + fy) * kw + fx < o * kh * kw) by nia.
    rewrite rd_build by nia. cbv zeta.
    replace ((((oc * kh + fy) * kw + fx) * ci + c) mod ci) with c by (rewrite Z.add_comm, Z.mod_add, Z.mod_small; lia).
    replace ((((oc * kh + fy) * kw + fx) * ci + c) / ci) with ((oc * kh + fy) * kw + fx)
      by (rewrite Z.div_add_l, Z.div_small; lia).
    replace (((oc * kh + fy) * kw + fx) mod kw) with fx by (rewrite Z.add_comm, Z.mod_add, Z.mod_small; lia).
    replace (((oc * kh + fy) * kw + fx) / kw) with (oc * kh + fy) by (rewrite Z.div_add_l, Z.div_small; lia).
    replace ((oc * kh + fy) mod kh) with fy by (rewrite Z.add_comm, Z.mod_add, Z.mod_small; lia).
    replace ((oc * kh + fy) / kh) with oc by (rewrite Z.div_add_l, Z.div_small; lia). reflexivity.
  Qed.
  Lemma zlen_binary_filter : zlen (binary_filter kh kw ci o F) = o * kh * kw * ci.
  Proof.
    unfold binary_filter. apply zlen_build.
    repeat apply Z.mul_nonneg_nonneg; lia.
  Qed.

  Lemma is_binary_spec : IsBinaryFilter kh kw ci o F = true ->
    forall oc fy fx c, 0 <= oc < o -> 0 <= fy < kh -> 0 <= fx < kw -> 0 <= c < ci ->
      (eps32 < Qabs (filt kw ci o F oc 0 0 0) /\
       Qabs (Qabs (filt kw ci o F oc fy fx c / filt kw ci o F oc 0 0 0) - 1) <= tol32)%Q.
  Proof.
    intros H oc fy fx c Ho Hy Hx Hc. unfold IsBinaryFilter in H.
    rewrite forallb_forall in H. specialize (H fy (in_zrange kh fy Hy)).
    rewrite forallb_forall in H. specialize (H fx (in_zrange kw fx Hx)).
    rewrite forallb_forall in H. specialize (H c (in_zrange ci c Hc)).
    rewrite forallb_forall in H. specialize (H oc (in_zrange o oc Ho)).
    cbv zeta in H. apply andb_true_iff in H. destruct H as [A B].
    split; [apply Qle_bool_false, negb_true_iff; exact A|apply Qle_bool_iff; exact B].
  Qed.
End Filter.

(** |s * sign(v) - v| <= t * s when ||v/s0| - 1| <= t, s = |s0|. *)
Lemma sign_error v s0 t : (0 < Qabs s0)%Q -> (Qabs (Qabs (v / s0) - 1) <= t)%Q ->
  (Qabs (Qabs s0 * inject_Z (pm (negb (Qle_bool 0 (v / Qabs s0)))) - v) <= t * Qabs s0)%Q.
Proof.
  intros Hs Ht. set (s := Qabs s0) in *.
  assert (Hn0 : ~ (s0 == 0)%Q).
  { intros E. unfold s in Hs. rewrite E in Hs. cbn in Hs. discriminate. }
  assert (E : (Qabs (v / s0) == Qabs v / s)%Q).
  { unfold Qdiv. rewrite Qabs_Qmult. unfold s. rewrite Qabs_Qinv. reflexivity. }
  rewrite E in Ht. assert (Hn : ~ (s == 0)%Q) by lra.
  assert (Hvs : ((v / s) * s == v)%Q) by (field; exact Hn).
  assert (Hav : ((Qabs v / s) * s == Qabs v)%Q) by (field; exact Hn).
  apply Qabs_Qle_condition in Ht. destruct Ht as [T1 T2].
  set (w := (Qabs v / s)%Q) in *. clearbody w. set (u := (v / s)%Q) in *. clearbody u. clearbody s. clear E.
  apply Qabs_Qle_condition.
  destruct (Qle_bool 0 u) eqn:B; cbn [negb pm].
  - apply Qle_bool_iff in B. assert (0 <= v)%Q by nra. rewrite Qabs_pos in Hav by assumption.
    change (inject_Z 1) with 1%Q. split; nra.
  - apply Qle_bool_false in B. assert (v <= 0)%Q by nra. rewrite Qabs_neg in Hav by assumption.
    change (inject_Z (-1)) with (- (1))%Q. split; nra.
Qed.

Section Recognise.
  Variable p : bconv.
  Hypothesis WF : bconv_wf p.
  Variables (input : list Z) (F : list Q).
  Let ci := channels_in p / groups p.
  Hypothesis Hin : packed input (in_pixels (geom_of p)) (channels_in p).
  Hypothesis Hev : pad_same p && (pad_value p =? 0) = true -> ci mod 2 = 0.
  Hypothesis Hsz : taps (geom_of p) < 2 ^ 31.
  Hypotheses (Hkh : 0 < f_h p) (Hkw : 0 < f_w p) (Hci : 0 < ci).

  (** Tolerance [t]: the converter's tol32, or 0 for exactly binary filters. *)
  Variable t : Q.
  Hypothesis Ht : forall oc fy fx c, 0 <= oc < out_c p -> 0 <= fy < f_h p -> 0 <= fx < f_w p -> 0 <= c < ci ->
    (0 < Qabs (filt (f_w p) ci (out_c p) F oc 0 0 0) /\
     Qabs (Qabs (filt (f_w p) ci (out_c p) F oc fy fx c / filt (f_w p) ci (out_c p) F oc 0 0 0) - 1) <= t)%Q.

  Lemma recognise_binary buf out :
    zlen buf = filter_pixels (geom_of p) * words ci ->
    zlen out = out_pixels (geom_of p) * out_c p ->
    let padv := if pad_same p && (pad_value p =? 0) then 0 else 1 in
    exists f y,
      quantize_Q (filter_pixels (geom_of p)) ci (binary_filter (f_h p) (f_w p) ci (out_c p) F) buf = Some f /\
      eval_ref_float p ActNone input f (GetScaleVector (f_w p) ci (out_c p) F) (build (out_c p) (fun _ => 0%Q)) out
        = Some y /\
      forall b oy ox o, 0 <= b < batches p -> 0 <= oy < out_h p -> 0 <= ox < out_w p -> 0 <= o < out_c p ->
        exists r, rd y (out_pixel (geom_of p) b oy ox * out_c p + o) = Some r /\
          (Qabs (r - conv_Q (geom_of p) padv (input_pm (geom_of p) input)
                       (filt (f_w p) ci (out_c p) F) b oy ox o)
           <= inject_Z (taps (geom_of p)) * (t * Qabs (filt (f_w p) ci (out_c p) F o 0 0 0)))%Q.
  Proof.
    intros Hbuf Hout padv.
    destruct WF as [(_ & _ & _ & G4 & G5 & _ & _ & G6 & G7 & G8 & _) Wcin Wcout _ _].
    cbn [geom_of gKH gKW gG gCI gCO] in *.
    assert (Ho : 0 < out_c p) by (rewrite Wcout; apply Z.mul_pos_pos; assumption).
    assert (Efp : filter_pixels (geom_of p) = out_c p * f_h p * f_w p)
      by (unfold filter_pixels; cbn [geom_of gG gCO gKH gKW]; rewrite <- Wcout; reflexivity).
    assert (Hfp : 0 <= filter_pixels (geom_of p))
      by (rewrite Efp; apply Z.mul_nonneg_nonneg; [apply Z.mul_nonneg_nonneg; lia|lia]).
    set (BF := binary_filter (f_h p) (f_w p) ci (out_c p) F).
    assert (LB : zlen BF = filter_pixels (geom_of p) * ci)
      by (rewrite Efp; apply zlen_binary_filter; assumption).
    destruct (pack_correct q_elem q_irrefl BF (filter_pixels (geom_of p)) ci buf 0 Hfp ltac:(lia) LB Hbuf eq_refl)
      as (f & Ef & Pf & Bf).
    set (M := GetScaleVector (f_w p) ci (out_c p) F). set (Z0 := build (out_c p) (fun _ : Z => 0%Q)).
    assert (LM : zlen M = out_c p) by (unfold M, GetScaleVector; apply zlen_build; lia).
    assert (LZ : zlen Z0 = out_c p) by (unfold Z0; apply zlen_build; lia).
    destruct (eval_ref_float_ok p WF input f Hin Pf Hev Hsz ActNone M Z0 out LM LZ Hout) as (y & Ey & _ & Ry).
    exists f, y. split; [exact Ef|]. split; [exact Ey|]. intros b oy ox o Hb Hy Hx Hoc.
    assert (EM : rd M o = Some (Qabs (filt (f_w p) ci (out_c p) F o 0 0 0)))
      by (unfold M, GetScaleVector; rewrite rd_build by exact Hoc; reflexivity).
    assert (EZ : rd Z0 o = Some 0%Q) by (unfold Z0; rewrite rd_build by exact Hoc; reflexivity).
    destruct (Ry b oy ox o _ _ Hb Hy Hx EM EZ) as (r & Er & Vr). exists r. split; [exact Er|].
    cbn [act_spec] in Vr. fold padv in Vr. rewrite Vr. rewrite Qplus_0_r.
    apply (conv_Q_bound (geom_of p)); [exact G4|exact G5|exact G7|].
    cbn [geom_of gKH gKW gCI]. intros fy fx c Hfy Hfx Hc.
    destruct (Ht o fy fx c Hoc Hfy Hfx Hc) as [Hs HT].
    set (sv := filt (f_w p) ci (out_c p) F o fy fx c) in *. set (s0 := filt (f_w p) ci (out_c p) F o 0 0 0) in *.
    assert (EB : filter_pm (geom_of p) f o fy fx c = pm (negb (Qle_bool 0 (sv / Qabs s0)))).
    { unfold filter_pm. cbn [geom_of gKH gKW gCI]. fold ci. f_equal.
      assert (P1 : 0 <= (o * f_h p + fy) * f_w p + fx < filter_pixels (geom_of p)).
      { rewrite Efp. clear - Hoc Hfy Hfx. assert (0 <= o * f_h p + fy < out_c p * f_h p) by nia. nia. }
      rewrite (Bf _ c (sv / Qabs s0)%Q P1 Hc); [reflexivity|].
      apply rd_binary_filter; assumption. }
    rewrite EB. set (T := tap _ _ _ _ _ _ _ _ _).
    assert (HTb : Z.abs T <= 1).
    { unfold T, tap, padv. destruct (inside _ _ _).
      - unfold input_pm. destruct (bit_of _ _ _ _); cbn; lia.
      - destruct (pad_same p && (pad_value p =? 0)); cbn; lia. }
    assert (SE := sign_error sv s0 t Hs HT).
    set (sg := pm _) in *. clearbody sg T. clear - HTb SE.
    rewrite inject_Z_mult.
    replace (Qabs (Qabs s0 * (inject_Z T * inject_Z sg) - inject_Z T * sv))
      with (Qabs (Qabs s0 * (inject_Z T * inject_Z sg) - inject_Z T * sv)) by reflexivity.
    assert (E : (Qabs s0 * (inject_Z T * inject_Z sg) - inject_Z T * sv == inject_Z T * (Qabs s0 * inject_Z sg - sv))%Q) by ring.
    rewrite E, Qabs_Qmult. assert (A0 := Qabs_nonneg (Qabs s0 * inject_Z sg - sv)).
    set (d := Qabs (Qabs s0 * inject_Z sg - sv)) in *. clearbody d.
    assert (HQ : (Qabs (inject_Z T) <= 1)%Q).
    { apply Qabs_Qle_condition. change 1%Q with (inject_Z 1). rewrite <- inject_Z_opp, <- !Zle_Qle. lia. }
    assert (HQ0 := Qabs_nonneg (inject_Z T)). set (q := Qabs (inject_Z T)) in *. clearbody q.
    eapply Qle_trans; [|exact SE]. nra.
  Qed.
End Recognise.

(** ** Fusing element-wise operations *)
Section Fuse.
  Variable p : bconv.
  Hypothesis WF : bconv_wf p.
  Variables (a : activation) (input filter : list Z).
  Hypothesis Hin : packed input (in_pixels (geom_of p)) (channels_in p).
  Hypothesis Hfl : packed filter (filter_pixels (geom_of p)) (channels_in p / groups p).
  Hypothesis Hev : pad_same p && (pad_value p =? 0) = true -> (channels_in p / groups p) mod 2 = 0.
  Hypothesis Hsz : taps (geom_of p) < 2 ^ 31.

  (** Replacing (a, mul, bias) by (a', mul', bias') applies [h c] to every output of
      channel [c]. *)
  Definition fused_by (a' : activation) (mul bias mul' bias' out : list Q) (h : Z -> Q -> Q) : Prop :=
    exists y1 y2, eval_ref_float p a input filter mul bias out = Some y1 /\
      eval_ref_float p a' input filter mul' bias' out = Some y2 /\
      forall b y x c, 0 <= b < batches p -> 0 <= y < out_h p -> 0 <= x < out_w p -> 0 <= c < out_c p ->
        exists r1 r2, rd y1 (out_pixel (geom_of p) b y x * out_c p + c) = Some r1 /\
          rd y2 (out_pixel (geom_of p) b y x * out_c p + c) = Some r2 /\ (r2 == h c r1)%Q.

  Lemma fuse_general a' mul bias mul' bias' out h :
    zlen mul = out_c p -> zlen bias = out_c p -> zlen mul' = out_c p -> zlen bias' = out_c p ->
    zlen out = out_pixels (geom_of p) * out_c p ->
    (forall c, Proper (Qeq ==> Qeq) (h c)) ->
    (forall c m b m' b' v, rd mul c = Some m -> rd bias c = Some b -> rd mul' c = Some m' -> rd bias' c = Some b' ->
       (m' * inject_Z (act_spec a' v) + b' == h c (m * inject_Z (act_spec a v) + b))%Q) ->
    fused_by a' mul bias mul' bias' out h.
  Proof.
    intros L1 L2 L3 L4 Lo HP H.
    destruct (eval_ref_float_ok p WF input filter Hin Hfl Hev Hsz a mul bias out L1 L2 Lo) as (y1 & E1 & _ & R1).
    destruct (eval_ref_float_ok p WF input filter Hin Hfl Hev Hsz a' mul' bias' out L3 L4 Lo) as (y2 & E2 & _ & R2).
    exists y1, y2. split; [exact E1|]. split; [exact E2|]. intros b y x c Hb Hy Hx Hc.
    destruct (rd_some mul c ltac:(lia)) as [m Em]. destruct (rd_some bias c ltac:(lia)) as [bb Eb].
    destruct (rd_some mul' c ltac:(lia)) as [m' Em']. destruct (rd_some bias' c ltac:(lia)) as [b' Eb'].
    destruct (R1 b y x c m bb Hb Hy Hx Em Eb) as (r1 & Er1 & V1).
    destruct (R2 b y x c m' b' Hb Hy Hx Em' Eb') as (r2 & Er2 & V2).
    exists r1, r2. split; [exact Er1|]. split; [exact Er2|]. rewrite V2, (HP c _ _ V1). apply H; assumption.
  Qed.
End Fuse.

(** Constant folding of the element-wise op on two vectors. *)
Definition map2Q (f : Q -> Q -> Q) (l1 l2 : list Q) : list Q := map (fun '(a, b) => f a b) (combine l1 l2).
Lemma zlen_map2Q f l1 l2 : zlen l1 = zlen l2 -> zlen (map2Q f l1 l2) = zlen l1.
Proof. unfold map2Q, zlen. rewrite map_length, combine_length. lia. Qed.
Lemma rd_map2Q f l1 l2 i a b : rd l1 i = Some a -> rd l2 i = Some b -> rd (map2Q f l1 l2) i = Some (f a b).
Proof.
  unfold map2Q. rewrite rd_map. unfold rd. destruct (i <? 0); [discriminate|].
  generalize (Z.to_nat i). clear. revert l2.
  induction l1 as [|x l1 IH]; intros [|y l2] [|n] H1 H2; cbn in *; try discriminate.
  - congruence.
  - apply IH; assumption.
Qed.

(** The unfused activation op on the float output. *)
Definition relu_op (a : activation) (v : Q) : Q :=
  match a with
  | ActNone => v
  | ActRelu => if Qle_bool 0 v then v else 0
  | ActReluN1To1 => if Qle_bool v (- (1)) then - (1) else if Qle_bool 1 v then 1 else v
  | ActRelu6 => if Qle_bool v 0 then 0 else if Qle_bool 6 v then 6 else v
  end%Q.
Lemma Qle_bool_inj a b : Qle_bool (inject_Z a) (inject_Z b) = (a <=? b).
Proof.
  destruct (Z.leb_spec a b).
  - apply Qle_bool_iff. rewrite <- Zle_Qle. lia.
  - apply Qle_bool_false. rewrite <- Zlt_Qlt. lia.
Qed.
Lemma relu_op_Z a v : (relu_op a (inject_Z v) == inject_Z (act_spec a v))%Q.
Proof.
  destruct a; cbn [relu_op act_spec]; try reflexivity;
  change 0%Q with (inject_Z 0) in *; change (- (1))%Q with (inject_Z (-1)); change 1%Q with (inject_Z 1); change 6%Q with (inject_Z 6);
  rewrite !Qle_bool_inj.
  - destruct (Z.leb_spec 0 v); f_equiv; lia.
  - destruct (Z.leb_spec v (-1)); [f_equiv; lia|]. destruct (Z.leb_spec 1 v); f_equiv; lia.
  - destruct (Z.leb_spec v 0); [f_equiv; lia|]. destruct (Z.leb_spec 6 v); f_equiv; lia.
Qed.
Lemma relu_op_proper a : Proper (Qeq ==> Qeq) (relu_op a).
Proof.
  intros u v E. destruct a; cbn [relu_op]; try exact E.
  - rewrite (Qle_bool_comp 0 0 u v) by (auto; reflexivity). destruct (Qle_bool 0 v); [exact E|reflexivity].
  - rewrite (Qle_bool_comp u v (- (1)) (- (1))), (Qle_bool_comp 1 1 u v) by (auto; reflexivity).
    destruct (Qle_bool v (- (1))); [reflexivity|]. destruct (Qle_bool 1 v); [reflexivity|exact E].
  - rewrite (Qle_bool_comp u v 0 0), (Qle_bool_comp 6 6 u v) by (auto; reflexivity).
    destruct (Qle_bool v 0); [reflexivity|]. destruct (Qle_bool 6 v); [reflexivity|exact E].
Qed.

(** ** The rewrites of optimize_patterns_common.td *)

(** The constant operand of the fused op: a scalar or a per-channel vector
    (TFLite broadcasting against the last dimension of length [n]). Higher-rank
    constants produce a multiplier/bias that Prepare rejects (bconv2d.cc 222-227). *)
Definition bcast (n : Z) (v : list Q) : list Q := if zlen v =? 1 then build n (fun _ => at_q v 0) else v.
Lemma zlen_bcast n v : 0 <= n -> zlen v = 1 \/ zlen v = n -> zlen (bcast n v) = n.
Proof.
  intros Hn H. unfold bcast. destruct (Z.eqb_spec (zlen v) 1) as [E|E]; [apply zlen_build; exact Hn|].
  destruct H; [contradiction|assumption].
Qed.
Lemma rd_bcast n v c x : rd (bcast n v) c = Some x -> 0 <= c < n ->
  x = if zlen v =? 1 then at_q v 0 else at_q v c.
Proof.
  unfold bcast. destruct (zlen v =? 1).
  - intros H Hc. rewrite rd_build in H by exact Hc. congruence.
  - intros H _. unfold at_q. rewrite H. reflexivity.
Qed.

Section FuseOps.
  Variable p : bconv.
  Hypothesis WF : bconv_wf p.
  Variables (a : activation) (input filter : list Z).
  Hypothesis Hin : packed input (in_pixels (geom_of p)) (channels_in p).
  Hypothesis Hfl : packed filter (filter_pixels (geom_of p)) (channels_in p / groups p).
  Hypothesis Hev : pad_same p && (pad_value p =? 0) = true -> (channels_in p / groups p) mod 2 = 0.
  Hypothesis Hsz : taps (geom_of p) < 2 ^ 31.
  Variables mul bias val out : list Q.
  Hypotheses (Lm : zlen mul = out_c p) (Lb : zlen bias = out_c p).
  Hypothesis Lv : zlen val = 1 \/ zlen val = out_c p.
  Hypothesis Lo : zlen out = out_pixels (geom_of p) * out_c p.

  (** The operand seen by channel [c]. *)
  Definition operand (c : Z) : Q := if zlen val =? 1 then at_q val 0 else at_q val c.

  Lemma Loc : 0 <= out_c p.
  Proof. rewrite <- Lm. unfold zlen. lia. Qed.
  Lemma Lbc : zlen (bcast (out_c p) val) = out_c p.
  Proof. apply zlen_bcast; [exact Loc|exact Lv]. Qed.

  (** optimize_patterns_common.td 33-74 *)
  Lemma fuse_addsub (f : Q -> Q -> Q) (Hf : forall x y z, (f (x + y) z == x + f y z)%Q)
    (HP : Proper (Qeq ==> Qeq ==> Qeq) f) :
    fused_by p a input filter a mul bias mul (map2Q f bias (bcast (out_c p) val)) out (fun c r => f r (operand c)).
  Proof.
    apply fuse_general; try assumption.
    - rewrite zlen_map2Q; [exact Lb|rewrite Lb, Lbc; reflexivity].
    - intros c u v E. rewrite E. reflexivity.
    - intros c m b m' b' v E1 E2 E3 E4. assert (m' = m) as -> by congruence.
      assert (Hc := rd_bounds _ _ _ E1). rewrite Lm in Hc.
      destruct (rd_some (bcast (out_c p) val) c ltac:(rewrite Lbc; exact Hc)) as [x Ex].
      rewrite (rd_map2Q f _ _ c b x E2 Ex) in E4. injection E4 as <-.
      assert (Ev := rd_bcast _ _ _ _ Ex Hc). change (x = operand c) in Ev. rewrite <- Ev. symmetry. apply Hf.
  Qed.
  (** optimize_patterns_common.td 76-114 *)
  Lemma fuse_muldiv (f : Q -> Q -> Q) (Hf : forall x y z w, (f (x * y + z) w == f x w * y + f z w)%Q)
    (HP : Proper (Qeq ==> Qeq ==> Qeq) f) :
    fused_by p a input filter a mul bias (map2Q f mul (bcast (out_c p) val)) (map2Q f bias (bcast (out_c p) val)) out
      (fun c r => f r (operand c)).
  Proof.
    apply fuse_general; try assumption.
    - rewrite zlen_map2Q; [exact Lm|rewrite Lm, Lbc; reflexivity].
    - rewrite zlen_map2Q; [exact Lb|rewrite Lb, Lbc; reflexivity].
    - intros c u v E. rewrite E. reflexivity.
    - intros c m b m' b' v E1 E2 E3 E4. 
      assert (Hc := rd_bounds _ _ _ E1). rewrite Lm in Hc.
      destruct (rd_some (bcast (out_c p) val) c ltac:(rewrite Lbc; exact Hc)) as [x Ex].
      rewrite (rd_map2Q f _ _ c b x E2 Ex) in E4. injection E4 as <-.
      rewrite (rd_map2Q f _ _ c m x E1 Ex) in E3. injection E3 as <-.
      assert (Ev := rd_bcast _ _ _ _ Ex Hc). change (x = operand c) in Ev. rewrite <- Ev. symmetry. apply Hf.
  Qed.
  Lemma fuse_add : fused_by p a input filter a mul bias mul (map2Q Qplus bias (bcast (out_c p) val)) out
    (fun c r => (r + operand c)%Q).
  Proof. apply (fuse_addsub Qplus); [intros; ring|exact _]. Qed.
  Lemma fuse_sub : fused_by p a input filter a mul bias mul (map2Q Qminus bias (bcast (out_c p) val)) out
    (fun c r => (r - operand c)%Q).
  Proof. apply (fuse_addsub Qminus); [intros; ring|exact _]. Qed.
  Lemma fuse_mul : fused_by p a input filter a mul bias (map2Q Qmult mul (bcast (out_c p) val))
    (map2Q Qmult bias (bcast (out_c p) val)) out (fun c r => (r * operand c)%Q).
  Proof. apply (fuse_muldiv Qmult); [intros; ring|exact _]. Qed.
  Lemma fuse_div : fused_by p a input filter a mul bias (map2Q Qdiv mul (bcast (out_c p) val))
    (map2Q Qdiv bias (bcast (out_c p) val)) out (fun c r => (r / operand c)%Q).
  Proof. apply (fuse_muldiv Qdiv); [intros; unfold Qdiv; ring|exact _]. Qed.
End FuseOps.

(** optimize_patterns_common.td 118-182: the activation op. *)
Lemma fuse_activation p input filter a' mul bias out : bconv_wf p ->
  packed input (in_pixels (geom_of p)) (channels_in p) ->
  packed filter (filter_pixels (geom_of p)) (channels_in p / groups p) ->
  pad_same p = false \/ pad_value p = 1 ->
  taps (geom_of p) < 2 ^ 31 ->
  zlen mul = out_c p -> zlen bias = out_c p -> zlen out = out_pixels (geom_of p) * out_c p ->
  (forall c m, rd mul c = Some m -> (m == 1)%Q) -> (forall c b, rd bias c = Some b -> (b == 0)%Q) ->
  fused_by p ActNone input filter a' mul bias mul bias out (fun _ => relu_op a').
Proof.
  intros WF Hi Hf Hp Hs L1 L2 Lo Hm Hb. apply fuse_general; try assumption.
  - intros E. exfalso. destruct Hp as [E1|E1]; rewrite E1, ?andb_false_r in E; discriminate.
  - intros _. apply relu_op_proper.
  - intros c m b m' b' v E1 E2 E3 E4. rewrite (Hm c m' E3), (Hb c b' E4).
    rewrite <- (relu_op_Z a' v), Qmult_1_l, Qplus_0_r. apply relu_op_proper. cbn [act_spec].
    rewrite (Hm c m E1), (Hb c b E2). ring.
Qed.

(** ** The two instances of [recognise_binary], and completeness of the check *)
Lemma Qabs_ratio v s : (0 < Qabs s)%Q -> (Qabs v == Qabs s)%Q -> (Qabs (Qabs (v / s) - 1) == 0)%Q.
Proof.
  intros Hs E.
  assert (E1 : (Qabs (v / s) == 1)%Q).
  { unfold Qdiv. rewrite Qabs_Qmult, Qabs_Qinv, E. apply Qmult_inv_r. intros H. rewrite H in Hs. discriminate. }
  rewrite E1. reflexivity.
Qed.

Section RecogniseCases.
  Variable p : bconv.
  Hypothesis WF : bconv_wf p.
  Variables (input : list Z) (F : list Q).
  Hypothesis Hin : packed input (in_pixels (geom_of p)) (channels_in p).
  Hypothesis Hev : pad_same p && (pad_value p =? 0) = true -> (channels_in p / groups p) mod 2 = 0.
  Hypothesis Hsz : taps (geom_of p) < 2 ^ 31.
  Hypotheses (Hkh : 0 < f_h p) (Hkw : 0 < f_w p) (Hci : 0 < channels_in p / groups p).
  Notation ci := (channels_in p / groups p).
  Notation Fv := (filt (f_w p) ci (out_c p) F).

  Lemma recognise_tol (HB : IsBinaryFilter (f_h p) (f_w p) ci (out_c p) F = true) buf out :
    zlen buf = filter_pixels (geom_of p) * words ci ->
    zlen out = out_pixels (geom_of p) * out_c p ->
    let padv := if pad_same p && (pad_value p =? 0) then 0 else 1 in
    exists f y,
      quantize_Q (filter_pixels (geom_of p)) ci (binary_filter (f_h p) (f_w p) ci (out_c p) F) buf = Some f /\
      eval_ref_float p ActNone input f (GetScaleVector (f_w p) ci (out_c p) F) (build (out_c p) (fun _ => 0%Q)) out
        = Some y /\
      forall b oy ox o, 0 <= b < batches p -> 0 <= oy < out_h p -> 0 <= ox < out_w p -> 0 <= o < out_c p ->
        exists r, rd y (out_pixel (geom_of p) b oy ox * out_c p + o) = Some r /\
          (Qabs (r - conv_Q (geom_of p) padv (input_pm (geom_of p) input) Fv b oy ox o)
           <= inject_Z (taps (geom_of p)) * (tol32 * Qabs (Fv o 0 0 0)))%Q.
  Proof.
    apply recognise_binary; try assumption. intros oc fy fx c H1 H2 H3 H4.
    destruct (is_binary_spec _ _ _ _ _ HB oc fy fx c H1 H2 H3 H4) as [A B]. split; [|exact B].
    eapply Qlt_trans; [|exact A]. reflexivity.
  Qed.

  Lemma recognise_exact (HF : forall oc fy fx c, 0 <= oc < out_c p -> 0 <= fy < f_h p -> 0 <= fx < f_w p -> 0 <= c < ci ->
     (0 < Qabs (Fv oc 0 0 0) /\ Qabs (Fv oc fy fx c) == Qabs (Fv oc 0 0 0))%Q) buf out :
    zlen buf = filter_pixels (geom_of p) * words ci ->
    zlen out = out_pixels (geom_of p) * out_c p ->
    let padv := if pad_same p && (pad_value p =? 0) then 0 else 1 in
    exists f y,
      quantize_Q (filter_pixels (geom_of p)) ci (binary_filter (f_h p) (f_w p) ci (out_c p) F) buf = Some f /\
      eval_ref_float p ActNone input f (GetScaleVector (f_w p) ci (out_c p) F) (build (out_c p) (fun _ => 0%Q)) out
        = Some y /\
      forall b oy ox o, 0 <= b < batches p -> 0 <= oy < out_h p -> 0 <= ox < out_w p -> 0 <= o < out_c p ->
        exists r, rd y (out_pixel (geom_of p) b oy ox * out_c p + o) = Some r /\
          (r == conv_Q (geom_of p) padv (input_pm (geom_of p) input) Fv b oy ox o)%Q.
  Proof.
    intros L1 L2 padv.
    destruct (recognise_binary p WF input F Hin Hev Hsz Hkh Hkw Hci 0%Q) with (buf := buf) (out := out) as (f & y & E1 & E2 & R);
      try assumption.
    - intros oc fy fx c H1 H2 H3 H4. destruct (HF oc fy fx c H1 H2 H3 H4) as [A B]. split; [exact A|].
      rewrite (Qabs_ratio _ _ A B). apply Qle_refl.
    - exists f, y. split; [exact E1|]. split; [exact E2|]. intros b oy ox o Hb Hy Hx Ho.
      destruct (R b oy ox o Hb Hy Hx Ho) as (r & Er & V). exists r. split; [exact Er|].
      fold padv in V. rewrite Qmult_0_l, Qmult_0_r in V. apply Qabs_Qle_condition in V. lra.
  Qed.
End RecogniseCases.

Lemma is_binary_complete kh kw ci o F :
  (forall oc fy fx c, 0 <= oc < o -> 0 <= fy < kh -> 0 <= fx < kw -> 0 <= c < ci ->
     (eps32 < Qabs (filt kw ci o F oc 0 0 0) /\
      Qabs (filt kw ci o F oc fy fx c) == Qabs (filt kw ci o F oc 0 0 0))%Q) ->
  IsBinaryFilter kh kw ci o F = true.
Proof.
  intros H. unfold IsBinaryFilter.
  apply forallb_forall; intros fy Hy. apply zrange_in in Hy.
  apply forallb_forall; intros fx Hx. apply zrange_in in Hx.
  apply forallb_forall; intros c Hc. apply zrange_in in Hc.
  apply forallb_forall; intros oc Ho. apply zrange_in in Ho.
  destruct (H oc fy fx c Ho Hy Hx Hc) as [A B]. cbv zeta. apply andb_true_iff. split.
  - apply negb_true_iff, Qle_bool_false, A.
  - apply Qle_bool_iff. rewrite (Qabs_ratio _ _ (Qlt_trans 0 eps32 _ eq_refl A) B). vm_compute. discriminate.
Qed.
