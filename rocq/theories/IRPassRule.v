(** * IRPassRule: each pattern of the prepare pass keeps the value it replaces. *)
From Coq Require Import QArith Qabs.
From Verif Require Import Base Spec Padding Threshold FusePad ConvBinary Prepare IR IRProofs IRRules IRSound IRTerm IRWell IRTf IRPrep IRPass.
Open Scope Z_scope.

Lemma def_pre (pre post : list instr) x z : def pre x = Some z -> def (pre ++ post) x = Some z.
Proof.
  intros H. rewrite def_app_in; [exact H|]. unfold def in H. destruct (find _ pre) as [i|] eqn:E; [|discriminate].
  apply find_some in E. destruct E as [E1 E2]. apply Nat.eqb_eq in E2. subst. apply in_map, E1.
Qed.
Lemma is_constant_pm1 t v : is_constant t v = true -> (v == 1 \/ v == - (1))%Q -> pm1 t.
Proof. intros H Hv i Hi. rewrite (is_constant_ok _ _ _ H Hi). exact Hv. Qed.

Lemma den_bc s l : denote (tf_broadcast_to s) l = broadcast_fun s l. Proof. reflexivity. Qed.
Lemma den_not l : denote tf_not l = not_fun l. Proof. reflexivity. Qed.

Section PRule.
  Variables (arm : bool) (S0 : list nat) (e0 e ep : env) (pre post : list instr) (r : nat) (o : op) (a : list nat) (vs : list value) (v : value).
  Let p := pre ++ (r, o, a) :: post.
  Let SC := rev (map iid pre) ++ S0.
  Hypothesis Hssa : ssa S0 p.
  Hypothesis Hev : eval p e0 = Some e.
  Hypothesis Hsane : sane p e.
  Hypothesis Hpre : eval pre e0 = Some ep.
  Hypothesis HL : look ep a = Some vs.
  Hypothesis HD : denote o vs = Some v.

  Lemma p_ssa : ssa S0 pre /\ (forall x, In x a -> In x SC) /\ ~ In r SC /\ ssa (r :: SC) post.
  Proof. unfold p in Hssa. apply ssa_app in Hssa. destruct Hssa as [H1 (H2 & H3 & H4)]. auto. Qed.
  Lemma p_frame x : In x SC -> e x = ep x.
  Proof.
    destruct p_ssa as (_ & _ & H3 & H4). intros Hx. unfold p in Hev. rewrite eval_app, Hpre in Hev. cbn [eval] in Hev. rewrite HL, HD in Hev.
    rewrite (eval_frame _ _ _ x Hev); [apply upd_other; congruence|]. intros C. apply (ssa_notin _ _ H4 x C). right. exact Hx.
  Qed.
  Lemma p_root : e r = Some v.
  Proof.
    destruct p_ssa as (_ & _ & H3 & H4). unfold p in Hev. rewrite eval_app, Hpre in Hev. cbn [eval] in Hev. rewrite HL, HD in Hev.
    rewrite (eval_frame _ _ _ r Hev); [apply upd_same|]. intros C. apply (ssa_notin _ _ H4 r C). left. reflexivity.
  Qed.
  Lemma p_shape x w : e x = Some w -> shapes e0 p x = vshape w.
  Proof. intros H. unfold shapes. rewrite Hev, H. reflexivity. Qed.
  Lemma p_sane : sane_instr p e (r, o, a).
  Proof. apply Hsane. unfold p. apply in_or_app. right. left. reflexivity. Qed.

  Ltac ne1 := let E := fresh in intros E; subst; first [contradiction | match goal with H : ~ (_ \/ _) |- _ => apply H; solve [auto 10] end].
  Lemma prule_sound news o' a' :
    prule arm (shapes e0 p) (def pre) r (o, a) news (o', a') ->
    NoDup (map iid news) -> (forall x, In x (map iid news) -> ~ In x SC) ->
    ssa SC news /\ (forall x, In x a' -> In x (rev (map iid news) ++ SC)) /\
    exists e1 vs' v', eval news ep = Some e1 /\ look e1 a' = Some vs' /\ denote o' vs' = Some v' /\ veq v v'.
  Proof.
    intros R ND NF. destruct p_ssa as (HS1 & HSa & HSr & HSp). assert (HSn := p_sane). destruct HSn as (SN1 & SN2 & SN3 & SN4).
    cbn [iop iargs iid fst snd] in *. assert (Er := p_root). assert (Fr := p_frame). assert (Sh := p_shape).
    inversion R; subst; clear R.
    - (* select *)
      match goal with H : def pre x = _ |- _ => destruct (d_const S0 pre e0 ep HS1 Hpre _ _ H) as [Ex Ix] end.
      match goal with H : def pre y = _ |- _ => destruct (d_const S0 pre e0 ep HS1 Hpre _ _ H) as [Ey Iy] end.
      assert (Ic : In c SC) by (apply HSa; left; reflexivity).
      cbn [look] in HL. destruct (ep c) as [vc|] eqn:Ec; [|discriminate]. rewrite Ex, Ey in HL. injection HL as <-.
      cbn [denote tf_select ef] in HD. destruct vc as [ |  |tc| | ]; try discriminate HD.
      assert (F1 := NF f1 (or_introl eq_refl)). assert (F2 := NF f2 (or_intror (or_introl eq_refl))).
      inversion ND as [|? ? N1 ND1]; subst. cbn [map iid fst In] in N1.
      destruct (select_quant v1 tc tx ty v HD) as (b & q & w & Hb & Hq & Hw & Vw); try assumption.
      { intros ->. apply (SN1 c x y tc tx eq_refl eq_refl); [rewrite Fr by exact Ic; exact Ec|rewrite Fr by exact Ix; exact Ex|].
        eapply is_constant_pm1; [eassumption|left; reflexivity]. }
      split; [|split].
      + cbn [ssa In]. split; [intros z [<-|[]]; exact Ic|]. split; [exact F1|]. split; [intros z [<-|[]]; left; reflexivity|].
        split; [|exact I]. intros [C|C]; [subst; apply N1; left; reflexivity|exact (F2 C)].
      + intros z [<-|[]]. left. reflexivity.
      + rewrite (Sh r v Er). cbn [eval look]. rewrite Ec, den_bc, Hb, upd_same, Hq. eexists. eexists. exists w. split; [reflexivity|]. rewrite upd_same. split; [reflexivity|]. split; assumption.
    - (* select, branches swapped *)
      match goal with H : def pre x = _ |- _ => destruct (d_const S0 pre e0 ep HS1 Hpre _ _ H) as [Ex Ix] end.
      match goal with H : def pre y = _ |- _ => destruct (d_const S0 pre e0 ep HS1 Hpre _ _ H) as [Ey Iy] end.
      assert (Ic : In c SC) by (apply HSa; left; reflexivity).
      cbn [look] in HL. destruct (ep c) as [vc|] eqn:Ec; [|discriminate]. rewrite Ex, Ey in HL. injection HL as <-.
      cbn [denote tf_select ef] in HD. destruct vc as [ |  |tc| | ]; try discriminate HD.
      assert (F0 := NF f0 (or_introl eq_refl)). assert (F1 := NF f1 (or_intror (or_introl eq_refl))).
      assert (F2 := NF f2 (or_intror (or_intror (or_introl eq_refl)))).
      inversion ND as [|? ? N1 ND1]; subst. cbn [map iid fst In] in N1. inversion ND1 as [|? ? N2 ND2]; subst. cbn [map iid fst In] in N2.
      destruct (select_quant_not v1 tc tx ty v HD) as (n & b & q & w & Hn & Hb & Hq & Hw & Vw); try assumption.
      { intros ->. apply (SN1 c x y tc tx eq_refl eq_refl); [rewrite Fr by exact Ic; exact Ec|rewrite Fr by exact Ix; exact Ex|].
        eapply is_constant_pm1; [eassumption|right; reflexivity]. }
      split; [|split].
      + cbn [ssa In]. split; [intros z [<-|[]]; exact Ic|]. split; [exact F0|]. split; [intros z [<-|[]]; left; reflexivity|].
        split; [intros [C|C]; [subst; apply N1; left; reflexivity|exact (F1 C)]|]. split; [intros z [<-|[]]; left; reflexivity|].
        split; [|exact I]. intros [C|[C|C]]; [subst; apply N2; left; reflexivity|subst; apply N1; right; left; reflexivity|exact (F2 C)].
      + intros z [<-|[]]. left. reflexivity.
      + rewrite (Sh r v Er). cbn [eval look]. rewrite Ec, den_not, Hn, upd_same, den_bc, Hb, upd_same, Hq. eexists. eexists. exists w. split; [reflexivity|]. rewrite upd_same. split; [reflexivity|]. split; assumption.
    - (* sign *)
      rename a0 into s.
      match goal with H : def pre b = _ |- _ => rename H into Db end. destruct (d_any S0 pre e0 ep HS1 Hpre _ _ _ Db) as (us & vb & L2 & D2 & E2 & I2 & A2).
      match goal with H : def pre s = _ \/ _ |- _ => rename H into Da end.
      assert (Is : In s SC) by (apply HSa; left; reflexivity). assert (Ixx : In x SC) by (apply A2; left; reflexivity).
      assert (HA : exists vc (bb : bool) w, ep c = Some (VF vc) /\ In c SC /\ exists ts, vb = VF ts /\
                 ep s = Some w /\ denote (OBin Add ActNone) (if bb then [VF ts; VF vc] else [VF vc; VF ts]) = Some w).
      { destruct Da as [Da|Da]; destruct (d_any S0 pre e0 ep HS1 Hpre _ _ _ Da) as (us1 & w & L1 & D1 & E1 & I1 & A1); inv_look L1;
        destruct u as [tu| | | |]; try discriminate D1; destruct u0 as [tu0| | | |]; try discriminate D1;
        [exists tu0, true, w|exists tu, false, w].
        - split; [assumption|]. split; [apply A1; right; left; reflexivity|]. exists tu. split; [congruence|]. auto.
        - split; [assumption|]. split; [apply A1; left; reflexivity|]. exists tu0. split; [congruence|]. auto. }
      destruct HA as (tc & bb & w & Ec & Ic & ts & -> & Es & Dw). inv_look L2. destruct u as [tx| | | |]; try discriminate D2.
      injection D2 as <-. cbn [look] in HL. rewrite Es in HL. injection HL as <-.
      destruct (SN2 s s b c b x (tmap signQ tx) tc eq_refl eq_refl (thr_refl _ _)) as [R1 R2].
      { destruct Da as [Da|Da]; [left|right]; apply def_pre; exact Da. }
      { apply thr_refl. } { apply def_pre. exact Db. } { rewrite Fr by exact I2. exact E2. } { rewrite Fr by exact Ic. exact Ec. }
      destruct (sign_quant tx (tmap signQ tx) tc bb v R1 R2 eq_refl) as (q & w' & Hq & Hw & Vw).
      { exists w. split; [exact Dw|exact HD]. }
      assert (F1 := NF f1 (or_introl eq_refl)).
      split; [|split].
      + cbn [ssa In]. split; [intros z [<-|[]]; exact Ixx|]. split; [exact F1|exact I].
      + intros z [<-|[]]. left. reflexivity.
      + cbn [eval look]. rewrite Ex, Hq. eexists. eexists. exists w'. split; [reflexivity|]. rewrite upd_same. split; [reflexivity|]. split; assumption.
    - (* convolution *)
      match goal with H : def pre d = _ |- _ => destruct (d_any S0 pre e0 ep HS1 Hpre _ _ _ H) as (us & vd & L2 & D2 & E2 & I2 & A2) end.
      match goal with H : def pre f = _ |- _ => destruct (d_const S0 pre e0 ep HS1 Hpre _ _ H) as [Ef If] end.
      inv_look L2. destruct u as [|ti| | |]; try discriminate D2. injection D2 as <-.
      assert (Ii : In i SC) by (apply A2; left; reflexivity).
      cbn [look] in HL. rewrite E2, Ef in HL. injection HL as <-.
      assert (T1 : shapes e0 p d = sh ti) by (rewrite (Sh d _ (eq_trans (Fr d I2) E2)); reflexivity). rewrite T1 in *.
      assert (HX : exact_filter F). { apply (SN3 k d f F eq_refl eq_refl); [rewrite Fr by exact If; exact Ef|assumption]. }
      destruct (conv_plain k ti F v HD) as (tv & tt & w & W1 & W2 & W3 & W4); try assumption.
      destruct (weights_eval F f1 f2 f3 f4 f5 f6 f7 SC ep tv tt ND NF W1 W2) as (SW & e1 & EW & E4 & E5 & E6 & E7 & EE).
      split; [exact SW|]. split.
      + intros z. cbn [weights map iid fst rev app In]. intros [<-|Hz]; [|tauto].
        repeat right. exact Ii.
      + exists e1. eexists. exists w. split; [exact EW|]. split; [|split; [exact W3|exact W4]].
        cbn [look]. rewrite (EE i Ii), Ex, E4, E5, E6, E7. reflexivity.
    - (* convolution of an explicitly padded tensor *)
      match goal with H : def pre x = _ |- _ => destruct (d_any S0 pre e0 ep HS1 Hpre _ _ _ H) as (us & vd & L2 & D2 & E2 & I2 & A2) end.
      match goal with H : def pre d = _ |- _ => rename H into Dd end. destruct (d_any S0 pre e0 ep HS1 Hpre _ _ _ Dd) as (us3 & vp & L3 & D3 & E3 & I3 & A3).
      match goal with H : def pre f = _ |- _ => destruct (d_const S0 pre e0 ep HS1 Hpre _ _ H) as [Ef If] end.
      match goal with H : def pre pd = _ |- _ => destruct (d_const S0 pre e0 ep HS1 Hpre _ _ H) as [Epd Ipd] end.
      match goal with H : def pre pv = _ |- _ => destruct (d_const S0 pre e0 ep HS1 Hpre _ _ H) as [Epv Ipv] end.
      inv_look L2. destruct u as [|ti| | |]; try discriminate D2. injection D2 as <-.
      assert (Ii : In i SC) by (apply A2; left; reflexivity).
      cbn [look] in L3. rewrite E2, Epd, Epv in L3. injection L3 as <-. cbn [denote tf_pad ef] in D3.
      cbn [look] in HL. rewrite E3, Ef in HL. injection HL as <-. cbn [denote tf_conv2d ef] in HD.
      destruct vp as [t| | | |]; try discriminate HD.
      assert (T1 : shapes e0 p x = sh ti) by (rewrite (Sh x _ (eq_trans (Fr x I2) E2)); reflexivity).
      assert (T2 : shapes e0 p i = sh ti) by (rewrite (Sh i _ (eq_trans (Fr i Ii) Ex)); reflexivity).
      assert (T3 : shapes e0 p r = vshape v) by (apply Sh, Er). rewrite T1, T2, T3 in *.
      assert (HX : exact_filter F). { apply (SN3 k d f F eq_refl eq_refl); [rewrite Fr by exact If; exact Ef|assumption]. }
      match goal with H : (numel (sh tv) =? 1) && _ = true |- _ => apply andb_true_iff in H; destruct H as [_ H]; apply Qeq_bool_iff in H; rename H into Hone end.
      assert (HSP : split_ok k tp (sh ti) (sh F)).
      { apply (SN4 k d f d x pd pv (depm ti) tp F v eq_refl eq_refl (thr_refl _ _)); try assumption.
        - apply def_pre. exact Dd.
        - rewrite Fr by exact I2. exact E2.
        - rewrite Fr by exact Ipd. exact Epd.
        - rewrite Fr by exact If. exact Ef. }
      destruct (conv_padded k ti tp tv F t v D3 HD) as (tv' & tt & w & W1 & W2 & W3 & W4); try assumption.
      destruct (weights_eval F f1 f2 f3 f4 f5 f6 f7 SC ep tv' tt ND NF W1 W2) as (SW & e1 & EW & E4 & E5 & E6 & E7 & EE).
      split; [exact SW|]. split.
      + intros z. cbn [weights map iid fst rev app In]. intros [<-|Hz]; [|tauto].
        repeat right. exact Ii.
      + exists e1. eexists. exists w. split; [exact EW|]. split; [|split; [exact W3|exact W4]].
        cbn [look]. rewrite (EE i Ii), Ex, E4, E5, E6, E7. reflexivity.
  Qed.
End PRule.
