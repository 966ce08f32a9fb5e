(** * IRSound: any sequence of steps of the optimisation pass preserves results. *)
From Coq Require Import QArith.
From Verif Require Import Base Spec Padding Threshold IR IRProofs IRRules.
Open Scope Z_scope.

Lemma upd_same e r v : upd e r v r = Some v.
Proof. unfold upd. rewrite Nat.eqb_refl. reflexivity. Qed.
Lemma upd_other e r v x : x <> r -> upd e r v x = e x.
Proof. intros H. unfold upd. destruct (Nat.eqb_spec x r); [contradiction|reflexivity]. Qed.
Lemma look_cons e x l vs : look e (x :: l) = Some vs -> exists v us, e x = Some v /\ look e l = Some us /\ vs = v :: us.
Proof.
  cbn. destruct (e x) as [v|]; [|discriminate]. destruct (look e l) as [us|]; [|discriminate].
  intros H. injection H as <-. eauto.
Qed.
Lemma look_nil e vs : look e [] = Some vs -> vs = [].
Proof. cbn. congruence. Qed.
Ltac inv_look H := repeat (apply look_cons in H; let v := fresh "u" in let us := fresh "us" in let E := fresh "Ex" in
  let E2 := fresh "Eus" in destruct H as (v & us & E & H & E2); subst); apply look_nil in H; subst.

Lemma denote_conv_float c vi vf vm vb vt v : denote (OConv c) [vi; vf; vm; vb; vt] = Some v ->
  (exists i f m b, vi = VBits i /\ vf = VF f /\ vm = VF m /\ vb = VF b /\ vt = VNone /\ bc_float c i f m b = Some v) \/
  (exists t, v = VBits t).
Proof.
  destruct vi, vf, vm, vb, vt; cbn [denote]; try discriminate; intros H.
  - left. eauto 12.
  - right. unfold bc_bits in H. destruct (bc_geom _ _ _); [|discriminate]. destruct (_ && _); [|discriminate].
    injection H as <-. eauto.
Qed.

Section Rule.
  Variables (G : guard) (arm : bool) (S0 : list nat) (pre : list instr) (e0 e : env).
  Hypothesis Hssa : ssa S0 pre.
  Hypothesis Hev : eval pre e0 = Some e.
  Let SC := rev (map iid pre) ++ S0.
  Hypothesis Hgc : forall x s, In x SC -> g_const G x s ->
    (length s <= 1)%nat /\ exists v, e x = Some v /\ bsh (vshape v) s = Some (vshape v).
  Hypothesis Hgf : forall t, g_filter G t ->
    (forall i, in_range (sh t) i -> at_ t i == 1 \/ at_ t i == - (1))%Q /\ numel (removelast (sh t)) < 2 ^ 31.
  Hypothesis Hga : forall a, g_act G a -> a = ActNone \/ a = ActReluN1To1.

  Lemma d_const x v : def pre x = Some (OConst v, []) -> e x = Some v /\ In x SC.
  Proof.
    intros H. destruct (eval_def pre S0 e0 e x _ _ Hssa Hev H) as (vs & w & H1 & H2 & H3 & H4 & _).
    cbn in H1. injection H1 as <-. cbn in H2. injection H2 as <-. split; [exact H3|].
    apply in_or_app. left. apply in_rev. rewrite rev_involutive. exact H4.
  Qed.
  Lemma d_none x : def pre x = Some (ONone, []) -> e x = Some VNone /\ In x SC.
  Proof.
    intros H. destruct (eval_def pre S0 e0 e x _ _ Hssa Hev H) as (vs & w & H1 & H2 & H3 & H4 & _).
    cbn in H1. injection H1 as <-. cbn in H2. injection H2 as <-. split; [exact H3|].
    apply in_or_app. left. apply in_rev. rewrite rev_involutive. exact H4.
  Qed.
  Lemma d_any x o a : def pre x = Some (o, a) -> exists vs v, look e a = Some vs /\ denote o vs = Some v /\
    e x = Some v /\ In x SC /\ forall y, In y a -> In y SC.
  Proof.
    intros H. destruct (eval_def pre S0 e0 e x _ _ Hssa Hev H) as (vs & w & H1 & H2 & H3 & H4 & H5).
    exists vs, w. do 3 (split; [assumption|]). split; [|exact H5].
    apply in_or_app. left. apply in_rev. rewrite rev_involutive. exact H4.
  Qed.

  Ltac absurd1 := first [contradiction | match goal with H : ~ (_ \/ _) |- _ => exfalso; apply H; solve [auto 10] end].
  Ltac ne := let E := fresh in intros E; subst; absurd1.
  Ltac scope_ok := cbn [ssa In]; repeat apply conj; try exact I; try assumption;
    let q := fresh in intros q;
    first [let h := fresh in intros h; repeat (match type of h with _ \/ _ => destruct h as [h|h] end); [..|contradiction]; subst; solve [auto 10]
          | contradiction
          | repeat (match type of q with _ \/ _ => destruct q as [q|q] end); try contradiction; subst; absurd1].
  Ltac up := repeat (first [rewrite upd_same | rewrite upd_other by ne]).

  Lemma rule_sound o a inner news o' a' vs v :
    rule G arm (def pre) (o, a) inner news (o', a') ->
    NoDup (map iid news) -> (forall x, In x (map iid news) -> ~ In x SC) ->
    look e a = Some vs -> denote o vs = Some v ->
    ssa SC news /\ (forall x, In x a' -> In x (rev (map iid news) ++ SC)) /\
    exists e1 vs' v', eval news e = Some e1 /\ look e1 a' = Some vs' /\ denote o' vs' = Some v' /\ veq v v'.
  Proof.
    intros R ND NF HL HD. inversion R; subst; clear R.
    - (* ge zero *)
      destruct (d_any _ _ _ H3) as (us & b & L1 & D1 & E1 & I1 & A1). destruct (d_const _ _ H6) as [E2 I2].
      assert (Ix : In x SC) by (apply A1; left; reflexivity).
      destruct (Hgc x _ Ix H8) as (_ & vx & Evx & Hb).
      inv_look L1. inv_look HL. assert (vx = u) by congruence. assert (u0 = VF t) by congruence. assert (u1 = b) by congruence. subst.
      destruct u; try discriminate. cbn [vshape] in Hb.
      destruct (quant_ge_zero _ _ _ D1 H7 Hb _ HD) as (w & Dw & Vw).
      split; [exact I|]. split; [intros y [<-|[]]; exact Ix|].
      exists e. eexists. exists w. cbn [eval look]. rewrite Evx. split; [reflexivity|]. split; [reflexivity|]. split; assumption.
    - (* ge *)
      destruct (d_any _ _ _ H3) as (us & b & L1 & D1 & E1 & I1 & A1).
      assert (Ix : In x SC) by (apply A1; left; reflexivity). assert (Ic : In c SC) by (apply A1; right; left; reflexivity).
      inv_look L1. inv_look HL. assert (u1 = b) by congruence. subst.
      destruct u; try discriminate. destruct u0; try discriminate.
      destruct (quant_ge _ _ _ D1 _ HD) as (d & w & Dd & Dw & Vw).
      assert (N1 : ~ In f1 SC) by (apply NF; left; reflexivity).
      split; [split; [|split; [exact N1|exact I]]; intros y [<-|[<-|[]]]; assumption|].
      split; [intros y [<-|[]]; left; reflexivity|].
      eexists. eexists. exists w. cbn [eval look]. rewrite Ex, Ex0, Dd. split; [reflexivity|]. up.
      split; [reflexivity|]. split; assumption.
    - (* le *)
      destruct (d_any _ _ _ H3) as (us & b & L1 & D1 & E1 & I1 & A1).
      assert (Ix : In l SC) by (apply A1; left; reflexivity). assert (Ic : In r SC) by (apply A1; right; left; reflexivity).
      inv_look L1. inv_look HL. assert (u1 = b) by congruence. subst.
      destruct u; try discriminate. destruct u0; try discriminate.
      destruct (quant_le _ _ _ D1 _ HD) as (d & w & Dd & Dw & Vw).
      assert (N1 : ~ In f1 SC) by (apply NF; left; reflexivity).
      split; [split; [|split; [exact N1|exact I]]; intros y [<-|[<-|[]]]; assumption|].
      split; [intros y [<-|[]]; left; reflexivity|].
      eexists. eexists. exists w. cbn [eval look]. rewrite Ex, Ex0, Dd. split; [reflexivity|]. up.
      split; [reflexivity|]. split; assumption.
    - (* add, sub *)
      destruct (d_any _ _ _ H4) as (us & y & L1 & D1 & E1 & I1 & A1).
      destruct (d_const _ _ H7) as [Eb Ib]. destruct (d_const _ _ H8) as [Ev Iv].
      destruct (Hgc inner _ I1 H9) as (Hlen & vy & Evy & Hbs).
      assert (vy = y) by congruence. subst vy.
      inv_look L1. inv_look HL. assert (u4 = y) by congruence. assert (u5 = VF tv) by congruence. assert (u2 = VF tb) by congruence. subst.
      destruct (denote_conv_float _ _ _ _ _ _ _ D1) as [(ti & tf & tm & tb' & -> & -> & -> & Etb & -> & Hbc)|[tt ->]]; [|discriminate].
      injection Etb as <-.
      destruct (fuse_add _ _ _ _ _ _ _ _ H3 Hbc Hlen Hbs _ HD) as (b' & w & Db & Dw & Vw).
      assert (N1 : ~ In f1 SC) by (apply NF; cbn; auto). assert (N2 : ~ In f2 SC) by (apply NF; cbn; auto).
      assert (N3 : ~ In f3 SC) by (apply NF; cbn; auto).
      cbn [map iid fst] in ND. inversion ND as [|? ? ND1 ND']; subst. inversion ND' as [|? ? ND2 ND'']; subst. cbn [In] in ND1, ND2.
      assert (Ii : In i SC) by (apply A1; cbn; auto). assert (If : In f SC) by (apply A1; cbn; auto).
      assert (Im : In m SC) by (apply A1; cbn; auto). assert (It : In t SC) by (apply A1; cbn; auto 6).
      split; [|split].
      + scope_ok.
      + cbn [map iid fst rev app In]. intros q [<-|[<-|[<-|[<-|[<-|[]]]]]]; auto 8.
      + eexists. eexists. exists w.
        split; [cbn [eval look denote]; up; cbn [denote] in Db |- *; rewrite Db; reflexivity|]. cbn [look]. up. rewrite Ex, Ex0, Ex1, Ex3. split; [reflexivity|]. split; assumption.
    - (* mul, div *)
      destruct (d_any _ _ _ H4) as (us & y & L1 & D1 & E1 & I1 & A1).
      destruct (d_const _ _ H5) as [Em Im]. destruct (d_const _ _ H8) as [Eb Ib]. destruct (d_const _ _ H9) as [Ev Iv].
      destruct (Hgc inner _ I1 H10) as (Hlen & vy & Evy & Hbs).
      assert (vy = y) by congruence. subst vy.
      inv_look L1. inv_look HL. assert (u4 = y) by congruence. assert (u5 = VF tv) by congruence. assert (u2 = VF tb) by congruence.
      assert (u1 = VF tm) by congruence. subst.
      destruct (denote_conv_float _ _ _ _ _ _ _ D1) as [(ti & tf & tm' & tb' & -> & -> & Etm & Etb & -> & Hbc)|[tt ->]]; [|discriminate].
      injection Etb as <-. injection Etm as <-.
      destruct (fuse_mul _ _ _ _ _ _ _ _ H3 Hbc Hlen Hbs _ HD) as (m' & b' & w & Dm & Db & Dw & Vw).
      assert (N1 : ~ In f1 SC) by (apply NF; cbn; auto). assert (N2 : ~ In f2 SC) by (apply NF; cbn; auto).
      assert (N3 : ~ In f3 SC) by (apply NF; cbn; auto). assert (N4 : ~ In f4 SC) by (apply NF; cbn; auto).
      assert (N5 : ~ In f5 SC) by (apply NF; cbn; auto 8). assert (N6 : ~ In f6 SC) by (apply NF; cbn; auto 8).
      cbn [map iid fst] in ND. inversion ND as [|? ? ND1 ND']; subst. inversion ND' as [|? ? ND2 ND'']; subst.
      inversion ND'' as [|? ? ND3 ND3']; subst. inversion ND3' as [|? ? ND4 ND4']; subst. inversion ND4' as [|? ? ND5 ND5']; subst.
      cbn [In] in ND1, ND2, ND3, ND4, ND5.
      assert (Ii : In i SC) by (apply A1; cbn; auto). assert (If : In f SC) by (apply A1; cbn; auto).
      assert (It : In t SC) by (apply A1; cbn; auto 6).
      split; [|split].
      + scope_ok.
      + cbn [map iid fst rev app In]. intros q [<-|[<-|[<-|[<-|[<-|[]]]]]]; auto 10.
      + eexists. eexists. exists w.
        split; [cbn [eval look denote]; up; cbn [denote] in Dm, Db |- *; rewrite Dm; up; rewrite Db; reflexivity|]. cbn [look]. up. rewrite Ex, Ex0, Ex3. split; [reflexivity|]. split; assumption.
    - (* activation *)
      destruct (d_any _ _ _ H4) as (us & y & L1 & D1 & E1 & I1 & A1).
      destruct (d_const _ _ H5) as [Em Im]. destruct (d_const _ _ H7) as [Eb Ib].
      inv_look L1. inv_look HL. assert (u4 = y) by congruence. assert (u2 = VF tb) by congruence.
      assert (u1 = VF tm) by congruence. subst.
      destruct (denote_conv_float _ _ _ _ _ _ _ D1) as [(ti & tf & tm' & tb' & -> & -> & Etm & Etb & -> & Hbc)|[tt ->]]; [|discriminate].
      injection Etb as <-. injection Etm as <-.
      destruct (fuse_act _ _ _ _ _ _ _ Hbc H6 H10 H11 H12 _ HD) as (w & Dw & Vw).
      assert (N1 : ~ In f1 SC) by (apply NF; cbn; auto). assert (N2 : ~ In f2 SC) by (apply NF; cbn; auto).
      cbn [map iid fst] in ND. inversion ND as [|? ? ND1 ND']; subst. cbn [In] in ND1.
      assert (Ii : In i SC) by (apply A1; cbn; auto). assert (If : In f SC) by (apply A1; cbn; auto).
      assert (It : In t SC) by (apply A1; cbn; auto 6).
      split; [|split].
      + scope_ok.
      + cbn [map iid fst rev app In]. intros q [<-|[<-|[<-|[<-|[<-|[]]]]]]; auto 10.
      + eexists. eexists. exists w. cbn [eval look denote]. split; [reflexivity|]. up. rewrite Ex, Ex0, Ex3.
        split; [reflexivity|]. split; assumption.
    - (* pool *)
      destruct (d_any _ _ _ H6) as (us & b & L1 & D1 & E1 & I1 & A1).
      assert (Ix : In x SC) by (apply A1; left; reflexivity).
      inv_look L1. inv_look HL. assert (u0 = b) by congruence. subst.
      destruct u; try discriminate.
      destruct (quant_pool _ _ _ _ (Hga _ H7) D1 _ HD) as (q & w & Dq & Dw & Vw).
      assert (N1 : ~ In f1 SC) by (apply NF; left; reflexivity).
      split; [split; [|split; [exact N1|exact I]]; intros y [<-|[]]; assumption|].
      split; [intros y [<-|[]]; left; reflexivity|].
      eexists. eexists. exists w. cbn [eval look]. rewrite Ex, Dq. split; [reflexivity|]. up.
      split; [reflexivity|]. split; assumption.
    - (* bits *)
      destruct (d_any _ _ _ H3) as (us & y & L1 & D1 & E1 & I1 & A1).
      destruct (d_const _ _ H4) as [Ef If]. destruct (d_const _ _ H5) as [Em Im]. destruct (d_const _ _ H6) as [Eb Ib].
      destruct (d_none _ H9) as [Et It]. destruct (Hgf _ H11) as [Hpm Hsz].
      inv_look L1. inv_look HL. assert (u4 = y) by congruence. assert (u2 = VF tb) by congruence.
      assert (u1 = VF tm) by congruence. assert (u0 = VF tf) by congruence. assert (u3 = VNone) by congruence. subst.
      destruct (denote_conv_float _ _ _ _ _ _ _ D1) as [(ti & tf' & tm' & tb' & -> & Etf & Etm & Etb & _ & Hbc)|[tt ->]]; [|discriminate].
      injection Etb as <-. injection Etm as <-. injection Etf as <-.
      destruct (fuse_bits _ _ _ _ _ _ Hbc H10 Hpm Hsz _ HD) as (f' & w & Df & Dw & Vw).
      assert (N1 : ~ In f1 SC) by (apply NF; cbn; auto). assert (N2 : ~ In f2 SC) by (apply NF; cbn; auto).
      assert (N3 : ~ In f3 SC) by (apply NF; cbn; auto). assert (N4 : ~ In f4 SC) by (apply NF; cbn; auto).
      assert (N5 : ~ In f5 SC) by (apply NF; cbn; auto 8). assert (N6 : ~ In f6 SC) by (apply NF; cbn; auto 8).
      cbn [map iid fst] in ND. inversion ND as [|? ? ND1 ND']; subst. inversion ND' as [|? ? ND2 ND'']; subst.
      inversion ND'' as [|? ? ND3 ND3']; subst. inversion ND3' as [|? ? ND4 ND4']; subst. inversion ND4' as [|? ? ND5 ND5']; subst.
      cbn [In] in ND1, ND2, ND3, ND4, ND5.
      assert (Ii : In i SC) by (apply A1; cbn; auto).
      split; [|split].
      + scope_ok.
      + cbn [map iid fst rev app In]. intros q [<-|[<-|[<-|[<-|[<-|[]]]]]]; auto 10.
      + eexists. eexists. exists w.
        split; [cbn [eval look denote]; up; cbn [denote] in Df |- *; rewrite Df; reflexivity|]. cbn [look]. up. rewrite Ex. split; [reflexivity|]. split; assumption.
  Qed.
End Rule.

(** ** Scopes *)
Lemma ssa_weaken p : forall S S', ssa S p ->
  (forall i x, In i p -> In x (iargs i) -> In x S -> In x S') -> (forall x, In x (map iid p) -> ~ In x S') -> ssa S' p.
Proof.
  induction p as [|[[r o] a] p IH]; intros S S' HS HI HN; [exact I|]. destruct HS as (Ha & Hr & HS). split; [|split].
  - intros x Hx. apply (HI (r, o, a) x (or_introl eq_refl) Hx). apply Ha, Hx.
  - apply HN. left. reflexivity.
  - apply (IH (r :: S) (r :: S') HS).
    + intros i x Hi Hx [->|Hs]; [left; reflexivity|right; apply (HI i x (or_intror Hi) Hx Hs)].
    + intros x Hx [->|Hs]; [|apply (HN x (or_intror Hx) Hs)].
      apply (ssa_notin _ _ HS x Hx). left. reflexivity.
Qed.
Lemma uses_zero p outs x : uses p outs x = 0%nat -> ~ In x outs /\ forall i, In i p -> ~ In x (iargs i).
Proof.
  induction p as [|j p IH]; cbn [uses]; intros H.
  - split; [|intros i []]. apply (count_occ_not_In Nat.eq_dec). exact H.
  - destruct (IH ltac:(lia)) as [H1 H2]. split; [exact H1|]. intros i [<-|Hi]; [|apply H2, Hi].
    apply (count_occ_not_In Nat.eq_dec). unfold cnt in H. lia.
Qed.

(** Every step keeps SSA form and every result that is still there. *)
Theorem step_sound_all arm S outs e0 p q e :
  ssa S p -> (forall x, In x outs -> In x (S ++ map iid p)) ->
  step (fits e0 p) arm S outs p q -> eval p e0 = Some e ->
  ssa S q /\ (forall x, In x outs -> In x (S ++ map iid q)) /\
  exists e', eval q e0 = Some e' /\
    forall x v, In x (S ++ map iid p) -> In x (S ++ map iid q) -> e x = Some v -> exists w, e' x = Some w /\ veq v w.
Proof.
  intros HS HO Hst HE. inversion Hst as [pre r o a post inner news o' a' R U1 U0 ND NF E1 E2
    | pre r o a post vs v Fo HC HD U0 E1 E2 | pre i post U0 E1 E2]; subst.
  - apply ssa_app in HS. destruct HS as [HS1 HS2]. set (SC := rev (map iid pre) ++ S) in *.
    cbn [ssa] in HS2. destruct HS2 as (Ha & Hr & HS3).
    rewrite eval_app in HE. destruct (eval pre e0) as [ep|] eqn:Ep; [|discriminate]. cbn [eval] in HE.
    destruct (look ep a) as [vs|] eqn:El; [|discriminate]. destruct (denote o vs) as [v|] eqn:Ed; [|discriminate].
    assert (NF' : forall x, In x (map iid news) -> ~ In x SC /\ x <> r /\ ~ In x (map iid post)).
    { intros x Hx. destruct (NF x Hx) as [NF1 NF2]. rewrite map_app in NF2. cbn [map] in NF2. split; [|split].
      - intros C. apply in_app_or in C. destruct C as [C|C]; [|contradiction]. apply NF2, in_or_app. left. apply in_rev, C.
      - intros ->. apply NF2, in_or_app. right. left. reflexivity.
      - intros C. apply NF2, in_or_app. right. right. exact C. }
    destruct (rule_sound (fits e0 (pre ++ (r, o, a) :: post)) arm S pre e0 ep HS1 Ep) with (o := o) (a := a) (inner := inner)
      (news := news) (o' := o') (a' := a') (vs := vs) (v := v) as (SN & SA & e1 & vs' & v' & En & Lk & Dn & Vv); auto.
    { intros x s Hx (Hl & ef & w & Eef & Ew & Hb). split; [exact Hl|]. exists w. split; [|exact Hb].
      rewrite eval_app, Ep in Eef. cbn [eval] in Eef. rewrite El, Ed in Eef. fold SC in Hx.
      rewrite <- Ew, (eval_frame _ _ _ x Eef), upd_other; [reflexivity|congruence|].
      intros C. apply (ssa_notin _ _ HS3 x C). right. exact Hx. }
    { intros x Hx. apply (NF' x Hx). }
    assert (HS3' : ssa (r :: rev (map iid news) ++ SC) post).
    { apply (ssa_weaken post _ _ HS3).
      - intros i x _ _ [->|Hx]; [left; reflexivity|right; apply in_or_app; right; exact Hx].
      - intros x Hx [->|C]; [apply (ssa_notin _ _ HS3 x Hx); left; reflexivity|]. apply in_app_or in C. destruct C as [C|C].
        + apply in_rev in C. destruct (NF' x C) as (_ & _ & C3). contradiction.
        + apply (ssa_notin _ _ HS3 x Hx). right. exact C. }
    split; [|split].
    + apply ssa_app. split; [exact HS1|]. fold SC. apply ssa_app. split; [exact SN|]. split; [exact SA|]. split; [|exact HS3'].
      intros C. apply in_app_or in C. destruct C as [C|C]; [|contradiction]. apply in_rev in C. destruct (NF' r C) as (_ & C2 & _). congruence.
    + intros x Hx. specialize (HO x Hx). clear - HO. rewrite !map_app in *. cbn [map] in *. rewrite !in_app_iff in *. cbn [In] in *. tauto.
    + rewrite eval_app, Ep, eval_app, En. cbn [eval]. rewrite Lk, Dn.
      assert (HL : ele (r :: SC) (upd ep r v) (upd e1 r v')).
      { intros x w [->|Hx] Hw.
        - rewrite upd_same in *. injection Hw as <-. eauto.
        - assert (x <> r) by congruence. rewrite upd_other in * by assumption.
          rewrite (eval_frame _ _ _ x En) by (intros C; apply (proj1 (NF' x C)), Hx). exists w. split; [exact Hw|apply veq_refl]. }
      destruct (eval_ele post (r :: SC) _ _ _ HS3 HL HE) as (e2 & E2 & L2). exists e2. split; [exact E2|].
      intros x w Hx _ Hw. apply (L2 x w); [|exact Hw]. clear - Hx. subst SC.
      rewrite !map_app in *. cbn [map iid fst] in *. rewrite !in_app_iff in *. cbn [In] in *. rewrite in_app_iff, <- !in_rev. tauto.
  - apply ssa_app in HS. destruct HS as [HS1 HS2]. set (SC := rev (map iid pre) ++ S) in *.
    cbn [ssa] in HS2. destruct HS2 as (Ha & Hr & HS3).
    rewrite eval_app in HE. destruct (eval pre e0) as [ep|] eqn:Ep; [|discriminate]. cbn [eval] in HE.
    assert (El : look ep a = Some vs).
    { clear - HC HS1 Ep. induction HC as [|x v l vs Hx HC IH]; [reflexivity|]. cbn [look].
      destruct (d_const S pre e0 ep HS1 Ep x v Hx) as [-> _]. rewrite IH. reflexivity. }
    rewrite El, HD in HE. split; [|split].
    + apply ssa_app. split; [exact HS1|]. split; [intros x []|]. split; assumption.
    + intros x Hx. specialize (HO x Hx). clear - HO. rewrite !map_app in *. cbn [map iid fst] in *. exact HO.
    + exists e. rewrite eval_app, Ep. cbn [eval look denote]. split; [exact HE|].
      intros x w _ _ Hw. exists w. split; [exact Hw|apply veq_refl].
  - destruct i as [[r o] a]. cbn [iid fst] in *. destruct (uses_zero _ _ _ U0) as [N1 N2].
    apply ssa_app in HS. destruct HS as [HS1 HS2]. set (SC := rev (map iid pre) ++ S) in *.
    cbn [ssa] in HS2. destruct HS2 as (Ha & Hr & HS3).
    rewrite eval_app in HE. destruct (eval pre e0) as [ep|] eqn:Ep; [|discriminate]. cbn [eval] in HE.
    destruct (look ep a) as [vs|] eqn:El; [|discriminate]. destruct (denote o vs) as [v|] eqn:Ed; [|discriminate].
    assert (HS3' : ssa SC post).
    { apply (ssa_weaken post _ _ HS3).
      - intros i x Hi Hx [->|Hs]; [|exact Hs]. exfalso. apply (N2 i); [|exact Hx]. apply in_or_app. right. right. exact Hi.
      - intros x Hx C. apply (ssa_notin _ _ HS3 x Hx). right. exact C. }
    split; [apply ssa_app; split; assumption|]. split.
    + intros x Hx. specialize (HO x Hx). rewrite !map_app in *. cbn [map iid fst] in *. rewrite !in_app_iff in *. cbn [In] in *.
      destruct HO as [H|[H|[->|H]]]; auto. contradiction.
    + rewrite eval_app, Ep.
      assert (HL : ele SC (upd ep r v) ep).
      { intros x w Hx Hw. rewrite upd_other in Hw by congruence. exists w. split; [exact Hw|apply veq_refl]. }
      destruct (eval_ele post SC _ _ _ HS3' HL HE) as (e2 & E2 & L2). exists e2. split; [exact E2|].
      intros x w _ Hx Hw. apply (L2 x w); [|exact Hw]. clear - Hx. subst SC.
      rewrite !map_app in *. rewrite !in_app_iff in *. rewrite <- !in_rev. tauto.
Qed.

Theorem step_sound arm S outs e0 p q e :
  ssa S p -> (forall x, In x outs -> In x (S ++ map iid p)) ->
  step (fits e0 p) arm S outs p q -> eval p e0 = Some e ->
  ssa S q /\ (forall x, In x outs -> In x (S ++ map iid q)) /\
  exists e', eval q e0 = Some e' /\ ele outs e e'.
Proof.
  intros HS HO Hst HE. destruct (step_sound_all arm S outs e0 p q e HS HO Hst HE) as (HS' & HO' & e' & E' & L).
  split; [exact HS'|]. split; [exact HO'|]. exists e'. split; [exact E'|]. intros x v Hx Hv. apply L; auto.
Qed.

Lemma ele_trans S a b c : ele S a b -> ele S b c -> ele S a c.
Proof.
  intros H1 H2 x v Hx Hv. destruct (H1 x v Hx Hv) as (w & Ew & V1). destruct (H2 x w Hx Ew) as (u & Eu & V2).
  exists u. split; [exact Eu|]. eapply veq_trans; eassumption.
Qed.

Theorem steps_sound arm S outs e0 p q e :
  ssa S p -> (forall x, In x outs -> In x (S ++ map iid p)) ->
  steps (fits e0) arm S outs p q -> eval p e0 = Some e ->
  exists e', eval q e0 = Some e' /\ ele outs e e'.
Proof.
  intros HS HO Hst. revert e HS HO. induction Hst as [p|p p' q H1 H2 IH]; intros e HS HO HE.
  - exists e. split; [exact HE|]. intros x w _ Hw. exists w. split; [exact Hw|apply veq_refl].
  - destruct (step_sound arm S outs e0 p p' e HS HO H1 HE) as (HS' & HO' & e1 & E1 & L1).
    destruct (IH e1 HS' HO' E1) as (e2 & E2 & L2). exists e2. split; [exact E2|]. eapply ele_trans; eassumption.
Qed.
