(** * A64IndLoop: the accumulation loops of the indirect kernels. *)
From Verif Require Import Base Spec Bits Log Bgemm Indirect A64 A64Bgemm A64Lemmas A64K44 A64Store A64Trans A64Seg A64Loop44 A64Block84 A64Ind A64IndBlk.
Open Scope Z_scope.

Lemma qadd_qadd q a b : qadd (qadd q a) b = qadd q (a + b).
Proof. destruct q; cbn [qadd]; rewrite Z.add_assoc; reflexivity. Qed.
Lemma inb_mono E q n a b : 0 <= a -> a + b <= n -> inb E q n -> inb E (qadd q a) b.
Proof. unfold inb. intros Ha Hb. destruct q; cbn [qadd ioff imem]; lia. Qed.

Lemma aptr_ext q g g' : aptr q g -> (forall i, (i < 4)%nat -> g' (A_PTR i) = g (A_PTR i)) -> aptr q g'.
Proof. intros H S i Hi. rewrite (S i Hi). apply H, Hi. Qed.
Ltac four i := destruct i as [|[|[|[|i]]]]; [reflexivity|reflexivity|reflexivity|reflexivity|exfalso; lia].

Section Loop.
  Variables (ops : nops) (E : env) (D : nat) (fs depth ip ido k0 : Z) (grouped : bool) (qt : Z -> nat -> iptr).
  Notation L := (e_lhs E).
  Notation Dz := (Z.of_nat D).
  Hypothesis HD : In D [1; 2; 4]%nat.
  Hypotheses (Hfs : 1 <= fs < 2 ^ 31) (Hdep : 1 <= depth < 2 ^ 31) (Hg : grouped = false -> ido = 0).
  Hypotheses (Hk0 : 0 <= k0) (HL : k0 + 8 * Dz * (fs * depth + 1) <= zlen L).
  Hypothesis Hq : forall fi i, 0 <= fi <= fs -> (i < 4)%nat -> rd (e_ind E) (ip + 4 * fi + Z.of_nat i) = Some (vptr (qt fi i)).
  Hypothesis Hin : forall fi i, 0 <= fi < fs -> (i < 4)%nat -> inb E (qadd (qt fi i) ido) (Dz * depth).
  Hypothesis Hin' : forall i, (i < 4)%nat -> inb E (qadd (qt fs i) ido) Dz.

  (** The activations of block [m], and the sums of the first [n] blocks. *)
  Definition xq (i : nat) (m : Z) : iptr := qadd (qt (m / depth) i) (ido + Dz * (m mod depth)).
  Definition xs (i : nat) (m : Z) : list Z := iwords E (xq i m) D.
  Definition accl (i : nat) (n : Z) : list Z :=
    map (fun c => sum_ n (fun m => bp (xs i m) (wlist L (k0 + 8 * Dz * m + Dz * c) D))) [0; 1; 2; 3; 4; 5; 6; 7].
  Lemma Dpos : 1 <= Dz.
  Proof. destruct HD as [<- | [<- | [<- | []]]]; lia. Qed.
  Lemma accl_S i n : 0 <= n -> zipw Z.add (accl i n) (prods D (xs i n) L (k0 + 8 * Dz * n)) = accl i (n + 1).
  Proof. clear. intros Hn. unfold accl, prods. cbn [map zipw]. rewrite !sum_succ by exact Hn. reflexivity. Qed.
  Lemma accl_0 i : accl i 0 = [0; 0; 0; 0; 0; 0; 0; 0].
  Proof. clear. unfold accl. cbn [map]. rewrite !sum_0 by lia. reflexivity. Qed.
  Lemma xq_at i fi ci : 0 <= ci < depth -> xq i (fi * depth + ci) = qadd (qt fi i) (ido + Dz * ci).
  Proof.
    clear - Hdep. intros Hc. unfold xq. replace (fi * depth + ci) with (ci + fi * depth) by ring.
    rewrite Z.div_add, Z_mod_plus_full, Z.div_small, Z.mod_small by lia. reflexivity.
  Qed.
  Lemma xq_last i : xq i (fs * depth) = qadd (qt fs i) (ido + Dz * 0).
  Proof. rewrite <- (xq_at i fs 0) by lia. f_equal. ring. Qed.
  Lemma xq_in i m : 0 <= m <= fs * depth -> (i < 4)%nat -> inb E (xq i m) Dz.
  Proof.
    intros Hm Hi. destruct (Z.eq_dec m (fs * depth)) as [-> | Hn].
    - rewrite xq_last, Z.mul_0_r, Z.add_0_r. apply Hin', Hi.
    - unfold xq. rewrite <- qadd_qadd. pose proof Dpos. apply (inb_mono E _ (Dz * depth)).
      + apply Z.mul_nonneg_nonneg; [lia|]. apply Z.mod_pos_bound. lia.
      + pose proof (Z.mod_pos_bound m depth ltac:(lia)). nia.
      + apply Hin; [|exact Hi]. split; [apply Z.div_pos; lia|apply Z.div_lt_upper_bound; lia].
  Qed.

  (** After [m] blocks. *)
  Record core (m : Z) (f : nat -> list Z) (g : xreg -> val) : Prop := {
    c_w : wregs E D (k0 + 8 * Dz * m) f; c_a : actr D (fun i => xs i m) f; c_c : accr (fun i => accl i m) f;
    c_wp : g W_PTR = Ptr RLhs (4 * (k0 + 8 * Dz * (m + 1))) }.
  Lemma wp_blk m q f g fl tm lg (Q : st -> Prop) : 0 <= m < fs * depth -> core m f g -> aptr q g ->
    (forall i, (i < 4)%nat -> q i = xq i (m + 1)) ->
    (forall f' g', core (m + 1) f' g' -> aptr (fun i => qadd (xq i (m + 1)) Dz) g' -> same_x (W_PTR :: AP) g' g -> Q (mk f' g' fl tm lg)) ->
    wp (exec ops E (kblock D) (mk f g fl tm lg)) Q.
  Proof.
    intros Hm [Cw Ca Cc Cp] GA Eq HQ. pose proof Dpos.
    apply (kblock_ok ops E D HD (k0 + 8 * Dz * m) (k0 + 8 * Dz * (m + 1)) (fun i => xs i m) (fun i => accl i m) q).
    - constructor; try assumption.
      + intros i Hi. apply wlist_length.
      + intros i Hi. reflexivity.
      + nia.
      + nia.
      + intros i Hi. rewrite (Eq i Hi). apply xq_in; [lia|exact Hi].
    - intros f' g' W' A' C' P' AP' SX'. apply HQ; [|intros i Hi; rewrite (AP' i Hi), (Eq i Hi); reflexivity|exact SX'].
      constructor; [exact W'| | |].
      + intros i Hi. rewrite (A' i Hi), (Eq i Hi). reflexivity.
      + intros i Hi. rewrite (C' i Hi), accl_S by lia. reflexivity.
      + rewrite P'. f_equal. ring.
  Qed.

  (** Loading the pointers of the next tap. *)
  Definition gadd : list instr :=
    [ADDX (A_PTR 0) (A_PTR 0) IDO 2; ADDX (A_PTR 1) (A_PTR 1) IDO 2; ADDX (A_PTR 2) (A_PTR 2) IDO 2; ADDX (A_PTR 3) (A_PTR 3) IDO 2].
  Definition ldtap : list instr := [LDPX (A_PTR 0) (A_PTR 1) IND 0; LDPX (A_PTR 2) (A_PTR 3) IND 16; ADDXI IND IND 32].
  Lemma wp_ldtap fi blk f g fl tm lg (Q : st -> Prop) : 0 <= fi <= fs -> g IND = Ptr RInd (8 * (ip + 4 * fi)) ->
    (forall g', aptr (fun i => qt fi i) g' -> g' IND = Ptr RInd (8 * (ip + 4 * (fi + 1))) -> same_x (IND :: AP) g' g ->
       wp (exec ops E blk (mk f g' fl tm lg)) Q) ->
    wp (exec ops E (ldtap ++ blk) (mk f g fl tm lg)) Q.
  Proof.
    clear - Hq. intros Hfi GI HQ. cbn [ldtap app].
    assert (R0 := Hq fi 0%nat Hfi ltac:(lia)). assert (R1 := Hq fi 1%nat Hfi ltac:(lia)).
    assert (R2 := Hq fi 2%nat Hfi ltac:(lia)). assert (R3 := Hq fi 3%nat Hfi ltac:(lia)).
    change (Z.of_nat 0) with 0 in R0. change (Z.of_nat 1) with 1 in R1. change (Z.of_nat 2) with 2 in R2. change (Z.of_nat 3) with 3 in R3.
    apply (st_ldpx ops E _ _ _ _ (ip + 4 * fi) (vptr (qt fi 0%nat)) (vptr (qt fi 1%nat))); [exact GI| |].
    { exists 0. split; [reflexivity|]. rewrite Z.add_0_r in *. auto. }
    apply (st_ldpx ops E _ _ _ _ (ip + 4 * fi) (vptr (qt fi 2%nat)) (vptr (qt fi 3%nat))); [exact GI| |].
    { exists 2. split; [reflexivity|]. split; [exact R2|]. rewrite <- R3. f_equal. ring. }
    apply (st_addxi ops E _ _ _ RInd (8 * (ip + 4 * fi))); [exact GI|].
    apply HQ.
    - intros i Hi. destruct i as [|[|[|[|i]]]]; [reflexivity|reflexivity|reflexivity|reflexivity|exfalso; lia].
    - replace (8 * (ip + 4 * (fi + 1))) with (8 * (ip + 4 * fi) + 32) by ring. reflexivity.
    - unfold AP. sx.
  Qed.
  Lemma wp_gadd q blk f g fl tm lg (Q : st -> Prop) : aptr q g -> g IDO = Int ido ->
    (forall g', aptr (fun i => qadd (q i) ido) g' -> same_x AP g' g -> wp (exec ops E blk (mk f g' fl tm lg)) Q) ->
    wp (exec ops E (when grouped gadd ++ blk) (mk f g fl tm lg)) Q.
  Proof.
    clear - Hg. intros GA GI HQ. destruct grouped eqn:Eg.
    - cbn [when gadd app].
      assert (P : forall i, (i < 4)%nat -> g (A_PTR i) = Ptr (ireg (q i)) (4 * ioff (q i))) by (intros i Hi; rewrite (GA i Hi); apply vptr_eq).
      apply (st_addx ops E _ _ _ _ ido (ireg (q 0%nat)) (4 * ioff (q 0%nat))); [exact (P 0%nat ltac:(lia))|exact GI|].
      apply (st_addx ops E _ _ _ _ ido (ireg (q 1%nat)) (4 * ioff (q 1%nat))); [exact (P 1%nat ltac:(lia))|exact GI|].
      apply (st_addx ops E _ _ _ _ ido (ireg (q 2%nat)) (4 * ioff (q 2%nat))); [exact (P 2%nat ltac:(lia))|exact GI|].
      apply (st_addx ops E _ _ _ _ ido (ireg (q 3%nat)) (4 * ioff (q 3%nat))); [exact (P 3%nat ltac:(lia))|exact GI|].
      apply HQ.
      + intros i Hi. rewrite vptr_qadd. replace (4 * (ioff (q i) + ido)) with (4 * ioff (q i) + ido * 2 ^ 2) by ring.
        destruct i as [|[|[|[|i]]]]; [reflexivity|reflexivity|reflexivity|reflexivity|exfalso; lia].
      + unfold AP. sx.
    - cbn [when app]. apply HQ; [|apply same_x_refl]. intros i Hi. rewrite (GA i Hi), (Hg eq_refl). destruct (q i); cbn [qadd]; rewrite Z.add_0_r; reflexivity.
  Qed.

  (** The programs, as a loop over the taps. *)
  Definition deep_prog (pre : list instr) : list instr :=
    pre ++ (LBL 0 :: SUBSWI (Xr 1) (Xr 1) 1 :: kblock D) ++ [BC GT 0] ++
    (ldtap ++ [SUBWI (Xr 1) DEPTH 1; SUBSWI FS FS 1] ++ when grouped gadd ++ kblock D) ++ [BC GT 0].
  Definition flat_prog (pre : list instr) : list instr :=
    pre ++ (LBL 0 :: ldtap ++ [SUBSWI FS FS 1] ++ when grouped gadd ++ kblock D) ++ [BC GT 0].
  Lemma kblock_straight : straight (kblock D) = true.
  Proof. destruct HD as [<- | [<- | [<- | []]]]; reflexivity. Qed.
  Lemma code_self p : code_at p 0 p.
  Proof. unfold code_at. cbn [skipn]. apply firstn_all. Qed.
  (** What stays as it is, apart from the counters. *)
  Record cnst (fi : Z) (g : xreg -> val) : Prop := {
    n_fs : g FS = Int (fs - fi); n_ind : g IND = Ptr RInd (8 * (ip + 4 * (fi + 1))); n_dep : g DEPTH = Int depth; n_ido : g IDO = Int ido }.
  Lemma cnst_same fi g g' : cnst fi g -> same_x (W_PTR :: AP ++ [Xr 1]) g' g -> cnst fi g'.
  Proof. intros [A B C H] S. constructor; [rewrite <- A|rewrite <- B|rewrite <- C|rewrite <- H]; apply S; reflexivity. Qed.

  Section Progs.
    Variable Q : st -> Prop.
    Hypothesis HQ : forall f g fl tm lg, core (fs * depth) f g -> Q (mk f g fl tm lg).
    Lemma straight_app a b : straight (a ++ b) = straight a && straight b.
    Proof. unfold straight. apply forallb_app. Qed.

    Record dinv (fi ci : Z) (f : nat -> list Z) (g : xreg -> val) : Prop := {
      d_core : core (fi * depth + ci) f g; d_ap : aptr (fun i => qadd (xq i (fi * depth + ci)) Dz) g;
      d_x1 : g (Xr 1) = Int (depth - 1 - ci); d_cn : cnst fi g }.
    Lemma core_same m f g g' : core m f g -> g' W_PTR = g W_PTR -> core m f g'.
    Proof. intros [A B C H] S. constructor; try assumption. rewrite S. exact H. Qed.
    Variables (p : list instr) (P0 : nat).
    Definition lp : list instr := LBL 0 :: SUBSWI (Xr 1) (Xr 1) 1 :: kblock D.
    Definition md : list instr := ldtap ++ [SUBWI (Xr 1) DEPTH 1; SUBSWI FS FS 1] ++ when grouped gadd ++ kblock D.
    Notation P1 := (P0 + length lp)%nat.
    Notation P2 := (Datatypes.S P1 + length md)%nat.
    Hypotheses (Cf : find 0 p 0 = Some P0).
    Section Deep.
    Hypotheses (Hd2 : 2 <= depth).
    Hypotheses (C1 : code_at p P0 lp) (C2 : nth_error p P1 = Some (BC GT 0)) (C3 : code_at p (Datatypes.S P1) md)
      (C4 : nth_error p P2 = Some (BC GT 0)) (C5 : nth_error p (Datatypes.S P2) = None).
    Lemma S1 : straight lp = true. Proof. unfold lp. apply kblock_straight. Qed.
    Lemma S2 : straight md = true.
    Proof. unfold md. rewrite !straight_app, kblock_straight. destruct grouped; reflexivity. Qed.
    Lemma deep_mid fi f g fl tm lg : 0 <= fi < fs -> core (fi * depth + (depth - 1)) f g -> cnst fi g ->
      (fi + 1 < fs -> forall f' g' fl', dinv (fi + 1) 0 f' g' -> ends ops E p Q P0 (mk f' g' fl' tm lg)) ->
      ends ops E p Q (Datatypes.S P1) (mk f g fl tm lg).
    Proof.
      intros Hfi Co Cn Hnext. eapply ends_exec; [exact C3|exact S2|]. unfold md at 1.
      apply (wp_ldtap (fi + 1)); [lia|apply (n_ind _ _ Cn)|]. intros g2 Ap2 I2 Sx2. cbn [app].
      apply (st_subwi ops E _ _ _ depth); [rewrite (Sx2 DEPTH eq_refl); apply (n_dep _ _ Cn)|lia|lia|lia|].
      apply (st_subswi ops E _ _ _ (fs - fi)); [etransitivity; [exact (Sx2 FS eq_refl)|apply (n_fs _ _ Cn)]|lia|].
      rewrite (wmod (fs - fi - 1)) by lia.
      apply (wp_gadd (fun i => qt (fi + 1) i)); [eapply aptr_ext; [exact Ap2|intros i Hi; four i]|etransitivity; [exact (Sx2 IDO eq_refl)|apply (n_ido _ _ Cn)]|].
      intros g3 Ap3 Sx3.
      assert (Hm2 : 0 <= fi * depth + (depth - 1) < fs * depth) by nia.
      assert (Hm3 : fi * depth + (depth - 1) + 1 = (fi + 1) * depth + 0) by nia.
      apply (wp_blk (fi * depth + (depth - 1)) (fun i => qadd (qt (fi + 1) i) ido)); [exact Hm2| |exact Ap3| |].
      { eapply core_same; [exact Co|]. etransitivity; [exact (Sx3 W_PTR eq_refl)|exact (Sx2 W_PTR eq_refl)]. }
      { intros i Hi. rewrite Hm3, xq_at by lia. f_equal. ring. }
      intros f4 g4 Co4 Ap4 Sx4. rewrite Hm3 in Co4, Ap4.
      assert (G3 : forall r, existsb (xeqb r) (W_PTR :: AP) = false -> g4 r = xupd (xupd g2 (Xr 1) (Int (depth - 1))) FS (Int (fs - fi - 1)) r).
      { intros r Hr. cbn [existsb AP] in Hr. rewrite !orb_false_iff in Hr. destruct Hr as (R1 & R2 & R3 & R4 & R5 & _).
        rewrite (Sx4 r), (Sx3 r); [reflexivity| |]; cbn [forallb AP]; rewrite ?R1, ?R2, ?R3, ?R4, ?R5; reflexivity. }
      eapply ends_bc; [exact C4|exact Cf| |]; cbn [sfl mk cond_holds]; intros B; [apply Z.ltb_lt in B|apply Z.ltb_ge in B].
      - apply Hnext; [lia|]. constructor.
        + exact Co4.
        + exact Ap4.
        + rewrite (G3 (Xr 1) eq_refl). rewrite Z.sub_0_r. reflexivity.
        + constructor.
          * rewrite (G3 FS eq_refl). replace (fs - (fi + 1)) with (fs - fi - 1) by ring. reflexivity.
          * rewrite (G3 IND eq_refl). exact I2.
          * rewrite (G3 DEPTH eq_refl). etransitivity; [exact (Sx2 DEPTH eq_refl)|apply (n_dep _ _ Cn)].
          * rewrite (G3 IDO eq_refl). etransitivity; [exact (Sx2 IDO eq_refl)|apply (n_ido _ _ Cn)].
      - apply ends_end; [exact C5|]. apply HQ. replace (fs * depth) with ((fi + 1) * depth + 0) by nia. exact Co4.
    Qed.
    Lemma deep_in fi ci f g fl tm lg : 0 <= fi < fs -> 0 <= ci -> ci + 2 <= depth -> dinv fi ci f g ->
      (ci + 2 < depth -> forall f' g' fl', dinv fi (ci + 1) f' g' -> ends ops E p Q P0 (mk f' g' fl' tm lg)) ->
      (ci + 2 = depth -> forall f' g' fl', core (fi * depth + (depth - 1)) f' g' -> cnst fi g' -> ends ops E p Q (Datatypes.S P1) (mk f' g' fl' tm lg)) ->
      ends ops E p Q P0 (mk f g fl tm lg).
    Proof.
      intros Hfi Hc Hc2 [Co Ap X1 Cn] Hmore Hlast. eapply ends_exec; [exact C1|exact S1|]. unfold lp at 1. apply st_lbl.
      apply (st_subswi ops E _ _ _ (depth - 1 - ci)); [exact X1|lia|].
      rewrite (wmod (depth - 1 - ci - 1)) by lia.
      assert (Hm : 0 <= fi * depth + ci < fs * depth) by nia.
      assert (Hm1 : fi * depth + ci + 1 = fi * depth + (ci + 1)) by ring.
      apply (wp_blk (fi * depth + ci) (fun i => qadd (xq i (fi * depth + ci)) Dz)); [exact Hm|eapply core_same; [exact Co|reflexivity]|eapply aptr_ext; [exact Ap|intros i Hi; four i]| |].
      { intros i Hi. rewrite Hm1, !xq_at, qadd_qadd by lia. f_equal. ring. }
      intros f1 g1 Co1 Ap1 Sx1. rewrite Hm1 in Co1, Ap1.
      assert (Cn1 : cnst fi g1).
      { eapply cnst_same; [exact Cn|]. eapply same_x_trans; [eapply same_x_incl; [|exact Sx1]; reflexivity|].
        apply same_x_upd; [reflexivity|apply same_x_refl]. }
      assert (X11 : g1 (Xr 1) = Int (depth - 1 - (ci + 1))).
      { rewrite (Sx1 (Xr 1) eq_refl). replace (depth - 1 - (ci + 1)) with (depth - 1 - ci - 1) by ring. reflexivity. }
      eapply ends_bc; [exact C2|exact Cf| |]; cbn [sfl mk cond_holds]; intros B; [apply Z.ltb_lt in B|apply Z.ltb_ge in B].
      - apply Hmore; [lia|]. constructor; assumption.
      - apply Hlast; [lia| |exact Cn1]. replace (depth - 1) with (ci + 1) by lia. exact Co1.
    Qed.
    Lemma ends_deep tm lg : forall n fi, 0 <= fi < fs -> fs - 1 - fi = Z.of_nat n ->
      forall r ci, 0 <= ci -> depth - 2 - ci = Z.of_nat r -> forall f g fl, dinv fi ci f g ->
        ends ops E p Q P0 (mk f g fl tm lg).
    Proof.
      induction n as [|n IHn]; intros fi Hfi Hn; induction r as [|r IHr]; intros ci Hc Hr f g fl Hd.
      all: apply (deep_in fi ci); [exact Hfi|exact Hc|lia|exact Hd| |];
        [intros Hl f' g' fl' Hd'; first [exfalso; lia|apply (IHr (ci + 1)); [lia|lia|exact Hd']]
        |intros Hl f' g' fl' Co' Cn'; apply (deep_mid fi); [exact Hfi|exact Co'|exact Cn'|]; intros Hnx f2 g2 fl2 Hd2'; try (exfalso; lia)].
      all: apply (IHn (fi + 1)) with (r := Z.to_nat (depth - 2)) (ci := 0); [lia|lia|lia|lia|exact Hd2'].
    Qed.
    End Deep.

    Section Flat.
    Definition lpf : list instr := LBL 0 :: ldtap ++ [SUBSWI FS FS 1] ++ when grouped gadd ++ kblock D.
    Notation P1f := (P0 + length lpf)%nat.
    Hypotheses (Hd1 : depth = 1).
    Hypotheses (C1 : code_at p P0 lpf) (C2 : nth_error p P1f = Some (BC GT 0)) (C3 : nth_error p (Datatypes.S P1f) = None).
    Lemma S1f : straight lpf = true.
    Proof. unfold lpf. cbn [straight forallb branch negb andb]. rewrite !forallb_app. fold (straight (kblock D)). rewrite kblock_straight. destruct grouped; reflexivity. Qed.
    Lemma ends_flat tm lg : forall n fi, 0 <= fi < fs -> fs - 1 - fi = Z.of_nat n -> forall f g fl, core fi f g -> cnst fi g ->
      ends ops E p Q P0 (mk f g fl tm lg).
    Proof.
      induction n as [|n IHn]; intros fi Hfi Hn f g fl Co Cn.
      all: eapply ends_exec; [exact C1|exact S1f|]; unfold lpf at 1; apply st_lbl.
      all: apply (wp_ldtap (fi + 1)); [lia|apply (n_ind _ _ Cn)|]; intros g2 Ap2 I2 Sx2; cbn [app].
      all: apply (st_subswi ops E _ _ _ (fs - fi)); [etransitivity; [exact (Sx2 FS eq_refl)|apply (n_fs _ _ Cn)]|lia|].
      all: rewrite (wmod (fs - fi - 1)) by lia.
      all: apply (wp_gadd (fun i => qt (fi + 1) i)); [eapply aptr_ext; [exact Ap2|intros i Hi; four i]|etransitivity; [exact (Sx2 IDO eq_refl)|apply (n_ido _ _ Cn)]|].
      all: intros g3 Ap3 Sx3.
      all: apply (wp_blk fi (fun i => qadd (qt (fi + 1) i) ido)); [rewrite Hd1; lia| |exact Ap3| |];
        [eapply core_same; [exact Co|]; etransitivity; [exact (Sx3 W_PTR eq_refl)|exact (Sx2 W_PTR eq_refl)]
        |intros i Hi; replace (fi + 1) with ((fi + 1) * depth + 0) by (rewrite Hd1; ring); rewrite xq_at by lia; f_equal; [f_equal; rewrite Hd1; ring|ring]|].
      all: intros f4 g4 Co4 Ap4 Sx4.
      all: assert (G3 : forall r, existsb (xeqb r) (W_PTR :: AP) = false -> g4 r = xupd g2 FS (Int (fs - fi - 1)) r) by
        (intros r Hr; cbn [existsb AP] in Hr; rewrite !orb_false_iff in Hr; destruct Hr as (R1 & R2 & R3 & R4 & R5 & _);
         rewrite (Sx4 r), (Sx3 r); [reflexivity| |]; cbn [forallb AP]; rewrite ?R1, ?R2, ?R3, ?R4, ?R5; reflexivity).
      all: eapply ends_bc; [exact C2|exact Cf| |]; cbn [sfl mk cond_holds]; intros B; [apply Z.ltb_lt in B|apply Z.ltb_ge in B].
      all: try (exfalso; lia).
      - apply ends_end; [exact C3|]. apply HQ. replace (fs * depth) with (fi + 1) by (rewrite Hd1; lia). exact Co4.
      - apply (IHn (fi + 1)); [lia|lia|exact Co4|]. constructor.
        * rewrite (G3 FS eq_refl). replace (fs - (fi + 1)) with (fs - fi - 1) by ring. reflexivity.
        * rewrite (G3 IND eq_refl). exact I2.
        * rewrite (G3 DEPTH eq_refl). etransitivity; [exact (Sx2 DEPTH eq_refl)|apply (n_dep _ _ Cn)].
        * rewrite (G3 IDO eq_refl). etransitivity; [exact (Sx2 IDO eq_refl)|apply (n_ido _ _ Cn)].
    Qed.
    End Flat.
  End Progs.
End Loop.
