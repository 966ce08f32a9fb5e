(** * A64IndAcc: AccumulationLoop computes the sums of all taps. *)
From Verif Require Import Base Spec Bits Log Bgemm Indirect A64 A64Bgemm A64Lemmas A64K44 A64Store A64Trans A64Seg A64Loop44 A64Block84 A64Ind A64IndBlk A64IndLoop.
Open Scope Z_scope.

Lemma prog_code p pre a b c d : p = pre ++ a ++ [b] ++ c ++ [d] ->
  code_at p 0 pre /\ code_at p (length pre) a /\ nth_error p (length pre + length a) = Some b /\ code_at p (Datatypes.S (length pre + length a)) c /\
  nth_error p (Datatypes.S (length pre + length a) + length c) = Some d /\ nth_error p (Datatypes.S (Datatypes.S (length pre + length a) + length c)) = None.
Proof.
  intros Hp. pose proof (code_self p) as C. rewrite Hp in C at 2. rewrite !code_at_app in C. destruct C as (C0 & C1 & C2 & C3 & C4).
  cbn [Nat.add length] in *. rewrite Nat.add_1_r in *.
  apply code_at_cons in C2. destruct C2 as [C2 _]. apply code_at_cons in C4. destruct C4 as [C4 _].
  repeat (split; [assumption|]). apply nth_error_None. rewrite Hp, !app_length. cbn [length]. lia.
Qed.
Lemma prog_code1 p pre a b : p = pre ++ a ++ [b] ->
  code_at p 0 pre /\ code_at p (length pre) a /\ nth_error p (length pre + length a) = Some b /\ nth_error p (Datatypes.S (length pre + length a)) = None.
Proof.
  intros Hp. pose proof (code_self p) as C. rewrite Hp in C at 2. rewrite !code_at_app in C. destruct C as (C0 & C1 & C2).
  cbn [Nat.add length] in *.
  apply code_at_cons in C2. destruct C2 as [C2 _].
  repeat (split; [assumption|]). apply nth_error_None. rewrite Hp, !app_length. cbn [length]. lia.
Qed.
Definition zeros : list instr := [V (VZERO (rc 0)); V (VZERO (rc 1)); V (VZERO (rc 2)); V (VZERO (rc 3))].
Definition pre12 : list instr := [ADDXI IND IND 32; SUBWI (Xr 1) DEPTH 1] ++ zeros.
Definition pre4 (grouped : bool) : list instr :=
  ldtap ++ SUBWI (Xr 1) DEPTH 1 :: zeros ++ when grouped gadd ++
  [ADDXI (A_PTR 0) (A_PTR 0) 16; ADDXI (A_PTR 1) (A_PTR 1) 16; ADDXI (A_PTR 2) (A_PTR 2) 16; ADDXI (A_PTR 3) (A_PTR 3) 16].
Definition pref : list instr := ADDXI IND IND 32 :: zeros.
Lemma deep1_eq g : kdeep1 g = pre12 ++ lp 1 ++ [BC GT 0] ++ md 1 g ++ [BC GT 0]. Proof. destruct g; reflexivity. Qed.
Lemma deep2_eq g : kdeep2 g = pre12 ++ lp 2 ++ [BC GT 0] ++ md 2 g ++ [BC GT 0]. Proof. destruct g; reflexivity. Qed.
Lemma deep4_eq g : kdeep4 g = pre4 g ++ lp 4 ++ [BC GT 0] ++ md 4 g ++ [BC GT 0]. Proof. destruct g; reflexivity. Qed.
Definition kflat (D : nat) (g : bool) := match D with 1%nat => kflat1 g | 2%nat => kflat2 g | _ => kflat4 g end.
Lemma flat_eq D g : In D [1; 2; 4]%nat -> kflat D g = pref ++ lpf D g ++ [BC GT 0].
Proof. intros [<- | [<- | [<- | []]]]; destruct g; reflexivity. Qed.
Definition kdeep (D : nat) (g : bool) := match D with 1%nat => kdeep1 g | 2%nat => kdeep2 g | _ => kdeep4 g end.
Definition pred (D : nat) (g : bool) : list instr := match D with 4%nat => pre4 g | _ => pre12 end.
Lemma deep_eq D g : In D [1; 2; 4]%nat -> kdeep D g = pred D g ++ lp D ++ [BC GT 0] ++ md D g ++ [BC GT 0].
Proof. intros [<- | [<- | [<- | []]]]; [apply deep1_eq|apply deep2_eq|apply deep4_eq]. Qed.
Lemma deep_find D g : In D [1; 2; 4]%nat -> find 0 (kdeep D g) 0 = Some (length (pred D g)).
Proof. intros [<- | [<- | [<- | []]]]; destruct g; reflexivity. Qed.
Lemma flat_find D g : In D [1; 2; 4]%nat -> find 0 (kflat D g) 0 = Some (length pref).
Proof. intros [<- | [<- | [<- | []]]]; destruct g; reflexivity. Qed.

Section Acc.
  Variables (ops : nops) (E : env) (D : nat) (fs depth ip ido k0 : Z) (grouped : bool) (qt : Z -> nat -> iptr).
  Notation L := (e_lhs E).
  Notation Dz := (Z.of_nat D).
  Hypothesis HD : In D [1; 2; 4]%nat.
  Hypotheses (Hfs : 1 <= fs < 2 ^ 31) (Hdep : 1 <= depth < 2 ^ 31) (Hg : grouped = false -> ido = 0).
  Hypotheses (Hk0 : 0 <= k0) (HL : k0 + 8 * Dz * (fs * depth + 1) <= zlen L).
  Hypothesis Hq : forall fi i, 0 <= fi <= fs -> (i < 4)%nat -> rd (e_ind E) (ip + 4 * fi + Z.of_nat i) = Some (vptr (qt fi i)).
  Hypothesis Hin : forall fi i, 0 <= fi < fs -> (i < 4)%nat -> inb E (qadd (qt fi i) ido) (Dz * depth).
  Hypothesis Hin' : forall i, (i < 4)%nat -> inb E (qadd (qt fs i) ido) Dz.
  Notation core := (core E D depth ido k0 qt).
  Notation accl := (accl E D depth ido k0 qt).

  (** The registers on entry. *)
  Record entry (f : nat -> list Z) (g : xreg -> val) : Prop := {
    en_w : wregs E D k0 f; en_a : actr D (fun i => iwords E (qadd (qt 0 i) ido) D) f;
    en_wp : g W_PTR = Ptr RLhs (4 * (k0 + 8 * Dz)); en_ind : g IND = Ptr RInd (8 * ip);
    en_fs : g FS = Int fs; en_dep : g DEPTH = Int depth; en_ido : g IDO = Int ido }.
  Lemma core0 f f' g g' : entry f g -> (forall i, (i < 2 * D)%nat -> f' (rw i) = f (rw i)) -> (forall i, (i < 4)%nat -> f' (ra i) = f (ra i)) ->
    (forall i, (i < 4)%nat -> f' (rc i) = repeat 0 16) -> g' W_PTR = g W_PTR -> core 0 f' g'.
  Proof.
    intros [W A P I F Dp Io] Ew Ea Ec Eg. constructor.
    - intros i Hi. rewrite (Ew i Hi), (W i Hi). repeat f_equal. ring.
    - intros i Hi. rewrite (Ea i Hi), (A i Hi). unfold xs. replace 0 with (0 * depth + 0) at 2 by ring. rewrite xq_at by lia. repeat f_equal. ring.
    - intros i Hi. rewrite (Ec i Hi), accl_0. reflexivity.
    - rewrite Eg, P. f_equal. ring.
  Qed.
  Lemma zeros_f f : let f' := vrun ops [VZERO (rc 0); VZERO (rc 1); VZERO (rc 2); VZERO (rc 3)] f in
    (forall i, (i < 2 * D)%nat -> f' (rw i) = f (rw i)) /\ (forall i, (i < 4)%nat -> f' (ra i) = f (ra i)) /\ (forall i, (i < 4)%nat -> f' (rc i) = repeat 0 16).
  Proof.
    cbv zeta. split; [|split]; intros i Hi.
    - assert (H : (i < 8)%nat) by (destruct HD as [<- | [<- | [<- | []]]]; lia). do 8 (destruct i as [|i]; [reflexivity|]). exfalso; lia.
    - four i.
    - four i.
  Qed.
  Notation post Q := (forall f g fl tm lg, core (fs * depth) f g -> Q (mk f g fl tm lg)).
  Lemma flat_ok f g fl tm lg (Q : st -> Prop) : depth = 1 -> entry f g -> post Q -> ends ops E (kflat D grouped) Q 0 (mk f g fl tm lg).
  Proof.
    intros Hd1 En HQ. pose proof (prog_code1 _ _ _ _ (flat_eq D grouped HD)) as (C0 & C1 & C2 & C3).
    eapply ends_exec; [exact C0|reflexivity|]. unfold pref. apply (st_addxi ops E _ _ _ RInd (8 * ip)); [apply (en_ind _ _ En)|].
    change zeros with (map V [VZERO (rc 0); VZERO (rc 1); VZERO (rc 2); VZERO (rc 3)]). apply wp_vs.
    destruct (zeros_f f) as (Zw & Za & Zc). cbn [Nat.add].
    apply (ends_flat ops E D fs depth ip ido k0 grouped qt HD Hfs Hdep Hg Hk0 HL Hq Hin Hin' Q HQ (kflat D grouped) (length pref) (flat_find D grouped HD) Hd1 C1 C2 C3 tm lg
             (Z.to_nat (fs - 1)) 0); [lia|lia| |].
    - eapply core0; [exact En|exact Zw|exact Za|exact Zc|reflexivity].
    - destruct En as [W A P I F Dp Io]. constructor; [rewrite Z.sub_0_r; exact F| |exact Dp|exact Io].
      replace (8 * (ip + 4 * (0 + 1))) with (8 * ip + 32) by ring. reflexivity.
  Qed.
  Lemma deep_ok f g fl tm lg (Q : st -> Prop) : 2 <= depth -> entry f g -> (D <> 4%nat -> aptr (fun i => qadd (qt 0 i) (ido + Dz)) g) -> post Q ->
    ends ops E (kdeep D grouped) Q 0 (mk f g fl tm lg).
  Proof.
    intros Hd2 En HA HQ. pose proof (prog_code _ _ _ _ _ _ (deep_eq D grouped HD)) as (C0 & C1 & C2 & C3 & C4 & C5).
    assert (Dn : D = 4%nat \/ pred D grouped = pre12 /\ D <> 4%nat) by (destruct HD as [<- | [<- | [<- | []]]]; [right|right|left]; auto with arith).
    assert (Go : forall f g fl, dinv E D fs depth ip ido k0 qt 0 0 f g -> ends ops E (kdeep D grouped) Q (length (pred D grouped)) (mk f g fl tm lg)).
    { intros f1 g1 fl1 Hd.
      apply (ends_deep ops E D fs depth ip ido k0 grouped qt HD Hfs Hdep Hg Hk0 HL Hq Hin Hin' Q HQ (kdeep D grouped) (length (pred D grouped)) (deep_find D grouped HD) Hd2 C1 C2 C3 C4 C5 tm lg
               (Z.to_nat (fs - 1)) 0 ltac:(lia) ltac:(lia) (Z.to_nat (depth - 2)) 0 ltac:(lia) ltac:(lia) f1 g1 fl1 Hd). }
    destruct (zeros_f f) as (Zw & Za & Zc).
    destruct Dn as [D4 | [Dp Dn]].
    - eapply ends_exec; [exact C0|rewrite D4; destruct grouped; reflexivity|]. cbn [Nat.add]. rewrite D4 at 1. cbn [pred]. unfold pre4.
      apply (wp_ldtap ops E fs ip qt Hq 0); [lia|rewrite (en_ind _ _ En); f_equal; ring|].
      intros g1 Ap1 I1 Sx1.
      apply (st_subwi ops E _ _ _ depth); [rewrite (Sx1 DEPTH eq_refl); apply (en_dep _ _ En)|lia|lia|lia|].
      change zeros with (map V [VZERO (rc 0); VZERO (rc 1); VZERO (rc 2); VZERO (rc 3)]). apply wp_exec_app, wp_vs.
      apply (wp_gadd ops E ido grouped Hg (fun i => qt 0 i)); [eapply aptr_ext; [exact Ap1|intros i Hi; four i]|etransitivity; [exact (Sx1 IDO eq_refl)|apply (en_ido _ _ En)]|].
      intros g2 Ap2 Sx2.
      assert (P : forall i, (i < 4)%nat -> g2 (A_PTR i) = Ptr (ireg (qt 0 i)) (4 * (ioff (qt 0 i) + ido))) by (intros i Hi; rewrite (Ap2 i Hi); apply vptr_qadd).
      apply (st_addxi ops E _ _ _ (ireg (qt 0 0%nat)) (4 * (ioff (qt 0 0%nat) + ido))); [exact (P 0%nat ltac:(lia))|].
      apply (st_addxi ops E _ _ _ (ireg (qt 0 1%nat)) (4 * (ioff (qt 0 1%nat) + ido))); [exact (P 1%nat ltac:(lia))|].
      apply (st_addxi ops E _ _ _ (ireg (qt 0 2%nat)) (4 * (ioff (qt 0 2%nat) + ido))); [exact (P 2%nat ltac:(lia))|].
      apply (st_addxi ops E _ _ _ (ireg (qt 0 3%nat)) (4 * (ioff (qt 0 3%nat) + ido))); [exact (P 3%nat ltac:(lia))|].
      apply st_nil, Go. constructor.
      + eapply core0; [exact En|exact Zw|exact Za|exact Zc|]. etransitivity; [exact (Sx2 W_PTR eq_refl)|exact (Sx1 W_PTR eq_refl)].
      + intros i Hi. rewrite xq_at by lia. rewrite qadd_qadd, vptr_qadd, D4.
        replace (4 * (ioff (qt 0 i) + (ido + Z.of_nat 4 * 0 + Z.of_nat 4))) with (4 * (ioff (qt 0 i) + ido) + 16) by lia. four i.
      + rewrite Z.sub_0_r. exact (Sx2 (Xr 1) eq_refl).
      + destruct En as [W A Pw I F Dp Io]. constructor.
        * rewrite Z.sub_0_r. etransitivity; [exact (Sx2 FS eq_refl)|]. etransitivity; [exact (Sx1 FS eq_refl)|exact F].
        * etransitivity; [exact (Sx2 IND eq_refl)|]. exact I1.
        * etransitivity; [exact (Sx2 DEPTH eq_refl)|]. etransitivity; [exact (Sx1 DEPTH eq_refl)|exact Dp].
        * etransitivity; [exact (Sx2 IDO eq_refl)|]. etransitivity; [exact (Sx1 IDO eq_refl)|exact Io].
    - eapply ends_exec; [exact C0|rewrite Dp; reflexivity|]. cbn [Nat.add]. rewrite Dp at 1. unfold pre12. cbn [app].
      apply (st_addxi ops E _ _ _ RInd (8 * ip)); [apply (en_ind _ _ En)|].
      apply (st_subwi ops E _ _ _ depth); [apply (en_dep _ _ En)|lia|lia|lia|].
      change zeros with (map V [VZERO (rc 0); VZERO (rc 1); VZERO (rc 2); VZERO (rc 3)]). apply wp_vs.
      apply Go. constructor.
      + eapply core0; [exact En|exact Zw|exact Za|exact Zc|reflexivity].
      + intros i Hi. rewrite xq_at by lia. rewrite qadd_qadd. replace (ido + Dz * 0 + Dz) with (ido + Dz) by ring. rewrite <- (HA Dn i Hi). four i.
      + rewrite Z.sub_0_r. reflexivity.
      + destruct En as [W A Pw I F Dep Io]. constructor; [rewrite Z.sub_0_r; exact F| |exact Dep|exact Io].
        replace (8 * (ip + 4 * (0 + 1))) with (8 * ip + 32) by ring. reflexivity.
  Qed.
End Acc.

(** ** The C++ function *)
Lemma rd_map_some {A B} (f : A -> B) l j x : rd l j = Some x -> rd (map f l) j = Some (f x).
Proof. unfold rd. destruct (j <? 0); [discriminate|]. intros H. rewrite nth_error_map, H. reflexivity. Qed.
Section AccLoop.
  Variables (ops : nops) (o : otparams) (Dn : nat) (deep grouped : bool) (k : kern).
  Variables (pw input zero : list Z) (ibuf : list iptr).
  Notation E := (ienv pw input zero ibuf o).
  Notation D := (Z.of_nat Dn).
  Variables (depth ip ido k0 : Z) (qt : Z -> nat -> iptr).
  Hypothesis HD : In Dn [1; 2; 4]%nat.
  Hypotheses (Hfs : 1 <= k_fs k < 2 ^ 31) (Hdep : 1 <= depth < 2 ^ 31) (Hdeep : if deep then 2 <= depth else depth = 1) (Hg : grouped = false -> ido = 0).
  Hypotheses (Hk0 : 0 <= k0) (HL : k0 + 8 * D * (k_fs k * depth + 1) <= zlen pw).
  Hypothesis Hq : forall fi i, 0 <= fi <= k_fs k -> (i < 4)%nat -> rd ibuf (ip + 4 * fi + Z.of_nat i) = Some (qt fi i).
  Hypothesis Hin : forall fi i, 0 <= fi < k_fs k -> (i < 4)%nat -> inb E (qadd (qt fi i) ido) (D * depth).
  Hypothesis Hin' : forall i, (i < 4)%nat -> inb E (qadd (qt (k_fs k) i) ido) D.
  (** The registers that hold weights from word [k0], and activations. *)
  Definition wvecs (k0 : Z) : list (list Z) := map (fun i => vec 4 (wlist pw (k0 + 4 * Z.of_nat i) 4)) (seq 0 (2 * Dn)).
  Definition avecs (q : nat -> iptr) : list (list Z) := map (fun i => vec 4 (rep Dn (iwords E (q i) Dn))) (seq 0 4).
  Lemma acc_prog_eq : acc_prog D deep grouped = if deep then kdeep Dn grouped else kflat Dn grouped.
  Proof. unfold acc_prog. destruct HD as [<- | [<- | [<- | []]]]; destruct deep; reflexivity. Qed.
  Lemma a_ptrs_ok (K : list (xreg * val) -> Prop) : (forall aps, (deep = true -> Dn <> 4%nat -> forall i, (i < 4)%nat -> In (A_PTR i, vptr (qadd (qt 0 i) (ido + D))) aps) -> K aps) ->
    wp (a_ptrs D deep grouped ibuf ip ido) K.
  Proof.
    intros HK. unfold a_ptrs. destruct (deep && (D <? 4)) eqn:Eb.
    - cbn [seq omap].
      assert (R : forall i, (i < 4)%nat -> rd ibuf (ip + Z.of_nat i) = Some (qt 0 i)) by (intros i Hi; rewrite <- (Hq 0 i ltac:(lia) Hi); f_equal; ring).
      rewrite (R 0%nat), (R 1%nat), (R 2%nat), (R 3%nat) by lia. cbn [bind wp]. apply HK. intros _ _ i Hi.
      assert (A : forall q, vptr (qadd q (ido + D)) = addv (vptr q) (4 * ((if grouped then ido else 0) + D))).
      { intros q. rewrite vptr_qadd, vptr_eq. cbn [addv]. f_equal. destruct grouped; [|rewrite (Hg eq_refl)]; ring. }
      rewrite A. cbn [In]. destruct i as [|[|[|[|i]]]]; [| | | |exfalso; lia]; auto 6.
    - apply HK. intros -> Hn. cbn [andb] in Eb. apply Z.ltb_ge in Eb. destruct HD as [<- | [<- | [<- | []]]]; lia.
  Qed.
  Lemma AccumulationLoop_ok (K : list (list Z) -> Z -> Prop) :
    K (map (fun i => vec 2 (accl E Dn depth ido k0 qt i (k_fs k * depth))) (seq 0 4)) (4 * (k0 + 8 * D * (k_fs k * depth + 1))) ->
    AccumulationLoop ops o D deep grouped k pw input zero ibuf depth ido ip (wvecs k0) (avecs (fun i => qadd (qt 0 i) ido)) (4 * (k0 + 8 * D)) K.
  Proof.
    intros HK. unfold AccumulationLoop. apply a_ptrs_ok. intros aps Haps. rewrite acc_prog_eq. intros s Hv Hx.
    destruct s as [f g fl tm lg]. cbn [sv sx] in Hv, Hx.
    rewrite Forall_forall in Hv, Hx.
    assert (Q' : forall fi i, 0 <= fi <= k_fs k -> (i < 4)%nat -> rd (e_ind E) (ip + 4 * fi + Z.of_nat i) = Some (vptr (qt fi i)))
      by (intros fi i Hfi Hi; apply rd_map_some, Hq; assumption).
    assert (En : entry E Dn (k_fs k) depth ip ido k0 qt f g).
    { constructor.
      - intros i Hi. apply (Hv (rw i, vec 4 (wlist pw (k0 + 4 * Z.of_nat i) 4))). apply in_or_app. left. unfold wvecs.
        clear - HD Hi. destruct HD as [<- | [<- | [<- | []]]]; cbn [Nat.mul Nat.add seq map combine In];
          do 8 (destruct i as [|i]; [first [tauto|exfalso; lia]|]); exfalso; lia.
      - intros i Hi. apply (Hv (ra i, vec 4 (rep Dn (iwords E (qadd (qt 0 i) ido) Dn)))). apply in_or_app. right. unfold avecs.
        cbn [seq map combine In]. do 4 (destruct i as [|i]; [tauto|]). exfalso; lia.
      - apply (Hx (W_PTR, Ptr RLhs (4 * (k0 + 8 * D)))). apply in_or_app. left. cbn [In]. tauto.
      - apply (Hx (IND, Ptr RInd (8 * ip))). apply in_or_app. left. cbn [In]. tauto.
      - apply (Hx (FS, Int (k_fs k))). apply in_or_app. left. cbn [In]. tauto.
      - apply (Hx (DEPTH, Int depth)). apply in_or_app. left. cbn [In]. tauto.
      - apply (Hx (IDO, Int ido)). apply in_or_app. left. cbn [In]. tauto. }
    assert (Post : forall f g fl tm lg, core E Dn depth ido k0 qt (k_fs k * depth) f g ->
      (fun s => match sx s W_PTR with Ptr RLhs wptr' => K (map (fun i => sv s (rc i)) (seq 0 4)) wptr' | _ => False end) (mk f g fl tm lg)).
    { intros f1 g1 fl1 tm1 lg1 [_ _ Cc Cp]. cbv beta. cbn [sx mk sv]. rewrite Cp.
      rewrite (map_ext_in _ (fun i => vec 2 (accl E Dn depth ido k0 qt i (k_fs k * depth)))); [exact HK|].
      intros i Hi. apply in_seq in Hi. apply Cc. lia. }
    destruct deep.
    - apply (deep_ok ops E Dn (k_fs k) depth ip ido k0 grouped qt HD Hfs Hdep Hg Hk0 HL Q' Hin Hin' f g fl tm lg); [exact Hdeep|exact En| |exact Post].
      intros Hn i Hi. apply (Hx (A_PTR i, vptr (qadd (qt 0 i) (ido + D)))). apply in_or_app. right. apply Haps; auto.
    - apply (flat_ok ops E Dn (k_fs k) depth ip ido k0 grouped qt HD Hfs Hdep Hg Hk0 HL Q' Hin Hin' f g fl tm lg); [exact Hdeep|exact En|exact Post].
  Qed.
End AccLoop.
