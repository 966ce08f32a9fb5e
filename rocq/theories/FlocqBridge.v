(** * SpecFloat operations as rounded real operations, through Flocq.

    The models compute with the standard library's SpecFloat; Flocq proves its own
    operations correct with respect to the reals. This file identifies the two for
    any format and derives error bounds. *)
From Coq Require Import ZArith Reals Psatz Lia SpecFloat.
From Flocq Require Import Core Relative Operations Digits Float_prop BinarySingleNaN.
Open Scope R_scope.

Section Bridge.
  Variables (prec emax : Z).
  Context (Hp : Prec_gt_0 prec) (Hm : Prec_lt_emax prec emax).
  Notation SFm := (SFmul prec emax).
  Notation SFa := (SFadd prec emax).
  Notation SFd := (SFdiv prec emax).
  Notation fexp := (SpecFloat.fexp prec emax).
  Definition rnd (x : R) : R := round radix2 fexp ZnearestE x.

  Lemma round_nearest_even_eq s m l : round_nearest_even m l = choice_mode mode_NE s m l.
  Proof. destruct l as [|c]; [reflexivity|]. destruct c; try reflexivity. simpl. unfold Round.cond_incr. now destruct (Z.even m). Qed.
  Lemma binary_round_aux_eq sx mx ex lx : SpecFloat.binary_round_aux prec emax sx mx ex lx = binary_round_aux prec emax mode_NE sx mx ex lx.
  Proof.
    unfold SpecFloat.binary_round_aux, binary_round_aux. destruct (shr_fexp prec emax mx ex lx) as [mrs' e'].
    simpl. now rewrite (round_nearest_even_eq sx).
  Qed.
  Lemma binary_round_eq s m e : SpecFloat.binary_round prec emax s m e = binary_round prec emax mode_NE s m e.
  Proof. unfold SpecFloat.binary_round, binary_round, shl_align_fexp. destruct (shl_align _ _ _) as [mz ez]. apply binary_round_aux_eq. Qed.
  Lemma binary_normalize_eq m e sz : SpecFloat.binary_normalize prec emax m e sz = B2SF (binary_normalize prec emax Hp Hm mode_NE m e sz).
  Proof. destruct m as [|p|p]; simpl; [reflexivity| |]; rewrite B2SF_SF2B; apply binary_round_eq. Qed.
  Lemma mul_eq (x y : binary_float prec emax) : SFm (B2SF x) (B2SF y) = B2SF (Bmult mode_NE x y).
  Proof.
    destruct x as [sx|sx| |sx mx ex Bx]; destruct y as [sy|sy| |sy my ey By]; try reflexivity.
    simpl. rewrite B2SF_SF2B. apply binary_round_aux_eq.
  Qed.
  Lemma add_eq (x y : binary_float prec emax) : SFa (B2SF x) (B2SF y) = B2SF (Bplus mode_NE x y).
  Proof.
    destruct x as [sx|sx| |sx mx ex Bx]; destruct y as [sy|sy| |sy my ey By]; try reflexivity; try (simpl; now destruct (Bool.eqb sx sy)).
    apply binary_normalize_eq.
  Qed.
  Lemma div_eq (x y : binary_float prec emax) : SFd (B2SF x) (B2SF y) = B2SF (Bdiv mode_NE x y).
  Proof.
    destruct x as [sx|sx| |sx mx ex Bx]; destruct y as [sy|sy| |sy my ey By]; try reflexivity.
    simpl. rewrite B2SF_SF2B. destruct (SFdiv_core_binary _ _ _ _ _ _) as [[mz ez] lz]. apply binary_round_aux_eq.
  Qed.

  (** [rep x r]: the datum [x] is finite, canonical, and has the value [r]. *)
  Definition rep (x : spec_float) (r : R) : Prop := exists B : binary_float prec emax, B2SF B = x /\ is_finite B = true /\ B2R B = r.
  Lemma rep_mul x y a b : rep x a -> rep y b -> Rabs (rnd (a * b)) < bpow radix2 emax -> rep (SFm x y) (rnd (a * b)).
  Proof.
    intros (X & <- & Fx & <-) (Y & <- & Fy & <-) H. exists (Bmult mode_NE X Y). split; [symmetry; apply mul_eq|].
    assert (C := Bmult_correct prec emax Hp Hm mode_NE X Y). rewrite Rlt_bool_true in C by exact H. destruct C as (C1 & C2 & _).
    rewrite C2, Fx, Fy. split; [reflexivity|exact C1].
  Qed.
  Lemma rep_add x y a b : rep x a -> rep y b -> Rabs (rnd (a + b)) < bpow radix2 emax -> rep (SFa x y) (rnd (a + b)).
  Proof.
    intros (X & <- & Fx & <-) (Y & <- & Fy & <-) H. exists (Bplus mode_NE X Y). split; [symmetry; apply add_eq|].
    assert (C := Bplus_correct prec emax Hp Hm mode_NE X Y Fx Fy). rewrite Rlt_bool_true in C by exact H. destruct C as (C1 & C2 & _).
    split; [exact C2|exact C1].
  Qed.
  Lemma rep_div x y a b : rep x a -> rep y b -> b <> 0 -> Rabs (rnd (a / b)) < bpow radix2 emax -> rep (SFd x y) (rnd (a / b)).
  Proof.
    intros (X & <- & Fx & <-) (Y & <- & Fy & <-) Hb H. exists (Bdiv mode_NE X Y). split; [symmetry; apply div_eq|].
    assert (C := Bdiv_correct prec emax Hp Hm mode_NE X Y Hb). rewrite Rlt_bool_true in C by exact H. destruct C as (C1 & C2 & _).
    rewrite C2, Fx. split; [reflexivity|exact C1].
  Qed.
  Lemma rep_normalize m e sz : Rabs (rnd (F2R (Float radix2 m e))) < bpow radix2 emax ->
    rep (SpecFloat.binary_normalize prec emax m e sz) (rnd (F2R (Float radix2 m e))).
  Proof.
    intros H. exists (binary_normalize prec emax Hp Hm mode_NE m e sz). split; [symmetry; apply binary_normalize_eq|].
    assert (C := binary_normalize_correct prec emax Hp Hm mode_NE m e sz). cbv zeta in C. rewrite Rlt_bool_true in C by exact H. destruct C as (C1 & C2 & _).
    split; [exact C2|exact C1].
  Qed.
  Lemma rep_ltb x y a b : rep x a -> rep y b -> SFltb x y = Rlt_bool a b.
  Proof. intros (X & <- & Fx & <-) (Y & <- & Fy & <-). exact (Bltb_correct prec emax X Y Fx Fy). Qed.
  Lemma rep_leb x y a b : rep x a -> rep y b -> SFleb x y = Rle_bool a b.
  Proof. intros (X & <- & Fx & <-) (Y & <- & Fy & <-). exact (Bleb_correct prec emax X Y Fx Fy). Qed.
  Lemma rep_abs x a : rep x a -> rep (SFabs x) (Rabs a).
  Proof.
    intros (X & <- & Fx & <-). exists (Babs X). split; [now destruct X|]. rewrite is_finite_Babs. split; [exact Fx|apply B2R_Babs].
  Qed.
  Lemma rep_zero s : rep (S754_zero s) 0.
  Proof. exists (B754_zero s). repeat split. Qed.
  Lemma rep_format x a : rep x a -> generic_format radix2 fexp a.
  Proof. intros (X & <- & Fx & <-). apply generic_format_B2R. Qed.

  (** ** Rounding *)
  Hypothesis (Hprec : (1 < prec)%Z).
  Notation u := (bpow radix2 (- prec)).
  Notation eta := (bpow radix2 (3 - emax - prec - 1)).
  Instance fexp_valid : Valid_exp fexp.
  Proof. exact (BinarySingleNaN.fexp_correct prec emax Hp). Qed.
  Lemma rnd_le a b : a <= b -> rnd a <= rnd b.
  Proof. intros H. unfold rnd. apply round_le; [exact fexp_valid|apply valid_rnd_N|exact H]. Qed.
  Lemma rnd_0 : rnd 0 = 0.
  Proof. unfold rnd. apply round_0. apply valid_rnd_N. Qed.
  Lemma rnd_id a : generic_format radix2 fexp a -> rnd a = a.
  Proof. intros H. unfold rnd. apply round_generic; [apply valid_rnd_N|exact H]. Qed.
  Lemma rnd_err a : Rabs (rnd a - a) <= u * Rabs a + eta.
  Proof.
    assert (H := error_N_FLT radix2 (3 - emax - prec) prec Hp (fun x => negb (Z.even x)) a).
    destruct H as (eps & et & He & Ht & _ & E). change (rnd a = a * (1 + eps) + et) in E. rewrite E.
    replace (a * (1 + eps) + et - a) with (a * eps + et) by ring.
    apply (Rle_trans _ (Rabs (a * eps) + Rabs et)); [apply Rabs_triang|]. rewrite Rabs_mult.
    apply Rplus_le_compat.
    - rewrite Rmult_comm. apply Rmult_le_compat_r; [apply Rabs_pos|]. eapply Rle_trans; [exact He|].
      replace (- prec + 1)%Z with (- prec + 1)%Z by lia. rewrite bpow_plus. simpl (bpow radix2 1). lra.
    - eapply Rle_trans; [exact Ht|]. replace (3 - emax - prec - 1)%Z with (3 - emax - prec + -1)%Z by lia. rewrite bpow_plus. simpl (bpow radix2 (-1)). lra.
  Qed.

  (** ** Operands that need not be canonical in this format *)
  Definition val (x : spec_float) (r : R) : Prop := is_finite_SF x = true /\ SF2R radix2 x = r.
  Lemma rep_val x r : rep x r -> val x r.
  Proof. intros (X & <- & Fx & <-). split; [now rewrite is_finite_SF_B2SF|]. apply SF2R_B2SF. Qed.
  Lemma valid_rep x r : valid_binary prec emax x = true -> val x r -> rep x r.
  Proof.
    intros V [F E]. exists (SF2B x V). split; [apply B2SF_SF2B|]. split; [rewrite is_finite_SF2B; exact F|]. rewrite B2R_SF2B. exact E.
  Qed.
  Lemma rep_mul_any x y a b : rep x a -> bpow radix2 (3 - emax - prec + prec - 1) <= Rabs a -> val y b -> b <> 0 ->
    Rabs (rnd (a * b)) < bpow radix2 emax -> rep (SFm x y) (rnd (a * b)).
  Proof.
    intros (X & <- & Fx & <-) Hn [Fy <-] Hb H.
    destruct X as [sx|sx| |sx mx ex Bx]; try discriminate.
    { exfalso. simpl in Hn. rewrite Rabs_R0 in Hn. exact (Rlt_not_le _ _ (bpow_gt_0 radix2 _) Hn). }
    destruct y as [sy|sy| |sy my ey]; try discriminate; [exfalso; apply Hb; reflexivity|].
    cbn [B2SF SFmul]. simpl B2R in *. simpl SF2R in *. rewrite binary_round_aux_eq.
    set (x := F2R (Float radix2 (cond_Zopp sx (Zpos mx)) ex)) in *.
    set (y := F2R (Float radix2 (cond_Zopp sy (Zpos my)) ey)) in *.
    assert (Es : xorb sx sy = Rlt_bool (x * y) 0).
    { unfold x, y. rewrite <- F2R_mult. simpl. destruct sx, sy; simpl; symmetry; try apply Rlt_bool_false; try apply Rlt_bool_true;
        try (apply F2R_ge_0; simpl; lia); try (apply F2R_lt_0; simpl; lia). }
    rewrite Es.
    assert (Hd : Zdigits radix2 (Zpos mx) = prec).
    { destruct (andb_prop _ _ Bx) as [C _]. unfold canonical_mantissa in C. apply Zeq_bool_eq in C. rewrite Digits.Zpos_digits2_pos in C.
      assert (Hlt : Rabs x < bpow radix2 (Zdigits radix2 (Zpos mx) + ex)).
      { unfold x. rewrite <- F2R_Zabs. rewrite abs_cond_Zopp. simpl Z.abs.
        apply (Rlt_le_trans _ (F2R (Float radix2 (Zpower radix2 (Zdigits radix2 (Zpos mx))) ex))).
        - apply F2R_lt. assert (Hk := Zdigits_correct radix2 (Zpos mx)). simpl Z.abs in Hk. apply Hk.
        - unfold F2R. cbn [Fnum Fexp]. rewrite IZR_Zpower by (apply Zdigits_ge_0). rewrite <- bpow_plus. apply Rle_refl. }
      assert (Hl : (3 - emax - prec + prec - 1 < Zdigits radix2 (Zpos mx) + ex)%Z) by (apply (lt_bpow radix2); exact (Rle_lt_trans _ _ _ Hn Hlt)).
      unfold SpecFloat.fexp, SpecFloat.emin in C. lia. }
    destruct (binary_round_aux_correct prec emax Hp Hm mode_NE (x * y) (mx * my) (ex + ey) loc_Exact) as [V C].
    - constructor. unfold x, y. rewrite <- F2R_mult, <- F2R_abs. simpl. apply F2R_eq. rewrite Z.abs_mul, !abs_cond_Zopp. reflexivity.
    - change (Zpos (mx * my)) with (Zpos mx * Zpos my)%Z.
      assert (G := Zdigits_mult_ge radix2 (Zpos mx) (Zpos my) ltac:(discriminate) ltac:(discriminate)).
      assert (G2 := Zdigits_gt_0 radix2 (Zpos my) ltac:(discriminate)). unfold SpecFloat.fexp. lia.
    - rewrite Rlt_bool_true in C by exact H. destruct C as (C1 & C2 & _). apply valid_rep; [exact V|]. split; [exact C2|exact C1].
  Qed.
  Lemma rep_add_any x y a b : val x a -> val y b -> a <> 0 -> b <> 0 -> Rabs (rnd (a + b)) < bpow radix2 emax -> rep (SFa x y) (rnd (a + b)).
  Proof.
    intros [Fx <-] [Fy <-] Ha Hb H.
    destruct x as [sx|sx| |sx mx ex]; try discriminate; [exfalso; apply Ha; reflexivity|].
    destruct y as [sy|sy| |sy my ey]; try discriminate; [exfalso; apply Hb; reflexivity|].
    cbn [SFadd]. simpl SF2R in *.
    assert (E : F2R (Float radix2 (cond_Zopp sx (Zpos mx)) ex) + F2R (Float radix2 (cond_Zopp sy (Zpos my)) ey) =
      F2R (Float radix2 (cond_Zopp sx (Zpos (fst (shl_align mx ex (Z.min ex ey)))) + cond_Zopp sy (Zpos (fst (shl_align my ey (Z.min ex ey))))) (Z.min ex ey))).
    { assert (G : forall s m e, (Z.min ex ey <= e)%Z -> F2R (Float radix2 (cond_Zopp s (Zpos m)) e) =
        F2R (Float radix2 (cond_Zopp s (Zpos (fst (shl_align m e (Z.min ex ey))))) (Z.min ex ey))).
      { intros s m e He. assert (A := shl_align_correct m e (Z.min ex ey)). destruct (shl_align m e (Z.min ex ey)) as [m' e'] eqn:Em.
        destruct A as [A1 A2]. simpl fst. assert (e' = Z.min ex ey).
        { clear - Em He. unfold shl_align in Em. destruct (Z.min ex ey - e)%Z eqn:D; injection Em as <- <-; lia. }
        subst e'. rewrite !F2R_cond_Zopp. rewrite A1. reflexivity. }
      rewrite (G sx mx ex) by lia. rewrite (G sy my ey) by lia. unfold F2R. simpl. rewrite plus_IZR. ring. }
    rewrite E in *. apply rep_normalize. exact H.
  Qed.
End Bridge.
