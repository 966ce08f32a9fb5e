(** * A64Kernel84: what one call of BinaryKernelNeon8x4 stores. *)
From Verif Require Import Base Spec Bits Log Bgemm A64 A64Bgemm A64Lemmas A64K44 A64Store A64Trans A64Seg A64Block44 A64Write44 A64Main44 A64Loop44 A64Kernel44 A64Acc84 A64Block84 A64Write84 A64Loop84.
Open Scope Z_scope.

Definition dstr (t : dtype) (rows : Z) : Z := match t with DFloat => 4 * rows | DInt8 => rows | DBits => 4 * CeilDiv rows 32 end.
(** 738-748: the constant 1, 2, 4, ..., 128 as halfwords. *)
Definition mask31 : list Z := vec 2 [1; 2; 4; 8; 16; 32; 64; 128].
Definition mask_code : list instr :=
  [MOVI (Xr 2) 1; ADDX (Xr 2) (Xr 2) (Xr 2) 17; ADDX (Xr 2) (Xr 2) (Xr 2) 34; LSLXI (Xr 3) (Xr 2) 4; INSD 31 false (Xr 2); INSD 31 true (Xr 3)].
Lemma wp_mask ops E f g fl tm lg (Q : st -> Prop) :
  (forall g', same_x [Xr 2; Xr 3] g' g -> Q (mk (vupd (vupd f 31 (v_insd0 (f 31%nat) 2251816993685505)) 31 mask31) g' fl tm lg)) ->
  wp (exec ops E mask_code (mk f g fl tm lg)) Q.
Proof.
  intros HQ. unfold mask_code.
  assert (A : forall d a b sh x y f g fl tm lg (Q : st -> Prop), g a = Int x -> g b = Int y ->
    Q (mk f (xupd g d (Int ((x + y * 2 ^ sh) mod 2 ^ 64))) fl tm lg) -> wp (exec1 ops E (ADDX d a b sh) (mk f g fl tm lg)) Q).
  { intros d a b sh x y f0 g0 fl0 tm0 lg0 Q0 Ha Hb H. cbn [exec1]. unfold getx. cbn [sx mk]. rewrite Hb. cbn [int_of bind]. rewrite Ha. exact H. }
  assert (B : forall d a sh x f g fl tm lg (Q : st -> Prop), g a = Int x ->
    Q (mk f (xupd g d (Int (x * 2 ^ sh mod 2 ^ 64))) fl tm lg) -> wp (exec1 ops E (LSLXI d a sh) (mk f g fl tm lg)) Q).
  { intros d a sh x f0 g0 fl0 tm0 lg0 Q0 Ha H. cbn [exec1]. unfold getx. cbn [sx mk]. rewrite Ha. exact H. }
  assert (C : forall v (hi : bool) a x f g fl tm lg (Q : st -> Prop), g a = Int x ->
    Q (mk (vupd f v ((if hi then v_insd1 else v_insd0) (f v) x)) g fl tm lg) -> wp (exec1 ops E (INSD v hi a) (mk f g fl tm lg)) Q).
  { intros v hi a x f0 g0 fl0 tm0 lg0 Q0 Ha H. cbn [exec1]. unfold getx. cbn [sx mk]. rewrite Ha. destruct hi; exact H. }
  apply wp_exec_cons, wp_movi.
  apply wp_exec_cons. eapply A; [reflexivity|reflexivity|]. apply wp_exec_cons. eapply A; [reflexivity|reflexivity|].
  apply wp_exec_cons. eapply B; [reflexivity|]. apply wp_exec_cons. eapply C; [reflexivity|]. apply wp_exec_cons. eapply C; [reflexivity|].
  cbn [exec wp].
  set (g1 := xupd (xupd (xupd (xupd g (Xr 2) (Int 1)) (Xr 2) (Int 131073)) (Xr 2) (Int 2251816993685505)) (Xr 3) (Int 36029071898968080)).
  assert (S1 : same_x [Xr 2; Xr 3] g1 g) by (unfold g1; repeat (apply same_x_upd; [reflexivity|]); apply same_x_refl).
  specialize (HQ g1 S1).
  exact HQ.
Qed.

Section Kernel8.
  Variables (ops : nops) (t : dtype) (o : otparams) (L R : list Z) (ls rs G rows cols sr sc er ec : Z).
  Hypothesis (HG2 : 4 * G < 2 ^ 31 - 8).
  Hypothesis (K : call_ok 8 t o L R ls rs G rows cols sr sc er ec) (Hst : dstr t rows < 2 ^ 32).
  Let E := mkenv t L R 8 ls rs (4 * G) rows cols sr sc er ec o.
  Variables (kf : (nat -> list Z) -> Prop) (blk : Z -> Z -> Z * Z -> Prop) (tmn : Z).
  Hypothesis Kf31 : forall f f', f' 31%nat = f 31%nat -> kf f -> kf f'.
  Hypothesis Kf0 : forall f, (is_bits t = true -> f 31%nat = mask31) -> kf f.
  Hypothesis Hpost : forall Q, post_spec ops E t L R ls rs G rows cols sr sc er ec (dstr t rows) kf blk tmn Q.
  Lemma asm84_gen f g tmp : tmn <= zlen tmp ->
    exists n, wp (asm_kernel ops (k84 t) n t f g tmp L R 8 ls rs (4 * G) rows cols sr sc er ec o) (fun lg => forall e, In e lg <-> done8 blk sr sc er sr ec e).
  Proof.
    intros Htm. destruct K.
    assert (Emod : forall z, 0 <= z < 2 ^ 32 -> z mod 2 ^ 32 = z) by (intros; apply Z.mod_small; lia).
    assert (EP : forall off, e_par E off = par_fields t 8 ls rs (4 * G) rows cols sr sc er ec o off) by reflexivity.
    assert (P0 : e_par E 0 = Some (Ptr RLhs (4 * (sr * ls)))) by (rewrite EP; reflexivity).
    assert (P24 : e_par E 24 = Some (Int sr)) by (rewrite EP; reflexivity).
    assert (P32 : e_par E 32 = Some (Int (er - 8))) by (rewrite EP; reflexivity).
    assert (P36 : e_par E 36 = Some (Int (ec - 4))) by (rewrite EP; reflexivity).
    assert (P48 : e_par E 48 = Some (Int (4 * ls))) by (rewrite EP; reflexivity).
    assert (P52 : e_par E 52 = Some (Int (4 * rs))) by (rewrite EP; reflexivity).
    assert (P56 : e_par E 56 = Some (Int (dstr t rows))) by (rewrite EP; reflexivity).
    assert (P60 : e_par E 60 = Some (Int (4 * G))) by (rewrite EP; reflexivity).
    assert (H : ends ops E (k84 t) (fun s => forall e, In e (slog s) <-> done8 blk sr sc er sr ec e) 0 (start t f g tmp ls rs rows cols sr sc)).
    2:{ destruct H as [n Hn]. exists n. unfold asm_kernel. apply wp_bind. eapply wp_mono; [exact Hn|]. intros s Hs. exact Hs. }
    assert (C : code_at (k84 t) 0 (k84_init t)) by (destruct t; reflexivity).
    eapply ends_exec; [exact C|destruct t; reflexivity|]. unfold k84_init. change (start t f g tmp ls rs rows cols sr sc) with (mk f (start_regs t g ls rs rows cols sr sc) (0, 0) tmp []).
    assert (A3 := lb8 G k_g sr ls _ er _ ltac:(lia) ltac:(Z.to_euclidean_division_equations; lia) k_ls k_L eq_refl).
    assert (A4 := lb4 G k_g sc rs _ ec _ ltac:(lia) ltac:(Z.to_euclidean_division_equations; lia) k_rs k_R eq_refl).
    cbn [app zero].
    apply wp_exec_cons. eapply wp_ldrx; [exact P0|]. apply wp_exec_cons. eapply wp_ldrw; [exact P24|]. apply wp_exec_cons, wp_v.
    apply wp_exec_cons. eapply wp_ldrw; [exact P32|]. apply wp_exec_cons. eapply wp_ldrw; [exact P36|]. apply wp_exec_cons, wp_v.
    apply wp_exec_cons. eapply wp_ldrw; [exact P48|]. apply wp_exec_cons. eapply wp_ldrw; [exact P52|]. apply wp_exec_cons, wp_v.
    apply wp_exec_cons. eapply wp_ldrw; [exact P56|]. apply wp_exec_cons. eapply wp_ldrw; [exact P60|]. apply wp_exec_cons, wp_v.
    assert (He4 : 8 <= er) by (Z.to_euclidean_division_equations; lia).
    assert (Hes : 0 <= dstr t rows) by (unfold dstr, CeilDiv; destruct t; [lia|lia|Z.to_euclidean_division_equations; lia]).
    rewrite (Emod sr), (Emod (er - 8)), (Emod (ec - 4)), (Emod (4 * ls)), (Emod (4 * rs)), (Emod (dstr t rows)), (Emod (4 * G)) by (Z.to_euclidean_division_equations; lia).
    assert (Mask : forall f0 g0 fl0 tm0 lg0 (Q : st -> Prop),
      (forall f1 g1, (forall q, (q < 31)%nat -> f1 q = f0 q) -> (is_bits t = true -> f1 31%nat = mask31) -> same_x [Xr 2; Xr 3] g1 g0 -> Q (mk f1 g1 fl0 tm0 lg0)) ->
      wp (exec ops E (when (is_bits t) mask_code) (mk f0 g0 fl0 tm0 lg0)) Q).
    { intros f0 g0 fl0 tm0 lg0 Q H. destruct (is_bits t); cbn [when].
      - apply wp_mask. intros g' Hg'. apply H; [|intros _; reflexivity|exact Hg']. intros q Hq. unfold vupd. destruct (Nat.eqb_spec q 31); [lia|reflexivity].
      - cbn [exec wp]. apply H; [reflexivity|discriminate|apply same_x_refl]. }
    change ([MOVI (Xr 2) 1; ADDX (Xr 2) (Xr 2) (Xr 2) 17; ADDX (Xr 2) (Xr 2) (Xr 2) 34; LSLXI (Xr 3) (Xr 2) 4; INSD 31 false (Xr 2); INSD 31 true (Xr 3)]) with mask_code.
    apply wp_exec_app, Mask. clear Mask.
    match goal with |- forall f1 g1, (forall q, _ -> _ = ?ff q) -> _ -> same_x _ _ ?gg -> _ => set (f0 := ff); set (g0 := gg) end.
    intros f1 g1 Of Mf Sg.
    assert (Z0 : zeroed f1) by (unfold zeroed; rewrite !Of by lia; repeat split). clear Of.
    assert (GL : g1 LHS = Ptr RLhs (4 * (sr * ls))) by (rewrite Sg by reflexivity; reflexivity).
    assert (GR : g1 RHS = Ptr RRhs (4 * (sc * rs))) by (rewrite Sg by reflexivity; reflexivity).
    assert (GLc : g1 LHS_COL = Ptr RLhs (4 * (sr * ls))) by (rewrite Sg by reflexivity; reflexivity).
    assert (GRc : g1 RHS_COL = Ptr RRhs (4 * (sc * rs))) by (rewrite Sg by reflexivity; reflexivity).
    assert (GC : consts8 ls rs G rows cols sr er ec (dstr t rows) g1) by (constructor; rewrite Sg by reflexivity; reflexivity).
    assert (GR1 : g1 ROW = Int sr) by (rewrite Sg by reflexivity; reflexivity).
    assert (GC1 : g1 COL = Int sc) by (rewrite Sg by reflexivity; reflexivity).
    assert (Edp : start_regs t g ls rs rows cols sr sc DST = Ptr RDst (dp t (dstr t rows) sr sc)).
    { unfold start_regs, dp, dstr, dstep. f_equal. destruct t; Z.to_euclidean_division_equations; lia. }
    assert (GD : g1 DST = Ptr RDst (dp t (dstr t rows) sr sc)) by (rewrite Sg by reflexivity; exact Edp).
    assert (GDc : g1 DST_COL = Ptr RDst (dp t (dstr t rows) sr sc)) by (rewrite Sg by reflexivity; exact Edp).
    clear Sg Edp. clearbody g0 f0.
    apply wp_exec_cons. eapply (wp_ld1 _ _ _ _ _ _ _ _ _ RRhs R (sc * rs)); [exact GR|reflexivity|lia|lia|].
    apply wp_exec_cons. eapply (wp_ld4 _ _ _ _ _ _ _ _ _ _ _ _ RLhs L (sr * ls)); [exact GL|reflexivity|lia|lia|].
    apply wp_exec_cons. eapply (wp_ld4 _ _ _ _ _ _ _ _ _ _ _ _ RLhs L (sr * ls + 16)); [reflexivity|reflexivity|lia|lia|].
    apply wp_exec_cons, wp_movi. cbn [exec wp].
    change (0 + length _)%nat with (o8_top t).
    eapply (ends_blocks84 ops E t L R ls rs G rows cols sr sc er ec (dstr t rows) kf blk tmn) with (m := Z.to_nat ((ec - sc) * (er - sr) + (er - sr))) (row := sr) (col := sc);
      try assumption; try reflexivity; try lia; try (Z.to_euclidean_division_equations; lia).
    - apply Hpost.
    - constructor; try assumption; try reflexivity.
      + destruct GC. constructor; assumption.
      + cbn [xupd xeqb]. f_equal. ring.
      + unfold lregs8, Lg8. replace (sr * ls + 32 * 0 + 4 * 0) with (sr * ls) by ring. replace (sr * ls + 32 * 0 + 4 * 1) with (sr * ls + 4) by ring.
        replace (sr * ls + 32 * 0 + 4 * 2) with (sr * ls + 8) by ring. replace (sr * ls + 32 * 0 + 4 * 3) with (sr * ls + 12) by ring.
        replace (sr * ls + 32 * 0 + 4 * 4) with (sr * ls + 16) by ring. replace (sr * ls + 32 * 0 + 4 * 5) with (sr * ls + 16 + 4) by ring.
        replace (sr * ls + 32 * 0 + 4 * 6) with (sr * ls + 16 + 8) by ring. replace (sr * ls + 32 * 0 + 4 * 7) with (sr * ls + 16 + 12) by ring. repeat split.
      + eapply Kf31; [|apply Kf0; exact Mf]. reflexivity.
      + intros e. split; [intros []|]. intros H. exact (done8_first _ _ _ _ _ H).
    - intros f' g' fl' tm' lg' Hlg. apply ends_end; [destruct t; reflexivity|]. cbn [slog mk]. exact Hlg.
  Qed.
End Kernel8.
