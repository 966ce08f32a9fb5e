(** * A64Kernel44: what one call of BinaryKernelNeon4x4 stores. *)
From Verif Require Import Base Spec Bits Log Bgemm A64 A64Bgemm A64Lemmas A64K44 A64Store A64Trans A64Seg A64Block44 A64Write44 A64Main44 A64Loop44.
Open Scope Z_scope.

(** What ruy guarantees about a kernel call (ruy's TrMul and the packed matrices):
    the range is non-empty, made of whole blocks and starts inside the matrix; the
    packed operands hold all its columns; and sizes that fit the registers. *)
Record call_ok (rb : Z) (t : dtype) (o : otparams) (L R : list Z) (ls rs G rows cols sr sc er ec : Z) : Prop := {
  k_g : 1 <= G; k_sr : 0 <= sr < er; k_sc : 0 <= sc < ec;
  k_msr : sr mod rb = 0; k_mer : er mod rb = 0; k_msc : sc mod 4 = 0; k_mec : ec mod 4 = 0;
  k_er : er < rows + rb; k_ec : ec < cols + 4; k_rows : rows < 2 ^ 31 - 8; k_cols : cols < 2 ^ 31 - 8;
  k_ls : 4 * G <= ls; k_rs : 4 * G <= rs; k_lsb : 4 * ls < 2 ^ 32; k_rsb : 4 * rs < 2 ^ 32; k_stb : Z.of_nat (esize t) * rows < 2 ^ 32;
  k_L : er * ls <= zlen L; k_R : ec * rs <= zlen R }.
Record tr_ok (o : otparams) (n : Z) : Prop := {
  t_min : int32 (p_cmin o); t_max : int32 (p_cmax o); t_mul : Forall pat (p_mul o); t_bias : Forall pat (p_bias o);
  t_ml : n <= zlen (p_mul o); t_bl : n <= zlen (p_bias o) }.

Lemma acc_plain ops E L R G t Q : e_lhs E = L -> e_rhs E = R -> 1 <= G -> 128 * G < 2 ^ 30 -> is_bits t = false ->
  acc_spec ops E t L R G false Q.
Proof.
  intros EL ER HG HG2 Ht bl br f g fl tm lg Hbl Hbr HlL HlR Hl Hr Hp H1 H12 Hz HQ.
  assert (C : code_at (k44 false t) o_top ((LBL 1 :: LCE_BMLA 24 4 0 1 2 3) ++ plain)) by (destruct t; reflexivity || discriminate).
  apply code_at_app in C. destruct C as [C1 C2].
  eapply ends_exec; [exact C1|reflexivity|]. apply wp_exec_cons, wp_lbl. destruct Hz as (z0 & z1 & z2 & z3).
  apply (wp_first ops E L R bl br); try assumption. intros f' A1 A2 A3.
  eapply (ends_plain ops E L R bl br G EL ER Hbl Hbr ltac:(lia) HlL HlR (k44 false t) Q _ g); [exact C2|destruct t; reflexivity || discriminate|destruct t; reflexivity || discriminate|exact H12| |instantiate (1 := 0); lia|].
  - intros f2 g2 fl2 B1 B2.
    replace (o_top + length (LBL 1 :: LCE_BMLA 24 4 0 1 2 3) + length plain)%nat with (o_adv false) by reflexivity.
    apply HQ; [exact B1|]. eapply same_x_incl; [|exact B2]. reflexivity.
  - constructor; try assumption. apply same_x_refl.
Qed.

Section Kernel.
  Variables (ops : nops) (t : dtype) (o : otparams) (L R : list Z) (ls rs G rows cols sr sc er ec : Z) (ms : bool).
  Hypothesis (Hops : nops_ok ops) (Ht : is_bits t = false) (HG2 : 128 * G < 2 ^ 30).
  Hypothesis (K : call_ok 4 t o L R ls rs G rows cols sr sc er ec) (T : tr_ok o er).
  Let E := mkenv t L R 4 ls rs (4 * G) rows cols sr sc er ec o.
  (** The set of bytes stored: those of the elements of the range that exist in
      the destination, each at its place. *)
  Definition stored (e : Z * Z) : Prop :=
    exists i j, sr <= i < Z.min er rows /\ sc <= j < Z.min ec cols /\ ent (esize t) (V44 ops t o L R ls rs G) rows i j e.
  Hypothesis Hacc : forall Q, acc_spec ops E t L R G ms Q.
  Lemma asm44 f g tmp : 16 * Z.of_nat (esize t) <= zlen tmp ->
    exists n, wp (asm_kernel ops (k44 ms t) n t f g tmp L R 4 ls rs (4 * G) rows cols sr sc er ec o) (fun lg => forall e, In e lg <-> stored e).
  Proof.
    intros Htm. destruct K, T.
    assert (Emod : forall z, 0 <= z < 2 ^ 32 -> z mod 2 ^ 32 = z) by (intros; apply Z.mod_small; lia).
    assert (Est : match t with DFloat => 4 * rows | DInt8 => rows | DBits => 4 * CeilDiv rows 32 end = Z.of_nat (esize t) * rows)
      by (destruct t; [unfold esize; cbn [is_float]; lia|unfold esize; cbn [is_float]; lia|discriminate]).
    assert (EP : forall off, e_par E off = par_fields t 4 ls rs (4 * G) rows cols sr sc er ec o off) by reflexivity.
    assert (P0 : e_par E 0 = Some (Ptr RLhs (4 * (sr * ls)))) by (rewrite EP; reflexivity).
    assert (P24 : e_par E 24 = Some (Int sr)) by (rewrite EP; reflexivity).
    assert (P32 : e_par E 32 = Some (Int (er - 4))) by (rewrite EP; reflexivity).
    assert (P36 : e_par E 36 = Some (Int (ec - 4))) by (rewrite EP; reflexivity).
    assert (P48 : e_par E 48 = Some (Int (4 * ls))) by (rewrite EP; reflexivity).
    assert (P52 : e_par E 52 = Some (Int (4 * rs))) by (rewrite EP; reflexivity).
    assert (P56 : e_par E 56 = Some (Int (Z.of_nat (esize t) * rows))) by (rewrite EP, <- Est; reflexivity).
    assert (P60 : e_par E 60 = Some (Int (4 * G))) by (rewrite EP; reflexivity).
    assert (P64 : e_par E 64 = Some (Int (p_cmin o))) by (rewrite EP; destruct t; reflexivity || discriminate).
    assert (P68 : e_par E 68 = Some (Int (p_cmax o))) by (rewrite EP; destruct t; reflexivity || discriminate).
    assert (P72 : e_par E 72 = Some (Ptr RMul 0)) by (rewrite EP; destruct t; reflexivity || discriminate).
    assert (P80 : e_par E 80 = Some (Ptr RBias 0)) by (rewrite EP; destruct t; reflexivity || discriminate).
    assert (H : ends ops E (k44 ms t) (fun s => forall e, In e (slog s) <-> stored e) 0 (start t f g tmp ls rs rows cols sr sc)).
    2:{ destruct H as [n Hn]. exists n. unfold asm_kernel. apply wp_bind. eapply wp_mono; [exact Hn|]. intros s Hs. exact Hs. }
    assert (C : code_at (k44 ms t) 0 k44_init) by (destruct t, ms; reflexivity || discriminate).
    eapply ends_exec; [exact C|reflexivity|]. unfold k44_init. change (start t f g tmp ls rs rows cols sr sc) with (mk f (start_regs t g ls rs rows cols sr sc) (0, 0) tmp []).
    assert (A1 : 0 <= sr * ls) by (clear - k_sr0 k_ls0 k_g0; nia). assert (A2 : 0 <= sc * rs) by (clear - k_sc0 k_rs0 k_g0; nia).
    assert (A3 : sr * ls + 16 <= zlen L).
    { destruct (lb_ok G k_g0 sr ls _ er _ ltac:(lia) ltac:(Z.to_euclidean_division_equations; lia) k_ls0 k_L0 eq_refl). lia. }
    assert (A4 : sc * rs + 16 <= zlen R).
    { destruct (lb_ok G k_g0 sc rs _ ec _ ltac:(lia) ltac:(Z.to_euclidean_division_equations; lia) k_rs0 k_R0 eq_refl). lia. }
    assert (Lz : sr * ls + 16 * 1 = sr * ls + 16) by ring.
    cbn [app zero].
    apply wp_exec_cons. eapply wp_ldrx; [exact P0|]. apply wp_exec_cons. eapply wp_ldrw; [exact P24|]. apply wp_exec_cons, wp_v.
    apply wp_exec_cons. eapply wp_ldrw; [exact P32|]. apply wp_exec_cons. eapply wp_ldrw; [exact P36|]. apply wp_exec_cons, wp_v.
    apply wp_exec_cons. eapply wp_ldrw; [exact P48|]. apply wp_exec_cons. eapply wp_ldrw; [exact P52|]. apply wp_exec_cons, wp_v.
    apply wp_exec_cons. eapply wp_ldrw; [exact P56|]. apply wp_exec_cons. eapply wp_ldrw; [exact P60|]. apply wp_exec_cons, wp_v.
    assert (He4 : 4 <= er) by (Z.to_euclidean_division_equations; lia).
    assert (Hes : 0 <= Z.of_nat (esize t) * rows) by (clear - k_er0 He4; nia).
    rewrite (Emod sr), (Emod (er - 4)), (Emod (ec - 4)), (Emod (4 * ls)), (Emod (4 * rs)), (Emod (Z.of_nat (esize t) * rows)), (Emod (4 * G)) by (Z.to_euclidean_division_equations; lia).
    apply wp_exec_cons. eapply (wp_ld4 _ _ _ _ _ _ _ _ _ _ _ _ RLhs L (sr * ls)); [reflexivity|reflexivity|lia|lia|].
    apply wp_exec_cons. eapply (wp_ld4 _ _ _ _ _ _ _ _ _ _ _ _ RRhs R (sc * rs)); [reflexivity|reflexivity|lia|lia|].
    apply wp_exec_cons, wp_movi. cbn [exec wp].
    change (0 + length k44_init)%nat with o_top.
    eapply (ends_blocks ops E t o L R ls rs G rows cols sr sc er ec ms Hops Ht eq_refl eq_refl eq_refl eq_refl P64 P68 P72 P80) with (m := Z.to_nat ((ec - sc) * (er - sr) + (er - sr))) (row := sr) (col := sc); try assumption; try lia; try (Z.to_euclidean_division_equations; lia).
    - apply Hacc.
    - constructor; try reflexivity.
      + constructor; reflexivity.
      + cbn [xupd xeqb start_regs]. destruct t; [unfold esize; cbn [is_float]; f_equal; lia|unfold esize; cbn [is_float]; f_equal; lia|discriminate].
      + cbn [xupd xeqb start_regs]. destruct t; [unfold esize; cbn [is_float]; f_equal; lia|unfold esize; cbn [is_float]; f_equal; lia|discriminate].
      + unfold ptrs. rewrite !Z.mul_1_r. split; reflexivity.
      + unfold lregs, Lg. rewrite !Z.mul_0_r, !Z.add_0_r. repeat split.
      + unfold rregs, Rg. rewrite !Z.mul_0_r, !Z.add_0_r. repeat split.
      + repeat split.
      + exact Htm.
      + intros e. split; [intros []|]. intros H. exact (done_first _ _ _ _ _ _ _ _ H).
    - intros f' g' fl' tm' lg' Hlg. apply ends_end.
      + destruct t, ms; reflexivity || discriminate.
      + cbn [slog mk]. intros e. rewrite Hlg. unfold done, stored. split.
        * intros (i & j & H & H0 & H1 & H2 & H3). exists i, j. split; [lia|]. split; [lia|exact H3].
        * intros (i & j & H & H0 & H1). exists i, j. split; [lia|]. split; [lia|]. split; [lia|]. split; [lia|exact H1].
  Qed.
End Kernel.
