(** * A64Val84: the float and int8 variants of BinaryKernelNeon8x4 store what the
    portable kernel stores. *)
From Verif Require Import Base Spec Bits Log Bgemm A64 A64Bgemm A64Lemmas A64K44 A64Store A64Trans A64Seg A64Block44 A64Write44 A64Main44 A64Loop44 A64Kernel44 A64Acc84 A64Block84 A64Write84 A64Loop84 A64Kernel84 A64Rel.
Open Scope Z_scope.

Definition wrap16 (x : Z) : Z := x mod 2 ^ 16.
Section Post8.
  Variables (ops : nops) (t : dtype) (o : otparams) (L R : list Z) (ls rs G rows cols sr sc er ec : Z).
  Hypothesis (Hops : nops_ok ops) (Ht : is_bits t = false).
  Hypothesis (K : call_ok 8 t o L R ls rs G rows cols sr sc er ec) (T : tr_ok o er).
  Let E := mkenv t L R 8 ls rs (4 * G) rows cols sr sc er ec o.
  Definition blk8 (r c : Z) (e : Z * Z) : Prop :=
    blkD t (dp t (dstr t rows) r c) (dstr t rows) (fun i j => V84 ops t o L R ls rs G (r + i) (c + j)) (Z.min (rows - r) 8) (Z.min (cols - c) 4) e.
  Lemma post_val84 Q : post_spec ops E t L R ls rs G rows cols sr sc er ec (dstr t rows) (fun _ => True) blk8 (32 * Z.of_nat (esize t)) Q.
  Proof.
    intros row col nl nr f g fl tm lg Hr1 Hr2 Hr3 Hc1 Hc2 Hc3 Hnl Hnl2 Hnr Hnr2 A _ C GR GL GRh GD G1 G2 G3 G4 Htm HQ.
    destruct K, T.
    assert (EP : forall off, e_par E off = par_fields t 8 ls rs (4 * G) rows cols sr sc er ec o off) by reflexivity.
    assert (P64 : e_par E 64 = Some (Int (p_cmin o))) by (rewrite EP; destruct t; reflexivity || discriminate).
    assert (P68 : e_par E 68 = Some (Int (p_cmax o))) by (rewrite EP; destruct t; reflexivity || discriminate).
    assert (P72 : e_par E 72 = Some (Ptr RMul 0)) by (rewrite EP; destruct t; reflexivity || discriminate).
    assert (P80 : e_par E 80 = Some (Ptr RBias 0)) by (rewrite EP; destruct t; reflexivity || discriminate).
    assert (Cp := post8_code t). replace (k84_post t) with (k84_transform t ++ k84_write t) in Cp by (unfold k84_post; rewrite Ht; reflexivity).
    apply code_at_app in Cp. destruct Cp as [C1 C2].
    assert (R8 : row + 8 < rows + 8) by lia. assert (C4 : col + 4 < cols + 4) by lia.
    eapply ends_exec; [exact C1|destruct t; reflexivity || discriminate|].
    apply (wp_transform8 ops E t o L R ls rs G eq_refl eq_refl Hops Ht eq_refl eq_refl P64 P68 P72 P80 t_min t_max t_mul t_bias _ _ _ _ _ row col nl nr (Z.min (rows - row) 8) (Z.min (cols - col) 4));
      try assumption; try lia; [exact (dP _ _ _ _ _ _ _ _ _ _ C)|].
    intros f' g' fl' Hh Hl H8 GL' GR' S' Hfl.
    assert (NX : (o8_post t + length (k84_transform t) + length (k84_write t))%nat = o8_next t) by (destruct t; reflexivity || discriminate).
    eapply (ends_write84 ops E t (k84 t) Q _ C2); try (destruct t; reflexivity || discriminate) ; try exact Hh; try exact Hfl; try exact Htm; try lia.
    { rewrite S' by reflexivity. exact (dT _ _ _ _ _ _ _ _ _ _ C). }
    { rewrite S' by reflexivity. exact GD. }
    { rewrite S' by reflexivity. exact (d11 _ _ _ _ _ _ _ _ _ _ C). }
    { rewrite S' by reflexivity. exact G1. }
    { rewrite S' by reflexivity. exact G2. }
    intros g2 fl2 tm2 lg2 S2 T2 L2. rewrite NX. apply HQ; try assumption; try exact I.
    - rewrite S2 by reflexivity. exact GL'.
    - rewrite S2 by reflexivity. exact GR'.
    - intros q Hq. rewrite S2, S'; [reflexivity|..].
      + destruct q; cbn in Hq |- *; try discriminate; try reflexivity. revert Hq. rewrite ?Bool.orb_false_r, ?Bool.orb_assoc. repeat (match goal with |- context [Nat.eqb ?a ?b] => destruct (Nat.eqb a b) end); cbn; congruence.
      + destruct q; cbn in Hq |- *; try discriminate; try reflexivity. revert Hq. repeat (match goal with |- context [Nat.eqb ?a ?b] => destruct (Nat.eqb a b) end); cbn; congruence.
  Qed.
  (** The entries of the blocks are the entries of the elements. *)
  Lemma done8_stored e : done8 blk8 sr sc er sr ec e <-> storedV t (Vp wrap16 ops t o 8 L R ls rs G) rows cols sr sc er ec e.
  Proof.
    destruct K. assert (es : Z.of_nat (esize t) = if is_float t then 4 else 1) by (unfold esize; destruct (is_float t); reflexivity).
    assert (Ed : forall r c i j q, r mod 8 = 0 -> dp t (dstr t rows) r c + j * dstr t rows + Z.of_nat (esize t) * i + q = Z.of_nat (esize t) * ((c + j) * rows + (r + i)) + q).
    { intros r c i j q Hm. rewrite es. unfold dp, dstr, dstep. destruct t; cbn [is_float]; [| |discriminate].
      - replace (32 * (r / 8)) with (4 * r) by (Z.to_euclidean_division_equations; lia). ring.
      - replace (8 * (r / 8)) with r by (Z.to_euclidean_division_equations; lia). ring. }
    unfold done8, storedV, ent, blk8, blkD, Vp, V84, pacc16, wrap16. split.
    - intros (r & c & B & M8 & M4 & i & j & q & v & Hi & Hj & Hv & ->). exists (r + i), (c + j).
      assert (r + 8 <= er /\ c + 4 <= ec) by (Z.to_euclidean_division_equations; lia).
      split; [lia|]. split; [lia|]. exists q, v. split; [exact Hv|]. f_equal. apply Ed, M8.
    - intros (i & j & Hi & Hj & q & v & Hv & ->). exists (i - i mod 8), (j - j mod 4).
      assert (Mi := Z.mod_pos_bound i 8 ltac:(lia)). assert (Mj := Z.mod_pos_bound j 4 ltac:(lia)).
      assert (A8 : (i - i mod 8) mod 8 = 0) by (Z.to_euclidean_division_equations; lia).
      assert (A4 : (j - j mod 4) mod 4 = 0) by (Z.to_euclidean_division_equations; lia).
      assert (sr <= i - i mod 8) by (Z.to_euclidean_division_equations; lia). assert (sc <= j - j mod 4) by (Z.to_euclidean_division_equations; lia).
      split; [lia|]. split; [exact A8|]. split; [exact A4|]. exists (i mod 8), (j mod 4), q, v.
      split; [lia|]. split; [lia|]. replace (i - i mod 8 + i mod 8) with i by ring. replace (j - j mod 4 + j mod 4) with j by ring.
      split; [exact Hv|]. f_equal. rewrite Ed by exact A8. f_equal. f_equal. ring_simplify. ring.
  Qed.
End Post8.

Lemma asm84_ok ops t o : nops_ok ops -> is_bits t = false -> asm_ok wrap16 ops t o 8 (k84 t) (fun G => 128 * G < 2 ^ 30).
Proof.
  intros Hops Ht L R ls rs G rows cols sr sc er ec f g tmp HG2 K T Htm.
  assert (D : dstr t rows < 2 ^ 32) by (assert (B := k_stb _ _ _ _ _ _ _ _ _ _ _ _ _ _ K); unfold esize in B; unfold dstr; destruct t; cbn [is_float] in B; [lia|lia|discriminate]).
  destruct (asm84_gen ops t o L R ls rs G rows cols sr sc er ec ltac:(lia) K D (fun _ => True) (blk8 ops t o L R ls rs G rows cols) (32 * Z.of_nat (esize t))
    (fun _ _ _ _ => I) (fun _ _ => I) (post_val84 ops t o L R ls rs G rows cols sr sc er ec Hops Ht K T) f g tmp Htm) as (n & Hn).
  exists n. eapply wp_mono; [exact Hn|]. cbv beta. intros lg Hlg e. rewrite Hlg. apply done8_stored; assumption.
Qed.
