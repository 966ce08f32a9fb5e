(** * A32Block: loads and output transform of one block of the 32-bit Arm kernel. *)
From Verif Require Import Base Spec Bits Log Bgemm A64 A64Bgemm A64Lemmas A64K44 A64Store A64Trans A64Seg A64Block44 A64Write44 A32 A32Acc A32Store.
Open Scope Z_scope.

(** The 32-bit Arm kernel converts to a fixed point number with 8 fraction bits,
    truncating, and then rounds that to an integer (kernels_arm32.h 373-390). *)
Definition a32 (ops : nops) : nops :=
  {| n_ofZ := n_ofZ ops; n_mul := n_mul ops; n_add := n_add ops;
     n_cvtns := fun y => (n_cvt8 ops y + 128) / 256; n_cvt8 := n_cvt8 ops |}.
Lemma a32_ok ops : nops_ok ops -> nops_ok (a32 ops).
Proof.
  intros [A B C D F]. constructor; cbn [a32 n_ofZ n_mul n_add n_cvtns n_cvt8]; try assumption.
  intros x. specialize (F x). change (2 ^ 31) with 2147483648 in *. Z.to_euclidean_division_equations. lia.
Qed.
(** vcvt #8, vqrshrn #8, vqmovn; the low four bytes. *)
Lemma int8_32 ops ys q : nops_ok ops -> Forall pat ys -> length ys = 4%nat -> q = v_cvt8 ops (vec 4 ys) ->
  let q1 := v_dset q false (vec 2 (map (rshrn 8) (lanes 4 q))) in
  firstn 4 (v_dset q1 false (vec 1 (map sat8 (lanes 2 q1)))) = vec 1 (map (fun y => sat8z (n_cvtns (a32 ops) y)) ys).
Proof.
  intros Hops Hys Hl Hq. destruct (len4 _ Hl) as (y0 & y1 & y2 & y3 & ->). cbv zeta.
  assert (Q4 : lanes 4 q = map (fun z => z mod 2 ^ 32) (map (n_cvt8 ops) [y0; y1; y2; y3])).
  { subst q. unfold v_cvt8. rewrite (lanes4 [y0; y1; y2; y3]), (map_mod_id (2 ^ 32) [y0; y1; y2; y3]) by exact Hys. apply lanes4. }
  assert (Lq : skipn 8 q = vec 4 [n_cvt8 ops y2; n_cvt8 ops y3]).
  { subst q. unfold v_cvt8. rewrite (lanes4 [y0; y1; y2; y3]), (map_mod_id (2 ^ 32) [y0; y1; y2; y3]) by exact Hys. reflexivity. }
  rewrite Q4. cbn [map].
  assert (RS : forall y, rshrn 8 (n_cvt8 ops y mod 2 ^ 32) = clampz (-32768) 32767 (n_cvtns (a32 ops) y)).
  { intros y. unfold rshrn. rewrite sgnm by (apply (no_cvt8 ops Hops)). reflexivity. }
  rewrite !RS. unfold v_dset. rewrite !Lq.
  set (c0 := clampz (-32768) 32767 (n_cvtns (a32 ops) y0)). set (c1 := clampz (-32768) 32767 (n_cvtns (a32 ops) y1)).
  set (c2 := clampz (-32768) 32767 (n_cvtns (a32 ops) y2)). set (c3 := clampz (-32768) 32767 (n_cvtns (a32 ops) y3)).
  assert (V4 : exists e0 e1 e2 e3, vec 4 [n_cvt8 ops y2; n_cvt8 ops y3] = vec 2 [e0; e1; e2; e3]).
  { exists (n_cvt8 ops y2), (n_cvt8 ops y2 / 256 / 256), (n_cvt8 ops y3), (n_cvt8 ops y3 / 256 / 256). reflexivity. }
  destruct V4 as (e0 & e1 & e2 & e3 & V4). rewrite !V4. change (vec 2 [c0; c1; c2; c3] ++ vec 2 [e0; e1; e2; e3]) with (vec 2 [c0; c1; c2; c3; e0; e1; e2; e3]).
  rewrite lanes2. cbn [map]. unfold c0, c1, c2, c3. rewrite !sat_sat. reflexivity.
Qed.

Section Block.
  Variables (ops : nops) (E : env) (t : dtype) (o : otparams) (L R : list Z) (ls rs G : Z).
  Hypothesis (Hops : nops_ok ops) (Ht : is_bits t = false).
  Hypothesis (EL : e_lhs E = L) (ER : e_rhs E = R) (EM : e_mul E = p_mul o) (EB : e_bias E = p_bias o).
  Hypothesis (P52 : e_par E 52 = Some (Int (p_cmin o))) (P56 : e_par E 56 = Some (Int (p_cmax o)))
    (P60 : e_par E 60 = Some (Ptr RMul 0)) (P64 : e_par E 64 = Some (Ptr RBias 0)).
  Hypothesis (Hmin : int32 (p_cmin o)) (Hmax : int32 (p_cmax o)) (Hmul : Forall pat (p_mul o)) (Hbias : Forall pat (p_bias o)).
  Hypothesis (HG : 1 <= G) (HG2 : 128 * G < 2 ^ 30).

  (** 302-322 *)
  Lemma wp_load32 f g fl tm lg row a b (Q : st -> Prop) :
    g LHS_COL = Ptr RLhs (4 * a) -> g RHS_COL = Ptr RRhs (4 * b) -> g ROW = Int row ->
    0 <= row -> row + 4 <= zlen (p_mul o) -> row + 4 <= zlen (p_bias o) -> 0 <= a -> a + 16 <= zlen L -> 0 <= b -> b + 16 <= zlen R ->
    (forall f' g', lregs L a f' 0 0 -> rregs R b f' 4 0 -> ptrs a b g' 1 ->
       f' 14%nat = vec 4 (wlist (p_mul o) row 4) -> f' 15%nat = vec 4 (wlist (p_bias o) row 4) ->
       (forall q, (8 <= q < 12)%nat -> f' q = f q) -> same_x [Xr 1; Xr 4; Xr 5; Xr 8; LHS; RHS] g' g -> Q (mk f' g' fl tm lg)) ->
    wp (exec ops E k32_load (mk f g fl tm lg)) Q.
  Proof.
    intros GL GRh GR Hrow Hm Hb Ha Hal Hb0 Hbl HQ. unfold k32_load. cbn [app].
    apply wp_exec_cons, wp_movx, wp_exec_cons, wp_movx, wp_exec_cons, wp_movx, wp_exec_cons, wp_movx, wp_exec_cons. eapply wp_ldrx; [exact P60|].
    apply wp_exec_cons, wp_movx.
    apply wp_exec_cons. eapply (wp_addx _ _ _ _ _ _ RMul 0 row); [reflexivity|cbn [xupd xeqb Nat.eqb]; exact GR|].
    apply wp_exec_cons. eapply (wp_ld1 _ _ _ _ _ _ _ _ _ RMul (p_mul o) row); [cbn [xupd xeqb Nat.eqb]; f_equal; change (2 ^ 2) with 4; ring|exact EM|lia|lia|].
    apply wp_exec_cons. eapply wp_ldrx; [exact P64|].
    apply wp_exec_cons. eapply (wp_addx _ _ _ _ _ _ RBias 0 row); [reflexivity|cbn [xupd xeqb Nat.eqb]; exact GR|].
    apply wp_exec_cons. eapply (wp_ld1 _ _ _ _ _ _ _ _ _ RBias (p_bias o) row); [cbn [xupd xeqb Nat.eqb]; f_equal; change (2 ^ 2) with 4; ring|exact EB|lia|lia|].
    apply (wp_loads32 ops E L R a b 1 EL ER Ha Hb0 ltac:(lia) ltac:(lia) 0); [lia| |].
    { unfold ptrs. rewrite !Z.mul_0_r, !Z.add_0_r. cbn [xupd xeqb Nat.eqb]. auto. }
    intros f' g' A1 A2 A3 A4 A5. apply HQ; [exact A1|exact A2|exact A4| | | |].
    - rewrite A3 by lia. reflexivity.
    - rewrite A3 by lia. reflexivity.
    - intros q Hq. rewrite A3 by lia. rewrite !vupd_other by (apply Nat.eqb_neq; lia). reflexivity.
    - eapply same_x_trans; [intros q Hq; apply A5; cbn [forallb] in *; destruct (xeqb q LHS), (xeqb q RHS); rewrite ?andb_false_r in Hq; (reflexivity || discriminate)|]. sx.
  Qed.

  (** 325-391 *)
  Lemma outs32_ok row col j f c : row mod 4 = 0 -> col mod 4 = 0 -> 0 <= j < 4 ->
    f = vec 4 (accs L R (row * ls) (col * rs) j G) ->
    c = v_fadd ops (v_fmul ops (v_scvtf ops (v_smin (v_smax (v_shl4 1 f) (v_dup4 (p_cmin o mod 2 ^ 32))) (v_dup4 (p_cmax o mod 2 ^ 32))))
          (vec 4 (wlist (p_mul o) row 4))) (vec 4 (wlist (p_bias o) row 4)) ->
    (is_float t = true -> firstn 16 c = vec (esize t) (outs (a32 ops) t o L R ls rs G row (col + j))) /\
    (is_float t = false ->
       let q := v_cvt8 ops c in let q1 := v_dset q false (vec 2 (map (rshrn 8) (lanes 4 q))) in
       firstn 4 (v_dset q1 false (vec 1 (map sat8 (lanes 2 q1)))) = vec (esize t) (outs (a32 ops) t o L R ls rs G row (col + j))).
  Proof.
    intros Hr Hc Hj -> ->.
    assert (EA : accs L R (row * ls) (col * rs) j G = [pacc 4 L R ls rs G row (col + j); pacc 4 L R ls rs G (row + 1) (col + j);
              pacc 4 L R ls rs G (row + 2) (col + j); pacc 4 L R ls rs G (row + 3) (col + j)]).
    { unfold accs. rewrite !accv_pacc by (assumption || lia). rewrite Z.add_0_r. reflexivity. }
    rewrite EA. assert (PB := fun i j => pacc_bounds 4 L R ls rs G i j ltac:(lia)).
    rewrite shl4_ok by (repeat constructor; match goal with |- context [pacc 4 L R ls rs G ?i ?j] => specialize (PB i j) end; lia).
    rewrite trans4; [|exact Hops|exact Hmin|exact Hmax| |apply wlist_pat, Hmul|apply wlist_pat, Hbias|reflexivity].
    2:{ cbn [map]. repeat constructor; match goal with |- context [pacc 4 L R ls rs G ?i ?j] => specialize (PB i j) end; unfold int32; lia. }
    cbn [wlist map zipw]. replace (row + 1 + 1) with (row + 2) by ring. replace (row + 2 + 1) with (row + 3) by ring.
    assert (SP : is_float t = true -> esize t = 4%nat /\ is_int8 t = false) by (destruct t; cbn; intuition discriminate).
    assert (SI : is_float t = false -> esize t = 1%nat /\ is_int8 t = true) by (destruct t; cbn in *; intuition discriminate).
    split; intros Hf.
    - destruct (SP Hf) as [-> Hi]. unfold outs, V44, oval. rewrite Hi. reflexivity.
    - destruct (SI Hf) as [-> Hi]. match goal with |- context [v_cvt8 ops (vec 4 ?ys)] => assert (I8 := fun H => int8_32 ops ys (v_cvt8 ops (vec 4 ys)) Hops H eq_refl eq_refl) end. cbv zeta in *. rewrite I8.
      2:{ repeat (constructor; [apply tval_pat, Hops|]). constructor. }
      unfold outs, V44, oval. rewrite Hi. reflexivity.
  Qed.

  Lemma wp_transform32 f g fl tm lg row col (Q : st -> Prop) : row mod 4 = 0 -> col mod 4 = 0 ->
    aregs32 L R (row * ls) (col * rs) f G -> f 14%nat = vec 4 (wlist (p_mul o) row 4) -> f 15%nat = vec 4 (wlist (p_bias o) row 4) ->
    (forall f' g', (forall j, 0 <= j < 4 -> firstn (4 * esize t) (f' (8 + Z.to_nat j)%nat) = vec (esize t) (outs (a32 ops) t o L R ls rs G row (col + j))) ->
       (forall q, (q < 8)%nat -> f' q = f q) -> same_x [Xr 1; Xr 2] g' g -> Q (mk f' g' fl tm lg)) ->
    wp (exec ops E (k32_transform t) (mk f g fl tm lg)) Q.
  Proof.
    intros Hr Hc (A0 & A1 & A2 & A3) F14 F15 HQ. unfold k32_transform.
    apply wp_exec_app, wp_exec_cons. eapply wp_ldrw; [exact P52|]. apply wp_exec_cons. eapply wp_dup; [reflexivity|apply mod32_range|]. cbn [exec wp].
    apply wp_exec_app. change (each (fun r : nat => VSHL4 r r 1) [8; 9; 10; 11]%nat) with (map V (map (fun r => VSHL4 r r 1) [8; 9; 10; 11]%nat)).
    apply wp_vs.
    apply wp_exec_app, wp_exec_cons. eapply wp_ldrw; [exact P56|]. apply wp_exec_cons. eapply wp_dup; [reflexivity|apply mod32_range|]. cbn [exec wp].
    set (vs1 := map (fun r => VSMAX r r 12) [8; 9; 10; 11]%nat ++ map (fun r => VSMIN r r 13) [8; 9; 10; 11]%nat ++
                map (fun r => VSCVTF r r) [8; 9; 10; 11]%nat ++ map (fun r => VFMUL r r 14) [8; 9; 10; 11]%nat ++
                map (fun r => VFADD r r 15) [8; 9; 10; 11]%nat).
    set (vs2 := map (fun r => VCVT8 r r) [8; 9; 10; 11]%nat ++ map (fun r => VQRSHRN (2 * r) r 8) [8; 9; 10; 11]%nat ++
                map (fun r => VQMOVN (2 * r) r) [8; 9; 10; 11]%nat).
    assert (O := fun j f c Hj => outs32_ok row col j f c Hr Hc Hj).
    assert (J : forall (P : Z -> Prop), P 0 -> P 1 -> P 2 -> P 3 -> forall j, 0 <= j < 4 -> P j).
    { intros P P0 P1 P2 P3 j Hj. assert (j = 0 \/ j = 1 \/ j = 2 \/ j = 3) as [-> | [-> | [-> | ->]]] by lia; assumption. }
    destruct (is_float t) eqn:Hf.
    - assert (Hi : is_int8 t = false) by (destruct t; [reflexivity|discriminate|discriminate]).
      assert (He : esize t = 4%nat) by (unfold esize; rewrite Hf; reflexivity).
      match goal with |- wp (exec ops E ?c _) _ => change c with (map V vs1 ++ when (is_int8 t) (map V vs2)) end.
      rewrite Hi. cbn [when]. rewrite app_nil_r. apply wp_vs. apply HQ.
      + apply J; rewrite He in *; cbn [Nat.mul Nat.add Z.to_nat].
        * apply (O 0 _ _ ltac:(lia) A0); [|reflexivity]. rewrite <- F14, <- F15. vs_ok.
        * apply (O 1 _ _ ltac:(lia) A1); [|reflexivity]. rewrite <- F14, <- F15. change (Pos.to_nat 1) with 1%nat. vs_ok.
        * apply (O 2 _ _ ltac:(lia) A2); [|reflexivity]. rewrite <- F14, <- F15. change (Pos.to_nat 2) with 2%nat. vs_ok.
        * apply (O 3 _ _ ltac:(lia) A3); [|reflexivity]. rewrite <- F14, <- F15. change (Pos.to_nat 3) with 3%nat. vs_ok.
      + intros q Hq. do 8 (destruct q as [|q]; [reflexivity|]). lia.
      + sx.
    - assert (Hi : is_int8 t = true) by (destruct t; [discriminate|reflexivity|discriminate]).
      assert (He : esize t = 1%nat) by (unfold esize; rewrite Hf; reflexivity).
      match goal with |- wp (exec ops E ?c _) _ => change c with (map V vs1 ++ when (is_int8 t) (map V vs2)) end.
      rewrite Hi. cbn [when]. rewrite <- map_app. apply wp_vs. apply HQ.
      + apply J; rewrite He in *; cbn [Nat.mul Nat.add Z.to_nat].
        * rewrite <- (proj2 (O 0 _ _ ltac:(lia) A0 eq_refl) eq_refl). rewrite <- F14, <- F15. reflexivity.
        * rewrite <- (proj2 (O 1 _ _ ltac:(lia) A1 eq_refl) eq_refl). rewrite <- F14, <- F15. reflexivity.
        * rewrite <- (proj2 (O 2 _ _ ltac:(lia) A2 eq_refl) eq_refl). rewrite <- F14, <- F15. reflexivity.
        * rewrite <- (proj2 (O 3 _ _ ltac:(lia) A3 eq_refl) eq_refl). rewrite <- F14, <- F15. reflexivity.
      + intros q Hq. do 8 (destruct q as [|q]; [reflexivity|]). lia.
      + sx.
  Qed.
End Block.
