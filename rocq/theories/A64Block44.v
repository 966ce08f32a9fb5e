(** * A64Block44: one 4x4 block of BinaryKernelNeon4x4. *)
From Verif Require Import Base Spec Bits Log Bgemm A64 A64Bgemm A64Lemmas A64K44 A64Store A64Trans A64Seg.
Open Scope Z_scope.

Lemma bp_bounds r l : length r = 4%nat -> length l = 4%nat -> 0 <= bp r l <= 128.
Proof.
  intros Hr Hl. destruct (len4 _ Hr) as (a & b & c & d & ->). destruct (len4 _ Hl) as (a' & b' & c' & d' & ->).
  unfold bp, sumz. cbn [zipw map fold_right].
  assert (A := popcount32_bounds (Z.lxor a a')). assert (B := popcount32_bounds (Z.lxor b b')).
  assert (C := popcount32_bounds (Z.lxor c c')). assert (D := popcount32_bounds (Z.lxor d d')). lia.
Qed.
Lemma wat_pat l k : Forall pat l -> pat (wat l k).
Proof.
  intros H. unfold wat. destruct (rd l k) as [v|] eqn:Er; [|unfold pat; lia]. unfold rd in Er. destruct (k <? 0); [discriminate|].
  apply nth_error_In in Er. rewrite Forall_forall in H. apply H, Er.
Qed.
Lemma wlist_pat l n : forall k, Forall pat l -> Forall pat (wlist l k n).
Proof. induction n as [|n IH]; intros k H; cbn [wlist]; constructor; [apply wat_pat, H|apply IH, H]. Qed.

(** The accumulator of element (i, j) of a product of packed matrices with
    [lb]/[rbk]-column blocks. *)
Definition grp (b : Z) (L : list Z) (ls i g : Z) : list Z := wlist L ((i - i mod b) * ls + 4 * b * g + 4 * (i mod b)) 4.
Definition pacc (lb : Z) (L R : list Z) (ls rs G i j : Z) : Z := sum_ G (fun g => bp (grp 4 R rs j g) (grp lb L ls i g)).
Lemma pacc_bounds lb L R ls rs G i j : 0 <= G -> 0 <= pacc lb L R ls rs G i j <= 128 * G.
Proof.
  intros HG. unfold pacc. assert (B : forall g, 0 <= bp (grp 4 R rs j g) (grp lb L ls i g) <= 128) by (intros g; apply bp_bounds; apply wlist_length).
  split; [apply sum_nonneg; intros g _; apply B|].
  replace (128 * G) with (sum_ G (fun _ => 128)) by (rewrite sum_const by lia; ring). apply sum_mono. intros g _. apply B.
Qed.
(** The output value: a float pattern or an int8. *)
Definition oval (ops : nops) (t : dtype) (o : otparams) (acc i : Z) : Z :=
  let y := tval ops (p_cmin o) (p_cmax o) (2 * acc) (wat (p_mul o) i) (wat (p_bias o) i) in
  if is_int8 t then sat8z (n_cvtns ops y) else y.

Ltac vs_ok := cbv [vrun fold_left vexec1 vupd Nat.eqb map app sv mk Nat.add]; reflexivity.
Section Block.
  Variables (ops : nops) (E : env) (t : dtype) (o : otparams) (L R : list Z) (ls rs G : Z).
  Hypothesis (Hops : nops_ok ops) (Ht : is_bits t = false).
  Hypothesis (EL : e_lhs E = L) (ER : e_rhs E = R) (EM : e_mul E = p_mul o) (EB : e_bias E = p_bias o).
  Hypothesis (P64 : e_par E 64 = Some (Int (p_cmin o))) (P68 : e_par E 68 = Some (Int (p_cmax o)))
    (P72 : e_par E 72 = Some (Ptr RMul 0)) (P80 : e_par E 80 = Some (Ptr RBias 0)).
  Hypothesis (Hmin : int32 (p_cmin o)) (Hmax : int32 (p_cmax o)) (Hmul : Forall pat (p_mul o)) (Hbias : Forall pat (p_bias o)).
  Hypothesis (HG : 1 <= G) (HG2 : 128 * G < 2 ^ 30).
  Definition V44 (i j : Z) : Z := oval ops t o (pacc 4 L R ls rs G i j) i.

  Lemma accv_pacc row col i j : row mod 4 = 0 -> col mod 4 = 0 -> 0 <= i < 4 -> 0 <= j < 4 ->
    accv L R (row * ls) (col * rs) i j G = pacc 4 L R ls rs G (row + i) (col + j).
  Proof.
    intros Hr Hc Hi Hj. unfold accv, pacc. apply sum_ext. intros g _. unfold grp, Rg, Lg.
    assert (M : forall a b, a mod 4 = 0 -> 0 <= b < 4 -> (a + b) mod 4 = b) by (intros; Z.to_euclidean_division_equations; lia).
    rewrite (M row i), (M col j) by assumption. replace (row + i - i) with row by ring. replace (col + j - j) with col by ring. reflexivity.
  Qed.

  (** 335-354 *)
  Lemma wp_load f g fl tm lg row a b (Q : st -> Prop) :
    g LHS_COL = Ptr RLhs (4 * a) -> g RHS_COL = Ptr RRhs (4 * b) -> g ROW = Int row ->
    0 <= row -> row + 4 <= zlen (p_mul o) -> row + 4 <= zlen (p_bias o) -> 0 <= a -> a + 16 <= zlen L -> 0 <= b -> b + 16 <= zlen R ->
    (forall f' g', lregs L a f' 0 0 -> rregs R b f' 4 0 -> ptrs a b g' 1 ->
       f' 14%nat = vec 4 (wlist (p_mul o) row 4) -> f' 15%nat = vec 4 (wlist (p_bias o) row 4) ->
       (forall q, (24 <= q < 28)%nat -> f' q = f q) -> same_x [Xr 1; LHS; RHS] g' g -> Q (mk f' g' fl tm lg)) ->
    wp (exec ops E k44_load (mk f g fl tm lg)) Q.
  Proof.
    intros GL GRh GR Hrow Hm Hb Ha Hal Hb0 Hbl HQ. unfold k44_load.
    apply wp_exec_cons, wp_movx, wp_exec_cons, wp_movx, wp_exec_cons. eapply wp_ldrx; [exact P72|].
    apply wp_exec_cons. eapply (wp_addx _ _ _ _ _ _ RMul 0 row); [reflexivity|rewrite !xupd_other by reflexivity; exact GR|].
    apply wp_exec_cons. eapply (wp_ld1 _ _ _ _ _ _ _ _ _ RMul (p_mul o) row); [cbn [xupd xeqb Nat.eqb]; f_equal; change (2 ^ 2) with 4; ring|exact EM|lia|lia|].
    apply wp_exec_cons. eapply wp_ldrx; [exact P80|].
    apply wp_exec_cons. eapply (wp_addx _ _ _ _ _ _ RBias 0 row); [reflexivity|rewrite !xupd_other by reflexivity; exact GR|].
    apply wp_exec_cons. eapply (wp_ld1 _ _ _ _ _ _ _ _ _ RBias (p_bias o) row); [cbn [xupd xeqb Nat.eqb]; f_equal; change (2 ^ 2) with 4; ring|exact EB|lia|lia|].
    apply wp_exec_cons. eapply (wp_ld4 _ _ _ _ _ _ _ _ _ _ _ _ RLhs L a); [exact GL|exact EL|lia|lia|].
    apply wp_exec_cons. eapply (wp_ld4 _ _ _ _ _ _ _ _ _ _ _ _ RRhs R b); [exact GRh|exact ER|lia|lia|].
    cbn [exec wp]. apply HQ.
    - unfold lregs, Lg. rewrite !Z.mul_0_r, !Z.add_0_r. cbn [Nat.add vupd Nat.eqb]. auto.
    - unfold rregs, Rg. rewrite !Z.mul_0_r, !Z.add_0_r. cbn [Nat.add vupd Nat.eqb]. auto.
    - unfold ptrs. cbn [xupd xeqb Nat.eqb]. rewrite !Z.mul_1_r. auto.
    - reflexivity.
    - reflexivity.
    - intros q Hq. rewrite !vupd_other by (apply Nat.eqb_neq; lia). reflexivity.
    - sx.
  Qed.

  (** 356-416 *)
  Definition outs (row j : Z) : list Z := [V44 row j; V44 (row + 1) j; V44 (row + 2) j; V44 (row + 3) j].
  Lemma outs_ok row col j f c : row mod 4 = 0 -> col mod 4 = 0 -> 0 <= j < 4 ->
    f = vec 4 (accs L R (row * ls) (col * rs) j G) ->
    c = v_fadd ops (v_fmul ops (v_scvtf ops (v_smin (v_smax (v_shl4 1 f) (v_dup4 (p_cmin o mod 2 ^ 32))) (v_dup4 (p_cmax o mod 2 ^ 32))))
          (vec 4 (wlist (p_mul o) row 4))) (vec 4 (wlist (p_bias o) row 4)) ->
    (is_float t = true -> firstn 16 c = vec (esize t) (outs row (col + j))) /\
    (is_float t = false -> firstn 4 (v_sqxtn8b (v_sqxtn4h (v_fcvtns ops c))) = vec (esize t) (outs row (col + j))).
  Proof.
    intros Hr Hc Hj -> ->.
    assert (EA : accs L R (row * ls) (col * rs) j G = [pacc 4 L R ls rs G row (col + j); pacc 4 L R ls rs G (row + 1) (col + j);
              pacc 4 L R ls rs G (row + 2) (col + j); pacc 4 L R ls rs G (row + 3) (col + j)]).
    { unfold accs. rewrite !accv_pacc by (assumption || lia). rewrite Z.add_0_r. reflexivity. }
    rewrite EA. assert (PB := fun i j => pacc_bounds 4 L R ls rs G i j ltac:(lia)).
    rewrite shl4_ok by (repeat constructor; match goal with |- context [pacc 4 L R ls rs G ?i ?j] => specialize (PB i j) end; lia).
    rewrite trans4; [|exact Hops|exact Hmin|exact Hmax| |apply wlist_pat, Hmul|apply wlist_pat, Hbias|reflexivity].
    2:{ cbn [map]. repeat constructor; match goal with |- context [pacc 4 L R ls rs G ?i ?j] => specialize (PB i j) end; unfold int32; lia. }
    cbn [wlist map zipw]. replace (row + 1 + 1) with (row + 2) by ring. replace (row + 2 + 1) with (row + 3) by ring.
    assert (SP : is_float t = true -> esize t = 4%nat /\ is_int8 t = false) by (destruct t; cbn; intuition discriminate).
    assert (SI : is_float t = false -> esize t = 1%nat /\ is_int8 t = true) by (destruct t; cbn in *; intuition discriminate).
    split; intros Hf.
    - destruct (SP Hf) as [-> Hi]. unfold outs, V44, oval. rewrite Hi. reflexivity.
    - destruct (SI Hf) as [-> Hi]. rewrite int8_4; [|exact Hops|repeat (constructor; [apply tval_pat, Hops|]); constructor|reflexivity].
      unfold outs, V44, oval. rewrite Hi. reflexivity.
  Qed.

  Lemma wp_transform f g fl tm lg row col (Q : st -> Prop) : row mod 4 = 0 -> col mod 4 = 0 ->
    aregs L R (row * ls) (col * rs) f G G G G -> f 14%nat = vec 4 (wlist (p_mul o) row 4) -> f 15%nat = vec 4 (wlist (p_bias o) row 4) ->
    (forall f' g', (forall j, 0 <= j < 4 -> firstn (4 * esize t) (f' (24 + Z.to_nat j)%nat) = vec (esize t) (outs row (col + j))) ->
       (forall q, (q < 8)%nat -> f' q = f q) -> same_x [Xr 2; Xr 3] g' g -> Q (mk f' g' fl tm lg)) ->
    wp (exec ops E (k44_transform t) (mk f g fl tm lg)) Q.
  Proof.
    intros Hr Hc (A0 & A1 & A2 & A3) F14 F15 HQ. unfold k44_transform.
    apply wp_exec_app, wp_exec_cons. eapply wp_ldrw; [exact P64|]. apply wp_exec_cons. eapply wp_dup; [reflexivity|apply mod32_range|]. cbn [exec wp].
    apply wp_exec_app. change (each (fun r : nat => VSHL4 r r 1) [24; 25; 26; 27]%nat) with (map V (map (fun r => VSHL4 r r 1) [24; 25; 26; 27]%nat)).
    apply wp_vs.
    apply wp_exec_app, wp_exec_cons. eapply wp_ldrw; [exact P68|]. apply wp_exec_cons. eapply wp_dup; [reflexivity|apply mod32_range|]. cbn [exec wp].
    set (vs1 := map (fun r => VSMAX r r 12) [24; 25; 26; 27]%nat ++ map (fun r => VSMIN r r 13) [24; 25; 26; 27]%nat ++
                map (fun r => VSCVTF r r) [24; 25; 26; 27]%nat ++ map (fun r => VFMUL r r 14) [24; 25; 26; 27]%nat ++
                map (fun r => VFADD r r 15) [24; 25; 26; 27]%nat).
    set (vs2 := map (fun r => VFCVTNS r r) [24; 25; 26; 27]%nat ++ map (fun r => VSQXTN4H r r) [24; 25; 26; 27]%nat ++
                map (fun r => VSQXTN8B r r) [24; 25; 26; 27]%nat).
    assert (O := fun j f c Hj => outs_ok row col j f c Hr Hc Hj).
    assert (J : forall (P : Z -> Prop), P 0 -> P 1 -> P 2 -> P 3 -> forall j, 0 <= j < 4 -> P j).
    { intros P P0 P1 P2 P3 j Hj. assert (j = 0 \/ j = 1 \/ j = 2 \/ j = 3) as [-> | [-> | [-> | ->]]] by lia; assumption. }
    destruct (is_float t) eqn:Hf.
    - assert (Hi : is_int8 t = false) by (destruct t; [reflexivity|discriminate|discriminate]).
      assert (He : esize t = 4%nat) by (unfold esize; rewrite Hf; reflexivity).
      match goal with |- wp (exec ops E ?c _) _ => change c with (map V vs1 ++ when (is_int8 t) (map V vs2)) end.
      rewrite Hi. cbn [when]. rewrite app_nil_r. apply wp_vs. apply HQ.
      + apply J; rewrite He in *; cbn [Nat.mul Nat.add Z.to_nat].
        * apply (O 0 _ _ ltac:(lia) A0); [|reflexivity]. rewrite <- F14, <- F15. vs_ok.
        * apply (O 1 _ _ ltac:(lia) A1); [|reflexivity]. rewrite <- F14, <- F15. change (Pos.to_nat 1) with 1%nat. vs_ok.
        * apply (O 2 _ _ ltac:(lia) A2); [|reflexivity]. rewrite <- F14, <- F15. change (Pos.to_nat 2) with 2%nat. vs_ok.
        * apply (O 3 _ _ ltac:(lia) A3); [|reflexivity]. rewrite <- F14, <- F15. change (Pos.to_nat 3) with 3%nat. vs_ok.
      + intros q Hq. do 8 (destruct q as [|q]; [reflexivity|]). lia.
      + sx.
    - assert (Hi : is_int8 t = true) by (destruct t; [discriminate|reflexivity|discriminate]).
      assert (He : esize t = 1%nat) by (unfold esize; rewrite Hf; reflexivity).
      match goal with |- wp (exec ops E ?c _) _ => change c with (map V vs1 ++ when (is_int8 t) (map V vs2)) end.
      rewrite Hi. cbn [when]. rewrite <- map_app. apply wp_vs. apply HQ.
      + apply J; rewrite He in *; cbn [Nat.mul Nat.add Z.to_nat].
        * rewrite <- (proj2 (O 0 _ _ ltac:(lia) A0 eq_refl) eq_refl). rewrite <- F14, <- F15. vs_ok.
        * rewrite <- (proj2 (O 1 _ _ ltac:(lia) A1 eq_refl) eq_refl). rewrite <- F14, <- F15. change (Pos.to_nat 1) with 1%nat. vs_ok.
        * rewrite <- (proj2 (O 2 _ _ ltac:(lia) A2 eq_refl) eq_refl). rewrite <- F14, <- F15. change (Pos.to_nat 2) with 2%nat. vs_ok.
        * rewrite <- (proj2 (O 3 _ _ ltac:(lia) A3 eq_refl) eq_refl). rewrite <- F14, <- F15. change (Pos.to_nat 3) with 3%nat. vs_ok.
      + intros q Hq. do 8 (destruct q as [|q]; [reflexivity|]). lia.
      + sx.
  Qed.
End Block.
