(** * A64IndTrans: the output transform statements of the indirect kernels. *)
From Verif Require Import Base Spec Bits Log Bgemm Indirect A64 A64Bgemm A64Lemmas A64K44 A64Store A64Trans A64Seg A64Loop44 A64Block44 A64Block84 A64Ind A64IndBlk A64IndLoop A64IndAcc.
Open Scope Z_scope.

Section Progs.
  Variables (ops : nops) (o : otparams) (pw input zero : list Z) (ibuf : list iptr).
  Notation E := (ienv pw input zero ibuf o).
  Variables (D : nat) (grouped : bool) (ip ido kb c : Z) (q : nat -> iptr).
  Notation Dz := (Z.of_nat D).
  Definition oq (i : nat) : Z := ioff (q i) + ido.
  Hypothesis Hg : grouped = false -> ido = 0.
  Hypothesis Hkb : 0 <= kb.
  Hypothesis Hkl : kb + 8 * Dz <= zlen pw.
  Hypothesis Hc : 0 <= c.
  Hypothesis Hmu : c + 8 <= zlen (p_mul o).
  Hypothesis Hbi : c + 8 <= zlen (p_bias o).
  Hypothesis Hq : forall i, (i < 4)%nat -> rd ibuf (ip + Z.of_nat i) = Some (q i).
  Hypothesis Hin : forall i, (i < 4)%nat -> 0 <= oq i /\ oq i + Dz <= zlen (imem E (q i)).
  Definition tr (a : list Z) (k : Z) : list Z :=
    v_fadd ops (v_fmul ops (v_scvtf ops (v_smin (v_smax a (vec 4 [p_cmin o; p_cmin o; p_cmin o; p_cmin o])) (vec 4 [p_cmax o; p_cmax o; p_cmax o; p_cmax o])))
      (vec 4 (wlist (p_mul o) k 4))) (vec 4 (wlist (p_bias o) k 4)).
  Definition narrow (a b : list Z) : list Z := v_sqxtn8b (v_sqxtn8h (v_sqxtn4h (v_fcvtns ops a)) (v_fcvtns ops b)).
  Variables (f : nat -> list Z) (g : xreg -> val) (fl : Z * Z) (tm : list Z) (lg : list (Z * Z)).
  Hypothesis GI : g IND = Ptr RInd (8 * ip).
  Hypothesis GW : g W_PTR = Ptr RLhs (4 * (kb + 8 * Dz)).
  Hypothesis GD : g IDO = Int ido.
  Hypothesis GB : g IDOB = Int (4 * ido).
  Hypothesis Gmin : g CMIN = Ptr RPar 0.
  Hypothesis Gmax : g CMAX = Ptr RPar 4.
  Hypothesis GM : g MULA = Ptr RMul (4 * c).
  Hypothesis GBi : g BIASA = Ptr RBias (4 * c).
  Hypothesis GO : g OTA = Ptr RPar 0.
  Hypothesis GC : g COUT = Int c.
  Record tspec (i8 : bool) (s : st) : Prop := {
    ts_w : forall i, (i < 2 * D)%nat -> sv s (rw i) = vec 4 (wlist pw (kb + 4 * Z.of_nat i) 4);
    ts_a : forall i, (i < 4)%nat -> sv s (ra i) = vec 4 (rep D (wlist (imem E (q i)) (oq i) D));
    ts_r : forall i, (i < 4)%nat -> if i8 then sv s (rs i 0) = narrow (tr (v_ushll 1 (f (rc i))) c) (tr (v_ushll2 1 (f (rc i))) (c + 4))
      else sv s (rs i 0) = tr (v_ushll 1 (f (rc i))) c /\ sv s (rs i 1) = tr (v_ushll2 1 (f (rc i))) (c + 4) }.
  Definition ptr0 (i : nat) : val := Ptr (ireg (q i)) (4 * (if grouped then ioff (q i) else oq i)).
  Lemma rd0 i : (i < 4)%nat -> rd (e_ind E) (ip + Z.of_nat i) = Some (ptr0 i).
  Proof.
    intros Hi. etransitivity; [exact (rd_map_some vptr ibuf _ _ (Hq i Hi))|]. rewrite vptr_eq. unfold ptr0. destruct grouped; [reflexivity|].
    unfold oq. rewrite (Hg eq_refl), Z.add_0_r. reflexivity.
  Qed.
  Lemma pairs01 off m i : off = 8 * m -> m = Z.of_nat i -> (i + 1 < 4)%nat ->
    exists m, off = 8 * m /\ rd (e_ind E) (ip + m) = Some (ptr0 i) /\ rd (e_ind E) (ip + m + 1) = Some (ptr0 (i + 1)).
  Proof.
    intros -> -> Hi. exists (Z.of_nat i). split; [reflexivity|]. split; [apply rd0; lia|].
    rewrite <- (rd0 (i + 1)) by lia. f_equal. lia.
  Qed.
  Lemma st_addx4 d a r o1 o2 blk f1 g1 (Q : st -> Prop) : g1 a = Ptr r o1 -> g1 IDO = Int ido -> o1 + ido * 2 ^ 2 = o2 ->
    wp (exec ops E blk (mk f1 (xupd g1 d (Ptr r o2)) fl tm lg)) Q -> wp (exec ops E (ADDX d a IDO 2 :: blk) (mk f1 g1 fl tm lg)) Q.
  Proof. intros Ha Hb <- HQ. eapply st_addx; eassumption. Qed.
  Ltac stv := repeat (match goal with |- wp (exec _ _ (V _ :: _) _) _ => refine (st_v _ _ _ _ _ _ _ _ _ _ _) end).
  Ltac ldw off := apply (st_ldrq ops E (kb + off) RLhs pw _ _ _ (4 * (kb + 8 * Dz))); [exact GW|lia|reflexivity|lia|lia|]; stv.
  Ltac ldm off := apply (st_ldrq ops E off RMul (p_mul o) _ _ _ (4 * c)); [exact GM|lia|reflexivity|lia|lia|]; stv.
  Ltac ldb off := apply (st_ldrq ops E off RBias (p_bias o) _ _ _ (4 * c)); [exact GBi|lia|reflexivity|lia|lia|]; stv.
  Ltac ldp := apply (st_ldpx ops E _ _ _ _ ip (ptr0 0) (ptr0 1)); [exact GI|apply (pairs01 0 0 0%nat); [reflexivity|reflexivity|lia]|]; stv.
  Ltac ldp2 := apply (st_ldpx ops E _ _ _ _ ip (ptr0 2) (ptr0 3)); [exact GI|apply (pairs01 16 2 2%nat); [reflexivity|reflexivity|lia]|]; stv.
  Ltac par off z := apply (st_ld1rpar ops E _ _ off z); [exact Gmin || exact Gmax || exact GO || reflexivity|reflexivity|reflexivity|]; stv.
  Ltac gad Eg := apply (st_addx4 (Xr 0) (Xr 0) (ireg (q 0%nat)) (4 * ioff (q 0%nat)) (4 * oq 0)); [unfold ptr0; rewrite Eg; reflexivity|exact GD|unfold oq; ring|];
    apply (st_addx4 (Xr 1) (Xr 1) (ireg (q 1%nat)) (4 * ioff (q 1%nat)) (4 * oq 1)); [unfold ptr0; rewrite Eg; reflexivity|exact GD|unfold oq; ring|];
    apply (st_addx4 (Xr 2) (Xr 2) (ireg (q 2%nat)) (4 * ioff (q 2%nat)) (4 * oq 2)); [unfold ptr0; rewrite Eg; reflexivity|exact GD|unfold oq; ring|];
    apply (st_addx4 (Xr 3) (Xr 3) (ireg (q 3%nat)) (4 * ioff (q 3%nat)) (4 * oq 3)); [unfold ptr0; rewrite Eg; reflexivity|exact GD|unfold oq; ring|]; stv.
  Ltac lda lem i Eg := apply (lem ops E (oq i) (ireg (q i)) (imem E (q i))); [first [reflexivity|unfold ptr0; rewrite Eg; reflexivity]|apply ireg_ok|pose proof (Hin i ltac:(lia)); lia|pose proof (Hin i ltac:(lia)); lia|]; stv.
  Ltac each t := let i := fresh "i" in let H := fresh "Hi" in intros i H; do 8 (destruct i as [|i]; [first [exfalso; lia|t]|]); exfalso; lia.
  Ltac fin1 HD := apply st_nil; constructor; rewrite ?HD; [each ltac:(reflexivity)|each ltac:(reflexivity)|each ltac:(split; reflexivity)].
  Ltac fin8 HD := apply st_nil; constructor; rewrite ?HD; [each ltac:(reflexivity)|each ltac:(reflexivity)|each ltac:(reflexivity)].
  Lemma float1_ok : D = 1%nat -> wp (exec ops E (kfloat1 grouped) (mk f g fl tm lg)) (tspec false).
  Proof.
    intros HD. unfold kfloat1. destruct (bool_dec grouped true) as [Eg|Eg]; [|apply not_true_is_false in Eg]; rewrite Eg; cbn [app when].
    all: ldp; ldp2; par 0 (p_cmin o); par 4 (p_cmax o); ldm c; ldm (c + 4).
    1: gad Eg.
    all: ldb c; ldb (c + 4); lda st_ld1r 0%nat Eg; lda st_ld1r 1%nat Eg; lda st_ld1r 2%nat Eg; lda st_ld1r 3%nat Eg; ldw 0; ldw 4.
    all: fin1 HD.
  Qed.
  Lemma int81_ok : D = 1%nat -> wp (exec ops E (kint8x1 grouped) (mk f g fl tm lg)) (tspec true).
  Proof.
    intros HD. unfold kint8x1. destruct (bool_dec grouped true) as [Eg|Eg]; [|apply not_true_is_false in Eg]; rewrite Eg; cbn [app when].
    all: ldp; ldp2; par 0 (p_cmin o); par 4 (p_cmax o); ldm c; ldm (c + 4).
    1: gad Eg.
    all: ldb c; ldb (c + 4); lda st_ld1r 0%nat Eg; lda st_ld1r 1%nat Eg; lda st_ld1r 2%nat Eg; lda st_ld1r 3%nat Eg; ldw 0; ldw 4.
    all: fin8 HD.
  Qed.
  Lemma st_hi i d p blk f1 g1 y (Q : st -> Prop) : (i < 4)%nat -> D = 2%nat -> g1 p = Ptr (ireg (q i)) (4 * oq i) ->
    f1 d = vec 4 (wlist (imem E (q i)) (oq i) 2) ++ y ->
    wp (exec ops E blk (mk (vupd f1 d (vec 4 (rep D (wlist (imem E (q i)) (oq i) D)))) g1 fl tm lg)) Q -> wp (exec ops E (LD1D d true p false :: blk) (mk f1 g1 fl tm lg)) Q.
  Proof.
    intros Hi HD Hp Hf HQ. pose proof (Hin i Hi) as [H1 H2]. rewrite HD in *. change (Z.of_nat 2) with 2 in H2.
    eapply (st_ldhi ops E (oq i)); [exact Hp|apply ireg_ok|exact H1|exact H2|]. rewrite Hf. exact HQ.
  Qed.
  Ltac ldh i HD Eg := apply (st_hi i (ra i) (Xr i) _ _ _ (skipn 8 (f (ra i)))); [lia|exact HD|first [reflexivity|unfold ptr0; rewrite Eg; reflexivity]|reflexivity|]; stv.
  Ltac t2 HD Eg := ldb c; ldb (c + 4); ldw 0; ldw 4; lda st_ldlo 0%nat Eg; lda st_ldlo 1%nat Eg; lda st_ldlo 2%nat Eg; lda st_ldlo 3%nat Eg;
    ldh 0%nat HD Eg; ldh 1%nat HD Eg; ldh 2%nat HD Eg; ldh 3%nat HD Eg; ldw 8; ldw 12.
  Lemma float2_ok : D = 2%nat -> wp (exec ops E (kfloat2 grouped) (mk f g fl tm lg)) (tspec false).
  Proof.
    intros HD. unfold kfloat2. destruct (bool_dec grouped true) as [Eg|Eg]; [|apply not_true_is_false in Eg]; rewrite Eg; cbn [app when].
    all: ldp; ldp2; par 0 (p_cmin o); par 4 (p_cmax o); ldm c; ldm (c + 4).
    1: gad Eg.
    all: t2 HD Eg.
    all: fin1 HD.
  Qed.
  Lemma int82_ok : D = 2%nat -> wp (exec ops E (kint8x2 grouped) (mk f g fl tm lg)) (tspec true).
  Proof.
    intros HD. unfold kint8x2. destruct (bool_dec grouped true) as [Eg|Eg]; [|apply not_true_is_false in Eg]; rewrite Eg; cbn [app when].
    all: ldp; ldp2; par 0 (p_cmin o); par 4 (p_cmax o); ldm c; ldm (c + 4).
    1: gad Eg.
    all: t2 HD Eg.
    all: fin8 HD.
  Qed.
  Lemma oq4 i : (i < 4)%nat -> ptr0 i = Ptr (ireg (q i)) (4 * (if grouped then ioff (q i) else oq i)).
  Proof. reflexivity. Qed.
  Lemma st_qx i d blk f1 g1 (Q : st -> Prop) : (i < 4)%nat -> D = 4%nat -> g1 (Xr i) = ptr0 i -> g1 IDOB = Int (4 * ido) ->
    wp (exec ops E blk (mk (vupd f1 d (vec 4 (rep D (wlist (imem E (q i)) (oq i) D)))) g1 fl tm lg)) Q -> wp (exec ops E (LDRQX d (Xr i) IDOB :: blk) (mk f1 g1 fl tm lg)) Q.
  Proof.
    intros Hi HD Hp Hb HQ. pose proof (Hin i Hi) as [H1 H2]. rewrite HD in *. change (Z.of_nat 4) with 4 in H2.
    eapply st_ldrqx; [exact Hp|exact Hb| |apply ireg_ok|exact H1|exact H2|exact HQ].
    unfold oq. destruct grouped; [ring|]. rewrite (Hg eq_refl). ring.
  Qed.
  Ltac ldx i HD := apply (st_qx i); [lia|exact HD|reflexivity|exact GB|]; stv.
  Ltac t4 HD :=
    apply (st_ldrp ops E _ _ _ 0 (Ptr RMul 0)); [exact GO|reflexivity|];
    apply (st_addxi ops E _ _ _ RPar 0); [exact GO|]; par 0 (p_cmin o); par 4 (p_cmax o);
    apply (st_addx ops E _ _ _ _ c RMul 0); [reflexivity|exact GC|]; stv;
    apply (st_ldpq ops E c RMul (p_mul o)); [cbn [xupd xeqb Nat.eqb]; f_equal; change (2 ^ 2) with 4; lia|reflexivity|lia|lia|]; stv;
    ldp; ldp2; ldw 0; ldw 4; ldx 0%nat HD;
    apply (st_ldrp ops E _ _ _ 0 (Ptr RBias 0)); [exact GO|reflexivity|]; ldx 1%nat HD;
    apply (st_addx ops E _ _ _ _ c RBias 0); [reflexivity|exact GC|]; stv; ldx 2%nat HD;
    apply (st_ldrq ops E c RBias (p_bias o) _ _ _ (0 + c * 2 ^ 2)); [reflexivity|change (2 ^ 2) with 4; lia|reflexivity|lia|lia|]; stv;
    ldx 3%nat HD;
    apply (st_ldrq ops E (c + 4) RBias (p_bias o) _ _ _ (0 + c * 2 ^ 2)); [reflexivity|change (2 ^ 2) with 4; lia|reflexivity|lia|lia|]; stv;
    ldw 8; ldw 12; ldw 16; ldw 20; ldw 24; ldw 28.
  Lemma float4_ok : D = 4%nat -> wp (exec ops E (kfloat4 grouped) (mk f g fl tm lg)) (tspec false).
  Proof.
    intros HD. unfold kfloat4. t4 HD.
    all: fin1 HD.
  Qed.
  Lemma int84_ok : D = 4%nat -> wp (exec ops E (kint8x4 grouped) (mk f g fl tm lg)) (tspec true).
  Proof.
    intros HD. unfold kint8x4. t4 HD.
    all: fin8 HD.
  Qed.
End Progs.
