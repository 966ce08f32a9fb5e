(** * A64K44: BinaryKernelNeon4x4 computes the binary product of its block. *)
From Verif Require Import Base Spec Bits Log Bgemm A64 A64Bgemm A64Lemmas.
Open Scope Z_scope.

Definition mk := Build_st.
Lemma wp_exec_cons ops E i blk s Q :
  wp (exec1 ops E i s) (fun s' => wp (exec ops E blk s') Q) -> wp (exec ops E (i :: blk) s) Q.
Proof. intros H. cbn [exec]. apply wp_bind. exact H. Qed.
Lemma wp_exec_app ops E a b s Q :
  wp (exec ops E a s) (fun s' => wp (exec ops E b s') Q) -> wp (exec ops E (a ++ b) s) Q.
Proof. intros H. rewrite exec_app. apply wp_bind. exact H. Qed.

(** ** Loads *)
Section Loads.
  Variables (ops : nops) (E : env).
  Lemma wp_ld1 d p f g fl tm lg r ws k (Q : st -> Prop) : g p = Ptr r (4 * k) -> word_region E r ws -> 0 <= k -> k + 4 <= zlen ws ->
    Q (mk (vupd f d (vec 4 (wlist ws k 4))) (xupd g p (Ptr r (4 * (k + 4)))) fl tm lg) ->
    wp (exec1 ops E (LD1 [d] p true) (mk f g fl tm lg)) Q.
  Proof.
    intros Hp Hr H0 Hk HQ. cbn [exec1 sx mk]. rewrite Hp. cbn [ld_regs]. rewrite (load16 E _ r ws k) by assumption. cbn [bind].
    replace (4 * k + 16 * zlen [d]) with (4 * (k + 4)) by (change (zlen [d]) with 1; ring). exact HQ.
  Qed.
  Lemma wp_ld4 d0 d1 d2 d3 p f g fl tm lg r ws k (Q : st -> Prop) : g p = Ptr r (4 * k) -> word_region E r ws -> 0 <= k -> k + 16 <= zlen ws ->
    Q (mk (vupd (vupd (vupd (vupd f d0 (vec 4 (wlist ws k 4))) d1 (vec 4 (wlist ws (k + 4) 4)))
                 d2 (vec 4 (wlist ws (k + 8) 4))) d3 (vec 4 (wlist ws (k + 12) 4))) (xupd g p (Ptr r (4 * (k + 16)))) fl tm lg) ->
    wp (exec1 ops E (LD1 [d0; d1; d2; d3] p true) (mk f g fl tm lg)) Q.
  Proof.
    intros Hp Hr H0 Hk HQ. cbn [exec1 sx mk]. rewrite Hp. cbn [ld_regs].
    rewrite (load16 E _ r ws k) by (auto; lia). cbn [bind].
    replace (4 * k + 16) with (4 * (k + 4)) by ring. rewrite (load16 E _ r ws (k + 4)) by (auto; lia). cbn [bind].
    replace (4 * (k + 4) + 16) with (4 * (k + 8)) by ring. rewrite (load16 E _ r ws (k + 8)) by (auto; lia). cbn [bind].
    replace (4 * (k + 8) + 16) with (4 * (k + 12)) by ring. rewrite (load16 E _ r ws (k + 12)) by (auto; lia). cbn [bind].
    replace (4 * k + 16 * zlen [d0; d1; d2; d3]) with (4 * (k + 16)) by (change (zlen [d0; d1; d2; d3]) with 4; ring). exact HQ.
  Qed.
End Loads.

(** ** The multiply-accumulate macros *)
(** The register combinations the kernel uses. *)
Definition minst (d r : nat) (l : nat * nat * nat * nat) : Prop :=
  In (d, r, l) [(24, 4, (0, 1, 2, 3)); (25, 5, (0, 1, 2, 3)); (26, 6, (0, 1, 2, 3)); (27, 7, (0, 1, 2, 3));
                (24, 12, (8, 9, 10, 11)); (25, 13, (8, 9, 10, 11)); (26, 14, (8, 9, 10, 11)); (27, 15, (8, 9, 10, 11))]%nat.
Section Macros.
  Variables (ops : nops) (E : env).
  Ltac inst H := unfold minst in H; cbn [In] in H;
    repeat (destruct H as [H | H]; [injection H as <- <- <- <- <- <-|]); [..|contradiction].
  Definition vrun (vs : list vinstr) (f : nat -> list Z) : nat -> list Z := fold_left (fun f i => vexec1 ops i f) vs f.
  Lemma wp_vs vs : forall f g fl tm lg (Q : st -> Prop), Q (mk (vrun vs f) g fl tm lg) -> wp (exec ops E (map V vs) (mk f g fl tm lg)) Q.
  Proof. induction vs as [|v vs IH]; intros f g fl tm lg Q H; [exact H|]. cbn [map]. apply wp_exec_cons. apply IH. exact H. Qed.
  Definition vdst (v : vinstr) : nat :=
    match v with
    | VZERO d | VEOR d _ _ | VAND d _ _ | VAND8 d _ _ | VCNT d _ | VADDP d _ _ | VUADDLP d _ | VUADALP4 d _ | VUADALP2 d _
    | VSHL4 d _ _ | VSMAX d _ _ | VSMIN d _ _ | VSCVTF d _ | VFMUL d _ _ | VFADD d _ _ | VFCVTNS d _ | VSQXTN4H d _ | VSQXTN8H d _
    | VSQXTN8B d _ | VUSHLL d _ _ | VUSHLL2 d _ _ | VCMGT d _ _ | VXTN d _ | VXTN2 d _ | VADDV d _ | VCVT8 d _ => d
    | VPADDD d _ _ | VQRSHRN d _ _ | VQMOVN d _ => Nat.div2 d
    end.
  Lemma vexec1_other v f q : Nat.eqb q (vdst v) = false -> vexec1 ops v f q = f q.
  Proof. intros H. destruct v; cbn [vexec1 vdst] in *; unfold vupd; rewrite H; reflexivity. Qed.
  Definition untouched (q : nat) (vs : list vinstr) : bool := forallb (fun v => negb (Nat.eqb q (vdst v))) vs.
  Lemma vrun_other vs : forall f q, untouched q vs = true -> vrun vs f q = f q.
  Proof.
    induction vs as [|v vs IH]; intros f q H; [reflexivity|]. cbn [untouched forallb] in H. apply andb_true_iff in H. destruct H as [Hv H].
    change (vrun (v :: vs) f q) with (vrun vs (vexec1 ops v f) q). rewrite IH by exact H. apply vexec1_other.
    destruct (Nat.eqb q (vdst v)); [discriminate|reflexivity].
  Qed.
  Ltac vs_ok := cbv [vrun fold_left vexec1 vupd Nat.eqb]; reflexivity.
  Lemma wp_bmla d r l1 l2 l3 l4 f g fl tm lg (Q : st -> Prop) : minst d r (l1, l2, l3, l4) ->
    (forall f', f' d = bmla_val (f d) (f r) (f l1) (f l2) (f l3) (f l4) ->
                (forall q, (q < 28)%nat -> Nat.eqb q d = false -> f' q = f q) -> Q (mk f' g fl tm lg)) ->
    wp (exec ops E (LCE_BMLA d r l1 l2 l3 l4) (mk f g fl tm lg)) Q.
  Proof.
    intros H HQ.
    change (LCE_BMLA d r l1 l2 l3 l4) with (map V [VEOR 28 r l1; VEOR 29 r l2; VEOR 30 r l3; VEOR 31 r l4;
      VCNT 28 28; VCNT 29 29; VCNT 30 30; VCNT 31 31; VADDP 28 28 29; VADDP 30 30 31; VADDP 28 28 30; VUADDLP 28 28; VUADALP4 d 28]%nat).
    apply wp_vs. apply HQ; clear HQ.
    - inst H; vs_ok.
    - intros q Hq Hn.
       assert (N28 : Nat.eqb q 28 = false) by (apply Nat.eqb_neq; lia); assert (N29 : Nat.eqb q 29 = false) by (apply Nat.eqb_neq; lia);
       assert (N30 : Nat.eqb q 30 = false) by (apply Nat.eqb_neq; lia); assert (N31 : Nat.eqb q 31 = false) by (apply Nat.eqb_neq; lia).
       apply vrun_other. cbn [untouched forallb vdst]. rewrite Hn, N28, N29, N30, N31. reflexivity.
  Qed.
  Lemma vupd_other f r X q : Nat.eqb q r = false -> vupd f r X q = f q.
  Proof. unfold vupd. intros ->. reflexivity. Qed.
  Lemma xupd_other g r X q : xeqb q r = false -> xupd g r X q = g q.
  Proof. unfold xupd. intros ->. reflexivity. Qed.
  Ltac hi q N28 N29 N30 N31 := 
    assert (N28 : Nat.eqb q 28 = false) by (apply Nat.eqb_neq; lia); assert (N29 : Nat.eqb q 29 = false) by (apply Nat.eqb_neq; lia);
    assert (N30 : Nat.eqb q 30 = false) by (apply Nat.eqb_neq; lia); assert (N31 : Nat.eqb q 31 = false) by (apply Nat.eqb_neq; lia).
  Ltac pres Hs := rewrite ?vupd_other by (assumption || reflexivity); repeat (rewrite vrun_other by (cbn [untouched forallb vdst]; rewrite ?Hs; reflexivity); rewrite ?vupd_other by assumption).

  Lemma wp_bmla_ld_rhs d r l1 l2 l3 l4 f g fl tm lg R k (Q : st -> Prop) : minst d r (l1, l2, l3, l4) ->
    g RHS = Ptr RRhs (4 * k) -> e_rhs E = R -> 0 <= k -> k + 4 <= zlen R ->
    (forall f' g', f' d = bmla_val (f d) (f r) (f l1) (f l2) (f l3) (f l4) -> f' r = vec 4 (wlist R k 4) ->
       (forall q, (q < 28)%nat -> Nat.eqb q d = false -> Nat.eqb q r = false -> f' q = f q) ->
       g' RHS = Ptr RRhs (4 * (k + 4)) -> (forall q, xeqb q RHS = false -> g' q = g q) -> Q (mk f' g' fl tm lg)) ->
    wp (exec ops E (LCE_BMLA_LD_RHS d r l1 l2 l3 l4) (mk f g fl tm lg)) Q.
  Proof.
    intros H Hp HR H0 Hk HQ.
    change (LCE_BMLA_LD_RHS d r l1 l2 l3 l4) with (map V [VEOR 28 r l1; VEOR 29 r l2; VEOR 30 r l3; VEOR 31 r l4]%nat ++
      LD1 [r] RHS true :: map V [VCNT 28 28; VCNT 29 29; VCNT 30 30; VCNT 31 31; VADDP 28 28 29; VADDP 30 30 31; VADDP 28 28 30;
        VUADDLP 28 28; VUADALP4 d 28]%nat).
    apply wp_exec_app, wp_vs, wp_exec_cons. eapply wp_ld1; [exact Hp|exact HR|exact H0|exact Hk|]. apply wp_vs.
    apply HQ; clear HQ.
    - inst H; vs_ok.
    - inst H; vs_ok.
    - intros q Hq Hn Hr. hi q N28 N29 N30 N31.
      rewrite vrun_other by (cbn [untouched forallb vdst]; rewrite Hn, N28, N29, N30, N31; reflexivity).
      rewrite vupd_other by exact Hr.
      apply vrun_other. cbn [untouched forallb vdst]. rewrite N28, N29, N30, N31. reflexivity.
    - reflexivity.
    - intros q Hq. apply xupd_other, Hq.
  Qed.

  Lemma wp_bmla_ld_all d r l1 l2 l3 l4 f g fl tm lg L R kl kr (Q : st -> Prop) : minst d r (l1, l2, l3, l4) ->
    g RHS = Ptr RRhs (4 * kr) -> e_rhs E = R -> 0 <= kr -> kr + 4 <= zlen R ->
    g LHS = Ptr RLhs (4 * kl) -> e_lhs E = L -> 0 <= kl -> kl + 16 <= zlen L ->
    (forall f' g', f' d = bmla_val (f d) (f r) (f l1) (f l2) (f l3) (f l4) -> f' r = vec 4 (wlist R kr 4) ->
       f' l1 = vec 4 (wlist L kl 4) -> f' l2 = vec 4 (wlist L (kl + 4) 4) ->
       f' l3 = vec 4 (wlist L (kl + 8) 4) -> f' l4 = vec 4 (wlist L (kl + 12) 4) ->
       (forall q, (q < 28)%nat -> Nat.eqb q d = false -> Nat.eqb q r = false -> Nat.eqb q l1 = false -> Nat.eqb q l2 = false ->
                  Nat.eqb q l3 = false -> Nat.eqb q l4 = false -> f' q = f q) ->
       g' RHS = Ptr RRhs (4 * (kr + 4)) -> g' LHS = Ptr RLhs (4 * (kl + 16)) ->
       (forall q, xeqb q RHS = false -> xeqb q LHS = false -> g' q = g q) -> Q (mk f' g' fl tm lg)) ->
    wp (exec ops E (LCE_BMLA_LD_ALL d r l1 l2 l3 l4) (mk f g fl tm lg)) Q.
  Proof.
    intros H Hp HR H0 Hk Hl HL H1 H2 HQ.
    change (LCE_BMLA_LD_ALL d r l1 l2 l3 l4) with (map V [VEOR 28 r l1; VEOR 29 r l2; VEOR 30 r l3; VEOR 31 r l4]%nat ++
      LD1 [r] RHS true :: map V [VCNT 28 28; VCNT 29 29]%nat ++ LD1 [l1] LHS true :: map V [VCNT 30 30; VCNT 31 31]%nat ++
      LD1 [l2] LHS true :: map V [VADDP 28 28 29]%nat ++ LD1 [l3] LHS true :: map V [VADDP 30 30 31; VADDP 28 28 30;
        VUADDLP 28 28; VUADALP4 d 28]%nat ++ [LD1 [l4] LHS true]).
    apply wp_exec_app, wp_vs, wp_exec_cons. eapply wp_ld1; [exact Hp|exact HR|exact H0|exact Hk|].
    apply wp_exec_app, wp_vs, wp_exec_cons. eapply (wp_ld1 _ _ _ _ _ _ _ _ _ RLhs L kl); [exact Hl|exact HL|lia|lia|].
    apply wp_exec_app, wp_vs, wp_exec_cons. eapply (wp_ld1 _ _ _ _ _ _ _ _ _ RLhs L (kl + 4)); [reflexivity|exact HL|lia|lia|].
    apply wp_exec_app, wp_vs, wp_exec_cons. replace (kl + 4 + 4) with (kl + 8) by ring.
    eapply (wp_ld1 _ _ _ _ _ _ _ _ _ RLhs L (kl + 8)); [reflexivity|exact HL|lia|lia|].
    apply wp_exec_app, wp_vs, wp_exec_cons. replace (kl + 8 + 4) with (kl + 12) by ring.
    eapply (wp_ld1 _ _ _ _ _ _ _ _ _ RLhs L (kl + 12)); [reflexivity|exact HL|lia|lia|].
    replace (kl + 12 + 4) with (kl + 16) by ring.
    apply HQ; clear HQ; [inst H; vs_ok|inst H; vs_ok|inst H; vs_ok|inst H; vs_ok|inst H; vs_ok|inst H; vs_ok| |reflexivity|reflexivity|].
    - intros q Hq Hn Hr Q1 Q2 Q3 Q4. hi q N28 N29 N30 N31.
      rewrite (vupd_other _ l4) by exact Q4. rewrite vrun_other by (cbn [untouched forallb vdst]; rewrite Hn, N28, ?N29, N30; reflexivity).
      rewrite (vupd_other _ l3) by exact Q3. rewrite vrun_other by (cbn [untouched forallb vdst]; rewrite N28; reflexivity).
      rewrite (vupd_other _ l2) by exact Q2. rewrite vrun_other by (cbn [untouched forallb vdst]; rewrite N30, N31; reflexivity).
      rewrite (vupd_other _ l1) by exact Q1. rewrite vrun_other by (cbn [untouched forallb vdst]; rewrite N28, N29; reflexivity).
      rewrite (vupd_other _ r) by exact Hr. apply vrun_other. cbn [untouched forallb vdst]. rewrite N28, N29, N30, N31. reflexivity.
    - intros q A B. rewrite !(xupd_other _ LHS) by exact B. apply xupd_other, A.
  Qed.
End Macros.

(** ** Scalars *)
Lemma wmod z : 0 <= z < 2 ^ 31 -> z mod 2 ^ 32 = z.
Proof. intros H. apply Z.mod_small. lia. Qed.
Lemma sgnw z : 0 <= z < 2 ^ 31 -> sgn 32 (z mod 2 ^ 32) = z.
Proof. intros H. rewrite wmod by exact H. unfold sgn. change (32 - 1) with 31. destruct (Z.ltb_spec z (2 ^ 31)); [reflexivity|lia]. Qed.
Lemma sgn_small z : 0 <= z < 2 ^ 31 -> sgn 32 z = z.
Proof. intros H. rewrite <- (wmod z H) at 1. apply sgnw, H. Qed.
Lemma wp_cmpw ops E a b f g fl tm lg x y (Q : st -> Prop) : g a = Int x -> g b = Int y -> 0 <= x < 2 ^ 31 -> 0 <= y < 2 ^ 31 ->
  Q (mk f g (x, y) tm lg) -> wp (exec1 ops E (CMPW a b) (mk f g fl tm lg)) Q.
Proof.
  intros Ha Hb Hx Hy HQ. cbn [exec1]. unfold getw, getx. cbn [sx mk]. rewrite Ha, Hb. cbn [int_of bind]. rewrite !sgnw by assumption. exact HQ.
Qed.
Lemma wp_addwi ops E d a z f g fl tm lg x (Q : st -> Prop) : g a = Int x -> 0 <= x < 2 ^ 31 -> 0 <= x + z < 2 ^ 31 ->
  Q (mk f (xupd g d (Int (x + z))) fl tm lg) -> wp (exec1 ops E (ADDWI d a z) (mk f g fl tm lg)) Q.
Proof.
  intros Ha Hx Hy HQ. cbn [exec1]. unfold getw, getx, setw. cbn [sx mk]. rewrite Ha. cbn [int_of bind].
  rewrite (wmod x), (wmod (x + z)) by assumption. exact HQ.
Qed.

(** ** Accumulation over the depth of one 4x4 block *)
Section Accum.
  Variables (ops : nops) (E : env) (L R : list Z) (bl br G : Z).
  Hypothesis (HL : e_lhs E = L) (HR : e_rhs E = R) (Hbl : 0 <= bl) (Hbr : 0 <= br) (HG : 1 <= G) (HGb : 4 * G < 2 ^ 31 - 8).
  Hypothesis (HlL : bl + 16 * G <= zlen L) (HlR : br + 16 * G <= zlen R).
  Definition Lg (g i : Z) : list Z := wlist L (bl + 16 * g + 4 * i) 4.
  Definition Rg (g j : Z) : list Z := wlist R (br + 16 * g + 4 * j) 4.
  Definition accv (i j n : Z) : Z := sum_ n (fun g => bp (Rg g j) (Lg g i)).
  Definition accs (j n : Z) : list Z := [accv 0 j n; accv 1 j n; accv 2 j n; accv 3 j n].
  Lemma accv_S i j n : 0 <= n -> accv i j (n + 1) = accv i j n + bp (Rg n j) (Lg n i).
  Proof. intros H. unfold accv. rewrite sum_succ by exact H. reflexivity. Qed.
  Lemma accs_S j n : 0 <= n -> bmla_val (vec 4 (accs j n)) (vec 4 (Rg n j)) (vec 4 (Lg n 0)) (vec 4 (Lg n 1)) (vec 4 (Lg n 2)) (vec 4 (Lg n 3))
    = vec 4 (accs j (n + 1)).
  Proof.
    intros H. rewrite bmla_ok by (try apply wlist_length; reflexivity). f_equal. unfold accs. rewrite !accv_S by exact H. reflexivity.
  Qed.
  (** The registers of a group: LHS in [a..a+3], RHS in [b..b+3]. *)
  Definition lregs (f : nat -> list Z) (a : nat) (g : Z) : Prop :=
    f a = vec 4 (Lg g 0) /\ f (a + 1)%nat = vec 4 (Lg g 1) /\ f (a + 2)%nat = vec 4 (Lg g 2) /\ f (a + 3)%nat = vec 4 (Lg g 3).
  Definition rregs (f : nat -> list Z) (b : nat) (g : Z) : Prop :=
    f b = vec 4 (Rg g 0) /\ f (b + 1)%nat = vec 4 (Rg g 1) /\ f (b + 2)%nat = vec 4 (Rg g 2) /\ f (b + 3)%nat = vec 4 (Rg g 3).
  Definition aregs (f : nat -> list Z) (n0 n1 n2 n3 : Z) : Prop :=
    f 24%nat = vec 4 (accs 0 n0) /\ f 25%nat = vec 4 (accs 1 n1) /\ f 26%nat = vec 4 (accs 2 n2) /\ f 27%nat = vec 4 (accs 3 n3).
  Definition ptrs (g : xreg -> val) (n : Z) : Prop :=
    g LHS = Ptr RLhs (4 * (bl + 16 * n)) /\ g RHS = Ptr RRhs (4 * (br + 16 * n)).
  Definition same_x (ex : list xreg) (g g0 : xreg -> val) : Prop := forall q, forallb (fun x => negb (xeqb q x)) ex = true -> g q = g0 q.
  Record linv (g0 : xreg -> val) (n : Z) (f : nat -> list Z) (g : xreg -> val) : Prop := {
    li_l : lregs f 0 n; li_r : rregs f 4 n; li_a : aregs f (n + 1) n n n; li_p : ptrs g (n + 1);
    li_1 : g (Xr 1) = Int (4 * (n + 1)); li_x : same_x [Xr 1; LHS; RHS] g g0 }.

  Ltac inm := unfold minst; cbn [In]; tauto.
  Lemma wp_loop g0 n f g fl tm lg (Q : st -> Prop) : 0 <= n -> n + 1 < G -> linv g0 n f g -> g0 (Xr 12) = Int (4 * G) ->
    (forall f' g', linv g0 (n + 1) f' g' -> Q (mk f' g' (4 * (n + 2), 4 * G) tm lg)) ->
    wp (exec ops E k44_loop (mk f g fl tm lg)) Q.
  Proof.
    intros Hn HnG [(L0 & L1 & L2 & L3) (R0 & R1 & R2 & R3) (A0 & A1 & A2 & A3) (PL & PR) X1 Xs] H12 HQ. cbn [Nat.add] in *.
    unfold k44_loop. apply wp_exec_app, wp_exec_cons.
    eapply wp_ld1; [exact PR|exact HR|lia|lia|]. cbn [exec wp].
    replace (br + 16 * (n + 1) + 4) with (br + 16 * (n + 1) + 4 * 1) by ring.
    apply wp_exec_app. eapply wp_bmla_ld_rhs; [inm|reflexivity|exact HR|lia|lia|].
    intros f1 g1 F1 F1r F1o G1 G1o.
    replace (br + 16 * (n + 1) + 4 * 1 + 4) with (br + 16 * (n + 1) + 4 * 2) in * by ring.
    apply wp_exec_app. eapply wp_bmla_ld_rhs; [inm|exact G1|exact HR|lia|lia|].
    intros f2 g2 F2 F2r F2o G2 G2o.
    replace (br + 16 * (n + 1) + 4 * 2 + 4) with (br + 16 * (n + 1) + 4 * 3) in * by ring.
    apply wp_exec_app. eapply (wp_bmla_ld_all _ _ 27 7 0 1 2 3 f2 g2 _ _ _ L R (bl + 16 * (n + 1))); [inm|exact G2|exact HR|lia|lia| |exact HL|lia|lia|].
    { rewrite G2o, G1o by reflexivity. exact PL. }
    intros f3 g3 F3 F3r F30 F31 F32 F33 F3o G3r G3l G3o.
    apply wp_exec_app, wp_exec_cons. eapply (wp_addwi _ _ _ _ _ _ _ _ _ _ (4 * (n + 1))); [|lia|lia|].
    { rewrite G3o, G2o, G1o by reflexivity. exact X1. }
    apply wp_exec_cons. eapply (wp_cmpw _ _ _ _ _ _ _ _ _ (4 * (n + 1) + 4) (4 * G)); [reflexivity| |lia|lia|].
    { rewrite xupd_other by reflexivity. rewrite G3o, G2o, G1o by reflexivity. rewrite xupd_other by reflexivity.
      rewrite Xs by reflexivity. exact H12. }
    cbn [exec wp]. apply wp_bmla; [inm|]. intros f4 F4 F4o.
    replace (4 * (n + 1) + 4) with (4 * (n + 2)) by ring.
    assert (E4 : f3 4%nat = vec 4 (Rg (n + 1) 0)).
    { rewrite F3o, F2o, F1o by (reflexivity || lia). cbn [vupd Nat.eqb]. unfold Rg. rewrite Z.add_0_r. reflexivity. }
    assert (E24 : f3 24%nat = vec 4 (accs 0 (n + 1))).
    { rewrite F3o, F2o, F1o by (reflexivity || lia). rewrite vupd_other by reflexivity. exact A0. }
    assert (E25 : f4 25%nat = vec 4 (accs 1 (n + 1))).
    { rewrite F4o, F3o, F2o, F1 by (reflexivity || lia). rewrite !vupd_other by reflexivity. rewrite A1, R1, L0, L1, L2, L3. apply accs_S, Hn. }
    assert (E26 : f4 26%nat = vec 4 (accs 2 (n + 1))).
    { rewrite F4o, F3o, F2 by (reflexivity || lia). rewrite !F1o by (reflexivity || lia). rewrite !vupd_other by reflexivity.
      rewrite A2, R2, L0, L1, L2, L3. apply accs_S, Hn. }
    assert (E27 : f4 27%nat = vec 4 (accs 3 (n + 1))).
    { rewrite F4o, F3 by (reflexivity || lia). rewrite !F2o, !F1o by (reflexivity || lia). rewrite !vupd_other by reflexivity.
      rewrite A3, R3, L0, L1, L2, L3. apply accs_S, Hn. }
    replace (bl + 16 * (n + 1) + 4) with (bl + 16 * (n + 1) + 4 * 1) in * by ring.
    replace (bl + 16 * (n + 1) + 8) with (bl + 16 * (n + 1) + 4 * 2) in * by ring.
    replace (bl + 16 * (n + 1) + 12) with (bl + 16 * (n + 1) + 4 * 3) in * by ring.
    assert (E0 : f3 0%nat = vec 4 (Lg (n + 1) 0)) by (rewrite F30; unfold Lg; rewrite Z.add_0_r; reflexivity).
    apply HQ. constructor.
    - unfold lregs. cbn [Nat.add]. rewrite !F4o by (reflexivity || lia). auto.
    - unfold rregs. cbn [Nat.add]. rewrite !F4o by (reflexivity || lia). split; [exact E4|].
      rewrite (F3o 5%nat), (F3o 6%nat), (F2o 5%nat), F1r, F2r by (reflexivity || lia). auto.
    - unfold aregs. split; [|auto]. rewrite F4, E4, E24, E0, F31, F32, F33. apply accs_S. lia.
    - split.
      + rewrite xupd_other by reflexivity. rewrite G3l. f_equal. ring.
      + rewrite xupd_other by reflexivity. rewrite G3r. f_equal. ring.
    - cbn [xupd xeqb Nat.eqb]. f_equal. ring.
    - intros q Hq. cbn [forallb] in Hq. destruct (xeqb q (Xr 1)) eqn:Q1; [discriminate|]. destruct (xeqb q LHS) eqn:Q2; [discriminate|].
      destruct (xeqb q RHS) eqn:Q3; [discriminate|]. rewrite xupd_other by exact Q1. rewrite G3o, G2o, G1o, xupd_other by assumption.
      apply Xs. cbn [forallb]. rewrite Q1, Q2, Q3. reflexivity.
  Qed.

  Lemma wp_tail n f g fl tm lg (Q : st -> Prop) : 0 <= n -> lregs f 0 n -> rregs f 4 n -> aregs f (n + 1) n n n ->
    (forall f', aregs f' (n + 1) (n + 1) (n + 1) (n + 1) -> Q (mk f' g fl tm lg)) ->
    wp (exec ops E k44_tail (mk f g fl tm lg)) Q.
  Proof.
    intros Hn (L0 & L1 & L2 & L3) (R0 & R1 & R2 & R3) (A0 & A1 & A2 & A3) HQ. cbn [Nat.add] in *.
    unfold k44_tail. apply wp_exec_app, wp_bmla; [inm|]. intros f1 F1 F1o.
    apply wp_exec_app, wp_bmla; [inm|]. intros f2 F2 F2o. apply wp_bmla; [inm|]. intros f3 F3 F3o.
    apply HQ. unfold aregs. rewrite (F3o 24%nat), (F3o 25%nat), (F3o 26%nat), F3, (F2o 24%nat), (F2o 25%nat), F2, (F1o 24%nat), F1 by (reflexivity || lia).
    rewrite !F2o, !F1o by (reflexivity || lia). rewrite A0, A1, A2, A3, R1, R2, R3, L0, L1, L2, L3.
    rewrite !accs_S by exact Hn. auto.
  Qed.
  (** The first step: v24 takes group 0. *)
  Lemma wp_first f g fl tm lg (Q : st -> Prop) : lregs f 0 0 -> rregs f 4 0 ->
    f 24%nat = repeat 0 16 -> f 25%nat = repeat 0 16 -> f 26%nat = repeat 0 16 -> f 27%nat = repeat 0 16 ->
    (forall f', lregs f' 0 0 -> rregs f' 4 0 -> aregs f' (0 + 1) 0 0 0 -> Q (mk f' g fl tm lg)) ->
    wp (exec ops E (LCE_BMLA 24 4 0 1 2 3) (mk f g fl tm lg)) Q.
  Proof.
    intros (L0 & L1 & L2 & L3) (R0 & R1 & R2 & R3) A0 A1 A2 A3 HQ. cbn [Nat.add] in *.
    apply wp_bmla; [inm|]. intros f1 F1 F1o. apply HQ.
    - unfold lregs. cbn [Nat.add]. rewrite !F1o by (reflexivity || lia). auto.
    - unfold rregs. cbn [Nat.add]. rewrite !F1o by (reflexivity || lia). auto.
    - unfold aregs. rewrite (F1o 25%nat), (F1o 26%nat), (F1o 27%nat), F1 by (reflexivity || lia). rewrite A0, A1, A2, A3, R0, L0, L1, L2, L3.
      split; [|auto]. apply (accs_S 0 0). lia.
  Qed.

  (** Control flow of the plain loop: [pc] is the position of the comparison. *)
  Variables (p : list instr) (Q : st -> Prop).
  Definition plain : list instr := [CMPW (Xr 1) (Xr 12); BC EQ 79; LBL 2] ++ k44_loop ++ [BC LT 2; LBL 79] ++ k44_tail.
  Lemma loop_straight : straight k44_loop = true. Proof. reflexivity. Qed.
  Lemma tail_straight : straight k44_tail = true. Proof. reflexivity. Qed.
  Lemma ends_plain pc g0 tm lg : code_at p pc plain -> find 2 p 0 = Some (pc + 2)%nat -> find 79 p 0 = Some (pc + 3 + length k44_loop + 1)%nat ->
    g0 (Xr 12) = Int (4 * G) ->
    (forall f g fl, aregs f G G G G -> same_x [Xr 1; LHS; RHS] g g0 -> ends ops E p Q (pc + length plain) (mk f g fl tm lg)) ->
    forall n f g fl, 0 <= n < G -> linv g0 n f g -> ends ops E p Q pc (mk f g fl tm lg).
  Proof.
    intros Hc F2 F79 H12 Hend. unfold plain in Hc. cbn [app] in Hc.
    apply code_at_cons in Hc. destruct Hc as [C1 Hc]. apply code_at_cons in Hc. destruct Hc as [C2 Hc]. apply code_at_cons in Hc. destruct Hc as [C3 Hc].
    apply code_at_app in Hc. destruct Hc as [C4 Hc]. apply code_at_cons in Hc. destruct Hc as [C5 Hc]. apply code_at_cons in Hc. destruct Hc as [C6 C7].
    assert (A79 : forall n f g fl, n + 1 = G -> 0 <= n -> linv g0 n f g -> ends ops E p Q (pc + 3 + length k44_loop + 1) (mk f g fl tm lg)).
    { intros n f g fl En Hn [LI1 LI2 LI3 LI4 LI5 LI6].
      apply (ends_exec _ _ _ _ _ _ [LBL 79]); [|reflexivity|].
      { apply code_at_cons. split; [|reflexivity]. replace (pc + 3 + length k44_loop + 1)%nat with (S (S (S (S pc)) + length k44_loop)) by lia. exact C6. }
      cbn [exec exec1 bind wp length].
      apply (ends_exec _ _ _ _ _ _ k44_tail); [|exact tail_straight|].
      { replace (pc + 3 + length k44_loop + 1 + 1)%nat with (S (S (S (S (S pc)) + length k44_loop))) by lia. exact C7. }
      apply (wp_tail n); auto. intros f' Ha.
      replace (pc + 3 + length k44_loop + 1 + 1 + length k44_tail)%nat with (pc + length plain)%nat.
      2:{ unfold plain. rewrite !app_length. cbn [length]. lia. }
      apply Hend; [rewrite En in Ha; exact Ha|exact LI6]. }
    assert (A2 : forall m n f g fl, G = n + 2 + Z.of_nat m -> 0 <= n -> linv g0 n f g -> ends ops E p Q (pc + 2) (mk f g fl tm lg)).
    { induction m as [|m IH]; intros n f g fl Em Hn Hi.
      all: apply (ends_exec _ _ _ _ _ _ (LBL 2 :: k44_loop));
        [apply code_at_cons; split; [replace (pc + 2)%nat with (S (S pc)) by lia; exact C3|replace (S (pc + 2)) with (S (S (S pc))) by lia; exact C4]|exact loop_straight|].
      all: apply wp_exec_cons; cbn [exec1 wp]; apply (wp_loop g0 n); [lia|lia|exact Hi|exact H12|]; intros f' g' Hi'.
      all: replace (pc + 2 + length (LBL 2 :: k44_loop))%nat with (S (S (S pc)) + length k44_loop)%nat by (cbn [length]; lia).
      all: eapply ends_bc; [exact C5|exact F2| |]; cbn [cond_holds sfl mk]; intros Hcc.
      - apply Z.ltb_lt in Hcc. lia.
      - replace (S (S (S (S pc)) + length k44_loop)) with (pc + 3 + length k44_loop + 1)%nat by lia. apply (A79 (n + 1)); [lia|lia|exact Hi'].
      - apply (IH (n + 1)); [lia|lia|exact Hi'].
      - apply Z.ltb_ge in Hcc. lia. }
    intros n f g fl Hn Hi. apply (ends_exec _ _ _ _ _ _ [CMPW (Xr 1) (Xr 12)]); [apply code_at_cons; split; [exact C1|reflexivity]|reflexivity|].
    apply wp_exec_cons. destruct Hi as [LI1 LI2 LI3 LI4 LI5 LI6].
    eapply (wp_cmpw _ _ _ _ _ _ _ _ _ (4 * (n + 1)) (4 * G)); [exact LI5|rewrite LI6 by reflexivity; exact H12|lia|lia|]. cbn [exec wp].
    replace (pc + length [CMPW (Xr 1) (Xr 12)])%nat with (S pc) by (cbn [length]; lia).
    eapply ends_bc; [exact C2|exact F79| |]; cbn [cond_holds sfl mk]; intros Hcc.
    - apply Z.eqb_eq in Hcc. apply (A79 n); [lia|lia|]. constructor; assumption.
    - apply Z.eqb_neq in Hcc. replace (S (S pc)) with (pc + 2)%nat by lia. apply (A2 (Z.to_nat (G - n - 2)) n); [lia|lia|]. constructor; assumption.
  Qed.
End Accum.
