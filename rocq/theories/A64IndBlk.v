(** * A64IndBlk: the accumulation blocks of the indirect kernels. *)
From Verif Require Import Base Spec Bits Log Bgemm Indirect A64 A64Bgemm A64Lemmas A64K44 A64Store A64Trans A64Seg A64Block84 A64Ind.
Open Scope Z_scope.

(** ** Loads *)
Lemma words2 ws k : le_split 8 (le_join (vec 4 (wlist ws k 2))) = vec 4 (wlist ws k 2).
Proof.
  assert (H : vec 4 (wlist ws k 2) = le_split 8 (wat ws k mod 2 ^ 32 + 2 ^ 32 * wat ws (k + 1))).
  { cbn [wlist vec flat_map]. rewrite app_nil_r.
    set (a := wat ws k). set (b := wat ws (k + 1)). clearbody a b.
    assert (S : forall a b, le_split 8 (a + 2 ^ 32 * b) = le_split 4 a ++ le_split 4 ((a + 2 ^ 32 * b) / 2 ^ 32)).
    { intros x y. cbn [le_split app]. rewrite !Z.div_div by lia.
      change (256 * 256 * 256 * 256) with (2 ^ 32).
      apply (f_equal2 (@cons Z)); [|apply (f_equal2 (@cons Z)); [|apply (f_equal2 (@cons Z)); [|apply (f_equal2 (@cons Z)); [|reflexivity]]]].
      - replace (2 ^ 32 * y) with (y * 2 ^ 24 * 256) by ring. apply Z_mod_plus_full.
      - replace (2 ^ 32 * y) with (y * 2 ^ 16 * 256 * 256) by ring. rewrite Z.div_add by lia. apply Z_mod_plus_full.
      - replace (2 ^ 32 * y) with (y * 2 ^ 8 * 256 * (256 * 256)) by ring. rewrite Z.div_add by lia. apply Z_mod_plus_full.
      - replace (2 ^ 32 * y) with (y * 256 * (256 * 256 * 256)) by ring. rewrite Z.div_add by lia. apply Z_mod_plus_full. }
    rewrite S. change (2 ^ 32) with (2 ^ (8 * Z.of_nat 4)) at 1. rewrite le_split_mod. f_equal.
    replace (2 ^ 32 * b) with (b * 2 ^ 32) by ring. rewrite Z.div_add by lia.
    rewrite (Z.div_small (a mod 2 ^ 32)) by (apply Z.mod_pos_bound; lia). reflexivity. }
  rewrite H. apply le_split_join.
Qed.
Lemma dup_word w : v_dup4 (w mod 2 ^ 32) = vec 4 [w; w; w; w].
Proof.
  change (v_dup4 (w mod 2 ^ 32)) with (vec 4 [w mod 2 ^ 32; w mod 2 ^ 32; w mod 2 ^ 32; w mod 2 ^ 32]).
  apply vec_cong. change (8 * Z.of_nat 4) with 32. repeat (constructor; [apply Z.mod_mod; lia|]). constructor.
Qed.
Section Steps.
  Variables (ops : nops) (E : env).
  Lemma st_v v blk f g fl tm lg (Q : st -> Prop) :
    wp (exec ops E blk (mk (vexec1 ops v f) g fl tm lg)) Q -> wp (exec ops E (V v :: blk) (mk f g fl tm lg)) Q.
  Proof. intros H. exact H. Qed.
  Lemma st_ldrq k r ws d p off o blk f g fl tm lg (Q : st -> Prop) : g p = Ptr r o -> o + off = 4 * k -> word_region E r ws -> 0 <= k -> k + 4 <= zlen ws ->
    wp (exec ops E blk (mk (vupd f d (vec 4 (wlist ws k 4))) g fl tm lg)) Q -> wp (exec ops E (LDRQ d p off :: blk) (mk f g fl tm lg)) Q.
  Proof.
    intros Hp Ho Hr H0 Hk HQ. apply wp_exec_cons. cbn [exec1]. unfold load_at. cbn [sx mk]. rewrite Hp, Ho, (load16 E _ r ws k) by assumption. exact HQ.
  Qed.
  Lemma st_ldrqx k r ws d p i x o blk f g fl tm lg (Q : st -> Prop) : g p = Ptr r o -> g i = Int x -> o + x = 4 * k -> word_region E r ws -> 0 <= k -> k + 4 <= zlen ws ->
    wp (exec ops E blk (mk (vupd f d (vec 4 (wlist ws k 4))) g fl tm lg)) Q -> wp (exec ops E (LDRQX d p i :: blk) (mk f g fl tm lg)) Q.
  Proof.
    intros Hp Hi Ho Hr H0 Hk HQ. apply wp_exec_cons. cbn [exec1]. unfold load_at, getx. cbn [sx mk]. rewrite Hi. cbn [int_of bind].
    rewrite Hp, Ho, (load16 E _ r ws k) by assumption. exact HQ.
  Qed.
  Lemma st_ldpq k r ws d e p blk f g fl tm lg (Q : st -> Prop) : g p = Ptr r (4 * k) -> word_region E r ws -> 0 <= k -> k + 8 <= zlen ws ->
    wp (exec ops E blk (mk (vupd (vupd f d (vec 4 (wlist ws k 4))) e (vec 4 (wlist ws (k + 4) 4))) g fl tm lg)) Q ->
    wp (exec ops E (LDPQ d e p :: blk) (mk f g fl tm lg)) Q.
  Proof.
    intros Hp Hr H0 Hk HQ. apply wp_exec_cons. cbn [exec1]. unfold load_at. cbn [sx mk]. rewrite Hp.
    replace (4 * k + 0) with (4 * k) by ring. rewrite (load16 E _ r ws k) by (assumption || lia). cbn [bind].
    replace (4 * k + 16) with (4 * (k + 4)) by ring. rewrite (load16 E _ r ws (k + 4)) by (assumption || lia). exact HQ.
  Qed.
  Lemma st_ld1 k r ws d p blk f g fl tm lg (Q : st -> Prop) : g p = Ptr r (4 * k) -> word_region E r ws -> 0 <= k -> k + 4 <= zlen ws ->
    wp (exec ops E blk (mk (vupd f d (vec 4 (wlist ws k 4))) (xupd g p (Ptr r (4 * (k + 4)))) fl tm lg)) Q ->
    wp (exec ops E (LD1 [d] p true :: blk) (mk f g fl tm lg)) Q.
  Proof. intros Hp Hr H0 Hk HQ. apply wp_exec_cons. eapply wp_ld1; eassumption. Qed.
  Lemma load4 s r ws k : word_region E r ws -> 0 <= k < zlen ws -> loadn E s r (4 * k + 0) 4 = Some (le_split 4 (wat ws k)).
  Proof. intros Hr Hk. replace (4 * k + 0) with (4 * k) by ring. apply loadn_word; assumption. Qed.
  Lemma st_ld1rp k r ws d p blk f g fl tm lg (Q : st -> Prop) : g p = Ptr r (4 * k) -> word_region E r ws -> 0 <= k -> k + 1 <= zlen ws ->
    wp (exec ops E blk (mk (vupd f d (vec 4 [wat ws k; wat ws k; wat ws k; wat ws k])) (xupd g p (Ptr r (4 * (k + 1)))) fl tm lg)) Q ->
    wp (exec ops E (LD1RP d p :: blk) (mk f g fl tm lg)) Q.
  Proof.
    intros Hp Hr H0 Hk HQ. apply wp_exec_cons. cbn [exec1]. unfold load_at. cbn [sx mk]. rewrite Hp, (load4 _ r ws) by (assumption || lia). cbn [bind addv].
    rewrite le_join_split. change (8 * Z.of_nat 4) with 32. rewrite dup_word. replace (4 * k + 4) with (4 * (k + 1)) by ring. exact HQ.
  Qed.
  Lemma st_ld1r k r ws d p blk f g fl tm lg (Q : st -> Prop) : g p = Ptr r (4 * k) -> word_region E r ws -> 0 <= k -> k + 1 <= zlen ws ->
    wp (exec ops E blk (mk (vupd f d (vec 4 [wat ws k; wat ws k; wat ws k; wat ws k])) g fl tm lg)) Q ->
    wp (exec ops E (LD1R d p :: blk) (mk f g fl tm lg)) Q.
  Proof.
    intros Hp Hr H0 Hk HQ. apply wp_exec_cons. cbn [exec1]. unfold load_at. cbn [sx mk]. rewrite Hp, (load4 _ r ws) by (assumption || lia). cbn [bind].
    rewrite le_join_split. change (8 * Z.of_nat 4) with 32. rewrite dup_word. exact HQ.
  Qed.
  Lemma st_ld1rpar d p off z blk f g fl tm lg (Q : st -> Prop) : g p = Ptr RPar off -> off mod 4 = 0 -> e_par E off = Some (Int z) ->
    wp (exec ops E blk (mk (vupd f d (vec 4 [z; z; z; z])) g fl tm lg)) Q -> wp (exec ops E (LD1R d p :: blk) (mk f g fl tm lg)) Q.
  Proof. intros Hp Hm He HQ. apply wp_exec_cons. eapply wp_ld1r; [eassumption|assumption|eassumption|]. rewrite dup_word. exact HQ. Qed.
  Lemma load8 s r ws k : word_region E r ws -> 0 <= k -> k + 2 <= zlen ws -> loadn E s r (4 * k + 0) 8 = Some (vec 4 (wlist ws k 2)).
  Proof. intros Hr H0 Hk. replace (4 * k + 0) with (4 * k) by ring. apply (loadn_words E s r ws 2 Hr); lia. Qed.
  Lemma st_ldlo k r ws d p blk f g fl tm lg (Q : st -> Prop) : g p = Ptr r (4 * k) -> word_region E r ws -> 0 <= k -> k + 2 <= zlen ws ->
    wp (exec ops E blk (mk (vupd f d (vec 4 (wlist ws k 2) ++ skipn 8 (f d))) g fl tm lg)) Q ->
    wp (exec ops E (LD1D d false p false :: blk) (mk f g fl tm lg)) Q.
  Proof.
    intros Hp Hr H0 Hk HQ. apply wp_exec_cons. cbn [exec1]. unfold load_at. cbn [sx mk]. rewrite Hp, (load8 _ r ws) by (assumption || lia). cbn [bind].
    unfold v_insd0. rewrite words2. exact HQ.
  Qed.
  Lemma st_ldhi k r ws d p (post : bool) blk f g fl tm lg (Q : st -> Prop) : g p = Ptr r (4 * k) -> word_region E r ws -> 0 <= k -> k + 2 <= zlen ws ->
    wp (exec ops E blk (mk (vupd f d (firstn 8 (f d) ++ vec 4 (wlist ws k 2))) (if post then xupd g p (Ptr r (4 * (k + 2))) else g) fl tm lg)) Q ->
    wp (exec ops E (LD1D d true p post :: blk) (mk f g fl tm lg)) Q.
  Proof.
    intros Hp Hr H0 Hk HQ. apply wp_exec_cons. cbn [exec1]. unfold load_at. cbn [sx mk]. rewrite Hp, (load8 _ r ws) by (assumption || lia). cbn [bind addv].
    unfold v_insd1. cbn [sv mk]. rewrite words2. replace (4 * k + 8) with (4 * (k + 2)) by ring. destruct post; exact HQ.
  Qed.
  Lemma st_addxi d a z r o blk f g fl tm lg (Q : st -> Prop) : g a = Ptr r o ->
    wp (exec ops E blk (mk f (xupd g d (Ptr r (o + z))) fl tm lg)) Q -> wp (exec ops E (ADDXI d a z :: blk) (mk f g fl tm lg)) Q.
  Proof. intros Ha HQ. apply wp_exec_cons. cbn [exec1 sx mk]. rewrite Ha. exact HQ. Qed.
  Lemma st_addx d a b sh x r o blk f g fl tm lg (Q : st -> Prop) : g a = Ptr r o -> g b = Int x ->
    wp (exec ops E blk (mk f (xupd g d (Ptr r (o + x * 2 ^ sh))) fl tm lg)) Q -> wp (exec ops E (ADDX d a b sh :: blk) (mk f g fl tm lg)) Q.
  Proof. intros Ha Hb HQ. apply wp_exec_cons. cbn [exec1]. unfold getx. cbn [sx mk]. rewrite Hb. cbn [int_of bind]. rewrite Ha. exact HQ. Qed.
  Lemma st_ldpx d e p off j a b blk f g fl tm lg (Q : st -> Prop) : g p = Ptr RInd (8 * j) -> (exists m, off = 8 * m /\ rd (e_ind E) (j + m) = Some a /\ rd (e_ind E) (j + m + 1) = Some b) ->
    wp (exec ops E blk (mk f (xupd (xupd g d a) e b) fl tm lg)) Q -> wp (exec ops E (LDPX d e p off :: blk) (mk f g fl tm lg)) Q.
  Proof.
    intros Hp (m & -> & Ra & Rb) HQ. apply wp_exec_cons. cbn [exec1]. unfold load_ptr_at. cbn [sx mk]. rewrite Hp. cbn [load_ptr].
    replace (8 * j + 8 * m) with ((j + m) * 8) by ring. rewrite Z.mod_mul, Z.div_mul by lia. cbn [Z.eqb].
    rewrite Ra. cbn [bind]. replace (8 * j + (8 * m + 8)) with ((j + m + 1) * 8) by ring. rewrite Z.mod_mul, Z.div_mul by lia. cbn [Z.eqb]. rewrite Rb. exact HQ.
  Qed.
  Lemma st_ldrp d p off o v blk f g fl tm lg (Q : st -> Prop) : g p = Ptr RPar o -> e_par E (o + off) = Some v ->
    wp (exec ops E blk (mk f (xupd g d v) fl tm lg)) Q -> wp (exec ops E (LDRP d p off :: blk) (mk f g fl tm lg)) Q.
  Proof. intros Hp Hv HQ. apply wp_exec_cons. cbn [exec1]. unfold load_ptr_at. cbn [sx mk]. rewrite Hp. cbn [load_ptr]. rewrite Hv. exact HQ. Qed.
  Lemma st_subwi d a z x blk f g fl tm lg (Q : st -> Prop) : g a = Int x -> 0 <= x < 2 ^ 31 -> 0 <= x - z ->
    0 <= z -> wp (exec ops E blk (mk f (xupd g d (Int (x - z))) fl tm lg)) Q -> wp (exec ops E (SUBWI d a z :: blk) (mk f g fl tm lg)) Q.
  Proof.
    intros Ha Hx H0 Hz HQ. apply wp_exec_cons. cbn [exec1]. unfold getw, getx, setw. cbn [sx mk]. rewrite Ha. cbn [int_of bind].
    rewrite (wmod x) by lia. rewrite (wmod (x - z)) by lia. exact HQ.
  Qed.
  (** The flags compare the old value with the subtrahend. *)
  Lemma st_subswi d a z x blk f g fl tm lg (Q : st -> Prop) : g a = Int x -> 0 <= x < 2 ^ 31 ->
    wp (exec ops E blk (mk f (xupd g d (Int ((x - z) mod 2 ^ 32))) (x, z) tm lg)) Q -> wp (exec ops E (SUBSWI d a z :: blk) (mk f g fl tm lg)) Q.
  Proof.
    intros Ha Hx HQ. apply wp_exec_cons. cbn [exec1]. unfold getw, getx, setw, set_fl, set_x. cbn [sx mk sv sfl stmp slog]. rewrite Ha. cbn [int_of bind].
    rewrite (wmod x) by lia. rewrite (sgn_small x) by lia. exact HQ.
  Qed.
  Lemma st_nil s (Q : st -> Prop) : Q s -> wp (exec ops E [] s) Q.
  Proof. intros H. exact H. Qed.
  Lemma st_lbl n blk f g fl tm lg (Q : st -> Prop) : wp (exec ops E blk (mk f g fl tm lg)) Q -> wp (exec ops E (LBL n :: blk) (mk f g fl tm lg)) Q.
  Proof. intros H. exact H. Qed.
End Steps.

(** ** Arithmetic of a block *)
(** [x] repeated to fill a register; the eight inner products of [x] with the
    weights from word [k] on. *)
Definition rep (D : nat) (x : list Z) : list Z := concat (repeat x (4 / D)).
Definition prods (D : nat) (x L : list Z) (k : Z) : list Z :=
  map (fun c => bp x (wlist L (k + Z.of_nat D * c) D)) [0; 1; 2; 3; 4; 5; 6; 7].
Lemma len1 {A} (l : list A) : length l = 1%nat -> exists a, l = [a].
Proof. destruct l as [|a [|]]; cbn; intros H; try discriminate. exists a. reflexivity. Qed.
Lemma len2 {A} (l : list A) : length l = 2%nat -> exists a b, l = [a; b].
Proof. destruct l as [|a [|b [|]]]; cbn; intros H; try discriminate. exists a, b. reflexivity. Qed.
Lemma cnt16 x : length x = 4%nat -> Nat.Even (length (v_cnt (vec 4 x))).
Proof. intros H. apply (even_len _ 8). rewrite cnt_length, vec_length, H. reflexivity. Qed.
Lemma bp1 a b : bp [a] [b] = popcount32 (Z.lxor a b).
Proof. unfold bp, sumz. cbn [zipw map fold_right]. apply Z.add_0_r. Qed.
Lemma bp2 a b c d : bp [a; b] [c; d] = popcount32 (Z.lxor a c) + popcount32 (Z.lxor b d).
Proof. unfold bp, sumz. cbn [zipw map fold_right]. rewrite Z.add_0_r. reflexivity. Qed.
Lemma acc_ok1 acc x L k : length acc = 8%nat -> length x = 1%nat ->
  v_uadalp2 (vec 2 acc) (v_addp (v_cnt (v_eor (vec 4 (rep 1 x)) (vec 4 (wlist L k 4)))) (v_cnt (v_eor (vec 4 (rep 1 x)) (vec 4 (wlist L (k + 4) 4)))))
  = vec 2 (zipw Z.add acc (prods 1 x L k)).
Proof.
  intros La Lx. destruct (len1 x Lx) as (a & ->). change (rep 1 [a]) with [a; a; a; a]. rewrite !v_eor_vec.
  rewrite (addp_noov 8); [|lia|apply cnt_bound|apply cnt_bound|apply cnt16; reflexivity].
  unfold v_uadalp2. rewrite lanes2, pairs_app.
  2:{ apply (even_len _ 4). rewrite pairs_length, cnt_length, vec_length. reflexivity. }
  rewrite !pairs_cnt. change 65536 with (2 ^ (8 * Z.of_nat 2)). rewrite vec_add. f_equal. f_equal.
  unfold prods. change (Z.of_nat 1) with 1. cbn [wlist map zipw app]. rewrite !bp1.
  replace (k + 1 * 0) with k by ring. replace (k + 1 * 1) with (k + 1) by ring. replace (k + 1 * 2) with (k + 1 + 1) by ring.
  replace (k + 1 * 3) with (k + 1 + 1 + 1) by ring. replace (k + 1 * 4) with (k + 4) by ring. replace (k + 1 * 5) with (k + 4 + 1) by ring.
  replace (k + 1 * 6) with (k + 4 + 1 + 1) by ring. replace (k + 1 * 7) with (k + 4 + 1 + 1 + 1) by ring. reflexivity.
Qed.
Lemma acc_ok2 acc x L k : length acc = 8%nat -> length x = 2%nat ->
  v_uadalp2 (vec 2 acc) (v_addp
     (v_addp (v_cnt (v_eor (vec 4 (rep 2 x)) (vec 4 (wlist L k 4)))) (v_cnt (v_eor (vec 4 (rep 2 x)) (vec 4 (wlist L (k + 4) 4)))))
     (v_addp (v_cnt (v_eor (vec 4 (rep 2 x)) (vec 4 (wlist L (k + 8) 4)))) (v_cnt (v_eor (vec 4 (rep 2 x)) (vec 4 (wlist L (k + 12) 4))))))
  = vec 2 (zipw Z.add acc (prods 2 x L k)).
Proof.
  intros La Lx. destruct (len2 x Lx) as (a & b & ->). change (rep 2 [a; b]) with [a; b; a; b]. rewrite !v_eor_vec.
  rewrite addp_tree by reflexivity. unfold v_uadalp2. rewrite lanes2. change 65536 with (2 ^ (8 * Z.of_nat 2)). rewrite vec_add. f_equal. f_equal.
  unfold prods. change (Z.of_nat 2) with 2. cbn [wlist map zipw app pairs]. rewrite !bp2.
  replace (k + 2 * 0) with k by ring. replace (k + 2 * 1) with (k + 1 + 1) by ring. replace (k + 2 * 2) with (k + 4) by ring.
  replace (k + 2 * 3) with (k + 4 + 1 + 1) by ring. replace (k + 2 * 4) with (k + 8) by ring. replace (k + 2 * 5) with (k + 8 + 1 + 1) by ring.
  replace (k + 2 * 6) with (k + 12) by ring. replace (k + 2 * 7) with (k + 12 + 1 + 1) by ring. reflexivity.
Qed.
Lemma acc_ok4 acc x L k : length acc = 8%nat -> length x = 4%nat ->
  acc8_val (vec 2 acc) (v_eor (vec 4 (rep 4 x)) (vec 4 (wlist L k 4))) (v_eor (vec 4 (rep 4 x)) (vec 4 (wlist L (k + 4) 4)))
    (v_eor (vec 4 (rep 4 x)) (vec 4 (wlist L (k + 8) 4))) (v_eor (vec 4 (rep 4 x)) (vec 4 (wlist L (k + 12) 4)))
    (v_eor (vec 4 (rep 4 x)) (vec 4 (wlist L (k + 16) 4))) (v_eor (vec 4 (rep 4 x)) (vec 4 (wlist L (k + 20) 4)))
    (v_eor (vec 4 (rep 4 x)) (vec 4 (wlist L (k + 24) 4))) (v_eor (vec 4 (rep 4 x)) (vec 4 (wlist L (k + 28) 4)))
  = vec 2 (zipw Z.add acc (prods 4 x L k)).
Proof.
  intros La Lx. assert (R : rep 4 x = x) by (unfold rep; change (4 / 4)%nat with 1%nat; cbn [repeat concat]; apply app_nil_r). rewrite R.
  rewrite acc8_ok by (assumption || apply wlist_length). f_equal. f_equal. unfold prods. change (Z.of_nat 4) with 4. cbn [map].
  replace (k + 4 * 0) with k by ring. reflexivity.
Qed.

(** ** The blocks *)
Definition ireg (q : iptr) : region := match q with PIn _ => RIn | PZero _ => RZero end.
Definition ioff (q : iptr) : Z := match q with PIn o => o | PZero o => o end.
Definition imem (E : env) (q : iptr) : list Z := match q with PIn _ => e_in E | PZero _ => e_zero E end.
Definition qadd (q : iptr) (d : Z) : iptr := match q with PIn o => PIn (o + d) | PZero o => PZero (o + d) end.
(** [n] words can be read through [q]; their values. *)
Definition inb (E : env) (q : iptr) (n : Z) : Prop := 0 <= ioff q /\ ioff q + n <= zlen (imem E q).
Definition iwords (E : env) (q : iptr) (n : nat) : list Z := wlist (imem E q) (ioff q) n.
Lemma vptr_eq q : vptr q = Ptr (ireg q) (4 * ioff q).
Proof. destruct q; reflexivity. Qed.
Lemma ireg_ok E q : word_region E (ireg q) (imem E q).
Proof. destruct q; reflexivity. Qed.
Lemma vptr_qadd q d : vptr (qadd q d) = Ptr (ireg q) (4 * (ioff q + d)).
Proof. destruct q; reflexivity. Qed.
Definition AP : list xreg := [A_PTR 0; A_PTR 1; A_PTR 2; A_PTR 3].
Definition kblock (D : nat) : list instr := match D with 1%nat => kblock1 | 2%nat => kblock2 | _ => kblock4 end.

Section Blocks.
  Variables (ops : nops) (E : env).
  Notation L := (e_lhs E).
  Definition wregs (D : nat) (k : Z) (f : nat -> list Z) : Prop :=
    forall i, (i < 2 * D)%nat -> f (rw i) = vec 4 (wlist L (k + 4 * Z.of_nat i) 4).
  Definition actr (D : nat) (x : nat -> list Z) (f : nat -> list Z) : Prop := forall i, (i < 4)%nat -> f (ra i) = vec 4 (rep D (x i)).
  Definition accr (acc : nat -> list Z) (f : nat -> list Z) : Prop := forall i, (i < 4)%nat -> f (rc i) = vec 2 (acc i).
  Definition aptr (q : nat -> iptr) (g : xreg -> val) : Prop := forall i, (i < 4)%nat -> g (A_PTR i) = vptr (q i).
  (** The state a block starts in: weights from word [k], activations [x],
      accumulators [acc]; the pointers are at word [kw] and at [q]. *)
  Record bpre (D : nat) (k kw : Z) (x acc : nat -> list Z) (q : nat -> iptr) (f : nat -> list Z) (g : xreg -> val) : Prop := {
    bp_w : wregs D k f; bp_a : actr D x f; bp_c : accr acc f;
    bp_xl : forall i, (i < 4)%nat -> length (x i) = D; bp_cl : forall i, (i < 4)%nat -> length (acc i) = 8%nat;
    bp_wp : g W_PTR = Ptr RLhs (4 * kw); bp_kw : 0 <= kw; bp_kl : kw + 8 * Z.of_nat D <= zlen L;
    bp_ap : aptr q g; bp_in : forall i, (i < 4)%nat -> inb E (q i) (Z.of_nat D) }.
  Definition block_spec (D : nat) (blk : list instr) : Prop :=
    forall k kw x acc q f g fl tm lg (Q : st -> Prop), bpre D k kw x acc q f g ->
      (forall f' g', wregs D kw f' -> actr D (fun i => iwords E (q i) D) f' ->
         accr (fun i => zipw Z.add (acc i) (prods D (x i) L k)) f' ->
         g' W_PTR = Ptr RLhs (4 * (kw + 8 * Z.of_nat D)) -> aptr (fun i => qadd (q i) (Z.of_nat D)) g' ->
         same_x (W_PTR :: AP) g' g -> Q (mk f' g' fl tm lg)) ->
      wp (exec ops E blk (mk f g fl tm lg)) Q.
  Ltac four H := first [destruct H as [|[|[|[|?]]]]; [| | | |exfalso; lia]].
  Ltac stv := repeat (match goal with |- wp (exec _ _ (V _ :: _) _) _ => refine (st_v _ _ _ _ _ _ _ _ _ _ _) end).
  Ltac ldw kw GW off := apply (st_ldrq ops E (kw + off) RLhs L _ _ _ (4 * kw)); [exact GW|lia|reflexivity|lia|lia|]; stv.
  Lemma block1 : block_spec 1 kblock1.
  Proof.
    intros k kw x acc q f g fl tm lg Q [Hw Ha Hc Xl Cl GW K0 Kl GA GI] HQ. change (Z.of_nat 1) with 1 in *. unfold kblock1.
    assert (P : forall i, (i < 4)%nat -> g (A_PTR i) = Ptr (ireg (q i)) (4 * ioff (q i))) by (intros i Hi; rewrite (GA i Hi); apply vptr_eq).
    assert (I : forall i, (i < 4)%nat -> 0 <= ioff (q i) /\ ioff (q i) + 1 <= zlen (imem E (q i))) by exact GI.
    stv. ldw kw GW 0. ldw kw GW 4.
    apply (st_ld1rp ops E (ioff (q 0%nat)) (ireg (q 0%nat)) (imem E (q 0%nat))); [exact (P 0%nat ltac:(lia))|apply ireg_ok|apply (I 0%nat); lia|apply (I 0%nat); lia|]; stv.
    apply (st_ld1rp ops E (ioff (q 1%nat)) (ireg (q 1%nat)) (imem E (q 1%nat))); [exact (P 1%nat ltac:(lia))|apply ireg_ok|apply (I 1%nat); lia|apply (I 1%nat); lia|]; stv.
    apply (st_ld1rp ops E (ioff (q 2%nat)) (ireg (q 2%nat)) (imem E (q 2%nat))); [exact (P 2%nat ltac:(lia))|apply ireg_ok|apply (I 2%nat); lia|apply (I 2%nat); lia|]; stv.
    apply (st_ld1rp ops E (ioff (q 3%nat)) (ireg (q 3%nat)) (imem E (q 3%nat))); [exact (P 3%nat ltac:(lia))|apply ireg_ok|apply (I 3%nat); lia|apply (I 3%nat); lia|]; stv.
    apply (st_addxi ops E _ _ _ RLhs (4 * kw)); [exact GW|].
    stv. apply st_nil, HQ.
    - intros i Hi. destruct i as [|[|i]]; [reflexivity|reflexivity|exfalso; lia].
    - intros i Hi. four i; reflexivity.
    - assert (W0 := Hw 0%nat ltac:(lia)). assert (W1 := Hw 1%nat ltac:(lia)). change (4 * Z.of_nat 0) with 0 in W0. rewrite Z.add_0_r in W0. change (4 * Z.of_nat 1) with 4 in W1.
      intros i Hi. rewrite <- (acc_ok1 _ _ _ _ (Cl i Hi) (Xl i Hi)), <- W0, <- W1, <- (Ha i Hi), <- (Hc i Hi).
      four i; reflexivity.
    - replace (4 * (kw + 8 * 1)) with (4 * kw + 32) by ring. reflexivity.
    - intros i Hi. rewrite vptr_qadd. four i; reflexivity.
    - unfold AP. sx.
  Qed.
  Lemma block2 : block_spec 2 kblock2.
  Proof.
    intros k kw x acc q f g fl tm lg Q [Hw Ha Hc Xl Cl GW K0 Kl GA GI] HQ. change (Z.of_nat 2) with 2 in *. unfold kblock2.
    assert (P : forall i, (i < 4)%nat -> g (A_PTR i) = Ptr (ireg (q i)) (4 * ioff (q i))) by (intros i Hi; rewrite (GA i Hi); apply vptr_eq).
    assert (I : forall i, (i < 4)%nat -> 0 <= ioff (q i) /\ ioff (q i) + 2 <= zlen (imem E (q i))) by exact GI.
    stv. ldw kw GW 0. ldw kw GW 4.
    apply (st_ldlo ops E (ioff (q 0%nat)) (ireg (q 0%nat)) (imem E (q 0%nat))); [exact (P 0%nat ltac:(lia))|apply ireg_ok|apply (I 0%nat); lia|apply (I 0%nat); lia|]; stv.
    apply (st_ldlo ops E (ioff (q 1%nat)) (ireg (q 1%nat)) (imem E (q 1%nat))); [exact (P 1%nat ltac:(lia))|apply ireg_ok|apply (I 1%nat); lia|apply (I 1%nat); lia|]; stv.
    apply (st_ldlo ops E (ioff (q 2%nat)) (ireg (q 2%nat)) (imem E (q 2%nat))); [exact (P 2%nat ltac:(lia))|apply ireg_ok|apply (I 2%nat); lia|apply (I 2%nat); lia|]; stv.
    apply (st_ldlo ops E (ioff (q 3%nat)) (ireg (q 3%nat)) (imem E (q 3%nat))); [exact (P 3%nat ltac:(lia))|apply ireg_ok|apply (I 3%nat); lia|apply (I 3%nat); lia|]; stv.
    apply (st_ldhi ops E (ioff (q 0%nat)) (ireg (q 0%nat)) (imem E (q 0%nat))); [exact (P 0%nat ltac:(lia))|apply ireg_ok|apply (I 0%nat); lia|apply (I 0%nat); lia|]; stv.
    apply (st_ldhi ops E (ioff (q 1%nat)) (ireg (q 1%nat)) (imem E (q 1%nat))); [exact (P 1%nat ltac:(lia))|apply ireg_ok|apply (I 1%nat); lia|apply (I 1%nat); lia|]; stv.
    apply (st_ldhi ops E (ioff (q 2%nat)) (ireg (q 2%nat)) (imem E (q 2%nat))); [exact (P 2%nat ltac:(lia))|apply ireg_ok|apply (I 2%nat); lia|apply (I 2%nat); lia|]; stv.
    apply (st_ldhi ops E (ioff (q 3%nat)) (ireg (q 3%nat)) (imem E (q 3%nat))); [exact (P 3%nat ltac:(lia))|apply ireg_ok|apply (I 3%nat); lia|apply (I 3%nat); lia|]; stv.
    ldw kw GW 8. ldw kw GW 12.
    apply (st_addxi ops E _ _ _ RLhs (4 * kw)); [exact GW|].
    stv. apply st_nil, HQ.
    - intros i Hi. do 4 (destruct i as [|i]; [reflexivity|]). exfalso; lia.
    - intros i Hi. four i; reflexivity.
    - assert (W0 := Hw 0%nat ltac:(lia)). assert (W1 := Hw 1%nat ltac:(lia)). assert (W2 := Hw 2%nat ltac:(lia)). assert (W3 := Hw 3%nat ltac:(lia)).
      change (4 * Z.of_nat 0) with 0 in W0. rewrite Z.add_0_r in W0. change (4 * Z.of_nat 1) with 4 in W1. change (4 * Z.of_nat 2) with 8 in W2. change (4 * Z.of_nat 3) with 12 in W3.
      intros i Hi. rewrite <- (acc_ok2 _ _ _ _ (Cl i Hi) (Xl i Hi)), <- W0, <- W1, <- W2, <- W3, <- (Ha i Hi), <- (Hc i Hi).
      four i; reflexivity.
    - replace (4 * (kw + 8 * 2)) with (4 * kw + 64) by ring. reflexivity.
    - intros i Hi. rewrite vptr_qadd. four i; reflexivity.
    - unfold AP. sx.
  Qed.
  Lemma block4 : block_spec 4 kblock4.
  Proof.
    intros k kw x acc q f g fl tm lg Q [Hw Ha Hc Xl Cl GW K0 Kl GA GI] HQ. change (Z.of_nat 4) with 4 in *. unfold kblock4.
    assert (P : forall i, (i < 4)%nat -> g (A_PTR i) = Ptr (ireg (q i)) (4 * ioff (q i))) by (intros i Hi; rewrite (GA i Hi); apply vptr_eq).
    assert (I : forall i, (i < 4)%nat -> 0 <= ioff (q i) /\ ioff (q i) + 4 <= zlen (imem E (q i))) by exact GI.
    stv.
    apply (st_ld1 ops E (ioff (q 0%nat)) (ireg (q 0%nat)) (imem E (q 0%nat))); [exact (P 0%nat ltac:(lia))|apply ireg_ok|apply (I 0%nat); lia|apply (I 0%nat); lia|]; stv.
    apply (st_ld1 ops E (ioff (q 1%nat)) (ireg (q 1%nat)) (imem E (q 1%nat))); [exact (P 1%nat ltac:(lia))|apply ireg_ok|apply (I 1%nat); lia|apply (I 1%nat); lia|]; stv.
    apply (st_ld1 ops E (ioff (q 2%nat)) (ireg (q 2%nat)) (imem E (q 2%nat))); [exact (P 2%nat ltac:(lia))|apply ireg_ok|apply (I 2%nat); lia|apply (I 2%nat); lia|]; stv.
    apply (st_ld1 ops E (ioff (q 3%nat)) (ireg (q 3%nat)) (imem E (q 3%nat))); [exact (P 3%nat ltac:(lia))|apply ireg_ok|apply (I 3%nat); lia|apply (I 3%nat); lia|]; stv.
    ldw kw GW 0. ldw kw GW 4. ldw kw GW 8. ldw kw GW 12. ldw kw GW 16. ldw kw GW 20. ldw kw GW 24. ldw kw GW 28.
    apply (st_addxi ops E _ _ _ RLhs (4 * kw)); [exact GW|].
    stv. apply st_nil, HQ.
    - intros i Hi. do 8 (destruct i as [|i]; [reflexivity|]). exfalso; lia.
    - intros i Hi. assert (R : rep 4 (iwords E (q i) 4) = iwords E (q i) 4) by apply app_nil_r. rewrite R. clear R. four i; reflexivity.
    - assert (W0 := Hw 0%nat ltac:(lia)). assert (W1 := Hw 1%nat ltac:(lia)). assert (W2 := Hw 2%nat ltac:(lia)). assert (W3 := Hw 3%nat ltac:(lia)).
      assert (W4 := Hw 4%nat ltac:(lia)). assert (W5 := Hw 5%nat ltac:(lia)). assert (W6 := Hw 6%nat ltac:(lia)). assert (W7 := Hw 7%nat ltac:(lia)).
      change (4 * Z.of_nat 0) with 0 in W0. rewrite Z.add_0_r in W0. change (4 * Z.of_nat 1) with 4 in W1. change (4 * Z.of_nat 2) with 8 in W2. change (4 * Z.of_nat 3) with 12 in W3.
      change (4 * Z.of_nat 4) with 16 in W4. change (4 * Z.of_nat 5) with 20 in W5. change (4 * Z.of_nat 6) with 24 in W6. change (4 * Z.of_nat 7) with 28 in W7.
      intros i Hi. rewrite <- (acc_ok4 _ _ _ _ (Cl i Hi) (Xl i Hi)), <- W0, <- W1, <- W2, <- W3, <- W4, <- W5, <- W6, <- W7, <- (Ha i Hi), <- (Hc i Hi).
      four i; reflexivity.
    - replace (4 * (kw + 8 * 4)) with (4 * kw + 128) by ring. reflexivity.
    - intros i Hi. rewrite vptr_qadd. four i; reflexivity.
    - unfold AP. sx.
  Qed.
  Lemma kblock_ok D : In D [1; 2; 4]%nat -> block_spec D (kblock D).
  Proof. intros [<- | [<- | [<- | []]]]; [exact block1|exact block2|exact block4]. Qed.
End Blocks.
