(** * A64IndOut: the output transform function of the indirect kernels. *)
From Verif Require Import Base Spec Bits Log Bgemm Indirect A64 A64Bgemm A64Lemmas A64K44 A64Store A64Trans A64Seg A64Loop44 A64Block44 A64Kernel44 A64Block84 A64Ind A64IndBlk A64IndLoop A64IndAcc A64IndTrans.
Open Scope Z_scope.

Definition oct : list Z := [0; 1; 2; 3; 4; 5; 6; 7].
Lemma inb_qadd E q d n : inb E (qadd q d) n <-> 0 <= ioff q + d /\ ioff q + d + n <= zlen (imem E q).
Proof. destruct q; reflexivity. Qed.
Lemma iwords_qadd E q d n : iwords E (qadd q d) n = wlist (imem E q) (ioff q + d) n.
Proof. destruct q; reflexivity. Qed.
Lemma map_seq_eq {A} (f g : nat -> A) n : (forall i, (i < n)%nat -> f i = g i) -> map f (seq 0 n) = map g (seq 0 n).
Proof. intros H. apply map_ext_in. intros i Hi. apply in_seq in Hi. apply H. lia. Qed.

Section Out.
  Variables (ops : nops) (t : dtype) (o : otparams) (Dn : nat) (grouped : bool).
  Variables (pw input zero : list Z) (ibuf : list iptr).
  Notation E := (ienv pw input zero ibuf o).
  Notation D := (Z.of_nat Dn).
  Variables (ip ido kb c : Z) (q : nat -> iptr) (a : nat -> Z -> Z).
  Hypotheses (HD : In Dn [1; 2; 4]%nat) (Hops : nops_ok ops).
  Hypothesis Hg : grouped = false -> ido = 0.
  Hypotheses (Hkb : 0 <= kb) (Hkl : kb + 8 * D <= zlen pw) (Hc : 0 <= c).
  Hypotheses (Hmin : int32 (p_cmin o)) (Hmax : int32 (p_cmax o)) (Hmp : Forall pat (p_mul o)) (Hbp : Forall pat (p_bias o)).
  Hypotheses (Hmu : c + 8 <= zlen (p_mul o)) (Hbi : c + 8 <= zlen (p_bias o)).
  Hypothesis Hq : forall i, (i < 4)%nat -> rd ibuf (ip + Z.of_nat i) = Some (q i).
  Hypothesis Hin : forall i, (i < 4)%nat -> inb E (qadd (q i) ido) D.
  Definition outs (i : nat) : list Z := map (fun j => oval ops t o (a i j mod 2 ^ 16) (c + j)) oct.
  Definition half (i : nat) (j : Z) : list Z := [a i j mod 2 ^ 16; a i (j + 1) mod 2 ^ 16; a i (j + 2) mod 2 ^ 16; a i (j + 3) mod 2 ^ 16].
  Definition rawh (i : nat) (j : Z) : list Z := zipw (fun '(x, m) b => tval ops (p_cmin o) (p_cmax o) x m b)
    (zipw pair (map (fun x => x * 2 ^ 1) (half i j)) (wlist (p_mul o) (c + j) 4)) (wlist (p_bias o) (c + j) 4).
  Lemma half_bd i j : Forall (fun x => 0 <= x < 65536) (half i j).
  Proof. clear. unfold half. change 65536 with (2 ^ 16). repeat (constructor; [apply Z.mod_pos_bound; lia|]). constructor. Qed.
  Lemma tr_half i j : tr ops o (vec 4 (map (fun x => x * 2 ^ 1) (half i j))) (c + j) = vec 4 (rawh i j).
  Proof.
    unfold tr. rewrite <- (dup_word (p_cmin o)), <- (dup_word (p_cmax o)).
    apply trans4; [exact Hops|exact Hmin|exact Hmax| |apply wlist_pat, Hmp|apply wlist_pat, Hbp|reflexivity].
    assert (B := half_bd i j). apply Forall_forall. intros x Hx. apply in_map_iff in Hx. destruct Hx as (y & <- & Hy).
    rewrite Forall_forall in B. specialize (B y Hy). unfold int32. change (2 ^ 1) with 2. lia.
  Qed.
  Lemma rawh_pat i j : Forall pat (rawh i j).
  Proof. unfold rawh, half. cbn [map wlist zipw]. repeat (constructor; [apply tval_pat, Hops|]). constructor. Qed.
  Lemma rawh_out i : (if is_int8 t then map (fun y => sat8z (n_cvtns ops y)) (rawh i 0 ++ rawh i 4) else rawh i 0 ++ rawh i 4) = outs i.
  Proof.
    clear. unfold rawh, half, outs, oct, oval. cbn [map wlist zipw app]. change (2 ^ 1) with 2. rewrite !(Z.mul_comm _ 2).
    change (0 + 1) with 1. change (0 + 2) with 2. change (0 + 3) with 3. change (4 + 1) with 5. change (4 + 2) with 6. change (4 + 3) with 7.
    rewrite !Z.add_0_r. rewrite <- !Z.add_assoc. cbn [Z.add Pos.add Pos.succ].
    destruct (is_int8 t); reflexivity.
  Qed.
  Lemma split8 i : vec 2 (map (a i) oct) = vec 2 (half i 0 ++ half i 4).
  Proof. rewrite vec2_mod. reflexivity. Qed.
  Lemma tr_lo i v : v = vec 2 (map (a i) oct) -> tr ops o (v_ushll 1 v) c = vec 4 (rawh i 0).
  Proof. intros ->. rewrite split8, ushll_ok by (reflexivity || apply half_bd). rewrite <- (Z.add_0_r c) at 1. apply tr_half. Qed.
  Lemma tr_hi i v : v = vec 2 (map (a i) oct) -> tr ops o (v_ushll2 1 v) (c + 4) = vec 4 (rawh i 4).
  Proof. intros ->. rewrite split8, ushll2_ok by (reflexivity || apply half_bd). apply tr_half. Qed.
  Lemma sgn8s z : sgn 8 (sat8z z mod 256) = sat8z z.
  Proof.
    assert (H : -128 <= sat8z z <= 127) by (unfold sat8z, clampz; lia). revert H. generalize (sat8z z). clear. intros y H.
    unfold sgn. change (2 ^ (8 - 1)) with 128. change (2 ^ 8) with 256. destruct (Z.ltb_spec (y mod 256) 128); Z.to_euclidean_division_equations; lia.
  Qed.
  Lemma firstn_vec1 l : length l = 8%nat -> firstn 8 (vec 1 l) = vec 1 l.
  Proof. intros H. apply firstn_all2. rewrite vec_length, H. apply le_n. Qed.
  Lemma vec1_map l : vec 1 l = map (fun x => x mod 256) l.
  Proof. induction l as [|x l IH]; [reflexivity|]. cbn [map]. rewrite <- IH. reflexivity. Qed.
  Lemma out_ok s f : tspec ops o pw input zero ibuf Dn ido kb c q f (is_int8 t) s -> (forall i, (i < 4)%nat -> f (rc i) = vec 2 (map (a i) oct)) ->
    forall i, (i < 4)%nat -> elems t s i = outs i.
  Proof.
    intros [_ _ R] Hf i Hi. specialize (R i Hi). specialize (Hf i Hi). rewrite <- rawh_out. unfold elems. destruct (is_int8 t).
    - rewrite R. unfold narrow. rewrite (tr_lo i), (tr_hi i) by exact Hf.
      rewrite int8_8 by (try apply rawh_pat; try exact Hops; reflexivity). rewrite vec1_map, !map_map. apply map_ext. intros y. apply sgn8s.
    - destruct R as [R1 R2]. rewrite R1, R2, (tr_lo i), (tr_hi i) by exact Hf. rewrite !lanes4, !map_mod_id by apply rawh_pat. reflexivity.
  Qed.
  Lemma out_prog_ok f g fl tm lg : g IND = Ptr RInd (8 * ip) -> g W_PTR = Ptr RLhs (4 * (kb + 8 * D)) -> g IDO = Int ido -> g IDOB = Int (4 * ido) ->
    g CMIN = Ptr RPar 0 -> g CMAX = Ptr RPar 4 -> g MULA = Ptr RMul (4 * c) -> g BIASA = Ptr RBias (4 * c) -> g OTA = Ptr RPar 0 -> g COUT = Int c ->
    wp (exec ops E (out_prog D t grouped) (mk f g fl tm lg)) (tspec ops o pw input zero ibuf Dn ido kb c q f (is_int8 t)).
  Proof.
    intros H1 H2 H3 H4 H5 H6 H7 H8 H9 H10.
    assert (Hin0 : forall i, (i < 4)%nat -> 0 <= oq ido q i /\ oq ido q i + D <= zlen (imem E (q i))).
    { intros i Hi. apply inb_qadd, Hin, Hi. }
    unfold out_prog. destruct HD as [<- | [<- | [<- | []]]]; cbn [Z.of_nat Pos.of_succ_nat Pos.succ Z.eqb Pos.eqb]; destruct (is_int8 t).
    - apply (int81_ok ops o pw input zero ibuf 1 grouped ip ido kb c q); assumption || reflexivity.
    - apply (float1_ok ops o pw input zero ibuf 1 grouped ip ido kb c q); assumption || reflexivity.
    - apply (int82_ok ops o pw input zero ibuf 2 grouped ip ido kb c q); assumption || reflexivity.
    - apply (float2_ok ops o pw input zero ibuf 2 grouped ip ido kb c q); assumption || reflexivity.
    - apply (int84_ok ops o pw input zero ibuf 4 grouped ip ido kb c q); assumption || reflexivity.
    - apply (float4_ok ops o pw input zero ibuf 4 grouped ip ido kb c q); assumption || reflexivity.
  Qed.
  Lemma out_straight : straight (out_prog D t grouped) = true.
  Proof. unfold out_prog. destruct HD as [<- | [<- | [<- | []]]]; cbn [Z.of_nat Pos.of_succ_nat Pos.succ Z.eqb Pos.eqb]; destruct (is_int8 t), grouped; reflexivity. Qed.
  Lemma Transform_ok (K : list (list Z) -> list (list Z) -> list (list Z) -> Prop) : is_bits t = false ->
    K (wvecs Dn pw kb) (avecs o Dn pw input zero ibuf (fun i => qadd (q i) ido)) (map outs (seq 0 4)) ->
    Transform ops t o D grouped pw input zero ibuf ido ip c (map (fun i => vec 2 (map (a i) oct)) (seq 0 4)) (4 * (kb + 8 * D)) K.
  Proof.
    intros Hb HK. unfold Transform. intros s Hv Hx. destruct s as [f g fl tm lg]. cbn [sv sx] in Hv, Hx.
    rewrite Forall_forall in Hv, Hx.
    assert (Hf : forall i, (i < 4)%nat -> f (rc i) = vec 2 (map (a i) oct)).
    { intros i Hi. apply (Hv (rc i, vec 2 (map (a i) oct))). cbn [seq map combine In]. do 4 (destruct i as [|i]; [tauto|]). exfalso; lia. }
    assert (X : forall r v, In (r, v) [(IND, Ptr RInd (8 * ip)); (W_PTR, Ptr RLhs (4 * (kb + 8 * D))); (IDO, Int ido); (IDOB, Int (4 * ido)); (CMIN, Ptr RPar 0);
       (CMAX, Ptr RPar 4); (MULA, Ptr RMul (4 * c)); (BIASA, Ptr RBias (4 * c)); (OTA, Ptr RPar 0); (COUT, Int c)] -> g r = v) by (intros r v Hi; exact (Hx (r, v) Hi)).
    apply ends_exec with (blk := out_prog D t grouped).
    - unfold code_at. apply firstn_all.
    - exact out_straight.
    - assert (W := out_prog_ok f g fl tm lg). do 10 (match type of W with (g ?r = ?v) -> _ => specialize (W (X r v ltac:(cbn [In]; tauto))) end).
      refine (wp_mono _ _ _ W _). intros s Hs. apply ends_end.
      + cbn [Nat.add]. apply nth_error_None. apply le_n.
      + rewrite (map_seq_eq (elems t s) outs) by (exact (out_ok s f Hs Hf)).
        destruct Hs as [Hw Ha _].
        rewrite (map_seq_eq (fun i => sv s (ra i)) (fun i => vec 4 (rep Dn (iwords E (qadd (q i) ido) Dn)))).
        2: { intros i Hi. rewrite (Ha i Hi), iwords_qadd. reflexivity. }
        replace (Z.to_nat (2 * D)) with (2 * Dn)%nat by lia.
        rewrite (map_seq_eq (fun i => sv s (rw i)) (fun i => vec 4 (wlist pw (kb + 4 * Z.of_nat i) 4))) by exact Hw. exact HK.
  Qed.
End Out.
