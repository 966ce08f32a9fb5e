(** * A64Write44: storing one 4x4 block. *)
From Verif Require Import Base Spec Bits Log Bgemm A64 A64Bgemm A64Lemmas A64K44 A64Store A64Trans A64Seg A64Block44.
Open Scope Z_scope.

Lemma nat_z3 : Z.to_nat 1 = 1%nat /\ Z.to_nat 2 = 2%nat /\ Z.to_nat 3 = 3%nat. Proof. repeat split. Qed.
Lemma vec_zlen k l : zlen (vec k l) = Z.of_nat k * zlen l.
Proof. unfold zlen. rewrite vec_length. lia. Qed.
(** Byte [q] of lane [i]. *)
Lemma rd_app_r {A} (a b : list A) q v : rd b q = Some v -> rd (a ++ b) (zlen a + q) = Some v.
Proof.
  intros H. assert (Hb := rd_bounds _ _ _ H). unfold rd, zlen in *. destruct (Z.ltb_spec q 0); [lia|].
  destruct (Z.ltb_spec (Z.of_nat (length a) + q) 0); [lia|]. rewrite nth_error_app2 by lia.
  replace (Z.to_nat (Z.of_nat (length a) + q) - length a)%nat with (Z.to_nat q) by lia. exact H.
Qed.
Lemma rd_app_l {A} (a b : list A) q v : rd a q = Some v -> rd (a ++ b) q = Some v.
Proof.
  intros H. assert (Hb := rd_bounds _ _ _ H). unfold rd, zlen in *. destruct (Z.ltb_spec q 0); [lia|]. rewrite nth_error_app1 by lia. exact H.
Qed.
Lemma rd_vec k : forall ls i x q v, rd ls i = Some x -> rd (le_split k x) q = Some v -> rd (vec k ls) (Z.of_nat k * i + q) = Some v.
Proof.
  induction ls as [|y ls IH]; intros i x q v Hi Hq.
  - apply rd_bounds in Hi. change (zlen []) with 0 in Hi. lia.
  - change (vec k (y :: ls)) with (le_split k y ++ vec k ls). rewrite rd_cons in Hi. destruct (Z.eqb_spec i 0) as [-> | Hn].
    + injection Hi as ->. replace (Z.of_nat k * 0 + q) with q by ring. apply rd_app_l, Hq.
    + replace (Z.of_nat k * i + q) with (zlen (le_split k y) + (Z.of_nat k * (i - 1) + q)).
      2:{ unfold zlen. rewrite le_split_length. ring. }
      apply rd_app_r. eapply IH; eassumption.
Qed.

Section Write.
  Variables (ops : nops) (E : env) (t : dtype).
  (** Output lanes of the four columns of the block. *)
  Variable vals : Z -> Z -> Z.
  Definition colv (j : Z) : list Z := [vals 0 j; vals 1 j; vals 2 j; vals 3 j].
  Definition held (f : nat -> list Z) : Prop :=
    forall j, 0 <= j < 4 -> firstn (4 * esize t) (f (24 + Z.to_nat j)%nat) = vec (esize t) (colv j).
  Definition zeroed (f : nat -> list Z) : Prop :=
    f 24%nat = repeat 0 16 /\ f 25%nat = repeat 0 16 /\ f 26%nat = repeat 0 16 /\ f 27%nat = repeat 0 16.
  Lemma held4 f : held f -> firstn (4 * esize t) (f 24%nat) = vec (esize t) (colv 0) /\ firstn (4 * esize t) (f 25%nat) = vec (esize t) (colv 1) /\
    firstn (4 * esize t) (f 26%nat) = vec (esize t) (colv 2) /\ firstn (4 * esize t) (f 27%nat) = vec (esize t) (colv 3).
  Proof. intros H. repeat split; [apply (H 0)|apply (H 1)|apply (H 2)|apply (H 3)]; lia. Qed.

  (** 423-434 *)
  Lemma wp_fit f g fl tm lg rows cols row col (Q : st -> Prop) :
    g DST_ROWS = Int rows -> g DST_COLS = Int cols -> g ROW = Int row -> g COL = Int col ->
    0 <= row < rows -> rows < 2 ^ 31 -> 0 <= col < cols -> cols < 2 ^ 31 ->
    (forall g' fl', g' (Xr 1) = Int (Z.min (rows - row) 4) -> g' (Xr 2) = Int (Z.min (cols - col) 4) -> same_x [Xr 1; Xr 2; Xr 3] g' g ->
       cond_holds EQ fl' = (Z.min (rows - row) 4 =? 4) && (Z.min (cols - col) 4 =? 4) -> Q (mk f g' fl' tm lg)) ->
    wp (exec ops E k44_fit (mk f g fl tm lg)) Q.
  Proof.
    intros GR GC Gr Gc Hr1 Hr2 Hc1 Hc2 HQ. unfold k44_fit.
    apply wp_exec_cons. eapply wp_subw; [exact GR|exact Gr|lia|lia|].
    apply wp_exec_cons. eapply wp_subw; [exact GC|exact Gc|lia|lia|].
    apply wp_exec_cons, wp_movi. apply wp_exec_cons. eapply wp_cmpwi; [reflexivity|lia|].
    apply wp_exec_cons. eapply wp_csel_le; [reflexivity|reflexivity|lia|lia|].
    assert (M : forall z, (if z <=? 4 then z else 4) = Z.min z 4) by (intros z; destruct (Z.leb_spec z 4); lia). rewrite M.
    apply wp_exec_cons. eapply wp_cmpwi; [reflexivity|lia|].
    apply wp_exec_cons. eapply wp_csel_le; [reflexivity|reflexivity|lia|lia|]. rewrite M.
    apply wp_exec_cons. eapply (wp_cmpw _ _ _ _ _ _ _ _ _ (Z.min (rows - row) 4) 4); [reflexivity|reflexivity|lia|lia|].
    apply wp_exec_cons. eapply (wp_ccmp _ _ _ _ (Z.min (cols - col) 4) 4); [reflexivity|reflexivity|lia|lia|].
    intros fl' Hfl. cbn [exec wp]. apply HQ; [reflexivity|reflexivity|sx|exact Hfl].
  Qed.

  (** 457-484, destination case *)
  Lemma wp_store_dst f g fl tm lg d s (Q : st -> Prop) : is_bits t = false -> held f -> g (Xr 3) = Ptr RDst d -> g (Xr 4) = Int s ->
    (forall f' g' lg', zeroed f' -> (forall q, (q < 8)%nat -> f' q = f q) -> same_x [Xr 3] g' g ->
       (forall e, In e lg' <-> In e lg \/ blkD t d s vals 4 4 e) -> Q (mk f' g' fl tm lg')) ->
    wp (exec ops E (k44_store t) (mk f g fl tm lg)) Q.
  Proof.
    intros Ht Hh G3 G4 HQ. destruct (held4 f Hh) as (H0 & H1 & H2 & H3).
    assert (Fin : forall e, In e (log_list (log_list (log_list (log_list lg (d + 0) (vec (esize t) (colv 0))) (d + s * 2 ^ 0 + 0) (vec (esize t) (colv 1)))
        (d + s * 2 ^ 0 + s * 2 ^ 0 + 0) (vec (esize t) (colv 2))) (d + s * 2 ^ 0 + s * 2 ^ 0 + s * 2 ^ 0 + 0) (vec (esize t) (colv 3)))
        <-> In e lg \/ blkD t d s vals 4 4 e).
    { assert (CR : forall j i, 0 <= i < 4 -> rd (colv j) i = Some (vals i j)).
      { intros j i Hi. assert (i = 0 \/ i = 1 \/ i = 2 \/ i = 3) as [-> | [-> | [-> | ->]]] by lia; reflexivity. }
      intros e. rewrite !log_vec_in. change (2 ^ 0) with 1. split.
      - assert (G : forall j base, 0 <= j < 4 -> base = d + j * s ->
          (exists i x q v, rd (colv j) i = Some x /\ rd (le_split (esize t) x) q = Some v /\ e = (base + Z.of_nat (esize t) * i + q, v)) ->
          blkD t d s vals 4 4 e).
        { intros j base Hj -> (i & x & q & v & Hi & Hq & ->). assert (B := rd_bounds _ _ _ Hi). change (zlen (colv j)) with 4 in B.
          rewrite CR in Hi by lia. injection Hi as <-. exists i, j, q, v. auto. }
        intros [[[[H | H] | H] | H] | H]; [auto| | | |]; right;
          [apply (G 0 (d + 0))|apply (G 1 (d + s * 1 + 0))|apply (G 2 (d + s * 1 + s * 1 + 0))|apply (G 3 (d + s * 1 + s * 1 + s * 1 + 0))]; try lia; exact H.
      - intros [H | (i & j & q & v & Hi & Hj & Hq & ->)]; [auto|].
        assert (W : forall base, base = d + j * s -> exists i0 x q0 v0, rd (colv j) i0 = Some x /\ rd (le_split (esize t) x) q0 = Some v0 /\
          (d + j * s + Z.of_nat (esize t) * i + q, v) = (base + Z.of_nat (esize t) * i0 + q0, v0)).
        { intros base ->. exists i, (vals i j), q, v. rewrite CR by lia. auto. }
        assert (j = 0 \/ j = 1 \/ j = 2 \/ j = 3) as [-> | [-> | [-> | ->]]] by lia.
        + left. left. left. right. apply W. ring.
        + left. left. right. apply W. ring.
        + left. right. apply W. ring.
        + right. apply W. ring. }
    unfold k44_store. destruct (is_float t) eqn:Hf.
    - assert (He : esize t = 4%nat) by (unfold esize; rewrite Hf; reflexivity). rewrite He in *. cbn [Nat.mul Nat.add] in *.
      cbn [app zero]. apply wp_exec_cons. eapply wp_str_dst; [exact G3|]. rewrite H0.
      apply wp_exec_cons. eapply wp_addx; [exact G3|exact G4|]. apply wp_exec_cons, wp_v, wp_exec_cons.
      eapply wp_str_dst; [reflexivity|]. apply wp_exec_cons. eapply wp_addx; [reflexivity|exact G4|].
      apply wp_exec_cons, wp_v, wp_exec_cons.
      eapply wp_str_dst; [reflexivity|]. apply wp_exec_cons. eapply wp_addx; [reflexivity|exact G4|].
      apply wp_exec_cons, wp_v, wp_exec_cons.
      eapply wp_str_dst; [reflexivity|]. apply wp_exec_cons. eapply wp_addx; [reflexivity|exact G4|].
      apply wp_exec_cons, wp_v. cbn [exec wp].
      rewrite !(vrun_other ops [VZERO 24] _ 25%nat), H1 by reflexivity.
      rewrite !(vrun_other ops [VZERO 25] _ 26%nat), !(vrun_other ops [VZERO 24] _ 26%nat), H2 by reflexivity.
      rewrite !(vrun_other ops [VZERO 26] _ 27%nat), !(vrun_other ops [VZERO 25] _ 27%nat), !(vrun_other ops [VZERO 24] _ 27%nat), H3 by reflexivity.
      apply HQ; [repeat split| |sx|exact Fin]. intros q Hq. do 8 (destruct q as [|q]; [reflexivity|]). lia.
    - assert (He : esize t = 1%nat) by (unfold esize; rewrite Hf; reflexivity). rewrite He in *. cbn [Nat.mul Nat.add] in *.
      cbn [app zero]. apply wp_exec_cons. eapply wp_str_dst; [exact G3|]. rewrite H0.
      apply wp_exec_cons. eapply wp_addx; [exact G3|exact G4|]. apply wp_exec_cons.
      eapply wp_str_dst; [reflexivity|]. rewrite H1. apply wp_exec_cons. eapply wp_addx; [reflexivity|exact G4|]. apply wp_exec_cons.
      eapply wp_str_dst; [reflexivity|]. rewrite H2. apply wp_exec_cons. eapply wp_addx; [reflexivity|exact G4|]. apply wp_exec_cons.
      eapply wp_str_dst; [reflexivity|]. rewrite H3. apply (wp_vs _ _ [VZERO 24; VZERO 25; VZERO 26; VZERO 27]%nat).
      apply HQ; [repeat split| |sx|exact Fin]. intros q Hq. do 8 (destruct q as [|q]; [reflexivity|]). lia.
  Qed.

  (** 457-484, scratch buffer case *)
  Definition in_tmp (tm : list Z) : Prop := forall i j q v, 0 <= i < 4 -> 0 <= j < 4 -> rd (le_split (esize t) (vals i j)) q = Some v ->
    rd tm (j * (4 * Z.of_nat (esize t)) + Z.of_nat (esize t) * i + q) = Some v.
  Lemma wp_store_tmp f g fl tm lg (Q : st -> Prop) : is_bits t = false -> held f -> g (Xr 3) = Ptr RTmp 0 -> g (Xr 4) = Int (4 * Z.of_nat (esize t)) ->
    16 * Z.of_nat (esize t) <= zlen tm ->
    (forall f' g' tm', zeroed f' -> (forall q, (q < 8)%nat -> f' q = f q) -> same_x [Xr 3] g' g -> zlen tm' = zlen tm -> in_tmp tm' ->
       Q (mk f' g' fl tm' lg)) ->
    wp (exec ops E (k44_store t) (mk f g fl tm lg)) Q.
  Proof.
    intros Ht Hh G3 G4 Hlen HQ. destruct (held4 f Hh) as (H0 & H1 & H2 & H3).
    assert (ZV : forall j, zlen (vec (esize t) (colv j)) = 4 * Z.of_nat (esize t)) by (intros j; rewrite vec_zlen; change (zlen (colv j)) with 4; ring).
    assert (He14 : Z.of_nat (esize t) = 4 \/ Z.of_nat (esize t) = 1) by (unfold esize; destruct (is_float t); [left|right]; reflexivity).
    set (s := 4 * Z.of_nat (esize t)) in *.
    (* the four stores, in order *)
    assert (Fin : forall tm1 tm2 tm3 tm4 o1 o2 o3, o1 = s -> o2 = 2 * s -> o3 = 3 * s ->
      (forall q x, rd (vec (esize t) (colv 0)) q = Some x -> rd tm1 (0 + 0 + q) = Some x) ->
      (forall q x, rd (vec (esize t) (colv 1)) q = Some x -> rd tm2 (o1 + 0 + q) = Some x) ->
      (forall q x, rd (vec (esize t) (colv 2)) q = Some x -> rd tm3 (o2 + 0 + q) = Some x) ->
      (forall q x, rd (vec (esize t) (colv 3)) q = Some x -> rd tm4 (o3 + 0 + q) = Some x) ->
      (forall a, a < o1 + 0 -> rd tm2 a = rd tm1 a) -> (forall a, a < o2 + 0 -> rd tm3 a = rd tm2 a) -> (forall a, a < o3 + 0 -> rd tm4 a = rd tm3 a) ->
      in_tmp tm4).
    { intros tm1 tm2 tm3 tm4 o1 o2 o3 -> -> -> S1 S2 S3 S4 K2 K3 K4 i j q v Hi Hj Hq.
      assert (Hb := rd_bounds _ _ _ Hq). unfold zlen in Hb. rewrite le_split_length in Hb.
      assert (CR : rd (colv j) i = Some (vals i j)).
      { assert (i = 0 \/ i = 1 \/ i = 2 \/ i = 3) as [-> | [-> | [-> | ->]]] by lia; reflexivity. }
      assert (RV := rd_vec (esize t) (colv j) i (vals i j) q v CR Hq).
      fold s. assert (0 <= Z.of_nat (esize t) * i + q < s) by (unfold s; nia).
      assert (j = 0 \/ j = 1 \/ j = 2 \/ j = 3) as [-> | [-> | [-> | ->]]] by lia.
      - replace (0 * s + Z.of_nat (esize t) * i + q) with (0 + 0 + (Z.of_nat (esize t) * i + q)) by ring.
        rewrite K4, K3, K2 by lia. apply S1, RV.
      - replace (1 * s + Z.of_nat (esize t) * i + q) with (s + 0 + (Z.of_nat (esize t) * i + q)) by ring.
        rewrite K4, K3 by lia. apply S2, RV.
      - replace (2 * s + Z.of_nat (esize t) * i + q) with (2 * s + 0 + (Z.of_nat (esize t) * i + q)) by ring.
        rewrite K4 by lia. apply S3, RV.
      - replace (3 * s + Z.of_nat (esize t) * i + q) with (3 * s + 0 + (Z.of_nat (esize t) * i + q)) by ring. apply S4, RV. }
    unfold k44_store. destruct (is_float t) eqn:Hf.
    - assert (He : esize t = 4%nat) by (unfold esize; rewrite Hf; reflexivity). assert (Es : s = 16) by (unfold s; rewrite He; reflexivity). rewrite He in *. cbn [Nat.mul Nat.add] in *.
      cbn [app zero]. apply wp_exec_cons. eapply wp_str_tmp; [exact G3|lia|rewrite H0, ZV; lia|]. rewrite H0. intros tm1 Z1 S1 K1.
      apply wp_exec_cons. eapply wp_addx; [exact G3|exact G4|]. apply wp_exec_cons, wp_v, wp_exec_cons.
      eapply wp_str_tmp; [reflexivity|lia|rewrite (vrun_other ops [VZERO 24] _ 25%nat), H1, ZV by reflexivity; lia|].
      rewrite (vrun_other ops [VZERO 24] _ 25%nat), H1 by reflexivity. intros tm2 Z2 S2 K2. apply wp_exec_cons. eapply wp_addx; [reflexivity|exact G4|].
      apply wp_exec_cons, wp_v, wp_exec_cons.
      assert (E26 : vrun ops [VZERO 25] (vrun ops [VZERO 24] f) 26%nat = f 26%nat) by reflexivity.
      eapply wp_str_tmp; [reflexivity|lia|rewrite E26, H2, ZV; lia|]. rewrite E26, H2. intros tm3 Z3 S3 K3.
      apply wp_exec_cons. eapply wp_addx; [reflexivity|exact G4|].
      apply wp_exec_cons, wp_v, wp_exec_cons.
      assert (E27 : vrun ops [VZERO 26] (vrun ops [VZERO 25] (vrun ops [VZERO 24] f)) 27%nat = f 27%nat) by reflexivity.
      eapply wp_str_tmp; [reflexivity|lia|rewrite E27, H3, ZV; lia|]. rewrite E27, H3. intros tm4 Z4 S4 K4.
      apply wp_exec_cons. eapply wp_addx; [reflexivity|exact G4|].
      apply wp_exec_cons, wp_v. cbn [exec wp].
      apply HQ; [repeat split| |sx|congruence|].
      + intros q Hq. do 8 (destruct q as [|q]; [reflexivity|]). lia.
      + eapply (Fin tm1 tm2 tm3 tm4); [| | |exact S1|exact S2|exact S3|exact S4|intros; apply K2; left; assumption|intros; apply K3; left; assumption|intros; apply K4; left; assumption]; lia.
    - assert (He : esize t = 1%nat) by (unfold esize; rewrite Hf; reflexivity). assert (Es : s = 4) by (unfold s; rewrite He; reflexivity). rewrite He in *. cbn [Nat.mul Nat.add] in *.
      cbn [app zero]. apply wp_exec_cons. eapply wp_str_tmp; [exact G3|lia|rewrite H0, ZV; lia|]. rewrite H0. intros tm1 Z1 S1 K1.
      apply wp_exec_cons. eapply wp_addx; [exact G3|exact G4|]. apply wp_exec_cons.
      eapply wp_str_tmp; [reflexivity|lia|rewrite H1, ZV; lia|]. rewrite H1. intros tm2 Z2 S2 K2. apply wp_exec_cons. eapply wp_addx; [reflexivity|exact G4|].
      apply wp_exec_cons.
      eapply wp_str_tmp; [reflexivity|lia|rewrite H2, ZV; lia|]. rewrite H2. intros tm3 Z3 S3 K3.
      apply wp_exec_cons. eapply wp_addx; [reflexivity|exact G4|]. apply wp_exec_cons.
      eapply wp_str_tmp; [reflexivity|lia|rewrite H3, ZV; lia|]. rewrite H3. intros tm4 Z4 S4 K4.
      apply (wp_vs _ _ [VZERO 24; VZERO 25; VZERO 26; VZERO 27]%nat).
      apply HQ; [repeat split| |sx|congruence|].
      + intros q Hq. do 8 (destruct q as [|q]; [reflexivity|]). lia.
      + eapply (Fin tm1 tm2 tm3 tm4); [| | |exact S1|exact S2|exact S3|exact S4|intros; apply K2; left; assumption|intros; apply K3; left; assumption|intros; apply K4; left; assumption]; lia.
  Qed.
End Write.
