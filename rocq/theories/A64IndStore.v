(** * A64IndStore: storing a block of 8 channels of 4 pixels. *)
From Verif Require Import Base Spec Bits Log Bgemm Indirect A64 A64Bgemm A64Lemmas A64Store A64Ind A64IndOut.
Open Scope Z_scope.

Section Store.
  Variables (oc N pe t : Z) (v : Z -> Z -> Z) (out0 : list Z).
  Hypotheses (Hoc : 0 < oc) (Ht : 0 <= t) (Hpe : 4 * t < pe <= N) (Hl0 : zlen out0 = N * oc).
  (** The pixel lane [i] is stored to: its own, or pixel 0 of the tile past the end. *)
  Definition px (i : nat) : Z := if pe - 4 * t <? Z.of_nat i + 1 then 4 * t else 4 * t + Z.of_nat i.
  Definition cinv (c : Z) (out : list Z) : Prop :=
    zlen out = zlen out0 /\
    (forall pix c', 4 * t <= pix < Z.min (4 * t + 4) pe -> 0 <= c' < c -> rd out (pix * oc + c') = Some (v pix c')) /\
    (forall k, ~ (4 * t * oc <= k < Z.min (4 * t + 4) pe * oc) -> rd out k = rd out0 k).
  Lemma px_range i : (i < 4)%nat -> 4 * t <= px i < Z.min (4 * t + 4) pe.
  Proof. intros Hi. unfold px. destruct (Z.ltb_spec (pe - 4 * t) (Z.of_nat i + 1)); lia. Qed.
  Lemma px_valid i : 4 * t + Z.of_nat i < pe -> px i = 4 * t + Z.of_nat i.
  Proof. intros Hi. unfold px. destruct (Z.ltb_spec (pe - 4 * t) (Z.of_nat i + 1)); lia. Qed.
  Lemma px_0 : px 0 = 4 * t.
  Proof. clear - Hpe. unfold px. destruct (Z.ltb_spec (pe - 4 * t) (Z.of_nat 0 + 1)); lia. Qed.
  Lemma disj a b c d : 0 <= c < oc -> 0 <= d < oc -> a <> b -> a * oc + c <> b * oc + d.
  Proof. clear. intros Hc Hd Hab. nia. Qed.
  Lemma px_bounds i c n : (i < 4)%nat -> 0 <= c -> 0 <= n -> c + n <= oc -> 0 <= px i * oc + c /\ px i * oc + c + n <= zlen out0 /\
    (0 < n -> 4 * t * oc <= px i * oc + c /\ px i * oc + c + n <= Z.min (4 * t + 4) pe * oc).
  Proof. intros Hi Hc Hn Hcn. assert (P := px_range i Hi). rewrite Hl0. clear - Hoc Ht Hpe Hc Hn Hcn P. set (M := Z.min (4 * t + 4) pe) in *. assert (M <= N) by lia. clearbody M. nia. Qed.
  (** One lane: the elements of [L] at channels [c, c + n) of pixel [px i]. *)
  Lemma lane_wp i c n L out (Q : list Z -> Prop) : (i < 4)%nat -> 0 <= c -> zlen L = n -> 0 < n -> c + n <= oc -> zlen out = zlen out0 ->
    (forall out', zlen out' = zlen out0 -> (forall j, 0 <= j < n -> rd out' (px i * oc + c + j) = rd L j) ->
      (forall k, ~ (px i * oc + c <= k < px i * oc + c + n) -> rd out' k = rd out k) -> Q out') -> wp (wr_list out (px i * oc + c) L) Q.
  Proof.
    intros Hi Hc HL Hn Hcn Hlo HQ. destruct (px_bounds i c n Hi Hc ltac:(lia) Hcn) as (B0 & B1 & _).
    apply wr_list_wp; [lia|lia|]. intros m' H1 H2 H3. apply HQ; [lia| |].
    - intros j Hj. destruct (rd L j) as [x|] eqn:Ex; [apply H2, Ex|]. exfalso. unfold rd in Ex. destruct (Z.ltb_spec j 0); [lia|]. apply nth_error_None in Ex. unfold zlen in HL. lia.
    - intros k Hk. apply H3. lia.
  Qed.
  Lemma four_wp c n L out (Q : list Z -> Prop) : cinv c out -> 0 <= c -> 0 < n -> c + n <= oc ->
    (forall i, (i < 4)%nat -> zlen (L i) = n) ->
    (forall i j, (i < 4)%nat -> 4 * t + Z.of_nat i < pe -> 0 <= j < n -> rd (L i) j = Some (v (4 * t + Z.of_nat i) (c + j))) ->
    (forall out', cinv (c + n) out' -> Q out') ->
    wp (let* out := wr_list out (px 3 * oc + c) (L 3%nat) in let* out := wr_list out (px 2 * oc + c) (L 2%nat) in
        let* out := wr_list out (px 1 * oc + c) (L 1%nat) in wr_list out (px 0 * oc + c) (L 0%nat)) Q.
  Proof.
    intros (Hl & Hd & Hu) Hc Hn Hcn HL Hv HQ.
    apply wp_bind, (lane_wp 3 c n); [lia|lia|apply HL; lia|lia|lia|lia|]. intros o3 L3 V3 U3.
    apply wp_bind, (lane_wp 2 c n); [lia|lia|apply HL; lia|lia|lia|lia|]. intros o2 L2 V2 U2.
    apply wp_bind, (lane_wp 1 c n); [lia|lia|apply HL; lia|lia|lia|lia|]. intros o1 L1 V1 U1.
    apply (lane_wp 0 c n); [lia|lia|apply HL; lia|lia|lia|lia|]. intros o0 L0 V0 U0.
    apply HQ.
    (* outside the channels of this block nothing changes *)
    assert (Other : forall pix c', 0 <= c' < oc -> ~ c <= c' < c + n -> rd o0 (pix * oc + c') = rd out (pix * oc + c')).
    { intros pix c' Hc' Hno.
      assert (X : forall i, ~ px i * oc + c <= pix * oc + c' < px i * oc + c + n).
      { intros i. destruct (Z.eq_dec pix (px i)) as [-> | Ne]; [lia|]. clear - Ne Hc' Hc Hn Hcn. nia. }
      rewrite U0, U1, U2, U3 by apply X. reflexivity. }
    split; [exact L0|]. split.
    - intros pix c' Hpix Hc'. destruct (Z_lt_le_dec c' c) as [Hlt|Hge]; [rewrite Other by lia; apply Hd; lia|].
      assert (X : forall i, px i <> pix -> ~ px i * oc + c <= pix * oc + c' < px i * oc + c + n) by (intros i Ne; clear - Ne Hc' Hc Hn Hcn Hge; nia).
      assert (Ev : forall i : nat, (i < 4)%nat -> pix = 4 * t + Z.of_nat i -> forall out', (forall j, 0 <= j < n -> rd out' (px i * oc + c + j) = rd (L i) j) -> rd out' (pix * oc + c') = Some (v pix c')).
      { intros i Hi E out' V. replace (pix * oc + c') with (px i * oc + c + (c' - c)) by (rewrite px_valid by lia; rewrite E; ring).
        rewrite V, Hv by lia. rewrite <- E. do 2 f_equal. lia. }
      assert (Px : forall i : nat, (i < 4)%nat -> px i = 4 * t \/ px i = 4 * t + Z.of_nat i) by (intros i Hi; unfold px; destruct (pe - 4 * t <? Z.of_nat i + 1); auto).
      destruct (Z.eq_dec pix (4 * t)) as [E0|N0].
      { apply (Ev 0%nat); [lia|lia|exact V0]. }
      rewrite U0 by (apply X; rewrite px_0; lia).
      destruct (Z.eq_dec pix (4 * t + 1)) as [E1|N1].
      { apply (Ev 1%nat); [lia|lia|exact V1]. }
      rewrite U1 by (apply X; destruct (Px 1%nat ltac:(lia)); lia).
      destruct (Z.eq_dec pix (4 * t + 2)) as [E2|N2].
      { apply (Ev 2%nat); [lia|lia|exact V2]. }
      rewrite U2 by (apply X; destruct (Px 2%nat ltac:(lia)); lia).
      apply (Ev 3%nat); [lia|lia|exact V3].
    - intros k Hk.
      assert (X : forall i, (i < 4)%nat -> ~ px i * oc + c <= k < px i * oc + c + n).
      { intros i Hi. destruct (px_bounds i c n Hi Hc ltac:(lia) Hcn) as (_ & _ & B). specialize (B Hn). lia. }
      rewrite U0, U1, U2, U3 by (apply X; lia). apply Hu, Hk.
  Qed.

  Lemma rd_oct {A} (f : Z -> A) j : 0 <= j < 8 -> rd (map f oct) j = Some (f j).
  Proof.
    intros Hj. assert (C : j = 0 \/ j = 1 \/ j = 2 \/ j = 3 \/ j = 4 \/ j = 5 \/ j = 6 \/ j = 7) by lia.
    repeat (destruct C as [-> | C]; [reflexivity|]). subst j. reflexivity.
  Qed.
  Lemma wr_list_1 out q x : wr_list out q [x] = wr out q x.
  Proof. cbn [wr_list]. destruct (wr out q x); reflexivity. Qed.
  Lemma store_block_ok out ge c n w (Q : list Z * Z * Z -> Prop) : cinv c out -> 0 <= c < ge -> ge <= oc -> n = Z.min 8 (ge - c) ->
    (forall i j, (i < 4)%nat -> 4 * t + Z.of_nat i < pe -> 0 <= j < n -> w i j = v (4 * t + Z.of_nat i) (c + j)) ->
    (forall out', cinv (c + n) out' -> Q (out', n, c + n)) ->
    wp (store_block out ge c (px 0 * oc + c) (px 1 * oc + c) (px 2 * oc + c) (px 3 * oc + c) (map (fun i => map (w i) oct) (seq 0 4))) Q.
  Proof.
    intros HI Hc Hge Hn Hw HQ. unfold store_block. cbn [seq map]. unfold nth_list. cbn [nth].
    destruct (Z.leb_spec 8 (ge - c)) as [H8|H8].
    - assert (n = 8) by lia.
      assert (W := four_wp c 8 (fun i => map (w i) oct) out (fun out' => Q (out', 8, c + 8)) HI ltac:(lia) ltac:(lia) ltac:(lia) ltac:(reflexivity)).
      assert (W' := W). clear W.
      assert (V : forall i j, (i < 4)%nat -> 4 * t + Z.of_nat i < pe -> 0 <= j < 8 -> rd (map (w i) oct) j = Some (v (4 * t + Z.of_nat i) (c + j))).
      { intros i j Hi Hp Hj. rewrite rd_oct by exact Hj. f_equal. apply Hw; [exact Hi|exact Hp|lia]. }
      assert (Post : forall out', cinv (c + 8) out' -> Q (out', 8, c + 8)) by (intros out' Ho; subst n; rewrite H in *; apply HQ, Ho).
      specialize (W' V Post). clear V Post.
      set (l3 := map (w 3%nat) oct) in *. set (l2 := map (w 2%nat) oct) in *. set (l1 := map (w 1%nat) oct) in *. set (l0 := map (w 0%nat) oct) in *.
      cbv beta in W'. fold l3 l2 l1 l0 in W'.
      destruct (wr_list out (px 3 * oc + c) l3) as [a3|]; cbn [bind wp] in *; [|contradiction].
      destruct (wr_list a3 (px 2 * oc + c) l2) as [a2|]; cbn [bind wp] in *; [|contradiction].
      destruct (wr_list a2 (px 1 * oc + c) l1) as [a1|]; cbn [bind wp] in *; [|contradiction].
      destruct (wr_list a1 (px 0 * oc + c) l0) as [a0|]; cbn [bind wp] in *; [exact W'|contradiction].
    - replace (Z.max 1 (Z.min 7 (ge - c))) with n by lia. apply wp_bind.
      apply (for_wp (fun j out => cinv (c + j) out)).
      + rewrite Z.add_0_r. exact HI.
      + intros j o1 Hj HI1.
        set (l3 := map (w 3%nat) oct). set (l2 := map (w 2%nat) oct). set (l1 := map (w 1%nat) oct). set (l0 := map (w 0%nat) oct).
        assert (R : forall i, rd (map (w i) oct) j = Some (w i j)) by (intros i; apply rd_oct; lia).
        unfold l3, l2, l1, l0. rewrite !R. cbn [bind].
        replace (px 3 * oc + c + j) with (px 3 * oc + (c + j)) by ring. replace (px 2 * oc + c + j) with (px 2 * oc + (c + j)) by ring.
        replace (px 1 * oc + c + j) with (px 1 * oc + (c + j)) by ring. replace (px 0 * oc + c + j) with (px 0 * oc + (c + j)) by ring.
        assert (W := four_wp (c + j) 1 (fun i => [w i j]) o1 (cinv (c + j + 1)) HI1 ltac:(lia) ltac:(lia) ltac:(lia) ltac:(reflexivity)).
        cbv beta in W. rewrite !Z.add_assoc. rewrite wr_list_1 in W.
        assert (G : forall out' : list Z, cinv (c + j + 1) out' -> cinv (c + j + 1) out') by auto.
        specialize (fun H => W H G). clear G.
        assert (V : forall (i : nat) (j0 : Z), (i < 4)%nat -> 4 * t + Z.of_nat i < pe -> 0 <= j0 < 1 -> rd [w i j] j0 = Some (v (4 * t + Z.of_nat i) (c + j + j0))).
        { intros i j0 Hi Hp Hj0. replace j0 with 0 by lia. rewrite Z.add_0_r. cbn [rd Z.ltb Z.to_nat nth_error Z.compare]. f_equal. apply Hw; [exact Hi|exact Hp|lia]. }
        specialize (W V). clear V. rewrite !Z.add_assoc in W.
        destruct (wr o1 (px 3 * oc + c + j) (w 3%nat j)) as [a3|]; cbn [bind wp] in *; [|contradiction]. rewrite wr_list_1 in W.
        destruct (wr a3 (px 2 * oc + c + j) (w 2%nat j)) as [a2|]; cbn [bind wp] in *; [|contradiction]. rewrite wr_list_1 in W.
        destruct (wr a2 (px 1 * oc + c + j) (w 1%nat j)) as [a1|]; cbn [bind wp] in *; [|contradiction]. rewrite wr_list_1 in W.
        exact W.
      + intros o1 HI1. rewrite Z.max_r in HI1 by lia. cbn [wp]. replace ge with (c + n) by lia. apply HQ, HI1.
  Qed.
End Store.
