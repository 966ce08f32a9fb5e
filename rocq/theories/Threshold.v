(** * Threshold: the converter's thresholds for bit-packed convolution output,
    mlir/transforms/optimize.cc and bitpack_activations_patterns.td. *)
From Coq Require Import QArith Qabs Qround Lqa.
From Verif Require Import Base Spec Bits Bitpack Float32 Reference OutputTransform Quantize RefTheorems.
Open Scope Z_scope.

(** The arithmetic ComputeWriteBitpackedOutputThresholds uses. [c_half_floor x]
    is [std::floor(0.5 * x)], computed in double, converted to an integer. *)
Record carrier := {
  cF : Type;
  c_ofZ : Z -> cF;
  c_mul : cF -> cF -> cF; c_add : cF -> cF -> cF; c_div : cF -> cF -> cF;
  c_abs : cF -> cF;
  c_ltb : cF -> cF -> bool; c_eqb : cF -> cF -> bool; c_geb : cF -> cF -> bool;
  c_half_floor : cF -> Z
}.

Definition int32_min : Z := - 2 ^ 31.
Definition int32_max : Z := 2 ^ 31 - 1.

Section Model.
  Variable A : carrier.
  Notation F := (cF A).
  Let z : F := c_ofZ A 0.
  (** optimize.cc 125-188: the loop body of ComputeWriteBitpackedOutputThresholds *)
  Definition threshold_one (backtransform_add clamp_min clamp_max : F) (mult bias : F) : Z :=
    if c_eqb A mult z then
      if c_ltb A bias z then int32_min else int32_max
    else
      let '(emin, emax) :=
        if c_ltb A z mult then (clamp_min, clamp_max)
        else (c_mul A (c_ofZ A (-1)) clamp_max, c_mul A (c_ofZ A (-1)) clamp_min) in
      let range_start := c_add A (c_mul A emin (c_abs A mult)) bias in
      let range_end := c_add A (c_mul A emax (c_abs A mult)) bias in
      if c_ltb A range_start z && c_ltb A range_end z then int32_min
      else if c_geb A range_start z && c_geb A range_end z then int32_max
      else c_half_floor A (c_add A (c_div A bias (c_abs A mult)) backtransform_add).

  (** optimize.cc 225-231: the clamp table in GetBitpackedOutputThresholds *)
  Definition clamp_min_max (a : activation) (bt : Z) : Z * Z :=
    match a with
    | ActRelu => (0, bt)
    | ActReluN1To1 => (-1, 1)
    | ActRelu6 => (0, 6)
    | ActNone => (-1 * bt, bt)
    end.

  (** optimize.cc 205-245 GetBitpackedOutputThresholds on a filter of shape
      [n, h, w, ci] (bt is an int32 and is converted to float at 236-238). *)
  Definition GetBitpackedOutputThresholds (h w ci : Z) (mults biases : list F) (a : activation) : list Z :=
    let bt := h * w * ci in
    let '(cmin, cmax) := clamp_min_max a bt in
    map (fun '(m, b) => threshold_one (c_ofZ A bt) (c_ofZ A cmin) (c_ofZ A cmax) m b)
        (combine mults biases).

  (** optimize.cc 190-203 GetSignsOfVectorAndBroadcast4D: true stands for +1 *)
  Definition signs_of (mults : list F) : list bool := map (fun m => c_geb A m z) mults.
End Model.

(** The folded TFL_MulOp of the [n,h,w,ci] float32 filter by the [n,1,1,1]
    signs (bitpack_activations_patterns.td 39-42): multiplying an IEEE float by
    -1 flips its sign bit. *)
Definition mul_by_signs (per_channel : Z) (filter : list Z) (signs : list bool) : list Z :=
  build (zlen filter) (fun i =>
    let v := match rd filter i with Some v => v | None => 0 end in
    match rd signs (i / per_channel) with
    | Some false => Z.lxor v (2 ^ 31)
    | _ => v
    end).

(** Exact arithmetic. *)
Definition Qlt_bool (x y : Q) : bool := negb (Qle_bool y x).
Definition Qcarrier : carrier :=
  {| cF := Q; c_ofZ := inject_Z; c_mul := Qmult; c_add := Qplus; c_div := Qdiv; c_abs := Qabs;
     c_ltb := Qlt_bool; c_eqb := Qeq_bool; c_geb := fun x y => Qle_bool y x;
     c_half_floor := fun x => Qfloor ((1 # 2) * x) |}.

(** ** Proofs *)
Lemma Qlt_bool_spec x y : reflect (x < y)%Q (Qlt_bool x y).
Proof.
  unfold Qlt_bool. destruct (Qle_bool y x) eqn:E; constructor.
  - apply Qle_bool_iff in E. apply Qle_not_lt. exact E.
  - apply Qnot_le_lt. intros H. apply Qle_bool_iff in H. congruence.
Qed.
Lemma Qle_bool_spec x y : reflect (x <= y)%Q (Qle_bool x y).
Proof.
  destruct (Qle_bool x y) eqn:E; constructor.
  - apply Qle_bool_iff. exact E.
  - intros H. apply Qle_bool_iff in H. congruence.
Qed.

Lemma Qfloor_lt (q : Q) (x : Z) : Qfloor q < x <-> (q < inject_Z x)%Q.
Proof.
  split; intros H.
  - apply Qlt_le_trans with (inject_Z (Qfloor q + 1)); [apply Qlt_floor|].
    rewrite <- Zle_Qle. lia.
  - rewrite Zlt_Qlt. eapply Qle_lt_trans; [apply Qfloor_le|exact H].
Qed.

(** The general case after dividing by |mult|. [q] = bias/|mult|, [w] the
    clamped value, [v] the unclamped one; both are on the flipped scale. *)
Lemma scale_neg (m b q w : Q) : (0 < m)%Q -> (b == q * m)%Q -> (w * m + b < 0 <-> w + q < 0)%Q.
Proof.
  intros Hm E. rewrite E. setoid_replace (w * m + q * m)%Q with ((w + q) * m)%Q by ring.
  setoid_replace 0%Q with (0 * m)%Q at 1 by ring. rewrite Qmult_lt_r by exact Hm. reflexivity.
Qed.

Lemma clamp_bounds a bt v : 0 <= bt -> - bt <= v <= bt ->
  let '(c, C) := clamp_min_max a bt in
  c <= C /\ c <= act_spec a v <= Z.max c C /\
  act_spec a v = Z.max c (Z.min C v).
Proof. intros Hb Hv. destruct a; unfold clamp_min_max, act_spec; lia. Qed.

(** Flip the sign of an integer for negative multipliers. *)
Definition flip (m : Q) (v : Z) : Z := if Qle_bool 0 m then v else - v.

Lemma threshold_ok a bt (m b : Q) v x :
  0 <= bt < 2 ^ 31 -> - bt <= v <= bt -> bt - flip m v = 2 * x ->
  (2 * threshold_one Qcarrier (inject_Z bt) (inject_Z (fst (clamp_min_max a bt)))
        (inject_Z (snd (clamp_min_max a bt))) m b < bt - flip m v
   <-> (m * inject_Z (act_spec a v) + b < 0)%Q).
Proof.
  intros Hbt Hv Hx. assert (HC := clamp_bounds a bt v (proj1 Hbt) Hv).
  destruct (clamp_min_max a bt) as [c C]. cbn [fst snd]. destruct HC as (HcC & Hrange & Hact).
  set (w := act_spec a v) in *. unfold threshold_one. cbn [cF Qcarrier c_eqb c_ltb c_geb c_ofZ c_mul c_add c_div c_abs c_half_floor].
  change (inject_Z 0) with 0%Q. change (inject_Z (-1)) with (- (1))%Q.
  unfold flip in *.
  destruct (Qeq_bool m 0) eqn:E0.
  { apply Qeq_bool_iff in E0.
    destruct (Qle_bool_spec 0 m) as [_|Hn]; [|exfalso; apply Hn; rewrite E0; apply Qle_refl].
    assert (EM : (m * inject_Z w + b == b)%Q) by (rewrite E0; ring). rewrite EM.
    destruct (Qlt_bool_spec b 0) as [Hb|Hb]; unfold int32_min, int32_max; split; intros H.
    - lra.
    - clear - Hv Hbt. lia.
    - exfalso. clear - Hv Hbt H. lia.
    - exfalso. apply Hb. lra. }
  assert (Hm0 : ~ (m == 0)%Q) by (intros H; apply Qeq_bool_iff in H; congruence). clear E0.
  assert (HQ : forall y z : Z, (inject_Z y < inject_Z z)%Q -> y < z) by (intros y z0; rewrite <- Zlt_Qlt; auto).
  (* reduce to a positive multiplier M and a flipped clamp *)
  assert (Core : forall (M : Q) (e E s u : Z), (0 < M)%Q -> e <= E -> e <= s <= E -> s = Z.max e (Z.min E u) ->
    bt - u = 2 * x -> - bt <= u <= bt ->
    (2 * (let range_start := (inject_Z e * M + b)%Q in let range_end := (inject_Z E * M + b)%Q in
      if Qlt_bool range_start 0 && Qlt_bool range_end 0 then int32_min
      else if Qle_bool 0 range_start && Qle_bool 0 range_end then int32_max
      else Qfloor ((1 # 2) * (b / M + inject_Z bt))) < bt - u
     <-> (inject_Z s * M + b < 0)%Q)).
  { intros M e E s u HM HeE Hs Hsu Hbx Hu. cbv zeta.
    set (q := (b / M)%Q). assert (Hb : (b == q * M)%Q) by (unfold q; field; lra).
    rewrite (scale_neg M b q (inject_Z s) HM Hb).
    assert (R1 := scale_neg M b q (inject_Z e) HM Hb). assert (R2 := scale_neg M b q (inject_Z E) HM Hb).
    assert (Q1 : (inject_Z e <= inject_Z s)%Q) by (rewrite <- Zle_Qle; lia).
    assert (Q2 : (inject_Z s <= inject_Z E)%Q) by (rewrite <- Zle_Qle; lia).
    destruct (Qlt_bool_spec (inject_Z e * M + b) 0) as [A1|A1], (Qlt_bool_spec (inject_Z E * M + b) 0) as [A2|A2];
      rewrite ?R1, ?R2 in A1, A2; cbn [andb].
    - unfold int32_min. split; intros H; [lra|lia].
    - destruct (Qle_bool_spec 0 (inject_Z e * M + b)) as [B1|B1]; [exfalso; apply R1 in A1; lra|]. cbn [andb].
      rewrite Hbx. 
      assert (T : 2 * Qfloor ((1 # 2) * (q + inject_Z bt)) < 2 * x <-> Qfloor ((1 # 2) * (q + inject_Z bt)) < x) by lia.
      rewrite T, Qfloor_lt. 
      assert (EX : (inject_Z bt - inject_Z u == 2 * inject_Z x)%Q).
      { change 2%Q with (inject_Z 2). rewrite <- inject_Z_mult, <- Hbx. unfold Zminus, Qminus.
        rewrite inject_Z_plus, inject_Z_opp. reflexivity. }
      assert (Cs : s = u \/ (s = e /\ u <= e) \/ (s = E /\ E <= u)) by lia.
      destruct Cs as [-> | [(-> & Hle) | (-> & Hle)]].
      + split; intros H; lra.
      + rewrite Zle_Qle in Hle. split; intros H; lra.
      + rewrite Zle_Qle in Hle. split; intros H; lra.
    - exfalso. rewrite Zle_Qle in HeE. lra.
    - destruct (Qle_bool_spec 0 (inject_Z e * M + b)) as [B1|B1]; [|lra].
      destruct (Qle_bool_spec 0 (inject_Z E * M + b)) as [B2|B2]; [|lra]. cbn [andb].
      unfold int32_max. split; intros H; [clear - H Hu Hbt; lia|exfalso; apply A1, R1; lra]. }
  destruct (Qle_bool_spec 0 m) as [Hm|Hm].
  - assert (HM : (0 < m)%Q) by (destruct (Qle_lt_or_eq _ _ Hm) as [H|H]; [exact H|exfalso; apply Hm0; symmetry; exact H]).
    destruct (Qlt_bool_spec 0 m) as [_|H']; [|exfalso; auto].
    specialize (Core m c C w v HM HcC ltac:(lia) Hact Hx Hv). cbv zeta in Core.
    setoid_replace (m * inject_Z w + b)%Q with (inject_Z w * m + b)%Q by ring.
    rewrite <- Core. clear Core.
    assert (EM : (Qabs m == m)%Q) by (apply Qabs_pos; exact Hm).
    assert (E1 : Qlt_bool (inject_Z c * Qabs m + b) 0 = Qlt_bool (inject_Z c * m + b) 0)
      by (unfold Qlt_bool; rewrite EM; reflexivity).
    assert (E2 : Qlt_bool (inject_Z C * Qabs m + b) 0 = Qlt_bool (inject_Z C * m + b) 0)
      by (unfold Qlt_bool; rewrite EM; reflexivity).
    assert (EF : Qfloor ((1 # 2) * (b / Qabs m + inject_Z bt)) = Qfloor ((1 # 2) * (b / m + inject_Z bt)))
      by (apply Qfloor_comp; rewrite EM; reflexivity).
    assert (E3 : forall k, Qle_bool 0 (inject_Z k * Qabs m + b) = Qle_bool 0 (inject_Z k * m + b))
      by (intros k; rewrite EM; reflexivity).
    rewrite E1, E2, !E3, EF. reflexivity.
  - assert (HM : (0 < - m)%Q) by lra.
    destruct (Qlt_bool_spec 0 m) as [H'|_]; [exfalso; lra|].
    specialize (Core (- m)%Q (- C) (- c) (- w) (- v) HM ltac:(lia) ltac:(lia) ltac:(lia) Hx ltac:(lia)). cbv zeta in Core.
    setoid_replace (m * inject_Z w + b)%Q with (inject_Z (- w) * - m + b)%Q by (rewrite inject_Z_opp; ring).
    rewrite <- Core. clear Core.
    assert (EM : (Qabs m == - m)%Q) by (apply Qabs_neg; lra).
    assert (G : forall k : Z, (- (1) * inject_Z k * Qabs m + b == inject_Z (- k) * - m + b)%Q)
      by (intros k; rewrite EM, inject_Z_opp; ring).
    assert (E1 : forall k, Qlt_bool (- (1) * inject_Z k * Qabs m + b) 0 = Qlt_bool (inject_Z (- k) * - m + b) 0)
      by (intros k; unfold Qlt_bool; rewrite G; reflexivity).
    assert (EF : Qfloor ((1 # 2) * (b / Qabs m + inject_Z bt)) = Qfloor ((1 # 2) * (b / - m + inject_Z bt)))
      by (apply Qfloor_comp; rewrite EM; reflexivity).
    assert (E3 : forall k, Qle_bool 0 (- (1) * inject_Z k * Qabs m + b) = Qle_bool 0 (inject_Z (- k) * - m + b))
      by (intros k; rewrite G; reflexivity).
    rewrite !E1, !E3, EF. reflexivity.
Qed.

Lemma rd_combine {X Y} (l1 : list X) (l2 : list Y) i a b :
  rd l1 i = Some a -> rd l2 i = Some b -> rd (combine l1 l2) i = Some (a, b).
Proof.
  unfold rd. destruct (i <? 0); [discriminate|].
  generalize (Z.to_nat i). clear. revert l2.
  induction l1 as [|x l1 IH]; intros [|y l2] [|n] H1 H2; cbn in *; try discriminate.
  - congruence.
  - apply IH; assumption.
Qed.

Lemma zlen_combine {X Y} (l1 : list X) (l2 : list Y) : zlen l1 = zlen l2 -> zlen (combine l1 l2) = zlen l1.
Proof. unfold zlen. rewrite combine_length. lia. Qed.

Lemma conv_flip g I F1 F2 b oy ox o (s : bool) :
  (forall fy fx c, 0 <= fy < gKH g -> 0 <= fx < gKW g -> 0 <= c < gCI g ->
     F2 o fy fx c = if s then F1 o fy fx c else - F1 o fy fx c) ->
  conv g 1 I F2 b oy ox o = if s then conv g 1 I F1 b oy ox o else - conv g 1 I F1 b oy ox o.
Proof.
  intros H. unfold conv. destruct s.
  - apply sum_ext. intros fy Hy. apply sum_ext. intros fx Hx. apply sum_ext. intros c Hc.
    rewrite (H fy fx c Hy Hx Hc). reflexivity.
  - rewrite <- sum_opp. apply sum_ext. intros fy Hy. rewrite <- sum_opp. apply sum_ext. intros fx Hx.
    rewrite <- sum_opp. apply sum_ext. intros c Hc. cbv zeta. rewrite (H fy fx c Hy Hx Hc). ring.
Qed.

Lemma rlt a A b B : 0 <= a < A -> 0 <= b < B -> 0 <= a * B + b < A * B.
Proof. intros. assert (a * B + B <= A * B) by nia. nia. Qed.

Lemma neg_flip v : v = f32_one \/ v = f32_minus_one -> negative32 (Z.lxor v (2 ^ 31)) = negb (negative32 v).
Proof. intros [-> | ->]; reflexivity. Qed.

Lemma pm_negb b : pm (negb b) = - pm b.
Proof. destruct b; reflexivity. Qed.

Lemma threshold_range bt c C (m b : Q) :
  0 <= bt < 2 ^ 31 -> c <= C -> - (Z.max bt 6) <= c -> C <= Z.max bt 6 ->
  - 2 ^ 31 <= threshold_one Qcarrier (inject_Z bt) (inject_Z c) (inject_Z C) m b < 2 ^ 31.
Proof.
  intros Hbt HcC Hc HC. unfold threshold_one.
  cbn [cF Qcarrier c_eqb c_ltb c_geb c_ofZ c_mul c_add c_div c_abs c_half_floor].
  change (inject_Z 0) with 0%Q. change (inject_Z (-1)) with (- (1))%Q.
  destruct (Qeq_bool m 0) eqn:E0.
  { destruct (Qlt_bool b 0); unfold int32_min, int32_max; lia. }
  assert (Hm0 : ~ (m == 0)%Q) by (intros H; apply Qeq_bool_iff in H; congruence). clear E0.
  assert (HM : (0 < Qabs m)%Q).
  { destruct (Qlt_le_dec 0 m) as [H|H]; [rewrite Qabs_pos; lra|].
    destruct (Qle_lt_or_eq _ _ H) as [H1|H1]; [rewrite Qabs_neg; lra|contradiction]. }
  set (M := Qabs m) in *. clearbody M.
  assert (Core : forall e E : Q, (- inject_Z (Z.max bt 6) <= e)%Q -> (E <= inject_Z (Z.max bt 6))%Q -> (e <= E)%Q ->
    - 2 ^ 31 <= (if Qlt_bool (e * M + b) 0 && Qlt_bool (E * M + b) 0 then int32_min
      else if Qle_bool 0 (e * M + b) && Qle_bool 0 (E * M + b) then int32_max
      else Qfloor ((1 # 2) * (b / M + inject_Z bt))) < 2 ^ 31).
  { intros e E He HE HeE.
    set (q := (b / M)%Q). assert (Hb : (b == q * M)%Q) by (unfold q; field; lra).
    assert (R1 := scale_neg M b q e HM Hb). assert (R2 := scale_neg M b q E HM Hb).
    destruct (Qlt_bool_spec (e * M + b) 0) as [A1|A1], (Qlt_bool_spec (E * M + b) 0) as [A2|A2]; cbn [andb].
    1: unfold int32_min; lia.
    - destruct (Qle_bool_spec 0 (e * M + b)) as [B1|B1]; [exfalso; lra|]. cbn [andb].
      apply R1 in A1. assert (A3 : ~ (E + q < 0)%Q) by (intros H; apply A2, R2, H).
      assert (K1 : (inject_Z bt <= inject_Z (Z.max bt 6))%Q) by (rewrite <- Zle_Qle; lia).
      assert (K2 : (inject_Z (Z.max bt 6) <= inject_Z bt + 6)%Q)
        by (change 6%Q with (inject_Z 6); rewrite <- inject_Z_plus, <- Zle_Qle; lia).
      assert (G1 : (- (3) <= (1 # 2) * (q + inject_Z bt))%Q) by lra.
      assert (G2 : ((1 # 2) * (q + inject_Z bt) < inject_Z (Z.max bt 6))%Q) by lra.
      apply Qfloor_lt in G2. apply Qfloor_resp_le in G1. change (Qfloor (- (3))) with (-3) in G1.
      clear - G1 G2 Hbt. lia.
    - exfalso. apply A1, R1. apply R2 in A2. lra.
    - destruct (Qle_bool_spec 0 (e * M + b)) as [B1|B1]; [|lra].
      destruct (Qle_bool_spec 0 (E * M + b)) as [B2|B2]; [|lra]. cbn [andb]. unfold int32_max; lia. }
  rewrite Zle_Qle in Hc, HC, HcC. rewrite inject_Z_opp in Hc.
  destruct (Qlt_bool 0 m); apply Core; lra.
Qed.

Section EndToEnd.
  Variables (p : bconv) (a : activation) (input F : list Z) (mults biases : list Q).
  Hypothesis WF : bconv_wf p.
  Hypothesis Hin : packed input (in_pixels (geom_of p)) (channels_in p).
  Hypothesis Hnz : pad_same p && (pad_value p =? 0) = false.
  Hypothesis Hsmall : taps (geom_of p) < 2 ^ 31.
  Let CI := channels_in p / groups p.
  Let FP := filter_pixels (geom_of p).
  Hypothesis HF : zlen F = FP * CI.
  Hypothesis Hpm : forall i v, rd F i = Some v -> v = f32_one \/ v = f32_minus_one.
  Hypothesis Hm : zlen mults = out_c p.
  Hypothesis Hb : zlen biases = out_c p.

  Definition F' := mul_by_signs (f_h p * f_w p * CI) F (signs_of Qcarrier mults).
  Definition T' := GetBitpackedOutputThresholds Qcarrier (f_h p) (f_w p) CI mults biases a.

  Lemma FP_eq : FP = out_c p * f_h p * f_w p.
  Proof. unfold FP, filter_pixels. cbn. rewrite <- (wf_cout p WF). reflexivity. Qed.

  Lemma pm_words : forall i v, rd F i = Some v -> word v.
  Proof. intros i v H. destruct (Hpm i v H) as [-> | ->]; vm_compute; intuition congruence. Qed.

  Lemma len_F' : zlen F' = FP * CI.
  Proof. unfold F', mul_by_signs. rewrite zlen_build by apply zlen_nonneg. exact HF. Qed.

  Lemma rd_F' o k v m : 0 <= o < out_c p -> 0 <= k < f_h p * f_w p * CI ->
    rd F (o * (f_h p * f_w p * CI) + k) = Some v -> rd mults o = Some m ->
    rd F' (o * (f_h p * f_w p * CI) + k) = Some (if Qle_bool 0 m then v else Z.lxor v (2 ^ 31)).
  Proof.
    intros Ho Hk Hv Hom. unfold F', mul_by_signs. rewrite rd_build by (eapply rd_bounds; exact Hv).
    rewrite Hv. f_equal.
    rewrite <- (Z.div_unique_pos (o * (f_h p * f_w p * CI) + k) (f_h p * f_w p * CI) o k Hk) by ring.
    assert (HS : rd (signs_of Qcarrier mults) o = Some (Qle_bool 0 m)).
    { transitivity (option_map (fun q => Qle_bool 0 q) (rd mults o)); [apply rd_map|rewrite Hom; reflexivity]. }
    rewrite HS. destruct (Qle_bool 0 m); reflexivity.
  Qed.

  Lemma words_F' : forall i v, rd F' i = Some v -> word v.
  Proof.
    intros i v H. assert (Hi := rd_bounds _ _ _ H). rewrite len_F', <- HF in Hi.
    unfold F', mul_by_signs in H. rewrite rd_build in H by exact Hi. injection H as <-.
    destruct (rd_some F i Hi) as [u Hu]. rewrite Hu.
    destruct (Hpm i u Hu) as [-> | ->]; match goal with |- context [rd ?l ?j] => destruct (rd l j) as [[|]|] end; vm_compute; intuition congruence.
  Qed.

  Lemma len_T' : zlen T' = out_c p.
  Proof.
    unfold T', GetBitpackedOutputThresholds. destruct (clamp_min_max _ _).
    rewrite zlen_map. etransitivity; [apply (zlen_combine (X := cF Qcarrier) (Y := cF Qcarrier)); exact (eq_trans Hm (eq_sym Hb))|exact Hm].
  Qed.

  Lemma rd_T' c m bi : rd mults c = Some m -> rd biases c = Some bi ->
    rd T' c = Some (threshold_one Qcarrier (inject_Z (backtransform_add p))
      (inject_Z (fst (clamp_min_max a (backtransform_add p))))
      (inject_Z (snd (clamp_min_max a (backtransform_add p)))) m bi).
  Proof.
    intros H1 H2. unfold T', GetBitpackedOutputThresholds.
    assert (E : f_h p * f_w p * CI = backtransform_add p).
    { rewrite <- (taps_bt p WF). reflexivity. }
    rewrite E. destruct (clamp_min_max a (backtransform_add p)) as [c1 c2]. cbn [fst snd].
    rewrite rd_map. rewrite (rd_combine (X := cF Qcarrier) (Y := cF Qcarrier) mults biases c m bi H1 H2). reflexivity.
  Qed.

  (** Any thresholds: what each output bit compares with. *)
  Lemma bits_any (TT : list Z) buf1 buf2 outf outb :
    zlen TT = out_c p ->
    zlen buf1 = FP * words CI -> zlen buf2 = FP * words CI ->
    zlen outf = out_pixels (geom_of p) * out_c p ->
    zlen outb = out_pixels (geom_of p) * words (out_c p) ->
    exists f1 f2 yf yb,
      quantize_float FP CI F buf1 = Some f1 /\ quantize_float FP CI F' buf2 = Some f2 /\
      eval_ref_float p a input f1 mults biases outf = Some yf /\
      eval_ref_bits p input f2 TT outb = Some yb /\
      packed yb (out_pixels (geom_of p)) (out_c p) /\
      forall b y x c m bi t, 0 <= b < batches p -> 0 <= y < out_h p -> 0 <= x < out_w p -> 0 <= c < out_c p ->
        rd mults c = Some m -> rd biases c = Some bi -> rd TT c = Some t ->
        exists r v k, rd yf (out_pixel (geom_of p) b y x * out_c p + c) = Some r /\
          (r == m * inject_Z (act_spec a v) + bi)%Q /\
          - backtransform_add p <= v <= backtransform_add p /\ backtransform_add p - flip m v = 2 * k /\
          (bit_of yb (words (out_c p)) (out_pixel (geom_of p) b y x) c = true <-> 2 * t < backtransform_add p - flip m v).
  Proof.
    intros LT L1 L2 L3 L4.
    destruct (wf_facts p WF) as (HB&HH&HW&HKH&HKW&HOH&HOW&Hg&HCI&HCO&_). fold CI in HCI.
    assert (HOC := out_c_nonneg p WF).
    assert (HFP : 0 <= FP) by (rewrite FP_eq; repeat apply Z.mul_nonneg_nonneg; assumption).
    destruct (quantize_float_ok FP CI F buf1 HFP HCI HF L1 pm_words) as (f1 & Q1 & P1 & B1).
    destruct (quantize_float_ok FP CI F' buf2 HFP HCI len_F' L2 words_F') as (f2 & Q2 & P2 & B2).
    assert (Hev : zero_padding p = true -> (channels_in p / groups p) mod 2 = 0)
      by (unfold zero_padding; rewrite Hnz; discriminate).
    destruct (eval_ref_float_ok p WF input f1 Hin P1 Hev Hsmall a mults biases outf Hm Hb L3) as (yf & Ef & Lf & Vf).
    destruct (eval_ref_bits_ok p WF input f2 Hin P2 Hev TT outb LT L4) as (yb & Eb & Pb & Vb).
    exists f1, f2, yf, yb. do 5 (split; [assumption|]).
    intros b y x c m bi t Hbb Hy Hx Hc Hcm Hcb Hct.
    destruct (Vf b y x c m bi Hbb Hy Hx Hcm Hcb) as (r & Hr & Er).
    assert (Vt := Vb b y x c t Hbb Hy Hx Hct).
    destruct (acc_conv p WF input f2 Hin P2 Hev b y x c Hbb Hc) as [EC BC].
    assert (EF : the_conv p input f2 b y x c = flip m (the_conv p input f1 b y x c)).
    { unfold the_conv. rewrite Hnz. unfold flip.
      apply (conv_flip (geom_of p) (input_pm (geom_of p) input) (filter_pm (geom_of p) f1)
               (filter_pm (geom_of p) f2) b y x c (Qle_bool 0 m)).
      cbn [gKH gKW gCI geom_of]. intros fy fx k Hfy Hfx Hk. fold CI in Hk. unfold filter_pm. cbn [gKH gKW gCI geom_of].
      fold CI.
      assert (Hrow : 0 <= (c * f_h p + fy) * f_w p + fx < FP).
      { rewrite FP_eq. apply rlt; [apply rlt|]; assumption. }
      assert (Hk2 : 0 <= (fy * f_w p + fx) * CI + k < f_h p * f_w p * CI).
      { apply rlt; [apply rlt|]; assumption. }
      assert (Eo : ((c * f_h p + fy) * f_w p + fx) * CI + k = c * (f_h p * f_w p * CI) + ((fy * f_w p + fx) * CI + k)) by ring.
      assert (HrF : 0 <= ((c * f_h p + fy) * f_w p + fx) * CI + k < zlen F).
      { rewrite HF. apply rlt; assumption. }
      destruct (rd_some F _ HrF) as [v Hv].
      rewrite (B1 _ _ v Hrow Hk Hv). assert (Hpv := Hpm _ _ Hv). rewrite Eo in Hv.
      assert (Hv' := rd_F' c _ v m Hc Hk2 Hv Hcm). rewrite <- Eo in Hv'.
      rewrite (B2 _ _ _ Hrow Hk Hv').
      destruct (Qle_bool 0 m); [reflexivity|]. rewrite neg_flip by exact Hpv. apply pm_negb. }
    assert (BV : - taps (geom_of p) <= the_conv p input f1 b y x c <= taps (geom_of p)).
    { apply conv_bound; auto; try (intros; apply pm_bound). rewrite Hnz. lia. }
    change (conv _ _ _ _ _ _ _ _) with (the_conv p input f2 b y x c) in Vt.
    rewrite EF in *. rewrite (taps_bt p WF) in *.
    exists r, (the_conv p input f1 b y x c), (acc_ref p input f2 b y x c). split; [exact Hr|]. split; [exact Er|].
    split; [exact BV|]. split; [clear - EC; lia|exact Vt].
  Qed.

  Lemma bitpacked_output buf1 buf2 outf outb :
    zlen buf1 = FP * words CI -> zlen buf2 = FP * words CI ->
    zlen outf = out_pixels (geom_of p) * out_c p ->
    zlen outb = out_pixels (geom_of p) * words (out_c p) ->
    exists f1 f2 yf yb,
      quantize_float FP CI F buf1 = Some f1 /\ quantize_float FP CI F' buf2 = Some f2 /\
      eval_ref_float p a input f1 mults biases outf = Some yf /\
      eval_ref_bits p input f2 T' outb = Some yb /\
      packed yb (out_pixels (geom_of p)) (out_c p) /\
      forall b y x c, 0 <= b < batches p -> 0 <= y < out_h p -> 0 <= x < out_w p -> 0 <= c < out_c p ->
        exists r, rd yf (out_pixel (geom_of p) b y x * out_c p + c) = Some r /\
          (bit_of yb (words (out_c p)) (out_pixel (geom_of p) b y x) c = true <-> (r < 0)%Q).
  Proof.
    intros L1 L2 L3 L4. destruct (bits_any T' buf1 buf2 outf outb len_T' L1 L2 L3 L4) as (f1 & f2 & yf & yb & E1 & E2 & E3 & E4 & E5 & V).
    exists f1, f2, yf, yb. do 5 (split; [assumption|]). intros b y x c Hbb Hy Hx Hc.
    destruct (rd_some mults c ltac:(lia)) as [m Hcm]. destruct (rd_some biases c ltac:(lia)) as [bi Hcb].
    destruct (V b y x c m bi _ Hbb Hy Hx Hc Hcm Hcb (rd_T' c m bi Hcm Hcb)) as (r & v & k & Hr & Er & Bv & Ek & Bt).
    exists r. split; [exact Hr|]. rewrite Bt, Er.
    assert (Hsm : 0 <= backtransform_add p < 2 ^ 31) by (rewrite <- (taps_bt p WF) in *; clear - Bv Hsmall; lia).
    exact (threshold_ok a (backtransform_add p) m bi v k Hsm Bv Ek).
  Qed.

  (** Every threshold is an int32. *)
  Lemma thresholds_int32 c t : rd T' c = Some t -> - 2 ^ 31 <= t < 2 ^ 31.
  Proof.
    clear HF Hpm. intros H. assert (Hc := rd_bounds _ _ _ H). rewrite len_T' in Hc.
    destruct (rd_some mults c ltac:(lia)) as [m Hcm]. destruct (rd_some biases c ltac:(lia)) as [bi Hcb].
    rewrite (rd_T' c m bi Hcm Hcb) in H. injection H as <-.
    set (bt := backtransform_add p).
    assert (Hbt : 0 <= bt < 2 ^ 31).
    { destruct (wf_facts p WF) as (HB&HH&HW&HKH&HKW&HOH&HOW&Hg&HCI&HCO&_).
      unfold bt. rewrite <- (taps_bt p WF). split; [|exact Hsmall]. unfold taps. cbn. repeat apply Z.mul_nonneg_nonneg; assumption. }
    clearbody bt. assert (HC := clamp_bounds a bt 0 (proj1 Hbt) ltac:(lia)).
    assert (HR : fst (clamp_min_max a bt) <= snd (clamp_min_max a bt) /\ - (Z.max bt 6) <= fst (clamp_min_max a bt) /\
                 snd (clamp_min_max a bt) <= Z.max bt 6)
      by (clear - Hbt; destruct a; unfold clamp_min_max; cbn [fst snd]; lia).
    destruct (clamp_min_max a bt) as [c1 c2]. cbn [fst snd] in *. clear HC. clear - Hbt HR.
    apply threshold_range; tauto.
  Qed.
End EndToEnd.
