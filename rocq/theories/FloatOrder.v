(** * FloatOrder: IEEE binary32 comparison and subtraction in integer terms.
    Nothing in /repo is modelled here. *)
From Coq Require Import SpecFloat.
From Verif Require Import Base Spec Bitpack Float32.

(** Canonical binary32 values. *)
Definition valid32 (x : spec_float) : Prop :=
  match x with
  | S754_finite _ m e => Z.pos m < 2 ^ 24 /\ -149 <= e <= 104 /\ (-149 < e -> 2 ^ 23 <= Z.pos m)
  | _ => True
  end.
Definition is_nan (x : spec_float) : bool := match x with S754_nan => true | _ => false end.
Definition is_fin (x : spec_float) : bool :=
  match x with S754_finite _ _ _ | S754_zero _ => true | _ => false end.

(** The value in units of 2^-149 (the smallest subnormal); infinity is a number
    larger than all finite ones. *)
Definition fv (x : spec_float) : Z :=
  match x with
  | S754_finite s m e => (if s then -1 else 1) * (Z.pos m * 2 ^ (e + 149))
  | S754_infinity s => (if s then -1 else 1) * 2 ^ 300
  | _ => 0
  end.

Lemma decode32_valid w : word w -> valid32 (decode32 w).
Proof.
  intros Hw. unfold word in Hw. unfold decode32.
  assert (H1 := Z.mod_pos_bound w (2 ^ 23) ltac:(lia)).
  assert (H2 := Z.mod_pos_bound (w / 2 ^ 23) (2 ^ 8) ltac:(lia)).
  set (e := (w / 2 ^ 23) mod 2 ^ 8) in *. set (m := w mod 2 ^ 23) in *. clearbody e m.
  destruct (Z.eqb_spec e 255); [destruct (m =? 0); exact I|].
  destruct (Z.eqb_spec e 0).
  - destruct m as [|q|q] eqn:Em; cbn [valid32]; try exact I. lia.
  - destruct (m + 2 ^ 23) as [|q|q] eqn:Em; cbn [valid32]; try exact I. lia.
Qed.

Lemma decode32_nan w : word w -> is_nan (decode32 w) = (255 * 2 ^ 23 <? w mod 2 ^ 31).
Proof.
  intros Hw. unfold word in Hw. unfold decode32.
  assert (H0 := Z.mod_pos_bound w (2 ^ 31) ltac:(lia)).
  assert (E1 : w mod 2 ^ 23 = (w mod 2 ^ 31) mod 2 ^ 23) by lia.
  assert (E2 : (w / 2 ^ 23) mod 2 ^ 8 = (w mod 2 ^ 31) / 2 ^ 23) by lia. rewrite E1, E2.
  set (k := w mod 2 ^ 31) in *. clearbody k. clear - H0.
  destruct (Z.eqb_spec (k / 2 ^ 23) 255).
  - destruct (Z.eqb_spec (k mod 2 ^ 23) 0); cbn [is_nan]; lia.
  - destruct (Z.eqb_spec (k / 2 ^ 23) 0).
    + destruct (k mod 2 ^ 23) eqn:E; cbn [is_nan]; lia.
    + destruct (k mod 2 ^ 23 + 2 ^ 23) eqn:E; cbn [is_nan]; lia.
Qed.

Lemma pow_pos_pos e : 0 <= e -> 0 < 2 ^ e.
Proof. intros; apply Z.pow_pos_nonneg; lia. Qed.

Lemma fv_bound s m e : valid32 (S754_finite s m e) -> 0 < Z.pos m * 2 ^ (e + 149) < 2 ^ 300.
Proof.
  intros (Hm & He & _). assert (0 < 2 ^ (e + 149)) by (apply pow_pos_pos; lia).
  assert (2 ^ (e + 149) <= 2 ^ 253) by (apply Z.pow_le_mono_r; lia).
  split; [nia|]. apply Z.le_lt_trans with (2 ^ 24 * 2 ^ 253); [nia|]. rewrite <- Z.pow_add_r by lia.
  apply Z.pow_lt_mono_r; lia.
Qed.

(** Lexicographic comparison of canonical magnitudes is comparison of values. *)
Lemma mag_compare m1 e1 m2 e2 :
  Z.pos m1 < 2 ^ 24 -> Z.pos m2 < 2 ^ 24 -> -149 <= e1 -> -149 <= e2 ->
  (-149 < e1 -> 2 ^ 23 <= Z.pos m1) -> (-149 < e2 -> 2 ^ 23 <= Z.pos m2) ->
  match Z.compare e1 e2 with Lt => Lt | Gt => Gt | Eq => Pos.compare_cont Eq m1 m2 end =
  Z.compare (Z.pos m1 * 2 ^ (e1 + 149)) (Z.pos m2 * 2 ^ (e2 + 149)).
Proof.
  assert (G : forall m1 e1 m2 e2, Z.pos m1 < 2 ^ 24 -> -149 <= e1 -> e1 < e2 -> 2 ^ 23 <= Z.pos m2 ->
    Z.pos m1 * 2 ^ (e1 + 149) < Z.pos m2 * 2 ^ (e2 + 149)).
  { intros a e b f Ha He Hef Hb.
    assert (0 < 2 ^ (e + 149)) by (apply pow_pos_pos; lia).
    apply Z.lt_le_trans with (2 ^ 24 * 2 ^ (e + 149)); [nia|].
    replace (2 ^ 24 * 2 ^ (e + 149)) with (2 ^ 23 * 2 ^ (e + 1 + 149)).
    2: { replace (e + 1 + 149) with (Z.succ (e + 149)) by lia. rewrite Z.pow_succ_r by lia. ring. }
    apply Z.mul_le_mono_nonneg; [lia|exact Hb|apply Z.pow_nonneg; lia|apply Z.pow_le_mono_r; lia]. }
  intros H1 H2 H3 H4 H5 H6. destruct (Z.compare_spec e1 e2) as [->|Hlt|Hgt].
  - change (Pos.compare_cont Eq m1 m2) with (Pos.compare m1 m2). change (Pos.compare m1 m2) with (Z.compare (Z.pos m1) (Z.pos m2)).
    apply Zmult_compare_compat_r. apply Z.lt_gt, pow_pos_pos. lia.
  - symmetry. apply Z.compare_lt_iff. apply G; auto. apply H6. lia.
  - symmetry. apply Z.compare_gt_iff. apply G; auto. apply H5. lia.
Qed.

Lemma SFcompare_fv x y : valid32 x -> valid32 y -> is_nan x = false -> is_nan y = false ->
  SFcompare x y = Some (Z.compare (fv x) (fv y)).
Proof.
  intros Vx Vy Nx Ny.
  assert (B : forall s m e, valid32 (S754_finite s m e) -> 0 < Z.pos m * 2 ^ (e + 149) < 2 ^ 300) by exact fv_bound.
  assert (HI : 0 < 2 ^ 300) by (apply pow_pos_pos; lia).
  destruct x as [s1|s1| |s1 m1 e1], y as [s2|s2| |s2 m2 e2]; try discriminate; cbn [SFcompare fv]; f_equal.
  - symmetry. apply Z.compare_lt_iff || (destruct s2; [apply Z.compare_gt_iff|apply Z.compare_lt_iff]); lia.
  - apply B in Vy. symmetry. destruct s2; [apply Z.compare_gt_iff|apply Z.compare_lt_iff]; lia.
  - symmetry. destruct s1; [apply Z.compare_lt_iff|apply Z.compare_gt_iff]; lia.
  - symmetry. destruct s1, s2; [apply Z.compare_eq_iff|apply Z.compare_lt_iff|apply Z.compare_gt_iff|apply Z.compare_eq_iff]; lia.
  - apply B in Vy. symmetry. destruct s1, s2; [apply Z.compare_lt_iff|apply Z.compare_lt_iff|apply Z.compare_gt_iff|apply Z.compare_gt_iff]; lia.
  - apply B in Vx. symmetry. destruct s1; [apply Z.compare_lt_iff|apply Z.compare_gt_iff]; lia.
  - apply B in Vx. symmetry. destruct s1, s2; [apply Z.compare_gt_iff|apply Z.compare_lt_iff|apply Z.compare_gt_iff|apply Z.compare_lt_iff]; lia.
  - assert (Bx := B _ _ _ Vx). assert (By := B _ _ _ Vy).
    destruct Vx as (X1 & X2 & X3), Vy as (Y1 & Y2 & Y3).
    assert (M := mag_compare m1 e1 m2 e2 X1 Y1 (proj1 X2) (proj1 Y2) X3 Y3).
    destruct s1, s2.
    + replace (-1 * (Z.pos m1 * 2 ^ (e1 + 149))) with (- (Z.pos m1 * 2 ^ (e1 + 149))) by lia.
      replace (-1 * (Z.pos m2 * 2 ^ (e2 + 149))) with (- (Z.pos m2 * 2 ^ (e2 + 149))) by lia.
      rewrite Z.compare_opp. rewrite (Z.compare_antisym (Z.pos m1 * _)), <- M. destruct (e1 ?= e2); reflexivity.
    + symmetry. apply Z.compare_lt_iff. lia.
    + symmetry. apply Z.compare_gt_iff. lia.
    + rewrite !Z.mul_1_l. exact M.
Qed.

Lemma SFltb_fv x y : valid32 x -> valid32 y -> is_nan x = false -> is_nan y = false ->
  SFltb x y = (fv x <? fv y).
Proof.
  intros. unfold SFltb. rewrite SFcompare_fv by assumption. unfold Z.ltb. destruct (_ ?= _); reflexivity.
Qed.
Lemma SFleb_fv x y : valid32 x -> valid32 y -> is_nan x = false -> is_nan y = false ->
  SFleb x y = (fv x <=? fv y).
Proof.
  intros. unfold SFleb. rewrite SFcompare_fv by assumption. unfold Z.leb. destruct (_ ?= _); reflexivity.
Qed.
Lemma SFltb_nan x y : is_nan x || is_nan y = true -> SFltb x y = false.
Proof. destruct x, y; cbn; try discriminate; reflexivity. Qed.
Lemma SFleb_nan x y : is_nan x || is_nan y = true -> SFleb x y = false.
Proof. destruct x, y; cbn; try discriminate; reflexivity. Qed.

(** ** Rounding never turns a non-zero sum into zero *)
Lemma shr_1_m r : 0 <= shr_m r -> shr_m (shr_1 r) = shr_m r / 2.
Proof.
  destruct r as [m r s]. cbn [shr_m shr_1]. intros H. destruct m as [|[p|p|]|p]; cbn [shr_m]; try lia.
Qed.

Lemma iter_shr_m p : forall r, 0 <= shr_m r -> shr_m (SpecFloat.iter_pos shr_1 p r) = shr_m r / 2 ^ Z.pos p.
Proof.
  induction p as [p IH|p IH|]; intros r Hr; cbn [SpecFloat.iter_pos].
  - assert (H1 : 0 <= shr_m (shr_1 r)) by (rewrite shr_1_m by exact Hr; lia).
    assert (H2 : 0 <= shr_m (SpecFloat.iter_pos shr_1 p (shr_1 r))).
    { rewrite IH by exact H1. apply Z.div_pos; [exact H1|apply pow_pos_pos; lia]. }
    rewrite IH by exact H2. rewrite IH by exact H1. rewrite shr_1_m by exact Hr.
    rewrite !Z.div_div by (try apply Z.pow_nonzero; try apply pow_pos_pos; lia).
    f_equal. replace (Z.pos p~1) with (1 + Z.pos p + Z.pos p) by lia.
    rewrite !Z.pow_add_r by lia. change (2 ^ 1) with 2. ring.
  - assert (H2 : 0 <= shr_m (SpecFloat.iter_pos shr_1 p r)).
    { rewrite IH by exact Hr. apply Z.div_pos; [exact Hr|apply pow_pos_pos; lia]. }
    rewrite IH by exact H2. rewrite IH by exact Hr.
    rewrite Z.div_div by (try apply Z.pow_nonzero; try apply pow_pos_pos; lia).
    f_equal. replace (Z.pos p~0) with (Z.pos p + Z.pos p) by lia. rewrite Z.pow_add_r by lia. ring.
  - rewrite shr_1_m by exact Hr. reflexivity.
Qed.

Lemma digits_low m : 2 ^ (Z.pos (digits2_pos m) - 1) <= Z.pos m.
Proof.
  induction m as [p IH|p IH|]; cbn [digits2_pos]; try (cbn; lia).
  - rewrite Pos2Z.inj_succ. replace (Z.succ (Z.pos (digits2_pos p)) - 1) with (Z.succ (Z.pos (digits2_pos p) - 1)) by lia.
    rewrite Z.pow_succ_r by lia. lia.
  - rewrite Pos2Z.inj_succ. replace (Z.succ (Z.pos (digits2_pos p)) - 1) with (Z.succ (Z.pos (digits2_pos p) - 1)) by lia.
    rewrite Z.pow_succ_r by lia. lia.
Qed.

Lemma shr_fexp_pos m e l : -149 <= e ->
  exists q e', shr_fexp 24 128 (Z.pos m) e l = (q, e') /\ 0 < shr_m q /\ -149 <= e'.
Proof.
  intros He. unfold shr_fexp. cbn [Zdigits2].
  assert (Hm : shr_m (shr_record_of_loc (Z.pos m) l) = Z.pos m) by (destruct l as [|[| |]]; reflexivity).
  assert (HD := digits_low m). set (d := Z.pos (digits2_pos m)) in *.
  assert (Hd : 1 <= d) by (unfold d; lia). clearbody d.
  unfold fexp, emin. change (3 - 128 - 24) with (-149).
  unfold shr. destruct (Z.max (d + e - 24) (-149) - e) as [|n|n] eqn:En.
  - eexists _, _. split; [reflexivity|]. rewrite Hm. lia.
  - eexists _, _. split; [reflexivity|]. rewrite iter_shr_m by lia. rewrite Hm. split; [|lia].
    apply Z.div_str_pos. split; [apply pow_pos_pos; lia|].
    etransitivity; [|exact HD]. apply Z.pow_le_mono_r; lia.
  - eexists _, _. split; [reflexivity|]. rewrite Hm. lia.
Qed.

Lemma round_aux_sign s m e l : -149 <= e ->
  exists m' e', binary_round_aux 24 128 s (Z.pos m) e l = S754_finite s m' e' \/
                binary_round_aux 24 128 s (Z.pos m) e l = S754_infinity s.
Proof.
  intros He. unfold binary_round_aux.
  destruct (shr_fexp_pos m e l He) as (q & e1 & -> & Hq & He1).
  assert (Hr : exists m2, round_nearest_even (shr_m q) (loc_of_shr_record q) = Z.pos m2).
  { assert (H : 0 < round_nearest_even (shr_m q) (loc_of_shr_record q)).
    { unfold round_nearest_even. destruct (loc_of_shr_record q) as [|[| |]]; try lia. destruct (Z.even _); lia. }
    destruct (round_nearest_even _ _) as [|m2|m2]; try lia. eauto. }
  destruct Hr as [m2 ->].
  destruct (shr_fexp_pos m2 e1 loc_Exact He1) as (q2 & e2 & -> & Hq2 & _).
  destruct (shr_m q2) as [|m3|m3]; try lia.
  destruct (_ <=? _); [exists m3, e2; left; reflexivity|exists m3, e2; right; reflexivity].
Qed.

Lemma round_sign s m e : -149 <= e ->
  exists m' e', binary_round 24 128 s m e = S754_finite s m' e' \/
                binary_round 24 128 s m e = S754_infinity s.
Proof.
  intros He. unfold binary_round, shl_align.
  destruct (fexp 24 128 (Z.pos (digits2_pos m) + e) - e) as [|d|d] eqn:E; try (apply round_aux_sign; exact He).
  apply round_aux_sign. unfold fexp, emin. lia.
Qed.

Lemma shl_align_val m e e' : e' <= e -> Z.pos (fst (shl_align m e e')) = Z.pos m * 2 ^ (e - e').
Proof.
  intros H. unfold shl_align. destruct (e' - e) as [|d|d] eqn:E; cbn [fst].
  - replace (e - e') with 0 by lia. change (2 ^ 0) with 1. lia.
  - lia.
  - rewrite shift_pos_correct. rewrite Z.pow_pos_fold. replace (e - e') with (Z.pos d) by lia. ring.
Qed.

(** Sign of a rounded sum/difference = sign of the exact one. *)
Definition fneg (x : spec_float) : bool := SFltb x (S754_zero false).

Lemma normalize_neg n e : -149 <= e -> fneg (binary_normalize 24 128 n e false) = (n <? 0).
Proof.
  intros He. destruct n as [|m|m]; cbn [binary_normalize].
  - reflexivity.
  - destruct (round_sign false m e He) as (m' & e' & [-> | ->]); reflexivity.
  - destruct (round_sign true m e He) as (m' & e' & [-> | ->]); reflexivity.
Qed.
Lemma normalize_pos n e : -149 <= e -> SFltb (S754_zero false) (binary_normalize 24 128 n e false) = (0 <? n).
Proof.
  intros He. destruct n as [|m|m]; cbn [binary_normalize].
  - reflexivity.
  - destruct (round_sign false m e He) as (m' & e' & [-> | ->]); reflexivity.
  - destruct (round_sign true m e He) as (m' & e' & [-> | ->]); reflexivity.
Qed.

Lemma scale_align (s : bool) m e ez : -149 <= ez -> ez <= e ->
  cond_Zopp s (Z.pos m * 2 ^ (e - ez)) * 2 ^ (ez + 149) = fv (S754_finite s m e).
Proof.
  intros H1 H2. cbn [fv].
  replace (2 ^ (e + 149)) with (2 ^ (e - ez) * 2 ^ (ez + 149)).
  - destruct s; unfold cond_Zopp; ring.
  - rewrite <- Z.pow_add_r by lia. f_equal. lia.
Qed.

Lemma SFsub_neg x y : valid32 x -> valid32 y -> is_nan x = false -> is_nan y = false ->
  fneg (SFsub 24 128 x y) = (fv x <? fv y).
Proof.
  intros Vx Vy Nx Ny. assert (HI : 0 < 2 ^ 300) by (apply pow_pos_pos; lia).
  assert (B : forall s m e, valid32 (S754_finite s m e) -> 0 < Z.pos m * 2 ^ (e + 149) < 2 ^ 300) by exact fv_bound.
  destruct x as [s1|s1| |s1 m1 e1], y as [s2|s2| |s2 m2 e2]; try discriminate; cbn [SFsub].
  - cbn [fv]. destruct s1, s2; reflexivity.
  - cbn [fv]. destruct s2; cbn [negb]; symmetry; [apply Z.ltb_ge|apply Z.ltb_lt]; lia.
  - apply B in Vy. cbn [fv]. destruct s2; cbn [negb]; symmetry; [apply Z.ltb_ge|apply Z.ltb_lt]; lia.
  - cbn [fv]. destruct s1; symmetry; [apply Z.ltb_lt|apply Z.ltb_ge]; lia.
  - cbn [fv]. destruct s1, s2; cbn [negb Bool.eqb]; symmetry; [apply Z.ltb_ge|apply Z.ltb_lt|apply Z.ltb_ge|apply Z.ltb_ge]; lia.
  - apply B in Vy. cbn [fv]. destruct s1, s2; symmetry; [apply Z.ltb_lt|apply Z.ltb_lt|apply Z.ltb_ge|apply Z.ltb_ge]; lia.
  - apply B in Vx. cbn [fv]. destruct s1; symmetry; [apply Z.ltb_lt|apply Z.ltb_ge]; lia.
  - apply B in Vx. cbn [fv]. destruct s1, s2; cbn [negb]; symmetry; [apply Z.ltb_ge|apply Z.ltb_lt|apply Z.ltb_ge|apply Z.ltb_lt]; lia.
  - destruct Vx as (X1 & X2 & X3), Vy as (Y1 & Y2 & Y3). cbv zeta.
    set (ez := Z.min e1 e2). assert (Hez : -149 <= ez) by (unfold ez; lia).
    rewrite normalize_neg by exact Hez. rewrite !shl_align_val by (unfold ez; lia).
    rewrite <- (scale_align s1 m1 e1 ez Hez ltac:(unfold ez; lia)), <- (scale_align s2 m2 e2 ez Hez ltac:(unfold ez; lia)).
    assert (HP : 0 < 2 ^ (ez + 149)) by (apply pow_pos_pos; lia).
    set (A := cond_Zopp s1 _). set (C := cond_Zopp s2 _). set (P := 2 ^ (ez + 149)) in *. clearbody A C P. clear - HP.
    destruct (Z.ltb_spec (A - C) 0), (Z.ltb_spec (A * P) (C * P)); try reflexivity; nia.
Qed.

Lemma SFadd_sign x y : valid32 x -> valid32 y -> is_fin x = true -> is_fin y = true ->
  fneg (SFadd 24 128 x y) = (fv x + fv y <? 0) /\
  SFltb (S754_zero false) (SFadd 24 128 x y) = (0 <? fv x + fv y) /\ is_nan (SFadd 24 128 x y) = false.
Proof.
  intros Vx Vy Nx Ny.
  assert (B : forall s m e, valid32 (S754_finite s m e) -> 0 < Z.pos m * 2 ^ (e + 149) < 2 ^ 300) by exact fv_bound.
  destruct x as [s1|s1| |s1 m1 e1], y as [s2|s2| |s2 m2 e2]; try discriminate; cbn [SFadd].
  - cbn [fv]. destruct s1, s2; repeat split.
  - apply B in Vy. cbn [fv]. destruct s2; (split; [|split]); try reflexivity; cbn [fneg SFltb SFcompare]; symmetry;
      first [apply Z.ltb_ge; lia | apply Z.ltb_lt; lia].
  - apply B in Vx. cbn [fv]. destruct s1; (split; [|split]); try reflexivity; cbn [fneg SFltb SFcompare]; symmetry;
      first [apply Z.ltb_ge; lia | apply Z.ltb_lt; lia].
  - destruct Vx as (X1 & X2 & X3), Vy as (Y1 & Y2 & Y3). cbv zeta.
    set (ez := Z.min e1 e2). assert (Hez : -149 <= ez) by (unfold ez; lia).
    rewrite normalize_neg, normalize_pos by exact Hez. rewrite !shl_align_val by (unfold ez; lia).
    rewrite <- (scale_align s1 m1 e1 ez Hez ltac:(unfold ez; lia)), <- (scale_align s2 m2 e2 ez Hez ltac:(unfold ez; lia)).
    assert (HP : 0 < 2 ^ (ez + 149)) by (apply pow_pos_pos; lia).
    set (A := cond_Zopp s1 _). set (C := cond_Zopp s2 _). set (P := 2 ^ (ez + 149)) in *. clearbody A C P.
    split; [|split].
    + clear - HP. destruct (Z.ltb_spec (A + C) 0), (Z.ltb_spec (A * P + C * P) 0); try reflexivity; nia.
    + clear - HP. destruct (Z.ltb_spec 0 (A + C)), (Z.ltb_spec 0 (A * P + C * P)); try reflexivity; nia.
    + destruct (A + C) as [|n|n]; cbn [binary_normalize]; [reflexivity| |].
      * destruct (round_sign false n ez Hez) as (m' & e' & [-> | ->]); reflexivity.
      * destruct (round_sign true n ez Hez) as (m' & e' & [-> | ->]); reflexivity.
Qed.
