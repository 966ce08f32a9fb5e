(** * Single precision arithmetic on bit patterns, and the float -> int8 conversions.

    An IEEE binary32 instance of the abstract arithmetic [nops] of the Arm kernels
    (A64.v), built on the standard library's SpecFloat (round to nearest, ties to even).
    Simplifications: one NaN pattern (0x7fc00000) for every NaN result; subnormals are
    kept (the 32-bit Arm NEON unit flushes them to zero: not modelled). *)
From Verif Require Import Base Float32 A64 A64Lemmas A64Trans.
From Coq Require Import Floats.SpecFloat ZArith QArith Qabs Lia.
Open Scope Z_scope.

(** The bit pattern of a (canonical) binary32 datum. *)
Definition encode32 (x : spec_float) : Z :=
  (match x with
   | S754_zero s => if s then 2 ^ 31 else 0
   | S754_infinity s => (if s then 2 ^ 31 else 0) + 255 * 2 ^ 23
   | S754_nan => 255 * 2 ^ 23 + 2 ^ 22
   | S754_finite s m e =>
       (if s then 2 ^ 31 else 0) + (if Zpos m <? 2 ^ 23 then Zpos m else (e + 150) * 2 ^ 23 + (Zpos m - 2 ^ 23))
   end) mod 2 ^ 32.

(** The value of a finite pattern, in units of 2^-149. *)
Definition units (w : Z) : option Z :=
  match decode32 w with
  | S754_zero _ => Some 0
  | S754_finite s m e => Some ((if s then -1 else 1) * Zpos m * 2 ^ (e + 149))
  | _ => None
  end.
Definition ulpD : positive := (2 ^ 149)%positive.
(** The rational value of a finite pattern. *)
Definition fval (w : Z) : option Q := match units w with Some u => Some (u # ulpD)%Q | None => None end.

(** Integer conversions of [u] units: towards zero with 8 fractional bits
    (vcvt.s32.f32 #8), nearest/ties to even (fcvtns, vcvtr) and nearest/ties away
    from zero (TfLiteRound, which calls std::round). *)
Definition DD : Z := Zpos ulpD.
Definition trunc8 (u : Z) : Z := Z.quot (256 * u) DD.
Definition round_even (u : Z) : Z :=
  let q := u / DD in let r := 2 * (u mod DD) in
  if r <? DD then q else if DD <? r then q + 1 else if Z.even q then q else q + 1.
Definition round_away (u : Z) : Z := Z.sgn u * ((2 * Z.abs u + DD) / (2 * DD)).
Definition sat32 (z : Z) : Z := Z.max (- 2 ^ 31) (Z.min (2 ^ 31 - 1) z).
(** ... of a pattern: NaN goes to 0, infinities and large values saturate. *)
Definition convert (f : Z -> Z) (w : Z) : Z :=
  match decode32 w with
  | S754_nan => 0
  | S754_infinity s => if s then - 2 ^ 31 else 2 ^ 31 - 1
  | _ => match units w with Some u => sat32 (f u) | None => 0 end
  end.

Definition ieee : nops :=
  {| n_ofZ := fun x => encode32 (binary_normalize 24 128 (sgn 32 (x mod 2 ^ 32)) 0 false);
     n_mul := fun a b => encode32 (SFmul 24 128 (decode32 a) (decode32 b));
     n_add := fun a b => encode32 (SFadd 24 128 (decode32 a) (decode32 b));
     n_cvtns := convert round_even;
     n_cvt8 := convert trunc8 |}.
Lemma sat32_range z : - 2 ^ 31 <= sat32 z < 2 ^ 31.
Proof. unfold sat32. lia. Qed.
Lemma convert_range f w : - 2 ^ 31 <= convert f w < 2 ^ 31.
Proof.
  unfold convert. destruct (decode32 w) as [s|s| |s m e]; try (destruct s; lia); try lia;
    (destruct (units w); [apply sat32_range|lia]).
Qed.
Lemma encode_range x : 0 <= encode32 x < 2 ^ 32.
Proof. unfold encode32. apply Z.mod_pos_bound. lia. Qed.
Lemma ieee_ok : nops_ok ieee.
Proof. constructor; cbn [ieee n_ofZ n_mul n_add n_cvtns n_cvt8]; intros; try apply encode_range; apply convert_range. Qed.

(** Encoding is the inverse of decoding on every pattern that is not a NaN. *)
Lemma encode_decode w : 0 <= w < 2 ^ 32 -> decode32 w <> S754_nan -> encode32 (decode32 w) = w.
Proof.
  intros Hw Hn. unfold decode32 in *.
  assert (Hs : w = (if Z.testbit w 31 then 2 ^ 31 else 0) + (w / 2 ^ 23) mod 2 ^ 8 * 2 ^ 23 + w mod 2 ^ 23).
  { assert (E31 : Z.testbit w 31 = (2 ^ 31 <=? w)).
    { rewrite Z.testbit_eqb by lia. change (2 ^ 31) with 2147483648 in *. change (2 ^ 32) with 4294967296 in *.
      destruct (Z.leb_spec 2147483648 w); destruct (Z.eqb_spec (w / 2147483648 mod 2) 1); try reflexivity; Z.to_euclidean_division_equations; lia. }
    rewrite E31. change (2 ^ 31) with 2147483648 in *. change (2 ^ 32) with 4294967296 in *. change (2 ^ 23) with 8388608. change (2 ^ 8) with 256.
    destruct (Z.leb_spec 2147483648 w); Z.to_euclidean_division_equations; lia. }
  set (e := (w / 2 ^ 23) mod 2 ^ 8) in *. set (m := w mod 2 ^ 23) in *.
  assert (He : 0 <= e < 256) by (apply Z.mod_pos_bound; lia).
  assert (Hm : 0 <= m < 2 ^ 23) by (apply Z.mod_pos_bound; lia).
  destruct (Z.testbit w 31); clearbody e m.
  all: assert (S0 : forall a, 0 <= a < 2 ^ 32 -> w = a -> a mod 2 ^ 32 = w) by (intros a Ha ->; apply Z.mod_small; exact Ha).
  all: destruct (Z.eqb_spec e 255) as [E1|E1]; [destruct (Z.eqb_spec m 0) as [E2|E2]; [|congruence]; cbn [encode32]; apply S0; lia|].
  all: destruct (Z.eqb_spec e 0) as [E2|E2].
  1,3: destruct m as [|q|q]; [|unfold encode32; destruct (Z.ltb_spec (Zpos q) (2 ^ 23)); [|lia]|lia]; cbn [encode32]; apply S0; lia.
  all: destruct (m + 2 ^ 23) as [|q|q] eqn:Em; try lia; unfold encode32;
    (destruct (Z.ltb_spec (Zpos q) (2 ^ 23)); [lia|]); apply S0; lia.
Qed.

(** ** Specification: nearest integers, and the int8 value nearest to a rational. *)
Definition nearest (q : Q) (z : Z) : Prop := (Qabs (q - inject_Z z) <= 1 # 2)%Q.
Definition int8_nearest (q : Q) (r : Z) : Prop := exists z, nearest q z /\ r = Z.max (-128) (Z.min 127 z).

Lemma nearest_units u z : nearest (u # ulpD) z <-> 2 * Z.abs (u - z * DD) <= DD.
Proof.
  unfold nearest, DD, Qle, Qabs, Qminus, Qplus, Qopp, inject_Z. cbn [Qnum Qden]. rewrite Pos.mul_1_r.
  rewrite Z.mul_1_r, Z.mul_1_l. rewrite Z.mul_opp_l. fold (u - z * Zpos ulpD). lia.
Qed.
Lemma DD_pos : 0 < DD.
Proof. unfold DD. lia. Qed.
Lemma DD_even : exists h, DD = 2 * h.
Proof. exists (2 ^ 148). unfold DD, ulpD. reflexivity. Qed.

Lemma round_even_nearest u : nearest (u # ulpD) (round_even u).
Proof.
  apply nearest_units. unfold round_even. assert (P := DD_pos). generalize DD P. clear. intros D P.
  assert (Hm := Z.mod_pos_bound u D P). assert (Hd := Z.div_mod u D ltac:(lia)).
  set (q := u / D) in *. set (r := u mod D) in *. clearbody q r.
  destruct (Z.ltb_spec (2 * r) D); [replace (u - q * D) with r by lia; lia|].
  destruct (Z.ltb_spec D (2 * r)); [replace (u - (q + 1) * D) with (r - D) by lia; lia|].
  destruct (Z.even q); [replace (u - q * D) with r by lia|replace (u - (q + 1) * D) with (r - D) by lia]; lia.
Qed.
Lemma round_away_nearest u : nearest (u # ulpD) (round_away u).
Proof.
  apply nearest_units. unfold round_away. assert (P := DD_pos). generalize DD P. clear. intros D P.
  set (a := Z.abs u). assert (Ha : 0 <= a) by (unfold a; lia).
  assert (Hm := Z.mod_pos_bound (2 * a + D) (2 * D) ltac:(lia)). assert (Hd := Z.div_mod (2 * a + D) (2 * D) ltac:(lia)).
  set (q := (2 * a + D) / (2 * D)) in *. set (r := (2 * a + D) mod (2 * D)) in *. clearbody q r.
  assert (u = Z.sgn u * a) by (unfold a; lia).
  assert (2 * Z.abs (a - q * D) <= D) by lia.
  destruct (Z.sgn_spec u) as [[H1 E]|[[H1 E]|[H1 E]]]; rewrite E in *.
  - replace (u - 1 * q * D) with (a - q * D) by lia. lia.
  - replace (u - 0 * q * D) with 0 by lia. cbn. lia.
  - replace (u - -1 * q * D) with (-(a - q * D)) by lia. lia.
Qed.
(** The two nearest roundings agree except on ties. *)
Definition tie (q : Q) : Prop := exists z, (q == inject_Z z + (1 # 2))%Q.
Lemma tie_units u : tie (u # ulpD) <-> exists z, 2 * u = (2 * z + 1) * DD.
Proof.
  unfold tie. assert (E : forall z, (u # ulpD == inject_Z z + (1 # 2))%Q <-> 2 * u = (2 * z + 1) * DD).
  { intros z. unfold Qeq, Qplus, inject_Z, DD. cbn [Qnum Qden]. rewrite Pos.mul_1_l. lia. }
  split; intros (z & H); exists z; apply E; exact H.
Qed.
Lemma nearest_unique u a b : ~ tie (u # ulpD) -> nearest (u # ulpD) a -> nearest (u # ulpD) b -> a = b.
Proof.
  rewrite tie_units, !nearest_units. assert (P := DD_pos). destruct DD_even as [h Eh]. generalize DD P Eh. clear. intros D P Eh T A B.
  destruct (Z.lt_trichotomy a b) as [H|[H|H]]; [exfalso| exact H |exfalso].
  - apply T. assert (b = a + 1) by nia. subst b. exists a. nia.
  - apply T. assert (a = b + 1) by nia. subst a. exists b. nia.
Qed.

(** The 32-bit Arm sequence vcvt #8, vqrshrn #8, vqmovn: the value stored for [u] units. *)
Definition arm32_int8 (u : Z) : Z := Z.max (-128) (Z.min 127 ((sat32 (trunc8 u) + 128) / 256)).
(** The values for which it is wrong: negative, above -128, and less than 1/256
    below a half-integer. *)
Definition unlucky (q : Q) : Prop :=
  exists k, 0 <= k < 128 /\ (- (inject_Z k + (1 # 2) + (1 # 256)) < q < - (inject_Z k + (1 # 2)))%Q.
Lemma unlucky_units u : unlucky (u # ulpD) <-> exists k, 0 <= k < 128 /\ (256 * k + 128) * DD < - 256 * u < (256 * k + 129) * DD.
Proof.
  unfold unlucky.
  assert (E : forall k, (- (inject_Z k + (1 # 2) + (1 # 256)) < u # ulpD < - (inject_Z k + (1 # 2)))%Q <-> (256 * k + 128) * DD < - 256 * u < (256 * k + 129) * DD).
  { intros k. unfold Qlt, Qplus, Qopp, inject_Z, DD. cbn [Qnum Qden]. rewrite !Pos.mul_1_l. change (2 * 256)%positive with 512%positive. lia. }
  split; intros (k & Hk & H); exists k; (split; [exact Hk|]); apply E; exact H.
Qed.
Lemma arm32_int8_nearest u : int8_nearest (u # ulpD) (arm32_int8 u) <-> ~ unlucky (u # ulpD).
Proof.
  rewrite unlucky_units. unfold int8_nearest.
  assert (EN : (exists z, nearest (u # ulpD) z /\ arm32_int8 u = Z.max (-128) (Z.min 127 z)) <->
               (exists z, 2 * Z.abs (u - z * DD) <= DD /\ arm32_int8 u = Z.max (-128) (Z.min 127 z))).
  { split; intros (z & A & B); exists z; (split; [apply nearest_units; exact A|exact B]). }
  rewrite EN. clear EN. unfold arm32_int8, trunc8. assert (P := DD_pos). generalize DD P. clear. intros D P.
  destruct (Z.le_gt_cases 0 u) as [Hu|Hu].
  - rewrite Z.quot_div_nonneg by lia.
    assert (Hm := Z.mod_pos_bound (256 * u) D P). assert (Hd := Z.div_mod (256 * u) D ltac:(lia)).
    set (t := 256 * u / D) in *. set (r := (256 * u) mod D) in *. clearbody t r.
    assert (0 <= t) by nia.
    split; [intros _ (k & Hk & H1 & H2); nia|]. intros _.
    assert (Hv := Z.mod_pos_bound (t + 128) 256 ltac:(lia)). assert (Hw := Z.div_mod (t + 128) 256 ltac:(lia)).
    exists ((t + 128) / 256). set (z := (t + 128) / 256) in *. set (v := (t + 128) mod 256) in *.
    split; [clearbody z v; nia|].
    unfold sat32. destruct (Z.le_gt_cases t (2 ^ 31 - 1)).
    + replace (Z.max (- 2 ^ 31) (Z.min (2 ^ 31 - 1) t)) with t by lia. fold z. reflexivity.
    + replace (Z.max (- 2 ^ 31) (Z.min (2 ^ 31 - 1) t)) with (2 ^ 31 - 1) by lia.
      change ((2 ^ 31 - 1 + 128) / 256) with 8388608. clearbody z v. lia.
  - replace (256 * u) with (- (256 * - u)) by lia. rewrite Z.quot_opp_l by lia. rewrite Z.quot_div_nonneg by lia.
    set (a := - u) in *. assert (Ha : 0 < a) by lia. replace u with (- a) in * by lia. clearbody a.
    assert (Hm := Z.mod_pos_bound (256 * a) D P). assert (Hd := Z.div_mod (256 * a) D ltac:(lia)).
    set (t := 256 * a / D) in *. set (r := (256 * a) mod D) in *. clearbody t r.
    assert (0 <= t) by nia.
    assert (Hv := Z.mod_pos_bound t 256 ltac:(lia)). assert (Hw := Z.div_mod t 256 ltac:(lia)).
    set (k := t / 256) in *. set (v := t mod 256) in *. clearbody k v. subst t.
    set (z := if v <=? 128 then - k else - k - 1).
    assert (Ez : Z.max (-128) (Z.min 127 ((sat32 (- (256 * k + v)) + 128) / 256)) = Z.max (-128) (Z.min 127 z)).
    { unfold sat32, z. destruct (Z.le_gt_cases (256 * k + v) (2 ^ 31)).
      - replace (Z.max (- 2 ^ 31) (Z.min (2 ^ 31 - 1) (- (256 * k + v)))) with (- (256 * k + v)) by lia.
        destruct (Z.leb_spec v 128); f_equal; f_equal; Z.to_euclidean_division_equations; lia.
      - replace (Z.max (- 2 ^ 31) (Z.min (2 ^ 31 - 1) (- (256 * k + v)))) with (- 2 ^ 31) by lia.
        change ((- 2 ^ 31 + 128) / 256) with (-8388608). destruct (Z.leb_spec v 128); lia. }
    rewrite Ez. assert (0 <= k) by lia. unfold z. clear Ez z.
    assert (SQ : forall k', (256 * k' + 128) * D < - 256 * - a < (256 * k' + 129) * D -> k' = k /\ v = 128).
    { intros k' [H1 H2]. assert (256 * k' + 128 < 256 * k + v + 1) by (apply (Z.mul_lt_mono_pos_r D); lia).
      assert (256 * k + v < 256 * k' + 129) by (apply (Z.mul_lt_mono_pos_r D); lia). lia. }
    assert (ED : D * (256 * k + v) = 256 * (k * D) + v * D) by ring. rewrite ED in Hd.
    assert (Hvl : 129 <= v -> 129 * D <= v * D) by (intros; apply Z.mul_le_mono_nonneg_r; lia).
    assert (Hvs : v <= 127 -> v * D <= 127 * D) by (intros; apply Z.mul_le_mono_nonneg_r; lia).
    assert (Hv0 : 0 <= v * D <= 255 * D) by (split; [apply Z.mul_nonneg_nonneg|apply Z.mul_le_mono_nonneg_r]; lia).
    assert (N0 : 256 * a <= 256 * (k * D) + 128 * D -> 2 * Z.abs (- a - - k * D) <= D).
    { intros. replace (- k * D) with (- (k * D)) by ring. lia. }
    assert (N1 : 256 * (k * D) + 128 * D <= 256 * a -> 2 * Z.abs (- a - (- k - 1) * D) <= D).
    { intros. replace ((- k - 1) * D) with (- (k * D) - D) by ring. lia. }
    destruct (Z.leb_spec v 128) as [Hv1|Hv1].
    + destruct (Z.eq_dec v 128) as [->|Hv2].
      * destruct (Z.eq_dec r 0) as [->|Hr].
        -- split; [intros _ (k' & Hk' & H1)|intros _; exists (- k); split; [apply N0; lia|reflexivity]].
           destruct (SQ k' H1) as [-> _]. destruct H1 as [H1 _]. rewrite Z.mul_add_distr_r in H1. lia.
        -- destruct (Z.lt_ge_cases k 128) as [Hk|Hk].
           ++ split.
              ** intros (z & A & B). exfalso. assert (H1 : z = - k \/ - k - 1 = z).
                 { lia. }
                 destruct H1 as [-> | <-]; [replace (- k * D) with (- (k * D)) in A by ring; lia|lia].
              ** intros H1. exfalso. apply H1. exists k. split; [lia|]. rewrite !Z.mul_add_distr_r. lia.
           ++ split; [intros _ (k' & Hk' & H1); destruct (SQ k' H1); lia|]. intros _. exists (- k - 1). split; [apply N1; lia|lia].
      * split; [intros _ (k' & Hk' & H1); destruct (SQ k' H1); lia|].
        intros _. exists (- k). split; [apply N0; lia|reflexivity].
    + split; [intros _ (k' & Hk' & H1); destruct (SQ k' H1); lia|].
      intros _. exists (- k - 1). split; [apply N1; lia|reflexivity].
Qed.

(** It is never off by more than 1/2 + 1/256 before saturation. *)
Definition int8_close (q : Q) (r : Z) : Prop :=
  exists z, (Qabs (q - inject_Z z) <= (1 # 2) + (1 # 256))%Q /\ r = Z.max (-128) (Z.min 127 z).
Lemma sat_commute t : Z.max (-128) (Z.min 127 ((sat32 t + 128) / 256)) = Z.max (-128) (Z.min 127 ((t + 128) / 256)).
Proof.
  unfold sat32. change (- 2 ^ 31) with (-2147483648). change (2 ^ 31 - 1) with 2147483647. Z.to_euclidean_division_equations. lia.
Qed.
Lemma arm32_int8_close u : int8_close (u # ulpD) (arm32_int8 u).
Proof.
  exists ((trunc8 u + 128) / 256). split; [|unfold arm32_int8; apply sat_commute].
  set (z := (trunc8 u + 128) / 256).
  assert (H : 256 * Z.abs (u - z * DD) <= 129 * DD).
  { unfold z, trunc8. clear z. assert (P := DD_pos). generalize DD P. clear. intros D P.
    assert (HQ := Z.quot_rem (256 * u) D ltac:(lia)). set (t := Z.quot (256 * u) D) in *. set (r := Z.rem (256 * u) D) in *.
    assert (Hr : Z.abs r < D) by (unfold r; assert (H := Z.rem_bound_abs (256 * u) D ltac:(lia)); lia).
    assert (Hv := Z.mod_pos_bound (t + 128) 256 ltac:(lia)). assert (Hw := Z.div_mod (t + 128) 256 ltac:(lia)).
    set (z := (t + 128) / 256) in *. set (v := (t + 128) mod 256) in *. clearbody z v t r.
    assert (t = 256 * z + v - 128) by lia. subst t.
    assert (HD : D * (256 * z + v - 128) = 256 * (z * D) + v * D - 128 * D) by ring. rewrite HD in HQ.
    assert (Hv0 : 0 <= v * D <= 255 * D) by (split; [apply Z.mul_nonneg_nonneg|apply Z.mul_le_mono_nonneg_r]; lia).
    lia. }
  clearbody z. unfold Qle, Qabs, Qminus, Qplus, Qopp, inject_Z. cbn [Qnum Qden]. rewrite Pos.mul_1_r.
  unfold DD in H. change (2 * 256)%positive with 512%positive. lia.
Qed.
