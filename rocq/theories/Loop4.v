(** * Loop4: row-major 4-D index arithmetic and nested writing loops. *)
From Verif Require Import Base.

(** tflite RuntimeShape Offset (tensorflow/lite/kernels/internal/types.h):
    row-major index into a 4-D shape (external, modelled by its definition). *)
Definition Offset (d1 d2 d3 : Z) (i0 i1 i2 i3 : Z) : Z := ((i0 * d1 + i1) * d2 + i2) * d3 + i3.

Lemma Offset_bounds d0 d1 d2 d3 i0 i1 i2 i3 :
  0 <= i0 < d0 -> 0 <= i1 < d1 -> 0 <= i2 < d2 -> 0 <= i3 < d3 ->
  0 <= Offset d1 d2 d3 i0 i1 i2 i3 < d0 * d1 * d2 * d3.
Proof.
  intros H0 H1 H2 H3. unfold Offset.
  assert (0 <= i0 * d1 + i1 < d0 * d1) by nia.
  assert (0 <= (i0 * d1 + i1) * d2 + i2 < d0 * d1 * d2) by nia.
  nia.
Qed.

Lemma radix_inj d a b a' b' :
  0 <= b < d -> 0 <= b' < d -> a * d + b = a' * d + b' -> a = a' /\ b = b'.
Proof.
  intros Hb Hb' H. destruct (Z.div_mod_unique d a a' b b'); [lia|lia|lia|auto].
Qed.

Lemma Offset_inj d1 d2 d3 i0 i1 i2 i3 j0 j1 j2 j3 :
  0 <= i1 < d1 -> 0 <= i2 < d2 -> 0 <= i3 < d3 ->
  0 <= j1 < d1 -> 0 <= j2 < d2 -> 0 <= j3 < d3 ->
  Offset d1 d2 d3 i0 i1 i2 i3 = Offset d1 d2 d3 j0 j1 j2 j3 ->
  i0 = j0 /\ i1 = j1 /\ i2 = j2 /\ i3 = j3.
Proof.
  unfold Offset. intros H H0 H1 H2 H3 H4 H5.
  destruct (radix_inj d3 _ _ _ _ H1 H4 H5) as [E3 ->].
  destruct (radix_inj d2 _ _ _ _ H0 H3 E3) as [E2 ->].
  destruct (radix_inj d1 _ _ _ _ H H2 E2) as [-> ->]. auto.
Qed.

Lemma pixel_bounds d0 d1 d2 i0 i1 i2 :
  0 <= i0 < d0 -> 0 <= i1 < d1 -> 0 <= i2 < d2 ->
  0 <= (i0 * d1 + i1) * d2 + i2 < d0 * d1 * d2.
Proof. intros. assert (0 <= i0 * d1 + i1 < d0 * d1) by nia. nia. Qed.

(** Every pixel number is some (i0,i1,i2). *)
Lemma pixel_decode d0 d1 d2 q :
  0 <= d0 -> 0 <= d1 -> 0 <= d2 -> 0 <= q < d0 * d1 * d2 ->
  exists i0 i1 i2, 0 <= i0 < d0 /\ 0 <= i1 < d1 /\ 0 <= i2 < d2 /\ q = (i0 * d1 + i1) * d2 + i2.
Proof.
  intros H0 H1 H2 Hq.
  assert (0 < d2) by nia. assert (0 < d1) by nia.
  exists (q / d2 / d1), ((q / d2) mod d1), (q mod d2).
  assert (A : 0 <= q / d2 < d0 * d1)
    by (split; [apply Z.div_pos; lia|apply Z.div_lt_upper_bound; lia]).
  assert (B : 0 <= q / d2 / d1 < d0)
    by (split; [apply Z.div_pos; lia|apply Z.div_lt_upper_bound; lia]).
  assert (C := Z.mod_pos_bound (q / d2) d1 ltac:(lia)).
  assert (D := Z.mod_pos_bound q d2 ltac:(lia)).
  repeat split; try lia.
Qed.

Section Loop4.
  Context {T : Type}.
  Variables d0 d1 d2 d3 : Z.
  Hypothesis (H0 : 0 <= d0) (H1 : 0 <= d1) (H2 : 0 <= d2).
  (** What the element at (b,y,x,c) must satisfy. *)
  Variable G : Z -> Z -> Z -> Z -> T -> Prop.

  (** The first [n] elements (row-major) have been written, the rest untouched. *)
  Definition upto (n : Z) (out o : list T) : Prop :=
    zlen o = zlen out /\
    (forall b y x c, 0 <= b < d0 -> 0 <= y < d1 -> 0 <= x < d2 ->
       0 <= c < d3 -> Offset d1 d2 d3 b y x c < n ->
       exists w, rd o (Offset d1 d2 d3 b y x c) = Some w /\ G b y x c w) /\
    (forall j, ~ 0 <= j < n -> rd o j = rd out j).

  Lemma upto_0 out : upto 0 out out.
  Proof.
    split; [reflexivity|]. split; [|reflexivity]. intros b y x c Hb Hy Hx Hc Hlt.
    assert (HO := Offset_bounds d0 d1 d2 d3 b y x c Hb Hy Hx Hc). lia.
  Qed.

  Lemma upto_full out o : upto (d0 * d1 * d2 * d3) out o ->
    forall b y x c, 0 <= b < d0 -> 0 <= y < d1 -> 0 <= x < d2 -> 0 <= c < d3 ->
      exists w, rd o (Offset d1 d2 d3 b y x c) = Some w /\ G b y x c w.
  Proof.
    intros (_ & Hv & _) b y x c Hb Hy Hx Hc. apply Hv; auto.
    apply (Offset_bounds d0 d1 d2 d3 b y x c); auto.
  Qed.

  Lemma upto_wr out t n b y x c w :
    zlen out = d0 * d1 * d2 * d3 ->
    upto n out t -> n = Offset d1 d2 d3 b y x c ->
    0 <= b < d0 -> 0 <= y < d1 -> 0 <= x < d2 -> 0 <= c < d3 -> G b y x c w ->
    wp (wr t (Offset d1 d2 d3 b y x c) w) (upto (n + 1) out).
  Proof.
    intros Hlen (Hl & Hv & Hf) -> Hb Hy Hx Hc HG.
    assert (HO := Offset_bounds d0 d1 d2 d3 b y x c Hb Hy Hx Hc).
    apply wr_wp; [lia|]. intros t' Hl' Hs Ho. split; [congruence|]. split.
    - intros b' y' x' c' Hb' Hy' Hx' Hc' Hlt.
      destruct (Z.eq_dec (Offset d1 d2 d3 b' y' x' c') (Offset d1 d2 d3 b y x c)) as [Eq|Hne].
      + destruct (Offset_inj _ _ _ _ _ _ _ _ _ _ _ Hy' Hx' Hc' Hy Hx Hc Eq) as (-> & -> & -> & ->).
        exists w. auto.
      + rewrite Ho by exact Hne. apply Hv; auto. lia.
    - intros j Hj. rewrite Ho by lia. apply Hf. lia.
  Qed.

  Lemma for_upto n S base (out o : list T) body :
    0 <= n ->
    (forall i t, 0 <= i < n -> upto (base + i * S) out t ->
       wp (body i t) (upto (base + (i + 1) * S) out)) ->
    upto base out o -> wp (for_ 0 n body o) (upto (base + n * S) out).
  Proof.
    intros Hn Hb Hst. apply (for_wp (fun i t => upto (base + i * S) out t)).
    - replace (base + 0 * S) with base by lia. exact Hst.
    - exact Hb.
    - rewrite Z.max_r by lia. auto.
  Qed.

  (** Three nested loops over pixels; [body b y x] writes one pixel. *)
  Lemma for3_upto out body :
    (forall b y x t, 0 <= b < d0 -> 0 <= y < d1 -> 0 <= x < d2 ->
       upto (Offset d1 d2 d3 b y x 0) out t ->
       wp (body b y x t) (upto (Offset d1 d2 d3 b y x 0 + d3) out)) ->
    wp (for_ 0 d0 (fun b o => for_ 0 d1 (fun y o => for_ 0 d2 (fun x o => body b y x o) o) o) out)
       (upto (d0 * d1 * d2 * d3) out).
  Proof.
    intros Hb.
    eapply wp_mono; [apply (for_upto d0 (d1 * (d2 * d3)) 0 out); [lia| |apply upto_0]|].
    2:{ intros o Ho. replace (d0 * d1 * d2 * d3) with (0 + d0 * (d1 * (d2 * d3))) by lia. exact Ho. }
    intros b t Hbb Ht.
    eapply wp_mono; [apply (for_upto d1 (d2 * d3)); [lia| |exact Ht]|].
    2:{ intros a Ha. match goal with |- upto ?n _ _ => match type of Ha with upto ?m _ _ =>
          replace n with m by lia end end. exact Ha. }
    intros y t1 Hy Ht1.
    eapply wp_mono; [apply (for_upto d2 d3); [lia| |exact Ht1]|].
    2:{ intros a Ha. match goal with |- upto ?n _ _ => match type of Ha with upto ?m _ _ =>
          replace n with m by lia end end. exact Ha. }
    intros x t2 Hx Ht2.
    assert (E : 0 + b * (d1 * (d2 * d3)) + y * (d2 * d3) + x * d3 = Offset d1 d2 d3 b y x 0)
      by (unfold Offset; ring).
    rewrite E in Ht2.
    eapply wp_mono; [apply Hb; auto|].
    intros a Ha. match goal with |- upto ?n _ _ =>
       replace n with (Offset d1 d2 d3 b y x 0 + d3) by (unfold Offset; ring) end. exact Ha.
  Qed.
End Loop4.

(** A loop whose iteration [i] takes an invariant from [base + i*k] to
    [base + (i+1)*k]. *)
Lemma for_cnt {S} (Inv : Z -> S -> Prop) {base} {s : S} (Hs : Inv base s) n k b' body :
  0 <= n -> base + n * k = b' ->
  (forall i t, 0 <= i < n -> Inv (base + i * k) t -> wp (body i t) (Inv (base + i * k + k))) ->
  wp (for_ 0 n body s) (Inv b').
Proof.
  intros Hn <- Hb. apply (for_wp (fun i t => Inv (base + i * k) t)).
  - replace (base + 0 * k) with base by lia. exact Hs.
  - intros i t Hi Ht. replace (base + (i + 1) * k) with (base + i * k + k) by lia. auto.
  - rewrite Z.max_r by lia. auto.
Qed.

Lemma for_step_cnt {S} (Inv : Z -> S -> Prop) {base} {s : S} (Hs : Inv base s) hi step m k b' body :
  0 < step -> 0 <= m -> (m - 1) * step < hi <= m * step -> base + m * k = b' ->
  (forall i t, 0 <= i < m -> i * step < hi ->
     Inv (base + i * k) t -> wp (body (i * step) t) (Inv (base + i * k + k))) ->
  wp (for_step 0 hi step body s) (Inv b').
Proof.
  intros Hst Hm0 Hm He Hb. unfold for_step. rewrite Z.sub_0_r.
  assert (Em : (hi + step - 1) / step = m).
  { symmetry. apply Z.div_unique with (r := hi + step - 1 - step * m); nia. }
  rewrite Em.
  apply (for_cnt Inv Hs m k); [exact Hm0|exact He|].
  intros i t Hi Ht. cbn. apply Hb; auto. nia.
Qed.
