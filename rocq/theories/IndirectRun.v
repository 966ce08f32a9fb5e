(** * IndirectRun: the portable 4x2 kernel (proofs). *)
From Verif Require Import Base Spec Bits Loop4 Reference Bitpack Indirect.

Definition quad {T} (f : Z -> T) : list T := [f 0; f 1; f 2; f 3].

Lemma add4_quad f w a : add4 (quad f) [w 0; w 1; w 2; w 3] a = quad (fun i => f i + xor_popcount (w i) a).
Proof. reflexivity. Qed.

Lemma quad_ext {T} (f g : Z -> T) : (forall i, 0 <= i < 4 -> f i = g i) -> quad f = quad g.
Proof. intros H. unfold quad. rewrite !H by lia. reflexivity. Qed.

(** Consecutive stores. *)
Lemma put_wp {T} (run : Z -> Z -> option T) (v : Z -> T) accs : forall out ptr c (Q : list T -> Prop),
  (forall i a, rd accs i = Some a -> run a (c + i) = Some (v (c + i))) ->
  0 <= ptr -> ptr + zlen accs <= zlen out ->
  (forall out', zlen out' = zlen out ->
     (forall j, ptr <= j < ptr + zlen accs -> rd out' j = Some (v (c + (j - ptr)))) ->
     (forall j, ~ ptr <= j < ptr + zlen accs -> rd out' j = rd out j) -> Q out') ->
  wp (put run out ptr c accs) Q.
Proof.
  induction accs as [|a accs IH]; intros out ptr c Q Hrun Hp Hl HQ; cbn [put].
  - apply wp_ret. apply HQ; auto. intros j Hj. cbn in Hj. lia.
  - assert (Hz : zlen (a :: accs) = zlen accs + 1) by (unfold zlen; cbn [length]; lia).
    assert (Hn := zlen_nonneg accs).
    specialize (Hrun 0 a eq_refl) as Hr0. rewrite Z.add_0_r in Hr0. rewrite Hr0. cbn [bind].
    apply wp_bind. apply wr_wp; [lia|]. intros out1 Hl1 Hs1 Ho1.
    apply IH.
    + intros i b Hb. replace (c + 1 + i) with (c + (i + 1)) by lia. apply Hrun.
      assert (Hbb := rd_bounds _ _ _ Hb). unfold rd in *.
      destruct (Z.ltb_spec i 0); [lia|]. destruct (Z.ltb_spec (i + 1) 0); [lia|].
      replace (Z.to_nat (i + 1)) with (S (Z.to_nat i)) by lia. exact Hb.
    + lia.
    + lia.
    + intros out2 Hl2 Hin Hout. apply HQ; [congruence| |].
      * intros j Hj. destruct (Z.eq_dec j ptr) as [->|Hne].
        -- rewrite Hout by lia. rewrite Hs1. do 2 f_equal. lia.
        -- rewrite Hin by lia. do 2 f_equal. lia.
      * intros j Hj. rewrite Hout by lia. apply Ho1. lia.
Qed.

Lemma rd_quad {T} (f : Z -> T) i a : rd (quad f) i = Some a -> 0 <= i < 4 /\ a = f i.
Proof.
  intros H. assert (Hb := rd_bounds _ _ _ H). change (zlen (quad f)) with 4 in Hb. split; [exact Hb|].
  assert (E : i = 0 \/ i = 1 \/ i = 2 \/ i = 3) by lia.
  destruct E as [-> | [-> | [-> | ->]]]; cbv in H; injection H as <-; reflexivity.
Qed.

(** Contents of [out'] after pixel-0 values were stored at [a0, a0+n) and
    pixel-1 values at [a1, a1+n), pixel 0 taking precedence. *)
Definition stored {T} (out : list T) (v0 v1 : Z -> T) (a0 a1 n : Z) (out' : list T) : Prop :=
  zlen out' = zlen out /\
  forall j, rd out' j =
    if (a0 <=? j) && (j <? a0 + n) then Some (v0 (j - a0))
    else if (a1 <=? j) && (j <? a1 + n) then Some (v1 (j - a1))
    else rd out j.

Lemma stored_0 {T} (out : list T) v0 v1 a0 a1 : stored out v0 v1 a0 a1 0 out.
Proof.
  split; [reflexivity|]. intros j.
  destruct (Z.leb_spec a0 j), (Z.ltb_spec j (a0 + 0)); try lia; cbn [andb];
  destruct (Z.leb_spec a1 j), (Z.ltb_spec j (a1 + 0)); try lia; reflexivity.
Qed.

(** Storing [n] more at a1+c then at a0+c. *)
Lemma stored_put2 {T} (run : Z -> Z -> option T) (v0 v1 : Z -> T) (g0 : Z) accs0 accs1 out o a0 a1 c
    (Q : list T -> Prop) :
  stored out v0 v1 a0 a1 c o ->
  0 <= c -> 0 <= a0 -> 0 <= a1 -> (a0 = a1 \/ a0 + g0 <= a1) -> c + zlen accs0 <= g0 ->
  zlen accs0 = zlen accs1 ->
  a0 + c + zlen accs0 <= zlen out -> a1 + c + zlen accs1 <= zlen out ->
  (forall i a, rd accs0 i = Some a -> run a (c + i) = Some (v0 (c + i))) ->
  (forall i a, rd accs1 i = Some a -> run a (c + i) = Some (v1 (c + i))) ->
  (forall o', stored out v0 v1 a0 a1 (c + zlen accs0) o' -> Q o') ->
  wp (let* o := put run o (a1 + c) c accs1 in put run o (a0 + c) c accs0) Q.
Proof.
  intros (Hl & Hc) Hc0 Ha0 Ha1 Hdis Hg0 Hlen Hb0 Hb1 H0 H1 HQ.
  assert (Hn := zlen_nonneg accs0).
  apply wp_bind. apply (put_wp run v1); [exact H1|lia|lia|]. intros o1 Hl1 Hi1 Hu1.
  apply (put_wp run v0); [exact H0|lia|lia|]. intros o2 Hl2 Hi2 Hu2.
  apply HQ. split; [lia|]. intros j.
  destruct (Z.leb_spec a0 j), (Z.ltb_spec j (a0 + (c + zlen accs0))); cbn [andb].
  - destruct (Z.lt_ge_cases j (a0 + c)).
    + rewrite Hu2 by lia. rewrite Hu1 by lia. rewrite Hc.
      destruct (Z.leb_spec a0 j), (Z.ltb_spec j (a0 + c)); try lia. reflexivity.
    + rewrite Hi2 by lia. do 2 f_equal. lia.
  - rewrite Hu2 by lia.
    destruct (Z.leb_spec a1 j), (Z.ltb_spec j (a1 + (c + zlen accs0))); cbn [andb].
    + destruct (Z.lt_ge_cases j (a1 + c)).
      * rewrite Hu1 by lia. rewrite Hc.
        destruct (Z.leb_spec a0 j), (Z.ltb_spec j (a0 + c)); try lia; cbn [andb].
        destruct (Z.leb_spec a1 j), (Z.ltb_spec j (a1 + c)); try lia; reflexivity.
      * rewrite Hi1 by lia. do 2 f_equal. lia.
    + rewrite Hu1 by lia. rewrite Hc.
      destruct (Z.leb_spec a0 j), (Z.ltb_spec j (a0 + c)); try lia; cbn [andb].
      destruct (Z.leb_spec a1 j), (Z.ltb_spec j (a1 + c)); try lia; reflexivity.
    + rewrite Hu1 by lia. rewrite Hc.
      destruct (Z.leb_spec a0 j), (Z.ltb_spec j (a0 + c)); try lia; cbn [andb].
      destruct (Z.leb_spec a1 j), (Z.ltb_spec j (a1 + c)); try lia; reflexivity.
    + lia.
  - rewrite Hu2 by lia.
    destruct (Z.leb_spec a1 j), (Z.ltb_spec j (a1 + (c + zlen accs0))); cbn [andb]; try lia.
    rewrite Hu1 by lia. rewrite Hc.
    destruct (Z.leb_spec a0 j), (Z.ltb_spec j (a0 + c)); try lia; cbn [andb].
    destruct (Z.leb_spec a1 j), (Z.ltb_spec j (a1 + c)); try lia; reflexivity.
  - lia.
Qed.

Lemma bind_assoc {A B C} (m : option A) (f : A -> option B) (g : B -> option C) :
  bind (bind m f) g = bind m (fun a => bind (f a) g).
Proof. destruct m; reflexivity. Qed.

(** One 4x2 block, where channel [g + i] of the layer is channel [c + i]. *)
Lemma write_block_wp {T} (run : Z -> Z -> option T) (v0 v1 : Z -> T) oc f0 f1 out o a0 a1 c ge
    (Q : list T * Z * Z * Z -> Prop) :
  stored out v0 v1 a0 a1 c o ->
  0 <= c -> c < ge <= oc -> 0 <= a0 -> (a0 = a1 \/ a0 + oc <= a1) -> a0 + oc <= zlen out -> a1 + oc <= zlen out ->
  (forall i, 0 <= i < 4 -> c + i < ge -> run (f0 i) (c + i) = Some (v0 (c + i))) ->
  (forall i, 0 <= i < 4 -> c + i < ge -> run (f1 i) (c + i) = Some (v1 (c + i))) ->
  (forall o', let K := Z.min 4 (ge - c) in stored out v0 v1 a0 a1 (c + K) o' ->
     Q (o', a0 + (c + K), a1 + (c + K), c + K)) ->
  wp (write_block run o (a0 + c) (a1 + c) c ge (quad f0) (quad f1)) Q.
Proof.
  intros Hst Hc Hge Ha0 Hdis Hb0 Hb1 H0 H1 HQ. cbv zeta in HQ. unfold write_block.
  destruct (Z.leb_spec 4 (ge - c)) as [H4|H4].
  - rewrite <- bind_assoc. apply wp_bind.
    eapply (stored_put2 run v0 v1 oc); [exact Hst|lia|lia|lia|exact Hdis| | | | | | |].
    all: change (zlen (quad f0)) with 4; change (zlen (quad f1)) with 4; try lia.
    + intros i a Hi. apply rd_quad in Hi. destruct Hi as [Hi ->]. apply H0; lia.
    + intros i a Hi. apply rd_quad in Hi. destruct Hi as [Hi ->]. apply H1; lia.
    + intros o' Ho'. apply wp_ret.
      replace (Z.min 4 (ge - c)) with 4 in HQ by lia.
      replace (a0 + c + 4) with (a0 + (c + 4)) by lia. replace (a1 + c + 4) with (a1 + (c + 4)) by lia.
      apply HQ. exact Ho'.
  - apply wp_bind. destruct (Z.leb_spec 2 (ge - c)) as [H2|H2].
    + rewrite <- bind_assoc. apply wp_bind.
      eapply (stored_put2 run v0 v1 oc); [exact Hst|lia|lia|lia|exact Hdis| | | | | | |];
        cbn [quad firstn].
      all: change (zlen [f0 0; f0 1]) with 2; change (zlen [f1 0; f1 1]) with 2; try lia.
      * intros i a Hi. assert (Hb := rd_bounds _ _ _ Hi). change (zlen [f0 0; f0 1]) with 2 in Hb.
        assert (E : i = 0 \/ i = 1) by lia.
        destruct E as [-> | ->]; cbv in Hi; injection Hi as <-; apply H0; lia.
      * intros i a Hi. assert (Hb := rd_bounds _ _ _ Hi). change (zlen [f1 0; f1 1]) with 2 in Hb.
        assert (E : i = 0 \/ i = 1) by lia.
        destruct E as [-> | ->]; cbv in Hi; injection Hi as <-; apply H1; lia.
      * intros o' Ho'. apply wp_ret. cbn [skipn].
        destruct (Z.leb_spec 1 (ge - (c + 2))) as [H3|H3].
        -- rewrite <- bind_assoc. apply wp_bind.
           replace (a0 + c + 2) with (a0 + (c + 2)) by lia. replace (a1 + c + 2) with (a1 + (c + 2)) by lia.
           eapply (stored_put2 run v0 v1 oc); [exact Ho'|lia|lia|lia|exact Hdis| | | | | | |];
             cbn [quad skipn firstn].
           all: change (zlen [f0 2]) with 1; change (zlen [f1 2]) with 1; try lia.
           ++ intros i a Hi. assert (Hb := rd_bounds _ _ _ Hi). change (zlen [f0 2]) with 1 in Hb.
              assert (i = 0) by lia. subst i. cbv in Hi. injection Hi as <-. rewrite Z.add_0_r. apply H0; lia.
           ++ intros i a Hi. assert (Hb := rd_bounds _ _ _ Hi). change (zlen [f1 2]) with 1 in Hb.
              assert (i = 0) by lia. subst i. cbv in Hi. injection Hi as <-. rewrite Z.add_0_r. apply H1; lia.
           ++ intros o2 Ho2. apply wp_ret.
              replace (Z.min 4 (ge - c)) with 3 in HQ by lia.
              replace (a0 + (c + 2) + 1) with (a0 + (c + 3)) by lia.
              replace (a1 + (c + 2) + 1) with (a1 + (c + 3)) by lia.
              replace (c + 2 + 1) with (c + 3) in * by lia. apply HQ. exact Ho2.
        -- apply wp_ret. replace (Z.min 4 (ge - c)) with 2 in HQ by lia.
           replace (a0 + c + 2) with (a0 + (c + 2)) by lia. replace (a1 + c + 2) with (a1 + (c + 2)) by lia.
           apply HQ. exact Ho'.
    + apply wp_ret. destruct (Z.leb_spec 1 (ge - c)) as [H3|H3]; [|lia].
      rewrite <- bind_assoc. apply wp_bind.
      eapply (stored_put2 run v0 v1 oc); [exact Hst|lia|lia|lia|exact Hdis| | | | | | |];
        cbn [quad firstn].
      all: change (zlen [f0 0]) with 1; change (zlen [f1 0]) with 1; try lia.
      * intros i a Hi. assert (Hb := rd_bounds _ _ _ Hi). change (zlen [f0 0]) with 1 in Hb.
        assert (i = 0) by lia. subst i. cbv in Hi. injection Hi as <-. apply H0; lia.
      * intros i a Hi. assert (Hb := rd_bounds _ _ _ Hi). change (zlen [f1 0]) with 1 in Hb.
        assert (i = 0) by lia. subst i. cbv in Hi. injection Hi as <-. apply H1; lia.
      * intros o' Ho'. apply wp_ret. replace (Z.min 4 (ge - c)) with 1 in HQ by lia.
        replace (a0 + c + 1) with (a0 + (c + 1)) by lia. replace (a1 + c + 1) with (a1 + (c + 1)) by lia.
        apply HQ. exact Ho'.
Qed.

Lemma bind_some {A} (m : option A) : bind m Some = m.
Proof. destruct m; reflexivity. Qed.

(** Storing one more element for each pixel. *)
Lemma stored_wr2 {T} (v0 v1 : Z -> T) g0 out o a0 a1 n w0 w1 (Q : list T -> Prop) :
  stored out v0 v1 a0 a1 n o ->
  0 <= n < g0 -> 0 <= a0 -> (a0 = a1 \/ a0 + g0 <= a1) ->
  a0 + g0 <= zlen out -> a1 + g0 <= zlen out -> w0 = v0 n -> w1 = v1 n ->
  (forall o', stored out v0 v1 a0 a1 (n + 1) o' -> Q o') ->
  wp (let* o := wr o (a1 + n) w1 in wr o (a0 + n) w0) Q.
Proof.
  intros Hst Hn Ha0 Hdis H0 H1 -> -> HQ.
  assert (H := stored_put2 (fun a c => Some (if a =? 0 then v0 c else v1 c)) v0 v1 g0 [0] [1] out o a0 a1 n Q Hst
    ltac:(lia) Ha0 ltac:(lia) Hdis ltac:(cbn; lia) eq_refl ltac:(cbn; lia) ltac:(cbn; lia)).
  cbn [put bind] in H. change (0 =? 0) with true in H. change (1 =? 0) with false in H. cbv iota in H.
  assert (E : (let* o := wr o (a1 + n) (v1 n) in wr o (a0 + n) (v0 n)) =
     (let* o := (let* out := wr o (a1 + n) (v1 n) in Some out) in let* out := wr o (a0 + n) (v0 n) in Some out)).
  { rewrite bind_some. destruct (wr o (a1 + n) (v1 n)); cbn [bind]; [rewrite bind_some|]; reflexivity. }
  rewrite E. apply H.
  - intros i a Hi. assert (Hb := rd_bounds _ _ _ Hi). change (zlen [0]) with 1 in Hb.
    assert (i = 0) by lia. subst i. cbv in Hi. injection Hi as <-. reflexivity.
  - intros i a Hi. assert (Hb := rd_bounds _ _ _ Hi). change (zlen [1]) with 1 in Hb.
    assert (i = 0) by lia. subst i. cbv in Hi. injection Hi as <-. reflexivity.
  - exact HQ.
Qed.

(** The number with bits f 0 .. f (n-1). *)
Fixpoint bitsn (n : nat) (f : Z -> bool) : Z :=
  match n with O => 0 | S n' => setbit_if (f (Z.of_nat n')) (bitsn n' f) (Z.of_nat n') end.
Lemma bitsn_nonneg n f : 0 <= bitsn n f.
Proof. induction n; cbn [bitsn]; [lia|]. apply setbit_if_nonneg; lia. Qed.
Lemma testbit_bitsn n f i : 0 <= i -> Z.testbit (bitsn n f) i = (i <? Z.of_nat n) && f i.
Proof.
  intros Hi. induction n as [|n IH]; cbn [bitsn].
  - rewrite Z.bits_0. destruct (Z.ltb_spec i (Z.of_nat 0)); [lia|reflexivity].
  - rewrite testbit_setbit_if, IH by lia. destruct (Z.eqb_spec (Z.of_nat n) i) as [<-|Hne].
    + destruct (Z.ltb_spec (Z.of_nat n) (Z.of_nat n)); [lia|].
      destruct (Z.ltb_spec (Z.of_nat n) (Z.of_nat (S n))); [reflexivity|lia].
    + cbn [andb]. rewrite orb_false_r.
      destruct (Z.ltb_spec i (Z.of_nat n)), (Z.ltb_spec i (Z.of_nat (S n))); try lia; reflexivity.
Qed.

(** Half [q] (16 channels) of a bitpacked pixel with [oc] channels. *)
Definition halfw (V : Z -> bool) (oc q : Z) : Z :=
  bitsn 16 (fun i => (16 * q + i <? oc) && V (16 * q + i)).

(** Column register when channels [16*(c/16), c) have been or-ed in. *)
Definition colinv (V : Z -> bool) (lo n col : Z) : Prop :=
  0 <= col /\ forall i, 0 <= i -> Z.testbit col i = (i <? n) && V (lo + i).

Lemma colinv_half V oc q n col :
  0 <= n -> colinv V (16 * q) n col ->
  (forall i, 0 <= i < 16 -> (i <? n) = (16 * q + i <? oc)) ->
  col mod 2 ^ 16 = halfw V oc q.
Proof.
  intros Hn (Hp & Hb) He. apply Z.bits_inj'. intros i Hi.
  unfold halfw. rewrite testbit_bitsn by lia. change (Z.of_nat 16) with 16.
  destruct (Z.ltb_spec i 16) as [Hlt|Hge].
  - rewrite Z.mod_pow2_bits_low by lia. rewrite Hb by lia. rewrite He by lia. reflexivity.
  - rewrite Z.mod_pow2_bits_high by lia. reflexivity.
Qed.

Lemma colinv_shift V q n col : colinv V (16 * q) n col -> colinv V (16 * (q + 1)) (n - 16) (Z.shiftr col 16).
Proof.
  intros (Hp & Hb). split; [apply Z.shiftr_nonneg; exact Hp|]. intros i Hi.
  rewrite Z.shiftr_spec by lia. rewrite Hb by lia. f_equal; [|f_equal; lia].
  destruct (Z.ltb_spec (i + 16) n), (Z.ltb_spec i (n - 16)); try lia; reflexivity.
Qed.

Lemma or_bits_ok (run : Z -> Z -> option bool) f (b : Z -> bool) col base c :
  0 <= col -> 0 <= base -> (forall i, 0 <= i < 4 -> run (f i) (c + i) = Some (b i)) ->
  exists col', or_bits run col base c (quad f) = Some col' /\ 0 <= col' /\
    forall i, 0 <= i -> Z.testbit col' i =
      Z.testbit col i || ((base <=? i) && (i <? base + 4) && b (i - base)).
Proof.
  intros Hc Hb Hr. unfold quad. cbn [or_bits].
  assert (E0 := Hr 0 ltac:(lia)). rewrite Z.add_0_r in E0. rewrite E0. cbn [bind].
  rewrite (Hr 1) by lia. cbn [bind].
  replace (c + 1 + 1) with (c + 2) by lia. rewrite (Hr 2) by lia. cbn [bind].
  replace (c + 2 + 1) with (c + 3) by lia. rewrite (Hr 3) by lia. cbn [bind].
  eexists. split; [reflexivity|]. split; [repeat apply setbit_if_nonneg; lia|].
  intros i Hi. rewrite !testbit_setbit_if by lia.
  destruct (Z.testbit col i); [reflexivity|]. cbn [orb].
  destruct (Z.leb_spec base i) as [H1|H1]; destruct (Z.ltb_spec i (base + 4)) as [H2|H2]; cbn [andb].
  - assert (E : i = base \/ i = base + 1 \/ i = base + 2 \/ i = base + 3) by lia.
    destruct E as [-> | [-> | [-> | ->]]].
    + replace (base - base) with 0 by lia. rewrite Z.eqb_refl. cbn [andb].
      destruct (Z.eqb_spec (base + 1) base); [lia|].
      destruct (Z.eqb_spec (base + 1 + 1) base); [lia|].
      destruct (Z.eqb_spec (base + 1 + 1 + 1) base); [lia|]. cbn [andb]. rewrite !orb_false_r. reflexivity.
    + replace (base + 1 - base) with 1 by lia. rewrite Z.eqb_refl. cbn [andb].
      destruct (Z.eqb_spec base (base + 1)); [lia|].
      destruct (Z.eqb_spec (base + 1 + 1) (base + 1)); [lia|].
      destruct (Z.eqb_spec (base + 1 + 1 + 1) (base + 1)); [lia|]. cbn [andb orb]. rewrite !orb_false_r. reflexivity.
    + replace (base + 2 - base) with 2 by lia.
      destruct (Z.eqb_spec base (base + 2)); [lia|].
      destruct (Z.eqb_spec (base + 1) (base + 2)); [lia|].
      destruct (Z.eqb_spec (base + 1 + 1) (base + 2)); [|lia].
      destruct (Z.eqb_spec (base + 1 + 1 + 1) (base + 2)); [lia|]. cbn [andb orb]. rewrite !orb_false_r. reflexivity.
    + replace (base + 3 - base) with 3 by lia.
      destruct (Z.eqb_spec base (base + 3)); [lia|].
      destruct (Z.eqb_spec (base + 1) (base + 3)); [lia|].
      destruct (Z.eqb_spec (base + 1 + 1) (base + 3)); [lia|].
      destruct (Z.eqb_spec (base + 1 + 1 + 1) (base + 3)); [|lia]. cbn [andb orb]. reflexivity.
  - destruct (Z.eqb_spec base i); [lia|]. destruct (Z.eqb_spec (base + 1) i); [lia|].
    destruct (Z.eqb_spec (base + 1 + 1) i); [lia|]. destruct (Z.eqb_spec (base + 1 + 1 + 1) i); [lia|]. reflexivity.
  - destruct (Z.eqb_spec base i); [lia|]. destruct (Z.eqb_spec (base + 1) i); [lia|].
    destruct (Z.eqb_spec (base + 1 + 1) i); [lia|]. destruct (Z.eqb_spec (base + 1 + 1 + 1) i); [lia|]. reflexivity.
  - lia.
Qed.

(** Or-ing four bits of which the first K are channels of the group, then
    masking off the rest when K < 4. *)
Lemma colinv_step V lo n col col' (b : Z -> bool) K :
  colinv V lo n col -> 0 <= n -> 1 <= K <= 4 -> 0 <= col' ->
  (forall i, 0 <= i -> Z.testbit col' i =
      Z.testbit col i || ((n <=? i) && (i <? n + 4) && b (i - n))) ->
  (forall i, 0 <= i < K -> b i = V (lo + n + i)) ->
  colinv V lo (n + K) (if K <? 4 then Z.land col' (Z.shiftl 1 (n + K) - 1) else col').
Proof.
  intros (Hp & Hb) Hn HK Hp' Hb' Hv.
  assert (Hb2 : forall i, 0 <= i < n + K -> Z.testbit col' i = V (lo + i)).
  { intros i Hi. rewrite Hb', Hb by lia.
    destruct (Z.ltb_spec i n), (Z.leb_spec n i), (Z.ltb_spec i (n + 4)); try lia; cbn [andb orb].
    - rewrite orb_false_r. reflexivity.
    - rewrite Hv by lia. f_equal. lia. }
  destruct (Z.ltb_spec K 4).
  - split; [apply Z.land_nonneg; lia|]. intros i Hi.
    rewrite Z.land_spec, Z.shiftl_1_l.
    replace (2 ^ (n + K) - 1) with (Z.ones (n + K)) by (rewrite Z.ones_equiv; lia).
    destruct (Z.ltb_spec i (n + K)).
    + rewrite Z.ones_spec_low by lia. rewrite andb_true_r, Hb2 by lia. reflexivity.
    + rewrite Z.ones_spec_high by lia. rewrite andb_false_r. reflexivity.
  - assert (K = 4) by lia. subst K. split; [exact Hp'|]. intros i Hi.
    destruct (Z.ltb_spec i (n + 4)).
    + apply Hb2. lia.
    + rewrite Hb', Hb by lia.
      destruct (Z.ltb_spec i n), (Z.ltb_spec i (n + 4)); try lia.
Qed.

Section Run.
  Variable k : kern.
  Variables pw input zero : list Z.
  Variable ibuf : list iptr.
  (** Groups, output channels per group, taps, depth words per group, channel
      blocks per group, output pixels. *)
  Variables G CO fs fd nblk N : Z.
  Hypothesis (HG : 0 < G) (HCO : 0 < CO) (Hfs : 0 < fs) (Hfd : 0 < fd) (Hnblk : 0 < nblk)
    (Hblk : (nblk - 1) * 4 < CO <= nblk * 4) (HN : 0 <= N)
    (Koc : k_oc k = G * CO) (Kfs : k_fs k = fs) (KG : k_groups k = G).
  Hypothesis Hpw : zlen pw = G * (nblk * 4) * fs * fd + 4.
  (** Word [w] (0 <= w < G*fd) of the input pixel under tap [ki] of output
      pixel [pix]. *)
  Variable A : Z -> Z -> Z -> Z.
  Hypothesis HA : forall t ki j, 0 <= t -> 2 * t < N -> 0 <= ki < fs -> 0 <= j < 2 ->
    exists q, rd ibuf ((t * fs + ki) * 2 + j) = Some q /\
      forall w, 0 <= w < G * fd -> deref input zero q w = Some (A (Z.min (2 * t + j) (N - 1)) ki w).

  (** Accumulator of channel [i] of block [blk] of group [g] at pixel [pix]. *)
  Definition S4 (pix g blk i : Z) : Z :=
    sum_ fs (fun ki => sum_ fd (fun ci =>
      xor_popcount (word_at pw ((((g * nblk + blk) * fs + ki) * fd + ci) * 4 + i))
                   (A pix ki (g * fd + ci)))).

  Lemma pw_bounds g blk ki ci i :
    0 <= g < G -> 0 <= blk < nblk -> 0 <= ki < fs -> 0 <= ci < fd -> 0 <= i < 4 ->
    0 <= (((g * nblk + blk) * fs + ki) * fd + ci) * 4 + i < zlen pw.
  Proof.
    intros Hg Hb Hk Hc Hi. rewrite Hpw.
    assert (HO := Offset_bounds G nblk fs fd g blk ki ci Hg Hb Hk Hc). unfold Offset in HO.
    replace (G * (nblk * 4) * fs * fd) with (G * nblk * fs * fd * 4) by ring. lia.
  Qed.

  Lemma accumulate_ok t g blk :
    0 <= t -> 2 * t < N -> 0 <= g < G -> 0 <= blk < nblk ->
    accumulate k pw input zero ibuf fd (g * fd) ((g * nblk + blk) * fs * fd * 4) (2 * t * fs)
    = Some (quad (S4 (Z.min (2 * t + 0) (N - 1)) g blk), quad (S4 (Z.min (2 * t + 1) (N - 1)) g blk),
            (g * nblk + blk + 1) * fs * fd * 4, 2 * t * fs + 2 * fs).
  Proof.
    intros Ht0 Ht Hg Hb.
    set (p0 := Z.min (2 * t + 0) (N - 1)). set (p1 := Z.min (2 * t + 1) (N - 1)).
    set (B := (g * nblk + blk) * fs).
    assert (Hw : wp (accumulate k pw input zero ibuf fd (g * fd) (B * fd * 4) (2 * t * fs))
      (fun r => r = (quad (S4 p0 g blk), quad (S4 p1 g blk), (B + fs) * fd * 4, 2 * t * fs + 2 * fs))).
    2:{ apply wp_iff in Hw. destruct Hw as (r & Er & ->). rewrite Er.
        replace ((B + fs) * fd * 4) with ((g * nblk + blk + 1) * fs * fd * 4) by (unfold B; ring).
        reflexivity. }
    set (W := fun ki ci i => word_at pw (((B + ki) * fd + ci) * 4 + i)).
    set (term := fun pix ki ci i => xor_popcount (W ki ci i) (A pix ki (g * fd + ci))).
    set (R := fun ki ci i => ((B + ki) * fd + ci) * 4 + i).
    assert (HR : forall ki ci i, 0 <= ki < fs -> 0 <= ci < fd -> 0 <= i < 4 ->
       rd pw (((B + ki) * fd + ci) * 4 + i) = Some (W ki ci i)).
    { intros ki ci i Hk Hc Hi. apply word_at_ok. apply (pw_bounds g blk); auto. }
    unfold accumulate. rewrite Kfs. unfold do_while_count. rewrite !Z.max_r by lia.
    apply (for_wp (fun ki st => st =
       (quad (fun i => sum_ ki (fun kk => sum_ fd (fun ci => term p0 kk ci i))),
        quad (fun i => sum_ ki (fun kk => sum_ fd (fun ci => term p1 kk ci i))),
        (B + ki) * fd * 4, 2 * t * fs + 2 * ki))).
    - unfold quad. rewrite !sum_0 by lia. rewrite !Z.add_0_r. reflexivity.
    - intros ki st Hki ->.
      destruct (HA t ki 0 Ht0 Ht Hki ltac:(lia)) as (q0 & Hq0 & Hd0).
      destruct (HA t ki 1 Ht0 Ht Hki ltac:(lia)) as (q1 & Hq1 & Hd1). fold p0 in Hd0. fold p1 in Hd1.
      replace (2 * t * fs + 2 * ki) with ((t * fs + ki) * 2 + 0) by ring. rewrite Hq0. cbn [bind].
      replace ((t * fs + ki) * 2 + 0 + 1) with ((t * fs + ki) * 2 + 1) by ring. rewrite Hq1. cbn [bind].
      apply wp_bind.
      apply (for_wp (fun ci st => st =
       (quad (fun i => sum_ ki (fun kk => sum_ fd (fun ci => term p0 kk ci i)) + sum_ ci (fun cc => term p0 ki cc i)),
        quad (fun i => sum_ ki (fun kk => sum_ fd (fun ci => term p1 kk ci i)) + sum_ ci (fun cc => term p1 ki cc i)),
        ((B + ki) * fd + ci) * 4, g * fd + ci))).
      + unfold quad. rewrite !(sum_0 0) by lia. rewrite !Z.add_0_r. reflexivity.
      + intros ci st Hci ->.
        assert (E0 := HR ki ci 0 Hki Hci ltac:(lia)). rewrite Z.add_0_r in E0.
        rewrite E0, !HR by lia. cbn [bind].
        assert (Hw : 0 <= g * fd + ci < G * fd) by nia.
        rewrite Hd0, Hd1 by exact Hw. cbn [bind]. apply wp_ret.
        rewrite !add4_quad.
        f_equal; [f_equal; [f_equal|]|]; [| |ring|ring].
        * apply quad_ext. intros i Hi. rewrite sum_succ by lia. rewrite Z.add_assoc. reflexivity.
        * apply quad_ext. intros i Hi. rewrite sum_succ by lia. rewrite Z.add_assoc. reflexivity.
      + rewrite Z.max_r by lia. intros st ->. apply wp_ret.
        f_equal; [f_equal; [f_equal|]|]; [| |ring|ring].
        * apply quad_ext. intros i Hi. rewrite sum_succ by lia. reflexivity.
        * apply quad_ext. intros i Hi. rewrite sum_succ by lia. reflexivity.
    - rewrite Z.max_r by lia. intros st ->.
      reflexivity.
  Qed.

  Section Val.
  (** The value stored for channel [c] of pixel [pix]. *)
  Context {T : Type}.
  Variable run : Z -> Z -> option T.
  Variable v : Z -> Z -> T.
  Hypothesis Hrun : forall pix g blk i, 0 <= pix < N -> 0 <= g < G -> 0 <= blk < nblk -> 0 <= i < 4 ->
    4 * blk + i < CO ->
    run (S4 pix g blk i) (g * CO + 4 * blk + i) = Some (v pix (g * CO + 4 * blk + i)).

  Lemma run_val_pixel_wp t pe out (Q : list T -> Prop) :
    0 <= t -> 2 * t < pe <= N -> zlen out = N * (G * CO) ->
    (forall out', stored out (v (2 * t)) (v (Z.min (2 * t + 1) (N - 1))) (2 * t * (G * CO))
       (if pe - 2 * t <? 2 then 2 * t * (G * CO) else 2 * t * (G * CO) + G * CO) (G * CO) out' -> Q out') ->
    wp (run_val_pixel k pw input zero ibuf fd run CO (2 * t) pe out) Q.
  Proof.
    intros Ht Hpe Hlen HQ. unfold run_val_pixel. rewrite Kfs, Koc.
    set (oc := G * CO) in *. assert (Hoc : 0 < oc) by (unfold oc; nia).
    set (P0 := 2 * t * oc) in *. set (P1 := if pe - 2 * t <? 2 then P0 else P0 + oc) in *.
    set (v0 := v (2 * t)) in *. set (v1 := v (Z.min (2 * t + 1) (N - 1))) in *.
    assert (HP0 : 0 <= P0 /\ P0 + oc <= zlen out) by (unfold P0; rewrite Hlen; nia).
    assert (HP1 : (P0 = P1 \/ P0 + oc <= P1) /\ P1 + oc <= zlen out).
    { unfold P1. destruct (Z.ltb_spec (pe - 2 * t) 2); [lia|]. split; [right; lia|].
      unfold P0. rewrite Hlen. nia. }
    clearbody P1.
    set (I := fun (s : list T * Z * Z * Z * Z * Z * Z) =>
      let '(o, wp_, p0, p1, ido, ge, c) := s in
      stored out v0 v1 P0 P1 c o /\ p0 = P0 + c /\ p1 = P1 + c /\ 0 <= c <= oc /\
      (c < oc -> exists g blk, 0 <= g < G /\ 0 <= blk < nblk /\ 4 * blk < CO /\ c = g * CO + 4 * blk /\
         ido = g * fd /\ ge = (g + 1) * CO /\ wp_ = (g * nblk + blk) * fs * fd * 4)).
    set (mu := fun (s : list T * Z * Z * Z * Z * Z * Z) => let '(_, _, _, _, _, _, c) := s in oc - c).
    match goal with |- wp (let* st := ?STEP0 in _) Q =>
      match goal with |- context [while_ _ _ ?ST _] => set (step := ST) in * end end.
    assert (Hstep : forall s, I s -> (let '(_, _, _, _, _, _, c) := s in c <? oc) = true ->
       wp (step s) (fun s' => I s' /\ mu s' < mu s)).
    { intros [[[[[[o w] p0] p1] ido] ge] c] (Hst & -> & -> & Hc & Hex) Hlt. apply Z.ltb_lt in Hlt.
      destruct (Hex Hlt) as (g & blk & Hg & Hb & Hb4 & Ec & -> & -> & ->). unfold step. cbv beta iota.
      rewrite accumulate_ok by (auto; lia). cbn [bind].
      replace (Z.min (2 * t + 0) (N - 1)) with (2 * t) by lia.
      assert (Hgoc : (g + 1) * CO <= oc) by (unfold oc; nia).
      assert (Hcge : c < (g + 1) * CO) by lia.
      assert (Hcge2 : (g + 1) * CO = g * CO + CO) by ring.
      apply wp_bind. eapply (write_block_wp run v0 v1 oc); [exact Hst|lia|lia|lia|tauto|tauto|tauto| | |].
      - intros i Hi Hlt2. rewrite Ec. apply Hrun; auto; lia.
      - intros i Hi Hlt2. rewrite Ec. apply Hrun; auto; lia.
      - intros o' K Ho'. cbv beta iota.
        assert (HK : 1 <= K <= 4) by lia.
        destruct (Z.eqb_spec (c + K) ((g + 1) * CO)) as [Ee|Ee]; apply wp_ret; (split; [|unfold mu; lia]).
        + unfold I. split; [exact Ho'|]. split; [lia|]. split; [lia|]. split; [lia|].
          intros Hlt2. exists (g + 1), 0.
          assert (Eblk : blk + 1 = nblk) by (unfold K in *; lia).
          assert (g + 1 < G) by (unfold oc in Hlt2; nia).
          repeat split; try lia; rewrite <- Eblk; ring.
        + unfold I. split; [exact Ho'|]. split; [lia|]. split; [lia|]. split; [lia|].
          intros Hlt2. exists g, (blk + 1). assert (K = 4) by (unfold K in *; lia).
          repeat split; lia. }
    assert (I0 : I (out, 0, P0, P1, 0, CO, 0)).
    { unfold I. split; [apply stored_0|]. split; [lia|]. split; [lia|]. split; [lia|].
      intros _. exists 0, 0. repeat split; try lia. }
    apply wp_bind. eapply wp_mono; [apply (Hstep _ I0); apply Z.ltb_lt; lia|].
    intros s1 [I1 Hmu]. apply wp_bind.
    apply (while_wp I mu).
    - intros [[[[[[o w] p0] p1] ido] ge] c] (_ & _ & _ & Hc & _). unfold mu. lia.
    - exact Hstep.
    - intros [[[[[[o w] p0] p1] ido] ge] c] (Hst & _ & _ & Hc & _) Hf. apply Z.ltb_ge in Hf.
      apply wp_ret. apply HQ. replace c with oc in Hst by lia. exact Hst.
    - exact I1.
    - unfold mu in Hmu at 2. lia.
  Qed.

  (** Any even-aligned range of pixels. *)
  Lemma run_val_wp ts pe out (Q : list T -> Prop) :
    0 <= ts -> 2 * ts <= pe <= N -> zlen out = N * (G * CO) ->
    (forall out', zlen out' = zlen out ->
       (forall pix c, 2 * ts <= pix < pe -> 0 <= c < G * CO -> rd out' (pix * (G * CO) + c) = Some (v pix c)) ->
       (forall j, ~ 2 * ts * (G * CO) <= j < pe * (G * CO) -> rd out' j = rd out j) -> Q out') ->
    wp (run_val k pw input zero ibuf fd run (2 * ts) pe out) Q.
  Proof.
    intros Hts Hpe Hlen HQ. unfold run_val. rewrite Koc, KG.
    rewrite cdiv_nz by lia. cbn [bind]. replace (Z.quot (G * CO) G) with CO by (rewrite Z.mul_comm, Z.quot_mul by lia; reflexivity).
    set (oc := G * CO) in *. assert (Hoc : 0 < oc) by (unfold oc; nia).
    unfold for_step.
    set (m := (pe - 2 * ts + 2 - 1) / 2).
    set (I := fun i o => zlen o = zlen out /\
       (forall pix c, 2 * ts <= pix < Z.min (2 * ts + 2 * i) pe -> 0 <= c < oc -> rd o (pix * oc + c) = Some (v pix c)) /\
       (forall j, ~ 2 * ts * oc <= j < Z.min (2 * ts + 2 * i) pe * oc -> rd o j = rd out j)).
    apply (for_wp I).
    - unfold I. split; [reflexivity|]. split; [intros; lia|reflexivity].
    - intros i o Hi (Hl & Hv & Hu).
      replace (2 * ts + i * 2) with (2 * (ts + i)) by lia.
      assert (Hlt : 2 * (ts + i) < pe) by (unfold m in Hi; lia).
      apply run_val_pixel_wp; [lia|lia|lia|]. fold oc. intros o' (Hl' & Hc').
      set (q := 2 * (ts + i)) in *.
      replace (Z.min (2 * ts + 2 * i) pe) with q in * by lia.
      assert (Hq1 : q * oc + oc = (q + 1) * oc) by ring.
      assert (Hq2 : q * oc + oc + oc = (q + 2) * oc) by ring.
      unfold I. split; [lia|]. split.
      + intros pix c Hpix Hc. rewrite Hc'.
        destruct (Z.lt_ge_cases pix q) as [Hlt2|Hge].
        * assert (pix * oc + c < q * oc) by nia.
          destruct (Z.leb_spec (q * oc) (pix * oc + c)); [lia|]. cbn [andb].
          destruct (Z.leb_spec (if pe - q <? 2 then q * oc else q * oc + oc) (pix * oc + c));
            [destruct (pe - q <? 2); lia|]. cbn [andb]. apply Hv; lia.
        * destruct (Z.eq_dec pix q) as [->|Hne].
          -- destruct (Z.leb_spec (q * oc) (q * oc + c)); [|lia].
             destruct (Z.ltb_spec (q * oc + c) (q * oc + oc)); [|lia]. cbn [andb].
             do 2 f_equal. lia.
          -- assert (Ep : pix = q + 1) by lia. assert (Hpe2 : q + 2 <= pe) by lia.
             rewrite Ep, Z.mul_add_distr_r, Z.mul_1_l.
             destruct (Z.ltb_spec (q * oc + oc + c) (q * oc + oc)); [lia|]. rewrite andb_false_r.
             destruct (Z.ltb_spec (pe - q) 2); [lia|].
             destruct (Z.leb_spec (q * oc + oc) (q * oc + oc + c)); [|lia].
             destruct (Z.ltb_spec (q * oc + oc + c) (q * oc + oc + oc)); [|lia]. cbn [andb].
             replace (Z.min (q + 1) (N - 1)) with (q + 1) by lia. do 2 f_equal. lia.
      + intros j Hj. rewrite Hc'.
        assert (HM : Z.min (2 * ts + 2 * (i + 1)) pe * oc = (if pe - q <? 2 then (q + 1) * oc else (q + 2) * oc)).
        { destruct (Z.ltb_spec (pe - q) 2); f_equal; lia. }
        rewrite HM in Hj.
        assert (Hts0 : 2 * ts * oc <= q * oc) by (unfold q; nia).
        destruct (Z.leb_spec (q * oc) j), (Z.ltb_spec j (q * oc + oc)); cbn [andb];
          try (exfalso; destruct (pe - q <? 2); lia).
        all: destruct (Z.ltb_spec (pe - q) 2);
          [destruct (Z.leb_spec (q * oc) j), (Z.ltb_spec j (q * oc + oc)); cbn [andb]; try lia; apply Hu; lia
          |destruct (Z.leb_spec (q * oc + oc) j), (Z.ltb_spec j (q * oc + oc + oc)); cbn [andb]; try lia; apply Hu; lia].
    - intros o (Hl & Hv & Hu). apply HQ; [exact Hl| |].
      + intros pix c Hpix Hc. apply Hv; auto. unfold m. lia.
      + intros j Hj. apply Hu. replace (Z.min (2 * ts + 2 * Z.max 0 m) pe) with pe by (unfold m; lia). exact Hj.
  Qed.
  End Val.

  (** ** Bitpacked output *)
  Variable runb : Z -> Z -> option bool.
  Variable V : Z -> Z -> bool.
  Hypothesis HrunV : forall pix g blk i, 0 <= pix < N -> 0 <= g < G -> 0 <= blk < nblk -> 0 <= i < 4 ->
    4 * blk + i < CO ->
    runb (S4 pix g blk i) (g * CO + 4 * blk + i) = Some (V pix (g * CO + 4 * blk + i)).
  (** The kernel evaluates the transform for up to three channels past the end. *)
  Hypothesis Htot : forall a c, 0 <= c < G * CO + 3 -> exists b, runb a c = Some b.

  Lemma or_bits_block pix g blk col base :
    0 <= pix < N -> 0 <= g < G -> 0 <= blk < nblk -> 4 * blk < CO -> 0 <= col -> 0 <= base ->
    exists col' b, or_bits runb col base (g * CO + 4 * blk) (quad (S4 pix g blk)) = Some col' /\ 0 <= col' /\
      (forall i, 0 <= i -> Z.testbit col' i =
         Z.testbit col i || ((base <=? i) && (i <? base + 4) && b (i - base))) /\
      (forall i, 0 <= i < Z.min 4 (CO - 4 * blk) -> b i = V pix (g * CO + 4 * blk + i)).
  Proof.
    intros Hpix Hg Hb Hb4 Hcol Hbase.
    set (b := fun i => match runb (S4 pix g blk i) (g * CO + 4 * blk + i) with Some x => x | None => false end).
    assert (Hr : forall i, 0 <= i < 4 -> runb (S4 pix g blk i) (g * CO + 4 * blk + i) = Some (b i)).
    { intros i Hi. unfold b. destruct (Htot (S4 pix g blk i) (g * CO + 4 * blk + i)) as [x Hx].
      - assert (g * CO + CO <= G * CO) by nia. nia.
      - rewrite Hx. reflexivity. }
    destruct (or_bits_ok runb (S4 pix g blk) b col base (g * CO + 4 * blk) Hcol Hbase Hr) as (col' & E & Hp & Hbits).
    exists col', b. split; [exact E|]. split; [exact Hp|]. split; [exact Hbits|].
    intros i Hi. unfold b. rewrite HrunV by lia. reflexivity.
  Qed.

  Lemma run_bits_pixel_wp t pe out (Q : list Z -> Prop) :
    0 <= t -> 2 * t < pe <= N -> zlen out = N * (2 * words (G * CO)) ->
    (forall out', stored out (halfw (V (2 * t)) (G * CO)) (halfw (V (Z.min (2 * t + 1) (N - 1))) (G * CO))
       (2 * t * (2 * words (G * CO)))
       (if pe - 2 * t <? 2 then 2 * t * (2 * words (G * CO)) else 2 * t * (2 * words (G * CO)) + 2 * words (G * CO))
       ((G * CO + 15) / 16) out' -> Q out') ->
    wp (run_bits_pixel k pw input zero ibuf fd runb CO (2 * t) pe out) Q.
  Proof.
    intros Ht Hpe Hlen HQ. unfold run_bits_pixel. rewrite Kfs, Koc.
    set (oc := G * CO) in *. assert (Hoc : 0 < oc) by (unfold oc; nia).
    rewrite GetBitpackedSize_words by lia.
    assert (HW := words_mul32 oc ltac:(lia)). set (W := words oc) in *.
    replace (2 * (2 * t * W)) with (2 * t * (2 * W)) by ring.
    set (P0 := 2 * t * (2 * W)) in *. set (P1 := if pe - 2 * t <? 2 then P0 else P0 + 2 * W) in *.
    set (p0 := 2 * t) in *. set (p1 := Z.min (p0 + 1) (N - 1)) in *.
    assert (Hp0 : 0 <= p0 < N) by lia. assert (Hp1 : 0 <= p1 < N) by lia.
    assert (HP0 : 0 <= P0 /\ P0 + 2 * W <= zlen out) by (unfold P0; rewrite Hlen; nia).
    assert (HP1 : (P0 = P1 \/ P0 + 2 * W <= P1) /\ P1 + 2 * W <= zlen out).
    { unfold P1. destruct (Z.ltb_spec (pe - p0) 2); [lia|]. split; [right; lia|].
      unfold P0. rewrite Hlen. nia. }
    clearbody P1.
    set (I := fun (s : list Z * Z * Z * Z * Z * Z * Z * Z * Z) =>
      let '(o, wp_, h0, h1, col0, col1, ido, ge, c) := s in
      stored out (halfw (V p0) oc) (halfw (V p1) oc) P0 P1 (c / 16) o /\
      h0 = P0 + c / 16 /\ h1 = P1 + c / 16 /\ 0 <= c <= oc /\
      colinv (V p0) (16 * (c / 16)) (c mod 16) col0 /\ colinv (V p1) (16 * (c / 16)) (c mod 16) col1 /\
      (c < oc -> exists g blk, 0 <= g < G /\ 0 <= blk < nblk /\ 4 * blk < CO /\ c = g * CO + 4 * blk /\
         ido = g * fd /\ ge = (g + 1) * CO /\ wp_ = (g * nblk + blk) * fs * fd * 4)).
    set (mu := fun (s : list Z * Z * Z * Z * Z * Z * Z * Z * Z) => let '(_, _, _, _, _, _, _, _, c) := s in oc - c).
    match goal with |- context [while_ _ _ ?ST _] => set (step := ST) in * end.
    assert (Hstep : forall s, I s -> (let '(_, _, _, _, _, _, _, _, c) := s in c <? oc) = true ->
       wp (step s) (fun s' => I s' /\ mu s' < mu s)).
    { intros [[[[[[[[o w] h0] h1] col0] col1] ido] ge] c] (Hst & -> & -> & Hc & HC0 & HC1 & Hex) Hlt.
      apply Z.ltb_lt in Hlt.
      destruct (Hex Hlt) as (g & blk & Hg & Hb & Hb4 & Ec & -> & -> & ->). unfold step. cbv beta iota.
      assert (EA := accumulate_ok t g blk Ht ltac:(lia) Hg Hb). fold p0 in EA. fold p1 in EA.
      replace (Z.min (p0 + 0) (N - 1)) with p0 in EA by lia. rewrite EA. cbn [bind].
      assert (Hgoc : (g + 1) * CO <= oc) by (unfold oc; nia).
      assert (Hcge : c < (g + 1) * CO) by lia.
      assert (Hcge2 : (g + 1) * CO = g * CO + CO) by ring.
      rewrite Z.rem_mod_nonneg by lia.
      destruct (or_bits_block p0 g blk col0 (c mod 16) Hp0 Hg Hb Hb4 ltac:(apply HC0) ltac:(lia))
        as (c0' & b0 & E0 & Hn0 & HB0 & Hv0).
      destruct (or_bits_block p1 g blk col1 (c mod 16) Hp1 Hg Hb Hb4 ltac:(apply HC1) ltac:(lia))
        as (c1' & b1 & E1 & Hn1 & HB1 & Hv1).
      rewrite <- Ec in E0, E1. rewrite E0. cbn [bind]. rewrite E1. cbn [bind].
      set (K := Z.min 4 (CO - 4 * blk)) in *. assert (HK : 1 <= K <= 4) by lia.
      set (mask := fun col : Z => if K <? 4 then Z.land col (Z.shiftl 1 (c mod 16 + K) - 1) else col).
      assert (HC0' : colinv (V p0) (16 * (c / 16)) (c mod 16 + K) (mask c0')).
      { apply (colinv_step (V p0) _ _ col0 c0' b0 K HC0); auto; [lia|]. intros i Hi. rewrite Hv0 by exact Hi.
        f_equal. lia. }
      assert (HC1' : colinv (V p1) (16 * (c / 16)) (c mod 16 + K) (mask c1')).
      { apply (colinv_step (V p1) _ _ col1 c1' b1 K HC1); auto; [lia|]. intros i Hi. rewrite Hv1 by exact Hi.
        f_equal. lia. }
      set (w' := (g * nblk + blk + 1) * fs * fd * 4).
      assert (Htail : forall ido' ge',
         (c + K < oc -> exists g blk, 0 <= g < G /\ 0 <= blk < nblk /\ 4 * blk < CO /\ c + K = g * CO + 4 * blk /\
           ido' = g * fd /\ ge' = (g + 1) * CO /\ w' = (g * nblk + blk) * fs * fd * 4) ->
         wp (if Z.rem (c + K) 16 <? c mod 16 then
               let* out := wr o (P1 + c / 16) (mask c1' mod 2 ^ 16) in
               let* out := wr out (P0 + c / 16) (mask c0' mod 2 ^ 16) in
               Some (out, w', P0 + c / 16 + 1, P1 + c / 16 + 1, Z.shiftr (mask c0') 16, Z.shiftr (mask c1') 16,
                     ido', ge', c + K)
             else Some (o, w', P0 + c / 16, P1 + c / 16, mask c0', mask c1', ido', ge', c + K))
            (fun s' => I s' /\ mu s' < mu (o, (g * nblk + blk) * fs * fd * 4, P0 + c / 16, P1 + c / 16, col0, col1, g * fd, (g + 1) * CO, c))).
      { intros ido' ge' Hex'. rewrite Z.rem_mod_nonneg by lia.
        assert (Hoc' : c + K <= oc) by lia.
        destruct (Z.ltb_spec ((c + K) mod 16) (c mod 16)) as [Hwrap|Hno].
        - assert (Ed : (c + K) / 16 = c / 16 + 1) by lia.
          assert (Em : (c + K) mod 16 = c mod 16 + K - 16) by lia.
          rewrite <- bind_assoc. apply wp_bind.
          assert (Hn : 0 <= c / 16 < 2 * W) by lia.
          apply (stored_wr2 (halfw (V p0) oc) (halfw (V p1) oc) (2 * W) out); auto; try tauto.
          + apply (colinv_half (V p0) oc (c / 16) (c mod 16 + K)); [lia|exact HC0'|].
            intros i Hi. destruct (Z.ltb_spec i (c mod 16 + K)), (Z.ltb_spec (16 * (c / 16) + i) oc); try lia; reflexivity.
          + apply (colinv_half (V p1) oc (c / 16) (c mod 16 + K)); [lia|exact HC1'|].
            intros i Hi. destruct (Z.ltb_spec i (c mod 16 + K)), (Z.ltb_spec (16 * (c / 16) + i) oc); try lia; reflexivity.
          + intros o' Ho'. apply wp_ret. split; [|unfold mu; lia]. unfold I. rewrite Ed, Em.
            split; [exact Ho'|]. split; [lia|]. split; [lia|]. split; [lia|].
            split; [apply colinv_shift; exact HC0'|]. split; [apply colinv_shift; exact HC1'|]. exact Hex'.
        - assert (Ed : (c + K) / 16 = c / 16) by lia.
          assert (Em : (c + K) mod 16 = c mod 16 + K) by lia.
          apply wp_ret. split; [|unfold mu; lia]. unfold I. rewrite Ed, Em.
          split; [exact Hst|]. split; [lia|]. split; [lia|]. split; [lia|].
          split; [exact HC0'|]. split; [exact HC1'|]. exact Hex'. }
      destruct (Z.ltb_spec 4 ((g + 1) * CO - c)) as [H4|H4].
      - assert (EK : K = 4) by (unfold K; lia).
        unfold mask in Htail. rewrite EK in Htail. cbn [Z.ltb Z.compare Pos.compare Pos.compare_cont] in Htail.
        apply Htail. intros Hlt2. exists g, (blk + 1). repeat split; try lia.
      - assert (EK : K = (g + 1) * CO - c) by (unfold K; lia).
        assert (Ege2 : (g + 1) * CO = c + K) by lia. rewrite Ege2 in Htail |- *.
        replace (c + K - c) with K by lia.
        change ((g * nblk + blk + 1) * fs * fd * 4) with w'.
        apply Htail. intros Hlt2. exists (g + 1), 0.
        assert (Eblk : blk + 1 = nblk) by (unfold K in *; lia).
        assert (g + 1 < G) by (unfold oc in Hlt2; nia).
        repeat split; try lia; unfold w'; rewrite <- Eblk; ring. }
    assert (I0 : I (out, 0, P0, P1, 0, 0, 0, CO, 0)).
    { unfold I. rewrite Z.div_0_l, Z.mod_0_l by lia. split; [apply stored_0|]. split; [lia|]. split; [lia|]. split; [lia|].
      assert (HC : forall pix, colinv (V pix) (16 * 0) 0 0).
      { intros pix. split; [lia|]. intros i Hi. rewrite Z.bits_0. destruct (Z.ltb_spec i 0); [lia|reflexivity]. }
      split; [apply HC|]. split; [apply HC|].
      intros _. exists 0, 0. repeat split; lia. }
    apply wp_bind. eapply wp_mono; [apply (Hstep _ I0); apply Z.ltb_lt; lia|].
    intros s1 [I1 Hmu]. apply wp_bind.
    apply (while_wp I mu).
    - intros [[[[[[[[o w] h0] h1] col0] col1] ido] ge] c] (_ & _ & _ & Hc & _). unfold mu. lia.
    - exact Hstep.
    - intros [[[[[[[[o w] h0] h1] col0] col1] ido] ge] c] (Hst & -> & -> & Hc & HC0 & HC1 & _) Hf.
      apply Z.ltb_ge in Hf. assert (c = oc) by lia. subst c.
      rewrite Z.rem_mod_nonneg by lia.
      destruct (Z.ltb_spec 0 (oc mod 16)) as [Hm|Hm].
      + apply (stored_wr2 (halfw (V p0) oc) (halfw (V p1) oc) (2 * W) out); auto; try tauto; [lia| | |].
        * apply (colinv_half (V p0) oc (oc / 16) (oc mod 16)); [lia|exact HC0|].
          intros i Hi. destruct (Z.ltb_spec i (oc mod 16)), (Z.ltb_spec (16 * (oc / 16) + i) oc); try lia; reflexivity.
        * apply (colinv_half (V p1) oc (oc / 16) (oc mod 16)); [lia|exact HC1|].
          intros i Hi. destruct (Z.ltb_spec i (oc mod 16)), (Z.ltb_spec (16 * (oc / 16) + i) oc); try lia; reflexivity.
        * intros o' Ho'. apply HQ. replace ((oc + 15) / 16) with (oc / 16 + 1) by lia. exact Ho'.
      + apply wp_ret. apply HQ. replace ((oc + 15) / 16) with (oc / 16) by lia. exact Hst.
    - exact I1.
    - unfold mu in Hmu at 2. lia.
  Qed.
  Lemma in_slot St n pix q p0 : 0 <= q < St -> 0 <= n <= St ->
    ((p0 * St <=? pix * St + q) && (pix * St + q <? p0 * St + n)) = ((pix =? p0) && (q <? n)).
  Proof.
    intros Hq Hn. destruct (Z.eqb_spec pix p0) as [->|Hne].
    - destruct (Z.leb_spec (p0 * St) (p0 * St + q)); [|lia]. cbn [andb].
      destruct (Z.ltb_spec (p0 * St + q) (p0 * St + n)), (Z.ltb_spec q n); try lia; reflexivity.
    - cbn [andb]. destruct (Z.leb_spec (p0 * St) (pix * St + q)), (Z.ltb_spec (pix * St + q) (p0 * St + n));
        try reflexivity. exfalso. assert (pix < p0 \/ p0 < pix) by lia. nia.
  Qed.

  (** Any even-aligned range of pixels; a pixel has 2*words(oc) halves of which
      the first ceil(oc/16) are written. *)
  Lemma run_packed_wp ts pe out (Q : list Z -> Prop) :
    0 <= ts -> 2 * ts <= pe <= N -> zlen out = N * (2 * words (G * CO)) ->
    (forall out', zlen out' = zlen out ->
       (forall pix q, 0 <= q < 2 * words (G * CO) ->
          rd out' (pix * (2 * words (G * CO)) + q) =
            if (2 * ts <=? pix) && (pix <? pe) && (q <? (G * CO + 15) / 16)
            then Some (halfw (V pix) (G * CO) q)
            else rd out (pix * (2 * words (G * CO)) + q)) -> Q out') ->
    wp (run_packed k pw input zero ibuf fd runb (2 * ts) pe out) Q.
  Proof.
    intros Hts Hpe Hlen HQ. unfold run_packed. rewrite Koc, KG.
    rewrite cdiv_nz by lia. cbn [bind].
    replace (Z.quot (G * CO) G) with CO by (rewrite Z.mul_comm, Z.quot_mul by lia; reflexivity).
    set (oc := G * CO) in *. assert (Hoc : 0 < oc) by (unfold oc; nia).
    assert (HW := words_mul32 oc ltac:(lia)).
    set (St := 2 * words oc) in *. set (n := (oc + 15) / 16) in *.
    assert (Hn : 0 <= n <= St) by lia.
    unfold for_step. set (m := (pe - 2 * ts + 2 - 1) / 2).
    set (I := fun i o => zlen o = zlen out /\
       (forall pix q, 0 <= q < St -> rd o (pix * St + q) =
          if (2 * ts <=? pix) && (pix <? Z.min (2 * ts + 2 * i) pe) && (q <? n)
          then Some (halfw (V pix) oc q) else rd out (pix * St + q))).
    apply (for_wp I).
    - unfold I. split; [reflexivity|]. intros pix q Hq.
      destruct (Z.leb_spec (2 * ts) pix), (Z.ltb_spec pix (Z.min (2 * ts + 2 * 0) pe)); try lia; reflexivity.
    - intros i o Hi (Hl & Hv).
      replace (2 * ts + i * 2) with (2 * (ts + i)) by lia.
      assert (Hlt : 2 * (ts + i) < pe) by (unfold m in Hi; lia).
      apply run_bits_pixel_wp; [lia|lia|fold oc; fold St; lia|]. fold oc. fold St. fold n. intros o' (Hl' & Hc').
      set (q0 := 2 * (ts + i)) in *.
      unfold I. split; [lia|].
      intros pix q Hq. rewrite Hc'.
      replace (if pe - q0 <? 2 then q0 * St else q0 * St + St)
        with ((if pe - q0 <? 2 then q0 else q0 + 1) * St) by (destruct (pe - q0 <? 2); ring).
      rewrite !in_slot by lia. rewrite Hv by exact Hq.
      replace (pix * St + q - q0 * St) with (q + (pix - q0) * St) by ring.
      destruct (Z.ltb_spec q n) as [Hqn|Hqn]; [|rewrite !andb_false_r; reflexivity]. rewrite !andb_true_r.
      destruct (Z.eqb_spec pix q0) as [->|Hne].
      + destruct (Z.leb_spec (2 * ts) q0), (Z.ltb_spec q0 (Z.min (2 * ts + 2 * (i + 1)) pe)); try lia; cbn [andb].
        do 2 f_equal. ring.
      + destruct (Z.ltb_spec (pe - q0) 2).
        * destruct (Z.eqb_spec pix q0); [lia|].
          destruct (Z.leb_spec (2 * ts) pix), (Z.ltb_spec pix (Z.min (2 * ts + 2 * (i + 1)) pe)),
            (Z.ltb_spec pix (Z.min (2 * ts + 2 * i) pe)); try lia; reflexivity.
        * destruct (Z.eqb_spec pix (q0 + 1)) as [->|Hne2].
          -- replace (Z.min (q0 + 1) (N - 1)) with (q0 + 1) by lia.
             destruct (Z.leb_spec (2 * ts) (q0 + 1)), (Z.ltb_spec (q0 + 1) (Z.min (2 * ts + 2 * (i + 1)) pe)); try lia; cbn [andb].
             do 2 f_equal. ring.
          -- destruct (Z.leb_spec (2 * ts) pix), (Z.ltb_spec pix (Z.min (2 * ts + 2 * (i + 1)) pe)),
               (Z.ltb_spec pix (Z.min (2 * ts + 2 * i) pe)); try lia; reflexivity.
    - intros o (Hl & Hv). apply HQ; [exact Hl|].
      intros pix q Hq. rewrite Hv by exact Hq.
      replace (Z.min (2 * ts + 2 * Z.max 0 m) pe) with pe by (unfold m; lia). reflexivity.
  Qed.
End Run.
