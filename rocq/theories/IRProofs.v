(** * IRProofs: every rewriting step of IR preserves the results. *)
From Coq Require Import QArith Qminmax Lqa Setoid Morphisms.
From Verif Require Import Base Spec Padding RefTheorems Threshold IR.
Open Scope Z_scope.

(** ** Equality of values *)
Lemma teq_refl {A} (R : A -> A -> Prop) (HR : forall x, R x x) t : teq R t t.
Proof. split; auto. Qed.
Lemma teq_sym {A} (R : A -> A -> Prop) (HR : forall x y, R x y -> R y x) a b : teq R a b -> teq R b a.
Proof. intros [E H]. split; [congruence|]. intros i Hi. apply HR, H. rewrite E. exact Hi. Qed.
Lemma teq_trans {A} (R : A -> A -> Prop) (HR : forall x y z, R x y -> R y z -> R x z) a b c :
  teq R a b -> teq R b c -> teq R a c.
Proof. intros [E H] [E' H']. split; [congruence|]. intros i Hi. eapply HR; [apply H, Hi|apply H'; rewrite <- E; exact Hi]. Qed.

Lemma veq_refl v : veq v v.
Proof. destruct v; cbn; try apply teq_refl; auto. intros; apply Qeq_refl. Qed.
Lemma veq_sym v w : veq v w -> veq w v.
Proof. destruct v, w; cbn; auto; apply teq_sym; auto. intros; apply Qeq_sym; auto. Qed.
Lemma veq_trans u v w : veq u v -> veq v w -> veq u w.
Proof.
  destruct u, v, w; cbn; try contradiction; auto; apply teq_trans; try congruence.
  intros x y z; apply Qeq_trans.
Qed.
Lemma veq_shape v w : veq v w -> vshape v = vshape w.
Proof. destruct v, w; cbn; try contradiction; auto; intros [E _]; exact E. Qed.

(** ** Broadcasting *)
Lemma bsh_l s : forall t r i, bsh s t = Some r -> in_range r i -> in_range s (bix s i).
Proof.
  induction s as [|d s IH]; intros t r i E Hi; [constructor|].
  destruct t as [|e t]; cbn [bsh] in E.
  - injection E as <-. clear IH. revert i Hi. generalize (d :: s) as s0. intros s0.
    induction s0 as [|d0 s0 IH]; intros i Hi; [constructor|]. inversion Hi; subst. cbn [bix].
    constructor; [destruct (Z.eqb_spec d0 1); lia|]. apply IH. assumption.
  - destruct (bsh s t) as [r'|] eqn:Er; [|discriminate].
    destruct (Z.eqb_spec d e) as [He|He].
    { injection E as <-. inversion Hi; subst. cbn [bix]. constructor; [destruct (Z.eqb_spec e 1); lia|eapply IH; eassumption]. }
    destruct (Z.eqb_spec e 1).
    { injection E as <-. inversion Hi; subst. cbn [bix]. constructor; [destruct (Z.eqb_spec d 1); lia|eapply IH; eassumption]. }
    destruct (Z.eqb_spec d 1) as [->|]; [|discriminate].
    injection E as <-. inversion Hi; subst. cbn [bix]. constructor; [cbn; lia|eapply IH; eassumption].
Qed.
Lemma bsh_comm s : forall t, bsh s t = bsh t s.
Proof.
  induction s as [|d s IH]; intros [|e t]; cbn [bsh]; try reflexivity.
  rewrite IH. destruct (bsh t s); [|reflexivity].
  destruct (Z.eqb_spec d e), (Z.eqb_spec e d); try lia; try congruence.
  destruct (Z.eqb_spec e 1), (Z.eqb_spec d 1); congruence.
Qed.
Lemma bsh_r s t r i : bsh s t = Some r -> in_range r i -> in_range t (bix t i).
Proof. rewrite bsh_comm. apply bsh_l. Qed.

Lemma bix_same s i : in_range s i -> bix s i = i.
Proof.
  intros H. induction H as [|d k s i Hk H IH]; [reflexivity|]. cbn [bix]. rewrite IH.
  destruct (Z.eqb_spec d 1); [f_equal; lia|reflexivity].
Qed.

Lemma bmap2_proper {A B C} (RA : A -> A -> Prop) (RB : B -> B -> Prop) (RC : C -> C -> Prop) f g a a' b b' t :
  (forall x x' y y', RA x x' -> RB y y' -> RC (f x y) (g x' y')) ->
  teq RA a a' -> teq RB b b' -> bmap2 f a b = Some t -> exists t', bmap2 g a' b' = Some t' /\ teq RC t t'.
Proof.
  intros Hf [Ea Ha] [Eb Hb] H. unfold bmap2 in *. rewrite <- Ea, <- Eb.
  destruct (bsh (sh a) (sh b)) as [s|] eqn:Es; [|discriminate]. injection H as <-.
  eexists. split; [reflexivity|]. split; [reflexivity|]. cbn [sh at_]. intros i Hi.
  apply Hf; [apply Ha; eapply bsh_l; eassumption|apply Hb; eapply bsh_r; eassumption].
Qed.
Lemma tmap_proper {A B} (RA : A -> A -> Prop) (RB : B -> B -> Prop) f a a' :
  (forall x x', RA x x' -> RB (f x) (f x')) -> teq RA a a' -> teq RB (tmap f a) (tmap f a').
Proof. intros Hf [E H]. split; [exact E|]. cbn. intros i Hi. apply Hf, H, Hi. Qed.

(** ** Operators respect equality of values *)
#[export] Instance Qlt_bool_comp : Proper (Qeq ==> Qeq ==> eq) Qlt_bool.
Proof. intros x x' Hx y y' Hy. unfold Qlt_bool. rewrite Hx, Hy. reflexivity. Qed.

#[export] Instance Qmax_comp : Proper (Qeq ==> Qeq ==> Qeq) Qmax.
Proof.
  intros x x' Hx y y' Hy. destruct (Q.max_spec x y) as [[L E]|[L E]], (Q.max_spec x' y') as [[L' E']|[L' E']];
    rewrite E, E'; lra.
Qed.
#[export] Instance Qmin_comp : Proper (Qeq ==> Qeq ==> Qeq) Qmin.
Proof.
  intros x x' Hx y y' Hy. destruct (Q.min_spec x y) as [[L E]|[L E]], (Q.min_spec x' y') as [[L' E']|[L' E']];
    rewrite E, E'; lra.
Qed.
#[export] Instance actQ_comp : Proper (eq ==> Qeq ==> Qeq) actQ.
Proof. intros a a' <- x x' Hx. destruct a; cbn [actQ]; rewrite Hx; reflexivity. Qed.
#[export] Instance bin_comp : Proper (eq ==> Qeq ==> Qeq ==> Qeq) bin.
Proof. intros k k' <- x x' Hx y y' Hy. destruct k; cbn [bin]; rewrite Hx, Hy; reflexivity. Qed.

Lemma maxl_comp l l' : Forall2 Qeq l l' -> (maxl l == maxl l')%Q.
Proof.
  intros H. destruct H as [|x y l l' E H]; [reflexivity|]. cbn [maxl].
  revert x y E. induction H as [|u v l l' Euv H IH]; intros x y E; [exact E|]. cbn [fold_left]. apply IH.
  rewrite E, Euv. reflexivity.
Qed.
Lemma win_in n o s p f i : In i (win n o s p f) -> 0 <= i < n.
Proof.
  unfold win. intros H. apply filter_In in H. destruct H as [_ H].
  apply andb_true_iff in H. destruct H as [H1 H2]. apply Z.leb_le in H1. apply Z.ltb_lt in H2. lia.
Qed.
Lemma window_F2 {A B} (R : A -> B -> Prop) (t : tensor A) (t' : tensor B) p C W H N py px c x y b :
  (forall i, in_range [C; W; H; N] i -> R (at_ t i) (at_ t' i)) -> 0 <= c < C -> 0 <= b < N ->
  Forall2 R (window_list t p H W py px c x y b) (window_list t' p H W py px c x y b).
Proof.
  intros HR Hc Hb. unfold window_list.
  assert (K : forall l1, (forall i, In i l1 -> 0 <= i < H) ->
    forall l2, (forall i, In i l2 -> 0 <= i < W) ->
    Forall2 R (flat_map (fun iy => map (fun ix => at_ t [c; ix; iy; b]) l2) l1)
              (flat_map (fun iy => map (fun ix => at_ t' [c; ix; iy; b]) l2) l1)).
  { intros l1 H1 l2 H2. induction l1 as [|i l1 IH]; [constructor|]. cbn [flat_map]. apply Forall2_app.
    - assert (Hi := H1 i (or_introl eq_refl)). clear - HR Hc Hb Hi H2.
      induction l2 as [|j l2 IH]; [constructor|]. cbn [map]. constructor.
      + apply HR. assert (Hj := H2 j (or_introl eq_refl)). repeat constructor; lia.
      + apply IH. intros k Hk. apply H2. right. exact Hk.
    - apply IH. intros k Hk. apply H1. right. exact Hk. }
  apply K; intros i Hi; eapply win_in; exact Hi.
Qed.
Lemma in_range4 a b c d i : in_range [a; b; c; d] i ->
  exists x y z w, i = [x; y; z; w] /\ 0 <= x < a /\ 0 <= y < b /\ 0 <= z < c /\ 0 <= w < d.
Proof.
  intros H. inversion H as [|? x ? ? H1 H2]; subst. inversion H2 as [|? y ? ? H3 H4]; subst.
  inversion H4 as [|? z ? ? H5 H6]; subst. inversion H6 as [|? w ? ? H7 H8]; subst. inversion H8; subst.
  exists x, y, z, w. auto.
Qed.
Lemma pool_rel {A B A' B'} (RA : A -> A' -> Prop) (RB : B -> B' -> Prop) (f : list A -> B) (f' : list A' -> B') p
  (a : tensor A) (a' : tensor A') t :
  (forall l l', Forall2 RA l l' -> RB (f l) (f' l')) ->
  sh a = sh a' -> (forall i, in_range (sh a) i -> RA (at_ a i) (at_ a' i)) ->
  pool f p a = Some t ->
  exists t', pool f' p a' = Some t' /\ sh t = sh t' /\ forall i, in_range (sh t) i -> RB (at_ t i) (at_ t' i).
Proof.
  intros Hf E Ha H. unfold pool in *. rewrite <- E.
  destruct (sh a) as [|C [|W [|Hh [|N [|]]]]] eqn:Es; try discriminate.
  destruct (padding1D (pa_pad p) Hh (pa_fh p) (pa_sh p) 1) as [oh py].
  destruct (padding1D (pa_pad p) W (pa_fw p) (pa_sw p) 1) as [ow px]. injection H as <-.
  eexists. split; [reflexivity|]. split; [reflexivity|]. cbn [sh at_]. intros i Hi.
  destruct (in_range4 _ _ _ _ _ Hi) as (c & x & y & b & -> & Hc & Hx & Hy & Hb).
  apply Hf. eapply window_F2; eassumption.
Qed.

(** ** The convolution *)
Lemma bc_geom_inv c si sf g : bc_geom c si sf = Some g -> exists C W H N ci KW KH Co,
  si = [C; W; H; N] /\ sf = [ci; KW; KH; Co] /\ C = ca_cin c /\ 0 < C /\ 0 < ci /\ 0 <= KW /\ 0 <= KH /\
  C = C / ci * ci /\ 0 < C / ci /\ Co = Co / (C / ci) * (C / ci) /\
  gB g = N /\ gH g = H /\ gW g = W /\ gKH g = KH /\ gKW g = KW /\ gCI g = ci /\ gCO g = Co / (C / ci) /\ gG g = C / ci.
Proof.
  unfold bc_geom. destruct si as [|C [|W [|H [|N [|]]]]]; try discriminate.
  destruct sf as [|ci [|KW [|KH [|Co [|]]]]]; try discriminate.
  destruct (_ && _) eqn:E; [|discriminate].
  destruct (padding1D (ca_pad c) H KH (ca_sh c) (ca_dh c)) as [oh py].
  destruct (padding1D (ca_pad c) W KW (ca_sw c) (ca_dw c)) as [ow px]. intros Hg. injection Hg as <-.
  repeat rewrite andb_true_iff in E. destruct E as (((((((E1 & E2) & E3) & E4) & E5) & E6) & E7) & _).
  apply Z.eqb_eq in E1, E6, E7. apply Z.ltb_lt in E2, E3. apply Z.leb_le in E4, E5.
  assert (D1 := Z.div_mod C ci ltac:(lia)).
  assert (Hpos : 0 < C / ci).
  { apply Z.div_str_pos. split; [lia|]. apply Z.divide_pos_le; [lia|]. apply Z.mod_divide; lia. }
  assert (D2 := Z.div_mod Co (C / ci) ltac:(lia)).
  exists C, W, H, N, ci, KW, KH, Co. cbn. repeat (split; [auto; try lia|]); auto; lia.
Qed.

Lemma conv_ext g padv I I' F F' b y x o :
  (forall y x k, 0 <= y < gH g -> 0 <= x < gW g -> 0 <= k < gCI g ->
     I b y x (o / gCO g * gCI g + k) = I' b y x (o / gCO g * gCI g + k)) ->
  (forall fy fx k, 0 <= fy < gKH g -> 0 <= fx < gKW g -> 0 <= k < gCI g -> F o fy fx k = F' o fy fx k) ->
  conv g padv I F b y x o = conv g padv I' F' b y x o.
Proof.
  intros HI HF. unfold conv. apply sum_ext. intros fy Hfy. apply sum_ext. intros fx Hfx. apply sum_ext. intros k Hk.
  cbv zeta. rewrite (HF fy fx k Hfy Hfx Hk). destruct (inside g _ _) eqn:E; [|reflexivity].
  unfold inside in E. repeat rewrite andb_true_iff in E. destruct E as (((E1 & E2) & E3) & E4).
  apply Z.leb_le in E1, E3. apply Z.ltb_lt in E2, E4. rewrite HI by (auto; lia). reflexivity.
Qed.

Lemma channel_range C ci Co o k : 0 < ci -> C = C / ci * ci -> 0 < C / ci -> Co = Co / (C / ci) * (C / ci) ->
  0 <= o < Co -> 0 <= k < ci -> 0 <= o / (Co / (C / ci)) * ci + k < C.
Proof.
  intros Hci EC HG ECo Ho Hk. set (G := C / ci) in *. set (q := Co / G) in *.
  assert (Hq : 0 < q) by nia.
  assert (H1 : 0 <= o / q) by (apply Z.div_pos; lia).
  assert (H2 : o / q < G) by (apply Z.div_lt_upper_bound; lia). nia.
Qed.

Lemma bc_conv_ext c g ti ti' tf tf' b y x o :
  bc_geom c (sh ti) (sh tf) = Some g -> teq eq ti ti' -> teq Qeq tf tf' ->
  0 <= b < gB g -> 0 <= o < dim_out (sh tf) ->
  bc_conv c g ti tf b y x o = bc_conv c g ti' tf' b y x o.
Proof.
  intros Hg [Ei Hi] [Ef Hf] Hb Ho.
  destruct (bc_geom_inv _ _ _ _ Hg) as (C & W & H & N & ci & KW & KH & Co & Esi & Esf & EC & HC & Hci & HKW & HKH &
    DC & HG & DCo & G1 & G2 & G3 & G4 & G5 & G6 & G7 & G8).
  rewrite Esf in Ho. cbn [dim_out] in Ho. unfold bc_conv. rewrite Esi in Hi. rewrite Esf in Hf. apply conv_ext.
  - intros y' x' k Hy Hx Hk. rewrite Hi; [reflexivity|]. rewrite G6, G7 in *. rewrite G2, G3 in *.
    pose proof (channel_range C ci Co o k Hci DC HG DCo Ho Hk) as HK.
    repeat constructor; lia.
  - intros fy fx k Hfy Hfx Hk. rewrite (Hf [k; fx; fy; o]); [reflexivity|]. repeat constructor; lia.
Qed.

Lemma sum_par n c f : 0 <= n -> (forall i, 0 <= i < n -> Z.even (c - f i) = true) -> Z.even (n * c - sum_ n f) = true.
Proof.
  intros Hn. rewrite <- (Z2Nat.id n Hn). generalize (Z.to_nat n) as m. clear n Hn.
  induction m as [|m IH]; intros H; [reflexivity|].
  replace (Z.of_nat (S m)) with (Z.of_nat m + 1) in * by lia. rewrite sum_succ by lia.
  replace ((Z.of_nat m + 1) * c - (sum_ (Z.of_nat m) f + f (Z.of_nat m)))
    with ((Z.of_nat m * c - sum_ (Z.of_nat m) f) + (c - f (Z.of_nat m))) by ring.
  rewrite Z.even_add, IH, H by (intros; try apply H; lia). reflexivity.
Qed.
Lemma conv_even g I F b y x o : 0 <= gKH g -> 0 <= gKW g -> 0 <= gCI g ->
  (forall b y x c, I b y x c = 1 \/ I b y x c = -1) -> (forall o y x c, F o y x c = 1 \/ F o y x c = -1) ->
  Z.even (taps g - conv g 1 I F b y x o) = true.
Proof.
  intros H1 H2 H3 HI HF. unfold taps, conv. replace (gKH g * gKW g * gCI g) with (gKH g * (gKW g * (gCI g * 1))) by ring.
  apply sum_par; [exact H1|]. intros fy Hfy. apply sum_par; [exact H2|]. intros fx Hfx. apply sum_par; [exact H3|].
  intros k Hk. cbv zeta.
  assert (A : forall u v : Z, (u = 1 \/ u = -1) -> (v = 1 \/ v = -1) -> Z.even (1 - u * v) = true)
    by (intros u v [-> | ->] [-> | ->]; reflexivity).
  apply A; [|apply HF]. destruct (inside g _ _); [apply HI|auto].
Qed.

Lemma in_range1 a i : in_range [a] i -> exists x, i = [x] /\ 0 <= x < a.
Proof. intros H. inversion H as [|? x ? ? H1 H2]; subst. inversion H2; subst. exists x. auto. Qed.
Lemma range1 a x : 0 <= x < a -> in_range [a] [x].
Proof. intros. repeat constructor; lia. Qed.

Lemma bc_float_proper c ti ti' tf tf' m m' b b' v :
  teq eq ti ti' -> teq Qeq tf tf' -> teq Qeq m m' -> teq Qeq b b' ->
  bc_float c ti tf m b = Some v -> exists v', bc_float c ti' tf' m' b' = Some v' /\ veq v v'.
Proof.
  intros Ti Tf Tm Tb H. unfold bc_float in *. rewrite <- (proj1 Ti), <- (proj1 Tf), <- (proj1 Tm), <- (proj1 Tb).
  destruct (bc_geom c (sh ti) (sh tf)) as [g|] eqn:Eg; [|discriminate].
  destruct (pad_ok c true && _) eqn:Ec; [|discriminate]. injection H as <-.
  eexists. split; [reflexivity|]. split; [reflexivity|]. cbn [sh at_]. unfold out_sh. intros i Hi.
  destruct (in_range4 _ _ _ _ _ Hi) as (o & x & y & n & -> & Ho & Hx & Hy & Hn).
  apply andb_true_iff in Ec. destruct Ec as [_ Ec].
  destruct Tm as [_ Hm]. destruct Tb as [_ Hb].
  destruct (sh m) as [|d [|]]; try discriminate. destruct (sh b) as [|e [|]]; try discriminate.
  apply andb_true_iff in Ec. destruct Ec as [E1 E2]. apply Z.eqb_eq in E1, E2. subst d e.
  rewrite (Hm [o]), (Hb [o]) by (apply range1; lia).
  rewrite (bc_conv_ext c g ti ti' tf tf' n y x o Eg Ti Tf Hn Ho). reflexivity.
Qed.
Lemma bc_bits_proper c ti ti' tf tf' t t' v :
  teq eq ti ti' -> teq Qeq tf tf' -> teq eq t t' ->
  bc_bits c ti tf t = Some v -> exists v', bc_bits c ti' tf' t' = Some v' /\ veq v v'.
Proof.
  intros Ti Tf Tt H. unfold bc_bits in *. rewrite <- (proj1 Ti), <- (proj1 Tf), <- (proj1 Tt).
  destruct (bc_geom c (sh ti) (sh tf)) as [g|] eqn:Eg; [|discriminate].
  destruct (pad_ok c false && _) eqn:Ec; [|discriminate]. injection H as <-.
  eexists. split; [reflexivity|]. split; [reflexivity|]. cbn [sh at_]. unfold out_sh. intros i Hi.
  destruct (in_range4 _ _ _ _ _ Hi) as (o & x & y & n & -> & Ho & Hx & Hy & Hn).
  apply andb_true_iff in Ec. destruct Ec as [_ Ec]. destruct Tt as [_ Ht].
  destruct (sh t) as [|d [|]]; try discriminate. apply Z.eqb_eq in Ec. subst d.
  rewrite (Ht [o]) by (apply range1; lia).
  rewrite (bc_conv_ext c g ti ti' tf tf' n y x o Eg Ti Tf Hn Ho). reflexivity.
Qed.

Lemma option_map_some {A B} (f : A -> B) o b : option_map f o = Some b -> exists a, o = Some a /\ b = f a.
Proof. destruct o; cbn; intros H; [injection H as <-; eauto|discriminate]. Qed.

(** Every operator gives equal results on equal operands. *)
Lemma denote_proper o vs ws v : Forall2 veq vs ws -> denote o vs = Some v ->
  exists w, denote o ws = Some w /\ veq v w.
Proof.
  intros F H.
  assert (Xbin : forall (f : Q -> Q -> Q) a a' b b' t,
    (forall x x' y y', x == x' -> y == y' -> f x y == f x' y')%Q ->
    teq Qeq a a' -> teq Qeq b b' -> option_map VF (bmap2 f a b) = Some t ->
    exists t', option_map VF (bmap2 f a' b') = Some t' /\ veq t t').
  { intros f a a' b b' t Hf Ha Hb Ht. apply option_map_some in Ht. destruct Ht as (u & Hu & ->).
    destruct (bmap2_proper Qeq Qeq Qeq f f a a' b b' u Hf Ha Hb Hu) as (u' & Eu & Tu). rewrite Eu. cbn. eauto. }
  assert (Xcmp : forall (f : Q -> Q -> bool) a a' b b' t,
    (forall x x' y y', x == x' -> y == y' -> f x y = f x' y')%Q ->
    teq Qeq a a' -> teq Qeq b b' -> option_map VBool (bmap2 f a b) = Some t ->
    exists t', option_map VBool (bmap2 f a' b') = Some t' /\ veq t t').
  { intros f a a' b b' t Hf Ha Hb Ht. apply option_map_some in Ht. destruct Ht as (u & Hu & ->).
    destruct (bmap2_proper Qeq Qeq eq f f a a' b b' u Hf Ha Hb Hu) as (u' & Eu & Tu). rewrite Eu. cbn. eauto. }
  destruct o; try (apply (ef_ok x) with (2 := H); exact F).
  - (* OConst *) inversion F; subst; [|discriminate]. exists v. split; [exact H|apply veq_refl].
  - inversion F; subst; [|discriminate]. exists v. split; [exact H|apply veq_refl].
  - inversion F as [|a a' ? ? Ha F1]; subst; [discriminate|].
    destruct a; try discriminate; inversion F1; subst; try discriminate; destruct a'; try contradiction;
      cbn in H; injection H as <-; cbn; eexists; (split; [reflexivity|]); cbn.
    + apply (tmap_proper Qeq eq); [|exact Ha]. intros x x' E. rewrite E. reflexivity.
    + apply (tmap_proper eq eq); [|exact Ha]. congruence.
  - inversion F as [|a a' ? ? Ha F1]; subst; [discriminate|].
    destruct a; try discriminate; inversion F1; subst; try discriminate; destruct a'; try contradiction;
      cbn in H; injection H as <-; cbn; eexists; (split; [reflexivity|]); cbn.
    apply (tmap_proper eq Qeq); [|exact Ha]. intros x x' ->. reflexivity.
  - inversion F as [|a a' ? ? Ha F1]; subst; [discriminate|]. inversion F1 as [|b b' ? ? Hb F2]; subst; [destruct a; discriminate|].
    inversion F2; subst; [|destruct a, b; discriminate]. destruct a; try discriminate. destruct b; try discriminate.
    destruct a'; try contradiction. destruct b'; try contradiction. cbn [denote] in *.
    eapply Xcmp; try eassumption. intros x x' y y' E1 E2. rewrite E1, E2. reflexivity.
  - inversion F as [|a a' ? ? Ha F1]; subst; [discriminate|]. inversion F1 as [|b b' ? ? Hb F2]; subst; [destruct a; discriminate|].
    inversion F2; subst; [|destruct a, b; discriminate]. destruct a; try discriminate. destruct b; try discriminate.
    destruct a'; try contradiction. destruct b'; try contradiction. cbn [denote] in *.
    eapply Xcmp; try eassumption. intros x x' y y' E1 E2. rewrite E1, E2. reflexivity.
  - rename a into fa. inversion F as [|a a' ? ? Ha F1]; subst; [discriminate|]. inversion F1 as [|b b' ? ? Hb F2]; subst; [destruct a; discriminate|].
    inversion F2; subst; [|destruct a, b; discriminate]. destruct a; try discriminate. destruct b; try discriminate.
    destruct a'; try contradiction. destruct b'; try contradiction. cbn [denote] in *.
    eapply Xbin; try eassumption. intros x x' y y' E1 E2. rewrite E1, E2. reflexivity.
  - rename a into fa. inversion F as [|a a' ? ? Ha F1]; subst; [discriminate|].
    inversion F1; subst; [|destruct a; discriminate]. destruct a; try discriminate. destruct a'; try contradiction.
    cbn [denote] in *. injection H as <-. eexists. split; [reflexivity|]. cbn.
    apply (tmap_proper Qeq Qeq); [|exact Ha]. intros x x' E. rewrite E. reflexivity.
  - rename a into fa. inversion F as [|a a' ? ? Ha F1]; subst; [discriminate|].
    inversion F1; subst; [|destruct a; discriminate]. destruct a; try discriminate. destruct a'; try contradiction.
    cbn [denote] in *. apply option_map_some in H. destruct H as (u & Hu & ->).
    destruct (pool_rel Qeq Qeq (fun l => actQ fa (maxl l)) (fun l => actQ fa (maxl l)) p t t0 u) as (u' & Eu & Es & Tu); auto.
    { intros l l' E. rewrite (maxl_comp l l' E). reflexivity. }
    { apply Ha. } { apply Ha. }
    rewrite Eu. cbn. eexists. split; [reflexivity|]. split; assumption.
  - inversion F as [|a a' ? ? Ha F1]; subst; [discriminate|].
    inversion F1; subst; [|destruct a; discriminate]. destruct a; try discriminate. destruct a'; try contradiction.
    cbn [denote] in *. apply option_map_some in H. destruct H as (u & Hu & ->).
    destruct (pool_rel eq eq (forallb (fun b : bool => b)) (forallb (fun b : bool => b)) p t t0 u) as (u' & Eu & Es & Tu); auto.
    { intros l l' E. f_equal. induction E; congruence. }
    { apply Ha. } { apply Ha. }
    rewrite Eu. cbn. eexists. split; [reflexivity|]. split; assumption.
  - inversion F as [|a1 b1 ? ? H1 F1]; subst; [discriminate|]. destruct a1; try discriminate. destruct b1; try contradiction.
    inversion F1 as [|a2 b2 ? ? H2 F2]; subst; [discriminate|]. destruct a2; try discriminate. destruct b2; try contradiction.
    inversion F2 as [|a3 b3 ? ? H3 F3]; subst; [discriminate|].
    inversion F3 as [|a4 b4 ? ? H4 F4]; subst; [destruct a3; discriminate|].
    inversion F4 as [|a5 b5 ? ? H5 F5]; subst; [destruct a3, a4; discriminate|].
    inversion F5; subst; [|destruct a3, a4, a5; discriminate].
    destruct a3; try discriminate; destruct a4; try discriminate; destruct a5; try discriminate;
      destruct b3; try contradiction; destruct b4; try contradiction; destruct b5; try contradiction; cbn [denote] in *.
    + eapply bc_float_proper; eassumption.
    + eapply bc_bits_proper; eassumption.
Qed.

(** ** Running programs *)
Definition oveq (a b : option value) : Prop :=
  match a, b with Some v, Some w => veq v w | None, None => True | _, _ => False end.
(** [e2] has everything [e1] has on [S]. *)
Definition ele (S : list nat) (e1 e2 : env) : Prop :=
  forall x v, In x S -> e1 x = Some v -> exists w, e2 x = Some w /\ veq v w.

Lemma look_ele S e1 e2 l vs : ele S e1 e2 -> (forall x, In x l -> In x S) -> look e1 l = Some vs ->
  exists ws, look e2 l = Some ws /\ Forall2 veq vs ws.
Proof.
  intros HE. revert vs. induction l as [|x l IH]; intros vs Hl H; cbn in *; [injection H as <-; eauto|].
  destruct (e1 x) as [v|] eqn:E1; [|discriminate]. destruct (look e1 l) as [us|] eqn:E2; [|discriminate]. injection H as <-.
  destruct (HE x v (Hl x (or_introl eq_refl)) E1) as (w & Ew & Vw).
  destruct (IH us (fun y Hy => Hl y (or_intror Hy)) eq_refl) as (ws & Es & Vs). rewrite Ew, Es. eauto.
Qed.

Lemma eval_ele p : forall S e1 e2 e1', ssa S p -> ele S e1 e2 -> eval p e1 = Some e1' ->
  exists e2', eval p e2 = Some e2' /\ ele (rev (map iid p) ++ S) e1' e2'.
Proof.
  induction p as [|[[r o] a] p IH]; intros S e1 e2 e1' HS HE H; cbn [eval] in *.
  - injection H as <-. exists e2. split; [reflexivity|exact HE].
  - destruct HS as (Ha & Hr & HS). destruct (look e1 a) as [vs|] eqn:El; [|discriminate].
    destruct (denote o vs) as [v|] eqn:Ed; [|discriminate].
    destruct (look_ele S e1 e2 a vs HE Ha El) as (ws & Ew & Vw). rewrite Ew.
    destruct (denote_proper o vs ws v Vw Ed) as (w & Edw & Vv). rewrite Edw.
    assert (HE' : ele (r :: S) (upd e1 r v) (upd e2 r w)).
    { intros x u Hx Hu. unfold upd in *. destruct (Nat.eqb_spec x r) as [->|Hne].
      - injection Hu as <-. eauto.
      - destruct Hx as [->|Hx]; [contradiction|]. apply (HE x u Hx Hu). }
    destruct (IH _ _ _ _ HS HE' H) as (e2' & E2 & L). exists e2'. split; [exact E2|].
    cbn [map rev]. rewrite <- app_assoc. exact L.
Qed.

Lemma eval_app p q e : eval (p ++ q) e = match eval p e with Some e' => eval q e' | None => None end.
Proof.
  revert e. induction p as [|[[r o] a] p IH]; intros e; [reflexivity|]. cbn [app eval].
  destruct (look e a); [|reflexivity]. destruct (denote o l); [apply IH|reflexivity].
Qed.

Lemma ssa_app S p q : ssa S (p ++ q) <-> ssa S p /\ ssa (rev (map iid p) ++ S) q.
Proof.
  revert S. induction p as [|[[r o] a] p IH]; intros S; cbn [app ssa map rev]; [tauto|].
  rewrite IH. cbn [iid fst]. rewrite <- app_assoc. cbn. tauto.
Qed.

Lemma eval_frame p : forall e e' x, eval p e = Some e' -> ~ In x (map iid p) -> e' x = e x.
Proof.
  induction p as [|[[r o] a] p IH]; intros e e' x H Hx; cbn [eval] in *; [congruence|].
  destruct (look e a); [|discriminate]. destruct (denote o l); [|discriminate].
  rewrite (IH _ _ x H) by (intros C; apply Hx; right; exact C). unfold upd.
  destruct (Nat.eqb_spec x r) as [->|]; [|reflexivity]. exfalso. apply Hx. left. reflexivity.
Qed.

Lemma look_ext e e' l : (forall x, In x l -> e x = e' x) -> look e l = look e' l.
Proof.
  induction l as [|x l IH]; intros H; [reflexivity|]. cbn. rewrite (H x (or_introl eq_refl)), IH; [reflexivity|].
  intros y Hy. apply H. right. exact Hy.
Qed.

Lemma ssa_notin S p : ssa S p -> forall x, In x (map iid p) -> ~ In x S.
Proof.
  revert S. induction p as [|[[r o] a] p IH]; intros S HS x Hx; [contradiction|]. destruct HS as (_ & Hr & HS).
  destruct Hx as [<-|Hx]; [exact Hr|]. intros C. apply (IH _ HS x Hx). right. exact C.
Qed.

(** The value of a defined id is what its operation computes from the operands'
    values, in the environment after the whole program. *)
Lemma eval_def p : forall S e e' x o a, ssa S p -> eval p e = Some e' -> def p x = Some (o, a) ->
  exists vs v, look e' a = Some vs /\ denote o vs = Some v /\ e' x = Some v /\ In x (map iid p) /\
    (forall y, In y a -> In y (rev (map iid p) ++ S)).
Proof.
  induction p as [|[[r q] b] p IH]; intros S e e' x o a HS H HD; [discriminate|].
  destruct HS as (Hb & Hr & HS). cbn [eval] in H.
  destruct (look e b) as [vs|] eqn:El; [|discriminate]. destruct (denote q vs) as [v|] eqn:Ed; [|discriminate].
  unfold def in HD. cbn [find iid fst] in HD. destruct (Nat.eqb_spec r x) as [->|Hne].
  - cbn in HD. injection HD as <- <-. exists vs, v.
    assert (HN := ssa_notin _ _ HS).
    split; [|split; [exact Ed|split; [|split; [left; reflexivity|]]]].
    + rewrite <- El. apply look_ext. intros y Hy.
      rewrite (eval_frame _ _ _ y H) by (intros C; apply (HN y C); right; apply Hb, Hy).
      unfold upd. destruct (Nat.eqb_spec y x) as [->|]; [|reflexivity]. exfalso. apply Hr, Hb, Hy.
    + rewrite (eval_frame _ _ _ x H) by (intros C; apply (HN x C); left; reflexivity).
      unfold upd. rewrite Nat.eqb_refl. reflexivity.
    + intros y Hy. apply in_or_app. right. apply Hb, Hy.
  - destruct (IH _ _ _ x o a HS H HD) as (us & u & H1 & H2 & H3 & H4 & H5). exists us, u.
    do 3 (split; [assumption|]). split; [right; exact H4|].
    intros y Hy. cbn [map rev iid fst]. rewrite <- app_assoc. apply H5, Hy.
Qed.
