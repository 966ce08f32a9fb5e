(** * IRRules: each pattern of the optimisation pass is right under [fits]. *)
From Coq Require Import QArith Qminmax Lqa.
From Verif Require Import Base Spec Padding RefTheorems Threshold IR IRProofs.
Open Scope Z_scope.

(** ** Constants *)
Fixpoint ravel (s i : list Z) : Z :=
  match s, i with d :: s', k :: i' => k + d * ravel s' i' | _, _ => 0 end.
Lemma ravel_ok s i : in_range s i -> 0 <= ravel s i < numel s /\ unravel s (ravel s i) = i.
Proof.
  intros H. induction H as [|d k s i Hk H [IH1 IH2]]; [cbn; split; [lia|reflexivity]|]. cbn [ravel numel unravel]. split.
  - nia.
  - rewrite (Z.mul_comm d), Z.mod_add, Z.div_add by lia. rewrite Z.mod_small, Z.div_small by lia.
    rewrite Z.add_0_l, IH2. reflexivity.
Qed.
Lemma is_constant_ok t v i : is_constant t v = true -> in_range (sh t) i -> (at_ t i == v)%Q.
Proof.
  intros H Hi. destruct (ravel_ok _ _ Hi) as [Hr Eu]. unfold is_constant in H. rewrite forallb_forall in H.
  specialize (H (ravel (sh t) i)). apply Qeq_bool_iff. unfold flat in H. rewrite Eu in H. apply H.
  apply (rd_in _ (ravel (sh t) i)). rewrite rd_build by exact Hr. reflexivity.
Qed.
Lemma flat_vec {A} (m : tensor A) n k : sh m = [n] -> 0 <= k < n -> flat m k = at_ m [k].
Proof. intros E Hk. unfold flat. rewrite E. cbn [unravel]. rewrite Z.mod_small by lia. reflexivity. Qed.

(** ** Comparisons before a quantise *)
Lemma quant_ge_zero (x t : tensor Q) b :
  denote OGe [VF x; VF t] = Some b -> is_constant t 0 = true -> bsh (sh x) (sh t) = Some (sh x) ->
  forall v, denote OQuant [b] = Some v -> exists w, denote OQuant [VF x] = Some w /\ veq v w.
Proof.
  intros H Hc Hs v Hv. cbn [denote] in H. apply option_map_some in H. destruct H as (u & Hu & ->).
  cbn [denote] in *. injection Hv as <-. eexists. split; [reflexivity|].
  unfold bmap2 in Hu. rewrite Hs in Hu. injection Hu as <-. split; [reflexivity|]. cbn [tmap sh at_]. intros i Hi.
  rewrite (bix_same _ _ Hi). rewrite (is_constant_ok t 0 _ Hc (bsh_r _ _ _ _ Hs Hi)). reflexivity.
Qed.
Lemma quant_ge (x t : tensor Q) b :
  denote OGe [VF x; VF t] = Some b ->
  forall v, denote OQuant [b] = Some v ->
  exists d w, denote (OBin Sub ActNone) [VF x; VF t] = Some d /\ denote OQuant [d] = Some w /\ veq v w.
Proof.
  intros H v Hv. cbn [denote] in *. apply option_map_some in H. destruct H as (u & Hu & ->). cbn in Hv. injection Hv as <-.
  unfold bmap2 in *. destruct (bsh (sh x) (sh t)) as [s|]; [|discriminate]. injection Hu as <-.
  eexists. eexists. split; [reflexivity|]. split; [reflexivity|]. split; [reflexivity|].
  cbn [tmap sh at_ actQ bin]. intros i Hi. unfold Qlt_bool. f_equal.
  match goal with |- Qle_bool ?a ?b = _ => set (u := a); set (w := b) end.
  destruct (Qle_bool_spec u w), (Qle_bool_spec 0 (w - u)); try reflexivity; lra.
Qed.
Lemma quant_le (l r : tensor Q) b :
  denote OLe [VF l; VF r] = Some b ->
  forall v, denote OQuant [b] = Some v ->
  exists d w, denote OGe [VF r; VF l] = Some d /\ denote OQuant [d] = Some w /\ veq v w.
Proof.
  intros H v Hv. cbn [denote] in *. apply option_map_some in H. destruct H as (u & Hu & ->). cbn in Hv. injection Hv as <-.
  unfold bmap2 in *. rewrite (bsh_comm (sh r)). destruct (bsh (sh l) (sh r)) as [s|]; [|discriminate]. injection Hu as <-.
  eexists. eexists. split; [reflexivity|]. split; [reflexivity|]. split; [reflexivity|]. reflexivity.
Qed.

(** ** Fusing into the convolution *)
Lemma chan_shape s C W H N : (length s <= 1)%nat -> bsh [C; W; H; N] s = Some [C; W; H; N] ->
  bsh [C] s = Some [C] /\ forall o x y n, bix s [o; x; y; n] = bix s [o].
Proof.
  intros Hl Hb. destruct s as [|d [|]]; [split; [reflexivity|reflexivity]| |cbn in Hl; lia].
  split; [|intros; cbn; destruct (d =? 1); reflexivity]. cbn in *.
  destruct (Z.eqb_spec C d); [reflexivity|]. destruct (Z.eqb_spec d 1); [reflexivity|].
  destruct (Z.eqb_spec C 1); [|discriminate]. injection Hb as ->. congruence.
Qed.

Lemma bc_float_inv c i f m b v : bc_float c i f m b = Some v -> exists g Co,
  bc_geom c (sh i) (sh f) = Some g /\ dim_out (sh f) = Co /\ sh m = [Co] /\ sh b = [Co] /\ pad_ok c true = true /\
  v = VF (mkT (out_sh g Co) (fun k => match k with
        | [o; x; y; n] => (at_ m [o] * inject_Z (act_spec (ca_act c) (bc_conv c g i f n y x o)) + at_ b [o])%Q
        | _ => 0%Q end)).
Proof.
  unfold bc_float. destruct (bc_geom c (sh i) (sh f)) as [g|]; [|discriminate].
  destruct (pad_ok c true && _) eqn:E; [|discriminate]. intros H. injection H as <-.
  apply andb_true_iff in E. destruct E as [E0 E].
  destruct (sh m) as [|d [|]]; try discriminate. destruct (sh b) as [|e [|]]; try discriminate.
  apply andb_true_iff in E. destruct E as [E1 E2]. apply Z.eqb_eq in E1, E2. subst d e.
  exists g, (dim_out (sh f)). auto 10.
Qed.
Lemma bc_float_mk c i f m b g Co : bc_geom c (sh i) (sh f) = Some g -> dim_out (sh f) = Co ->
  sh m = [Co] -> sh b = [Co] -> pad_ok c true = true ->
  bc_float c i f m b = Some (VF (mkT (out_sh g Co) (fun k => match k with
        | [o; x; y; n] => (at_ m [o] * inject_Z (act_spec (ca_act c) (bc_conv c g i f n y x o)) + at_ b [o])%Q
        | _ => 0%Q end))).
Proof.
  intros Hg HC Hm Hb Hp. unfold bc_float. rewrite Hg, HC, Hm, Hb, Hp, Z.eqb_refl. reflexivity.
Qed.

Lemma if1 d k : 0 <= k < d -> (if d =? 1 then 0 else k) = k.
Proof. intros H. destruct (Z.eqb_spec d 1); lia. Qed.

(** A binary operator on vectors. *)
Lemma vec_bin k (b v : tensor Q) C : sh b = [C] -> bsh [C] (sh v) = Some [C] ->
  exists t, bmap2 (fun x y => actQ ActNone (bin k x y)) b v = Some t /\ sh t = [C] /\
    forall o, 0 <= o < C -> at_ t [o] = bin k (at_ b [o]) (at_ v (bix (sh v) [o])).
Proof.
  intros Hb Hs. unfold bmap2. rewrite Hb, Hs. eexists. split; [reflexivity|]. split; [reflexivity|].
  intros o Ho. cbn [at_]. rewrite (bix_same [C] [o]) by (apply range1; exact Ho). reflexivity.
Qed.

Lemma fuse_add k c i f m b v y :
  (k = Add \/ k = Sub) ->
  bc_float c i f m b = Some y -> (length (sh v) <= 1)%nat -> bsh (vshape y) (sh v) = Some (vshape y) ->
  forall z, denote (OBin k ActNone) [y; VF v] = Some z ->
  exists b' w, denote (OBin k ActNone) [VF b; VF v] = Some (VF b') /\ bc_float c i f m b' = Some w /\ veq z w.
Proof.
  intros Hk H Hl Hs z Hz. destruct (bc_float_inv _ _ _ _ _ _ H) as (g & Co & Hg & HC & Hm & Hb & Hp & ->).
  cbn [vshape] in Hs. cbn [sh] in Hs. unfold out_sh in Hs.
  destruct (chan_shape _ _ _ _ _ Hl Hs) as [Hs1 Hix]. destruct (vec_bin k b v Co Hb Hs1) as (t & Et & St & At).
  cbn [denote] in *. rewrite Et. cbn [option_map]. exists t. eexists. split; [reflexivity|].
  split; [apply (bc_float_mk c i f m t g Co); auto|].
  apply option_map_some in Hz. destruct Hz as (u & Hu & ->). unfold bmap2 in Hu. cbn [sh] in Hu. unfold out_sh in *. rewrite Hs in Hu.
  injection Hu as <-. split; [reflexivity|]. cbn [sh at_]. intros j Hj.
  destruct (in_range4 _ _ _ _ _ Hj) as (o & x & yy & n & -> & Ho & Hx & Hyy & Hn). rewrite ?(bix_same _ _ Hj), ?Hix, ?(if1 Co o), ?(if1 (gOW g) x), ?(if1 (gOH g) yy), ?(if1 (gB g) n) by assumption. rewrite ?Hix, At by exact Ho.
  destruct Hk as [-> | ->]; cbn [bin actQ]; ring.
Qed.

Lemma fuse_mul k c i f m b v y :
  (k = Mul \/ k = Div) ->
  bc_float c i f m b = Some y -> (length (sh v) <= 1)%nat -> bsh (vshape y) (sh v) = Some (vshape y) ->
  forall z, denote (OBin k ActNone) [y; VF v] = Some z ->
  exists m' b' w, denote (OBin k ActNone) [VF m; VF v] = Some (VF m') /\ denote (OBin k ActNone) [VF b; VF v] = Some (VF b') /\
    bc_float c i f m' b' = Some w /\ veq z w.
Proof.
  intros Hk H Hl Hs z Hz. destruct (bc_float_inv _ _ _ _ _ _ H) as (g & Co & Hg & HC & Hm & Hb & Hp & ->).
  cbn [vshape] in Hs. cbn [sh] in Hs. unfold out_sh in Hs.
  destruct (chan_shape _ _ _ _ _ Hl Hs) as [Hs1 Hix]. destruct (vec_bin k b v Co Hb Hs1) as (t & Et & St & At).
  destruct (vec_bin k m v Co Hm Hs1) as (tm & Etm & Stm & Atm).
  cbn [denote] in *. rewrite Et, Etm. cbn [option_map]. exists tm, t. eexists. split; [reflexivity|]. split; [reflexivity|].
  split; [apply (bc_float_mk c i f tm t g Co); auto|].
  apply option_map_some in Hz. destruct Hz as (u & Hu & ->). unfold bmap2 in Hu. cbn [sh] in Hu. unfold out_sh in *. rewrite Hs in Hu.
  injection Hu as <-. split; [reflexivity|]. cbn [sh at_]. intros j Hj.
  destruct (in_range4 _ _ _ _ _ Hj) as (o & x & yy & n & -> & Ho & Hx & Hyy & Hn). rewrite ?(bix_same _ _ Hj), ?Hix, ?(if1 Co o), ?(if1 (gOW g) x), ?(if1 (gOH g) yy), ?(if1 (gB g) n) by assumption. rewrite ?Hix, At, Atm by exact Ho.
  destruct Hk as [-> | ->]; cbn [bin actQ]; unfold Qdiv; ring.
Qed.

Lemma actQ_Z a v : (actQ a (inject_Z v) == inject_Z (act_spec a v))%Q.
Proof.
  assert (Hmax : forall x y, (Qmax (inject_Z x) (inject_Z y) == inject_Z (Z.max x y))%Q).
  { intros x y. destruct (Q.max_spec (inject_Z x) (inject_Z y)) as [[L E]|[L E]]; rewrite E.
    - rewrite <- Zlt_Qlt in L. rewrite Z.max_r by lia. reflexivity.
    - rewrite <- Zle_Qle in L. rewrite Z.max_l by lia. reflexivity. }
  assert (Hmin : forall x y, (Qmin (inject_Z x) (inject_Z y) == inject_Z (Z.min x y))%Q).
  { intros x y. destruct (Q.min_spec (inject_Z x) (inject_Z y)) as [[L E]|[L E]]; rewrite E.
    - rewrite <- Zlt_Qlt in L. rewrite Z.min_l by lia. reflexivity.
    - rewrite <- Zle_Qle in L. rewrite Z.min_r by lia. reflexivity. }
  destruct a; cbn [actQ act_spec]; [reflexivity| | |].
  - change 0%Q with (inject_Z 0). apply Hmax.
  - change 1%Q with (inject_Z 1). change (- inject_Z 1)%Q with (inject_Z (-1)). rewrite Hmin. apply Hmax.
  - change 0%Q with (inject_Z 0). change 6%Q with (inject_Z 6). rewrite Hmin. apply Hmax.
Qed.

Lemma fuse_act a c i f m b y :
  bc_float c i f m b = Some y -> is_constant m 1 = true -> is_constant b 0 = true -> ca_act c = ActNone ->
  (ca_pad c = PadValid \/ (ca_pad c = PadSame /\ ca_padv c = 1)) ->
  forall z, denote (OAct a) [y] = Some z ->
  exists w, bc_float (with_act c a) i f m b = Some w /\ veq z w.
Proof.
  intros H Hm1 Hb0 Ha Hp z Hz. destruct (bc_float_inv _ _ _ _ _ _ H) as (g & Co & Hg & HC & Hm & Hb & _ & ->).
  eexists. split.
  - apply (bc_float_mk (with_act c a) i f m b g Co); auto.
    unfold pad_ok. cbn. destruct Hp as [-> | [-> ->]]; reflexivity.
  - cbn [denote] in Hz. injection Hz as <-. split; [reflexivity|]. cbn [tmap sh at_]. intros j Hj.
    destruct (in_range4 _ _ _ _ _ Hj) as (o & x & yy & n & -> & Ho & _).
    assert (Em : (at_ m [o] == 1)%Q) by (apply (is_constant_ok m 1 [o] Hm1); rewrite Hm; apply range1, Ho).
    assert (Eb : (at_ b [o] == 0)%Q) by (apply (is_constant_ok b 0 [o] Hb0); rewrite Hb; apply range1, Ho).
    rewrite Em, Eb, Ha. cbn [act_spec ca_act with_act].
    change (bc_conv (with_act c a) g i f n yy x o) with (bc_conv c g i f n yy x o).
    rewrite <- actQ_Z. rewrite Qmult_1_l, Qplus_0_r, Qmult_1_l, Qplus_0_r. reflexivity.
Qed.

(** ** Max pooling *)
Lemma max_neg l x : Qlt_bool (fold_left Qmax l x) 0 = Qlt_bool x 0 && forallb (fun y => Qlt_bool y 0) l.
Proof.
  revert x. induction l as [|y l IH]; intros x; cbn [fold_left forallb]; [rewrite andb_true_r; reflexivity|].
  rewrite IH, andb_assoc. f_equal.
  destruct (Q.max_spec x y) as [[L E]|[L E]]; rewrite E;
    destruct (Qlt_bool_spec x 0), (Qlt_bool_spec y 0); try reflexivity; lra.
Qed.
Lemma quant_pool p a t y : (a = ActNone \/ a = ActReluN1To1) ->
  denote (OMaxPool p a) [VF t] = Some y ->
  forall v, denote OQuant [y] = Some v ->
  exists q w, denote OQuant [VF t] = Some q /\ denote (OBMaxPool p) [q] = Some w /\ veq v w.
Proof.
  intros Ha H v Hv. cbn [denote] in H. apply option_map_some in H. destruct H as (u & Hu & ->).
  cbn [denote] in Hv. injection Hv as <-. cbn [denote]. eexists.
  destruct (pool_rel (fun x b => Qlt_bool x 0 = b) (fun x b => Qlt_bool x 0 = b)
    (fun l => actQ a (maxl l)) (forallb (fun b : bool => b)) p t (tmap (fun x => Qlt_bool x 0) t) u) as (w & Ew & Sw & Tw); auto.
  - intros l l' F.
    assert (E : Qlt_bool (actQ a (maxl l)) 0 = Qlt_bool (maxl l) 0).
    { destruct Ha as [-> | ->]; [reflexivity|]. cbn [actQ].
      destruct (Qlt_bool_spec (maxl l) 0) as [L|L].
      - destruct (Qlt_bool_spec (Qmax (- (1)) (Qmin 1 (maxl l))) 0) as [|L2]; [reflexivity|]. exfalso. apply L2.
        destruct (Q.min_spec 1 (maxl l)) as [[K E]|[K E]]; rewrite E; [lra|].
        destruct (Q.max_spec (- (1)) (maxl l)) as [[K' E']|[K' E']]; rewrite E'; lra.
      - destruct (Qlt_bool_spec (Qmax (- (1)) (Qmin 1 (maxl l))) 0) as [L2|]; [|reflexivity]. exfalso. apply L.
        destruct (Q.max_spec (- (1)) (Qmin 1 (maxl l))) as [[K' E']|[K' E']]; rewrite E' in L2; [|revert K'];
          destruct (Q.min_spec 1 (maxl l)) as [[K E]|[K E]]; rewrite E in *; intros; lra. }
    rewrite E. destruct F as [|x b l l' Hx F]; [reflexivity|]. cbn [maxl forallb]. rewrite max_neg, Hx. f_equal.
    clear -F. induction F as [|x b l l' Hx F IH]; [reflexivity|]. cbn [forallb]. rewrite Hx, IH. reflexivity.
  - exists (VBits w). split; [reflexivity|]. split; [cbn [denote]; rewrite Ew; reflexivity|]. split; [exact Sw|exact Tw].
Qed.

(** ** Bit-packed output *)
Lemma bc_bits_mk c i f th g Co : bc_geom c (sh i) (sh f) = Some g -> dim_out (sh f) = Co ->
  sh th = [Co] -> pad_ok c false = true ->
  bc_bits c i f th = Some (VBits (mkT (out_sh g Co) (fun k => match k with
        | [o; x; y; n] => at_ th [o] <? (taps g - bc_conv c g i f n y x o) / 2
        | _ => false end))).
Proof. intros Hg HC Hm Hp. unfold bc_bits. rewrite Hg, HC, Hm, Hp, Z.eqb_refl. reflexivity. Qed.

Lemma pm_1 b : pm b = 1 \/ pm b = -1.
Proof. destruct b; cbn; auto. Qed.

Lemma fuse_bits c i f m b y :
  bc_float c i f m b = Some y ->
  (ca_pad c = PadValid /\ ca_padv c = 0 \/ ca_pad c = PadSame /\ ca_padv c = 1) ->
  (forall k, in_range (sh f) k -> at_ f k == 1 \/ at_ f k == - (1))%Q -> numel (removelast (sh f)) < 2 ^ 31 ->
  forall z, denote OQuant [y] = Some z ->
  exists f' w, denote (OBin Mul ActNone) [VF f; VF (signs_4d m)] = Some (VF f') /\
    bc_bits c i f' (thresholds f m b (ca_act c)) = Some w /\ veq z w.
Proof.
  intros H Hp Hpm Hsz z Hz. destruct (bc_float_inv _ _ _ _ _ _ H) as (g & Co & Hg & HC & Hm & Hb & _ & ->).
  cbn [denote] in Hz. injection Hz as <-.
  destruct (bc_geom_inv _ _ _ _ Hg) as (C & W & Hh & N & ci & KW & KH & Co' & Esi & Esf & EC & HCp & Hci & HKW & HKH &
    DC & HG & DCo & G1 & G2 & G3 & G4 & G5 & G6 & G7 & G8).
  rewrite Esf in HC. cbn [dim_out] in HC. subst Co'.
  assert (Es : bsh (sh f) (sh (signs_4d m)) = Some [ci; KW; KH; Co]).
  { rewrite Esf. unfold signs_4d. rewrite Hm. cbn [sh last bsh]. rewrite Z.eqb_refl.
    destruct (Z.eqb_spec KH 1); cbn [Z.eqb]; destruct (Z.eqb_spec KW 1); destruct (Z.eqb_spec ci 1); subst; reflexivity. }
  assert (Hpx : pad_pixel c = 1).
  { unfold pad_pixel. destruct Hp as [[-> ->] | [-> ->]]; reflexivity. }
  assert (Hpo : pad_ok c false = true).
  { unfold pad_ok. destruct Hp as [[-> ->] | [-> ->]]; reflexivity. }
  cbn [denote]. unfold bmap2. rewrite Es. cbn [option_map]. eexists. eexists. split; [reflexivity|].
  assert (Ebt : match sh f with [ci; kw; kh; _] => kh * kw * ci | _ => 0 end = taps g).
  { rewrite Esf. unfold taps. rewrite G4, G5, G6. reflexivity. }
  split.
  { apply (bc_bits_mk c i _ _ g Co); cbn [sh]; auto.
    - rewrite <- Esf. exact Hg.
    - unfold thresholds. rewrite Esf. destruct (clamp_min_max _ _). cbn [sh]. rewrite Hm, Hb. cbn [numel].
      rewrite Z.min_id, Z.mul_1_r. reflexivity. }
  split; [reflexivity|]. cbn [tmap sh at_]. intros j Hj.
  destruct (in_range4 _ _ _ _ _ Hj) as (o & x & yy & n & -> & Ho & Hx & Hyy & Hn).
  set (f' := mkT [ci; KW; KH; Co] _).
  set (v := bc_conv c g i f n yy x o).
  assert (EV : bc_conv c g i f' n yy x o = flip (at_ m [o]) v).
  { unfold v, bc_conv, flip. rewrite Hpx.
    rewrite <- (conv_flip g (fun b0 y0 x0 k => pm (at_ i [k; x0; y0; b0]))
      (fun o0 fy fx k => pm (Qlt_bool (at_ f [k; fx; fy; o0]) 0))
      (fun o0 fy fx k => pm (Qlt_bool (at_ f' [k; fx; fy; o0]) 0)) n yy x o (Qle_bool 0 (at_ m [o]))); [reflexivity|].
    intros fy fx k Hfy Hfx Hk. rewrite G4 in Hfy. rewrite G5 in Hfx. rewrite G6 in Hk.
    assert (HR : in_range [ci; KW; KH; Co] [k; fx; fy; o]) by (repeat constructor; lia).
    unfold f'. cbn [at_ actQ bin]. rewrite Esf, (bix_same _ _ HR).
    unfold signs_4d. rewrite Hm. cbn [sh at_ last bix].
    assert (Elast : (if Co =? 1 then 0 else o) = o) by (destruct (Z.eqb_spec Co 1); lia).
    cbn [Z.eqb Pos.eqb last]. rewrite Elast, (flat_vec m Co o Hm Ho).
    destruct (Hpm [k; fx; fy; o]) as [E1|E1]; [rewrite Esf; exact HR| |];
      destruct (Qle_bool 0 (at_ m [o])); rewrite E1; reflexivity. }
  assert (Hv : - taps g <= v <= taps g).
  { apply conv_bound; try (rewrite ?G4, ?G5, ?G6; lia); try (intros; apply pm_bound); rewrite Hpx; lia. }
  assert (Hev : Z.even (taps g - bc_conv c g i f' n yy x o) = true).
  { unfold bc_conv. rewrite Hpx. apply conv_even; try (rewrite ?G4, ?G5, ?G6; lia); intros; apply pm_1. }
  apply Z.even_spec in Hev. destruct Hev as [k Ek].
  assert (Hbt : 0 <= taps g < 2 ^ 31).
  { rewrite Esf in Hsz. cbn [removelast numel] in Hsz. unfold taps. rewrite G4, G5, G6. nia. }
  rewrite Ek. rewrite (Z.mul_comm 2 k), Z.div_mul by lia.
  rewrite EV in Ek.
  assert (T := threshold_ok (ca_act c) (taps g) (at_ m [o]) (at_ b [o]) v k Hbt Hv Ek).
  unfold thresholds. rewrite Ebt. destruct (clamp_min_max (ca_act c) (taps g)) as [lo hi]. cbn [fst snd at_] in *.
  rewrite (flat_vec m Co o Hm Ho), (flat_vec b Co o Hb Ho).
  set (th := threshold_one _ _ _ _ _ _) in *.
  destruct (Qlt_bool_spec (at_ m [o] * inject_Z (act_spec (ca_act c) v) + at_ b [o]) 0) as [L|L].
  - apply T in L. symmetry. apply Z.ltb_lt. lia.
  - symmetry. apply Z.ltb_ge. destruct (Z.le_gt_cases k th); [assumption|]. exfalso. apply L, T. lia.
Qed.
