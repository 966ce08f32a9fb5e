(** * A64Trans: the output transform instructions, lane by lane. *)
From Verif Require Import Base Spec Bits A64 A64Bgemm A64Lemmas.
Open Scope Z_scope.

(** The single precision operations return bit patterns; conversion to integer
    returns an int32. *)
Record nops_ok (ops : nops) : Prop := {
  no_of : forall x, 0 <= n_ofZ ops x < 2 ^ 32; no_mul : forall x y, 0 <= n_mul ops x y < 2 ^ 32;
  no_add : forall x y, 0 <= n_add ops x y < 2 ^ 32; no_cvt : forall x, - 2 ^ 31 <= n_cvtns ops x < 2 ^ 31;
  no_cvt8 : forall x, - 2 ^ 31 <= n_cvt8 ops x < 2 ^ 31 }.
Definition int32 (z : Z) : Prop := - 2 ^ 31 <= z < 2 ^ 31.
Definition pat (z : Z) : Prop := 0 <= z < 2 ^ 32.
(** The value of one lane, from the doubled accumulator. *)
Definition tval (ops : nops) (cmin cmax x m b : Z) : Z :=
  n_add ops (n_mul ops (n_ofZ ops (Z.min (Z.max x cmin) cmax)) m) b.
Lemma sgnm r : int32 r -> sgn 32 (r mod 2 ^ 32) = r.
Proof.
  intros H. unfold int32 in H. unfold sgn. change (2 ^ (32 - 1)) with 2147483648. change (2 ^ 32) with 4294967296 in *. change (2 ^ 31) with 2147483648 in *.
  destruct (Z.ltb_spec (r mod 4294967296) 2147483648); Z.to_euclidean_division_equations; lia.
Qed.
Lemma trans4 ops cmin cmax xs ms bs : nops_ok ops -> int32 cmin -> int32 cmax -> Forall int32 xs -> Forall pat ms -> Forall pat bs ->
  length xs = 4%nat ->
  v_fadd ops (v_fmul ops (v_scvtf ops (v_smin (v_smax (vec 4 xs) (v_dup4 (cmin mod 2 ^ 32))) (v_dup4 (cmax mod 2 ^ 32)))) (vec 4 ms)) (vec 4 bs)
  = vec 4 (zipw (fun '(x, m) b => tval ops cmin cmax x m b) (zipw pair xs ms) bs).
Proof.
  intros Hops Hc1 Hc2 Hxs Hms Hbs Hl. destruct (len4 _ Hl) as (x0 & x1 & x2 & x3 & ->).
  repeat match goal with H : Forall int32 (_ :: _) |- _ => apply Forall_cons_iff in H; let A := fresh "X" in destruct H as [A H] end.
  assert (M : lanes 4 (vec 4 ms) = ms) by (rewrite lanes4; apply map_mod_id; exact Hms).
  assert (B : lanes 4 (vec 4 bs) = bs) by (rewrite lanes4; apply map_mod_id; exact Hbs).
  assert (R : forall x, int32 x -> int32 (Z.max x cmin)) by (unfold int32 in *; intros; lia).
  assert (R2 : forall x, int32 x -> int32 (Z.min x cmax)) by (unfold int32 in *; intros; lia).
  assert (D : forall c, int32 c -> sgn 32 ((c mod 2 ^ 32) mod 2 ^ 32) = c) by (intros; rewrite Z.mod_mod by lia; apply sgnm; assumption).
  unfold v_smax, v_dup4. rewrite !lanes4. cbn [repeat map zipw]. rewrite !(D cmin) by assumption. rewrite !sgnm by assumption.
  unfold v_smin. rewrite !lanes4. cbn [map zipw]. rewrite !(D cmax) by assumption. rewrite !sgnm by auto.
  unfold v_scvtf. rewrite !lanes4. cbn [map zipw]. rewrite !sgnm by auto.
  unfold v_fmul. rewrite M, lanes4. cbn [map]. rewrite !Z.mod_small by (apply no_of; exact Hops).
  unfold v_fadd. rewrite B, lanes4. f_equal.
  destruct ms as [|m0 [|m1 [|m2 [|m3 ms]]]]; destruct bs as [|b0 [|b1 [|b2 [|b3 bs]]]]; cbn [zipw map]; unfold tval;
    rewrite ?Z.mod_small by (apply no_mul; exact Hops); reflexivity.
Qed.

(** The doubled accumulators. *)
Lemma shl4_ok xs : Forall (fun a => 0 <= a < 2 ^ 30) xs -> v_shl4 1 (vec 4 xs) = vec 4 (map (Z.mul 2) xs).
Proof.
  intros H. unfold v_shl4. rewrite lanes4, map_mod_id. 2:{ eapply Forall_impl; [|exact H]. cbv beta. intros; lia. }
  f_equal. apply map_ext. intros a. change (2 ^ 1) with 2. ring.
Qed.

(** Saturating conversion to int8. *)
Definition sat8z (x : Z) : Z := clampz (-128) 127 x.
Lemma lanes1 ls : lanes 1 (vec 1 ls) = map (fun z => z mod 256) ls.
Proof. apply (lanes_vec 1). lia. Qed.
Lemma sgn16m r : -32768 <= r < 32768 -> sgn 16 (r mod 65536) = r.
Proof.
  intros H. unfold sgn. change (2 ^ (16 - 1)) with 32768. change (2 ^ 16) with 65536.
  destruct (Z.ltb_spec (r mod 65536) 32768); Z.to_euclidean_division_equations; lia.
Qed.
Lemma sat16m x : int32 x -> sat16 (x mod 2 ^ 32) = clampz (-32768) 32767 x.
Proof. intros H. unfold sat16. rewrite sgnm by exact H. reflexivity. Qed.
Lemma sat_sat x : sat8 (clampz (-32768) 32767 x mod 65536) = sat8z x.
Proof. unfold sat8. rewrite sgn16m by (unfold clampz; lia). unfold sat8z, clampz. lia. Qed.
(** 4x4 kernel: fcvtns, sqxtn .4h, sqxtn .8b; the low four bytes. *)
Lemma int8_4 ops ys : nops_ok ops -> Forall pat ys -> length ys = 4%nat ->
  firstn 4 (v_sqxtn8b (v_sqxtn4h (v_fcvtns ops (vec 4 ys)))) = vec 1 (map (fun y => sat8z (n_cvtns ops y)) ys).
Proof.
  intros Hops Hys Hl. destruct (len4 _ Hl) as (y0 & y1 & y2 & y3 & ->).
  unfold v_fcvtns. rewrite lanes4, map_mod_id by exact Hys. cbn [map].
  unfold v_sqxtn4h. rewrite lanes4. cbn [map]. rewrite !sat16m by (apply no_cvt; exact Hops).
  unfold v_sqxtn8b. change (repeat 0 8) with (vec 2 [0; 0; 0; 0]) at 1. rewrite <- vec_app, lanes2. cbn [app map].
  rewrite !sat_sat. reflexivity.
Qed.
Lemma tval_pat ops cmin cmax x m b : nops_ok ops -> pat (tval ops cmin cmax x m b).
Proof. intros H. apply (no_add ops H). Qed.
