(** * Float32: IEEE-754 single precision values as 32-bit patterns, decoded into
    the standard library's [spec_float]. Used wherever C++ [float] data is
    compared; nothing in /repo is modelled here. *)
From Coq Require Import SpecFloat.
From Verif Require Import Base Spec Bitpack.

(** Binary interchange format (IEEE 754-2008 3.4), k = 32. *)
Definition decode32 (w : Z) : spec_float :=
  let s := Z.testbit w 31 in
  let e := (w / 2 ^ 23) mod 2 ^ 8 in
  let m := w mod 2 ^ 23 in
  if e =? 255 then if m =? 0 then S754_infinity s else S754_nan
  else if e =? 0 then
    match m with Zpos q => S754_finite s q (-149) | _ => S754_zero s end
  else match m + 2 ^ 23 with Zpos q => S754_finite s q (e - 150) | _ => S754_nan end.

(** C++ [a < b] on floats. *)
Definition flt (a b : Z) : bool := SFltb (decode32 a) (decode32 b).

Lemma SFltb_irrefl x : SFltb x x = false.
Proof.
  unfold SFltb. destruct x as [s|s| |s m e]; cbn; try reflexivity; destruct s; try reflexivity.
  - rewrite Z.compare_refl, Pos.compare_cont_refl. reflexivity.
  - rewrite Z.compare_refl, Pos.compare_cont_refl. reflexivity.
Qed.

Lemma flt_irrefl a : flt a a = false.
Proof. apply SFltb_irrefl. Qed.

(** The float element type of bitpack_array<BitpackOrder, float>: the zero
    point is DCHECKed to be 0 (bitpack.h 116). *)
Definition float_elem : elemtype :=
  {| et := Z; et_ltb := flt; et_cast := fun _ => 0; et_zero := 0; et_lo := None; et_hi := None |}.

(** "Strictly negative": the sign bit is set and the value is neither zero nor
    NaN. *)
Definition negative32 (w : Z) : bool :=
  Z.testbit w 31 && negb (w mod 2 ^ 31 =? 0) && (w mod 2 ^ 31 <=? 255 * 2 ^ 23).

Lemma flt_zero w : word w -> flt w 0 = negative32 w.
Proof.
  intros Hw. unfold word in Hw. unfold flt, negative32.
  change (decode32 0) with (S754_zero false).
  set (m31 := w mod 2 ^ 31).
  assert (Em : w mod 2 ^ 23 = m31 mod 2 ^ 23) by (unfold m31; lia).
  assert (Ee : (w / 2 ^ 23) mod 2 ^ 8 = m31 / 2 ^ 23) by (unfold m31; lia).
  unfold decode32. rewrite Em, Ee.
  assert (Hm : 0 <= m31 < 2 ^ 31) by (unfold m31; lia). clearbody m31. clear Em Ee.
  destruct (Z.testbit w 31).
  - cbn [andb].
    destruct (Z.eqb_spec (m31 / 2 ^ 23) 255) as [E1|E1].
    + destruct (Z.eqb_spec (m31 mod 2 ^ 23) 0) as [E2|E2]; cbn.
      * destruct (Z.eqb_spec m31 0); [lia|]. destruct (Z.leb_spec m31 2139095040); [reflexivity|lia].
      * destruct (Z.eqb_spec m31 0); [lia|]. destruct (Z.leb_spec m31 2139095040); [lia|reflexivity].
    + destruct (Z.leb_spec m31 (255 * 2 ^ 23)); [|lia]. rewrite andb_true_r.
      destruct (Z.eqb_spec (m31 / 2 ^ 23) 0) as [E2|E2].
      * destruct (m31 mod 2 ^ 23) as [|q|q] eqn:E3; cbn.
        -- destruct (Z.eqb_spec m31 0); [reflexivity|lia].
        -- destruct (Z.eqb_spec m31 0); [lia|reflexivity].
        -- lia.
      * destruct (Z.eqb_spec m31 0); [lia|].
        destruct (m31 mod 2 ^ 23 + 2 ^ 23) as [|q|q] eqn:E3; [lia|reflexivity|lia].
  - cbn [andb].
    destruct (m31 / 2 ^ 23 =? 255); [destruct (m31 mod 2 ^ 23 =? 0); reflexivity|].
    destruct (m31 / 2 ^ 23 =? 0).
    + destruct (m31 mod 2 ^ 23); reflexivity.
    + destruct (m31 mod 2 ^ 23 + 2 ^ 23); reflexivity.
Qed.
