(** * C70: the whole optimised convolution on 32-bit Arm, and int8 convolutions on Arm. *)
From Verif Require Import Base Spec Bits Loop4 Log Float32 Reference OutputTransform RefTheorems Padding Bgemm BgemmProofs BgemmConv IndirectTop Select
  A64 A64Bgemm A64Lemmas A64K44 A64Write44 A64Store A64Trans A64Seg A64Block44 A64Loop44 A64Kernel44 A64Stream44 A64Rel A64Conv A32 A32Block A32Kernel IeeeOps Check
  Prop_Bgemm Prop_A64 Prop_A64b Prop_A32.
From Coq Require Import QArith Qabs.
Open Scope Z_scope.

Section C70.
  Variables (pad : padding) (p : bconv) (input filter : list Z) (ops : nops) (o : otparams) (S : schedule).
  Hypothesis C : conv_call pad p input filter S.
  Hypothesis (Hops : nops_ok ops) (Hc : p_cmin o <= p_cmax o) (Hk : f_h p * f_w p * in_d p < 2 ^ 22)
    (HS : conv_schedule_ok 4 4 4 p input S) (HT : tr_ok o (round_up (out_c p) 4)).

  (** Any 4-row kernel that meets its contract *)
  Lemma conv4 ops' t KK ref0 out : fuel_mono KK -> k_ok (fun a => a) ops' t o 4 KK (fun G => 128 * G < 2 ^ 30) -> is_bits t = false ->
    zlen ref0 = out_pixels (geom_of p) * out_c p -> zlen out = Z.of_nat (esize t) * (out_pixels (geom_of p) * out_c p) ->
    conv_k KK t 4 S p input filter out (fun out' =>
      exists ref, BConv2DReference_val p input filter (run_of ops' t o) ref0 = Some ref /\ out' = vec (esize t) ref).
  Proof.
    intros Hm Hok Ht Hl Ho. destruct C.
    assert (HU := round_up_facts (im2col_k p) 4 ltac:(lia) ltac:(unfold im2col_k; assert (0 <= in_d p) by (rewrite (wf_ind p cc_wf); unfold words; Z.to_euclidean_division_equations; lia); assert (0 <= f_h p * f_w p) by nia; nia)).
    apply (conv_k_val pad p input filter cc_wf cc_in cc_fl cc_groups cc_prep (zero_padding_one p cc_pad) cc_ci cc_fh cc_fw ops' o S cc_oc cc_m cc_ls cc_rs cc_ne
      (fun a => a) t 4 KK (fun G => 128 * G < 2 ^ 30)); auto; try lia.
    - unfold im2col_k in *. cbv beta. Z.to_euclidean_division_equations; lia.
  Qed.

  Lemma float_ref ref0 : zlen ref0 = out_pixels (geom_of p) * out_c p ->
    exists ref, BConv2DReference_val p input filter (run_of ops DFloat o) ref0 = Some ref /\ zlen ref = out_pixels (geom_of p) * out_c p /\
    forall ops' ref8, n_ofZ ops' = n_ofZ ops -> n_mul ops' = n_mul ops -> n_add ops' = n_add ops ->
      BConv2DReference_val p input filter (run_of ops' DInt8 o) ref0 = Some ref8 ->
      forall i y, rd ref i = Some y -> rd ref8 i = Some (sat8z (n_cvtns ops' y)).
  Proof.
    intros Hl. destruct C. assert (Hoc := out_c_nonneg p cc_wf). assert (HU := round_up_facts (out_c p) 4 ltac:(lia) Hoc).
    destruct (wf_facts p cc_wf) as (HB&HH&HW&_&_&HOH&HOW&_).
    assert (HZ := zero_padding_one p cc_pad).
    set (v := fun b y x c => oval ops DFloat o (acc_one p input filter b y x c) c).
    destruct (reference_val_ok p cc_wf input filter cc_in cc_fl (run_of ops DFloat o) v ref0) as (ref & E & L & V).
    { intros b y x c Hb Hy Hx Hcc. rewrite (acc_ref_one p input filter b y x c HZ). destruct HT. apply run_oval; [exact Hc|lia|lia]. }
    { exact Hl. }
    exists ref. split; [exact E|]. split; [rewrite L; exact Hl|]. intros ops' ref8 O1 O2 O3 E8.
    set (v8 := fun b y x c => oval ops' DInt8 o (acc_one p input filter b y x c) c).
    destruct (reference_val_ok p cc_wf input filter cc_in cc_fl (run_of ops' DInt8 o) v8 ref0) as (ref' & E' & L' & V').
    { intros b y x c Hb Hy Hx Hcc. rewrite (acc_ref_one p input filter b y x c HZ). destruct HT. apply run_oval; [exact Hc|lia|lia]. }
    { exact Hl. }
    assert (ref' = ref8) by congruence. subst ref'. intros i y Hy.
    assert (Bi := rd_bounds _ _ _ Hy). rewrite L, Hl in Bi.
    change (out_pixels (geom_of p)) with (batches p * out_h p * out_w p) in Bi.
    assert (Hoc0 : 0 < out_c p) by (destruct (Z.eq_dec (out_c p) 0) as [E0|]; [rewrite E0 in Bi; lia|lia]).
    assert (Dc := Z.div_mod i (out_c p) ltac:(lia)). assert (Bc := Z.mod_pos_bound i (out_c p) Hoc0).
    assert (Hpix : 0 <= i / out_c p < batches p * out_h p * out_w p) by (split; [apply Z.div_pos; lia|apply Z.div_lt_upper_bound; lia]).
    set (pix := i / out_c p) in *. set (c := i mod out_c p) in *. clearbody pix c.
    destruct (pixel_decode _ _ _ pix HB HOH HOW Hpix) as (b & yy & x & Hb & Hyy & Hx & Epix).
    assert (Ei : i = Offset (out_h p) (out_w p) (out_c p) b yy x c) by (unfold Offset; rewrite Dc, Epix; ring).
    rewrite Ei in Hy |- *. rewrite V in Hy by assumption. rewrite V' by assumption. injection Hy as <-. f_equal.
    unfold v8, v, oval, tval. cbn [is_int8]. rewrite O1, O2, O3. reflexivity.
  Qed.
  Lemma vec1 l i v : rd l i = Some v -> rd (vec 1 l) i = Some (v mod 256).
  Proof.
    intros H. replace i with (Z.of_nat 1 * i + 0) by lia. apply (rd_vec 1 l _ _ _ _ H). reflexivity.
  Qed.

  (** Float output: 32-bit Arm writes the bytes of the reference kernel's result. *)
  Theorem C70_conv_arm32_float ref0 out :
    zlen ref0 = out_pixels (geom_of p) * out_c p -> zlen out = 4 * (out_pixels (geom_of p) * out_c p) ->
    conv_k (K32 ops DFloat o) DFloat 4 S p input filter out (fun out' =>
      exists ref, BConv2DReference_val p input filter (run_of ops DFloat o) ref0 = Some ref /\ out' = vec 4 ref).
  Proof.
    intros Hl Ho. exact (conv4 (a32 ops) DFloat (K32 ops DFloat o) ref0 out (K32_mono _ _ _) (K32_ok ops DFloat o Hops eq_refl) eq_refl Hl Ho).
  Qed.
  (** Int8 output on 32-bit Arm, against the reference kernel's float result: within
      1/2 + 1/256, and nearest except in the case of C60. *)
  Theorem C70_conv_arm32_int8 ref0 out : n_cvt8 ops = n_cvt8 ieee ->
    zlen ref0 = out_pixels (geom_of p) * out_c p -> zlen out = out_pixels (geom_of p) * out_c p ->
    conv_k (K32 ops DInt8 o) DInt8 4 S p input filter out (fun out' =>
      exists ref, BConv2DReference_val p input filter (run_of ops DFloat o) ref0 = Some ref /\
        forall i y q, rd ref i = Some y -> fval y = Some q ->
          exists v, -128 <= v <= 127 /\ rd out' i = Some (v mod 256) /\ int8_close q v /\ (int8_nearest q v <-> ~ unlucky q)).
  Proof.
    intros H8 Hl Ho. eapply conv_k_mono; [|apply (conv4 (a32 ops) DInt8 (K32 ops DInt8 o) ref0 out (K32_mono _ _ _) (K32_ok ops DInt8 o Hops eq_refl) eq_refl Hl)];
      [|change (Z.of_nat (esize DInt8)) with 1; lia].
    intros out' (ref8 & E8 & ->). destruct (float_ref ref0 Hl) as (ref & E & L & R). exists ref. split; [exact E|].
    intros i y q Hi Hq. assert (R8 := R (a32 ops) ref8 eq_refl eq_refl eq_refl E8 i y Hi). destruct (fval_units _ _ Hq) as (u & Hu & ->).
    exists (sat8z (n_cvtns (a32 ops) y)). split; [apply sat8z_range|]. split; [exact (vec1 _ _ _ R8)|].
    assert (Ev : sat8z (n_cvtns (a32 ops) y) = arm32_int8 u).
    { unfold arm32_int8, sat8z, clampz. cbn [a32 n_cvtns]. rewrite H8. cbn [ieee n_cvt8]. rewrite (convert_units _ _ _ Hu). lia. }
    rewrite Ev. split; [apply arm32_int8_close|apply arm32_int8_nearest].
  Qed.
  (** Int8 output on AArch64 with 32-bit accumulators: always the nearest value, and the
      portable kernel's value unless the float result is halfway. *)
  Theorem C70_conv_aarch64_int8 ref0 out : n_cvtns ops = n_cvtns ieee ->
    zlen ref0 = out_pixels (geom_of p) * out_c p -> zlen out = out_pixels (geom_of p) * out_c p ->
    asm_conv ops (k44 false DInt8) DInt8 o 4 S p input filter out (fun out' =>
      exists ref, BConv2DReference_val p input filter (run_of ops DFloat o) ref0 = Some ref /\
        forall i y q, rd ref i = Some y -> fval y = Some q ->
          exists v, -128 <= v <= 127 /\ rd out' i = Some (v mod 256) /\ int8_nearest q v).
  Proof.
    intros H8 Hl Ho. eapply conv_k_mono; [|apply (conv4 ops DInt8 (K64 ops (k44 false DInt8) DInt8 o 4) ref0 out (K64_mono _ _ _ _ _))].
    - intros out' (ref8 & E8 & ->). destruct (float_ref ref0 Hl) as (ref & E & L & R). exists ref. split; [exact E|].
      intros i y q Hi Hq. assert (R8 := R ops ref8 eq_refl eq_refl eq_refl E8 i y Hi). destruct (fval_units _ _ Hq) as (u & Hu & ->).
      exists (sat8z (n_cvtns ops y)). split; [apply sat8z_range|]. split; [exact (vec1 _ _ _ R8)|].
      exists (round_even u). split; [apply round_even_nearest|].
      unfold sat8z, clampz. rewrite H8. cbn [ieee n_cvtns]. rewrite (convert_units _ _ _ Hu). unfold sat32. lia.
    - intros L R ls rs G rows cols sr sc er ec f g tmp Hd. apply (asm44_ok ops DInt8 o false Hops eq_refl). split; [exact Hd|discriminate].
    - reflexivity.
    - exact Hl.
    - change (Z.of_nat (esize DInt8)) with 1. lia.
  Qed.
End C70.
Print Assumptions C70_conv_arm32_float.
Print Assumptions C70_conv_arm32_int8.
Print Assumptions C70_conv_aarch64_int8.

(** ** A case: 3x3 SAME convolution with five output channels (C54_case44) *)
Example C70_case : conv_call PadSame ex19_p ex19_in ex19_fl ex_sched /\ nops_ok ieee /\ p_cmin ot8 <= p_cmax ot8 /\
  f_h ex19_p * f_w ex19_p * in_d ex19_p < 2 ^ 22 /\ conv_schedule_ok 4 4 4 ex19_p ex19_in ex_sched /\ tr_ok ot8 (round_up (out_c ex19_p) 4).
Proof. destruct C54_case44 as (A & B & C & D). split; [exact A|]. split; [exact ieee_ok|]. split; [cbn; lia|]. auto. Qed.
