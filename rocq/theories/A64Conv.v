(** * A64Conv: the BGEMM-based convolution with the AArch64 assembly kernels. *)
From Verif Require Import Base Spec Bits Loop4 Reference OutputTransform RefTheorems Padding Log Bgemm BgemmProofs IndirectTop Bitpack BgemmConv Select.
From Verif Require Import A64 A64Bgemm A64Lemmas A64K44 A64Store A64Trans A64Seg A64Block44 A64Write44 A64Loop44 A64Kernel44 A64Block84 A64Val84 A64Rel A64Bits84 A64BitsW84 A64RelBits.
Open Scope Z_scope.

(** optimized_bgemm.h 60-163 with the kernel calls of kernels.h replaced by the
    assembly: im2col, zero fill of a bit-packed destination with padding bits
    (116-127), BGEMM. [out]: the bytes of the output tensor. *)
Definition conv_k (K : kernel) (t : dtype) (rb : Z) (S : schedule) (p : bconv)
    (input filter : list Z) (out : list Z) (Q : list Z -> Prop) : Prop :=
  let '(rhs, k, m) := im2col p input in
  let out := if is_bits t && negb (Z.rem (out_c p) 32 =? 0) then repeat 0 (length out) else out in
  BGemm_k K t rb S (out_c p) k m filter rhs out Q.
Definition asm_conv (ops : nops) (prog : list instr) (t : dtype) (o : otparams) (rb : Z) := conv_k (K64 ops prog t o rb) t rb.

Lemma BGemm_k_mono K t rb S n k m lhs rhs dst (Q Q' : list Z -> Prop) : (forall d, Q d -> Q' d) ->
  BGemm_k K t rb S n k m lhs rhs dst Q -> BGemm_k K t rb S n k m lhs rhs dst Q'.
Proof.
  intros HQ H. unfold BGemm_k in *. eapply concurrently_mono; [exact H|]. cbv beta. intros L HL.
  eapply concurrently_mono; [exact HL|]. cbv beta zeta. intros R [A B]. split; [exact A|]. intros logs Hlogs order Ho. eapply wp_mono; [apply (B logs Hlogs order Ho)|exact HQ].
Qed.
Lemma BGemm_asm_mono ops prog t o rb S n k m lhs rhs dst (Q Q' : list Z -> Prop) : (forall d, Q d -> Q' d) ->
  BGemm_asm ops prog t o rb S n k m lhs rhs dst Q -> BGemm_asm ops prog t o rb S n k m lhs rhs dst Q'.
Proof. apply BGemm_k_mono. Qed.
Lemma conv_k_mono K t rb S p input filter out (Q Q' : list Z -> Prop) : (forall d, Q d -> Q' d) ->
  conv_k K t rb S p input filter out Q -> conv_k K t rb S p input filter out Q'.
Proof. intros H. unfold conv_k. destruct (im2col p input) as [[rhs k] m]. apply BGemm_k_mono, H. Qed.
Lemma zlen_vec k l : zlen (vec k l) = Z.of_nat k * zlen l.
Proof. unfold zlen. rewrite vec_length. lia. Qed.
Lemma im2col_k_eq p input : match im2col p input with (_, k, _) => k end = im2col_k p.
Proof.
  unfold im2col, im2col_k. destruct (negb (dl_w p =? 1) || negb (dl_h p =? 1) || (negb (s_w p =? 1) || negb (s_h p =? 1) || negb (f_w p =? 1) || negb (f_h p =? 1))) eqn:E; [reflexivity|].
  destruct (Z.eqb_spec (f_w p) 1) as [-> | ]; [|cbn in E; rewrite ?Bool.orb_true_r in E; discriminate].
  destruct (Z.eqb_spec (f_h p) 1) as [-> | ]; [|cbn in E; rewrite ?Bool.orb_true_r in E; discriminate]. ring.
Qed.

Section Conv.
  Variables (pad : padding) (p : bconv) (input filter : list Z).
  Hypothesis WF : bconv_wf p.
  Hypothesis Hin : packed input (in_pixels (geom_of p)) (channels_in p).
  Hypothesis Hfl : packed filter (filter_pixels (geom_of p)) (channels_in p / groups p).
  Hypothesis (HG : groups p = 1) (HP : prepared pad p) (HZ : zero_padding p = false).
  Hypothesis (Hci : 1 <= channels_in p) (HKH : 1 <= f_h p) (HKW : 1 <= f_w p) (Hk : im2col_k p < 2 ^ 24).
  Variables (ops : nops) (o : otparams) (S : schedule).
  Let N := batches p * out_h p * out_w p.
  Hypothesis (Hn : out_c p < 2 ^ 29) (Hm : N < 2 ^ 31 - 8) (Hls : 4 * sc_lstride S < 2 ^ 32) (Hrs : 4 * sc_rstride S < 2 ^ 32).
  Hypothesis Hne : Forall nonempty (sc_blocks S).

  Lemma k_pos : 1 <= im2col_k p.
  Proof.
    unfold im2col_k. assert (1 <= in_d p) by (rewrite (wf_ind p WF); unfold words; Z.to_euclidean_division_equations; lia).
    assert (1 <= f_h p * f_w p) by nia. nia.
  Qed.

  Section Val.
    Variables (wrap : Z -> Z) (t : dtype) (rb : Z) (KK : kernel) (side : Z -> Prop).
    Hypothesis Hmono : fuel_mono KK.
    Hypothesis (Hrb : 0 < rb) (Hclamp : p_cmin o <= p_cmax o) (Hasm : k_ok wrap ops t o rb KK side) (Ht : is_bits t = false).
    Hypothesis (Hside : side (round_up (im2col_k p) 4 / 4)) (HS : conv_schedule_ok 4 rb 4 p input S) (HT : tr_ok o (round_up (out_c p) rb)).
    Hypothesis Hw : forall b y x c, 0 <= b < batches p -> 0 <= y < out_h p -> 0 <= x < out_w p -> 0 <= c < out_c p ->
      wrap (acc_one p input filter b y x c) = acc_one p input filter b y x c.

    Lemma conv_k_val ref0 out : zlen ref0 = N * out_c p -> zlen out = Z.of_nat (esize t) * (N * out_c p) ->
      conv_k KK t rb S p input filter out (fun out' =>
        exists ref, BConv2DReference_val p input filter (run_of ops t o) ref0 = Some ref /\ out' = vec (esize t) ref).
    Proof.
      intros Hlen Hout. assert (Hoc := out_c_nonneg p WF). assert (Kp := k_pos).
      destruct (wf_facts p WF) as (HB&HH&HW&_&_&HOH&HOW&_).
      assert (HN : 0 <= N) by (unfold N; clear -HB HOH HOW; assert (0 <= batches p * out_h p) by nia; nia).
      set (v := fun b y x c => oval ops t o (acc_one p input filter b y x c) c).
      assert (HUn := round_up_facts (out_c p) rb Hrb Hoc).
      assert (Hv : forall b y x c, 0 <= c < out_c p -> run_of ops t o (acc_one p input filter b y x c) c = Some (v b y x c)).
      { intros b y x c Hc. destruct HT. apply run_oval; [exact Hclamp|lia|lia]. }
      destruct (reference_val_ok p WF input filter Hin Hfl (run_of ops t o) v ref0) as (ref & E2 & L2 & C2).
      { intros b y x c Hb Hy Hx Hc. rewrite (acc_ref_one p input filter b y x c HZ). auto. }
      { exact Hlen. }
      unfold conv_k. assert (HI := im2col_ok pad p WF input filter Hin Hfl HG HP). assert (Ek := im2col_k_eq p input). unfold conv_schedule_ok in HS.
      destruct (im2col p input) as ((rhs, k), m). destruct HI as (-> & _ & Hr & Hf & Hacc). subst k. fold N in Hr, HS |- *.
      rewrite Ht. cbn [andb].
      set (v' := fun c pix => v (pix / (out_h p * out_w p)) (pix mod (out_h p * out_w p) / out_w p) (pix mod out_w p) c).
      assert (Hes : 1 <= Z.of_nat (esize t) <= 4) by (unfold esize; destruct (is_float t); lia).
      assert (Hst : Z.of_nat (esize t) * out_c p < 2 ^ 32) by (unfold esize; destruct (is_float t); lia).
      eapply BGemm_k_mono; [|apply (bgemm_k_ok wrap ops t o rb KK side Hmono Hrb Hclamp Hasm (out_c p) (im2col_k p) N S filter rhs out) with (v := v'); try assumption; try lia].
      - cbv beta. intros out' (Lo & Vo). exists ref. split; [exact E2|]. apply rd_ext; [rewrite zlen_vec, L2, Hlen; lia|].
        intros i Hi. rewrite Lo, Hout in Hi. set (es := Z.of_nat (esize t)) in *.
        assert (He : 0 <= i / es < N * out_c p) by (split; [apply Z.div_pos; lia|apply Z.div_lt_upper_bound; lia]).
        assert (Dm := Z.div_mod i es ltac:(lia)). assert (Bm := Z.mod_pos_bound i es ltac:(lia)). set (e := i / es) in *. set (q := i mod es) in *. clearbody e q.
        assert (Hoc0 : 0 < out_c p) by (destruct (Z.eq_dec (out_c p) 0) as [E0|]; [rewrite E0 in He; lia|lia]).
        assert (Dc := Z.div_mod e (out_c p) ltac:(lia)). assert (Bc := Z.mod_pos_bound e (out_c p) Hoc0).
        assert (Hpix : 0 <= e / out_c p < N) by (split; [apply Z.div_pos; lia|apply Z.div_lt_upper_bound; lia]).
        set (pix := e / out_c p) in *. set (c := e mod out_c p) in *. clearbody pix c.
        destruct (pixel_decode _ _ _ pix HB HOH HOW Hpix) as (b & y & x & Hb & Hy & Hx & Epix).
        destruct (pixel_of p b y x Hb Hy Hx) as (_ & E1 & E3 & E4). rewrite <- Epix in E1, E3, E4.
        assert (Ei : i = es * (pix * out_c p + c) + q) by (rewrite Dm, Dc; ring). rewrite Ei. rewrite Vo by lia.
        unfold v'. rewrite E1, E3, E4.
        assert (Rr : rd ref (pix * out_c p + c) = Some (v b y x c)) by (rewrite <- (C2 b y x c Hb Hy Hx Bc); unfold Offset; rewrite <- Epix; reflexivity).
        assert (Rw : rd (le_split (esize t) (v b y x c)) q = Some (wat (le_split (esize t) (v b y x c)) q)) by (apply A64Rel.rd_wat; unfold zlen; rewrite le_split_length; fold es; lia).
        rewrite Rw. symmetry. apply (rd_vec (esize t) ref _ _ _ _ Rr Rw).
      - intros c pix Hc Hpix.
        destruct (pixel_decode _ _ _ pix HB HOH HOW Hpix) as (b & y & x & Hb & Hy & Hx & ->).
        destruct (pixel_of p b y x Hb Hy Hx) as (_ & E1 & E4 & E3).
        rewrite Hacc by auto. unfold v'. rewrite E1, E4, E3. auto.
      - intros c pix Hc Hpix. destruct (pixel_decode _ _ _ pix HB HOH HOW Hpix) as (b & y & x & Hb & Hy & Hx & ->). rewrite Hacc by auto. auto.
    Qed.
  End Val.
  Definition asm_conv_val wrap t rb prog side := conv_k_val wrap t rb (K64 ops prog t o rb) side (K64_mono ops prog t o rb).

  Section Bits.
    Hypothesis (HS : conv_schedule_ok 4 8 4 p input S) (HT : th_ok o (round_up (out_c p) 8)) (H16 : taps (geom_of p) < 2 ^ 16).
    Lemma asm_conv_bits ref0 out : zlen ref0 = N * words (out_c p) -> zlen out = 4 * (N * words (out_c p)) -> Forall (fun x => 0 <= x < 256) out ->
      asm_conv ops (k84 DBits) DBits o 8 S p input filter out (fun out' =>
        zlen out' = zlen out /\ packed (lanes 4 out') N (out_c p) /\
        BConv2DReference_bits p input filter (run_bits (p_thr o)) (words (out_c p)) ref0 = Some (lanes 4 out')).
    Proof.
      intros Hlen Hout Hbytes. assert (Hoc := out_c_nonneg p WF). assert (Kp := k_pos).
      destruct (wf_facts p WF) as (HB&HH&HW&_&_&HOH&HOW&_).
      assert (HN : 0 <= N) by (unfold N; clear -HB HOH HOW; assert (0 <= batches p * out_h p) by nia; nia).
      assert (HUn := round_up_facts (out_c p) 8 ltac:(lia) Hoc).
      set (v := fun b y x c => wat (p_thr o) c <? acc_one p input filter b y x c).
      assert (Hv : forall b y x c, 0 <= c < out_c p -> run_bits (p_thr o) (acc_one p input filter b y x c) c = Some (v b y x c)).
      { intros b y x c Hc. destruct HT. unfold run_bits. rewrite A64Rel.rd_wat by lia. reflexivity. }
      destruct (reference_bits_ok p WF input filter Hin Hfl (run_bits (p_thr o)) v ref0) as (ref & E2 & P2 & C2).
      { intros b y x c Hb Hy Hx Hc. rewrite (acc_ref_one p input filter b y x c HZ). auto. }
      { exact Hlen. }
      unfold asm_conv, conv_k. assert (HI := im2col_ok pad p WF input filter Hin Hfl HG HP). assert (Ek := im2col_k_eq p input). unfold conv_schedule_ok in HS.
      destruct (im2col p input) as ((rhs, k), m). destruct HI as (-> & _ & Hr & Hf & Hacc). subst k. fold N in Hr, HS |- *.
      cbn [is_bits andb]. set (out1 := if negb _ then _ else _).
      assert (Z1 : zlen out1 = zlen out) by (unfold out1; destruct (negb _); [unfold zlen; rewrite repeat_length; reflexivity|reflexivity]).
      assert (B1 : Forall (fun x => 0 <= x < 256) out1) by (unfold out1; destruct (negb _); [apply Forall_forall; intros x Hx; apply repeat_spec in Hx; lia|exact Hbytes]).
      assert (F1 : out_c p mod 32 = 0 \/ Forall (fun x => x = 0) out1).
      { unfold out1. destruct (Z.eqb_spec (Z.rem (out_c p) 32) 0) as [E|E]; [left; rewrite <- E; symmetry; apply Z.rem_mod_nonneg; lia|right].
        apply Forall_forall. intros x Hx. apply repeat_spec in Hx. exact Hx. }
      eapply BGemm_asm_mono; [|apply (bgemm_asm_words ops o (out_c p) (im2col_k p) N S filter rhs out1); try assumption; try lia].
      cbv beta. intros out' (Lo & P1 & Vo). split; [lia|]. split; [exact P1|]. rewrite E2. f_equal.
      apply (packed_bits_inj ref (lanes 4 out') N (out_c p)); [lia|exact P2|exact P1|].
      intros r c Hr' Hc. destruct (pixel_decode _ _ _ r HB HOH HOW Hr') as (b & y & x & Hb & Hy & Hx & ->).
      transitivity (v b y x c); [apply C2; auto|]. rewrite Vo by assumption. unfold v. rewrite Hacc by assumption.
      assert (AB := acc_one_bound p WF input filter Hin Hfl b y x c Hb Hc). rewrite Z.mod_small by lia. reflexivity.
    Qed.
  End Bits.
End Conv.
