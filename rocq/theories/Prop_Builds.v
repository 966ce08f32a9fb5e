(** * C83: bit-packed outputs are the same whichever kernel writes them. *)
From Coq Require Import QArith.
From Verif Require Import Base Spec Bits Bitpack Loop4 Reference OutputTransform RefTheorems Padding Log Bgemm BgemmProofs Indirect IndirectBuf IndirectTop BgemmConv Select Check Prepare Lifecycle EndToEnd
  A64 A64Bgemm A64Lemmas A64Bits84 A64Rel A64Conv Prop_Reference Prop_Bgemm Prop_Indirect Prop_A64 Prop_A64b.
Open Scope Z_scope.

(** [words_of]: the one array all of them write. The reference kernel, the portable
    indirect kernel and the portable GEMM are what other builds run; the 8x4 assembly
    is what AArch64 runs when 16 bits are enough (C51-C54). The output memory's old
    contents, the memory behind the thresholds, the blocks and their order, and the
    registers do not matter. *)
Theorem C83_bitpacked_same_words :
  forall (pad : padding) (p : bconv) (input filter thresholds : list Z),
  bconv_wf p -> packed input (in_pixels (geom_of p)) (channels_in p) -> packed filter (filter_pixels (geom_of p)) (channels_in p / groups p) ->
  1 <= f_h p -> 1 <= f_w p -> 1 <= f_d p -> int32_indices p -> prepared pad p -> pad_same p = false \/ pad_value p = 1 -> zlen thresholds = out_c p ->
  exists words_of : list Z,
    (* what it says: bit c of a pixel is set when the convolution is below the threshold *)
    packed words_of (out_pixels (geom_of p)) (out_c p) /\
    (forall b y x c t, 0 <= b < batches p -> 0 <= y < out_h p -> 0 <= x < out_w p -> rd thresholds c = Some t ->
       (bit_of words_of (words (out_c p)) (out_pixel (geom_of p) b y x) c = true <->
        2 * t < taps (geom_of p) - conv (geom_of p) 1 (input_pm (geom_of p) input) (filter_pm (geom_of p) filter) b y x c)) /\
    (* the reference kernel *)
    (forall out, zlen out = out_pixels (geom_of p) * words (out_c p) ->
       eval_ref_bits p input filter thresholds out = Some words_of) /\
    (* the indirect kernel *)
    (forall extra out, 3 <= zlen extra -> zlen out = out_pixels (geom_of p) * words (out_c p) ->
       indirect_bits p input filter (run_bits (thresholds ++ extra)) out = Some words_of) /\
    (* the portable GEMM, for every size of the kernel's block and every schedule *)
    (forall extra kr lc rc S out, groups p = 1 -> 0 < kr -> 0 < lc -> 0 < rc -> lc mod 32 = 0 -> conv_schedule_ok kr lc rc p input S ->
       zlen out = out_pixels (geom_of p) * words (out_c p) ->
       bgemm_conv_bits kr lc rc S p input filter (run_bits (thresholds ++ extra)) out (fun out' => out' = words_of)) /\
    (* the AArch64 assembly, on the bytes of the output tensor *)
    (forall ops o S extra out, conv_call pad p input filter S -> bgemm_uses_int16 true p = true -> conv_schedule_ok 4 8 4 p input S ->
       p_thr o = thresholds ++ extra -> th_ok o (round_up (out_c p) 8) ->
       zlen out = 4 * (out_pixels (geom_of p) * words (out_c p)) -> Forall (fun x => 0 <= x < 256) out ->
       asm_conv ops (k84 DBits) DBits o 8 S p input filter out (fun out' => zlen out' = zlen out /\ lanes 4 out' = words_of)).
Proof.
  intros pad p input filter thr WF Hin Hfl HfH HfW Hfd Hint HP Hpad Hth.
  assert (Hz : pad_same p && (pad_value p =? 0) = false) by (destruct Hpad as [-> | ->]; [reflexivity|destruct (pad_same p); reflexivity]).
  set (N := out_pixels (geom_of p) * words (out_c p)).
  assert (Hoc : 0 <= out_c p) by (rewrite <- Hth; apply zlen_nonneg).
  assert (HN : exists out0 : list Z, zlen out0 = N).
  { exists (repeat 0 (Z.to_nat N)). unfold zlen. rewrite repeat_length, Z2Nat.id; [reflexivity|]. destruct (wf_facts p WF) as (HB&_&_&_&_&HOH&HOW&_).
    assert (0 <= words (out_c p)) by (unfold words; Z.to_euclidean_division_equations; lia). unfold N. change (out_pixels (geom_of p)) with (batches p * out_h p * out_w p). assert (0 <= batches p * out_h p) by nia. nia. }
  (* every run that reads these thresholds gives the words of the reference kernel *)
  assert (U : forall run out, (forall a c, 0 <= c < out_c p -> run a c = run_bits thr a c) -> zlen out = N -> forall out2, zlen out2 = N ->
              BConv2DReference_bits p input filter run (words (out_c p)) out = eval_ref_bits p input filter thr out2 /\ eval_ref_bits p input filter thr out2 <> None).
  { intros run out Hrun Ho out2 Ho2.
    set (v := fun b y x c => word_at thr c <? acc_ref p input filter b y x c).
    assert (Hr : forall a c, 0 <= c < out_c p -> run_bits thr a c = Some (word_at thr c <? a)) by (intros a c Hc; unfold run_bits; rewrite (word_at_ok thr) by lia; reflexivity).
    destruct (reference_bits_ok p WF input filter Hin Hfl run v out) as (o1 & E1 & P1 & C1); [intros b y x c _ _ _ Hc; rewrite Hrun by exact Hc; apply Hr; exact Hc|exact Ho|].
    destruct (reference_bits_ok p WF input filter Hin Hfl (run_bits thr) v out2) as (o2 & E2 & P2 & C2); [intros b y x c _ _ _ Hc; apply Hr; exact Hc|exact Ho2|].
    unfold eval_ref_bits. rewrite E1, E2. split; [|discriminate]. f_equal.
    destruct (wf_facts p WF) as (HB&_&_&_&_&HOH&HOW&_).
    apply (packed_bits_inj o1 o2 (out_pixels (geom_of p)) (out_c p)); [lia|exact P1|exact P2|].
    intros r c Hr' Hc. destruct (pixel_decode _ _ _ r HB HOH HOW Hr') as (b & y & x & Hb & Hy & Hx & ->).
    transitivity (v b y x c); [apply C1; auto|symmetry; apply C2; auto]. }
  destruct HN as [out0 H0].
  destruct (C10_reference_bitpacked p input filter thr out0 WF Hin Hfl ltac:(rewrite Hz; discriminate) Hth H0) as (ws & E0 & P0 & B0). rewrite Hz in B0.
  assert (RX : forall extra a c, 0 <= c < out_c p -> run_bits (thr ++ extra) a c = run_bits thr a c) by (intros extra a c Hc; unfold run_bits; rewrite rd_app_l by lia; reflexivity).
  exists ws. split; [exact P0|]. split; [exact B0|]. split; [|split; [|split]].
  - intros out Ho. rewrite <- E0. apply (U (run_bits thr) out (fun a c _ => eq_refl) Ho out0 H0).
  - intros extra out He Ho. destruct (C14_indirect_bitpacked_equals_reference p input filter thr extra out WF Hin Hfl HfH HfW Hfd Hint Hpad Hth He Ho) as (o1 & E1 & E2 & _).
    rewrite E1. rewrite <- E2, <- E0. apply (U (run_bits thr) out (fun a c _ => eq_refl) Ho out0 H0).
  - intros extra kr lc rc S out HG Hk Hl Hr H32 HS Ho.
    eapply bgemm_conv_bits_mono; [apply (C19_bgemm_conv_bitpacked_equals_reference pad p input filter kr lc rc S (run_bits (thr ++ extra)) out WF Hin Hfl HG HP Hk Hl Hr); try assumption|].
    + intros a c Hc. rewrite RX by exact Hc. unfold run_bits. destruct (rd_some thr c ltac:(lia)) as [t ->]. eexists. reflexivity.
    + intros d [E _]. rewrite (proj1 (U (run_bits (thr ++ extra)) out (RX extra) Ho out0 H0)), E0 in E. injection E as <-. reflexivity.
  - intros ops o S extra out HC H16 HS HT1 HT Ho Hb.
    eapply conv_k_mono; [|apply (C54_conv_asm_8x4_bitpacked pad p input filter ops o S HC out0 out H16 HS HT H0 Ho Hb)].
    intros d (L1 & _ & E). split; [exact L1|]. rewrite HT1 in E.
    rewrite (proj1 (U (run_bits (thr ++ extra)) out0 (RX extra) H0 out0 H0)), E0 in E. injection E as <-. reflexivity.
Qed.
Print Assumptions C83_bitpacked_same_words.

(** A case of all of them but the order of the blocks of the portable GEMM, which
    C18's case shows: the convolution of C54 (5 output channels), thresholds 30. *)
Definition ot83 : otparams := {| p_cmin := 0; p_cmax := 100000; p_mul := repeat 1 9; p_bias := repeat 0 9; p_thr := repeat 30 8 |}.
Example C83_case :
  bconv_wf ex19_p /\ prepared PadSame ex19_p /\ int32_indices ex19_p /\ pad_value ex19_p = 1 /\ zlen (repeat 30 5) = out_c ex19_p /\
  conv_call PadSame ex19_p ex19_in ex19_fl ex_sched8 /\ bgemm_uses_int16 true ex19_p = true /\ conv_schedule_ok 4 8 4 ex19_p ex19_in ex_sched8 /\
  p_thr ot83 = repeat 30 5 ++ repeat 30 3 /\ th_ok ot83 (round_up (out_c ex19_p) 8) /\
  exists ws, eval_ref_bits ex19_p ex19_in ex19_fl (repeat 30 5) (repeat 0 6) = Some ws /\
    indirect_bits ex19_p ex19_in ex19_fl (run_bits (repeat 30 5 ++ [0; 0; 0])) (repeat 9 6) = Some ws /\ exists w, In w ws /\ 0 < w < 31.
Proof.
  destruct ex19_ok as (A & B & _). destruct C54_case as (C & D & E & _).
  split; [exact A|]. split; [exact B|]. split.
  { split; [cbn; lia|]. intros ox fx Hx Hf. cbn in *. lia. }
  split; [reflexivity|]. split; [reflexivity|]. split; [exact C|]. split; [exact D|]. split; [exact E|]. split; [reflexivity|]. split; [constructor; [repeat (constructor; [unfold A64Trans.int32; lia|]); constructor|vm_compute; congruence]|].
  eexists. split; [vm_compute; reflexivity|]. split; [vm_compute; reflexivity|].
  exists 18. split; [right; left; reflexivity|lia].
Qed.

(** ** The whole operator on AArch64 *)

(** What Prepare leaves for the evaluation (as [e2e_facts] in EndToEnd.v, which also
    asks for a schedule of the portable GEMM). *)
Lemma prepared_facts (w : world) (ish : list Z) (r : prep) (input : list Z) (S0 : sched) :
  let p := params_of (wd_a w) r ish (ti_dims (wd_filter_t w)) (pr_out r) in
  world_ok KBgemm w -> Prepare KBgemm (wd_a w) (node_of w ish) = Some (Ok r) -> call_ok KReference w ish p input S0 ->
  bconv_wf p /\ prepared (at_pad (wd_a w)) p /\ groups p = 1 /\ packed input (in_pixels (geom_of p)) (channels_in p) /\
  packed (wd_filter w) (filter_pixels (geom_of p)) (channels_in p / groups p) /\ elements (pr_out r) = out_pixels (geom_of p) * (if ttype_eqb (wd_out w) TInt32 then words (out_c p) else out_c p) /\
  1 <= channels_in p /\ 1 <= out_c p /\ 1 <= f_h p /\ 1 <= f_w p /\ (wd_out w = TInt32 -> pad_same p && (pad_value p =? 0) = false) /\
  (pad_same p && (pad_value p =? 0) = false -> pad_same p = false \/ pad_value p = 1) /\
  (wd_out w = TInt32 -> out_c p <= zlen (wd_thr w)) /\ (wd_out w <> TInt32 -> zlen (wd_mul w) = out_c p /\ zlen (wd_bias w) = out_c p).
Proof.
  intros p HW HPr HC. destruct HC as [HS Hd Hin _ Hpv Hthr _ _ _ _].
  destruct (prepare_sound KBgemm (wd_a w) (node_of w ish) r HPr HS Hd) as (WF & PP & HG & EP & _ & X & _).
  destruct HW as (F0 & F1 & F2 & F3 & C1 & _ & _ & _ & _ & _ & HF & HM & _).
  destruct (prepare_inv _ _ _ _ HPr) as (_ & _ & _ & _ & _ & EG & _). cbn [ti_dims nd_filter node_of] in EG.
  specialize (HF _ EG). destruct (infer_groups_ok _ _ _ _ _ C1 F0 F3 EG) as (_ & _ & G3 & _).
  cbn [ti_dims nd_in nd_filter node_of nd_out] in WF, PP, HG, EP, X. fold p in WF, PP, HG, X.
  split; [exact WF|]. split; [exact PP|]. split; [exact (HG eq_refl)|]. split; [exact Hin|]. split.
  { unfold filter_pixels, geom_of, p, params_of. cbn [gG gCO gKH gKW groups out_c f_h f_w channels_in]. rewrite <- G3. exact HF. }
  split.
  { unfold elements, out_pixels, geom_of, p, params_of. cbn [gB gOH gOW batches out_h out_w out_c]. rewrite EP. cbn [fold_right].
    change (dim [?x; ?y; ?z; ?t] 1) with y. change (dim [?x; ?y; ?z; ?t] 2) with z. ring. }
  split; [exact C1|]. split; [exact F0|]. split; [exact F1|]. split; [exact F2|]. split; [|split; [|split; [|exact HM]]].
  - intros EO. destruct (pad_same p && (pad_value p =? 0)) eqn:EZ; [|reflexivity]. destruct (X ltac:(discriminate) eq_refl) as [X' _]. rewrite EO in X'. discriminate.
  - intros EZ. unfold p in EZ |- *. cbn [params_of pad_same pad_value] in EZ |- *. destruct Hpv as [E | E]; rewrite E in EZ |- *; [|auto]. destruct (at_pad (wd_a w)); cbn in EZ |- *; auto; discriminate.
  - intros EO. specialize (Hthr EO). unfold p, params_of. cbn [out_c]. lia.
Qed.

(** C47 on AArch64, for bit-packed outputs: after any history of resizes, allocations
    and new inputs that leaves the operator ready, what the 8x4 assembly writes on the
    present input is the mathematical result, in an output of the announced size. The
    contract is C47's (with the reference kernel named: it asks nothing of [S0]) and,
    for the assembly, sizes and strides that fit its registers, 16-bit accumulators and
    memory behind the thresholds up to the next multiple of 8. The filter is packed
    afresh here: that the operator keeps the packed copy of C47 is C32's subject. *)
Theorem C83_invoke_aarch64 (w : world) (es : list event) (st : istate) (ops : nops) (o : otparams) (S0 : sched) (S : schedule) (extra out : list Z) :
  world_ok KBgemm w -> run_events KBgemm w es init_state = Some st -> st_ready st = true -> wd_out w = TInt32 ->
  p_thr o = wd_thr w ++ extra ->
  (forall r, Prepare KBgemm (wd_a w) (node_of w (st_ish st)) = Some (Ok r) ->
     let p := params_of (wd_a w) r (st_ish st) (ti_dims (wd_filter_t w)) (pr_out r) in
     call_ok KReference w (st_ish st) p (st_input st) S0 /\
     out_c p < 2 ^ 29 /\ out_pixels (geom_of p) < 2 ^ 31 - 8 /\
     4 * sc_lstride S < 2 ^ 32 /\ 4 * sc_rstride S < 2 ^ 32 /\ Forall nonempty (sc_blocks S) /\ conv_schedule_ok 4 8 4 p (st_input st) S /\
     bgemm_uses_int16 true p = true /\ th_ok o (round_up (out_c p) 8) /\
     zlen out = 4 * elements (pr_out r) /\ Forall (fun x => 0 <= x < 256) out) ->
  exists r, Prepare KBgemm (wd_a w) (node_of w (st_ish st)) = Some (Ok r) /\
    let p := params_of (wd_a w) r (st_ish st) (ti_dims (wd_filter_t w)) (pr_out r) in
    asm_conv ops (k84 DBits) DBits o 8 S p (st_input st) (wd_filter w) out (fun out' =>
      zlen out' = zlen out /\ correct_output w p (st_input st) (OutB (lanes 4 out'))).
Proof.
  intros HW HE HR EO HT1 HC. destruct (run_INV KBgemm w HW es _ _ (INV_init KBgemm w) HE HR) as (HP & _).
  exists (od_prep (st_od st)). split; [exact HP|]. cbv zeta. destruct (HC _ HP) as (C1 & C2 & C3 & C4 & C5 & C6 & C7 & C8 & C9 & C10 & C11). clear HC.
  set (r := od_prep (st_od st)) in *. set (p := params_of (wd_a w) r (st_ish st) (ti_dims (wd_filter_t w)) (pr_out r)) in *.
  destruct (prepared_facts w (st_ish st) r (st_input st) S0 HW HP C1) as (WF & PP & HG & Hin & Hfl & EL & G1 & G2 & G3 & G4 & EZ & Hpad & Hth & _). fold p in WF, PP, HG, Hin, Hfl, EL, G1, G2, G3, G4, EZ, Hpad, Hth.
  specialize (EZ EO). specialize (Hpad EZ). specialize (Hth EO). rewrite EO in EL. cbn [ttype_eqb] in EL.
  assert (HC : conv_call (at_pad (wd_a w)) p (st_input st) (wd_filter w) S) by (constructor; assumption).
  destruct (eval_ref_bits_more p (st_input st) (wd_filter w) (wd_thr w) (repeat 0 (Z.to_nat (elements (pr_out r)))) WF Hin Hfl ltac:(rewrite EZ; discriminate) Hth) as (ws & E0 & P0 & B0).
  { rewrite zlen_repeat, Z2Nat.id; [exact EL|]. assert (0 <= zlen out) by apply zlen_nonneg. lia. }
  assert (L0 : zlen (repeat 0 (Z.to_nat (elements (pr_out r)))) = out_pixels (geom_of p) * words (out_c p)).
  { rewrite zlen_repeat, Z2Nat.id; [exact EL|]. assert (0 <= zlen out) by apply zlen_nonneg. lia. }
  eapply conv_k_mono; [|apply (C54_conv_asm_8x4_bitpacked (at_pad (wd_a w)) p (st_input st) (wd_filter w) ops o S HC _ out C8 C7 C9 L0 ltac:(rewrite C10, EL; reflexivity) C11)].
  intros d (L1 & P1 & E). split; [exact L1|]. unfold correct_output. rewrite EO. split; [exact P1|].
  intros b y x c t Hb Hy Hx Hc Ht. rewrite HT1 in E.
  assert (HX : out_c p <= zlen (wd_thr w ++ extra)) by (rewrite zlen_app; assert (0 <= zlen extra) by apply zlen_nonneg; lia).
  destruct (eval_ref_bits_more p (st_input st) (wd_filter w) (wd_thr w ++ extra) _ WF Hin Hfl ltac:(rewrite EZ; discriminate) HX L0) as (ws' & E1 & _ & B1).
  unfold eval_ref_bits in E1. rewrite E in E1. injection E1 as <-.
  rewrite (B1 b y x c t Hb Hy Hx Hc); [reflexivity|]. rewrite rd_app_l by lia. exact Ht.
Qed.
Print Assumptions C83_invoke_aarch64.

(** A case: the convolution of C83_case as an operator, invoked on one image, then
    given another input; the remaining hypotheses are C83_case's. *)
Definition ex83_w : world :=
  {| wd_a := {| at_sh := 1; at_sw := 2; at_dh := 1; at_dw := 1; at_pad := PadSame; at_pv := 1; at_cin := 20; at_act := ActNone |};
     wd_filter_t := {| ti_type := TInt32; ti_dims := [5; 1; 3; 1] |}; wd_filter := ex19_fl;
     wd_mul_t := {| ti_type := TOther; ti_dims := [] |}; wd_mul := []; wd_bias_t := {| ti_type := TOther; ti_dims := [] |}; wd_bias := [];
     wd_thr_t := {| ti_type := TInt32; ti_dims := [5] |}; wd_thr := repeat 30 5;
     wd_out := TInt32; wd_affine := true; wd_scale := 1%Q; wd_zp := 0 |}.
Definition ex83_es : list event :=
  [EResize [1; 1; 1; 1]; EAllocate 0 no_prep; ESetInput [9]; EResize [1; 3; 4; 1]; EAllocate 32 no_prep; ESetInput ex19_in].
Example C83_invoke_case : world_ok KBgemm ex83_w /\
  exists st r, run_events KBgemm ex83_w ex83_es init_state = Some st /\ st_ready st = true /\ st_ish st = [1; 3; 4; 1] /\ st_input st = ex19_in /\
    Prepare KBgemm (wd_a ex83_w) (node_of ex83_w (st_ish st)) = Some (Ok r) /\
    params_of (wd_a ex83_w) r (st_ish st) (ti_dims (wd_filter_t ex83_w)) (pr_out r) = ex19_p /\ elements (pr_out r) = 6 /\
    forall S0, call_ok KReference ex83_w (st_ish st) ex19_p (st_input st) S0.
Proof.
  split.
  { unfold world_ok. do 10 (split; [vm_compute; discriminate|]). split; [|split; [intros H; exfalso; apply H; reflexivity|intros _ H; discriminate H]].
    intros g Hg. vm_compute in Hg. injection Hg as <-. apply packedb_ok; [discriminate|vm_compute; reflexivity]. }
  eexists. eexists. split; [vm_compute; reflexivity|]. split; [reflexivity|]. split; [reflexivity|]. split; [vm_compute; reflexivity|].
  split; [vm_compute; reflexivity|]. split; [vm_compute; reflexivity|]. split; [vm_compute; reflexivity|].
  intros S0. constructor; try (intros H; discriminate H).
  - vm_compute. intuition congruence.
  - reflexivity.
  - apply packedb_ok; vm_compute; congruence.
  - vm_compute. reflexivity.
  - right. reflexivity.
  - intros _. vm_compute. discriminate.
  - vm_compute. reflexivity.
  - intros H. exfalso. apply H. reflexivity.
Qed.
