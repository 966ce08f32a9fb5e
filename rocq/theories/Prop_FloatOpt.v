(** * Property C71: float accuracy of the optimised kernels in IEEE arithmetic,
    including the correction for zero padding. *)
From Coq Require Import QArith Qabs SpecFloat Lia Psatz.
From Flocq Require Import BinarySingleNaN.
From Verif Require Import Base Spec Bits Bitpack Float32 Reference OutputTransform Quantize RefTheorems Padding Log Bgemm BgemmProofs
  IndirectBuf IndirectTop BgemmConv Indirect Threshold ThresholdFloat ThresholdMargin ThresholdConv FloatSetup FloatAccuracy FloatConv
  ZeroPad FloatZeroPad Check Prop_Reference Prop_FloatAccuracy Prop_ZeroPad Prop_Bgemm.
Open Scope Z_scope.

(** What is asked of the operation: no fused activation with zero padding (Prepare
    rejects it), filter inside the image with zero padding (see C21), at most 2^22
    taps, finite multipliers and biases of magnitude at most 2^100, a buffer of the
    size the kernel allocates. *)
Definition float_case (p : bconv) (a : activation) (input filter mw bw : list Z) (buf out : list spec_float) : Prop :=
  bconv_wf p /\
  packed input (in_pixels (geom_of p)) (channels_in p) /\
  packed filter (filter_pixels (geom_of p)) (channels_in p / groups p) /\
  (exists pad, prepared pad p) /\
  (pad_same p && (pad_value p =? 0) = true ->
     a = ActNone /\ eff (f_h p) (dl_h p) <= in_h p /\ eff (f_w p) (dl_w p) <= in_w p) /\
  (1 <= f_h p /\ 1 <= f_w p /\ 1 <= s_h p /\ 1 <= s_w p /\ 1 <= dl_h p /\ 1 <= dl_w p) /\
  taps (geom_of p) <= 2 ^ 22 /\
  zlen mw = out_c p /\ zlen bw = out_c p /\
  (forall w, In w mw \/ In w bw -> finite32 w = true /\ (Qabs (exact32 w) <= inject_Z (2 ^ 100))%Q) /\
  zlen buf = GetCacheSize (f_h p) (f_w p) (out_c p) (dl_h p) (dl_w p) /\
  zlen out = out_pixels (geom_of p) * out_c p.
(** The output [o] is finite and close to the exact value everywhere. *)
Definition accurate (p : bconv) (a : activation) (input filter mw bw : list Z) (out o : list spec_float) : Prop :=
  zlen o = zlen out /\
  forall b y x c m bi, 0 <= b < batches p -> 0 <= y < out_h p -> 0 <= x < out_w p ->
    rd mw c = Some m -> rd bw c = Some bi ->
    exists r, rd o (out_pixel (geom_of p) b y x * out_c p + c) = Some r /\ is_finite_SF r = true /\
      (Qabs (SF2Q r - exact_out p a input filter m bi b y x c) <= (1 # 2 ^ 20) * magnitude p m bi + (1 # 2 ^ 124))%Q.

Lemma words_ok mw : (forall w, In w mw -> finite32 w = true /\ (Qabs (exact32 w) <= inject_Z (2 ^ 100))%Q) ->
  forall c w, rd mw c = Some w -> finite32 w = true /\ (Qabs (exact32 w) <= inject_Z (2 ^ 100))%Q.
Proof. intros H c w Hr. apply H. unfold rd in Hr. destruct (c <? 0); try discriminate. eapply nth_error_In. exact Hr. Qed.

Theorem C71_indirect_accuracy p a input filter mw bw buf out :
  float_case p a input filter mw bw buf out -> 1 <= f_d p -> int32_indices p ->
  exists o, eval_indirect_float32 p a input filter mw bw buf out = Some o /\ accurate p a input filter mw bw out o.
Proof.
  intros (WF & Hi & Hf & (pad & HP) & Hz & (h1 & h2 & h3 & h4 & h5 & h6) & Ht & Hm & Hb & Ok & Hbuf & Ho) Hfd Hint.
  destruct (indirect32 pad p WF input filter mw bw Hi Hf HP a (fun z => proj1 (Hz z)) h1 h2 h3 h4 h5 h6 (fun z => proj2 (Hz z)) Ht Hm Hb
    (words_ok mw (fun w I => Ok w (or_introl I))) (words_ok bw (fun w I => Ok w (or_intror I))) buf out Hbuf Ho Hfd Hint) as (o & E & L & C).
  exists o. split; [exact E|]. split; [exact L|exact C].
Qed.
Print Assumptions C71_indirect_accuracy.

Theorem C71_bgemm_accuracy p a input filter mw bw buf out kr lc rc sch :
  float_case p a input filter mw bw buf out -> groups p = 1 ->
  0 < kr -> 0 < lc -> 0 < rc -> conv_schedule_ok kr lc rc p input sch ->
  eval_bgemm_float32 kr lc rc sch p a input filter mw bw buf out (accurate p a input filter mw bw out).
Proof.
  intros (WF & Hi & Hf & (pad & HP) & Hz & (h1 & h2 & h3 & h4 & h5 & h6) & Ht & Hm & Hb & Ok & Hbuf & Ho).
  exact (bgemm32 pad p WF input filter mw bw Hi Hf HP a (fun z => proj1 (Hz z)) h1 h2 h3 h4 h5 h6 (fun z => proj2 (Hz z)) Ht Hm Hb
    (words_ok mw (fun w I => Ok w (or_introl I))) (words_ok bw (fun w I => Ok w (or_intror I))) buf out Hbuf Ho kr lc rc sch).
Qed.
Print Assumptions C71_bgemm_accuracy.

(** Reference and optimised kernel agree up to the sum of the two bounds. *)
Theorem C71_kernels_agree p a input filter mw bw buf out :
  float_case p a input filter mw bw buf out -> 1 <= f_d p -> int32_indices p ->
  (pad_same p && (pad_value p =? 0) = true -> (channels_in p / groups p) mod 2 = 0) ->
  exists o o', eval_indirect_float32 p a input filter mw bw buf out = Some o /\ eval_ref_float32 p a input filter mw bw out = Some o' /\
    forall b y x c m bi, 0 <= b < batches p -> 0 <= y < out_h p -> 0 <= x < out_w p ->
      rd mw c = Some m -> rd bw c = Some bi ->
      exists r r', rd o (out_pixel (geom_of p) b y x * out_c p + c) = Some r /\ rd o' (out_pixel (geom_of p) b y x * out_c p + c) = Some r' /\
        (Qabs (SF2Q r - SF2Q r') <= (3 # 2 ^ 21) * magnitude p m bi + (3 # 2 ^ 125))%Q.
Proof.
  intros H Hfd Hint Hev. destruct (C71_indirect_accuracy p a input filter mw bw buf out H Hfd Hint) as (o & E & L & C).
  destruct H as (WF & Hi & Hf & HP & Hz & _ & Ht & Hm & Hb & Ok & Hbuf & Ho).
  destruct (C62_float_output_accuracy p a input filter mw bw out WF Hi Hf Hev Ht Hm Hb Ok Ho) as (o' & E' & L' & C').
  exists o, o'. split; [exact E|]. split; [exact E'|]. intros b y x c m bi H1 H2 H3 H4 H5.
  destruct (C b y x c m bi H1 H2 H3 H4 H5) as (r & Hr & _ & Cr). destruct (C' b y x c m bi H1 H2 H3 H4 H5) as (r' & Hr' & _ & _ & Cr').
  exists r, r'. split; [exact Hr|]. split; [exact Hr'|].
  set (e := exact_out p a input filter m bi b y x c) in *. set (g := magnitude p m bi) in *.
  setoid_replace (SF2Q r - SF2Q r')%Q with ((SF2Q r - e) + - (SF2Q r' - e))%Q by ring.
  eapply Qle_trans; [apply Qabs_triangle|]. rewrite Qabs_opp.
  eapply Qle_trans; [apply Qplus_le_compat; [exact Cr|exact Cr']|].
  apply Qle_lteq. right.
  assert (E1 : ((1 # 2 ^ 20) == 2 * (1 # 2 ^ 21))%Q) by reflexivity. assert (E2 : ((3 # 2 ^ 21) == 3 * (1 # 2 ^ 21))%Q) by reflexivity.
  assert (E3 : ((1 # 2 ^ 124) == 2 * (1 # 2 ^ 125))%Q) by reflexivity. assert (E4 : ((3 # 2 ^ 125) == 3 * (1 # 2 ^ 125))%Q) by reflexivity.
  rewrite E1, E2, E3, E4. generalize (1 # 2 ^ 21)%Q (1 # 2 ^ 125)%Q. intros q1 q2. ring.
Qed.
Print Assumptions C71_kernels_agree.

(** They are not bit-identical: multiplier 0.1f, bias -0.3f, 3x3 filter on a 3x3 image. *)
Definition ex71_p : bconv :=
  {| batches := 1; in_h := 3; in_w := 3; in_d := 1; out_c := 1; f_h := 3; f_w := 3; f_d := 1;
     out_h := 3; out_w := 3; channels_in := 2; groups := 1; s_h := 1; s_w := 1;
     dl_h := 1; dl_w := 1; pad_h := 1; pad_w := 1; pad_same := true; pad_value := 0 |}.
Definition ex71_in : list Z := [0; 1; 2; 3; 1; 0; 2; 1; 0].
Definition ex71_fl : list Z := [0; 1; 2; 0; 0; 1; 0; 3; 2].
Definition zeros (n : nat) : list spec_float := repeat (S754_zero false) n.
Lemma ex71_case m b : finite32 m = true -> finite32 b = true -> (Qabs (exact32 m) <= inject_Z (2 ^ 100))%Q -> (Qabs (exact32 b) <= inject_Z (2 ^ 100))%Q ->
  float_case ex71_p ActNone ex71_in ex71_fl [m] [b] (zeros 36) (zeros 9).
Proof.
  intros F1 F2 Q1 Q2.
  split; [constructor; vm_compute; intuition congruence|].
  split; [apply packedb_ok; vm_compute; congruence|]. split; [apply packedb_ok; vm_compute; congruence|].
  split; [exists PadSame; vm_compute; intuition congruence|].
  split; [intros _; split; [reflexivity|split; vm_compute; congruence]|].
  split; [vm_compute; intuition congruence|]. split; [vm_compute; congruence|].
  split; [reflexivity|]. split; [reflexivity|]. split; [|split; reflexivity].
  intros w [[<- |[]]|[<- |[]]]; split; assumption.
Qed.
(** With multiplier 0.1f and bias 0.2f some outputs are +0 in the reference kernel,
    where a following LceQuantize writes +1, and negative in the optimised kernel,
    where it writes -1. *)
Theorem C71_same_sign_refuted : exists p input filter mw bw buf out o o' i,
  float_case p ActNone input filter mw bw buf out /\ 1 <= f_d p /\ int32_indices p /\ channels_in p mod 2 = 0 /\
  eval_indirect_float32 p ActNone input filter mw bw buf out = Some o /\
  eval_ref_float32 p ActNone input filter mw bw out = Some o' /\
  exists r r', rd o i = Some r /\ rd o' i = Some r' /\ SFltb r (S754_zero false) = true /\ SFltb r' (S754_zero false) = false.
Proof.
  set (mm := 1036831949). set (bb := 1045220557).
  assert (H : let o := eval_indirect_float32 ex71_p ActNone ex71_in ex71_fl [mm] [bb] (zeros 36) (zeros 9) in
              let o' := eval_ref_float32 ex71_p ActNone ex71_in ex71_fl [mm] [bb] (zeros 9) in
    match o, o' with Some a, Some b => existsb (fun '(x, y) => SFltb x (S754_zero false) && negb (SFltb y (S754_zero false))) (combine a b) | _, _ => false end = true)
    by (vm_compute; reflexivity).
  cbv zeta in H.
  destruct (eval_indirect_float32 ex71_p ActNone ex71_in ex71_fl [mm] [bb] (zeros 36) (zeros 9)) as [o|] eqn:E1; [|discriminate].
  destruct (eval_ref_float32 ex71_p ActNone ex71_in ex71_fl [mm] [bb] (zeros 9)) as [o'|] eqn:E2; [|discriminate].
  apply existsb_exists in H. destruct H as ((r & r') & Hin & Hs). apply andb_prop in Hs. destruct Hs as [Hs1 Hs2].
  destruct (In_nth_error _ _ Hin) as (n & Hn).
  assert (K : nth_error o n = Some r /\ nth_error o' n = Some r').
  { clear - Hn. revert o' n Hn. induction o as [|u o IH]; intros [|u' o'] [|n] Hn; cbn in *; try discriminate.
    - injection Hn as -> ->. split; reflexivity.
    - apply IH. exact Hn. }
  exists ex71_p, ex71_in, ex71_fl, [mm], [bb], (zeros 36), (zeros 9), o, o', (Z.of_nat n).
  split; [apply ex71_case; vm_compute; congruence|]. split; [vm_compute; congruence|].
  split; [split; [vm_compute; intuition congruence|unfold ex71_p; cbn [out_w f_w s_w dl_w pad_w]; intros ox fx Ho Hf; lia]|].
  split; [reflexivity|]. split; [exact E1|]. split; [exact E2|]. exists r, r'.
  unfold rd. destruct (Z.ltb_spec (Z.of_nat n) 0); [lia|]. rewrite Nat2Z.id. split; [apply K|]. split; [apply K|].
  split; [exact Hs1|]. destruct (SFltb r' _); [discriminate|reflexivity].
Qed.
Print Assumptions C71_same_sign_refuted.

(** Cases of the theorems: the example above, the grouped, dilated, strided one of
    C20 and the BGEMM one with its schedule. *)
Example C71_case : float_case ex71_p ActNone ex71_in ex71_fl [1036831949] [3197737370] (zeros 36) (zeros 9).
Proof. apply ex71_case; vm_compute; congruence. Qed.
Example C71_bound : ((1 # 2 ^ 20) * magnitude ex71_p 1036831949 3197737370 + (1 # 2 ^ 124) < 3 # 1000000)%Q.
Proof. vm_compute. reflexivity. Qed.
Example C71_grouped : prepared PadSame ex20_p /\ bconv_wf ex20_p /\ taps (geom_of ex20_p) <= 2 ^ 22 /\
  conv_schedule_ok 4 4 4 ex20b_p ex19_in ex_sched /\ taps (geom_of ex20b_p) <= 2 ^ 22.
Proof.
  split; [apply ex20|]. split; [apply ex20|]. split; [vm_compute; congruence|]. split; [exact ex_sched_ok|]. vm_compute. congruence.
Qed.
