(** * C82: predict, in Python, on a converted model: from arrays to arrays, through the
    conversion pipeline (C78), the written file and its interpreter (C77), and the
    wrapper's own checks and copies (C80).
    larq_compute_engine/tflite/python/interpreter_wrapper_utils.h 269-303;
    larq_compute_engine/mlir/tf_to_tfl_flatbuffer.cc 62-127. *)
From Coq Require Import QArith String.
From Verif Require Import Base Spec Bits Bitpack Padding Prepare Options Lifecycle Threshold IR IRProofs IRRules IRSound IRTerm IRWell
  IRTf IRPrep IRPass IRPassRule IRPassProof IRPassTame IRFuse IRInt8 ConvFold IRRun IRRunTop IRFile IRRun8 IRFile8 Pipeline
  Prop_IR Prop_Prep Prop_Run Prop_Fuse Prop_File Prop_Int8 Prop_Run8 Prop_File8 Prop_Pipeline.
From Verif Require Float32 Accessors Prop_Accessors.
Open Scope string_scope.
Open Scope list_scope.
Open Scope Z_scope.


(** The interpreter's memory when the inputs [xs] hold [bs]. *)
Fixpoint table (xs : list nat) (bs : list buf) : fmem :=
  match xs, bs with
  | x :: xs, b :: bs => fupd (table xs bs) (T x) b
  | _, _ => fun _ => None
  end.

(** A working interpreter of file [F]: Invoke (external: it walks the operators, calling
    the registered kernels) succeeds from every state whose inputs hold [bs] and whose
    tensors have the types and dimensions they were loaded with ([st]), and leaves
    in the outputs what one of the executions [frun8] allows leaves there: anything true
    of all of them is true of it. It keeps the tensors' types and dimensions.
    [stored t b]: tensor [t] of the interpreter holds buffer [b]. *)
Definition interprets (ur ui : bool) (tfl : op -> list buf -> buf -> Prop) (tab : qtab) (ty : tid -> list Z) (F : list finstr)
    (stored : Accessors.tensor -> buf -> Prop) (ids : nat -> Z) (ins outs : list nat) (bs : list buf)
    (st : Accessors.state) (inv : Accessors.state -> bool * Accessors.state) : Prop :=
  (forall s, (forall i, Accessors.t_type (s i) = Accessors.t_type (st i) /\ Accessors.t_dims (s i) = Accessors.t_dims (st i)) ->
     Forall2 (fun x b => stored (s (ids x)) b) ins bs ->
     forall Post, frun8 (register ur ui) tfl tab ty F (table ins bs) Post ->
       fst (inv s) = true /\
       exists m', Post m' /\ forall x b, In x outs -> m' (T x) = Some b -> stored (snd (inv s) (ids x)) b) /\
  forall s i, Accessors.t_type (snd (inv s) i) = Accessors.t_type (s i) /\ Accessors.t_dims (snd (inv s) i) = Accessors.t_dims (s i).

Theorem C82_predict_computes_the_model :
  (* the conversion, as in C78 *)
  forall (foreign : string -> model -> model -> Prop) (arm : bool) (drift : pass -> list value -> list value -> Prop) (c : config) (ps : list pass)
    (s s' : model) (tr : list (pass * model * model)) (vs : list value)
    (use_reference_bconv use_indirect_bgemm : bool) (tfl : op -> list buf -> buf -> Prop) (tab : qtab) (ty : tid -> list Z),
  interleaved (conversion c) ps -> runs foreign arm ps s tr s' -> well_formed s -> computes s vs ->
  (forall P t t', In (P, t, t') tr -> ready P t) ->
  (forall n t t' us, In (Foreign n, t, t') tr -> well_formed t -> computes t us -> well_formed t' /\ exists us', computes t' us' /\ drift (Foreign n) us us') ->
  (forall t t' us, In (LCEQuantize, t, t') tr -> well_formed t -> computes t us -> exists us', computes_stripped t us' /\ drift LCEQuantize us us') ->
  tflite_ok tfl -> const_filters8 (m_prog s') -> Forall verified8 (m_prog s') -> Forall (typed8 tab) (m_prog s') ->
  fits_machine8 (if use_reference_bconv then KReference else if use_indirect_bgemm then KIndirect else KBgemm) (fun r => ty (T r)) (m_prog s') (m_in s') ->
  (* the interpreter in Python, and the arrays given to predict *)
  forall (stored : Accessors.tensor -> buf -> Prop) (ids : nat -> Z) (inv : Accessors.state -> bool * Accessors.state) (st : Accessors.state) (l : list Accessors.array)
    (bs : list buf) (dsi dso : list Accessors.dtype) (F : list finstr),
  let ins := map ids (m_args s') in let outs := map ids (m_outs s') in
  file8 (m_prog s') = Some F ->
  interprets use_reference_bconv use_indirect_bgemm tfl tab ty F stored ids (m_args s') (m_outs s') bs st inv ->
  NoDup ins -> (forall i, In i ins -> Prop_Accessors.sized (st i) /\ Accessors.t_type (st i) <> Accessors.TStr) -> Forall Prop_Accessors.numpy l ->
  Accessors.get_types st ins = Some dsi -> Accessors.get_types st outs = Some dso ->
  map Accessors.a_dtype l = dsi -> map Accessors.a_shape l = Accessors.get_shapes st ins ->
  (* the arrays' bytes hold the values of the model's inputs *)
  length bs = length (m_args s') ->
  (forall n x a b, nth_error (m_args s') n = Some x -> nth_error l n = Some a -> nth_error bs n = Some b ->
     stored (Accessors.set_raw (st (ids x)) (Accessors.a_bytes a)) b) ->
  mem_ok (m_in s') (fun x => table (m_args s') bs (T x)) ->
  exists r st' ws,
    Accessors.predict {| Accessors.i_inputs := ins; Accessors.i_outputs := outs; Accessors.i_invoke := inv |} st l = (Some r, st') /\
    composed drift ps vs ws /\
    map Accessors.a_dtype r = dso /\ map Accessors.a_shape r = Accessors.get_shapes st outs /\
    Forall2 (fun xa w => Accessors.a_bytes (snd xa) = Accessors.t_raw (st' (ids (fst xa))) /\ exists b, stored (st' (ids (fst xa))) b /\ rep w b)
      (combine (m_outs s') r) ws /\ length r = length ws.
Proof.
  intros f arm drift c ps s s' tr vs ur ui tfl tab ty HIl HR HW HC Hrdy Hfor Hq HT HCF HV HTy HFM stored ids inv st l bs dsi dso F ins outs EF (HI1 & HI2) ND HS HN Hdi Hdo Hl1 Hl2 Lbs Hst HM.
  destruct (C78_converted_file_computes_the_model f arm drift c ps s s' tr vs ur ui tfl tab ty (table (m_args s') bs) HIl HR HW HC Hrdy Hfor Hq HT HCF HV HTy HFM HM)
    as (F' & ws & EF' & HCo & _ & HF). rewrite EF in EF'. injection EF' as <-.
  destruct (Prop_Accessors.C80_reported_is_accepted ins st l dsi ND HS HN Hdi) as [HP _]. destruct (HP (conj Hl1 Hl2)) as (s1 & P1 & _ & P3).
  assert (Ll : length l = length (m_args s')).
  { apply (f_equal (@length _)) in Hl2. unfold Accessors.get_shapes in Hl2. rewrite !map_length in Hl2. unfold ins in Hl2. now rewrite map_length in Hl2. }
  assert (ST : Forall2 (fun x b => stored (s1 (ids x)) b) (m_args s') bs).
  { assert (G : forall n x b, nth_error (m_args s') n = Some x -> nth_error bs n = Some b -> stored (s1 (ids x)) b).
    { intros n x b Ex Eb. destruct (nth_error l n) as [a|] eqn:Ea.
      - rewrite (P1 n (ids x) a (map_nth_error ids n (m_args s') Ex) Ea). exact (Hst n x a b Ex Ea Eb).
      - apply nth_error_None in Ea. assert (n < length (m_args s'))%nat by (apply nth_error_Some; congruence). lia. }
    revert G Lbs. clear. revert bs. induction (m_args s') as [|x xs IH]; intros [|b bs] G L; try discriminate; constructor.
    - exact (G 0%nat x b eq_refl eq_refl).
    - apply IH; [|injection L; auto]. intros n y c0 Ey Ec. exact (G (S n) y c0 Ey Ec). }
  assert (Ts : forall i, Accessors.t_type (s1 i) = Accessors.t_type (st i) /\ Accessors.t_dims (s1 i) = Accessors.t_dims (st i)).
  { intros i. assert (Q := P3 [] (fun s => (false, s))). unfold Accessors.predict in Q. cbn [Accessors.i_inputs Accessors.i_outputs Accessors.i_invoke] in Q.
    destruct (Prop_Accessors.set_all ins l st ND (proj2 (Prop_Accessors.fits_iff st ins l dsi Hdi HS HN) (conj Hl1 Hl2))) as [s2 Es].
    destruct (negb _) eqn:En. { exfalso. apply negb_true_iff, Z.eqb_neq in En. apply En. unfold zlen, ins. rewrite map_length, Ll. reflexivity. }
    rewrite Es in Q. cbn [negb] in Q. injection Q as ->. cbn [snd]. destruct (Prop_Accessors.set_leaves _ _ _ _ _ Es i) as [C D].
    destruct (in_dec Z.eq_dec i ins) as [Hin|Hn]; [destruct (C Hin) as [d E']; cbn [snd] in E'; rewrite E'; split; reflexivity|cbn [snd] in D; rewrite (D Hn); split; reflexivity]. }
  destruct (HI1 s1 Ts ST _ HF) as (K1 & m' & K2 & K3).
  assert (EP := P3 outs inv). rewrite K1 in EP.
  assert (Hr : exists r, Accessors.all (map (fun i => Accessors.result_of (snd (inv s1) i)) outs) = Some r).
  { clear - Hdo HI2 Ts. revert dso Hdo. induction outs as [|i is IH]; intros dso Hdo; [exists []; reflexivity|].
    cbn [Accessors.get_types map Accessors.all] in *. unfold Accessors.get_types in Hdo. cbn [map Accessors.all] in Hdo. destruct (Accessors.py_of_type (Accessors.t_type (st i))) as [d|] eqn:Ed; [|discriminate].
    destruct (Accessors.all (map _ is)) as [ds|] eqn:Eds in Hdo; [|discriminate]. destruct (IH ds Eds) as [r Er].
    unfold Accessors.result_of at 1. rewrite (proj1 (HI2 s1 i)), (proj1 (Ts i)), Ed. cbn [bind]. rewrite Er. cbn [bind]. eauto. }
  destruct Hr as [r Hr]. rewrite Hr in EP. exists r, (snd (inv s1)), ws. split; [exact EP|]. split; [exact HCo|].
  destruct (Prop_Accessors.C80_results_as_reported {| Accessors.i_inputs := ins; Accessors.i_outputs := outs; Accessors.i_invoke := inv |} st l r (snd (inv s1)) dso HI2 Hdo EP) as (R1 & R2 & R3).
  split; [exact R1|]. split; [exact R2|]. cbn [Accessors.i_outputs] in R3. clear - K2 K3 R3. unfold outs in R3. rewrite map_map in R3. revert r ws R3 K2 K3.
  induction (m_outs s') as [|x xs IH]; intros r ws R3 K2 K3; inversion K2; subst; destruct r as [|a r]; try discriminate; cbn [combine map] in *; [split; [constructor|reflexivity]|].
  injection R3 as R3 R4. match goal with H : exists b, _ |- _ => destruct H as (b & B1 & B2) end.
  match goal with H : Forall2 _ xs ?ws' |- _ => destruct (IH r ws' R4 H) as [I1 I2] end.
  { intros z b0 Hz. apply K3. right. exact Hz. }
  split; [|cbn [length]; congruence]. constructor; [|exact I1]. cbn [fst snd]. split; [exact R3|]. exists b. split; [apply K3; [left; reflexivity|exact B1]|exact B2].
Qed.
Print Assumptions C82_predict_computes_the_model.

(** ** A model that quantises its input, converted without changes (no pass has anything
    to do); arrays of floats in, bitpacked words out: predict([-1, 3]) = [1]. *)
Definition ex82_in : tensor Q := mkT [2; 1] (fun i => match i with [0; 0] => (-1)%Q | _ => 3%Q end).
Definition ex82_e0 : env := fun x => match x with 0%nat => Some (VF ex82_in) | _ => None end.
Definition ex82_s : model := {| m_args := [0%nat]; m_prog := [(1%nat, OQuant, [0%nat])]; m_outs := [1%nat]; m_in := ex82_e0 |}.
Definition ex82_c : config := {| c_quantise := false; c_range := false; c_saved_model := false; c_session := false |}.
Definition ex82_tr : list (pass * model * model) := map (fun P => (P, ex82_s, ex82_s)) (conversion ex82_c).
Definition le32 (l : list Z) : Z := match l with [a; b; c; d] => a + 256 * b + 65536 * c + 16777216 * d | _ => 0 end.
Fixpoint le32s (l : list Z) : list Z := match l with a :: b :: c :: d :: r => le32 [a; b; c; d] :: le32s r | _ => [] end.
Definition ex82_stored (t : Accessors.tensor) (b : buf) : Prop :=
  match b with
  | BF d l => Accessors.t_dims t = d /\ Forall2 (fun q w => ThresholdFloat.SF2Q (Float32.decode32 w) == q)%Q l (le32s (Accessors.t_raw t))
  | BW d l => Accessors.t_dims t = d /\ l = le32s (Accessors.t_raw t)
  | _ => False
  end.
Definition ex82_ids (x : nat) : Z := match x with 0%nat => 7 | _ => 9 end.
Definition ex82_st : Accessors.state := fun i =>
  if i =? 7 then {| Accessors.t_type := Accessors.TF32; Accessors.t_dims := [1; 2]; Accessors.t_bytes := 8; Accessors.t_raw := [0; 0; 0; 0; 0; 0; 0; 0];
                    Accessors.t_quant := Accessors.QNone; Accessors.t_scale := 0; Accessors.t_zero := 0 |}
  else {| Accessors.t_type := Accessors.TI32; Accessors.t_dims := [1; 1]; Accessors.t_bytes := 4; Accessors.t_raw := [0; 0; 0; 0];
          Accessors.t_quant := Accessors.QNone; Accessors.t_scale := 0; Accessors.t_zero := 0 |}.
Definition ex82_bit (w : Z) : Z := if Float32.flt w 0 then 1 else 0.
Definition ex82_inv (s : Accessors.state) : bool * Accessors.state :=
  (true, fun i => if i =? 9 then Accessors.set_raw (s 9) [match le32s (Accessors.t_raw (s 7)) with [v; w] => ex82_bit v + 2 * ex82_bit w | _ => 0 end; 0; 0; 0] else s i).
Definition ex82_l : list Accessors.array := [{| Accessors.a_dtype := Accessors.DF32; Accessors.a_shape := [1; 2]; Accessors.a_bytes := [0; 0; 128; 191; 0; 0; 64; 64] |}].
Definition ex82_F : list finstr := [(T 1, FCustom "LceQuantize" [], [T 0])].
Definition ex82_bs : list buf := [BF [1; 2] [(-1)%Q; 3%Q]].

Lemma ex82_sign w q : (ThresholdFloat.SF2Q (Float32.decode32 w) == q)%Q -> ~ (q == 0)%Q -> ex82_bit w = if Qlt_bool q 0 then 1 else 0.
Proof.
  intros E N. unfold ex82_bit, Float32.flt. destruct (Float32.decode32 w) as [z|z| |z m e] eqn:Ew; cbn [ThresholdFloat.SF2Q] in E; try (exfalso; apply N; rewrite <- E; reflexivity).
  assert (P : (0 < (if (0 <=? e)%Z then inject_Z (2 ^ e) else 1 # Z.to_pos (2 ^ - e)))%Q).
  { destruct (Z.leb_spec 0 e); [|reflexivity]. unfold Qlt, inject_Z. cbn. assert (0 < 2 ^ e) by (apply Z.pow_pos_nonneg; lia). lia. }
  assert (D0 : Float32.decode32 0 = SpecFloat.S754_zero false) by reflexivity. rewrite D0. unfold Qlt_bool. destruct z; cbn.
  - assert (K : (q < 0)%Q). { rewrite <- E. setoid_replace ((Z.neg m # 1) * (if 0 <=? e then inject_Z (2 ^ e) else 1 # Z.to_pos (2 ^ - e)))%Q with (- ((Z.pos m # 1) * (if 0 <=? e then inject_Z (2 ^ e) else 1 # Z.to_pos (2 ^ - e))))%Q by (change (Z.neg m # 1)%Q with (- (Z.pos m # 1))%Q; ring).
      assert (0 < (Z.pos m # 1) * (if 0 <=? e then inject_Z (2 ^ e) else 1 # Z.to_pos (2 ^ - e)))%Q by (apply Qmult_lt_0_compat; [reflexivity|exact P]).
      apply (Qopp_lt_compat 0) in H. exact H. }
    destruct (Qle_bool 0 q) eqn:El; [|reflexivity]. apply Qle_bool_iff in El. exfalso. exact (Qlt_not_le _ _ K El).
  - assert (K : (0 < q)%Q) by (rewrite <- E; apply Qmult_lt_0_compat; [reflexivity|exact P]).
    destruct (Qle_bool 0 q) eqn:El; [reflexivity|]. exfalso. assert (Qle_bool 0 q = true) by (apply Qle_bool_iff, Qlt_le_weak, K). congruence.
Qed.
Lemma ex82_interprets ur ui tfl : interprets ur ui tfl (fun _ => None) (fun _ => [1; 1]) ex82_F ex82_stored ex82_ids [0%nat] [1%nat] ex82_bs ex82_st ex82_inv.
Proof.
  split.
  - intros s HD HS Post HP. split; [reflexivity|]. inversion HS as [|? ? ? ? H1 _]; subst. cbn [ex82_bs ex82_ids] in *.
    cbn [ex82_F frun8 flook table ex82_bs] in HP. unfold fupd at 1 in HP. cbn [tid_eqb Nat.eqb] in HP. cbn [fexec8] in HP.
    assert (ER : resolve (register ur ui) "LceQuantize" = Some RQuant) by (destruct ur, ui; reflexivity). rewrite ER in HP.
    change (forall out, zlen out = numel [1] * GetBitpackedSize 2 -> wp (quantize_Q (numel [1]) 2 [(-1)%Q; 3%Q] out)
      (fun o => Post (fupd (table [0%nat] ex82_bs) (T 1%nat) (BW [1; 1] o)))) in HP. assert (E : quantize_Q (numel [1]) 2 [(-1)%Q; 3%Q] [0] = Some [1]) by (vm_compute; reflexivity).
    specialize (HP [0] eq_refl). rewrite E in HP. cbn [wp] in HP. eexists. split; [exact HP|].
    intros x b [<-|[]] Hb. unfold fupd in Hb. cbn [tid_eqb Nat.eqb] in Hb. injection Hb as <-. cbn [ex82_stored ex82_ids ex82_inv snd Z.eqb Pos.eqb Accessors.set_raw Accessors.t_raw Accessors.t_dims].
    destruct H1 as [H1 H2]. inversion H2 as [|? v ? ? A1 A3]; subst. inversion A3 as [|? w ? ? A2 A4]; subst. inversion A4; subst.
    rewrite (ex82_sign v _ A1 ltac:(discriminate)), (ex82_sign w _ A2 ltac:(discriminate)).
    split; [exact (proj2 (HD 9))|reflexivity].
  - intros s i. cbn [ex82_inv snd]. destruct (Z.eqb_spec i 9) as [->|]; split; reflexivity.
Qed.
Lemma ex82_eval : exists e, eval (m_prog ex82_s) ex82_e0 = Some e /\ e 1%nat = Some (VBits (tmap (fun x => Qlt_bool x 0) ex82_in)).
Proof. eexists. split; [cbn; reflexivity|]. reflexivity. Qed.
Example C82_case : forall ur ui tfl, tflite_ok tfl ->
  exists r st', Accessors.predict {| Accessors.i_inputs := [7]; Accessors.i_outputs := [9]; Accessors.i_invoke := ex82_inv |} ex82_st ex82_l = (Some r, st') /\
    interprets ur ui tfl (fun _ => None) (fun _ => [1; 1]) ex82_F ex82_stored ex82_ids [0%nat] [1%nat] ex82_bs ex82_st ex82_inv /\
    r = [{| Accessors.a_dtype := Accessors.DI32; Accessors.a_shape := [1; 1]; Accessors.a_bytes := [1; 0; 0; 0] |}] /\
    exists w, veq (VBits (tmap (fun x => Qlt_bool x 0) ex82_in)) w /\ rep w (BW [1; 1] [1]).
Proof.
  intros ur ui tfl HT. destruct ex82_eval as (e & E1 & E2).
  destruct (C82_predict_computes_the_model (fun _ s s' => s' = s) true (fun _ us us' => us' = us) ex82_c (conversion ex82_c) ex82_s ex82_s ex82_tr
    [VBits (tmap (fun x => Qlt_bool x 0) ex82_in)] ur ui tfl (fun _ => None) (fun _ => [1; 1])) with (stored := ex82_stored) (ids := ex82_ids) (inv := ex82_inv)
    (st := ex82_st) (l := ex82_l) (bs := ex82_bs) (dsi := [Accessors.DF32]) (dso := [Accessors.DI32]) (F := ex82_F) as (r & st' & ws & R1 & R2 & R3 & R4 & R5 & R6).
  all: try assumption.
  - apply interleaved_refl.
  - apply runs_idle. intros P HP. destruct P; cbn [does ex82_s m_args m_prog m_outs m_in]; try (split; [reflexivity|split; [reflexivity|]]); try reflexivity.
    + exists 0%nat. constructor.
    + exists 0%nat. constructor.
    + split; [reflexivity|constructor].
    + split; [reflexivity|exists 0%nat; constructor].
    + exfalso. vm_compute in HP. repeat (destruct HP as [HP|HP]; [discriminate HP|]). exact HP.
  - split; [split; [|split; [|exact I]]|].
    + intros x [<-|[]]. left. reflexivity.
    + intros [H|[]]. discriminate H.
    + intros x [<-|[]]. right. left. reflexivity.
  - exists e. split; [exact E1|]. constructor; [exact E2|constructor].
  - intros P t t' Hi. apply in_map_iff in Hi. destruct Hi as (R & E & _). injection E as -> <- _. clear.
    destruct P; cbn [ready ex82_s m_prog m_in]; try exact I.
    + intros e' _ i [<-|[]]. split; [|split; [|split]]; hnf; intros; exfalso; match goal with H : iop _ = _ |- _ => cbn [iop fst snd] in H; other H end.
    + intros e' _ i [<-|[]]. split; [|split; [|split]]; hnf; intros; exfalso; match goal with H : iop _ = _ |- _ => cbn [iop fst snd] in H; other H end.
    + intros e' _ i [<-|[]]. exact I.
    + intros e' _ kd k a r d f b x ti tp F sf v [H|[]]. exfalso. discriminate H.
    + intros r o i f m b t k y x [H|[]]. discriminate H.
  - intros n t t' us Hi HW HC. apply in_map_iff in Hi. destruct Hi as (R & E & _). injection E as -> <- <-. split; [exact HW|]. exists us. split; [exact HC|reflexivity].
  - intros t t' us Hi. exfalso. apply in_map_iff in Hi. destruct Hi as (R & E & HR). injection E as -> _ _.
    vm_compute in HR. repeat (destruct HR as [HR|HR]; [discriminate HR|]). exact HR.
  - intros r o a [E|[]]. injection E as <- <- <-. intros H. discriminate H.
  - constructor; [exact I|constructor].
  - constructor; [|constructor]. cbn. exists 0%nat. split; reflexivity.
  - cbn [ex82_s m_prog m_in fits_machine8]. intros vs v Hl Hd. cbn in Hl. injection Hl as <-. cbn in Hd. injection Hd as <-.
    split; [|split; [|split; [|exact I]]].
    + cbn. discriminate.
    + split; [repeat constructor; discriminate|discriminate].
    + intros [H|(sc & z & H)]; discriminate H.
  - reflexivity.
  - apply ex82_interprets.
  - repeat constructor. intros [].
  - intros i [<-|[]]. split; [|discriminate]. intros k H. injection H as <-. reflexivity.
  - repeat constructor. intros k H. injection H as <-. reflexivity.
  - reflexivity.
  - reflexivity.
  - reflexivity.
  - reflexivity.
  - reflexivity.
  - intros n x a b Hx Ha Hb. destruct n as [|[|n]]; try discriminate. injection Hx as <-. injection Ha as <-. injection Hb as <-.
    split; [reflexivity|]. cbn [Accessors.set_raw Accessors.t_raw Accessors.a_bytes]. repeat constructor.
  - intros x v Hx. destruct x as [|x]; [|discriminate]. injection Hx as <-. exists (BF [1; 2] [(-1)%Q; 3%Q]). split; [reflexivity|].
    split; [repeat constructor; discriminate|]. split; [reflexivity|]. split; [reflexivity|].
    intros i Hi. inversion Hi as [|? c ? i1 H1 Hi1]; subst. inversion Hi1 as [|? c' ? i2 H2 Hi2]; subst. inversion Hi2; subst.
    assert (c' = 0) by lia. subst c'. assert (C : c = 0 \/ c = 1) by lia. destruct C as [-> | ->]; eexists; (split; [reflexivity|reflexivity]).
  - assert (P : Accessors.predict {| Accessors.i_inputs := [7]; Accessors.i_outputs := [9]; Accessors.i_invoke := ex82_inv |} ex82_st ex82_l = (Some r, st')) by exact R1.
    exists r, st'. split; [exact P|]. split; [apply ex82_interprets|].
    assert (V : Forall2 veq [VBits (tmap (fun x => Qlt_bool x 0) ex82_in)] ws) by (apply (C78_exact (fun _ us us' => us' = us) (conversion ex82_c)); [intros ? ? ? ? ? ->; apply F2_veq_refl|exact R2]).
    assert (Pr := f_equal fst P). assert (Ps := f_equal (fun p => Accessors.t_dims (snd p 9)) P). cbn [fst snd] in Pr, Ps. vm_compute in Pr. injection Pr as Pr.
    assert (Pd : Accessors.t_dims (st' 9) = [1; 1]) by (rewrite <- Ps; vm_compute; reflexivity). clear Ps. split; [symmetry; exact Pr|]. inversion V as [|? w ? ? V1 V2]; subst. inversion V2; subst. exists w. split; [exact V1|].
    cbn [ex82_s m_outs combine] in R5. inversion R5 as [|? ? ? ? (R7 & b & R8 & R9) _]; subst. cbn [fst snd ex82_ids] in *.
    destruct w as [| wt | | |]; try contradiction V1. destruct b as [|d2 l2| | |]; try contradiction R9. destruct R8 as [R8 R10].
    rewrite <- R7 in R10. rewrite Pd in R8. subst d2 l2. exact R9.
Qed.
