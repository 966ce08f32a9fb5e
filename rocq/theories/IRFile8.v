(** * IRFile8: the model file of a quantised program (C77).

    In the lq dialect a quantised operator is the ordinary operator on tensors of
    quantised type (lce_ops.td: LQ_QuantizeOp, LQ_DequantizeOp, LQ_Bconv2dOp take and
    give QI8); in the file the operator is the same custom operator, and scale and
    zero point are stored with the tensor. IRInt8.v keeps them in the operator; here
    they move to a table of the file's tensors. *)
From Coq Require Import QArith String.
From Verif Require Import Base Spec Bits Bitpack Padding Reference OutputTransform MaxPool Quantize ConvFold
  BgemmConv Prepare Options Lifecycle EndToEnd IndirectBuf Threshold IR IRProofs IRRules IRTerm IRWell IRTf IRPass
  IRPassRule IRPassProof IRFuse IRInt8 IRRun IRRunProof IRRunConv IRRunTop IRFile IRRun8.
Open Scope string_scope.
Open Scope list_scope.
Open Scope Z_scope.

(** Scale and zero point of a tensor, None for tensors that are not quantised
    (schema: Tensor.quantization; TfLiteTensor.params). *)
Definition qtab : Type := tid -> option (Q * Z).

(** The operator without its tensor types. *)
Definition erase (o : op) : op :=
  match k8 o with Some (LQ8 _) => OQuant | Some (LDQ8 _ _) => ODequant | Some (LC8 c _ _) => OConv c | _ => o end.
Definition erase_i (i : instr) : instr := (iid i, erase (iop i), iargs i).
(** bitpack_weights.cc, legalize_tflite.cc on the operators; the tensors keep their
    types (IRFile.v; legalize_tflite.cc 25-51). *)
Definition file8 (p : list instr) : option (list finstr) := let* q := pack_pass (map erase_i p) in legalize q.

(** Operators as the types of their tensors make them: reading the file back
    (translate_tflite.cc gives the new operator the types of the old one's results). *)
Definition retype (tab : qtab) (i : finstr) : finstr :=
  match i with
  | (r, FOp OQuant, [x]) => match tab x with Some (_, z) => (r, FOp (lq_quant8 z), [x]) | None => i end
  | (r, FOp ODequant, a) => match tab r with Some (s, z) => (r, FOp (lq_dequant8 s z), a) | None => i end
  | (r, FOp (OConv c), a) => match tab r with Some (s, z) => (r, FOp (lq_conv8 c s z), a) | None => i end
  | _ => i
  end.

(** A program whose operators agree with the types of their tensors. For tfl.quantize
    and tfl.dequantize this is what their verifiers demand. *)
Definition typed8 (tab : qtab) (i : instr) : Prop :=
  match k8 (iop i) with
  | Some (LQ8 z) => iop i = lq_quant8 z /\ exists x s, iargs i = [x] /\ tab (T x) = Some (s, z)
  | Some (LDQ8 s z) => iop i = lq_dequant8 s z /\ tab (T (iid i)) = Some (s, z)
  | Some (LC8 c s z) => iop i = lq_conv8 c s z /\ tab (T (iid i)) = Some (s, z)
  | Some (TQ s z) => tab (T (iid i)) = Some (s, z)
  | Some (TDQ s z) => exists x, iargs i = [x] /\ tab (T x) = Some (s, z) /\ tab (T (iid i)) = None
  | None => match iop i with
            | OQuant => exists x, iargs i = [x] /\ tab (T x) = None
            | ODequant | OConv _ => tab (T (iid i)) = None
            | _ => True
            end
  end.

(** ** Running the file *)
(** bconv2d.cc: as IRFile.v [conv_node], the output tensor's type and parameters from
    the table. *)
Definition world_q (oq : option (Q * Z)) (a : attrs) (fd fl : list Z) (m b t : buf) (extra : list Z) : world :=
  {| wd_a := a; wd_filter_t := {| ti_type := TInt32; ti_dims := fd |}; wd_filter := fl;
     wd_mul_t := f_info m; wd_mul := f_data m; wd_bias_t := f_info b; wd_bias := f_data b;
     wd_thr_t := i_info t; wd_thr := i_data t ++ extra;
     wd_out := match oq, t with Some _, _ => TInt8 | None, BI _ _ => TInt32 | _, _ => TFloat32 end;
     wd_affine := match oq with Some _ => true | None => false end;
     wd_scale := match oq with Some (s, _) => s | None => 1%Q end; wd_zp := match oq with Some (_, z) => z | None => 0 end |}.
Definition conv_node8 (oq : option (Q * Z)) (kt : kernel_type) (a : attrs) (d l fd fl : list Z) (m b t : buf) (Post : buf -> Prop) : Prop :=
  forall extra, zlen extra = 3 ->
  let w := world_q oq a fd fl m b t extra in
  exists r, Prepare kt (wd_a w) (node_of w d) = Some (Ok r) /\
    forall es st fb ib S,
      run_events kt w es init_state = Some st -> st_ready st = true -> st_ish st = d -> st_input st = l ->
      (kt = KIndirect -> same_setting kt w es d (st_addr st)) ->
      (wd_out w = TFloat32 -> zlen fb = elements (pr_out r)) ->
      (wd_out w <> TFloat32 -> zlen ib = elements (pr_out r)) ->
      (kt = KBgemm -> 0 < sd_kr S /\ 0 < sd_lc S /\ 0 < sd_rc S /\ sd_lc S mod 32 = 0 /\
         conv_schedule_ok (sd_kr S) (sd_lc S) (sd_rc S)
           (params_of (wd_a w) r d (ti_dims (wd_filter_t w)) (pr_out r)) l (sd_s S)) ->
      Eval kt w st fb ib S (fun o => match o with
        | OutF o => Post (BF (pr_out r) o) | OutB o => Post (BW (pr_out r) o) | OutI o => Post (BI (pr_out r) o) end).
Definition lce8 (o : op) : bool := is_lce (erase o).
(** One operator of the file with operand tensors [xs] and result tensor [r].
    quantization.cc 76-87 (LceQuantize looks at its input's type), 116-145
    (LceDequantize at its output's). *)
Definition fexec8 (reg : list (string * kernel)) (tfl : op -> list buf -> buf -> Prop) (tab : qtab) (r : tid) (fo : fop) (xs : list tid)
    (bs : list buf) (od : list Z) (Post : buf -> Prop) : Prop :=
  match fo with
  | FWords d l => bs = [] /\ Post (BW d l)
  | FOp o => lce8 o = false /\ (exists b, tfl o bs b) /\ forall b, tfl o bs b -> Post b
  | FCustom code m =>
      match resolve reg code with
      | Some RQuant =>
          match xs with
          | [x] => exec8 KReference tfl (match tab x with Some (_, z) => lq_quant8 z | None => OQuant end) bs od Post
          | _ => False
          end
      | Some RDequant => exec8 KReference tfl (match tab r with Some (s, z) => lq_dequant8 s z | None => ODequant end) bs od Post
      | Some RPool =>
          let a := bpool_init m in
          exec KReference tfl (OBMaxPool {| pa_pad := Options.pa_pad a; pa_sw := Options.pa_sw a; pa_sh := Options.pa_sh a;
                                            pa_fw := Options.pa_fw a; pa_fh := Options.pa_fh a |}) bs od Post
      | Some (RConv kt) =>
          match bs, bconv_init m with
          | [BW d l; BW fd fl; mu; bi; th], Some a => conv_node8 (tab r) kt a d l fd fl mu bi th Post
          | _, _ => False
          end
      | None => False
      end
  end.
Fixpoint frun8 (reg : list (string * kernel)) (tfl : op -> list buf -> buf -> Prop) (tab : qtab) (ty : tid -> list Z) (p : list finstr) (m : fmem)
    (Post : fmem -> Prop) : Prop :=
  match p with
  | [] => Post m
  | (r, o, a) :: p' =>
      match flook m a with
      | Some bs => fexec8 reg tfl tab r o a bs (ty r) (fun b => frun8 reg tfl tab ty p' (fupd m r b) Post)
      | None => False
      end
  end.

(** What lce_ops.td and the options' ranges demand (IRFile.v). *)
Definition verified8 (i : instr) : Prop := verified (erase_i i).

(** ** Proofs *)
Lemma bconv_k8 o : is_bconv o = true -> (exists c, o = OConv c) \/ exists c s z, k8 o = Some (LC8 c s z).
Proof.
  destruct o as [v| | | | | |k ac|ac|mp ac|p|c|x]; try discriminate; [left; eauto|]. cbn [is_bconv k8]. intros H. right.
  destruct (ek x); try discriminate. destruct k; try discriminate. eauto.
Qed.
(** The quantise pass keeps the types. *)
Lemma istep_typed8 tab outs p q : Forall (typed8 tab) p -> istep outs p q -> Forall (typed8 tab) q.
Proof.
  intros H St. destruct St as [pre r o a post inner o' a' Hr _ | pre r o a post vs v _ _ _ _ | pre i post _].
  - apply Forall_app in H. destruct H as [H1 H2]. inversion H2 as [|? ? H3 H4]; subst. apply Forall_app. split; [exact H1|]. constructor; [|exact H4].
    assert (HD : forall x o a, def pre x = Some (o, a) -> typed8 tab (x, o, a)).
    { intros x o0 a0 E. rewrite Forall_forall in H1. apply H1. exact (def_In _ _ _ _ E). }
    inversion Hr as [o0 i f m b t m' b' Hb Em Eb | c s z cv a0 E | s z d x E | s z d x E]; subst.
    + destruct (bconv_k8 o' Hb) as [(c & ->) | (c & s & z & Ek)]; [exact H3|]. unfold typed8 in *. cbn [iop iid iargs fst snd] in *. rewrite Ek in *. exact H3.
    + cbn [typed8 k8 iop iid iargs fst snd lq_conv8 ek] in *. split; [reflexivity|exact H3].
    + cbn [typed8 k8 iop iid iargs fst snd lq_dequant8 ek] in *. split; [reflexivity|exact H3].
    + assert (K := HD _ _ _ E). cbn [typed8 k8 iop iid iargs fst snd tfl_dequant lq_quant8 ek] in *. destruct K as (y & Ey & K & _). injection Ey as <-.
      split; [reflexivity|]. exists x, s. auto.
  - apply Forall_app in H. destruct H as [H1 H2]. inversion H2 as [|? ? H3 H4]; subst. apply Forall_app. split; [exact H1|]. constructor; [exact I|exact H4].
  - apply Forall_app in H. destruct H as [H1 H2]. inversion H2 as [|? ? H3 H4]; subst. apply Forall_app. auto.
Qed.
Lemma isteps_typed8 tab outs n p q : isteps outs n p q -> Forall (typed8 tab) p -> Forall (typed8 tab) q.
Proof. induction 1 as [p | n p q r St _ IH]; intros H; [exact H|]. apply IH. exact (istep_typed8 tab outs p q H St). Qed.

(** Erasing. *)
Lemma erase_cases o : (k8 (erase o) = None /\ lce8 o = true) \/ (erase o = o /\ is_lce o = false /\ lce8 o = false).
Proof.
  unfold lce8, erase. destruct (k8 o) as [[s z|s z|z|s z|c s z]|] eqn:Ek; try (left; split; reflexivity).
  - right. destruct o; try discriminate. auto.
  - right. destruct o; try discriminate. auto.
  - destruct o; auto.
Qed.
Lemma def_erase p x : def (map erase_i p) x = match def p x with Some (o, a) => Some (erase o, a) | None => None end.
Proof.
  unfold def. induction p as [|[[r o] a] p IH]; [reflexivity|]. cbn [map find]. unfold erase_i at 1. cbn [iid iop iargs fst snd].
  destruct (Nat.eqb r x); [reflexivity|exact IH].
Qed.
Lemma erase_const o v : erase o = OConst v <-> o = OConst v.
Proof.
  split; [|intros ->; reflexivity]. unfold erase. destruct (k8 o) as [[s z|s z|z|s z|c s z]|]; try discriminate; auto.
Qed.
Lemma def_erase_const p f v : def (map erase_i p) f = Some (OConst v, []) <-> def p f = Some (OConst v, []).
Proof.
  rewrite def_erase. destruct (def p f) as [[o a]|]; [|split; discriminate]. split; intros H.
  - assert (E : erase o = OConst v) by congruence. assert (E2 : a = []) by congruence. apply (proj1 (erase_const o v)) in E. rewrite E, E2. reflexivity.
  - injection H as -> ->. reflexivity.
Qed.
Lemma conv_exec_node8 oq kt c d l F f m b t Post : sh F = f -> length f = 4%nat ->
  conv_exec oq kt c d l (rev f) (map (fun x => x) (put F)) m b t Post ->
  exists fd fl, Bitpack_const F = Some (fd, fl) /\ conv_node8 oq kt (attrs_of c) d l fd fl m b t Post.
Proof.
  intros Es Hl. destruct f as [|ci [|KW [|KH [|Co [|]]]]]; try discriminate. unfold conv_exec, Bitpack_const. rewrite Es. cbn [rev app].
  rewrite map_id. destruct (quantize_Q _ _ _ _) as [fl|]; [|intros []]. cbn [wp bind]. intros H. do 2 eexists. split; [reflexivity|]. exact H.
Qed.
Lemma exec8_kt kt kt' tfl o bs od P : lce8 o = true -> (forall c, erase o <> OConv c) -> exec8 kt tfl o bs od P -> exec8 kt' tfl o bs od P.
Proof.
  intros H1 H2. unfold exec8, lce8, erase in *. destruct (k8 o) as [[s z|s z|z|s z|c s z]|]; try (exact (fun H => H)).
  - apply exec_kt; [exact H1|exact H2].
  - apply exec_kt; [exact H1|exact H2].
  - destruct (H2 c eq_refl).
  - apply exec_kt; [exact H1|exact H2].
Qed.

Section Step8.
  Variables (ur ui : bool) (tfl : op -> list buf -> buf -> Prop) (tab : qtab) (ty : tid -> list Z).
  Let kt := if ur then KReference else if ui then KIndirect else KBgemm.
  Hypothesis HT : tflite_ok tfl.

  Lemma file_step8 D r o a e vs v m :
    look e a = Some vs -> denote o vs = Some v -> op_ok8 kt o vs -> storable v ->
    (o = ODequant \/ (exists s z, k8 o = Some (LDQ8 s z)) -> ty (T r) = rev (vshape v)) ->
    verified8 (r, o, a) -> typed8 tab (r, o, a) -> mem_ok e (onT m) ->
    (forall c x f a', erase o = OConv c -> a = x :: f :: a' -> exists F, D f = Some (OConst (VF F), []) /\ e f = Some (VF F) /\ nonneg (sh F)) ->
    exists l F, pack_instr D (erase_i (r, o, a)) = Some l /\ legalize l = Some F /\
      forall rest P, (forall m', mem_ok (upd e r v) (onT m') -> frun8 (register ur ui) tfl tab ty rest m' P) ->
        frun8 (register ur ui) tfl tab ty (F ++ rest) m P.
  Proof.
    intros El Ed Ho Hs Hod Hv Ht HM Hf. destruct (mlook_ok e (onT m) a vs HM El) as (bs & Eb & Rs).
    assert (X := exec8_ok kt tfl o vs bs (ty (T r)) v HT Rs Ed Ho Hs Hod).
    destruct (erase_cases o) as [(Ek & EL) | (Ee & EL' & EL)].
    2:{ (* builtin *)
      exists [(T r, FOp o, map T a)], [(T r, FOp o, map T a)].
      assert (NL : forall l, legalize_op o = Some l -> l = None) by (destruct o; try discriminate; intros l H; injection H as <-; reflexivity).
      split; [unfold erase_i; cbn [iid iop iargs fst snd]; rewrite Ee; destruct o; try discriminate; reflexivity|].
      split; [unfold legalize; cbn [map seqo legalize_instr]; destruct o; try discriminate; reflexivity|].
      intros rest P H. cbn [app frun8]. rewrite flook_T, Eb.
      assert (Z : (exists b, tfl o bs b) /\ forall b, tfl o bs b -> rep v b).
      { unfold exec8 in X. assert (Xe : exec kt tfl o bs (ty (T r)) (rep v)).
        { destruct (k8 o) as [[s z|s z|z|s z|c s z]|] eqn:E8; try exact X; exfalso; unfold lce8, erase in EL; rewrite E8 in EL; discriminate. }
        clear X. destruct o; try discriminate; exact (proj2 Xe). }
      destruct Z as (Z2 & Z3). cbn [fexec8]. split; [exact EL|]. split; [exact Z2|]. intros b Hb. apply H. apply memT_upd; auto. }
    unfold verified8, erase_i in *. cbn [iid iop iargs fst snd] in *.
    destruct (legalize_verified (T r) (r, erase o, a) (map T a) Hv) as (j & Ej & _); [apply map_length|]. cbn [iop iargs fst snd] in Ej.
    destruct (erase o) as [w| | | | | |k ac|ac|mp ac|p|c|x] eqn:Ee; try (unfold lce8 in EL; rewrite Ee in EL; discriminate EL).
    - (* Quantize *)
      injection Ej as <-. exists [(T r, FOp OQuant, map T a)], [(T r, FCustom (custom_code "lq.Quantize") [], map T a)]. split; [reflexivity|]. split; [reflexivity|].
      intros rest P H. cbn [app frun8]. rewrite flook_T, Eb. unfold fexec8.
      change (resolve (register ur ui) (custom_code "lq.Quantize")) with (Some RQuant). cbv iota.
      assert (G : exists x, a = [x] /\ match tab (T x) with Some (_, z) => lq_quant8 z | None => OQuant end = o).
      { unfold typed8 in Ht. cbn [iid iop iargs fst snd] in Ht. unfold erase in Ee. destruct (k8 o) as [[s z|s z|z|s z|c s z]|] eqn:E8; try discriminate Ee; try (subst o; discriminate E8).
        - destruct Ht as (-> & x & s & -> & Et). exists x. rewrite Et. auto.
        - subst o. destruct Ht as (x & -> & Et). exists x. rewrite Et. auto. }
      destruct G as (x & -> & Go). cbn [map]. rewrite Go.
      eapply exec8_mono; [|apply (exec8_kt kt KReference tfl o bs _ _ EL); [rewrite Ee; discriminate|exact X]].
      intros b Rb. apply H. apply memT_upd; assumption.
    - (* Dequantize *)
      injection Ej as <-. exists [(T r, FOp ODequant, map T a)], [(T r, FCustom (custom_code "lq.Dequantize") [], map T a)]. split; [reflexivity|]. split; [reflexivity|].
      intros rest P H. cbn [app frun8]. rewrite flook_T, Eb. unfold fexec8.
      change (resolve (register ur ui) (custom_code "lq.Dequantize")) with (Some RDequant). cbv iota.
      assert (Go : match tab (T r) with Some (s, z) => lq_dequant8 s z | None => ODequant end = o).
      { unfold typed8 in Ht. cbn [iid iop iargs fst snd] in Ht. unfold erase in Ee. destruct (k8 o) as [[s z|s z|z|s z|c s z]|] eqn:E8; try discriminate Ee; try (subst o; discriminate E8).
        - destruct Ht as (-> & ->). reflexivity.
        - subst o. rewrite Ht. reflexivity. }
      rewrite Go.
      eapply exec8_mono; [|apply (exec8_kt kt KReference tfl o bs _ _ EL); [rewrite Ee; discriminate|exact X]].
      intros b Rb. apply H. apply memT_upd; assumption.
    - (* pool *)
      assert (Eo : o = OBMaxPool p) by (unfold erase in Ee; destruct (k8 o) as [[s z|s z|z|s z|c s z]|] eqn:E8; try discriminate Ee; exact Ee). subst o.
      destruct Hv as (Hn & H1 & H2 & H3 & H4 & H5). destruct (verified_pool p H1 H2 H3 H4 H5) as (mm & E1 & _ & E3). cbv zeta in E3.
      exists [(T r, FOp (OBMaxPool p), map T a)], [(T r, FCustom (custom_code "lq.BMaxPool2d") mm, map T a)]. split; [reflexivity|].
      split; [unfold legalize; cbn [map seqo legalize_instr legalize_op]; rewrite E1; reflexivity|].
      intros rest P H. cbn [app frun8]. rewrite flook_T, Eb. unfold fexec8.
      change (resolve (register ur ui) (custom_code "lq.BMaxPool2d")) with (Some RPool). cbv iota zeta. rewrite E3.
      eapply exec_mono; [|exact (exec_kt kt KReference tfl (OBMaxPool p) bs _ _ eq_refl ltac:(discriminate) X)].
      intros b Rb. apply H. apply memT_upd; assumption.
    - (* convolution *)
      destruct Hv as (Hn & H1 & H2 & H3 & H4 & H5 & H6 & H7). cbn [iop iargs fst snd] in *.
      destruct (verified_conv c H1 H2 H3 H4 H5 H6 H7) as (mm & E1 & _ & E3). clear Ej.
      destruct a as [|x0 [|x1 [|x2 [|x3 [|x4 [|]]]]]]; try discriminate Hn. clear Hn.
      destruct (Hf c x0 x1 _ eq_refl eq_refl) as (F & DF & EF & NF).
      cbn [look] in El. destruct (e x0) as [v0|] eqn:Ev0; [|discriminate]. rewrite EF in El.
      destruct (e x2) as [v2|] eqn:Ev2; [|discriminate]. destruct (e x3) as [v3|] eqn:Ev3; [|discriminate].
      destruct (e x4) as [v4|] eqn:Ev4; [|discriminate]. injection El as <-.
      destruct (HM x0 v0 Ev0) as (b0 & B0 & R0). destruct (HM x2 v2 Ev2) as (b2 & B2 & R2).
      destruct (HM x3 v3 Ev3) as (b3 & B3 & R3). destruct (HM x4 v4 Ev4) as (b4 & B4 & R4). unfold onT in B0, B2, B3, B4.
      set (bF := BF (rev (sh F)) (map (fun x => x) (put F))).
      assert (RF : rep (VF F) bF) by (unfold bF; cbn [rep]; apply (put_ok Qeq (fun x => x)); [exact NF|reflexivity]).
      assert (Xc : exec8 kt tfl o [b0; bF; b2; b3; b4] (ty (T r)) (rep v)).
      { apply (exec8_ok kt tfl o [v0; VF F; v2; v3; v4]); auto.
        constructor; [exact R0|]. constructor; [exact RF|]. constructor; [exact R2|]. constructor; [exact R3|]. constructor; [exact R4|]. constructor. }
      (* both forms *)
      assert (K : exists ti d l, v0 = VBits ti /\ b0 = BW d l /\ length (sh F) = 4%nat /\ (ca_padv c = 0 \/ ca_padv c = 1) /\
                 conv_exec (tab (T r)) kt c d l (rev (sh F)) (map (fun x => x) (put F)) b2 b3 b4 (rep v)).
      { assert (G4 : forall ti g, bc_geom c (sh ti) (sh F) = Some g -> op_ok kt (OConv c) [VBits ti; VF F; v2; v3; v4] -> length (sh F) = 4%nat /\ (ca_padv c = 0 \/ ca_padv c = 1)).
        { intros ti g Hg Hk. destruct (bc_geom_inv _ _ _ _ Hg) as (C & W & H & N & ci & KW & KH & Co & Si & Sf & _).
          cbn [op_ok] in Hk. rewrite Si, Sf in Hk. rewrite Sf. split; [reflexivity|]. tauto. }
        unfold typed8 in Ht. cbn [iid iop iargs fst snd] in Ht. unfold erase in Ee. unfold exec8 in Xc. unfold op_ok8 in Ho.
        destruct (k8 o) as [[s z|s z|z|s z|c' s z]|] eqn:E8; try discriminate Ee; try (subst o; discriminate E8).
        - injection Ee as ->. destruct Ht as (-> & Ht). rewrite Ht. destruct Ho as (_ & Ho & _).
          change (lc8_fun c s z [v0; VF F; v2; v3; v4] = Some v) in Ed. unfold lc8_fun in Ed.
          destruct v0 as [|ti| | |]; try discriminate. destruct v2 as [tm| | | |]; try discriminate. destruct v3 as [tb| | | |]; try discriminate. destruct v4; try discriminate.
          destruct b0 as [|d l| | |]; try contradiction R0. destruct b4; try contradiction R4.
          destruct (bc_float c ti F tm tb) as [u|] eqn:Eu; [|discriminate]. destruct (bc_float_inv _ _ _ _ _ _ Eu) as (g & Co & Hg & _).
          destruct (G4 ti g Hg Ho) as [G1 G2]. exists ti, d, l. unfold bF in Xc. auto 10.
        - subst o. rewrite Ht. cbn [denote] in Ed. destruct v0 as [|ti| | |]; try discriminate. destruct b0 as [|d l| | |]; try contradiction R0.
          assert (G : exists g, bc_geom c (sh ti) (sh F) = Some g).
          { destruct v2, v3, v4; try discriminate.
            - destruct (bc_float_inv _ _ _ _ _ _ Ed) as (g & Co & Hg & _). eauto.
            - destruct (bc_bits_inv _ _ _ _ _ Ed) as (g & Co & Hg & _). eauto. }
          destruct G as (g & Hg). destruct (G4 ti g Hg Ho) as [G1 G2]. exists ti, d, l. unfold exec, bF in Xc. auto 10. }
      destruct K as (ti & d & l & -> & -> & S4 & Hpv & Xd).
      destruct (conv_exec_node8 _ _ _ _ _ F (sh F) _ _ _ _ eq_refl S4 Xd) as (fd & fl & EB & XN).
      exists [(PF r, FWords fd fl, []); (T r, FOp (OConv c), T x0 :: PF r :: [T x2; T x3; T x4])].
      exists [(PF r, FWords fd fl, []); (T r, FCustom (custom_code "lq.Bconv2d") mm, T x0 :: PF r :: [T x2; T x3; T x4])].
      split; [cbn [pack_instr iop iid iargs fst snd]; rewrite DF, S4; cbn [Nat.eqb]; rewrite EB; reflexivity|].
      split; [unfold legalize; cbn [map seqo legalize_instr legalize_op]; rewrite E1; reflexivity|].
      intros rest P H. cbn [app frun8]. cbn [flook fexec8]. split; [reflexivity|].
      assert (U : forall y, fupd m (PF r) (BW fd fl) (T y) = m (T y)) by reflexivity. rewrite !U, B0, B2, B3, B4.
      assert (U2 : fupd m (PF r) (BW fd fl) (PF r) = Some (BW fd fl)) by (unfold fupd; cbn [tid_eqb]; rewrite Nat.eqb_refl; reflexivity).
      rewrite U2.
      change (resolve (register ur ui) (custom_code "lq.Bconv2d")) with (Some (RConv kt)). cbv iota beta. rewrite (E3 Hpv).
      unfold conv_node8 in *. intros extra Hx. destruct (XN extra Hx) as (rr & HP & HE). exists rr. split; [exact HP|].
      intros es st fb ib S X1 X2 X3 X4 X5 X6 X7 X8. eapply Eval_mono; [|exact (HE es st fb ib S X1 X2 X3 X4 X5 X6 X7 X8)].
      intros [o'|o'|o'] Ho'; cbv beta in *; try exact Ho'; apply H; apply memT_upd; auto.
  Qed.
End Step8.

Lemma fits_const8 kt ty p : forall e e' r v, eval p e = Some e' -> fits_machine8 kt ty p e -> In (r, OConst v, []) p -> storable v.
Proof.
  induction p as [|[[r o] a] p IH]; intros e e' r' v HE HF Hi; [contradiction|]. cbn [eval fits_machine8] in *.
  destruct (look e a) as [vs|] eqn:El; [|discriminate]. destruct (denote o vs) as [w|] eqn:Ed; [|discriminate].
  destruct (HF vs w eq_refl Ed) as (_ & F2 & _ & F4). destruct Hi as [E|Hi]; [|exact (IH _ _ r' v HE F4 Hi)].
  injection E as -> -> ->. cbn in El. injection El as <-. cbn in Ed. injection Ed as <-. exact F2.
Qed.
Lemma erase_conv o c : erase o = OConv c -> is_bconv o = true.
Proof.
  unfold erase, k8, is_bconv. destruct o as [v| | | | | |k ac|ac|mp ac|p|c'|x]; try discriminate; [reflexivity|].
  destruct (ek x); try discriminate. destruct k; try discriminate. reflexivity.
Qed.
Section Run8.
  Variables (ur ui : bool) (tfl : op -> list buf -> buf -> Prop) (tab : qtab) (ty : tid -> list Z) (args : list nat) (e0 : env).
  Let kt := if ur then KReference else if ui then KIndirect else KBgemm.
  Hypothesis HT : tflite_ok tfl.
  Lemma file_run8 : forall rest pre e e' ll F m,
    ssa args (pre ++ rest) -> eval pre e0 = Some e -> eval rest e = Some e' ->
    fits_machine8 kt (fun r => ty (T r)) rest e -> (forall f F, def (pre ++ rest) f = Some (OConst (VF F), []) -> nonneg (sh F)) ->
    const_filters8 (pre ++ rest) -> Forall verified8 rest -> Forall (typed8 tab) rest ->
    seqo (map (pack_instr (def (map erase_i (pre ++ rest)))) (map erase_i rest)) = Some ll -> legalize (List.concat ll) = Some F ->
    mem_ok e (onT m) -> frun8 (register ur ui) tfl tab ty F m (fun m' => mem_ok e' (onT m')).
  Proof.
    induction rest as [|[[r o] a] rest IH]; intros pre e e' ll F m HS HE0 HE HF HN HC HV HTy HL HG HM.
    - injection HL as <-. injection HG as <-. injection HE as <-. exact HM.
    - cbn [eval fits_machine8] in *. destruct (look e a) as [vs|] eqn:El; [|discriminate]. destruct (denote o vs) as [v|] eqn:Ed; [|discriminate].
      destruct (HF vs v eq_refl Ed) as (F1 & F2 & F3 & F4). inversion HV as [|? ? HV1 HV2]; subst. inversion HTy as [|? ? HT1 HT2]; subst.
      cbn [map] in HL. apply seqo_cons in HL. destruct HL as (l & ll' & L1 & L2 & ->).
      destruct (file_step8 ur ui tfl tab ty HT (def (map erase_i (pre ++ (r, o, a) :: rest))) r o a e vs v m El Ed F1 F2 F3 HV1 HT1 HM) as (l' & Fl & P1 & P2 & P3).
      { intros c x f a' Ec ->. assert (Hc := HC r o (x :: f :: a') ltac:(apply in_or_app; right; left; reflexivity)).
        assert (Hb : is_bconv o = true) by exact (erase_conv o c Ec).
        destruct (Hc Hb) as (G & DG). exists G. split; [apply def_erase_const; exact DG|]. split; [|exact (HN _ _ DG)].
        assert (Hs2 := HS). apply ssa_app in Hs2. destruct Hs2 as [HS1 HS2]. cbn [ssa] in HS2. destruct HS2 as (Ha & _).
        assert (DP := def_prefix _ _ _ _ _ HS (Ha f (or_intror (or_introl eq_refl))) DG).
        destruct (eval_def pre args e0 e f _ _ HS1 HE0 DP) as (us & u & U1 & U2 & U3 & _). cbn in U1. injection U1 as <-. cbn in U2. injection U2 as <-. exact U3. }
      assert (EQ : Some l = Some l') by (etransitivity; [symmetry; exact L1|exact P1]). injection EQ as <-.
      assert (EP : pre ++ ((r, o, a) : instr) :: rest = (pre ++ [(r, o, a)]) ++ rest) by (rewrite <- app_assoc; reflexivity).
      assert (HV2' : Forall verified (map erase_i rest)) by (rewrite Forall_map; exact HV2).
      destruct (pack_static (def (map erase_i (pre ++ (r, o, a) :: rest))) (map erase_i rest) HV2') as (ll2 & F' & Q1 & Q2 & _).
      { intros f G HD. apply (proj1 (def_erase_const _ _ _)) in HD. exact (HN f G HD). }
      assert (EQ : Some ll' = Some ll2) by (etransitivity; [symmetry; exact L2|exact Q1]). injection EQ as <-.
      assert (HG' : F = Fl ++ F').
      { cbn [List.concat] in HG. rewrite (seqo_app legalize_instr l (List.concat ll') Fl F' P2 Q2 : legalize (l ++ List.concat ll') = _) in HG. injection HG as <-. reflexivity. }
      subst F. apply P3. intros m' HM'. clear P3. rewrite EP in HS, HN, HC, L2.
      apply (IH (pre ++ [(r, o, a)]) (upd e r v) e' ll' F' m'); auto.
      etransitivity; [apply eval_app|]. rewrite HE0. cbn [eval]. rewrite El, Ed. reflexivity.
  Qed.
End Run8.

Lemma file_ok8 (ur ui : bool) tfl tab ty args p e0 e m :
  tflite_ok tfl -> ssa args p -> const_filters8 p -> Forall verified8 p -> Forall (typed8 tab) p ->
  fits_machine8 (if ur then KReference else if ui then KIndirect else KBgemm) (fun r => ty (T r)) p e0 -> eval p e0 = Some e ->
  mem_ok e0 (onT m) ->
  exists F, file8 p = Some F /\ frun8 (register ur ui) tfl tab ty F m (fun m' => mem_ok e (onT m')).
Proof.
  intros HT HS HC HV HTy HF HE HM.
  assert (HN : forall f F, def p f = Some (OConst (VF F), []) -> nonneg (sh F)).
  { intros f F HD. apply def_In in HD. exact (proj1 (fits_const8 _ _ _ _ _ _ _ HE HF HD)). }
  destruct (pack_static (def (map erase_i p)) (map erase_i p)) as (ll & F & E1 & E2 & E3).
  { rewrite Forall_map. exact HV. }
  { intros f F HD. apply (proj1 (def_erase_const _ _ _)) in HD. exact (HN f F HD). }
  exists F. unfold file8, pack_pass. rewrite E1. cbn [bind]. split; [exact E2|].
  exact (file_run8 ur ui tfl tab ty args e0 HT p [] e0 e ll F m HS eq_refl HE HF HN HC HV HTy E1 E2 HM).
Qed.
Lemma frun8_mono reg tfl tab ty p : forall m (P Q : fmem -> Prop), (forall m, P m -> Q m) -> frun8 reg tfl tab ty p m P -> frun8 reg tfl tab ty p m Q.
Proof.
  induction p as [|[[r o] a] p IH]; intros m P Q HPQ H; cbn [frun8] in *; [auto|]. destruct (flook m a) as [bs|]; [|exact H].
  unfold fexec8 in *. destruct o as [o|d l|code mm].
  - destruct H as (H1 & H2 & H3). split; [exact H1|]. split; [exact H2|]. intros b Hb. eapply IH; [exact HPQ|auto].
  - destruct H as [H1 H2]. split; [exact H1|]. eapply IH; eauto.
  - destruct (resolve reg code) as [[| |kt|]|]; [| | | |exact H].
    + destruct a as [|x [|]]; try exact H. eapply exec8_mono; [|exact H]. intros b; cbv beta; apply IH; exact HPQ.
    + eapply exec8_mono; [|exact H]. intros b; cbv beta; apply IH; exact HPQ.
    + destruct bs as [|[|d l| | |] [|[|fd fl| | |] [|mu [|bi [|th [|]]]]]]; try exact H. destruct (bconv_init mm) as [at'|]; [|exact H].
      unfold conv_node8 in *. intros extra Hx. destruct (H extra Hx) as (rr & HP & HE). exists rr. split; [exact HP|].
      intros es st fb ib S X1 X2 X3 X4 X5 X6 X7 X8. eapply Eval_mono; [|exact (HE es st fb ib S X1 X2 X3 X4 X5 X6 X7 X8)].
      intros [o|o|o] Ho; try exact Ho; eapply IH; eauto.
    + eapply exec_mono; [|exact H]. intros b; cbv beta; apply IH; exact HPQ.
Qed.
Lemma isteps_ssa S outs n p q : ssa S p -> isteps outs n p q -> ssa S q.
Proof. intros HS H. induction H as [p | n p q r H1 _ IH]; [exact HS|]. apply IH. exact (istep_ssa S outs p q HS H1). Qed.
