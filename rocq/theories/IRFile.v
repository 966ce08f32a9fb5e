(** * IRFile: from the converted program to the model file, and running the file.

    The last passes of the conversion (bitpack_weights.cc, legalize_tflite.cc), the
    pass that reads a file back into the LCE dialect (translate_tflite.cc), the
    operator registration (tflite/kernels/lce_ops_register.h), and execution of the
    file's operators: custom operators found by name, their options parsed by the
    kernels' Init, filters already packed. *)
From Coq Require Import QArith String.
From Verif Require Import Base Spec Bits Bitpack Padding Reference OutputTransform MaxPool Quantize ConvFold
  BgemmConv Prepare Options Lifecycle EndToEnd IndirectBuf IR IRProofs IRRules IRTerm IRRun IRRunProof IRRunConv IRRunTop.
Open Scope string_scope.
Open Scope list_scope.
Open Scope Z_scope.

(** Tensors of the file: those of the program, and the packed filter of the
    convolution whose result is [n]. *)
Inductive tid := T (n : nat) | PF (n : nat).
(** Operators: of a dialect, a packed constant, or a custom operator with its code
    and options. *)
Inductive fop := FOp (o : op) | FWords (d l : list Z) | FCustom (code : string) (m : fmap).
Definition finstr : Type := tid * fop * list tid.

Fixpoint seqo {A} (l : list (option A)) : option (list A) :=
  match l with
  | [] => Some []
  | x :: l' => let* a := x in let* r := seqo l' in Some (a :: r)
  end.

(** ** Packing the filters *)
(** mlir/transforms/bitpack.cc 18-55, on a constant [F] (row-major data [put F]). *)
Definition Bitpack_const (F : tensor Q) : option (list Z * list Z) :=
  match sh F with
  | [ci; KW; KH; Co] =>
      let* fl := quantize_Q (Co * KH * KW) ci (put F) (repeat 0 (Z.to_nat (Co * KH * KW * GetBitpackedSize ci))) in
      Some ([Co; KH; KW; GetBitpackedSize ci], fl)
  | _ => None
  end.
(** bitpack_weights_patterns.td 12-40, bitpack_weights.cc 24-29: a convolution whose
    filter is a rank-4 float constant gets a new, packed constant. The old constant
    stays in the file (simplified: the greedy driver erases it when nothing else uses
    it). Everything else is unchanged. *)
Definition pack_instr (D : nat -> option (op * list nat)) (i : instr) : option (list finstr) :=
  let keep := Some [(T (iid i), FOp (iop i), map T (iargs i))] in
  match iop i, iargs i with
  | OConv c, x :: f :: a =>
      match D f with
      | Some (OConst (VF F), []) =>
          if Nat.eqb (length (sh F)) 4 then
            let* (d, l) := Bitpack_const F in
            Some [(PF (iid i), FWords d l, []); (T (iid i), FOp (OConv c), T x :: PF (iid i) :: map T a)]
          else keep
      | _ => keep
      end
  | _, _ => keep
  end.
Definition pack_pass (p : list instr) : option (list finstr) :=
  let* l := seqo (map (pack_instr (def p)) p) in Some (List.concat l).

(** ** Legalising *)
(** Attribute strings, lce_ops.td 12-32 (the dialect verifies that padding is one of
    the two). *)
Definition pad_str (p : padding) : string := match p with PadSame => "SAME" | PadValid => "VALID" | PadUnknown => "" end.
Definition act_str (a : activation) : string :=
  match a with ActNone => "NONE" | ActRelu => "RELU" | ActReluN1To1 => "RELU_N1_TO_1" | ActRelu6 => "RELU6" end.
Definition bo_of (c : cattr) : bconv_op :=
  {| bo_cin := ca_cin c; bo_dh := ca_dh c; bo_dw := ca_dw c; bo_act := act_str (ca_act c); bo_pv := ca_padv c;
     bo_pad := pad_str (ca_pad c); bo_sh := ca_sh c; bo_sw := ca_sw c |}.
Definition po_of (p : pattr) : bpool_op :=
  {| po_pad := pad_str (pa_pad p); po_sw := pa_sw p; po_sh := pa_sh p; po_fw := pa_fw p; po_fh := pa_fh p |}.
(** Operation names: dialect "lq", mnemonics of lce_ops.td 86-155; custom code:
    legalize_tflite.cc 39-41, "Lce" and the name without its first three characters. *)
Definition custom_code (name : string) : string := "Lce" ++ substring 3 (String.length name - 3) name.
(** legalize_tflite.cc 23-44 and lce_ops.cc 33-63 (options; none for the first two) *)
Definition legalize_op (o : op) : option (option (string * fmap)) :=
  match o with
  | OQuant => Some (Some (custom_code "lq.Quantize", []))
  | ODequant => Some (Some (custom_code "lq.Dequantize", []))
  | OConv c => let* m := bconv_options (bo_of c) in Some (Some (custom_code "lq.Bconv2d", m))
  | OBMaxPool p => let* m := bpool_options (po_of p) in Some (Some (custom_code "lq.BMaxPool2d", m))
  | _ => Some None
  end.
Definition legalize_instr (i : finstr) : option finstr :=
  match i with
  | (r, FOp o, a) => let* c := legalize_op o in
      Some (match c with Some (code, m) => (r, FCustom code m, a) | None => (r, FOp o, a) end)
  | _ => Some i
  end.
(** legalize_tflite.cc 46-56 *)
Definition legalize (p : list finstr) : option (list finstr) := seqo (map legalize_instr p).

(** ** Reading back, translate_tflite.cc 40-87. A custom operator with another code is
    left alone (the pattern reports success nevertheless; the greedy driver gives up
    after a number of rounds, and its verdict is ignored). Missing operands ([None]):
    getOperand out of range. *)
Definition pad_of_str (s : string) : option padding :=
  if String.eqb s "SAME" then Some PadSame else if String.eqb s "VALID" then Some PadValid else None.
Definition act_of_str (s : string) : option activation :=
  if String.eqb s "NONE" then Some ActNone else if String.eqb s "RELU" then Some ActRelu
  else if String.eqb s "RELU_N1_TO_1" then Some ActReluN1To1 else if String.eqb s "RELU6" then Some ActRelu6 else None.
Definition cattr_of (o : bconv_op) : option cattr :=
  let* act := act_of_str (bo_act o) in
  let* pad := pad_of_str (bo_pad o) in
  Some {| ca_cin := bo_cin o; ca_dh := bo_dh o; ca_dw := bo_dw o; ca_act := act; ca_padv := bo_pv o; ca_pad := pad;
          ca_sh := bo_sh o; ca_sw := bo_sw o |}.
Definition pattr_of (o : bpool_op) : option pattr :=
  let* pad := pad_of_str (po_pad o) in
  Some {| pa_pad := pad; pa_sw := po_sw o; pa_sh := po_sh o; pa_fw := po_fw o; pa_fh := po_fh o |}.
Definition translate_instr (i : finstr) : option finstr :=
  match i with
  | (r, FCustom code m, a) =>
      if String.eqb code "LceQuantize" then Some (r, FOp OQuant, a)
      else if String.eqb code "LceDequantize" then Some (r, FOp ODequant, a)
      else if String.eqb code "LceBMaxPool2d" then
        let* o := translate_bpool m in
        let* p := pattr_of o in
        match a with x :: _ => Some (r, FOp (OBMaxPool p), [x]) | [] => None end
      else if String.eqb code "LceBconv2d" then
        let* o := translate_bconv m in
        let* c := cattr_of o in
        match a with x0 :: x1 :: x2 :: x3 :: x4 :: _ => Some (r, FOp (OConv c), [x0; x1; x2; x3; x4]) | _ => None end
      else Some (r, FCustom code m, a)
  | _ => Some i
  end.
Definition translate (p : list finstr) : option (list finstr) := seqo (map translate_instr p).

(** ** Running the file *)
Inductive kernel := RQuant | RDequant | RConv (kt : kernel_type) | RPool.
(** lce_ops_register.h 26-55 *)
Definition register (use_reference_bconv use_indirect_bgemm : bool) : list (string * kernel) :=
  [("LceQuantize", RQuant); ("LceDequantize", RDequant);
   ("LceBconv2d", RConv (if use_reference_bconv then KReference else if use_indirect_bgemm then KIndirect else KBgemm));
   ("LceBMaxPool2d", RPool)].
(** The op resolver (TFLite's MutableOpResolver). *)
Fixpoint resolve (reg : list (string * kernel)) (code : string) : option kernel :=
  match reg with [] => None | (c, k) :: reg' => if String.eqb code c then Some k else resolve reg' code end.

(** A convolution node with attributes [a] and the packed filter [fl] of dimensions
    [fd]: bconv2d.cc. As [conv_exec], without packing. *)
Definition world_a (a : attrs) (fd fl : list Z) (m b t : buf) (extra : list Z) : world :=
  {| wd_a := a; wd_filter_t := {| ti_type := TInt32; ti_dims := fd |}; wd_filter := fl;
     wd_mul_t := f_info m; wd_mul := f_data m; wd_bias_t := f_info b; wd_bias := f_data b;
     wd_thr_t := i_info t; wd_thr := i_data t ++ extra;
     wd_out := match t with BI _ _ => TInt32 | _ => TFloat32 end;
     wd_affine := false; wd_scale := 1%Q; wd_zp := 0 |}.
Definition conv_node (kt : kernel_type) (a : attrs) (d l fd fl : list Z) (m b t : buf) (Post : buf -> Prop) : Prop :=
  forall extra, zlen extra = 3 ->
  let w := world_a a fd fl m b t extra in
  exists r, Prepare kt (wd_a w) (node_of w d) = Some (Ok r) /\
    forall es st fb ib S,
      run_events kt w es init_state = Some st -> st_ready st = true -> st_ish st = d -> st_input st = l ->
      (kt = KIndirect -> same_setting kt w es d (st_addr st)) ->
      (wd_out w = TFloat32 -> zlen fb = elements (pr_out r)) ->
      (wd_out w <> TFloat32 -> zlen ib = elements (pr_out r)) ->
      (kt = KBgemm -> 0 < sd_kr S /\ 0 < sd_lc S /\ 0 < sd_rc S /\ sd_lc S mod 32 = 0 /\
         conv_schedule_ok (sd_kr S) (sd_lc S) (sd_rc S)
           (params_of (wd_a w) r d (ti_dims (wd_filter_t w)) (pr_out r)) l (sd_s S)) ->
      Eval kt w st fb ib S (fun o => match o with
        | OutF o => Post (BF (pr_out r) o) | OutB o => Post (BW (pr_out r) o) | OutI o => Post (BI (pr_out r) o) end).

(** One operator of the file on buffers [bs]; [od]: the dimensions the file gives the
    result. A custom operator that cannot be resolved, options that Init rejects
    (bconv2d.cc 84-131) and operators of the lq dialect fail. *)
Definition fexec (reg : list (string * kernel)) (tfl : op -> list buf -> buf -> Prop) (fo : fop) (bs : list buf) (od : list Z)
    (Post : buf -> Prop) : Prop :=
  match fo with
  | FWords d l => bs = [] /\ Post (BW d l)
  | FOp o => is_lce o = false /\ (exists b, tfl o bs b) /\ forall b, tfl o bs b -> Post b
  | FCustom code m =>
      match resolve reg code with
      | Some RQuant => exec KReference tfl OQuant bs od Post
      | Some RDequant => exec KReference tfl ODequant bs od Post
      | Some RPool =>
          let a := bpool_init m in
          exec KReference tfl (OBMaxPool {| pa_pad := Options.pa_pad a; pa_sw := Options.pa_sw a; pa_sh := Options.pa_sh a;
                                            pa_fw := Options.pa_fw a; pa_fh := Options.pa_fh a |}) bs od Post
      | Some (RConv kt) =>
          match bs, bconv_init m with
          | [BW d l; BW fd fl; mu; bi; th], Some a => conv_node kt a d l fd fl mu bi th Post
          | _, _ => False
          end
      | None => False
      end
  end.
Definition fmem := tid -> option buf.
Definition tid_eqb (x y : tid) : bool :=
  match x, y with T a, T b => Nat.eqb a b | PF a, PF b => Nat.eqb a b | _, _ => false end.
Definition fupd (m : fmem) (r : tid) (b : buf) : fmem := fun x => if tid_eqb x r then Some b else m x.
Fixpoint flook (m : fmem) (l : list tid) : option (list buf) :=
  match l with
  | [] => Some []
  | x :: l' => match m x, flook m l' with Some b, Some bs => Some (b :: bs) | _, _ => None end
  end.
(** All executions of the file from memory [m] succeed and end in [Post]. *)
Fixpoint frun (reg : list (string * kernel)) (tfl : op -> list buf -> buf -> Prop) (ty : tid -> list Z) (p : list finstr) (m : fmem)
    (Post : fmem -> Prop) : Prop :=
  match p with
  | [] => Post m
  | (r, o, a) :: p' =>
      match flook m a with
      | Some bs => fexec reg tfl o bs (ty r) (fun b => frun reg tfl ty p' (fupd m r b) Post)
      | None => False
      end
  end.

(** What the dialect verifies (lce_ops.td 124-175: I32 attributes, the padding string,
    the number of operands). *)
Definition verified (i : instr) : Prop :=
  match iop i with
  | OConv c => length (iargs i) = 5%nat /\ ca_pad c <> PadUnknown /\ i32 (ca_cin c) /\ i32 (ca_dh c) /\ i32 (ca_dw c) /\
      i32 (ca_padv c) /\ i32 (ca_sh c) /\ i32 (ca_sw c)
  | OBMaxPool p => length (iargs i) = 1%nat /\ pa_pad p <> PadUnknown /\ i32 (pa_sw p) /\ i32 (pa_sh p) /\ i32 (pa_fw p) /\ i32 (pa_fh p)
  | _ => True
  end.

(** ** Proofs *)
Lemma seqo_ok {A B} (f : A -> option B) (l : list A) : (forall x, In x l -> exists y, f x = Some y) -> exists r, seqo (map f l) = Some r.
Proof.
  induction l as [|x l IH]; intros H; [eexists; reflexivity|]. cbn [map seqo].
  destruct (H x (or_introl eq_refl)) as (y & ->). destruct IH as (r & ->); [intros z Hz; apply H; right; exact Hz|]. eexists. reflexivity.
Qed.
Lemma seqo_cons {A} (x : option A) l r : seqo (x :: l) = Some r -> exists a r', x = Some a /\ seqo l = Some r' /\ r = a :: r'.
Proof.
  cbn [seqo]. destruct x as [a|]; [|discriminate]. destruct (seqo l) as [r'|]; [|discriminate]. cbn. intros E. injection E as <-. eauto.
Qed.
Lemma seqo_app {A B} (f : A -> option B) l1 l2 r1 r2 : seqo (map f l1) = Some r1 -> seqo (map f l2) = Some r2 ->
  seqo (map f (l1 ++ l2)) = Some (r1 ++ r2).
Proof.
  revert r1. induction l1 as [|x l1 IH]; intros r1 H1 H2.
  - injection H1 as <-. exact H2.
  - cbn [map] in H1. apply seqo_cons in H1. destruct H1 as (a & r' & E1 & E2 & ->). cbn [app map seqo]. rewrite E1, (IH r' E2 H2). reflexivity.
Qed.

Lemma verified_conv c : ca_pad c <> PadUnknown -> i32 (ca_cin c) -> i32 (ca_dh c) -> i32 (ca_dw c) ->
  i32 (ca_padv c) -> i32 (ca_sh c) -> i32 (ca_sw c) ->
  exists m, bconv_options (bo_of c) = Some m /\ (exists o, translate_bconv m = Some o /\ cattr_of o = Some c) /\
    (ca_padv c = 0 \/ ca_padv c = 1 -> bconv_init m = Some (attrs_of c)).
Proof.
  intros H1 H2 H3 H4 H5 H6 H7.
  destruct (bconv_round_trip (bo_of c)) as (m & E1 & E2 & E3 & _).
  - destruct c as [cin dh dw act pv pad sh sw]. cbn in *.
    repeat split; cbn; try (apply H2 || apply H3 || apply H4 || apply H5 || apply H6 || apply H7).
    + unfold act_attr. destruct act; cbn; auto 10.
    + unfold pad_attr. destruct pad; cbn; auto. destruct H1. reflexivity.
  - cbn. destruct (ca_act c); discriminate.
  - cbn. destruct (ca_act c); discriminate.
  - exists m. split; [exact E1|]. split.
    + exists (bo_of c). split; [exact E2|]. destruct c as [cin dh dw act pv pad sh sw]. cbn in *. unfold cattr_of. cbn.
      destruct act, pad; try reflexivity; destruct H1; reflexivity.
    + intros Hp. destruct (E3 Hp) as (a & -> & A1 & A2 & A3 & A4 & A5 & A6 & A7 & A8). f_equal.
      destruct a as [x1 x2 x3 x4 x5 x6 x7 x8]. destruct c as [cin dh dw act pv pad sh sw]. cbn in *. unfold attrs_of. cbn.
      subst. f_equal.
      * unfold pad_means in A7. destruct pad; cbn in A7; intuition (discriminate || auto).
      * unfold act_means in A8. destruct act; cbn in A8; intuition (discriminate || auto).
Qed.
Lemma verified_pool p : pa_pad p <> PadUnknown -> i32 (pa_sw p) -> i32 (pa_sh p) -> i32 (pa_fw p) -> i32 (pa_fh p) ->
  exists m, bpool_options (po_of p) = Some m /\ (exists o, translate_bpool m = Some o /\ pattr_of o = Some p) /\
    let a := bpool_init m in
    {| pa_pad := Options.pa_pad a; pa_sw := Options.pa_sw a; pa_sh := Options.pa_sh a;
       pa_fw := Options.pa_fw a; pa_fh := Options.pa_fh a |} = p.
Proof.
  intros H1 H2 H3 H4 H5. destruct (bpool_round_trip (po_of p)) as (m & E1 & E2 & A1 & A2 & A3 & A4 & A5).
  - destruct p as [pad sw sh fw fh]. cbn in *. unfold bpool_verifies. cbn. split; [|auto].
    unfold pad_attr. destruct pad; cbn; auto. destruct H1. reflexivity.
  - exists m. split; [exact E1|]. split.
    + exists (po_of p). split; [exact E2|]. destruct p as [pad sw sh fw fh]. cbn in *. unfold pattr_of. cbn.
      destruct pad; try reflexivity; destruct H1; reflexivity.
    + cbv zeta. destruct p as [pad sw sh fw fh]. cbn [po_of po_pad po_sw po_sh po_fw po_fh pa_pad pa_sw pa_sh pa_fw pa_fh] in *.
      rewrite A1, A2, A3, A4. f_equal. unfold pad_means in A5. destruct pad; cbn [pad_str] in A5; intuition (discriminate || auto).
Qed.

(** Legalising a verified operator, and reading it back. *)
Lemma legalize_verified r i a : verified i -> length a = length (iargs i) ->
  exists j, legalize_instr (r, FOp (iop i), a) = Some j /\ translate_instr j = Some (r, FOp (iop i), a).
Proof.
  intros Hv Hl. unfold verified in Hv. destruct (iop i) as [v| | | | | |k ac|ac|mp ac|p|c|x]; try (eexists; split; reflexivity).
  - destruct Hv as (Hn & H1 & H2 & H3 & H4 & H5). destruct (verified_pool p H1 H2 H3 H4 H5) as (m & E1 & (o & E2 & E3) & _).
    cbn [legalize_instr legalize_op]. rewrite E1. cbn [bind]. eexists. split; [reflexivity|].
    rewrite Hn in Hl. destruct a as [|x [|]]; try discriminate.
    unfold translate_instr. change (custom_code "lq.BMaxPool2d") with "LceBMaxPool2d". cbn [String.eqb Ascii.eqb Bool.eqb].
    rewrite E2. cbn [bind]. rewrite E3. reflexivity.
  - destruct Hv as (Hn & H1 & H2 & H3 & H4 & H5 & H6 & H7). destruct (verified_conv c H1 H2 H3 H4 H5 H6 H7) as (m & E1 & (o & E2 & E3) & _).
    cbn [legalize_instr legalize_op]. rewrite E1. cbn [bind]. eexists. split; [reflexivity|].
    rewrite Hn in Hl. destruct a as [|x0 [|x1 [|x2 [|x3 [|x4 [|]]]]]]; try discriminate.
    unfold translate_instr. change (custom_code "lq.Bconv2d") with "LceBconv2d". cbn [String.eqb Ascii.eqb Bool.eqb].
    rewrite E2. cbn [bind]. rewrite E3. reflexivity.
Qed.

(** A convolution from the packed constant. *)
Lemma conv_exec_node kt c d l F f m b t Post : sh F = f -> length f = 4%nat ->
  conv_exec None kt c d l (rev f) (map (fun x => x) (put F)) m b t Post ->
  exists fd fl, Bitpack_const F = Some (fd, fl) /\ conv_node kt (attrs_of c) d l fd fl m b t Post.
Proof.
  intros Es Hl. destruct f as [|ci [|KW [|KH [|Co [|]]]]]; try discriminate. unfold conv_exec, Bitpack_const. rewrite Es. cbn [rev app].
  rewrite map_id. destruct (quantize_Q _ _ _ _) as [fl|]; [|intros []]. cbn [wp bind]. intros H. do 2 eexists. split; [reflexivity|]. exact H.
Qed.

Definition onT (m : fmem) : mem := fun x => m (T x).
Lemma flook_T m l : flook m (map T l) = mlook (onT m) l.
Proof. induction l as [|x l IH]; [reflexivity|]. cbn [map flook mlook]. rewrite IH. reflexivity. Qed.
Lemma memT_upd e m r v b : mem_ok e (onT m) -> rep v b -> mem_ok (upd e r v) (onT (fupd m (T r) b)).
Proof. intros H R. exact (mem_upd e (onT m) r v b H R). Qed.
Lemma exec_kt kt kt' tfl o bs od P : is_lce o = true -> (forall c, o <> OConv c) -> exec kt tfl o bs od P -> exec kt' tfl o bs od P.
Proof. intros H1 H2. destruct o; try discriminate; try (exact (fun H => H)). destruct (H2 c eq_refl). Qed.

Section Step.
  Variables (ur ui : bool) (tfl : op -> list buf -> buf -> Prop) (ty : tid -> list Z).
  Let kt := if ur then KReference else if ui then KIndirect else KBgemm.
  Hypothesis HT : tflite_ok tfl.

  Lemma file_step D r o a e vs v m :
    look e a = Some vs -> denote o vs = Some v -> op_ok kt o vs -> storable v -> (o = ODequant -> ty (T r) = rev (vshape v)) ->
    verified (r, o, a) -> mem_ok e (onT m) ->
    (forall c x f a', o = OConv c -> a = x :: f :: a' -> exists F, D f = Some (OConst (VF F), []) /\ e f = Some (VF F) /\ nonneg (sh F)) ->
    exists l F, pack_instr D (r, o, a) = Some l /\ legalize l = Some F /\ translate F = Some l /\
      forall rest P, (forall m', mem_ok (upd e r v) (onT m') -> frun (register ur ui) tfl ty rest m' P) ->
        frun (register ur ui) tfl ty (F ++ rest) m P.
  Proof.
    intros El Ed Ho Hs Hod Hv HM Hf. destruct (mlook_ok e (onT m) a vs HM El) as (bs & Eb & Rs).
    destruct (legalize_verified (T r) (r, o, a) (map T a) Hv) as (j & Ej & Tj); [apply map_length|]. cbn [iop iargs fst snd] in Ej, Tj.
    assert (X := exec_ok kt tfl o vs bs (ty (T r)) v HT Rs Ed Ho Hs Hod).
    destruct (is_lce o) eqn:EL.
    2:{ (* builtin *)
      assert (Ep : pack_instr D (r, o, a) = Some [(T r, FOp o, map T a)]) by (destruct o; try discriminate; reflexivity).
      assert (Ej' : j = (T r, FOp o, map T a)) by (destruct o; try discriminate; injection Ej as <-; reflexivity).
      subst j. exists [(T r, FOp o, map T a)], [(T r, FOp o, map T a)]. split; [exact Ep|].
      unfold legalize, translate. cbn [map seqo]. rewrite Ej, Tj. split; [reflexivity|]. split; [reflexivity|].
      intros rest P H. cbn [app frun]. rewrite flook_T, Eb.
      assert (Z : is_lce o = false /\ (exists b, tfl o bs b) /\ forall b, tfl o bs b -> rep v b).
      { destruct o; try discriminate; exact X. }
      destruct Z as (Z1 & Z2 & Z3). split; [exact Z1|]. split; [exact Z2|]. intros b Hb. apply H. apply memT_upd; auto. }
    destruct o as [w| | | | | |k ac|ac|mp ac|p|c|x]; try discriminate EL.
    - (* Quantize *)
      injection Ej as <-. exists [(T r, FOp OQuant, map T a)], [(T r, FCustom (custom_code "lq.Quantize") [], map T a)]. split; [reflexivity|]. split; [reflexivity|]. split; [reflexivity|].
      intros rest P H. cbn [app frun]. rewrite flook_T, Eb. unfold fexec.
      change (resolve (register ur ui) (custom_code "lq.Quantize")) with (Some RQuant). cbv iota.
      eapply exec_mono; [|exact (exec_kt kt KReference tfl OQuant bs _ _ eq_refl ltac:(discriminate) X)].
      intros b Rb. apply H. apply memT_upd; assumption.
    - injection Ej as <-. exists [(T r, FOp ODequant, map T a)], [(T r, FCustom (custom_code "lq.Dequantize") [], map T a)]. split; [reflexivity|]. split; [reflexivity|]. split; [reflexivity|].
      intros rest P H. cbn [app frun]. rewrite flook_T, Eb. unfold fexec.
      change (resolve (register ur ui) (custom_code "lq.Dequantize")) with (Some RDequant). cbv iota.
      eapply exec_mono; [|exact (exec_kt kt KReference tfl ODequant bs _ _ eq_refl ltac:(discriminate) X)].
      intros b Rb. apply H. apply memT_upd; assumption.
    - (* pool *)
      destruct Hv as (Hn & H1 & H2 & H3 & H4 & H5). destruct (verified_pool p H1 H2 H3 H4 H5) as (mm & E1 & _ & E3). cbv zeta in E3.
      cbn [legalize_instr legalize_op] in Ej. rewrite E1 in Ej. cbn [bind] in Ej. injection Ej as <-.
      exists [(T r, FOp (OBMaxPool p), map T a)], [(T r, FCustom (custom_code "lq.BMaxPool2d") mm, map T a)]. split; [reflexivity|].
      split; [unfold legalize; cbn [map seqo legalize_instr legalize_op]; rewrite E1; reflexivity|].
      split; [unfold translate; cbn [map seqo]; rewrite Tj; reflexivity|].
      intros rest P H. cbn [app frun]. rewrite flook_T, Eb. unfold fexec.
      change (resolve (register ur ui) (custom_code "lq.BMaxPool2d")) with (Some RPool). cbv iota zeta. rewrite E3.
      eapply exec_mono; [|exact (exec_kt kt KReference tfl (OBMaxPool p) bs _ _ eq_refl ltac:(discriminate) X)].
      intros b Rb. apply H. apply memT_upd; assumption.
    - (* convolution *)
      destruct Hv as (Hn & H1 & H2 & H3 & H4 & H5 & H6 & H7). cbn [iop iargs fst snd] in *.
      destruct (verified_conv c H1 H2 H3 H4 H5 H6 H7) as (mm & E1 & _ & E3).
      cbn [legalize_instr legalize_op] in Ej. rewrite E1 in Ej. cbn [bind] in Ej. injection Ej as <-.
      destruct a as [|x0 [|x1 [|x2 [|x3 [|x4 [|]]]]]]; try discriminate Hn. clear Hn.
      destruct (Hf c x0 x1 _ eq_refl eq_refl) as (F & DF & EF & NF).
      (* the values *)
      cbn [look] in El. destruct (e x0) as [v0|] eqn:Ev0; [|discriminate]. rewrite EF in El.
      destruct (e x2) as [v2|] eqn:Ev2; [|discriminate]. destruct (e x3) as [v3|] eqn:Ev3; [|discriminate].
      destruct (e x4) as [v4|] eqn:Ev4; [|discriminate]. injection El as <-.
      destruct (HM x0 v0 Ev0) as (b0 & B0 & R0). destruct (HM x2 v2 Ev2) as (b2 & B2 & R2).
      destruct (HM x3 v3 Ev3) as (b3 & B3 & R3). destruct (HM x4 v4 Ev4) as (b4 & B4 & R4). unfold onT in B0, B2, B3, B4.
      set (bF := BF (rev (sh F)) (map (fun x => x) (put F))).
      assert (RF : rep (VF F) bF) by (unfold bF; cbn [rep]; apply (put_ok Qeq (fun x => x)); [exact NF|reflexivity]).
      assert (Xc : exec kt tfl (OConv c) [b0; bF; b2; b3; b4] (ty (T r)) (rep v)).
      { apply (exec_ok kt tfl (OConv c) [v0; VF F; v2; v3; v4]); auto.
        constructor; [exact R0|]. constructor; [exact RF|]. constructor; [exact R2|]. constructor; [exact R3|]. constructor; [exact R4|]. constructor. }
      assert (V0 : exists ti, v0 = VBits ti).
      { destruct v0; try (cbn in Ed; discriminate). eauto. }
      destruct V0 as (ti & ->). destruct b0 as [|d l| | |]; try contradiction R0.
      (* shape of the filter, pad value *)
      assert (S4 : length (sh F) = 4%nat /\ (ca_padv c = 0 \/ ca_padv c = 1)).
      { assert (G : exists g, bc_geom c (sh ti) (sh F) = Some g).
        { cbn [denote] in Ed. destruct v2, v3, v4; try discriminate.
          - destruct (bc_float_inv _ _ _ _ _ _ Ed) as (g & Co & Hg & _). eauto.
          - destruct (bc_bits_inv _ _ _ _ _ Ed) as (g & Co & Hg & _). eauto. }
        destruct G as (g & Hg). destruct (bc_geom_inv _ _ _ _ Hg) as (C & W & H & N & ci & KW & KH & Co & Si & Sf & _).
        cbn [op_ok] in Ho. rewrite Si, Sf in Ho. rewrite Sf. split; [reflexivity|]. tauto. }
      destruct S4 as [S4 Hpv]. unfold exec, bF in Xc.
      destruct (conv_exec_node _ _ _ _ F (sh F) _ _ _ _ eq_refl S4 Xc) as (fd & fl & EB & XN).
      exists [(PF r, FWords fd fl, []); (T r, FOp (OConv c), T x0 :: PF r :: [T x2; T x3; T x4])].
      exists [(PF r, FWords fd fl, []); (T r, FCustom (custom_code "lq.Bconv2d") mm, T x0 :: PF r :: [T x2; T x3; T x4])].
      split; [cbn [pack_instr iop iid iargs fst snd]; rewrite DF, S4; cbn [Nat.eqb]; rewrite EB; reflexivity|].
      split; [unfold legalize; cbn [map seqo legalize_instr legalize_op]; rewrite E1; reflexivity|]. split.
      { unfold translate. cbn [map seqo].
        destruct (legalize_verified (T r) (r, OConv c, [x0; x1; x2; x3; x4]) (T x0 :: PF r :: [T x2; T x3; T x4])) as (j & Ej & Tj'); [|reflexivity|].
        - split; [reflexivity|]. auto 10.
        - cbn [legalize_instr legalize_op iop fst snd] in Ej. rewrite E1 in Ej. cbn [bind] in Ej. injection Ej as <-.
          cbn [iop fst snd] in Tj'. rewrite Tj'. reflexivity. }
      intros rest P H. cbn [app frun]. cbn [flook fexec]. split; [reflexivity|].
      assert (U : forall y, fupd m (PF r) (BW fd fl) (T y) = m (T y)) by reflexivity. rewrite !U, B0, B2, B3, B4.
      assert (U2 : fupd m (PF r) (BW fd fl) (PF r) = Some (BW fd fl)) by (unfold fupd; cbn [tid_eqb]; rewrite Nat.eqb_refl; reflexivity).
      rewrite U2.
      change (resolve (register ur ui) (custom_code "lq.Bconv2d")) with (Some (RConv kt)). cbv iota beta. rewrite (E3 Hpv).
      unfold conv_node in *. intros extra Hx. destruct (XN extra Hx) as (rr & HP & HE). exists rr. split; [exact HP|].
      intros es st fb ib S X1 X2 X3 X4 X5 X6 X7 X8. eapply Eval_mono; [|exact (HE es st fb ib S X1 X2 X3 X4 X5 X6 X7 X8)].
      intros [o|o|o] Ho'; cbv beta in *; try exact Ho'; apply H; apply memT_upd; auto.
  Qed.
End Step.

(** The passes succeed on every verified program. *)
Lemma pack_const_ok F : nonneg (sh F) -> length (sh F) = 4%nat -> exists d l, Bitpack_const F = Some (d, l).
Proof.
  intros HN HL. destruct (sh F) as [|ci [|KW [|KH [|Co [|]]]]] eqn:Es; try discriminate.
  assert (H : holds Qeq F (rev (sh F)) (map (fun x => x) (put F))) by (apply (put_ok Qeq (fun x => x)); [rewrite Es; exact HN|reflexivity]).
  destruct (pack_filter F _ _ ci KW KH Co H Es) as [_ W]. rewrite map_id in W. unfold Bitpack_const. rewrite Es.
  destruct (quantize_Q _ _ _ _) as [fl|]; [|contradiction W]. cbn [bind]. eauto.
Qed.
Lemma static_one r i a : verified i -> length a = length (iargs i) ->
  exists F, legalize [(r, FOp (iop i), a)] = Some F /\ translate F = Some [(r, FOp (iop i), a)].
Proof.
  intros Hv Hl. destruct (legalize_verified r i a Hv Hl) as (j & E1 & E2). exists [j]. unfold legalize, translate. cbn [map seqo]. rewrite E1, E2. auto.
Qed.
Lemma file_static D i : verified i -> (forall f F, In f (iargs i) -> D f = Some (OConst (VF F), []) -> nonneg (sh F)) ->
  exists l F, pack_instr D i = Some l /\ legalize l = Some F /\ translate F = Some l.
Proof.
  intros Hv HN. destruct (static_one (T (iid i)) i (map T (iargs i)) Hv (map_length _ _)) as (F0 & K1 & K2).
  assert (Keep : exists l F, Some [(T (iid i), FOp (iop i), map T (iargs i))] = Some l /\ legalize l = Some F /\ translate F = Some l) by eauto.
  unfold pack_instr. destruct (iop i) as [v| | | | | |k ac|ac|mp ac|p|c|x] eqn:Eo; try exact Keep.
  destruct (iargs i) as [|x [|f a]] eqn:Ea; try exact Keep. destruct (D f) as [[[[F| | | |]| | | | | | | | | | |] [|]]|] eqn:ED; try exact Keep.
  destruct (Nat.eqb_spec (length (sh F)) 4) as [E4|]; [|exact Keep].
  destruct (pack_const_ok F (HN f F (or_intror (or_introl eq_refl)) ED) E4) as (d & l & EB). rewrite EB. cbn [bind].
  destruct (static_one (T (iid i)) i (T x :: PF (iid i) :: map T a) Hv) as (F1 & L1 & L2); [rewrite Ea; cbn [length]; rewrite map_length; reflexivity|].
  rewrite Eo in L1, L2. exists [(PF (iid i), FWords d l, []); (T (iid i), FOp (OConv c), T x :: PF (iid i) :: map T a)], ((PF (iid i), FWords d l, []) :: F1).
  split; [reflexivity|].
  set (w := (PF (iid i), FWords d l, []) : finstr).
  split; [exact (seqo_app legalize_instr [w] _ [w] _ eq_refl L1)|exact (seqo_app translate_instr [w] _ [w] _ eq_refl L2)].
Qed.
Lemma pack_static D p : Forall verified p -> (forall f F, D f = Some (OConst (VF F), []) -> nonneg (sh F)) ->
  exists ll F, seqo (map (pack_instr D) p) = Some ll /\ legalize (List.concat ll) = Some F /\ translate F = Some (List.concat ll).
Proof.
  intros Hv HN. induction Hv as [|i p Hi _ (ll & F & I1 & I2 & I3)]; [exists [], []; auto|].
  destruct (file_static D i Hi) as (l & F1 & E1 & E2 & E3); [intros f F' _; apply HN|]. exists (l :: ll), (F1 ++ F).
  cbn [map seqo List.concat]. rewrite E1, I1. split; [reflexivity|]. split; [apply seqo_app; assumption|apply seqo_app; assumption].
Qed.

Lemma fits_const kt ty p : forall e e' r v, eval p e = Some e' -> fits_machine kt ty p e -> In (r, OConst v, []) p -> storable v.
Proof.
  induction p as [|[[r o] a] p IH]; intros e e' r' v HE HF Hi; [contradiction|]. cbn [eval fits_machine] in *.
  destruct (look e a) as [vs|] eqn:El; [|discriminate]. destruct (denote o vs) as [w|] eqn:Ed; [|discriminate].
  destruct (HF vs w eq_refl Ed) as (_ & F2 & _ & F4). destruct Hi as [E|Hi]; [|exact (IH _ _ r' v HE F4 Hi)].
  injection E as -> -> ->. cbn in El. injection El as <-. cbn in Ed. injection Ed as <-. exact F2.
Qed.
Lemma def_In p x o a : def p x = Some (o, a) -> In (x, o, a) p.
Proof.
  unfold def. destruct (find _ p) as [[[y o'] a']|] eqn:E; [|discriminate]. intros H. injection H as <- <-.
  apply find_some in E. destruct E as [E1 E2]. apply Nat.eqb_eq in E2. cbn in E2. subst. exact E1.
Qed.
Lemma def_prefix args pre rest x z : ssa args (pre ++ rest) -> In x (rev (map iid pre) ++ args) -> def (pre ++ rest) x = Some z -> def pre x = Some z.
Proof.
  intros HS Hx. assert (HS' := HS). apply ssa_app in HS. destruct HS as [H1 H2]. unfold def.
  assert (N : ~ In x (map iid rest)) by (intros C; exact (ssa_notin _ _ H2 x C Hx)). clear - N.
  induction pre as [|i pre IH]; cbn [app find].
  - intros H. exfalso. apply N. destruct (find _ rest) as [j|] eqn:E; [|discriminate]. apply find_some in E. destruct E as [E1 E2].
    apply Nat.eqb_eq in E2. subst x. apply in_map. exact E1.
  - destruct (Nat.eqb (iid i) x); [auto|exact IH].
Qed.
Lemma eval_app p q e : eval (p ++ q) e = match eval p e with Some e1 => eval q e1 | None => None end.
Proof.
  revert e. induction p as [|[[r o] a] p IH]; intros e; [reflexivity|]. cbn [app eval]. destruct (look e a); [|reflexivity].
  destruct (denote o l); [apply IH|reflexivity].
Qed.

Section Run.
  Variables (ur ui : bool) (tfl : op -> list buf -> buf -> Prop) (ty : tid -> list Z) (args : list nat) (e0 : env).
  Let kt := if ur then KReference else if ui then KIndirect else KBgemm.
  Hypothesis HT : tflite_ok tfl.
  Lemma file_run : forall rest pre e e' ll F m,
    ssa args (pre ++ rest) -> eval pre e0 = Some e -> eval rest e = Some e' ->
    fits_machine kt (fun r => ty (T r)) rest e -> (forall f F, def (pre ++ rest) f = Some (OConst (VF F), []) -> nonneg (sh F)) ->
    const_filters (pre ++ rest) -> Forall verified rest ->
    seqo (map (pack_instr (def (pre ++ rest))) rest) = Some ll -> legalize (List.concat ll) = Some F ->
    mem_ok e (onT m) -> frun (register ur ui) tfl ty F m (fun m' => mem_ok e' (onT m')).
  Proof.
    induction rest as [|[[r o] a] rest IH]; intros pre e e' ll F m HS HE0 HE HF HN HC HV HL HG HM.
    - injection HL as <-. injection HG as <-. injection HE as <-. exact HM.
    - cbn [eval fits_machine] in *. destruct (look e a) as [vs|] eqn:El; [|discriminate]. destruct (denote o vs) as [v|] eqn:Ed; [|discriminate].
      destruct (HF vs v eq_refl Ed) as (F1 & F2 & F3 & F4). inversion HV as [|? ? HV1 HV2]; subst.
      cbn [map] in HL. apply seqo_cons in HL. destruct HL as (l & ll' & L1 & L2 & ->).
      destruct (file_step ur ui tfl ty HT (def (pre ++ (r, o, a) :: rest)) r o a e vs v m El Ed F1 F2 F3 HV1 HM) as (l' & Fl & P1 & P2 & _ & P3).
      { intros c x f a' -> ->. assert (Hc := HC r (OConv c) (x :: f :: a') ltac:(apply in_or_app; right; left; reflexivity)).
        cbn [filter_const] in Hc. destruct Hc as (G & DG). exists G. split; [exact DG|]. split; [|exact (HN _ _ DG)].
        assert (Hs2 := HS). apply ssa_app in Hs2. destruct Hs2 as [HS1 HS2]. cbn [ssa] in HS2. destruct HS2 as (Ha & _).
        assert (DP := def_prefix _ _ _ _ _ HS (Ha f (or_intror (or_introl eq_refl))) DG).
        destruct (eval_def pre args e0 e f _ _ HS1 HE0 DP) as (us & u & U1 & U2 & U3 & _). cbn in U1. injection U1 as <-. cbn in U2. injection U2 as <-. exact U3. }
      assert (EQ : Some l = Some l') by (etransitivity; [symmetry; exact L1|exact P1]). injection EQ as <-.
      assert (EP : pre ++ ((r, o, a) : instr) :: rest = (pre ++ [(r, o, a)]) ++ rest) by (rewrite <- app_assoc; reflexivity).
      destruct (pack_static (def (pre ++ (r, o, a) :: rest)) rest HV2 HN) as (ll2 & F' & Q1 & Q2 & _).
      assert (EQ : Some ll' = Some ll2) by (etransitivity; [symmetry; exact L2|exact Q1]). injection EQ as <-.
      assert (HG' : F = Fl ++ F').
      { cbn [List.concat] in HG. rewrite (seqo_app legalize_instr l (List.concat ll') Fl F' P2 Q2 : legalize (l ++ List.concat ll') = _) in HG. injection HG as <-. reflexivity. }
      subst F. apply P3. intros m' HM'. clear P3. rewrite EP in HS, HN, HC, L2.
      apply (IH (pre ++ [(r, o, a)]) (upd e r v) e' ll' F' m'); auto.
      etransitivity; [apply eval_app|]. rewrite HE0. cbn [eval]. rewrite El, Ed. reflexivity.
  Qed.
End Run.

Lemma file_ok (ur ui : bool) tfl ty args p e0 e m :
  tflite_ok tfl -> ssa args p -> const_filters p -> Forall verified p ->
  fits_machine (if ur then KReference else if ui then KIndirect else KBgemm) (fun r => ty (T r)) p e0 -> eval p e0 = Some e ->
  mem_ok e0 (onT m) ->
  exists q F, pack_pass p = Some q /\ legalize q = Some F /\ translate F = Some q /\
    frun (register ur ui) tfl ty F m (fun m' => mem_ok e (onT m')).
Proof.
  intros HT HS HC HV HF HE HM.
  assert (HN : forall f F, def p f = Some (OConst (VF F), []) -> nonneg (sh F)).
  { intros f F HD. apply def_In in HD. exact (proj1 (fits_const _ _ _ _ _ _ _ HE HF HD)). }
  destruct (pack_static (def p) p HV HN) as (ll & F & E1 & E2 & E3). exists (List.concat ll), F.
  unfold pack_pass. rewrite E1. split; [reflexivity|]. split; [exact E2|]. split; [exact E3|].
  exact (file_run ur ui tfl ty args e0 HT p [] e0 e ll F m HS eq_refl HE HF HN HC HV E1 E2 HM).
Qed.
