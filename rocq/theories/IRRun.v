(** * IRRun: running a converted program in memory, with the modelled LCE kernels.

    [run] executes a program of IR.v the way the interpreter executes the
    flatbuffer: every value lives in a buffer (row-major, bitpacked where the IR type
    is bits), the four LCE operators run the kernels modelled in Quantize.v,
    MaxPool.v, Prepare.v and Lifecycle.v, and every other operator is a TFLite
    builtin, a parameter of the model. *)
From Coq Require Import QArith.
From Verif Require Import Base Spec Bits Bitpack Padding Reference OutputTransform MaxPool Quantize ConvFold
  BgemmConv Prepare Lifecycle EndToEnd IndirectBuf IR IRRules.
Open Scope Z_scope.

(** ** Buffers. A tensor in memory: its dimensions (outermost first, as TfLiteIntArray
    has them) and its data: floats, bitpacked words, bools (bytes), int32; or an
    absent optional tensor. *)
Inductive buf :=
| BF (d : list Z) (l : list Q) | BW (d : list Z) (l : list Z)
| BB (d : list Z) (l : list Z) | BI (d : list Z) (l : list Z) | BN.

(** A buffer holds a value: same dimensions (for bits, the innermost one counts
    words), the right length, and the element with index [i] at its row-major
    offset (for bits: bit [c mod 32] of word [c / 32] of its row, unused bits zero). *)
Definition nonneg (s : list Z) : Prop := Forall (fun d => 0 <= d) s.
Definition holds {A B} (R : A -> B -> Prop) (t : tensor A) (d : list Z) (l : list B) : Prop :=
  nonneg (sh t) /\ d = rev (sh t) /\ zlen l = numel (sh t) /\
  forall i, in_range (sh t) i -> exists x, rd l (ravel (sh t) i) = Some x /\ R (at_ t i) x.
Definition byte_bool (b : bool) (x : Z) : Prop := 0 <= x <= 255 /\ b = negb (x =? 0).
Definition rep (v : value) (b : buf) : Prop :=
  match v, b with
  | VF t, BF d l => holds Qeq t d l
  | VBits t, BW d l =>
      match sh t with
      | [] => False
      | C :: s => nonneg (sh t) /\ d = rev (words C :: s) /\ packed l (numel s) C /\
          forall c i, in_range (C :: s) (c :: i) -> bit_of l (words C) (ravel s i) c = at_ t (c :: i)
      end
  | VBool t, BB d l => holds byte_bool t d l /\ forall i x, rd l i = Some x -> 0 <= x <= 255
  | VInt t, BI d l => holds eq t d l
  | VNone, BN => True
  | _, _ => False
  end.

(** ** One operator *)
(** The operators LCE implements itself. *)
Definition is_lce (o : op) : bool :=
  match o with OQuant | ODequant | OBMaxPool _ | OConv _ => true | _ => false end.

(** The attributes in the flatbuffer (ir/lce_ops.cc buildCustomOptions; bconv2d.cc 47-106). *)
Definition attrs_of (c : cattr) : attrs :=
  {| at_sh := ca_sh c; at_sw := ca_sw c; at_dh := ca_dh c; at_dw := ca_dw c;
     at_pad := ca_pad c; at_pv := ca_padv c; at_cin := ca_cin c; at_act := ca_act c |}.
Definition f_info (b : buf) : tinfo :=
  match b with BF d _ => {| ti_type := TFloat32; ti_dims := d |} | _ => {| ti_type := TOther; ti_dims := [] |} end.
Definition f_data (b : buf) : list Q := match b with BF _ l => l | _ => [] end.
Definition i_info (b : buf) : tinfo :=
  match b with BI d _ => {| ti_type := TInt32; ti_dims := d |} | _ => {| ti_type := TOther; ti_dims := [] |} end.
Definition i_data (b : buf) : list Z := match b with BI _ l => l | _ => [] end.
(** The node's constant tensors; bitpacked output exactly when there are thresholds
    (bitpack_activations_patterns.td sets the output type and the threshold operand
    together); int8 output with the scale and zero point [oq] of the output tensor if
    there are any (C74). [extra]: what lies in memory behind the thresholds, which the
    indirect kernel reads (finding on C22). *)
Definition world_of (oq : option (Q * Z)) (c : cattr) (fd : list Z) (fl : list Z) (m b t : buf) (extra : list Z) : world :=
  {| wd_a := attrs_of c; wd_filter_t := {| ti_type := TInt32; ti_dims := fd |}; wd_filter := fl;
     wd_mul_t := f_info m; wd_mul := f_data m; wd_bias_t := f_info b; wd_bias := f_data b;
     wd_thr_t := i_info t; wd_thr := i_data t ++ extra;
     wd_out := match oq, t with Some _, _ => TInt8 | None, BI _ _ => TInt32 | _, _ => TFloat32 end;
     wd_affine := match oq with Some _ => true | None => false end;
     wd_scale := match oq with Some (s, _) => s | None => 1%Q end; wd_zp := match oq with Some (_, z) => z | None => 0 end |}.

(** lq.Bconv2d on an input buffer: the converter packs the filter
    (bitpack_weights_patterns.td 9-24, core/bitpacking/bitpack.h via
    mlir/transforms/bitpack.cc 13-39); Prepare must accept the node; then Eval, in
    whatever state the node is in after any history of resizes, allocations and
    invocations, with any legal BGEMM schedule and any contents of the output buffer.
    For the indirect kernel, earlier invocations must have seen this input's shape and
    address (C29). *)
Definition conv_exec (oq : option (Q * Z)) (kt : kernel_type) (c : cattr) (d l : list Z) (fd : list Z) (f : list Q) (m b t : buf)
    (Post : buf -> Prop) : Prop :=
  match fd with
  | [Co; KH; KW; ci] =>
      wp (quantize_Q (Co * KH * KW) ci f (repeat 0 (Z.to_nat (Co * KH * KW * GetBitpackedSize ci)))) (fun fl =>
        forall extra, zlen extra = 3 ->
        let w := world_of oq c [Co; KH; KW; GetBitpackedSize ci] fl m b t extra in
        exists r, Prepare kt (wd_a w) (node_of w d) = Some (Ok r) /\
          forall es st fb ib S,
            run_events kt w es init_state = Some st -> st_ready st = true -> st_ish st = d -> st_input st = l ->
            (kt = KIndirect -> same_setting kt w es d (st_addr st)) ->
            (wd_out w = TFloat32 -> zlen fb = elements (pr_out r)) ->
            (wd_out w <> TFloat32 -> zlen ib = elements (pr_out r)) ->
            (kt = KBgemm -> 0 < sd_kr S /\ 0 < sd_lc S /\ 0 < sd_rc S /\ sd_lc S mod 32 = 0 /\
               conv_schedule_ok (sd_kr S) (sd_lc S) (sd_rc S)
                 (params_of (wd_a w) r d (ti_dims (wd_filter_t w)) (pr_out r)) l (sd_s S)) ->
            Eval kt w st fb ib S (fun o => match o with
              | OutF o => Post (BF (pr_out r) o) | OutB o => Post (BW (pr_out r) o) | OutI o => Post (BI (pr_out r) o) end))
  | _ => False
  end.

(** Must-semantics of one operator on buffers [bs]; [od]: the dimensions the
    flatbuffer gives the result (LceDequantize reads its channel count from there).
    quantization.cc 20-79 (shapes), 80-139 (Eval); bmaxpool.cc 40-90. *)
Definition exec (kt : kernel_type) (tfl : op -> list buf -> buf -> Prop) (o : op) (bs : list buf) (od : list Z)
    (Post : buf -> Prop) : Prop :=
  match o, bs with
  | OQuant, [BF d l] =>
      match rev d with
      | C :: s => forall out, zlen out = numel s * GetBitpackedSize C ->
          wp (quantize_Q (numel s) C l out) (fun o => Post (BW (rev (GetBitpackedSize C :: s)) o))
      | [] => False
      end
  | OQuant, [BB d l] =>
      match rev d with
      | C :: s => forall out, zlen out = numel s * GetBitpackedSize C ->
          wp (quantize_bool (numel s) C l out) (fun o => Post (BW (rev (GetBitpackedSize C :: s)) o))
      | [] => False
      end
  | ODequant, [BW d l] =>
      match rev d, rev od with
      | W :: s, C :: s' => s' = s /\ W = GetBitpackedSize C /\
          forall out, zlen out = numel s * C -> wp (dequantize_Q (numel s) C l out) (fun o => Post (BF od o))
      | _, _ => False
      end
  | OBMaxPool p, [BW d l] =>
      match d with
      | [b; h; w; k] =>
          wp (pool_prepare (pa_pad p) b h w k (pa_fh p) (pa_fw p) (pa_sh p) (pa_sw p)) (fun q =>
            forall out, zlen out = b * moh q * mow q * k ->
              wp (BMaxPool q l out) (fun o => Post (BW [b; moh q; mow q; k] o)))
      | _ => False
      end
  | OConv c, [BW d l; BF fd f; m; b; t] => conv_exec None kt c d l fd f m b t Post
  | o, bs => is_lce o = false /\ (exists b, tfl o bs b) /\ forall b, tfl o bs b -> Post b
  end.

(** ** Whole programs *)
Definition mem := nat -> option buf.
Definition mupd (m : mem) (r : nat) (b : buf) : mem := fun x => if Nat.eqb x r then Some b else m x.
Fixpoint mlook (m : mem) (l : list nat) : option (list buf) :=
  match l with
  | [] => Some []
  | x :: l' => match m x, mlook m l' with Some b, Some bs => Some (b :: bs) | _, _ => None end
  end.
(** The filter of a convolution must be a constant: only then does the converter pack
    it (bitpack_weights_patterns.td 12-13). *)
Definition filter_const (D : nat -> option (op * list nat)) (o : op) (a : list nat) : Prop :=
  match o, a with OConv _, _ :: f :: _ => exists t, D f = Some (OConst (VF t), []) | _, _ => True end.

(** All executions of [p] from memory [m] succeed and end in a memory satisfying
    [Post]. [D]: definitions of the whole program; [ty]: dimensions of each tensor in
    the flatbuffer. *)
Fixpoint run (kt : kernel_type) (tfl : op -> list buf -> buf -> Prop) (D : nat -> option (op * list nat))
    (ty : nat -> list Z) (p : list instr) (m : mem) (Post : mem -> Prop) : Prop :=
  match p with
  | [] => Post m
  | (r, o, a) :: p' =>
      filter_const D o a /\
      match mlook m a with
      | Some bs => exec kt tfl o bs (ty r) (fun b => run kt tfl D ty p' (mupd m r b) Post)
      | None => False
      end
  end.

(** ** What the kernels need *)
(** TFLite's builtins do what IR.v says they do, on representable values that are not
    bitpacked. *)
Definition storable (v : value) : Prop := nonneg (vshape v) /\ match v with VBits t => sh t <> [] | _ => True end.
Definition is_bits (v : value) : bool := match v with VBits _ => true | _ => false end.
Definition tflite_ok (tfl : op -> list buf -> buf -> Prop) : Prop :=
  forall o vs v bs, is_lce o = false -> Forall (fun u => is_bits u = false) vs ->
    denote o vs = Some v -> storable v -> Forall2 rep vs bs ->
    (exists b, tfl o bs b) /\ forall b, tfl o bs b -> rep v b.

(** The indirect kernel computes input columns in int32 (indirect_bgemm.h's
    FastBoundsCheck; C17). *)
Definition indirect_fits (g : geom) : Prop :=
  0 <= gW g < 2 ^ 31 /\
  forall ox fx, 0 <= ox < gOW g -> 0 <= fx < gKW g -> - 2 ^ 31 <= ox * gSW g + fx * gDW g - gPW g < 2 ^ 31.
(** Bounds for the LCE operators on values [vs]. *)
Definition op_ok (kt : kernel_type) (o : op) (vs : list value) : Prop :=
  match o, vs with
  | OQuant, [v] => vshape v <> []
  | OBMaxPool p, [VBits t] =>
      match sh t with
      | [C; W; H; N] => pa_pad p <> PadUnknown /\ 1 <= H /\ 1 <= W /\ 1 <= pa_fh p /\ 1 <= pa_fw p /\
          1 <= pa_sh p /\ 1 <= pa_sw p /\ (pa_pad p = PadValid -> pa_fh p <= H /\ pa_fw p <= W)
      | _ => True
      end
  | OConv c, VBits i :: VF f :: rest =>
      match sh i, sh f with
      | [C; W; H; N], [ci; KW; KH; Co] =>
          1 <= Co /\ 1 <= KH /\ 1 <= KW /\ 1 <= ca_sh c /\ 1 <= ca_sw c /\ 1 <= ca_dh c /\ 1 <= ca_dw c /\
          (ca_pad c = PadSame \/ ca_pad c = PadValid /\ eff KH (ca_dh c) <= H /\ eff KW (ca_dw c) <= W) /\
          KH * KW * C < 2 ^ 31 /\ (ca_padv c = 0 \/ ca_padv c = 1) /\
          (* the kernel accepts the kind of zero padding (C38), and BGEMM no groups *)
          (ca_pad c = PadSame -> ca_padv c = 0 ->
             match rest with VF _ :: _ => True | _ => False end /\
             match kt with
             | KReference => C mod 2 = 0
             | _ => ca_act c = ActNone /\ eff KH (ca_dh c) <= H /\ eff KW (ca_dw c) <= W
             end) /\
          (kt = KBgemm -> ci = C) /\
          (kt = KIndirect -> forall g, bc_geom c (sh i) (sh f) = Some g -> indirect_fits g)
      | _, _ => True
      end
  | _, _ => is_lce o = false -> Forall (fun u => is_bits u = false) vs
  end.
(** ... at every instruction, and every result has a place in memory; [ty] gives
    LceDequantize its result's shape. *)
Fixpoint fits_machine (kt : kernel_type) (ty : nat -> list Z) (p : list instr) (e : env) : Prop :=
  match p with
  | [] => True
  | (r, o, a) :: p' =>
      forall vs v, look e a = Some vs -> denote o vs = Some v ->
        op_ok kt o vs /\ storable v /\ (o = ODequant -> ty r = rev (vshape v)) /\ fits_machine kt ty p' (upd e r v)
  end.
Definition const_filters (p : list instr) : Prop := forall r o a, In (r, o, a) p -> filter_const (def p) o a.

(** Memory [m] holds the values of [e]. *)
Definition mem_ok (e : env) (m : mem) : Prop := forall x v, e x = Some v -> exists b, m x = Some b /\ rep v b.
