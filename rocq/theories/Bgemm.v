(** * Bgemm: model of core/bgemm (portable kernels, packing, block schedules). *)
From Verif Require Import Base Spec Bits Log.

(** ** Packed matrices (ruy::PMat, external)
    Layout of a packed column-major matrix whose kernel blocks are [kr] x [kc]
    column-major: ruy/matrix.h [Offset(PMatLayout, row, col)] (external,
    modelled by its definition; [row & ~(kr-1)] is [row - row mod kr] as ruy
    requires powers of two). *)
Definition pm_off (kr kc stride row col : Z) : Z :=
  (row - row mod kr) * kc + (col - col mod kc) * stride + row mod kr + (col mod kc) * kr.

Definition round_up (n k : Z) : Z := (n + k - 1) / k * k.

(** Source matrices are column major with stride [stride]: element (row, col)
    is [src[col*stride + row]] (bgemm.h 68-71: the LHS is transposed, so both
    sources are k x n / k x m column major). *)

(** memcpy of [n] words to position [dst] of the packed matrix. *)
Definition memcpy_log (load : Z -> option Z) (dst n : Z) (l : log Z) : option (log Z) :=
  for_ 0 n (fun r l => let* v := load r in Some ((dst + r, v) :: l)) l.
Definition memset0_log (dst n : Z) (l : log Z) : option (log Z) :=
  for_ 0 n (fun r l => Some ((dst + r, 0) :: l)) l.

(** core/bgemm/ruy_pack.h 41-126: LceRuyPackImpl<4x4 col-major>::Run. The four
    source pointers and their increments are written as functions of the
    column-in-block [q] and of the block-row counter (they advance by [inc q]
    per iteration); the four unrolled copies are a loop over [q]. *)
Definition pack44 (src : list Z) (rows cols src_stride packed_stride : Z)
    (start_col end_col : Z) (l : log Z) : option (log Z) :=
  for_step start_col end_col 4 (fun block_col l =>
    (* ruy_pack.h 61-87: is source pointer q redirected to zerobuf? *)
    let zero q := (cols - 3 <=? block_col) && ((q =? 3) || (cols - q <=? block_col)) in
    let base q := if zero q then 0 else src_stride * block_col + q * src_stride in
    let inc q := if zero q then 0 else 4 in
    let load q it r :=
      let a := base q + it * inc q + r in
      if zero q then rd [0; 0; 0; 0] a else rd src a in
    let packed_ptr := packed_stride * block_col in
    (* 92-104 *)
    let* l := for_step 0 (rows - 3) 4 (fun block_row l =>
      for_ 0 4 (fun q l =>
        memcpy_log (load q (block_row / 4)) (packed_ptr + block_row / 4 * 16 + 4 * q) 4 l) l) l in
    (* 105-123 *)
    if negb (rows mod 4 =? 0) then
      let non_zero_rows := rows mod 4 in
      for_ 0 4 (fun q l =>
        let dst := packed_ptr + rows / 4 * 16 + 4 * q in
        let* l := memcpy_log (load q (rows / 4)) dst non_zero_rows l in
        memset0_log (dst + non_zero_rows) (4 - non_zero_rows) l) l
    else Some l) l.

(** ruy's generic packing (ruy/pack.h PackImpl, external, modelled by its
    definition): every element of the packed matrix in the column range is the
    source element or the zero point 0 outside the source. *)
Definition pack_any (kr kc : Z) (src : list Z) (rows cols src_stride packed_stride : Z)
    (start_col end_col : Z) (l : log Z) : option (log Z) :=
  for_ start_col end_col (fun col l =>
    for_ 0 (round_up rows kr) (fun row l =>
      let* v := if (col <? cols) && (row <? rows) then rd src (col * src_stride + row) else Some 0 in
      Some ((pm_off kr kc packed_stride row col, v) :: l)) l) l.

(** ruy_pack.h 128-140 RunRuyPack with the template specialisation of 36-43:
    the LCE routine is used exactly for 4x4 blocks. *)
Definition RunRuyPack (kr kc : Z) (src : list Z) (rows cols src_stride packed_stride : Z)
    (start_col end_col : Z) (l : log Z) : option (log Z) :=
  if (kr =? 4) && (kc =? 4)
  then pack44 src rows cols src_stride packed_stride start_col end_col l
  else pack_any kr kc src rows cols src_stride packed_stride start_col end_col l.

(** ** Kernels *)
Record pmatrix := { pm_data : list Z; pm_rows : Z; pm_stride : Z; pm_kr : Z; pm_kc : Z }.
Definition pm_elem (m : pmatrix) (row col : Z) : option Z :=
  rd (pm_data m) (pm_off (pm_kr m) (pm_kc m) (pm_stride m) row col).

(** kernels.h 50-56 / 110-115: the accumulation. AccumScalar is int32 (or int16
    where C23 shows that it does not overflow as uint16), modelled in Z. *)
Definition accumulate (lhs rhs : pmatrix) (i j : Z) : option Z :=
  for_ 0 (pm_rows lhs) (fun k accum =>
    let* lhs_val := pm_elem lhs k i in
    let* rhs_val := pm_elem rhs k j in
    Some (accum + xor_popcount lhs_val rhs_val)) 0.

(** kernels.h 22-62: portable kernel, float/int8 output. [dst] has [rows] rows
    (= stride) and [cols] columns, column major. *)
Definition kernel_val {T} (lhs rhs : pmatrix) (run : Z -> Z -> option T) (rows cols : Z)
    (start_row start_col end_row end_col : Z) (l : log T) : option (log T) :=
  let clamped_end_row := Z.min end_row rows in
  let clamped_end_col := Z.min end_col cols in
  for_ start_row clamped_end_row (fun i l =>
    for_ start_col clamped_end_col (fun j l =>
      let* accum := accumulate lhs rhs i j in
      let* v := run accum i in
      Some ((i + j * rows, v) :: l)) l) l.

(** kernels.h 65-134: portable kernel, bitpacked output. *)
Definition kernel_bits (lhs rhs : pmatrix) (run : Z -> Z -> option bool) (rows cols : Z)
    (start_row start_col end_row end_col : Z) (l : log Z) : option (log Z) :=
  let clamped_end_row := Z.min end_row rows in
  let clamped_end_col := Z.min end_col cols in
  let dst_stride_bitpacked := CeilDiv rows 32 in
  for_ start_col clamped_end_col (fun j l =>
    let* (l, _) := for_ start_row clamped_end_row (fun i '(l, column) =>
      let* accum := accumulate lhs rhs i j in
      let* bit := run accum i in
      let column := setbit_if bit column ((i - start_row) mod 32) in
      if ((i - start_row + 1) mod 32 =? 0) || (i + 1 =? clamped_end_row) then
        Some ((i / 32 + j * dst_stride_bitpacked, column) :: l, 0)
      else Some (l, column)) (l, 0) in
    Some l) l.

(** A block of the destination handed to the kernel by ruy's TrMul. *)
Record block := { b_sr : Z; b_sc : Z; b_er : Z; b_ec : Z }.

(** kernels.h 217-259 RunBGemmKernelTyped. [fat] is RUY_OPT(FAT_KERNEL);
    [lc], [rc] are LhsLayout::kCols and RhsLayout::kCols. *)
Definition RunBGemmKernelTyped {T} (fat : bool) (lc rc : Z)
    (kernel : Z -> Z -> Z -> Z -> log T -> option (log T)) (b : block) (l : log T) : option (log T) :=
  if fat then kernel (b_sr b) (b_sc b) (b_er b) (b_ec b) l
  else
    for_step (b_sc b) (b_ec b) rc (fun col l =>
      let block_end_col := Z.min (col + rc) (b_ec b) in
      for_step (b_sr b) (b_er b) lc (fun row l =>
        let block_end_row := Z.min (row + lc) (b_er b) in
        kernel row col block_end_row block_end_col l) l) l.

(** The contract asserted at kernels.h 231-240, with the alignment that ruy's
    block map provides (every block starts at a multiple of the kernel size). *)
Record block_ok (rows cols lc rc : Z) (b : block) : Prop := {
  bo_row : 0 <= b_sr b <= b_er b; bo_col : 0 <= b_sc b <= b_ec b;
  bo_erow : b_er b < rows + lc; bo_ecol : b_ec b < cols + rc;
  bo_rmod : b_sr b mod lc = 0; bo_cmod : b_sc b mod rc = 0;
  bo_erm : (b_er b - b_sr b) mod lc = 0; bo_ecm : (b_ec b - b_sc b) mod rc = 0
}.
(** The blocks cover the destination. *)
Definition blocks_cover (rows cols : Z) (bs : list block) : Prop :=
  forall i j, 0 <= i < rows -> 0 <= j < cols ->
    exists b, In b bs /\ b_sr b <= i < b_er b /\ b_sc b <= j < b_ec b.

(** A column range handed to the packing routine, and coverage. *)
Definition range_ok (cols kc : Z) (r : Z * Z) : Prop :=
  0 <= fst r <= snd r /\ snd r <= round_up cols kc /\ fst r mod kc = 0 /\ snd r mod kc = 0.
Definition ranges_cover (cols : Z) (rs : list (Z * Z)) : Prop :=
  forall c, 0 <= c < cols -> exists r, In r rs /\ fst r <= c < snd r.

(** ** BGemm (bgemm.h 23-84)
    [n] x [k] row-major LHS times [m] columns of [k] words. The schedule of a
    run: which ranges are packed and which blocks are computed, by whichever
    threads in whatever order. ruy waits for a block's operands to be packed
    before computing it; the model packs everything first. Packed buffers start
    with arbitrary contents. *)
Record schedule := {
  sc_lpack : list (Z * Z); sc_rpack : list (Z * Z); sc_blocks : list block;
  sc_fat : bool; sc_lstride : Z; sc_rstride : Z;
  sc_lmem : list Z; sc_rmem : list Z
}.

Definition BGemm {T} (kr lc rc : Z) (S : schedule)
    (kernel : pmatrix -> pmatrix -> Z -> Z -> Z -> Z -> Z -> Z -> log T -> option (log T))
    (n k m : Z) (lhs rhs : list Z) (dst : list T) (Q : list T -> Prop) : Prop :=
  concurrently (map (fun r => RunRuyPack kr lc lhs k n k (sc_lstride S) (fst r) (snd r) []) (sc_lpack S))
    (sc_lmem S) (fun L =>
  concurrently (map (fun r => RunRuyPack kr rc rhs k m k (sc_rstride S) (fst r) (snd r) []) (sc_rpack S))
    (sc_rmem S) (fun R =>
  let PL := {| pm_data := L; pm_rows := round_up k kr; pm_stride := sc_lstride S; pm_kr := kr; pm_kc := lc |} in
  let PR := {| pm_data := R; pm_rows := round_up k kr; pm_stride := sc_rstride S; pm_kr := kr; pm_kc := rc |} in
  concurrently (map (fun b => RunBGemmKernelTyped (sc_fat S) lc rc (kernel PL PR n m) b []) (sc_blocks S))
    dst Q)).

(** A legal schedule: ranges and blocks within contract, covering everything;
    packed strides at least the packed row count (ruy may add padding to avoid
    cache aliasing); packed buffers large enough. *)
Record schedule_ok (kr lc rc n k m : Z) (S : schedule) : Prop := {
  so_l : Forall (range_ok n lc) (sc_lpack S); so_lc : ranges_cover n (sc_lpack S);
  so_r : Forall (range_ok m rc) (sc_rpack S); so_rc : ranges_cover m (sc_rpack S);
  so_b : Forall (block_ok n m lc rc) (sc_blocks S); so_bc : blocks_cover n m (sc_blocks S);
  so_ls : round_up k kr <= sc_lstride S; so_rs : round_up k kr <= sc_rstride S;
  so_lm : zlen (sc_lmem S) = sc_lstride S * round_up n lc;
  so_rm : zlen (sc_rmem S) = sc_rstride S * round_up m rc
}.

(** ** Specification: the binary product of LHS row [i] and RHS column [j] *)
Definition wat (m : list Z) (i : Z) : Z := match rd m i with Some w => w | None => 0 end.
Definition bproduct (k : Z) (lhs rhs : list Z) (i j : Z) : Z :=
  sum_ k (fun q => xor_popcount (wat lhs (i * k + q)) (wat rhs (j * k + q))).
