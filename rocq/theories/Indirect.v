(** * Indirect: model of core/indirect_bgemm/kernel.h and
    core/indirect_bgemm/kernel_4x2_portable.h. *)
From Verif Require Import Base Spec Bits Loop4 Reference Bitpack.

(** Constructor arguments and fields of class Kernel (kernel.h 17-47). *)
Record kern := {
  bs_oc : Z;        (* block_size_output_channels *)
  bs_px : Z;        (* block_size_pixels *)
  bs_d : Z;         (* block_size_depth *)
  k_in_depth : Z;   (* input_depth: packed input channels *)
  k_oc : Z;         (* output_channels *)
  k_fs : Z;         (* filter_size *)
  k_groups : Z;
  k_npix : Z        (* num_output_pixels *)
}.

(** kernel.h 32-47 (constructor). *)
Definition mk_kern (boc bpx bd : Z) (p : bconv) : kern :=
  {| bs_oc := boc; bs_px := bpx; bs_d := bd; k_in_depth := in_d p; k_oc := out_c p;
     k_fs := f_h p * f_w p; k_groups := groups p;
     k_npix := batches p * out_h p * out_w p |}.

(** kernel.h 54-93 PackWeights. [packed_weights] starts as a fresh vector
    (value-initialised to 0 by resize); [.at()] outside the vector throws,
    here [None]. State: (packed_weights, packed_weights_index). *)
Definition PackWeights (k : kern) (weights : list Z) : option (list Z) :=
  let* idpg := cdiv (k_in_depth k) (k_groups k) in
  let* ocpg := cdiv (k_oc k) (k_groups k) in
  let rounded := Ceil ocpg (bs_oc k) in
  let size := k_groups k * rounded * k_fs k * idpg + bs_oc k * bs_d k in
  let* (pw, _) :=
    for_ 0 (k_groups k) (fun group_id st =>
      for_step 0 ocpg (bs_oc k) (fun block_start st =>
        let block_size := Z.min (ocpg - block_start) (bs_oc k) in
        for_ 0 (k_fs k) (fun fi st =>
          for_step 0 idpg (bs_d k) (fun ci st =>
            let* (pw, idx) :=
              for_ 0 block_size (fun block_offset st =>
                for_ 0 (bs_d k) (fun ci_offset '(pw, idx) =>
                  let weights_index :=
                    group_id * ocpg * k_fs k * idpg
                    + (block_start + block_offset) * k_fs k * idpg
                    + fi * idpg + ci + ci_offset in
                  let* w := rd weights weights_index in
                  let* pw := wr pw idx w in
                  Some (pw, idx + 1)) st) st in
            Some (pw, idx + (bs_oc k - block_size) * bs_d k)) st) st) st)
      (repeat 0 (Z.to_nat size), 0) in
  Some pw.

(** A [const TBitpacked*] stored in the indirection buffer: into the input
    tensor or into the zero buffer. *)
Inductive iptr := PIn (off : Z) | PZero (off : Z).

(** core/types.h 27-32 FastBoundsCheck: unsigned comparison of int32s. *)
Definition FastBoundsCheck (index limit : Z) : bool := index mod 2 ^ 32 <? limit mod 2 ^ 32.

(** kernel.h 100-172 FillIndirectionBuffer; the zero buffer is
    [repeat 0 (filter_size * input_depth)] (line 130). *)
Definition FillIndirectionBuffer (k : kern) (p : bconv) : option (list iptr) :=
  let tiled := Ceil (k_npix k) (bs_px k) in
  let buf0 := repeat (PIn 0) (Z.to_nat (tiled * k_fs k + bs_px k)) in
  for_step 0 tiled (bs_px k) (fun tile_start buf =>
    for_ 0 (bs_px k) (fun tile_offset buf =>
      let output_index := Z.min (tile_start + tile_offset) (k_npix k - 1) in
      let* batch_index := cdiv output_index (out_h p * out_w p) in
      let* output_x := cmod output_index (out_w p) in
      let* r := cmod output_index (out_h p * out_w p) in
      let* output_y := cdiv r (out_w p) in
      for_ 0 (f_h p) (fun f_y buf =>
        let input_y := output_y * s_h p + f_y * dl_h p - pad_h p in
        if (0 <=? input_y) && (input_y <? in_h p) then
          for_ 0 (f_w p) (fun f_x buf =>
            let input_x := output_x * s_w p + f_x * dl_w p - pad_w p in
            let kernel_index := f_y * f_w p + f_x in
            let index := tile_start * k_fs k + kernel_index * bs_px k + tile_offset in
            if FastBoundsCheck input_x (in_w p) then
              wr buf index (PIn ((batch_index * in_h p * in_w p + input_y * in_w p + input_x)
                                 * k_in_depth k))
            else wr buf index (PZero 0)) buf
        else
          for_ 0 (f_w p) (fun f_x buf =>
            let kernel_index := f_y * f_w p + f_x in
            let index := tile_start * k_fs k + kernel_index * bs_px k + tile_offset in
            wr buf index (PZero 0)) buf) buf) buf) buf0.

(** Dereferencing an activation pointer. *)
Definition deref (input zero : list Z) (q : iptr) (i : Z) : option Z :=
  match q with PIn o => rd input (o + i) | PZero o => rd zero (o + i) end.

(** kernel_4x2_portable.h 93-109: one depth step on the four accumulators of a
    pixel; [acc_i += xor_popcount(w_i, a)]. *)
Definition add4 (acc ws : list Z) (a : Z) : list Z :=
  map (fun '(c, w) => c + xor_popcount w a) (combine acc ws).

(** [do ... while (--n > 0)] runs max(1, n) times. *)
Definition do_while_count (n : Z) : Z := Z.max 1 n.

Section Kernel4x2.
  Variable k : kern.
  Variables pw input zero : list Z.
  Variable ibuf : list iptr.
  Variable idpg : Z.

  (** kernel_4x2_portable.h 83-111 / 227-255: the two inner do-while loops.
      State: (accumulators of pixel 0, of pixel 1, weights_ptr, indirection_ptr). *)
  Definition accumulate (ido wptr iptr0 : Z) : option (list Z * list Z * Z * Z) :=
    for_ 0 (do_while_count (k_fs k)) (fun _ '(acc0, acc1, wptr, iptr) =>
      let* a0p := rd ibuf iptr in
      let* a1p := rd ibuf (iptr + 1) in
      let* (acc0, acc1, wptr, _) :=
        for_ 0 (do_while_count idpg) (fun _ '(acc0, acc1, wptr, aoff) =>
          let* w0 := rd pw wptr in
          let* w1 := rd pw (wptr + 1) in
          let* w2 := rd pw (wptr + 2) in
          let* w3 := rd pw (wptr + 3) in
          let* a0 := deref input zero a0p aoff in
          let* a1 := deref input zero a1p aoff in
          Some (add4 acc0 [w0; w1; w2; w3] a0, add4 acc1 [w0; w1; w2; w3] a1,
                wptr + 4, aoff + 1)) (acc0, acc1, wptr, ido) in
      Some (acc0, acc1, wptr, iptr + 2))
      ([0; 0; 0; 0], [0; 0; 0; 0], wptr, iptr0).

  (** Consecutive assignments [out[ptr+i] = Run(acc_i, c+i)]. *)
  Fixpoint put {T} (run : Z -> Z -> option T) (out : list T) (ptr c : Z) (accs : list Z)
    : option (list T) :=
    match accs with
    | [] => Some out
    | a :: accs' =>
        let* v := run a c in
        let* out := wr out ptr v in
        put run out (ptr + 1) (c + 1) accs'
    end.

  (** kernel_4x2_portable.h 113-147: writing the results of one 4x2 block;
      returns (out, ptr0, ptr1, c_out_index). *)
  Definition write_block {T} (run : Z -> Z -> option T) (out : list T)
      (ptr0 ptr1 c ge : Z) (acc0 acc1 : list Z) : option (list T * Z * Z * Z) :=
    if 4 <=? ge - c then
      let* out := put run out ptr1 c acc1 in
      let* out := put run out ptr0 c acc0 in
      Some (out, ptr0 + 4, ptr1 + 4, c + 4)
    else
      let* (out, ptr0, ptr1, c, acc0, acc1) :=
        if 2 <=? ge - c then
          let* out := put run out ptr1 c (firstn 2 acc1) in
          let* out := put run out ptr0 c (firstn 2 acc0) in
          (* acc_01 = acc_21; acc_00 = acc_20 *)
          Some (out, ptr0 + 2, ptr1 + 2, c + 2, skipn 2 acc0, skipn 2 acc1)
        else Some (out, ptr0, ptr1, c, acc0, acc1) in
      if 1 <=? ge - c then
        let* out := put run out ptr1 c (firstn 1 acc1) in
        let* out := put run out ptr0 c (firstn 1 acc0) in
        Some (out, ptr0 + 1, ptr1 + 1, c + 1)
      else Some (out, ptr0, ptr1, c).

  (** kernel_4x2_portable.h 72-155: the do-while over output channels.
      State: (out, wptr, ptr0, ptr1, input_depth_offset, group_end, c_out_index).
      The loop runs at most once per channel, which bounds the fuel. *)
  Definition run_val_pixel {T} (run : Z -> Z -> option T) (ocpg p_index pixel_end : Z)
      (out : list T) : option (list T) :=
    let iptr0 := p_index * k_fs k in
    let ptr0 := p_index * k_oc k in
    let ptr1 := if pixel_end - p_index <? 2 then ptr0 else ptr0 + k_oc k in
    let step '(out, wptr, ptr0, ptr1, ido, ge, c) :=
      let* (acc0, acc1, wptr, _) := accumulate ido wptr iptr0 in
      let* (out, ptr0, ptr1, c) := write_block run out ptr0 ptr1 c ge acc0 acc1 in
      (* indirection_ptr -= 2 * filter_size: back to iptr0 *)
      if c =? ge then Some (out, wptr, ptr0, ptr1, ido + idpg, ge + ocpg, c)
      else Some (out, wptr, ptr0, ptr1, ido, ge, c) in
    let* st := step (out, 0, ptr0, ptr1, 0, ocpg, 0) in
    let* (out, _, _, _, _, _, _) :=
      while_ (S (Z.to_nat (k_oc k))) (fun '(_, _, _, _, _, _, c) => c <? k_oc k) step st in
    Some out.

  (** kernel_4x2_portable.h 38-157 Run, float / int8. *)
  Definition run_val {T} (run : Z -> Z -> option T) (pixel_start pixel_end : Z) (out : list T)
    : option (list T) :=
    let* ocpg := cdiv (k_oc k) (k_groups k) in
    for_step pixel_start pixel_end 2 (fun p_index out =>
      run_val_pixel run ocpg p_index pixel_end out) out.

  (** kernel_4x2_portable.h 261-283: or-ing four result bits into a column. *)
  Fixpoint or_bits (run : Z -> Z -> option bool) (col base c : Z) (accs : list Z) : option Z :=
    match accs with
    | [] => Some col
    | a :: accs' =>
        let* b := run a c in
        or_bits run (setbit_if b col base) (base + 1) (c + 1) accs'
    end.

  (** kernel_4x2_portable.h 212-319: one pair of pixels, bitpacked output. The
      output array is addressed in int16 halves: [out] is the list of halves
      (little-endian: half h is bits 16*(h%2).. of word h/2).
      State: (out, wptr, h0, h1, col0, col1, ido, ge, c). *)
  Definition run_bits_pixel (run : Z -> Z -> option bool) (ocpg p_index pixel_end : Z)
      (out : list Z) : option (list Z) :=
    let iptr0 := p_index * k_fs k in
    let h0 := 2 * (p_index * GetBitpackedSize (k_oc k)) in
    let h1 := if pixel_end - p_index <? 2 then h0 else h0 + 2 * GetBitpackedSize (k_oc k) in
    let step '(out, wptr, h0, h1, col0, col1, ido, ge, c) :=
      let* (acc0, acc1, wptr, _) := accumulate ido wptr iptr0 in
      let base := Z.rem c 16 in
      let* col0 := or_bits run col0 base c acc0 in
      let* col1 := or_bits run col1 base c acc1 in
      let '(col0, col1, c, ido, ge) :=
        if 4 <? ge - c then (col0, col1, c + 4, ido, ge)
        else
          let gap := ge - c in
          let mask col := if gap <? 4 then Z.land col (Z.shiftl 1 (base + gap) - 1) else col in
          (mask col0, mask col1, ge, ido + idpg, ge + ocpg) in
      if Z.rem c 16 <? base then
        let* out := wr out h1 (col1 mod 2 ^ 16) in
        let* out := wr out h0 (col0 mod 2 ^ 16) in
        Some (out, wptr, h0 + 1, h1 + 1, Z.shiftr col0 16, Z.shiftr col1 16, ido, ge, c)
      else Some (out, wptr, h0, h1, col0, col1, ido, ge, c) in
    let* st := step (out, 0, h0, h1, 0, 0, 0, ocpg, 0) in
    let* (out, _, h0, h1, col0, col1, _, _, _) :=
      while_ (S (Z.to_nat (k_oc k))) (fun '(_, _, _, _, _, _, _, _, c) => c <? k_oc k) step st in
    if 0 <? Z.rem (k_oc k) 16 then
      let* out := wr out h1 (col1 mod 2 ^ 16) in
      wr out h0 (col0 mod 2 ^ 16)
    else Some out.

  (** kernel_4x2_portable.h 176-321 Run, bitpacked. *)
  Definition run_packed (run : Z -> Z -> option bool) (pixel_start pixel_end : Z) (out : list Z)
    : option (list Z) :=
    let* ocpg := cdiv (k_oc k) (k_groups k) in
    for_step pixel_start pixel_end 2 (fun p_index out =>
      run_bits_pixel run ocpg p_index pixel_end out) out.
End Kernel4x2.

(** Little-endian view of an int32 array as int16 halves and back. *)
Fixpoint halves_of (ws : list Z) : list Z :=
  match ws with [] => [] | w :: t => w mod 2 ^ 16 :: w / 2 ^ 16 :: halves_of t end.
Fixpoint words_of (hs : list Z) : list Z :=
  match hs with lo :: hi :: t => lo + 2 ^ 16 * hi :: words_of t | _ => [] end.

(** EvalOptIndirectBGEMM on a fresh node (bconv2d.cc 487-523) with the portable
    kernel and BConv2DOptimizedIndirectBGEMM (optimized_indirect_bgemm.h 14-62)
    up to the zero-padding correction (for that see ZeroPad.v). *)
Definition indirect_val {T} (p : bconv) (input filter : list Z) (run : Z -> Z -> option T)
    (out : list T) : option (list T) :=
  let k := mk_kern 4 2 1 p in
  let* pw := PackWeights k filter in
  let* ibuf := FillIndirectionBuffer k p in
  let zero := repeat 0 (Z.to_nat (k_fs k * k_in_depth k)) in
  let* idpg := cdiv (k_in_depth k) (k_groups k) in
  run_val k pw input zero ibuf idpg run 0 (k_npix k) out.

Definition indirect_bits (p : bconv) (input filter : list Z) (run : Z -> Z -> option bool)
    (out : list Z) : option (list Z) :=
  let k := mk_kern 4 2 1 p in
  let* pw := PackWeights k filter in
  let* ibuf := FillIndirectionBuffer k p in
  let zero := repeat 0 (Z.to_nat (k_fs k * k_in_depth k)) in
  let* idpg := cdiv (k_in_depth k) (k_groups k) in
  (* optimized_indirect_bgemm.h 24-31: pre-zero when padding bits exist *)
  let* out := if Z.rem (k_oc k) 32 =? 0 then Some out
              else fill out 0 (k_npix k * GetBitpackedSize (k_oc k)) 0 in
  let* hs := run_packed k pw input zero ibuf idpg run 0 (k_npix k) (halves_of out) in
  Some (words_of hs).
