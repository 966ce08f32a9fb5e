(** * A32: the 32-bit Arm assembly kernel of core/bgemm/kernels_arm32.h,
    instruction by instruction. q registers are the vectors 0..15; the stack slots
    (kernels_arm32.h 33-39, distinct 4-byte words 16 bytes apart, accessed by
    ldr/str only) are the registers DST_COL, DST, ROW, COL, LHS_COL, RHS_COL;
    LHS, RHS, PARAMS, TMPBUF are the asm operands. Pointers are a region and an
    offset, so the wrap-around of 32-bit addresses is not modelled. *)
From Verif Require Import Base Spec Bits A64 A64Bgemm.
Open Scope Z_scope.

(** 105-120 *)
Definition BMLA32 (d r l0 l1 l2 l3 : nat) : list instr :=
  [V (VEOR 12 r l0); V (VEOR 13 r l1); V (VEOR 14 r l2); V (VEOR 15 r l3);
   V (VCNT 12 12); V (VCNT 13 13); V (VCNT 14 14); V (VCNT 15 15);
   V (VPADDD 24 24 25); V (VPADDD 25 26 27); V (VPADDD 28 28 29); V (VPADDD 29 30 31);
   V (VPADDD 24 24 25); V (VPADDD 25 28 29); V (VUADDLP 12 12); V (VUADALP4 d 12)].
Definition BMLA32_all : list instr :=
  BMLA32 8 4 0 1 2 3 ++ BMLA32 9 5 0 1 2 3 ++ BMLA32 10 6 0 1 2 3 ++ BMLA32 11 7 0 1 2 3.
(** vld1.32 of 64 bytes of LHS and of RHS (208-212, 239-243, 319-322). *)
Definition loads32 : list instr := [LD1 [0; 1]%nat LHS true; LD1 [2; 3]%nat LHS true; LD1 [4; 5]%nat RHS true; LD1 [6; 7]%nat RHS true].
(** 173-217 *)
Definition k32_init : list instr :=
  [LDRX (Xr 1) 8; MOVX DST_COL (Xr 1); LDRX (Xr 2) 8; MOVX DST (Xr 2); LDRW (Xr 1) 12; MOVX ROW (Xr 1);
   LDRW (Xr 3) 16; MOVX COL (Xr 3); LDRX (Xr 1) 0; MOVX LHS_COL (Xr 1); LDRX (Xr 2) 4; MOVX RHS_COL (Xr 2)] ++
  zero 8 ++ zero 9 ++ zero 10 ++ zero 11 ++ loads32 ++ [MOVI (Xr 1) 4].
(** 238-254 *)
Definition k32_loop : list instr := loads32 ++ [ADDWI (Xr 1) (Xr 1) 4; LDRW (Xr 2) 48; CMPW (Xr 1) (Xr 2)] ++ BMLA32_all.
(** 223-258 *)
Definition k32_accum : list instr :=
  BMLA32_all ++ [LDRW (Xr 2) 48; CMPW (Xr 1) (Xr 2); BC EQ 79; LBL 2] ++ k32_loop ++ [BC LT 2; LBL 79].
(** 267-298 *)
Definition k32_advance : list instr :=
  [LDRW (Xr 3) 20; MOVX (Xr 1) ROW; CMPW (Xr 1) (Xr 3); BC GE 4;
   LDRW (Xr 1) 36; MOVX (Xr 4) LHS_COL; ADDX (Xr 4) (Xr 4) (Xr 1) 2; MOVX LHS_COL (Xr 4); B 5;
   LBL 4; LDRX (Xr 5) 0; MOVX LHS_COL (Xr 5); LDRW (Xr 4) 24; MOVX (Xr 8) COL; CMPW (Xr 8) (Xr 4); BC GE 5;
   LDRW (Xr 1) 40; MOVX (Xr 10) RHS_COL; ADDX (Xr 10) (Xr 10) (Xr 1) 2; MOVX RHS_COL (Xr 10); LBL 5].
(** 302-322 *)
Definition k32_load : list instr :=
  [MOVX (Xr 4) LHS_COL; MOVX LHS (Xr 4); MOVX (Xr 5) RHS_COL; MOVX RHS (Xr 5);
   LDRX (Xr 1) 60; MOVX (Xr 8) ROW; ADDX (Xr 1) (Xr 1) (Xr 8) 2; LD1 [14]%nat (Xr 1) true;
   LDRX (Xr 1) 64; ADDX (Xr 1) (Xr 1) (Xr 8) 2; LD1 [15]%nat (Xr 1) true] ++ loads32.
(** 325-391 *)
Definition k32_transform (t : dtype) : list instr :=
  [LDRW (Xr 1) 52; DUP 12 (Xr 1)] ++ each (fun r => VSHL4 r r 1) [8; 9; 10; 11]%nat ++
  [LDRW (Xr 2) 56; DUP 13 (Xr 2)] ++
  each (fun r => VSMAX r r 12) [8; 9; 10; 11]%nat ++ each (fun r => VSMIN r r 13) [8; 9; 10; 11]%nat ++
  each (fun r => VSCVTF r r) [8; 9; 10; 11]%nat ++
  each (fun r => VFMUL r r 14) [8; 9; 10; 11]%nat ++ each (fun r => VFADD r r 15) [8; 9; 10; 11]%nat ++
  when (is_int8 t) (each (fun r => VCVT8 r r) [8; 9; 10; 11]%nat ++
                    each (fun r => VQRSHRN (2 * r) r 8) [8; 9; 10; 11]%nat ++
                    each (fun r => VQMOVN (2 * r) r) [8; 9; 10; 11]%nat).
(** 401-425: it gt; movgt rd, rn is csel rd, rn, rd, gt. *)
Definition k32_fit : list instr :=
  [LDRW (Xr 1) 28; MOVX (Xr 8) ROW; SUBW (Xr 1) (Xr 1) (Xr 8); LDRW (Xr 2) 32; MOVX (Xr 4) COL; SUBW (Xr 2) (Xr 2) (Xr 4);
   MOVI (Xr 3) 4; MOVI (Xr 5) 4; CMPWI (Xr 1) 4; CSELW (Xr 1) (Xr 3) (Xr 1) GT; CMPWI (Xr 2) 4; CSELW (Xr 2) (Xr 5) (Xr 2) GT;
   CMPW (Xr 1) (Xr 3); CMPEQ (Xr 2) (Xr 5)].
(** 447-466; vst1 with a post-increment by r4. *)
Definition k32_store (t : dtype) : list instr :=
  let n := (4 * esize t)%nat in
  [STR 8 n (Xr 3) 0; ADDX (Xr 3) (Xr 3) (Xr 4) 0; STR 9 n (Xr 3) 0; ADDX (Xr 3) (Xr 3) (Xr 4) 0] ++ zero 8 ++ zero 9 ++
  [STR 10 n (Xr 3) 0; ADDX (Xr 3) (Xr 3) (Xr 4) 0; STR 11 n (Xr 3) 0] ++ zero 10 ++ zero 11.
(** 475-505 *)
Definition k32_copy (t : dtype) : list instr :=
  [LDRW (Xr 8) 44; MOVX (Xr 3) TMPBUF; MOVX (Xr 4) DST; MOVI (Xr 6) 0; LBL 50; MOVI (Xr 5) 0; LBL 51;
   LDRT (Xr 10) (esize t) (Xr 3) (Xr 5) (eshift t); STRT (Xr 10) (esize t) (Xr 4) (Xr 5) (eshift t);
   ADDWI (Xr 5) (Xr 5) 1; CMPW (Xr 5) (Xr 1); BC LT 51;
   ADDWI (Xr 6) (Xr 6) 1; ADDXI (Xr 3) (Xr 3) (4 * Z.of_nat (esize t)); ADDX (Xr 4) (Xr 4) (Xr 8) 0;
   CMPW (Xr 6) (Xr 2); BC LT 50].
(** 427-512 *)
Definition k32_write (t : dtype) : list instr :=
  [BC EQ 30; MOVX (Xr 3) TMPBUF; MOVI (Xr 4) (if is_float t then 16 else 4); B 31;
   LBL 30; MOVX (Xr 3) DST; LDRW (Xr 4) 44; LBL 31] ++
  k32_store t ++ [BC EQ 41] ++ k32_copy t ++
  [LBL 41; MOVX (Xr 4) DST; ADDXI (Xr 4) (Xr 4) (if is_float t then 16 else 4); MOVX DST (Xr 4)].
(** 519-570 *)
Definition k32_next : list instr :=
  [LDRX (Xr 5) 0; LDRW (Xr 6) 12; LDRW (Xr 3) 20; MOVX (Xr 8) ROW; CMPW (Xr 8) (Xr 3); BC EQ 20;
   ADDWI (Xr 8) (Xr 8) 4; MOVX ROW (Xr 8); B 21;
   LBL 20; MOVX ROW (Xr 6); MOVX (Xr 4) COL; ADDWI (Xr 4) (Xr 4) 4; MOVX COL (Xr 4);
   LDRW (Xr 8) 44; MOVX (Xr 1) DST_COL; ADDX (Xr 1) (Xr 1) (Xr 8) 2; MOVX DST_COL (Xr 1); MOVX DST (Xr 1);
   LBL 21; LDRW (Xr 4) 24; MOVX (Xr 8) COL; CMPW (Xr 8) (Xr 4); MOVI (Xr 1) 4; BC LE 1].
Definition k32 (t : dtype) : list instr :=
  k32_init ++ [LBL 1] ++ k32_accum ++ k32_advance ++ k32_load ++ k32_transform t ++ k32_fit ++ k32_write t ++ k32_next.

(** ** MakeBinaryKernelParams, kernels_common.h 70-124, with the offsets of
    kernels_arm32.h 14-31. *)
Definition par_fields32 (t : dtype) (ls rs depth rows cols sr sc er ec : Z) (o : otparams) (off : Z) : option val :=
  let es := Z.of_nat (esize t) in
  if off =? 0 then Some (Ptr RLhs (4 * (sr * ls))) else if off =? 4 then Some (Ptr RRhs (4 * (sc * rs)))
  else if off =? 8 then Some (Ptr RDst (es * (sc * rows + sr)))
  else if off =? 12 then Some (Int sr) else if off =? 16 then Some (Int sc)
  else if off =? 20 then Some (Int (er - 4)) else if off =? 24 then Some (Int (ec - 4))
  else if off =? 28 then Some (Int rows) else if off =? 32 then Some (Int cols)
  else if off =? 36 then Some (Int (4 * ls)) else if off =? 40 then Some (Int (4 * rs))
  else if off =? 44 then Some (Int (es * rows)) else if off =? 48 then Some (Int depth)
  else if off =? 52 then Some (Int (p_cmin o)) else if off =? 56 then Some (Int (p_cmax o))
  else if off =? 60 then Some (Ptr RMul 0) else if off =? 64 then Some (Ptr RBias 0) else None.
(** Asm operands (159-170); everything else, including the stack, is unspecified. *)
Definition start_regs32 (g : xreg -> val) (ls rs sr sc : Z) (q : xreg) : val :=
  match q with
  | LHS => Ptr RLhs (4 * (sr * ls)) | RHS => Ptr RRhs (4 * (sc * rs)) | PARAMS => Ptr RPar 0 | TMPBUF => Ptr RTmp 0
  | _ => g q
  end.
Definition env32 (t : dtype) (L R : list Z) (ls rs depth rows cols sr sc er ec : Z) (o : otparams) : env :=
  {| e_lhs := L; e_rhs := R; e_mul := p_mul o; e_bias := p_bias o; e_thr := [];
     e_par := par_fields32 t ls rs depth rows cols sr sc er ec o; e_in := []; e_zero := []; e_ind := [] |}.
(** One kernel invocation: the bytes it stores. *)
Definition asm_kernel32 (ops : nops) (fuel : nat) (t : dtype) f g tmp
    (L R : list Z) (ls rs depth rows cols sr sc er ec : Z) (o : otparams) : option (list (Z * Z)) :=
  let* s := run ops (env32 t L R ls rs depth rows cols sr sc er ec o) (k32 t) fuel 0
              {| sv := f; sx := start_regs32 g ls rs sr sc; sfl := (0, 0); stmp := tmp; slog := [] |} in
  Some (slog s).
