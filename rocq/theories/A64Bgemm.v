(** * A64Bgemm: the assembly kernels of core/bgemm/kernels_aarch64.h, instruction
    by instruction, and the parameter struct built by core/bgemm/kernels_common.h. *)
From Verif Require Import Base Spec Bits A64.
Open Scope Z_scope.

(** DstScalar: float, int8 or bitpacked. *)
Inductive dtype := DFloat | DInt8 | DBits.
Definition is_float (t : dtype) := match t with DFloat => true | _ => false end.
Definition is_int8 (t : dtype) := match t with DInt8 => true | _ => false end.
Definition is_bits (t : dtype) := match t with DBits => true | _ => false end.
(** kernels_aarch64.h 86-101: the IF_..._OUTPUT macros. *)
Definition when (b : bool) (p : list instr) : list instr := if b then p else [].
Definition zero (r : nat) : list instr := [V (VZERO r)].

(** kernels_aarch64.h 106-119 *)
Definition LCE_BMLA (d r l1 l2 l3 l4 : nat) : list instr :=
  [V (VEOR 28 r l1); V (VEOR 29 r l2); V (VEOR 30 r l3); V (VEOR 31 r l4);
   V (VCNT 28 28); V (VCNT 29 29); V (VCNT 30 30); V (VCNT 31 31);
   V (VADDP 28 28 29); V (VADDP 30 30 31); V (VADDP 28 28 30);
   V (VUADDLP 28 28); V (VUADALP4 d 28)].
(** kernels_aarch64.h 122-136 *)
Definition LCE_BMLA_LD_RHS (d r l1 l2 l3 l4 : nat) : list instr :=
  [V (VEOR 28 r l1); V (VEOR 29 r l2); V (VEOR 30 r l3); V (VEOR 31 r l4);
   LD1 [r] RHS true;
   V (VCNT 28 28); V (VCNT 29 29); V (VCNT 30 30); V (VCNT 31 31);
   V (VADDP 28 28 29); V (VADDP 30 30 31); V (VADDP 28 28 30);
   V (VUADDLP 28 28); V (VUADALP4 d 28)].
(** kernels_aarch64.h 139-157 *)
Definition LCE_BMLA_LD_ALL (d r l1 l2 l3 l4 : nat) : list instr :=
  [V (VEOR 28 r l1); V (VEOR 29 r l2); V (VEOR 30 r l3); V (VEOR 31 r l4);
   LD1 [r] RHS true;
   V (VCNT 28 28); V (VCNT 29 29);
   LD1 [l1] LHS true;
   V (VCNT 30 30); V (VCNT 31 31);
   LD1 [l2] LHS true;
   V (VADDP 28 28 29);
   LD1 [l3] LHS true;
   V (VADDP 30 30 31); V (VADDP 28 28 30);
   V (VUADDLP 28 28); V (VUADALP4 d 28);
   LD1 [l4] LHS true].

(** The same instruction on several registers. *)
Definition each (f : nat -> vinstr) (rs : list nat) : list instr := map (fun r => V (f r)) rs.

(** ** BinaryKernelNeon4x4, kernels_aarch64.h 186-557. [ms] is RUY_OPT(MAX_STREAMING). *)
(** 207-228 *)
Definition k44_init : list instr :=
  [LDRX (Xr 5) 0; LDRW (Xr 6) 24] ++ zero 24 ++ [LDRW (Xr 7) 32; LDRW (Xr 8) 36] ++ zero 25 ++
  [LDRW (Xr 9) 48; LDRW (Xr 10) 52] ++ zero 26 ++ [LDRW (Xr 11) 56; LDRW (Xr 12) 60] ++ zero 27 ++
  [LD1 [0; 1; 2; 3]%nat LHS true; LD1 [4; 5; 6; 7]%nat RHS true; MOVI (Xr 1) 4].
(** 236-276 *)
Definition k44_streaming : list instr :=
  [CMPWI (Xr 12) 8; BC LT 78; ANDWI (Xr 2) (Xr 12) (-4);
   LD1 [8; 9; 10; 11]%nat LHS true; LD1 [12; 13; 14; 15]%nat RHS true; MOVI (Xr 1) 8;
   LBL 80; LD1 [4]%nat RHS true] ++
  LCE_BMLA_LD_RHS 25 5 0 1 2 3 ++ LCE_BMLA_LD_RHS 26 6 0 1 2 3 ++ LCE_BMLA_LD_ALL 27 7 0 1 2 3 ++
  LCE_BMLA_LD_RHS 24 12 8 9 10 11 ++ LCE_BMLA_LD_RHS 25 13 8 9 10 11 ++ LCE_BMLA_LD_RHS 26 14 8 9 10 11 ++
  LCE_BMLA_LD_ALL 27 15 8 9 10 11 ++ LCE_BMLA 24 4 0 1 2 3 ++
  [ADDWI (Xr 1) (Xr 1) 8; CMPW (Xr 1) (Xr 2); BC LT 80] ++
  LCE_BMLA 24 12 8 9 10 11 ++ LCE_BMLA 25 13 8 9 10 11 ++ LCE_BMLA 26 14 8 9 10 11 ++ LCE_BMLA 27 15 8 9 10 11 ++
  [LBL 78].
(** 284-295 *)
Definition k44_loop : list instr :=
  [LD1 [4]%nat RHS true] ++
  LCE_BMLA_LD_RHS 25 5 0 1 2 3 ++ LCE_BMLA_LD_RHS 26 6 0 1 2 3 ++ LCE_BMLA_LD_ALL 27 7 0 1 2 3 ++
  [ADDWI (Xr 1) (Xr 1) 4; CMPW (Xr 1) (Xr 12)] ++ LCE_BMLA 24 4 0 1 2 3.
(** 300-302 *)
Definition k44_tail : list instr := LCE_BMLA 25 5 0 1 2 3 ++ LCE_BMLA 26 6 0 1 2 3 ++ LCE_BMLA 27 7 0 1 2 3.
(** 231-302 *)
Definition k44_accum (ms : bool) : list instr :=
  LCE_BMLA 24 4 0 1 2 3 ++ when ms k44_streaming ++
  [CMPW (Xr 1) (Xr 12); BC EQ 79; LBL 2] ++ k44_loop ++ [BC LT 2; LBL 79] ++ k44_tail.
(** 313-334, [rb] = 4 rows per block: lsl #2 for 4, lsl #3 for 8 *)
Definition k_advance (sh : Z) : list instr :=
  [CMPW ROW (Xr 7); BC GE 4; ADDX LHS_COL LHS_COL (Xr 9) sh; B 5; LBL 4; MOVX LHS_COL (Xr 5);
   CMPW COL (Xr 8); BC GE 5; ADDX RHS_COL RHS_COL (Xr 10) 2; LBL 5].
(** 335-354 *)
Definition k44_load : list instr :=
  [MOVX LHS LHS_COL; MOVX RHS RHS_COL;
   LDRX (Xr 1) 72; ADDX (Xr 1) (Xr 1) ROW 2; LD1 [14]%nat (Xr 1) true;
   LDRX (Xr 1) 80; ADDX (Xr 1) (Xr 1) ROW 2; LD1 [15]%nat (Xr 1) true;
   LD1 [0; 1; 2; 3]%nat LHS true; LD1 [4; 5; 6; 7]%nat RHS true].
(** 356-416 *)
Definition k44_transform (t : dtype) : list instr :=
  [LDRW (Xr 2) 64; DUP 12 (Xr 2)] ++ each (fun r => VSHL4 r r 1) [24; 25; 26; 27]%nat ++
  [LDRW (Xr 3) 68; DUP 13 (Xr 3)] ++
  each (fun r => VSMAX r r 12) [24; 25; 26; 27]%nat ++ each (fun r => VSMIN r r 13) [24; 25; 26; 27]%nat ++
  each (fun r => VSCVTF r r) [24; 25; 26; 27]%nat ++
  each (fun r => VFMUL r r 14) [24; 25; 26; 27]%nat ++ each (fun r => VFADD r r 15) [24; 25; 26; 27]%nat ++
  when (is_int8 t) (each (fun r => VFCVTNS r r) [24; 25; 26; 27]%nat ++
                    each (fun r => VSQXTN4H r r) [24; 25; 26; 27]%nat ++
                    each (fun r => VSQXTN8B r r) [24; 25; 26; 27]%nat).
(** 423-434 *)
Definition k44_fit : list instr :=
  [SUBW (Xr 1) DST_ROWS ROW; SUBW (Xr 2) DST_COLS COL; MOVI (Xr 3) 4; CMPWI (Xr 1) 4; CSELW (Xr 1) (Xr 1) (Xr 3) LE;
   CMPWI (Xr 2) 4; CSELW (Xr 2) (Xr 2) (Xr 3) LE; CMPW (Xr 1) (Xr 3); CCMPEQ (Xr 2) (Xr 3)].
(** 457-484 *)
Definition k44_store (t : dtype) : list instr :=
  if is_float t then
    [STR 24 16 (Xr 3) 0; ADDX (Xr 3) (Xr 3) (Xr 4) 0] ++ zero 24 ++
    [STR 25 16 (Xr 3) 0; ADDX (Xr 3) (Xr 3) (Xr 4) 0] ++ zero 25 ++
    [STR 26 16 (Xr 3) 0; ADDX (Xr 3) (Xr 3) (Xr 4) 0] ++ zero 26 ++
    [STR 27 16 (Xr 3) 0; ADDX (Xr 3) (Xr 3) (Xr 4) 0] ++ zero 27
  else
    [STR 24 4 (Xr 3) 0; ADDX (Xr 3) (Xr 3) (Xr 4) 0; STR 25 4 (Xr 3) 0; ADDX (Xr 3) (Xr 3) (Xr 4) 0;
     STR 26 4 (Xr 3) 0; ADDX (Xr 3) (Xr 3) (Xr 4) 0; STR 27 4 (Xr 3) 0] ++ zero 24 ++ zero 25 ++ zero 26 ++ zero 27.
(** Bytes per element and shift of an element index. *)
Definition esize (t : dtype) : nat := if is_float t then 4 else 1.
Definition eshift (t : dtype) : Z := if is_float t then 2 else 0.
(** 492-516 (4x4) and 1091-1115 (8x4): copy the part that fits, [rb] rows per column. *)
Definition k_copy (t : dtype) (rb : Z) : list instr :=
  [MOVX (Xr 3) TMPBUF; MOVX (Xr 4) DST; MOVI (Xr 14) 0; LBL 50; MOVI (Xr 15) 0; LBL 51;
   LDRT (Xr 13) (esize t) (Xr 3) (Xr 15) (eshift t); STRT (Xr 13) (esize t) (Xr 4) (Xr 15) (eshift t);
   ADDWI (Xr 15) (Xr 15) 1; CMPW (Xr 15) (Xr 1); BC LT 51;
   ADDWI (Xr 14) (Xr 14) 1; ADDXI (Xr 3) (Xr 3) (rb * Z.of_nat (esize t)); ADDX (Xr 4) (Xr 4) (Xr 11) 0;
   CMPW (Xr 14) (Xr 2); BC LT 50].
(** 436-522 *)
Definition k44_write (t : dtype) : list instr :=
  [BC EQ 30; MOVX (Xr 3) TMPBUF; MOVI (Xr 4) (if is_float t then 16 else 4); B 31;
   LBL 30; MOVX (Xr 3) DST; MOVX (Xr 4) (Xr 11); LBL 31] ++
  k44_store t ++ [BC EQ 41] ++ k_copy t 4 ++
  [LBL 41; ADDXI DST DST (if is_float t then 16 else 4)].
(** 530-552 *)
Definition k44_next : list instr :=
  [CMPW ROW (Xr 7); BC EQ 20; ADDWI ROW ROW 4; B 21; LBL 20; MOVW ROW (Xr 6); ADDWI COL COL 4;
   ADDX DST_COL DST_COL (Xr 11) 2; MOVX DST DST_COL; LBL 21; CMPW COL (Xr 8); MOVI (Xr 1) 4; BC LE 1].
Definition k44 (ms : bool) (t : dtype) : list instr :=
  k44_init ++ [LBL 1] ++ k44_accum ms ++ k_advance 2 ++ k44_load ++ k44_transform t ++ k44_fit ++ k44_write t ++ k44_next.

(** ** BinaryKernelNeon8x4, kernels_aarch64.h 700-1186 *)
(** 588-596 *)
Definition LCE_XOR (r : nat) : list instr := map (fun i => V (VEOR (12 + i) r i)) (seq 0 8).
(** 599-615 *)
Definition LCE_CNT_ACCUM (d : nat) : list instr :=
  [V (VCNT 12 12); V (VCNT 13 13); V (VCNT 14 14); V (VCNT 15 15); V (VADDP 20 12 13); V (VCNT 16 16); V (VADDP 21 14 15);
   V (VCNT 17 17); V (VCNT 18 18); V (VCNT 19 19); V (VADDP 20 20 21); V (VADDP 22 16 17); V (VADDP 23 18 19);
   V (VADDP 22 22 23); V (VADDP 20 20 22); V (VUADALP2 d 20)].
(** 618-644 *)
Definition LCE_CNT_ACCUM_LD_RHS_XOR (d r : nat) : list instr :=
  [LD1 [r] RHS true] ++ each (fun q => VCNT q q) (seq 12 8) ++
  [V (VADDP 20 12 13); V (VADDP 21 14 15); V (VADDP 22 16 17); V (VADDP 23 18 19); V (VEOR 12 r 0); V (VEOR 13 r 1);
   V (VADDP 20 20 21); V (VADDP 22 22 23); V (VEOR 14 r 2); V (VEOR 15 r 3); V (VEOR 16 r 4); V (VADDP 20 20 22);
   V (VEOR 17 r 5); V (VEOR 18 r 6); V (VEOR 19 r 7); V (VUADALP2 d 20)].
(** 647-675 *)
Definition LCE_CNT_ACCUM_LD_ALL_XOR (d r : nat) : list instr :=
  [LD1 [r] RHS true; V (VCNT 12 12); V (VCNT 13 13); LD1 [0; 1; 2; 3]%nat LHS true;
   V (VCNT 14 14); V (VCNT 15 15); V (VCNT 16 16); V (VCNT 17 17); LD1 [4; 5; 6; 7]%nat LHS true;
   V (VCNT 18 18); V (VCNT 19 19);
   V (VADDP 20 12 13); V (VADDP 21 14 15); V (VADDP 22 16 17); V (VADDP 23 18 19); V (VEOR 12 r 0); V (VEOR 13 r 1);
   V (VADDP 20 20 21); V (VADDP 22 22 23); V (VEOR 14 r 2); V (VEOR 15 r 3); V (VEOR 16 r 4); V (VADDP 20 20 22);
   V (VEOR 17 r 5); V (VEOR 18 r 6); V (VEOR 19 r 7); V (VUADALP2 d 20)].
(** 721-757 *)
Definition k84_init (t : dtype) : list instr :=
  [LDRX (Xr 5) 0; LDRW (Xr 6) 24] ++ zero 24 ++ [LDRW (Xr 7) 32; LDRW (Xr 8) 36] ++ zero 25 ++
  [LDRW (Xr 9) 48; LDRW (Xr 10) 52] ++ zero 26 ++ [LDRW (Xr 11) 56; LDRW (Xr 12) 60] ++ zero 27 ++
  when (is_bits t)
    [MOVI (Xr 2) 1; ADDX (Xr 2) (Xr 2) (Xr 2) 17; ADDX (Xr 2) (Xr 2) (Xr 2) 34; LSLXI (Xr 3) (Xr 2) 4;
     INSD 31 false (Xr 2); INSD 31 true (Xr 3)] ++
  [LD1 [8]%nat RHS true; LD1 [0; 1; 2; 3]%nat LHS true; LD1 [4; 5; 6; 7]%nat LHS true; MOVI (Xr 1) 4].
(** 769-779 *)
Definition k84_loop : list instr :=
  LCE_CNT_ACCUM_LD_RHS_XOR 24 9 ++ LCE_CNT_ACCUM_LD_RHS_XOR 25 10 ++ LCE_CNT_ACCUM_LD_RHS_XOR 26 11 ++
  [ADDWI (Xr 1) (Xr 1) 4; CMPW (Xr 1) (Xr 12)] ++ LCE_CNT_ACCUM_LD_ALL_XOR 27 8.
(** 784-787 *)
Definition k84_tail : list instr :=
  LCE_CNT_ACCUM_LD_RHS_XOR 24 9 ++ LCE_CNT_ACCUM_LD_RHS_XOR 25 10 ++ LCE_CNT_ACCUM_LD_RHS_XOR 26 11 ++ LCE_CNT_ACCUM 27.
(** 761-787 *)
Definition k84_accum : list instr :=
  LCE_XOR 8 ++ [CMPW (Xr 1) (Xr 12); BC EQ 79; LBL 2] ++ k84_loop ++ [BC LT 2; LBL 79] ++ k84_tail.
(** 818-836 *)
Definition k84_fit : list instr :=
  [MOVX LHS LHS_COL; MOVX RHS RHS_COL;
   SUBW (Xr 1) DST_ROWS ROW; SUBW (Xr 2) DST_COLS COL; MOVI (Xr 3) 8; MOVI (Xr 4) 4;
   CMPWI (Xr 1) 8; CSELW (Xr 1) (Xr 1) (Xr 3) LE; CMPWI (Xr 2) 4; CSELW (Xr 2) (Xr 2) (Xr 4) LE].
(** 838-902 *)
Definition k84_bits_compute : list instr :=
  [LDRX (Xr 14) 64; ADDX (Xr 14) (Xr 14) ROW 2; LD1 [29; 30]%nat (Xr 14) false;
   V (VUSHLL 20 24 0); V (VUSHLL2 21 24 0); V (VUSHLL 22 25 0); V (VUSHLL2 23 25 0);
   LD1 [8]%nat RHS true;
   V (VUSHLL 24 26 0); V (VUSHLL2 25 26 0); V (VUSHLL 26 27 0); V (VUSHLL2 27 27 0);
   LD1 [0; 1]%nat LHS true;
   V (VCMGT 20 20 29); V (VCMGT 21 21 30); V (VCMGT 22 22 29); V (VCMGT 23 23 30);
   LD1 [2; 3]%nat LHS true;
   V (VCMGT 24 24 29); V (VCMGT 25 25 30); V (VCMGT 26 26 29); V (VCMGT 27 27 30);
   LD1 [4; 5]%nat LHS true;
   V (VXTN 20 20); V (VXTN2 20 21); V (VXTN 21 22); V (VXTN2 21 23);
   LD1 [6; 7]%nat LHS true;
   V (VXTN 22 24); V (VXTN2 22 25); V (VXTN 23 26); V (VXTN2 23 27);
   V (VAND 20 20 31); V (VAND 21 21 31); V (VAND 22 22 31); V (VAND 23 23 31);
   V (VADDV 20 20); V (VADDV 21 21); V (VADDV 22 22); V (VADDV 23 23);
   CMPW (Xr 1) (Xr 3); CCMPEQ (Xr 2) (Xr 4)].
(** 903-941 *)
Definition k84_bits_write : list instr :=
  [BC EQ 60; MOVI (Xr 15) 1; LSLW (Xr 15) (Xr 15) (Xr 1); SUBWI (Xr 15) (Xr 15) 1; INSB 30 (Xr 15);
   MOVW (Xr 14) (Xr 2); MOVX (Xr 3) DST;
   V (VAND8 20 20 30); SUBSWI (Xr 14) (Xr 14) 1; ST1B 20 (Xr 3) (Some (Xr 11)); BC LE 61;
   V (VAND8 21 21 30); SUBSWI (Xr 14) (Xr 14) 1; ST1B 21 (Xr 3) (Some (Xr 11)); BC LE 61;
   V (VAND8 22 22 30); SUBSWI (Xr 14) (Xr 14) 1; ST1B 22 (Xr 3) (Some (Xr 11)); BC LE 61;
   V (VAND8 23 23 30); ST1B 23 (Xr 3) None; B 61;
   LBL 60; MOVX (Xr 3) DST; ST1B 20 (Xr 3) (Some (Xr 11)); ST1B 21 (Xr 3) (Some (Xr 11));
   ST1B 22 (Xr 3) (Some (Xr 11)); ST1B 23 (Xr 3) None; LBL 61].
(** 944-1042 *)
Definition k84_transform (t : dtype) : list instr :=
  [ADDXI (Xr 14) PARAMS 64; ADDXI (Xr 15) PARAMS 68;
   V (VUSHLL 20 24 1); V (VUSHLL2 21 24 1); LD1R 29 (Xr 14); V (VUSHLL 22 25 1); V (VUSHLL2 23 25 1); LD1R 30 (Xr 15);
   V (VUSHLL 24 26 1); V (VUSHLL2 25 26 1); LD1 [8]%nat RHS true; V (VUSHLL 26 27 1); V (VUSHLL2 27 27 1);
   LDRX (Xr 14) 72; LDRX (Xr 15) 80;
   LD1 [0; 1]%nat LHS true; V (VSMAX 20 20 29); V (VSMAX 21 21 29); LD1 [2; 3]%nat LHS true; V (VSMAX 22 22 29); V (VSMAX 23 23 29);
   LD1 [4; 5]%nat LHS true; V (VSMAX 24 24 29); V (VSMAX 25 25 29); LD1 [6; 7]%nat LHS true; V (VSMAX 26 26 29); V (VSMAX 27 27 29);
   ADDX (Xr 14) (Xr 14) ROW 2; ADDX (Xr 15) (Xr 15) ROW 2] ++
  each (fun r => VSMIN r r 30) (seq 20 4) ++ [LD1 [28; 29]%nat (Xr 14) false] ++ each (fun r => VSMIN r r 30) (seq 24 4) ++
  each (fun r => VSCVTF r r) (seq 20 4) ++ [LD1 [30; 31]%nat (Xr 15) false] ++ each (fun r => VSCVTF r r) (seq 24 4) ++
  [V (VFMUL 20 20 28); V (VFMUL 21 21 29); V (VFMUL 22 22 28); V (VFMUL 23 23 29);
   V (VFMUL 24 24 28); V (VFMUL 25 25 29); V (VFMUL 26 26 28); V (VFMUL 27 27 29);
   V (VFADD 20 20 30); V (VFADD 21 21 31); V (VFADD 22 22 30); V (VFADD 23 23 31);
   V (VFADD 24 24 30); V (VFADD 25 25 31); V (VFADD 26 26 30); V (VFADD 27 27 31)] ++
  when (is_int8 t)
    (each (fun r => VFCVTNS r r) (seq 20 8) ++
     [V (VSQXTN4H 28 20); V (VSQXTN8H 28 21); V (VSQXTN4H 29 22); V (VSQXTN8H 29 23);
      V (VSQXTN4H 30 24); V (VSQXTN8H 30 25); V (VSQXTN4H 31 26); V (VSQXTN8H 31 27);
      V (VSQXTN8B 20 28); V (VSQXTN8B 21 29); V (VSQXTN8B 22 30); V (VSQXTN8B 23 31)]) ++
  [CMPW (Xr 1) (Xr 3); CCMPEQ (Xr 2) (Xr 4)].
(** 1064-1084 *)
Definition k84_store (t : dtype) : list instr :=
  if is_float t then
    [STR 20 16 (Xr 3) 0; STR 21 16 (Xr 3) 16; ADDX (Xr 3) (Xr 3) (Xr 4) 0;
     STR 22 16 (Xr 3) 0; STR 23 16 (Xr 3) 16; ADDX (Xr 3) (Xr 3) (Xr 4) 0;
     STR 24 16 (Xr 3) 0; STR 25 16 (Xr 3) 16; ADDX (Xr 3) (Xr 3) (Xr 4) 0;
     STR 26 16 (Xr 3) 0; STR 27 16 (Xr 3) 16]
  else
    [STR 20 8 (Xr 3) 0; ADDX (Xr 3) (Xr 3) (Xr 4) 0; STR 21 8 (Xr 3) 0; ADDX (Xr 3) (Xr 3) (Xr 4) 0;
     STR 22 8 (Xr 3) 0; ADDX (Xr 3) (Xr 3) (Xr 4) 0; STR 23 8 (Xr 3) 0].
(** 1049-1117 *)
Definition k84_write (t : dtype) : list instr :=
  [BC EQ 30; MOVX (Xr 3) TMPBUF; MOVI (Xr 4) (if is_float t then 32 else 8); B 31;
   LBL 30; MOVX (Xr 3) DST; MOVX (Xr 4) (Xr 11); LBL 31] ++
  k84_store t ++ [BC EQ 41] ++ k_copy t 8 ++ [LBL 41].
(** 1119-1168 *)
Definition k84_next (t : dtype) : list instr :=
  zero 24 ++ zero 25 ++ zero 26 ++ zero 27 ++
  [CMPW ROW (Xr 7); BC EQ 20; ADDWI ROW ROW 8; ADDXI DST DST (match t with DFloat => 32 | DInt8 => 8 | DBits => 1 end); B 21;
   LBL 20; MOVW ROW (Xr 6); ADDWI COL COL 4; ADDX DST_COL DST_COL (Xr 11) 2; MOVX DST DST_COL; LBL 21;
   CMPW COL (Xr 8); MOVI (Xr 1) 4; BC LE 1].
Definition k84 (t : dtype) : list instr :=
  k84_init t ++ [LBL 1] ++ k84_accum ++ k_advance 3 ++ k84_fit ++
  (if is_bits t then k84_bits_compute ++ k84_bits_write else k84_transform t ++ k84_write t) ++ k84_next t.

(** ** MakeBinaryKernelParams, kernels_common.h 70-124 *)
Record otparams := { p_cmin : Z; p_cmax : Z; p_mul : list Z; p_bias : list Z; p_thr : list Z }.
(** The fields read by the kernels, by offset (kernels_aarch64.h 14-31). The packed
    operands start at [RLhs]/[RRhs] 0 with strides [ls], [rs] (in words); the
    destination has [rows] x [cols] elements, column stride [rows]. *)
Definition par_fields (t : dtype) (rb ls rs depth rows cols sr sc er ec : Z) (o : otparams) (off : Z) : option val :=
  let lhs_base := Ptr RLhs (4 * (sr * ls)) in
  let dst_stride := match t with DFloat => 4 * rows | DInt8 => rows | DBits => 4 * CeilDiv rows 32 end in
  if off =? 0 then Some lhs_base
  else if off =? 24 then Some (Int sr) else if off =? 32 then Some (Int (er - rb)) else if off =? 36 then Some (Int (ec - 4))
  else if off =? 48 then Some (Int (4 * ls)) else if off =? 52 then Some (Int (4 * rs))
  else if off =? 56 then Some (Int dst_stride) else if off =? 60 then Some (Int depth)
  else match t with
       | DBits => if off =? 64 then Some (Ptr RThr 0) else None
       | _ => if off =? 64 then Some (Int (p_cmin o)) else if off =? 68 then Some (Int (p_cmax o))
              else if off =? 72 then Some (Ptr RMul 0) else if off =? 80 then Some (Ptr RBias 0) else None
       end.
(** Initial values of the asm operands (190-203 / 704-717 and the operand lists). *)
Definition start_regs (t : dtype) (g : xreg -> val) (ls rs rows cols sr sc : Z) (q : xreg) : val :=
  let dst := Ptr RDst (match t with
    | DFloat => 4 * (sc * rows + sr) | DInt8 => sc * rows + sr | DBits => 4 * (sc * CeilDiv rows 32) + sr / 8 end) in
  match q with
  | LHS_COL | LHS => Ptr RLhs (4 * (sr * ls)) | RHS_COL | RHS => Ptr RRhs (4 * (sc * rs))
  | DST_COL | DST => dst | ROW => Int sr | COL => Int sc
  | PARAMS => Ptr RPar 0 | DST_ROWS => Int rows | DST_COLS => Int cols | TMPBUF => Ptr RTmp 0
  | Xr n => g (Xr n)
  end.
(** One kernel invocation on block [sr, er) x [sc, ec): the bytes it stores. The
    initial contents [f], [g] of the registers and [tmp] of dst_tmp_buf are
    unspecified. *)
Definition start (t : dtype) (f : nat -> list Z) (g : xreg -> val) (tmp : list Z) (ls rs rows cols sr sc : Z) : st :=
  {| sv := f; sx := start_regs t g ls rs rows cols sr sc; sfl := (0, 0); stmp := tmp; slog := [] |}.
Definition mkenv (t : dtype) (L R : list Z) (rb ls rs depth rows cols sr sc er ec : Z) (o : otparams) : env :=
  {| e_lhs := L; e_rhs := R; e_mul := p_mul o; e_bias := p_bias o; e_thr := p_thr o;
     e_par := par_fields t rb ls rs depth rows cols sr sc er ec o;
     e_in := []; e_zero := []; e_ind := [] |}.
Definition asm_kernel (ops : nops) (prog : list instr) (fuel : nat) (t : dtype) f g tmp
    (L R : list Z) (rb ls rs depth rows cols sr sc er ec : Z) (o : otparams) : option (list (Z * Z)) :=
  let* s := run ops (mkenv t L R rb ls rs depth rows cols sr sc er ec o) prog fuel 0
              (start t f g tmp ls rs rows cols sr sc) in
  Some (slog s).
