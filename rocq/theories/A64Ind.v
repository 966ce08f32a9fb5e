(** * A64Ind: model of the AArch64 indirect BGEMM kernels:
    core/indirect_bgemm/kernel_8x4x{1,2,4}_aarch64.h. The instruction lists are
    transcribed by a script from the asm statements; C++ around them by hand. *)
From Verif Require Import Base Spec Bits Loop4 Reference Bitpack Indirect A64 A64Bgemm.
Open Scope Z_scope.

(** Operands of the asm statements. The compiler picks their registers, here
    distinct from v0-v15 and x0-x3, which the statements clobber. Vector operands
    a_i, w_i, accum_i and result_ij; scalar operands by name. *)
Definition ra (i : nat) : nat := (20 + i)%nat.
Definition rw (i : nat) : nat := (24 + i)%nat.
Definition rc (i : nat) : nat := (32 + i)%nat.
Definition rs (i j : nat) : nat := (40 + 2 * i + j)%nat.
Definition W_PTR : xreg := Xr 40.            (* w_ptr *)
Definition IND : xreg := Xr 41.              (* indirection_ptr *)
Definition A_PTR (i : nat) : xreg := Xr (42 + i).  (* a_ptr_i *)
Definition FS : xreg := Xr 46.               (* fs_index *)
Definition DEPTH : xreg := Xr 47.            (* depth *)
Definition IDO : xreg := Xr 48.              (* input_depth_offset *)
Definition IDOB : xreg := Xr 49.             (* input_depth_offset_bytes *)
Definition CMIN : xreg := Xr 50.             (* clamp_min_addr *)
Definition CMAX : xreg := Xr 51.             (* clamp_max_addr *)
Definition MULA : xreg := Xr 52.             (* multiplier_addr *)
Definition BIASA : xreg := Xr 53.            (* bias_addr *)
Definition OTA : xreg := Xr 54.              (* output_transform_addr *)
Definition COUT : xreg := Xr 55.             (* c_out_index *)

(** kernel_8x4x1_aarch64.h 34-65 XOR_POPCOUNT_ACCUM_LOAD_BLOCK_32 *)
Definition kblock1 : list instr :=
  [V (VEOR 0 (ra 0) (rw 0)); V (VEOR 1 (ra 1) (rw 0)); V (VEOR 2 (ra 2) (rw 0)); V (VEOR 3 (ra 3) (rw 0));
   V (VEOR 4 (ra 0) (rw 1)); V (VEOR 5 (ra 1) (rw 1)); LDRQ (rw 0) W_PTR 0; V (VEOR 6 (ra 2) (rw 1));
   V (VEOR 7 (ra 3) (rw 1)); LDRQ (rw 1) W_PTR 16; V (VCNT 0 0); V (VCNT 1 1); LD1RP (ra 0) (A_PTR 0); V (VCNT 2 2);
   V (VCNT 3 3); LD1RP (ra 1) (A_PTR 1); V (VCNT 4 4); V (VCNT 5 5); LD1RP (ra 2) (A_PTR 2); V (VCNT 6 6);
   V (VCNT 7 7); LD1RP (ra 3) (A_PTR 3); V (VADDP 0 0 4); V (VADDP 1 1 5); V (VADDP 2 2 6); V (VADDP 3 3 7);
   ADDXI W_PTR W_PTR 32; V (VUADALP2 (rc 0) 0); V (VUADALP2 (rc 1) 1); V (VUADALP2 (rc 2) 2); V (VUADALP2 (rc 3) 3)].
(** kernel_8x4x1_aarch64.h 139-174 AccumulationLoop_Depth2OrMore *)
Definition kdeep1 (grouped : bool) : list instr :=
  [ADDXI IND IND 32; SUBWI (Xr 1) DEPTH 1; V (VZERO (rc 0)); V (VZERO (rc 1)); V (VZERO (rc 2)); V (VZERO (rc 3));
   LBL 0; SUBSWI (Xr 1) (Xr 1) 1] ++
  kblock1 ++
  [BC GT 0; LDPX (A_PTR 0) (A_PTR 1) IND 0; LDPX (A_PTR 2) (A_PTR 3) IND 16; ADDXI IND IND 32; SUBWI (Xr 1) DEPTH 1;
   SUBSWI FS FS 1] ++
  when grouped
    [ADDX (A_PTR 0) (A_PTR 0) IDO 2; ADDX (A_PTR 1) (A_PTR 1) IDO 2; ADDX (A_PTR 2) (A_PTR 2) IDO 2;
     ADDX (A_PTR 3) (A_PTR 3) IDO 2] ++
  kblock1 ++
  [BC GT 0].
(** kernel_8x4x1_aarch64.h 203-229 AccumulationLoop_Depth1 *)
Definition kflat1 (grouped : bool) : list instr :=
  [ADDXI IND IND 32; V (VZERO (rc 0)); V (VZERO (rc 1)); V (VZERO (rc 2)); V (VZERO (rc 3)); LBL 0;
   LDPX (A_PTR 0) (A_PTR 1) IND 0; LDPX (A_PTR 2) (A_PTR 3) IND 16; ADDXI IND IND 32; SUBSWI FS FS 1] ++
  when grouped
    [ADDX (A_PTR 0) (A_PTR 0) IDO 2; ADDX (A_PTR 1) (A_PTR 1) IDO 2; ADDX (A_PTR 2) (A_PTR 2) IDO 2;
     ADDX (A_PTR 3) (A_PTR 3) IDO 2] ++
  kblock1 ++
  [BC GT 0].
(** kernel_8x4x1_aarch64.h 269-346 OutputTransformAndLoadNextAndStore, float *)
Definition kfloat1 (grouped : bool) : list instr :=
  [LDPX (Xr 0) (Xr 1) IND 0; LDPX (Xr 2) (Xr 3) IND 16; LD1R 0 CMIN; V (VUSHLL (rs 0 0) (rc 0) 1);
   V (VUSHLL (rs 1 0) (rc 1) 1); LD1R 1 CMAX; V (VUSHLL (rs 2 0) (rc 2) 1); V (VUSHLL (rs 3 0) (rc 3) 1);
   LDRQ 2 MULA 0; V (VUSHLL2 (rs 3 1) (rc 3) 1); V (VUSHLL2 (rs 2 1) (rc 2) 1); LDRQ 3 MULA 16;
   V (VUSHLL2 (rs 1 1) (rc 1) 1); V (VUSHLL2 (rs 0 1) (rc 0) 1)] ++
  when grouped
    [ADDX (Xr 0) (Xr 0) IDO 2; ADDX (Xr 1) (Xr 1) IDO 2; ADDX (Xr 2) (Xr 2) IDO 2; ADDX (Xr 3) (Xr 3) IDO 2] ++
  [LDRQ 4 BIASA 0; V (VSMAX (rs 3 0) (rs 3 0) 0); V (VSMAX (rs 3 1) (rs 3 1) 0); V (VSMAX (rs 2 0) (rs 2 0) 0);
   V (VSMAX (rs 2 1) (rs 2 1) 0); LDRQ 5 BIASA 16; V (VSMAX (rs 1 0) (rs 1 0) 0); V (VSMAX (rs 1 1) (rs 1 1) 0);
   V (VSMAX (rs 0 0) (rs 0 0) 0); V (VSMAX (rs 0 1) (rs 0 1) 0); LD1R (ra 0) (Xr 0); V (VSMIN (rs 3 0) (rs 3 0) 1);
   V (VSMIN (rs 3 1) (rs 3 1) 1); V (VSMIN (rs 2 0) (rs 2 0) 1); V (VSMIN (rs 2 1) (rs 2 1) 1); LD1R (ra 1) (Xr 1);
   V (VSMIN (rs 1 0) (rs 1 0) 1); V (VSMIN (rs 1 1) (rs 1 1) 1); V (VSMIN (rs 0 0) (rs 0 0) 1);
   V (VSMIN (rs 0 1) (rs 0 1) 1); LD1R (ra 2) (Xr 2); V (VSCVTF (rs 3 0) (rs 3 0)); V (VSCVTF (rs 3 1) (rs 3 1));
   LD1R (ra 3) (Xr 3); V (VSCVTF (rs 2 0) (rs 2 0)); V (VFMUL (rs 3 0) (rs 3 0) 2); V (VSCVTF (rs 2 1) (rs 2 1));
   LDRQ (rw 0) W_PTR (-32); V (VFMUL (rs 3 1) (rs 3 1) 3); V (VFADD (rs 3 0) (rs 3 0) 4); V (VSCVTF (rs 1 0) (rs 1 0));
   LDRQ (rw 1) W_PTR (-16); V (VFMUL (rs 2 0) (rs 2 0) 2); V (VFADD (rs 3 1) (rs 3 1) 5); V (VSCVTF (rs 1 1) (rs 1 1));
   V (VFMUL (rs 2 1) (rs 2 1) 3); V (VFADD (rs 2 0) (rs 2 0) 4); V (VSCVTF (rs 0 0) (rs 0 0));
   V (VFMUL (rs 1 0) (rs 1 0) 2); V (VFADD (rs 2 1) (rs 2 1) 5); V (VSCVTF (rs 0 1) (rs 0 1));
   V (VFMUL (rs 1 1) (rs 1 1) 3); V (VFADD (rs 1 0) (rs 1 0) 4); V (VFMUL (rs 0 0) (rs 0 0) 2);
   V (VFMUL (rs 0 1) (rs 0 1) 3); V (VFADD (rs 1 1) (rs 1 1) 5); V (VFADD (rs 0 0) (rs 0 0) 4);
   V (VFADD (rs 0 1) (rs 0 1) 5)].
(** kernel_8x4x1_aarch64.h 437-535 OutputTransformAndLoadNextAndStore, int8 *)
Definition kint8x1 (grouped : bool) : list instr :=
  [LDPX (Xr 0) (Xr 1) IND 0; LDPX (Xr 2) (Xr 3) IND 16; LD1R 0 CMIN; V (VUSHLL (rs 0 0) (rc 0) 1);
   V (VUSHLL (rs 1 0) (rc 1) 1); LD1R 1 CMAX; V (VUSHLL (rs 2 0) (rc 2) 1); V (VUSHLL (rs 3 0) (rc 3) 1);
   LDRQ 2 MULA 0; V (VUSHLL2 (rs 3 1) (rc 3) 1); V (VUSHLL2 (rs 2 1) (rc 2) 1); LDRQ 3 MULA 16;
   V (VUSHLL2 (rs 1 1) (rc 1) 1); V (VUSHLL2 (rs 0 1) (rc 0) 1)] ++
  when grouped
    [ADDX (Xr 0) (Xr 0) IDO 2; ADDX (Xr 1) (Xr 1) IDO 2; ADDX (Xr 2) (Xr 2) IDO 2; ADDX (Xr 3) (Xr 3) IDO 2] ++
  [LDRQ 4 BIASA 0; V (VSMAX (rs 3 0) (rs 3 0) 0); V (VSMAX (rs 3 1) (rs 3 1) 0); V (VSMAX (rs 2 0) (rs 2 0) 0);
   V (VSMAX (rs 2 1) (rs 2 1) 0); LDRQ 5 BIASA 16; V (VSMAX (rs 1 0) (rs 1 0) 0); V (VSMAX (rs 1 1) (rs 1 1) 0);
   V (VSMAX (rs 0 0) (rs 0 0) 0); V (VSMAX (rs 0 1) (rs 0 1) 0); LD1R (ra 0) (Xr 0); V (VSMIN (rs 3 0) (rs 3 0) 1);
   V (VSMIN (rs 3 1) (rs 3 1) 1); V (VSMIN (rs 2 0) (rs 2 0) 1); V (VSMIN (rs 2 1) (rs 2 1) 1); LD1R (ra 1) (Xr 1);
   V (VSMIN (rs 1 0) (rs 1 0) 1); V (VSMIN (rs 1 1) (rs 1 1) 1); V (VSMIN (rs 0 0) (rs 0 0) 1);
   V (VSMIN (rs 0 1) (rs 0 1) 1); LD1R (ra 2) (Xr 2); V (VSCVTF (rs 3 0) (rs 3 0)); V (VSCVTF (rs 3 1) (rs 3 1));
   LD1R (ra 3) (Xr 3); V (VSCVTF (rs 2 0) (rs 2 0)); V (VFMUL (rs 3 0) (rs 3 0) 2); V (VSCVTF (rs 2 1) (rs 2 1));
   LDRQ (rw 0) W_PTR (-32); V (VFMUL (rs 3 1) (rs 3 1) 3); V (VFADD (rs 3 0) (rs 3 0) 4); V (VSCVTF (rs 1 0) (rs 1 0));
   LDRQ (rw 1) W_PTR (-16); V (VFMUL (rs 2 0) (rs 2 0) 2); V (VFADD (rs 3 1) (rs 3 1) 5); V (VSCVTF (rs 1 1) (rs 1 1));
   V (VFMUL (rs 2 1) (rs 2 1) 3); V (VFADD (rs 2 0) (rs 2 0) 4); V (VFCVTNS (rs 3 0) (rs 3 0));
   V (VFMUL (rs 1 0) (rs 1 0) 2); V (VFADD (rs 2 1) (rs 2 1) 5); V (VFCVTNS (rs 3 1) (rs 3 1));
   V (VSQXTN4H (rs 3 0) (rs 3 0)); V (VFMUL (rs 1 1) (rs 1 1) 3); V (VSCVTF (rs 0 0) (rs 0 0));
   V (VSQXTN8H (rs 3 0) (rs 3 1)); V (VFADD (rs 1 0) (rs 1 0) 4); V (VSCVTF (rs 0 1) (rs 0 1));
   V (VFMUL (rs 0 0) (rs 0 0) 2); V (VFADD (rs 1 1) (rs 1 1) 5); V (VFCVTNS (rs 2 0) (rs 2 0));
   V (VFMUL (rs 0 1) (rs 0 1) 3); V (VFADD (rs 0 0) (rs 0 0) 4); V (VFCVTNS (rs 2 1) (rs 2 1));
   V (VSQXTN4H (rs 2 0) (rs 2 0)); V (VFADD (rs 0 1) (rs 0 1) 5); V (VFCVTNS (rs 1 0) (rs 1 0));
   V (VSQXTN8H (rs 2 0) (rs 2 1)); V (VFCVTNS (rs 1 1) (rs 1 1)); V (VSQXTN4H (rs 1 0) (rs 1 0));
   V (VSQXTN8B (rs 3 0) (rs 3 0)); V (VFCVTNS (rs 0 0) (rs 0 0)); V (VSQXTN8H (rs 1 0) (rs 1 1));
   V (VSQXTN8B (rs 2 0) (rs 2 0)); V (VFCVTNS (rs 0 1) (rs 0 1)); V (VSQXTN4H (rs 0 0) (rs 0 0));
   V (VSQXTN8H (rs 0 0) (rs 0 1)); V (VSQXTN8B (rs 1 0) (rs 1 0)); V (VSQXTN8B (rs 0 0) (rs 0 0))].
(** kernel_8x4x2_aarch64.h 39-100 XOR_POPCOUNT_ACCUM_LOAD_BLOCK_64 *)
Definition kblock2 : list instr :=
  [V (VEOR 0 (ra 0) (rw 0)); V (VEOR 1 (ra 1) (rw 0)); V (VEOR 2 (ra 2) (rw 0)); V (VEOR 3 (ra 3) (rw 0));
   V (VEOR 4 (ra 0) (rw 1)); V (VEOR 5 (ra 1) (rw 1)); V (VEOR 6 (ra 2) (rw 1)); V (VEOR 7 (ra 3) (rw 1));
   V (VEOR 8 (ra 0) (rw 2)); V (VEOR 9 (ra 1) (rw 2)); V (VEOR 10 (ra 2) (rw 2)); V (VEOR 11 (ra 3) (rw 2));
   LDRQ (rw 0) W_PTR 0; V (VEOR 12 (ra 0) (rw 3)); V (VEOR 13 (ra 1) (rw 3)); V (VEOR 14 (ra 2) (rw 3));
   V (VEOR 15 (ra 3) (rw 3)); LDRQ (rw 1) W_PTR 16; V (VCNT 0 0); V (VCNT 1 1); LD1D (ra 0) false (A_PTR 0) false;
   V (VCNT 2 2); V (VCNT 3 3); LD1D (ra 1) false (A_PTR 1) false; V (VCNT 4 4); V (VCNT 5 5);
   LD1D (ra 2) false (A_PTR 2) false; V (VCNT 6 6); V (VCNT 7 7); LD1D (ra 3) false (A_PTR 3) false; V (VCNT 8 8);
   V (VCNT 9 9); LD1D (ra 0) true (A_PTR 0) true; V (VCNT 10 10); V (VCNT 11 11); LD1D (ra 1) true (A_PTR 1) true;
   V (VCNT 12 12); V (VCNT 13 13); LD1D (ra 2) true (A_PTR 2) true; V (VCNT 14 14); V (VCNT 15 15);
   LD1D (ra 3) true (A_PTR 3) true; V (VADDP 0 0 4); V (VADDP 1 1 5); V (VADDP 2 2 6); V (VADDP 3 3 7);
   LDRQ (rw 2) W_PTR 32; V (VADDP 8 8 12); V (VADDP 9 9 13); V (VADDP 10 10 14); V (VADDP 11 11 15);
   LDRQ (rw 3) W_PTR 48; V (VADDP 0 0 8); V (VADDP 1 1 9); V (VADDP 2 2 10); V (VADDP 3 3 11); ADDXI W_PTR W_PTR 64;
   V (VUADALP2 (rc 0) 0); V (VUADALP2 (rc 1) 1); V (VUADALP2 (rc 2) 2); V (VUADALP2 (rc 3) 3)].
(** kernel_8x4x2_aarch64.h 174-209 AccumulationLoop_Depth2OrMore *)
Definition kdeep2 (grouped : bool) : list instr :=
  [ADDXI IND IND 32; SUBWI (Xr 1) DEPTH 1; V (VZERO (rc 0)); V (VZERO (rc 1)); V (VZERO (rc 2)); V (VZERO (rc 3));
   LBL 0; SUBSWI (Xr 1) (Xr 1) 1] ++
  kblock2 ++
  [BC GT 0; LDPX (A_PTR 0) (A_PTR 1) IND 0; LDPX (A_PTR 2) (A_PTR 3) IND 16; ADDXI IND IND 32; SUBWI (Xr 1) DEPTH 1;
   SUBSWI FS FS 1] ++
  when grouped
    [ADDX (A_PTR 0) (A_PTR 0) IDO 2; ADDX (A_PTR 1) (A_PTR 1) IDO 2; ADDX (A_PTR 2) (A_PTR 2) IDO 2;
     ADDX (A_PTR 3) (A_PTR 3) IDO 2] ++
  kblock2 ++
  [BC GT 0].
(** kernel_8x4x2_aarch64.h 240-266 AccumulationLoop_Depth1 *)
Definition kflat2 (grouped : bool) : list instr :=
  [ADDXI IND IND 32; V (VZERO (rc 0)); V (VZERO (rc 1)); V (VZERO (rc 2)); V (VZERO (rc 3)); LBL 0;
   LDPX (A_PTR 0) (A_PTR 1) IND 0; LDPX (A_PTR 2) (A_PTR 3) IND 16; ADDXI IND IND 32; SUBSWI FS FS 1] ++
  when grouped
    [ADDX (A_PTR 0) (A_PTR 0) IDO 2; ADDX (A_PTR 1) (A_PTR 1) IDO 2; ADDX (A_PTR 2) (A_PTR 2) IDO 2;
     ADDX (A_PTR 3) (A_PTR 3) IDO 2] ++
  kblock2 ++
  [BC GT 0].
(** kernel_8x4x2_aarch64.h 308-391 OutputTransformAndLoadNextAndStore, float *)
Definition kfloat2 (grouped : bool) : list instr :=
  [LDPX (Xr 0) (Xr 1) IND 0; LDPX (Xr 2) (Xr 3) IND 16; LD1R 0 CMIN; V (VUSHLL (rs 0 0) (rc 0) 1);
   V (VUSHLL (rs 1 0) (rc 1) 1); LD1R 1 CMAX; V (VUSHLL (rs 2 0) (rc 2) 1); V (VUSHLL (rs 3 0) (rc 3) 1);
   LDRQ 2 MULA 0; V (VUSHLL2 (rs 3 1) (rc 3) 1); V (VUSHLL2 (rs 2 1) (rc 2) 1); LDRQ 3 MULA 16;
   V (VUSHLL2 (rs 1 1) (rc 1) 1); V (VUSHLL2 (rs 0 1) (rc 0) 1)] ++
  when grouped
    [ADDX (Xr 0) (Xr 0) IDO 2; ADDX (Xr 1) (Xr 1) IDO 2; ADDX (Xr 2) (Xr 2) IDO 2; ADDX (Xr 3) (Xr 3) IDO 2] ++
  [LDRQ 4 BIASA 0; V (VSMAX (rs 3 0) (rs 3 0) 0); V (VSMAX (rs 3 1) (rs 3 1) 0); LDRQ 5 BIASA 16;
   V (VSMAX (rs 2 0) (rs 2 0) 0); V (VSMAX (rs 2 1) (rs 2 1) 0); LDRQ (rw 0) W_PTR (-64);
   V (VSMAX (rs 1 0) (rs 1 0) 0); V (VSMAX (rs 1 1) (rs 1 1) 0); LDRQ (rw 1) W_PTR (-48);
   V (VSMAX (rs 0 0) (rs 0 0) 0); V (VSMAX (rs 0 1) (rs 0 1) 0); LD1D (ra 0) false (Xr 0) false;
   V (VSMIN (rs 3 0) (rs 3 0) 1); V (VSMIN (rs 3 1) (rs 3 1) 1); LD1D (ra 1) false (Xr 1) false;
   V (VSMIN (rs 2 0) (rs 2 0) 1); V (VSMIN (rs 2 1) (rs 2 1) 1); LD1D (ra 2) false (Xr 2) false;
   V (VSMIN (rs 1 0) (rs 1 0) 1); V (VSMIN (rs 1 1) (rs 1 1) 1); LD1D (ra 3) false (Xr 3) false;
   V (VSMIN (rs 0 0) (rs 0 0) 1); V (VSMIN (rs 0 1) (rs 0 1) 1); LD1D (ra 0) true (Xr 0) false;
   V (VSCVTF (rs 3 0) (rs 3 0)); V (VSCVTF (rs 3 1) (rs 3 1)); LD1D (ra 1) true (Xr 1) false;
   V (VSCVTF (rs 2 0) (rs 2 0)); V (VFMUL (rs 3 0) (rs 3 0) 2); V (VSCVTF (rs 2 1) (rs 2 1));
   LD1D (ra 2) true (Xr 2) false; V (VFMUL (rs 3 1) (rs 3 1) 3); V (VFADD (rs 3 0) (rs 3 0) 4);
   V (VSCVTF (rs 1 0) (rs 1 0)); LD1D (ra 3) true (Xr 3) false; V (VFMUL (rs 2 0) (rs 2 0) 2);
   V (VFADD (rs 3 1) (rs 3 1) 5); V (VSCVTF (rs 1 1) (rs 1 1)); LDRQ (rw 2) W_PTR (-32); V (VFMUL (rs 2 1) (rs 2 1) 3);
   V (VFADD (rs 2 0) (rs 2 0) 4); V (VSCVTF (rs 0 0) (rs 0 0)); LDRQ (rw 3) W_PTR (-16); V (VFMUL (rs 1 0) (rs 1 0) 2);
   V (VFADD (rs 2 1) (rs 2 1) 5); V (VSCVTF (rs 0 1) (rs 0 1)); V (VFMUL (rs 1 1) (rs 1 1) 3);
   V (VFADD (rs 1 0) (rs 1 0) 4); V (VFMUL (rs 0 0) (rs 0 0) 2); V (VFMUL (rs 0 1) (rs 0 1) 3);
   V (VFADD (rs 1 1) (rs 1 1) 5); V (VFADD (rs 0 0) (rs 0 0) 4); V (VFADD (rs 0 1) (rs 0 1) 5)].
(** kernel_8x4x2_aarch64.h 482-586 OutputTransformAndLoadNextAndStore, int8 *)
Definition kint8x2 (grouped : bool) : list instr :=
  [LDPX (Xr 0) (Xr 1) IND 0; LDPX (Xr 2) (Xr 3) IND 16; LD1R 0 CMIN; V (VUSHLL (rs 0 0) (rc 0) 1);
   V (VUSHLL (rs 1 0) (rc 1) 1); LD1R 1 CMAX; V (VUSHLL (rs 2 0) (rc 2) 1); V (VUSHLL (rs 3 0) (rc 3) 1);
   LDRQ 2 MULA 0; V (VUSHLL2 (rs 3 1) (rc 3) 1); V (VUSHLL2 (rs 2 1) (rc 2) 1); LDRQ 3 MULA 16;
   V (VUSHLL2 (rs 1 1) (rc 1) 1); V (VUSHLL2 (rs 0 1) (rc 0) 1)] ++
  when grouped
    [ADDX (Xr 0) (Xr 0) IDO 2; ADDX (Xr 1) (Xr 1) IDO 2; ADDX (Xr 2) (Xr 2) IDO 2; ADDX (Xr 3) (Xr 3) IDO 2] ++
  [LDRQ 4 BIASA 0; V (VSMAX (rs 3 0) (rs 3 0) 0); V (VSMAX (rs 3 1) (rs 3 1) 0); LDRQ 5 BIASA 16;
   V (VSMAX (rs 2 0) (rs 2 0) 0); V (VSMAX (rs 2 1) (rs 2 1) 0); LDRQ (rw 0) W_PTR (-64);
   V (VSMAX (rs 1 0) (rs 1 0) 0); V (VSMAX (rs 1 1) (rs 1 1) 0); LDRQ (rw 1) W_PTR (-48);
   V (VSMAX (rs 0 0) (rs 0 0) 0); V (VSMAX (rs 0 1) (rs 0 1) 0); LD1D (ra 0) false (Xr 0) false;
   V (VSMIN (rs 3 0) (rs 3 0) 1); V (VSMIN (rs 3 1) (rs 3 1) 1); LD1D (ra 1) false (Xr 1) false;
   V (VSMIN (rs 2 0) (rs 2 0) 1); V (VSMIN (rs 2 1) (rs 2 1) 1); LD1D (ra 2) false (Xr 2) false;
   V (VSMIN (rs 1 0) (rs 1 0) 1); V (VSMIN (rs 1 1) (rs 1 1) 1); LD1D (ra 3) false (Xr 3) false;
   V (VSMIN (rs 0 0) (rs 0 0) 1); V (VSMIN (rs 0 1) (rs 0 1) 1); LD1D (ra 0) true (Xr 0) false;
   V (VSCVTF (rs 3 0) (rs 3 0)); V (VSCVTF (rs 3 1) (rs 3 1)); LD1D (ra 1) true (Xr 1) false;
   V (VSCVTF (rs 2 0) (rs 2 0)); V (VFMUL (rs 3 0) (rs 3 0) 2); V (VSCVTF (rs 2 1) (rs 2 1));
   LD1D (ra 2) true (Xr 2) false; V (VFMUL (rs 3 1) (rs 3 1) 3); V (VFADD (rs 3 0) (rs 3 0) 4);
   V (VSCVTF (rs 1 0) (rs 1 0)); LD1D (ra 3) true (Xr 3) false; V (VFMUL (rs 2 0) (rs 2 0) 2);
   V (VFADD (rs 3 1) (rs 3 1) 5); V (VSCVTF (rs 1 1) (rs 1 1)); LDRQ (rw 2) W_PTR (-32); V (VFMUL (rs 2 1) (rs 2 1) 3);
   V (VFADD (rs 2 0) (rs 2 0) 4); V (VFCVTNS (rs 3 0) (rs 3 0)); LDRQ (rw 3) W_PTR (-16);
   V (VFMUL (rs 1 0) (rs 1 0) 2); V (VFADD (rs 2 1) (rs 2 1) 5); V (VFCVTNS (rs 3 1) (rs 3 1));
   V (VSQXTN4H (rs 3 0) (rs 3 0)); V (VFMUL (rs 1 1) (rs 1 1) 3); V (VSCVTF (rs 0 0) (rs 0 0));
   V (VSQXTN8H (rs 3 0) (rs 3 1)); V (VFADD (rs 1 0) (rs 1 0) 4); V (VSCVTF (rs 0 1) (rs 0 1));
   V (VFMUL (rs 0 0) (rs 0 0) 2); V (VFADD (rs 1 1) (rs 1 1) 5); V (VFCVTNS (rs 2 0) (rs 2 0));
   V (VFMUL (rs 0 1) (rs 0 1) 3); V (VFADD (rs 0 0) (rs 0 0) 4); V (VFCVTNS (rs 2 1) (rs 2 1));
   V (VSQXTN4H (rs 2 0) (rs 2 0)); V (VFADD (rs 0 1) (rs 0 1) 5); V (VFCVTNS (rs 1 0) (rs 1 0));
   V (VSQXTN8H (rs 2 0) (rs 2 1)); V (VFCVTNS (rs 1 1) (rs 1 1)); V (VSQXTN4H (rs 1 0) (rs 1 0));
   V (VSQXTN8B (rs 3 0) (rs 3 0)); V (VFCVTNS (rs 0 0) (rs 0 0)); V (VSQXTN8H (rs 1 0) (rs 1 1));
   V (VSQXTN8B (rs 2 0) (rs 2 0)); V (VFCVTNS (rs 0 1) (rs 0 1)); V (VSQXTN4H (rs 0 0) (rs 0 0));
   V (VSQXTN8H (rs 0 0) (rs 0 1)); V (VSQXTN8B (rs 1 0) (rs 1 0)); V (VSQXTN8B (rs 0 0) (rs 0 0))].
(** kernel_8x4x4_aarch64.h 33-146 XOR_POPCOUNT_ACCUM_LOAD_BLOCK_128 *)
Definition kblock4 : list instr :=
  [V (VEOR 0 (ra 0) (rw 0)); V (VEOR 1 (ra 1) (rw 0)); V (VEOR 2 (ra 2) (rw 0)); V (VEOR 3 (ra 3) (rw 0));
   V (VEOR 4 (ra 0) (rw 1)); V (VEOR 5 (ra 1) (rw 1)); V (VEOR 6 (ra 2) (rw 1)); V (VEOR 7 (ra 3) (rw 1));
   V (VEOR 8 (ra 0) (rw 2)); V (VEOR 9 (ra 1) (rw 2)); V (VEOR 10 (ra 2) (rw 2)); V (VEOR 11 (ra 3) (rw 2));
   V (VEOR 12 (ra 0) (rw 3)); V (VEOR 13 (ra 1) (rw 3)); V (VEOR 14 (ra 2) (rw 3)); V (VEOR 15 (ra 3) (rw 3));
   V (VCNT 0 0); V (VCNT 1 1); V (VCNT 2 2); V (VCNT 3 3); V (VCNT 4 4); V (VCNT 5 5); V (VCNT 6 6); V (VCNT 7 7);
   V (VCNT 8 8); V (VCNT 9 9); V (VCNT 10 10); V (VCNT 11 11); V (VCNT 12 12); V (VCNT 13 13); V (VCNT 14 14);
   V (VCNT 15 15); V (VADDP 0 0 4); V (VADDP 1 1 5); V (VADDP 2 2 6); V (VADDP 3 3 7); V (VADDP 8 8 12);
   V (VADDP 9 9 13); V (VADDP 10 10 14); V (VADDP 11 11 15); V (VEOR 4 (ra 0) (rw 4)); V (VEOR 5 (ra 1) (rw 4));
   V (VEOR 6 (ra 2) (rw 4)); V (VEOR 7 (ra 3) (rw 4)); V (VEOR 12 (ra 0) (rw 5)); V (VEOR 13 (ra 1) (rw 5));
   V (VEOR 14 (ra 2) (rw 5)); V (VEOR 15 (ra 3) (rw 5)); V (VEOR (rw 0) (ra 0) (rw 6)); V (VEOR (rw 1) (ra 1) (rw 6));
   V (VEOR (rw 2) (ra 2) (rw 6)); V (VEOR (rw 3) (ra 3) (rw 6)); V (VEOR (rw 4) (ra 0) (rw 7));
   V (VEOR (rw 5) (ra 1) (rw 7)); V (VEOR (rw 6) (ra 2) (rw 7)); V (VEOR (rw 7) (ra 3) (rw 7)); V (VCNT 4 4);
   V (VCNT 5 5); V (VCNT 6 6); V (VCNT 7 7); LD1 [ra 0] (A_PTR 0) true; V (VCNT 12 12); V (VCNT 13 13);
   V (VCNT 14 14); V (VCNT 15 15); LD1 [ra 1] (A_PTR 1) true; V (VCNT (rw 0) (rw 0)); V (VCNT (rw 1) (rw 1));
   V (VCNT (rw 2) (rw 2)); V (VCNT (rw 3) (rw 3)); LD1 [ra 2] (A_PTR 2) true; V (VCNT (rw 4) (rw 4));
   V (VCNT (rw 5) (rw 5)); V (VCNT (rw 6) (rw 6)); V (VCNT (rw 7) (rw 7)); LD1 [ra 3] (A_PTR 3) true;
   V (VADDP 4 4 12); V (VADDP 5 5 13); V (VADDP 6 6 14); V (VADDP 7 7 15); V (VADDP 12 (rw 0) (rw 4));
   V (VADDP 13 (rw 1) (rw 5)); V (VADDP 14 (rw 2) (rw 6)); V (VADDP 15 (rw 3) (rw 7)); LDRQ (rw 0) W_PTR 0;
   V (VADDP 0 0 8); V (VADDP 1 1 9); LDRQ (rw 1) W_PTR 16; V (VADDP 2 2 10); V (VADDP 3 3 11); LDRQ (rw 2) W_PTR 32;
   V (VADDP 4 4 12); V (VADDP 5 5 13); LDRQ (rw 3) W_PTR 48; V (VADDP 6 6 14); V (VADDP 7 7 15); LDRQ (rw 4) W_PTR 64;
   V (VADDP 0 0 4); V (VADDP 1 1 5); LDRQ (rw 5) W_PTR 80; V (VADDP 2 2 6); V (VADDP 3 3 7); LDRQ (rw 6) W_PTR 96;
   V (VUADALP2 (rc 0) 0); V (VUADALP2 (rc 1) 1); LDRQ (rw 7) W_PTR 112; V (VUADALP2 (rc 2) 2); V (VUADALP2 (rc 3) 3);
   ADDXI W_PTR W_PTR 128].
(** kernel_8x4x4_aarch64.h 209-258 AccumulationLoop_Depth2OrMore *)
Definition kdeep4 (grouped : bool) : list instr :=
  [LDPX (A_PTR 0) (A_PTR 1) IND 0; LDPX (A_PTR 2) (A_PTR 3) IND 16; ADDXI IND IND 32; SUBWI (Xr 1) DEPTH 1;
   V (VZERO (rc 0)); V (VZERO (rc 1)); V (VZERO (rc 2)); V (VZERO (rc 3))] ++
  when grouped
    [ADDX (A_PTR 0) (A_PTR 0) IDO 2; ADDX (A_PTR 1) (A_PTR 1) IDO 2; ADDX (A_PTR 2) (A_PTR 2) IDO 2;
     ADDX (A_PTR 3) (A_PTR 3) IDO 2] ++
  [ADDXI (A_PTR 0) (A_PTR 0) 16; ADDXI (A_PTR 1) (A_PTR 1) 16; ADDXI (A_PTR 2) (A_PTR 2) 16;
   ADDXI (A_PTR 3) (A_PTR 3) 16; LBL 0; SUBSWI (Xr 1) (Xr 1) 1] ++
  kblock4 ++
  [BC GT 0; LDPX (A_PTR 0) (A_PTR 1) IND 0; LDPX (A_PTR 2) (A_PTR 3) IND 16; ADDXI IND IND 32; SUBWI (Xr 1) DEPTH 1;
   SUBSWI FS FS 1] ++
  when grouped
    [ADDX (A_PTR 0) (A_PTR 0) IDO 2; ADDX (A_PTR 1) (A_PTR 1) IDO 2; ADDX (A_PTR 2) (A_PTR 2) IDO 2;
     ADDX (A_PTR 3) (A_PTR 3) IDO 2] ++
  kblock4 ++
  [BC GT 0].
(** kernel_8x4x4_aarch64.h 290-316 AccumulationLoop_Depth1 *)
Definition kflat4 (grouped : bool) : list instr :=
  [ADDXI IND IND 32; V (VZERO (rc 0)); V (VZERO (rc 1)); V (VZERO (rc 2)); V (VZERO (rc 3)); LBL 0;
   LDPX (A_PTR 0) (A_PTR 1) IND 0; LDPX (A_PTR 2) (A_PTR 3) IND 16; ADDXI IND IND 32; SUBSWI FS FS 1] ++
  when grouped
    [ADDX (A_PTR 0) (A_PTR 0) IDO 2; ADDX (A_PTR 1) (A_PTR 1) IDO 2; ADDX (A_PTR 2) (A_PTR 2) IDO 2;
     ADDX (A_PTR 3) (A_PTR 3) IDO 2] ++
  kblock4 ++
  [BC GT 0].
(** kernel_8x4x4_aarch64.h 363-445 OutputTransformAndLoadNextAndStore, float *)
Definition kfloat4 (grouped : bool) : list instr :=
  [LDRP (Xr 0) OTA 8; ADDXI (Xr 1) OTA 4; LD1R 0 OTA; V (VUSHLL (rs 0 0) (rc 0) 1); V (VUSHLL (rs 1 0) (rc 1) 1);
   LD1R 1 (Xr 1); V (VUSHLL (rs 2 0) (rc 2) 1); ADDX (Xr 0) (Xr 0) COUT 2; V (VUSHLL (rs 3 0) (rc 3) 1);
   LDPQ 2 3 (Xr 0); V (VUSHLL2 (rs 3 1) (rc 3) 1); V (VUSHLL2 (rs 2 1) (rc 2) 1); LDPX (Xr 0) (Xr 1) IND 0;
   V (VUSHLL2 (rs 1 1) (rc 1) 1); V (VUSHLL2 (rs 0 1) (rc 0) 1); LDPX (Xr 2) (Xr 3) IND 16;
   V (VSMAX (rs 3 0) (rs 3 0) 0); V (VSMAX (rs 3 1) (rs 3 1) 0); LDRQ (rw 0) W_PTR (-128);
   V (VSMAX (rs 2 0) (rs 2 0) 0); V (VSMAX (rs 2 1) (rs 2 1) 0); LDRQ (rw 1) W_PTR (-112);
   V (VSMAX (rs 1 0) (rs 1 0) 0); V (VSMAX (rs 1 1) (rs 1 1) 0); LDRQX (ra 0) (Xr 0) IDOB;
   V (VSMAX (rs 0 0) (rs 0 0) 0); V (VSMAX (rs 0 1) (rs 0 1) 0); LDRP (Xr 0) OTA 16; LDRQX (ra 1) (Xr 1) IDOB;
   V (VSMIN (rs 3 0) (rs 3 0) 1); V (VSMIN (rs 3 1) (rs 3 1) 1); ADDX (Xr 0) (Xr 0) COUT 2; LDRQX (ra 2) (Xr 2) IDOB;
   V (VSMIN (rs 2 0) (rs 2 0) 1); V (VSMIN (rs 2 1) (rs 2 1) 1); LDRQ 0 (Xr 0) 0; V (VSMIN (rs 1 0) (rs 1 0) 1);
   V (VSMIN (rs 1 1) (rs 1 1) 1); LDRQX (ra 3) (Xr 3) IDOB; V (VSMIN (rs 0 0) (rs 0 0) 1);
   V (VSMIN (rs 0 1) (rs 0 1) 1); LDRQ 1 (Xr 0) 16; LDRQ (rw 2) W_PTR (-96); V (VSCVTF (rs 3 0) (rs 3 0));
   V (VSCVTF (rs 3 1) (rs 3 1)); LDRQ (rw 3) W_PTR (-80); V (VSCVTF (rs 2 0) (rs 2 0)); V (VFMUL (rs 3 0) (rs 3 0) 2);
   V (VSCVTF (rs 2 1) (rs 2 1)); LDRQ (rw 4) W_PTR (-64); V (VFMUL (rs 3 1) (rs 3 1) 3); V (VFADD (rs 3 0) (rs 3 0) 0);
   V (VSCVTF (rs 1 0) (rs 1 0)); LDRQ (rw 5) W_PTR (-48); V (VFMUL (rs 2 0) (rs 2 0) 2); V (VFADD (rs 3 1) (rs 3 1) 1);
   V (VSCVTF (rs 1 1) (rs 1 1)); LDRQ (rw 6) W_PTR (-32); V (VFMUL (rs 2 1) (rs 2 1) 3); V (VFADD (rs 2 0) (rs 2 0) 0);
   V (VSCVTF (rs 0 0) (rs 0 0)); LDRQ (rw 7) W_PTR (-16); V (VFMUL (rs 1 0) (rs 1 0) 2); V (VFADD (rs 2 1) (rs 2 1) 1);
   V (VSCVTF (rs 0 1) (rs 0 1)); V (VFMUL (rs 1 1) (rs 1 1) 3); V (VFADD (rs 1 0) (rs 1 0) 0);
   V (VFMUL (rs 0 0) (rs 0 0) 2); V (VFMUL (rs 0 1) (rs 0 1) 3); V (VFADD (rs 1 1) (rs 1 1) 1);
   V (VFADD (rs 0 0) (rs 0 0) 0); V (VFADD (rs 0 1) (rs 0 1) 1)].
(** kernel_8x4x4_aarch64.h 543-645 OutputTransformAndLoadNextAndStore, int8 *)
Definition kint8x4 (grouped : bool) : list instr :=
  [LDRP (Xr 0) OTA 8; ADDXI (Xr 1) OTA 4; LD1R 0 OTA; V (VUSHLL (rs 0 0) (rc 0) 1); V (VUSHLL (rs 1 0) (rc 1) 1);
   LD1R 1 (Xr 1); V (VUSHLL (rs 2 0) (rc 2) 1); ADDX (Xr 0) (Xr 0) COUT 2; V (VUSHLL (rs 3 0) (rc 3) 1);
   LDPQ 2 3 (Xr 0); V (VUSHLL2 (rs 3 1) (rc 3) 1); V (VUSHLL2 (rs 2 1) (rc 2) 1); LDPX (Xr 0) (Xr 1) IND 0;
   V (VUSHLL2 (rs 1 1) (rc 1) 1); V (VUSHLL2 (rs 0 1) (rc 0) 1); LDPX (Xr 2) (Xr 3) IND 16;
   V (VSMAX (rs 3 0) (rs 3 0) 0); V (VSMAX (rs 3 1) (rs 3 1) 0); LDRQ (rw 0) W_PTR (-128);
   V (VSMAX (rs 2 0) (rs 2 0) 0); V (VSMAX (rs 2 1) (rs 2 1) 0); LDRQ (rw 1) W_PTR (-112);
   V (VSMAX (rs 1 0) (rs 1 0) 0); V (VSMAX (rs 1 1) (rs 1 1) 0); LDRQX (ra 0) (Xr 0) IDOB;
   V (VSMAX (rs 0 0) (rs 0 0) 0); V (VSMAX (rs 0 1) (rs 0 1) 0); LDRP (Xr 0) OTA 16; LDRQX (ra 1) (Xr 1) IDOB;
   V (VSMIN (rs 3 0) (rs 3 0) 1); V (VSMIN (rs 3 1) (rs 3 1) 1); ADDX (Xr 0) (Xr 0) COUT 2; LDRQX (ra 2) (Xr 2) IDOB;
   V (VSMIN (rs 2 0) (rs 2 0) 1); V (VSMIN (rs 2 1) (rs 2 1) 1); LDRQ 0 (Xr 0) 0; V (VSMIN (rs 1 0) (rs 1 0) 1);
   V (VSMIN (rs 1 1) (rs 1 1) 1); LDRQX (ra 3) (Xr 3) IDOB; V (VSMIN (rs 0 0) (rs 0 0) 1);
   V (VSMIN (rs 0 1) (rs 0 1) 1); LDRQ 1 (Xr 0) 16; LDRQ (rw 2) W_PTR (-96); V (VSCVTF (rs 3 0) (rs 3 0));
   V (VSCVTF (rs 3 1) (rs 3 1)); LDRQ (rw 3) W_PTR (-80); V (VSCVTF (rs 2 0) (rs 2 0)); V (VFMUL (rs 3 0) (rs 3 0) 2);
   V (VSCVTF (rs 2 1) (rs 2 1)); LDRQ (rw 4) W_PTR (-64); V (VFMUL (rs 3 1) (rs 3 1) 3); V (VFADD (rs 3 0) (rs 3 0) 0);
   V (VSCVTF (rs 1 0) (rs 1 0)); LDRQ (rw 5) W_PTR (-48); V (VFMUL (rs 2 0) (rs 2 0) 2); V (VFADD (rs 3 1) (rs 3 1) 1);
   V (VSCVTF (rs 1 1) (rs 1 1)); LDRQ (rw 6) W_PTR (-32); V (VFMUL (rs 2 1) (rs 2 1) 3); V (VFADD (rs 2 0) (rs 2 0) 0);
   V (VFCVTNS (rs 3 0) (rs 3 0)); LDRQ (rw 7) W_PTR (-16); V (VFMUL (rs 1 0) (rs 1 0) 2);
   V (VFADD (rs 2 1) (rs 2 1) 1); V (VFCVTNS (rs 3 1) (rs 3 1)); V (VSQXTN4H (rs 3 0) (rs 3 0));
   V (VFMUL (rs 1 1) (rs 1 1) 3); V (VSCVTF (rs 0 0) (rs 0 0)); V (VSQXTN8H (rs 3 0) (rs 3 1));
   V (VFADD (rs 1 0) (rs 1 0) 0); V (VSCVTF (rs 0 1) (rs 0 1)); V (VFMUL (rs 0 0) (rs 0 0) 2);
   V (VFADD (rs 1 1) (rs 1 1) 1); V (VFCVTNS (rs 2 0) (rs 2 0)); V (VFMUL (rs 0 1) (rs 0 1) 3);
   V (VFADD (rs 0 0) (rs 0 0) 0); V (VFCVTNS (rs 2 1) (rs 2 1)); V (VSQXTN4H (rs 2 0) (rs 2 0));
   V (VFADD (rs 0 1) (rs 0 1) 1); V (VFCVTNS (rs 1 0) (rs 1 0)); V (VSQXTN8H (rs 2 0) (rs 2 1));
   V (VFCVTNS (rs 1 1) (rs 1 1)); V (VSQXTN4H (rs 1 0) (rs 1 0)); V (VSQXTN8B (rs 3 0) (rs 3 0));
   V (VFCVTNS (rs 0 0) (rs 0 0)); V (VSQXTN8H (rs 1 0) (rs 1 1)); V (VSQXTN8B (rs 2 0) (rs 2 0));
   V (VFCVTNS (rs 0 1) (rs 0 1)); V (VSQXTN4H (rs 0 0) (rs 0 0)); V (VSQXTN8H (rs 0 0) (rs 0 1));
   V (VSQXTN8B (rs 1 0) (rs 1 0)); V (VSQXTN8B (rs 0 0) (rs 0 0))].

(** ** The C++ code around the asm statements *)
Definition acc_prog (D : Z) (deep grouped : bool) : list instr :=
  if D =? 1 then (if deep then kdeep1 grouped else kflat1 grouped)
  else if D =? 2 then (if deep then kdeep2 grouped else kflat2 grouped)
  else (if deep then kdeep4 grouped else kflat4 grouped).
Definition out_prog (D : Z) (t : dtype) (grouped : bool) : list instr :=
  if D =? 1 then (if is_int8 t then kint8x1 grouped else kfloat1 grouped)
  else if D =? 2 then (if is_int8 t then kint8x2 grouped else kfloat2 grouped)
  else (if is_int8 t then kint8x4 grouped else kfloat4 grouped).

Definition vptr (q : iptr) : val := match q with PIn o => Ptr RIn (4 * o) | PZero o => Ptr RZero (4 * o) end.
(** Memory: the packed weights, the input, the zero buffer, the indirection
    buffer, the output transform object (fields clamp_min, clamp_max, multiplier,
    bias at byte offsets 0, 4, 8, 16; core/bconv2d/output_transform.h) and its arrays. *)
Definition ienv (pw input zero : list Z) (ibuf : list iptr) (o : otparams) : env :=
  {| e_lhs := pw; e_rhs := []; e_mul := p_mul o; e_bias := p_bias o; e_thr := [];
     e_par := fun off => if off =? 0 then Some (Int (p_cmin o)) else if off =? 4 then Some (Int (p_cmax o))
                         else if off =? 8 then Some (Ptr RMul 0) else if off =? 16 then Some (Ptr RBias 0) else None;
     e_in := input; e_zero := zero; e_ind := map vptr ibuf |}.

(** [n] consecutive words. *)
Fixpoint words_at (rdw : Z -> option Z) (i : Z) (n : nat) : option (list Z) :=
  match n with O => Some [] | Datatypes.S n' => let* w := rdw i in let* ws := words_at rdw (i + 1) n' in Some (w :: ws) end.
(** vld1q_s32; vld1q_dup_s32 / vld1q_dup_s64 / vld1q_s32 for D = 1, 2, 4. *)
Definition vld1q (ws : list Z) (i : Z) : option (list Z) := let* l := words_at (rd ws) i 4 in Some (vec 4 l).
Definition vdup (D : nat) (l : list Z) : list Z := vec 4 (concat (repeat l (4 / D))).
Fixpoint omap {A B} (f : A -> option B) (l : list A) : option (list B) :=
  match l with [] => Some [] | x :: l' => let* y := f x in let* ys := omap f l' in Some (y :: ys) end.

Record ist := { s_w : list (list Z); s_a : list (list Z); s_wp : Z;  (* weights_ptr, bytes *)
                s_ido : Z; s_ge : Z; s_c : Z; s_p0 : Z; s_p1 : Z; s_p2 : Z; s_p3 : Z; s_out : list Z }.

(** Everything below is written in continuation-passing style: [X ... K] says that
    [X] runs without a memory fault, whatever the registers that are not operands
    hold, and that [K] holds of its result. *)
Section Kernel.
  Variables (ops : nops) (t : dtype) (o : otparams) (D : Z) (deep grouped : bool) (k : kern).
  Variables (pw input zero : list Z) (ibuf : list iptr).
  Let E := ienv pw input zero ibuf o.

  (** An asm statement with its vector and scalar operands. *)
  Definition asm_stmt (prog : list instr) (vin : list (nat * list Z)) (xin : list (xreg * val)) (K : st -> Prop) : Prop :=
    forall s, Forall (fun '(r, v) => sv s r = v) vin -> Forall (fun '(r, v) => sx s r = v) xin ->
      exists fuel, wp (run ops E prog fuel 0 s) K.

  (** kernel_8x4x1 110-135, kernel_8x4x2 145-170: a_ptr_0, ..., a_ptr_3. (The 8x4x4
      kernel computes them in the asm statement; the depth-1 loops do not need them.) *)
  Definition a_ptrs (ip ido : Z) : option (list (xreg * val)) :=
    if deep && (D <? 4) then
      omap (fun i => let* q := rd ibuf (ip + Z.of_nat i) in
                     Some (A_PTR i, addv (vptr q) (4 * ((if grouped then ido else 0) + D)))) (seq 0 4)
    else Some [].
  (** AccumulationLoop_Depth2OrMore, AccumulationLoop_Depth1 (8x4x1: 110-230, 8x4x2:
      145-267, 8x4x4: 194-317). weights_ptr is passed by reference, indirection_ptr
      by value. filter_size and depth are int32 and only used through w registers. *)
  Definition AccumulationLoop (depth ido ip : Z) (weights acts : list (list Z)) (wptr : Z)
      (K : list (list Z) -> Z -> Prop) : Prop :=
    wp (a_ptrs ip ido) (fun aps =>
      asm_stmt (acc_prog D deep grouped)
        (combine (map rw (seq 0 8)) weights ++ combine (map ra (seq 0 4)) acts)
        ([(W_PTR, Ptr RLhs wptr); (IND, Ptr RInd (8 * ip)); (FS, Int (k_fs k)); (DEPTH, Int depth); (IDO, Int ido)] ++ aps)
        (fun s => match sx s W_PTR with
                  | Ptr RLhs wptr' => K (map (fun i => sv s (rc i)) (seq 0 4)) wptr'
                  | _ => False end)).

  (** The eight results of pixel [i]: float bit patterns or int8 values. *)
  Definition elems (s : st) (i : nat) : list Z :=
    if is_int8 t then map (sgn 8) (firstn 8 (sv s (rs i 0))) else lanes 4 (sv s (rs i 0)) ++ lanes 4 (sv s (rs i 1)).
  (** The asm statement of OutputTransformAndLoadNextAndStore. *)
  Definition Transform (ido ip c : Z) (accs : list (list Z)) (wptr : Z)
      (K : list (list Z) -> list (list Z) -> list (list Z) -> Prop) : Prop :=
    asm_stmt (out_prog D t grouped) (combine (map rc (seq 0 4)) accs)
      [(IND, Ptr RInd (8 * ip)); (W_PTR, Ptr RLhs wptr); (IDO, Int ido); (IDOB, Int (4 * ido)); (CMIN, Ptr RPar 0);
       (CMAX, Ptr RPar 4); (MULA, Ptr RMul (4 * c)); (BIASA, Ptr RBias (4 * c)); (OTA, Ptr RPar 0); (COUT, Int c)]
      (fun s => K (map (fun i => sv s (rw i)) (seq 0 (Z.to_nat (2 * D)))) (map (fun i => sv s (ra i)) (seq 0 4))
                  (map (elems s) (seq 0 4))).

  (** Storing a block (8x4x1: 369-418 and 546-590; the same code in the others): eight
      elements per pixel, or element by element up to the end of the group, pixel 3
      first. Returns the array, the number of elements and the next c_out_index. *)
  Definition nth_list (l : list (list Z)) (i : nat) : list Z := nth i l [].
  Definition store_block (out : list Z) (ge c p0 p1 p2 p3 : Z) (res : list (list Z)) : option (list Z * Z * Z) :=
    if 8 <=? ge - c then
      let* out := wr_list out p3 (nth_list res 3) in
      let* out := wr_list out p2 (nth_list res 2) in
      let* out := wr_list out p1 (nth_list res 1) in
      let* out := wr_list out p0 (nth_list res 0) in
      Some (out, 8, c + 8)
    else
      let n := Z.max 1 (Z.min 7 (ge - c)) in
      let* out := for_ 0 n (fun j out =>
        let* x3 := rd (nth_list res 3) j in let* out := wr out (p3 + j) x3 in
        let* x2 := rd (nth_list res 2) j in let* out := wr out (p2 + j) x2 in
        let* x1 := rd (nth_list res 1) j in let* out := wr out (p1 + j) x1 in
        let* x0 := rd (nth_list res 0) j in wr out (p0 + j) x0) out in
      Some (out, n, ge).

  (** One round of the do-while over output channels (8x4x1: 685-718). *)
  Definition block (idpg ocpg ip : Z) (s : ist) (K : ist -> Prop) : Prop :=
    AccumulationLoop (Z.quot idpg D) (s_ido s) ip (s_w s) (s_a s) (s_wp s) (fun accs wptr =>
      let next := grouped && (s_ge s - 8 <=? s_c s) in
      let ido := if next then s_ido s + idpg else s_ido s in
      let ge' := if next then s_ge s + ocpg else s_ge s in
      Transform ido ip (s_c s) accs wptr (fun ws acts res =>
        wp (store_block (s_out s) (s_ge s) (s_c s) (s_p0 s) (s_p1 s) (s_p2 s) (s_p3 s) res) (fun '(out, n, c') =>
          K {| s_w := ws; s_a := acts; s_wp := wptr; s_ido := ido; s_ge := ge'; s_c := c';
               s_p0 := s_p0 s + n; s_p1 := s_p1 s + n; s_p2 := s_p2 s + n; s_p3 := s_p3 s + n; s_out := out |}))).
  Fixpoint chan_loop (fuel : nat) (idpg ocpg ip : Z) (s : ist) (K : list Z -> Prop) : Prop :=
    match fuel with
    | O => False
    | Datatypes.S fuel' => block idpg ocpg ip s (fun s' =>
        if s_c s' <? k_oc k then chan_loop fuel' idpg ocpg ip s' K else K (s_out s'))
    end.
  (** 8x4x1: 641-719. The pre-loads do not add the depth offset (it is 0). *)
  Definition pixels4 (idpg ocpg p_index pixel_end : Z) (out : list Z) (K : list Z -> Prop) : Prop :=
    let ip := p_index * k_fs k in
    let p0 := p_index * k_oc k in
    let rem := pixel_end - p_index in
    let p1 := if rem <? 2 then p0 else p0 + k_oc k in
    let p2 := if rem <? 3 then p0 else p0 + k_oc k + k_oc k in
    let p3 := if rem <? 4 then p0 else p0 + k_oc k + k_oc k + k_oc k in
    wp (omap (fun i => vld1q pw (4 * Z.of_nat i)) (seq 0 (Z.to_nat (2 * D)))) (fun ws =>
    wp (omap (fun i => let* q := rd ibuf (ip + Z.of_nat i) in
                       let* l := words_at (deref input zero q) 0 (Z.to_nat D) in Some (vdup (Z.to_nat D) l)) (seq 0 4)) (fun acts =>
      chan_loop (S (Z.to_nat (k_oc k))) idpg ocpg ip
        {| s_w := ws; s_a := acts; s_wp := 4 * (8 * D); s_ido := 0; s_ge := ocpg; s_c := 0;
           s_p0 := p0; s_p1 := p1; s_p2 := p2; s_p3 := p3; s_out := out |} K)).
  Fixpoint pixel_loop (n : nat) (idpg ocpg p_index pixel_end : Z) (out : list Z) (K : list Z -> Prop) : Prop :=
    match n with
    | O => K out
    | Datatypes.S n' => pixels4 idpg ocpg p_index pixel_end out (fun out' =>
        pixel_loop n' idpg ocpg (p_index + 4) pixel_end out' K)
    end.
  (** Run (8x4x1: 615-720). *)
  Definition Run (pixel_start pixel_end : Z) (out : list Z) (K : list Z -> Prop) : Prop :=
    wp (cdiv (k_in_depth k) (k_groups k)) (fun idpg => wp (cdiv (k_oc k) (k_groups k)) (fun ocpg =>
      if (k_fs k <? 1) || (idpg <? D) || (ocpg <? 1) then K out
      else pixel_loop (Z.to_nat ((pixel_end - pixel_start + 3) / 4)) idpg ocpg pixel_start pixel_end out K)).
End Kernel.

(** EvalOptIndirectBGEMM on a fresh node (bconv2d.cc 487-523) with one of these
    kernels, up to the zero-padding correction, on pixels [ps, pe). [over_in],
    [over_zero]: the words that happen to follow the input tensor and the zero buffer. *)
Definition indirect_asm_range (ops : nops) (t : dtype) (o : otparams) (D : Z) (deep grouped : bool) (p : bconv)
    (input filter over_in over_zero : list Z) (ps pe : Z) (out : list Z) (K : list Z -> Prop) : Prop :=
  let k := mk_kern 8 4 D p in
  wp (PackWeights k filter) (fun pw =>
  wp (FillIndirectionBuffer k p) (fun ibuf =>
    Run ops t o D deep grouped k pw (input ++ over_in) (repeat 0 (Z.to_nat (k_fs k * k_in_depth k)) ++ over_zero) ibuf ps pe out K)).
