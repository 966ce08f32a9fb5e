(** * A64: the part of the AArch64 instruction set used by the assembly kernels
    of core/bgemm/kernels_aarch64.h and core/indirect_bgemm/kernel_8x4x*_aarch64.h,
    and the part of AArch32/NEON used by core/bgemm/kernels_arm32.h. Written from the Arm architecture's
    definition of each instruction (external to /repo). Little-endian memory. *)
From Verif Require Import Base Spec Bits.
Open Scope Z_scope.

(** ** Lanes of a vector register. A register is its 16 bytes, lowest first. *)
Fixpoint le_join (bs : list Z) : Z := match bs with [] => 0 | b :: r => b + 256 * le_join r end.
Fixpoint le_split (k : nat) (z : Z) : list Z :=
  match k with O => [] | Datatypes.S k' => z mod 256 :: le_split k' (z / 256) end.
Fixpoint chunks {A} (k n : nat) (l : list A) : list (list A) :=
  match n with O => [] | Datatypes.S n' => firstn k l :: chunks k n' (skipn k l) end.
(** [lanes k v]: the lanes of [k] bytes as unsigned integers; [vec k ls]: the
    bytes of lanes [ls] (each lane taken modulo 2^(8k)). *)
Definition lanes (k : nat) (v : list Z) : list Z := map le_join (chunks k (length v / k) v).
Definition vec (k : nat) (ls : list Z) : list Z := flat_map (le_split k) ls.
(** Signed value of an unsigned [b]-bit lane. *)
Definition sgn (b x : Z) : Z := if x <? 2 ^ (b - 1) then x else x - 2 ^ b.
Fixpoint zipw {A B C} (f : A -> B -> C) (l1 : list A) (l2 : list B) : list C :=
  match l1, l2 with x :: l1', y :: l2' => f x y :: zipw f l1' l2' | _, _ => [] end.
(** Sums of adjacent lanes. *)
Fixpoint pairs (l : list Z) : list Z := match l with x :: y :: l' => (x + y) :: pairs l' | _ => [] end.
Definition popcount8 (b : Z) : Z := sum_ 8 (fun i => Z.b2z (Z.testbit b i)).
Definition clampz (lo hi x : Z) : Z := Z.max lo (Z.min hi x).

(** Single precision arithmetic on bit patterns, left abstract. [n_cvtns] is
    fcvtns: round to nearest, ties to even, saturated to int32. [n_cvt8] is the
    32-bit Arm vcvt.s32.f32 #8: fixed point with 8 fractional bits, towards zero,
    saturated to int32. *)
Record nops := { n_ofZ : Z -> Z; n_mul : Z -> Z -> Z; n_add : Z -> Z -> Z; n_cvtns : Z -> Z; n_cvt8 : Z -> Z }.

(** ** Vector instructions on whole registers *)
Section Vops.
  Variable ops : nops.
  Definition v_eor := zipw Z.lxor.
  Definition v_and := zipw Z.land.                                     (* .16b *)
  Definition v_and8 a b := firstn 8 (v_and a b) ++ repeat 0 8.         (* .8b *)
  Definition v_cnt := map popcount8.
  Definition v_addp a b := map (fun x => x mod 256) (pairs (a ++ b)).  (* .16b *)
  Definition v_uaddlp a := vec 2 (pairs a).                            (* .8h, .16b *)
  Definition v_uadalp4 d a := vec 4 (zipw Z.add (lanes 4 d) (pairs (lanes 2 a))).   (* .4s, .8h *)
  Definition v_uadalp2 d a := vec 2 (zipw Z.add (lanes 2 d) (pairs a)).             (* .8h, .16b *)
  Definition v_shl4 n a := vec 4 (map (fun x => x * 2 ^ n) (lanes 4 a)).
  Definition v_smax a b := vec 4 (zipw (fun x y => Z.max (sgn 32 x) (sgn 32 y)) (lanes 4 a) (lanes 4 b)).
  Definition v_smin a b := vec 4 (zipw (fun x y => Z.min (sgn 32 x) (sgn 32 y)) (lanes 4 a) (lanes 4 b)).
  Definition v_scvtf a := vec 4 (map (fun x => n_ofZ ops (sgn 32 x)) (lanes 4 a)).
  Definition v_fmul a b := vec 4 (zipw (n_mul ops) (lanes 4 a) (lanes 4 b)).
  Definition v_fadd a b := vec 4 (zipw (n_add ops) (lanes 4 a) (lanes 4 b)).
  Definition v_fcvtns a := vec 4 (map (n_cvtns ops) (lanes 4 a)).
  Definition sat16 x := clampz (-32768) 32767 (sgn 32 x).
  Definition sat8 x := clampz (-128) 127 (sgn 16 x).
  Definition v_sqxtn4h a := vec 2 (map sat16 (lanes 4 a)) ++ repeat 0 8.            (* .4h, .4s *)
  Definition v_sqxtn8h d a := firstn 8 d ++ vec 2 (map sat16 (lanes 4 a)).          (* sqxtn2 .8h, .4s *)
  Definition v_sqxtn8b a := vec 1 (map sat8 (lanes 2 a)) ++ repeat 0 8.             (* .8b, .8h *)
  Definition v_dup4 w := vec 4 (repeat w 4).
  Definition v_ushll n a := vec 4 (map (fun x => x * 2 ^ n) (lanes 2 (firstn 8 a))). (* uxtl is ushll #0 *)
  Definition v_ushll2 n a := vec 4 (map (fun x => x * 2 ^ n) (lanes 2 (skipn 8 a))).
  Definition v_cmgt a b :=
    vec 4 (zipw (fun x y => if sgn 32 y <? sgn 32 x then 2 ^ 32 - 1 else 0) (lanes 4 a) (lanes 4 b)).
  Definition v_xtn a := vec 2 (lanes 4 a) ++ repeat 0 8.               (* .4h, .4s *)
  Definition v_xtn2 d a := firstn 8 d ++ vec 2 (lanes 4 a).            (* .8h, .4s *)
  Definition v_addv a := vec 2 [fold_right Z.add 0 (lanes 2 a)] ++ repeat 0 14.     (* h, .8h *)
  Definition v_insd0 d x := le_split 8 x ++ skipn 8 d.
  Definition v_insd1 d x := firstn 8 d ++ le_split 8 x.
  Definition v_insb0 d w := le_split 1 w ++ skipn 1 d.
  (** 32-bit Arm: q registers are the vectors 0..15; d(2n) and d(2n+1) are the
      halves of qn. *)
  Definition dget (f : nat -> list Z) (d : nat) : list Z := if Nat.even d then firstn 8 (f (Nat.div2 d)) else skipn 8 (f (Nat.div2 d)).
  Definition v_dset (q : list Z) (hi : bool) (v : list Z) : list Z := if hi then firstn 8 q ++ v else v ++ skipn 8 q.
  Definition v_cvt8 a := vec 4 (map (n_cvt8 ops) (lanes 4 a)).                      (* vcvt.s32.f32 q, q, #8 *)
  Definition rshrn n x := clampz (-32768) 32767 ((sgn 32 x + 2 ^ (n - 1)) / 2 ^ n). (* one lane of vqrshrn.s32 *)
End Vops.

(** ** Machine *)
(** Regions of memory, pointers into them (byte offsets), registers. The names
    are the operands of the asm statements; [Xr n] is xn/wn. *)
Inductive region := RLhs | RRhs | RDst | RTmp | RPar | RMul | RBias | RThr
  | RInd | RIn | RZero.   (* indirection buffer, input tensor, zero buffer *)
Inductive val := Int (z : Z) | Ptr (r : region) (o : Z).
Inductive xreg := Xr (n : nat) | LHS_COL | RHS_COL | LHS | RHS | DST_COL | DST | ROW | COL
                | PARAMS | DST_ROWS | DST_COLS | TMPBUF.
Definition xeqb (a b : xreg) : bool :=
  match a, b with
  | Xr n, Xr m => Nat.eqb n m
  | LHS_COL, LHS_COL | RHS_COL, RHS_COL | LHS, LHS | RHS, RHS | DST_COL, DST_COL | DST, DST
  | ROW, ROW | COL, COL | PARAMS, PARAMS | DST_ROWS, DST_ROWS | DST_COLS, DST_COLS | TMPBUF, TMPBUF => true
  | _, _ => false
  end.
Inductive cond := EQ | LT | GE | LE | GT.

(** Pure vector instructions. *)
Inductive vinstr :=
| VZERO (d : nat) | VEOR (d a b : nat) | VAND (d a b : nat) | VAND8 (d a b : nat) | VCNT (d a : nat) | VADDP (d a b : nat)
| VUADDLP (d a : nat) | VUADALP4 (d a : nat) | VUADALP2 (d a : nat)
| VSHL4 (d a : nat) (n : Z) | VSMAX (d a b : nat) | VSMIN (d a b : nat) | VSCVTF (d a : nat)
| VFMUL (d a b : nat) | VFADD (d a b : nat) | VFCVTNS (d a : nat)
| VSQXTN4H (d a : nat) | VSQXTN8H (d a : nat) | VSQXTN8B (d a : nat)
| VUSHLL (d a : nat) (n : Z) | VUSHLL2 (d a : nat) (n : Z) | VCMGT (d a b : nat)
| VXTN (d a : nat) | VXTN2 (d a : nat) | VADDV (d a : nat)
(* 32-bit Arm; [d], [a], [b] of vpadd are d registers, as is the target of the narrowings *)
| VPADDD (d a b : nat) | VCVT8 (d a : nat) | VQRSHRN (d a : nat) (n : Z) | VQMOVN (d a : nat).

Inductive instr :=
| V (v : vinstr)
| LD1 (ds : list nat) (p : xreg) (post : bool)      (* ld1 {vds.4s...}, [p] (, #16*n if post) *)
| LD1R (d : nat) (p : xreg)                         (* ld1r {vd.4s}, [p] *)
| LD1RP (d : nat) (p : xreg)                        (* ld1r {vd.4s}, [p], #4 *)
| LD1D (d : nat) (hi : bool) (p : xreg) (post : bool) (* ld1 {vd.d}[0/1], [p](, #8 if post) *)
| LDRQ (d : nat) (p : xreg) (off : Z)               (* ldr qd, [p, #off] *)
| LDRQX (d : nat) (p i : xreg)                      (* ldr qd, [p, xi] *)
| LDPQ (d e : nat) (p : xreg)                       (* ldp qd, qe, [p] *)
| LDPX (d e : xreg) (p : xreg) (off : Z)            (* ldp xd, xe, [p, #off] (pointers) *)
| LDRP (d : xreg) (p : xreg) (off : Z)              (* ldr xd, [p, #off] (a pointer) *)
| DUP (d : nat) (w : xreg)                          (* dup vd.4s, w *)
| INSD (d : nat) (hi : bool) (x : xreg)             (* ins vd.d[0/1], x *)
| INSB (d : nat) (w : xreg)                         (* mov vd.b[0], w *)
| STR (v : nat) (n : nat) (p : xreg) (off : Z)      (* str q/d/s v, [p, #off]: the low n bytes *)
| ST1B (v : nat) (p : xreg) (post : option xreg)    (* st1 {v.b}[0], [p](, xpost) *)
| LDRX (d : xreg) (off : Z)                         (* ldr xd, [params, #off] *)
| LDRW (d : xreg) (off : Z)                         (* ldr wd, [params, #off] *)
| LDRT (d : xreg) (n : nat) (p i : xreg) (sh : Z)   (* ldr wd / ldrb wd, [p, xi, lsl #sh]: n bytes *)
| STRT (d : xreg) (n : nat) (p i : xreg) (sh : Z)   (* str wd / strb wd *)
| MOVI (d : xreg) (z : Z)                           (* mov xd/wd, #z *)
| MOVX (d a : xreg)
| MOVW (d a : xreg)                                 (* mov wd, wa *)
| ADDX (d a b : xreg) (sh : Z)                      (* add xd, xa, xb, lsl #sh *)
| ADDXI (d a : xreg) (z : Z)                        (* add xd, xa, #z *)
| ADDWI (d a : xreg) (z : Z)                        (* add wd, wa, #z *)
| SUBW (d a b : xreg)
| SUBWI (d a : xreg) (z : Z)
| SUBSWI (d a : xreg) (z : Z)                       (* subs: also sets the flags *)
| ANDWI (d a : xreg) (z : Z)                        (* and wd, wa, #z *)
| LSLXI (d a : xreg) (n : Z) | LSLW (d a b : xreg)
| CMPW (a b : xreg) | CMPWI (a : xreg) (z : Z)
| CSELW (d a b : xreg) (c : cond)
| CCMPEQ (a b : xreg)                               (* ccmp wa, wb, 0, eq *)
| CMPEQ (a b : xreg)                                (* it eq; cmpeq a, b (32-bit Arm) *)
| LBL (n : nat) | B (n : nat) | BC (c : cond) (n : nat).

(** Read-only memory: packed operands, output transform arrays (32-bit words),
    the parameter struct as a map from offsets to fields. *)
Record env := { e_lhs : list Z; e_rhs : list Z; e_mul : list Z; e_bias : list Z; e_thr : list Z;
                e_par : Z -> option val;
                e_in : list Z; e_zero : list Z; e_ind : list val }.
(** Vector registers, scalar registers, operands of the last comparison, the
    scratch buffer dst_tmp_buf, and the bytes stored to the destination so far
    (latest first). *)
Record st := { sv : nat -> list Z; sx : xreg -> val; sfl : Z * Z; stmp : list Z; slog : list (Z * Z) }.

Definition vupd (f : nat -> list Z) (r : nat) (v : list Z) : nat -> list Z := fun q => if Nat.eqb q r then v else f q.
Definition xupd (g : xreg -> val) (r : xreg) (v : val) : xreg -> val := fun q => if xeqb q r then v else g q.
Definition set_v (s : st) (r : nat) (v : list Z) : st :=
  {| sv := vupd (sv s) r v; sx := sx s; sfl := sfl s; stmp := stmp s; slog := slog s |}.
Definition set_x (s : st) (r : xreg) (v : val) : st :=
  {| sv := sv s; sx := xupd (sx s) r v; sfl := sfl s; stmp := stmp s; slog := slog s |}.
Definition set_fl (s : st) (a b : Z) : st :=
  {| sv := sv s; sx := sx s; sfl := (a, b); stmp := stmp s; slog := slog s |}.

Definition word_byte (ws : list Z) (o : Z) : option Z :=
  let* w := rd ws (o / 4) in Some ((w / 2 ^ (8 * (o mod 4))) mod 256).
Definition load_byte (E : env) (s : st) (r : region) (o : Z) : option Z :=
  match r with
  | RLhs => word_byte (e_lhs E) o | RRhs => word_byte (e_rhs E) o
  | RMul => word_byte (e_mul E) o | RBias => word_byte (e_bias E) o | RThr => word_byte (e_thr E) o
  | RTmp => rd (stmp s) o
  | RPar => match e_par E (o - o mod 4) with
            | Some (Int z) => Some ((z / 2 ^ (8 * (o mod 4))) mod 256) | _ => None end
  | RIn => word_byte (e_in E) o | RZero => word_byte (e_zero E) o
  | RDst | RInd => None
  end.
(** Loading a 64-bit pointer: from the parameter struct or the indirection buffer. *)
Definition load_ptr (E : env) (r : region) (o : Z) : option val :=
  match r with
  | RPar => e_par E o
  | RInd => if o mod 8 =? 0 then rd (e_ind E) (o / 8) else None
  | _ => None
  end.
Fixpoint loadn (E : env) (s : st) (r : region) (o : Z) (n : nat) : option (list Z) :=
  match n with
  | O => Some []
  | Datatypes.S n' => let* b := load_byte E s r o in let* bs := loadn E s r (o + 1) n' in Some (b :: bs)
  end.
Fixpoint wr_list (m : list Z) (o : Z) (bs : list Z) : option (list Z) :=
  match bs with [] => Some m | b :: bs' => let* m := wr m o b in wr_list m (o + 1) bs' end.
Fixpoint log_list (l : list (Z * Z)) (o : Z) (bs : list Z) : list (Z * Z) :=
  match bs with [] => l | b :: bs' => log_list ((o, b) :: l) (o + 1) bs' end.
Definition store (s : st) (r : region) (o : Z) (bs : list Z) : option st :=
  match r with
  | RDst => Some {| sv := sv s; sx := sx s; sfl := sfl s; stmp := stmp s; slog := log_list (slog s) o bs |}
  | RTmp => let* t := wr_list (stmp s) o bs in
            Some {| sv := sv s; sx := sx s; sfl := sfl s; stmp := t; slog := slog s |}
  | _ => None
  end.
Definition load_at (E : env) (s : st) (p : xreg) (d : Z) (n : nat) : option (list Z) :=
  match sx s p with Ptr r o => loadn E s r (o + d) n | Int _ => None end.
Definition store_at (s : st) (p : xreg) (d : Z) (bs : list Z) : option st :=
  match sx s p with Ptr r o => store s r (o + d) bs | Int _ => None end.
Definition load_ptr_at (E : env) (s : st) (p : xreg) (d : Z) : option val :=
  match sx s p with Ptr r o => load_ptr E r (o + d) | Int _ => None end.
Definition addv (a : val) (d : Z) : val :=
  match a with Int z => Int ((z + d) mod 2 ^ 64) | Ptr r o => Ptr r (o + d) end.
Definition int_of (a : val) : option Z := match a with Int z => Some z | Ptr _ _ => None end.
Definition getx (s : st) (r : xreg) : option Z := int_of (sx s r).
(** The w view of a register. *)
Definition getw (s : st) (r : xreg) : option Z := let* z := getx s r in Some (z mod 2 ^ 32).
Definition setw (s : st) (r : xreg) (z : Z) : st := set_x s r (Int (z mod 2 ^ 32)).

Fixpoint ld_regs (E : env) (s : st) (r : region) (o : Z) (ds : list nat) : option st :=
  match ds with
  | [] => Some s
  | d :: ds' => let* v := loadn E s r o 16 in ld_regs E (set_v s d v) r (o + 16) ds'
  end.

Definition vexec1 (ops : nops) (i : vinstr) (f : nat -> list Z) : nat -> list Z :=
  match i with
  | VZERO d => vupd f d (repeat 0 16)
  | VEOR d a b => vupd f d (v_eor (f a) (f b))
  | VAND d a b => vupd f d (v_and (f a) (f b))
  | VAND8 d a b => vupd f d (v_and8 (f a) (f b))
  | VCNT d a => vupd f d (v_cnt (f a))
  | VADDP d a b => vupd f d (v_addp (f a) (f b))
  | VUADDLP d a => vupd f d (v_uaddlp (f a))
  | VUADALP4 d a => vupd f d (v_uadalp4 (f d) (f a))
  | VUADALP2 d a => vupd f d (v_uadalp2 (f d) (f a))
  | VSHL4 d a n => vupd f d (v_shl4 n (f a))
  | VSMAX d a b => vupd f d (v_smax (f a) (f b))
  | VSMIN d a b => vupd f d (v_smin (f a) (f b))
  | VSCVTF d a => vupd f d (v_scvtf ops (f a))
  | VFMUL d a b => vupd f d (v_fmul ops (f a) (f b))
  | VFADD d a b => vupd f d (v_fadd ops (f a) (f b))
  | VFCVTNS d a => vupd f d (v_fcvtns ops (f a))
  | VSQXTN4H d a => vupd f d (v_sqxtn4h (f a))
  | VSQXTN8H d a => vupd f d (v_sqxtn8h (f d) (f a))
  | VSQXTN8B d a => vupd f d (v_sqxtn8b (f a))
  | VUSHLL d a n => vupd f d (v_ushll n (f a))
  | VUSHLL2 d a n => vupd f d (v_ushll2 n (f a))
  | VCMGT d a b => vupd f d (v_cmgt (f a) (f b))
  | VXTN d a => vupd f d (v_xtn (f a))
  | VXTN2 d a => vupd f d (v_xtn2 (f d) (f a))
  | VADDV d a => vupd f d (v_addv (f a))
  | VPADDD d a b => vupd f (Nat.div2 d) (v_dset (f (Nat.div2 d)) (Nat.odd d) (map (fun x => x mod 256) (pairs (dget f a ++ dget f b))))
  | VCVT8 d a => vupd f d (v_cvt8 ops (f a))
  | VQRSHRN d a n => vupd f (Nat.div2 d) (v_dset (f (Nat.div2 d)) (Nat.odd d) (vec 2 (map (rshrn n) (lanes 4 (f a)))))
  | VQMOVN d a => vupd f (Nat.div2 d) (v_dset (f (Nat.div2 d)) (Nat.odd d) (vec 1 (map sat8 (lanes 2 (f a)))))
  end.
Definition cond_holds (c : cond) (fl : Z * Z) : bool :=
  let (a, b) := fl in
  match c with EQ => a =? b | LT => a <? b | GE => b <=? a | LE => a <=? b | GT => b <? a end.

Section Exec.
  Variables (ops : nops) (E : env).
  (** Instructions that do not branch. *)
  Definition exec1 (i : instr) (s : st) : option st :=
    match i with
    | V v => Some {| sv := vexec1 ops v (sv s); sx := sx s; sfl := sfl s; stmp := stmp s; slog := slog s |}
    | LD1 ds p post =>
        match sx s p with
        | Ptr r o => let* s' := ld_regs E s r o ds in
                     Some (if post then set_x s' p (Ptr r (o + 16 * zlen ds)) else s')
        | Int _ => None
        end
    | LD1R d p => let* bs := load_at E s p 0 4 in Some (set_v s d (v_dup4 (le_join bs)))
    | LD1RP d p => let* bs := load_at E s p 0 4 in Some (set_x (set_v s d (v_dup4 (le_join bs))) p (addv (sx s p) 4))
    | LD1D d hi p post =>
        let* bs := load_at E s p 0 8 in
        let s' := set_v s d (if hi then v_insd1 (sv s d) (le_join bs) else v_insd0 (sv s d) (le_join bs)) in
        Some (if post then set_x s' p (addv (sx s p) 8) else s')
    | LDRQ d p off => let* bs := load_at E s p off 16 in Some (set_v s d bs)
    | LDRQX d p i => let* k := getx s i in let* bs := load_at E s p k 16 in Some (set_v s d bs)
    | LDPQ d e p => let* bs := load_at E s p 0 16 in let* bs' := load_at E s p 16 16 in Some (set_v (set_v s d bs) e bs')
    | LDPX d e p off => let* a := load_ptr_at E s p off in let* b := load_ptr_at E s p (off + 8) in Some (set_x (set_x s d a) e b)
    | LDRP d p off => let* a := load_ptr_at E s p off in Some (set_x s d a)
    | DUP d w => let* z := getw s w in Some (set_v s d (v_dup4 z))
    | INSD d hi x => let* z := getx s x in Some (set_v s d (if hi then v_insd1 (sv s d) z else v_insd0 (sv s d) z))
    | INSB d w => let* z := getw s w in Some (set_v s d (v_insb0 (sv s d) z))
    | STR v n p off => store_at s p off (firstn n (sv s v))
    | ST1B v p post =>
        let* s' := store_at s p 0 (firstn 1 (sv s v)) in
        match post with
        | None => Some s'
        | Some q => let* d := getx s q in Some (set_x s' p (addv (sx s p) d))
        end
    | LDRX d off => let* v := e_par E off in Some (set_x s d v)
    | LDRW d off => match e_par E off with Some (Int z) => Some (setw s d z) | _ => None end
    | LDRT d n p i sh => let* k := getx s i in let* bs := load_at E s p (k * 2 ^ sh) n in Some (set_x s d (Int (le_join bs)))
    | STRT d n p i sh => let* k := getx s i in let* z := getx s d in store_at s p (k * 2 ^ sh) (le_split n z)
    | MOVI d z => Some (set_x s d (Int z))
    | MOVX d a => Some (set_x s d (sx s a))
    | MOVW d a => let* z := getw s a in Some (setw s d z)
    | ADDX d a b sh => let* z := getx s b in Some (set_x s d (addv (sx s a) (z * 2 ^ sh)))
    | ADDXI d a z => Some (set_x s d (addv (sx s a) z))
    | ADDWI d a z => let* x := getw s a in Some (setw s d (x + z))
    | SUBW d a b => let* x := getw s a in let* y := getw s b in Some (setw s d (x - y))
    | SUBWI d a z => let* x := getw s a in Some (setw s d (x - z))
    | SUBSWI d a z => let* x := getw s a in Some (set_fl (setw s d (x - z)) (sgn 32 x) z)
    | ANDWI d a z => let* x := getw s a in Some (setw s d (Z.land x z))
    | LSLXI d a n => let* x := getx s a in Some (set_x s d (Int ((x * 2 ^ n) mod 2 ^ 64)))
    | LSLW d a b => let* x := getw s a in let* y := getw s b in Some (setw s d (x * 2 ^ (y mod 32)))
    | CMPW a b => let* x := getw s a in let* y := getw s b in Some (set_fl s (sgn 32 x) (sgn 32 y))
    | CMPWI a z => let* x := getw s a in Some (set_fl s (sgn 32 x) z)
    | CSELW d a b c => let* x := getw s (if cond_holds c (sfl s) then a else b) in Some (setw s d x)
    | CCMPEQ a b =>
        let* x := getw s a in let* y := getw s b in
        Some (if cond_holds EQ (sfl s) then set_fl s (sgn 32 x) (sgn 32 y)
              else set_fl s 1 0)   (* nzcv = 0: "greater" *)
    | CMPEQ a b =>
        let* x := getw s a in let* y := getw s b in
        Some (if cond_holds EQ (sfl s) then set_fl s (sgn 32 x) (sgn 32 y) else s)
    | LBL _ => Some s
    | B _ | BC _ _ => None
    end.
  Fixpoint exec (p : list instr) (s : st) : option st :=
    match p with [] => Some s | i :: p' => let* s' := exec1 i s in exec p' s' end.

  (** Position of a label. (Each label number is defined once in each kernel.) *)
  Fixpoint find (n : nat) (p : list instr) (pc : nat) : option nat :=
    match p with
    | [] => None
    | LBL m :: p' => if Nat.eqb m n then Some pc else find n p' (Datatypes.S pc)
    | _ :: p' => find n p' (Datatypes.S pc)
    end.
  (** Run from [pc] until control falls off the end. *)
  Fixpoint run (p : list instr) (fuel pc : nat) (s : st) : option st :=
    match fuel with
    | O => None
    | Datatypes.S fuel' =>
        match nth_error p pc with
        | None => Some s
        | Some (B n) => let* q := find n p 0 in run p fuel' q s
        | Some (BC c n) =>
            if cond_holds c (sfl s) then let* q := find n p 0 in run p fuel' q s
            else run p fuel' (Datatypes.S pc) s
        | Some i => let* s' := exec1 i s in run p fuel' (Datatypes.S pc) s'
        end
    end.
End Exec.
