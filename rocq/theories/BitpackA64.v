(** * BitpackA64: model of core/bitpacking/bitpack_aarch64.h, instruction by
    instruction, and of the __aarch64__ path of bitpack_array (bitpack.h 209-247).
    Little-endian memory. *)
From Coq Require Import SpecFloat.
From Verif Require Import Base Spec Bits Bitpack Float32.
Open Scope Z_scope.

(** The NEON instructions used, with the post-increments used. [LD2H d]:
    ld2 {vd.8h, v(d+1).8h}, [in_ptr], #32; [LD2B d]: the same with .16b; [ST1 d]:
    st1 {vd.4s}, [out_ptr], #16; [DUPZ d]: dup vd.16b, zero_byte; [SUBN]:
    sub n, n, #1; [CMPN k]: cmp n, #k. *)
Inductive instr :=
| LD2H (d : nat) | LD2B (d : nat) | UZP1 (d a b : nat) | UZP2 (d a b : nat) | SRI (d a : nat) (n : Z)
| SQSUB (d a b : nat) | DUPZ (d : nat) | ST1 (d : nat) | SUBN | CMPN (k : Z).

(** Machine state over a type [B] of bytes: 32 registers of 16 bytes, the input
    pointer (in bytes), the output pointer (in words), the stores done so far
    (latest first), the counter, and the operands of the last compare. *)
Record mst (B : Type) := {
  m_reg : list (list B); m_in : Z; m_out : Z; m_log : list (Z * list B); m_n : Z; m_cmp : Z * Z }.
Arguments m_reg {B}. Arguments m_in {B}. Arguments m_out {B}. Arguments m_log {B}. Arguments m_n {B}. Arguments m_cmp {B}.

Fixpoint evens {B} (l : list B) : list B := match l with x :: _ :: l' => x :: evens l' | [x] => [x] | [] => [] end.
Fixpoint odds {B} (l : list B) : list B := match l with _ :: y :: l' => y :: odds l' | _ => [] end.
(** Even / odd half-words of a byte sequence. *)
Fixpoint evens_h {B} (l : list B) : list B := match l with a :: b :: _ :: _ :: l' => a :: b :: evens_h l' | _ => [] end.
Fixpoint odds_h {B} (l : list B) : list B := match l with _ :: _ :: c :: d :: l' => c :: d :: odds_h l' | _ => [] end.
Fixpoint zip {A B} (f : A -> A -> B) (l1 l2 : list A) : list B :=
  match l1, l2 with x :: l1', y :: l2' => f x y :: zip f l1' l2' | _, _ => [] end.
Fixpoint loads {B} (ld : Z -> option B) (ptr : Z) (n : nat) : option (list B) :=
  match n with O => Some [] | Datatypes.S n' => let* x := ld ptr in let* r := loads ld (ptr + 1) n' in Some (x :: r) end.

Section Machine.
  Context {B : Type}.
  Variables (sri : Z -> B -> B -> B) (sqsub : B -> B -> B) (zero : B) (ld : Z -> option B).
  Definition reg (s : mst B) (r : nat) : list B := nth r (m_reg s) [].
  Definition set_reg (s : mst B) (r : nat) (v : list B) : mst B :=
    {| m_reg := upd_nat (m_reg s) r v; m_in := m_in s; m_out := m_out s; m_log := m_log s; m_n := m_n s; m_cmp := m_cmp s |}.
  Definition bump_in (s : mst B) (k : Z) : mst B :=
    {| m_reg := m_reg s; m_in := m_in s + k; m_out := m_out s; m_log := m_log s; m_n := m_n s; m_cmp := m_cmp s |}.
  Definition exec1 (i : instr) (s : mst B) : option (mst B) :=
    match i with
    | LD2H d => let* bs := loads ld (m_in s) 32 in
                Some (bump_in (set_reg (set_reg s d (evens_h bs)) (Datatypes.S d) (odds_h bs)) 32)
    | LD2B d => let* bs := loads ld (m_in s) 32 in
                Some (bump_in (set_reg (set_reg s d (evens bs)) (Datatypes.S d) (odds bs)) 32)
    | UZP1 d a b => Some (set_reg s d (evens (reg s a ++ reg s b)))
    | UZP2 d a b => Some (set_reg s d (odds (reg s a ++ reg s b)))
    | SRI d a n => Some (set_reg s d (zip (sri n) (reg s d) (reg s a)))
    | SQSUB d a b => Some (set_reg s d (zip sqsub (reg s a) (reg s b)))
    | DUPZ d => Some (set_reg s d (repeat zero 16))
    | ST1 d => Some {| m_reg := m_reg s; m_in := m_in s; m_out := m_out s + 4;
                       m_log := (m_out s, reg s d) :: m_log s; m_n := m_n s; m_cmp := m_cmp s |}
    | SUBN => Some {| m_reg := m_reg s; m_in := m_in s; m_out := m_out s; m_log := m_log s; m_n := m_n s - 1; m_cmp := m_cmp s |}
    | CMPN k => Some {| m_reg := m_reg s; m_in := m_in s; m_out := m_out s; m_log := m_log s; m_n := m_n s; m_cmp := (m_n s, k) |}
    end.
  Fixpoint exec (p : list instr) (s : mst B) : option (mst B) :=
    match p with [] => Some s | i :: p' => let* s' := exec1 i s in exec p' s' end.
  (** do { body } while (last compare was "greater or equal"). *)
  Fixpoint do_while (fuel : nat) (body : list instr) (s : mst B) : option (mst B) :=
    match fuel with
    | O => None
    | Datatypes.S fuel' => let* s' := exec body s in
             if snd (m_cmp s') <=? fst (m_cmp s') then do_while fuel' body s' else Some s'
    end.
  (** "beq 1f" after the prologue; label 2 is the loop, label 1 the epilogue. *)
  Definition run (fuel : nat) (pro body epi : list instr) (s : mst B) : option (mst B) :=
    let* s := exec pro s in
    let* s := if fst (m_cmp s) =? snd (m_cmp s) then Some s else do_while fuel body s in
    exec epi s.
End Machine.

(** bitpack_aarch64.h 57-73 *)
Definition float_pro : list instr :=
  [LD2H 0; LD2H 2; LD2H 4; LD2H 6; LD2H 8; LD2H 10; LD2H 12; LD2H 14; CMPN 1;
   LD2H 16; LD2H 18; LD2H 20; LD2H 22; LD2H 24; LD2H 26; LD2H 28; LD2H 30].
(** bitpack_aarch64.h 76-187 *)
Definition float_body : list instr :=
  [UZP2 16 1 3; LD2H 0; UZP2 18 5 7; UZP2 20 9 11; LD2H 2; UZP2 22 13 15; UZP2 24 17 19; LD2H 4;
   UZP2 26 21 23; UZP2 28 25 27; LD2H 6; UZP2 30 29 31;
   UZP2 0 16 18; LD2H 8; UZP1 17 16 18; UZP2 2 20 22; LD2H 10; UZP1 19 20 22; UZP2 4 24 26; LD2H 12;
   UZP1 21 24 26; UZP2 6 28 30; LD2H 14; UZP1 23 28 30;
   SUBN;
   SRI 0 17 1; LD2H 16; SRI 2 19 1; SRI 4 21 1; LD2H 18; SRI 6 23 1;
   UZP2 8 0 2; LD2H 20; UZP1 30 0 2; UZP2 10 4 6; LD2H 22; UZP1 31 4 6;
   CMPN 2;
   SRI 8 30 2; LD2H 24; SRI 10 31 2;
   UZP2 0 8 10; LD2H 26; UZP1 2 8 10; SRI 0 2 4;
   LD2H 28; ST1 0; LD2H 30].
(** bitpack_aarch64.h 189-227 *)
Definition float_epi : list instr :=
  [UZP2 16 1 3; UZP2 18 5 7; UZP2 20 9 11; UZP2 22 13 15; UZP2 24 17 19; UZP2 26 21 23; UZP2 28 25 27; UZP2 30 29 31;
   UZP2 0 16 18; UZP1 17 16 18; UZP2 2 20 22; UZP1 19 20 22; UZP2 4 24 26; UZP1 21 24 26; UZP2 6 28 30; UZP1 23 28 30;
   SRI 0 17 1; SRI 2 19 1; SRI 4 21 1; SRI 6 23 1;
   UZP2 8 0 2; UZP1 30 0 2; UZP2 10 4 6; UZP1 31 4 6;
   SRI 8 30 2; SRI 10 31 2;
   UZP2 0 8 10; UZP1 2 8 10; SRI 0 2 4;
   ST1 0].
(** bitpack_aarch64.h 260-274 *)
Definition int8_pro : list instr := [DUPZ 31; LD2B 0; LD2B 2; CMPN 1; LD2B 4; LD2B 6].
(** bitpack_aarch64.h 277-345 *)
Definition int8_body : list instr :=
  [SQSUB 8 1 31; SQSUB 9 0 31; SQSUB 10 3 31; SQSUB 11 2 31; LD2B 0; SQSUB 12 5 31; SQSUB 13 4 31; SQSUB 14 7 31; SQSUB 15 6 31;
   SUBN;
   LD2B 2; SRI 8 9 1; SRI 10 11 1; SRI 12 13 1; SRI 14 15 1;
   LD2B 4; UZP2 16 8 10; UZP1 17 8 10; UZP2 18 12 14; UZP1 19 12 14;
   CMPN 2;
   LD2B 6; SRI 16 17 2; SRI 18 19 2;
   UZP2 8 16 18; UZP1 9 16 18; SRI 8 9 4;
   ST1 8].
(** bitpack_aarch64.h 347-379 *)
Definition int8_epi : list instr :=
  [SQSUB 8 1 31; SQSUB 9 0 31; SQSUB 10 3 31; SQSUB 11 2 31; SQSUB 12 5 31; SQSUB 13 4 31; SQSUB 14 7 31; SQSUB 15 6 31;
   SRI 8 9 1; SRI 10 11 1; SRI 12 13 1; SRI 14 15 1;
   UZP2 16 8 10; UZP1 17 8 10; UZP2 18 12 14; UZP1 19 12 14;
   SRI 16 17 2; SRI 18 19 2;
   UZP2 8 16 18; UZP1 9 16 18; SRI 8 9 4;
   ST1 8].

(** Bytes 0..255. SRI #n: keep the top n bits of the destination, insert the
    source shifted right. SQSUB: signed saturating subtraction. *)
Definition sri8 (n d s : Z) : Z := Z.lor (Z.shiftl (Z.shiftr d (8 - n)) (8 - n)) (Z.shiftr s n).
Definition signed8 (b : Z) : Z := if b <? 128 then b else b - 256.
Definition sqsub8 (x y : Z) : Z := (Z.max (-128) (Z.min 127 (signed8 x - signed8 y))) mod 256.

(** Little-endian word made of four bytes. *)
Definition le_word (b0 b1 b2 b3 : Z) : Z := Z.lor b0 (Z.lor (Z.shiftl b1 8) (Z.lor (Z.shiftl b2 16) (Z.shiftl b3 24))).
Definition store4 (out : list Z) (ptr : Z) (v : list Z) : option (list Z) :=
  match v with
  | [a0; a1; a2; a3; b0; b1; b2; b3; c0; c1; c2; c3; d0; d1; d2; d3] =>
      let* out := wr out ptr (le_word a0 a1 a2 a3) in
      let* out := wr out (ptr + 1) (le_word b0 b1 b2 b3) in
      let* out := wr out (ptr + 2) (le_word c0 c1 c2 c3) in
      wr out (ptr + 3) (le_word d0 d1 d2 d3)
  | _ => None
  end.
Fixpoint apply_log (out : list Z) (l : list (Z * list Z)) : option (list Z) :=
  match l with [] => Some out | (p, v) :: l' => let* out := apply_log out l' in store4 out p v end.

(** Byte [i] of the memory holding floats (bit patterns) / int8 values. *)
Definition ld_float (inp : list Z) (i : Z) : option Z :=
  let* w := rd inp (i / 4) in Some ((w / 2 ^ (8 * (i mod 4))) mod 256).
Definition ld_int8 (inp : list Z) (i : Z) : option Z := let* x := rd inp i in Some (x mod 256).

(** The initial register contents [g] are unspecified. *)
Definition start (g : list (list Z)) (in_ptr out_ptr n : Z) : mst Z :=
  {| m_reg := g; m_in := in_ptr; m_out := out_ptr; m_log := []; m_n := n; m_cmp := (0, 0) |}.
(** bitpack_aarch64.h 26-235 *)
Definition bitpack_neon_float (g : list (list Z)) (inp : list Z) (in_off num_blocks : Z) (out : list Z) (out_off : Z)
  : option (list Z) :=
  if num_blocks <? 1 then Some out else
  let* s := run sri8 sqsub8 0 (ld_float inp) (Z.to_nat num_blocks) float_pro float_body float_epi
              (start g (4 * in_off) out_off num_blocks) in
  apply_log out (m_log s).
(** bitpack_aarch64.h 237-389 *)
Definition bitpack_neon_int8 (g : list (list Z)) (inp : list Z) (in_off num_blocks : Z) (out : list Z) (out_off zp : Z)
  : option (list Z) :=
  if num_blocks <? 1 then Some out else
  let* s := run sri8 sqsub8 (zp mod 256) (ld_int8 inp) (Z.to_nat num_blocks) int8_pro int8_body int8_epi
              (start g in_off out_off num_blocks) in
  apply_log out (m_log s).

(** bitpack.h 209-247 on AArch64: NEON for the first num_packed / 4 blocks, then
    the portable loop for the rest. *)
Definition bitpack_array_a64 (E : elemtype) (neon : Z -> Z -> list Z -> Z -> option (list Z))
    (inp : list (et E)) (in_off n : Z) (out : list Z) (out_off : Z) (zp : et E) : option (list Z) :=
  let blocks := n / 32 / 4 in
  let* out := neon in_off blocks out out_off in
  bitpack_array E inp (in_off + 32 * 4 * blocks) (n - 32 * 4 * blocks) out (out_off + 4 * blocks) zp.
Definition bitpack_array_a64_float (g : list (list Z)) (inp : list Z) (in_off n : Z) (out : list Z) (out_off : Z)
  : option (list Z) :=
  bitpack_array_a64 float_elem (bitpack_neon_float g inp) inp in_off n out out_off 0.
Definition bitpack_array_a64_int8 (g : list (list Z)) (inp : list Z) (in_off n : Z) (out : list Z) (out_off zp : Z)
  : option (list Z) :=
  bitpack_array_a64 int8_elem (fun i b o oo => bitpack_neon_int8 g inp i b o oo zp) inp in_off n out out_off zp.

(** ** Symbolic execution *)
Inductive sb := SMem (i : Z) | SReg (r i : nat) | SZero | SSri (n : Z) (d s : sb) | SSub (x y : sb).
Fixpoint sb_eqb (a b : sb) : bool :=
  match a, b with
  | SMem i, SMem j => i =? j
  | SReg r i, SReg q j => Nat.eqb r q && Nat.eqb i j
  | SZero, SZero => true
  | SSri n d s, SSri m e t => (n =? m) && sb_eqb d e && sb_eqb s t
  | SSub x y, SSub u v => sb_eqb x u && sb_eqb y v
  | _, _ => false
  end.
Lemma sb_eqb_ok a b : sb_eqb a b = true -> a = b.
Proof.
  revert b. induction a as [i|r i| |n d IHd s IHs|x IHx y IHy]; intros [j|q j| |m e t|u v]; cbn; try discriminate; intros H.
  - apply Z.eqb_eq in H. congruence.
  - apply andb_true_iff in H. destruct H as [H1 H2]. apply Nat.eqb_eq in H1, H2. congruence.
  - reflexivity.
  - rewrite !andb_true_iff, Z.eqb_eq in H. destruct H as [[-> H2] H3]. rewrite (IHd e H2), (IHs t H3). reflexivity.
  - rewrite andb_true_iff in H. destruct H as [H2 H3]. rewrite (IHx u H2), (IHy v H3). reflexivity.
Qed.

Section Conc.
  Variables (zb : Z) (ldS : Z -> option sb) (ldC : Z -> option Z) (ev : sb -> Z) (base obase n0 : Z).
  Variable log0 : list (Z * list Z).
  Hypothesis ev_zero : ev SZero = zb.
  Hypothesis ev_sri : forall n d s, ev (SSri n d s) = sri8 n (ev d) (ev s).
  Hypothesis ev_sub : forall x y, ev (SSub x y) = sqsub8 (ev x) (ev y).
  Hypothesis Hld : forall j b, ldS j = Some b -> ldC (base + j) = Some (ev b).
  Definition conc (s : mst sb) : mst Z :=
    {| m_reg := map (map ev) (m_reg s); m_in := base + m_in s; m_out := obase + m_out s;
       m_log := map (fun e => (obase + fst e, map ev (snd e))) (m_log s) ++ log0;
       m_n := n0 + m_n s; m_cmp := (n0 + fst (m_cmp s), snd (m_cmp s)) |}.

  Lemma map_evens {A B} (f : A -> B) : forall l, evens (map f l) = map f (evens l).
  Proof. fix IH 1. intros [|x [|y l]]; cbn; try reflexivity. rewrite IH. reflexivity. Qed.
  Lemma map_odds {A B} (f : A -> B) : forall l, odds (map f l) = map f (odds l).
  Proof. fix IH 1. intros [|x [|y l]]; cbn; try reflexivity. rewrite IH. reflexivity. Qed.
  Lemma map_evens_h {A B} (f : A -> B) : forall l, evens_h (map f l) = map f (evens_h l).
  Proof. fix IH 1. intros [|x [|y [|z [|t l]]]]; cbn; try reflexivity. rewrite IH. reflexivity. Qed.
  Lemma map_odds_h {A B} (f : A -> B) : forall l, odds_h (map f l) = map f (odds_h l).
  Proof. fix IH 1. intros [|x [|y [|z [|t l]]]]; cbn; try reflexivity. rewrite IH. reflexivity. Qed.
  Lemma map_zip {A B} (f : A -> B) (g : A -> A -> A) (h : B -> B -> B) :
    (forall x y, f (g x y) = h (f x) (f y)) -> forall l1 l2, zip h (map f l1) (map f l2) = map f (zip g l1 l2).
  Proof. intros H. induction l1 as [|x l1 IH]; intros [|y l2]; cbn; try reflexivity. rewrite IH, H. reflexivity. Qed.
  Lemma map_upd_nat {A B} (f : A -> B) : forall m i v, upd_nat (map f m) i (f v) = map f (upd_nat m i v).
  Proof. induction m as [|x m IH]; intros [|i] v; cbn; try reflexivity. rewrite IH. reflexivity. Qed.
  Lemma loads_conc n : forall j bs, loads ldS j n = Some bs -> loads ldC (base + j) n = Some (map ev bs).
  Proof.
    induction n as [|n IH]; intros j bs; cbn [loads]; [intros H; injection H as <-; reflexivity|].
    destruct (ldS j) as [b|] eqn:E; [|discriminate]. cbn [bind].
    destruct (loads ldS (j + 1) n) as [r|] eqn:E2; [|discriminate]. cbn [bind]. intros H. injection H as <-.
    rewrite (Hld j b E). cbn [bind]. replace (base + j + 1) with (base + (j + 1)) by ring. rewrite (IH _ _ E2). reflexivity.
  Qed.
  Lemma reg_conc s r : reg (conc s) r = map ev (reg s r).
  Proof. unfold reg, conc. cbn [m_reg]. change (@nil Z) with (map ev []). apply map_nth. Qed.
  Lemma set_conc s r v : set_reg (conc s) r (map ev v) = conc (set_reg s r v).
  Proof. unfold set_reg, conc. cbn. rewrite map_upd_nat. reflexivity. Qed.
  Lemma bump_conc s k : bump_in (conc s) k = conc (bump_in s k).
  Proof. unfold bump_in, conc. cbn. rewrite Z.add_assoc. reflexivity. Qed.

  Lemma exec1_conc i s s' : exec1 SSri SSub SZero ldS i s = Some s' ->
    exec1 sri8 sqsub8 zb ldC i (conc s) = Some (conc s').
  Proof.
    destruct i as [d|d|d a b|d a b|d a n|d a b|d|d| |k]; cbn [exec1].
    - destruct (loads ldS (m_in s) 32) as [bs|] eqn:E; [|discriminate]. cbn [bind]. intros H. injection H as <-.
      change (m_in (conc s)) with (base + m_in s). rewrite (loads_conc _ _ _ E). cbn [bind].
      rewrite map_evens_h, map_odds_h, !set_conc, bump_conc. reflexivity.
    - destruct (loads ldS (m_in s) 32) as [bs|] eqn:E; [|discriminate]. cbn [bind]. intros H. injection H as <-.
      change (m_in (conc s)) with (base + m_in s). rewrite (loads_conc _ _ _ E). cbn [bind].
      rewrite map_evens, map_odds, !set_conc, bump_conc. reflexivity.
    - intros H. injection H as <-. rewrite !reg_conc, <- map_app, map_evens, set_conc. reflexivity.
    - intros H. injection H as <-. rewrite !reg_conc, <- map_app, map_odds, set_conc. reflexivity.
    - intros H. injection H as <-. rewrite !reg_conc, (map_zip ev (SSri n)), set_conc by (intros; apply ev_sri). reflexivity.
    - intros H. injection H as <-. rewrite !reg_conc, (map_zip ev SSub), set_conc by (intros; apply ev_sub). reflexivity.
    - intros H. injection H as <-. assert (Hr : repeat zb 16 = map ev (repeat SZero 16)).
      { rewrite <- ev_zero. reflexivity. }
      rewrite Hr, set_conc. reflexivity.
    - intros H. injection H as <-. rewrite reg_conc. unfold conc. cbn. rewrite Z.add_assoc. reflexivity.
    - intros H. injection H as <-. unfold conc. cbn. f_equal. f_equal. ring.
    - intros H. injection H as <-. reflexivity.
  Qed.
  Lemma exec_conc p : forall s s', exec SSri SSub SZero ldS p s = Some s' ->
    exec sri8 sqsub8 zb ldC p (conc s) = Some (conc s').
  Proof.
    induction p as [|i p IH]; intros s s'; cbn [exec]; [congruence|].
    destruct (exec1 SSri SSub SZero ldS i s) as [s1|] eqn:E; [|discriminate]. cbn [bind]. intros H.
    rewrite (exec1_conc _ _ _ E). cbn [bind]. apply IH. exact H.
  Qed.
End Conc.

(** The symbolic start state: every register lane is a variable. *)
Definition sym_regs : list (list sb) := map (fun r => map (SReg r) (seq 0 16)) (seq 0 32).
Definition sym_start (c : Z * Z) : mst sb := {| m_reg := sym_regs; m_in := 0; m_out := 0; m_log := []; m_n := 0; m_cmp := c |}.
(** Memory of one block of [len] bytes. *)
Definition sym_ld (len : Z) (i : Z) : option sb := if (0 <=? i) && (i <? len) then Some (SMem i) else None.
Definition sym_run (len : Z) (p : list instr) (c : Z * Z) : option (mst sb) :=
  exec SSri SSub SZero (sym_ld len) p (sym_start c).

(** Byte [j] of a packed block, given the sign byte of each element. *)
Definition pack8 {B} (sri : Z -> B -> B -> B) (b : nat -> B) : B :=
  sri 4 (sri 2 (sri 1 (b 7%nat) (b 6%nat)) (sri 1 (b 5%nat) (b 4%nat)))
        (sri 2 (sri 1 (b 3%nat) (b 2%nat)) (sri 1 (b 1%nat) (b 0%nat))).
Definition packed_block {B} (sri : Z -> B -> B -> B) (S : nat -> B) : list B :=
  map (fun j => pack8 sri (fun u => S (8 * j + u)%nat)) (seq 0 16).
Fixpoint list_eqb {A} (e : A -> A -> bool) (l1 l2 : list A) : bool :=
  match l1, l2 with [], [] => true | x :: l1', y :: l2' => e x y && list_eqb e l1' l2' | _, _ => false end.
Lemma list_eqb_ok {A} (e : A -> A -> bool) : (forall x y, e x y = true -> x = y) ->
  forall l1 l2, list_eqb e l1 l2 = true -> l1 = l2.
Proof.
  intros He. induction l1 as [|x l1 IH]; intros [|y l2]; cbn; try discriminate; [reflexivity|].
  rewrite andb_true_iff. intros [H1 H2]. rewrite (He x y H1), (IH l2 H2). reflexivity.
Qed.

(** Where the sign byte of element [t] of the current block is held: float, bytes
    of the odd registers; int8, de-interleaved over v0..v7 (before subtraction). *)
Definition float_lane (t : nat) : nat * nat := ((2 * (t / 8) + 1)%nat, (2 * (t mod 8) + 1)%nat).
Definition int8_lane (t : nat) : nat * nat := ((2 * (t / 32) + t mod 2)%nat, ((t mod 32) / 2)%nat).
Definition lane_sym (lane : nat -> nat * nat) (t : nat) : sb := SReg (fst (lane t)) (snd (lane t)).


(** What is checked of the three program parts, by running them symbolically:
    [sub] says whether the sign byte is the lane minus the zero byte (int8), the
    sign byte of element [t] is at byte [stride * t + shift] of the block. *)
Definition sign_sym (sub : bool) (lane : nat -> nat * nat) (t : nat) : sb :=
  if sub then SSub (lane_sym lane t) (SReg 31 ((t mod 32) / 2)) else lane_sym lane t.
Definition lane_of (lane : nat -> nat * nat) (R : list (list sb)) (t : nat) : sb :=
  nth (snd (lane t)) (nth (fst (lane t)) R []) SZero.
Definition shapeb {B} (R : list (list B)) : bool := Nat.eqb (length R) 32 && forallb (fun r => Nat.eqb (length r) 16) R.
Definition lanes_ok (lane : nat -> nat * nat) (stride shift : Z) (R : list (list sb)) : bool :=
  forallb (fun t => sb_eqb (lane_of lane R t) (SMem (stride * Z.of_nat t + shift))) (seq 0 128).
Definition pro_ok (sub : bool) lane (stride shift : Z) (s : mst sb) : bool :=
  (m_in s =? 128 * stride) && (m_out s =? 0) && (m_n s =? 0) && (fst (m_cmp s) =? 0) && (snd (m_cmp s) =? 1)
  && match m_log s with [] => true | _ => false end
  && shapeb (m_reg s) && lanes_ok lane stride shift (m_reg s)
  && (negb sub || list_eqb sb_eqb (nth 31 (m_reg s) []) (repeat SZero 16)).
Definition body_ok (sub : bool) lane (stride shift : Z) (s : mst sb) : bool :=
  (m_in s =? 128 * stride) && (m_out s =? 4) && (m_n s =? -1) && (fst (m_cmp s) =? -1) && (snd (m_cmp s) =? 2)
  && match m_log s with [(p, v)] => (p =? 0) && list_eqb sb_eqb v (packed_block SSri (sign_sym sub lane)) | _ => false end
  && shapeb (m_reg s) && lanes_ok lane stride shift (m_reg s)
  && (negb sub || list_eqb sb_eqb (nth 31 (m_reg s) []) (map (SReg 31) (seq 0 16))).
Definition epi_ok (sub : bool) lane (s : mst sb) : bool :=
  match m_log s with [(p, v)] => (p =? 0) && list_eqb sb_eqb v (packed_block SSri (sign_sym sub lane)) | _ => false end.
Definition holds {A} (f : A -> bool) (o : option A) : bool := match o with Some a => f a | None => false end.
Lemma holds_ok {A} (f : A -> bool) o : holds f o = true -> exists a, o = Some a /\ f a = true.
Proof. destruct o as [a|]; cbn; [|discriminate]. intros H. exists a. auto. Qed.

Lemma float_pro_ok c : holds (pro_ok false float_lane 4 3) (sym_run 512 float_pro c) = true.
Proof. vm_compute. reflexivity. Qed.
Lemma float_body_ok c : holds (body_ok false float_lane 4 3) (sym_run 512 float_body c) = true.
Proof. vm_compute. reflexivity. Qed.
Lemma float_epi_ok c : holds (epi_ok false float_lane) (sym_run 0 float_epi c) = true.
Proof. vm_compute. reflexivity. Qed.
Lemma int8_pro_ok c : holds (pro_ok true int8_lane 1 0) (sym_run 128 int8_pro c) = true.
Proof. vm_compute. reflexivity. Qed.
Lemma int8_body_ok c : holds (body_ok true int8_lane 1 0) (sym_run 128 int8_body c) = true.
Proof. vm_compute. reflexivity. Qed.
Lemma int8_epi_ok c : holds (epi_ok true int8_lane) (sym_run 0 int8_epi c) = true.
Proof. vm_compute. reflexivity. Qed.

(** ** The whole program, for any number of blocks *)
Lemma andb_list2 a b : a && b = true -> a = true /\ b = true. Proof. apply andb_true_iff. Qed.
Lemma map_nth_seq {A} (d : A) : forall l, map (fun i => nth i l d) (seq 0 (length l)) = l.
Proof.
  induction l as [|x l IH]; [reflexivity|]. cbn [length seq map nth]. f_equal.
  rewrite <- seq_shift, map_map. exact IH.
Qed.
Lemma shapeb_len {B} (R : list (list B)) : shapeb R = true -> length R = 32%nat.
Proof. intros H. apply andb_list2 in H. destruct H as [H _]. apply Nat.eqb_eq. exact H. Qed.
Lemma shapeb_row {B} (R : list (list B)) r : shapeb R = true -> (r < 32)%nat -> length (nth r R []) = 16%nat.
Proof.
  intros H Hr. pose proof (shapeb_len R H) as Hl. apply andb_list2 in H. destruct H as [_ H].
  rewrite forallb_forall in H. apply Nat.eqb_eq, H, nth_In. lia.
Qed.
Lemma shapeb_map {A B} (f : A -> B) R : shapeb R = true -> shapeb (map (map f) R) = true.
Proof.
  intros H. apply andb_list2 in H. destruct H as [H1 H2]. unfold shapeb. rewrite map_length, H1. cbn [andb].
  rewrite forallb_forall in H2 |- *. intros x Hx. apply in_map_iff in Hx. destruct Hx as (y & <- & Hy).
  rewrite map_length. apply H2. exact Hy.
Qed.

Section Program.
  Variables (sub : bool) (lane : nat -> nat * nat) (stride shift : Z) (pro body epi : list instr).
  Hypothesis Hlane : forall t, (t < 128)%nat -> (fst (lane t) < 32)%nat.
  Hypothesis Hsub : sub = true -> forall t, (t < 128)%nat -> ((t mod 32) / 2 < 16)%nat.
  Hypothesis Hpro : forall c, holds (pro_ok sub lane stride shift) (sym_run (128 * stride) pro c) = true.
  Hypothesis Hbody : forall c, holds (body_ok sub lane stride shift) (sym_run (128 * stride) body c) = true.
  Hypothesis Hepi : forall c, holds (epi_ok sub lane) (sym_run 0 epi c) = true.
  Variables (zb : Z) (ldC : Z -> option Z) (base out0 N : Z).
  Hypothesis Hmem : forall j, base <= j < base + 128 * stride * N -> exists b, ldC j = Some b.

  Definition mem_at (j : Z) : Z := match ldC j with Some b => b | None => 0 end.
  (** The sign byte of element [e]. *)
  Definition sign_at (e : Z) : Z :=
    let b := mem_at (base + (stride * e + shift)) in if sub then sqsub8 b zb else b.
  Definition block_bytes (k : Z) : list Z := packed_block sri8 (fun t => sign_at (128 * k + Z.of_nat t)).
  Fixpoint log_spec (k : nat) : list (Z * list Z) :=
    match k with O => [] | Datatypes.S k' => (out0 + 4 * Z.of_nat k', block_bytes (Z.of_nat k')) :: log_spec k' end.
  Definition lane_val (R : list (list Z)) (t : nat) : Z := nth (snd (lane t)) (nth (fst (lane t)) R []) 0.

  Record inv (k : nat) (s : mst Z) : Prop := {
    i_shape : shapeb (m_reg s) = true;
    i_lanes : forall t, (t < 128)%nat -> lane_val (m_reg s) t = mem_at (base + (stride * (128 * Z.of_nat k + Z.of_nat t) + shift));
    i_zero : sub = true -> nth 31 (m_reg s) [] = repeat zb 16;
    i_in : m_in s = base + 128 * stride * (Z.of_nat k + 1);
    i_out : m_out s = out0 + 4 * Z.of_nat k;
    i_n : m_n s = N - Z.of_nat k;
    i_log : m_log s = log_spec k }.

  Fixpoint ev (R : list (list Z)) (b0 : Z) (x : sb) : Z :=
    match x with
    | SMem i => mem_at (b0 + i)
    | SReg r i => nth i (nth r R []) 0
    | SZero => zb
    | SSri n d s => sri8 n (ev R b0 d) (ev R b0 s)
    | SSub u v => sqsub8 (ev R b0 u) (ev R b0 v)
    end.
  Lemma conc_start s : shapeb (m_reg s) = true ->
    conc (ev (m_reg s) (m_in s)) (m_in s) (m_out s) (m_n s) (m_log s) (sym_start (fst (m_cmp s) - m_n s, snd (m_cmp s))) = s.
  Proof.
    intros H. destruct s as [R i o l n [c1 c2]]. cbn [m_reg] in H. unfold conc, sym_start. cbn [m_reg m_in m_out m_n m_log m_cmp map app fst snd].
    f_equal; try ring; [|f_equal; ring].
    pose proof (shapeb_len R H) as Hl.
    transitivity (map (fun r => nth r R []) (seq 0 32)); [|rewrite <- Hl; apply map_nth_seq].
    unfold sym_regs. rewrite map_map. apply map_ext_in. intros r Hr. apply in_seq in Hr. rewrite map_map. cbn [ev].
    rewrite <- (shapeb_row R r H) by lia. apply map_nth_seq.
  Qed.
  Lemma exec_sym s p len s' : shapeb (m_reg s) = true ->
    (forall j, m_in s <= j < m_in s + len -> exists b, ldC j = Some b) ->
    sym_run len p (fst (m_cmp s) - m_n s, snd (m_cmp s)) = Some s' ->
    exec sri8 sqsub8 zb ldC p s = Some (conc (ev (m_reg s) (m_in s)) (m_in s) (m_out s) (m_n s) (m_log s) s').
  Proof.
    intros Hs Hm H. rewrite <- (conc_start s Hs) at 1.
    refine (exec_conc zb (sym_ld len) ldC (ev (m_reg s) (m_in s)) (m_in s) (m_out s) (m_n s) (m_log s) eq_refl (fun _ _ _ => eq_refl) (fun _ _ => eq_refl) _ p _ _ H).
    intros j b. unfold sym_ld. destruct ((0 <=? j) && (j <? len)) eqn:E; [|discriminate]. intros Hb. injection Hb as <-.
    cbn [ev]. unfold mem_at. destruct (Hm (m_in s + j)) as [b Hb]; [lia|]. rewrite Hb. reflexivity.
  Qed.
  Lemma lane_conc e R t : shapeb R = true -> (t < 128)%nat -> (snd (lane t) < 16)%nat ->
    lane_val (map (map e) R) t = e (lane_of lane R t).
  Proof.
    intros Hs Ht Hl2. unfold lane_val, lane_of. change (@nil Z) with (map e []). rewrite map_nth.
    rewrite (nth_indep _ 0 (e SZero)); [apply map_nth|]. rewrite map_length, (shapeb_row R _ Hs) by (apply Hlane; exact Ht). exact Hl2.
  Qed.
  Hypothesis Hlane2 : forall t, (t < 128)%nat -> (snd (lane t) < 16)%nat.
  Lemma lanes_conc e R : shapeb R = true -> lanes_ok lane stride shift R = true ->
    forall t, (t < 128)%nat -> lane_val (map (map e) R) t = e (SMem (stride * Z.of_nat t + shift)).
  Proof.
    intros Hs H t Ht. rewrite (lane_conc e R t Hs Ht (Hlane2 t Ht)). f_equal. apply sb_eqb_ok.
    unfold lanes_ok in H. rewrite forallb_forall in H. apply H. apply in_seq. lia.
  Qed.
  Lemma map_packed e : (forall n d s, e (SSri n d s) = sri8 n (e d) (e s)) ->
    forall S S', (forall t, (t < 128)%nat -> e (S t) = S' t) -> map e (packed_block SSri S) = packed_block sri8 S'.
  Proof.
    intros He S S' H. unfold packed_block. rewrite map_map. apply map_ext_in. intros j Hj. apply in_seq in Hj.
    unfold pack8. rewrite !He, !H by lia. reflexivity.
  Qed.
  Lemma stored k s : inv k s -> forall v, list_eqb sb_eqb v (packed_block SSri (sign_sym sub lane)) = true ->
    map (ev (m_reg s) (m_in s)) v = block_bytes (Z.of_nat k).
  Proof.
    intros I v Hv. rewrite (list_eqb_ok sb_eqb sb_eqb_ok _ _ Hv). unfold block_bytes. apply map_packed; [reflexivity|].
    intros t Ht. unfold sign_sym, sign_at. pose proof (i_lanes _ _ I t Ht) as HL. unfold lane_val in HL.
    pose proof (i_zero _ _ I) as Hz. pose proof (fun H => Hsub H t Ht) as Hb. clear - HL Hz Hb.
    destruct sub; cbn [ev lane_sym]; rewrite HL; [|reflexivity].
    rewrite (Hz eq_refl). f_equal. specialize (Hb eq_refl). clear - Hb.
    apply (repeat_spec 16 zb). apply nth_In. rewrite repeat_length. exact Hb.
  Qed.

  Lemma pro_wp g c : shapeb g = true -> 1 <= N ->
    exists s, exec sri8 sqsub8 zb ldC pro {| m_reg := g; m_in := base; m_out := out0; m_log := []; m_n := N; m_cmp := c |} = Some s /\
      inv 0 s /\ m_cmp s = (N, 1).
  Proof.
    intros Hg HN. set (s0 := {| m_reg := g; m_in := base; m_out := out0; m_log := []; m_n := N; m_cmp := c |}).
    destruct (holds_ok _ _ (Hpro (fst (m_cmp s0) - m_n s0, snd (m_cmp s0)))) as (s' & Hs' & Hok).
    eexists. split; [apply (exec_sym s0 pro (128 * stride) s' Hg)|]; [|exact Hs'|].
    { intros j Hj. change (m_in s0) with base in Hj. apply Hmem.
      assert (128 * stride * 1 <= 128 * stride * N) by (apply Z.mul_le_mono_nonneg_l; lia). lia. }
    unfold pro_ok in Hok. rewrite !andb_true_iff, !Z.eqb_eq in Hok.
    destruct Hok as ((((((((H1 & H2) & H3) & H4) & H5) & H6) & H7) & H8) & H9).
    split; [|unfold conc; cbn [m_cmp]; rewrite H4, H5; cbn; f_equal; lia].
    constructor; unfold conc; cbn [m_reg m_in m_out m_n m_log].
    - apply shapeb_map. exact H7.
    - intros t Ht. rewrite (lanes_conc _ _ H7 H8 t Ht). cbn [ev]. f_equal.
    - intros Es. rewrite Es in H9. cbn [negb orb] in H9. apply (list_eqb_ok _ sb_eqb_ok) in H9.
      change (@nil Z) with (map (ev (m_reg s0) (m_in s0)) []). rewrite map_nth, H9. reflexivity.
    - rewrite H1. cbn. ring.
    - rewrite H2. cbn. ring.
    - rewrite H3. cbn. ring.
    - destruct (m_log s'); [reflexivity|discriminate].
  Qed.
  Lemma body_wp k s : inv k s -> Z.of_nat k + 2 <= N ->
    exists s1, exec sri8 sqsub8 zb ldC body s = Some s1 /\ inv (Datatypes.S k) s1 /\ m_cmp s1 = (N - Z.of_nat k - 1, 2).
  Proof.
    intros I HN.
    destruct (holds_ok _ _ (Hbody (fst (m_cmp s) - m_n s, snd (m_cmp s)))) as (s' & Hs' & Hok).
    eexists. split; [apply (exec_sym s body (128 * stride) s' (i_shape _ _ I))|]; [|exact Hs'|].
    { intros j Hj. rewrite (i_in _ _ I) in Hj. apply Hmem.
      assert (128 * stride * (Z.of_nat k + 2) <= 128 * stride * N) by (apply Z.mul_le_mono_nonneg_l; lia).
      assert (0 <= 128 * stride * (Z.of_nat k + 1)) by (apply Z.mul_nonneg_nonneg; lia). lia. }
    unfold body_ok in Hok. rewrite !andb_true_iff, !Z.eqb_eq in Hok.
    destruct Hok as ((((((((H1 & H2) & H3) & H4) & H5) & H6) & H7) & H8) & H9).
    split; [|unfold conc; cbn [m_cmp]; rewrite H4, H5, (i_n _ _ I); cbn [fst snd]; f_equal; lia].
    constructor; unfold conc; cbn [m_reg m_in m_out m_n m_log].
    - apply shapeb_map. exact H7.
    - intros t Ht. rewrite (lanes_conc _ _ H7 H8 t Ht). cbn [ev]. f_equal. rewrite (i_in _ _ I), Nat2Z.inj_succ. ring.
    - intros Es. rewrite Es in H9. cbn [negb orb] in H9. apply (list_eqb_ok _ sb_eqb_ok) in H9.
      change (@nil Z) with (map (ev (m_reg s) (m_in s)) []). rewrite map_nth, H9.
      pose proof (i_zero _ _ I Es) as Hz. cbn [seq map ev]. rewrite Hz. reflexivity.
    - rewrite H1, (i_in _ _ I), Nat2Z.inj_succ. ring.
    - rewrite H2, (i_out _ _ I), Nat2Z.inj_succ. ring.
    - rewrite H3, (i_n _ _ I), Nat2Z.inj_succ. ring.
    - destruct (m_log s') as [|[p v] [|]]; try discriminate. apply andb_list2 in H6. destruct H6 as [Hp Hv].
      apply Z.eqb_eq in Hp. cbn [map app fst snd log_spec]. rewrite Hp, (i_log _ _ I), (i_out _ _ I), (stored k s I v Hv).
      f_equal. f_equal. ring.
  Qed.
  Lemma epi_wp k s : inv k s -> exists s1, exec sri8 sqsub8 zb ldC epi s = Some s1 /\ m_log s1 = log_spec (Datatypes.S k).
  Proof.
    intros I. destruct (holds_ok _ _ (Hepi (fst (m_cmp s) - m_n s, snd (m_cmp s)))) as (s' & Hs' & Hok).
    eexists. split; [apply (exec_sym s epi 0 s' (i_shape _ _ I))|]; [|exact Hs'|]; [intros j Hj; lia|].
    unfold epi_ok in Hok. unfold conc. cbn [m_log]. destruct (m_log s') as [|[p v] [|]]; try discriminate.
    apply andb_list2 in Hok. destruct Hok as [Hp Hv].
    apply Z.eqb_eq in Hp. cbn [map app fst snd log_spec]. rewrite Hp, (i_log _ _ I), (i_out _ _ I), (stored k s I v Hv).
    f_equal. f_equal. ring.
  Qed.
  Lemma do_while_wp : forall fuel k s, inv k s -> Z.of_nat k + 2 <= N -> N - Z.of_nat k - 1 <= Z.of_nat fuel ->
    exists s1, do_while sri8 sqsub8 zb ldC fuel body s = Some s1 /\ inv (Z.to_nat (N - 1)) s1.
  Proof.
    induction fuel as [|fuel IH]; intros k s I Hk Hf; [lia|]. cbn [do_while].
    destruct (body_wp k s I Hk) as (s1 & -> & I1 & Hc). cbn [bind]. rewrite Hc. cbn [fst snd].
    destruct (Z.leb_spec 2 (N - Z.of_nat k - 1)) as [H|H].
    - apply (IH (Datatypes.S k)); [exact I1|lia|lia].
    - exists s1. split; [reflexivity|]. replace (Z.to_nat (N - 1)) with (Datatypes.S k) by lia. exact I1.
  Qed.
  Lemma run_wp g c : shapeb g = true -> 1 <= N ->
    exists s, run sri8 sqsub8 zb ldC (Z.to_nat N) pro body epi
                {| m_reg := g; m_in := base; m_out := out0; m_log := []; m_n := N; m_cmp := c |} = Some s /\
      m_log s = log_spec (Z.to_nat N).
  Proof.
    intros Hg HN. unfold run. destruct (pro_wp g c Hg HN) as (s & -> & I & Hc). cbn [bind]. rewrite Hc. cbn [fst snd].
    destruct (Z.eqb_spec N 1) as [H1|H1].
    - cbn [bind]. destruct (epi_wp 0 s I) as (s1 & Hs1 & Hl). exists s1. split; [exact Hs1|].
      replace (Z.to_nat N) with 1%nat by lia. exact Hl.
    - destruct (do_while_wp (Z.to_nat N) 0 s I) as (s1 & -> & I1); [lia|lia|]. cbn [bind].
      destruct (epi_wp _ s1 I1) as (s2 & Hs2 & Hl). exists s2. split; [exact Hs2|].
      replace (Z.to_nat N) with (Datatypes.S (Z.to_nat (N - 1))) by lia. exact Hl.
  Qed.
End Program.

(** ** Bits *)
Definition byte (b : Z) : Prop := 0 <= b < 256.
Lemma testbit_sri8 n d s i : 0 <= n <= 8 -> 0 <= i -> byte d -> byte s ->
  Z.testbit (sri8 n d s) i = if 8 - n <=? i then Z.testbit d i || Z.testbit s (i + n) else Z.testbit s (i + n).
Proof.
  intros Hn Hi Hd Hs. unfold sri8. rewrite Z.lor_spec, Z.shiftl_spec, (Z.shiftr_spec s) by lia.
  destruct (Z.leb_spec (8 - n) i) as [H|H].
  - rewrite Z.shiftr_spec by lia. replace (i - (8 - n) + (8 - n)) with i by ring. reflexivity.
  - rewrite Z.testbit_neg_r by lia. reflexivity.
Qed.
Lemma byte_high b i : byte b -> 8 <= i -> Z.testbit b i = false.
Proof.
  intros Hb Hi. destruct (Z.eq_dec b 0) as [->|Hb0]; [apply Z.bits_0|]. apply Z.bits_above_log2; [unfold byte in Hb; lia|].
  apply Z.log2_lt_pow2; [unfold byte in Hb; lia|]. apply Z.lt_le_trans with (2 ^ 8); [unfold byte in Hb; lia|]. apply Z.pow_le_mono_r; lia.
Qed.
Lemma byte_bits b : 0 <= b -> (forall i, 8 <= i -> Z.testbit b i = false) -> byte b.
Proof.
  intros H0 H. split; [exact H0|]. destruct (Z.eq_dec b 0); [lia|]. change 256 with (2 ^ 8).
  apply Z.log2_lt_pow2; [lia|]. destruct (Z.lt_ge_cases (Z.log2 b) 8) as [|Hge]; [assumption|].
  exfalso. specialize (H _ Hge). rewrite Z.bit_log2 in H by lia. discriminate.
Qed.
Lemma sri8_byte n d s : 0 <= n <= 8 -> byte d -> byte s -> byte (sri8 n d s).
Proof.
  intros Hn Hd Hs. apply byte_bits.
  - unfold sri8. apply Z.lor_nonneg. split; [apply Z.shiftl_nonneg, Z.shiftr_nonneg|apply Z.shiftr_nonneg]; [apply Hd|apply Hs].
  - intros i Hi. rewrite testbit_sri8 by (assumption || lia). rewrite !byte_high by (assumption || lia). destruct (8 - n <=? i); reflexivity.
Qed.
Lemma testbit_sri8' n d s i : 0 < n <= 8 -> 0 <= i < 8 -> byte d -> byte s ->
  Z.testbit (sri8 n d s) i = if 8 - n <=? i then Z.testbit d i else Z.testbit s (i + n).
Proof.
  intros Hn Hi Hd Hs. rewrite testbit_sri8 by (assumption || lia). destruct (Z.leb_spec (8 - n) i); [|reflexivity].
  rewrite (byte_high s) by (assumption || lia). apply orb_false_r.
Qed.
Lemma pack8_byte b : (forall u, (u < 8)%nat -> byte (b u)) -> byte (pack8 sri8 b).
Proof. intros H. unfold pack8. repeat apply sri8_byte; try lia; apply H; lia. Qed.
(** Bit [i] of the packed byte is the sign bit of byte [i]. *)
Lemma pack8_bit b i : (forall u, (u < 8)%nat -> byte (b u)) -> 0 <= i < 8 ->
  Z.testbit (pack8 sri8 b) i = Z.testbit (b (Z.to_nat i)) 7.
Proof.
  intros H Hi. unfold pack8.
  assert (B : forall u, (u < 8)%nat -> byte (b u)) by exact H.
  pose proof (B 0%nat ltac:(lia)). pose proof (B 1%nat ltac:(lia)). pose proof (B 2%nat ltac:(lia)). pose proof (B 3%nat ltac:(lia)).
  pose proof (B 4%nat ltac:(lia)). pose proof (B 5%nat ltac:(lia)). pose proof (B 6%nat ltac:(lia)). pose proof (B 7%nat ltac:(lia)).
  assert (C : i = 0 \/ i = 1 \/ i = 2 \/ i = 3 \/ i = 4 \/ i = 5 \/ i = 6 \/ i = 7) by lia.
  destruct C as [C|[C|[C|[C|[C|[C|[C|C]]]]]]]; subst i;
    repeat (rewrite testbit_sri8'; [|lia|lia|repeat apply sri8_byte; (assumption || lia)|repeat apply sri8_byte; (assumption || lia)];
            match goal with |- context [?x <=? ?y] => let v := eval compute in (x <=? y) in change (x <=? y) with v end; cbv iota);
    reflexivity.
Qed.
Lemma le_word_bit b0 b1 b2 b3 i : byte b0 -> byte b1 -> byte b2 -> byte b3 -> 0 <= i < 32 ->
  Z.testbit (le_word b0 b1 b2 b3) i =
  Z.testbit (if i <? 8 then b0 else if i <? 16 then b1 else if i <? 24 then b2 else b3) (i mod 8).
Proof.
  intros H0 H1 H2 H3 Hi. unfold le_word. rewrite !Z.lor_spec, !Z.shiftl_spec by lia.
  destruct (Z.ltb_spec i 8); [|destruct (Z.ltb_spec i 16); [|destruct (Z.ltb_spec i 24)]].
  - rewrite (Z.testbit_neg_r b1), (Z.testbit_neg_r b2), (Z.testbit_neg_r b3), !orb_false_r by lia.
    rewrite Z.mod_small by lia. reflexivity.
  - rewrite (byte_high b0), (Z.testbit_neg_r b2), (Z.testbit_neg_r b3), !orb_false_r by (assumption || lia).
    cbn [orb]. f_equal. lia.
  - rewrite (byte_high b0), (byte_high b1), (Z.testbit_neg_r b3), !orb_false_r by (assumption || lia).
    cbn [orb]. f_equal. lia.
  - rewrite (byte_high b0), (byte_high b1), (byte_high b2) by (assumption || lia).
    cbn [orb]. f_equal. lia.
Qed.
Lemma le_word_word b0 b1 b2 b3 : byte b0 -> byte b1 -> byte b2 -> byte b3 -> word (le_word b0 b1 b2 b3).
Proof.
  intros H0 H1 H2 H3. apply word_of_bits.
  - unfold le_word. repeat (apply Z.lor_nonneg; split); try apply Z.shiftl_nonneg; unfold byte in *; lia.
  - intros i Hi. unfold le_word. rewrite !Z.lor_spec, !Z.shiftl_spec by lia.
    rewrite !byte_high by (assumption || lia). reflexivity.
Qed.

(** ** The stores *)
Section Stores.
  Variables (out0 : Z) (sign : Z -> Z).
  Hypothesis Hout0 : 0 <= out0.
  Hypothesis Hsign : forall e, byte (sign e).
  Definition blk (k : Z) : list Z := packed_block sri8 (fun t => sign (128 * k + Z.of_nat t)).
  Fixpoint blog (k : nat) : list (Z * list Z) :=
    match k with O => [] | Datatypes.S k' => (out0 + 4 * Z.of_nat k', blk (Z.of_nat k')) :: blog k' end.
  (** Word [q] of the output. *)
  Definition wordq (q : Z) : Z :=
    let p := fun j : Z => pack8 sri8 (fun u => sign (32 * q + 8 * j + Z.of_nat u)) in le_word (p 0) (p 1) (p 2) (p 3).
  Lemma wordq_word q : word (wordq q).
  Proof. apply le_word_word; apply pack8_byte; intros; apply Hsign. Qed.
  Lemma wordq_bit q b : 0 <= b < 32 -> Z.testbit (wordq q) b = Z.testbit (sign (32 * q + b)) 7.
  Proof.
    intros Hb. unfold wordq. cbv zeta. rewrite le_word_bit; [|try (apply pack8_byte; intros; apply Hsign)..|exact Hb].
    assert (Hm : 0 <= b mod 8 < 8) by (apply Z.mod_pos_bound; lia).
    destruct (Z.ltb_spec b 8); [|destruct (Z.ltb_spec b 16); [|destruct (Z.ltb_spec b 24)]];
      rewrite pack8_bit by (try (intros; apply Hsign); exact Hm); f_equal; f_equal; lia.
  Qed.
  Lemma store4_blk out k (Q : list Z -> Prop) : 0 <= k -> out0 + 4 * k + 4 <= zlen out ->
    (forall out', zlen out' = zlen out ->
       (forall i, 0 <= i < 4 -> rd out' (out0 + 4 * k + i) = Some (wordq (4 * k + i))) ->
       (forall j, ~ out0 + 4 * k <= j < out0 + 4 * k + 4 -> rd out' j = rd out j) -> Q out') ->
    wp (store4 out (out0 + 4 * k) (blk k)) Q.
  Proof.
    intros Hk Hl HQ. unfold blk, packed_block. cbn [seq map store4].
    set (pk := fun a b c d => le_word
       (pack8 sri8 (fun u => sign (128 * k + Z.of_nat (a + u)))) (pack8 sri8 (fun u => sign (128 * k + Z.of_nat (b + u))))
       (pack8 sri8 (fun u => sign (128 * k + Z.of_nat (c + u)))) (pack8 sri8 (fun u => sign (128 * k + Z.of_nat (d + u))))).
    assert (Hpk : forall i : nat, (i < 4)%nat -> pk (32 * i)%nat (32 * i + 8)%nat (32 * i + 16)%nat (32 * i + 24)%nat = wordq (4 * k + Z.of_nat i)).
    { intros i Hi. unfold pk, wordq. cbv zeta. unfold pack8. f_equal; repeat (f_equal; try lia). }
    apply wp_bind. apply wr_wp; [lia|]. intros o1 L1 E1 U1. apply wp_bind. apply wr_wp; [lia|]. intros o2 L2 E2 U2.
    apply wp_bind. apply wr_wp; [lia|]. intros o3 L3 E3 U3. apply wr_wp; [lia|]. intros o4 L4 E4 U4.
    apply HQ; [congruence| |].
    - intros i Hi. assert (C : i = 0 \/ i = 1 \/ i = 2 \/ i = 3) by lia. destruct C as [C|[C|[C|C]]]; subst i.
      + rewrite U4, U3, U2 by lia. rewrite Z.add_0_r, E1. f_equal. exact (Hpk 0%nat ltac:(lia)).
      + rewrite U4, U3 by lia. rewrite E2. f_equal. exact (Hpk 1%nat ltac:(lia)).
      + rewrite U4 by lia. rewrite E3. f_equal. exact (Hpk 2%nat ltac:(lia)).
      + rewrite E4. f_equal. exact (Hpk 3%nat ltac:(lia)).
    - intros j Hj. rewrite U4, U3, U2, U1 by lia. reflexivity.
  Qed.
  Lemma apply_blog out : forall (n : nat) (Q : list Z -> Prop), out0 + 4 * Z.of_nat n <= zlen out ->
    (forall out', zlen out' = zlen out ->
       (forall q, 0 <= q < 4 * Z.of_nat n -> rd out' (out0 + q) = Some (wordq q)) ->
       (forall j, ~ out0 <= j < out0 + 4 * Z.of_nat n -> rd out' j = rd out j) -> Q out') ->
    wp (apply_log out (blog n)) Q.
  Proof.
    induction n as [|n IH]; intros Q Hl HQ; cbn [blog apply_log].
    - apply wp_ret. apply HQ; [reflexivity|intros; lia|reflexivity].
    - apply wp_bind. apply IH; [lia|]. intros o1 L1 E1 U1. apply store4_blk; [lia|lia|].
      intros o2 L2 E2 U2. apply HQ; [congruence| |].
      + intros q Hq. destruct (Z.lt_ge_cases q (4 * Z.of_nat n)) as [H|H].
        * rewrite U2 by lia. apply E1. lia.
        * replace (out0 + q) with (out0 + 4 * Z.of_nat n + (q - 4 * Z.of_nat n)) by ring. rewrite E2 by lia. f_equal. f_equal. lia.
      + intros j Hj. rewrite U2, U1 by lia. reflexivity.
  Qed.
End Stores.

(** ** The NEON routines *)
(** What the NEON routines do: [sgn] is the bit they record for an element. *)
Definition neon_post (sgn : Z -> bool) (inp : list Z) (in_off N : Z) (out : list Z) (out_off : Z) (out' : list Z) : Prop :=
  zlen out' = zlen out /\
  (forall j, ~ out_off <= j < out_off + 4 * N -> rd out' j = rd out j) /\
  (forall q, 0 <= q < 4 * N -> exists w, rd out' (out_off + q) = Some w /\ word w /\
     forall b v, 0 <= b < 32 -> rd inp (in_off + 32 * q + b) = Some v -> Z.testbit w b = sgn v).

Lemma log_blog sub stride shift zb ldC base out0 n :
  log_spec sub stride shift zb ldC base out0 n = blog out0 (sign_at sub stride shift zb ldC base) n.
Proof. induction n as [|n IH]; [reflexivity|]. cbn [log_spec blog]. rewrite IH. reflexivity. Qed.

Lemma ld_float_some inp j : 0 <= j < 4 * zlen inp -> exists b, ld_float inp j = Some b.
Proof.
  intros H. unfold ld_float. destruct (rd_some inp (j / 4)) as [w Hw]; [lia|]. rewrite Hw. cbn [bind]. eexists. reflexivity.
Qed.
Lemma float_sign_byte inp base e : byte (sign_at false 4 3 0 (ld_float inp) base e).
Proof.
  unfold sign_at, mem_at. cbv zeta. unfold ld_float. destruct (rd inp _) as [w|]; cbn [bind]; unfold byte; [|lia].
  apply Z.mod_pos_bound. lia.
Qed.
Lemma float_sign_bit inp off e v : rd inp (off + e) = Some v ->
  Z.testbit (sign_at false 4 3 0 (ld_float inp) (4 * off) e) 7 = Z.testbit v 31.
Proof.
  intros Hv. unfold sign_at, mem_at. cbv zeta. unfold ld_float.
  replace ((4 * off + (4 * e + 3)) / 4) with (off + e) by lia. rewrite Hv. cbn [bind].
  replace ((4 * off + (4 * e + 3)) mod 4) with 3 by lia. change 256 with (2 ^ 8). rewrite Z.mod_pow2_bits_low by lia.
  rewrite <- Z.shiftr_div_pow2, Z.shiftr_spec by lia. reflexivity.
Qed.
Lemma float_lanes_ok : forall t, (t < 128)%nat -> (fst (float_lane t) < 32)%nat /\ (snd (float_lane t) < 16)%nat.
Proof.
  intros t Ht. unfold float_lane. cbn [fst snd]. pose proof (Nat.mod_upper_bound t 8 ltac:(lia)).
  pose proof (Nat.div_lt_upper_bound t 8 16 ltac:(lia) ltac:(lia)). lia.
Qed.
Lemma int8_lanes_ok : forall t, (t < 128)%nat -> (fst (int8_lane t) < 32)%nat /\ (snd (int8_lane t) < 16)%nat.
Proof.
  intros t Ht. unfold int8_lane. cbn [fst snd]. pose proof (Nat.mod_upper_bound t 2 ltac:(lia)).
  pose proof (Nat.div_lt_upper_bound t 32 4 ltac:(lia) ltac:(lia)). pose proof (Nat.mod_upper_bound t 32 ltac:(lia)).
  pose proof (Nat.div_lt_upper_bound (t mod 32) 2 16 ltac:(lia) ltac:(lia)). lia.
Qed.

Lemma bitpack_neon_float_wp g inp in_off N out out_off (Q : list Z -> Prop) :
  shapeb g = true -> 0 <= N -> 0 <= in_off -> in_off + 128 * N <= zlen inp -> 0 <= out_off -> out_off + 4 * N <= zlen out ->
  (forall out', neon_post (fun v => Z.testbit v 31) inp in_off N out out_off out' -> Q out') ->
  wp (bitpack_neon_float g inp in_off N out out_off) Q.
Proof.
  intros Hg HN Hi0 Hi1 Ho0 Ho1 HQ. unfold bitpack_neon_float. destruct (Z.ltb_spec N 1) as [H|H].
  - apply wp_ret. apply HQ. split; [reflexivity|]. split; [reflexivity|]. intros; lia.
  - assert (Hm : forall j, 4 * in_off <= j < 4 * in_off + 128 * 4 * N -> exists b, ld_float inp j = Some b).
    { intros j Hj. apply ld_float_some. lia. }
    destruct (run_wp false float_lane 4 3 float_pro float_body float_epi (fun t Ht => proj1 (float_lanes_ok t Ht))
      ltac:(discriminate) float_pro_ok float_body_ok float_epi_ok 0 (ld_float inp) (4 * in_off) out_off N
      Hm (fun t Ht => proj2 (float_lanes_ok t Ht)) g (0, 0) Hg H) as (s & Hs & Hl).
    unfold start. rewrite Hs. cbn [bind]. rewrite Hl, log_blog.
    apply apply_blog; [first [lia | intros; apply float_sign_byte | intros; apply int8_sign_byte]..|].
    intros out' L E U. rewrite Z2Nat.id in E, U by lia. apply HQ. split; [exact L|]. split; [exact U|].
    intros q Hq. eexists. split; [apply E; exact Hq|]. split; [apply wordq_word; apply float_sign_byte|].
    intros b v Hb Hv. rewrite wordq_bit by (try exact Hb; apply float_sign_byte). apply float_sign_bit. rewrite Z.add_assoc. exact Hv.
Qed.

Lemma ld_int8_some inp j : 0 <= j < zlen inp -> exists b, ld_int8 inp j = Some b.
Proof. intros H. unfold ld_int8. destruct (rd_some inp j) as [w Hw]; [lia|]. rewrite Hw. cbn [bind]. eexists. reflexivity. Qed.
Lemma sqsub8_byte x y : byte (sqsub8 x y).
Proof. unfold sqsub8, byte. apply Z.mod_pos_bound. lia. Qed.
Lemma int8_sign_byte inp base zb e : byte (sign_at true 1 0 zb (ld_int8 inp) base e).
Proof. apply sqsub8_byte. Qed.
Lemma testbit7 b : byte b -> Z.testbit b 7 = (128 <=? b).
Proof.
  intros Hb. rewrite Z.testbit_odd, Z.shiftr_div_pow2 by lia. change (2 ^ 7) with 128. unfold byte in Hb.
  destruct (Z.leb_spec 128 b).
  - replace (b / 128) with 1 by lia. reflexivity.
  - replace (b / 128) with 0 by lia. reflexivity.
Qed.
Lemma signed8_mod v : -128 <= v <= 127 -> signed8 (v mod 256) = v.
Proof. intros H. unfold signed8. destruct (Z.ltb_spec (v mod 256) 128); lia. Qed.
(** Saturation keeps the sign of the difference. *)
Lemma sqsub8_sign x z : -128 <= x <= 127 -> -128 <= z <= 127 ->
  Z.testbit (sqsub8 (x mod 256) (z mod 256)) 7 = (x <? z).
Proof.
  intros Hx Hz. rewrite testbit7 by apply sqsub8_byte. unfold sqsub8. rewrite !signed8_mod by assumption.
  destruct (Z.ltb_spec x z); lia.
Qed.

Lemma bitpack_neon_int8_wp g inp in_off N out out_off zp (Q : list Z -> Prop) :
  shapeb g = true -> 0 <= N -> 0 <= in_off -> in_off + 128 * N <= zlen inp -> 0 <= out_off -> out_off + 4 * N <= zlen out ->
  (forall i v, rd inp i = Some v -> -128 <= v <= 127) -> -128 <= zp <= 127 ->
  (forall out', neon_post (fun v => v <? zp) inp in_off N out out_off out' -> Q out') ->
  wp (bitpack_neon_int8 g inp in_off N out out_off zp) Q.
Proof.
  intros Hg HN Hi0 Hi1 Ho0 Ho1 Hr Hz HQ. unfold bitpack_neon_int8. destruct (Z.ltb_spec N 1) as [H|H].
  - apply wp_ret. apply HQ. split; [reflexivity|]. split; [reflexivity|]. intros; lia.
  - assert (Hm : forall j, in_off <= j < in_off + 128 * 1 * N -> exists b, ld_int8 inp j = Some b).
    { intros j Hj. apply ld_int8_some. lia. }
    destruct (run_wp true int8_lane 1 0 int8_pro int8_body int8_epi (fun t Ht => proj1 (int8_lanes_ok t Ht))
      (fun _ t Ht => proj2 (int8_lanes_ok t Ht)) int8_pro_ok int8_body_ok int8_epi_ok (zp mod 256) (ld_int8 inp) in_off out_off N
      Hm (fun t Ht => proj2 (int8_lanes_ok t Ht)) g (0, 0) Hg H) as (s & Hs & Hl).
    unfold start. rewrite Hs. cbn [bind]. rewrite Hl, log_blog.
    apply apply_blog; [first [lia | intros; apply float_sign_byte | intros; apply int8_sign_byte]..|].
    intros out' L E U. rewrite Z2Nat.id in E, U by lia. apply HQ. split; [exact L|]. split; [exact U|].
    intros q Hq. eexists. split; [apply E; exact Hq|]. split; [apply wordq_word; apply int8_sign_byte|].
    intros b v Hb Hv. rewrite wordq_bit by (try exact Hb; apply int8_sign_byte).
    unfold sign_at, mem_at, ld_int8. cbv zeta. replace (in_off + (1 * (32 * q + b) + 0)) with (in_off + 32 * q + b) by ring.
    rewrite Hv. cbn [bind]. apply sqsub8_sign; [eapply Hr; eauto|exact Hz].
Qed.

(** ** bitpack_array *)
Section ArrayA64.
  Variable E : elemtype.
  Hypothesis ltb_irrefl : forall z : et E, et_ltb E z z = false.
  (** NEON for the first blocks, then the portable loop: together, bit [i] is
      [sgn] of element [i] in the NEON part and the comparison in the rest. *)
  Definition a64_post (sgn : et E -> bool) (inp : list (et E)) (in_off n : Z) (out : list Z) (out_off : Z) (zp : et E) (out' : list Z) : Prop :=
    zlen out' = zlen out /\
    (forall j, ~ out_off <= j < out_off + words n -> rd out' j = rd out j) /\
    (forall k, 0 <= k < words n -> exists w, rd out' (out_off + k) = Some w /\ word w /\
       forall b, 0 <= b < 32 ->
         (n <= 32 * k + b -> Z.testbit w b = false) /\
         (forall v, 32 * k + b < n -> rd inp (in_off + 32 * k + b) = Some v ->
            Z.testbit w b = if 32 * k + b <? 128 * (n / 128) then sgn v else et_ltb E v zp)).
  Lemma bitpack_array_a64_wp sgn neon inp in_off n out out_off zp (Q : list Z -> Prop) :
    0 <= n -> 0 <= in_off -> in_off + n <= zlen inp -> 0 <= out_off -> out_off + words n <= zlen out ->
    (forall (R : list Z -> Prop), (forall o, zlen o = zlen out /\
        (forall j, ~ out_off <= j < out_off + 4 * (n / 128) -> rd o j = rd out j) /\
        (forall q, 0 <= q < 4 * (n / 128) -> exists w, rd o (out_off + q) = Some w /\ word w /\
           forall b v, 0 <= b < 32 -> rd inp (in_off + 32 * q + b) = Some v -> Z.testbit w b = sgn v) -> R o) ->
      wp (neon in_off (n / 128) out out_off) R) ->
    (forall out', a64_post sgn inp in_off n out out_off zp out' -> Q out') ->
    wp (bitpack_array_a64 E neon inp in_off n out out_off zp) Q.
  Proof.
    intros Hn Hi0 Hi1 Ho0 Ho1 Hneon HQ. unfold bitpack_array_a64.
    assert (EN : n / 32 / 4 = n / 128) by (rewrite Z.div_div by lia; reflexivity).
    rewrite EN. set (N := n / 128) in *. assert (HN : 0 <= N /\ 128 * N <= n < 128 * N + 128) by (unfold N; lia).
    assert (HNn : n / 128 = N) by reflexivity. clearbody N. clear EN.
    assert (Hw : words n = 4 * N + words (n - 32 * 4 * N)) by (unfold words; lia).
    assert (Hw' : 0 <= words (n - 32 * 4 * N)) by (unfold words; lia).
    apply wp_bind. apply Hneon. intros o (L1 & U1 & W1).
    apply (bitpack_array_wp E ltb_irrefl); [lia|lia|lia|lia|lia|]. intros o' (L2 & U2 & W2).
    apply HQ. unfold a64_post. rewrite HNn. split; [congruence|]. split.
    - intros j Hj. rewrite U2, U1 by lia. reflexivity.
    - intros k Hk. destruct (Z.lt_ge_cases k (4 * N)) as [H|H].
      + destruct (W1 k ltac:(lia)) as (w & E1 & Hword & Hb). exists w. split; [rewrite U2 by lia; exact E1|]. split; [exact Hword|].
        intros b Hbb. split; [intros; lia|]. intros v _ Hv. replace (32 * k + b <? 128 * N) with true by lia. apply Hb; assumption.
      + destruct (W2 (k - 4 * N) ltac:(lia)) as (w & E1 & Hword & Hb). exists w.
        split; [rewrite <- E1; f_equal; ring|]. split; [exact Hword|]. intros b Hbb. destruct (Hb b Hbb) as [Hb1 Hb2].
        split; [intros; apply Hb1; lia|]. intros v Hlt Hv. replace (32 * k + b <? 128 * N) with false by lia.
        apply Hb2; [lia|]. rewrite <- Hv. f_equal. ring.
  Qed.
  (** The result is determined by its bits. *)
  Lemma array_post_unique inp in_off n out out_off zp o1 o2 :
    0 <= n -> 0 <= in_off -> in_off + n <= zlen inp -> 0 <= out_off -> out_off + words n <= zlen out ->
    array_post E inp in_off n out out_off zp o1 -> array_post E inp in_off n out out_off zp o2 -> o1 = o2.
  Proof.
    intros Hn Hi0 Hi1 Ho0 Ho1 (L1 & U1 & W1) (L2 & U2 & W2). apply rd_ext; [congruence|]. intros j Hj.
    destruct (Z.le_gt_cases out_off j) as [Ha|Ha]; [destruct (Z.lt_ge_cases j (out_off + words n)) as [Hb|Hb]|];
      [|rewrite U1, U2 by lia; reflexivity|rewrite U1, U2 by lia; reflexivity].
    replace j with (out_off + (j - out_off)) by ring.
    destruct (W1 (j - out_off) ltac:(lia)) as (w1 & -> & H1 & B1). destruct (W2 (j - out_off) ltac:(lia)) as (w2 & -> & H2 & B2).
    f_equal. apply testbit_inj32; [assumption|assumption|]. intros b Hbb. destruct (B1 b Hbb) as [P1 P2]. destruct (B2 b Hbb) as [R1 R2].
    destruct (Z.le_gt_cases n (32 * (j - out_off) + b)) as [H|H]; [rewrite P1, R1 by exact H; reflexivity|].
    destruct (rd_some inp (in_off + 32 * (j - out_off) + b)) as [v Hv]; [lia|]. rewrite (P2 v H Hv), (R2 v H Hv). reflexivity.
  Qed.
  Lemma a64_array_post sgn inp in_off n out out_off zp o : (forall i v, in_off <= i < in_off + 128 * (n / 128) -> rd inp i = Some v -> sgn v = et_ltb E v zp) ->
    a64_post sgn inp in_off n out out_off zp o -> array_post E inp in_off n out out_off zp o.
  Proof.
    intros Hs (L & U & W). split; [exact L|]. split; [exact U|]. intros k Hk. destruct (W k Hk) as (w & H1 & H2 & H3).
    exists w. split; [exact H1|]. split; [exact H2|]. intros b Hb. destruct (H3 b Hb) as [P1 P2]. split; [exact P1|].
    intros v Hlt Hv. rewrite (P2 v Hlt Hv). destruct (Z.ltb_spec (32 * k + b) (128 * (n / 128))); [|reflexivity].
    apply (Hs (in_off + 32 * k + b)); [lia|exact Hv].
  Qed.
End ArrayA64.

Lemma array_a64_float_ok g inp in_off n out out_off : shapeb g = true ->
  0 <= n -> 0 <= in_off -> in_off + n <= zlen inp -> 0 <= out_off -> out_off + words n <= zlen out ->
  exists o, bitpack_array_a64_float g inp in_off n out out_off = Some o /\
    a64_post float_elem (fun v => Z.testbit v 31) inp in_off n out out_off 0 o.
Proof.
  intros Hg Hn Hi0 Hi1 Ho0 Ho1. apply wp_iff. unfold bitpack_array_a64_float.
  apply (bitpack_array_a64_wp float_elem flt_irrefl (fun v => Z.testbit v 31)); try assumption; [|auto].
  intros R HR. assert (words n = 4 * (n / 128) + words (n - 128 * (n / 128)) /\ 0 <= words (n - 128 * (n / 128))) by (unfold words; lia).
  apply bitpack_neon_float_wp; try assumption; try lia.
Qed.
Lemma array_a64_int8_ok g inp in_off n out out_off zp : shapeb g = true ->
  0 <= n -> 0 <= in_off -> in_off + n <= zlen inp -> 0 <= out_off -> out_off + words n <= zlen out ->
  (forall i v, rd inp i = Some v -> -128 <= v <= 127) -> -128 <= zp <= 127 ->
  exists o, bitpack_array_a64_int8 g inp in_off n out out_off zp = Some o /\
    a64_post int8_elem (fun v => v <? zp) inp in_off n out out_off zp o.
Proof.
  intros Hg Hn Hi0 Hi1 Ho0 Ho1 Hr Hz. apply wp_iff. unfold bitpack_array_a64_int8.
  apply (bitpack_array_a64_wp int8_elem Z.ltb_irrefl (fun v => v <? zp)); try assumption; [|auto].
  intros R HR. assert (words n = 4 * (n / 128) + words (n - 128 * (n / 128)) /\ 0 <= words (n - 128 * (n / 128))) by (unfold words; lia).
  apply bitpack_neon_int8_wp; try assumption; try lia.
Qed.
(** The same words as the portable routine. *)
Lemma array_a64_int8_eq g inp in_off n out out_off zp : shapeb g = true ->
  0 <= n -> 0 <= in_off -> in_off + n <= zlen inp -> 0 <= out_off -> out_off + words n <= zlen out ->
  (forall i v, rd inp i = Some v -> -128 <= v <= 127) -> -128 <= zp <= 127 ->
  exists o, bitpack_array_a64_int8 g inp in_off n out out_off zp = Some o /\
            bitpack_array int8_elem inp in_off n out out_off zp = Some o.
Proof.
  intros Hg Hn Hi0 Hi1 Ho0 Ho1 Hr Hz. destruct (array_a64_int8_ok g inp in_off n out out_off zp) as (o & H1 & H2); try assumption.
  exists o. split; [exact H1|].
  assert (W : wp (bitpack_array int8_elem inp in_off n out out_off zp) (array_post int8_elem inp in_off n out out_off zp)).
  { apply (bitpack_array_wp int8_elem Z.ltb_irrefl); auto. }
  apply wp_iff in W. destruct W as (o' & W1 & W2). rewrite W1. f_equal.
  apply (array_post_unique int8_elem Z.ltb_irrefl inp in_off n out out_off zp); try assumption.
  apply (a64_array_post int8_elem Z.ltb_irrefl (fun v => v <? zp)); [reflexivity|exact H2].
Qed.
Lemma array_a64_float_eq g inp in_off n out out_off : shapeb g = true ->
  0 <= n -> 0 <= in_off -> in_off + n <= zlen inp -> 0 <= out_off -> out_off + words n <= zlen out ->
  (forall i v, rd inp i = Some v -> word v) ->
  (forall i v, in_off <= i < in_off + 128 * (n / 128) -> rd inp i = Some v -> Z.testbit v 31 = negative32 v) ->
  exists o, bitpack_array_a64_float g inp in_off n out out_off = Some o /\
            bitpack_array float_elem inp in_off n out out_off 0 = Some o.
Proof.
  intros Hg Hn Hi0 Hi1 Ho0 Ho1 Hr Hz. destruct (array_a64_float_ok g inp in_off n out out_off) as (o & H1 & H2); try assumption.
  exists o. split; [exact H1|].
  assert (W : wp (bitpack_array float_elem inp in_off n out out_off 0) (array_post float_elem inp in_off n out out_off 0)).
  { apply (bitpack_array_wp float_elem flt_irrefl); auto. }
  apply wp_iff in W. destruct W as (o' & W1 & W2). rewrite W1. f_equal.
  apply (array_post_unique float_elem flt_irrefl inp in_off n out out_off 0); try assumption.
  apply (a64_array_post float_elem flt_irrefl (fun v => Z.testbit v 31)); [|exact H2].
  intros i v Hi Hv. rewrite (Hz i v Hi Hv). symmetry. apply flt_zero. eapply Hr; eauto.
Qed.

(** ** bitpack_matrix *)
(** bitpack.h 250-309 with [pa] for bitpack_array: [bitpack_matrix] of Bitpack.v
    is this with the portable bitpack_array. *)
Definition bitpack_matrix_with (E : elemtype) (pa : list (et E) -> Z -> Z -> list Z -> Z -> et E -> option (list Z))
    (inp : list (et E)) (rows cols : Z) (out : list Z) (zp : Z) : option (list Z) :=
  let W := GetBitpackedSize cols in
  if match et_lo E with Some lo => zp <=? lo | None => false end then fill out 0 (rows * W) 0
  else if match et_hi E with Some hi => hi <? zp | None => false end then
    if cols mod 32 =? 0 then fill out 0 (rows * W) (2 ^ 32 - 1)
    else let* v := ones_prefix (cols mod 32) in
         for_ 0 rows (fun r out =>
           let* out := fill out (r * W) (r * W + W - 1) (2 ^ 32 - 1) in
           wr out ((r + 1) * W - 1) v) out
  else let z := et_cast E zp in
       if cols mod 32 =? 0 then pa inp 0 (cols * rows) out 0 z
       else for_ 0 rows (fun r out => pa inp (r * cols) cols out (r * W) z) out.
Lemma bitpack_matrix_is E : bitpack_matrix E = bitpack_matrix_with E (bitpack_array E).
Proof. reflexivity. Qed.
Definition bitpack_matrix_a64_int8 (g : list (list Z)) := bitpack_matrix_with int8_elem (bitpack_array_a64_int8 g).
Definition bitpack_matrix_a64_float (g : list (list Z)) :=
  bitpack_matrix_with float_elem (fun inp i n o oo _ => bitpack_array_a64_float g inp i n o oo).

Lemma for_eq_inv {S} (I : S -> Prop) lo hi (b1 b2 : Z -> S -> option S) s :
  I s -> (forall i t, lo <= i < hi -> I t -> exists t', b1 i t = Some t' /\ b2 i t = Some t' /\ I t') ->
  for_ lo hi b1 s = for_ lo hi b2 s.
Proof.
  intros Hs H. unfold for_.
  assert (G : forall n i t, I t -> (forall j u, i <= j < i + Z.of_nat n -> I u -> exists t', b1 j u = Some t' /\ b2 j u = Some t' /\ I t') ->
            forn n i b1 t = forn n i b2 t).
  { induction n as [|n IH]; intros i t It Hn; [reflexivity|]. cbn [forn].
    destruct (Hn i t ltac:(lia) It) as (t' & -> & -> & It'). cbn [bind]. apply IH; [exact It'|]. intros j u Hj. apply Hn. lia. }
  apply G; [exact Hs|]. intros j u Hj. apply H. lia.
Qed.
Lemma matrix_with_eq (E : elemtype) pa inp rows cols out zp :
  0 <= rows -> 0 <= cols -> zlen inp = rows * cols -> zlen out = rows * words cols ->
  (match et_lo E with Some lo => zp <=? lo | None => false end = false ->
   match et_hi E with Some hi => hi <? zp | None => false end = false ->
   forall in_off n o out_off, 0 <= n -> 0 <= in_off -> in_off + n <= zlen inp -> 0 <= out_off -> out_off + words n <= zlen o ->
     exists o', pa inp in_off n o out_off (et_cast E zp) = Some o' /\
                bitpack_array E inp in_off n o out_off (et_cast E zp) = Some o' /\ zlen o' = zlen o) ->
  bitpack_matrix_with E pa inp rows cols out zp = bitpack_matrix E inp rows cols out zp.
Proof.
  intros Hr Hc Hi Ho H. rewrite bitpack_matrix_is. unfold bitpack_matrix_with.
  destruct (match et_lo E with Some lo => zp <=? lo | None => false end); [reflexivity|].
  destruct (match et_hi E with Some hi => hi <? zp | None => false end); [reflexivity|].
  specialize (H eq_refl eq_refl). cbv zeta. rewrite GetBitpackedSize_words by exact Hc.
  assert (Hw : 0 <= words cols) by (apply words_nonneg; exact Hc).
  destruct (Z.eqb_spec (cols mod 32) 0) as [E0|E0].
  - destruct (H 0 (cols * rows) out 0) as (o' & -> & -> & _); [nia|lia|lia|lia| |reflexivity].
    rewrite Ho. assert (E1 : cols = 32 * (cols / 32)) by lia. set (q := cols / 32) in *. clearbody q.
    assert (words (cols * rows) = q * rows) by (unfold words; rewrite E1; replace (32 * q * rows) with ((q * rows) * 32) by ring; lia).
    assert (words cols = q) by (unfold words; lia). rewrite H0, H1. lia.
  - apply (for_eq_inv (fun o => zlen o = zlen out)); [reflexivity|]. intros r o Hrr Hl.
    destruct (H (r * cols) cols o (r * words cols)) as (o' & H1 & H2 & H3); [exact Hc|nia|nia|nia|rewrite Hl, Ho; nia|].
    exists o'. split; [exact H1|]. split; [exact H2|]. congruence.
Qed.
Lemma matrix_a64_int8_eq g inp rows cols out zp : shapeb g = true ->
  0 <= rows -> 0 <= cols -> zlen inp = rows * cols -> zlen out = rows * words cols ->
  (forall i v, rd inp i = Some v -> -128 <= v <= 127) ->
  bitpack_matrix_a64_int8 g inp rows cols out zp = bitpack_matrix int8_elem inp rows cols out zp.
Proof.
  intros Hg Hr Hc Hi Ho Hv. apply matrix_with_eq; try assumption. cbn [int8_elem int_elem et_lo et_hi et_cast]. intros H1 H2 in_off n o oo A1 A2 A3 A4 A5.
  destruct (array_a64_int8_ok g inp in_off n o oo zp) as (o' & P1 & P2); try assumption; [lia|].
  destruct (array_a64_int8_eq g inp in_off n o oo zp) as (o2 & Q1 & Q2); try assumption; [lia|].
  assert (o2 = o') by congruence. subst o2. exists o'. split; [exact P1|]. split; [exact Q2|]. apply P2.
Qed.
Lemma matrix_a64_float_eq g inp rows cols out : shapeb g = true ->
  0 <= rows -> 0 <= cols -> zlen inp = rows * cols -> zlen out = rows * words cols ->
  (forall i v, rd inp i = Some v -> word v /\ Z.testbit v 31 = negative32 v) ->
  bitpack_matrix_a64_float g inp rows cols out 0 = bitpack_matrix float_elem inp rows cols out 0.
Proof.
  intros Hg Hr Hc Hi Ho Hv. apply matrix_with_eq; try assumption. intros _ _ in_off n o oo A1 A2 A3 A4 A5.
  destruct (array_a64_float_ok g inp in_off n o oo) as (o' & P1 & P2); try assumption.
  destruct (array_a64_float_eq g inp in_off n o oo) as (o2 & Q1 & Q2); try assumption; [apply Hv|intros i v _ H; apply (Hv i v H)|].
  assert (o2 = o') by congruence. subst o2. exists o'. split; [exact P1|]. split; [exact Q2|]. apply P2.
Qed.
