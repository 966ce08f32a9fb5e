(** * A64IndEval: an evaluator for the model of the indirect assembly kernels.
    Only used to refute: if evaluation, from one particular choice of the registers
    that are not operands, reaches an access outside every array, then the kernel
    does not run without a memory fault. *)
From Verif Require Import Base Reference Indirect OutputTransform A64 A64Bgemm A64Ind.
Open Scope Z_scope.

Inductive res (A : Type) := Fault | Stuck | Done (a : A).
Arguments Fault {A}. Arguments Stuck {A}. Arguments Done {A} a.
Definition resP {A} (r : res A) (K : A -> Prop) : Prop := match r with Fault => False | Stuck => True | Done a => K a end.
Definition rbind {A B} (r : res A) (f : A -> res B) : res B := match r with Fault => Fault | Stuck => Stuck | Done a => f a end.
Definition of_opt {A} (o : option A) : res A := match o with None => Fault | Some a => Done a end.
Lemma resP_bind {A B} (r : res A) (f : A -> res B) (P : A -> Prop) (K : B -> Prop) : resP r P -> (forall a, P a -> resP (f a) K) -> resP (rbind r f) K.
Proof. destruct r; cbn; intros H HF; [exact H|exact I|apply HF, H]. Qed.
Lemma resP_opt {A} (o : option A) (P : A -> Prop) : wp o P -> resP (of_opt o) P.
Proof. destruct o; cbn; auto. Qed.

Section Ev.
  Variables (ops : nops) (E : env).
  Fixpoint runr (p : list instr) (n pc : nat) (s : st) : res st :=
    match n with
    | O => Stuck
    | Datatypes.S n' =>
        match nth_error p pc with
        | None => Done s
        | Some (B l) => rbind (of_opt (find l p 0)) (fun q => runr p n' q s)
        | Some (BC c l) => if cond_holds c (sfl s) then rbind (of_opt (find l p 0)) (fun q => runr p n' q s) else runr p n' (Datatypes.S pc) s
        | Some i => rbind (of_opt (exec1 ops E i s)) (fun s' => runr p n' (Datatypes.S pc) s')
        end
    end.
  Lemma runr_run p (K : st -> Prop) n : forall fuel pc s, wp (run ops E p fuel pc s) K -> resP (runr p n pc s) K.
  Proof.
    induction n as [|n IH]; intros fuel pc s H; [exact I|]. destruct fuel as [|fuel]; [destruct H|]. cbn [run runr] in *.
    destruct (nth_error p pc) as [i|]; [|exact H].
    destruct i; try (destruct (exec1 ops E _ s) as [s1|]; [cbn [bind of_opt rbind] in *; exact (IH _ _ _ H)|destruct H]).
    - destruct (find n0 p 0); [cbn [bind of_opt rbind] in *; exact (IH _ _ _ H)|destruct H].
    - destruct (cond_holds c (sfl s)); [destruct (find n0 p 0); [cbn [bind of_opt rbind] in *; exact (IH _ _ _ H)|destruct H]|exact (IH _ _ _ H)].
  Qed.
End Ev.

Section Assoc.
  Context {A B : Type} (eqb : A -> A -> bool) (d : B).
  Hypothesis eqb_ok : forall a, eqb a a = true.
  Fixpoint assoc (l : list (A * B)) (a : A) : B := match l with [] => d | (x, v) :: l' => if eqb a x then v else assoc l' a end.
  Fixpoint nodupb (l : list (A * B)) : bool := match l with [] => true | (x, _) :: l' => negb (existsb (fun '(y, _) => eqb y x) l') && nodupb l' end.
  Lemma assoc_ok l : nodupb l = true -> Forall (fun '(r, v) => assoc l r = v) l.
  Proof.
    induction l as [|(x, v) l IH]; cbn [nodupb assoc]; [constructor|]. rewrite andb_true_iff, negb_true_iff. intros (H1 & H2).
    constructor; [rewrite eqb_ok; reflexivity|]. specialize (IH H2). rewrite Forall_forall in *. intros (y, w) Hy.
    destruct (eqb y x) eqn:Ey; [|exact (IH _ Hy)].
    exfalso. assert (X : existsb (fun '(y, _) => eqb y x) l = true) by (apply existsb_exists; exists (y, w); split; assumption). congruence.
  Qed.
End Assoc.

Section Kernel.
  Variables (ops : nops) (t : dtype) (o : otparams) (D : Z) (deep grouped : bool) (k : kern).
  Variables (pw input zero : list Z) (ibuf : list iptr).
  Let E := ienv pw input zero ibuf o.
  Definition asm_res (prog : list instr) (vin : list (nat * list Z)) (xin : list (xreg * val)) : res st :=
    if nodupb Nat.eqb vin && nodupb xeqb xin
    then runr ops E prog 2000 0 {| sv := assoc Nat.eqb [] vin; sx := assoc xeqb (Int 0) xin; sfl := (0, 0); stmp := []; slog := [] |}
    else Stuck.
  Lemma asm_res_ok prog vin xin K : asm_stmt ops o pw input zero ibuf prog vin xin K -> resP (asm_res prog vin xin) K.
  Proof.
    intros H. unfold asm_res. destruct (nodupb Nat.eqb vin) eqn:N1; [|exact I]. destruct (nodupb xeqb xin) eqn:N2; [|exact I]. cbn [andb].
    match goal with |- resP (runr _ _ _ _ _ ?s) _ => destruct (H s) as (fuel & W) end.
    - cbn [sv]. apply (assoc_ok Nat.eqb []); [apply Nat.eqb_refl|exact N1].
    - cbn [sx]. apply (assoc_ok xeqb (Int 0)); [intros []; cbn; try reflexivity; apply Nat.eqb_refl|exact N2].
    - exact (runr_run _ _ _ _ _ _ _ _ W).
  Qed.
  Definition Acc_res (depth ido ip : Z) (weights acts : list (list Z)) (wptr : Z) : res (list (list Z) * Z) :=
    rbind (of_opt (a_ptrs D deep grouped ibuf ip ido)) (fun aps =>
    rbind (asm_res (acc_prog D deep grouped)
        (combine (map rw (seq 0 8)) weights ++ combine (map ra (seq 0 4)) acts)
        ([(W_PTR, Ptr RLhs wptr); (IND, Ptr RInd (8 * ip)); (FS, Int (k_fs k)); (DEPTH, Int depth); (IDO, Int ido)] ++ aps))
      (fun s => match sx s W_PTR with Ptr RLhs w => Done (map (fun i => sv s (rc i)) (seq 0 4), w) | _ => Fault end)).
  Lemma Acc_res_ok depth ido ip weights acts wptr (K : list (list Z) -> Z -> Prop) :
    AccumulationLoop ops o D deep grouped k pw input zero ibuf depth ido ip weights acts wptr K ->
    resP (Acc_res depth ido ip weights acts wptr) (fun '(a, w) => K a w).
  Proof.
    intros H. unfold Acc_res. apply (resP_bind _ _ _ _ (resP_opt _ _ H)). intros aps H1.
    apply (resP_bind _ _ _ _ (asm_res_ok _ _ _ _ H1)). intros s H2. destruct (sx s W_PTR) as [|[] ?]; exact H2.
  Qed.
  Definition Trans_res (ido ip c : Z) (accs : list (list Z)) (wptr : Z) : res (list (list Z) * list (list Z) * list (list Z)) :=
    rbind (asm_res (out_prog D t grouped) (combine (map rc (seq 0 4)) accs)
      [(IND, Ptr RInd (8 * ip)); (W_PTR, Ptr RLhs wptr); (IDO, Int ido); (IDOB, Int (4 * ido)); (CMIN, Ptr RPar 0);
       (CMAX, Ptr RPar 4); (MULA, Ptr RMul (4 * c)); (BIASA, Ptr RBias (4 * c)); (OTA, Ptr RPar 0); (COUT, Int c)])
      (fun s => Done (map (fun i => sv s (rw i)) (seq 0 (Z.to_nat (2 * D))), map (fun i => sv s (ra i)) (seq 0 4), map (elems t s) (seq 0 4))).
  Lemma Trans_res_ok ido ip c accs wptr (K : list (list Z) -> list (list Z) -> list (list Z) -> Prop) :
    Transform ops t o D grouped pw input zero ibuf ido ip c accs wptr K ->
    resP (Trans_res ido ip c accs wptr) (fun '(a, b, r) => K a b r).
  Proof. intros H. apply (resP_bind _ _ _ _ (asm_res_ok _ _ _ _ H)). intros s H2. exact H2. Qed.
  Definition block_res (idpg ocpg ip : Z) (s : ist) : res ist :=
    rbind (Acc_res (Z.quot idpg D) (s_ido s) ip (s_w s) (s_a s) (s_wp s)) (fun '(accs, wptr) =>
      let next := grouped && (s_ge s - 8 <=? s_c s) in
      let ido := if next then s_ido s + idpg else s_ido s in
      let ge' := if next then s_ge s + ocpg else s_ge s in
      rbind (Trans_res ido ip (s_c s) accs wptr) (fun '(ws, acts, r) =>
        rbind (of_opt (store_block (s_out s) (s_ge s) (s_c s) (s_p0 s) (s_p1 s) (s_p2 s) (s_p3 s) r)) (fun '(out, n, c') =>
          Done {| s_w := ws; s_a := acts; s_wp := wptr; s_ido := ido; s_ge := ge'; s_c := c';
               s_p0 := s_p0 s + n; s_p1 := s_p1 s + n; s_p2 := s_p2 s + n; s_p3 := s_p3 s + n; s_out := out |}))).
  Lemma block_res_ok idpg ocpg ip s K : block ops t o D deep grouped k pw input zero ibuf idpg ocpg ip s K -> resP (block_res idpg ocpg ip s) K.
  Proof.
    intros H. unfold block_res. apply (resP_bind _ _ _ _ (Acc_res_ok _ _ _ _ _ _ _ H)). intros (accs, wptr) H1. cbv zeta in *.
    apply (resP_bind _ _ _ _ (Trans_res_ok _ _ _ _ _ _ H1)). intros ((ws, acts), r) H2.
    apply (resP_bind _ _ _ _ (resP_opt _ _ H2)). intros ((out, n), c') H3. exact H3.
  Qed.
  Fixpoint chan_res (fuel : nat) (idpg ocpg ip : Z) (s : ist) : res (list Z) :=
    match fuel with
    | O => Fault
    | Datatypes.S fuel' => rbind (block_res idpg ocpg ip s) (fun s' => if s_c s' <? k_oc k then chan_res fuel' idpg ocpg ip s' else Done (s_out s'))
    end.
  Lemma chan_res_ok fuel idpg ocpg ip K : forall s, chan_loop ops t o D deep grouped k pw input zero ibuf fuel idpg ocpg ip s K -> resP (chan_res fuel idpg ocpg ip s) K.
  Proof.
    induction fuel as [|fuel IH]; intros s H; [exact H|]. cbn [chan_res chan_loop] in *. apply (resP_bind _ _ _ _ (block_res_ok _ _ _ _ _ H)).
    intros s' H1. destruct (s_c s' <? k_oc k); [apply IH, H1|exact H1].
  Qed.
  Definition pixels4_res (idpg ocpg p_index pixel_end : Z) (out : list Z) : res (list Z) :=
    let ip := p_index * k_fs k in
    let p0 := p_index * k_oc k in
    let rem := pixel_end - p_index in
    let p1 := if rem <? 2 then p0 else p0 + k_oc k in
    let p2 := if rem <? 3 then p0 else p0 + k_oc k + k_oc k in
    let p3 := if rem <? 4 then p0 else p0 + k_oc k + k_oc k + k_oc k in
    rbind (of_opt (omap (fun i => vld1q pw (4 * Z.of_nat i)) (seq 0 (Z.to_nat (2 * D))))) (fun ws =>
    rbind (of_opt (omap (fun i => let* q := rd ibuf (ip + Z.of_nat i) in
                       let* l := words_at (deref input zero q) 0 (Z.to_nat D) in Some (vdup (Z.to_nat D) l)) (seq 0 4))) (fun acts =>
      chan_res (S (Z.to_nat (k_oc k))) idpg ocpg ip
        {| s_w := ws; s_a := acts; s_wp := 4 * (8 * D); s_ido := 0; s_ge := ocpg; s_c := 0;
           s_p0 := p0; s_p1 := p1; s_p2 := p2; s_p3 := p3; s_out := out |})).
  Lemma pixels4_res_ok idpg ocpg pi pe out K : pixels4 ops t o D deep grouped k pw input zero ibuf idpg ocpg pi pe out K -> resP (pixels4_res idpg ocpg pi pe out) K.
  Proof.
    intros H. unfold pixels4_res. cbv zeta. apply (resP_bind _ _ _ _ (resP_opt _ _ H)). intros ws H1.
    apply (resP_bind _ _ _ _ (resP_opt _ _ H1)). intros acts H2. apply chan_res_ok, H2.
  Qed.
  Fixpoint pixel_loop_res (n : nat) (idpg ocpg p_index pixel_end : Z) (out : list Z) : res (list Z) :=
    match n with
    | O => Done out
    | Datatypes.S n' => rbind (pixels4_res idpg ocpg p_index pixel_end out) (fun out' => pixel_loop_res n' idpg ocpg (p_index + 4) pixel_end out')
    end.
  Lemma pixel_loop_res_ok n idpg ocpg pe K : forall pi out, pixel_loop ops t o D deep grouped k pw input zero ibuf n idpg ocpg pi pe out K -> resP (pixel_loop_res n idpg ocpg pi pe out) K.
  Proof.
    induction n as [|n IH]; intros pi out H; [exact H|]. cbn [pixel_loop pixel_loop_res] in *. apply (resP_bind _ _ _ _ (pixels4_res_ok _ _ _ _ _ _ H)).
    intros out' H1. apply IH, H1.
  Qed.
  Definition Run_res (pixel_start pixel_end : Z) (out : list Z) : res (list Z) :=
    rbind (of_opt (cdiv (k_in_depth k) (k_groups k))) (fun idpg => rbind (of_opt (cdiv (k_oc k) (k_groups k))) (fun ocpg =>
      if (k_fs k <? 1) || (idpg <? D) || (ocpg <? 1) then Done out
      else pixel_loop_res (Z.to_nat ((pixel_end - pixel_start + 3) / 4)) idpg ocpg pixel_start pixel_end out)).
  Lemma Run_res_ok ps pe out K : Run ops t o D deep grouped k pw input zero ibuf ps pe out K -> resP (Run_res ps pe out) K.
  Proof.
    intros H. unfold Run_res. apply (resP_bind _ _ _ _ (resP_opt _ _ H)). intros idpg H1. apply (resP_bind _ _ _ _ (resP_opt _ _ H1)). intros ocpg H2. cbv beta in H2.
    destruct ((k_fs k <? 1) || (idpg <? D) || (ocpg <? 1)); [exact H2|]. apply pixel_loop_res_ok, H2.
  Qed.
End Kernel.
Definition indirect_asm_res (ops : nops) (t : dtype) (o : otparams) (D : Z) (deep grouped : bool) (p : bconv)
    (input filter over_in over_zero : list Z) (ps pe : Z) (out : list Z) : res (list Z) :=
  let k := mk_kern 8 4 D p in
  rbind (of_opt (PackWeights k filter)) (fun pw =>
  rbind (of_opt (FillIndirectionBuffer k p)) (fun ibuf =>
    Run_res ops t o D deep grouped k pw (input ++ over_in) (repeat 0 (Z.to_nat (k_fs k * k_in_depth k)) ++ over_zero) ibuf ps pe out)).
Lemma indirect_asm_res_ok ops t o D deep grouped p input filter over_in over_zero ps pe out K :
  indirect_asm_range ops t o D deep grouped p input filter over_in over_zero ps pe out K ->
  resP (indirect_asm_res ops t o D deep grouped p input filter over_in over_zero ps pe out) K.
Proof.
  intros H. unfold indirect_asm_res. cbv zeta. apply (resP_bind _ _ _ _ (resP_opt _ _ H)). intros pw H1. cbv beta in H1.
  apply (resP_bind _ _ _ _ (resP_opt _ _ H1)). intros ibuf H2. exact (Run_res_ok _ _ _ _ _ _ _ _ _ _ _ _ _ _ _ H2).
Qed.
