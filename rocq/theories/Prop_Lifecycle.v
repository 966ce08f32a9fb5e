(** * Properties C28, C29: results after any history of interpreter calls. *)
From Coq Require Import QArith.
From Verif Require Import Base Spec Bits Loop4 Bitpack Reference OutputTransform RefTheorems Padding
  Indirect IndirectBuf IndirectTop Log Bgemm BgemmProofs BgemmConv ZeroPad Prepare Lifecycle Check.
Open Scope Z_scope.

(** ** C28. [es] is any sequence of ResizeInputTensor, AllocateTensors (succeeding
    or failing, with the arena placing the input anywhere), writes to the input
    and Invokes. If the interpreter is ready after it, one more Eval, with any
    output buffer contents and any GEMM schedule, does exactly what a single
    evaluation of a fresh node on the current shape and input does ([fresh] is
    the evaluation that C06-C09, C19 and C20 are about). *)
Theorem C28_history_independent kt w es st fb ib S Post :
  kt <> KIndirect -> world_ok kt w ->
  run_events kt w es init_state = Some st -> st_ready st = true ->
  (kt = KBgemm -> shapes_ok (wd_a w) (st_ish st) (ti_dims (wd_filter_t w)) /\
                  dim (st_ish st) 3 = words (at_cin (wd_a w))) ->
  exists r, Prepare kt (wd_a w) (node_of w (st_ish st)) = Some (Ok r) /\
    (Eval kt w st fb ib S Post <->
     fresh kt w (params_of (wd_a w) r (st_ish st) (ti_dims (wd_filter_t w)) (pr_out r)) (st_input st) fb ib S Post).
Proof.
  exact (fun HK HW HE HR HB =>
    let HI := run_INV kt w HW es _ _ (INV_init kt w) HE in
    ex_intro _ (od_prep (st_od st)) (conj (proj1 (HI HR)) (eval_fresh kt w HW st fb ib S Post HK HI HR HB))).
Qed.
Print Assumptions C28_history_independent.

(** Two histories that end with the same shape and input are indistinguishable. *)
Theorem C28_histories_agree kt w es1 es2 st1 st2 fb ib S Post :
  kt <> KIndirect -> world_ok kt w ->
  run_events kt w es1 init_state = Some st1 -> st_ready st1 = true ->
  run_events kt w es2 init_state = Some st2 -> st_ready st2 = true ->
  st_ish st1 = st_ish st2 -> st_input st1 = st_input st2 ->
  (kt = KBgemm -> shapes_ok (wd_a w) (st_ish st1) (ti_dims (wd_filter_t w)) /\
                  dim (st_ish st1) 3 = words (at_cin (wd_a w))) ->
  (Eval kt w st1 fb ib S Post <-> Eval kt w st2 fb ib S Post).
Proof.
  intros HK HW E1 R1 E2 R2 Es Ei HB.
  destruct (C28_history_independent kt w es1 st1 fb ib S Post HK HW E1 R1 HB) as (r1 & P1 & Q1).
  rewrite Es in HB.
  destruct (C28_history_independent kt w es2 st2 fb ib S Post HK HW E2 R2 HB) as (r2 & P2 & Q2).
  rewrite Es, Ei in *. rewrite P1 in P2. injection P2 as <-. rewrite Q1, Q2. reflexivity.
Qed.
Print Assumptions C28_histories_agree.

(** ** C29. The same holds for the indirect kernel only if every earlier Invoke
    saw the present input shape and address. *)
Theorem C29_indirect_history_independent w es st fb ib S Post :
  world_ok KIndirect w ->
  run_events KIndirect w es init_state = Some st -> st_ready st = true ->
  (forall es1 es2 st1, es = es1 ++ EInvoke :: es2 ->
     run_events KIndirect w es1 init_state = Some st1 -> st_ready st1 = true ->
     st_ish st1 = st_ish st /\ st_addr st1 = st_addr st) ->
  exists r, Prepare KIndirect (wd_a w) (node_of w (st_ish st)) = Some (Ok r) /\
    (Eval KIndirect w st fb ib S Post <->
     fresh KIndirect w (params_of (wd_a w) r (st_ish st) (ti_dims (wd_filter_t w)) (pr_out r)) (st_input st) fb ib S Post).
Proof.
  exact (fun HW HE HR HS =>
    let HI := run_INV KIndirect w HW es _ _ (INV_init KIndirect w) HE in
    ex_intro _ (od_prep (st_od st)) (conj (proj1 (HI HR))
      (eval_fresh_indirect KIndirect w HW es st fb ib S Post eq_refl HE HR HS))).
Qed.
Print Assumptions C29_indirect_history_independent.

(** Witnesses: a 1x1 convolution of one channel, bitpacked output. *)
Definition ex29_w : world :=
  {| wd_a := {| at_sh := 1; at_sw := 1; at_dh := 1; at_dw := 1; at_pad := PadValid; at_pv := 0; at_cin := 1; at_act := ActNone |};
     wd_filter_t := {| ti_type := TInt32; ti_dims := [1; 1; 1; 1] |}; wd_filter := [0];
     wd_mul_t := {| ti_type := TOther; ti_dims := [] |}; wd_mul := [];
     wd_bias_t := {| ti_type := TOther; ti_dims := [] |}; wd_bias := [];
     wd_thr_t := {| ti_type := TInt32; ti_dims := [1] |}; wd_thr := [0; 0; 0; 0];
     wd_out := TInt32; wd_affine := true; wd_scale := 1; wd_zp := 0 |}.
Definition ex29_es (addr : Z) : list event :=
  [EResize [1; 1; 1; 1]; EAllocate 64 no_prep; ESetInput [1]; EInvoke;
   EResize [1; 1; 2; 1]; EAllocate addr no_prep; ESetInput [1; 0]].
Definition ex29_S : sched := {| sd_kr := 1; sd_lc := 1; sd_rc := 1; 
  sd_s := {| sc_lpack := []; sc_rpack := []; sc_blocks := []; sc_fat := false; sc_lstride := 0; sc_rstride := 0;
             sc_lmem := []; sc_rmem := [] |} |}.

Lemma ex29_world kt : world_ok kt ex29_w.
Proof.
  unfold world_ok. cbn. repeat (split; [lia || discriminate|]).
  split; [|split; congruence].
  intros g Hg. destruct kt; injection Hg as <-; (apply packedb_ok; [discriminate|reflexivity]).
Qed.

Definition get_st (o : option istate) : istate := match o with Some s => s | None => init_state end.
Definition get_pr (o : option (outcome prep)) : prep := match o with Some (Ok r) => r | _ => no_prep end.
Definition ex29_st (kt : kernel_type) (addr : Z) : istate := get_st (run_events kt ex29_w (ex29_es addr) init_state).

(** After one Invoke, a resize, and a second successful AllocateTensors, the
    kernel still has the old shape: with the input at the same address, the second
    output pixel is never written; with the input moved, the kernel dereferences
    pointers into the old buffer (no outcome). *)
Theorem C29_stale_kernel_refuted :
  exists w es es' S,
    world_ok KIndirect w /\
    exists st st' r,
      run_events KIndirect w es init_state = Some st /\ st_ready st = true /\
      run_events KIndirect w es' init_state = Some st' /\ st_ready st' = true /\
      st_ish st = st_ish st' /\ st_input st = st_input st' /\
      shapes_ok (wd_a w) (st_ish st) (ti_dims (wd_filter_t w)) /\
      dim (st_ish st) 3 = words (at_cin (wd_a w)) /\
      Prepare KIndirect (wd_a w) (node_of w (st_ish st)) = Some (Ok r) /\
      fresh KIndirect w (params_of (wd_a w) r (st_ish st) (ti_dims (wd_filter_t w)) (pr_out r)) (st_input st)
        [] [7; 7] S (fun o => o = OutB [1; 0]) /\
      Eval KIndirect w st [] [7; 7] S (fun o => o = OutB [1; 7]) /\
      ~ Eval KIndirect w st' [] [7; 7] S (fun _ => True).
Proof.
  exists ex29_w, (ex29_es 64), (ex29_es 128), ex29_S. split; [apply ex29_world|].
  exists (ex29_st KIndirect 64), (ex29_st KIndirect 128),
    (get_pr (Prepare KIndirect (wd_a ex29_w) (node_of ex29_w [1; 1; 2; 1]))).
  split; [vm_compute; reflexivity|]. split; [vm_compute; reflexivity|]. split; [vm_compute; reflexivity|].
  split; [vm_compute; reflexivity|]. split; [vm_compute; reflexivity|]. split; [vm_compute; reflexivity|].
  replace (st_ish (ex29_st KIndirect 64)) with [1; 1; 2; 1] by (vm_compute; reflexivity).
  split; [unfold shapes_ok; repeat (split; [vm_compute; discriminate|]); right; split; [reflexivity|split; vm_compute; discriminate]|].
  split; [vm_compute; reflexivity|]. split; [vm_compute; reflexivity|]. split; [vm_compute; reflexivity|].
  split; [vm_compute; reflexivity|]. intros H. vm_compute in H. exact H.
Qed.
Print Assumptions C29_stale_kernel_refuted.

(** Non-vacuity: the hypotheses of C28 and C29 hold after non-trivial histories. *)
Example ex28_reference : exists st, run_events KReference ex29_w (ex29_es 128) init_state = Some st /\ st_ready st = true /\
  od_done (st_od st) = false /\ Eval KReference ex29_w st [] [7; 7] ex29_S (fun o => o = OutB [1; 0]).
Proof. exists (ex29_st KReference 128). do 3 (split; [vm_compute; reflexivity|]). vm_compute; reflexivity. Qed.
Definition ex29_es2 : list event :=
  [EInvoke; EResize [1; 1; 2; 1]; EAllocate 64 no_prep; ESetInput [1; 0]; EInvoke; ESetInput [0; 1]].
Example ex29_positive : exists st, run_events KIndirect ex29_w ex29_es2 init_state = Some st /\ st_ready st = true /\
  od_kernel (st_od st) <> None /\
  (forall es1 es2 st1, ex29_es2 = es1 ++ EInvoke :: es2 ->
     run_events KIndirect ex29_w es1 init_state = Some st1 -> st_ready st1 = true ->
     st_ish st1 = st_ish st /\ st_addr st1 = st_addr st) /\
  Eval KIndirect ex29_w st [] [7; 7] ex29_S (fun o => o = OutB [0; 1]).
Proof.
  exists (get_st (run_events KIndirect ex29_w ex29_es2 init_state)).
  split; [vm_compute; reflexivity|]. split; [vm_compute; reflexivity|]. split; [vm_compute; discriminate|].
  split; [|vm_compute; reflexivity].
  replace (st_ish (get_st (run_events KIndirect ex29_w ex29_es2 init_state))) with [1; 1; 2; 1] by (vm_compute; reflexivity).
  replace (st_addr (get_st (run_events KIndirect ex29_w ex29_es2 init_state))) with 64 by (vm_compute; reflexivity).
  intros es1 es2 st1 E. unfold ex29_es2 in E.
  destruct es1 as [|e0 es1]; cbn [app] in E; [injection E as _; intros H; injection H as <-; discriminate|]. injection E as <- E.
  destruct es1 as [|e1 es1]; cbn [app] in E; [discriminate|]. injection E as <- E.
  destruct es1 as [|e2 es1]; cbn [app] in E; [discriminate|]. injection E as <- E.
  destruct es1 as [|e3 es1]; cbn [app] in E; [discriminate|]. injection E as <- E.
  destruct es1 as [|e4 es1]; cbn [app] in E; [intros H; injection H as <-; auto|]. injection E as <- E.
  destruct es1 as [|e5 es1]; cbn [app] in E; [discriminate|]. injection E as <- E.
  destruct es1; discriminate E.
Qed.
