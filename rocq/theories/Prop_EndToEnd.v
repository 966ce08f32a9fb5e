(** * Property C47: the whole operator, over whole histories. *)
From Coq Require Import QArith.
From Verif Require Import Base Spec Bits Loop4 Bitpack Reference OutputTransform RefTheorems Padding
  Indirect IndirectBuf IndirectTop Log Bgemm BgemmProofs BgemmConv ZeroPad Prepare Lifecycle EndToEnd Check
  Prop_Lifecycle Prop_Prepare.
Open Scope Z_scope.

(** After any history of resizes, (re)allocations, input writes and Invokes that
    leaves the interpreter ready, Invoke succeeds and writes the mathematical
    convolution of the current input, through the output transform, into an output
    tensor of the announced size - reference and BGEMM kernels. *)
Theorem C47_invoke_correct_after_any_history kt w es st fb ib S :
  kt <> KIndirect -> world_ok kt w ->
  run_events kt w es init_state = Some st -> st_ready st = true ->
  (forall r, Prepare kt (wd_a w) (node_of w (st_ish st)) = Some (Ok r) ->
     let p := params_of (wd_a w) r (st_ish st) (ti_dims (wd_filter_t w)) (pr_out r) in
     call_ok kt w (st_ish st) p (st_input st) S /\
     (wd_out w = TFloat32 -> zlen fb = elements (pr_out r)) /\
     (wd_out w <> TFloat32 -> zlen ib = elements (pr_out r))) ->
  exists r, Prepare kt (wd_a w) (node_of w (st_ish st)) = Some (Ok r) /\
    let p := params_of (wd_a w) r (st_ish st) (ti_dims (wd_filter_t w)) (pr_out r) in
    Eval kt w st fb ib S (correct_output w p (st_input st)).
Proof.
  exact (invoke_correct kt w es st fb ib S).
Qed.
Print Assumptions C47_invoke_correct_after_any_history.

(** The same for the indirect kernel if all earlier Invokes saw the present input
    shape and address (C29: false without this). *)
Theorem C47_invoke_correct_indirect w es st fb ib S :
  world_ok KIndirect w ->
  run_events KIndirect w es init_state = Some st -> st_ready st = true ->
  (forall es1 es2 st1, es = es1 ++ EInvoke :: es2 ->
     run_events KIndirect w es1 init_state = Some st1 -> st_ready st1 = true ->
     st_ish st1 = st_ish st /\ st_addr st1 = st_addr st) ->
  (forall r, Prepare KIndirect (wd_a w) (node_of w (st_ish st)) = Some (Ok r) ->
     let p := params_of (wd_a w) r (st_ish st) (ti_dims (wd_filter_t w)) (pr_out r) in
     call_ok KIndirect w (st_ish st) p (st_input st) S /\
     (wd_out w = TFloat32 -> zlen fb = elements (pr_out r)) /\
     (wd_out w <> TFloat32 -> zlen ib = elements (pr_out r))) ->
  exists r, Prepare KIndirect (wd_a w) (node_of w (st_ish st)) = Some (Ok r) /\
    let p := params_of (wd_a w) r (st_ish st) (ti_dims (wd_filter_t w)) (pr_out r) in
    Eval KIndirect w st fb ib S (correct_output w p (st_input st)).
Proof.
  exact (invoke_correct_indirect w es st fb ib S).
Qed.
Print Assumptions C47_invoke_correct_indirect.

(** Non-vacuity: invoke on one shape, resize, invoke on another (reference); two
    invokes with different inputs (indirect). *)
Definition ex47_in : list Z := [1; 2; 3; 4; 5; 6; 7; 8; 9; 10; 11; 12].
Definition ex47_es : list event :=
  [EResize [1; 1; 1; 2]; EAllocate 0 no_prep; ESetInput [9; 9]; EInvoke;
   EResize [1; 2; 3; 2]; EAllocate 32 no_prep; ESetInput ex47_in].
Definition ex47_es2 : list event :=
  [EResize [1; 2; 3; 2]; EAllocate 32 no_prep; ESetInput (map Z.succ ex47_in); EInvoke; ESetInput ex47_in].
Lemma ex47_call kt st : kt <> KBgemm -> st_ish st = [1; 2; 3; 2] -> st_input st = ex47_in ->
  forall r, Prepare kt (wd_a ex38_g) (node_of ex38_g (st_ish st)) = Some (Ok r) ->
     let p := params_of (wd_a ex38_g) r (st_ish st) (ti_dims (wd_filter_t ex38_g)) (pr_out r) in
     call_ok kt ex38_g (st_ish st) p (st_input st) ex29_S /\
     (wd_out ex38_g = TFloat32 -> zlen (repeat 7%Q 12) = elements (pr_out r)) /\
     (wd_out ex38_g <> TFloat32 -> zlen (@nil Z) = elements (pr_out r)).
Proof.
  intros HK Es Ei r Hr. rewrite Es, Ei in *. destruct (ex38_call kt HK) as (r' & E & EL & HC). rewrite E in Hr. injection Hr as <-.
  split; [exact HC|]. split; [intros _; rewrite EL; reflexivity|intros H; exfalso; apply H; reflexivity].
Qed.
Example ex47_reference : exists st, run_events KReference ex38_g ex47_es init_state = Some st /\ st_ready st = true /\
  st_ish st = [1; 2; 3; 2] /\ st_input st = ex47_in.
Proof.
  exists (get_st (run_events KReference ex38_g ex47_es init_state)).
  split; [vm_compute; reflexivity|]. split; [vm_compute; reflexivity|]. split; vm_compute; reflexivity.
Qed.
Example ex47_indirect : exists st, run_events KIndirect ex38_g ex47_es2 init_state = Some st /\ st_ready st = true /\
  st_ish st = [1; 2; 3; 2] /\ st_input st = ex47_in /\
  (forall es1 es2 st1, ex47_es2 = es1 ++ EInvoke :: es2 ->
     run_events KIndirect ex38_g es1 init_state = Some st1 -> st_ready st1 = true ->
     st_ish st1 = st_ish st /\ st_addr st1 = st_addr st).
Proof.
  exists (get_st (run_events KIndirect ex38_g ex47_es2 init_state)).
  assert (E1 : st_ish (get_st (run_events KIndirect ex38_g ex47_es2 init_state)) = [1; 2; 3; 2]) by (vm_compute; reflexivity).
  assert (E2 : st_addr (get_st (run_events KIndirect ex38_g ex47_es2 init_state)) = 32) by (vm_compute; reflexivity).
  split; [vm_compute; reflexivity|]. split; [vm_compute; reflexivity|]. split; [exact E1|]. split; [vm_compute; reflexivity|].
  rewrite E1, E2. clear E1 E2. intros es1 es2 st1 E. unfold ex47_es2 in E.
  destruct es1 as [|e1 es1]; cbn [app] in E; [discriminate E|]. injection E as <- E.
  destruct es1 as [|e2 es1]; cbn [app] in E; [discriminate E|]. injection E as <- E.
  destruct es1 as [|e3 es1]; cbn [app] in E; [discriminate E|]. injection E as <- E.
  destruct es1 as [|e4 es1]; cbn [app] in E; [intros H; vm_compute in H; injection H as <-; split; reflexivity|]. injection E as <- E.
  destruct es1 as [|e5 es1]; cbn [app] in E; [discriminate E|]. injection E as <- E.
  destruct es1; discriminate E.
Qed.
