(** Props3.v — C11 to C14, C18, C21, C28: hooks, aborts and data.  Theorems only; [thread],
    [touches], [callback], [node_left] are in Spec.v. *)

From Coq Require Import List Bool Arith Lia.
From Verif Require Import Machine Api Spec Examples.
From Verif Require HandleProofs DataProofs HookProofs ApiProofs FrontProofs ViewProofs.
Import ListNotations.

(** C11.  Wherever `before_transition` occurs in the log of a call: [target] is what a
    handler asked for, [x] is the current state, as the callbacks logged before the hook
    left it.  Awaitable machines call it with (source, target). *)
Theorem C11_before_transition_awaitable :
  forall (h : hierarchy) (m : machine) (stack : nat) (sm : state_machine m)
         (e : Event m) (cx : Ctx m) (t1 : list (obs m)) (a b : State m) (t2 : list (obs m)),
    well_formed h m stack -> faithful_views m -> initialized sm = true ->
    a_tr (handle_with_context stack AwaitableMode sm e cx) = t1 ++ OBeforeTransition a b :: t2 ->
    exists p target x sh' cx',
      asks_for t1 p e target /\
      thread (touches m) t1 (sm_state sm, sm_shared sm, cx) (Ret tt) (x, sh', cx') /\
      a = x /\ b = target.
Proof.
  intros h m stack sm e cx t1 a b t2 W V Hi.
  exact (@HookProofs.before_args h m stack W V AwaitableMode sm e cx t1 a b t2 Hi).
Qed.
Print Assumptions C11_before_transition_awaitable.

(** Blocking machines call it with (target, source), always
    (statig/src/blocking/inner.rs:42). *)
Theorem C11_before_transition_blocking_swapped :
  forall (h : hierarchy) (m : machine) (stack : nat) (sm : state_machine m)
         (e : Event m) (cx : Ctx m) (t1 : list (obs m)) (a b : State m) (t2 : list (obs m)),
    well_formed h m stack -> faithful_views m -> initialized sm = true ->
    a_tr (handle_with_context stack BlockingMode sm e cx) = t1 ++ OBeforeTransition a b :: t2 ->
    exists p target x sh' cx',
      asks_for t1 p e target /\
      thread (touches m) t1 (sm_state sm, sm_shared sm, cx) (Ret tt) (x, sh', cx') /\
      a = target /\ b = x.
Proof.
  intros h m stack sm e cx t1 a b t2 W V Hi.
  exact (@HookProofs.before_args h m stack W V BlockingMode sm e cx t1 a b t2 Hi).
Qed.
Print Assumptions C11_before_transition_blocking_swapped.

(** So C11 as stated is false of blocking machines: the first argument is not even of the
    source's variant. *)
Theorem C11_before_transition_refuted :
  exists (h : hierarchy) (m : machine) (stack : nat) (sm : state_machine m) (e : Event m)
         (cx : Ctx m) (p : place) (target a b : State m),
    well_formed h m stack /\ faithful_views m /\ initialized sm = true /\
    let r := handle_with_context stack BlockingMode sm e cx in
    a_out r = Ret tt /\ asks_for (a_tr r) p e target /\
    In (OBeforeTransition a b) (a_tr r) /\
    s_disc m a <> s_disc m (sm_state sm) /\ s_disc m b <> s_disc m target.
Proof.
  exists demo_hierarchy, (demo true), 2, (running true (Idle 3) []), Button, 0, (AtState 2),
    (On 5), (On 5), (Idle 3).
  split; [apply demo_well_formed|]. split; [apply demo_views|]. split; [reflexivity|].
  split; [vm_compute; reflexivity|]. split; [vm_compute; auto|]. split; [vm_compute; auto 9|].
  split; vm_compute; discriminate.
Qed.
Print Assumptions C11_before_transition_refuted.

Example C11_case :
  exists t1 t2,
    a_tr (handle_with_context 2 AwaitableMode (running true (On 3) []) Button 0) =
    t1 ++ OBeforeTransition (m := demo true) (On 13) (Idle 1) :: t2.
Proof.
  exists (firstn 8 (a_tr (handle_with_context 2 AwaitableMode (running true (On 3) []) Button 0))),
    (skipn 9 (a_tr (handle_with_context 2 AwaitableMode (running true (On 3) []) Button 0))).
  vm_compute; reflexivity.
Qed.

(** C12.  Wherever `after_transition` occurs: it is the last call; its first argument is the
    old state as the handlers and exit actions ([u1]) left it, its second one the new
    current state, which is the target as the entry actions ([u2]) left it.  Both modes,
    also if the hook itself aborts. *)
Theorem C12_after_transition_args :
  forall (h : hierarchy) (m : machine) (stack : nat) (md : mode) (sm : state_machine m)
         (e : Event m) (cx : Ctx m) (t1 : list (obs m)) (a b : State m) (t2 : list (obs m)),
    well_formed h m stack -> faithful_views m -> initialized sm = true ->
    let r := handle_with_context stack md sm e cx in
    a_tr r = t1 ++ OAfterTransition a b :: t2 ->
    t2 = [] /\ b = sm_state (a_machine r) /\
    exists u1 u2 p target sh' cx' sh'' cx'',
      t1 = u1 ++ u2 /\ asks_for u1 p e target /\
      forallb (fun o => negb (is_enter o)) u1 = true /\ forallb (@is_enter m) u2 = true /\
      thread (touches m) u1 (sm_state sm, sm_shared sm, cx) (Ret tt) (a, sh', cx') /\
      thread (touches m) u2 (target, sh', cx') (Ret tt) (b, sh'', cx'').
Proof.
  intros h m stack md sm e cx t1 a b t2 W V.
  exact (@HookProofs.after_args h m stack W V md sm e cx t1 a b t2).
Qed.
Print Assumptions C12_after_transition_args.

(** ... and a completed transition does call it. *)
Theorem C12_after_transition_called :
  forall (h : hierarchy) (m : machine) (stack : nat) (md : mode) (sm : state_machine m)
         (e : Event m) (cx : Ctx m) (p : place) (target : State m),
    well_formed h m stack -> faithful_views m -> initialized sm = true ->
    let r := handle_with_context stack md sm e cx in
    asks_for (a_tr r) p e target -> a_out r = Ret tt ->
    exists t x1, a_tr r = t ++ [OAfterTransition x1 (sm_state (a_machine r))] /\
      s_disc m x1 = s_disc m (sm_state sm).
Proof.
  intros h m stack md sm e cx p target W V Hi.
  exact (@HookProofs.after_called h m stack W md sm e cx p target Hi).
Qed.
Print Assumptions C12_after_transition_called.

Example C12_case :
  let r := handle_with_context 2 BlockingMode (running true (On 3) []) Timer 0 in
  exists t1, a_tr r = t1 ++ [OAfterTransition (m := demo true) (On 0) (Off 0)] /\
  asks_for (a_tr r) (AtState 0) Timer (Off 0).
Proof.
  exists (removelast (a_tr (handle_with_context 2 BlockingMode (running true (On 3) []) Timer 0))).
  split; vm_compute; auto.
Qed.

(** C13.  One event: no transition hook or action at all unless a handler asked for a
    transition; otherwise `before_transition`, then only actions, then (if it completes)
    `after_transition`; nothing else. *)
Theorem C13_transition_hooks :
  forall (h : hierarchy) (m : machine) (stack : nat) (md : mode) (sm : state_machine m)
         (e : Event m) (cx : Ctx m),
    well_formed h m stack -> initialized sm = true ->
    let r := handle_with_context stack md sm e cx in
    exists t1 t2,
      a_tr r = t1 ++ t2 /\
      forallb (fun o => negb (is_transition_hook o || is_action o)) t1 = true /\
      ((t2 = [] /\ (a_out r = Ret tt -> no_transition (a_tr r))) \/
       (exists p target a b t3,
          asks_for t1 p e target /\
          ((t2 = OBeforeTransition a b :: t3 /\ a_out r <> Ret tt) \/
           (exists a' b', t2 = OBeforeTransition a b :: t3 ++ [OAfterTransition a' b'])) /\
          forallb (@is_action m) t3 = true)).
Proof.
  intros h m stack md sm e cx W. exact (@HandleProofs.transition_hooks h m stack W md sm e cx).
Qed.
Print Assumptions C13_transition_hooks.

(** Initialization calls no hook. *)
Theorem C13_init_no_hooks :
  forall (h : hierarchy) (m : machine) (stack : nat) (md : mode) (sm : state_machine m)
         (cx : Ctx m),
    well_formed h m stack ->
    forallb (@is_enter m) (a_tr (init_with_context stack md sm cx)) = true.
Proof.
  intros h m stack md sm cx W. exact (@HookProofs.init_only_enters h m stack W md sm cx).
Qed.
Print Assumptions C13_init_no_hooks.

Example C13_case :
  let r := handle_with_context 2 BlockingMode (running true (On 3) []) Button 12 in
  a_out r = Abort Panicked /\ asks_for (a_tr r) (AtSuper 0) Button (Idle 1) /\
  acts (a_tr r) = [Exit (AtState 0); Exit (AtSuper 0)].
Proof. repeat split; vm_compute; auto. Qed.

(** C14.  The part of the log before the transition consists of handler calls each right
    after "before dispatch" for the same node and event and with a matching "after
    dispatch", nested in blocking and immediate in awaitable machines; if something aborts
    there, of a prefix of such a log. *)
Theorem C14_dispatch_hooks :
  forall (h : hierarchy) (m : machine) (stack : nat) (md : mode) (sm : state_machine m)
         (e : Event m) (cx : Ctx m),
    well_formed h m stack -> initialized sm = true ->
    let r := handle_with_context stack md sm e cx in
    exists t1 t2 full,
      a_tr r = t1 ++ t2 /\
      forallb (fun o => negb (is_dispatch_hook o || is_handler o)) t2 = true /\
      prefix (calls t1) full /\ bracketed full /\
      (md = AwaitableMode -> tightly_bracketed full) /\
      (a_out r = Ret tt \/ t2 <> [] -> calls t1 = full).
Proof.
  intros h m stack md sm e cx W. exact (@HandleProofs.dispatch_hooks h m stack W md sm e cx).
Qed.
Print Assumptions C14_dispatch_hooks.

Example C14_case :
  map (fun o => match o with
                | OBeforeDispatch n _ => (0, place_of (demo true) n)
                | OHandler n _ => (1, place_of (demo true) n)
                | OAfterDispatch n _ => (2, place_of (demo true) n)
                | _ => (3, AtState 0) end)
    (a_tr (handle_with_context 2 BlockingMode (running true (On 3) []) Noop 0)) =
  [(0, AtState 0); (1, AtState 0); (3, AtState 0); (2, AtState 0);
   (0, AtSuper 0); (1, AtSuper 0); (3, AtState 0);
   (0, AtSuper 1); (1, AtSuper 1); (3, AtState 0); (2, AtSuper 1); (2, AtSuper 0)].
Proof. vm_compute; reflexivity. Qed.

(** C18.  Which callback aborted ([o], the last one called) decides the variant of the
    current state; the actions run so far are a prefix of the full sequence. *)
Theorem C18_abort_never_corrupts :
  forall (h : hierarchy) (m : machine) (stack : nat) (md : mode) (sm : state_machine m)
         (e : Event m) (cx : Ctx m) (w : why),
    well_formed h m stack -> initialized sm = true ->
    let r := handle_with_context stack md sm e cx in
    a_out r = Abort w ->
    (w = Panicked \/ w = DroppedFuture) /\
    exists t o, a_tr r = t ++ [o] /\
      match o with
      | OEnter _ | OAfterTransition _ _ =>
          exists p target, asks_for (a_tr r) p e target /\
            s_disc m (sm_state (a_machine r)) = s_disc m target
      | _ => s_disc m (sm_state (a_machine r)) = s_disc m (sm_state sm)
      end.
Proof.
  intros h m stack md sm e cx w W. exact (@HandleProofs.abort_point h m stack W md sm e cx w).
Qed.
Print Assumptions C18_abort_never_corrupts.

Theorem C18_abort_prefix :
  forall (h : hierarchy) (m : machine) (stack : nat) (md : mode) (sm : state_machine m)
         (e : Event m) (cx : Ctx m) (p : place) (target : State m) (w : why),
    well_formed h m stack -> initialized sm = true ->
    let r := handle_with_context stack md sm e cx in
    a_out r = Abort w -> asks_for (a_tr r) p e target ->
    exists full, route h (s_disc m (sm_state sm)) (s_disc m target) full /\
      prefix (acts (a_tr r)) full.
Proof.
  intros h m stack md sm e cx p target w W.
  exact (@HookProofs.abort_prefix h m stack W md sm e cx p target w).
Qed.
Print Assumptions C18_abort_prefix.

Example C18_case :
  let r := handle_with_context 2 AwaitableMode (running true (On 3) []) Button 12 in
  let r' := handle_with_context 2 AwaitableMode (running true (Idle 3) []) Button 14 in
  a_out r = Abort Panicked /\ s_disc (demo true) (sm_state (a_machine r)) = 0 /\
  a_out r' = Abort Panicked /\ s_disc (demo true) (sm_state (a_machine r')) = 0.
Proof. repeat split; vm_compute; auto. Qed.

(** C21.  The log of a call, read as a sequence of callbacks on (state, shared storage,
    context): each starts from what the one before left, the first from what the machine and
    the client held, and the last leaves what they hold afterwards.  The only thing the
    library itself does in between is to replace the state by the transition's target,
    after the last exit action. *)
Theorem C21_threaded :
  forall (h : hierarchy) (m : machine) (stack : nat) (md : mode) (sm : state_machine m)
         (e : Event m) (cx : Ctx m),
    well_formed h m stack -> faithful_views m ->
    let r := handle_with_context stack md sm e cx in
    let c := (sm_state sm, sm_shared sm, cx) in
    let c' := (sm_state (a_machine r), sm_shared (a_machine r), a_cx r) in
    ((a_out r = Ret tt -> no_transition (a_tr r)) /\
     thread (touches m) (a_tr r) c (a_out r) c') \/
    (exists t1 t2 x1 sh1 cx1 p target,
        a_tr r = t1 ++ t2 /\ asks_for t1 p e target /\
        forallb (fun o => is_enter o || is_transition_hook o) t2 = true /\
        thread (touches m) t1 c (Ret tt) (x1, sh1, cx1) /\
        thread (touches m) t2 (target, sh1, cx1) (a_out r) c').
Proof.
  intros h m stack md sm e cx W V. exact (@DataProofs.handle_threaded h m stack W V md sm e cx).
Qed.
Print Assumptions C21_threaded.

Theorem C21_init_threaded :
  forall (h : hierarchy) (m : machine) (stack : nat) (md : mode) (sm : state_machine m)
         (cx : Ctx m),
    well_formed h m stack -> faithful_views m ->
    let r := init_with_context stack md sm cx in
    thread (touches m) (a_tr r) (sm_state sm, sm_shared sm, cx) (a_out r)
      (sm_state (a_machine r), sm_shared (a_machine r), a_cx r).
Proof.
  intros h m stack md sm cx W V. exact (@DataProofs.api_init_thread h m stack W V md sm cx).
Qed.
Print Assumptions C21_init_threaded.

Example C21_case :
  let r := handle_with_context 2 BlockingMode (running false (On 3) []) Button 0 in
  sm_shared (a_machine r) = [100; 3; 7; 2] /\ a_cx r = 1 /\ sm_state (a_machine r) = Idle 1.
Proof. repeat split; vm_compute; reflexivity. Qed.

(** C28.  Two callbacks in a row, the first on a node of the hierarchy, the second on the
    same one: the second gets the value the first left.  (That the callbacks of a call do
    follow each other like this is C21.) *)
Theorem C28_read_after_write :
  forall (h : hierarchy) (m : machine) (stack : nat) (o1 o2 : obs m) (x : State m)
         (sh : Shared m) (cx : Ctx m) (a1 : outcome (option (response (State m))))
         (x1 : State m) (sh1 : Shared m) (cx1 : Ctx m)
         (a2 : outcome (option (response (State m)))) (c2 : State m * Shared m * Ctx m)
         (n1 n2 : node (State m) (Sup m)),
    well_formed h m stack -> faithful_views m ->
    callback (touches m) o1 (x, sh, cx) a1 (x1, sh1, cx1) ->
    callback (touches m) o2 (x1, sh1, cx1) a2 c2 ->
    node_called o1 = Some n1 -> node_called o2 = Some n2 -> place_of m n1 = place_of m n2 ->
    node_left o1 sh cx = Some n2.
Proof.
  intros h m stack o1 o2 x sh cx a1 x1 sh1 cx1 a2 c2 n1 n2 W V.
  exact (@HookProofs.read_after_write h m stack W V o1 o2 x sh cx a1 x1 sh1 cx1 a2 c2 n1 n2).
Qed.
Print Assumptions C28_read_after_write.

(** Whatever node was written: what was written is part of the state from then on, and the
    value of every node is determined by the state. *)
Theorem C28_written_is_visible :
  forall (h : hierarchy) (m : machine) (stack : nat) (o : obs m) (x : State m)
         (sh : Shared m) (cx : Ctx m) (a : outcome (option (response (State m))))
         (x1 : State m) (sh1 : Shared m) (cx1 : Ctx m) (n' : node (State m) (Sup m)),
    well_formed h m stack -> faithful_views m ->
    callback (touches m) o (x, sh, cx) a (x1, sh1, cx1) -> node_left o sh cx = Some n' ->
    exists n, node_called o = Some n /\ place_of m n' = place_of m n /\ sees (touches m) x1 n'.
Proof.
  intros h m stack o x sh cx a x1 sh1 cx1 n' W V.
  exact (@HookProofs.written h m stack W V o x sh cx a x1 sh1 cx1 n').
Qed.
Print Assumptions C28_written_is_visible.

Theorem C28_views_are_functions_of_the_state :
  forall (h : hierarchy) (m : machine) (stack : nat) (x : State m)
         (n1 n2 : node (State m) (Sup m)),
    well_formed h m stack ->
    sees (touches m) x n1 -> sees (touches m) x n2 -> place_of m n1 = place_of m n2 -> n1 = n2.
Proof.
  intros h m stack x n1 n2 W. exact (@DataProofs.view_unique h m stack W x n1 n2).
Qed.
Print Assumptions C28_views_are_functions_of_the_state.

(** In every call: each handler, action and dispatch hook is called on (shown) the value its
    node has in the current state, as the callbacks before it left it - whichever nodes those
    wrote; and what it leaves is again the value of its node in the state. *)
Theorem C28_current_values :
  forall (h : hierarchy) (m : machine) (stack : nat) (md : mode) (sm : state_machine m)
         (e : Event m) (cx : Ctx m) (t1 : list (obs m)) (o : obs m) (t2 : list (obs m))
         (n : node (State m) (Sup m)),
    well_formed h m stack -> faithful_views m ->
    a_tr (handle_with_context stack md sm e cx) = t1 ++ o :: t2 -> node_called o = Some n ->
    exists x sh1 cx1 a x' sh' cx' n',
      so_far m e (sm_state sm, sm_shared sm, cx) t1 (x, sh1, cx1) /\
      sees (touches m) x n /\
      callback (touches m) o (x, sh1, cx1) a (x', sh', cx') /\
      node_left o sh1 cx1 = Some n' /\ place_of m n' = place_of m n /\ sees (touches m) x' n'.
Proof.
  intros h m stack md sm e cx t1 o t2 n W V.
  exact (@ViewProofs.current_values h m stack W V md sm e cx t1 o t2 n).
Qed.
Print Assumptions C28_current_values.

(** The Blinking superstate adds 10 to the counter of the leaf `On`, whose exit action then
    sees 13. *)
Example C28_case :
  let r := handle_with_context 2 BlockingMode (running true (On 3) []) Button 0 in
  In (OHandler (m := demo true) (NSuper (Blinking 3)) Button) (a_tr r) /\
  In (OExit (m := demo true) (NState (On 13))) (a_tr r).
Proof. split; vm_compute; auto 20. Qed.
