(** Props1.v — C01 to C06: dispatch and transitions.  Theorems only; see Spec.v for the
    vocabulary ([upward], [answers], [route], [replay], [path], [thread]) and Api.v for the
    calls. *)

From Coq Require Import List Bool Arith Lia.
From Verif Require Import Machine Api Spec Examples.
From Verif Require TripleProofs ApiProofs RouteProofs HandleProofs DataProofs.
Import ListNotations.

(** C01.  [hc]: the handler calls made, in order, with their answers.  They go up from the
    leaf, one call per node; all but the last answered "super"; if the call completed they
    stop exactly at the first other answer or at the top.  Initialized or not. *)
Theorem C01_dispatch_goes_up :
  forall (h : hierarchy) (m : machine) (stack : nat) (md : mode) (sm : state_machine m)
         (e : Event m) (cx : Ctx m),
    well_formed h m stack ->
    let r := handle_with_context stack md sm e cx in
    let hc := handler_calls (calls (a_tr r)) in
    exists ps, upward h (s_disc m (sm_state sm)) ps /\ NoDup ps /\
      prefix (map (fun c => fst (fst c)) hc) ps /\
      (forall c, In c hc -> snd (fst c) = e) /\
      (forall c, In c (removelast hc) -> snd c = Some Super) /\
      (a_out r = Ret tt ->
       exists vis a, answers ps vis a /\ hc = map (fun v => (fst v, e, Some (snd v))) vis).
Proof. intros h m stack md sm e cx W. exact (HandleProofs.dispatch_order W md sm e cx). Qed.
Print Assumptions C01_dispatch_goes_up.

Example C01_case :
  well_formed demo_hierarchy (demo true) 2 /\
  handler_calls (calls (a_tr (handle_with_context 2 BlockingMode (fresh true) Halt 0))) =
  [(AtState 0, Halt, Some Super); (AtSuper 0, Halt, Some Super);
   (AtSuper 1, Halt, Some (Transition Fault))].
Proof. split; [apply demo_well_formed|vm_compute; reflexivity]. Qed.

(** C02.  Unless a handler asks for a transition, nothing but handlers and dispatch hooks
    run and the variant stays. *)
Theorem C02_no_transition_no_change :
  forall (h : hierarchy) (m : machine) (stack : nat) (md : mode) (sm : state_machine m)
         (e : Event m) (cx : Ctx m),
    well_formed h m stack -> initialized sm = true ->
    let r := handle_with_context stack md sm e cx in
    no_transition (a_tr r) ->
    acts (a_tr r) = [] /\ forallb (fun o => negb (is_transition_hook o)) (a_tr r) = true /\
    s_disc m (sm_state (a_machine r)) = s_disc m (sm_state sm).
Proof.
  intros h m stack md sm e cx W Hi. exact (ApiProofs.handle_no_transition W md sm e cx Hi).
Qed.
Print Assumptions C02_no_transition_no_change.

Example C02_case :
  let r := handle_with_context 2 AwaitableMode (running true (On 3) []) Noop 0 in
  no_transition (a_tr r) /\
  handler_calls (calls (a_tr r)) =
  [(AtState 0, Noop, Some Super); (AtSuper 0, Noop, Some Super); (AtSuper 1, Noop, Some Super)].
Proof.
  split; [|vm_compute; reflexivity]. intros p e t H. vm_compute in H.
  intuition discriminate.
Qed.

(** C03.  [route h s t full]: exits from [s] up to, and entries from below, the last common
    element of the two root paths. *)
Theorem C03_transition_route :
  forall (h : hierarchy) (m : machine) (stack : nat) (md : mode) (sm : state_machine m)
         (e : Event m) (cx : Ctx m) (p : place) (target : State m),
    well_formed h m stack -> initialized sm = true ->
    let r := handle_with_context stack md sm e cx in
    asks_for (a_tr r) p e target ->
    exists full, route h (s_disc m (sm_state sm)) (s_disc m target) full /\
      prefix (acts (a_tr r)) full /\
      (a_out r = Ret tt -> acts (a_tr r) = full /\
                           s_disc m (sm_state (a_machine r)) = s_disc m target).
Proof.
  intros h m stack md sm e cx p target W Hi.
  exact (ApiProofs.handle_transition_route W md sm e cx p e target Hi).
Qed.
Print Assumptions C03_transition_route.

Example C03_case :
  let r := handle_with_context 2 BlockingMode (running true (On 3) []) Button 0 in
  asks_for (a_tr r) (AtSuper 0) Button (Idle 1) /\ a_out r = Ret tt /\
  acts (a_tr r) = [Exit (AtState 0); Exit (AtSuper 0); Enter (AtState 2)].
Proof. repeat split; vm_compute; auto. Qed.

(** C04.  A completed transition between different variants is a shortest possible walk
    from one active path to the other, never repeats a node, and spares shared ones. *)
Theorem C04_transition_minimal :
  forall (h : hierarchy) (m : machine) (stack : nat) (md : mode) (sm : state_machine m)
         (e : Event m) (cx : Ctx m) (p : place) (target : State m) (ps pt : list place),
    well_formed h m stack -> initialized sm = true ->
    let r := handle_with_context stack md sm e cx in
    asks_for (a_tr r) p e target -> a_out r = Ret tt ->
    s_disc m (sm_state sm) <> s_disc m target ->
    path h (s_disc m (sm_state sm)) ps -> path h (s_disc m target) pt ->
    replay ps (acts (a_tr r)) pt /\
    (forall walk, replay ps walk pt -> length (acts (a_tr r)) <= length walk) /\
    NoDup (map act_place (acts (a_tr r))) /\
    (forall q, In q ps -> In q pt -> ~ In q (map act_place (acts (a_tr r)))).
Proof.
  intros h m stack md sm e cx p target ps pt W Hi.
  exact (fun Ha Ho Hn => HandleProofs.transition_minimal W md sm e cx p target Hi Ha Ho Hn).
Qed.
Print Assumptions C04_transition_minimal.

Example C04_case :
  let r := handle_with_context 2 AwaitableMode (running true (Idle 3) []) Button 0 in
  asks_for (a_tr r) (AtState 2) Button (On 5) /\ a_out r = Ret tt /\
  path demo_hierarchy 2 [AtSuper 1; AtState 2] /\
  path demo_hierarchy 0 [AtSuper 1; AtSuper 0; AtState 0].
Proof.
  repeat split; try (vm_compute; auto; fail).
  - exists [1]. split; [repeat constructor|reflexivity].
  - exists [0; 1]. split; [repeat constructor|reflexivity].
Qed.

(** C05.  Same variant, whatever the local data. *)
Theorem C05_self_transition :
  forall (h : hierarchy) (m : machine) (stack : nat) (md : mode) (sm : state_machine m)
         (e : Event m) (cx : Ctx m) (p : place) (target : State m),
    well_formed h m stack -> initialized sm = true ->
    let r := handle_with_context stack md sm e cx in
    asks_for (a_tr r) p e target -> s_disc m (sm_state sm) = s_disc m target ->
    prefix (acts (a_tr r)) [Exit (AtState (s_disc m target)); Enter (AtState (s_disc m target))] /\
    (a_out r = Ret tt ->
     acts (a_tr r) = [Exit (AtState (s_disc m target)); Enter (AtState (s_disc m target))]).
Proof.
  intros h m stack md sm e cx p target W Hi.
  exact (HandleProofs.self_transition W md sm e cx p target Hi).
Qed.
Print Assumptions C05_self_transition.

Example C05_case :
  let r := handle_with_context 2 BlockingMode (running true (On 3) []) Again 0 in
  asks_for (a_tr r) (AtState 0) Again (On 40) /\ a_out r = Ret tt /\
  sm_state (a_machine r) = On 41.
Proof. repeat split; vm_compute; auto. Qed.

(** C06.  The exits run on the old state ([x0] to [x1]); the entries run on the target as
    the handler returned it, and what they leave is the new state.  [x1] does not occur in
    the second half except as an argument of the hook. *)
Theorem C06_new_state_is_target :
  forall (h : hierarchy) (m : machine) (stack : nat) (md : mode) (sm : state_machine m)
         (e : Event m) (cx : Ctx m) (p : place) (target : State m),
    well_formed h m stack -> faithful_views m -> initialized sm = true ->
    let r := handle_with_context stack md sm e cx in
    asks_for (a_tr r) p e target -> a_out r = Ret tt ->
    exists t1 b t2 t3 x0 sh0 cx0 x1 sh1 cx1,
      a_tr r = t1 ++ [b] ++ t2 ++ t3 ++ [OAfterTransition x1 (sm_state (a_machine r))] /\
      b = match md with
          | BlockingMode => OBeforeTransition target x0
          | AwaitableMode => OBeforeTransition x0 target
          end /\
      forallb (fun o => is_dispatch_hook o || is_handler o) t1 = true /\
      forallb (@is_exit m) t2 = true /\ forallb (@is_enter m) t3 = true /\
      thread (touches m) t1 (sm_state sm, sm_shared sm, cx) (Ret tt) (x0, sh0, cx0) /\
      thread (touches m) (b :: t2) (x0, sh0, cx0) (Ret tt) (x1, sh1, cx1) /\
      thread (touches m) (t3 ++ [OAfterTransition x1 (sm_state (a_machine r))])
        (target, sh1, cx1) (Ret tt)
        (sm_state (a_machine r), sm_shared (a_machine r), a_cx r).
Proof.
  intros h m stack md sm e cx p target W V Hi.
  exact (DataProofs.transition_data' W V md sm e cx p target Hi).
Qed.
Print Assumptions C06_new_state_is_target.

Example C06_case :
  well_formed demo_hierarchy (demo true) 2 /\ faithful_views (demo true) /\
  let r := handle_with_context 2 AwaitableMode (running true (Idle 3) []) Button 0 in
  asks_for (a_tr r) (AtState 2) Button (On 5) /\ a_out r = Ret tt /\
  sm_state (a_machine r) = On 7.
Proof.
  split; [apply demo_well_formed|]. split; [apply demo_views|]. repeat split; vm_compute; auto.
Qed.
