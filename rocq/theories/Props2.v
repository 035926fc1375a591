(** Props2.v — C07 to C10, C19, C20, C42: initialization and whole histories.  Theorems
    only. *)

From Coq Require Import List Bool Arith Lia.
From Verif Require Import Machine Api Spec Examples.
From Verif Require RouteProofs HistoryProofs FrontProofs HandleProofs.
Import ListNotations.

(** C07.  Any program of calls that do not abort, from any uninitialized machine, at any
    point (every prefix of a history is a history).  [calm]: the (unsafe) `state_mut` is not
    used to change the variant. *)
Theorem C07_bracketed :
  forall (h : hierarchy) (m : machine) (stack : nat) (md : mode) (ops : list (op m))
         (sm : state_machine m) (cs : list (called m)) (sm' : state_machine m),
    well_formed h m stack -> initialized sm = false -> history stack md ops sm cs sm' ->
    Forall (@calm m) ops -> completed cs ->
    exists stk,
      (if initialized sm' then path h (s_disc m (sm_state sm')) stk else stk = []) /\
      replay [] (acts (log_of cs)) stk.
Proof.
  intros h m stack md ops sm cs sm' W. exact (@HistoryProofs.history_from_start h m stack W md ops sm cs sm').
Qed.
Print Assumptions C07_bracketed.

Definition demo_ops : list (op (demo true)) :=
  [OpInnerMut (m := demo true) (fun l => 5 :: l); OpHandle (m := demo true) Timer 0;
   OpInit (m := demo true) 3; OpHandle (m := demo true) Button 1;
   OpStateMut (m := demo true) (fun x => match x with Idle n => Idle (n + 1) | y => y end);
   OpHandle (m := demo true) Halt 0; OpHandle (m := demo true) Noop 0].

Example C07_case :
  exists cs sm', history 2 BlockingMode demo_ops (fresh true) cs sm' /\
    Forall (@calm (demo true)) demo_ops /\ map c_out cs = repeat (Ret tt) 7 /\
    sm_state sm' = Fault /\
    acts (log_of cs) =
    [Enter (AtSuper 1); Enter (AtSuper 0); Enter (AtState 0); Exit (AtState 0); Enter (AtState 1);
     Exit (AtState 1); Exit (AtSuper 0); Enter (AtState 2); Exit (AtState 2); Exit (AtSuper 1);
     Enter (AtState 3)].
Proof.
  exists (fst (exec_all 2 BlockingMode demo_ops (fresh true))),
    (snd (exec_all 2 BlockingMode demo_ops (fresh true))).
  split; [apply HistoryProofs.exec_all_history|]. split.
  - unfold demo_ops. repeat constructor. intros [n|n|n|]; reflexivity.
  - split; [vm_compute; reflexivity|]. split; vm_compute; reflexivity.
Qed.

(** C08.  One initialization: the entry actions of the path of the current state, outermost
    first, and nothing else ([is_enter] holds of entry actions only). *)
Theorem C08_init_enters_path :
  forall (h : hierarchy) (m : machine) (stack : nat) (md : mode) (sm : state_machine m)
         (cx : Ctx m),
    well_formed h m stack -> initialized sm = false ->
    let r := init_with_context stack md sm cx in
    exists p, path h (s_disc m (sm_state sm)) p /\
      forallb (@is_enter m) (a_tr r) = true /\
      prefix (acts (a_tr r)) (map Enter p) /\
      s_disc m (sm_state (a_machine r)) = s_disc m (sm_state sm) /\
      (a_out r = Ret tt <-> initialized (a_machine r) = true) /\
      (a_out r = Ret tt -> acts (a_tr r) = map Enter p) /\
      (forall w, a_out r = Abort w -> w = Panicked \/ w = DroppedFuture).
Proof.
  intros h m stack md sm cx W. exact (@FrontProofs.init_log m stack md h W sm cx).
Qed.
Print Assumptions C08_init_enters_path.

(** C08, histories: if nothing aborts, the log starts with the one initialization (or there
    was no call that needs one); everything else is a history of an initialized machine, for
    which `init` does nothing (C09). *)
Theorem C08_init_once :
  forall (h : hierarchy) (m : machine) (stack : nat) (md : mode) (ops : list (op m))
         (sm : state_machine m) (cs : list (called m)) (sm' : state_machine m),
    well_formed h m stack -> initialized sm = false -> history stack md ops sm cs sm' ->
    Forall (@calm m) ops -> completed cs ->
    (log_of cs = [] /\ initialized sm' = false /\
     Forall (fun o => match o with OpInit _ | OpHandle _ _ => False | _ => True end) ops) \/
    (exists p t0 sm1 ops1 cs1,
        path h (s_disc m (sm_state sm)) p /\ acts t0 = map Enter p /\
        forallb (@is_enter m) t0 = true /\
        log_of cs = t0 ++ log_of cs1 /\ initialized sm1 = true /\
        history stack md ops1 sm1 cs1 sm' /\ length ops1 <= length ops).
Proof.
  intros h m stack md ops sm cs sm' W. exact (@FrontProofs.init_once m stack md h W ops sm cs sm').
Qed.
Print Assumptions C08_init_once.

Example C08_case :
  let r := init_with_context 2 AwaitableMode (fresh true) 0 in
  initialized (fresh true) = false /\ a_out r = Ret tt /\
  acts (a_tr r) = [Enter (AtSuper 1); Enter (AtSuper 0); Enter (AtState 0)] /\
  path demo_hierarchy 0 [AtSuper 1; AtSuper 0; AtState 0].
Proof.
  repeat split; try (vm_compute; reflexivity).
  exists [0; 1]. split; [repeat constructor|reflexivity].
Qed.

(** C09.  No assumption on the machine. *)
Theorem C09_init_idempotent :
  forall (m : machine) (stack : nat) (md : mode) (sm : state_machine m) (cx : Ctx m),
    initialized sm = true -> init_with_context stack md sm cx = ApiRes (Ret tt) sm cx [].
Proof. exact HistoryProofs.init_idempotent. Qed.
Print Assumptions C09_init_idempotent.

Theorem C09_init_then_initialized :
  forall (m : machine) (stack : nat) (md : mode) (sm : state_machine m) (cx : Ctx m),
    a_out (init_with_context stack md sm cx) = Ret tt ->
    initialized (a_machine (init_with_context stack md sm cx)) = true.
Proof. exact HistoryProofs.init_initializes. Qed.
Print Assumptions C09_init_then_initialized.

Theorem C09_handle_is_init_then_handle :
  forall (m : machine) (stack : nat) (md : mode) (sm : state_machine m) (e : Event m) (cx : Ctx m),
    handle_with_context stack md sm e cx =
    and_then (init_with_context stack md sm cx)
             (fun sm' cx' => handle_with_context stack md sm' e cx').
Proof. exact HistoryProofs.handle_is_init_then_handle. Qed.
Print Assumptions C09_handle_is_init_then_handle.

(** Handling never makes the machine uninitialized again, even when the handling panics: after any
    number of events [init] has no effect, unless the initialization itself had not come to its end. *)
Theorem C09_handle_then_init :
  forall (m : machine) (stack : nat) (md : mode) (sm : state_machine m) (es : list (Event m * Ctx m))
         (e : Event m) (cx cx' : Ctx m),
    initialized sm = true \/ a_out (init_with_context stack md sm cx) = Ret tt ->
    let first := a_machine (handle_with_context stack md sm e cx) in
    let last := fold_left (fun sm' ecx => a_machine (handle_with_context stack md sm' (fst ecx) (snd ecx))) es first in
    init_with_context stack md last cx' = ApiRes (Ret tt) last cx' [].
Proof.
  intros m stack md sm es e cx cx' H first last. apply C09_init_idempotent. subst last.
  assert (I1 : initialized first = true).
  { subst first. unfold handle_with_context. unfold init_with_context in H.
    destruct (initialized sm) eqn:I; cbn [negb] in *; [exact I|].
    destruct H as [H|H]; [discriminate|]. cbv zeta in *. destruct (a_out (run_inner _ _ _)) eqn:E; [reflexivity|].
    cbn in H, E. congruence. }
  clearbody first. clear H sm e cx. revert first I1. induction es as [|[e c] es IH]; intros first I1; [exact I1|].
  cbn [fold_left fst snd]. apply IH. unfold handle_with_context. now rewrite I1.
Qed.
Print Assumptions C09_handle_then_init.

Example C09_case :
  initialized (running true (On 1) []) = true /\
  a_tr (init_with_context 2 BlockingMode (fresh true) 0) <> [] /\
  a_out (handle_with_context 2 BlockingMode (fresh true) Timer 0) = Ret tt /\
  a_out (init_with_context 2 BlockingMode (fresh true) 0) = Ret tt.
Proof. repeat split; vm_compute; try reflexivity. discriminate. Qed.

(** C10.  The typestate front end, the lazy one with an explicit `init`, and the lazy one
    without (whose first call does the initialization). *)
Theorem C10_front_ends_agree :
  forall (m : machine) (stack : nat) (md : mode) (sh : Shared m) (cx : Ctx m) (e : Event m)
         (evs : list (Event m * Ctx m)),
    let sm := new_state_machine m sh in
    match um_init_with_context stack md (new_uninitialized m sh) cx with
    | (Ret im, cx', tr) =>
        init_with_context stack md sm cx = ApiRes (Ret tt) (erase im) cx' tr /\
        (sm_handles stack md (erase im) evs =
           let '(im', cs) := im_handles stack md im evs in (erase im', cs)) /\
        (sm_handles stack md sm ((e, cx) :: evs) =
           let '(im', cs) := im_handles stack md im ((e, cx') :: evs) in
           (erase im', match cs with
                       | c :: cs' => Called (c_out c) (c_cx c) (tr ++ c_tr c) :: cs'
                       | [] => [] end))
    | (Abort w, cx', tr) =>
        a_out (init_with_context stack md sm cx) = Abort w /\
        a_cx (init_with_context stack md sm cx) = cx' /\
        a_tr (init_with_context stack md sm cx) = tr
    end.
Proof. exact FrontProofs.front_ends_agree. Qed.
Print Assumptions C10_front_ends_agree.

(** Also if storage or state are written before the initialization, and for a machine made by
    `Default`. *)
Theorem C10_written_before_init :
  forall (m : machine) (stack : nat) (md : mode) (sh : Shared m) (cx : Ctx m)
         (f : State m -> State m) (g : Shared m -> Shared m),
    default_state_machine m sh = new_state_machine m sh /\
    let um := um_state_mut f (um_inner_mut g (new_uninitialized m sh)) in
    let sm := state_mut f (inner_mut g (new_state_machine m sh)) in
    um_init_with_context stack md um cx =
    let r := init_with_context stack md sm cx in
    (match a_out r with
     | Ret _ => Ret (InitializedMachine (sm_inner (a_machine r)))
     | Abort w => Abort w
     end, a_cx r, a_tr r).
Proof.
  intros m stack md sh cx f g. split; [reflexivity|]. intros um sm. subst um sm.
  unfold um_init_with_context, init_with_context. cbn [negb initialized state_mut inner_mut new_state_machine].
  destruct (@run_inner m (inner_init m stack md) _ cx) as [[[]|w] i c t]; reflexivity.
Qed.
Print Assumptions C10_written_before_init.

Example C10_case :
  exists im cx' tr, um_init_with_context 2 AwaitableMode (new_uninitialized (demo true) []) 0 =
                    (Ret im, cx', tr) /\ length tr = 3.
Proof. do 3 eexists. split; [vm_compute; reflexivity|reflexivity]. Qed.

(** C19.  Aborted initialization: the machine still counts as uninitialized, a `handle`
    does the same (so its event is not dispatched), and the next attempt starts from the
    root. *)
Theorem C19_aborted_init :
  forall (h : hierarchy) (m : machine) (stack : nat) (md : mode) (sm : state_machine m)
         (cx : Ctx m) (w : why),
    well_formed h m stack -> initialized sm = false ->
    let r := init_with_context stack md sm cx in
    a_out r = Abort w ->
    initialized (a_machine r) = false /\
    (forall e, handle_with_context stack md sm e cx = r) /\
    exists p, path h (s_disc m (sm_state sm)) p /\ forallb (@is_enter m) (a_tr r) = true /\
      prefix (acts (a_tr r)) (map Enter p) /\
      forall cx2, let r2 := init_with_context stack md (a_machine r) cx2 in
        prefix (acts (a_tr r2)) (map Enter p) /\ (a_out r2 = Ret tt -> acts (a_tr r2) = map Enter p).
Proof.
  intros h m stack md sm cx w W. exact (@FrontProofs.init_aborted m stack md h W sm cx w).
Qed.
Print Assumptions C19_aborted_init.

Theorem C19_initialized_after_handle :
  forall (h : hierarchy) (m : machine) (stack : nat) (md : mode) (sm : state_machine m)
         (e : Event m) (cx : Ctx m),
    well_formed h m stack ->
    let r := handle_with_context stack md sm e cx in
    initialized (a_machine r) = true <->
    initialized sm = true \/ a_out (init_with_context stack md sm cx) = Ret tt.
Proof.
  intros h m stack md sm e cx W. exact (@FrontProofs.handle_initialized m stack md h W sm e cx).
Qed.
Print Assumptions C19_initialized_after_handle.

Example C19_case :
  let r := init_with_context 2 AwaitableMode (fresh true) 14 in
  a_out r = Abort Panicked /\ acts (a_tr r) = [Enter (AtSuper 1); Enter (AtSuper 0)] /\
  a_out (init_with_context 2 AwaitableMode (a_machine r) 0) = Ret tt /\
  a_out (init_with_context 2 AwaitableMode (fresh true) 15) = Abort DroppedFuture.
Proof. repeat split; vm_compute; reflexivity. Qed.

(** C20 is false: a panic caught during an exit action, then another event. *)
Definition C20_ops : list (op (demo true)) :=
  [OpInit (m := demo true) 0; OpHandle (m := demo true) Button 12; OpHandle (m := demo true) Timer 0].

Theorem C20_bracketing_survives_aborts_refuted :
  exists (h : hierarchy) (m : machine) (stack : nat) (ops : list (op m)) (sm : state_machine m),
    well_formed h m stack /\ faithful_views m /\ initialized sm = false /\
    Forall (@calm m) ops /\
    forall md, exists cs sm', history stack md ops sm cs sm' /\
      forall stk, ~ replay [] (acts (log_of cs)) stk.
Proof.
  exists demo_hierarchy, (demo true), 2, C20_ops, (fresh true).
  split; [apply demo_well_formed|]. split; [apply demo_views|]. split; [reflexivity|].
  split; [repeat constructor|].
  intros md. exists (fst (exec_all 2 md C20_ops (fresh true))),
    (snd (exec_all 2 md C20_ops (fresh true))).
  split; [apply HistoryProofs.exec_all_history|].
  intros stk H. apply RouteProofs.replay_run_stack in H.
  assert (N : RouteProofs.run_stack [] (acts (log_of (fst (exec_all 2 md C20_ops (fresh true))))) = None)
    by (destruct md; vm_compute; reflexivity).
  change (rev []) with (@nil place) in H. rewrite N in H. discriminate H.
Qed.
Print Assumptions C20_bracketing_survives_aborts_refuted.

(** Also an aborted initialization that is retried: the outermost entry action runs twice,
    so the stack is not the active path. *)
Theorem C20_retried_init_refuted :
  exists (h : hierarchy) (m : machine) (stack : nat) (ops : list (op m)) (sm : state_machine m),
    well_formed h m stack /\ faithful_views m /\ initialized sm = false /\
    forall md, exists cs sm', history stack md ops sm cs sm' /\ initialized sm' = true /\
      forall stk, replay [] (acts (log_of cs)) stk -> ~ path h (s_disc m (sm_state sm')) stk.
Proof.
  exists demo_hierarchy, (demo true), 2,
    [OpInit (m := demo true) 14; OpInit (m := demo true) 0], (fresh true).
  split; [apply demo_well_formed|]. split; [apply demo_views|]. split; [reflexivity|].
  assert (G : forall stk, replay []
     (map Enter [AtSuper 1; AtSuper 0; AtSuper 1; AtSuper 0; AtState 0]) stk ->
     ~ path demo_hierarchy 0 stk).
  { intros stk H Hp. apply RouteProofs.path_NoDup in Hp. apply RouteProofs.replay_run_stack in H.
    apply NoDup_rev in Hp. set (q := rev stk) in *. clearbody q. vm_compute in H.
    injection H as H. rewrite <- H in Hp. inversion Hp as [|? ? ? Hp1]. inversion Hp1 as [|? ? Hn ?].
    apply Hn. simpl. auto. }
  intros md. set (ops := [OpInit (m := demo true) 14; OpInit (m := demo true) 0]).
  exists (fst (exec_all 2 md ops (fresh true))), (snd (exec_all 2 md ops (fresh true))).
  split; [apply HistoryProofs.exec_all_history|].
  assert (E : initialized (snd (exec_all 2 md ops (fresh true))) = true /\
    s_disc (demo true) (sm_state (snd (exec_all 2 md ops (fresh true)))) = 0 /\
    acts (log_of (fst (exec_all 2 md ops (fresh true)))) =
    map Enter [AtSuper 1; AtSuper 0; AtSuper 1; AtSuper 0; AtState 0])
    by (destruct md; vm_compute; auto).
  destruct E as (E1 & E2 & E3). rewrite E1, E2, E3. split; [reflexivity|exact G].
Qed.
Print Assumptions C20_retried_init_refuted.

(** C20, the part that holds: calls may be aborted, as long as it is not an entry or exit
    action that aborts. *)
Theorem C20_bracketed_partial :
  forall (h : hierarchy) (m : machine) (stack : nat) (md : mode) (ops : list (op m))
         (sm : state_machine m) (cs : list (called m)) (sm' : state_machine m),
    well_formed h m stack -> initialized sm = false -> history stack md ops sm cs sm' ->
    Forall (@calm m) ops -> Forall (fun c => ~ aborted_in_action c) cs ->
    exists stk,
      (if initialized sm' then path h (s_disc m (sm_state sm')) stk else stk = []) /\
      replay [] (acts (log_of cs)) stk.
Proof.
  intros h m stack md ops sm cs sm' W.
  exact (@HistoryProofs.history_from_start_any h m stack W md ops sm cs sm').
Qed.
Print Assumptions C20_bracketed_partial.

Example C20_case :
  exists cs sm', history 2 AwaitableMode
    [OpHandle (m := demo true) Timer 0; OpHandle (m := demo true) Boom 0;
     OpHandle (m := demo true) Timer 0] (fresh true) cs sm' /\
    Forall (fun c => ~ aborted_in_action c) cs /\
    map c_out cs = [Ret tt; Abort Panicked; Ret tt].
Proof.
  set (ops := [OpHandle (m := demo true) Timer 0; OpHandle (m := demo true) Boom 0;
               OpHandle (m := demo true) Timer 0]).
  exists (fst (exec_all 2 AwaitableMode ops (fresh true))),
    (snd (exec_all 2 AwaitableMode ops (fresh true))).
  split; [apply HistoryProofs.exec_all_history|]. split; [|vm_compute; reflexivity].
  set (good := fun c : called (demo true) =>
    match c_out c with
    | Ret _ => true
    | Abort _ => negb (is_action (last (c_tr c) (OReturn Super)))
    end).
  assert (E : forallb good (fst (exec_all 2 AwaitableMode ops (fresh true))) = true)
    by (vm_compute; reflexivity).
  rewrite forallb_forall in E. apply Forall_forall. intros c Hc [Hn (tr & o & Ht & Ho)].
  specialize (E c Hc). unfold good in E. rewrite Ht, last_last in E.
  destruct (c_out c) as [[]|w]; [now apply Hn|]. destruct o; discriminate E || exact Ho.
Qed.

(** C42.  `inner_mut` (and variant-preserving `state_mut`) anywhere in a history are covered
    by C07; setting the state before initialization makes initialization enter the new
    state's path. *)
Theorem C42_state_mut_before_init :
  forall (h : hierarchy) (m : machine) (stack : nat) (md : mode) (sm : state_machine m)
         (f : State m -> State m) (g : Shared m -> Shared m) (cx : Ctx m),
    well_formed h m stack -> initialized sm = false ->
    let r := init_with_context stack md (state_mut f (inner_mut g sm)) cx in
    a_out r = Ret tt ->
    exists p, path h (s_disc m (f (sm_state sm))) p /\ acts (a_tr r) = map Enter p /\
      s_disc m (sm_state (a_machine r)) = s_disc m (f (sm_state sm)).
Proof.
  intros h m stack md sm f g cx W. exact (@FrontProofs.state_mut_before_init m stack md h W sm f g cx).
Qed.
Print Assumptions C42_state_mut_before_init.

Example C42_case :
  let sm := state_mut (m := demo true) (fun _ => Idle 4) (inner_mut (m := demo true) (fun _ => [9]) (fresh true)) in
  let r := init_with_context 2 BlockingMode sm 0 in
  a_out r = Ret tt /\ acts (a_tr r) = [Enter (AtSuper 1); Enter (AtState 2)].
Proof. repeat split; vm_compute; reflexivity. Qed.

(** Replacing the state of an initialized machine by another variant (`state_mut`, an
    `unsafe fn`) does break the bracketing. *)
Theorem C42_state_mut_after_init_breaks :
  exists (h : hierarchy) (m : machine) (stack : nat) (ops : list (op m)) (sm : state_machine m),
    well_formed h m stack /\ faithful_views m /\ initialized sm = false /\
    forall md, exists cs sm', history stack md ops sm cs sm' /\ completed cs /\
      forall stk, ~ replay [] (acts (log_of cs)) stk.
Proof.
  exists demo_hierarchy, (demo true), 2,
    [OpInit (m := demo true) 0; OpStateMut (m := demo true) (fun _ => Idle 0);
     OpHandle (m := demo true) Button 0], (fresh true).
  split; [apply demo_well_formed|]. split; [apply demo_views|]. split; [reflexivity|].
  intros md. set (ops := [OpInit (m := demo true) 0;
     OpStateMut (m := demo true) (fun _ => Idle 0); OpHandle (m := demo true) Button 0]).
  exists (fst (exec_all 2 md ops (fresh true))), (snd (exec_all 2 md ops (fresh true))).
  split; [apply HistoryProofs.exec_all_history|].
  assert (E : map c_out (fst (exec_all 2 md ops (fresh true))) = [Ret tt; Ret tt; Ret tt] /\
    RouteProofs.run_stack [] (acts (log_of (fst (exec_all 2 md ops (fresh true))))) = None)
    by (destruct md; vm_compute; auto).
  destruct E as [E1 E2]. split.
  - unfold completed. apply Forall_forall. intros c Hc. apply (in_map c_out) in Hc.
    rewrite E1 in Hc. simpl in Hc. intuition.
  - intros stk H. apply RouteProofs.replay_run_stack in H.
    change (rev []) with (@nil place) in H. rewrite E2 in H. discriminate H.
Qed.
Print Assumptions C42_state_mut_after_init_breaks.
