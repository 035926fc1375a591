(** Props40.v — C91: events from a queue.  Theorems only; see QueueSpec.v. *)

From Coq Require Import List Bool Arith Lia.
From Verif Require Import Machine Api Spec NestSpec QueueSpec.
From Verif Require QueueProofs.
Import ListNotations.

(** C91.  If callbacks only append to the queue, then whatever the machine does, panics included, the
    loop handles the events in the order in which they were queued, each once, and loses none: those
    queued at first, followed by those posted in each turn, are those handled so far, followed by those
    still in the queue. *)
Theorem C91_fifo :
  forall (m : machine) (queue : Ctx m -> list (Event m)) (set_queue : Ctx m -> list (Event m) -> Ctx m),
    (forall cx q, queue (set_queue cx q) = q) -> only_post m queue ->
    forall (stack : nat) (md : mode) (sm sm' : state_machine m) (cx cx' : Ctx m) (ts : list (turn m)),
      loop stack md queue set_queue sm cx ts sm' cx' ->
      exists posted : list (list (Event m)),
        Forall2 (fun t p => exists own, p = own ++ t_news t) ts posted /\
        queue cx ++ concat posted = map (@t_event m) ts ++ queue cx'.
Proof.
  intros m queue set_queue QS P stack md sm sm' cx cx' ts H.
  exact (QueueProofs.loop_fifo m stack md queue set_queue QS sm cx ts sm' cx' P H).
Qed.
Print Assumptions C91_fifo.

(** Each event is handled to completion before the next: the loop is a history of calls, one for each
    turn, of which all else that is proved about histories holds. *)
Theorem C91_history :
  forall (m : machine) (queue : Ctx m -> list (Event m)) (set_queue : Ctx m -> list (Event m) -> Ctx m)
         (stack : nat) (md : mode) (sm sm' : state_machine m) (cx cx' : Ctx m) (ts : list (turn m)),
    loop stack md queue set_queue sm cx ts sm' cx' ->
    exists ops cs, history stack md ops sm cs sm' /\ length ops = length ts /\ length cs = length ts /\
      Forall2 (fun t oc => same_call t (fst oc) (snd oc)) ts (combine ops cs).
Proof.
  intros m queue set_queue stack md sm sm' cx cx' ts H.
  destruct (QueueProofs.loop_history m stack md queue set_queue sm cx ts sm' cx' H) as (ops & cs & A & B & C & D).
  exists ops, cs. auto.
Qed.
Print Assumptions C91_history.

(** If handling an event posts only smaller ones, then the loop gets done, from every state of the
    machine and every queue, unless events keep coming from outside. *)
Theorem C91_done :
  forall (m : machine) (queue : Ctx m -> list (Event m)) (set_queue : Ctx m -> list (Event m) -> Ctx m)
         (stack : nat) (md : mode) (rank : Event m -> nat),
    (forall cx q, queue (set_queue cx q) = q) -> only_post m queue -> posts_smaller m stack md queue rank ->
    forall (sm : state_machine m) (cx : Ctx m),
      exists ts sm' cx', loop stack md queue set_queue sm cx ts sm' cx' /\
        Forall (fun t => t_news t = []) ts /\ queue cx' = [].
Proof.
  intros m queue set_queue stack md rank QS P PS sm cx.
  apply (QueueProofs.drains m stack md queue set_queue QS rank P PS (S (list_max (map rank (queue cx))))).
  assert (B := proj1 (list_max_le (map rank (queue cx)) _) (le_n _)). rewrite Forall_map in B.
  refine (Forall_impl _ _ B). intros a Ha. cbn in Ha. lia.
Qed.
Print Assumptions C91_done.

(** A machine whose context is the queue.  The event [k + 1] makes the leaf post [k]; on 0 the
    superstate asks for a transition, and on 3 it panics. *)
Definition countdown : machine := {|
  State := bool; Sup := bool; Shared := unit; Event := nat; Ctx := list nat; initial := false;
  s_disc := fun b => if b then 1 else 0; u_disc := fun _ => 0;
  s_super := fun b => Some b; s_put := fun _ u => u; u_super := fun _ => None; u_put := fun u _ => u;
  s_handler := fun b sh q e => (Returns Super, b, sh, q ++ match e with 0 => [] | S k => [k] end);
  s_entry := no_action; s_exit := no_action;
  u_handler := fun b sh q e =>
    (match e with 0 => Returns (Transition (negb b)) | 3 => Panics | _ => Returns Handled end, b, sh, q);
  u_entry := no_action; u_exit := no_action;
  h_before_dispatch := no_dispatch_hook; h_after_dispatch := no_dispatch_hook;
  h_before_transition := no_transition_hook; h_after_transition := no_transition_hook
|}.

Lemma countdown_posts md (sm : state_machine countdown) e q :
  a_cx (handle_with_context 1 md sm e q) = q ++ match e with 0 => [] | S k => [k] end.
Proof. destruct sm as [[[] b] i], md, b, i, e as [|[|[|[|e]]]]; reflexivity. Qed.

Example C91_case :
  let queue := (fun q : Ctx countdown => q : list (Event countdown)) in
  only_post countdown queue /\ (forall md, posts_smaller countdown 1 md queue (fun e => e)) /\
  exists sm' ts,
    loop 1 BlockingMode queue (fun _ q => q) (new_state_machine countdown tt) [1; 4] ts sm' [1; 7] /\
    map (@t_event countdown) ts = [1; 4; 0; 3; 9; 2; 8] /\
    map (@t_out countdown) ts = [Ret tt; Ret tt; Ret tt; Abort Panicked; Ret tt; Ret tt; Ret tt].
Proof.
  cbv zeta. split; [|split].
  - split; intros; cbn; try (exists []; now rewrite app_nil_r). now eexists.
  - intros md sm e q own. rewrite countdown_posts. intros H. apply app_inv_head in H. subst own.
    destruct e; repeat constructor.
  - eexists _, _. split.
    + eapply loop_turn with (news := []); [reflexivity|reflexivity|].
      eapply loop_turn with (news := [9]); [reflexivity|reflexivity|].
      eapply loop_turn with (news := []); [reflexivity|reflexivity|].
      eapply loop_turn with (news := []); [reflexivity|reflexivity|].
      eapply loop_turn with (news := []); [reflexivity|reflexivity|].
      eapply loop_turn with (news := []); [reflexivity|reflexivity|].
      eapply loop_turn with (news := []); [reflexivity|reflexivity|].
      vm_compute. apply loop_stop.
    + split; vm_compute; reflexivity.
Qed.
