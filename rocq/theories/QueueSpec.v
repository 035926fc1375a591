(** QueueSpec.v — the loop of README.md:507, "events are read from a queue and submitted to the state
    machine using the `handle()` method", with a queue that callbacks can post to; vocabulary of C91.
    The loop is client code, not part of statig.  No proofs here. *)

From Coq Require Import List Bool Arith.
From Verif Require Import Machine Api NestSpec.
Import ListNotations.
Set Implicit Arguments.

Section Queue.
  Variable m : machine.
  Variable stack : nat.
  Variable md : mode.
  (** The queue is (part of) the context. *)
  Variable queue : Ctx m -> list (Event m).
  Variable set_queue : Ctx m -> list (Event m) -> Ctx m.

  (** One turn of the loop: the event, how the call ended, the calls into user code, and the events
      that came in from outside before the next turn. *)
  Record turn : Type := Turn {
    t_event : Event m;
    t_out : outcome unit;
    t_tr : list (obs m);
    t_news : list (Event m)
  }.

  (** `while let Some(e) = cx.queue.pop_front() { sm.handle_with_context(&e, &mut cx) }`, stopped
      after any number of turns.  Panics are caught. *)
  Inductive loop : state_machine m -> Ctx m -> list turn -> state_machine m -> Ctx m -> Prop :=
  | loop_stop sm cx : loop sm cx [] sm cx
  | loop_turn sm cx e q out sm1 cx1 tr news ts sm' cx' :
      queue cx = e :: q ->
      exec stack md (OpHandle e (set_queue cx q)) sm = (out, sm1, Some cx1, tr) ->
      loop sm1 (set_queue cx1 (queue cx1 ++ news)) ts sm' cx' ->
      loop sm cx (Turn e out tr news :: ts) sm' cx'.

  (** Callbacks do nothing with the queue but `push_back`. *)
  Definition only_post : Prop :=
    callbacks_move m (fun p q => exists own, queue (snd q) = queue (snd p) ++ own).

  (** Handling an event posts only events of smaller [rank]. *)
  Definition posts_smaller (rank : Event m -> nat) : Prop :=
    forall sm e cx own,
      queue (a_cx (handle_with_context stack md sm e cx)) = queue cx ++ own ->
      Forall (fun e' => rank e' < rank e) own.

  (** The call of a history that is a turn of the loop. *)
  Definition same_call (t : turn) (o : op m) (c : called m) : Prop :=
    (exists cx, o = OpHandle (t_event t) cx) /\ c_out c = t_out t /\ c_tr c = t_tr t.
End Queue.
