(** PaceSpec.v — how long the user's futures stay pending; vocabulary of C87.  No proofs here. *)

From Coq Require Import List Bool Arith.
From Verif Require Import Machine Api Poll WorkSpec.
Import ListNotations.
Set Implicit Arguments.

(** [pends lo hi f s]: the future [f], polled on the store [s] (which it has borrowed), answers
    `Pending` at least [lo] and at most [hi] times before it is ready, whatever the worlds. *)
Fixpoint pends {World S A : Type} (lo hi : nat) (f : ufut World S A) (s : S) {struct hi} : Prop :=
  forall w : World,
    match upoll f w s with
    | UReady _ _ => lo = 0
    | UPending s' f' => match hi with 0 => False | S hi' => pends (pred lo) hi' f' s' end
    end.

Section Pace.
  Variable World : Type.
  Variable m : machine.

  (** The future of each callback answers `Pending` at least [lo] and at most [hi] times, where
      both may depend on the node, the event and so on. *)
  Record paced (lo hi : obs m -> nat) (F : futures World m) : Prop := {
    pa_s_handler : forall e x sh cx,
      pends (lo (OHandler (NState x) e)) (hi (OHandler (NState x) e)) (f_s_handler F e) (x, sh, cx);
    pa_s_entry : forall x sh cx,
      pends (lo (OEnter (NState x))) (hi (OEnter (NState x))) (f_s_entry F) (x, sh, cx);
    pa_s_exit : forall x sh cx,
      pends (lo (OExit (NState x))) (hi (OExit (NState x))) (f_s_exit F) (x, sh, cx);
    pa_u_handler : forall e u sh cx,
      pends (lo (OHandler (NSuper u) e)) (hi (OHandler (NSuper u) e)) (f_u_handler F e) (u, sh, cx);
    pa_u_entry : forall u sh cx,
      pends (lo (OEnter (NSuper u))) (hi (OEnter (NSuper u))) (f_u_entry F) (u, sh, cx);
    pa_u_exit : forall u sh cx,
      pends (lo (OExit (NSuper u))) (hi (OExit (NSuper u))) (f_u_exit F) (u, sh, cx);
    pa_before_dispatch : forall n e sh,
      pends (lo (OBeforeDispatch n e)) (hi (OBeforeDispatch n e)) (f_before_dispatch F n e) sh;
    pa_after_dispatch : forall n e sh,
      pends (lo (OAfterDispatch n e)) (hi (OAfterDispatch n e)) (f_after_dispatch F n e) sh;
    pa_before_transition : forall a b sh,
      pends (lo (OBeforeTransition a b)) (hi (OBeforeTransition a b)) (f_before_transition F a b) sh;
    pa_after_transition : forall a b sh,
      pends (lo (OAfterTransition a b)) (hi (OAfterTransition a b)) (f_after_transition F a b) sh
  }.

  (** The sum over the calls in a log. *)
  Definition total (k : obs m -> nat) (tr : list (obs m)) : nat :=
    list_sum (map k (filter (@is_call m) tr)).
End Pace.
