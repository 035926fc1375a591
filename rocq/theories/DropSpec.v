(** DropSpec.v — reading a log with drops.  Specification only. *)

From Coq Require Import List Bool Arith Permutation.
From Verif Require Import Machine Api Drops.
Import ListNotations.
Set Implicit Arguments.

Section Drop.
  Variable m : machine.

  (** The calls, the values dropped, and the values that handlers returned as targets. *)
  Definition call_in (ev : event_of m) : list (obs m) := match ev with Did o => [o] | Dropped _ => [] end.
  Definition calls_in (t : list (event_of m)) : list (obs m) := flat_map call_in t.
  Definition drop_in (ev : event_of m) : list (State m) := match ev with Did _ => [] | Dropped s => [s] end.
  Definition drops_in (t : list (event_of m)) : list (State m) := flat_map drop_in t.
  Definition target_in (ev : event_of m) : list (State m) :=
    match ev with Did (OReturn (Transition t)) => [t] | _ => [] end.
  Definition targets_in (t : list (event_of m)) : list (State m) := flat_map target_in t.

  (** [mark] is a part of the state (a file handle, a lock guard, a serial number) that stays with
      the value for its whole life: no handler or action, also of a superstate, replaces it. *)
  Record keeps_mark {T : Type} (mark : State m -> T) : Prop := {
    km_handler : forall x sh cx e r x' sh' cx', s_handler m x sh cx e = (r, x', sh', cx') -> mark x' = mark x;
    km_entry : forall x sh cx r x' sh' cx', s_entry m x sh cx = (r, x', sh', cx') -> mark x' = mark x;
    km_exit : forall x sh cx r x' sh' cx', s_exit m x sh cx = (r, x', sh', cx') -> mark x' = mark x;
    km_put : forall x v, mark (s_put m x v) = mark x
  }.

  (** Nor does the client. *)
  Definition keeps_marks {T : Type} (mark : State m -> T) (o : op m) : Prop :=
    match o with OpStateMut f => forall x, mark (f x) = mark x | _ => True end.

  (** The call did not end by running out of stack. *)
  Definition unwound (out : outcome unit) : Prop := out <> Abort Diverges.

End Drop.
