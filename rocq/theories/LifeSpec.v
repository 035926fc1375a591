(** LifeSpec.v — reading the log of a machine's life.  Specification only. *)

From Coq Require Import List Bool Arith.
From Verif Require Import Machine Api Drops DropSpec Life.
Import ListNotations.
Set Implicit Arguments.

Section LifeSpec.
  Variable m : machine.

  Definition plain_event (ev : life_event m) : list (event_of m) :=
    match ev with Ev e => [e] | DroppedStorage _ => [] end.
  (** The states dropped, the targets asked for, and the storages dropped. *)
  Definition states_dropped (t : list (life_event m)) : list (State m) := drops_in (flat_map plain_event t).
  Definition targets_asked (t : list (life_event m)) : list (State m) := targets_in (flat_map plain_event t).
  Definition storages_dropped (t : list (life_event m)) : list (Shared m) :=
    flat_map (fun ev => match ev with Ev _ => [] | DroppedStorage sh => [sh] end) t.

  (** [mark] is a part of the shared storage that no callback and no hook replaces. *)
  Record keeps_storage {T : Type} (mark : Shared m -> T) : Prop := {
    ks_s_handler : forall x sh cx e r x' sh' cx', s_handler m x sh cx e = (r, x', sh', cx') -> mark sh' = mark sh;
    ks_s_entry : forall x sh cx r x' sh' cx', s_entry m x sh cx = (r, x', sh', cx') -> mark sh' = mark sh;
    ks_s_exit : forall x sh cx r x' sh' cx', s_exit m x sh cx = (r, x', sh', cx') -> mark sh' = mark sh;
    ks_u_handler : forall x sh cx e r x' sh' cx', u_handler m x sh cx e = (r, x', sh', cx') -> mark sh' = mark sh;
    ks_u_entry : forall x sh cx r x' sh' cx', u_entry m x sh cx = (r, x', sh', cx') -> mark sh' = mark sh;
    ks_u_exit : forall x sh cx r x' sh' cx', u_exit m x sh cx = (r, x', sh', cx') -> mark sh' = mark sh;
    ks_before_dispatch : forall sh n e r sh', h_before_dispatch m sh n e = (r, sh') -> mark sh' = mark sh;
    ks_after_dispatch : forall sh n e r sh', h_after_dispatch m sh n e = (r, sh') -> mark sh' = mark sh;
    ks_before_transition : forall sh a b r sh', h_before_transition m sh a b = (r, sh') -> mark sh' = mark sh;
    ks_after_transition : forall sh a b r sh', h_after_transition m sh a b = (r, sh') -> mark sh' = mark sh
  }.

  (** Nor does the client, through `inner_mut`. *)
  Definition keeps_storages {T : Type} (mark : Shared m -> T) (o : op m) : Prop :=
    match o with OpInnerMut f => forall sh, mark (f sh) = mark sh | _ => True end.

  (** Uses of the typestate machines, as uses of a `StateMachine`. *)
  Definition as_op (o : im_op m) : op m :=
    match o with IHandle e cx => OpHandle e cx | IInnerMut f => OpInnerMut f | IStateMut f => OpStateMut f end.
  Definition as_op_before (o : um_op m) : op m :=
    match o with UInnerMut f => OpInnerMut f | UStateMut f => OpStateMut f end.
End LifeSpec.
