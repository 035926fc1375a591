(** NestSpec.v — state machines that use other state machines; vocabulary of C89.  No proofs here. *)

From Coq Require Import List Bool Arith.
From Verif Require Import Machine Api.
Import ListNotations.
Set Implicit Arguments.

Section Moves.
  Variable m : machine.
  (** A relation on the shared storage and the context. *)
  Variable R : Shared m * Ctx m -> Shared m * Ctx m -> Prop.

  (** Every callback, however it ends and on whatever node, moves them along [R]. *)
  Record callbacks_move : Prop := {
    mv_s_handler : forall x sh cx e, let '(_, _, sh', cx') := s_handler m x sh cx e in R (sh, cx) (sh', cx');
    mv_s_entry : forall x sh cx, let '(_, _, sh', cx') := s_entry m x sh cx in R (sh, cx) (sh', cx');
    mv_s_exit : forall x sh cx, let '(_, _, sh', cx') := s_exit m x sh cx in R (sh, cx) (sh', cx');
    mv_u_handler : forall u sh cx e, let '(_, _, sh', cx') := u_handler m u sh cx e in R (sh, cx) (sh', cx');
    mv_u_entry : forall u sh cx, let '(_, _, sh', cx') := u_entry m u sh cx in R (sh, cx) (sh', cx');
    mv_u_exit : forall u sh cx, let '(_, _, sh', cx') := u_exit m u sh cx in R (sh, cx) (sh', cx');
    mv_before_dispatch : forall n e sh cx, R (sh, cx) (snd (h_before_dispatch m sh n e), cx);
    mv_after_dispatch : forall n e sh cx, R (sh, cx) (snd (h_after_dispatch m sh n e), cx);
    mv_before_transition : forall a b sh cx, R (sh, cx) (snd (h_before_transition m sh a b), cx);
    mv_after_transition : forall a b sh cx, R (sh, cx) (snd (h_after_transition m sh a b), cx)
  }.
End Moves.

Section Nested.
  (** The shared storage of [m] contains a machine of type [i], and [get] finds it, with a record of
      how the calls on it have ended and what user code they have called so far. *)
  Variables m i : machine.
  Variable stack : nat.
  Variable md : mode.
  Variable get : Shared m -> state_machine i * list (called i).
  (** Which calls are made, and how they may end. *)
  Variable fine : op i -> called i -> Prop.

  (** From [sh] to [sh'] the machine [i] was only used through its API, as it is [fine], and all the
      calls have been recorded. *)
  Definition only_uses (sh sh' : Shared m) : Prop :=
    exists ops cs, history stack md ops (fst (get sh)) cs (fst (get sh')) /\
                   snd (get sh') = snd (get sh) ++ cs /\ Forall2 fine ops cs.

  (** `inner_mut` does that too. *)
  Definition only_uses_op (o : op m) : Prop :=
    match o with OpInnerMut f => forall sh, only_uses sh (f sh) | _ => True end.
End Nested.
Arguments only_uses m {i} stack md get fine sh sh'.
Arguments only_uses_op m {i} stack md get fine o.
