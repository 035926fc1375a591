(** DiagramSpec.v — state diagrams; vocabulary of C90.  No proofs here. *)

From Coq Require Import List Bool Arith.
From Verif Require Import Machine Api Spec.
Import ListNotations.
Set Implicit Arguments.

Section Diagram.
  Variable h : hierarchy.
  Variable m : machine.

  (** The node [n] is (a value of) the leaf [s] or of one of the superstates around it. *)
  Definition belongs_to (s : nat) (n : node (State m) (Sup m)) : Prop :=
    exists p, path h s p /\ In (place_of m n) p.

  (** The diagram has an arrow from the leaf [s] to the leaf [t] if the handler of [s], or of a
      superstate around it, can ask for a transition to [t]: on some event, with some storage. *)
  Definition arrow (s t : nat) : Prop :=
    exists n sh cx e target n' sh' cx',
      belongs_to s n /\ node_handler m n sh cx e = (Returns (Transition target), n', sh', cx') /\
      s_disc m target = t.

  (** There is a way from [s] to [t]. *)
  Inductive way (s : nat) : nat -> Prop :=
  | way_here : way s s
  | way_on t u : way s t -> arrow t u -> way s u.

  (** The call in the log is of a node (or shows a dispatch hook a node) that belongs to [s], or a
      handler's answer along an arrow from [s].  (For the arguments of transition hooks see C11,
      C12.) *)
  Definition within (s : nat) (o : obs m) : Prop :=
    match o with
    | OHandler n _ | OEnter n | OExit n | OBeforeDispatch n _ | OAfterDispatch n _ => belongs_to s n
    | OReturn (Transition t) => arrow s (s_disc m t)
    | OReturn _ | OBeforeTransition _ _ | OAfterTransition _ _ => True
    end.
End Diagram.
Arguments belongs_to : clear implicits.
Arguments arrow : clear implicits.
Arguments way : clear implicits.
Arguments within : clear implicits.
