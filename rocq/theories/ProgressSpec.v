(** ProgressSpec.v — goals that events lead to; vocabulary of C92.  No proofs here. *)

From Coq Require Import List Bool Arith.
From Verif Require Import Machine Api Spec.
Import ListNotations.
Set Implicit Arguments.

Section Progress.
  Variable h : hierarchy.
  Variable m : machine.

  (** The handler of the state or superstate [p] can answer the event with [r]: some value of [p],
      with some storage and context. *)
  Definition can_answer (p : place) (e : Event m) (r : response (State m)) : Prop :=
    exists n sh cx n' sh' cx',
      place_of m n = p /\ node_handler m n sh cx e = (Returns r, n', sh', cx').

  (** In the leaf [s] the event [e] leads to a leaf in [G]: one of the handlers around [s], that of
      [p], does not pass [e] on, and it and those inside it ask for a transition to [G] if they do
      anything about [e]. *)
  Definition leads_to (s : nat) (e : Event m) (G : nat -> Prop) : Prop :=
    exists inside p outside,
      upward h s (inside ++ p :: outside) /\
      (forall q r, In q (inside ++ [p]) -> can_answer q e r ->
                   r = Super \/ exists t, r = Transition t /\ G (s_disc m t)) /\
      ~ can_answer p e Super.

  (** In the leaf [s] the event [e] leads nowhere outside [G]: if it leads anywhere, then to [G]. *)
  Definition leads_only_to (s : nat) (e : Event m) (G : nat -> Prop) : Prop :=
    forall up q t, upward h s up -> In q up -> can_answer q e (Transition t) -> G (s_disc m t).

  (** The event of the operation, if it hands one to the machine, is in [E]. *)
  Definition event_in (E : Event m -> Prop) (o : op m) : Prop :=
    match o with OpHandle e _ => E e | _ => True end.

  (** How many of the operations were calls of `handle` that returned. *)
  Fixpoint handled (ops : list (op m)) (cs : list (called m)) : nat :=
    match ops, cs with
    | OpHandle _ _ :: ops', Called (Ret _) _ _ :: cs' => S (handled ops' cs')
    | _ :: ops', _ :: cs' => handled ops' cs'
    | _, _ => 0
    end.
End Progress.
Arguments can_answer : clear implicits.
Arguments leads_to : clear implicits.
Arguments leads_only_to : clear implicits.
Arguments event_in : clear implicits.
Arguments handled : clear implicits.
