(** AnySpec.v — machines that keep to no rules; vocabulary of C68.  Superstates may depend on
    data and callbacks may overwrite their node with another variant. *)

From Coq Require Import List Bool Arith.
From Verif Require Import Machine Api Spec.
Import ListNotations.
Set Implicit Arguments.

Section Any.
  Variable m : machine.

  (** All that is asked for: going up ends, after at most [n] superstates, also if the handlers of
      superstates overwrite what they run on. *)
  Record goes_up (n : nat) (rank : Sup m -> nat) : Prop := {
    gu_up : forall u v, u_super m u = Some v -> rank v < rank u;
    gu_handler : forall u sh cx e r u' sh' cx',
      u_handler m u sh cx e = (r, u', sh', cx') -> rank u' <= rank u;
    gu_bound : forall u, rank u < n
  }.

  (** The answers in a log, and the number of handlers called. *)
  Definition answers_in (t : list (obs m)) : list (response (State m)) :=
    flat_map (fun o => match o with OReturn r => [r] | _ => [] end) t.
  Definition handlers_in (t : list (obs m)) : nat :=
    length (filter (fun o => match o with OHandler _ _ => true | _ => false end) t).

  (** The log of one dispatch: at most [n] handlers; all answers but the last are "super". *)
  Definition dispatches (n : nat) (t : list (obs m)) : Prop :=
    forallb (fun o => is_dispatch_hook o || is_handler o) t = true /\ handlers_in t <= n /\
    (forall r, In r (removelast (answers_in t)) -> r = Super).

  (** The log of a transition that ended with [o] in the state [x]: the hook, at most [n] exits
      starting with the leaf, at most [n] entries ending with the leaf, the other hook. *)
  Definition transits (n : nat) (o : outcome unit) (x : State m) (t : list (obs m)) : Prop :=
    exists a b xs ys zs,
      t = OBeforeTransition a b :: xs ++ ys ++ zs /\
      forallb (@is_exit m) xs = true /\ length xs <= n /\
      (xs = [] \/ exists s l, xs = OExit (NState s) :: l) /\
      forallb (@is_enter m) ys = true /\ length ys <= n /\ (xs = [] -> ys = []) /\
      (zs = [] \/ exists l s c, ys = l ++ [OEnter (NState s)] /\ zs = [OAfterTransition c x]) /\
      (o = Ret tt -> zs <> []).
End Any.
