(** BalanceSpec.v — counting entries and exits when calls may be aborted; vocabulary of C85.  No
    proofs here. *)

From Coq Require Import List Bool Arith.
From Verif Require Import Machine Api Spec.
Import ListNotations.
Set Implicit Arguments.

Definition place_eqb (p q : place) : bool :=
  match p, q with
  | AtState a, AtState b => Nat.eqb a b
  | AtSuper a, AtSuper b => Nat.eqb a b
  | _, _ => false
  end.
(** How often the node [p] was entered, exited; how often it occurs in a path. *)
Definition entries (p : place) (l : list act) : nat :=
  length (filter (fun a => match a with Enter q => place_eqb p q | Exit _ => false end) l).
Definition exits (p : place) (l : list act) : nat :=
  length (filter (fun a => match a with Exit q => place_eqb p q | Enter _ => false end) l).
Definition times (p : place) (l : list place) : nat := length (filter (place_eqb p) l).

Section Calls.
  Variable m : machine.
  (** The call panicked or was dropped, in an entry or exit action. *)
  Definition broken (c : called m) : bool :=
    match c_out c with
    | Ret _ => false
    | Abort _ => match rev (c_tr c) with (OExit _ | OEnter _) :: _ => true | _ => false end
    end.
  (** A transition was begun in the call. *)
  Definition moving (c : called m) : bool :=
    existsb (fun o => match o with OBeforeTransition _ _ => true | _ => false end) (c_tr c).
  (** How many calls were broken in a transition, and how many while the machine was being
      initialised. *)
  Definition broken_transitions (cs : list (called m)) : nat :=
    length (filter (fun c => broken c && moving c) cs).
  Definition broken_inits (cs : list (called m)) : nat :=
    length (filter (fun c => broken c && negb (moving c)) cs).
End Calls.
