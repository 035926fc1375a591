(** Equality.v — model of the `PartialEq`/`Eq` implementations of response.rs:13-27,
    state_or_superstate.rs:28-47, {blocking,awaitable}/inner.rs and
    {blocking,awaitable}/state_machine.rs.  The implementations in the two modes are the
    same text; line numbers are those of blocking, awaitable ones in brackets.
    No proofs here. *)

From Coq Require Import List Bool Arith.
From Verif Require Import Machine Api.
Set Implicit Arguments.

(** A Rust type implementing `PartialEq`: its values, its `==`, and whether it implements
    the marker trait `Eq` as well. *)
Record eq_type := EqType {
  carrier :> Type;
  eqb : carrier -> carrier -> bool;
  implements_Eq : bool
}.
Arguments EqType {carrier}.
Arguments eqb {e}.

(** response.rs:13-25: `eq`; :27 `impl<S> Eq for Response<S> where S: Eq`. *)
Definition response_eqb {S : eq_type} (a b : response S) : bool :=
  match a, b with
  | Handled, Handled => true
  | Super, Super => true
  | Transition s, Transition o => eqb s o
  | _, _ => false
  end.
Definition response_type (S : eq_type) : eq_type :=
  EqType (@response_eqb S) (implements_Eq S).

(** state_or_superstate.rs:28-40: `eq`; :42-47 `Eq`. *)
Definition node_eqb {S U : eq_type} (a b : node S U) : bool :=
  match a, b with
  | NState s, NState o => eqb s o
  | NSuper s, NSuper o => eqb s o
  | _, _ => false
  end.
Definition node_type (S U : eq_type) : eq_type :=
  EqType (@node_eqb S U) (implements_Eq S && implements_Eq U).

Section Machines.
  (** The user's machine, with `PartialEq` for its state and its shared storage. *)
  Variable m : machine.
  Variable eq_state : State m -> State m -> bool.
  Variable eq_shared : Shared m -> Shared m -> bool.
  (** Do the user's types implement `Eq`? *)
  Variables state_Eq shared_Eq : bool.

  (** inner.rs:75-83 [79-87]: `self.shared_storage == other.shared_storage && self.state ==
      other.state`; inner.rs:85-90 [89-94]: `Eq` if both are. *)
  Definition inner_eqb (a b : inner m) : bool :=
    eq_shared (shared_storage a) (shared_storage b) && eq_state (state a) (state b).
  Definition inner_type : eq_type := EqType inner_eqb (shared_Eq && state_Eq).

  (** state_machine.rs:218-226 [224-232]: `eq`; :228-233 [234-239]: `impl Eq for
      StateMachine<M>` asks for `PartialEq` of the user's types only. *)
  Definition sm_eqb (a b : state_machine m) : bool :=
    inner_eqb (sm_inner a) (sm_inner b) && Bool.eqb (initialized a) (initialized b).
  Definition sm_type : eq_type := EqType sm_eqb true.

  (** state_machine.rs:481-489 [493-501]: `eq`; :491-496 [503-508] `Eq`. *)
  Definition im_eqb (a b : initialized_machine m) : bool := inner_eqb (im_inner a) (im_inner b).
  Definition im_type : eq_type := EqType im_eqb (shared_Eq && state_Eq).

  (** state_machine.rs:735-743 [753-761]: `eq`; :745-750 [763-768] `Eq`. *)
  Definition um_eqb (a b : uninitialized_machine m) : bool := inner_eqb (um_inner a) (um_inner b).
  Definition um_type : eq_type := EqType um_eqb (shared_Eq && state_Eq).
End Machines.

(** ** What is asked of them *)

(** The contract of `PartialEq`. *)
Definition partial_equivalence {A} (eq : A -> A -> bool) : Prop :=
  (forall a b, eq a b = true -> eq b a = true) /\
  (forall a b c, eq a b = true -> eq b c = true -> eq a c = true).
Definition lawful_partial_eq (T : eq_type) : Prop := partial_equivalence (@eqb T).

(** The contract of `Eq`. *)
Definition lawful_eq (T : eq_type) : Prop :=
  implements_Eq T = true -> forall a : T, eqb a a = true.

Arguments inner_eqb : clear implicits.
Arguments sm_eqb : clear implicits.
Arguments im_eqb : clear implicits.
Arguments um_eqb : clear implicits.
