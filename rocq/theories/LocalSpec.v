(** LocalSpec.v — conditions on shared and state-local storage; vocabulary of C79.  No proofs
    here.

    Levels are those of RefSpec.v: level 0 is the leaf, level [k + 1] its [k]-th superstate. *)

From Coq Require Import List Bool Arith.
From Verif Require Import Machine Api Spec RefSpec.
Import ListNotations.
Set Implicit Arguments.

Section Local.
  Variable m : machine.
  Variable stack : nat.
  (** What should hold before the machine is initialized, and between calls afterwards; *)
  Variables Fresh Rest : State m -> Shared m -> Prop.
  (** [Going k x t]: on the way from [x] to [t], the exit actions of the first [k] levels of
      [x] have run;  [Coming k x]: the entry actions of the first [k] levels of [x] have not. *)
  Variable Going : nat -> State m -> State m -> Shared m -> Prop.
  Variable Coming : nat -> State m -> Shared m -> Prop.

  (** What each callback alone has to see to, if it returns. *)
  Record duties : Prop := {
    du_handler : forall k x n sh cx e a n' sh' cx',
      look m k x = Some n -> Rest x sh -> node_handler m n sh cx e = (Returns a, n', sh', cx') ->
      match a with
      | Transition t => Going 0 (write m k x n') t sh'
      | _ => Rest (write m k x n') sh'
      end;
    du_exit : forall k x t n sh cx n' sh' cx',
      look m k x = Some n -> Going k x t sh -> node_exit m n sh cx = (Returns tt, n', sh', cx') ->
      Going (S k) (write m k x n') t sh';
    du_entry : forall k x n sh cx n' sh' cx',
      look m k x = Some n -> Coming (S k) x sh -> node_entry m n sh cx = (Returns tt, n', sh', cx') ->
      Coming k (write m k x n') sh';
    du_before_dispatch : forall k x n sh e sh',
      look m k x = Some n -> Rest x sh -> h_before_dispatch m sh n e = (Returns tt, sh') -> Rest x sh';
    du_after_dispatch : forall k x n sh e sh',
      look m k x = Some n -> h_after_dispatch m sh n e = (Returns tt, sh') ->
      (Rest x sh -> Rest x sh') /\ (forall t, Going 0 x t sh -> Going 0 x t sh');
    du_before_transition : forall x t sh sh',
      Going 0 x t sh ->
      h_before_transition m sh x t = (Returns tt, sh') \/ h_before_transition m sh t x = (Returns tt, sh') ->
      Going 0 x t sh';
    du_after_transition : forall a x sh sh',
      Rest x sh -> h_after_transition m sh a x = (Returns tt, sh') -> Rest x sh';
    (** In between: the first entry action finds what the last exit action left, and so on. *)
    du_start : forall x sh, Fresh x sh -> Coming (S (length (names m stack x))) x sh;
    du_turn : forall x t sh, Going (own_levels m stack x t) x t sh -> Coming (own_levels m stack t x) t sh;
    du_arrive : forall x sh, Coming 0 x sh -> Rest x sh
  }.

  (** Each callback alone, called when what should hold does hold, returns. *)
  Definition returns {A B} (r : reply A * B) : Prop := exists a, fst r = Returns a.
  Record dependable : Prop := {
    de_handler : forall k x n sh cx e, look m k x = Some n -> Rest x sh ->
      returns (fst (fst (node_handler m n sh cx e)));
    de_exit : forall k x t n sh cx, look m k x = Some n -> Going k x t sh ->
      returns (fst (fst (node_exit m n sh cx)));
    de_entry : forall k x n sh cx, look m k x = Some n -> Coming (S k) x sh ->
      returns (fst (fst (node_entry m n sh cx)));
    de_before_dispatch : forall k x n sh e, look m k x = Some n -> Rest x sh ->
      returns (h_before_dispatch m sh n e);
    de_after_dispatch : forall k x n sh e, look m k x = Some n -> Rest x sh \/ (exists t, Going 0 x t sh) ->
      returns (h_after_dispatch m sh n e);
    de_before_transition : forall x t sh, Going 0 x t sh ->
      returns (h_before_transition m sh x t) /\ returns (h_before_transition m sh t x);
    de_after_transition : forall a x sh, Rest x sh -> returns (h_after_transition m sh a x)
  }.

  (** The client keeps to the rules when it writes the storage or the state itself. *)
  Definition considerate (o : op m) : Prop :=
    match o with
    | OpInnerMut f => forall x sh, (Rest x sh -> Rest x (f sh)) /\ (Fresh x sh -> Fresh x (f sh))
    | OpStateMut f => forall x sh, (Rest x sh -> Rest (f x) sh) /\ (Fresh x sh -> Fresh (f x) sh)
    | _ => True
    end.
End Local.
Arguments duties m stack Fresh Rest Going Coming : clear implicits.
Arguments dependable m Rest Going Coming : clear implicits.
Arguments considerate {m} Fresh Rest o.
