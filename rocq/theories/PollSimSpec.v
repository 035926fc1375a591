(** PollSimSpec.v — awaitable machines whose callbacks' futures correspond poll by poll;
    vocabulary of C99 (see Sim.v for [relations], [opt_rel], [response_rel], [machine_rel]).  No
    proofs here. *)

From Coq Require Import List Bool.
From Verif Require Import Machine Api Poll Sim.
Import ListNotations.
Set Implicit Arguments.

Section Two.
  Variables m1 m2 : machine.
  Variable R : relations m1 m2.
  Variables W1 W2 : Type.
  (** What the two may find in the world when they are polled. *)
  Variable RW : W1 -> W2 -> Prop.
  Variable F1 : futures W1 m1.
  Variable F2 : futures W2 m2.

  (** Equally many polls, in related worlds. *)
  Definition schedule_rel (l : W1 * list W1) (l' : W2 * list W2) : Prop :=
    RW (fst l) (fst l') /\ Forall2 RW (snd l) (snd l').

  (** Polled equally often with related stores and worlds, either both futures are pending or both
      have panicked or both are ready, with related answers and at the same poll, and their stores
      are related ([udrive] stops when a future is ready and drops it if it is not). *)
  Definition future_rel {S S' A A'} (RS : S -> S' -> Prop) (RA : A -> A' -> Prop)
      (f : ufut W1 S A) (f' : ufut W2 S' A') : Prop :=
    forall w ws w' ws' s s', schedule_rel (w, ws) (w', ws') -> RS s s' ->
      let '(ans, s1, unused) := udrive f w ws s in
      let '(ans', s1', unused') := udrive f' w' ws' s' in
      opt_rel (opt_rel RA) ans ans' /\ RS s1 s1' /\ schedule_rel unused unused'.

  Definition store_rel {X X'} (RX : X -> X' -> Prop)
      (s : X * Shared m1 * Ctx m1) (s' : X' * Shared m2 * Ctx m2) : Prop :=
    let '(x, sh, cx) := s in let '(x', sh', cx') := s' in
    RX x x' /\ r_shared R sh sh' /\ r_ctx R cx cx'.
  Notation rnode := (node_rel (r_state R) (r_sup R)).
  Notation rresp := (response_rel (r_state R)).

  (** The futures of the callbacks of the two machines correspond; so do their initial states,
      variants and superstates. *)
  Record similar_futures : Prop := {
    sf_initial : r_state R (initial m1) (initial m2);
    sf_s_disc : forall x x' y y', r_state R x x' -> r_state R y y' ->
      (s_disc m1 x = s_disc m1 y <-> s_disc m2 x' = s_disc m2 y');
    sf_u_disc : forall x x' y y', r_sup R x x' -> r_sup R y y' ->
      (u_disc m1 x = u_disc m1 y <-> u_disc m2 x' = u_disc m2 y');
    sf_s_super : forall x x', r_state R x x' -> opt_rel (r_sup R) (s_super m1 x) (s_super m2 x');
    sf_u_super : forall u u', r_sup R u u' -> opt_rel (r_sup R) (u_super m1 u) (u_super m2 u');
    (* writing through a view, for a view of the superstate that is there *)
    sf_s_put : forall x x' v v' w w', r_state R x x' -> r_sup R v v' ->
      s_super m1 x = Some w -> s_super m2 x' = Some w' -> u_disc m1 v = u_disc m1 w ->
      r_state R (s_put m1 x v) (s_put m2 x' v');
    sf_u_put : forall u u' v v' w w', r_sup R u u' -> r_sup R v v' ->
      u_super m1 u = Some w -> u_super m2 u' = Some w' -> u_disc m1 v = u_disc m1 w ->
      r_sup R (u_put m1 u v) (u_put m2 u' v');
    sf_u_put_disc : forall u v, u_disc m1 (u_put m1 u v) = u_disc m1 u;
    sf_s_handler : forall e e', r_event R e e' ->
      future_rel (store_rel (r_state R)) rresp (f_s_handler F1 e) (f_s_handler F2 e');
    sf_s_entry : future_rel (store_rel (r_state R)) eq (f_s_entry F1) (f_s_entry F2);
    sf_s_exit : future_rel (store_rel (r_state R)) eq (f_s_exit F1) (f_s_exit F2);
    sf_u_handler : forall e e', r_event R e e' ->
      future_rel (store_rel (r_sup R)) rresp (f_u_handler F1 e) (f_u_handler F2 e');
    sf_u_entry : future_rel (store_rel (r_sup R)) eq (f_u_entry F1) (f_u_entry F2);
    sf_u_exit : future_rel (store_rel (r_sup R)) eq (f_u_exit F1) (f_u_exit F2);
    sf_before_dispatch : forall n n' e e', rnode n n' -> r_event R e e' ->
      future_rel (r_shared R) eq (f_before_dispatch F1 n e) (f_before_dispatch F2 n' e');
    sf_after_dispatch : forall n n' e e', rnode n n' -> r_event R e e' ->
      future_rel (r_shared R) eq (f_after_dispatch F1 n e) (f_after_dispatch F2 n' e');
    sf_before_transition : forall a a' b b', r_state R a a' -> r_state R b b' ->
      future_rel (r_shared R) eq (f_before_transition F1 a b) (f_before_transition F2 a' b');
    sf_after_transition : forall a a' b b', r_state R a a' -> r_state R b b' ->
      future_rel (r_shared R) eq (f_after_transition F1 a b) (f_after_transition F2 a' b')
  }.
End Two.

(** What a client does with an awaitable machine.  A call is polled once per world and dropped if
    it is not ready then; with no worlds it is dropped before it is ever polled. *)
Inductive polled_op (W : Type) (m : machine) : Type :=
| PolledInit (polls : list W) (cx : Ctx m)
| PolledHandle (polls : list W) (e : Event m) (cx : Ctx m)
| PolledInnerMut (f : Shared m -> Shared m)
| PolledStateMut (f : State m -> State m).
Arguments PolledInit {W m}.
Arguments PolledHandle {W m}.
Arguments PolledInnerMut {W m}.
Arguments PolledStateMut {W m}.

(** How a call ended ([None]: dropped), the context it leaves and the user code it called. *)
Definition polled_result (m : machine) : Type := (option (outcome unit) * Ctx m * list (obs m))%type.
Definition run_polled {W : Type} {m : machine} (F : futures W m) (stack : nat) (o : polled_op W m)
    (sm : state_machine m) : option (polled_result m) * state_machine m :=
  match o with
  | PolledInit polls cx =>
      let '(o, (sm', cx'), tr) := execute (a_init_with_context F stack) polls (sm, cx) in (Some (o, cx', tr), sm')
  | PolledHandle polls e cx =>
      let '(o, (sm', cx'), tr) := execute (a_handle_with_context F stack e) polls (sm, cx) in (Some (o, cx', tr), sm')
  | PolledInnerMut f => (None, inner_mut f sm)
  | PolledStateMut f => (None, state_mut f sm)
  end.
Fixpoint run_all_polled {W : Type} {m : machine} (F : futures W m) (stack : nat) (os : list (polled_op W m))
    (sm : state_machine m) : list (option (polled_result m)) * state_machine m :=
  match os with
  | [] => ([], sm)
  | o :: os' => let '(r, sm1) := run_polled F stack o sm in
                let '(rs, sm2) := run_all_polled F stack os' sm1 in (r :: rs, sm2)
  end.

(** The same calls with related data, polled equally often. *)
Inductive polled_op_rel (W1 W2 : Type) (RW : W1 -> W2 -> Prop) (m1 m2 : machine) (R : relations m1 m2)
  : polled_op W1 m1 -> polled_op W2 m2 -> Prop :=
| por_init ws ws' cx cx' : Forall2 RW ws ws' -> r_ctx R cx cx' ->
    polled_op_rel RW R (PolledInit ws cx) (PolledInit ws' cx')
| por_handle ws ws' e e' cx cx' : Forall2 RW ws ws' -> r_event R e e' -> r_ctx R cx cx' ->
    polled_op_rel RW R (PolledHandle ws e cx) (PolledHandle ws' e' cx')
| por_inner f f' : (forall s s', r_shared R s s' -> r_shared R (f s) (f' s')) ->
    polled_op_rel RW R (PolledInnerMut f) (PolledInnerMut f')
| por_state f f' : (forall x x', r_state R x x' -> r_state R (f x) (f' x')) ->
    polled_op_rel RW R (PolledStateMut f) (PolledStateMut f').

(** Two calls ended in the same way, or both were dropped, with related contexts, having called the
    same user code with related arguments. *)
Definition polled_result_rel (m1 m2 : machine) (R : relations m1 m2)
    (r : polled_result m1) (r' : polled_result m2) : Prop :=
  let '(o, cx, tr) := r in let '(o', cx', tr') := r' in
  o = o' /\ r_ctx R cx cx' /\ Forall2 (obs_rel R) tr tr'.
