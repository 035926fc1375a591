(** Awaitable.v — model of /repo/statig/src/awaitable/{superstate,state,inner}.rs.

    An `.await` on a user callback is one atomic call here (the callback's reply may be
    [Cancelled]: the enclosing future was dropped while the callback was pending);
    [Poll.v] justifies this against a model with explicit polls.  No proofs here. *)

From Coq Require Import List Bool Arith.
From Verif Require Import Machine Blocking.
Import ListNotations.
Set Implicit Arguments.
Local Open Scope comp_scope.

Section Awaitable.
  Variable m : machine.
  (** Bound on recursion/looping over superstates. *)
  Variable stack : nat.

  (** ** superstate.rs:56-67, 70-75, 78-99 — `same_state`, `depth` and
      `common_ancestor_depth` are textually those of blocking/superstate.rs:44-87;
      state.rs:55-57, 60-65, 68-77, 82-99 — `same_state`, `depth`,
      `common_ancestor_depth` and `transition_path` are textually those of
      blocking/state.rs:40-84.  The definitions of [Blocking] are reused. *)
  Definition transition_path := Blocking.transition_path m stack.
  Definition state_depth := Blocking.state_depth m stack.

  (** state.rs:119-148 — the `loop` of `StateExt::handle`; `*self` is the local variable
      `superstate`, whose successor is borrowed from it.  The last ancestor's `Super` is
      turned into `Handled` (line 144). *)
  Fixpoint handle_loop (n : nat) (e : Event m)
    : comp m (Sup m) (response (State m)) :=
    match n with
    | 0 => abort Diverges
    | S n' =>
        u0 <- self ;;
        before_dispatch m (NSuper u0) e ;;;
        response <- u_call_handler m e ;;
        u1 <- self ;;
        after_dispatch m (NSuper u1) e ;;;
        match response with
        | Handled => ret Handled
        | Super =>
            u <- self ;;
            match u_super m u with
            | Some v => via (u_put m) v (handle_loop n' e)
            | None => ret Handled
            end
        | Transition t => ret (Transition t)
        end
    end.

  (** state.rs:103-154 — `StateExt::handle`. *)
  Definition state_handle (e : Event m) : comp m (State m) (response (State m)) :=
    x0 <- self ;;
    before_dispatch m (NState x0) e ;;;
    response <- s_call_handler m e ;;
    x1 <- self ;;
    after_dispatch m (NState x1) e ;;;
    match response with
    | Handled => ret Handled
    | Super =>
        x <- self ;;
        match s_super m x with
        | Some u => via (s_put m) u (handle_loop stack e)
        | None => ret Super
        end
    | Transition t => ret (Transition t)
    end.

  (** state.rs:172-178 — climb [n] times (`for _ in 2..levels`, stopping early at the
      top) from the current superstate and run the entry action there. *)
  Fixpoint climb_entry (n : nat) : comp m (Sup m) unit :=
    match n with
    | 0 => u_call_entry m
    | S n' =>
        u <- self ;;
        match u_super m u with
        | Some v => via (u_put m) v (climb_entry n')
        | None => u_call_entry m
        end
    end.

  (** state.rs:170-185 — the `while levels > 1` loop of `StateExt::enter`, followed by
      `if levels == 1`. *)
  Fixpoint state_enter (levels : nat) : comp m (State m) unit :=
    match levels with
    | 0 => ret tt
    | S l =>
        match l with
        | 0 => s_call_entry m
        | S l' =>
            x <- self ;;
            match s_super m x with
            | Some u => via (s_put m) u (climb_entry l')
            | None => ret tt
            end ;;;
            state_enter l
        end
    end.

  (** state.rs:208-215 — the `while levels > 1` loop of `StateExt::exit`; [levels] is
      one less than the Rust variable. *)
  Fixpoint exit_loop (levels : nat) : comp m (Sup m) unit :=
    match levels with
    | 0 => ret tt
    | S l =>
        u_call_exit m ;;;
        u <- self ;;
        match u_super m u with
        | Some v => via (u_put m) v (exit_loop l)
        | None => ret tt
        end
    end.

  (** state.rs:191-218 — `StateExt::exit`. *)
  Definition state_exit (levels : nat) : comp m (State m) unit :=
    (if 1 <=? levels then s_call_exit m else ret tt) ;;;
    x <- self ;;
    match s_super m x with
    | Some u => via (s_put m) u (exit_loop (levels - 1))
    | None => ret tt
    end.

  (** ** inner.rs *)

  (** inner.rs:19-24 — `Inner::init_with_context`. *)
  Definition inner_init : comp m (State m) unit :=
    x <- self ;;
    enter_levels <- lift (state_depth x) ;;
    state_enter enter_levels.

  (** inner.rs:43-63 — `Inner::transition`.  Line 44 passes `(&self.state, &target)`. *)
  Definition transition (target : State m) : comp m (State m) unit :=
    x <- self ;;
    before_transition m x target ;;;
    levels <- lift (transition_path x target) ;;
    state_exit (fst levels) ;;;
    old <- swap_state m target ;;
    state_enter (snd levels) ;;;
    new <- self ;;
    after_transition m old new.

  (** inner.rs:26-40 — `Inner::handle_with_context`. *)
  Definition inner_handle (e : Event m) : comp m (State m) unit :=
    response <- state_handle e ;;
    match response with
    | Super => ret tt
    | Handled => ret tt
    | Transition t => transition t
    end.

End Awaitable.
