(** Blocking.v — model of /repo/statig/src/blocking/{superstate,state,inner}.rs.
    No proofs here. *)

From Coq Require Import List Bool Arith.
From Verif Require Import Machine.
Import ListNotations.
Set Implicit Arguments.
Local Open Scope comp_scope.

Section Blocking.
  Variable m : machine.
  (** Bound on the recursion over superstates (see DESIGN.md, "Control"). *)
  Variable stack : nat.

  (** ** superstate.rs *)

  (** superstate.rs:44-55 — `SuperstateExt::same_state`: discriminants are equal.  The
      transmute only changes the lifetime in the type. *)
  Definition same_superstate (lhs rhs : Sup m) : bool := u_disc m lhs =? u_disc m rhs.

  (** superstate.rs:58-63 — `SuperstateExt::depth`. Pure: it calls nothing but
      `superstate()`. [n] bounds the recursion. *)
  Fixpoint superstate_depth (n : nat) (u : Sup m) : outcome nat :=
    match n with
    | 0 => Abort Diverges
    | S n' =>
        match u_super m u with
        | Some v =>
            match superstate_depth n' v with
            | Ret d => Ret (d + 1)
            | Abort w => Abort w
            end
        | None => Ret 1
        end
    end.

  (** superstate.rs:66-87 — `SuperstateExt::common_ancestor_depth`.  `source.depth()` is
      evaluated before `target.depth()` (line 70), and again on line 72. *)
  Fixpoint superstate_common_ancestor_depth (n : nat) (source target : Sup m)
    : outcome nat :=
    match n with
    | 0 => Abort Diverges
    | S n' =>
        match superstate_depth stack source, superstate_depth stack target with
        | Abort w, _ => Abort w
        | Ret _, Abort w => Abort w
        | Ret ds, Ret dt =>
            match Nat.compare ds dt with
            | Eq =>
                if same_superstate source target then superstate_depth stack source
                else
                  match u_super m source, u_super m target with
                  | Some source', Some target' =>
                      superstate_common_ancestor_depth n' source' target'
                  | _, _ => Ret 0
                  end
            | Gt =>
                match u_super m source with
                | Some source' => superstate_common_ancestor_depth n' source' target
                | None => Ret 0
                end
            | Lt =>
                match u_super m target with
                | Some target' => superstate_common_ancestor_depth n' source target'
                | None => Ret 0
                end
            end
        end
    end.

  (** superstate.rs:90-125 — `SuperstateExt::handle`.  The dispatch hooks around the
      recursive call run before and after the whole handling by the ancestors. *)
  Fixpoint superstate_handle (n : nat) (e : Event m)
    : comp m (Sup m) (response (State m)) :=
    match n with
    | 0 => abort Diverges
    | S n' =>
        response <- u_call_handler m e ;;
        match response with
        | Handled => ret Handled
        | Super =>
            u <- self ;;
            match u_super m u with
            | Some v =>
                via (u_put m) v
                  (v0 <- self ;;
                   before_dispatch m (NSuper v0) e ;;;
                   response <- superstate_handle n' e ;;
                   v1 <- self ;;
                   after_dispatch m (NSuper v1) e ;;;
                   ret response)
            | None => ret Super
            end
        | Transition t => ret (Transition t)
        end
    end.

  (** superstate.rs:129-141 — `SuperstateExt::enter`. *)
  Fixpoint superstate_enter (levels : nat) : comp m (Sup m) unit :=
    match levels with
    | 0 => ret tt
    | S l =>
        match l with
        | 0 => u_call_entry m
        | S _ =>
            u <- self ;;
            match u_super m u with
            | Some v => via (u_put m) v (superstate_enter l)
            | None => ret tt
            end ;;;
            u_call_entry m
        end
    end.

  (** superstate.rs:145-157 — `SuperstateExt::exit`. *)
  Fixpoint superstate_exit (levels : nat) : comp m (Sup m) unit :=
    match levels with
    | 0 => ret tt
    | S l =>
        match l with
        | 0 => u_call_exit m
        | S _ =>
            u_call_exit m ;;;
            u <- self ;;
            match u_super m u with
            | Some v => via (u_put m) v (superstate_exit l)
            | None => ret tt
            end
        end
    end.

  (** ** state.rs *)

  (** state.rs:40-42 — `StateExt::same_state`. *)
  Definition same_state (lhs rhs : State m) : bool := s_disc m lhs =? s_disc m rhs.

  (** state.rs:45-50 — `StateExt::depth`. *)
  Definition state_depth (x : State m) : outcome nat :=
    match s_super m x with
    | Some u =>
        match superstate_depth stack u with
        | Ret d => Ret (d + 1)
        | Abort w => Abort w
        end
    | None => Ret 1
    end.

  (** state.rs:53-62 — `StateExt::common_ancestor_depth` (not used by the library). *)
  Definition state_common_ancestor_depth (source target : State m) : outcome nat :=
    if same_state source target then state_depth source
    else
      match s_super m source, s_super m target with
      | Some us, Some ut => superstate_common_ancestor_depth (stack + stack) us ut
      | _, _ => Ret 0
      end.

  (** `a - b` on `usize`: panics (debug) when it would underflow. *)
  Definition checked_sub (a b : nat) : outcome nat :=
    if b <=? a then Ret (a - b) else Abort Underflow.

  (** state.rs:67-84 — `StateExt::transition_path`. *)
  Definition transition_path (source target : State m) : outcome (nat * nat) :=
    if same_state source target then Ret (1, 1)
    else
      match state_depth source with
      | Abort w => Abort w
      | Ret source_depth =>
          match state_depth target with
          | Abort w => Abort w
          | Ret target_depth =>
              match s_super m source, s_super m target with
              | Some us, Some ut =>
                  match superstate_common_ancestor_depth (stack + stack) us ut with
                  | Abort w => Abort w
                  | Ret c =>
                      match checked_sub source_depth c with
                      | Abort w => Abort w
                      | Ret x =>
                          match checked_sub target_depth c with
                          | Abort w => Abort w
                          | Ret y => Ret (x, y)
                          end
                      end
                  end
              | _, _ => Ret (source_depth, target_depth)
              end
          end
      end.

  (** state.rs:87-126 — `StateExt::handle`. *)
  Definition state_handle (e : Event m) : comp m (State m) (response (State m)) :=
    x0 <- self ;;
    before_dispatch m (NState x0) e ;;;
    response <- s_call_handler m e ;;
    x1 <- self ;;
    after_dispatch m (NState x1) e ;;;
    match response with
    | Handled => ret Handled
    | Super =>
        x <- self ;;
        match s_super m x with
        | Some u =>
            via (s_put m) u
              (u0 <- self ;;
               before_dispatch m (NSuper u0) e ;;;
               response <- superstate_handle stack e ;;
               u1 <- self ;;
               after_dispatch m (NSuper u1) e ;;;
               ret response)
        | None => ret Super
        end
    | Transition t => ret (Transition t)
    end.

  (** state.rs:130-141 — `StateExt::enter`. *)
  Definition state_enter (levels : nat) : comp m (State m) unit :=
    match levels with
    | 0 => ret tt
    | 1 => s_call_entry m
    | S l =>
        x <- self ;;
        match s_super m x with
        | Some u => via (s_put m) u (superstate_enter l)
        | None => ret tt
        end ;;;
        s_call_entry m
    end.

  (** state.rs:145-156 — `StateExt::exit`. *)
  Definition state_exit (levels : nat) : comp m (State m) unit :=
    match levels with
    | 0 => ret tt
    | 1 => s_call_exit m
    | S l =>
        s_call_exit m ;;;
        x <- self ;;
        match s_super m x with
        | Some u => via (s_put m) u (superstate_exit l)
        | None => ret tt
        end
    end.

  (** ** inner.rs.  `self` is the field `state` of `Inner`; the field `shared_storage`
      is the shared storage of [comp]. *)

  (** `core::mem::swap(&mut self.state, &mut target)` (inner.rs:52): the new state is in
      place, the old one is returned. *)
  Definition swap_state (target : State m) : comp m (State m) (State m) :=
    fun x sh cx => Res (Ret x) target sh cx [].

  (** inner.rs:20-24 — `Inner::init_with_context`. *)
  Definition inner_init : comp m (State m) unit :=
    x <- self ;;
    enter_levels <- lift (state_depth x) ;;
    state_enter enter_levels.

  (** inner.rs:41-59 — `Inner::transition`.  Line 42 passes `(&target, &self.state)` to
      a hook whose parameters are `(source, target)`; modelled as written. *)
  Definition transition (target : State m) : comp m (State m) unit :=
    x <- self ;;
    before_transition m target x ;;;
    levels <- lift (transition_path x target) ;;
    state_exit (fst levels) ;;;
    old <- swap_state target ;;
    state_enter (snd levels) ;;;
    new <- self ;;
    after_transition m old new.

  (** inner.rs:27-38 — `Inner::handle_with_context`. *)
  Definition inner_handle (e : Event m) : comp m (State m) unit :=
    response <- state_handle e ;;
    match response with
    | Super => ret tt
    | Handled => ret tt
    | Transition t => transition t
    end.

End Blocking.
