(** SuperCalls.v — the library with `superstate()` as a call into user code that may change `self`
    and may panic.  (In Machine.v it is a pure, total projection.)  The functions of Blocking.v,
    Awaitable.v and Api.v that call it are modelled again, with each call where the code has it.
    No proofs here. *)

From Coq Require Import List Bool Arith.
From Verif Require Import Machine Blocking Awaitable Api.
Import ListNotations.
Set Implicit Arguments.
Local Open Scope comp_scope.

(** blocking/state.rs:26-29, blocking/superstate.rs:29-33 [awaitable/state.rs:42-45,
    awaitable/superstate.rs:42-46] — `fn superstate(&mut self) -> Option<M::Superstate<'_>>`:
    the view it returns, or [None] if it panics, and `self` afterwards.  These take the place of
    [s_super] and [u_super] of the machine, which are not used here. *)
Record superstates (m : machine) := Superstates {
  ask_s : State m -> option (option (Sup m)) * State m;
  ask_u : Sup m -> option (option (Sup m)) * Sup m
}.

Section Calls.
  Variable m : machine.
  Variable sc : superstates m.
  Variable stack : nat.

  Definition ask {X} (f : X -> option (option (Sup m)) * X) : comp m X (option (Sup m)) :=
    fun x sh cx =>
      match f x with
      | (Some o, x') => Res (Ret o) x' sh cx []
      | (None, x') => Res (Abort Panicked) x' sh cx []
      end.
  (** `match self.superstate() { Some(superstate) => c, None => d }`, the view being written back
      when [c] is done. *)
  Definition on_super {X A} f (put : X -> Sup m -> X) (c : comp m (Sup m) A) (d : comp m X A) : comp m X A :=
    o <- ask f ;; match o with Some v => via put v c | None => d end.
  Notation s_on_super := (on_super (ask_s sc) (s_put m)).
  Notation u_on_super := (on_super (ask_u sc) (u_put m)).

  (** Two variables. *)
  Definition on_fst {X Y A} (c : comp m X A) : comp m (X * Y) A :=
    p <- self ;; via (fun p a => (a, snd p)) (fst p) c.
  Definition on_snd {X Y A} (c : comp m Y A) : comp m (X * Y) A :=
    p <- self ;; via (fun p b => (fst p, b)) (snd p) c.

  (** superstate.rs:58-63. *)
  Fixpoint superstate_depth_s (n : nat) : comp m (Sup m) nat :=
    match n with
    | 0 => abort Diverges
    | S n' => u_on_super (d <- superstate_depth_s n' ;; ret (d + 1)) (ret 1)
    end.

  (** superstate.rs:66-87 — of `source` and `target`; in the tuple of line 73 both are asked. *)
  Fixpoint common_ancestor_depth_s (n : nat) : comp m (Sup m * Sup m) nat :=
    match n with
    | 0 => abort Diverges
    | S n' =>
        ds <- on_fst (superstate_depth_s stack) ;;
        dt <- on_snd (superstate_depth_s stack) ;;
        match Nat.compare ds dt with
        | Eq =>
            p <- self ;;
            if same_superstate m (fst p) (snd p) then on_fst (superstate_depth_s stack)
            else
              a <- on_fst (ask (ask_u sc)) ;;
              b <- on_snd (ask (ask_u sc)) ;;
              match a, b with
              | Some source', Some target' =>
                  via (fun p q => (u_put m (fst p) (fst q), u_put m (snd p) (snd q))) (source', target')
                      (common_ancestor_depth_s n')
              | _, _ => ret 0
              end
        | Gt =>
            a <- on_fst (ask (ask_u sc)) ;;
            match a with
            | Some source' =>
                p <- self ;;
                via (fun p q => (u_put m (fst p) (fst q), snd q)) (source', snd p) (common_ancestor_depth_s n')
            | None => ret 0
            end
        | Lt =>
            b <- on_snd (ask (ask_u sc)) ;;
            match b with
            | Some target' =>
                p <- self ;;
                via (fun p q => (fst q, u_put m (snd p) (snd q))) (fst p, target') (common_ancestor_depth_s n')
            | None => ret 0
            end
        end
    end.

  (** state.rs:45-50. *)
  Definition state_depth_s : comp m (State m) nat :=
    s_on_super (d <- superstate_depth_s stack ;; ret (d + 1)) (ret 1).

  (** state.rs:67-84 — of `self` and `target`. *)
  Definition transition_path_s : comp m (State m * State m) (nat * nat) :=
    p <- self ;;
    if same_state m (fst p) (snd p) then ret (1, 1)
    else
      source_depth <- on_fst state_depth_s ;;
      target_depth <- on_snd state_depth_s ;;
      a <- on_fst (ask (ask_s sc)) ;;
      b <- on_snd (ask (ask_s sc)) ;;
      match a, b with
      | Some us, Some ut =>
          c <- via (fun p q => (s_put m (fst p) (fst q), s_put m (snd p) (snd q))) (us, ut)
                   (common_ancestor_depth_s (stack + stack)) ;;
          x <- lift (checked_sub source_depth c) ;;
          y <- lift (checked_sub target_depth c) ;;
          ret (x, y)
      | _, _ => ret (source_depth, target_depth)
      end.

  (** blocking/superstate.rs:90-125. *)
  Fixpoint superstate_handle_s (n : nat) (e : Event m) : comp m (Sup m) (response (State m)) :=
    match n with
    | 0 => abort Diverges
    | S n' =>
        response <- u_call_handler m e ;;
        match response with
        | Handled => ret Handled
        | Super =>
            u_on_super
              (v0 <- self ;;
               before_dispatch m (NSuper v0) e ;;;
               response <- superstate_handle_s n' e ;;
               v1 <- self ;;
               after_dispatch m (NSuper v1) e ;;;
               ret response)
              (ret Super)
        | Transition t => ret (Transition t)
        end
    end.

  (** blocking/state.rs:87-126. *)
  Definition bl_handle_s (e : Event m) : comp m (State m) (response (State m)) :=
    x0 <- self ;;
    before_dispatch m (NState x0) e ;;;
    response <- s_call_handler m e ;;
    x1 <- self ;;
    after_dispatch m (NState x1) e ;;;
    match response with
    | Handled => ret Handled
    | Super =>
        s_on_super
          (u0 <- self ;;
           before_dispatch m (NSuper u0) e ;;;
           response <- superstate_handle_s stack e ;;
           u1 <- self ;;
           after_dispatch m (NSuper u1) e ;;;
           ret response)
          (ret Super)
    | Transition t => ret (Transition t)
    end.

  (** awaitable/state.rs:119-148 and 103-154. *)
  Fixpoint handle_loop_s (n : nat) (e : Event m) : comp m (Sup m) (response (State m)) :=
    match n with
    | 0 => abort Diverges
    | S n' =>
        u0 <- self ;;
        before_dispatch m (NSuper u0) e ;;;
        response <- u_call_handler m e ;;
        u1 <- self ;;
        after_dispatch m (NSuper u1) e ;;;
        match response with
        | Handled => ret Handled
        | Super => u_on_super (handle_loop_s n' e) (ret Handled)
        | Transition t => ret (Transition t)
        end
    end.
  Definition aw_handle_s (e : Event m) : comp m (State m) (response (State m)) :=
    x0 <- self ;;
    before_dispatch m (NState x0) e ;;;
    response <- s_call_handler m e ;;
    x1 <- self ;;
    after_dispatch m (NState x1) e ;;;
    match response with
    | Handled => ret Handled
    | Super => s_on_super (handle_loop_s stack e) (ret Super)
    | Transition t => ret (Transition t)
    end.

  (** blocking/superstate.rs:129-141, 145-157; blocking/state.rs:130-141, 145-156. *)
  Fixpoint superstate_enter_s (levels : nat) : comp m (Sup m) unit :=
    match levels with
    | 0 => ret tt
    | S l =>
        match l with
        | 0 => u_call_entry m
        | S _ => u_on_super (superstate_enter_s l) (ret tt) ;;; u_call_entry m
        end
    end.
  Fixpoint superstate_exit_s (levels : nat) : comp m (Sup m) unit :=
    match levels with
    | 0 => ret tt
    | S l =>
        match l with
        | 0 => u_call_exit m
        | S _ => u_call_exit m ;;; u_on_super (superstate_exit_s l) (ret tt)
        end
    end.
  Definition bl_enter_s (levels : nat) : comp m (State m) unit :=
    match levels with
    | 0 => ret tt
    | 1 => s_call_entry m
    | S l => s_on_super (superstate_enter_s l) (ret tt) ;;; s_call_entry m
    end.
  Definition bl_exit_s (levels : nat) : comp m (State m) unit :=
    match levels with
    | 0 => ret tt
    | 1 => s_call_exit m
    | S l => s_call_exit m ;;; s_on_super (superstate_exit_s l) (ret tt)
    end.

  (** awaitable/state.rs:158-189, 191-218. *)
  Fixpoint climb_entry_s (n : nat) : comp m (Sup m) unit :=
    match n with
    | 0 => u_call_entry m
    | S n' => u_on_super (climb_entry_s n') (u_call_entry m)
    end.
  Fixpoint aw_enter_s (levels : nat) : comp m (State m) unit :=
    match levels with
    | 0 => ret tt
    | S l =>
        match l with
        | 0 => s_call_entry m
        | S l' => s_on_super (climb_entry_s l') (ret tt) ;;; aw_enter_s l
        end
    end.
  Fixpoint exit_loop_s (levels : nat) : comp m (Sup m) unit :=
    match levels with
    | 0 => ret tt
    | S l => u_call_exit m ;;; u_on_super (exit_loop_s l) (ret tt)
    end.
  Definition aw_exit_s (levels : nat) : comp m (State m) unit :=
    (if 1 <=? levels then s_call_exit m else ret tt) ;;;
    s_on_super (exit_loop_s (levels - 1)) (ret tt).

  Section Mode.
    Variable md : mode.
    Definition handle_s e := match md with BlockingMode => bl_handle_s e | AwaitableMode => aw_handle_s e end.
    Definition enter_s n := match md with BlockingMode => bl_enter_s n | AwaitableMode => aw_enter_s n end.
    Definition exit_s n := match md with BlockingMode => bl_exit_s n | AwaitableMode => aw_exit_s n end.

    (** inner.rs:20-24 [19-24]. *)
    Definition inner_init_s : comp m (State m) unit := levels <- state_depth_s ;; enter_s levels.

    (** `self.state.transition_path(&mut target)`: also gives `target` afterwards. *)
    Definition path_to (target : State m) : comp m (State m) (nat * nat * State m) :=
      fun x sh cx =>
        let r := transition_path_s (x, target) sh cx in
        Res (match r_out r with Ret l => Ret (l, snd (r_self r)) | Abort w => Abort w end)
            (fst (r_self r)) (r_sh r) (r_cx r) (r_tr r).

    (** inner.rs:41-59 [43-63]. *)
    Definition transition_s (target : State m) : comp m (State m) unit :=
      x <- self ;;
      match md with
      | BlockingMode => before_transition m target x
      | AwaitableMode => before_transition m x target
      end ;;;
      p <- path_to target ;;
      exit_s (fst (fst p)) ;;;
      old <- swap_state m (snd p) ;;
      enter_s (snd (fst p)) ;;;
      new <- self ;;
      after_transition m old new.

    (** inner.rs:27-38 [26-40]. *)
    Definition inner_handle_s (e : Event m) : comp m (State m) unit :=
      response <- handle_s e ;;
      match response with
      | Super => ret tt
      | Handled => ret tt
      | Transition t => transition_s t
      end.

    (** state_machine.rs:69-74 [71-76], 87-93 [89-99], and the operations of Api.v. *)
    Definition dispatch_s (sm : state_machine m) (e : Event m) (cx : Ctx m) : api_res m (state_machine m) :=
      let r := run_inner (inner_handle_s e) (sm_inner sm) cx in
      ApiRes (a_out r) (StateMachine (a_machine r) (initialized sm)) (a_cx r) (a_tr r).
    Definition exec_s (o : op m) (sm : state_machine m)
      : outcome unit * state_machine m * option (Ctx m) * list (obs m) :=
      match o with
      | OpInit cx =>
          if negb (initialized sm) then
            let r := run_inner inner_init_s (sm_inner sm) cx in
            match a_out r with
            | Ret _ => (Ret tt, StateMachine (a_machine r) true, Some (a_cx r), a_tr r)
            | Abort w => (Abort w, StateMachine (a_machine r) (initialized sm), Some (a_cx r), a_tr r)
            end
          else (Ret tt, sm, Some cx, [])
      | OpHandle e cx =>
          if negb (initialized sm) then
            let r := run_inner inner_init_s (sm_inner sm) cx in
            match a_out r with
            | Ret _ =>
                let r' := dispatch_s (StateMachine (a_machine r) true) e (a_cx r) in
                (a_out r', a_machine r', Some (a_cx r'), a_tr r ++ a_tr r')
            | Abort w => (Abort w, StateMachine (a_machine r) (initialized sm), Some (a_cx r), a_tr r)
            end
          else
            let r := dispatch_s sm e cx in (a_out r, a_machine r, Some (a_cx r), a_tr r)
      | OpInnerMut f => (Ret tt, inner_mut f sm, None, [])
      | OpStateMut f => (Ret tt, state_mut f sm, None, [])
      end.
    Fixpoint exec_all_s (ops : list (op m)) (sm : state_machine m) : list (called m) * state_machine m :=
      match ops with
      | [] => ([], sm)
      | o :: ops' =>
          let '(out, sm1, cx, tr) := exec_s o sm in
          let '(cs, sm') := exec_all_s ops' sm1 in (Called out cx tr :: cs, sm')
      end.
  End Mode.
End Calls.
