(** Drops.v — where the library drops `M::State` values.  The functions of Blocking.v, Awaitable.v
    and Api.v that own such a value are modelled again, with the drops in the log.  (The others
    only borrow the state.)  A value is dropped when the variable that owns it goes out of scope:
    at the end of the function, while a panic unwinds, or with the future that holds it.  Nothing
    is dropped when the program runs out of stack.  Simplification: destructors themselves neither
    panic nor touch the machine.  No proofs here. *)

From Coq Require Import List Bool Arith.
From Verif Require Import Machine Blocking Awaitable Api.
Import ListNotations.
Set Implicit Arguments.

(** A call into user code, or a `M::State` value being dropped. *)
Inductive event_of (m : machine) : Type :=
| Did (o : obs m)
| Dropped (s : State m).
Arguments Did {m}.
Arguments Dropped {m}.

Section Drops.
  Variable m : machine.

  (** As [res] and [comp], with drops in the log. *)
  Record dres (X A : Type) : Type := DRes {
    d_out : outcome A; d_self : X; d_sh : Shared m; d_cx : Ctx m; d_tr : list (event_of m)
  }.
  Arguments DRes {X A}.
  Definition dcomp (X A : Type) : Type := X -> Shared m -> Ctx m -> dres X A.

  (** Code that owns no state. *)
  Definition plainly {X A} (c : comp m X A) : dcomp X A :=
    fun x sh cx => let r := c x sh cx in DRes (r_out r) (r_self r) (r_sh r) (r_cx r) (map Did (r_tr r)).

  Definition dbind {X A B} (c : dcomp X A) (k : A -> dcomp X B) : dcomp X B :=
    fun x sh cx =>
      let r := c x sh cx in
      match d_out r with
      | Ret a =>
          let r' := k a (d_self r) (d_sh r) (d_cx r) in
          DRes (d_out r') (d_self r') (d_sh r') (d_cx r') (d_tr r ++ d_tr r')
      | Abort w => DRes (Abort w) (d_self r) (d_sh r) (d_cx r) (d_tr r)
      end.
  Definition dvia {X V A} (put : X -> V -> X) (v : V) (c : dcomp V A) : dcomp X A :=
    fun x sh cx =>
      let r := c v sh cx in
      DRes (d_out r) (put x (d_self r)) (d_sh r) (d_cx r) (d_tr r).

  (** Does the abort run the destructors of local variables? *)
  Definition unwinds (w : why) : bool := match w with Diverges => false | _ => true end.

  (** [c] runs while a local variable owns [s], and keeps it alive after. *)
  Definition owning {X A} (s : State m) (c : dcomp X A) : dcomp X A :=
    fun x sh cx =>
      let r := c x sh cx in
      match d_out r with
      | Ret a => r
      | Abort w => DRes (Abort w) (d_self r) (d_sh r) (d_cx r)
                        (d_tr r ++ if unwinds w then [Dropped s] else [])
      end.
  (** [c] runs while a local variable owns [s], and ends its scope. *)
  Definition dropping {X A} (s : State m) (c : dcomp X A) : dcomp X A :=
    fun x sh cx =>
      let r := owning s c x sh cx in
      match d_out r with
      | Ret a => DRes (Ret a) (d_self r) (d_sh r) (d_cx r) (d_tr r ++ [Dropped s])
      | Abort _ => r
      end.
  (** [c] runs while a local variable owns the response [r]. *)
  Definition owning_response {X A} (r : response (State m)) (c : dcomp X A) : dcomp X A :=
    match r with Transition t => owning t c | _ => c end.

  Section Functions.
    Variable stack : nat.

    (** blocking/superstate.rs:90-125 — the second hook runs while `response` is owned
        (lines 109-117). *)
    Fixpoint superstate_handle_d (n : nat) (e : Event m) : dcomp (Sup m) (response (State m)) :=
      match n with
      | 0 => plainly (abort Diverges)
      | S n' =>
          dbind (plainly (u_call_handler m e)) (fun response =>
          match response with
          | Handled => plainly (ret Handled)
          | Super =>
              dbind (plainly self) (fun u =>
              match u_super m u with
              | Some v =>
                  dvia (u_put m) v
                    (dbind (plainly self) (fun v0 =>
                     dbind (plainly (before_dispatch m (NSuper v0) e)) (fun _ =>
                     dbind (superstate_handle_d n' e) (fun response =>
                     dbind (plainly self) (fun v1 =>
                     dbind (owning_response response (plainly (after_dispatch m (NSuper v1) e))) (fun _ =>
                     plainly (ret response)))))))
              | None => plainly (ret Super)
              end)
          | Transition t => plainly (ret (Transition t))
          end)
      end.

    (** blocking/state.rs:87-126. *)
    Definition bl_state_handle_d (e : Event m) : dcomp (State m) (response (State m)) :=
      dbind (plainly self) (fun x0 =>
      dbind (plainly (before_dispatch m (NState x0) e)) (fun _ =>
      dbind (plainly (s_call_handler m e)) (fun response =>
      dbind (plainly self) (fun x1 =>
      dbind (owning_response response (plainly (after_dispatch m (NState x1) e))) (fun _ =>
      match response with
      | Handled => plainly (ret Handled)
      | Super =>
          dbind (plainly self) (fun x =>
          match s_super m x with
          | Some u =>
              dvia (s_put m) u
                (dbind (plainly self) (fun u0 =>
                 dbind (plainly (before_dispatch m (NSuper u0) e)) (fun _ =>
                 dbind (superstate_handle_d stack e) (fun response =>
                 dbind (plainly self) (fun u1 =>
                 dbind (owning_response response (plainly (after_dispatch m (NSuper u1) e))) (fun _ =>
                 plainly (ret response)))))))
          | None => plainly (ret Super)
          end)
      | Transition t => plainly (ret (Transition t))
      end))))).

    (** awaitable/state.rs:119-148. *)
    Fixpoint handle_loop_d (n : nat) (e : Event m) : dcomp (Sup m) (response (State m)) :=
      match n with
      | 0 => plainly (abort Diverges)
      | S n' =>
          dbind (plainly self) (fun u0 =>
          dbind (plainly (before_dispatch m (NSuper u0) e)) (fun _ =>
          dbind (plainly (u_call_handler m e)) (fun response =>
          dbind (plainly self) (fun u1 =>
          dbind (owning_response response (plainly (after_dispatch m (NSuper u1) e))) (fun _ =>
          match response with
          | Handled => plainly (ret Handled)
          | Super =>
              dbind (plainly self) (fun u =>
              match u_super m u with
              | Some v => dvia (u_put m) v (handle_loop_d n' e)
              | None => plainly (ret Handled)
              end)
          | Transition t => plainly (ret (Transition t))
          end)))))
      end.

    (** awaitable/state.rs:103-154. *)
    Definition aw_state_handle_d (e : Event m) : dcomp (State m) (response (State m)) :=
      dbind (plainly self) (fun x0 =>
      dbind (plainly (before_dispatch m (NState x0) e)) (fun _ =>
      dbind (plainly (s_call_handler m e)) (fun response =>
      dbind (plainly self) (fun x1 =>
      dbind (owning_response response (plainly (after_dispatch m (NState x1) e))) (fun _ =>
      match response with
      | Handled => plainly (ret Handled)
      | Super =>
          dbind (plainly self) (fun x =>
          match s_super m x with
          | Some u => dvia (s_put m) u (handle_loop_d stack e)
          | None => plainly (ret Super)
          end)
      | Transition t => plainly (ret (Transition t))
      end))))).

    (** blocking/inner.rs:41-59, awaitable/inner.rs:43-63 — `target` owns the target until the
        swap (blocking line 52, awaitable 56), the old state after it. *)
    Definition transition_d (md : mode) (target : State m) : dcomp (State m) unit :=
      dbind (plainly self) (fun x =>
      dbind (owning target
        (dbind (plainly (match md with
                         | BlockingMode => before_transition m target x
                         | AwaitableMode => before_transition m x target
                         end)) (fun _ =>
         dbind (plainly (lift (Blocking.transition_path m stack x target))) (fun levels =>
         dbind (plainly (match md with
                         | BlockingMode => Blocking.state_exit m (fst levels)
                         | AwaitableMode => Awaitable.state_exit m (fst levels)
                         end)) (fun _ =>
         plainly (ret levels)))))) (fun levels =>
      dbind (plainly (swap_state m target)) (fun old =>
      dropping old
        (dbind (plainly (match md with
                         | BlockingMode => Blocking.state_enter m (snd levels)
                         | AwaitableMode => Awaitable.state_enter m (snd levels)
                         end)) (fun _ =>
         dbind (plainly self) (fun new =>
         plainly (after_transition m old new))))))).

    (** blocking/inner.rs:27-38, awaitable/inner.rs:26-40. *)
    Definition inner_handle_d (md : mode) (e : Event m) : dcomp (State m) unit :=
      dbind (match md with BlockingMode => bl_state_handle_d e | AwaitableMode => aw_state_handle_d e end)
        (fun response =>
         match response with
         | Super => plainly (ret tt)
         | Handled => plainly (ret tt)
         | Transition t => transition_d md t
         end).

    (** state_machine.rs:69-74 [71-76], 87-93 [89-99] and the operations of Api.v, with the drops.
        Initializing, and writing through `inner_mut`/`state_mut`, are left to Api.v: the library
        owns no other state value there. *)
    Definition dispatch_d (md : mode) (sm : state_machine m) (e : Event m) (cx : Ctx m)
      : outcome unit * state_machine m * Ctx m * list (event_of m) :=
      let r := inner_handle_d md e (state (sm_inner sm)) (shared_storage (sm_inner sm)) cx in
      (d_out r, StateMachine (Inner (d_sh r) (d_self r)) (initialized sm), d_cx r, d_tr r).

    Definition handle_d (md : mode) (sm : state_machine m) (e : Event m) (cx : Ctx m)
      : outcome unit * state_machine m * Ctx m * list (event_of m) :=
      if negb (initialized sm) then
        let r := run_inner (inner_init m stack md) (sm_inner sm) cx in
        match a_out r with
        | Ret _ =>
            let '(out, sm', cx', tr) := dispatch_d md (StateMachine (a_machine r) true) e (a_cx r) in
            (out, sm', cx', map Did (a_tr r) ++ tr)
        | Abort w =>
            (Abort w, StateMachine (a_machine r) (initialized sm), a_cx r, map Did (a_tr r))
        end
      else dispatch_d md sm e cx.

    Definition exec_d (md : mode) (o : op m) (sm : state_machine m)
      : outcome unit * state_machine m * option (Ctx m) * list (event_of m) :=
      match o with
      | OpHandle e cx =>
          let '(out, sm', cx', tr) := handle_d md sm e cx in (out, sm', Some cx', tr)
      | o => let '(out, sm', cx', tr) := exec stack md o sm in (out, sm', cx', map Did tr)
      end.

    (** The events of a whole history, call by call, and the machine in the end. *)
    Fixpoint run_d (md : mode) (ops : list (op m)) (sm : state_machine m)
      : list (outcome unit * list (event_of m)) * state_machine m :=
      match ops with
      | [] => ([], sm)
      | o :: ops' =>
          let '(out, sm1, _, tr) := exec_d md o sm in
          let '(rest, sm') := run_d md ops' sm1 in ((out, tr) :: rest, sm')
      end.
  End Functions.

End Drops.
Arguments DRes {m X A}.
Arguments d_out {m X A}.
Arguments d_self {m X A}.
Arguments d_sh {m X A}.
Arguments d_cx {m X A}.
Arguments d_tr {m X A}.
Arguments plainly {m X A}.
Arguments dbind {m X A B}.
Arguments dvia {m X V A}.
Arguments owning {m X A}.
Arguments dropping {m X A}.
Arguments owning_response {m X A}.
