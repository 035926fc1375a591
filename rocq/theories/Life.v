(** Life.v — the whole life of a machine, its drop included.  No type of statig implements `Drop`,
    so a machine is dropped field by field, in the order of declaration: `inner` of the machine,
    and of that `shared_storage` before `state` (blocking/inner.rs:5-11, awaitable/inner.rs:6-12).
    As in Drops.v, destructors neither panic nor touch the machine.  No proofs here. *)

From Coq Require Import List Bool Arith.
From Verif Require Import Machine Api Drops.
Import ListNotations.
Set Implicit Arguments.

(** A call into user code, a state dropped, or the shared storage dropped. *)
Inductive life_event (m : machine) : Type :=
| Ev (e : event_of m)
| DroppedStorage (sh : Shared m).
Arguments Ev {m}.
Arguments DroppedStorage {m}.

Section Life.
  Variable m : machine.
  Variable stack : nat.
  Variable md : mode.

  (** The drop glue of `Inner<M>`. *)
  Definition drop_inner (i : inner m) : list (life_event m) :=
    [DroppedStorage (shared_storage i); Ev (Dropped (state i))].

  Definition events_of (rs : list (outcome unit * list (event_of m))) : list (life_event m) :=
    map Ev (flat_map snd rs).

  (** A `StateMachine` that the client uses by [ops] and then drops: how each use ended, and all
      that happened. *)
  Definition sm_life (ops : list (op m)) (sm : state_machine m)
    : list (outcome unit) * list (life_event m) :=
    let '(rs, sm') := run_d stack md ops sm in
    (map fst rs, events_of rs ++ drop_inner (sm_inner sm')).

  (** What a client can do with an `UninitializedStateMachine` and with an
      `InitializedStateMachine`, besides initializing it. *)
  Inductive um_op : Type :=
  | UInnerMut (f : Shared m -> Shared m)
  | UStateMut (f : State m -> State m).
  Inductive im_op : Type :=
  | IHandle (e : Event m) (cx : Ctx m)
  | IInnerMut (f : Shared m -> Shared m)
  | IStateMut (f : State m -> State m).

  (** state_machine.rs:675-677 [693-695], 705-707 [723-725]. *)
  Definition um_exec (o : um_op) (um : uninitialized_machine m) : uninitialized_machine m :=
    match o with
    | UInnerMut f => um_inner_mut f um
    | UStateMut f => um_state_mut f um
    end.

  (** :332-338 [338-343] (`handle_with_context`), :418-420 [427-429], :451-453 [463-465], with the
      drops. *)
  Definition im_exec_d (o : im_op) (im : initialized_machine m)
    : outcome unit * initialized_machine m * list (event_of m) :=
    match o with
    | IHandle e cx =>
        let r := inner_handle_d m stack md e (state (im_inner im)) (shared_storage (im_inner im)) cx in
        (d_out r, InitializedMachine (Inner (d_sh r) (d_self r)), d_tr r)
    | IInnerMut f => (Ret tt, InitializedMachine (Inner (f (shared_storage (im_inner im))) (state (im_inner im))), [])
    | IStateMut f => (Ret tt, InitializedMachine (Inner (shared_storage (im_inner im)) (f (state (im_inner im)))), [])
    end.
  Fixpoint im_run_d (ops : list im_op) (im : initialized_machine m)
    : list (outcome unit * list (event_of m)) * initialized_machine m :=
    match ops with
    | [] => ([], im)
    | o :: ops' =>
        let '(out, im1, tr) := im_exec_d o im in
        let '(rest, im') := im_run_d ops' im1 in ((out, tr) :: rest, im')
    end.

  (** An `UninitializedStateMachine` that the client uses by [pre] and then drops, or initializes
      with [init_cx], uses by [ops] and then drops.  `init` consumes the machine
      (state_machine.rs:617-624 [635-645]): the local variable `state_machine` owns it, so when
      `init` unwinds, or its future is dropped, the machine is dropped with it. *)
  Definition um_life (pre : list um_op) (init_cx : option (Ctx m)) (ops : list im_op)
      (um : uninitialized_machine m) : list (outcome unit) * list (life_event m) :=
    let um1 := fold_left (fun u o => um_exec o u) pre um in
    match init_cx with
    | None => ([], drop_inner (um_inner um1))
    | Some cx =>
        let r := run_inner (inner_init m stack md) (um_inner um1) cx in
        match a_out r with
        | Ret _ =>
            let '(rs, im') := im_run_d ops (InitializedMachine (a_machine r)) in
            (Ret tt :: map fst rs,
             map Ev (map Did (a_tr r)) ++ events_of rs ++ drop_inner (im_inner im'))
        | Abort w =>
            ([Abort w],
             map Ev (map Did (a_tr r)) ++ if unwinds w then drop_inner (a_machine r) else [])
        end
    end.
End Life.
Arguments UInnerMut {m}.
Arguments UStateMut {m}.
Arguments IHandle {m}.
Arguments IInnerMut {m}.
Arguments IStateMut {m}.
