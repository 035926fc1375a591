(** TypestatePoll.v — the awaitable `UninitializedStateMachine` and `InitializedStateMachine` at
    the level of polls, with what their futures own.  No proofs here.

    `UninitializedStateMachine::init_with_context(self, ..)` moves the machine into its future:
    whoever drops that future drops the machine.  `InitializedStateMachine::handle_with_context`
    borrows it, like the methods of `StateMachine`.  Simplifications as in DropPoll.v and Life.v. *)

From Coq Require Import List Bool Arith.
From Verif Require Import Machine Awaitable Api Poll Drops DropPoll Life.
Import ListNotations.
Set Implicit Arguments.

Section TypestatePoll.
  Variable World : Type.
  Variable m : machine.
  Variable F : futures World m.
  Variable stack : nat.
  Notation store X := (X * Shared m * Ctx m)%type.

  Definition as_life (tr : list (event_of m)) : list (life_event m) := map Ev tr.

  (** The future of `init`: it owns an `Inner`, and only borrows the context. *)
  Inductive ipoll_result (Fu : Type) : Type :=
  | IReady (im : initialized_machine m) (cx : Ctx m) (tr : list (life_event m))
  | IPanics (y : why) (cx : Ctx m) (tr : list (life_event m))
  | IPending (cx : Ctx m) (tr : list (life_event m)) (f : Fu).
  Arguments IReady {Fu}.
  Arguments IPanics {Fu}.
  Arguments IPending {Fu}.
  CoInductive init_fut : Type :=
  | InitFut (owned : inner m) (poll : World -> Ctx m -> ipoll_result init_fut).
  Definition ipoll (f : init_fut) := match f with InitFut _ p => p end.
  Definition owned (f : init_fut) := match f with InitFut i _ => i end.

  (** awaitable/state_machine.rs:635-645 (and :599-607): `state_machine` owns the machine while
      `inner.init_with_context` is awaited; it is returned, or dropped by unwinding. *)
  CoFixpoint init_running (i : inner m) (c : fut World m (store (State m)) unit) : init_fut :=
    InitFut i (fun w cx =>
      match poll c w (state i, shared_storage i, cx) with
      | PReady (Ret _) s tr =>
          IReady (InitializedMachine (Inner (snd (fst s)) (fst (fst s)))) (snd s) (as_life (map Did tr))
      | PReady (Abort y) s tr =>
          IPanics y (snd s) (as_life (map Did tr) ++
                             if unwinds y then drop_inner (Inner (snd (fst s)) (fst (fst s))) else [])
      | PPending s tr c' =>
          IPending (snd s) (as_life (map Did tr)) (init_running (Inner (snd (fst s)) (fst (fst s))) c')
      end).
  Definition a_um_init (um : uninitialized_machine m) : init_fut :=
    init_running (um_inner um) (a_inner_init F stack).

  (** As [drive] and [execute]. *)
  Fixpoint idrive (f : init_fut) (w : World) (ws : list World) (cx : Ctx m)
    : option (outcome (initialized_machine m)) * Ctx m * list (life_event m) * (World * list World) :=
    match ipoll f w cx with
    | IReady im cx' tr => (Some (Ret im), cx', tr, (w, ws))
    | IPanics y cx' tr => (Some (Abort y), cx', tr, (w, ws))
    | IPending cx' tr f' =>
        match ws with
        | [] => (None, cx', tr ++ drop_inner (owned f'), (w, []))
        | w' :: ws' => let '(o, cx2, tr2, unused) := idrive f' w' ws' cx' in (o, cx2, tr ++ tr2, unused)
        end
    end.
  Definition iexecute (f : init_fut) (ws : list World) (cx : Ctx m)
    : option (outcome (initialized_machine m)) * Ctx m * list (life_event m) :=
    match ws with
    | [] => (None, cx, drop_inner (owned f))
    | w :: ws' => fst (idrive f w ws' cx)
    end.

  (** :338-343 *)
  Definition o_im_handle (e : Event m) : ofut World m (initialized_machine m * Ctx m) unit :=
    oborrow (fun s : initialized_machine m * Ctx m =>
               (state (im_inner (fst s)), shared_storage (im_inner (fst s)), snd s))
            (fun (s : initialized_machine m * Ctx m) (t : store (State m)) =>
               (InitializedMachine (Inner (snd (fst t)) (fst (fst t))), snd t))
            (o_inner_handle F stack e).

  (** What a client does with an `InitializedStateMachine`; :427-429, :463-465. *)
  Inductive aim_op : Type :=
  | AHandle (c : polled_call World m)
  | AInnerMut (f : Shared m -> Shared m)
  | AStateMut (f : State m -> State m).
  Definition aim_exec (o : aim_op) (im : initialized_machine m)
    : option (outcome unit) * initialized_machine m * list (event_of m) :=
    match o with
    | AHandle c =>
        let '(out, (im', _), tr) := oexecute (o_im_handle (pc_event c)) (pc_polls c) (im, pc_ctx c) in
        (out, im', tr)
    | AInnerMut f => (Some (Ret tt), InitializedMachine (Inner (f (shared_storage (im_inner im))) (state (im_inner im))), [])
    | AStateMut f => (Some (Ret tt), InitializedMachine (Inner (shared_storage (im_inner im)) (f (state (im_inner im)))), [])
    end.
  Fixpoint aim_run (ops : list aim_op) (im : initialized_machine m)
    : list (option (outcome unit) * list (event_of m)) * initialized_machine m :=
    match ops with
    | [] => ([], im)
    | o :: ops' =>
        let '(out, im1, tr) := aim_exec o im in
        let '(rest, im') := aim_run ops' im1 in ((out, tr) :: rest, im')
    end.

  (** The life of a machine: used by [pre]; initialized with a context and these polls, or
      dropped; used by [ops]; dropped. *)
  Definition aum_life (pre : list (um_op m)) (init : option (Ctx m * list World)) (ops : list aim_op)
      (um : uninitialized_machine m) : list (option (outcome unit)) * list (life_event m) :=
    let um1 := fold_left (fun u o => um_exec o u) pre um in
    match init with
    | None => ([], drop_inner (um_inner um1))
    | Some (cx, polls) =>
        match iexecute (a_um_init um1) polls cx with
        | (Some (Ret im), _, tr) =>
            let '(rs, im') := aim_run ops im in
            (Some (Ret tt) :: map fst rs, tr ++ as_life (flat_map snd rs) ++ drop_inner (im_inner im'))
        | (Some (Abort y), _, tr) => ([Some (Abort y)], tr)
        | (None, _, tr) => ([None], tr)
        end
    end.
End TypestatePoll.
Arguments IReady {m Fu}.
Arguments IPanics {m Fu}.
Arguments IPending {m Fu}.
Arguments ipoll {World m}.
Arguments owned {World m}.
Arguments idrive {World m}.
Arguments iexecute {World m}.
Arguments AHandle {World m}.
Arguments AInnerMut {World m}.
Arguments AStateMut {World m}.
