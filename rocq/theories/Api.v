(** Api.v — model of /repo/statig/src/{blocking,awaitable}/state_machine.rs: the three
    machine types and their methods.  The two files are the same up to `async`/`.await`;
    line numbers are those of blocking/state_machine.rs, awaitable ones in brackets.
    No proofs here. *)

From Coq Require Import List Bool Arith.
From Verif Require Import Machine Blocking Awaitable.
Import ListNotations.
Set Implicit Arguments.

(** The crate's two modules. *)
Inductive mode := BlockingMode | AwaitableMode.

Section Api.
  Variable m : machine.
  Variable stack : nat.
  Variable md : mode.

  (** Which module's `Inner` is used. *)
  Definition inner_init : comp m (State m) unit :=
    match md with
    | BlockingMode => Blocking.inner_init m stack
    | AwaitableMode => Awaitable.inner_init m stack
    end.
  Definition inner_handle (e : Event m) : comp m (State m) unit :=
    match md with
    | BlockingMode => Blocking.inner_handle m stack e
    | AwaitableMode => Awaitable.inner_handle m stack e
    end.

  (** inner.rs:6-12 [inner.rs:5-11] — `struct Inner<M>`. *)
  Record inner := Inner { shared_storage : Shared m; state : State m }.

  (** state_machine.rs:44-50 [46-52] — `struct StateMachine<M>`. *)
  Record state_machine := StateMachine { sm_inner : inner; initialized : bool }.
  (** :309-314 [315-320] — `struct InitializedStateMachine<M>`. *)
  Record initialized_machine := InitializedMachine { im_inner : inner }.
  (** :547-552 [559-564] — `struct UninitializedStateMachine<M>`. *)
  Record uninitialized_machine := UninitializedMachine { um_inner : inner }.

  (** Result of a call on a machine of type [M]: how it ended, the machine and the
      context afterwards, and the calls made into user code. *)
  Record api_res (M : Type) := ApiRes {
    a_out : outcome unit;
    a_machine : M;
    a_cx : Ctx m;
    a_tr : list (obs m)
  }.

  (** A method of `Inner` called on the field `inner`. *)
  Definition run_inner (c : comp m (State m) unit) (i : inner) (cx : Ctx m)
    : api_res inner :=
    let r := c (state i) (shared_storage i) cx in
    ApiRes (r_out r) (Inner (r_sh r) (r_self r)) (r_cx r) (r_tr r).

  (** :11-23 [12-24] — `IntoStateMachineExt::state_machine`;
      :27-33 [28-34] — `uninitialized_state_machine`;
      :235-249 [241-255] — `Default` ([sh] is `M::default()`). *)
  Definition new_state_machine (sh : Shared m) : state_machine :=
    StateMachine (Inner sh (initial m)) false.
  Definition new_uninitialized (sh : Shared m) : uninitialized_machine :=
    UninitializedMachine (Inner sh (initial m)).
  Definition default_state_machine (sh : Shared m) : state_machine :=
    StateMachine (Inner sh (initial m)) false.

  (** :69-74 [71-76] — `StateMachine::init_with_context`.  `initialized` is set only
      after `inner.init_with_context` returned. *)
  Definition init_with_context (sm : state_machine) (cx : Ctx m)
    : api_res state_machine :=
    if negb (initialized sm) then
      let r := run_inner inner_init (sm_inner sm) cx in
      match a_out r with
      | Ret _ => ApiRes (Ret tt) (StateMachine (a_machine r) true) (a_cx r) (a_tr r)
      | Abort w =>
          ApiRes (Abort w) (StateMachine (a_machine r) (initialized sm)) (a_cx r) (a_tr r)
      end
    else ApiRes (Ret tt) sm cx [].

  (** The last statement of [handle_with_context]. *)
  Definition dispatch (sm : state_machine) (e : Event m) (cx : Ctx m)
    : api_res state_machine :=
    let r := run_inner (inner_handle e) (sm_inner sm) cx in
    ApiRes (a_out r) (StateMachine (a_machine r) (initialized sm)) (a_cx r) (a_tr r).

  (** :87-93 [89-99] — `StateMachine::handle_with_context`. *)
  Definition handle_with_context (sm : state_machine) (e : Event m) (cx : Ctx m)
    : api_res state_machine :=
    if negb (initialized sm) then
      let r := run_inner inner_init (sm_inner sm) cx in
      match a_out r with
      | Ret _ =>
          let r' := dispatch (StateMachine (a_machine r) true) e (a_cx r) in
          ApiRes (a_out r') (a_machine r') (a_cx r') (a_tr r ++ a_tr r')
      | Abort w =>
          ApiRes (Abort w) (StateMachine (a_machine r) (initialized sm)) (a_cx r) (a_tr r)
      end
    else dispatch sm e cx.

  (** :60-65 [62-67], :78-83 [80-85] — `init`, `handle` for `Context = ()`;
      :95-100 [101-106], :102-107 [108-113] — `step`, `step_with_context` for
      `Event = ()`.  The unit values are [unit_cx], [unit_ev]. *)
  Definition init (unit_cx : Ctx m) (sm : state_machine) : api_res state_machine :=
    init_with_context sm unit_cx.
  Definition handle (unit_cx : Ctx m) (sm : state_machine) (e : Event m)
    : api_res state_machine := handle_with_context sm e unit_cx.
  Definition step (unit_ev : Event m) (unit_cx : Ctx m) (sm : state_machine)
    : api_res state_machine := handle_with_context sm unit_ev unit_cx.
  Definition step_with_context (unit_ev : Event m) (sm : state_machine) (cx : Ctx m)
    : api_res state_machine := handle_with_context sm unit_ev cx.

  (** :110-112 [116-118] — `state`; :137-139 [143-145] — `inner` and :251-260 [257-266]
      `Deref`. *)
  Definition sm_state (sm : state_machine) : State m := state (sm_inner sm).
  Definition sm_shared (sm : state_machine) : Shared m := shared_storage (sm_inner sm).

  (** :169-171 [175-177] — `inner_mut`; :201-203 [207-209] — `state_mut`: an arbitrary
      update [f] through the returned reference. *)
  Definition inner_mut (f : Shared m -> Shared m) (sm : state_machine) : state_machine :=
    StateMachine (Inner (f (shared_storage (sm_inner sm))) (state (sm_inner sm)))
                 (initialized sm).
  Definition state_mut (f : State m -> State m) (sm : state_machine) : state_machine :=
    StateMachine (Inner (shared_storage (sm_inner sm)) (f (state (sm_inner sm))))
                 (initialized sm).

  (** :206-216 [212-222] — `Clone` (and inner.rs:62-73 [66-77]); user `clone`s are [csh], [cs]. *)
  Definition clone (csh : Shared m -> Shared m) (cs : State m -> State m)
      (sm : state_machine) : state_machine :=
    StateMachine (Inner (csh (shared_storage (sm_inner sm))) (cs (state (sm_inner sm))))
                 (initialized sm).

  (** :322-356 [329-359] — `InitializedStateMachine::{handle,handle_with_context,step,
      step_with_context}`. *)
  Definition im_handle_with_context (im : initialized_machine) (e : Event m) (cx : Ctx m)
    : api_res initialized_machine :=
    let r := run_inner (inner_handle e) (im_inner im) cx in
    ApiRes (a_out r) (InitializedMachine (a_machine r)) (a_cx r) (a_tr r).
  Definition im_handle (unit_cx : Ctx m) (im : initialized_machine) (e : Event m) :=
    im_handle_with_context im e unit_cx.
  Definition im_step (unit_ev : Event m) (unit_cx : Ctx m) (im : initialized_machine) :=
    im_handle unit_cx im unit_ev.
  Definition im_step_with_context (unit_ev : Event m) (im : initialized_machine)
      (cx : Ctx m) :=
    im_handle_with_context im unit_ev cx.

  (** :583-592 [599-608], :617-624 [635-645] —
      `UninitializedStateMachine::{init,init_with_context}` consume `self`: after an abort
      there is no machine any more.  `init` has a body of its own, equal to that of
      `init_with_context` with context `()`. *)
  Definition um_init_with_context (um : uninitialized_machine) (cx : Ctx m)
    : outcome initialized_machine * Ctx m * list (obs m) :=
    let r := run_inner inner_init (um_inner um) cx in
    (match a_out r with
     | Ret _ => Ret (InitializedMachine (a_machine r))
     | Abort w => Abort w
     end, a_cx r, a_tr r).
  Definition um_init (unit_cx : Ctx m) (um : uninitialized_machine)
    : outcome initialized_machine * Ctx m * list (obs m) :=
    let r := run_inner inner_init (um_inner um) unit_cx in
    (match a_out r with
     | Ret _ => Ret (InitializedMachine (a_machine r))
     | Abort w => Abort w
     end, a_cx r, a_tr r).

  (** :675-677 [693-695], :705-707 [723-725] — `inner_mut`, `state_mut` of
      `UninitializedStateMachine`. *)
  Definition um_inner_mut (f : Shared m -> Shared m) (um : uninitialized_machine) :=
    UninitializedMachine (Inner (f (shared_storage (um_inner um))) (state (um_inner um))).
  Definition um_state_mut (f : State m -> State m) (um : uninitialized_machine) :=
    UninitializedMachine (Inner (shared_storage (um_inner um)) (f (state (um_inner um)))).

  (** What a client can do with a `StateMachine` over time. *)
  Inductive op :=
  | OpInit (cx : Ctx m)
  | OpHandle (e : Event m) (cx : Ctx m)
  | OpInnerMut (f : Shared m -> Shared m)
  | OpStateMut (f : State m -> State m).

  Definition exec (o : op) (sm : state_machine)
    : outcome unit * state_machine * option (Ctx m) * list (obs m) :=
    match o with
    | OpInit cx =>
        let r := init_with_context sm cx in
        (a_out r, a_machine r, Some (a_cx r), a_tr r)
    | OpHandle e cx =>
        let r := handle_with_context sm e cx in
        (a_out r, a_machine r, Some (a_cx r), a_tr r)
    | OpInnerMut f => (Ret tt, inner_mut f sm, None, [])
    | OpStateMut f => (Ret tt, state_mut f sm, None, [])
    end.

  (** What one call of the client's program did. *)
  Record called := Called {
    c_out : outcome unit;
    c_cx : option (Ctx m);
    c_tr : list (obs m)
  }.

  (** [history ops sm cs sm']: running [ops] one after the other from [sm] ends in [sm'];
      [cs] tells for each of them how it ended, the context it left, and the calls it made
      into user code.  Aborted calls do not stop the client (panics are caught, futures
      dropped). *)
  Inductive history : list op -> state_machine -> list called -> state_machine -> Prop :=
  | history_nil sm : history [] sm [] sm
  | history_cons o ops sm out sm1 cx tr cs sm' :
      exec o sm = (out, sm1, cx, tr) ->
      history ops sm1 cs sm' ->
      history (o :: ops) sm (Called out cx tr :: cs) sm'.

  (** The same as a function, to run concrete histories. *)
  Fixpoint exec_all (ops : list op) (sm : state_machine) : list called * state_machine :=
    match ops with
    | [] => ([], sm)
    | o :: ops' =>
        let '(out, sm1, cx, tr) := exec o sm in
        let '(cs, sm') := exec_all ops' sm1 in (Called out cx tr :: cs, sm')
    end.

  (** The calls into user code made by a whole history. *)
  Definition log_of (cs : list called) : list (obs m) := flat_map c_tr cs.

  (** The client writes the state through `state_mut` only without changing its variant. *)
  Definition calm (o : op) : Prop :=
    match o with
    | OpStateMut f => forall x, s_disc m (f x) = s_disc m x
    | _ => True
    end.

  (** The call was aborted, and by an entry or exit action. *)
  Definition aborted_in_action (c : called) : Prop :=
    c_out c <> Ret tt /\
    exists tr o, c_tr c = tr ++ [o] /\ match o with OExit _ | OEnter _ => True | _ => False end.

  (** No call was aborted. *)
  Definition completed (cs : list called) : Prop := Forall (fun c => c_out c = Ret tt) cs.

  (** A client with two machines of the same type, e.g. a machine and its clone; [true]: the
      call is made on the first. *)
  Inductive history2 : list (bool * op) -> state_machine * state_machine ->
      list called * list called -> state_machine * state_machine -> Prop :=
  | history2_nil p : history2 [] p ([], []) p
  | history2_first o ops a b out a1 cx tr ca cb q :
      exec o a = (out, a1, cx, tr) -> history2 ops (a1, b) (ca, cb) q ->
      history2 ((true, o) :: ops) (a, b) (Called out cx tr :: ca, cb) q
  | history2_second o ops a b out b1 cx tr ca cb q :
      exec o b = (out, b1, cx, tr) -> history2 ops (a, b1) (ca, cb) q ->
      history2 ((false, o) :: ops) (a, b) (ca, Called out cx tr :: cb) q.

  (** A client program of two statements: the second runs on the machine and the context
      the first left, unless the first aborted. *)
  Definition and_then {M} (r : api_res M) (k : M -> Ctx m -> api_res M) : api_res M :=
    match a_out r with
    | Ret _ =>
        let r' := k (a_machine r) (a_cx r) in
        ApiRes (a_out r') (a_machine r') (a_cx r') (a_tr r ++ a_tr r')
    | Abort _ => r
    end.

  (** The `StateMachine` holding the same data as an `InitializedStateMachine`. *)
  Definition erase (im : initialized_machine) : state_machine :=
    StateMachine (im_inner im) true.

  (** Driving a machine with a list of events, each with its context. *)
  Fixpoint sm_handles (sm : state_machine) (evs : list (Event m * Ctx m))
    : state_machine * list called :=
    match evs with
    | [] => (sm, [])
    | (e, cx) :: evs' =>
        let r := handle_with_context sm e cx in
        let '(sm', cs) := sm_handles (a_machine r) evs' in
        (sm', Called (a_out r) (Some (a_cx r)) (a_tr r) :: cs)
    end.
  Fixpoint im_handles (im : initialized_machine) (evs : list (Event m * Ctx m))
    : initialized_machine * list called :=
    match evs with
    | [] => (im, [])
    | (e, cx) :: evs' =>
        let r := im_handle_with_context im e cx in
        let '(im', cs) := im_handles (a_machine r) evs' in
        (im', Called (a_out r) (Some (a_cx r)) (a_tr r) :: cs)
    end.

End Api.

Arguments Inner {m}.
Arguments StateMachine {m}.
Arguments InitializedMachine {m}.
Arguments UninitializedMachine {m}.
Arguments ApiRes {m M}.
Arguments a_out {m M}.
Arguments a_machine {m M}.
Arguments a_cx {m M}.
Arguments a_tr {m M}.
Arguments OpInit {m}.
Arguments OpHandle {m}.
Arguments OpInnerMut {m}.
Arguments OpStateMut {m}.
Arguments Called {m}.
Arguments c_out {m}.
Arguments c_cx {m}.
Arguments c_tr {m}.
