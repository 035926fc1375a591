(** Machine.v — the vocabulary of the model: responses, the traits a user implements,
    and the effect of running library code.  No proofs here.

    Source: /repo/statig/src (crate `statig` 0.4.0). *)

From Coq Require Import List Bool Arith.
Import ListNotations.

Set Implicit Arguments.

(** response.rs:4-11 — `enum Response<S>`. *)
Inductive response (S : Type) : Type :=
| Handled
| Super
| Transition (s : S).
Arguments Handled {S}.
Arguments Super {S}.
Arguments Transition {S} s.

(** How a call into user code ends.  Not a Rust type: a blocking callback returns or
    panics; an awaited callback may in addition be cancelled, when the future that
    awaits it is dropped while the callback's own future is pending
    (awaitable/state.rs: every `.await`). *)
Inductive reply (A : Type) : Type :=
| Returns (a : A)
| Panics
| Cancelled.
Arguments Returns {A} a.
Arguments Panics {A}.
Arguments Cancelled {A}.

(** state_or_superstate.rs:5-10 — `enum StateOrSuperstate<'a, State, Superstate>`,
    a reference to either kind of node. *)
Inductive node (S U : Type) : Type :=
| NState (s : S)
| NSuper (u : U).
Arguments NState {S U} s.
Arguments NSuper {S U} u.

(** Everything the user (or the macro) supplies.

    - blocking/into_state_machine.rs:4-48, awaitable/into_state_machine.rs:6-64:
      the associated types, `initial`, and the four hooks.  Hooks get `&mut self` (the
      shared storage) and shared references, no context.
    - blocking/state.rs:5-30, awaitable/state.rs:8-46 (`trait State`) and
      blocking/superstate.rs:7-34, awaitable/superstate.rs:8-47 (`trait Superstate`):
      `call_handler`, `call_entry_action`, `call_exit_action`, `superstate`.

    A callback taking `&mut self, &mut M, &mut Context` returns the new values of all
    three, also when it panics or is cancelled (writes made so far persist).

    `superstate(&mut self) -> Option<Superstate<'_>>` is a mutable borrow: [s_super] is
    the view it creates, [s_put x v] is the value of the state [x] once the borrow ends
    with the view having value [v].  Simplification: `superstate` itself is a total,
    pure projection (as all generated and documented implementations are).

    [s_disc]/[u_disc] stand for `core::mem::discriminant`. *)
Record machine : Type := Machine {
  State : Type;
  Sup : Type;
  Shared : Type;
  Event : Type;
  Ctx : Type;

  initial : State;

  s_disc : State -> nat;
  u_disc : Sup -> nat;

  s_super : State -> option Sup;
  s_put : State -> Sup -> State;
  u_super : Sup -> option Sup;
  u_put : Sup -> Sup -> Sup;

  s_handler : State -> Shared -> Ctx -> Event ->
              reply (response State) * State * Shared * Ctx;
  s_entry : State -> Shared -> Ctx -> reply unit * State * Shared * Ctx;
  s_exit : State -> Shared -> Ctx -> reply unit * State * Shared * Ctx;

  u_handler : Sup -> Shared -> Ctx -> Event ->
              reply (response State) * Sup * Shared * Ctx;
  u_entry : Sup -> Shared -> Ctx -> reply unit * Sup * Shared * Ctx;
  u_exit : Sup -> Shared -> Ctx -> reply unit * Sup * Shared * Ctx;

  h_before_dispatch : Shared -> node State Sup -> Event -> reply unit * Shared;
  h_after_dispatch : Shared -> node State Sup -> Event -> reply unit * Shared;
  h_before_transition : Shared -> State -> State -> reply unit * Shared;
  h_after_transition : Shared -> State -> State -> reply unit * Shared
}.

(** Default trait methods: `call_entry_action`/`call_exit_action` do nothing
    (blocking/state.rs:20,24; blocking/superstate.rs:21,25; awaitable/state.rs:24-40;
    awaitable/superstate.rs:22-38) and hooks do nothing
    (blocking/into_state_machine.rs:27-47; awaitable/into_state_machine.rs:29-63). *)
Definition no_action {X Sh C : Type} (x : X) (sh : Sh) (c : C)
  : reply unit * X * Sh * C := (Returns tt, x, sh, c).
Definition no_dispatch_hook {Sh N E : Type} (sh : Sh) (_ : N) (_ : E)
  : reply unit * Sh := (Returns tt, sh).
Definition no_transition_hook {Sh S : Type} (sh : Sh) (_ _ : S)
  : reply unit * Sh := (Returns tt, sh).

Section Effects.
  Variable m : machine.

  (** One entry per call into user code, with the values passed.  [OReturn] records what
      a handler returned.  [OBeforeTransition a b]: the hook was called with [a] as its
      first (`source`) and [b] as its second (`target`) argument. *)
  Inductive obs : Type :=
  | OBeforeDispatch (n : node (State m) (Sup m)) (e : Event m)
  | OHandler (n : node (State m) (Sup m)) (e : Event m)
  | OReturn (r : response (State m))
  | OAfterDispatch (n : node (State m) (Sup m)) (e : Event m)
  | OBeforeTransition (a b : State m)
  | OAfterTransition (a b : State m)
  | OExit (n : node (State m) (Sup m))
  | OEnter (n : node (State m) (Sup m)).

  (** Why a library call did not return. *)
  Inductive why : Type :=
  | Panicked      (* a user callback panicked *)
  | DroppedFuture (* the future was dropped while a callback was pending *)
  | Underflow     (* `attempt to subtract with overflow` in library code *)
  | Diverges.     (* recursion/looping exceeded the bound [stack] *)

  Inductive outcome (A : Type) : Type :=
  | Ret (a : A)
  | Abort (w : why).
  Arguments Ret {A} a.
  Arguments Abort {A} w.

  (** Result of running library code with `self : &mut X`, `&mut M`, `&mut Context`. *)
  Record res (X A : Type) : Type := Res {
    r_out : outcome A;
    r_self : X;
    r_sh : Shared m;
    r_cx : Ctx m;
    r_tr : list obs
  }.
  Arguments Res {X A} _ _ _ _ _.

  Definition comp (X A : Type) : Type := X -> Shared m -> Ctx m -> res X A.

  Definition ret {X A : Type} (a : A) : comp X A :=
    fun x sh cx => Res (Ret a) x sh cx [].

  Definition abort {X A : Type} (w : why) : comp X A :=
    fun x sh cx => Res (Abort w) x sh cx [].

  (** Sequencing; nothing runs after an abort. *)
  Definition bind {X A B : Type} (c : comp X A) (k : A -> comp X B) : comp X B :=
    fun x sh cx =>
      let r := c x sh cx in
      match r_out r with
      | Ret a =>
          let r' := k a (r_self r) (r_sh r) (r_cx r) in
          Res (r_out r') (r_self r') (r_sh r') (r_cx r') (r_tr r ++ r_tr r')
      | Abort w => Res (Abort w) (r_self r) (r_sh r) (r_cx r) (r_tr r)
      end.

  (** The current value of `*self`. *)
  Definition self {X : Type} : comp X X := fun x sh cx => Res (Ret x) x sh cx [].

  (** Run [c] on the view [v] borrowed from `*self`; when the borrow ends — normally or
      by an abort — `*self` is [put self v']. *)
  Definition via {X V A : Type} (put : X -> V -> X) (v : V) (c : comp V A) : comp X A :=
    fun x sh cx =>
      let r := c v sh cx in
      Res (r_out r) (put x (r_self r)) (r_sh r) (r_cx r) (r_tr r).

  Definition outcome_of {A : Type} (r : reply A) : outcome A :=
    match r with
    | Returns a => Ret a
    | Panics => Abort Panicked
    | Cancelled => Abort DroppedFuture
    end.

  (** The eight primitives that call user code (and log the call). *)
  Definition call_action {X : Type}
      (f : X -> Shared m -> Ctx m -> reply unit * X * Shared m * Ctx m)
      (o : X -> obs) : comp X unit :=
    fun x sh cx =>
      let '(r, x', sh', cx') := f x sh cx in
      Res (outcome_of r) x' sh' cx' [o x].

  Definition call_handler {X : Type}
      (f : X -> Shared m -> Ctx m -> Event m ->
           reply (response (State m)) * X * Shared m * Ctx m)
      (nd : X -> node (State m) (Sup m)) (e : Event m) : comp X (response (State m)) :=
    fun x sh cx =>
      let '(r, x', sh', cx') := f x sh cx e in
      Res (outcome_of r) x' sh' cx'
          (OHandler (nd x) e :: match r with Returns a => [OReturn a] | _ => [] end).

  Definition call_hook {X : Type} (f : Shared m -> reply unit * Shared m) (o : obs)
    : comp X unit :=
    fun x sh cx =>
      let '(r, sh') := f sh in
      Res (outcome_of r) x sh' cx [o].

  Definition s_call_handler := call_handler (s_handler m) NState.
  Definition u_call_handler := call_handler (u_handler m) NSuper.
  Definition s_call_entry := call_action (s_entry m) (fun s => OEnter (NState s)).
  Definition s_call_exit := call_action (s_exit m) (fun s => OExit (NState s)).
  Definition u_call_entry := call_action (u_entry m) (fun u => OEnter (NSuper u)).
  Definition u_call_exit := call_action (u_exit m) (fun u => OExit (NSuper u)).

  Definition before_dispatch {X : Type} (n : node (State m) (Sup m)) (e : Event m)
    : comp X unit :=
    call_hook (fun sh => h_before_dispatch m sh n e) (OBeforeDispatch n e).
  Definition after_dispatch {X : Type} (n : node (State m) (Sup m)) (e : Event m)
    : comp X unit :=
    call_hook (fun sh => h_after_dispatch m sh n e) (OAfterDispatch n e).
  Definition before_transition {X : Type} (a b : State m) : comp X unit :=
    call_hook (fun sh => h_before_transition m sh a b) (OBeforeTransition a b).
  Definition after_transition {X : Type} (a b : State m) : comp X unit :=
    call_hook (fun sh => h_after_transition m sh a b) (OAfterTransition a b).

  (** Turning an internal failure of a pure computation into an abort. *)
  Definition lift {X A : Type} (o : outcome A) : comp X A :=
    fun x sh cx => Res o x sh cx [].

End Effects.

Arguments OBeforeDispatch {m}.
Arguments OHandler {m}.
Arguments OReturn {m}.
Arguments OAfterDispatch {m}.
Arguments OBeforeTransition {m}.
Arguments OAfterTransition {m}.
Arguments OExit {m}.
Arguments OEnter {m}.
Arguments Ret {A}.
Arguments Abort {A}.
Arguments Res {m X A}.
Arguments r_out {m X A}.
Arguments r_self {m X A}.
Arguments r_sh {m X A}.
Arguments r_cx {m X A}.
Arguments r_tr {m X A}.
Arguments ret {m X A}.
Arguments abort {m X A}.
Arguments bind {m X A B}.
Arguments self {m X}.
Arguments via {m X V A}.
Arguments lift {m X A}.

Declare Scope comp_scope.
Delimit Scope comp_scope with comp.
Notation "x <- c ;; k" := (bind c (fun x => k))
  (at level 61, c at next level, right associativity) : comp_scope.
Notation "c ;;; k" := (bind c (fun _ => k))
  (at level 61, right associativity) : comp_scope.
Bind Scope comp_scope with comp.
