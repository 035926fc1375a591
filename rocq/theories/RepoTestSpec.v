(** RepoTestSpec.v — what the machines of the tests and of the remaining examples are supposed
    to do.  Only [some_completed] mentions the library: it reads the results of calls. *)

From Coq Require Import String List Bool Arith.
From Verif Require Import Machine Api RepoTests.
Import ListNotations.
Open Scope string_scope.
Open Scope list_scope.

(** ** Foo: the steps an event takes from a state, and the state it ends in.
<<
    s                   events:  s11: A -> s11, B -> s12
      s1: s11, s12               s12: C -> s211
      s2: s21: s211              s2:  D -> s11
>> *)
Definition leave (n : node foo_state foo_super) : foo_step := (n, Exited).
Definition enter (n : node foo_state foo_super) : foo_step := (n, Entered).
Definition foo_walk (x : foo_state) (e : foo_event) : list foo_step * foo_state :=
  match x, e with
  | S11, EvtA => ([leave (NState S11); enter (NState S11)], S11)
  | S11, EvtB => ([leave (NState S11); enter (NState S12)], S12)
  | S12, EvtC => ([leave (NState S12); leave (NSuper S1); enter (NSuper S2); enter (NSuper S21); enter (NState S211)], S211)
  | S211, EvtD => ([leave (NState S211); leave (NSuper S21); leave (NSuper S2); enter (NSuper S1); enter (NState S11)], S11)
  | _, _ => ([], x)
  end.
Fixpoint foo_walks (x : foo_state) (evs : list foo_event) : list foo_step * foo_state :=
  match evs with
  | [] => ([], x)
  | e :: evs' =>
      let '(l, y) := foo_walk x e in
      let '(l', z) := foo_walks y evs' in (l ++ l', z)
  end.
Definition foo_start : list foo_step := [enter (NSuper S0); enter (NSuper S1); enter (NState S11)].

(** ** Counter: `Press` counts up or down, between 0 and [max]; `Elapsed` turns round. *)
Definition count (max : nat) (a : bool * nat) (e : counter_event) : bool * nat :=
  match a, e with
  | (true, n), Press => (true, if Nat.ltb n max then S n else max)
  | (false, n), Press => (false, pred n)
  | (up, n), Elapsed => (negb up, n)
  end.

(** ** Machine<T>: the value that is held: the first one offered since the last `Foo`. *)
Definition hold {T} (held : option T) (e : generic_event T) : option T :=
  match held, e with
  | None, EvBar t => Some t
  | Some _, EvFoo => None
  | _, _ => held
  end.

(** ** BenchComplex: 0 is idle; event n+1 leads on from n. *)
Definition move_on (n e : nat) : nat :=
  if Nat.eqb e (S n) then (if Nat.eqb n 0 then 2 else if Nat.eqb n 50 then 0 else S n) else n.

(** ** Receiver: at least one of the calls returned; the lines whose writing was completed. *)
Definition some_completed {m} (l : list (called m)) : Prop := Exists (fun c => c_out c = Ret tt) l.
Definition delivered (log : list attempt) : list string :=
  map fst (filter (fun a => match snd a with Returns _ => true | _ => false end) log).

(** ** tests/state_local_storage.rs: after n events. *)
Definition alternates (n : nat) : local_state :=
  match n with 0 => LOn false 23 | _ => if Nat.even n then LOn true 34 else LOff false end.
