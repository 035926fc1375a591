(** RepoTests.v — the machines of the library's own tests (/repo/statig/tests) and of the
    remaining examples.  As in RepoExamples.v: machines written by hand as machines, annotated
    impl blocks with the bodies of their functions.  No proofs here. *)

From Coq Require Import String Ascii List Bool Arith.
From Verif Require Import MacroSyntax MacroVisit MacroAnalyze MacroLower MacroGen MacroSem MacroSpec MacroOrderSpec MacroSource MacroExamples.
From Verif Require Import Machine Api RepoExamples.
Import ListNotations.
Open Scope string_scope.
Open Scope list_scope.
Set Implicit Arguments.

(** ** Foo: tests/transition.rs (by hand), tests/transition_macro.rs; the same machine in
    tests/async_transition.rs and tests/async_transition_macro.rs, where every function is
    async and every future ready when first polled. *)
Inductive foo_event := EvtA | EvtB | EvtC | EvtD.                       (* transition.rs:9-15 *)
Inductive foo_action := Entered | Exited.                               (* :17-21 *)
Inductive foo_state := S11 | S12 | S211.                                (* :34-39 *)
Inductive foo_super := S0 | S1 | S2 | S21.                              (* :41-47; [S0] is `S` *)
(** :23-32: the field `path`, oldest first.  A `StateWrapper` is a state or a superstate. *)
Definition foo_step := (node foo_state foo_super * foo_action)%type.
(** :145-266 *)
Definition foo_handler (x : foo_state) (path : list foo_step) (e : foo_event)
  : reply (response foo_state) * list foo_step :=
  (Returns match x, e with
           | S11, EvtA => Transition S11
           | S11, EvtB => Transition S12
           | S12, EvtC => Transition S211
           | _, _ => Super
           end, path).
Definition foo_super_handler (u : foo_super) (path : list foo_step) (e : foo_event)
  : reply (response foo_state) * list foo_step :=
  (Returns match u, e with
           | S2, EvtD => Transition S11
           | S0, _ => Handled
           | _, _ => Super
           end, path).
(** The actions push a pair, `Foo::enter_s11` and so on. *)
Definition foo_pushes {X} (n : X -> node foo_state foo_super) (a : foo_action) (x : X) (path : list foo_step) (cx : unit)
  : reply unit * X * list foo_step * unit := (Returns tt, x, path ++ [(n x, a)], cx).
(** :49-143 *)
Definition foo : machine := {|
  State := foo_state; Sup := foo_super; Shared := list foo_step; Event := foo_event; Ctx := unit;
  initial := S11;
  s_disc := fun x => match x with S11 => 0 | S12 => 1 | S211 => 2 end;
  u_disc := fun u => match u with S0 => 0 | S1 => 1 | S2 => 2 | S21 => 3 end;
  s_super := fun x => match x with S211 => Some S21 | S11 | S12 => Some S1 end; s_put := fun x _ => x;
  u_super := fun u => match u with S21 => Some S2 | S0 => None | S2 | S1 => Some S0 end; u_put := fun u _ => u;
  s_handler := only_shared foo_handler;
  s_entry := foo_pushes (fun x => NState x) Entered; s_exit := foo_pushes (fun x => NState x) Exited;
  u_handler := only_shared foo_super_handler;
  u_entry := foo_pushes (fun u => NSuper u) Entered; u_exit := foo_pushes (fun u => NSuper u) Exited;
  h_before_dispatch := no_dispatch_hook; h_after_dispatch := no_dispatch_hook;
  h_before_transition := no_transition_hook; h_after_transition := no_transition_hook
|}.
Definition foo_name (x : foo_state) : ident * list unit :=
  (match x with S11 => "S11" | S12 => "S12" | S211 => "S211" end, []).
Definition foo_super_name (u : foo_super) : ident * list unit :=
  (match u with S0 => "S" | S1 => "S1" | S2 => "S2" | S21 => "S21" end, []).

(** transition_macro.rs:33-197 *)
Definition foo_args : list meta :=
  [initially "s11"; set_to "event_identifier" "event"; derive "state" ["Eq"; "PartialEq"; "Debug"];
   derive "superstate" ["Eq"; "PartialEq"; "Debug"]].
Definition relations_named (super : list string) (name : string) : list meta :=
  map (set_to "superstate") super ++ [set_to "entry_action" ("enter_" ++ name); set_to "exit_action" ("exit_" ++ name)].
Definition foo_actions (name : string) : list impl_fn :=
  [method [MetaPath ["action"]] ("enter_" ++ name) [Receiver]; method [MetaPath ["action"]] ("exit_" ++ name) [Receiver]].
Definition foo_leaf (super name : string) : list impl_fn :=
  method [with_args "state" (relations_named [super] name)] name [Receiver; ref_event] :: foo_actions name.
Definition foo_inner (super : list string) (name : string) : list impl_fn :=
  method [with_args "superstate" (relations_named super name)] name [Receiver; ref_event] :: foo_actions name.
Definition foo_methods : list impl_fn :=
  foo_leaf "s1" "s11" ++ foo_leaf "s1" "s12" ++ foo_inner ["s"] "s1" ++ foo_leaf "s21" "s211" ++
  foo_inner ["s2"] "s21" ++ foo_inner ["s"] "s2" ++ foo_inner [] "s".
Definition foo_impl : item_impl := impl_for "Foo" foo_methods.
(** async_transition_macro.rs *)
Definition async_foo_impl : item_impl := impl_for "Foo" (map asynchronous foo_methods).
(** The path of the generated machine: `State::s11()` is ("S11", []), `Superstate::S {}` is ("S", []). *)
Definition named_step := (node (ident * list unit) (ident * list unit) * foo_action)%type.
Definition pushes (n : node (ident * list unit) (ident * list unit)) (a : foo_action)
    (args : list (arg unit (list named_step) foo_event unit)) : reply unit * list (arg unit (list named_step) foo_event unit) :=
  match args with
  | [AShared path] => (Returns tt, [AShared (path ++ [(n, a)])])
  | _ => no_method args
  end.
Definition leaf_named (v : ident) : node (ident * list unit) (ident * list unit) := NState (v, []).
Definition super_named (v : ident) : node (ident * list unit) (ident * list unit) := NSuper (v, []).
Definition returning {Sh} (f : foo_event -> response (state_expr unit)) :=
  of_shared_event (Cx := unit) (fun (sh : Sh) e => (Returns (f e), sh)).
Definition foo_source : source unit (list named_step) foo_event unit := {|
  src_handler := by_method
    [("s11", returning (fun e => match e with
                                 | EvtA => Transition (Built "s11" [])
                                 | EvtB => Transition (Built "s12" [])
                                 | _ => Super end));
     ("s12", returning (fun e => match e with EvtC => Transition (Built "s211" []) | _ => Super end));
     ("s1", returning (fun _ => Super));
     ("s211", returning (fun _ => Super));
     ("s21", returning (fun _ => Super));
     ("s2", returning (fun e => match e with EvtD => Transition (Built "s11" []) | _ => Super end));
     ("s", returning (fun _ => Handled))] no_method;
  src_action := by_method
    [("enter_s11", pushes (leaf_named "S11") Entered); ("exit_s11", pushes (leaf_named "S11") Exited);
     ("enter_s12", pushes (leaf_named "S12") Entered); ("exit_s12", pushes (leaf_named "S12") Exited);
     ("enter_s1", pushes (super_named "S1") Entered); ("exit_s1", pushes (super_named "S1") Exited);
     ("enter_s211", pushes (leaf_named "S211") Entered); ("exit_s211", pushes (leaf_named "S211") Exited);
     ("enter_s21", pushes (super_named "S21") Entered); ("exit_s21", pushes (super_named "S21") Exited);
     ("enter_s2", pushes (super_named "S2") Entered); ("exit_s2", pushes (super_named "S2") Exited);
     ("enter_s", pushes (super_named "S") Entered); ("exit_s", pushes (super_named "S") Exited)] no_method;
  src_dispatch_hook := fun _ sh _ _ => (Returns tt, sh);
  src_transition_hook := fun _ sh _ _ => (Returns tt, sh);
  src_async := fun _ => false;
  src_eval := fun _ _ => tt; src_default := fun _ => tt
|}.
(** Corresponding steps. *)
Definition named_node (n : node foo_state foo_super) : node (ident * list unit) (ident * list unit) :=
  match n with NState x => NState (foo_name x) | NSuper u => NSuper (foo_super_name u) end.
Definition same_step (s : named_step) (t : foo_step) : Prop := s = (named_node (fst t), snd t).

(** ** FooBar: tests/hooks.rs:14-61 and tests/async_hooks.rs *)
(** :14-20: the flags before_dispatch, after_dispatch, before_transition, after_transition. *)
Record flags := Flags { f_bd : bool; f_ad : bool; f_bt : bool; f_at : bool }.
Definition hooks_args : list meta :=
  [initially "foo"; hook_is "before_dispatch" "before_dispatch"; hook_is "after_dispatch" "after_dispatch";
   hook_is "before_transition" "before_transition"; hook_is "after_transition" "after_transition"].
Definition hooks_methods : list impl_fn := [a_state "foo" [ref_event]; a_state "bar" [ref_event]].
Definition hooks_impl : item_impl := impl_for "FooBar" hooks_methods.
Definition async_hooks_impl : item_impl := impl_for "FooBar" (map asynchronous hooks_methods).
(** :43-61; in async_hooks.rs the hooks are async. *)
Definition hooks_source (asyncs : bool) : source unit flags unit unit := {|
  src_handler := by_method
    [("foo", of_event (fun _ => Transition (Built "bar" []))); ("bar", of_event (fun _ => Transition (Built "foo" [])))]
    no_method;
  src_action := fun _ => no_method;
  src_dispatch_hook := fun p '(Flags bd ad bt at_) _ _ =>
    match p with
    | ["Self"; "before_dispatch"] => (Returns tt, Flags true ad bt at_)
    | ["Self"; "after_dispatch"] => (Returns tt, Flags bd true bt at_)
    | _ => (Panics, Flags bd ad bt at_)
    end;
  src_transition_hook := fun p '(Flags bd ad bt at_) _ _ =>
    match p with
    | ["Self"; "before_transition"] => (Returns tt, Flags bd ad true at_)
    | ["Self"; "after_transition"] => (Returns tt, Flags bd ad bt true)
    | _ => (Panics, Flags bd ad bt at_)
    end;
  src_async := fun _ => asyncs;
  src_eval := fun _ _ => tt; src_default := fun _ => tt
|}.

(** The same machine, written by hand (not in the repository). *)
Inductive hooks_state := HFoo | HBar.
Definition foo_bar : machine := {|
  State := hooks_state; Sup := unit; Shared := flags; Event := unit; Ctx := unit;
  initial := HFoo;
  s_disc := fun x => match x with HFoo => 0 | HBar => 1 end; u_disc := fun _ => 0;
  s_super := fun _ => None; s_put := fun x _ => x; u_super := fun _ => None; u_put := fun u _ => u;
  s_handler := only_shared (fun x sh _ => (Returns (Transition match x with HFoo => HBar | HBar => HFoo end), sh));
  s_entry := no_action; s_exit := no_action;
  u_handler := unit_handler; u_entry := no_action; u_exit := no_action;
  h_before_dispatch := fun '(Flags bd ad bt at_) _ _ => (Returns tt, Flags true ad bt at_);
  h_after_dispatch := fun '(Flags bd ad bt at_) _ _ => (Returns tt, Flags bd true bt at_);
  h_before_transition := fun '(Flags bd ad bt at_) _ _ => (Returns tt, Flags bd ad true at_);
  h_after_transition := fun '(Flags bd ad bt at_) _ _ => (Returns tt, Flags bd ad bt true)
|}.
Definition hooks_name (x : hooks_state) : ident * list unit := (match x with HFoo => "Foo" | HBar => "Bar" end, []).

(** ** Counter: tests/external_context.rs:5-40.  `ExternalContext` is a pair of numbers, of type
    `usize`; [max] is `usize::MAX`. *)
Inductive counter_event := Press | Elapsed.
Definition saturating_add (max n : nat) : nat := Nat.min max (n + 1).
Definition saturating_sub (n : nat) : nat := n - 1.
Definition counter_args : list meta := [initially "up"].
Definition context_of (ty : ty) : fn_arg := by_ref "context" ty.
Definition external_context : ty := TPath ["ExternalContext"] [PartLifetime "_"; PartLifetime "_"].
Definition counter_impl : item_impl :=
  impl_for "Counter" [a_state "up" [context_of external_context; ref_event]; a_state "down" [context_of external_context; ref_event]].
(** `fn name(context: &mut C, event: &E)`. *)
Definition of_context_event {Val Sh Ev Cx} (f : Cx -> Ev -> response (state_expr Val) * Cx) (args : list (arg Val Sh Ev Cx))
  : reply (response (state_expr Val)) * list (arg Val Sh Ev Cx) :=
  match args with
  | [AContext cx; AEvent e] => let '(r, cx') := f cx e in (Returns r, [AContext cx'; AEvent e])
  | _ => (Panics, args)
  end.
Definition counter_source (max : nat) : source unit unit counter_event (nat * nat) := {|
  src_handler := by_method
    [("up", of_context_event (fun cx e => match e with
              | Press => (Handled, (saturating_add max (fst cx), snd cx))
              | Elapsed => (Transition (Built "down" []), cx) end));
     ("down", of_context_event (fun cx e => match e with
              | Press => (Handled, (saturating_sub (fst cx), snd cx))
              | Elapsed => (Transition (Built "up" []), cx) end))] no_method;
  src_action := fun _ => no_method;
  src_dispatch_hook := fun _ sh _ _ => (Returns tt, sh);
  src_transition_hook := fun _ sh _ _ => (Returns tt, sh);
  src_async := fun _ => false;
  src_eval := fun _ _ => tt; src_default := fun _ => tt
|}.
(** The same machine, written by hand (not in the repository). *)
Inductive counter_state := Up | Down.
Definition counter (max : nat) : machine := {|
  State := counter_state; Sup := unit; Shared := unit; Event := counter_event; Ctx := nat * nat;
  initial := Up;
  s_disc := fun x => match x with Up => 0 | Down => 1 end; u_disc := fun _ => 0;
  s_super := fun _ => None; s_put := fun x _ => x; u_super := fun _ => None; u_put := fun u _ => u;
  s_handler := fun x sh cx e =>
    match x, e with
    | Up, Press => (Returns Handled, x, sh, (saturating_add max (fst cx), snd cx))
    | Down, Press => (Returns Handled, x, sh, (saturating_sub (fst cx), snd cx))
    | Up, Elapsed => (Returns (Transition Down), x, sh, cx)
    | Down, Elapsed => (Returns (Transition Up), x, sh, cx)
    end;
  s_entry := no_action; s_exit := no_action;
  u_handler := unit_handler; u_entry := no_action; u_exit := no_action;
  h_before_dispatch := no_dispatch_hook; h_after_dispatch := no_dispatch_hook;
  h_before_transition := no_transition_hook; h_after_transition := no_transition_hook
|}.
Definition counter_name (x : counter_state) : ident * list unit := (match x with Up => "Up" | Down => "Down" end, []).
(** The client of the test (:42-75): one context passed to every call.  (The test initializes first,
    through `uninitialized_state_machine().init_with_context(..)`; by C10 that is the same.) *)
Section Client.
  Variable m : machine.
  Variables (stack : nat) (md : mode).
  Fixpoint pass_along (sm : state_machine m) (cx : Ctx m) (evs : list (Event m))
    : state_machine m * Ctx m * list (outcome unit) :=
    match evs with
    | [] => (sm, cx, [])
    | e :: evs' =>
        let r := handle_with_context stack md sm e cx in
        let '(sm', cx', outs) := pass_along (a_machine r) (a_cx r) evs' in
        (sm', cx', a_out r :: outs)
    end.
End Client.
Arguments pass_along {m} stack md sm cx evs.

(** ** Blinky: tests/state_local_storage.rs:8-156, written by hand: both states lend their field
    `led` to the superstate. *)
Inductive local_state := LOn (led : bool) (counter : nat) | LOff (led : bool).
Inductive local_super := LPlaying (led : bool).
Definition local_led (x : local_state) : bool := match x with LOn led _ | LOff led => led end.
Definition local_storage : machine := {|
  State := local_state; Sup := local_super; Shared := unit; Event := unit; Ctx := unit;
  initial := LOn false 23;
  s_disc := fun x => match x with LOn _ _ => 0 | LOff _ => 1 end; u_disc := fun _ => 0;
  s_super := fun x => Some (LPlaying (local_led x));
  s_put := fun x u => match x, u with LOn _ c, LPlaying led => LOn led c | LOff _, LPlaying led => LOff led end;
  u_super := fun _ => None; u_put := fun _ v => v;   (* never used: no superstate has a superstate *)
  s_handler := only_shared (fun x sh _ =>
    (Returns (Transition match x with LOn _ _ => LOff false | LOff _ => LOn true 34 end), sh));
  s_entry := fun x sh cx => (Returns tt, match x with LOff _ => LOff false | _ => x end, sh, cx);
  s_exit := no_action;
  u_handler := only_shared (fun _ sh _ => (Returns Handled, sh)); u_entry := no_action; u_exit := no_action;
  h_before_dispatch := no_dispatch_hook; h_after_dispatch := no_dispatch_hook;
  h_before_transition := no_transition_hook; h_after_transition := no_transition_hook
|}.

(** ** tests/config_macro.rs:7-44 *)
Definition config_args : list meta :=
  [set_to "initial" "MyState::bar()";
   with_args "state" [set_to "name" "MyState"; MetaList ["derive"] (Tokens None None (Some [["PartialEq"]; ["Eq"]]))];
   with_args "superstate" [set_to "name" "MySuperstate"; MetaList ["derive"] (Tokens None None (Some [["Clone"]]))];
   set_to "event_identifier" "my_event"; set_to "context_identifier" "my_context"; set_to "visibility" "pub(crate)"].
Definition my_event : fn_arg := Typed (PatType [] (PatIdent "my_event") (TReference None false (named_type "Event"))).
Definition config_impl : item_impl :=
  impl_for "MyStateMachine"
    [a_state_in "foo" "bar" [my_event; by_ref "my_context" (named_type "Context")];
     a_superstate "foo" [my_event; by_ref "my_context" (named_type "Context")]].

(** ** tests/default.rs:7-19 *)
Definition default_args : list meta := [initially "bar"].
Definition default_impl : item_impl :=
  impl_for "Foo" [a_state "bar" [by_ref_default "local" (MetaPath ["default"]) (named_type "usize");
                                 by_ref_default "local_2" (set_to "default" "100") (named_type "usize")]].
Definition default_source : source nat unit unit unit := {|
  src_handler := by_method [("bar", fun args => (Returns Handled, args))] no_method;
  src_action := fun _ => no_method;
  src_dispatch_hook := fun _ sh _ _ => (Returns tt, sh);
  src_transition_hook := fun _ sh _ _ => (Returns tt, sh);
  src_async := fun _ => false;
  src_eval := fun e _ => match e with Expr s => if (s =? "100")%string then 100 else 1 end;
  src_default := fun _ => 0                               (* `usize::default()` *)
|}.

(** ** tests/generics.rs:10-41 *)
Definition array_of (t : ty) (size : ident) : ty := TOther "array" [PartType t; PartIdent size].
Definition generics_args : list meta := [initially "a"].
Definition by_shared_ref (name : string) (t : ty) : fn_arg := Typed (PatType [] (PatIdent name) (TReference None false t)).
Definition generics_impl : item_impl :=
  ItemImpl (TPath ["Counter"] [PartLifetime "a"; PartType (named_type "T"); PartType (named_type "A");
                               PartType (named_type "B"); PartType (named_type "SIZE")])
    (Generics [GLifetime "a" []; GType "T" []; GType "A" []; GType "B" []; GConst "SIZE"]
       [WhereType (named_type "T") ["'static"; "Default"; "Copy"]; WhereType (named_type "A") ["'static"; "Deref<Target = B>"];
        WhereType (named_type "B") ["'static"]])
    (map ItemMethod
      [a_state "a" []; a_state "b" [by_ref "array" (array_of (named_type "T") "SIZE")];
       a_state "c" [by_shared_ref "deref" (named_type "B")]]).

(** ** Machine: examples/macro/generics/src/main.rs:9-55 *)
Definition machine_args : list meta := [initially "foo"].
Definition event_of_t : fn_arg :=
  Typed (PatType [] (PatIdent "event") (TReference None false (TPath ["Event"] [PartType (named_type "T")]))).
Definition machine_impl : item_impl :=
  ItemImpl (TPath ["Machine"] [PartLifetime "d"; PartType (named_type "T"); PartType (named_type "A"); PartType (named_type "SIZE")])
    (Generics [GLifetime "d" []; GType "T" []; GType "A" []; GConst "SIZE"]
       [WhereType (named_type "T") ["'static"; "Debug"; "Clone"; "Copy"; "Default"]; WhereType (named_type "A") ["'static"; "Deref"]])
    (map ItemMethod
      [a_state "foo" [event_of_t];
       method [MetaPath ["action"]] "enter_bar" [by_ref "value" (named_type "T")];
       method [with_args "state" [set_to "superstate" "foo_and_bar"; set_to "entry_action" "enter_bar"]] "bar"
         [by_ref "value" (named_type "T"); by_shared_ref "buffer" (array_of (named_type "T") "SIZE"); event_of_t];
       a_superstate "foo_and_bar" [by_ref "value" (named_type "T")]]).
(** What `T` and `[T; SIZE]` hold; [size] is `SIZE`. *)
Inductive generic_val (T : Type) := VT (t : T) | VArray (l : list T).
Arguments VT {T} t.
Arguments VArray {T} l.
Inductive generic_event (T : Type) := EvFoo | EvBar (t : T).            (* :9-12 *)
Arguments EvFoo {T}.
Arguments EvBar {T} t.
Definition machine_source (T : Type) (default : T) (size : nat) : source (generic_val T) unit (generic_event T) unit := {|
  src_handler := by_method
    [("foo", of_event (fun e => match e with
               | EvBar t => Transition (Built "bar" [VT t; VArray (repeat default size)])
               | _ => Super end));
     ("bar", fun args => match args with
               | [AField _; AField _; AEvent e] =>
                   (Returns match e with EvFoo => Transition (Built "foo" []) | _ => Super end, args)
               | _ => no_method args end);
     ("foo_and_bar", fun args => match args with [AField _] => (Returns Super, args) | _ => no_method args end)] no_method;
  src_action := by_method [("enter_bar", fun args => match args with [AField _] => (Returns tt, args) | _ => no_method args end)] no_method;
  src_dispatch_hook := fun _ sh _ _ => (Returns tt, sh);
  src_transition_hook := fun _ sh _ _ => (Returns tt, sh);
  src_async := fun _ => false;
  src_eval := fun _ _ => VT default; src_default := fun _ => VT default     (* not used *)
|}.
(** The same machine, written by hand (not in the repository). *)
Inductive gen_state (T : Type) := GFoo | GBar (value : generic_val T) (buffer : generic_val T).
Inductive gen_super (T : Type) := GFooAndBar (value : generic_val T).
Arguments GFoo {T}.
Arguments GBar {T} value buffer.
Arguments GFooAndBar {T} value.
Definition gen_machine (T : Type) (default : T) (size : nat) : machine := {|
  State := gen_state T; Sup := gen_super T; Shared := unit; Event := generic_event T; Ctx := unit;
  initial := GFoo;
  s_disc := fun x => match x with GFoo => 0 | GBar _ _ => 1 end; u_disc := fun _ => 0;
  s_super := fun x => match x with GFoo => None | GBar v _ => Some (GFooAndBar v) end;
  s_put := fun x u => match x, u with GBar _ b, GFooAndBar v => GBar v b | _, _ => x end;
  u_super := fun _ => None; u_put := fun _ v => v;   (* never used: no superstate has a superstate *)
  s_handler := only_shared (fun x sh e =>
    (Returns match x, e with
             | GFoo, EvBar t => Transition (GBar (VT t) (VArray (repeat default size)))
             | GBar _ _, EvFoo => Transition GFoo
             | _, _ => Super
             end, sh));
  s_entry := no_action; s_exit := no_action;
  u_handler := only_shared (fun _ sh _ => (Returns Super, sh)); u_entry := no_action; u_exit := no_action;
  h_before_dispatch := no_dispatch_hook; h_after_dispatch := no_dispatch_hook;
  h_before_transition := no_transition_hook; h_after_transition := no_transition_hook
|}.
Definition gen_name {T} (x : gen_state T) : ident * list (generic_val T) :=
  match x with GFoo => ("Foo", []) | GBar v b => ("Bar", [v; b]) end.
Definition gen_super_name {T} (u : gen_super T) : ident * list (generic_val T) :=
  match u with GFooAndBar v => ("FooAndBar", [v]) end.

(** ** Receiver: examples/macro/async_io/src/main.rs:8-45.  The shared storage is the list of the
    attempts to write a line to the connection, oldest first, each with the way awaiting
    `write_all(line)` and the `unwrap` ended: done, a panic, or the future was dropped while
    pending.  [io before line] decides it; it may depend on everything attempted before. *)
Definition attempt := (string * reply unit)%type.
Definition connection := list attempt -> string -> reply unit.
Definition attempted (io : connection) (line : string) (before : list attempt) : list attempt :=
  before ++ [(line, io before line)].
Definition receiver_args : list meta := [initially "on"].
Definition receiver_impl : item_impl :=
  impl_for "Receiver"
    [asynchronous (method [MetaPath ["action"]] "enter_on" [Receiver]);
     asynchronous (method [with_args "state" [set_to "entry_action" "enter_on"]] "on" [Receiver; ref_event]);
     asynchronous (a_state "off" [Receiver; ref_event])].
Definition entering_on : string := "Entering `On`".
Definition received_step : string := "Received `Step`".
Definition receiver_source (io : connection) : source unit (list attempt) unit unit := {|
  src_handler := by_method
    [("on", of_shared_event (fun lines _ =>
        (match io lines received_step with
         | Returns _ => Returns (Transition (Built "off" [])) | Panics => Panics | Cancelled => Cancelled
         end, attempted io received_step lines)));
     ("off", of_shared_event (fun lines _ => (Returns (Transition (Built "off" [])), lines)))] no_method;
  src_action := by_method
    [("enter_on", fun args => match args with
        | [AShared lines] => (io lines entering_on, [AShared (attempted io entering_on lines)])
        | _ => no_method args end)] no_method;
  src_dispatch_hook := fun _ sh _ _ => (Returns tt, sh);
  src_transition_hook := fun _ sh _ _ => (Returns tt, sh);
  src_async := fun _ => false;
  src_eval := fun _ _ => tt; src_default := fun _ => tt
|}.
(** The same machine, written by hand (not in the repository). *)
Inductive rec_state := ROn | ROff.
Definition receiver (io : connection) : machine := {|
  State := rec_state; Sup := unit; Shared := list attempt; Event := unit; Ctx := unit;
  initial := ROn;
  s_disc := fun x => match x with ROn => 0 | ROff => 1 end; u_disc := fun _ => 0;
  s_super := fun _ => None; s_put := fun x _ => x; u_super := fun _ => None; u_put := fun u _ => u;
  s_handler := only_shared (fun x lines _ =>
    match x with
    | ROn => (match io lines received_step with
              | Returns _ => Returns (Transition ROff) | Panics => Panics | Cancelled => Cancelled
              end, attempted io received_step lines)
    | ROff => (Returns (Transition ROff), lines)
    end);
  s_entry := fun x lines cx =>
    match x with
    | ROn => (io lines entering_on, x, attempted io entering_on lines, cx)
    | ROff => (Returns tt, x, lines, cx)
    end;
  s_exit := no_action;
  u_handler := unit_handler; u_entry := no_action; u_exit := no_action;
  h_before_dispatch := no_dispatch_hook; h_after_dispatch := no_dispatch_hook;
  h_before_transition := no_transition_hook; h_after_transition := no_transition_hook
|}.
Definition rec_name (x : rec_state) : ident * list unit := (match x with ROn => "On" | ROff => "Off" end, []).

(** ** BenchComplex: examples/macro/bench_complex/src/main.rs:5-469, and
    async_bench_complex/src/main.rs, where the handlers are async.  `Event::E1` .. `E51` are
    numbers; [is k e] tells whether `e` is `Event::Ek`. *)
Definition bench_args : list meta := [initially "s1"; derive_debug "state"].
Definition s_number (n : nat) : string := String.append "s" (show_digit n).
Definition bench_methods : list impl_fn :=
  a_state "idle" [ref_event] :: map (fun n => a_state (s_number n) [ref_event]) (seq 1 50).
Definition bench_impl : item_impl := impl_for "BenchComplex" bench_methods.
Definition async_bench_impl : item_impl := impl_for "BenchComplex" (map asynchronous bench_methods).
(** `match event { Event::Ek => Transition(State::next()), _ => Handled }` *)
Definition moves_on {Ev} (is : nat -> Ev -> bool) (k : nat) (next : string)
    (args : list (arg unit unit Ev unit)) :=
  of_event (fun e => if is k e then Transition (Built next []) else Handled) args.
Definition bench_source {Ev} (is : nat -> Ev -> bool) : source unit unit Ev unit := {|
  src_handler := by_method
    (("idle", moves_on is 1 "s2") ::
     map (fun n => (s_number n, moves_on is (S n) (s_number (S n)))) (seq 1 49) ++
     [("s50", moves_on is 51 "idle")]) no_method;
  src_action := fun _ => no_method;
  src_dispatch_hook := fun _ sh _ _ => (Returns tt, sh);
  src_transition_hook := fun _ sh _ _ => (Returns tt, sh);
  src_async := fun _ => false;
  src_eval := fun _ _ => tt; src_default := fun _ => tt
|}.
Definition is_event (k e : nat) : bool := Nat.eqb e k.
(** The same machine, written by hand (not in the repository): state 0 is `Idle`, n is `Sn`. *)
Definition next_in_ring (n : nat) : nat := if Nat.eqb n 0 then 2 else if Nat.eqb n 50 then 0 else S n.
Definition ring {Ev} (is : nat -> Ev -> bool) : machine := {|
  State := nat; Sup := unit; Shared := unit; Event := Ev; Ctx := unit;
  initial := 1;
  s_disc := fun n => n; u_disc := fun _ => 0;
  s_super := fun _ => None; s_put := fun x _ => x; u_super := fun _ => None; u_put := fun u _ => u;
  s_handler := only_shared (fun n sh e => (Returns (if is (S n) e then Transition (next_in_ring n) else Handled), sh));
  s_entry := no_action; s_exit := no_action;
  u_handler := unit_handler; u_entry := no_action; u_exit := no_action;
  h_before_dispatch := no_dispatch_hook; h_after_dispatch := no_dispatch_hook;
  h_before_transition := no_transition_hook; h_after_transition := no_transition_hook
|}.
Definition ring_name (n : nat) : ident * list unit :=
  (if Nat.eqb n 0 then "Idle" else if Nat.leb n 50 then String.append "S" (show_digit n) else "", []).
