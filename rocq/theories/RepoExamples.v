(** RepoExamples.v — the state machines of /repo/examples: the ones written by hand
    (examples/no_macro) as machines, the ones written with `#[state_machine]`
    (examples/macro) as annotated impl blocks with the bodies of their functions.

    Simplifications: what is printed is not modelled (`println!` in hooks and actions); enums
    of the examples are inductive types; `Context = ()` is [unit].
    No proofs here. *)

From Coq Require Import String Ascii List Bool Arith DecimalString.
From Verif Require Import MacroSyntax MacroVisit MacroAnalyze MacroLower MacroGen MacroSem MacroSpec MacroOrderSpec MacroSource MacroExamples.
From Verif Require Import Machine.
Import ListNotations.
Open Scope string_scope.
Open Scope list_scope.
Set Implicit Arguments.

(** ** Shorthands *)

(** blocking/superstate.rs:160-184 — `impl Superstate<M> for ()`, for `type Superstate = ()`. *)
Definition unit_handler {S Sh C E : Type} (u : unit) (sh : Sh) (c : C) (_ : E)
  : reply (response S) * unit * Sh * C := (Returns Handled, u, sh, c).
(** A handler that touches neither the node nor the context. *)
Definition only_shared {X Sh C E R : Type} (f : X -> Sh -> E -> reply R * Sh) (x : X) (sh : Sh) (c : C) (e : E)
  : reply R * X * Sh * C := let '(r, sh') := f x sh e in (r, x, sh', c).

(** `fn name(event: &Event)`, `fn name(&mut self, event: &Event)`. *)
Definition of_event {Val Sh Ev Cx} (f : Ev -> response (state_expr Val)) (args : list (arg Val Sh Ev Cx))
  : reply (response (state_expr Val)) * list (arg Val Sh Ev Cx) :=
  match args with
  | [AEvent e] => (Returns (f e), args)
  | _ => (Panics, args)
  end.
Definition of_shared_event {Val Sh Ev Cx} (f : Sh -> Ev -> reply (response (state_expr Val)) * Sh)
    (args : list (arg Val Sh Ev Cx)) : reply (response (state_expr Val)) * list (arg Val Sh Ev Cx) :=
  match args with
  | [AShared sh; AEvent e] => let '(r, sh') := f sh e in (r, [AShared sh'; AEvent e])
  | _ => (Panics, args)
  end.
(** A method that does not exist. *)
Definition no_method {Val Sh Ev Cx A} (args : list (arg Val Sh Ev Cx)) : reply A * list (arg Val Sh Ev Cx) :=
  (Panics, args).
(** A table of methods. *)
Fixpoint by_method {A} (table : list (ident * A)) (d : A) (f : ident) : A :=
  match table with
  | [] => d
  | (n, a) :: t => if (f =? n)%string then a else by_method t d f
  end.
(** `#[state_machine(initial = "State::f()", ..)] impl Ty { .. }`. *)
Definition initially (f : string) : meta := set_to "initial" ("State::" ++ f ++ "()").
Definition impl_for (ty : string) (ms : list impl_fn) : item_impl :=
  ItemImpl (named_type ty) (Generics [] []) (map ItemMethod ms).
Definition a_state (name : string) (inputs : list fn_arg) : impl_fn := method [MetaPath ["state"]] name inputs.
Definition a_state_in (super name : string) (inputs : list fn_arg) : impl_fn :=
  method [with_args "state" [set_to "superstate" super]] name inputs.
Definition a_superstate (name : string) (inputs : list fn_arg) : impl_fn := method [MetaPath ["superstate"]] name inputs.
Definition ref_event : fn_arg := Typed (PatType [] (PatIdent "event") (TReference None false (named_type "Event"))).
Definition derive (what : string) (traits : list string) : meta :=
  with_args what [MetaList ["derive"] (Tokens None None (Some (map (fun t => [t]) traits)))].
Definition derive_debug (what : string) : meta := derive what ["Debug"].
(** `key = "Self::f"`. *)
Definition hook_is (key f : string) : meta :=
  MetaNameValue [key] (VStr (LitStr None (Some (Expr ("Self::" ++ f))) (Some ["Self"; f]) None None)).
(** `async fn`. *)
Definition asynchronous (m : impl_fn) : impl_fn :=
  ImplFn (m_attrs m) (m_name m) (m_generics m) true (m_inputs m).

(** ** Basic: examples/no_macro/basic/src/main.rs:5-63 *)
Inductive basic_state := BOn | BOff.
(** :52-63 *)
Definition basic_handler (x : basic_state) (led : bool) (_ : unit) : reply (response basic_state) * bool :=
  match x with
  | BOn => (Returns (Transition BOff), false)
  | BOff => (Returns (Transition BOn), true)
  end.
(** :19-50; the shared storage is the field `led`. *)
Definition basic : machine := {|
  State := basic_state; Sup := unit; Shared := bool; Event := unit; Ctx := unit;
  initial := BOff;
  s_disc := fun x => match x with BOn => 0 | BOff => 1 end; u_disc := fun _ => 0;
  s_super := fun _ => None; s_put := fun x _ => x; u_super := fun _ => None; u_put := fun u _ => u;
  s_handler := only_shared basic_handler; s_entry := no_action; s_exit := no_action;
  u_handler := unit_handler; u_entry := no_action; u_exit := no_action;
  h_before_dispatch := no_dispatch_hook; h_after_dispatch := no_dispatch_hook;
  h_before_transition := no_transition_hook; h_after_transition := no_transition_hook
|}.
Definition basic_name (x : basic_state) : ident * list unit :=
  (match x with BOn => "On" | BOff => "Off" end, []).

(** examples/macro/basic/src/main.rs:18-36 *)
Definition basic_impl : item_impl :=
  impl_for "Blinky" [a_state "on" [Receiver; ref_event]; a_state "off" [Receiver; ref_event]].
Definition basic_args : list meta := [initially "off"; derive_debug "state"].
Definition basic_source : source unit bool unit unit := {|
  src_handler := by_method
    [("on", of_shared_event (fun led _ => (Returns (Transition (Built "off" [])), false)));
     ("off", of_shared_event (fun led _ => (Returns (Transition (Built "on" [])), true)))] no_method;
  src_action := fun _ => no_method;
  src_dispatch_hook := fun _ sh _ _ => (Returns tt, sh);
  src_transition_hook := fun _ sh _ _ => (Returns tt, sh);
  src_async := fun _ => false;
  src_eval := fun _ _ => tt; src_default := fun _ => tt
|}.

(** ** Blinky: examples/no_macro/blinky/src/main.rs *)
Inductive blinky_event := TimerElapsed | ButtonPressed.
Inductive blinky_state := LedOn | LedOff | NotBlinking.
Inductive blinky_super := Blinking.
(** :77-105 *)
Definition blinky_handler (x : blinky_state) (sh : unit) (e : blinky_event) : reply (response blinky_state) * unit :=
  (Returns match x, e with
           | LedOn, TimerElapsed => Transition LedOff
           | LedOff, TimerElapsed => Transition LedOn
           | NotBlinking, ButtonPressed => Transition LedOn
           | _, _ => Super
           end, sh).
Definition blinky_super_handler (u : blinky_super) (sh : unit) (e : blinky_event) : reply (response blinky_state) * unit :=
  (Returns match e with ButtonPressed => Transition NotBlinking | _ => Super end, sh).
(** :32-75 *)
Definition blinky_machine : machine := {|
  State := blinky_state; Sup := blinky_super; Shared := unit; Event := blinky_event; Ctx := unit;
  initial := LedOn;
  s_disc := fun x => match x with LedOn => 0 | LedOff => 1 | NotBlinking => 2 end; u_disc := fun _ => 0;
  s_super := fun x => match x with LedOn | LedOff => Some Blinking | NotBlinking => None end;
  s_put := fun x _ => x; u_super := fun _ => None; u_put := fun u _ => u;
  s_handler := only_shared blinky_handler; s_entry := no_action; s_exit := no_action;
  u_handler := only_shared blinky_super_handler; u_entry := no_action; u_exit := no_action;
  h_before_dispatch := no_dispatch_hook; h_after_dispatch := no_dispatch_hook;
  h_before_transition := no_transition_hook; h_after_transition := no_transition_hook
|}.
Definition blinky_name (x : blinky_state) : ident * list unit :=
  (match x with LedOn => "LedOn" | LedOff => "LedOff" | NotBlinking => "NotBlinking" end, []).
Definition blinky_super_name (u : blinky_super) : ident * list unit := ("Blinking", []).

(** examples/macro/blinky/src/main.rs:21-84 *)
Definition blinky_impl : item_impl :=
  impl_for "Blinky"
    [a_state_in "blinking" "led_on" [ref_event]; a_state_in "blinking" "led_off" [ref_event];
     a_superstate "blinking" [ref_event]; a_state "not_blinking" [ref_event]].
Definition blinky_main_args : list meta :=
  [initially "led_on"; derive_debug "state"; derive_debug "superstate";
   hook_is "after_transition" "after_transition"; hook_is "before_dispatch" "before_dispatch"].
(** The hooks (:75-84) only print. *)
Definition blinky_source : source unit unit blinky_event unit := {|
  src_handler := by_method
    [("led_on", of_event (fun e => match e with TimerElapsed => Transition (Built "led_off" []) | _ => Super end));
     ("led_off", of_event (fun e => match e with TimerElapsed => Transition (Built "led_on" []) | _ => Super end));
     ("blinking", of_event (fun e => match e with ButtonPressed => Transition (Built "not_blinking" []) | _ => Super end));
     ("not_blinking", of_event (fun e => match e with ButtonPressed => Transition (Built "led_on" []) | _ => Super end))]
    no_method;
  src_action := fun _ => no_method;
  src_dispatch_hook := fun _ sh _ _ => (Returns tt, sh);
  src_transition_hook := fun _ sh _ _ => (Returns tt, sh);
  src_async := fun _ => false;
  src_eval := fun _ _ => tt; src_default := fun _ => tt
|}.
(** examples/macro/async_blinky/src/main.rs:23-109: three of the four handlers and all four
    hooks are async, one handler and the action `cool` are not; every future is ready when
    first polled. *)
Definition async_blinky_impl : item_impl :=
  impl_for "Blinky"
    [method [MetaPath ["action"]] "cool" [];
     asynchronous (method [with_args "state" [set_to "superstate" "blinking"; set_to "entry_action" "cool"]] "led_on" [ref_event]);
     a_state_in "blinking" "led_off" [ref_event];
     asynchronous (a_superstate "blinking" [ref_event]); asynchronous (a_state "not_blinking" [ref_event])].
Definition async_blinky_args : list meta :=
  [initially "led_on"; derive_debug "state"; derive_debug "superstate";
   hook_is "after_transition" "after_transition"; hook_is "before_dispatch" "before_dispatch";
   hook_is "after_dispatch" "after_dispatch"; hook_is "before_transition" "before_transition"].
Definition async_blinky_source : source unit unit blinky_event unit := {|
  src_handler := src_handler blinky_source;
  src_action := by_method [("cool", fun args => (Returns tt, args))] no_method;
  src_dispatch_hook := fun _ sh _ _ => (Returns tt, sh);
  src_transition_hook := fun _ sh _ _ => (Returns tt, sh);
  src_async := fun _ => true;
  src_eval := fun _ _ => tt; src_default := fun _ => tt
|}.

(** ** Dishwasher: examples/no_macro/history/src/main.rs *)
Inductive dish_event := StartProgram | DoorOpens | DoorCloses | DishTimer.
Inductive dish_state := Idle | Soap | Rinse | Dry | DoorOpened.
Inductive dish_super := DoorClosed.
(** :90-136; the shared storage is the field `previous_state`. *)
Definition dish_handler (x : dish_state) (previous : dish_state) (e : dish_event)
  : reply (response dish_state) * dish_state :=
  (Returns match x, e with
           | Idle, StartProgram => Transition Soap
           | Soap, DishTimer => Transition Rinse
           | Rinse, DishTimer => Transition Dry
           | Dry, DishTimer => Transition Idle
           | DoorOpened, DoorCloses => Transition previous
           | _, _ => Super
           end, previous).
Definition dish_super_handler (u : dish_super) (previous : dish_state) (e : dish_event)
  : reply (response dish_state) * dish_state :=
  (Returns match e with DoorOpens => Transition DoorOpened | _ => Super end, previous).
(** :30-88 *)
Definition dishwasher : machine := {|
  State := dish_state; Sup := dish_super; Shared := dish_state; Event := dish_event; Ctx := unit;
  initial := Idle;
  s_disc := fun x => match x with Idle => 0 | Soap => 1 | Rinse => 2 | Dry => 3 | DoorOpened => 4 end;
  u_disc := fun _ => 0;
  s_super := fun x => match x with DoorOpened => None | _ => Some DoorClosed end;
  s_put := fun x _ => x; u_super := fun _ => None; u_put := fun u _ => u;
  s_handler := only_shared dish_handler; s_entry := no_action; s_exit := no_action;
  u_handler := only_shared dish_super_handler; u_entry := no_action; u_exit := no_action;
  h_before_dispatch := no_dispatch_hook; h_after_dispatch := no_dispatch_hook;
  h_before_transition := no_transition_hook;
  h_after_transition := fun _ source _ => (Returns tt, source)
|}.
Definition dish_name (x : dish_state) : ident * list unit :=
  (match x with Idle => "Idle" | Soap => "Soap" | Rinse => "Rinse" | Dry => "Dry" | DoorOpened => "DoorOpened" end, []).
Definition dish_super_name (u : dish_super) : ident * list unit := ("DoorClosed", []).

(** examples/macro/history/src/main.rs:15-79; `previous_state: State` is the name of the
    variant and its (no) fields. *)
Definition dish_impl : item_impl :=
  impl_for "Dishwasher"
    [method [] "after_transition" [Receiver; by_ref "source" (named_type "State"); by_ref "_target" (named_type "State")];
     a_superstate "door_closed" [ref_event];
     a_state_in "door_closed" "idle" [ref_event]; a_state_in "door_closed" "soap" [ref_event];
     a_state_in "door_closed" "rinse" [ref_event]; a_state_in "door_closed" "dry" [ref_event];
     a_state "door_opened" [Receiver; ref_event]].
Definition dish_args : list meta :=
  [initially "idle"; hook_is "after_transition" "after_transition"; derive "state" ["Debug"; "Clone"]].
Definition dish_source : source unit (ident * list unit) dish_event unit := {|
  src_handler := by_method
    [("door_closed", of_event (fun e => match e with DoorOpens => Transition (Built "door_opened" []) | _ => Super end));
     ("idle", of_event (fun e => match e with StartProgram => Transition (Built "soap" []) | _ => Super end));
     ("soap", of_event (fun e => match e with DishTimer => Transition (Built "rinse" []) | _ => Super end));
     ("rinse", of_event (fun e => match e with DishTimer => Transition (Built "dry" []) | _ => Super end));
     ("dry", of_event (fun e => match e with DishTimer => Transition (Built "idle" []) | _ => Super end));
     ("door_opened", of_shared_event (fun previous e =>
        (Returns match e with DoorCloses => Transition (Copied previous) | _ => Super end, previous)))]
    no_method;
  src_action := fun _ => no_method;
  src_dispatch_hook := fun _ sh _ _ => (Returns tt, sh);
  src_transition_hook := fun p sh source _ =>
    match p with ["Self"; "after_transition"] => (Returns tt, source) | _ => (Panics, sh) end;
  src_async := fun _ => false;
  src_eval := fun _ _ => tt; src_default := fun _ => tt
|}.

(** ** CdPlayer: examples/no_macro/bench/src/main.rs *)
Inductive cd_event :=
| StartPlayback | ResumePlayback | CloseDrawer | OpenDrawer | StopAndOpen | StoppedAgain | StoreCdInfo
| PausePlayback | StopPlayback | Play | EndPause | Stop | Pause2 | OpenClose | CdDetected.
Inductive cd_state := Empty | Open | Stopped | Playing | Pause.
(** :74-116 *)
Definition cd_handler (x : cd_state) (sh : unit) (e : cd_event) : reply (response cd_state) * unit :=
  (Returns match x, e with
           | Empty, CdDetected => Transition Stopped
           | Empty, OpenClose => Transition Open
           | Open, OpenClose => Transition Empty
           | Stopped, Play => Transition Playing
           | Stopped, OpenClose => Transition Open
           | Stopped, Stop => Transition Stopped
           | Playing, OpenClose => Transition Open
           | Playing, Pause2 => Transition Pause
           | Playing, Stop => Transition Stopped
           | Pause, EndPause => Transition Playing
           | Pause, Stop => Transition Stopped
           | _, _ => Super
           end, sh).
(** :38-72 *)
Definition cd_player : machine := {|
  State := cd_state; Sup := unit; Shared := unit; Event := cd_event; Ctx := unit;
  initial := Empty;
  s_disc := fun x => match x with Empty => 0 | Open => 1 | Stopped => 2 | Playing => 3 | Pause => 4 end;
  u_disc := fun _ => 0;
  s_super := fun _ => None; s_put := fun x _ => x; u_super := fun _ => None; u_put := fun u _ => u;
  s_handler := only_shared cd_handler; s_entry := no_action; s_exit := no_action;
  u_handler := unit_handler; u_entry := no_action; u_exit := no_action;
  h_before_dispatch := no_dispatch_hook; h_after_dispatch := no_dispatch_hook;
  h_before_transition := no_transition_hook; h_after_transition := no_transition_hook
|}.
Definition cd_name (x : cd_state) : ident * list unit :=
  (match x with Empty => "Empty" | Open => "Open" | Stopped => "Stopped" | Playing => "Playing" | Pause => "Pause" end, []).

(** examples/macro/bench/src/main.rs:29-76 and examples/macro/async_bench/src/main.rs:29-76 *)
Definition cd_methods : list impl_fn :=
  map (fun n => a_state n [ref_event]) ["empty"; "open"; "stopped"; "playing"; "pause"].
Definition cd_impl : item_impl := impl_for "CdPlayer" cd_methods.
Definition async_cd_impl : item_impl := impl_for "CdPlayer" (map asynchronous cd_methods).
Definition cd_args : list meta := [initially "empty"; derive_debug "state"].
Definition cd_source : source unit unit cd_event unit := {|
  src_handler := by_method
    [("empty", of_event (fun e => match e with
        | CdDetected => Transition (Built "stopped" []) | OpenClose => Transition (Built "open" []) | _ => Super end));
     ("open", of_event (fun e => match e with OpenClose => Transition (Built "empty" []) | _ => Super end));
     ("stopped", of_event (fun e => match e with
        | Play => Transition (Built "playing" []) | OpenClose => Transition (Built "open" [])
        | Stop => Transition (Built "stopped" []) | _ => Super end));
     ("playing", of_event (fun e => match e with
        | OpenClose => Transition (Built "open" []) | Pause2 => Transition (Built "pause" [])
        | Stop => Transition (Built "stopped" []) | _ => Super end));
     ("pause", of_event (fun e => match e with
        | EndPause => Transition (Built "playing" []) | Stop => Transition (Built "stopped" []) | _ => Super end))]
    no_method;
  src_action := fun _ => no_method;
  src_dispatch_hook := fun _ sh _ _ => (Returns tt, sh);
  src_transition_hook := fun _ sh _ _ => (Returns tt, sh);
  src_async := fun _ => false;
  src_eval := fun _ _ => tt; src_default := fun _ => tt
|}.

(** ** Barrier: examples/macro/barrier/src/main.rs:12-48 *)
Inductive barrier_event := EvA | EvB | EvC.
Definition flag (d : list meta) (name : string) (mutable : bool) : fn_arg :=
  Typed (PatType d (PatIdent name) (TReference None mutable (named_type "bool"))).
Definition barrier_impl : item_impl :=
  impl_for "Foo"
    [a_state_in "waiting_for_initialization" "initializing"
       [flag [set_to "default" "true"] "a" true; flag [MetaPath ["default"]] "b" true;
        flag [MetaPath ["default"]] "c" true; ref_event];
     a_superstate "waiting_for_initialization" [flag [] "a" false; flag [] "b" false; flag [] "c" false];
     a_state "initialized" []].
Definition barrier_args : list meta := [initially "initializing"; derive "state" ["PartialEq"; "Eq"; "Debug"]].
Definition barrier_source : source bool unit barrier_event unit := {|
  src_handler := by_method
    [("initializing", fun args =>
        match args with
        | [AField a; AField b; AField c; AEvent e] =>
            (Returns Super, match e with
                            | EvA => [AField true; AField b; AField c; AEvent e]
                            | EvB => [AField a; AField true; AField c; AEvent e]
                            | EvC => [AField a; AField b; AField true; AEvent e]
                            end)
        | _ => (Panics, args)
        end);
     ("waiting_for_initialization", fun args =>
        match args with
        | [AField true; AField true; AField true] => (Returns (Transition (Built "initialized" [])), args)
        | [AField _; AField _; AField _] => (Returns Handled, args)
        | _ => (Panics, args)
        end);
     ("initialized", fun args => (Returns Handled, args))]
    no_method;
  src_action := fun _ => no_method;
  src_dispatch_hook := fun _ sh _ _ => (Returns tt, sh);
  src_transition_hook := fun _ sh _ _ => (Returns tt, sh);
  src_async := fun _ => false;
  src_eval := fun e _ => match e with Expr s => (s =? "true")%string end;
  src_default := fun _ => false                          (* `bool::default()` *)
|}.
(** The same machine, written by hand (not in the repository). *)
Inductive barrier_state := Initializing (a b c : bool) | Initialized.
Inductive barrier_super := Waiting (a b c : bool).
Definition barrier_handler (x : barrier_state) (sh cx : unit) (e : barrier_event)
  : reply (response barrier_state) * barrier_state * unit * unit :=
  match x with
  | Initializing a b c =>
      (Returns Super, match e with
                      | EvA => Initializing true b c
                      | EvB => Initializing a true c
                      | EvC => Initializing a b true
                      end, sh, cx)
  | Initialized => (Returns Handled, x, sh, cx)
  end.
Definition barrier_super_handler (u : barrier_super) (sh cx : unit) (e : barrier_event)
  : reply (response barrier_state) * barrier_super * unit * unit :=
  (Returns match u with Waiting true true true => Transition Initialized | _ => Handled end, u, sh, cx).
Definition barrier : machine := {|
  State := barrier_state; Sup := barrier_super; Shared := unit; Event := barrier_event; Ctx := unit;
  initial := Initializing true false false;
  s_disc := fun x => match x with Initializing _ _ _ => 0 | Initialized => 1 end; u_disc := fun _ => 0;
  s_super := fun x => match x with Initializing a b c => Some (Waiting a b c) | Initialized => None end;
  s_put := fun x u => match x, u with Initializing _ _ _, Waiting a b c => Initializing a b c | _, _ => x end;
  u_super := fun _ => None; u_put := fun _ v => v;   (* never used: no superstate has a superstate *)
  s_handler := barrier_handler; s_entry := no_action; s_exit := no_action;
  u_handler := barrier_super_handler; u_entry := no_action; u_exit := no_action;
  h_before_dispatch := no_dispatch_hook; h_after_dispatch := no_dispatch_hook;
  h_before_transition := no_transition_hook; h_after_transition := no_transition_hook
|}.
Definition barrier_name (x : barrier_state) : ident * list bool :=
  match x with Initializing a b c => ("Initializing", [a; b; c]) | Initialized => ("Initialized", []) end.
Definition barrier_super_name (u : barrier_super) : ident * list bool :=
  match u with Waiting a b c => ("WaitingForInitialization", [a; b; c]) end.

(** ** Calculator: examples/no_macro/calculator/src/state.rs

    `f32` is any type with the operations used; `digit: u8` is a [nat]. *)
Inductive operator := Div | Mul | Sub | Add.
Inductive calc_event := Ac | Ce | Digit (digit : nat) | Point | Operator (op : operator) | Equal.
Record floats : Type := Floats {
  f32 : Type;
  f_parse : string -> option f32;           (* `str::parse` *)
  f_show : f32 -> string;                   (* `to_string` *)
  f_div : f32 -> f32 -> f32;
  f_mul : f32 -> f32 -> f32;
  f_sub : f32 -> f32 -> f32;
  f_add : f32 -> f32 -> f32
}.
(** `digit.to_string()` *)
Definition show_digit (d : nat) : string := NilZero.string_of_uint (Nat.to_uint d).
Definition push (display s : string) : string := String.append display s.

Section Calculator.
  Variable fl : floats.
  (** :20-29 *)
  Definition eval_op (op : operator) (a b : f32 fl) : f32 fl :=
    match op with Div => f_div fl a b | Mul => f_mul fl a b | Sub => f_sub fl a b | Add => f_add fl a b end.

  (** :36-61 *)
  Inductive calc_state :=
  | CBegin | CResult (result : f32 fl) | CZero1 | CInt1 | CFrac1 | CNegated1
  | COpEntered (operand1 : f32 fl) (op : operator) | CZero2 (operand1 : f32 fl) (op : operator)
  | CInt2 (operand1 : f32 fl) (op : operator) | CFrac2 (operand1 : f32 fl) (op : operator)
  | CNegated2 (operand1 : f32 fl) (op : operator).
  Inductive calc_super := CReady | COperand1 | COperand2 (operand1 : f32 fl) (op : operator) | COn.

  (** `let x = str::parse(&self.display).unwrap(); ..` *)
  Definition parsed (display : string) (k : f32 fl -> calc_state) : reply (response calc_state) * string :=
    match f_parse fl display with
    | Some x => (Returns (Transition (k x)), display)
    | None => (Panics, display)
    end.
  Definition go (display : string) (x : calc_state) : reply (response calc_state) * string :=
    (Returns (Transition x), display).
  Definition handled (display : string) : reply (response calc_state) * string := (Returns Handled, display).
  Definition defer (display : string) : reply (response calc_state) * string := (Returns Super, display).

  (** :163-598.  [minus0] is what `begin` displays when `-` is pressed (:176): "- 0" here, "-0"
      in the version with macros. *)
  Definition calc_handler (minus0 : string) (x : calc_state) (display : string) (e : calc_event)
    : reply (response calc_state) * string :=
    match x with
    | CBegin =>                                                                  (* :171-182 *)
        match e with
        | Operator Sub => go minus0 CNegated1
        | _ => defer display
        end
    | CResult _ => defer display                                                 (* :190-195 *)
    | CZero1 =>                                                                  (* :242-258 *)
        match e with
        | Digit 0 => handled display
        | Digit d => go (push display (show_digit d)) CInt1
        | Point => go "0." CFrac1
        | _ => defer display
        end
    | CInt1 =>                                                                   (* :264-278 *)
        match e with
        | Point => go (push display ".") CFrac1
        | Digit d => handled (push display (show_digit d))
        | _ => defer display
        end
    | CFrac1 =>                                                                  (* :284-295 *)
        match e with
        | Point => handled display
        | Digit d => handled (push display (show_digit d))
        | _ => defer display
        end
    | CNegated1 =>                                                               (* :304-335 *)
        match e with
        | Digit 0 => go (push "-" (show_digit 0)) CZero1
        | Digit d => go (push "-" (show_digit d)) CInt1
        | Point => go "-0." CFrac1
        | Operator _ => handled display
        | Ac => go "" CBegin
        | _ => defer display
        end
    | COpEntered a op =>                                                         (* :375-421 *)
        match e with
        | Digit 0 => go "0" (CZero2 a op)
        | Digit d => go (show_digit d) (CInt2 a op)
        | Point => go "0." (CFrac2 a op)
        | Operator Sub => go "-0" (CNegated2 a op)
        | Operator _ => handled display
        | _ => defer display
        end
    | CZero2 a op =>                                                             (* :427-449 *)
        match e with
        | Digit 0 => handled display
        | Digit d => go (show_digit d) (CInt2 a op)
        | Point => go "0." (CFrac2 a op)
        | _ => defer display
        end
    | CInt2 a op =>                                                              (* :455-472 *)
        match e with
        | Point => go (push display ".") (CFrac2 a op)
        | Digit d => handled (push display (show_digit d))
        | _ => defer display
        end
    | CFrac2 a op =>                                                             (* :479-490 *)
        match e with
        | Point => handled display
        | Digit d => handled (push display (show_digit d))
        | _ => defer display
        end
    | CNegated2 a op =>                                                          (* :540-583 *)
        match e with
        | Digit 0 => go (push "-" (show_digit 0)) (CZero2 a op)
        | Digit d => go (push "-" (show_digit d)) (CInt2 a op)
        | Point => go "-0." (CFrac2 a op)
        | Operator _ => handled display
        | Ac => go "" (COpEntered a op)
        | _ => defer display
        end
    end.
  Definition calc_super_handler (u : calc_super) (display : string) (e : calc_event)
    : reply (response calc_state) * string :=
    match u with
    | CReady =>                                                                  (* :204-236 *)
        match e with
        | Digit 0 => go "" CZero1
        | Digit d => go (show_digit d) CInt1
        | Point => go "0." CFrac1
        | Operator op => parsed display (fun a => COpEntered a op)
        | Ac | Ce => go display CBegin
        | Equal => defer display
        end
    | COperand1 =>                                                               (* :342-369 *)
        match e with
        | Ac => go "" CBegin
        | Ce => handled ""
        | Operator op => parsed display (fun a => COpEntered a op)
        | Equal => parsed display CResult
        | _ => defer display
        end
    | COperand2 a op =>                                                          (* :497-531 *)
        match e with
        | Ac => go "" CBegin
        | Ce => go "0" (COpEntered a op)
        | Equal => parsed display (fun b => CResult (eval_op op a b))
        | Operator next => parsed display (fun b => COpEntered (eval_op op a b) next)
        | _ => defer display
        end
    | COn =>                                                                     (* :588-597 *)
        match e with
        | Ac => go "" CBegin
        | _ => defer display
        end
    end.
  (** :106-112, :164-166, :184-186 *)
  Definition calc_entry (x : calc_state) (display : string) (cx : unit)
    : reply unit * calc_state * string * unit :=
    (Returns tt, x, match x with CBegin => "0" | CResult r => f_show fl r | _ => display end, cx).
  (** :60-160; the shared storage is the field `display`. *)
  Definition calculator_with (minus0 : string) : machine := {|
    State := calc_state; Sup := calc_super; Shared := string; Event := calc_event; Ctx := unit;
    initial := CBegin;
    s_disc := fun x => match x with
      | CBegin => 0 | CResult _ => 1 | CZero1 => 2 | CInt1 => 3 | CFrac1 => 4 | CNegated1 => 5
      | COpEntered _ _ => 6 | CZero2 _ _ => 7 | CInt2 _ _ => 8 | CFrac2 _ _ => 9 | CNegated2 _ _ => 10 end;
    u_disc := fun u => match u with CReady => 0 | COperand1 => 1 | COperand2 _ _ => 2 | COn => 3 end;
    s_super := fun x => Some match x with
      | CBegin | CResult _ => CReady
      | CZero1 | CInt1 | CFrac1 | CNegated1 => COperand1
      | COpEntered _ _ | CNegated2 _ _ => COn
      | CZero2 a op | CInt2 a op | CFrac2 a op => COperand2 a op end;
    s_put := fun x u => match x, u with
      | CZero2 _ _, COperand2 a op => CZero2 a op
      | CInt2 _ _, COperand2 a op => CInt2 a op
      | CFrac2 _ _, COperand2 a op => CFrac2 a op
      | COpEntered _ _, COperand2 a op => COpEntered a op
      | CNegated2 _ _, COperand2 a op => CNegated2 a op
      | _, _ => x end;
    u_super := fun u => match u with COn => None | _ => Some COn end;
    u_put := fun u v => match u, v with COperand2 _ _, COperand2 a op => COperand2 a op | _, _ => u end;
    s_handler := only_shared (calc_handler minus0); s_entry := calc_entry; s_exit := no_action;
    u_handler := only_shared calc_super_handler; u_entry := no_action; u_exit := no_action;
    h_before_dispatch := no_dispatch_hook; h_after_dispatch := no_dispatch_hook;
    h_before_transition := no_transition_hook; h_after_transition := no_transition_hook
  |}.
  Definition calculator : machine := calculator_with "- 0".

  (** The names of the version with macros (`Result` for `Response`). *)
  Inductive calc_val := VNum (x : f32 fl) | VOp (op : operator).
  Definition calc_name (x : calc_state) : ident * list calc_val :=
    match x with
    | CBegin => ("Begin", []) | CResult r => ("Result", [VNum r]) | CZero1 => ("Zero1", [])
    | CInt1 => ("Int1", []) | CFrac1 => ("Frac1", []) | CNegated1 => ("Negated1", [])
    | COpEntered a op => ("OpEntered", [VNum a; VOp op]) | CZero2 a op => ("Zero2", [VNum a; VOp op])
    | CInt2 a op => ("Int2", [VNum a; VOp op]) | CFrac2 a op => ("Frac2", [VNum a; VOp op])
    | CNegated2 a op => ("Negated2", [VNum a; VOp op])
    end.
  Definition calc_super_name (u : calc_super) : ident * list calc_val :=
    match u with
    | CReady => ("Ready", []) | COperand1 => ("Operand1", [])
    | COperand2 a op => ("Operand2", [VNum a; VOp op]) | COn => ("On", [])
    end.

  (** examples/macro/calculator/src/state.rs:37-450 *)
  Definition stored (name ty : string) : lit_str := storage_text (Field name (named_type ty)).
  Definition operand_params : list fn_arg :=
    [Receiver; Typed (PatType [] (PatIdent "operand1") (TReference None false (named_type "f32")));
     Typed (PatType [] (PatIdent "operator") (TReference None false (named_type "Operator"))); ref_event].
  Definition calc_impl : item_impl :=
    impl_for "Calculator"
      [method [MetaPath ["action"]] "enter_begin" [Receiver];
       method [with_args "state" [set_to "superstate" "ready"; set_to "entry_action" "enter_begin"]] "begin" [Receiver; ref_event];
       method [MetaPath ["action"]] "enter_result"
         [Receiver; Typed (PatType [] (PatIdent "result") (TReference None false (named_type "f32")))];
       method [with_args "state" [set_to "superstate" "ready"; set_to "entry_action" "enter_result";
                                  with_strings "local_storage" [stored "result" "f32"]]] "result" [ref_event];
       method [with_args "superstate" [set_to "superstate" "on"]] "ready" [Receiver; ref_event];
       a_state_in "operand1" "zero1" [Receiver; ref_event];
       a_state_in "operand1" "int1" [Receiver; ref_event];
       a_state_in "operand1" "frac1" [Receiver; ref_event];
       a_state_in "operand1" "negated1" [Receiver; ref_event];
       method [with_args "superstate" [set_to "superstate" "on"]] "operand1" [Receiver; ref_event];
       a_state_in "on" "op_entered" operand_params;
       a_state_in "operand2" "zero2" operand_params;
       a_state_in "operand2" "int2" operand_params;
       method [with_args "state" [set_to "superstate" "operand2";
                 with_strings "local_storage" [stored "operand1" "f32"; stored "operator" "Operator"]]] "frac2" [Receiver; ref_event];
       method [with_args "superstate" [set_to "superstate" "on"]] "operand2" operand_params;
       a_state_in "on" "negated2" operand_params;
       a_superstate "on" [Receiver; ref_event]].
  Definition calc_args : list meta := [initially "begin"].

  Notation margs := (list (arg calc_val string calc_event unit)).
  Notation mreply := (reply (response (state_expr calc_val)) * string)%type.
  (** `fn f(&mut self, operand1: &f32, operator: &Operator, event: &Event)` *)
  Definition of_operand (f : f32 fl -> operator -> string -> calc_event -> mreply) (args : margs)
    : reply (response (state_expr calc_val)) * margs :=
    match args with
    | [AShared d; AField (VNum a); AField (VOp op); AEvent e] =>
        let '(r, d') := f a op d e in (r, [AShared d'; AField (VNum a); AField (VOp op); AEvent e])
    | _ => (Panics, args)
    end.
  Definition mgo (d : string) (name : ident) (actuals : list calc_val) : mreply :=
    (Returns (Transition (Built name actuals)), d).
  Definition mhandled (d : string) : mreply := (Returns Handled, d).
  Definition mdefer (d : string) : mreply := (Returns Super, d).
  Definition mparsed (d : string) (k : f32 fl -> state_expr calc_val) : mreply :=
    match f_parse fl d with
    | Some x => (Returns (Transition (k x)), d)
    | None => (Panics, d)
    end.
  Definition calc_source : source calc_val string calc_event unit := {|
    src_handler := by_method
      [("begin", of_shared_event (fun d e => match e with                        (* :48-59 *)
          | Operator Sub => mgo "-0" "negated1" []
          | _ => mdefer d end));
       ("result", of_event (fun e => Super));                                    (* :72-77 *)
       ("ready", of_shared_event (fun d e => match e with                        (* :87-116 *)
          | Digit 0 => mgo "" "zero1" []
          | Digit n => mgo (show_digit n) "int1" []
          | Point => mgo "0." "frac1" []
          | Operator op => mparsed d (fun a => Built "op_entered" [VNum a; VOp op])
          | Ac => mgo d "begin" []
          | Ce => mgo d "begin" []
          | _ => mdefer d end));
       ("zero1", of_shared_event (fun d e => match e with                        (* :123-139 *)
          | Digit 0 => mhandled d
          | Digit n => mgo (push d (show_digit n)) "int1" []
          | Point => mgo "0." "frac1" []
          | _ => mdefer d end));
       ("int1", of_shared_event (fun d e => match e with                         (* :146-160 *)
          | Point => mgo (push d ".") "frac1" []
          | Digit n => mhandled (push d (show_digit n))
          | _ => mdefer d end));
       ("frac1", of_shared_event (fun d e => match e with                        (* :167-178 *)
          | Point => mhandled d
          | Digit n => mhandled (push d (show_digit n))
          | _ => mdefer d end));
       ("negated1", of_shared_event (fun d e => match e with                     (* :188-219 *)
          | Digit 0 => mgo (push "-" (show_digit 0)) "zero1" []
          | Digit n => mgo (push "-" (show_digit n)) "int1" []
          | Point => mgo "-0." "frac1" []
          | Operator _ => mhandled d
          | Ac => mgo "" "begin" []
          | _ => mdefer d end));
       ("operand1", of_shared_event (fun d e => match e with                     (* :227-251 *)
          | Ac => mgo "" "begin" []
          | Ce => mhandled ""
          | Operator op => mparsed d (fun a => Built "op_entered" [VNum a; VOp op])
          | Equal => mparsed d (fun a => Built "result" [VNum a])
          | _ => mdefer d end));
       ("op_entered", of_operand (fun a op d e => match e with                   (* :258-292 *)
          | Digit 0 => mgo "0" "zero2" [VNum a; VOp op]
          | Digit n => mgo (show_digit n) "int2" [VNum a; VOp op]
          | Point => mgo "0." "frac2" [VNum a; VOp op]
          | Operator Sub => mgo "-0" "negated2" [VNum a; VOp op]
          | Operator _ => mhandled d
          | _ => mdefer d end));
       ("zero2", of_operand (fun a op d e => match e with                        (* :299-315 *)
          | Digit 0 => mhandled d
          | Digit n => mgo (show_digit n) "int2" [VNum a; VOp op]
          | Point => mgo "0." "frac2" [VNum a; VOp op]
          | _ => mdefer d end));
       ("int2", of_operand (fun a op d e => match e with                         (* :322-336 *)
          | Point => mgo (push d ".") "frac2" [VNum a; VOp op]
          | Digit n => mhandled (push d (show_digit n))
          | _ => mdefer d end));
       ("frac2", of_shared_event (fun d e => match e with                        (* :346-357 *)
          | Point => mhandled d
          | Digit n => mhandled (push d (show_digit n))
          | _ => mdefer d end));
       ("operand2", of_operand (fun a op d e => match e with                     (* :365-393 *)
          | Ac => mgo "" "begin" []
          | Ce => mgo "0" "op_entered" [VNum a; VOp op]
          | Equal => mparsed d (fun b => Built "result" [VNum (eval_op op a b)])
          | Operator next => mparsed d (fun b => Built "op_entered" [VNum (eval_op op a b); VOp next])
          | _ => mdefer d end));
       ("negated2", of_operand (fun a op d e => match e with                     (* :403-434 *)
          | Digit 0 => mgo (push "-" (show_digit 0)) "zero2" [VNum a; VOp op]
          | Digit n => mgo (push "-" (show_digit n)) "int2" [VNum a; VOp op]
          | Point => mgo "-0." "frac2" [VNum a; VOp op]
          | Operator _ => mhandled d
          | Ac => mgo "" "op_entered" [VNum a; VOp op]
          | _ => mdefer d end));
       ("on", of_shared_event (fun d e => match e with                           (* :440-449 *)
          | Ac => mgo "" "begin" []
          | _ => mdefer d end))]
      no_method;
    src_action := by_method
      [("enter_begin", fun args => match args with
          | [AShared _] => (Returns tt, [AShared "0"]) | _ => no_method args end);
       ("enter_result", fun args => match args with
          | [AShared _; AField (VNum r)] => (Returns tt, [AShared (f_show fl r); AField (VNum r)]) | _ => no_method args end)]
      no_method;
    src_dispatch_hook := fun _ sh _ _ => (Returns tt, sh);
    src_transition_hook := fun _ sh _ _ => (Returns tt, sh);
    src_async := fun _ => false;
    src_eval := fun _ _ => VOp Div; src_default := fun _ => VOp Div             (* not used *)
  |}.
End Calculator.
Arguments CBegin {fl}.
Arguments CResult {fl} result.
Arguments CZero1 {fl}.
Arguments CInt1 {fl}.
Arguments CFrac1 {fl}.
Arguments CNegated1 {fl}.
Arguments COpEntered {fl} operand1 op.
Arguments CZero2 {fl} operand1 op.
Arguments CInt2 {fl} operand1 op.
Arguments CFrac2 {fl} operand1 op.
Arguments CNegated2 {fl} operand1 op.
Arguments CReady {fl}.
Arguments COperand1 {fl}.
Arguments COperand2 {fl} operand1 op.
Arguments COn {fl}.
Arguments VNum {fl} x.
Arguments VOp {fl} op.
