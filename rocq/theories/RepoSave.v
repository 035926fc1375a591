(** RepoSave.v — the machine of statig/tests/serde.rs, and what it is supposed to do. *)

From Coq Require Import String List Bool Arith Lia.
From Verif Require Import MacroSyntax MacroVisit MacroAnalyze MacroLower MacroGen MacroSem MacroSpec MacroOrderSpec MacroSource MacroExamples.
From Verif Require Import Machine Blocking Api Spec Sim Serde AnySpec SaveSpec RepoExamples RepoSpec.
Import ListNotations.
Open Scope string_scope.
Open Scope list_scope.
Set Implicit Arguments.

(** serde.rs:12-63, as the macro expands it: the functions of the blinky example without hooks
    (its [blinky_event], [blinky_state] and [blinky_super] are the same); the storage is `led`,
    which nothing uses. *)
Definition save_handler (x : blinky_state) (led : bool) (e : blinky_event) : reply (response blinky_state) * bool :=
  (Returns match x, e with
           | LedOn, TimerElapsed => Transition LedOff
           | LedOff, TimerElapsed => Transition LedOn
           | NotBlinking, ButtonPressed => Transition LedOn
           | _, _ => Super
           end, led).
Definition save_super_handler (u : blinky_super) (led : bool) (e : blinky_event) : reply (response blinky_state) * bool :=
  (Returns match e with ButtonPressed => Transition NotBlinking | _ => Super end, led).
Definition save_blinky : machine := {|
  State := blinky_state; Sup := blinky_super; Shared := bool; Event := blinky_event; Ctx := unit;
  initial := LedOn;
  s_disc := fun x => match x with LedOn => 0 | LedOff => 1 | NotBlinking => 2 end; u_disc := fun _ => 0;
  s_super := fun x => match x with LedOn | LedOff => Some Blinking | NotBlinking => None end;
  s_put := fun x _ => x; u_super := fun _ => None; u_put := fun u _ => u;
  s_handler := only_shared save_handler; s_entry := no_action; s_exit := no_action;
  u_handler := only_shared save_super_handler; u_entry := no_action; u_exit := no_action;
  h_before_dispatch := no_dispatch_hook; h_after_dispatch := no_dispatch_hook;
  h_before_transition := no_transition_hook; h_after_transition := no_transition_hook
|}.
(** The annotated block.  The derives of its `state(..)` and `superstate(..)` arguments. *)
Definition save_impl : item_impl := blinky_impl.
Definition save_args : list meta :=
  [initially "led_on"; derive "state" ["Debug"; "Serialize"; "Deserialize"; "Clone"; "PartialEq"]; derive_debug "superstate"].
Definition save_source : source unit bool blinky_event unit := {|
  src_handler := by_method
    [("led_on", of_event (fun e => match e with TimerElapsed => Transition (Built "led_off" []) | _ => Super end));
     ("led_off", of_event (fun e => match e with TimerElapsed => Transition (Built "led_on" []) | _ => Super end));
     ("blinking", of_event (fun e => match e with ButtonPressed => Transition (Built "not_blinking" []) | _ => Super end));
     ("not_blinking", of_event (fun e => match e with ButtonPressed => Transition (Built "led_on" []) | _ => Super end))]
    no_method;
  src_action := fun _ => no_method;
  src_dispatch_hook := fun _ sh _ _ => (Returns tt, sh);
  src_transition_hook := fun _ sh _ _ => (Returns tt, sh);
  src_async := fun _ => false;
  src_eval := fun _ _ => tt; src_default := fun _ => tt
|}.

(** The derived `Serialize` and `Deserialize` of `Blinky { led }` (as in a format [f]) and of the
    unit variants of `State` (an index; JSON writes the name instead, which makes no
    difference here). *)
Definition save_ser_shared (f : format) (led : bool) : result data :=
  Ok (struct_data f "Blinky" [("led", DAtom (if led then 1 else 0))]).
Definition read_led (d : data) : result bool :=
  match d with DAtom 0 => Ok false | DAtom 1 => Ok true | _ => Err (UserError 0) end.
Definition save_de_shared (d : data) : result bool :=
  match d with
  | DSeq [d'] => read_led d'
  | DMap [(_, d')] => read_led d'
  | DStruct _ [(_, d')] => read_led d'
  | _ => Err (UserError 1)
  end.
Definition save_ser_state (x : blinky_state) : result data :=
  Ok (DAtom match x with LedOn => 0 | LedOff => 1 | NotBlinking => 2 end).
Definition save_de_state (d : data) : result blinky_state :=
  match d with
  | DAtom 0 => Ok LedOn
  | DAtom 1 => Ok LedOff
  | DAtom 2 => Ok NotBlinking
  | _ => Err (UserError 2)
  end.

(** A blinking light: a button starts and stops it, a timer toggles it while it blinks; started,
    it is on. *)
Record light := Light { blinks : bool; lit : bool }.
Definition use_light (l : light) (e : blinky_event) : light :=
  match e with
  | TimerElapsed => if blinks l then Light true (negb (lit l)) else l
  | ButtonPressed => Light (negb (blinks l)) true
  end.
Definition light_state (l : light) : blinky_state :=
  if blinks l then (if lit l then LedOn else LedOff) else NotBlinking.

(** A machine that counts how often its only state is entered. *)
Definition counts_entries : machine := {|
  State := unit; Sup := unit; Shared := nat; Event := unit; Ctx := unit;
  initial := tt; s_disc := fun _ => 0; u_disc := fun _ => 0;
  s_super := fun _ => None; s_put := fun x _ => x; u_super := fun _ => None; u_put := fun u _ => u;
  s_handler := fun x n cx _ => (Returns Handled, x, n, cx); s_entry := fun x n cx => (Returns tt, x, S n, cx); s_exit := no_action;
  u_handler := fun u n cx _ => (Returns Handled, u, n, cx); u_entry := no_action; u_exit := no_action;
  h_before_dispatch := no_dispatch_hook; h_after_dispatch := no_dispatch_hook;
  h_before_transition := no_transition_hook; h_after_transition := no_transition_hook
|}.
