(** DebugFmt.v — the `Debug` implementations of statig/src/response.rs,
    state_or_superstate.rs and {blocking,awaitable}/state_machine.rs, and as much of
    `core::fmt` as they use.  No proofs here. *)

From Coq Require Import String Ascii List Bool.
From Verif Require Import Machine Api.
Import ListNotations.
Open Scope string_scope.
Set Implicit Arguments.

(** What `fmt(&self, f)` does to its formatter: it calls `write_str`, is told whether that was
    `Ok`, and in the end returns `Ok` or `Err`. *)
Inductive fmt : Type :=
| Return (ok : bool)
| Write (s : string) (k : bool -> fmt).

(** A user's implementation of `Debug`; its argument tells whether the format was `{:#?}`
    (`f.alternate()`).  Simplification: no other flags (they reach the fields unchanged). *)
Definition debug : Type := bool -> fmt.

(** Running it on a writer with the state [W] (`&mut dyn fmt::Write`), which may fail when it
    likes. *)
Fixpoint run {W : Type} (write_str : W -> string -> bool * W) (f : fmt) (w : W) : bool * W :=
  match f with
  | Return ok => (ok, w)
  | Write s k => let '(ok, w') := write_str w s in run write_str (k ok) w'
  end.

(** `result.and_then(|_| ..)` and `?`. *)
Fixpoint and_then (f g : fmt) : fmt :=
  match f with
  | Return true => g
  | Return false => Return false
  | Write s k => Write s (fun ok => and_then (k ok) g)
  end.
Definition write (s : string) : fmt := Write s Return.
Infix ";?" := and_then (at level 60, right associativity).

(** core::fmt::builders::PadAdapter: every line is indented by four blanks.
    `str::split_inclusive('\n')`: *)
Definition newline : ascii := "010".
Fixpoint split_inclusive (s : string) : list string :=
  match s with
  | EmptyString => []
  | String c r =>
      if Ascii.eqb c newline then String c EmptyString :: split_inclusive r
      else match split_inclusive r with
           | [] => [String c EmptyString]
           | l :: ls => String c l :: ls
           end
  end.
Fixpoint ends_with_newline (s : string) : bool :=
  match s with
  | EmptyString => false
  | String c EmptyString => Ascii.eqb c newline
  | String _ r => ends_with_newline r
  end.
(** `PadAdapter::write_str`; [k] continues with the result and the new `on_newline`. *)
Fixpoint write_lines (on_newline : bool) (lines : list string) (k : bool -> bool -> fmt) : fmt :=
  match lines with
  | [] => k true on_newline
  | l :: ls =>
      let put := Write l (fun ok => if ok then write_lines (ends_with_newline l) ls k
                                    else k false (ends_with_newline l)) in
      if on_newline then Write "    " (fun ok => if ok then put else k false on_newline) else put
  end.
(** A value written through the adapter. *)
Fixpoint padded (on_newline : bool) (f : fmt) : fmt :=
  match f with
  | Return ok => Return ok
  | Write s k => write_lines on_newline (split_inclusive s) (fun ok nl => padded nl (k ok))
  end.

(** core::fmt::builders::DebugStruct: `field` and `finish`. *)
Definition struct_field (alternate has_fields : bool) (name : string) (value : debug) : fmt :=
  if alternate then
    (if has_fields then Return true else write (" {" ++ String newline "")) ;?
    padded true (write name ;? write ": " ;? value true ;? write ("," ++ String newline ""))
  else
    write (if has_fields then ", " else " { ") ;? write name ;? write ": " ;? value false.
Fixpoint struct_fields (alternate has_fields : bool) (fields : list (string * debug)) : fmt :=
  match fields with
  | [] => if has_fields then write (if alternate then "}" else " }") else Return true
  | (name, value) :: fields' =>
      struct_field alternate has_fields name value ;? struct_fields alternate true fields'
  end.
Definition debug_struct (name : string) (fields : list (string * debug)) : debug :=
  fun alternate => write name ;? struct_fields alternate false fields.

(** DebugTuple (the case of an empty name does not arise). *)
Definition tuple_field (alternate first : bool) (value : debug) : fmt :=
  if alternate then
    (if first then write ("(" ++ String newline "") else Return true) ;?
    padded true (value true ;? write ("," ++ String newline ""))
  else
    write (if first then "(" else ", ") ;? value false.
Fixpoint tuple_fields (alternate first : bool) (fields : list debug) : fmt :=
  match fields with
  | [] => if first then Return true else write ")"
  | value :: fields' => tuple_field alternate first value ;? tuple_fields alternate false fields'
  end.
Definition debug_tuple (name : string) (fields : list debug) : debug :=
  fun alternate => write name ;? tuple_fields alternate true fields.

(** response.rs:29-43 *)
Definition debug_response {S : Type} (s : S -> debug) (r : response S) : debug :=
  match r with
  | Handled => debug_tuple "Handled" []
  | Super => debug_tuple "Super" []
  | Transition x => debug_tuple "Transition" [s x]
  end.
(** state_or_superstate.rs:12-27 *)
Definition debug_node {S U : Type} (s : S -> debug) (u : U -> debug) (n : node S U) : debug :=
  match n with
  | NState x => debug_tuple "State" [s x]
  | NSuper y => debug_tuple "Superstate" [u y]
  end.
Section Machines.
  Variable m : machine.
  Variable shared : Shared m -> debug.
  Variable st : State m -> debug.
  (** blocking/state_machine.rs:468-480, awaitable/state_machine.rs:480-492 *)
  Definition debug_initialized (im : initialized_machine m) : debug :=
    debug_struct "InitializedStateMachine"
      [("shared_storage", shared (shared_storage (im_inner im))); ("state", st (state (im_inner im)))].
  (** blocking/state_machine.rs:722-734, awaitable/state_machine.rs:740-752; the name is written
      with a capital `I` there. *)
  Definition debug_uninitialized (um : uninitialized_machine m) : debug :=
    debug_struct "UnInitializedStateMachine"
      [("shared_storage", shared (shared_storage (um_inner um))); ("state", st (state (um_inner um)))].
End Machines.
