(** RepoUiSpec.v — a calculator's keys and what is written on them; vocabulary of C69. *)

From Coq Require Import String List Bool Arith.
From Verif Require Import RepoExamples.
Import ListNotations.
Open Scope string_scope.
Open Scope list_scope.

(** What is written on the key for [e]. *)
Definition key_cap (e : calc_event) : string :=
  match e with
  | Digit d => show_digit d
  | Point => ","
  | Operator Div => "÷" | Operator Mul => "×" | Operator Sub => "-" | Operator Add => "+"
  | Equal => "="
  | Ac => "AC"
  | Ce => "CE"
  end.
(** There are keys for all of them, but no digits from ten. *)
Definition has_key (e : calc_event) : Prop := match e with Digit d => d < 10 | _ => True end.

(** The keys as they are read, row by row, but that the column of operators comes after the digits
    to its left. *)
Definition keypad : list calc_event :=
  [Ce; Ac;
   Digit 7; Digit 8; Digit 9;
   Digit 4; Digit 5; Digit 6;
   Digit 1; Digit 2; Digit 3;
   Operator Div; Operator Mul; Operator Sub; Operator Add;
   Digit 0; Point; Equal].

(** The keys pressed in a frame in which the buttons [clicked] tells are clicked, and in several. *)
Definition pressed_in (clicked : string -> bool) : list calc_event :=
  filter (fun e => clicked (key_cap e)) keypad.
Definition pressed (frames : list (string -> bool)) : list calc_event := flat_map pressed_in frames.
(** Only the key for [e] is clicked; none is. *)
Definition only (e : calc_event) : string -> bool := String.eqb (key_cap e).
Definition nothing : string -> bool := fun _ => false.
