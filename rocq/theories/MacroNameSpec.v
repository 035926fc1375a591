(** MacroNameSpec.v — what of a method's name decides its variant. *)
From Coq Require Import String Ascii Bool Arith.
From Verif Require Import MacroSpec.
Open Scope string_scope.

Definition is_uppercase (c : ascii) : bool :=
  let n := nat_of_ascii c in (Nat.leb 65 n && Nat.leb n 90)%bool.
Definition lowercase (c : ascii) : ascii := ascii_of_nat (nat_of_ascii c + 32).
(** A capital is an underscore and a small letter: `ledOn`, `led_on`. *)
Fixpoint without_capitals (s : string) : string :=
  match s with
  | EmptyString => EmptyString
  | String c s' => if is_uppercase c then String "_" (String (lowercase c) (without_capitals s'))
                   else String c (without_capitals s')
  end.
Definition starts_small (s : string) : bool :=
  match s with String c _ => is_lowercase c | EmptyString => false end.
(** Underscores count only before a letter: `a_1`, `a1`; `a__b`, `a_b`. *)
Fixpoint squeezed (s : string) : string :=
  match s with
  | EmptyString => EmptyString
  | String c s' => if (c =? "_")%char && negb (starts_small s') then squeezed s' else String c (squeezed s')
  end.
(** And not at the start: `_a`, `a`. *)
Definition drop_underscore (s : string) : string :=
  match s with String c s' => if (c =? "_")%char then s' else s | EmptyString => s end.
(** All that counts. *)
Definition stem (s : string) : string := drop_underscore (squeezed (without_capitals s)).
