(** RepoSpec.v — what the example machines are supposed to do: a dishwasher, a barrier, a
    calculator.  Nothing here mentions state machines. *)

From Coq Require Import String Ascii List Bool Arith.
From Verif Require Import RepoExamples.
Import ListNotations.
Open Scope string_scope.
Open Scope list_scope.

(** Events without context. *)
Definition no_context {E} (evs : list E) : list (E * unit) := map (fun e => (e, tt)) evs.

(** ** A dishwasher: a program and a door *)
Inductive program := PIdle | PSoap | PRinse | PDry.
Record appliance := Appliance { running_program : program; door_open : bool }.
(** The program only runs while the door is closed; opening and closing the door do not change
    it. *)
Definition next_phase (p : program) (e : dish_event) : program :=
  match p, e with
  | PIdle, StartProgram => PSoap
  | PSoap, DishTimer => PRinse
  | PRinse, DishTimer => PDry
  | PDry, DishTimer => PIdle
  | _, _ => p
  end.
Definition use_appliance (a : appliance) (e : dish_event) : appliance :=
  match e with
  | DoorOpens => Appliance (running_program a) true
  | DoorCloses => Appliance (running_program a) false
  | _ => if door_open a then a else Appliance (next_phase (running_program a) e) false
  end.
(** The state expected to be shown. *)
Definition shown (a : appliance) : dish_state :=
  if door_open a then DoorOpened
  else match running_program a with PIdle => Idle | PSoap => Soap | PRinse => Rinse | PDry => Dry end.

(** ** A calculator *)

(** A number as it is keyed in: `-`, digits, `.`, digits. *)
Record entry := Entry { negative : bool; int_part : list nat; frac_part : option (list nat) }.
Definition keys (n : entry) : list calc_event :=
  (if negative n then [Operator Sub] else []) ++ map Digit (int_part n) ++
  match frac_part n with Some l => Point :: map Digit l | None => [] end.
(** As it is written. *)
Definition digits (l : list nat) : string := String.concat "" (map show_digit l).
Definition text_of (n : entry) : string :=
  String.append (if negative n then "-" else "")
    (String.append (match int_part n with [] => "0" | l => digits l end)
       (match frac_part n with Some l => String.append "." (digits l) | None => "" end)).
(** At least a digit or the point. *)
Definition keyed (n : entry) : Prop := int_part n <> [] \/ frac_part n <> None.
(** As it is written, without the zeros it starts with. *)
Fixpoint drop_zeros (l : list nat) : list nat := match l with 0 :: l' => drop_zeros l' | _ => l end.
Definition canonical (n : entry) : string :=
  text_of (Entry (negative n) (drop_zeros (int_part n)) (frac_part n)).
(** No zero after the minus; and not just zeros, if it is the [first] number. *)
Definition well_keyed (first : bool) (n : entry) : Prop :=
  keyed n /\ (negative n = true -> forall l, int_part n <> 0 :: l) /\
  (first = true -> frac_part n = None -> drop_zeros (int_part n) <> []).
(** What the calculators read, right or wrong: the [first] number is nothing at all if it is just
    zeros; a zero after the minus drops the minus, but for the first number only if the point
    comes next. *)
Definition read_as (first : bool) (n : entry) : string :=
  match int_part n with
  | 0 :: _ =>
      match drop_zeros (int_part n), frac_part n with
      | [], None => if negative n then "-0" else if first then "" else "0"
      | [], Some l => String.append "0." (digits l)
      | ds, r => String.append (if negative n && first then "-0" else "")
                   (String.append (digits ds) (match r with Some l => String.append "." (digits l) | None => "" end))
      end
  | _ => text_of n
  end.
(** `n0 op1 n1 op2 n2 .. =` *)
Definition chain_keys (n0 : entry) (l : list (operator * entry)) : list calc_event :=
  keys n0 ++ flat_map (fun on => Operator (fst on) :: keys (snd on)) l ++ [Equal].

(** Numerals: an optional minus, digits, an optional point and more digits; at least one
    digit. *)
Definition numeral (s : string) : Prop :=
  exists (minus : bool) (l : list nat) (r : option (list nat)),
    s = String.append (if minus then "-" else "")
          (String.append (digits l) (match r with Some l' => String.append "." (digits l') | None => "" end)) /\
    l ++ match r with Some l' => l' | None => [] end <> [].
(** What is assumed of `f32`: numerals can be read, and so can what is printed; the empty
    string and a lone point cannot. *)
Record sound_floats (fl : floats) : Prop := {
  sf_numeral : forall s, numeral s -> f_parse fl s <> None;
  sf_printed : forall x, f_parse fl (f_show fl x) <> None;
  sf_empty : f_parse fl "" = None;
  sf_point : f_parse fl "." = None
}.

(** Where an operator or `=` asks for the number on the display while the first number is being
    keyed in. *)
Definition wants_number {fl : floats} (x : calc_state fl) (e : calc_event) : bool :=
  match x, e with
  | (CZero1 | CInt1 | CFrac1), (Operator _ | Equal) => true
  | CNegated1, Equal => true
  | _, _ => false
  end.
(** The displays that are not numbers: empty, a lone point, and whatever the version at hand
    shows after a leading minus, if that cannot be read. *)
Definition unreadable (fl : floats) (minus0 d : string) : Prop :=
  d = "" \/ d = "." \/ (d = minus0 /\ f_parse fl minus0 = None).

(** Some floats: natural numbers.  Text with a digit in it and no space can be read. *)
Definition is_digit (c : ascii) : bool := Nat.leb 48 (nat_of_ascii c) && Nat.leb (nat_of_ascii c) 57.
Fixpoint some_char (p : ascii -> bool) (s : string) : bool :=
  match s with EmptyString => false | String c s' => p c || some_char p s' end.
Definition toy_parse (s : string) : option nat :=
  if some_char is_digit s && negb (some_char (fun c => Ascii.eqb c " ") s)
  then Some match DecimalString.NilEmpty.uint_of_string s with Some u => Nat.of_uint u | None => 0 end
  else None.
Definition toy : floats :=
  {| f32 := nat; f_parse := toy_parse; f_show := show_digit;
     f_div := Nat.div; f_mul := Nat.mul; f_sub := Nat.sub; f_add := Nat.add |}.
