(** DebugSpec.v — what `{:?}` and `{:#?}` should show. *)

From Coq Require Import String Ascii List Bool.
From Verif Require Import Machine DebugFmt.
Import ListNotations.
Open Scope string_scope.

(** A user's `fmt` writes [s], in any number of pieces, and gives up at the first error. *)
Inductive writes : fmt -> string -> Prop :=
| writes_end : writes (Return true) ""
| writes_piece p k s : writes (k true) s -> k false = Return false -> writes (Write p k) (p ++ s).

(** A writer appends to [text]; when it fails, it has appended a prefix. *)
Definition honest {W} (write_str : W -> string -> bool * W) (text : W -> string) : Prop :=
  forall w s, let '(ok, w') := write_str w s in
  exists p q, s = p ++ q /\ text w' = text w ++ p /\ (ok = true -> q = "").
(** [f] shows [s]: on every writer it appends a prefix of [s]; all of [s] if it returns `Ok`,
    which it does if the writer never fails. *)
Definition shows (f : fmt) (s : string) : Prop :=
  forall W (write_str : W -> string -> bool * W) (text : W -> string), honest write_str text ->
  forall w, let '(ok, w') := run write_str f w in
  (exists p q, s = p ++ q /\ text w' = text w ++ p /\ (ok = true -> q = "")) /\
  ((forall v t, fst (write_str v t) = true) -> ok = true).

(** Continuation lines are indented. *)
Fixpoint indented (s : string) : string :=
  match s with
  | EmptyString => EmptyString
  | String c r => if Ascii.eqb c newline then String c ("    " ++ indented r) else String c (indented r)
  end.
Definition line_end : string := String newline "".
Definition struct_text (alternate : bool) (name shared st : string) : string :=
  if alternate
  then name ++ " {" ++ line_end ++ "    shared_storage: " ++ indented shared ++ "," ++ line_end ++
               "    state: " ++ indented st ++ "," ++ line_end ++ "}"
  else name ++ " { shared_storage: " ++ shared ++ ", state: " ++ st ++ " }".
Definition tuple_text (alternate : bool) (name field : string) : string :=
  if alternate then name ++ "(" ++ line_end ++ "    " ++ indented field ++ "," ++ line_end ++ ")"
  else name ++ "(" ++ field ++ ")".
Definition response_text {S} (alternate : bool) (s : S -> string) (r : response S) : string :=
  match r with
  | Handled => "Handled"
  | Super => "Super"
  | Transition x => tuple_text alternate "Transition" (s x)
  end.
Definition node_text {S U} (alternate : bool) (s : S -> string) (u : U -> string) (n : node S U) : string :=
  match n with
  | NState x => tuple_text alternate "State" (s x)
  | NSuper y => tuple_text alternate "Superstate" (u y)
  end.
