(** RepoUi.v — the user interface of the calculators: examples/macro/calculator/src/ui.rs, which is
    the same file as examples/no_macro/calculator/src/ui.rs, and main.rs next to each.

    Of egui nothing is modelled but that `update` is called for one frame after the other, that a
    label shows its text, and that `add_sized(.., Button::new(rich_text(l))).clicked()` tells whether
    the button labelled [l] was clicked: each frame may say anything.  Sizes, spacing, fonts and
    style are left out. *)

From Coq Require Import String List Bool.
From Verif Require Import Machine Blocking Api RepoExamples.
Import ListNotations.
Open Scope string_scope.
Open Scope list_scope.
Set Implicit Arguments.

(** A button and what it has the machine handle. *)
Definition button := (string * calc_event)%type.

(** ui.rs:123-143 — `control` *)
Definition control : list button := [("CE", Ce); ("AC", Ac)].
(** ui.rs:38-80 — `numpad` *)
Definition numpad : list button :=
  [("7", Digit 7); ("8", Digit 8); ("9", Digit 9);
   ("4", Digit 4); ("5", Digit 5); ("6", Digit 6);
   ("1", Digit 1); ("2", Digit 2); ("3", Digit 3)].
(** ui.rs:83-121 — `operands` *)
Definition operands : list button :=
  [("÷", Operator Div); ("×", Operator Mul); ("-", Operator Sub); ("+", Operator Add)].
(** ui.rs:145-168 — `zero_point_eq` *)
Definition zero_point_eq : list button := [("0", Digit 0); (",", Point); ("=", Equal)].

Section Ui.
  (** The two calculators are different machines; [text] reads `display` from their storage. *)
  Variable m : machine.
  Variable text : Shared m -> string.
  Variable key : calc_event -> Event m.
  Variable cx : Ctx m.
  Variable stack : nat.
  Variable md : mode.

  (** `.clicked().then(|| self.handle(..))`, for one button after the other.  A panic unwinds. *)
  Fixpoint click (bs : list button) (clicked : string -> bool) (app : initialized_machine m)
    : outcome unit * initialized_machine m :=
    match bs with
    | [] => (Ret tt, app)
    | (l, e) :: bs' =>
        if clicked l then
          let r := im_handle stack md cx app (key e) in
          match a_out r with
          | Ret _ => click bs' clicked (a_machine r)
          | Abort w => (Abort w, a_machine r)
          end
        else click bs' clicked app
    end.

  (** ui.rs:171-214 — `update`: the text shown by `display` (:26-35; `self.display` goes through
      the two `Deref`s to the storage), then the buttons. *)
  Definition update (clicked : string -> bool) (app : initialized_machine m)
    : string * (outcome unit * initialized_machine m) :=
    (text (shared_storage (im_inner app)),
     click (control ++ numpad ++ operands ++ zero_point_eq) clicked app).

  (** `run_native` calls `update` until one panics: all that was shown, how it ended. *)
  Fixpoint run_native (app : initialized_machine m) (frames : list (string -> bool))
    : list string * (outcome unit * initialized_machine m) :=
    match frames with
    | [] => ([], (Ret tt, app))
    | clicked :: frames' =>
        let '(shown, (o, app')) := update clicked app in
        match o with
        | Ret _ => let '(l, r) := run_native app' frames' in (shown :: l, r)
        | Abort w => ([shown], (Abort w, app'))
        end
    end.

  (** main.rs:14-28 — `main`: `Calculator::default().uninitialized_state_machine().init()`, then
      the frames. *)
  Definition main (default : Shared m) (frames : list (string -> bool))
    : list string * outcome unit :=
    match um_init stack md cx (new_uninitialized m default) with
    | (Ret app, _, _) => let '(l, (o, _)) := run_native app frames in (l, o)
    | (Abort w, _, _) => ([], Abort w)
    end.
End Ui.
Arguments main {m}.
