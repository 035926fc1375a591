(** Props15.v — C66: what the library's `Debug` implementations show.  Theorems only. *)

From Coq Require Import String Ascii List Bool.
From Verif Require Import Machine Blocking Api Spec DebugFmt DebugSpec.
From Verif Require DebugProofs.
Import ListNotations.
Open Scope string_scope.

(** C66.  [shared] and [st] are the user's implementations for the storage and the states;
    [shared_text] and [state_text] what they write.  `{:?}` and `{:#?}`. *)
Theorem C66_initialized :
  forall (m : machine) (shared : Shared m -> debug) (st : State m -> debug)
    (alternate : bool) (shared_text : Shared m -> string) (state_text : State m -> string),
    (forall sh, writes (shared sh alternate) (shared_text sh)) ->
    (forall s, writes (st s alternate) (state_text s)) ->
    forall im : initialized_machine m,
    shows (debug_initialized shared st im alternate)
          (struct_text alternate "InitializedStateMachine" (shared_text (shared_storage (im_inner im))) (state_text (state (im_inner im)))).
Proof.
  intros m shared st alternate ta tb A B im.
  exact (@DebugProofs.writes_shows _ _ (@DebugProofs.writes_struct alternate "InitializedStateMachine" _ _ _ _ (A _) (B _))).
Qed.
Print Assumptions C66_initialized.
(** The other front-end shows the same fields, but not under its own name. *)
Theorem C66_uninitialized_partial :
  forall (m : machine) (shared : Shared m -> debug) (st : State m -> debug)
    (alternate : bool) (shared_text : Shared m -> string) (state_text : State m -> string),
    (forall sh, writes (shared sh alternate) (shared_text sh)) ->
    (forall s, writes (st s alternate) (state_text s)) ->
    forall um : uninitialized_machine m,
    shows (debug_uninitialized shared st um alternate)
          (struct_text alternate "UnInitializedStateMachine" (shared_text (shared_storage (um_inner um))) (state_text (state (um_inner um)))).
Proof.
  intros m shared st alternate ta tb A B um.
  exact (@DebugProofs.writes_shows _ _ (@DebugProofs.writes_struct alternate "UnInitializedStateMachine" _ _ _ _ (A _) (B _))).
Qed.
Print Assumptions C66_uninitialized_partial.
Theorem C66_response :
  forall (S : Type) (s : S -> debug) (alternate : bool) (text : S -> string),
    (forall x, writes (s x alternate) (text x)) ->
    forall r : response S, shows (debug_response s r alternate) (response_text alternate text r).
Proof. intros S s alternate text T r. exact (@DebugProofs.shows_response S s alternate text T r). Qed.
Print Assumptions C66_response.
Theorem C66_node :
  forall (S U : Type) (s : S -> debug) (u : U -> debug) (alternate : bool) (st : S -> string) (ut : U -> string),
    (forall x, writes (s x alternate) (st x)) -> (forall y, writes (u y alternate) (ut y)) ->
    forall n : node S U, shows (debug_node s u n alternate) (node_text alternate st ut n).
Proof. intros S U s u alternate st ut A B n. exact (@DebugProofs.shows_node S U s u alternate st ut A B n). Qed.
Print Assumptions C66_node.
(** If the states' texts tell them apart, those of the responses and of the nodes do. *)
Theorem C66_tells_apart :
  forall (S U : Type) (s : S -> debug) (u : U -> debug) (alternate : bool) (st : S -> string) (ut : U -> string),
    (forall x, writes (s x alternate) (st x)) -> (forall y, writes (u y alternate) (ut y)) ->
    (forall x x', st x = st x' -> x = x') -> (forall y y', ut y = ut y' -> y = y') ->
    (forall (r r' : response S) t, shows (debug_response s r alternate) t -> shows (debug_response s r' alternate) t -> r = r') /\
    (forall (n n' : node S U) t, shows (debug_node s u n alternate) t -> shows (debug_node s u n' alternate) t -> n = n').
Proof.
  intros S U s u alternate st ut A B I J. split.
  - intros r r' t R R'. exact (@DebugProofs.response_apart S s alternate st A I r r' t R R').
  - intros n n' t N N'. exact (@DebugProofs.node_apart S U s u alternate st ut A B I J n n' t N N').
Qed.
Print Assumptions C66_tells_apart.
(** `UninitializedStateMachine` is shown as `UnInitializedStateMachine`. *)
Theorem C66_name_refuted :
  forall (m : machine) (shared : Shared m -> debug) (st : State m -> debug)
    (alternate : bool) (shared_text : Shared m -> string) (state_text : State m -> string),
    (forall sh, writes (shared sh alternate) (shared_text sh)) ->
    (forall s, writes (st s alternate) (state_text s)) ->
    forall (um : uninitialized_machine m) a b,
    ~ shows (debug_uninitialized shared st um alternate) (struct_text alternate "UninitializedStateMachine" a b).
Proof. intros m shared st alternate ta tb A B um a b. exact (@DebugProofs.name_wrong m shared st alternate ta tb A B um a b). Qed.
Print Assumptions C66_name_refuted.

(** A storage whose text has two lines, written in three pieces, and a writer with little room. *)
Definition two_lines : debug := fun _ => write "Foo {" ;? write (line_end ++ "    n: 1,") ;? write (line_end ++ "}").
Definition colour (b : bool) : debug := fun _ => write (if b then "On" else "Off").
(** Room for some pieces, then errors. *)
Definition write_room (w : nat * string) (s : string) : bool * (nat * string) :=
  match fst w with O => (false, w) | S n => (true, (n, snd w ++ s)) end.
Definition lamp (sh : unit) (s : bool) (alternate : bool) : fmt :=
  debug_struct "InitializedStateMachine" [("shared_storage", two_lines); ("state", colour s)] alternate.
Example C66_case :
  writes (two_lines true) ("Foo {" ++ line_end ++ "    n: 1," ++ line_end ++ "}") /\
  writes (colour true false) "On" /\
  run DebugProofs.push (lamp tt true false) "" =
    (true, "InitializedStateMachine { shared_storage: Foo {" ++ line_end ++ "    n: 1," ++ line_end ++ "}, state: On }") /\
  run DebugProofs.push (lamp tt true true) "" =
    (true, "InitializedStateMachine {" ++ line_end ++ "    shared_storage: Foo {" ++ line_end ++ "        n: 1," ++ line_end ++
           "    }," ++ line_end ++ "    state: On," ++ line_end ++ "}") /\
  run write_room (lamp tt true false) (5, "") = (false, (0, "InitializedStateMachine { shared_storage: Foo {")) /\
  honest write_room snd /\
  run DebugProofs.push (debug_response colour (Transition false) true) "" =
    (true, "Transition(" ++ line_end ++ "    Off," ++ line_end ++ ")") /\
  run DebugProofs.push (debug_node colour colour (NSuper true) false) "" = (true, "Superstate(On)").
Proof.
  split; [exact (DebugProofs.writes_and_then (DebugProofs.writes_write "Foo {")
           (DebugProofs.writes_and_then (DebugProofs.writes_write (line_end ++ "    n: 1,")) (DebugProofs.writes_write (line_end ++ "}"))))|].
  split; [exact (DebugProofs.writes_write "On")|]. split; [reflexivity|]. split; [reflexivity|]. split; [reflexivity|].
  split; [|split; reflexivity].
  intros [[|n] w] s; cbn.
  - exists "", s. split; [reflexivity|]. split; [symmetry; apply DebugProofs.sapp_nil|discriminate].
  - exists s, "". split; [symmetry; apply DebugProofs.sapp_nil|]. auto.
Qed.
