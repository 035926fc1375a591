(** Props28.v — C79: conditions on shared and state-local storage.  Theorems only; see
    LocalSpec.v. *)

From Coq Require Import String List Bool Arith Lia.
From Verif Require Import MacroSyntax MacroLower MacroGen MacroSem MacroSpec.
From Verif Require Import Machine Api Spec RefSpec LocalSpec.
From Verif Require LocalProofs Props7.
Import ListNotations.
Open Scope string_scope.
Open Scope list_scope.

(** C79.  Suppose each callback alone sees to its part ([duties]): called when what should hold
    does hold — of the state value, with the storage of all its levels, and of the shared
    storage — it leaves what should hold next.  Then, in either mode, what should hold between
    calls holds after any completed calls, whatever the state, its depth and the events. *)
Theorem C79_between_calls :
  forall (h : hierarchy) (m : machine) (stack : nat) (md : mode)
         (Fresh Rest : State m -> Shared m -> Prop)
         (Going : nat -> State m -> State m -> Shared m -> Prop) (Coming : nat -> State m -> Shared m -> Prop)
         (ops : list (op m)) (sm : state_machine m) (cs : list (called m)) (sm' : state_machine m),
    well_formed h m stack -> faithful_views m -> duties m stack Fresh Rest Going Coming ->
    Forall (considerate Fresh Rest) ops ->
    initialized sm = false -> Fresh (sm_state sm) (sm_shared sm) ->
    history stack md ops sm cs sm' -> completed cs ->
    if initialized sm' then Rest (sm_state sm') (sm_shared sm') else Fresh (sm_state sm') (sm_shared sm').
Proof.
  intros h m stack md Fresh Rest Going Coming ops sm cs sm' [Hf Hs Hh] Hv DU C I F H D.
  assert (R : @LocalProofs.at_rest m Fresh Rest sm) by (unfold LocalProofs.at_rest; rewrite I; exact F).
  exact (proj1 (@LocalProofs.history_fine h m stack Hf Hs Hv Hh Fresh Rest Going Coming DU md ops sm cs sm' H C R) D).
Qed.
Print Assumptions C79_between_calls.

(** And if each callback alone, called when what should hold does hold, returns, then every call
    of the machine does. *)
Theorem C79_unfailing :
  forall (h : hierarchy) (m : machine) (stack : nat) (md : mode)
         (Fresh Rest : State m -> Shared m -> Prop)
         (Going : nat -> State m -> State m -> Shared m -> Prop) (Coming : nat -> State m -> Shared m -> Prop)
         (ops : list (op m)) (sm : state_machine m) (cs : list (called m)) (sm' : state_machine m),
    well_formed h m stack -> faithful_views m -> duties m stack Fresh Rest Going Coming ->
    dependable m Rest Going Coming -> Forall (considerate Fresh Rest) ops ->
    initialized sm = false -> Fresh (sm_state sm) (sm_shared sm) ->
    history stack md ops sm cs sm' -> completed cs.
Proof.
  intros h m stack md Fresh Rest Going Coming ops sm cs sm' [Hf Hs Hh] Hv DU DE C I F H.
  assert (R : @LocalProofs.at_rest m Fresh Rest sm) by (unfold LocalProofs.at_rest; rewrite I; exact F).
  exact (proj2 (@LocalProofs.history_fine h m stack Hf Hs Hv Hh Fresh Rest Going Coming DU md ops sm cs sm' H C R) DE).
Qed.
Print Assumptions C79_unfailing.

(** Both hold for every machine that the macro generates. *)
Theorem C79_generated :
  forall (o : orders) (args : list meta) (item : item_impl) (g : generated)
         (Val Sh Ev Cx : Type) (B : bodies Val Sh Ev Cx g) (stack : nat) (md : mode)
         (Fresh Rest : State (generated_machine B) -> Sh -> Prop)
         (Going : nat -> State (generated_machine B) -> State (generated_machine B) -> Sh -> Prop)
         (Coming : nat -> State (generated_machine B) -> Sh -> Prop)
         (ops : list (op (generated_machine B))) (sm : state_machine (generated_machine B)) cs sm',
    expand o args item = Done g -> compiles g -> acyclic item ->
    1 <= stack -> length (filter (marked "superstate") (methods item)) <= stack ->
    duties (generated_machine B) stack Fresh Rest Going Coming ->
    Forall (considerate (m := generated_machine B) Fresh Rest) ops ->
    initialized sm = false -> Fresh (sm_state sm) (sm_shared sm) ->
    history stack md ops sm cs sm' ->
    (completed cs ->
     if initialized sm' then Rest (sm_state sm') (sm_shared sm') else Fresh (sm_state sm') (sm_shared sm')) /\
    (dependable (generated_machine B) Rest Going Coming -> completed cs).
Proof.
  intros o args item g Val Sh Ev Cx B stack md Fresh Rest Going Coming ops sm cs sm' E CO AC S1 S2 DU C I F H.
  destruct (Props7.C31_well_formed o args item g Val Sh Ev Cx B stack E CO AC S1 S2) as (h & W & V). split.
  - exact (C79_between_calls h _ stack md Fresh Rest Going Coming ops sm cs sm' W V DU C I F H).
  - intros DE. exact (C79_unfailing h _ stack md Fresh Rest Going Coming ops sm cs sm' W V DU DE C I F H).
Qed.
Print Assumptions C79_generated.

(** The state with a counter of the README (lines 204 to 222), in a superstate that sees the
    counter too; the entry actions switch the light.  `*counter -= 1` panics at 0. *)
Inductive timed_state := LedOn (counter : nat) | LedOff.
Inductive timed_super := Lit (counter : nat).
Inductive timed_event := TimerElapsed | ButtonPressed | Longer.
Definition timed : machine := {|
  State := timed_state; Sup := timed_super; Shared := bool; Event := timed_event; Ctx := unit;
  initial := LedOn 10;
  s_disc := fun x => match x with LedOn _ => 0 | LedOff => 1 end; u_disc := fun _ => 0;
  s_super := fun x => match x with LedOn c => Some (Lit c) | LedOff => None end;
  s_put := fun x u => match x, u with LedOn _, Lit c => LedOn c | LedOff, _ => LedOff end;
  u_super := fun _ => None; u_put := fun u _ => u;
  s_handler := fun x sh cx e =>
    match x, e with
    | LedOn 0, TimerElapsed => (Panics, x, sh, cx)
    | LedOn (S c), TimerElapsed =>
        (Returns (if Nat.eqb c 0 then Transition LedOff else Handled), LedOn c, sh, cx)
    | _, ButtonPressed => (Returns (Transition (LedOn 10)), x, sh, cx)
    | _, _ => (Returns Super, x, sh, cx)
    end;
  s_entry := fun x sh cx =>
    (Returns tt, x, match x with LedOn _ => sh | LedOff => false end, cx);
  s_exit := fun x sh cx => (Returns tt, x, sh, cx);
  u_handler := fun u sh cx e =>
    match u, e with Lit c, Longer => (Returns Handled, Lit (c + 5), sh, cx) | _, _ => (Returns Super, u, sh, cx) end;
  u_entry := fun u sh cx => (Returns tt, u, true, cx);
  u_exit := fun u sh cx => (Returns tt, u, false, cx);
  h_before_dispatch := fun sh _ _ => (Returns tt, sh); h_after_dispatch := fun sh _ _ => (Returns tt, sh);
  h_before_transition := fun sh _ _ => (Returns tt, sh); h_after_transition := fun sh _ _ => (Returns tt, sh)
|}.
Definition timed_tree : hierarchy := {|
  leaf_parent := fun s => match s with 0 => Some 0 | _ => None end; sup_parent := fun _ => None |}.

(** The counter is positive and the light is on exactly in `led_on`.  On the way the target is
    as it should be, and the light is right once the superstate is entered or left. *)
Definition counts (x : timed_state) : Prop := match x with LedOn c => 0 < c | LedOff => True end.
Definition timed_rest (x : timed_state) (lit : bool) : Prop :=
  counts x /\ lit = match x with LedOn _ => true | LedOff => false end.
Definition timed_going (k : nat) (x t : timed_state) (lit : bool) : Prop :=
  counts t /\ (k < 2 -> lit = match x with LedOn _ => true | LedOff => false end) /\ (2 <= k -> lit = false).
Definition timed_coming (k : nat) (x : timed_state) (lit : bool) : Prop :=
  counts x /\ (k < 2 -> match x with LedOn _ => lit = true | LedOff => k = 0 -> lit = false end).

Lemma timed_well_formed : well_formed timed_tree timed 1.
Proof.
  constructor.
  - constructor; try reflexivity; try (intros []; reflexivity).
    intros x v [v'] _ _. destruct x; reflexivity.
  - constructor; cbn.
    + intros [[|c]|] sh cx [] r x' sh' cx' [= <- <- <- <-]; reflexivity.
    + intros x sh cx r x' sh' cx' [= <- <- <- <-]; reflexivity.
    + intros x sh cx r x' sh' cx' [= <- <- <- <-]; reflexivity.
    + reflexivity.
    + reflexivity.
    + reflexivity.
  - intros u. exists [u]. split; [constructor; constructor|cbn; lia].
Qed.
Lemma timed_views : faithful_views timed.
Proof.
  constructor; cbn; try discriminate.
  - intros [c|] v [= <-]. reflexivity.
  - intros [c|] v [c'] [= <-] _. reflexivity.
  - intros [c|] v [c1] [c2] [= <-] _ _. reflexivity.
Qed.
Lemma timed_look k x n : look timed k x = Some n ->
  (k = 0 /\ n = NState x) \/ (k = 1 /\ exists c, x = LedOn c /\ n = NSuper (Lit c)).
Proof.
  destruct k as [|[|k]]; cbn.
  - intros [= <-]. now left.
  - destruct x as [c|]; [|discriminate]. intros [= <-]. right. eauto.
  - destruct x as [c|]; discriminate.
Qed.
Lemma timed_duties : duties timed 1 (fun x _ => counts x) timed_rest timed_going timed_coming.
Proof.
  constructor.
  - intros k x n sh [] e a n' sh' cx' L [C R] E. apply timed_look in L.
    destruct L as [[-> ->]|(-> & c & -> & ->)].
    + destruct x as [[|c]|], e; cbn in E; injection E; intros; subst; cbn in *;
        repeat split; cbn; auto with arith; try lia.
      destruct (Nat.eqb_spec c 0) as [->|N]; cbn; repeat split; cbn; auto; lia.
    + destruct e; cbn in E; injection E; intros; subst; cbn in *; repeat split; cbn; auto; lia.
  - intros k x t n sh [] n' sh' cx' L (C & G1 & G2) E. apply timed_look in L.
    destruct L as [[-> ->]|(-> & c & -> & ->)]; cbn in E; injection E; intros; subst; cbn; (split; [exact C|]);
      (split; intros K; [|try reflexivity]); try lia.
    apply G1. lia.
  - intros k x n sh [] n' sh' cx' L (C & G) E. apply timed_look in L.
    destruct L as [[-> ->]|(-> & c & -> & ->)]; cbn in E; injection E; intros; subst; cbn; (split; [exact C|]).
    + intros K. destruct x; [apply G; lia|reflexivity].
    + reflexivity.
  - intros k x n sh e sh' _ R [= <-]. exact R.
  - intros k x n sh e sh' _ [= <-]. split; auto.
  - intros x t sh sh' G [[= <-]|[= <-]]; exact G.
  - intros a x sh sh' R [= <-]. exact R.
  - intros x sh F. split; [exact F|]. destruct x; cbn; [lia|discriminate].
  - intros x t sh (C & G1 & G2). split; [exact C|].
    destruct x, t; cbn in *; intros H; auto; try lia; try discriminate.
  - intros x sh (C & G). split; [exact C|]. destruct x; cbn in *; auto.
Qed.
Lemma timed_dependable : dependable timed timed_rest timed_going timed_coming.
Proof.
  constructor; try (intros; eexists; reflexivity).
  - intros k x n sh [] e L [C R]. apply timed_look in L. unfold returns.
    destruct L as [[-> ->]|(-> & c & -> & ->)].
    + destruct x as [[|c]|], e; cbn in *; try lia; eexists; reflexivity.
    + destruct e; eexists; reflexivity.
  - intros k x t n sh [] L _. unfold returns. destruct n as [x0|[c]]; eexists; reflexivity.
  - intros k x n sh [] L _. unfold returns. destruct n as [x0|[c]]; eexists; reflexivity.
  - intros x t sh _. split; eexists; reflexivity.
Qed.

(** So the README's counter never underflows, and is positive whenever the state is `led_on`. *)
Theorem C79_readme_counter :
  forall (md : mode) (es : list timed_event) cs (sm' : state_machine timed),
    history 1 md (map (fun e => OpHandle (m := timed) e tt) es) (@new_state_machine timed false) cs sm' ->
    completed cs /\
    (initialized sm' = true -> match sm_state sm' with LedOn c => 0 < c /\ sm_shared sm' = true | LedOff => sm_shared sm' = false end).
Proof.
  intros md es cs sm' H.
  assert (C : Forall (considerate (m := timed) (fun x _ => counts x) timed_rest) (map (fun e => OpHandle (m := timed) e tt) es)).
  { apply Forall_forall. intros o J. apply in_map_iff in J. destruct J as (e & <- & _). exact I. }
  assert (F : counts (sm_state (@new_state_machine timed false))) by (cbn; lia).
  pose proof (C79_unfailing timed_tree timed 1 md (fun x _ => counts x) timed_rest timed_going timed_coming _ (@new_state_machine timed false) _ _ timed_well_formed timed_views timed_duties
                timed_dependable C eq_refl F H) as D.
  split; [exact D|]. intros N.
  pose proof (C79_between_calls timed_tree timed 1 md (fun x _ => counts x) timed_rest timed_going timed_coming _ (@new_state_machine timed false) _ _ timed_well_formed timed_views timed_duties
                C eq_refl F H D) as R. rewrite N in R. destruct R as [R1 R2].
  destruct (sm_state sm'); cbn in *; auto.
Qed.
Print Assumptions C79_readme_counter.

(** A run: after nine ticks the counter is 1; the button in `led_on` starts it again; `Longer`
    is handled by the superstate.  A client that puts 0 into the counter itself is not
    considerate, and the next tick panics. *)
Example C79_case :
  let h := fun e => OpHandle (m := timed) e tt in
  let after ops := let r := exec_all 1 BlockingMode ops (@new_state_machine timed false) in
                   (map c_out (fst r), sm_state (snd r), sm_shared (snd r)) in
  after (map h (repeat TimerElapsed 9)) = (repeat (Ret tt) 9, LedOn 1, true) /\
  after (map h (repeat TimerElapsed 10)) = (repeat (Ret tt) 10, LedOff, false) /\
  after (map h [TimerElapsed; Longer]) = ([Ret tt; Ret tt], LedOn 14, true) /\
  after (map h [TimerElapsed; ButtonPressed]) = ([Ret tt; Ret tt], LedOn 10, true) /\
  after [OpInit (m := timed) tt; OpStateMut (m := timed) (fun _ => LedOn 0); h TimerElapsed] =
    ([Ret tt; Ret tt; Abort Panicked], LedOn 0, true) /\
  ~ considerate (m := timed) (fun x _ => counts x) timed_rest (OpStateMut (m := timed) (fun _ => LedOn 0)).
Proof.
  cbv zeta. repeat split; try (vm_compute; reflexivity).
  intros C. destruct (C (LedOn 1) true) as [_ C2]. cbn in C2. lia.
Qed.
