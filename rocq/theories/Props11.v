(** Props11.v — C48 to C50: which impl blocks the macro accepts, when it panics, and what becomes
    of the user's own code.  Theorems only; see MacroAcceptSpec.v for the vocabulary. *)

From Coq Require Import String List Bool Arith Lia Permutation.
From Verif Require Import MacroSyntax MacroVisit MacroLower MacroGen MacroSem MacroSpec MacroAcceptSpec MacroExamples.
From Verif Require MacroAcceptProofs MacroPassProofs.
Import ListNotations.
Open Scope string_scope.
Open Scope list_scope.

(** C48.  The macro succeeds on exactly the accepted inputs, whatever the iteration order of
    its hash maps. *)
Theorem C48_accepted :
  forall (o : orders) (args : list meta) (item : item_impl),
    ordinary item ->
    ((exists g, expand o args item = Done g) <-> accepted args item).
Proof.
  intros o args item O. pose proof (@MacroAcceptProofs.v_expand o args item O) as V.
  destruct (expand o args item) as [g|msg|msg]; cbn in V.
  - split; [intros _; exact V|intros _; exists g; reflexivity].
  - split; [intros [g D]; discriminate|intros A; contradiction].
  - split; [intros [g D]; discriminate|intros A; tauto].
Qed.
Print Assumptions C48_accepted.

(** Deciding [ordinary]. *)
Definition onceb (attrs : list meta) : bool :=
  Nat.leb (length (filter (fun a => is_ident (meta_path a) "state") attrs)) 1.
Lemma onceb_ok attrs before a between b after :
  onceb attrs = true -> attrs = before ++ a :: between ++ b :: after ->
  ~ (is_ident (meta_path a) "state" = true /\ is_ident (meta_path b) "state" = true).
Proof.
  unfold onceb. intros H -> [A B]. apply Nat.leb_le in H.
  rewrite filter_app in H. cbn [filter] in H. rewrite A, filter_app in H. cbn [filter] in H. rewrite B in H.
  rewrite app_length in H. cbn in H. rewrite app_length in H. cbn in H. lia.
Qed.
Definition ordinaryb (item : item_impl) : bool :=
  nodupb (map m_name (methods item)) &&
  forallb (fun m => nodupb (parameter_names m) && onceb (m_attrs m)) (methods item).
Lemma ordinaryb_ok item : ordinaryb item = true -> ordinary item.
Proof.
  unfold ordinaryb. rewrite andb_true_iff, forallb_forall. intros [A B]. constructor.
  - exact (nodupb_ok _ A).
  - intros m I. specialize (B m I). apply andb_true_iff in B. apply nodupb_ok. tauto.
  - intros m before a between b after I. specialize (B m I). apply andb_true_iff in B.
    apply onceb_ok. tauto.
Qed.

Example C48_case : ordinary blinky /\ accepted blinky_args blinky /\ ~ accepted [] blinky /\
  ~ accepted blinky_args (impl_of [led_on; enter_led_on]).
Proof.
  assert (O : ordinary blinky) by (apply ordinaryb_ok; reflexivity).
  split; [exact O|]. split.
  - apply (C48_accepted all_forward blinky_args blinky O). exists blinky_code. exact blinky_expands.
  - split; intros A.
    + destruct (ac_initial A) as (a & [] & _).
    + assert (P : proper_handler (impl_of [led_on; enter_led_on]) "state" led_on)
        by (apply (ac_states A); [now left|reflexivity]).
      destruct (ph_superstate P eq_refl) as (m & I & M & E).
      destruct I as [<-|[<-|[]]]; discriminate.
Qed.

(** C49.  If the macro panics, then for one of the listed reasons; so every other input it does
    not accept gets a diagnostic.  [_partial]: the property claims that it never panics. *)
Theorem C49_panics_partial :
  forall (o : orders) (args : list meta) (item : item_impl) (msg : string),
    ordinary item -> expand o args item = Crashed msg -> panic_cause item.
Proof.
  intros o args item msg O E. pose proof (@MacroAcceptProofs.v_expand o args item O) as V.
  rewrite E in V. exact (proj2 V).
Qed.
Print Assumptions C49_panics_partial.

Theorem C49_diagnostic_partial :
  forall (o : orders) (args : list meta) (item : item_impl),
    ordinary item -> ~ panic_cause item -> ~ accepted args item ->
    exists msg, expand o args item = Rejected msg.
Proof.
  intros o args item O P N. pose proof (@MacroAcceptProofs.v_expand o args item O) as V.
  destruct (expand o args item) as [g|msg|msg]; cbn in V; [contradiction|exists msg; reflexivity|tauto].
Qed.
Print Assumptions C49_diagnostic_partial.

Example C49_case : ordinary (impl_of [led_on; enter_led_on]) /\ ~ panic_cause (impl_of [led_on; enter_led_on]) /\
  ~ accepted blinky_args (impl_of [led_on; enter_led_on]).
Proof.
  split; [apply ordinaryb_ok; reflexivity|]. split; [|apply C48_case].
  intros [N|i b t bs I|m [I M] N|m pt [I M] J P|m pt I M J P].
  - exact (N _ _ eq_refl).
  - destruct I.
  - destruct I as [<-|[<-|[]]]; [|destruct M; discriminate]. apply N. eexists _, _. split; [reflexivity|].
    split; [reflexivity|]. split; [|discriminate]. cbn. intuition discriminate.
  - destruct I as [<-|[<-|[]]]; [|destruct M; discriminate].
    cbn in J. destruct J as [D|[D|[D|[D|[]]]]]; try discriminate; injection D as <-; discriminate.
  - destruct I as [<-|[<-|[]]]; [discriminate|].
    cbn in J. destruct J as [D|[D|[D|[]]]]; injection D as <-; exact (P _ eq_refl).
Qed.

(** Each of the reasons does make it panic: `impl (A, B)`; `where [T]: Copy`; a state called
    `self_` (its variant would be `Self`); a reference pattern in a handler; a tuple pattern in
    an action. *)
Definition tuple_param : fn_arg := Typed (PatType [] PatTuple (TReference None true (named_type "Pair"))).
Definition pattern_param : fn_arg := Typed (PatType [] PatReference (TReference None true (named_type "u8"))).
Definition on : impl_fn := method [MetaPath ["state"]] "on" [Receiver].
Theorem C49_counterexample :
  let run := expand all_forward [set_to "initial" "State::on()"] in
  let panics e := exists msg, e = Crashed msg in
  panics (run (ItemImpl (TOther "tuple" []) (Generics [] []) [ItemMethod on])) /\
  panics (run (ItemImpl (named_type "Machine")
                 (Generics [GType "T" []] [WhereType (TOther "slice" [PartType (named_type "T")]) ["Copy"]])
                 [ItemMethod on])) /\
  panics (run (impl_of [on; method [MetaPath ["state"]] "self_" [Receiver]])) /\
  panics (run (impl_of [method [MetaPath ["state"]] "on" [Receiver; pattern_param]])) /\
  panics (run (impl_of [on; method [MetaPath ["action"]] "enter" [tuple_param]])).
Proof. repeat split; eexists; vm_compute; reflexivity. Qed.
Print Assumptions C49_counterexample.

(** C50.  The user's impl block is part of the output, unchanged, except that stored parameters
    of state handlers lose their `#[default]`. *)
Theorem C50_user_code_kept :
  forall (o : orders) (args : list meta) (item : item_impl) (g : generated),
    ordinary item -> expand o args item = Done g ->
    i_self (g_impl g) = i_self item /\ i_generics (g_impl g) = i_generics item /\
    Forall2 (passed_item (or_else (last_value as_ident "event_identifier" args) "event")
                         (or_else (last_value as_ident "context_identifier" args) "context"))
            (i_items item) (i_items (g_impl g)).
Proof. intros o args item g O E. exact (@MacroPassProofs.impl_passed o args item g O E). Qed.
Print Assumptions C50_user_code_kept.

(** So a `#[default]` anywhere else (here: on a parameter of a superstate handler) is left in the
    code, where the compiler does not know it. *)
Theorem C50_default_left :
  exists g, expand all_forward [set_to "initial" "State::on()"]
              (impl_of [on; method [MetaPath ["superstate"]] "top"
                                   [by_ref_default "led" (MetaPath ["default"]) (named_type "bool")]]) = Done g /\
    exists m, In m (methods (g_impl g)) /\ m_name m = "top" /\
      m_inputs m = [by_ref_default "led" (MetaPath ["default"]) (named_type "bool")].
Proof.
  eexists. split; [vm_compute; reflexivity|]. eexists. split; [right; left; reflexivity|]. split; reflexivity.
Qed.
Print Assumptions C50_default_left.

Example C50_case : ordinary blinky /\ expand all_forward blinky_args blinky = Done blinky_code /\
  exists m', nth_error (i_items (g_impl blinky_code)) 0 = Some (ItemMethod m') /\ m' <> led_on /\
    m_inputs m' = [Receiver; by_ref "led" (named_type "bool"); by_ref "count" (named_type "u8"); event_param].
Proof.
  split; [apply ordinaryb_ok; reflexivity|]. split; [exact blinky_expands|].
  eexists. split; [reflexivity|]. split; [discriminate|reflexivity].
Qed.
