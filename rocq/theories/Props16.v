(** Props16.v — C67: when the generated code passes the compiler's checks of names.  Theorems
    only; see MacroScopeSpec.v for the vocabulary. *)

From Coq Require Import String List Bool Arith.
From Verif Require Import MacroSyntax MacroVisit MacroLower MacroGen MacroSem MacroSpec MacroAcceptSpec MacroScopeSpec MacroExamples.
From Verif Require MacroScopeProofs Props11.
Import ListNotations.
Open Scope string_scope.
Open Scope list_scope.

(** C67.  Whether the output compiles (as far as [compiles] goes) can be told from the source. *)
Theorem C67_checked :
  forall (o : orders) (args : list meta) (item : item_impl) (g : generated),
    expand o args item = Done g ->
    (compiles g <-> well_scoped (event_name args) (context_name args) item).
Proof. intros o args item g E. exact (@MacroScopeProofs.compiles_iff o args item g E). Qed.
Print Assumptions C67_checked.
(** And so can whether names hide each other, which C29 to C31 exclude. *)
Theorem C67_hygienic :
  forall (o : orders) (args : list meta) (item : item_impl) (g : generated),
    expand o args item = Done g -> well_scoped (event_name args) (context_name args) item ->
    (hygienic item g <-> nothing_hidden (event_name args) (context_name args) item).
Proof. intros o args item g E W. exact (@MacroScopeProofs.hygienic_iff o args item g E W). Qed.
Print Assumptions C67_hygienic.
(** Together with C48: every good impl block is turned into good code. *)
Theorem C67_good_blocks :
  forall (args : list meta) (item : item_impl),
    ordinary item -> accepted args item ->
    well_scoped (event_name args) (context_name args) item ->
    nothing_hidden (event_name args) (context_name args) item ->
    forall o : orders, exists g, expand o args item = Done g /\ compiles g /\ hygienic item g.
Proof.
  intros args item O A W N o. destruct (proj2 (Props11.C48_accepted o args item O) A) as [g E].
  exists g. split; [exact E|]. split; [exact (proj2 (C67_checked o args item g E) W)|].
  exact (proj2 (C67_hygienic o args item g E W) N).
Qed.
Print Assumptions C67_good_blocks.

(** A state without the field its superstate borrows; an action that wants the event. *)
Definition dark : item_impl :=
  impl_of [method [with_args "state" [set_to "superstate" "blinking"]] "led_off" [Receiver; event_param]; blinking; top].
Definition nosy : item_impl :=
  impl_of [method [with_args "state" [set_to "entry_action" "enter"]] "led_on" [Receiver; event_param];
           method [MetaPath ["action"]] "enter" [event_param]].
Definition start : list meta := [set_to "initial" "State::led_on()"].
Example C67_case :
  well_scoped "event" "context" blinky /\ nothing_hidden "event" "context" blinky /\
  (ordinary dark /\ accepted start dark /\ ~ well_scoped "event" "context" dark) /\
  (ordinary nosy /\ accepted start nosy /\ ~ well_scoped "event" "context" nosy).
Proof.
  assert (W : well_scoped "event" "context" blinky)
    by exact (proj1 (C67_checked all_forward blinky_args blinky blinky_code blinky_expands) blinky_compiles).
  split; [exact W|].
  split; [exact (proj1 (C67_hygienic all_forward blinky_args blinky blinky_code blinky_expands W) blinky_hygienic)|].
  split.
  - assert (O : ordinary dark) by (apply Props11.ordinaryb_ok; reflexivity). split; [exact O|].
    split; [apply (Props11.C48_accepted all_forward start dark O); eexists; vm_compute; reflexivity|].
    intros D. pose proof (ws_nodes D _ (or_introl eq_refl) (or_introl eq_refl) eq_refl) as F.
    pose proof (nf_superstate F (mu:=blinking) (or_intror (or_introl eq_refl)) eq_refl eq_refl) as S.
    assert (K : keeps "event" "context" "superstate" blinking "led").
    { left. split; [|split; discriminate]. eexists. split; [right; left; reflexivity|]. eexists. split; reflexivity. }
    destruct (S "led" K) as [(P & _)|P]; [|destruct P].
    destruct P as (p & I & pt & -> & E). destruct I as [I|[I|[]]]; inversion I; subst; discriminate E.
  - assert (O : ordinary nosy) by (apply Props11.ordinaryb_ok; reflexivity). split; [exact O|].
    split; [apply (Props11.C48_accepted all_forward start nosy O); eexists; vm_compute; reflexivity|].
    intros D. pose proof (ws_nodes D _ (or_introl eq_refl) (or_introl eq_refl) eq_refl) as F.
    destruct (nf_actions F _ (or_introl eq_refl) (or_intror (or_introl eq_refl)) eq_refl eq_refl) as [_ A].
    destruct (A "event") as [[(_ & N & _)|P]|[P|P]]; [|exact (N eq_refl)|destruct P|discriminate|discriminate].
    eexists. split; [left; reflexivity|]. eexists. split; reflexivity.
Qed.
