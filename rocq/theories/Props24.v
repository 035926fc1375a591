(** Props24.v — C75: the order of the items of the annotated impl block.  Theorems only; see
    MacroShuffleSpec.v ([shuffled], [rearranged]) and MacroOrderSpec.v ([reordered], [alike],
    [same_bodies], ..). *)

From Coq Require Import String List Bool Arith Lia Permutation.
From Verif Require Import Machine Api Spec Sim.
From Verif Require Import MacroSyntax MacroVisit MacroLower MacroGen MacroSem MacroSpec MacroOrderSpec MacroExamples.
From Verif Require Import MacroShuffleSpec.
From Verif Require MacroBehaviour MacroBasics MacroOrderProofs MacroReorderProofs MacroShuffleProofs Props9.
Import ListNotations.
Open Scope string_scope.
Open Scope list_scope.

(** C75.  The impl block with its items in another order, under any iteration order of the hash
    maps, is accepted as well, and the code is the same up to order.  Both compile or neither. *)
Theorem C75_rearranged :
  forall (o o' : orders) (args : list meta) (item item' : item_impl) (g : generated),
    NoDup (map m_name (methods item)) -> shuffled item item' -> expand o args item = Done g ->
    exists g', expand o' args item' = Done g' /\ rearranged g g' /\ (compiles g <-> compiles g').
Proof.
  intros o o' args item item' g ND S E.
  destruct (@MacroShuffleProofs.expand_shuffled o o' args item item' g E ND S) as [g' [E' R]].
  exists g'. split; [exact E'|]. split; [exact R|]. exact (@MacroShuffleProofs.compiles_rearranged_iff g g' R).
Qed.
Print Assumptions C75_rearranged.

(** Methods of the same name do not compile, so whether the macro and the compiler accept the
    impl block never depends on the order. *)
Theorem C75_builds :
  forall (o o' : orders) (args : list meta) (item item' : item_impl),
    shuffled item item' ->
    ((exists g, expand o args item = Done g /\ compiles g) <->
     (exists g', expand o' args item' = Done g' /\ compiles g')).
Proof.
  assert (H : forall o o' args item item', shuffled item item' ->
    (exists g, expand o args item = Done g /\ compiles g) ->
    (exists g', expand o' args item' = Done g' /\ compiles g')).
  { intros o o' args item item' S [g [E C]].
    destruct (MacroBehaviour.expand_compiles o args item E C) as [ND _].
    destruct (C75_rearranged o o' args item item' g ND S E) as (g' & E' & _ & K).
    exists g'. split; [exact E'|]. now apply K. }
  intros o o' args item item' S. split; apply H; [exact S|].
  destruct S as (A & B & P). split; [congruence|]. split; [congruence|]. now apply Permutation_sym.
Qed.
Print Assumptions C75_builds.

(** The types of the event and of the context agree, provided all handlers give them the same
    type. *)
Theorem C75_types :
  forall (o o' : orders) (args : list meta) (item item' : item_impl) (g g' : generated) (te tc : ty),
    shuffled item item' -> expand o args item = Done g -> expand o' args item' = Done g' ->
    NoDup (map m_name (methods item)) -> g_event_ident g <> g_context_ident g ->
    (forall m l mu t, is_handler item m -> takes m (g_event_ident g) (TReference l mu t) -> t = te) ->
    (forall m l mu t, is_handler item m -> takes m (g_context_ident g) (TReference l mu t) -> t = tc) ->
    g_event_type g = g_event_type g' /\ g_context_type g = g_context_type g'.
Proof.
  intros o o' args item item' g g' te tc S E E' ND N He Hc.
  destruct (@MacroShuffleProofs.expand_shuffled o o' args item item' g E ND S) as [g1 [E1 [_ R]]].
  rewrite E' in E1. injection E1 as <-.
  pose proof (ro_event_ident R) as Qe. pose proof (ro_context_ident R) as Qc. cbn in Qe, Qc.
  pose proof (@MacroShuffleProofs.shuffled_methods item item' S) as P.
  assert (ND' : NoDup (map m_name (methods item'))).
  { eapply Permutation_NoDup; [apply Permutation_map, P|exact ND]. }
  assert (HH : forall m, is_handler item' m <-> is_handler item m).
  { intros m. unfold is_handler. split; intros [I K]; (split; [|exact K]);
      (eapply Permutation_in; [|exact I]); [apply Permutation_sym|]; exact P. }
  split.
  - destruct (Props9.C39_event_type o args item g E ND) as [(m & l & mu & t & H & K & ->)|[A ->]];
    destruct (Props9.C39_event_type o' args item' g' E' ND') as [(m' & l' & mu' & t' & H' & K' & ->)|[A' ->]];
      rewrite Qe in *.
    + apply HH in H'. now rewrite (He _ _ _ _ H K), (He _ _ _ _ H' K').
    + exfalso. apply HH in H. exact (A' _ _ H K).
    + exfalso. apply HH in H'. exact (A _ _ H' K').
    + reflexivity.
  - destruct (Props9.C39_context_type o args item g E ND) as [C _].
    destruct (Props9.C39_context_type o' args item' g' E' ND') as [C' _]. rewrite Qe, Qc in C'.
    specialize (C N). specialize (C' N).
    destruct C as [(m & l & mu & t & H & K & ->)|[A ->]]; destruct C' as [(m' & l' & mu' & t' & H' & K' & ->)|[A' ->]].
    + apply HH in H'. now rewrite (Hc _ _ _ _ H K), (Hc _ _ _ _ H' K').
    + exfalso. apply HH in H. exact (A' _ _ H K).
    + exfalso. apply HH in H'. exact (A _ _ H' K').
    + reflexivity.
Qed.
Print Assumptions C75_types.

(** The two machines behave the same: any functions written against one expansion can be
    written against the other, and then, for all events and contexts, they return, panic or
    suspend alike, call the same functions in the same order with the same values, and are in
    the same state. *)
Theorem C75_behaviour :
  forall (o o' : orders) (args : list meta) (item item' : item_impl) (g g' : generated),
    shuffled item item' -> expand o args item = Done g -> compiles g -> expand o' args item' = Done g' ->
    forall (Val Sh Ev Cx : Type) (B : bodies Val Sh Ev Cx g),
      (exists B' : bodies Val Sh Ev Cx g', same_bodies B B') /\
      forall (B' : bodies Val Sh Ev Cx g'), same_bodies B B' ->
      forall (stack : nat) (md : mode) (sh : Sh) (evs : list (Ev * Cx)),
        let R := alike_relations B B' in
        let a := sm_handles stack md (@new_state_machine (generated_machine B) sh) evs in
        let b := sm_handles stack md (@new_state_machine (generated_machine B') sh) evs in
        alike (sm_state (fst a)) (sm_state (fst b)) /\
        sm_shared (fst a) = sm_shared (fst b) /\
        initialized (fst a) = initialized (fst b) /\
        Forall2 (called_rel R) (snd a) (snd b).
Proof.
  intros o o' args item item' g g' SH E CO E' Val Sh Ev Cx B.
  destruct (MacroBehaviour.expand_compiles o args item E CO) as [ND [c [sms [ums X]]]].
  destruct (@MacroShuffleProofs.expand_shuffled o o' args item item' g E ND SH) as [g1 [E1 R]].
  rewrite E' in E1. injection E1 as <-.
  pose proof (@MacroShuffleProofs.rearranged_code args item g g' c sms ums X CO R) as C. split.
  - eexists. exact (@MacroReorderProofs.moved_same Val Sh Ev Cx g g' (MacroReorderProofs.sc_states C)
                      (MacroReorderProofs.sc_supers C) B).
  - intros B' SB stack md sh evs.
    pose proof (@MacroReorderProofs.same_code_similar Val Sh Ev Cx g g' C B B' SB) as S.
    assert (FE : Forall2 (fun a b => r_event (alike_relations B B') (fst a) (fst b) /\
                                     r_ctx (alike_relations B B') (snd a) (snd b)) evs evs).
    { clear. induction evs; constructor; [split; reflexivity|assumption]. }
    assert (M : machine_rel (alike_relations B B') (@new_state_machine (generated_machine B) sh)
                            (@new_state_machine (generated_machine B') sh)).
    { split; [exact (si_initial S)|]. split; reflexivity. }
    destruct (@sim_handles _ _ _ S stack md evs evs _ _ FE M) as [(H1 & H2 & H3) H4].
    intros R0 a b. split; [exact H1|]. split; [exact H2|]. split; [exact H3|exact H4].
Qed.
Print Assumptions C75_behaviour.

(** The constructors build the same states. *)
Theorem C75_constructors :
  forall (o o' : orders) (args : list meta) (item item' : item_impl) (g g' : generated),
    shuffled item item' -> expand o args item = Done g -> compiles g -> expand o' args item' = Done g' ->
    forall (Val : Type) (eval : expr -> (ident -> option Val) -> Val) (default : ty -> Val)
           (name : ident) (actuals : list Val),
      alike_option (construct g eval default name actuals) (construct g' eval default name actuals).
Proof.
  intros o o' args item item' g g' SH E CO E' Val eval default name actuals.
  destruct (MacroBehaviour.expand_compiles o args item E CO) as [ND [c [sms [ums X]]]].
  destruct (@MacroShuffleProofs.expand_shuffled o o' args item item' g E ND SH) as [g1 [E1 R]].
  rewrite E' in E1. injection E1 as <-. destruct R as [_ R].
  exact (@MacroReorderProofs.construct_same Val g (with_impl (g_impl g) g') eval default name actuals
           (@MacroReorderProofs.expanded_same args item g (with_impl (g_impl g) g') c sms ums X CO R)
           (@MacroReorderProofs.constructor_names args item g c sms ums ND X) (co_state_variants CO) R).
Qed.
Print Assumptions C75_constructors.

(** Not an idle claim: the blinky of the README, written backwards, is another impl block. *)
Definition backwards (item : item_impl) : item_impl := ItemImpl (i_self item) (i_generics item) (rev (i_items item)).
Example C75_case :
  shuffled blinky (backwards blinky) /\ blinky <> backwards blinky /\
  (exists g, expand all_forward [set_to "initial" "State::led_on()"] blinky = Done g /\ compiles g) /\
  exists g', expand all_forward [set_to "initial" "State::led_on()"] (backwards blinky) = Done g' /\ compiles g'.
Proof.
  assert (S : shuffled blinky (backwards blinky)) by (repeat split; apply Permutation_rev).
  split; [exact S|]. split; [discriminate|].
  assert (K : exists g, expand all_forward [set_to "initial" "State::led_on()"] blinky = Done g /\ compiles g).
  { exists (output (expand all_forward [set_to "initial" "State::led_on()"] blinky)).
    split; [reflexivity|apply compilesb_ok; vm_compute; reflexivity]. }
  split; [exact K|]. exact (proj1 (C75_builds all_forward all_forward _ _ _ S) K).
Qed.
