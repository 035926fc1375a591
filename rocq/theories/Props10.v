(** Props10.v — C35: the iteration order of the macro's hash maps.  Theorems only; see
    MacroOrderSpec.v for the vocabulary ([reordered], [alike], [same_bodies], [by_name], ..). *)

From Coq Require Import String List Bool Arith Lia Permutation.
From Verif Require Import Machine Api Spec Sim.
From Verif Require Import MacroSyntax MacroVisit MacroLower MacroGen MacroSem MacroSpec MacroOrderSpec MacroExamples.
From Verif Require MacroBehaviour MacroBasics MacroOrderProofs MacroReorderProofs Props9.
Import ListNotations.
Open Scope string_scope.
Open Scope list_scope.

(** C35.  If the macro accepts an impl block with one iteration order, it does so with any
    other; the code is the same, up to the order of variants, constructors and arms, and it
    compiles in both cases or neither.
    [_partial]: [reordered] leaves out the event and context types, see [C35_types_partial]. *)
Theorem C35_reordered_partial :
  forall (o o' : orders) (args : list meta) (item : item_impl) (g : generated),
    expand o args item = Done g ->
    exists g', expand o' args item = Done g' /\ reordered g g' /\ (compiles g <-> compiles g').
Proof.
  intros o o' args item g E. destruct (@MacroOrderProofs.expand_order o o' args item g E) as [g' [E' R]].
  exists g'. split; [exact E'|]. split; [exact R|]. split; [exact (@MacroReorderProofs.compiles_reordered g g' R)|].
  destruct (@MacroOrderProofs.expand_order o' o args item g' E') as [g'' [E'' R']].
  rewrite E in E''. injection E'' as <-. exact (@MacroReorderProofs.compiles_reordered g' g R').
Qed.
Print Assumptions C35_reordered_partial.

(** If all handlers give the event the same type, and likewise the context, then the two
    expansions agree on them. *)
Theorem C35_types_partial :
  forall (o o' : orders) (args : list meta) (item : item_impl) (g g' : generated) (te tc : ty),
    expand o args item = Done g -> expand o' args item = Done g' ->
    NoDup (map m_name (methods item)) -> g_event_ident g <> g_context_ident g ->
    (forall m l mu t, is_handler item m -> takes m (g_event_ident g) (TReference l mu t) -> t = te) ->
    (forall m l mu t, is_handler item m -> takes m (g_context_ident g) (TReference l mu t) -> t = tc) ->
    g_event_type g = g_event_type g' /\ g_context_type g = g_context_type g'.
Proof.
  intros o o' args item g g' te tc E E' ND N He Hc.
  destruct (@MacroOrderProofs.expand_order o o' args item g E) as [g1 [E1 R]]. rewrite E' in E1. injection E1 as <-.
  pose proof (ro_event_ident R) as Qe. pose proof (ro_context_ident R) as Qc. split.
  - destruct (Props9.C39_event_type o args item g E ND) as [(m & l & mu & t & H & K & ->)|[A ->]];
    destruct (Props9.C39_event_type o' args item g' E' ND) as [(m' & l' & mu' & t' & H' & K' & ->)|[A' ->]];
      rewrite Qe in *.
    + now rewrite (He _ _ _ _ H K), (He _ _ _ _ H' K').
    + exfalso. exact (A' _ _ H K).
    + exfalso. exact (A _ _ H' K').
    + reflexivity.
  - destruct (Props9.C39_context_type o args item g E ND) as [C _].
    destruct (Props9.C39_context_type o' args item g' E' ND) as [C' _]. rewrite Qe, Qc in C'.
    specialize (C N). specialize (C' N).
    destruct C as [(m & l & mu & t & H & K & ->)|[A ->]]; destruct C' as [(m' & l' & mu' & t' & H' & K' & ->)|[A' ->]].
    + now rewrite (Hc _ _ _ _ H K), (Hc _ _ _ _ H' K').
    + exfalso. exact (A' _ _ H K).
    + exfalso. exact (A _ _ H' K').
    + reflexivity.
Qed.
Print Assumptions C35_types_partial.

(** Any functions written against one expansion can be written against the other
    ([same_bodies]), and whenever they do the same, the two machines started on the same
    shared storage, fed the same events and contexts, return, panic or suspend alike, call the
    same functions in the same order with the same values, and are in the same state. *)
Theorem C35_behaviour :
  forall (o o' : orders) (args : list meta) (item : item_impl) (g g' : generated),
    expand o args item = Done g -> compiles g -> expand o' args item = Done g' ->
    forall (Val Sh Ev Cx : Type) (B : bodies Val Sh Ev Cx g),
      (exists B' : bodies Val Sh Ev Cx g', same_bodies B B') /\
      forall (B' : bodies Val Sh Ev Cx g'), same_bodies B B' ->
      forall (stack : nat) (md : mode) (sh : Sh) (evs : list (Ev * Cx)),
        let R := alike_relations B B' in
        let a := sm_handles stack md (@new_state_machine (generated_machine B) sh) evs in
        let b := sm_handles stack md (@new_state_machine (generated_machine B') sh) evs in
        alike (sm_state (fst a)) (sm_state (fst b)) /\
        sm_shared (fst a) = sm_shared (fst b) /\
        initialized (fst a) = initialized (fst b) /\
        Forall2 (called_rel R) (snd a) (snd b).
Proof.
  intros o o' args item g g' E CO E' Val Sh Ev Cx B.
  destruct (MacroBehaviour.expand_compiles o args item E CO) as [ND [c [sms [ums X]]]].
  destruct (@MacroOrderProofs.expand_order o o' args item g E) as [g1 [E1 R]]. rewrite E' in E1. injection E1 as <-.
  pose proof (@MacroReorderProofs.expanded_same args item g g' c sms ums X CO R) as C. split.
  - eexists. exact (@MacroReorderProofs.moved_same Val Sh Ev Cx g g' (MacroReorderProofs.sc_states C)
                      (MacroReorderProofs.sc_supers C) B).
  - intros B' SB stack md sh evs.
    pose proof (@MacroReorderProofs.same_code_similar Val Sh Ev Cx g g' C B B' SB) as S.
    assert (FE : Forall2 (fun a b => r_event (alike_relations B B') (fst a) (fst b) /\
                                     r_ctx (alike_relations B B') (snd a) (snd b)) evs evs).
    { clear. induction evs; constructor; [split; reflexivity|assumption]. }
    assert (M : machine_rel (alike_relations B B') (@new_state_machine (generated_machine B) sh)
                            (@new_state_machine (generated_machine B') sh)).
    { split; [exact (si_initial S)|]. split; reflexivity. }
    destruct (@sim_handles _ _ _ S stack md evs evs _ _ FE M) as [(H1 & H2 & H3) H4].
    intros R0 a b. split; [exact H1|]. split; [exact H2|]. split; [exact H3|exact H4].
Qed.
Print Assumptions C35_behaviour.

(** The constructors of the two expansions build the same states. *)
Theorem C35_constructors :
  forall (o o' : orders) (args : list meta) (item : item_impl) (g g' : generated),
    expand o args item = Done g -> compiles g -> expand o' args item = Done g' ->
    forall (Val : Type) (eval : expr -> (ident -> option Val) -> Val) (default : ty -> Val)
           (name : ident) (actuals : list Val),
      alike_option (construct g eval default name actuals) (construct g' eval default name actuals).
Proof.
  intros o o' args item g g' E CO E' Val eval default name actuals.
  destruct (MacroBehaviour.expand_compiles o args item E CO) as [ND [c [sms [ums X]]]].
  destruct (@MacroOrderProofs.expand_order o o' args item g E) as [g1 [E1 R]]. rewrite E' in E1. injection E1 as <-.
  exact (@MacroReorderProofs.construct_same Val g g' eval default name actuals
           (@MacroReorderProofs.expanded_same args item g g' c sms ums X CO R)
           (@MacroReorderProofs.constructor_names args item g c sms ums ND X) (co_state_variants CO) R).
Qed.
Print Assumptions C35_constructors.

(** A state serialized under the name of its variant by one build is read back as the same
    state by the other. *)
Theorem C35_serialized_partial :
  forall (o o' : orders) (args : list meta) (item : item_impl) (g g' : generated),
    expand o args item = Done g -> compiles g -> expand o' args item = Done g' ->
    forall (Val : Type) (x : value Val (g_state_variants g)),
      exists x', read_by_name (g_state_variants g') (by_name x) = Some x' /\ alike x x'.
Proof.
  intros o o' args item g g' E CO E' Val x.
  destruct (MacroBehaviour.expand_compiles o args item E CO) as [ND [c [sms [ums X]]]].
  destruct (@MacroOrderProofs.expand_order o o' args item g E) as [g1 [E1 R]]. rewrite E' in E1. injection E1 as <-.
  pose proof (MacroReorderProofs.sc_states (@MacroReorderProofs.expanded_same args item g g' c sms ums X CO R)) as F.
  destruct (@MacroBasics.make_some Val (g_state_variants g') (tag x) (vals x)
              (@MacroReorderProofs.move_ok Val _ _ F x)) as [x' [M [T V]]].
  exists x'. split; [exact M|]. now split.
Qed.
Print Assumptions C35_serialized_partial.

(** Not so for formats that store the number of the variant (bincode, postcard, ..): there are
    two builds of one source such that state `Off` saved by one is read as `On` by the other. *)
Definition other_order : orders := Orders forward forward forward backward forward.
Definition switch : item_impl :=
  impl_of [method [MetaPath ["state"]] "on" []; method [MetaPath ["state"]] "off" []].
Definition switch_args : list meta := [set_to "initial" "State::on()"].
Theorem C35_counterexample :
  exists (o o' : orders) (args : list meta) (item : item_impl) (g g' : generated),
    expand o args item = Done g /\ expand o' args item = Done g' /\ compiles g /\ compiles g' /\
    exists (x : value nat (g_state_variants g)) (x' : value nat (g_state_variants g')),
      tag x = "Off" /\ read_by_number (g_state_variants g) (by_number x) = Some x /\
      read_by_number (g_state_variants g') (by_number x) = Some x' /\ tag x' = "On".
Proof.
  set (g := output (expand all_forward switch_args switch)).
  set (g' := output (expand other_order switch_args switch)).
  exists all_forward, other_order, switch_args, switch, g, g'.
  split; [reflexivity|]. split; [reflexivity|].
  split; [apply compilesb_ok; vm_compute; reflexivity|]. split; [apply compilesb_ok; vm_compute; reflexivity|].
  unshelve eexists (Value (g_state_variants g) "Off" [] _); [vm_compute; reflexivity|].
  unshelve eexists (Value (g_state_variants g') "On" [] _); [vm_compute; reflexivity|].
  split; [reflexivity|]. split; [reflexivity|]. split; reflexivity.
Qed.
Print Assumptions C35_counterexample.

(** And if two handlers write the event type in two ways, the event type of the machine is
    one or the other: with `&Event` and `&crate::Event`, say, or with a type that is not even
    the same. *)
Definition two_types : item_impl :=
  impl_of [method [MetaPath ["state"]] "on" [by_ref "event" (named_type "Event")];
           method [MetaPath ["state"]] "off" [by_ref "event" (named_type "u8")]].
Theorem C35_types_counterexample :
  exists (o o' : orders) (g g' : generated),
    expand o switch_args two_types = Done g /\ expand o' switch_args two_types = Done g' /\
    compiles g /\ compiles g' /\ g_event_type g <> g_event_type g'.
Proof.
  exists all_forward, all_backward.
  exists (output (expand all_forward switch_args two_types)), (output (expand all_backward switch_args two_types)).
  split; [reflexivity|]. split; [reflexivity|].
  split; [apply compilesb_ok; vm_compute; reflexivity|]. split; [apply compilesb_ok; vm_compute; reflexivity|].
  vm_compute. discriminate.
Qed.
Print Assumptions C35_types_counterexample.

(** The blinky machine in two orders: the enums differ, and so do the numbers of the states;
    the machines make the same calls. *)
Example C35_case :
  let g' := output (expand other_order blinky_args blinky) in
  expand other_order blinky_args blinky = Done g' /\ compiles blinky_code /\
  map v_name (g_state_variants blinky_code) = ["LedOn"; "LedOff"; "NotBlinking"] /\
  map v_name (g_state_variants g') <> map v_name (g_state_variants blinky_code) /\
  (let sm := @new_state_machine (generated_machine blinky_bodies) 0 in
   let a := sm_handles 10 BlockingMode sm [(1, 2); (3, 4)] in
   tag (sm_state (fst a)) <> tag (sm_state sm) /\ length (snd a) = 2).
Proof.
  cbv zeta. split; [reflexivity|]. split; [exact blinky_compiles|]. split; [reflexivity|].
  split; [vm_compute; discriminate|]. split; [vm_compute; discriminate|reflexivity].
Qed.
