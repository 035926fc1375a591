{
 "claims": [
  {
   "property": "C01",
   "status": "proved",
   "theorems": [
    "C01_dispatch_goes_up"
   ],
   "note": "both modes, initialized or not; completed and aborted calls"
  },
  {
   "property": "C02",
   "status": "proved",
   "theorems": [
    "C02_no_transition_no_change"
   ],
   "note": ""
  },
  {
   "property": "C03",
   "status": "proved",
   "theorems": [
    "C03_transition_route"
   ],
   "note": ""
  },
  {
   "property": "C04",
   "status": "proved",
   "theorems": [
    "C04_transition_minimal"
   ],
   "note": ""
  },
  {
   "property": "C05",
   "status": "proved",
   "theorems": [
    "C05_self_transition"
   ],
   "note": ""
  },
  {
   "property": "C06",
   "status": "proved",
   "theorems": [
    "C06_new_state_is_target"
   ],
   "note": "needs the laws of mutable borrows for superstate views"
  },
  {
   "property": "C07",
   "status": "proved",
   "theorems": [
    "C07_bracketed"
   ],
   "note": ""
  },
  {
   "property": "C08",
   "status": "proved",
   "theorems": [
    "C08_init_enters_path",
    "C08_init_once"
   ],
   "note": ""
  },
  {
   "property": "C09",
   "status": "proved",
   "theorems": [
    "C09_init_idempotent",
    "C09_init_then_initialized",
    "C09_handle_is_init_then_handle",
    "C09_handle_then_init"
   ],
   "note": ""
  },
  {
   "property": "C10",
   "status": "proved",
   "theorems": [
    "C10_front_ends_agree",
    "C10_written_before_init"
   ],
   "note": ""
  },
  {
   "property": "C100",
   "status": "proved",
   "theorems": [
    "C100_added",
    "C100_same_answers"
   ],
   "note": "C84 for polled machines, by way of C99"
  },
  {
   "property": "C101",
   "status": "proved",
   "theorems": [
    "C101_renamed",
    "C101_same_answers"
   ],
   "note": "C82 for polled machines, by way of C99"
  },
  {
   "property": "C102",
   "status": "proved",
   "theorems": [
    "C102_other_async",
    "C102_same_answers"
   ],
   "note": "C97 for two polled machines, by way of C99"
  },
  {
   "property": "C103",
   "status": "proved",
   "theorems": [
    "C103_equivalence",
    "C103_equivalence_polled",
    "C103_edits",
    "C103_renamed_and_extended"
   ],
   "note": ""
  },
  {
   "property": "C104",
   "status": "proved",
   "theorems": [
    "C104_replaced"
   ],
   "note": ""
  },
  {
   "property": "C105",
   "status": "proved",
   "theorems": [
    "C105_call",
    "C105_history",
    "C105_on_executor",
    "C105_typestate",
    "C105_never_undone",
    "C105_second_grows",
    "C105_total_stays",
    "C105_polls_needed"
   ],
   "note": ""
  },
  {
   "property": "C11",
   "status": "partial",
   "theorems": [
    "C11_before_transition_awaitable",
    "C11_before_transition_blocking_swapped",
    "C11_before_transition_refuted"
   ],
   "note": "true of awaitable machines; false of blocking ones, which always pass (target, source) - both proved"
  },
  {
   "property": "C12",
   "status": "proved",
   "theorems": [
    "C12_after_transition_args",
    "C12_after_transition_called"
   ],
   "note": ""
  },
  {
   "property": "C13",
   "status": "proved",
   "theorems": [
    "C13_transition_hooks",
    "C13_init_no_hooks"
   ],
   "note": ""
  },
  {
   "property": "C14",
   "status": "proved",
   "theorems": [
    "C14_dispatch_hooks"
   ],
   "note": ""
  },
  {
   "property": "C15",
   "status": "proved",
   "theorems": [
    "C15_modes_agree",
    "C15_hooks_differ"
   ],
   "note": "for machines whose hooks do not write shared storage; the second theorem shows the restriction is needed"
  },
  {
   "property": "C16",
   "status": "proved",
   "theorems": [
    "C16_no_underflow"
   ],
   "note": "no hypotheses"
  },
  {
   "property": "C17",
   "status": "proved",
   "theorems": [
    "C17_terminates",
    "C17_more_stack_same",
    "C17_cyclic_diverges"
   ],
   "note": ""
  },
  {
   "property": "C18",
   "status": "proved",
   "theorems": [
    "C18_abort_never_corrupts",
    "C18_abort_prefix"
   ],
   "note": ""
  },
  {
   "property": "C19",
   "status": "proved",
   "theorems": [
    "C19_aborted_init",
    "C19_initialized_after_handle"
   ],
   "note": ""
  },
  {
   "property": "C20",
   "status": "partial",
   "theorems": [
    "C20_bracketing_survives_aborts_refuted",
    "C20_retried_init_refuted",
    "C20_bracketed_partial"
   ],
   "note": "false of the code as stated: an aborted transition or initialization leaves entry/exit actions unpaired; proved for histories whose aborts happen outside actions; C85 bounds the damage of the other aborts"
  },
  {
   "property": "C21",
   "status": "proved",
   "theorems": [
    "C21_threaded",
    "C21_init_threaded"
   ],
   "note": ""
  },
  {
   "property": "C22",
   "status": "proved",
   "theorems": [
    "C22_unit_context",
    "C22_unit_event",
    "C22_unit_both"
   ],
   "note": ""
  },
  {
   "property": "C23",
   "status": "proved",
   "theorems": [
    "C23_round_trip",
    "C23_serializes"
   ],
   "note": ""
  },
  {
   "property": "C24",
   "status": "proved",
   "theorems": [
    "C24_map_accepted",
    "C24_map_rejected",
    "C24_sequence"
   ],
   "note": ""
  },
  {
   "property": "C25",
   "status": "proved",
   "theorems": [
    "C25_restored_reenters",
    "C25_restored_typestate"
   ],
   "note": ""
  },
  {
   "property": "C26",
   "status": "partial",
   "theorems": [
    "C26_partial_eq",
    "C26_eq_partial",
    "C26_state_machine_eq_refuted",
    "C26_distinguishes",
    "C26_machines"
   ],
   "note": "proved except that StateMachine claims Eq without asking for Eq of the user's types, for which the claim is refuted"
  },
  {
   "property": "C27",
   "status": "proved",
   "theorems": [
    "C27_clone_is_equal",
    "C27_clone_lockstep",
    "C27_independent"
   ],
   "note": ""
  },
  {
   "property": "C28",
   "status": "proved",
   "theorems": [
    "C28_current_values",
    "C28_read_after_write",
    "C28_written_is_visible",
    "C28_views_are_functions_of_the_state"
   ],
   "note": ""
  },
  {
   "property": "C29",
   "status": "proved",
   "theorems": [
    "C29_every_value",
    "C29_handlers",
    "C29_actions",
    "C29_counterexample"
   ],
   "note": "the counterexample shows why fields and parameters called shared_storage, event or context are excepted"
  },
  {
   "property": "C30",
   "status": "proved",
   "theorems": [
    "C30_superstates",
    "C29_actions",
    "C30_undefined_rejected"
   ],
   "note": ""
  },
  {
   "property": "C31",
   "status": "proved",
   "theorems": [
    "C31_well_formed",
    "C31_stable",
    "C31_dispatch",
    "C31_transition"
   ],
   "note": ""
  },
  {
   "property": "C32",
   "status": "partial",
   "theorems": [
    "C32_variants",
    "C32_distinct_partial",
    "C32_exact",
    "C32_collision_rejected",
    "C32_counterexample"
   ],
   "note": "false of the code (a_1 and a1 collide); proved which names collide (C32_exact), that usual names never do, and that a collision never compiles"
  },
  {
   "property": "C33",
   "status": "proved",
   "theorems": [
    "C33_constructors",
    "C33_two_attributes_counterexample"
   ],
   "note": "the counterexample shows what a second #[state] attribute does"
  },
  {
   "property": "C34",
   "status": "partial",
   "theorems": [
    "C34_mode",
    "C34_awaited",
    "C34_hooks_partial",
    "C34_counterexample"
   ],
   "note": "mode and awaiting proved; an async hook of a blocking machine is never run (counterexample)"
  },
  {
   "property": "C35",
   "status": "partial",
   "theorems": [
    "C35_reordered_partial",
    "C35_types_partial",
    "C35_behaviour",
    "C35_constructors",
    "C35_serialized_partial",
    "C35_counterexample",
    "C35_types_counterexample"
   ],
   "note": "code and behaviour proved independent of the order; serialization by variant number, and event types written in different ways, do depend on it"
  },
  {
   "property": "C36",
   "status": "partial",
   "theorems": [
    "C36_cycle_diverges",
    "C36_init_exact",
    "C36_no_cycle",
    "C36_counterexample"
   ],
   "note": "false of the code: cycles are accepted, and init then never returns (proved for every such machine, and that it happens exactly below a cycle)"
  },
  {
   "property": "C37",
   "status": "partial",
   "theorems": [
    "C37_well_formed_partial",
    "C37_unknown_ignored",
    "C37_counterexample"
   ],
   "note": "the effects of superstate, actions and local_storage are C29, C30, C45; unknown arguments, among them the documented name, are ignored"
  },
  {
   "property": "C38",
   "status": "partial",
   "theorems": [
    "C38_renaming_partial",
    "C38_counterexample"
   ],
   "note": "holds for exactly the types of which [easily_renamed] is true"
  },
  {
   "property": "C39",
   "status": "proved",
   "theorems": [
    "C39_event_type",
    "C39_context_type",
    "C39_agreement",
    "C39_by_value_rejected",
    "C39_actions_ignored"
   ],
   "note": ""
  },
  {
   "property": "C40",
   "status": "proved",
   "theorems": [
    "C40_polls_are_atomic_calls",
    "C40_schedule_does_not_matter",
    "C40_extra_polls"
   ],
   "note": "poll-level model in Poll.v; dropping a future runs no user code of its own"
  },
  {
   "property": "C41",
   "status": "proved",
   "theorems": [
    "C41_never_polled",
    "C41_dropped_is_cancelled",
    "C41_dropped_state",
    "C41_dropped_init"
   ],
   "note": ""
  },
  {
   "property": "C42",
   "status": "proved",
   "theorems": [
    "C42_state_mut_before_init",
    "C42_state_mut_after_init_breaks"
   ],
   "note": ""
  },
  {
   "property": "C43",
   "status": "proved",
   "theorems": [
    "C43_flat_dispatch",
    "C43_flat_transition"
   ],
   "note": ""
  },
  {
   "property": "C44",
   "status": "partial",
   "theorems": [
    "C44_other_keys_refuted"
   ],
   "note": "false of the code: every such round trip fails; proved for all machines"
  },
  {
   "property": "C45",
   "status": "proved",
   "theorems": [
    "C45_storage"
   ],
   "note": ""
  },
  {
   "property": "C46",
   "status": "proved",
   "theorems": [
    "C46_arguments",
    "C46_initial"
   ],
   "note": ""
  },
  {
   "property": "C47",
   "status": "partial",
   "theorems": [
    "C47_generics_partial",
    "C47_counterexample"
   ],
   "note": "proved for what is declared in terms of the parameters of handlers; bounded lifetimes and types that occur only in local_storage are missed"
  },
  {
   "property": "C48",
   "status": "proved",
   "theorems": [
    "C48_accepted"
   ],
   "note": "`ordinary` excludes only what rustc rejects (duplicate names) and repeated #[state] attributes (see C33)"
  },
  {
   "property": "C49",
   "status": "partial",
   "theorems": [
    "C49_panics_partial",
    "C49_diagnostic_partial",
    "C49_counterexample"
   ],
   "note": "false of the code: five causes of a panic, each shown to occur; proved that there are no others"
  },
  {
   "property": "C50",
   "status": "proved",
   "theorems": [
    "C50_user_code_kept",
    "C50_default_left"
   ],
   "note": ""
  },
  {
   "property": "C51",
   "status": "proved",
   "theorems": [
    "C51_init_changes_nothing",
    "C51_only_handlers",
    "C51_macro"
   ],
   "note": ""
  },
  {
   "property": "C52",
   "status": "proved",
   "theorems": [
    "C52_depth",
    "C52_common_ancestor_depth",
    "C52_transition_path"
   ],
   "note": ""
  },
  {
   "property": "C53",
   "status": "partial",
   "theorems": [
    "C53_basic",
    "C53_blinky",
    "C53_dishwasher",
    "C53_cd_player",
    "C53_calculator_partial",
    "C53_calculator_refuted"
   ],
   "note": "proved for all pairs but the calculators, which differ in one string (\"-0\" and \"- 0\") and are proved to differ in nothing else"
  },
  {
   "property": "C54",
   "status": "proved",
   "theorems": [
    "C54_dishwasher",
    "C54_dishwasher_macro"
   ],
   "note": ""
  },
  {
   "property": "C55",
   "status": "partial",
   "theorems": [
    "C55_barrier_partial",
    "C55_barrier_refuted"
   ],
   "note": "false of the example: `#[default = \"true\"] a`; it opens iff B and C have been seen"
  },
  {
   "property": "C56",
   "status": "partial",
   "theorems": [
    "C56_panics_exactly",
    "C56_never_panics_partial",
    "C56_never_panics_macro_partial",
    "C56_refuted"
   ],
   "note": "false of the examples; proved exactly when a key panics, and that none does without CE and 0. f32 is any type with the operations, of which sound_floats assumes which texts can be read"
  },
  {
   "property": "C57",
   "status": "partial",
   "theorems": [
    "C57_chain_partial",
    "C57_chain_macro_partial",
    "C57_exact",
    "C57_exact_macro",
    "C57_minus_lost_refuted",
    "C57_leading_zero_refuted"
   ],
   "note": "proved for all numbers keyed in without a zero right after the minus, the first not just zeros; for the others C57_exact says what the calculator reads instead, and C57_minus_lost_refuted that it is the wrong number"
  },
  {
   "property": "C58",
   "status": "partial",
   "theorems": [
    "C58_clears_partial",
    "C58_twice_clears",
    "C58_refuted"
   ],
   "note": "false after an operator and a minus; proved from every other state"
  },
  {
   "property": "C59",
   "status": "proved",
   "theorems": [
    "C59_by_hand",
    "C59_macro"
   ],
   "note": ""
  },
  {
   "property": "C60",
   "status": "proved",
   "theorems": [
    "C60_hooks"
   ],
   "note": ""
  },
  {
   "property": "C61",
   "status": "proved",
   "theorems": [
    "C61_context"
   ],
   "note": "the context's two references are modelled as the two numbers they point to"
  },
  {
   "property": "C62",
   "status": "proved",
   "theorems": [
    "C62_generic"
   ],
   "note": ""
  },
  {
   "property": "C63",
   "status": "proved",
   "theorems": [
    "C63_receiver"
   ],
   "note": "a write that fails part way is an attempt that does not count as delivered"
  },
  {
   "property": "C64",
   "status": "proved",
   "theorems": [
    "C64_bench_complex",
    "C64_no_return"
   ],
   "note": ""
  },
  {
   "property": "C65",
   "status": "proved",
   "theorems": [
    "C65_local_storage"
   ],
   "note": ""
  },
  {
   "property": "C66",
   "status": "partial",
   "theorems": [
    "C66_initialized",
    "C66_uninitialized_partial",
    "C66_response",
    "C66_node",
    "C66_tells_apart",
    "C66_name_refuted"
   ],
   "note": "proved but for the name: UninitializedStateMachine is shown as UnInitializedStateMachine. Of core::fmt's flags only `#` is modelled"
  },
  {
   "property": "C67",
   "status": "proved",
   "theorems": [
    "C67_checked",
    "C67_hygienic",
    "C67_good_blocks"
   ],
   "note": "as far as `compiles` goes: checks of names and double borrows, not of types"
  },
  {
   "property": "C68",
   "status": "proved",
   "theorems": [
    "C68_any_machine",
    "C68_any_init",
    "C68_stable_needed",
    "C68_follows_needed",
    "C68_rank_needed"
   ],
   "note": "the three _needed theorems are the counterexamples"
  },
  {
   "property": "C69",
   "status": "proved",
   "theorems": [
    "C69_buttons",
    "C69_frames",
    "C69_computes",
    "C69_computes_macro"
   ],
   "note": "egui itself is an arbitrary sequence of frames, each with an arbitrary set of clicked buttons"
  },
  {
   "property": "C70",
   "status": "proved",
   "theorems": [
    "C70_session",
    "C70_typed_session",
    "C70_quiet_needed",
    "C70_serde_test",
    "C70_serde_test_macro"
   ],
   "note": ""
  },
  {
   "property": "C71",
   "status": "proved",
   "theorems": [
    "C71_idle_superstate",
    "C71_again",
    "C71_hooks_needed"
   ],
   "note": "the machine without the superstate is `without` of IdleSpec.v"
  },
  {
   "property": "C72",
   "status": "proved",
   "theorems": [
    "C72_same_machine",
    "C72_dropped_once",
    "C72_never_twice",
    "C72_dropped_last"
   ],
   "note": "destructors themselves are assumed to return and to leave the machine alone; see Drops.v"
  },
  {
   "property": "C73",
   "status": "proved",
   "theorems": [
    "C73_unseen",
    "C73_panics",
    "C73_init_again",
    "C73_pure"
   ],
   "note": "the library with superstate() as a call into user code is modelled in SuperCalls.v"
  },
  {
   "property": "C74",
   "status": "proved",
   "theorems": [
    "C74_pushed_down"
   ],
   "note": ""
  },
  {
   "property": "C75",
   "status": "proved",
   "theorems": [
    "C75_rearranged",
    "C75_builds",
    "C75_types",
    "C75_behaviour",
    "C75_constructors"
   ],
   "note": "Rust's own order-independence of items in an impl block is assumed (the functions are the parameter B). C75_types needs the handlers to agree on the types, as C35_types_partial."
  },
  {
   "property": "C76",
   "status": "proved",
   "theorems": [
    "C76_well_typed",
    "C76_calls",
    "C76_constructors"
   ],
   "note": "having a type is an arbitrary relation; types_fit is a sufficient condition on the source (types compared as written), not claimed to be exactly rustc's check (coercions, aliases, lifetimes)"
  },
  {
   "property": "C77",
   "status": "proved",
   "theorems": [
    "C77_while_active",
    "C77_unfailing",
    "C77_completed_needed"
   ],
   "note": "conditions are about the shared storage and the active variants, not about state-local values"
  },
  {
   "property": "C78",
   "status": "proved",
   "theorems": [
    "C78_reference",
    "C78_call",
    "C78_generated",
    "C78_views_needed"
   ],
   "note": "an equality of complete results: outcome, log with arguments, context, storage, state, initialized flag"
  },
  {
   "property": "C79",
   "status": "proved",
   "theorems": [
    "C79_between_calls",
    "C79_unfailing",
    "C79_generated",
    "C79_readme_counter"
   ],
   "note": "C77 extended to state-local storage and to the intermediate points of a transition"
  },
  {
   "property": "C80",
   "status": "proved",
   "theorems": [
    "C80_call",
    "C80_history",
    "C80_read_only",
    "C80_meter"
   ],
   "note": "with an example where one &mut in a superstate breaks the hypothesis and the conclusion"
  },
  {
   "property": "C81",
   "status": "proved",
   "theorems": [
    "C81_lockstep",
    "C81_lockstep_views",
    "C81_same_answers",
    "C81_two_lights"
   ],
   "note": "relational simulation over whole histories; two implementations of a README-like light as the example"
  },
  {
   "property": "C82",
   "status": "proved",
   "theorems": [
    "C82_renamed",
    "C82_same_answers",
    "C82_bodies_exist"
   ],
   "note": "for all renamings of methods (any) and of parameters and fields (injective, self stays self); hooks keep their paths; the renamed block may have further methods of any kind. C82_bodies_exist: functions for the renamed block always exist"
  },
  {
   "property": "C83",
   "status": "proved",
   "theorems": [
    "C83_calls",
    "C83_calls_any",
    "C83_superstate_calls",
    "C83_counting_unseen",
    "C83_reached"
   ],
   "note": "C83_reached: the bounds on calls are reached at every depth in both modes. The bound on superstate() has the right order but not the best constant"
  },
  {
   "property": "C84",
   "status": "proved",
   "theorems": [
    "C84_added",
    "C84_same_answers",
    "C84_bodies_exist"
   ],
   "note": "the settings (event and context names, hooks) are kept. C84_bodies_exist: the added functions are arbitrary"
  },
  {
   "property": "C85",
   "status": "proved",
   "theorems": [
    "C85_balance",
    "C85_exact",
    "C85_reached"
   ],
   "note": "what remains of C20 when actions abort; C85_reached: the bounds are reached for every number of aborts, in both modes"
  },
  {
   "property": "C86",
   "status": "proved",
   "theorems": [
    "C86_dropped_once",
    "C86_order",
    "C86_front_ends"
   ],
   "note": "extends C72 by the drop of the machine itself and the shared storage; running out of stack drops nothing and is excluded"
  },
  {
   "property": "C87",
   "status": "proved",
   "theorems": [
    "C87_polls",
    "C87_one_poll",
    "C87_completes"
   ],
   "note": "poll level (Poll.v); liveness uses the bound of C83"
  },
  {
   "property": "C88",
   "status": "proved",
   "theorems": [
    "C88_isolated",
    "C88_any_schedule",
    "C88_fair"
   ],
   "note": "tasks and executor are modelled in Tasks.v (client side); what tasks communicate is part of the worlds they see, which are arbitrary"
  },
  {
   "property": "C89",
   "status": "proved",
   "theorems": [
    "C89_calls_move",
    "C89_nested",
    "C89_bracketed"
   ],
   "note": "asks nothing of the owner's hierarchy; C89_case: an owner that panics"
  },
  {
   "property": "C90",
   "status": "proved",
   "theorems": [
    "C90_one_arrow",
    "C90_reachable",
    "C90_final",
    "C90_generated"
   ],
   "note": "the diagram over-approximates: an arrow need not be taken if an inner handler answers first"
  },
  {
   "property": "C91",
   "status": "proved",
   "theorems": [
    "C91_fifo",
    "C91_history",
    "C91_done"
   ],
   "note": "the loop is client code (QueueSpec.v); the queue is part of the context"
  },
  {
   "property": "C92",
   "status": "proved",
   "theorems": [
    "C92_step",
    "C92_reached",
    "C92_stays",
    "C92_generated"
   ],
   "note": "the rule is about the handlers' answers for all storage (can_answer); goals are decidable sets of states"
  },
  {
   "property": "C93",
   "status": "proved",
   "theorems": [
    "C93_call",
    "C93_accounts",
    "C93_journal",
    "C93_monitor",
    "C93_monitor_aborted_refuted"
   ],
   "note": "accounts are relations indexed by the log; the refuted case marks the limit of the monitor"
  },
  {
   "property": "C94",
   "status": "proved",
   "theorems": [
    "C94_same_futures",
    "C94_atomic",
    "C94_dropped_once",
    "C94_dropped_last",
    "C94_which",
    "C94_nothing"
   ],
   "note": "destructors themselves neither panic nor touch the machine; values inside the user's own futures are the user's"
  },
  {
   "property": "C95",
   "status": "proved",
   "theorems": [
    "C95_handle",
    "C95_init",
    "C95_init_never_polled",
    "C95_life",
    "C95_dropped_once"
   ],
   "note": "destructors themselves neither panic nor touch the machine; values inside the user's own futures are the user's"
  },
  {
   "property": "C96",
   "status": "proved",
   "theorems": [
    "C96_schedule",
    "C96_arguments",
    "C96_dropped",
    "C96_completes"
   ],
   "note": "C96_schedule assumes the futures of the async fns compute what the atomic bodies say when they get ready; C96_arguments and C96_dropped assume no such thing"
  },
  {
   "property": "C97",
   "status": "proved",
   "theorems": [
    "C97_accepted",
    "C97_bodies_exist",
    "C97_same_mode",
    "C97_modes",
    "C97_polled"
   ],
   "note": "with hooks the two modes differ (C11, C14, C15); C97_accepted is about impl blocks without duplicate names and attributes (ordinary)"
  },
  {
   "property": "C98",
   "status": "proved",
   "theorems": [
    "C98_regrouped",
    "C98_same_answers",
    "C98_bodies_exist"
   ],
   "note": "the superstate is moved out on the level of the source; C71 is the same on the level of the runtime"
  },
  {
   "property": "C99",
   "status": "proved",
   "theorems": [
    "C99_poll_by_poll",
    "C99_histories",
    "C99_completed",
    "C99_two_lights"
   ],
   "note": "C81 for polled machines, including calls dropped halfway; the worlds the two are polled in may differ too"
  }
 ]
}