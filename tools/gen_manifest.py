#!/usr/bin/env python3
"""Writes MANIFEST.json; one entry per property: id -> (status, theorems, note)."""
import json, os
M = {}
def c(pid, status, theorems, note=""):
    M[pid] = dict(property=pid, status=status, theorems=theorems, note=note)
c("C01","proved",["C01_dispatch_goes_up"],"both modes, initialized or not; completed and aborted calls")
c("C02","proved",["C02_no_transition_no_change"])
c("C03","proved",["C03_transition_route"])
c("C04","proved",["C04_transition_minimal"])
c("C05","proved",["C05_self_transition"])
c("C06","proved",["C06_new_state_is_target"],"needs the laws of mutable borrows for superstate views")
c("C07","proved",["C07_bracketed"])
c("C08","proved",["C08_init_enters_path","C08_init_once"])
c("C09","proved",["C09_init_idempotent","C09_init_then_initialized","C09_handle_is_init_then_handle","C09_handle_then_init"])
c("C10","proved",["C10_front_ends_agree","C10_written_before_init"])
c("C19","proved",["C19_aborted_init","C19_initialized_after_handle"])
c("C20","partial",["C20_bracketing_survives_aborts_refuted","C20_retried_init_refuted","C20_bracketed_partial"],"false of the code as stated: an aborted transition or initialization leaves entry/exit actions unpaired; proved for histories whose aborts happen outside actions; C85 bounds the damage of the other aborts")
c("C42","proved",["C42_state_mut_before_init","C42_state_mut_after_init_breaks"])
c("C11","partial",["C11_before_transition_awaitable","C11_before_transition_blocking_swapped","C11_before_transition_refuted"],"true of awaitable machines; false of blocking ones, which always pass (target, source) - both proved")
c("C12","proved",["C12_after_transition_args","C12_after_transition_called"])
c("C13","proved",["C13_transition_hooks","C13_init_no_hooks"])
c("C14","proved",["C14_dispatch_hooks"])
c("C15","proved",["C15_modes_agree","C15_hooks_differ"],"for machines whose hooks do not write shared storage; the second theorem shows the restriction is needed")
c("C16","proved",["C16_no_underflow"],"no hypotheses")
c("C17","proved",["C17_terminates","C17_more_stack_same","C17_cyclic_diverges"])
c("C18","proved",["C18_abort_never_corrupts","C18_abort_prefix"])
c("C21","proved",["C21_threaded","C21_init_threaded"])
c("C22","proved",["C22_unit_context","C22_unit_event","C22_unit_both"])
c("C27","proved",["C27_clone_is_equal","C27_clone_lockstep","C27_independent"])
c("C28","proved",["C28_current_values","C28_read_after_write","C28_written_is_visible","C28_views_are_functions_of_the_state"])
c("C43","proved",["C43_flat_dispatch","C43_flat_transition"])
c("C23","proved",["C23_round_trip","C23_serializes"])
c("C24","proved",["C24_map_accepted","C24_map_rejected","C24_sequence"])
c("C25","proved",["C25_restored_reenters","C25_restored_typestate"])
c("C26","partial",["C26_partial_eq","C26_eq_partial","C26_state_machine_eq_refuted","C26_distinguishes","C26_machines"],"proved except that StateMachine claims Eq without asking for Eq of the user's types, for which the claim is refuted")
c("C44","partial",["C44_other_keys_refuted"],"false of the code: every such round trip fails; proved for all machines")
c("C40","proved",["C40_polls_are_atomic_calls","C40_schedule_does_not_matter","C40_extra_polls"],"poll-level model in Poll.v; dropping a future runs no user code of its own")
c("C41","proved",["C41_never_polled","C41_dropped_is_cancelled","C41_dropped_state","C41_dropped_init"])
c("C29","proved",["C29_every_value","C29_handlers","C29_actions","C29_counterexample"],"the counterexample shows why fields and parameters called shared_storage, event or context are excepted")
c("C30","proved",["C30_superstates","C29_actions","C30_undefined_rejected"])
c("C31","proved",["C31_well_formed","C31_stable","C31_dispatch","C31_transition"])
c("C32","partial",["C32_variants","C32_distinct_partial","C32_exact","C32_collision_rejected","C32_counterexample"],"false of the code (a_1 and a1 collide); proved which names collide (C32_exact), that usual names never do, and that a collision never compiles")
c("C33","proved",["C33_constructors","C33_two_attributes_counterexample"],"the counterexample shows what a second #[state] attribute does")
c("C34","partial",["C34_mode","C34_awaited","C34_hooks_partial","C34_counterexample"],"mode and awaiting proved; an async hook of a blocking machine is never run (counterexample)")
c("C35","partial",["C35_reordered_partial","C35_types_partial","C35_behaviour","C35_constructors","C35_serialized_partial","C35_counterexample","C35_types_counterexample"],"code and behaviour proved independent of the order; serialization by variant number, and event types written in different ways, do depend on it")
c("C36","partial",["C36_cycle_diverges","C36_init_exact","C36_no_cycle","C36_counterexample"],"false of the code: cycles are accepted, and init then never returns (proved for every such machine, and that it happens exactly below a cycle)")
c("C37","partial",["C37_well_formed_partial","C37_unknown_ignored","C37_counterexample"],"the effects of superstate, actions and local_storage are C29, C30, C45; unknown arguments, among them the documented name, are ignored")
c("C38","partial",["C38_renaming_partial","C38_counterexample"],"holds for exactly the types of which [easily_renamed] is true")
c("C39","proved",["C39_event_type","C39_context_type","C39_agreement","C39_by_value_rejected","C39_actions_ignored"])
c("C45","proved",["C45_storage"])
c("C46","proved",["C46_arguments","C46_initial"])
c("C47","partial",["C47_generics_partial","C47_counterexample"],"proved for what is declared in terms of the parameters of handlers; bounded lifetimes and types that occur only in local_storage are missed")
c("C48","proved",["C48_accepted"],"`ordinary` excludes only what rustc rejects (duplicate names) and repeated #[state] attributes (see C33)")
c("C49","partial",["C49_panics_partial","C49_diagnostic_partial","C49_counterexample"],"false of the code: five causes of a panic, each shown to occur; proved that there are no others")
c("C50","proved",["C50_user_code_kept","C50_default_left"])
c("C51","proved",["C51_init_changes_nothing","C51_only_handlers","C51_macro"])
c("C52","proved",["C52_depth","C52_common_ancestor_depth","C52_transition_path"])
c("C53","partial",["C53_basic","C53_blinky","C53_dishwasher","C53_cd_player","C53_calculator_partial","C53_calculator_refuted"],"proved for all pairs but the calculators, which differ in one string (\"-0\" and \"- 0\") and are proved to differ in nothing else")
c("C54","proved",["C54_dishwasher","C54_dishwasher_macro"])
c("C55","partial",["C55_barrier_partial","C55_barrier_refuted"],"false of the example: `#[default = \"true\"] a`; it opens iff B and C have been seen")
c("C56","partial",["C56_panics_exactly","C56_never_panics_partial","C56_never_panics_macro_partial","C56_refuted"],"false of the examples; proved exactly when a key panics, and that none does without CE and 0. f32 is any type with the operations, of which sound_floats assumes which texts can be read")
c("C57","partial",["C57_chain_partial","C57_chain_macro_partial","C57_exact","C57_exact_macro","C57_minus_lost_refuted","C57_leading_zero_refuted"],"proved for all numbers keyed in without a zero right after the minus, the first not just zeros; for the others C57_exact says what the calculator reads instead, and C57_minus_lost_refuted that it is the wrong number")
c("C58","partial",["C58_clears_partial","C58_twice_clears","C58_refuted"],"false after an operator and a minus; proved from every other state")
c("C59","proved",["C59_by_hand","C59_macro"])
c("C60","proved",["C60_hooks"])
c("C61","proved",["C61_context"],"the context's two references are modelled as the two numbers they point to")
c("C62","proved",["C62_generic"])
c("C63","proved",["C63_receiver"],"a write that fails part way is an attempt that does not count as delivered")
c("C64","proved",["C64_bench_complex","C64_no_return"])
c("C65","proved",["C65_local_storage"])
c("C66","partial",["C66_initialized","C66_uninitialized_partial","C66_response","C66_node","C66_tells_apart","C66_name_refuted"],"proved but for the name: UninitializedStateMachine is shown as UnInitializedStateMachine. Of core::fmt's flags only `#` is modelled")
c("C67","proved",["C67_checked","C67_hygienic","C67_good_blocks"],"as far as `compiles` goes: checks of names and double borrows, not of types")
c("C68","proved",["C68_any_machine","C68_any_init","C68_stable_needed","C68_follows_needed","C68_rank_needed"],"the three _needed theorems are the counterexamples")
c("C69","proved",["C69_buttons","C69_frames","C69_computes","C69_computes_macro"],"egui itself is an arbitrary sequence of frames, each with an arbitrary set of clicked buttons")
c("C70","proved",["C70_session","C70_typed_session","C70_quiet_needed","C70_serde_test","C70_serde_test_macro"])
c("C71","proved",["C71_idle_superstate","C71_again","C71_hooks_needed"],"the machine without the superstate is `without` of IdleSpec.v")
c("C72","proved",["C72_same_machine","C72_dropped_once","C72_never_twice","C72_dropped_last"],"destructors themselves are assumed to return and to leave the machine alone; see Drops.v")
c("C73","proved",["C73_unseen","C73_panics","C73_init_again","C73_pure"],"the library with superstate() as a call into user code is modelled in SuperCalls.v")
c("C74","proved",["C74_pushed_down"],"")
c("C75","proved",["C75_rearranged","C75_builds","C75_types","C75_behaviour","C75_constructors"],"Rust's own order-independence of items in an impl block is assumed (the functions are the parameter B). C75_types needs the handlers to agree on the types, as C35_types_partial.")
c("C76","proved",["C76_well_typed","C76_calls","C76_constructors"],"having a type is an arbitrary relation; types_fit is a sufficient condition on the source (types compared as written), not claimed to be exactly rustc's check (coercions, aliases, lifetimes)")
c("C77","proved",["C77_while_active","C77_unfailing","C77_completed_needed"],"conditions are about the shared storage and the active variants, not about state-local values")
c("C78","proved",["C78_reference","C78_call","C78_generated","C78_views_needed"],"an equality of complete results: outcome, log with arguments, context, storage, state, initialized flag")
c("C79","proved",["C79_between_calls","C79_unfailing","C79_generated","C79_readme_counter"],"C77 extended to state-local storage and to the intermediate points of a transition")
c("C80","proved",["C80_call","C80_history","C80_read_only","C80_meter"],"with an example where one &mut in a superstate breaks the hypothesis and the conclusion")
c("C81","proved",["C81_lockstep","C81_lockstep_views","C81_same_answers","C81_two_lights"],"relational simulation over whole histories; two implementations of a README-like light as the example")
c("C82","proved",["C82_renamed","C82_same_answers","C82_bodies_exist"],"for all renamings of methods (any) and of parameters and fields (injective, self stays self); hooks keep their paths; the renamed block may have further methods of any kind. C82_bodies_exist: functions for the renamed block always exist")
c("C83","proved",["C83_calls","C83_calls_any","C83_superstate_calls","C83_counting_unseen","C83_reached"],"C83_reached: the bounds on calls are reached at every depth in both modes. The bound on superstate() has the right order but not the best constant")
c("C84","proved",["C84_added","C84_same_answers","C84_bodies_exist"],"the settings (event and context names, hooks) are kept. C84_bodies_exist: the added functions are arbitrary")
c("C85","proved",["C85_balance","C85_exact","C85_reached"],"what remains of C20 when actions abort; C85_reached: the bounds are reached for every number of aborts, in both modes")
c("C86","proved",["C86_dropped_once","C86_order","C86_front_ends"],"extends C72 by the drop of the machine itself and the shared storage; running out of stack drops nothing and is excluded")
c("C87","proved",["C87_polls","C87_one_poll","C87_completes"],"poll level (Poll.v); liveness uses the bound of C83")
c("C88","proved",["C88_isolated","C88_any_schedule","C88_fair"],"tasks and executor are modelled in Tasks.v (client side); what tasks communicate is part of the worlds they see, which are arbitrary")
c("C89","proved",["C89_calls_move","C89_nested","C89_bracketed"],"asks nothing of the owner's hierarchy; C89_case: an owner that panics")
c("C90","proved",["C90_one_arrow","C90_reachable","C90_final","C90_generated"],"the diagram over-approximates: an arrow need not be taken if an inner handler answers first")
c("C91","proved",["C91_fifo","C91_history","C91_done"],"the loop is client code (QueueSpec.v); the queue is part of the context")
c("C92","proved",["C92_step","C92_reached","C92_stays","C92_generated"],"the rule is about the handlers' answers for all storage (can_answer); goals are decidable sets of states")
c("C93","proved",["C93_call","C93_accounts","C93_journal","C93_monitor","C93_monitor_aborted_refuted"],"accounts are relations indexed by the log; the refuted case marks the limit of the monitor")
c("C94","proved",["C94_same_futures","C94_atomic","C94_dropped_once","C94_dropped_last","C94_which","C94_nothing"],"destructors themselves neither panic nor touch the machine; values inside the user's own futures are the user's")
c("C95","proved",["C95_handle","C95_init","C95_init_never_polled","C95_life","C95_dropped_once"],"destructors themselves neither panic nor touch the machine; values inside the user's own futures are the user's")
c("C96","proved",["C96_schedule","C96_arguments","C96_dropped","C96_completes"],"C96_schedule assumes the futures of the async fns compute what the atomic bodies say when they get ready; C96_arguments and C96_dropped assume no such thing")
c("C97","proved",["C97_accepted","C97_bodies_exist","C97_same_mode","C97_modes","C97_polled"],"with hooks the two modes differ (C11, C14, C15); C97_accepted is about impl blocks without duplicate names and attributes (ordinary)")
c("C98","proved",["C98_regrouped","C98_same_answers","C98_bodies_exist"],"the superstate is moved out on the level of the source; C71 is the same on the level of the runtime")
c("C99","proved",["C99_poll_by_poll","C99_histories","C99_completed","C99_two_lights"],"C81 for polled machines, including calls dropped halfway; the worlds the two are polled in may differ too")
c("C100","proved",["C100_added","C100_same_answers"],"C84 for polled machines, by way of C99")
c("C101","proved",["C101_renamed","C101_same_answers"],"C82 for polled machines, by way of C99")
c("C102","proved",["C102_other_async","C102_same_answers"],"C97 for two polled machines, by way of C99")
c("C103","proved",["C103_equivalence","C103_equivalence_polled","C103_edits","C103_renamed_and_extended"],"")
c("C104","proved",["C104_replaced"],"")
c("C105","proved",["C105_call","C105_history","C105_on_executor","C105_typestate","C105_never_undone","C105_second_grows","C105_total_stays","C105_polls_needed"],"")
#MORE
here = os.path.dirname(os.path.abspath(__file__))
json.dump({"claims":[M[k] for k in sorted(M)]}, open(os.path.join(here,"..","MANIFEST.json"),"w"), indent=1)
