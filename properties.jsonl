{"id": "C01", "title": "Events are dispatched leaf-first, upward, each node at most once", "statement": "When an event is submitted, the handler of the current leaf state is called first; as long as a handler returns Super the handler of the next enclosing superstate is called, in ancestor order, with the same event; the first handler that does not return Super is the last one called, and no handler outside the ancestor chain of the current state is ever called.", "quantifier": "every machine with a finite static hierarchy of any height, every current state, event, storage and context, and every behaviour of the handlers (including panics)", "why_tests_cant": "the chain length, the point at which a handler answers and the data it depends on are unbounded", "anchors": ["statig/src/blocking/state.rs:StateExt::handle", "statig/src/blocking/superstate.rs:SuperstateExt::handle", "statig/src/awaitable/state.rs:StateExt::handle"]}
{"id": "C02", "title": "Events nobody answers with a transition change nothing by themselves", "statement": "If no called handler returns Transition (the deciding handler returns Handled, or all of them return Super up to the implicit top), submitting the event runs no entry action, no exit action and no transition hook, and the machine stays in the same state variant.", "quantifier": "every machine, state, event, storage and context", "why_tests_cant": "needs all response combinations along chains of any height", "anchors": ["statig/src/blocking/inner.rs:Inner::handle_with_context", "statig/src/awaitable/inner.rs:Inner::handle_with_context"]}
{"id": "C03", "title": "A transition exits to and enters from the least common ancestor, in order", "statement": "A completed transition from state s to a different state t runs exactly: the exit action of s, then of each superstate of s from the innermost outward up to but excluding the innermost superstate shared by s and t, then the entry action of each superstate of t from the outermost not shared inward, then the entry action of t; nothing else between the transition hooks. If a callback aborts, what ran is a prefix of that sequence.", "quantifier": "every static hierarchy of any height and shape, every pair of states, all callback behaviours", "why_tests_cant": "quantifies over all trees and all pairs of nodes; tests sample one tree", "anchors": ["statig/src/blocking/state.rs:transition_path", "statig/src/blocking/superstate.rs:common_ancestor_depth", "statig/src/blocking/inner.rs:transition", "statig/src/awaitable/state.rs:enter/exit"]}
{"id": "C04", "title": "The transition path is the shortest possible", "statement": "Among all sequences of single exits and entries that lead the active path of s to the active path of t in the tree, the sequence executed for s /= t has minimal length and contains no state twice; no superstate shared by s and t is exited or entered.", "quantifier": "every hierarchy, every pair of distinct states, every alternative sequence of moves", "why_tests_cant": "quantifies over all alternative walks", "anchors": ["statig/src/blocking/state.rs:transition_path", "README.md:Implementation"]}
{"id": "C05", "title": "A self-transition exits and re-enters only the leaf", "statement": "If the target is the same variant as the current state (whatever its local data), exactly the leaf's exit action and then the leaf's entry action run and no superstate action runs.", "quantifier": "every machine, state, local data of source and target", "why_tests_cant": "all data values of both instances", "anchors": ["statig/src/blocking/state.rs:same_state", "statig/src/blocking/state.rs:transition_path", "statig/src/awaitable/state.rs:transition_path"]}
{"id": "C06", "title": "After a transition the current state is the handler's target, touched only by entry actions", "statement": "After a completed transition the current state is the value the handler returned, changed only through the entry actions run on it or on its superstates' views; exit actions only ever write the old state's storage, which never leaks into the new state.", "quantifier": "every machine, source, target, storage, context, callback behaviour", "why_tests_cant": "all data values and all writes by user code", "anchors": ["statig/src/blocking/inner.rs:transition", "statig/src/awaitable/inner.rs:transition", "README.md: exit actions operate on source storage"]}
{"id": "C07", "title": "Entry and exit actions are perfectly bracketed over any history", "statement": "For any sequence of init/handle calls that do not abort, replaying the entry and exit actions on a stack (entry pushes, exit must pop the same state) never fails, and after each call the stack is exactly the root-to-leaf path of the current state (empty before initialization).", "quantifier": "every machine and every finite history of API calls with any events and contexts", "why_tests_cant": "an inductive invariant over unbounded histories", "anchors": ["statig/src/blocking/state_machine.rs:StateMachine", "statig/src/blocking/inner.rs"]}
{"id": "C08", "title": "Initialization enters the initial state's path root-first, once, without hooks", "statement": "Initialization runs exactly the entry actions of the superstates of the initial state from the outermost inward and then of the initial state, runs no exit action, no transition hook and no dispatch hook; over any non-aborting history they run at most once, before any handler.", "quantifier": "every machine, initial state depth, history", "why_tests_cant": "unbounded depth and histories", "anchors": ["statig/src/blocking/inner.rs:init_with_context", "statig/src/awaitable/inner.rs:init_with_context"]}
{"id": "C09", "title": "Initialization is idempotent and implied by handle", "statement": "Calling init on an initialized StateMachine has no effect whatsoever; handle on an uninitialized StateMachine behaves exactly as init followed by handle (same callbacks, storage, context, state). Once the initialization has come to its end no later init has any effect, however many events were handled since.", "quantifier": "every machine, event and context", "why_tests_cant": "all machines", "anchors": ["statig/src/blocking/state_machine.rs:StateMachine::init_with_context/handle_with_context", "statig/src/awaitable/state_machine.rs"]}
{"id": "C10", "title": "Lazy and typestate front ends agree", "statement": "For every event sequence, a StateMachine and an UninitializedStateMachine that is init-ed and then driven as InitializedStateMachine run the same callbacks with the same data and end in the same state, storage and contexts (as long as no callback aborts during initialization).", "quantifier": "every machine and every history of events with contexts", "why_tests_cant": "induction over histories", "anchors": ["statig/src/blocking/state_machine.rs:UninitializedStateMachine::init_with_context", "statig/src/blocking/state_machine.rs:InitializedStateMachine"]}
{"id": "C11", "title": "before_transition receives (source, target)", "statement": "In every transition the before_transition hook is called with the current state as its source argument and the state to be entered as its target argument, in blocking and in awaitable machines.", "quantifier": "every machine, mode and transition", "why_tests_cant": "the shipped test only checks that the hook was called", "anchors": ["statig/src/blocking/inner.rs:transition (line 42)", "statig/src/awaitable/inner.rs:transition (line 44)", "statig/src/blocking/into_state_machine.rs:before_transition"]}
{"id": "C12", "title": "after_transition receives (source, target)", "statement": "In every completed transition after_transition is called with the old state (as left by its exit actions) as source and the new current state (as left by its entry actions) as target.", "quantifier": "every machine, mode and transition", "why_tests_cant": "all data values", "anchors": ["statig/src/blocking/inner.rs:transition", "statig/src/awaitable/inner.rs:transition"]}
{"id": "C13", "title": "Transition hooks bracket the transition exactly once", "statement": "Each transition calls before_transition exactly once before any exit or entry action of the transition, and (if it completes) after_transition exactly once after all of them; no hook is called otherwise.", "quantifier": "every machine and history", "why_tests_cant": "unbounded histories", "anchors": ["statig/src/blocking/inner.rs:transition", "statig/src/awaitable/inner.rs:transition"]}
{"id": "C14", "title": "Dispatch hooks bracket every handler call on the same node", "statement": "Every handler call is immediately preceded by before_dispatch for that node and event, and (if nothing aborts) is followed by exactly one after_dispatch for that node; in awaitable machines it follows immediately, in blocking machines the hooks of superstates are properly nested.", "quantifier": "every machine, chain height and handler behaviour", "why_tests_cant": "unbounded chains", "anchors": ["statig/src/blocking/state.rs:handle", "statig/src/blocking/superstate.rs:handle", "statig/src/awaitable/state.rs:handle"]}
{"id": "C15", "title": "Blocking and awaitable machines behave the same", "statement": "For the same callbacks (with transition/dispatch hooks that do nothing), blocking and awaitable machines run the same handlers, entry and exit actions in the same order on the same data and end in the same state, storage and context, for every event.", "quantifier": "every machine with borrowed superstates and every history of events", "why_tests_cant": "equivalence of a recursive and an iterative implementation for all depths", "anchors": ["statig/src/blocking/state.rs", "statig/src/awaitable/state.rs"]}
{"id": "C16", "title": "The library's own arithmetic never fails", "statement": "No API call ever fails from inside the library: the level computations never underflow, so any panic comes from user code.", "quantifier": "every machine, also those whose superstate relation depends on data", "why_tests_cant": "all trees and data-dependent hierarchies", "anchors": ["statig/src/blocking/state.rs:transition_path", "statig/src/awaitable/state.rs:transition_path"]}
{"id": "C17", "title": "Every call terminates with stack linear in the hierarchy height", "statement": "If every superstate has a finite chain of ancestors, every library call performs finitely many steps, and recursion deeper than twice the height is never needed; giving more stack never changes the result.", "quantifier": "every acyclic machine", "why_tests_cant": "all heights", "anchors": ["statig/src/blocking/superstate.rs:depth/handle/common_ancestor_depth", "statig/src/awaitable/superstate.rs"]}
{"id": "C18", "title": "A panic or cancellation during a transition never corrupts the current state", "statement": "Whatever callback aborts during a transition, the current state afterwards is of the source variant if the abort happened in before_transition or an exit action, and of the target variant if it happened in an entry action or after_transition; callbacks run so far are a prefix of the full sequence and nothing runs afterwards.", "quantifier": "every machine and every abort point", "why_tests_cant": "every crash point", "anchors": ["statig/src/blocking/inner.rs:transition", "statig/src/awaitable/inner.rs:transition"]}
{"id": "C19", "title": "A machine counts as initialized only after initialization completed", "statement": "If initialization is aborted (panic, or the init/handle future is dropped), the entry actions run so far are a prefix of the full entry sequence, the machine still counts as uninitialized, and the next init or handle starts the entry sequence again from the root; the event of an aborted handle is not dispatched.", "quantifier": "every machine and every abort point", "why_tests_cant": "every crash point", "anchors": ["statig/src/blocking/state_machine.rs:handle_with_context", "statig/src/awaitable/state_machine.rs:handle_with_context"]}
{"id": "C20", "title": "Bracketing survives aborted calls", "statement": "Entry and exit actions stay perfectly bracketed (C07) even if some calls are aborted by a panic that is caught or by dropping the future.", "quantifier": "every machine, history and abort points", "why_tests_cant": "every crash point in every history", "anchors": ["statig/src/awaitable/inner.rs:transition", "statig/src/awaitable/state_machine.rs:init_with_context"]}
{"id": "C21", "title": "Storage and context are threaded sequentially through all callbacks", "statement": "One API call is the sequential composition of its callbacks: each callback receives shared storage, context and state-local storage exactly as the previous callback left them, and the caller finds them as the last callback left them; the library itself never writes them.", "quantifier": "every machine, call and callback behaviour", "why_tests_cant": "all data and all interleavings of writes", "anchors": ["statig/src/blocking/state.rs", "statig/src/blocking/superstate.rs", "statig/src/blocking/inner.rs"]}
{"id": "C22", "title": "Context-free and event-free calls are instances of the general ones", "statement": "init() and handle(e) behave as init_with_context/handle_with_context with a unit context; step() and step_with_context(c) behave as handle with the unit event.", "quantifier": "every machine", "why_tests_cant": "all machines", "anchors": ["statig/src/blocking/state_machine.rs:init/handle/step/step_with_context", "statig/src/awaitable/state_machine.rs"]}
{"id": "C23", "title": "Serialization round-trips storage and state", "statement": "Serializing any of the three machine types and deserializing the result yields a machine with the same shared storage and the same current state, for formats that key struct fields by name and for sequence formats, provided the user's types round-trip.", "quantifier": "every machine value and both kinds of formats", "why_tests_cant": "all values", "anchors": ["statig/src/blocking/inner.rs:Serialize/Deserialize", "statig/src/blocking/state_machine.rs:Serialize", "statig/src/awaitable/inner.rs"]}
{"id": "C24", "title": "Deserialization accepts exactly the complete field sets", "statement": "From a keyed format, a machine is accepted in any field order, and a missing, repeated or unknown field is rejected with the corresponding error; from a sequence, fewer than two elements are rejected.", "quantifier": "every serialized map or sequence of any length", "why_tests_cant": "unbounded inputs", "anchors": ["statig/src/blocking/inner.rs:InnerVisitor", "statig/src/awaitable/inner.rs:InnerVisitor"]}
{"id": "C25", "title": "A restored machine re-enters the stored state", "statement": "A deserialized machine is uninitialized: its first init or handle runs the entry actions of the path of the stored current state (not of the initial state), and dispatches later events to the stored state.", "quantifier": "every machine and stored state", "why_tests_cant": "all states and hierarchies", "anchors": ["statig/src/blocking/state_machine.rs:Deserialize for StateMachine/UninitializedStateMachine"]}
{"id": "C26", "title": "Equality implementations are lawful", "statement": "Equality of Response, StateOrSuperstate and of the machine types is reflexive, symmetric and transitive whenever it is for the user's types, distinguishes different variants, and a type that claims Eq is reflexive.", "quantifier": "all values and user equality relations", "why_tests_cant": "all values", "anchors": ["statig/src/response.rs", "statig/src/state_or_superstate.rs", "statig/src/blocking/inner.rs:PartialEq", "statig/src/blocking/state_machine.rs:PartialEq/Eq"]}
{"id": "C27", "title": "Clones are equal and evolve independently and identically", "statement": "A clone compares equal to the original, and original and clone fed the same events produce the same callbacks, state and storage; events handled by one never affect the other.", "quantifier": "every machine and pair of histories", "why_tests_cant": "induction over histories", "anchors": ["statig/src/blocking/inner.rs:Clone", "statig/src/blocking/state_machine.rs:Clone"]}
{"id": "C28", "title": "Superstates alias the leaf's storage", "statement": "What a superstate handler or action writes to its borrowed fields is what the leaf and all later callbacks see, and conversely; a superstate never observes stale local data.", "quantifier": "every machine with borrowed superstates, all nesting depths and writes", "why_tests_cant": "all writes at all depths", "anchors": ["statig/src/blocking/state.rs:superstate", "statig/src/blocking/superstate.rs:superstate", "README.md:State-local storage"]}
{"id": "C29", "title": "Macro: handlers and actions get the arguments they name", "statement": "In code generated by #[state_machine] every handler and action is called on behalf of exactly its own state, and each parameter receives what its name denotes: self the shared storage, the event/context identifiers the event/context, any other name the field of that name of the current state's storage; writes go back to that same field. (Names used by the generated code itself, shared_storage and the event/context identifiers, are not names of fields.)", "quantifier": "every accepted impl block (any number of states, parameters, any names) and every storage", "why_tests_cant": "all programs accepted by the macro", "anchors": ["macro/src/lower.rs:lower_state/lower_superstate/lower_action/fn_arg_to_ident", "macro/src/codegen.rs"]}
{"id": "C30", "title": "Macro: the generated hierarchy is the declared one", "statement": "The generated superstate relation is exactly the one declared by the superstate attributes, entry/exit actions are exactly the declared ones (none if undeclared), and a reference to an undefined superstate or action is rejected at compile time.", "quantifier": "every impl block", "why_tests_cant": "all programs", "anchors": ["macro/src/lower.rs:lower (188-264)", "macro/src/analyze.rs:analyze_state/analyze_superstate"]}
{"id": "C31", "title": "Macro: generated machines satisfy what the runtime relies on", "statement": "A machine generated by the macro has a hierarchy that depends on variants only, its callbacks can not change the variant of the state they run on, and its superstates are faithful views of the leaf's fields; so for acyclic declarations all runtime guarantees hold for it.", "quantifier": "every impl block accepted by the macro and the compiler checks modelled", "why_tests_cant": "all programs", "anchors": ["macro/src/codegen.rs:codegen_state_impl_state", "macro/src/lower.rs"]}
{"id": "C32", "title": "Macro: distinct handlers get distinct variants", "statement": "Distinct snake_case handler names yield distinct enum variant names.", "quantifier": "all identifiers", "why_tests_cant": "infinitely many names", "anchors": ["macro/src/lower.rs:snake_case_to_pascal_case"]}
{"id": "C33", "title": "Macro: constructors take the non-defaulted fields and fill in defaults", "statement": "The generated constructor of a state whose handler has one #[state] attribute takes, in declaration order, exactly the state-local inputs without a default, and builds the state whose defaulted fields have their declared default and whose other fields have the given values.", "quantifier": "every parameter list, default assignment and argument values", "why_tests_cant": "all programs and values", "anchors": ["macro/src/lower.rs:lower_state (471-520)", "macro/src/analyze.rs:analyze_local_storage_default"]}
{"id": "C34", "title": "Macro: async detection", "statement": "The generated machine is awaitable iff some state handler, superstate handler or action is async; configured hooks are executed in either mode.", "quantifier": "every impl block", "why_tests_cant": "all programs", "anchors": ["macro/src/lower.rs:267-347", "macro/src/codegen.rs:60-154"]}
{"id": "C35", "title": "Macro: generated behaviour does not depend on hash-map order", "statement": "Two expansions of the same impl block differ only in the order of variants and match arms; the resulting machines behave identically, and state serialized by one build is read back as the same state by another build.", "quantifier": "every impl block and every pair of iteration orders", "why_tests_cant": "orders are random per build", "anchors": ["macro/src/analyze.rs:Model (HashMap)", "macro/src/codegen.rs:codegen_state"]}
{"id": "C36", "title": "Macro: superstate cycles are rejected", "statement": "A declaration whose superstate relation is cyclic is rejected at compile time, so that depth computations of accepted machines terminate.", "quantifier": "every impl block", "why_tests_cant": "all graphs", "anchors": ["macro/src/lower.rs:226-264", "statig/src/blocking/superstate.rs:depth"]}
{"id": "C37", "title": "Macro: documented attributes take effect and unknown ones are rejected", "statement": "Every documented argument of #[state]/#[superstate] (name, superstate, entry_action, exit_action, local_storage) has its documented effect and an unknown or malformed argument is rejected rather than ignored.", "quantifier": "every attribute list", "why_tests_cant": "all attribute lists", "anchors": ["macro/src/analyze.rs:423-456", "macro/src/analyze.rs:get_meta", "statig/src/lib.rs:59-90"]}
{"id": "C38", "title": "Macro: exactly the anonymous lifetimes of event and context types are renamed", "statement": "In the event and context types every anonymous or elided lifetime, at any nesting depth, is replaced by the GAT lifetime, and named lifetimes (including 'static) are left alone.", "quantifier": "every type expression", "why_tests_cant": "unbounded nesting", "anchors": ["macro/src/visitors/lifetime_visitor.rs", "macro/src/lower.rs:355-367"]}
{"id": "C39", "title": "Macro: event and context types are found", "statement": "If any state or superstate handler takes the event (context) parameter, the machine's event (context) type is the referenced type of such a parameter, it does not depend on which one if they agree, and it is () if there is none; a non-reference is rejected.", "quantifier": "every impl block and iteration order", "why_tests_cant": "all programs", "anchors": ["macro/src/lower.rs:266-367"]}
{"id": "C40", "title": "Awaitable machines do not depend on the polling schedule", "statement": "However often and whenever the future returned by an awaitable call is polled, the callbacks, their order and data and the result are those of an uninterrupted execution; between polls nothing changes.", "quantifier": "every machine, every behaviour of pending user futures, every polling schedule", "why_tests_cant": "all schedules", "anchors": ["statig/src/awaitable/state.rs", "statig/src/awaitable/inner.rs", "statig/src/awaitable/state_machine.rs"]}
{"id": "C41", "title": "Dropping a future after any number of polls leaves a consistent prefix", "statement": "Dropping the future of an awaitable call after any number of polls leaves exactly the state, storage and callback prefix of an execution aborted in the callback that was pending; a never-polled future has no effect.", "quantifier": "every machine and every number of polls", "why_tests_cant": "every crash point", "anchors": ["statig/src/awaitable/state.rs", "statig/src/awaitable/inner.rs"]}
{"id": "C42", "title": "Mutating shared storage from outside never disturbs the hierarchy; replacing the state does", "statement": "Interleaving inner_mut mutations with events preserves C07; setting the state of an uninitialized machine through state_mut makes initialization enter that state's path instead.", "quantifier": "every history interleaving mutations and events", "why_tests_cant": "unbounded histories", "anchors": ["statig/src/blocking/state_machine.rs:inner_mut/state_mut", "statig/src/awaitable/state_machine.rs:inner_mut/state_mut"]}
{"id": "C43", "title": "Machines without superstates are flat", "statement": "With unit superstates every event reaches only the current state's handler, and every transition runs exactly the exit action of the source and the entry action of the target.", "quantifier": "every machine with () as superstate", "why_tests_cant": "all machines", "anchors": ["statig/src/blocking/superstate.rs:impl Superstate for ()", "statig/src/awaitable/superstate.rs:impl Superstate for ()"]}
{"id": "C44", "title": "Machines round-trip in formats that key fields by index or bytes", "statement": "Serializing a machine with a format that presents struct field identifiers as integers or bytes (packed CBOR and the like, which serde's derived implementations support) and deserializing the result gives the machine back.", "quantifier": "every machine value and every such format", "why_tests_cant": "all formats and values", "anchors": ["statig/src/blocking/inner.rs:Field/FieldVisitor", "statig/src/awaitable/inner.rs:FieldVisitor"]}
{"id": "C45", "title": "Macro: the storage of a state is its parameters and its local_storage", "statement": "The variant generated for a state or superstate handler has one field for every parameter of the handler other than the receiver, the event and the context, with the type the parameter refers to (by reference for superstates), in order, and then one for each local_storage entry; an entry that repeats a parameter's name gives that field its type.", "quantifier": "every impl block", "why_tests_cant": "all programs", "anchors": ["macro/src/lower.rs:lower_state/lower_superstate (441-620)", "macro/src/analyze.rs:analyze_state"]}
{"id": "C46", "title": "Macro: arguments of #[state_machine]", "statement": "Each argument of #[state_machine] sets what it is documented to set, the last of several wins, an omitted one has its documented default, an unknown or malformed one is rejected, and initial is required.", "quantifier": "every argument list", "why_tests_cant": "all argument lists", "anchors": ["macro/src/analyze.rs:analyze_state_machine (142-322)"]}
{"id": "C47", "title": "Macro: the generated enums declare exactly the generic parameters their fields use", "statement": "A generic parameter of the impl block is declared on the generated state (superstate) enum iff the type of a field of that enum mentions it.", "quantifier": "every impl block with generics", "why_tests_cant": "all programs", "anchors": ["macro/src/lower.rs:368-439", "macro/src/lower.rs:get_generic_argument_ident", "macro/src/visitors"]}
{"id": "C48", "title": "Macro: which impl blocks are accepted", "statement": "The macro accepts an impl block and argument list iff the type, arguments, handlers, actions, defaults and where clauses are well formed and every superstate and action that a handler names exists; acceptance does not depend on hash order.", "quantifier": "every impl block, argument list and iteration order", "why_tests_cant": "all programs", "anchors": ["macro/src/lib.rs", "macro/src/analyze.rs", "macro/src/lower.rs"]}
{"id": "C49", "title": "Macro: malformed input gets a diagnostic", "statement": "On an impl block it does not accept the macro gives a diagnostic at the offending place; it never panics.", "quantifier": "every impl block and argument list", "why_tests_cant": "all programs", "anchors": ["macro/src/analyze.rs", "macro/src/lower.rs"]}
{"id": "C50", "title": "Macro: the user's code is kept", "statement": "The impl block is part of the output, with the same items in the same order and unchanged, except that stored parameters of state handlers lose their #[default] attribute.", "quantifier": "every accepted impl block", "why_tests_cant": "all programs", "anchors": ["macro/src/codegen.rs:codegen", "macro/src/analyze.rs:analyze_state"]}
{"id": "C51", "title": "Callbacks that are left out do nothing", "statement": "If entry and exit actions and hooks are left out, initialization only marks the machine as initialized, and handling an event does nothing but call the handlers one after the other and replace the state by exactly the value asked for; the macro leaves out what is not asked for.", "quantifier": "every machine, state, event, both modes", "why_tests_cant": "all machines", "anchors": ["statig/src/blocking/state.rs:State", "statig/src/blocking/superstate.rs:Superstate", "statig/src/blocking/into_state_machine.rs", "statig/src/awaitable/into_state_machine.rs", "macro/src/codegen.rs"]}
{"id": "C52", "title": "Depth, common ancestor and transition path", "statement": "depth is the number of nodes on the state's active path; common_ancestor_depth the number of nodes two different states' paths share; transition_path the numbers of exits and entries of the transition; no call underflows.", "quantifier": "every machine and pair of states", "why_tests_cant": "all hierarchies", "anchors": ["statig/src/blocking/state.rs:StateExt", "statig/src/blocking/superstate.rs:SuperstateExt", "statig/src/awaitable/state.rs:StateExt"]}
{"id": "C53", "title": "Examples with and without the macro behave the same", "statement": "Each example that exists both with #[state_machine] and written by hand reacts to every sequence of events in the same way: same states, same storage, same callbacks, same outcome of every call.", "quantifier": "every event history, initial storage, mode and macro iteration order; basic, blinky, async_blinky, history, bench, async_bench, calculator", "why_tests_cant": "unbounded histories", "anchors": ["examples/macro/*/src", "examples/no_macro/*/src"]}
{"id": "C54", "title": "The dishwasher never loses its program", "statement": "After any sequence of events the dishwasher of the history examples shows an open door iff the door was last opened, and otherwise the phase its program reached, which advances only while the door is closed.", "quantifier": "every event history and initial previous_state", "why_tests_cant": "unbounded histories", "anchors": ["examples/macro/history/src/main.rs", "examples/no_macro/history/src/main.rs"]}
{"id": "C55", "title": "The barrier opens when all three events have been seen", "statement": "The barrier example is initialized iff events A, B and C have all been handled, in any order and however often.", "quantifier": "every event history", "why_tests_cant": "unbounded histories", "anchors": ["examples/macro/barrier/src/main.rs"]}
{"id": "C56", "title": "The calculator never panics", "statement": "No sequence of keys makes the calculator examples panic.", "quantifier": "every sequence of keys, every f32 behaviour", "why_tests_cant": "unbounded histories", "anchors": ["examples/macro/calculator/src/state.rs", "examples/no_macro/calculator/src/state.rs"]}
{"id": "C57", "title": "The calculator evaluates chains from left to right", "statement": "Keying in n0 op1 n1 .. opk nk = displays ((n0 op1 n1) .. opk nk), for all numbers and operators and any length.", "quantifier": "every chain, every way of keying in its numbers", "why_tests_cant": "unbounded chains", "anchors": ["examples/macro/calculator/src/state.rs", "examples/no_macro/calculator/src/state.rs"]}
{"id": "C58", "title": "AC clears the calculator", "statement": "After AC the calculator is in its initial state and shows 0, whatever was keyed in before.", "quantifier": "every state and display", "why_tests_cant": "all states", "anchors": ["examples/macro/calculator/src/state.rs", "examples/no_macro/calculator/src/state.rs"]}
{"id": "C59", "title": "The transition tests hold for every event sequence", "statement": "The machine of the transition tests, by hand or by the macro, plain or async, records after any non-empty sequence of events exactly the entry and exit actions of the state chart in order, and ends in the state the chart says.", "quantifier": "every event sequence, both modes, every macro iteration order", "why_tests_cant": "the tests use one sequence of four events", "anchors": ["statig/tests/transition.rs", "statig/tests/transition_macro.rs", "statig/tests/async_transition.rs", "statig/tests/async_transition_macro.rs"]}
{"id": "C60", "title": "The hook tests hold for every history", "statement": "After at least one event each of the four hooks of the hooks test has run, whatever the flags were before, for plain and async hooks.", "quantifier": "every event sequence, initial flags, both modes", "why_tests_cant": "the test uses one event", "anchors": ["statig/tests/hooks.rs", "statig/tests/async_hooks.rs"]}
{"id": "C61", "title": "One external context across calls", "statement": "In the external_context test the context passed to every call accumulates: the count is that of the presses up and down, saturating at 0 and usize::MAX, and the part of the context no handler names is unchanged.", "quantifier": "every event sequence, initial context and usize::MAX", "why_tests_cant": "the test uses one sequence", "anchors": ["statig/tests/external_context.rs"]}
{"id": "C62", "title": "The generic machine works at every type", "statement": "The generic machine holds the first value offered since it was last emptied, and a default buffer of SIZE elements, for every type T, SIZE and event history.", "quantifier": "every type, size and event history", "why_tests_cant": "a test fixes T and SIZE", "anchors": ["examples/macro/generics/src/main.rs", "statig/tests/generics.rs"]}
{"id": "C63", "title": "The receiver delivers in order and at most once under any failures", "statement": "Whatever writes fail or are abandoned, the receiver of the async i/o example completes a prefix of its two lines, each once and in order; it is Off iff both are written; once a call has returned both are written; if no write fails the first call returns.", "quantifier": "every connection behaviour (depending on all earlier attempts), history, mode", "why_tests_cant": "failures at every point", "anchors": ["examples/macro/async_io/src/main.rs"]}
{"id": "C64", "title": "The 51-state benchmark follows its ring", "statement": "After any sequence of events the bench_complex machine, plain or async, is in the state its ring says, and having left S1 never returns there.", "quantifier": "every event history", "why_tests_cant": "unbounded histories", "anchors": ["examples/macro/bench_complex/src/main.rs", "examples/macro/async_bench_complex/src/main.rs"]}
{"id": "C65", "title": "State-local storage alternates", "statement": "The machine of the state_local_storage test alternates between Off and On with the constructor's fields, after its initial On with the initial fields.", "quantifier": "every number of events, both modes", "why_tests_cant": "the test handles ten events and asserts nothing", "anchors": ["statig/tests/state_local_storage.rs"]}
{"id": "C66", "title": "Debug output", "statement": "{:?} and {:#?} of a machine show its name, its shared storage and its current state, and those of a response or a node which case it is and the state in it, with the text the user's Debug gives and nothing else; a failing writer gets a prefix and the failure is returned; different responses and nodes are shown differently.", "quantifier": "every machine, user Debug implementation and writer", "why_tests_cant": "all texts and failure points", "anchors": ["statig/src/response.rs:29-43", "statig/src/state_or_superstate.rs:12-27", "statig/src/blocking/state_machine.rs:468-480,722-734", "statig/src/awaitable/state_machine.rs:480-492,740-752"]}
{"id": "C67", "title": "Macro: which accepted blocks compile", "statement": "If the macro accepts an impl block, whether the generated code passes the compiler's checks of names (every field, argument and variant named exists and is distinct, no argument is borrowed twice) depends on the block alone and is: methods and variants distinct; a superstate's storage is part of that of each node naming it; an action's parameters are the node's storage or the context; no parameter is passed twice. Whether names hide each other is decidable from the source alike.", "quantifier": "every impl block, macro arguments and iteration orders", "why_tests_cant": "all source programs", "anchors": ["macro/src/codegen.rs", "macro/src/lower.rs"]}
{"id": "C68", "title": "Machines that keep to no rules", "statement": "For every machine, also one whose superstate() depends on data or whose callbacks overwrite their node with another variant, if going up through superstates ends: every call ends unless user code aborts it; at most one handler per level is asked, and all but the last answer Super; there is a transition iff the last answer asks for one, and it is the hook, exits starting with the leaf, entries ending with the leaf, and the hook with the state the machine ends in. Without such an assumption the stronger properties fail: nodes may be exited that were never entered, and handling an event may not end.", "quantifier": "every machine, event, mode and depth", "why_tests_cant": "all machines, however irregular", "anchors": ["statig/src/blocking/inner.rs", "statig/src/blocking/state.rs", "statig/src/blocking/superstate.rs", "statig/src/awaitable/state.rs"]}
{"id": "C69", "title": "The calculator's buttons", "statement": "The calculator's window has exactly one button for each key (ten digits, point, four operators, =, AC, CE), labelled with it, and clicking it has the machine handle that key; whatever is clicked in whatever frames, the machine handles the clicked keys frame by frame in the order of the layout, each frame shows the display as the earlier frames left it, and the first panic ends the program; clicking a chain of numbers (without a zero right after the minus, the first not just zeros) and operators shows its value.", "quantifier": "every sequence of frames and sets of clicks, both calculators", "why_tests_cant": "all click sequences", "anchors": ["examples/macro/calculator/src/ui.rs", "examples/macro/calculator/src/main.rs", "examples/no_macro/calculator/src/ui.rs"]}
{"id": "C70", "title": "Saving and resuming", "statement": "If entry actions change nothing and the user's types round-trip, a program that saves its machine and goes on with what it reads back, at any points, any number of times and in any mix of formats the library reads, is in the same state with the same storage as one that never does, and each call ends alike; only the entries of a restored machine run again. If entry actions do have effects this fails. The machine of the serde test is, saved and restored anywhere, a blinking light.", "quantifier": "every machine with quiet entry actions, history and choice of restore points and formats", "why_tests_cant": "all histories and restore points", "anchors": ["statig/tests/serde.rs", "statig/src/blocking/inner.rs:92-239", "statig/src/blocking/state_machine.rs"]}
{"id": "C71", "title": "A superstate that does nothing", "statement": "If a superstate defers every event, has no entry and exit action, and the dispatch hooks ignore it, then the machine and the machine without it (its children being in the superstate it was in) do the same: for every history of calls, every call ends alike and leaves the same state, storage and context, and the same user code is called with the same values in the same order, but for the calls about that superstate. If hooks notice it, this fails.", "quantifier": "every machine whose superstates follow a hierarchy, mode, history of calls", "why_tests_cant": "all machines and histories", "anchors": ["statig/src/blocking/state.rs", "statig/src/blocking/superstate.rs", "statig/src/awaitable/state.rs", "statig/src/blocking/inner.rs"]}
{"id": "C72", "title": "State values are dropped once, and last", "statement": "Over any history of calls, with caught panics and dropped futures, the state values the library drops together with the machine's state in the end are exactly the state it started with and the targets returned by handlers, each once: none is dropped twice or forgotten, and the machine's state is alive. Within one call the drop comes after all calls into user code; it happens iff a handler asked for a transition; when the transition completes it is the state that was left, after the after-transition hook, so it is still alive while the entry actions run.", "quantifier": "every machine, mode, history of calls that do not run out of stack, and every mark that user code leaves with a state value", "why_tests_cant": "all histories and abort points; a leak or a double drop depends on where a panic or a cancellation strikes", "anchors": ["statig/src/blocking/inner.rs", "statig/src/blocking/state.rs", "statig/src/blocking/superstate.rs", "statig/src/awaitable/inner.rs", "statig/src/awaitable/state.rs"]}
{"id": "C73", "title": "What superstate() may do", "statement": "A superstate() that changes the state or superstate where no other user code looks (counts its calls, fills a cache) cannot be noticed, however often the library calls it: over any history each call ends alike, with the same calls into user code and the same visible state. If superstate() may panic, a call either does what it would do otherwise or panics after some first part of the calls it would have made; a panic while the machine is initialised leaves it uninitialised, so that the next call initialises it again. A superstate() that is a pure projection is what all other properties assume.", "quantifier": "every machine, every superstate() whose effects are invisible to the other user code, history of calls, both modes", "why_tests_cant": "all machines and histories; how often superstate() is called is an implementation detail", "anchors": ["statig/src/blocking/state.rs", "statig/src/blocking/superstate.rs", "statig/src/awaitable/state.rs", "statig/src/awaitable/superstate.rs", "statig/src/blocking/inner.rs", "statig/src/awaitable/inner.rs"]}
{"id": "C74", "title": "Common behaviour can be moved to the superstate and back", "statement": "If states (or superstates) that leave certain events to their superstate are changed to treat those events themselves in the way the superstate does, or the other way round, nothing changes but who is asked: for every history of calls each call ends alike and leaves the same context, the same entry and exit actions run and the same transitions are made, with the same state and storage afterwards. This holds without dispatch hooks, and if a superstate that passes such an event further up does nothing else.", "quantifier": "every machine whose superstate chains end, every choice of states, superstates and events, history of calls (panics and dropped futures included), both modes", "why_tests_cant": "all machines, all ways to divide the handling between levels, all histories", "anchors": ["statig/src/blocking/state.rs:handle", "statig/src/blocking/superstate.rs:handle", "statig/src/awaitable/state.rs:handle"]}
{"id": "C75", "title": "Macro: the order of declarations", "statement": "Writing the methods (and other items) of the annotated impl block in another order changes nothing: both versions build or neither does, the generated enums, constructors and methods are the same up to order, and the machines do the same: for all events and contexts every call ends alike, calls the same functions with the same values in the same order, and leaves the same state and storage; also, if all handlers name the same event and context types, these are the same.", "quantifier": "every impl block, permutation of its items, macro arguments, iteration orders of the hash maps, user functions and history", "why_tests_cant": "all source programs and permutations", "anchors": ["macro/src/analyze.rs:141-184", "macro/src/lower.rs", "macro/src/codegen.rs"]}
{"id": "C76", "title": "Macro: values have the declared types", "statement": "If the types in the annotated impl block fit together (each parameter other than event and context is a reference to something the node keeps under that name and type; what a superstate borrows its children keep with the same type) and the user's methods are well typed, then in every history each state and superstate that user code sees, each target and the machine's state hold only values of the declared types; no method is ever called with a value not of its parameter's type; and the constructor functions build such states from arguments of the parameters' types.", "quantifier": "every impl block, macro arguments, meaning of types, user functions and history of events, both modes", "why_tests_cant": "all source programs; an extra or swapped field would show only for particular blocks", "anchors": ["macro/src/lower.rs", "macro/src/codegen.rs"]}
{"id": "C77", "title": "What entry actions establish holds while the node is active", "statement": "Let the user say what should hold of the shared storage always, while a state or superstate is active, and while it is about to be left. If each callback alone, called when these hold, leaves them as they should then be (an entry action may assume it of the enclosing superstates and establishes it for its node; a handler keeps it for the nodes that stay active; exit actions and hooks likewise), then after any history of completed calls it holds of the current state and all superstates around it; and if each callback alone returns when called so, no call ever panics. After a caught panic it may fail.", "quantifier": "every machine, hierarchy, such conditions, mode and history of calls, including the client's own careful changes", "why_tests_cant": "all machines, conditions and histories: it is the induction principle users apply informally", "anchors": ["statig/src/blocking/inner.rs", "statig/src/blocking/state.rs", "statig/src/blocking/superstate.rs", "statig/src/awaitable/inner.rs", "statig/src/awaitable/state.rs"]}
{"id": "C78", "title": "Everything a call does, as a short reference", "statement": "The behaviour of init and handle, in both modules, is that of a short reference interpreter: ask the leaf and then each superstate, innermost first, until one does not answer Super (hooks around each); for a transition call the hook, exit the levels of the old state that are not common with the target, inside out, replace the state, enter the levels of the new state that are not common with the old one, outside in, call the hook; init enters all levels. Each callback reads its level of the current state and what it writes is written back there at once. For every history of calls, each call ends as the reference says, with the same calls into user code with the same arguments, and the same context, storage and state afterwards, also when callbacks panic or are cancelled; so for every machine the macro generates.", "quantifier": "every machine with an acyclic hierarchy whose superstates are views of the state, depth, history of calls (panics and dropped futures included), both modes", "why_tests_cant": "all machines, depths and histories; the code works by nested borrows, recursion and loops that differ between the modules", "anchors": ["statig/src/blocking/state.rs", "statig/src/blocking/superstate.rs", "statig/src/blocking/inner.rs", "statig/src/blocking/state_machine.rs", "statig/src/awaitable/state.rs", "statig/src/awaitable/inner.rs", "statig/src/awaitable/state_machine.rs"]}
{"id": "C79", "title": "Conditions on state-local and shared storage hold between calls", "statement": "Let the user say what should hold of the state value (the storage of the state and all its superstates) and the shared storage between calls, before initialisation, after the exit actions of so many levels have run and while the entry actions of so many levels are still to run. If each callback alone, called when its condition holds, leaves the next one (handlers and hooks included), then after any history of completed calls the condition for the time between calls holds; and if each callback alone returns when called so, no call ever panics. So the counter of the README's state-local storage example never underflows.", "quantifier": "every machine whose superstates are views of the state, depth, such conditions, mode and history of calls, including the client's own considerate changes; every machine the macro generates", "why_tests_cant": "all machines, conditions, depths and histories: where a value is written between the levels decides what the next callback sees", "anchors": ["statig/src/blocking/inner.rs", "statig/src/blocking/state.rs", "statig/src/blocking/superstate.rs", "statig/src/awaitable/inner.rs", "statig/src/awaitable/state.rs", "README.md:204-222"]}
{"id": "C80", "title": "What callbacks keep of a state's storage lasts as long as the state", "statement": "If every handler and action preserves some relation between the old and new storage of the node it is called for (a field never changes, a counter never goes down), then the machine preserves it for the whole time a state is active: over any completed calls the relation leads from the target of the last transition asked for (or the first state) to the state at the end, and when calls panic, from the first state or one of the targets. In a generated machine, a field that a state, its superstates and their actions take as a shared reference or not at all keeps the value the last transition gave it.", "quantifier": "every machine whose superstates are views of the state, every such relation, depth, mode, history of init/handle/inner_mut calls, completed or not; every generated machine whose methods pass the borrow checker", "why_tests_cant": "all machines, relations and histories: a stale copy written back, or storage written to the wrong level, shows only with the right nesting and events", "anchors": ["statig/src/blocking/inner.rs", "statig/src/blocking/state.rs", "statig/src/blocking/superstate.rs", "statig/src/awaitable/inner.rs", "statig/src/awaitable/state.rs", "macro/src/codegen.rs", "macro/src/lower.rs"]}
{"id": "C81", "title": "Implementations that cannot be told apart by their callbacks cannot be told apart by the machine", "statement": "Take two machines with their own types of states, superstates, storage, events and contexts, and relations between these types such that corresponding callbacks, given related arguments, give related results. Then over any history of related calls (init, handle, inner_mut, state_mut), in either mode, each pair of calls ends in the same way with related contexts, makes corresponding calls of user code in the same order with related arguments, and leaves related machines. So a machine's representation can be changed without its clients noticing.", "quantifier": "every two machines (also ones that break the rules of C68), every family of relations, mode and pair of related histories, completed or not", "why_tests_cant": "all pairs of machines, relations and histories: the library must not look at anything of a state but what the callbacks and discriminants show", "anchors": ["statig/src/blocking/inner.rs", "statig/src/blocking/state.rs", "statig/src/blocking/superstate.rs", "statig/src/awaitable/inner.rs", "statig/src/awaitable/state.rs", "statig/src/awaitable/superstate.rs", "statig/src/blocking/inner.rs"]}
{"id": "C82", "title": "#[state_machine]: names and the order of methods do not matter", "statement": "Give the methods of an accepted impl block new names and its parameters and fields new names (also the event and context, by their settings), put the methods into another order, add further methods of any kind or drop ones that are not states, superstates or actions, let the attributes refer to the new names, and let the functions do what they did. If the renamed block is accepted too, and both compile, then the two generated machines cannot be told apart: over any history of corresponding calls each call ends in the same way with the same context, runs corresponding functions with the same arguments in the same order, and leaves the same shared storage and corresponding states with the same contents. In particular neither the declaration order of the generated enums nor the spelling of a name decides anything.", "quantifier": "every impl block and renaming and reordering of it, every behaviour of the user's functions, iteration orders of the macro's maps, modes and histories", "why_tests_cant": "all impl blocks, renamings, function bodies and histories: the expansion must treat identifiers uniformly", "anchors": ["macro/src/lower.rs:lower", "macro/src/lower.rs:lower_state", "macro/src/lower.rs:lower_superstate", "macro/src/lower.rs:lower_action", "macro/src/codegen.rs", "macro/src/analyze.rs"]}
{"id": "C83", "title": "A call runs a bounded amount of user code", "statement": "In a machine whose superstates are nested at most n deep (d = n + 1 is the longest path), one call of init or handle calls the user's handlers, actions and hooks at most 6d + 2 times in all, and at most 5d + 2 times if the machine was already initialised; these bounds are reached, in both modes. During one call `superstate()` is asked at most 3d(d + 1) times on any one state value (and on superstates borrowed from it). No event, state content or behaviour of the callbacks can make a call loop over user code.", "quantifier": "every machine of finite nesting, state, event, behaviour of the callbacks (also panics and cancellation), and mode; the bound on superstate() also without a hierarchy", "why_tests_cant": "all machines and depths: a test can count for one machine only", "anchors": ["statig/src/blocking/state.rs:StateExt", "statig/src/blocking/superstate.rs:SuperstateExt", "statig/src/awaitable/state.rs:StateExt", "statig/src/blocking/inner.rs:Inner", "statig/src/blocking/superstate.rs:SuperstateExt::common_ancestor_depth"]}
{"id": "C84", "title": "Adding methods to an impl block does not disturb the machine", "statement": "Add methods to an accepted impl block, anywhere: further states, superstates, actions or helpers. If the functions that were there do what they did, and the larger block is accepted and compiles too, then a client cannot tell the new machine from the old one as long as no old function leads to an added state: each call ends in the same way with the same context, runs the same functions on the same values in the same order, and leaves the same shared storage and the same state variant with the same contents, whatever the added functions would do. Read backwards: states, superstates and actions that nothing leads to can be deleted.", "quantifier": "every impl block and extension of it, every behaviour of the old and the added functions, iteration orders of the macro's maps, modes and histories", "why_tests_cant": "all impl blocks, additions, function bodies and histories", "anchors": ["macro/src/lower.rs:lower", "macro/src/lower.rs:lower_state", "macro/src/lower.rs:lower_superstate", "macro/src/codegen.rs", "macro/src/analyze.rs:analyze"]}
{"id": "C85", "title": "Aborted calls unbalance entries and exits by at most one each", "statement": "Over any history, whatever panics are caught and futures dropped in it, count for each state and superstate how often it was entered and exited. Exits exceed what the entries and being active now account for by at most one for each transition that was aborted in an entry or exit action, and entries exceed it by at most one for each initialisation that was aborted in an action. Aborts elsewhere (handlers, hooks) unbalance nothing. The bounds are reached for any number of aborts.", "quantifier": "every well-formed machine, mode, history with any panics and cancellations, and node of the hierarchy", "why_tests_cant": "all histories and points of abort", "anchors": ["statig/src/blocking/inner.rs:Inner::transition", "statig/src/awaitable/inner.rs:Inner::transition", "statig/src/blocking/inner.rs:Inner::init_with_context", "statig/src/blocking/state_machine.rs:StateMachine::handle_with_context"]}
{"id": "C86", "title": "From construction to drop", "statement": "Over the whole life of a machine, from its construction to its drop and with any panics caught and futures dropped on the way, each state value (the initial one and each target a handler returned) is dropped exactly once, none is leaked, and the shared storage is dropped exactly once. The drop comes after all callbacks, drops the shared storage first and then the current state, and calls nothing of the user's. A StateMachine and an UninitializedStateMachine that is initialised live the same life, except that an aborted `init` drops the latter at once.", "quantifier": "every machine, mode, history with any panics and cancellations, either front end, and any mark the callbacks keep", "why_tests_cant": "all histories and points of abort; resources are leaked or freed twice only on rare paths", "anchors": ["statig/src/blocking/inner.rs:Inner", "statig/src/awaitable/inner.rs:Inner", "statig/src/blocking/state_machine.rs:UninitializedStateMachine::init_with_context", "statig/src/blocking/inner.rs:Inner::transition"]}
{"id": "C87", "title": "Awaitable machines suspend only where the user does", "statement": "The future of a call on an awaitable machine returns Pending exactly as often as the futures of the callbacks it makes do together: the library adds no suspension points and never polls a finished future again. So if no callback suspends, the call is complete after one poll; and if each callback's future is ready after at most k pending polls, the call is complete after a number of polls bounded by k and the nesting depth.", "quantifier": "every machine, all futures of the callbacks (with any bounds on how long they are pending, per node and event), polling schedule and history", "why_tests_cant": "all schedules and all pending patterns of user futures", "anchors": ["statig/src/awaitable/state.rs:StateExt::handle", "statig/src/awaitable/inner.rs:transition", "statig/src/awaitable/state_machine.rs:StateMachine::handle_with_context"]}
{"id": "C88", "title": "Machines on one executor do not disturb each other", "statement": "Any number of awaitable machines, each driven by its own task and polled in any order by one executor: what becomes of a task depends only on its own turns. At any time, a task that has ended has done what its machine does when it handles the events one after the other with nothing in between, and one that has not has made the first of those calls. If callbacks are pending a bounded number of times, every schedule that gives each task enough turns ends all tasks, with the same results.", "quantifier": "every number of machines of any types, events, schedules of polls, worlds seen by the polls, and futures computing the callbacks", "why_tests_cant": "all interleavings", "anchors": ["statig/src/awaitable/state_machine.rs:StateMachine::handle_with_context", "statig/src/awaitable/inner.rs:Inner::handle_with_context"]}
{"id": "C89", "title": "Machines that use machines", "statement": "If every callback alone moves the shared storage and the context along some preorder, every call of the machine does, aborted ones included. So a state machine may own another one: if its callbacks use the owned machine through its API only, everything that happens to the owned machine during any history of the owner, panics and cancellations of the owner included, is one history of the owned machine, and what holds of all histories holds of it; for example, its entries and exits are bracketed.", "quantifier": "every pair of machines in any modes, use of the owned machine by callbacks, hooks and inner_mut, and history of the owner", "why_tests_cant": "all histories of one machine within all histories of another", "anchors": ["statig/src/blocking/state_machine.rs:StateMachine::handle_with_context", "statig/src/awaitable/state_machine.rs:StateMachine::handle_with_context", "statig/src/blocking/inner.rs:Inner", "statig/src/awaitable/inner.rs:Inner"]}
{"id": "C90", "title": "The state diagram", "statement": "Draw an arrow from a leaf to a leaf if the handler of the first, or of a superstate around it, can answer some event with a transition to the second. Then every call follows at most one arrow, however it ends; the machine is only ever in states reachable in the diagram; nothing is called but callbacks of these and of the superstates around them; a leaf without outgoing arrows is never left. This holds of every machine the macro generates.", "quantifier": "every machine, hierarchy, mode, history (panics and cancellations included) without a state_mut that changes the variant", "why_tests_cant": "all histories", "anchors": ["statig/src/blocking/inner.rs:Inner::handle_with_context", "statig/src/blocking/inner.rs:Inner::transition", "statig/src/awaitable/inner.rs:Inner::transition", "statig/src/blocking/state.rs:StateExt::handle", "statig/src/awaitable/state.rs:StateExt::handle"]}
{"id": "C91", "title": "Events from a queue", "statement": "In a loop that takes events from a queue and handles them (README.md:507), where callbacks may post further events to the queue and others may come in from outside: events are handled in the order in which they were queued, each exactly once and to completion before the next, and none is lost, whatever panics. If handling an event only posts smaller ones (in any ranking), the loop gets done from every state and queue.", "quantifier": "every machine, mode, state, queue, posts by callbacks, arrivals from outside, panics", "why_tests_cant": "all histories", "anchors": ["README.md:507", "statig/src/blocking/state_machine.rs:StateMachine::handle_with_context", "statig/src/awaitable/state_machine.rs:StateMachine::handle_with_context"]}
{"id": "C92", "title": "Goals that events lead to", "statement": "If, in every state outside a set of goal states, every event of a class makes some handler (of the state or of a superstate around it, with those inside passing the event on or doing the same) ask for a transition to a goal state or to a state of smaller rank, then in any history of calls with such events a goal state is reached after at most one more completed call than the rank of the first state, whatever aborted calls, initializations and changes of storage come in between; if no such event leads out of the goal, the machine is in it from then on.", "quantifier": "every machine, hierarchy, mode, ranking, goal, class of events, history, generated machines included", "why_tests_cant": "liveness over all histories", "anchors": ["statig/src/blocking/inner.rs:Inner::handle_with_context", "statig/src/awaitable/inner.rs:Inner::handle_with_context", "statig/src/blocking/state.rs:StateExt::handle", "statig/src/blocking/superstate.rs:SuperstateExt::handle"]}
{"id": "C93", "title": "Accounts, journals and monitors", "statement": "Whatever account of the calls the callbacks keep in shared storage and context, in any sense that adds up call by call, is right after every call and over every history, however calls end. In particular hooks that keep a journal change nothing else, and the journal is exactly what the sequence of hook calls makes of it; a monitor in after_transition that is told the first state always knows the current one as long as no call is aborted (after an aborted call it may not).", "quantifier": "every machine (without any assumption for accounts and journals), mode, stack, history, aborted calls included", "why_tests_cant": "all callbacks, all histories", "anchors": ["README.md:Introspection", "statig/src/blocking/inner.rs:Inner::transition", "statig/src/awaitable/inner.rs:Inner::transition", "statig/src/blocking/into_state_machine.rs:IntoStateMachine"]}
{"id": "C94", "title": "What a future owns is dropped with it", "statement": "The future of a handle call owns the target of a transition until the machine has swapped it in and the old state after that: whatever is polled how often, and wherever the client drops the future, every state value is dropped exactly once, after the last call into user code; dropped before the first entry action it is the target that goes, later the state that was left. A future that was never polled, and one that initializes a machine, owns no state.", "quantifier": "every awaitable machine, all user futures, all sequences of polls and points of dropping, all sessions of such calls", "why_tests_cant": "all schedules, cancellation points and histories", "anchors": ["statig/src/awaitable/inner.rs:Inner::transition", "statig/src/awaitable/inner.rs:Inner::handle_with_context", "statig/src/awaitable/state.rs:StateExt::handle", "statig/src/awaitable/state_machine.rs:StateMachine::handle_with_context"]}
{"id": "C95", "title": "Awaitable typestate machines, polled and dropped", "statement": "An awaitable machine built in two steps does the same, poll by poll, as the one-step machine: handling on an initialized machine makes the same calls and drops the same states, and initializing makes the same calls; but the future of init owns the machine, so an initialized machine exists afterwards only if init completed, and if it panicked or its future was dropped, polled or not, storage and then state are dropped as the entry actions have left them. Over the whole life, with any polls and drops, the storage is dropped exactly once and so is every state it held first or was given as a target.", "quantifier": "every awaitable machine, all user futures, all sequences of polls and points of dropping for init and for every call, all writes through inner_mut and state_mut", "why_tests_cant": "all schedules, cancellation points and histories", "anchors": ["statig/src/awaitable/state_machine.rs:UninitializedStateMachine::init_with_context", "statig/src/awaitable/state_machine.rs:InitializedStateMachine::handle_with_context", "statig/src/blocking/inner.rs:Inner"]}
{"id": "C96", "title": "Macro: generated awaitable machines, poll by poll", "statement": "A machine generated by #[state_machine] from an impl block with async fns does not depend on how often its async fns and hooks have to wait: a call that completes does what it does with atomic bodies. At every poll, and when the call is dropped, each async fn has been called with exactly what its parameters name, and what it has written is in the fields, shared storage and context those parameters name. A dropped call leaves the machine in a state of the variant it was in or, if the target had already been entered, of the variant of the target. Methods that are not async never make a call wait, and if each async fn and hook waits at most k times the whole call waits a bounded number of times.", "quantifier": "every impl block the macro accepts in the awaitable mode, all bodies and futures, events, polls and points of dropping", "why_tests_cant": "all inputs of the macro and all schedules and cancellation points", "anchors": ["macro/src/codegen.rs:codegen_state_impl_state", "macro/src/codegen.rs:codegen_superstate_impl_superstate", "macro/src/codegen.rs:codegen_state_machine_impl", "macro/src/lower.rs:lower_state"]}
{"id": "C97", "title": "Macro: async or not", "statement": "Making functions of an impl block async, or no longer async, does not change whether the macro and the compiler accept it. If the machine is awaitable before and after (or blocking before and after), clients cannot tell the two machines apart. If this turns a blocking machine into an awaitable one and no hooks are configured, each machine in its own mode gives the same outcomes and contexts, makes the same calls of handlers and actions in the same order, and ends in the same state with the same storage; a call of the awaitable machine that completes, polled however often, does what the same call of the blocking machine does at once.", "quantifier": "every impl block, every choice of async functions, all bodies, histories of API calls, futures and polls", "why_tests_cant": "all inputs of the macro, all histories, all schedules", "anchors": ["macro/src/analyze.rs:analyze_state", "macro/src/lower.rs:lower", "macro/src/codegen.rs:codegen", "statig/src/awaitable/state.rs:handle", "statig/src/blocking/state.rs:handle"]}
{"id": "C98", "title": "Macro: a superstate that does nothing can be taken out", "statement": "If the method of a superstate of an impl block always returns Super and changes none of its arguments, has no entry and no exit action, and the dispatch hooks do nothing when shown it, then the superstate can be deleted, making its children refer to its own superstate (or to none): if the new impl block is accepted as well, clients cannot tell the two machines apart; the same user code runs with the same values in the same order, except for the calls about the deleted superstate.", "quantifier": "every impl block with such a superstate anywhere in an acyclic hierarchy of any depth, all bodies, both modes, every history of API calls", "why_tests_cant": "all hierarchies, bodies and histories", "anchors": ["macro/src/lower.rs:lower", "macro/src/codegen.rs:codegen_state_impl_state", "statig/src/blocking/superstate.rs", "statig/src/awaitable/superstate.rs", "statig/src/blocking/inner.rs"]}
{"id": "C99", "title": "Awaitable implementations that cannot be told apart, poll by poll", "statement": "Take two awaitable machines with their own types, and relations between these types such that the futures of their callbacks correspond: polled equally often on related data, both are pending, both panic or both are ready with related answers, having done related things to what they borrow. Then the futures of their calls correspond in the same way: polled any number of times, both calls are pending or both are ready at the same poll with the same outcome, have called corresponding user code with related arguments, and leave related machines and contexts, also if they are dropped there or were never polled; so over any history of such calls. If only what the callbacks compute corresponds, not when they are ready, the calls that complete correspond.", "quantifier": "every two machines and relations, all futures (of any pacing), schedules, points of dropping and histories of calls", "why_tests_cant": "all machines, schedules and cancellation points", "anchors": ["statig/src/awaitable/inner.rs", "statig/src/awaitable/state.rs", "statig/src/awaitable/superstate.rs", "statig/src/awaitable/state_machine.rs"]}
{"id": "C100", "title": "Macro: further methods do not disturb an awaitable machine, poll by poll", "statement": "Add methods (states, superstates, actions, helpers, async or not) to an impl block with async fns, or reorder its methods. If the functions that were there do what they did, the async ones poll by poll, and the new block is accepted too, then clients cannot tell the two awaitable machines apart: over any history of calls, each polled any number of times and perhaps dropped, corresponding calls are pending, panic or are ready at the same poll with the same outcome and context, having run the same functions on the same values, and leave the same storage and a state of the same variant with the same contents.", "quantifier": "every impl block the macro accepts and every extension or reordering of it, all bodies and futures, histories, schedules and points of dropping", "why_tests_cant": "all inputs of the macro, schedules and cancellation points", "anchors": ["macro/src/lower.rs:lower", "macro/src/codegen.rs:codegen_state_impl_state", "macro/src/codegen.rs:codegen_superstate_impl_superstate", "statig/src/awaitable/inner.rs"]}
{"id": "C101", "title": "Macro: names do not matter to an awaitable machine, poll by poll", "statement": "Rename the methods and the parameters and fields of an impl block with async fns, and reorder the methods, leaving async what is async. If the functions do under the new names what they did under the old ones, the async ones poll by poll, and the new block is accepted too, then over any history of calls, each polled any number of times and perhaps dropped, corresponding calls are pending, panic or are ready at the same poll with the same outcome and context, having run corresponding functions, and leave the same storage and corresponding states with the same contents.", "quantifier": "every impl block the macro accepts and every renaming and reordering of it, all bodies and futures, histories, schedules and points of dropping", "why_tests_cant": "all inputs of the macro, schedules and cancellation points", "anchors": ["macro/src/lower.rs:lower", "macro/src/codegen.rs:codegen_state_impl_state", "macro/src/codegen.rs:codegen_superstate_impl_superstate", "statig/src/awaitable/inner.rs"]}
{"id": "C102", "title": "Macro: an async fn that does not wait is like a plain method, poll by poll", "statement": "Make other methods of an impl block async (or no longer async) such that the macro generates an awaitable machine for both. If each method gives a future that does the same, a method that is not async counting as a future that is ready when first polled, then clients cannot tell the two machines apart: over any history of calls, each polled any number of times and perhaps dropped, corresponding calls are pending, panic or are ready at the same poll with the same outcome and context, having run the same functions, and leave the same storage and state.", "quantifier": "every impl block the macro accepts and every choice of async functions, all bodies and futures, histories, schedules and points of dropping", "why_tests_cant": "all inputs of the macro, schedules and cancellation points", "anchors": ["macro/src/analyze.rs:analyze", "macro/src/lower.rs:lower", "macro/src/codegen.rs:codegen_state_impl_state", "statig/src/awaitable/inner.rs"]}
{"id": "C103", "title": "Edits that cannot be noticed can be made one after the other", "statement": "Being impossible to tell apart by callbacks is reflexive, symmetric and transitive, at once and poll by poll: after any number of edits of an implementation that each cannot be noticed (such as renaming, reordering and adding methods, or changing the representation of states, storage, events or context), or that take such an edit back, the machine cannot be told apart from the one at the start, over any history of calls in either mode.", "quantifier": "every machine, every chain of edits of any length, all relations between the types, all histories; for the polled version all futures", "why_tests_cant": "all machines and chains of edits", "anchors": ["statig/src/blocking/inner.rs", "statig/src/awaitable/inner.rs", "statig/src/blocking/state.rs", "statig/src/awaitable/state.rs"]}
{"id": "C104", "title": "A machine on an executor may be replaced by one that cannot be told apart from it", "statement": "When machines of the async mode run as tasks of an executor, a task whose machine, storage, context, events and callbacks' futures are replaced by ones that cannot be told apart from them behaves the same under every order of polls, whatever the other tasks are and whatever replaces them: at any time both have ended in the same way or neither has, both have called the same user code in the same order with corresponding arguments, and their machines and contexts correspond.", "quantifier": "every list of tasks and replacements, every schedule of polls of any length, every task of the list, all machines, futures and relations between them", "why_tests_cant": "all schedules, tasks and machines", "anchors": ["statig/src/awaitable/inner.rs", "statig/src/awaitable/state_machine.rs"]}
{"id": "C105", "title": "What every poll of every callback keeps holds wherever a future is dropped", "statement": "A condition on the shared storage and the context that every poll of every async callback keeps (not only the callback as a whole) holds after every call of init and handle of an awaitable machine for which it held before, whether the call's future is polled to its end, dropped after any number of polls or panics; hence over every history of such calls, and at any time for a machine that runs as a task on an executor, whatever the order of polls; the same for the machines of the typestate API. In particular what no poll of a callback undoes (a log that only grows) no call undoes. A condition that is kept only by callbacks that come to their end may be broken by dropping a future.", "quantifier": "every machine, condition, futures of callbacks, history of calls with any number of polls each, schedule of an executor", "why_tests_cant": "all histories, drop points and schedules", "anchors": ["statig/src/awaitable/inner.rs", "statig/src/awaitable/state.rs", "statig/src/awaitable/state_machine.rs"]}
