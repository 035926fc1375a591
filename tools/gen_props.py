import json
P=[]
def p(title, statement, quantifier, why, anchors):
    P.append(dict(id="C%02d"%(len(P)+1), title=title, statement=statement, quantifier=quantifier, why_tests_cant=why, anchors=anchors))
B="statig/src/blocking/"; A="statig/src/awaitable/"
p("Events are dispatched leaf-first, upward, each node at most once",
  "When an event is submitted, the handler of the current leaf state is called first; as long as a handler returns Super the handler of the next enclosing superstate is called, in ancestor order, with the same event; the first handler that does not return Super is the last one called, and no handler outside the ancestor chain of the current state is ever called.",
  "every machine with a finite static hierarchy of any height, every current state, event, storage and context, and every behaviour of the handlers (including panics)",
  "the chain length, the point at which a handler answers and the data it depends on are unbounded",
  [B+"state.rs:StateExt::handle", B+"superstate.rs:SuperstateExt::handle", A+"state.rs:StateExt::handle"])
p("Events nobody answers with a transition change nothing by themselves",
  "If no called handler returns Transition (the deciding handler returns Handled, or all of them return Super up to the implicit top), submitting the event runs no entry action, no exit action and no transition hook, and the machine stays in the same state variant.",
  "every machine, state, event, storage and context", "needs all response combinations along chains of any height",
  [B+"inner.rs:Inner::handle_with_context", A+"inner.rs:Inner::handle_with_context"])
p("A transition exits to and enters from the least common ancestor, in order",
  "A completed transition from state s to a different state t runs exactly: the exit action of s, then of each superstate of s from the innermost outward up to but excluding the innermost superstate shared by s and t, then the entry action of each superstate of t from the outermost not shared inward, then the entry action of t; nothing else between the transition hooks. If a callback aborts, what ran is a prefix of that sequence.",
  "every static hierarchy of any height and shape, every pair of states, all callback behaviours", "quantifies over all trees and all pairs of nodes; tests sample one tree",
  [B+"state.rs:transition_path", B+"superstate.rs:common_ancestor_depth", B+"inner.rs:transition", A+"state.rs:enter/exit"])
p("The transition path is the shortest possible",
  "Among all sequences of single exits and entries that lead the active path of s to the active path of t in the tree, the sequence executed for s /= t has minimal length and contains no state twice; no superstate shared by s and t is exited or entered.",
  "every hierarchy, every pair of distinct states, every alternative sequence of moves", "quantifies over all alternative walks", [B+"state.rs:transition_path", "README.md:Implementation"])
p("A self-transition exits and re-enters only the leaf",
  "If the target is the same variant as the current state (whatever its local data), exactly the leaf's exit action and then the leaf's entry action run and no superstate action runs.",
  "every machine, state, local data of source and target", "all data values of both instances", [B+"state.rs:same_state", B+"state.rs:transition_path", A+"state.rs:transition_path"])
p("After a transition the current state is the handler's target, touched only by entry actions",
  "After a completed transition the current state is the value the handler returned, changed only through the entry actions run on it or on its superstates' views; exit actions only ever write the old state's storage, which never leaks into the new state.",
  "every machine, source, target, storage, context, callback behaviour", "all data values and all writes by user code", [B+"inner.rs:transition", A+"inner.rs:transition", "README.md: exit actions operate on source storage"])
p("Entry and exit actions are perfectly bracketed over any history",
  "For any sequence of init/handle calls that do not abort, replaying the entry and exit actions on a stack (entry pushes, exit must pop the same state) never fails, and after each call the stack is exactly the root-to-leaf path of the current state (empty before initialization).",
  "every machine and every finite history of API calls with any events and contexts", "an inductive invariant over unbounded histories", [B+"state_machine.rs:StateMachine", B+"inner.rs"])
p("Initialization enters the initial state's path root-first, once, without hooks",
  "Initialization runs exactly the entry actions of the superstates of the initial state from the outermost inward and then of the initial state, runs no exit action, no transition hook and no dispatch hook; over any non-aborting history they run at most once, before any handler.",
  "every machine, initial state depth, history", "unbounded depth and histories", [B+"inner.rs:init_with_context", A+"inner.rs:init_with_context"])
p("Initialization is idempotent and implied by handle",
  "Calling init on an initialized StateMachine has no effect whatsoever; handle on an uninitialized StateMachine behaves exactly as init followed by handle (same callbacks, storage, context, state). Once the initialization has come to its end no later init has any effect, however many events were handled since.",
  "every machine, event and context", "all machines", [B+"state_machine.rs:StateMachine::init_with_context/handle_with_context", A+"state_machine.rs"])
p("Lazy and typestate front ends agree",
  "For every event sequence, a StateMachine and an UninitializedStateMachine that is init-ed and then driven as InitializedStateMachine run the same callbacks with the same data and end in the same state, storage and contexts (as long as no callback aborts during initialization).",
  "every machine and every history of events with contexts", "induction over histories", [B+"state_machine.rs:UninitializedStateMachine::init_with_context", B+"state_machine.rs:InitializedStateMachine"])
p("before_transition receives (source, target)",
  "In every transition the before_transition hook is called with the current state as its source argument and the state to be entered as its target argument, in blocking and in awaitable machines.",
  "every machine, mode and transition", "the shipped test only checks that the hook was called", [B+"inner.rs:transition (line 42)", A+"inner.rs:transition (line 44)", B+"into_state_machine.rs:before_transition"])
p("after_transition receives (source, target)",
  "In every completed transition after_transition is called with the old state (as left by its exit actions) as source and the new current state (as left by its entry actions) as target.",
  "every machine, mode and transition", "all data values", [B+"inner.rs:transition", A+"inner.rs:transition"])
p("Transition hooks bracket the transition exactly once",
  "Each transition calls before_transition exactly once before any exit or entry action of the transition, and (if it completes) after_transition exactly once after all of them; no hook is called otherwise.",
  "every machine and history", "unbounded histories", [B+"inner.rs:transition", A+"inner.rs:transition"])
p("Dispatch hooks bracket every handler call on the same node",
  "Every handler call is immediately preceded by before_dispatch for that node and event, and (if nothing aborts) is followed by exactly one after_dispatch for that node; in awaitable machines it follows immediately, in blocking machines the hooks of superstates are properly nested.",
  "every machine, chain height and handler behaviour", "unbounded chains", [B+"state.rs:handle", B+"superstate.rs:handle", A+"state.rs:handle"])
p("Blocking and awaitable machines behave the same",
  "For the same callbacks (with transition/dispatch hooks that do nothing), blocking and awaitable machines run the same handlers, entry and exit actions in the same order on the same data and end in the same state, storage and context, for every event.",
  "every machine with borrowed superstates and every history of events", "equivalence of a recursive and an iterative implementation for all depths", [B+"state.rs", A+"state.rs"])
p("The library's own arithmetic never fails",
  "No API call ever fails from inside the library: the level computations never underflow, so any panic comes from user code.",
  "every machine, also those whose superstate relation depends on data", "all trees and data-dependent hierarchies", [B+"state.rs:transition_path", A+"state.rs:transition_path"])
p("Every call terminates with stack linear in the hierarchy height",
  "If every superstate has a finite chain of ancestors, every library call performs finitely many steps, and recursion deeper than twice the height is never needed; giving more stack never changes the result.",
  "every acyclic machine", "all heights", [B+"superstate.rs:depth/handle/common_ancestor_depth", A+"superstate.rs"])
p("A panic or cancellation during a transition never corrupts the current state",
  "Whatever callback aborts during a transition, the current state afterwards is of the source variant if the abort happened in before_transition or an exit action, and of the target variant if it happened in an entry action or after_transition; callbacks run so far are a prefix of the full sequence and nothing runs afterwards.",
  "every machine and every abort point", "every crash point", [B+"inner.rs:transition", A+"inner.rs:transition"])
p("A machine counts as initialized only after initialization completed",
  "If initialization is aborted (panic, or the init/handle future is dropped), the entry actions run so far are a prefix of the full entry sequence, the machine still counts as uninitialized, and the next init or handle starts the entry sequence again from the root; the event of an aborted handle is not dispatched.",
  "every machine and every abort point", "every crash point", [B+"state_machine.rs:handle_with_context", A+"state_machine.rs:handle_with_context"])
p("Bracketing survives aborted calls",
  "Entry and exit actions stay perfectly bracketed (C07) even if some calls are aborted by a panic that is caught or by dropping the future.",
  "every machine, history and abort points", "every crash point in every history", [A+"inner.rs:transition", A+"state_machine.rs:init_with_context"])
p("Storage and context are threaded sequentially through all callbacks",
  "One API call is the sequential composition of its callbacks: each callback receives shared storage, context and state-local storage exactly as the previous callback left them, and the caller finds them as the last callback left them; the library itself never writes them.",
  "every machine, call and callback behaviour", "all data and all interleavings of writes", [B+"state.rs", B+"superstate.rs", B+"inner.rs"])
p("Context-free and event-free calls are instances of the general ones",
  "init() and handle(e) behave as init_with_context/handle_with_context with a unit context; step() and step_with_context(c) behave as handle with the unit event.",
  "every machine", "all machines", [B+"state_machine.rs:init/handle/step/step_with_context", A+"state_machine.rs"])
p("Serialization round-trips storage and state",
  "Serializing any of the three machine types and deserializing the result yields a machine with the same shared storage and the same current state, for formats that key struct fields by name and for sequence formats, provided the user's types round-trip.",
  "every machine value and both kinds of formats", "all values", [B+"inner.rs:Serialize/Deserialize", B+"state_machine.rs:Serialize", A+"inner.rs"])
p("Deserialization accepts exactly the complete field sets",
  "From a keyed format, a machine is accepted in any field order, and a missing, repeated or unknown field is rejected with the corresponding error; from a sequence, fewer than two elements are rejected.",
  "every serialized map or sequence of any length", "unbounded inputs", [B+"inner.rs:InnerVisitor", A+"inner.rs:InnerVisitor"])
p("A restored machine re-enters the stored state",
  "A deserialized machine is uninitialized: its first init or handle runs the entry actions of the path of the stored current state (not of the initial state), and dispatches later events to the stored state.",
  "every machine and stored state", "all states and hierarchies", [B+"state_machine.rs:Deserialize for StateMachine/UninitializedStateMachine"])
p("Equality implementations are lawful",
  "Equality of Response, StateOrSuperstate and of the machine types is reflexive, symmetric and transitive whenever it is for the user's types, distinguishes different variants, and a type that claims Eq is reflexive.",
  "all values and user equality relations", "all values", ["statig/src/response.rs", "statig/src/state_or_superstate.rs", B+"inner.rs:PartialEq", B+"state_machine.rs:PartialEq/Eq"])
p("Clones are equal and evolve independently and identically",
  "A clone compares equal to the original, and original and clone fed the same events produce the same callbacks, state and storage; events handled by one never affect the other.",
  "every machine and pair of histories", "induction over histories", [B+"inner.rs:Clone", B+"state_machine.rs:Clone"])
p("Superstates alias the leaf's storage",
  "What a superstate handler or action writes to its borrowed fields is what the leaf and all later callbacks see, and conversely; a superstate never observes stale local data.",
  "every machine with borrowed superstates, all nesting depths and writes", "all writes at all depths", [B+"state.rs:superstate", B+"superstate.rs:superstate", "README.md:State-local storage"])
p("Macro: handlers and actions get the arguments they name",
  "In code generated by #[state_machine] every handler and action is called on behalf of exactly its own state, and each parameter receives what its name denotes: self the shared storage, the event/context identifiers the event/context, any other name the field of that name of the current state's storage; writes go back to that same field. (Names used by the generated code itself, shared_storage and the event/context identifiers, are not names of fields.)",
  "every accepted impl block (any number of states, parameters, any names) and every storage", "all programs accepted by the macro", ["macro/src/lower.rs:lower_state/lower_superstate/lower_action/fn_arg_to_ident", "macro/src/codegen.rs"])
p("Macro: the generated hierarchy is the declared one",
  "The generated superstate relation is exactly the one declared by the superstate attributes, entry/exit actions are exactly the declared ones (none if undeclared), and a reference to an undefined superstate or action is rejected at compile time.",
  "every impl block", "all programs", ["macro/src/lower.rs:lower (188-264)", "macro/src/analyze.rs:analyze_state/analyze_superstate"])
p("Macro: generated machines satisfy what the runtime relies on",
  "A machine generated by the macro has a hierarchy that depends on variants only, its callbacks can not change the variant of the state they run on, and its superstates are faithful views of the leaf's fields; so for acyclic declarations all runtime guarantees hold for it.",
  "every impl block accepted by the macro and the compiler checks modelled", "all programs", ["macro/src/codegen.rs:codegen_state_impl_state", "macro/src/lower.rs"])
p("Macro: distinct handlers get distinct variants",
  "Distinct snake_case handler names yield distinct enum variant names.",
  "all identifiers", "infinitely many names", ["macro/src/lower.rs:snake_case_to_pascal_case"])
p("Macro: constructors take the non-defaulted fields and fill in defaults",
  "The generated constructor of a state whose handler has one #[state] attribute takes, in declaration order, exactly the state-local inputs without a default, and builds the state whose defaulted fields have their declared default and whose other fields have the given values.",
  "every parameter list, default assignment and argument values", "all programs and values", ["macro/src/lower.rs:lower_state (471-520)", "macro/src/analyze.rs:analyze_local_storage_default"])
p("Macro: async detection",
  "The generated machine is awaitable iff some state handler, superstate handler or action is async; configured hooks are executed in either mode.",
  "every impl block", "all programs", ["macro/src/lower.rs:267-347", "macro/src/codegen.rs:60-154"])
p("Macro: generated behaviour does not depend on hash-map order",
  "Two expansions of the same impl block differ only in the order of variants and match arms; the resulting machines behave identically, and state serialized by one build is read back as the same state by another build.",
  "every impl block and every pair of iteration orders", "orders are random per build", ["macro/src/analyze.rs:Model (HashMap)", "macro/src/codegen.rs:codegen_state"])
p("Macro: superstate cycles are rejected",
  "A declaration whose superstate relation is cyclic is rejected at compile time, so that depth computations of accepted machines terminate.",
  "every impl block", "all graphs", ["macro/src/lower.rs:226-264", B+"superstate.rs:depth"])
p("Macro: documented attributes take effect and unknown ones are rejected",
  "Every documented argument of #[state]/#[superstate] (name, superstate, entry_action, exit_action, local_storage) has its documented effect and an unknown or malformed argument is rejected rather than ignored.",
  "every attribute list", "all attribute lists", ["macro/src/analyze.rs:423-456", "macro/src/analyze.rs:get_meta", "statig/src/lib.rs:59-90"])
p("Macro: exactly the anonymous lifetimes of event and context types are renamed",
  "In the event and context types every anonymous or elided lifetime, at any nesting depth, is replaced by the GAT lifetime, and named lifetimes (including 'static) are left alone.",
  "every type expression", "unbounded nesting", ["macro/src/visitors/lifetime_visitor.rs", "macro/src/lower.rs:355-367"])
p("Macro: event and context types are found",
  "If any state or superstate handler takes the event (context) parameter, the machine's event (context) type is the referenced type of such a parameter, it does not depend on which one if they agree, and it is () if there is none; a non-reference is rejected.",
  "every impl block and iteration order", "all programs", ["macro/src/lower.rs:266-367"])
p("Awaitable machines do not depend on the polling schedule",
  "However often and whenever the future returned by an awaitable call is polled, the callbacks, their order and data and the result are those of an uninterrupted execution; between polls nothing changes.",
  "every machine, every behaviour of pending user futures, every polling schedule", "all schedules", [A+"state.rs", A+"inner.rs", A+"state_machine.rs"])
p("Dropping a future after any number of polls leaves a consistent prefix",
  "Dropping the future of an awaitable call after any number of polls leaves exactly the state, storage and callback prefix of an execution aborted in the callback that was pending; a never-polled future has no effect.",
  "every machine and every number of polls", "every crash point", [A+"state.rs", A+"inner.rs"])
p("Mutating shared storage from outside never disturbs the hierarchy; replacing the state does",
  "Interleaving inner_mut mutations with events preserves C07; setting the state of an uninitialized machine through state_mut makes initialization enter that state's path instead.",
  "every history interleaving mutations and events", "unbounded histories", [B+"state_machine.rs:inner_mut/state_mut", A+"state_machine.rs:inner_mut/state_mut"])
p("Machines without superstates are flat",
  "With unit superstates every event reaches only the current state's handler, and every transition runs exactly the exit action of the source and the entry action of the target.",
  "every machine with () as superstate", "all machines", [B+"superstate.rs:impl Superstate for ()", A+"superstate.rs:impl Superstate for ()"])
p("Machines round-trip in formats that key fields by index or bytes",
  "Serializing a machine with a format that presents struct field identifiers as integers or bytes (packed CBOR and the like, which serde's derived implementations support) and deserializing the result gives the machine back.",
  "every machine value and every such format", "all formats and values", [B+"inner.rs:Field/FieldVisitor", A+"inner.rs:FieldVisitor"])
p("Macro: the storage of a state is its parameters and its local_storage",
  "The variant generated for a state or superstate handler has one field for every parameter of the handler other than the receiver, the event and the context, with the type the parameter refers to (by reference for superstates), in order, and then one for each local_storage entry; an entry that repeats a parameter's name gives that field its type.",
  "every impl block", "all programs", ["macro/src/lower.rs:lower_state/lower_superstate (441-620)", "macro/src/analyze.rs:analyze_state"])
p("Macro: arguments of #[state_machine]",
  "Each argument of #[state_machine] sets what it is documented to set, the last of several wins, an omitted one has its documented default, an unknown or malformed one is rejected, and initial is required.",
  "every argument list", "all argument lists", ["macro/src/analyze.rs:analyze_state_machine (142-322)"])
p("Macro: the generated enums declare exactly the generic parameters their fields use",
  "A generic parameter of the impl block is declared on the generated state (superstate) enum iff the type of a field of that enum mentions it.",
  "every impl block with generics", "all programs", ["macro/src/lower.rs:368-439", "macro/src/lower.rs:get_generic_argument_ident", "macro/src/visitors"])
p("Macro: which impl blocks are accepted",
  "The macro accepts an impl block and argument list iff the type, arguments, handlers, actions, defaults and where clauses are well formed and every superstate and action that a handler names exists; acceptance does not depend on hash order.",
  "every impl block, argument list and iteration order", "all programs", ["macro/src/lib.rs", "macro/src/analyze.rs", "macro/src/lower.rs"])
p("Macro: malformed input gets a diagnostic",
  "On an impl block it does not accept the macro gives a diagnostic at the offending place; it never panics.",
  "every impl block and argument list", "all programs", ["macro/src/analyze.rs", "macro/src/lower.rs"])
p("Macro: the user's code is kept",
  "The impl block is part of the output, with the same items in the same order and unchanged, except that stored parameters of state handlers lose their #[default] attribute.",
  "every accepted impl block", "all programs", ["macro/src/codegen.rs:codegen", "macro/src/analyze.rs:analyze_state"])
p("Callbacks that are left out do nothing",
  "If entry and exit actions and hooks are left out, initialization only marks the machine as initialized, and handling an event does nothing but call the handlers one after the other and replace the state by exactly the value asked for; the macro leaves out what is not asked for.",
  "every machine, state, event, both modes", "all machines", [B+"state.rs:State", B+"superstate.rs:Superstate", B+"into_state_machine.rs", A+"into_state_machine.rs", "macro/src/codegen.rs"])
p("Depth, common ancestor and transition path",
  "depth is the number of nodes on the state's active path; common_ancestor_depth the number of nodes two different states' paths share; transition_path the numbers of exits and entries of the transition; no call underflows.",
  "every machine and pair of states", "all hierarchies", [B+"state.rs:StateExt", B+"superstate.rs:SuperstateExt", A+"state.rs:StateExt"])
EX="examples/"
p("Examples with and without the macro behave the same",
  "Each example that exists both with #[state_machine] and written by hand reacts to every sequence of events in the same way: same states, same storage, same callbacks, same outcome of every call.",
  "every event history, initial storage, mode and macro iteration order; basic, blinky, async_blinky, history, bench, async_bench, calculator", "unbounded histories", [EX+"macro/*/src", EX+"no_macro/*/src"])
p("The dishwasher never loses its program",
  "After any sequence of events the dishwasher of the history examples shows an open door iff the door was last opened, and otherwise the phase its program reached, which advances only while the door is closed.",
  "every event history and initial previous_state", "unbounded histories", [EX+"macro/history/src/main.rs", EX+"no_macro/history/src/main.rs"])
p("The barrier opens when all three events have been seen",
  "The barrier example is initialized iff events A, B and C have all been handled, in any order and however often.",
  "every event history", "unbounded histories", [EX+"macro/barrier/src/main.rs"])
p("The calculator never panics",
  "No sequence of keys makes the calculator examples panic.",
  "every sequence of keys, every f32 behaviour", "unbounded histories", [EX+"macro/calculator/src/state.rs", EX+"no_macro/calculator/src/state.rs"])
p("The calculator evaluates chains from left to right",
  "Keying in n0 op1 n1 .. opk nk = displays ((n0 op1 n1) .. opk nk), for all numbers and operators and any length.",
  "every chain, every way of keying in its numbers", "unbounded chains", [EX+"macro/calculator/src/state.rs", EX+"no_macro/calculator/src/state.rs"])
p("AC clears the calculator",
  "After AC the calculator is in its initial state and shows 0, whatever was keyed in before.",
  "every state and display", "all states", [EX+"macro/calculator/src/state.rs", EX+"no_macro/calculator/src/state.rs"])
TS="statig/tests/"
p("The transition tests hold for every event sequence",
  "The machine of the transition tests, by hand or by the macro, plain or async, records after any non-empty sequence of events exactly the entry and exit actions of the state chart in order, and ends in the state the chart says.",
  "every event sequence, both modes, every macro iteration order", "the tests use one sequence of four events", [TS+"transition.rs", TS+"transition_macro.rs", TS+"async_transition.rs", TS+"async_transition_macro.rs"])
p("The hook tests hold for every history",
  "After at least one event each of the four hooks of the hooks test has run, whatever the flags were before, for plain and async hooks.",
  "every event sequence, initial flags, both modes", "the test uses one event", [TS+"hooks.rs", TS+"async_hooks.rs"])
p("One external context across calls",
  "In the external_context test the context passed to every call accumulates: the count is that of the presses up and down, saturating at 0 and usize::MAX, and the part of the context no handler names is unchanged.",
  "every event sequence, initial context and usize::MAX", "the test uses one sequence", [TS+"external_context.rs"])
p("The generic machine works at every type",
  "The generic machine holds the first value offered since it was last emptied, and a default buffer of SIZE elements, for every type T, SIZE and event history.",
  "every type, size and event history", "a test fixes T and SIZE", [EX+"macro/generics/src/main.rs", TS+"generics.rs"])
p("The receiver delivers in order and at most once under any failures",
  "Whatever writes fail or are abandoned, the receiver of the async i/o example completes a prefix of its two lines, each once and in order; it is Off iff both are written; once a call has returned both are written; if no write fails the first call returns.",
  "every connection behaviour (depending on all earlier attempts), history, mode", "failures at every point", [EX+"macro/async_io/src/main.rs"])
p("The 51-state benchmark follows its ring",
  "After any sequence of events the bench_complex machine, plain or async, is in the state its ring says, and having left S1 never returns there.",
  "every event history", "unbounded histories", [EX+"macro/bench_complex/src/main.rs", EX+"macro/async_bench_complex/src/main.rs"])
p("State-local storage alternates",
  "The machine of the state_local_storage test alternates between Off and On with the constructor's fields, after its initial On with the initial fields.",
  "every number of events, both modes", "the test handles ten events and asserts nothing", [TS+"state_local_storage.rs"])
p("Debug output",
  "{:?} and {:#?} of a machine show its name, its shared storage and its current state, and those of a response or a node which case it is and the state in it, with the text the user's Debug gives and nothing else; a failing writer gets a prefix and the failure is returned; different responses and nodes are shown differently.",
  "every machine, user Debug implementation and writer", "all texts and failure points", ["statig/src/response.rs:29-43", "statig/src/state_or_superstate.rs:12-27", B+"state_machine.rs:468-480,722-734", A+"state_machine.rs:480-492,740-752"])
p("Macro: which accepted blocks compile",
  "If the macro accepts an impl block, whether the generated code passes the compiler's checks of names (every field, argument and variant named exists and is distinct, no argument is borrowed twice) depends on the block alone and is: methods and variants distinct; a superstate's storage is part of that of each node naming it; an action's parameters are the node's storage or the context; no parameter is passed twice. Whether names hide each other is decidable from the source alike.",
  "every impl block, macro arguments and iteration orders", "all source programs", ["macro/src/codegen.rs", "macro/src/lower.rs"])
p("Machines that keep to no rules",
  "For every machine, also one whose superstate() depends on data or whose callbacks overwrite their node with another variant, if going up through superstates ends: every call ends unless user code aborts it; at most one handler per level is asked, and all but the last answer Super; there is a transition iff the last answer asks for one, and it is the hook, exits starting with the leaf, entries ending with the leaf, and the hook with the state the machine ends in. Without such an assumption the stronger properties fail: nodes may be exited that were never entered, and handling an event may not end.",
  "every machine, event, mode and depth", "all machines, however irregular", [B+"inner.rs", B+"state.rs", B+"superstate.rs", A+"state.rs"])
p("The calculator's buttons",
  "The calculator's window has exactly one button for each key (ten digits, point, four operators, =, AC, CE), labelled with it, and clicking it has the machine handle that key; whatever is clicked in whatever frames, the machine handles the clicked keys frame by frame in the order of the layout, each frame shows the display as the earlier frames left it, and the first panic ends the program; clicking a chain of numbers (without a zero right after the minus, the first not just zeros) and operators shows its value.",
  "every sequence of frames and sets of clicks, both calculators", "all click sequences", ["examples/macro/calculator/src/ui.rs", "examples/macro/calculator/src/main.rs", "examples/no_macro/calculator/src/ui.rs"])
p("Saving and resuming",
  "If entry actions change nothing and the user's types round-trip, a program that saves its machine and goes on with what it reads back, at any points, any number of times and in any mix of formats the library reads, is in the same state with the same storage as one that never does, and each call ends alike; only the entries of a restored machine run again. If entry actions do have effects this fails. The machine of the serde test is, saved and restored anywhere, a blinking light.",
  "every machine with quiet entry actions, history and choice of restore points and formats", "all histories and restore points", ["statig/tests/serde.rs", B+"inner.rs:92-239", B+"state_machine.rs"])
p("A superstate that does nothing",
  "If a superstate defers every event, has no entry and exit action, and the dispatch hooks ignore it, then the machine and the machine without it (its children being in the superstate it was in) do the same: for every history of calls, every call ends alike and leaves the same state, storage and context, and the same user code is called with the same values in the same order, but for the calls about that superstate. If hooks notice it, this fails.",
  "every machine whose superstates follow a hierarchy, mode, history of calls", "all machines and histories", [B+"state.rs", B+"superstate.rs", A+"state.rs", B+"inner.rs"])
p("State values are dropped once, and last",
  "Over any history of calls, with caught panics and dropped futures, the state values the library drops together with the machine's state in the end are exactly the state it started with and the targets returned by handlers, each once: none is dropped twice or forgotten, and the machine's state is alive. Within one call the drop comes after all calls into user code; it happens iff a handler asked for a transition; when the transition completes it is the state that was left, after the after-transition hook, so it is still alive while the entry actions run.",
  "every machine, mode, history of calls that do not run out of stack, and every mark that user code leaves with a state value", "all histories and abort points; a leak or a double drop depends on where a panic or a cancellation strikes", [B+"inner.rs", B+"state.rs", B+"superstate.rs", A+"inner.rs", A+"state.rs"])
p("What superstate() may do",
  "A superstate() that changes the state or superstate where no other user code looks (counts its calls, fills a cache) cannot be noticed, however often the library calls it: over any history each call ends alike, with the same calls into user code and the same visible state. If superstate() may panic, a call either does what it would do otherwise or panics after some first part of the calls it would have made; a panic while the machine is initialised leaves it uninitialised, so that the next call initialises it again. A superstate() that is a pure projection is what all other properties assume.",
  "every machine, every superstate() whose effects are invisible to the other user code, history of calls, both modes", "all machines and histories; how often superstate() is called is an implementation detail", [B+"state.rs", B+"superstate.rs", A+"state.rs", A+"superstate.rs", B+"inner.rs", A+"inner.rs"])
p("Common behaviour can be moved to the superstate and back",
  "If states (or superstates) that leave certain events to their superstate are changed to treat those events themselves in the way the superstate does, or the other way round, nothing changes but who is asked: for every history of calls each call ends alike and leaves the same context, the same entry and exit actions run and the same transitions are made, with the same state and storage afterwards. This holds without dispatch hooks, and if a superstate that passes such an event further up does nothing else.",
  "every machine whose superstate chains end, every choice of states, superstates and events, history of calls (panics and dropped futures included), both modes", "all machines, all ways to divide the handling between levels, all histories", [B+"state.rs:handle", B+"superstate.rs:handle", A+"state.rs:handle"])
p("Macro: the order of declarations",
  "Writing the methods (and other items) of the annotated impl block in another order changes nothing: both versions build or neither does, the generated enums, constructors and methods are the same up to order, and the machines do the same: for all events and contexts every call ends alike, calls the same functions with the same values in the same order, and leaves the same state and storage; also, if all handlers name the same event and context types, these are the same.",
  "every impl block, permutation of its items, macro arguments, iteration orders of the hash maps, user functions and history", "all source programs and permutations", ["macro/src/analyze.rs:141-184", "macro/src/lower.rs", "macro/src/codegen.rs"])
p("Macro: values have the declared types",
  "If the types in the annotated impl block fit together (each parameter other than event and context is a reference to something the node keeps under that name and type; what a superstate borrows its children keep with the same type) and the user's methods are well typed, then in every history each state and superstate that user code sees, each target and the machine's state hold only values of the declared types; no method is ever called with a value not of its parameter's type; and the constructor functions build such states from arguments of the parameters' types.",
  "every impl block, macro arguments, meaning of types, user functions and history of events, both modes", "all source programs; an extra or swapped field would show only for particular blocks", ["macro/src/lower.rs", "macro/src/codegen.rs"])
p("What entry actions establish holds while the node is active",
  "Let the user say what should hold of the shared storage always, while a state or superstate is active, and while it is about to be left. If each callback alone, called when these hold, leaves them as they should then be (an entry action may assume it of the enclosing superstates and establishes it for its node; a handler keeps it for the nodes that stay active; exit actions and hooks likewise), then after any history of completed calls it holds of the current state and all superstates around it; and if each callback alone returns when called so, no call ever panics. After a caught panic it may fail.",
  "every machine, hierarchy, such conditions, mode and history of calls, including the client's own careful changes", "all machines, conditions and histories: it is the induction principle users apply informally", [B+"inner.rs", B+"state.rs", B+"superstate.rs", A+"inner.rs", A+"state.rs"])
p("Everything a call does, as a short reference",
  "The behaviour of init and handle, in both modules, is that of a short reference interpreter: ask the leaf and then each superstate, innermost first, until one does not answer Super (hooks around each); for a transition call the hook, exit the levels of the old state that are not common with the target, inside out, replace the state, enter the levels of the new state that are not common with the old one, outside in, call the hook; init enters all levels. Each callback reads its level of the current state and what it writes is written back there at once. For every history of calls, each call ends as the reference says, with the same calls into user code with the same arguments, and the same context, storage and state afterwards, also when callbacks panic or are cancelled; so for every machine the macro generates.",
  "every machine with an acyclic hierarchy whose superstates are views of the state, depth, history of calls (panics and dropped futures included), both modes", "all machines, depths and histories; the code works by nested borrows, recursion and loops that differ between the modules", [B+"state.rs", B+"superstate.rs", B+"inner.rs", B+"state_machine.rs", A+"state.rs", A+"inner.rs", A+"state_machine.rs"])
p("Conditions on state-local and shared storage hold between calls",
  "Let the user say what should hold of the state value (the storage of the state and all its superstates) and the shared storage between calls, before initialisation, after the exit actions of so many levels have run and while the entry actions of so many levels are still to run. If each callback alone, called when its condition holds, leaves the next one (handlers and hooks included), then after any history of completed calls the condition for the time between calls holds; and if each callback alone returns when called so, no call ever panics. So the counter of the README's state-local storage example never underflows.",
  "every machine whose superstates are views of the state, depth, such conditions, mode and history of calls, including the client's own considerate changes; every machine the macro generates", "all machines, conditions, depths and histories: where a value is written between the levels decides what the next callback sees", [B+"inner.rs", B+"state.rs", B+"superstate.rs", A+"inner.rs", A+"state.rs", "README.md:204-222"])
p("What callbacks keep of a state's storage lasts as long as the state",
  "If every handler and action preserves some relation between the old and new storage of the node it is called for (a field never changes, a counter never goes down), then the machine preserves it for the whole time a state is active: over any completed calls the relation leads from the target of the last transition asked for (or the first state) to the state at the end, and when calls panic, from the first state or one of the targets. In a generated machine, a field that a state, its superstates and their actions take as a shared reference or not at all keeps the value the last transition gave it.",
  "every machine whose superstates are views of the state, every such relation, depth, mode, history of init/handle/inner_mut calls, completed or not; every generated machine whose methods pass the borrow checker", "all machines, relations and histories: a stale copy written back, or storage written to the wrong level, shows only with the right nesting and events", [B+"inner.rs", B+"state.rs", B+"superstate.rs", A+"inner.rs", A+"state.rs", "macro/src/codegen.rs", "macro/src/lower.rs"])
p("Implementations that cannot be told apart by their callbacks cannot be told apart by the machine",
  "Take two machines with their own types of states, superstates, storage, events and contexts, and relations between these types such that corresponding callbacks, given related arguments, give related results. Then over any history of related calls (init, handle, inner_mut, state_mut), in either mode, each pair of calls ends in the same way with related contexts, makes corresponding calls of user code in the same order with related arguments, and leaves related machines. So a machine's representation can be changed without its clients noticing.",
  "every two machines (also ones that break the rules of C68), every family of relations, mode and pair of related histories, completed or not", "all pairs of machines, relations and histories: the library must not look at anything of a state but what the callbacks and discriminants show", [B+"inner.rs", B+"state.rs", B+"superstate.rs", A+"inner.rs", A+"state.rs", A+"superstate.rs", "statig/src/blocking/inner.rs"])
p("#[state_machine]: names and the order of methods do not matter",
  "Give the methods of an accepted impl block new names and its parameters and fields new names (also the event and context, by their settings), put the methods into another order, add further methods of any kind or drop ones that are not states, superstates or actions, let the attributes refer to the new names, and let the functions do what they did. If the renamed block is accepted too, and both compile, then the two generated machines cannot be told apart: over any history of corresponding calls each call ends in the same way with the same context, runs corresponding functions with the same arguments in the same order, and leaves the same shared storage and corresponding states with the same contents. In particular neither the declaration order of the generated enums nor the spelling of a name decides anything.",
  "every impl block and renaming and reordering of it, every behaviour of the user's functions, iteration orders of the macro's maps, modes and histories", "all impl blocks, renamings, function bodies and histories: the expansion must treat identifiers uniformly", ["macro/src/lower.rs:lower","macro/src/lower.rs:lower_state","macro/src/lower.rs:lower_superstate","macro/src/lower.rs:lower_action","macro/src/codegen.rs","macro/src/analyze.rs"])
p("A call runs a bounded amount of user code",
  "In a machine whose superstates are nested at most n deep (d = n + 1 is the longest path), one call of init or handle calls the user's handlers, actions and hooks at most 6d + 2 times in all, and at most 5d + 2 times if the machine was already initialised; these bounds are reached, in both modes. During one call `superstate()` is asked at most 3d(d + 1) times on any one state value (and on superstates borrowed from it). No event, state content or behaviour of the callbacks can make a call loop over user code.",
  "every machine of finite nesting, state, event, behaviour of the callbacks (also panics and cancellation), and mode; the bound on superstate() also without a hierarchy", "all machines and depths: a test can count for one machine only", ["statig/src/blocking/state.rs:StateExt","statig/src/blocking/superstate.rs:SuperstateExt","statig/src/awaitable/state.rs:StateExt","statig/src/blocking/inner.rs:Inner","statig/src/blocking/superstate.rs:SuperstateExt::common_ancestor_depth"])
p("Adding methods to an impl block does not disturb the machine",
  "Add methods to an accepted impl block, anywhere: further states, superstates, actions or helpers. If the functions that were there do what they did, and the larger block is accepted and compiles too, then a client cannot tell the new machine from the old one as long as no old function leads to an added state: each call ends in the same way with the same context, runs the same functions on the same values in the same order, and leaves the same shared storage and the same state variant with the same contents, whatever the added functions would do. Read backwards: states, superstates and actions that nothing leads to can be deleted.",
  "every impl block and extension of it, every behaviour of the old and the added functions, iteration orders of the macro's maps, modes and histories", "all impl blocks, additions, function bodies and histories", ["macro/src/lower.rs:lower","macro/src/lower.rs:lower_state","macro/src/lower.rs:lower_superstate","macro/src/codegen.rs","macro/src/analyze.rs:analyze"])
p("Aborted calls unbalance entries and exits by at most one each",
  "Over any history, whatever panics are caught and futures dropped in it, count for each state and superstate how often it was entered and exited. Exits exceed what the entries and being active now account for by at most one for each transition that was aborted in an entry or exit action, and entries exceed it by at most one for each initialisation that was aborted in an action. Aborts elsewhere (handlers, hooks) unbalance nothing. The bounds are reached for any number of aborts.",
  "every well-formed machine, mode, history with any panics and cancellations, and node of the hierarchy", "all histories and points of abort", ["statig/src/blocking/inner.rs:Inner::transition","statig/src/awaitable/inner.rs:Inner::transition","statig/src/blocking/inner.rs:Inner::init_with_context","statig/src/blocking/state_machine.rs:StateMachine::handle_with_context"])
p("From construction to drop",
  "Over the whole life of a machine, from its construction to its drop and with any panics caught and futures dropped on the way, each state value (the initial one and each target a handler returned) is dropped exactly once, none is leaked, and the shared storage is dropped exactly once. The drop comes after all callbacks, drops the shared storage first and then the current state, and calls nothing of the user's. A StateMachine and an UninitializedStateMachine that is initialised live the same life, except that an aborted `init` drops the latter at once.",
  "every machine, mode, history with any panics and cancellations, either front end, and any mark the callbacks keep", "all histories and points of abort; resources are leaked or freed twice only on rare paths", ["statig/src/blocking/inner.rs:Inner","statig/src/awaitable/inner.rs:Inner","statig/src/blocking/state_machine.rs:UninitializedStateMachine::init_with_context","statig/src/blocking/inner.rs:Inner::transition"])
p("Awaitable machines suspend only where the user does",
  "The future of a call on an awaitable machine returns Pending exactly as often as the futures of the callbacks it makes do together: the library adds no suspension points and never polls a finished future again. So if no callback suspends, the call is complete after one poll; and if each callback's future is ready after at most k pending polls, the call is complete after a number of polls bounded by k and the nesting depth.",
  "every machine, all futures of the callbacks (with any bounds on how long they are pending, per node and event), polling schedule and history", "all schedules and all pending patterns of user futures", ["statig/src/awaitable/state.rs:StateExt::handle","statig/src/awaitable/inner.rs:transition","statig/src/awaitable/state_machine.rs:StateMachine::handle_with_context"])
p("Machines on one executor do not disturb each other",
  "Any number of awaitable machines, each driven by its own task and polled in any order by one executor: what becomes of a task depends only on its own turns. At any time, a task that has ended has done what its machine does when it handles the events one after the other with nothing in between, and one that has not has made the first of those calls. If callbacks are pending a bounded number of times, every schedule that gives each task enough turns ends all tasks, with the same results.",
  "every number of machines of any types, events, schedules of polls, worlds seen by the polls, and futures computing the callbacks", "all interleavings", ["statig/src/awaitable/state_machine.rs:StateMachine::handle_with_context","statig/src/awaitable/inner.rs:Inner::handle_with_context"])
p("Machines that use machines",
  "If every callback alone moves the shared storage and the context along some preorder, every call of the machine does, aborted ones included. So a state machine may own another one: if its callbacks use the owned machine through its API only, everything that happens to the owned machine during any history of the owner, panics and cancellations of the owner included, is one history of the owned machine, and what holds of all histories holds of it; for example, its entries and exits are bracketed.",
  "every pair of machines in any modes, use of the owned machine by callbacks, hooks and inner_mut, and history of the owner", "all histories of one machine within all histories of another", ["statig/src/blocking/state_machine.rs:StateMachine::handle_with_context","statig/src/awaitable/state_machine.rs:StateMachine::handle_with_context","statig/src/blocking/inner.rs:Inner","statig/src/awaitable/inner.rs:Inner"])
p("The state diagram",
  "Draw an arrow from a leaf to a leaf if the handler of the first, or of a superstate around it, can answer some event with a transition to the second. Then every call follows at most one arrow, however it ends; the machine is only ever in states reachable in the diagram; nothing is called but callbacks of these and of the superstates around them; a leaf without outgoing arrows is never left. This holds of every machine the macro generates.",
  "every machine, hierarchy, mode, history (panics and cancellations included) without a state_mut that changes the variant", "all histories", ["statig/src/blocking/inner.rs:Inner::handle_with_context","statig/src/blocking/inner.rs:Inner::transition","statig/src/awaitable/inner.rs:Inner::transition","statig/src/blocking/state.rs:StateExt::handle","statig/src/awaitable/state.rs:StateExt::handle"])
p("Events from a queue",
  "In a loop that takes events from a queue and handles them (README.md:507), where callbacks may post further events to the queue and others may come in from outside: events are handled in the order in which they were queued, each exactly once and to completion before the next, and none is lost, whatever panics. If handling an event only posts smaller ones (in any ranking), the loop gets done from every state and queue.",
  "every machine, mode, state, queue, posts by callbacks, arrivals from outside, panics", "all histories", ["README.md:507","statig/src/blocking/state_machine.rs:StateMachine::handle_with_context","statig/src/awaitable/state_machine.rs:StateMachine::handle_with_context"])
p("Goals that events lead to",
  "If, in every state outside a set of goal states, every event of a class makes some handler (of the state or of a superstate around it, with those inside passing the event on or doing the same) ask for a transition to a goal state or to a state of smaller rank, then in any history of calls with such events a goal state is reached after at most one more completed call than the rank of the first state, whatever aborted calls, initializations and changes of storage come in between; if no such event leads out of the goal, the machine is in it from then on.",
  "every machine, hierarchy, mode, ranking, goal, class of events, history, generated machines included", "liveness over all histories", ["statig/src/blocking/inner.rs:Inner::handle_with_context","statig/src/awaitable/inner.rs:Inner::handle_with_context","statig/src/blocking/state.rs:StateExt::handle","statig/src/blocking/superstate.rs:SuperstateExt::handle"])
p("Accounts, journals and monitors",
  "Whatever account of the calls the callbacks keep in shared storage and context, in any sense that adds up call by call, is right after every call and over every history, however calls end. In particular hooks that keep a journal change nothing else, and the journal is exactly what the sequence of hook calls makes of it; a monitor in after_transition that is told the first state always knows the current one as long as no call is aborted (after an aborted call it may not).",
  "every machine (without any assumption for accounts and journals), mode, stack, history, aborted calls included", "all callbacks, all histories", ["README.md:Introspection","statig/src/blocking/inner.rs:Inner::transition","statig/src/awaitable/inner.rs:Inner::transition","statig/src/blocking/into_state_machine.rs:IntoStateMachine"])
p("What a future owns is dropped with it",
  "The future of a handle call owns the target of a transition until the machine has swapped it in and the old state after that: whatever is polled how often, and wherever the client drops the future, every state value is dropped exactly once, after the last call into user code; dropped before the first entry action it is the target that goes, later the state that was left. A future that was never polled, and one that initializes a machine, owns no state.",
  "every awaitable machine, all user futures, all sequences of polls and points of dropping, all sessions of such calls", "all schedules, cancellation points and histories", ["statig/src/awaitable/inner.rs:Inner::transition","statig/src/awaitable/inner.rs:Inner::handle_with_context","statig/src/awaitable/state.rs:StateExt::handle","statig/src/awaitable/state_machine.rs:StateMachine::handle_with_context"])
p("Awaitable typestate machines, polled and dropped",
  "An awaitable machine built in two steps does the same, poll by poll, as the one-step machine: handling on an initialized machine makes the same calls and drops the same states, and initializing makes the same calls; but the future of init owns the machine, so an initialized machine exists afterwards only if init completed, and if it panicked or its future was dropped, polled or not, storage and then state are dropped as the entry actions have left them. Over the whole life, with any polls and drops, the storage is dropped exactly once and so is every state it held first or was given as a target.",
  "every awaitable machine, all user futures, all sequences of polls and points of dropping for init and for every call, all writes through inner_mut and state_mut", "all schedules, cancellation points and histories", ["statig/src/awaitable/state_machine.rs:UninitializedStateMachine::init_with_context","statig/src/awaitable/state_machine.rs:InitializedStateMachine::handle_with_context","statig/src/blocking/inner.rs:Inner"])
p("Macro: generated awaitable machines, poll by poll",
  "A machine generated by #[state_machine] from an impl block with async fns does not depend on how often its async fns and hooks have to wait: a call that completes does what it does with atomic bodies. At every poll, and when the call is dropped, each async fn has been called with exactly what its parameters name, and what it has written is in the fields, shared storage and context those parameters name. A dropped call leaves the machine in a state of the variant it was in or, if the target had already been entered, of the variant of the target. Methods that are not async never make a call wait, and if each async fn and hook waits at most k times the whole call waits a bounded number of times.",
  "every impl block the macro accepts in the awaitable mode, all bodies and futures, events, polls and points of dropping", "all inputs of the macro and all schedules and cancellation points", ["macro/src/codegen.rs:codegen_state_impl_state","macro/src/codegen.rs:codegen_superstate_impl_superstate","macro/src/codegen.rs:codegen_state_machine_impl","macro/src/lower.rs:lower_state"])
p("Macro: async or not",
  "Making functions of an impl block async, or no longer async, does not change whether the macro and the compiler accept it. If the machine is awaitable before and after (or blocking before and after), clients cannot tell the two machines apart. If this turns a blocking machine into an awaitable one and no hooks are configured, each machine in its own mode gives the same outcomes and contexts, makes the same calls of handlers and actions in the same order, and ends in the same state with the same storage; a call of the awaitable machine that completes, polled however often, does what the same call of the blocking machine does at once.",
  "every impl block, every choice of async functions, all bodies, histories of API calls, futures and polls", "all inputs of the macro, all histories, all schedules", ["macro/src/analyze.rs:analyze_state","macro/src/lower.rs:lower","macro/src/codegen.rs:codegen","statig/src/awaitable/state.rs:handle","statig/src/blocking/state.rs:handle"])
p("Macro: a superstate that does nothing can be taken out",
  "If the method of a superstate of an impl block always returns Super and changes none of its arguments, has no entry and no exit action, and the dispatch hooks do nothing when shown it, then the superstate can be deleted, making its children refer to its own superstate (or to none): if the new impl block is accepted as well, clients cannot tell the two machines apart; the same user code runs with the same values in the same order, except for the calls about the deleted superstate.",
  "every impl block with such a superstate anywhere in an acyclic hierarchy of any depth, all bodies, both modes, every history of API calls", "all hierarchies, bodies and histories", ["macro/src/lower.rs:lower","macro/src/codegen.rs:codegen_state_impl_state","statig/src/blocking/superstate.rs","statig/src/awaitable/superstate.rs","statig/src/blocking/inner.rs"])
p("Awaitable implementations that cannot be told apart, poll by poll",
  "Take two awaitable machines with their own types, and relations between these types such that the futures of their callbacks correspond: polled equally often on related data, both are pending, both panic or both are ready with related answers, having done related things to what they borrow. Then the futures of their calls correspond in the same way: polled any number of times, both calls are pending or both are ready at the same poll with the same outcome, have called corresponding user code with related arguments, and leave related machines and contexts, also if they are dropped there or were never polled; so over any history of such calls. If only what the callbacks compute corresponds, not when they are ready, the calls that complete correspond.",
  "every two machines and relations, all futures (of any pacing), schedules, points of dropping and histories of calls", "all machines, schedules and cancellation points", ["statig/src/awaitable/inner.rs","statig/src/awaitable/state.rs","statig/src/awaitable/superstate.rs","statig/src/awaitable/state_machine.rs"])
p("Macro: further methods do not disturb an awaitable machine, poll by poll",
  "Add methods (states, superstates, actions, helpers, async or not) to an impl block with async fns, or reorder its methods. If the functions that were there do what they did, the async ones poll by poll, and the new block is accepted too, then clients cannot tell the two awaitable machines apart: over any history of calls, each polled any number of times and perhaps dropped, corresponding calls are pending, panic or are ready at the same poll with the same outcome and context, having run the same functions on the same values, and leave the same storage and a state of the same variant with the same contents.",
  "every impl block the macro accepts and every extension or reordering of it, all bodies and futures, histories, schedules and points of dropping", "all inputs of the macro, schedules and cancellation points", ["macro/src/lower.rs:lower","macro/src/codegen.rs:codegen_state_impl_state","macro/src/codegen.rs:codegen_superstate_impl_superstate","statig/src/awaitable/inner.rs"])
p("Macro: names do not matter to an awaitable machine, poll by poll",
  "Rename the methods and the parameters and fields of an impl block with async fns, and reorder the methods, leaving async what is async. If the functions do under the new names what they did under the old ones, the async ones poll by poll, and the new block is accepted too, then over any history of calls, each polled any number of times and perhaps dropped, corresponding calls are pending, panic or are ready at the same poll with the same outcome and context, having run corresponding functions, and leave the same storage and corresponding states with the same contents.",
  "every impl block the macro accepts and every renaming and reordering of it, all bodies and futures, histories, schedules and points of dropping", "all inputs of the macro, schedules and cancellation points", ["macro/src/lower.rs:lower","macro/src/codegen.rs:codegen_state_impl_state","macro/src/codegen.rs:codegen_superstate_impl_superstate","statig/src/awaitable/inner.rs"])
p("Macro: an async fn that does not wait is like a plain method, poll by poll",
  "Make other methods of an impl block async (or no longer async) such that the macro generates an awaitable machine for both. If each method gives a future that does the same, a method that is not async counting as a future that is ready when first polled, then clients cannot tell the two machines apart: over any history of calls, each polled any number of times and perhaps dropped, corresponding calls are pending, panic or are ready at the same poll with the same outcome and context, having run the same functions, and leave the same storage and state.",
  "every impl block the macro accepts and every choice of async functions, all bodies and futures, histories, schedules and points of dropping", "all inputs of the macro, schedules and cancellation points", ["macro/src/analyze.rs:analyze","macro/src/lower.rs:lower","macro/src/codegen.rs:codegen_state_impl_state","statig/src/awaitable/inner.rs"])
p("Edits that cannot be noticed can be made one after the other",
  "Being impossible to tell apart by callbacks is reflexive, symmetric and transitive, at once and poll by poll: after any number of edits of an implementation that each cannot be noticed (such as renaming, reordering and adding methods, or changing the representation of states, storage, events or context), or that take such an edit back, the machine cannot be told apart from the one at the start, over any history of calls in either mode.",
  "every machine, every chain of edits of any length, all relations between the types, all histories; for the polled version all futures", "all machines and chains of edits", ["statig/src/blocking/inner.rs","statig/src/awaitable/inner.rs","statig/src/blocking/state.rs","statig/src/awaitable/state.rs"])
p("A machine on an executor may be replaced by one that cannot be told apart from it",
  "When machines of the async mode run as tasks of an executor, a task whose machine, storage, context, events and callbacks' futures are replaced by ones that cannot be told apart from them behaves the same under every order of polls, whatever the other tasks are and whatever replaces them: at any time both have ended in the same way or neither has, both have called the same user code in the same order with corresponding arguments, and their machines and contexts correspond.",
  "every list of tasks and replacements, every schedule of polls of any length, every task of the list, all machines, futures and relations between them", "all schedules, tasks and machines", ["statig/src/awaitable/inner.rs","statig/src/awaitable/state_machine.rs"])
p("What every poll of every callback keeps holds wherever a future is dropped",
  "A condition on the shared storage and the context that every poll of every async callback keeps (not only the callback as a whole) holds after every call of init and handle of an awaitable machine for which it held before, whether the call's future is polled to its end, dropped after any number of polls or panics; hence over every history of such calls, and at any time for a machine that runs as a task on an executor, whatever the order of polls; the same for the machines of the typestate API. In particular what no poll of a callback undoes (a log that only grows) no call undoes. A condition that is kept only by callbacks that come to their end may be broken by dropping a future.",
  "every machine, condition, futures of callbacks, history of calls with any number of polls each, schedule of an executor", "all histories, drop points and schedules", ["statig/src/awaitable/inner.rs","statig/src/awaitable/state.rs","statig/src/awaitable/state_machine.rs"])
with open('/verif/properties.jsonl','w') as f:
    for x in P: f.write(json.dumps(x)+"\n")
print(len(P))
