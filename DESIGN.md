# Formal model of statig in Rocq (Coq 8.16.1)

## 1. What is modelled, and how

The subject is the library crate `statig` (blocking and awaitable mode) and the
procedural macro `statig_macro`. User code (handlers, actions, hooks) is *not*
modelled concretely: a `machine` record (`Machine.v`) bundles arbitrary types and
arbitrary callback functions, and every theorem quantifies over all machines.

* **Memory.** A Rust function taking `&mut self, &mut M, &mut Context` is a Gallina
  function returning the new values (`comp` in `Machine.v`). A borrowed
  `Superstate<'_>` returned by `superstate(&mut self)` is modelled in the usual
  functional style for mutable borrows: a forward function (`s_super`/`u_super`: the
  view) and a backward function (`s_put`/`u_put`: the value of the borrowed-from
  object when the borrow ends). `via` runs a computation on the view and writes back
  on *every* outcome, so writes made before a panic or a dropped future survive.
* **Control.** `outcome` is `Ret`, or `Abort` with a reason: a user callback panicked,
  the future was dropped while that callback was pending, library arithmetic
  underflowed, or recursion/looping exceeded the bound `stack`. A user callback yields
  a `reply`: returns, panics, or is cancelled, together with whatever it had written
  until then. Recursion over superstates (`depth`, `handle`, `common_ancestor_depth`)
  is on explicit fuel `stack`; theorems assume the hierarchy is acyclic with height
  bounded by it and C17 proves that more fuel never changes anything.
* **Observation.** Each primitive that calls user code also logs the call with the
  values passed (`obs`). Nothing in the model reads the log.
* **Hidden state.** I/O, interior mutability, globals: a callback is a function of its
  arguments, but `Shared` is an arbitrary type that every callback gets, so outside
  state may be taken to be part of it.

| file | contents |
|---|---|
| `Machine.v` | `response.rs`, `state_or_superstate.rs` (types), the traits `IntoStateMachine`, `State`, `Superstate`, effects |
| `Blocking.v` | `blocking/{state,superstate,inner}.rs` |
| `Awaitable.v` | `awaitable/{state,superstate,inner}.rs`, callbacks atomic |
| `Api.v` | `{blocking,awaitable}/state_machine.rs`; histories of calls by a client |
| `Poll.v` | the awaitable mode again, with explicit futures, polls and drops |
| `Equality.v`, `Serde.v` | `PartialEq`/`Eq` and `serde` implementations |
| `Spec.v` | specification for the runtime: trees, paths, stacks of active nodes; no library code |
| `Sim.v` | machines with related callbacks run in lockstep (definitions and proofs) |
| `TripleProofs` .. `PollProofs` | lemmas about the runtime |
| `Examples.v` | concrete machines used as witnesses |
| `MacroSyntax.v` | the part of `syn`'s syntax tree the macro looks at; hash maps with arbitrary iteration order |
| `MacroAnalyze.v`, `MacroLower.v`, `MacroVisit.v`, `MacroGen.v` | `macro/src/{analyze,lower,visitors/*,codegen,lib}.rs` |
| `MacroSem.v` | what the generated code does (a `machine`), and the rustc checks it needs (`compiles`) |
| `MacroSpec.v`, `MacroOrderSpec.v`, `MacroAcceptSpec.v`, `MacroScopeSpec.v`, `MacroNameSpec.v` | specification for the macro in terms of the source it is applied to |
| `MacroBasics` .. `MacroPassProofs` | lemmas about the macro |
| `MacroExamples.v` | concrete impl blocks used as witnesses |
| `MacroSource.v` | function bodies of an annotated block, independent of the variant order |
| `RepoExamples.v`, `RepoSpec.v` | the examples of `/repo/examples`, and what they are supposed to do |
| `RepoTests.v`, `RepoTestSpec.v` | the machines of `/repo/statig/tests` and the remaining examples, and what they are supposed to do |
| `MacroSourceProofs`, `Repo*Proofs`, `RepoCalc*`, `RepoAgree`, `RepoRingProofs`, `RepoTestUse` | lemmas about the examples |
| `DebugFmt.v`, `DebugSpec.v`, `DebugProofs.v` | the `Debug` implementations and the builders of `core::fmt` they use |
| `AnySpec.v`, `AnyProofs.v`, `AnyExamples.v` | machines of which only a rank is assumed; counterexamples |
| `RepoUi.v`, `RepoUiSpec.v`, `RepoUiProofs.v` | the calculators' window |
| `IdleSpec.v`, `IdleProofs.v` | a superstate that does nothing, and the machine without it |
| `Drops.v`, `DropSpec.v` | where the functions of `inner.rs`, `state.rs`, `superstate.rs` drop state values; reading such a log |
| `SuperCalls.v`, `SuperSpec.v` | the library with each call of `superstate()` as a call into user code; when it cannot be noticed |
| `PullSpec.v` | a machine with behaviour moved from superstates to what is in them |
| `MacroShuffleSpec.v`, `MacroShuffleProofs.v`, `Props24.v` | one impl block with its items in another order (C75) |
| `KindSim.v`, `MacroTypedSpec.v`, `MacroTypedProofs.v`, `Props25.v` | the declared types of the storage, and that they are respected (C76) |
| `ActiveSpec.v`, `ActiveProofs.v`, `Props26.v` | what holds while a node is active (C77) |
| `RefSpec.v`, `RefProofs.v`, `Props27.v` | a reference interpreter and that the library is equal to it (C78) |
| `LocalSpec.v`, `LocalProofs.v`, `Props28.v` | conditions on state-local and shared storage, level by level (C79) |
| `ConstSpec.v`, `ConstProofs.v`, `ConstMacroProofs.v`, `Props29.v` | what callbacks keep of a state's storage; read-only fields (C80) |
| `AgreeSpec.v`, `AgreeProofs.v`, `Props30.v` | representation independence over histories (C81) |
| `RenameSpec.v`, `RenameProofs.v`, `RenameSim.v`, `RenameMake.v`, `Props31.v` | names do not matter to the generated machine (C82) |
| `WorkSpec.v`, `WorkProofs.v`, `WorkCalls.v`, `WorkTight.v`, `Props32.v` | bounds on the number of calls of user code (C83) |
| `AddSpec.v`, `SimIff.v`, `AddProofs.v`, `Props33.v` | adding methods to an impl block (C84) |
| `BalanceSpec.v`, `BalanceProofs.v`, `Props34.v` | entries and exits counted over histories with aborts (C85) |
| `Life.v`, `LifeSpec.v`, `LifeProofs.v`, `Props35.v` | the whole life of a machine, with its drop (C86) |
| `PaceSpec.v`, `PaceProofs.v`, `Props36.v` | how many polls a call takes (C87) |
| `Tasks.v`, `TaskSpec.v`, `TaskProofs.v`, `Props37.v` | several machines on one executor (C88) |
| `NestSpec.v`, `NestProofs.v`, `Props38.v` | machines that own machines (C89) |
| `DiagramSpec.v`, `DiagramProofs.v`, `Props39.v` | reachability in the state diagram (C90) |
| `QueueSpec.v`, `QueueProofs.v`, `Props40.v` | the event loop (C91) |
| `ProgressSpec.v`, `ProgressProofs.v`, `Props41.v` | goals that events lead to (C92) |
| `AccountSpec.v`, `AccountProofs.v`, `JournalProofs.v`, `Props42.v` | accounts of the calls kept in storage, journals, monitors (C93) |
| `DropPoll.v`, `DropPollSpec.v`, `DropPollProofs.v`, `Props43.v` | futures with the state values they own (awaitable/state.rs:103-154, awaitable/inner.rs:19-63, awaitable/state_machine.rs:62-113), C94 |
| `TypestatePoll.v`, `TypestatePollSpec.v`, `TypestatePollProofs.v`, `Props44.v` | the awaitable typestate machines at poll level with ownership (awaitable/state_machine.rs:338-343, 427-429, 463-465, 599-645), C95 |
| `MacroPoll.v`, `MacroPollSpec.v`, `MacroPollProofs.v`, `Props45.v` | the generated awaitable `call_*` code and hooks at poll level (macro/src/codegen.rs:60-154, 295-345, 453-502, macro/src/lower.rs:522-529, 582-589, 633-640), C96 |
| `AsyncSpec.v`, `AsyncProofs.v`, `Props46.v` | two impl blocks that differ in which functions are `async` (C97) |
| `RegroupSpec.v`, `RegroupProofs.v`, `Props47.v` | an impl block from which an idle superstate is taken out (C98) |
| `PollSimSpec.v`, `PollSimProofs.v`, `Props48.v` | awaitable implementations that cannot be told apart, poll by poll (C99) |
| `AddPollSpec.v`, `AddPollProofs.v`, `Props49.v` | methods added to an impl block with `async fn`s, poll by poll (C100) |
| `RenamePollSpec.v`, `RenamePollProofs.v`, `Props50.v` | an impl block with `async fn`s renamed, poll by poll (C101) |
| `AsyncPollSpec.v`, `AsyncPollProofs.v`, `Props51.v` | which functions are `async`, poll by poll (C102) |
| `EquivSpec.v`, `EquivProofs.v`, `EquivPollProofs.v`, `Props52.v` | being impossible to tell apart is an equivalence (C103) |
| `Props53.v` | replacing the machines of tasks on an executor (C104) |
| `PollInvSpec.v`, `PollInvProofs.v`, `Props54.v` | conditions that every poll keeps (C105) |
| `SaveSpec.v`, `SaveProofs.v`, `RepoSave.v`, `RepoSaveProofs.v` | programs that save and restore; the machine of the serde test |
| `Props1.v` .. | the property theorems, `Print Assumptions`, and a concrete case for each |

## 2. Plan per property

Blocking/awaitable variants of a theorem are both proved unless said otherwise.

* C01, C02: shape of the trace of `handle` as a function of the ancestor list;
  induction on the ancestor list.
* C03: `Spec.v` says: root paths of source and target are `common ++ xs`, `common ++ ys`
  with different heads; the trace is exits of `rev xs`, entries of `ys`. Proof:
  `common_ancestor_depth` computes `length common`; `exit`/`enter` with k levels run the
  first k of the chain.
* C04: any push/pop sequence between the two stacks has at least that many moves
  (induction over move sequences with a potential function).
* C05, C13: corollaries of the trace theorem. C11: refuted for blocking by a witness,
  proved for awaitable. C12 proved for both.
* C06: final state reachable from target by entry-action writes (reflexive-transitive
  closure of a separately defined write relation); source likewise by exit actions.
* C07, C08, C42: invariant over `list op`, stack replay in `Spec.v`.
* C09, C10, C22, C27: equational, induction over histories.
* C14: characterisation of the dispatch trace by a small grammar.
* C15: `enter`, `exit`, `handle` of both modes are shown equal to one flat sequential
  specification under the borrow (lens) laws. Equality including hooks is refuted.
* C16: no hypotheses on the hierarchy beyond termination. C17: fuel monotonicity and
  sufficiency; divergence for cyclic hierarchies.
* C18, C19: case analysis on abort point. C20: refuted by witnesses; C18/C19 say what
  holds instead.
* C21, C28: refinement to the flat sequential specification.
* C23-C25: serde data model (maps of fields / sequences). C26: laws; `Eq for
  StateMachine` without `Eq` bounds refuted.
* C29-C39: the macro as functions from a syntax tree to match arms, with an interpreter
  for the generated arms giving a `machine`. C32, C34 (hooks), C35 (index formats), C36,
  C37, C38 are expected to be partly refuted; the true part is proved.
* C40, C41: resumption semantics; refinement to the atomic model.
* C43: instance.
* C45, C46, C47: as C29-C39.
* C48, C49: every stage of the macro is shown to succeed exactly if its part of `accepted`
  (`MacroAcceptSpec.v`) holds, and to panic only if a `panic_cause` is present. C49 is
  expected to be refuted as stated. C50: relation between items in and out.
* C51: C21 with all callbacks but handlers erased. C52: lemmas behind C03.

* C53: the examples as code (`RepoExamples.v`): the ones by hand as machines, the ones with the
  macro as annotated impl blocks and bodies (`MacroSource.v`), run through the modelled macro.
  A similarity for one iteration order, by cases; any other order by C35; then histories by
  the simulation of `Sim.v`. C54, C55: an invariant between example and specification
  (`RepoSpec.v`). C56-C58: the calculator as a function of state, display and key
  (`RepoCalcUse.v`), then induction over keys; `f32` is abstract.

* C59-C65: the machines of the tests and remaining examples as code (`RepoTests.v`); the
  generated ones are similar to ones by hand (`Sim.v`), and those follow `RepoTestSpec.v` by
  induction over events. The io of C63 is an oracle over all earlier attempts.
* C66: `fmt` as a tree of writes and replies; the text by induction over it, and through the
  indenting adapter of `core::fmt`; then any writer by induction.
* C67: `compiles` and `hygienic` are about the generated code; each of their conditions is
  traced back through `lower` to the method it comes from.
* C68: weakest-precondition style rules over the model's monad, so that neither `follows` nor
  `stable` is needed; the assumptions of the other properties are shown necessary by machines that
  break one each.
* C69: a frame is a set of clicked buttons; induction over buttons and frames, then C10 and C57.
* C70: init with quiet entries changes nothing (induction over levels); then induction over what the
  program does, with C23 for each restore.
* C71: simulation between the computations of the two machines, with the log entries about the superstate
  erased; the numbers of levels to exit and to enter are related by filtering the paths.
* C72: the functions that own a state value are modelled again with drops in the log (`Drops.v`); erasing the
  drops gives Api.v back; a conservation argument over the code (what it is given to own, what its
  result owns) counts the drops.
* C73: the functions that call `superstate()` are modelled again with the calls (`SuperCalls.v`); a simulation
  from there to Blocking.v/Awaitable.v that may stop in a panic; depths and paths only read.
* C74: without hooks both modes ask the handlers one after the other (`asks`); induction on the rank for that; a
  lockstep argument for machines that differ in their handlers only (`PullProofs.v`).
* C75: what `analyze` adds for one method does not depend on what is in the maps already, so with distinct names the
  maps are permutations of each other; `lower` on permuted maps as for C35; then `same_code` as for C35.
* C76: a simulation of a program with one that agrees with it on well-typed calls only, the relation being equality
  of well-typed values (`KindSim.v`: as `Sim.v`, but a view is put back only where it was taken from).
* C77: a program logic whose assertions are lists of active nodes (`leads`), through `enter`, `exit`, the dispatch
  and `transition` of both modes, by induction on chains of superstates.
* C78: `RefSpec.v` is an executable reference working on numbered levels of the state. Going up one borrow is shown to be working one level higher (`up_walk_out`, `up_ask_up`, `up_nested`: generic in where one starts), from the laws of borrows; then equality of complete results by induction over the chain of superstates.
* C79: `LocalSpec.v` gives the proof obligations per callback and level; proved over the reference interpreter of C78 (a small triple logic, induction over the walks) and carried over by `exec_ref`. The README's counter (lines 204 to 222) is the example, for all event sequences.
* C80: `ConstSpec.v` says what it means for every callback to preserve a relation on storage; proved over the reference interpreter of C78 (each walk and the ask loop preserve it, a transition restarts it at its target) and by induction on the history. For generated machines the relation is "same variant, same value of the field", derived from C29 and C30 and from what the borrow checker guarantees of `&T` parameters (`borrow_checked`, a hypothesis about the user's bodies, met in the example).
* C81: the simulation of `Sim.v`/`KindSim.v` (every computation of the model takes related arguments to related results) extended to all operations of a client and, by induction, to histories.
* C82: scoping, calls, views and write-backs of the generated code commute with a renaming of fields; paired methods give the simulation of C81; functions for the renamed block are built by carrying values over.
* C83: a program logic bounding calls, numbers shown and results of each library function over a machine whose superstate() counts; transported to the plain machine by C73. The bounds on calls are the best possible (C83_reached: a family of machines of every depth).
* C84: the identity renaming of C82 with further methods; values of the same variant with the same contents are exactly the twins of C82.
* C85: per call, from the ways a transition or initialization can be cut short (TransitionProofs.v); no node occurs twice in a path or route; induction over histories.
* C86: C72 over the history, then the drop glue; the storage's label is kept by every function of the library (a compositional invariant); the typestate life is a run of the lazy machine.
* C87: each callback of the atomic machine of C40 uses up as many polls as its future is pending; a compositional invariant sums them over the log; completion from C83.
* C88: a pool of tasks steps componentwise; a task's turns are an execution in the sense of C40; a session of events is a bind of calls; completion from C87.
* C89: preorders are closed under the combinators of Machine.v; being linked by a history of the owned machine is a preorder.
* C90: a thread of callbacks (C21) keeps the variant and stays within its path; the target of C21's second case is an answer in the log.
* C91: appending to the queue is a preorder (C89); completion by induction on the rank, one generation of events at a time.
* C92: C01 and C21 say which handlers are asked and with what they answer, so a completed call follows the event; then induction over the history with the rank.
* C93: as C89, with the relation indexed by the log; journals by C81 and that; the monitor from C12 and C13.
* C94: futures with a list of owned states; forgetting the list gives Poll.v, running them with atomic callbacks gives Drops.v (both by combinators), so C72 and C41 apply; sessions by induction.
* C95: the future of init as a coinductive value owning an Inner; run against the one of StateMachine by induction on the polls; lives by C94's accounting and a frame lemma for the storage.
* C96: the generated `async move { match self { .. } }` blocks as futures of Poll.v whose arguments are borrowed from the store; a poll-level run equals an atomic run with bodies that stop where the polls stop, so C29, C31, C40, C41 and C87 apply.
* C97: `async` is not looked at by acceptance (C48) and scoping (C67); the two machines are similar in the sense of C81 (by C82's simulation with the identity renaming); across modes by C15 and C31; polled by C96.
* C98: the generated machine makes the superstate idle in the sense of C71 (its handler writes back what it read); the machine without it is kindred (C81) to the one generated from the new block, because what is written through two views is what is written through one.
* C99: by C40 a polled call is an atomic call of the machine whose shared storage also holds the polls still to come; if the futures of two machines correspond, these two machines are kindred (C81) for the relation that also relates the polls still to come.
* C100: with any given polls the generated futures answer like the atomic callbacks for bodies that are given these polls (C96), so by C84 the futures of the two blocks answer alike for all polls; from this follows that they are ready at the same poll, and C99 applies.
* C101: like C100, with C82 in place of C84.
* C102: like C100, with C97 in place of C84; the hooks of an awaitable machine are futures or nothing, so the atomic hooks do not matter.
* C103: the conditions of C81 and C99 hold for equality, and are kept by taking converses and composing relations; then C81 applies to the composed relation.
* C104: a task is its session driven over its turns (C88); sessions of similar machines correspond by induction on the events, from the handling of one event (C99).
* C105: every future of the library keeps the condition, by composition of `drive` over `await`s and borrows (induction over the loops of dispatch, entry and exit); histories and tasks (C88) by induction. Two accounts are the example, with a counterexample for a transfer in two polls.

## 3. Trusted base

* Coq's kernel (8.16.1). No axioms are added, no kernel check is switched off.
* That the definitions in the model files say what the Rust source says. Each carries the
  lines it models; the code was read, not run.
* That `Spec.v`, `MacroSpec.v` and the definitions in `Api.v`/`Sim.v` used in statements
  say what the English property says.
* For the macro: that `MacroSem.v` says what rustc makes of the generated code. Methods,
  parameters and fields are matched by name; struct patterns bind references; a superstate
  view is a set of reborrowed fields. `compiles` lists the compiler's checks the theorems
  rely on. rustc rejects more (types, borrows), which only shrinks the set of programs.

## 4. Not modelled

* Type checking and borrow checking by rustc (beyond `compiles`, which C67 characterises on the source), and with it whether
  accepted macro output compiles. Known cases where it does not: awaitable machines whose
  superstates hold `&mut` fields and have a superstate; a non-async hook in an awaitable
  machine; a generic parameter used only in `&'a mut T`.
* The `unsafe transmute` in `same_state` (it changes a lifetime; taken to be the identity),
  the bevy integration, documentation, `no_std`/allocation.
* Wrap-around of `usize` depths (depths are `nat`); stack overflow other than by the bound
  `stack`; in release builds the underflow of C16 would wrap, but C16 shows it never happens.
* `superstate()` implementations whose changes of the state other user code can see (invisible changes
  and panics are C73), and callbacks that keep references across calls (ruled out by the borrow checker).
* What destructors do (which state values are dropped and when is C72; the shared storage and the
  contexts are borrowed throughout).
* In the macro: attributes other than those it looks at, spans and error texts, non-ASCII
  identifiers (`upper`), token-level printing, and `quote!`'s hygiene (all identifiers are
  `call_site`, so names are compared as strings). `syn` parsing is outside: string literals
  come with the results of parsing them as identifier, expression, path, visibility, field.
* In the examples: what is printed; `f32` arithmetic and parsing (C56 states what it assumes).
  The executor and the channels of the async examples (each call of `handle` is one step).
* `StateExt::common_ancestor_depth` is modelled (C52) but unused by the library.

## 5. Print Assumptions

Every theorem in `Props*.v` is followed by `Print Assumptions`; each prints
`Closed under the global context`: no axiom, not even one of the standard library, is used.
(`vcheck` lists seven constants of `Coq.ssr.ssrunder`. They are declared in a module type of
the standard library that is loaded with `Lia`; no theorem depends on them.)

## 6. Findings

Where the property, as a user would state it, is false of the code, the refutation is proved
and the strongest true version as well:

* C11: blocking `before_transition` receives `(target, source)`.
* C14/C15: in blocking mode the dispatch hooks of ancestors nest, in awaitable mode they
  are sequential; so the modes differ if hooks write.
* C20: a panic or a dropped future inside an action leaves entry and exit actions unpaired.
* C26: `StateMachine` implements `Eq` without asking for it of the user's types.
* C32: `a_1` and `a1` give the same variant (rejected later by rustc).
* C33: a second `#[state]` attribute on a handler makes the macro forget its `#[default]`s.
* C34: an async hook in a machine without async handlers is called but never polled.
* C35: discriminants, hence data serialized by variant number, depend on the hash order.
* C36: cyclic superstates are accepted; `init` never returns.
* C37: unknown arguments of `#[state]`, among them the documented `name`, are ignored.
* C38: the lifetime visitor compares with `'_` where syn has `_`; `'static` gets renamed.
* C39: a context that only actions take is not found.
* C44: formats that key struct fields by index or bytes cannot be read back.
* C47: generics used only by `local_storage`, and lifetimes with bounds, are not declared.
* C49: the macro panics (instead of a diagnostic) on an impl for something other than a path,
  on a where clause about something other than a path, on a handler whose name gives no
  identifier (`self_`), on `&x` patterns in handlers and on any pattern in actions.
* C48: of several `state(..)` (`superstate(..)`) arguments only the last is validated.
* C50: `#[default]` on parameters of superstate handlers and actions is left in the code,
  which rustc then rejects.
* C53: the calculators show `-0` and `- 0` after a leading minus.
* C55: `a` is true from the start in the barrier example.
* C56: `0 =` panics, and so do `5 CE =`, `5 CE . =` and, by hand, `- =`.
* C57: a zero right after the minus drops the minus (`- 0 . 5` is read as 0.5, and as a later number `- 0 5` as 5); `0 =` panics, C56. Other numbers may start with zeros.
* C58: `AC` after an operator and a minus only takes back the minus.
* C29: a field called `shared_storage` hides the machine's storage in the generated code.
* C66: `UninitializedStateMachine` is shown as `UnInitializedStateMachine`.
* C72: during a transition the state that was left stays alive until after the entry actions and the
  `after_transition` hook; a resource held by a state (a lock, a port) is not free yet when the next
  state's entry action runs.

## 7. Testing the theorems

`seeded/LOG.jsonl`: one line per seeded bug. The model is edited in a scratch copy and
rebuilt; a proof that no longer checks is replaced (there) by `Admitted`, and
`Print Assumptions` then tells which theorems depended on it. `theorems_failed` lists those
and the theorems that failed themselves. Controls (edits that change nothing observable) are
marked as such.
