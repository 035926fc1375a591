(** Props14.v — C59 to C64: the machines of the library's own tests and of the remaining
    examples, for every history.  Theorems only. *)

From Coq Require Import String Ascii List Bool Arith Lia.
From Verif Require Import MacroSyntax MacroVisit MacroAnalyze MacroLower MacroGen MacroSem MacroSpec MacroOrderSpec MacroSource MacroExamples.
From Verif Require Import Machine Blocking Api Spec Sim RepoExamples RepoSpec RepoTests RepoTestSpec.
From Verif Require RepoTestUse.
Import ListNotations.
Open Scope string_scope.
Open Scope list_scope.

(** C59.  The machine of the transition tests.  Written by hand, whatever was on the path before. *)
Theorem C59_by_hand :
  forall (stack : nat) (md : mode) (path : list foo_step) (e : foo_event) (evs : list foo_event), 4 <= stack ->
    let r := sm_handles stack md (new_state_machine foo path) (no_context (e :: evs)) in
    sm_state (fst r) = snd (foo_walks S11 (e :: evs)) /\
    sm_shared (fst r) = path ++ foo_start ++ fst (foo_walks S11 (e :: evs)) /\ completed (snd r).
Proof. intros stack md path e evs ST. exact (@RepoTestUse.foo_new stack md path e evs ST). Qed.
Print Assumptions C59_by_hand.
(** Generated, from the plain and from the async functions. *)
Theorem C59_macro :
  forall item, item = foo_impl \/ item = async_foo_impl ->
  forall o, exists g first,
    expand o foo_args item = Done g /\ compiles g /\ built foo_source g (Built "s11" []) = Some first /\
    forall (stack : nat) (md : mode) (e : foo_event) (evs : list foo_event), 4 <= stack ->
    let r := sm_handles stack md (new_state_machine (generated_machine (compiled foo_source g first)) []) (no_context (e :: evs)) in
    by_name (sm_state (fst r)) = foo_name (snd (foo_walks S11 (e :: evs))) /\
    sm_shared (fst r) = map (fun t => (named_node (fst t), snd t)) (foo_start ++ fst (foo_walks S11 (e :: evs))) /\
    completed (snd r).
Proof.
  intros item [->| ->] o.
  - exact (@RepoTestUse.foo_macro foo_impl RepoTestUse.foo_agrees o).
  - exact (@RepoTestUse.foo_macro async_foo_impl RepoTestUse.async_foo_agrees o).
Qed.
Print Assumptions C59_macro.
(** The assertion of the test (transition.rs:283-304). *)
Example C59_case :
  foo_start ++ fst (foo_walks S11 [EvtA; EvtB; EvtC; EvtD]) =
  [(NSuper S0, Entered); (NSuper S1, Entered); (NState S11, Entered); (NState S11, Exited); (NState S11, Entered);
   (NState S11, Exited); (NState S12, Entered); (NState S12, Exited); (NSuper S1, Exited); (NSuper S2, Entered);
   (NSuper S21, Entered); (NState S211, Entered); (NState S211, Exited); (NSuper S21, Exited); (NSuper S2, Exited);
   (NSuper S1, Entered); (NState S11, Entered)].
Proof. reflexivity. Qed.

(** C60.  The hooks test: all four hooks have run after the first event, and it stays so. *)
Theorem C60_hooks :
  forall (asyncs : bool) item, item = (if asyncs then async_hooks_impl else hooks_impl) ->
  forall o, exists g first,
    expand o hooks_args item = Done g /\ compiles g /\ built (hooks_source asyncs) g (Built "foo" []) = Some first /\
    forall (stack : nat) (md : mode) (f : flags) (e : unit) (evs : list unit), 3 <= stack ->
    let r := sm_handles stack md (new_state_machine (generated_machine (compiled (hooks_source asyncs) g first)) f)
               (no_context (e :: evs)) in
    sm_shared (fst r) = Flags true true true true /\ completed (snd r).
Proof.
  intros [|] item -> o.
  - exact (@RepoTestUse.hooks_macro true async_hooks_impl RepoTestUse.async_hooks_agrees o).
  - exact (@RepoTestUse.hooks_macro false hooks_impl RepoTestUse.hooks_agrees o).
Qed.
Print Assumptions C60_hooks.
(** Before the first event none has: only `handle` runs them, and the initial entry does not. *)
Example C60_case : forall o, exists g first,
  expand o hooks_args hooks_impl = Done g /\
  let sm := new_state_machine (generated_machine (compiled (hooks_source false) g first)) (Flags false false false false) in
  sm_shared sm = Flags false false false false /\
  sm_shared (fst (sm_handles 3 BlockingMode sm (no_context [tt]))) = Flags true true true true.
Proof.
  intros o. destruct (@C60_hooks false hooks_impl eq_refl o) as (g & first & E & _ & _ & H). exists g, first.
  split; [exact E|]. split; [reflexivity|].
  exact (proj1 (H 3 BlockingMode (Flags false false false false) tt [] (le_n 3))).
Qed.

(** C61.  The external context: the same context is passed to every call, the count saturates at
    both ends and the second component is never touched. *)
Theorem C61_context :
  forall (max : nat) o, exists g first,
    expand o counter_args counter_impl = Done g /\ compiles g /\ built (counter_source max) g (Built "up" []) = Some first /\
    forall (stack : nat) (md : mode) (i j : nat) (evs : list counter_event), 3 <= stack -> i <= max ->
    let r := pass_along stack md (new_state_machine (generated_machine (compiled (counter_source max) g first)) tt) (i, j) evs in
    snd (fst r) = (snd (fold_left (count max) evs (true, i)), j) /\ snd r = map (fun _ => Ret tt) evs.
Proof. intros max. exact (@RepoTestUse.counter_macro max). Qed.
Print Assumptions C61_context.
(** The assertions of the test (external_context.rs:61, 73), and saturation. *)
Example C61_case :
  fold_left (count 100) [Press; Press; Press] (true, 0) = (true, 3) /\
  fold_left (count 100) [Press; Press; Press; Elapsed; Press; Press; Press] (true, 0) = (false, 0) /\
  fold_left (count 100) [Elapsed; Press; Elapsed; Press] (true, 0) = (true, 1) /\
  fold_left (count 2) [Press; Press; Press] (true, 0) = (true, 2).
Proof. repeat split. Qed.

(** C62.  The generic machine: for every type [T] and every [SIZE]. *)
Theorem C62_generic :
  forall (T : Type) (default : T) (size : nat) o, exists g first,
    expand o machine_args machine_impl = Done g /\ compiles g /\
    built (machine_source default size) g (Built "foo" []) = Some first /\
    forall (stack : nat) (md : mode) (evs : list (generic_event T)), 3 <= stack ->
    let r := sm_handles stack md (new_state_machine (generated_machine (compiled (machine_source default size) g first)) tt)
               (no_context evs) in
    by_name (sm_state (fst r)) = match fold_left hold evs None with
                                 | None => ("Foo", [])
                                 | Some t => ("Bar", [VT t; VArray (repeat default size)])
                                 end /\ completed (snd r).
Proof. intros T default size. exact (@RepoTestUse.gen_macro T default size). Qed.
Print Assumptions C62_generic.
Example C62_case :
  fold_left hold [EvBar 3; EvBar 4] None = Some 3 /\ fold_left hold [EvBar 3; EvFoo; EvFoo; EvBar 5] None = Some 5 /\
  fold_left hold [EvBar 3; EvFoo] None = (None : option nat).
Proof. repeat split. Qed.

(** C63.  The receiver of examples/macro/async_io, on a connection that fails, or whose writes are
    abandoned, as it likes: the two lines are delivered in order and at most once each; the
    machine is `Off` exactly when both are; once a call has returned both are; and if nothing
    fails the first call returns. *)
Theorem C63_receiver :
  forall (io : connection) o, exists g first,
    expand o receiver_args receiver_impl = Done g /\ compiles g /\ built (receiver_source io) g (Built "on" []) = Some first /\
    forall (stack : nat) (md : mode) (evs : list unit),
    let r := sm_handles stack md (new_state_machine (generated_machine (compiled (receiver_source io) g first)) []) (no_context evs) in
    exists k, delivered (sm_shared (fst r)) = firstn k [entering_on; received_step] /\ k <= 2 /\
              by_name (sm_state (fst r)) = (if Nat.eqb k 2 then "Off" else "On", []) /\
              (some_completed (snd r) -> k = 2) /\
              ((forall log line, io log line = Returns tt) -> evs <> [] -> some_completed (snd r)).
Proof. intros io. exact (@RepoTestUse.rec_macro io). Qed.
Print Assumptions C63_receiver.
(** The first write fails twice and the second once: four calls, two lines. *)
Definition flaky : connection :=
  fun before _ => match List.length before with 0 => Panics | 1 => Cancelled | 3 => Panics | _ => Returns tt end.
Example C63_case :
  let r := sm_handles 1 AwaitableMode (new_state_machine (receiver flaky) []) (no_context [tt; tt; tt; tt]) in
  map (fun c => c_out c) (snd r) = [Abort Panicked; Abort DroppedFuture; Abort Panicked; Ret tt] /\
  sm_shared (fst r) = [(entering_on, Panics); (entering_on, Cancelled); (entering_on, Returns tt); (received_step, Panics);
                       (received_step, Returns tt)] /\
  sm_state (fst r) = ROff.
Proof. vm_compute. repeat split. Qed.

(** C64.  BenchComplex, plain and async: 51 states, of which `Ek` leads on. *)
Theorem C64_bench_complex :
  forall item, item = bench_impl \/ item = async_bench_impl ->
  forall o, exists g first,
    expand o bench_args item = Done g /\ compiles g /\ built (bench_source is_event) g (Built "s1" []) = Some first /\
    forall (stack : nat) (md : mode) (evs : list nat),
    let r := sm_handles stack md (new_state_machine (generated_machine (compiled (bench_source is_event) g first)) tt) (no_context evs) in
    by_name (sm_state (fst r)) = ring_name (fold_left move_on evs 1) /\ completed (snd r).
Proof.
  intros item [->| ->] o.
  - exact (@RepoTestUse.ring_macro bench_impl RepoTestUse.bench_agrees o).
  - exact (@RepoTestUse.ring_macro async_bench_impl RepoTestUse.async_bench_agrees o).
Qed.
Print Assumptions C64_bench_complex.
(** One turn of the benchmark's loop leads from every state to `Idle`, and `S1` is never seen again. *)
Example C64_case :
  map (fun n => ring_name (fold_left move_on (seq 1 51) n)) (seq 0 51) = map (fun _ => ("Idle", [])) (seq 0 51) /\
  ring_name (fold_left move_on [2; 3; 5; 4] 1) = ("S4", []).
Proof. vm_compute. split; reflexivity. Qed.
Theorem C64_no_return :
  forall item, item = bench_impl \/ item = async_bench_impl ->
  forall o, exists g first,
    expand o bench_args item = Done g /\ built (bench_source is_event) g (Built "s1" []) = Some first /\
    forall (stack : nat) (md : mode) (evs evs' : list nat),
    let after l := by_name (sm_state (fst (sm_handles stack md
                     (new_state_machine (generated_machine (compiled (bench_source is_event) g first)) tt) (no_context l)))) in
    after evs <> ("S1", []) -> after (evs ++ evs') <> ("S1", []).
Proof.
  intros item I o. destruct (@C64_bench_complex item I o) as (g & first & E & _ & B & H). exists g, first.
  split; [exact E|]. split; [exact B|]. intros stack md evs evs'. cbv zeta.
  destruct (H stack md evs) as [H1 _]. destruct (H stack md (evs ++ evs')) as [H2 _]. cbv zeta in H1, H2.
  intros N K. apply N. etransitivity; [exact H1|]. apply (eq_trans (eq_sym H2)) in K. clear - K.
  rewrite fold_left_app in K. apply RepoTestUse.ring_name_s1 in K. apply RepoTestUse.never_back in K. rewrite K. reflexivity.
Qed.
Print Assumptions C64_no_return.

(** C65.  The machine of tests/state_local_storage.rs after any number of events. *)
Theorem C65_local_storage :
  forall (stack : nat) (md : mode) (evs : list unit), 3 <= stack ->
    let r := sm_handles stack md (new_state_machine local_storage tt) (no_context evs) in
    sm_state (fst r) = alternates (List.length evs) /\ completed (snd r).
Proof. intros stack md evs ST. exact (@RepoTestUse.local_new stack md evs ST). Qed.
Print Assumptions C65_local_storage.
Example C65_case : map alternates [0; 1; 2; 3; 10] = [LOn false 23; LOff false; LOn true 34; LOff false; LOn true 34].
Proof. reflexivity. Qed.

(** ** The remaining tests check one expansion each. *)
(** config_macro.rs: names, derives, visibility, identifiers. *)
Example config_macro_test :
  forall g, expand all_forward config_args config_impl = Done g ->
  g_state_ident g = "MyState" /\ g_super_ident g = "MySuperstate" /\
  g_state_derives g = [["PartialEq"]; ["Eq"]] /\ g_super_derives g = [["Clone"]] /\
  g_visibility g = "pub(crate)" /\ g_event_ident g = "my_event" /\ g_context_ident g = "my_context" /\
  g_event_type g = named_type "Event" /\ g_context_type g = named_type "Context" /\
  map v_name (g_state_variants g) = ["Bar"] /\ map v_name (g_super_variants g) = ["Foo"].
Proof. intros g E. vm_compute in E. injection E as <-. repeat split. Qed.
(** generics.rs, examples/macro/generics: only the parameters the fields mention. *)
Example generics_test :
  forall g, expand all_backward generics_args generics_impl = Done g ->
  g_state_generics g = [GType "T" []; GType "B" []; GConst "SIZE"] /\ g_super_generics g = [].
Proof. intros g E. vm_compute in E. injection E as <-. repeat split. Qed.
Example generics_example_test :
  forall g, expand all_backward machine_args machine_impl = Done g ->
  g_state_generics g = [GType "T" []; GConst "SIZE"] /\ g_super_generics g = [GType "T" []; GLifetime "sub" []].
Proof. intros g E. vm_compute in E. injection E as <-. repeat split. Qed.
(** default.rs: the fields marked `#[default]` are not arguments of the constructor. *)
Example default_test :
  forall g, expand all_backward default_args default_impl = Done g ->
  exists first, built default_source g (Built "bar" []) = Some first /\ by_name first = ("Bar", [0; 100]) /\
                built default_source g (Built "bar" [3]) = None.
Proof. intros g E. vm_compute in E. injection E as <-. eexists. split; [reflexivity|]. split; reflexivity. Qed.
