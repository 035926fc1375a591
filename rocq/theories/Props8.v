(** Props8.v — C32 to C34, C36, C45, C46: variants, constructors, modes and hooks, cycles,
    storage and arguments of `#[state_machine]`.  Theorems only; see MacroSpec.v for the
    vocabulary. *)

From Coq Require Import String List Bool Arith Lia Permutation.
From Verif Require Import Machine Api Spec.
From Verif Require Import MacroSyntax MacroLower MacroGen MacroSem MacroSpec MacroNameSpec MacroExamples.
From Verif Require MacroNameProofs MacroLowerProofs MacroMachineProofs MacroBehaviour MacroPathProofs.
From Verif Require MacroStorageProofs MacroConfigProofs MacroExtraProofs MacroCycleProofs TotalProofs.
Import ListNotations.
Open Scope string_scope.
Open Scope list_scope.

(** C32.  There is one variant for each marked method, named after it. *)
Theorem C32_variants :
  forall (o : orders) (args : list meta) (item : item_impl) (g : generated),
    expand o args item = Done g -> NoDup (map m_name (methods item)) ->
    Permutation (map v_name (g_state_variants g)) (map variant_of (filter (marked "state") (methods item))) /\
    Permutation (map v_name (g_super_variants g)) (map variant_of (filter (marked "superstate") (methods item))).
Proof.
  intros o args item g E ND. destruct (MacroLowerProofs.expand_done o args item ND E) as [c [sms [ums X]]].
  rewrite (MacroLowerProofs.ex_state_variants X), (MacroLowerProofs.ex_super_variants X), !map_map.
  assert (N1 : forall ms, map (fun m => v_name (MacroLowerProofs.state_variant c m)) ms = map variant_of ms).
  { intros ms. apply map_ext. intros m. exact (MacroBehaviour.vname_variant m). }
  assert (N2 : forall ms, map (fun m => v_name (MacroLowerProofs.super_variant c m)) ms = map variant_of ms).
  { intros ms. apply map_ext. intros m. exact (MacroBehaviour.vname_variant m). }
  rewrite N1, N2. split; apply Permutation_map, Permutation_sym.
  - exact (MacroLowerProofs.ex_states X).
  - exact (MacroLowerProofs.ex_supers X).
Qed.
Print Assumptions C32_variants.

(** Usual names give different variants.  [_partial]: for names with words that begin with a
    digit, or with double underscores, see [C32_counterexample]. *)
Theorem C32_distinct_partial :
  forall (o : orders) (args : list meta) (item : item_impl) (g : generated),
    expand o args item = Done g -> NoDup (map m_name (methods item)) ->
    ((forall m, In m (methods item) -> marked "state" m = true -> snake_case (m_name m) = true) ->
     NoDup (map v_name (g_state_variants g))) /\
    ((forall m, In m (methods item) -> marked "superstate" m = true -> snake_case (m_name m) = true) ->
     NoDup (map v_name (g_super_variants g))).
Proof.
  intros o args item g E ND. destruct (C32_variants o args item g E ND) as [P1 P2].
  assert (G : forall kind, (forall m, In m (methods item) -> marked kind m = true -> snake_case (m_name m) = true) ->
              NoDup (map variant_of (filter (marked kind) (methods item)))).
  { intros kind. clear E P1 P2. induction (methods item) as [|m ms IH]; cbn; intros S; [constructor|].
    cbn in ND. inversion ND as [|? ? N ND']; subst. specialize (IH ND').
    assert (S' : forall m, In m ms -> marked kind m = true -> snake_case (m_name m) = true) by auto.
    destruct (marked kind m) eqn:K; [|auto]. cbn. constructor; [|auto].
    intros I. apply in_map_iff in I. destruct I as [m' [V I]]. apply filter_In in I. destruct I as [I K'].
    apply N. unfold variant_of in V.
    rewrite <- (MacroNameProofs.camel_injective _ _ (S' m' I K') (S m (or_introl eq_refl) K) V). now apply in_map. }
  split; intros S; eapply Permutation_NoDup; [apply Permutation_sym, P1|auto|apply Permutation_sym, P2|auto].
Qed.
Print Assumptions C32_distinct_partial.

(** Exactly: two names give the same variant iff they have the same stem, so the variants are
    distinct iff the stems are; and the stem of a usual name is the name itself. *)
Theorem C32_exact :
  forall (o : orders) (args : list meta) (item : item_impl) (g : generated),
    expand o args item = Done g -> NoDup (map m_name (methods item)) ->
    (forall m m', variant_of m = variant_of m' <-> stem (m_name m) = stem (m_name m')) /\
    (NoDup (map v_name (g_state_variants g)) <->
     NoDup (map (fun m => stem (m_name m)) (filter (marked "state") (methods item)))) /\
    (NoDup (map v_name (g_super_variants g)) <->
     NoDup (map (fun m => stem (m_name m)) (filter (marked "superstate") (methods item)))) /\
    (forall s, snake_case s = true -> stem s = s).
Proof.
  intros o args item g E ND. destruct (C32_variants o args item g E ND) as [P1 P2].
  assert (V : forall m m', variant_of m = variant_of m' <-> stem (m_name m) = stem (m_name m'))
    by (intros m m'; exact (MacroNameProofs.camel_collide (m_name m) (m_name m'))).
  assert (G : forall l, NoDup (map variant_of l) <-> NoDup (map (fun m => stem (m_name m)) l)).
  { induction l as [|m l IH]; [split; constructor|]. cbn [map]. rewrite !NoDup_cons_iff, IH, !in_map_iff.
    split; intros [N H]; (split; [|exact H]); intros (m' & A & B); apply N; exists m'; (split; [now apply V|exact B]). }
  split; [exact V|]. split; [|split; [|exact MacroNameProofs.stem_snake]].
  - rewrite <- G. split; intros H; [exact (Permutation_NoDup P1 H)|exact (Permutation_NoDup (Permutation_sym P1) H)].
  - rewrite <- G. split; intros H; [exact (Permutation_NoDup P2 H)|exact (Permutation_NoDup (Permutation_sym P2) H)].
Qed.
Print Assumptions C32_exact.

(** Two states with one variant do not compile. *)
Theorem C32_collision_rejected :
  forall (o : orders) (args : list meta) (item : item_impl) (g : generated) (m m' : impl_fn),
    expand o args item = Done g ->
    In m (methods item) -> In m' (methods item) -> m_name m <> m_name m' -> variant_of m = variant_of m' ->
    (marked "state" m = true /\ marked "state" m' = true) \/
    (marked "superstate" m = true /\ marked "superstate" m' = true) ->
    ~ compiles g.
Proof.
  intros o args item g m m' E I I' N V K CO.
  destruct (MacroBehaviour.expand_compiles o args item E CO) as [ND _].
  destruct (C32_variants o args item g E ND) as [P1 P2].
  assert (G : forall kind l, Permutation l (map variant_of (filter (marked kind) (methods item))) ->
    marked kind m = true -> marked kind m' = true -> NoDup l -> False).
  { intros kind l P K1 K2 NDl. pose proof (Permutation_NoDup P NDl) as Q.
    assert (J : In m (filter (marked kind) (methods item))) by (apply filter_In; auto).
    assert (J' : In m' (filter (marked kind) (methods item))) by (apply filter_In; auto).
    clear - V N Q J J'. induction (filter (marked kind) (methods item)) as [|z ms IH]; [destruct J|].
    cbn in Q. inversion Q as [|? ? N1 Q']; subst. destruct J as [->|J], J' as [E'|J'].
    - subst. now apply N.
    - apply N1. rewrite V. now apply in_map.
    - subst. apply N1. rewrite <- V. now apply in_map.
    - auto. }
  destruct K as [[K1 K2]|[K1 K2]].
  - exact (G "state" _ P1 K1 K2 (co_state_variants CO)).
  - exact (G "superstate" _ P2 K1 K2 (co_super_variants CO)).
Qed.
Print Assumptions C32_collision_rejected.

(** `a_1` and `a1` are both accepted by the macro and become `A1`. *)
Definition two_ones : item_impl :=
  impl_of [method [MetaPath ["state"]] "a_1" []; method [MetaPath ["state"]] "a1" []].
Theorem C32_counterexample :
  exists g, expand all_forward [set_to "initial" "State::a1()"] two_ones = Done g /\
    NoDup (map m_name (methods two_ones)) /\
    map v_name (g_state_variants g) = ["A1"; "A1"] /\ ~ compiles g.
Proof.
  eexists. split; [vm_compute; reflexivity|]. split; [apply nodupb_ok; reflexivity|]. split; [reflexivity|].
  intros CO. pose proof (co_state_variants CO) as N. cbn in N. inversion N as [|? ? N1 N2]. apply N1. now left.
Qed.
Print Assumptions C32_counterexample.

Example C32_case :
  NoDup (map m_name (methods blinky)) /\
  (forall m, In m (methods blinky) -> snake_case (m_name m) = true) /\
  map variant_of (filter (marked "state") (methods blinky)) = ["LedOn"; "LedOff"; "NotBlinking"] /\
  map stem ["led_on"; "_led__on_"; "ledOn"; "LedOn"; "a_1"; "a1_"; "a_1_b"; "a1b"] =
    ["led_on"; "led_on"; "led_on"; "led_on"; "a1"; "a1"; "a1_b"; "a1b"].
Proof.
  split; [apply nodupb_ok; reflexivity|]. split; [|split; reflexivity].
  intros m I. cbn in I. repeat (destruct I as [<-|I]; [reflexivity|]). destruct I.
Qed.

(** C33.  `State::name(..)` takes a value for each field without `#[default]`, in the order
    of the fields ([C45_storage]), and nothing else. *)
Theorem C33_constructors :
  forall (o : orders) (args : list meta) (item : item_impl) (g : generated) (Val : Type)
         (eval : expr -> (ident -> option Val) -> Val) (default : ty -> Val)
         (m : impl_fn) (v : variant) (actuals : list Val),
    expand o args item = Done g -> compiles g ->
    In m (methods item) -> length (filter (fun a => is_ident (meta_path a) "state") (m_attrs m)) = 1 ->
    In v (g_state_variants g) -> v_name v = variant_of m ->
    let initially f := initial_value_of (g_event_ident g) (g_context_ident g) m (f_name f) in
    let taken := filter (fun f => by_argument (initially f)) (v_fields v) in
    (length actuals <> length taken -> construct g eval default (m_name m) actuals = None) /\
    (length actuals = length taken ->
     exists x, construct g eval default (m_name m) actuals = Some x /\ tag x = variant_of m /\
       (forall n f, nth_error taken n = Some f -> get_field x (f_name f) = nth_error actuals n) /\
       (forall f, In f (v_fields v) -> initially f = DefaultOfType ->
          get_field x (f_name f) = Some (default (f_ty f))) /\
       (forall f e, In f (v_fields v) -> initially f = ByExpression e ->
          get_field x (f_name f) = Some (eval e (fun i => hm_get i (combine (map f_name taken) actuals))))).
Proof.
  intros o args item g Val eval default m v actuals E CO I L J V initially taken.
  destruct (MacroBehaviour.expand_compiles o args item E CO) as [ND [c [sms [ums X]]]].
  assert (K : marked "state" m = true).
  { unfold marked. destruct (filter _ (m_attrs m)) as [|a l] eqn:F; [discriminate|].
    apply existsb_exists. exists a. assert (Q : In a (a :: l)) by now left. rewrite <- F in Q.
    apply filter_In in Q. exact Q. }
  pose proof (proj2 (MacroMachineProofs.in_sms X m) (conj I K)) as Im.
  rewrite <- MacroBehaviour.vname_variant in *.
  exact (@MacroStorageProofs.constructs args item g c sms ums ND X CO Val eval default m v actuals Im J V L).
Qed.
Print Assumptions C33_constructors.

(** `State::led_on(4)` is `LedOn { led: Default::default(), count: 4 }`. *)
Example C33_case :
  length (filter (fun a => is_ident (meta_path a) "state") (m_attrs led_on)) = 1 /\
  option_map vals (construct blinky_code (fun _ _ => 9) (fun _ => 1) "led_on" [4]) = Some [1; 4] /\
  construct blinky_code (fun _ _ => 9) (fun _ => 1) "led_on" [4; 5] = None.
Proof. vm_compute. auto. Qed.

(** A handler with two attributes `#[state]` loses its defaults: the first one removes them
    from the method before the second one looks. *)
Definition twice_marked : impl_fn :=
  method [MetaPath ["state"]; MetaPath ["state"]] "on"
    [by_ref_default "led" (MetaPath ["default"]) (named_type "bool")].
Theorem C33_two_attributes_counterexample :
  exists g, expand all_forward [set_to "initial" "State::on()"] (impl_of [twice_marked]) = Done g /\
    compiles g /\
    initial_value_of (g_event_ident g) (g_context_ident g) twice_marked "led" = DefaultOfType /\
    construct g (fun _ _ => 9) (fun _ => 1) "on" [] = None /\
    option_map vals (construct g (fun _ _ => 9) (fun _ => 1) "on" [4]) = Some [4].
Proof.
  eexists. split; [vm_compute; reflexivity|]. split; [apply compilesb_ok; vm_compute; reflexivity|].
  vm_compute. auto.
Qed.
Print Assumptions C33_two_attributes_counterexample.

(** C34.  The generated machine is awaitable iff a handler or action is async, ... *)
Theorem C34_mode :
  forall (o : orders) (args : list meta) (item : item_impl) (g : generated),
    expand o args item = Done g -> NoDup (map m_name (methods item)) ->
    (g_mode g = MAwaitable <->
     exists m, In m (methods item) /\ m_async m = true /\
       (marked "state" m = true \/ marked "superstate" m = true \/ marked "action" m = true)).
Proof.
  intros o args item g E ND. destruct (MacroLowerProofs.expand_done o args item ND E) as [c [sms [ums X]]].
  exact (@MacroExtraProofs.mode_spec args item g c sms ums X).
Qed.
Print Assumptions C34_mode.

(** ... every call to an async method is awaited, and no other (so a blocking machine awaits
    nothing), ... *)
Theorem C34_awaited :
  forall (o : orders) (args : list meta) (item : item_impl) (g : generated) (p : pattern)
         (target : MacroSyntax.path) (f : ident) (params : list ident) (awaited : bool),
    expand o args item = Done g -> NoDup (map m_name (methods item)) ->
    (In (p, Call target f params awaited) (call_handler_arms (g_state_arms g)) \/
     In (p, Call target f params awaited) (call_entry_action_arms (g_state_arms g)) \/
     In (p, Call target f params awaited) (call_exit_action_arms (g_state_arms g)) \/
     In (p, Call target f params awaited) (call_handler_arms (g_super_arms g)) \/
     In (p, Call target f params awaited) (call_entry_action_arms (g_super_arms g)) \/
     In (p, Call target f params awaited) (call_exit_action_arms (g_super_arms g))) ->
    (exists m, In m (methods item) /\ m_name m = f /\ m_async m = awaited) /\
    (g_mode g = MBlocking -> awaited = false).
Proof.
  intros o args item g p target f params awaited E ND H.
  destruct (MacroLowerProofs.expand_done o args item ND E) as [c [sms [ums X]]].
  assert (G : exists m, In m (methods item) /\ m_name m = f /\ m_async m = awaited /\
     (marked "state" m = true \/ marked "superstate" m = true \/ marked "action" m = true)).
  { assert (A : forall d, MacroLowerProofs.action_code c item d = Call target f params awaited ->
       exists m, In m (methods item) /\ m_name m = f /\ m_async m = awaited /\ marked "action" m = true).
    { intros [a|] Q; cbn in Q; [|discriminate].
      destruct (MacroLowerProofs.find_method item "action" a) as [ma|] eqn:F; cbn in Q; [|discriminate].
      destruct (MacroMachineProofs.find_method_in item _ _ F) as (I & K & _).
      exists ma. unfold MacroLowerProofs.call_of in Q. injection Q as _ <- _ <-. auto. }
    rewrite (MacroLowerProofs.ex_state_arms X), (MacroLowerProofs.ex_super_arms X) in H.
    cbn [call_handler_arms call_entry_action_arms call_exit_action_arms] in H.
    destruct H as [H|[H|[H|[H|[H|H]]]]]; apply in_map_iff in H; destruct H as [m [Q I]];
      apply (f_equal snd) in Q; cbn [snd] in Q.
    - apply (MacroMachineProofs.in_sms X) in I. destruct I as [I K]. exists m.
      unfold MacroLowerProofs.call_of in Q. injection Q as _ <- _ <-. auto 10.
    - destruct (A _ Q) as [ma ?]. exists ma. tauto.
    - destruct (A _ Q) as [ma ?]. exists ma. tauto.
    - apply (MacroMachineProofs.in_ums X) in I. destruct I as [I K]. exists m.
      unfold MacroLowerProofs.call_of in Q. injection Q as _ <- _ <-. auto 10.
    - destruct (A _ Q) as [ma ?]. exists ma. tauto.
    - destruct (A _ Q) as [ma ?]. exists ma. tauto. }
  destruct G as (m & I & N & A & K). split; [exists m; auto|].
  intros M. destruct awaited; [|reflexivity]. exfalso.
  assert (Q : g_mode g = MAwaitable); [|congruence].
  apply (C34_mode o args item g E ND). exists m. auto.
Qed.
Print Assumptions C34_awaited.

(** ... and the configured hooks are executed, with the arguments they are given by the
    runtime.  [_partial]: except async hooks of a machine without any other async function,
    see [C34_counterexample]. *)
Theorem C34_hooks_partial :
  forall (o : orders) (args : list meta) (item : item_impl) (g : generated)
         (Val Sh Ev Cx : Type) (B : bodies Val Sh Ev Cx g) (sh : Sh),
    expand o args item = Done g -> NoDup (map m_name (methods item)) ->
    let executed {A} key (run : MacroSyntax.path -> A) (nothing : A) :=
      match last_value as_path key args with
      | Some p => if match g_mode g with MAwaitable => true | MBlocking => negb (b_async B p) end
                  then run p else nothing
      | None => nothing
      end in
    (forall n e, h_before_dispatch (generated_machine B) sh n e =
       executed "before_dispatch" (fun p => b_dispatch_hook B p sh n e) (Returns tt, sh)) /\
    (forall n e, h_after_dispatch (generated_machine B) sh n e =
       executed "after_dispatch" (fun p => b_dispatch_hook B p sh n e) (Returns tt, sh)) /\
    (forall a b, h_before_transition (generated_machine B) sh a b =
       executed "before_transition" (fun p => b_transition_hook B p sh a b) (Returns tt, sh)) /\
    (forall a b, h_after_transition (generated_machine B) sh a b =
       executed "after_transition" (fun p => b_transition_hook B p sh a b) (Returns tt, sh)).
Proof.
  intros o args item g Val Sh Ev Cx B sh E ND executed.
  destruct (MacroLowerProofs.expand_done o args item ND E) as [c [sms [ums X]]].
  destruct (@MacroExtraProofs.hooks_run Val Sh Ev Cx args item g c sms ums X B sh) as (H1 & H2 & H3 & H4).
  pose proof (MacroLowerProofs.ex_mode X) as M. unfold executed.
  split; [|split; [|split]]; intros a b; rewrite ?H1, ?H2, ?H3, ?H4, M;
    destruct (last_value as_path _ args); try reflexivity;
    destruct (MacroLowerProofs.any_async item); reflexivity.
Qed.
Print Assumptions C34_hooks_partial.

(** An async hook of an otherwise blocking machine is accepted and never runs. *)
Definition async_log : impl_fn := ImplFn [] "log" [] true [Receiver].
Definition logged : item_impl := impl_of [method [MetaPath ["state"]] "on" []; async_log].
Definition logged_args : list meta := [set_to "initial" "State::on()"; set_to "before_transition" "Self::log"].
Definition logged_code : generated := Eval vm_compute in output (expand all_forward logged_args logged).
Theorem C34_counterexample :
  expand all_forward logged_args logged = Done logged_code /\ compiles logged_code /\
  g_mode logged_code = MBlocking /\
  last_value as_path "before_transition" logged_args = Some ["Self::log"] /\
  forall (Val Sh Ev Cx : Type) (B : bodies Val Sh Ev Cx logged_code) sh a b,
    b_async B ["Self::log"] = true ->
    h_before_transition (generated_machine B) sh a b = (Returns tt, sh).
Proof.
  split; [vm_compute; reflexivity|]. split; [apply compilesb_ok; vm_compute; reflexivity|].
  split; [reflexivity|]. split; [reflexivity|].
  intros Val Sh Ev Cx B sh a b H. 
  transitivity (if b_async B ["Self::log"] then (Returns tt, sh) else b_transition_hook B ["Self::log"] sh a b);
    [reflexivity|now rewrite H].
Qed.
Print Assumptions C34_counterexample.

Example C34_case :
  NoDup (map m_name (methods blinky)) /\ g_mode blinky_code = MBlocking /\
  h_before_transition (generated_machine blinky_bodies) 5 first_state first_state = (Returns tt, 1005) /\
  match expand all_forward [set_to "initial" "State::on()"]
               (impl_of [ImplFn [MetaPath ["state"]] "on" [] true [Receiver]]) with
  | Done g => g_mode g = MAwaitable /\
      map snd (call_handler_arms (g_state_arms g)) = [Call ["Blinky"] "on" ["shared_storage"] true]
  | _ => False
  end.
Proof. split; [apply nodupb_ok; reflexivity|]. vm_compute. auto. Qed.

(** C36.  Cyclic superstates are not rejected: the program compiles, and initialization of a
    state below the cycle exhausts every stack. *)
Definition cyclic : item_impl :=
  impl_of [method [with_args "state" [set_to "superstate" "a"]] "on" [];
           method [with_args "superstate" [set_to "superstate" "b"]] "a" [];
           method [with_args "superstate" [set_to "superstate" "a"]] "b" []].
Definition cyclic_args : list meta := [set_to "initial" "State::on()"].
Definition cyclic_code : generated := Eval vm_compute in output (expand all_forward cyclic_args cyclic).
Theorem C36_cycle_diverges :
  forall (o : orders) (args : list meta) (item : item_impl) (g : generated)
         (Val Sh Ev Cx : Type) (B : bodies Val Sh Ev Cx g) (stack : nat) (md : mode)
         (sm : state_machine (generated_machine B)) (cx : Cx) (m : impl_fn),
    expand o args item = Done g -> compiles g ->
    In m (methods item) -> marked "state" m = true -> cycle_over item m ->
    tag (sm_state sm) = variant_of m -> initialized sm = false ->
    a_out (@init_with_context (generated_machine B) stack md sm cx) = Abort Diverges.
Proof.
  intros o args item g Val Sh Ev Cx B stack md sm cx m E CO.
  destruct (MacroBehaviour.expand_compiles o args item E CO) as [ND [c [sms [ums X]]]].
  exact (@MacroExtraProofs.cycle_diverges Val Sh Ev Cx args item g c sms ums ND X CO B stack md sm cx m).
Qed.
Print Assumptions C36_cycle_diverges.

(** Exactly then: with room for the superstates there are, initialization runs out of stack iff
    the initial state is below a cycle, and otherwise only user code can abort it. *)
Theorem C36_init_exact :
  forall (o : orders) (args : list meta) (item : item_impl) (g : generated)
         (Val Sh Ev Cx : Type) (B : bodies Val Sh Ev Cx g) (stack : nat) (md : mode)
         (sm : state_machine (generated_machine B)) (cx : Cx) (m : impl_fn),
    expand o args item = Done g -> compiles g ->
    In m (methods item) -> marked "state" m = true ->
    tag (sm_state sm) = variant_of m -> initialized sm = false ->
    length (filter (marked "superstate") (methods item)) <= stack ->
    (a_out (@init_with_context (generated_machine B) stack md sm cx) = Abort Diverges <-> cycle_over item m) /\
    forall w, a_out (@init_with_context (generated_machine B) stack md sm cx) = Abort w ->
      w = Panicked \/ w = DroppedFuture \/ w = Diverges.
Proof.
  intros o args item g Val Sh Ev Cx B stack md sm cx m E CO.
  destruct (MacroBehaviour.expand_compiles o args item E CO) as [ND [c [sms [ums X]]]].
  exact (@MacroCycleProofs.init_diverges_iff Val Sh Ev Cx args item g c sms ums ND X CO B stack md sm cx m).
Qed.
Print Assumptions C36_init_exact.
(** Without a cycle ([acyclic]: as C31 needs it) every call ends, by itself or in user code. *)
Theorem C36_no_cycle :
  forall (o : orders) (args : list meta) (item : item_impl) (g : generated),
    expand o args item = Done g -> compiles g ->
    (acyclic item <-> forall v, ~ above item v v) /\
    (acyclic item ->
     forall (Val Sh Ev Cx : Type) (B : bodies Val Sh Ev Cx g) (stack : nat) (md : mode)
            (sm : state_machine (generated_machine B)) (e : Ev) (cx : Cx) (w : why),
       1 <= stack -> length (filter (marked "superstate") (methods item)) <= stack ->
       a_out (@init_with_context (generated_machine B) stack md sm cx) = Abort w \/
       a_out (@handle_with_context (generated_machine B) stack md sm e cx) = Abort w ->
       w = Panicked \/ w = DroppedFuture).
Proof.
  intros o args item g E CO. destruct (MacroBehaviour.expand_compiles o args item E CO) as [ND [c [sms [ums X]]]].
  split; [split; [exact (@MacroCycleProofs.acyclic_no_cycle item)|exact (@MacroCycleProofs.no_cycle_acyclic item ND)]|].
  intros AC Val Sh Ev Cx B stack md sm e cx w S1 S2.
  pose proof (@MacroPathProofs.generated_well_formed Val Sh Ev Cx args item g c sms ums X CO B AC stack S1 S2) as W.
  destruct (@TotalProofs.terminates _ (generated_machine B) stack stack md sm e cx W (le_n _)) as (T1 & T2 & _).
  intros [H|H]; [exact (T2 _ H)|exact (T1 _ H)].
Qed.
Print Assumptions C36_no_cycle.

Theorem C36_counterexample :
  expand all_forward cyclic_args cyclic = Done cyclic_code /\ compiles cyclic_code /\
  exists m, In m (methods cyclic) /\ marked "state" m = true /\ cycle_over cyclic m /\
    forall (Val Sh Ev Cx : Type) (B : bodies Val Sh Ev Cx cyclic_code) stack md
           (sm : state_machine (generated_machine B)) cx,
      initialized sm = false ->
      a_out (@init_with_context (generated_machine B) stack md sm cx) = Abort Diverges.
Proof.
  assert (E : expand all_forward cyclic_args cyclic = Done cyclic_code) by (vm_compute; reflexivity).
  assert (CO : compiles cyclic_code) by (apply compilesb_ok; vm_compute; reflexivity).
  split; [exact E|]. split; [exact CO|].
  set (on := method [with_args "state" [set_to "superstate" "a"]] "on" []).
  set (a := method [with_args "superstate" [set_to "superstate" "b"]] "a" []).
  set (b := method [with_args "superstate" [set_to "superstate" "a"]] "b" []).
  exists on. assert (I : In on (methods cyclic)) by (cbn; auto).
  assert (C : cycle_over cyclic on).
  { exists "a", "a". split; [reflexivity|]. split; [now left|].
    apply above_trans with "b".
    - apply (@above_direct cyclic a); [cbn; auto|reflexivity|reflexivity].
    - apply (@above_direct cyclic b); [cbn; auto|reflexivity|reflexivity]. }
  split; [exact I|]. split; [reflexivity|]. split; [exact C|].
  intros Val Sh Ev Cx B stack md sm cx Hi.
  apply (C36_cycle_diverges all_forward cyclic_args cyclic cyclic_code Val Sh Ev Cx B stack md sm cx on E CO I
           eq_refl C); [|exact Hi].
  destruct (sm_state sm) as [t vs W]. cbn. unfold shaped, fields_of in W.
  unfold cyclic_code in W. cbn [g_state_variants find v_name] in W.
  change (variant_of on) with "On". destruct (String.eqb_spec "On" t) as [<-|N]; [reflexivity|discriminate].
Qed.
Print Assumptions C36_counterexample.

(** C45.  The fields of a state are its parameters (other than the event and context) and its
    `local_storage`; those of a superstate the same, as references. *)
Theorem C45_storage :
  forall (o : orders) (args : list meta) (item : item_impl) (g : generated) (m : impl_fn) (v : variant),
    expand o args item = Done g -> compiles g -> In m (methods item) ->
    (marked "state" m = true -> In v (g_state_variants g) -> v_name v = variant_of m ->
     let params := parameter_fields (g_event_ident g) (g_context_ident g) m in
     let declared := local_storage "state" m in
     (forall f, In f (v_fields v) <-> stores declared params f) /\
     (NoDup (map f_name declared) -> (forall f, In f declared -> ~ In (f_name f) (map f_name params)) ->
      v_fields v = params ++ declared)) /\
    (marked "superstate" m = true -> In v (g_super_variants g) -> v_name v = variant_of m ->
     let params := borrowed_fields (g_event_ident g) (g_context_ident g) m in
     let declared := local_storage "superstate" m in
     (forall f, In f (v_fields v) <-> stores declared params f) /\
     (NoDup (map f_name declared) -> (forall f, In f declared -> ~ In (f_name f) (map f_name params)) ->
      v_fields v = params ++ declared)).
Proof.
  intros o args item g m v E CO I.
  destruct (MacroBehaviour.expand_compiles o args item E CO) as [ND [c [sms [ums X]]]].
  rewrite <- MacroBehaviour.vname_variant. split; intros K J V.
  - exact (@MacroStorageProofs.state_storage args item g c sms ums X CO m v
             (proj2 (MacroMachineProofs.in_sms X m) (conj I K)) J V).
  - exact (@MacroStorageProofs.super_storage args item g c sms ums X CO m v
             (proj2 (MacroMachineProofs.in_ums X m) (conj I K)) J V).
Qed.
Print Assumptions C45_storage.

Example C45_case :
  parameter_fields "event" "context" led_on = [Field "led" (named_type "bool"); Field "count" (named_type "u8")] /\
  local_storage "state" not_blinking = [Field "extra" (named_type "u8")] /\
  borrowed_fields "event" "context" blinking = [Field "led" (TReference (Some "sub") true (named_type "bool"))] /\
  map v_fields (g_state_variants blinky_code) =
    [[Field "led" (named_type "bool"); Field "count" (named_type "u8")]; [Field "led" (named_type "bool")];
     [Field "extra" (named_type "u8")]].
Proof. vm_compute. auto. Qed.

(** C46.  The arguments of `#[state_machine(..)]`: all keys are known, `initial` is there, the
    last value of a key counts, and there are defaults. *)
Theorem C46_arguments :
  forall (o : orders) (args : list meta) (item : item_impl) (g : generated),
    expand o args item = Done g -> NoDup (map m_name (methods item)) ->
    (forall a, In a args ->
       key_in ["initial"; "event_identifier"; "context_identifier"; "before_transition"; "after_transition";
               "before_dispatch"; "after_dispatch"; "visibility"; "state"; "superstate"] a) /\
    (forall a, In a (inside "state" args) \/ In a (inside "superstate" args) -> key_in ["name"; "derive"] a) /\
    last_value as_expr "initial" args = Some (g_initial g) /\
    g_event_ident g = or_else (last_value as_ident "event_identifier" args) "event" /\
    g_context_ident g = or_else (last_value as_ident "context_identifier" args) "context" /\
    g_visibility g = or_else (last_value as_visibility "visibility" args) "pub" /\
    g_state_ident g = or_else (last_value as_ident "name" (inside "state" args)) "State" /\
    g_state_derives g = derived (inside "state" args) /\
    g_super_ident g = or_else (last_value as_ident "name" (inside "superstate" args)) "Superstate" /\
    g_super_derives g = derived (inside "superstate" args).
Proof.
  intros o args item g E ND. destruct (MacroLowerProofs.expand_done o args item ND E) as [c [sms [ums X]]].
  destruct (MacroConfigProofs.config_spec args item (MacroLowerProofs.ex_config X)).
  split; [exact cf_keys|]. split; [intros a [I|I]; auto|].
  split; [now rewrite (MacroLowerProofs.ex_initial X)|].
  split; [now rewrite (MacroLowerProofs.ex_event_ident X)|].
  split; [now rewrite (MacroLowerProofs.ex_context_ident X)|].
  split; [now rewrite (MacroLowerProofs.ex_visibility X)|].
  split; [now rewrite (MacroLowerProofs.ex_state_ident X)|].
  split; [now rewrite (MacroLowerProofs.ex_state_derives X)|].
  split; [now rewrite (MacroLowerProofs.ex_super_ident X)|].
  now rewrite (MacroLowerProofs.ex_super_derives X).
Qed.
Print Assumptions C46_arguments.

(** The machine starts in the state given by `initial`. *)
Theorem C46_initial :
  forall (o : orders) (args : list meta) (item : item_impl) (g : generated)
         (Val Sh Ev Cx : Type) (B : bodies Val Sh Ev Cx g) (e : expr),
    expand o args item = Done g -> NoDup (map m_name (methods item)) ->
    last_value as_expr "initial" args = Some e -> initial (generated_machine B) = b_initial B e.
Proof.
  intros o args item g Val Sh Ev Cx B e E ND L.
  destruct (C46_arguments o args item g E ND) as (_ & _ & I & _). rewrite L in I. injection I as ->. reflexivity.
Qed.
Print Assumptions C46_initial.

Definition with_paths (key : string) (l : list MacroSyntax.path) : meta := MetaList [key] (Tokens None None (Some l)).
Definition many_args : list meta :=
  [set_to "initial" "State::a()"; set_to "event_identifier" "input"; set_to "visibility" "pub(crate)";
   with_args "state" [set_to "name" "Old"];
   with_args "state" [with_paths "derive" [["Debug"]]; set_to "name" "Mode"; with_paths "derive" [["Clone"]; ["Eq"]]];
   set_to "initial" "State::b()"].
Example C46_case :
  match expand all_forward many_args (impl_of [method [MetaPath ["state"]] "a" [by_ref "input" (named_type "E")]]) with
  | Done g => g_initial g = Expr "State::b()" /\ g_event_ident g = "input" /\ g_context_ident g = "context" /\
      g_visibility g = "pub(crate)" /\ g_state_ident g = "Mode" /\
      g_state_derives g = [["Debug"]; ["Clone"]; ["Eq"]] /\ g_super_ident g = "Superstate" /\
      g_super_derives g = []
  | _ => False
  end /\
  expand all_forward [] blinky = Rejected "no initial state defined" /\
  expand all_forward (set_to "hierarchical" "true" :: blinky_args) blinky =
    Rejected "unknown argument for `state_machine` attribute".
Proof. vm_compute. auto 10. Qed.
