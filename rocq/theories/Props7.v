(** Props7.v — C29 to C31: machines generated by `#[state_machine]`.  Theorems only; see
    MacroSpec.v for the vocabulary ([marked], [declared], [variant_of], [calls_by_name],
    [action_runs], [declared_upward], [declared_route], [belongs], [performs]), MacroSem.v for
    the meaning of generated code ([generated_machine]) and the compiler's checks
    ([compiles]).

    [o] is the iteration order of the macro's hash maps; [B] are the user's functions. *)

From Coq Require Import String List Bool Arith Lia Permutation.
From Verif Require Import Machine Api Spec.
From Verif Require Import MacroSyntax MacroLower MacroGen MacroSem MacroSpec MacroExamples.
From Verif Require MacroLowerProofs MacroMachineProofs MacroBehaviour MacroPathProofs.
Import ListNotations.
Open Scope string_scope.
Open Scope list_scope.

(** C29.  Every value of the generated enums belongs to one method marked `#[state]`
    (`#[superstate]`). *)
Theorem C29_every_value :
  forall (o : orders) (args : list meta) (item : item_impl) (g : generated) (Val : Type),
    expand o args item = Done g -> compiles g ->
    (forall x : value Val (g_state_variants g),
       exists! m, In m (methods item) /\ marked "state" m = true /\ tag x = variant_of m) /\
    (forall u : value Val (g_super_variants g),
       exists! m, In m (methods item) /\ marked "superstate" m = true /\ tag u = variant_of m).
Proof.
  intros o args item g Val E CO. destruct (MacroBehaviour.expand_compiles o args item E CO) as [ND [c [sms [ums X]]]].
  split.
  - intros x. destruct (MacroMachineProofs.state_method X x) as [m [I T]].
    exists m. assert (J := proj1 (MacroMachineProofs.in_sms X m) I). rewrite MacroBehaviour.vname_variant in T.
    split; [tauto|]. intros m' [I' [K' T']].
    pose proof (MacroPathProofs.state_disc' X CO x m I T) as D1.
    assert (J' : In m' sms) by (apply (MacroMachineProofs.in_sms X); auto).
    pose proof (MacroPathProofs.state_disc' X CO x m' J' T') as D2. congruence.
  - intros x. destruct (MacroMachineProofs.super_method X x) as [m [I T]].
    exists m. assert (J := proj1 (MacroMachineProofs.in_ums X m) I). rewrite MacroBehaviour.vname_variant in T.
    split; [tauto|]. intros m' [I' [K' T']].
    pose proof (MacroPathProofs.super_disc' X CO x m I T) as D1.
    assert (J' : In m' ums) by (apply (MacroMachineProofs.in_ums X); auto).
    pose proof (MacroPathProofs.super_disc' X CO x m' J' T') as D2. congruence.
Qed.
Print Assumptions C29_every_value.

(** The handler of a state (superstate) value calls its own method, once, with what the
    parameters name, keeps its writes, and answers what it answered. *)
Theorem C29_handlers :
  forall (o : orders) (args : list meta) (item : item_impl) (g : generated)
         (Val Sh Ev Cx : Type) (B : bodies Val Sh Ev Cx g) (m : impl_fn),
    expand o args item = Done g -> compiles g -> hygienic item g ->
    In m (methods item) ->
    (marked "state" m = true ->
     forall (x x' : value Val (g_state_variants g)) sh sh' cx cx' e r,
       tag x = variant_of m ->
       s_handler (generated_machine B) x sh cx e = (r, x', sh', cx') ->
       tag x' = tag x /\
       calls_by_name (g_event_ident g) (g_context_ident g) (m_inputs m) (b_handler B (m_name m)) (Some e)
         (get_field x) sh cx r (get_field x') sh' cx') /\
    (marked "superstate" m = true ->
     forall (u u' : value Val (g_super_variants g)) sh sh' cx cx' e r,
       tag u = variant_of m ->
       u_handler (generated_machine B) u sh cx e = (r, u', sh', cx') ->
       tag u' = tag u /\
       calls_by_name (g_event_ident g) (g_context_ident g) (m_inputs m) (b_handler B (m_name m)) (Some e)
         (get_field u) sh cx r (get_field u') sh' cx').
Proof.
  intros o args item g Val Sh Ev Cx B m E CO HY I.
  destruct (MacroBehaviour.expand_compiles o args item E CO) as [ND [c [sms [ums X]]]].
  split.
  - intros K x x' sh sh' cx cx' e r T. rewrite <- MacroBehaviour.vname_variant in T.
    exact (@MacroBehaviour.state_handler Val Sh Ev Cx args item g c sms ums X CO HY B m x x' sh sh' cx cx' e r
             (proj2 (MacroMachineProofs.in_sms X m) (conj I K)) T).
  - intros K x x' sh sh' cx cx' e r T. rewrite <- MacroBehaviour.vname_variant in T.
    exact (@MacroBehaviour.super_handler Val Sh Ev Cx args item g c sms ums X CO HY B m x x' sh sh' cx cx' e r
             (proj2 (MacroMachineProofs.in_ums X m) (conj I K)) T).
Qed.
Print Assumptions C29_handlers.

(** The same for the declared entry and exit actions; without one nothing happens. *)
Theorem C29_actions :
  forall (o : orders) (args : list meta) (item : item_impl) (g : generated)
         (Val Sh Ev Cx : Type) (B : bodies Val Sh Ev Cx g) (m : impl_fn),
    expand o args item = Done g -> compiles g -> hygienic item g ->
    In m (methods item) ->
    (marked "state" m = true ->
     forall (x x' : value Val (g_state_variants g)) sh sh' cx cx' r,
       tag x = variant_of m ->
       (s_entry (generated_machine B) x sh cx = (r, x', sh', cx') ->
        action_runs item B (declared "state" "entry_action" m) x x' sh sh' cx cx' r) /\
       (s_exit (generated_machine B) x sh cx = (r, x', sh', cx') ->
        action_runs item B (declared "state" "exit_action" m) x x' sh sh' cx cx' r)) /\
    (marked "superstate" m = true ->
     forall (u u' : value Val (g_super_variants g)) sh sh' cx cx' r,
       tag u = variant_of m ->
       (u_entry (generated_machine B) u sh cx = (r, u', sh', cx') ->
        action_runs item B (declared "superstate" "entry_action" m) u u' sh sh' cx cx' r) /\
       (u_exit (generated_machine B) u sh cx = (r, u', sh', cx') ->
        action_runs item B (declared "superstate" "exit_action" m) u u' sh sh' cx cx' r)).
Proof.
  intros o args item g Val Sh Ev Cx B m E CO HY I.
  destruct (MacroBehaviour.expand_compiles o args item E CO) as [ND [c [sms [ums X]]]].
  split.
  - intros K x x' sh sh' cx cx' r T. rewrite <- MacroBehaviour.vname_variant in T.
    pose proof (proj2 (MacroMachineProofs.in_sms X m) (conj I K)) as J. split.
    + exact (@MacroBehaviour.state_entry Val Sh Ev Cx args item g c sms ums X CO HY B m x x' sh sh' cx cx' r J T).
    + exact (@MacroBehaviour.state_exit Val Sh Ev Cx args item g c sms ums X CO HY B m x x' sh sh' cx cx' r J T).
  - intros K x x' sh sh' cx cx' r T. rewrite <- MacroBehaviour.vname_variant in T.
    pose proof (proj2 (MacroMachineProofs.in_ums X m) (conj I K)) as J. split.
    + exact (@MacroBehaviour.super_entry Val Sh Ev Cx args item g c sms ums X CO HY B m x x' sh sh' cx cx' r J T).
    + exact (@MacroBehaviour.super_exit Val Sh Ev Cx args item g c sms ums X CO HY B m x x' sh sh' cx cx' r J T).
Qed.
Print Assumptions C29_actions.

(** Entering `LedOn { led: 3, count: 4 }` runs `enter_led_on(count, led, context)`. *)
Example C29_case :
  expand all_forward blinky_args blinky = Done blinky_code /\ compiles blinky_code /\
  hygienic blinky blinky_code /\ In led_on (methods blinky) /\ marked "state" led_on = true /\
  (forall x, tag x = variant_of led_on -> vals x = [3; 4] ->
     let '(r, x', sh', cx') := s_entry (generated_machine blinky_bodies) x 5 6 in
     r = Returns tt /\ vals x' = [13; 14] /\ sh' = 5 /\ cx' = 106).
Proof.
  split; [exact blinky_expands|]. split; [exact blinky_compiles|]. split; [exact blinky_hygienic|].
  split; [now left|]. split; [reflexivity|].
  intros [t vs W] T V. cbn in T, V. subst t vs. vm_compute. auto.
Qed.

(** Why [hygienic] is needed.  A state that keeps a copy of the machine in a field called
    `shared_storage`: its entry action, `fn enter(&mut self)`, runs on the copy. *)
Definition snapshot : item_impl :=
  impl_of [method [with_args "state" [set_to "entry_action" "enter"]] "on" [by_ref "shared_storage" (named_type "Blinky")];
           method [MetaPath ["action"]] "enter" [Receiver]].
Theorem C29_counterexample :
  exists g, expand all_forward [set_to "initial" "State::on(Blinky)"] snapshot = Done g /\ compiles g /\
    forall (B : bodies nat nat unit unit g) (x : value nat (g_state_variants g)) (copy sh : nat),
      (tag x, vals x) = ("On", [copy]) ->
      (forall a, b_action B "enter" [a] = (Returns tt, [match a with
                                                       | AShared n => AShared (S n) | AField n => AField (S n) | _ => a end])) ->
      let '(r, x', sh', _) := s_entry (generated_machine B) x sh tt in
      r = Returns tt /\ (tag x', vals x') = ("On", [S copy]) /\ sh' = sh.
Proof.
  eexists. split; [vm_compute; reflexivity|]. split; [apply compilesb_ok; vm_compute; reflexivity|].
  intros B [t v ok] copy sh N H. cbn [tag vals] in N. injection N as -> ->.
  cbn. rewrite H. cbn. repeat split.
Qed.
Print Assumptions C29_counterexample.

(** C30.  The superstate of a value is the declared one, with the value's own fields. *)
Theorem C30_superstates :
  forall (o : orders) (args : list meta) (item : item_impl) (g : generated)
         (Val Sh Ev Cx : Type) (B : bodies Val Sh Ev Cx g) (m : impl_fn),
    expand o args item = Done g -> compiles g -> In m (methods item) ->
    (marked "state" m = true ->
     forall x : value Val (g_state_variants g), tag x = variant_of m ->
     match declared "state" "superstate" m with
     | None => s_super (generated_machine B) x = None
     | Some u => exists mu v, In mu (methods item) /\ marked "superstate" mu = true /\ m_name mu = u /\
         s_super (generated_machine B) x = Some v /\ tag v = variant_of mu /\
         (forall f, get_field v f <> None -> get_field v f = get_field x f)
     end) /\
    (marked "superstate" m = true ->
     forall y : value Val (g_super_variants g), tag y = variant_of m ->
     match declared "superstate" "superstate" m with
     | None => u_super (generated_machine B) y = None
     | Some u => exists mu v, In mu (methods item) /\ marked "superstate" mu = true /\ m_name mu = u /\
         u_super (generated_machine B) y = Some v /\ tag v = variant_of mu /\
         (forall f, get_field v f <> None -> get_field v f = get_field y f)
     end).
Proof.
  intros o args item g Val Sh Ev Cx B m E CO I.
  destruct (MacroBehaviour.expand_compiles o args item E CO) as [ND [c [sms [ums X]]]].
  split.
  - intros K x T. rewrite <- MacroBehaviour.vname_variant in T.
    pose proof (proj2 (MacroMachineProofs.in_sms X m) (conj I K)) as J.
    pose proof (@MacroMachineProofs.state_super Val Sh Ev Cx args item g c sms ums X CO B m x J T) as S.
    destruct (declared "state" "superstate" m) as [u|]; [|exact S].
    destruct S as (mu & v & F & S1 & S2 & S3 & _).
    destruct (MacroMachineProofs.find_method_in item _ _ F) as [A1 [A2 A3]].
    exists mu, v. rewrite <- MacroBehaviour.vname_variant. auto 10.
  - intros K x T. rewrite <- MacroBehaviour.vname_variant in T.
    pose proof (proj2 (MacroMachineProofs.in_ums X m) (conj I K)) as J.
    pose proof (@MacroMachineProofs.super_super Val Sh Ev Cx args item g c sms ums X CO B m x J T) as S.
    destruct (declared "superstate" "superstate" m) as [u|]; [|exact S].
    destruct S as (mu & v & F & S1 & S2 & S3 & _).
    destruct (MacroMachineProofs.find_method_in item _ _ F) as [A1 [A2 A3]].
    exists mu, v. rewrite <- MacroBehaviour.vname_variant. auto 10.
Qed.
Print Assumptions C30_superstates.

(** A reference to a superstate or action that does not exist does not get through the macro
    and the compiler. *)
Theorem C30_undefined_rejected :
  forall (o : orders) (args : list meta) (item : item_impl) (m : impl_fn)
         (kind key target : ident) (name : ident),
    In m (methods item) -> marked kind m = true -> kind = "state" \/ kind = "superstate" ->
    (key = "superstate" /\ target = "superstate") \/
    ((key = "entry_action" \/ key = "exit_action") /\ target = "action") ->
    declared kind key m = Some name ->
    (forall m', In m' (methods item) -> marked target m' = true -> m_name m' <> name) ->
    forall g, expand o args item = Done g -> ~ compiles g.
Proof.
  intros o args item m kind key target name I K KK KT D N g E CO.
  destruct (MacroBehaviour.expand_compiles o args item E CO) as [ND [c [sms [ums X]]]].
  assert (R : MacroLowerProofs.resolved item kind m).
  { destruct KK as [->| ->].
    - apply (MacroLowerProofs.ex_state_resolved X). apply (MacroMachineProofs.in_sms X). auto.
    - apply (MacroLowerProofs.ex_super_resolved X). apply (MacroMachineProofs.in_ums X). auto. }
  destruct R as [R1 R2 R3].
  assert (Q : exists m', MacroLowerProofs.find_method item target name = Some m').
  { destruct KT as [[-> ->]|[[->| ->] ->]]; auto. }
  destruct Q as [m' F]. destruct (MacroMachineProofs.find_method_in item _ _ F) as [A1 [A2 A3]].
  exact (N m' A1 A2 A3).
Qed.
Print Assumptions C30_undefined_rejected.

Example C30_case :
  declared "state" "superstate" led_on = Some "blinking" /\
  declared "state" "superstate" not_blinking = None /\
  declared "superstate" "superstate" blinking = Some "top" /\
  (forall x, tag x = variant_of led_on -> vals x = [3; 4] ->
     exists v, s_super (generated_machine blinky_bodies) x = Some v /\ tag v = "Blinking" /\ vals v = [3]) /\
  expand all_forward blinky_args (impl_of [led_on; blinking; top]) = Rejected "entry action not found".
Proof.
  split; [reflexivity|]. split; [reflexivity|]. split; [reflexivity|]. split; [|vm_compute; reflexivity].
  intros [t vs W] T V. cbn in T, V. subst t vs. eexists. split; [vm_compute; reflexivity|]. split; reflexivity.
Qed.

(** C31.  What the runtime theorems (C01 to C28) assume holds for every generated machine
    whose superstates are acyclic. *)
Theorem C31_well_formed :
  forall (o : orders) (args : list meta) (item : item_impl) (g : generated)
         (Val Sh Ev Cx : Type) (B : bodies Val Sh Ev Cx g) (stack : nat),
    expand o args item = Done g -> compiles g -> acyclic item ->
    1 <= stack -> length (filter (marked "superstate") (methods item)) <= stack ->
    exists h, well_formed h (generated_machine B) stack /\ faithful_views (generated_machine B).
Proof.
  intros o args item g Val Sh Ev Cx B stack E CO AC S1 S2.
  destruct (MacroBehaviour.expand_compiles o args item E CO) as [ND [c [sms [ums X]]]].
  exists (MacroMachineProofs.generated_hierarchy g). split.
  - exact (@MacroPathProofs.generated_well_formed Val Sh Ev Cx args item g c sms ums X CO B AC stack S1 S2).
  - exact (@MacroMachineProofs.generated_views Val Sh Ev Cx args item g c sms ums X CO B).
Qed.
Print Assumptions C31_well_formed.

(** Even without that: callbacks keep the variant, and superstates are views of the leaf. *)
Theorem C31_stable :
  forall (o : orders) (args : list meta) (item : item_impl) (g : generated)
         (Val Sh Ev Cx : Type) (B : bodies Val Sh Ev Cx g),
    expand o args item = Done g -> compiles g ->
    stable (generated_machine B) /\ faithful_views (generated_machine B) /\
    exists h, follows h (generated_machine B).
Proof.
  intros o args item g Val Sh Ev Cx B E CO.
  destruct (MacroBehaviour.expand_compiles o args item E CO) as [ND [c [sms [ums X]]]].
  split; [apply MacroMachineProofs.generated_stable|]. split.
  - exact (@MacroMachineProofs.generated_views Val Sh Ev Cx args item g c sms ums X CO B).
  - exists (MacroMachineProofs.generated_hierarchy g).
    exact (@MacroMachineProofs.generated_follows Val Sh Ev Cx args item g c sms ums X CO B).
Qed.
Print Assumptions C31_stable.

(** In terms of the source: handlers are called along the declared superstates, ... *)
Theorem C31_dispatch :
  forall (o : orders) (args : list meta) (item : item_impl) (g : generated)
         (Val Sh Ev Cx : Type) (B : bodies Val Sh Ev Cx g) (stack : nat) (md : mode)
         (sm : state_machine (generated_machine B)) (e : Ev) (cx : Cx) (m : impl_fn),
    expand o args item = Done g -> compiles g -> acyclic item ->
    1 <= stack -> length (filter (marked "superstate") (methods item)) <= stack ->
    In m (methods item) -> marked "state" m = true -> tag (sm_state sm) = variant_of m ->
    exists called above, declared_upward item m (called ++ above) /\
      Forall2 (fun n el => belongs item n el)
              (handled (a_tr (@handle_with_context (generated_machine B) stack md sm e cx))) called.
Proof.
  intros o args item g Val Sh Ev Cx B stack md sm e cx m E CO AC S1 S2 I K T.
  destruct (MacroBehaviour.expand_compiles o args item E CO) as [ND [c [sms [ums X]]]].
  exact (@MacroPathProofs.generated_dispatch Val Sh Ev Cx args item g c sms ums X CO B AC stack S1 S2
           md sm e cx m I K T).
Qed.
Print Assumptions C31_dispatch.

(** ... and a completed transition exits and enters what the declared superstates say. *)
Theorem C31_transition :
  forall (o : orders) (args : list meta) (item : item_impl) (g : generated)
         (Val Sh Ev Cx : Type) (B : bodies Val Sh Ev Cx g) (stack : nat) (md : mode)
         (sm : state_machine (generated_machine B)) (e : Ev) (cx : Cx) (p : place)
         (target : value Val (g_state_variants g)) (ms mt : impl_fn),
    expand o args item = Done g -> compiles g -> acyclic item ->
    1 <= stack -> length (filter (marked "superstate") (methods item)) <= stack ->
    In ms (methods item) -> marked "state" ms = true -> tag (sm_state sm) = variant_of ms ->
    In mt (methods item) -> marked "state" mt = true -> tag target = variant_of mt ->
    initialized sm = true ->
    let r := @handle_with_context (generated_machine B) stack md sm e cx in
    @asks_for (generated_machine B) (a_tr r) p e target -> a_out r = Ret tt ->
    exists steps, declared_route item ms mt steps /\
      Forall2 (performs item B) (filter (@is_action (generated_machine B)) (a_tr r)) steps /\
      tag (sm_state (a_machine r)) = variant_of mt.
Proof.
  intros o args item g Val Sh Ev Cx B stack md sm e cx p target ms mt E CO AC S1 S2.
  destruct (MacroBehaviour.expand_compiles o args item E CO) as [ND [c [sms [ums X]]]].
  exact (@MacroPathProofs.generated_transition Val Sh Ev Cx args item g c sms ums ND X CO B AC stack S1 S2
           md sm e cx p target ms mt).
Qed.
Print Assumptions C31_transition.

(** Blinky in `LedOn`: `top` asks for `NotBlinking`. *)
Definition blinky_machine := generated_machine blinky_bodies.
Definition blinky_running : state_machine blinky_machine :=
  StateMachine (@Inner blinky_machine 5 first_state) true.
Definition node_tag (n : node (State blinky_machine) (Sup blinky_machine)) : ident :=
  match n with NState x => tag x | NSuper u => tag u end.
Example C31_case :
  acyclic blinky /\ length (filter (marked "superstate") (methods blinky)) = 2 /\
  let r := @handle_with_context blinky_machine 2 BlockingMode blinky_running 9 6 in
  @asks_for blinky_machine (a_tr r) (AtSuper 1) 9
    (a_value blinky_code "NotBlinking" [7] first_state) /\
  a_out r = Ret tt /\ tag (sm_state (a_machine r)) = variant_of not_blinking /\
  map node_tag (handled (a_tr r)) = ["LedOn"; "Blinking"; "Top"] /\
  declared_route blinky led_on not_blinking
    [Exits ("state", "led_on"); Exits ("superstate", "blinking"); Exits ("superstate", "top");
     Enters ("state", "not_blinking")].
Proof.
  split; [exact blinky_acyclic|]. split; [reflexivity|]. cbn zeta.
  split; [vm_compute; auto|]. split; [vm_compute; reflexivity|]. split; [vm_compute; reflexivity|].
  split; [vm_compute; reflexivity|].
  right. split; [discriminate|].
  exists [], [("superstate", "top"); ("superstate", "blinking"); ("state", "led_on")], [("state", "not_blinking")].
  split; [|split; [|split; [cbn; discriminate|reflexivity]]].
  - exists ["blinking"; "top"]. split; [|reflexivity].
    apply (@lineage_up blinky blinking); [cbn; tauto|reflexivity|].
    apply (@lineage_up blinky top); [cbn; tauto|reflexivity|]. constructor.
  - exists []. split; [constructor|reflexivity].
Qed.
