(** Props12.v — C51, C52: callbacks that are left out, and the public helpers about depths.
    Theorems only. *)

From Coq Require Import String List Bool Arith Lia.
From Verif Require Import MacroSyntax MacroVisit MacroLower MacroGen MacroSem MacroSpec MacroExamples.
From Verif Require Import Machine Blocking Api Spec Examples.
From Verif Require OmitProofs Props7 Props8.
Import ListNotations.

(** C51.  If actions and hooks are left out, initialization only marks the machine, and
    handling an event is nothing but its handler calls, one after the other, and replacing the
    state by the very value asked for. *)
Theorem C51_init_changes_nothing :
  forall (h : hierarchy) (m : machine) (stack : nat) (md : mode) (sm : state_machine m) (cx : Ctx m),
    well_formed h m stack -> faithful_views m -> silent m ->
    exists tr, init_with_context stack md sm cx = ApiRes (Ret tt) (StateMachine (sm_inner sm) true) cx tr.
Proof.
  intros h m stack md sm cx W V Q. exact (@OmitProofs.silent_init m V Q h stack W md sm cx).
Qed.
Print Assumptions C51_init_changes_nothing.

Theorem C51_only_handlers :
  forall (h : hierarchy) (m : machine) (stack : nat) (md : mode) (sm : state_machine m)
         (e : Event m) (cx : Ctx m),
    well_formed h m stack -> faithful_views m -> silent m ->
    let r := handle_with_context stack md sm e cx in
    exists x, thread (touches m) (filter (@is_handler m) (a_tr r)) (sm_state sm, sm_shared sm, cx) (a_out r)
                     (x, sm_shared (a_machine r), a_cx r) /\
      ((sm_state (a_machine r) = x /\ (a_out r = Ret tt -> no_transition (a_tr r))) \/
       (exists p target, asks_for (a_tr r) p e target /\ sm_state (a_machine r) = target /\ a_out r = Ret tt)).
Proof.
  intros h m stack md sm e cx W V Q. exact (@OmitProofs.silent_handle m V Q h stack W md sm e cx).
Qed.
Print Assumptions C51_only_handlers.

(** The macro leaves them out if they are not asked for. *)
Theorem C51_macro :
  forall (o : orders) (args : list meta) (item : item_impl) (g : generated)
         (Val Sh Ev Cx : Type) (B : bodies Val Sh Ev Cx g),
    expand o args item = Done g -> compiles g -> hygienic item g ->
    NoDup (map m_name (methods item)) ->
    (forall m kind, In m (methods item) -> marked kind m = true -> In kind ["state"; "superstate"]%string ->
       declared kind "entry_action" m = None /\ declared kind "exit_action" m = None) ->
    (forall key, In key ["before_dispatch"; "after_dispatch"; "before_transition"; "after_transition"]%string ->
       last_value as_path key args = None) ->
    silent (generated_machine B).
Proof.
  intros o args item g Val Sh Ev Cx B E CO HY ND A H.
  destruct (Props7.C29_every_value o args item g Val E CO) as [VS VU].
  assert (S : forall (x : value Val (g_state_variants g)) sh cx,
     s_entry (generated_machine B) x sh cx = no_action x sh cx /\ s_exit (generated_machine B) x sh cx = no_action x sh cx).
  { intros x sh cx. destruct (VS x) as [m [(I & M & T) _]].
    destruct (A m _ I M) as [A1 A2]; [cbn; tauto|].
    destruct (s_entry (generated_machine B) x sh cx) as [[[r x'] sh'] cx'] eqn:E1.
    destruct (s_exit (generated_machine B) x sh cx) as [[[r1 x1'] sh1'] cx1'] eqn:E2.
    pose proof (proj1 (proj1 (Props7.C29_actions o args item g Val Sh Ev Cx B m E CO HY I) M
      x x' sh sh' cx cx' r T) E1) as R1.
    pose proof (proj2 (proj1 (Props7.C29_actions o args item g Val Sh Ev Cx B m E CO HY I) M
      x x1' sh sh1' cx cx1' r1 T) E2) as R2.
    rewrite A1 in R1. rewrite A2 in R2. cbn in R1, R2.
    destruct R1 as (-> & -> & -> & ->), R2 as (-> & -> & -> & ->). split; reflexivity. }
  assert (U : forall (u : value Val (g_super_variants g)) sh cx,
     u_entry (generated_machine B) u sh cx = no_action u sh cx /\ u_exit (generated_machine B) u sh cx = no_action u sh cx).
  { intros x sh cx. destruct (VU x) as [m [(I & M & T) _]].
    destruct (A m _ I M) as [A1 A2]; [cbn; tauto|].
    destruct (u_entry (generated_machine B) x sh cx) as [[[r x'] sh'] cx'] eqn:E1.
    destruct (u_exit (generated_machine B) x sh cx) as [[[r1 x1'] sh1'] cx1'] eqn:E2.
    pose proof (proj1 (proj2 (Props7.C29_actions o args item g Val Sh Ev Cx B m E CO HY I) M
      x x' sh sh' cx cx' r T) E1) as R1.
    pose proof (proj2 (proj2 (Props7.C29_actions o args item g Val Sh Ev Cx B m E CO HY I) M
      x x1' sh sh1' cx cx1' r1 T) E2) as R2.
    rewrite A1 in R1. rewrite A2 in R2. cbn in R1, R2.
    destruct R1 as (-> & -> & -> & ->), R2 as (-> & -> & -> & ->). split; reflexivity. }
  pose proof (fun sh => Props8.C34_hooks_partial o args item g Val Sh Ev Cx B sh E ND) as K. cbv zeta in K.
  split; intros.
  - apply S.
  - apply S.
  - apply U.
  - apply U.
  - destruct (K sh) as (K1 & _). rewrite (H "before_dispatch"%string) in K1 by (cbn; tauto). apply K1.
  - destruct (K sh) as (_ & K1 & _). rewrite (H "after_dispatch"%string) in K1 by (cbn; tauto). apply K1.
  - destruct (K sh) as (_ & _ & K1 & _). rewrite (H "before_transition"%string) in K1 by (cbn; tauto). apply K1.
  - destruct (K sh) as (_ & _ & _ & K1). rewrite (H "after_transition"%string) in K1 by (cbn; tauto). apply K1.
Qed.
Print Assumptions C51_macro.

(** The demo machine with the defaults instead. *)
Definition bare : machine := {|
  State := demo_state; Sup := demo_sup; Shared := list nat; Event := demo_event; Ctx := nat;
  initial := On 0;
  s_disc := demo_s_disc; u_disc := demo_u_disc;
  s_super := demo_s_super; s_put := demo_s_put;
  u_super := demo_u_super; u_put := demo_u_put;
  s_handler := demo_s_handler; s_entry := no_action; s_exit := no_action;
  u_handler := demo_u_handler; u_entry := no_action; u_exit := no_action;
  h_before_dispatch := no_dispatch_hook; h_after_dispatch := no_dispatch_hook;
  h_before_transition := no_transition_hook; h_after_transition := no_transition_hook
|}.
Example C51_case : well_formed demo_hierarchy bare 2 /\ faithful_views bare /\ silent bare /\
  let r := handle_with_context 2 BlockingMode (new_state_machine bare []) Button 0 in
  asks_for (a_tr r) (AtSuper 0) Button (Idle 1) /\ sm_state (a_machine r) = Idle 1 /\
  sm_shared (a_machine r) = [100] /\ a_cx r = 1.
Proof.
  destruct (demo_well_formed false) as [[F1 F2 F3 F4] St Hh].
  split; [|split; [|split]].
  - split; [split; assumption|split|exact Hh]; try (intros; apply (st_s_handler St) in H; exact H);
      try (intros; apply (st_u_handler St) in H; exact H);
      intros x sh cx r x' sh' cx' E; injection E as _ <- _ _; reflexivity.
  - destruct (demo_views false) as [V1 V2 V3 V4 V5 V6]. split; assumption.
  - split; reflexivity.
  - vm_compute. auto 9.
Qed.

(** C52.  `StateExt::depth`, `same_state`, `common_ancestor_depth` and `transition_path`.
    [path], [route], [diverge]: see Spec.v.  The two modules have the same text (Awaitable.v
    uses the functions of Blocking.v). *)
Theorem C52_depth :
  forall (h : hierarchy) (m : machine) (stack : nat) (x : State m) (p : list place),
    well_formed h m stack -> path h (s_disc m x) p ->
    state_depth m stack x = Ret (length p).
Proof. intros h m stack x p W. exact (@OmitProofs.depth_path h m stack W x p). Qed.
Print Assumptions C52_depth.

Theorem C52_common_ancestor_depth :
  forall (h : hierarchy) (m : machine) (stack : nat) (x y : State m),
    well_formed h m stack ->
    (forall common xs ys, s_disc m x <> s_disc m y ->
       path h (s_disc m x) (common ++ xs) -> path h (s_disc m y) (common ++ ys) -> diverge xs ys ->
       state_common_ancestor_depth m stack x y = Ret (length common)) /\
    (forall p, s_disc m x = s_disc m y -> path h (s_disc m x) p ->
       state_common_ancestor_depth m stack x y = Ret (length p)).
Proof.
  intros h m stack x y W. split.
  - exact (@OmitProofs.common_ancestor_depth_path h m stack W x y).
  - exact (@OmitProofs.common_ancestor_depth_same h m stack W x y).
Qed.
Print Assumptions C52_common_ancestor_depth.

Theorem C52_transition_path :
  forall (h : hierarchy) (m : machine) (stack : nat) (x y : State m) (l : list act),
    well_formed h m stack -> route h (s_disc m x) (s_disc m y) l ->
    let is_exit a := match a with Exit _ => true | Enter _ => false end in
    transition_path m stack x y = Ret (length (filter is_exit l), length (filter (fun a => negb (is_exit a)) l)).
Proof.
  intros h m stack x y l W R is_exit.
  rewrite (@OmitProofs.transition_path_route h m stack W x y l R). unfold OmitProofs.exits, OmitProofs.entries.
  do 2 f_equal. f_equal. apply filter_ext. now intros [].
Qed.
Print Assumptions C52_transition_path.

Example C52_case :
  well_formed demo_hierarchy (demo true) 2 /\
  path demo_hierarchy (s_disc (demo true) (On 3)) ([AtSuper 1] ++ [AtSuper 0; AtState 0]) /\
  path demo_hierarchy (s_disc (demo true) (Idle 4)) ([AtSuper 1] ++ [AtState 2]) /\
  diverge [AtSuper 0; AtState 0] [AtState 2] /\
  state_common_ancestor_depth (demo true) 2 (On 3) (Idle 4) = Ret 1 /\
  transition_path (demo true) 2 (On 3) (Idle 4) = Ret (2, 1).
Proof.
  split; [apply demo_well_formed|].
  split; [exists [0; 1]; split; [repeat constructor|reflexivity]|].
  split; [exists [1]; split; [repeat constructor|reflexivity]|].
  split; [discriminate|]. split; reflexivity.
Qed.
