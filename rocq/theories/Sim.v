(** Sim.v — machines that cannot be told apart by their callbacks run in lockstep: if two
    machines have related callbacks then every API call on related machines ends the same
    way, in related machines, with related logs.  Definitions first, then proofs. *)

From Coq Require Import List Bool Arith Lia.
From Verif Require Import Machine Blocking Awaitable Api HistoryProofs.
Import ListNotations.
Set Implicit Arguments.

(** Relations between two machines' types of states, superstates, shared storage, events
    and contexts. *)
Record relations (m1 m2 : machine) := Relations {
  r_state : State m1 -> State m2 -> Prop;
  r_sup : Sup m1 -> Sup m2 -> Prop;
  r_shared : Shared m1 -> Shared m2 -> Prop;
  r_event : Event m1 -> Event m2 -> Prop;
  r_ctx : Ctx m1 -> Ctx m2 -> Prop
}.

Inductive opt_rel {A B} (R : A -> B -> Prop) : option A -> option B -> Prop :=
| opt_none : opt_rel R None None
| opt_some a b : R a b -> opt_rel R (Some a) (Some b).

Inductive response_rel {A B} (R : A -> B -> Prop) : response A -> response B -> Prop :=
| rr_handled : response_rel R Handled Handled
| rr_super : response_rel R Super Super
| rr_transition a b : R a b -> response_rel R (Transition a) (Transition b).

Inductive reply_rel {A B} (R : A -> B -> Prop) : reply A -> reply B -> Prop :=
| ry_returns a b : R a b -> reply_rel R (Returns a) (Returns b)
| ry_panics : reply_rel R Panics Panics
| ry_cancelled : reply_rel R Cancelled Cancelled.

Inductive node_rel {A A' B B'} (R : A -> B -> Prop) (R' : A' -> B' -> Prop)
  : node A A' -> node B B' -> Prop :=
| nr_state a b : R a b -> node_rel R R' (NState a) (NState b)
| nr_super a b : R' a b -> node_rel R R' (NSuper a) (NSuper b).

Inductive outcome_rel {A B} (R : A -> B -> Prop) : outcome A -> outcome B -> Prop :=
| or_ret a b : R a b -> outcome_rel R (Ret a) (Ret b)
| or_abort w : outcome_rel R (Abort w) (Abort w).

Section Relations.
  Variables m1 m2 : machine.
  Variable R : relations m1 m2.

  (** Results of callbacks. *)
  Definition callback_rel {A B X Y} (RA : A -> B -> Prop) (RX : X -> Y -> Prop)
      (c : reply A * X * Shared m1 * Ctx m1) (c' : reply B * Y * Shared m2 * Ctx m2) : Prop :=
    let '(a, x, sh, cx) := c in
    let '(a', x', sh', cx') := c' in
    reply_rel RA a a' /\ RX x x' /\ r_shared R sh sh' /\ r_ctx R cx cx'.
  Definition hook_rel (c : reply unit * Shared m1) (c' : reply unit * Shared m2) : Prop :=
    reply_rel eq (fst c) (fst c') /\ r_shared R (snd c) (snd c').

  Notation rnode := (node_rel (r_state R) (r_sup R)).
  Notation rresp := (response_rel (r_state R)).

  (** The callbacks of [m1] and [m2] respect the relations: given related arguments they
      give related results.  Equality of variants is preserved both ways. *)
  Record similar : Prop := {
    si_initial : r_state R (initial m1) (initial m2);
    si_s_disc : forall x x' y y', r_state R x x' -> r_state R y y' ->
      (s_disc m1 x = s_disc m1 y <-> s_disc m2 x' = s_disc m2 y');
    si_u_disc : forall x x' y y', r_sup R x x' -> r_sup R y y' ->
      (u_disc m1 x = u_disc m1 y <-> u_disc m2 x' = u_disc m2 y');
    si_s_super : forall x x', r_state R x x' -> opt_rel (r_sup R) (s_super m1 x) (s_super m2 x');
    si_u_super : forall u u', r_sup R u u' -> opt_rel (r_sup R) (u_super m1 u) (u_super m2 u');
    si_s_put : forall x x' v v', r_state R x x' -> r_sup R v v' ->
      r_state R (s_put m1 x v) (s_put m2 x' v');
    si_u_put : forall u u' v v', r_sup R u u' -> r_sup R v v' ->
      r_sup R (u_put m1 u v) (u_put m2 u' v');
    si_s_handler : forall x x' sh sh' cx cx' e e', r_state R x x' -> r_shared R sh sh' ->
      r_ctx R cx cx' -> r_event R e e' ->
      callback_rel rresp (r_state R) (s_handler m1 x sh cx e) (s_handler m2 x' sh' cx' e');
    si_s_entry : forall x x' sh sh' cx cx', r_state R x x' -> r_shared R sh sh' ->
      r_ctx R cx cx' ->
      callback_rel eq (r_state R) (s_entry m1 x sh cx) (s_entry m2 x' sh' cx');
    si_s_exit : forall x x' sh sh' cx cx', r_state R x x' -> r_shared R sh sh' ->
      r_ctx R cx cx' ->
      callback_rel eq (r_state R) (s_exit m1 x sh cx) (s_exit m2 x' sh' cx');
    si_u_handler : forall x x' sh sh' cx cx' e e', r_sup R x x' -> r_shared R sh sh' ->
      r_ctx R cx cx' -> r_event R e e' ->
      callback_rel rresp (r_sup R) (u_handler m1 x sh cx e) (u_handler m2 x' sh' cx' e');
    si_u_entry : forall x x' sh sh' cx cx', r_sup R x x' -> r_shared R sh sh' ->
      r_ctx R cx cx' ->
      callback_rel eq (r_sup R) (u_entry m1 x sh cx) (u_entry m2 x' sh' cx');
    si_u_exit : forall x x' sh sh' cx cx', r_sup R x x' -> r_shared R sh sh' ->
      r_ctx R cx cx' ->
      callback_rel eq (r_sup R) (u_exit m1 x sh cx) (u_exit m2 x' sh' cx');
    si_before_dispatch : forall sh sh' n n' e e', r_shared R sh sh' -> rnode n n' ->
      r_event R e e' -> hook_rel (h_before_dispatch m1 sh n e) (h_before_dispatch m2 sh' n' e');
    si_after_dispatch : forall sh sh' n n' e e', r_shared R sh sh' -> rnode n n' ->
      r_event R e e' -> hook_rel (h_after_dispatch m1 sh n e) (h_after_dispatch m2 sh' n' e');
    si_before_transition : forall sh sh' a a' b b', r_shared R sh sh' -> r_state R a a' ->
      r_state R b b' ->
      hook_rel (h_before_transition m1 sh a b) (h_before_transition m2 sh' a' b');
    si_after_transition : forall sh sh' a a' b b', r_shared R sh sh' -> r_state R a a' ->
      r_state R b b' ->
      hook_rel (h_after_transition m1 sh a b) (h_after_transition m2 sh' a' b')
  }.

  (** Log entries: the same callback with related arguments. *)
  Inductive obs_rel : obs m1 -> obs m2 -> Prop :=
  | ol_before_dispatch n n' e e' : rnode n n' -> r_event R e e' ->
      obs_rel (OBeforeDispatch n e) (OBeforeDispatch n' e')
  | ol_handler n n' e e' : rnode n n' -> r_event R e e' ->
      obs_rel (OHandler n e) (OHandler n' e')
  | ol_return a a' : rresp a a' -> obs_rel (OReturn a) (OReturn a')
  | ol_after_dispatch n n' e e' : rnode n n' -> r_event R e e' ->
      obs_rel (OAfterDispatch n e) (OAfterDispatch n' e')
  | ol_before_transition a a' b b' : r_state R a a' -> r_state R b b' ->
      obs_rel (OBeforeTransition a b) (OBeforeTransition a' b')
  | ol_after_transition a a' b b' : r_state R a a' -> r_state R b b' ->
      obs_rel (OAfterTransition a b) (OAfterTransition a' b')
  | ol_exit n n' : rnode n n' -> obs_rel (OExit n) (OExit n')
  | ol_enter n n' : rnode n n' -> obs_rel (OEnter n) (OEnter n').

  (** Related machines and related results of API calls. *)
  Definition machine_rel (sm : state_machine m1) (sm' : state_machine m2) : Prop :=
    r_state R (sm_state sm) (sm_state sm') /\ r_shared R (sm_shared sm) (sm_shared sm') /\
    initialized sm = initialized sm'.
  Definition api_rel (r : api_res m1 (state_machine m1)) (r' : api_res m2 (state_machine m2))
    : Prop :=
    a_out r = a_out r' /\ machine_rel (a_machine r) (a_machine r') /\
    r_ctx R (a_cx r) (a_cx r') /\ Forall2 obs_rel (a_tr r) (a_tr r').
  Definition called_rel (c : called m1) (c' : called m2) : Prop :=
    c_out c = c_out c' /\ opt_rel (r_ctx R) (c_cx c) (c_cx c') /\
    Forall2 obs_rel (c_tr c) (c_tr c').

  (** *** Proofs *)

  Hypothesis H : similar.
  Variable stack : nat.

  Definition res_rel {X Y A B} (RX : X -> Y -> Prop) (RA : A -> B -> Prop)
      (r : res m1 X A) (r' : res m2 Y B) : Prop :=
    outcome_rel RA (r_out r) (r_out r') /\ RX (r_self r) (r_self r') /\
    r_shared R (r_sh r) (r_sh r') /\ r_ctx R (r_cx r) (r_cx r') /\
    Forall2 obs_rel (r_tr r) (r_tr r').

  Definition comp_rel {X Y A B} (RX : X -> Y -> Prop) (RA : A -> B -> Prop)
      (c : comp m1 X A) (c' : comp m2 Y B) : Prop :=
    forall x x' sh sh' cx cx', RX x x' -> r_shared R sh sh' -> r_ctx R cx cx' ->
      res_rel RX RA (c x sh cx) (c' x' sh' cx').

  Lemma sim_ret {X Y A B} (RX : X -> Y -> Prop) (RA : A -> B -> Prop) a b :
    RA a b -> comp_rel RX RA (ret a) (ret b).
  Proof. intros Ha x x' sh sh' cx cx' Hx Hs Hc. repeat split; simpl; auto. now constructor. Qed.

  Lemma sim_abort {X Y A B} (RX : X -> Y -> Prop) (RA : A -> B -> Prop) w :
    comp_rel RX RA (abort w) (abort w).
  Proof. intros x x' sh sh' cx cx' Hx Hs Hc. repeat split; simpl; auto. constructor. Qed.

  Lemma sim_self {X Y} (RX : X -> Y -> Prop) : comp_rel RX RX self self.
  Proof. intros x x' sh sh' cx cx' Hx Hs Hc. repeat split; simpl; auto. now constructor. Qed.

  Lemma sim_lift {X Y A B} (RX : X -> Y -> Prop) (RA : A -> B -> Prop) o o' :
    outcome_rel RA o o' -> comp_rel RX RA (lift o) (lift o').
  Proof. intros Ho x x' sh sh' cx cx' Hx Hs Hc. repeat split; simpl; auto. Qed.

  Lemma sim_bind {X Y A B A' B'} (RX : X -> Y -> Prop) (RA : A -> B -> Prop)
      (RB : A' -> B' -> Prop) c c' k k' :
    comp_rel RX RA c c' -> (forall a b, RA a b -> comp_rel RX RB (k a) (k' b)) ->
    comp_rel RX RB (bind c k) (bind c' k').
  Proof.
    intros Hc Hk x x' sh sh' cx cx' Hx Hs Hx'. unfold bind.
    destruct (Hc _ _ _ _ _ _ Hx Hs Hx') as (Ho & Hs1 & Hsh1 & Hcx1 & Ht1).
    destruct Ho as [a b Hab|w].
    - destruct (Hk a b Hab _ _ _ _ _ _ Hs1 Hsh1 Hcx1) as (Ho2 & Hs2 & Hsh2 & Hcx2 & Ht2).
      repeat split; simpl; auto. now apply Forall2_app.
    - repeat split; simpl; auto. constructor.
  Qed.

  Lemma sim_via {X Y V V' A B} (RX : X -> Y -> Prop) (RV : V -> V' -> Prop)
      (RA : A -> B -> Prop) put put' v v' c c' :
    (forall x x' v v', RX x x' -> RV v v' -> RX (put x v) (put' x' v')) -> RV v v' ->
    comp_rel RV RA c c' -> comp_rel RX RA (via put v c) (via put' v' c').
  Proof.
    intros Hp Hv Hc x x' sh sh' cx cx' Hx Hs Hx'. unfold via.
    destruct (Hc _ _ _ _ _ _ Hv Hs Hx') as (Ho & Hs1 & Hsh1 & Hcx1 & Ht1).
    repeat split; simpl; auto.
  Qed.

  Lemma sim_outcome_of {A B} (RA : A -> B -> Prop) a b :
    reply_rel RA a b -> outcome_rel RA (outcome_of a) (outcome_of b).
  Proof. intros []; constructor; auto. Qed.

  Lemma sim_action {X Y} (RX : X -> Y -> Prop) f f' o o' :
    (forall x x' sh sh' cx cx', RX x x' -> r_shared R sh sh' -> r_ctx R cx cx' ->
       callback_rel eq RX (f x sh cx) (f' x' sh' cx')) ->
    (forall x x', RX x x' -> obs_rel (o x) (o' x')) ->
    comp_rel RX eq (call_action f o) (call_action f' o').
  Proof.
    intros Hf Ho x x' sh sh' cx cx' Hx Hs Hc. unfold call_action.
    specialize (Hf _ _ _ _ _ _ Hx Hs Hc). specialize (Ho _ _ Hx).
    destruct (f x sh cx) as [[[a x1] sh1] cx1], (f' x' sh' cx') as [[[a' x1'] sh1'] cx1'].
    destruct Hf as (Ha & Hx1 & Hs1 & Hc1). repeat split; simpl; auto. now apply sim_outcome_of.
  Qed.

  Lemma sim_handler {X Y} (RX : X -> Y -> Prop) f f' nd nd' e e' :
    (forall x x' sh sh' cx cx', RX x x' -> r_shared R sh sh' -> r_ctx R cx cx' ->
       callback_rel rresp RX (f x sh cx e) (f' x' sh' cx' e')) ->
    (forall x x', RX x x' -> rnode (nd x) (nd' x')) -> r_event R e e' ->
    comp_rel RX rresp (call_handler m1 f nd e) (call_handler m2 f' nd' e').
  Proof.
    intros Hf Hn He x x' sh sh' cx cx' Hx Hs Hc. unfold call_handler.
    specialize (Hf _ _ _ _ _ _ Hx Hs Hc). specialize (Hn _ _ Hx).
    destruct (f x sh cx e) as [[[a x1] sh1] cx1], (f' x' sh' cx' e') as [[[a' x1'] sh1'] cx1'].
    destruct Hf as (Ha & Hx1 & Hs1 & Hc1). repeat split; simpl; auto; [now apply sim_outcome_of|].
    constructor; [now constructor|]. destruct Ha; repeat constructor. assumption.
  Qed.

  Lemma sim_hook {X Y} (RX : X -> Y -> Prop) f f' o o' :
    (forall sh sh', r_shared R sh sh' -> hook_rel (f sh) (f' sh')) -> obs_rel o o' ->
    comp_rel RX eq (call_hook f o) (call_hook f' o').
  Proof.
    intros Hf Ho x x' sh sh' cx cx' Hx Hs Hc. unfold call_hook. specialize (Hf _ _ Hs).
    destruct (f sh) as [a sh1], (f' sh') as [a' sh1'], Hf as [Ha Hs1]. simpl in *.
    repeat split; simpl; auto. now apply sim_outcome_of.
  Qed.

  Lemma sim_s_handler e e' : r_event R e e' ->
    comp_rel (r_state R) rresp (s_call_handler m1 e) (s_call_handler m2 e').
  Proof. intros He. apply sim_handler; auto using nr_state. intros; now apply si_s_handler. Qed.
  Lemma sim_u_handler e e' : r_event R e e' ->
    comp_rel (r_sup R) rresp (u_call_handler m1 e) (u_call_handler m2 e').
  Proof. intros He. apply sim_handler; auto using nr_super. intros; now apply si_u_handler. Qed.
  Lemma sim_s_entry : comp_rel (r_state R) eq (s_call_entry m1) (s_call_entry m2).
  Proof. apply sim_action; [apply (si_s_entry H)|]. intros; repeat constructor; assumption. Qed.
  Lemma sim_s_exit : comp_rel (r_state R) eq (s_call_exit m1) (s_call_exit m2).
  Proof. apply sim_action; [apply (si_s_exit H)|]. intros; repeat constructor; assumption. Qed.
  Lemma sim_u_entry : comp_rel (r_sup R) eq (u_call_entry m1) (u_call_entry m2).
  Proof. apply sim_action; [apply (si_u_entry H)|]. intros; repeat constructor; assumption. Qed.
  Lemma sim_u_exit : comp_rel (r_sup R) eq (u_call_exit m1) (u_call_exit m2).
  Proof. apply sim_action; [apply (si_u_exit H)|]. intros; repeat constructor; assumption. Qed.

  Lemma sim_before_dispatch {X Y} (RX : X -> Y -> Prop) n n' e e' : rnode n n' -> r_event R e e' ->
    comp_rel RX eq (before_dispatch m1 n e) (before_dispatch m2 n' e').
  Proof.
    intros. apply sim_hook; [|now constructor]. intros. now apply si_before_dispatch.
  Qed.
  Lemma sim_after_dispatch {X Y} (RX : X -> Y -> Prop) n n' e e' : rnode n n' -> r_event R e e' ->
    comp_rel RX eq (after_dispatch m1 n e) (after_dispatch m2 n' e').
  Proof. intros. apply sim_hook; [|now constructor]. intros. now apply si_after_dispatch. Qed.
  Lemma sim_before_transition {X Y} (RX : X -> Y -> Prop) a a' b b' :
    r_state R a a' -> r_state R b b' ->
    comp_rel RX eq (before_transition m1 a b) (before_transition m2 a' b').
  Proof. intros. apply sim_hook; [|now constructor]. intros. now apply si_before_transition. Qed.
  Lemma sim_after_transition {X Y} (RX : X -> Y -> Prop) a a' b b' :
    r_state R a a' -> r_state R b b' ->
    comp_rel RX eq (after_transition m1 a b) (after_transition m2 a' b').
  Proof. intros. apply sim_hook; [|now constructor]. intros. now apply si_after_transition. Qed.

  (** Pure computations. *)
  Lemma outcome_eq {A} (o o' : outcome A) : outcome_rel eq o o' <-> o = o'.
  Proof.
    split; [intros []; congruence|]. intros <-. destruct o; constructor; reflexivity.
  Qed.

  Lemma sim_depth n : forall u u', r_sup R u u' -> superstate_depth m1 n u = superstate_depth m2 n u'.
  Proof.
    induction n as [|n IH]; intros u u' Hu; [reflexivity|]. simpl.
    destruct (si_u_super H _ _ Hu) as [|v v' Hv]; [reflexivity|]. now rewrite (IH v v' Hv).
  Qed.

  Lemma sim_cad n : forall u u' v v', r_sup R u u' -> r_sup R v v' ->
    superstate_common_ancestor_depth m1 stack n u v =
    superstate_common_ancestor_depth m2 stack n u' v'.
  Proof.
    induction n as [|n IH]; intros u u' v v' Hu Hv; [reflexivity|]. simpl.
    rewrite (sim_depth stack _ _ Hu), (sim_depth stack _ _ Hv).
    destruct (superstate_depth m2 stack u') as [du|]; [|reflexivity].
    destruct (superstate_depth m2 stack v') as [dv|]; [|reflexivity].
    destruct (du ?= dv).
    - unfold same_superstate. pose proof (si_u_disc H _ _ _ _ Hu Hv) as Hd.
      destruct (Nat.eqb_spec (u_disc m1 u) (u_disc m1 v)), (Nat.eqb_spec (u_disc m2 u') (u_disc m2 v'));
        try tauto.
      destruct (si_u_super H _ _ Hu) as [|a a' Ha]; [reflexivity|].
      destruct (si_u_super H _ _ Hv) as [|b b' Hb]; [reflexivity|]. now apply IH.
    - destruct (si_u_super H _ _ Hv) as [|b b' Hb]; [reflexivity|]. now apply IH.
    - destruct (si_u_super H _ _ Hu) as [|b b' Hb]; [reflexivity|]. now apply IH.
  Qed.

  Lemma sim_state_depth x x' : r_state R x x' ->
    Blocking.state_depth m1 stack x = Blocking.state_depth m2 stack x'.
  Proof.
    intros Hx. unfold Blocking.state_depth. destruct (si_s_super H _ _ Hx) as [|v v' Hv]; [reflexivity|].
    now rewrite (sim_depth stack _ _ Hv).
  Qed.

  Lemma sim_transition_path x x' y y' : r_state R x x' -> r_state R y y' ->
    Blocking.transition_path m1 stack x y = Blocking.transition_path m2 stack x' y'.
  Proof.
    intros Hx Hy. unfold Blocking.transition_path, same_state.
    pose proof (si_s_disc H _ _ _ _ Hx Hy) as Hd.
    destruct (Nat.eqb_spec (s_disc m1 x) (s_disc m1 y)), (Nat.eqb_spec (s_disc m2 x') (s_disc m2 y'));
      try tauto.
    rewrite (sim_state_depth _ _ Hx), (sim_state_depth _ _ Hy).
    destruct (Blocking.state_depth m2 stack x'); [|reflexivity].
    destruct (Blocking.state_depth m2 stack y'); [|reflexivity].
    destruct (si_s_super H _ _ Hx) as [|v v' Hv]; [reflexivity|].
    destruct (si_s_super H _ _ Hy) as [|w w' Hw]; [reflexivity|].
    now rewrite (sim_cad _ _ _ _ _ Hv Hw).
  Qed.

  Lemma sim_s_put x x' v v' : r_state R x x' -> r_sup R v v' ->
    r_state R (s_put m1 x v) (s_put m2 x' v').
  Proof. apply (si_s_put H). Qed.
  Lemma sim_u_put u u' v v' : r_sup R u u' -> r_sup R v v' ->
    r_sup R (u_put m1 u v) (u_put m2 u' v').
  Proof. apply (si_u_put H). Qed.

  Create HintDb sim.
  Hint Resolve sim_ret sim_abort sim_self sim_s_handler sim_u_handler sim_s_entry sim_s_exit
    sim_u_entry sim_u_exit sim_before_dispatch sim_after_dispatch sim_before_transition
    sim_after_transition nr_state nr_super rr_handled rr_super rr_transition
    sim_s_put sim_u_put : sim.

  Ltac sim1 :=
    match goal with
    | |- comp_rel _ _ (bind self _) _ =>
        eapply sim_bind; [apply sim_self|]; intros ? ? ?
    | |- comp_rel _ _ (bind (before_dispatch _ _ _) _) _ =>
        eapply sim_bind; [apply sim_before_dispatch; auto with sim|]; intros ? ? ?
    | |- comp_rel _ _ (bind (after_dispatch _ _ _) _) _ =>
        eapply sim_bind; [apply sim_after_dispatch; auto with sim|]; intros ? ? ?
    | |- comp_rel (r_sup R) _ (match u_super m1 ?u with _ => _ end) _ =>
        match goal with Hu : r_sup R u _ |- _ => destruct (si_u_super H _ _ Hu) end
    | |- comp_rel (r_state R) _ (match s_super m1 ?u with _ => _ end) _ =>
        match goal with Hu : r_state R u _ |- _ => destruct (si_s_super H _ _ Hu) end
    | Hr : response_rel _ ?a _ |- comp_rel _ _ (match ?a with _ => _ end) _ => destruct Hr
    | |- comp_rel _ _ (via _ _ _) _ => eapply sim_via; [auto with sim|eassumption|]
    | |- comp_rel _ _ (@bind _ _ unit _ _ _) _ =>
        eapply sim_bind with (RA := @eq unit); [|intros ? ? ?]
    | |- comp_rel _ _ (bind _ _) _ => eapply sim_bind; [|intros ? ? ?]
    | _ => solve [eauto with sim]
    end.

  Lemma sim_superstate_handle n e e' : r_event R e e' ->
    comp_rel (r_sup R) rresp (superstate_handle m1 n e) (superstate_handle m2 n e').
  Proof. intros He. induction n as [|n IH]; cbn [superstate_handle]; repeat sim1. Qed.

  Lemma sim_handle_loop n e e' : r_event R e e' ->
    comp_rel (r_sup R) rresp (handle_loop m1 n e) (handle_loop m2 n e').
  Proof. intros He. induction n as [|n IH]; cbn [handle_loop]; repeat sim1. Qed.

  Lemma sim_superstate_enter n : comp_rel (r_sup R) eq (superstate_enter m1 n) (superstate_enter m2 n).
  Proof.
    induction n as [|n IH]; cbn [superstate_enter]; [repeat sim1|].
    destruct n; [repeat sim1|]. repeat sim1.
  Qed.
  Lemma sim_superstate_exit n : comp_rel (r_sup R) eq (superstate_exit m1 n) (superstate_exit m2 n).
  Proof.
    induction n as [|n IH]; cbn [superstate_exit]; [repeat sim1|].
    destruct n; [repeat sim1|]. repeat sim1.
  Qed.
  Lemma sim_climb n : comp_rel (r_sup R) eq (climb_entry m1 n) (climb_entry m2 n).
  Proof. induction n as [|n IH]; cbn [climb_entry]; repeat sim1. Qed.
  Lemma sim_exit_loop n : comp_rel (r_sup R) eq (exit_loop m1 n) (exit_loop m2 n).
  Proof. induction n as [|n IH]; cbn [exit_loop]; repeat sim1. Qed.
  Hint Resolve sim_superstate_handle sim_handle_loop sim_superstate_enter sim_superstate_exit
    sim_climb sim_exit_loop : sim.

  Lemma sim_b_enter n : comp_rel (r_state R) eq (Blocking.state_enter m1 n) (Blocking.state_enter m2 n).
  Proof. destruct n as [|[|n]]; cbn [Blocking.state_enter]; repeat sim1. Qed.
  Lemma sim_b_exit n : comp_rel (r_state R) eq (Blocking.state_exit m1 n) (Blocking.state_exit m2 n).
  Proof. destruct n as [|[|n]]; cbn [Blocking.state_exit]; repeat sim1. Qed.
  Lemma sim_a_enter n : comp_rel (r_state R) eq (Awaitable.state_enter m1 n) (Awaitable.state_enter m2 n).
  Proof.
    induction n as [|n IH]; cbn [Awaitable.state_enter]; [repeat sim1|].
    destruct n; repeat sim1.
  Qed.
  Lemma sim_a_exit n : comp_rel (r_state R) eq (Awaitable.state_exit m1 n) (Awaitable.state_exit m2 n).
  Proof. unfold Awaitable.state_exit. destruct (1 <=? n); repeat sim1. Qed.
  Lemma sim_b_handle e e' : r_event R e e' ->
    comp_rel (r_state R) rresp (Blocking.state_handle m1 stack e) (Blocking.state_handle m2 stack e').
  Proof. intros He. unfold Blocking.state_handle. repeat sim1. Qed.
  Lemma sim_a_handle e e' : r_event R e e' ->
    comp_rel (r_state R) rresp (Awaitable.state_handle m1 stack e) (Awaitable.state_handle m2 stack e').
  Proof. intros He. unfold Awaitable.state_handle. repeat sim1. Qed.
  Hint Resolve sim_b_enter sim_b_exit sim_a_enter sim_a_exit sim_b_handle sim_a_handle : sim.

  Lemma sim_swap t t' : r_state R t t' ->
    comp_rel (r_state R) (r_state R) (swap_state m1 t) (swap_state m2 t').
  Proof. intros Ht x x' sh sh' cx cx' Hx Hs Hc. repeat split; simpl; auto. now constructor. Qed.
  Hint Resolve sim_swap : sim.

  Lemma sim_lift_path x x' y y' : r_state R x x' -> r_state R y y' ->
    comp_rel (r_state R) eq (lift (Blocking.transition_path m1 stack x y))
                            (lift (Blocking.transition_path m2 stack x' y')).
  Proof. intros. apply sim_lift, outcome_eq. now apply sim_transition_path. Qed.
  Lemma sim_lift_depth x x' : r_state R x x' ->
    comp_rel (r_state R) eq (lift (Blocking.state_depth m1 stack x))
                            (lift (Blocking.state_depth m2 stack x')).
  Proof. intros. apply sim_lift, outcome_eq. now apply sim_state_depth. Qed.
  Hint Resolve sim_lift_path sim_lift_depth : sim.

  Lemma sim_b_transition t t' : r_state R t t' ->
    comp_rel (r_state R) eq (Blocking.transition m1 stack t) (Blocking.transition m2 stack t').
  Proof. intros Ht. unfold Blocking.transition. repeat (subst; sim1). Qed.
  Lemma sim_a_transition t t' : r_state R t t' ->
    comp_rel (r_state R) eq (Awaitable.transition m1 stack t) (Awaitable.transition m2 stack t').
  Proof.
    intros Ht. unfold Awaitable.transition, Awaitable.transition_path. repeat (subst; sim1).
  Qed.
  Hint Resolve sim_b_transition sim_a_transition : sim.

  Variable md : mode.

  Lemma sim_inner_init : comp_rel (r_state R) eq (inner_init m1 stack md) (inner_init m2 stack md).
  Proof.
    destruct md; unfold inner_init, Blocking.inner_init, Awaitable.inner_init, Awaitable.state_depth;
      repeat (subst; sim1).
  Qed.
  Lemma sim_inner_handle e e' : r_event R e e' ->
    comp_rel (r_state R) eq (inner_handle m1 stack md e) (inner_handle m2 stack md e').
  Proof.
    intros He. destruct md; unfold inner_handle, Blocking.inner_handle, Awaitable.inner_handle;
      repeat (subst; sim1).
  Qed.

  Lemma sim_init sm sm' cx cx' : machine_rel sm sm' -> r_ctx R cx cx' ->
    api_rel (init_with_context stack md sm cx) (init_with_context stack md sm' cx').
  Proof.
    intros (Hx & Hs & Hi) Hc. unfold init_with_context. rewrite Hi.
    destruct (initialized sm') eqn:E; simpl negb; cbv iota.
    - unfold api_rel, machine_rel. simpl. rewrite E. auto 6.
    - unfold run_inner. destruct (sim_inner_init _ _ _ _ _ _ Hx Hs Hc) as (Ho & Hx1 & Hs1 & Hc1 & Ht1).
      unfold sm_state, sm_shared in *. simpl. destruct Ho as [a b ->|w]; simpl; repeat split; auto.
  Qed.

  Lemma sim_dispatch sm sm' e e' cx cx' : machine_rel sm sm' -> r_event R e e' -> r_ctx R cx cx' ->
    api_rel (dispatch stack md sm e cx) (dispatch stack md sm' e' cx').
  Proof.
    intros (Hx & Hs & Hi) He Hc. unfold dispatch, run_inner.
    destruct (sim_inner_handle _ _ He _ _ _ _ _ _ Hx Hs Hc) as (Ho & Hx1 & Hs1 & Hc1 & Ht1).
    unfold sm_state, sm_shared in *. simpl.
    repeat split; simpl; auto. destruct Ho as [a b ->|w]; reflexivity.
  Qed.

  Lemma sim_handle sm sm' e e' cx cx' : machine_rel sm sm' -> r_event R e e' -> r_ctx R cx cx' ->
    api_rel (handle_with_context stack md sm e cx) (handle_with_context stack md sm' e' cx').
  Proof.
    intros Hm He Hc. rewrite !handle_is_init_then_handle. unfold and_then.
    pose proof (sim_init cx cx' Hm Hc) as Hin.
    pose proof (init_initializes stack md sm cx) as I1.
    pose proof (init_initializes stack md sm' cx') as I2.
    destruct (init_with_context stack md sm cx) as [o sm1 cx1 t1].
    destruct (init_with_context stack md sm' cx') as [o' sm1' cx1' t1'].
    pose proof Hin as (Ho & Hm1 & Hc1 & Ht1). cbn [a_out a_machine a_cx a_tr] in *. subst o'.
    destruct o as [[]|w]; [|exact Hin].
    unfold handle_with_context. rewrite I1, I2 by reflexivity. cbn [negb].
    destruct (sim_dispatch e e' cx1 cx1' Hm1 He Hc1) as (Ho2 & Hm2 & Hc2 & Ht2).
    unfold api_rel. cbn [a_out a_machine a_cx a_tr]. auto using Forall2_app.
  Qed.

  Lemma sim_handles evs evs' : forall sm sm',
    Forall2 (fun a b => r_event R (fst a) (fst b) /\ r_ctx R (snd a) (snd b)) evs evs' ->
    machine_rel sm sm' ->
    machine_rel (fst (sm_handles stack md sm evs)) (fst (sm_handles stack md sm' evs')) /\
    Forall2 called_rel (snd (sm_handles stack md sm evs)) (snd (sm_handles stack md sm' evs')).
  Proof.
    intros sm sm' Hf. revert sm sm'. induction Hf as [|[e cx] [e' cx'] evs evs' [He Hc] Hf IH];
      intros sm sm' Hm; [split; [exact Hm|constructor]|].
    cbn [sm_handles]. simpl in He, Hc. pose proof (sim_handle e e' cx cx' Hm He Hc) as (Ho & Hm1 & Hc1 & Ht1).
    specialize (IH _ _ Hm1).
    destruct (sm_handles stack md (a_machine (handle_with_context stack md sm e cx)) evs) as [s1 c1].
    destruct (sm_handles stack md (a_machine (handle_with_context stack md sm' e' cx')) evs') as [s2 c2].
    simpl in *. destruct IH as [IH1 IH2]. split; [exact IH1|]. constructor; [|exact IH2].
    repeat split; simpl; auto. now constructor.
  Qed.
End Relations.
