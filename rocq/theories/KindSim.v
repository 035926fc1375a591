(** KindSim.v — as Sim.v, for relations that need not be kept when a superstate's storage is
    written back to a node that has another superstate: only views of the variant that was
    borrowed are written back.  Definitions first, then proofs. *)

From Coq Require Import List Bool Arith Lia.
From Verif Require Import Machine Blocking Awaitable Api Spec HistoryProofs Sim.
Import ListNotations.
Set Implicit Arguments.

Section Kinds.
  Variables m1 m2 : machine.
  Variable R : relations m1 m2.

  Notation rnode := (node_rel (r_state R) (r_sup R)).
  Notation rresp := (response_rel (r_state R)).
  Notation callback_rel := (callback_rel R).
  Notation hook_rel := (hook_rel R).
  Notation machine_rel := (machine_rel R).
  Notation api_rel := (api_rel R).
  Notation called_rel := (called_rel R).

  (** See [similar]; [ks_s_put], [ks_u_put]: only for a view of the variant that is there. *)
  Record kindred : Prop := {
    ks_initial : r_state R (initial m1) (initial m2);
    ks_s_disc : forall x x' y y', r_state R x x' -> r_state R y y' ->
      (s_disc m1 x = s_disc m1 y <-> s_disc m2 x' = s_disc m2 y');
    ks_u_disc : forall x x' y y', r_sup R x x' -> r_sup R y y' ->
      (u_disc m1 x = u_disc m1 y <-> u_disc m2 x' = u_disc m2 y');
    ks_s_super : forall x x', r_state R x x' -> opt_rel (r_sup R) (s_super m1 x) (s_super m2 x');
    ks_u_super : forall u u', r_sup R u u' -> opt_rel (r_sup R) (u_super m1 u) (u_super m2 u');
    ks_s_put : forall x x' v v' w w', r_state R x x' -> r_sup R v v' ->
      s_super m1 x = Some w -> s_super m2 x' = Some w' -> u_disc m1 v = u_disc m1 w ->
      r_state R (s_put m1 x v) (s_put m2 x' v');
    ks_u_put : forall u u' v v' w w', r_sup R u u' -> r_sup R v v' ->
      u_super m1 u = Some w -> u_super m2 u' = Some w' -> u_disc m1 v = u_disc m1 w ->
      r_sup R (u_put m1 u v) (u_put m2 u' v');
    ks_u_put_disc : forall u v, u_disc m1 (u_put m1 u v) = u_disc m1 u;
    ks_s_handler : forall x x' sh sh' cx cx' e e', r_state R x x' -> r_shared R sh sh' ->
      r_ctx R cx cx' -> r_event R e e' ->
      callback_rel rresp (r_state R) (s_handler m1 x sh cx e) (s_handler m2 x' sh' cx' e');
    ks_s_entry : forall x x' sh sh' cx cx', r_state R x x' -> r_shared R sh sh' ->
      r_ctx R cx cx' ->
      callback_rel eq (r_state R) (s_entry m1 x sh cx) (s_entry m2 x' sh' cx');
    ks_s_exit : forall x x' sh sh' cx cx', r_state R x x' -> r_shared R sh sh' ->
      r_ctx R cx cx' ->
      callback_rel eq (r_state R) (s_exit m1 x sh cx) (s_exit m2 x' sh' cx');
    ks_u_handler : forall x x' sh sh' cx cx' e e', r_sup R x x' -> r_shared R sh sh' ->
      r_ctx R cx cx' -> r_event R e e' ->
      callback_rel rresp (r_sup R) (u_handler m1 x sh cx e) (u_handler m2 x' sh' cx' e');
    ks_u_entry : forall x x' sh sh' cx cx', r_sup R x x' -> r_shared R sh sh' ->
      r_ctx R cx cx' ->
      callback_rel eq (r_sup R) (u_entry m1 x sh cx) (u_entry m2 x' sh' cx');
    ks_u_exit : forall x x' sh sh' cx cx', r_sup R x x' -> r_shared R sh sh' ->
      r_ctx R cx cx' ->
      callback_rel eq (r_sup R) (u_exit m1 x sh cx) (u_exit m2 x' sh' cx');
    ks_before_dispatch : forall sh sh' n n' e e', r_shared R sh sh' -> rnode n n' ->
      r_event R e e' -> hook_rel (h_before_dispatch m1 sh n e) (h_before_dispatch m2 sh' n' e');
    ks_after_dispatch : forall sh sh' n n' e e', r_shared R sh sh' -> rnode n n' ->
      r_event R e e' -> hook_rel (h_after_dispatch m1 sh n e) (h_after_dispatch m2 sh' n' e');
    ks_before_transition : forall sh sh' a a' b b', r_shared R sh sh' -> r_state R a a' ->
      r_state R b b' ->
      hook_rel (h_before_transition m1 sh a b) (h_before_transition m2 sh' a' b');
    ks_after_transition : forall sh sh' a a' b b', r_shared R sh sh' -> r_state R a a' ->
      r_state R b b' ->
      hook_rel (h_after_transition m1 sh a b) (h_after_transition m2 sh' a' b')
  }.

  (** *** Proofs *)

  Hypothesis H : kindred.
  Hypothesis ST : stable m1.
  Variable stack : nat.

  (** Related superstates of the variant [k]. *)
  Definition rk (k : nat) (u : Sup m1) (u' : Sup m2) : Prop := r_sup R u u' /\ u_disc m1 u = k.

  Lemma kin_s_handler e e' : r_event R e e' ->
    comp_rel R (r_state R) rresp (s_call_handler m1 e) (s_call_handler m2 e').
  Proof. intros He. apply sim_handler; auto using nr_state. intros; now apply ks_s_handler. Qed.
  Lemma kin_u_handler k e e' : r_event R e e' ->
    comp_rel R (rk k) rresp (u_call_handler m1 e) (u_call_handler m2 e').
  Proof.
    intros He. apply sim_handler; auto.
    - intros x x' sh sh' cx cx' [Hx Hk] Hs Hc. assert (HH : callback_rel rresp (r_sup R) (u_handler m1 x sh cx e) (u_handler m2 x' sh' cx' e'))
        by (apply (ks_u_handler H); assumption).
      destruct (u_handler m1 x sh cx e) as [[[r1 x1] s1] c1] eqn:E1.
      destruct (u_handler m2 x' sh' cx' e') as [[[r2 x2] s2] c2]. destruct HH as (A & B & C & D).
      repeat split; auto. rewrite <- Hk. eapply (st_u_handler ST); exact E1.
    - intros x x' [Hx _]. now constructor.
  Qed.
  Lemma kin_s_entry : comp_rel R (r_state R) eq (s_call_entry m1) (s_call_entry m2).
  Proof. apply sim_action; [apply (ks_s_entry H)|]. intros; repeat constructor; assumption. Qed.
  Lemma kin_s_exit : comp_rel R (r_state R) eq (s_call_exit m1) (s_call_exit m2).
  Proof. apply sim_action; [apply (ks_s_exit H)|]. intros; repeat constructor; assumption. Qed.
  Lemma kin_u_entry k : comp_rel R (rk k) eq (u_call_entry m1) (u_call_entry m2).
  Proof.
    apply sim_action.
    - intros x x' sh sh' cx cx' [Hx Hk] Hs Hc. assert (HH : callback_rel eq (r_sup R) (u_entry m1 x sh cx) (u_entry m2 x' sh' cx'))
        by (apply (ks_u_entry H); assumption).
      destruct (u_entry m1 x sh cx) as [[[r1 x1] s1] c1] eqn:E1.
      destruct (u_entry m2 x' sh' cx') as [[[r2 x2] s2] c2]. destruct HH as (A & B & C & D).
      repeat split; auto. rewrite <- Hk. eapply (st_u_entry ST); exact E1.
    - intros x x' [Hx _]. now repeat constructor.
  Qed.
  Lemma kin_u_exit k : comp_rel R (rk k) eq (u_call_exit m1) (u_call_exit m2).
  Proof.
    apply sim_action.
    - intros x x' sh sh' cx cx' [Hx Hk] Hs Hc. assert (HH : callback_rel eq (r_sup R) (u_exit m1 x sh cx) (u_exit m2 x' sh' cx'))
        by (apply (ks_u_exit H); assumption).
      destruct (u_exit m1 x sh cx) as [[[r1 x1] s1] c1] eqn:E1.
      destruct (u_exit m2 x' sh' cx') as [[[r2 x2] s2] c2]. destruct HH as (A & B & C & D).
      repeat split; auto. rewrite <- Hk. eapply (st_u_exit ST); exact E1.
    - intros x x' [Hx _]. now repeat constructor.
  Qed.

  Lemma kin_before_dispatch {X Y} (RX : X -> Y -> Prop) n n' e e' : rnode n n' -> r_event R e e' ->
    comp_rel R RX eq (before_dispatch m1 n e) (before_dispatch m2 n' e').
  Proof.
    intros. apply sim_hook; [|now constructor]. intros. now apply ks_before_dispatch.
  Qed.
  Lemma kin_after_dispatch {X Y} (RX : X -> Y -> Prop) n n' e e' : rnode n n' -> r_event R e e' ->
    comp_rel R RX eq (after_dispatch m1 n e) (after_dispatch m2 n' e').
  Proof. intros. apply sim_hook; [|now constructor]. intros. now apply ks_after_dispatch. Qed.
  Lemma kin_before_transition {X Y} (RX : X -> Y -> Prop) a a' b b' :
    r_state R a a' -> r_state R b b' ->
    comp_rel R RX eq (before_transition m1 a b) (before_transition m2 a' b').
  Proof. intros. apply sim_hook; [|now constructor]. intros. now apply ks_before_transition. Qed.
  Lemma kin_after_transition {X Y} (RX : X -> Y -> Prop) a a' b b' :
    r_state R a a' -> r_state R b b' ->
    comp_rel R RX eq (after_transition m1 a b) (after_transition m2 a' b').
  Proof. intros. apply sim_hook; [|now constructor]. intros. now apply ks_after_transition. Qed.

  (** Pure computations. *)
  Lemma kin_depth n : forall u u', r_sup R u u' -> superstate_depth m1 n u = superstate_depth m2 n u'.
  Proof.
    induction n as [|n IH]; intros u u' Hu; [reflexivity|]. simpl.
    destruct (ks_u_super H _ _ Hu) as [|v v' Hv]; [reflexivity|]. now rewrite (IH v v' Hv).
  Qed.

  Lemma kin_cad n : forall u u' v v', r_sup R u u' -> r_sup R v v' ->
    superstate_common_ancestor_depth m1 stack n u v =
    superstate_common_ancestor_depth m2 stack n u' v'.
  Proof.
    induction n as [|n IH]; intros u u' v v' Hu Hv; [reflexivity|]. simpl.
    rewrite (kin_depth stack _ _ Hu), (kin_depth stack _ _ Hv).
    destruct (superstate_depth m2 stack u') as [du|]; [|reflexivity].
    destruct (superstate_depth m2 stack v') as [dv|]; [|reflexivity].
    destruct (du ?= dv).
    - unfold same_superstate. pose proof (ks_u_disc H _ _ _ _ Hu Hv) as Hd.
      destruct (Nat.eqb_spec (u_disc m1 u) (u_disc m1 v)), (Nat.eqb_spec (u_disc m2 u') (u_disc m2 v'));
        try tauto.
      destruct (ks_u_super H _ _ Hu) as [|a a' Ha]; [reflexivity|].
      destruct (ks_u_super H _ _ Hv) as [|b b' Hb]; [reflexivity|]. now apply IH.
    - destruct (ks_u_super H _ _ Hv) as [|b b' Hb]; [reflexivity|]. now apply IH.
    - destruct (ks_u_super H _ _ Hu) as [|b b' Hb]; [reflexivity|]. now apply IH.
  Qed.

  Lemma kin_state_depth x x' : r_state R x x' ->
    Blocking.state_depth m1 stack x = Blocking.state_depth m2 stack x'.
  Proof.
    intros Hx. unfold Blocking.state_depth. destruct (ks_s_super H _ _ Hx) as [|v v' Hv]; [reflexivity|].
    now rewrite (kin_depth stack _ _ Hv).
  Qed.

  Lemma kin_transition_path x x' y y' : r_state R x x' -> r_state R y y' ->
    Blocking.transition_path m1 stack x y = Blocking.transition_path m2 stack x' y'.
  Proof.
    intros Hx Hy. unfold Blocking.transition_path, same_state.
    pose proof (ks_s_disc H _ _ _ _ Hx Hy) as Hd.
    destruct (Nat.eqb_spec (s_disc m1 x) (s_disc m1 y)), (Nat.eqb_spec (s_disc m2 x') (s_disc m2 y'));
      try tauto.
    rewrite (kin_state_depth _ _ Hx), (kin_state_depth _ _ Hy).
    destruct (Blocking.state_depth m2 stack x'); [|reflexivity].
    destruct (Blocking.state_depth m2 stack y'); [|reflexivity].
    destruct (ks_s_super H _ _ Hx) as [|v v' Hv]; [reflexivity|].
    destruct (ks_s_super H _ _ Hy) as [|w w' Hw]; [reflexivity|].
    now rewrite (kin_cad _ _ _ _ _ Hv Hw).
  Qed.

  (** Running on the superstate, if there is one. *)
  Lemma kin_view_s {A B} (RA : A -> B -> Prop) c c' d d' :
    (forall k, comp_rel R (rk k) RA c c') -> comp_rel R (r_state R) RA d d' ->
    comp_rel R (r_state R) RA
      (bind (@self m1 _) (fun x => match s_super m1 x with Some v => via (s_put m1) v c | None => d end))
      (bind (@self m2 _) (fun x => match s_super m2 x with Some v => via (s_put m2) v c' | None => d' end)).
  Proof.
    intros Hc Hd x x' sh sh' cx cx' Hx Hs Hx'. unfold bind, self, res_rel. cbn.
    pose proof (ks_s_super H _ _ Hx) as S.
    destruct (s_super m1 x) as [v|] eqn:E1, (s_super m2 x') as [v'|] eqn:E2; inversion S; subst.
    - match goal with Hv : r_sup R v v' |- _ =>
        destruct (Hc (u_disc m1 v) v v' sh sh' cx cx' (conj Hv eq_refl) Hs Hx') as (Ho & [Hv1 Hk1] & Hs1 & Hc1 & Ht1) end.
      unfold via. cbn. repeat split; auto. eapply (ks_s_put H); eauto.
    - apply Hd; assumption.
  Qed.
  Lemma kin_view_u {A B} (RA : A -> B -> Prop) c c' d d' j :
    (forall k, comp_rel R (rk k) RA c c') -> comp_rel R (rk j) RA d d' ->
    comp_rel R (rk j) RA
      (bind (@self m1 _) (fun x => match u_super m1 x with Some v => via (u_put m1) v c | None => d end))
      (bind (@self m2 _) (fun x => match u_super m2 x with Some v => via (u_put m2) v c' | None => d' end)).
  Proof.
    intros Hc Hd x x' sh sh' cx cx' [Hx Hj] Hs Hx'. unfold bind, self, res_rel. cbn.
    pose proof (ks_u_super H _ _ Hx) as S.
    destruct (u_super m1 x) as [v|] eqn:E1, (u_super m2 x') as [v'|] eqn:E2; inversion S; subst.
    - match goal with Hv : r_sup R v v' |- _ =>
        destruct (Hc (u_disc m1 v) v v' sh sh' cx cx' (conj Hv eq_refl) Hs Hx') as (Ho & [Hv1 Hk1] & Hs1 & Hc1 & Ht1) end.
      unfold via. cbn. repeat split; auto; [eapply (ks_u_put H); eauto|apply (ks_u_put_disc H)].
    - apply Hd; [split|..]; auto.
  Qed.
  Lemma kin_then {X Y A B A' B'} (RX : X -> Y -> Prop) (RA : A -> B -> Prop) (RB : A' -> B' -> Prop)
      (F : X -> comp m1 X A) (F' : Y -> comp m2 Y B) k k' :
    comp_rel R RX RA (bind (@self m1 _) F) (bind (@self m2 _) F') ->
    (forall a b, RA a b -> comp_rel R RX RB (k a) (k' b)) ->
    comp_rel R RX RB (bind (@self m1 _) (fun x => bind (F x) k)) (bind (@self m2 _) (fun x => bind (F' x) k')).
  Proof.
    intros HF Hk x x' sh sh' cx cx' Hx Hs Hc.
    pose proof (sim_bind _ _ HF Hk x x' sh sh' cx cx' Hx Hs Hc) as HH. unfold bind, self, res_rel in *. cbn in *.
    destruct (r_out (F x x sh cx)), (r_out (F' x' x' sh' cx')); cbn in *; exact HH.
  Qed.

  Create HintDb sim.
  Hint Resolve sim_ret sim_abort sim_self kin_s_handler kin_u_handler kin_s_entry kin_s_exit
    kin_u_entry kin_u_exit kin_before_dispatch kin_after_dispatch kin_before_transition
    kin_after_transition nr_state nr_super rr_handled rr_super rr_transition : sim.

  Ltac sim1 :=
    match goal with
    | Hr : rk _ _ _ |- _ => destruct Hr
    | |- comp_rel _ _ _ (bind self (fun x => match u_super m1 x with _ => _ end)) _ =>
        apply kin_view_u; [intros ?|]
    | |- comp_rel _ _ _ (bind self (fun x => match s_super m1 x with _ => _ end)) _ =>
        apply kin_view_s; [intros ?|]
    | |- comp_rel _ _ _ (bind self (fun x => bind (match u_super m1 x with _ => _ end) _)) _ =>
        eapply kin_then with (RA := @eq unit); [apply kin_view_u; [intros ?|]|intros ? ? ?]
    | |- comp_rel _ _ _ (bind self (fun x => bind (match s_super m1 x with _ => _ end) _)) _ =>
        eapply kin_then with (RA := @eq unit); [apply kin_view_s; [intros ?|]|intros ? ? ?]
    | |- comp_rel _ _ _ (bind self _) _ =>
        eapply sim_bind; [apply sim_self|]; intros ? ? ?
    | |- comp_rel _ _ _ (bind (before_dispatch _ _ _) _) _ =>
        eapply sim_bind; [apply kin_before_dispatch; auto with sim|]; intros ? ? ?
    | |- comp_rel _ _ _ (bind (after_dispatch _ _ _) _) _ =>
        eapply sim_bind; [apply kin_after_dispatch; auto with sim|]; intros ? ? ?
    | Hr : response_rel _ ?a _ |- comp_rel _ _ _ (match ?a with _ => _ end) _ => destruct Hr
    | |- comp_rel _ _ _ (@bind _ _ unit _ _ _) _ =>
        eapply sim_bind with (RA := @eq unit); [|intros ? ? ?]
    | |- comp_rel _ _ _ (bind _ _) _ => eapply sim_bind; [|intros ? ? ?]
    | _ => solve [eauto with sim]
    end.

  Lemma kin_superstate_handle k n e e' : r_event R e e' ->
    comp_rel R (rk k) rresp (superstate_handle m1 n e) (superstate_handle m2 n e').
  Proof. intros He. revert k. induction n as [|n IH]; intros k; cbn [superstate_handle]; repeat sim1. Qed.

  Lemma kin_handle_loop k n e e' : r_event R e e' ->
    comp_rel R (rk k) rresp (handle_loop m1 n e) (handle_loop m2 n e').
  Proof. intros He. revert k. induction n as [|n IH]; intros k; cbn [handle_loop]; repeat sim1. Qed.

  Lemma kin_superstate_enter k n : comp_rel R (rk k) eq (superstate_enter m1 n) (superstate_enter m2 n).
  Proof.
    revert k. induction n as [|n IH]; intros k; cbn [superstate_enter]; [repeat sim1|].
    destruct n; [repeat sim1|]. repeat sim1.
  Qed.
  Lemma kin_superstate_exit k n : comp_rel R (rk k) eq (superstate_exit m1 n) (superstate_exit m2 n).
  Proof.
    revert k. induction n as [|n IH]; intros k; cbn [superstate_exit]; [repeat sim1|].
    destruct n; [repeat sim1|]. repeat sim1.
  Qed.
  Lemma kin_climb k n : comp_rel R (rk k) eq (climb_entry m1 n) (climb_entry m2 n).
  Proof. revert k. induction n as [|n IH]; intros k; cbn [climb_entry]; repeat sim1. Qed.
  Lemma kin_exit_loop k n : comp_rel R (rk k) eq (exit_loop m1 n) (exit_loop m2 n).
  Proof. revert k. induction n as [|n IH]; intros k; cbn [exit_loop]; repeat sim1. Qed.
  Hint Resolve kin_superstate_handle kin_handle_loop kin_superstate_enter kin_superstate_exit
    kin_climb kin_exit_loop : sim.

  Lemma kin_b_enter n : comp_rel R (r_state R) eq (Blocking.state_enter m1 n) (Blocking.state_enter m2 n).
  Proof. destruct n as [|[|n]]; cbn [Blocking.state_enter]; repeat sim1. Qed.
  Lemma kin_b_exit n : comp_rel R (r_state R) eq (Blocking.state_exit m1 n) (Blocking.state_exit m2 n).
  Proof. destruct n as [|[|n]]; cbn [Blocking.state_exit]; repeat sim1. Qed.
  Lemma kin_a_enter n : comp_rel R (r_state R) eq (Awaitable.state_enter m1 n) (Awaitable.state_enter m2 n).
  Proof.
    induction n as [|n IH]; cbn [Awaitable.state_enter]; [repeat sim1|].
    destruct n; repeat sim1.
  Qed.
  Lemma kin_a_exit n : comp_rel R (r_state R) eq (Awaitable.state_exit m1 n) (Awaitable.state_exit m2 n).
  Proof. unfold Awaitable.state_exit. destruct (1 <=? n); repeat sim1. Qed.
  Lemma kin_b_handle e e' : r_event R e e' ->
    comp_rel R (r_state R) rresp (Blocking.state_handle m1 stack e) (Blocking.state_handle m2 stack e').
  Proof. intros He. unfold Blocking.state_handle. repeat sim1. Qed.
  Lemma kin_a_handle e e' : r_event R e e' ->
    comp_rel R (r_state R) rresp (Awaitable.state_handle m1 stack e) (Awaitable.state_handle m2 stack e').
  Proof. intros He. unfold Awaitable.state_handle. repeat sim1. Qed.
  Hint Resolve kin_b_enter kin_b_exit kin_a_enter kin_a_exit kin_b_handle kin_a_handle : sim.

  Lemma kin_swap t t' : r_state R t t' ->
    comp_rel R (r_state R) (r_state R) (swap_state m1 t) (swap_state m2 t').
  Proof. intros Ht x x' sh sh' cx cx' Hx Hs Hc. repeat split; simpl; auto. now constructor. Qed.
  Hint Resolve kin_swap : sim.

  Lemma kin_lift_path x x' y y' : r_state R x x' -> r_state R y y' ->
    comp_rel R (r_state R) eq (lift (Blocking.transition_path m1 stack x y))
                            (lift (Blocking.transition_path m2 stack x' y')).
  Proof. intros. apply sim_lift, outcome_eq. now apply kin_transition_path. Qed.
  Lemma kin_lift_depth x x' : r_state R x x' ->
    comp_rel R (r_state R) eq (lift (Blocking.state_depth m1 stack x))
                            (lift (Blocking.state_depth m2 stack x')).
  Proof. intros. apply sim_lift, outcome_eq. now apply kin_state_depth. Qed.
  Hint Resolve kin_lift_path kin_lift_depth : sim.

  Lemma kin_b_transition t t' : r_state R t t' ->
    comp_rel R (r_state R) eq (Blocking.transition m1 stack t) (Blocking.transition m2 stack t').
  Proof. intros Ht. unfold Blocking.transition. repeat (subst; sim1). Qed.
  Lemma kin_a_transition t t' : r_state R t t' ->
    comp_rel R (r_state R) eq (Awaitable.transition m1 stack t) (Awaitable.transition m2 stack t').
  Proof.
    intros Ht. unfold Awaitable.transition, Awaitable.transition_path. repeat (subst; sim1).
  Qed.
  Hint Resolve kin_b_transition kin_a_transition : sim.

  Variable md : mode.

  Lemma kin_inner_init : comp_rel R (r_state R) eq (inner_init m1 stack md) (inner_init m2 stack md).
  Proof.
    destruct md; unfold inner_init, Blocking.inner_init, Awaitable.inner_init, Awaitable.state_depth;
      repeat (subst; sim1).
  Qed.
  Lemma kin_inner_handle e e' : r_event R e e' ->
    comp_rel R (r_state R) eq (inner_handle m1 stack md e) (inner_handle m2 stack md e').
  Proof.
    intros He. destruct md; unfold inner_handle, Blocking.inner_handle, Awaitable.inner_handle;
      repeat (subst; sim1).
  Qed.

  Lemma kin_init sm sm' cx cx' : machine_rel sm sm' -> r_ctx R cx cx' ->
    api_rel (init_with_context stack md sm cx) (init_with_context stack md sm' cx').
  Proof.
    intros (Hx & Hs & Hi) Hc. unfold init_with_context. rewrite Hi.
    destruct (initialized sm') eqn:E; simpl negb; cbv iota.
    - unfold api_rel, machine_rel. simpl. rewrite E. auto 6.
    - unfold run_inner. destruct (kin_inner_init _ _ _ _ _ _ Hx Hs Hc) as (Ho & Hx1 & Hs1 & Hc1 & Ht1).
      unfold sm_state, sm_shared in *. simpl. destruct Ho as [a b ->|w]; simpl; repeat split; auto.
  Qed.

  Lemma kin_dispatch sm sm' e e' cx cx' : machine_rel sm sm' -> r_event R e e' -> r_ctx R cx cx' ->
    api_rel (dispatch stack md sm e cx) (dispatch stack md sm' e' cx').
  Proof.
    intros (Hx & Hs & Hi) He Hc. unfold dispatch, run_inner.
    destruct (kin_inner_handle _ _ He _ _ _ _ _ _ Hx Hs Hc) as (Ho & Hx1 & Hs1 & Hc1 & Ht1).
    unfold sm_state, sm_shared in *. simpl.
    repeat split; simpl; auto. destruct Ho as [a b ->|w]; reflexivity.
  Qed.

  Lemma kin_handle sm sm' e e' cx cx' : machine_rel sm sm' -> r_event R e e' -> r_ctx R cx cx' ->
    api_rel (handle_with_context stack md sm e cx) (handle_with_context stack md sm' e' cx').
  Proof.
    intros Hm He Hc. rewrite !handle_is_init_then_handle. unfold and_then.
    pose proof (kin_init cx cx' Hm Hc) as Hin.
    pose proof (init_initializes stack md sm cx) as I1.
    pose proof (init_initializes stack md sm' cx') as I2.
    destruct (init_with_context stack md sm cx) as [o sm1 cx1 t1].
    destruct (init_with_context stack md sm' cx') as [o' sm1' cx1' t1'].
    pose proof Hin as (Ho & Hm1 & Hc1 & Ht1). cbn [a_out a_machine a_cx a_tr] in *. subst o'.
    destruct o as [[]|w]; [|exact Hin].
    unfold handle_with_context. rewrite I1, I2 by reflexivity. cbn [negb].
    destruct (kin_dispatch e e' cx1 cx1' Hm1 He Hc1) as (Ho2 & Hm2 & Hc2 & Ht2).
    unfold api_rel. cbn [a_out a_machine a_cx a_tr]. auto using Forall2_app.
  Qed.

  Lemma kin_handles evs evs' : forall sm sm',
    Forall2 (fun a b => r_event R (fst a) (fst b) /\ r_ctx R (snd a) (snd b)) evs evs' ->
    machine_rel sm sm' ->
    machine_rel (fst (sm_handles stack md sm evs)) (fst (sm_handles stack md sm' evs')) /\
    Forall2 called_rel (snd (sm_handles stack md sm evs)) (snd (sm_handles stack md sm' evs')).
  Proof.
    intros sm sm' Hf. revert sm sm'. induction Hf as [|[e cx] [e' cx'] evs evs' [He Hc] Hf IH];
      intros sm sm' Hm; [split; [exact Hm|constructor]|].
    cbn [sm_handles]. simpl in He, Hc. pose proof (kin_handle e e' cx cx' Hm He Hc) as (Ho & Hm1 & Hc1 & Ht1).
    specialize (IH _ _ Hm1).
    destruct (sm_handles stack md (a_machine (handle_with_context stack md sm e cx)) evs) as [s1 c1].
    destruct (sm_handles stack md (a_machine (handle_with_context stack md sm' e' cx')) evs') as [s2 c2].
    simpl in *. destruct IH as [IH1 IH2]. split; [exact IH1|]. constructor; [|exact IH2].
    repeat split; simpl; auto. now constructor.
  Qed.
End Kinds.
