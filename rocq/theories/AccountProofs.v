(** AccountProofs.v — proofs for C93. *)

From Coq Require Import List Bool Arith.
From Verif Require Import Machine Blocking Awaitable Api AccountSpec.
Import ListNotations.
Local Open Scope comp_scope.

Section Accounts.
  Variable m : machine.
  Variable stack : nat.
  Variable R : list (obs m) -> Shared m * Ctx m -> Shared m * Ctx m -> Prop.
  Hypothesis Rrefl : forall p, R [] p p.
  Hypothesis Rtrans : forall t1 t2 p q r, R t1 p q -> R t2 q r -> R (t1 ++ t2) p r.
  Hypothesis M : keeps_account R.

  Definition moves {X A} (c : comp m X A) : Prop := forall x sh cx, R (r_tr (c x sh cx)) (sh, cx) (r_sh (c x sh cx), r_cx (c x sh cx)).

  Lemma moves_ret X A (a : A) : moves (X := X) (ret a).
  Proof. intros x sh cx. apply Rrefl. Qed.
  Lemma moves_abort X A w : moves (X := X) (A := A) (abort w).
  Proof. intros x sh cx. apply Rrefl. Qed.
  Lemma moves_self X : moves (X := X) self.
  Proof. intros x sh cx. apply Rrefl. Qed.
  Lemma moves_lift X A (o : outcome A) : moves (X := X) (lift o).
  Proof. intros x sh cx. apply Rrefl. Qed.
  Lemma moves_swap t : moves (swap_state m t).
  Proof. intros x sh cx. apply Rrefl. Qed.
  Lemma moves_bind X A B (c : comp m X A) (k : A -> comp m X B) :
    moves c -> (forall a, moves (k a)) -> moves (bind c k).
  Proof.
    intros Hc Hk x sh cx. unfold bind. specialize (Hc x sh cx). destruct (r_out (c x sh cx)) as [a|w]; [|exact Hc].
    eapply Rtrans; [exact Hc|apply Hk].
  Qed.
  Lemma moves_via X V A put (v : V) (c : comp m V A) : moves c -> moves (X := X) (via put v c).
  Proof. intros Hc x sh cx. apply (Hc v sh cx). Qed.
  Lemma moves_action X f (o : X -> obs m) :
    (forall x sh cx, let '(_, _, sh', cx') := f x sh cx in R [o x] (sh, cx) (sh', cx')) -> moves (@call_action m X f o).
  Proof. intros H x sh cx. unfold call_action. specialize (H x sh cx). destruct (f x sh cx) as [[[r x'] sh'] cx']. exact H. Qed.
  Lemma moves_handler X (f : X -> Shared m -> Ctx m -> Event m -> reply (response (State m)) * X * Shared m * Ctx m) (nd : X -> node (State m) (Sup m)) e :
    (forall x sh cx, let '(r, _, sh', cx') := f x sh cx e in R (handler_log (nd x) e r) (sh, cx) (sh', cx')) -> moves (@call_handler m X f nd e).
  Proof. intros H x sh cx. unfold call_handler. specialize (H x sh cx). destruct (f x sh cx e) as [[[r x'] sh'] cx']. exact H. Qed.
  Lemma moves_hook X f (o : obs m) : (forall sh cx, R [o] (sh, cx) (snd (f sh), cx)) -> moves (@call_hook m X f o).
  Proof. intros H x sh cx. unfold call_hook. specialize (H sh cx). destruct (f sh) as [r sh']. exact H. Qed.

  Lemma m_sh e : moves (s_call_handler m e).
  Proof. apply moves_handler. intros. apply (ka_s_handler M). Qed.
  Lemma m_uh e : moves (u_call_handler m e).
  Proof. apply moves_handler. intros. apply (ka_u_handler M). Qed.
  Lemma m_se : moves (s_call_entry m).
  Proof. apply moves_action, (ka_s_entry M). Qed.
  Lemma m_sx : moves (s_call_exit m).
  Proof. apply moves_action, (ka_s_exit M). Qed.
  Lemma m_ue : moves (u_call_entry m).
  Proof. apply moves_action, (ka_u_entry M). Qed.
  Lemma m_ux : moves (u_call_exit m).
  Proof. apply moves_action, (ka_u_exit M). Qed.
  Lemma m_bd X n e : moves (X := X) (before_dispatch m n e).
  Proof. apply moves_hook, (ka_before_dispatch M). Qed.
  Lemma m_ad X n e : moves (X := X) (after_dispatch m n e).
  Proof. apply moves_hook, (ka_after_dispatch M). Qed.
  Lemma m_bt X a b : moves (X := X) (before_transition m a b).
  Proof. apply moves_hook, (ka_before_transition M). Qed.
  Lemma m_at X a b : moves (X := X) (after_transition m a b).
  Proof. apply moves_hook, (ka_after_transition M). Qed.

  Local Ltac go :=
    repeat first
      [ apply moves_ret | apply moves_abort | apply moves_self | apply moves_lift | apply moves_swap
      | apply m_sh | apply m_uh | apply m_se | apply m_sx | apply m_ue | apply m_ux
      | apply m_bd | apply m_ad | apply m_bt | apply m_at | assumption
      | apply moves_bind; [|intros ?] | apply moves_via
      | match goal with |- moves (match ?x with _ => _ end) => destruct x end ].

  Lemma m_superstate_handle n e : moves (Blocking.superstate_handle m n e).
  Proof. induction n as [|n IH]; cbn [Blocking.superstate_handle]; go. Qed.
  Lemma m_superstate_enter n : moves (Blocking.superstate_enter m n).
  Proof. induction n as [|n IH]; cbn [Blocking.superstate_enter]; go. Qed.
  Lemma m_superstate_exit n : moves (Blocking.superstate_exit m n).
  Proof. induction n as [|n IH]; cbn [Blocking.superstate_exit]; go. Qed.
  Lemma m_bl_handle e : moves (Blocking.state_handle m stack e).
  Proof. unfold Blocking.state_handle. go. apply m_superstate_handle. Qed.
  Lemma m_bl_enter n : moves (Blocking.state_enter m n).
  Proof. unfold Blocking.state_enter. go; apply m_superstate_enter. Qed.
  Lemma m_bl_exit n : moves (Blocking.state_exit m n).
  Proof. unfold Blocking.state_exit. go; apply m_superstate_exit. Qed.

  Lemma m_handle_loop n e : moves (handle_loop m n e).
  Proof. induction n as [|n IH]; cbn [handle_loop]; go. Qed.
  Lemma m_climb_entry n : moves (climb_entry m n).
  Proof. induction n as [|n IH]; cbn [climb_entry]; go. Qed.
  Lemma m_exit_loop n : moves (exit_loop m n).
  Proof. induction n as [|n IH]; cbn [exit_loop]; go. Qed.
  Lemma m_aw_handle e : moves (Awaitable.state_handle m stack e).
  Proof. unfold Awaitable.state_handle. go. apply m_handle_loop. Qed.
  Lemma m_aw_enter n : moves (Awaitable.state_enter m n).
  Proof. induction n as [|n IH]; cbn [Awaitable.state_enter]; go. apply m_climb_entry. Qed.
  Lemma m_aw_exit n : moves (Awaitable.state_exit m n).
  Proof. unfold Awaitable.state_exit. go. apply m_exit_loop. Qed.

  Lemma m_init md : moves (inner_init m stack md).
  Proof. destruct md; cbn [inner_init]; [unfold Blocking.inner_init|unfold Awaitable.inner_init]; go; [apply m_bl_enter|apply m_aw_enter]. Qed.
  Lemma m_handle md e : moves (inner_handle m stack md e).
  Proof.
    destruct md; cbn [inner_handle]; [unfold Blocking.inner_handle|unfold Awaitable.inner_handle].
    - apply moves_bind; [apply m_bl_handle|]. intros [| |t]; go; first [apply m_bl_exit|apply m_bl_enter].
    - apply moves_bind; [apply m_aw_handle|]. intros [| |t]; go; first [apply m_aw_exit|apply m_aw_enter|apply m_exit_loop].
  Qed.

  Lemma init_moves md sm cx :
    R (a_tr (init_with_context stack md sm cx)) (sm_shared sm, cx) (sm_shared (a_machine (init_with_context stack md sm cx)), a_cx (init_with_context stack md sm cx)).
  Proof.
    unfold init_with_context. destruct (negb (initialized sm)); [|apply Rrefl]. cbv zeta.
    assert (H := m_init md (state (sm_inner sm)) (shared_storage (sm_inner sm)) cx).
    unfold run_inner. cbn [a_out a_machine a_cx a_tr].
    destruct (r_out _); cbn [a_machine a_cx a_tr sm_shared sm_inner shared_storage]; exact H.
  Qed.
  Lemma dispatch_moves md sm e cx :
    R (a_tr (dispatch stack md sm e cx)) (sm_shared sm, cx) (sm_shared (a_machine (dispatch stack md sm e cx)), a_cx (dispatch stack md sm e cx)).
  Proof. exact (m_handle md e (state (sm_inner sm)) (shared_storage (sm_inner sm)) cx). Qed.
  Lemma handle_moves md sm e cx :
    R (a_tr (handle_with_context stack md sm e cx)) (sm_shared sm, cx) (sm_shared (a_machine (handle_with_context stack md sm e cx)),
                          a_cx (handle_with_context stack md sm e cx)).
  Proof.
    unfold handle_with_context. destruct (negb (initialized sm)); [|apply dispatch_moves]. cbv zeta.
    assert (H := m_init md (state (sm_inner sm)) (shared_storage (sm_inner sm)) cx).
    set (r := run_inner (inner_init m stack md) (sm_inner sm) cx).
    change (R (a_tr r) (sm_shared sm, cx) (shared_storage (a_machine r), a_cx r)) in H.
    destruct (a_out r); [|exact H].
    cbn [a_machine a_cx a_tr]. eapply Rtrans; [exact H|].
    exact (dispatch_moves md (StateMachine (a_machine r) true) e (a_cx r)).
  Qed.
End Accounts.


Section SharedAccounts.
  Variable m : machine.
  Variable stack : nat.
  Variable md : mode.
  Variable T : list (obs m) -> Shared m -> Shared m -> Prop.
  Hypothesis T0 : forall p, T [] p p.
  Hypothesis T2 : forall t1 t2 p q r, T t1 p q -> T t2 q r -> T (t1 ++ t2) p r.
  Hypothesis K : keeps_account (fun tr p q => T tr (fst p) (fst q)).

  Lemma exec_accounts o sm out sm' cx tr :
    (forall f, o = OpInnerMut f -> forall sh, T [] sh (f sh)) ->
    exec stack md o sm = (out, sm', cx, tr) -> T tr (sm_shared sm) (sm_shared sm').
  Proof.
    intros Ho E. destruct o as [c|e c|f|f]; cbn [exec] in E; injection E as _ <- _ <-.
    - refine (@init_moves m stack (fun tr p q => T tr (fst p) (fst q)) _ _ K md sm c); eauto.
    - refine (@handle_moves m stack (fun tr p q => T tr (fst p) (fst q)) _ _ K md sm e c); eauto.
    - apply (Ho f eq_refl).
    - apply T0.
  Qed.
  Lemma history_accounts ops sm cs sm' :
    Forall (fun o => forall f, o = OpInnerMut f -> forall sh, T [] sh (f sh)) ops ->
    history stack md ops sm cs sm' -> T (log_of cs) (sm_shared sm) (sm_shared sm').
  Proof.
    intros Ho H. induction H as [|o ops sm out sm1 cx tr cs sm' E H IH]; [apply T0|].
    inversion Ho; subst. unfold log_of. cbn [flat_map c_tr]. eapply T2; [eapply exec_accounts; eassumption|auto].
  Qed.
End SharedAccounts.
