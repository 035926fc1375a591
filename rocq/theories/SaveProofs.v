(** SaveProofs.v — saving and restoring is invisible if entry actions change nothing. *)

From Coq Require Import List Bool Arith Lia.
From Verif Require Import Machine Blocking Awaitable Api Spec TripleProofs TransitionProofs Serde AnySpec AnyProofs SaveSpec.
From Verif Require RestoreProofs.
Import ListNotations.
Set Implicit Arguments.
Local Open Scope comp_scope.

Section Quiet.
  Variable m : machine.
  Hypothesis Q : quiet_entries m.

  (** Ends and changes nothing. *)
  Definition quiet {X} (c : comp m X unit) : Prop :=
    forall x sh cx, exists t, c x sh cx = Res (Ret tt) x sh cx t.
  Lemma q_ret {X} : quiet (ret tt : comp m X unit).
  Proof. intros x sh cx. eexists. reflexivity. Qed.
  Lemma q_seq {X} (c d : comp m X unit) : quiet c -> quiet d -> quiet (c ;;; d).
  Proof.
    intros C D x sh cx. unfold bind. destruct (C x sh cx) as [t ->]. cbn. destruct (D x sh cx) as [t' ->]. eexists. reflexivity.
  Qed.
  Lemma q_self {X} (k : X -> comp m X unit) :
    (forall x sh cx, exists t, k x x sh cx = Res (Ret tt) x sh cx t) -> quiet (bind self k).
  Proof. intros K x sh cx. rewrite self_bind_run. apply K. Qed.
  Lemma q_up_u (c : comp m (Sup m) unit) (d : comp m (Sup m) unit) : quiet c -> quiet d ->
    forall u sh cx, exists t, match u_super m u with Some v => via (u_put m) v c | None => d end u sh cx = Res (Ret tt) u sh cx t.
  Proof.
    intros C D u sh cx. destruct (u_super m u) as [v|] eqn:E; [|apply D]. unfold via.
    destruct (C v sh cx) as [t ->]. cbn. rewrite (qe_u_put Q _ E). eexists. reflexivity.
  Qed.
  Lemma q_up_s (c : comp m (Sup m) unit) : quiet c ->
    forall x sh cx, exists t, match s_super m x with Some v => via (s_put m) v c | None => ret tt end x sh cx = Res (Ret tt) x sh cx t.
  Proof.
    intros C x sh cx. destruct (s_super m x) as [v|] eqn:E; [|eexists; reflexivity]. unfold via.
    destruct (C v sh cx) as [t ->]. cbn. rewrite (qe_s_put Q _ E). eexists. reflexivity.
  Qed.
  Lemma q_entry_s : quiet (s_call_entry m).
  Proof. intros x sh cx. unfold s_call_entry, call_action. rewrite (qe_state Q). eexists. reflexivity. Qed.
  Lemma q_entry_u : quiet (u_call_entry m).
  Proof. intros x sh cx. unfold u_call_entry, call_action. rewrite (qe_super Q). eexists. reflexivity. Qed.

  (** `x <- self ;; (.. x ..) ;;; d` *)
  Lemma q_self_seq {X} (k : X -> comp m X unit) (d : comp m X unit) :
    (forall x sh cx, exists t, k x x sh cx = Res (Ret tt) x sh cx t) -> quiet d -> quiet (x <- self ;; k x ;;; d).
  Proof.
    intros K D. apply q_self. intros x sh cx. unfold bind. destruct (K x sh cx) as [t ->]. cbn.
    destruct (D x sh cx) as [t' ->]. eexists. reflexivity.
  Qed.

  Lemma q_superstate_enter n : quiet (superstate_enter m n).
  Proof.
    induction n as [|[|n] IH]; [apply q_ret|apply q_entry_u|].
    change (quiet (u <- self ;; match u_super m u with Some v => via (u_put m) v (superstate_enter m (S n)) | None => ret tt end ;;; u_call_entry m)).
    apply q_self_seq; [|apply q_entry_u]. apply q_up_u; [exact IH|apply q_ret].
  Qed.
  Lemma q_climb n : quiet (climb_entry m n).
  Proof.
    induction n as [|n IH]; [apply q_entry_u|]. cbn [climb_entry]. apply q_self. apply q_up_u; [exact IH|apply q_entry_u].
  Qed.
  Lemma q_enter_blocking n : quiet (Blocking.state_enter m n).
  Proof.
    unfold Blocking.state_enter. destruct n as [|[|n]]; [apply q_ret|apply q_entry_s|].
    apply q_self_seq; [|apply q_entry_s]. apply q_up_s. apply q_superstate_enter.
  Qed.
  Lemma q_enter_awaitable n : quiet (Awaitable.state_enter m n).
  Proof.
    induction n as [|[|n] IH]; [apply q_ret|apply q_entry_s|].
    change (quiet (x <- self ;; match s_super m x with Some u => via (s_put m) u (climb_entry m n) | None => ret tt end ;;; Awaitable.state_enter m (S n))).
    apply q_self_seq; [|exact IH]. apply q_up_s. apply q_climb.
  Qed.

  Variable stack : nat.
  Variable rank : Sup m -> nat.
  Hypothesis G : goes_up m stack rank.

  Lemma q_init md : quiet (inner_init m stack md).
  Proof.
    unfold inner_init. destruct md; unfold Blocking.inner_init, Awaitable.inner_init.
    - apply q_self. intros x sh cx. destruct (state_depth_any G x) as (d & E & _). unfold bind, lift. rewrite E. cbn [r_out r_self r_sh r_cx r_tr].
      destruct (q_enter_blocking (S d) x sh cx) as [t ->]. eexists. reflexivity.
    - apply q_self. intros x sh cx. destruct (state_depth_any G x) as (d & E & _). unfold bind, lift.
      change (Awaitable.state_depth m stack x) with (Blocking.state_depth m stack x). rewrite E. cbn [r_out r_self r_sh r_cx r_tr].
      destruct (q_enter_awaitable (S d) x sh cx) as [t ->]. eexists. reflexivity.
  Qed.
End Quiet.

Section Session.
  Variable m : machine.
  Variable ser_shared : format -> Shared m -> result data.
  Variable ser_state : format -> State m -> result data.
  Variable de_shared : format -> data -> result (Shared m).
  Variable de_state : format -> data -> result (State m).
  Variable stack : nat.
  Variable md : mode.
  Variable rank : Sup m -> nat.
  Hypothesis Q : quiet_entries m.
  Hypothesis G : goes_up m stack rank.
  Hypothesis RT : forall f, round_trips m (ser_shared f) (ser_state f) (de_shared f) (de_state f).
  Hypothesis S : serializable ser_shared ser_state.

  Lemma init_log (x : State m) sh cx :
    exists t, inner_init m stack md x sh cx = Res (Ret tt) x sh cx t /\ forallb (@is_enter m) t = true.
  Proof.
    destruct (q_init Q G md x sh cx) as [t E]. exists t. split; [exact E|].
    destruct (@AnyProofs.init_any m stack rank G md (fun _ => True) x sh cx I) as [(A & _) _]. rewrite E in A. exact A.
  Qed.

  (** One call, on machines with the same data. *)
  Lemma same_handle (a b : state_machine m) e cx :
    sm_inner a = sm_inner b -> (initialized a = true -> initialized b = true) ->
    let r := handle_with_context stack md a e cx in
    let r' := handle_with_context stack md b e cx in
    a_out r = a_out r' /\ a_cx r = a_cx r' /\ sm_inner (a_machine r) = sm_inner (a_machine r') /\
    initialized (a_machine r) = true /\ initialized (a_machine r') = true /\
    exists t, forallb (@is_enter m) t = true /\ a_tr r = t ++ a_tr r'.
  Proof.
    intros E I. cbv zeta. destruct a as [i ia], b as [i' ib]. cbn [sm_inner initialized] in *. subst i'.
    destruct (init_log (state i) (shared_storage i) cx) as (t & Ei & F).
    unfold handle_with_context. cbn [initialized sm_inner]. unfold run_inner. rewrite Ei. cbn [r_out r_self r_sh r_cx r_tr a_out a_machine a_cx a_tr].
    unfold dispatch, run_inner. cbn [sm_inner initialized state shared_storage].
    destruct ia, ib; cbn [negb a_out a_machine a_cx a_tr sm_inner initialized].
    - repeat split. exists []. repeat split.
    - discriminate (I eq_refl).
    - destruct i as [sh x]. repeat split. exists t. split; [exact F|reflexivity].
    - repeat split. exists []. repeat split.
  Qed.

  Lemma session_same ds : forall (a b : state_machine m),
    restores_readably ds -> sm_inner a = sm_inner b -> (initialized a = true -> initialized b = true) ->
    exists sm' cs, session ser_shared ser_state de_shared de_state stack md a ds = Some (sm', cs) /\
      let h := sm_handles stack md b (events_of ds) in
      sm_inner sm' = sm_inner (fst h) /\ Forall2 same_call cs (snd h).
  Proof.
    induction ds as [|[e cx|f cx] ds IH]; intros a b R E I; inversion R as [|? ? R1 R2]; subst.
    - exists a, []. split; [reflexivity|]. split; [exact E|constructor].
    - destruct (same_handle a b e cx E I) as (A1 & A2 & A3 & A4 & A5 & A6).
      destruct (IH (a_machine (handle_with_context stack md a e cx)) (a_machine (handle_with_context stack md b e cx)) R2 A3 (fun _ => A5))
        as (sm' & cs & B1 & B2 & B3).
      cbn [session]. rewrite B1. cbn [option_map fst snd]. eexists _, _. split; [reflexivity|].
      change (events_of (Handles e cx :: ds)) with ((e, cx) :: events_of ds). cbn [sm_handles].
      cbv zeta in B2, B3. destruct (sm_handles stack md (a_machine (handle_with_context stack md b e cx)) (events_of ds)) as [z cs'].
      cbn [fst snd] in *. split; [exact B2|]. constructor; [|exact B3].
      split; [exact A1|]. split; [cbn [c_cx]; rewrite A2; reflexivity|exact A6].
    - cbn [session]. destruct S as [S1 S2]. destruct (S1 f (sm_shared a)) as [d1 D1], (S2 f (sm_state a)) as [d2 D2].
      assert (X : exists d, ser_sm m (ser_shared f) (ser_state f) f a = Ok d).
      { unfold ser_sm, ser_inner. unfold sm_shared, sm_state in D1, D2. rewrite D1. cbn [try]. rewrite D2. cbn [try]. eexists. reflexivity. }
      destruct X as [d X]. rewrite X. destruct (@RestoreProofs.round_trip_sm m _ _ _ _ f (RT f) R1 a d X) as [-> _].
      change (events_of (Restores f cx :: ds)) with (events_of ds). apply IH; [exact R2|exact E|discriminate].
  Qed.

  Lemma typed_same ds : forall im : initialized_machine m, restores_readably ds ->
    typed_session ser_shared ser_state de_shared de_state stack md im ds = Some (im_handles stack md im (events_of ds)).
  Proof.
    induction ds as [|[e cx|f cx] ds IH]; intros im R; inversion R as [|? ? R1 R2]; subst.
    - reflexivity.
    - cbn [typed_session]. rewrite (IH _ R2). change (events_of (Handles e cx :: ds)) with ((e, cx) :: events_of ds).
      cbn [im_handles option_map]. destruct (im_handles stack md _ (events_of ds)). reflexivity.
    - cbn [typed_session]. destruct S as [S1 S2]. destruct (S1 f (shared_storage (im_inner im))) as [d1 D1], (S2 f (state (im_inner im))) as [d2 D2].
      assert (X : exists d, ser_im m (ser_shared f) (ser_state f) f im = Ok d).
      { unfold ser_im, ser_inner. rewrite D1. cbn [try]. rewrite D2. cbn [try]. eexists. reflexivity. }
      destruct X as [d X]. rewrite X. destruct (@RestoreProofs.round_trip_im m _ _ _ _ f (RT f) R1 im d X) as [_ ->].
      unfold um_init_with_context, run_inner. cbn [um_inner].
      destruct (init_log (state (im_inner im)) (shared_storage (im_inner im)) cx) as (t & Ei & F). rewrite Ei. cbn [r_out r_self r_sh r_cx r_tr a_out a_machine a_cx a_tr].
      change (events_of (Restores f cx :: ds)) with (events_of ds). destruct im as [[sh x]]. apply IH, R2.
  Qed.
End Session.
