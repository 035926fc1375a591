(** PullProofs.v — lemmas for C74. *)

From Coq Require Import List Bool Arith Lia.
From Verif Require Import Machine Blocking Awaitable Api Spec PullSpec AnySpec.
Import ListNotations.
Set Implicit Arguments.
Local Open Scope comp_scope.

Lemma see_app {m : machine} (t1 t2 : list (obs m)) : see (t1 ++ t2) = see t1 ++ see t2.
Proof. unfold see. apply flat_map_app. Qed.

Arguments see : simpl never.
Arguments run_inner : simpl never.
Arguments dispatch : simpl never.

(** Machines that differ in their handlers only. *)
Section Others.
  Variable m : machine.
  Variable hs : State m -> Shared m -> Ctx m -> Event m -> reply (response (State m)) * State m * Shared m * Ctx m.
  Variable hu : Sup m -> Shared m -> Ctx m -> Event m -> reply (response (State m)) * Sup m * Shared m * Ctx m.
  Notation m' := (with_handlers m hs hu).
  Variable stack : nat.

  Definition same {X A : Type} (r : res m X A) (r' : res m' X A) : Prop :=
    r_out r' = r_out r /\ r_self r' = r_self r /\ (r_sh r' : Shared m) = r_sh r /\
    (r_cx r' : Ctx m) = r_cx r /\ (see (r_tr r') : list (seen (State m) (Sup m))) = see (r_tr r).
  Definition alike {X A} (c : comp m X A) (c' : comp m' X A) : Prop :=
    forall x sh cx, same (c x sh cx) (c' x sh cx).

  Lemma al_ret {X A} (a : A) : alike (ret (m := m) (X := X) a) (ret (m := m') (X := X) a).
  Proof. intros x sh cx. repeat split. Qed.
  Lemma al_self {X} : alike (self (m := m) (X := X)) (self (m := m') (X := X)).
  Proof. intros x sh cx. repeat split. Qed.
  Lemma al_lift {X A} (o : outcome A) : alike (lift (m := m) (X := X) o) (lift (m := m') (X := X) o).
  Proof. intros x sh cx. destruct o; repeat split. Qed.
  Lemma al_bind {X A B} (c : comp m X A) c' (k : A -> comp m X B) k' :
    alike c c' -> (forall a, alike (k a) (k' a)) -> alike (bind c k) (bind c' k').
  Proof.
    intros Hc Hk x sh cx. unfold bind. destruct (Hc x sh cx) as (H1 & H2 & H3 & H4 & H5).
    destruct (c x sh cx) as [o x1 sh1 cx1 t1], (c' x sh cx) as [o' x1' sh1' cx1' t1'].
    cbn in *. subst. destruct o as [a | w].
    - destruct (Hk a x1 sh1 cx1) as (G1 & G2 & G3 & G4 & G5). repeat split; cbn; try assumption.
      rewrite !see_app. f_equal; assumption.
    - repeat split; assumption.
  Qed.
  Lemma al_via {X V A} (put : X -> V -> X) v (c : comp m V A) c' :
    alike c c' -> alike (via put v c) (via (m := m') put v c').
  Proof.
    intros Hc x sh cx. unfold via. destruct (Hc v sh cx) as (H1 & H2 & H3 & H4 & H5).
    repeat split; cbn; try assumption. rewrite H2. reflexivity.
  Qed.
  Lemma al_action {X} f (o : X -> obs m) (o' : X -> obs m') :
    (forall x, (see [o' x] : list (seen (State m) (Sup m))) = see [o x]) ->
    alike (call_action (m := m) f o) (call_action (m := m') f o').
  Proof.
    intros Ho x sh cx. unfold call_action. cbn.
    destruct (f x sh cx) as [[[r x'] sh'] cx']. repeat split. apply Ho.
  Qed.
  Lemma al_hook {X} f (o : obs m) (o' : obs m') :
    (see [o'] : list (seen (State m) (Sup m))) = see [o] ->
    alike (call_hook (m := m) (X := X) f o) (call_hook (m := m') (X := X) f o').
  Proof.
    intros Ho x sh cx. unfold call_hook. cbn. destruct (f sh) as [r sh']. repeat split. exact Ho.
  Qed.
  Lemma al_u_entry : alike (u_call_entry m) (u_call_entry m').
  Proof. apply al_action. reflexivity. Qed.
  Lemma al_s_entry : alike (s_call_entry m) (s_call_entry m').
  Proof. apply al_action. reflexivity. Qed.
  Lemma al_u_exit : alike (u_call_exit m) (u_call_exit m').
  Proof. apply al_action. reflexivity. Qed.
  Lemma al_s_exit : alike (s_call_exit m) (s_call_exit m').
  Proof. apply al_action. reflexivity. Qed.
  Lemma al_before a b : alike (before_transition m (X := State m) a b) (before_transition m' a b).
  Proof. apply al_hook. reflexivity. Qed.
  Lemma al_after a b : alike (after_transition m (X := State m) a b) (after_transition m' a b).
  Proof. apply al_hook. reflexivity. Qed.

  Ltac al :=
    repeat first
      [ apply al_ret | apply al_self | apply al_lift | apply al_u_entry | apply al_s_entry
      | apply al_u_exit | apply al_s_exit | apply al_before | apply al_after | assumption
      | apply al_bind; [| intros ?] | apply al_via ].

  Lemma al_u_opt {A} (o : option (Sup m)) (u : Sup m) (c : comp m (Sup m) A) c' (d : comp m (Sup m) A) d' :
    alike c c' -> alike d d' ->
    alike match o with Some v => via (u_put m) v c | None => d end
          match o with Some v => via (m := m') (u_put m) v c' | None => d' end.
  Proof. intros Hc Hd. destruct o; [apply al_via; exact Hc | exact Hd]. Qed.
  Lemma al_s_opt {A} (o : option (Sup m)) (c : comp m (Sup m) A) c' (d : comp m (State m) A) d' :
    alike c c' -> alike d d' ->
    alike match o with Some v => via (s_put m) v c | None => d end
          match o with Some v => via (m := m') (s_put m) v c' | None => d' end.
  Proof. intros Hc Hd. destruct o; [apply al_via; exact Hc | exact Hd]. Qed.

  Lemma al_enter_u n : alike (superstate_enter m n) (superstate_enter m' n).
  Proof.
    induction n as [| [| n] IH]; [apply al_ret | apply al_u_entry |].
    apply al_bind; [apply al_self |]. intros u. apply al_bind; [| intros; apply al_u_entry].
    apply al_u_opt; [exact u | exact IH | apply al_ret].
  Qed.
  Lemma al_exit_u n : alike (superstate_exit m n) (superstate_exit m' n).
  Proof.
    induction n as [| [| n] IH]; [apply al_ret | apply al_u_exit |].
    apply al_bind; [apply al_u_exit |]. intros _. apply al_bind; [apply al_self |]. intros u.
    apply al_u_opt; [exact u | exact IH | apply al_ret].
  Qed.
  Lemma al_climb n : alike (climb_entry m n) (climb_entry m' n).
  Proof.
    induction n as [| n IH]; [apply al_u_entry |].
    apply al_bind; [apply al_self |]. intros u. apply al_u_opt; [exact u | exact IH | apply al_u_entry].
  Qed.
  Lemma al_exit_loop n : alike (exit_loop m n) (exit_loop m' n).
  Proof.
    induction n as [| n IH]; [apply al_ret |].
    apply al_bind; [apply al_u_exit |]. intros _. apply al_bind; [apply al_self |]. intros u.
    apply al_u_opt; [exact u | exact IH | apply al_ret].
  Qed.
  Lemma al_bl_enter n : alike (Blocking.state_enter m n) (Blocking.state_enter m' n).
  Proof.
    destruct n as [| [| n]]; [apply al_ret | apply al_s_entry |].
    apply al_bind; [apply al_self |]. intros x. apply al_bind; [| intros; apply al_s_entry].
    apply al_s_opt; [apply al_enter_u | apply al_ret].
  Qed.
  Lemma al_bl_exit n : alike (Blocking.state_exit m n) (Blocking.state_exit m' n).
  Proof.
    destruct n as [| [| n]]; [apply al_ret | apply al_s_exit |].
    apply al_bind; [apply al_s_exit |]. intros _. apply al_bind; [apply al_self |]. intros x.
    apply al_s_opt; [apply al_exit_u | apply al_ret].
  Qed.
  Lemma al_aw_enter n : alike (Awaitable.state_enter m n) (Awaitable.state_enter m' n).
  Proof.
    induction n as [| [| n] IH]; [apply al_ret | apply al_s_entry |].
    apply al_bind; [apply al_self |]. intros x. apply al_bind; [| intros; exact IH].
    apply al_s_opt; [apply al_climb | apply al_ret].
  Qed.
  Lemma al_aw_exit n : alike (Awaitable.state_exit m n) (Awaitable.state_exit m' n).
  Proof.
    apply al_bind; [destruct (1 <=? n); [apply al_s_exit | apply al_ret] |]. intros _.
    apply al_bind; [apply al_self |]. intros x.
    apply al_s_opt; [apply al_exit_loop | apply al_ret].
  Qed.

  Lemma depth_same n u : superstate_depth m' n u = superstate_depth m n u.
  Proof.
    revert u. induction n as [| n IH]; [reflexivity |]. intros u. cbn.
    destruct (u_super m u) as [v |]; [| reflexivity]. rewrite (IH v). reflexivity.
  Qed.
  Lemma cad_same n u v :
    superstate_common_ancestor_depth m' stack n u v = superstate_common_ancestor_depth m stack n u v.
  Proof.
    revert u v. induction n as [| n IH]; [reflexivity |]. intros u v. cbn.
    rewrite (depth_same stack u), (depth_same stack v).
    destruct (superstate_depth m stack u) as [du |]; [| reflexivity].
    destruct (superstate_depth m stack v) as [dv |]; [| reflexivity].
    destruct (du ?= dv).
    - change (same_superstate m u v) with (u_disc m u =? u_disc m v). destruct (u_disc m u =? u_disc m v); [reflexivity |].
      destruct (u_super m u) as [u' |]; [| reflexivity]. destruct (u_super m v) as [v' |]; [apply IH | reflexivity].
    - destruct (u_super m v) as [v' |]; [apply IH | reflexivity].
    - destruct (u_super m u) as [u' |]; [apply IH | reflexivity].
  Qed.
  Lemma state_depth_same x : Blocking.state_depth m' stack x = Blocking.state_depth m stack x.
  Proof.
    unfold Blocking.state_depth. cbn. destruct (s_super m x) as [u |]; [| reflexivity].
    rewrite (depth_same stack u). reflexivity.
  Qed.
  Lemma path_same x y : Blocking.transition_path m' stack x y = Blocking.transition_path m stack x y.
  Proof.
    unfold Blocking.transition_path. rewrite (state_depth_same x), (state_depth_same y).
    change (same_state m' x y) with (same_state m x y). destruct (same_state m x y); [reflexivity |].
    destruct (Blocking.state_depth m stack x); [| reflexivity].
    destruct (Blocking.state_depth m stack y); [| reflexivity].
    cbn. destruct (s_super m x) as [u |]; [| reflexivity]. destruct (s_super m y) as [v |]; [| reflexivity].
    rewrite (cad_same (stack + stack) u v). reflexivity.
  Qed.

  Lemma al_swap t : alike (swap_state m t) (swap_state m' t).
  Proof. intros x sh cx. repeat split. Qed.
  Lemma al_bl_transition t : alike (Blocking.transition m stack t) (Blocking.transition m' stack t).
  Proof.
    unfold Blocking.transition.
    apply al_bind; [apply al_self |]. intros x. apply al_bind; [apply al_before |]. intros _.
    rewrite (path_same x t). apply al_bind; [apply al_lift |]. intros [i j].
    apply al_bind; [apply al_bl_exit |]. intros _. apply al_bind; [apply al_swap |]. intros old.
    apply al_bind; [apply al_bl_enter |]. intros _. apply al_bind; [apply al_self |]. intros y. apply al_after.
  Qed.
  Lemma al_aw_transition t : alike (Awaitable.transition m stack t) (Awaitable.transition m' stack t).
  Proof.
    unfold Awaitable.transition, Awaitable.transition_path.
    apply al_bind; [apply al_self |]. intros x. apply al_bind; [apply al_before |]. intros _.
    rewrite (path_same x t). apply al_bind; [apply al_lift |]. intros [i j].
    apply al_bind; [apply al_aw_exit |]. intros _. apply al_bind; [apply al_swap |]. intros old.
    apply al_bind; [apply al_aw_enter |]. intros _. apply al_bind; [apply al_self |]. intros y. apply al_after.
  Qed.
  Lemma al_bl_init : alike (Blocking.inner_init m stack) (Blocking.inner_init m' stack).
  Proof.
    unfold Blocking.inner_init. apply al_bind; [apply al_self |]. intros x.
    rewrite (state_depth_same x). apply al_bind; [apply al_lift |]. intros n. apply al_bl_enter.
  Qed.
  Lemma al_aw_init : alike (Awaitable.inner_init m stack) (Awaitable.inner_init m' stack).
  Proof.
    unfold Awaitable.inner_init, Awaitable.state_depth. apply al_bind; [apply al_self |]. intros x.
    rewrite (state_depth_same x). apply al_bind; [apply al_lift |]. intros n. apply al_aw_enter.
  Qed.

  (** If dispatching comes to the same, everything does. *)
  Section Alike.
    Variable md : mode.
    Hypothesis alike_handle : forall e,
      match md with
      | BlockingMode => alike (Blocking.state_handle m stack e) (Blocking.state_handle m' stack e)
      | AwaitableMode => alike (Awaitable.state_handle m stack e) (Awaitable.state_handle m' stack e)
      end.

    Lemma al_inner_handle e :
      alike (Api.inner_handle m stack md e) (Api.inner_handle m' stack md e).
    Proof.
      unfold Api.inner_handle. specialize (alike_handle e). destruct md.
      - apply al_bind; [exact alike_handle |]. intros [| | t]; [apply al_ret .. | apply al_bl_transition].
      - apply al_bind; [exact alike_handle |]. intros [| | t]; [apply al_ret .. | apply al_aw_transition].
    Qed.
    Lemma al_inner_init : alike (Api.inner_init m stack md) (Api.inner_init m' stack md).
    Proof. unfold Api.inner_init. destruct md; [apply al_bl_init | apply al_aw_init]. Qed.
  End Alike.
End Others.

(** Histories. *)
Section Histories.
  Variable m : machine.
  Variable hs : State m -> Shared m -> Ctx m -> Event m -> reply (response (State m)) * State m * Shared m * Ctx m.
  Variable hu : Sup m -> Shared m -> Ctx m -> Event m -> reply (response (State m)) * Sup m * Shared m * Ctx m.
  Notation m' := (with_handlers m hs hu).
  Variable stack : nat.
  Variable md : mode.
  Hypothesis alike_handle : forall e,
    match md with
    | BlockingMode => alike (Blocking.state_handle m stack e) (Blocking.state_handle m' stack e : comp m' (State m) (response (State m)))
    | AwaitableMode => alike (Awaitable.state_handle m stack e) (Awaitable.state_handle m' stack e : comp m' (State m) (response (State m)))
    end.

  Definition to_op (o : op m) : op m' :=
    match o with
    | OpInit cx => @OpInit m' cx
    | OpHandle e cx => @OpHandle m' e cx
    | OpInnerMut f => @OpInnerMut m' f
    | OpStateMut f => @OpStateMut m' f
    end.
  Definition to_machine (sm : state_machine m) : state_machine m' :=
    StateMachine (@Inner m' (shared_storage (sm_inner sm)) (state (sm_inner sm))) (initialized sm).

  Lemma run_alike c (c' : comp m' (State m) unit) i cx : alike c c' ->
    let r := run_inner c i cx in
    let r' := run_inner (m := m') c' (@Inner m' (shared_storage i) (state i)) cx in
    a_out r' = a_out r /\ a_machine r' = @Inner m' (shared_storage (a_machine r)) (state (a_machine r)) /\
    (a_cx r' : Ctx m) = a_cx r /\ (see (a_tr r') : list (seen (State m) (Sup m))) = see (a_tr r).
  Proof.
    intros H. destruct i as [sh x]. destruct (H x sh cx) as (H1 & H2 & H3 & H4 & H5).
    unfold run_inner. cbn. repeat split; try assumption. f_equal; assumption.
  Qed.

  Lemma exec_alike o sm out sm1 cx tr : exec stack md o sm = (out, sm1, cx, tr) ->
    exists tr', exec stack md (to_op o) (to_machine sm) = (out, to_machine sm1, cx, tr') /\
      (see tr' : list (seen (State m) (Sup m))) = see tr.
  Proof.
    assert (Hd : forall s e c, let r := dispatch stack md s e c in
      let r' := dispatch stack md (to_machine s) e c in
      a_out r' = a_out r /\ a_machine r' = to_machine (a_machine r) /\ (a_cx r' : Ctx m) = a_cx r /\
      (see (a_tr r') : list (seen (State m) (Sup m))) = see (a_tr r)).
    { intros s e c. unfold dispatch. cbn.
      destruct (@run_alike _ _ (sm_inner s) c (@al_inner_handle m hs hu stack md alike_handle e)) as (H1 & H2 & H3 & H4).
      repeat split; try assumption. cbn in H2. unfold to_machine. cbn. f_equal. exact H2. }
    destruct o as [c | e c | f | f]; cbn.
    - unfold init_with_context. cbn. destruct (initialized sm) eqn:Ei; cbn.
      + intros [= <- <- <- <-]. exists []. split; reflexivity.
      + destruct (@run_alike _ _ (sm_inner sm) c (@al_inner_init m hs hu stack md alike_handle)) as (H1 & H2 & H3 & H4).
        revert H1 H2 H3 H4. cbn zeta.
        destruct (run_inner (Api.inner_init m stack md) (sm_inner sm) c) as [o i1 c1 t1].
        destruct (run_inner (Api.inner_init m' stack md) _ c) as [o' i1' c1' t1'].
        cbn [a_out a_machine a_cx a_tr]. intros -> -> -> H4.
        destruct o as [[] | w]; cbn; intros [= <- <- <- <-]; exists t1'; (split; [| exact H4]);
          unfold to_machine; cbn; rewrite ?Ei; reflexivity.
    - unfold handle_with_context. cbn. destruct (initialized sm) eqn:Ei; cbn [negb].
      + destruct (Hd sm e c) as (H1 & H2 & H3 & H4). revert H1 H2 H3 H4. cbn zeta.
        destruct (dispatch stack md sm e c) as [o s1 c1 t1].
        destruct (dispatch stack md (to_machine sm) e c) as [o' s1' c1' t1'].
        cbn [a_out a_machine a_cx a_tr]. intros -> -> -> H4 [= <- <- <- <-]. exists t1'. split; [reflexivity | exact H4].
      + destruct (@run_alike _ _ (sm_inner sm) c (@al_inner_init m hs hu stack md alike_handle)) as (H1 & H2 & H3 & H4).
        revert H1 H2 H3 H4. cbn zeta.
        destruct (run_inner (Api.inner_init m stack md) (sm_inner sm) c) as [o i1 c1 t1].
        destruct (run_inner (Api.inner_init m' stack md) _ c) as [o' i1' c1' t1'].
        cbn [a_out a_machine a_cx a_tr]. intros -> -> -> H4.
        destruct o as [[] | w].
        * destruct (Hd (StateMachine i1 true) e c1) as (G1 & G2 & G3 & G4). revert G1 G2 G3 G4. cbn zeta.
          change (to_machine (StateMachine i1 true)) with (StateMachine (@Inner m' (shared_storage i1) (state i1)) true).
          destruct (dispatch stack md (StateMachine i1 true) e c1) as [o s1 c2 t2].
          destruct (dispatch stack md (StateMachine (@Inner m' (shared_storage i1) (state i1)) true) e c1) as [o' s1' c2' t2'].
          cbn [a_out a_machine a_cx a_tr]. intros -> -> -> G4 [= <- <- <- <-].
          exists (t1' ++ t2'). split; [reflexivity |]. rewrite !see_app. f_equal; assumption.
        * intros [= <- <- <- <-]. exists t1'. split; [| exact H4]. unfold to_machine. cbn. reflexivity.
    - intros [= <- <- <- <-]. exists []. split; reflexivity.
    - intros [= <- <- <- <-]. exists []. split; reflexivity.
  Qed.

  Lemma history_alike ops : forall sm cs sm',
    exec_all stack md ops sm = (cs, sm') ->
    exists cs', exec_all stack md (map to_op ops) (to_machine sm) = (cs', to_machine sm') /\
      map (see_called (m := m')) cs' = map see_called cs.
  Proof.
    induction ops as [| o ops IH]; intros sm cs sm'; cbn.
    - intros [= <- <-]. exists []. split; reflexivity.
    - destruct (exec stack md o sm) as [[[out s1] cx] tr] eqn:E.
      destruct (exec_all stack md ops s1) as [cs1 s2] eqn:E2. intros [= <- <-].
      destruct (@exec_alike o sm _ _ _ _ E) as (tr' & E' & Ht).
      destruct (IH _ _ _ E2) as (cs' & E2' & Hc).
      exists (Called (m := m') out cx tr' :: cs'). rewrite E', E2'. split; [reflexivity |].
      cbn [map]. apply f_equal2; [| exact Hc]. unfold see_called. cbn [c_out c_cx c_tr].
      apply f_equal2; [reflexivity | exact Ht].
  Qed.
End Histories.

(** Dispatching without hooks: the handlers are called one after the other. *)
Section Asks.
  Variable M : machine.
  Hypothesis quiet : no_dispatch_hooks M.
  Variable top : response (State M).
  Variable e : Event M.

  Fixpoint asks (n : nat) (u : Sup M) (sh : Shared M) (cx : Ctx M)
    : outcome (response (State M)) * Sup M * Shared M * Ctx M :=
    match n with
    | 0 => (Abort Diverges, u, sh, cx)
    | S n' =>
        let '(r, u1, sh1, cx1) := u_handler M u sh cx e in
        match r with
        | Returns Super =>
            match u_super M u1 with
            | Some v => let '(o, v', sh2, cx2) := asks n' v sh1 cx1 in (o, u_put M u1 v', sh2, cx2)
            | None => (Ret top, u1, sh1, cx1)
            end
        | _ => (outcome_of r, u1, sh1, cx1)
        end
    end.
  Definition asked (n : nat) (bottom : response (State M)) (x : State M) (sh : Shared M) (cx : Ctx M)
    : outcome (response (State M)) * State M * Shared M * Ctx M :=
    let '(r, x1, sh1, cx1) := s_handler M x sh cx e in
    match r with
    | Returns Super =>
        match s_super M x1 with
        | Some v => let '(o, v', sh2, cx2) := asks n v sh1 cx1 in (o, s_put M x1 v', sh2, cx2)
        | None => (Ret bottom, x1, sh1, cx1)
        end
    | _ => (outcome_of r, x1, sh1, cx1)
    end.

  Definition gives {X A} (r : res M X A) (p : outcome A * X * Shared M * Ctx M) : Prop :=
    (r_out r, r_self r, r_sh r, r_cx r) = p /\ see (r_tr r) = [].

  Lemma before_gives {X A} n (k : comp M X A) x sh cx p :
    gives (k x sh cx) p -> gives ((before_dispatch M n e ;;; k) x sh cx) p.
  Proof.
    intros [H1 H2]. unfold bind, before_dispatch, call_hook. rewrite (nd_before quiet). cbn.
    split; [exact H1 | exact H2].
  Qed.
  Lemma after_gives {X A} n (k : comp M X A) x sh cx p :
    gives (k x sh cx) p -> gives ((after_dispatch M n e ;;; k) x sh cx) p.
  Proof.
    intros [H1 H2]. unfold bind, after_dispatch, call_hook. rewrite (nd_after quiet). cbn.
    split; [exact H1 | exact H2].
  Qed.
  Lemma self_gives {X A} (k : X -> comp M X A) x sh cx p :
    gives (k x x sh cx) p -> gives ((y <- self ;; k y) x sh cx) p.
  Proof. intros [H1 H2]. split; [exact H1 | exact H2]. Qed.
  Lemma then_gives {X A} (c : comp M X A) (k : A -> comp M X A) x sh cx p :
    gives (c x sh cx) p ->
    (forall a x sh cx, gives (k a x sh cx) (Ret a, x, sh, cx)) -> gives ((a <- c ;; k a) x sh cx) p.
  Proof.
    intros [H1 H2] Hk. unfold bind. destruct (c x sh cx) as [[a | w] x1 sh1 cx1 t1]; cbn in *.
    - destruct (Hk a x1 sh1 cx1) as [G1 G2]. split; cbn; [rewrite <- H1; exact G1 |].
      rewrite see_app, H2, G2. reflexivity.
    - split; assumption.
  Qed.
  Lemma via_gives {X V A} (put : X -> V -> X) v (c : comp M V A) x sh cx o v' sh' cx' :
    gives (c v sh cx) (o, v', sh', cx') -> gives (via put v c x sh cx) (o, put x v', sh', cx').
  Proof. intros [[= <- <- <- <-] H2]. split; [reflexivity | exact H2]. Qed.

  (** One handler call and what follows. *)
  Lemma handler_gives {X A} (f : X -> Shared M -> Ctx M -> Event M -> reply (response (State M)) * X * Shared M * Ctx M)
      (nd : X -> node (State M) (Sup M)) (k : response (State M) -> comp M X A) x sh cx r x1 sh1 cx1 p :
    f x sh cx e = (r, x1, sh1, cx1) ->
    match r with
    | Returns a => gives (k a x1 sh1 cx1) p
    | Panics => p = (Abort Panicked, x1, sh1, cx1)
    | Cancelled => p = (Abort DroppedFuture, x1, sh1, cx1)
    end ->
    gives ((a <- call_handler M f nd e ;; k a) x sh cx) p.
  Proof.
    intros E H. unfold bind, call_handler. rewrite E. destruct r as [a | |]; cbn.
    - destruct H as [H1 H2]. split; [exact H1 | exact H2].
    - subst p. split; reflexivity.
    - subst p. split; reflexivity.
  Qed.

  Lemma around_gives {A} (c : comp M (Sup M) A) u sh cx p :
    gives (c u sh cx) p ->
    gives ((v0 <- self ;; before_dispatch M (NSuper v0) e ;;; r <- c ;;
            v1 <- self ;; after_dispatch M (NSuper v1) e ;;; ret r) u sh cx) p.
  Proof.
    intros H. apply self_gives. apply before_gives. apply then_gives; [exact H |].
    intros a x s1 c1. apply self_gives. apply after_gives. split; reflexivity.
  Qed.
End Asks.

Section AsksModes.
  Variable M : machine.
  Hypothesis quiet : no_dispatch_hooks M.
  Variable e : Event M.

  Lemma bl_asks n : forall u sh cx,
    gives (superstate_handle M n e u sh cx) (asks M Super e n u sh cx).
  Proof.
    induction n as [| n IH]; intros u sh cx; [split; reflexivity |].
    cbn [asks]. destruct (u_handler M u sh cx e) as [[[r u1] sh1] cx1] eqn:E.
    apply (@handler_gives M e _ _ (u_handler M) NSuper _ u sh cx r u1 sh1 cx1 _ E).
    destruct r as [[| | t] | |]; [split; reflexivity | | split; reflexivity ..].
    apply self_gives. destruct (u_super M u1) as [v |]; [| split; reflexivity].
    specialize (IH v sh1 cx1). destruct (asks M Super e n v sh1 cx1) as [[[o v'] sh2] cx2].
    apply via_gives. apply around_gives; [exact quiet | exact IH].
  Qed.
  Lemma aw_asks n : forall u sh cx,
    gives (handle_loop M n e u sh cx) (asks M Handled e n u sh cx).
  Proof.
    induction n as [| n IH]; intros u sh cx; [split; reflexivity |].
    cbn [asks]. destruct (u_handler M u sh cx e) as [[[r u1] sh1] cx1] eqn:E.
    apply self_gives. apply before_gives; [exact quiet |].
    apply (@handler_gives M e _ _ (u_handler M) NSuper _ u sh cx r u1 sh1 cx1 _ E).
    destruct r as [a | |]; [| reflexivity ..].
    apply self_gives. apply after_gives; [exact quiet |].
    destruct a as [| | t]; [split; reflexivity | | split; reflexivity].
    apply self_gives. destruct (u_super M u1) as [v |]; [| split; reflexivity].
    specialize (IH v sh1 cx1). destruct (asks M Handled e n v sh1 cx1) as [[[o v'] sh2] cx2].
    apply via_gives. exact IH.
  Qed.
  Lemma bl_asked n x sh cx :
    gives (Blocking.state_handle M n e x sh cx) (asked M Super e n Super x sh cx).
  Proof.
    unfold asked. destruct (s_handler M x sh cx e) as [[[r x1] sh1] cx1] eqn:E.
    apply self_gives. apply before_gives; [exact quiet |].
    apply (@handler_gives M e _ _ (s_handler M) NState _ x sh cx r x1 sh1 cx1 _ E).
    destruct r as [a | |]; [| reflexivity ..].
    apply self_gives. apply after_gives; [exact quiet |].
    destruct a as [| | t]; [split; reflexivity | | split; reflexivity].
    apply self_gives. destruct (s_super M x1) as [v |]; [| split; reflexivity].
    pose proof (bl_asks n v sh1 cx1) as IH. destruct (asks M Super e n v sh1 cx1) as [[[o v'] sh2] cx2].
    apply via_gives. apply around_gives; [exact quiet | exact IH].
  Qed.
  Lemma aw_asked n x sh cx :
    gives (Awaitable.state_handle M n e x sh cx) (asked M Handled e n Super x sh cx).
  Proof.
    unfold asked. destruct (s_handler M x sh cx e) as [[[r x1] sh1] cx1] eqn:E.
    apply self_gives. apply before_gives; [exact quiet |].
    apply (@handler_gives M e _ _ (s_handler M) NState _ x sh cx r x1 sh1 cx1 _ E).
    destruct r as [a | |]; [| reflexivity ..].
    apply self_gives. apply after_gives; [exact quiet |].
    destruct a as [| | t]; [split; reflexivity | | split; reflexivity].
    apply self_gives. destruct (s_super M x1) as [v |]; [| split; reflexivity].
    pose proof (aw_asks n v sh1 cx1) as IH. destruct (asks M Handled e n v sh1 cx1) as [[[o v'] sh2] cx2].
    apply via_gives. exact IH.
  Qed.
End AsksModes.

Section Pushed.
  Variable m : machine.
  Variable by_state : State m -> Event m -> bool.
  Variable by_super : Sup m -> Event m -> bool.
  Notation m' := (pushed_down m by_state by_super).
  Variable stack : nat.
  Variable rank : Sup m -> nat.
  Hypothesis up : goes_up m stack rank.
  Hypothesis lend : lending m.
  Hypothesis quiet : no_dispatch_hooks m.
  Hypothesis defer : deferring m by_state by_super.

  Lemma quiet' : no_dispatch_hooks m'.
  Proof. split; intros; apply quiet. Qed.

  Variable top : response (State m).
  Variable e : Event m.

  Lemma asks_same n : forall u sh cx, rank u < n ->
    asks m' top e n u sh cx = asks m top e n u sh cx.
  Proof.
    induction n as [| n IH]; intros u sh cx Hn; [lia |].
    cbn. unfold u_itself.
    destruct (u_handler m u sh cx e) as [[[r u1] sh1] cx1] eqn:E.
    pose proof (gu_handler up _ _ _ _ E) as Hr.
    destruct (by_super u e) eqn:Eb.
    2: { destruct r as [[| | t] | |]; try reflexivity.
         destruct (u_super m u1) as [v |] eqn:Ev; [| reflexivity].
         pose proof (gu_up up _ Ev). rewrite (IH v sh1 cx1) by lia. reflexivity. }
    destruct r as [[| | t] | |]; try reflexivity.
    destruct (u_super m u1) as [v |] eqn:Ev.
    2: { rewrite Ev. reflexivity. }
    pose proof (gu_up up _ Ev) as Hv.
    destruct (u_handler m v sh1 cx1 e) as [[[r2 v2] sh2] cx2] eqn:E2.
    destruct n as [| n]; [lia |].
    destruct r2 as [[| | t] | |].
    - cbn. rewrite E2. reflexivity.
    - destruct (df_super defer _ _ _ _ Eb E Ev E2) as (-> & -> & ->).
      rewrite (ln_u lend _ Ev). rewrite Ev. rewrite (IH v sh1 cx1) by lia. reflexivity.
    - cbn. rewrite E2. reflexivity.
    - cbn. rewrite E2. reflexivity.
    - cbn. rewrite E2. reflexivity.
  Qed.

  Lemma asked_same bottom x sh cx :
    asked m' top e stack bottom x sh cx = asked m top e stack bottom x sh cx.
  Proof.
    unfold asked. cbn. unfold s_itself.
    destruct (s_handler m x sh cx e) as [[[r x1] sh1] cx1] eqn:E.
    destruct (by_state x e) eqn:Eb.
    2: { destruct r as [[| | t] | |]; try reflexivity.
         destruct (s_super m x1) as [v |] eqn:Ev; [| reflexivity].
         pose proof (gu_bound up v). rewrite (@asks_same stack v sh1 cx1) by lia. reflexivity. }
    destruct r as [[| | t] | |]; try reflexivity.
    destruct (s_super m x1) as [v |] eqn:Ev.
    2: { rewrite Ev. reflexivity. }
    pose proof (gu_bound up v) as Hv.
    destruct (u_handler m v sh1 cx1 e) as [[[r2 v2] sh2] cx2] eqn:E2.
    destruct r2 as [[| | t] | |].
    - destruct stack as [| n] eqn:Es; [lia |]. cbn. rewrite E2. reflexivity.
    - destruct (df_state defer _ _ _ _ Eb E Ev E2) as (-> & -> & ->).
      rewrite (ln_s lend _ Ev). rewrite Ev. rewrite (@asks_same stack v sh1 cx1) by lia. reflexivity.
    - destruct stack as [| n] eqn:Es; [lia |]. cbn. rewrite E2. reflexivity.
    - destruct stack as [| n] eqn:Es; [lia |]. cbn. rewrite E2. reflexivity.
    - destruct stack as [| n] eqn:Es; [lia |]. cbn. rewrite E2. reflexivity.
  Qed.
End Pushed.

Section PushedHistory.
  Variable m : machine.
  Variable by_state : State m -> Event m -> bool.
  Variable by_super : Sup m -> Event m -> bool.
  Notation m' := (pushed_down m by_state by_super).
  Variable stack : nat.
  Variable rank : Sup m -> nat.
  Hypothesis up : goes_up m stack rank.
  Hypothesis lend : lending m.
  Hypothesis quiet : no_dispatch_hooks m.
  Hypothesis defer : deferring m by_state by_super.

  Lemma gives_same {A} (r : res m (State m) A) (r' : res m' (State m) A) p p' :
    gives r p -> gives (M := m') r' p' -> p' = p ->
    same (hs := s_itself m by_state) (hu := u_itself m by_super) r r'.
  Proof.
    intros [<- H2] [<- H2'] [= E1 E2 E3 E4]. unfold same. repeat split; try assumption.
    rewrite H2. exact H2'.
  Qed.

  Lemma pushed_handle md e :
    match md with
    | BlockingMode => alike (hs := s_itself m by_state) (hu := u_itself m by_super)
        (Blocking.state_handle m stack e) (Blocking.state_handle m' stack e : comp m' (State m) (response (State m)))
    | AwaitableMode => alike (hs := s_itself m by_state) (hu := u_itself m by_super)
        (Awaitable.state_handle m stack e) (Awaitable.state_handle m' stack e : comp m' (State m) (response (State m)))
    end.
  Proof.
    destruct md; intros x sh cx.
    - exact (gives_same (@bl_asked m quiet e stack x sh cx) (@bl_asked m' (quiet' by_state by_super quiet) e stack x sh cx)
               (@asked_same m by_state by_super stack rank up lend defer Super e Super x sh cx)).
    - exact (gives_same (@aw_asked m quiet e stack x sh cx) (@aw_asked m' (quiet' by_state by_super quiet) e stack x sh cx)
               (@asked_same m by_state by_super stack rank up lend defer Handled e Super x sh cx)).
  Qed.

  Lemma pushed_history md ops sm cs sm' :
    exec_all stack md ops sm = (cs, sm') ->
    exists cs', exec_all stack md (map (@down_op m by_state by_super) ops) (down_machine by_state by_super sm) =
                  (cs', down_machine by_state by_super sm') /\
      map (see_called (m := m')) cs' = map see_called cs.
  Proof.
    intros E. exact (@history_alike m _ _ stack md (pushed_handle md) ops sm cs sm' E).
  Qed.
End PushedHistory.
