(** PollProofs.v — C40, C41: the poll-level library against the atomic one. *)

From Coq Require Import List Bool Arith Lia.
From Verif Require Import Machine Blocking Awaitable Api Spec Poll.
From Verif Require HandleProofs FrontProofs HookProofs.
Import ListNotations.
Set Implicit Arguments.

Section Drive.
  Variable World : Type.
  Variable m : machine.
  Notation fut := (fut World m).
  Notation drive := (drive (World := World) (m := m)).

  Definition prepend {B S L} (t : list (obs m)) (r : B * S * list (obs m) * L) :=
    let '(o, s, tr, l) := r in (o, s, t ++ tr, l).

  Lemma drive_bind {S A B} (k : A -> fut S B) ws : forall (c : fut S A) w s,
    drive (abind c k) w ws s =
    match drive c w ws s with
    | (Some (Ret a), s', tr, (w', ws')) => prepend tr (drive (k a) w' ws' s')
    | (Some (Abort y), s', tr, l) => (Some (Abort y), s', tr, l)
    | (None, s', tr, l) => (None, s', tr, l)
    end.
  Proof.
    assert (G : forall t (f : fut S B) w ws s,
               match logging t (poll f w s) with
               | PReady o s' tr => (Some o, s', tr, (w, ws))
               | PPending s' tr f' =>
                   match ws with
                   | [] => (None, s', tr, (w, []))
                   | w' :: ws' =>
                       let '(o, s2, tr2, unused) := drive f' w' ws' s' in (o, s2, tr ++ tr2, unused)
                   end
               end = prepend t (drive f w ws s)).
    { intros t f w [|w' ws'] s; simpl; destruct (poll f w s) as [o s' tr|s' tr f']; simpl; auto.
      destruct (drive f' w' ws' s') as [[[o s2] tr2] l]. simpl. now rewrite app_assoc. }
    induction ws as [|w' ws IH]; intros c w s.
    - simpl. destruct (poll c w s) as [[a|y] s' tr|s' tr c']; [|reflexivity|reflexivity].
      exact (G tr (k a) w [] s').
    - simpl. destruct (poll c w s) as [[a|y] s' tr|s' tr c']; [|reflexivity|].
      + exact (G tr (k a) w (w' :: ws) s').
      + rewrite IH. destruct (drive c' w' ws s') as [[[[[a|y]|] s2] tr2] [w2 ws2]]; try reflexivity.
        unfold prepend. destruct (drive (k a) w2 ws2 s2) as [[[o s3] tr3] l]. now rewrite app_assoc.
  Qed.

  Lemma drive_awaiting {S A} (ans : A -> list (obs m)) ws : forall (f : ufut World S A) w s,
    drive (awaiting ans f) w ws s =
    match udrive f w ws s with
    | (Some (Some a), s', l) => (Some (Ret a), s', ans a, l)
    | (Some None, s', l) => (Some (Abort Panicked), s', [], l)
    | (None, s', l) => (None, s', [], l)
    end.
  Proof.
    induction ws as [|w' ws IH]; intros f w s; simpl;
      destruct (upoll f w s) as [[a|] s'|s' f']; try reflexivity.
    rewrite IH. destruct (udrive f' w' ws s') as [[[[a|]|] s2] l]; reflexivity.
  Qed.

  Lemma drive_acall {S A} o (ans : A -> list (obs m)) (f : ufut World S A) w ws s :
    drive (acall o ans f) w ws s =
    match udrive f w ws s with
    | (Some (Some a), s', l) => (Some (Ret a), s', o s :: ans a, l)
    | (Some None, s', l) => (Some (Abort Panicked), s', [o s], l)
    | (None, s', l) => (None, s', [o s], l)
    end.
  Proof.
    assert (E : drive (acall o ans f) w ws s = prepend [o s] (drive (awaiting ans f) w ws s)).
    { unfold acall. generalize (awaiting ans f) as g. intros g.
      destruct ws as [|w' ws']; simpl; destruct (poll g w s) as [oo s' tr|s' tr f']; simpl; auto.
      destruct (drive f' w' ws' s') as [[[o1 s2] tr2] l]. reflexivity. }
    rewrite E, drive_awaiting. destruct (udrive f w ws s) as [[[[a|]|] s2] l]; reflexivity.
  Qed.

  Lemma drive_borrowed {S V A} (put : S -> V -> S) s0 ws : forall (c : fut V A) w v s,
    drive (borrowed put s0 v c) w ws s =
    let '(o, v', tr, l) := drive c w ws v in (o, put s0 v', tr, l).
  Proof.
    induction ws as [|w' ws IH]; intros c w v s; simpl;
      destruct (poll c w v) as [o v' tr|v' tr c']; try reflexivity.
    rewrite IH. destruct (drive c' w' ws v') as [[[o v2] tr2] l]. reflexivity.
  Qed.
  Lemma drive_aborrow {S V A} (get : S -> V) (put : S -> V -> S) (c : fut V A) w ws s :
    drive (aborrow get put c) w ws s =
    let '(o, v', tr, l) := drive c w ws (get s) in (o, put s v', tr, l).
  Proof.
    rewrite <- (drive_borrowed put s ws c w (get s) s). destruct ws; reflexivity.
  Qed.
End Drive.

(** ** Refinement *)

Section Refine.
  Variable World : Type.
  Variable m : machine.
  Variable F : futures World m.
  Notation sm' := (sync F).
  Notation store X := (X * Shared m * Ctx m)%type.
  Notation log := (map (to_sync F)).

  Definition ending {A} (o : option (outcome A)) : outcome A :=
    match o with Some o => o | None => Abort DroppedFuture end.

  Definition refines {X A} (c : fut World m (store X) A) (k : comp sm' X A) : Prop :=
    forall w ws x sh cx,
      let '(o, s', tr, l) := drive c w ws (x, sh, cx) in
      k x (sh, (w, ws)) cx =
      @Res sm' X A (ending o) (fst (fst s')) (snd (fst s'), l) (snd s') (log tr).

  Lemma refines_bind {X A B} c k (f : A -> fut World m (store X) B) (g : A -> comp sm' X B) :
    refines c k -> (forall a, refines (f a) (g a)) -> refines (abind c f) (bind k g).
  Proof.
    intros H G w ws x sh cx. rewrite drive_bind. specialize (H w ws x sh cx). unfold bind.
    destruct (drive c w ws (x, sh, cx)) as [[[[[a|y]|] [[x1 sh1] cx1]] tr1] [w1 ws1]]; cbn in H; rewrite H; cbn.
    - specialize (G a w1 ws1 x1 sh1 cx1).
      destruct (drive (f a) w1 ws1 (x1, sh1, cx1)) as [[[o s2] tr2] l2]. cbn.
      rewrite G. cbn. now rewrite map_app.
    - reflexivity.
    - reflexivity.
  Qed.

  Lemma refines_ret {X A} (a : A) : refines (aret (S := store X) a) (ret a).
  Proof. intros w [|w' ws] x sh cx; reflexivity. Qed.
  Lemma refines_lift {X A} (o : outcome A) : refines (alift (S := store X) o) (lift o).
  Proof. intros w [|w' ws] x sh cx; reflexivity. Qed.
  Lemma refines_abort {X A} y : refines (alift (S := store X) (@Abort A y)) (abort y).
  Proof. intros w [|w' ws] x sh cx; reflexivity. Qed.
  Lemma refines_self {X} : refines (aself (X := X)) self.
  Proof. intros w [|w' ws] x sh cx; reflexivity. Qed.

  Lemma refines_via {X V A} put v (c : fut World m (store V) A) k :
    refines c k -> refines (avia (X := X) put v c) (via put v k).
  Proof.
    intros H w ws x sh cx. unfold avia. rewrite drive_aborrow. cbn [fst snd].
    specialize (H w ws v sh cx). unfold via.
    destruct (drive c w ws (v, sh, cx)) as [[[o s1] tr1] l1]. cbn. rewrite H. reflexivity.
  Qed.

  Lemma refines_action {X} (f : ufut World (store X) unit) (o : X -> obs m) :
    refines (acall (fun s => o (fst (fst s))) (@no_answer m) f)
            (@call_action sm' X (fun x sh cx => atomically f x sh cx) (fun x => to_sync F (o x))).
  Proof.
    intros w ws x sh cx. rewrite drive_acall. unfold call_action, atomically. cbn [fst snd].
    destruct (udrive f w ws (x, sh, cx)) as [[[[[]|]|] [[x1 sh1] cx1]] l]; reflexivity.
  Qed.
  Lemma refines_handler {X} (f : ufut World (store X) (response (State m)))
      (nd : X -> node (State m) (Sup m)) (e : Event m) :
    refines (acall (fun s => OHandler (nd (fst (fst s))) e) (@handler_answer m) f)
            (@call_handler sm' X (fun x sh cx _ => atomically f x sh cx) nd e).
  Proof.
    intros w ws x sh cx. rewrite drive_acall. unfold call_handler, atomically. cbn [fst snd].
    destruct (udrive f w ws (x, sh, cx)) as [[[[a|]|] [[x1 sh1] cx1]] l]; reflexivity.
  Qed.
  Lemma refines_hook {X} (f : ufut World (Shared m) unit) (o : obs m) :
    refines (ahook (X := X) o f)
            (@call_hook sm' X (fun sh => atomic_hook f sh) (to_sync F o)).
  Proof.
    intros w ws x sh cx. unfold ahook. rewrite drive_aborrow. cbn [fst snd]. rewrite drive_acall.
    unfold call_hook, atomic_hook. cbn [fst snd].
    destruct (udrive f w ws sh) as [[[[[]|]|] sh1] l]; reflexivity.
  Qed.

  Variable stack : nat.

  Ltac step :=
    match goal with
    | |- refines (abind _ _) _ => apply refines_bind; [|intros ?]
    | |- refines (aret _) _ => apply refines_ret
    | |- refines (alift _) (lift _) => apply refines_lift
    | |- refines (alift _) (abort _) => apply refines_abort
    | |- refines aself _ => apply refines_self
    | |- refines (avia _ _ _) _ => apply refines_via
    | |- refines (a_before_dispatch _ _ _) _ => apply refines_hook
    | |- refines (a_after_dispatch _ _ _) _ => apply refines_hook
    | |- refines (a_before_transition _ _ _) _ => apply refines_hook
    | |- refines (a_after_transition _ _ _) _ => apply refines_hook
    | |- refines (a_s_handler _ _) _ => apply (refines_handler (f_s_handler F _) NState)
    | |- refines (a_u_handler _ _) _ => apply (refines_handler (f_u_handler F _) NSuper)
    | |- refines (a_s_entry _) _ => apply (refines_action (f_s_entry F) (fun s => OEnter (NState s)))
    | |- refines (a_u_entry _) _ => apply (refines_action (f_u_entry F) (fun s => OEnter (NSuper s)))
    | |- refines (a_s_exit _) _ => apply (refines_action (f_s_exit F) (fun s => OExit (NState s)))
    | |- refines (a_u_exit _) _ => apply (refines_action (f_u_exit F) (fun s => OExit (NSuper s)))
    end.

  Lemma refines_handle_loop e n : refines (a_handle_loop F n e) (Awaitable.handle_loop sm' n e).
  Proof.
    induction n as [|n IH]; cbn [a_handle_loop Awaitable.handle_loop]; [step|].
    step; [step|]. step; [step|]. step; [step|]. step; [step|]. step; [step|].
    destruct a1; [step| |step].
    step; [step|]. cbn [u_super sync]. destruct (u_super m a1); [step; exact IH|step].
  Qed.

  Lemma refines_state_handle e : refines (a_state_handle F stack e) (Awaitable.state_handle sm' stack e).
  Proof.
    unfold a_state_handle, Awaitable.state_handle.
    step; [step|]. step; [step|]. step; [step|]. step; [step|]. step; [step|].
    destruct a1; [step| |step].
    step; [step|]. cbn [s_super sync]. destruct (s_super m a1); [step; apply refines_handle_loop|step].
  Qed.

  Lemma refines_climb_entry n : refines (a_climb_entry F n) (Awaitable.climb_entry sm' n).
  Proof.
    induction n as [|n IH]; cbn [a_climb_entry Awaitable.climb_entry]; [step|].
    step; [step|]. cbn [u_super sync]. destruct (u_super m a); [step; exact IH|step].
  Qed.

  Lemma refines_state_enter n : refines (a_state_enter F n) (Awaitable.state_enter sm' n).
  Proof.
    induction n as [|n IH]; cbn [a_state_enter Awaitable.state_enter]; [step|].
    destruct n as [|n]; [step|].
    step; [step|]. step; [|exact IH]. cbn [s_super sync].
    destruct (s_super m a); [step; apply refines_climb_entry|step].
  Qed.

  Lemma refines_exit_loop n : refines (a_exit_loop F n) (Awaitable.exit_loop sm' n).
  Proof.
    induction n as [|n IH]; cbn [a_exit_loop Awaitable.exit_loop]; [step|].
    step; [step|]. step; [step|]. cbn [u_super sync].
    destruct (u_super m a0); [step; exact IH|step].
  Qed.

  Lemma refines_state_exit n : refines (a_state_exit F n) (Awaitable.state_exit sm' n).
  Proof.
    unfold a_state_exit, Awaitable.state_exit.
    step; [destruct (1 <=? n); step|]. step; [step|]. cbn [s_super sync].
    destruct (s_super m a0); [step; apply refines_exit_loop|step].
  Qed.

  (** Depths and paths do not involve callbacks. *)
  Lemma sync_superstate_depth n u :
    Blocking.superstate_depth sm' n u = Blocking.superstate_depth m n u.
  Proof.
    revert u. induction n as [|n IH]; intros u; [reflexivity|]. cbn. destruct (u_super m u); [|reflexivity].
    now rewrite IH.
  Qed.
  Lemma sync_state_depth x : Blocking.state_depth sm' stack x = Blocking.state_depth m stack x.
  Proof.
    unfold Blocking.state_depth. cbn [s_super sync]. destruct (s_super m x); [|reflexivity].
    now rewrite sync_superstate_depth.
  Qed.
  Lemma sync_superstate_cad n u v :
    Blocking.superstate_common_ancestor_depth sm' stack n u v =
    Blocking.superstate_common_ancestor_depth m stack n u v.
  Proof.
    revert u v. induction n as [|n IH]; intros u v; [reflexivity|].
    cbn [Blocking.superstate_common_ancestor_depth]. rewrite !sync_superstate_depth.
    unfold Blocking.same_superstate. cbn [u_super u_disc sync].
    destruct (Blocking.superstate_depth m stack u); [|reflexivity].
    destruct (Blocking.superstate_depth m stack v); [|reflexivity].
    destruct (Nat.compare a a0).
    - destruct (u_disc m u =? u_disc m v); [reflexivity|].
      destruct (u_super m u), (u_super m v); auto.
    - destruct (u_super m v); auto.
    - destruct (u_super m u); auto.
  Qed.
  Lemma sync_transition_path x y :
    Blocking.transition_path sm' stack x y = Blocking.transition_path m stack x y.
  Proof.
    unfold Blocking.transition_path, Blocking.same_state. rewrite !sync_state_depth.
    cbn [s_super s_disc sync]. destruct (s_disc m x =? s_disc m y); [reflexivity|].
    destruct (Blocking.state_depth m stack x); [|reflexivity].
    destruct (Blocking.state_depth m stack y); [|reflexivity].
    destruct (s_super m x), (s_super m y); try reflexivity.
  Qed.

  Lemma refines_swap t : refines (a_swap_state World m t) (Blocking.swap_state sm' t).
  Proof. intros w [|w' ws] x sh cx; reflexivity. Qed.

  Lemma refines_inner_init : refines (a_inner_init F stack) (Awaitable.inner_init sm' stack).
  Proof.
    unfold a_inner_init, Awaitable.inner_init, Awaitable.state_depth.
    step; [step|]. step; [|apply refines_state_enter]. rewrite sync_state_depth. step.
  Qed.

  Lemma refines_transition t : refines (a_transition F stack t) (Awaitable.transition sm' stack t).
  Proof.
    unfold a_transition, Awaitable.transition, Awaitable.transition_path.
    step; [step|]. step; [step|]. step; [rewrite sync_transition_path; step|].
    step; [apply refines_state_exit|]. step; [apply refines_swap|].
    step; [apply refines_state_enter|]. step; [step|]. step.
  Qed.

  Lemma refines_inner_handle e : refines (a_inner_handle F stack e) (Awaitable.inner_handle sm' stack e).
  Proof.
    unfold a_inner_handle, Awaitable.inner_handle. step; [apply refines_state_handle|].
    destruct a; [step|step|apply refines_transition].
  Qed.

  (** *** Machines *)

  Definition runs (c : fut World m (state_machine m * Ctx m) unit)
      (k : state_machine sm' -> Ctx m -> api_res sm' (state_machine sm')) : Prop :=
    forall w ws sm cx,
      let '(o, s', tr, l) := drive c w ws (sm, cx) in
      k (with_schedule F sm (w, ws)) cx =
      @ApiRes sm' _ (ending o) (with_schedule F (fst s') l) (snd s') (log tr).

  Lemma on_inner_runs c k sm cx w ws : refines c k ->
    let '(o, s', tr, l) := drive (on_inner c) w ws (sm, cx) in
    let r := run_inner k (sm_inner (with_schedule F sm (w, ws))) cx in
    r = @ApiRes sm' _ (ending o) (sm_inner (with_schedule F (fst s') l)) (snd s') (log tr) /\
    initialized (fst s') = initialized sm.
  Proof.
    intros H. unfold on_inner. rewrite drive_aborrow. cbn [fst snd].
    specialize (H w ws (state (sm_inner sm)) (shared_storage (sm_inner sm)) cx).
    destruct (drive c w ws (state (sm_inner sm), shared_storage (sm_inner sm), cx))
      as [[[o s1] tr1] l1].
    split; [|reflexivity].
    transitivity (let r := k (state (sm_inner sm)) (shared_storage (sm_inner sm), (w, ws)) cx in
                  @ApiRes sm' _ (r_out r) (Inner (r_sh r) (r_self r)) (r_cx r) (r_tr r)); [reflexivity|].
    rewrite H. reflexivity.
  Qed.

  Lemma api_res_inner (i i' : inner sm') (o : outcome unit) cx (tr : list (obs sm')) :
    i = i' -> @ApiRes sm' _ o i cx tr = @ApiRes sm' _ o i' cx tr.
  Proof. intros ->. reflexivity. Qed.

  Lemma init_runs : runs (a_init_with_context F stack)
    (fun sm cx => init_with_context stack AwaitableMode sm cx).
  Proof.
    intros w ws sm cx. unfold a_init_with_context. rewrite drive_bind.
    assert (E : drive (aget (World := World) (m := m)) w ws (sm, cx) =
                (Some (Ret (sm, cx)), (sm, cx), [], (w, ws))) by (destruct ws; reflexivity).
    rewrite E. clear E. cbn [prepend fst]. unfold init_with_context.
    cbn [initialized with_schedule]. destruct (initialized sm) eqn:Hi; cbn [negb].
    - assert (E : drive (aret (World := World) (m := m) tt) w ws (sm, cx) =
                  (Some (Ret tt), (sm, cx), [], (w, ws))) by (destruct ws; reflexivity).
      rewrite E. reflexivity.
    - rewrite drive_bind.
      pose proof (@on_inner_runs _ (inner_init sm' stack AwaitableMode) sm cx w ws refines_inner_init) as H.
      destruct (drive (on_inner (a_inner_init F stack)) w ws (sm, cx)) as [[[o [sm1 cx1]] tr1] [w1 ws1]].
      destruct H as [H Hi1]. cbn [fst snd] in H, Hi1. rewrite H.
      destruct o as [[[]|y]|]; cbn [ending a_out a_machine a_cx a_tr].
      + assert (E : drive (a_set_initialized World m) w1 ws1 (sm1, cx1) =
                    (Some (Ret tt), (StateMachine (sm_inner sm1) true, cx1), [], (w1, ws1)))
          by (destruct ws1; reflexivity).
        rewrite E. cbn [prepend]. rewrite app_nil_r. reflexivity.
      + unfold with_schedule. cbn [fst snd prepend app]. now rewrite Hi1, Hi.
      + unfold with_schedule. cbn [fst snd prepend app]. now rewrite Hi1, Hi.
  Qed.

  Lemma dispatch_runs e w ws sm cx :
    let '(o, s', tr, l) := drive (on_inner (a_inner_handle F stack e)) w ws (sm, cx) in
    dispatch stack AwaitableMode (with_schedule F sm (w, ws)) e cx =
    @ApiRes sm' _ (ending o) (with_schedule F (fst s') l) (snd s') (log tr).
  Proof.
    pose proof (@on_inner_runs _ (inner_handle sm' stack AwaitableMode e) sm cx w ws
                  (refines_inner_handle e)) as H.
    destruct (drive (on_inner (a_inner_handle F stack e)) w ws (sm, cx)) as [[[o [sm1 cx1]] tr1] l1].
    destruct H as [H Hi1]. cbn [fst snd] in *. unfold dispatch. rewrite H.
    cbn [a_out a_machine a_cx a_tr]. unfold with_schedule. cbn [initialized]. now rewrite Hi1.
  Qed.

  Lemma handle_runs e : runs (a_handle_with_context F stack e)
    (fun sm cx => handle_with_context stack AwaitableMode sm e cx).
  Proof.
    intros w ws sm cx. unfold a_handle_with_context. rewrite drive_bind.
    assert (E : drive (aget (World := World) (m := m)) w ws (sm, cx) =
                (Some (Ret (sm, cx)), (sm, cx), [], (w, ws))) by (destruct ws; reflexivity).
    rewrite E. clear E. cbn [fst]. unfold handle_with_context.
    cbn [initialized with_schedule]. rewrite drive_bind. destruct (initialized sm) eqn:Hi; cbn [negb].
    - assert (E : drive (aret (World := World) (m := m) tt) w ws (sm, cx) =
                  (Some (Ret tt), (sm, cx), [], (w, ws))) by (destruct ws; reflexivity).
      rewrite E. clear E.
      pose proof (dispatch_runs e w ws sm cx) as H.
      destruct (drive (on_inner (a_inner_handle F stack e)) w ws (sm, cx)) as [[[o s1] tr1] l1].
      cbn [prepend app]. exact H.
    - rewrite drive_bind.
      pose proof (@on_inner_runs _ (inner_init sm' stack AwaitableMode) sm cx w ws refines_inner_init) as H.
      destruct (drive (on_inner (a_inner_init F stack)) w ws (sm, cx)) as [[[o [sm1 cx1]] tr1] [w1 ws1]].
      destruct H as [H Hi1]. cbn [fst snd] in H, Hi1. rewrite H.
      destruct o as [[[]|y]|]; cbn [ending a_out a_machine a_cx a_tr].
      + assert (E : drive (a_set_initialized World m) w1 ws1 (sm1, cx1) =
                    (Some (Ret tt), (StateMachine (sm_inner sm1) true, cx1), [], (w1, ws1)))
          by (destruct ws1; reflexivity).
        rewrite E. cbn [prepend]. rewrite app_nil_r.
        pose proof (dispatch_runs e w1 ws1 (StateMachine (sm_inner sm1) true) cx1) as H2.
        destruct (drive (on_inner (a_inner_handle F stack e)) w1 ws1
                    (StateMachine (sm_inner sm1) true, cx1)) as [[[o2 s2] tr2] l2].
        cbn [prepend app].
        change (StateMachine (sm_inner (with_schedule F sm1 (w1, ws1))) true) with
          (with_schedule F (StateMachine (sm_inner sm1) true) (w1, ws1)).
        rewrite H2. cbn [a_out a_machine a_cx a_tr]. now rewrite map_app.
      + unfold with_schedule. cbn [fst snd prepend app]. now rewrite Hi1, Hi.
      + unfold with_schedule. cbn [fst snd prepend app]. now rewrite Hi1, Hi.
  Qed.

  (** ** Futures that compute the callbacks of [m] *)

  Definition matches {X A} (c : fut World m (store X) A) (g : comp m X A) : Prop :=
    forall w ws x sh cx,
      match drive c w ws (x, sh, cx) with
      | (Some o, s', tr, _) => g x sh cx = Res o (fst (fst s')) (snd (fst s')) (snd s') tr
      | (None, _, tr, _) => exists more, r_tr (g x sh cx) = tr ++ more
      end.

  Lemma matches_bind {X A B} c k (f : A -> fut World m (store X) B) (g : A -> comp m X B) :
    matches c k -> (forall a, matches (f a) (g a)) -> matches (abind c f) (bind k g).
  Proof.
    intros H G w ws x sh cx. rewrite drive_bind. specialize (H w ws x sh cx). unfold bind.
    destruct (drive c w ws (x, sh, cx)) as [[[[[a|y]|] [[x1 sh1] cx1]] tr1] [w1 ws1]]; cbn in H.
    - rewrite H. cbn. specialize (G a w1 ws1 x1 sh1 cx1).
      destruct (drive (f a) w1 ws1 (x1, sh1, cx1)) as [[[[o|] s2] tr2] l2]; cbn.
      + rewrite G. reflexivity.
      + destruct G as [more G]. exists more. rewrite G. apply app_assoc.
    - rewrite H. reflexivity.
    - destruct H as [more H]. destruct (r_out (k x sh cx)); cbn; [|exists more; exact H].
      rewrite H. eexists. symmetry. apply app_assoc.
  Qed.

  Lemma matches_ret {X A} (a : A) : matches (aret (S := store X) a) (ret a).
  Proof. intros w [|w' ws] x sh cx; reflexivity. Qed.
  Lemma matches_lift {X A} (o : outcome A) : matches (alift (S := store X) o) (lift o).
  Proof. intros w [|w' ws] x sh cx; reflexivity. Qed.
  Lemma matches_abort {X A} y : matches (alift (S := store X) (@Abort A y)) (abort y).
  Proof. intros w [|w' ws] x sh cx; reflexivity. Qed.
  Lemma matches_self {X} : matches (aself (X := X)) self.
  Proof. intros w [|w' ws] x sh cx; reflexivity. Qed.
  Lemma matches_swap t : matches (a_swap_state World m t) (Blocking.swap_state m t).
  Proof. intros w [|w' ws] x sh cx; reflexivity. Qed.

  Lemma matches_via {X V A} put v (c : fut World m (store V) A) k :
    matches c k -> matches (avia (X := X) put v c) (via put v k).
  Proof.
    intros H w ws x sh cx. unfold avia. rewrite drive_aborrow. cbn [fst snd].
    specialize (H w ws v sh cx). unfold via.
    destruct (drive c w ws (v, sh, cx)) as [[[[o|] s1] tr1] l1]; cbn.
    - rewrite H. reflexivity.
    - exact H.
  Qed.

  Lemma matches_action {X} (f : ufut World (store X) unit) (o : X -> obs m) g :
    computes f (curried m g) ->
    matches (acall (fun s => o (fst (fst s))) (@no_answer m) f) (@call_action m X g o).
  Proof.
    intros H w ws x sh cx. rewrite drive_acall. unfold call_action. cbn [fst snd].
    specialize (H w ws (x, sh, cx)). unfold curried in H.
    destruct (g x sh cx) as [[[r x'] sh'] cx'].
    destruct (udrive f w ws (x, sh, cx)) as [[[[[]|]|] [[x1 sh1] cx1]] l]; cbn in *.
    - injection H as -> -> -> ->. reflexivity.
    - injection H as -> -> -> ->. reflexivity.
    - exists []. reflexivity.
  Qed.
  Lemma matches_handler {X} (f : ufut World (store X) (response (State m)))
      (nd : X -> node (State m) (Sup m)) (e : Event m) g :
    computes f (curried m (fun x sh cx => g x sh cx e)) ->
    matches (acall (fun s => OHandler (nd (fst (fst s))) e) (@handler_answer m) f)
            (@call_handler m X g nd e).
  Proof.
    intros H w ws x sh cx. rewrite drive_acall. unfold call_handler. cbn [fst snd].
    specialize (H w ws (x, sh, cx)). unfold curried in H.
    destruct (g x sh cx e) as [[[r x'] sh'] cx'].
    destruct (udrive f w ws (x, sh, cx)) as [[[[a|]|] [[x1 sh1] cx1]] l]; cbn in *.
    - injection H as -> -> -> ->. reflexivity.
    - injection H as -> -> -> ->. reflexivity.
    - eexists. reflexivity.
  Qed.
  Lemma matches_hook {X} (f : ufut World (Shared m) unit) (o : obs m) g :
    computes f g -> matches (ahook (X := X) o f) (@call_hook m X g o).
  Proof.
    intros H w ws x sh cx. unfold ahook. rewrite drive_aborrow. cbn [fst snd]. rewrite drive_acall.
    unfold call_hook. cbn [fst snd]. specialize (H w ws sh). destruct (g sh) as [r sh'].
    destruct (udrive f w ws sh) as [[[[[]|]|] sh1] l]; cbn in *.
    - injection H as -> ->. reflexivity.
    - injection H as -> ->. reflexivity.
    - exists []. reflexivity.
  Qed.

  Hypothesis I : implements F.

  Ltac mstep :=
    match goal with
    | |- matches (abind _ _) _ => apply matches_bind; [|intros ?]
    | |- matches (aret _) _ => apply matches_ret
    | |- matches (alift _) (lift _) => apply matches_lift
    | |- matches (alift _) (abort _) => apply matches_abort
    | |- matches aself _ => apply matches_self
    | |- matches (a_swap_state _ _ _) _ => apply matches_swap
    | |- matches (avia _ _ _) _ => apply matches_via
    | |- matches (a_before_dispatch _ _ _) _ => apply matches_hook, (im_before_dispatch I)
    | |- matches (a_after_dispatch _ _ _) _ => apply matches_hook, (im_after_dispatch I)
    | |- matches (a_before_transition _ _ _) _ => apply matches_hook, (im_before_transition I)
    | |- matches (a_after_transition _ _ _) _ => apply matches_hook, (im_after_transition I)
    | |- matches (a_s_handler _ _) _ => apply (@matches_handler _ (f_s_handler F _) NState), (im_s_handler I)
    | |- matches (a_u_handler _ _) _ => apply (@matches_handler _ (f_u_handler F _) NSuper), (im_u_handler I)
    | |- matches (a_s_entry _) _ => apply (@matches_action _ (f_s_entry F) (fun s => OEnter (NState s))), (im_s_entry I)
    | |- matches (a_u_entry _) _ => apply (@matches_action _ (f_u_entry F) (fun s => OEnter (NSuper s))), (im_u_entry I)
    | |- matches (a_s_exit _) _ => apply (@matches_action _ (f_s_exit F) (fun s => OExit (NState s))), (im_s_exit I)
    | |- matches (a_u_exit _) _ => apply (@matches_action _ (f_u_exit F) (fun s => OExit (NSuper s))), (im_u_exit I)
    end.

  Lemma matches_handle_loop e n : matches (a_handle_loop F n e) (Awaitable.handle_loop m n e).
  Proof.
    induction n as [|n IH]; cbn [a_handle_loop Awaitable.handle_loop]; [mstep|].
    mstep; [mstep|]. mstep; [mstep|]. mstep; [mstep|]. mstep; [mstep|]. mstep; [mstep|].
    destruct a1; [mstep| |mstep].
    mstep; [mstep|]. destruct (u_super m a1); [mstep; exact IH|mstep].
  Qed.
  Lemma matches_state_handle e : matches (a_state_handle F stack e) (Awaitable.state_handle m stack e).
  Proof.
    unfold a_state_handle, Awaitable.state_handle.
    mstep; [mstep|]. mstep; [mstep|]. mstep; [mstep|]. mstep; [mstep|]. mstep; [mstep|].
    destruct a1; [mstep| |mstep].
    mstep; [mstep|]. destruct (s_super m a1); [mstep; apply matches_handle_loop|mstep].
  Qed.
  Lemma matches_climb_entry n : matches (a_climb_entry F n) (Awaitable.climb_entry m n).
  Proof.
    induction n as [|n IH]; cbn [a_climb_entry Awaitable.climb_entry]; [mstep|].
    mstep; [mstep|]. destruct (u_super m a); [mstep; exact IH|mstep].
  Qed.
  Lemma matches_state_enter n : matches (a_state_enter F n) (Awaitable.state_enter m n).
  Proof.
    induction n as [|n IH]; cbn [a_state_enter Awaitable.state_enter]; [mstep|].
    destruct n as [|n]; [mstep|].
    mstep; [mstep|]. mstep; [|exact IH].
    destruct (s_super m a); [mstep; apply matches_climb_entry|mstep].
  Qed.
  Lemma matches_exit_loop n : matches (a_exit_loop F n) (Awaitable.exit_loop m n).
  Proof.
    induction n as [|n IH]; cbn [a_exit_loop Awaitable.exit_loop]; [mstep|].
    mstep; [mstep|]. mstep; [mstep|]. destruct (u_super m a0); [mstep; exact IH|mstep].
  Qed.
  Lemma matches_state_exit n : matches (a_state_exit F n) (Awaitable.state_exit m n).
  Proof.
    unfold a_state_exit, Awaitable.state_exit.
    mstep; [destruct (1 <=? n); mstep|]. mstep; [mstep|].
    destruct (s_super m a0); [mstep; apply matches_exit_loop|mstep].
  Qed.
  Lemma matches_inner_init : matches (a_inner_init F stack) (Awaitable.inner_init m stack).
  Proof.
    unfold a_inner_init, Awaitable.inner_init.
    mstep; [mstep|]. mstep; [mstep|apply matches_state_enter].
  Qed.
  Lemma matches_transition t : matches (a_transition F stack t) (Awaitable.transition m stack t).
  Proof.
    unfold a_transition, Awaitable.transition.
    mstep; [mstep|]. mstep; [mstep|]. mstep; [mstep|].
    mstep; [apply matches_state_exit|]. mstep; [mstep|].
    mstep; [apply matches_state_enter|]. mstep; [mstep|]. mstep.
  Qed.
  Lemma matches_inner_handle e : matches (a_inner_handle F stack e) (Awaitable.inner_handle m stack e).
  Proof.
    unfold a_inner_handle, Awaitable.inner_handle. mstep; [apply matches_state_handle|].
    destruct a; [mstep|mstep|apply matches_transition].
  Qed.

  (** *** Machines *)

  Definition performs (c : fut World m (state_machine m * Ctx m) unit)
      (k : state_machine m -> Ctx m -> api_res m (state_machine m)) : Prop :=
    forall w ws sm cx,
      match drive c w ws (sm, cx) with
      | (Some o, s', tr, _) => k sm cx = ApiRes o (fst s') (snd s') tr
      | (None, _, tr, _) => exists more, a_tr (k sm cx) = tr ++ more
      end.

  Lemma on_inner_performs c (k : comp m (State m) unit) sm cx w ws : matches c k ->
    match drive (on_inner c) w ws (sm, cx) with
    | (Some o, s', tr, _) =>
        run_inner k (sm_inner sm) cx = ApiRes o (sm_inner (fst s')) (snd s') tr /\
        initialized (fst s') = initialized sm
    | (None, _, tr, _) => exists more, a_tr (run_inner k (sm_inner sm) cx) = tr ++ more
    end.
  Proof.
    intros H. unfold on_inner. rewrite drive_aborrow. cbn [fst snd].
    specialize (H w ws (state (sm_inner sm)) (shared_storage (sm_inner sm)) cx).
    destruct (drive c w ws (state (sm_inner sm), shared_storage (sm_inner sm), cx))
      as [[[[o|] s1] tr1] l1]; cbn [fst snd].
    - split; [|reflexivity]. unfold run_inner. rewrite H. reflexivity.
    - exact H.
  Qed.

  Lemma init_performs : performs (a_init_with_context F stack)
    (fun sm cx => init_with_context stack AwaitableMode sm cx).
  Proof.
    intros w ws sm cx. unfold a_init_with_context. rewrite drive_bind.
    assert (E : drive (aget (World := World) (m := m)) w ws (sm, cx) =
                (Some (Ret (sm, cx)), (sm, cx), [], (w, ws))) by (destruct ws; reflexivity).
    rewrite E. clear E. cbn [prepend fst]. unfold init_with_context.
    destruct (initialized sm) eqn:Hi; cbn [negb].
    - assert (E : drive (aret (World := World) (m := m) tt) w ws (sm, cx) =
                  (Some (Ret tt), (sm, cx), [], (w, ws))) by (destruct ws; reflexivity).
      rewrite E. reflexivity.
    - rewrite drive_bind.
      pose proof (@on_inner_performs _ (inner_init m stack AwaitableMode) sm cx w ws matches_inner_init) as H.
      destruct (drive (on_inner (a_inner_init F stack)) w ws (sm, cx)) as [[[[[[]|y]|] [sm1 cx1]] tr1] [w1 ws1]].
      + destruct H as [H Hi1]. cbn [fst snd] in H, Hi1. rewrite H. cbn [a_out a_machine a_cx a_tr].
        assert (E : drive (a_set_initialized World m) w1 ws1 (sm1, cx1) =
                    (Some (Ret tt), (StateMachine (sm_inner sm1) true, cx1), [], (w1, ws1)))
          by (destruct ws1; reflexivity).
        rewrite E. cbn [prepend app]. rewrite app_nil_r. reflexivity.
      + destruct H as [H Hi1]. cbn [fst snd] in H, Hi1. rewrite H. cbn [a_out a_machine a_cx a_tr prepend app fst snd].
        rewrite Hi in Hi1. destruct sm1 as [i1 b1]. cbn in Hi1. subst b1. reflexivity.
      + destruct H as [more H]. exists more. cbn [prepend app].
        destruct (a_out (run_inner (inner_init m stack AwaitableMode) (sm_inner sm) cx)); exact H.
  Qed.

  Lemma handle_performs e : performs (a_handle_with_context F stack e)
    (fun sm cx => handle_with_context stack AwaitableMode sm e cx).
  Proof.
    assert (D : forall w ws sm cx,
      match drive (on_inner (a_inner_handle F stack e)) w ws (sm, cx) with
      | (Some o, s', tr, _) => dispatch stack AwaitableMode sm e cx = ApiRes o (fst s') (snd s') tr
      | (None, _, tr, _) => exists more, a_tr (dispatch stack AwaitableMode sm e cx) = tr ++ more
      end).
    { intros w ws sm cx.
      pose proof (@on_inner_performs _ (inner_handle m stack AwaitableMode e) sm cx w ws (matches_inner_handle e)) as H.
      destruct (drive (on_inner (a_inner_handle F stack e)) w ws (sm, cx)) as [[[[o|] [sm1 cx1]] tr1] l1].
      - destruct H as [H Hi]. cbn [fst snd] in *. unfold dispatch. rewrite H. cbn. rewrite <- Hi.
        destruct sm1. reflexivity.
      - exact H. }
    intros w ws sm cx. unfold a_handle_with_context. rewrite drive_bind.
    assert (E : drive (aget (World := World) (m := m)) w ws (sm, cx) =
                (Some (Ret (sm, cx)), (sm, cx), [], (w, ws))) by (destruct ws; reflexivity).
    rewrite E. clear E. cbn [fst]. unfold handle_with_context.
    rewrite drive_bind. destruct (initialized sm) eqn:Hi; cbn [negb].
    - assert (E : drive (aret (World := World) (m := m) tt) w ws (sm, cx) =
                  (Some (Ret tt), (sm, cx), [], (w, ws))) by (destruct ws; reflexivity).
      rewrite E. clear E. specialize (D w ws sm cx).
      destruct (drive (on_inner (a_inner_handle F stack e)) w ws (sm, cx)) as [[[[o|] s1] tr1] l1];
        exact D.
    - rewrite drive_bind.
      pose proof (@on_inner_performs _ (inner_init m stack AwaitableMode) sm cx w ws matches_inner_init) as H.
      destruct (drive (on_inner (a_inner_init F stack)) w ws (sm, cx)) as [[[[[[]|y]|] [sm1 cx1]] tr1] [w1 ws1]].
      + destruct H as [H Hi1]. cbn [fst snd] in H, Hi1. rewrite H. cbn [a_out a_machine a_cx a_tr].
        assert (E : drive (a_set_initialized World m) w1 ws1 (sm1, cx1) =
                    (Some (Ret tt), (StateMachine (sm_inner sm1) true, cx1), [], (w1, ws1)))
          by (destruct ws1; reflexivity).
        rewrite E. cbn [prepend]. rewrite app_nil_r.
        specialize (D w1 ws1 (StateMachine (sm_inner sm1) true) cx1).
        destruct (drive (on_inner (a_inner_handle F stack e)) w1 ws1
                    (StateMachine (sm_inner sm1) true, cx1)) as [[[[o2|] s2] tr2] l2]; cbn [prepend app].
        * rewrite D. reflexivity.
        * destruct D as [more D]. exists more. rewrite D. apply app_assoc.
      + destruct H as [H Hi1]. cbn [fst snd] in H, Hi1. rewrite H. cbn [a_out a_machine a_cx a_tr prepend app fst snd].
        rewrite Hi in Hi1. destruct sm1 as [i1 b1]. cbn in Hi1. subst b1. reflexivity.
      + destruct H as [more H]. cbn [prepend app].
        destruct (a_out (run_inner (inner_init m stack AwaitableMode) (sm_inner sm) cx)) as [[]|y].
        * cbn [a_tr]. rewrite H. eexists. symmetry. apply app_assoc.
        * exists more. exact H.
  Qed.
End Refine.

(** ** The atomic machine is well formed *)

Lemma sync_well_formed (World : Type) h m stack (F : futures World m) :
  well_formed h m stack -> variant_safe F -> well_formed h (sync F) stack.
Proof.
  intros [Fo _ Hh] K.
  assert (G : forall X A (disc : X -> nat) (f : ufut World (X * Shared m * Ctx m) A) x sh cx r x' sh' cx',
             keeps m disc f -> atomically f x sh cx = (r, x', sh', cx') -> disc x' = disc x).
  { intros X A disc f x sh cx r x' sh' cx' Hk E. unfold atomically in E.
    specialize (Hk (fst (snd sh)) (snd (snd sh)) x (fst sh) cx).
    destruct (udrive f (fst (snd sh)) (snd (snd sh)) (x, fst sh, cx)) as [[o [[x1 sh1] cx1]] l].
    injection E as _ -> _ _. exact Hk. }
  split; [|split|exact Hh].
  - destruct Fo as [F1 F2 F3 F4]. split; assumption.
  - intros. exact (G _ _ _ _ _ _ _ _ _ _ _ (ks_s_handler K e) H).
  - intros. exact (G _ _ _ _ _ _ _ _ _ _ _ (ks_s_entry K) H).
  - intros. exact (G _ _ _ _ _ _ _ _ _ _ _ (ks_s_exit K) H).
  - intros. exact (G _ _ _ _ _ _ _ _ _ _ _ (ks_u_handler K e) H).
  - intros. exact (G _ _ _ _ _ _ _ _ _ _ _ (ks_u_entry K) H).
  - intros. exact (G _ _ _ _ _ _ _ _ _ _ _ (ks_u_exit K) H).
Qed.

(** ** Fewer polls, shorter prefix *)

Lemma drive_prefix (World : Type) (m : machine) S A more ws : forall (f : fut World m S A) w s,
  match drive f w ws s, drive f w (ws ++ more) s with
  | (Some o, s', tr, _), (o2, s2, tr2, _) => o2 = Some o /\ s2 = s' /\ tr2 = tr
  | (None, s', tr, _), (o2, s2, tr2, _) => exists t, tr2 = tr ++ t
  end.
Proof.
  induction ws as [|w' ws IH]; intros f w s.
  - cbn [app]. cbn [drive]. destruct more as [|w2 more]; cbn [drive]; destruct (poll f w s) as [o s' tr|s' tr f'].
    + auto.
    + exists []. now rewrite app_nil_r.
    + auto.
    + destruct (drive f' w2 more s') as [[[o2 s2] tr2] l]. eexists. reflexivity.
  - cbn [app drive]. destruct (poll f w s) as [o s' tr|s' tr f']; [auto|].
    specialize (IH f' w' s').
    destruct (drive f' w' ws s') as [[[[o1|] s1] tr1] l1], (drive f' w' (ws ++ more) s') as [[[o2 s2] tr2] l2].
    + destruct IH as (-> & -> & ->). auto.
    + destruct IH as (t & ->). exists t. apply app_assoc.
Qed.

(** ** Logs of the two machines *)

Section Logs.
  Variable World : Type.
  Variable m : machine.
  Variable F : futures World m.
  Notation log := (map (to_sync F)).

  Lemma log_acts tr : acts (log tr) = acts tr.
  Proof.
    unfold acts. induction tr as [|o tr IH]; [reflexivity|]. cbn [map flat_map]. rewrite IH. f_equal.
    destruct o; try reflexivity; destruct n; reflexivity.
  Qed.

  Lemma log_handler_calls tr : handler_calls (calls (log tr)) = handler_calls (calls tr).
  Proof.
    induction tr as [|o tr IH]; [reflexivity|]. unfold calls in *. cbn [map].
    destruct o; cbn [to_sync call_of handler_calls]; try exact IH.
    rewrite IH. destruct n; destruct tr as [|[] tr]; reflexivity.
  Qed.

  Lemma log_asks_for tr p e t : asks_for (log tr) p e t <-> asks_for tr p e t.
  Proof. unfold asks_for. rewrite log_handler_calls. reflexivity. Qed.

  Lemma log_is_enter tr : forallb (@is_enter (sync F)) (log tr) = forallb (@is_enter m) tr.
  Proof. induction tr as [|[] tr IH]; cbn; try rewrite IH; reflexivity. Qed.

  Lemma log_last tr t o : log tr = t ++ [o] -> exists t' o', tr = t' ++ [o'] /\ o = to_sync F o'.
  Proof.
    intros H. destruct (exists_last (l := tr)) as (t' & o' & ->).
    - intros ->. destruct t; discriminate.
    - exists t', o'. split; [reflexivity|]. rewrite map_app in H. cbn in H.
      apply app_inj_tail in H. now destruct H.
  Qed.
End Logs.

(** ** Dropped calls (C41) *)

Section Dropped.
  Variable World : Type.
  Variable h : hierarchy.
  Variable m : machine.
  Variable stack : nat.
  Variable F : futures World m.
  Hypothesis W : well_formed h m stack.
  Hypothesis K : variant_safe F.

  Lemma handle_dropped e w ws sm cx sm1 cx1 tr l :
    initialized sm = true ->
    drive (a_handle_with_context F stack e) w ws (sm, cx) = (None, (sm1, cx1), tr, l) ->
    initialized sm1 = true /\
    exists t o, tr = t ++ [o] /\
      match o with
      | OEnter _ | OAfterTransition _ _ =>
          exists p target, asks_for tr p e target /\
            s_disc m (sm_state sm1) = s_disc m target
      | _ => s_disc m (sm_state sm1) = s_disc m (sm_state sm)
      end.
  Proof.
    intros Hi E. pose proof (handle_runs F stack e w ws sm cx) as R. rewrite E in R. cbn [fst snd ending] in R.
    pose proof (@sync_well_formed World h m stack F W K) as W'.
    destruct (@HandleProofs.abort_point h (sync F) stack W' AwaitableMode
                (with_schedule F sm (w, ws)) e cx DroppedFuture Hi) as (_ & t & o & Et & Ho).
    { rewrite R. reflexivity. }
    split.
    - pose proof (@FrontProofs.handle_initialized (sync F) stack AwaitableMode h W'
                    (with_schedule F sm (w, ws)) e cx) as [_ G].
      cbv zeta in G. rewrite R in G. apply G. left. exact Hi.
    - rewrite R in Et, Ho. cbn [a_tr a_machine] in Et, Ho.
      destruct (@log_last World m F tr t o Et) as (t' & o' & -> & ->). exists t', o'. split; [reflexivity|].
      destruct o'; cbn [to_sync] in Ho; try exact Ho;
        destruct Ho as (p & target & Ha & Hd); exists p, target; (split; [|exact Hd]);
        exact (proj1 (@log_asks_for World m F _ p e target) Ha).
  Qed.

  Lemma handle_dropped_route e w ws sm cx sm1 cx1 tr l p target :
    initialized sm = true ->
    drive (a_handle_with_context F stack e) w ws (sm, cx) = (None, (sm1, cx1), tr, l) ->
    asks_for tr p e target ->
    exists full, route h (s_disc m (sm_state sm)) (s_disc m target) full /\ prefix (acts tr) full.
  Proof.
    intros Hi E Ha. pose proof (handle_runs F stack e w ws sm cx) as R. rewrite E in R. cbn [fst snd ending] in R.
    pose proof (@sync_well_formed World h m stack F W K) as W'.
    destruct (@HookProofs.abort_prefix h (sync F) stack W' AwaitableMode
                (with_schedule F sm (w, ws)) e cx p target DroppedFuture Hi) as (full & Hr & Hp).
    - rewrite R. reflexivity.
    - rewrite R. cbn [a_tr]. exact (proj2 (@log_asks_for World m F tr p e target) Ha).
    - rewrite R in Hp. cbn [a_tr] in Hp. rewrite log_acts in Hp. exists full. split; [exact Hr|exact Hp].
  Qed.

  Lemma init_dropped w ws sm cx sm1 cx1 tr l :
    initialized sm = false ->
    drive (a_init_with_context F stack) w ws (sm, cx) = (None, (sm1, cx1), tr, l) ->
    initialized sm1 = false /\ s_disc m (sm_state sm1) = s_disc m (sm_state sm) /\
    exists pth, path h (s_disc m (sm_state sm)) pth /\ forallb (@is_enter m) tr = true /\
      prefix (acts tr) (map Enter pth).
  Proof.
    intros Hi E. pose proof (init_runs F stack w ws sm cx) as R. rewrite E in R. cbn [fst snd ending] in R.
    pose proof (@sync_well_formed World h m stack F W K) as W'.
    destruct (@FrontProofs.init_log (sync F) stack AwaitableMode h W' (with_schedule F sm (w, ws)) cx Hi)
      as (pth & Hp & He & Hpre & Hd & Hc & _ & _).
    rewrite R in He, Hpre, Hd, Hc. cbn [a_tr a_machine a_out] in He, Hpre, Hd, Hc.
    rewrite log_acts in Hpre. rewrite log_is_enter in He.
    split; [|split; [exact Hd|exists pth; split; [exact Hp|split; [exact He|exact Hpre]]]].
    destruct (initialized sm1) eqn:Hi1; [|reflexivity].
    destruct Hc as [_ Hc]. specialize (Hc Hi1). discriminate.
  Qed.
End Dropped.
