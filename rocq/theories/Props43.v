(** Props43.v — C94: what a future owns is dropped with it. *)

From Coq Require Import List Bool Arith Permutation Lia.
From Verif Require Import Machine Blocking Awaitable Api Spec Poll Drops DropSpec DropPoll DropPollSpec Examples.
From Verif Require DropPollProofs DropProofs PollProofs DiagramProofs Props6 Props21.
Import ListNotations.

(** *** C94 *)

(** The futures with ownership are those of Poll.v: with the drops left out they do, poll by poll,
    the same. *)
Theorem C94_same_futures :
  forall (World : Type) (m : machine) (F : futures World m) (stack : nat) (e : Event m)
         (w : World) (ws : list World) (sm sm1 : state_machine m) (cx cx1 : Ctx m)
         (o : option (outcome unit)) (tr : list (event_of m)) (unused : World * list World),
    odrive (o_handle_with_context F stack e) w ws (sm, cx) = (o, (sm1, cx1), tr, unused) ->
    drive (a_handle_with_context F stack e) w ws (sm, cx) = (o, (sm1, cx1), calls_in tr, unused).
Proof.
  intros World m F stack e w ws sm sm1 cx cx1 o tr unused H.
  pose proof (@DropPollProofs.o_handle_forgets World m F stack e w ws (sm, cx)) as G.
  rewrite H in G. exact G.
Qed.
Print Assumptions C94_same_futures.

(** A call that is polled, and perhaps dropped, drops the states that the atomic call drops in
    which the pending callback was cancelled (Drops.v treats that like a panic). *)
Theorem C94_atomic :
  forall (World : Type) (m : machine) (F : futures World m) (stack : nat) (e : Event m)
         (w : World) (ws : list World) (sm sm1 : state_machine m) (cx cx1 : Ctx m)
         (o : option (outcome unit)) (tr : list (event_of m)) (unused : World * list World),
    odrive (o_handle_with_context F stack e) w ws (sm, cx) = (o, (sm1, cx1), tr, unused) ->
    exists trd,
      handle_d stack AwaitableMode (with_schedule F sm (w, ws)) e cx =
      (match o with Some o => o | None => Abort DroppedFuture end, with_schedule F sm1 unused, cx1, trd) /\
      @calls_in (sync F) trd = map (to_sync F) (calls_in tr) /\ @drops_in (sync F) trd = drops_in tr.
Proof.
  intros World m F stack e w ws sm sm1 cx cx1 o tr unused H.
  pose proof (@DropPollProofs.o_handle_runs World m F stack e w ws sm cx) as G. rewrite H in G.
  eexists. split; [exact G|]. clear.
  split; induction tr as [|[o|s] tr IH]; cbn; try reflexivity; f_equal; exact IH.
Qed.
Print Assumptions C94_atomic.

(** A client that polls each call as often as it likes and then drops it, or waits for it to be
    complete, or catches its panic: over the whole session every state value that the machine
    held first or that a handler returned as a target is dropped once, except the one the
    machine holds in the end. *)
Theorem C94_dropped_once :
  forall (World : Type) (m : machine) (F : futures World m) (stack : nat) (T : Type) (mark : State m -> T),
    futures_keep_mark F mark ->
    forall (calls : list (polled_call World m)) (sm sm' : state_machine m)
           (rs : list (option (outcome unit) * list (event_of m))),
      osession F stack calls sm = (rs, sm') ->
      Forall (fun r => fst r <> Some (Abort Diverges)) rs ->
      Permutation
        (map mark (flat_map (fun r => drops_in (snd r)) rs) ++ [mark (sm_state sm')])
        (mark (sm_state sm) :: map mark (flat_map (fun r => targets_in (snd r)) rs)).
Proof.
  intros World m F stack T mark Hk calls sm sm' rs H Hf.
  exact (@DropPollProofs.session_drops World m F stack T mark Hk calls sm rs sm' H Hf).
Qed.
Print Assumptions C94_dropped_once.

(** One call, polled as often as in [polls]: at most one state is dropped, after the last call
    into user code, and one is iff a handler has asked for a transition.  When the call is
    complete, it is the state that the after-transition hook was shown as the source. *)
Theorem C94_dropped_last :
  forall (World : Type) (m : machine) (F : futures World m) (stack : nat) (e : Event m)
         (polls : list World) (sm sm1 : state_machine m) (cx cx1 : Ctx m)
         (o : option (outcome unit)) (tr : list (event_of m)),
    oexecute (o_handle_with_context F stack e) polls (sm, cx) = (o, (sm1, cx1), tr) ->
    o <> Some (Abort Diverges) ->
    exists t ds,
      tr = map Did t ++ map Dropped ds /\
      length ds = length (targets_in tr) /\ length ds <= 1 /\
      (o = Some (Ret tt) -> forall d, In d ds -> exists t0, t = t0 ++ [OAfterTransition d (sm_state sm1)]).
Proof.
  intros World m F stack e polls sm sm1 cx cx1 o tr H N.
  assert (Hk : futures_keep_mark F (fun _ : State m => tt)) by (split; repeat intro; reflexivity).
  destruct (@DropPollProofs.call_drops World m F stack unit (fun _ => tt) Hk e polls sm cx o sm1 cx1 tr H N)
    as (t & ds & Et & L & L1 & _ & Hend).
  exists t, ds. repeat split; assumption.
Qed.
Print Assumptions C94_dropped_last.

(** Which one goes when the future is dropped halfway through a transition: once an entry action
    has begun, the state that is left (the machine is in the target); before, the target. *)
Theorem C94_which :
  forall (World : Type) (h : hierarchy) (m : machine) (F : futures World m) (stack : nat) (e : Event m)
         (w : World) (ws : list World) (sm sm1 : state_machine m) (cx cx1 : Ctx m)
         (tr : list (event_of m)) (unused : World * list World),
    well_formed h m stack -> variant_safe F -> (forall x v, s_disc m (s_put m x v) = s_disc m x) ->
    initialized sm = true ->
    odrive (o_handle_with_context F stack e) w ws (sm, cx) = (None, (sm1, cx1), tr, unused) ->
    forall target, In (Did (OReturn (Transition target))) tr ->
    exists t o d,
      tr = map Did (t ++ [o]) ++ [Dropped d] /\
      match o with
      | OEnter _ | OAfterTransition _ _ =>
          s_disc m d = s_disc m (sm_state sm) /\ s_disc m (sm_state sm1) = s_disc m target
      | _ => s_disc m d = s_disc m target /\ s_disc m (sm_state sm1) = s_disc m (sm_state sm)
      end.
Proof.
  intros World h m F stack e w ws sm sm1 cx cx1 tr unused W K Hp Hi H target Ht.
  assert (Hk : futures_keep_mark F (s_disc m)).
  { destruct K as [K1 K2 K3 _ _ _]. split; [intros e' | | | exact Hp]; intros w' ws' x sh cx';
      [specialize (K1 e' w' ws' x sh cx') | specialize (K2 w' ws' x sh cx') | specialize (K3 w' ws' x sh cx')];
      destruct (udrive _ _ _ _) as [[o0 s0] l0]; assumption. }
  assert (E : oexecute (o_handle_with_context F stack e) (w :: ws) (sm, cx) = (None, (sm1, cx1), tr))
    by (cbn; rewrite H; reflexivity).
  destruct (@DropPollProofs.call_drops World m F stack nat (s_disc m) Hk e (w :: ws) sm cx None sm1 cx1 tr E)
    as (t & ds & -> & L & L1 & P & _); [discriminate|].
  pose proof (@DropPollProofs.o_handle_forgets World m F stack e w ws (sm, cx)) as G. rewrite H in G.
  rewrite DropProofs.calls_in_app, DropProofs.calls_in_did in G.
  assert (Z : @calls_in m (map Dropped ds) = []) by (clear; induction ds; [reflexivity|exact IHds]).
  rewrite Z, app_nil_r in G.
  destruct (@PollProofs.handle_dropped World h m stack F W K e w ws sm cx sm1 cx1 t unused Hi G)
    as (_ & t0 & o & -> & Ho).
  assert (Tin : forall x, In (Did (OReturn (Transition x))) (map Did (t0 ++ [o]) ++ map Dropped ds) ->
            targets_in (map Did (t0 ++ [o]) ++ map Dropped ds) = [x]).
  { intros x Hx.
    assert (I : In x (targets_in (map Did (t0 ++ [o]) ++ map Dropped ds))).
    { apply in_flat_map. eexists. split; [exact Hx|]. now left. }
    destruct (targets_in (map Did (t0 ++ [o]) ++ map Dropped ds)) as [|a [|b l]]; [destruct I| |cbn in L; lia].
    destruct I as [->|[]]. reflexivity. }
  pose proof (Tin target Ht) as Et. rewrite Et in L, P. destruct ds as [|d [|d' ds]]; try discriminate.
  exists t0, o, d. split; [reflexivity|]. cbn in P.
  assert (Sw : forall a b c x y : nat, Permutation [a; b] [x; y] -> (b = y -> a = x) /\ (b = x -> a = y)).
  { intros a b _ x y Q. apply Permutation_length_2 in Q. lia. }
  destruct (Sw _ _ 0 _ _ P) as [S1 S2].
  assert (B : s_disc m (sm_state sm1) = s_disc m (sm_state sm) ->
              s_disc m d = s_disc m target /\ s_disc m (sm_state sm1) = s_disc m (sm_state sm)) by auto.
  assert (A : (exists p t', asks_for (t0 ++ [o]) p e t' /\ s_disc m (sm_state sm1) = s_disc m t') ->
              s_disc m d = s_disc m (sm_state sm) /\ s_disc m (sm_state sm1) = s_disc m target).
  { intros (p & t' & Ha & D). apply DiagramProofs.asked_in in Ha.
    assert (Q : targets_in (map Did (t0 ++ [o]) ++ map Dropped [d]) = [t']).
    { apply Tin. apply in_or_app. left. apply in_map_iff. eauto. }
    rewrite Et in Q. injection Q as <-. auto. }
  destruct o; auto.
Qed.
Print Assumptions C94_which.

(** A future that was never polled, or of a call that asks for no transition, owns nothing. *)
Theorem C94_nothing :
  forall (World : Type) (m : machine) (F : futures World m) (stack : nat) (e : Event m)
         (polls : list World) (sm : state_machine m) (cx : Ctx m),
    oexecute (o_handle_with_context F stack e) [] (sm, cx) = (None, (sm, cx), []) /\
    (forall o s1 tr, oexecute (o_init_with_context F stack) polls (sm, cx) = (o, s1, tr) -> drops_in tr = []).
Proof.
  intros World m F stack e polls sm cx. split; [reflexivity|].
  intros o s1 tr. destruct polls as [|w ws]; cbn [oexecute].
  - intros H. injection H; intros; subst. reflexivity.
  - unfold o_init_with_context. rewrite DropPollProofs.odrive_plain.
    destruct (drive (a_init_with_context F stack) w ws (sm, cx)) as [[[o1 s2] tr1] l1].
    cbn [fst]. intros H. injection H; intros; subst. apply DropProofs.drops_in_did.
Qed.
Print Assumptions C94_nothing.

(** The ticket machine of C72, whose callbacks take several polls: the second call is dropped in
    the exit action, the third in an entry action, the fourth completes. *)
Definition ticket_futures : futures bool Props21.tickets :=
  @Futures bool Props21.tickets
    (fun e => Props6.later 1 (curried Props21.tickets (fun x sh cx => s_handler Props21.tickets x sh cx e)))
    (Props6.later 2 (curried Props21.tickets (s_entry Props21.tickets)))
    (Props6.later 2 (curried Props21.tickets (s_exit Props21.tickets)))
    (fun e => Props6.later 0 (curried Props21.tickets (fun x sh cx => u_handler Props21.tickets x sh cx e)))
    (Props6.later 0 (curried Props21.tickets (u_entry Props21.tickets)))
    (Props6.later 0 (curried Props21.tickets (u_exit Props21.tickets)))
    (fun n e => Props6.later 0 (fun sh => h_before_dispatch Props21.tickets sh n e))
    (fun n e => Props6.later 1 (fun sh => h_after_dispatch Props21.tickets sh n e))
    (fun x y => Props6.later 0 (fun sh => h_before_transition Props21.tickets sh x y))
    (fun x y => Props6.later 0 (fun sh => h_after_transition Props21.tickets sh x y)).

Lemma later_keeps (X : Type) (n : nat)
    (g : State Props21.tickets -> Shared Props21.tickets -> Ctx Props21.tickets ->
         reply X * State Props21.tickets * Shared Props21.tickets * Ctx Props21.tickets) :
  (forall x sh cx, fst (fst (snd (curried Props21.tickets g (x, sh, cx)))) = x) ->
  future_keeps Props21.tickets (@snd nat nat) (Props6.later n (curried Props21.tickets g)).
Proof.
  intros H w ws x sh cx.
  destruct (@Props6.later_udrive_state _ X n (curried Props21.tickets g) w ws (x, sh, cx)) as [E|E];
    rewrite E; [reflexivity|]. now rewrite H.
Qed.

Example C94_case :
  futures_keep_mark ticket_futures (@snd nat nat) /\
  let call e n := PolledCall Props21.tickets e tt (repeat true n) in
  exists rs sm',
    osession ticket_futures 1 [call 1 50; call 3 5; call 4 7; call 5 50; call 9 50]
      (new_state_machine Props21.tickets 1) = (rs, sm') /\
    map fst rs = [Some (Ret tt); None; None; Some (Ret tt); Some (Ret tt)] /\
    Forall (fun r => fst r <> Some (Abort Diverges)) rs /\
    map (fun r => drops_in (snd r)) rs = [[(0, 0)]; [(3, 2)]; [(1, 1)]; [(4, 3)]; []] /\
    sm_state sm' = (5, 4).
Proof.
  split.
  - split; try (intros e); try apply later_keeps; intros; reflexivity.
  - eexists _, _. split; [vm_compute; reflexivity|].
    split; [reflexivity|]. split; [repeat constructor; discriminate|]. split; reflexivity.
Qed.
