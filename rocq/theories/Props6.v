(** Props6.v — C40, C41.  Theorems only. *)

From Coq Require Import List Bool Arith Lia.
From Verif Require Import Machine Api Spec Poll Examples.
From Verif Require PollProofs.
Import ListNotations.

(** A future that is polled [n] times before it computes [g]; if [g] says [Cancelled] it never
    gets ready.  It misses its timer if the world says [false] too late. *)
CoFixpoint never {T A : Type} : ufut bool T A :=
  UFut (fun (_ : bool) (s : T) => @UPending T A (ufut bool T A) s never).
Fixpoint later {T A : Type} (n : nat) (g : T -> reply A * T) : ufut bool T A :=
  UFut (fun (w : bool) (s : T) =>
    if w then
      match n with
      | 0 => match g s with
             | (Returns a, s') => @UReady T A (ufut bool T A) (Some a) s'
             | (Panics, s') => @UReady T A (ufut bool T A) None s'
             | (Cancelled, s') => @UPending T A (ufut bool T A) s' never
             end
      | S n' => @UPending T A (ufut bool T A) s (later n' g)
      end
    else @UPending T A (ufut bool T A) s (match n with 0 => never | S n' => later n' g end)).
Lemma never_udrive {T A} w ws (s : T) : fst (udrive (A := A) never w ws s) = (None, s).
Proof. revert w. induction ws as [|w' ws IH]; intros w; [reflexivity|]. cbn. apply IH. Qed.
Lemma later_computes {T A} n (g : T -> reply A * T) : computes (later n g) g.
Proof.
  assert (N : forall s s0 w ws, match udrive (A := A) never w ws (s : T) with
                        | (Some a, s', _) => g s0 = (reply_of (Some a), s')
                        | (None, _, _) => True end).
  { intros s s0 w ws. pose proof (@never_udrive T A w ws s) as H.
    destruct (udrive never w ws s) as [[o s'] l]. cbn in H. injection H as -> ->. exact I. }
  induction n as [|n IH]; intros w ws s.
  - destruct ws as [|w' ws]; destruct w; cbn.
    + destruct (g s) as [[a| |] s']; try reflexivity; exact I.
    + exact I.
    + destruct (g s) as [[a| |] s'] eqn:E; [reflexivity|reflexivity|]. rewrite <- E. apply N.
    + apply N.
  - destruct ws as [|w' ws]; destruct w; cbn; try exact I; apply IH.
Qed.
Lemma later_udrive_state {T A} n (g : T -> reply A * T) w ws s :
  snd (fst (udrive (later n g) w ws s)) = s \/ snd (fst (udrive (later n g) w ws s)) = snd (g s).
Proof.
  revert w ws s. induction n as [|n IH]; intros w ws s.
  - destruct ws as [|w' ws]; destruct w; cbn.
    + right. destruct (g s) as [[a| |] s']; reflexivity.
    + left. reflexivity.
    + right. destruct (g s) as [[a| |] s']; [reflexivity|reflexivity|].
      now rewrite never_udrive.
    + left. now rewrite never_udrive.
  - destruct ws as [|w' ws]; destruct w; cbn; auto; apply IH.
Qed.

(** Futures for the demo machine, of different lengths. *)
Definition demo_futures (b : bool) : futures bool (demo b) :=
  @Futures bool (demo b)
    (fun e => later 2 (curried (demo b) (fun x sh cx => s_handler (demo b) x sh cx e)))
    (later 1 (curried (demo b) (s_entry (demo b)))) (later 0 (curried (demo b) (s_exit (demo b))))
    (fun e => later 0 (curried (demo b) (fun x sh cx => u_handler (demo b) x sh cx e)))
    (later 3 (curried (demo b) (u_entry (demo b)))) (later 1 (curried (demo b) (u_exit (demo b))))
    (fun n e => later 0 (fun sh => h_before_dispatch (demo b) sh n e))
    (fun n e => later 1 (fun sh => h_after_dispatch (demo b) sh n e))
    (fun x y => later 2 (fun sh => h_before_transition (demo b) sh x y))
    (fun x y => later 0 (fun sh => h_after_transition (demo b) sh x y)).
Lemma demo_implements b : implements (demo_futures b).
Proof. split; intros; apply later_computes. Qed.
Lemma demo_variant_safe b : variant_safe (demo_futures b).
Proof.
  assert (G : forall X A (disc : X -> nat) n
                (g : X -> Shared (demo b) -> Ctx (demo b) -> reply A * X * Shared (demo b) * Ctx (demo b)),
             (forall x sh cx r x' sh' cx', g x sh cx = (r, x', sh', cx') -> disc x' = disc x) ->
             keeps (demo b) disc (later n (curried (demo b) g))).
  { intros X A disc n g H w ws x sh cx.
    pose proof (@later_udrive_state _ A n (curried (demo b) g) w ws (x, sh, cx)) as D.
    destruct (udrive (later n (curried (demo b) g)) w ws (x, sh, cx)) as [[o s'] l]. cbn [fst snd] in D.
    destruct D as [->| ->]; [reflexivity|]. unfold curried.
    destruct (g x sh cx) as [[[r x'] sh'] cx'] eqn:E. cbn. exact (H _ _ _ _ _ _ _ E). }
  destruct (demo_well_formed b) as [_ St _]. destruct St. split.
  - intros e. apply G. intros x sh cx r x' sh' cx'. apply st_s_handler.
  - apply G. exact st_s_entry.
  - apply G. exact st_s_exit.
  - intros e. apply G. intros x sh cx r x' sh' cx'. apply st_u_handler.
  - apply G. exact st_u_entry.
  - apply G. exact st_u_exit.
Qed.

(** C40.  [drive f w ws s] polls the future [f] with the successive worlds [w :: ws] and drops
    it if it is not ready then ([None]).  The result, the machine, the context and the log are
    those of one call of the atomic awaitable model (the one of all other theorems), for the
    machine [sync F] in which each callback runs in one go, consuming the polls its own future
    would: nothing else can happen, whenever the polls are made. *)
Theorem C40_polls_are_atomic_calls :
  forall (World : Type) (m : machine) (F : futures World m) (stack : nat) (e : Event m)
         (w : World) (ws : list World) (sm sm1 : state_machine m) (cx cx1 : Ctx m)
         (o : option (outcome unit)) (tr : list (obs m)) (unused : World * list World),
    let end_of o := match o with Some o => o | None => Abort DroppedFuture end in
    (drive (a_handle_with_context F stack e) w ws (sm, cx) = (o, (sm1, cx1), tr, unused) ->
     handle_with_context stack AwaitableMode (with_schedule F sm (w, ws)) e cx =
     @ApiRes (sync F) _ (end_of o) (with_schedule F sm1 unused) cx1 (map (to_sync F) tr)) /\
    (drive (a_init_with_context F stack) w ws (sm, cx) = (o, (sm1, cx1), tr, unused) ->
     init_with_context stack AwaitableMode (with_schedule F sm (w, ws)) cx =
     @ApiRes (sync F) _ (end_of o) (with_schedule F sm1 unused) cx1 (map (to_sync F) tr)).
Proof.
  intros World m F stack e w ws sm sm1 cx cx1 o tr unused. split; intros E.
  - pose proof (PollProofs.handle_runs F stack e w ws sm cx) as R. rewrite E in R. exact R.
  - pose proof (PollProofs.init_runs F stack w ws sm cx) as R. rewrite E in R. exact R.
Qed.
Print Assumptions C40_polls_are_atomic_calls.

(** If the user's futures compute the callbacks of [m], in however many polls and whatever
    they wait for, then every execution that completes does exactly what [m] does. *)
Theorem C40_schedule_does_not_matter :
  forall (World : Type) (m : machine) (F : futures World m) (stack : nat) (e : Event m)
         (w : World) (ws : list World) (sm sm1 : state_machine m) (cx cx1 : Ctx m)
         (o : outcome unit) (tr : list (obs m)) (unused : World * list World),
    implements F ->
    (drive (a_handle_with_context F stack e) w ws (sm, cx) = (Some o, (sm1, cx1), tr, unused) ->
     handle_with_context stack AwaitableMode sm e cx = ApiRes o sm1 cx1 tr) /\
    (drive (a_init_with_context F stack) w ws (sm, cx) = (Some o, (sm1, cx1), tr, unused) ->
     init_with_context stack AwaitableMode sm cx = ApiRes o sm1 cx1 tr).
Proof.
  intros World m F stack e w ws sm sm1 cx cx1 o tr unused I. split; intros E.
  - pose proof (@PollProofs.handle_performs World m F stack I e w ws sm cx) as R. rewrite E in R. exact R.
  - pose proof (@PollProofs.init_performs World m F stack I w ws sm cx) as R. rewrite E in R. exact R.
Qed.
Print Assumptions C40_schedule_does_not_matter.

(** More polls than needed change nothing. *)
Theorem C40_extra_polls :
  forall (World : Type) (m : machine) (S A : Type) (f : fut World m S A) (w : World)
         (ws more : list World) (s s1 : S) (o : outcome A) (tr : list (obs m)) (l : World * list World),
    drive f w ws s = (Some o, s1, tr, l) ->
    exists l', drive f w (ws ++ more) s = (Some o, s1, tr, l').
Proof.
  intros World m S A f w ws more s s1 o tr l E.
  pose proof (@PollProofs.drive_prefix World m S A more ws f w s) as P. rewrite E in P.
  destruct (drive f w (ws ++ more) s) as [[[o2 s2] tr2] l2]. destruct P as (-> & -> & ->). eauto.
Qed.
Print Assumptions C40_extra_polls.

Example C40_case :
  implements (demo_futures true) /\
  let r := drive (a_handle_with_context (demo_futures true) 2 Halt) true (repeat true 40) (fresh true, 0) in
  fst (fst (fst r)) = Some (Ret tt) /\ length (snd (snd r)) = 23.
Proof. split; [apply demo_implements|]. vm_compute. auto. Qed.

(** C41.  A future that is never polled does nothing. *)
Theorem C41_never_polled :
  forall (World : Type) (m : machine) (F : futures World m) (stack : nat) (e : Event m)
         (sm : state_machine m) (cx : Ctx m),
    execute (a_handle_with_context F stack e) [] (sm, cx) = (None, (sm, cx), []) /\
    execute (a_init_with_context F stack) [] (sm, cx) = (None, (sm, cx), []).
Proof. intros. split; reflexivity. Qed.
Print Assumptions C41_never_polled.

(** Dropped after the polls [w :: ws]: everything is as after the call of the atomic machine
    in which the pending callback was cancelled (abort [DroppedFuture]); the log is a prefix of
    that of any execution that goes on. *)
Theorem C41_dropped_is_cancelled :
  forall (World : Type) (m : machine) (F : futures World m) (stack : nat) (e : Event m)
         (w : World) (ws more : list World) (sm sm1 : state_machine m) (cx cx1 : Ctx m)
         (tr : list (obs m)) (unused : World * list World),
    drive (a_handle_with_context F stack e) w ws (sm, cx) = (None, (sm1, cx1), tr, unused) ->
    handle_with_context stack AwaitableMode (with_schedule F sm (w, ws)) e cx =
    @ApiRes (sync F) _ (Abort DroppedFuture) (with_schedule F sm1 unused) cx1 (map (to_sync F) tr) /\
    prefix tr (snd (fst (drive (a_handle_with_context F stack e) w (ws ++ more) (sm, cx)))) /\
    (implements F -> prefix tr (a_tr (handle_with_context stack AwaitableMode sm e cx))).
Proof.
  intros World m F stack e w ws more sm sm1 cx cx1 tr unused E. split; [|split].
  - pose proof (PollProofs.handle_runs F stack e w ws sm cx) as R. rewrite E in R. exact R.
  - pose proof (@PollProofs.drive_prefix World m _ _ more ws (a_handle_with_context F stack e) w (sm, cx)) as P.
    rewrite E in P.
    destruct (drive (a_handle_with_context F stack e) w (ws ++ more) (sm, cx)) as [[[o2 s2] tr2] l2].
    destruct P as [t ->]. exists t. reflexivity.
  - intros I. pose proof (@PollProofs.handle_performs World m F stack I e w ws sm cx) as R.
    rewrite E in R. destruct R as [t R]. exists t. exact R.
Qed.
Print Assumptions C41_dropped_is_cancelled.

(** What is left is a consistent machine: its state is a state of the source's variant as
    long as no entry action of a transition had started, and then one of the target's. *)
Theorem C41_dropped_state :
  forall (World : Type) (h : hierarchy) (m : machine) (stack : nat) (F : futures World m)
         (e : Event m) (w : World) (ws : list World) (sm sm1 : state_machine m) (cx cx1 : Ctx m)
         (tr : list (obs m)) (unused : World * list World),
    well_formed h m stack -> variant_safe F -> initialized sm = true ->
    drive (a_handle_with_context F stack e) w ws (sm, cx) = (None, (sm1, cx1), tr, unused) ->
    initialized sm1 = true /\
    (exists t o, tr = t ++ [o] /\
      match o with
      | OEnter _ | OAfterTransition _ _ =>
          exists p target, asks_for tr p e target /\
            s_disc m (sm_state sm1) = s_disc m target
      | _ => s_disc m (sm_state sm1) = s_disc m (sm_state sm)
      end) /\
    (forall p target, asks_for tr p e target ->
       exists full, route h (s_disc m (sm_state sm)) (s_disc m target) full /\ prefix (acts tr) full).
Proof.
  intros World h m stack F e w ws sm sm1 cx cx1 tr unused W K Hi E.
  destruct (@PollProofs.handle_dropped World h m stack F W K e w ws sm cx sm1 cx1 tr unused Hi E) as [H1 H2].
  split; [exact H1|]. split; [exact H2|].
  intros p target. exact (@PollProofs.handle_dropped_route World h m stack F W K e w ws sm cx sm1 cx1 tr unused p target Hi E).
Qed.
Print Assumptions C41_dropped_state.

(** Dropped during initialization: still uninitialized, and only entry actions of the path
    have run. *)
Theorem C41_dropped_init :
  forall (World : Type) (h : hierarchy) (m : machine) (stack : nat) (F : futures World m)
         (w : World) (ws : list World) (sm sm1 : state_machine m) (cx cx1 : Ctx m)
         (tr : list (obs m)) (unused : World * list World),
    well_formed h m stack -> variant_safe F -> initialized sm = false ->
    drive (a_init_with_context F stack) w ws (sm, cx) = (None, (sm1, cx1), tr, unused) ->
    initialized sm1 = false /\ s_disc m (sm_state sm1) = s_disc m (sm_state sm) /\
    exists p, path h (s_disc m (sm_state sm)) p /\ forallb (@is_enter m) tr = true /\
      prefix (acts tr) (map Enter p).
Proof.
  intros World h m stack F w ws sm sm1 cx cx1 tr unused W K Hi E.
  exact (@PollProofs.init_dropped World h m stack F W K w ws sm cx sm1 cx1 tr unused Hi E).
Qed.
Print Assumptions C41_dropped_init.

Example C41_case :
  well_formed demo_hierarchy (demo true) 2 /\ variant_safe (demo_futures true) /\
  (let '(o, (sm1, _), tr, _) :=
     drive (a_handle_with_context (demo_futures true) 2 Halt) true (repeat true 7)
       (running true (On 3) [], 0) in
   o = None /\ acts tr = [Exit (AtState 0); Exit (AtSuper 0)] /\
   s_disc (demo true) (sm_state sm1) = 0) /\
  (let '(o, (sm1, _), tr, _) :=
     drive (a_handle_with_context (demo_futures true) 2 Halt) true (repeat true 9)
       (running true (On 3) [], 0) in
   o = None /\ acts tr = [Exit (AtState 0); Exit (AtSuper 0); Exit (AtSuper 1); Enter (AtState 3)] /\
   s_disc (demo true) (sm_state sm1) = 3).
Proof.
  split; [apply demo_well_formed|]. split; [apply demo_variant_safe|]. vm_compute. auto 10.
Qed.
