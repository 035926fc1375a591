(** Props36.v — C87: how many polls a call takes. *)

From Coq Require Import List Bool Arith Lia.
From Verif Require Import Machine Api Spec Poll SuperSpec WorkSpec PaceSpec Examples.
From Verif Require PaceProofs PollProofs WorkCalls Props6.
Import ListNotations.

(** *** C87 *)

(** [drive f w ws s] polls [f] first with [w], then with the elements of [ws]; [rest] are the polls
    that were not needed, so [length ws - length rest] polls were answered `Pending`.  If the future
    of a callback [o] answers `Pending` at least [lo o] and at most [hi o] times, then the future
    of a call answers `Pending` at least and at most as often as those of the callbacks it makes
    do together: the library never suspends on its own, and polls no future again that is ready.
    (With [lo = hi] the number of polls is exact.) *)
Theorem C87_polls :
  forall (World : Type) (m : machine) (F : futures World m) (lo hi : obs m -> nat) (stack : nat) (e : Event m)
         (w : World) (ws : list World) (sm sm1 : state_machine m) (cx cx1 : Ctx m)
         (o : option (outcome unit)) (tr : list (obs m)) (w' : World) (rest : list World),
    paced lo hi F ->
    drive (a_handle_with_context F stack e) w ws (sm, cx) = (o, (sm1, cx1), tr, (w', rest)) \/
    drive (a_init_with_context F stack) w ws (sm, cx) = (o, (sm1, cx1), tr, (w', rest)) ->
    match o with
    | Some _ => length rest + total lo tr <= length ws <= length rest + total hi tr
    | None => length (w :: ws) <= total hi tr
    end.
Proof.
  intros World m F lo hi stack e w ws sm sm1 cx cx1 o tr w' rest P H.
  assert (G : forall r, r = @ApiRes (sync F) _ (match o with Some o => o | None => Abort DroppedFuture end)
                 (with_schedule F sm1 (w', rest)) cx1 (map (to_sync F) tr) ->
              @PaceProofs.api_costs World m F lo hi (shared_storage (sm_inner (with_schedule F sm (w, ws)))) r ->
              o <> Some (Abort DroppedFuture) ->
              match o with
              | Some _ => length rest + total lo tr <= length ws <= length rest + total hi tr
              | None => length (w :: ws) <= total hi tr
              end).
  { intros r -> C N. unfold PaceProofs.api_costs in C. cbn [a_out a_machine a_tr] in C.
    rewrite !PaceProofs.total_sync in C. unfold PaceProofs.left_ in C. cbn in C.
    destruct o as [[a | []] |]; cbn [length]; try (exfalso; apply N; reflexivity); lia. }
  destruct H as [H | H].
  - pose proof (PollProofs.handle_runs F stack e w ws sm cx) as R. rewrite H in R.
    apply (G _ R); [apply PaceProofs.sm_handle_costs; exact P |].
    pose proof (@PaceProofs.handle_itself World m F stack e w ws (sm, cx)) as N. rewrite H in N. exact N.
  - pose proof (PollProofs.init_runs F stack w ws sm cx) as R. rewrite H in R.
    apply (G _ R); [apply PaceProofs.sm_init_costs; exact P |].
    pose proof (@PaceProofs.init_itself World m F stack w ws (sm, cx)) as N. rewrite H in N. exact N.
Qed.
Print Assumptions C87_polls.

(** If no callback's future ever answers `Pending`, every call is complete after the first poll. *)
Theorem C87_one_poll :
  forall (World : Type) (m : machine) (F : futures World m) (stack : nat) (e : Event m)
         (w : World) (sm : state_machine m) (cx : Ctx m),
    paced (fun _ => 0) (fun _ => 0) F ->
    (exists out sm1 cx1 tr, drive (a_handle_with_context F stack e) w [] (sm, cx) = (Some out, (sm1, cx1), tr, (w, []))) /\
    (exists out sm1 cx1 tr, drive (a_init_with_context F stack) w [] (sm, cx) = (Some out, (sm1, cx1), tr, (w, []))).
Proof.
  intros World m F stack e w sm cx P.
  assert (Z : forall tr : list (obs m), total (fun _ => 0) tr = 0).
  { intros tr. unfold total. induction (filter _ tr) as [| o l IH]; [reflexivity | exact IH]. }
  assert (L : forall (f : fut World m (state_machine m * Ctx m) unit) o s tr l,
             drive f w [] (sm, cx) = (o, s, tr, l) -> l = (w, [])).
  { intros f o s tr l. cbn. destruct (poll f w (sm, cx)); intros [= _ _ _ <-]; reflexivity. }
  split.
  - destruct (drive (a_handle_with_context F stack e) w [] (sm, cx)) as [[[o [sm1 cx1]] tr] [w' rest]] eqn:E.
    pose proof (L _ _ _ _ _ E) as El. injection El as -> ->.
    pose proof (@C87_polls World m F _ _ stack e w [] sm sm1 cx cx1 o tr w [] P (or_introl E)) as B.
    destruct o as [out |]; [eauto | rewrite Z in B; cbn in B; lia].
  - destruct (drive (a_init_with_context F stack) w [] (sm, cx)) as [[[o [sm1 cx1]] tr] [w' rest]] eqn:E.
    pose proof (L _ _ _ _ _ E) as El. injection El as -> ->.
    pose proof (@C87_polls World m F _ _ stack e w [] sm sm1 cx cx1 o tr w [] P (or_intror E)) as B.
    destruct o as [out |]; [eauto | rewrite Z in B; cbn in B; lia].
Qed.
Print Assumptions C87_one_poll.

(** If each callback's future answers `Pending` at most [k] times, a call is complete after a
    number of polls that depends only on [k] and the depth of the nesting. *)
Theorem C87_completes :
  forall (World : Type) (h : hierarchy) (m : machine) (F : futures World m) (k stack : nat) (e : Event m)
         (w : World) (ws : list World) (sm : state_machine m) (cx : Ctx m),
    well_formed h m stack -> lends m ->
    paced (fun _ => 0) (fun _ => k) F ->
    k * (6 * (stack + 1) + 2) <= length ws ->
    exists out sm1 cx1 tr w' rest,
      drive (a_handle_with_context F stack e) w ws (sm, cx) = (Some out, (sm1, cx1), tr, (w', rest)) /\
      length ws - length rest <= k * (6 * (stack + 1) + 2).
Proof.
  intros World h m F k stack e w ws sm cx W V P L.
  destruct (drive (a_handle_with_context F stack e) w ws (sm, cx)) as [[[o [sm1 cx1]] tr] [w' rest]] eqn:E.
  pose proof (@C87_polls World m F _ _ stack e w ws sm sm1 cx cx1 o tr w' rest P (or_introl E)) as B.
  cbn [length] in B.
  pose proof (PollProofs.handle_runs F stack e w ws sm cx) as R. rewrite E in R.
  assert (C : calls (map (to_sync F) tr) <= 6 * (stack + 1) + 2).
  { assert (X : exec stack AwaitableMode (@OpHandle (sync F) e cx) (with_schedule F sm (w, ws)) =
                (match o with Some o => o | None => Abort DroppedFuture end,
                 with_schedule F sm1 (w', rest), Some cx1, map (to_sync F) tr)).
    { cbn [exec]. rewrite R. reflexivity. }
    assert (Lm : lends (sync F)).
    { destruct V as [Vs Vu]. constructor; [exact Vs | exact Vu]. }
    assert (St : forall x, s_super (sync F) x <> None -> 1 <= stack).
    { intros x Hx. cbn in Hx. destruct (s_super m x) as [u |] eqn:Ex; [| now destruct Hx].
      destruct (wf_height W (u_disc m u)) as (l & Hl & Ll). inversion Hl; subst. cbn in Ll. lia. }
    pose proof (@WorkCalls.call_bound (sync F) stack AwaitableMode _ _ _ _ _ _ Lm St X) as Q.
    eapply Nat.le_trans; [exact Q |]. destruct (initialized _); lia. }
  assert (D : total (fun _ => k) tr <= k * calls (map (to_sync F) tr)).
  { clear. induction tr as [| o tr IH]; [apply Nat.le_0_l |].
    assert (G : forall b c n j, j <= k * n -> b = k + j -> c = S n -> b <= k * c).
    { intros b c n j Hj -> ->. rewrite Nat.mul_succ_r. lia. }
    destruct o; try exact IH; exact (G _ _ _ _ IH eq_refl eq_refl). }
  assert (D' : total (fun _ => k) tr <= k * (6 * (stack + 1) + 2)).
  { eapply Nat.le_trans; [exact D | apply Nat.mul_le_mono_l, C]. }
  destruct o as [out |]; [| exfalso; cbn [length] in B; lia].
  exists out, sm1, cx1, tr, w', rest. split; [reflexivity | lia].
Qed.
Print Assumptions C87_completes.

(** A future that is pending [n] times and then computes [g], whatever the worlds. *)
Fixpoint after {World T A : Type} (n : nat) (g : T -> option A * T) : ufut World T A :=
  UFut (fun _ s => match n with
                   | 0 => let '(a, s') := g s in @UReady T A (ufut World T A) a s'
                   | S n' => @UPending T A (ufut World T A) s (after n' g)
                   end).
Lemma after_pends {World T A : Type} n (g : T -> option A * T) s : pends n n (after (World := World) n g) s.
Proof.
  revert s. induction n as [| n IH]; intros s w; cbn.
  - destruct (g s). reflexivity.
  - apply IH.
Qed.

(** The callbacks of the demo machine as such futures. *)
Definition answer {A} (r : reply A) : option A := match r with Returns a => Some a | _ => None end.
Definition of_callback {m : machine} {X A} (g : X -> Shared m -> Ctx m -> reply A * X * Shared m * Ctx m)
    (s : X * Shared m * Ctx m) : option A * (X * Shared m * Ctx m) :=
  let '(x, sh, cx) := s in let '(r, x', sh', cx') := g x sh cx in (answer r, (x', sh', cx')).
Definition of_hook {m : machine} (g : Shared m -> reply unit * Shared m) (sh : Shared m) : option unit * Shared m :=
  let '(r, sh') := g sh in (answer r, sh').
Definition slow (m : machine) (a b c d : nat) : futures unit m :=
  @Futures unit m
    (fun e => after a (of_callback (fun x sh cx => s_handler m x sh cx e)))
    (after b (of_callback (s_entry m))) (after c (of_callback (s_exit m)))
    (fun e => after d (of_callback (fun x sh cx => u_handler m x sh cx e)))
    (after b (of_callback (u_entry m))) (after c (of_callback (u_exit m)))
    (fun n e => after 0 (of_hook (fun sh => h_before_dispatch m sh n e)))
    (fun n e => after 1 (of_hook (fun sh => h_after_dispatch m sh n e)))
    (fun x y => after 2 (of_hook (fun sh => h_before_transition m sh x y)))
    (fun x y => after 0 (of_hook (fun sh => h_after_transition m sh x y))).
Definition slowness (m : machine) (a b c d : nat) (o : obs m) : nat :=
  match o with
  | OHandler (NState _) _ => a | OHandler (NSuper _) _ => d
  | OEnter _ => b | OExit _ => c | OAfterDispatch _ _ => 1 | OBeforeTransition _ _ => 2
  | _ => 0
  end.
Lemma slow_paced m a b c d : paced (slowness m a b c d) (slowness m a b c d) (slow m a b c d).
Proof. split; intros; apply after_pends. Qed.
Lemma pends_weaken {World S A : Type} : forall hi hi' lo (f : ufut World S A) s,
  hi <= hi' -> pends lo hi f s -> pends 0 hi' f s.
Proof.
  induction hi as [| hi IH]; intros hi' lo f s L P; destruct hi' as [| hi']; try lia; intros w;
    specialize (P w); cbn in *; destruct (upoll f w s) as [x s' | s' f']; auto; try contradiction.
  eapply IH; [| exact P]. lia.
Qed.

Example C87_case :
  let F := slow (demo true) 2 3 1 0 in
  let k := slowness (demo true) 2 3 1 0 in
  paced k k F /\ paced (fun _ => 0) (fun _ => 3) F /\
  well_formed demo_hierarchy (demo true) 2 /\ lends (demo true) /\
  (let '(o, _, tr, (_, rest)) :=
     drive (a_handle_with_context F 2 Halt) tt (repeat tt 60) (fresh true, 0) in
   o = Some (Ret tt) /\ (length rest, total k tr) = (38, 22) /\ 3 * (6 * (2 + 1) + 2) = 60) /\
  (let '(o, _, tr, (_, rest)) :=
     drive (a_handle_with_context F 2 Halt) tt (repeat tt 10) (fresh true, 0) in
   o = None) /\
  paced (fun _ => 0) (fun _ => 0)
    (@Futures unit (demo true)
       (fun e => after 0 (of_callback (fun x sh cx => s_handler (demo true) x sh cx e)))
       (after 0 (of_callback (s_entry (demo true)))) (after 0 (of_callback (s_exit (demo true))))
       (fun e => after 0 (of_callback (fun x sh cx => u_handler (demo true) x sh cx e)))
       (after 0 (of_callback (u_entry (demo true)))) (after 0 (of_callback (u_exit (demo true))))
       (fun n e => after 0 (of_hook (fun sh => h_before_dispatch (demo true) sh n e)))
       (fun n e => after 0 (of_hook (fun sh => h_after_dispatch (demo true) sh n e)))
       (fun x y => after 0 (of_hook (fun sh => h_before_transition (demo true) sh x y)))
       (fun x y => after 0 (of_hook (fun sh => h_after_transition (demo true) sh x y)))).
Proof.
  cbv zeta. split; [apply slow_paced |].
  split; [split; intros; (eapply pends_weaken; [| apply after_pends]; lia) |].
  split; [apply demo_well_formed |]. split; [| split; [| split]].
  - destruct (demo_views true). split; assumption.
  - vm_compute. repeat split.
  - vm_compute. reflexivity.
  - split; intros; apply after_pends.
Qed.
