(** Props44.v — C95: awaitable typestate machines, polled and dropped. *)

From Coq Require Import List Bool Arith Permutation Lia.
From Verif Require Import Machine Awaitable Api Spec Poll Drops DropSpec DropPoll DropPollSpec Life LifeSpec
  TypestatePoll TypestatePollSpec Examples.
From Verif Require PollProofs DropProofs DropPollProofs TypestatePollProofs Props6 Props21 Props43.
Import ListNotations.

(** *** C95 *)

(** `InitializedStateMachine` and an initialized `StateMachine` do the same, poll by poll, and
    drop the same. *)
Theorem C95_handle :
  forall (World : Type) (m : machine) (F : futures World m) (stack : nat) (e : Event m)
         (polls : list World) (i : inner m) (sm1 : state_machine m) (cx cx1 : Ctx m)
         (o : option (outcome unit)) (tr : list (event_of m)),
    oexecute (o_handle_with_context F stack e) polls (StateMachine i true, cx) = (o, (sm1, cx1), tr) ->
    oexecute (o_im_handle F stack e) polls (InitializedMachine i, cx) =
      (o, (InitializedMachine (sm_inner sm1), cx1), tr) /\
    initialized sm1 = true.
Proof.
  intros World m F stack e polls i sm1 cx cx1 o tr H.
  pose proof (@TypestatePollProofs.handle_executes World m F stack e polls i cx) as G.
  rewrite H in G. exact G.
Qed.
Print Assumptions C95_handle.

(** `UninitializedStateMachine::init` and `StateMachine::init` make the same calls, poll by poll;
    but a typestate machine exists afterwards only if `init` completed.  If it panics, or its
    future is dropped after these polls, storage and state, as the entry actions have left them,
    are dropped, in this order. *)
Theorem C95_init :
  forall (World : Type) (m : machine) (F : futures World m) (stack : nat)
         (w : World) (ws : list World) (um : uninitialized_machine m) (sm1 : state_machine m) (cx cx1 : Ctx m)
         (o : option (outcome unit)) (tr : list (obs m)) (unused : World * list World),
    drive (a_init_with_context F stack) w ws (StateMachine (um_inner um) false, cx) =
      (o, (sm1, cx1), tr, unused) ->
    idrive (a_um_init F stack um) w ws cx =
      let made := map (fun c => Ev (Did c)) tr in
      let gone := [DroppedStorage (sm_shared sm1); Ev (Dropped (sm_state sm1))] in
      match o with
      | Some (Ret _) => (Some (Ret (InitializedMachine (sm_inner sm1))), cx1, made, unused)
      | Some (Abort Diverges) => (Some (Abort Diverges), cx1, made, unused)
      | Some (Abort y) => (Some (Abort y), cx1, made ++ gone, unused)
      | None => (None, cx1, made ++ gone, unused)
      end.
Proof.
  intros World m F stack w ws um sm1 cx cx1 o tr unused H.
  unfold a_um_init. rewrite TypestatePollProofs.idrive_running.
  pose proof (@TypestatePollProofs.init_agrees World m F stack w ws (um_inner um) cx) as A.
  destruct (drive (a_inner_init F stack) w ws (state (um_inner um), shared_storage (um_inner um), cx))
    as [[[o1 s] tr1] l]. rewrite H in A. injection A; intros; subst.
  unfold as_life. rewrite !map_map. destruct o1 as [[[]|[]]|]; cbn; rewrite ?app_nil_r; reflexivity.
Qed.
Print Assumptions C95_init.

(** A future of `init` that is dropped before it was ever polled drops the machine untouched. *)
Theorem C95_init_never_polled :
  forall (World : Type) (m : machine) (F : futures World m) (stack : nat) (um : uninitialized_machine m) (cx : Ctx m),
    iexecute (a_um_init F stack um) [] cx =
    (None, cx, [DroppedStorage (shared_storage (um_inner um)); Ev (Dropped (state (um_inner um)))]).
Proof. reflexivity. Qed.
Print Assumptions C95_init_never_polled.

(** The whole life of a typestate machine is, event by event and drop by drop, one of a
    `StateMachine` that is used in the same way: if `init` does not complete, the `StateMachine`
    is dropped where the typestate machine was lost. *)
Theorem C95_life :
  forall (World : Type) (m : machine) (F : futures World m) (stack : nat)
         (pre : list (um_op m)) (init : option (Ctx m * list World)) (ops : list (aim_op World m))
         (um : uninitialized_machine m) (outs : list (option (outcome unit))) (evs : list (life_event m)),
    aum_life F stack pre init ops um = (outs, evs) ->
    Forall (fun o => o <> Some (Abort Diverges)) outs ->
    asm_life F stack
      (map (@before_as World m) pre ++
       match init, outs with
       | None, _ => []
       | Some (cx, polls), Some (Ret _) :: _ => SInit m cx polls :: map (@use_as World m) ops
       | Some (cx, polls), _ => [SInit m cx polls]
       end) (StateMachine (um_inner um) false) =
    (map (fun _ => Some (Ret tt)) pre ++ outs, evs).
Proof.
  intros World m F stack pre init ops um outs evs E Hf.
  exact (@TypestatePollProofs.life_agrees World m F stack pre init ops um outs evs E Hf).
Qed.
Print Assumptions C95_life.

(** Over the life of a typestate machine — written to, initialized with any polls or not, used by
    calls with any polls, dropped — the storage is dropped exactly once, and so is every state it
    held first or was given as a target. *)
Theorem C95_dropped_once :
  forall (World : Type) (m : machine) (F : futures World m) (stack : nat) (T U : Type)
         (mark : State m -> T) (label : Shared m -> U),
    futures_keep_mark F mark -> futures_keep_storage F label ->
    forall (pre : list (um_op m)) (init : option (Ctx m * list World)) (ops : list (aim_op World m))
           (um : uninitialized_machine m) (outs : list (option (outcome unit))) (evs : list (life_event m)),
      Forall (pre_keeps mark label) pre -> Forall (use_keeps mark label) ops ->
      aum_life F stack pre init ops um = (outs, evs) ->
      Forall (fun o => o <> Some (Abort Diverges)) outs ->
      Permutation (map mark (states_dropped evs)) (mark (state (um_inner um)) :: map mark (targets_asked evs)) /\
      map label (storages_dropped evs) = [label (shared_storage (um_inner um))].
Proof.
  intros World m F stack T U mark label Hk Hs pre init ops um outs evs Hpre Hops E Hf.
  exact (@TypestatePollProofs.life_drops World m F stack T U mark label Hk Hs pre init ops um outs evs Hpre Hops E Hf).
Qed.
Print Assumptions C95_dropped_once.

(** The ticket machine of C94: one life ends in the middle of `init`, one goes on to calls of
    which the second and third are dropped midway. *)
Example C95_case :
  futures_keep_mark Props43.ticket_futures (@snd nat nat) /\
  futures_keep_storage Props43.ticket_futures (fun _ => tt) /\
  let um := UninitializedMachine (Inner (shared_storage (sm_inner (new_state_machine Props21.tickets 1)))
                                        (state (sm_inner (new_state_machine Props21.tickets 1)))) in
  let call e n := AHandle (PolledCall Props21.tickets e tt (repeat true n)) in
  let bump := UStateMut (fun x : State Props21.tickets => (fst x + 7, snd x)) in
  let ops := [call 1 50; call 3 5; call 4 7; call 5 50] in
  (exists outs evs,
    aum_life Props43.ticket_futures 1 [bump] (Some (tt, [true])) ops um = (outs, evs) /\
    outs = [None] /\ states_dropped evs = [(7, 0)] /\ length (storages_dropped evs) = 1) /\
  exists outs evs,
    aum_life Props43.ticket_futures 1 [bump] (Some (tt, repeat true 20)) ops um = (outs, evs) /\
    outs = [Some (Ret tt); Some (Ret tt); None; None; Some (Ret tt)] /\
    states_dropped evs = [(7, 0); (3, 2); (1, 1); (4, 3); (5, 4)] /\
    targets_asked evs = [(1, 1); (3, 2); (4, 3); (5, 4)] /\
    length (storages_dropped evs) = 1.
Proof.
  split; [exact (proj1 Props43.C94_case)|]. split.
  - split; intros; intro; intros; reflexivity.
  - split; eexists _, _; (split; [vm_compute; reflexivity|]); repeat (split; [reflexivity|]); reflexivity.
Qed.
