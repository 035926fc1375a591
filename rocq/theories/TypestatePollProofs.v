(** TypestatePollProofs.v — C95. *)

From Coq Require Import List Bool Arith Permutation Lia.
From Verif Require Import Machine Awaitable Api Poll Drops DropSpec DropPoll DropPollSpec Life LifeSpec
  TypestatePoll TypestatePollSpec.
From Verif Require PollProofs DropProofs DropPollProofs LifeProofs.
Import ListNotations.
Set Implicit Arguments.

Section Agree.
  Variable World : Type.
  Variable m : machine.
  Variable F : futures World m.
  Variable stack : nat.
  Notation store X := (X * Shared m * Ctx m)%type.

  Definition inner_of (s : store (State m)) : inner m := Inner (snd (fst s)) (fst (fst s)).

  Lemma idrive_running ws : forall (c : fut World m (store (State m)) unit) w i cx,
    idrive (init_running i c) w ws cx =
    match drive c w ws (state i, shared_storage i, cx) with
    | (Some (Ret _), s, tr, l) => (Some (Ret (InitializedMachine (inner_of s))), snd s, as_life (map Did tr), l)
    | (Some (Abort y), s, tr, l) =>
        (Some (Abort y), snd s, as_life (map Did tr) ++ (if unwinds y then drop_inner (inner_of s) else []), l)
    | (None, s, tr, l) => (None, snd s, as_life (map Did tr) ++ drop_inner (inner_of s), l)
    end.
  Proof.
    induction ws as [|w' ws IH]; intros c w i cx; simpl;
      destruct (poll c w (state i, shared_storage i, cx)) as [[a|y] s tr|s tr c']; try reflexivity.
    rewrite IH. cbn [state shared_storage].
    assert (E : (fst (fst s), snd (fst s), snd s) = s) by (destruct s as [[? ?] ?]; reflexivity).
    rewrite E. destruct (drive c' w' ws s) as [[[[[a|y]|] s2] tr2] l]; unfold as_life; rewrite !map_app;
      try reflexivity; now rewrite <- !app_assoc.
  Qed.

  Lemma init_agrees w ws i cx :
    let '(o, s, tr, l) := drive (a_inner_init F stack) w ws (state i, shared_storage i, cx) in
    drive (a_init_with_context F stack) w ws (StateMachine i false, cx) =
    (o, (StateMachine (inner_of s) (match o with Some (Ret _) => true | _ => false end), snd s), tr, l).
  Proof.
    unfold a_init_with_context. rewrite PollProofs.drive_bind.
    assert (E : drive (aget (World := World) (m := m)) w ws (StateMachine i false, cx) =
                (Some (Ret (StateMachine i false, cx)), (StateMachine i false, cx), [], (w, ws)))
      by (destruct ws; reflexivity).
    rewrite E. clear E. cbn [fst initialized negb]. rewrite PollProofs.drive_bind.
    unfold on_inner. rewrite PollProofs.drive_aborrow. cbn [fst snd sm_inner initialized].
    destruct (drive (a_inner_init F stack) w ws (state i, shared_storage i, cx))
      as [[[[[[]|y]|] s] tr] [w1 ws1]]; try reflexivity.
    assert (E : drive (a_set_initialized World m) w1 ws1 (StateMachine (inner_of s) false, snd s) =
                (Some (Ret tt), (StateMachine (inner_of s) true, snd s), [], (w1, ws1)))
      by (destruct ws1; reflexivity).
    unfold inner_of in E |- *. rewrite E. cbn. now rewrite app_nil_r.
  Qed.

  Lemma handle_agrees e w ws i cx :
    let '(o, (sm1, cx1), tr, l) := odrive (o_handle_with_context F stack e) w ws (StateMachine i true, cx) in
    odrive (o_im_handle F stack e) w ws (InitializedMachine i, cx) =
      (o, (InitializedMachine (sm_inner sm1), cx1), tr, l) /\ initialized sm1 = true.
  Proof.
    unfold o_handle_with_context. rewrite DropPollProofs.odrive_bind, DropPollProofs.odrive_plain.
    assert (E : drive (aget (World := World) (m := m)) w ws (StateMachine i true, cx) =
                (Some (Ret (StateMachine i true, cx)), (StateMachine i true, cx), [], (w, ws)))
      by (destruct ws; reflexivity).
    rewrite E. clear E. cbn [fst initialized negb map].
    rewrite DropPollProofs.odrive_bind, DropPollProofs.odrive_plain, DropPollProofs.drive_ret.
    unfold o_on_inner, o_im_handle. rewrite !DropPollProofs.odrive_borrow. cbn [fst snd sm_inner im_inner].
    destruct (odrive (o_inner_handle F stack e) w ws _) as [[[o s] tr] l]. split; reflexivity.
  Qed.

  Lemma handle_executes e polls i cx :
    let '(o, (sm1, cx1), tr) := oexecute (o_handle_with_context F stack e) polls (StateMachine i true, cx) in
    oexecute (o_im_handle F stack e) polls (InitializedMachine i, cx) =
      (o, (InitializedMachine (sm_inner sm1), cx1), tr) /\ initialized sm1 = true.
  Proof.
    destruct polls as [|w ws]; cbn [oexecute]; [split; reflexivity|].
    pose proof (handle_agrees e w ws i cx) as H.
    destruct (odrive (o_handle_with_context F stack e) w ws (StateMachine i true, cx)) as [[[o [sm1 cx1]] tr] l].
    destruct H as [H Hi]. cbn [fst]. rewrite H. split; [reflexivity|exact Hi].
  Qed.
End Agree.

Section Once.
  Variable World : Type.
  Variable m : machine.
  Variable F : futures World m.
  Variable stack : nat.
  Variables T U : Type.
  Variable mark : State m -> T.
  Variable label : Shared m -> U.
  Hypothesis Hk : futures_keep_mark F mark.
  Hypothesis Hs : futures_keep_storage F label.

  Lemma sync_storage : @keeps_storage (sync F) U (fun sh => label (fst sh)).
  Proof.
    assert (A : forall X B (f : ufut World (X * Shared m * Ctx m) B) x (sh : Shared m * schedule World) cx r x' sh' cx',
              future_keeps_storage m label f -> atomically f x sh cx = (r, x', sh', cx') ->
              label (fst sh') = label (fst sh)).
    { intros X B f x sh cx r x' sh' cx' K. unfold atomically. specialize (K (fst (snd sh)) (snd (snd sh)) x (fst sh) cx).
      destruct (udrive f _ _ _) as [[o [[x1 sh1] cx1]] l]. cbn in K. intros E. injection E; intros; subst. exact K. }
    assert (B : forall (f : ufut World (Shared m) unit) (sh : Shared m * schedule World) r sh',
              hook_keeps_storage m label f -> atomic_hook f sh = (r, sh') -> label (fst sh') = label (fst sh)).
    { intros f sh r sh' K. unfold atomic_hook. specialize (K (fst (snd sh)) (snd (snd sh)) (fst sh)).
      destruct (udrive f _ _ _) as [[o sh1] l]. cbn in K. intros E. injection E; intros; subst. exact K. }
    destruct Hs as [S1 S2 S3 S4 S5 S6 S7 S8 S9 S10].
    split; cbn.
    - intros x sh cx e r x' sh' cx'. apply A, S1.
    - intros x sh cx r x' sh' cx'. apply A, S2.
    - intros x sh cx r x' sh' cx'. apply A, S3.
    - intros x sh cx e r x' sh' cx'. apply A, S4.
    - intros x sh cx r x' sh' cx'. apply A, S5.
    - intros x sh cx r x' sh' cx'. apply A, S6.
    - intros sh n e r sh'. apply B, S7.
    - intros sh n e r sh'. apply B, S8.
    - intros sh a b r sh'. apply B, S9.
    - intros sh a b r sh'. apply B, S10.
  Qed.

  (** One use of an initialized machine. *)
  Lemma use_drops o im out im' tr :
    use_keeps mark label o -> aim_exec F stack o im = (out, im', tr) -> out <> Some (Abort Diverges) ->
    Permutation (map mark (drops_in tr) ++ [mark (state (im_inner im'))])
                (mark (state (im_inner im)) :: map mark (targets_in tr)) /\
    label (shared_storage (im_inner im')) = label (shared_storage (im_inner im)).
  Proof.
    destruct o as [c|f|f]; cbn [use_keeps aim_exec]; intros Hu E N.
    - destruct im as [i]. pose proof (handle_executes F stack (pc_event c) (pc_polls c) i (pc_ctx c)) as H.
      destruct (oexecute (o_handle_with_context F stack (pc_event c)) (pc_polls c) (StateMachine i true, pc_ctx c))
        as [[o [sm1 cx1]] tr1] eqn:E1.
      destruct H as [H Hi]. rewrite H in E. injection E; intros; subst. cbn [im_inner].
      destruct (@DropPollProofs.call_drops World m F stack T mark Hk _ _ _ _ _ _ _ _ E1 N) as (t & ds & -> & _ & _ & P & _).
      split.
      + rewrite DropProofs.drops_in_app, DropProofs.drops_in_did, DropProofs.drops_in_dropped. exact P.
      + destruct (pc_polls c) as [|w ws]; cbn [oexecute] in E1.
        * injection E1; intros; subst. reflexivity.
        * pose proof (@DropPollProofs.o_handle_runs World m F stack (pc_event c) w ws (StateMachine i true) (pc_ctx c)) as R.
          destruct (odrive (o_handle_with_context F stack (pc_event c)) w ws (StateMachine i true, pc_ctx c))
            as [[[o2 [sm2 cx2]] tr2] l2].
          cbn [fst snd] in E1, R. injection E1; intros; subst.
          pose proof (@DropProofs.exec_erases (sync F) stack AwaitableMode (@OpHandle (sync F) (pc_event c) (pc_ctx c))
                      (with_schedule F (StateMachine i true) (w, ws)) _ _ _ _
                      (f_equal (fun r => let '(out, s', cx', tr) := r in (out, s', Some cx', tr)) R)) as X.
          exact (@LifeProofs.exec_lasting (sync F) stack U (fun sh => label (fst sh)) sync_storage AwaitableMode
                        (@OpHandle (sync F) (pc_event c) (pc_ctx c)) _ _ _ _ _ I X).
    - injection E; intros; subst. cbn. auto.
    - injection E; intros; subst. cbn. rewrite Hu. auto.
  Qed.

  Lemma run_drops ops : forall im rs im',
    Forall (use_keeps mark label) ops -> aim_run F stack ops im = (rs, im') ->
    Forall (fun r => fst r <> Some (Abort Diverges)) rs ->
    Permutation (map mark (drops_in (flat_map snd rs)) ++ [mark (state (im_inner im'))])
                (mark (state (im_inner im)) :: map mark (targets_in (flat_map snd rs))) /\
    label (shared_storage (im_inner im')) = label (shared_storage (im_inner im)).
  Proof.
    induction ops as [|o ops IH]; intros im rs im' Hu E Hf; cbn [aim_run] in E.
    - injection E; intros; subst. cbn. auto.
    - destruct (aim_exec F stack o im) as [[out im1] tr] eqn:E1.
      destruct (aim_run F stack ops im1) as [rest im2] eqn:E2. injection E; intros; subst.
      inversion Hu as [|? ? Ho Hu']; subst. inversion Hf as [|? ? N Hf']; subst. cbn [fst] in N.
      destruct (@use_drops o im out im1 tr Ho E1 N) as [P1 L1]. destruct (IH im1 rest im' Hu' E2 Hf') as [P2 L2].
      cbn [flat_map snd]. rewrite DropProofs.drops_in_app, DropProofs.targets_in_app, !map_app.
      split; [|congruence]. rewrite <- app_assoc, P2.
      change (mark (state (im_inner im1)) :: map mark (targets_in (flat_map snd rest))) with
        ([mark (state (im_inner im1))] ++ map mark (targets_in (flat_map snd rest))).
      rewrite app_assoc, P1. reflexivity.
  Qed.

  Lemma init_drive w ws i cx :
    let '(o, s, tr, l) := drive (a_inner_init F stack) w ws (state i, shared_storage i, cx) in
    o <> Some (Abort Diverges) ->
    mark (fst (fst s)) = mark (state i) /\ label (snd (fst s)) = label (shared_storage i) /\
    @targets_in m (map Did tr) = [].
  Proof.
    pose proof (init_agrees F stack w ws i cx) as A.
    destruct (drive (a_inner_init F stack) w ws (state i, shared_storage i, cx)) as [[[o s] tr] l].
    intros N. pose proof (@PollProofs.init_runs World m F stack w ws (StateMachine i false) cx) as R.
    rewrite A in R. cbn [fst snd] in R.
    set (sm1 := StateMachine (inner_of m s) (match o with Some (Ret _) => true | _ => false end)) in R.
    assert (X : exec stack AwaitableMode (@OpInit (sync F) cx) (with_schedule F (StateMachine i false) (w, ws)) =
                (PollProofs.ending o, with_schedule F sm1 l, Some (snd s), map (to_sync F) tr)).
    { cbn [exec]. rewrite R. reflexivity. }
    assert (Xd : exec_d stack AwaitableMode (@OpInit (sync F) cx) (with_schedule F (StateMachine i false) (w, ws)) =
                (PollProofs.ending o, with_schedule F sm1 l, Some (snd s), map Did (map (to_sync F) tr))).
    { unfold exec_d. rewrite X. reflexivity. }
    assert (V : @unwound (PollProofs.ending o)).
    { unfold unwound. destruct o as [[[]|[]]|]; cbn; try discriminate. intros _. now apply N. }
    destruct (@DropProofs.exec_drops (sync F) stack T mark (@DropPollProofs.sync_keeps World m F T mark Hk) AwaitableMode
                (@OpInit (sync F) cx) _ _ _ _ _ I Xd V) as (t & ds & Et & L & _ & P & _).
    assert (D : ds = []).
    { apply (f_equal (@drops_in (sync F))) in Et.
      rewrite DropProofs.drops_in_app, !DropProofs.drops_in_did, DropProofs.drops_in_dropped in Et. now symmetry. }
    subst ds. cbn [length] in L. symmetry in L. apply length_zero_iff_nil in L.
    rewrite L in P. cbn in P. apply Permutation_length_1 in P.
    split; [exact P|]. split.
    - exact (@LifeProofs.exec_lasting (sync F) stack U (fun sh => label (fst sh)) sync_storage AwaitableMode
               (@OpInit (sync F) cx) _ _ _ _ _ I X).
    - rewrite <- (DropPollProofs.targets_log F), DropPollProofs.log_did. exact L.
  Qed.

  Definition same_marks (i i' : inner m) : Prop :=
    mark (state i') = mark (state i) /\ label (shared_storage i') = label (shared_storage i).

  Lemma init_drops um polls cx o cx' evs :
    iexecute (a_um_init F stack um) polls cx = (o, cx', evs) -> o <> Some (Abort Diverges) ->
    exists t, @targets_in m (map Did t) = [] /\
    match o with
    | Some (Ret im) => evs = as_life (map Did t) /\ same_marks (um_inner um) (im_inner im)
    | _ => exists i', evs = as_life (map Did t) ++ drop_inner i' /\ same_marks (um_inner um) i'
    end.
  Proof.
    destruct polls as [|w ws]; cbn [iexecute].
    - intros E _. injection E; intros; subst. exists []. split; [reflexivity|].
      exists (um_inner um). split; [reflexivity|split; reflexivity].
    - unfold a_um_init. rewrite idrive_running. pose proof (init_drive w ws (um_inner um) cx) as G.
      destruct (drive (a_inner_init F stack) w ws _) as [[[[[[]|y]|] s] tr] l]; cbn [fst]; intros E N;
        injection E; intros; subst.
      + destruct G as (M & L & Tr); [discriminate|]. exists tr. split; [exact Tr|]. split; [reflexivity|]. split; assumption.
      + assert (Y : y <> Diverges) by (intros ->; now apply N).
        destruct G as (M & L & Tr); [congruence|]. exists tr. split; [exact Tr|].
        exists (inner_of m s). split; [destruct y; try reflexivity; now contradiction Y|split; assumption].
      + destruct G as (M & L & Tr); [discriminate|]. exists tr. split; [exact Tr|].
        exists (inner_of m s). split; [reflexivity|split; assumption].
  Qed.

  Lemma pre_marks pre : forall um, Forall (pre_keeps mark label) pre ->
    same_marks (um_inner um) (um_inner (fold_left (fun u o => um_exec o u) pre um)).
  Proof.
    induction pre as [|o pre IH]; intros um Hp; [split; reflexivity|].
    inversion Hp as [|? ? Ho Hp']; subst. cbn [fold_left]. destruct (IH (um_exec o um) Hp') as [M L].
    unfold same_marks. rewrite M, L. destruct o as [f|f]; cbn in Ho |- *; auto.
  Qed.

  Lemma plain_life (l : list (event_of m)) : flat_map (@plain_event m) (as_life l) = l.
  Proof. apply LifeProofs.plain_events. Qed.
  Lemma life_storages (l : list (event_of m)) : storages_dropped (as_life l) = [].
  Proof. induction l as [|e l IH]; [reflexivity|exact IH]. Qed.
  Lemma storages_app (a b : list (life_event m)) :
    storages_dropped (a ++ b) = storages_dropped a ++ storages_dropped b.
  Proof. apply flat_map_app. Qed.
  Lemma states_app (a b : list (life_event m)) :
    states_dropped (a ++ b) = states_dropped a ++ states_dropped b.
  Proof. unfold states_dropped. rewrite flat_map_app. apply DropProofs.drops_in_app. Qed.
  Lemma targets_app (a b : list (life_event m)) :
    targets_asked (a ++ b) = targets_asked a ++ targets_asked b.
  Proof. unfold targets_asked. rewrite flat_map_app. apply DropProofs.targets_in_app. Qed.
  Lemma states_life (l : list (event_of m)) : states_dropped (as_life l) = drops_in l.
  Proof. unfold states_dropped. now rewrite plain_life. Qed.
  Lemma targets_life (l : list (event_of m)) : targets_asked (as_life l) = targets_in l.
  Proof. unfold targets_asked. now rewrite plain_life. Qed.

  Lemma life_drops pre init ops um outs evs :
    Forall (pre_keeps mark label) pre -> Forall (use_keeps mark label) ops ->
    aum_life F stack pre init ops um = (outs, evs) ->
    Forall (fun o => o <> Some (Abort Diverges)) outs ->
    Permutation (map mark (states_dropped evs)) (mark (state (um_inner um)) :: map mark (targets_asked evs)) /\
    map label (storages_dropped evs) = [label (shared_storage (um_inner um))].
  Proof.
    intros Hpre Hops. unfold aum_life. destruct (pre_marks um Hpre) as [M L].
    set (um1 := fold_left _ pre um) in *. intros E Hf. rewrite <- M, <- L. clear M L.
    destruct init as [[cx polls]|].
    2: { injection E; intros; subst. cbn. auto. }
    destruct (iexecute (a_um_init F stack um1) polls cx) as [[o cx'] tr] eqn:Ei.
    pose proof (@init_drops um1 polls cx o cx' tr Ei) as G.
    assert (Gone : forall t i', @targets_in m (map Did t) = [] -> same_marks (um_inner um1) i' ->
      Permutation (map mark (states_dropped (as_life (map Did t) ++ drop_inner i')))
        (mark (state (um_inner um1)) :: map mark (targets_asked (as_life (map Did t) ++ drop_inner i'))) /\
      map label (storages_dropped (as_life (map Did t) ++ drop_inner i')) = [label (shared_storage (um_inner um1))]).
    { intros t i' Ht [M L]. rewrite states_app, targets_app, storages_app, states_life, targets_life, life_storages.
      rewrite DropProofs.drops_in_did, Ht. cbn. rewrite M, L. auto. }
    destruct o as [[im|y]|].
    - destruct (aim_run F stack ops im) as [rs im'] eqn:Er. injection E; intros; subst.
      inversion Hf as [|? ? _ Hf']; subst.
      destruct G as (t & Ht & -> & M & L); [discriminate|].
      assert (Hf2 : Forall (fun r : option (outcome unit) * list (event_of m) => fst r <> Some (Abort Diverges)) rs).
      { apply Forall_forall. intros r Hin. rewrite Forall_forall in Hf'. apply Hf', in_map, Hin. }
      destruct (@run_drops ops im rs im' Hops Er Hf2) as [P2 L2].
      rewrite !states_app, !targets_app, !storages_app, !states_life, !targets_life, !life_storages.
      rewrite DropProofs.drops_in_did, Ht. cbn [app drop_inner states_dropped targets_asked storages_dropped
        flat_map plain_event drops_in targets_in drop_in target_in map].
      split; [|cbn; now rewrite L2, L].
      rewrite app_nil_r, map_app. rewrite <- M. exact P2.
    - injection E; intros; subst. inversion Hf as [|? ? N _]; subst.
      destruct G as (t & Ht & i' & -> & S); [congruence|]. exact (Gone t i' Ht S).
    - injection E; intros; subst. destruct G as (t & Ht & i' & -> & S); [discriminate|]. exact (Gone t i' Ht S).
  Qed.
End Once.

(** ** The two-step machine against the one-step machine *)
Section Lives.
  Variable World : Type.
  Variable m : machine.
  Variable F : futures World m.
  Variable stack : nat.

  Lemma uses_agree ops : forall im,
    let '(rs, im') := aim_run F stack ops im in
    asm_life F stack (map (@use_as World m) ops) (StateMachine (im_inner im) true) =
    (map fst rs, as_life (flat_map snd rs) ++ drop_inner (im_inner im')).
  Proof.
    induction ops as [|o ops IH]; intros im; [reflexivity|].
    cbn [aim_run map asm_life].
    assert (S : let '(out, im1, tr) := aim_exec F stack o im in
                asm_exec F stack (use_as o) (StateMachine (im_inner im) true) =
                (out, StateMachine (im_inner im1) true, tr)).
    { destruct o as [c|f|f]; cbn [aim_exec use_as asm_exec]; [|reflexivity|reflexivity].
      destruct im as [i]. cbn [im_inner].
      pose proof (@handle_executes World m F stack (pc_event c) (pc_polls c) i (pc_ctx c)) as H.
      destruct (oexecute (o_handle_with_context F stack (pc_event c)) (pc_polls c) (StateMachine i true, pc_ctx c))
        as [[out [sm1 cx1]] tr].
      destruct H as [-> Hi]. destruct sm1 as [i1 b1]. cbn in Hi. subst b1. reflexivity. }
    destruct (aim_exec F stack o im) as [[out im1] tr]. rewrite S.
    specialize (IH im1). destruct (aim_run F stack ops im1) as [rs im']. rewrite IH.
    cbn [map fst snd flat_map]. unfold as_life. now rewrite map_app, <- app_assoc.
  Qed.

  Lemma init_executes polls i cx :
    let '(o, (sm1, cx1), tr) := oexecute (o_init_with_context F stack) polls (StateMachine i false, cx) in
    iexecute (a_um_init F stack (UninitializedMachine i)) polls cx =
    match o with
    | Some (Ret _) => (Some (Ret (InitializedMachine (sm_inner sm1))), cx1, as_life tr)
    | Some (Abort Diverges) => (Some (Abort Diverges), cx1, as_life tr)
    | Some (Abort y) => (Some (Abort y), cx1, as_life tr ++ drop_inner (sm_inner sm1))
    | None => (None, cx1, as_life tr ++ drop_inner (sm_inner sm1))
    end /\ (forall x, o = Some (Ret x) -> initialized sm1 = true).
  Proof.
    destruct polls as [|w ws]; cbn [oexecute iexecute]; [split; [reflexivity|discriminate]|].
    unfold o_init_with_context, a_um_init. rewrite DropPollProofs.odrive_plain, idrive_running.
    cbn [um_inner].
    pose proof (@init_agrees World m F stack w ws i cx) as A.
    destruct (drive (a_inner_init F stack) w ws (state i, shared_storage i, cx)) as [[[o s] tr] l].
    rewrite A. cbn [fst]. split.
    - destruct o as [[[]|[]]|]; cbn; rewrite ?app_nil_r; reflexivity.
    - intros x ->. reflexivity.
  Qed.

  Lemma writes_agree pre ops : forall um,
    asm_life F stack (map (@before_as World m) pre ++ ops) (StateMachine (um_inner um) false) =
    let '(outs, evs) := asm_life F stack ops (StateMachine (um_inner (fold_left (fun u o => um_exec o u) pre um)) false) in
    (map (fun _ => Some (Ret tt)) pre ++ outs, evs).
  Proof.
    induction pre as [|o pre IH]; intros um; cbn [map app fold_left].
    - now destruct (asm_life F stack ops _).
    - cbn [asm_life].
      assert (S : asm_exec F stack (before_as World o) (StateMachine (um_inner um) false) =
                  (Some (Ret tt), StateMachine (um_inner (um_exec o um)) false, [])).
      { destruct o as [f|f]; reflexivity. }
      rewrite S, IH. now destruct (asm_life F stack ops _).
  Qed.

  Lemma life_agrees pre init ops um outs evs :
    aum_life F stack pre init ops um = (outs, evs) ->
    Forall (fun o => o <> Some (Abort Diverges)) outs ->
    asm_life F stack
      (map (@before_as World m) pre ++
       match init, outs with
       | None, _ => []
       | Some (cx, polls), Some (Ret _) :: _ => SInit m cx polls :: map (@use_as World m) ops
       | Some (cx, polls), _ => [SInit m cx polls]
       end) (StateMachine (um_inner um) false) =
    (map (fun _ => Some (Ret tt)) pre ++ outs, evs).
  Proof.
    intros E Hf. rewrite writes_agree. unfold aum_life in E.
    set (um1 := fold_left _ pre um) in *. destruct init as [[cx polls]|].
    2: { injection E; intros; subst. reflexivity. }
    destruct um1 as [i]. cbn [um_inner] in *.
    pose proof (init_executes polls i cx) as A.
    destruct (oexecute (o_init_with_context F stack) polls (StateMachine i false, cx)) as [[o [sm1 cx1]] tr] eqn:Eo.
    destruct A as [A Ai]. rewrite A in E.
    assert (Stop : forall z, asm_life F stack [SInit m cx polls] (StateMachine i false) = z ->
              z = ([o], map Ev tr ++ drop_inner (sm_inner sm1))).
    { intros z <-. cbn [asm_life asm_exec]. rewrite Eo. reflexivity. }
    destruct o as [[[]|y]|].
    - destruct (aim_run F stack ops (InitializedMachine (sm_inner sm1))) as [rs im'] eqn:Er.
      injection E; intros; subst outs evs. cbn [asm_life asm_exec]. rewrite Eo.
      pose proof (uses_agree ops (InitializedMachine (sm_inner sm1))) as U. rewrite Er in U. cbn [im_inner] in U.
      assert (Es : sm1 = StateMachine (sm_inner sm1) true).
      { destruct sm1 as [i1 b]. specialize (Ai tt eq_refl). cbn in Ai. now subst. }
      rewrite Es at 1. rewrite U. reflexivity.
    - assert (X : (outs, evs) = ([Some (Abort y)], as_life tr ++ drop_inner (sm_inner sm1))).
      { destruct y; rewrite <- E; try reflexivity. exfalso.
        injection E; intros; subst. inversion Hf as [|? ? N _]; subst. now apply N. }
      injection X; intros; subst. rewrite (Stop _ eq_refl). reflexivity.
    - injection E; intros; subst. rewrite (Stop _ eq_refl). reflexivity.
  Qed.
End Lives.
