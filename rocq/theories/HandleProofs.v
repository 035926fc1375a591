(** HandleProofs.v — statements about one API call, in the form the property files use. *)

From Coq Require Import List Bool Arith Lia.
From Verif Require Import Machine Blocking Awaitable Api Spec TripleProofs ShapeProofs
  DispatchProofs TransitionProofs ApiProofs RouteProofs HistoryProofs TotalProofs.
Import ListNotations.
Set Implicit Arguments.

Section Handle.
  Variable h : hierarchy.
  Variable m : machine.
  Variable stack : nat.
  Hypothesis W : well_formed h m stack.
  Variable md : mode.

  (** *** C01, for initialized and uninitialized machines *)

  Lemma upward_NoDup s ps : upward h s ps -> NoDup ps.
  Proof.
    intros (l & Hc & ->). assert (Hp : path h s (map AtSuper (rev l) ++ [AtState s])) by (exists l; auto).
    apply path_NoDup in Hp. apply NoDup_rev in Hp.
    rewrite rev_app_distr in Hp. simpl in Hp. now rewrite <- map_rev, rev_involutive in Hp.
  Qed.

  Lemma upward_exists s : exists ps, upward h s ps.
  Proof.
    destruct (path_exists W s) as [p (l & Hc & _)]. exists (AtState s :: map AtSuper l).
    exists l. auto.
  Qed.

  Lemma init_no_handlers (sm : state_machine m) cx t :
    handler_calls (calls (a_tr (init_with_context stack md sm cx) ++ t)) = handler_calls (calls t).
  Proof.
    destruct (initialized sm) eqn:Ei.
    - rewrite init_idempotent by exact Ei. reflexivity.
    - destruct (api_init_run W md sm cx Ei) as (p & _ & _ & Ho & _).
      rewrite calls_app. apply handler_calls_skip. now apply only_acts_no_handler.
  Qed.

  Lemma init_keeps_variant (sm : state_machine m) cx :
    s_disc m (sm_state (a_machine (init_with_context stack md sm cx))) = s_disc m (sm_state sm).
  Proof.
    destruct (initialized sm) eqn:Ei.
    - rewrite init_idempotent by exact Ei. reflexivity.
    - now destruct (api_init_run W md sm cx Ei) as (p & _ & Hd & _).
  Qed.

  Lemma dispatch_order (sm : state_machine m) e cx :
    let r := handle_with_context stack md sm e cx in
    let hc := handler_calls (calls (a_tr r)) in
    exists ps, upward h (s_disc m (sm_state sm)) ps /\ NoDup ps /\
      prefix (map (fun c => fst (fst c)) hc) ps /\
      (forall c, In c hc -> snd (fst c) = e) /\
      (forall c, In c (removelast hc) -> snd c = Some Super) /\
      (a_out r = Ret tt ->
       exists vis a, answers ps vis a /\ hc = map (fun v => (fst v, e, Some (snd v))) vis).
  Proof.
    intros r hc. subst r. assert (Hr := handle_is_init_then_handle stack md sm e cx).
    unfold and_then in Hr. destruct (a_out (init_with_context stack md sm cx)) as [[]|w] eqn:Ei.
    - pose proof (init_initializes _ _ _ _ Ei) as Hi.
      destruct (handle_dispatch_order W md (a_machine (init_with_context stack md sm cx)) e
                  (a_cx (init_with_context stack md sm cx)) Hi) as (ps & Hup & Hpre & Hev & Hsup & Hret).
      rewrite init_keeps_variant in Hup. subst hc. rewrite Hr. simpl a_tr. simpl a_out.
      rewrite init_no_handlers. exists ps. pose proof (upward_NoDup Hup). auto 7.
    - destruct (upward_exists (s_disc m (sm_state sm))) as [ps Hup]. exists ps.
      subst hc. rewrite Hr. rewrite <- (app_nil_r (a_tr _)), init_no_handlers. simpl.
      repeat split; eauto using upward_NoDup; try (intros c []).
      + now exists ps.
      + rewrite Ei. discriminate.
  Qed.

  (** *** C04, C05 *)

  Lemma transition_minimal (sm : state_machine m) e cx p target ps pt :
    initialized sm = true ->
    let r := handle_with_context stack md sm e cx in
    asks_for (a_tr r) p e target -> a_out r = Ret tt ->
    s_disc m (sm_state sm) <> s_disc m target ->
    path h (s_disc m (sm_state sm)) ps -> path h (s_disc m target) pt ->
    replay ps (acts (a_tr r)) pt /\
    (forall walk, replay ps walk pt -> length (acts (a_tr r)) <= length walk) /\
    NoDup (map act_place (acts (a_tr r))) /\
    (forall q, In q ps -> In q pt -> ~ In q (map act_place (acts (a_tr r)))).
  Proof.
    intros Hi r Hin Eo Hne Hps Hpt.
    destruct (handle_transition_route W md sm e cx p e target Hi Hin) as (full & Hr & _ & Hret).
    fold r in Hret. destruct (Hret Eo) as [-> _].
    split; [eapply route_replay; eauto|]. split; [intros walk Hw; eapply route_minimal; eauto|].
    split; [eapply route_no_repeat; eauto|]. intros q H1 H2. eapply route_spares_shared; eauto.
  Qed.

  Lemma self_transition (sm : state_machine m) e cx p target :
    initialized sm = true ->
    let r := handle_with_context stack md sm e cx in
    asks_for (a_tr r) p e target -> s_disc m (sm_state sm) = s_disc m target ->
    prefix (acts (a_tr r)) [Exit (AtState (s_disc m target)); Enter (AtState (s_disc m target))] /\
    (a_out r = Ret tt ->
     acts (a_tr r) = [Exit (AtState (s_disc m target)); Enter (AtState (s_disc m target))]).
  Proof.
    intros Hi r Hin He.
    destruct (handle_transition_route W md sm e cx p e target Hi Hin) as (full & Hr & Hpre & Hret).
    fold r in Hret, Hpre. rewrite He in Hr.
    destruct Hr as [[_ ->]|[Hne _]]; [|contradiction]. split; [exact Hpre|].
    intros Eo. now apply Hret.
  Qed.

  (** *** C14 *)

  Lemma rounds_tight (e : Event m) vis : tightly_bracketed (rounds e vis).
  Proof.
    induction vis as [|[p r] vis IH]; [constructor|]. cbn [rounds]. now constructor.
  Qed.

  Lemma tight_bracketed (l : list (call m)) : tightly_bracketed l -> bracketed l.
  Proof.
    induction 1; [constructor|]. apply (bracketed_call p e r (bracketed_nil m)). assumption.
  Qed.

  Lemma nested_bracketed (e : Event m) vis : bracketed (nested e vis).
  Proof.
    induction vis as [|[p r] vis IH]; [constructor|]. cbn [nested].
    pose proof (bracketed_call p e r IH (bracketed_nil m)) as H. now rewrite app_nil_r in H.
  Qed.

  Lemma dispatch_log_bracketed (e : Event m) vis : bracketed (dispatch_log m e md vis).
  Proof.
    destruct md; simpl; [|apply tight_bracketed, rounds_tight].
    destruct vis as [|[p r] vis]; [constructor|].
    apply (bracketed_call p e r (bracketed_nil m)), nested_bracketed.
  Qed.

  (** No dispatch hook, no handler. *)
  Definition undispatchy (o : obs m) : bool := negb (is_dispatch_hook o || is_handler o).

  Lemma only_acts_undispatchy (t : list (obs m)) : only_acts t -> forallb undispatchy t = true.
  Proof.
    unfold only_acts. intros H. apply forallb_forall. intros o Ho.
    rewrite forallb_forall in H. specialize (H o Ho). now destruct o.
  Qed.

  Lemma trans_run_undispatchy (x t : State m) exs ens o x1 tr :
    trans_run md x t exs ens o x1 tr -> forallb undispatchy tr = true.
  Proof.
    assert (B : undispatchy (mode_before m md x t) = true) by (now destruct md).
    intros H; inversion H; subst; cbn [forallb]; rewrite B; cbn [andb]; auto;
      rewrite ?forallb_app; rewrite ?only_acts_undispatchy by assumption; reflexivity.
  Qed.

  Lemma dispatch_hooks (sm : state_machine m) e cx :
    initialized sm = true ->
    let r := handle_with_context stack md sm e cx in
    exists t1 t2 full,
      a_tr r = t1 ++ t2 /\ forallb undispatchy t2 = true /\
      prefix (calls t1) full /\ bracketed full /\
      (md = AwaitableMode -> tightly_bracketed full) /\
      (a_out r = Ret tt \/ t2 <> [] -> calls t1 = full).
  Proof.
    intros Hi r. pose proof (api_handle_run W md sm e cx Hi) as H. cbv zeta in H. fold r in H.
    assert (Ht : forall vis, md = AwaitableMode -> tightly_bracketed (dispatch_log m e md vis)).
    { intros vis ->. apply rounds_tight. }
    inversion H as [w x1 t ps vis a Hu Hd Hn Hup Hans Hpre Eo Ex Et
                   |x1 t ps vis a Hd Hup Hans Hnt Hc Eo Ex Et
                   |o x0 x1 t t' ps vis target exs ens Hd0 Hup Hans Ht0 Hlegs Htr Eo Ex Et]; subst.
    - exists (a_tr r), [], (dispatch_log m e md vis). rewrite app_nil_r.
      repeat split; auto using dispatch_log_bracketed. intros [?|?]; congruence.
    - exists (a_tr r), [], (dispatch_log m e md vis). rewrite app_nil_r. rewrite Hc.
      repeat split; auto using dispatch_log_bracketed. now exists []; rewrite app_nil_r.
    - exists t, t', (dispatch_log m e md vis). rewrite Ht0.
      repeat split; auto using dispatch_log_bracketed.
      + eapply trans_run_undispatchy; eauto.
      + now exists []; rewrite app_nil_r.
  Qed.

  (** *** C13 *)

  Definition unhooky (o : obs m) : bool := negb (is_transition_hook o).

  Lemma only_acts_unhooky (t : list (obs m)) : only_acts t -> forallb unhooky t = true.
  Proof.
    unfold only_acts. intros H. apply forallb_forall. intros o Ho.
    rewrite forallb_forall in H. specialize (H o Ho). now destruct o.
  Qed.

  Lemma dispatchy_unacted (t : list (obs m)) : Forall (@dispatchy m) (calls t) ->
    forallb (fun o => negb (is_transition_hook o || is_action o)) t = true.
  Proof.
    intros H. apply forallb_forall. intros o Ho. unfold calls in H. rewrite Forall_map in H.
    rewrite Forall_forall in H. specialize (H o Ho). now destruct o.
  Qed.

  (** [shape]: where the transition hooks are in a log. *)
  Lemma transition_hooks (sm : state_machine m) e cx :
    initialized sm = true ->
    let r := handle_with_context stack md sm e cx in
    exists t1 t2,
      a_tr r = t1 ++ t2 /\
      forallb (fun o => negb (is_transition_hook o || is_action o)) t1 = true /\
      ((t2 = [] /\ (a_out r = Ret tt -> no_transition_answer (a_tr r))) \/
       (exists p target a b t3,
          In (p, e, Some (Transition target)) (handler_calls (calls t1)) /\
          ((t2 = OBeforeTransition a b :: t3 /\ a_out r <> Ret tt) \/
           (exists a' b', t2 = OBeforeTransition a b :: t3 ++ [OAfterTransition a' b'])) /\
          forallb (@is_action m) t3 = true)).
  Proof.
    intros Hi r. pose proof (api_handle_run W md sm e cx Hi) as H. cbv zeta in H. fold r in H.
    assert (Hdl : forall vis, Forall (@dispatchy m) (dispatch_log m e md vis))
      by (intros; apply dispatch_log_dispatchy).
    inversion H as [w x1 t ps vis a Hu Hd Hn Hup Hans Hpre Eo Ex Et
                   |x1 t ps vis a Hd Hup Hans Hnt Hc Eo Ex Et
                   |o x0 x1 t t' ps vis target exs ens Hd0 Hup Hans Ht0 Hlegs Htr Eo Ex Et]; subst.
    - exists (a_tr r), []. rewrite app_nil_r. split; [reflexivity|]. split.
      + apply dispatchy_unacted. eapply Forall_prefix; eauto.
      + left. split; [reflexivity|]. congruence.
    - exists (a_tr r), []. rewrite app_nil_r. split; [reflexivity|]. split.
      + apply dispatchy_unacted. rewrite Hc. apply Hdl.
      + left. split; [reflexivity|]. intros _ p e' s Hin. rewrite Hc in Hin.
        rewrite <- (app_nil_r (dispatch_log _ _ _ _)), handler_calls_log in Hin.
        simpl in Hin. rewrite app_nil_r in Hin.
        destruct (@cut_transition m e (map (answered m e) vis) ps vis a s (cut_full m e vis) Hans p e' Hin)
          as [Ha _]. exact (Hnt s Ha).
    - exists t, t'. split; [reflexivity|]. split.
      + apply dispatchy_unacted. rewrite Ht0. apply Hdl.
      + right. destruct (answers_in Hans) as [p Hp].
        assert (Hin : In (p, e, Some (Transition target)) (handler_calls (calls t))).
        { rewrite Ht0, <- (app_nil_r (dispatch_log _ _ _ _)), handler_calls_log. simpl.
          rewrite app_nil_r. apply (in_map (answered m e)) in Hp. exact Hp. }
        assert (B : exists a b, mode_before m md x0 target = OBeforeTransition a b)
          by (destruct md; simpl; eauto).
        destruct B as (a & b & B).
        inversion Htr as [w Hu E1 E2 E3|w y t1 Hu Hd Hn Ho Hpre E1 E2 E3
                         |w y t1 t2 Hu Hd Ho1 Ha1 Hn Ho2 Hpre E1 E2 E3
                         |o' y0 y t1 t2 Hu Hd1 Hd2 Ho1 Ha1 Ho2 Ha2 E1 E2 E3]; subst; rewrite B.
        * exists p, target, a, b, []. repeat split; auto. left; split; [reflexivity|congruence].
        * exists p, target, a, b, t1. repeat split; auto. left; split; [reflexivity|congruence].
        * exists p, target, a, b, (t1 ++ t2). repeat split; auto.
          { left; split; [reflexivity|congruence]. }
          rewrite forallb_app. apply andb_true_intro. split; assumption.
        * exists p, target, a, b, (t1 ++ t2). repeat split; auto.
          { right. exists y0, (sm_state (a_machine r)). now rewrite app_assoc. }
          rewrite forallb_app. apply andb_true_intro. split; assumption.
  Qed.

  (** *** C18 *)

  Lemma only_acts_last (t1 : list (obs m)) t ps (f : place -> act) :
    t1 <> [] -> only_acts t1 -> prefix (acts t1) (map f ps) ->
    exists t' o, t ++ t1 = t' ++ [o] /\ exists p, act_of o = [f p].
  Proof.
    intros Hn Ho Hpre. destruct (exists_last Hn) as (t' & o & ->).
    exists (t ++ t'), o. split; [now rewrite app_assoc|].
    unfold only_acts in Ho. rewrite forallb_app in Ho. apply andb_prop in Ho as [_ Ho].
    simpl in Ho. destruct Hpre as [z Hz]. rewrite acts_app in Hz.
    assert (Hs : exists b, act_of o = [b]) by (destruct o; simpl in *; try discriminate; eauto).
    destruct Hs as [b Hb]. simpl in Hz. rewrite Hb in Hz. simpl in Hz.
    assert (Hin : In b (map f ps)).
    { rewrite Hz. rewrite !in_app_iff. left. right. now left. }
    apply in_map_iff in Hin as (p & Hp & _). exists p. now rewrite Hb, Hp.
  Qed.

  Lemma abort_point (sm : state_machine m) e cx w :
    initialized sm = true ->
    let r := handle_with_context stack md sm e cx in
    a_out r = Abort w ->
    (w = Panicked \/ w = DroppedFuture) /\
    exists t o, a_tr r = t ++ [o] /\
      match o with
      | OEnter _ | OAfterTransition _ _ =>
          exists p target, In (p, e, Some (Transition target)) (handler_calls (calls (a_tr r))) /\
            s_disc m (sm_state (a_machine r)) = s_disc m target
      | _ => s_disc m (sm_state (a_machine r)) = s_disc m (sm_state sm)
      end.
  Proof.
    intros Hi r Eo. split.
    { pose proof (api_handle_user W md sm e cx Eo) as Hu. destruct w; simpl in Hu; auto; contradiction. }
    pose proof (api_handle_run W md sm e cx Hi) as H. cbv zeta in H. fold r in H.
    rewrite Eo in H.
    inversion H as [w' x1 t ps vis a Hu Hd Hn Hup Hans Hpre E1 E2 E3
                   |x1 t ps vis a Hd Hup Hans Hnt Hc E1 E2 E3
                   |o x0 x1 t t' ps vis target exs ens Hd0 Hup Hans Ht0 Hlegs Htr E1 E2 E3]; subst.
    - destruct (exists_last Hn) as (t' & o & E). exists t', o. split; [exact E|].
      assert (Hdo : dispatchy (call_of o)).
      { assert (Hall : Forall (@dispatchy m) (calls (a_tr r))).
        { eapply Forall_prefix; [exact Hpre|]. apply dispatch_log_dispatchy. }
        rewrite E, calls_app in Hall. apply Forall_app in Hall as [_ Hall].
        now inversion Hall. }
      destruct o; simpl in Hdo; try contradiction; assumption.
    - assert (Hin : exists p, In (p, e, Some (Transition target)) (handler_calls (calls (t ++ t')))).
      { destruct (answers_in Hans) as [p Hp]. exists p. rewrite calls_app, Ht0, handler_calls_log.
        apply in_or_app. left. apply (in_map (answered m e)) in Hp. exact Hp. }
      destruct Hin as [p Hin]. destruct Hlegs as (_ & (pe & -> & _) & (pn & -> & _)).
      inversion Htr as [w' Hu E1 E2 E4|w' y t1 Hu Hd Hn Ho Hpre E1 E2 E4
                       |w' y t1 t2 Hu Hd Ho1 Ha1 Hn Ho2 Hpre E1 E2 E4
                       |o' y0 y t1 t2 Hu Hd1 Hd2 Ho1 Ha1 Ho2 Ha2 E1 E2 E4]; subst.
      + exists t, (mode_before m md (sm_state (a_machine r)) target). split; [reflexivity|].
        destruct md; exact Hd0.
      + destruct (@only_acts_last t1 (t ++ [mode_before m md x0 target]) _ _ Hn Ho Hpre) as (t2 & o & E & q & Hq).
        exists t2, o. rewrite <- app_assoc in E. split; [exact E|].
        destruct o; simpl in Hq; try discriminate; congruence.
      + destruct (@only_acts_last t2 (t ++ mode_before m md x0 target :: t1) _ _ Hn Ho2 Hpre)
          as (t3 & o & E & q & Hq).
        exists t3, o. rewrite <- app_assoc in E. split; [exact E|].
        destruct o; simpl in Hq; try discriminate. exists p, target. split; [exact Hin|exact Hd].
      + exists (t ++ mode_before m md x0 target :: t1 ++ t2), (OAfterTransition y0 (sm_state (a_machine r))).
        split; [rewrite <- !app_assoc; simpl; now rewrite <- app_assoc|].
        exists p, target. split; [exact Hin|exact Hd2].
  Qed.
End Handle.
