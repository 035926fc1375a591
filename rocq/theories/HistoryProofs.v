(** HistoryProofs.v — lazy initialization, the two front ends, and whole histories. *)

From Coq Require Import List Bool Arith Lia.
From Verif Require Import Machine Blocking Awaitable Api Spec TripleProofs ShapeProofs
  DispatchProofs TransitionProofs ApiProofs RouteProofs.
Import ListNotations.
Set Implicit Arguments.

(** ** Equations (no assumptions on the machine) *)

Section Equations.
  Variable m : machine.
  Variable stack : nat.
  Variable md : mode.

  Lemma init_idempotent (sm : state_machine m) cx :
    initialized sm = true -> init_with_context stack md sm cx = ApiRes (Ret tt) sm cx [].
  Proof. intros H. unfold init_with_context. now rewrite H. Qed.

  Lemma init_initializes (sm : state_machine m) cx :
    a_out (init_with_context stack md sm cx) = Ret tt ->
    initialized (a_machine (init_with_context stack md sm cx)) = true.
  Proof.
    unfold init_with_context. destruct (initialized sm) eqn:E; simpl; [auto|].
    unfold run_inner. destruct (inner_init _ _ _ _ _ _) as [[[]|w] ? ? ? ?]; simpl; congruence.
  Qed.

  Lemma handle_is_init_then_handle (sm : state_machine m) e cx :
    handle_with_context stack md sm e cx =
    and_then (init_with_context stack md sm cx)
             (fun sm' cx' => handle_with_context stack md sm' e cx').
  Proof.
    unfold and_then, init_with_context.
    destruct (initialized sm) eqn:E.
    - simpl. destruct (handle_with_context stack md sm e cx); reflexivity.
    - unfold handle_with_context at 1. rewrite E. simpl negb. cbv iota.
      destruct (a_out (run_inner (inner_init m stack md) (sm_inner sm) cx)) as [[]|w] eqn:Eo.
      + simpl. unfold handle_with_context. simpl. reflexivity.
      + simpl. reflexivity.
  Qed.

  (** *** The typestate front end *)

  Lemma im_handle_erase (im : initialized_machine m) e cx :
    handle_with_context stack md (erase im) e cx =
    (let r := im_handle_with_context stack md im e cx in
     ApiRes (a_out r) (erase (a_machine r)) (a_cx r) (a_tr r)).
  Proof. reflexivity. Qed.

  Lemma um_init_erase sh cx :
    let sm := new_state_machine m sh in
    let um := new_uninitialized m sh in
    match um_init_with_context stack md um cx with
    | (Ret im, cx', tr) => init_with_context stack md sm cx = ApiRes (Ret tt) (erase im) cx' tr
    | (Abort w, cx', tr) =>
        a_out (init_with_context stack md sm cx) = Abort w /\
        a_cx (init_with_context stack md sm cx) = cx' /\
        a_tr (init_with_context stack md sm cx) = tr
    end.
  Proof.
    unfold um_init_with_context, init_with_context, new_state_machine, new_uninitialized.
    simpl. unfold run_inner. simpl.
    destruct (inner_init m stack md (initial m) sh cx) as [[[]|w] x1 sh1 cx1 t]; simpl; auto.
  Qed.

  Lemma handles_agree (im : initialized_machine m) evs :
    sm_handles stack md (erase im) evs =
    (let '(im', cs) := im_handles stack md im evs in (erase im', cs)).
  Proof.
    revert im; induction evs as [|[e cx] evs IH]; intros im; [reflexivity|].
    cbn [sm_handles im_handles]. rewrite im_handle_erase. cbv zeta.
    cbn [a_machine a_out a_cx a_tr]. rewrite IH.
    destruct (im_handles _ _ _ evs) as [im' cs]. reflexivity.
  Qed.
End Equations.

(** ** Histories *)

Section Histories.
  Variable h : hierarchy.
  Variable m : machine.
  Variable stack : nat.
  Hypothesis W : well_formed h m stack.
  Variable md : mode.

  Let Hf := wf_follows W.
  Let Hs := wf_stable W.
  Let Hh := wf_height W.

  Lemma path_exists s : exists p, path h s p.
  Proof.
    destruct (height_chain (leaf_parent h s) Hh) as (l & Hc & _). eexists. exists l. eauto.
  Qed.

  (** The stack a machine should have. *)
  Definition stack_of (sm : state_machine m) (stk : list place) : Prop :=
    if initialized sm then path h (s_disc m (sm_state sm)) stk else stk = [].

  Lemma api_init_run (sm : state_machine m) cx :
    initialized sm = false ->
    let r := init_with_context stack md sm cx in
    exists p, path h (s_disc m (sm_state sm)) p /\
      s_disc m (sm_state (a_machine r)) = s_disc m (sm_state sm) /\
      only_acts (a_tr r) /\
      match a_out r with
      | Ret _ => acts (a_tr r) = map Enter p /\ initialized (a_machine r) = true
      | Abort w => user w /\ a_tr r <> [] /\ prefix (acts (a_tr r)) (map Enter p) /\
                   initialized (a_machine r) = false
      end.
  Proof.
    intros Hi. unfold init_with_context. rewrite Hi. simpl negb. cbv iota.
    unfold run_inner, sm_state.
    destruct (inner_init m stack md (state (sm_inner sm)) (shared_storage (sm_inner sm)) cx)
      as [o x1 sh1 cx1 t] eqn:E.
    apply (init_run Hf Hs Hh) in E. destruct E as (p & Hp & Ed & Ho & Hr).
    exists p. split; [exact Hp|]. destruct o as [[]|w]; simpl; intuition.
  Qed.

  Lemma init_replay (sm : state_machine m) cx stk :
    stack_of sm stk -> a_out (init_with_context stack md sm cx) = Ret tt ->
    let r := init_with_context stack md sm cx in
    exists stk', stack_of (a_machine r) stk' /\ replay stk (acts (a_tr r)) stk'.
  Proof.
    intros Hst Ho r. unfold stack_of in Hst. destruct (initialized sm) eqn:Ei.
    - subst r. rewrite init_idempotent in * by exact Ei. simpl. exists stk.
      split; [|constructor]. unfold stack_of. now rewrite Ei.
    - destruct (api_init_run sm cx Ei) as (p & Hp & Ed & Hoa & Hr). fold r in Ed, Hoa, Hr.
      fold r in Ho. rewrite Ho in Hr. destruct Hr as (Ha & Hi). exists p. split.
      + unfold stack_of. rewrite Hi, Ed. exact Hp.
      + rewrite Ha, Hst. apply (replay_enters [] p).
  Qed.

  Lemma handle_replay_init (sm : state_machine m) e cx stk :
    initialized sm = true -> stack_of sm stk ->
    a_out (handle_with_context stack md sm e cx) = Ret tt ->
    let r := handle_with_context stack md sm e cx in
    exists stk', stack_of (a_machine r) stk' /\ replay stk (acts (a_tr r)) stk'.
  Proof.
    intros Hi Hst Ho r. pose proof (api_handle_run W md sm e cx Hi) as R. cbv zeta in R. fold r in R.
    pose proof (handle_stays_initialized stack md sm e cx Hi) as Hi'. fold r in Hi'.
    unfold stack_of in *. rewrite Hi in Hst. rewrite Hi'. fold r in Ho. rewrite Ho in R.
    remember (sm_state (a_machine r)) as x1. remember (a_tr r) as tr.
    inversion R; subst.
    - exists stk. split; [congruence|].
      match goal with E : calls _ = _ |- _ => rewrite (dispatch_log_acts _ _ _ _ E) end. constructor.
    - match goal with E : calls t = _ |- _ => rewrite acts_app, (dispatch_log_acts _ _ _ _ E) end.
      match goal with T : trans_run _ _ _ _ _ _ _ _ |- _ =>
        destruct (trans_acts T) as [_ Ha]; inversion T; subst end.
      destruct (path_exists (s_disc m target)) as [p Hp]. exists p. split; [congruence|].
      rewrite (Ha eq_refl). cbn [app].
      match goal with L : legs _ _ _ _ _ |- _ => destruct L as [L _] end.
      eapply route_replay; eauto.
  Qed.

  Lemma handle_replay (sm : state_machine m) e cx stk :
    stack_of sm stk ->
    a_out (handle_with_context stack md sm e cx) = Ret tt ->
    let r := handle_with_context stack md sm e cx in
    exists stk', stack_of (a_machine r) stk' /\ replay stk (acts (a_tr r)) stk'.
  Proof.
    intros Hst Ho r. subst r. rewrite handle_is_init_then_handle in *. unfold and_then in *.
    destruct (a_out (init_with_context stack md sm cx)) as [[]|w] eqn:Ei; [|congruence].
    destruct (init_replay _ _ _ Hst Ei) as (stk1 & Hst1 & R1).
    pose proof (init_initializes _ _ _ _ Ei) as Hi.
    simpl in Ho. destruct (handle_replay_init _ _ _ _ Hi Hst1 Ho) as (stk2 & Hst2 & R2).
    exists stk2. simpl. split; [exact Hst2|]. rewrite acts_app. eapply replay_app; eauto.
  Qed.

  (** An aborted call that was not aborted by an action. *)
  Lemma last_action (t : list (obs m)) :
    t <> [] -> only_acts t ->
    exists t' o, t = t' ++ [o] /\ match o with OExit _ | OEnter _ => True | _ => False end.
  Proof.
    intros Hn Ho. destruct (exists_last Hn) as (t' & o & ->). exists t', o. split; [reflexivity|].
    unfold only_acts in Ho. rewrite forallb_app in Ho. apply andb_prop in Ho as [_ Ho].
    simpl in Ho. destruct o; simpl in Ho; try discriminate; exact I.
  Qed.

  Definition stopped_by_action (o : outcome unit) (tr : list (obs m)) : Prop :=
    o <> Ret tt /\
    exists t' o, tr = t' ++ [o] /\ match o with OExit _ | OEnter _ => True | _ => False end.

  Lemma stopped_app o (t : list (obs m)) t2 :
    o <> Ret tt -> t2 <> [] -> only_acts t2 -> stopped_by_action o (t ++ t2).
  Proof.
    intros Ho Hn H2. split; [exact Ho|]. destruct (last_action Hn H2) as (t' & b & -> & Hb).
    exists (t ++ t'), b. now rewrite app_assoc.
  Qed.

  Lemma init_replay_any (sm : state_machine m) cx stk :
    stack_of sm stk ->
    let r := init_with_context stack md sm cx in
    ~ stopped_by_action (a_out r) (a_tr r) ->
    exists stk', stack_of (a_machine r) stk' /\ replay stk (acts (a_tr r)) stk'.
  Proof.
    intros Hst r Hno. destruct (a_out r) as [[]|w] eqn:Eo; [now apply init_replay|].
    exfalso. apply Hno. destruct (initialized sm) eqn:Ei.
    { subst r. rewrite init_idempotent in Eo by exact Ei. discriminate. }
    destruct (api_init_run sm cx Ei) as (p & _ & _ & Ha & Hr). fold r in Ha, Hr.
    rewrite Eo in Hr. destruct Hr as (_ & Hn & _). rewrite <- (app_nil_l (a_tr r)).
    now apply stopped_app.
  Qed.

  Lemma handle_replay_init_any (sm : state_machine m) e cx stk :
    initialized sm = true -> stack_of sm stk ->
    let r := handle_with_context stack md sm e cx in
    ~ stopped_by_action (a_out r) (a_tr r) ->
    exists stk', stack_of (a_machine r) stk' /\ replay stk (acts (a_tr r)) stk'.
  Proof.
    intros Hi Hst r Hno.
    destruct (a_out r) as [[]|w] eqn:Eo; [now apply handle_replay_init|].
    assert (Hi' : initialized (a_machine r) = true) by (now apply handle_stays_initialized).
    unfold stack_of in *. rewrite Hi in Hst. rewrite Hi'.
    pose proof (api_handle_run W md sm e cx Hi) as Hrun. cbv zeta in Hrun. fold r in Hrun.
    rewrite Eo in Hrun. remember (a_tr r) as tr eqn:Etr in Hno, Hrun |- *. clear Etr.
    inversion Hrun as [w' x1 t ps vis a Hu Hd Hn Hup Hans Hpre | |
                       o x0 x1 t t' ps vis target exs ens Hd0 Hup Hans Ht Hlegs Htr]; subst.
    - exists stk. rewrite Hd. split; [exact Hst|].
      rewrite (dispatch_prefix_acts _ _ _ _ Hpre). constructor.
    - assert (At : acts t = []) by (eapply dispatch_log_acts; eauto).
      inversion Htr as [w' Hu | w' y t1 Hu Hd Hn Ho Hpre | w' y t1 t2 Hu Hd Ho1 Ha1 Hn Ho2 Hpre
                       | o' y0 y t1 t2 Hu Hd1 Hd2 Ho1 Ha1 Ho2 Ha2]; subst.
      + exists stk. rewrite Hd0. split; [exact Hst|]. rewrite acts_app, At, app_nil_l.
        rewrite before_acts. constructor.
      + exfalso. apply Hno.
        change (mode_before m md x0 target :: t1) with ([mode_before m md x0 target] ++ t1) in *.
        rewrite ?app_assoc. apply stopped_app; auto. discriminate.
      + exfalso. apply Hno.
        change (mode_before m md x0 target :: t1 ++ t2)
          with ([mode_before m md x0 target] ++ t1 ++ t2).
        rewrite ?app_assoc. apply stopped_app; auto. discriminate.
      + destruct (path_exists (s_disc m target)) as [p Hp]. exists p. rewrite Hd2.
        split; [exact Hp|]. rewrite acts_app, At, app_nil_l.
        change (mode_before m md x0 target :: t1 ++ t2 ++ [OAfterTransition y0 (sm_state (a_machine r))])
          with ([mode_before m md x0 target] ++ t1 ++ t2 ++ [OAfterTransition y0 (sm_state (a_machine r))]).
        rewrite !acts_app, before_acts. simpl acts at 3. rewrite app_nil_r. simpl app.
        eapply route_replay; eauto. apply (proj1 Hlegs).
  Qed.

  Lemma handle_replay_any (sm : state_machine m) e cx stk :
    stack_of sm stk ->
    let r := handle_with_context stack md sm e cx in
    ~ stopped_by_action (a_out r) (a_tr r) ->
    exists stk', stack_of (a_machine r) stk' /\ replay stk (acts (a_tr r)) stk'.
  Proof.
    intros Hst r Hno. subst r. rewrite handle_is_init_then_handle in *. unfold and_then in *.
    destruct (a_out (init_with_context stack md sm cx)) as [[]|w] eqn:Ei.
    - destruct (init_replay _ _ _ Hst Ei) as (stk1 & Hst1 & R1).
      pose proof (init_initializes _ _ _ _ Ei) as Hi. simpl in Hno |- *.
      destruct (handle_replay_init_any (a_machine (init_with_context stack md sm cx)) e
                  (a_cx (init_with_context stack md sm cx)) stk1 Hi Hst1) as (stk2 & Hst2 & R2).
      { intros (Ho & t' & o & Et & Hx). apply Hno. split; [exact Ho|].
        exists (a_tr (init_with_context stack md sm cx) ++ t'), o. rewrite Et, app_assoc. auto. }
      exists stk2. split; [exact Hst2|]. rewrite acts_app. eapply replay_app; eauto.
    - now apply init_replay_any.
  Qed.

  Lemma history_replay ops sm cs sm' stk :
    history stack md ops sm cs sm' -> Forall (@calm m) ops ->
    Forall (fun c => ~ aborted_in_action c) cs -> stack_of sm stk ->
    exists stk', stack_of sm' stk' /\ replay stk (acts (log_of cs)) stk'.
  Proof.
    intros H; revert stk; induction H as [sm|o ops sm out sm1 cx tr cs sm' E H IH];
      intros stk Hcalm Hc Hst.
    - exists stk. split; [exact Hst|constructor].
    - inversion Hc as [|? ? Ho Hc']; subst. inversion Hcalm as [|? ? Hk Hcalm']; subst.
      assert (G : exists stk', stack_of sm1 stk' /\ replay stk (acts tr) stk').
      { destruct o as [c|e c|f|f]; simpl in E; inversion E; subst.
        - now apply init_replay_any.
        - now apply handle_replay_any.
        - exists stk. split; [exact Hst|constructor].
        - exists stk. split; [|constructor]. unfold stack_of in *. simpl.
          destruct (initialized sm); [|exact Hst]. unfold sm_state in *. simpl in *.
          now rewrite Hk. }
      destruct G as (stk1 & Hst1 & R1).
      destruct (IH stk1 Hcalm' Hc' Hst1) as (stk2 & Hst2 & R2).
      exists stk2. split; [exact Hst2|].
      change (log_of (Called out cx tr :: cs)) with (tr ++ log_of cs).
      rewrite acts_app. eapply replay_app; eauto.
  Qed.

  Lemma completed_not_aborted (cs : list (called m)) :
    completed cs -> Forall (fun c => ~ aborted_in_action c) cs.
  Proof.
    intros H. eapply Forall_impl; [|exact H]. intros c Hc (Hn & _). contradiction.
  Qed.

  Lemma history_from_start_any ops sm cs sm' :
    initialized sm = false -> history stack md ops sm cs sm' -> Forall (@calm m) ops ->
    Forall (fun c => ~ aborted_in_action c) cs ->
    exists stk, (if initialized sm' then path h (s_disc m (sm_state sm')) stk else stk = []) /\
      replay [] (acts (log_of cs)) stk.
  Proof.
    intros Hi H Hk Hc. eapply history_replay; eauto. unfold stack_of. now rewrite Hi.
  Qed.

  Lemma history_from_start ops sm cs sm' :
    initialized sm = false -> history stack md ops sm cs sm' -> Forall (@calm m) ops ->
    completed cs ->
    exists stk, (if initialized sm' then path h (s_disc m (sm_state sm')) stk else stk = []) /\
      replay [] (acts (log_of cs)) stk.
  Proof. intros Hi H Hk Hc. eapply history_from_start_any; eauto. now apply completed_not_aborted. Qed.
End Histories.

(** Concrete histories can be computed. *)
Lemma exec_all_history (m : machine) stack md (ops : list (op m)) : forall sm,
  history stack md ops sm (fst (exec_all stack md ops sm)) (snd (exec_all stack md ops sm)).
Proof.
  induction ops as [|o ops IH]; intros sm; cbn [exec_all]; [constructor|].
  destruct (exec stack md o sm) as [[[out sm1] cx] tr] eqn:E.
  specialize (IH sm1). destruct (exec_all stack md ops sm1) as [cs sm'].
  econstructor; [exact E|exact IH].
Qed.
