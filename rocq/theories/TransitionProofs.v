(** TransitionProofs.v — the shape of transitions, of initialization and of a whole
    `handle`, in both modes. *)

From Coq Require Import List Bool Arith Lia.
From Verif Require Import Machine Blocking Awaitable Api Spec TripleProofs ShapeProofs
  DispatchProofs.
Import ListNotations.
Set Implicit Arguments.

Section Transition.
  Variable h : hierarchy.
  Variable m : machine.
  Hypothesis Hf : follows h m.
  Hypothesis Hs : stable m.
  Variable stack : nat.
  Hypothesis Hh : height_at_most stack h.
  Variable md : mode.

  Definition mode_exit (n : nat) : comp m (State m) unit :=
    match md with
    | BlockingMode => Blocking.state_exit m n
    | AwaitableMode => Awaitable.state_exit m n
    end.
  Definition mode_enter (n : nat) : comp m (State m) unit :=
    match md with
    | BlockingMode => Blocking.state_enter m n
    | AwaitableMode => Awaitable.state_enter m n
    end.
  Definition mode_transition (t : State m) : comp m (State m) unit :=
    match md with
    | BlockingMode => Blocking.transition m stack t
    | AwaitableMode => Awaitable.transition m stack t
    end.
  (** The arguments the library gives to `before_transition`. *)
  Definition mode_before (x t : State m) : obs m :=
    match md with
    | BlockingMode => OBeforeTransition t x
    | AwaitableMode => OBeforeTransition x t
    end.

  Lemma mode_transition_eq t x sh cx :
    mode_transition t x sh cx =
    bind (match md with
          | BlockingMode => before_transition m t x
          | AwaitableMode => before_transition m x t end) (fun _ =>
    bind (lift (Blocking.transition_path m stack x t)) (fun levels =>
    bind (mode_exit (fst levels)) (fun _ =>
    bind (swap_state m t) (fun old =>
    bind (mode_enter (snd levels)) (fun _ =>
    bind self (fun new => after_transition m old new)))))) x sh cx.
  Proof.
    unfold mode_transition, mode_exit, mode_enter. destruct md.
    - unfold Blocking.transition. now rewrite self_bind_run.
    - unfold Awaitable.transition. now rewrite self_bind_run.
  Qed.

  Lemma mode_exit_does n k l : chain h (leaf_parent h k) l -> n <= S (length l) ->
    does (s_disc m) k (mode_exit n) (map Exit (firstn n (upl k l))).
  Proof.
    intros Hc Hn. unfold mode_exit. destruct md.
    - eapply state_exit_does; eauto.
    - eapply aw_state_exit_does; eauto.
  Qed.
  Lemma mode_enter_does n k l : chain h (leaf_parent h k) l -> n <= S (length l) ->
    does (s_disc m) k (mode_enter n) (map Enter (rev (firstn n (upl k l)))).
  Proof.
    intros Hc Hn. unfold mode_enter. destruct md.
    - eapply state_enter_does; eauto.
    - eapply aw_state_enter_does; eauto.
  Qed.

  (** [exs] and [ens] are the exits and entries a transition from [s] to [d] needs. *)
  Definition legs (s d : nat) (exs ens : list act) : Prop :=
    route h s d (exs ++ ens) /\
    (exists ps, exs = map Exit ps /\ ps <> []) /\ (exists ps, ens = map Enter ps /\ ps <> []).

  (** How a transition from state [x] to target [t] can run. *)
  Inductive trans_run (x t : State m) (exs ens : list act)
    : outcome unit -> State m -> list (obs m) -> Prop :=
  | tr_before w : user w -> trans_run x t exs ens (Abort w) x [mode_before x t]
  | tr_exit w x1 t1 :
      user w -> s_disc m x1 = s_disc m x -> t1 <> [] -> only_acts t1 ->
      prefix (acts t1) exs ->
      trans_run x t exs ens (Abort w) x1 (mode_before x t :: t1)
  | tr_enter w x1 t1 t2 :
      user w -> s_disc m x1 = s_disc m t -> only_acts t1 -> acts t1 = exs ->
      t2 <> [] -> only_acts t2 -> prefix (acts t2) ens ->
      trans_run x t exs ens (Abort w) x1 (mode_before x t :: t1 ++ t2)
  | tr_after o x0 x1 t1 t2 :
      (forall w, o = Abort w -> user w) ->
      s_disc m x0 = s_disc m x -> s_disc m x1 = s_disc m t ->
      only_acts t1 -> acts t1 = exs -> only_acts t2 -> acts t2 = ens ->
      trans_run x t exs ens o x1 (mode_before x t :: t1 ++ t2 ++ [OAfterTransition x0 x1]).

  Lemma does_run {X A} (d : X -> nat) (c : comp m X A) l x sh cx o x1 sh1 cx1 t :
    does d (d x) c l -> c x sh cx = Res o x1 sh1 cx1 t ->
    d x1 = d x /\ only_acts t /\
    match o with Ret _ => acts t = l | Abort w => user w /\ t <> [] /\ prefix (acts t) l end.
  Proof.
    intros Hd E. specialize (Hd x sh cx eq_refl). cbv zeta in Hd. rewrite E in Hd.
    simpl in Hd. destruct o; intuition.
  Qed.

  Lemma transition_path_legs x t :
    exists l1 l2 i j,
      chain h (leaf_parent h (s_disc m x)) l1 /\ chain h (leaf_parent h (s_disc m t)) l2 /\
      i <= S (length l1) /\ j <= S (length l2) /\
      Blocking.transition_path m stack x t = Ret (i, j) /\
      legs (s_disc m x) (s_disc m t) (map Exit (firstn i (upl (s_disc m x) l1)))
           (map Enter (rev (firstn j (upl (s_disc m t) l2)))).
  Proof.
    destruct (height_chain (leaf_parent h (s_disc m x)) Hh) as (l1 & H1 & L1).
    destruct (height_chain (leaf_parent h (s_disc m t)) Hh) as (l2 & H2 & L2).
    destruct (Nat.eq_dec (s_disc m x) (s_disc m t)) as [Ed|Ed].
    - exists l1, l2, 1, 1. repeat split; auto; try lia.
      + unfold Blocking.transition_path, same_state. rewrite Ed, Nat.eqb_refl. reflexivity.
      + left. split; [exact Ed|]. simpl. now rewrite Ed.
      + eexists. split; [reflexivity|discriminate].
      + eexists. split; [reflexivity|discriminate].
    - destruct (transition_path_split Hf Hh _ _ H1 H2 Ed) as (xs & ys & c & (E1 & E2 & D) & E).
      exists l1, l2, (S (length xs)), (S (length ys)). subst l1 l2.
      rewrite !app_length. repeat split; auto; try lia.
      + right. split; [exact Ed|].
        exists (map AtSuper (rev c)), (map AtSuper (rev xs) ++ [AtState (s_disc m x)]),
          (map AtSuper (rev ys) ++ [AtState (s_disc m t)]).
        repeat split.
        * exists (xs ++ c). split; [exact H1|]. now rewrite rev_app_distr, map_app, app_assoc.
        * exists (ys ++ c). split; [exact H2|]. now rewrite rev_app_distr, map_app, app_assoc.
        * destruct (rev xs), (rev ys); simpl in *; congruence.
        * unfold upl. simpl. rewrite !map_app, !firstn_app, !map_length, !Nat.sub_diag.
          simpl. rewrite !app_nil_r, !firstn_map, !firstn_all, !rev_app_distr, !map_app.
          rewrite !map_rev, rev_involutive. reflexivity.
      + eexists. split; [reflexivity|discriminate].
      + eexists. split; [reflexivity|]. simpl. intros E'. now apply app_eq_nil in E'.
  Qed.

  Lemma transition_run t x sh cx o x1 sh1 cx1 tr :
    mode_transition t x sh cx = Res o x1 sh1 cx1 tr ->
    exists exs ens, legs (s_disc m x) (s_disc m t) exs ens /\ trans_run x t exs ens o x1 tr.
  Proof.
    intros H. destruct (transition_path_legs x t) as (l1 & l2 & i & j & H1 & H2 & Li & Lj & E & L).
    eexists _, _. split; [exact L|].
    rewrite mode_transition_eq in H.
    apply bind_run in H. destruct H as [(w & -> & H)|(a0 & x2 & sh2 & cx2 & t2 & t3 & H0 & H & ->)].
    { assert (x1 = x /\ tr = [mode_before x t] /\ user w) as (-> & -> & Hw).
      { unfold mode_before. destruct md; hook_in H; destruct H as (-> & -> & -> & Hw); auto. }
      now constructor. }
    assert (x2 = x /\ t2 = [mode_before x t]) as (-> & ->).
    { unfold mode_before. destruct md; hook_in H0; destruct H0 as (-> & -> & -> & Hw); auto. }
    apply bind_run in H. rewrite E in H.
    destruct H as [(w & -> & H)|(a1 & x3 & sh3 & cx3 & t4 & t5 & H3 & H & ->)].
    { apply lift_run in H. destruct H as (H & _). discriminate. }
    apply lift_run in H3. destruct H3 as (H3 & -> & -> & -> & ->). inversion H3; subst a1.
    cbn [fst snd] in H.
    apply bind_run in H. destruct H as [(w & -> & H)|(a4 & x4 & sh4 & cx4 & t6 & t7 & H4 & H & ->)].
    { eapply does_run in H; [|apply mode_exit_does; eauto].
      destruct H as (Ed & Ho & Hw & Hne & Hp). simpl. now apply tr_exit. }
    eapply does_run in H4; [|apply mode_exit_does; eauto].
    destruct H4 as (Ed4 & Ho4 & Ha4).
    apply bind_run in H. destruct H as [(w & -> & H)|(a5 & x5 & sh5 & cx5 & t8 & t9 & H5 & H & ->)];
      [discriminate H|].
    inversion H5; subst a5 x5 sh5 cx5 t8.
    apply bind_run in H. destruct H as [(w & -> & H)|(a6 & x6 & sh6 & cx6 & t10 & t11 & H6 & H & ->)].
    { eapply does_run in H; [|apply mode_enter_does; eauto].
      destruct H as (Ed & Ho & Hw & Hne & Hp). simpl. now apply tr_enter. }
    eapply does_run in H6; [|apply mode_enter_does; eauto].
    destruct H6 as (Ed6 & Ho6 & Ha6).
    rewrite self_bind_run in H. hook_in H. destruct H as (-> & -> & -> & Hw).
    simpl. now apply tr_after.
  Qed.

  (** *** Initialization *)

  Lemma mode_init_eq x sh cx :
    inner_init m stack md x sh cx =
    bind (lift (Blocking.state_depth m stack x)) mode_enter x sh cx.
  Proof.
    unfold inner_init, mode_enter. destruct md; unfold Blocking.inner_init,
      Awaitable.inner_init; rewrite self_bind_run; reflexivity.
  Qed.

  Lemma path_upl k l : chain h (leaf_parent h k) l -> path h k (rev (upl k l)).
  Proof.
    intros Hc. exists l. split; [exact Hc|]. unfold upl. simpl. now rewrite map_rev.
  Qed.

  Lemma init_run x sh cx o x1 sh1 cx1 tr :
    inner_init m stack md x sh cx = Res o x1 sh1 cx1 tr ->
    exists p, path h (s_disc m x) p /\ s_disc m x1 = s_disc m x /\ only_acts tr /\
      match o with
      | Ret _ => acts tr = map Enter p
      | Abort w => user w /\ tr <> [] /\ prefix (acts tr) (map Enter p)
      end.
  Proof.
    intros H. rewrite mode_init_eq in H.
    destruct (height_chain (leaf_parent h (s_disc m x)) Hh) as (l & Hc & Hl).
    exists (rev (upl (s_disc m x) l)). split; [now apply path_upl|].
    apply bind_run in H. rewrite (state_depth_ok Hf Hh _ Hc) in H.
    destruct H as [(w & -> & H)|(a0 & x2 & sh2 & cx2 & t2 & t3 & H0 & H & ->)].
    { apply lift_run in H. destruct H as (H & _). discriminate. }
    apply lift_run in H0. destruct H0 as (H0 & -> & -> & -> & ->). inversion H0; subst.
    eapply does_run in H; [|apply mode_enter_does; eauto].
    rewrite firstn_all2 in H by (unfold upl; simpl; rewrite map_length; lia).
    exact H.
  Qed.

  (** *** A whole `handle` *)

  Lemma mode_handle_eq e x sh cx :
    inner_handle m stack md e x sh cx =
    bind (mode_state_handle m stack e md) (fun r =>
      match r with
      | Super => ret tt
      | Handled => ret tt
      | Transition t => mode_transition t
      end) x sh cx.
  Proof. unfold inner_handle, mode_state_handle, mode_transition. destruct md; reflexivity. Qed.

  (** How a `handle` of event [e] in state [x] can run. *)
  Inductive handle_run (e : Event m) (x : State m)
    : outcome unit -> State m -> list (obs m) -> Prop :=
  | hr_aborted w x1 t ps vis a :
      user w -> s_disc m x1 = s_disc m x -> t <> [] ->
      upward h (s_disc m x) ps -> answers ps vis a ->
      prefix (calls t) (dispatch_log m e md vis) ->
      handle_run e x (Abort w) x1 t
  | hr_stay x1 t ps vis a :
      s_disc m x1 = s_disc m x -> upward h (s_disc m x) ps -> answers ps vis a ->
      (forall s, a <> Transition s) -> calls t = dispatch_log m e md vis ->
      handle_run e x (Ret tt) x1 t
  | hr_transition o x0 x1 t t' ps vis target exs ens :
      s_disc m x0 = s_disc m x -> upward h (s_disc m x) ps ->
      answers ps vis (Transition target) -> calls t = dispatch_log m e md vis ->
      legs (s_disc m x) (s_disc m target) exs ens ->
      trans_run x0 target exs ens o x1 t' ->
      handle_run e x o x1 (t ++ t').

  Lemma inner_handle_run e x sh cx o x1 sh1 cx1 t :
    inner_handle m stack md e x sh cx = Res o x1 sh1 cx1 t -> handle_run e x o x1 t.
  Proof.
    intros H. rewrite mode_handle_eq in H.
    destruct (height_chain (leaf_parent h (s_disc m x)) Hh) as (l & Hc & Hl).
    assert (Hu : upward h (s_disc m x) (upl (s_disc m x) l)) by (exists l; now split).
    apply bind_run in H. destruct H as [(w & -> & H)|(r & x2 & sh2 & cx2 & t2 & t3 & H0 & H & ->)].
    - eapply state_handle_asked in H; eauto. destruct H as (Ed & Hw & Hne & vis & a & Hv & Hp).
      econstructor; eauto.
    - eapply state_handle_asked in H0; eauto. destruct H0 as (Ed & vis & a & Hv & Hsd & Et).
      destruct r as [| |target].
      + apply ret_run in H. destruct H as (-> & -> & -> & -> & ->). rewrite app_nil_r.
        eapply hr_stay; eauto. intros s ->. specialize (Hsd s). destruct Hsd as [Hsd _].
        specialize (Hsd eq_refl). discriminate.
      + apply ret_run in H. destruct H as (-> & -> & -> & -> & ->). rewrite app_nil_r.
        eapply hr_stay; eauto. intros s ->. specialize (Hsd s). destruct Hsd as [Hsd _].
        specialize (Hsd eq_refl). discriminate.
      + assert (a = Transition target) by (apply Hsd; reflexivity). subst a.
        apply transition_run in H. destruct H as (exs & ens & L & R). rewrite Ed in L.
        eapply hr_transition; eauto.
  Qed.
End Transition.
