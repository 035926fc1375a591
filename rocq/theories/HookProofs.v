(** HookProofs.v — what the transition hooks are called with (C11, C12), for completed and
    for aborted calls. *)

From Coq Require Import List Bool Arith Lia.
From Verif Require Import Machine Blocking Awaitable Api Spec.
From Verif Require Import TripleProofs ShapeProofs DispatchProofs TransitionProofs ApiProofs
  RouteProofs HistoryProofs TotalProofs ThreadProofs DataProofs.
From Verif Require FrontProofs.
Import ListNotations.
Set Implicit Arguments.

Lemma split_unique {A} (P : A -> bool) : forall u z v u' z' v',
  u ++ z :: v = u' ++ z' :: v' ->
  forallb (fun a => negb (P a)) u = true -> P z = true ->
  forallb (fun a => negb (P a)) v = true -> P z' = true ->
  u = u' /\ z = z' /\ v = v'.
Proof.
  induction u as [|a u IH]; intros z v [|a' u'] z' v' E Hu Hz Hv Hz'; simpl in *.
  - inversion E; auto.
  - inversion E; subst. rewrite forallb_app in Hv. simpl in Hv. rewrite Hz' in Hv.
    simpl in Hv. rewrite andb_false_r in Hv. discriminate.
  - inversion E; subst. rewrite Hz' in Hu. discriminate.
  - inversion E; subst. apply andb_prop in Hu. destruct Hu as [_ Hu].
    destruct (IH _ _ _ _ _ H1 Hu Hz Hv Hz') as (-> & -> & ->). auto.
Qed.

Lemma no_split {A} (P : A -> bool) u z (v l : list A) :
  forallb (fun a => negb (P a)) l = true -> P z = true -> l = u ++ z :: v -> False.
Proof.
  intros H Hz ->. rewrite forallb_app in H. simpl in H. rewrite Hz in H. simpl in H.
  rewrite andb_false_r in H. discriminate.
Qed.

Section Hooks.
  Variable h : hierarchy.
  Variable m : machine.
  Variable stack : nat.
  Hypothesis W : well_formed h m stack.
  Hypothesis V : faithful_views m.
  Variable md : mode.

  Lemma in_handler_calls_app (x : place * Event m * response (State m)) : forall l1 l2,
    In (fst x, Some (snd x)) (handler_calls l1) ->
    In (fst x, Some (snd x)) (handler_calls (m := m) (l1 ++ l2)).
  Proof.
    induction l1 as [|a l1 IH]; simpl; [contradiction|]. intros l2 Ha.
    destruct a; simpl; auto. destruct Ha as [Ha|Ha]; [|right; now apply IH].
    left. destruct l1 as [|b l1]; [discriminate|]. simpl. exact Ha.
  Qed.

  Definition is_before (o : obs m) : bool :=
    match o with OBeforeTransition _ _ => true | _ => false end.
  Definition is_after (o : obs m) : bool :=
    match o with OAfterTransition _ _ => true | _ => false end.

  Lemma dispatchy_neither (t : list (obs m)) : Forall (@dispatchy m) (calls t) ->
    forallb (fun o => negb (is_before o)) t = true /\ forallb (fun o => negb (is_after o)) t = true.
  Proof.
    intros H. unfold calls in H. rewrite Forall_map in H. rewrite Forall_forall in H.
    split; apply forallb_forall; intros o Ho; specialize (H o Ho); now destruct o.
  Qed.
  Lemma exit_neither (t : list (obs m)) : forallb (@is_exit m) t = true ->
    forallb (fun o => negb (is_before o)) t = true /\ forallb (fun o => negb (is_after o)) t = true.
  Proof.
    intros H. rewrite forallb_forall in H.
    split; apply forallb_forall; intros o Ho; specialize (H o Ho); now destruct o.
  Qed.
  Lemma enter_neither (t : list (obs m)) : forallb (@is_enter m) t = true ->
    forallb (fun o => negb (is_before o)) t = true /\ forallb (fun o => negb (is_after o)) t = true.
  Proof.
    intros H. rewrite forallb_forall in H.
    split; apply forallb_forall; intros o Ho; specialize (H o Ho); now destruct o.
  Qed.

  Lemma before_args (sm : state_machine m) e cx t1 a b t2 :
    initialized sm = true ->
    a_tr (handle_with_context stack md sm e cx) = t1 ++ OBeforeTransition a b :: t2 ->
    exists p target x sh' cx',
      asks_for t1 p e target /\
      thread (touches m) t1 (sm_state sm, sm_shared sm, cx) (Ret tt) (x, sh', cx') /\
      match md with
      | BlockingMode => a = target /\ b = x
      | AwaitableMode => a = x /\ b = target
      end.
  Proof.
    intros Hi Er. pose proof (api_handles W V md sm e cx Hi) as H. cbv zeta in H.
    set (r := handle_with_context stack md sm e cx) in *.
    inversion H as [t Hd Hn Ht E|u1 u2 c1 p target Hd Ht Hin Hm E].
    - subst t. exfalso. destruct (dispatchy_neither _ Hd) as [Hb _].
      refine (@no_split _ is_before _ _ _ _ Hb _ Er). reflexivity.
    - destruct (dispatchy_neither _ Hd) as [Hb _]. destruct c1 as [[x sh'] cx'].
      assert (B : is_before (mode_before m md x target) = true) by (destruct md; reflexivity).
      assert (G : t1 = u1 /\ OBeforeTransition a b = mode_before m md x target).
      { inversion Hm as [t3 w Eo Hx Ht3 E3|t3 t4 t5 x1 sh1 cx1 Hx He H5 Ht3 Ht4 E3]; subst u2;
          simpl fst in *.
        - rewrite Er in E.
          destruct (exit_neither _ Hx) as [Hx1 _].
          destruct (@split_unique _ is_before _ _ _ _ _ _ E Hb B Hx1 eq_refl) as (-> & <- & _).
          auto.
        - rewrite Er in E. destruct (exit_neither _ Hx) as [Hx1 _].
          destruct (enter_neither _ He) as [He1 _].
          assert (H51 : forallb (fun o => negb (is_before o)) t5 = true)
            by (destruct H5 as [->|[-> _]]; reflexivity).
          assert (Hv : forallb (fun o => negb (is_before o)) (t3 ++ t4 ++ t5) = true)
            by (rewrite !forallb_app, Hx1, He1, H51; reflexivity).
          destruct (@split_unique _ is_before _ _ _ _ _ _ E Hb B Hv eq_refl) as (-> & <- & _).
          auto. }
      destruct G as [-> G]. exists p, target, x, sh', cx'.
      split; [exact Hin|]. split; [exact Ht|].
      destruct md; simpl in G; inversion G; auto.
  Qed.

  Lemma after_args (sm : state_machine m) e cx t1 a b t2 :
    initialized sm = true ->
    let r := handle_with_context stack md sm e cx in
    a_tr r = t1 ++ OAfterTransition a b :: t2 ->
    t2 = [] /\ b = sm_state (a_machine r) /\
    exists u1 u2 p target sh' cx' sh'' cx'',
      t1 = u1 ++ u2 /\ asks_for u1 p e target /\
      forallb (fun o => negb (is_enter o)) u1 = true /\
      forallb (@is_enter m) u2 = true /\
      thread (touches m) u1 (sm_state sm, sm_shared sm, cx) (Ret tt) (a, sh', cx') /\
      thread (touches m) u2 (target, sh', cx') (Ret tt) (b, sh'', cx'').
  Proof.
    intros Hi r Er. pose proof (api_handles W V md sm e cx Hi) as H. cbv zeta in H. fold r in H.
    inversion H as [t Hd Hn Ht E|u1 u2 c1 p target Hd Ht Hin Hm E].
    - subst t. exfalso. destruct (dispatchy_neither _ Hd) as [_ Hb].
      refine (@no_split _ is_after _ _ _ _ Hb _ Er). reflexivity.
    - destruct (dispatchy_neither _ Hd) as [_ Hb]. destruct c1 as [[x sh'] cx'].
      assert (B : is_after (mode_before m md x target) = false) by (destruct md; reflexivity).
      inversion Hm as [t3 w Eo Hx Ht3 E3|t3 t4 t5 x1 sh1 cx1 Hx He H5 Ht3 Ht4 E3]; subst u2;
        simpl fst in *; rewrite Er in E; destruct (exit_neither _ Hx) as [_ Hx1].
      + exfalso. refine (@no_split _ is_after _ _ _ _ _ _ E); [|reflexivity].
        rewrite forallb_app, Hb. simpl. rewrite B, Hx1. reflexivity.
      + destruct (enter_neither _ He) as [_ He1].
        set (z := sm_state (a_machine r)) in *.
        assert (Hd1 : fst (fst (data (a_machine r) (a_cx r))) = z) by reflexivity.
        destruct H5 as [->|[-> _]].
        2:{ exfalso. refine (@no_split _ is_after _ _ _ _ _ _ E); [|reflexivity].
            rewrite forallb_app, Hb. simpl. rewrite B, app_nil_r. simpl.
            rewrite forallb_app, Hx1, He1. reflexivity. }
        assert (E' : (u1 ++ (mode_before m md x target :: t3) ++ t4) ++ [OAfterTransition x1 z]
                     = t1 ++ OAfterTransition a b :: t2).
        { rewrite <- E. rewrite <- !app_assoc. reflexivity. }
        assert (Hu : forallb (fun o => negb (is_after o))
                       (u1 ++ (mode_before m md x target :: t3) ++ t4) = true).
        { rewrite !forallb_app, Hb, He1. simpl. rewrite B, Hx1. reflexivity. }
        destruct (@split_unique _ is_after _ _ _ _ _ _ E' Hu eq_refl eq_refl eq_refl)
          as (<- & Ez & <-).
        injection Ez as <- <-. split; [reflexivity|]. split; [reflexivity|].
        (* the entries, without the hook *)
        assert (Ht4' : exists sh'' cx'', thread (touches m) t4 (target, sh1, cx1) (Ret tt) (z, sh'', cx'')).
        { clear - Ht4 He. change (data (a_machine r) (a_cx r)) with (z, sm_shared (a_machine r), a_cx r) in Ht4.
          clearbody z. revert He Ht4. generalize (target, sh1, cx1), (a_out r), (sm_shared (a_machine r)), (a_cx r).
          induction t4 as [|o t4 IH]; intros c out s0 c0 He H; simpl in H.
          - inversion H as [|? ? w ? Hc|? ? c1 ? ? ? Hc Ht|? ? ? ? ? ? ? Hc Ht]; subst.
            + inversion Hc; subst. eexists _, _. constructor.
            + inversion Hc; subst. inversion Ht; subst. eexists _, _. constructor.
          - inversion H as [|? ? w ? Hc|? ? c1 ? ? ? Hc Ht|? rr ? ? ? ? ? Hc Ht]; subst.
            + exfalso. destruct t4; discriminate.
            + apply andb_prop in He. destruct He as [_ He]. destruct (IH _ _ _ _ He Ht) as (s1 & c2 & G). exists s1, c2. econstructor; eauto.
            + destruct t4 as [|o1 t4]; simpl in *; [discriminate|].
              match goal with Hq : OReturn rr :: _ = o1 :: _ |- _ => inversion Hq; subst end.
              exfalso. (* the answer of a handler would be an entry action *)
              clear - He Hc. simpl in He. rewrite andb_false_r in He. discriminate. }
        destruct Ht4' as (sh'' & cx'' & Ht4').
        exists (u1 ++ mode_before m md x target :: t3), t4, p, target, sh1, cx1, sh'', cx''.
        split; [rewrite <- app_assoc; reflexivity|].
        split. { unfold asks_for. rewrite calls_app. now apply (@in_handler_calls_app (p, e, Transition target)). }
        split. { rewrite forallb_app. apply andb_true_intro. split; [now apply dispatchy_no_enter|].
                 cbn [forallb]. rewrite before_not_enter. now apply all_exit_no_enter. }
        split; [exact He|]. split; [|exact Ht4']. eapply thread_app; eauto.
  Qed.
End Hooks.

(** ** C28: two callbacks in a row on the same node *)
Section Views.
  Variable h : hierarchy.
  Variable m : machine.
  Variable stack : nat.
  Hypothesis W : well_formed h m stack.
  Hypothesis V : faithful_views m.

  Lemma node_handler_place n sh cx e a n' sh' cx' :
    node_handler m n sh cx e = (a, n', sh', cx') -> place_of m n' = place_of m n.
  Proof.
    destruct n as [x|u]; simpl; intros H.
    - destruct (s_handler m x sh cx e) as [[[a0 x0] s0] c0] eqn:E. simpl in H. inversion H; subst.
      simpl. now rewrite (st_s_handler (wf_stable W) _ _ _ _ E).
    - destruct (u_handler m u sh cx e) as [[[a0 x0] s0] c0] eqn:E. simpl in H. inversion H; subst.
      simpl. now rewrite (st_u_handler (wf_stable W) _ _ _ _ E).
  Qed.
  Lemma node_entry_place n sh cx a n' sh' cx' :
    node_entry m n sh cx = (a, n', sh', cx') -> place_of m n' = place_of m n.
  Proof.
    destruct n as [x|u]; simpl; intros H.
    - destruct (s_entry m x sh cx) as [[[a0 x0] s0] c0] eqn:E. simpl in H. inversion H; subst.
      simpl. now rewrite (st_s_entry (wf_stable W) _ _ _ E).
    - destruct (u_entry m u sh cx) as [[[a0 x0] s0] c0] eqn:E. simpl in H. inversion H; subst.
      simpl. now rewrite (st_u_entry (wf_stable W) _ _ _ E).
  Qed.
  Lemma node_exit_place n sh cx a n' sh' cx' :
    node_exit m n sh cx = (a, n', sh', cx') -> place_of m n' = place_of m n.
  Proof.
    destruct n as [x|u]; simpl; intros H.
    - destruct (s_exit m x sh cx) as [[[a0 x0] s0] c0] eqn:E. simpl in H. inversion H; subst.
      simpl. now rewrite (st_s_exit (wf_stable W) _ _ _ E).
    - destruct (u_exit m u sh cx) as [[[a0 x0] s0] c0] eqn:E. simpl in H. inversion H; subst.
      simpl. now rewrite (st_u_exit (wf_stable W) _ _ _ E).
  Qed.

  Lemma touches_sees (x x' : State m) n n' : touches m x n n' x' -> sees (touches m) x n.
  Proof. intros H. now exists n', x'. Qed.

  (** The callback [o] with storage [sh] and context [cx] leaves a node that the state then
      has a view of. *)
  Lemma written o x sh cx a x1 sh1 cx1 n1' :
    callback (touches m) o (x, sh, cx) a (x1, sh1, cx1) ->
    node_left o sh cx = Some n1' ->
    exists n1, node_called o = Some n1 /\ place_of m n1' = place_of m n1 /\
      sees (touches m) x1 n1'.
  Proof.
    intros H Hl.
    inversion H; subst; simpl in *; try discriminate;
      match goal with
      | E : _ = (_, ?n', _, _) |- _ => rewrite E in Hl; simpl in Hl; inversion Hl; subst n1'
      | _ => inversion Hl; subst n1'
      end; eexists; (split; [reflexivity|]).
    - match goal with E : node_handler _ _ _ _ _ = _ |- _ => pose proof (node_handler_place _ _ _ _ E) as P end.
      split; [exact P|]. eapply touches_sees, (touches_read W V); eauto.
    - match goal with E : node_entry _ _ _ _ = _ |- _ => pose proof (node_entry_place _ _ _ E) as P end.
      split; [exact P|]. eapply touches_sees, (touches_read W V); eauto.
    - match goal with E : node_exit _ _ _ _ = _ |- _ => pose proof (node_exit_place _ _ _ E) as P end.
      split; [exact P|]. eapply touches_sees, (touches_read W V); eauto.
    - split; [reflexivity|assumption].
    - split; [reflexivity|assumption].
  Qed.

  Lemma called_sees o x sh cx a c1 n :
    callback (touches m) o (x, sh, cx) a c1 -> node_called o = Some n -> sees (touches m) x n.
  Proof.
    intros H Hn. inversion H; subst; simpl in Hn; inversion Hn; subst;
      solve [assumption | eapply touches_sees; eauto].
  Qed.

  Lemma read_after_write o1 o2 x sh cx a1 x1 sh1 cx1 a2 c2 n1 n2 :
    callback (touches m) o1 (x, sh, cx) a1 (x1, sh1, cx1) ->
    callback (touches m) o2 (x1, sh1, cx1) a2 c2 ->
    node_called o1 = Some n1 -> node_called o2 = Some n2 -> place_of m n1 = place_of m n2 ->
    node_left o1 sh cx = Some n2.
  Proof.
    intros H1 H2 N1 N2 P.
    assert (L : exists n1', node_left o1 sh cx = Some n1').
    { destruct o1; simpl in *; try discriminate; eauto.
      - destruct (node_handler _ _ _ _ _) as [[[? ?] ?] ?]. eauto.
      - destruct (node_exit _ _ _ _) as [[[? ?] ?] ?]. eauto.
      - destruct (node_entry _ _ _ _) as [[[? ?] ?] ?]. eauto. }
    destruct L as [n1' L]. destruct (written H1 L) as (n & En & Ep & S1).
    assert (n = n1) by congruence. subst n.
    pose proof (called_sees H2 N2) as S2.
    rewrite L. f_equal. eapply (view_unique W); eauto. congruence.
  Qed.
End Views.

Section More.
  Variable h : hierarchy.
  Variable m : machine.
  Variable stack : nat.
  Hypothesis W : well_formed h m stack.
  Variable md : mode.

  Lemma init_only_enters (sm : state_machine m) cx :
    forallb (@is_enter m) (a_tr (init_with_context stack md sm cx)) = true.
  Proof.
    destruct (initialized sm) eqn:Hi.
    - rewrite init_idempotent by exact Hi. reflexivity.
    - pose proof (@FrontProofs.init_log m stack md h W sm cx Hi) as H. cbv zeta in H.
      destruct H as (p & _ & H & _). exact H.
  Qed.

  Lemma after_called (sm : state_machine m) e cx p target :
    initialized sm = true ->
    let r := handle_with_context stack md sm e cx in
    asks_for (a_tr r) p e target -> a_out r = Ret tt ->
    exists t x1, a_tr r = t ++ [OAfterTransition x1 (sm_state (a_machine r))] /\
      s_disc m x1 = s_disc m (sm_state sm).
  Proof.
    intros Hi r Ha Eo. pose proof (api_handle_run W md sm e cx Hi) as H. cbv zeta in H. fold r in H.
    inversion H as [w x1 t ps vis a Hu Hd Ht Hup Hans Hp E1 E2 E3
                   |x1 t ps vis a Hd Hup Hans Hn Hc E1 E2 E3
                   |o x0 x1 t t' ps vis tg exs ens Hd Hup Hans Hc Hl Htr E1 E2 E3].
    - congruence.
    - exfalso. unfold asks_for in Ha. rewrite Hc, <- (app_nil_r (dispatch_log _ _ _ _)),
        handler_calls_log, app_nil_r in Ha.
      destruct (cut_transition target (cut_full m e vis) Hans _ _ Ha) as [-> _].
      now apply (Hn target).
    - inversion Htr as [w Hw E4|w x2 t1 Hw Hx2 Ht1 Ho1 Hp1 E4|w x2 t1 t2 Hw Hx2 Ho1 Ha1 Ht2 Ho2 Hp2 E4
                       |o' x2 x3 t1 t2 Hw Hx2 Hx3 Ho1 Ha1 Ho2 Ha2 E4]; try congruence.
      exists (t ++ mode_before m md x0 tg :: t1 ++ t2), x2.
      split; [|congruence]. rewrite <- app_assoc. simpl. rewrite <- app_assoc. reflexivity.
  Qed.

  Lemma abort_prefix (sm : state_machine m) e cx p target w :
    initialized sm = true ->
    let r := handle_with_context stack md sm e cx in
    a_out r = Abort w -> asks_for (a_tr r) p e target ->
    exists full, route h (s_disc m (sm_state sm)) (s_disc m target) full /\
      prefix (acts (a_tr r)) full.
  Proof.
    intros Hi r _ Ha.
    destruct (handle_transition_route W md sm e cx p e target Hi Ha) as (full & Hr & Hp & _).
    now exists full.
  Qed.
End More.
