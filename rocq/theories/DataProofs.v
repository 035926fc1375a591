(** DataProofs.v — data flow through the public API. *)

From Coq Require Import List Bool Arith Lia.
From Verif Require Import Machine Blocking Awaitable Api Spec TripleProofs ShapeProofs
  DispatchProofs TransitionProofs ApiProofs RouteProofs HistoryProofs TotalProofs ThreadProofs
  SameProofs.
Import ListNotations.
Set Implicit Arguments.

Section Data.
  Variable h : hierarchy.
  Variable m : machine.
  Variable stack : nat.
  Hypothesis W : well_formed h m stack.
  Hypothesis V : faithful_views m.
  Variable md : mode.

  (** What a machine and its client hold: state, shared storage, context. *)
  Definition data (sm : state_machine m) (cx : Ctx m) : State m * Shared m * Ctx m :=
    (sm_state sm, sm_shared sm, cx).

  Lemma api_handles (sm : state_machine m) e cx :
    initialized sm = true ->
    let r := handle_with_context stack md sm e cx in
    handles md e (data sm cx) (a_out r) (data (a_machine r) (a_cx r)) (a_tr r).
  Proof.
    intros Hi r. subst r. unfold handle_with_context. rewrite Hi. simpl negb. cbv iota.
    unfold dispatch, run_inner, data, sm_state, sm_shared. cbn.
    destruct (inner_handle m stack md e (state (sm_inner sm)) (shared_storage (sm_inner sm)) cx)
      as [o x1 sh1 cx1 t] eqn:E.
    eapply inner_handle_handles; eauto using wf_follows, wf_stable, wf_height.
  Qed.

  Lemma api_init_thread (sm : state_machine m) cx :
    let r := init_with_context stack md sm cx in
    thread (touches m) (a_tr r) (data sm cx) (a_out r) (data (a_machine r) (a_cx r)).
  Proof.
    intros r. subst r. unfold init_with_context. destruct (initialized sm) eqn:Ei; simpl negb; cbv iota.
    { simpl. constructor. }
    unfold run_inner, data, sm_state, sm_shared.
    pose proof (inner_init_threads (wf_follows W) (wf_stable W) V (wf_height W) md
                  (k := s_disc m (state (sm_inner sm)))) as H.
    specialize (H (state (sm_inner sm)) (shared_storage (sm_inner sm)) cx eq_refl).
    cbv zeta in H. destruct H as [_ H].
    destruct (inner_init m stack md (state (sm_inner sm)) (shared_storage (sm_inner sm)) cx)
      as [[[]|w] x1 sh1 cx1 t] eqn:E; simpl in *; exact H.
  Qed.

  Lemma before_not_enter (x t : State m) : is_enter (mode_before m md x t) = false.
  Proof. now destruct md. Qed.

  Lemma dispatchy_no_enter (t : list (obs m)) : Forall (@dispatchy m) (calls t) ->
    forallb (fun o => negb (is_enter o)) t = true.
  Proof.
    intros H. apply forallb_forall. intros o Ho. unfold calls in H. rewrite Forall_map in H.
    rewrite Forall_forall in H. specialize (H o Ho). now destruct o.
  Qed.

  Lemma all_exit_no_enter (t : list (obs m)) : forallb (@is_exit m) t = true ->
    forallb (fun o => negb (is_enter o)) t = true.
  Proof.
    intros H. apply forallb_forall. intros o Ho. rewrite forallb_forall in H.
    specialize (H o Ho). now destruct o.
  Qed.

  (** *** C21 for an initialized machine *)
  Lemma handle_threaded_init (sm : state_machine m) e cx :
    initialized sm = true ->
    let r := handle_with_context stack md sm e cx in
    let c := data sm cx in
    let c' := data (a_machine r) (a_cx r) in
    (forallb (fun o => negb (is_enter o)) (a_tr r) = true /\
     (a_out r = Ret tt -> no_transition_answer (a_tr r)) /\
     thread (touches m) (a_tr r) c (a_out r) c') \/
    (exists t1 t2 x1 sh1 cx1 p target,
        a_tr r = t1 ++ t2 /\
        In (p, e, Some (Transition target)) (handler_calls (calls t1)) /\
        forallb (fun o => negb (is_enter o)) t1 = true /\
        forallb (fun o => is_enter o || is_transition_hook o) t2 = true /\
        thread (touches m) t1 c (Ret tt) (x1, sh1, cx1) /\
        thread (touches m) t2 (target, sh1, cx1) (a_out r) c').
  Proof.
    intros Hi r c c'. pose proof (api_handles sm e cx Hi) as H. cbv zeta in H. fold r in H.
    fold c in H. fold c' in H.
    inversion H as [t Hd Hn Ht E|t1 t2 c1 p target Hd Ht Hin Hm E]; subst t || idtac.
    - left. repeat split; auto using dispatchy_no_enter.
    - inversion Hm as [t3 w Eo Hx Ht3 E3|t3 t4 t5 x1 sh1 cx1 Hx He H5 Ht3 Ht4 E3]; subst t2.
      + left. split; [|split].
        * rewrite forallb_app. apply andb_true_intro. split; [now apply dispatchy_no_enter|].
          cbn [forallb]. rewrite before_not_enter. now apply all_exit_no_enter.
        * rewrite Eo. discriminate.
        * eapply thread_app; eauto.
      + right. exists (t1 ++ mode_before m md (fst (fst c1)) target :: t3), (t4 ++ t5), x1, sh1, cx1, p, target.
        split; [rewrite <- app_assoc; reflexivity|].
        split.
        { rewrite calls_app.
          assert (G : forall l1 l2 : list (call m), In (p, e, Some (Transition target)) (handler_calls l1) ->
                    In (p, e, Some (Transition target)) (handler_calls (l1 ++ l2))).
          { induction l1 as [|a l1 IH]; simpl; [contradiction|]. intros l2 Ha.
            destruct a; simpl; auto. destruct Ha as [Ha|Ha]; [|right; now apply IH].
            left. destruct l1 as [|b l1]; [discriminate|]. simpl. exact Ha. }
          now apply G. }
        split.
        { rewrite forallb_app. apply andb_true_intro. split; [now apply dispatchy_no_enter|].
          cbn [forallb]. rewrite before_not_enter. now apply all_exit_no_enter. }
        split.
        { rewrite forallb_app. apply andb_true_intro. split.
          - apply forallb_forall. intros o Ho. rewrite forallb_forall in He. now rewrite He.
          - destruct H5 as [->|[-> _]]; reflexivity. }
        split; [|assumption]. eapply thread_app; eauto.
  Qed.

  Lemma handler_calls_in_app_r (x : place * Event m * option (response (State m))) l1 l2 :
    Forall (fun c => match c with CHandler _ _ => False | _ => True end) l1 ->
    In x (handler_calls l2) -> In x (handler_calls (l1 ++ l2)).
  Proof. intros H Hin. now rewrite handler_calls_skip. Qed.

  Lemma init_log_no_handler (sm : state_machine m) cx :
    Forall (fun c => match c with CHandler _ _ => False | _ => True end)
           (calls (a_tr (init_with_context stack md sm cx))).
  Proof.
    destruct (initialized sm) eqn:Ei.
    - rewrite init_idempotent by exact Ei. constructor.
    - destruct (api_init_run W md sm cx Ei) as (p & _ & _ & Ho & _). now apply only_acts_no_handler.
  Qed.

  (** *** C21 for any machine *)
  Lemma handle_threaded (sm : state_machine m) e cx :
    let r := handle_with_context stack md sm e cx in
    let c := data sm cx in
    let c' := data (a_machine r) (a_cx r) in
    ((a_out r = Ret tt -> no_transition_answer (a_tr r)) /\
     thread (touches m) (a_tr r) c (a_out r) c') \/
    (exists t1 t2 x1 sh1 cx1 p target,
        a_tr r = t1 ++ t2 /\
        In (p, e, Some (Transition target)) (handler_calls (calls t1)) /\
        forallb (fun o => is_enter o || is_transition_hook o) t2 = true /\
        thread (touches m) t1 c (Ret tt) (x1, sh1, cx1) /\
        thread (touches m) t2 (target, sh1, cx1) (a_out r) c').
  Proof.
    intros r c c'. subst r c c'. assert (Hr := handle_is_init_then_handle stack md sm e cx).
    unfold and_then in Hr. pose proof (api_init_thread sm cx) as Hin. cbv zeta in Hin.
    pose proof (init_log_no_handler sm cx) as Hno.
    destruct (a_out (init_with_context stack md sm cx)) as [[]|w] eqn:Ei.
    - pose proof (init_initializes _ _ _ _ Ei) as Hi.
      set (sm1 := a_machine (init_with_context stack md sm cx)) in *.
      set (cx1 := a_cx (init_with_context stack md sm cx)) in *.
      set (t0 := a_tr (init_with_context stack md sm cx)) in *.
      pose proof (handle_threaded_init sm1 e cx1 Hi) as H. cbv zeta in H.
      rewrite Hr. cbn [a_tr a_out a_machine a_cx].
      destruct H as [(_ & Hn & Ht)|(t1 & t2 & x1 & sh1 & cx2 & p & target & E & Hp & _ & He & Ht1 & Ht2)].
      + left. split; [|eapply thread_app; eauto].
        intros Ho p' e' s Hp. apply (Hn Ho p' e' s). unfold t0 in Hp.
        rewrite calls_app in Hp. now rewrite handler_calls_skip in Hp.
      + right. exists (t0 ++ t1), t2, x1, sh1, cx2, p, target.
        split; [rewrite E, app_assoc; reflexivity|].
        split; [rewrite calls_app; now apply handler_calls_in_app_r|].
        split; [exact He|]. split; [eapply thread_app; eauto|exact Ht2].
    - left. rewrite Hr. rewrite Ei. split; [discriminate|]. exact Hin.
  Qed.

  (** *** C06, C12 *)
  Lemma transition_data (sm : state_machine m) e cx p e' target :
    initialized sm = true ->
    let r := handle_with_context stack md sm e cx in
    In (p, e', Some (Transition target)) (handler_calls (calls (a_tr r))) ->
    a_out r = Ret tt ->
    exists t1 b t2 t3 x0 sh0 cx0 x1 sh1 cx1,
      a_tr r = t1 ++ [b] ++ t2 ++ t3 ++ [OAfterTransition x1 (sm_state (a_machine r))] /\
      b = match md with
          | BlockingMode => OBeforeTransition target x0
          | AwaitableMode => OBeforeTransition x0 target
          end /\
      Forall (@dispatchy m) (calls t1) /\
      forallb (@is_exit m) t2 = true /\ forallb (@is_enter m) t3 = true /\
      thread (touches m) t1 (data sm cx) (Ret tt) (x0, sh0, cx0) /\
      thread (touches m) (b :: t2) (x0, sh0, cx0) (Ret tt) (x1, sh1, cx1) /\
      thread (touches m) (t3 ++ [OAfterTransition x1 (sm_state (a_machine r))])
        (target, sh1, cx1) (Ret tt) (data (a_machine r) (a_cx r)).
  Proof.
    intros Hi r Hin Eo. pose proof (api_handles sm e cx Hi) as H. cbv zeta in H. fold r in H.
    inversion H as [t Hd Hn Ht E|t1 t2 c1 p0 target0 Hd Ht Hin0 Hm E].
    - subst t. exfalso. exact (Hn Eo _ _ _ Hin).
    - assert (target0 = target).
      { pose proof (api_handle_run W md sm e cx Hi) as Hrun. cbv zeta in Hrun. fold r in Hrun.
        destruct (handle_run_dispatch Hrun) as (ps & vis & a & Hup & Hans & Hcut & Hret).
        unfold hcalls in *.
        destruct (@cut_transition m e _ ps vis a target Hcut Hans p e' Hin) as [Ea _].
        assert (Hin0' : In (p0, e, Some (Transition target0)) (handler_calls (calls (a_tr r)))).
        { rewrite <- E, calls_app.
          assert (G : forall l1 l2 : list (call m), In (p0, e, Some (Transition target0)) (handler_calls l1) ->
                    In (p0, e, Some (Transition target0)) (handler_calls (l1 ++ l2))).
          { induction l1 as [|a0 l1 IH]; simpl; [contradiction|]. intros l2 Ha.
            destruct a0; simpl; auto. destruct Ha as [Ha|Ha]; [|right; now apply IH].
            left. destruct l1 as [|b l1]; [discriminate|]. simpl. exact Ha. }
          now apply G. }
        destruct (@cut_transition m e _ ps vis a target0 Hcut Hans p0 e Hin0') as [Ea' _].
        congruence. }
      subst target0.
      inversion Hm as [t3 w Eo' Hx Ht3 E3|t3 t4 t5 x1 sh1 cx1 Hx He H5 Ht3 Ht4 E3].
      + congruence.
      + destruct H5 as [H5|[_ H5]]; [|contradiction]. subst t5 t2. destruct c1 as [[x0 sh0] cx0].
        simpl fst in *.
        exists t1, (mode_before m md x0 target), t3, t4, x0, sh0, cx0, x1, sh1, cx1.
        rewrite Eo in *.
        split; [reflexivity|]. split; [destruct md; reflexivity|]. auto 9.
  Qed.

  Lemma dispatchy_forallb (t : list (obs m)) : Forall (@dispatchy m) (calls t) ->
    forallb (fun o => is_dispatch_hook o || is_handler o) t = true.
  Proof.
    intros H. apply forallb_forall. intros o Ho. unfold calls in H. rewrite Forall_map in H.
    rewrite Forall_forall in H. specialize (H o Ho). now destruct o.
  Qed.

  Lemma transition_data' (sm : state_machine m) e cx p target :
    initialized sm = true ->
    let r := handle_with_context stack md sm e cx in
    asks_for (a_tr r) p e target -> a_out r = Ret tt ->
    exists t1 b t2 t3 x0 sh0 cx0 x1 sh1 cx1,
      a_tr r = t1 ++ [b] ++ t2 ++ t3 ++ [OAfterTransition x1 (sm_state (a_machine r))] /\
      b = match md with
          | BlockingMode => OBeforeTransition target x0
          | AwaitableMode => OBeforeTransition x0 target
          end /\
      forallb (fun o => is_dispatch_hook o || is_handler o) t1 = true /\
      forallb (@is_exit m) t2 = true /\ forallb (@is_enter m) t3 = true /\
      thread (touches m) t1 (sm_state sm, sm_shared sm, cx) (Ret tt) (x0, sh0, cx0) /\
      thread (touches m) (b :: t2) (x0, sh0, cx0) (Ret tt) (x1, sh1, cx1) /\
      thread (touches m) (t3 ++ [OAfterTransition x1 (sm_state (a_machine r))])
        (target, sh1, cx1) (Ret tt)
        (sm_state (a_machine r), sm_shared (a_machine r), a_cx r).
  Proof.
    intros Hi r Hin Eo.
    destruct (transition_data sm e cx p e target Hi Hin Eo)
      as (t1 & b & t2 & t3 & x0 & sh0 & cx0 & x1 & sh1 & cx1 & E & Hb & Hd & H).
    exists t1, b, t2, t3, x0, sh0, cx0, x1, sh1, cx1.
    split; [exact E|]. split; [exact Hb|]. split; [now apply dispatchy_forallb|exact H].
  Qed.

  (** *** C28: views *)

  Lemma overwrite_read (u v v' u' : Sup m) : overwrite m u v v' u' -> u_disc m v' = u_disc m v ->
    u_disc m u' = u_disc m u /\ overwrite m u' v' v' u'.
  Proof.
    intros H Hd. pose proof (overwrite_disc (wf_follows W) H Hd) as Hud. split; [exact Hud|].
    induction H as [u u'|u v v' w w' Hu Ho IH]; [constructor|].
    pose proof (overwrite_disc (wf_follows W) Ho Hd) as Hvd. specialize (IH Hd Hvd).
    replace (u_put m u v') with (u_put m (u_put m u v') v') at 2.
    - econstructor; [|exact IH]. eapply fv_u_put_get; eauto.
    - eapply fv_u_put_put; eauto.
  Qed.

  (** Reading a node right after it was written. *)
  Lemma touches_read (x x' : State m) n n' :
    touches m x n n' x' -> place_of m n' = place_of m n -> touches m x' n' n' x'.
  Proof.
    intros H Hp. destruct H as [x x'|x v u u' v' Hx Ho]; [constructor|].
    simpl in Hp. injection Hp as Hp. destruct (overwrite_read Ho Hp) as [Hd Ho'].
    replace (s_put m x v') with (s_put m (s_put m x v') v') at 2.
    - econstructor; [|exact Ho']. eapply fv_s_put_get; eauto.
    - eapply fv_s_put_put; eauto.
  Qed.

  Lemma chain_up_shorter k l : chain h (Some k) l -> forall u v w w',
    u_disc m u = k -> overwrite m u v w w' -> u_disc m v = k -> v = u.
  Proof.
    intros Hc u v w w' Hk Ho Hv.
    assert (G : forall l k, chain h (Some k) l -> forall u v w w', u_disc m u = k ->
              overwrite m u v w w' -> exists l', chain h (Some (u_disc m v)) l' /\
              length l' <= length l /\ (length l' = length l -> v = u)).
    { clear - W. intros l. induction l as [|a l IH]; intros k Hc; inversion Hc; subst.
      intros u v w w' Hu Ho. inversion Ho as [? ?|? v1 v' ? ? Hu1 Ho1]; subst.
      - exists (u_disc m v :: l). repeat split; auto.
      - pose proof (fo_sup (wf_follows W) u) as Hf. rewrite Hu1 in Hf. simpl in Hf.
        rewrite <- Hf in *.
        destruct (IH _ ltac:(eassumption) v1 v w v' eq_refl Ho1) as (l' & Hc' & Hl & _).
        exists l'. simpl. repeat split; auto; lia. }
    destruct (G l k Hc u v w w' Hk Ho) as (l' & Hc' & Hl & He).
    rewrite Hv in Hc'. pose proof (chain_functional Hc Hc') as ->. auto.
  Qed.

  Lemma overwrite_unique (u : Sup m) : forall v1 v2 w1 w2 z1 z2,
    overwrite m u v1 w1 z1 -> overwrite m u v2 w2 z2 -> u_disc m v1 = u_disc m v2 -> v1 = v2.
  Proof.
    intros v1 v2 w1 w2 z1 z2 H1. revert v2 w2 z2.
    induction H1 as [u u'|u v v' w w' Hu Ho IH]; intros v2 w2 z2 H2 Hd.
    - destruct (wf_height W (u_disc m u)) as (l & Hc & _).
      symmetry. eapply chain_up_shorter; eauto.
    - inversion H2 as [? ?|? v3 v4 ? ? Hu3 Ho3]; subst.
      + destruct (wf_height W (u_disc m v2)) as (l & Hc & _).
        eapply chain_up_shorter with (w := w'); eauto. econstructor; eauto.
      + assert (v3 = v) by congruence. subst v3. eapply IH; eauto.
  Qed.

  (** A place has one value at a time. *)
  Lemma view_unique (x : State m) n1 n2 :
    sees (touches m) x n1 -> sees (touches m) x n2 -> place_of m n1 = place_of m n2 -> n1 = n2.
  Proof.
    intros (n1' & x1 & H1) (n2' & x2 & H2) Hp.
    destruct H1 as [x x'|x v u u' v' Hx Ho]; inversion H2 as [? ?|? v2 u2 u2' v2' Hx2 Ho2]; subst;
      simpl in Hp; try discriminate; [reflexivity|].
    assert (v2 = v) by congruence. subst. f_equal. eapply overwrite_unique; eauto. congruence.
  Qed.
End Data.

(** *** C15 at the API *)
Section SameApi.
  Variable h : hierarchy.
  Variable m : machine.
  Variable stack : nat.
  Hypothesis W : well_formed h m stack.
  Hypothesis V : faithful_views m.
  Hypothesis Q : quiet m.

  (** The same result, up to the hooks in the log. *)
  Definition same_but_hooks {M} (r r' : api_res m M) : Prop :=
    a_out r = a_out r' /\ a_machine r = a_machine r' /\ a_cx r = a_cx r' /\
    unhooked (a_tr r) = unhooked (a_tr r').

  Lemma api_init_same (sm : state_machine m) cx :
    init_with_context stack BlockingMode sm cx = init_with_context stack AwaitableMode sm cx.
  Proof.
    unfold init_with_context, run_inner.
    now rewrite (init_same (wf_follows W) (wf_stable W) V (wf_height W)).
  Qed.

  Lemma api_handle_same (sm : state_machine m) e cx :
    same_but_hooks (handle_with_context stack BlockingMode sm e cx)
                   (handle_with_context stack AwaitableMode sm e cx).
  Proof.
    assert (G : forall sm cx, initialized sm = true ->
      same_but_hooks (handle_with_context stack BlockingMode sm e cx)
                     (handle_with_context stack AwaitableMode sm e cx)).
    { intros s c Hi. unfold handle_with_context. rewrite Hi. simpl negb. cbv iota.
      unfold dispatch, run_inner.
      pose proof (handle_alike (wf_follows W) (wf_stable W) V (wf_height W) Q e (state (sm_inner s))
                    (shared_storage (sm_inner s)) c) as H.
      destruct (inner_handle m stack BlockingMode e _ _ _) as [o x1 sh1 cx1 t].
      destruct (inner_handle m stack AwaitableMode e _ _ _) as [o' x1' sh1' cx1' t'].
      unfold alike in H; simpl in H. destruct H as (Ho & -> & -> & -> & Ht).
      unfold same_but_hooks. simpl. repeat split; auto. destruct o, o'; try contradiction; congruence. }
    rewrite !handle_is_init_then_handle. rewrite api_init_same. unfold and_then.
    destruct (a_out (init_with_context stack AwaitableMode sm cx)) as [[]|w] eqn:Ei.
    - pose proof (init_initializes _ _ _ _ Ei) as Hi.
      destruct (G _ (a_cx (init_with_context stack AwaitableMode sm cx)) Hi) as (Ho & Hm & Hc & Ht).
      unfold same_but_hooks. cbn [a_out a_machine a_cx a_tr].
      split; [exact Ho|]. split; [exact Hm|]. split; [exact Hc|].
      rewrite !unhooked_app. now rewrite Ht.
    - unfold same_but_hooks. auto.
  Qed.

  Definition same_called (c c' : called m) : Prop :=
    c_out c = c_out c' /\ c_cx c = c_cx c' /\ unhooked (c_tr c) = unhooked (c_tr c').

  Lemma history_same ops sm cs1 sm1 cs2 sm2 :
    history stack BlockingMode ops sm cs1 sm1 -> history stack AwaitableMode ops sm cs2 sm2 ->
    sm1 = sm2 /\ Forall2 same_called cs1 cs2.
  Proof.
    intros H1; revert cs2 sm2; induction H1 as [sm|o ops sm out sm1 cx tr cs sm' E H IH];
      intros cs2 sm2 H2; inversion H2 as [|? ? ? out2 sm3 cx2 tr2 cs3 ? E2 H3]; subst; [auto|].
    assert (G : sm1 = sm3 /\ same_called (Called out cx tr) (Called out2 cx2 tr2)).
    { destruct o as [c|e c|f|f]; simpl in E, E2.
      - rewrite api_init_same in E. rewrite E2 in E. inversion E; subst.
        split; [reflexivity|]. repeat split.
      - destruct (api_handle_same sm e c) as (Ho & Hm & Hc & Ht).
        inversion E; inversion E2; subst. split; [assumption|].
        unfold same_called. cbn [c_out c_cx c_tr].
        split; [exact Ho|]. split; [exact (f_equal Some Hc)|exact Ht].
      - inversion E; inversion E2; subst. split; [reflexivity|]. repeat split.
      - inversion E; inversion E2; subst. split; [reflexivity|]. repeat split. }
    destruct G as [-> Hs]. destruct (IH _ _ H3) as [-> Hf]. split; [reflexivity|]. now constructor.
  Qed.
End SameApi.
