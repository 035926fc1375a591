(** ApiProofs.v — from runs of the inner machine to the public API. *)

From Coq Require Import List Bool Arith Lia.
From Verif Require Import Machine Blocking Awaitable Api Spec TripleProofs ShapeProofs
  DispatchProofs TransitionProofs.
Import ListNotations.
Set Implicit Arguments.

(** ** Reading logs *)

Section Logs.
  Variable m : machine.

  Definition act_of_call (c : call m) : list act :=
    match c with CExit p => [Exit p] | CEnter p => [Enter p] | _ => [] end.

  Lemma acts_calls (t : list (obs m)) : acts t = flat_map act_of_call (calls t).
  Proof.
    induction t as [|o t IH]; [reflexivity|].
    unfold acts in *. simpl. rewrite IH. destruct o; reflexivity.
  Qed.

  (** Log entries of the dispatch phase. *)
  Definition dispatchy (c : call m) : Prop :=
    match c with
    | CBeforeDispatch _ _ | CHandler _ _ | CReturn _ | CAfterDispatch _ _ => True
    | _ => False
    end.

  Lemma rounds_dispatchy e vis : Forall dispatchy (rounds e vis).
  Proof. induction vis as [|[p r] vis IH]; simpl; repeat constructor. exact IH. Qed.

  Lemma nested_dispatchy e vis : Forall dispatchy (nested e vis).
  Proof.
    induction vis as [|[p r] vis IH]; simpl; repeat constructor.
    apply Forall_app. split; [exact IH | repeat constructor].
  Qed.

  Lemma dispatch_log_dispatchy e md vis : Forall dispatchy (dispatch_log m e md vis).
  Proof.
    destruct md; simpl.
    - destruct vis as [|[p r] vis]; [constructor|].
      repeat constructor. apply nested_dispatchy.
    - apply rounds_dispatchy.
  Qed.

  Lemma Forall_prefix {A} (P : A -> Prop) l1 l2 : prefix l1 l2 -> Forall P l2 -> Forall P l1.
  Proof. intros [l ->] H. apply Forall_app in H. tauto. Qed.

  Lemma dispatchy_acts (t : list (obs m)) : Forall dispatchy (calls t) -> acts t = [].
  Proof.
    rewrite acts_calls. induction 1 as [|c l Hc Hl IH]; [reflexivity|].
    simpl. rewrite IH. destruct c; simpl in *; tauto.
  Qed.

  Lemma dispatchy_no_transition_hook (t : list (obs m)) :
    Forall dispatchy (calls t) -> forallb (fun o => negb (is_transition_hook o)) t = true.
  Proof.
    induction t as [|o t IH]; [reflexivity|]. simpl. intros H; inversion H as [|? ? H1 H2]; subst.
    rewrite (IH H2). destruct o; simpl in *; tauto.
  Qed.

  (** Handler calls of the pieces. *)

  Lemma handler_calls_skip l1 l2 :
    Forall (fun c => match c with CHandler _ _ => False | _ => True end) l1 ->
    handler_calls (m := m) (l1 ++ l2) = handler_calls l2.
  Proof.
    induction 1 as [|c l Hc Hl IH]; [reflexivity|].
    destruct c; simpl in *; tauto.
  Qed.

  Definition answered (e : Event m) (v : place * response (State m))
    : place * Event m * option (response (State m)) := (fst v, e, Some (snd v)).

  Lemma handler_calls_rounds e vis l :
    handler_calls (rounds e vis ++ l) = map (answered e) vis ++ handler_calls l.
  Proof.
    induction vis as [|[p r] vis IH]; [reflexivity|]. simpl. rewrite IH. reflexivity.
  Qed.

  Lemma handler_calls_nested e vis l :
    handler_calls (nested e vis ++ l) = map (answered e) vis ++ handler_calls l.
  Proof.
    revert l; induction vis as [|[p r] vis IH]; intros l; [reflexivity|]. simpl.
    rewrite <- app_assoc, IH. reflexivity.
  Qed.

  Lemma handler_calls_log e md vis l :
    handler_calls (dispatch_log m e md vis ++ l) = map (answered e) vis ++ handler_calls l.
  Proof.
    destruct md; simpl.
    - destruct vis as [|[p r] vis]; [reflexivity|]. simpl. rewrite handler_calls_nested.
      reflexivity.
    - apply handler_calls_rounds.
  Qed.

  (** A call list that was cut off agrees with the complete one, except that the last
      call may be unanswered. *)
  Inductive cut (e : Event m) : list (place * Event m * option (response (State m))) ->
                list (place * response (State m)) -> Prop :=
  | cut_nil vis : cut e [] vis
  | cut_open p r vis : cut e [(p, e, None)] ((p, r) :: vis)
  | cut_cons p r hc vis : cut e hc vis -> cut e ((p, e, Some r) :: hc) ((p, r) :: vis).

  Lemma cut_rounds e vis l : prefix l (rounds e vis) -> cut e (handler_calls l) vis.
  Proof.
    revert l; induction vis as [|[p r] vis IH]; intros l [z H]; simpl in H.
    - symmetry in H. apply app_eq_nil in H. destruct H as [-> _]. constructor.
    - destruct l as [|c1 l]; [constructor|]. inversion H as [[E1 H1]]; subst.
      destruct l as [|c2 l]; [constructor|]. inversion H1 as [[E2 H2]]; subst.
      destruct l as [|c3 l]; [constructor|]. inversion H2 as [[E3 H3]]; subst.
      destruct l as [|c4 l]; [simpl; constructor; constructor|].
      inversion H3 as [[E4 H4]]; subst. simpl. constructor. apply IH. now exists z.
  Qed.

  Lemma app_prefix_cases {A} (a b c d : list A) : a ++ b = c ++ d ->
    (exists z, c = a ++ z) \/ (exists z, a = c ++ z /\ d = z ++ b).
  Proof.
    revert c; induction a as [|x a IH]; intros c H.
    - left. exists c. reflexivity.
    - destruct c as [|y c].
      + right. exists (x :: a). split; [reflexivity|]. symmetry. exact H.
      + simpl in H. inversion H as [[E H']]; subst. destruct (IH c H') as [[z ->]|(z & -> & ->)].
        * left. exists z. reflexivity.
        * right. exists z. split; reflexivity.
  Qed.

  Lemma cut_full e vis : cut e (map (answered e) vis) vis.
  Proof. induction vis as [|[p r] vis IH]; simpl; constructor. exact IH. Qed.

  Lemma cut_nested e vis l : prefix l (nested e vis) -> cut e (handler_calls l) vis.
  Proof.
    revert l; induction vis as [|[p r] vis IH]; intros l [z H]; simpl in H.
    - symmetry in H. apply app_eq_nil in H. destruct H as [-> _]. constructor.
    - destruct l as [|c1 l]; [constructor|]. inversion H as [[E1 H1]]; subst.
      destruct l as [|c2 l]; [constructor|]. inversion H1 as [[E2 H2]]; subst.
      destruct l as [|c3 l]; [constructor|]. inversion H2 as [[E3 H3]]; subst.
      simpl. constructor. symmetry in H3.
      destruct (app_prefix_cases _ _ _ _ H3) as [[y Ey]|(y & Ey & Ez)].
      + apply IH. now exists y.
      + subst l. rewrite handler_calls_nested.
        replace (handler_calls y) with (@nil (place * Event m * option (response (State m)))).
        * rewrite app_nil_r. apply cut_full.
        * destruct y as [|c [|? ?]]; simpl in Ez; inversion Ez; reflexivity.
  Qed.

  Lemma cut_log e md vis l : prefix l (dispatch_log m e md vis) -> cut e (handler_calls l) vis.
  Proof.
    destruct md; simpl.
    - destruct vis as [|[p r] vis].
      + intros [z H]. symmetry in H. apply app_eq_nil in H. destruct H as [-> _]. constructor.
      + intros [z H]. simpl in H.
        destruct l as [|c1 l]; [constructor|]. inversion H as [[E1 H1]]; subst.
        destruct l as [|c2 l]; [constructor|]. inversion H1 as [[E2 H2]]; subst.
        destruct l as [|c3 l]; [constructor|]. inversion H2 as [[E3 H3]]; subst.
        destruct l as [|c4 l]; [simpl; constructor; constructor|].
        inversion H3 as [[E4 H4]]; subst. simpl. constructor. apply cut_nested. now exists z.
    - apply cut_rounds.
  Qed.
End Logs.

(** ** Handling an event *)

Section Handle.
  Variable h : hierarchy.
  Variable m : machine.
  Variable stack : nat.
  Hypothesis W : well_formed h m stack.
  Variable md : mode.

  Let Hf := wf_follows W.
  Let Hs := wf_stable W.
  Let Hh := wf_height W.

  Lemma api_handle_run (sm : state_machine m) e cx :
    initialized sm = true ->
    let r := handle_with_context stack md sm e cx in
    handle_run h md e (sm_state sm) (a_out r) (sm_state (a_machine r)) (a_tr r).
  Proof.
    intros Hi. unfold handle_with_context. rewrite Hi. simpl negb. cbv iota.
    unfold dispatch, run_inner, sm_state. cbv zeta.
    destruct (inner_handle m stack md e (state (sm_inner sm))
                (shared_storage (sm_inner sm)) cx) as [o x1 sh1 cx1 t] eqn:E.
    simpl. eapply inner_handle_run; eauto.
  Qed.

  Lemma handle_stays_initialized (sm : state_machine m) e cx :
    initialized sm = true ->
    initialized (a_machine (handle_with_context stack md sm e cx)) = true.
  Proof. intros Hi. unfold handle_with_context. rewrite Hi. exact Hi. Qed.

  Definition hcalls (t : list (obs m)) := handler_calls (calls t).

  Lemma only_acts_no_handler (t : list (obs m)) :
    only_acts t -> Forall (fun c => match c with CHandler _ _ => False | _ => True end) (calls t).
  Proof.
    unfold only_acts. induction t as [|o t IH]; simpl; intros H; constructor.
    - destruct o; simpl in *; auto; discriminate.
    - apply IH. destruct (is_action o); [exact H|discriminate].
  Qed.

  Lemma no_handler_app (l1 l2 : list (call m)) :
    Forall (fun c => match c with CHandler _ _ => False | _ => True end) l1 ->
    Forall (fun c => match c with CHandler _ _ => False | _ => True end) l2 ->
    Forall (fun c => match c with CHandler _ _ => False | _ => True end) (l1 ++ l2).
  Proof. intros; apply Forall_app; auto. Qed.

  Lemma before_no_handler (x t : State m) :
    match call_of (mode_before m md x t) with CHandler _ _ => False | _ => True end.
  Proof. unfold mode_before; now destruct md. Qed.

  Lemma trans_run_no_handler (x t : State m) exs ens o x1 tr :
    trans_run md x t exs ens o x1 tr ->
    Forall (fun c => match c with CHandler _ _ => False | _ => True end) (calls tr).
  Proof.
    intros H; inversion H; subst; unfold calls; simpl; constructor;
      try apply before_no_handler; try constructor;
      rewrite ?map_app; repeat apply no_handler_app;
      try (now apply only_acts_no_handler); simpl; repeat constructor.
  Qed.

  Lemma trans_hcalls (x t : State m) exs ens o x1 tr :
    trans_run md x t exs ens o x1 tr -> handler_calls (calls tr) = [].
  Proof.
    intros H. rewrite <- (app_nil_r (calls tr)). rewrite handler_calls_skip; [reflexivity|].
    eapply trans_run_no_handler; eauto.
  Qed.

  Lemma before_acts (x t : State m) : acts [mode_before m md x t] = [].
  Proof. unfold mode_before; now destruct md. Qed.

  Lemma trans_acts (x t : State m) exs ens o x1 tr :
    trans_run md x t exs ens o x1 tr ->
    prefix (acts tr) (exs ++ ens) /\ (o = Ret tt -> acts tr = exs ++ ens).
  Proof.
    intros H; inversion H; subst;
      try change (mode_before m md x t :: t1) with ([mode_before m md x t] ++ t1);
      try change (mode_before m md x t :: t1 ++ t2)
            with ([mode_before m md x t] ++ t1 ++ t2);
      try change (mode_before m md x t :: t1 ++ t2 ++ [OAfterTransition x0 x1])
            with ([mode_before m md x t] ++ t1 ++ t2 ++ [OAfterTransition x0 x1]);
      rewrite ?acts_app, ?before_acts; simpl; (split; [|try discriminate]).
    - apply prefix_nil.
    - now apply prefix_app_r.
    - now apply prefix_app.
    - rewrite app_nil_r. apply prefix_refl.
    - intros _. now rewrite app_nil_r.
  Qed.

  (** *** C01 *)

  Lemma cut_places e hc vis : cut m e hc vis ->
    prefix (map (fun c => fst (fst c)) hc) (map fst vis).
  Proof.
    induction 1; simpl.
    - apply prefix_nil.
    - now eexists.
    - now apply (prefix_app [_]).
  Qed.

  Lemma answers_places (S : Type) ps (vis : list (place * response S)) a :
    answers ps vis a -> prefix (map fst vis) ps.
  Proof.
    induction 1; simpl.
    - apply prefix_nil.
    - now eexists.
    - now apply (prefix_app [_]).
  Qed.

  Lemma answers_super_init (S : Type) ps (vis : list (place * response S)) a :
    answers ps vis a -> forall v, In v (removelast vis) -> snd v = Super.
  Proof.
    induction 1 as [|p ps r Hr|p ps vis r H IH]; simpl; try tauto.
    destruct vis; simpl in *; [tauto|]. intros v [<-|Hv]; auto.
  Qed.

  Lemma cut_init e hc vis : cut m e hc vis ->
    (forall v, In v (removelast vis) -> snd v = Super) ->
    forall c, In c (removelast hc) -> snd c = Some Super.
  Proof.
    induction 1 as [vis|p r vis|p r hc vis H IH]; simpl; try tauto.
    intros Hv c. destruct hc as [|c' hc]; simpl; [tauto|].
    destruct vis as [|v vis]; [inversion H|].
    intros [<-|Hc]; simpl.
    - f_equal. apply (Hv (p, r)). now left.
    - apply IH; [|exact Hc]. intros v' Hv'. apply Hv. now right.
  Qed.

  Lemma cut_event e hc vis : cut m e hc vis -> forall c, In c hc -> snd (fst c) = e.
  Proof.
    induction 1 as [vis|p r vis|p r hc vis H IH]; simpl.
    - tauto.
    - intros c [<-|[]]. reflexivity.
    - intros c [<-|Hc]; auto.
  Qed.

  (** The dispatch phase of a run, whatever happened afterwards. *)
  Lemma handle_run_dispatch (e : Event m) x o x1 t :
    handle_run h md e x o x1 t ->
    exists ps vis a, upward h (s_disc m x) ps /\ answers ps vis a /\
      cut m e (hcalls t) vis /\ (o = Ret tt -> hcalls t = map (answered m e) vis).
  Proof.
    intros H; inversion H; subst; unfold hcalls; exists ps, vis.
    - exists a. repeat split; auto; [|discriminate]. now apply cut_log with (md := md).
    - exists a. repeat split; auto.
      + match goal with E : calls _ = _ |- _ => rewrite E end.
        apply cut_log with (md := md). apply prefix_refl.
      + intros _. match goal with E : calls _ = _ |- _ => rewrite E end.
        rewrite <- (app_nil_r (dispatch_log _ _ _ _)), handler_calls_log. apply app_nil_r.
    - exists (Transition target). rewrite calls_app.
      match goal with E : calls t0 = _ |- _ => rewrite E end.
      match goal with R : trans_run _ _ _ _ _ _ _ _ |- _ => rewrite handler_calls_log, (trans_hcalls R) end.
      rewrite app_nil_r. repeat split; auto. apply cut_full.
  Qed.

  Lemma handle_dispatch_order (sm : state_machine m) e cx :
    initialized sm = true ->
    let r := handle_with_context stack md sm e cx in
    let hc := handler_calls (calls (a_tr r)) in
    exists ps, upward h (s_disc m (sm_state sm)) ps /\
      prefix (map (fun c => fst (fst c)) hc) ps /\
      (forall c, In c hc -> snd (fst c) = e) /\
      (forall c, In c (removelast hc) -> snd c = Some Super) /\
      (a_out r = Ret tt ->
       exists vis a, answers ps vis a /\ hc = map (fun v => (fst v, e, Some (snd v))) vis).
  Proof.
    intros Hi r hc. pose proof (api_handle_run sm e cx Hi) as H. cbv zeta in H.
    apply handle_run_dispatch in H. destruct H as (ps & vis & a & Hu & Ha & Hc & Hr).
    exists ps. split; [exact Hu|]. split.
    { eapply prefix_trans; [apply (cut_places Hc)|]. eapply answers_places; eauto. }
    split; [apply (cut_event Hc)|]. split.
    { apply (cut_init Hc). eapply answers_super_init; eauto. }
    intros Ho. exists vis, a. split; [exact Ha|]. exact (Hr Ho).
  Qed.

  (** *** C02 *)

  Lemma cut_transition e hc ps vis a t : cut m e hc vis -> answers ps vis a ->
    forall p e', In (p, e', Some (Transition t)) hc -> a = Transition t /\ hc = map (answered m e) vis.
  Proof.
    intros Hc; revert ps; induction Hc as [vis|p r vis|p r hc vis H IH]; simpl;
      intros ps Ha q e' Hin; [tauto| |].
    - destruct Hin as [E|[]]. discriminate.
    - inversion Ha; subst.
      + inversion H; subst. simpl in Hin. destruct Hin as [E|[]]. inversion E; subst. auto.
      + destruct Hin as [E|Hin]; [discriminate|].
        match goal with Ha' : answers _ vis a |- _ =>
          destruct (IH _ Ha' _ _ Hin) as (-> & ->) end. auto.
  Qed.

  Definition no_transition_answer (t : list (obs m)) : Prop :=
    forall p e s, ~ In (p, e, Some (Transition s)) (handler_calls (calls t)).

  Lemma answers_in (S : Type) ps (vis : list (place * response S)) t :
    answers ps vis (Transition t) -> exists p, In (p, Transition t) vis.
  Proof.
    intros H. remember (Transition t) as a. induction H; subst; try discriminate.
    - exists p. now left.
    - destruct IHanswers as [q Hq]; auto. exists q. now right.
  Qed.

  Lemma handle_no_transition (sm : state_machine m) e cx :
    initialized sm = true ->
    let r := handle_with_context stack md sm e cx in
    no_transition_answer (a_tr r) ->
    acts (a_tr r) = [] /\ forallb (fun o => negb (is_transition_hook o)) (a_tr r) = true /\
    s_disc m (sm_state (a_machine r)) = s_disc m (sm_state sm).
  Proof.
    intros Hi r Hn. pose proof (api_handle_run sm e cx Hi) as H. cbv zeta in H. fold r in H.
    inversion H; subst.
    - assert (D : Forall (@dispatchy m) (calls (a_tr r))).
      { eapply Forall_prefix; eauto. apply dispatch_log_dispatchy. }
      auto using dispatchy_acts, dispatchy_no_transition_hook.
    - assert (D : Forall (@dispatchy m) (calls (a_tr r))).
      { match goal with E : calls _ = _ |- _ => rewrite E end. apply dispatch_log_dispatchy. }
      auto using dispatchy_acts, dispatchy_no_transition_hook.
    - exfalso.
      match goal with Ha : answers _ _ _ |- _ => destruct (answers_in Ha) as [p Hp] end.
      eapply (Hn p e target).
      match goal with E : _ ++ _ = a_tr r |- _ => rewrite <- E end.
      rewrite calls_app.
      match goal with E : calls t = _ |- _ => rewrite E end.
      rewrite handler_calls_log. apply in_or_app. left.
      change (p, e, Some (Transition target)) with (answered m e (p, Transition target)).
      now apply in_map.
  Qed.

  (** *** Runs with a transition *)

  Lemma handle_with_transition (sm : state_machine m) e cx p e' target :
    initialized sm = true ->
    let r := handle_with_context stack md sm e cx in
    In (p, e', Some (Transition target)) (handler_calls (calls (a_tr r))) ->
    (exists w t ps vis a,
        a_out r = Abort w /\ user w /\ a_tr r = t /\ upward h (s_disc m (sm_state sm)) ps /\
        answers ps vis a /\ a = Transition target /\ prefix (calls t) (dispatch_log m e md vis) /\
        s_disc m (sm_state (a_machine r)) = s_disc m (sm_state sm)) \/
    (exists x0 t t' ps vis exs ens,
        s_disc m x0 = s_disc m (sm_state sm) /\
        upward h (s_disc m (sm_state sm)) ps /\ answers ps vis (Transition target) /\
        calls t = dispatch_log m e md vis /\ a_tr r = t ++ t' /\
        legs h (s_disc m (sm_state sm)) (s_disc m target) exs ens /\
        trans_run md x0 target exs ens (a_out r) (sm_state (a_machine r)) t').
  Proof.
    intros Hi r Hin. pose proof (api_handle_run sm e cx Hi) as H. cbv zeta in H. fold r in H.
    remember (a_out r) as o. remember (sm_state (a_machine r)) as x1.
    remember (a_tr r) as tr. destruct H.
    - left. pose proof (@cut_log m e md vis _ H4) as Hcut. pose proof (cut_transition _ Hcut H3 _ _ Hin) as (-> & _). 
      exists w, t, ps, vis, (Transition target). repeat split; auto.
    - exfalso.
      match goal with Ha : answers _ _ _, E : calls t = _ |- _ =>
        rewrite E in Hin; rewrite <- (app_nil_r (dispatch_log _ _ _ _)) in Hin;
        destruct (cut_transition target (cut_full m e vis) Ha p e') as (Et & _) end.
      + rewrite handler_calls_log, app_nil_r in Hin. exact Hin.
      + match goal with Hn : forall s, _ <> _ |- _ => now apply (Hn target) end.
    - right.
      assert (target0 = target) as ->.
      { match goal with Ha : answers _ _ _, R : trans_run _ _ _ _ _ _ _ _, E : calls t = _ |- _ =>
          rewrite calls_app, E, handler_calls_log, (trans_hcalls R), app_nil_r in Hin;
          destruct (cut_transition target (cut_full m e vis) Ha _ _ Hin) as (Et & _) end.
        now inversion Et. }
      exists x0, t, t', ps, vis, exs, ens. repeat (split; [assumption || reflexivity|]); assumption.
  Qed.

  Lemma dispatch_log_acts (t : list (obs m)) e vis : calls t = dispatch_log m e md vis -> acts t = [].
  Proof. intros E. apply dispatchy_acts. rewrite E. apply dispatch_log_dispatchy. Qed.

  Lemma dispatch_prefix_acts (t : list (obs m)) e vis : prefix (calls t) (dispatch_log m e md vis) -> acts t = [].
  Proof.
    intros E. apply dispatchy_acts. eapply Forall_prefix; eauto. apply dispatch_log_dispatchy.
  Qed.

  Lemma route_exists s t : exists l, route h s t l.
  Proof.
    destruct (Nat.eq_dec s t) as [->|Hne].
    - eexists. left. split; reflexivity.
    - destruct (height_chain (leaf_parent h s) Hh) as (l1 & H1 & _).
      destruct (height_chain (leaf_parent h t) Hh) as (l2 & H2 & _).
      assert (G : forall p q : list place, exists c xs ys, p = c ++ xs /\ q = c ++ ys /\ diverge xs ys).
      { induction p as [|a p IH]; intros q.
        - exists [], [], q. repeat split.
        - destruct q as [|b q]; [exists [], (a :: p), []; repeat split|].
          assert (D : a = b \/ a <> b) by (repeat decide equality).
          destruct D as [->|D].
          + destruct (IH q) as (c & xs & ys & -> & -> & Hd). exists (b :: c), xs, ys. auto.
          + exists [], (a :: p), (b :: q). repeat split. exact D. }
      destruct (G (map AtSuper (rev l1) ++ [AtState s]) (map AtSuper (rev l2) ++ [AtState t]))
        as (c & xs & ys & E1 & E2 & D).
      eexists. right. split; [exact Hne|]. exists c, xs, ys.
      split; [exists l1; split; [exact H1|now symmetry]|].
      split; [exists l2; split; [exact H2|now symmetry]|]. split; [exact D|reflexivity].
  Qed.

  Lemma handle_transition_route (sm : state_machine m) e cx p e' target :
    initialized sm = true ->
    let r := handle_with_context stack md sm e cx in
    In (p, e', Some (Transition target)) (handler_calls (calls (a_tr r))) ->
    exists full, route h (s_disc m (sm_state sm)) (s_disc m target) full /\
      prefix (acts (a_tr r)) full /\
      (a_out r = Ret tt -> acts (a_tr r) = full /\
                           s_disc m (sm_state (a_machine r)) = s_disc m target).
  Proof.
    intros Hi r Hin.
    destruct (handle_with_transition sm e cx _ _ _ Hi Hin)
      as [(w & t & ps & vis & a & Ho & Hw & Et & Hu & Ha & -> & Hp & Ed)
         |(x0 & t & t' & ps & vis & exs & ens & Ed & Hu & Ha & Ec & Et & L & R)].
    - destruct (route_exists (s_disc m (sm_state sm)) (s_disc m target)) as [l Hl].
      exists l. split; [exact Hl|]. fold r in Et, Ho. rewrite Ho, Et. split; [|discriminate].
      rewrite (dispatch_prefix_acts _ _ _ Hp). apply prefix_nil.
    - exists (exs ++ ens). split; [apply L|]. fold r in Et, R. rewrite Et, acts_app.
      rewrite (dispatch_log_acts _ _ _ Ec). simpl. split; [apply (trans_acts R)|].
      intros Ho. split; [now apply (trans_acts R)|]. rewrite Ho in R.
      inversion R; auto.
  Qed.
End Handle.
