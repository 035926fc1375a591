(** DispatchProofs.v — the shape of event dispatch in both modes. *)

From Coq Require Import List Bool Arith Lia.
From Verif Require Import Machine Blocking Awaitable Api Spec TripleProofs ShapeProofs.
Import ListNotations.
Set Implicit Arguments.

Section Dispatch.
  Variable h : hierarchy.
  Variable m : machine.
  Hypothesis Hf : follows h m.
  Hypothesis Hs : stable m.
  Variable stack : nat.
  Hypothesis Hh : height_at_most stack h.
  Variable e : Event m.

  Lemma calls_app (t1 t2 : list (obs m)) : calls (t1 ++ t2) = calls t1 ++ calls t2.
  Proof. apply map_app. Qed.

  (** *** Single calls *)

  Lemma u_handler_run u sh cx o u1 sh1 cx1 t :
    u_call_handler m e u sh cx = Res o u1 sh1 cx1 t ->
    u_disc m u1 = u_disc m u /\
    match o with
    | Ret r => calls t = [CHandler (AtSuper (u_disc m u)) e; CReturn r]
    | Abort w => user w /\ calls t = [CHandler (AtSuper (u_disc m u)) e]
    end.
  Proof.
    intros H. unfold u_call_handler, s_call_handler in H. apply handler_run in H. destruct H as (r & Hr & -> & ->). split.
    - eapply (st_u_handler Hs); eauto.
    - destruct r; simpl; unfold user; auto.
  Qed.

  Lemma s_handler_run x sh cx o x1 sh1 cx1 t :
    s_call_handler m e x sh cx = Res o x1 sh1 cx1 t ->
    s_disc m x1 = s_disc m x /\
    match o with
    | Ret r => calls t = [CHandler (AtState (s_disc m x)) e; CReturn r]
    | Abort w => user w /\ calls t = [CHandler (AtState (s_disc m x)) e]
    end.
  Proof.
    intros H. unfold u_call_handler, s_call_handler in H. apply handler_run in H. destruct H as (r & Hr & -> & ->). split.
    - eapply (st_s_handler Hs); eauto.
    - destruct r; simpl; unfold user; auto.
  Qed.

  Lemma answers_exists ps : exists vis (r : response (State m)), answers ps vis r.
  Proof.
    destruct ps as [|p ps].
    - exists [], Super. constructor.
    - exists [(p, Handled)], Handled. constructor. discriminate.
  Qed.

  Lemma answers_handled p ps : answers (p :: ps) [(p, @Handled (State m))] Handled.
  Proof. constructor. discriminate. Qed.

  (** What a run that asks the nodes [ps] looks like, the log of the complete dispatch
      being [render vis]; [fin] is how the result relates to the answer found. *)
  Definition asked (ps : list place)
      (render : list (place * response (State m)) -> list (call m))
      (fin : response (State m) -> response (State m))
      (o : outcome (response (State m))) (t : list (obs m)) : Prop :=
    match o with
    | Ret r => exists vis a, answers ps vis a /\ r = fin a /\ calls t = render vis
    | Abort w => user w /\ t <> [] /\
                 exists vis a, answers ps vis a /\ prefix (calls t) (render vis)
    end.

  (** How the awaitable `loop` reports the top's "super". *)
  Definition top_handled (a : response (State m)) : response (State m) :=
    match a with Super => Handled | _ => a end.

  Lemma handle_loop_asked n : forall u l sh cx o u1 sh1 cx1 t,
    chain h (Some (u_disc m u)) l -> length l <= n ->
    handle_loop m n e u sh cx = Res o u1 sh1 cx1 t ->
    u_disc m u1 = u_disc m u /\ asked (map AtSuper l) (rounds e) top_handled o t.
  Proof.
    induction n as [|n IH]; intros u l sh cx o u1 sh1 cx1 t Hc Hn H.
    { apply chain_length_pos in Hc. lia. }
    inversion Hc as [|? l' Hl']; subst. simpl in Hn.
    cbn [handle_loop] in H. rewrite self_bind_run in H.
    apply bind_run in H. destruct H as [(w & -> & H)|(a1 & u2 & sh2 & cx2 & t2 & t3 & H1 & H & ->)].
    { hook_in H. destruct H as (-> & -> & -> & Hw). split; [reflexivity|].
      split; [now apply Hw|]. split; [discriminate|].
      eexists _, _. split; [apply answers_handled|]. simpl. now eexists. }
    hook_in H1. destruct H1 as (-> & -> & -> & _).
    apply bind_run in H. destruct H as [(w & -> & H)|(a2 & u4 & sh4 & cx4 & t4 & t5 & H2 & H & ->)].
    { apply u_handler_run in H. destruct H as (Ed & Hw & Et). split; [exact Ed|].
      split; [exact Hw|]. split; [discriminate|].
      eexists _, _. split; [apply answers_handled|]. simpl. rewrite Et. now eexists. }
    apply u_handler_run in H2. destruct H2 as (Ed & Et4).
    rewrite self_bind_run in H.
    apply bind_run in H. destruct H as [(w & -> & H)|(a5 & u5 & sh5 & cx5 & t6 & t7 & H3 & H & ->)].
    { hook_in H. destruct H as (-> & -> & -> & Hw). split; [exact Ed|].
      split; [now apply Hw|]. split; [discriminate|].
      destruct a2.
      - eexists _, _. split; [apply answers_handled|]. rewrite !calls_app, Et4. simpl.
        rewrite Ed. apply prefix_refl.
      - destruct (answers_exists (map AtSuper l')) as (vis & r & Hv).
        eexists _, _. split; [simpl; apply answers_super; exact Hv|].
        rewrite !calls_app, Et4. simpl. rewrite Ed. now eexists.
      - eexists _, _. split; [simpl; apply (@answers_stop _ _ _ (Transition s)); discriminate|].
        rewrite !calls_app, Et4. simpl. rewrite Ed. now eexists. }
    hook_in H3. destruct H3 as (-> & -> & -> & _).
    destruct a2 as [| |s].
    - apply ret_run in H. destruct H as (-> & -> & -> & -> & ->). split; [exact Ed|].
      cbn [asked]. eexists _, _. split; [apply answers_handled|]. split; [reflexivity|].
      rewrite !calls_app, Et4. simpl. now rewrite Ed.
    - rewrite self_bind_run in H. destruct (u_super m u4) as [v|] eqn:Eu4.
      + pose proof (sup_some Hf _ Eu4) as Ep. rewrite Ed in Ep. rewrite Ep in Hl'.
        apply via_run in H. destruct H as (v1 & H & ->).
        apply IH with (l := l') in H; [|exact Hl'|lia]. destruct H as (Ev & Ha).
        split; [rewrite (fo_u_put Hf _ _ Eu4 Ev); exact Ed|].
        destruct o as [r|w]; cbn [asked] in Ha |- *.
        * destruct Ha as (vis & a & Hv & Er & Et). eexists _, _.
          split; [apply answers_super; exact Hv|]. split; [exact Er|].
          rewrite !calls_app, Et4, Et. simpl. now rewrite Ed.
        * destruct Ha as (Hw & Hne & vis & a & Hv & Hp). split; [exact Hw|].
          split; [discriminate|]. eexists _, _.
          split; [apply answers_super; exact Hv|].
          rewrite !calls_app, Et4. simpl. rewrite Ed.
          apply (prefix_app [_; _; _; _]). exact Hp.
      + pose proof (sup_none Hf _ Eu4) as Ep. rewrite Ed in Ep. rewrite Ep in Hl'.
        inversion Hl'; subst.
        apply ret_run in H. destruct H as (-> & -> & -> & -> & ->). split; [exact Ed|].
        cbn [asked]. eexists _, _. split; [apply answers_super; apply answers_top|].
        split; [reflexivity|]. rewrite !calls_app, Et4. simpl. now rewrite Ed.
    - apply ret_run in H. destruct H as (-> & -> & -> & -> & ->). split; [exact Ed|].
      cbn [asked]. eexists _, _.
      split; [apply (@answers_stop _ _ _ (Transition s)); discriminate|].
      split; [reflexivity|]. rewrite !calls_app, Et4. simpl. now rewrite Ed.
  Qed.

  (** Without the hooks around the first node. *)
  Definition nested_body (vis : list (place * response (State m))) : list (call m) :=
    match vis with
    | [] => []
    | (p, r) :: vis' => [CHandler p e; CReturn r] ++ nested e vis'
    end.

  Lemma nested_unfold p ps vis a : answers (p :: ps) vis a ->
    nested e vis = CBeforeDispatch p e :: nested_body vis ++ [CAfterDispatch p e].
  Proof. intros H; inversion H; subst; reflexivity. Qed.

  Lemma superstate_handle_asked n : forall u l sh cx o u1 sh1 cx1 t,
    chain h (Some (u_disc m u)) l -> length l <= n ->
    superstate_handle m n e u sh cx = Res o u1 sh1 cx1 t ->
    u_disc m u1 = u_disc m u /\ asked (map AtSuper l) nested_body (fun a => a) o t.
  Proof.
    induction n as [|n IH]; intros u l sh cx o u1 sh1 cx1 t Hc Hn H.
    { apply chain_length_pos in Hc. lia. }
    inversion Hc as [|? l' Hl']; subst. simpl in Hn.
    cbn [superstate_handle] in H.
    apply bind_run in H. destruct H as [(w & -> & H)|(a2 & u4 & sh4 & cx4 & t4 & t5 & H2 & H & ->)].
    { apply u_handler_run in H. destruct H as (Ed & Hw & Et). split; [exact Ed|].
      split; [exact Hw|]. split; [intros ->; discriminate|].
      eexists _, _. split; [apply answers_handled|]. simpl. rewrite Et. now eexists. }
    apply u_handler_run in H2. destruct H2 as (Ed & Et4).
    assert (Hne : t4 <> []) by (intros ->; discriminate).
    destruct a2 as [| |s].
    - apply ret_run in H. destruct H as (-> & -> & -> & -> & ->). split; [exact Ed|].
      cbn [asked]. eexists _, _. split; [apply answers_handled|]. split; [reflexivity|].
      rewrite !calls_app, Et4. reflexivity.
    - rewrite self_bind_run in H. destruct (u_super m u4) as [v|] eqn:Eu4.
      + pose proof (sup_some Hf _ Eu4) as Ep. rewrite Ed in Ep. rewrite Ep in Hl'.
        apply via_run in H. destruct H as (v1 & H & ->).
        rewrite self_bind_run in H.
        apply bind_run in H. destruct H as [(w & -> & H)|(a5 & v5 & sh5 & cx5 & t6 & t7 & H3 & H & ->)].
        { hook_in H. destruct H as (-> & -> & -> & Hw).
          split; [rewrite (fo_u_put Hf _ _ Eu4 eq_refl); exact Ed|].
          split; [now apply Hw|]. split; [now destruct t4|].
          inversion Hl' as [|? l2 Hl2]; subst.
          eexists _, _. split; [apply answers_super; apply answers_handled|].
          rewrite !calls_app, Et4. simpl. now eexists. }
        hook_in H3. destruct H3 as (-> & -> & -> & _).
        apply bind_run in H. destruct H as [(w & -> & H)|(a6 & v6 & sh6 & cx6 & t8 & t9 & H4 & H & ->)].
        { apply IH with (l := l') in H; [|exact Hl'|lia]. destruct H as (Ev & Hw & Hne' & vis & a & Hv & Hp).
          split; [rewrite (fo_u_put Hf _ _ Eu4 Ev); exact Ed|].
          split; [exact Hw|]. split; [now destruct t4|].
          eexists _, _. split; [apply answers_super; exact Hv|].
          inversion Hl' as [|? l2 Hl2]; subst.
          rewrite !calls_app, Et4. cbn [nested_body]. rewrite (nested_unfold Hv).
          apply prefix_app. simpl. apply (prefix_app [_]). now apply prefix_app_r. }
        apply IH with (l := l') in H4; [|exact Hl'|lia].
        destruct H4 as (Ev & vis & a & Hv & -> & Et8).
        inversion Hl' as [|? l2 Hl2]; subst.
        rewrite self_bind_run in H.
        apply bind_run in H. destruct H as [(w & -> & H)|(a7 & v7 & sh7 & cx7 & t10 & t11 & H5 & H & ->)].
        { hook_in H. destruct H as (-> & -> & -> & Hw).
          split; [rewrite (fo_u_put Hf _ _ Eu4 Ev); exact Ed|].
          split; [now apply Hw|]. split; [now destruct t4|].
          eexists _, _. split; [apply answers_super; exact Hv|].
          rewrite !calls_app, Et4, Et8. cbn [nested_body]. rewrite (nested_unfold Hv).
          simpl. rewrite Ev. apply prefix_refl. }
        hook_in H5. destruct H5 as (-> & -> & -> & _).
        apply ret_run in H. destruct H as (-> & -> & -> & -> & ->).
        split; [rewrite (fo_u_put Hf _ _ Eu4 Ev); exact Ed|].
        cbn [asked]. eexists _, _. split; [apply answers_super; exact Hv|]. split; [reflexivity|].
        rewrite !calls_app, Et4, Et8. cbn [nested_body]. rewrite (nested_unfold Hv).
        simpl. now rewrite Ev.
      + pose proof (sup_none Hf _ Eu4) as Ep. rewrite Ed in Ep. rewrite Ep in Hl'.
        inversion Hl'; subst.
        apply ret_run in H. destruct H as (-> & -> & -> & -> & ->). split; [exact Ed|].
        cbn [asked]. eexists _, _. split; [apply answers_super; apply answers_top|].
        split; [reflexivity|]. rewrite !calls_app, Et4. reflexivity.
    - apply ret_run in H. destruct H as (-> & -> & -> & -> & ->). split; [exact Ed|].
      cbn [asked]. eexists _, _.
      split; [apply (@answers_stop _ _ _ (Transition s)); discriminate|].
      split; [reflexivity|]. rewrite !calls_app, Et4. reflexivity.
  Qed.

  (** *** The whole dispatch, starting at the leaf *)

  Definition mode_state_handle (md : mode) : comp m (State m) (response (State m)) :=
    match md with
    | BlockingMode => Blocking.state_handle m stack e
    | AwaitableMode => Awaitable.state_handle m stack e
    end.

  (** In blocking mode, only the hooks of superstates are nested. *)
  Definition dispatch_log (md : mode) (vis : list (place * response (State m)))
    : list (call m) :=
    match md, vis with
    | AwaitableMode, _ => rounds e vis
    | BlockingMode, v :: vis' => rounds e [v] ++ nested e vis'
    | BlockingMode, [] => []
    end.

  (** The part of the dispatch after the leaf has said "super". *)
  Definition above (md : mode) : comp m (State m) (response (State m)) :=
    match md with
    | BlockingMode =>
        bind self (fun x =>
        match s_super m x with
        | Some u =>
            via (s_put m) u
              (bind self (fun u0 => bind (before_dispatch m (NSuper u0) e) (fun _ =>
               bind (superstate_handle m stack e) (fun response =>
               bind self (fun u1 => bind (after_dispatch m (NSuper u1) e) (fun _ =>
               ret response))))))
        | None => ret Super
        end)
    | AwaitableMode =>
        bind self (fun x =>
        match s_super m x with
        | Some u => via (s_put m) u (handle_loop m stack e)
        | None => ret Super
        end)
    end.

  Definition same_decision (a b : response (State m)) : Prop :=
    forall t, a = Transition t <-> b = Transition t.

  Lemma above_asked md x l sh cx o x1 sh1 cx1 t :
    chain h (leaf_parent h (s_disc m x)) l ->
    above md x sh cx = Res o x1 sh1 cx1 t ->
    s_disc m x1 = s_disc m x /\
    match o with
    | Ret r => exists vis a, answers (map AtSuper l) vis a /\ same_decision a r /\
                 (md = BlockingMode -> r = a) /\
                 calls t = match md with BlockingMode => nested e vis | AwaitableMode => rounds e vis end
    | Abort w => user w /\ t <> [] /\
        exists vis a, answers (map AtSuper l) vis a /\
          prefix (calls t) match md with BlockingMode => nested e vis | AwaitableMode => rounds e vis end
    end.
  Proof.
    intros Hc H. pose proof (height_bound Hh Hc) as Hl.
    destruct md; unfold above in H; rewrite self_bind_run in H;
      destruct (s_super m x) as [u|] eqn:Ex.
    - rewrite (leaf_some Hf _ Ex) in Hc.
      apply via_run in H. destruct H as (u1 & H & ->). rewrite self_bind_run in H.
      apply bind_run in H. destruct H as [(w & -> & H)|(a5 & v5 & sh5 & cx5 & t6 & t7 & H3 & H & ->)].
      { hook_in H. destruct H as (-> & -> & -> & Hw).
        split; [now apply (fo_s_put Hf _ _ Ex)|].
        split; [now apply Hw|]. split; [discriminate|].
        inversion Hc as [|? l2 Hl2]; subst.
        eexists _, _. split; [apply answers_handled|]. simpl. now eexists. }
      hook_in H3. destruct H3 as (-> & -> & -> & _).
      apply bind_run in H. destruct H as [(w & -> & H)|(a6 & v6 & sh6 & cx6 & t8 & t9 & H4 & H & ->)].
      { apply superstate_handle_asked with (l := l) in H; [|exact Hc|exact Hl].
        destruct H as (Ev & Hw & Hne' & vis & a & Hv & Hp).
        split; [now apply (fo_s_put Hf _ _ Ex)|].
        split; [exact Hw|]. split; [discriminate|].
        inversion Hc as [|? l2 Hl2]; subst.
        eexists _, _. split; [exact Hv|]. rewrite (nested_unfold Hv).
        simpl. apply (prefix_app [_]). now apply prefix_app_r. }
      apply superstate_handle_asked with (l := l) in H4; [|exact Hc|exact Hl].
      destruct H4 as (Ev & vis & a & Hv & -> & Et8).
      inversion Hc as [|? l2 Hl2]; subst.
      rewrite self_bind_run in H.
      apply bind_run in H. destruct H as [(w & -> & H)|(a7 & v7 & sh7 & cx7 & t10 & t11 & H5 & H & ->)].
      { hook_in H. destruct H as (-> & -> & -> & Hw).
        split; [now apply (fo_s_put Hf _ _ Ex)|].
        split; [now apply Hw|]. split; [discriminate|].
        eexists _, _. split; [exact Hv|]. rewrite (nested_unfold Hv).
        rewrite !calls_app, Et8. simpl. rewrite Ev. apply prefix_refl. }
      hook_in H5. destruct H5 as (-> & -> & -> & _).
      apply ret_run in H. destruct H as (-> & -> & -> & -> & ->).
      split; [now apply (fo_s_put Hf _ _ Ex)|].
      eexists _, _. split; [exact Hv|]. split; [now split|]. split; [reflexivity|].
      rewrite (nested_unfold Hv), !calls_app, Et8. simpl. now rewrite Ev.
    - rewrite (leaf_none Hf _ Ex) in Hc. inversion Hc; subst.
      apply ret_run in H. destruct H as (-> & -> & -> & -> & ->). split; [reflexivity|].
      eexists _, _. split; [apply answers_top|]. split; [now split|]. auto.
    - rewrite (leaf_some Hf _ Ex) in Hc.
      apply via_run in H. destruct H as (u1 & H & ->).
      apply handle_loop_asked with (l := l) in H; [|exact Hc|exact Hl]. destruct H as (Ev & H).
      split; [now apply (fo_s_put Hf _ _ Ex)|].
      destruct o as [r|w]; simpl in H.
      + destruct H as (vis & a & Hv & -> & Et). exists vis, a. split; [exact Hv|].
        split; [|split; [discriminate|exact Et]].
        destruct a; simpl; split; intros; congruence.
      + exact H.
    - rewrite (leaf_none Hf _ Ex) in Hc. inversion Hc; subst.
      apply ret_run in H. destruct H as (-> & -> & -> & -> & ->). split; [reflexivity|].
      eexists _, _. split; [apply answers_top|]. split; [now split|]. auto.
  Qed.

  Lemma dispatch_log_cons md v vis :
    dispatch_log md (v :: vis) =
    rounds e [v] ++ match md with BlockingMode => nested e vis | AwaitableMode => rounds e vis end.
  Proof. destruct md, v; reflexivity. Qed.

  Lemma mode_state_handle_eq md x sh cx :
    mode_state_handle md x sh cx =
    bind self (fun x0 => bind (before_dispatch m (NState x0) e) (fun _ =>
    bind (s_call_handler m e) (fun response =>
    bind self (fun x1 => bind (after_dispatch m (NState x1) e) (fun _ =>
    match response with
    | Handled => ret Handled
    | Super => above md
    | Transition t => ret (Transition t)
    end))))) x sh cx.
  Proof. destruct md; reflexivity. Qed.

  Lemma state_handle_asked md x l sh cx o x1 sh1 cx1 t :
    chain h (leaf_parent h (s_disc m x)) l ->
    mode_state_handle md x sh cx = Res o x1 sh1 cx1 t ->
    s_disc m x1 = s_disc m x /\
    match o with
    | Ret r => exists vis a, answers (upl (s_disc m x) l) vis a /\ same_decision a r /\
                 calls t = dispatch_log md vis
    | Abort w => user w /\ t <> [] /\
        exists vis a, answers (upl (s_disc m x) l) vis a /\
          prefix (calls t) (dispatch_log md vis)
    end.
  Proof.
    intros Hc H. rewrite mode_state_handle_eq, self_bind_run in H. unfold upl.
    apply bind_run in H. destruct H as [(w & -> & H)|(a1 & u2 & sh2 & cx2 & t2 & t3 & H1 & H & ->)].
    { hook_in H. destruct H as (-> & -> & -> & Hw). split; [reflexivity|].
      split; [now apply Hw|]. split; [discriminate|].
      eexists _, _. split; [apply answers_handled|]. rewrite dispatch_log_cons. now eexists. }
    hook_in H1. destruct H1 as (-> & -> & -> & _).
    apply bind_run in H. destruct H as [(w & -> & H)|(a2 & u4 & sh4 & cx4 & t4 & t5 & H2 & H & ->)].
    { apply s_handler_run in H. destruct H as (Ed & Hw & Et). split; [exact Ed|].
      split; [exact Hw|]. split; [discriminate|].
      eexists _, _. split; [apply answers_handled|].
      rewrite dispatch_log_cons. simpl. rewrite Et. now eexists. }
    apply s_handler_run in H2. destruct H2 as (Ed & Et4).
    rewrite self_bind_run in H.
    apply bind_run in H. destruct H as [(w & -> & H)|(a5 & u5 & sh5 & cx5 & t6 & t7 & H3 & H & ->)].
    { hook_in H. destruct H as (-> & -> & -> & Hw). split; [exact Ed|].
      split; [now apply Hw|]. split; [discriminate|].
      destruct a2.
      - eexists _, _. split; [apply answers_handled|].
        rewrite dispatch_log_cons, !calls_app, Et4. simpl. rewrite Ed. now eexists.
      - destruct (answers_exists (map AtSuper l)) as (vis & r & Hv).
        eexists _, _. split; [simpl; apply answers_super; exact Hv|].
        rewrite dispatch_log_cons, !calls_app, Et4. simpl. rewrite Ed. now eexists.
      - eexists _, _. split; [simpl; apply (@answers_stop _ _ _ (Transition s)); discriminate|].
        rewrite dispatch_log_cons, !calls_app, Et4. simpl. rewrite Ed. now eexists. }
    hook_in H3. destruct H3 as (-> & -> & -> & _).
    destruct a2 as [| |s].
    - apply ret_run in H. destruct H as (-> & -> & -> & -> & ->). split; [exact Ed|].
      eexists _, _. split; [apply answers_handled|]. split; [now split|].
      rewrite dispatch_log_cons, !calls_app, Et4. simpl. rewrite Ed. now destruct md.
    - rewrite <- Ed in Hc. eapply above_asked in H; [|exact Hc]. destruct H as (Ed' & H).
      split; [congruence|]. destruct o as [r|w].
      + destruct H as (vis & a & Hv & Er & _ & Et). eexists _, _.
        split; [apply answers_super; exact Hv|]. split; [exact Er|].
        rewrite dispatch_log_cons, !calls_app, Et4, Et. simpl. now rewrite Ed.
      + destruct H as (Hw & Hne & vis & a & Hv & Hp). split; [exact Hw|].
        split; [discriminate|]. eexists _, _. split; [apply answers_super; exact Hv|].
        rewrite dispatch_log_cons, !calls_app, Et4. simpl. rewrite Ed.
        apply (prefix_app [_; _; _; _]). exact Hp.
    - apply ret_run in H. destruct H as (-> & -> & -> & -> & ->). split; [exact Ed|].
      eexists _, _. split; [apply (@answers_stop _ _ _ (Transition s)); discriminate|].
      split; [now split|]. rewrite dispatch_log_cons, !calls_app, Et4. simpl. rewrite Ed.
      now destruct md.
  Qed.
End Dispatch.
