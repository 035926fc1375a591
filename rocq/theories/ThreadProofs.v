(** ThreadProofs.v — data flow: under the laws of mutable borrows, every library call is
    the sequential composition of its callbacks. *)

From Coq Require Import List Bool Arith Lia.
From Verif Require Import Machine Blocking Awaitable Api Spec TripleProofs ShapeProofs
  DispatchProofs TransitionProofs ApiProofs.
Import ListNotations.
Set Implicit Arguments.

Definition done {A} (o : outcome A) : outcome unit :=
  match o with Ret _ => Ret tt | Abort w => Abort w end.

Section Threads.
  Variable h : hierarchy.
  Variable m : machine.
  Hypothesis Hf : follows h m.
  Hypothesis Hs : stable m.
  Hypothesis Hv : faithful_views m.

  Notation ND := (node (State m) (Sup m)).

  (** *** Generic facts *)

  Section Generic.
    Variable X : Type.
    Variable T : X -> ND -> ND -> X -> Prop.

    Lemma thread_app tr1 c c1 tr2 o c2 :
      thread (m := m) T tr1 c (Ret tt) c1 -> thread T tr2 c1 o c2 -> thread T (tr1 ++ tr2) c o c2.
    Proof.
      intros H. remember (Ret tt) as r eqn:E. revert E.
      induction H; intros E H2; simpl; try discriminate; auto.
      - eapply thread_call; eauto.
      - eapply thread_answer; eauto.
    Qed.

    (** [c] makes its callbacks one after the other, when started from [x] with [P x]. *)
    Definition threads {A} (P : X -> Prop) (c : comp m X A) : Prop :=
      forall x sh cx, P x ->
        let r := c x sh cx in
        P (r_self r) /\ thread T (r_tr r) (x, sh, cx) (done (r_out r)) (r_self r, r_sh r, r_cx r).

    Lemma threads_ret {A} (P : X -> Prop) (a : A) : threads P (ret a).
    Proof. intros x sh cx HP. split; [exact HP|constructor]. Qed.

    Lemma threads_bind {A B} (P : X -> Prop) (c : comp m X A) (k : A -> comp m X B) :
      threads P c -> (forall a, threads P (k a)) -> threads P (bind c k).
    Proof.
      intros Hc Hk x sh cx HP. destruct (Hc x sh cx HP) as [H1 H2].
      unfold bind. destruct (r_out (c x sh cx)) as [a|w] eqn:E; simpl in *.
      - destruct (Hk a _ (r_sh (c x sh cx)) (r_cx (c x sh cx)) H1) as [H3 H4].
        split; [exact H3|]. eapply thread_app; eauto.
      - split; [exact H1|exact H2].
    Qed.

    Lemma threads_self {B} (P : X -> Prop) (k : X -> comp m X B) :
      (forall x sh cx, P x ->
        let r := k x x sh cx in
        P (r_self r) /\ thread T (r_tr r) (x, sh, cx) (done (r_out r)) (r_self r, r_sh r, r_cx r)) ->
      threads P (bind self k).
    Proof. intros H x sh cx HP. rewrite self_bind_run. now apply H. Qed.

    Lemma threads_hook (P : X -> Prop) f o x sh cx :
      P x ->
      (forall r sh', f sh = (r, sh') ->
         callback T o (x, sh, cx) (match outcome_of r with Ret _ => Ret None | Abort w => Abort w end)
                  (x, sh', cx)) ->
      let r := call_hook f o x sh cx in
      P (r_self r) /\ thread T (r_tr r) (x, sh, cx) (done (r_out r)) (r_self r, r_sh r, r_cx r).
    Proof.
      intros HP H. unfold call_hook. destruct (f sh) as [r sh'] eqn:E. simpl.
      split; [exact HP|]. specialize (H r sh' eq_refl). destruct r; simpl in *.
      - eapply thread_call; [exact H|constructor].
      - now constructor.
      - now constructor.
    Qed.
  End Generic.

  (** *** Borrowing *)

  Lemma overwrite_disc u v v' u' :
    overwrite m u v v' u' -> u_disc m v' = u_disc m v -> u_disc m u' = u_disc m u.
  Proof.
    induction 1 as [u u'|u v v' w w' E H IH]; intros Hd; [exact Hd|].
    eapply (fo_u_put Hf); eauto.
  Qed.

  Lemma node_handler_disc n sh cx e r n' sh' cx' :
    node_handler m n sh cx e = (r, n', sh', cx') -> place_of m n' = place_of m n.
  Proof.
    destruct n as [x|u]; simpl.
    - destruct (s_handler m x sh cx e) as [[[r0 x0] sh0] cx0] eqn:E. simpl.
      intros H; inversion H; subst. simpl. now rewrite (st_s_handler Hs _ _ _ _ E).
    - destruct (u_handler m u sh cx e) as [[[r0 x0] sh0] cx0] eqn:E. simpl.
      intros H; inversion H; subst. simpl. now rewrite (st_u_handler Hs _ _ _ _ E).
  Qed.
  Lemma node_entry_disc n sh cx r n' sh' cx' :
    node_entry m n sh cx = (r, n', sh', cx') -> place_of m n' = place_of m n.
  Proof.
    destruct n as [x|u]; simpl.
    - destruct (s_entry m x sh cx) as [[[r0 x0] sh0] cx0] eqn:E. simpl.
      intros H; inversion H; subst. simpl. now rewrite (st_s_entry Hs _ _ _ E).
    - destruct (u_entry m u sh cx) as [[[r0 x0] sh0] cx0] eqn:E. simpl.
      intros H; inversion H; subst. simpl. now rewrite (st_u_entry Hs _ _ _ E).
  Qed.
  Lemma node_exit_disc n sh cx r n' sh' cx' :
    node_exit m n sh cx = (r, n', sh', cx') -> place_of m n' = place_of m n.
  Proof.
    destruct n as [x|u]; simpl.
    - destruct (s_exit m x sh cx) as [[[r0 x0] sh0] cx0] eqn:E. simpl.
      intros H; inversion H; subst. simpl. now rewrite (st_s_exit Hs _ _ _ E).
    - destruct (u_exit m u sh cx) as [[[r0 x0] sh0] cx0] eqn:E. simpl.
      intros H; inversion H; subst. simpl. now rewrite (st_u_exit Hs _ _ _ E).
  Qed.

  Section Lift.
    Variable X : Type.
    Variable T : X -> ND -> ND -> X -> Prop.
    Variable put : X -> Sup m -> X.
    Variable x : X.
    Variable v : Sup m.
    Hypothesis Hlift : forall v1 n n' v2, u_disc m v1 = u_disc m v ->
      overwrite m v1 n n' v2 -> T (put x v1) (NSuper n) (NSuper n') (put (put x v1) v2).
    Hypothesis Hpp : forall v1 v2, u_disc m v1 = u_disc m v -> u_disc m v2 = u_disc m v ->
      put (put x v1) v2 = put x v2.

    Lemma lift_touch v1 n n' v2 :
      u_disc m v1 = u_disc m v -> touches_above m v1 n n' v2 -> place_of m n' = place_of m n ->
      u_disc m v2 = u_disc m v /\ T (put x v1) n n' (put x v2).
    Proof.
      intros Hd H Hn. inversion H; subst.
      match goal with O : overwrite _ _ _ _ _ |- _ => pose proof (overwrite_disc O) as D end.
      simpl in Hn. inversion Hn. assert (u_disc m v2 = u_disc m v) by (rewrite D; auto).
      split; [assumption|]. rewrite <- (Hpp v1 v2); auto.
    Qed.

    Lemma lift_sees v1 n : u_disc m v1 = u_disc m v -> sees (touches_above m) v1 n -> sees T (put x v1) n.
    Proof.
      intros Hd (n' & v2 & H). inversion H; subst. eexists _, _. eapply Hlift; eauto.
    Qed.

    Lemma lift_callback o v1 sh cx a v2 sh2 cx2 :
      callback (touches_above m) o (v1, sh, cx) a (v2, sh2, cx2) -> u_disc m v1 = u_disc m v ->
      u_disc m v2 = u_disc m v /\ callback T o (put x v1, sh, cx) a (put x v2, sh2, cx2).
    Proof.
      intros H Hd.
      inversion H; subst;
        try (match goal with Ht : touches_above _ _ _ _ _ |- _ =>
               apply lift_touch in Ht;
               [ destruct Ht as [Hd2 Ht]; split; [exact Hd2|econstructor; eassumption]
               | exact Hd
               | first [ eapply node_handler_disc; eassumption
                       | eapply node_entry_disc; eassumption
                       | eapply node_exit_disc; eassumption ] ] end);
        (split; [exact Hd|]); try (econstructor; eauto using lift_sees).
    Qed.

    Lemma lift_thread tr c o c' : thread (touches_above m) tr c o c' ->
      u_disc m (fst (fst c)) = u_disc m v ->
      thread T tr (put x (fst (fst c)), snd (fst c), snd c) o
             (put x (fst (fst c')), snd (fst c'), snd c').
    Proof.
      induction 1 as [c|o [[v1 sh] cx] w [[v2 sh2] cx2] Hc
                     |o [[v1 sh] cx] [[v2 sh2] cx2] tr out c' Hc Ht IH
                     |o r [[v1 sh] cx] [[v2 sh2] cx2] tr out c' Hc Ht IH]; simpl; intros Hd.
      - constructor.
      - constructor. now apply lift_callback.
      - eapply lift_callback in Hc; [|exact Hd]. destruct Hc as [Hd2 Hc]. simpl in IH.
        eapply thread_call; eauto.
      - eapply lift_callback in Hc; [|exact Hd]. destruct Hc as [Hd2 Hc]. simpl in IH.
        eapply thread_answer; eauto.
    Qed.
  End Lift.

  Definition at_disc (k : nat) (u : Sup m) : Prop := u_disc m u = k.
  Definition at_leaf (k : nat) (x : State m) : Prop := s_disc m x = k.

  Lemma via_threads_leaf {A} (c : comp m (Sup m) A) x v sh cx :
    threads (touches_above m) (at_disc (u_disc m v)) c -> s_super m x = Some v ->
    let r := via (s_put m) v c x sh cx in
    s_disc m (r_self r) = s_disc m x /\
    thread (touches m) (r_tr r) (x, sh, cx) (done (r_out r)) (r_self r, r_sh r, r_cx r).
  Proof.
    intros Hc E. destruct (Hc v sh cx eq_refl) as [Hd Ht]. unfold via. simpl.
    split; [eapply (fo_s_put Hf); eauto|].
    apply (@lift_thread _ (touches m) (s_put m) x v) in Ht; simpl in Ht; auto.
    - rewrite (fv_s_get_put Hv _ E) in Ht. exact Ht.
    - intros v1 n n' v2 H1 Ho. econstructor; [|exact Ho].
      eapply (fv_s_put_get Hv); eauto.
    - intros v1 v2 H1 H2. eapply (fv_s_put_put Hv); eauto.
  Qed.

  Lemma via_threads_sup {A} (c : comp m (Sup m) A) u v sh cx :
    threads (touches_above m) (at_disc (u_disc m v)) c -> u_super m u = Some v ->
    let r := via (u_put m) v c u sh cx in
    u_disc m (r_self r) = u_disc m u /\
    thread (touches_above m) (r_tr r) (u, sh, cx) (done (r_out r)) (r_self r, r_sh r, r_cx r).
  Proof.
    intros Hc E. destruct (Hc v sh cx eq_refl) as [Hd Ht]. unfold via. simpl.
    split; [eapply (fo_u_put Hf); eauto|].
    apply (@lift_thread _ (touches_above m) (u_put m) u v) in Ht; simpl in Ht; auto.
    - rewrite (fv_u_get_put Hv _ E) in Ht. exact Ht.
    - intros v1 n n' v2 H1 Ho. constructor. econstructor; [|exact Ho].
      eapply (fv_u_put_get Hv); eauto.
    - intros v1 v2 H1 H2. eapply (fv_u_put_put Hv); eauto.
  Qed.

  (** *** Single calls *)

  Lemma sees_here u : sees (touches_above m) u (NSuper u).
  Proof. eexists _, _. constructor. apply overwrite_here. Unshelve. exact u. Qed.
  Lemma sees_leaf x : sees (touches m) x (NState x).
  Proof. eexists _, _. constructor. Unshelve. exact x. Qed.

  Lemma threads_action {X} (T : X -> ND -> ND -> X -> Prop) f ob x sh cx :
    (forall r x' sh' cx', f x sh cx = (r, x', sh', cx') ->
       callback T (ob x) (x, sh, cx)
         (match outcome_of r with Ret _ => Ret None | Abort w => Abort w end) (x', sh', cx')) ->
    let r := call_action f ob x sh cx in
    thread T (r_tr r) (x, sh, cx) (done (r_out r)) (r_self r, r_sh r, r_cx r).
  Proof.
    intros H. unfold call_action. destruct (f x sh cx) as [[[r x'] sh'] cx'] eqn:E. simpl.
    specialize (H _ _ _ _ eq_refl). destruct r; simpl in *.
    - eapply thread_call; [exact H|constructor].
    - now constructor.
    - now constructor.
  Qed.

  Lemma threads_handler {X} (T : X -> ND -> ND -> X -> Prop) f nd e x sh cx :
    (forall r x' sh' cx', f x sh cx e = (r, x', sh', cx') ->
       callback T (OHandler (nd x) e) (x, sh, cx)
         (match outcome_of r with Ret a => Ret (Some a) | Abort w => Abort w end) (x', sh', cx')) ->
    let r := call_handler m f nd e x sh cx in
    thread T (r_tr r) (x, sh, cx) (done (r_out r)) (r_self r, r_sh r, r_cx r).
  Proof.
    intros H. unfold call_handler. destruct (f x sh cx e) as [[[r x'] sh'] cx'] eqn:E. simpl.
    specialize (H _ _ _ _ eq_refl). destruct r; simpl in *.
    - eapply thread_answer; [exact H|constructor].
    - now constructor.
    - now constructor.
  Qed.

  Lemma u_entry_threads k : threads (touches_above m) (at_disc k) (u_call_entry m).
  Proof.
    intros u sh cx Hk. split.
    - unfold u_call_entry, call_action, at_disc.
      destruct (u_entry m u sh cx) as [[[r u'] sh'] cx'] eqn:E. simpl.
      rewrite (st_u_entry Hs _ _ _ E). exact Hk.
    - apply threads_action. intros r u' sh' cx' E.
      eapply cb_entry with (n' := NSuper u'); [constructor; apply overwrite_here|].
      simpl. now rewrite E.
  Qed.
  Lemma u_exit_threads k : threads (touches_above m) (at_disc k) (u_call_exit m).
  Proof.
    intros u sh cx Hk. split.
    - unfold u_call_exit, call_action, at_disc.
      destruct (u_exit m u sh cx) as [[[r u'] sh'] cx'] eqn:E. simpl.
      rewrite (st_u_exit Hs _ _ _ E). exact Hk.
    - apply threads_action. intros r u' sh' cx' E.
      eapply cb_exit with (n' := NSuper u'); [constructor; apply overwrite_here|].
      simpl. now rewrite E.
  Qed.
  Lemma u_handler_threads e k : threads (touches_above m) (at_disc k) (u_call_handler m e).
  Proof.
    intros u sh cx Hk. split.
    - unfold u_call_handler, call_handler, at_disc.
      destruct (u_handler m u sh cx e) as [[[r u'] sh'] cx'] eqn:E. simpl.
      rewrite (st_u_handler Hs _ _ _ _ E). exact Hk.
    - apply threads_handler. intros r u' sh' cx' E.
      eapply cb_handler with (n' := NSuper u'); [constructor; apply overwrite_here|].
      simpl. now rewrite E.
  Qed.
  Lemma s_entry_threads k : threads (touches m) (at_leaf k) (s_call_entry m).
  Proof.
    intros x sh cx Hk. split.
    - unfold s_call_entry, call_action, at_leaf.
      destruct (s_entry m x sh cx) as [[[r u'] sh'] cx'] eqn:E. simpl.
      rewrite (st_s_entry Hs _ _ _ E). exact Hk.
    - apply threads_action. intros r u' sh' cx' E.
      eapply cb_entry with (n' := NState u'); [constructor|].
      simpl. now rewrite E.
  Qed.
  Lemma s_exit_threads k : threads (touches m) (at_leaf k) (s_call_exit m).
  Proof.
    intros x sh cx Hk. split.
    - unfold s_call_exit, call_action, at_leaf.
      destruct (s_exit m x sh cx) as [[[r u'] sh'] cx'] eqn:E. simpl.
      rewrite (st_s_exit Hs _ _ _ E). exact Hk.
    - apply threads_action. intros r u' sh' cx' E.
      eapply cb_exit with (n' := NState u'); [constructor|].
      simpl. now rewrite E.
  Qed.
  Lemma s_handler_threads e k : threads (touches m) (at_leaf k) (s_call_handler m e).
  Proof.
    intros x sh cx Hk. split.
    - unfold s_call_handler, call_handler, at_leaf.
      destruct (s_handler m x sh cx e) as [[[r u'] sh'] cx'] eqn:E. simpl.
      rewrite (st_s_handler Hs _ _ _ _ E). exact Hk.
    - apply threads_handler. intros r u' sh' cx' E.
      eapply cb_handler with (n' := NState u'); [constructor|].
      simpl. now rewrite E.
  Qed.

  Lemma before_dispatch_threads {X} (T : X -> ND -> ND -> X -> Prop) (P : X -> Prop) n e x sh cx :
    P x -> sees T x n ->
    let r := before_dispatch m n e x sh cx in
    P (r_self r) /\ thread T (r_tr r) (x, sh, cx) (done (r_out r)) (r_self r, r_sh r, r_cx r).
  Proof.
    intros HP Hn. apply threads_hook; [exact HP|]. intros r sh' E. econstructor; eauto.
  Qed.
  Lemma after_dispatch_threads {X} (T : X -> ND -> ND -> X -> Prop) (P : X -> Prop) n e x sh cx :
    P x -> sees T x n ->
    let r := after_dispatch m n e x sh cx in
    P (r_self r) /\ thread T (r_tr r) (x, sh, cx) (done (r_out r)) (r_self r, r_sh r, r_cx r).
  Proof.
    intros HP Hn. apply threads_hook; [exact HP|]. intros r sh' E. econstructor; eauto.
  Qed.
  Lemma before_transition_threads {X} (T : X -> ND -> ND -> X -> Prop) (P : X -> Prop) a b :
    threads T P (before_transition m a b).
  Proof.
    intros x sh cx HP. apply threads_hook; [exact HP|]. intros r sh' E. now constructor.
  Qed.
  Lemma after_transition_threads {X} (T : X -> ND -> ND -> X -> Prop) (P : X -> Prop) a b :
    threads T P (after_transition m a b).
  Proof.
    intros x sh cx HP. apply threads_hook; [exact HP|]. intros r sh' E. now constructor.
  Qed.

  (** Hooks run on the node they are shown. *)
  Lemma bind_hook_threads {X B} (T : X -> ND -> ND -> X -> Prop) (P : X -> Prop)
      (c : X -> comp m X unit) (k : X -> comp m X B) :
    (forall x sh cx, P x ->
      let r := c x x sh cx in
      P (r_self r) /\ thread T (r_tr r) (x, sh, cx) (done (r_out r)) (r_self r, r_sh r, r_cx r)) ->
    (forall x, threads T P (k x)) ->
    threads T P (bind self (fun x => bind (c x) (fun _ => k x))).
  Proof.
    intros Hc Hk. apply threads_self. intros x sh cx HP.
    destruct (Hc x sh cx HP) as [H1 H2]. unfold bind.
    destruct (r_out (c x x sh cx)) as [a|w] eqn:E; simpl in *.
    - destruct (Hk x _ (r_sh (c x x sh cx)) (r_cx (c x x sh cx)) H1) as [H3 H4].
      split; [exact H3|]. eapply thread_app; eauto.
    - split; [exact H1|exact H2].
  Qed.

  Lemma before_self_u {B} e (k : Sup m -> comp m (Sup m) B) j :
    (forall u, threads (touches_above m) (at_disc j) (k u)) ->
    threads (touches_above m) (at_disc j)
      (bind self (fun u => bind (before_dispatch m (NSuper u) e) (fun _ => k u))).
  Proof.
    intros Hk. apply bind_hook_threads with (c := fun u => before_dispatch m (NSuper u) e); auto.
    intros u sh cx Hu. apply before_dispatch_threads; auto using sees_here.
  Qed.
  Lemma after_self_u {B} e (k : Sup m -> comp m (Sup m) B) j :
    (forall u, threads (touches_above m) (at_disc j) (k u)) ->
    threads (touches_above m) (at_disc j)
      (bind self (fun u => bind (after_dispatch m (NSuper u) e) (fun _ => k u))).
  Proof.
    intros Hk. apply bind_hook_threads with (c := fun u => after_dispatch m (NSuper u) e); auto.
    intros u sh cx Hu. apply after_dispatch_threads; auto using sees_here.
  Qed.
  Lemma before_self_s {B} e (k : State m -> comp m (State m) B) j :
    (forall u, threads (touches m) (at_leaf j) (k u)) ->
    threads (touches m) (at_leaf j)
      (bind self (fun u => bind (before_dispatch m (NState u) e) (fun _ => k u))).
  Proof.
    intros Hk. apply bind_hook_threads with (c := fun u => before_dispatch m (NState u) e); auto.
    intros u sh cx Hu. apply before_dispatch_threads; auto using sees_leaf.
  Qed.
  Lemma after_self_s {B} e (k : State m -> comp m (State m) B) j :
    (forall u, threads (touches m) (at_leaf j) (k u)) ->
    threads (touches m) (at_leaf j)
      (bind self (fun u => bind (after_dispatch m (NState u) e) (fun _ => k u))).
  Proof.
    intros Hk. apply bind_hook_threads with (c := fun u => after_dispatch m (NState u) e); auto.
    intros u sh cx Hu. apply after_dispatch_threads; auto using sees_leaf.
  Qed.

  (** [x <- self ;; borrow from x] *)
  Lemma climb_threads {B} j (c : comp m (Sup m) B) (d : comp m (Sup m) B) :
    (forall k, threads (touches_above m) (at_disc k) c) ->
    threads (touches_above m) (at_disc j) d ->
    threads (touches_above m) (at_disc j)
      (bind self (fun u => match u_super m u with
                           | Some v => via (u_put m) v c | None => d end)).
  Proof.
    intros Hc Hd. apply threads_self. intros u sh cx Hu. destruct (u_super m u) as [v|] eqn:E.
    - destruct (@via_threads_sup _ c u v sh cx (Hc _) E) as [H1 H2]. split; [|exact H2].
      unfold at_disc in *. now rewrite H1.
    - now apply Hd.
  Qed.
  Lemma borrow_threads {B} j (c : comp m (Sup m) B) (d : comp m (State m) B) :
    (forall k, threads (touches_above m) (at_disc k) c) ->
    threads (touches m) (at_leaf j) d ->
    threads (touches m) (at_leaf j)
      (bind self (fun x => match s_super m x with
                           | Some v => via (s_put m) v c | None => d end)).
  Proof.
    intros Hc Hd. apply threads_self. intros x sh cx Hx. destruct (s_super m x) as [v|] eqn:E.
    - destruct (@via_threads_leaf _ c x v sh cx (Hc _) E) as [H1 H2]. split; [|exact H2].
      unfold at_leaf in *. now rewrite H1.
    - now apply Hd.
  Qed.

  Lemma self_bind_assoc {X B C} (f : X -> comp m X B) (k : B -> comp m X C) x sh cx :
    bind self (fun y => bind (f y) k) x sh cx = bind (bind self f) k x sh cx.
  Proof.
    rewrite self_bind_run. unfold bind at 1 2. rewrite self_bind_run. reflexivity.
  Qed.

  Lemma climb_then_threads {B C} j (c : comp m (Sup m) B) (d : comp m (Sup m) B) (k : B -> comp m (Sup m) C) :
    (forall k, threads (touches_above m) (at_disc k) c) ->
    threads (touches_above m) (at_disc j) d ->
    (forall b, threads (touches_above m) (at_disc j) (k b)) ->
    threads (touches_above m) (at_disc j)
      (bind self (fun u => bind (match u_super m u with
                           | Some v => via (u_put m) v c | None => d end) k)).
  Proof.
    intros Hc Hd Hk u sh cx Hu. rewrite self_bind_assoc.
    apply threads_bind; auto. now apply climb_threads.
  Qed.

  Lemma borrow_then_threads {B C} j (c : comp m (Sup m) B) (d : comp m (State m) B)
      (k : B -> comp m (State m) C) :
    (forall k, threads (touches_above m) (at_disc k) c) ->
    threads (touches m) (at_leaf j) d ->
    (forall b, threads (touches m) (at_leaf j) (k b)) ->
    threads (touches m) (at_leaf j)
      (bind self (fun u => bind (match s_super m u with
                           | Some v => via (s_put m) v c | None => d end) k)).
  Proof.
    intros Hc Hd Hk u sh cx Hu. rewrite self_bind_assoc.
    apply threads_bind; auto. now apply borrow_threads.
  Qed.

  Create HintDb thr.
  Hint Resolve u_entry_threads u_exit_threads u_handler_threads s_entry_threads
    s_exit_threads s_handler_threads threads_ret : thr.

  Ltac thr :=
    repeat first
      [ solve [auto with thr]
      | apply before_self_u; intros ? | apply after_self_u; intros ?
      | apply before_self_s; intros ? | apply after_self_s; intros ?
      | apply climb_threads; [intros ?|] | apply borrow_threads; [intros ?|]
      | apply climb_then_threads; [intros ?| |intros ?]
      | apply borrow_then_threads; [intros ?| |intros ?]
      | apply threads_bind; [|intros ?] ].

  Lemma superstate_enter_threads n : forall k,
    threads (touches_above m) (at_disc k) (superstate_enter m n).
  Proof.
    induction n as [|n IH]; intros k; simpl; [thr|]. destruct n as [|n]; thr.
  Qed.
  Lemma superstate_exit_threads n : forall k,
    threads (touches_above m) (at_disc k) (superstate_exit m n).
  Proof.
    induction n as [|n IH]; intros k; simpl; [thr|]. destruct n as [|n]; thr.
  Qed.
  Lemma climb_entry_threads n : forall k,
    threads (touches_above m) (at_disc k) (climb_entry m n).
  Proof. induction n as [|n IH]; intros k; simpl; thr. Qed.
  Lemma exit_loop_threads n : forall k,
    threads (touches_above m) (at_disc k) (exit_loop m n).
  Proof. induction n as [|n IH]; intros k; simpl; thr. Qed.
  Hint Resolve superstate_enter_threads superstate_exit_threads climb_entry_threads
    exit_loop_threads : thr.

  Lemma mode_enter_threads md n k : threads (touches m) (at_leaf k) (mode_enter m md n).
  Proof.
    unfold mode_enter. destruct md.
    - unfold Blocking.state_enter. destruct n as [|[|n]]; thr.
    - induction n as [|n IH]; simpl; [thr|]. destruct n as [|n]; thr.
  Qed.
  Lemma mode_exit_threads md n k : threads (touches m) (at_leaf k) (mode_exit m md n).
  Proof.
    unfold mode_exit. destruct md.
    - unfold Blocking.state_exit. destruct n as [|[|n]]; thr.
    - unfold Awaitable.state_exit. apply threads_bind; [|intros _].
      + destruct (1 <=? n); thr.
      + thr.
  Qed.

  (** Dispatch; running out of stack is excluded by the height of the hierarchy. *)
  Lemma superstate_handle_threads n e : forall k l, chain h (Some k) l -> length l <= n ->
    threads (touches_above m) (at_disc k) (superstate_handle m n e).
  Proof.
    induction n as [|n IH]; intros k l Hc Hl.
    { apply chain_length_pos in Hc. lia. }
    simpl. apply threads_bind; [thr|]. intros [| |t]; [thr| |thr].
    apply threads_self. intros u sh cx Hu. unfold at_disc in Hu. subst k.
    destruct (u_super m u) as [v|] eqn:E.
    - apply via_threads_sup; [|exact E]. inversion Hc; subst. simpl in Hl.
      rewrite (sup_some Hf _ E) in *.
      apply before_self_u. intros u0. apply threads_bind; [eapply IH; eauto; lia|]. intros r. thr.
    - split; [reflexivity|constructor].
  Qed.

  Lemma handle_loop_threads n e : forall k l, chain h (Some k) l -> length l <= n ->
    threads (touches_above m) (at_disc k) (handle_loop m n e).
  Proof.
    induction n as [|n IH]; intros k l Hc Hl.
    { apply chain_length_pos in Hc. lia. }
    simpl. apply before_self_u; intros u0. apply threads_bind; [thr|]. intros r.
    apply after_self_u; intros u1. destruct r as [| |t]; [thr| |thr].
    apply threads_self. intros u sh cx Hu. unfold at_disc in Hu. subst k.
    destruct (u_super m u) as [v|] eqn:E.
    - apply via_threads_sup; [|exact E]. inversion Hc; subst. simpl in Hl.
      rewrite (sup_some Hf _ E) in *. eapply IH; eauto; lia.
    - split; [reflexivity|constructor].
  Qed.

  Variable stack : nat.
  Hypothesis Hh : height_at_most stack h.

  Lemma mode_state_handle_threads md e k :
    threads (touches m) (at_leaf k) (mode_state_handle m stack e md).
  Proof.
    unfold mode_state_handle. destruct md.
    - unfold Blocking.state_handle. apply before_self_s; intros x0.
      apply threads_bind; [thr|]. intros r. apply after_self_s; intros x1.
      destruct r as [| |t]; [thr| |thr].
      apply threads_self. intros x sh cx Hx. destruct (s_super m x) as [u|] eqn:E.
      + assert (G : threads (touches_above m) (at_disc (u_disc m u))
          (bind self (fun u0 => bind (before_dispatch m (NSuper u0) e) (fun _ =>
             bind (superstate_handle m stack e) (fun r => bind self (fun u1 =>
               bind (after_dispatch m (NSuper u1) e) (fun _ => ret r))))))).
        { apply before_self_u; intros u0. apply threads_bind; [|intros r; thr].
          destruct (Hh (u_disc m u)) as (l & Hc & Hl). eapply superstate_handle_threads; eauto. }
        destruct (@via_threads_leaf _ _ x u sh cx G E) as [H1 H2]. split; [|exact H2].
        unfold at_leaf in *. now rewrite H1.
      + split; [exact Hx|constructor].
    - unfold Awaitable.state_handle. apply before_self_s; intros x0.
      apply threads_bind; [thr|]. intros r. apply after_self_s; intros x1.
      destruct r as [| |t]; [thr| |thr].
      apply threads_self. intros x sh cx Hx. destruct (s_super m x) as [u|] eqn:E.
      + destruct (Hh (u_disc m u)) as (l & Hc & Hl).
        destruct (@via_threads_leaf _ _ x u sh cx (handle_loop_threads e Hc Hl) E) as [H1 H2].
        split; [|exact H2]. unfold at_leaf in *. now rewrite H1.
      + split; [exact Hx|constructor].
  Qed.


  Lemma bind_lift_run {X A B} (a : A) (k : A -> comp m X B) x sh cx :
    bind (lift (Ret a)) k x sh cx = k a x sh cx.
  Proof. unfold bind, lift. simpl. now destruct (k a x sh cx). Qed.

  Lemma inner_init_threads md k : threads (touches m) (at_leaf k) (inner_init m stack md).
  Proof.
    intros x sh cx Hx. rewrite mode_init_eq.
    destruct (height_chain (leaf_parent h (s_disc m x)) Hh) as (l & Hc & Hl).
    rewrite (state_depth_ok Hf Hh _ Hc), bind_lift_run. now apply mode_enter_threads.
  Qed.

  (** *** Transitions *)

  Lemma all_exit (t : list (obs m)) ps : only_acts t -> prefix (acts t) (map Exit ps) ->
    forallb (@is_exit m) t = true.
  Proof.
    revert ps; induction t as [|o t IH]; intros ps Ho Hp; [reflexivity|].
    unfold only_acts in Ho. simpl in Ho. destruct Hp as [l Hp].
    destruct o; simpl in *; try discriminate.
    - destruct ps as [|p ps]; [discriminate|]. simpl in Hp. inversion Hp; subst.
      eapply IH; [exact Ho|]. eexists; eauto.
    - destruct ps as [|p ps]; discriminate.
  Qed.
  Lemma all_enter (t : list (obs m)) ps : only_acts t -> prefix (acts t) (map Enter ps) ->
    forallb (@is_enter m) t = true.
  Proof.
    revert ps; induction t as [|o t IH]; intros ps Ho Hp; [reflexivity|].
    unfold only_acts in Ho. simpl in Ho. destruct Hp as [l Hp].
    destruct o; simpl in *; try discriminate.
    - destruct ps as [|p ps]; discriminate.
    - destruct ps as [|p ps]; [discriminate|]. simpl in Hp. inversion Hp; subst.
      eapply IH; [exact Ho|]. eexists; eauto.
  Qed.

  Notation cfg := (State m * Shared m * Ctx m)%type.

  (** A transition from configuration [c] to the state [target], with its data. *)
  Inductive moves (md : mode) (c : cfg) (target : State m) (o : outcome unit) (c' : cfg)
    : list (obs m) -> Prop :=
  | moves_stopped t1 w :
      o = Abort w -> forallb (@is_exit m) t1 = true ->
      thread (touches m) (mode_before m md (fst (fst c)) target :: t1) c o c' ->
      moves md c target o c' (mode_before m md (fst (fst c)) target :: t1)
  | moves_swapped t1 t2 t3 x1 sh1 cx1 :
      forallb (@is_exit m) t1 = true -> forallb (@is_enter m) t2 = true ->
      t3 = [OAfterTransition x1 (fst (fst c'))] \/ (t3 = [] /\ o <> Ret tt) ->
      thread (touches m) (mode_before m md (fst (fst c)) target :: t1) c (Ret tt) (x1, sh1, cx1) ->
      thread (touches m) (t2 ++ t3) (target, sh1, cx1) o c' ->
      moves md c target o c' ((mode_before m md (fst (fst c)) target :: t1) ++ t2 ++ t3).

  Lemma threads_run {A} k (c : comp m (State m) A) x sh cx o x1 sh1 cx1 t :
    threads (touches m) (at_leaf k) c -> s_disc m x = k -> c x sh cx = Res o x1 sh1 cx1 t ->
    thread (touches m) t (x, sh, cx) (done o) (x1, sh1, cx1).
  Proof.
    intros H Hk E. destruct (H x sh cx Hk) as [_ G]. rewrite E in G. exact G.
  Qed.

  Arguments threads_run {A k c x sh cx o x1 sh1 cx1 t} _ _ _.

  Lemma before_run md x t sh cx o x1 sh1 cx1 tr :
    match md with
    | BlockingMode => before_transition m t x
    | AwaitableMode => before_transition m x t end x sh cx = Res o x1 sh1 cx1 tr ->
    x1 = x /\ tr = [mode_before m md x t] /\
    thread (touches m) tr (x, sh, cx) (done o) (x1, sh1, cx1).
  Proof.
    intros H.
    assert (G : thread (touches m) tr (x, sh, cx) (done o) (x1, sh1, cx1)).
    { destruct md; (eapply (@threads_run _ (s_disc m x)); [|reflexivity|exact H]);
        apply before_transition_threads. }
    unfold mode_before. destruct md; hook_in H; destruct H as (-> & -> & -> & Hw); auto.
  Qed.

  Lemma transition_moves md t x sh cx o x1 sh1 cx1 tr :
    mode_transition m stack md t x sh cx = Res o x1 sh1 cx1 tr ->
    moves md (x, sh, cx) t o (x1, sh1, cx1) tr.
  Proof.
    intros H.
    destruct (transition_path_legs Hf Hh x t) as (l1 & l2 & i & j & H1 & H2 & Li & Lj & E & L).
    rewrite mode_transition_eq in H.
    apply bind_run in H. destruct H as [(w & -> & H)|(a0 & x2 & sh2 & cx2 & t2 & t3 & H0 & H & ->)].
    { apply before_run in H. destruct H as (-> & -> & G).
      eapply moves_stopped with (t1 := []); eauto. }
    apply before_run in H0. destruct H0 as (-> & -> & G0). simpl in G0.
    rewrite E, bind_lift_run in H. cbn [fst snd] in H.
    pose proof (mode_exit_does Hf Hs md H1 Li) as Dx.
    pose proof (mode_enter_does Hf Hs md H2 Lj) as De.
    apply bind_run in H. destruct H as [(w & -> & H)|(a4 & x4 & sh4 & cx4 & t6 & t7 & H4 & H & ->)].
    { pose proof (threads_run (mode_exit_threads md i (k := s_disc m x)) eq_refl H) as G1.
      eapply does_run in H; [|exact Dx]. destruct H as (Ed & Ho & Hw & Hne & Hp). simpl.
      eapply moves_stopped; eauto; [eapply all_exit; eauto|].
      exact (thread_app G0 G1). }
    pose proof (threads_run (mode_exit_threads md i (k := s_disc m x)) eq_refl H4) as G1.
    eapply does_run in H4; [|exact Dx]. destruct H4 as (Ed4 & Ho4 & Ha4).
    apply bind_run in H. destruct H as [(w & -> & H)|(a5 & x5 & sh5 & cx5 & t8 & t9 & H5 & H & ->)];
      [discriminate H|].
    inversion H5; subst a5 x5 sh5 cx5 t8. clear H5.
    assert (Hx6 : forallb (@is_exit m) t6 = true).
    { eapply all_exit; [exact Ho4|]. rewrite Ha4. apply prefix_refl. }
    apply bind_run in H. destruct H as [(w & -> & H)|(a6 & x6 & sh6 & cx6 & t10 & t11 & H6 & H & ->)].
    { pose proof (threads_run (mode_enter_threads md j (k := s_disc m t)) eq_refl H) as G2.
      eapply does_run in H; [|exact De]. destruct H as (Ed & Ho & Hw & Hne & Hp).
      rewrite app_nil_l.
      replace ([mode_before m md x t] ++ t6 ++ t9)
        with ((mode_before m md (fst (fst (x, sh, cx))) t :: t6) ++ t9 ++ [])
        by (rewrite app_nil_r; reflexivity).
      eapply moves_swapped with (x1 := x4) (sh1 := sh4) (cx1 := cx4); eauto.
      - eapply all_enter; eauto.
      - right. split; [reflexivity|discriminate].
      - exact (thread_app G0 G1).
      - rewrite app_nil_r. exact G2. }
    pose proof (threads_run (mode_enter_threads md j (k := s_disc m t)) eq_refl H6) as G2.
    eapply does_run in H6; [|exact De]. destruct H6 as (Ed6 & Ho6 & Ha6).
    rewrite self_bind_run in H.
    pose proof (threads_run (@after_transition_threads _ (touches m) (at_leaf (s_disc m x6)) x4 x6) eq_refl H) as G3.
    hook_in H. destruct H as (-> & -> & -> & Hw). rewrite app_nil_l.
    change ([mode_before m md x t] ++ t6 ++ t10 ++ [OAfterTransition x4 x6])
      with ((mode_before m md (fst (fst (x, sh, cx))) t :: t6) ++ t10 ++ [OAfterTransition x4 x6]).
    eapply moves_swapped with (x1 := x4) (sh1 := sh4) (cx1 := cx4); eauto.
    - eapply all_enter; [exact Ho6|]. rewrite Ha6. apply prefix_refl.
    - exact (thread_app G0 G1).
    - replace o with (done o) by (destruct o as [[]|]; reflexivity).
      eapply thread_app; eauto.
  Qed.

  (** A whole `handle`. *)
  Inductive handles (md : mode) (e : Event m) (c : cfg) (o : outcome unit) (c' : cfg)
    : list (obs m) -> Prop :=
  | handles_in_place t :
      Forall (@dispatchy m) (calls t) -> (o = Ret tt -> no_transition_answer t) ->
      thread (touches m) t c o c' -> handles md e c o c' t
  | handles_moves t1 t2 c1 p target :
      Forall (@dispatchy m) (calls t1) -> thread (touches m) t1 c (Ret tt) c1 ->
      In (p, e, Some (Transition target)) (handler_calls (calls t1)) ->
      moves md c1 target o c' t2 ->
      handles md e c o c' (t1 ++ t2).

  Lemma inner_handle_handles md e x sh cx o x1 sh1 cx1 t :
    inner_handle m stack md e x sh cx = Res o x1 sh1 cx1 t ->
    handles md e (x, sh, cx) o (x1, sh1, cx1) t.
  Proof.
    intros H. rewrite mode_handle_eq in H.
    destruct (height_chain (leaf_parent h (s_disc m x)) Hh) as (l & Hc & Hl).
    assert (Hu : upward h (s_disc m x) (upl (s_disc m x) l)) by (exists l; now split).
    apply bind_run in H. destruct H as [(w & -> & H)|(r & x2 & sh2 & cx2 & t2 & t3 & H0 & H & ->)].
    - pose proof (threads_run (mode_state_handle_threads md e (k := s_disc m x)) eq_refl H) as G.
      eapply state_handle_asked in H; eauto. destruct H as (Ed & Hw & Hne & vis & a & Ha & Hp).
      eapply handles_in_place; [|discriminate|exact G].
      eapply Forall_prefix; [exact Hp|]. apply dispatch_log_dispatchy.
    - pose proof (threads_run (mode_state_handle_threads md e (k := s_disc m x)) eq_refl H0) as G.
      eapply state_handle_asked in H0; eauto. destruct H0 as (Ed & vis & a & Ha & Hsd & Et).
      assert (D : Forall (@dispatchy m) (calls t2)).
      { rewrite Et. apply dispatch_log_dispatchy. }
      assert (Eh : handler_calls (calls t2) = map (answered m e) vis).
      { rewrite Et, <- (app_nil_r (dispatch_log _ _ _ _)), handler_calls_log. apply app_nil_r. }
      assert (St : (forall s, a <> Transition s) -> no_transition_answer t2).
      { intros Hn p e' s Hin. rewrite Eh in Hin.
        destruct (cut_transition s (cut_full m e vis) Ha _ _ Hin) as [-> _].
        now apply (Hn s). }
      destruct r as [| |target].
      + apply ret_run in H. destruct H as (-> & -> & -> & -> & ->). rewrite app_nil_r.
        apply handles_in_place; auto. intros _. apply St. intros s ->.
        destruct (Hsd s) as [Hsd' _]. now specialize (Hsd' eq_refl).
      + apply ret_run in H. destruct H as (-> & -> & -> & -> & ->). rewrite app_nil_r.
        apply handles_in_place; auto. intros _. apply St. intros s ->.
        destruct (Hsd s) as [Hsd' _]. now specialize (Hsd' eq_refl).
      + assert (a = Transition target) by (apply Hsd; reflexivity). subst a.
        apply transition_moves in H. destruct (answers_in Ha) as [p Hp].
        eapply handles_moves with (p := p) (target := target) (c1 := (x2, sh2, cx2)); auto.
        rewrite Eh. change (p, e, Some (Transition target)) with (answered m e (p, Transition target)).
        now apply in_map.
  Qed.
End Threads.
