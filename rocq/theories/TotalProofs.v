(** TotalProofs.v — no failure from inside the library, termination, stack bounds. *)

From Coq Require Import List Bool Arith Lia.
From Verif Require Import Machine Blocking Awaitable Api Spec TripleProofs ShapeProofs
  DispatchProofs TransitionProofs ApiProofs HistoryProofs.
Import ListNotations.
Set Implicit Arguments.
Local Open Scope comp_scope.

(** ** No underflow, for any machine whatsoever *)

Section NoUnderflow.
  Variable m : machine.
  Variable stack : nat.

  Lemma depth_mono n n' u d : n <= n' ->
    superstate_depth m n u = Ret d -> superstate_depth m n' u = Ret d.
  Proof.
    revert n' u d; induction n as [|n IH]; intros n' u d Hn E; [discriminate|].
    destruct n' as [|n']; [lia|]. simpl in *.
    destruct (u_super m u) as [v|]; [|exact E].
    destruct (superstate_depth m n v) as [d'|w] eqn:Ev; [|discriminate].
    rewrite (IH n' v d'); auto. lia.
  Qed.

  Lemma depth_step n u v d : u_super m u = Some v ->
    superstate_depth m n u = Ret d -> exists d', superstate_depth m n v = Ret d' /\ d = S d'.
  Proof.
    destruct n as [|n]; simpl; [discriminate|]. intros Eu. rewrite Eu.
    destruct (superstate_depth m n v) as [d'|w] eqn:Ev; [|discriminate].
    intros E; inversion E; subst. exists d'. split; [|lia].
    assert (G : superstate_depth m (S n) v = Ret d') by (apply depth_mono with n; auto).
    exact G.
  Qed.

  Lemma cad_le n : forall u v c du dv,
    superstate_common_ancestor_depth m stack n u v = Ret c ->
    superstate_depth m stack u = Ret du -> superstate_depth m stack v = Ret dv ->
    c <= du /\ c <= dv.
  Proof.
    induction n as [|n IH]; intros u v c du dv E Eu Ev; simpl in E; [discriminate|].
    rewrite Eu, Ev in E. destruct (Nat.compare_spec du dv) as [H|H|H].
    - destruct (same_superstate m u v); [inversion E; subst; lia|].
      destruct (u_super m u) as [u'|] eqn:Su; [|inversion E; lia].
      destruct (u_super m v) as [v'|] eqn:Sv; [|inversion E; lia].
      destruct (depth_step _ _ Su Eu) as (du' & Eu' & ->).
      destruct (depth_step _ _ Sv Ev) as (dv' & Ev' & ->).
      destruct (IH _ _ _ _ _ E Eu' Ev'). lia.
    - destruct (u_super m v) as [v'|] eqn:Sv; [|inversion E; lia].
      destruct (depth_step _ _ Sv Ev) as (dv' & Ev' & ->).
      destruct (IH _ _ _ _ _ E Eu Ev'). lia.
    - destruct (u_super m u) as [u'|] eqn:Su; [|inversion E; lia].
      destruct (depth_step _ _ Su Eu) as (du' & Eu' & ->).
      destruct (IH _ _ _ _ _ E Eu' Ev). lia.
  Qed.

  Lemma depth_no_underflow n u : superstate_depth m n u <> Abort Underflow.
  Proof.
    revert u; induction n as [|n IH]; intros u; simpl; [discriminate|].
    destruct (u_super m u) as [v|]; [|discriminate].
    specialize (IH v). destruct (superstate_depth m n v); congruence.
  Qed.

  Lemma cad_no_underflow n u v : superstate_common_ancestor_depth m stack n u v <> Abort Underflow.
  Proof.
    revert u v; induction n as [|n IH]; intros u v; simpl; [discriminate|].
    pose proof (depth_no_underflow stack u) as Nu. pose proof (depth_no_underflow stack v) as Nv.
    destruct (superstate_depth m stack u) as [du|w]; [|congruence].
    destruct (superstate_depth m stack v) as [dv|w]; [|congruence].
    destruct (Nat.compare du dv).
    - destruct (same_superstate m u v); [congruence|].
      destruct (u_super m u); [|discriminate]. destruct (u_super m v); [apply IH|discriminate].
    - destruct (u_super m v); [apply IH|discriminate].
    - destruct (u_super m u); [apply IH|discriminate].
  Qed.

  Lemma state_depth_no_underflow x : Blocking.state_depth m stack x <> Abort Underflow.
  Proof.
    unfold Blocking.state_depth. destruct (s_super m x) as [u|]; [|discriminate].
    pose proof (depth_no_underflow stack u). destruct (superstate_depth m stack u); congruence.
  Qed.

  Lemma transition_path_no_underflow x t :
    Blocking.transition_path m stack x t <> Abort Underflow.
  Proof.
    unfold Blocking.transition_path. destruct (same_state m x t); [discriminate|].
    pose proof (state_depth_no_underflow x) as Nx. pose proof (state_depth_no_underflow t) as Nt.
    destruct (Blocking.state_depth m stack x) as [dx|] eqn:Ex; [|congruence].
    destruct (Blocking.state_depth m stack t) as [dt|] eqn:Et; [|congruence].
    destruct (s_super m x) as [u|] eqn:Su; [|discriminate].
    destruct (s_super m t) as [v|] eqn:Sv; [|discriminate].
    unfold Blocking.state_depth in Ex, Et. rewrite Su in Ex. rewrite Sv in Et.
    destruct (superstate_depth m stack u) as [du|] eqn:Eu; [|congruence].
    destruct (superstate_depth m stack v) as [dv|] eqn:Ev; [|congruence].
    inversion Ex; inversion Et; subst.
    pose proof (cad_no_underflow (stack + stack) u v) as Nc.
    destruct (superstate_common_ancestor_depth m stack (stack + stack) u v) as [c|] eqn:Ec;
      [|congruence].
    destruct (cad_le _ _ _ Ec Eu Ev) as [L1 L2]. unfold checked_sub.
    destruct (c <=? du + 1) eqn:B1; [|apply Nat.leb_gt in B1; lia].
    destruct (c <=? dv + 1) eqn:B2; [|apply Nat.leb_gt in B2; lia].
    discriminate.
  Qed.

  Definition safe {X A} (c : comp m X A) : Prop :=
    forall x sh cx, r_out (c x sh cx) <> Abort Underflow.

  Lemma safe_ret {X A} (a : A) : safe (ret a : comp m X A).
  Proof. intros x sh cx. discriminate. Qed.
  Lemma safe_self {X} : safe (self : comp m X X).
  Proof. intros x sh cx. discriminate. Qed.
  Lemma safe_diverges {X A} : safe (abort Diverges : comp m X A).
  Proof. intros x sh cx. discriminate. Qed.
  Lemma safe_lift {X A} (o : outcome A) : o <> Abort Underflow -> safe (lift o : comp m X A).
  Proof. intros H x sh cx. exact H. Qed.
  Lemma safe_bind {X A B} (c : comp m X A) (k : A -> comp m X B) :
    safe c -> (forall a, safe (k a)) -> safe (bind c k).
  Proof.
    intros Hc Hk x sh cx E. specialize (Hc x sh cx). unfold bind in E.
    destruct (r_out (c x sh cx)) as [a|w]; simpl in E; [eapply Hk; eauto|congruence].
  Qed.
  Lemma safe_via {X V A} (put : X -> V -> X) v (c : comp m V A) : safe c -> safe (via put v c).
  Proof. intros Hc x sh cx. apply Hc. Qed.
  Lemma safe_hook {X} f (o : obs m) : safe (call_hook f o : comp m X unit).
  Proof.
    intros x sh cx. unfold call_hook. destruct (f sh) as [[| |] sh']; simpl; discriminate.
  Qed.
  Lemma safe_action {X} f (o : X -> obs m) : safe (call_action f o : comp m X unit).
  Proof.
    intros x sh cx. unfold call_action.
    destruct (f x sh cx) as [[[[| |] x'] sh'] cx']; simpl; discriminate.
  Qed.
  Lemma safe_handler {X} f (nd : X -> node (State m) (Sup m)) e : safe (call_handler m f nd e).
  Proof.
    intros x sh cx. unfold call_handler.
    destruct (f x sh cx e) as [[[[| |] x'] sh'] cx']; simpl; discriminate.
  Qed.

  Ltac safe :=
    repeat first
      [ apply safe_ret | apply safe_self | apply safe_diverges | apply safe_hook
      | apply safe_action | apply safe_handler | apply safe_via
      | apply safe_bind; [|intros ?] | assumption
      | match goal with |- safe (match ?x with _ => _ end) => destruct x end ].

  Lemma safe_superstate_handle n e : safe (superstate_handle m n e).
  Proof. induction n as [|n IH]; simpl; safe. Qed.
  Lemma safe_handle_loop n e : safe (handle_loop m n e).
  Proof. induction n as [|n IH]; simpl; safe. Qed.
  Lemma safe_superstate_enter n : safe (superstate_enter m n).
  Proof. induction n as [|[|n] IH]; [simpl; safe.. |]. change (safe (u <- self ;; match u_super m u with Some v => via (u_put m) v (superstate_enter m (S n)) | None => ret tt end ;;; u_call_entry m)). safe. Qed.
  Lemma safe_superstate_exit n : safe (superstate_exit m n).
  Proof. induction n as [|[|n] IH]; [simpl; safe.. |]. change (safe (u_call_exit m ;;; u <- self ;; match u_super m u with Some v => via (u_put m) v (superstate_exit m (S n)) | None => ret tt end)). safe. Qed.
  Lemma safe_climb n : safe (climb_entry m n).
  Proof. induction n as [|n IH]; simpl; safe. Qed.
  Lemma safe_exit_loop n : safe (exit_loop m n).
  Proof. induction n as [|n IH]; simpl; safe. Qed.

  Lemma safe_mode_enter md n : safe (mode_enter m md n).
  Proof.
    unfold mode_enter. destruct md.
    - destruct n as [|[|n]]; unfold Blocking.state_enter; safe; apply safe_superstate_enter.
    - induction n as [|[|n] IH]; [simpl; safe.. |].
      change (safe (x <- self ;; match s_super m x with Some u => via (s_put m) u (climb_entry m n) | None => ret tt end ;;; Awaitable.state_enter m (S n))).
      safe. apply safe_climb.
  Qed.
  Lemma safe_mode_exit md n : safe (mode_exit m md n).
  Proof.
    unfold mode_exit. destruct md.
    - destruct n as [|[|n]]; unfold Blocking.state_exit; safe; apply safe_superstate_exit.
    - unfold Awaitable.state_exit. safe; apply safe_exit_loop.
  Qed.

  Lemma safe_swap t : safe (swap_state m t).
  Proof. intros x sh cx. discriminate. Qed.

  Lemma safe_ext {X A} (c c' : comp m X A) : (forall x sh cx, c x sh cx = c' x sh cx) -> safe c' -> safe c.
  Proof. intros E H x sh cx. rewrite E. apply H. Qed.

  Lemma safe_mode_transition md t : safe (mode_transition m stack md t).
  Proof.
    intros x sh cx. rewrite mode_transition_eq. revert x sh cx.
    enough (G : forall y, safe
     (bind (match md with
          | BlockingMode => before_transition m t y
          | AwaitableMode => before_transition m y t end) (fun _ =>
    bind (lift (Blocking.transition_path m stack y t)) (fun levels =>
    bind (mode_exit m md (fst levels)) (fun _ =>
    bind (swap_state m t) (fun old =>
    bind (mode_enter m md (snd levels)) (fun _ =>
    bind self (fun new => after_transition m old new))))))))
      by (intros x sh cx; apply G).
    intros y. apply safe_bind; [destruct md; safe|intros _].
    apply safe_bind; [apply safe_lift, transition_path_no_underflow|intros lv].
    apply safe_bind; [apply safe_mode_exit|intros _].
    apply safe_bind; [apply safe_swap|intros old].
    apply safe_bind; [apply safe_mode_enter|intros _]. safe.
  Qed.

  Lemma safe_inner_init md : safe (inner_init m stack md).
  Proof.
    eapply safe_ext with (c' := bind self (fun x => bind (lift (Blocking.state_depth m stack x)) (mode_enter m md))).
    - intros x sh cx. rewrite self_bind_run. apply mode_init_eq.
    - apply safe_bind; [safe|intros x]. apply safe_bind.
      + apply safe_lift, state_depth_no_underflow.
      + intros n. apply safe_mode_enter.
  Qed.

  Lemma safe_state_handle md e : safe (mode_state_handle m stack e md).
  Proof.
    unfold mode_state_handle. destruct md.
    - unfold Blocking.state_handle. safe. apply safe_superstate_handle.
    - unfold Awaitable.state_handle. safe. apply safe_handle_loop.
  Qed.

  Lemma safe_inner_handle md e : safe (inner_handle m stack md e).
  Proof.
    eapply safe_ext; [intros x sh cx; apply mode_handle_eq|].
    apply safe_bind; [apply safe_state_handle|]. intros [| |t]; safe. apply safe_mode_transition.
  Qed.

  Lemma run_inner_safe (c : comp m (State m) unit) i cx : safe c -> a_out (run_inner c i cx) <> Abort Underflow.
  Proof. intros H. apply H. Qed.

  Lemma api_init_safe md sm cx : a_out (init_with_context (m := m) stack md sm cx) <> Abort Underflow.
  Proof.
    unfold init_with_context. destruct (initialized sm); cbn [negb]; [discriminate|].
    pose proof (run_inner_safe (sm_inner sm) cx (safe_inner_init md)) as H.
    destruct (a_out (run_inner (inner_init m stack md) (sm_inner sm) cx)) as [[]|w]; simpl.
    - discriminate.
    - intros E. apply H. exact E.
  Qed.

  Lemma api_handle_safe md sm e cx :
    a_out (handle_with_context (m := m) stack md sm e cx) <> Abort Underflow.
  Proof.
    rewrite handle_is_init_then_handle. unfold and_then.
    pose proof (api_init_safe md sm cx) as H.
    destruct (a_out (init_with_context stack md sm cx)) as [[]|w] eqn:E; [|congruence].
    simpl. unfold handle_with_context. rewrite (init_initializes _ _ _ _ E). simpl.
    apply run_inner_safe, safe_inner_handle.
  Qed.
End NoUnderflow.

(** ** More stack never changes a result *)

Section Fuel.
  Variable m : machine.

  (** [c'] agrees with [c] wherever [c] does not run out of stack. *)
  Definition extends {X A} (c c' : comp m X A) : Prop :=
    forall x sh cx, r_out (c x sh cx) <> Abort Diverges -> c' x sh cx = c x sh cx.

  Lemma extends_refl {X A} (c : comp m X A) : extends c c.
  Proof. intros x sh cx _. reflexivity. Qed.

  Lemma extends_bind {X A B} (c c' : comp m X A) (k k' : A -> comp m X B) :
    extends c c' -> (forall a, extends (k a) (k' a)) -> extends (bind c k) (bind c' k').
  Proof.
    intros Hc Hk x sh cx H. unfold bind in *.
    destruct (r_out (c x sh cx)) as [a|w] eqn:E.
    - rewrite (Hc x sh cx) by (rewrite E; discriminate). rewrite E. simpl in H.
      now rewrite (Hk a) by exact H.
    - simpl in H. rewrite (Hc x sh cx) by (rewrite E; intros G; apply H; now inversion G). now rewrite E.
  Qed.

  Lemma extends_via {X V A} (put : X -> V -> X) v (c c' : comp m V A) :
    extends c c' -> extends (via put v c) (via put v c').
  Proof. intros H x sh cx Hd. unfold via in *. simpl in Hd. now rewrite H. Qed.

  Lemma extends_abort {X A} (c : comp m X A) : extends (abort Diverges) c.
  Proof. intros x sh cx H. now contradiction H. Qed.

  Lemma extends_lift {X A} (o o' : outcome A) :
    (o <> Abort Diverges -> o' = o) -> extends (lift o : comp m X A) (lift o').
  Proof. intros H x sh cx Hd. simpl in Hd. unfold lift. now rewrite H. Qed.

  Lemma extends_ext {X A} (c c' d d' : comp m X A) :
    (forall x sh cx, c x sh cx = d x sh cx) -> (forall x sh cx, c' x sh cx = d' x sh cx) ->
    extends d d' -> extends c c'.
  Proof. intros E E' H x sh cx. rewrite E, E'. apply H. Qed.

  Ltac ext :=
    repeat first
      [ apply extends_refl | apply extends_abort | apply extends_via
      | apply extends_bind; [|intros ?] | assumption
      | match goal with |- extends (match ?x with _ => _ end) _ => destruct x end ].

  Lemma superstate_handle_extends n n' e : n <= n' ->
    extends (superstate_handle m n e) (superstate_handle m n' e).
  Proof.
    revert n'; induction n as [|n IH]; intros n' Hn; simpl; ext.
    destruct n' as [|n']; [lia|]. simpl. assert (H : n <= n') by lia. specialize (IH n' H). ext.
  Qed.

  Lemma handle_loop_extends n n' e : n <= n' ->
    extends (handle_loop m n e) (handle_loop m n' e).
  Proof.
    revert n'; induction n as [|n IH]; intros n' Hn; simpl; ext.
    destruct n' as [|n']; [lia|]. simpl. assert (H : n <= n') by lia. specialize (IH n' H). ext.
  Qed.

  Lemma depth_extends n n' u : n <= n' -> superstate_depth m n u <> Abort Diverges ->
    superstate_depth m n' u = superstate_depth m n u.
  Proof.
    intros Hn H. destruct (superstate_depth m n u) as [d|w] eqn:E.
    - eapply depth_mono; eauto.
    - exfalso. assert (w = Diverges); [|congruence]. clear H.
      revert u w E; induction n as [|n IH]; intros u w E; simpl in E; [congruence|].
      destruct (u_super m u) as [v|]; [|discriminate].
      destruct (superstate_depth m n v) eqn:Ev; [discriminate|].
      inversion E; subst. eapply IH; eauto. lia.
  Qed.

  Lemma cad_extends s s' n n' u v : s <= s' -> n <= n' ->
    superstate_common_ancestor_depth m s n u v <> Abort Diverges ->
    superstate_common_ancestor_depth m s' n' u v = superstate_common_ancestor_depth m s n u v.
  Proof.
    intros Hs; revert n' u v; induction n as [|n IH]; intros n' u v Hn H; simpl in *;
      [congruence|].
    destruct n' as [|n']; [lia|]. simpl.
    destruct (superstate_depth m s u) as [du|wu] eqn:Eu.
    2: { exfalso. pose proof (@depth_extends s s u (le_n _)) as D. rewrite Eu in D.
         destruct wu; try congruence;
         (assert (G : superstate_depth m s u = Abort Diverges \/ exists d, superstate_depth m s u = Ret d);
          [ clear; revert u; induction s as [|s IH]; intros u; simpl; auto;
            destruct (u_super m u) as [v|]; [|eauto]; destruct (IH v) as [->|[d ->]]; eauto
          | rewrite Eu in G; destruct G as [G|[d G]]; discriminate ]). }
    rewrite (@depth_extends s s' u Hs) by congruence. rewrite Eu.
    destruct (superstate_depth m s v) as [dv|wv] eqn:Ev.
    2: { exfalso.
         destruct wv; try congruence;
         (assert (G : superstate_depth m s v = Abort Diverges \/ exists d, superstate_depth m s v = Ret d);
          [ clear; revert v; induction s as [|s IH]; intros u; simpl; auto;
            destruct (u_super m u) as [v|]; [|eauto]; destruct (IH v) as [->|[d ->]]; eauto
          | rewrite Ev in G; destruct G as [G|[d G]]; discriminate ]). }
    rewrite (@depth_extends s s' v Hs) by congruence. rewrite Ev.
    destruct (Nat.compare du dv).
    - destruct (same_superstate m u v); [reflexivity|].
      destruct (u_super m u); [|reflexivity]. destruct (u_super m v); [|reflexivity].
      apply IH; [lia|exact H].
    - destruct (u_super m v); [|reflexivity]. apply IH; [lia|exact H].
    - destruct (u_super m u); [|reflexivity]. apply IH; [lia|exact H].
  Qed.

  Lemma state_depth_extends s s' x : s <= s' -> Blocking.state_depth m s x <> Abort Diverges ->
    Blocking.state_depth m s' x = Blocking.state_depth m s x.
  Proof.
    unfold Blocking.state_depth. intros Hs H. destruct (s_super m x) as [u|]; [|reflexivity].
    rewrite (@depth_extends s s' u Hs); [reflexivity|].
    destruct (superstate_depth m s u); congruence.
  Qed.

  Lemma transition_path_extends s s' x t : s <= s' ->
    Blocking.transition_path m s x t <> Abort Diverges ->
    Blocking.transition_path m s' x t = Blocking.transition_path m s x t.
  Proof.
    unfold Blocking.transition_path. intros Hs H. destruct (same_state m x t); [reflexivity|].
    rewrite (@state_depth_extends s s' x Hs) by (destruct (Blocking.state_depth m s x); congruence).
    destruct (Blocking.state_depth m s x); [|reflexivity].
    rewrite (@state_depth_extends s s' t Hs) by (destruct (Blocking.state_depth m s t); congruence).
    destruct (Blocking.state_depth m s t); [|reflexivity].
    destruct (s_super m x); [|reflexivity]. destruct (s_super m t); [|reflexivity].
    rewrite (@cad_extends s s' (s + s) (s' + s')); [reflexivity|lia|lia|].
    destruct (superstate_common_ancestor_depth m s (s + s) _ _); congruence.
  Qed.

  Lemma mode_transition_extends s s' md t : s <= s' ->
    extends (mode_transition m s md t) (mode_transition m s' md t).
  Proof.
    intros Hs x sh cx H. rewrite !mode_transition_eq in *. revert H.
    match goal with |- r_out (?c x sh cx) <> _ -> ?c' x sh cx = _ => enough (G : extends c c') by apply G end.
    apply extends_bind; [ext|intros _].
    apply extends_bind; [apply extends_lift; intros; now apply transition_path_extends|intros lv].
    ext.
  Qed.

  Lemma inner_init_extends s s' md : s <= s' -> extends (inner_init m s md) (inner_init m s' md).
  Proof.
    intros Hs x sh cx H. rewrite !mode_init_eq in *. revert H.
    match goal with |- r_out (?c x sh cx) <> _ -> ?c' x sh cx = _ => enough (G : extends c c') by apply G end.
    apply extends_bind; [apply extends_lift; intros; now apply state_depth_extends|intros lv]. ext.
  Qed.

  Lemma state_handle_extends s s' md e : s <= s' ->
    extends (mode_state_handle m s e md) (mode_state_handle m s' e md).
  Proof.
    intros Hs. unfold mode_state_handle. destruct md.
    - unfold Blocking.state_handle. pose proof (superstate_handle_extends e Hs). ext.
    - unfold Awaitable.state_handle. pose proof (handle_loop_extends e Hs). ext.
  Qed.

  Lemma inner_handle_extends s s' md e : s <= s' ->
    extends (inner_handle m s md e) (inner_handle m s' md e).
  Proof.
    intros Hs. eapply extends_ext; [intros; apply mode_handle_eq|intros; apply mode_handle_eq|].
    apply extends_bind; [now apply state_handle_extends|]. intros [| |t]; ext.
    now apply mode_transition_extends.
  Qed.

  Lemma api_init_extends s s' md sm cx : s <= s' ->
    a_out (init_with_context (m := m) s md sm cx) <> Abort Diverges ->
    init_with_context s' md sm cx = init_with_context s md sm cx.
  Proof.
    intros Hs H. unfold init_with_context in *. destruct (initialized sm); [reflexivity|].
    simpl in *. unfold run_inner in *. cbv zeta in *.
    rewrite (inner_init_extends md Hs); [reflexivity|].
    intros E. rewrite E in H. now apply H.
  Qed.

  Lemma api_handle_extends s s' md sm e cx : s <= s' ->
    a_out (handle_with_context (m := m) s md sm e cx) <> Abort Diverges ->
    handle_with_context s' md sm e cx = handle_with_context s md sm e cx.
  Proof.
    intros Hs H. rewrite !handle_is_init_then_handle in *. unfold and_then in *.
    destruct (a_out (init_with_context s md sm cx)) as [[]|w] eqn:E.
    - rewrite (api_init_extends md sm cx Hs) by (rewrite E; discriminate). rewrite E.
      simpl in H. unfold handle_with_context in *.
      rewrite (init_initializes _ _ _ _ E) in *. simpl in *. unfold dispatch, run_inner in *.
      cbv zeta in *. simpl in H. rewrite (inner_handle_extends md e Hs); [reflexivity|exact H].
    - rewrite (api_init_extends md sm cx Hs) by exact H. now rewrite E.
  Qed.
End Fuel.

(** ** Enough stack is enough; too much hierarchy is too much *)

Section Terminates.
  Variable h : hierarchy.
  Variable m : machine.
  Variable stack : nat.
  Hypothesis W : well_formed h m stack.
  Variable md : mode.

  Lemma api_handle_user (sm : state_machine m) e cx w :
    a_out (handle_with_context stack md sm e cx) = Abort w -> user w.
  Proof.
    rewrite handle_is_init_then_handle. unfold and_then.
    destruct (a_out (init_with_context stack md sm cx)) as [[]|w'] eqn:E.
    - simpl. intros Ho.
      pose proof (api_handle_run W md _ e (a_cx (init_with_context stack md sm cx))
                    (init_initializes _ _ _ _ E)) as R. cbv zeta in R. rewrite Ho in R.
      inversion R; subst; auto.
      match goal with T : trans_run _ _ _ _ _ _ _ _ |- _ => inversion T; subst; auto end.
    - rewrite E. intros Ho. inversion Ho; subst.
      destruct (initialized sm) eqn:Ei.
      + rewrite init_idempotent in E by exact Ei. discriminate.
      + destruct (api_init_run W md sm cx Ei) as (p & _ & _ & _ & Hr). rewrite E in Hr. tauto.
  Qed.

  Lemma api_init_user (sm : state_machine m) cx w :
    a_out (init_with_context stack md sm cx) = Abort w -> user w.
  Proof.
    intros E. destruct (initialized sm) eqn:Ei.
    - rewrite init_idempotent in E by exact Ei. discriminate.
    - destruct (api_init_run W md sm cx Ei) as (p & _ & _ & _ & Hr). rewrite E in Hr. tauto.
  Qed.
End Terminates.

Section Cycles.
  Variable h : hierarchy.
  Variable m : machine.
  Hypothesis Hf : follows h m.

  Lemma no_chain_diverges n u : (forall l, ~ chain h (Some (u_disc m u)) l) ->
    superstate_depth m n u = Abort Diverges.
  Proof.
    revert u; induction n as [|n IH]; intros u H; simpl; [reflexivity|].
    destruct (u_super m u) as [v|] eqn:Eu.
    - rewrite IH; [reflexivity|]. intros l Hl. apply (H (u_disc m u :: l)). constructor.
      rewrite (sup_some Hf _ Eu). exact Hl.
    - exfalso. apply (H [u_disc m u]). constructor. rewrite (sup_none Hf _ Eu). constructor.
  Qed.

  Lemma cyclic_init_diverges stack md (sm : state_machine m) cx :
    initialized sm = false ->
    (forall l, ~ chain h (leaf_parent h (s_disc m (sm_state sm))) l) ->
    a_out (init_with_context stack md sm cx) = Abort Diverges.
  Proof.
    intros Hi Hn. unfold init_with_context. rewrite Hi. simpl negb. cbv iota.
    unfold run_inner. cbv zeta. rewrite mode_init_eq.
    assert (E : Blocking.state_depth m stack (state (sm_inner sm)) = Abort Diverges).
    { unfold Blocking.state_depth. unfold sm_state in Hn.
      destruct (s_super m (state (sm_inner sm))) as [u|] eqn:Es.
      - rewrite no_chain_diverges; [reflexivity|]. rewrite <- (leaf_some Hf _ Es). exact Hn.
      - exfalso. apply (Hn []). rewrite (leaf_none Hf _ Es). constructor. }
    rewrite E. reflexivity.
  Qed.
End Cycles.

Lemma terminates (h : hierarchy) (m : machine) stack stack' md (sm : state_machine m) e cx :
  well_formed h m stack -> stack <= stack' ->
  (forall w, a_out (handle_with_context stack md sm e cx) = Abort w ->
             w = Panicked \/ w = DroppedFuture) /\
  (forall w, a_out (init_with_context stack md sm cx) = Abort w ->
             w = Panicked \/ w = DroppedFuture) /\
  handle_with_context stack' md sm e cx = handle_with_context stack md sm e cx /\
  init_with_context stack' md sm cx = init_with_context stack md sm cx.
Proof.
  intros W L.
  assert (H1 : forall w, a_out (handle_with_context stack md sm e cx) = Abort w -> user w)
    by (intros w; exact (@api_handle_user h m stack W md sm e cx w)).
  assert (H2 : forall w, a_out (init_with_context stack md sm cx) = Abort w -> user w)
    by (intros w; exact (@api_init_user h m stack W md sm cx w)).
  split; [exact H1|]. split; [exact H2|]. split.
  - apply (@api_handle_extends m stack stack' md sm e cx L).
    intros E. apply H1 in E. destruct E; discriminate.
  - apply (@api_init_extends m stack stack' md sm cx L).
    intros E. apply H2 in E. destruct E; discriminate.
Qed.
