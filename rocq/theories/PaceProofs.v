(** PaceProofs.v — proofs about the number of polls (C87). *)

From Coq Require Import List Bool Arith Lia.
From Verif Require Import Machine Blocking Awaitable Api Poll SuperSpec WorkSpec PaceSpec.
From Verif Require WorkCalls PollProofs.
Import ListNotations.
Set Implicit Arguments.

(** A user future on its own: [length ws - length rest] of the polls were answered `Pending`. *)
Lemma udrive_pends {World S A : Type} : forall hi lo (f : ufut World S A) w ws s o s' w' rest,
  pends lo hi f s -> udrive f w ws s = (o, s', (w', rest)) ->
  match o with
  | Some _ => length rest + lo <= length ws /\ length ws <= length rest + hi
  | None => length ws + 1 <= hi
  end.
Proof.
  induction hi as [| hi IH]; intros lo f w ws s o s' w' rest P E.
  - specialize (P w). destruct ws as [| w1 ws]; cbn in E; destruct (upoll f w s) as [a s1 | s1 f1];
      try contradiction; injection E as <- <- <- <-; cbn; lia.
  - assert (Pw := P w). destruct ws as [| w1 ws]; cbn in E; destruct (upoll f w s) as [a s1 | s1 f1].
    + injection E as <- <- <- <-. cbn. lia.
    + injection E as <- <- <- <-. cbn. lia.
    + injection E as <- <- <- <-. cbn. lia.
    + specialize (IH _ _ _ _ _ _ _ _ _ Pw E). destruct o; cbn; lia.
Qed.

Section Costs.
  Variable World : Type.
  Variable m : machine.
  Variable F : futures World m.
  Variables lo hi : obs m -> nat.
  Hypothesis P : paced lo hi F.
  Variable stack : nat.

  Definition from_sync (o : obs (sync F)) : obs m :=
    match o with
    | OBeforeDispatch n e => @OBeforeDispatch m n e
    | OHandler n e => @OHandler m n e
    | OReturn r => @OReturn m r
    | OAfterDispatch n e => @OAfterDispatch m n e
    | OBeforeTransition a b => @OBeforeTransition m a b
    | OAfterTransition a b => @OAfterTransition m a b
    | OExit n => @OExit m n
    | OEnter n => @OEnter m n
    end.
  Lemma from_to o : from_sync (to_sync F o) = o.
  Proof. destruct o; reflexivity. Qed.
  Lemma from_to_all l : map from_sync (map (to_sync F) l) = l.
  Proof. rewrite map_map. induction l as [| o l IH]; cbn; [reflexivity |]. now rewrite IH, from_to. Qed.

  Definition left_ (sh : Shared (sync F)) : nat := length (snd (snd sh)).
  Definition tot (k : obs m -> nat) (tr : list (obs (sync F))) : nat := total k (map from_sync tr).
  Lemma tot_app k a b : tot k (a ++ b) = tot k a + tot k b.
  Proof. unfold tot, total. rewrite map_app, filter_app, map_app, list_sum_app. reflexivity. Qed.

  Definition costs {X A} (c : comp (sync F) X A) : Prop :=
    forall x sh cx, let r := c x sh cx in
      match r_out r with
      | Abort DroppedFuture => left_ sh + 1 <= tot hi (r_tr r)
      | _ => left_ (r_sh r) + tot lo (r_tr r) <= left_ sh /\ left_ sh <= left_ (r_sh r) + tot hi (r_tr r)
      end.

  Lemma costs_ret {X A} (a : A) : costs (X := X) (ret a).
  Proof. intros x sh cx. cbn. lia. Qed.
  Lemma costs_self {X} : costs (X := X) self.
  Proof. intros x sh cx. cbn. lia. Qed.
  Lemma costs_swap t : costs (swap_state (sync F) t).
  Proof. intros x sh cx. cbn. lia. Qed.
  Lemma costs_abort {X A} : costs (X := X) (A := A) (abort Diverges).
  Proof. intros x sh cx. cbn. lia. Qed.
  Lemma costs_lift {X A} (o : outcome A) : o <> Abort DroppedFuture -> costs (X := X) (lift o).
  Proof. intros H x sh cx. cbn. destruct o as [a | []]; try lia. congruence. Qed.
  Lemma costs_bind {X A B} (c : comp (sync F) X A) (k : A -> comp (sync F) X B) :
    costs c -> (forall a, costs (k a)) -> costs (bind c k).
  Proof.
    intros Hc Hk x sh cx. specialize (Hc x sh cx). unfold bind. cbv zeta in *.
    destruct (r_out (c x sh cx)) as [a | w] eqn:Eo; cbn [r_out r_sh r_tr].
    - specialize (Hk a (r_self (c x sh cx)) (r_sh (c x sh cx)) (r_cx (c x sh cx))). cbv zeta in Hk.
      rewrite !tot_app. destruct (r_out (k a _ _ _)) as [b | []]; lia.
    - exact Hc.
  Qed.
  Lemma costs_via {X V A} (put : X -> V -> X) v (c : comp (sync F) V A) : costs c -> costs (via put v c).
  Proof. intros Hc x sh cx. exact (Hc v sh cx). Qed.

  Lemma costs_action {X} (f : ufut World (X * Shared m * Ctx m) unit) (o : X -> obs (sync F)) :
    (forall x, is_call (from_sync (o x)) = true) ->
    (forall x sh cx, pends (lo (from_sync (o x))) (hi (from_sync (o x))) f (x, sh, cx)) ->
    costs (@call_action (sync F) X (fun x sh cx => atomically f x sh cx) o).
  Proof.
    intros Hi Hp x [sh [w ws]] cx. cbv zeta. unfold call_action, atomically. cbn [fst snd].
    match goal with |- context [udrive f w ws ?s] => destruct (udrive f w ws s) as [[r [[x' sh'] cx']] [w' rest]] eqn:E end.
    pose proof (@udrive_pends _ _ _ _ _ _ _ _ _ _ _ _ _ (Hp x sh cx) E) as H.
    unfold tot, total, left_.
    destruct r as [[a |] |]; cbn -[from_sync is_call] in *; rewrite ?Hi; cbn -[from_sync is_call]; lia.
  Qed.
  Lemma costs_hook {X} (f : ufut World (Shared m) unit) (o : obs (sync F)) :
    is_call (from_sync o) = true ->
    (forall sh, pends (lo (from_sync o)) (hi (from_sync o)) f sh) ->
    costs (@call_hook (sync F) X (fun sh => atomic_hook f sh) o).
  Proof.
    intros Hi Hp x [sh [w ws]] cx. cbv zeta. unfold call_hook, atomic_hook. cbn [fst snd].
    match goal with |- context [udrive f w ws ?s] => destruct (udrive f w ws s) as [[r sh'] [w' rest]] eqn:E end.
    pose proof (@udrive_pends _ _ _ _ _ _ _ _ _ _ _ _ _ (Hp sh) E) as H.
    unfold tot, total, left_.
    destruct r as [[a |] |]; cbn -[from_sync is_call] in *; rewrite ?Hi; cbn -[from_sync is_call]; lia.
  Qed.
  Lemma costs_handler {X} (f : Event m -> ufut World (X * Shared m * Ctx m) (response (State m))) nd e :
    (forall x sh cx, pends (lo (OHandler (nd x) e)) (hi (OHandler (nd x) e)) (f e) (x, sh, cx)) ->
    costs (@call_handler (sync F) X (fun x sh cx e => atomically (f e) x sh cx) nd e).
  Proof.
    intros Hp x [sh [w ws]] cx. cbv zeta. unfold call_handler, atomically. cbn [fst snd].
    match goal with |- context [udrive (f e) w ws ?s] => destruct (udrive (f e) w ws s) as [[r [[x' sh'] cx']] [w' rest]] eqn:E end.
    pose proof (@udrive_pends _ _ _ _ _ _ _ _ _ _ _ _ _ (Hp x sh cx) E) as H.
    unfold tot, total, left_. destruct r as [[a |] |]; cbn in *; lia.
  Qed.

  Definition fine {A} (o : outcome A) : Prop := o <> Abort DroppedFuture.
  Lemma superstate_depth_fine n u : fine (Blocking.superstate_depth (sync F) n u).
  Proof.
    revert u. unfold fine. induction n as [| n IH]; intros u; cbn; [discriminate |].
    destruct (u_super m u) as [v |]; [| discriminate]. specialize (IH v).
    destruct (Blocking.superstate_depth (sync F) n v) as [| []]; congruence.
  Qed.
  Lemma state_depth_fine x : fine (Blocking.state_depth (sync F) stack x).
  Proof.
    unfold fine, Blocking.state_depth. destruct (s_super (sync F) x) as [u |]; [| discriminate].
    pose proof (superstate_depth_fine stack u) as D. unfold fine in D.
    destruct (Blocking.superstate_depth (sync F) stack u) as [| []]; congruence.
  Qed.
  Lemma ancestor_fine n u v : fine (Blocking.superstate_common_ancestor_depth (sync F) stack n u v).
  Proof.
    revert u v. unfold fine. induction n as [| n IH]; intros u v; cbn; [discriminate |].
    pose proof (superstate_depth_fine stack u) as Du. pose proof (superstate_depth_fine stack v) as Dv.
    unfold fine in *.
    destruct (Blocking.superstate_depth (sync F) stack u) as [du | wu]; [| congruence].
    destruct (Blocking.superstate_depth (sync F) stack v) as [dv | wv]; [| congruence].
    destruct (du ?= dv).
    - destruct (u_disc m u =? u_disc m v); [discriminate |].
      destruct (u_super m u), (u_super m v); try discriminate. apply IH.
    - destruct (u_super m v); [apply IH | discriminate].
    - destruct (u_super m u); [apply IH | discriminate].
  Qed.
  Lemma path_fine x t : fine (Blocking.transition_path (sync F) stack x t).
  Proof.
    unfold fine, Blocking.transition_path. destruct (Blocking.same_state (sync F) x t); [discriminate |].
    pose proof (state_depth_fine x) as Dx. pose proof (state_depth_fine t) as Dt. unfold fine in *.
    destruct (Blocking.state_depth (sync F) stack x) as [dx | wx]; [| congruence].
    destruct (Blocking.state_depth (sync F) stack t) as [dt | wt]; [| congruence].
    destruct (s_super (sync F) x) as [u |]; [| discriminate].
    destruct (s_super (sync F) t) as [v |]; [| discriminate].
    pose proof (ancestor_fine (stack + stack) u v) as A. unfold fine in A.
    destruct (Blocking.superstate_common_ancestor_depth (sync F) stack (stack + stack) u v) as [c | w]; [| congruence].
    unfold Blocking.checked_sub. destruct (c <=? dx); [| discriminate]. destruct (c <=? dt); discriminate.
  Qed.

  Ltac ct := first
    [ apply costs_ret | apply costs_self | apply costs_abort | apply costs_swap
    | apply costs_lift; first [apply state_depth_fine | apply path_fine]
    | apply (@costs_action _ (f_s_entry F)); [reflexivity | exact (pa_s_entry P)]
    | apply (@costs_action _ (f_s_exit F)); [reflexivity | exact (pa_s_exit P)]
    | apply (@costs_action _ (f_u_entry F)); [reflexivity | exact (pa_u_entry P)]
    | apply (@costs_action _ (f_u_exit F)); [reflexivity | exact (pa_u_exit P)]
    | apply (@costs_handler _ (f_s_handler F)); exact (pa_s_handler P _)
    | apply (@costs_handler _ (f_u_handler F)); exact (pa_u_handler P _)
    | apply costs_hook; [reflexivity | first
        [ exact (pa_before_dispatch P _ _) | exact (pa_after_dispatch P _ _)
        | exact (pa_before_transition P _ _) | exact (pa_after_transition P _ _) ]]
    | match goal with H : forall _, _ |- _ => apply H | H : costs _ |- _ => apply H end
    | apply costs_bind; [| intro] | apply costs_via
    | match goal with
      | |- context [match s_super ?m ?x with _ => _ end] => destruct (s_super m x)
      | |- context [match u_super ?m ?x with _ => _ end] => destruct (u_super m x)
      | |- context [match ?r with Handled => _ | Super => _ | Transition _ => _ end] => destruct r
      end ].

  Lemma handle_loop_costs n e : costs (Awaitable.handle_loop (sync F) n e).
  Proof. induction n as [| n IH]; cbn [Awaitable.handle_loop]; repeat ct. Qed.
  Lemma climb_costs n : costs (Awaitable.climb_entry (sync F) n).
  Proof. induction n as [| n IH]; cbn [Awaitable.climb_entry]; repeat ct. Qed.
  Lemma exit_loop_costs n : costs (Awaitable.exit_loop (sync F) n).
  Proof. induction n as [| n IH]; cbn [Awaitable.exit_loop]; repeat ct. Qed.
  Lemma enter_costs n : costs (Awaitable.state_enter (sync F) n).
  Proof. pose proof climb_costs. induction n as [| [| n] IH]; cbn [Awaitable.state_enter]; repeat ct. Qed.
  Lemma exit_costs n : costs (Awaitable.state_exit (sync F) n).
  Proof. pose proof exit_loop_costs. unfold Awaitable.state_exit. destruct (1 <=? n); repeat ct. Qed.
  Lemma init_costs : costs (inner_init (sync F) stack AwaitableMode).
  Proof. pose proof enter_costs. cbn. unfold Awaitable.inner_init. repeat ct. Qed.
  Lemma handle_costs e : costs (inner_handle (sync F) stack AwaitableMode e).
  Proof.
    pose proof enter_costs. pose proof exit_costs. pose proof handle_loop_costs.
    cbn. unfold Awaitable.inner_handle, Awaitable.state_handle, Awaitable.transition. repeat ct.
  Qed.

  Definition api_costs (before : Shared (sync F)) (r : api_res (sync F) (state_machine (sync F))) : Prop :=
    let after := shared_storage (sm_inner (a_machine r)) in
    match a_out r with
    | Abort DroppedFuture => left_ before + 1 <= tot hi (a_tr r)
    | _ => left_ after + tot lo (a_tr r) <= left_ before /\ left_ before <= left_ after + tot hi (a_tr r)
    end.
  Lemma sm_init_costs sm cx :
    api_costs (shared_storage (sm_inner sm)) (init_with_context stack AwaitableMode sm cx).
  Proof.
    unfold api_costs, init_with_context. destruct (negb (initialized sm)); cbn [a_out a_machine a_tr]; [| cbn; lia].
    pose proof (init_costs (state (sm_inner sm)) (shared_storage (sm_inner sm)) cx) as H. cbv zeta in H.
    unfold run_inner. cbn [a_out a_machine a_tr a_cx].
    destruct (r_out (inner_init (sync F) stack AwaitableMode _ _ cx)) as [[] | []]; exact H.
  Qed.
  Definition inner_costs (before : Shared (sync F)) (q : api_res (sync F) (inner (sync F))) : Prop :=
    match a_out q with
    | Abort DroppedFuture => left_ before + 1 <= tot hi (a_tr q)
    | _ => left_ (shared_storage (a_machine q)) + tot lo (a_tr q) <= left_ before /\
           left_ before <= left_ (shared_storage (a_machine q)) + tot hi (a_tr q)
    end.
  Lemma run_inner_costs (c : comp (sync F) (State m) unit) (i : inner (sync F)) cx :
    costs c -> inner_costs (shared_storage i) (run_inner c i cx).
  Proof.
    intros H. specialize (H (state i) (shared_storage i) cx). cbv zeta in H. unfold inner_costs, run_inner.
    cbn [a_out a_machine a_tr shared_storage]. exact H.
  Qed.
  Lemma in_machine_costs before (q : api_res (sync F) (inner (sync F))) b :
    inner_costs before q ->
    api_costs before (ApiRes (a_out q) (StateMachine (a_machine q) b) (a_cx q) (a_tr q)).
  Proof. intros H. exact H. Qed.
  Lemma then_costs before (q : api_res (sync F) (inner (sync F))) (r : api_res (sync F) (state_machine (sync F))) :
    inner_costs before q -> a_out q = Ret tt -> api_costs (shared_storage (a_machine q)) r ->
    api_costs before (ApiRes (a_out r) (a_machine r) (a_cx r) (a_tr q ++ a_tr r)).
  Proof.
    unfold inner_costs, api_costs. intros H Eq G. rewrite Eq in H.
    cbn [a_out a_machine a_tr] in *. rewrite !tot_app.
    destruct (a_out r) as [? | []]; lia.
  Qed.
  Lemma dispatch_costs sm e cx :
    api_costs (shared_storage (sm_inner sm)) (dispatch stack AwaitableMode sm e cx).
  Proof. apply in_machine_costs, run_inner_costs, handle_costs. Qed.
  Lemma sm_handle_costs sm e cx :
    api_costs (shared_storage (sm_inner sm)) (handle_with_context stack AwaitableMode sm e cx).
  Proof.
    unfold handle_with_context. destruct (negb (initialized sm)); [| apply dispatch_costs].
    pose proof (run_inner_costs (sm_inner sm) cx init_costs) as H.
    destruct (run_inner (inner_init (sync F) stack AwaitableMode) (sm_inner sm) cx) as [o i c t].
    destruct o as [[] | w]; cbn [a_out a_machine a_cx a_tr].
    - refine (@then_costs _ _ _ H eq_refl _). apply dispatch_costs.
    - exact (@in_machine_costs _ _ (initialized sm) H).
  Qed.

  Lemma total_sync k tr : tot k (map (to_sync F) tr) = total k tr.
  Proof. unfold tot. rewrite from_to_all. reflexivity. Qed.
End Costs.

(** A future that gets ready has not been dropped. *)
Section Itself.
  Variable World : Type.
  Variable m : machine.
  Variable F : futures World m.
  Variable stack : nat.

  Definition itself {S A} (c : fut World m S A) : Prop :=
    forall w ws s, fst (fst (fst (drive c w ws s))) <> Some (Abort DroppedFuture).

  Lemma itself_ready {S A} (g : S -> outcome A * S) :
    (forall s, fst (g s) <> Abort DroppedFuture) ->
    itself (Fut (fun _ s => PReady (m := m) (fst (g s)) (snd (g s)) [])).
  Proof. intros H w [| w' ws] s; cbn; intros [= E]; exact (H s E). Qed.
  Lemma itself_ret {S A} (a : A) : itself (aret (S := S) a).
  Proof. intros w [| w' ws] s; cbn; discriminate. Qed.
  Lemma itself_get {S} : itself (aget (S := S)).
  Proof. intros w [| w' ws] s; cbn; discriminate. Qed.
  Lemma itself_self {X} : itself (aself (X := X)).
  Proof. intros w [| w' ws] s; cbn; discriminate. Qed.
  Lemma itself_swap t : itself (a_swap_state World m t).
  Proof. intros w [| w' ws] s; cbn; discriminate. Qed.
  Lemma itself_set : itself (a_set_initialized World m).
  Proof. intros w [| w' ws] s; cbn; discriminate. Qed.
  Lemma itself_lift {S A} (o : outcome A) : o <> Abort DroppedFuture -> itself (alift (S := S) o).
  Proof. intros H w [| w' ws] s; cbn; congruence. Qed.
  Lemma itself_bind {S A B} (c : fut World m S A) (k : A -> fut World m S B) :
    itself c -> (forall a, itself (k a)) -> itself (abind c k).
  Proof.
    intros Hc Hk w ws s. rewrite PollProofs.drive_bind. specialize (Hc w ws s).
    destruct (drive c w ws s) as [[[[[a | y] |] s1] tr1] [w1 ws1]]; cbn in *; [| congruence | discriminate].
    specialize (Hk a w1 ws1 s1). destruct (drive (k a) w1 ws1 s1) as [[[o s2] tr2] l2]. exact Hk.
  Qed.
  Lemma itself_borrow {S V A} (get : S -> V) put (c : fut World m V A) : itself c -> itself (aborrow get put c).
  Proof.
    intros Hc w ws s. rewrite PollProofs.drive_aborrow. specialize (Hc w ws (get s)).
    destruct (drive c w ws (get s)) as [[[o s2] tr2] l2]. exact Hc.
  Qed.
  Lemma itself_call {S A} o (ans : A -> list (obs m)) (f : ufut World S A) : itself (acall o ans f).
  Proof.
    intros w ws s. rewrite PollProofs.drive_acall.
    destruct (udrive f w ws s) as [[[[a |] |] s2] l]; cbn; discriminate.
  Qed.

  Ltac it := first
    [ apply itself_ret | apply itself_get | apply itself_self | apply itself_swap | apply itself_set
    | apply itself_lift; first
        [ discriminate
        | unfold Awaitable.state_depth; rewrite <- (PollProofs.sync_state_depth F); apply state_depth_fine
        | unfold Awaitable.transition_path; rewrite <- (PollProofs.sync_transition_path F); apply path_fine ]
    | apply itself_call
    | match goal with H : forall _, _ |- _ => apply H | H : itself _ |- _ => apply H end
    | apply itself_bind; [| intro] | apply itself_borrow
    | match goal with
      | |- context [match s_super ?m ?x with _ => _ end] => destruct (s_super m x)
      | |- context [match u_super ?m ?x with _ => _ end] => destruct (u_super m x)
      | |- context [match ?r with Handled => _ | Super => _ | Transition _ => _ end] => destruct r
      | |- context [if negb (initialized ?s) then _ else _] => destruct (negb (initialized s))
      end ].

  Lemma handle_loop_itself n e : itself (a_handle_loop F n e).
  Proof. induction n as [| n IH]; cbn [a_handle_loop]; repeat it. Qed.
  Lemma climb_itself n : itself (a_climb_entry F n).
  Proof. induction n as [| n IH]; cbn [a_climb_entry]; repeat it. Qed.
  Lemma exit_loop_itself n : itself (a_exit_loop F n).
  Proof. induction n as [| n IH]; cbn [a_exit_loop]; repeat it. Qed.
  Lemma enter_itself n : itself (a_state_enter F n).
  Proof. pose proof climb_itself. induction n as [| [| n] IH]; cbn [a_state_enter]; repeat it. Qed.
  Lemma exit_itself n : itself (a_state_exit F n).
  Proof. pose proof exit_loop_itself. unfold a_state_exit. destruct (1 <=? n); repeat it. Qed.
  Lemma init_itself : itself (a_init_with_context F stack).
  Proof. pose proof enter_itself. unfold a_init_with_context, on_inner, a_inner_init. repeat it. Qed.
  Lemma handle_itself e : itself (a_handle_with_context F stack e).
  Proof.
    pose proof enter_itself. pose proof exit_itself. pose proof handle_loop_itself.
    unfold a_handle_with_context, on_inner, a_inner_init, a_inner_handle, a_state_handle, a_transition. repeat it.
  Qed.
End Itself.
