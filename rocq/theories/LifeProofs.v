(** LifeProofs.v — proofs about the whole life of a machine (C86). *)

From Coq Require Import List Bool Arith Permutation Lia.
From Verif Require Import Machine Blocking Awaitable Api Drops DropSpec DropProofs Life LifeSpec.
Import ListNotations.
Set Implicit Arguments.

Section Storage.
  Variable m : machine.
  Variable stack : nat.
  Variable T : Type.
  Variable mark : Shared m -> T.
  Hypothesis keeps : keeps_storage m mark.

  Definition lasting {X A} (c : comp m X A) : Prop :=
    forall x sh cx, mark (r_sh (c x sh cx)) = mark sh.

  Lemma lasting_lift {X A} (o : outcome A) : lasting (X := X) (lift o).
  Proof. intros x sh cx. reflexivity. Qed.
  Lemma lasting_ret {X A} (a : A) : lasting (X := X) (ret a).
  Proof. intros x sh cx. reflexivity. Qed.
  Lemma lasting_abort {X A} w : lasting (X := X) (A := A) (abort w).
  Proof. intros x sh cx. reflexivity. Qed.
  Lemma lasting_self {X} : lasting (X := X) self.
  Proof. intros x sh cx. reflexivity. Qed.
  Lemma lasting_swap t : lasting (swap_state m t).
  Proof. intros x sh cx. reflexivity. Qed.
  Lemma lasting_bind {X A B} (c : comp m X A) (k : A -> comp m X B) :
    lasting c -> (forall a, lasting (k a)) -> lasting (bind c k).
  Proof.
    intros Hc Hk x sh cx. unfold bind.
    destruct (r_out (c x sh cx)) as [a | w]; cbn; [rewrite Hk |]; apply Hc.
  Qed.
  Lemma lasting_via {X V A} (put : X -> V -> X) v (c : comp m V A) : lasting c -> lasting (via put v c).
  Proof. intros Hc x sh cx. apply Hc. Qed.
  Lemma lasting_hook {X} f o : (forall sh r sh', f sh = (r, sh') -> mark sh' = mark sh) ->
    lasting (@call_hook m X f o).
  Proof.
    intros Hf x sh cx. unfold call_hook. destruct (f sh) as [r sh'] eqn:E. exact (Hf _ _ _ E).
  Qed.
  Lemma lasting_action {X} f o :
    (forall x sh cx r x' sh' cx', f x sh cx = (r, x', sh', cx') -> mark sh' = mark sh) ->
    lasting (@call_action m X f o).
  Proof.
    intros Hf x sh cx. unfold call_action. destruct (f x sh cx) as [[[r x'] sh'] cx'] eqn:E.
    exact (Hf _ _ _ _ _ _ _ E).
  Qed.
  Lemma lasting_handler {X} f (nd : X -> node (State m) (Sup m)) e :
    (forall x sh cx e r x' sh' cx', f x sh cx e = (r, x', sh', cx') -> mark sh' = mark sh) ->
    lasting (@call_handler m X f nd e).
  Proof.
    intros Hf x sh cx. unfold call_handler. destruct (f x sh cx e) as [[[r x'] sh'] cx'] eqn:E.
    exact (Hf _ _ _ _ _ _ _ _ E).
  Qed.

  Ltac lt := first
    [ apply lasting_ret | apply lasting_self | apply lasting_lift | apply lasting_abort
    | apply lasting_swap
    | apply lasting_action; first [exact (ks_s_entry keeps) | exact (ks_s_exit keeps)
                                  | exact (ks_u_entry keeps) | exact (ks_u_exit keeps)]
    | apply lasting_handler; first [exact (ks_s_handler keeps) | exact (ks_u_handler keeps)]
    | apply lasting_hook; intros ? ? ?; cbv beta; first
        [ exact (@ks_before_dispatch _ _ _ keeps _ _ _ _ _) | exact (@ks_after_dispatch _ _ _ keeps _ _ _ _ _)
        | exact (@ks_before_transition _ _ _ keeps _ _ _ _ _) | exact (@ks_after_transition _ _ _ keeps _ _ _ _ _) ]
    | match goal with H : forall _, _ |- _ => apply H | H : lasting _ |- _ => apply H end
    | apply lasting_bind; [| intro] | apply lasting_via
    | match goal with
      | |- context [match s_super m ?x with _ => _ end] => destruct (s_super m x)
      | |- context [match u_super m ?x with _ => _ end] => destruct (u_super m x)
      | |- context [match ?r with Handled => _ | Super => _ | Transition _ => _ end] => destruct r
      end ].

  Lemma bl_superstate_handle_lasting n e : lasting (Blocking.superstate_handle m n e).
  Proof. induction n as [| n IH]; cbn [Blocking.superstate_handle]; repeat lt. Qed.
  Lemma bl_superstate_enter_lasting n : lasting (Blocking.superstate_enter m n).
  Proof. induction n as [| [| n] IH]; cbn [Blocking.superstate_enter]; repeat lt. Qed.
  Lemma bl_superstate_exit_lasting n : lasting (Blocking.superstate_exit m n).
  Proof. induction n as [| [| n] IH]; cbn [Blocking.superstate_exit]; repeat lt. Qed.
  Lemma bl_enter_lasting n : lasting (Blocking.state_enter m n).
  Proof. pose proof bl_superstate_enter_lasting. destruct n as [| [| n]]; cbn [Blocking.state_enter]; repeat lt. Qed.
  Lemma bl_exit_lasting n : lasting (Blocking.state_exit m n).
  Proof. pose proof bl_superstate_exit_lasting. destruct n as [| [| n]]; cbn [Blocking.state_exit]; repeat lt. Qed.
  Lemma aw_handle_loop_lasting n e : lasting (Awaitable.handle_loop m n e).
  Proof. induction n as [| n IH]; cbn [Awaitable.handle_loop]; repeat lt. Qed.
  Lemma aw_climb_lasting n : lasting (Awaitable.climb_entry m n).
  Proof. induction n as [| n IH]; cbn [Awaitable.climb_entry]; repeat lt. Qed.
  Lemma aw_exit_loop_lasting n : lasting (Awaitable.exit_loop m n).
  Proof. induction n as [| n IH]; cbn [Awaitable.exit_loop]; repeat lt. Qed.
  Lemma aw_enter_lasting n : lasting (Awaitable.state_enter m n).
  Proof. pose proof aw_climb_lasting. induction n as [| [| n] IH]; cbn [Awaitable.state_enter]; repeat lt. Qed.
  Lemma aw_exit_lasting n : lasting (Awaitable.state_exit m n).
  Proof. pose proof aw_exit_loop_lasting. unfold Awaitable.state_exit. destruct (1 <=? n); repeat lt. Qed.

  Lemma init_lasting md : lasting (inner_init m stack md).
  Proof.
    pose proof bl_enter_lasting. pose proof aw_enter_lasting.
    destruct md; cbn; unfold Blocking.inner_init, Awaitable.inner_init; repeat lt.
  Qed.
  Lemma handle_lasting md e : lasting (inner_handle m stack md e).
  Proof.
    pose proof bl_enter_lasting. pose proof aw_enter_lasting.
    pose proof bl_exit_lasting. pose proof aw_exit_lasting.
    pose proof bl_superstate_handle_lasting. pose proof aw_handle_loop_lasting.
    destruct md; cbn; unfold Blocking.inner_handle, Awaitable.inner_handle, Blocking.state_handle,
      Awaitable.state_handle, Blocking.transition, Awaitable.transition; repeat lt.
  Qed.

  Lemma exec_lasting md o sm out sm' cx tr :
    keeps_storages mark o -> exec stack md o sm = (out, sm', cx, tr) ->
    mark (sm_shared sm') = mark (sm_shared sm).
  Proof.
    intros Hk. destruct o as [c | e c | f | f]; cbn [exec].
    - unfold init_with_context. destruct (negb (initialized sm)); cbn.
      + destruct (r_out _); intros [= <- <- <- <-]; cbn; apply init_lasting.
      + intros [= <- <- <- <-]. reflexivity.
    - unfold handle_with_context. destruct (negb (initialized sm)); cbn.
      + destruct (r_out (inner_init m stack md _ _ _)); cbn; intros [= <- <- <- <-]; cbn.
        * unfold sm_shared. cbn. rewrite handle_lasting. apply init_lasting.
        * apply init_lasting.
      + intros [= <- <- <- <-]. cbn. apply handle_lasting.
    - cbn. intros [= <- <- <- <-]. apply Hk.
    - cbn. intros [= <- <- <- <-]. reflexivity.
  Qed.
  Lemma exec_all_lasting md ops : forall sm,
    Forall (keeps_storages mark) ops ->
    mark (sm_shared (snd (exec_all stack md ops sm))) = mark (sm_shared sm).
  Proof.
    induction ops as [| o ops IH]; intros sm Hk; cbn [exec_all]; [reflexivity |].
    inversion Hk as [| ? ? Ho Hops]; subst.
    destruct (exec stack md o sm) as [[[out s1] c1] t1] eqn:E.
    specialize (IH s1 Hops). destruct (exec_all stack md ops s1) as [cs s2]. cbn [snd] in *.
    rewrite IH. exact (@exec_lasting md o sm out s1 c1 t1 Ho E).
  Qed.
End Storage.

Section Lives.
  Variable m : machine.
  Variable stack : nat.
  Variable md : mode.

  Lemma plain_events (l : list (event_of m)) : flat_map (@plain_event m) (map Ev l) = l.
  Proof. induction l as [| e l IH]; cbn; [reflexivity | now rewrite IH]. Qed.
  Lemma no_storages (l : list (event_of m)) : storages_dropped (map Ev l) = [].
  Proof. induction l as [| e l IH]; cbn; [reflexivity | exact IH]. Qed.
  Lemma drops_flat (rs : list (outcome unit * list (event_of m))) :
    drops_in (flat_map snd rs) = flat_map (fun r => drops_in (snd r)) rs.
  Proof.
    induction rs as [| r rs IH]; cbn; [reflexivity |]. unfold drops_in at 1. rewrite flat_map_app.
    f_equal. exact IH.
  Qed.
  Lemma targets_flat (rs : list (outcome unit * list (event_of m))) :
    targets_in (flat_map snd rs) = flat_map (fun r => targets_in (snd r)) rs.
  Proof.
    induction rs as [| r rs IH]; cbn; [reflexivity |]. unfold targets_in at 1. rewrite flat_map_app.
    f_equal. exact IH.
  Qed.

  Lemma run_d_app (ops1 : list (op m)) : forall ops2 (sm : state_machine m),
    run_d stack md (ops1 ++ ops2) sm =
    let '(r1, sm1) := run_d stack md ops1 sm in
    let '(r2, sm2) := run_d stack md ops2 sm1 in (r1 ++ r2, sm2).
  Proof.
    induction ops1 as [| o ops1 IH]; intros ops2 sm; cbn [run_d app].
    - destruct (run_d stack md ops2 sm); reflexivity.
    - destruct (exec_d stack md o sm) as [[[out s1] c1] t1]. rewrite IH.
      destruct (run_d stack md ops1 s1) as [r1 s2].
      destruct (run_d stack md ops2 s2) as [r2 s3]. reflexivity.
  Qed.

  Lemma run_pre pre : forall um,
    run_d stack md (map (@as_op_before m) pre) (StateMachine (um_inner um) false) =
    (map (fun _ => (Ret tt, [])) pre,
     StateMachine (um_inner (fold_left (fun u o => um_exec o u) pre um)) false).
  Proof.
    induction pre as [| o pre IH]; intros um; cbn [map run_d fold_left]; [reflexivity |].
    specialize (IH (um_exec o um)).
    destruct o as [f | f]; cbn [as_op_before exec_d exec um_exec map] in *;
      unfold inner_mut, state_mut, um_inner_mut, um_state_mut in *;
      cbn [sm_inner initialized um_inner map shared_storage state] in *; rewrite IH; reflexivity.
  Qed.

  Lemma run_im ops : forall im,
    run_d stack md (map (@as_op m) ops) (StateMachine (im_inner im) true) =
    let '(rs, im') := im_run_d stack md ops im in (rs, StateMachine (im_inner im') true).
  Proof.
    induction ops as [| o ops IH]; intros im; cbn [map run_d im_run_d]; [reflexivity |].
    destruct o as [e c | f | f]; cbn [as_op exec_d exec inner_mut state_mut im_exec_d].
    all: unfold handle_d, dispatch_d; cbn [initialized negb sm_inner];
      unfold inner_mut, state_mut; cbn [sm_inner initialized map];
      change (StateMachine (Inner ?a ?b) true) with (StateMachine (im_inner (InitializedMachine (Inner a b))) true);
      rewrite IH; destruct (im_run_d _ _ ops _); reflexivity.
  Qed.
End Lives.
