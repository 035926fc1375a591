(** Props53.v — C104: on an executor, machines may be replaced by machines that cannot be told apart
    from them.  See Tasks.v ([job], [run_pool]) and PollSimSpec.v ([similar_futures]). *)

From Coq Require Import List Bool Arith Lia.
From Verif Require Import Machine Api Spec Sim Poll PollSimSpec Tasks TaskSpec.
From Verif Require PollProofs PollSimProofs TaskProofs Props30 Props48.
Import ListNotations.
Set Implicit Arguments.

Lemma session_driven m1 m2 (R : relations m1 m2) W1 W2 (RW : W1 -> W2 -> Prop) (F1 : futures W1 m1) (F2 : futures W2 m2) stack :
  similar_futures R RW F1 F2 -> variant_safe F1 ->
  forall es es', Forall2 (r_event R) es es' -> forall w ws w' ws' sm sm' cx cx',
    schedule_rel RW (w, ws) (w', ws') -> machine_rel R sm sm' -> r_ctx R cx cx' ->
    let '(o, (sm1, cx1), tr, l) := drive (a_session F1 stack es) w ws (sm, cx) in
    let '(o', (sm1', cx1'), tr', l') := drive (a_session F2 stack es') w' ws' (sm', cx') in
    o = o' /\ machine_rel R sm1 sm1' /\ r_ctx R cx1 cx1' /\ Forall2 (obs_rel R) tr tr' /\ schedule_rel RW l l'.
Proof.
  intros SF VS es es' F. induction F as [|e e' es es' He F IH]; intros w ws w' ws' sm sm' cx cx' L M C; cbn [a_session].
  - assert (E1 : drive (aret (World := W1) (m := m1) tt) w ws (sm, cx) = (Some (Ret tt), (sm, cx), [], (w, ws))) by (destruct ws; reflexivity).
    assert (E2 : drive (aret (World := W2) (m := m2) tt) w' ws' (sm', cx') = (Some (Ret tt), (sm', cx'), [], (w', ws'))) by (destruct ws'; reflexivity).
    rewrite E1, E2. repeat split; try constructor; try apply M; try apply L; assumption.
  - rewrite !PollProofs.drive_bind.
    pose proof (@PollSimProofs.handle_driven m1 m2 R W1 W2 RW F1 F2 SF VS stack e e' He w ws w' ws' sm sm' cx cx' L M C) as H.
    destruct (drive (a_handle_with_context F1 stack e) w ws (sm, cx)) as [[[o [sm1 cx1]] tr1] [w1 ws1]].
    destruct (drive (a_handle_with_context F2 stack e') w' ws' (sm', cx')) as [[[o' [sm1' cx1']] tr1'] [w1' ws1']].
    destruct H as (<- & M1 & C1 & T1 & L1). destruct o as [[[]|y]|]; [|repeat split; try assumption; try apply M1; apply L1..].
    specialize (IH w1 ws1 w1' ws1' sm1 sm1' cx1 cx1' L1 M1 C1). unfold PollProofs.prepend.
    destruct (drive (a_session F1 stack es) w1 ws1 (sm1, cx1)) as [[[o2 [sm2 cx2]] tr2] l2].
    destruct (drive (a_session F2 stack es') w1' ws1' (sm1', cx1')) as [[[o2' [sm2' cx2']] tr2'] l2'].
    destruct IH as (H1 & H2 & H3 & H4 & H5). repeat split; try assumption; try apply H2; try apply H5. now apply Forall2_app.
Qed.
Lemma turns_rel W1 W2 (RW : W1 -> W2 -> Prop) i s s' :
  Forall2 (fun p p' => fst p = fst p' /\ RW (snd p) (snd p')) s s' -> Forall2 RW (turns i s) (turns i s').
Proof.
  unfold turns. induction 1 as [|[k w] [k' w'] s s' [E H] F IH]; [constructor|]. cbn in E, H. subst k'. cbn [filter fst].
  destruct (k =? i); [constructor; assumption|exact IH].
Qed.

(** C104.  Put tasks on an executor, and in a second run other tasks, such that the [i]th task of each
    handles corresponding events with machines whose callbacks' futures correspond (C99).  Under
    the same schedule (with related worlds), whatever the other tasks are, at any time both have
    ended, in the same way, or neither has; both have called the same user code with related
    arguments; and their machines and contexts are related. *)
Theorem C104_replaced :
  forall (W1 W2 : Type) (RW : W1 -> W2 -> Prop) (js : list (job W1)) (js' : list (job W2))
         (schedule : list (nat * W1)) (schedule' : list (nat * W2)) (i : nat) (j : job W1) (j' : job W2)
         (R : relations (j_m j) (j_m j')),
    nth_error js i = Some j -> nth_error js' i = Some j' ->
    Forall2 (fun p p' => fst p = fst p' /\ RW (snd p) (snd p')) schedule schedule' ->
    similar_futures R RW (j_F j) (j_F j') -> variant_safe (j_F j) -> j_stack j = j_stack j' ->
    Forall2 (r_event R) (j_events j) (j_events j') -> machine_rel R (j_sm j) (j_sm j') -> r_ctx R (j_cx j) (j_cx j') ->
    exists (p : progress W1 (j_m j)) (p' : progress W2 (j_m j')),
      nth_error (run_pool schedule (spawn_all js)) i = Some (existT _ (j_m j) p) /\
      nth_error (run_pool schedule' (spawn_all js')) i = Some (existT _ (j_m j') p') /\
      p_end p = p_end p' /\ Forall2 (obs_rel R) (p_log p) (p_log p') /\
      machine_rel R (fst (p_store p)) (fst (p_store p')) /\ r_ctx R (snd (p_store p)) (snd (p_store p')).
Proof.
  intros W1 W2 RW js js' schedule schedule' i j j' R Hj Hj' HS SF VS ES HE HM HC.
  exists (TaskProofs.take (turns i schedule) (spawn j)), (TaskProofs.take (turns i schedule') (spawn j')).
  split; [rewrite TaskProofs.pool_isolated; unfold spawn_all; rewrite nth_error_map, Hj; reflexivity|].
  split; [rewrite TaskProofs.pool_isolated; unfold spawn_all; rewrite nth_error_map, Hj'; reflexivity|].
  pose proof (@turns_rel W1 W2 RW i schedule schedule' HS) as T. inversion T as [|w w' ws ws' Hw Hws E1 E2].
  - cbn. repeat split; try constructor; try apply HM; exact HC.
  - pose proof (@TaskProofs.take_drives W1 (j_m j) ws w (spawn j) eq_refl) as D.
    pose proof (@TaskProofs.take_drives W2 (j_m j') ws' w' (spawn j') eq_refl) as D'.
    unfold spawn in D at 1 2. unfold spawn in D' at 1 2. cbn [p_fut p_store] in D, D'.
    assert (L : schedule_rel RW (w, ws) (w', ws')) by (split; assumption).
    pose proof (@session_driven _ _ R _ _ RW _ _ (j_stack j) SF VS _ _ HE w ws w' ws' _ _ _ _ L HM HC) as H. rewrite <- ES in D'.
    destruct (drive (a_session (j_F j) (j_stack j) (j_events j)) w ws (j_sm j, j_cx j)) as [[[o [sm1 cx1]] tr] l].
    destruct (drive (a_session (j_F j') (j_stack j) (j_events j')) w' ws' (j_sm j', j_cx j')) as [[[o' [sm1' cx1']] tr'] l'].
    cbv zeta in D, D'. destruct D as (-> & -> & ->), D' as (-> & -> & ->). destruct H as (H1 & H2 & H3 & H4 & H5).
    cbn. repeat split; try assumption; apply H2.
Qed.
Print Assumptions C104_replaced.

(** Two tasks of the one light of C99, or two of the other, polled in an arbitrary order; and a
    schedule under which they end, and a prefix of it under which they do not. *)
Definition light_task (es : list Props30.signal) : job bool :=
  @Job bool Props30.down (Props48.slowly Props30.down S) 2 es (new_state_machine Props30.down false) 0.
Definition other_light_task (es : list Props30.signal) : job bool :=
  @Job bool Props30.up (Props48.slowly Props30.up S) 2 es (new_state_machine Props30.up 0) 0.
Definition ending_of (t : task bool) : option (outcome unit) := p_end (projT2 t).
Example C104_case :
  (forall es schedule i, i < 2 ->
     let js := [light_task es; light_task es] in let js' := [other_light_task es; other_light_task es] in
     option_map ending_of (nth_error (run_pool schedule (spawn_all js)) i) =
     option_map ending_of (nth_error (run_pool schedule (spawn_all js')) i)) /\
  (let es := [Props30.Press; Props30.Tick] in
   let s := flat_map (fun n => [(0, true); (1, Nat.even n)]) (seq 0 30) in
   map ending_of (run_pool s (spawn_all [light_task es; light_task es])) = [Some (Ret tt); Some (Ret tt)] /\
   map ending_of (run_pool (firstn 9 s) (spawn_all [light_task es; light_task es])) = [None; None]).
Proof.
  split.
  - intros es schedule i Hi js js'.
    assert (J : nth_error js i = Some (light_task es)) by (destruct i as [|[|]]; try reflexivity; lia).
    assert (J' : nth_error js' i = Some (other_light_task es)) by (destruct i as [|[|]]; try reflexivity; lia).
    assert (S0 : Forall2 (fun p p' : nat * bool => fst p = fst p' /\ snd p = snd p') schedule schedule).
    { clear. induction schedule; constructor; auto. }
    destruct (@C104_replaced bool bool eq js js' schedule schedule i (light_task es) (other_light_task es) Props30.down_up J J' S0
                Props48.lights_slowly) as (p & p' & -> & -> & E & _).
    + apply Props48.down_safe.
    + reflexivity.
    + cbn. clear. induction es; constructor; auto.
    + split; [exact (si_initial Props30.down_up_similar)|]. split; reflexivity.
    + reflexivity.
    + exact (f_equal (@Some _) E).
  - vm_compute. split; reflexivity.
Qed.
