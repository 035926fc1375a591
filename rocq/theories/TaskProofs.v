(** TaskProofs.v — proofs about several machines on one executor (C88). *)

From Coq Require Import List Bool Arith Lia.
From Verif Require Import Machine Api Spec Poll SuperSpec WorkSpec PaceSpec Tasks TaskSpec.
From Verif Require PollProofs PaceProofs Props36.
Import ListNotations.
Set Implicit Arguments.

Section Session.
  Variable World : Type.
  Variable m : machine.
  Variable F : futures World m.
  Variable stack : nat.

  Lemma session_performs (I : implements F) (es : list (Event m)) : forall w ws sm cx,
    match drive (a_session F stack es) w ws (sm, cx) with
    | (Some o, s', tr, _) => in_sequence stack es sm cx = ApiRes o (fst s') (snd s') tr
    | (None, _, tr, _) => exists more, a_tr (in_sequence stack es sm cx) = tr ++ more
    end.
  Proof.
    induction es as [| e es IH]; intros w ws sm cx; cbn [a_session in_sequence].
    - destruct ws; reflexivity.
    - rewrite PollProofs.drive_bind.
      pose proof (@PollProofs.handle_performs World m F stack I e w ws sm cx) as H.
      destruct (drive (a_handle_with_context F stack e) w ws (sm, cx)) as [[[[[[] | y] |] [sm1 cx1]] tr1] [w1 ws1]];
        cbn [fst snd] in H.
      + rewrite H. unfold and_then. cbn [a_out a_machine a_cx a_tr].
        specialize (IH w1 ws1 sm1 cx1). unfold PollProofs.prepend.
        destruct (drive (a_session F stack es) w1 ws1 (sm1, cx1)) as [[[[o |] [sm2 cx2]] tr2] l2]; cbn [fst snd] in *.
        * rewrite IH. reflexivity.
        * destruct IH as [more IH]. exists more. rewrite IH. apply app_assoc.
      + rewrite H. reflexivity.
      + destruct H as [more H]. unfold and_then.
        destruct (a_out (handle_with_context stack AwaitableMode sm e cx)); cbn [a_tr].
        * rewrite H, <- app_assoc. eexists. reflexivity.
        * exists more. exact H.
  Qed.

  Lemma session_completes h k (W : well_formed h m stack) (L : lends m) (P : paced (fun _ => 0) (fun _ => k) F)
      (es : list (Event m)) : forall w ws sm cx,
    length es * (k * (6 * (stack + 1) + 2)) <= length ws ->
    fst (fst (fst (drive (a_session F stack es) w ws (sm, cx)))) <> None.
  Proof.
    set (b := k * (6 * (stack + 1) + 2)).
    induction es as [| e es IH]; intros w ws sm cx Hl; cbn [a_session].
    - destruct ws; discriminate.
    - cbn [length] in Hl. rewrite PollProofs.drive_bind.
      destruct (@Props36.C87_completes World h m F k stack e w ws sm cx W L P) as (out & sm1 & cx1 & tr & w1 & rest & E & R).
      { fold b. lia. }
      rewrite E. destruct out as [[] | y]; [| discriminate].
      fold b in R.
      unfold PollProofs.prepend. specialize (IH w1 rest sm1 cx1).
      destruct (drive (a_session F stack es) w1 rest (sm1, cx1)) as [[[o s2] tr2] l2]. cbn [fst] in *.
      apply IH. lia.
  Qed.
End Session.

Section Pool.
  Variable World : Type.

  (** The turns of one task. *)
  Definition take {m : machine} (ws : list World) (p : progress World m) : progress World m :=
    fold_left (fun p w => poll_task w p) ws p.

  Lemma take_ended {m : machine} ws (p : progress World m) o : p_end p = Some o -> take ws p = p.
  Proof.
    intros H. induction ws as [| w ws IH]; [reflexivity |]. unfold take in *. cbn.
    unfold poll_task at 2. rewrite H. exact IH.
  Qed.
  Lemma take_drives {m : machine} ws : forall w (p : progress World m), p_end p = None ->
    let '(o, s, tr, _) := drive (p_fut p) w ws (p_store p) in
    let q := take (w :: ws) p in
    p_end q = o /\ p_store q = s /\ p_log q = p_log p ++ tr.
  Proof.
    induction ws as [| w' ws IH]; intros w p H.
    - unfold take. cbn. unfold poll_task. rewrite H. destruct (poll (p_fut p) w (p_store p)); cbn; auto.
    - change (take (w :: w' :: ws) p) with (take (w' :: ws) (poll_task w p)). cbn [drive].
      assert (Ep : poll_task w p = match poll (p_fut p) w (p_store p) with
                                    | PReady o s tr => Progress (p_fut p) s (p_log p ++ tr) (Some o)
                                    | PPending s tr f => Progress f s (p_log p ++ tr) None
                                    end) by (unfold poll_task; now rewrite H).
      rewrite Ep. destruct (poll (p_fut p) w (p_store p)) as [o s tr | s tr f].
      + cbv zeta. rewrite (@take_ended m (w' :: ws) (Progress (p_fut p) s (p_log p ++ tr) (Some o)) o eq_refl). cbn. repeat split.
      + specialize (IH w' (Progress f s (p_log p ++ tr) None) eq_refl). cbn [p_fut p_store p_log] in IH.
        destruct (drive f w' ws s) as [[[o s2] tr2] l]. cbv zeta in *.
        destruct IH as (-> & -> & ->). rewrite app_assoc. auto.
  Qed.

  Definition take_it (ws : list World) (t : task World) : task World :=
    existT _ (projT1 t) (take ws (projT2 t)).
  Lemma nth_update f ts : forall i k,
    nth_error (update i f ts) k =
    if i =? k then option_map f (nth_error ts k) else nth_error (A := task World) ts k.
  Proof.
    induction ts as [| t ts IH]; intros i k.
    - destruct i, k; cbn; try destruct (i =? k); reflexivity.
    - destruct i as [| i], k as [| k]; cbn; try reflexivity. apply IH.
  Qed.
  Lemma pool_isolated schedule : forall (ts : list (task World)) i,
    nth_error (run_pool schedule ts) i = option_map (take_it (turns i schedule)) (nth_error ts i).
  Proof.
    induction schedule as [| [k w] schedule IH]; intros ts i; cbn [run_pool].
    - destruct (nth_error ts i) as [[m p] |]; reflexivity.
    - rewrite IH, nth_update. unfold turns. cbn [filter map fst]. destruct (k =? i); [| reflexivity].
      destruct (nth_error ts i) as [[m p] |]; reflexivity.
  Qed.
End Pool.
