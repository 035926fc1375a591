(** DiagramProofs.v — proofs for C90. *)

From Coq Require Import List Bool Arith.
From Verif Require Import Machine Api Spec DiagramSpec.
From Verif Require Props3.
Import ListNotations.

Section Diagram.
  Variable h : hierarchy.
  Variable m : machine.
  Variable stack : nat.
  Hypothesis W : well_formed h m stack.
  Let Hf : follows h m := wf_follows W.
  Let Hs : stable m := wf_stable W.
  Let Hh : height_at_most stack h := wf_height W.

  Lemma path_of s : exists p, path h s p.
  Proof.
    unfold path. destruct (leaf_parent h s) as [u|].
    - destruct (Hh u) as (l & Hl & _). eauto.
    - eexists _, []. split; [constructor|reflexivity].
  Qed.

  Lemma overwrite_disc u w w' u' : overwrite m u w w' u' -> u_disc m w' = u_disc m w ->
    u_disc m u' = u_disc m u.
  Proof.
    induction 1 as [|u v v' w w' E H IH]; intros D; [exact D|].
    exact (fo_u_put Hf u v' E (IH D)).
  Qed.
  Lemma overwrite_chain u w w' u' : overwrite m u w w' u' ->
    forall l, chain h (Some (u_disc m u)) l -> In (u_disc m w) l.
  Proof.
    induction 1 as [|u v v' w w' E H IH]; intros l C; inversion C; subst; [now left|right].
    apply IH. match goal with K : chain h (sup_parent h _) _ |- _ => rewrite <- (fo_sup Hf u), E in K; exact K end.
  Qed.

  Lemma touches_disc x n n' x' : touches m x n n' x' -> place_of m n' = place_of m n ->
    s_disc m x' = s_disc m x.
  Proof.
    intros [y y'|y v u u' v' E H] P; cbn in P; injection P as P; [exact P|].
    exact (fo_s_put Hf y v' E (overwrite_disc _ _ _ _ H P)).
  Qed.
  Lemma touches_belongs x n n' x' : touches m x n n' x' -> belongs_to h m (s_disc m x) n.
  Proof.
    intros [y y'|y v u u' v' E H]; destruct (path_of (s_disc m y)) as (p & l & C & ->);
      (eexists; split; [exists l; split; [exact C|reflexivity]|]); apply in_or_app; [right; now left|].
    left. cbn. apply in_map. apply in_rev. rewrite rev_involutive.
    rewrite <- (fo_leaf Hf y), E in C. exact (overwrite_chain _ _ _ _ H _ C).
  Qed.

  Lemma handler_place n sh cx e r n' sh' cx' :
    node_handler m n sh cx e = (r, n', sh', cx') -> place_of m n' = place_of m n.
  Proof.
    destruct n as [x|u]; cbn.
    - destruct (s_handler m x sh cx e) as [[[r0 x0] s0] c0] eqn:E. intros [= <- <- <- <-]. cbn. f_equal. eapply st_s_handler; eassumption.
    - destruct (u_handler m u sh cx e) as [[[r0 x0] s0] c0] eqn:E. intros [= <- <- <- <-]. cbn. f_equal. eapply st_u_handler; eassumption.
  Qed.
  Lemma entry_place n sh cx r n' sh' cx' :
    node_entry m n sh cx = (r, n', sh', cx') -> place_of m n' = place_of m n.
  Proof.
    destruct n as [x|u]; cbn.
    - destruct (s_entry m x sh cx) as [[[r0 x0] s0] c0] eqn:E. intros [= <- <- <- <-]. cbn. f_equal. eapply st_s_entry; eassumption.
    - destruct (u_entry m u sh cx) as [[[r0 x0] s0] c0] eqn:E. intros [= <- <- <- <-]. cbn. f_equal. eapply st_u_entry; eassumption.
  Qed.
  Lemma exit_place n sh cx r n' sh' cx' :
    node_exit m n sh cx = (r, n', sh', cx') -> place_of m n' = place_of m n.
  Proof.
    destruct n as [x|u]; cbn.
    - destruct (s_exit m x sh cx) as [[[r0 x0] s0] c0] eqn:E. intros [= <- <- <- <-]. cbn. f_equal. eapply st_s_exit; eassumption.
    - destruct (u_exit m u sh cx) as [[[r0 x0] s0] c0] eqn:E. intros [= <- <- <- <-]. cbn. f_equal. eapply st_u_exit; eassumption.
  Qed.

  Definition disc_of (c : State m * Shared m * Ctx m) : nat := s_disc m (fst (fst c)).
  Lemma callback_disc o c a c' : callback (touches m) o c a c' -> disc_of c' = disc_of c.
  Proof.
    unfold disc_of. destruct 1; cbn; try reflexivity; eapply touches_disc; try eassumption;
      eauto using handler_place, entry_place, exit_place.
  Qed.
  Lemma callback_node o c a c' : callback (touches m) o c a c' ->
    forall n, node_called o = Some n -> belongs_to h m (disc_of c) n.
  Proof.
    unfold disc_of. destruct 1; cbn; intros nd E; try discriminate; injection E as <-;
      try (eapply touches_belongs; eassumption).
    - destruct H as (n' & x' & H). eapply touches_belongs; eassumption.
    - destruct H as (n' & x' & H). eapply touches_belongs; eassumption.
  Qed.
  Lemma callback_arrow o c r c' : callback (touches m) o c (Ret (Some r)) c' ->
    forall t, r = Transition t -> arrow h m (disc_of c) (s_disc m t).
  Proof.
    intros H t ->. remember (Ret (Some (Transition t))) as a eqn:A. unfold disc_of.
    destruct H as [x n n' x' sh sh' cx cx' e r HT HN|x n n' x' sh sh' cx cx' r HT HN|x n n' x' sh sh' cx cx' r HT HN
                  |x n sh sh' cx e r HS HN|x n sh sh' cx e r HS HN|x a b sh sh' cx r HN|x a b sh sh' cx r HN];
      destruct r as [q| |]; cbn in A; try discriminate.
    injection A as ->. cbn [fst].
    exists n, sh, cx, e, t, n', sh', cx'. split; [|split; [assumption|reflexivity]].
    eapply touches_belongs; eassumption.
  Qed.

  Lemma callback_within o c a c' : callback (touches m) o c a c' -> within h m (disc_of c) o.
  Proof.
    intros H. assert (N := callback_node _ _ _ _ H). destruct o; cbn in *; try exact I; try (apply N; reflexivity).
    inversion H.
  Qed.
  Lemma thread_within tr c out c' : thread (touches m) tr c out c' ->
    disc_of c' = disc_of c /\ Forall (within h m (disc_of c)) tr.
  Proof.
    induction 1 as [c|o c w c' H|o c c1 tr out c' H _ [D F]|o r c c1 tr out c' H _ [D F]].
    - split; [reflexivity|constructor].
    - split; [eapply callback_disc; eassumption|]. constructor; [eapply callback_within; eassumption|constructor].
    - assert (E := callback_disc _ _ _ _ H). rewrite E in *. split; [exact D|].
      constructor; [eapply callback_within; eassumption|exact F].
    - assert (E := callback_disc _ _ _ _ H). rewrite E in *. split; [exact D|].
      constructor; [eapply callback_within; eassumption|]. constructor; [|exact F].
      destruct r; try exact I. eapply callback_arrow; [eassumption|reflexivity].
  Qed.

  Lemma asked_in (tr : list (obs m)) p e t : asks_for tr p e t -> In (OReturn (Transition t)) tr.
  Proof.
    unfold asks_for. induction tr as [|o tr IH]; [now intros []|].
    assert (G : In (p, e, Some (Transition t)) (handler_calls (calls tr)) -> In (OReturn (Transition t)) (o :: tr))
      by (intros H; right; exact (IH H)).
    destruct o; cbn; try exact G. intros [H|H]; [|exact (G H)].
    injection H as _ _ H. destruct tr as [|o2 tr]; cbn in H; [discriminate|].
    destruct o2; cbn in H; try discriminate. injection H as ->. right. now left.
  Qed.
End Diagram.

Section Calls.
  Variable h : hierarchy.
  Variable m : machine.
  Variable stack : nat.
  Variable md : mode.
  Hypothesis W : well_formed h m stack.
  Hypothesis V : faithful_views m.

  Lemma handle_diagram sm e cx :
    let r := handle_with_context stack md sm e cx in
    let s := s_disc m (sm_state sm) in
    let s' := s_disc m (sm_state (a_machine r)) in
    (s' = s /\ Forall (within h m s) (a_tr r)) \/
    (arrow h m s s' /\ exists t1 t2, a_tr r = t1 ++ t2 /\ Forall (within h m s) t1 /\ Forall (within h m s') t2).
  Proof.
    intros r s s'. destruct (Props3.C21_threaded h m stack md sm e cx W V) as [[_ T]|(t1 & t2 & x1 & sh1 & cx1 & p & t & E & A & _ & T1 & T2)].
    - left. exact (thread_within h m stack W _ _ _ _ T).
    - right. destruct (thread_within h m stack W _ _ _ _ T1) as [D1 F1].
      destruct (thread_within h m stack W _ _ _ _ T2) as [D2 F2].
      change (s' = s_disc m t) in D2. rewrite D2. change (disc_of m (sm_state sm, sm_shared sm, cx)) with s in *.
      split.
      + apply asked_in in A. rewrite Forall_forall in F1. exact (F1 _ A).
      + exists t1, t2. split; [exact E|]. split; [exact F1|exact F2].
  Qed.
  Lemma init_diagram sm cx :
    let r := init_with_context stack md sm cx in
    let s := s_disc m (sm_state sm) in
    s_disc m (sm_state (a_machine r)) = s /\ Forall (within h m s) (a_tr r).
  Proof. exact (thread_within h m stack W _ _ _ _ (Props3.C21_init_threaded h m stack md sm cx W V)). Qed.

  Lemma exec_diagram o sm out sm' cx tr : calm o -> exec stack md o sm = (out, sm', cx, tr) ->
    let s := s_disc m (sm_state sm) in
    let s' := s_disc m (sm_state sm') in
    (s' = s /\ Forall (within h m s) tr) \/
    (arrow h m s s' /\ exists t1 t2, tr = t1 ++ t2 /\ Forall (within h m s) t1 /\ Forall (within h m s') t2).
  Proof.
    intros C E. destruct o as [c|e c|f|f]; cbn [exec] in E; injection E as _ <- _ <-.
    - left. exact (init_diagram sm c).
    - exact (handle_diagram sm e c).
    - left. split; [reflexivity|constructor].
    - left. split; [exact (C _)|constructor].
  Qed.

  Lemma way_app a b c : way h m a b -> way h m b c -> way h m a c.
  Proof. intros A B. induction B; [exact A|]. econstructor; eauto. Qed.
  Lemma history_diagram ops sm cs sm' : Forall (@calm m) ops -> history stack md ops sm cs sm' ->
    way h m (s_disc m (sm_state sm)) (s_disc m (sm_state sm')) /\
    Forall (fun o => exists t, way h m (s_disc m (sm_state sm)) t /\ within h m t o) (log_of cs).
  Proof.
    intros C H. induction H as [|o ops sm out sm1 cx tr cs sm' E H IH]; [split; [constructor|constructor]|].
    inversion C; subst. destruct (IH H3) as [WY F].
    assert (S : way h m (s_disc m (sm_state sm)) (s_disc m (sm_state sm1)) /\
                Forall (fun o => exists t, way h m (s_disc m (sm_state sm)) t /\ within h m t o) tr).
    { destruct (exec_diagram _ _ _ _ _ _ H2 E) as [[D G]|(A & t1 & t2 & -> & G1 & G2)].
      - rewrite D. split; [constructor|]. refine (Forall_impl _ _ G). intros a Ha. eexists. split; [constructor|exact Ha].
      - split; [econstructor; [constructor|exact A]|]. apply Forall_app. split.
        + refine (Forall_impl _ _ G1). intros a Ha. eexists. split; [constructor|exact Ha].
        + refine (Forall_impl _ _ G2). intros a Ha. eexists. split; [econstructor; [constructor|exact A]|exact Ha]. }
    destruct S as [S1 S2]. split; [eapply way_app; eassumption|].
    unfold log_of. cbn [flat_map c_tr]. apply Forall_app. split; [exact S2|].
    refine (Forall_impl _ _ F). intros a (t & T1 & T2). exists t. split; [eapply way_app; eassumption|exact T2].
  Qed.
End Calls.
