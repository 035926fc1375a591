(** PollSimProofs.v — proofs for C99. *)

From Coq Require Import List Bool Arith Lia.
From Verif Require Import Machine Blocking Awaitable Api Spec Poll Sim KindSim PollSimSpec.
From Verif Require PollProofs PaceProofs.
Import ListNotations.
Set Implicit Arguments.

Section Two.
  Variables m1 m2 : machine.
  Variable R : relations m1 m2.
  Variables W1 W2 : Type.
  Variable RW : W1 -> W2 -> Prop.
  Variable F1 : futures W1 m1.
  Variable F2 : futures W2 m2.
  Hypothesis SF : similar_futures R RW F1 F2.

  (** Shared storage with the polls to come. *)
  Definition RS : relations (sync F1) (sync F2) :=
    @Relations (sync F1) (sync F2) (r_state R) (r_sup R)
      (fun s s' => r_shared R (fst s) (fst s') /\ schedule_rel RW (snd s) (snd s')) (r_event R) (r_ctx R).

  Lemma reply_answers {A B} (RA : A -> B -> Prop) a b :
    opt_rel (opt_rel RA) a b -> reply_rel RA (reply_of a) (reply_of b).
  Proof. intros [|? ? [|? ? ?]]; constructor. assumption. Qed.

  Lemma atomically_rel {X Y A B} (RX : X -> Y -> Prop) (RA : A -> B -> Prop) f f' :
    future_rel RW (store_rel R RX) RA f f' ->
    forall x x' (sh : Shared (sync F1)) (sh' : Shared (sync F2)) cx cx',
      RX x x' -> r_shared RS sh sh' -> r_ctx R cx cx' ->
      callback_rel RS RA RX (atomically f x sh cx) (atomically f' x' sh' cx').
  Proof.
    intros H x x' [sh [w ws]] [sh' [w' ws']] cx cx' Hx [Hs Hw] Hc. cbn [fst snd] in *.
    specialize (H w ws w' ws' (x, sh, cx) (x', sh', cx') Hw (conj Hx (conj Hs Hc))).
    unfold atomically. cbn [fst snd].
    destruct (udrive f w ws (x, sh, cx)) as [[a [[x1 sh1] cx1]] l].
    destruct (udrive f' w' ws' (x', sh', cx')) as [[a' [[x1' sh1'] cx1']] l'].
    destruct H as (Ha & (Hx1 & Hs1 & Hc1) & Hl).
    split; [exact (reply_answers Ha)|]. split; [exact Hx1|]. split; [split; [exact Hs1|exact Hl]|exact Hc1].
  Qed.
  Lemma atomic_hook_rel f f' :
    future_rel RW (r_shared R) eq f f' ->
    forall (sh : Shared (sync F1)) (sh' : Shared (sync F2)), r_shared RS sh sh' ->
      hook_rel RS (atomic_hook f sh) (atomic_hook f' sh').
  Proof.
    intros H [sh [w ws]] [sh' [w' ws']] [Hs Hw]. cbn [fst snd] in *.
    specialize (H w ws w' ws' sh sh' Hw Hs). unfold atomic_hook. cbn [fst snd].
    destruct (udrive f w ws sh) as [[a sh1] l]. destruct (udrive f' w' ws' sh') as [[a' sh1'] l'].
    destruct H as (Ha & Hs1 & Hl). split; [exact (reply_answers Ha)|]. split; [exact Hs1|exact Hl].
  Qed.

  Lemma sync_kindred : kindred RS.
  Proof.
    constructor.
    - exact (sf_initial SF).
    - exact (sf_s_disc SF).
    - exact (sf_u_disc SF).
    - exact (sf_s_super SF).
    - exact (sf_u_super SF).
    - exact (sf_s_put SF).
    - exact (sf_u_put SF).
    - exact (sf_u_put_disc SF).
    - intros x x' sh sh' cx cx' e e' Hx Hs Hc He.
      exact (@atomically_rel _ _ _ _ _ _ _ _ (sf_s_handler SF e e' He) x x' sh sh' cx cx' Hx Hs Hc).
    - exact (atomically_rel (sf_s_entry SF)).
    - exact (atomically_rel (sf_s_exit SF)).
    - intros x x' sh sh' cx cx' e e' Hx Hs Hc He.
      exact (@atomically_rel _ _ _ _ _ _ _ _ (sf_u_handler SF e e' He) x x' sh sh' cx cx' Hx Hs Hc).
    - exact (atomically_rel (sf_u_entry SF)).
    - exact (atomically_rel (sf_u_exit SF)).
    - intros sh sh' n n' e e' Hs Hn He. exact (@atomic_hook_rel _ _ (@sf_before_dispatch _ _ _ _ _ _ _ _ SF n n' e e' Hn He) sh sh' Hs).
    - intros sh sh' n n' e e' Hs Hn He. exact (@atomic_hook_rel _ _ (@sf_after_dispatch _ _ _ _ _ _ _ _ SF n n' e e' Hn He) sh sh' Hs).
    - intros sh sh' a a' b b' Hs Ha Hb. exact (@atomic_hook_rel _ _ (@sf_before_transition _ _ _ _ _ _ _ _ SF a a' b b' Ha Hb) sh sh' Hs).
    - intros sh sh' a a' b b' Hs Ha Hb. exact (@atomic_hook_rel _ _ (@sf_after_transition _ _ _ _ _ _ _ _ SF a a' b b' Ha Hb) sh sh' Hs).
  Qed.

  Hypothesis VS : variant_safe F1.
  Lemma sync_stable : stable (sync F1).
  Proof.
    assert (G : forall X A (disc : X -> nat) (f : ufut W1 (X * Shared m1 * Ctx m1) A) x sh cx r x' sh' cx',
               keeps m1 disc f -> atomically f x sh cx = (r, x', sh', cx') -> disc x' = disc x).
    { intros X A disc f x sh cx r x' sh' cx' Hk E. unfold atomically in E.
      specialize (Hk (fst (snd sh)) (snd (snd sh)) x (fst sh) cx).
      destruct (udrive f (fst (snd sh)) (snd (snd sh)) (x, fst sh, cx)) as [[o [[x1 sh1] cx1]] l].
      injection E as _ -> _ _. exact Hk. }
    split; intros.
    - exact (G _ _ _ _ _ _ _ _ _ _ _ (Poll.ks_s_handler VS e) H).
    - exact (G _ _ _ _ _ _ _ _ _ _ _ (Poll.ks_s_entry VS) H).
    - exact (G _ _ _ _ _ _ _ _ _ _ _ (Poll.ks_s_exit VS) H).
    - exact (G _ _ _ _ _ _ _ _ _ _ _ (Poll.ks_u_handler VS e) H).
    - exact (G _ _ _ _ _ _ _ _ _ _ _ (Poll.ks_u_entry VS) H).
    - exact (G _ _ _ _ _ _ _ _ _ _ _ (Poll.ks_u_exit VS) H).
  Qed.

  Variable stack : nat.
  Lemma obs_unsync o o' : obs_rel RS (to_sync F1 o) (to_sync F2 o') -> obs_rel R o o'.
  Proof. destruct o, o'; intros H; inversion H; subst; constructor; assumption. Qed.
  Lemma trace_unsync tr : forall tr', Forall2 (obs_rel RS) (map (to_sync F1) tr) (map (to_sync F2) tr') -> Forall2 (obs_rel R) tr tr'.
  Proof.
    induction tr as [|a tr IH]; intros [|b tr'] H; inversion H; subst; constructor; [now apply obs_unsync|now apply IH].
  Qed.
  Lemma ending_inj (o o' : option (outcome unit)) :
    o <> Some (Abort DroppedFuture) -> o' <> Some (Abort DroppedFuture) ->
    PollProofs.ending o = PollProofs.ending o' -> o = o'.
  Proof. destruct o, o'; cbn; congruence. Qed.

  (** Two related futures of the API, and the atomic calls they are. *)
  Lemma driven_rel c c' (k : state_machine (sync F1) -> Ctx m1 -> api_res (sync F1) (state_machine (sync F1)))
        (k' : state_machine (sync F2) -> Ctx m2 -> api_res (sync F2) (state_machine (sync F2))) :
    (forall w ws sm cx, let '(o, s', tr, l) := drive c w ws (sm, cx) in
       k (with_schedule F1 sm (w, ws)) cx =
       @ApiRes (sync F1) _ (PollProofs.ending o) (with_schedule F1 (fst s') l) (snd s') (map (to_sync F1) tr)) ->
    (forall w ws sm cx, let '(o, s', tr, l) := drive c' w ws (sm, cx) in
       k' (with_schedule F2 sm (w, ws)) cx =
       @ApiRes (sync F2) _ (PollProofs.ending o) (with_schedule F2 (fst s') l) (snd s') (map (to_sync F2) tr)) ->
    PaceProofs.itself c -> PaceProofs.itself c' ->
    (forall sm sm' cx cx', machine_rel RS sm sm' -> r_ctx R cx cx' -> api_rel RS (k sm cx) (k' sm' cx')) ->
    forall w ws w' ws' sm sm' cx cx',
      schedule_rel RW (w, ws) (w', ws') -> machine_rel R sm sm' -> r_ctx R cx cx' ->
      let '(o, (sm1, cx1), tr, l) := drive c w ws (sm, cx) in
      let '(o', (sm1', cx1'), tr', l') := drive c' w' ws' (sm', cx') in
      o = o' /\ machine_rel R sm1 sm1' /\ r_ctx R cx1 cx1' /\ Forall2 (obs_rel R) tr tr' /\ schedule_rel RW l l'.
  Proof.
    intros K K' I I' H w ws w' ws' sm sm' cx cx' Hw (Mx & Ms & Mi) Hc.
    specialize (K w ws sm cx). specialize (K' w' ws' sm' cx'). specialize (I w ws (sm, cx)). specialize (I' w' ws' (sm', cx')).
    destruct (drive c w ws (sm, cx)) as [[[o [sm1 cx1]] tr] l].
    destruct (drive c' w' ws' (sm', cx')) as [[[o' [sm1' cx1']] tr'] l']. cbn [fst snd] in *.
    assert (M : machine_rel RS (with_schedule F1 sm (w, ws)) (with_schedule F2 sm' (w', ws'))).
    { split; [exact Mx|]. split; [|exact Mi]. split; [exact Ms|exact Hw]. }
    specialize (H _ _ cx cx' M Hc). rewrite K, K' in H.
    destruct H as (Ho & (N1 & (N2 & N3) & N4) & HC & HT). cbn [a_out a_machine a_cx a_tr] in *.
    split; [exact (ending_inj I I' Ho)|]. split; [split; [exact N1|split; [exact N2|exact N4]]|].
    split; [exact HC|]. split; [exact (trace_unsync _ _ HT)|exact N3].
  Qed.

  Lemma init_driven : forall w ws w' ws' sm sm' cx cx',
      schedule_rel RW (w, ws) (w', ws') -> machine_rel R sm sm' -> r_ctx R cx cx' ->
      let '(o, (sm1, cx1), tr, l) := drive (a_init_with_context F1 stack) w ws (sm, cx) in
      let '(o', (sm1', cx1'), tr', l') := drive (a_init_with_context F2 stack) w' ws' (sm', cx') in
      o = o' /\ machine_rel R sm1 sm1' /\ r_ctx R cx1 cx1' /\ Forall2 (obs_rel R) tr tr' /\ schedule_rel RW l l'.
  Proof.
    apply (@driven_rel (a_init_with_context F1 stack) (a_init_with_context F2 stack)
             (fun sm cx => init_with_context stack AwaitableMode sm cx) (fun sm cx => init_with_context stack AwaitableMode sm cx)).
    - exact (PollProofs.init_runs F1 stack).
    - exact (PollProofs.init_runs F2 stack).
    - apply PaceProofs.init_itself.
    - apply PaceProofs.init_itself.
    - intros sm sm' cx cx' M C. exact (@kin_init _ _ RS sync_kindred sync_stable stack AwaitableMode sm sm' cx cx' M C).
  Qed.
  Lemma handle_driven e e' : r_event R e e' -> forall w ws w' ws' sm sm' cx cx',
      schedule_rel RW (w, ws) (w', ws') -> machine_rel R sm sm' -> r_ctx R cx cx' ->
      let '(o, (sm1, cx1), tr, l) := drive (a_handle_with_context F1 stack e) w ws (sm, cx) in
      let '(o', (sm1', cx1'), tr', l') := drive (a_handle_with_context F2 stack e') w' ws' (sm', cx') in
      o = o' /\ machine_rel R sm1 sm1' /\ r_ctx R cx1 cx1' /\ Forall2 (obs_rel R) tr tr' /\ schedule_rel RW l l'.
  Proof.
    intros He.
    apply (@driven_rel (a_handle_with_context F1 stack e) (a_handle_with_context F2 stack e')
             (fun sm cx => handle_with_context stack AwaitableMode sm e cx) (fun sm cx => handle_with_context stack AwaitableMode sm e' cx)).
    - exact (PollProofs.handle_runs F1 stack e).
    - exact (PollProofs.handle_runs F2 stack e').
    - apply PaceProofs.handle_itself.
    - apply PaceProofs.handle_itself.
    - intros sm sm' cx cx' M C. exact (@kin_handle _ _ RS sync_kindred sync_stable stack AwaitableMode sm sm' e e' cx cx' M He C).
  Qed.

  Lemma run_polled_rel o o' sm sm' : polled_op_rel RW R o o' -> machine_rel R sm sm' ->
    opt_rel (polled_result_rel R) (fst (run_polled F1 stack o sm)) (fst (run_polled F2 stack o' sm')) /\
    machine_rel R (snd (run_polled F1 stack o sm)) (snd (run_polled F2 stack o' sm')).
  Proof.
    intros HO M.
    destruct HO as [ws ws' cx cx' Hw Hc|ws ws' e e' cx cx' Hw He Hc|f f' Hf|f f' Hf]; cbn [run_polled].
    - destruct Hw as [|w w' ws ws' Hw Hws]; cbn [execute].
      + cbn. split; [constructor; repeat split; [exact Hc|constructor]|exact M].
      + pose proof (@init_driven w ws w' ws' sm sm' cx cx' (conj Hw Hws) M Hc) as D.
        destruct (drive (a_init_with_context F1 stack) w ws (sm, cx)) as [[[o [sm1 cx1]] tr] l].
        destruct (drive (a_init_with_context F2 stack) w' ws' (sm', cx')) as [[[o' [sm1' cx1']] tr'] l'].
        destruct D as (D1 & D2 & D3 & D4 & _). cbn. split; [constructor; repeat split; assumption|exact D2].
    - destruct Hw as [|w w' ws ws' Hw Hws]; cbn [execute].
      + cbn. split; [constructor; repeat split; [exact Hc|constructor]|exact M].
      + pose proof (@handle_driven e e' He w ws w' ws' sm sm' cx cx' (conj Hw Hws) M Hc) as D.
        destruct (drive (a_handle_with_context F1 stack e) w ws (sm, cx)) as [[[o [sm1 cx1]] tr] l].
        destruct (drive (a_handle_with_context F2 stack e') w' ws' (sm', cx')) as [[[o' [sm1' cx1']] tr'] l'].
        destruct D as (D1 & D2 & D3 & D4 & _). cbn. split; [constructor; repeat split; assumption|exact D2].
    - destruct M as (Mx & Ms & Mi). cbn. split; [constructor|]. split; [exact Mx|]. split; [exact (Hf _ _ Ms)|exact Mi].
    - destruct M as (Mx & Ms & Mi). cbn. split; [constructor|]. split; [exact (Hf _ _ Mx)|]. split; [exact Ms|exact Mi].
  Qed.
  Lemma run_all_polled_rel os os' : Forall2 (polled_op_rel RW R) os os' -> forall sm sm', machine_rel R sm sm' ->
    Forall2 (opt_rel (polled_result_rel R)) (fst (run_all_polled F1 stack os sm)) (fst (run_all_polled F2 stack os' sm')) /\
    machine_rel R (snd (run_all_polled F1 stack os sm)) (snd (run_all_polled F2 stack os' sm')).
  Proof.
    induction 1 as [|o o' os os' HO HOS IH]; intros sm sm' M; [split; [constructor|exact M]|].
    cbn [run_all_polled]. destruct (run_polled_rel HO M) as [P Q].
    destruct (run_polled F1 stack o sm) as [r sm1]. destruct (run_polled F2 stack o' sm') as [r' sm1'].
    cbn [fst snd] in P, Q. specialize (IH sm1 sm1' Q).
    destruct (run_all_polled F1 stack os sm1) as [rs sm2]. destruct (run_all_polled F2 stack os' sm1') as [rs' sm2'].
    cbn [fst snd] in IH |- *. split; [constructor; [exact P|exact (proj1 IH)]|exact (proj2 IH)].
  Qed.
End Two.
