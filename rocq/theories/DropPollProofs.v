(** DropPollProofs.v — C94: futures with ownership against Poll.v and Drops.v. *)

From Coq Require Import List Bool Arith Permutation Lia.
From Verif Require Import Machine Blocking Awaitable Api Poll Drops DropSpec DropPoll DropPollSpec.
From Verif Require PollProofs DropProofs.
Import ListNotations.
Set Implicit Arguments.

Section ODrive.
  Variable World : Type.
  Variable m : machine.
  Notation ofut := (ofut World m).

  Definition oprepend {B S L} (t : list (event_of m)) (r : B * S * list (event_of m) * L) :=
    let '(o, s, tr, l) := r in (o, s, t ++ tr, l).

  Lemma odrive_bind {S A B} (k : A -> ofut S B) ws : forall (c : ofut S A) w s,
    odrive (obind c k) w ws s =
    match odrive c w ws s with
    | (Some (Ret a), s', tr, (w', ws')) => oprepend tr (odrive (k a) w' ws' s')
    | (Some (Abort y), s', tr, l) => (Some (Abort y), s', tr, l)
    | (None, s', tr, l) => (None, s', tr, l)
    end.
  Proof.
    assert (G : forall t (f : ofut S B) w ws s,
               match ologging t (opoll f w s) with
               | OReady o s' tr => (Some o, s', tr, (w, ws))
               | OPending s' tr f' =>
                   match ws with
                   | [] => (None, s', tr ++ map Dropped (held f'), (w, []))
                   | w' :: ws' =>
                       let '(o, s2, tr2, unused) := odrive f' w' ws' s' in (o, s2, tr ++ tr2, unused)
                   end
               end = oprepend t (odrive f w ws s)).
    { intros t f w [|w' ws'] s; simpl; destruct (opoll f w s) as [o s' tr|s' tr f']; simpl; auto.
      - now rewrite app_assoc.
      - destruct (odrive f' w' ws' s') as [[[o s2] tr2] l]. simpl. now rewrite app_assoc. }
    induction ws as [|w' ws IH]; intros c w s.
    - simpl. destruct (opoll c w s) as [[a|y] s' tr|s' tr c']; [|reflexivity|reflexivity].
      exact (G tr (k a) w [] s').
    - simpl. destruct (opoll c w s) as [[a|y] s' tr|s' tr c']; [|reflexivity|].
      + exact (G tr (k a) w (w' :: ws) s').
      + rewrite IH. destruct (odrive c' w' ws s') as [[[[[a|y]|] s2] tr2] [w2 ws2]]; try reflexivity.
        unfold oprepend. destruct (odrive (k a) w2 ws2 s2) as [[[o s3] tr3] l]. now rewrite app_assoc.
  Qed.

  Lemma odrive_plain {S A} ws : forall (c : fut World m S A) w s,
    odrive (owns_nothing c) w ws s =
    let '(o, s', tr, l) := drive c w ws s in (o, s', map Did tr, l).
  Proof.
    induction ws as [|w' ws IH]; intros c w s; simpl;
      destruct (poll c w s) as [o s' tr|s' tr c']; try reflexivity.
    - simpl. now rewrite app_nil_r.
    - rewrite IH. destruct (drive c' w' ws s') as [[[o s2] tr2] l]. now rewrite map_app.
  Qed.

  Lemma odrive_borrowed {S V A} (put : S -> V -> S) s0 ws : forall (c : ofut V A) w v s,
    odrive (oborrowed put s0 v c) w ws s =
    let '(o, v', tr, l) := odrive c w ws v in (o, put s0 v', tr, l).
  Proof.
    induction ws as [|w' ws IH]; intros c w v s; simpl;
      destruct (opoll c w v) as [o v' tr|v' tr c']; try reflexivity.
    rewrite IH. destruct (odrive c' w' ws v') as [[[o v2] tr2] l]. reflexivity.
  Qed.
  Lemma odrive_borrow {S V A} (get : S -> V) (put : S -> V -> S) (c : ofut V A) w ws s :
    odrive (oborrow get put c) w ws s =
    let '(o, v', tr, l) := odrive c w ws (get s) in (o, put s v', tr, l).
  Proof.
    rewrite <- (odrive_borrowed put s ws c w (get s) s). destruct ws; reflexivity.
  Qed.

  Lemma odrive_owning {S A} x ws : forall (c : ofut S A) w s,
    odrive (oowning x c) w ws s =
    match odrive c w ws s with
    | (Some (Ret a), s', tr, l) => (Some (Ret a), s', tr, l)
    | (Some (Abort y), s', tr, l) => (Some (Abort y), s', tr ++ (if unwinds y then [Dropped x] else []), l)
    | (None, s', tr, l) => (None, s', tr ++ [Dropped x], l)
    end.
  Proof.
    induction ws as [|w' ws IH]; intros c w s; simpl;
      destruct (opoll c w s) as [[a|y] s' tr|s' tr c']; try reflexivity.
    - simpl. rewrite map_app, app_assoc. reflexivity.
    - rewrite IH. destruct (odrive c' w' ws s') as [[[[[a|y]|] s2] tr2] l]; try reflexivity.
      + now rewrite app_assoc.
      + now rewrite app_assoc.
  Qed.

  Lemma odrive_end {S} (x : State m) (w : World) ws (s : S) :
    odrive (oend x) w ws s = (Some (Ret tt), s, [Dropped x], (w, ws)).
  Proof. destruct ws; reflexivity. Qed.

  (** ** Without the ownership: the futures of Poll.v *)

  Definition forgets {S A} (c : ofut S A) (c0 : fut World m S A) : Prop :=
    forall w ws s, let '(o, s', tr, l) := odrive c w ws s in drive c0 w ws s = (o, s', calls_in tr, l).

  Lemma forgets_plain {S A} (c : fut World m S A) : forgets (owns_nothing c) c.
  Proof.
    intros w ws s. rewrite odrive_plain. destruct (drive c w ws s) as [[[o s'] tr] l].
    now rewrite DropProofs.calls_in_did.
  Qed.
  Lemma forgets_bind {S A B} (c : ofut S A) c0 (k : A -> ofut S B) k0 :
    forgets c c0 -> (forall a, forgets (k a) (k0 a)) -> forgets (obind c k) (abind c0 k0).
  Proof.
    intros H G w ws s. rewrite odrive_bind, PollProofs.drive_bind. specialize (H w ws s).
    destruct (odrive c w ws s) as [[[[[a|y]|] s1] tr1] [w1 ws1]]; rewrite H; try reflexivity.
    specialize (G a w1 ws1 s1). unfold oprepend, PollProofs.prepend.
    destruct (odrive (k a) w1 ws1 s1) as [[[o s2] tr2] l2]. rewrite G.
    now rewrite DropProofs.calls_in_app.
  Qed.
  Lemma forgets_borrow {S V A} (get : S -> V) put (c : ofut V A) c0 :
    forgets c c0 -> forgets (oborrow get put c) (aborrow get put c0).
  Proof.
    intros H w ws s. rewrite odrive_borrow, PollProofs.drive_aborrow. specialize (H w ws (get s)).
    destruct (odrive c w ws (get s)) as [[[o s1] tr1] l1]. now rewrite H.
  Qed.
  Lemma forgets_owning {S A} x (c : ofut S A) c0 : forgets c c0 -> forgets (oowning x c) c0.
  Proof.
    intros H w ws s. rewrite odrive_owning. specialize (H w ws s).
    destruct (odrive c w ws s) as [[[[[a|y]|] s1] tr1] l1]; rewrite H; try reflexivity.
    - rewrite DropProofs.calls_in_app. destruct (unwinds y); cbn; now rewrite app_nil_r.
    - rewrite DropProofs.calls_in_app. cbn. now rewrite app_nil_r.
  Qed.
  Lemma forgets_response {S A} r (c : ofut S A) c0 : forgets c c0 -> forgets (oowning_response r c) c0.
  Proof. destruct r; cbn; auto using forgets_owning. Qed.

  Variable F : futures World m.
  Variable stack : nat.

  Ltac go :=
    repeat first
      [ apply forgets_plain
      | apply forgets_response
      | apply forgets_bind; [|intros ?]
      | apply forgets_borrow
      | match goal with |- forgets (match ?x with _ => _ end) _ => destruct x end ].

  Lemma o_handle_loop_forgets e n : forgets (o_handle_loop F n e) (a_handle_loop F n e).
  Proof.
    induction n as [|n IH]; cbn [o_handle_loop a_handle_loop]; [apply forgets_plain|].
    unfold ovia, avia. go. exact IH.
  Qed.
  Lemma o_state_handle_forgets e : forgets (o_state_handle F stack e) (a_state_handle F stack e).
  Proof.
    unfold o_state_handle, a_state_handle, ovia, avia. go. apply o_handle_loop_forgets.
  Qed.

  Definition same_drive {S A} (c c' : fut World m S A) : Prop :=
    forall w ws s, drive c w ws s = drive c' w ws s.
  Lemma forgets_same {S A} (c : ofut S A) c0 c1 : forgets c c0 -> same_drive c0 c1 -> forgets c c1.
  Proof.
    intros H E w ws s. specialize (H w ws s). destruct (odrive c w ws s) as [[[o s1] tr1] l1].
    now rewrite <- E.
  Qed.
  Lemma same_bind {S A B} (c c' : fut World m S A) (k k' : A -> fut World m S B) :
    same_drive c c' -> (forall a, same_drive (k a) (k' a)) -> same_drive (abind c k) (abind c' k').
  Proof.
    intros H G w ws s. rewrite !PollProofs.drive_bind, H.
    destruct (drive c' w ws s) as [[[[[a|y]|] s1] tr1] [w1 ws1]]; try reflexivity. now rewrite G.
  Qed.
  Lemma same_refl {S A} (c : fut World m S A) : same_drive c c.
  Proof. intros w ws s. reflexivity. Qed.
  Lemma same_trans {S A} (a b c : fut World m S A) : same_drive a b -> same_drive b c -> same_drive a c.
  Proof. intros H G w ws s. now rewrite H. Qed.
  Lemma same_assoc {S A B C} (c : fut World m S A) (k : A -> fut World m S B) (l : B -> fut World m S C) :
    same_drive (abind (abind c k) l) (abind c (fun a => abind (k a) l)).
  Proof.
    intros w ws s. rewrite !PollProofs.drive_bind.
    destruct (drive c w ws s) as [[[[[a|y]|] s1] tr1] [w1 ws1]]; try reflexivity.
    rewrite PollProofs.drive_bind. unfold PollProofs.prepend.
    destruct (drive (k a) w1 ws1 s1) as [[[[[b|y]|] s2] tr2] [w2 ws2]]; try reflexivity.
    destruct (drive (l b) w2 ws2 s2) as [[[o s3] tr3] l3]. now rewrite app_assoc.
  Qed.
  Lemma drive_ret {S A} (a : A) w ws (s : S) :
    drive (aret (World := World) (m := m) a) w ws s = (Some (Ret a), s, [], (w, ws)).
  Proof. destruct ws; reflexivity. Qed.
  Lemma same_ret_l {S A B} (a : A) (k : A -> fut World m S B) : same_drive (abind (aret a) k) (k a).
  Proof.
    intros w ws s. rewrite PollProofs.drive_bind, drive_ret. unfold PollProofs.prepend.
    destruct (drive (k a) w ws s) as [[[o s1] tr1] l1]. reflexivity.
  Qed.
  Lemma same_ret_r {S} (c : fut World m S unit) : same_drive (abind c (fun _ => aret tt)) c.
  Proof.
    intros w ws s. rewrite PollProofs.drive_bind.
    destruct (drive c w ws s) as [[[[[[]|y]|] s1] tr1] [w1 ws1]]; try reflexivity.
    rewrite drive_ret. cbn. now rewrite app_nil_r.
  Qed.
  Lemma forgets_end {S} (x : State m) : forgets (S := S) (oend x) (aret tt).
  Proof. intros w ws s. rewrite odrive_end. apply drive_ret. Qed.

  Lemma o_transition_forgets t : forgets (o_transition F stack t) (a_transition F stack t).
  Proof.
    eapply forgets_same.
    - unfold o_transition. apply forgets_bind; [|intros lv].
      + apply forgets_owning. apply forgets_bind; [apply forgets_plain|intros x].
        apply forgets_bind; [apply forgets_plain|intros ?].
        apply forgets_bind; [apply forgets_plain|intros lv].
        apply forgets_bind; [apply forgets_plain|intros ?]. apply forgets_plain.
      + apply forgets_bind; [apply forgets_plain|intros old].
        apply forgets_bind; [|intros ?; apply forgets_end]. apply forgets_owning.
        apply forgets_bind; [apply forgets_plain|intros ?].
        apply forgets_bind; [apply forgets_plain|intros new]. apply forgets_plain.
    - unfold a_transition.
      eapply same_trans; [apply same_assoc|]. apply same_bind; [apply same_refl|intros x].
      eapply same_trans; [apply same_assoc|]. apply same_bind; [apply same_refl|intros ?].
      eapply same_trans; [apply same_assoc|]. apply same_bind; [apply same_refl|intros lv].
      eapply same_trans; [apply same_assoc|]. apply same_bind; [apply same_refl|intros ?].
      eapply same_trans; [apply same_ret_l|]. apply same_bind; [apply same_refl|intros old].
      apply same_ret_r.
  Qed.

  Lemma o_inner_handle_forgets e : forgets (o_inner_handle F stack e) (a_inner_handle F stack e).
  Proof.
    unfold o_inner_handle, a_inner_handle. apply forgets_bind; [apply o_state_handle_forgets|].
    intros [| |t]; [apply forgets_plain|apply forgets_plain|apply o_transition_forgets].
  Qed.
  Lemma o_handle_forgets e : forgets (o_handle_with_context F stack e) (a_handle_with_context F stack e).
  Proof.
    unfold o_handle_with_context, a_handle_with_context.
    apply forgets_bind; [apply forgets_plain|intros s]. apply forgets_bind; [apply forgets_plain|intros []].
    apply forgets_borrow. apply o_inner_handle_forgets.
  Qed.
End ODrive.

(** ** With the ownership: Drops.v on the machine with atomic callbacks *)
Section Refine.
  Variable World : Type.
  Variable m : machine.
  Variable F : futures World m.
  Notation sm' := (sync F).
  Notation store X := (X * Shared m * Ctx m)%type.

  Definition ev_sync (ev : event_of m) : event_of sm' :=
    match ev with Did o => Did (to_sync F o) | Dropped s => @Dropped sm' s end.
  Notation log := (map ev_sync).

  Definition orefines {X A} (c : ofut World m (store X) A) (k : dcomp sm' X A) : Prop :=
    forall w ws x sh cx,
      let '(o, s', tr, l) := odrive c w ws (x, sh, cx) in
      k x (sh, (w, ws)) cx =
      @DRes sm' X A (PollProofs.ending o) (fst (fst s')) (snd (fst s'), l) (snd s') (log tr).

  Lemma log_did tr : log (map Did tr) = map Did (map (to_sync F) tr).
  Proof. rewrite !map_map. reflexivity. Qed.

  Lemma orefines_plain {X A} (c : fut World m (store X) A) (k : comp sm' X A) :
    @PollProofs.refines World m F X A c k -> orefines (owns_nothing c) (plainly k).
  Proof.
    intros H w ws x sh cx. rewrite odrive_plain. specialize (H w ws x sh cx).
    destruct (drive c w ws (x, sh, cx)) as [[[o s1] tr1] l1]. unfold plainly. rewrite H. cbn.
    now rewrite log_did.
  Qed.
  Lemma orefines_bind {X A B} (c : ofut World m (store X) A) k (f : A -> ofut World m (store X) B) g :
    orefines c k -> (forall a, orefines (f a) (g a)) -> orefines (obind c f) (dbind k g).
  Proof.
    intros H G w ws x sh cx. rewrite odrive_bind. specialize (H w ws x sh cx). unfold dbind.
    destruct (odrive c w ws (x, sh, cx)) as [[[[[a|y]|] [[x1 sh1] cx1]] tr1] [w1 ws1]]; cbn in H; rewrite H; cbn.
    - specialize (G a w1 ws1 x1 sh1 cx1).
      destruct (odrive (f a) w1 ws1 (x1, sh1, cx1)) as [[[o s2] tr2] l2]. cbn.
      rewrite G. cbn. now rewrite map_app.
    - reflexivity.
    - reflexivity.
  Qed.
  Lemma orefines_via {X V A} put v (c : ofut World m (store V) A) k :
    orefines c k -> orefines (ovia (X := X) put v c) (dvia put v k).
  Proof.
    intros H w ws x sh cx. unfold ovia. rewrite odrive_borrow. cbn [fst snd].
    specialize (H w ws v sh cx). unfold dvia.
    destruct (odrive c w ws (v, sh, cx)) as [[[o s1] tr1] l1]. cbn. rewrite H. reflexivity.
  Qed.
  Lemma orefines_owning {X A} (t : State m) (c : ofut World m (store X) A) k :
    orefines c k -> orefines (oowning t c) (@owning sm' X A t k).
  Proof.
    intros H w ws x sh cx. rewrite odrive_owning. specialize (H w ws x sh cx). unfold owning.
    destruct (odrive c w ws (x, sh, cx)) as [[[[[a|y]|] s1] tr1] l1]; cbn in H; rewrite H; cbn.
    - reflexivity.
    - rewrite map_app. destruct (unwinds y); reflexivity.
    - rewrite map_app. reflexivity.
  Qed.
  Lemma orefines_response {X A} (r : response (State m)) (c : ofut World m (store X) A) k :
    orefines c k -> orefines (oowning_response r c) (@owning_response sm' X A r k).
  Proof. destruct r; cbn; auto using orefines_owning. Qed.
  Lemma orefines_dropping {X} (t : State m) (c : ofut World m (store X) unit) k :
    orefines c k -> orefines (obind (oowning t c) (fun _ => oend t)) (@dropping sm' X unit t k).
  Proof.
    intros H w ws x sh cx. rewrite odrive_bind. pose proof (orefines_owning t H w ws x sh cx) as G.
    unfold dropping. destruct (odrive (oowning t c) w ws (x, sh, cx)) as [[[[[[]|y]|] s1] tr1] [w1 ws1]];
      cbn in G; rewrite G; cbn; try reflexivity.
    rewrite odrive_end. cbn. rewrite map_app. reflexivity.
  Qed.
  Lemma orefines_same {X A} (c : ofut World m (store X) A) k k' :
    orefines c k -> (forall x sh cx, k x sh cx = k' x sh cx) -> orefines c k'.
  Proof.
    intros H E w ws x sh cx. specialize (H w ws x sh cx).
    destruct (odrive c w ws (x, sh, cx)) as [[[o s1] tr1] l1]. now rewrite <- E.
  Qed.

  Variable stack : nat.

  Ltac refined :=
    apply orefines_plain;
    first
      [ apply PollProofs.refines_ret | apply PollProofs.refines_lift | apply PollProofs.refines_abort
      | apply PollProofs.refines_self | apply PollProofs.refines_hook | apply PollProofs.refines_swap
      | apply (@PollProofs.refines_handler World m F _ (f_s_handler F _) NState)
      | apply (@PollProofs.refines_handler World m F _ (f_u_handler F _) NSuper)
      | apply PollProofs.refines_state_enter | apply PollProofs.refines_state_exit ].
  Ltac step := apply orefines_bind; [|intros ?].

  Lemma o_handle_loop_refines e n : orefines (o_handle_loop F n e) (handle_loop_d sm' n e).
  Proof.
    induction n as [|n IH]; cbn [o_handle_loop handle_loop_d]; [refined|].
    step; [refined|]. step; [refined|]. step; [refined|]. step; [refined|].
    step; [apply orefines_response; refined|].
    destruct a1; [refined| |refined].
    step; [refined|]. cbn [u_super sync]. destruct (u_super m a1); [apply orefines_via; exact IH|refined].
  Qed.
  Lemma o_state_handle_refines e : orefines (o_state_handle F stack e) (aw_state_handle_d sm' stack e).
  Proof.
    unfold o_state_handle, aw_state_handle_d.
    step; [refined|]. step; [refined|]. step; [refined|]. step; [refined|].
    step; [apply orefines_response; refined|].
    destruct a1; [refined| |refined].
    step; [refined|]. cbn [s_super sync].
    destruct (s_super m a1); [apply orefines_via; apply o_handle_loop_refines|refined].
  Qed.
  Lemma dbind_self {X B} (k : X -> dcomp sm' X B) x sh cx : dbind (plainly self) k x sh cx = k x x sh cx.
  Proof. unfold dbind, plainly, self. cbn. destruct (k x x sh cx). reflexivity. Qed.
  Lemma owning_self {X A B} (t : State m) (f : X -> dcomp sm' X A) (g : A -> dcomp sm' X B) x sh cx :
    dbind (@owning sm' _ _ t (dbind (plainly self) f)) g x sh cx = dbind (@owning sm' _ _ t (f x)) g x sh cx.
  Proof.
    assert (E : @owning sm' _ _ t (dbind (plainly self) f) x sh cx = @owning sm' _ _ t (f x) x sh cx)
      by (unfold owning; rewrite dbind_self; reflexivity).
    unfold dbind at 1. rewrite E. reflexivity.
  Qed.
  Lemma o_transition_refines t : orefines (o_transition F stack t) (transition_d sm' stack AwaitableMode t).
  Proof.
    eapply orefines_same.
    - unfold o_transition. apply orefines_bind.
      + apply orefines_owning. step; [refined|]. step; [refined|]. step.
        * unfold Awaitable.transition_path. rewrite <- (@PollProofs.sync_transition_path World m F). refined.
        * step; [refined|]. refined.
      + intros lv. step; [refined|]. apply orefines_dropping.
        step; [refined|]. step; [refined|]. refined.
    - intros x sh cx. unfold transition_d. rewrite dbind_self.
      etransitivity; [eapply owning_self | reflexivity].
  Qed.
  Lemma o_inner_handle_refines e :
    orefines (o_inner_handle F stack e) (inner_handle_d sm' stack AwaitableMode e).
  Proof.
    unfold o_inner_handle, inner_handle_d. step; [apply o_state_handle_refines|].
    destruct a; [refined|refined|apply o_transition_refines].
  Qed.

  (** *** Machines *)
  Lemma o_dispatch_runs e w ws sm cx :
    let '(o, s', tr, l) := odrive (o_on_inner (o_inner_handle F stack e)) w ws (sm, cx) in
    dispatch_d stack AwaitableMode (with_schedule F sm (w, ws)) e cx =
    (PollProofs.ending o, with_schedule F (fst s') l, snd s', log tr).
  Proof.
    unfold o_on_inner. rewrite odrive_borrow. cbn [fst snd].
    pose proof (o_inner_handle_refines e w ws (state (sm_inner sm)) (shared_storage (sm_inner sm)) cx) as H.
    destruct (odrive (o_inner_handle F stack e) w ws _) as [[[o s1] tr1] l1].
    transitivity (let r := inner_handle_d sm' stack AwaitableMode e (state (sm_inner sm))
                             (shared_storage (sm_inner sm), (w, ws)) cx in
                  (d_out r, @StateMachine sm' (Inner (d_sh r) (d_self r)) (initialized sm), d_cx r, d_tr r));
      [reflexivity|].
    rewrite H. reflexivity.
  Qed.

  Lemma o_handle_runs e w ws sm cx :
    let '(o, s', tr, l) := odrive (o_handle_with_context F stack e) w ws (sm, cx) in
    handle_d stack AwaitableMode (with_schedule F sm (w, ws)) e cx =
    (PollProofs.ending o, with_schedule F (fst s') l, snd s', log tr).
  Proof.
    unfold o_handle_with_context. rewrite odrive_bind, odrive_plain.
    assert (E : drive (aget (World := World) (m := m)) w ws (sm, cx) =
                (Some (Ret (sm, cx)), (sm, cx), [], (w, ws))) by (destruct ws; reflexivity).
    rewrite E. clear E. cbn [fst map]. unfold handle_d.
    cbn [initialized with_schedule]. rewrite odrive_bind, odrive_plain. destruct (initialized sm) eqn:Hi; cbn [negb].
    - rewrite drive_ret.
      pose proof (o_dispatch_runs e w ws sm cx) as H.
      destruct (odrive (o_on_inner (o_inner_handle F stack e)) w ws (sm, cx)) as [[[o s1] tr1] l1].
      cbn [oprepend app map]. exact H.
    - rewrite PollProofs.drive_bind.
      pose proof (@PollProofs.on_inner_runs World m F _ (inner_init sm' stack AwaitableMode) sm cx w ws
                    (@PollProofs.refines_inner_init World m F stack)) as H.
      destruct (drive (on_inner (a_inner_init F stack)) w ws (sm, cx)) as [[[o [sm1 cx1]] tr1] [w1 ws1]].
      destruct H as [H Hi1]. cbn [fst snd] in H, Hi1. rewrite H.
      destruct o as [[[]|y]|]; cbn [PollProofs.ending a_out a_machine a_cx a_tr].
      + assert (E : drive (a_set_initialized World m) w1 ws1 (sm1, cx1) =
                    (Some (Ret tt), (StateMachine (sm_inner sm1) true, cx1), [], (w1, ws1)))
          by (destruct ws1; reflexivity).
        rewrite E. cbn [PollProofs.prepend]. rewrite app_nil_r.
        pose proof (o_dispatch_runs e w1 ws1 (StateMachine (sm_inner sm1) true) cx1) as H2.
        destruct (odrive (o_on_inner (o_inner_handle F stack e)) w1 ws1
                    (StateMachine (sm_inner sm1) true, cx1)) as [[[o2 s2] tr2] l2].
        cbn [oprepend app].
        change (StateMachine (sm_inner (with_schedule F sm1 (w1, ws1))) true) with
          (with_schedule F (StateMachine (sm_inner sm1) true) (w1, ws1)).
        rewrite H2. cbn [fst snd]. now rewrite map_app, log_did.
      + unfold with_schedule. cbn [fst snd oprepend app PollProofs.ending]. now rewrite Hi1, Hi, log_did.
      + unfold with_schedule. cbn [fst snd oprepend app PollProofs.ending]. now rewrite Hi1, Hi, log_did.
  Qed.
End Refine.

(** ** What a client sees *)
Section Client.
  Variable World : Type.
  Variable m : machine.
  Variable F : futures World m.
  Variable stack : nat.
  Variable T : Type.
  Variable mark : State m -> T.
  Hypothesis Hk : futures_keep_mark F mark.
  Notation log := (map (ev_sync F)).

  Lemma atomically_mark {A} (f : ufut World (State m * Shared m * Ctx m) A) x sh cx r x' sh' cx' :
    future_keeps m mark f -> atomically f x sh cx = (r, x', sh', cx') -> mark x' = mark x.
  Proof.
    intros K. unfold atomically. specialize (K (fst (snd sh)) (snd (snd sh)) x (fst sh) cx).
    destruct (udrive f _ _ _) as [[o [[x1 sh1] cx1]] l]. cbn in K. intros E. injection E; intros; subst. exact K.
  Qed.
  Lemma sync_keeps : @keeps_mark (sync F) T mark.
  Proof.
    destruct Hk as [Kh Ke Kx Kp]. split; cbn.
    - intros x sh cx e r x' sh' cx'. apply atomically_mark. apply Kh.
    - intros x sh cx r x' sh' cx'. apply atomically_mark. exact Ke.
    - intros x sh cx r x' sh' cx'. apply atomically_mark. exact Kx.
    - exact Kp.
  Qed.

  Lemma log_split : forall tr t' (ds : list (State m)),
    log tr = map Did t' ++ map (@Dropped (sync F)) ds ->
    exists t, tr = map Did t ++ map Dropped ds /\ t' = map (to_sync F) t.
  Proof.
    induction tr as [|ev tr IH]; intros t' ds E.
    - destruct t'; [|discriminate]. destruct ds; [|discriminate]. exists []. auto.
    - destruct t' as [|o t'].
      + destruct ds as [|d ds]; [discriminate|]. destruct ev as [o|s]; [discriminate|].
        cbn in E. injection E as -> E. destruct (IH [] ds E) as (t & -> & E').
        destruct t; [|discriminate]. exists []. auto.
      + destruct ev as [o1|s]; [|discriminate]. cbn in E. injection E as <- E.
        destruct (IH t' ds E) as (t & -> & ->). exists (o1 :: t). auto.
  Qed.
  Lemma targets_log tr : @targets_in (sync F) (log tr) = targets_in tr.
  Proof.
    induction tr as [|[o|s] tr IH]; [reflexivity| |exact IH].
    transitivity (@target_in (sync F) (Did (to_sync F o)) ++ @targets_in (sync F) (log tr)); [reflexivity|].
    rewrite IH. destruct o as [| |[]| | | | |]; reflexivity.
  Qed.

  Lemma call_drops e polls sm cx o sm1 cx1 tr :
    oexecute (o_handle_with_context F stack e) polls (sm, cx) = (o, (sm1, cx1), tr) ->
    o <> Some (Abort Diverges) ->
    exists t ds, tr = map Did t ++ map Dropped ds /\
      length ds = length (targets_in tr) /\ length ds <= 1 /\
      Permutation (map mark ds ++ [mark (sm_state sm1)]) (mark (sm_state sm) :: map mark (targets_in tr)) /\
      (o = Some (Ret tt) -> forall d, In d ds -> exists t0, t = t0 ++ [OAfterTransition d (sm_state sm1)]).
  Proof.
    destruct polls as [|w ws]; cbn [oexecute].
    - intros E _. injection E; intros; subst. exists [], []. cbn. repeat split; auto.
      + discriminate.
    - intros E N. pose proof (o_handle_runs F stack e w ws sm cx) as R.
      destruct (odrive (o_handle_with_context F stack e) w ws (sm, cx)) as [[[o1 [sm2 cx2]] tr1] l1].
      cbn [fst snd] in E, R. injection E; intros; subst.
      assert (X : exec_d stack AwaitableMode (@OpHandle (sync F) e cx) (with_schedule F sm (w, ws)) =
                  (PollProofs.ending o, with_schedule F sm1 l1, Some cx1, log tr)).
      { unfold exec_d. rewrite R. reflexivity. }
      assert (U : @unwound (PollProofs.ending o)).
      { unfold unwound. destruct o as [[[]|[]]|]; cbn; try discriminate. intros _. now apply N. }
      destruct (@DropProofs.exec_drops (sync F) stack T mark sync_keeps AwaitableMode
                  (@OpHandle (sync F) e cx) _ _ _ _ _ I X U) as (t' & ds & Et & L & L1 & P & Hend).
      destruct (@log_split tr t' ds Et) as (t & -> & ->).
      rewrite targets_log in L, P. exists t, ds.
      split; [reflexivity|]. split; [exact L|]. split; [exact L1|]. split; [exact P|].
      intros Eo d Hd. subst o. destruct (Hend eq_refl d Hd) as [t0 E0].
      destruct (exists_last (l := t)) as (t1 & o1 & ->).
      { intros ->. destruct t0; discriminate. }
      rewrite map_app in E0. apply app_inj_tail in E0. destruct E0 as [_ E0].
      exists t1. destruct o1; try discriminate. cbn in E0. injection E0; intros; subst. reflexivity.
  Qed.

  Lemma session_drops calls : forall sm rs sm',
    osession F stack calls sm = (rs, sm') ->
    Forall (fun r => fst r <> Some (Abort Diverges)) rs ->
    Permutation
      (map mark (flat_map (fun r => drops_in (snd r)) rs) ++ [mark (sm_state sm')])
      (mark (sm_state sm) :: map mark (flat_map (fun r => targets_in (snd r)) rs)).
  Proof.
    induction calls as [|c calls IH]; intros sm rs sm' E Hf; cbn [osession] in E.
    - injection E; intros; subst. cbn. apply Permutation_refl.
    - destruct (oexecute (o_handle_with_context F stack (pc_event c)) (pc_polls c) (sm, pc_ctx c))
        as [[o [sm1 cx1]] tr] eqn:E1.
      destruct (osession F stack calls sm1) as [rest sm2] eqn:E2. injection E; intros; subst.
      inversion Hf as [|? ? N Hf']; subst. cbn [fst] in N.
      destruct (call_drops _ _ _ _ E1 N) as (t & ds & Et & _ & _ & P & _).
      specialize (IH sm1 rest sm' E2 Hf'). cbn [flat_map snd].
      assert (D : drops_in tr = ds).
      { rewrite Et, DropProofs.drops_in_app, DropProofs.drops_in_did, DropProofs.drops_in_dropped. reflexivity. }
      rewrite D, !map_app, <- app_assoc, IH.
      change (mark (sm_state sm1) :: map mark (flat_map (fun r => targets_in (snd r)) rest)) with
        ([mark (sm_state sm1)] ++ map mark (flat_map (fun r => targets_in (snd r)) rest)).
      rewrite app_assoc, P. reflexivity.
  Qed.
End Client.
