(** SuperProofs.v — proofs about SuperCalls.v. *)

From Coq Require Import List Bool Arith Lia.
From Verif Require Import Machine Blocking Awaitable Api SuperCalls SuperSpec.
Import ListNotations.
Set Implicit Arguments.
Local Open Scope comp_scope.

#[local] Arguments dispatch : simpl never.
#[local] Arguments dispatch_s : simpl never.

Definition omap {A B} (f : A -> B) (o : outcome A) : outcome B :=
  match o with Ret a => Ret (f a) | Abort w => Abort w end.

Section Sim.
  Variables m' m : machine.
  Variable F : look m' m.
  Variable sc : superstates m'.
  Hypothesis same : looks_same F sc.
  Hypothesis lend : lends m.
  Variable stack : nat.
  (** Whether `superstate()` may panic. *)
  Variable may : Prop.
  Hypothesis may_s : forall x x', ask_s sc x = (None, x') -> may.
  Hypothesis may_u : forall x x', ask_u sc x = (None, x') -> may.

  Notation fs := (at_s F).
  Notation fu := (at_u F).
  Notation fsh := (at_sh F).
  Notation fcx := (at_cx F).
  Notation fo := (map (at_obs F)).

  (** [c'] does what [c] does, or panics on the way. *)
  Definition sim {X' X A' A} (f : X' -> X) (g : A' -> A) (c' : comp m' X' A') (c : comp m X A) : Prop :=
    forall x sh cx,
      let r := c' x sh cx in
      c (f x) (fsh sh) (fcx cx) = Res (omap g (r_out r)) (f (r_self r)) (fsh (r_sh r)) (fcx (r_cx r)) (fo (r_tr r)) \/
      (may /\ r_out r = Abort Panicked /\
       exists rest, r_tr (c (f x) (fsh sh) (fcx cx)) = fo (r_tr r) ++ rest).

  Lemma sim_ret {X' X A' A} (f : X' -> X) (g : A' -> A) a : sim f g (ret a) (ret (g a)).
  Proof. intros x sh cx. left. reflexivity. Qed.
  Lemma sim_abort {X' X A' A} (f : X' -> X) (g : A' -> A) w : sim f g (abort w) (abort w).
  Proof. intros x sh cx. left. reflexivity. Qed.
  Lemma sim_self {X' X} (f : X' -> X) : sim f f self self.
  Proof. intros x sh cx. left. reflexivity. Qed.

  Lemma sim_bind {X' X A' A B' B} (f : X' -> X) (g : A' -> A) (h : B' -> B) c' c k' k :
    sim f g c' c -> (forall a, sim f h (k' a) (k (g a))) -> sim f h (bind c' k') (bind c k).
  Proof.
    intros Hc Hk x sh cx. specialize (Hc x sh cx). unfold bind.
    destruct (c' x sh cx) as [[a | w] x1 sh1 cx1 t1]; cbn [r_out r_self r_sh r_cx r_tr omap] in *.
    - destruct Hc as [-> | [_ [H _]]]; [| discriminate]. cbn [r_out r_self r_sh r_cx r_tr].
      specialize (Hk a x1 sh1 cx1).
      destruct (k' a x1 sh1 cx1) as [o x2 sh2 cx2 t2]; cbn [r_out r_self r_sh r_cx r_tr] in *.
      destruct Hk as [-> | (Hm & -> & rest & E)]; [left | right].
      + cbn. rewrite map_app. reflexivity.
      + split; [exact Hm | split; [reflexivity |]]. exists rest. rewrite E, map_app, app_assoc. reflexivity.
    - destruct Hc as [-> | (Hm & H & rest & E)]; [left; reflexivity | right].
      injection H as ->. split; [exact Hm | split; [reflexivity |]].
      destruct (c (f x) (fsh sh) (fcx cx)) as [[a | w'] x1' sh1' cx1' t1']; cbn in *.
      + eexists. rewrite E, <- app_assoc. reflexivity.
      + exists rest. exact E.
  Qed.

  Lemma sim_via {X' X V' V A' A} (f : X' -> X) (fv : V' -> V) (g : A' -> A) put' put v' v c' c :
    (forall x v, f (put' x v) = put (f x) (fv v)) -> v = fv v' ->
    sim fv g c' c -> sim f g (via put' v' c') (via put v c).
  Proof.
    intros Hp -> Hc x sh cx. specialize (Hc v' sh cx). unfold via.
    destruct (c' v' sh cx) as [o x1 sh1 cx1 t1]; cbn in *.
    destruct Hc as [-> | H]; [left | right; exact H]. cbn. rewrite Hp. reflexivity.
  Qed.

  (** `match self.superstate()`: [super] is that of [m]. *)
  Lemma sim_on_super {X' X A' A} (f : X' -> X) (g : A' -> A) ask' put' super put c' c d' d :
    (forall x o x', ask' x = (Some o, x') -> f x' = f x /\ option_map fu o = super (f x)) ->
    (forall x x', ask' x = (None, x') -> may) ->
    (forall x v, f (put' x v) = put (f x) (fu v)) ->
    sim fu g c' c -> sim f g d' d ->
    sim f g (on_super ask' put' c' d')
      (bind self (fun x => match super x with Some v => via put v c | None => d end)).
  Proof.
    intros Ha Hm Hp Hc Hd x sh cx. unfold on_super, ask, bind at 1 2 3 4 5 6 7 8 9.
    cbn [self r_out r_self r_sh r_cx r_tr app].
    destruct (ask' x) as [[o |] x1] eqn:E.
    - cbn [r_out r_self r_sh r_cx r_tr app].
      destruct (Ha _ _ _ E) as [E1 E2]. rewrite <- E1 in *.
      assert (H : sim f g (match o with Some v => via put' v c' | None => d' end)
                          (match super (f x1) with Some v => via put v c | None => d end)).
      { rewrite <- E2. destruct o as [v |]; cbn [option_map];
          [apply (@sim_via _ _ _ _ _ _ f fu g); [exact Hp | reflexivity | exact Hc] | exact Hd]. }
      specialize (H x1 sh cx). cbv zeta in H.
      unfold bind. cbn [self r_out r_self r_sh r_cx r_tr app].
      destruct H as [-> | H]; [left; reflexivity | right; exact H].
    - right. split; [exact (Hm _ _ E) | split; [reflexivity |]]. eexists. reflexivity.
  Qed.

  Lemma sim_action {X' X} (f : X' -> X) a' a o' o :
    (forall x sh cx r x' sh' cx', a' x sh cx = (r, x', sh', cx') ->
       a (f x) (fsh sh) (fcx cx) = (r, f x', fsh sh', fcx cx')) ->
    (forall x, at_obs F (o' x) = o (f x)) ->
    sim f (fun u => u) (@call_action m' X' a' o') (@call_action m X a o).
  Proof.
    intros Ha Ho x sh cx. left. unfold call_action.
    destruct (a' x sh cx) as [[[r x'] sh'] cx'] eqn:E. rewrite (Ha _ _ _ _ _ _ _ E). cbn. rewrite Ho.
    destruct r; reflexivity.
  Qed.
  Lemma sim_handler {X' X} (f : X' -> X) a' a nd' nd e' e :
    e = at_e F e' ->
    (forall x sh cx r x' sh' cx', a' x sh cx e' = (r, x', sh', cx') ->
       a (f x) (fsh sh) (fcx cx) e = (at_reply F r, f x', fsh sh', fcx cx')) ->
    (forall x, at_node F (nd' x) = nd (f x)) ->
    sim f (at_response F) (@call_handler m' X' a' nd' e') (@call_handler m X a nd e).
  Proof.
    intros -> Ha Ho x sh cx. left. unfold call_handler.
    destruct (a' x sh cx e') as [[[r x'] sh'] cx'] eqn:E. rewrite (Ha _ _ _ _ _ _ _ E). cbn.
    destruct r; cbn; rewrite Ho; reflexivity.
  Qed.
  Lemma sim_hook {X' X} (f : X' -> X) h' h o' o :
    (forall sh r sh', h' sh = (r, sh') -> h (fsh sh) = (r, fsh sh')) -> at_obs F o' = o ->
    sim f (fun u => u) (@call_hook m' X' h' o') (@call_hook m X h o).
  Proof.
    intros Ha <- x sh cx. left. unfold call_hook.
    destruct (h' sh) as [r sh'] eqn:E. rewrite (Ha _ _ _ E). destruct r; reflexivity.
  Qed.

  Lemma sim_before_dispatch {X' X} (f : X' -> X) n e :
    sim f (fun u => u) (before_dispatch m' n e) (before_dispatch m (at_node F n) (at_e F e)).
  Proof. apply sim_hook; [intros sh r sh'; apply (ls_before_dispatch same) | reflexivity]. Qed.
  Lemma sim_after_dispatch {X' X} (f : X' -> X) n e :
    sim f (fun u => u) (after_dispatch m' n e) (after_dispatch m (at_node F n) (at_e F e)).
  Proof. apply sim_hook; [intros sh r sh'; apply (ls_after_dispatch same) | reflexivity]. Qed.
  Lemma sim_before_transition {X' X} (f : X' -> X) a b :
    sim f (fun u => u) (before_transition m' a b) (before_transition m (fs a) (fs b)).
  Proof. apply sim_hook; [intros sh r sh'; apply (ls_before_transition same) | reflexivity]. Qed.
  Lemma sim_after_transition {X' X} (f : X' -> X) a b :
    sim f (fun u => u) (after_transition m' a b) (after_transition m (fs a) (fs b)).
  Proof. apply sim_hook; [intros sh r sh'; apply (ls_after_transition same) | reflexivity]. Qed.
  Lemma sim_s_handler e : sim fs (at_response F) (s_call_handler m' e) (s_call_handler m (at_e F e)).
  Proof. apply sim_handler; [reflexivity | intros; apply (ls_s_handler same); assumption | reflexivity]. Qed.
  Lemma sim_u_handler e : sim fu (at_response F) (u_call_handler m' e) (u_call_handler m (at_e F e)).
  Proof. apply sim_handler; [reflexivity | intros; apply (ls_u_handler same); assumption | reflexivity]. Qed.
  Lemma sim_s_entry : sim fs (fun u => u) (s_call_entry m') (s_call_entry m).
  Proof. apply sim_action; [intros; apply (ls_s_entry same); assumption | reflexivity]. Qed.
  Lemma sim_s_exit : sim fs (fun u => u) (s_call_exit m') (s_call_exit m).
  Proof. apply sim_action; [intros; apply (ls_s_exit same); assumption | reflexivity]. Qed.
  Lemma sim_u_entry : sim fu (fun u => u) (u_call_entry m') (u_call_entry m).
  Proof. apply sim_action; [intros; apply (ls_u_entry same); assumption | reflexivity]. Qed.
  Lemma sim_u_exit : sim fu (fun u => u) (u_call_exit m') (u_call_exit m).
  Proof. apply sim_action; [intros; apply (ls_u_exit same); assumption | reflexivity]. Qed.

  Lemma sim_s_super {A' A} (g : A' -> A) c' c d' d :
    sim fu g c' c -> sim fs g d' d ->
    sim fs g (on_super (ask_s sc) (s_put m') c' d')
      (bind self (fun x => match s_super m x with Some v => via (s_put m) v c | None => d end)).
  Proof.
    apply sim_on_super; [apply (ls_s_super same) | exact may_s | apply (ls_s_put same)].
  Qed.
  Lemma sim_u_super {A' A} (g : A' -> A) c' c d' d :
    sim fu g c' c -> sim fu g d' d ->
    sim fu g (on_super (ask_u sc) (u_put m') c' d')
      (bind self (fun x => match u_super m x with Some v => via (u_put m) v c | None => d end)).
  Proof.
    apply sim_on_super; [apply (ls_u_super same) | exact may_u | apply (ls_u_put same)].
  Qed.

  Lemma sim_ext {X' X A' A} (f : X' -> X) (g : A' -> A) c' c1 c2 :
    (forall x sh cx, c1 x sh cx = c2 x sh cx) -> sim f g c' c1 -> sim f g c' c2.
  Proof. intros H Hs x sh cx. rewrite <- H. apply Hs. Qed.

  Lemma assoc {X A B C} (c : comp m X A) (k : A -> comp m X B) (l : B -> comp m X C) x sh cx :
    bind (bind c k) l x sh cx = bind c (fun a => bind (k a) l) x sh cx.
  Proof.
    unfold bind. destruct (r_out (c x sh cx)) as [a | w] eqn:E; cbn; [| reflexivity].
    destruct (r_out (k a (r_self (c x sh cx)) (r_sh (c x sh cx)) (r_cx (c x sh cx)))); cbn;
      [now rewrite app_assoc | reflexivity].
  Qed.

  Notation same_unit := (fun u : unit => u).

  (** ** Entering and exiting *)
  Lemma sim_superstate_enter n : sim fu same_unit (superstate_enter_s sc n) (Blocking.superstate_enter m n).
  Proof.
    induction n as [| [| n] IH].
    - apply (sim_ret _ same_unit).
    - apply sim_u_entry.
    - eapply sim_ext; [intros x sh cx; apply assoc |].
      eapply sim_bind; [apply sim_u_super; [exact IH | apply (sim_ret _ same_unit)] | intros _].
      apply sim_u_entry.
  Qed.
  Lemma sim_superstate_exit n : sim fu same_unit (superstate_exit_s sc n) (Blocking.superstate_exit m n).
  Proof.
    induction n as [| [| n] IH].
    - apply (sim_ret _ same_unit).
    - apply sim_u_exit.
    - eapply sim_bind; [apply sim_u_exit | intros _].
      apply sim_u_super; [exact IH | apply (sim_ret _ same_unit)].
  Qed.
  Lemma sim_bl_enter n : sim fs same_unit (bl_enter_s sc n) (Blocking.state_enter m n).
  Proof.
    destruct n as [| [| n]].
    - apply (sim_ret _ same_unit).
    - apply sim_s_entry.
    - eapply sim_ext; [intros x sh cx; apply assoc |].
      eapply sim_bind; [apply sim_s_super; [apply sim_superstate_enter | apply (sim_ret _ same_unit)] | intros _].
      apply sim_s_entry.
  Qed.
  Lemma sim_bl_exit n : sim fs same_unit (bl_exit_s sc n) (Blocking.state_exit m n).
  Proof.
    destruct n as [| [| n]].
    - apply (sim_ret _ same_unit).
    - apply sim_s_exit.
    - eapply sim_bind; [apply sim_s_exit | intros _].
      apply sim_s_super; [apply sim_superstate_exit | apply (sim_ret _ same_unit)].
  Qed.
  Lemma sim_climb n : sim fu same_unit (climb_entry_s sc n) (Awaitable.climb_entry m n).
  Proof.
    induction n as [| n IH]; [apply sim_u_entry |].
    apply sim_u_super; [exact IH | apply sim_u_entry].
  Qed.
  Lemma sim_aw_enter n : sim fs same_unit (aw_enter_s sc n) (Awaitable.state_enter m n).
  Proof.
    induction n as [| [| n] IH].
    - apply (sim_ret _ same_unit).
    - apply sim_s_entry.
    - eapply sim_ext; [intros x sh cx; apply assoc |].
      eapply sim_bind; [apply sim_s_super; [apply sim_climb | apply (sim_ret _ same_unit)] | intros _].
      exact IH.
  Qed.
  Lemma sim_exit_loop n : sim fu same_unit (exit_loop_s sc n) (Awaitable.exit_loop m n).
  Proof.
    induction n as [| n IH]; [apply (sim_ret _ same_unit) |].
    eapply sim_bind; [apply sim_u_exit | intros _].
    apply sim_u_super; [exact IH | apply (sim_ret _ same_unit)].
  Qed.
  Lemma sim_aw_exit n : sim fs same_unit (aw_exit_s sc n) (Awaitable.state_exit m n).
  Proof.
    unfold aw_exit_s, Awaitable.state_exit.
    eapply sim_bind; [destruct (1 <=? n); [apply sim_s_exit | apply (sim_ret _ same_unit)] | intros _].
    apply sim_s_super; [apply sim_exit_loop | apply (sim_ret _ same_unit)].
  Qed.

  (** ** Handling *)
  Lemma sim_superstate_handle n e :
    sim fu (at_response F) (superstate_handle_s sc n e) (Blocking.superstate_handle m n (at_e F e)).
  Proof.
    induction n as [| n IH]; [apply sim_abort |].
    cbn [superstate_handle_s Blocking.superstate_handle].
    eapply sim_bind; [apply sim_u_handler | intros r].
    destruct r as [| | t]; cbn [at_response].
    - apply (sim_ret _ (at_response F) Handled).
    - apply sim_u_super; [| apply (sim_ret _ (at_response F) Super)].
      eapply sim_bind; [apply sim_self | intros v0].
      eapply sim_bind; [apply (sim_before_dispatch _ (NSuper v0)) | intros _].
      eapply sim_bind; [exact IH | intros r].
      eapply sim_bind; [apply sim_self | intros v1].
      eapply sim_bind; [apply (sim_after_dispatch _ (NSuper v1)) | intros _].
      apply (sim_ret _ (at_response F) r).
    - apply (sim_ret _ (at_response F) (Transition t)).
  Qed.
  Lemma sim_handle_loop n e :
    sim fu (at_response F) (handle_loop_s sc n e) (Awaitable.handle_loop m n (at_e F e)).
  Proof.
    induction n as [| n IH]; [apply sim_abort |].
    cbn [handle_loop_s Awaitable.handle_loop].
    eapply sim_bind; [apply sim_self | intros v0].
    eapply sim_bind; [apply (sim_before_dispatch _ (NSuper v0)) | intros _].
    eapply sim_bind; [apply sim_u_handler | intros r].
    eapply sim_bind; [apply sim_self | intros v1].
    eapply sim_bind; [apply (sim_after_dispatch _ (NSuper v1)) | intros _].
    destruct r as [| | t]; cbn [at_response].
    - apply (sim_ret _ (at_response F) Handled).
    - apply sim_u_super; [exact IH | apply (sim_ret _ (at_response F) Handled)].
    - apply (sim_ret _ (at_response F) (Transition t)).
  Qed.
  Lemma sim_bl_handle e :
    sim fs (at_response F) (bl_handle_s sc stack e) (Blocking.state_handle m stack (at_e F e)).
  Proof.
    unfold bl_handle_s, Blocking.state_handle.
    eapply sim_bind; [apply sim_self | intros x0].
    eapply sim_bind; [apply (sim_before_dispatch _ (NState x0)) | intros _].
    eapply sim_bind; [apply sim_s_handler | intros r].
    eapply sim_bind; [apply sim_self | intros x1].
    eapply sim_bind; [apply (sim_after_dispatch _ (NState x1)) | intros _].
    destruct r as [| | t]; cbn [at_response].
    - apply (sim_ret _ (at_response F) Handled).
    - apply sim_s_super; [| apply (sim_ret _ (at_response F) Super)].
      eapply sim_bind; [apply sim_self | intros v0].
      eapply sim_bind; [apply (sim_before_dispatch _ (NSuper v0)) | intros _].
      eapply sim_bind; [apply sim_superstate_handle | intros r].
      eapply sim_bind; [apply sim_self | intros v1].
      eapply sim_bind; [apply (sim_after_dispatch _ (NSuper v1)) | intros _].
      apply (sim_ret _ (at_response F) r).
    - apply (sim_ret _ (at_response F) (Transition t)).
  Qed.
  Lemma sim_aw_handle e :
    sim fs (at_response F) (aw_handle_s sc stack e) (Awaitable.state_handle m stack (at_e F e)).
  Proof.
    unfold aw_handle_s, Awaitable.state_handle.
    eapply sim_bind; [apply sim_self | intros x0].
    eapply sim_bind; [apply (sim_before_dispatch _ (NState x0)) | intros _].
    eapply sim_bind; [apply sim_s_handler | intros r].
    eapply sim_bind; [apply sim_self | intros x1].
    eapply sim_bind; [apply (sim_after_dispatch _ (NState x1)) | intros _].
    destruct r as [| | t]; cbn [at_response].
    - apply (sim_ret _ (at_response F) Handled).
    - apply sim_s_super; [apply sim_handle_loop | apply (sim_ret _ (at_response F) Super)].
    - apply (sim_ret _ (at_response F) (Transition t)).
  Qed.

  (** ** Depths and paths: nothing is called, nothing changes *)
  Definition reads {X' X A' A} (f : X' -> X) (g : A' -> A) (c' : comp m' X' A') (v : X -> outcome A) : Prop :=
    forall x sh cx,
      let r := c' x sh cx in
      r_tr r = [] /\ r_sh r = sh /\ r_cx r = cx /\
      ((omap g (r_out r) = v (f x) /\ f (r_self r) = f x) \/ (may /\ r_out r = Abort Panicked)).

  Definition obind {A B} (o : outcome A) (k : A -> outcome B) : outcome B :=
    match o with Ret a => k a | Abort w => Abort w end.

  Lemma reads_lift {X' X A' A} (f : X' -> X) (g : A' -> A) o : reads f g (lift o) (fun _ => omap g o).
  Proof. intros x sh cx. cbn. repeat split; auto. Qed.
  Lemma reads_ret {X' X A' A} (f : X' -> X) (g : A' -> A) a : reads f g (ret a) (fun _ => Ret (g a)).
  Proof. intros x sh cx. cbn. repeat split; auto. Qed.
  Lemma reads_self {X' X} (f : X' -> X) : reads f f self (fun x => Ret x).
  Proof. intros x sh cx. cbn. repeat split; auto. Qed.
  Lemma reads_bind {X' X A' A B' B} (f : X' -> X) (g : A' -> A) (h : B' -> B) c' v k' w :
    reads f g c' v -> (forall a, reads f h (k' a) (w (g a))) ->
    reads f h (bind c' k') (fun x => obind (v x) (fun a => w a x)).
  Proof.
    intros Hc Hk x sh cx. specialize (Hc x sh cx). unfold bind.
    destruct (c' x sh cx) as [[a | y] x1 sh1 cx1 t1]; cbn in *.
    - destruct Hc as (-> & -> & -> & [[E1 E2] | [_ H]]); [| discriminate].
      specialize (Hk a x1 sh cx). destruct (k' a x1 sh cx) as [o x2 sh2 cx2 t2]; cbn in *.
      destruct Hk as (-> & -> & -> & H). repeat split.
      rewrite <- E1. cbn. rewrite E2 in H. exact H.
    - destruct Hc as (-> & -> & -> & [[E1 E2] | [Hm H]]); repeat split.
      + left. rewrite <- E1. split; [reflexivity | exact E2].
      + injection H as ->. right. split; [exact Hm | reflexivity].
  Qed.
  Lemma reads_ext {X' X A' A} (f : X' -> X) (g : A' -> A) c' v w :
    (forall x, v x = w x) -> reads f g c' v -> reads f g c' w.
  Proof. intros H Hc x sh cx. rewrite <- H. apply Hc. Qed.

  (** Borrowing from a value that is looked at as [y]. *)
  Definition reads_at {X' X A' A} (f : X' -> X) (g : A' -> A) (c' : comp m' X' A') (y : X) (o : outcome A) : Prop :=
    forall x sh cx, f x = y ->
      let r := c' x sh cx in
      r_tr r = [] /\ r_sh r = sh /\ r_cx r = cx /\
      ((omap g (r_out r) = o /\ f (r_self r) = y) \/ (may /\ r_out r = Abort Panicked)).
  Lemma reads_here {X' X A' A} (f : X' -> X) (g : A' -> A) c' v :
    (forall y, reads_at f g c' y (v y)) <-> reads f g c' v.
  Proof.
    split.
    - intros H x sh cx. apply (H (f x) x sh cx eq_refl).
    - intros H y x sh cx <-. apply H.
  Qed.
  Lemma reads_at_bind {X' X A' A B' B} (f : X' -> X) (g : A' -> A) (h : B' -> B) c' k' y o w :
    reads_at f g c' y o -> (forall a, o = Ret (g a) -> reads_at f h (k' a) y (w (g a))) ->
    reads_at f h (bind c' k') y (obind o w).
  Proof.
    intros Hc Hk x sh cx Hx. specialize (Hc x sh cx Hx). unfold bind.
    destruct (c' x sh cx) as [[a | u] x1 sh1 cx1 t1]; cbn in *.
    - destruct Hc as (-> & -> & -> & [[E1 E2] | [_ H]]); [| discriminate].
      specialize (Hk a (eq_sym E1) x1 sh cx E2). destruct (k' a x1 sh cx) as [o' x2 sh2 cx2 t2]; cbn in *.
      destruct Hk as (-> & -> & -> & H). repeat split.
      rewrite <- E1. cbn. exact H.
    - destruct Hc as (-> & -> & -> & [[E1 E2] | [Hm H]]); repeat split.
      + left. rewrite <- E1. split; [reflexivity | exact E2].
      + injection H as ->. right. split; [exact Hm | reflexivity].
  Qed.
  Lemma reads_at_via {X' X V' V A' A} (f : X' -> X) (fv : V' -> V) (g : A' -> A) put' v' y c' o :
    (forall x v, f x = y -> fv v = fv v' -> f (put' x v) = y) ->
    reads_at fv g c' (fv v') o -> reads_at f g (via put' v' c') y o.
  Proof.
    intros Hp Hc x sh cx Hx. specialize (Hc v' sh cx eq_refl). unfold via.
    destruct (c' v' sh cx) as [u x1 sh1 cx1 t1]; cbn in *.
    destruct Hc as (-> & -> & -> & [[E1 E2] | H]); repeat split; [left | right; exact H].
    split; [exact E1 | apply Hp; assumption].
  Qed.
  Lemma reads_at_ask {X' X} (f : X' -> X) ask' super y :
    (forall x o x', ask' x = (Some o, x') -> f x' = f x /\ option_map fu o = super (f x)) ->
    (forall x x', ask' x = (None, x') -> may) ->
    reads_at f (option_map fu) (@ask m' X' ask') y (Ret (super y)).
  Proof.
    intros Ha Hm x sh cx Hx. unfold ask.
    destruct (ask' x) as [[o |] x1] eqn:E; cbn; repeat split.
    - left. destruct (Ha _ _ _ E) as [E1 E2]. rewrite E1, E2, Hx. split; reflexivity.
    - right. split; [exact (Hm _ _ E) | reflexivity].
  Qed.
  Lemma reads_at_ret {X' X A' A} (f : X' -> X) (g : A' -> A) a y : reads_at f g (ret a) y (Ret (g a)).
  Proof. intros x sh cx Hx. cbn. repeat split; auto. Qed.
  Lemma reads_at_lift {X' X A' A} (f : X' -> X) (g : A' -> A) o y : reads_at f g (lift o) y (omap g o).
  Proof. intros x sh cx Hx. cbn. repeat split; auto. Qed.
  Lemma reads_at_abort {X' X A' A} (f : X' -> X) (g : A' -> A) w y : reads_at f g (abort w) y (Abort w).
  Proof. intros x sh cx Hx. cbn. repeat split; auto. Qed.
  Lemma reads_at_self {X' X} (f : X' -> X) y : reads_at f f self y (Ret y).
  Proof. intros x sh cx Hx. cbn. repeat split. left. rewrite Hx. split; reflexivity. Qed.
  Lemma reads_at_eq {X' X A' A} (f : X' -> X) (g : A' -> A) c' y o o' :
    o = o' -> reads_at f g c' y o -> reads_at f g c' y o'.
  Proof. intros <- H. exact H. Qed.

  Notation same_nat := (fun n : nat => n).
  Definition both {X' X} (f : X' -> X) (p : X' * X') : X * X := (f (fst p), f (snd p)).

  Lemma reads_at_fst {X' X A' A} (f : X' -> X) (g : A' -> A) c' y z o :
    reads_at f g c' y o -> reads_at (both f) g (on_fst c') (y, z) o.
  Proof.
    intros Hc [x1 x2] sh cx Hx. injection Hx as H1 H2. cbn in H1, H2.
    specialize (Hc x1 sh cx H1). cbn. destruct (c' x1 sh cx) as [u x3 sh1 cx1 t1]. cbn in *.
    destruct Hc as (-> & -> & -> & [[E1 E2] | H]); repeat split; [left | right; exact H].
    split; [exact E1 |]. unfold both. cbn. rewrite E2, H2. reflexivity.
  Qed.
  Lemma reads_at_snd {X' X A' A} (f : X' -> X) (g : A' -> A) c' y z o :
    reads_at f g c' z o -> reads_at (both f) g (on_snd c') (y, z) o.
  Proof.
    intros Hc [x1 x2] sh cx Hx. injection Hx as H1 H2. cbn in H1, H2.
    specialize (Hc x2 sh cx H2). cbn. destruct (c' x2 sh cx) as [u x3 sh1 cx1 t1]. cbn in *.
    destruct Hc as (-> & -> & -> & [[E1 E2] | H]); repeat split; [left | right; exact H].
    split; [exact E1 |]. unfold both. cbn. rewrite E2, H1. reflexivity.
  Qed.

  Lemma u_ask_reads y : reads_at fu (option_map fu) (ask m' (ask_u sc)) y (Ret (u_super m y)).
  Proof. apply reads_at_ask; [apply (ls_u_super same) | exact may_u]. Qed.
  Lemma s_ask_reads y : reads_at fs (option_map fu) (ask m' (ask_s sc)) y (Ret (s_super m y)).
  Proof. apply reads_at_ask; [apply (ls_s_super same) | exact may_s]. Qed.

  Lemma superstate_depth_reads n y :
    reads_at fu same_nat (superstate_depth_s sc n) y (superstate_depth m n y).
  Proof.
    revert y. induction n as [| n IH]; intros y; [apply reads_at_abort |].
    cbn [superstate_depth_s superstate_depth]. unfold on_super.
    apply (@reads_at_eq _ _ _ _ fu same_nat _ y
      (obind (Ret (u_super m y)) (fun o => match o with
        | Some v => obind (superstate_depth m n v) (fun d => Ret (d + 1)) | None => Ret 1 end))).
    { reflexivity. }
    eapply reads_at_bind; [apply u_ask_reads | intros o Ho]. injection Ho as Ho.
    destruct o as [v |]; cbn [option_map] in *; [| apply (reads_at_ret fu same_nat)].
    apply (@reads_at_via _ _ _ _ _ _ fu fu same_nat).
    - intros x v0 Hx Hv. rewrite (ls_u_put same), Hx, Hv. apply (le_u lend), Ho.
    - eapply reads_at_bind; [apply (IH (fu v)) | intros d _]. apply (reads_at_ret fu same_nat).
  Qed.

  Lemma common_reads n : forall y z,
    reads_at (both fu) same_nat (common_ancestor_depth_s sc stack n) (y, z)
             (superstate_common_ancestor_depth m stack n y z).
  Proof.
    induction n as [| n IH]; intros y z; [apply reads_at_abort |].
    cbn [common_ancestor_depth_s superstate_common_ancestor_depth].
    set (R := fun ds dt : nat => match ds ?= dt with
       | Eq => if same_superstate m y z then superstate_depth m stack y
               else match u_super m y, u_super m z with
                    | Some a, Some b => superstate_common_ancestor_depth m stack n a b
                    | _, _ => Ret 0
                    end
       | Gt => match u_super m y with Some a => superstate_common_ancestor_depth m stack n a z | None => Ret 0 end
       | Lt => match u_super m z with Some b => superstate_common_ancestor_depth m stack n y b | None => Ret 0 end
       end).
    apply (@reads_at_eq _ _ _ _ (both fu) same_nat _ (y, z)
      (obind (superstate_depth m stack y) (fun ds => obind (superstate_depth m stack z) (R ds)))).
    { unfold R, obind. destruct (superstate_depth m stack y) as [ds |]; [| reflexivity].
      destruct (superstate_depth m stack z) as [dt |]; [| reflexivity].
      destruct (ds ?= dt); reflexivity. }
    eapply reads_at_bind; [apply reads_at_fst, superstate_depth_reads | intros ds _].
    eapply reads_at_bind; [apply reads_at_snd, superstate_depth_reads | intros dt _].
    unfold R. clear R. destruct (ds ?= dt).
    - apply (@reads_at_eq _ _ _ _ (both fu) same_nat _ (y, z)
        (obind (Ret (y, z)) (fun p => if same_superstate m (fst p) (snd p) then superstate_depth m stack y
          else obind (Ret (u_super m y)) (fun a => obind (Ret (u_super m z)) (fun b =>
            match a, b with
            | Some a, Some b => superstate_common_ancestor_depth m stack n a b
            | _, _ => Ret 0
            end))))); [reflexivity |].
      eapply reads_at_bind; [apply reads_at_self | intros p Hp]. injection Hp as H1 H2.
      assert (E : same_superstate m' (fst p) (snd p) = same_superstate m (fst (both fu p)) (snd (both fu p))).
      { unfold same_superstate, both. cbn. rewrite !(ls_u_disc same). reflexivity. }
      rewrite E. destruct (same_superstate m (fst (both fu p)) (snd (both fu p))).
      { apply reads_at_fst, superstate_depth_reads. }
      eapply reads_at_bind; [apply reads_at_fst, u_ask_reads | intros a Ha]. injection Ha as Ha.
      eapply reads_at_bind; [apply reads_at_snd, u_ask_reads | intros b Hb]. injection Hb as Hb.
      destruct a as [a |]; cbn [option_map] in *; [| apply (reads_at_ret (both fu) same_nat)].
      destruct b as [b |]; cbn [option_map] in *; [| apply (reads_at_ret (both fu) same_nat)].
      apply (@reads_at_via _ _ _ _ _ _ (both fu) (both fu) same_nat).
      + intros [x1 x2] [v1 v2] Hx Hv. injection Hx as X1 X2. injection Hv as V1 V2. cbn in *.
        unfold both. cbn. rewrite !(ls_u_put same), X1, X2, V1, V2.
        rewrite (le_u lend _ Ha), (le_u lend _ Hb). reflexivity.
      + apply IH.
    - apply (@reads_at_eq _ _ _ _ (both fu) same_nat _ (y, z)
        (obind (Ret (u_super m z)) (fun b =>
            match b with
            | Some b => obind (Ret (y, z)) (fun p => superstate_common_ancestor_depth m stack n (fst p) b)
            | None => Ret 0
            end))); [reflexivity |].
      eapply reads_at_bind; [apply reads_at_snd, u_ask_reads | intros b Hb]. injection Hb as Hb.
      destruct b as [b |]; cbn [option_map] in *; [| apply (reads_at_ret (both fu) same_nat)].
      eapply reads_at_bind; [apply reads_at_self | intros p Hp]. injection Hp as H1 H2.
      apply (@reads_at_via _ _ _ _ _ _ (both fu) (both fu) same_nat).
      + intros [x1 x2] [v1 v2] Hx Hv. injection Hx as X1 X2. injection Hv as V1 V2. cbn in *.
        unfold both. cbn. rewrite !(ls_u_put same), X2, V1, V2, <- H1.
        rewrite (le_u lend _ Hb). reflexivity.
      + apply IH.
    - apply (@reads_at_eq _ _ _ _ (both fu) same_nat _ (y, z)
        (obind (Ret (u_super m y)) (fun a =>
            match a with
            | Some a => obind (Ret (y, z)) (fun p => superstate_common_ancestor_depth m stack n a (snd p))
            | None => Ret 0
            end))); [reflexivity |].
      eapply reads_at_bind; [apply reads_at_fst, u_ask_reads | intros a Ha]. injection Ha as Ha.
      destruct a as [a |]; cbn [option_map] in *; [| apply (reads_at_ret (both fu) same_nat)].
      eapply reads_at_bind; [apply reads_at_self | intros p Hp]. injection Hp as H1 H2.
      apply (@reads_at_via _ _ _ _ _ _ (both fu) (both fu) same_nat).
      + intros [x1 x2] [v1 v2] Hx Hv. injection Hx as X1 X2. injection Hv as V1 V2. cbn in *.
        unfold both. cbn. rewrite !(ls_u_put same), X1, V1, V2, <- H2.
        rewrite (le_u lend _ Ha). reflexivity.
      + apply IH.
  Qed.

  Lemma state_depth_reads y : reads_at fs same_nat (state_depth_s sc stack) y (Blocking.state_depth m stack y).
  Proof.
    unfold state_depth_s, on_super.
    apply (@reads_at_eq _ _ _ _ fs same_nat _ y
      (obind (Ret (s_super m y)) (fun o => match o with
        | Some v => obind (superstate_depth m stack v) (fun d => Ret (d + 1)) | None => Ret 1 end))).
    { reflexivity. }
    eapply reads_at_bind; [apply s_ask_reads | intros o Ho]. injection Ho as Ho.
    destruct o as [v |]; cbn [option_map] in *; [| apply (reads_at_ret fs same_nat)].
    apply (@reads_at_via _ _ _ _ _ _ fs fu same_nat).
    - intros x v0 Hx Hv. rewrite (ls_s_put same), Hx, Hv. apply (le_s lend), Ho.
    - eapply reads_at_bind; [apply superstate_depth_reads | intros d _]. apply (reads_at_ret fu same_nat).
  Qed.

  Notation same_pair := (fun p : nat * nat => p).
  Lemma path_reads y z :
    reads_at (both fs) same_pair (transition_path_s sc stack) (y, z) (Blocking.transition_path m stack y z).
  Proof.
    unfold transition_path_s, Blocking.transition_path.
    set (E := obind (Blocking.state_depth m stack y) (fun ds => obind (Blocking.state_depth m stack z) (fun dt =>
       obind (Ret (s_super m y)) (fun a => obind (Ret (s_super m z)) (fun b =>
       match a, b with
       | Some a, Some b =>
           obind (superstate_common_ancestor_depth m stack (stack + stack) a b) (fun c =>
           obind (omap same_nat (checked_sub ds c)) (fun p =>
           obind (omap same_nat (checked_sub dt c)) (fun q => Ret (p, q))))
       | _, _ => Ret (ds, dt)
       end))))).
    apply (@reads_at_eq _ _ _ _ (both fs) same_pair _ (y, z)
      (obind (Ret (y, z)) (fun p => if same_state m (fst p) (snd p) then Ret (1, 1) else E))).
    { cbn [obind fst snd]. destruct (same_state m y z); [reflexivity |]. unfold E, obind, omap.
      destruct (Blocking.state_depth m stack y) as [ds |]; [| reflexivity].
      destruct (Blocking.state_depth m stack z) as [dt |]; [| reflexivity].
      destruct (s_super m y) as [a |]; [| reflexivity].
      destruct (s_super m z) as [b |]; [| reflexivity].
      destruct (superstate_common_ancestor_depth m stack (stack + stack) a b) as [c |]; [| reflexivity].
      destruct (checked_sub ds c); [| reflexivity].
      destruct (checked_sub dt c); reflexivity. }
    eapply reads_at_bind; [apply reads_at_self | intros p Hp]. injection Hp as H1 H2.
    assert (Es : same_state m' (fst p) (snd p) = same_state m (fst (both fs p)) (snd (both fs p))).
    { unfold same_state, both. cbn. rewrite !(ls_s_disc same). reflexivity. }
    rewrite Es. destruct (same_state m (fst (both fs p)) (snd (both fs p))); [apply (reads_at_ret (both fs) same_pair) |].
    unfold E.
    eapply reads_at_bind; [apply reads_at_fst, state_depth_reads | intros ds _].
    eapply reads_at_bind; [apply reads_at_snd, state_depth_reads | intros dt _].
    eapply reads_at_bind; [apply reads_at_fst, s_ask_reads | intros a Ha]. injection Ha as Ha.
    eapply reads_at_bind; [apply reads_at_snd, s_ask_reads | intros b Hb]. injection Hb as Hb.
    destruct a as [a |]; cbn [option_map] in *; [| apply (reads_at_ret (both fs) same_pair)].
    destruct b as [b |]; cbn [option_map] in *; [| apply (reads_at_ret (both fs) same_pair)].
    eapply reads_at_bind.
    { apply (@reads_at_via _ _ _ _ _ _ (both fs) (both fu) same_nat).
      - intros [x1 x2] [v1 v2] Hx Hv. injection Hx as X1 X2. injection Hv as V1 V2. cbn in *.
        unfold both. cbn. rewrite !(ls_s_put same), X1, X2, V1, V2.
        rewrite (le_s lend _ Ha), (le_s lend _ Hb). reflexivity.
      - apply common_reads. }
    intros c _.
    eapply reads_at_bind; [apply (reads_at_lift (both fs) same_nat) | intros i _].
    eapply reads_at_bind; [apply (reads_at_lift (both fs) same_nat) | intros j _].
    apply (reads_at_ret (both fs) same_pair).
  Qed.

  (** ** `Inner` *)
  Lemma sim_depth : sim fs same_nat (state_depth_s sc stack) (bind self (fun x => lift (Blocking.state_depth m stack x))).
  Proof.
    intros x sh cx. destruct (@state_depth_reads (fs x) x sh cx eq_refl) as (E1 & E2 & E3 & H).
    cbv zeta. rewrite E1, E2, E3. cbn.
    destruct H as [[H1 H2] | [Hm H]]; [left | right].
    - rewrite H1, H2. reflexivity.
    - split; [exact Hm | split; [exact H |]]. exists []. reflexivity.
  Qed.

  Definition path_m (t : State m) : comp m (State m) (nat * nat * State m) :=
    fun x sh cx => Res (omap (fun l => (l, t)) (Blocking.transition_path m stack x t)) x sh cx [].
  Lemma sim_path t : sim fs (fun p => (fst p, fs (snd p))) (path_to sc stack t) (path_m (fs t)).
  Proof.
    intros x sh cx. destruct (@path_reads (fs x) (fs t) (x, t) sh cx eq_refl) as (E1 & E2 & E3 & H).
    cbv zeta. unfold path_to, path_m.
    destruct (transition_path_s sc stack (x, t) sh cx) as [o p sh1 cx1 t1]. cbn in *. subst.
    destruct H as [[H1 H2] | [Hm H]]; [left | right].
    - injection H2 as H3 H4. rewrite <- H1, H3. destruct o; cbn; rewrite ?H4; reflexivity.
    - rewrite H. split; [exact Hm | split; [reflexivity |]]. exists []. reflexivity.
  Qed.

  Lemma sim_swap t : sim fs fs (swap_state m' t) (swap_state m (fs t)).
  Proof. intros x sh cx. left. reflexivity. Qed.

  Lemma self_run {X A} (k : X -> comp m X A) x sh cx : bind self k x sh cx = k x x sh cx.
  Proof. unfold bind, self. cbn. destruct (k x x sh cx). reflexivity. Qed.
  Lemma hook_ext {X A} h o (k k' : unit -> comp m X A) x sh cx :
    (forall sh1, k tt x sh1 cx = k' tt x sh1 cx) ->
    bind (call_hook h o) k x sh cx = bind (call_hook h o) k' x sh cx.
  Proof.
    intros H. unfold bind, call_hook. destruct (h sh) as [[[] | |] sh1]; cbn; [rewrite H |..]; reflexivity.
  Qed.
  Lemma path_run {A} t (k : nat * nat * State m -> comp m (State m) A) x sh cx :
    bind (path_m t) k x sh cx = bind (lift (Blocking.transition_path m stack x t)) (fun l => k (l, t)) x sh cx.
  Proof.
    unfold bind, path_m, lift. cbn. destruct (Blocking.transition_path m stack x t); reflexivity.
  Qed.

    Definition enter_of (md : mode) (n : nat) : comp m (State m) unit :=
      match md with BlockingMode => Blocking.state_enter m n | AwaitableMode => Awaitable.state_enter m n end.
    Definition exit_of (md : mode) (n : nat) : comp m (State m) unit :=
      match md with BlockingMode => Blocking.state_exit m n | AwaitableMode => Awaitable.state_exit m n end.
    Definition transition_of (md : mode) (t : State m) : comp m (State m) unit :=
      match md with BlockingMode => Blocking.transition m stack t | AwaitableMode => Awaitable.transition m stack t end.

    Definition transition_m (md : mode) (t : State m) : comp m (State m) unit :=
      x <- self ;;
      match md with
      | BlockingMode => before_transition m t x
      | AwaitableMode => before_transition m x t
      end ;;;
      p <- path_m t ;;
      exit_of md (fst (fst p)) ;;;
      old <- swap_state m (snd p) ;;
      enter_of md (snd (fst p)) ;;;
      new <- self ;;
      after_transition m old new.

  Section Mode.
    Variable md : mode.

    Lemma transition_m_eq t x sh cx : transition_m md t x sh cx = transition_of md t x sh cx.
    Proof.
      unfold transition_m, transition_of.
      destruct md; unfold Blocking.transition, Awaitable.transition; rewrite !self_run;
        apply hook_ext; intros sh1; rewrite path_run; reflexivity.
    Qed.

    Lemma sim_transition t : sim fs same_unit (transition_s sc stack md t) (transition_of md (fs t)).
    Proof.
      eapply sim_ext; [intros x sh cx; apply transition_m_eq |].
      unfold transition_s, transition_m.
      eapply sim_bind; [apply sim_self | intros x].
      eapply sim_bind; [destruct md; apply sim_before_transition | intros _].
      eapply sim_bind; [apply sim_path | intros p]. cbn [fst snd].
      eapply sim_bind; [unfold exit_s, exit_of; destruct md; [apply sim_bl_exit | apply sim_aw_exit] | intros _].
      eapply sim_bind; [apply sim_swap | intros old].
      eapply sim_bind; [unfold enter_s, enter_of; destruct md; [apply sim_bl_enter | apply sim_aw_enter] | intros _].
      eapply sim_bind; [apply sim_self | intros new].
      apply sim_after_transition.
    Qed.

    Lemma sim_init : sim fs same_unit (inner_init_s sc stack md) (inner_init m stack md).
    Proof.
      apply (@sim_ext _ _ _ _ fs same_unit _
        (bind (bind self (fun x => lift (Blocking.state_depth m stack x))) (enter_of md))).
      { intros x sh cx. rewrite assoc. destruct md; reflexivity. }
      eapply sim_bind; [apply sim_depth | intros n].
      unfold enter_s, enter_of; destruct md; [apply sim_bl_enter | apply sim_aw_enter].
    Qed.

    Lemma sim_inner_handle e :
      sim fs same_unit (inner_handle_s sc stack md e) (inner_handle m stack md (at_e F e)).
    Proof.
      apply (@sim_ext _ _ _ _ fs same_unit _
        (bind (match md with BlockingMode => Blocking.state_handle m stack (at_e F e)
                           | AwaitableMode => Awaitable.state_handle m stack (at_e F e) end)
          (fun r => match r with Super => ret tt | Handled => ret tt | Transition t => transition_of md t end))).
      { intros x sh cx. destruct md; reflexivity. }
      unfold inner_handle_s, handle_s.
      eapply sim_bind; [destruct md; [apply sim_bl_handle | apply sim_aw_handle] | intros r].
      destruct r as [| | t]; cbn [at_response].
      - apply (sim_ret _ same_unit).
      - apply (sim_ret _ same_unit).
      - apply sim_transition.
    Qed.

    (** ** The API *)
    Definition exec_sim (r' : outcome unit * state_machine m' * option (Ctx m') * list (obs m'))
        (r : outcome unit * state_machine m * option (Ctx m) * list (obs m)) : Prop :=
      let '(out, sm', cx', tr) := r' in
      r = (out, at_machine F sm', option_map fcx cx', fo tr) \/
      (may /\ out = Abort Panicked /\ exists rest, snd r = fo tr ++ rest).

    Lemma omap_unit (o : outcome unit) : omap same_unit o = o.
    Proof. destruct o; reflexivity. Qed.

    Lemma exec_sims o' o sm : at_op F o' o ->
      exec_sim (exec_s sc stack md o' sm) (exec stack md o (at_machine F sm)).
    Proof.
      intros Ho.
      assert (Hd : forall sm e cx, exec_sim
        (let r := dispatch_s sc stack md sm e cx in (a_out r, a_machine r, Some (a_cx r), a_tr r))
        (let r := dispatch stack md (at_machine F sm) (at_e F e) (fcx cx) in (a_out r, a_machine r, Some (a_cx r), a_tr r))).
      { intros s e cx. unfold dispatch_s, dispatch, run_inner. cbn.
        pose proof (sim_inner_handle e (state (sm_inner s)) (shared_storage (sm_inner s)) cx) as H. cbv zeta in H.
        destruct (inner_handle_s sc stack md e _ _ _) as [o1 x1 sh1 cx1 t1]. cbn in *.
        destruct H as [-> | H]; [left | right; exact H]. cbn. rewrite omap_unit. reflexivity. }
      destruct o' as [cx' | e' cx' | f' | f'], o as [cx | e cx | f | f]; cbn in Ho; try contradiction.
      - subst cx. unfold exec_s, exec, init_with_context. cbn [at_machine initialized].
        destruct (negb (initialized sm)); [| left; reflexivity].
        unfold run_inner. cbn [at_machine sm_inner shared_storage state a_out a_machine a_cx a_tr].
        pose proof (sim_init (state (sm_inner sm)) (shared_storage (sm_inner sm)) cx') as H. cbv zeta in H.
        destruct (inner_init_s sc stack md _ _ _) as [o1 x1 sh1 cx1 t1]. cbn in *.
        destruct H as [-> | H].
        + destruct o1 as [[] | w]; left; reflexivity.
        + destruct H as (Hm & -> & rest & E). right. split; [exact Hm | split; [reflexivity |]].
          exists rest. destruct (r_out (inner_init m stack md _ _ _)); exact E.
      - destruct Ho as [-> ->]. unfold exec_s, exec, handle_with_context. cbn [at_machine initialized].
        destruct (negb (initialized sm)); [| apply Hd].
        unfold run_inner. cbn [at_machine sm_inner shared_storage state a_out a_machine a_cx a_tr].
        pose proof (sim_init (state (sm_inner sm)) (shared_storage (sm_inner sm)) cx') as H. cbv zeta in H.
        destruct (inner_init_s sc stack md _ _ _) as [o1 x1 sh1 cx1 t1]. cbn in H |- *.
        destruct H as [-> | H].
        + destruct o1 as [[] | w]; [| left; reflexivity].
          specialize (Hd (StateMachine (Inner sh1 x1) true) e' cx1). cbn [at_machine sm_inner shared_storage state initialized] in Hd.
          cbn in Hd |- *. destruct (dispatch_s sc stack md _ e' cx1) as [o2 s2 c2 t2].
          destruct (dispatch stack md _ (at_e F e') (fcx cx1)) as [o3 s3 c3 t3].
          cbn in Hd |- *. destruct Hd as [Hd | (Hm & -> & rest & E)].
          * injection Hd as E1 E2 E3 E4. left. rewrite E1, E2, E3, E4, map_app. reflexivity.
          * right. split; [exact Hm | split; [reflexivity |]]. exists rest. cbn. rewrite E, map_app, app_assoc. reflexivity.
        + destruct H as (Hm & -> & rest & E). right. split; [exact Hm | split; [reflexivity |]].
          destruct (r_out (inner_init m stack md _ _ _)); cbn; rewrite E; [| exists rest; reflexivity].
          eexists. rewrite <- app_assoc. reflexivity.
      - left. cbn. unfold inner_mut, at_machine. cbn. rewrite Ho. reflexivity.
      - left. cbn. unfold state_mut, at_machine. cbn. rewrite Ho. reflexivity.
    Qed.
  End Mode.
End Sim.

Section History.
  Variables m' m : machine.
  Variable F : look m' m.
  Variable sc : superstates m'.
  Hypothesis same : looks_same F sc.
  Hypothesis lend : lends m.
  Variable stack : nat.
  Variable md : mode.

  Lemma exec_panics o' o sm out sm' cx tr :
    at_op F o' o -> exec_s sc stack md o' sm = (out, sm', cx, tr) ->
    exec stack md o (at_machine F sm) = (out, at_machine F sm', option_map (at_cx F) cx, map (at_obs F) tr) \/
    out = Abort Panicked /\
    exists rest, snd (exec stack md o (at_machine F sm)) = map (at_obs F) tr ++ rest.
  Proof.
    intros Ho E.
    pose proof (@exec_sims m' m F sc same lend stack True (fun _ _ _ => I) (fun _ _ _ => I) md o' o sm Ho) as H.
    unfold exec_sim in H. rewrite E in H. destruct H as [H | (_ & H)]; [left; exact H | right; exact H].
  Qed.

  Lemma exec_same : never_panics sc -> forall o' o sm out sm' cx tr,
    at_op F o' o -> exec_s sc stack md o' sm = (out, sm', cx, tr) ->
    exec stack md o (at_machine F sm) = (out, at_machine F sm', option_map (at_cx F) cx, map (at_obs F) tr).
  Proof.
    intros [N1 N2] o' o sm out sm' cx tr Ho E.
    assert (M1 : forall x x', ask_s sc x = (None, x') -> False)
      by (intros x x' H; apply (N1 x); rewrite H; reflexivity).
    assert (M2 : forall x x', ask_u sc x = (None, x') -> False)
      by (intros x x' H; apply (N2 x); rewrite H; reflexivity).
    pose proof (@exec_sims m' m F sc same lend stack False M1 M2 md o' o sm Ho) as H.
    unfold exec_sim in H. rewrite E in H. destruct H as [H | ([] & _)]. exact H.
  Qed.

  Lemma history_same : never_panics sc -> forall ops' ops sm cs sm',
    Forall2 (at_op F) ops' ops -> exec_all_s sc stack md ops' sm = (cs, sm') ->
    exec_all stack md ops (at_machine F sm) = (map (at_called F) cs, at_machine F sm').
  Proof.
    intros N ops' ops sm cs sm' Ho. revert sm cs sm'.
    induction Ho as [| o' o ops' ops Ho Hos IH]; intros sm cs sm'; cbn.
    - intros [= <- <-]. reflexivity.
    - destruct (exec_s sc stack md o' sm) as [[[out s1] cx] tr] eqn:E.
      rewrite (exec_same N _ _ _ Ho E).
      destruct (exec_all_s sc stack md ops' s1) as [cs1 s2] eqn:E2. intros [= <- <-].
      rewrite (IH _ _ _ E2). reflexivity.
  Qed.
End History.

(** Initialisation only enters. *)
Section Again.
  Variable m : machine.
  Variable sc : superstates m.
  Variable stack : nat.
  Variable md : mode.

  Definition entering {X A} (c : comp m X A) : Prop :=
    forall x sh cx, Forall (fun o : obs m => exists n, o = OEnter n) (r_tr (c x sh cx)).
  Lemma en_ret {X A} (a : A) : entering (ret (m := m) (X := X) a).
  Proof. intros x sh cx. constructor. Qed.
  Lemma en_abort {X A} w : entering (abort (m := m) (X := X) (A := A) w).
  Proof. intros x sh cx. constructor. Qed.
  Lemma en_bind {X A B} (c : comp m X A) (k : A -> comp m X B) :
    entering c -> (forall a, entering (k a)) -> entering (bind c k).
  Proof.
    intros Hc Hk x sh cx. unfold bind. specialize (Hc x sh cx).
    destruct (c x sh cx) as [[a | w] x1 s1 c1 t1]; cbn in *; [| exact Hc].
    apply Forall_app. split; [exact Hc | apply Hk].
  Qed.
  Lemma en_via {X Y A} (put : X -> Y -> X) y (c : comp m Y A) : entering c -> entering (via put y c).
  Proof. intros Hc x sh cx. unfold via. cbn. apply Hc. Qed.
  Lemma en_ask {X} (f : X -> option (option (Sup m)) * X) : entering (ask m f).
  Proof. intros x sh cx. unfold ask. destruct (f x) as [[o |] x']; constructor. Qed.
  Lemma en_on_super {X A} f (put : X -> Sup m -> X) (c : comp m (Sup m) A) d :
    entering c -> entering d -> entering (on_super (m:=m) f put c d).
  Proof.
    intros Hc Hd. apply en_bind; [apply en_ask |]. intros [v |]; [apply en_via; exact Hc | exact Hd].
  Qed.
  Lemma en_depth n : entering (superstate_depth_s sc n).
  Proof.
    induction n as [| n IH]; [apply en_abort |].
    apply en_on_super; [apply en_bind; [exact IH | intros; apply en_ret] | apply en_ret].
  Qed.
  Lemma en_u_entry : entering (u_call_entry m).
  Proof.
    intros x sh cx. unfold u_call_entry, call_action. destruct (u_entry m x sh cx) as [[[[a | |] x'] sh'] cx'];
      cbn; constructor; eauto.
  Qed.
  Lemma en_s_entry : entering (s_call_entry m).
  Proof.
    intros x sh cx. unfold s_call_entry, call_action. destruct (s_entry m x sh cx) as [[[[a | |] x'] sh'] cx'];
      cbn; constructor; eauto.
  Qed.
  Lemma en_bl_up l : entering (superstate_enter_s sc l).
  Proof.
    induction l as [| l IH]; [apply en_ret |]. destruct l; [apply en_u_entry |].
    apply en_bind; [apply en_on_super; [exact IH | apply en_ret] | intros; apply en_u_entry].
  Qed.
  Lemma en_climb n : entering (climb_entry_s sc n).
  Proof.
    induction n as [| n IH]; [apply en_u_entry |]. apply en_on_super; [exact IH | apply en_u_entry].
  Qed.
  Lemma en_aw l : entering (aw_enter_s sc l).
  Proof.
    induction l as [| l IH]; [apply en_ret |]. destruct l; [apply en_s_entry |].
    apply en_bind; [apply en_on_super; [apply en_climb | apply en_ret] | intros; exact IH].
  Qed.
  Lemma en_init : entering (inner_init_s sc stack md).
  Proof.
    apply en_bind.
    - apply en_on_super; [apply en_bind; [apply en_depth | intros; apply en_ret] | apply en_ret].
    - intros l. unfold enter_s. destruct md; [| apply en_aw].
      destruct l as [| [| l]]; [apply en_ret | apply en_s_entry |].
      apply en_bind; [apply en_on_super; [apply en_bl_up | apply en_ret] | intros; apply en_s_entry].
  Qed.

  Lemma init_again o sm out sm' cx tr :
    exec_s sc stack md o sm = (out, sm', cx, tr) ->
    (initialized sm = true -> initialized sm' = true) /\
    ((exists c, o = OpInit c) -> (initialized sm' = true <-> initialized sm = true \/ out = Ret tt)) /\
    ((exists e c, o = OpHandle e c) ->
       (out = Ret tt -> initialized sm' = true) /\
       (initialized sm' = false ->
          (exists w, out = Abort w) /\ Forall (fun o : obs m => exists n, o = OEnter n) tr)) /\
    ((exists c, o = OpInit c) -> Forall (fun o : obs m => exists n, o = OEnter n) tr).
  Proof.
    unfold exec_s. intros H.
    destruct o as [c | e c | f | f].
    - pose proof (en_init (state (sm_inner sm)) (shared_storage (sm_inner sm)) c) as He.
      destruct (initialized sm) eqn:Ei; cbn [negb] in H.
      + injection H as <- <- _ <-. rewrite Ei.
        split; [reflexivity |]. split; [split; auto |]. split; [intros (? & ? & [=]) | constructor].
      + revert H. unfold run_inner.
        destruct (inner_init_s sc stack md (state (sm_inner sm)) (shared_storage (sm_inner sm)) c)
          as [[[] | w] x1 s1 c1 t1]; cbn in He |- *; intros [= <- <- _ <-]; cbn;
          (split; [discriminate || reflexivity |]); (split; [| split; [intros (? & ? & [=]) | intros; exact He]]).
        * split; auto.
        * split; [discriminate | intros [[=] | [=]]].
    - pose proof (en_init (state (sm_inner sm)) (shared_storage (sm_inner sm)) c) as He.
      destruct (initialized sm) eqn:Ei; cbn [negb] in H.
      + unfold dispatch_s in H. injection H as _ <- _ _. cbn. rewrite Ei.
        split; [reflexivity |]. split; [intros (? & [=]) |]. split; [| intros (? & [=])].
        intros _. split; [reflexivity | discriminate].
      + revert H. unfold run_inner at 1.
        destruct (inner_init_s sc stack md (state (sm_inner sm)) (shared_storage (sm_inner sm)) c)
          as [[[] | w] x1 s1 c1 t1] eqn:Er; cbn in He.
        * unfold run_inner at 1. rewrite Er. cbn. unfold dispatch_s. intros [= _ <- _ _]. cbn.
          split; [reflexivity |]. split; [intros (? & [=]) |]. split; [| intros (? & [=])].
          intros _. split; [reflexivity | discriminate].
        * cbn. unfold run_inner. rewrite Er. intros [= <- <- _ <-]. cbn.
          split; [discriminate |]. split; [intros (? & [=]) |]. split; [| intros (? & [=])].
          intros _. split; [discriminate | intros _; split; [eauto | exact He]].
    - injection H as <- <- _ <-. cbn.
      split; [auto |]. split; [intros (? & [=]) |]. split; [intros (? & ? & [=]) | intros (? & [=])].
    - injection H as <- <- _ <-. cbn.
      split; [auto |]. split; [intros (? & [=]) |]. split; [intros (? & ? & [=]) | intros (? & [=])].
  Qed.
End Again.
