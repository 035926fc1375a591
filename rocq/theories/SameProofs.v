(** SameProofs.v — blocking and awaitable machines compute the same. *)

From Coq Require Import List Bool Arith Lia.
From Verif Require Import Machine Blocking Awaitable Api Spec TripleProofs ShapeProofs
  DispatchProofs TransitionProofs ApiProofs ThreadProofs.
Import ListNotations.
Set Implicit Arguments.

Section Same.
  Variable h : hierarchy.
  Variable m : machine.
  Hypothesis Hf : follows h m.
  Hypothesis Hs : stable m.
  Hypothesis Hv : faithful_views m.

  (** *** Algebra of computations *)

  Definition eqc {X A} (P : X -> Prop) (c c' : comp m X A) : Prop :=
    forall x sh cx, P x -> c x sh cx = c' x sh cx.
  Definition keeps {X A} (P : X -> Prop) (c : comp m X A) : Prop :=
    forall x sh cx, P x -> P (r_self (c x sh cx)).

  Lemma eqc_refl {X A} P (c : comp m X A) : eqc P c c.
  Proof. intros x sh cx _. reflexivity. Qed.
  Lemma eqc_trans {X A} P (c1 c2 c3 : comp m X A) : eqc P c1 c2 -> eqc P c2 c3 -> eqc P c1 c3.
  Proof. intros H1 H2 x sh cx HP. rewrite H1 by exact HP. now apply H2. Qed.
  Lemma eqc_sym {X A} P (c1 c2 : comp m X A) : eqc P c1 c2 -> eqc P c2 c1.
  Proof. intros H x sh cx HP. symmetry. now apply H. Qed.

  Lemma eqc_bind {X A B} P (c c' : comp m X A) (k k' : A -> comp m X B) :
    eqc P c c' -> keeps P c -> (forall a, eqc P (k a) (k' a)) -> eqc P (bind c k) (bind c' k').
  Proof.
    intros Hc Hk Hb x sh cx HP. unfold bind. rewrite <- (Hc x sh cx HP).
    destruct (r_out (c x sh cx)) as [a|w]; [|reflexivity].
    rewrite (Hb a) by (now apply Hk). reflexivity.
  Qed.

  Lemma bind_assoc {X A B C} P (c : comp m X A) (k : A -> comp m X B) (j : B -> comp m X C) :
    eqc P (bind (bind c k) j) (bind c (fun a => bind (k a) j)).
  Proof.
    intros x sh cx _. unfold bind. destruct (c x sh cx) as [[a|w] x1 sh1 cx1 t1]; simpl; [|reflexivity].
    destruct (k a x1 sh1 cx1) as [[b|w] x2 sh2 cx2 t2]; simpl; [|reflexivity].
    now rewrite app_assoc.
  Qed.

  Lemma bind_ret_tt {X B} P (c : comp m X B) : eqc P (bind (ret tt) (fun _ => c)) c.
  Proof. intros x sh cx _. unfold bind, ret. simpl. now destruct (c x sh cx). Qed.

  Lemma threads_keeps {X A} T P (c : comp m X A) : threads T P c -> keeps P c.
  Proof. intros H x sh cx HP. now destruct (H x sh cx HP). Qed.

  Lemma keeps_bind {X A B} P (c : comp m X A) (k : A -> comp m X B) :
    keeps P c -> (forall a, keeps P (k a)) -> keeps P (bind c k).
  Proof.
    intros Hc Hk x sh cx HP. unfold bind. specialize (Hc x sh cx HP).
    destruct (r_out (c x sh cx)); simpl; auto. now apply Hk.
  Qed.

  (** *** Running on the view one level up *)

  Definition up {A} (d : comp m (Sup m) A) (c : comp m (Sup m) A) : comp m (Sup m) A :=
    bind self (fun u => match u_super m u with Some v => via (u_put m) v c | None => d end).
  Definition lup {A} (d : comp m (State m) A) (c : comp m (Sup m) A) : comp m (State m) A :=
    bind self (fun x => match s_super m x with Some v => via (s_put m) v c | None => d end).

  Lemma up_some {A} (d c : comp m (Sup m) A) u v sh cx :
    u_super m u = Some v -> up d c u sh cx = via (u_put m) v c u sh cx.
  Proof. intros E. unfold up. now rewrite self_bind_run, E. Qed.
  Lemma lup_some {A} (d : comp m (State m) A) c x v sh cx :
    s_super m x = Some v -> lup d c x sh cx = via (s_put m) v c x sh cx.
  Proof. intros E. unfold lup. now rewrite self_bind_run, E. Qed.

  Arguments up_some {A} d c {u v sh cx} _.
  Arguments lup_some {A} d c {x v sh cx} _.

  Lemma sup_at k k' u : sup_parent h k = Some k' -> u_disc m u = k ->
    exists v, u_super m u = Some v /\ u_disc m v = k'.
  Proof.
    intros Hp Hu. pose proof (fo_sup Hf u) as F. rewrite Hu, Hp in F.
    destruct (u_super m u) as [v|]; [|discriminate]. inversion F. eauto.
  Qed.
  Lemma leaf_at k k' x : leaf_parent h k = Some k' -> s_disc m x = k ->
    exists v, s_super m x = Some v /\ u_disc m v = k'.
  Proof.
    intros Hp Hu. pose proof (fo_leaf Hf x) as F. rewrite Hu, Hp in F.
    destruct (s_super m x) as [v|]; [|discriminate]. inversion F. eauto.
  Qed.

  Arguments sup_at {k k' u} _ _.
  Arguments leaf_at {k k' x} _ _.

  Lemma up_bind {A B} k k' (d0 : comp m (Sup m) B) (d1 : comp m (Sup m) A) d2
      (c1 : comp m (Sup m) A) (c2 : A -> comp m (Sup m) B) :
    sup_parent h k = Some k' -> keeps (at_disc m k') c1 ->
    (forall a, keeps (at_disc m k') (c2 a)) ->
    eqc (at_disc m k) (up d0 (bind c1 c2)) (bind (up d1 c1) (fun a => up (d2 a) (c2 a))).
  Proof.
    intros Hp K1 K2 u sh cx Hu. unfold at_disc in *.
    destruct (sup_at Hp Hu) as (v & E & Ev).
    rewrite (up_some _ _ E). unfold bind. rewrite (up_some d1 c1 E). unfold via.
    specialize (K1 v sh cx Ev).
    destruct (c1 v sh cx) as [[a|w] v1 sh1 cx1 t1] eqn:E1; cbn [r_out r_self r_sh r_cx r_tr] in *;
      [|reflexivity].
    assert (Ed1 : u_disc m v1 = u_disc m v) by congruence.
    rewrite (up_some _ _ (fv_u_put_get Hv _ _ E Ed1)). unfold via.
    cbn [r_out r_self r_sh r_cx r_tr]. specialize (K2 a v1 sh1 cx1 K1).
    rewrite (fv_u_put_put Hv _ _ _ E Ed1); [reflexivity|congruence].
  Qed.

  Lemma lup_bind {A B} k k' (d0 : comp m (State m) B) (d1 : comp m (State m) A) d2
      (c1 : comp m (Sup m) A) (c2 : A -> comp m (Sup m) B) :
    leaf_parent h k = Some k' -> keeps (at_disc m k') c1 ->
    (forall a, keeps (at_disc m k') (c2 a)) ->
    eqc (at_leaf m k) (lup d0 (bind c1 c2)) (bind (lup d1 c1) (fun a => lup (d2 a) (c2 a))).
  Proof.
    intros Hp K1 K2 u sh cx Hu. unfold at_disc, at_leaf in *.
    destruct (leaf_at Hp Hu) as (v & E & Ev).
    rewrite (lup_some _ _ E). unfold bind. rewrite (lup_some d1 c1 E). unfold via.
    specialize (K1 v sh cx Ev).
    destruct (c1 v sh cx) as [[a|w] v1 sh1 cx1 t1] eqn:E1; cbn [r_out r_self r_sh r_cx r_tr] in *;
      [|reflexivity].
    assert (Ed1 : u_disc m v1 = u_disc m v) by congruence.
    rewrite (lup_some _ _ (fv_s_put_get Hv _ _ E Ed1)). unfold via.
    cbn [r_out r_self r_sh r_cx r_tr]. specialize (K2 a v1 sh1 cx1 K1).
    rewrite (fv_s_put_put Hv _ _ _ E Ed1); [reflexivity|congruence].
  Qed.

  Lemma keeps_up {A} k k' (d c : comp m (Sup m) A) :
    sup_parent h k = Some k' -> keeps (at_disc m k') c -> keeps (at_disc m k) (up d c).
  Proof.
    intros Hp K u sh cx Hu. destruct (sup_at Hp Hu) as (v & E & Ev).
    rewrite (up_some _ _ E). unfold via, at_disc. simpl. rewrite <- Hu.
    eapply (fo_u_put Hf); [exact E|]. rewrite Ev. now apply K.
  Qed.
  Lemma keeps_lup {A} k k' (d : comp m (State m) A) c :
    leaf_parent h k = Some k' -> keeps (at_disc m k') c -> keeps (at_leaf m k) (lup d c).
  Proof.
    intros Hp K u sh cx Hu. destruct (leaf_at Hp Hu) as (v & E & Ev).
    rewrite (lup_some _ _ E). unfold via, at_leaf. simpl. rewrite <- Hu.
    eapply (fo_s_put Hf); [exact E|]. rewrite Ev. now apply K.
  Qed.

  Lemma up_cong {A} k k' (d d' : comp m (Sup m) A) c c' :
    sup_parent h k = Some k' -> eqc (at_disc m k') c c' -> eqc (at_disc m k) (up d c) (up d' c').
  Proof.
    intros Hp Hc u sh cx Hu. unfold at_disc in *. unfold up. rewrite !self_bind_run.
    pose proof (fo_sup Hf u) as F. rewrite Hu, Hp in F.
    destruct (u_super m u) as [v|]; [|discriminate]. inversion F. unfold via. now rewrite Hc.
  Qed.
  Lemma lup_cong {A} k k' (d d' : comp m (State m) A) c c' :
    leaf_parent h k = Some k' -> eqc (at_disc m k') c c' -> eqc (at_leaf m k) (lup d c) (lup d' c').
  Proof.
    intros Hp Hc u sh cx Hu. unfold at_disc, at_leaf in *. unfold lup. rewrite !self_bind_run.
    pose proof (fo_leaf Hf u) as F. rewrite Hu, Hp in F.
    destruct (s_super m u) as [v|]; [|discriminate]. inversion F. unfold via. now rewrite Hc.
  Qed.

  Lemma up_ret k : eqc (at_disc m k) (up (ret tt) (ret tt)) (ret tt).
  Proof.
    intros u sh cx _. unfold up. rewrite self_bind_run. destruct (u_super m u) as [v|] eqn:E; [|reflexivity].
    unfold via, ret. simpl. now rewrite (fv_u_get_put Hv _ E).
  Qed.
  Lemma lup_ret k : eqc (at_leaf m k) (lup (ret tt) (ret tt)) (ret tt).
  Proof.
    intros u sh cx _. unfold lup. rewrite self_bind_run. destruct (s_super m u) as [v|] eqn:E; [|reflexivity].
    unfold via, ret. simpl. now rewrite (fv_s_get_put Hv _ E).
  Qed.

  (** *** Entering *)

  (** Entry actions from the [n]-th superstate down to this one. *)
  Fixpoint flat (n : nat) : comp m (Sup m) unit :=
    match n with
    | 0 => ret tt
    | S n' => bind (climb_entry m n') (fun _ => flat n')
    end.

  Lemma climb_keeps n k : keeps (at_disc m k) (climb_entry m n).
  Proof. eapply threads_keeps, climb_entry_threads; eauto. Qed.
  Lemma flat_keeps n k : keeps (at_disc m k) (flat n).
  Proof.
    induction n as [|n IH]; simpl.
    - intros u sh cx H. exact H.
    - apply keeps_bind; [apply climb_keeps|]. auto.
  Qed.
  Lemma enter_keeps n k : keeps (at_disc m k) (superstate_enter m n).
  Proof. eapply threads_keeps, superstate_enter_threads; eauto. Qed.

  Lemma bind_ret_r {X} P (c : comp m X unit) : eqc P (bind c (fun _ => ret tt)) c.
  Proof.
    intros x sh cx _. unfold bind, ret. destruct (c x sh cx) as [[[]|w] ? ? ? ?]; simpl;
      rewrite ?app_nil_r; reflexivity.
  Qed.

  (** [up (flat n) ;; entry] is [flat (S n)]. *)
  Lemma up_flat n : forall k k' d, sup_parent h k = Some k' ->
    eqc (at_disc m k) (bind (up d (flat n)) (fun _ => u_call_entry m)) (flat (S n)).
  Proof.
    induction n as [|n IH]; intros k k' d Hp.
    - cbn [flat climb_entry].
      eapply eqc_trans; [|apply eqc_sym, bind_ret_r].
      eapply eqc_trans; [|apply bind_ret_tt].
      apply eqc_bind; [|eapply keeps_up; eauto; apply (flat_keeps 0)|intros; apply eqc_refl].
      eapply eqc_trans; [|apply up_ret]. eapply up_cong; eauto using eqc_refl.
    - eapply eqc_trans.
      { apply eqc_bind; [|eapply keeps_up; eauto using flat_keeps|intros a; apply eqc_refl].
        cbn [flat]. eapply up_bind with (d1 := u_call_entry m) (d2 := fun _ => ret tt);
          eauto using climb_keeps, flat_keeps. }
      eapply eqc_trans; [apply bind_assoc|].
      change (flat (S (S n))) with (bind (climb_entry m (S n)) (fun _ => flat (S n))).
      apply eqc_bind.
      + apply eqc_refl.
      + eapply keeps_up; eauto using climb_keeps.
      + intros _. eapply IH; eauto.
  Qed.

  Lemma enter_flat n : forall k l, chain h (Some k) l -> S n <= length l ->
    eqc (at_disc m k) (superstate_enter m (S n)) (flat (S n)).
  Proof.
    induction n as [|n IH]; intros k l Hc Hn.
    - cbn [flat]. eapply eqc_trans; [|apply eqc_sym, bind_ret_r]. apply eqc_refl.
    - inversion Hc as [|? l' Hc' E1 E2]; subst. simpl in Hn.
      destruct (sup_parent h k) as [k'|] eqn:Hp; [|inversion Hc'; subst; simpl in Hn; lia].
      eapply eqc_trans; [|eapply (@up_flat (S n) k k' (ret tt)); eauto].
      intros u sh cx Hu.
      change (superstate_enter m (S (S n)) u sh cx) with
        (bind self (fun u0 => bind (match u_super m u0 with
                                     | Some v => via (u_put m) v (superstate_enter m (S n))
                                     | None => ret tt end) (fun _ => u_call_entry m)) u sh cx).
      rewrite self_bind_assoc.
      change (bind self (fun u0 => match u_super m u0 with
                                     | Some v => via (u_put m) v (superstate_enter m (S n))
                                     | None => ret tt end))
        with (up (ret tt) (superstate_enter m (S n))).
      revert Hu. revert u sh cx.
      change (eqc (at_disc m k) (bind (up (ret tt) (superstate_enter m (S n))) (fun _ => u_call_entry m))
                (bind (up (ret tt) (flat (S n))) (fun _ => u_call_entry m))).
      apply eqc_bind.
      + eapply up_cong; eauto. eapply IH; eauto. lia.
      + eapply keeps_up; eauto using enter_keeps.
      + intros _. apply eqc_refl.
  Qed.

  Lemma aw_enter_flat n : forall k l, chain h (leaf_parent h k) l -> n <= length l ->
    eqc (at_leaf m k) (Awaitable.state_enter m (S n))
                      (bind (lup (ret tt) (flat n)) (fun _ => s_call_entry m)).
  Proof.
    induction n as [|n IH]; intros k l Hc Hn.
    - cbn [flat]. apply eqc_sym. eapply eqc_trans; [|apply bind_ret_tt].
      apply eqc_bind; [apply lup_ret| |intros; apply eqc_refl].
      intros x sh cx Hx. rewrite (@lup_ret k x sh cx Hx). exact Hx.
    - destruct (leaf_parent h k) as [k'|] eqn:Hp; [|inversion Hc; subst; simpl in Hn; lia].
      eapply eqc_trans with (c2 := bind (lup (ret tt) (climb_entry m n)) (fun _ => Awaitable.state_enter m (S n))).
      { intros x sh cx Hx.
        change (Awaitable.state_enter m (S (S n)) x sh cx) with
          (bind self (fun x0 => bind (match s_super m x0 with
             | Some v => via (s_put m) v (climb_entry m n)
             | None => ret tt end) (fun _ => Awaitable.state_enter m (S n))) x sh cx).
        rewrite self_bind_assoc. reflexivity. }
      eapply eqc_trans.
      { apply eqc_bind with (k' := fun _ => bind (lup (ret tt) (flat n)) (fun _ => s_call_entry m));
          [apply eqc_refl|eapply keeps_lup; eauto using climb_keeps|].
        intros _. eapply (IH k l); [rewrite Hp; exact Hc|lia]. }
      eapply eqc_trans; [apply eqc_sym, bind_assoc|].
      apply eqc_bind; [| |intros; apply eqc_refl].
      + apply eqc_sym. cbn [flat]. eapply lup_bind with (d2 := fun _ => ret tt); eauto using climb_keeps, flat_keeps.
      + apply keeps_bind; [|intros _]; eapply keeps_lup; eauto using climb_keeps, flat_keeps.
  Qed.

  Lemma enter_same n k l : chain h (leaf_parent h k) l -> n <= S (length l) ->
    eqc (at_leaf m k) (Blocking.state_enter m n) (Awaitable.state_enter m n).
  Proof.
    intros Hc Hn. destruct n as [|n]; [apply eqc_refl|].
    assert (Hn' : n <= length l) by lia.
    destruct n as [|n].
    - apply eqc_refl.
    - eapply eqc_trans; [|apply eqc_sym; eapply aw_enter_flat; eauto].
      destruct (leaf_parent h k) as [k'|] eqn:Hp; [|inversion Hc; subst; simpl in Hn; lia].
      intros x sh cx Hx. cbn [Blocking.state_enter]. rewrite self_bind_assoc.
      change (bind self (fun u0 => match s_super m u0 with
                                     | Some v => via (s_put m) v (superstate_enter m (S n))
                                     | None => ret tt end))
        with (lup (ret tt) (superstate_enter m (S n))).
      revert Hx. revert x sh cx.
      change (eqc (at_leaf m k) (bind (lup (ret tt) (superstate_enter m (S n))) (fun _ => s_call_entry m))
                (bind (lup (ret tt) (flat (S n))) (fun _ => s_call_entry m))).
      apply eqc_bind; [|eapply keeps_lup; eauto using enter_keeps|intros; apply eqc_refl].
      eapply lup_cong; eauto. eapply enter_flat; eauto.
  Qed.

  (** *** Exiting *)

  Lemma exit_keeps n k : keeps (at_disc m k) (superstate_exit m n).
  Proof. eapply threads_keeps, superstate_exit_threads; eauto. Qed.

  Lemma exit_loop_same n : forall u sh cx, superstate_exit m n u sh cx = exit_loop m n u sh cx.
  Proof.
    induction n as [|n IH]; intros u sh cx; [reflexivity|].
    destruct n as [|n].
    - cbn [superstate_exit exit_loop].
      unfold bind. destruct (u_call_exit m u sh cx) as [[a|w] u1 sh1 cx1 t1]; simpl; [|reflexivity].
      destruct (u_super m u1) as [v|] eqn:E; simpl; destruct a; rewrite ?app_nil_r; [|reflexivity].
      now rewrite (fv_u_get_put Hv _ E).
    - change (superstate_exit m (S (S n)) u sh cx) with
        (bind (u_call_exit m) (fun _ => up (ret tt) (superstate_exit m (S n))) u sh cx).
      change (exit_loop m (S (S n)) u sh cx) with
        (bind (u_call_exit m) (fun _ => up (ret tt) (exit_loop m (S n))) u sh cx).
      unfold bind. destruct (u_call_exit m u sh cx) as [[a|w] u1 sh1 cx1 t1];
        cbn [r_out r_self r_sh r_cx r_tr]; [|reflexivity].
      replace (up (ret tt) (superstate_exit m (S n)) u1 sh1 cx1)
        with (up (ret tt) (exit_loop m (S n)) u1 sh1 cx1); [reflexivity|].
      unfold up. rewrite !self_bind_run. destruct (u_super m u1) as [v|]; [|reflexivity].
      unfold via. now rewrite IH.
  Qed.

  Lemma exit_same n x sh cx : Blocking.state_exit m n x sh cx = Awaitable.state_exit m n x sh cx.
  Proof.
    unfold Blocking.state_exit, Awaitable.state_exit. destruct n as [|[|n]]; cbn [Nat.leb Nat.sub].
    - rewrite bind_ret_tt with (P := fun _ => True) by exact I. rewrite self_bind_run.
      destruct (s_super m x) as [v|] eqn:E; [|reflexivity].
      unfold via, exit_loop, ret. simpl. now rewrite (fv_s_get_put Hv _ E).
    - unfold bind. destruct (s_call_exit m x sh cx) as [[a|w] u1 sh1 cx1 t1]; simpl; [|reflexivity].
      destruct (s_super m u1) as [v|] eqn:E; simpl; destruct a; rewrite ?app_nil_r; [|reflexivity].
      now rewrite (fv_s_get_put Hv _ E).
    - unfold bind. destruct (s_call_exit m x sh cx) as [[a|w] u1 sh1 cx1 t1];
        cbn [r_out r_self r_sh r_cx r_tr self app]; [|reflexivity].
      destruct (s_super m u1) as [v|] eqn:E; [|reflexivity].
      unfold via. now rewrite <- exit_loop_same.
  Qed.

  Variable stack : nat.
  Hypothesis Hh : height_at_most stack h.

  Lemma init_same x sh cx :
    inner_init m stack BlockingMode x sh cx = inner_init m stack AwaitableMode x sh cx.
  Proof.
    rewrite !mode_init_eq.
    destruct (height_chain (leaf_parent h (s_disc m x)) Hh) as (l & Hc & Hl).
    rewrite (state_depth_ok Hf Hh _ Hc), !bind_lift_run.
    apply (@enter_same (S (length l)) (s_disc m x) l); auto. reflexivity.
  Qed.

  (** *** Dispatch, with hooks that do nothing *)

  Hypothesis Hq : quiet m.

  (** Related results, same data and unhooked log. *)
  Definition alike {X A} (R : A -> A -> Prop) (r r' : res m X A) : Prop :=
    match r_out r, r_out r' with
    | Ret a, Ret b => R a b
    | Abort w, Abort w' => w = w'
    | _, _ => False
    end /\
    r_self r = r_self r' /\ r_sh r = r_sh r' /\ r_cx r = r_cx r' /\
    unhooked (r_tr r) = unhooked (r_tr r').

  (** `Super` and `Handled` mean the same to the caller. *)
  Definition same_move (a b : response (State m)) : Prop :=
    forall t, a = Transition t <-> b = Transition t.

  Lemma unhooked_app (t1 t2 : list (obs m)) : unhooked (t1 ++ t2) = unhooked t1 ++ unhooked t2.
  Proof. apply filter_app. Qed.

  Lemma alike_eq {X A} (R : A -> A -> Prop) (r r' : res m X A) :
    (forall a, R a a) -> r = r' -> alike R r r'.
  Proof. intros HR ->. repeat split; destruct (r_out r'); auto. Qed.

  Lemma same_move_refl a : same_move a a.
  Proof. intros t. reflexivity. Qed.

  Lemma alike_bind {X A B} (R : A -> A -> Prop) (R' : B -> B -> Prop) (c c' : comp m X A)
      (k k' : A -> comp m X B) x sh cx :
    alike R (c x sh cx) (c' x sh cx) ->
    (forall a b y s z, R a b -> alike R' (k a y s z) (k' b y s z)) ->
    alike R' (bind c k x sh cx) (bind c' k' x sh cx).
  Proof.
    intros (H1 & H2 & H3 & H4 & H5) Hk. unfold bind.
    destruct (c x sh cx) as [[a|w] x1 sh1 cx1 t1], (c' x sh cx) as [[b|w'] x1' sh1' cx1' t1'];
      simpl in *; try tauto; subst.
    - destruct (Hk a b x1' sh1' cx1' H1) as (G1 & G2 & G3 & G4 & G5).
      unfold alike. cbn [r_out r_self r_sh r_cx r_tr]. rewrite !unhooked_app, H5, G5. auto.
    - repeat split; auto.
  Qed.

  Lemma before_dispatch_quiet {X} n e (x : X) sh cx :
    before_dispatch m n e x sh cx = Res (Ret tt) x sh cx [OBeforeDispatch n e].
  Proof. unfold before_dispatch, call_hook. now rewrite (q_before_dispatch Hq). Qed.
  Lemma after_dispatch_quiet {X} n e (x : X) sh cx :
    after_dispatch m n e x sh cx = Res (Ret tt) x sh cx [OAfterDispatch n e].
  Proof. unfold after_dispatch, call_hook. now rewrite (q_after_dispatch Hq). Qed.
  Lemma before_transition_quiet {X} a b (x : X) sh cx :
    before_transition m a b x sh cx = Res (Ret tt) x sh cx [OBeforeTransition a b].
  Proof. unfold before_transition, call_hook. now rewrite (q_before_transition Hq). Qed.

  (** Adding a quiet hook changes nothing. *)
  Lemma drop_before {X A} (R : A -> A -> Prop) n e (k : unit -> comp m X A) r x sh cx :
    alike R r (k tt x sh cx) -> alike R r (bind (before_dispatch m n e) k x sh cx).
  Proof.
    intros (H1 & H2 & H3 & H4 & H5). unfold bind. rewrite before_dispatch_quiet.
    cbn [r_out r_self r_sh r_cx r_tr]. unfold alike. cbn [r_out r_self r_sh r_cx r_tr]. auto.
  Qed.
  Lemma drop_after {X A} (R : A -> A -> Prop) n e (k : unit -> comp m X A) r x sh cx :
    alike R r (k tt x sh cx) -> alike R r (bind (after_dispatch m n e) k x sh cx).
  Proof.
    intros (H1 & H2 & H3 & H4 & H5). unfold bind. rewrite after_dispatch_quiet.
    cbn [r_out r_self r_sh r_cx r_tr]. unfold alike. cbn [r_out r_self r_sh r_cx r_tr]. auto.
  Qed.
  Lemma drop_before_l {X A} (R : A -> A -> Prop) n e (k : unit -> comp m X A) r x sh cx :
    alike R (k tt x sh cx) r -> alike R (bind (before_dispatch m n e) k x sh cx) r.
  Proof.
    intros (H1 & H2 & H3 & H4 & H5). unfold bind. rewrite before_dispatch_quiet.
    cbn [r_out r_self r_sh r_cx r_tr]. unfold alike. cbn [r_out r_self r_sh r_cx r_tr]. auto.
  Qed.
  Lemma drop_after_l {X A} (R : A -> A -> Prop) n e (k : unit -> comp m X A) r x sh cx :
    alike R (k tt x sh cx) r -> alike R (bind (after_dispatch m n e) k x sh cx) r.
  Proof.
    intros (H1 & H2 & H3 & H4 & H5). unfold bind. rewrite after_dispatch_quiet.
    cbn [r_out r_self r_sh r_cx r_tr]. unfold alike. cbn [r_out r_self r_sh r_cx r_tr]. auto.
  Qed.

  (** The superstate part of blocking dispatch, with the hooks around it. *)
  Definition blocking_round (n : nat) (e : Event m) : comp m (Sup m) (response (State m)) :=
    bind self (fun u0 => bind (before_dispatch m (NSuper u0) e) (fun _ =>
      bind (superstate_handle m n e) (fun r => bind self (fun u1 =>
        bind (after_dispatch m (NSuper u1) e) (fun _ => ret r))))).

  Lemma round_alike n e u sh cx r' :
    alike same_move (superstate_handle m n e u sh cx) r' ->
    alike same_move (blocking_round n e u sh cx) r'.
  Proof.
    intros H. unfold blocking_round. rewrite self_bind_run. apply drop_before_l.
    destruct H as (H1 & H2 & H3 & H4 & H5). unfold bind.
    destruct (superstate_handle m n e u sh cx) as [[r|w] u1 sh1 cx1 t1];
      cbn [r_out r_self r_sh r_cx r_tr self] in *.
    - rewrite after_dispatch_quiet. unfold alike. cbn [r_out r_self r_sh r_cx r_tr ret].
      repeat (split; [assumption|]). rewrite <- H5, unhooked_app. simpl. apply app_nil_r.
    - unfold alike. cbn [r_out r_self r_sh r_cx r_tr ret]. auto.
  Qed.

  (** Borrowing the view one level up, with related bodies. *)
  Lemma up_alike {A} (R : A -> A -> Prop) (d d' c c' : comp m (Sup m) A) u sh cx :
    (forall v s x, alike R (c v s x) (c' v s x)) -> alike R (d u sh cx) (d' u sh cx) ->
    alike R (up d c u sh cx) (up d' c' u sh cx).
  Proof.
    intros Hc Hd. unfold up. rewrite !self_bind_run. destruct (u_super m u) as [v|]; [|exact Hd].
    unfold via. destruct (Hc v sh cx) as (H1 & H2 & H3 & H4 & H5).
    unfold alike. cbn [r_out r_self r_sh r_cx r_tr]. now rewrite H2, H3, H4, H5.
  Qed.
  Lemma lup_alike {A} (R : A -> A -> Prop) (d d' : comp m (State m) A) c c' u sh cx :
    (forall v s x, alike R (c v s x) (c' v s x)) -> alike R (d u sh cx) (d' u sh cx) ->
    alike R (lup d c u sh cx) (lup d' c' u sh cx).
  Proof.
    intros Hc Hd. unfold lup. rewrite !self_bind_run. destruct (s_super m u) as [v|]; [|exact Hd].
    unfold via. destruct (Hc v sh cx) as (H1 & H2 & H3 & H4 & H5).
    unfold alike. cbn [r_out r_self r_sh r_cx r_tr]. now rewrite H2, H3, H4, H5.
  Qed.

  Lemma loop_alike n e : forall u sh cx,
    alike same_move (superstate_handle m n e u sh cx) (handle_loop m n e u sh cx).
  Proof.
    induction n as [|n IH]; intros u sh cx; [repeat split|].
    change (superstate_handle m (S n) e u sh cx) with
      (bind (u_call_handler m e) (fun r => match r with
         | Handled => ret Handled
         | Super => up (ret Super) (blocking_round n e)
         | Transition t => ret (Transition t) end) u sh cx).
    change (handle_loop m (S n) e u sh cx) with
      (bind self (fun u0 => bind (before_dispatch m (NSuper u0) e) (fun _ =>
         bind (u_call_handler m e) (fun r => bind self (fun u1 =>
           bind (after_dispatch m (NSuper u1) e) (fun _ => match r with
             | Handled => ret Handled
             | Super => up (ret Handled) (handle_loop m n e)
             | Transition t => ret (Transition t) end))))) u sh cx).
    rewrite self_bind_run. apply drop_before.
    apply alike_bind with (R := eq); [now apply alike_eq|].
    intros a b y s z <-. rewrite self_bind_run. apply drop_after.
    destruct a as [| |t].
    - apply alike_eq; auto using same_move_refl.
    - apply up_alike; [intros; apply round_alike, IH|].
      repeat split; simpl; discriminate.
    - apply alike_eq; auto using same_move_refl.
  Qed.

  Lemma state_handle_alike e x sh cx :
    alike same_move (mode_state_handle m stack e BlockingMode x sh cx)
                    (mode_state_handle m stack e AwaitableMode x sh cx).
  Proof.
    unfold mode_state_handle, Blocking.state_handle, Awaitable.state_handle.
    rewrite !self_bind_run. apply drop_before_l, drop_before.
    apply alike_bind with (R := eq); [now apply alike_eq|].
    intros a b y s z <-. rewrite !self_bind_run. apply drop_after_l, drop_after.
    destruct a as [| |t].
    - apply alike_eq; auto using same_move_refl.
    - change (alike same_move (lup (ret Super) (blocking_round stack e) y s z)
                (lup (ret Super) (handle_loop m stack e) y s z)).
      apply lup_alike; [intros; apply round_alike, loop_alike|].
      apply alike_eq; auto using same_move_refl.
    - apply alike_eq; auto using same_move_refl.
  Qed.

  Lemma both_before_transition {X A} (R : A -> A -> Prop) a b a' b' (k k' : unit -> comp m X A) x sh cx :
    alike R (k tt x sh cx) (k' tt x sh cx) ->
    alike R (bind (before_transition m a b) k x sh cx) (bind (before_transition m a' b') k' x sh cx).
  Proof.
    intros (H1 & H2 & H3 & H4 & H5). unfold bind. rewrite !before_transition_quiet.
    cbn [r_out r_self r_sh r_cx r_tr]. unfold alike. cbn [r_out r_self r_sh r_cx r_tr]. auto.
  Qed.
  Lemma swap_bind {B} t (k : State m -> comp m (State m) B) x sh cx :
    bind (swap_state m t) k x sh cx = k x t sh cx.
  Proof. unfold bind, swap_state. simpl. now destruct (k x t sh cx). Qed.

  Lemma transition_alike t x sh cx :
    alike eq (mode_transition m stack BlockingMode t x sh cx)
             (mode_transition m stack AwaitableMode t x sh cx).
  Proof.
    rewrite !mode_transition_eq.
    destruct (transition_path_legs Hf Hh x t) as (l1 & l2 & i & j & H1 & H2 & Li & Lj & E & L).
    apply both_before_transition. rewrite E, !bind_lift_run. cbn [fst snd].
    apply alike_bind with (R := eq).
    { apply alike_eq; auto. apply exit_same. }
    intros a b y s z _. rewrite !swap_bind.
    apply alike_bind with (R := eq).
    { apply alike_eq; auto. apply (@enter_same j (s_disc m t) l2); auto. reflexivity. }
    intros a' b' y' s' z' _. apply alike_eq; auto.
  Qed.

  Lemma handle_alike e x sh cx :
    alike eq (inner_handle m stack BlockingMode e x sh cx)
             (inner_handle m stack AwaitableMode e x sh cx).
  Proof.
    rewrite !mode_handle_eq. eapply alike_bind; [apply state_handle_alike|].
    intros a b y s z R. destruct a as [| |t].
    - destruct b as [| |t']; [apply alike_eq; auto..|].
      exfalso. destruct (R t') as [_ R']. now specialize (R' eq_refl).
    - destruct b as [| |t']; [apply alike_eq; auto..|].
      exfalso. destruct (R t') as [_ R']. now specialize (R' eq_refl).
    - destruct (R t) as [R' _]. rewrite (R' eq_refl). apply transition_alike.
  Qed.
End Same.
