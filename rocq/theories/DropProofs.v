(** DropProofs.v — proofs about Drops.v. *)

From Coq Require Import List Bool Arith Permutation Lia.
From Verif Require Import Machine Blocking Awaitable Api Drops DropSpec.
Import ListNotations.
Set Implicit Arguments.
Local Open Scope comp_scope.
#[local] Arguments calls_in : simpl never.
#[local] Arguments drops_in : simpl never.
#[local] Arguments targets_in : simpl never.

(** ** Leaving the drops out *)
Section Erase.
  Variable m : machine.
  Variable stack : nat.

  Lemma calls_in_app (a b : list (event_of m)) : calls_in (a ++ b) = calls_in a ++ calls_in b.
  Proof. apply flat_map_app. Qed.
  Lemma drops_in_app (a b : list (event_of m)) : drops_in (a ++ b) = drops_in a ++ drops_in b.
  Proof. apply flat_map_app. Qed.
  Lemma targets_in_app (a b : list (event_of m)) : targets_in (a ++ b) = targets_in a ++ targets_in b.
  Proof. apply flat_map_app. Qed.
  Lemma calls_in_did (t : list (obs m)) : calls_in (map Did t) = t.
  Proof. induction t as [| o t IH]; [reflexivity | exact (f_equal (cons o) IH)]. Qed.
  Lemma drops_in_did (t : list (obs m)) : drops_in (map Did t) = [].
  Proof. induction t as [| o t IH]; [reflexivity | exact IH]. Qed.
  Lemma drops_in_dropped (t : list (State m)) : drops_in (map Dropped t) = t.
  Proof. induction t as [| o t IH]; [reflexivity | exact (f_equal (cons o) IH)]. Qed.
  Lemma targets_in_dropped (t : list (State m)) : targets_in (map Dropped t) = [].
  Proof. induction t as [| o t IH]; [reflexivity | exact IH]. Qed.

  Definition erases {X A} (d : dcomp m X A) (c : comp m X A) : Prop :=
    forall x sh cx,
      d_out (d x sh cx) = r_out (c x sh cx) /\ d_self (d x sh cx) = r_self (c x sh cx) /\
      d_sh (d x sh cx) = r_sh (c x sh cx) /\ d_cx (d x sh cx) = r_cx (c x sh cx) /\
      calls_in (d_tr (d x sh cx)) = r_tr (c x sh cx).

  Lemma erases_plainly {X A} (c : comp m X A) : erases (plainly c) c.
  Proof. intros x sh cx. repeat split; [..| apply (calls_in_did (r_tr (c x sh cx)))]. Qed.

  Lemma erases_bind {X A B} (d : dcomp m X A) (c : comp m X A) (k : A -> dcomp m X B) (k' : A -> comp m X B) :
    erases d c -> (forall a, erases (k a) (k' a)) -> erases (dbind d k) (bind c k').
  Proof.
    intros Hd Hk x sh cx. unfold dbind, bind.
    destruct (Hd x sh cx) as (E1 & E2 & E3 & E4 & E5).
    rewrite E1. destruct (r_out (c x sh cx)) as [a | w].
    - destruct (Hk a (r_self (c x sh cx)) (r_sh (c x sh cx)) (r_cx (c x sh cx))) as (F1 & F2 & F3 & F4 & F5).
      rewrite E2, E3, E4. cbn. rewrite calls_in_app, E5, F5. repeat split; assumption.
    - cbn. repeat split; assumption.
  Qed.

  Lemma erases_via {X V A} put (v : V) (d : dcomp m V A) (c : comp m V A) :
    erases d c -> erases (@dvia m X V A put v d) (via put v c).
  Proof.
    intros Hd x sh cx. unfold dvia, via. cbn.
    destruct (Hd v sh cx) as (E1 & E2 & E3 & E4 & E5). rewrite E2. repeat split; assumption.
  Qed.

  Lemma erases_owning {X A} s (d : dcomp m X A) (c : comp m X A) : erases d c -> erases (owning s d) c.
  Proof.
    intros Hd x sh cx. unfold owning.
    destruct (Hd x sh cx) as (E1 & E2 & E3 & E4 & E5).
    destruct (d_out (d x sh cx)) as [a | w] eqn:Eo; cbn.
    - rewrite Eo. repeat split; assumption.
    - rewrite calls_in_app, E5. destruct (unwinds w); cbn; rewrite app_nil_r; repeat split; assumption.
  Qed.

  Lemma erases_dropping {X A} s (d : dcomp m X A) (c : comp m X A) : erases d c -> erases (dropping s d) c.
  Proof.
    intros Hd x sh cx. unfold dropping.
    destruct (@erases_owning X A s d c Hd x sh cx) as (E1 & E2 & E3 & E4 & E5).
    destruct (d_out (owning s d x sh cx)) as [a | w] eqn:Eo; cbn.
    - rewrite calls_in_app, E5. cbn. rewrite app_nil_r. repeat split; assumption.
    - rewrite Eo. repeat split; assumption.
  Qed.

  Lemma erases_owning_response {X A} r (d : dcomp m X A) (c : comp m X A) :
    erases d c -> erases (owning_response r d) c.
  Proof. intros H. destruct r; cbn; try exact H. apply erases_owning, H. Qed.

  Ltac era := first
    [ apply erases_plainly
    | apply erases_bind; [| intro]
    | apply erases_via
    | apply erases_owning_response
    | assumption ].

  Lemma superstate_handle_erases n e :
    erases (superstate_handle_d m n e) (Blocking.superstate_handle m n e).
  Proof.
    induction n as [| n IH]; cbn; [apply erases_plainly |].
    apply erases_bind; [apply erases_plainly | intros r].
    destruct r; try apply erases_plainly.
    apply erases_bind; [apply erases_plainly | intros u].
    destruct (u_super m u); [| apply erases_plainly].
    repeat era.
  Qed.

  Lemma handle_loop_erases n e : erases (handle_loop_d m n e) (Awaitable.handle_loop m n e).
  Proof.
    induction n as [| n IH]; cbn; [apply erases_plainly |].
    do 5 (apply erases_bind; [repeat era | intro]).
    destruct a1; try apply erases_plainly.
    apply erases_bind; [apply erases_plainly | intros u].
    destruct (u_super m u); [apply erases_via, IH | apply erases_plainly].
  Qed.

  Lemma bl_state_handle_erases e : erases (bl_state_handle_d m stack e) (Blocking.state_handle m stack e).
  Proof.
    unfold bl_state_handle_d, Blocking.state_handle.
    do 5 (apply erases_bind; [repeat era | intro]).
    destruct a1; try apply erases_plainly.
    apply erases_bind; [apply erases_plainly | intros u].
    destruct (s_super m u); [| apply erases_plainly].
    pose proof (superstate_handle_erases stack e). repeat era.
  Qed.

  Lemma aw_state_handle_erases e : erases (aw_state_handle_d m stack e) (Awaitable.state_handle m stack e).
  Proof.
    unfold aw_state_handle_d, Awaitable.state_handle.
    do 5 (apply erases_bind; [repeat era | intro]).
    destruct a1; try apply erases_plainly.
    apply erases_bind; [apply erases_plainly | intros u].
    destruct (s_super m u); [| apply erases_plainly].
    apply erases_via, handle_loop_erases.
  Qed.

  Lemma erases_same {X A} (d : dcomp m X A) (c c' : comp m X A) :
    (forall x sh cx, c x sh cx = c' x sh cx) -> erases d c -> erases d c'.
  Proof. intros H Hd x sh cx. rewrite <- H. apply Hd. Qed.

  Lemma bind_assoc {X A B C} (c : comp m X A) (k : A -> comp m X B) (l : B -> comp m X C) x sh cx :
    bind (bind c k) l x sh cx = bind c (fun a => bind (k a) l) x sh cx.
  Proof.
    unfold bind. destruct (r_out (c x sh cx)) as [a | w] eqn:E; cbn; [| reflexivity].
    destruct (r_out (k a (r_self (c x sh cx)) (r_sh (c x sh cx)) (r_cx (c x sh cx)))); cbn;
      [now rewrite app_assoc | reflexivity].
  Qed.

  Lemma bind_ret_l {X A B} (a : A) (l : A -> comp m X B) x sh cx :
    bind (ret a) l x sh cx = l a x sh cx.
  Proof. unfold bind, ret. cbn. destruct (l a x sh cx). reflexivity. Qed.

  Lemma bind_ext {X A B} (c : comp m X A) (k k' : A -> comp m X B) :
    (forall a x sh cx, k a x sh cx = k' a x sh cx) -> forall x sh cx, bind c k x sh cx = bind c k' x sh cx.
  Proof. intros H x sh cx. unfold bind. destruct (r_out (c x sh cx)); [rewrite H |]; reflexivity. Qed.

  Definition transition_of (md : mode) : State m -> comp m (State m) unit :=
    match md with BlockingMode => Blocking.transition m stack | AwaitableMode => Awaitable.transition m stack end.

  Lemma transition_erases md t : erases (transition_d m stack md t) (transition_of md t).
  Proof.
    apply (@erases_same _ _ _
      (bind self (fun x =>
       bind (bind (match md with
                   | BlockingMode => before_transition m t x
                   | AwaitableMode => before_transition m x t end) (fun _ =>
             bind (lift (Blocking.transition_path m stack x t)) (fun levels =>
             bind (match md with
                   | BlockingMode => Blocking.state_exit m (fst levels)
                   | AwaitableMode => Awaitable.state_exit m (fst levels) end) (fun _ =>
             ret levels)))) (fun levels =>
       bind (swap_state m t) (fun old =>
       bind (match md with
             | BlockingMode => Blocking.state_enter m (snd levels)
             | AwaitableMode => Awaitable.state_enter m (snd levels) end) (fun _ =>
       bind self (fun new => after_transition m old new))))))).
    - intros x sh cx. destruct md; unfold transition_of, Blocking.transition, Awaitable.transition; apply bind_ext; intros a y sh' cx';
        rewrite bind_assoc; apply bind_ext; intros a0 y0 sh0 cx0;
        rewrite bind_assoc; apply bind_ext; intros a1 y1 sh1 cx1; rewrite bind_assoc; apply bind_ext; intros a2 y2 sh2 cx2; rewrite bind_ret_l; reflexivity.
    - unfold transition_d.
      apply erases_bind; [apply erases_plainly | intros x].
      apply erases_bind; [apply erases_owning; repeat era | intros levels].
      apply erases_bind; [apply erases_plainly | intros old].
      apply erases_dropping. repeat era.
  Qed.

  Lemma inner_handle_erases md e : erases (inner_handle_d m stack md e) (inner_handle m stack md e).
  Proof.
    unfold inner_handle_d, inner_handle. destruct md.
    - apply erases_bind; [apply bl_state_handle_erases | intros r].
      destruct r; try apply erases_plainly. apply (transition_erases BlockingMode).
    - apply erases_bind; [apply aw_state_handle_erases | intros r].
      destruct r; try apply erases_plainly. apply (transition_erases AwaitableMode).
  Qed.

  Lemma dispatch_erases md (sm : state_machine m) e cx out sm' cx' tr :
    dispatch_d stack md sm e cx = (out, sm', cx', tr) ->
    dispatch stack md sm e cx = ApiRes out sm' cx' (calls_in tr).
  Proof.
    unfold dispatch_d, dispatch, run_inner. intros [= <- <- <- <-]. cbn.
    destruct (inner_handle_erases md e (state (sm_inner sm)) (shared_storage (sm_inner sm)) cx)
      as (E1 & E2 & E3 & E4 & E5).
    rewrite E1, E2, E3, E4, E5. reflexivity.
  Qed.

  Lemma exec_erases md (o : op m) sm out sm' cx tr :
    exec_d stack md o sm = (out, sm', cx, tr) -> exec stack md o sm = (out, sm', cx, calls_in tr).
  Proof.
    destruct o as [c | e c | f | f]; cbn.
    1, 3, 4: intros [= <- <- <- <-]; rewrite ?calls_in_did; reflexivity.
    unfold handle_d, handle_with_context.
    destruct (negb (initialized sm)).
    - destruct (a_out (run_inner (inner_init m stack md) (sm_inner sm) c)) as [u | w].
      + destruct (dispatch_d stack md _ e _) as [[[o1 s1] c1] t1] eqn:E.
        intros [= <- <- <- <-]. rewrite (dispatch_erases E). cbn.
        rewrite calls_in_app, calls_in_did. reflexivity.
      + intros [= <- <- <- <-]. cbn. rewrite calls_in_did. reflexivity.
    - destruct (dispatch_d stack md sm e c) as [[[o1 s1] c1] t1] eqn:E.
      intros [= <- <- <- <-]. rewrite (dispatch_erases E). reflexivity.
  Qed.

  Lemma run_erases md (ops : list (op m)) : forall sm rs sm',
    run_d stack md ops sm = (rs, sm') ->
    map (fun c => (c_out c, c_tr c)) (fst (exec_all stack md ops sm)) =
      map (fun r => (fst r, calls_in (snd r))) rs /\
    snd (exec_all stack md ops sm) = sm'.
  Proof.
    induction ops as [| o ops IH]; intros sm rs sm'; cbn.
    - intros [= <- <-]. split; reflexivity.
    - destruct (exec_d stack md o sm) as [[[out s1] c1] t1] eqn:E.
      rewrite (exec_erases _ _ _ E).
      destruct (run_d stack md ops s1) as [rs1 s2] eqn:E2. intros [= <- <-].
      destruct (IH _ _ _ E2) as [A B].
      destruct (exec_all stack md ops s1) as [cs s3]. cbn in *. rewrite A, B. split; reflexivity.
  Qed.
End Erase.

(** ** Counting the drops *)
Section Count.
  Variable m : machine.
  Variable stack : nat.
  Variable T : Type.
  Variable mark : State m -> T.
  Hypothesis keeps : keeps_mark m mark.

  (** [X] is `State` or `Superstate`; [K] tells what stays of it. *)
  Definition asked (r : response (State m)) : list (State m) :=
    match r with Transition t => [t] | _ => [] end.
  Definition targets (t : list (obs m)) : list (State m) := targets_in (map Did t).

  Lemma targets_app a b : targets (a ++ b) = targets a ++ targets b.
  Proof. unfold targets. rewrite map_app. apply targets_in_app. Qed.

  (** Library code that asks for no transition. *)
  Definition quiet {X A} (K : X -> X -> Prop) (c : comp m X A) : Prop :=
    forall x sh cx, K x (r_self (c x sh cx)) /\ targets (r_tr (c x sh cx)) = [].

  Definition KS (x y : State m) : Prop := mark y = mark x.
  Definition KU (x y : Sup m) : Prop := True.

  Class keeping {X} (K : X -> X -> Prop) : Prop := {
    k_refl : forall x, K x x;
    k_trans : forall x y z, K x y -> K y z -> K x z }.
  Instance keeping_KS : keeping KS.
  Proof. split; [reflexivity | intros x y z; unfold KS; congruence]. Qed.
  Instance keeping_KU : keeping KU.
  Proof. split; constructor. Qed.

  Lemma quiet_ret {X A} {K : X -> X -> Prop} `{keeping X K} (a : A) : quiet K (ret a).
  Proof. intros x sh cx. split; [apply k_refl | reflexivity]. Qed.
  Lemma quiet_self {X} {K : X -> X -> Prop} `{keeping X K} : quiet K self.
  Proof. intros x sh cx. split; [apply k_refl | reflexivity]. Qed.
  Lemma quiet_lift {X A} {K : X -> X -> Prop} `{keeping X K} (o : outcome A) : quiet K (lift o).
  Proof. intros x sh cx. split; [apply k_refl | reflexivity]. Qed.
  Lemma quiet_bind {X A B} {K : X -> X -> Prop} `{keeping X K} (c : comp m X A) (k : A -> comp m X B) :
    quiet K c -> (forall a, quiet K (k a)) -> quiet K (bind c k).
  Proof.
    intros Hc Hk x sh cx. unfold bind. destruct (Hc x sh cx) as [K1 T1].
    destruct (r_out (c x sh cx)) as [a | w]; cbn; [| split; assumption].
    destruct (Hk a (r_self (c x sh cx)) (r_sh (c x sh cx)) (r_cx (c x sh cx))) as [K2 T2].
    split; [eapply k_trans; eassumption | rewrite targets_app, T1; exact T2].
  Qed.
  Lemma quiet_hook {X} {K : X -> X -> Prop} `{keeping X K} f o :
    target_in (Did o) = [] -> quiet K (@call_hook m X f o).
  Proof.
    intros Ho x sh cx. unfold call_hook. destruct (f sh) as [r sh']. cbn.
    split; [apply k_refl | unfold targets; cbn; rewrite ?Ho; exact (f_equal (fun l => l ++ []) Ho)].
  Qed.
  Lemma quiet_u_put {A} v (c : comp m (Sup m) A) : quiet KU c -> quiet KU (via (u_put m) v c).
  Proof. intros Hc x sh cx. split; [exact I | apply Hc]. Qed.
  Lemma quiet_s_put {A} v (c : comp m (Sup m) A) : quiet KU c -> quiet KS (via (s_put m) v c).
  Proof. intros Hc x sh cx. split; [apply (km_put keeps) | apply Hc]. Qed.
  Lemma quiet_u_action f o : (forall u, target_in (Did (o u)) = []) -> quiet KU (@call_action m (Sup m) f o).
  Proof.
    intros Ho x sh cx. unfold call_action. destruct (f x sh cx) as [[[r x'] sh'] cx']. cbn.
    split; [exact I | exact (f_equal (fun l => l ++ []) (Ho x))].
  Qed.
  Lemma quiet_s_entry : quiet KS (s_call_entry m).
  Proof.
    intros x sh cx. unfold s_call_entry, call_action.
    destruct (s_entry m x sh cx) as [[[r x'] sh'] cx'] eqn:E. cbn.
    split; [exact (km_entry keeps _ _ _ E) | reflexivity].
  Qed.
  Lemma quiet_s_exit : quiet KS (s_call_exit m).
  Proof.
    intros x sh cx. unfold s_call_exit, call_action.
    destruct (s_exit m x sh cx) as [[[r x'] sh'] cx'] eqn:E. cbn.
    split; [exact (km_exit keeps _ _ _ E) | reflexivity].
  Qed.
  Lemma quiet_u_entry : quiet KU (u_call_entry m).
  Proof. apply quiet_u_action. reflexivity. Qed.
  Lemma quiet_u_exit : quiet KU (u_call_exit m).
  Proof. apply quiet_u_action. reflexivity. Qed.

  Ltac qt := first
    [ apply quiet_ret | apply quiet_self | apply quiet_lift
    | apply quiet_s_entry | apply quiet_s_exit | apply quiet_u_entry | apply quiet_u_exit
    | apply quiet_bind; [| intro] | apply quiet_u_put | apply quiet_s_put
    | apply quiet_hook; reflexivity | assumption
    | match goal with
      | |- context [match s_super m ?x with _ => _ end] => destruct (s_super m x)
      | |- context [match u_super m ?x with _ => _ end] => destruct (u_super m x)
      end ].

  Lemma bl_superstate_enter_quiet n : quiet KU (Blocking.superstate_enter m n).
  Proof. induction n as [| [| n] IH]; cbn [Blocking.superstate_enter]; repeat qt. Qed.
  Lemma bl_superstate_exit_quiet n : quiet KU (Blocking.superstate_exit m n).
  Proof. induction n as [| [| n] IH]; cbn [Blocking.superstate_exit]; repeat qt. Qed.
  Lemma bl_enter_quiet n : quiet KS (Blocking.state_enter m n).
  Proof.
    pose proof bl_superstate_enter_quiet. destruct n as [| [| n]]; cbn [Blocking.state_enter]; repeat qt; apply H.
  Qed.
  Lemma bl_exit_quiet n : quiet KS (Blocking.state_exit m n).
  Proof.
    pose proof bl_superstate_exit_quiet. destruct n as [| [| n]]; cbn [Blocking.state_exit]; repeat qt; apply H.
  Qed.
  Lemma climb_quiet n : quiet KU (Awaitable.climb_entry m n).
  Proof. induction n as [| n IH]; cbn [Awaitable.climb_entry]; repeat qt. Qed.
  Lemma exit_loop_quiet n : quiet KU (Awaitable.exit_loop m n).
  Proof. induction n as [| n IH]; cbn [Awaitable.exit_loop]; repeat qt. Qed.
  Lemma aw_enter_quiet n : quiet KS (Awaitable.state_enter m n).
  Proof.
    pose proof climb_quiet. induction n as [| [| n] IH]; cbn [Awaitable.state_enter]; repeat qt; apply H.
  Qed.
  Lemma aw_exit_quiet n : quiet KS (Awaitable.state_exit m n).
  Proof.
    pose proof exit_loop_quiet. unfold Awaitable.state_exit.
    destruct (1 <=? n); repeat qt; apply H.
  Qed.
  Lemma init_quiet md : quiet KS (inner_init m stack md).
  Proof.
    destruct md; cbn; unfold Blocking.inner_init, Awaitable.inner_init; repeat qt;
      [apply bl_enter_quiet | apply aw_enter_quiet].
  Qed.

  (** Code that drops nothing and asks for nothing. *)
  Definition silent {X A} (K : X -> X -> Prop) (d : dcomp m X A) : Prop :=
    forall x sh cx, K x (d_self (d x sh cx)) /\
      exists t, d_tr (d x sh cx) = map Did t /\ targets t = [].

  Lemma silent_quiet {X A} {K : X -> X -> Prop} (c : comp m X A) : quiet K c -> silent K (plainly c).
  Proof.
    intros Hc x sh cx. destruct (Hc x sh cx) as [K1 T1].
    split; [exact K1 | exists (r_tr (c x sh cx)); split; [reflexivity | exact T1]].
  Qed.
  Lemma silent_bind {X A B} {K : X -> X -> Prop} `{keeping X K} (d : dcomp m X A) (k : A -> dcomp m X B) :
    silent K d -> (forall a, silent K (k a)) -> silent K (dbind d k).
  Proof.
    intros Hd Hk x sh cx. unfold dbind. destruct (Hd x sh cx) as [K1 [t [E1 N1]]].
    destruct (d_out (d x sh cx)) as [a | w]; cbn [d_self d_tr].
    - destruct (Hk a (d_self (d x sh cx)) (d_sh (d x sh cx)) (d_cx (d x sh cx))) as [K2 [t2 [E2 N2]]].
      split; [eapply k_trans; eassumption |]. exists (t ++ t2).
      rewrite E1, E2, map_app, targets_app, N1. split; [reflexivity | exact N2].
    - split; [exact K1 |]. exists t. split; assumption.
  Qed.

  (** Code that is given [inn] to own, and whose result owns [hold a]. *)
  Definition holding {X A} (K : X -> X -> Prop) (inn : list (State m)) (hold : A -> list (State m))
      (d : dcomp m X A) : Prop :=
    forall x sh cx, K x (d_self (d x sh cx)) /\ exists t,
      match d_out (d x sh cx) with
      | Ret a => d_tr (d x sh cx) = map Did t /\ inn ++ targets t = hold a
      | Abort w => d_tr (d x sh cx) = map Did t ++ map Dropped (if unwinds w then inn ++ targets t else [])
      end /\ (length inn <= 1 -> length (inn ++ targets t) <= 1).

  Lemma holding_bind {X A B} {K : X -> X -> Prop} `{keeping X K} (d : dcomp m X A) (k : A -> dcomp m X B)
      inn mid hold :
    holding K inn mid d -> (forall a, holding K (mid a) hold (k a)) -> holding K inn hold (dbind d k).
  Proof.
    intros Hd Hk x sh cx. unfold dbind. destruct (Hd x sh cx) as [K1 [t [T1 L1]]].
    destruct (d_out (d x sh cx)) as [a | w]; cbn [d_self d_tr d_out].
    - destruct T1 as [E1 N1].
      destruct (Hk a (d_self (d x sh cx)) (d_sh (d x sh cx)) (d_cx (d x sh cx))) as [K2 [t2 [T2 L2]]].
      split; [eapply k_trans; eassumption |]. exists (t ++ t2).
      rewrite targets_app, app_assoc, N1, map_app.
      split; [| intros Hi; apply L2; rewrite <- N1; apply L1, Hi].
      destruct (d_out (k a _ _ _)) as [b | w].
      + destruct T2 as [E2 N2]. rewrite E1, E2. split; [reflexivity | exact N2].
      + rewrite E1, T2, app_assoc. reflexivity.
    - split; [exact K1 |]. exists t. split; assumption.
  Qed.

  Lemma holding_silent {X A} {K : X -> X -> Prop} (d : dcomp m X A) :
    silent K d -> holding K [] (fun _ => []) d.
  Proof.
    intros Hd x sh cx. destruct (Hd x sh cx) as [K1 [t [E1 N1]]].
    split; [exact K1 | exists t]. rewrite E1, N1. cbn [app].
    split; [| intros _; apply Nat.le_0_l].
    destruct (d_out (d x sh cx)); [split; reflexivity |].
    destruct (unwinds w); cbn [map]; rewrite app_nil_r; reflexivity.
  Qed.

  Lemma holding_quiet {X A} {K : X -> X -> Prop} (c : comp m X A) :
    quiet K c -> holding K [] (fun _ => []) (plainly c).
  Proof. intros H. apply holding_silent, silent_quiet, H. Qed.

  Lemma holding_ret {X A} {K : X -> X -> Prop} `{keeping X K} (a : A) hold :
    holding K (hold a) hold (plainly (ret a)).
  Proof.
    intros x sh cx. split; [apply k_refl | exists []]. cbn. change (targets []) with (@nil (State m)).
    rewrite app_nil_r. repeat split. intros H1; exact H1.
  Qed.
  Lemma holding_self {X} {K : X -> X -> Prop} `{keeping X K} inn :
    holding K inn (fun _ => inn) (plainly self).
  Proof.
    intros x sh cx. split; [apply k_refl | exists []]. cbn. change (targets []) with (@nil (State m)).
    rewrite app_nil_r. repeat split. intros H1; exact H1.
  Qed.

  Lemma holding_owning {X A} {K : X -> X -> Prop} s (d : dcomp m X A) :
    silent K d -> holding K [s] (fun _ => [s]) (owning s d).
  Proof.
    intros Hd x sh cx. unfold owning. destruct (Hd x sh cx) as [K1 [t [E1 N1]]].
    destruct (d_out (d x sh cx)) as [a | w] eqn:Eo; cbn [d_self d_tr d_out].
    - split; [exact K1 | exists t]. rewrite Eo, E1, N1. repeat split. intros _; apply le_n.
    - split; [exact K1 | exists t]. rewrite E1, N1. split; [| intros _; apply le_n].
      destruct (unwinds w); reflexivity.
  Qed.
  Lemma holding_owning_response {X A} {K : X -> X -> Prop} r (c : comp m X A) :
    quiet K c -> holding K (asked r) (fun _ => asked r) (owning_response r (plainly c)).
  Proof.
    intros Hc. destruct r; cbn [asked owning_response].
    - apply holding_quiet, Hc.
    - apply holding_quiet, Hc.
    - apply holding_owning, silent_quiet, Hc.
  Qed.

  Lemma holding_u_put {A} v (d : dcomp m (Sup m) A) inn hold :
    holding KU inn hold d -> holding KU inn hold (dvia (u_put m) v d).
  Proof. intros Hd x sh cx. split; [exact I | apply (Hd v sh cx)]. Qed.
  Lemma holding_s_put {A} v (d : dcomp m (Sup m) A) inn hold :
    holding KU inn hold d -> holding KS inn hold (dvia (s_put m) v d).
  Proof. intros Hd x sh cx. split; [apply (km_put keeps) | apply (Hd v sh cx)]. Qed.

  Lemma holding_handler {X} (K : X -> X -> Prop) f nd e :
    (forall x sh cx r x' sh' cx', f x sh cx e = (r, x', sh', cx') -> K x x') ->
    holding K [] asked (plainly (@call_handler m X f nd e)).
  Proof.
    intros HK x sh cx. unfold plainly, call_handler.
    destruct (f x sh cx e) as [[[r x'] sh'] cx'] eqn:E. cbn -[map].
    split; [exact (HK _ _ _ _ _ _ _ E) |].
    exists (OHandler (nd x) e :: match r with Returns a => [OReturn a] | _ => [] end).
    destruct r as [[| | s] | |]; cbn -[map]; (split; [try split; reflexivity | unfold targets, targets_in; cbn; lia]).
  Qed.
  Lemma holding_s_handler e : holding KS [] asked (plainly (s_call_handler m e)).
  Proof. apply holding_handler. intros x sh cx r x' sh' cx' E. exact (km_handler keeps _ _ _ _ E). Qed.
  Lemma holding_u_handler e : holding KU [] asked (plainly (u_call_handler m e)).
  Proof. apply holding_handler. intros. exact I. Qed.

  Ltac hret := lazymatch goal with |- holding ?K _ _ (plainly (ret ?r)) => exact (holding_ret (K := K) r asked) end.
  Ltac silently := eapply holding_bind; [apply holding_self || (apply holding_quiet; repeat qt) | intro].
  Ltac hookly := eapply holding_bind; [apply holding_owning_response; repeat qt | intro].

  Lemma superstate_handle_holds n e : holding KU [] asked (superstate_handle_d m n e).
  Proof.
    induction n as [| n IH]; cbn [superstate_handle_d].
    - intros x sh cx. split; [exact I | exists []]. cbn. split; [reflexivity | unfold targets, targets_in; cbn; lia].
    - eapply holding_bind; [apply holding_u_handler | intros r].
      destruct r; try hret.
      cbn [asked]. silently. destruct (u_super m a); [| hret].
      apply holding_u_put. silently. silently.
      eapply holding_bind; [exact IH | intros r]. cbn beta.
      silently. hookly. hret.
  Qed.

  Lemma handle_loop_holds n e : holding KU [] asked (handle_loop_d m n e).
  Proof.
    induction n as [| n IH]; cbn [handle_loop_d].
    - intros x sh cx. split; [exact I | exists []]. cbn. split; [reflexivity | unfold targets, targets_in; cbn; lia].
    - silently. silently.
      eapply holding_bind; [apply holding_u_handler | intros r]. cbn beta.
      silently. hookly.
      destruct r; try hret.
      cbn [asked]. silently. destruct (u_super m a3); [| hret].
      apply holding_u_put, IH.
  Qed.

  Lemma bl_state_handle_holds e : holding KS [] asked (bl_state_handle_d m stack e).
  Proof.
    unfold bl_state_handle_d. silently. silently.
    eapply holding_bind; [apply holding_s_handler | intros r]. cbn beta.
    silently. hookly.
    destruct r; try hret.
    cbn [asked]. silently. destruct (s_super m a3); [| hret].
    apply holding_s_put. silently. silently.
    eapply holding_bind; [apply superstate_handle_holds | intros r]. cbn beta.
    silently. hookly. hret.
  Qed.

  Lemma aw_state_handle_holds e : holding KS [] asked (aw_state_handle_d m stack e).
  Proof.
    unfold aw_state_handle_d. silently. silently.
    eapply holding_bind; [apply holding_s_handler | intros r]. cbn beta.
    silently. hookly.
    destruct r; try hret.
    cbn [asked]. silently. destruct (s_super m a3); [| hret].
    apply holding_s_put, handle_loop_holds.
  Qed.

  Definition leaving (md : mode) (tg x : State m) : dcomp m (State m) (nat * nat) :=
    dbind (plainly (match md with
                    | BlockingMode => before_transition m tg x
                    | AwaitableMode => before_transition m x tg
                    end)) (fun _ =>
    dbind (plainly (lift (Blocking.transition_path m stack x tg))) (fun levels =>
    dbind (plainly (match md with
                    | BlockingMode => Blocking.state_exit m (fst levels)
                    | AwaitableMode => Awaitable.state_exit m (fst levels)
                    end)) (fun _ =>
    plainly (ret levels)))).
  Definition entering (md : mode) (levels : nat * nat) : dcomp m (State m) unit :=
    plainly (match md with
             | BlockingMode => Blocking.state_enter m (snd levels)
             | AwaitableMode => Awaitable.state_enter m (snd levels)
             end).
  Definition arriving (md : mode) (old : State m) (levels : nat * nat) : dcomp m (State m) unit :=
    dbind (entering md levels) (fun _ =>
    dbind (plainly self) (fun new =>
    plainly (after_transition m old new))).

  Lemma leaving_silent md tg x : silent KS (leaving md tg x).
  Proof.
    apply silent_bind; [apply silent_quiet; destruct md; repeat qt | intros _].
    apply silent_bind; [apply silent_quiet; repeat qt | intros ls].
    apply silent_bind; [apply silent_quiet; destruct md; [apply bl_exit_quiet | apply aw_exit_quiet] | intros _].
    apply silent_quiet. repeat qt.
  Qed.
  Lemma entering_silent md ls : silent KS (entering md ls).
  Proof. apply silent_quiet. destruct md; [apply bl_enter_quiet | apply aw_enter_quiet]. Qed.
  Lemma arriving_silent md old ls : silent KS (arriving md old ls).
  Proof.
    apply silent_bind; [apply entering_silent | intros _].
    apply silent_bind; [apply silent_quiet; repeat qt | intros new].
    apply silent_quiet. repeat qt.
  Qed.
  Lemma arriving_ends md old ls x sh cx :
    d_out (arriving md old ls x sh cx) = Ret tt ->
    exists t0, d_tr (arriving md old ls x sh cx) =
      map Did (t0 ++ [OAfterTransition old (d_self (arriving md old ls x sh cx))]).
  Proof.
    unfold arriving, dbind.
    destruct (entering_silent md ls x sh cx) as [_ [t [E _]]].
    destruct (entering md ls x sh cx) as [[u | w] x1 sh1 cx1 tr1]; cbn -[map] in *; [| discriminate].
    intros _. exists t. rewrite E, map_app. f_equal.
    unfold after_transition, call_hook.
    destruct (h_after_transition m _ _ _) as [r sh']. reflexivity.
  Qed.

  Lemma dbind_ret {X A B} (d : dcomp m X A) (k : A -> dcomp m X B) x sh cx a x1 sh1 cx1 t1 :
    d x sh cx = DRes (Ret a) x1 sh1 cx1 t1 ->
    dbind d k x sh cx =
      let r := k a x1 sh1 cx1 in DRes (d_out r) (d_self r) (d_sh r) (d_cx r) (t1 ++ d_tr r).
  Proof. intros E. unfold dbind. rewrite E. reflexivity. Qed.
  Lemma dbind_abort {X A B} (d : dcomp m X A) (k : A -> dcomp m X B) x sh cx w x1 sh1 cx1 t1 :
    d x sh cx = DRes (Abort w) x1 sh1 cx1 t1 -> dbind d k x sh cx = DRes (Abort w) x1 sh1 cx1 t1.
  Proof. intros E. unfold dbind. rewrite E. reflexivity. Qed.
  Lemma owning_ret {X A} s (d : dcomp m X A) x sh cx a x1 sh1 cx1 t1 :
    d x sh cx = DRes (Ret a) x1 sh1 cx1 t1 -> owning s d x sh cx = DRes (Ret a) x1 sh1 cx1 t1.
  Proof. intros E. unfold owning. rewrite E. reflexivity. Qed.
  Lemma owning_abort {X A} s (d : dcomp m X A) x sh cx w x1 sh1 cx1 t1 :
    d x sh cx = DRes (Abort w) x1 sh1 cx1 t1 ->
    owning s d x sh cx = DRes (Abort w) x1 sh1 cx1 (t1 ++ if unwinds w then [Dropped s] else []).
  Proof. intros E. unfold owning. rewrite E. reflexivity. Qed.
  Lemma dropping_ret {X A} s (d : dcomp m X A) x sh cx a x1 sh1 cx1 t1 :
    d x sh cx = DRes (Ret a) x1 sh1 cx1 t1 -> dropping s d x sh cx = DRes (Ret a) x1 sh1 cx1 (t1 ++ [Dropped s]).
  Proof. intros E. unfold dropping. rewrite (owning_ret _ _ _ _ _ E). reflexivity. Qed.
  Lemma dropping_abort {X A} s (d : dcomp m X A) x sh cx w x1 sh1 cx1 t1 :
    d x sh cx = DRes (Abort w) x1 sh1 cx1 t1 ->
    dropping s d x sh cx = DRes (Abort w) x1 sh1 cx1 (t1 ++ if unwinds w then [Dropped s] else []).
  Proof. intros E. unfold dropping. rewrite (owning_abort _ _ _ _ _ E). reflexivity. Qed.

  (** A transition drops one of the two states, in the end. *)
  Lemma transition_drops md tg x sh cx out :
    d_out (transition_d m stack md tg x sh cx) = out -> out <> Abort Diverges ->
    exists t d, d_tr (transition_d m stack md tg x sh cx) = map Did t ++ [Dropped d] /\
      targets t = [] /\
      Permutation [mark d; mark (d_self (transition_d m stack md tg x sh cx))] [mark x; mark tg] /\
      (out = Ret tt -> exists t0,
         t = t0 ++ [OAfterTransition d (d_self (transition_d m stack md tg x sh cx))]).
  Proof.
    set (R := transition_d m stack md tg x sh cx).
    assert (HR : R = dbind (plainly self) (fun x => dbind (owning tg (leaving md tg x)) (fun levels =>
       dbind (plainly (swap_state m tg)) (fun old => dropping old (arriving md old levels)))) x sh cx)
      by reflexivity.
    clearbody R. rewrite (dbind_ret _ _ _ _ _ (a := x) (x1 := x) (sh1 := sh) (cx1 := cx) (t1 := []) eq_refl) in HR.
    pose proof (leaving_silent md tg x x sh cx) as [K1 [t1 [E1 N1]]].
    destruct (leaving md tg x x sh cx) as [[ls | w] old sh1 cx1 tr1] eqn:EL;
      cbn [d_out d_self d_tr] in E1, K1; subst tr1.
    2: { rewrite (dbind_abort _ _ _ _ _ (owning_abort _ _ _ _ _ EL)) in HR. subst R.
         cbn [d_out d_self d_tr app]. intros <- Hu. exists t1, tg.
         destruct w; cbn [unwinds]; try (exfalso; apply Hu; reflexivity).
         all: split; [reflexivity | split; [exact N1 | split; [rewrite K1; apply perm_swap | discriminate]]]. }
    rewrite (dbind_ret _ _ _ _ _ (owning_ret _ _ _ _ _ EL)) in HR.
    rewrite (dbind_ret _ _ _ _ _ (a := old) (x1 := tg) (sh1 := sh1) (cx1 := cx1) (t1 := []) eq_refl) in HR.
    pose proof (arriving_silent md old ls tg sh1 cx1) as [K2 [t2 [E2 N2]]].
    pose proof (arriving_ends md old ls tg sh1 cx1) as Hend.
    destruct (arriving md old ls tg sh1 cx1) as [[[] | w] x2 sh2 cx2 tr2] eqn:EA;
      cbn [d_out d_self d_tr] in E2, K2, Hend.
    - rewrite (dropping_ret _ _ _ _ _ EA) in HR. subst R tr2.
      cbn [d_out d_self d_tr app]. intros <- _. destruct (Hend eq_refl) as [t0 Et0].
      exists (t1 ++ t2), old. rewrite map_app, app_assoc.
      split; [reflexivity | split; [rewrite targets_app, N1; exact N2 |]].
      split; [rewrite K1, K2; reflexivity |]. intros _. exists (t1 ++ t0).
      rewrite <- app_assoc. f_equal.
      apply (f_equal (@calls_in m)) in Et0. rewrite !calls_in_did in Et0. exact Et0.
    - rewrite (dropping_abort _ _ _ _ _ EA) in HR. subst R tr2.
      cbn [d_out d_self d_tr app]. intros <- Hu.
      exists (t1 ++ t2), old. rewrite map_app, <- app_assoc.
      split; [| split; [rewrite targets_app, N1; exact N2 | split; [rewrite K1, K2; reflexivity | discriminate]]].
      destruct w; cbn [unwinds]; try (exfalso; apply Hu; reflexivity); rewrite ?app_assoc; reflexivity.
  Qed.

  Lemma inner_handle_drops md e x sh cx out :
    d_out (inner_handle_d m stack md e x sh cx) = out -> out <> Abort Diverges ->
    exists t ds, d_tr (inner_handle_d m stack md e x sh cx) = map Did t ++ map Dropped ds /\
      length ds = length (targets t) /\ length ds <= 1 /\
      Permutation (map mark ds ++ [mark (d_self (inner_handle_d m stack md e x sh cx))])
                  (mark x :: map mark (targets t)) /\
      (out = Ret tt -> forall d, In d ds -> exists t0,
         t = t0 ++ [OAfterTransition d (d_self (inner_handle_d m stack md e x sh cx))]).
  Proof.
    intros <-. unfold inner_handle_d.
    set (first := match md with BlockingMode => _ | AwaitableMode => _ end).
    assert (Hf : holding KS [] asked first)
      by (destruct md; [apply bl_state_handle_holds | apply aw_state_handle_holds]).
    unfold dbind. destruct (Hf x sh cx) as [K1 [t1 [T1 L1]]]. cbn [app] in T1, L1.
    specialize (L1 (Nat.le_0_l 1)).
    destruct (d_out (first x sh cx)) as [r | w]; cbn [d_out d_self d_tr].
    2: { intros Hu. exists t1, (targets t1).
         split; [rewrite T1; destruct w; try reflexivity; exfalso; apply Hu; reflexivity |].
         split; [reflexivity | split; [exact L1 | split; [| discriminate]]].
         rewrite K1. rewrite Permutation_app_comm. reflexivity. }
    destruct T1 as [E1 N1]. rewrite E1.
    destruct r as [| | tg]; cbn [asked] in N1.
    1, 2: intros _; exists t1, []; rewrite N1; cbn [map plainly ret d_out d_self d_tr r_out r_self r_tr length];
      rewrite K1; repeat split; try lia; try reflexivity; intros _ d [].
    destruct (d_out (transition_d m stack md tg (d_self (first x sh cx)) (d_sh (first x sh cx)) (d_cx (first x sh cx))))
      as [[] | w] eqn:Eo; intros Hu.
    all: destruct (transition_drops _ _ _ _ _ Eo Hu) as (t & d & Et & Nt & P & Hend).
    all: exists (t1 ++ t), [d]; rewrite Et, map_app, <- app_assoc, targets_app, N1, Nt.
    all: split; [reflexivity | split; [reflexivity | split; [apply le_n |]]].
    all: split; [cbn [map app]; rewrite P, K1; reflexivity |].
    2: discriminate.
    intros _ d' [<- | []]. destruct (Hend eq_refl) as [t0 ->]. exists (t1 ++ t0). apply app_assoc.
  Qed.

  Lemma exec_drops md o sm out sm' cx tr :
    keeps_marks mark o -> exec_d stack md o sm = (out, sm', cx, tr) -> unwound out ->
    exists t ds, tr = map Did t ++ map Dropped ds /\
      length ds = length (targets_in tr) /\ length ds <= 1 /\
      Permutation (map mark ds ++ [mark (sm_state sm')]) (mark (sm_state sm) :: map mark (targets_in tr)) /\
      (out = Ret tt -> forall d, In d ds -> exists t0, t = t0 ++ [OAfterTransition d (sm_state sm')]).
  Proof.
    intros Hk. unfold unwound.
    assert (Hi : forall y sh c, let r := inner_init m stack md y sh c in
      mark (r_self r) = mark y /\ targets (r_tr r) = []).
    { intros y sh c. apply (init_quiet md y sh c). }
    assert (Hd : forall sm e c out sm' c' tr, dispatch_d stack md sm e c = (out, sm', c', tr) ->
      out <> Abort Diverges ->
      exists t ds, tr = map Did t ++ map Dropped ds /\
      length ds = length (targets t) /\ length ds <= 1 /\
      Permutation (map mark ds ++ [mark (sm_state sm')]) (mark (sm_state sm) :: map mark (targets t)) /\
      (out = Ret tt -> forall d, In d ds -> exists t0, t = t0 ++ [OAfterTransition d (sm_state sm')])).
    { intros s e c o1 s1 c1 tr1. unfold dispatch_d. intros [= <- <- <- <-] Hu.
      exact (inner_handle_drops md e _ _ _ eq_refl Hu). }
    assert (Hfin : forall t ds, targets_in (map Did t ++ map Dropped ds) = targets t).
    { intros t ds. rewrite targets_in_app, targets_in_dropped, app_nil_r. reflexivity. }
    destruct o as [c | e c | f | f]; cbn [exec_d exec].
    - unfold init_with_context. destruct (negb (initialized sm)).
      + unfold run_inner. cbn [a_out a_machine a_cx a_tr].
        destruct (Hi (state (sm_inner sm)) (shared_storage (sm_inner sm)) c) as [K1 T1]. cbv zeta in K1, T1.
        destruct (r_out (inner_init m stack md _ _ c)) as [[] | w]; cbn [a_out a_machine a_cx a_tr];
          intros [= <- <- <- <-] Hu; eexists _, [];
          (split; [symmetry; apply app_nil_r |]);
          change (targets_in (map Did ?t)) with (targets t); rewrite T1;
          (split; [reflexivity | split; [apply Nat.le_0_l |]]);
          (split; [cbn; rewrite K1; reflexivity | intros _ d []]).
      + cbn. intros [= <- <- <- <-] Hu. exists [], [].
        repeat split; try reflexivity; [apply Nat.le_0_l | intros _ d []].
    - unfold handle_d. destruct (negb (initialized sm)).
      + unfold run_inner. cbn [a_out a_machine a_cx a_tr].
        destruct (Hi (state (sm_inner sm)) (shared_storage (sm_inner sm)) c) as [K1 T1]. cbv zeta in K1, T1.
        destruct (r_out (inner_init m stack md _ _ c)) as [[] | w]; cbn [a_out a_machine a_cx a_tr].
        * destruct (dispatch_d stack md _ e _) as [[[o1 s1] c1] tr1] eqn:E. intros [= <- <- <- <-] Hu.
          destruct (Hd _ _ _ _ _ _ _ E Hu) as (t & ds & -> & L & L1 & P & Hend).
          eexists (_ ++ t), ds. rewrite map_app, <- app_assoc. split; [reflexivity |].
          rewrite app_assoc, <- map_app, Hfin, targets_app, T1. cbn [app].
          split; [exact L | split; [exact L1 | split]].
          { rewrite P. cbn. rewrite K1. reflexivity. }
          intros Ho d Hin. destruct (Hend Ho d Hin) as [t0 ->].
          eexists. apply app_assoc.
        * intros [= <- <- <- <-] Hu. eexists _, [].
          split; [symmetry; apply app_nil_r |].
          change (targets_in (map Did ?t)) with (targets t); rewrite T1.
          split; [reflexivity | split; [apply Nat.le_0_l |]].
          split; [cbn; rewrite K1; reflexivity | intros _ d []].
      + destruct (dispatch_d stack md sm e c) as [[[o1 s1] c1] tr1] eqn:E. intros [= <- <- <- <-] Hu.
        destruct (Hd _ _ _ _ _ _ _ E Hu) as (t & ds & -> & L & L1 & P & Hend).
        exists t, ds. rewrite Hfin. repeat split; assumption.
    - cbn. intros [= <- <- <- <-] Hu. exists [], [].
      repeat split; try reflexivity; [apply Nat.le_0_l | intros _ d []].
    - cbn. intros [= <- <- <- <-] Hu. exists [], [].
      repeat split; try reflexivity; [apply Nat.le_0_l | | intros _ d []].
      cbn. rewrite Hk. reflexivity.
  Qed.

  Lemma run_drops md ops : forall sm rs sm',
    Forall (keeps_marks mark) ops -> run_d stack md ops sm = (rs, sm') ->
    Forall (fun r => unwound (fst r)) rs ->
    Permutation
      (map mark (flat_map (fun r => drops_in (snd r)) rs) ++ [mark (sm_state sm')])
      (mark (sm_state sm) :: map mark (flat_map (fun r => targets_in (snd r)) rs)).
  Proof.
    induction ops as [| o ops IH]; intros sm rs sm' Hk; cbn [run_d].
    - intros [= <- <-] _. reflexivity.
    - inversion Hk as [| ? ? Ho Hops]; subst.
      destruct (exec_d stack md o sm) as [[[out s1] c1] t1] eqn:E.
      destruct (run_d stack md ops s1) as [rs1 s2] eqn:E2. intros [= <- <-] Hu.
      inversion Hu as [| ? ? Hu1 Hus]; subst. cbn [fst] in Hu1.
      destruct (exec_drops md o sm Ho E Hu1) as (t & ds & Et & _ & _ & P & _).
      specialize (IH _ _ _ Hops E2 Hus).
      cbn [flat_map snd]. rewrite !map_app.
      replace (drops_in t1) with ds
        by (subst t1; rewrite drops_in_app, drops_in_did, drops_in_dropped; reflexivity).
      rewrite <- app_assoc, IH.
      rewrite app_comm_cons, <- P. rewrite <- app_assoc. reflexivity.
  Qed.
End Count.
