(** AnyProofs.v — what needs no assumptions on the machine. *)

From Coq Require Import List Bool Arith Lia.
From Verif Require Import Machine Blocking Awaitable Api Spec TripleProofs ShapeProofs
  DispatchProofs TransitionProofs ApiProofs TotalProofs AnySpec.
Import ListNotations.
Set Implicit Arguments.
Local Open Scope comp_scope.

Section Any.
  Variable m : machine.

  (** Every run of [c] from a state with [P] satisfies [Q]. *)
  Definition yields {X A} (P : X -> Prop) (c : comp m X A) (Q : list (obs m) -> outcome A -> X -> Prop) : Prop :=
    forall x sh cx, P x -> Q (r_tr (c x sh cx)) (r_out (c x sh cx)) (r_self (c x sh cx)).
  Definition by_user (w : why) : Prop := w = Panicked \/ w = DroppedFuture.

  Lemma y_bind {X A B} P (c : comp m X A) (k : A -> comp m X B) Q :
    yields P c (fun t o x => match o with
                             | Ret a => yields (eq x) (k a) (fun t' o' x' => Q (t ++ t') o' x')
                             | Abort w => Q t (Abort w) x
                             end) ->
    yields P (bind c k) Q.
  Proof.
    intros H x sh cx Hx. specialize (H x sh cx Hx). unfold bind.
    destruct (r_out (c x sh cx)) as [a|w]; [|exact H]. exact (H _ _ _ eq_refl).
  Qed.
  Lemma y_self {X B} (P : X -> Prop) (k : X -> comp m X B) Q :
    (forall x, P x -> yields (eq x) (k x) Q) -> yields P (bind self k) Q.
  Proof. intros H x sh cx Hx. rewrite self_bind_run. exact (H x Hx x sh cx eq_refl). Qed.
  Lemma y_ret {X A} (P : X -> Prop) (a : A) (Q : list (obs m) -> outcome A -> X -> Prop) : (forall x : X, P x -> Q [] (Ret a) x) -> yields P (ret a) Q.
  Proof. intros H x sh cx Hx. apply H, Hx. Qed.
  Lemma y_lift {X A} (P : X -> Prop) (o : outcome A) (Q : list (obs m) -> outcome A -> X -> Prop) : (forall x : X, P x -> Q [] o x) -> yields P (lift o) Q.
  Proof. intros H x sh cx Hx. apply H, Hx. Qed.
  Lemma y_via {X V A} (P : X -> Prop) put (v : V) (c : comp m V A) (Q : list (obs m) -> outcome A -> X -> Prop) R :
    yields (eq v) c R -> (forall x t o v', P x -> R t o v' -> Q t o (put x v')) -> yields P (via put v c) Q.
  Proof. intros H G x sh cx Hx. unfold via. cbn. apply G; [exact Hx|]. apply H. reflexivity. Qed.
  Lemma y_weaken {X A} (P P' : X -> Prop) (c : comp m X A) (Q Q' : list (obs m) -> outcome A -> X -> Prop) :
    yields P' c Q' -> (forall x, P x -> P' x) -> (forall t o x, Q' t o x -> Q t o x) -> yields P c Q.
  Proof. intros H G K x sh cx Hx. apply K, H, G, Hx. Qed.

  Lemma y_ext {X A} (P : X -> Prop) (c : comp m X A) (c' : X -> comp m X A) Q :
    (forall x sh cx, c x sh cx = c' x x sh cx) -> (forall x, P x -> yields (eq x) (c' x) Q) -> yields P c Q.
  Proof. intros E H x sh cx Hx. rewrite E. exact (H x Hx x sh cx eq_refl). Qed.
  Lemma y_hook {X} (P : X -> Prop) f (ob : obs m) (Q : list (obs m) -> outcome unit -> X -> Prop) :
    (forall x o, P x -> (o = Ret tt \/ exists w, o = Abort w /\ by_user w) -> Q [ob] o x) ->
    yields P (call_hook f ob) Q.
  Proof.
    intros H x sh cx Hx. unfold call_hook. destruct (f sh) as [[[]| |] sh']; cbn; apply H; auto; right.
    - exists Panicked. split; [reflexivity|now left].
    - exists DroppedFuture. split; [reflexivity|now right].
  Qed.
  Lemma y_action {X} (P : X -> Prop) f (ob : X -> obs m) (Q : list (obs m) -> outcome unit -> X -> Prop) :
    (forall x x' o, P x -> (o = Ret tt \/ exists w, o = Abort w /\ by_user w) -> Q [ob x] o x') ->
    yields P (call_action f ob) Q.
  Proof.
    intros H x sh cx Hx. unfold call_action. destruct (f x sh cx) as [[[[[]| |] x'] sh'] cx']; cbn; apply H; auto; right.
    - exists Panicked. split; [reflexivity|now left].
    - exists DroppedFuture. split; [reflexivity|now right].
  Qed.
  Lemma y_handler {X} (P : X -> Prop) f (nd : X -> node (State m) (Sup m)) e (Q : list (obs m) -> outcome (response (State m)) -> X -> Prop) :
    (forall x sh cx r x' sh' cx', P x -> f x sh cx e = (r, x', sh', cx') ->
       match r with
       | Returns a => Q [OHandler (nd x) e; OReturn a] (Ret a) x'
       | _ => forall w, by_user w -> Q [OHandler (nd x) e] (Abort w) x'
       end) ->
    yields P (call_handler m f nd e) Q.
  Proof.
    intros H x sh cx Hx. unfold call_handler. specialize (H x sh cx).
    destruct (f x sh cx e) as [[[r x'] sh'] cx'] eqn:E. specialize (H _ _ _ _ Hx eq_refl).
    destruct r; cbn; [exact H|apply H; now left|apply H; now right].
  Qed.

  (** ** Dispatch *)

  (** What a dispatch that ended with [o] logged. *)
  Definition good (n : nat) (t : list (obs m)) (o : outcome (response (State m))) : Prop :=
    forallb (fun o => is_dispatch_hook o || is_handler o) t = true /\ handlers_in t <= n /\
    match o with
    | Ret (Transition s) => exists k, answers_in t = repeat Super k ++ [Transition s]
    | Ret _ => exists k, answers_in t = repeat Super k \/ answers_in t = repeat Super k ++ [Handled]
    | Abort w => by_user w /\ exists k, answers_in t = repeat Super k \/ exists a, answers_in t = repeat Super k ++ [a]
    end.

  Lemma answers_app (t t' : list (obs m)) : answers_in (t ++ t') = answers_in t ++ answers_in t'.
  Proof. apply flat_map_app. Qed.
  Lemma handlers_app (t t' : list (obs m)) : handlers_in (t ++ t') = handlers_in t + handlers_in t'.
  Proof. unfold handlers_in. rewrite filter_app, app_length. reflexivity. Qed.

  Definition is_hooky (t : list (obs m)) : Prop := forallb (@is_dispatch_hook m) t = true.
  Lemma hooky_answers (t : list (obs m)) : is_hooky t -> answers_in t = [].
  Proof. induction t as [|[] t IH]; cbn; intros H; try discriminate; auto. Qed.
  Lemma hooky_handlers (t : list (obs m)) : is_hooky t -> handlers_in t = 0.
  Proof. unfold handlers_in. induction t as [|[] t IH]; cbn; intros H; try discriminate; auto. Qed.
  Lemma hooky_ok (t : list (obs m)) : is_hooky t -> forallb (fun o => is_dispatch_hook o || is_handler o) t = true.
  Proof. induction t as [|[] t IH]; cbn; intros H; try discriminate; auto. Qed.

  (** Hooks around. *)
  Lemma good_hooks n t1 t t2 o : is_hooky t1 -> is_hooky t2 -> good n t o -> good n (t1 ++ t ++ t2) o.
  Proof.
    intros H1 H2 (A & B & C). unfold good. rewrite !forallb_app, A, (hooky_ok H1), (hooky_ok H2), !handlers_app, !answers_app,
      (hooky_handlers H1), (hooky_handlers H2), (hooky_answers H1), (hooky_answers H2), app_nil_r. cbn [app].
    split; [reflexivity|]. split; [lia|exact C].
  Qed.
  Lemma good_abort n t o w : good n t (Ret o) -> by_user w -> good n t (Abort w).
  Proof.
    intros (A & B & C) Hw. split; [exact A|]. split; [exact B|]. split; [exact Hw|].
    destruct o as [| |s]; destruct C as [k C]; exists k.
    - destruct C as [C|C]; [now left|right; eauto].
    - destruct C as [C|C]; [now left|right; eauto].
    - right; eauto.
  Qed.
  Lemma good_le n n' t o : n <= n' -> good n t o -> good n' t o.
  Proof. intros L (A & B & C). split; [exact A|]. split; [lia|exact C]. Qed.
  (** One handler, nothing or a dispatch above. *)
  Lemma good_nothing n w : by_user w -> good n [] (Abort w).
  Proof. intros H. split; [reflexivity|]. split; [unfold handlers_in; cbn; lia|]. split; [exact H|]. exists 0. now left. Qed.
  Lemma good_call nd e w : by_user w -> good 1 [OHandler nd e] (Abort w).
  Proof. intros H. split; [reflexivity|]. split; [unfold handlers_in; cbn; lia|]. split; [exact H|]. exists 0. now left. Qed.
  Lemma good_answer nd e a : good 1 [OHandler nd e; OReturn a] (Ret a).
  Proof.
    split; [reflexivity|]. split; [unfold handlers_in; cbn; lia|]. destruct a as [| |s].
    - exists 0. now right.
    - exists 1. now left.
    - now exists 0.
  Qed.
  Lemma good_super n t1 t o : good n t1 (Ret Super) -> answers_in t1 = [Super] -> forall n', good n' t o -> good (n + n') (t1 ++ t) o.
  Proof.
    intros (A & B & _) E n' (A' & B' & C'). unfold good. rewrite forallb_app, A, A', handlers_app, answers_app, E.
    split; [reflexivity|]. split; [lia|]. cbn [app]. destruct o as [[| |s]|w].
    - destruct C' as [k [C|C]]; exists (S k); rewrite C; first [reflexivity|left; reflexivity|right; reflexivity].
    - destruct C' as [k [C|C]]; exists (S k); rewrite C; first [reflexivity|left; reflexivity|right; reflexivity].
    - destruct C' as [k C]; exists (S k); rewrite C; first [reflexivity|left; reflexivity|right; reflexivity].
    - destruct C' as [W [k [C|[a C]]]]; (split; [exact W|]); exists (S k); rewrite C; first [left; reflexivity|right; eexists; reflexivity].
  Qed.

  Variable stack : nat.
  Variable rank : Sup m -> nat.
  Hypothesis G : goes_up m stack rank.
  Variable e : Event m.

  Lemma loop_good n : forall P : Sup m -> Prop, (forall u, P u -> rank u < n) -> yields P (handle_loop m n e) (fun t o _ => good n t o).
  Proof.
    induction n as [|n IH]; intros P HP; [intros u sh cx Hu; specialize (HP u Hu); lia|].
    cbn [handle_loop]. apply y_self. intros u0 Hu0. apply y_bind. apply y_hook.
    intros u1 o <- [->|(w & -> & Hw)];
      [|apply (good_hooks (t1 := [_]) (t := []) (t2 := [])); [reflexivity..|now apply good_nothing]].
    apply y_bind. apply y_handler. intros u1 sh cx r u' sh' cx' <- E. pose proof (gu_handler G _ _ _ _ E) as L. specialize (HP _ Hu0).
    destruct r as [a| |]; [|intros w Hw; apply (good_hooks (t1 := [_]) (t := [_]) (t2 := [])); [reflexivity..|]; eapply good_le; [|now apply good_call]; lia..].
    apply y_self. intros u2 <-. apply y_bind. apply y_hook. intros u2 o <- [->|(w & -> & Hw)].
    2:{ apply (good_hooks (t1 := [_]) (t := [_; _]) (t2 := [_])); [reflexivity..|]. eapply good_le; [|eapply good_abort; [apply good_answer|exact Hw]]; lia. }
    destruct a as [| |s].
    - apply y_ret. intros _ _. apply (good_hooks (t1 := [_]) (t := [_; _]) (t2 := [_])); [reflexivity..|]. eapply good_le; [|apply good_answer]; lia.
    - apply y_self. intros u2 <-. destruct (u_super m u') as [v|] eqn:Ev.
      + eapply y_via; [apply (IH (eq v)); intros ? <-; pose proof (gu_up G _ Ev); lia|]. intros x t o v' _ Gd. cbv beta.
        apply (@good_super 1 [_; _; _; _] t o); [|reflexivity|exact Gd].
        apply (good_hooks (t1 := [_]) (t := [_; _]) (t2 := [_])); [reflexivity..|]. apply good_answer.
      + apply y_ret. intros _ _. apply (good_hooks (t1 := [_]) (t := [_; _]) (t2 := [_])); [reflexivity..|].
        split; [reflexivity|]. split; [unfold handlers_in; cbn; lia|]. exists 1. now left.
    - apply y_ret. intros _ _. apply (good_hooks (t1 := [_]) (t := [_; _]) (t2 := [_])); [reflexivity..|]. eapply good_le; [|apply good_answer]; lia.
  Qed.

  Lemma super_good n : forall P : Sup m -> Prop, (forall u, P u -> rank u < n) -> yields P (superstate_handle m n e) (fun t o _ => good n t o).
  Proof.
    induction n as [|n IH]; intros P HP; [intros u sh cx Hu; specialize (HP u Hu); lia|].
    cbn [superstate_handle]. apply y_bind. apply y_handler. intros u1 sh cx r u' sh' cx' Hu E.
    pose proof (gu_handler G _ _ _ _ E) as L. specialize (HP _ Hu).
    destruct r as [a| |]; [|intros w Hw; eapply good_le; [|now apply good_call]; lia..].
    destruct a as [| |s].
    - apply y_ret. intros _ _. eapply good_le; [|apply good_answer]; lia.
    - apply y_self. intros u2 <-. destruct (u_super m u') as [v|] eqn:Ev.
      2:{ apply y_ret. intros _ _. eapply good_le; [|apply good_answer]; lia. }
      pose proof (gu_up G _ Ev) as L'.
      apply (@y_via _ _ _ _ _ v _ _ (fun t o _ => good n t o)).
      2:{ intros x t o v' _ Gd. cbv beta. apply (@good_super 1 [_; _] t o); [apply good_answer|reflexivity|exact Gd]. }
      apply y_self. intros v0 <-. apply y_bind. apply y_hook. intros v1 o <- [->|(w & -> & Hw)];
        [|apply (good_hooks (t1 := [_]) (t := []) (t2 := [])); [reflexivity..|now apply good_nothing]].
      apply y_bind. eapply y_weaken; [apply (IH (eq v)); intros ? <-; lia|auto|]. intros t o v1 Gd. cbv beta in Gd.
      destruct o as [a|w]; [|rewrite <- (app_nil_r t); apply (good_hooks (t1 := [_]) (t := t) (t2 := [])); [reflexivity..|]; exact Gd].
      apply y_self. intros v2 <-. apply y_bind. apply y_hook. intros v2 o <- [->|(w & -> & Hw)].
      + apply y_ret. intros _ _. rewrite app_nil_r. apply (good_hooks (t1 := [_]) (t := t) (t2 := [_])); [reflexivity..|exact Gd].
      + apply (good_hooks (t1 := [_]) (t := t) (t2 := [_])); [reflexivity..|]. now apply (good_abort Gd).
    - apply y_ret. intros _ _. eapply good_le; [|apply good_answer]; lia.
  Qed.

  Lemma state_good md P : yields P (mode_state_handle m stack e md) (fun t o _ => good (S stack) t o).
  Proof.
    assert (K : forall u, rank u < stack) by apply (gu_bound G).
    unfold mode_state_handle. destruct md; unfold Blocking.state_handle, Awaitable.state_handle.
    all: apply y_self; intros x0 Hx0; apply y_bind; apply y_hook;
      (intros x1 o <- [->|(w & -> & Hw)];
      [|apply (good_hooks (t1 := [_]) (t := []) (t2 := [])); [reflexivity..|now apply good_nothing]]);
      apply y_bind; apply y_handler; intros x1 sh cx r x' sh' cx' <- E;
      (destruct r as [a| |]; [|intros w Hw; apply (good_hooks (t1 := [_]) (t := [_]) (t2 := [])); [reflexivity..|]; eapply good_le; [|now apply good_call]; lia..]);
      apply y_self; intros x2 <-; apply y_bind; apply y_hook; intros x2 o <- [->|(w & -> & Hw)];
      [|apply (good_hooks (t1 := [_]) (t := [_; _]) (t2 := [_])); [reflexivity..|]; eapply good_le; [|eapply good_abort; [apply good_answer|exact Hw]]; lia].
    all: destruct a as [| |s];
      [apply y_ret; intros _ _; apply (good_hooks (t1 := [_]) (t := [_; _]) (t2 := [_])); [reflexivity..|]; eapply good_le; [|apply good_answer]; lia
      |apply y_self; intros x2 <-; destruct (s_super m x') as [u|] eqn:Eu;
        [|apply y_ret; intros _ _; apply (good_hooks (t1 := [_]) (t := [_; _]) (t2 := [_])); [reflexivity..|]; eapply good_le; [|apply good_answer]; lia]
      |apply y_ret; intros _ _; apply (good_hooks (t1 := [_]) (t := [_; _]) (t2 := [_])); [reflexivity..|]; eapply good_le; [|apply good_answer]; lia].
    all: apply (@y_via _ _ _ _ _ u _ _ (fun t o _ => good stack t o));
      [|intros x t o v' _ Gd; cbv beta; apply (@good_super 1 [_; _; _; _] t o); [|reflexivity|exact Gd];
        apply (good_hooks (t1 := [_]) (t := [_; _]) (t2 := [_])); [reflexivity..|]; apply good_answer].
    - apply y_self. intros v0 <-. apply y_bind. apply y_hook. intros v1 o <- [->|(w & -> & Hw)];
        [|apply (good_hooks (t1 := [_]) (t := []) (t2 := [])); [reflexivity..|now apply good_nothing]].
      apply y_bind. eapply y_weaken; [apply (super_good (n := stack) (eq u)); intros ? <-; apply K|auto|]. intros t o v1 Gd. cbv beta in Gd.
      destruct o as [a|w]; [|rewrite <- (app_nil_r t); apply (good_hooks (t1 := [_]) (t := t) (t2 := [])); [reflexivity..|]; exact Gd].
      apply y_self. intros v2 <-. apply y_bind. apply y_hook. intros v2 o <- [->|(w & -> & Hw)].
      + apply y_ret. intros _ _. rewrite app_nil_r. apply (good_hooks (t1 := [_]) (t := t) (t2 := [_])); [reflexivity..|exact Gd].
      + apply (good_hooks (t1 := [_]) (t := t) (t2 := [_])); [reflexivity..|]. now apply (good_abort Gd).
    - apply loop_good. intros ? <-. apply K.
  Qed.
End Any.

(** ** Actions *)

Section Actions.
  Variable m : machine.
  Variable f : obs m -> bool.

  (** Only calls with [f], at most [n]. *)
  Definition acts_only (n : nat) (t : list (obs m)) (o : outcome unit) : Prop :=
    forallb f t = true /\ length t <= n /\ (o = Ret tt \/ exists w, o = Abort w /\ by_user w).
  Lemma ao_le n n' t o : n <= n' -> acts_only n t o -> acts_only n' t o.
  Proof. intros L (A & B & C). split; [exact A|]. split; [lia|exact C]. Qed.
  Lemma ao_app n t n' t' o o' : acts_only n t o -> acts_only n' t' o' -> acts_only (n + n') (t ++ t') o'.
  Proof. intros (A & B & _) (A' & B' & C). split; [now rewrite forallb_app, A, A'|]. split; [rewrite app_length; lia|exact C]. Qed.
  Lemma ao_nil n : acts_only n [] (Ret tt).
  Proof. split; [reflexivity|]. split; [cbn; lia|now left]. Qed.
  Lemma ao_one ob o : f ob = true -> (o = Ret tt \/ exists w, o = Abort w /\ by_user w) -> acts_only 1 [ob] o.
  Proof. intros H C. split; [cbn; now rewrite H|]. split; [cbn; lia|exact C]. Qed.
  Lemma y_seq {X} (P : X -> Prop) (c d : comp m X unit) n n' :
    yields P c (fun t o _ => acts_only n t o) -> yields (fun _ => True) d (fun t o _ => acts_only n' t o) ->
    yields P (c ;;; d) (fun t o _ => acts_only (n + n') t o).
  Proof.
    intros H K. apply y_bind. eapply y_weaken; [exact H|auto|]. cbv beta. intros t o x A. destruct o as [[]|w].
    - cbv beta iota. apply y_weaken with (P' := fun _ => True) (Q' := fun t1 o1 (_ : X) => acts_only n' t1 o1); [exact K|trivial|]. intros t1 o1 x1 B. exact (ao_app A B).
    - eapply ao_le; [|exact A]. lia.
  Qed.
End Actions.

Section Levels.
  Variable m : machine.
  Notation exits := (acts_only (@is_exit m)).
  Notation enters := (acts_only (@is_enter m)).

  Lemma y_exit_s P : yields P (s_call_exit m) (fun t o _ => exits 1 t o /\ exists s, t = [OExit (NState s)]).
  Proof. apply y_action. intros x x' o _ C. split; [now apply ao_one|eauto]. Qed.
  Lemma y_exit_u P : yields P (u_call_exit m) (fun t o _ => exits 1 t o).
  Proof. apply y_action. intros x x' o _ C. now apply ao_one. Qed.
  Lemma y_entry_s P : yields P (s_call_entry m) (fun t o _ => enters 1 t o /\ exists s, t = [OEnter (NState s)]).
  Proof. apply y_action. intros x x' o _ C. split; [now apply ao_one|eauto]. Qed.
  Lemma y_entry_u P : yields P (u_call_entry m) (fun t o _ => enters 1 t o).
  Proof. apply y_action. intros x x' o _ C. now apply ao_one. Qed.

  (** The optional superstate. *)
  Lemma y_opt {X} f (P : X -> Prop) (o : option (Sup m)) put (c : comp m (Sup m) unit) n :
    (forall P, yields P c (fun t o _ => acts_only f n t o)) ->
    yields P (match o with Some v => via put v c | None => ret tt end) (fun t o _ => acts_only f n t o).
  Proof.
    intros H. destruct o as [v|].
    - eapply y_via; [apply H|]. cbv beta. auto.
    - apply y_ret. intros _ _. apply ao_nil.
  Qed.

  Lemma superstate_exit_any n : forall P, yields P (superstate_exit m n) (fun t o _ => exits n t o).
  Proof.
    induction n as [|[|n] IH]; intros P.
    - apply y_ret. intros _ _. apply ao_nil.
    - apply y_exit_u.
    - change (yields P (u_call_exit m ;;; u <- self ;; match u_super m u with Some v => via (u_put m) v (superstate_exit m (S n)) | None => ret tt end) (fun t o _ => exits (1 + S n) t o)).
      apply y_seq; [apply y_exit_u|]. apply y_self. intros u _. apply y_opt. exact IH.
  Qed.
  Lemma exit_loop_any n : forall P, yields P (exit_loop m n) (fun t o _ => exits n t o).
  Proof.
    induction n as [|n IH]; intros P; [apply y_ret; intros _ _; apply ao_nil|].
    change (yields P (u_call_exit m ;;; u <- self ;; match u_super m u with Some v => via (u_put m) v (exit_loop m n) | None => ret tt end) (fun t o _ => exits (1 + n) t o)).
    apply y_seq; [apply y_exit_u|]. apply y_self. intros u _. apply y_opt. exact IH.
  Qed.
  Lemma superstate_enter_any n : forall P, yields P (superstate_enter m n) (fun t o _ => enters n t o).
  Proof.
    induction n as [|[|n] IH]; intros P.
    - apply y_ret. intros _ _. apply ao_nil.
    - apply y_entry_u.
    - change (yields P (u <- self ;; match u_super m u with Some v => via (u_put m) v (superstate_enter m (S n)) | None => ret tt end ;;; u_call_entry m) (fun t o _ => enters (S (S n)) t o)).
      replace (S (S n)) with (S n + 1) by lia.
      apply y_self. intros u _. apply y_seq; [apply y_opt; exact IH|apply y_entry_u].
  Qed.
  Lemma climb_any n : forall P, yields P (climb_entry m n) (fun t o _ => enters 1 t o).
  Proof.
    induction n as [|n IH]; intros P; [apply y_entry_u|]. cbn [climb_entry]. apply y_self. intros u _.
    destruct (u_super m u) as [v|]; [|apply y_entry_u]. eapply y_via; [apply IH|]. cbv beta. auto.
  Qed.

  Lemma mode_exit_any md n P : yields P (mode_exit m md (S n))
    (fun t o _ => exits (S n) t o /\ exists s l, t = OExit (NState s) :: l).
  Proof.
    assert (K : forall c : comp m (Sup m) unit, (forall P, yields P c (fun t o _ => exits n t o)) ->
      yields P (s_call_exit m ;;; x <- self ;; match s_super m x with Some u => via (s_put m) u c | None => ret tt end)
        (fun t o _ => exits (S n) t o /\ exists s l, t = OExit (NState s) :: l)).
    { intros c H. apply y_bind. eapply y_weaken; [apply y_exit_s with (P := P)|auto|]. cbv beta. intros t o x (A & s & ->).
      destruct o as [[]|w]; [|split; [eapply ao_le; [|exact A]; lia|eauto]]. apply y_self. intros x1 <-.
      eapply y_weaken with (P' := fun _ => True) (Q' := fun t o _ => exits n t o); [apply y_opt; exact H|trivial|].
      cbv beta. intros t o _ B. split; [exact (ao_app A B)|]. cbn. eauto. }
    unfold mode_exit. destruct md.
    - unfold Blocking.state_exit. destruct n as [|n]; [|apply K, superstate_exit_any].
      eapply y_weaken; [apply y_exit_s with (P := P)|auto|]. cbv beta. intros t o x (A & s & ->). eauto.
    - unfold Awaitable.state_exit. change (1 <=? S n) with true. cbn iota. replace (S n - 1) with n by lia. apply K, exit_loop_any.
  Qed.

  Definition ends_at_leaf (t : list (obs m)) (o : outcome unit) : Prop :=
    o = Ret tt -> exists l s, t = l ++ [OEnter (NState s)].
  Lemma mode_enter_any md n : forall P, yields P (mode_enter m md (S n)) (fun t o _ => enters (S n) t o /\ ends_at_leaf t o).
  Proof.
    unfold mode_enter. destruct md.
    - intros P. unfold Blocking.state_enter. destruct n as [|n].
      + eapply y_weaken; [apply y_entry_s with (P := P)|auto|]. cbv beta. intros t o x (A & s & ->). split; [exact A|]. intros _. exists [], s. reflexivity.
      + apply y_self. intros x _. apply y_bind. eapply y_weaken with (Q' := fun t o _ => enters (S n) t o) (P' := eq x); [apply y_opt; apply superstate_enter_any|auto|].
        cbv beta. intros t o x1 A. destruct o as [[]|w]; [|split; [eapply ao_le; [|exact A]; lia|intros D; discriminate]].
        eapply y_weaken; [apply y_entry_s with (P := eq x1)|auto|]. cbv beta. intros t' o x2 (B & s & ->).
        split; [|intros _; eauto]. eapply ao_le; [|exact (ao_app A B)]. lia.
    - induction n as [|n IH]; intros P.
      + eapply y_weaken; [apply y_entry_s with (P := P)|auto|]. cbv beta. intros t o x (A & s & ->). split; [exact A|]. intros _. exists [], s. reflexivity.
      + change (yields P (x <- self ;; match s_super m x with Some u => via (s_put m) u (climb_entry m n) | None => ret tt end ;;; Awaitable.state_enter m (S n))
                 (fun t o _ => enters (S (S n)) t o /\ ends_at_leaf t o)).
        apply y_self. intros x _. apply y_bind. eapply y_weaken with (Q' := fun t o _ => enters 1 t o) (P' := eq x); [apply y_opt; apply climb_any|auto|].
        cbv beta. intros t o x1 A. destruct o as [[]|w]; [|split; [eapply ao_le; [|exact A]; lia|intros D; discriminate]].
        eapply y_weaken; [apply IH with (P := eq x1)|auto|]. cbv beta. intros t' o x2 (B & C).
        split; [exact (ao_app A B)|]. intros R. destruct (C R) as (l & s & ->). exists (t ++ l), s. now rewrite app_assoc.
  Qed.

  Variable stack : nat.
  Variable rank : Sup m -> nat.
  Hypothesis G : goes_up m stack rank.

  Lemma depth_any n : forall u, rank u < n -> exists d, superstate_depth m n u = Ret (S d) /\ d <= rank u.
  Proof.
    induction n as [|n IH]; intros u L; [lia|]. cbn [superstate_depth]. destruct (u_super m u) as [v|] eqn:E.
    - pose proof (gu_up G _ E). destruct (IH v ltac:(lia)) as (d & -> & Ld). exists (S d). split; [f_equal; lia|lia].
    - exists 0. split; [reflexivity|lia].
  Qed.
  Lemma depth_ok u : exists d, superstate_depth m stack u = Ret (S d) /\ S d <= stack.
  Proof. pose proof (gu_bound G u). destruct (depth_any H) as (d & E & L). exists d. split; [exact E|lia]. Qed.
  Lemma state_depth_any x : exists d, Blocking.state_depth m stack x = Ret (S d) /\ d <= stack.
  Proof.
    unfold Blocking.state_depth. destruct (s_super m x) as [u|]; [|exists 0; split; [reflexivity|lia]].
    destruct (depth_ok u) as (d & -> & L). exists (S d). split; [f_equal; lia|lia].
  Qed.
  Lemma cad_any n : forall u v, rank u + rank v < n -> exists c, superstate_common_ancestor_depth m stack n u v = Ret c.
  Proof.
    induction n as [|n IH]; intros u v L; [lia|]. cbn [superstate_common_ancestor_depth].
    destruct (depth_ok u) as (du & Eu & _), (depth_ok v) as (dv & Ev & _). rewrite Eu, Ev.
    destruct (u_super m u) as [u'|] eqn:Su, (u_super m v) as [v'|] eqn:Sv;
      try pose proof (gu_up G _ Su); try pose proof (gu_up G _ Sv);
      destruct (Nat.compare (S du) (S dv)); try destruct (same_superstate m u v); eauto; apply IH; lia.
  Qed.
  Lemma path_any x t : exists a b, Blocking.transition_path m stack x t = Ret (S a, S b) /\ a <= stack /\ b <= stack.
  Proof.
    pose proof (transition_path_no_underflow m stack x t) as N. unfold Blocking.transition_path in *.
    destruct (same_state m x t); [exists 0, 0; repeat split; lia|].
    unfold Blocking.state_depth in *.
    destruct (s_super m x) as [u|], (s_super m t) as [v|].
    - destruct (depth_ok u) as (du & Eu & Lu), (depth_ok v) as (dv & Ev & Lv). rewrite Eu, Ev in *.
      pose proof (gu_bound G u). pose proof (gu_bound G v).
      destruct (@cad_any (stack + stack) u v ltac:(lia)) as [c Ec]. rewrite Ec in *.
      destruct (cad_le m stack _ _ _ Ec Eu Ev) as [L1 L2]. unfold checked_sub.
      destruct (c <=? S du + 1) eqn:B1; [|apply Nat.leb_gt in B1; lia].
      destruct (c <=? S dv + 1) eqn:B2; [|apply Nat.leb_gt in B2; lia].
      exists (S du - c), (S dv - c). split; [f_equal; f_equal; lia|lia].
    - destruct (depth_ok u) as (du & -> & Lu). exists (S du), 0. split; [f_equal; f_equal; lia|lia].
    - destruct (depth_ok v) as (dv & -> & Lv). exists 0, (S dv). split; [f_equal; f_equal; lia|lia].
    - exists 0, 0. repeat split; lia.
  Qed.

  Lemma transition_any md t P : yields P (mode_transition m stack md t)
    (fun tr o x => transits (S stack) o x tr /\ (o = Ret tt \/ exists w, o = Abort w /\ by_user w)).
  Proof.
    eapply y_ext with (c' := fun x => bind (match md with
          | BlockingMode => before_transition m t x
          | AwaitableMode => before_transition m x t end) (fun _ =>
    bind (lift (Blocking.transition_path m stack x t)) (fun levels =>
    bind (mode_exit m md (fst levels)) (fun _ =>
    bind (swap_state m t) (fun old =>
    bind (mode_enter m md (snd levels)) (fun _ =>
    bind self (fun new => after_transition m old new)))))));
      [intros x sh cx; apply mode_transition_eq|intros x _].
    assert (E : exists ob f, (match md with BlockingMode => before_transition m t x | AwaitableMode => before_transition m x t end : comp m (State m) unit)
                = call_hook f ob /\ exists a b, ob = OBeforeTransition a b).
    { destruct md; eexists _, _; (split; [reflexivity|eauto]). }
    destruct E as (ob & f & -> & a & b & ->). destruct (path_any x t) as (i & j & -> & Li & Lj).
    apply y_bind. apply y_hook. intros x0 o <- C. destruct o as [[]|w].
    2:{ split; [|exact C]. exists a, b, [], [], []. repeat split; auto; cbn; try lia. discriminate. }
    apply y_bind. apply y_lift. intros x0 <-. cbn [fst snd].
    apply y_bind. eapply y_weaken; [apply mode_exit_any with (P := eq x)|auto|]. cbv beta. intros xs o x1 ((A1 & A2 & A3) & s & l & El).
    destruct o as [[]|w].
    2:{ split; [|exact A3]. exists a, b, xs, [], []. cbn [app]. rewrite app_nil_r. repeat split; auto; try (cbn; lia); [right; eauto|discriminate]. }
    apply y_bind. intros x2 sh2 cx2 <-. cbn [swap_state r_tr r_out r_self].
    apply y_bind. eapply y_weaken; [apply mode_enter_any with (P := eq t)|auto|]. cbv beta. intros ys o x2 ((B1 & B2 & B3) & B4).
    destruct o as [[]|w].
    2:{ split; [|exact B3]. exists a, b, xs, ys, []. cbn [app]. rewrite app_nil_r. subst xs. repeat split; auto; try (cbn in *; lia); [right; eauto|discriminate|discriminate]. }
    destruct (B4 eq_refl) as (l' & s' & ->).
    apply y_self. intros x3 <-. apply y_hook. intros x3 o <- D. split; [|exact D].
    exists a, b, xs, (l' ++ [OEnter (NState s')]), [OAfterTransition x1 x2]. cbn [app].
    subst xs. repeat split; auto; try (cbn in *; lia); [right; eauto|discriminate|right; eauto 7|discriminate].
  Qed.

  Lemma handle_any md e P : yields P (inner_handle m stack md e)
    (fun tr o x =>
       (o = Ret tt \/ exists w, o = Abort w /\ by_user w) /\
       exists t1 t2, tr = t1 ++ t2 /\ dispatches (S stack) t1 /\
         ((t2 = [] /\ (o = Ret tt -> forall s, ~ In (Transition s) (answers_in t1))) \/
          (exists s l, answers_in t1 = l ++ [Transition s] /\ transits (S stack) o x t2))).
  Proof.
    eapply y_ext with (c' := fun _ => bind (mode_state_handle m stack e md)
      (fun r => match r with Super => ret tt | Handled => ret tt | Transition t => mode_transition m stack md t end));
      [intros x sh cx; apply mode_handle_eq|intros x00 _].
    assert (RS : forall k (r : response (State m)), In r (repeat Super k) -> r = Super) by (intros k r; apply repeat_spec).
    apply y_bind. eapply y_weaken; [apply (@state_good m stack rank G e md (eq x00))|auto|]. cbv beta. intros t1 o x (A & B & C).
    destruct o as [r|w].
    2:{ destruct C as (Hw & k & C). split; [right; eauto|]. exists t1, []. rewrite app_nil_r. split; [reflexivity|].
        split; [|left; split; [reflexivity|discriminate]]. split; [exact A|]. split; [exact B|].
        destruct C as [->|[a ->]]; [|rewrite removelast_last; apply RS]. intros r Hr. apply (RS k).
        destruct k; [destruct Hr|]. cbn [repeat] in *. rewrite repeat_cons in *. rewrite removelast_last in Hr. apply in_or_app. now left. }
    assert (RL : forall k r, In r (removelast (@repeat (response (State m)) Super k)) -> r = Super).
    { intros k r0 Hr. apply (RS k). destruct k; [destruct Hr|]. cbn [repeat] in *. rewrite repeat_cons in *. rewrite removelast_last in Hr. apply in_or_app. now left. }
    destruct r as [| |s]; [apply y_ret..|].
    1,2: intros x0 _; split; [now left|]; exists t1, []; split; [reflexivity|];
      destruct C as (k & [C|C]); rewrite C; unfold dispatches; rewrite C;
      (split; [split; [exact A|]; split; [exact B|]|left; split; [reflexivity|]; intros _ s Hs]);
      [apply RL|discriminate (RS _ _ Hs)|rewrite removelast_last; apply RS|
       apply in_app_or in Hs; destruct Hs as [Hs|[Hs|[]]]; [discriminate (RS _ _ Hs)|discriminate]].
    destruct C as (k & C).
    eapply y_weaken; [apply transition_any with (P := eq x)|auto|]. cbv beta. intros t2 o x2 (T & U).
    split; [exact U|]. exists t1, t2. split; [reflexivity|]. unfold dispatches. rewrite C, removelast_last.
    split; [split; [exact A|]; split; [exact B|apply RS]|]. right. eauto.
  Qed.

  Lemma init_any md P : yields P (inner_init m stack md)
    (fun tr o _ => enters (S stack) tr o /\ ends_at_leaf tr o).
  Proof.
    eapply y_ext with (c' := fun x => bind (lift (Blocking.state_depth m stack x)) (mode_enter m md));
      [intros x sh cx; apply mode_init_eq|intros x _].
    destruct (state_depth_any x) as (d & -> & L).
    apply y_bind. apply y_lift. intros x0 <-. eapply y_weaken; [apply mode_enter_any with (P := eq x)|auto|]. cbv beta.
    intros t o x1 (A & B). split; [|exact B]. eapply ao_le; [|exact A]. lia.
  Qed.
End Levels.
