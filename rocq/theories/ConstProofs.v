(** ConstProofs.v — lemmas for C80: what no callback writes stays. *)

From Coq Require Import List Bool Arith Lia.
From Verif Require Import Machine Blocking Awaitable Api Spec TripleProofs RefSpec RefProofs ConstSpec.
Import ListNotations.
Set Implicit Arguments.
Local Open Scope comp_scope.
Local Arguments targets : simpl never.

Section Const.
  Variable h : hierarchy.
  Variable m : machine.
  Variable stack : nat.
  Hypothesis Hf : follows h m.
  Hypothesis Hs : stable m.
  Hypothesis Hv : faithful_views m.
  Hypothesis Hh : height_at_most stack h.
  Variable R : node (State m) (Sup m) -> node (State m) (Sup m) -> Prop.
  Hypothesis U : lasting m R.
  Notation St := (comp m (State m)).
  Notation leads x y := (R (NState x) (NState y)).
  Notation nd := (node (State m) (Sup m)).

  Definition same_kind (n n' : nd) : Prop :=
    match n, n' with
    | NState x, NState y => s_disc m x = s_disc m y
    | NSuper u, NSuper v => u_disc m u = u_disc m v
    | _, _ => False
    end.
  Lemma handler_kind n sh cx e r n' sh' cx' : node_handler m n sh cx e = (r, n', sh', cx') -> same_kind n' n.
  Proof.
    destruct n as [x|u]; cbn.
    - destruct (s_handler m x sh cx e) as [[[q y] s] c] eqn:E. intros [= <- <- <- <-]. exact (st_s_handler Hs _ _ _ _ E).
    - destruct (u_handler m u sh cx e) as [[[q y] s] c] eqn:E. intros [= <- <- <- <-]. exact (st_u_handler Hs _ _ _ _ E).
  Qed.
  Lemma entry_kind n sh cx r n' sh' cx' : node_entry m n sh cx = (r, n', sh', cx') -> same_kind n' n.
  Proof.
    destruct n as [x|u]; cbn.
    - destruct (s_entry m x sh cx) as [[[q y] s] c] eqn:E. intros [= <- <- <- <-]. exact (st_s_entry Hs _ _ _ E).
    - destruct (u_entry m u sh cx) as [[[q y] s] c] eqn:E. intros [= <- <- <- <-]. exact (st_u_entry Hs _ _ _ E).
  Qed.
  Lemma exit_kind n sh cx r n' sh' cx' : node_exit m n sh cx = (r, n', sh', cx') -> same_kind n' n.
  Proof.
    destruct n as [x|u]; cbn.
    - destruct (s_exit m x sh cx) as [[[q y] s] c] eqn:E. intros [= <- <- <- <-]. exact (st_s_exit Hs _ _ _ E).
    - destruct (u_exit m u sh cx) as [[[q y] s] c] eqn:E. intros [= <- <- <- <-]. exact (st_u_exit Hs _ _ _ E).
  Qed.

  Lemma sup_write_part k : forall u w w', sup_look m k u = Some w -> u_disc m w' = u_disc m w ->
    R (NSuper w) (NSuper w') -> R (NSuper u) (NSuper (sup_write m k u w')).
  Proof.
    induction k as [|k IH]; intros u w w' L D P; cbn in *.
    - injection L as <-. exact P.
    - destruct (u_super m u) as [v|] eqn:E; [|discriminate].
      eapply (la_u_put U); [exact E| |].
      + exact (@sup_write_disc h m Hf k v w w' L D).
      + exact (IH v w w' L D P).
  Qed.
  Lemma write_part k x n n' : look m k x = Some n -> same_kind n' n -> R n n' ->
    leads x (write m k x n').
  Proof.
    destruct k as [|k]; cbn.
    - intros [= <-] K P. destruct n'; [exact P|destruct K].
    - destruct (s_super m x) as [u|] eqn:E; [|discriminate].
      destruct (sup_look m k u) as [w|] eqn:L; [|discriminate]. intros [= <-] K P.
      destruct n' as [|w']; [destruct K|]. eapply (la_s_put U); [exact E| |].
      + exact (@sup_write_disc h m Hf k u w w' L K).
      + exact (@sup_write_part k u w w' L K P).
  Qed.

  (** Whatever happens, the state is as it should be, seen from what it was. *)
  Definition keeps {A} (c : St A) : Prop := forall x sh cx, leads x (r_self (c x sh cx)).
  Lemma keeps_bind {A B} (c : St A) (f : A -> St B) : keeps c -> (forall a, keeps (f a)) -> keeps (bind c f).
  Proof.
    intros H1 H2 x sh cx. unfold bind. destruct (r_out (c x sh cx)) as [a|w]; cbn; [|apply H1].
    eapply (la_trans U); [apply H1|apply H2].
  Qed.
  Lemma keeps_ret {A} (a : A) : keeps (ret a).
  Proof. intros x sh cx. apply (la_refl U). Qed.
  Lemma keeps_exit k : keeps (exit_at m (look m) (write m) k).
  Proof.
    intros x sh cx. unfold exit_at, act_at. destruct (look m k x) as [n|] eqn:L; [|apply (la_refl U)].
    destruct (node_exit m n sh cx) as [[[r n'] sh'] cx'] eqn:E. cbn.
    exact (@write_part k x n n' L (@exit_kind n sh cx r n' sh' cx' E) (la_exit U n sh cx E)).
  Qed.
  Lemma keeps_enter k : keeps (enter_at m (look m) (write m) k).
  Proof.
    intros x sh cx. unfold enter_at, act_at. destruct (look m k x) as [n|] eqn:L; [|apply (la_refl U)].
    destruct (node_entry m n sh cx) as [[[r n'] sh'] cx'] eqn:E. cbn.
    exact (@write_part k x n n' L (@entry_kind n sh cx r n' sh' cx' E) (la_entry U n sh cx E)).
  Qed.
  Lemma keeps_ask e k : keeps (ask_at m (look m) (write m) e k).
  Proof.
    intros x sh cx. unfold ask_at. destruct (look m k x) as [n|] eqn:L; [|apply (la_refl U)].
    destruct (node_handler m n sh cx e) as [[[r n'] sh'] cx'] eqn:E. cbn.
    exact (@write_part k x n n' L (@handler_kind n sh cx e r n' sh' cx' E) (la_handler U n sh cx e E)).
  Qed.
  Lemma keeps_hook f o : keeps (call_hook f o : St unit).
  Proof. intros x sh cx. unfold call_hook. destruct (f sh). apply (la_refl U). Qed.
  Lemma keeps_show f k : (forall n, keeps (f n)) -> keeps (show_at m (look m) f k).
  Proof. intros H x sh cx. unfold show_at. destruct (look m k x); [apply H|apply (la_refl U)]. Qed.
  Lemma keeps_out n : forall k, keeps (walk_out m (look m) (write m) k n).
  Proof. induction n; intros k; cbn [walk_out]; [apply keeps_ret|]. apply keeps_bind; [apply keeps_exit|auto]. Qed.
  Lemma keeps_in n : keeps (walk_in m (look m) (write m) n).
  Proof. induction n; cbn [walk_in]; [apply keeps_ret|]. apply keeps_bind; [apply keeps_enter|auto]. Qed.

  (** The log of the dispatch: if it returns, it mentions the target that is returned, and
      only that; else none. *)
  Definition only (o : option (State m)) (ts : list (State m)) : Prop :=
    ts = match o with Some t => [t] | None => [] end.
  Definition tells (c : St (option (State m))) : Prop :=
    keeps c /\ forall x sh cx, match r_out (c x sh cx) with
                               | Ret o => only o (targets (r_tr (c x sh cx)))
                               | Abort _ => True
                               end.
  Definition mute {A} (c : St A) : Prop := keeps c /\ forall x sh cx, targets (r_tr (c x sh cx)) = [].
  Lemma targets_app (a b : list (obs m)) : targets (a ++ b) = targets a ++ targets b.
  Proof. apply flat_map_app. Qed.
  Lemma mute_bind {A B} (c : St A) (f : A -> St B) : mute c -> (forall a, mute (f a)) -> mute (bind c f).
  Proof.
    intros [K1 H1] H2. split; [apply keeps_bind; [exact K1|intros a; apply H2]|].
    intros x sh cx. unfold bind. destruct (r_out (c x sh cx)) as [a|w]; cbn; [|apply H1].
    rewrite targets_app, H1. apply (proj2 (H2 a)).
  Qed.
  Lemma mute_ret {A} (a : A) : mute (ret a).
  Proof. split; [apply keeps_ret|reflexivity]. Qed.
  Lemma mute_exit k : mute (exit_at m (look m) (write m) k).
  Proof.
    split; [apply keeps_exit|]. intros x sh cx. unfold exit_at, act_at. destruct (look m k x) as [n|]; [|reflexivity].
    destruct (node_exit m n sh cx) as [[[r n'] sh'] cx']. reflexivity.
  Qed.
  Lemma mute_enter k : mute (enter_at m (look m) (write m) k).
  Proof.
    split; [apply keeps_enter|]. intros x sh cx. unfold enter_at, act_at. destruct (look m k x) as [n|]; [|reflexivity].
    destruct (node_entry m n sh cx) as [[[r n'] sh'] cx']. reflexivity.
  Qed.
  Lemma mute_hook f o : (forall r, o <> OReturn r) -> mute (call_hook f o : St unit).
  Proof.
    intros N. split; [apply keeps_hook|]. intros x sh cx. unfold call_hook. destruct (f sh). cbn.
    destruct o; cbn; auto. now destruct (N r0).
  Qed.
  Lemma mute_show f k : (forall n, mute (f n)) -> mute (show_at m (look m) f k).
  Proof.
    intros H. split; [apply keeps_show; intros n; apply H|]. intros x sh cx. unfold show_at.
    destruct (look m k x); [apply H|reflexivity].
  Qed.
  Lemma mute_before e k : mute (show_at m (look m) (fun n => before_dispatch m n e) k).
  Proof. apply mute_show. intros n. apply mute_hook. discriminate. Qed.
  Lemma mute_after e k : mute (show_at m (look m) (fun n => after_dispatch m n e) k).
  Proof. apply mute_show. intros n. apply mute_hook. discriminate. Qed.
  Lemma mute_out n : forall k, mute (walk_out m (look m) (write m) k n).
  Proof. induction n; intros k; cbn [walk_out]; [apply mute_ret|]. apply mute_bind; [apply mute_exit|auto]. Qed.
  Lemma mute_in n : mute (walk_in m (look m) (write m) n).
  Proof. induction n; cbn [walk_in]; [apply mute_ret|]. apply mute_bind; [apply mute_enter|auto]. Qed.

  Lemma tells_first {A} (c : St A) f : mute c -> (forall a, tells (f a)) -> tells (bind c f).
  Proof.
    intros [K1 H1] H2. split; [apply keeps_bind; [exact K1|intros a; apply H2]|].
    intros x sh cx. unfold bind. destruct (r_out (c x sh cx)) as [a|w]; cbn; [|exact I].
    pose proof (proj2 (H2 a) (r_self (c x sh cx)) (r_sh (c x sh cx)) (r_cx (c x sh cx))) as G.
    destruct (r_out (f a _ _ _)); [|exact I]. now rewrite targets_app, H1.
  Qed.
  Lemma tells_ask e k (f : response (State m) -> St (option (State m))) :
    tells (f Super) -> (forall t, mute (f (Transition t)) /\ forall x sh cx a, r_out (f (Transition t) x sh cx) = Ret a -> a = Some t) ->
    mute (f Handled) /\ (forall x sh cx a, r_out (f Handled x sh cx) = Ret a -> a = None) ->
    tells (bind (ask_at m (look m) (write m) e k) f).
  Proof.
    intros HS HT [HH HN]. split.
    - apply keeps_bind; [apply keeps_ask|]. intros [| |t]; [apply HH|apply HS|apply (HT t)].
    - intros x sh cx. unfold bind.
      assert (L : match r_out (ask_at m (look m) (write m) e k x sh cx) with
                  | Ret a => targets (r_tr (ask_at m (look m) (write m) e k x sh cx)) =
                               match a with Transition t => [t] | _ => [] end
                  | Abort _ => True end).
      { unfold ask_at. destruct (look m k x) as [n|]; [|reflexivity].
        destruct (node_handler m n sh cx e) as [[[r n'] sh'] cx']. cbn.
        destruct r as [[| |t]| |]; cbn; auto. }
      destruct (ask_at m (look m) (write m) e k x sh cx) as [out x1 sh1 cx1 tr1]. cbn [r_out r_self r_sh r_cx r_tr] in *.
      destruct out as [[| |t]|w]; cbn; [| | |exact I].
      + pose proof (proj2 HH x1 sh1 cx1) as E1. pose proof (HN x1 sh1 cx1) as E2.
        destruct (f Handled x1 sh1 cx1) as [o ? ? ? tr]. cbn in *. destruct o as [a|]; [|exact I].
        rewrite (E2 a eq_refl), targets_app, L, E1. reflexivity.
      + pose proof (proj2 HS x1 sh1 cx1) as E1. destruct (f Super x1 sh1 cx1) as [o ? ? ? tr]. cbn in *.
        destruct o; [|exact I]. now rewrite targets_app, L.
      + destruct (HT t) as [[_ M] V]. pose proof (M x1 sh1 cx1) as E1. pose proof (V x1 sh1 cx1) as E2.
        destruct (f (Transition t) x1 sh1 cx1) as [o ? ? ? tr]. cbn in *. destruct o as [a|]; [|exact I].
        rewrite (E2 a eq_refl), targets_app, L, E1. reflexivity.
  Qed.
  Lemma tells_ret_none : tells (ret None).
  Proof. split; [apply keeps_ret|]. intros x sh cx. reflexivity. Qed.
  Lemma mute_then {A} (c : St unit) (a : A) : mute c -> mute (c ;;; ret a) /\ forall x sh cx b, r_out ((c ;;; ret a) x sh cx) = Ret b -> b = a.
  Proof.
    intros M. split; [apply mute_bind; [exact M|intros; apply mute_ret]|].
    intros x sh cx b. unfold bind. destruct (r_out (c x sh cx)); cbn; congruence.
  Qed.
  Lemma tells_ask_up e n : forall k, tells (ask_up m (look m) (write m) e k n).
  Proof.
    induction n as [|n IH]; intros k; cbn [ask_up]; [apply tells_ret_none|].
    apply tells_first; [apply mute_before|]. intros _.
    apply tells_ask.
    - apply tells_first; [apply mute_after|]. intros _. apply IH.
    - intros t. apply mute_then. apply mute_after.
    - apply mute_then. apply mute_after.
  Qed.
  (** The target is known before the last hook is called. *)
  Lemma tells_after (c : St (option (State m))) (l : St unit) : tells c -> mute l ->
    tells (t <- c ;; l ;;; ret t).
  Proof.
    intros [K H] [K2 M]. split.
    - apply keeps_bind; [exact K|]. intros t. apply keeps_bind; [exact K2|]. intros _. apply keeps_ret.
    - intros x sh cx. unfold bind. specialize (H x sh cx).
      destruct (c x sh cx) as [o x1 sh1 cx1 tr1]. cbn [r_out r_self r_sh r_cx r_tr] in *. destruct o as [a|]; [|exact I].
      pose proof (M x1 sh1 cx1) as E. destruct (l x1 sh1 cx1) as [o2 ? ? ? tr2]. cbn in *.
      destruct o2 as [[]|]; cbn; [|exact I]. rewrite app_nil_r, targets_app, E, app_nil_r. exact H.
  Qed.
  Lemma tells_nested e n : forall k, tells (ask_up_nested m (look m) (write m) e k n).
  Proof.
    induction n as [|n IH]; intros k; cbn [ask_up_nested]; [apply tells_ret_none|].
    apply tells_first; [apply mute_before|]. intros _.
    apply tells_ask.
    - apply tells_after; [apply IH|apply mute_after].
    - intros t. split.
      + apply mute_bind; [apply mute_ret|]. intros a. apply mute_bind; [apply mute_after|]. intros _. apply mute_ret.
      + intros x sh cx a. unfold bind. cbn. destruct (r_out (show_at _ _ _ _ _ _ _)); cbn; congruence.
    - split.
      + apply mute_bind; [apply mute_ret|]. intros a. apply mute_bind; [apply mute_after|]. intros _. apply mute_ret.
      + intros x sh cx a. unfold bind. cbn. destruct (r_out (show_at _ _ _ _ _ _ _)); cbn; congruence.
  Qed.
  Lemma tells_leaf_first e n : tells (ask_leaf_first m (look m) (write m) e n).
  Proof.
    unfold ask_leaf_first. apply tells_first; [apply mute_before|]. intros _.
    apply tells_ask.
    - apply tells_first; [apply mute_after|]. intros _. apply tells_nested.
    - intros t. apply mute_then. apply mute_after.
    - apply mute_then. apply mute_after.
  Qed.

  (** Whole calls. *)
  Lemma swap_to (t : State m) n x sh cx :
    let r := (old <- replace_by m t ;; walk_in m (look m) (write m) n ;;; new <- self ;; after_transition m old new) x sh cx in
    leads t (r_self r) /\ targets (r_tr r) = [].
  Proof.
    cbv zeta. unfold bind at 1. unfold replace_by. cbn [r_out r_self r_sh r_cx r_tr app].
    assert (M : mute (walk_in m (look m) (write m) n ;;; new <- self ;; after_transition m x new)).
    { apply mute_bind; [apply mute_in|]. intros _. split.
      - intros y s c. rewrite self_bind_run. apply keeps_hook.
      - intros y s c. rewrite self_bind_run. apply mute_hook. discriminate. }
    split; [apply M|apply (proj2 M)].
  Qed.
  Lemma bind_part {A B} (c : St A) (f : A -> St B) x sh cx (P : res m (State m) B -> Prop) :
    match r_out (c x sh cx) with
    | Ret a =>
        forall r2, f a (r_self (c x sh cx)) (r_sh (c x sh cx)) (r_cx (c x sh cx)) = r2 ->
        P (Res (r_out r2) (r_self r2) (r_sh r2) (r_cx r2) (r_tr (c x sh cx) ++ r_tr r2))
    | Abort w => P (Res (Abort w) (r_self (c x sh cx)) (r_sh (c x sh cx)) (r_cx (c x sh cx)) (r_tr (c x sh cx)))
    end -> P (bind c f x sh cx).
  Proof. unfold bind. destruct (r_out (c x sh cx)); intros H; [now apply H|exact H]. Qed.

  Lemma transition_part md t x sh cx :
    let r := ref_transition m stack md t x sh cx in
    targets (r_tr r) = [] /\
    match r_out r with
    | Ret _ => leads t (r_self r)
    | Abort _ => leads x (r_self r) \/ leads t (r_self r)
    end.
  Proof.
    cbv zeta. unfold ref_transition. rewrite self_bind_run.
    assert (M : mute (match md with BlockingMode => before_transition m t x | AwaitableMode => before_transition m x t end ;;;
                      walk_out m (look m) (write m) 0 (own_levels m stack x t))).
    { apply mute_bind; [destruct md; apply mute_hook; discriminate|]. intros _. apply mute_out. }
    rewrite <- bind_bind. destruct M as [K M].
    apply bind_part with (P := fun r => targets (r_tr r) = [] /\ match r_out r with
       | Ret _ => leads t (r_self r) | Abort _ => leads x (r_self r) \/ leads t (r_self r) end).
    specialize (K x sh cx). specialize (M x sh cx).
    match goal with |- context [r_out (?c x sh cx)] => set (RR := c x sh cx) in * end.
    destruct (r_out RR) as [[]|w]; cbn [r_out r_self r_tr].
    - intros r2 E2. rewrite targets_app, M.
      pose proof (@swap_to t (own_levels m stack t x) (r_self RR) (r_sh RR) (r_cx RR)) as S. cbv zeta in S.
      rewrite E2 in S. destruct S as [S1 S2]. rewrite S2. split; [reflexivity|]. destruct (r_out r2); auto.
    - split; [exact M|]. now left.
  Qed.
  Lemma handle_part md e x sh cx :
    let r := ref_handle m stack md e x sh cx in
    match r_out r with
    | Ret _ => exists o, only o (targets (r_tr r)) /\ match o with Some t => leads t (r_self r) | None => leads x (r_self r) end
    | Abort _ => leads x (r_self r) \/ exists t, targets (r_tr r) = [t] /\ leads t (r_self r)
    end.
  Proof.
    cbv zeta. unfold ref_handle. rewrite self_bind_run.
    set (c := match md with
         | BlockingMode => ask_leaf_first m (look m) (write m) e (length (names m stack x))
         | AwaitableMode => ask_up m (look m) (write m) e 0 (S (length (names m stack x))) end).
    assert (M : tells c) by (subst c; destruct md; [apply tells_leaf_first|apply tells_ask_up]).
    clearbody c. destruct M as [K M]. specialize (K x sh cx). specialize (M x sh cx).
    apply bind_part with (P := fun r => match r_out r with
      | Ret _ => exists o, only o (targets (r_tr r)) /\ match o with Some t => leads t (r_self r) | None => leads x (r_self r) end
      | Abort _ => leads x (r_self r) \/ exists t, targets (r_tr r) = [t] /\ leads t (r_self r) end).
    set (RR := c x sh cx) in *. destruct (r_out RR) as [o|w]; cbn [r_out r_self r_tr].
    - intros r2 E2. unfold only in M. rewrite targets_app, M. destruct o as [t|].
      + pose proof (@transition_part md t (r_self RR) (r_sh RR) (r_cx RR)) as S. cbv zeta in S. rewrite E2 in S.
        destruct S as [S1 S2]. rewrite S1. destruct (r_out r2).
        * exists (Some t). split; [reflexivity|exact S2].
        * destruct S2 as [S2|S2]; [left; exact (la_trans U _ _ _ K S2)|right; exists t; split; [reflexivity|exact S2]].
      + subst r2. cbn. exists None. split; [reflexivity|exact K].
    - now left.
  Qed.
  Lemma init_part x sh cx :
    let r := ref_init m stack x sh cx in leads x (r_self r) /\ targets (r_tr r) = [].
  Proof. cbv zeta. unfold ref_init. rewrite self_bind_run. split; [apply keeps_in|apply mute_in]. Qed.

  (** What a call leaves. *)
  Definition leaves (out : outcome unit) (ts : list (State m)) (x x' : State m) : Prop :=
    match out with
    | Ret _ => (ts = [] /\ leads x x') \/ (exists t, ts = [t] /\ leads t x')
    | Abort _ => leads x x' \/ (exists t, ts = [t] /\ leads t x')
    end.
  Lemma exec_part md o (sm : state_machine m) out sm' cx tr : hands_off o -> exec stack md o sm = (out, sm', cx, tr) ->
    leaves out (targets tr) (sm_state sm) (sm_state sm').
  Proof.
    intros HO E. rewrite (@exec_ref h m Hf Hs Hv stack Hh) in E. destruct sm as [[sh x] b].
    assert (HP : forall e y s c0 z, leads x y -> leaves (r_out (ref_handle m stack md e y s c0))
                 (z ++ targets (r_tr (ref_handle m stack md e y s c0))) x (r_self (ref_handle m stack md e y s c0)) \/ z <> []).
    { intros e y s c0 z Y. destruct z as [|]; [left|right; discriminate]. cbn [app].
      pose proof (@handle_part md e y s c0) as H. cbv zeta in H. unfold leaves.
      destruct (r_out (ref_handle m stack md e y s c0)).
      - destruct H as ([t|] & H1 & H2); unfold only in H1; rewrite H1; [right; eauto|left]. split; [reflexivity|exact (la_trans U _ _ _ Y H2)].
      - destruct H as [H|H]; [left; exact (la_trans U _ _ _ Y H)|right; exact H]. }
    destruct o as [cx0|e cx0|f|f]; cbn [ref_exec initialized sm_state sm_shared sm_inner state shared_storage] in E.
    - destruct b; [injection E as <- <- <- <-; left; split; [reflexivity|apply (la_refl U)]|].
      pose proof (@init_part x sh cx0) as H. cbv zeta in H. set (I := ref_init m stack x sh cx0) in *. clearbody I.
      injection E as <- <- <- <-. destruct H as [H1 H2]. cbn [sm_state sm_inner state]. rewrite H2.
      unfold leaves. destruct (r_out I); auto.
    - destruct b.
      + specialize (HP e x sh cx0 [] (la_refl U _)). destruct HP as [HP|HP]; [|congruence].
        set (J := ref_handle m stack md e x sh cx0) in *. clearbody J. injection E as <- <- <- <-. exact HP.
      + pose proof (@init_part x sh cx0) as H. cbv zeta in H. unfold bind in E.
        set (I := ref_init m stack x sh cx0) in *. destruct H as [H1 H2]. clearbody I.
        destruct (r_out I) as [[]|w].
        * specialize (HP e (r_self I) (r_sh I) (r_cx I) [] H1). destruct HP as [HP|HP]; [|congruence].
          set (J := ref_handle m stack md e (r_self I) (r_sh I) (r_cx I)) in *. clearbody J.
          cbn [r_out r_self r_sh r_cx r_tr] in E. injection E as <- <- <- <-. rewrite targets_app, H2. exact HP.
        * cbn [r_out r_self r_sh r_cx r_tr] in E. injection E as <- <- <- <-. now left.
    - injection E as <- <- <- <-. left. split; [reflexivity|apply (la_refl U)].
    - destruct HO.
  Qed.
  Lemma history_part md ops (sm : state_machine m) cs sm' : Forall hands_off ops -> history stack md ops sm cs sm' ->
    leads (sm_state sm) (sm_state sm') \/
    exists t, In t (targets (log_of cs)) /\ leads t (sm_state sm').
  Proof.
    intros C H. induction H as [sm|o ops sm out sm1 cx tr cs sm' E H IH]; [left; apply (la_refl U)|].
    inversion C as [|? ? C1 C2]; subst. pose proof (@exec_part md o sm out sm1 cx tr C1 E) as L.
    cbn [log_of flat_map c_tr]. fold (log_of cs).
    assert (L' : leads (sm_state sm) (sm_state sm1) \/ exists t, targets tr = [t] /\ leads t (sm_state sm1)).
    { unfold leaves in L. destruct out; [destruct L as [[_ L]|L]; auto|exact L]. }
    change (flat_map c_tr cs) with (log_of cs). rewrite targets_app.
    destruct (IH C2) as [G|(t & G1 & G2)].
    - destruct L' as [L'|(t & L1 & L2)]; [left; exact (la_trans U _ _ _ L' G)|].
      right. exists t. split; [rewrite L1; now left|exact (la_trans U _ _ _ L2 G)].
    - right. exists t. split; [apply in_or_app; now right|exact G2].
  Qed.
  Lemma last_app {A} (a b : list A) d : last (a ++ b) d = last b (last a d).
  Proof.
    destruct b as [|y b] using rev_ind; [rewrite app_nil_r; reflexivity|]. rewrite app_assoc, !last_last. reflexivity.
  Qed.
  Lemma last_default {A} (a : list A) d d' : a <> [] -> last a d = last a d'.
  Proof. destruct a as [|y a] using rev_ind; [tauto|]. now rewrite !last_last. Qed.
  Lemma history_last md ops (sm : state_machine m) cs sm' : Forall hands_off ops -> history stack md ops sm cs sm' ->
    completed cs ->
    leads (last (targets (log_of cs)) (sm_state sm)) (sm_state sm').
  Proof.
    intros C H. induction H as [sm|o ops sm out sm1 cx tr cs sm' E H IH]; [intros; apply (la_refl U)|]. intros D.
    inversion C as [|? ? C1 C2]; subst. inversion D as [|? ? D1 D2]; subst. cbn in D1. subst out.
    pose proof (@exec_part md o sm _ sm1 cx tr C1 E) as L. cbn in L.
    change (log_of (Called (Ret tt) cx tr :: cs)) with (tr ++ log_of cs).
    rewrite targets_app, last_app. specialize (IH C2 D2).
    destruct (targets (log_of cs)) as [|z zs] eqn:Z.
    - cbn [last] in *. destruct L as [[-> L]|(t & -> & L)]; exact (la_trans U _ _ _ L IH).
    - rewrite (@last_default _ (z :: zs) _ (sm_state sm1)); [exact IH|discriminate].
  Qed.
End Const.
