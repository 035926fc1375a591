(** OmitProofs.v — machines whose actions and hooks are the defaults (C51), and the public
    helpers about depths (C52). *)

From Coq Require Import List Bool Arith Lia.
From Verif Require Import Machine Blocking Awaitable Api Spec.
From Verif Require Import TripleProofs ShapeProofs DispatchProofs TransitionProofs ApiProofs
  RouteProofs HistoryProofs TotalProofs ThreadProofs DataProofs.
Import ListNotations.
Set Implicit Arguments.

Section Omit.
  Variable m : machine.
  Hypothesis V : faithful_views m.
  Hypothesis Q : silent m.

  Lemma overwrite_same u v v' u' : overwrite m u v v' u' -> v' = v -> u' = u.
  Proof.
    induction 1 as [u u'|u v v' w w' Hu Ho IH]; intros E; [exact E|].
    rewrite (IH E). exact (fv_u_get_put V u Hu).
  Qed.
  Lemma touches_same x n n' x' : touches m x n n' x' -> n' = n -> x' = x.
  Proof.
    destruct 1 as [x x'|x v u u' v' Hx Ho]; intros E.
    - now injection E.
    - injection E as E. rewrite (overwrite_same Ho E). exact (fv_s_get_put V x Hx).
  Qed.

  Lemma silent_callback o c a c' : callback (touches m) o c a c' -> is_handler o = false ->
    a = Ret None /\ c' = c.
  Proof.
    destruct 1 as [x n n' x' sh sh' cx cx' e r T N|x n n' x' sh sh' cx cx' r T N
      |x n n' x' sh sh' cx cx' r T N|x n sh sh' cx e r T N|x n sh sh' cx e r T N
      |x a b sh sh' cx r N|x a b sh sh' cx r N]; intros H; try discriminate H.
    - destruct n as [s|u]; cbn in N; rewrite ?(sl_s_entry Q), ?(sl_u_entry Q) in N; cbn in N;
        injection N as <- <- <- <-; (split; [reflexivity|]); now rewrite (touches_same T eq_refl).
    - destruct n as [s|u]; cbn in N; rewrite ?(sl_s_exit Q), ?(sl_u_exit Q) in N; cbn in N;
        injection N as <- <- <- <-; (split; [reflexivity|]); now rewrite (touches_same T eq_refl).
    - rewrite (sl_before_dispatch Q) in N. injection N as <- <-. auto.
    - rewrite (sl_after_dispatch Q) in N. injection N as <- <-. auto.
    - rewrite (sl_before_transition Q) in N. injection N as <- <-. auto.
    - rewrite (sl_after_transition Q) in N. injection N as <- <-. auto.
  Qed.
  Lemma handler_callback o c a c' : callback (touches m) o c (Ret a) c' -> is_handler o = true -> a <> None.
  Proof.
    intros H. remember (Ret a) as b eqn:E. destruct H as [x n n' x' sh sh' cx cx' e r T N|x n n' x' sh sh' cx cx' r T N
      |x n n' x' sh sh' cx cx' r T N|x n sh sh' cx e r T N|x n sh sh' cx e r T N
      |x b1 b2 sh sh' cx r N|x b1 b2 sh sh' cx r N]; intros Ho; try discriminate Ho.
    destruct (outcome_of r); [|discriminate E]. injection E as <-. discriminate.
  Qed.
  Lemma answering_handler o c r c' : callback (touches m) o c (Ret (Some r)) c' -> is_handler o = true.
  Proof.
    intros H. destruct (is_handler o) eqn:E; [reflexivity|].
    destruct (silent_callback H E) as [D _]. discriminate.
  Qed.

  Lemma thread_handlers tr c o c' : thread (touches m) tr c o c' ->
    thread (touches m) (filter (@is_handler m) tr) c o c'.
  Proof.
    induction 1 as [c|o c w c' H|o c c1 tr out c' H Ht IH|o r c c1 tr out c' H Ht IH].
    - constructor.
    - cbn. destruct (is_handler o) eqn:E; [now constructor|].
      destruct (silent_callback H E) as [D _]. discriminate.
    - cbn. destruct (is_handler o) eqn:E.
      + destruct (handler_callback H E eq_refl).
      + destruct (silent_callback H E) as [_ ->]. exact IH.
    - cbn. rewrite (answering_handler H). eapply thread_answer; eauto.
  Qed.

  Lemma thread_silent tr c o c' : thread (touches m) tr c o c' ->
    forallb (fun a => negb (is_handler a)) tr = true -> o = Ret tt /\ c' = c.
  Proof.
    intros H N. apply thread_handlers in H.
    assert (E : filter (@is_handler m) tr = []).
    { clear H. induction tr as [|a tr IH]; [reflexivity|]. cbn in *. apply andb_prop in N.
      destruct N as [N1 N2]. destruct (is_handler a); [discriminate|auto]. }
    rewrite E in H. inversion H; auto.
  Qed.

  Variable h : hierarchy.
  Variable stack : nat.
  Hypothesis W : well_formed h m stack.
  Variable md : mode.

  Lemma only_acts_quiet (t : list (obs m)) : only_acts t -> forallb (fun a => negb (is_handler a)) t = true.
  Proof.
    intros H. apply forallb_forall. intros o Ho. unfold only_acts in H. rewrite forallb_forall in H.
    specialize (H o Ho). now destruct o.
  Qed.

  Lemma silent_init (sm : state_machine m) cx :
    exists tr, init_with_context stack md sm cx = ApiRes (Ret tt) (StateMachine (sm_inner sm) true) cx tr.
  Proof.
    exists (a_tr (init_with_context stack md sm cx)).
    assert (N : forallb (fun a => negb (is_handler a)) (a_tr (init_with_context stack md sm cx)) = true).
    { destruct (initialized sm) eqn:Ei.
      - now rewrite init_idempotent.
      - destruct (api_init_run W md sm cx Ei) as (p & _ & _ & Ho & _). now apply only_acts_quiet. }
    pose proof (api_init_thread W V md sm cx) as T. cbv zeta in T.
    destruct (thread_silent T N) as [O D]. unfold data in D. injection D as D1 D2 D3.
    pose proof (init_initializes _ _ _ _ O) as I.
    destruct (init_with_context stack md sm cx) as [o [i b] c t]. cbn in *. subst.
    unfold sm_state, sm_shared in *. cbn in *. destruct i, (sm_inner sm). cbn in *. now subst.
  Qed.

  Lemma silent_handle (sm : state_machine m) e cx :
    let r := handle_with_context stack md sm e cx in
    exists x, thread (touches m) (filter (@is_handler m) (a_tr r)) (sm_state sm, sm_shared sm, cx) (a_out r)
                     (x, sm_shared (a_machine r), a_cx r) /\
      ((sm_state (a_machine r) = x /\ (a_out r = Ret tt -> no_transition (a_tr r))) \/
       (exists p target, asks_for (a_tr r) p e target /\ sm_state (a_machine r) = target /\ a_out r = Ret tt)).
  Proof.
    intros r. pose proof (handle_threaded W V md sm e cx) as H. cbv zeta in H. fold r in H.
    destruct H as [[N T]|(t1 & t2 & x1 & sh1 & cx1 & p & target & E & Hp & He & T1 & T2)].
    - exists (sm_state (a_machine r)). split; [exact (thread_handlers T)|]. left. split; [reflexivity|exact N].
    - assert (Q2 : forallb (fun a => negb (is_handler a)) t2 = true).
      { apply forallb_forall. intros o Ho. rewrite forallb_forall in He. specialize (He o Ho). now destruct o. }
      destruct (thread_silent T2 Q2) as [O D]. unfold data in D. injection D as D1 D2 D3.
      exists x1. split.
      + rewrite E, filter_app. rewrite O, D2, D3. apply thread_handlers in T1.
        assert (E2 : filter (@is_handler m) t2 = []).
        { clear - Q2. induction t2 as [|a t IH]; [reflexivity|]. cbn in *. apply andb_prop in Q2.
          destruct Q2 as [N1 N2]. destruct (is_handler a); [discriminate|auto]. }
        rewrite E2, app_nil_r. exact T1.
      + right. exists p, target. split; [|split; assumption].
        unfold asks_for. rewrite E, calls_app.
        assert (G : forall l1 l2, In (p, e, Some (Transition target)) (handler_calls (m := m) l1) ->
                    In (p, e, Some (Transition target)) (handler_calls (l1 ++ l2))).
        { clear. induction l1 as [|a l1 IH]; intros l2 H; [destruct H|]. destruct a; cbn in *; auto.
          destruct H as [H|H]; [|right; auto]. left. destruct l1 as [|b l1]; [discriminate H|]. cbn. exact H. }
        now apply G.
  Qed.
End Omit.

Section Depths.
  Variable h : hierarchy.
  Variable m : machine.
  Variable stack : nat.
  Hypothesis W : well_formed h m stack.

  Lemma depth_path (x : State m) p : path h (s_disc m x) p -> Blocking.state_depth m stack x = Ret (length p).
  Proof.
    intros (l & C & ->). rewrite (state_depth_ok (wf_follows W) (wf_height W) x C).
    rewrite app_length, map_length, rev_length. cbn. f_equal. lia.
  Qed.

  (** Two lists determine what they share. *)
  Lemma common_unique {A} (c1 : list A) : forall c2 xs1 xs2 ys1 ys2,
    c1 ++ xs1 = c2 ++ xs2 -> c1 ++ ys1 = c2 ++ ys2 -> diverge xs1 ys1 -> diverge xs2 ys2 ->
    c1 = c2 /\ xs1 = xs2 /\ ys1 = ys2.
  Proof.
    induction c1 as [|a c1 IH]; intros [|b c2] xs1 xs2 ys1 ys2 E1 E2 D1 D2; cbn in *; subst; auto.
    - destruct (D1 eq_refl).
    - destruct (D2 eq_refl).
    - injection E1 as <- E1. injection E2 as E2. destruct (IH _ _ _ _ _ E1 E2 D1 D2) as (-> & -> & ->). auto.
  Qed.

  (** The shared part of two paths, in terms of the lists of ancestors. *)
  Lemma paths_split (x y : State m) l1 l2 xs0 ys0 c0 common xs ys :
    s_disc m x <> s_disc m y ->
    chain h (leaf_parent h (s_disc m x)) l1 -> chain h (leaf_parent h (s_disc m y)) l2 ->
    split_at_lca l1 l2 xs0 ys0 c0 ->
    path h (s_disc m x) (common ++ xs) -> path h (s_disc m y) (common ++ ys) -> diverge xs ys ->
    length common = length c0 /\ length xs = S (length xs0) /\ length ys = S (length ys0).
  Proof.
    intros N C1 C2 (-> & -> & D) (l1' & C1' & P1) (l2' & C2' & P2) D'.
    rewrite (chain_functional C1' C1) in P1. rewrite (chain_functional C2' C2) in P2.
    rewrite rev_app_distr, map_app, <- app_assoc in P1, P2.
    assert (D0 : diverge (map AtSuper (rev xs0) ++ [AtState (s_disc m x)])
                         (map AtSuper (rev ys0) ++ [AtState (s_disc m y)])).
    { destruct (rev xs0), (rev ys0); cbn in *; congruence. }
    destruct (common_unique _ _ _ _ _ _ P1 P2 D' D0) as (-> & -> & ->).
    rewrite !app_length, !map_length, !rev_length. cbn. lia.
  Qed.

  Lemma common_ancestor_depth_path (x y : State m) common xs ys :
    s_disc m x <> s_disc m y ->
    path h (s_disc m x) (common ++ xs) -> path h (s_disc m y) (common ++ ys) -> diverge xs ys ->
    Blocking.state_common_ancestor_depth m stack x y = Ret (length common).
  Proof.
    intros N P1 P2 D. unfold Blocking.state_common_ancestor_depth, Blocking.same_state.
    apply Nat.eqb_neq in N as N'. rewrite N'.
    destruct P1 as (l1 & C1 & E1). destruct P2 as (l2 & C2 & E2).
    pose proof (wf_follows W) as F. pose proof (wf_height W) as Hh.
    assert (G : exists xs0 ys0 c0, split_at_lca l1 l2 xs0 ys0 c0 /\
       match s_super m x, s_super m y with
       | Some us, Some ut => superstate_common_ancestor_depth m stack (stack + stack) us ut
       | _, _ => Ret 0
       end = Ret (length c0)).
    { destruct (s_super m x) as [u|] eqn:Ex; destruct (s_super m y) as [v|] eqn:Et.
      - pose proof (height_bound Hh C1). pose proof (height_bound Hh C2).
        pose proof C1 as C1'. pose proof C2 as C2'.
        rewrite (leaf_some F _ Ex) in C1'. rewrite (leaf_some F _ Et) in C2'.
        apply (cad_split F Hh u v C1' C2'). lia.
      - assert (l2 = []). { rewrite (leaf_none F _ Et) in C2. now inversion C2. } subst.
        exists l1, [], []. split; [|reflexivity]. split; [now rewrite app_nil_r|]. split; [reflexivity|].
        cbn. destruct (rev l1); exact I.
      - assert (l1 = []). { rewrite (leaf_none F _ Ex) in C1. now inversion C1. } subst.
        exists [], l2, []. split; [|reflexivity]. split; [reflexivity|]. split; [now rewrite app_nil_r|]. exact I.
      - assert (l1 = []). { rewrite (leaf_none F _ Ex) in C1. now inversion C1. } subst.
        exists [], l2, []. split; [|reflexivity]. split; [reflexivity|]. split; [now rewrite app_nil_r|]. exact I. }
    destruct G as (xs0 & ys0 & c0 & S0 & ->). f_equal. symmetry.
    exact (proj1 (@paths_split x y l1 l2 xs0 ys0 c0 common xs ys N C1 C2 S0
      (ex_intro _ l1 (conj C1 E1)) (ex_intro _ l2 (conj C2 E2)) D)).
  Qed.

  Lemma common_ancestor_depth_same (x y : State m) p :
    s_disc m x = s_disc m y -> path h (s_disc m x) p ->
    Blocking.state_common_ancestor_depth m stack x y = Ret (length p).
  Proof.
    intros E P. unfold Blocking.state_common_ancestor_depth, Blocking.same_state.
    rewrite E, Nat.eqb_refl. now apply depth_path.
  Qed.

  Definition exits (l : list act) : nat := length (filter (fun a => match a with Exit _ => true | _ => false end) l).
  Definition entries (l : list act) : nat := length (filter (fun a => match a with Enter _ => true | _ => false end) l).

  Lemma transition_path_route (x y : State m) l : route h (s_disc m x) (s_disc m y) l ->
    Blocking.transition_path m stack x y = Ret (exits l, entries l).
  Proof.
    intros [[E ->]|[N (common & xs & ys & P1 & P2 & D & ->)]].
    - unfold Blocking.transition_path, Blocking.same_state. rewrite E, Nat.eqb_refl. reflexivity.
    - destruct P1 as (l1 & C1 & E1). destruct P2 as (l2 & C2 & E2).
      destruct (transition_path_split (wf_follows W) (wf_height W) x y C1 C2 N) as (xs0 & ys0 & c0 & S0 & ->).
      destruct (@paths_split x y l1 l2 xs0 ys0 c0 common xs ys N C1 C2 S0
        (ex_intro _ l1 (conj C1 E1)) (ex_intro _ l2 (conj C2 E2)) D) as (_ & <- & <-).
      unfold exits, entries. rewrite !filter_app, !app_length.
      assert (G1 : forall q, filter (fun a => match a with Exit _ => true | _ => false end) (map Exit q) = map Exit q).
      { induction q; cbn; congruence. }
      assert (G2 : forall q, filter (fun a => match a with Exit _ => true | _ => false end) (map Enter q) = []).
      { induction q; cbn; congruence. }
      assert (G3 : forall q, filter (fun a => match a with Enter _ => true | _ => false end) (map Exit q) = []).
      { induction q; cbn; congruence. }
      assert (G4 : forall q, filter (fun a => match a with Enter _ => true | _ => false end) (map Enter q) = map Enter q).
      { induction q; cbn; congruence. }
      rewrite G1, G2, G3, G4, !map_length, rev_length. cbn. do 2 f_equal. lia.
  Qed.
End Depths.
