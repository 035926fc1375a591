(** BalanceProofs.v — what aborted calls do to the balance of entries and exits (C85). *)

From Coq Require Import List Bool Arith Lia.
From Verif Require Import Machine Blocking Awaitable Api Spec TripleProofs ShapeProofs
  DispatchProofs TransitionProofs ApiProofs RouteProofs HistoryProofs BalanceSpec.
Import ListNotations.
Set Implicit Arguments.

Lemma place_eqb_eq p q : place_eqb p q = true <-> p = q.
Proof. destruct p, q; cbn; rewrite ?Nat.eqb_eq; split; intros; try discriminate; try injection H; congruence. Qed.

Lemma entries_app p l l' : entries p (l ++ l') = entries p l + entries p l'.
Proof. unfold entries. now rewrite filter_app, app_length. Qed.
Lemma exits_app p l l' : exits p (l ++ l') = exits p l + exits p l'.
Proof. unfold exits. now rewrite filter_app, app_length. Qed.
Lemma times_app p l l' : times p (l ++ l') = times p l + times p l'.
Proof. unfold times. now rewrite filter_app, app_length. Qed.
Lemma entries_enter p l : entries p (map Enter l) = times p l.
Proof. unfold entries, times. induction l as [|q l IH]; [reflexivity|]. cbn. destruct (place_eqb p q); cbn; now rewrite IH. Qed.
Lemma exits_enter p l : exits p (map Enter l) = 0.
Proof. unfold exits. induction l as [|q l IH]; [reflexivity|]. cbn. exact IH. Qed.
Lemma entries_exit p l : entries p (map Exit l) = 0.
Proof. unfold entries. induction l as [|q l IH]; [reflexivity|]. cbn. exact IH. Qed.
Lemma exits_exit p l : exits p (map Exit l) = times p l.
Proof. unfold exits, times. induction l as [|q l IH]; [reflexivity|]. cbn. destruct (place_eqb p q); cbn; now rewrite IH. Qed.
Lemma times_NoDup p l : NoDup l -> times p l <= 1.
Proof.
  unfold times. induction l as [|q l IH]; intros N; [cbn; lia|]. inversion N as [|? ? NI N']; subst. cbn.
  destruct (place_eqb p q) eqn:E; [|auto]. apply place_eqb_eq in E. subst q. cbn.
  replace (filter (place_eqb p) l) with (@nil place); [cbn; lia|]. symmetry.
  clear IH N N'. induction l as [|q l IH]; [reflexivity|]. cbn. destruct (place_eqb p q) eqn:E.
  - apply place_eqb_eq in E. subst. destruct NI. now left.
  - apply IH. intros I. apply NI. now right.
Qed.
Lemma replay_count p l l' acts : replay l acts l' -> times p l + entries p acts = times p l' + exits p acts.
Proof.
  intros R. induction R as [stk|stk q acts stk' R IH|stk q acts stk' R IH]; [cbn; lia| |];
    rewrite times_app in *; unfold times, entries, exits in *; cbn in *; destruct (place_eqb p q); cbn in *; lia.
Qed.
Lemma prefix_entries p l l' : prefix l l' -> entries p l <= entries p l'.
Proof. intros [r ->]. rewrite entries_app. lia. Qed.
Lemma prefix_exits p l l' : prefix l l' -> exits p l <= exits p l'.
Proof. intros [r ->]. rewrite exits_app. lia. Qed.
Lemma NoDup_map A B (f : A -> B) l : NoDup (map f l) -> NoDup l.
Proof. apply NoDup_map_inv. Qed.

Section Balance.
  Variable h : hierarchy.
  Variable m : machine.
  Variable stack : nat.
  Hypothesis W : well_formed h m stack.
  Variable md : mode.
  Notation stack_of := (@stack_of h m).

  Lemma only_acts_still (t : list (obs m)) : only_acts t ->
    existsb (fun o => match o with OBeforeTransition _ _ => true | _ => false end) t = false.
  Proof.
    unfold only_acts. induction t as [|o t IH]; [reflexivity|]. cbn. intros H. apply andb_prop in H. destruct H as [H1 H2].
    rewrite (IH H2). destruct o; cbn in *; try discriminate; reflexivity.
  Qed.
  Lemma broken_acts o cx (t t2 : list (obs m)) : o <> Ret tt -> t2 <> [] -> only_acts t2 -> broken (Called o cx (t ++ t2)) = true.
  Proof.
    intros Ho Hn H2. destruct (last_action Hn H2) as (t' & b & -> & Hb). unfold broken. cbn [c_out c_tr].
    destruct o as [[]|w]; [congruence|]. rewrite app_assoc, rev_app_distr. cbn. destruct b; tauto || reflexivity.
  Qed.
  Lemma not_broken o cx (t : list (obs m)) : broken (Called o cx t) = false -> ~ stopped_by_action o t.
  Proof.
    intros B (N & t' & b & -> & Hb). unfold broken in B. cbn [c_out c_tr] in B. destruct o as [[]|w]; [congruence|].
    rewrite rev_app_distr in B. cbn in B. destruct b; tauto || discriminate.
  Qed.

  (** What one call does to the balance of [p]. *)
  Definition fair (sm sm1 : state_machine m) (c : called m) : Prop :=
    forall stk, stack_of sm stk -> exists stk1, stack_of sm1 stk1 /\ forall p,
      exits p (acts (c_tr c)) + times p stk1 <= entries p (acts (c_tr c)) + times p stk + (if broken c && moving c then 1 else 0) /\
      entries p (acts (c_tr c)) + times p stk <= exits p (acts (c_tr c)) + times p stk1 + (if broken c && negb (moving c) then 1 else 0).

  Lemma fair_init sm cx o : 
    let r := init_with_context stack md sm cx in fair sm (a_machine r) (Called (a_out r) o (a_tr r)).
  Proof.
    intros r stk S. destruct (broken (Called (a_out r) o (a_tr r))) eqn:B.
    - destruct (initialized sm) eqn:I.
      { subst r. rewrite init_idempotent in B by exact I. discriminate B. }
      destruct (api_init_run W md sm cx I) as (q & Hq & Hd & Ho & Hr). fold r in Hd, Ho, Hr.
      destruct (a_out r) as [[]|w] eqn:Eo; [discriminate B|]. destruct Hr as (_ & _ & Hp & Hi).
      unfold HistoryProofs.stack_of in S. rewrite I in S. subst stk. exists []. split; [unfold HistoryProofs.stack_of; now rewrite Hi|].
      intros p. cbn [c_tr]. unfold moving. cbn [c_tr]. rewrite (only_acts_still Ho). cbn.
      pose proof (prefix_entries p Hp) as E1. pose proof (prefix_exits p Hp) as E2. rewrite entries_enter in E1. rewrite exits_enter in E2.
      pose proof (times_NoDup p (path_NoDup Hq)). lia.
    - destruct (@init_replay_any h m stack W md sm cx stk S) as (stk1 & S1 & R1). { apply (not_broken o). exact B. }
      exists stk1. split; [exact S1|]. intros p. cbn [andb c_tr]. fold r in R1. pose proof (replay_count p R1). lia.
  Qed.

  Lemma leg_counts s d exs ens : legs h s d exs ens -> forall p,
    entries p exs = 0 /\ exits p ens = 0 /\ exits p exs <= 1 /\ entries p ens <= 1.
  Proof.
    intros (R & (ps & -> & _) & (qs & -> & _)) p. rewrite entries_exit, exits_enter, exits_exit, entries_enter.
    assert (N : NoDup ps /\ NoDup qs).
    { destruct (Nat.eq_dec s d) as [->|Ne].
      - destruct R as [(_ & E)|(Ne & _)]; [|congruence].
        destruct ps as [|a ps]; [destruct qs; discriminate|]. cbn in E. injection E as -> E.
        destruct ps as [|b ps]; [|discriminate]. destruct qs as [|c qs]; [discriminate|]. cbn in E. injection E as -> E.
        destruct qs; [|discriminate]. split; repeat constructor; auto.
      - pose proof (route_no_repeat Ne R) as N. rewrite map_app, !map_map in N. cbn in N. rewrite !map_id in N.
        split; [|exact (NoDup_tail _ _ N)]. clear R Ne. induction ps as [|a ps IH]; [constructor|].
        cbn in N. inversion N; subst. constructor; [|auto]. intros I. match goal with K : ~ In a _ |- _ => apply K end.
        apply in_or_app. now left. }
    pose proof (times_NoDup p (proj1 N)). pose proof (times_NoDup p (proj2 N)). lia.
  Qed.

  Lemma fair_handle_init sm e cx (t0 : list (obs m)) : initialized sm = true -> forall stk, stack_of sm stk ->
    let r := handle_with_context stack md sm e cx in
    broken (Called (a_out r) (Some cx) (a_tr r)) = true ->
    moving (Called (a_out r) (Some cx) (a_tr r)) = true /\
    exists stk1, stack_of (a_machine r) stk1 /\ forall p,
      exits p (acts (a_tr r)) + times p stk1 <= entries p (acts (a_tr r)) + times p stk + 1 /\
      entries p (acts (a_tr r)) + times p stk <= exits p (acts (a_tr r)) + times p stk1.
  Proof.
    intros Hi stk S r B.
    assert (Hi' : initialized (a_machine r) = true) by (now apply handle_stays_initialized).
    unfold HistoryProofs.stack_of in *. rewrite Hi in S. rewrite Hi'.
    pose proof (api_handle_run W md sm e cx Hi) as Hrun. cbv zeta in Hrun. fold r in Hrun.
    destruct (a_out r) as [[]|w] eqn:Eo; [discriminate B|].
    assert (NA : acts (a_tr r) <> []).
    { unfold broken in B. cbn [c_out c_tr] in B. destruct (rev (a_tr r)) as [|b l] eqn:E; [discriminate|].
      assert (E' : a_tr r = rev l ++ [b]) by (rewrite <- (rev_involutive (a_tr r)), E; reflexivity).
      rewrite E', acts_app. destruct b; try discriminate; cbn; intros K; destruct (acts (rev l)); discriminate. }
    remember (a_tr r) as tr eqn:Etr in *. clear Etr B.
    inversion Hrun as [w' x1 t ps vis a Hu Hd Hn Hup Hans Hpre | |
                       o x0 x1 t t' ps vis target exs ens Hd0 Hup Hans Ht Hlegs Htr]; subst.
    - destruct NA. exact (dispatch_prefix_acts _ _ _ _ Hpre).
    - assert (At : acts t = []) by (eapply dispatch_log_acts; eauto).
      assert (Mv : forall l, moving (Called (Abort w) (Some cx) (t ++ mode_before m md x0 target :: l)) = true).
      { intros l. unfold moving. cbn [c_tr]. rewrite existsb_app. cbn. unfold mode_before. destruct md; cbn; now rewrite orb_true_r. }
      pose proof (leg_counts Hlegs) as LC.
      inversion Htr as [w' Hu | w' y t1 Hu Hd Hn Ho Hpre | w' y t1 t2 Hu Hd Ho1 Ha1 Hn Ho2 Hpre
                       | o' y0 y t1 t2 Hu Hd1 Hd2 Ho1 Ha1 Ho2 Ha2]; subst.
      + destruct NA. rewrite acts_app, At, before_acts. reflexivity.
      + split; [apply Mv|]. exists stk. rewrite Hd, Hd0. split; [exact S|]. intros p.
        change (mode_before m md x0 target :: t1) with ([mode_before m md x0 target] ++ t1).
        rewrite !acts_app, At, before_acts. cbn [app]. destruct (LC p) as (L1 & L2 & L3 & L4).
        pose proof (prefix_entries p Hpre). pose proof (prefix_exits p Hpre). lia.
      + split; [apply Mv|]. destruct (path_exists W (s_disc m target)) as [q Hq]. exists q. rewrite Hd. split; [exact Hq|]. intros p.
        change (mode_before m md x0 target :: t1 ++ t2) with ([mode_before m md x0 target] ++ t1 ++ t2).
        rewrite !acts_app, At, before_acts. cbn [app]. rewrite entries_app, exits_app. destruct (LC p) as (L1 & L2 & L3 & L4).
        pose proof (replay_count p (route_replay (proj1 Hlegs) S Hq)) as RC. rewrite entries_app, exits_app in RC.
        pose proof (prefix_entries p Hpre). pose proof (prefix_exits p Hpre). lia.
      + split; [apply Mv|]. destruct (path_exists W (s_disc m target)) as [q Hq]. exists q. rewrite Hd2. split; [exact Hq|]. intros p.
        change (mode_before m md x0 target :: t1 ++ t2 ++ [OAfterTransition y0 (sm_state (a_machine r))])
          with ([mode_before m md x0 target] ++ t1 ++ t2 ++ [OAfterTransition y0 (sm_state (a_machine r))]).
        rewrite !acts_app, At, before_acts. replace (acts [OAfterTransition y0 (sm_state (a_machine r))]) with (@nil act) by reflexivity.
        rewrite app_nil_r. cbn [app]. pose proof (replay_count p (route_replay (proj1 Hlegs) S Hq)) as RC. lia.
  Qed.

  Lemma moving_app o cx (t t' : list (obs m)) : moving (Called o cx (t ++ t')) = moving (Called o cx t) || moving (Called o cx t').
  Proof. unfold moving. cbn [c_tr]. apply existsb_app. Qed.
  Lemma broken_app o cx (t t' : list (obs m)) : t' <> [] -> broken (Called o cx (t ++ t')) = broken (Called o cx t').
  Proof.
    intros N. unfold broken. cbn [c_out c_tr]. destruct o; [reflexivity|]. rewrite rev_app_distr.
    destruct (rev t') as [|b l] eqn:E; [|reflexivity]. destruct N. rewrite <- (rev_involutive t'), E. reflexivity.
  Qed.
  Lemma broken_cx o cx cx' (t : list (obs m)) : broken (Called o cx t) = broken (Called o cx' t).
  Proof. reflexivity. Qed.

  Lemma fair_handle sm e cx o :
    let r := handle_with_context stack md sm e cx in fair sm (a_machine r) (Called (a_out r) o (a_tr r)).
  Proof.
    intros r stk S. destruct (broken (Called (a_out r) o (a_tr r))) eqn:B; cycle 1.
    { destruct (@handle_replay_any h m stack W md sm e cx stk S) as (stk1 & S1 & R1). { apply (not_broken o). exact B. }
      exists stk1. split; [exact S1|]. intros p. cbn [andb c_tr]. fold r in R1. pose proof (replay_count p R1). lia. }
    revert B. subst r. rewrite handle_is_init_then_handle. unfold and_then.
    destruct (a_out (init_with_context stack md sm cx)) as [[]|w] eqn:Ei.
    - destruct (@init_replay h m stack W md sm cx stk S Ei) as (stk1 & S1 & R1).
      pose proof (init_initializes _ _ _ _ Ei) as Hi. cbn [a_out a_tr a_machine]. intros B.
      set (sm1 := a_machine (init_with_context stack md sm cx)) in *.
      set (cx1 := a_cx (init_with_context stack md sm cx)) in *.
      set (t := a_tr (init_with_context stack md sm cx)) in *.
      set (r := handle_with_context stack md sm1 e cx1) in *.
      assert (NE : a_tr r <> []).
      { pose proof (api_handle_run W md sm1 e cx1 Hi) as Hrun. cbv zeta in Hrun. fold r in Hrun.
        intros E. rewrite E in Hrun. rewrite E, app_nil_r in B.
        inversion Hrun as [w' x1 tt0 ps vis a Hu Hd Hn Hup Hans Hpre He Hx Ht | |
                       oo x0 x1 tt0 t' ps vis target exs ens Hd0 Hup Hans Ht Hlegs Htr]; subst.
        - congruence.
        - match goal with K : Ret tt = a_out r |- _ => rewrite <- K in B end. discriminate B.
        - match goal with K : _ ++ _ = [] |- _ => apply app_eq_nil in K; destruct K as [_ K] end. subst.
          inversion Htr. }
      rewrite broken_app in B by exact NE.
      destruct (@fair_handle_init sm1 e cx1 [] Hi stk1 S1 B) as (M & stk2 & S2 & C). fold r in M, S2, C.
      exists stk2. split; [exact S2|]. intros p. specialize (C p).
      rewrite moving_app. change (moving (Called (a_out r) o (a_tr r))) with (moving (Called (a_out r) (Some cx1) (a_tr r))).
      rewrite M, orb_true_r. cbn [andb negb c_tr]. rewrite acts_app, entries_app, exits_app.
      pose proof (replay_count p R1). lia.
    - intros B. pose proof (@fair_init sm cx o stk S) as F. cbv zeta in F. rewrite Ei in *.
      cbn [a_out a_tr a_machine] in *. rewrite B in F. exact F.
  Qed.

  Lemma history_fair ops sm cs sm' stk :
    history stack md ops sm cs sm' -> Forall (@calm m) ops -> stack_of sm stk ->
    exists stk', stack_of sm' stk' /\ forall p,
      exits p (acts (log_of cs)) + times p stk' <= entries p (acts (log_of cs)) + times p stk + broken_transitions cs /\
        entries p (acts (log_of cs)) + times p stk <= exits p (acts (log_of cs)) + times p stk' + broken_inits cs.
  Proof.
    intros H; revert stk; induction H as [sm|o ops sm out sm1 cx tr cs sm' E H IH]; intros stk K S.
    - exists stk. split; [exact S|]. intros p. unfold entries, exits, broken_transitions, broken_inits. cbn [log_of acts flat_map map concat filter length]. split; lia.
    - inversion K as [|? ? K1 K2]; subst.
      assert (G : exists stk', stack_of sm1 stk' /\ forall p,
        exits p (acts tr) + times p stk' <= entries p (acts tr) + times p stk + broken_transitions [Called out cx tr] /\
        entries p (acts tr) + times p stk <= exits p (acts tr) + times p stk' + broken_inits [Called out cx tr]).
      { destruct o as [c|e c|f|f]; simpl in E; inversion E; subst.
        - destruct (@fair_init sm c (Some (a_cx (init_with_context stack md sm c))) stk S) as (stk1 & S1 & C).
          exists stk1. split; [exact S1|]. intros p. specialize (C p). unfold broken_transitions, broken_inits. cbn [filter].
          destruct (broken _), (moving _); cbn [andb negb filter length c_tr] in *; lia.
        - destruct (@fair_handle sm e c (Some (a_cx (handle_with_context stack md sm e c))) stk S) as (stk1 & S1 & C).
          exists stk1. split; [exact S1|]. intros p. specialize (C p). unfold broken_transitions, broken_inits. cbn [filter].
          destruct (broken _), (moving _); cbn [andb negb filter length c_tr] in *; lia.
        - exists stk. split; [exact S|]. intros p; unfold entries, exits, broken_transitions, broken_inits; cbn [acts flat_map filter length broken c_out andb]; lia.
        - exists stk. split; [|intros p; unfold entries, exits, broken_transitions, broken_inits; cbn [acts flat_map filter length broken c_out andb]; lia]. unfold HistoryProofs.stack_of in *. simpl.
          destruct (initialized sm); [|exact S]. unfold sm_state in *. simpl in *. now rewrite K1. }
      destruct G as (stk1 & S1 & C1). destruct (IH stk1 K2 S1) as (stk2 & S2 & C2).
      exists stk2. split; [exact S2|]. intros p. specialize (C1 p). specialize (C2 p).
      change (log_of (Called out cx tr :: cs)) with (tr ++ log_of cs).
      rewrite acts_app, entries_app, exits_app. unfold broken_transitions, broken_inits in *. cbn [filter] in *.
      destruct (broken _ && moving _), (broken _ && negb (moving _)); cbn [length filter] in *; lia.
  Qed.
End Balance.
