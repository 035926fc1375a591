(** LocalProofs.v — lemmas for C79. *)

From Coq Require Import List Bool Arith Lia.
From Verif Require Import Machine Blocking Awaitable Api Spec TripleProofs ShapeProofs RefSpec RefProofs LocalSpec.
Import ListNotations.
Set Implicit Arguments.

Section Local.
  Variable h : hierarchy.
  Variable m : machine.
  Variable stack : nat.
  Hypothesis Hf : follows h m.
  Hypothesis Hs : stable m.
  Hypothesis Hv : faithful_views m.
  Hypothesis Hh : height_at_most stack h.
  Variables Fresh Rest : State m -> Shared m -> Prop.
  Variable Going : nat -> State m -> State m -> Shared m -> Prop.
  Variable Coming : nat -> State m -> Shared m -> Prop.
  Hypothesis DU : duties m stack Fresh Rest Going Coming.
  Notation ok := (dependable m Rest Going Coming).
  Notation nd := (node (State m) (Sup m)).
  Notation St := (comp m (State m)).

  Definition meets {A} (d : nat) (c : St A) (P : State m -> Shared m -> Prop)
      (Q : A -> State m -> Shared m -> Prop) : Prop :=
    forall x sh cx, s_disc m x = d -> P x sh ->
      let r := c x sh cx in
      match r_out r with
      | Ret a => s_disc m (r_self r) = d /\ Q a (r_self r) (r_sh r)
      | Abort _ => ~ ok
      end.

  Lemma meets_bind {A B} d (c : St A) (f : A -> St B) P Q R :
    meets d c P Q -> (forall a, meets d (f a) (Q a) R) -> meets d (bind c f) P R.
  Proof.
    intros H1 H2 x sh cx E HP. specialize (H1 x sh cx E HP). unfold bind. cbv zeta in *.
    destruct (r_out (c x sh cx)) as [a|w]; [|exact H1].
    destruct H1 as [E1 HQ]. specialize (H2 a _ _ (r_cx (c x sh cx)) E1 HQ). cbv zeta in H2. cbn.
    destruct (r_out (f a _ _ _)); exact H2.
  Qed.
  Lemma meets_ret {A} d (a : A) (P : State m -> Shared m -> Prop) (Q : A -> State m -> Shared m -> Prop) :
    (forall x sh, P x sh -> Q a x sh) -> meets d (ret a) P Q.
  Proof. intros H x sh cx E HP. cbn. auto. Qed.

  (** Levels: which there are depends on the variant. *)
  Lemma look_sup k : forall u l, chain h (Some (u_disc m u)) l -> k < length l ->
    exists w, sup_look m k u = Some w.
  Proof.
    induction k as [|k IH]; intros u l Hc Hl; [eexists; reflexivity|]. cbn.
    inversion Hc as [|? l' Hc' E1 E2]; subst. cbn in Hl.
    rewrite <- (fo_sup Hf) in Hc'. destruct (u_super m u) as [v|]; cbn in Hc'.
    - eapply IH; [exact Hc'|lia].
    - inversion Hc'; subst; cbn in Hl; lia.
  Qed.
  Lemma look_some k x : k <= length (names m stack x) -> exists n, look m k x = Some n.
  Proof.
    intros Hk. destruct (height_chain (leaf_parent h (s_disc m x)) Hh) as (l & Hc & L).
    rewrite (names_chain Hf Hh x Hc) in Hk. destruct k as [|k]; [eexists; reflexivity|]. cbn.
    rewrite <- (fo_leaf Hf) in Hc. destruct (s_super m x) as [u|]; cbn in Hc.
    - destruct (look_sup u Hc Hk) as [w E]. rewrite E. eexists; reflexivity.
    - inversion Hc; subst; cbn in Hk; lia.
  Qed.
  Lemma names_disc x y : s_disc m x = s_disc m y -> names m stack x = names m stack y.
  Proof.
    intros E. destruct (height_chain (leaf_parent h (s_disc m x)) Hh) as (l & Hc & L).
    rewrite (names_chain Hf Hh x Hc). rewrite E in Hc. now rewrite (names_chain Hf Hh y Hc).
  Qed.

  (** Writing a level back does not change the variant. *)
  Definition same_kind (n n' : nd) : Prop :=
    match n, n' with
    | NState x, NState y => s_disc m x = s_disc m y
    | NSuper u, NSuper v => u_disc m u = u_disc m v
    | _, _ => False
    end.
  Lemma write_disc k x n n' : look m k x = Some n -> same_kind n' n -> s_disc m (write m k x n') = s_disc m x.
  Proof.
    destruct k as [|k]; cbn.
    - intros [= <-]. destruct n'; cbn; [auto|tauto].
    - destruct (s_super m x) as [u|] eqn:E; [|discriminate].
      destruct (sup_look m k u) as [w|] eqn:El; cbn; [|discriminate]. intros [= <-].
      destruct n' as [|w']; cbn; [tauto|]. intros D. eapply (fo_s_put Hf); [exact E|].
      exact (@sup_write_disc h m Hf k u w w' El D).
  Qed.
  Lemma handler_kind n sh cx e r n' sh' cx' : node_handler m n sh cx e = (r, n', sh', cx') -> same_kind n' n.
  Proof.
    destruct n as [x|u]; cbn.
    - destruct (s_handler m x sh cx e) as [[[q y] s] c] eqn:E. intros [= <- <- <- <-]. exact (st_s_handler Hs _ _ _ _ E).
    - destruct (u_handler m u sh cx e) as [[[q y] s] c] eqn:E. intros [= <- <- <- <-]. exact (st_u_handler Hs _ _ _ _ E).
  Qed.
  Lemma entry_kind n sh cx r n' sh' cx' : node_entry m n sh cx = (r, n', sh', cx') -> same_kind n' n.
  Proof.
    destruct n as [x|u]; cbn.
    - destruct (s_entry m x sh cx) as [[[q y] s] c] eqn:E. intros [= <- <- <- <-]. exact (st_s_entry Hs _ _ _ E).
    - destruct (u_entry m u sh cx) as [[[q y] s] c] eqn:E. intros [= <- <- <- <-]. exact (st_u_entry Hs _ _ _ E).
  Qed.
  Lemma exit_kind n sh cx r n' sh' cx' : node_exit m n sh cx = (r, n', sh', cx') -> same_kind n' n.
  Proof.
    destruct n as [x|u]; cbn.
    - destruct (s_exit m x sh cx) as [[[q y] s] c] eqn:E. intros [= <- <- <- <-]. exact (st_s_exit Hs _ _ _ E).
    - destruct (u_exit m u sh cx) as [[[q y] s] c] eqn:E. intros [= <- <- <- <-]. exact (st_u_exit Hs _ _ _ E).
  Qed.

  Definition here (d : nat) (k : nat) : Prop := forall x, s_disc m x = d -> k <= length (names m stack x).

  Lemma meets_exit d k t : here d k ->
    meets d (exit_at m (look m) (write m) k) (fun x => Going k x t) (fun _ x => Going (S k) x t).
  Proof.
    intros HE x sh cx E HP. cbv zeta. unfold exit_at, act_at. destruct (@look_some k x (HE x E)) as [n L]. rewrite L.
    destruct (node_exit m n sh cx) as [[[r n'] sh'] cx'] eqn:Ec.
    assert (NF : forall p, p = Panics \/ p = Cancelled -> r = p -> ~ ok).
    { intros p Hp -> K. destruct (@de_exit _ _ _ _ K k x t n sh cx L HP) as [b Eb]. rewrite Ec in Eb. cbn in Eb. destruct Hp; congruence. }
    destruct r as [[]| |]; cbn.
    - split; [rewrite (@write_disc k x n n' L (@exit_kind n sh cx _ n' sh' cx' Ec)); exact E|]. exact (@du_exit _ _ _ _ _ _ DU k x t n sh cx n' sh' cx' L HP Ec).
    - apply (NF Panics); auto.
    - apply (NF Cancelled); auto.
  Qed.
  Lemma meets_enter d k : here d k ->
    meets d (enter_at m (look m) (write m) k) (fun x => Coming (S k) x) (fun _ x => Coming k x).
  Proof.
    intros HE x sh cx E HP. cbv zeta. unfold enter_at, act_at. destruct (@look_some k x (HE x E)) as [n L]. rewrite L.
    destruct (node_entry m n sh cx) as [[[r n'] sh'] cx'] eqn:Ec.
    assert (NF : forall p, p = Panics \/ p = Cancelled -> r = p -> ~ ok).
    { intros p Hp -> K. destruct (@de_entry _ _ _ _ K k x n sh cx L HP) as [b Eb]. rewrite Ec in Eb. cbn in Eb. destruct Hp; congruence. }
    destruct r as [[]| |]; cbn.
    - split; [rewrite (@write_disc k x n n' L (@entry_kind n sh cx _ n' sh' cx' Ec)); exact E|]. exact (@du_entry _ _ _ _ _ _ DU k x n sh cx n' sh' cx' L HP Ec).
    - apply (NF Panics); auto.
    - apply (NF Cancelled); auto.
  Qed.
  Lemma meets_walk_out d t n : forall k, here d (pred (k + n)) ->
    meets d (walk_out m (look m) (write m) k n) (fun x => Going k x t) (fun _ x => Going (k + n) x t).
  Proof.
    induction n as [|n IH]; intros k HE; cbn [walk_out].
    - rewrite Nat.add_0_r. apply meets_ret. auto.
    - eapply meets_bind; [apply meets_exit; intros x E; specialize (HE x E); lia|]. intros ?.
      replace (k + S n) with (S k + n) in * by lia. now apply IH.
  Qed.
  Lemma meets_walk_in d n : here d (pred n) ->
    meets d (walk_in m (look m) (write m) n) (fun x => Coming n x) (fun _ => Rest).
  Proof.
    induction n as [|n IH]; intros HE; cbn [walk_in].
    - apply meets_ret. apply (du_arrive DU).
    - eapply meets_bind; [apply meets_enter; exact HE|]. intros ?. apply IH. intros x E. specialize (HE x E). cbn in HE. lia.
  Qed.

  (** Dispatch. *)
  Definition answered (r : response (State m)) (x : State m) (sh : Shared m) : Prop :=
    match r with Transition t => Going 0 x t sh | _ => Rest x sh end.
  Definition decided (o : option (State m)) (x : State m) (sh : Shared m) : Prop :=
    match o with Some t => Going 0 x t sh | None => Rest x sh end.
  Lemma meets_ask d e k : here d k -> meets d (ask_at m (look m) (write m) e k) Rest answered.
  Proof.
    intros HE x sh cx E HP. cbv zeta. unfold ask_at. destruct (@look_some k x (HE x E)) as [n L]. rewrite L.
    destruct (node_handler m n sh cx e) as [[[r n'] sh'] cx'] eqn:Ec.
    assert (NF : forall p, p = Panics \/ p = Cancelled -> r = p -> ~ ok).
    { intros p Hp -> K. destruct (@de_handler _ _ _ _ K k x n sh cx e L HP) as [b Eb]. rewrite Ec in Eb. cbn in Eb. destruct Hp; congruence. }
    destruct r as [a| |]; cbn.
    - split; [rewrite (@write_disc k x n n' L (@handler_kind n sh cx e _ n' sh' cx' Ec)); exact E|]. exact (@du_handler _ _ _ _ _ _ DU k x n sh cx e a n' sh' cx' L HP Ec).
    - apply (NF Panics); auto.
    - apply (NF Cancelled); auto.
  Qed.
  Lemma meets_before d e k :
    meets d (show_at m (look m) (fun n => before_dispatch m n e) k) Rest (fun _ => Rest).
  Proof.
    intros x sh cx E HP. cbv zeta. unfold show_at. destruct (look m k x) as [n|] eqn:L; [|cbn; auto].
    unfold before_dispatch, call_hook. destruct (h_before_dispatch m sh n e) as [r sh'] eqn:Eh.
    assert (NF : forall p, p = Panics \/ p = Cancelled -> r = p -> ~ ok).
    { intros p Hp -> K. destruct (@de_before_dispatch _ _ _ _ K k x n sh e L HP) as [b Eb]. rewrite Eh in Eb. cbn in Eb. destruct Hp; congruence. }
    destruct r as [[]| |]; cbn.
    - split; [exact E|]. exact (@du_before_dispatch _ _ _ _ _ _ DU k x n sh e sh' L HP Eh).
    - apply (NF Panics); auto.
    - apply (NF Cancelled); auto.
  Qed.
  Lemma meets_after d e k o :
    meets d (show_at m (look m) (fun n => after_dispatch m n e) k) (decided o) (fun _ => decided o).
  Proof.
    intros x sh cx E HP. cbv zeta. unfold show_at. destruct (look m k x) as [n|] eqn:L; [|cbn; auto].
    unfold after_dispatch, call_hook. destruct (h_after_dispatch m sh n e) as [r sh'] eqn:Eh.
    assert (NF : forall p, p = Panics \/ p = Cancelled -> r = p -> ~ ok).
    { intros p Hp -> K. assert (HQ : Rest x sh \/ exists t, Going 0 x t sh) by (destruct o as [t|]; cbn in HP; eauto).
      destruct (@de_after_dispatch _ _ _ _ K k x n sh e L HQ) as [b Eb]. rewrite Eh in Eb. cbn in Eb. destruct Hp; congruence. }
    destruct r as [[]| |]; cbn.
    - split; [exact E|]. destruct (@du_after_dispatch _ _ _ _ _ _ DU k x n sh e sh' L Eh) as [D1 D2]. destruct o; cbn in *; auto.
    - apply (NF Panics); auto.
    - apply (NF Cancelled); auto.
  Qed.
  Lemma meets_after_r d e k (r : response (State m)) :
    meets d (show_at m (look m) (fun n => after_dispatch m n e) k) (answered r) (fun _ => answered r).
  Proof. destruct r as [| |t]; [exact (@meets_after d e k None)|exact (@meets_after d e k None)|exact (@meets_after d e k (Some t))]. Qed.

  Lemma meets_ask_up d e n : forall k, here d (pred (k + n)) ->
    meets d (ask_up m (look m) (write m) e k n) Rest decided.
  Proof.
    induction n as [|n IH]; intros k HE; cbn [ask_up]; [apply meets_ret; auto|].
    eapply meets_bind; [apply meets_before|]. intros ?.
    eapply meets_bind; [apply meets_ask; intros x E; specialize (HE x E); lia|]. intros r.
    eapply meets_bind; [apply meets_after_r|]. intros ?.
    destruct r as [| |t]; [apply meets_ret; auto| |apply meets_ret; auto].
    apply IH. intros x E. specialize (HE x E). lia.
  Qed.
  Lemma meets_nested d e n : forall k, here d (pred (k + n)) ->
    meets d (ask_up_nested m (look m) (write m) e k n) Rest decided.
  Proof.
    induction n as [|n IH]; intros k HE; cbn [ask_up_nested]; [apply meets_ret; auto|].
    eapply meets_bind; [apply meets_before|]. intros ?.
    eapply meets_bind; [apply meets_ask; intros x E; specialize (HE x E); lia|]. intros r.
    eapply meets_bind with (Q := decided).
    { destruct r as [| |t]; [apply meets_ret; auto| |apply meets_ret; auto].
      apply IH. intros x E. specialize (HE x E). lia. }
    intros t. eapply meets_bind; [apply meets_after|]. intros ?. apply meets_ret. auto.
  Qed.
  Lemma meets_leaf_first d e n : here d n ->
    meets d (ask_leaf_first m (look m) (write m) e n) Rest decided.
  Proof.
    intros HE. unfold ask_leaf_first.
    eapply meets_bind; [apply meets_before|]. intros ?.
    eapply meets_bind; [apply meets_ask; intros x E; lia|]. intros r.
    eapply meets_bind; [apply meets_after_r|]. intros ?.
    destruct r as [| |t]; [apply meets_ret; auto| |apply meets_ret; auto].
    apply meets_nested. exact HE.
  Qed.

  (** Whole calls. *)
  Definition fine (r : res m (State m) unit) : Prop :=
    match r_out r with
    | Ret _ => Rest (r_self r) (r_sh r)
    | Abort _ => ~ ok
    end.
  Lemma fine_bind {A} (c : St A) (f : A -> St unit) x sh cx :
    match r_out (c x sh cx) with
    | Ret a => fine (f a (r_self (c x sh cx)) (r_sh (c x sh cx)) (r_cx (c x sh cx)))
    | Abort _ => ~ ok
    end -> fine (bind c f x sh cx).
  Proof. unfold fine, bind. destruct (r_out (c x sh cx)); auto. Qed.

  Lemma own_bound x t : own_levels m stack x t <= S (length (names m stack x)) /\ 1 <= own_levels m stack x t.
  Proof. unfold own_levels. destruct (s_disc m x =? s_disc m t); lia. Qed.
  Lemma own_disc x y t : s_disc m x = s_disc m y -> own_levels m stack x t = own_levels m stack y t.
  Proof. intros E. unfold own_levels. now rewrite E, (@names_disc x y E). Qed.
  Lemma own_disc_r x y t : s_disc m x = s_disc m y -> own_levels m stack t x = own_levels m stack t y.
  Proof. intros E. unfold own_levels. now rewrite E, (@names_disc x y E). Qed.

  Lemma transition_fine md t x sh cx : Going 0 x t sh -> fine (ref_transition m stack md t x sh cx).
  Proof.
    intros HP. unfold ref_transition. rewrite self_bind_run. apply fine_bind.
    assert (BT : forall a b : State m, (a = x /\ b = t) \/ (a = t /\ b = x) ->
       let r := (before_transition m a b : St unit) x sh cx in
       r_self r = x /\ match r_out r with Ret _ => Going 0 x t (r_sh r) | Abort _ => ~ ok end).
    { intros a b HAB. cbv zeta. unfold before_transition, call_hook.
      destruct (h_before_transition m sh a b) as [r sh'] eqn:Eh. cbn. split; [reflexivity|].
      assert (NF : forall p, p = Panics \/ p = Cancelled -> r = p -> ~ ok).
      { intros p Hp -> K. destruct (@de_before_transition _ _ _ _ K x t sh HP) as [[c1 E1] [c2 E2]].
        destruct HAB as [[-> ->]|[-> ->]]; [rewrite Eh in E1; cbn in E1|rewrite Eh in E2; cbn in E2]; destruct Hp; congruence. }
      destruct r as [[]| |]; cbn.
      - apply (@du_before_transition _ _ _ _ _ _ DU x t sh sh' HP). destruct HAB as [[-> ->]|[-> ->]]; auto.
      - apply (NF Panics); auto.
      - apply (NF Cancelled); auto. }
    set (B := match md with
         | BlockingMode => before_transition m t x
         | AwaitableMode => before_transition m x t end x sh cx).
    assert (B1 : r_self B = x /\ match r_out B with Ret _ => Going 0 x t (r_sh B) | Abort _ => ~ ok end).
    { subst B. destruct md; apply BT; auto. }
    clearbody B. destruct B1 as [Bs B1]. destruct (r_out B) as [[]|w]; [|exact B1]. rewrite Bs.
    destruct (own_bound x t) as [OB O1]. destruct (own_bound t x) as [OB' O1'].
    apply fine_bind.
    assert (H1 : here (s_disc m x) (pred (0 + own_levels m stack x t))).
    { intros y E. rewrite (@names_disc y x E). lia. }
    pose proof (@meets_walk_out (s_disc m x) t (own_levels m stack x t) 0 H1 x (r_sh B) (r_cx B) eq_refl B1) as X1.
    cbv zeta in X1. set (X := walk_out m (look m) (write m) 0 (own_levels m stack x t) x (r_sh B) (r_cx B)) in *.
    destruct (r_out X) as [[]|w]; [|exact X1]. destruct X1 as [Ex X1]. cbn [Nat.add] in X1.
    apply fine_bind. unfold replace_by at 1. cbn [r_out]. unfold replace_by. cbn [r_self r_sh r_cx].
    apply fine_bind.
    assert (HC : Coming (own_levels m stack t x) t (r_sh X)).
    { rewrite <- (@own_disc_r (r_self X) x t Ex). apply (du_turn DU). rewrite (@own_disc (r_self X) x t Ex). exact X1. }
    assert (H2 : here (s_disc m t) (pred (own_levels m stack t x))).
    { intros y E. rewrite (@names_disc y t E). lia. }
    pose proof (@meets_walk_in (s_disc m t) (own_levels m stack t x) H2 t (r_sh X) (r_cx X) eq_refl HC) as Y1. cbv zeta in Y1.
    set (Y := walk_in m (look m) (write m) (own_levels m stack t x) t (r_sh X) (r_cx X)) in *.
    destruct (r_out Y) as [[]|w]; [|exact Y1]. destruct Y1 as [_ Y1].
    rewrite self_bind_run. unfold fine, after_transition, call_hook.
    destruct (h_after_transition m (r_sh Y) (r_self X) (r_self Y)) as [r sh'] eqn:Eh.
    assert (NF : forall p, p = Panics \/ p = Cancelled -> r = p -> ~ ok).
    { intros p Hp -> K. destruct (@de_after_transition _ _ _ _ K (r_self X) (r_self Y) (r_sh Y) Y1) as [b Eb].
      rewrite Eh in Eb. cbn in Eb. destruct Hp; congruence. }
    destruct r as [[]| |]; cbn.
    - exact (@du_after_transition _ _ _ _ _ _ DU (r_self X) (r_self Y) (r_sh Y) sh' Y1 Eh).
    - apply (NF Panics); auto.
    - apply (NF Cancelled); auto.
  Qed.
  Lemma handle_fine md e x sh cx : Rest x sh -> fine (ref_handle m stack md e x sh cx).
  Proof.
    intros HP. unfold ref_handle. rewrite self_bind_run. apply fine_bind.
    set (D := match md with
       | BlockingMode => ask_leaf_first m (look m) (write m) e (length (names m stack x))
       | AwaitableMode => ask_up m (look m) (write m) e 0 (S (length (names m stack x))) end x sh cx).
    assert (D1 : match r_out D with Ret o => decided o (r_self D) (r_sh D) | Abort _ => ~ ok end).
    { assert (HE : here (s_disc m x) (length (names m stack x))) by (intros y E; now rewrite (@names_disc y x E)).
      subst D. destruct md.
      - pose proof (@meets_leaf_first (s_disc m x) e _ HE x sh cx eq_refl HP) as G. cbv zeta in G.
        destruct (r_out _); tauto.
      - pose proof (@meets_ask_up (s_disc m x) e (S (length (names m stack x))) 0 HE x sh cx eq_refl HP) as G. cbv zeta in G.
        destruct (r_out _); tauto. }
    clearbody D. destruct (r_out D) as [[t|]|w]; [|exact D1|exact D1]. now apply transition_fine.
  Qed.
  Lemma init_fine x sh cx : Fresh x sh -> fine (ref_init m stack x sh cx).
  Proof.
    intros HP. unfold ref_init. rewrite self_bind_run.
    assert (HE : here (s_disc m x) (pred (S (length (names m stack x))))).
    { intros y E. cbn. now rewrite (@names_disc y x E). }
    pose proof (@meets_walk_in (s_disc m x) _ HE x sh cx eq_refl (@du_start _ _ _ _ _ _ DU x sh HP)) as G. cbv zeta in G.
    unfold fine. destruct (r_out _); tauto.
  Qed.

  Definition at_rest (sm : state_machine m) : Prop :=
    if initialized sm then Rest (sm_state sm) (sm_shared sm) else Fresh (sm_state sm) (sm_shared sm).
  Lemma exec_fine md o sm out sm1 cx tr :
    considerate Fresh Rest o -> at_rest sm -> ref_exec stack md o sm = (out, sm1, cx, tr) ->
    match out with Ret _ => at_rest sm1 | Abort _ => ~ ok end.
  Proof.
    intros C R E. destruct sm as [[sh x] b]. unfold at_rest in R.
    cbn [initialized sm_state sm_shared sm_inner state shared_storage] in R.
    destruct o as [cx0|e cx0|f|f]; cbn [ref_exec initialized sm_state sm_shared sm_inner state shared_storage] in E.
    - destruct b; [injection E as <- <- <- <-; exact R|].
      pose proof (@init_fine x sh cx0 R) as H. unfold fine in H.
      destruct (r_out (ref_init m stack x sh cx0)) as [[]|w]; injection E as <- <- <- <-; exact H.
    - destruct b.
      + pose proof (@handle_fine md e x sh cx0 R) as H. unfold fine in H.
        set (I := ref_handle m stack md e x sh cx0) in *. clearbody I. injection E as <- <- <- <-.
        destruct (r_out I) as [[]|w]; exact H.
      + pose proof (@init_fine x sh cx0 R) as H. unfold fine in H. unfold bind in E.
        set (I := ref_init m stack x sh cx0) in *.
        destruct (r_out I) as [[]|w]; [|injection E as <- <- <- <-; exact H].
        pose proof (@handle_fine md e (r_self I) (r_sh I) (r_cx I) H) as G. unfold fine in G.
        set (J := ref_handle m stack md e (r_self I) (r_sh I) (r_cx I)) in *. clearbody J. clearbody I.
        cbn [r_out r_self r_sh r_cx r_tr] in E. injection E as <- <- <- <-.
        destruct (r_out J) as [[]|w]; exact G.
    - injection E as <- <- <- <-. unfold at_rest. cbn in *. destruct (C x sh). destruct b; auto.
    - injection E as <- <- <- <-. unfold at_rest. cbn in *. destruct (C x sh). destruct b; auto.
  Qed.
  Lemma history_fine md ops sm cs sm' :
    history stack md ops sm cs sm' -> Forall (considerate Fresh Rest) ops -> at_rest sm ->
    (completed cs -> at_rest sm') /\ (ok -> completed cs).
  Proof.
    induction 1 as [sm|o ops sm out sm1 cx tr cs sm' E _ IH]; intros C R.
    - split; [auto|]. intros _. constructor.
    - inversion C as [|? ? C1 C2]; subst. rewrite (@exec_ref h m Hf Hs Hv stack Hh) in E.
      pose proof (@exec_fine md _ _ _ _ _ _ C1 R E) as S.
      split.
      + intros D. inversion D as [|? ? D1 D2]; subst. cbn in D1. subst out. now apply (IH C2 S).
      + intros U. destruct out as [[]|w]; [|now destruct S]. constructor; [reflexivity|]. now apply (IH C2 S).
  Qed.
End Local.
