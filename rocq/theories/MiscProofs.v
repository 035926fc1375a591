(** MiscProofs.v — C22, C27, C43. *)

From Coq Require Import List Bool Arith Lia.
From Verif Require Import Machine Blocking Awaitable Api Spec TripleProofs ShapeProofs
  DispatchProofs TransitionProofs ApiProofs RouteProofs HistoryProofs TotalProofs HandleProofs Sim.
Import ListNotations.
Set Implicit Arguments.

(** ** C43: flat machines *)

Definition no_hierarchy : hierarchy :=
  {| leaf_parent := fun _ => None; sup_parent := fun _ => None |}.

Section Flat.
  Variable m : machine.
  Hypothesis Hs : forall x, s_super m x = None.
  Hypothesis Hu : forall u, u_super m u = None.
  Hypothesis St : stable m.
  Variable stack : nat.
  Hypothesis Hst : 1 <= stack.

  Lemma flat_well_formed : well_formed no_hierarchy m stack.
  Proof.
    split.
    - split.
      + intros x. now rewrite Hs.
      + intros u. now rewrite Hu.
      + intros x v v' H. rewrite Hs in H. discriminate.
      + intros u v v' H. rewrite Hu in H. discriminate.
    - exact St.
    - intros u. exists [u]. split; [|exact Hst]. constructor. constructor.
  Qed.

  Lemma flat_upward s ps : upward no_hierarchy s ps -> ps = [AtState s].
  Proof. intros (l & H & ->). inversion H. reflexivity. Qed.
  Lemma flat_path s ps : path no_hierarchy s ps -> ps = [AtState s].
  Proof. intros (l & H & ->). inversion H. reflexivity. Qed.

  Lemma flat_route s t full : route no_hierarchy s t full ->
    full = [Exit (AtState s); Enter (AtState t)].
  Proof.
    intros [[-> ->]|(Hn & common & xs & ys & Hp & Hq & Hd & ->)]; [reflexivity|].
    apply flat_path in Hp. apply flat_path in Hq.
    destruct common as [|c common].
    - simpl in Hp, Hq. subst. reflexivity.
    - simpl in Hp, Hq. inversion Hp; inversion Hq; subst. exfalso. apply Hn. congruence.
  Qed.

  Variable md : mode.

  Lemma flat_dispatch (sm : state_machine m) e cx :
    let r := handle_with_context stack md sm e cx in
    a_out r = Ret tt ->
    exists a, handler_calls (calls (a_tr r)) = [(AtState (s_disc m (sm_state sm)), e, Some a)].
  Proof.
    intros r Ho.
    destruct (dispatch_order flat_well_formed md sm e cx) as (ps & Hup & _ & _ & _ & _ & H).
    fold r in H. destruct (H Ho) as (vis & a & Ha & E). apply flat_upward in Hup. subst ps.
    rewrite E. inversion Ha as [|? ? ? Hn|? ? vis' ? Ha']; subst.
    - exists a. reflexivity.
    - inversion Ha'; subst. exists Super. reflexivity.
  Qed.

  Lemma flat_dispatch_any (sm : state_machine m) e cx c :
    In c (handler_calls (calls (a_tr (handle_with_context stack md sm e cx)))) ->
    fst c = (AtState (s_disc m (sm_state sm)), e).
  Proof.
    intros Hin.
    destruct (dispatch_order flat_well_formed md sm e cx) as (ps & Hup & _ & Hp & He & _).
    cbv zeta in *. apply flat_upward in Hup. subst ps.
    specialize (He c Hin). destruct Hp as [l3 Hp]. destruct c as [[p e'] o]. simpl in *. subst e'.
    apply (in_map (fun c => fst (fst c))) in Hin. simpl in Hin. f_equal.
    destruct (map _ _) as [|q l] eqn:E in Hp; [rewrite E in Hin; contradiction|].
    rewrite E in Hin. simpl in Hp. injection Hp as -> Hl. symmetry in Hl.
    apply app_eq_nil in Hl. destruct Hl as [-> _]. destruct Hin as [<-|[]]. reflexivity.
  Qed.

  Lemma flat_transition (sm : state_machine m) e cx p target :
    initialized sm = true ->
    let r := handle_with_context stack md sm e cx in
    asks_for (a_tr r) p e target ->
    prefix (acts (a_tr r)) [Exit (AtState (s_disc m (sm_state sm))); Enter (AtState (s_disc m target))] /\
    (a_out r = Ret tt ->
     acts (a_tr r) = [Exit (AtState (s_disc m (sm_state sm))); Enter (AtState (s_disc m target))] /\
     s_disc m (sm_state (a_machine r)) = s_disc m target).
  Proof.
    intros Hi r Ha.
    destruct (handle_transition_route flat_well_formed md sm e cx p e target Hi Ha)
      as (full & Hr & Hp & Hc).
    apply flat_route in Hr. subst full. fold r in Hp, Hc. auto.
  Qed.
End Flat.

(** ** C27: clones *)

Section Clones.
  Variable m : machine.
  Variable stack : nat.
  Variable md : mode.

  Lemma clone_lockstep (R : relations m m) csh cs (sm : state_machine m) evs :
    similar R ->
    (forall sh, r_shared R sh (csh sh)) -> (forall x, r_state R x (cs x)) ->
    (forall e, r_event R e e) -> (forall c, r_ctx R c c) ->
    let a := sm_handles stack md sm evs in
    let b := sm_handles stack md (clone csh cs sm) evs in
    machine_rel R (fst a) (fst b) /\ Forall2 (called_rel R) (snd a) (snd b).
  Proof.
    intros S H1 H2 H3 H4.
    assert (HF : Forall2 (fun a b => r_event R (fst a) (fst b) /\ r_ctx R (snd a) (snd b)) evs evs).
    { induction evs; constructor; auto. }
    assert (HM : machine_rel R sm (clone csh cs sm)).
    { destruct sm as [[sh s] i]. unfold machine_rel. simpl. split; [apply H2|]. split; [apply H1|reflexivity]. }
    exact (@sim_handles m m R S stack md evs evs sm (clone csh cs sm) HF HM).
  Qed.

  Lemma clone_copy (sm : state_machine m) : clone (fun x => x) (fun x => x) sm = sm.
  Proof. destruct sm as [[sh s] i]. reflexivity. Qed.

  Lemma history2_split (ops : list (bool * op m)) (a b : state_machine m) (ca cb : list (called m)) (a' b' : state_machine m) :
    history2 stack md ops (a, b) (ca, cb) (a', b') ->
    history stack md (map snd (filter (fun o => fst o) ops)) a ca a' /\
    history stack md (map snd (filter (fun o => negb (fst o)) ops)) b cb b'.
  Proof.
    intros H. remember (a, b) as p eqn:Ep. remember (ca, cb) as cc eqn:Ec. remember (a', b') as q eqn:Eq.
    revert a b ca cb Ep Ec.
    induction H as [p|o ops a0 b0 out a1 cx tr ca0 cb0 q E H IH|o ops a0 b0 out b1 cx tr ca0 cb0 q E H IH];
      intros a b ca cb Ep Ec; subst.
    - inversion Ec; subst. inversion Ep; subst. split; constructor.
    - inversion Ep; inversion Ec; subst.
      destruct (IH eq_refl _ _ _ _ eq_refl eq_refl) as [G1 G2]. simpl. split; [|exact G2].
      econstructor; [exact E|exact G1].
    - inversion Ep; inversion Ec; subst.
      destruct (IH eq_refl _ _ _ _ eq_refl eq_refl) as [G1 G2]. simpl. split; [exact G1|].
      econstructor; [exact E|exact G2].
  Qed.
End Clones.

(** ** C22 *)

Section Units.
  Variable m : machine.
  Variable stack : nat.
  Variable md : mode.
  (** `Context = ()`, `Event = ()`: one value only. *)
  Definition one_context : Prop := forall a b : Ctx m, a = b.
  Definition one_event : Prop := forall a b : Event m, a = b.

  Lemma unit_context c0 (sm : state_machine m) (im : initialized_machine m) (um : uninitialized_machine m) e cx : one_context ->
    init stack md c0 sm = init_with_context stack md sm cx /\
    handle stack md c0 sm e = handle_with_context stack md sm e cx /\
    im_handle stack md c0 im e = im_handle_with_context stack md im e cx /\
    um_init stack md c0 um = um_init_with_context stack md um cx.
  Proof. intros H. rewrite (H c0 cx). auto. Qed.

  Lemma unit_event e0 (sm : state_machine m) (im : initialized_machine m) e cx : one_event ->
    step_with_context stack md e0 sm cx = handle_with_context stack md sm e cx /\
    im_step_with_context stack md e0 im cx = im_handle_with_context stack md im e cx.
  Proof. intros H. rewrite (H e0 e). auto. Qed.

  Lemma unit_both e0 c0 (sm : state_machine m) (im : initialized_machine m) e cx : one_event -> one_context ->
    step stack md e0 c0 sm = handle_with_context stack md sm e cx /\
    im_step stack md e0 c0 im = im_handle_with_context stack md im e cx.
  Proof. intros H G. rewrite (H e0 e), (G c0 cx). auto. Qed.
End Units.
