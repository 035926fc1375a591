(** IdleProofs.v — a superstate that does nothing can be left out. *)

From Coq Require Import List Bool Arith Lia.
From Verif Require Import Machine Blocking Awaitable Api Spec IdleSpec TripleProofs ShapeProofs
  DispatchProofs TransitionProofs ApiProofs ThreadProofs SameProofs OmitProofs.
Import ListNotations.
Set Implicit Arguments.

Section Idle.
  Variable g : nat.
  Variable h : hierarchy.
  Variable m : machine.
  Variable stack : nat.
  Hypothesis W : well_formed h m stack.
  Hypothesis V : faithful_views m.
  Hypothesis I : idle g m.

  Let Hf := wf_follows W.
  Let Hs := wf_stable W.
  Let Hh := wf_height W.

  Definition m' : machine := without g m.

  (** *** The hierarchy without [g] *)

  Definition skip (o : option nat) : option nat :=
    match o with Some u => if u =? g then sup_parent h g else Some u | None => None end.
  Definition h' : hierarchy := {|
    leaf_parent := fun k => skip (leaf_parent h k);
    sup_parent := fun k => skip (sup_parent h k) |}.

  Definition real (k : nat) : bool := negb (k =? g).
  Definition reals (l : list nat) : list nat := filter real l.

  Lemma g_parent : sup_parent h g <> Some g.
  Proof.
    intros E. destruct (Hh g) as (l & C & _). assert (N := chain_NoDup C).
    inversion C as [|? l' C']; subst. rewrite E in C'. inversion C'; subst.
    inversion N as [|? ? N1 N2]; subst. apply N1. now left.
  Qed.
  Lemma skip_g : skip (sup_parent h g) = sup_parent h g.
  Proof.
    unfold skip. destruct (sup_parent h g) as [u|] eqn:E; [|reflexivity].
    destruct (u =? g) eqn:Eu; [|reflexivity]. apply Nat.eqb_eq in Eu. subst u.
    destruct (g_parent E).
  Qed.

  Lemma chain_skip o l : chain h o l -> chain h' (skip o) (reals l).
  Proof.
    induction 1 as [|u l C IH]; [constructor|]. cbn [skip reals filter]. unfold real at 1.
    destruct (u =? g) eqn:E; cbn [negb].
    - apply Nat.eqb_eq in E. subst u. rewrite <- skip_g. exact IH.
    - constructor. exact IH.
  Qed.

  Lemma reals_le l : length (reals l) <= length l.
  Proof. unfold reals. induction l as [|a l IH]; cbn; [lia|]. destruct (real a); cbn; lia. Qed.

  Lemma height' : height_at_most stack h'.
  Proof.
    intros u. destruct (Hh u) as (l & C & L). inversion C as [|? l' C']; subst.
    exists (u :: reals l'). split.
    - constructor. exact (chain_skip C').
    - cbn in *. pose proof (reals_le l'). lia.
  Qed.

  Lemma eqb_g u : (u =? g) = true -> u = g.
  Proof. apply Nat.eqb_eq. Qed.

  Lemma follows' : follows h' m'.
  Proof.
    constructor; cbn.
    - intros x. pose proof (fo_leaf Hf x) as F. destruct (s_super m x) as [v|]; cbn in F; rewrite <- F; [|reflexivity].
      cbn. destruct (u_disc m v =? g) eqn:E; [|reflexivity]. rewrite (fo_sup Hf v). now rewrite (eqb_g _ E).
    - intros x. pose proof (fo_sup Hf x) as F. destruct (u_super m x) as [v|]; cbn in F; rewrite <- F; [|reflexivity].
      cbn. destruct (u_disc m v =? g) eqn:E; [|reflexivity]. rewrite (fo_sup Hf v). now rewrite (eqb_g _ E).
    - intros x w w' Ex Ew. destruct (s_super m x) as [v|] eqn:Ev; [|discriminate].
      destruct (u_disc m v =? g) eqn:E.
      + eapply (fo_s_put Hf); [exact Ev|]. eapply (fo_u_put Hf); eauto.
      + injection Ex as <-. eapply (fo_s_put Hf); eauto.
    - intros x w w' Ex Ew. destruct (u_super m x) as [v|] eqn:Ev; [|discriminate].
      destruct (u_disc m v =? g) eqn:E.
      + eapply (fo_u_put Hf); [exact Ev|]. eapply (fo_u_put Hf); eauto.
      + injection Ex as <-. eapply (fo_u_put Hf); eauto.
  Qed.

  Lemma stable' : stable m'.
  Proof. destruct Hs. constructor; cbn; eauto. Qed.

  Lemma views' : faithful_views m'.
  Proof.
    constructor; cbn.
    - intros x w. destruct (s_super m x) as [v|] eqn:Ev; [|discriminate].
      destruct (u_disc m v =? g) eqn:E.
      + intros Ew. rewrite (fv_u_get_put V _ Ew). exact (fv_s_get_put V _ Ev).
      + intros [= <-]. exact (fv_s_get_put V _ Ev).
    - intros x w w'. destruct (s_super m x) as [v|] eqn:Ev; [|discriminate].
      destruct (u_disc m v =? g) eqn:E.
      + intros Ew Ed. pose proof (fo_u_put Hf _ _ Ew Ed) as D.
        rewrite (fv_s_put_get V _ _ Ev D), D, E. exact (fv_u_put_get V _ _ Ew Ed).
      + intros [= <-] Ed. rewrite (fv_s_put_get V _ _ Ev Ed), Ed, E. reflexivity.
    - intros x w w1 w2. destruct (s_super m x) as [v|] eqn:Ev; [|discriminate].
      destruct (u_disc m v =? g) eqn:E.
      + intros Ew E1 E2. pose proof (fo_u_put Hf _ _ Ew E1) as D1. pose proof (fo_u_put Hf _ _ Ew E2) as D2.
        rewrite (fv_s_put_get V _ _ Ev D1), D1, E, (fv_u_put_put V _ _ _ Ew E1 E2).
        exact (fv_s_put_put V _ _ _ Ev D1 D2).
      + intros [= <-] E1 E2. rewrite (fv_s_put_get V _ _ Ev E1), E1, E. exact (fv_s_put_put V _ _ _ Ev E1 E2).
    - intros x w. destruct (u_super m x) as [v|] eqn:Ev; [|discriminate].
      destruct (u_disc m v =? g) eqn:E.
      + intros Ew. rewrite (fv_u_get_put V _ Ew). exact (fv_u_get_put V _ Ev).
      + intros [= <-]. exact (fv_u_get_put V _ Ev).
    - intros x w w'. destruct (u_super m x) as [v|] eqn:Ev; [|discriminate].
      destruct (u_disc m v =? g) eqn:E.
      + intros Ew Ed. pose proof (fo_u_put Hf _ _ Ew Ed) as D.
        rewrite (fv_u_put_get V _ _ Ev D), D, E. exact (fv_u_put_get V _ _ Ew Ed).
      + intros [= <-] Ed. rewrite (fv_u_put_get V _ _ Ev Ed), Ed, E. reflexivity.
    - intros x w w1 w2. destruct (u_super m x) as [v|] eqn:Ev; [|discriminate].
      destruct (u_disc m v =? g) eqn:E.
      + intros Ew E1 E2. pose proof (fo_u_put Hf _ _ Ew E1) as D1. pose proof (fo_u_put Hf _ _ Ew E2) as D2.
        rewrite (fv_u_put_get V _ _ Ev D1), D1, E, (fv_u_put_put V _ _ _ Ew E1 E2).
        exact (fv_u_put_put V _ _ _ Ev D1 D2).
      + intros [= <-] E1 E2. rewrite (fv_u_put_get V _ _ Ev E1), E1, E. exact (fv_u_put_put V _ _ _ Ev E1 E2).
  Qed.

  Lemma well_formed' : well_formed h' m' stack.
  Proof. constructor; [exact follows'|exact stable'|exact height']. Qed.


  Lemma path_without s p : path h s p ->
    path h' s (filter (fun q => match q with AtSuper u => negb (u =? g) | _ => true end) p).
  Proof.
    intros (l & C & ->). exists (reals l). split; [exact (chain_skip C)|].
    rewrite filter_app. cbn [filter]. f_equal. unfold reals. clear C. induction l as [|a l IH]; [reflexivity|].
    cbn [rev filter]. rewrite map_app, filter_app, IH. unfold real at 2. cbn [map filter].
    destruct (a =? g); cbn [negb rev]; [now rewrite app_nil_r|now rewrite map_app].
  Qed.

  (** *** Logs *)

  Definition tidy (t : list (obs m)) : Prop := match t with OReturn _ :: _ => False | _ => True end.

  Lemma tidy_app t1 t2 : tidy t1 -> tidy t2 -> tidy (t1 ++ t2).
  Proof. destruct t1; [intros _ H; exact H|]. intros H _. exact H. Qed.

  Lemma hide_g (o : obs m) t : about_g g o = true -> tidy t -> hide g (o :: t) = hide g t.
  Proof. intros E T. cbn [hide]. rewrite E. destruct t as [|[] t]; try reflexivity. destruct T. Qed.
  Lemma hide_real (o : obs m) t : about_g g o = false -> hide g (o :: t) = same_obs g o :: hide g t.
  Proof. intros E. cbn [hide]. now rewrite E. Qed.

  Lemma hide_app (t1 t2 : list (obs m)) : tidy t2 -> hide g (t1 ++ t2) = hide g t1 ++ hide g t2.
  Proof.
    intros T. remember (length t1) as n eqn:En. revert t1 En.
    induction n as [n IH] using lt_wf_ind. intros [|o t1] En; [reflexivity|]. cbn [length] in En.
    cbn [app]. destruct (about_g g o) eqn:E.
    - destruct t1 as [|o' t1].
      + cbn [app]. rewrite (hide_g _ _ E T). cbn [hide]. now rewrite E.
      + destruct (match o' with OReturn _ => true | _ => false end) eqn:Er.
        * destruct o'; try discriminate Er. cbn [app hide]. rewrite E.
          exact (IH (length t1) ltac:(cbn in En; lia) t1 eq_refl).
        * assert (T1 : forall t, tidy (o' :: t)) by (intros t; destruct o'; try discriminate Er; exact Logic.I).
          change ((o' :: t1) ++ t2) with (o' :: (t1 ++ t2)). rewrite (hide_g _ _ E (T1 _)), (hide_g _ _ E (T1 _)).
          exact (IH (length (o' :: t1)) ltac:(lia) (o' :: t1) eq_refl).
    - rewrite !(hide_real _ _ E). cbn [app]. f_equal. exact (IH (length t1) ltac:(lia) t1 eq_refl).
  Qed.

  (** *** Computations of the two machines *)

  Definition sim {X Y A B} (R : A -> B -> Prop) (Q : X -> Y -> Prop) (r : res m X A) (r' : res m' Y B) : Prop :=
    match r_out r, r_out r' with
    | Ret a, Ret b => R a b
    | Abort w, Abort w' => w = w'
    | _, _ => False
    end /\
    Q (r_self r) (r_self r') /\ r_sh r = r_sh r' /\ r_cx r = r_cx r' /\
    hide g (r_tr r) = r_tr r' /\ tidy (r_tr r).

  Ltac res_cbn := cbn [r_out r_self r_sh r_cx r_tr].

  Lemma sim_bind {X Y A B A1 B1} (R : A -> B -> Prop) (R1 : A1 -> B1 -> Prop) (Q Q1 : X -> Y -> Prop)
      (c : comp m X A) (c' : comp m' Y B) k k' x y sh cx :
    sim R Q (c x sh cx) (c' y sh cx) ->
    (forall w, r_out (c x sh cx) = Abort w -> forall a b, Q a b -> Q1 a b) ->
    (forall a b x1 y1 s z, R a b -> Q x1 y1 -> x1 = r_self (c x sh cx) ->
       sim R1 Q1 (k a x1 s z) (k' b y1 s z)) ->
    sim R1 Q1 (bind c k x sh cx) (bind c' k' y sh cx).
  Proof.
    intros (H1 & H2 & H3 & H4 & H5 & H6) HQ Hk. unfold bind.
    destruct (c x sh cx) as [[a|w] x1 s1 z1 t1], (c' y sh cx) as [[b|w'] y1 s1' z1' t1'];
      revert H1 H2 H3 H4 H5 H6 HQ Hk; res_cbn; intros H1 H2 H3 H4 H5 H6 HQ Hk; try contradiction; subst.
    - destruct (Hk a b x1 y1 s1' z1' H1 H2 eq_refl) as (K1 & K2 & K3 & K4 & K5 & K6).
      unfold sim; res_cbn. repeat split; auto.
      + rewrite hide_app by exact K6. now rewrite K5.
      + now apply tidy_app.
    - unfold sim; res_cbn. repeat split; auto. eapply HQ; eauto.
  Qed.

  Lemma sim_bind_eq {X A B A1 B1} (R : A -> B -> Prop) (R1 : A1 -> B1 -> Prop)
      (c : comp m X A) (c' : comp m' X B) k k' x sh cx :
    sim R eq (c x sh cx) (c' x sh cx) ->
    (forall a b x1 s z, R a b -> x1 = r_self (c x sh cx) -> sim R1 eq (k a x1 s z) (k' b x1 s z)) ->
    sim R1 eq (bind c k x sh cx) (bind c' k' x sh cx).
  Proof.
    intros H Hk. eapply (@sim_bind X X A B A1 B1 R R1 eq eq); eauto.
    intros a b x1 y1 s z HR <- E. auto.
  Qed.

  Lemma sim_ret {X Y A B} (R : A -> B -> Prop) (Q : X -> Y -> Prop) a b x y sh cx :
    R a b -> Q x y -> sim R Q (@ret m X A a x sh cx) (@ret m' Y B b y sh cx).
  Proof. intros H1 H2. unfold sim, ret; res_cbn. cbn. auto 10. Qed.

  (** Calls that concern [g]. *)
  Lemma hid_before {X Y A B} (R : A -> B -> Prop) (Q : X -> Y -> Prop) u e (k : unit -> comp m X A) x sh cx (r' : res m' Y B) :
    u_disc m u = g -> sim R Q (k tt x sh cx) r' -> sim R Q (bind (before_dispatch m (NSuper u) e) k x sh cx) r'.
  Proof.
    intros Eu (H1 & H2 & H3 & H4 & H5 & H6). unfold bind, before_dispatch, call_hook.
    rewrite (id_before I _ sh e Eu). cbn [outcome_of]; res_cbn. unfold sim; res_cbn. cbn [app].
    rewrite hide_g; [|now apply Nat.eqb_eq|exact H6]. cbn [tidy]. auto 10.
  Qed.
  Lemma hid_handler {Y A B} (R : A -> B -> Prop) (Q : Sup m -> Y -> Prop) e (k : response (State m) -> comp m (Sup m) A) u sh cx (r' : res m' Y B) :
    u_disc m u = g -> sim R Q (k Super u sh cx) r' -> sim R Q (bind (u_call_handler m e) k u sh cx) r'.
  Proof.
    intros Eu (H1 & H2 & H3 & H4 & H5 & H6). unfold bind, u_call_handler, call_handler.
    rewrite (id_handler I _ sh cx e Eu). cbn [outcome_of]; res_cbn. unfold sim; res_cbn. cbn [app].
    split; [exact H1|]. split; [exact H2|]. split; [exact H3|]. split; [exact H4|]. split; [|exact Logic.I].
    cbn [hide about_g]. rewrite Eu, Nat.eqb_refl. exact H5.
  Qed.
  Lemma hid_exit {Y A B} (R : A -> B -> Prop) (Q : Sup m -> Y -> Prop) (k : unit -> comp m (Sup m) A) u sh cx (r' : res m' Y B) :
    u_disc m u = g -> sim R Q (k tt u sh cx) r' -> sim R Q (bind (u_call_exit m) k u sh cx) r'.
  Proof.
    intros Eu (H1 & H2 & H3 & H4 & H5 & H6). unfold bind, u_call_exit, call_action.
    rewrite (id_exit I _ sh cx Eu). unfold no_action. cbn [outcome_of]; res_cbn. unfold sim; res_cbn. cbn [app].
    rewrite hide_g; [|cbn; now apply Nat.eqb_eq|exact H6]. cbn [tidy]. auto 10.
  Qed.
  (** After: [c] leaves [g] as [g]. *)
  Lemma hid_after {Y A B} (R : A -> B -> Prop) (Q : Sup m -> Y -> Prop) e (c : comp m (Sup m) A) v sh cx (r' : res m' Y B) :
    u_disc m (r_self (c v sh cx)) = g -> sim R Q (c v sh cx) r' ->
    sim R Q (bind c (fun r => bind self (fun v1 => bind (after_dispatch m (NSuper v1) e) (fun _ => ret r))) v sh cx) r'.
  Proof.
    intros Eu (H1 & H2 & H3 & H4 & H5 & H6). unfold bind, after_dispatch, call_hook, self, ret.
    destruct (c v sh cx) as [[a|w] x1 s1 z1 t1]; revert Eu H1 H2 H3 H4 H5 H6; res_cbn; intros Eu H1 H2 H3 H4 H5 H6.
    - rewrite (id_after I _ s1 e Eu). cbn [outcome_of]; res_cbn. unfold sim; res_cbn. cbn [app].
      repeat split; auto.
      + rewrite hide_app by exact Logic.I. rewrite hide_g; [|cbn; now apply Nat.eqb_eq|exact Logic.I].
        cbn [hide]. now rewrite app_nil_r.
      + apply tidy_app; [exact H6|exact Logic.I].
    - unfold sim; res_cbn. auto 10.
  Qed.
  Lemma hid_entry {Y} (Q : Sup m -> Y -> Prop) (c : comp m (Sup m) unit) v sh cx (r' : res m' Y unit) :
    u_disc m (r_self (c v sh cx)) = g -> sim eq Q (c v sh cx) r' ->
    sim eq Q (bind c (fun _ => u_call_entry m) v sh cx) r'.
  Proof.
    intros Eu (H1 & H2 & H3 & H4 & H5 & H6). unfold bind, u_call_entry, call_action.
    destruct (c v sh cx) as [[[]|w] x1 s1 z1 t1]; revert Eu H1 H2 H3 H4 H5 H6; res_cbn; intros Eu H1 H2 H3 H4 H5 H6.
    - rewrite (id_entry I _ s1 z1 Eu). unfold no_action. cbn [outcome_of]; res_cbn. unfold sim; res_cbn.
      repeat split; auto.
      + rewrite hide_app by exact Logic.I. rewrite hide_g; [|cbn; now apply Nat.eqb_eq|exact Logic.I].
        cbn [hide]. now rewrite app_nil_r.
      + apply tidy_app; [exact H6|exact Logic.I].
    - unfold sim; res_cbn. auto 10.
  Qed.

  (** Calls on other nodes. *)
  Lemma real_handler e u sh cx : u_disc m u <> g ->
    sim eq eq (u_call_handler m e u sh cx) (u_call_handler m' e u sh cx).
  Proof.
    intros N. unfold u_call_handler, call_handler. cbn [u_handler m' without].
    destruct (u_handler m u sh cx e) as [[[r u1] s1] z1]. unfold sim; res_cbn.
    apply Nat.eqb_neq in N. destruct r; cbn [outcome_of hide about_g same_obs]; rewrite N; cbn; auto 10.
  Qed.
  Lemma leaf_handler e x sh cx : sim eq eq (s_call_handler m e x sh cx) (s_call_handler m' e x sh cx).
  Proof.
    unfold s_call_handler, call_handler. cbn [s_handler m' without].
    destruct (s_handler m x sh cx e) as [[[r u1] s1] z1]. unfold sim; res_cbn.
    destruct r; cbn; auto 10.
  Qed.
  Lemma real_exit u sh cx : u_disc m u <> g -> sim eq eq (u_call_exit m u sh cx) (u_call_exit m' u sh cx).
  Proof.
    intros N. unfold u_call_exit, call_action. cbn [u_exit m' without].
    destruct (u_exit m u sh cx) as [[[r u1] s1] z1]. unfold sim; res_cbn.
    apply Nat.eqb_neq in N. destruct r; cbn; rewrite N; cbn; auto 10.
  Qed.
  Lemma real_entry u sh cx : u_disc m u <> g -> sim eq eq (u_call_entry m u sh cx) (u_call_entry m' u sh cx).
  Proof.
    intros N. unfold u_call_entry, call_action. cbn [u_entry m' without].
    destruct (u_entry m u sh cx) as [[[r u1] s1] z1]. unfold sim; res_cbn.
    apply Nat.eqb_neq in N. destruct r; cbn; rewrite N; cbn; auto 10.
  Qed.
  Lemma leaf_exit x sh cx : sim eq eq (s_call_exit m x sh cx) (s_call_exit m' x sh cx).
  Proof.
    unfold s_call_exit, call_action. cbn [s_exit m' without].
    destruct (s_exit m x sh cx) as [[[r u1] s1] z1]. unfold sim; res_cbn. destruct r; cbn; auto 10.
  Qed.
  Lemma leaf_entry x sh cx : sim eq eq (s_call_entry m x sh cx) (s_call_entry m' x sh cx).
  Proof.
    unfold s_call_entry, call_action. cbn [s_entry m' without].
    destruct (s_entry m x sh cx) as [[[r u1] s1] z1]. unfold sim; res_cbn. destruct r; cbn; auto 10.
  Qed.
  Lemma real_before {X} (n : node (State m) (Sup m)) e (x : X) sh cx : about_g g (OBeforeDispatch n e) = false ->
    sim eq eq (before_dispatch m n e x sh cx) (before_dispatch m' n e x sh cx).
  Proof.
    intros N. unfold before_dispatch, call_hook. cbn [h_before_dispatch m' without].
    destruct (h_before_dispatch m sh n e) as [r s1]. unfold sim; res_cbn.
    rewrite hide_real by exact N. destruct r; cbn; auto 10.
  Qed.
  Lemma real_after {X} (n : node (State m) (Sup m)) e (x : X) sh cx : about_g g (OAfterDispatch n e) = false ->
    sim eq eq (after_dispatch m n e x sh cx) (after_dispatch m' n e x sh cx).
  Proof.
    intros N. unfold after_dispatch, call_hook. cbn [h_after_dispatch m' without].
    destruct (h_after_dispatch m sh n e) as [r s1]. unfold sim; res_cbn.
    rewrite hide_real by exact N. destruct r; cbn; auto 10.
  Qed.
  Lemma sim_before_transition {X} a b (x : X) sh cx :
    sim eq eq (before_transition m a b x sh cx) (before_transition m' a b x sh cx).
  Proof.
    unfold before_transition, call_hook. cbn [h_before_transition m' without].
    destruct (h_before_transition m sh a b) as [r s1]. unfold sim; res_cbn. destruct r; cbn; auto 10.
  Qed.
  Lemma sim_after_transition {X} a b (x : X) sh cx :
    sim eq eq (after_transition m a b x sh cx) (after_transition m' a b x sh cx).
  Proof.
    unfold after_transition, call_hook. cbn [h_after_transition m' without].
    destruct (h_after_transition m sh a b) as [r s1]. unfold sim; res_cbn. destruct r; cbn; auto 10.
  Qed.

  (** Borrowing upwards. *)
  Lemma sim_via_u {A B} (R : A -> B -> Prop) (Q : Sup m -> Sup m -> Prop) (u v w : Sup m)
      (c : comp m (Sup m) A) (c' : comp m' (Sup m) B) sh cx :
    sim R Q (c v sh cx) (c' w sh cx) ->
    (forall a b, Q a b -> u_put m u a = u_put m' u b) ->
    sim R eq (via (u_put m) v c u sh cx) (via (m := m') (u_put m') w c' u sh cx).
  Proof. intros (H1 & H2 & H3 & H4 & H5 & H6) HQ. unfold sim, via; res_cbn. auto 10. Qed.
  Lemma sim_via_s {A B} (R : A -> B -> Prop) (Q : Sup m -> Sup m -> Prop) (x : State m) (v w : Sup m)
      (c : comp m (Sup m) A) (c' : comp m' (Sup m) B) sh cx :
    sim R Q (c v sh cx) (c' w sh cx) ->
    (forall a b, Q a b -> s_put m x a = s_put m' x b) ->
    sim R eq (via (s_put m) v c x sh cx) (via (m := m') (s_put m') w c' x sh cx).
  Proof. intros (H1 & H2 & H3 & H4 & H5 & H6) HQ. unfold sim, via; res_cbn. auto 10. Qed.
  (** One side only. *)
  Lemma sim_via_1 {A B} (R : A -> B -> Prop) (v w : Sup m)
      (c : comp m (Sup m) A) (c' : comp m' (Sup m) B) sh cx :
    sim R eq (c w sh cx) (c' w sh cx) ->
    sim R (fun a b => a = u_put m v b) (via (u_put m) w c v sh cx) (c' w sh cx).
  Proof. intros (H1 & H2 & H3 & H4 & H5 & H6). unfold sim, via; res_cbn. subst. rewrite H2. auto 10. Qed.


  Lemma sim_weak {X Y A B} (R : A -> B -> Prop) (Q Q' : X -> Y -> Prop) (r : res m X A) (r' : res m' Y B) :
    sim R Q r r' -> (forall a b, Q a b -> Q' a b) -> sim R Q' r r'.
  Proof. intros (H1 & H2 & H3 & H4 & H5 & H6) HQ. unfold sim. auto 10. Qed.

  Lemma up_sim {A B} (R : A -> B -> Prop) (d : comp m (Sup m) A) c (d' : comp m' (Sup m') B) c' u sh cx :
    (u_super m u = None -> sim R eq (d u sh cx) (d' u sh cx)) ->
    (forall v, u_super m u = Some v -> u_disc m v <> g -> sim R eq (c v sh cx) (c' v sh cx)) ->
    (forall v w, u_super m u = Some v -> u_disc m v = g -> u_super m v = Some w ->
       sim R (fun a b => a = u_put m v b) (c v sh cx) (c' w sh cx)) ->
    (forall v, u_super m u = Some v -> u_disc m v = g -> u_super m v = None ->
       sim R (fun a b => a = v /\ b = u) (c v sh cx) (d' u sh cx)) ->
    sim R eq (up d c u sh cx) (up (m := m') d' c' u sh cx).
  Proof.
    intros H1 H2 H3 H4. unfold up. rewrite !self_bind_run. cbn [u_super m' without].
    destruct (u_super m u) as [v|] eqn:Ev; [|now apply H1].
    destruct (u_disc m v =? g) eqn:Eg.
    - destruct (u_super m v) as [w|] eqn:Ew.
      + eapply sim_via_u; [exact (H3 v w eq_refl (eqb_g _ Eg) Ew)|]. intros a b ->. cbn. now rewrite Ev, Eg.
      + destruct (H4 v eq_refl (eqb_g _ Eg) Ew) as (K1 & [K2 K2'] & K3 & K4 & K5 & K6).
        unfold sim, via; res_cbn. rewrite K2, K2'. rewrite (fv_u_get_put V _ Ev). auto 10.
    - apply Nat.eqb_neq in Eg as Eg'. eapply sim_via_u; [exact (H2 v eq_refl Eg')|]. intros a b ->. cbn. now rewrite Ev, Eg.
  Qed.
  Lemma lup_sim {A B} (R : A -> B -> Prop) (d : comp m (State m) A) c (d' : comp m' (State m') B) c' x sh cx :
    (s_super m x = None -> sim R eq (d x sh cx) (d' x sh cx)) ->
    (forall v, s_super m x = Some v -> u_disc m v <> g -> sim R eq (c v sh cx) (c' v sh cx)) ->
    (forall v w, s_super m x = Some v -> u_disc m v = g -> u_super m v = Some w ->
       sim R (fun a b => a = u_put m v b) (c v sh cx) (c' w sh cx)) ->
    (forall v, s_super m x = Some v -> u_disc m v = g -> u_super m v = None ->
       sim R (fun a b => a = v /\ b = x) (c v sh cx) (d' x sh cx)) ->
    sim R eq (lup d c x sh cx) (lup (m := m') d' c' x sh cx).
  Proof.
    intros H1 H2 H3 H4. unfold lup. rewrite !self_bind_run. cbn [s_super m' without].
    destruct (s_super m x) as [v|] eqn:Ev; [|now apply H1].
    destruct (u_disc m v =? g) eqn:Eg.
    - destruct (u_super m v) as [w|] eqn:Ew.
      + eapply sim_via_s; [exact (H3 v w eq_refl (eqb_g _ Eg) Ew)|]. intros a b ->. cbn. now rewrite Ev, Eg.
      + destruct (H4 v eq_refl (eqb_g _ Eg) Ew) as (K1 & [K2 K2'] & K3 & K4 & K5 & K6).
        unfold sim, via; res_cbn. rewrite K2, K2'. rewrite (fv_s_get_put V _ Ev). auto 10.
    - apply Nat.eqb_neq in Eg as Eg'. eapply sim_via_s; [exact (H2 v eq_refl Eg')|]. intros a b ->. cbn. now rewrite Ev, Eg.
  Qed.

  (** What is above [g] is not [g]. *)
  Lemma above_g v w : u_disc m v = g -> u_super m v = Some w -> u_disc m w <> g.
  Proof.
    intros E Ew N. apply g_parent. rewrite <- E at 1. rewrite (sup_some Hf _ Ew). congruence.
  Qed.
  Lemma chain_above u v l : chain h (Some (u_disc m u)) l -> u_super m u = Some v ->
    exists l', l = u_disc m u :: l' /\ chain h (Some (u_disc m v)) l'.
  Proof.
    intros C E. inversion C as [|? l' C']; subst. exists l'. split; [reflexivity|].
    now rewrite (sup_some Hf _ E) in C'.
  Qed.
  Lemma reals_cons k l : k <> g -> reals (k :: l) = k :: reals l.
  Proof. intros N. unfold reals, real. cbn. apply Nat.eqb_neq in N. now rewrite N. Qed.
  Lemma reals_g l : reals (g :: l) = reals l.
  Proof. unfold reals, real. cbn. now rewrite Nat.eqb_refl. Qed.

  (** *** Exiting *)

  Lemma exit_S (mm : machine) n u sh cx :
    exit_loop mm (S n) u sh cx = bind (u_call_exit mm) (fun _ => up (ret tt) (exit_loop mm n)) u sh cx.
  Proof. reflexivity. Qed.

  Definition exit_claim n := forall u l sh cx, chain h (Some (u_disc m u)) l -> u_disc m u <> g ->
    sim eq eq (exit_loop m n u sh cx) (exit_loop m' (length (reals (firstn n l))) u sh cx).

  (** From the view one level up. *)
  Lemma exit_ghost_some n : (forall k, k < n -> exit_claim k) -> forall v w l sh cx,
    u_disc m v = g -> u_super m v = Some w -> chain h (Some (u_disc m v)) l ->
    sim eq (fun a b => a = u_put m v b) (exit_loop m n v sh cx)
      (exit_loop m' (length (reals (firstn n l))) w sh cx).
  Proof.
    intros IH v w l sh cx Eg Ew C. destruct (chain_above _ C Ew) as (l' & -> & C').
    destruct n as [|n].
    - apply sim_ret; [reflexivity|]. symmetry. exact (fv_u_get_put V _ Ew).
    - rewrite exit_S. apply hid_exit; [exact Eg|]. cbn [firstn]. rewrite Eg, reals_g.
      unfold up. rewrite self_bind_run, Ew. apply sim_via_1. apply (IH n); auto. now apply above_g with v.
  Qed.
  Lemma exit_ghost_none {Y} n v (y : Y) sh cx : u_disc m v = g -> u_super m v = None ->
    sim eq (fun a b => a = v /\ b = y) (exit_loop m n v sh cx) (@ret m' Y unit tt y sh cx).
  Proof.
    intros Eg Ew. destruct n as [|n]; [apply sim_ret; auto|].
    rewrite exit_S. apply hid_exit; [exact Eg|]. unfold up. rewrite self_bind_run, Ew. apply sim_ret; auto.
  Qed.

  Lemma exit_sim n : exit_claim n.
  Proof.
    induction n as [n IH] using lt_wf_ind. intros u l sh cx C N. destruct n as [|n].
    { apply sim_ret; reflexivity. }
    inversion C as [|? l1 C1]; subst. cbn [firstn]. rewrite (reals_cons _ N). cbn [length]. rewrite !exit_S.
    apply sim_bind_eq with (R := eq); [now apply real_exit|]. intros a b x1 s z <- E1.
    assert (D1 : u_disc m x1 = u_disc m u).
    { rewrite E1. unfold u_call_exit, call_action. destruct (u_exit m u sh cx) as [[[r u2] s2] z2] eqn:Ee. cbn.
      exact (st_u_exit Hs _ _ _ Ee). }
    apply up_sim.
    - intros _. apply sim_ret; reflexivity.
    - intros v Ev Nv. rewrite <- D1, (sup_some Hf _ Ev) in C1. apply IH; auto.
    - intros v w Ev Eg Ew. rewrite <- D1, (sup_some Hf _ Ev) in C1. apply exit_ghost_some; auto.
    - intros v Ev Eg Ew. now apply exit_ghost_none.
  Qed.

  Lemma aw_exit_sim n x l sh cx : chain h (leaf_parent h (s_disc m x)) l ->
    sim eq eq (Awaitable.state_exit m (S n) x sh cx)
      (Awaitable.state_exit m' (S (length (reals (firstn n l)))) x sh cx).
  Proof.
    intros C. unfold Awaitable.state_exit. cbn [Nat.leb Nat.sub]. rewrite !Nat.sub_0_r.
    apply sim_bind_eq with (R := eq); [apply leaf_exit|]. intros a b x1 s z <- E1.
    assert (D1 : s_disc m x1 = s_disc m x).
    { rewrite E1. unfold s_call_exit, call_action. destruct (s_exit m x sh cx) as [[[r u2] s2] z2] eqn:Ee. cbn.
      exact (st_s_exit Hs _ _ _ Ee). }
    apply (@lup_sim unit unit).
    - intros _. apply sim_ret; reflexivity.
    - intros v Ev Nv. rewrite <- D1, (leaf_some Hf _ Ev) in C. now apply exit_sim.
    - intros v w Ev Eg Ew. rewrite <- D1, (leaf_some Hf _ Ev) in C. apply exit_ghost_some; auto using exit_sim.
    - intros v Ev Eg Ew. now apply exit_ghost_none.
  Qed.

  (** *** Entering *)

  Lemma bind_run {mm : machine} {X A B} (c c' : comp mm X A) (k : A -> comp mm X B) x sh cx :
    c x sh cx = c' x sh cx -> bind c k x sh cx = bind c' k x sh cx.
  Proof. intros E. unfold bind. now rewrite E. Qed.

  Lemma enter_S (mm : machine) : faithful_views mm -> forall n u sh cx,
    superstate_enter mm (S n) u sh cx
    = bind (up (ret tt) (superstate_enter mm n)) (fun _ => u_call_entry mm) u sh cx.
  Proof.
    intros Vm n u sh cx. destruct n as [|n].
    - change (superstate_enter mm 0) with (@ret mm (Sup mm) unit tt). unfold bind. rewrite (up_ret Vm (k := u_disc mm u) sh cx eq_refl). cbn.
      now destruct (u_call_entry mm u sh cx).
    - change (bind self (fun u => bind match u_super mm u with
                | Some v => via (u_put mm) v (superstate_enter mm (S n)) | None => ret tt end
                (fun _ => u_call_entry mm)) u sh cx = bind (up (ret tt) (superstate_enter mm (S n)))
                (fun _ => u_call_entry mm) u sh cx).
      rewrite self_bind_run. apply bind_run. unfold up. now rewrite self_bind_run.
  Qed.
  Lemma state_enter_S (mm : machine) : faithful_views mm -> forall n u sh cx,
    Blocking.state_enter mm (S n) u sh cx
    = bind (lup (ret tt) (superstate_enter mm n)) (fun _ => s_call_entry mm) u sh cx.
  Proof.
    intros Vm n u sh cx. destruct n as [|n].
    - change (superstate_enter mm 0) with (@ret mm (Sup mm) unit tt). unfold bind. rewrite (lup_ret Vm (k := s_disc mm u) sh cx eq_refl). cbn.
      now destruct (s_call_entry mm u sh cx).
    - change (bind self (fun u => bind match s_super mm u with
                | Some v => via (s_put mm) v (superstate_enter mm (S n)) | None => ret tt end
                (fun _ => s_call_entry mm)) u sh cx = bind (lup (ret tt) (superstate_enter mm (S n)))
                (fun _ => s_call_entry mm) u sh cx).
      rewrite self_bind_run. apply bind_run. unfold lup. now rewrite self_bind_run.
  Qed.

  Lemma up_enter_disc n u sh cx :
    u_disc m (r_self (up (ret tt) (superstate_enter m n) u sh cx)) = u_disc m u.
  Proof.
    unfold up. rewrite self_bind_run. destruct (u_super m u) as [v|] eqn:E; [|reflexivity].
    unfold via; res_cbn. eapply (fo_u_put Hf); [exact E|]. now apply (enter_keeps Hf Hs V).
  Qed.

  Definition enter_claim n := forall u l sh cx, chain h (Some (u_disc m u)) l -> u_disc m u <> g ->
    sim eq eq (superstate_enter m n u sh cx) (superstate_enter m' (length (reals (firstn n l))) u sh cx).

  Lemma enter_ghost_some n : (forall k, k < n -> enter_claim k) -> forall v w l sh cx,
    u_disc m v = g -> u_super m v = Some w -> chain h (Some (u_disc m v)) l ->
    sim eq (fun a b => a = u_put m v b) (superstate_enter m n v sh cx)
      (superstate_enter m' (length (reals (firstn n l))) w sh cx).
  Proof.
    intros IH v w l sh cx Eg Ew C. destruct (chain_above _ C Ew) as (l' & -> & C').
    destruct n as [|n].
    - apply sim_ret; [reflexivity|]. symmetry. exact (fv_u_get_put V _ Ew).
    - rewrite (enter_S V). apply hid_entry; [now rewrite up_enter_disc|]. cbn [firstn]. rewrite Eg, reals_g.
      unfold up. rewrite self_bind_run, Ew. apply sim_via_1. apply (IH n); auto. now apply above_g with v.
  Qed.
  Lemma enter_ghost_none {Y} n v (y : Y) sh cx : u_disc m v = g -> u_super m v = None ->
    sim eq (fun a b => a = v /\ b = y) (superstate_enter m n v sh cx) (@ret m' Y unit tt y sh cx).
  Proof.
    intros Eg Ew. destruct n as [|n]; [apply sim_ret; auto|].
    rewrite (enter_S V). apply hid_entry; [now rewrite up_enter_disc|].
    unfold up. rewrite self_bind_run, Ew. apply sim_ret; auto.
  Qed.

  Lemma enter_sim n : enter_claim n.
  Proof.
    induction n as [n IH] using lt_wf_ind. intros u l sh cx C N. destruct n as [|n].
    { apply sim_ret; reflexivity. }
    inversion C as [|? l1 C1]; subst. cbn [firstn]. rewrite (reals_cons _ N). cbn [length].
    rewrite (enter_S V), (enter_S views').
    apply sim_bind_eq with (R := eq).
    - apply up_sim.
      + intros _. apply sim_ret; reflexivity.
      + intros v Ev Nv. rewrite (sup_some Hf _ Ev) in C1. apply IH; auto.
      + intros v w Ev Eg Ew. rewrite (sup_some Hf _ Ev) in C1. apply enter_ghost_some; auto.
      + intros v Ev Eg Ew. now apply enter_ghost_none.
    - intros a b x1 s z <- ->. apply real_entry. now rewrite up_enter_disc.
  Qed.

  Lemma bl_enter_sim n x l sh cx : chain h (leaf_parent h (s_disc m x)) l ->
    sim eq eq (Blocking.state_enter m (S n) x sh cx)
      (Blocking.state_enter m' (S (length (reals (firstn n l)))) x sh cx).
  Proof.
    intros C. rewrite (state_enter_S V), (state_enter_S views').
    apply sim_bind_eq with (R := eq).
    - apply lup_sim.
      + intros _. apply sim_ret; reflexivity.
      + intros v Ev Nv. rewrite (leaf_some Hf _ Ev) in C. now apply enter_sim.
      + intros v w Ev Eg Ew. rewrite (leaf_some Hf _ Ev) in C. apply enter_ghost_some; auto using enter_sim.
      + intros v Ev Eg Ew. now apply enter_ghost_none.
    - intros a b x1 s z <- _. apply leaf_entry.
  Qed.


  (** *** Handling *)

  Section Handling.
    Variable e : Event m.

    Lemma hid_after_k {X Y A B} (R : A -> B -> Prop) (Q : X -> Y -> Prop) u (k : unit -> comp m X A) x sh cx (r' : res m' Y B) :
      u_disc m u = g -> sim R Q (k tt x sh cx) r' -> sim R Q (bind (after_dispatch m (NSuper u) e) k x sh cx) r'.
    Proof.
      intros Eu (H1 & H2 & H3 & H4 & H5 & H6). unfold bind, after_dispatch, call_hook.
      rewrite (id_after I _ sh e Eu). cbn [outcome_of]; res_cbn. unfold sim; res_cbn. cbn [app].
      rewrite hide_g; [|now apply Nat.eqb_eq|exact H6]. cbn [tidy]. auto 10.
    Qed.

    Lemma handle_disc n u l sh cx : chain h (Some (u_disc m u)) l -> length l <= n ->
      u_disc m (r_self (superstate_handle m n e u sh cx)) = u_disc m u.
    Proof.
      intros C L. exact (proj1 (superstate_handle_threads Hf Hs V e C L sh cx eq_refl)).
    Qed.

    Lemma handle_S (mm : machine) (e0 : Event mm) n u sh cx :
      superstate_handle mm (S n) e0 u sh cx
      = bind (u_call_handler mm e0) (fun r => match r with
          | Handled => ret Handled
          | Super => up (ret Super) (blocking_round mm n e0)
          | Transition t => ret (Transition t) end) u sh cx.
    Proof. reflexivity. Qed.

    Definition handle_claim n := forall n2 u l sh cx, chain h (Some (u_disc m u)) l -> u_disc m u <> g ->
      length l <= n -> length (reals l) <= n2 ->
      sim eq eq (superstate_handle m n e u sh cx) (superstate_handle m' n2 e u sh cx).

    Lemma round_sim n : handle_claim n -> forall n2 u l sh cx, chain h (Some (u_disc m u)) l -> u_disc m u <> g ->
      length l <= n -> length (reals l) <= n2 ->
      sim eq eq (blocking_round m n e u sh cx) (blocking_round m' n2 e u sh cx).
    Proof.
      intros HC n2 u l sh cx C N L1 L2. unfold blocking_round. rewrite !self_bind_run.
      apply sim_bind_eq with (R := eq).
      { apply (@real_before (Sup m) (NSuper u)). now apply Nat.eqb_neq. }
      intros a b x1 s z _ E1.
      assert (Ex : x1 = u).
      { rewrite E1. unfold before_dispatch, call_hook. now destruct (h_before_dispatch m sh (NSuper u) e). }
      clear E1. subst x1.
      apply sim_bind_eq with (R := eq); [now apply HC with l|].
      intros r b2 x2 s2 z2 <- E2. rewrite !self_bind_run. apply sim_bind_eq with (R := eq).
      { apply (@real_after (Sup m) (NSuper x2)). apply Nat.eqb_neq. rewrite E2. now rewrite (handle_disc _ s z C L1). }
      intros _ _ x3 s3 z3 _ _. apply sim_ret; reflexivity.
    Qed.

    Lemma round_ghost_some n : (forall k, k < n -> handle_claim k) -> forall n2 v w l sh cx,
      u_disc m v = g -> u_super m v = Some w -> chain h (Some (u_disc m v)) l ->
      length l <= n -> length (reals l) <= n2 ->
      sim eq (fun a b => a = u_put m v b) (blocking_round m n e v sh cx) (blocking_round m' n2 e w sh cx).
    Proof.
      intros IH n2 v w l sh cx Eg Ew C L1 L2. unfold blocking_round at 1. rewrite self_bind_run.
      apply hid_before; [exact Eg|]. apply hid_after; [now rewrite (handle_disc _ sh cx C L1)|].
      destruct (chain_above _ C Ew) as (l' & -> & C'). cbn [length] in L1. rewrite Eg, reals_g in L2.
      destruct n as [|n]; [lia|]. rewrite handle_S. apply hid_handler; [exact Eg|].
      unfold up. rewrite self_bind_run, Ew. apply sim_via_1.
      apply round_sim with l'; auto; [now apply above_g with v|lia].
    Qed.
    Lemma round_ghost_none {Y} n v (y : Y) l sh cx : u_disc m v = g -> u_super m v = None ->
      chain h (Some (u_disc m v)) l -> length l <= n ->
      sim eq (fun a b => a = v /\ b = y) (blocking_round m n e v sh cx) (@ret m' Y (response (State m)) Super y sh cx).
    Proof.
      intros Eg Ew C L. unfold blocking_round. rewrite self_bind_run.
      apply hid_before; [exact Eg|]. apply hid_after; [now rewrite (handle_disc _ sh cx C L)|].
      pose proof (chain_length_pos C). destruct n as [|n]; [lia|]. rewrite handle_S. apply hid_handler; [exact Eg|].
      unfold up. rewrite self_bind_run, Ew. apply sim_ret; auto.
    Qed.

    Lemma handler_disc u sh cx : u_disc m (r_self (u_call_handler m e u sh cx)) = u_disc m u.
    Proof.
      unfold u_call_handler, call_handler. destruct (u_handler m u sh cx e) as [[[r u2] s2] z2] eqn:Ee. cbn.
      exact (st_u_handler Hs _ _ _ _ Ee).
    Qed.
    Lemma leaf_handler_disc x sh cx : s_disc m (r_self (s_call_handler m e x sh cx)) = s_disc m x.
    Proof.
      unfold s_call_handler, call_handler. destruct (s_handler m x sh cx e) as [[[r u2] s2] z2] eqn:Ee. cbn.
      exact (st_s_handler Hs _ _ _ _ Ee).
    Qed.

    Lemma handle_sim n : handle_claim n.
    Proof.
      induction n as [n IH] using lt_wf_ind. intros n2 u l sh cx C N L1 L2.
      inversion C as [|? l1 C1]; subst. rewrite (reals_cons _ N) in L2. cbn [length] in L1, L2.
      destruct n as [|n]; [lia|]. destruct n2 as [|n2]; [lia|]. rewrite !handle_S.
      apply sim_bind_eq with (R := eq); [now apply real_handler|]. intros a b x1 s z <- E1.
      pose proof (handler_disc u sh cx) as D1. rewrite <- E1 in D1.
      destruct a as [| |t]; [apply sim_ret; reflexivity| |apply sim_ret; reflexivity].
      apply up_sim.
      - intros _. apply sim_ret; reflexivity.
      - intros v Ev Nv. rewrite <- D1, (sup_some Hf _ Ev) in C1. apply round_sim with l1; auto; lia.
      - intros v w Ev Eg Ew. rewrite <- D1, (sup_some Hf _ Ev) in C1. apply round_ghost_some with l1; auto; lia.
      - intros v Ev Eg Ew. rewrite <- D1, (sup_some Hf _ Ev) in C1. apply round_ghost_none with l1; auto; lia.
    Qed.

    (** The awaitable loop. *)
    Lemma loop_S (mm : machine) (e0 : Event mm) n u sh cx :
      handle_loop mm (S n) e0 u sh cx
      = bind (before_dispatch mm (NSuper u) e0) (fun _ =>
         bind (u_call_handler mm e0) (fun r => bind self (fun u1 =>
           bind (after_dispatch mm (NSuper u1) e0) (fun _ => match r with
             | Handled => ret Handled
             | Super => up (ret Handled) (handle_loop mm n e0)
             | Transition t => ret (Transition t) end)))) u sh cx.
    Proof.
      change (bind self (fun u => bind (before_dispatch mm (NSuper u) e0) (fun _ =>
         bind (u_call_handler mm e0) (fun r => bind self (fun u1 =>
           bind (after_dispatch mm (NSuper u1) e0) (fun _ => match r with
             | Handled => ret Handled
             | Super => up (ret Handled) (handle_loop mm n e0)
             | Transition t => ret (Transition t) end))))) u sh cx = bind (before_dispatch mm (NSuper u) e0) (fun _ =>
         bind (u_call_handler mm e0) (fun r => bind self (fun u1 =>
           bind (after_dispatch mm (NSuper u1) e0) (fun _ => match r with
             | Handled => ret Handled
             | Super => up (ret Handled) (handle_loop mm n e0)
             | Transition t => ret (Transition t) end)))) u sh cx).
      now rewrite self_bind_run.
    Qed.

    Definition loop_claim n := forall n2 u l sh cx, chain h (Some (u_disc m u)) l -> u_disc m u <> g ->
      length l <= n -> length (reals l) <= n2 ->
      sim eq eq (handle_loop m n e u sh cx) (handle_loop m' n2 e u sh cx).

    Lemma loop_ghost_some n : (forall k, k < n -> loop_claim k) -> forall n2 v w l sh cx,
      u_disc m v = g -> u_super m v = Some w -> chain h (Some (u_disc m v)) l ->
      length l <= n -> length (reals l) <= n2 ->
      sim eq (fun a b => a = u_put m v b) (handle_loop m n e v sh cx) (handle_loop m' n2 e w sh cx).
    Proof.
      intros IH n2 v w l sh cx Eg Ew C L1 L2.
      destruct (chain_above _ C Ew) as (l' & -> & C'). cbn [length] in L1. rewrite Eg, reals_g in L2.
      destruct n as [|n]; [lia|]. rewrite loop_S.
      apply hid_before; [exact Eg|]. apply hid_handler; [exact Eg|]. rewrite self_bind_run.
      apply hid_after_k; [exact Eg|].
      unfold up. rewrite self_bind_run, Ew. apply sim_via_1.
      apply (IH n) with l'; auto; [now apply above_g with v|lia].
    Qed.
    Lemma loop_ghost_none {Y B} (R : response (State m) -> B -> Prop) n v (y : Y) b l sh cx :
      R Handled b -> u_disc m v = g -> u_super m v = None ->
      chain h (Some (u_disc m v)) l -> length l <= n ->
      sim R (fun a b => a = v /\ b = y) (handle_loop m n e v sh cx) (@ret m' Y B b y sh cx).
    Proof.
      intros HR Eg Ew C L. pose proof (chain_length_pos C). destruct n as [|n]; [lia|]. rewrite loop_S.
      apply hid_before; [exact Eg|]. apply hid_handler; [exact Eg|]. rewrite self_bind_run.
      apply hid_after_k; [exact Eg|].
      unfold up. rewrite self_bind_run, Ew. apply sim_ret; auto.
    Qed.

    Lemma after_self {X} nd (x : X) sh cx : r_self (after_dispatch m nd e x sh cx) = x.
    Proof. unfold after_dispatch, call_hook. now destruct (h_after_dispatch m sh nd e). Qed.
    Lemma before_self {X} nd (x : X) sh cx : r_self (before_dispatch m nd e x sh cx) = x.
    Proof. unfold before_dispatch, call_hook. now destruct (h_before_dispatch m sh nd e). Qed.

    Lemma loop_sim n : loop_claim n.
    Proof.
      induction n as [n IH] using lt_wf_ind. intros n2 u l sh cx C N L1 L2.
      inversion C as [|? l1 C1]; subst. rewrite (reals_cons _ N) in L2. cbn [length] in L1, L2.
      destruct n as [|n]; [lia|]. destruct n2 as [|n2]; [lia|]. rewrite !loop_S.
      apply sim_bind_eq with (R := eq).
      { apply (@real_before (Sup m) (NSuper u)). now apply Nat.eqb_neq. }
      intros _ _ x0 s0 z0 _ E0. rewrite before_self in E0. subst x0.
      apply sim_bind_eq with (R := eq); [now apply real_handler|]. intros a b x1 s z <- E1.
      pose proof (handler_disc u s0 z0) as D1. rewrite <- E1 in D1. clear E1. rewrite !self_bind_run.
      apply sim_bind_eq with (R := eq).
      { apply (@real_after (Sup m) (NSuper x1)). apply Nat.eqb_neq. congruence. }
      intros _ _ x2 s2 z2 _ E2. rewrite after_self in E2. subst x2.
      destruct a as [| |t]; [apply sim_ret; reflexivity| |apply sim_ret; reflexivity].
      apply up_sim.
      - intros _. apply sim_ret; reflexivity.
      - intros v Ev Nv. rewrite <- D1, (sup_some Hf _ Ev) in C1. apply (IH n) with l1; auto; lia.
      - intros v w Ev Eg Ew. rewrite <- D1, (sup_some Hf _ Ev) in C1. apply loop_ghost_some with l1; auto; lia.
      - intros v Ev Eg Ew. rewrite <- D1, (sup_some Hf _ Ev) in C1. apply loop_ghost_none with l1; auto; lia.
    Qed.

    Definition moves (a b : response (State m)) : Prop := forall t, a = Transition t <-> b = Transition t.
    Lemma moves_eq a b : a = b -> moves a b.
    Proof. intros ->. split; auto. Qed.
    Lemma sim_moves {X Y} (Q : X -> Y -> Prop) r r' : sim eq Q r r' -> sim (B := response (State m)) moves Q r r'.
    Proof.
      intros (H1 & H2 & H3 & H4 & H5 & H6). unfold sim. repeat split; auto.
      destruct (r_out r), (r_out r'); auto. now apply moves_eq.
    Qed.

    Lemma lup_handle_sim md x sh cx :
      sim moves eq
        (lup (ret Super) (match md with BlockingMode => blocking_round m stack e | AwaitableMode => handle_loop m stack e end) x sh cx)
        (lup (m := m') (ret Super) (match md with BlockingMode => blocking_round m' stack e | AwaitableMode => handle_loop m' stack e end) x sh cx).
    Proof.
      assert (CH : forall v, exists l, chain h (Some (u_disc m v)) l /\ length l <= stack /\ length (reals l) <= stack).
      { intros v. destruct (Hh (u_disc m v)) as (l & C & L). exists l. pose proof (reals_le l). repeat split; auto; lia. }
      apply lup_sim.
      - intros _. apply sim_ret; [now apply moves_eq|reflexivity].
      - intros v Ev Nv. destruct (CH v) as (l & C & L1 & L2). apply sim_moves.
        destruct md; [apply round_sim with l|apply loop_sim with l]; auto using handle_sim.
      - intros v w Ev Eg Ew. destruct (CH v) as (l & C & L1 & L2). apply sim_moves.
        destruct md; [apply round_ghost_some with l|apply loop_ghost_some with l]; auto using handle_sim, loop_sim.
      - intros v Ev Eg Ew. destruct (CH v) as (l & C & L1 & L2).
        destruct md; [apply sim_moves; apply round_ghost_none with l|apply loop_ghost_none with l]; auto.
        intros t. split; discriminate.
    Qed.

    Lemma leaf_S (mm : machine) (e0 : Event mm) (md : mode) x sh cx :
      mode_state_handle mm stack e0 md x sh cx
      = bind (before_dispatch mm (NState x) e0) (fun _ =>
         bind (s_call_handler mm e0) (fun r => bind self (fun x1 =>
           bind (after_dispatch mm (NState x1) e0) (fun _ => match r with
             | Handled => ret Handled
             | Super => lup (ret Super) (match md with BlockingMode => blocking_round mm stack e0 | AwaitableMode => handle_loop mm stack e0 end)
             | Transition t => ret (Transition t) end)))) x sh cx.
    Proof.
      destruct md; unfold mode_state_handle.
      - unfold Blocking.state_handle. rewrite self_bind_run. reflexivity.
      - unfold Awaitable.state_handle. rewrite self_bind_run. reflexivity.
    Qed.

    Lemma state_handle_sim md x sh cx :
      sim moves eq (mode_state_handle m stack e md x sh cx) (mode_state_handle m' stack e md x sh cx).
    Proof.
      rewrite !leaf_S. apply sim_bind_eq with (R := eq).
      { apply (@real_before (State m) (NState x)). reflexivity. }
      intros _ _ x0 s0 z0 _ E0. rewrite before_self in E0. subst x0.
      apply sim_bind_eq with (R := eq); [apply leaf_handler|]. intros a b x1 s z <- _. rewrite !self_bind_run.
      apply sim_bind_eq with (R := eq).
      { apply (@real_after (State m) (NState x1)). reflexivity. }
      intros _ _ x2 s2 z2 _ _.
      destruct a as [| |t]; [apply sim_ret; [now apply moves_eq|reflexivity]| |apply sim_ret; [now apply moves_eq|reflexivity]].
      apply lup_handle_sim.
    Qed.
  End Handling.


  (** *** Transitions *)

  Lemma split_disjoint o1 o2 xs ys c k : chain h o1 (xs ++ c) -> chain h o2 (ys ++ c) ->
    diverge (rev xs) (rev ys) -> In k xs -> In k ys -> False.
  Proof.
    intros C1 C2 D I1 I2. destruct (in_split _ _ I1) as (x1 & x2 & ->). destruct (in_split _ _ I2) as (y1 & y2 & ->).
    rewrite <- app_assoc in C1, C2. apply chain_suffix in C1. apply chain_suffix in C2.
    pose proof (chain_functional C1 C2) as E. injection E as E. apply app_inv_tail in E. subst y2.
    rewrite !rev_app_distr in D. cbn [rev] in D. rewrite <- !app_assoc in D.
    destruct (rev x2) as [|a r]; cbn in D; now apply D.
  Qed.

  Lemma diverge_reals o1 o2 xs ys c : chain h o1 (xs ++ c) -> chain h o2 (ys ++ c) ->
    diverge (rev xs) (rev ys) -> diverge (rev (reals xs)) (rev (reals ys)).
  Proof.
    intros C1 C2 D. destruct (rev (reals xs)) as [|a r] eqn:E1; [exact Logic.I|].
    destruct (rev (reals ys)) as [|b q] eqn:E2; [exact Logic.I|]. cbn. intros <-.
    assert (I1 : In a xs).
    { apply (incl_filter real xs). apply in_rev. unfold reals in E1. rewrite E1. now left. }
    assert (I2 : In a ys).
    { apply (incl_filter real ys). apply in_rev. unfold reals in E2. rewrite E2. now left. }
    exact (@split_disjoint o1 o2 xs ys c a C1 C2 D I1 I2).
  Qed.

  Lemma reals_app l1 l2 : reals (l1 ++ l2) = reals l1 ++ reals l2.
  Proof. apply filter_app. Qed.

  (** The exits and entries of the two machines. *)
  Lemma path_sim x t : exists l1 l2 i j,
    chain h (leaf_parent h (s_disc m x)) l1 /\ chain h (leaf_parent h (s_disc m t)) l2 /\
    i <= length l1 /\ j <= length l2 /\
    Blocking.transition_path m stack x t = Ret (S i, S j) /\
    Blocking.transition_path m' stack x t
    = Ret (S (length (reals (firstn i l1))), S (length (reals (firstn j l2)))).
  Proof.
    destruct (height_chain (leaf_parent h (s_disc m x)) Hh) as (l1 & C1 & L1).
    destruct (height_chain (leaf_parent h (s_disc m t)) Hh) as (l2 & C2 & L2).
    exists l1, l2. destruct (Nat.eq_dec (s_disc m x) (s_disc m t)) as [E|N].
    - exists 0, 0. repeat split; auto; try lia;
        unfold Blocking.transition_path, same_state; cbn [s_disc m' without]; rewrite E, Nat.eqb_refl; reflexivity.
    - destruct (transition_path_split Hf Hh x t C1 C2 N) as (xs & ys & c & (E1 & E2 & D) & P).
      exists (length xs), (length ys). split; [exact C1|]. split; [exact C2|].
      split; [rewrite E1, app_length; lia|]. split; [rewrite E2, app_length; lia|]. split; [exact P|].
      destruct (transition_path_split follows' height' x t (chain_skip C1) (chain_skip C2) N)
        as (xs' & ys' & c' & (E1' & E2' & D') & P').
      rewrite P'. rewrite E1 in C1, E1' |- *. rewrite E2 in C2, E2' |- *.
      rewrite reals_app in E1', E2'. rewrite !firstn_app, !firstn_all, !Nat.sub_diag. cbn [firstn]. rewrite !app_nil_r.
      assert (U : rev xs' = rev (reals xs) /\ rev ys' = rev (reals ys)).
      { destruct (@common_unique nat (rev c') (rev (reals c)) (rev xs') (rev (reals xs)) (rev ys') (rev (reals ys)))
          as (_ & U1 & U2); auto.
        - rewrite <- !rev_app_distr. now rewrite E1'.
        - rewrite <- !rev_app_distr. now rewrite E2'.
        - exact (diverge_reals _ _ _ C1 C2 D). }
      destruct U as [U1 U2]. apply (f_equal (@length nat)) in U1. apply (f_equal (@length nat)) in U2.
      rewrite !rev_length in U1, U2. now rewrite U1, U2.
  Qed.

  Lemma mode_exit_sim md n x l sh cx : chain h (leaf_parent h (s_disc m x)) l ->
    sim eq eq (mode_exit m md (S n) x sh cx) (mode_exit m' md (S (length (reals (firstn n l)))) x sh cx).
  Proof.
    intros C. destruct md; unfold mode_exit.
    - rewrite (exit_same V), (exit_same views'). now apply aw_exit_sim.
    - now apply aw_exit_sim.
  Qed.
  Lemma mode_enter_sim md n x l sh cx : chain h (leaf_parent h (s_disc m x)) l -> n <= length l ->
    sim eq eq (mode_enter m md (S n) x sh cx) (mode_enter m' md (S (length (reals (firstn n l)))) x sh cx).
  Proof.
    intros C L. destruct md; unfold mode_enter.
    - now apply bl_enter_sim.
    - assert (E1 : Awaitable.state_enter m (S n) x sh cx = Blocking.state_enter m (S n) x sh cx).
      { symmetry. apply (enter_same Hf Hs V C); [lia|reflexivity]. }
      assert (E2 : Awaitable.state_enter m' (S (length (reals (firstn n l)))) x sh cx
                   = Blocking.state_enter m' (S (length (reals (firstn n l)))) x sh cx).
      { symmetry. apply (enter_same follows' stable' views' (k := s_disc m x) (chain_skip C)); [|reflexivity].
        rewrite <- (firstn_skipn n l) at 2. rewrite reals_app, app_length. lia. }
      rewrite E1, E2. now apply bl_enter_sim.
  Qed.

  Lemma transition_sim md t x sh cx :
    sim eq eq (mode_transition m stack md t x sh cx) (mode_transition m' stack md t x sh cx).
  Proof.
    rewrite !mode_transition_eq. destruct (path_sim x t) as (l1 & l2 & i & j & C1 & C2 & Li & Lj & E1 & E2).
    apply sim_bind_eq with (R := eq).
    { destruct md; apply sim_before_transition. }
    intros _ _ x0 s0 z0 _ Ex.
    assert (x0 = x) as ->.
    { rewrite Ex. destruct md; unfold before_transition, call_hook;
        [now destruct (h_before_transition m sh t x)|now destruct (h_before_transition m sh x t)]. }
    rewrite E1, E2, !bind_lift_run. cbn [fst snd].
    apply sim_bind_eq with (R := eq); [now apply mode_exit_sim|].
    intros _ _ x1 s1 z1 _ _. rewrite !swap_bind.
    apply sim_bind_eq with (R := eq); [now apply mode_enter_sim|].
    intros _ _ x2 s2 z2 _ _. rewrite !self_bind_run. apply sim_after_transition.
  Qed.

  Lemma inner_init_sim md x sh cx :
    sim eq eq (inner_init m stack md x sh cx) (inner_init m' stack md x sh cx).
  Proof.
    rewrite !mode_init_eq. destruct (height_chain (leaf_parent h (s_disc m x)) Hh) as (l & C & L).
    rewrite (state_depth_ok Hf Hh x C), (state_depth_ok follows' height' x (chain_skip C)), !bind_lift_run.
    pose proof (@mode_enter_sim md (length l) x l sh cx C (le_n _)) as S0. rewrite firstn_all in S0. exact S0.
  Qed.
  Lemma inner_handle_sim md e x sh cx :
    sim eq eq (inner_handle m stack md e x sh cx) (inner_handle m' stack md e x sh cx).
  Proof.
    rewrite !mode_handle_eq. apply sim_bind_eq with (R := moves); [apply state_handle_sim|].
    intros a b x1 s z M _. destruct a as [| |t].
    - destruct b as [| |t']; [apply sim_ret; reflexivity..|]. destruct (M t') as [_ M']. discriminate (M' eq_refl).
    - destruct b as [| |t']; [apply sim_ret; reflexivity..|]. destruct (M t') as [_ M']. discriminate (M' eq_refl).
    - destruct (M t) as [M' _]. rewrite (M' eq_refl). apply transition_sim.
  Qed.


  (** *** The API *)

  Lemma run_inner_sim (c : comp m (State m) unit) (c' : comp m' (State m') unit) i cx :
    sim eq eq (c (state i) (shared_storage i) cx) (c' (state i) (shared_storage i) cx) ->
    run_inner c' (@Inner m' (shared_storage i) (state i)) cx
    = let r := run_inner c i cx in
      @ApiRes m' (inner m') (a_out r) (@Inner m' (shared_storage (a_machine r)) (state (a_machine r)))
        (a_cx r) (hide g (a_tr r)).
  Proof.
    intros (H1 & H2 & H3 & H4 & H5 & H6). unfold run_inner. cbn [state shared_storage a_out a_machine a_cx a_tr].
    set (r := c (state i) (shared_storage i) cx) in *. set (r' := c' (state i) (shared_storage i) cx) in *.
    change (@ApiRes m' (inner m') (r_out r') (@Inner m' (r_sh r') (r_self r')) (r_cx r') (r_tr r')
            = @ApiRes m' (inner m') (r_out r) (@Inner m' (r_sh r) (r_self r)) (r_cx r) (hide g (r_tr r))).
    clearbody r r'. destruct r as [o x s z t]. destruct r' as [o' x' s' z' t'].
    cbn [r_out r_self r_sh r_cx r_tr] in *. subst.
    replace o' with o; [reflexivity|]. destruct o, o'; (contradiction || (f_equal; exact H1)).
  Qed.

  Definition same_res (r : api_res m (state_machine m)) : api_res m' (state_machine m') :=
    @ApiRes m' (state_machine m') (a_out r) (same_machine g (a_machine r)) (a_cx r) (hide g (a_tr r)).

  Lemma init_without md (sm : state_machine m) (cx : Ctx m) :
    init_with_context stack md (same_machine g sm) cx = same_res (init_with_context stack md sm cx).
  Proof.
    unfold init_with_context. destruct sm as [i [|]]; cbn [initialized same_machine sm_inner negb]; [reflexivity|].
    pose proof (@run_inner_sim (inner_init m stack md) (inner_init m' stack md) i cx (inner_init_sim md _ _ _)) as E.
    cbv zeta in E. unfold m' in E. rewrite E. clear E. cbn [a_out a_machine a_cx a_tr].
    destruct (a_out (run_inner (inner_init m stack md) i cx)); reflexivity.
  Qed.

  Lemma dispatch_without md (sm : state_machine m) (e : Event m) (cx : Ctx m) :
    dispatch stack md (same_machine g sm) e cx = same_res (dispatch stack md sm e cx).
  Proof.
    unfold dispatch. destruct sm as [i b]; cbn [initialized same_machine sm_inner].
    pose proof (@run_inner_sim (inner_handle m stack md e) (inner_handle m' stack md e) i cx (inner_handle_sim md e _ _ _)) as E.
    cbv zeta in E. unfold m' in E. rewrite E. reflexivity.
  Qed.

  Lemma handle_trace_tidy md e x sh cx : tidy (r_tr (inner_handle m stack md e x sh cx)).
  Proof. now destruct (inner_handle_sim md e x sh cx) as (_ & _ & _ & _ & _ & T). Qed.

  Lemma handle_without md (sm : state_machine m) (e : Event m) (cx : Ctx m) :
    handle_with_context stack md (same_machine g sm) e cx = same_res (handle_with_context stack md sm e cx).
  Proof.
    unfold handle_with_context. destruct sm as [i [|]]; cbn [initialized same_machine sm_inner negb].
    { exact (dispatch_without md (StateMachine i true) e cx). }
    pose proof (@run_inner_sim (inner_init m stack md) (inner_init m' stack md) i cx (inner_init_sim md _ _ _)) as E.
    cbv zeta in E. unfold m' in E. rewrite E. clear E. cbn [a_out a_machine a_cx a_tr].
    destruct (a_out (run_inner (inner_init m stack md) i cx)); [|reflexivity].
    pose proof (dispatch_without md (StateMachine (a_machine (run_inner (inner_init m stack md) i cx)) true) e
                  (a_cx (run_inner (inner_init m stack md) i cx))) as E.
    unfold same_machine in E. cbn [sm_inner initialized] in E. rewrite E. unfold same_res.
    cbn [a_out a_machine a_cx a_tr]. rewrite hide_app; [reflexivity|].
    unfold dispatch, run_inner. cbn [a_tr]. apply handle_trace_tidy.
  Qed.

  Lemma exec_without md (o : op m) sm out sm1 (cx : option (Ctx m)) tr : exec stack md o sm = (out, sm1, cx, tr) ->
    exec stack md (same_op g o) (same_machine g sm) = (out, same_machine g sm1, cx, hide g tr).
  Proof.
    destruct o as [c|e c|f|f]; cbn [exec same_op].
    - intros [= <- <- <- <-]. now rewrite init_without.
    - intros [= <- <- <- <-]. now rewrite handle_without.
    - intros [= <- <- <- <-]. reflexivity.
    - intros [= <- <- <- <-]. reflexivity.
  Qed.

  Lemma history_without md ops sm cs sm' : history stack md ops sm cs sm' ->
    history stack md (map (same_op g (m := m)) ops) (same_machine g sm)
      (map (hide_called g (m := m)) cs) (same_machine g sm').
  Proof.
    induction 1 as [sm|o ops sm out sm1 cx tr cs sm' E H IH]; [constructor|].
    cbn [map]. eapply history_cons; [exact (exec_without _ _ _ E)|exact IH].
  Qed.

End Idle.
