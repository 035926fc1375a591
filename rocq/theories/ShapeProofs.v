(** ShapeProofs.v — which actions `enter`, `exit`, `init` and `transition` run, in both
    modes, as a function of the hierarchy alone. *)

From Coq Require Import List Bool Arith Lia.
From Verif Require Import Machine Blocking Awaitable Api Spec TripleProofs.
Import ListNotations.
Set Implicit Arguments.

Section Acts.
  Variable m : machine.

  Lemma acts_app (t1 t2 : list (obs m)) : acts (t1 ++ t2) = acts t1 ++ acts t2.
  Proof. unfold acts. apply flat_map_app. Qed.

  Definition only_acts (t : list (obs m)) : Prop := forallb (@is_action m) t = true.

  Lemma only_acts_app t1 t2 : only_acts t1 -> only_acts t2 -> only_acts (t1 ++ t2).
  Proof. unfold only_acts. rewrite forallb_app. intros -> ->. reflexivity. Qed.

  (** [c], run on a node of variant [k], runs exactly the actions [l] and keeps the
      variant; if it aborts then in user code, during one of these actions. *)
  Definition does {X A} (d : X -> nat) (k : nat) (c : comp m X A) (l : list act) : Prop :=
    tri (fun x => d x = k) c
        (fun _ x t => d x = k /\ only_acts t /\ acts t = l)
        (fun w x t => d x = k /\ user w /\ t <> [] /\ only_acts t /\ prefix (acts t) l).

  Lemma does_bind {X A B} (d : X -> nat) k (c : comp m X A) (f : A -> comp m X B) l1 l2 :
    does d k c l1 -> (forall a, does d k (f a) l2) -> does d k (bind c f) (l1 ++ l2).
  Proof.
    intros H1 H2. eapply tri_bind; [exact H1 | | ].
    - intros w x t (? & ? & ? & ? & ?). repeat split; auto. now apply prefix_app_r.
    - intros a t1. cbv beta. intros x sh cx (Hd & Ho & Ha).
      specialize (H2 a x sh cx Hd). cbv zeta in *.
      destruct (r_out (f a x sh cx)).
      + destruct H2 as (? & ? & ?). repeat split; auto.
        * now apply only_acts_app.
        * rewrite acts_app. congruence.
      + destruct H2 as (? & ? & Hne & ? & ?). repeat split; auto.
        * intros E. apply app_eq_nil in E. tauto.
        * now apply only_acts_app.
        * rewrite acts_app, Ha. now apply prefix_app.
  Qed.

  Lemma does_ret {X A} (d : X -> nat) k (a : A) : does d k (ret a) [].
  Proof. apply tri_ret. intros x H. repeat split; auto. Qed.

  Lemma does_self_assoc {X A B} (d : X -> nat) k (f : X -> comp m X A)
      (g : A -> comp m X B) l :
    does d k (bind (bind self f) g) l -> does d k (bind self (fun x => bind (f x) g)) l.
  Proof.
    intros H x sh cx E. specialize (H x sh cx E). unfold bind, self in *.
    cbv zeta in *. simpl in *. destruct (r_out (f x x sh cx)); exact H.
  Qed.

  Lemma does_via {X V A} (d : X -> nat) (dv : V -> nat) (put : X -> V -> X) x v
      (c : comp m V A) l :
    (forall v', dv v' = dv v -> d (put x v') = d x) ->
    does dv (dv v) c l ->
    tri (fun y => y = x) (via put v c)
        (fun _ y t => d y = d x /\ only_acts t /\ acts t = l)
        (fun w y t => d y = d x /\ user w /\ t <> [] /\ only_acts t /\ prefix (acts t) l).
  Proof.
    intros Hput Hc. eapply tri_via; [exact Hc | reflexivity | |].
    - cbv beta. intros y a v' t -> (? & ? & ?). auto.
    - cbv beta. intros y w v' t -> (? & ? & ? & ? & ?). auto 6.
  Qed.
End Acts.

Section Shape.
  Variable h : hierarchy.
  Variable m : machine.
  Hypothesis Hf : follows h m.
  Hypothesis Hs : stable m.
  Variable stack : nat.
  Hypothesis Hh : height_at_most stack h.

  Lemma leaf_some x v : s_super m x = Some v -> leaf_parent h (s_disc m x) = Some (u_disc m v).
  Proof. intros E. rewrite <- (fo_leaf Hf), E. reflexivity. Qed.
  Lemma leaf_none x : s_super m x = None -> leaf_parent h (s_disc m x) = None.
  Proof. intros E. rewrite <- (fo_leaf Hf), E. reflexivity. Qed.
  Lemma sup_some u v : u_super m u = Some v -> sup_parent h (u_disc m u) = Some (u_disc m v).
  Proof. intros E. rewrite <- (fo_sup Hf), E. reflexivity. Qed.
  Lemma sup_none u : u_super m u = None -> sup_parent h (u_disc m u) = None.
  Proof. intros E. rewrite <- (fo_sup Hf), E. reflexivity. Qed.

  (** *** Single calls *)

  Lemma does_s_entry k : does (s_disc m) k (s_call_entry m) [Enter (AtState k)].
  Proof.
    intros x sh cx E. unfold s_call_entry, call_action.
    destruct (s_entry m x sh cx) as [[[r x'] sh'] cx'] eqn:Ec. simpl.
    pose proof (st_s_entry Hs _ _ _ Ec).
    destruct (outcome_of r) eqn:Er; simpl.
    - repeat split; congruence.
    - repeat split; try congruence. + eapply user_outcome; eauto. + rewrite E. apply prefix_refl.
  Qed.

  Lemma does_s_exit k : does (s_disc m) k (s_call_exit m) [Exit (AtState k)].
  Proof.
    intros x sh cx E. unfold s_call_exit, call_action.
    destruct (s_exit m x sh cx) as [[[r x'] sh'] cx'] eqn:Ec. simpl.
    pose proof (st_s_exit Hs _ _ _ Ec).
    destruct (outcome_of r) eqn:Er; simpl.
    - repeat split; congruence.
    - repeat split; try congruence. + eapply user_outcome; eauto. + rewrite E. apply prefix_refl.
  Qed.

  Lemma does_u_entry k : does (u_disc m) k (u_call_entry m) [Enter (AtSuper k)].
  Proof.
    intros x sh cx E. unfold u_call_entry, call_action.
    destruct (u_entry m x sh cx) as [[[r x'] sh'] cx'] eqn:Ec. simpl.
    pose proof (st_u_entry Hs _ _ _ Ec).
    destruct (outcome_of r) eqn:Er; simpl.
    - repeat split; congruence.
    - repeat split; try congruence. + eapply user_outcome; eauto. + rewrite E. apply prefix_refl.
  Qed.

  Lemma does_u_exit k : does (u_disc m) k (u_call_exit m) [Exit (AtSuper k)].
  Proof.
    intros x sh cx E. unfold u_call_exit, call_action.
    destruct (u_exit m x sh cx) as [[[r x'] sh'] cx'] eqn:Ec. simpl.
    pose proof (st_u_exit Hs _ _ _ Ec).
    destruct (outcome_of r) eqn:Er; simpl.
    - repeat split; congruence.
    - repeat split; try congruence. + eapply user_outcome; eauto. + rewrite E. apply prefix_refl.
  Qed.

  (** Running something on the enclosing superstate. *)
  Lemma does_s_super {A} k (c : comp m (Sup m) A) (d : comp m (State m) A) l :
    (forall u, leaf_parent h k = Some u -> does (u_disc m) u c l) ->
    (leaf_parent h k = None -> does (s_disc m) k d l) ->
    does (s_disc m) k (bind self (fun x => match s_super m x with
                                  | Some v => via (s_put m) v c
                                  | None => d end)) l.
  Proof.
    intros Hc Hd. apply tri_self_bind. intros x E. destruct (s_super m x) as [v|] eqn:Ex.
    - eapply tri_conseq; [ eapply (@does_via m _ _ _ (s_disc m) (u_disc m)) | intros y0 Hy0; exact Hy0 | | ].
      + intros v' Ev. eapply (fo_s_put Hf); eauto.
      + apply Hc. rewrite <- E. now apply leaf_some.
      + cbv beta. intros a y t (? & ? & ?). repeat split; congruence.
      + cbv beta. intros w y t (? & ? & ? & ? & ?). repeat split; congruence.
    - assert (Hn : leaf_parent h k = None) by (rewrite <- E; now apply leaf_none).
      specialize (Hd Hn). eapply tri_conseq; [exact Hd | | auto | auto].
      intros y ->. exact E.
  Qed.

  Lemma does_u_super {A} k (c : comp m (Sup m) A) (d : comp m (Sup m) A) l :
    (forall u, sup_parent h k = Some u -> does (u_disc m) u c l) ->
    (sup_parent h k = None -> does (u_disc m) k d l) ->
    does (u_disc m) k (bind self (fun x => match u_super m x with
                                  | Some v => via (u_put m) v c
                                  | None => d end)) l.
  Proof.
    intros Hc Hd. apply tri_self_bind. intros x E. destruct (u_super m x) as [v|] eqn:Ex.
    - eapply tri_conseq; [ eapply (@does_via m _ _ _ (u_disc m) (u_disc m)) | intros y0 Hy0; exact Hy0 | | ].
      + intros v' Ev. eapply (fo_u_put Hf); eauto.
      + apply Hc. rewrite <- E. now apply sup_some.
      + cbv beta. intros a y t (? & ? & ?). repeat split; congruence.
      + cbv beta. intros w y t (? & ? & ? & ? & ?). repeat split; congruence.
    - assert (Hn : sup_parent h k = None) by (rewrite <- E; now apply sup_none).
      specialize (Hd Hn). eapply tri_conseq; [exact Hd | | auto | auto].
      intros y ->. exact E.
  Qed.

  (** *** Blocking *)

  Lemma superstate_exit_does n : forall k l, chain h (Some k) l -> n <= length l ->
    does (u_disc m) k (superstate_exit m n) (map Exit (map AtSuper (firstn n l))).
  Proof.
    induction n as [|n IH]; intros k l Hc Hn.
    - apply does_ret.
    - inversion Hc as [|? l' Hl']; subst. simpl in Hn. destruct n as [|n].
      + apply does_u_exit.
      + change (map Exit (map AtSuper (firstn (S (S n)) (k :: l'))))
          with ([Exit (AtSuper k)] ++ map Exit (map AtSuper (firstn (S n) l'))).
        apply does_bind; [apply does_u_exit|]. intros _.
        apply does_u_super.
        * intros u Eu. rewrite Eu in Hl'. apply IH; [exact Hl' | lia].
        * intros En. rewrite En in Hl'. inversion Hl'; subst. simpl in Hn. lia.
  Qed.

  Lemma superstate_enter_does n : forall k l, chain h (Some k) l -> n <= length l ->
    does (u_disc m) k (superstate_enter m n) (map Enter (map AtSuper (rev (firstn n l)))).
  Proof.
    induction n as [|n IH]; intros k l Hc Hn.
    - apply does_ret.
    - inversion Hc as [|? l' Hl']; subst. simpl in Hn. destruct n as [|n].
      + apply does_u_entry.
      + change (firstn (S (S n)) (k :: l')) with (k :: firstn (S n) l').
        cbn [rev]. rewrite !map_app.
        apply does_self_assoc. apply does_bind; [|intros _; apply does_u_entry].
        apply does_u_super.
        * intros u Eu. rewrite Eu in Hl'. apply IH; [exact Hl' | lia].
        * intros En. rewrite En in Hl'. inversion Hl'; subst. simpl in Hn. lia.
  Qed.

  (** The leaf and its superstates, innermost first. *)
  Definition upl (k : nat) (l : list nat) : list place := AtState k :: map AtSuper l.

  Lemma state_exit_does n k l : chain h (leaf_parent h k) l -> n <= S (length l) ->
    does (s_disc m) k (Blocking.state_exit m n) (map Exit (firstn n (upl k l))).
  Proof.
    intros Hc Hn. destruct n as [|[|n]].
    - apply does_ret.
    - apply does_s_exit.
    - change (map Exit (firstn (S (S n)) (upl k l)))
        with ([Exit (AtState k)] ++ map Exit (firstn (S n) (map AtSuper l))).
      apply does_bind; [apply does_s_exit|]. intros _. apply does_s_super.
      + intros u Eu. rewrite Eu in Hc. rewrite firstn_map.
        apply superstate_exit_does; [exact Hc | lia].
      + intros En. rewrite En in Hc. inversion Hc; subst. simpl in Hn. lia.
  Qed.

  Lemma state_enter_does n k l : chain h (leaf_parent h k) l -> n <= S (length l) ->
    does (s_disc m) k (Blocking.state_enter m n) (map Enter (rev (firstn n (upl k l)))).
  Proof.
    intros Hc Hn. destruct n as [|[|n]].
    - apply does_ret.
    - apply does_s_entry.
    - change (firstn (S (S n)) (upl k l)) with (AtState k :: firstn (S n) (map AtSuper l)).
      cbn [rev]. rewrite map_app. apply does_self_assoc.
      apply does_bind; [|intros _; apply does_s_entry]. apply does_s_super.
      + intros u Eu. rewrite Eu in Hc. rewrite firstn_map, <- map_rev.
        apply superstate_enter_does; [exact Hc | lia].
      + intros En. rewrite En in Hc. inversion Hc; subst. simpl in Hn. lia.
  Qed.

  (** *** Awaitable *)

  Lemma climb_entry_does n : forall k l q, chain h (Some k) l -> nth_error l n = Some q ->
    does (u_disc m) k (climb_entry m n) [Enter (AtSuper q)].
  Proof.
    induction n as [|n IH]; intros k l q Hc Hq; inversion Hc as [|? l' Hl']; subst;
      simpl in Hq.
    - inversion Hq; subst. apply does_u_entry.
    - simpl. apply does_u_super.
      + intros u Eu. rewrite Eu in Hl'. eapply IH; eauto.
      + intros En. rewrite En in Hl'. inversion Hl'; subst. now destruct n.
  Qed.

  Lemma firstn_snoc {A} n (l : list A) a : nth_error l n = Some a ->
    firstn (S n) l = firstn n l ++ [a].
  Proof.
    revert l; induction n as [|n IH]; intros [|b l] E; simpl in *; try congruence.
    rewrite (IH l E). reflexivity.
  Qed.

  Lemma aw_state_enter_does n : forall k l, chain h (leaf_parent h k) l ->
    n <= S (length l) ->
    does (s_disc m) k (Awaitable.state_enter m n) (map Enter (rev (firstn n (upl k l)))).
  Proof.
    induction n as [|[|n] IH]; intros k l Hc Hn.
    - apply does_ret.
    - apply does_s_entry.
    - destruct (nth_error l n) as [q|] eqn:Eq;
        [|apply nth_error_None in Eq; lia].
      assert (E : nth_error (upl k l) (S n) = Some (AtSuper q))
        by (simpl; now apply map_nth_error).
      rewrite (firstn_snoc _ _ E), rev_app_distr, map_app.
      change (Awaitable.state_enter m (S (S n)))
        with (bind self (fun x => bind (match s_super m x with
                | Some u => via (s_put m) u (climb_entry m n)
                | None => ret tt end) (fun _ => Awaitable.state_enter m (S n)))).
      apply does_self_assoc. apply does_bind.
      + apply does_s_super.
        * intros u Eu. rewrite Eu in Hc. eapply climb_entry_does; eauto.
        * intros En. rewrite En in Hc. inversion Hc; subst. simpl in Hn. lia.
      + intros _. apply IH; [exact Hc | lia].
  Qed.

  Lemma exit_loop_does n : forall k l, chain h (Some k) l -> n <= length l ->
    does (u_disc m) k (exit_loop m n) (map Exit (map AtSuper (firstn n l))).
  Proof.
    induction n as [|n IH]; intros k l Hc Hn.
    - apply does_ret.
    - inversion Hc as [|? l' Hl']; subst. simpl in Hn.
      change (map Exit (map AtSuper (firstn (S n) (k :: l'))))
          with ([Exit (AtSuper k)] ++ map Exit (map AtSuper (firstn n l'))).
      simpl exit_loop. apply does_bind; [apply does_u_exit|]. intros _.
      apply does_u_super.
      + intros u Eu. rewrite Eu in Hl'. apply IH; [exact Hl' | lia].
      + intros En. rewrite En in Hl'. inversion Hl'; subst. rewrite firstn_nil. apply does_ret.
  Qed.

  Lemma aw_state_exit_does n k l : chain h (leaf_parent h k) l -> n <= S (length l) ->
    does (s_disc m) k (Awaitable.state_exit m n) (map Exit (firstn n (upl k l))).
  Proof.
    intros Hc Hn. unfold Awaitable.state_exit.
    replace (map Exit (firstn n (upl k l)))
      with ((if 1 <=? n then [Exit (AtState k)] else [])
            ++ map Exit (map AtSuper (firstn (n - 1) l))).
    - apply does_bind.
      + destruct (1 <=? n); [apply does_s_exit | apply does_ret].
      + intros _. apply does_s_super.
        * intros u Eu. rewrite Eu in Hc. apply exit_loop_does; [exact Hc | lia].
        * intros En. rewrite En in Hc. inversion Hc; subst. rewrite firstn_nil. apply does_ret.
    - destruct n as [|n]; [reflexivity|]. simpl. rewrite Nat.sub_0_r, firstn_map. reflexivity.
  Qed.

  (** *** Depths and the common ancestor *)

  Lemma superstate_depth_chain n : forall u l, chain h (Some (u_disc m u)) l ->
    length l <= n -> superstate_depth m n u = Ret (length l).
  Proof.
    induction n as [|n IH]; intros u l Hc Hn.
    - apply chain_length_pos in Hc. lia.
    - inversion Hc as [|? l' Hl']; subst. simpl in *.
      destruct (u_super m u) as [v|] eqn:Eu.
      + rewrite (sup_some _ Eu) in Hl'. rewrite (IH v l' Hl') by lia. f_equal. lia.
      + rewrite (sup_none _ Eu) in Hl'. inversion Hl'; subst. reflexivity.
  Qed.

  Lemma superstate_depth_ok u l : chain h (Some (u_disc m u)) l ->
    superstate_depth m stack u = Ret (length l).
  Proof. intros Hc. apply superstate_depth_chain; auto. eapply height_bound; eauto. Qed.

  Lemma state_depth_ok x l : chain h (leaf_parent h (s_disc m x)) l ->
    Blocking.state_depth m stack x = Ret (S (length l)).
  Proof.
    intros Hc. unfold Blocking.state_depth. destruct (s_super m x) as [u|] eqn:Ex.
    - rewrite (leaf_some _ Ex) in Hc. rewrite (superstate_depth_ok _ Hc). f_equal. lia.
    - rewrite (leaf_none _ Ex) in Hc. inversion Hc; subst. reflexivity.
  Qed.

  (** [xs] and [ys] (innermost first) are what is not shared. *)
  Definition split_at_lca (l1 l2 xs ys common : list nat) : Prop :=
    l1 = xs ++ common /\ l2 = ys ++ common /\ diverge (rev xs) (rev ys).

  Lemma diverge_snoc {A} (xs ys : list A) (a b : A) :
    diverge xs ys -> (xs = [] -> ys = [] -> a <> b) ->
    (xs = [] <-> ys = []) -> diverge (xs ++ [a]) (ys ++ [b]).
  Proof.
    destruct xs, ys; simpl; intros H1 H2 H3; auto.
    - destruct H3 as [H3 _]. specialize (H3 eq_refl). discriminate.
    - destruct H3 as [_ H3]. specialize (H3 eq_refl). discriminate.
  Qed.


  Lemma cad_split n : forall u v l1 l2,
    chain h (Some (u_disc m u)) l1 -> chain h (Some (u_disc m v)) l2 ->
    length l1 + length l2 <= n ->
    exists xs ys common,
      split_at_lca l1 l2 xs ys common /\
      superstate_common_ancestor_depth m stack n u v = Ret (length common).
  Proof.
    induction n as [|n IH]; intros u v l1 l2 H1 H2 Hn.
    - apply chain_length_pos in H1. lia.
    - simpl. rewrite (superstate_depth_ok _ H1), (superstate_depth_ok _ H2).
      inversion H1 as [|? l1' H1']; inversion H2 as [|? l2' H2']; subst.
      destruct (Nat.compare_spec (length (u_disc m u :: l1')) (length (u_disc m v :: l2')))
        as [E|E|E]; simpl in E, Hn.
      + unfold same_superstate. destruct (u_disc m u =? u_disc m v) eqn:Ed.
        * apply Nat.eqb_eq in Ed. rewrite Ed in *.
          pose proof (chain_functional H1 H2) as El. inversion El; subst.
          exists [], [], (u_disc m v :: l2'). repeat split.
        * apply Nat.eqb_neq in Ed.
          destruct (u_super m u) as [u'|] eqn:Eu; destruct (u_super m v) as [v'|] eqn:Ev.
          -- rewrite (sup_some _ Eu) in H1'. rewrite (sup_some _ Ev) in H2'.
             destruct (IH u' v' l1' l2' H1' H2') as (xs & ys & c & (E1 & E2 & D) & EE);
               [lia|].
             exists (u_disc m u :: xs), (u_disc m v :: ys), c.
             split; [|exact EE]. repeat split; simpl; try congruence.
             apply diverge_snoc; auto.
             assert (El : length xs = length ys).
             { rewrite E1, E2, !app_length in E. lia. }
             rewrite <- (rev_length xs), <- (rev_length ys) in El.
             destruct (rev xs), (rev ys); simpl in El; try discriminate; split; congruence.
          -- rewrite (sup_some _ Eu) in H1'. rewrite (sup_none _ Ev) in H2'.
             inversion H2'; subst. apply chain_length_pos in H1'. simpl in E. lia.
          -- rewrite (sup_some _ Ev) in H2'. rewrite (sup_none _ Eu) in H1'.
             inversion H1'; subst. apply chain_length_pos in H2'. simpl in E. lia.
          -- rewrite (sup_none _ Eu) in H1'. rewrite (sup_none _ Ev) in H2'.
             inversion H1'; inversion H2'; subst.
             exists [u_disc m u], [u_disc m v], []. repeat split. exact Ed.
      + destruct (u_super m v) as [v'|] eqn:Ev.
        * rewrite (sup_some _ Ev) in H2'.
          destruct (IH u v' (u_disc m u :: l1') l2' H1 H2') as (xs & ys & c & (E1 & E2 & D) & EE);
            [simpl; lia|].
          exists xs, (u_disc m v :: ys), c. split; [|exact EE].
          repeat split; simpl; try congruence.
          assert (rev ys <> [] \/ rev xs = []).
          { destruct ys as [|y ys]; [right | left].
            - simpl in E2. assert (length xs = 0).
              { apply (f_equal (@length nat)) in E1. rewrite app_length in E1.
                simpl in E1. rewrite E2 in E. lia. }
              destruct xs; simpl in *; [reflexivity | lia].
            - simpl. intros EE'. apply app_eq_nil in EE'. destruct EE'. discriminate. }
          destruct (rev xs), (rev ys); simpl in *; intuition congruence.
        * rewrite (sup_none _ Ev) in H2'. inversion H2'; subst. simpl in E. lia.
      + destruct (u_super m u) as [u'|] eqn:Eu.
        * rewrite (sup_some _ Eu) in H1'.
          destruct (IH u' v l1' (u_disc m v :: l2') H1' H2) as (xs & ys & c & (E1 & E2 & D) & EE);
            [simpl; lia|].
          exists (u_disc m u :: xs), ys, c. split; [|exact EE].
          repeat split; simpl; try congruence.
          assert (rev xs <> [] \/ rev ys = []).
          { destruct xs as [|y xs]; [right | left].
            - simpl in E1. assert (length ys = 0).
              { apply (f_equal (@length nat)) in E2. rewrite app_length in E2.
                simpl in E2. rewrite E1 in E. lia. }
              destruct ys; simpl in *; [reflexivity | lia].
            - simpl. intros EE'. apply app_eq_nil in EE'. destruct EE'. discriminate. }
          destruct (rev xs), (rev ys); simpl in *; intuition congruence.
        * rewrite (sup_none _ Eu) in H1'. inversion H1'; subst. simpl in E. lia.
  Qed.

  (** What `transition_path` computes. *)
  Lemma transition_path_split x t l1 l2 :
    chain h (leaf_parent h (s_disc m x)) l1 -> chain h (leaf_parent h (s_disc m t)) l2 ->
    s_disc m x <> s_disc m t ->
    exists xs ys common,
      split_at_lca l1 l2 xs ys common /\
      Blocking.transition_path m stack x t = Ret (S (length xs), S (length ys)).
  Proof.
    intros H1 H2 Hne. unfold Blocking.transition_path, same_state.
    apply Nat.eqb_neq in Hne. rewrite Hne.
    rewrite (state_depth_ok _ H1), (state_depth_ok _ H2).
    destruct (s_super m x) as [u|] eqn:Ex; destruct (s_super m t) as [v|] eqn:Et.
    - pose proof (height_bound Hh H1). pose proof (height_bound Hh H2).
      rewrite (leaf_some _ Ex) in H1. rewrite (leaf_some _ Et) in H2.
      destruct (@cad_split (stack + stack) u v l1 l2 H1 H2) as (xs & ys & c & (E1 & E2 & D) & EE);
        [lia|].
      rewrite EE. unfold checked_sub.
      rewrite E1, E2, !app_length.
      destruct (length c <=? S (length xs + length c)) eqn:L1;
        [|apply Nat.leb_gt in L1; lia].
      destruct (length c <=? S (length ys + length c)) eqn:L2;
        [|apply Nat.leb_gt in L2; lia].
      exists xs, ys, c. split; [repeat split; auto|]. do 2 f_equal; lia.
    - rewrite (leaf_none _ Et) in H2. inversion H2; subst.
      exists l1, [], []. split; [|reflexivity].
      split; [now rewrite app_nil_r|]. split; [reflexivity|].
      simpl. destruct (rev l1); exact I.
    - rewrite (leaf_none _ Ex) in H1. inversion H1; subst.
      exists [], l2, []. split; [|reflexivity].
      split; [reflexivity|]. split; [now rewrite app_nil_r|]. exact I.
    - rewrite (leaf_none _ Ex) in H1. rewrite (leaf_none _ Et) in H2.
      inversion H1; inversion H2; subst.
      exists [], [], []. split; [|reflexivity]. repeat split.
  Qed.
End Shape.
