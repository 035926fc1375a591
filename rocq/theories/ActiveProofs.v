(** ActiveProofs.v — lemmas for C77. *)

From Coq Require Import List Bool Arith Lia.
From Verif Require Import Machine Blocking Awaitable Api Spec TripleProofs ShapeProofs DispatchProofs
  TransitionProofs ActiveSpec.
Import ListNotations.
Set Implicit Arguments.

Section Active.
  Variable h : hierarchy.
  Variable m : machine.
  Variable stack : nat.
  Hypothesis W : well_formed h m stack.
  Variable Always : Shared m -> Prop.
  Variables Active Leaving : place -> Shared m -> Prop.
  Hypothesis MT : maintains h m Always Active Leaving.

  Let Hf := wf_follows W.
  Let Hs := wf_stable W.
  Let Hh := wf_height W.
  Notation holds := (holds m Always Active Leaving).
  Notation unfailing := (unfailing h m Always Active Leaving).

  Definition leads {X A} (d : X -> nat) (k : nat) (c : comp m X A) (P : Shared m -> Prop)
      (Q : A -> Shared m -> Prop) : Prop :=
    forall x sh cx, d x = k -> P sh ->
      let r := c x sh cx in
      match r_out r with
      | Ret a => d (r_self r) = k /\ Q a (r_sh r)
      | Abort _ => ~ unfailing
      end.

  Lemma leads_bind {X A B} (d : X -> nat) k (c : comp m X A) (f : A -> comp m X B) P Q R :
    leads d k c P Q -> (forall a, leads d k (f a) (Q a) R) -> leads d k (bind c f) P R.
  Proof.
    intros H1 H2 x sh cx E HP. specialize (H1 x sh cx E HP). unfold bind. cbv zeta in *.
    destruct (r_out (c x sh cx)) as [a|w]; [|exact H1].
    destruct H1 as [E1 HQ]. specialize (H2 a _ _ (r_cx (c x sh cx)) E1 HQ). cbv zeta in H2. cbn.
    destruct (r_out (f a _ _ _)); exact H2.
  Qed.
  Lemma leads_self {X B} (d : X -> nat) k (f : X -> comp m X B) P R :
    (forall x, d x = k -> leads d k (f x) P R) -> leads d k (bind self f) P R.
  Proof.
    intros H x sh cx E HP. cbv zeta. rewrite self_bind_run. exact (H x E x sh cx E HP).
  Qed.
  Lemma leads_ret {X A} (d : X -> nat) k (a : A) (P : Shared m -> Prop) (Q : A -> Shared m -> Prop) :
    (forall sh, P sh -> Q a sh) -> leads d k (ret a : comp m X A) P Q.
  Proof. intros H x sh cx E HP. cbn. auto. Qed.
  Lemma leads_conseq {X A} (d : X -> nat) k (c : comp m X A) (P P' : Shared m -> Prop) (Q Q' : A -> Shared m -> Prop) :
    leads d k c P' Q' -> (forall sh, P sh -> P' sh) -> (forall a sh, Q' a sh -> Q a sh) -> leads d k c P Q.
  Proof.
    intros H HP HQ x sh cx E Hx. specialize (H x sh cx E (HP _ Hx)). cbv zeta in *.
    destruct (r_out (c x sh cx)); [|exact H]. destruct H; auto.
  Qed.

  Lemma leads_s_super {A} k (c : comp m (Sup m) A) (d : comp m (State m) A) P Q :
    (forall u, leaf_parent h k = Some u -> leads (u_disc m) u c P Q) ->
    (leaf_parent h k = None -> leads (s_disc m) k d P Q) ->
    leads (s_disc m) k (bind self (fun x => match s_super m x with
                                  | Some v => via (s_put m) v c
                                  | None => d end)) P Q.
  Proof.
    intros Hc Hd x sh cx E HP. cbv zeta. rewrite self_bind_run. destruct (s_super m x) as [v|] eqn:Ex.
    - pose proof (leaf_some Hf _ Ex) as Lv. rewrite E in Lv.
      specialize (Hc _ Lv v sh cx eq_refl HP). cbv zeta in Hc. unfold via. cbn.
      destruct (r_out (c v sh cx)); [|exact Hc]. destruct Hc as [E1 HQ]. split; [|exact HQ].
      rewrite <- E. exact (fo_s_put Hf _ _ Ex E1).
    - apply Hd; auto. rewrite <- E. now apply (leaf_none Hf).
  Qed.
  Lemma leads_u_super {A} k (c : comp m (Sup m) A) (d : comp m (Sup m) A) P Q :
    (forall u, sup_parent h k = Some u -> leads (u_disc m) u c P Q) ->
    (sup_parent h k = None -> leads (u_disc m) k d P Q) ->
    leads (u_disc m) k (bind self (fun x => match u_super m x with
                                  | Some v => via (u_put m) v c
                                  | None => d end)) P Q.
  Proof.
    intros Hc Hd x sh cx E HP. cbv zeta. rewrite self_bind_run. destruct (u_super m x) as [v|] eqn:Ex.
    - pose proof (sup_some Hf _ Ex) as Lv. rewrite E in Lv.
      specialize (Hc _ Lv v sh cx eq_refl HP). cbv zeta in Hc. unfold via. cbn.
      destruct (r_out (c v sh cx)); [|exact Hc]. destruct Hc as [E1 HQ]. split; [|exact HQ].
      rewrite <- E. exact (fo_u_put Hf _ _ Ex E1).
    - apply Hd; auto. rewrite <- E. now apply (sup_none Hf).
  Qed.
  Lemma leads_assoc {X A B} (d : X -> nat) k (f : X -> comp m X A) (g : A -> comp m X B) P Q :
    leads d k (bind (bind self f) g) P Q -> leads d k (bind self (fun x => bind (f x) g)) P Q.
  Proof.
    intros H x sh cx E HP. specialize (H x sh cx E HP). unfold bind, self in *.
    cbv zeta in *. simpl in *. destruct (r_out (f x x sh cx)); exact H.
  Qed.

  (** Single calls. *)
  Lemma not_failing o a c c' sh cx r sh' :
    step h m o a c c' -> holds c sh -> effect m o sh cx = (r, sh') ->
    (r = Panics \/ r = Cancelled) -> ~ unfailing.
  Proof.
    intros S H E D U. destruct (U o a c c' sh cx S H) as [b Eb]. rewrite E in Eb. cbn in Eb.
    destruct D; congruence.
  Qed.

  Lemma leads_s_entry k l : chain h (leaf_parent h k) l ->
    leads (s_disc m) k (s_call_entry m) (holds ([], map AtSuper l)) (fun _ => holds ([], upl k l)).
  Proof.
    intros Hc x sh cx E HP. unfold s_call_entry, call_action. cbv zeta.
    assert (S : step h m (OEnter (NState x)) None ([], map AtSuper l) ([], upl k l)).
    { unfold upl. rewrite <- E. apply step_enter. cbn. exists l. rewrite E. auto. }
    destruct (s_entry m x sh cx) as [[[r x'] sh'] cx'] eqn:Ec.
    pose proof (st_s_entry Hs _ _ _ Ec) as D.
    destruct r as [[]| |]; cbn.
    - split; [congruence|]. eapply (@MT _ _ _ _ _ cx _ S HP). cbn. now rewrite Ec.
    - eapply (not_failing cx S HP); [cbn; rewrite Ec; reflexivity|auto].
    - eapply (not_failing cx S HP); [cbn; rewrite Ec; reflexivity|auto].
  Qed.
  Lemma leads_u_entry k l : chain h (sup_parent h k) l ->
    leads (u_disc m) k (u_call_entry m) (holds ([], map AtSuper l)) (fun _ => holds ([], map AtSuper (k :: l))).
  Proof.
    intros Hc x sh cx E HP. unfold u_call_entry, call_action. cbv zeta.
    assert (S : step h m (OEnter (NSuper x)) None ([], map AtSuper l) ([], map AtSuper (k :: l))).
    { cbn [map]. rewrite <- E. apply (step_enter h m (NSuper x)). cbn. exists (k :: l). rewrite E.
      split; [now constructor|reflexivity]. }
    destruct (u_entry m x sh cx) as [[[r x'] sh'] cx'] eqn:Ec.
    pose proof (st_u_entry Hs _ _ _ Ec) as D.
    destruct r as [[]| |]; cbn [outcome_of r_out r_self r_sh].
    - split; [congruence|]. eapply (@MT _ _ _ _ _ cx _ S HP). cbn. now rewrite Ec.
    - eapply (not_failing cx S HP); [cbn; rewrite Ec; reflexivity|auto].
    - eapply (not_failing cx S HP); [cbn; rewrite Ec; reflexivity|auto].
  Qed.
  Lemma leads_s_exit k xs c : chain h (leaf_parent h k) (xs ++ c) ->
    leads (s_disc m) k (s_call_exit m) (holds (upl k xs, map AtSuper c))
      (fun _ => holds (map AtSuper xs, map AtSuper c)).
  Proof.
    intros Hc x sh cx E HP. unfold s_call_exit, call_action. cbv zeta.
    assert (S : step h m (OExit (NState x)) None (upl k xs, map AtSuper c) (map AtSuper xs, map AtSuper c)).
    { unfold upl. rewrite <- E. apply (step_exit h m (NState x)). cbn. exists (xs ++ c).
      rewrite E, map_app. auto. }
    destruct (s_exit m x sh cx) as [[[r x'] sh'] cx'] eqn:Ec.
    pose proof (st_s_exit Hs _ _ _ Ec) as D.
    destruct r as [[]| |]; cbn [outcome_of r_out r_self r_sh].
    - split; [congruence|]. eapply (@MT _ _ _ _ _ cx _ S HP). cbn. now rewrite Ec.
    - eapply (not_failing cx S HP); [cbn; rewrite Ec; reflexivity|auto].
    - eapply (not_failing cx S HP); [cbn; rewrite Ec; reflexivity|auto].
  Qed.
  Lemma leads_u_exit k xs c : chain h (sup_parent h k) (xs ++ c) ->
    leads (u_disc m) k (u_call_exit m) (holds (map AtSuper (k :: xs), map AtSuper c))
      (fun _ => holds (map AtSuper xs, map AtSuper c)).
  Proof.
    intros Hc x sh cx E HP. unfold u_call_exit, call_action. cbv zeta.
    assert (S : step h m (OExit (NSuper x)) None (map AtSuper (k :: xs), map AtSuper c) (map AtSuper xs, map AtSuper c)).
    { cbn [map]. rewrite <- E. apply (step_exit h m (NSuper x)). cbn. exists (k :: xs ++ c).
      cbn. rewrite E, map_app. split; [now constructor|reflexivity]. }
    destruct (u_exit m x sh cx) as [[[r x'] sh'] cx'] eqn:Ec.
    pose proof (st_u_exit Hs _ _ _ Ec) as D.
    destruct r as [[]| |]; cbn [outcome_of r_out r_self r_sh].
    - split; [congruence|]. eapply (@MT _ _ _ _ _ cx _ S HP). cbn. now rewrite Ec.
    - eapply (not_failing cx S HP); [cbn; rewrite Ec; reflexivity|auto].
    - eapply (not_failing cx S HP); [cbn; rewrite Ec; reflexivity|auto].
  Qed.

  (** Hooks. *)
  Lemma leads_hook {X} (d : X -> nat) k (f : Shared m -> reply unit * Shared m) (o : obs m) c c' :
    step h m o None c c' -> (forall sh cx, effect m o sh cx = to_none m (f sh)) ->
    leads d k (call_hook f o : comp m X unit) (holds c) (fun _ => holds c').
  Proof.
    intros S EF x sh cx E HP. unfold call_hook. cbv zeta. pose proof (EF sh cx) as Ec.
    destruct (f sh) as [[[]| |] sh'] eqn:Ef; cbn in *.
    - split; [exact E|]. exact (@MT _ _ _ _ _ cx _ S HP Ec).
    - exact (not_failing cx S HP Ec (or_introl eq_refl)).
    - exact (not_failing cx S HP Ec (or_intror eq_refl)).
  Qed.

  (** What holds after a handler's answer, in a state of variant [s] with path [ps]. *)
  Definition answered (s : nat) (ps : list place) (r : response (State m)) (sh : Shared m) : Prop :=
    match r with
    | Transition t => forall left kept, parts h s (s_disc m t) left kept -> holds (left, kept) sh
    | _ => holds ([], ps) sh
    end.

  Lemma upward_functional s p q : upward h s p -> upward h s q -> p = q.
  Proof. intros (l & H & ->) (l' & H' & ->). now rewrite (chain_functional H H'). Qed.

  Lemma parts_exists s t : exists left kept, parts h s t left kept.
  Proof.
    destruct (height_chain (leaf_parent h s) Hh) as (l1 & H1 & L1).
    destruct (height_chain (leaf_parent h t) Hh) as (l2 & H2 & L2).
    destruct (Nat.eq_dec s t) as [->|N].
    - exists [AtState t], (map AtSuper l1). split; [exists l1; auto|auto].
    - assert (EX : forall l1 l2 : list nat, exists xs ys c, l1 = xs ++ c /\ l2 = ys ++ c /\ diverge (rev xs) (rev ys)).
      { clear. intros l1. induction l1 as [|a l1 IH] using rev_ind; intros l2.
        - exists [], l2, []. split; [reflexivity|]. split; [now rewrite app_nil_r|exact I].
        - destruct l2 as [|b l2 _] using rev_ind.
          { exists (l1 ++ [a]), [], []. rewrite app_nil_r. split; [reflexivity|]. split; [reflexivity|].
            destruct (rev (l1 ++ [a])); exact I. }
          destruct (Nat.eq_dec a b) as [->|D].
          + destruct (IH l2) as (xs & ys & c & -> & -> & Dv). exists xs, ys, (c ++ [b]). now rewrite !app_assoc.
          + exists (l1 ++ [a]), (l2 ++ [b]), []. rewrite !app_nil_r, !rev_app_distr. cbn. auto. }
      destruct (EX l1 l2) as (xs & ys & c & -> & -> & D).
      exists (upl s xs), (map AtSuper c). split.
      + exists (xs ++ c). unfold upl. now rewrite map_app.
      + right. split; [exact N|]. exists (upl t ys). split.
        * exists (ys ++ c). unfold upl. now rewrite map_app.
        * unfold upl. cbn [rev]. rewrite <- !map_rev.
          destruct (rev xs), (rev ys); cbn in *; congruence.
  Qed.

  Lemma leads_handler {X} (d : X -> nat) k (f : X -> Shared m -> Ctx m -> Event m ->
           reply (response (State m)) * X * Shared m * Ctx m) nd e s ps :
    (forall x sh cx r x' sh' cx', f x sh cx e = (r, x', sh', cx') -> d x' = d x) ->
    (forall x sh cx, effect m (OHandler (nd x) e) sh cx = to_option m Some (f x sh cx e)) ->
    upward h s ps -> (forall x, d x = k -> In (place_of m (nd x)) ps) ->
    leads d k (call_handler m f nd e) (holds ([], ps)) (answered s ps).
  Proof.
    intros D EF U IN x sh cx E HP. unfold call_handler. cbv zeta.
    pose proof (EF x sh cx) as Ec.
    destruct (f x sh cx e) as [[[r x'] sh'] cx'] eqn:Ef. pose proof (D _ _ _ _ _ _ _ Ef) as Dx.
    assert (S0 : step h m (OHandler (nd x) e) (Some Super) ([], ps) ([], ps)).
    { eapply step_stay; eauto. discriminate. }
    destruct r as [a| |]; cbn [outcome_of r_out r_self r_sh].
    - split; [congruence|]. destruct a as [| |t]; cbn.
      + refine (@MT _ _ _ _ _ cx _ (step_stay m (nd x) e (r := Handled) U (IN x E) _) HP Ec). discriminate.
      + exact (@MT _ _ _ _ _ cx _ S0 HP Ec).
      + intros left kept PA. destruct PA as [PA1 PA2].
        pose proof (upward_functional U PA1) as ->.
        exact (@MT _ _ _ _ _ cx _ (@step_leave h m (nd x) e s t left kept (IN x E) (conj PA1 PA2)) HP Ec).
    - exact (not_failing cx S0 HP Ec (or_introl eq_refl)).
    - exact (not_failing cx S0 HP Ec (or_intror eq_refl)).
  Qed.

  Lemma leads_s_handler e s l : chain h (leaf_parent h s) l ->
    leads (s_disc m) s (s_call_handler m e) (holds ([], upl s l)) (answered s (upl s l)).
  Proof.
    intros Hc. apply leads_handler.
    - intros * F. exact (st_s_handler Hs _ _ _ _ F).
    - intros x sh cx. cbn. destruct (s_handler m x sh cx e) as [[[? ?] ?] ?]. reflexivity.
    - exists l; auto.
    - intros x E. cbn. rewrite E. now left.
  Qed.
  Lemma leads_u_handler e s ps k : upward h s ps -> In (AtSuper k) ps ->
    leads (u_disc m) k (u_call_handler m e) (holds ([], ps)) (answered s ps).
  Proof.
    intros U I. apply leads_handler.
    - intros * F. exact (st_u_handler Hs _ _ _ _ F).
    - intros x sh cx. cbn. destruct (u_handler m x sh cx e) as [[[? ?] ?] ?]. reflexivity.
    - exact U.
    - intros x E. cbn. now rewrite E.
  Qed.

  Lemma leads_before_dispatch {X} (d : X -> nat) k n e s ps : upward h s ps -> In (place_of m n) ps ->
    leads d k (before_dispatch m n e : comp m X unit) (holds ([], ps)) (fun _ => holds ([], ps)).
  Proof. intros U I. apply leads_hook; [eapply step_before_dispatch; eauto|reflexivity]. Qed.
  Lemma leads_after_dispatch {X} (d : X -> nat) k n e s ps r : upward h s ps -> In (place_of m n) ps ->
    leads d k (after_dispatch m n e : comp m X unit) (answered s ps r) (fun _ => answered s ps r).
  Proof.
    intros U I. destruct r as [| |t].
    - apply leads_hook; [apply (@step_after_dispatch h m n e s [] ps U I)|reflexivity].
    - apply leads_hook; [apply (@step_after_dispatch h m n e s [] ps U I)|reflexivity].
    - intros x sh cx E HP. cbv zeta.
      pose proof (parts_exists s (s_disc m t)) as (left0 & kept0 & P0).
      assert (G : forall left kept, parts h s (s_disc m t) left kept ->
                match r_out ((after_dispatch m n e : comp m X unit) x sh cx) with
                | Ret _ => d (r_self ((after_dispatch m n e : comp m X unit) x sh cx)) = k /\
                           holds (left, kept) (r_sh ((after_dispatch m n e : comp m X unit) x sh cx))
                | Abort _ => ~ unfailing
                end).
      { intros left kept PA. pose proof (proj1 PA) as PU.
        pose proof (upward_functional U PU) as ->.
        pose proof (@leads_hook X d k (fun sh => h_after_dispatch m sh n e) (OAfterDispatch n e) (left, kept)
                 (left, kept) (@step_after_dispatch h m n e s left kept PU I) (fun sh cx => eq_refl)) as L.
        exact (L x sh cx E (HP left kept PA)). }
      destruct (r_out ((after_dispatch m n e : comp m X unit) x sh cx)) eqn:EO.
      + split; [exact (proj1 (G _ _ P0))|]. intros left kept PA. exact (proj2 (G _ _ PA)).
      + exact (G _ _ P0).
  Qed.

  (** Entering and leaving. *)
  Lemma superstate_exit_leads xs : forall k c, chain h (Some k) (xs ++ c) ->
    leads (u_disc m) k (superstate_exit m (length xs)) (holds (map AtSuper xs, map AtSuper c))
      (fun _ => holds ([], map AtSuper c)).
  Proof.
    induction xs as [|a xs IH]; intros k c Hc.
    - apply leads_ret. auto.
    - inversion Hc as [|? l' Hl']; subst. destruct xs as [|b xs].
      + exact (@leads_u_exit a [] c Hl').
      + cbn [length superstate_exit]. cbn [length] in IH.
        eapply leads_bind; [exact (@leads_u_exit a (b :: xs) c Hl')|]. intros ?. apply leads_u_super.
        * intros u Eu. rewrite Eu in Hl'. exact (IH _ _ Hl').
        * intros En. rewrite En in Hl'. inversion Hl'.
  Qed.
  Lemma superstate_enter_leads xs : forall k c, chain h (Some k) (xs ++ c) ->
    leads (u_disc m) k (superstate_enter m (length xs)) (holds ([], map AtSuper c))
      (fun _ => holds ([], map AtSuper (xs ++ c))).
  Proof.
    induction xs as [|a xs IH]; intros k c Hc.
    - apply leads_ret. auto.
    - inversion Hc as [|? l' Hl']; subst. destruct xs as [|b xs].
      + exact (leads_u_entry (k := a) Hl').
      + cbn [length superstate_enter]. cbn [length] in IH. apply leads_assoc.
        eapply leads_bind; [|intros ?; exact (leads_u_entry (k := a) Hl')]. apply leads_u_super.
        * intros u Eu. rewrite Eu in Hl'. exact (IH _ _ Hl').
        * intros En. rewrite En in Hl'. inversion Hl'.
  Qed.
  Lemma exit_loop_leads xs : forall k c, chain h (Some k) (xs ++ c) ->
    leads (u_disc m) k (exit_loop m (length xs)) (holds (map AtSuper xs, map AtSuper c))
      (fun _ => holds ([], map AtSuper c)).
  Proof.
    induction xs as [|a xs IH]; intros k c Hc.
    - apply leads_ret. auto.
    - inversion Hc as [|? l' Hl']; subst. cbn [length exit_loop].
      eapply leads_bind; [exact (@leads_u_exit a xs c Hl')|]. intros ?. apply leads_u_super.
      + intros u Eu. rewrite Eu in Hl'. exact (IH _ _ Hl').
      + intros En. rewrite En in Hl'. destruct xs as [|b xs]; [apply leads_ret; auto|inversion Hl'].
  Qed.
  Lemma climb_entry_leads xs : forall k q c, chain h (Some k) (xs ++ q :: c) ->
    leads (u_disc m) k (climb_entry m (length xs)) (holds ([], map AtSuper c))
      (fun _ => holds ([], map AtSuper (q :: c))).
  Proof.
    induction xs as [|a xs IH]; intros k q c Hc; inversion Hc as [|? l' Hl']; subst.
    - exact (leads_u_entry (k := q) Hl').
    - cbn [length climb_entry]. apply leads_u_super.
      + intros u Eu. rewrite Eu in Hl'. exact (IH _ _ _ Hl').
      + intros En. rewrite En in Hl'. destruct xs; inversion Hl'.
  Qed.

  Lemma mode_exit_leads md k xs c : chain h (leaf_parent h k) (xs ++ c) ->
    leads (s_disc m) k (mode_exit m md (S (length xs))) (holds (upl k xs, map AtSuper c))
      (fun _ => holds ([], map AtSuper c)).
  Proof.
    intros Hc. unfold mode_exit. destruct md.
    - destruct xs as [|a xs]; [exact (@leads_s_exit k [] c Hc)|].
      cbn [length Blocking.state_exit].
      eapply leads_bind; [exact (@leads_s_exit k (a :: xs) c Hc)|]. intros ?. apply leads_s_super.
      + intros u Eu. rewrite Eu in Hc. exact (superstate_exit_leads (a :: xs) _ Hc).
      + intros En. rewrite En in Hc. inversion Hc.
    - unfold Awaitable.state_exit. cbn [Nat.leb]. replace (S (length xs) - 1) with (length xs) by lia.
      eapply leads_bind; [exact (@leads_s_exit k xs c Hc)|]. intros ?. apply leads_s_super.
      + intros u Eu. rewrite Eu in Hc. exact (exit_loop_leads xs _ Hc).
      + intros En. rewrite En in Hc. destruct xs; [apply leads_ret; auto|inversion Hc].
  Qed.
  Lemma aw_state_enter_leads n : forall k l, chain h (leaf_parent h k) l -> n <= length l ->
    leads (s_disc m) k (Awaitable.state_enter m (S n)) (holds ([], map AtSuper (skipn n l)))
      (fun _ => holds ([], upl k l)).
  Proof.
    induction n as [|n IH]; intros k l Hc Hn.
    - exact (leads_s_entry Hc).
    - destruct (nth_error l n) as [q|] eqn:Eq; [|apply nth_error_None in Eq; lia].
      assert (Sk : skipn n l = q :: skipn (S n) l).
      { clear - Eq. revert l Eq. induction n as [|n IH]; intros [|a l] Eq; cbn in *; try discriminate.
        - congruence.
        - rewrite (IH _ Eq). reflexivity. }
      change (Awaitable.state_enter m (S (S n)))
        with (bind self (fun x => bind (match s_super m x with
                | Some u => via (s_put m) u (climb_entry m n)
                | None => ret tt end) (fun _ => Awaitable.state_enter m (S n)))).
      apply leads_assoc. eapply leads_bind; [|intros ?; apply IH; [exact Hc|lia]].
      rewrite Sk. cbv beta. apply leads_s_super.
      + intros u Eu. rewrite Eu in Hc.
        assert (L : length (firstn n l) = n) by (rewrite firstn_length; lia).
        rewrite <- (firstn_skipn n l), Sk in Hc.
        pose proof (climb_entry_leads (firstn n l) _ _ Hc) as G. rewrite L in G. exact G.
      + intros En. rewrite En in Hc. inversion Hc; subst. destruct n; discriminate.
  Qed.
  Lemma mode_enter_leads md k ys c : chain h (leaf_parent h k) (ys ++ c) ->
    leads (s_disc m) k (mode_enter m md (S (length ys))) (holds ([], map AtSuper c))
      (fun _ => holds ([], upl k (ys ++ c))).
  Proof.
    intros Hc. unfold mode_enter. destruct md.
    - destruct ys as [|a ys]; [exact (leads_s_entry Hc)|].
      cbn [length Blocking.state_enter]. apply leads_assoc.
      eapply leads_bind; [|intros ?; exact (leads_s_entry Hc)]. apply leads_s_super.
      + intros u Eu. rewrite Eu in Hc. exact (superstate_enter_leads (a :: ys) _ Hc).
      + intros En. rewrite En in Hc. inversion Hc.
    - pose proof (@aw_state_enter_leads (length ys) k (ys ++ c) Hc) as G.
      rewrite skipn_app, skipn_all, Nat.sub_diag in G. cbn [app skipn] in G. apply G.
      rewrite app_length. lia.
  Qed.

  (** Dispatching. *)
  Lemma superstate_handle_leads e s ps : upward h s ps -> forall n k l, chain h (Some k) l -> length l <= n ->
    incl (map AtSuper l) ps ->
    leads (u_disc m) k (superstate_handle m n e) (holds ([], ps)) (answered s ps).
  Proof.
    intros U. induction n as [|n IH]; intros k l Hc Hl IN.
    { apply chain_length_pos in Hc. lia. }
    inversion Hc as [|? l' Hl']; subst. cbn [superstate_handle].
    eapply leads_bind; [apply leads_u_handler; [exact U|apply IN; now left]|].
    intros [| |t]; [apply leads_ret; auto| |apply leads_ret; auto]. cbn [answered].
    apply leads_u_super.
    - intros u Eu. rewrite Eu in Hl'.
      assert (Iu : In (AtSuper u) ps) by (apply IN; inversion Hl'; subst; cbn; auto).
      apply leads_self. intros v0 E0. eapply leads_bind; [eapply leads_before_dispatch; [exact U|cbn; now rewrite E0]|].
      intros ?. eapply leads_bind.
      { apply (IH _ _ Hl'); [cbn in Hl; lia|]. intros p J. apply IN. now right. }
      intros r. apply leads_self. intros v1 E1.
      eapply leads_bind; [eapply leads_after_dispatch; [exact U|cbn; now rewrite E1]|].
      intros ?. apply leads_ret. auto.
    - intros ?. apply leads_ret. auto.
  Qed.
  Lemma handle_loop_leads e s ps : upward h s ps -> forall n k l, chain h (Some k) l -> length l <= n ->
    incl (map AtSuper l) ps ->
    leads (u_disc m) k (handle_loop m n e) (holds ([], ps)) (answered s ps).
  Proof.
    intros U. induction n as [|n IH]; intros k l Hc Hl IN.
    { apply chain_length_pos in Hc. lia. }
    inversion Hc as [|? l' Hl']; subst. cbn [handle_loop].
    assert (Ik : In (AtSuper k) ps) by (apply IN; now left).
    apply leads_self. intros v0 E0. eapply leads_bind; [eapply leads_before_dispatch; [exact U|cbn; now rewrite E0]|].
    intros ?. eapply leads_bind; [apply leads_u_handler; [exact U|exact Ik]|].
    intros r. apply leads_self. intros v1 E1.
    eapply leads_bind; [eapply leads_after_dispatch; [exact U|cbn; now rewrite E1]|].
    intros ?. destruct r as [| |t]; [apply leads_ret; auto| |apply leads_ret; auto]. cbn [answered].
    apply leads_u_super.
    - intros u Eu. rewrite Eu in Hl'. apply (IH _ _ Hl'); [cbn in Hl; lia|]. intros p J. apply IN. now right.
    - intros ?. apply leads_ret. auto.
  Qed.
  Lemma mode_state_handle_leads md e s l : chain h (leaf_parent h s) l ->
    leads (s_disc m) s (mode_state_handle m stack e md) (holds ([], upl s l)) (answered s (upl s l)).
  Proof.
    intros Hc. assert (U : upward h s (upl s l)) by (exists l; auto).
    pose proof (height_bound Hh Hc) as Hl.
    unfold mode_state_handle. destruct md.
    - unfold Blocking.state_handle.
      apply leads_self. intros v0 E0.
      eapply leads_bind; [eapply leads_before_dispatch; [exact U|cbn; rewrite E0; now left]|].
      intros ?. eapply leads_bind; [apply leads_s_handler; exact Hc|].
      intros r. apply leads_self. intros v1 E1.
      eapply leads_bind; [eapply leads_after_dispatch; [exact U|cbn; rewrite E1; now left]|].
      intros ?. destruct r as [| |t]; [apply leads_ret; auto| |apply leads_ret; auto]. cbn [answered].
      apply leads_s_super.
      + intros u Eu. rewrite Eu in Hc.
        assert (Iu : In (AtSuper u) (upl s l)) by (inversion Hc; subst; cbn; auto).
        apply leads_self. intros w0 F0.
        eapply leads_bind; [eapply leads_before_dispatch; [exact U|cbn [place_of]; now rewrite F0]|].
        intros ?. eapply leads_bind.
        { apply (superstate_handle_leads e U Hc Hl). intros p J. now right. }
        intros r. apply leads_self. intros w1 F1.
        eapply leads_bind; [eapply leads_after_dispatch; [exact U|cbn [place_of]; now rewrite F1]|].
        intros ?. apply leads_ret. auto.
      + intros ?. apply leads_ret. auto.
    - unfold Awaitable.state_handle.
      apply leads_self. intros v0 E0.
      eapply leads_bind; [eapply leads_before_dispatch; [exact U|cbn; rewrite E0; now left]|].
      intros ?. eapply leads_bind; [apply leads_s_handler; exact Hc|].
      intros r. apply leads_self. intros v1 E1.
      eapply leads_bind; [eapply leads_after_dispatch; [exact U|cbn; rewrite E1; now left]|].
      intros ?. destruct r as [| |t]; [apply leads_ret; auto| |apply leads_ret; auto]. cbn [answered].
      apply leads_s_super.
      + intros u Eu. rewrite Eu in Hc.
        apply (handle_loop_leads e U Hc Hl). intros p J. now right.
      + intros ?. apply leads_ret. auto.
  Qed.

  Definition resting (x : State m) (sh : Shared m) : Prop :=
    forall ps, upward h (s_disc m x) ps -> holds ([], ps) sh.
  Definition fine (r : res m (State m) unit) : Prop :=
    match r_out r with
    | Ret _ => resting (r_self r) (r_sh r)
    | Abort _ => ~ unfailing
    end.
  Lemma fine_bind {A} (c : comp m (State m) A) (f : A -> comp m (State m) unit) x sh cx :
    match r_out (c x sh cx) with
    | Ret a => fine (f a (r_self (c x sh cx)) (r_sh (c x sh cx)) (r_cx (c x sh cx)))
    | Abort _ => ~ unfailing
    end -> fine (bind c f x sh cx).
  Proof. unfold fine, bind. destruct (r_out (c x sh cx)); auto. Qed.

  (** Transitions: the variant changes. *)
  Lemma transition_leads md t x sh cx s l :
    s_disc m x = s -> chain h (leaf_parent h s) l -> answered s (upl s l) (Transition t) sh ->
    fine (mode_transition m stack md t x sh cx).
  Proof.
    intros Es Hc HA. rewrite mode_transition_eq.
    destruct (height_chain (leaf_parent h (s_disc m t)) Hh) as (l2 & H2 & L2).
    (* how the two paths meet *)
    assert (SP : exists xs ys c, l = xs ++ c /\ l2 = ys ++ c /\ parts h s (s_disc m t) (upl s xs) (map AtSuper c) /\
              Blocking.transition_path m stack x t = Ret (S (length xs), S (length ys))).
    { destruct (Nat.eq_dec s (s_disc m t)) as [Ed|Ed].
      - exists [], [], l. rewrite Ed in Hc. pose proof (chain_functional Hc H2) as ->.
        split; [reflexivity|]. split; [reflexivity|]. split.
        + split; [exists l2; rewrite Ed; auto|]. left. split; [exact Ed|reflexivity].
        + unfold Blocking.transition_path, same_state. rewrite Es, Ed, Nat.eqb_refl. reflexivity.
      - rewrite <- Es in Hc, Ed. destruct (transition_path_split Hf Hh _ _ Hc H2 Ed) as (xs & ys & c & (E1 & E2 & D) & E).
        exists xs, ys, c. split; [exact E1|]. split; [exact E2|]. split; [|exact E].
        rewrite <- Es. split; [exists l; split; [exact Hc|]; unfold upl; cbn; now rewrite E1, map_app|].
        right. split; [exact Ed|]. exists (upl (s_disc m t) ys). split.
        + exists l2. split; [exact H2|]. unfold upl. cbn. now rewrite E2, map_app.
        + unfold upl. cbn [rev]. rewrite <- !map_rev.
          destruct (rev xs), (rev ys); cbn in *; intuition congruence. }
    destruct SP as (xs & ys & c & -> & -> & PA & TP).
    pose proof (HA _ _ PA) as H0.
    assert (BT : leads (s_disc m) s (match md with
          | BlockingMode => before_transition m t x
          | AwaitableMode => before_transition m x t end) (holds (upl s xs, map AtSuper c))
          (fun _ => holds (upl s xs, map AtSuper c))).
    { destruct md; apply leads_hook; try reflexivity;
        exact (@step_before_transition h m _ _ s _ _ (proj1 PA)). }
    apply fine_bind. specialize (BT x sh cx Es H0). cbv zeta in BT.
    set (B0 := match md with
          | BlockingMode => before_transition m t x
          | AwaitableMode => before_transition m x t end x sh cx) in *.
    assert (B0x : r_self B0 = x).
    { subst B0. destruct md; unfold before_transition, call_hook.
      - destruct (h_before_transition m sh t x); reflexivity.
      - destruct (h_before_transition m sh x t); reflexivity. }
    destruct (r_out B0) as [[]|w]; [|exact BT]. destruct BT as [Eb Hb].
    rewrite B0x in *. clear B0x HA H0.
    rewrite TP. apply fine_bind. unfold lift at 1. cbn [r_out]. unfold lift. cbn [r_self r_sh r_cx fst snd].
    apply fine_bind.
    pose proof (@mode_exit_leads md s xs c Hc x (r_sh B0) (r_cx B0) Eb Hb) as X1. cbv zeta in X1.
    set (X := mode_exit m md (S (length xs)) x (r_sh B0) (r_cx B0)) in *.
    destruct (r_out X) as [[]|w]; [|exact X1]. destruct X1 as [Ex Hx].
    apply fine_bind. unfold swap_state at 1. cbn [r_out]. unfold swap_state. cbn [r_self r_sh r_cx].
    apply fine_bind.
    pose proof (@mode_enter_leads md (s_disc m t) ys c H2 t (r_sh X) (r_cx X) eq_refl Hx) as Y1. cbv zeta in Y1.
    set (Y := mode_enter m md (S (length ys)) t (r_sh X) (r_cx X)) in *.
    destruct (r_out Y) as [[]|w]; [|exact Y1]. destruct Y1 as [Ey Hy].
    rewrite self_bind_run.
    assert (U : upward h (s_disc m (r_self Y)) (upl (s_disc m t) (ys ++ c))).
    { rewrite Ey. exists (ys ++ c). auto. }
    pose proof (@leads_hook (State m) (s_disc m) (s_disc m t) (fun sh => h_after_transition m sh (r_self X) (r_self Y))
                  (OAfterTransition (r_self X) (r_self Y)) ([], upl (s_disc m t) (ys ++ c)) ([], upl (s_disc m t) (ys ++ c))
                  (@step_after_transition h m _ _ _ U) (fun sh cx => eq_refl) (r_self Y) (r_sh Y) (r_cx Y) Ey Hy) as Z1.
    cbv zeta in Z1. unfold after_transition, fine.
    set (Z := call_hook _ _ (r_self Y) (r_sh Y) (r_cx Y)) in *.
    destruct (r_out Z) as [[]|w]; [|exact Z1]. destruct Z1 as [Ez Hz].
    intros ps Ups. rewrite Ez in Ups. rewrite Ey in U. now rewrite (upward_functional Ups U).
  Qed.

  Lemma inner_handle_leads md e x sh cx : resting x sh -> fine (inner_handle m stack md e x sh cx).
  Proof.
    intros R. rewrite mode_handle_eq.
    destruct (height_chain (leaf_parent h (s_disc m x)) Hh) as (l & Hc & Hl).
    assert (U : upward h (s_disc m x) (upl (s_disc m x) l)) by (exists l; auto).
    pose proof (@mode_state_handle_leads md e (s_disc m x) l Hc x sh cx eq_refl (R _ U)) as H. cbv zeta in H.
    apply fine_bind. set (M := mode_state_handle m stack e md x sh cx) in *.
    destruct (r_out M) as [r|w]; [|exact H]. destruct H as [E H].
    destruct r as [| |t].
    - intros ps Ups. cbn in Ups. rewrite E in Ups. now rewrite (upward_functional Ups U).
    - intros ps Ups. cbn in Ups. rewrite E in Ups. now rewrite (upward_functional Ups U).
    - exact (@transition_leads md t (r_self M) (r_sh M) (r_cx M) _ l E Hc H).
  Qed.
  Lemma inner_init_leads md x sh cx : holds ([], []) sh -> fine (inner_init m stack md x sh cx).
  Proof.
    intros R. rewrite mode_init_eq.
    destruct (height_chain (leaf_parent h (s_disc m x)) Hh) as (l & Hc & Hl).
    rewrite (state_depth_ok Hf Hh _ Hc). apply fine_bind. unfold lift at 1. cbn [r_out].
    unfold lift. cbn [r_self r_sh r_cx].
    rewrite <- (app_nil_r l) in Hc.
    pose proof (@mode_enter_leads md (s_disc m x) l [] Hc x sh cx eq_refl R) as H. cbv zeta in H.
    rewrite ?Nat.add_1_r. unfold fine. set (M := mode_enter m md (S (length l)) x sh cx) in *.
    destruct (r_out M) as [[]|w]; [|exact H]. destruct H as [E H].
    intros ps Ups. rewrite E in Ups.
    assert (U : upward h (s_disc m x) (upl (s_disc m x) (l ++ []))) by (exists (l ++ []); auto).
    now rewrite (upward_functional Ups U).
  Qed.

  (** The machine between calls. *)
  Definition at_rest (sm : state_machine m) : Prop :=
    if initialized sm then resting (sm_state sm) (sm_shared sm) else holds ([], []) (sm_shared sm).

  Lemma exec_leads md o sm out sm1 cx tr :
    careful h m Always Active Leaving o -> at_rest sm -> exec stack md o sm = (out, sm1, cx, tr) ->
    match out with
    | Ret _ => at_rest sm1
    | Abort _ => ~ unfailing
    end.
  Proof.
    intros C R E. destruct sm as [[sh x] b]. unfold at_rest in R. cbn [initialized sm_state sm_shared sm_inner state shared_storage] in R.
    destruct o as [cx0|e cx0|f|f]; cbn [exec] in E.
    - unfold init_with_context in E. cbn [initialized sm_inner] in E. destruct b; cbn [negb] in E.
      + injection E as <- <- <- <-. exact R.
      + pose proof (@inner_init_leads md x sh cx0 R) as H. unfold fine in H.
        unfold run_inner in E. cbn [a_out a_machine a_cx a_tr state shared_storage] in E.
        destruct (r_out (inner_init m stack md x sh cx0)) as [[]|w]; injection E as <- <- <- <-; exact H.
    - unfold handle_with_context in E. cbn [initialized sm_inner] in E. destruct b; cbn [negb] in E.
      + pose proof (@inner_handle_leads md e x sh cx0 R) as H. unfold fine in H.
        unfold dispatch, run_inner in E. cbn [a_out a_machine a_cx a_tr state shared_storage sm_inner initialized] in E.
        injection E as <- <- <- <-.
        destruct (r_out (inner_handle m stack md e x sh cx0)) as [[]|w]; exact H.
      + pose proof (@inner_init_leads md x sh cx0 R) as H. unfold fine in H.
        unfold run_inner in E. cbn [a_out a_machine a_cx a_tr state shared_storage] in E.
        set (I := inner_init m stack md x sh cx0) in *.
        destruct (r_out I) as [[]|w]; [|injection E as <- <- <- <-; exact H].
        pose proof (@inner_handle_leads md e (r_self I) (r_sh I) (r_cx I) H) as G. unfold fine in G.
        unfold dispatch, run_inner in E. cbn [a_out a_machine a_cx a_tr state shared_storage sm_inner initialized] in E.
        injection E as <- <- <- <-.
        destruct (r_out (inner_handle m stack md e (r_self I) (r_sh I) (r_cx I))) as [[]|w]; exact G.
    - injection E as <- <- <- <-. unfold at_rest. cbn in *. destruct b.
      + intros ps U. exact (C _ ps sh (or_introl U) (R ps U)).
      + exact (C 0 [] sh (or_intror eq_refl) R).
    - injection E as <- <- <- <-. unfold at_rest. cbn in *. destruct b; [|exact R].
      intros ps U. cbn in *. rewrite C in U. exact (R ps U).
  Qed.

  Lemma history_leads md ops sm cs sm' :
    history stack md ops sm cs sm' -> Forall (careful h m Always Active Leaving) ops -> at_rest sm ->
    (completed cs -> at_rest sm') /\ (unfailing -> completed cs).
  Proof.
    induction 1 as [sm|o ops sm out sm1 cx tr cs sm' E _ IH]; intros C R.
    - split; [auto|]. intros _. constructor.
    - inversion C as [|? ? C1 C2]; subst. pose proof (@exec_leads md _ _ _ _ _ _ C1 R E) as S.
      split.
      + intros D. inversion D as [|? ? D1 D2]; subst. cbn in D1. subst out. now apply (IH C2 S).
      + intros U. destruct out as [[]|w]; [|now destruct S]. constructor; [reflexivity|]. now apply (IH C2 S).
  Qed.
End Active.
