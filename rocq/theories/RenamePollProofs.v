(** RenamePollProofs.v — proofs for C101. *)

From Coq Require Import String List Bool Arith Lia Permutation.
From Verif Require Import MacroSyntax MacroLower MacroGen MacroSem MacroSpec MacroPoll MacroPollSpec.
From Verif Require Import Machine Api Sim Poll RenameSpec PollSimSpec RenamePollSpec.
From Verif Require Import AddPollProofs.
From Verif Require MacroBehaviour MacroMachineProofs MacroPollProofs RenameSim.
Import ListNotations.
Open Scope string_scope.
Open Scope list_scope.
Set Implicit Arguments.

Section Rename.
  Variables World Val Sh Ev Cx : Type.
  Variables (o o' : orders) (args args' : list meta) (item item' : item_impl) (g g' : generated).
  Variables (B : bodies Val Sh Ev Cx g) (B' : bodies Val Sh Ev Cx g').
  Variables (FB : async_bodies World Val Sh Ev Cx g) (FB' : async_bodies World Val Sh Ev Cx g').
  Hypotheses (E : expand o args item = Done g) (CO : compiles g).
  Hypotheses (E' : expand o' args' item' = Done g') (CO' : compiles g').
  Variables rho sigma : ident -> ident.
  Hypothesis PR : proper sigma.
  Hypothesis RI : renamed_impl rho sigma item item'.
  Hypothesis SS : renamed_settings sigma g g'.
  Hypothesis SB : renamed_bodies item item' rho B B'.
  Hypothesis AK : async_kept rho item item'.
  Hypothesis SA : renamed_async_bodies item item' rho FB FB'.
  Hypotheses (NC : sync_not_cancelled item B) (NC' : sync_not_cancelled item' B').

  Lemma names : NoDup (map m_name (methods item)).
  Proof. exact (proj1 (MacroBehaviour.expand_compiles o args item E CO)). Qed.
  Lemma names' : NoDup (map m_name (methods item')).
  Proof. exact (proj1 (MacroBehaviour.expand_compiles o' args' item' E' CO')). Qed.
  Lemma similar_of (B1 : bodies Val Sh Ev Cx g) (B2 : bodies Val Sh Ev Cx g') :
    renamed_bodies item item' rho B1 B2 -> similar (renamed_relations item item' rho B1 B2).
  Proof.
    destruct (MacroBehaviour.expand_compiles o args item E CO) as (ND & c & sms & ums & X).
    destruct (MacroBehaviour.expand_compiles o' args' item' E' CO') as (ND' & c' & sms' & ums' & X').
    exact (@RenameSim.renamed_similar rho sigma PR args args' item item' g g' c c' sms ums sms' ums' X X' CO CO' ND' RI SS Val Sh Ev Cx B1 B2).
  Qed.
  Lemma renamed_in m : In m (methods item) -> relevant m = true ->
    exists m', In m' (methods item') /\ m_name m' = rho (m_name m).
  Proof.
    intros I P. destruct RI as (ms & more & F & Pm).
    assert (J : In m (filter relevant (methods item))) by (apply filter_In; auto).
    assert (K : forall l l', Forall2 (renamed_method rho sigma) l l' -> In m l ->
              exists m', In m' l' /\ m_name m' = rho (m_name m)).
    { intros l l' H. induction H as [|x y l l' Q H IH]; intros I0; [destruct I0|]. destruct I0 as [->|I0].
      - exists y. split; [now left|exact (rn_name Q)].
      - destruct (IH I0) as (m' & H1 & H2). exists m'. split; [now right|exact H2]. }
    destruct (K _ _ F J) as (m' & H1 & H2). exists m'. split; [|exact H2].
    apply (Permutation_in _ Pm). apply in_or_app. now left.
  Qed.
  Lemma async_both m : In m (methods item) -> relevant m = true ->
    is_async item (m_name m) = m_async m /\ is_async item' (rho (m_name m)) = m_async m.
  Proof.
    intros I P. split.
    - exact (@MacroPollProofs.is_async_method item names m I).
    - destruct (@renamed_in m I P) as (m' & I' & N). rewrite <- N.
      assert (is_async item' (m_name m') = m_async m') as -> by exact (@MacroPollProofs.is_async_method item' names' m' I').
      exact (AK m m' I P I' N).
  Qed.
  Lemma relevant_kind m kind : In kind ["state"; "superstate"; "action"] -> marked kind m = true -> relevant m = true.
  Proof. intros I K. apply existsb_exists. exists kind. auto. Qed.
  Lemma polled_same w ws : renamed_bodies item item' rho (polled_bodies item B FB w ws) (polled_bodies item' B' FB' w ws).
  Proof.
    destruct SB as [H1 H2 H3 H4 H5 H6]. constructor; cbn; try assumption.
    - intros m l I K. assert (P : relevant m = true) by (destruct K as [K|K]; [apply relevant_kind with "state"|apply relevant_kind with "superstate"]; cbn; auto).
      destruct (@async_both m I P) as [A1 A2]. unfold polled_body. rewrite A1, A2.
      destruct (m_async m) eqn:Em; [|exact (H1 m l I K)].
      assert (Q : future_rel eq eq (response_rel (@twin_states item item' rho Val g g')) (fb_handler FB (m_name m)) (fb_handler FB' (rho (m_name m)))) by (apply (ra_handler SA); assumption).
      specialize (Q w ws w ws l l (same_schedule w ws) eq_refl).
      destruct (udrive (fb_handler FB (m_name m)) w ws l) as [[a l1] u].
      destruct (udrive (fb_handler FB' (rho (m_name m))) w ws l) as [[a' l1'] u'].
      destruct Q as (Q1 & -> & _). split; [exact (option_reply Q1)|reflexivity].
    - intros m l I K. assert (P : relevant m = true) by (apply relevant_kind with "action"; cbn; auto).
      destruct (@async_both m I P) as [A1 A2]. unfold polled_body. rewrite A1, A2.
      destruct (m_async m) eqn:Em; [|exact (H2 m l I K)].
      assert (Q : future_rel eq eq eq (fb_action FB (m_name m)) (fb_action FB' (rho (m_name m)))) by (apply (ra_action SA); assumption).
      specialize (Q w ws w ws l l (same_schedule w ws) eq_refl).
      destruct (udrive (fb_action FB (m_name m)) w ws l) as [[a l1] u].
      destruct (udrive (fb_action FB' (rho (m_name m))) w ws l) as [[a' l1'] u'].
      destruct Q as (Q1 & -> & _). now rewrite (opt_eq Q1).
  Qed.

  Notation R := (renamed_relations item item' rho B B').
  Notation F := (generated_futures B FB).
  Notation F' := (generated_futures B' FB').
  (** From the atomic callbacks with the polls of [w], [ws] to the futures. *)
  Lemma from_atomic X X' A A' (RX : X -> X' -> Prop) (RA : A -> A' -> Prop)
      (f : ufut World (X * Sh * Cx) A) (f' : ufut World (X' * Sh * Cx) A') w ws x x' sh cx
      (c : reply A * X * Sh * Cx) (c' : reply A' * X' * Sh * Cx) :
    (let '(o, (y, sh1, cx1), l) := udrive f w ws (x, sh, cx) in c = (reply_of o, y, sh1, cx1)) ->
    (let '(o, (y, sh1, cx1), l) := udrive f' w ws (x', sh, cx) in c' = (reply_of o, y, sh1, cx1)) ->
    (let '(a, y, sh1, cx1) := c in let '(a', y', sh1', cx1') := c' in
     reply_rel RA a a' /\ RX y y' /\ sh1 = sh1' /\ cx1 = cx1') ->
    let '(a, s1, _) := udrive f w ws (x, sh, cx) in
    let '(a', s1', _) := udrive f' w ws (x', sh, cx) in
    opt_rel (opt_rel RA) a a' /\
    (let '(y, sh1, cx1) := s1 in let '(y', sh1', cx1') := s1' in RX y y' /\ sh1 = sh1' /\ cx1 = cx1').
  Proof.
    destruct (udrive f w ws (x, sh, cx)) as [[a [[y sh1] cx1]] l].
    destruct (udrive f' w ws (x', sh, cx)) as [[a' [[y' sh1'] cx1']] l']. intros -> -> (H1 & H2).
    split; [exact (reply_option _ _ H1)|exact H2].
  Qed.
  Lemma hook_future c c' run run' fut fut' :
    c' = c ->
    (forall p, future_rel eq eq eq (fut p) (fut' p)) -> (forall p (sh : Sh), run' p sh = run p sh) ->
    future_rel eq eq eq (polled_hook B c run fut) (polled_hook (World := World) B' c' run' fut').
  Proof.
    intros -> Hf Hr. unfold polled_hook.
    assert (G : forall c, future_rel eq eq eq (at_once (World := World) (run_hook B c run)) (at_once (run_hook B' c run'))).
    { intros c0. apply answers_future. intros s s' <- w ws. rewrite !MacroPollProofs.udrive_at_once.
      assert (run_hook B' c0 run' s = run_hook B c0 run s) as ->.
      { unfold run_hook. destruct c0 as [|p|p]; [reflexivity| |apply Hr].
        rewrite (rb_async SB). destruct (b_async B p); [reflexivity|apply Hr]. }
      destruct (run_hook B c0 run s) as [r s1]. cbn. split; [|reflexivity]. destruct r; repeat constructor. }
    destruct c as [|p|p]; [apply G|apply G|apply Hf].
  Qed.

  Ltac atomic k := intros [[x sh] cx] [[x' sh'] cx'] (Hx & Hs & Hc); cbn in Hs, Hc; subst sh' cx'; intros w ws;
    pose proof (@MacroPollProofs.generated_polled World Val Sh Ev Cx g B FB o args item E names NC w ws sh cx) as P;
    pose proof (@MacroPollProofs.generated_polled World Val Sh Ev Cx g' B' FB' o' args' item' E' names' NC' w ws sh cx) as P';
    pose proof (similar_of (polled_same w ws)) as Sw; k P P' Sw Hx.
  Theorem renamed_futures : similar_futures R eq F F'.
  Proof.
    pose proof (similar_of SB) as S0. constructor.
    - exact (si_initial S0).
    - exact (si_s_disc S0).
    - exact (si_u_disc S0).
    - exact (si_s_super S0).
    - exact (si_u_super S0).
    - intros x x' v v' w w' H1 H2 _ _ _. exact (si_s_put S0 _ _ _ _ H1 H2).
    - intros u u' v v' w w' H1 H2 _ _ _. exact (si_u_put S0 _ _ _ _ H1 H2).
    - intros u v. apply MacroMachineProofs.discriminant_tag. apply MacroMachineProofs.put_back_tag.
    - intros e e' <-. apply answers_future. atomic ltac:(fun P P' Sw Hx =>
        refine (@from_atomic _ _ _ _ _ _ _ _ w ws _ _ sh cx _ _ (proj1 P e _) (proj1 P' e _) _);
        exact (si_s_handler Sw _ _ sh sh cx cx e e Hx eq_refl eq_refl eq_refl)).
    - apply answers_future. atomic ltac:(fun P P' Sw Hx =>
        refine (@from_atomic _ _ _ _ _ _ _ _ w ws _ _ sh cx _ _ (proj1 (proj2 P) _) (proj1 (proj2 P') _) _);
        exact (si_s_entry Sw _ _ sh sh cx cx Hx eq_refl eq_refl)).
    - apply answers_future. atomic ltac:(fun P P' Sw Hx =>
        refine (@from_atomic _ _ _ _ _ _ _ _ w ws _ _ sh cx _ _ (proj1 (proj2 (proj2 P)) _) (proj1 (proj2 (proj2 P')) _) _);
        exact (si_s_exit Sw _ _ sh sh cx cx Hx eq_refl eq_refl)).
    - intros e e' <-. apply answers_future. atomic ltac:(fun P P' Sw Hx =>
        refine (@from_atomic _ _ _ _ _ _ _ _ w ws _ _ sh cx _ _ (proj1 (proj2 (proj2 (proj2 P))) e _) (proj1 (proj2 (proj2 (proj2 P'))) e _) _);
        exact (si_u_handler Sw _ _ sh sh cx cx e e Hx eq_refl eq_refl eq_refl)).
    - apply answers_future. atomic ltac:(fun P P' Sw Hx =>
        refine (@from_atomic _ _ _ _ _ _ _ _ w ws _ _ sh cx _ _ (proj1 (proj2 (proj2 (proj2 (proj2 P)))) _) (proj1 (proj2 (proj2 (proj2 (proj2 P')))) _) _);
        exact (si_u_entry Sw _ _ sh sh cx cx Hx eq_refl eq_refl)).
    - apply answers_future. atomic ltac:(fun P P' Sw Hx =>
        refine (@from_atomic _ _ _ _ _ _ _ _ w ws _ _ sh cx _ _ (proj2 (proj2 (proj2 (proj2 (proj2 P)))) _) (proj2 (proj2 (proj2 (proj2 (proj2 P')))) _) _);
        exact (si_u_exit Sw _ _ sh sh cx cx Hx eq_refl eq_refl)).
    - intros n n' e e' Hn <-. apply hook_future; [apply (rs_before_dispatch SS)| |].
      + intros p. exact (ra_dispatch_hook SA p e Hn).
      + intros p sh. exact (rb_dispatch_hook SB p sh e Hn).
    - intros n n' e e' Hn <-. apply hook_future; [apply (rs_after_dispatch SS)| |].
      + intros p. exact (ra_dispatch_hook SA p e Hn).
      + intros p sh. exact (rb_dispatch_hook SB p sh e Hn).
    - intros a a' b b' Ha Hb. apply hook_future; [apply (rs_before_transition SS)| |].
      + intros p. exact (ra_transition_hook SA p Ha Hb).
      + intros p sh. exact (rb_transition_hook SB p sh Ha Hb).
    - intros a a' b b' Ha Hb. apply hook_future; [apply (rs_after_transition SS)| |].
      + intros p. exact (ra_transition_hook SA p Ha Hb).
      + intros p sh. exact (rb_transition_hook SB p sh Ha Hb).
  Qed.
End Rename.
