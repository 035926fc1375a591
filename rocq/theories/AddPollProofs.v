(** AddPollProofs.v — proofs for C100. *)

From Coq Require Import String List Bool Arith Lia.
From Verif Require Import MacroSyntax MacroLower MacroGen MacroSem MacroSpec MacroPoll MacroPollSpec.
From Verif Require Import Machine Api Sim Poll AddSpec PollSimSpec AddPollSpec.
From Verif Require MacroBehaviour MacroMachineProofs MacroPollProofs AddProofs.
Import ListNotations.
Open Scope string_scope.
Open Scope list_scope.
Set Implicit Arguments.

(** If the answers correspond however often the futures are polled, then so do the polls that are
    not made. *)
Section Unused.
  Variable W : Type.
  Variables S S' A A' : Type.
  Variables (RS : S -> S' -> Prop) (RA : A -> A' -> Prop).
  Definition answers (f : ufut W S A) (f' : ufut W S' A') (s : S) (s' : S') : Prop :=
    forall w ws,
      let '(a, s1, _) := udrive f w ws s in
      let '(a', s1', _) := udrive f' w ws s' in
      opt_rel (opt_rel RA) a a' /\ RS s1 s1'.
  Lemma unused_same ws : forall f f' s s' w, answers f f' s s' -> snd (udrive f w ws s) = snd (udrive f' w ws s').
  Proof.
    induction ws as [|v ws IH]; intros f f' s s' w H.
    - cbn. destruct (upoll f w s), (upoll f' w s'); reflexivity.
    - pose proof (H w []) as H0. cbn in H0. cbn [udrive].
      destruct (upoll f w s) as [a s1|s1 f1] eqn:E1, (upoll f' w s') as [a' s1'|s1' f1'] eqn:E2.
      + reflexivity.
      + destruct H0 as [H0 _]. inversion H0.
      + destruct H0 as [H0 _]. inversion H0.
      + apply IH. intros w' ws'. specialize (H w (w' :: ws')). cbn [udrive] in H. rewrite E1, E2 in H. exact H.
  Qed.
  Lemma answers_future f f' : (forall s s', RS s s' -> answers f f' s s') -> future_rel eq RS RA f f'.
  Proof.
    intros H w ws w' ws' s s' [Hw Hws] Hs. cbn in Hw, Hws. subst w'.
    assert (ws' = ws) as -> by (clear - Hws; induction Hws; congruence).
    pose proof (H s s' Hs w ws) as P. pose proof (unused_same ws w (H s s' Hs)) as U.
    destruct (udrive f w ws s) as [[a s1] l]. destruct (udrive f' w ws s') as [[a' s1'] l'].
    cbn in U. subst l'. destruct P as [P Q]. split; [exact P|]. split; [exact Q|]. split; [reflexivity|].
    destruct l as [w0 l]. cbn. clear. induction l; constructor; auto.
  Qed.
End Unused.

Lemma same_schedule {W} (w : W) ws : schedule_rel eq (w, ws) (w, ws).
Proof. split; [reflexivity|]. cbn. induction ws; constructor; auto. Qed.
Lemma reply_option {A B} (RA : A -> B -> Prop) a b : reply_rel RA (reply_of a) (reply_of b) -> opt_rel (opt_rel RA) a b.
Proof. destruct a as [[a|]|], b as [[b|]|]; cbn; intros H; inversion H; subst; repeat constructor; assumption. Qed.
Lemma option_reply {A B} (RA : A -> B -> Prop) a b : opt_rel (opt_rel RA) a b -> reply_rel RA (reply_of a) (reply_of b).
Proof. intros [|? ? [|? ? ?]]; constructor. assumption. Qed.
Lemma opt_eq {A} (a b : option (option A)) : opt_rel (opt_rel eq) a b -> a = b.
Proof. intros [|? ? [|? ? ->]]; reflexivity. Qed.

Section Add.
  Variables World Val Sh Ev Cx : Type.
  Variables (o o' : orders) (args args' : list meta) (item item' : item_impl) (g g' : generated).
  Variables (B : bodies Val Sh Ev Cx g) (B' : bodies Val Sh Ev Cx g').
  Variables (FB : async_bodies World Val Sh Ev Cx g) (FB' : async_bodies World Val Sh Ev Cx g').
  Hypotheses (E : expand o args item = Done g) (CO : compiles g).
  Hypotheses (E' : expand o' args' item' = Done g') (CO' : compiles g').
  Hypothesis EX : extends item item'.
  Hypothesis SS : same_settings g g'.
  Hypothesis SB : same_bodies item B B'.
  Hypothesis SA : same_async_bodies item FB FB'.
  Hypotheses (NC : sync_not_cancelled item B) (NC' : sync_not_cancelled item' B').

  Lemma names : NoDup (map m_name (methods item)).
  Proof. exact (proj1 (MacroBehaviour.expand_compiles o args item E CO)). Qed.
  Lemma names' : NoDup (map m_name (methods item')).
  Proof. exact (proj1 (MacroBehaviour.expand_compiles o' args' item' E' CO')). Qed.
  Lemma similar_of (B1 : bodies Val Sh Ev Cx g) (B2 : bodies Val Sh Ev Cx g') :
    same_bodies item B1 B2 -> similar (same_relations B1 B2).
  Proof.
    destruct (MacroBehaviour.expand_compiles o args item E CO) as (ND & c & sms & ums & X).
    destruct (MacroBehaviour.expand_compiles o' args' item' E' CO') as (ND' & c' & sms' & ums' & X').
    exact (@AddProofs.extended_similar args args' item item' g g' c c' sms ums sms' ums' X X' CO CO' ND ND' EX SS Val Sh Ev Cx B1 B2).
  Qed.
  Lemma async_both m : In m (methods item) -> part_of_machine m ->
    is_async item (m_name m) = m_async m /\ is_async item' (m_name m) = m_async m.
  Proof.
    intros I P. split.
    - exact (@MacroPollProofs.is_async_method item names m I).
    - exact (@MacroPollProofs.is_async_method item' names' m (EX I P)).
  Qed.
  Lemma polled_same w ws : same_bodies item (polled_bodies item B FB w ws) (polled_bodies item' B' FB' w ws).
  Proof.
    destruct SB as [H1 H2 H3 H4 H5 H6]. constructor; cbn; try assumption.
    - intros m l I K. assert (P : part_of_machine m) by (unfold part_of_machine; tauto).
      destruct (async_both I P) as [A1 A2]. unfold polled_body. rewrite A1, A2.
      destruct (m_async m) eqn:Em; [|exact (H1 m l I K)].
      assert (Q : future_rel eq eq (response_rel (@same_value Val (g_state_variants g) (g_state_variants g'))) (fb_handler FB (m_name m)) (fb_handler FB' (m_name m))) by (apply (sa_handler SA); assumption).
      specialize (Q w ws w ws l l (same_schedule w ws) eq_refl).
      destruct (udrive (fb_handler FB (m_name m)) w ws l) as [[a l1] u].
      destruct (udrive (fb_handler FB' (m_name m)) w ws l) as [[a' l1'] u'].
      destruct Q as (Q1 & -> & _). split; [exact (option_reply Q1)|reflexivity].
    - intros m l I K. assert (P : part_of_machine m) by (unfold part_of_machine; tauto).
      destruct (async_both I P) as [A1 A2]. unfold polled_body. rewrite A1, A2.
      destruct (m_async m) eqn:Em; [|exact (H2 m l I K)].
      assert (Q : future_rel eq eq eq (fb_action FB (m_name m)) (fb_action FB' (m_name m))) by (apply (sa_action SA); assumption).
      specialize (Q w ws w ws l l (same_schedule w ws) eq_refl).
      destruct (udrive (fb_action FB (m_name m)) w ws l) as [[a l1] u].
      destruct (udrive (fb_action FB' (m_name m)) w ws l) as [[a' l1'] u'].
      destruct Q as (Q1 & -> & _). now rewrite (opt_eq Q1).
  Qed.

  Notation R := (same_relations B B').
  Notation F := (generated_futures B FB).
  Notation F' := (generated_futures B' FB').
  (** From the atomic callbacks with the polls of [w], [ws] to the futures. *)
  Lemma from_atomic X X' A A' (RX : X -> X' -> Prop) (RA : A -> A' -> Prop)
      (f : ufut World (X * Sh * Cx) A) (f' : ufut World (X' * Sh * Cx) A') w ws x x' sh cx
      (c : reply A * X * Sh * Cx) (c' : reply A' * X' * Sh * Cx) :
    (let '(o, (y, sh1, cx1), l) := udrive f w ws (x, sh, cx) in c = (reply_of o, y, sh1, cx1)) ->
    (let '(o, (y, sh1, cx1), l) := udrive f' w ws (x', sh, cx) in c' = (reply_of o, y, sh1, cx1)) ->
    (let '(a, y, sh1, cx1) := c in let '(a', y', sh1', cx1') := c' in
     reply_rel RA a a' /\ RX y y' /\ sh1 = sh1' /\ cx1 = cx1') ->
    let '(a, s1, _) := udrive f w ws (x, sh, cx) in
    let '(a', s1', _) := udrive f' w ws (x', sh, cx) in
    opt_rel (opt_rel RA) a a' /\
    (let '(y, sh1, cx1) := s1 in let '(y', sh1', cx1') := s1' in RX y y' /\ sh1 = sh1' /\ cx1 = cx1').
  Proof.
    destruct (udrive f w ws (x, sh, cx)) as [[a [[y sh1] cx1]] l].
    destruct (udrive f' w ws (x', sh, cx)) as [[a' [[y' sh1'] cx1']] l']. intros -> -> (H1 & H2).
    split; [exact (reply_option _ _ H1)|exact H2].
  Qed.
  Lemma hook_future c c' run run' fut fut' :
    c' = c ->
    (forall p, future_rel eq eq eq (fut p) (fut' p)) -> (forall p (sh : Sh), run' p sh = run p sh) ->
    future_rel eq eq eq (polled_hook B c run fut) (polled_hook (World := World) B' c' run' fut').
  Proof.
    intros -> Hf Hr. unfold polled_hook.
    assert (G : forall c, future_rel eq eq eq (at_once (World := World) (run_hook B c run)) (at_once (run_hook B' c run'))).
    { intros c0. apply answers_future. intros s s' <- w ws. rewrite !MacroPollProofs.udrive_at_once.
      assert (run_hook B' c0 run' s = run_hook B c0 run s) as ->.
      { unfold run_hook. destruct c0 as [|p|p]; [reflexivity| |apply Hr].
        rewrite (sb_async SB). destruct (b_async B p); [reflexivity|apply Hr]. }
      destruct (run_hook B c0 run s) as [r s1]. cbn. split; [|reflexivity]. destruct r; repeat constructor. }
    destruct c as [|p|p]; [apply G|apply G|apply Hf].
  Qed.

  Ltac atomic k := intros [[x sh] cx] [[x' sh'] cx'] (Hx & Hs & Hc); cbn in Hs, Hc; subst sh' cx'; intros w ws;
    pose proof (@MacroPollProofs.generated_polled World Val Sh Ev Cx g B FB o args item E names NC w ws sh cx) as P;
    pose proof (@MacroPollProofs.generated_polled World Val Sh Ev Cx g' B' FB' o' args' item' E' names' NC' w ws sh cx) as P';
    pose proof (similar_of (polled_same w ws)) as Sw; k P P' Sw Hx.
  Theorem added_futures : similar_futures R eq F F'.
  Proof.
    pose proof (similar_of SB) as S0. constructor.
    - exact (si_initial S0).
    - exact (si_s_disc S0).
    - exact (si_u_disc S0).
    - exact (si_s_super S0).
    - exact (si_u_super S0).
    - intros x x' v v' w w' H1 H2 _ _ _. exact (si_s_put S0 _ _ _ _ H1 H2).
    - intros u u' v v' w w' H1 H2 _ _ _. exact (si_u_put S0 _ _ _ _ H1 H2).
    - intros u v. apply MacroMachineProofs.discriminant_tag. apply MacroMachineProofs.put_back_tag.
    - intros e e' <-. apply answers_future. atomic ltac:(fun P P' Sw Hx =>
        refine (@from_atomic _ _ _ _ _ _ _ _ w ws _ _ sh cx _ _ (proj1 P e _) (proj1 P' e _) _);
        exact (si_s_handler Sw _ _ sh sh cx cx e e Hx eq_refl eq_refl eq_refl)).
    - apply answers_future. atomic ltac:(fun P P' Sw Hx =>
        refine (@from_atomic _ _ _ _ _ _ _ _ w ws _ _ sh cx _ _ (proj1 (proj2 P) _) (proj1 (proj2 P') _) _);
        exact (si_s_entry Sw _ _ sh sh cx cx Hx eq_refl eq_refl)).
    - apply answers_future. atomic ltac:(fun P P' Sw Hx =>
        refine (@from_atomic _ _ _ _ _ _ _ _ w ws _ _ sh cx _ _ (proj1 (proj2 (proj2 P)) _) (proj1 (proj2 (proj2 P')) _) _);
        exact (si_s_exit Sw _ _ sh sh cx cx Hx eq_refl eq_refl)).
    - intros e e' <-. apply answers_future. atomic ltac:(fun P P' Sw Hx =>
        refine (@from_atomic _ _ _ _ _ _ _ _ w ws _ _ sh cx _ _ (proj1 (proj2 (proj2 (proj2 P))) e _) (proj1 (proj2 (proj2 (proj2 P'))) e _) _);
        exact (si_u_handler Sw _ _ sh sh cx cx e e Hx eq_refl eq_refl eq_refl)).
    - apply answers_future. atomic ltac:(fun P P' Sw Hx =>
        refine (@from_atomic _ _ _ _ _ _ _ _ w ws _ _ sh cx _ _ (proj1 (proj2 (proj2 (proj2 (proj2 P)))) _) (proj1 (proj2 (proj2 (proj2 (proj2 P')))) _) _);
        exact (si_u_entry Sw _ _ sh sh cx cx Hx eq_refl eq_refl)).
    - apply answers_future. atomic ltac:(fun P P' Sw Hx =>
        refine (@from_atomic _ _ _ _ _ _ _ _ w ws _ _ sh cx _ _ (proj2 (proj2 (proj2 (proj2 (proj2 P)))) _) (proj2 (proj2 (proj2 (proj2 (proj2 P')))) _) _);
        exact (si_u_exit Sw _ _ sh sh cx cx Hx eq_refl eq_refl)).
    - intros n n' e e' Hn <-. apply hook_future; [apply (ss_before_dispatch SS)| |].
      + intros p. exact (sa_dispatch_hook SA p e Hn).
      + intros p sh. exact (sb_dispatch_hook SB p sh e Hn).
    - intros n n' e e' Hn <-. apply hook_future; [apply (ss_after_dispatch SS)| |].
      + intros p. exact (sa_dispatch_hook SA p e Hn).
      + intros p sh. exact (sb_dispatch_hook SB p sh e Hn).
    - intros a a' b b' Ha Hb. apply hook_future; [apply (ss_before_transition SS)| |].
      + intros p. exact (sa_transition_hook SA p Ha Hb).
      + intros p sh. exact (sb_transition_hook SB p sh Ha Hb).
    - intros a a' b b' Ha Hb. apply hook_future; [apply (ss_after_transition SS)| |].
      + intros p. exact (sa_transition_hook SA p Ha Hb).
      + intros p sh. exact (sb_transition_hook SB p sh Ha Hb).
  Qed.
End Add.
