(** AsyncPollProofs.v — proofs for C102. *)

From Coq Require Import String List Bool Arith Lia.
From Verif Require Import MacroSyntax MacroLower MacroGen MacroSem MacroSpec MacroPoll MacroPollSpec.
From Verif Require Import Machine Api Sim Poll AddSpec PollSimSpec AsyncSpec AsyncPollSpec.
From Verif Require Import AddPollProofs.
From Verif Require MacroBehaviour MacroBasics MacroLowerProofs MacroMachineProofs MacroPollProofs AddProofs AsyncProofs.
Import ListNotations.
Open Scope string_scope.
Open Scope list_scope.
Set Implicit Arguments.

Section Async.
  Variables World Val Sh Ev Cx : Type.
  Variables (o o' : orders) (args : list meta) (item item' : item_impl) (g g' : generated).
  Variables (B : bodies Val Sh Ev Cx g) (B' : bodies Val Sh Ev Cx g').
  Variables (FB : async_bodies World Val Sh Ev Cx g) (FB' : async_bodies World Val Sh Ev Cx g').
  Hypotheses (E : expand o args item = Done g) (CO : compiles g).
  Hypotheses (E' : expand o' args item' = Done g') (CO' : compiles g').
  Hypothesis OA : other_async item item'.
  Hypotheses (Md : g_mode g = MAwaitable) (Md' : g_mode g' = MAwaitable).
  Hypothesis SP : same_when_polled item item' B B' FB FB'.
  Hypotheses (NC : sync_not_cancelled item B) (NC' : sync_not_cancelled item' B').

  Lemma names : NoDup (map m_name (methods item)).
  Proof. exact (proj1 (MacroBehaviour.expand_compiles o args item E CO)). Qed.
  Lemma names' : NoDup (map m_name (methods item')).
  Proof. exact (proj1 (MacroBehaviour.expand_compiles o' args item' E' CO')). Qed.
  Lemma similar_of (B1 : bodies Val Sh Ev Cx g) (B2 : bodies Val Sh Ev Cx g') :
    same_bodies item B1 B2 -> similar (same_relations B1 B2).
  Proof.
    destruct (MacroBehaviour.expand_compiles o args item E CO) as (ND & c & sms & ums & X).
    destruct (MacroBehaviour.expand_compiles o' args item' E' CO') as (ND' & c' & sms' & ums' & X').
    pose proof (@AsyncProofs.settings_same args item item' g g' c c' sms ums sms' ums' X X' (or_introl (eq_trans Md' (eq_sym Md)))) as SS.
    exact (@AsyncProofs.async_similar args args item item' g g' c c' sms ums sms' ums' X X' CO CO' ND' (proj2 (proj2 OA)) SS Val Sh Ev Cx B1 B2).
  Qed.

  (** Bodies with hooks that do nothing. *)
  Definition without_hooks g0 (b : bodies Val Sh Ev Cx g0) : bodies Val Sh Ev Cx g0 :=
    @Bodies Val Sh Ev Cx g0 (b_handler b) (b_action b) (fun _ sh _ _ => (Returns tt, sh)) (fun _ sh _ _ => (Returns tt, sh))
            (fun _ => false) (b_initial b).
  Definition panics g0 (b : bodies Val Sh Ev Cx g0) : bodies Val Sh Ev Cx g0 :=
    @Bodies Val Sh Ev Cx g0 (fun _ l => (Panics, l)) (fun _ l => (Panics, l)) (fun _ sh _ _ => (Returns tt, sh)) (fun _ sh _ _ => (Returns tt, sh))
            (fun _ => false) (b_initial b).
  Lemma panics_same : same_bodies item (panics B) (panics B').
  Proof. constructor; cbn; try reflexivity; [intros; split; constructor|exact (sp_initial SP)]. Qed.

  (** The atomic meaning of a method with given polls is that of its future. *)
  Lemma by_future A it (run : ident -> list (arg Val Sh Ev Cx) -> reply A * list (arg Val Sh Ev Cx)) fut m w ws l :
    NoDup (map m_name (methods it)) -> In m (methods it) -> (m_async m = false -> fst (run (m_name m) l) <> Cancelled) ->
    polled_body it w ws run fut (m_name m) l =
    let '(o, l', _) := udrive (method_future (World := World) m run fut) w ws l in (reply_of o, l').
  Proof.
    intros N I C. unfold polled_body, method_future.
    assert (is_async it (m_name m) = m_async m) as -> by exact (@MacroPollProofs.is_async_method it N m I).
    destruct (m_async m); [reflexivity|]. rewrite MacroPollProofs.udrive_at_once. specialize (C eq_refl).
    destruct (run (m_name m) l) as [[a| |] l']; cbn in *; try reflexivity. now destruct C.
  Qed.
  Lemma polled_same w ws : same_bodies item (without_hooks (polled_bodies item B FB w ws)) (without_hooks (polled_bodies item' B' FB' w ws)).
  Proof.
    constructor; cbn; try reflexivity.
    - intros m l I K. destruct (@AsyncProofs.to_new item item' OA m I) as (m' & I' & Q).
      rewrite (@by_future _ item (b_handler B) (fb_handler FB) m w ws l names I (fun H => proj1 (NC m l I H))).
      rewrite <- (sba_name Q).
      rewrite (@by_future _ item' (b_handler B') (fb_handler FB') m' w ws l names' I' (fun H => proj1 (NC' m' l I' H))).
      pose proof (sp_handler SP I I' Q K) as F0.
      specialize (F0 w ws w ws l l (same_schedule w ws) eq_refl).
      destruct (udrive (method_future m (b_handler B) (fb_handler FB)) w ws l) as [[a l1] u].
      destruct (udrive (method_future m' (b_handler B') (fb_handler FB')) w ws l) as [[a' l1'] u'].
      destruct F0 as (Q1 & -> & _). split; [exact (option_reply Q1)|reflexivity].
    - intros m l I K. destruct (@AsyncProofs.to_new item item' OA m I) as (m' & I' & Q).
      rewrite (@by_future _ item (b_action B) (fb_action FB) m w ws l names I (fun H => proj2 (NC m l I H))).
      rewrite <- (sba_name Q).
      rewrite (@by_future _ item' (b_action B') (fb_action FB') m' w ws l names' I' (fun H => proj2 (NC' m' l I' H))).
      pose proof (sp_action SP I I' Q K) as F0.
      specialize (F0 w ws w ws l l (same_schedule w ws) eq_refl).
      destruct (udrive (method_future m (b_action B) (fb_action FB)) w ws l) as [[a l1] u].
      destruct (udrive (method_future m' (b_action B') (fb_action FB')) w ws l) as [[a' l1'] u'].
      destruct F0 as (Q1 & -> & _). now rewrite (opt_eq Q1).
    - exact (sp_initial SP).
  Qed.

  Notation R := (same_relations B B').
  Notation F := (generated_futures B FB).
  Notation F' := (generated_futures B' FB').
  (** From the atomic callbacks with the polls of [w], [ws] to the futures. *)
  Lemma from_atomic X X' A A' (RX : X -> X' -> Prop) (RA : A -> A' -> Prop)
      (f : ufut World (X * Sh * Cx) A) (f' : ufut World (X' * Sh * Cx) A') w ws x x' sh cx
      (c : reply A * X * Sh * Cx) (c' : reply A' * X' * Sh * Cx) :
    (let '(o, (y, sh1, cx1), l) := udrive f w ws (x, sh, cx) in c = (reply_of o, y, sh1, cx1)) ->
    (let '(o, (y, sh1, cx1), l) := udrive f' w ws (x', sh, cx) in c' = (reply_of o, y, sh1, cx1)) ->
    (let '(a, y, sh1, cx1) := c in let '(a', y', sh1', cx1') := c' in
     reply_rel RA a a' /\ RX y y' /\ sh1 = sh1' /\ cx1 = cx1') ->
    let '(a, s1, _) := udrive f w ws (x, sh, cx) in
    let '(a', s1', _) := udrive f' w ws (x', sh, cx) in
    opt_rel (opt_rel RA) a a' /\
    (let '(y, sh1, cx1) := s1 in let '(y', sh1', cx1') := s1' in RX y y' /\ sh1 = sh1' /\ cx1 = cx1').
  Proof.
    destruct (udrive f w ws (x, sh, cx)) as [[a [[y sh1] cx1]] l].
    destruct (udrive f' w ws (x', sh, cx)) as [[a' [[y' sh1'] cx1']] l']. intros -> -> (H1 & H2).
    split; [exact (reply_option _ _ H1)|exact H2].
  Qed.
  Lemma hook_future h run run' fut fut' :
    (forall p, future_rel eq eq eq (fut p) (fut' p)) ->
    future_rel eq eq eq (polled_hook B (codegen_hook MAwaitable h) run fut) (polled_hook (World := World) B' (codegen_hook MAwaitable h) run' fut').
  Proof.
    intros Hf. destruct h as [p|]; cbn [codegen_hook polled_hook]; [apply Hf|].
    apply answers_future. intros s s' <- w ws. rewrite !MacroPollProofs.udrive_at_once. cbn. split; [repeat constructor|reflexivity].
  Qed.
  Lemma same_hooks : exists h1 h2 h3 h4,
    (g_before_transition g = codegen_hook MAwaitable h1 /\ g_after_transition g = codegen_hook MAwaitable h2 /\
     g_before_dispatch g = codegen_hook MAwaitable h3 /\ g_after_dispatch g = codegen_hook MAwaitable h4) /\
    (g_before_transition g' = codegen_hook MAwaitable h1 /\ g_after_transition g' = codegen_hook MAwaitable h2 /\
     g_before_dispatch g' = codegen_hook MAwaitable h3 /\ g_after_dispatch g' = codegen_hook MAwaitable h4).
  Proof.
    destruct (MacroBehaviour.expand_compiles o args item E CO) as (ND & c & sms & ums & X).
    destruct (MacroBehaviour.expand_compiles o' args item' E' CO') as (ND' & c' & sms' & ums' & X').
    pose proof (@AsyncProofs.settings_same args item item' g g' c c' sms ums sms' ums' X X' (or_introl (eq_trans Md' (eq_sym Md)))) as SS.
    destruct (MacroLowerProofs.ex_hooks X) as (q1 & q2 & q3 & q4). rewrite Md in q1, q2, q3, q4.
    do 4 eexists. split; [repeat split; eassumption|].
    rewrite (ss_before_transition SS), (ss_after_transition SS), (ss_before_dispatch SS), (ss_after_dispatch SS).
    repeat split; assumption.
  Qed.

  Ltac atomic k := intros [[x sh] cx] [[x' sh'] cx'] (Hx & Hs & Hc); cbn in Hs, Hc; subst sh' cx'; intros w ws;
    pose proof (@MacroPollProofs.generated_polled World Val Sh Ev Cx g B FB o args item E names NC w ws sh cx) as P;
    pose proof (@MacroPollProofs.generated_polled World Val Sh Ev Cx g' B' FB' o' args item' E' names' NC' w ws sh cx) as P';
    pose proof (similar_of (polled_same w ws)) as Sw; k P P' Sw Hx.
  Theorem async_futures : similar_futures R eq F F'.
  Proof.
    destruct same_hooks as (h1 & h2 & h3 & h4 & (k1 & k2 & k3 & k4) & (k1' & k2' & k3' & k4')).
    pose proof (similar_of panics_same) as S0. constructor.
    - exact (si_initial S0).
    - exact (si_s_disc S0).
    - exact (si_u_disc S0).
    - exact (si_s_super S0).
    - exact (si_u_super S0).
    - intros x x' v v' w w' H1 H2 _ _ _. exact (si_s_put S0 _ _ _ _ H1 H2).
    - intros u u' v v' w w' H1 H2 _ _ _. exact (si_u_put S0 _ _ _ _ H1 H2).
    - intros u v. apply MacroMachineProofs.discriminant_tag. apply MacroMachineProofs.put_back_tag.
    - intros e e' <-. apply answers_future. atomic ltac:(fun P P' Sw Hx =>
        refine (@from_atomic _ _ _ _ _ _ _ _ w ws _ _ sh cx _ _ (proj1 P e _) (proj1 P' e _) _);
        exact (si_s_handler Sw _ _ sh sh cx cx e e Hx eq_refl eq_refl eq_refl)).
    - apply answers_future. atomic ltac:(fun P P' Sw Hx =>
        refine (@from_atomic _ _ _ _ _ _ _ _ w ws _ _ sh cx _ _ (proj1 (proj2 P) _) (proj1 (proj2 P') _) _);
        exact (si_s_entry Sw _ _ sh sh cx cx Hx eq_refl eq_refl)).
    - apply answers_future. atomic ltac:(fun P P' Sw Hx =>
        refine (@from_atomic _ _ _ _ _ _ _ _ w ws _ _ sh cx _ _ (proj1 (proj2 (proj2 P)) _) (proj1 (proj2 (proj2 P')) _) _);
        exact (si_s_exit Sw _ _ sh sh cx cx Hx eq_refl eq_refl)).
    - intros e e' <-. apply answers_future. atomic ltac:(fun P P' Sw Hx =>
        refine (@from_atomic _ _ _ _ _ _ _ _ w ws _ _ sh cx _ _ (proj1 (proj2 (proj2 (proj2 P))) e _) (proj1 (proj2 (proj2 (proj2 P'))) e _) _);
        exact (si_u_handler Sw _ _ sh sh cx cx e e Hx eq_refl eq_refl eq_refl)).
    - apply answers_future. atomic ltac:(fun P P' Sw Hx =>
        refine (@from_atomic _ _ _ _ _ _ _ _ w ws _ _ sh cx _ _ (proj1 (proj2 (proj2 (proj2 (proj2 P)))) _) (proj1 (proj2 (proj2 (proj2 (proj2 P')))) _) _);
        exact (si_u_entry Sw _ _ sh sh cx cx Hx eq_refl eq_refl)).
    - apply answers_future. atomic ltac:(fun P P' Sw Hx =>
        refine (@from_atomic _ _ _ _ _ _ _ _ w ws _ _ sh cx _ _ (proj2 (proj2 (proj2 (proj2 (proj2 P)))) _) (proj2 (proj2 (proj2 (proj2 (proj2 P')))) _) _);
        exact (si_u_exit Sw _ _ sh sh cx cx Hx eq_refl eq_refl)).
    - intros n n' e e' Hn <-. cbn [f_before_dispatch generated_futures]. rewrite k3, k3'. apply hook_future. intros p. exact (sp_dispatch_hook SP p e Hn).
    - intros n n' e e' Hn <-. cbn [f_after_dispatch generated_futures]. rewrite k4, k4'. apply hook_future. intros p. exact (sp_dispatch_hook SP p e Hn).
    - intros a a' b b' Ha Hb. cbn [f_before_transition generated_futures]. rewrite k1, k1'. apply hook_future. intros p. exact (sp_transition_hook SP p Ha Hb).
    - intros a a' b b' Ha Hb. cbn [f_after_transition generated_futures]. rewrite k2, k2'. apply hook_future. intros p. exact (sp_transition_hook SP p Ha Hb).
  Qed.
End Async.
