(** MacroPollProofs.v — C96. *)

From Coq Require Import String List Bool Arith Lia.
From Verif Require Import MacroSyntax MacroVisit MacroAnalyze MacroLower MacroGen MacroSem MacroPoll MacroPollSpec.
From Verif Require Import Machine Api Poll PaceSpec.
From Verif Require MacroCallProofs MacroMachineProofs Props8.
Import ListNotations.
Open Scope string_scope.
Open Scope list_scope.
Set Implicit Arguments.

(** ** Combinators *)
Section Combinators.
  Variable World : Type.

  Definition answer_of {A} (r : reply A) : option A := match r with Returns a => Some a | _ => None end.
  Lemma udrive_at_once {S A} (f : S -> reply A * S) (w : World) ws s :
    udrive (at_once f) w ws s = (Some (answer_of (fst (f s))), snd (f s), (w, ws)).
  Proof. destruct ws; cbn; destruct (f s) as [r s']; reflexivity. Qed.
  Lemma udrive_first {S A} (choose : S -> ufut World S A) w ws s :
    udrive (on_first_poll choose) w ws s = udrive (choose s) w ws s.
  Proof. destruct ws; reflexivity. Qed.
  Lemma udrive_borrowed {S V A} (put : S -> V -> S) s0 ws : forall (c : ufut World V A) v w s,
    udrive (uborrowed put s0 v c) w ws s =
    let '(o, v', l) := udrive c w ws v in (o, put s0 v', l).
  Proof.
    induction ws as [|w' ws IH]; intros c v w s; cbn.
    - destruct (upoll c w v); reflexivity.
    - destruct (upoll c w v) as [a v'|v' c']; [reflexivity|]. apply IH.
  Qed.

  Lemma computes_at_once {S A} (f : S -> reply A * S) :
    (forall s, fst (f s) <> Cancelled) -> computes (at_once (World := World) f) f.
  Proof.
    intros N w ws s. rewrite udrive_at_once. specialize (N s). destruct (f s) as [[a| |] s']; cbn in *; congruence.
  Qed.

  Lemma pends_at_once {S A} (f : S -> reply A * S) s k : pends 0 k (at_once (World := World) f) s.
  Proof. destruct k; intros w; cbn; destruct (f s); reflexivity. Qed.
  Lemma pends_first {S A} (choose : S -> ufut World S A) lo hi s :
    pends lo hi (choose s) s -> pends lo hi (on_first_poll choose) s.
  Proof. destruct hi; intros H w; exact (H w). Qed.
  Lemma pends_borrowed {S V A} (put : S -> V -> S) s0 hi : forall lo (c : ufut World V A) v s,
    pends lo hi c v -> pends lo hi (uborrowed put s0 v c) s.
  Proof.
    induction hi as [|hi IH]; intros lo c v s H w; specialize (H w); cbn.
    - destruct (upoll c w v); [exact H|destruct H].
    - destruct (upoll c w v) as [a v'|v' c']; [exact H|]. apply IH. exact H.
  Qed.
End Combinators.

Section Generated.
  Variable World : Type.
  Variables Val Sh Ev Cx : Type.
  Variable g : generated.
  Variable B : bodies Val Sh Ev Cx g.
  Variable FB : async_bodies World Val Sh Ev Cx g.
  Notation arg := (arg Val Sh Ev Cx).
  Notation F := (generated_futures B FB).

  (** ** The variant is kept *)
  Lemma call_keeps d A (run : ident -> list arg -> reply A * list arg) futs fields e f args awaited
      w ws (s : value Val d * Sh * Cx) :
    tag (fst (fst (snd (fst (udrive (polled_call (World := World) g d run futs fields e f args awaited) w ws s))))) = tag (fst (fst s)).
  Proof.
    unfold polled_call. destruct awaited.
    - rewrite udrive_first. destruct (all_some _) as [sls|]; [|now rewrite udrive_at_once].
      destruct (all_some _) as [as_|]; [|now rewrite udrive_at_once].
      rewrite udrive_borrowed. destruct (udrive (futs f) w ws as_) as [[o v'] l]. cbn.
      apply MacroCallProofs.write_all_tag.
    - rewrite udrive_at_once. cbn. destruct s as [[x sh] cx].
      destruct (run_call g run fields e f args (x, sh, cx)) as [r [[x' sh'] cx']] eqn:E. cbn.
      exact (MacroMachineProofs.run_call_tag _ _ _ _ _ _ _ _ _ E).
  Qed.
  Lemma handler_keeps d arms e w ws (s : value Val d * Sh * Cx) :
    tag (fst (fst (snd (fst (udrive (polled_handler B FB d arms e) w ws s))))) = tag (fst (fst s)).
  Proof.
    unfold polled_handler. rewrite udrive_first.
    destruct (select arms (tag (fst (fst s)))) as [[p [|t f args aw]]|]; try now rewrite udrive_at_once.
    apply call_keeps.
  Qed.
  Lemma action_keeps d arms w ws (s : value Val d * Sh * Cx) :
    tag (fst (fst (snd (fst (udrive (polled_action B FB d arms) w ws s))))) = tag (fst (fst s)).
  Proof.
    unfold polled_action. rewrite udrive_first.
    destruct (select arms (tag (fst (fst s)))) as [[p [|t f args aw]]|]; try now rewrite udrive_at_once.
    apply call_keeps.
  Qed.
  Theorem generated_variant_safe : variant_safe F.
  Proof.
    assert (H : forall d A (c : ufut World (value Val d * Sh * Cx) A) ,
      (forall w ws s, tag (fst (fst (snd (fst (udrive c w ws s))))) = tag (fst (fst s))) ->
      forall w ws x sh cx, match udrive c w ws (x, sh, cx) with
                           | (_, s', _) => discriminant (fst (fst s')) = discriminant x end).
    { intros d A c K w ws x sh cx. specialize (K w ws (x, sh, cx)).
      destruct (udrive c w ws (x, sh, cx)) as [[o s'] l]. apply MacroMachineProofs.discriminant_tag. exact K. }
    constructor; intros; unfold keeps; cbn; apply H; intros; first [apply handler_keeps | apply action_keeps].
  Qed.

  (** ** Calls compute calls *)
  Variables (o : orders) (args0 : list meta) (item : item_impl).
  Hypothesis E : expand o args0 item = Done g.
  Hypothesis ND : NoDup (map m_name (methods item)).
  Hypothesis Md : g_mode g = MAwaitable.

  Lemma hook_forms : forall c, In c [g_before_dispatch g; g_after_dispatch g; g_before_transition g; g_after_transition g] ->
    c = NoHook \/ exists p, c = HookFuture p.
  Proof.
    unfold expand in E. destruct (analyze args0 item) as [mo| |]; try discriminate. cbn in E.
    destruct (lower o mo) as [i| |]; try discriminate. cbn in E. injection E as <-. cbn in Md |- *.
    rewrite Md. intros c [<-|[<-|[<-|[<-|[]]]]].
    all: match goal with |- context [codegen_hook _ ?h] => destruct h; cbn; eauto end.
  Qed.

  Definition of_arms (c : code) : Prop :=
    match c with
    | EmptyBlock => True
    | Call _ f _ awaited => exists m, In m (methods item) /\ m_name m = f /\ m_async m = awaited
    end.
  Lemma arms_forms p c :
    In (p, c) (call_handler_arms (g_state_arms g)) \/
    In (p, c) (call_entry_action_arms (g_state_arms g)) \/
    In (p, c) (call_exit_action_arms (g_state_arms g)) \/
    In (p, c) (call_handler_arms (g_super_arms g)) \/
    In (p, c) (call_entry_action_arms (g_super_arms g)) \/
    In (p, c) (call_exit_action_arms (g_super_arms g)) -> of_arms c.
  Proof.
    destruct c as [|t f args aw]; [exact (fun _ => I)|]. intros H.
    exact (proj1 (@Props8.C34_awaited o args0 item g p t f args aw E ND H)).
  Qed.
  Lemma selected_forms (arms : list (pattern * code)) n p c :
    select arms n = Some (p, c) -> In (p, c) arms.
  Proof. intros H. exact (proj1 (find_some _ _ H)). Qed.

  Section Computes.
    Hypothesis AC : async_computes item B FB.
    Hypothesis NC : sync_not_cancelled item B.

    Lemma call_computes d A (run : ident -> list arg -> reply A * list arg) futs fields e f args awaited :
      (awaited = true -> computes (World := World) (futs f) (run f)) ->
      (awaited = false -> forall l, fst (run f l) <> Cancelled) ->
      computes (polled_call (World := World) g d run futs fields e f args awaited)
               (fun s => run_call g run fields e f args s).
    Proof.
      intros H1 H2. unfold polled_call. destruct awaited.
      - intros w ws s. rewrite udrive_first. unfold run_call.
        destruct (all_some _) as [sls|]; [|now rewrite udrive_at_once].
        destruct (all_some _) as [as_|]; [|now rewrite udrive_at_once].
        rewrite udrive_borrowed. specialize (H1 eq_refl w ws as_).
        destruct (udrive (futs f) w ws as_) as [[[a|] v'] l]; [|exact Logic.I]. now rewrite H1.
      - apply computes_at_once. intros s. unfold run_call. specialize (H2 eq_refl).
        destruct (all_some _) as [sls|]; [|discriminate].
        destruct (all_some _) as [as_|]; [|discriminate]. specialize (H2 as_).
        destruct (run f as_). exact H2.
    Qed.

    Lemma handler_computes d arms e :
      (forall p c, In (p, c) arms -> of_arms c) ->
      computes (polled_handler B FB d arms e)
               (curried (generated_machine B) (fun (x : value Val d) sh cx => run_handler B arms x sh cx e)).
    Proof.
      intros Ha w ws [[x sh] cx]. unfold polled_handler. rewrite udrive_first. cbn [fst].
      unfold curried, run_handler.
      destruct (select arms (tag x)) as [[p [|t f args aw]]|] eqn:Es; try (rewrite udrive_at_once; reflexivity).
      apply selected_forms in Es. destruct (Ha _ _ Es) as (m & Im & <- & <-).
      assert (C : computes (polled_call (World := World) g d (b_handler B) (fb_handler FB) (p_fields p) (Some e) (m_name m) args (m_async m))
                    (fun s => run_call g (b_handler B) (p_fields p) (Some e) (m_name m) args s)).
      { apply call_computes; intros Hm; [now apply (ac_handler AC)|]. intros l. now apply (NC m l). }
      specialize (C w ws (x, sh, cx)).
      destruct (udrive _ w ws (x, sh, cx)) as [[[a|] s'] l]; [|exact Logic.I].
      rewrite C. destruct s' as [[x' sh'] cx']. reflexivity.
    Qed.
    Lemma action_computes d arms :
      (forall p c, In (p, c) arms -> of_arms c) ->
      computes (polled_action B FB d arms)
               (curried (generated_machine B) (fun (x : value Val d) sh cx => run_action B arms x sh cx)).
    Proof.
      intros Ha w ws [[x sh] cx]. unfold polled_action. rewrite udrive_first. cbn [fst].
      unfold curried, run_action.
      destruct (select arms (tag x)) as [[p [|t f args aw]]|] eqn:Es; try (rewrite udrive_at_once; reflexivity).
      apply selected_forms in Es. destruct (Ha _ _ Es) as (m & Im & <- & <-).
      assert (C : computes (polled_call (World := World) g d (b_action B) (fb_action FB) (p_fields p) None (m_name m) args (m_async m))
                    (fun s => run_call g (b_action B) (p_fields p) None (m_name m) args s)).
      { apply call_computes; intros Hm; [now apply (ac_action AC)|]. intros l. now apply (NC m l). }
      specialize (C w ws (x, sh, cx)).
      destruct (udrive _ w ws (x, sh, cx)) as [[[a|] s'] l]; [|exact Logic.I].
      rewrite C. destruct s' as [[x' sh'] cx']. reflexivity.
    Qed.
    Lemma hook_computes c run fut :
      c = NoHook \/ (exists p, c = HookFuture p) -> (forall p, computes (fut p) (run p)) ->
      computes (polled_hook (World := World) B c run fut) (run_hook B c run).
    Proof.
      intros [->|[p ->]] H; [|exact (H p)]. apply computes_at_once. discriminate.
    Qed.

    Theorem generated_implements : implements F.
    Proof.
      constructor; intros; cbn.
      1: apply handler_computes; intros p c Hc; apply (@arms_forms p c); tauto.
      1: apply action_computes; intros p c Hc; apply (@arms_forms p c); tauto.
      1: apply action_computes; intros p c Hc; apply (@arms_forms p c); tauto.
      1: apply handler_computes; intros p c Hc; apply (@arms_forms p c); tauto.
      1: apply action_computes; intros p c Hc; apply (@arms_forms p c); tauto.
      1: apply action_computes; intros p c Hc; apply (@arms_forms p c); tauto.
      all: apply hook_computes; [apply hook_forms; cbn; tauto|intros p; first [apply (ac_dispatch AC) | apply (ac_transition AC)]].
    Qed.
  End Computes.

  (** ** What a callback does, given these polls *)
  Section Polled.
    Hypothesis NC : sync_not_cancelled item B.
    Notation PB := (polled_bodies item B FB).

    Lemma is_async_method m : In m (methods item) -> is_async item (m_name m) = m_async m.
    Proof.
      intros Im. unfold is_async. destruct (m_async m) eqn:Em.
      - apply existsb_exists. exists m. now rewrite String.eqb_refl, Em.
      - apply not_true_is_false. intros H. apply existsb_exists in H. destruct H as (m' & Im' & H).
        apply andb_true_iff in H. destruct H as [Hn Ha]. apply String.eqb_eq in Hn.
        assert (m' = m); [|congruence]. clear - ND Im Im' Hn. induction (methods item) as [|a l IH]; [destruct Im|].
        inversion ND as [|? ? N ND']; subst. destruct Im as [->|Im], Im' as [->|Im']; auto.
        + exfalso. apply N. rewrite <- Hn. now apply in_map.
        + exfalso. apply N. rewrite Hn. now apply in_map.
    Qed.
    Lemma call_polled d A (run : ident -> list arg -> reply A * list arg) futs fields e m args w ws (s : value Val d * Sh * Cx) :
      In m (methods item) -> (m_async m = false -> forall l, fst (run (m_name m) l) <> Cancelled) ->
      let '(o, s', l) := udrive (polled_call (World := World) g d run futs fields e (m_name m) args (m_async m)) w ws s in
      run_call g (polled_body item w ws run futs) fields e (m_name m) args s = (reply_of o, s') /\
      (m_async m = false -> l = (w, ws)).
    Proof.
      intros Im Hc. unfold polled_call, run_call, polled_body. rewrite (is_async_method m Im).
      destruct (m_async m).
      - rewrite udrive_first.
        destruct (all_some _) as [sls|]; [|rewrite udrive_at_once; split; [reflexivity|discriminate]].
        destruct (all_some _) as [as_|]; [|rewrite udrive_at_once; split; [reflexivity|discriminate]].
        rewrite udrive_borrowed. destruct (udrive (futs (m_name m)) w ws as_) as [[o1 v'] l]. split; [reflexivity|discriminate].
      - rewrite udrive_at_once. specialize (Hc eq_refl).
        destruct (all_some _) as [sls|]; [|split; reflexivity].
        destruct (all_some _) as [as_|]; [|split; reflexivity].
        specialize (Hc as_). destruct (run (m_name m) as_) as [[a| |] l]; cbn in *; (split; [|reflexivity]); try reflexivity; now destruct Hc.
    Qed.
    Lemma handler_polled d arms e w ws x sh cx :
      (forall p c, In (p, c) arms -> of_arms c) ->
      let '(o, (x', sh', cx'), l) := udrive (polled_handler B FB d arms e) w ws (x, sh, cx) in
      run_handler (PB w ws) arms x sh cx e = (reply_of o, x', sh', cx').
    Proof.
      intros Ha. unfold polled_handler. rewrite udrive_first. cbn [fst]. unfold run_handler.
      destruct (select arms (tag x)) as [[p [|t f args aw]]|] eqn:Es; try (rewrite udrive_at_once; reflexivity).
      apply selected_forms in Es. destruct (Ha _ _ Es) as (m & Im & <- & <-).
      pose proof (@call_polled d _ (b_handler B) (fb_handler FB) (p_fields p) (Some e) m args w ws (x, sh, cx) Im
                    (fun H l => proj1 (NC m l Im H))) as C.
      destruct (udrive _ w ws (x, sh, cx)) as [[o1 [[x' sh'] cx']] l]. destruct C as [C _]. cbn [b_handler polled_bodies].
      rewrite C. reflexivity.
    Qed.
    Lemma action_polled d arms w ws x sh cx :
      (forall p c, In (p, c) arms -> of_arms c) ->
      let '(o, (x', sh', cx'), l) := udrive (polled_action B FB d arms) w ws (x, sh, cx) in
      run_action (PB w ws) arms x sh cx = (reply_of o, x', sh', cx').
    Proof.
      intros Ha. unfold polled_action. rewrite udrive_first. cbn [fst]. unfold run_action.
      destruct (select arms (tag x)) as [[p [|t f args aw]]|] eqn:Es; try (rewrite udrive_at_once; reflexivity).
      apply selected_forms in Es. destruct (Ha _ _ Es) as (m & Im & <- & <-).
      pose proof (@call_polled d _ (b_action B) (fb_action FB) (p_fields p) None m args w ws (x, sh, cx) Im
                    (fun H l => proj2 (NC m l Im H))) as C.
      destruct (udrive _ w ws (x, sh, cx)) as [[o1 [[x' sh'] cx']] l]. destruct C as [C _]. cbn [b_action polled_bodies].
      rewrite C. reflexivity.
    Qed.
    Theorem generated_polled w ws sh cx :
      (forall e x, let '(o, (x', sh', cx'), l) := udrive (f_s_handler F e) w ws (x, sh, cx) in
         s_handler (generated_machine (PB w ws)) x sh cx e = (reply_of o, x', sh', cx')) /\
      (forall x, let '(o, (x', sh', cx'), l) := udrive (f_s_entry F) w ws (x, sh, cx) in
         s_entry (generated_machine (PB w ws)) x sh cx = (reply_of o, x', sh', cx')) /\
      (forall x, let '(o, (x', sh', cx'), l) := udrive (f_s_exit F) w ws (x, sh, cx) in
         s_exit (generated_machine (PB w ws)) x sh cx = (reply_of o, x', sh', cx')) /\
      (forall e x, let '(o, (x', sh', cx'), l) := udrive (f_u_handler F e) w ws (x, sh, cx) in
         u_handler (generated_machine (PB w ws)) x sh cx e = (reply_of o, x', sh', cx')) /\
      (forall x, let '(o, (x', sh', cx'), l) := udrive (f_u_entry F) w ws (x, sh, cx) in
         u_entry (generated_machine (PB w ws)) x sh cx = (reply_of o, x', sh', cx')) /\
      (forall x, let '(o, (x', sh', cx'), l) := udrive (f_u_exit F) w ws (x, sh, cx) in
         u_exit (generated_machine (PB w ws)) x sh cx = (reply_of o, x', sh', cx')).
    Proof.
      split; [|split; [|split; [|split; [|split]]]]; intros; cbn;
        first [apply handler_polled | apply action_polled]; intros p c Hc; apply (@arms_forms p c); tauto.
    Qed.
  End Polled.

  (** ** How often calls are pending *)
  Lemma call_pends d A (run : ident -> list arg -> reply A * list arg) futs fields e f args (s : value Val d * Sh * Cx) k :
    (forall l, pends (World := World) 0 k (futs f) l) ->
    pends 0 k (polled_call (World := World) g d run futs fields e f args true) s.
  Proof.
    intros H. unfold polled_call. apply pends_first.
    destruct (all_some _) as [sls|]; [|apply pends_at_once].
    destruct (all_some _) as [as_|]; [|apply pends_at_once]. apply pends_borrowed, H.
  Qed.
  Section Paced.
    Variable k : nat.
    Hypothesis AP : async_paced item FB k.

    Lemma handler_pends d arms e (s : value Val d * Sh * Cx) :
      (forall p c, In (p, c) arms -> of_arms c) -> pends 0 k (polled_handler B FB d arms e) s.
    Proof.
      intros Ha. unfold polled_handler. apply pends_first.
      destruct (select arms (tag (fst (fst s)))) as [[p [|t f args aw]]|] eqn:Es; try apply pends_at_once.
      apply selected_forms in Es. destruct (Ha _ _ Es) as (m & Im & <- & <-).
      destruct (m_async m) eqn:Em; [|apply pends_at_once].
      apply call_pends. intros l. now apply (ap_handler AP).
    Qed.
    Lemma action_pends d arms (s : value Val d * Sh * Cx) :
      (forall p c, In (p, c) arms -> of_arms c) -> pends 0 k (polled_action B FB d arms) s.
    Proof.
      intros Ha. unfold polled_action. apply pends_first.
      destruct (select arms (tag (fst (fst s)))) as [[p [|t f args aw]]|] eqn:Es; try apply pends_at_once.
      apply selected_forms in Es. destruct (Ha _ _ Es) as (m & Im & <- & <-).
      destruct (m_async m) eqn:Em; [|apply pends_at_once].
      apply call_pends. intros l. now apply (ap_action AP).
    Qed.
    Theorem generated_paced : paced (fun _ => 0) (fun _ => k) F.
    Proof.
      assert (Hk : forall c run fut sh, c = NoHook \/ (exists p, c = HookFuture p) ->
                (forall p, pends 0 k (fut p) sh) -> pends 0 k (polled_hook (World := World) B c run fut) sh).
      { intros c run fut sh [->|[p ->]] H; [apply pends_at_once|exact (H p)]. }
      constructor; intros; cbn.
      1: apply handler_pends; intros p c Hc; apply (@arms_forms p c); tauto.
      1: apply action_pends; intros p c Hc; apply (@arms_forms p c); tauto.
      1: apply action_pends; intros p c Hc; apply (@arms_forms p c); tauto.
      1: apply handler_pends; intros p c Hc; apply (@arms_forms p c); tauto.
      1: apply action_pends; intros p c Hc; apply (@arms_forms p c); tauto.
      1: apply action_pends; intros p c Hc; apply (@arms_forms p c); tauto.
      all: apply Hk; [apply hook_forms; cbn; tauto|intros p; first [apply (ap_dispatch AP) | apply (ap_transition AP)]].
    Qed.
  End Paced.
End Generated.
