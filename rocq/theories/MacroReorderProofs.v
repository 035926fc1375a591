(** MacroReorderProofs.v — two expansions that differ in the order of variants, constructors
    and arms behave the same. *)

From Coq Require Import String Ascii List Bool Arith Lia Permutation.
From Verif Require Import Machine Api Sim.
From Verif Require Import MacroSyntax MacroVisit MacroAnalyze MacroLower MacroGen MacroSem.
From Verif Require Import MacroSpec MacroOrderSpec MacroBasics MacroExpandProofs MacroLowerProofs MacroBehaviour.
Import ListNotations.
Open Scope string_scope.
Open Scope list_scope.
Set Implicit Arguments.

Lemma find_perm A (key : A -> ident) n l l' :
  NoDup (map key l) -> Permutation l l' ->
  find (fun a => (key a =? n)%string) l = find (fun a => (key a =? n)%string) l'.
Proof.
  intros ND P. revert ND. induction P as [|a l l' P IH|a b l|l1 l2 l3 P1 IH1 P2 IH2]; cbn; intros ND.
  - reflexivity.
  - inversion ND; subst. rewrite IH; auto.
  - inversion ND as [|? ? N ND']; subst. cbn in N.
    destruct (String.eqb_spec (key a) n) as [Ea|], (String.eqb_spec (key b) n) as [Eb|]; try reflexivity.
    exfalso. apply N. left. congruence.
  - rewrite IH1 by exact ND. apply IH2. eapply Permutation_NoDup; [|exact ND]. now apply Permutation_map.
Qed.
Lemma fields_of_perm d d' n : NoDup (map v_name d) -> Permutation d d' -> fields_of d n = fields_of d' n.
Proof. intros ND P. unfold fields_of. now rewrite (find_perm v_name n ND P). Qed.
Lemma select_perm T (l l' : list (pattern * T)) n :
  NoDup (map (fun a => p_variant (fst a)) l) -> Permutation l l' -> select l n = select l' n.
Proof. intros ND P. exact (find_perm (fun a => p_variant (fst a)) n ND P). Qed.

(** ** [compiles] *)
Lemma arms_ok_reordered g g' a a' :
  g_impl g' = g_impl g -> g_event_ident g' = g_event_ident g -> g_context_ident g' = g_context_ident g ->
  arms_reordered a a' -> arms_ok g a -> arms_ok g' a'.
Proof.
  intros I E C [P1 P2 P3 P4] (H1 & H2 & H3 & H4).
  assert (K : forall p b c, call_ok g p b c -> call_ok g' p b c).
  { intros p b [|t f args aw]; cbn; [auto|]. unfold async_method. now rewrite I, E, C. }
  split; [|split; [|split]].
  - intros p c J. apply K, H1. eapply Permutation_in; [apply Permutation_sym, P1|exact J].
  - intros p c J. apply K, H2. eapply Permutation_in; [apply Permutation_sym, P2|exact J].
  - intros p c J. apply K, H3. eapply Permutation_in; [apply Permutation_sym, P3|exact J].
  - intros p q J. apply H4. eapply Permutation_in; [apply Permutation_sym, P4|exact J].
Qed.
Lemma compiles_reordered g g' : reordered g g' -> compiles g -> compiles g'.
Proof.
  intros R [C1 C2 C3 C4 C5 C6 C7]. constructor.
  - now rewrite (ro_impl R).
  - eapply Permutation_NoDup; [apply Permutation_map, (ro_state_variants R)|exact C2].
  - eapply Permutation_NoDup; [apply Permutation_map, (ro_super_variants R)|exact C3].
  - intros v I. apply C4. unfold all_variants in *. apply in_app_iff in I. apply in_app_iff.
    destruct I as [I|I]; [left|right].
    + eapply Permutation_in; [apply Permutation_sym, (ro_state_variants R)|exact I].
    + eapply Permutation_in; [apply Permutation_sym, (ro_super_variants R)|exact I].
  - now rewrite (ro_event_ident R), (ro_context_ident R).
  - eapply arms_ok_reordered; [apply R|apply R|apply R|apply R|exact C6].
  - eapply arms_ok_reordered; [apply R|apply R|apply R|apply R|exact C7].
Qed.

(** ** Values *)
Section Values.
  Variable Val : Type.
  Variables d d' : enum.
  Hypothesis F : forall n, fields_of d n = fields_of d' n.

  Lemma alike_field_index (x : value Val d) (x' : value Val d') f : alike x x' -> field_index x f = field_index x' f.
  Proof. intros [T _]. unfold field_index. now rewrite T, F. Qed.
  Lemma alike_get (x : value Val d) (x' : value Val d') f : alike x x' -> get_field x f = get_field x' f.
  Proof. intros A. unfold get_field. rewrite (alike_field_index f A). destruct A as [_ V]. now rewrite V. Qed.
  Lemma alike_make n (vs : list Val) : alike_option (make d n vs) (make d' n vs).
  Proof.
    destruct (make d n vs) as [x|] eqn:E, (make d' n vs) as [x'|] eqn:E'; cbn; auto.
    - apply make_inv in E. apply make_inv in E'. split; intuition congruence.
    - destruct (make_inv _ _ E) as [T V]. pose proof (shape_ok x) as S. rewrite T, V in S.
      unfold shaped in S. rewrite F in S. destruct (@make_some _ d' n vs S) as [y [Y _]]. congruence.
    - destruct (make_inv _ _ E') as [T V]. pose proof (shape_ok x') as S. rewrite T, V in S.
      unfold shaped in S. rewrite <- F in S. destruct (@make_some _ d n vs S) as [y [Y _]]. congruence.
  Qed.
  Lemma alike_with_vals (x : value Val d) (x' : value Val d') vs : alike x x' -> alike (with_vals x vs) (with_vals x' vs).
  Proof.
    intros A. unfold with_vals. pose proof (alike_make (tag x) vs) as M. destruct A as [T V].
    rewrite <- T. destruct (make d (tag x) vs), (make d' (tag x) vs); cbn in M; try contradiction; [exact M|].
    split; assumption.
  Qed.
  Lemma alike_set (x : value Val d) (x' : value Val d') f v : alike x x' -> alike (set_field x f v) (set_field x' f v).
  Proof.
    intros A. unfold set_field. rewrite (alike_field_index f A). destruct (field_index x' f); [|exact A].
    destruct A as [T V]. rewrite V. now apply alike_with_vals.
  Qed.
  (** Moving a value to the other enum. *)
  Lemma move_ok (x : value Val d) : shaped d' (tag x) (vals x) = true.
  Proof. pose proof (shape_ok x) as S. unfold shaped in *. now rewrite <- F. Qed.
  Definition move (x : value Val d) : value Val d' := Value d' (tag x) (vals x) (move_ok x).
  Lemma alike_move x : alike x (move x).
  Proof. now split. Qed.
End Values.

Lemma discriminant_tag Val d (x y : value Val d) : discriminant x = discriminant y <-> tag x = tag y.
Proof.
  unfold discriminant. split; [|now intros ->].
  destruct (value_variant x) as (v & Iv & Nv & _), (value_variant y) as (w & Iw & Nw & _).
  destruct (position (fun u => (v_name u =? tag x)%string) d) as [n|] eqn:E.
  2:{ rewrite position_none in E. specialize (E v Iv). apply String.eqb_neq in E. congruence. }
  destruct (position (fun u => (v_name u =? tag y)%string) d) as [k|] eqn:E'.
  2:{ rewrite position_none in E'. specialize (E' w Iw). apply String.eqb_neq in E'. congruence. }
  intros ->. destruct (position_some _ _ E) as [a [Na Ta]], (position_some _ _ E') as [b [Nb Tb]].
  apply String.eqb_eq in Ta. apply String.eqb_eq in Tb. congruence.
Qed.

(** ** The same code *)
Record same_code (g g' : generated) : Prop := {
  sc_states : forall n, fields_of (g_state_variants g) n = fields_of (g_state_variants g') n;
  sc_supers : forall n, fields_of (g_super_variants g) n = fields_of (g_super_variants g') n;
  sc_event : g_event_ident g' = g_event_ident g;
  sc_context : g_context_ident g' = g_context_ident g;
  sc_initial : g_initial g' = g_initial g;
  sc_before_transition : g_before_transition g' = g_before_transition g;
  sc_after_transition : g_after_transition g' = g_after_transition g;
  sc_before_dispatch : g_before_dispatch g' = g_before_dispatch g;
  sc_after_dispatch : g_after_dispatch g' = g_after_dispatch g;
  sc_s_handler : forall n, select (call_handler_arms (g_state_arms g)) n = select (call_handler_arms (g_state_arms g')) n;
  sc_s_entry : forall n, select (call_entry_action_arms (g_state_arms g)) n = select (call_entry_action_arms (g_state_arms g')) n;
  sc_s_exit : forall n, select (call_exit_action_arms (g_state_arms g)) n = select (call_exit_action_arms (g_state_arms g')) n;
  sc_s_super : forall n, select (superstate_arms (g_state_arms g)) n = select (superstate_arms (g_state_arms g')) n;
  sc_u_handler : forall n, select (call_handler_arms (g_super_arms g)) n = select (call_handler_arms (g_super_arms g')) n;
  sc_u_entry : forall n, select (call_entry_action_arms (g_super_arms g)) n = select (call_entry_action_arms (g_super_arms g')) n;
  sc_u_exit : forall n, select (call_exit_action_arms (g_super_arms g)) n = select (call_exit_action_arms (g_super_arms g')) n;
  sc_u_super : forall n, select (superstate_arms (g_super_arms g)) n = select (superstate_arms (g_super_arms g')) n
}.

Section Same.
  Variables Val Sh Ev Cx : Type.
  Variables g g' : generated.
  Hypothesis C : same_code g g'.
  Variable B : bodies Val Sh Ev Cx g.
  Variable B' : bodies Val Sh Ev Cx g'.
  Hypothesis SB : same_bodies B B'.

  Section Calls.
    Variables d d' : enum.
    Hypothesis F : forall n, fields_of d n = fields_of d' n.

    Definition alike_store (s : store Val Sh Cx d) (s' : store Val Sh Cx d') : Prop :=
      alike (fst (fst s)) (fst (fst s')) /\ snd (fst s) = snd (fst s') /\ snd s = snd s'.
    Lemma read_alike s s' e sl : alike_store s s' -> read (Ev := Ev) s e sl = read s' e sl.
    Proof.
      destruct s as [[x sh] cx], s' as [[x' sh'] cx']. intros (A & E1 & E2). cbn in *. subst.
      destruct sl; cbn; try reflexivity. now rewrite (alike_get F f A).
    Qed.
    Lemma write_alike s s' sl (a : arg Val Sh Ev Cx) : alike_store s s' -> alike_store (write s sl a) (write s' sl a).
    Proof.
      destruct s as [[x sh] cx], s' as [[x' sh'] cx']. intros (A & E1 & E2). cbn in A, E1, E2. subst.
      destruct sl, a; cbn; split; auto; cbn. now apply alike_set.
    Qed.
    Lemma write_all_alike sls : forall s s' (l : list (arg Val Sh Ev Cx)), alike_store s s' ->
      alike_store (write_all s sls l) (write_all s' sls l).
    Proof.
      induction sls as [|sl sls IH]; intros s s' [|a l] A; cbn; auto. apply IH. now apply write_alike.
    Qed.
    Lemma resolve_same fs b i : resolve g fs b i = resolve g' fs b i.
    Proof. unfold resolve. now rewrite (sc_event C), (sc_context C). Qed.
    Lemma run_call_same A A' (P : reply A -> reply A' -> Prop) run run' fs (e : option Ev) f args s s' :
      P Panics Panics ->
      (forall f l, P (fst (run f l)) (fst (run' f l)) /\ snd (run f l) = snd (run' f l)) ->
      alike_store s s' ->
      P (fst (run_call g run fs e f args s)) (fst (run_call g' run' fs e f args s')) /\
      alike_store (snd (run_call g run fs e f args s)) (snd (run_call g' run' fs e f args s')).
    Proof.
      intros PP H A0. unfold run_call.
      rewrite (map_ext (resolve g fs (match e with Some _ => true | None => false end))
                       (resolve g' fs (match e with Some _ => true | None => false end)) (resolve_same fs _)).
      destruct (all_some (map (resolve g' fs _) args)) as [sls|]; [|split; assumption].
      rewrite (map_ext (read s e) (read s' e) (fun sl => read_alike e sl A0)).
      destruct (all_some (map (read s' e) sls)) as [l|]; [|split; assumption].
      destruct (H f l) as [H1 H2]. destruct (run f l) as [r l1], (run' f l) as [r' l1']. cbn in *. subst l1'.
      split; [exact H1|]. now apply write_all_alike.
    Qed.

    Notation R := (alike_relations B B').
    Lemma alike_reply_rel r r' : alike_reply r r' -> reply_rel (response_rel (r_state R)) r r'.
    Proof.
      destruct r as [[| |x]| |], r' as [[| |x']| |]; cbn; intros H; try contradiction; repeat constructor; apply H.
    Qed.
    Lemma handler_alike arms arms' x x' sh cx e :
      (forall n, select arms n = select arms' n) -> alike x x' ->
      callback_rel R (response_rel (r_state R)) (alike (d := d) (d' := d'))
        (run_handler B arms x sh cx e) (run_handler B' arms' x' sh cx e).
    Proof.
      intros S A. unfold run_handler. rewrite S. destruct A as [T V]. rewrite T.
      destruct (select arms' (tag x')) as [[p [|t f args aw]]|].
      - cbn. repeat split; auto. constructor.
      - assert (AS : alike_store (x, sh, cx) (x', sh, cx)) by (repeat split; assumption).
        assert (HB : forall f0 l, reply_rel (response_rel (r_state R)) (fst (b_handler B f0 l)) (fst (b_handler B' f0 l)) /\
                                  snd (b_handler B f0 l) = snd (b_handler B' f0 l)).
        { intros f0 l. destruct (sb_handler SB f0 l) as [K1 K2]. split; [now apply alike_reply_rel|exact K2]. }
        destruct (@run_call_same (response (value Val (g_state_variants g))) (response (value Val (g_state_variants g'))) (reply_rel (response_rel (r_state R))) (b_handler B) (b_handler B')
                    (p_fields p) (Some e) f args _ _ (ry_panics _) HB AS) as [H1 H2].
        destruct (run_call g (b_handler B) _ _ f args _) as [r [[y sh1] cx1]],
                 (run_call g' (b_handler B') _ _ f args _) as [r' [[y' sh1'] cx1']].
        destruct H2 as (K1 & K2 & K3). cbn in K1, K2, K3, H1 |- *. split; [exact H1|]. split; [exact K1|]. split; assumption.
      - cbn. repeat split; auto. repeat constructor.
    Qed.
    Lemma action_alike arms arms' x x' sh cx :
      (forall n, select arms n = select arms' n) -> alike x x' ->
      callback_rel R eq (alike (d := d) (d' := d'))
        (run_action B arms x sh cx) (run_action B' arms' x' sh cx).
    Proof.
      intros S A. unfold run_action. rewrite S. destruct A as [T V]. rewrite T.
      destruct (select arms' (tag x')) as [[p [|t f args aw]]|].
      - cbn. repeat split; auto. now constructor.
      - assert (AS : alike_store (x, sh, cx) (x', sh, cx)) by (repeat split; assumption).
        assert (HB : forall f0 l, reply_rel eq (fst (b_action B f0 l)) (fst (b_action B' f0 l)) /\
                                  snd (b_action B f0 l) = snd (b_action B' f0 l)).
        { intros f0 l. rewrite (sb_action SB f0 l). split; [|reflexivity].
          destruct (fst (b_action B' f0 l)); now constructor. }
        destruct (@run_call_same _ _ (reply_rel eq) (b_action B) (b_action B')
                    (p_fields p) None f args _ _ (ry_panics _) HB AS) as [H1 H2].
        destruct (run_call g (b_action B) _ _ f args _) as [r [[y sh1] cx1]],
                 (run_call g' (b_action B') _ _ f args _) as [r' [[y' sh1'] cx1']].
        destruct H2 as (K1 & K2 & K3). cbn in K1, K2, K3, H1 |- *. split; [exact H1|]. split; [exact K1|]. split; assumption.
      - cbn. repeat split; auto. now constructor.
    Qed.
    Lemma superstate_alike arms arms' (x : value Val d) (x' : value Val d') :
      (forall n, select arms n = select arms' n) -> alike x x' ->
      opt_rel (r_sup R) (run_superstate g arms x) (run_superstate g' arms' x').
    Proof.
      intros S A. unfold run_superstate. rewrite S. pose proof A as [T V]. rewrite T.
      destruct (select arms' (tag x')) as [[p [q|]]|]; try constructor.
      rewrite (sc_supers C). destruct (fields_of (g_super_variants g') (p_variant q)) as [fs|]; [|constructor].
      rewrite (map_ext (get_field x) (get_field x') (fun f => alike_get F f A)).
      destruct (all_some (map (get_field x') fs)) as [vs|]; [|constructor].
      pose proof (@alike_make Val _ _ (sc_supers C) (p_variant q) vs) as M.
      destruct (make (g_super_variants g) (p_variant q) vs), (make (g_super_variants g') (p_variant q) vs);
        cbn in M; try contradiction; constructor. exact M.
    Qed.
    Lemma put_alike (x : value Val d) (x' : value Val d') v v' :
      alike x x' -> alike v v' -> alike (put_back g x v) (put_back g' x' v').
    Proof.
      intros A W. unfold put_back. pose proof W as [T V]. rewrite T, (sc_supers C).
      destruct (fields_of (g_super_variants g') (tag v')) as [fs|]; [|exact A].
      revert x x' A. induction fs as [|f fs IH]; intros x x' A; cbn [fold_left]; [exact A|].
      apply IH. rewrite (alike_get (sc_supers C) f W). destruct (get_field v' f); [|exact A]. now apply alike_set.
    Qed.
  End Calls.

  Notation R := (alike_relations B B').
  Lemma node_alike n n' : node_rel (r_state R) (r_sup R) n n' -> alike_node n n'.
  Proof. intros []; cbn; assumption. Qed.
  Lemma reply_refl A (r : reply A) : reply_rel eq r r.
  Proof. destruct r; now constructor. Qed.
  Lemma hook_alike c run run' sh :
    (forall p, run p sh = run' p sh) -> hook_rel R (run_hook B c run sh) (run_hook B' c run' sh).
  Proof.
    intros H. destruct c as [|p|p]; cbn.
    - split; [now constructor|reflexivity].
    - rewrite (sb_async SB p). destruct (b_async B' p); [split; [now constructor|reflexivity]|].
      rewrite H. split; [apply reply_refl|reflexivity].
    - rewrite H. split; [apply reply_refl|reflexivity].
  Qed.

  Theorem same_code_similar : similar R.
  Proof.
    constructor.
    - cbn. rewrite (sc_initial C). apply (sb_initial SB).
    - intros x x' y y' [T _] [T' _]. cbn. rewrite !discriminant_tag, T, T'. reflexivity.
    - intros x x' y y' [T _] [T' _]. cbn. rewrite !discriminant_tag, T, T'. reflexivity.
    - intros x x' A. apply superstate_alike; [apply C|apply C|exact A].
    - intros x x' A. apply superstate_alike; [apply C|apply C|exact A].
    - intros x x' v v' A W. apply put_alike; [apply C|exact A|exact W].
    - intros x x' v v' A W. apply put_alike; [apply C|exact A|exact W].
    - intros x x' sh sh' cx cx' e e' A <- <- <-. apply handler_alike; [apply C|apply C|exact A].
    - intros x x' sh sh' cx cx' A <- <-. apply action_alike; [apply C|apply C|exact A].
    - intros x x' sh sh' cx cx' A <- <-. apply action_alike; [apply C|apply C|exact A].
    - intros x x' sh sh' cx cx' e e' A <- <- <-. apply handler_alike; [apply C|apply C|exact A].
    - intros x x' sh sh' cx cx' A <- <-. apply action_alike; [apply C|apply C|exact A].
    - intros x x' sh sh' cx cx' A <- <-. apply action_alike; [apply C|apply C|exact A].
    - intros sh sh' n n' e e' <- N <-. cbn. rewrite (sc_before_dispatch C). apply hook_alike.
      intros p. apply (sb_dispatch_hook SB). now apply node_alike.
    - intros sh sh' n n' e e' <- N <-. cbn. rewrite (sc_after_dispatch C). apply hook_alike.
      intros p. apply (sb_dispatch_hook SB). now apply node_alike.
    - intros sh sh' a a' b b' <- A W. cbn. rewrite (sc_before_transition C). apply hook_alike.
      intros p. now apply (sb_transition_hook SB).
    - intros sh sh' a a' b b' <- A W. cbn. rewrite (sc_after_transition C). apply hook_alike.
      intros p. now apply (sb_transition_hook SB).
  Qed.
End Same.

(** ** Bodies for the other expansion *)
Section Move.
  Variables Val Sh Ev Cx : Type.
  Variables g g' : generated.
  Hypothesis FS : forall n, fields_of (g_state_variants g) n = fields_of (g_state_variants g') n.
  Hypothesis FU : forall n, fields_of (g_super_variants g) n = fields_of (g_super_variants g') n.
  Variable B : bodies Val Sh Ev Cx g.
  Notation there := (@move Val _ _ FS).
  Notation back := (@move Val _ _ (fun n => eq_sym (FS n))).
  Notation back_super := (@move Val _ _ (fun n => eq_sym (FU n))).
  Definition moved_reply (r : reply (response (value Val (g_state_variants g)))) :
      reply (response (value Val (g_state_variants g'))) :=
    match r with
    | Returns Handled => Returns Handled
    | Returns Super => Returns Super
    | Returns (Transition x) => Returns (Transition (there x))
    | Panics => Panics
    | Cancelled => Cancelled
    end.
  Definition moved_node (n : node (value Val (g_state_variants g')) (value Val (g_super_variants g'))) :
      node (value Val (g_state_variants g)) (value Val (g_super_variants g)) :=
    match n with NState x => NState (back x) | NSuper u => NSuper (back_super u) end.
  Definition moved : bodies Val Sh Ev Cx g' := {|
    b_handler := fun f args => (moved_reply (fst (b_handler B f args)), snd (b_handler B f args));
    b_action := b_action B;
    b_dispatch_hook := fun p sh n e => b_dispatch_hook B p sh (moved_node n) e;
    b_transition_hook := fun p sh x y => b_transition_hook B p sh (back x) (back y);
    b_async := b_async B;
    b_initial := fun e => there (b_initial B e)
  |}.
  Lemma back_alike x x' : alike x x' -> back x' = x.
  Proof. intros [T V]. apply value_eq; cbn; congruence. Qed.
  Lemma back_super_alike x x' : alike x x' -> back_super x' = x.
  Proof. intros [T V]. apply value_eq; cbn; congruence. Qed.
  Lemma moved_same : same_bodies B moved.
  Proof.
    constructor; cbn.
    - intros f args. split; [|reflexivity]. destruct (fst (b_handler B f args)) as [[| |x]| |]; cbn; auto. now split.
    - reflexivity.
    - intros p sh [x|u] [x'|u'] e A; cbn in A; try contradiction; cbn; f_equal; f_equal.
      + symmetry. now apply back_alike.
      + symmetry. now apply back_super_alike.
    - intros p sh x x' y y' A A'. now rewrite (back_alike A), (back_alike A').
    - reflexivity.
    - intros e. now split.
  Qed.
End Move.

(** ** Expansions *)
Lemma arms_names A (f : A -> pattern) T (h : A -> T) l :
  map (fun a => p_variant (fst a)) (map (fun m => (f m, h m)) l) = map (fun m => p_variant (f m)) l.
Proof. now rewrite map_map. Qed.

Lemma expanded_same args item g g' c sms ums :
  expanded args item g c sms ums -> compiles g -> reordered g g' -> same_code g g'.
Proof.
  intros X CO R.
  assert (NS : NoDup (map (fun m => p_variant (state_pattern c m)) sms)).
  { pose proof (co_state_variants CO) as N. rewrite (ex_state_variants X), map_map in N. exact N. }
  assert (NU : NoDup (map (fun m => p_variant (super_pattern c m)) ums)).
  { pose proof (co_super_variants CO) as N. rewrite (ex_super_variants X), map_map in N. exact N. }
  destruct (ro_state_arms R) as [S1 S2 S3 S4]. destruct (ro_super_arms R) as [U1 U2 U3 U4].
  pose proof (ex_state_arms X) as XS. pose proof (ex_super_arms X) as XU.
  constructor; try apply R; intros n; try (apply select_perm; [|assumption]).
  - apply fields_of_perm; [apply CO|apply R].
  - apply fields_of_perm; [apply CO|apply R].
  - rewrite XS. cbn. now rewrite arms_names.
  - rewrite XS. cbn. now rewrite arms_names.
  - rewrite XS. cbn. now rewrite arms_names.
  - rewrite XS. cbn. now rewrite arms_names.
  - rewrite XU. cbn. now rewrite arms_names.
  - rewrite XU. cbn. now rewrite arms_names.
  - rewrite XU. cbn. now rewrite arms_names.
  - rewrite XU. cbn. now rewrite arms_names.
Qed.

Lemma constructor_names args item g c sms ums :
  NoDup (map m_name (methods item)) -> expanded args item g c sms ums -> NoDup (map n_name (g_constructors g)).
Proof.
  intros ND X. replace (map n_name (g_constructors g)) with (map m_name sms).
  - eapply Permutation_NoDup; [apply Permutation_map, (ex_states X)|].
    revert ND. generalize (methods item). intros l. induction l as [|a l IH]; cbn; intros ND; [constructor|].
    inversion ND as [|? ? N ND']; subst. destruct (marked "state" a); cbn; [|auto]. constructor; [|auto].
    intros I. apply N. apply in_map_iff in I. destruct I as [b [E I]]. apply filter_In in I. rewrite <- E.
    apply in_map. tauto.
  - apply Forall2_map_eq. eapply Forall2_imp; [|exact (ex_constructors X)].
    intros m k (m1 & _ & _ & ->). reflexivity.
Qed.

Lemma construct_same Val g g' (eval : expr -> (ident -> option Val) -> Val) (default : ty -> Val) name actuals :
  same_code g g' -> NoDup (map n_name (g_constructors g)) -> NoDup (map v_name (g_state_variants g)) -> reordered g g' ->
  alike_option (construct g eval default name actuals) (construct g' eval default name actuals).
Proof.
  intros C NC NV R. unfold construct. rewrite (find_perm n_name name NC (ro_constructors R)).
  destruct (find _ (g_constructors g')) as [k|]; [|exact I].
  destruct (Nat.eqb _ _); [|exact I]. rewrite (find_perm v_name (n_variant k) NV (ro_state_variants R)).
  destruct (find _ (g_state_variants g')) as [v|]; [|exact I].
  destruct (all_some _) as [vs|]; [|exact I]. apply alike_make. apply C.
Qed.
