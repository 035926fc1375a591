(** MacroPassProofs.v — what becomes of the user's own impl block (C50). *)

From Coq Require Import String Ascii List Bool Arith Lia Permutation.
From Verif Require Import Machine MacroSyntax MacroVisit MacroAnalyze MacroLower MacroGen MacroSem.
From Verif Require Import MacroSpec MacroAcceptSpec MacroBasics MacroExpandProofs MacroLowerProofs MacroConfigProofs.
From Verif Require Import MacroAcceptProofs.
Import ListNotations.
Open Scope string_scope.
Open Scope list_scope.
Set Implicit Arguments.

Lemma swap_remove_perm A n (l : list A) a : nth_error l n = Some a -> Permutation l (a :: swap_remove n l).
Proof.
  intros N. unfold swap_remove. apply nth_error_split in N. destruct N as (l1 & l2 & -> & L).
  assert (S : skipn n (l1 ++ a :: l2) = a :: l2).
  { subst n. rewrite skipn_app, skipn_all, Nat.sub_diag. reflexivity. }
  assert (F : firstn n (l1 ++ a :: l2) = l1).
  { subst n. rewrite firstn_app, firstn_all, Nat.sub_diag. cbn. apply app_nil_r. }
  rewrite S, F. eapply Permutation_trans; [apply Permutation_sym, Permutation_middle|]. constructor.
  apply Permutation_app_head. destruct (rev l2) as [|z r] eqn:R.
  - rewrite <- (rev_involutive l2), R. reflexivity.
  - rewrite <- (rev_involutive l2), R. cbn. apply Permutation_sym, Permutation_cons_append.
Qed.

Section Inputs.
  Variables ev cx : ident.
  Lemma state_inputs_passed l : forall k k', efold (state_input ev cx) k l = Done k' ->
    exists ins, k_inputs k' = k_inputs k ++ ins /\ Forall2 (passed_parameter ev cx) l ins.
  Proof.
    induction l as [|a l IH]; intros k k' H; cbn in H.
    - injection H as <-. exists []. rewrite app_nil_r. split; [reflexivity|constructor].
    - destruct (ebind_done _ _ H) as [k1 [E1 H1]]. clear H. destruct (IH _ _ H1) as [ins [E2 F]]. clear IH H1.
      assert (Q : exists a', k_inputs k1 = k_inputs k ++ [a'] /\ passed_parameter ev cx a a').
      { clear - E1. destruct k as [ins ds sts e c]. unfold state_input in E1. destruct a as [|pt].
        - injection E1 as <-. exists Receiver. split; [reflexivity|]. left. split; [reflexivity|]. discriminate.
        - destruct pt as [attrs p t]. cbn [pt_pat pt_attrs pt_ty] in E1. unfold passed_parameter.
          destruct p as [i| | | | | |]; try discriminate.
          + destruct (String.eqb_spec ev i) as [Ee|Ne].
            { injection E1 as <-. eexists. split; [reflexivity|]. left. split; [reflexivity|].
              intros a j t' d [= <- <- <-]. congruence. }
            destruct (String.eqb_spec cx i) as [Ec|Nc].
            { injection E1 as <-. eexists. split; [reflexivity|]. left. split; [reflexivity|].
              intros a j t' d [= <- <- <-] N1 N2. congruence. }
            destruct (position is_default attrs) as [n|] eqn:Q.
            * destruct (nth_error attrs n) as [attr|] eqn:N; [|discriminate].
              destruct (ebind_done _ _ E1) as [dd [_ D2]]. injection D2 as <-.
              eexists. split; [reflexivity|]. right.
              exists attrs, i, t, attr, (swap_remove n attrs). repeat split; auto.
              -- exact (position_find _ _ Q N).
              -- exact (swap_remove_perm _ _ N).
            * injection E1 as <-. eexists. split; [reflexivity|]. left. split; [reflexivity|].
              intros a j t' d [= <- <- <-] _ _ FD. destruct (find_position _ _ FD) as [n [Y _]].
              change (position is_default attrs = Some n) in Y. congruence.
          + injection E1 as <-. eexists. split; [reflexivity|]. left. split; [reflexivity|]. discriminate. }
      destruct Q as [a' [E3 P]]. exists (a' :: ins). rewrite E2, E3, <- app_assoc. split; [reflexivity|]. now constructor.
  Qed.
End Inputs.

Lemma analyze_state_passed c m s m' : analyze_state m c = Done (s, m') ->
  exists inputs, Forall2 (passed_parameter (c_event_ident c) (c_context_ident c)) (m_inputs m) inputs /\
    m' = ImplFn (m_attrs m) (m_name m) (m_generics m) (m_async m) inputs.
Proof.
  unfold analyze_state. intros H. destruct (m_generics m) eqn:G; [|discriminate].
  destruct (ebind_done _ _ H) as [k [K H1]]. destruct (ebind_done _ _ H1) as [w [_ H2]]. injection H2 as _ <-.
  destruct (state_inputs_passed _ _ _ _ K) as [ins [E F]]. cbn in E. exists ins. split; [exact F|]. now rewrite E.
Qed.
Definition state_attr (a : meta) : bool := is_ident (meta_path a) "state".
Lemma attributes_kept c attrs : forall f m r,
  (forall b, In b attrs -> state_attr b = false) ->
  efold (attribute c) (f, m) (map meta_path attrs) = Done r -> snd r = m.
Proof.
  induction attrs as [|a attrs IH]; intros f m r N H; cbn in H; [now injection H as <-|].
  destruct (ebind_done _ _ H) as [[f1 m1] [E H1]]. rewrite (IH _ _ _ (fun b I => N b (or_intror I)) H1).
  destruct f as [ss us acts]. unfold attribute in E.
  pose proof (N a (or_introl eq_refl)) as Na. unfold state_attr in Na. rewrite Na in E.
  destruct (is_ident (meta_path a) "superstate").
  { destruct (ebind_done _ _ E) as [u [_ D]]. now injection D as _ <-. }
  destruct (is_ident (meta_path a) "action").
  { destruct (ebind_done _ _ E) as [u [_ D]]. now injection D as _ <-. }
  now injection E as _ <-.
Qed.
Lemma attributes_passed c attrs : forall f m r,
  once attrs -> existsb state_attr attrs = true ->
  efold (attribute c) (f, m) (map meta_path attrs) = Done r ->
  exists inputs, Forall2 (passed_parameter (c_event_ident c) (c_context_ident c)) (m_inputs m) inputs /\
    snd r = ImplFn (m_attrs m) (m_name m) (m_generics m) (m_async m) inputs.
Proof.
  induction attrs as [|a attrs IH]; intros f m r O X H; cbn in H, X; [discriminate|].
  destruct (ebind_done _ _ H) as [[f1 m1] [E H1]]. destruct f as [ss us acts]. unfold attribute in E.
  destruct (state_attr a) eqn:S; unfold state_attr in S; rewrite S in E.
  - destruct (ebind_done _ _ E) as [[s m2] [A D]]. injection D as _ <-.
    destruct (analyze_state_passed _ _ A) as [ins [F Em]]. exists ins. split; [exact F|].
    rewrite <- Em. eapply attributes_kept; [|exact H1]. exact (once_head O S).
  - assert (m1 = m) as ->.
    { destruct (is_ident (meta_path a) "superstate").
      { destruct (ebind_done _ _ E) as [u [_ D]]. now injection D as _ <-. }
      destruct (is_ident (meta_path a) "action").
      { destruct (ebind_done _ _ E) as [u [_ D]]. now injection D as _ <-. }
      now injection E as _ <-. }
    exact (IH _ _ _ (once_tail O) X H1).
Qed.
Lemma items_passed c items : (forall m, In m (method_list items) -> once (m_attrs m)) ->
  forall f r, analyze_items c f items = Done r ->
  Forall2 (passed_item (c_event_ident c) (c_context_ident c)) items (snd r).
Proof.
  induction items as [|[m|t] items IH]; intros O f r H; cbn in H.
  - injection H as <-. constructor.
  - destruct (ebind_done _ _ H) as [[f1 m1] [E H1]]. destruct (ebind_done _ _ H1) as [[f2 r2] [E2 D]].
    injection D as <-. constructor; [|exact (IH (fun m' I => O m' (or_intror I)) _ _ E2)].
    cbn. unfold passed_method, marked. change (fun a => is_ident (meta_path a) "state") with state_attr.
    unfold analyze_method in E. split; intros M.
    + refine (@attributes_kept c (m_attrs m) f m (f1, m1) _ E). intros b I.
      destruct (state_attr b) eqn:S; [|reflexivity]. rewrite <- M. symmetry. apply existsb_exists. eauto.
    + exact (@attributes_passed c (m_attrs m) f m (f1, m1) (O m (or_introl eq_refl)) M E).
  - destruct (ebind_done _ _ H) as [[f1 r1] [E D]]. injection D as <-.
    constructor; [reflexivity|]. exact (IH O _ _ E).
Qed.
Theorem impl_passed o args item g : ordinary item -> expand o args item = Done g ->
  i_self (g_impl g) = i_self item /\ i_generics (g_impl g) = i_generics item /\
  Forall2 (passed_item (or_else (last_value as_ident "event_identifier" args) "event")
                       (or_else (last_value as_ident "context_identifier" args) "context"))
          (i_items item) (i_items (g_impl g)).
Proof.
  intros [ND NP ON] H. unfold expand in H. destruct (ebind_done _ _ H) as [mo [A H1]]. clear H.
  destruct (ebind_done _ _ H1) as [i [L H2]]. clear H1. injection H2 as <-.
  assert (EI : ir_impl i = mo_impl mo).
  { unfold lower in L.
    repeat match type of L with ebind ?e ?k = _ => destruct (ebind_done _ _ L) as [? [_ L']]; clear L; rename L' into L end.
    now injection L as <-. }
  cbn. rewrite EI. unfold analyze in A. destruct (ebind_done _ _ A) as [c [C A1]].
  destruct (ebind_done _ _ A1) as [[f items] [E D]]. injection D as <-. cbn.
  destruct (config_spec args item C) as [_ _ _ _ _ _ _ Ev Cx _ _ _ _ _ _ _ _ _].
  split; [reflexivity|]. split; [reflexivity|]. rewrite <- Ev, <- Cx.
  refine (@items_passed c (i_items item) _ _ _ E). intros m I. exact (fun b a bt b' af => @ON m b a bt b' af I).
Qed.
