(** MacroSourceProofs.v — similarities compose; a source compiled against any expansion of
    its impl block is similar to whatever it is similar to with one of them. *)

From Coq Require Import String List Bool Arith Permutation.
From Verif Require Import MacroSyntax MacroVisit MacroAnalyze MacroLower MacroGen MacroSem MacroSpec MacroOrderSpec MacroSource.
From Verif Require Import Machine Api Spec Sim.
From Verif Require MacroBehaviour MacroBasics MacroOrderProofs MacroReorderProofs.
Import ListNotations.
Open Scope string_scope.
Open Scope list_scope.
Set Implicit Arguments.

Section Compose.
  Variables m1 m2 m3 : machine.
  Variable R : relations m1 m2.
  Variable Q : relations m2 m3.
  Definition composed {A B C} (P : A -> B -> Prop) (P' : B -> C -> Prop) (a : A) (c : C) : Prop :=
    exists b, P a b /\ P' b c.
  Definition compose : relations m1 m3 :=
    Relations m1 m3 (composed (r_state R) (r_state Q)) (composed (r_sup R) (r_sup Q))
      (composed (r_shared R) (r_shared Q)) (composed (r_event R) (r_event Q)) (composed (r_ctx R) (r_ctx Q)).
  Hypothesis S : similar R.
  Hypothesis T : similar Q.

  Lemma opt_compose A B C (P : A -> B -> Prop) (P' : B -> C -> Prop) x y z :
    opt_rel P x y -> opt_rel P' y z -> opt_rel (composed P P') x z.
  Proof. intros H1 H2. destruct H1; inversion H2; subst; constructor; eexists; eauto. Qed.
  Lemma response_compose A B C (P : A -> B -> Prop) (P' : B -> C -> Prop) x y z :
    response_rel P x y -> response_rel P' y z -> response_rel (composed P P') x z.
  Proof. intros H1 H2. destruct H1; inversion H2; subst; constructor; eexists; eauto. Qed.
  Lemma reply_compose A B C (P : A -> B -> Prop) (P' : B -> C -> Prop) (P'' : A -> C -> Prop) x y z :
    (forall a b c, P a b -> P' b c -> P'' a c) ->
    reply_rel P x y -> reply_rel P' y z -> reply_rel P'' x z.
  Proof. intros K H1 H2. destruct H1; inversion H2; subst; constructor; eauto. Qed.
  Lemma callback_compose A B C X Y Z (P : A -> B -> Prop) (P' : B -> C -> Prop) (P'' : A -> C -> Prop)
      (V : X -> Y -> Prop) (V' : Y -> Z -> Prop) c1 c2 c3 :
    (forall a b c, P a b -> P' b c -> P'' a c) ->
    callback_rel R P V c1 c2 -> callback_rel Q P' V' c2 c3 ->
    callback_rel compose P'' (composed V V') c1 c3.
  Proof.
    intros K. destruct c1 as [[[a x] sh] cx], c2 as [[[b y] sh'] cx'], c3 as [[[c z] sh''] cx'']. cbn.
    intros (H1 & H2 & H3 & H4) (K1 & K2 & K3 & K4).
    split; [exact (@reply_compose _ _ _ P P' P'' _ _ _ K H1 K1)|]. split; [exists y; auto|]. split; eexists; eauto.
  Qed.
  Lemma hook_compose c1 c2 c3 : hook_rel R c1 c2 -> hook_rel Q c2 c3 -> hook_rel compose c1 c3.
  Proof.
    intros [H1 H2] [K1 K2]. split; [|eexists; eauto].
    apply (@reply_compose _ _ _ eq eq eq _ _ _ (fun a b c E E' => eq_trans E E') H1 K1).
  Qed.
  Lemma node_split n n'' : node_rel (r_state compose) (r_sup compose) n n'' ->
    exists n', node_rel (r_state R) (r_sup R) n n' /\ node_rel (r_state Q) (r_sup Q) n' n''.
  Proof.
    intros [a c (b & H & K)|a c (b & H & K)]; [exists (NState b)|exists (NSuper b)]; split; constructor; assumption.
  Qed.

  Lemma compose_similar : similar compose.
  Proof.
    constructor.
    - exists (initial m2). split; [apply S|apply T].
    - intros x x' y y' (a & A1 & A2) (b & B1 & B2).
      rewrite (si_s_disc S _ _ _ _ A1 B1). apply (si_s_disc T _ _ _ _ A2 B2).
    - intros x x' y y' (a & A1 & A2) (b & B1 & B2).
      rewrite (si_u_disc S _ _ _ _ A1 B1). apply (si_u_disc T _ _ _ _ A2 B2).
    - intros x x' (a & A1 & A2). exact (opt_compose (si_s_super S _ _ A1) (si_s_super T _ _ A2)).
    - intros x x' (a & A1 & A2). exact (opt_compose (si_u_super S _ _ A1) (si_u_super T _ _ A2)).
    - intros x x' v v' (a & A1 & A2) (b & B1 & B2). exists (s_put m2 a b). split; [now apply (si_s_put S)|now apply (si_s_put T)].
    - intros x x' v v' (a & A1 & A2) (b & B1 & B2). exists (u_put m2 a b). split; [now apply (si_u_put S)|now apply (si_u_put T)].
    - intros x x' sh sh' cx cx' e e' (a & A1 & A2) (b & B1 & B2) (c & C1 & C2) (d & D1 & D2).
      refine (@callback_compose _ _ _ _ _ _ _ _ _ _ _ _ _ _ _ (si_s_handler S _ _ _ _ _ _ _ _ A1 B1 C1 D1) (si_s_handler T _ _ _ _ _ _ _ _ A2 B2 C2 D2)).
      intros; eapply response_compose; eauto.
    - intros x x' sh sh' cx cx' (a & A1 & A2) (b & B1 & B2) (c & C1 & C2).
      refine (@callback_compose _ _ _ _ _ _ _ _ _ _ _ _ _ _ _ (si_s_entry S _ _ _ _ _ _ A1 B1 C1) (si_s_entry T _ _ _ _ _ _ A2 B2 C2)). intros; congruence.
    - intros x x' sh sh' cx cx' (a & A1 & A2) (b & B1 & B2) (c & C1 & C2).
      refine (@callback_compose _ _ _ _ _ _ _ _ _ _ _ _ _ _ _ (si_s_exit S _ _ _ _ _ _ A1 B1 C1) (si_s_exit T _ _ _ _ _ _ A2 B2 C2)). intros; congruence.
    - intros x x' sh sh' cx cx' e e' (a & A1 & A2) (b & B1 & B2) (c & C1 & C2) (d & D1 & D2).
      refine (@callback_compose _ _ _ _ _ _ _ _ _ _ _ _ _ _ _ (si_u_handler S _ _ _ _ _ _ _ _ A1 B1 C1 D1) (si_u_handler T _ _ _ _ _ _ _ _ A2 B2 C2 D2)).
      intros; eapply response_compose; eauto.
    - intros x x' sh sh' cx cx' (a & A1 & A2) (b & B1 & B2) (c & C1 & C2).
      refine (@callback_compose _ _ _ _ _ _ _ _ _ _ _ _ _ _ _ (si_u_entry S _ _ _ _ _ _ A1 B1 C1) (si_u_entry T _ _ _ _ _ _ A2 B2 C2)). intros; congruence.
    - intros x x' sh sh' cx cx' (a & A1 & A2) (b & B1 & B2) (c & C1 & C2).
      refine (@callback_compose _ _ _ _ _ _ _ _ _ _ _ _ _ _ _ (si_u_exit S _ _ _ _ _ _ A1 B1 C1) (si_u_exit T _ _ _ _ _ _ A2 B2 C2)). intros; congruence.
    - intros sh sh' n n' e e' (b & B1 & B2) N (d & D1 & D2). destruct (node_split N) as (k & N1 & N2).
      exact (hook_compose (@si_before_dispatch _ _ _ S _ _ _ _ _ _ B1 N1 D1) (@si_before_dispatch _ _ _ T _ _ _ _ _ _ B2 N2 D2)).
    - intros sh sh' n n' e e' (b & B1 & B2) N (d & D1 & D2). destruct (node_split N) as (k & N1 & N2).
      exact (hook_compose (@si_after_dispatch _ _ _ S _ _ _ _ _ _ B1 N1 D1) (@si_after_dispatch _ _ _ T _ _ _ _ _ _ B2 N2 D2)).
    - intros sh sh' x x' y y' (b & B1 & B2) (a & A1 & A2) (c & C1 & C2).
      exact (hook_compose (@si_before_transition _ _ _ S _ _ _ _ _ _ B1 A1 C1) (@si_before_transition _ _ _ T _ _ _ _ _ _ B2 A2 C2)).
    - intros sh sh' x x' y y' (b & B1 & B2) (a & A1 & A2) (c & C1 & C2).
      exact (hook_compose (@si_after_transition _ _ _ S _ _ _ _ _ _ B1 A1 C1) (@si_after_transition _ _ _ T _ _ _ _ _ _ B2 A2 C2)).
  Qed.
End Compose.

(** Relations that hold of the same pairs. *)
Section Same.
  Variables m1 m2 : machine.
  Variables R Q : relations m1 m2.
  Hypothesis Es : forall x y, r_state R x y <-> r_state Q x y.
  Hypothesis Eu : forall x y, r_sup R x y <-> r_sup Q x y.
  Hypothesis Esh : forall x y, r_shared R x y <-> r_shared Q x y.
  Hypothesis Ee : forall x y, r_event R x y <-> r_event Q x y.
  Hypothesis Ec : forall x y, r_ctx R x y <-> r_ctx Q x y.
  Lemma opt_imp A B (P P' : A -> B -> Prop) x y : (forall a b, P a b -> P' a b) -> opt_rel P x y -> opt_rel P' x y.
  Proof. intros H []; constructor; auto. Qed.
  Lemma response_imp x y : response_rel (r_state R) x y -> response_rel (r_state Q) x y.
  Proof. intros []; constructor. now apply Es. Qed.
  Lemma callback_imp A B X Y (P P' : A -> B -> Prop) (V V' : X -> Y -> Prop) c c' :
    (forall a b, P a b -> P' a b) -> (forall a b, V a b -> V' a b) ->
    callback_rel R P V c c' -> callback_rel Q P' V' c c'.
  Proof.
    intros H1 H2. destruct c as [[[a x] sh] cx], c' as [[[b y] sh'] cx']. cbn. intros (K1 & K2 & K3 & K4).
    split; [destruct K1; constructor; auto|]. split; [auto|]. split; [now apply Esh|now apply Ec].
  Qed.
  Lemma hook_imp c c' : hook_rel R c c' -> hook_rel Q c c'.
  Proof. intros [H1 H2]. split; [exact H1|now apply Esh]. Qed.
  Lemma node_imp n n' : node_rel (r_state Q) (r_sup Q) n n' -> node_rel (r_state R) (r_sup R) n n'.
  Proof. intros []; constructor; [now apply Es|now apply Eu]. Qed.
  Lemma similar_ext : similar R -> similar Q.
  Proof.
    intros S. constructor.
    - apply Es. apply S.
    - intros x x' y y' A B. apply Es in A. apply Es in B. exact (si_s_disc S _ _ _ _ A B).
    - intros x x' y y' A B. apply Eu in A. apply Eu in B. exact (si_u_disc S _ _ _ _ A B).
    - intros x x' A. apply Es in A. exact (@opt_imp _ _ _ _ _ _ (fun a b => proj1 (Eu a b)) (si_s_super S _ _ A)).
    - intros x x' A. apply Eu in A. exact (@opt_imp _ _ _ _ _ _ (fun a b => proj1 (Eu a b)) (si_u_super S _ _ A)).
    - intros x x' v v' A B. apply Es in A. apply Eu in B. apply Es. now apply (si_s_put S).
    - intros x x' v v' A B. apply Eu in A. apply Eu in B. apply Eu. now apply (si_u_put S).
    - intros x x' sh sh' cx cx' e e' A B C D. apply Es in A. apply Esh in B. apply Ec in C. apply Ee in D.
      exact (@callback_imp _ _ _ _ _ _ _ _ _ _ response_imp (fun a b => proj1 (Es a b)) (si_s_handler S _ _ _ _ _ _ _ _ A B C D)).
    - intros x x' sh sh' cx cx' A B C. apply Es in A. apply Esh in B. apply Ec in C.
      exact (@callback_imp _ _ _ _ _ _ _ _ _ _ (fun a b H => H) (fun a b => proj1 (Es a b)) (si_s_entry S _ _ _ _ _ _ A B C)).
    - intros x x' sh sh' cx cx' A B C. apply Es in A. apply Esh in B. apply Ec in C.
      exact (@callback_imp _ _ _ _ _ _ _ _ _ _ (fun a b H => H) (fun a b => proj1 (Es a b)) (si_s_exit S _ _ _ _ _ _ A B C)).
    - intros x x' sh sh' cx cx' e e' A B C D. apply Eu in A. apply Esh in B. apply Ec in C. apply Ee in D.
      exact (@callback_imp _ _ _ _ _ _ _ _ _ _ response_imp (fun a b => proj1 (Eu a b)) (si_u_handler S _ _ _ _ _ _ _ _ A B C D)).
    - intros x x' sh sh' cx cx' A B C. apply Eu in A. apply Esh in B. apply Ec in C.
      exact (@callback_imp _ _ _ _ _ _ _ _ _ _ (fun a b H => H) (fun a b => proj1 (Eu a b)) (si_u_entry S _ _ _ _ _ _ A B C)).
    - intros x x' sh sh' cx cx' A B C. apply Eu in A. apply Esh in B. apply Ec in C.
      exact (@callback_imp _ _ _ _ _ _ _ _ _ _ (fun a b H => H) (fun a b => proj1 (Eu a b)) (si_u_exit S _ _ _ _ _ _ A B C)).
    - intros sh sh' n n' e e' A N D. apply Esh in A. apply Ee in D. apply node_imp in N.
      exact (hook_imp (@si_before_dispatch _ _ _ S _ _ _ _ _ _ A N D)).
    - intros sh sh' n n' e e' A N D. apply Esh in A. apply Ee in D. apply node_imp in N.
      exact (hook_imp (@si_after_dispatch _ _ _ S _ _ _ _ _ _ A N D)).
    - intros sh sh' x x' y y' A B C. apply Esh in A. apply Es in B. apply Es in C.
      exact (hook_imp (@si_before_transition _ _ _ S _ _ _ _ _ _ A B C)).
    - intros sh sh' x x' y y' A B C. apply Esh in A. apply Es in B. apply Es in C.
      exact (hook_imp (@si_after_transition _ _ _ S _ _ _ _ _ _ A B C)).
  Qed.
End Same.

Section AnyOrder.
  Variables Val Sh : Type.
  Variable hand : machine.
  Variable s : source Val Sh (Event hand) (Ctx hand).
  Variable name : State hand -> ident * list Val.
  Variable super_name : Sup hand -> ident * list Val.
  Variable shared : Sh -> Shared hand -> Prop.

  Notation by_names := (@by_names Val Sh hand s name super_name shared).

  Lemma compiled_same g g' first first' :
    MacroReorderProofs.same_code g g' ->
    (forall n l, alike_option (construct g (src_eval s) (src_default s) n l) (construct g' (src_eval s) (src_default s) n l)) ->
    alike first first' -> same_bodies (compiled s g first) (compiled s g' first').
  Proof.
    intros C K F.
    assert (BU : forall t, alike_option (built s g t) (built s g' t)).
    { intros [n l|x]; cbn; [apply K|]. unfold read_by_name. apply MacroReorderProofs.alike_make. apply C. }
    constructor; cbn.
    - intros f args. split; [|reflexivity]. destruct (fst (src_handler s f args)) as [[| |t]| |]; cbn; auto.
      specialize (BU t). destruct (built s g t), (built s g' t); cbn in *; auto; contradiction.
    - reflexivity.
    - intros p sh [x|u] [x'|u'] e A; cbn in A; try contradiction; destruct A as [A1 A2]; cbn; unfold by_name;
        now rewrite A1, A2.
    - intros p sh x x' y y' [A1 A2] [B1 B2]. unfold by_name. now rewrite A1, A2, B1, B2.
    - reflexivity.
    - intros _. exact F.
  Qed.

  Theorem any_order o0 args item g0 init first0 :
    expand o0 args item = Done g0 -> compiles g0 -> built s g0 init = Some first0 ->
    similar (by_names g0 first0) ->
    forall o g first, expand o args item = Done g -> built s g init = Some first -> similar (by_names g first).
  Proof.
    intros E0 CO B0 SI o g first E B.
    destruct (@MacroOrderProofs.expand_order o0 o args item g0 E0) as [g1 [E1 R]]. rewrite E in E1. injection E1 as <-.
    pose proof (MacroReorderProofs.compiles_reordered R CO) as CO'.
    destruct (@MacroOrderProofs.expand_order o o0 args item g E) as [g1 [E1 R']]. rewrite E0 in E1. injection E1 as <-.
    destruct (MacroBehaviour.expand_compiles o args item E CO') as [ND [c [sms [ums X]]]].
    pose proof (@MacroReorderProofs.expanded_same args item g g0 c sms ums X CO' R') as C.
    assert (K : forall n l, alike_option (construct g (src_eval s) (src_default s) n l) (construct g0 (src_eval s) (src_default s) n l)).
    { intros n l. exact (@MacroReorderProofs.construct_same Val g g0 (src_eval s) (src_default s) n l C
                           (@MacroReorderProofs.constructor_names args item g c sms ums ND X) (co_state_variants CO') R'). }
    assert (F : alike first first0).
    { destruct init as [n l|x]; cbn in B, B0.
      - specialize (K n l). rewrite B, B0 in K. exact K.
      - pose proof (@MacroReorderProofs.alike_make Val _ _ (MacroReorderProofs.sc_states C) (fst x) (snd x)) as M.
        unfold read_by_name in B, B0. rewrite B, B0 in M. exact M. }
    pose proof (@MacroReorderProofs.same_code_similar _ _ _ _ g g0 C _ _ (compiled_same C K F)) as S1.
    pose proof (compose_similar S1 SI) as S2.
    revert S2. apply similar_ext; cbn.
    - intros x y. split.
      + intros (z & [A1 A2] & N). unfold by_name in *. now rewrite A1, A2.
      + intros N. exists (@MacroReorderProofs.move Val _ _ (MacroReorderProofs.sc_states C) x). split; [split; reflexivity|exact N].
    - intros x y. split.
      + intros (z & [A1 A2] & N). unfold by_name in *. now rewrite A1, A2.
      + intros N. exists (@MacroReorderProofs.move Val _ _ (MacroReorderProofs.sc_supers C) x). split; [split; reflexivity|exact N].
    - intros x y. split; [intros (z & -> & N); exact N|intros N; exists x; auto].
    - intros x y. split; [intros (z & -> & N); exact N|intros N; exists x; auto].
    - intros x y. split; [intros (z & -> & N); exact N|intros N; exists x; auto].
  Qed.

  Theorem every_order o0 args item g0 init first0 :
    expand o0 args item = Done g0 -> compiles g0 -> built s g0 init = Some first0 ->
    similar (by_names g0 first0) ->
    agrees hand s name super_name shared args item init.
  Proof.
    intros E0 CO B0 SI o.
    destruct (@MacroOrderProofs.expand_order o0 o args item g0 E0) as [g [E R]].
    pose proof (MacroReorderProofs.compiles_reordered R CO) as CO'.
    destruct (@MacroOrderProofs.expand_order o o0 args item g E) as [g1 [E1 R']]. rewrite E0 in E1. injection E1 as <-.
    destruct (MacroBehaviour.expand_compiles o args item E CO') as [ND [c [sms [ums X]]]].
    pose proof (@MacroReorderProofs.expanded_same args item g g0 c sms ums X CO' R') as C.
    assert (B : exists first, built s g init = Some first).
    { destruct init as [n l|x]; cbn in B0 |- *.
      - pose proof (@MacroReorderProofs.construct_same Val g g0 (src_eval s) (src_default s) n l C
                      (@MacroReorderProofs.constructor_names args item g c sms ums ND X) (co_state_variants CO') R') as K.
        rewrite B0 in K. destruct (construct g _ _ n l) as [x|]; [now exists x|contradiction].
      - pose proof (@MacroReorderProofs.alike_make Val _ _ (MacroReorderProofs.sc_states C) (fst x) (snd x)) as M.
        unfold read_by_name in *. rewrite B0 in M. destruct (make (g_state_variants g) (fst x) (snd x)) as [y|]; [now exists y|contradiction]. }
    destruct B as [first B].
    exists g, first. split; [exact E|]. split; [exact CO'|]. split; [exact B|].
    pose proof (@any_order o0 args item g0 init first0 E0 CO B0 SI o g first E B) as S.
    intros stack md sh sh' evs HS. cbv zeta.
    pose proof (@sim_handles _ _ _ S stack md evs evs
      (new_state_machine (generated_machine (compiled s g first)) sh) (new_state_machine hand sh')) as H.
    destruct H as [(H1 & H2 & H3) H4].
    - clear. induction evs as [|[e cx] evs IH]; constructor; [split; reflexivity|exact IH].
    - split; [exact (si_initial S)|split; [exact HS|reflexivity]].
    - split; [exact H1|]. split; [exact H2|]. split; [exact H3|exact H4].
  Qed.
End AnyOrder.
