(** EquivProofs.v — proofs for C103. *)

From Coq Require Import List Bool.
From Verif Require Import Machine Api Sim SimIff EquivSpec.
Import ListNotations.
Set Implicit Arguments.

Lemma reply_eq A (a : reply A) : reply_rel eq a a.
Proof. destruct a; constructor; reflexivity. Qed.
Lemma response_eq A (a : response A) : response_rel eq a a.
Proof. destruct a; constructor; reflexivity. Qed.
Lemma opt_refl A (a : option A) : opt_rel eq a a.
Proof. destruct a; constructor; reflexivity. Qed.
Lemma node_eq A B (a b : node A B) : node_rel eq eq a b -> a = b.
Proof. intros []; congruence. Qed.

Lemma reply_conv A B (R : A -> B -> Prop) a b : reply_rel R a b -> reply_rel (converse R) b a.
Proof. intros []; constructor; assumption. Qed.
Lemma response_conv A B (R : A -> B -> Prop) a b : response_rel R a b -> response_rel (converse R) b a.
Proof. intros []; constructor; assumption. Qed.
Lemma opt_conv A B (R : A -> B -> Prop) a b : opt_rel R a b -> opt_rel (converse R) b a.
Proof. intros []; constructor; assumption. Qed.
Lemma node_conv A B A' B' (R : A -> B -> Prop) (U : A' -> B' -> Prop) a b :
  node_rel (converse R) (converse U) b a -> node_rel R U a b.
Proof. intros []; constructor; assumption. Qed.

Lemma reply_comp A B C (R : A -> B -> Prop) (S : B -> C -> Prop) a b c :
  reply_rel R a b -> reply_rel S b c -> reply_rel (compose R S) a c.
Proof. intros P Q; destruct P; inversion Q; subst; constructor; eexists; eauto. Qed.
Lemma response_comp A B C (R : A -> B -> Prop) (S : B -> C -> Prop) a b c :
  response_rel R a b -> response_rel S b c -> response_rel (compose R S) a c.
Proof. intros P Q; destruct P; inversion Q; subst; constructor; eexists; eauto. Qed.
Lemma opt_comp A B C (R : A -> B -> Prop) (S : B -> C -> Prop) a b c :
  opt_rel R a b -> opt_rel S b c -> opt_rel (compose R S) a c.
Proof. intros P Q; destruct P; inversion Q; subst; constructor; eexists; eauto. Qed.
Lemma node_split A B C A' B' C' (R : A -> B -> Prop) (S : B -> C -> Prop) (U : A' -> B' -> Prop) (V : B' -> C' -> Prop) a c :
  node_rel (compose R S) (compose U V) a c -> exists b, node_rel R U a b /\ node_rel S V b c.
Proof. intros [a' c' (b & H & K)|a' c' (b & H & K)]; [exists (NState b)|exists (NSuper b)]; split; constructor; assumption. Qed.

Theorem identity_similar m : similar (identity_relations m).
Proof.
  constructor; cbn; intros; subst; try reflexivity; try apply opt_refl.
  all: try match goal with H : node_rel _ _ _ _ |- _ => apply node_eq in H; subst end.
  all: try (split; [apply reply_eq|reflexivity]).
  all: match goal with |- callback_rel _ _ _ ?c _ => destruct c as [[[a x1] sh1] cx1] end; cbn;
       repeat split; try apply reply_eq.
  all: destruct a as [a| |]; constructor; apply response_eq.
Qed.

Section Converse.
  Variables m1 m2 : machine.
  Variable R : relations m1 m2.
  Hypothesis H : similar R.
  Lemma callback_conv A B X Y (RA : A -> B -> Prop) (RA' : B -> A -> Prop) (RX : X -> Y -> Prop) c c' :
    (forall a b, RA a b -> RA' b a) ->
    callback_rel R RA RX c c' -> callback_rel (converse_relations R) RA' (converse RX) c' c.
  Proof.
    intros I. destruct c as [[[a x] sh] cx], c' as [[[a' x'] sh'] cx']. cbn. intros (P & Q & S & T).
    split; [|repeat split; assumption]. apply reply_conv in P. revert P. apply reply_rel_mono. intros x0 y0. apply I.
  Qed.
  Lemma hook_conv c c' : hook_rel R c c' -> hook_rel (converse_relations R) c' c.
  Proof.
    intros [P Q]. split; [|exact Q]. apply reply_conv in P. revert P. apply reply_rel_mono. intros x y E. symmetry. exact E.
  Qed.
  Theorem converse_similar : similar (converse_relations R).
  Proof.
    constructor; cbn [converse_relations r_state r_sup r_shared r_event r_ctx]; unfold converse at 1; intros.
    - exact (si_initial H).
    - symmetry. apply (si_s_disc H); assumption.
    - symmetry. apply (si_u_disc H); assumption.
    - apply opt_conv, (si_s_super H). assumption.
    - apply opt_conv, (si_u_super H). assumption.
    - apply (si_s_put H); assumption.
    - apply (si_u_put H); assumption.
    - eapply callback_conv; [apply response_conv|apply (si_s_handler H); assumption].
    - eapply callback_conv; [apply eq_sym|apply (si_s_entry H); assumption].
    - eapply callback_conv; [apply eq_sym|apply (si_s_exit H); assumption].
    - eapply callback_conv; [apply response_conv|apply (si_u_handler H); assumption].
    - eapply callback_conv; [apply eq_sym|apply (si_u_entry H); assumption].
    - eapply callback_conv; [apply eq_sym|apply (si_u_exit H); assumption].
    - apply hook_conv, (si_before_dispatch H); try assumption. apply node_conv; assumption.
    - apply hook_conv, (si_after_dispatch H); try assumption. apply node_conv; assumption.
    - apply hook_conv, (si_before_transition H); assumption.
    - apply hook_conv, (si_after_transition H); assumption.
  Qed.
End Converse.

Section Composition.
  Variables m1 m2 m3 : machine.
  Variables (R : relations m1 m2) (S : relations m2 m3).
  Hypotheses (H : similar R) (K : similar S).
  Notation RS := (composed_relations R S).
  Lemma callback_comp A B C X Y Z (RA : A -> B -> Prop) (SA : B -> C -> Prop) (TA : A -> C -> Prop)
      (RX : X -> Y -> Prop) (SX : Y -> Z -> Prop) c1 c2 c3 :
    (forall a b c, RA a b -> SA b c -> TA a c) ->
    callback_rel R RA RX c1 c2 -> callback_rel S SA SX c2 c3 -> callback_rel RS TA (compose RX SX) c1 c3.
  Proof.
    intros I. destruct c1 as [[[a1 x1] sh1] cx1], c2 as [[[a2 x2] sh2] cx2], c3 as [[[a3 x3] sh3] cx3]. cbn.
    intros (P1 & P2 & P3 & P4) (Q1 & Q2 & Q3 & Q4). split; [|repeat split; eexists; eauto].
    pose proof (reply_comp P1 Q1) as P. revert P. apply reply_rel_mono. intros a c (b & U & V). exact (I a b c U V).
  Qed.
  Lemma hook_comp c1 c2 c3 : hook_rel R c1 c2 -> hook_rel S c2 c3 -> hook_rel RS c1 c3.
  Proof.
    intros [P1 P2] [Q1 Q2]. split; [|eexists; eauto]. pose proof (reply_comp P1 Q1) as P. revert P.
    apply reply_rel_mono. intros a c (b & -> & ->). reflexivity.
  Qed.
  Ltac parts := repeat match goal with
    | X : compose _ _ _ _ |- _ => destruct X as (? & ? & ?)
    | X : node_rel (compose _ _) (compose _ _) _ _ |- _ => apply node_split in X; destruct X as (? & ? & ?)
    end.
  Theorem composed_similar : similar RS.
  Proof.
    constructor; cbn [composed_relations r_state r_sup r_shared r_event r_ctx]; intros; parts.
    - eexists. split; [apply (si_initial H)|apply (si_initial K)].
    - etransitivity; [eapply (si_s_disc H); eassumption|eapply (si_s_disc K); eassumption].
    - etransitivity; [eapply (si_u_disc H); eassumption|eapply (si_u_disc K); eassumption].
    - eapply opt_comp; [eapply (si_s_super H); eassumption|eapply (si_s_super K); eassumption].
    - eapply opt_comp; [eapply (si_u_super H); eassumption|eapply (si_u_super K); eassumption].
    - eexists. split; [eapply (si_s_put H); eassumption|eapply (si_s_put K); eassumption].
    - eexists. split; [eapply (si_u_put H); eassumption|eapply (si_u_put K); eassumption].
    - eapply callback_comp; [intros ? ? ?; apply response_comp|eapply (si_s_handler H); eassumption|eapply (si_s_handler K); eassumption].
    - eapply callback_comp; [intros ? ? ?; apply eq_trans|eapply (si_s_entry H); eassumption|eapply (si_s_entry K); eassumption].
    - eapply callback_comp; [intros ? ? ?; apply eq_trans|eapply (si_s_exit H); eassumption|eapply (si_s_exit K); eassumption].
    - eapply callback_comp; [intros ? ? ?; apply response_comp|eapply (si_u_handler H); eassumption|eapply (si_u_handler K); eassumption].
    - eapply callback_comp; [intros ? ? ?; apply eq_trans|eapply (si_u_entry H); eassumption|eapply (si_u_entry K); eassumption].
    - eapply callback_comp; [intros ? ? ?; apply eq_trans|eapply (si_u_exit H); eassumption|eapply (si_u_exit K); eassumption].
    - eapply hook_comp; [eapply (si_before_dispatch H); eassumption|eapply (si_before_dispatch K); eassumption].
    - eapply hook_comp; [eapply (si_after_dispatch H); eassumption|eapply (si_after_dispatch K); eassumption].
    - eapply hook_comp; [eapply (si_before_transition H); eassumption|eapply (si_before_transition K); eassumption].
    - eapply hook_comp; [eapply (si_after_transition H); eassumption|eapply (si_after_transition K); eassumption].
  Qed.
End Composition.
