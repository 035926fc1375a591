(** EquivPollProofs.v — proofs for C103, poll by poll. *)

From Coq Require Import List Bool.
From Verif Require Import Machine Api Poll Sim SimIff EquivSpec PollSimSpec EquivProofs.
Import ListNotations.
Set Implicit Arguments.

Lemma Forall2_eq A (l l' : list A) : Forall2 eq l l' -> l = l'.
Proof. induction 1; congruence. Qed.
Lemma Forall2_refl A (l : list A) : Forall2 eq l l.
Proof. induction l; constructor; auto. Qed.
Lemma Forall2_conv A B (R : A -> B -> Prop) l l' : Forall2 R l l' -> Forall2 (converse R) l' l.
Proof. induction 1; constructor; auto. Qed.
Lemma Forall2_comp A B C (R : A -> B -> Prop) (S : B -> C -> Prop) l1 l2 : Forall2 R l1 l2 ->
  forall l3, Forall2 S l2 l3 -> Forall2 (compose R S) l1 l3.
Proof. induction 1; intros l3 F; inversion F; subst; constructor; [eexists; eauto|auto]. Qed.
Lemma Forall2_split A B C (R : A -> B -> Prop) (S : B -> C -> Prop) l1 l3 : Forall2 (compose R S) l1 l3 ->
  exists l2, Forall2 R l1 l2 /\ Forall2 S l2 l3.
Proof.
  induction 1 as [|a c l1 l3 (b & P & Q) F (l2 & IH1 & IH2)]; [exists []; split; constructor|].
  exists (b :: l2). split; constructor; assumption.
Qed.

(** ** The same machine *)
Section Identity.
  Variable W : Type.
  Lemma future_same S A (f : ufut W S A) : future_rel eq eq eq f f.
  Proof.
    intros w ws w' ws' s s' [P Q] <-. cbn in P, Q. apply Forall2_eq in Q. subst w' ws'.
    destruct (udrive f w ws s) as [[a s1] l]. split; [|split; [reflexivity|split; [reflexivity|apply Forall2_refl]]].
    destruct a as [[a|]|]; repeat constructor.
  Qed.
End Identity.
Lemma future_mono W1 W2 (RW : W1 -> W2 -> Prop) S S' A A' (RS RS' : S -> S' -> Prop) (RA RA' : A -> A' -> Prop) f f' :
  (forall x y, RS x y <-> RS' x y) -> (forall x y, RA x y -> RA' x y) -> future_rel RW RS RA f f' -> future_rel RW RS' RA' f f'.
Proof.
  intros I J H w ws w' ws' s s' P Q. apply I in Q. specialize (H w ws w' ws' s s' P Q).
  destruct (udrive f w ws s) as [[a s1] l], (udrive f' w' ws' s') as [[a' s1'] l'].
  destruct H as (H1 & H2 & H3). split; [|split; [now apply I|exact H3]].
  revert H1. apply opt_rel_mono. intros x y. apply opt_rel_mono. exact J.
Qed.
Lemma store_same m X (s s' : X * Shared m * Ctx m) : store_rel (identity_relations m) eq s s' <-> s = s'.
Proof.
  destruct s as [[x sh] cx], s' as [[x' sh'] cx']. cbn. split; [intros (-> & -> & ->); reflexivity|].
  intros K. injection K as -> -> ->. auto.
Qed.
Lemma response_same A (a b : response A) : a = b -> response_rel eq a b.
Proof. intros <-. apply response_eq. Qed.
Theorem identity_futures W m (F : futures W m) : (forall u v, u_disc m (u_put m u v) = u_disc m u) ->
  similar_futures (identity_relations m) eq F F.
Proof.
  intros V. constructor; cbn [identity_relations r_state r_sup r_shared r_event r_ctx]; intros; subst; try reflexivity;
    try apply opt_refl; try apply V;
    try match goal with H : node_rel _ _ _ _ |- _ => apply node_eq in H; subst end; try apply future_same.
  all: apply (@future_mono _ _ eq _ _ _ _ eq _ eq); [intros; symmetry; apply store_same|auto using response_same|apply future_same].
Qed.

(** ** Reversed *)
Section Converse.
  Variables W1 W2 : Type.
  Variable RW : W1 -> W2 -> Prop.
  Lemma future_conv S S' A A' (RS : S -> S' -> Prop) (RA : A -> A' -> Prop) f f' :
    future_rel RW RS RA f f' -> future_rel (converse RW) (converse RS) (converse RA) f' f.
  Proof.
    intros H w ws w' ws' s s' [P1 P2] Q. cbn in P1, P2. apply Forall2_conv in P2.
    specialize (H w' ws' w ws s' s (conj P1 P2) Q).
    destruct (udrive f' w ws s) as [[a s1] l], (udrive f w' ws' s') as [[a' s1'] l'].
    destruct H as (H1 & H2 & [H3 H4]). split; [|split; [exact H2|split; [exact H3|now apply Forall2_conv]]].
    apply opt_conv in H1. revert H1. apply opt_rel_mono. intros x y. apply opt_conv.
  Qed.
  Variables m1 m2 : machine.
  Variable R : relations m1 m2.
  Variables (F1 : futures W1 m1) (F2 : futures W2 m2).
  Hypothesis H : similar_futures R RW F1 F2.
  Hypothesis V : forall u v, u_disc m2 (u_put m2 u v) = u_disc m2 u.
  Lemma store_conv X X' (RX : X -> X' -> Prop) s s' :
    converse (store_rel R RX) s s' <-> store_rel (converse_relations R) (converse RX) s s'.
  Proof. destruct s as [[x sh] cx], s' as [[x' sh'] cx']. cbn. reflexivity. Qed.
  Lemma conv_eq A (x y : A) : converse eq x y -> x = y.
  Proof. intros E. symmetry. exact E. Qed.
  Lemma conv_response A B (U : A -> B -> Prop) x y : converse (response_rel U) x y -> response_rel (converse U) x y.
  Proof. apply response_conv. Qed.
  Theorem converse_futures : similar_futures (converse_relations R) (converse RW) F2 F1.
  Proof.
    constructor; cbn [converse_relations r_state r_sup r_shared r_event r_ctx].
    - exact (sf_initial H).
    - intros x x' y y' P Q. symmetry. exact (sf_s_disc H _ _ _ _ P Q).
    - intros x x' y y' P Q. symmetry. exact (sf_u_disc H _ _ _ _ P Q).
    - intros x x' P. apply opt_conv. exact (sf_s_super H _ _ P).
    - intros x x' P. apply opt_conv. exact (sf_u_super H _ _ P).
    - intros x x' v v' w w' P Q E1 E2 D.
      assert (O : opt_rel (r_sup R) (s_super m1 x') (s_super m2 x)) by exact (sf_s_super H _ _ P).
      rewrite E1, E2 in O. inversion O as [|? ? O1]; subst.
      exact (@sf_s_put _ _ _ _ _ _ _ _ H x' x v' v w' w P Q E2 E1 (proj2 (sf_u_disc H _ _ _ _ Q O1) D)).
    - intros x x' v v' w w' P Q E1 E2 D.
      assert (O : opt_rel (r_sup R) (u_super m1 x') (u_super m2 x)) by exact (sf_u_super H _ _ P).
      rewrite E1, E2 in O. inversion O as [|? ? O1]; subst.
      exact (@sf_u_put _ _ _ _ _ _ _ _ H x' x v' v w' w P Q E2 E1 (proj2 (sf_u_disc H _ _ _ _ Q O1) D)).
    - exact V.
    - intros e e' E. refine (@future_mono _ _ _ _ _ _ _ _ _ _ _ _ _ _ _ (future_conv (sf_s_handler H _ _ E))); [intros; apply store_conv|apply conv_response].
    - refine (@future_mono _ _ _ _ _ _ _ _ _ _ _ _ _ _ _ (future_conv (sf_s_entry H))); [intros; apply store_conv|apply conv_eq].
    - refine (@future_mono _ _ _ _ _ _ _ _ _ _ _ _ _ _ _ (future_conv (sf_s_exit H))); [intros; apply store_conv|apply conv_eq].
    - intros e e' E. refine (@future_mono _ _ _ _ _ _ _ _ _ _ _ _ _ _ _ (future_conv (sf_u_handler H _ _ E))); [intros; apply store_conv|apply conv_response].
    - refine (@future_mono _ _ _ _ _ _ _ _ _ _ _ _ _ _ _ (future_conv (sf_u_entry H))); [intros; apply store_conv|apply conv_eq].
    - refine (@future_mono _ _ _ _ _ _ _ _ _ _ _ _ _ _ _ (future_conv (sf_u_exit H))); [intros; apply store_conv|apply conv_eq].
    - intros n n' e e' N E. apply node_conv in N. refine (@future_mono _ _ _ _ _ _ _ _ _ _ _ _ _ _ _ (future_conv (sf_before_dispatch H _ _ N E))); [reflexivity|apply conv_eq].
    - intros n n' e e' N E. apply node_conv in N. refine (@future_mono _ _ _ _ _ _ _ _ _ _ _ _ _ _ _ (future_conv (sf_after_dispatch H _ _ N E))); [reflexivity|apply conv_eq].
    - intros a a' b b' P Q. refine (@future_mono _ _ _ _ _ _ _ _ _ _ _ _ _ _ _ (future_conv (sf_before_transition H _ _ _ _ P Q))); [reflexivity|apply conv_eq].
    - intros a a' b b' P Q. refine (@future_mono _ _ _ _ _ _ _ _ _ _ _ _ _ _ _ (future_conv (sf_after_transition H _ _ _ _ P Q))); [reflexivity|apply conv_eq].
  Qed.
End Converse.

(** ** Composed *)
Section Composition.
  Variables W1 W2 W3 : Type.
  Variables (RW : W1 -> W2 -> Prop) (SW : W2 -> W3 -> Prop).
  Lemma future_comp S1 S2 S3 A1 A2 A3 (RS : S1 -> S2 -> Prop) (SS : S2 -> S3 -> Prop) (RA : A1 -> A2 -> Prop) (SA : A2 -> A3 -> Prop) f1 f2 f3 :
    future_rel RW RS RA f1 f2 -> future_rel SW SS SA f2 f3 ->
    future_rel (compose RW SW) (compose RS SS) (compose RA SA) f1 f3.
  Proof.
    intros H K w ws w' ws' s s' [P1 P2] (t & Q1 & Q2). cbn in P1, P2.
    destruct P1 as (v & P1 & P1'). apply Forall2_split in P2. destruct P2 as (vs & P2 & P2').
    specialize (H w ws v vs s t (conj P1 P2) Q1). specialize (K v vs w' ws' t s' (conj P1' P2') Q2).
    destruct (udrive f1 w ws s) as [[a1 s1] l1], (udrive f2 v vs t) as [[a2 s2] l2], (udrive f3 w' ws' s') as [[a3 s3] l3].
    destruct H as (H1 & H2 & [H3 H4]), K as (K1 & K2 & [K3 K4]).
    split; [|split; [eexists; eauto|split; [eexists; eauto|exact (Forall2_comp H4 K4)]]].
    pose proof (opt_comp H1 K1) as O. revert O. apply opt_rel_mono. intros x z (y & O1 & O2). exact (opt_comp O1 O2).
  Qed.
  Variables m1 m2 m3 : machine.
  Variables (R : relations m1 m2) (S : relations m2 m3).
  Variables (F1 : futures W1 m1) (F2 : futures W2 m2) (F3 : futures W3 m3).
  Hypotheses (H : similar_futures R RW F1 F2) (K : similar_futures S SW F2 F3).
  Notation RS := (composed_relations R S).
  Lemma store_comp X Y Z (RX : X -> Y -> Prop) (SX : Y -> Z -> Prop) s s' :
    compose (store_rel R RX) (store_rel S SX) s s' <-> store_rel RS (compose RX SX) s s'.
  Proof.
    destruct s as [[x sh] cx], s' as [[x' sh'] cx']. cbn. split.
    - intros ([[y sh0] cx0] & (P1 & P2 & P3) & (Q1 & Q2 & Q3)). repeat split; eexists; eauto.
    - intros ((y & P1 & Q1) & (sh0 & P2 & Q2) & (cx0 & P3 & Q3)). exists (y, sh0, cx0). repeat split; assumption.
  Qed.
  Lemma comp_eq A (x y : A) : compose eq eq x y -> x = y.
  Proof. intros (z & -> & ->). reflexivity. Qed.
  Lemma comp_response A B C (U : A -> B -> Prop) (V : B -> C -> Prop) x z :
    compose (response_rel U) (response_rel V) x z -> response_rel (compose U V) x z.
  Proof. intros (y & P & Q). exact (response_comp P Q). Qed.
  Theorem composed_futures : similar_futures RS (compose RW SW) F1 F3.
  Proof.
    constructor; cbn [composed_relations r_state r_sup r_shared r_event r_ctx].
    - eexists. split; [exact (sf_initial H)|exact (sf_initial K)].
    - intros x x' y y' (x0 & P1 & P2) (y0 & Q1 & Q2). etransitivity; [exact (sf_s_disc H _ _ _ _ P1 Q1)|exact (sf_s_disc K _ _ _ _ P2 Q2)].
    - intros x x' y y' (x0 & P1 & P2) (y0 & Q1 & Q2). etransitivity; [exact (sf_u_disc H _ _ _ _ P1 Q1)|exact (sf_u_disc K _ _ _ _ P2 Q2)].
    - intros x x' (x0 & P1 & P2). exact (opt_comp (sf_s_super H _ _ P1) (sf_s_super K _ _ P2)).
    - intros x x' (x0 & P1 & P2). exact (opt_comp (sf_u_super H _ _ P1) (sf_u_super K _ _ P2)).
    - intros x x' v v' w w' (x0 & P1 & P2) (v0 & Q1 & Q2) E1 E2 D.
      pose proof (sf_s_super H _ _ P1) as O. pose proof (sf_s_super K _ _ P2) as O'.
      rewrite E1 in O. rewrite E2 in O'. inversion O as [|? w0 O1 EO E0]; subst. rewrite <- E0 in O'. inversion O' as [|? ? O2]; subst.
      exists (s_put m2 x0 v0). symmetry in E0. split.
      + exact (@sf_s_put _ _ _ _ _ _ _ _ H x x0 v v0 w w0 P1 Q1 E1 E0 D).
      + exact (@sf_s_put _ _ _ _ _ _ _ _ K x0 x' v0 v' w0 w' P2 Q2 E0 E2 (proj1 (sf_u_disc H _ _ _ _ Q1 O1) D)).
    - intros x x' v v' w w' (x0 & P1 & P2) (v0 & Q1 & Q2) E1 E2 D.
      pose proof (sf_u_super H _ _ P1) as O. pose proof (sf_u_super K _ _ P2) as O'.
      rewrite E1 in O. rewrite E2 in O'. inversion O as [|? w0 O1 EO E0]; subst. rewrite <- E0 in O'. inversion O' as [|? ? O2]; subst.
      exists (u_put m2 x0 v0). symmetry in E0. split.
      + exact (@sf_u_put _ _ _ _ _ _ _ _ H x x0 v v0 w w0 P1 Q1 E1 E0 D).
      + exact (@sf_u_put _ _ _ _ _ _ _ _ K x0 x' v0 v' w0 w' P2 Q2 E0 E2 (proj1 (sf_u_disc H _ _ _ _ Q1 O1) D)).
    - exact (sf_u_put_disc H).
    - intros e e' (e0 & P & Q). refine (@future_mono _ _ _ _ _ _ _ _ _ _ _ _ _ _ _ (future_comp (sf_s_handler H _ _ P) (sf_s_handler K _ _ Q))); [intros; apply store_comp|apply comp_response].
    - refine (@future_mono _ _ _ _ _ _ _ _ _ _ _ _ _ _ _ (future_comp (sf_s_entry H) (sf_s_entry K))); [intros; apply store_comp|apply comp_eq].
    - refine (@future_mono _ _ _ _ _ _ _ _ _ _ _ _ _ _ _ (future_comp (sf_s_exit H) (sf_s_exit K))); [intros; apply store_comp|apply comp_eq].
    - intros e e' (e0 & P & Q). refine (@future_mono _ _ _ _ _ _ _ _ _ _ _ _ _ _ _ (future_comp (sf_u_handler H _ _ P) (sf_u_handler K _ _ Q))); [intros; apply store_comp|apply comp_response].
    - refine (@future_mono _ _ _ _ _ _ _ _ _ _ _ _ _ _ _ (future_comp (sf_u_entry H) (sf_u_entry K))); [intros; apply store_comp|apply comp_eq].
    - refine (@future_mono _ _ _ _ _ _ _ _ _ _ _ _ _ _ _ (future_comp (sf_u_exit H) (sf_u_exit K))); [intros; apply store_comp|apply comp_eq].
    - intros n n' e e' N (e0 & E1 & E2). apply node_split in N. destruct N as (n0 & N1 & N2).
      refine (@future_mono _ _ _ _ _ _ _ _ _ _ _ _ _ _ _ (future_comp (sf_before_dispatch H _ _ N1 E1) (sf_before_dispatch K _ _ N2 E2))); [reflexivity|apply comp_eq].
    - intros n n' e e' N (e0 & E1 & E2). apply node_split in N. destruct N as (n0 & N1 & N2).
      refine (@future_mono _ _ _ _ _ _ _ _ _ _ _ _ _ _ _ (future_comp (sf_after_dispatch H _ _ N1 E1) (sf_after_dispatch K _ _ N2 E2))); [reflexivity|apply comp_eq].
    - intros a a' b b' (a0 & P1 & P2) (b0 & Q1 & Q2).
      refine (@future_mono _ _ _ _ _ _ _ _ _ _ _ _ _ _ _ (future_comp (sf_before_transition H _ _ _ _ P1 Q1) (sf_before_transition K _ _ _ _ P2 Q2))); [reflexivity|apply comp_eq].
    - intros a a' b b' (a0 & P1 & P2) (b0 & Q1 & Q2).
      refine (@future_mono _ _ _ _ _ _ _ _ _ _ _ _ _ _ _ (future_comp (sf_after_transition H _ _ _ _ P1 Q1) (sf_after_transition K _ _ _ _ P2 Q2))); [reflexivity|apply comp_eq].
  Qed.
End Composition.
