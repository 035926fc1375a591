(** EqualityProofs.v — C26, and equality of clones (C27). *)

From Coq Require Import List Bool Arith.
From Verif Require Import Machine Api Equality.
Set Implicit Arguments.

Lemma response_partial (S : eq_type) : lawful_partial_eq S -> lawful_partial_eq (response_type S).
Proof.
  intros [Hs Ht]. split.
  - intros [| |a] [| |b]; simpl; try discriminate; auto.
  - intros [| |a] [| |b] [| |c]; simpl; try discriminate; eauto.
Qed.
Lemma node_partial (S U : eq_type) : lawful_partial_eq S -> lawful_partial_eq U ->
  lawful_partial_eq (node_type S U).
Proof.
  intros [Hs Ht] [Hs' Ht']. split.
  - intros [a|a] [b|b]; simpl; try discriminate; auto.
  - intros [a|a] [b|b] [c|c]; simpl; try discriminate; eauto.
Qed.
Lemma response_eq_lawful (S : eq_type) : lawful_eq S -> lawful_eq (response_type S).
Proof. intros H E [| |a]; simpl; [reflexivity|reflexivity|apply H, E]. Qed.
Lemma node_eq_lawful (S U : eq_type) : lawful_eq S -> lawful_eq U -> lawful_eq (node_type S U).
Proof.
  intros H1 H2 E [a|a]; simpl in *; apply andb_prop in E; destruct E as [E1 E2]; auto.
Qed.

Section Machines.
  Variable m : machine.
  Variable eq_state : State m -> State m -> bool.
  Variable eq_shared : Shared m -> Shared m -> bool.

  Lemma inner_partial : partial_equivalence eq_state -> partial_equivalence eq_shared ->
    partial_equivalence (inner_eqb m eq_state eq_shared).
  Proof.
    intros [Hs Ht] [Hs' Ht']. unfold inner_eqb. split.
    - intros a b H. apply andb_prop in H. destruct H as [H1 H2].
      now rewrite (Hs' _ _ H1), (Hs _ _ H2).
    - intros a b c H G. apply andb_prop in H. apply andb_prop in G.
      destruct H as [H1 H2]. destruct G as [G1 G2].
      now rewrite (Ht' _ _ _ H1 G1), (Ht _ _ _ H2 G2).
  Qed.
  Lemma sm_partial : partial_equivalence eq_state -> partial_equivalence eq_shared ->
    partial_equivalence (sm_eqb m eq_state eq_shared).
  Proof.
    intros H1 H2. destruct (inner_partial H1 H2) as [Hs Ht]. unfold sm_eqb. split.
    - intros a b H. apply andb_prop in H. destruct H as [H3 H4].
      apply eqb_prop in H4. rewrite (Hs _ _ H3), H4. simpl. apply eqb_reflx.
    - intros a b c H G. apply andb_prop in H. apply andb_prop in G.
      destruct H as [H3 H4]. destruct G as [G3 G4]. apply eqb_prop in H4. apply eqb_prop in G4.
      rewrite (Ht _ _ _ H3 G3), H4, G4. simpl. apply eqb_reflx.
  Qed.
  Lemma im_partial : partial_equivalence eq_state -> partial_equivalence eq_shared ->
    partial_equivalence (im_eqb m eq_state eq_shared).
  Proof. intros H1 H2. destruct (inner_partial H1 H2) as [Hs Ht]. split; unfold im_eqb; eauto. Qed.
  Lemma um_partial : partial_equivalence eq_state -> partial_equivalence eq_shared ->
    partial_equivalence (um_eqb m eq_state eq_shared).
  Proof. intros H1 H2. destruct (inner_partial H1 H2) as [Hs Ht]. split; unfold um_eqb; eauto. Qed.

  Variables state_Eq shared_Eq : bool.
  Hypothesis Hstate : lawful_eq (EqType eq_state state_Eq).
  Hypothesis Hshared : lawful_eq (EqType eq_shared shared_Eq).

  Lemma inner_eq_lawful : lawful_eq (inner_type m eq_state eq_shared state_Eq shared_Eq).
  Proof.
    intros E a. simpl in E. apply andb_prop in E. destruct E as [E1 E2].
    simpl. unfold inner_eqb. apply andb_true_intro.
    exact (conj (Hshared E1 (shared_storage a)) (Hstate E2 (state a))).
  Qed.
  Lemma im_eq_lawful : lawful_eq (im_type m eq_state eq_shared state_Eq shared_Eq).
  Proof. intros E a. exact (inner_eq_lawful E (im_inner a)). Qed.
  Lemma um_eq_lawful : lawful_eq (um_type m eq_state eq_shared state_Eq shared_Eq).
  Proof. intros E a. exact (inner_eq_lawful E (um_inner a)). Qed.
  Lemma sm_eq_lawful_if : shared_Eq && state_Eq = true ->
    lawful_eq (sm_type m eq_state eq_shared).
  Proof.
    intros E _ a. simpl. unfold sm_eqb. pose proof (inner_eq_lawful E (sm_inner a)) as H. simpl in H.
    rewrite H. simpl. apply eqb_reflx.
  Qed.
End Machines.

Lemma clone_equal (m : machine) eq_state eq_shared csh cs (sm : state_machine m) :
  (forall sh, eq_shared sh (csh sh) = true) -> (forall x, eq_state x (cs x) = true) ->
  sm_eqb m eq_state eq_shared sm (clone csh cs sm) = true.
Proof.
  intros H1 H2. unfold sm_eqb, inner_eqb, clone. simpl. rewrite H1, H2. simpl. apply eqb_reflx.
Qed.
