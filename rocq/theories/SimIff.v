(** SimIff.v — equivalent relations simulate alike. *)

From Coq Require Import List.
From Verif Require Import Machine Api Sim.
Import ListNotations.
Set Implicit Arguments.

Lemma response_rel_mono A B (R R' : A -> B -> Prop) a b : (forall x y, R x y -> R' x y) -> response_rel R a b -> response_rel R' a b.
Proof. intros I []; constructor; auto. Qed.
Lemma reply_rel_mono A B (R R' : A -> B -> Prop) a b : (forall x y, R x y -> R' x y) -> reply_rel R a b -> reply_rel R' a b.
Proof. intros I []; constructor; auto. Qed.
Lemma opt_rel_mono A B (R R' : A -> B -> Prop) a b : (forall x y, R x y -> R' x y) -> opt_rel R a b -> opt_rel R' a b.
Proof. intros I []; constructor; auto. Qed.
Lemma node_rel_mono A A' B B' (R R' : A -> B -> Prop) (U U' : A' -> B' -> Prop) a b :
  (forall x y, R x y -> R' x y) -> (forall x y, U x y -> U' x y) -> node_rel R U a b -> node_rel R' U' a b.
Proof. intros I J []; constructor; auto. Qed.

Section Iff.
  Variables m1 m2 : machine.
  Variables (S S' : State m1 -> State m2 -> Prop) (U U' : Sup m1 -> Sup m2 -> Prop).
  Variables (H : Shared m1 -> Shared m2 -> Prop) (E : Event m1 -> Event m2 -> Prop) (C : Ctx m1 -> Ctx m2 -> Prop).
  Hypothesis IS : forall x y, S x y <-> S' x y.
  Hypothesis IU : forall x y, U x y <-> U' x y.
  Notation R := (Relations m1 m2 S U H E C).
  Notation R' := (Relations m1 m2 S' U' H E C).

  Lemma callback_mono A B X Y (RA RA' : A -> B -> Prop) (RX RX' : X -> Y -> Prop) c c' :
    (forall x y, RA x y -> RA' x y) -> (forall x y, RX x y -> RX' x y) -> callback_rel R RA RX c c' -> callback_rel R' RA' RX' c c'.
  Proof.
    intros I J. destruct c as [[[a x] sh] cx], c' as [[[a' x'] sh'] cx']. cbn. intros (P & Q & T).
    split; [|split; auto]. eapply reply_rel_mono; [exact I|exact P].
  Qed.
  Lemma node_back n n' : node_rel S' U' n n' -> node_rel S U n n'.
  Proof. apply node_rel_mono; intros; [apply IS|apply IU]; assumption. Qed.
  Lemma similar_iff : similar R -> similar R'.
  Proof.
    intros [i1 i2 i3 i4 i5 i6 i7 i8 i9 i10 i11 i12 i13 i14 i15 i16 i17].
    cbn [r_state r_sup r_shared r_event r_ctx] in *.
    assert (IS1 : forall x y, S x y -> S' x y) by (intros; apply IS; assumption).
    assert (IU1 : forall x y, U x y -> U' x y) by (intros; apply IU; assumption).
    assert (IR1 : forall x y, response_rel S x y -> response_rel S' x y) by (intros; eapply response_rel_mono; eauto).
    assert (IE : forall T (x y : T), x = y -> x = y) by auto.
    constructor; cbn [r_state r_sup r_shared r_event r_ctx]; intros;
      repeat match goal with K : S' _ _ |- _ => apply IS in K | K : U' _ _ |- _ => apply IU in K | K : node_rel S' U' _ _ |- _ => apply node_back in K end;
      eauto;
      try (eapply opt_rel_mono; [exact IU1|auto]; fail);
      try (apply IS; auto; fail); try (apply IU; auto; fail).
    - refine (@callback_mono _ _ _ _ _ _ _ _ _ _ IR1 IS1 (i8 _ _ _ _ _ _ _ _ _ _ _ _)); assumption.
    - refine (@callback_mono _ _ _ _ _ _ _ _ _ _ (IE _) IS1 (i9 _ _ _ _ _ _ _ _ _)); assumption.
    - refine (@callback_mono _ _ _ _ _ _ _ _ _ _ (IE _) IS1 (i10 _ _ _ _ _ _ _ _ _)); assumption.
    - refine (@callback_mono _ _ _ _ _ _ _ _ _ _ IR1 IU1 (i11 _ _ _ _ _ _ _ _ _ _ _ _)); assumption.
    - refine (@callback_mono _ _ _ _ _ _ _ _ _ _ (IE _) IU1 (i12 _ _ _ _ _ _ _ _ _)); assumption.
    - refine (@callback_mono _ _ _ _ _ _ _ _ _ _ (IE _) IU1 (i13 _ _ _ _ _ _ _ _ _)); assumption.
  Qed.
End Iff.
