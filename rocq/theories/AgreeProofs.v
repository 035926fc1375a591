(** AgreeProofs.v — lemmas for C81. *)

From Coq Require Import List Bool Arith.
From Verif Require Import Machine Api Spec Sim KindSim AgreeSpec.
Import ListNotations.
Set Implicit Arguments.

Section Agree.
  Variables m1 m2 : machine.
  Variable R : relations m1 m2.
  Variable stack : nat.
  Variable md : mode.
  Hypothesis HI : forall sm sm' cx cx', machine_rel R sm sm' -> r_ctx R cx cx' ->
    api_rel R (init_with_context stack md sm cx) (init_with_context stack md sm' cx').
  Hypothesis HH : forall sm sm' e e' cx cx', machine_rel R sm sm' -> r_event R e e' -> r_ctx R cx cx' ->
    api_rel R (handle_with_context stack md sm e cx) (handle_with_context stack md sm' e' cx').

  Lemma exec_agree o o' sm sm' out out' sm1 sm1' cx cx' tr tr' : op_rel R o o' -> machine_rel R sm sm' ->
    exec stack md o sm = (out, sm1, cx, tr) -> exec stack md o' sm' = (out', sm1', cx', tr') ->
    machine_rel R sm1 sm1' /\ called_rel R (Called out cx tr) (Called out' cx' tr').
  Proof.
    intros O M E E'. destruct O as [c c' C|e e' c c' He C|f f' F|f f' F]; cbn [exec] in E, E'.
    - destruct (@HI _ _ _ _ M C) as (A1 & A2 & A3 & A4). injection E as <- <- <- <-. injection E' as <- <- <- <-.
      split; [exact A2|]. repeat split; cbn; auto. now constructor.
    - destruct (@HH _ _ _ _ _ _ M He C) as (A1 & A2 & A3 & A4). injection E as <- <- <- <-. injection E' as <- <- <- <-.
      split; [exact A2|]. repeat split; cbn; auto. now constructor.
    - injection E as <- <- <- <-. injection E' as <- <- <- <-. destruct M as (M1 & M2 & M3).
      split; [|repeat split; cbn; constructor]. repeat split; cbn; auto.
    - injection E as <- <- <- <-. injection E' as <- <- <- <-. destruct M as (M1 & M2 & M3).
      split; [|repeat split; cbn; constructor]. repeat split; cbn; auto.
  Qed.
  Lemma history_agree ops ops' : Forall2 (op_rel R) ops ops' -> forall sm sm' cs cs' sm1 sm1',
    machine_rel R sm sm' -> history stack md ops sm cs sm1 -> history stack md ops' sm' cs' sm1' ->
    machine_rel R sm1 sm1' /\ Forall2 (called_rel R) cs cs'.
  Proof.
    intros F. induction F as [|o o' ops ops' O F IH]; intros sm sm' cs cs' sm1 sm1' M H H'.
    - inversion H; subst. inversion H'; subst. split; [exact M|constructor].
    - inversion H as [|? ? ? out sm2 cx tr cs1 ? E H2]; subst. inversion H' as [|? ? ? out' sm2' cx' tr' cs1' ? E' H2']; subst.
      destruct (exec_agree O M E E') as [M2 C]. destruct (IH _ _ _ _ _ _ M2 H2 H2') as [M3 G].
      split; [exact M3|]. now constructor.
  Qed.
End Agree.
