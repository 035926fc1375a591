(** ViewProofs.v — the nodes callbacks are called on are views of the current state (C28). *)

From Coq Require Import List Bool Arith Lia.
From Verif Require Import Machine Blocking Awaitable Api Spec.
From Verif Require Import ThreadProofs DataProofs HookProofs.
Import ListNotations.
Set Implicit Arguments.

Lemma app_cons_split {A} (a b u : list A) o v :
  a ++ b = u ++ o :: v ->
  (exists v', a = u ++ o :: v' /\ v = v' ++ b) \/ (exists u', b = u' ++ o :: v /\ u = a ++ u').
Proof.
  revert u. induction a as [|x a IH]; intros u E; simpl in E.
  - right. exists u. auto.
  - destruct u as [|y u]; simpl in E.
    + left. inversion E; subst. exists a. auto.
    + inversion E; subst. destruct (IH u H1) as [[v' [-> ->]]|[u' [-> ->]]].
      * left. exists v'. auto.
      * right. exists u'. auto.
Qed.

Section Runs.
  Variable h : hierarchy.
  Variable m : machine.
  Variable stack : nat.
  Hypothesis W : well_formed h m stack.
  Hypothesis V : faithful_views m.
  Variable md : mode.

  Lemma thread_at tr : forall c out c' t1 o t2 n,
    thread (touches m) tr c out c' -> tr = t1 ++ o :: t2 -> node_called o = Some n ->
    exists c1 a c2, thread (touches m) t1 c (Ret tt) c1 /\ callback (touches m) o c1 a c2.
  Proof.
    induction tr as [tr IH] using (well_founded_induction (well_founded_ltof _ (@length (obs m)))).
    unfold ltof in IH.
    intros c out c' t1 o t2 n H E N. inversion H; subst.
    - destruct t1; discriminate.
    - destruct t1 as [|o1 [|? ?]]; try discriminate. inversion H1; subst.
      exists c, (Abort w), c'. split; [constructor|assumption].
    - destruct t1 as [|o1 t1]; inversion H2; subst.
      + exists c, (Ret None), c1. split; [constructor|assumption].
      + destruct (IH (t1 ++ o :: t2)) with (c := c1) (out := out) (c' := c') (t1 := t1) (o := o) (t2 := t2) (n := n)
          as [d [a [d2 [T C]]]]; auto.
        exists d, a, d2. split; [|assumption]. eapply thread_call; eauto.
    - destruct t1 as [|o1 [|o2 t1]]; inversion H2; subst.
      + exists c, (Ret (Some r)), c1. split; [constructor|assumption].
      + discriminate.
      + destruct (IH (t1 ++ o :: t2)) with (c := c1) (out := out) (c' := c') (t1 := t1) (o := o) (t2 := t2) (n := n)
          as [d [a [d2 [T C]]]]; auto; [simpl; lia|].
        exists d, a, d2. split; [|assumption]. eapply thread_answer; eauto.
  Qed.

  Lemma left_some o n sh cx : node_called (m := m) o = Some n -> exists n', node_left o sh cx = Some n'.
  Proof.
    destruct o; simpl; intros E; try discriminate; eauto.
    - destruct (node_handler _ _ _ _ _) as [[[? ?] ?] ?]. eauto.
    - destruct (node_exit _ _ _ _) as [[[? ?] ?] ?]. eauto.
    - destruct (node_entry _ _ _ _) as [[[? ?] ?] ?]. eauto.
  Qed.

  Lemma current_values (sm : state_machine m) e cx t1 o t2 n :
    a_tr (handle_with_context stack md sm e cx) = t1 ++ o :: t2 ->
    node_called o = Some n ->
    exists x sh1 cx1 a x' sh' cx' n',
      so_far m e (sm_state sm, sm_shared sm, cx) t1 (x, sh1, cx1) /\
      sees (touches m) x n /\
      callback (touches m) o (x, sh1, cx1) a (x', sh', cx') /\
      node_left o sh1 cx1 = Some n' /\ place_of m n' = place_of m n /\
      sees (touches m) x' n'.
  Proof.
    intros E N.
    assert (Q : exists c1 a c2, so_far m e (sm_state sm, sm_shared sm, cx) t1 c1 /\
                  callback (touches m) o c1 a c2).
    { destruct (@DataProofs.handle_threaded h m stack W V md sm e cx)
        as [[_ T]|(ta & tb & x1 & sh1 & cx1 & p & target & Et & As & Sh & T1 & T2)].
      - destruct (@thread_at _ _ _ _ _ _ _ _ T E N) as [c1 [a [c2 [T1 C]]]]. exists c1, a, c2. split; [left; exact T1|exact C].
      - rewrite Et in E. destruct (@app_cons_split _ _ _ _ _ _ E) as [[v' [Ea Ev]]|[u' [Eb Eu]]].
        + destruct (@thread_at _ _ _ _ _ _ _ _ T1 Ea N) as [c1 [a [c2 [Q1 C]]]]. exists c1, a, c2. split; [left; exact Q1|exact C].
        + destruct (@thread_at _ _ _ _ _ _ _ _ T2 Eb N) as [c1 [a [c2 [Q1 C]]]]. exists c1, a, c2. split; [|exact C].
          right. exists ta, u', x1, sh1, cx1, p, target. auto. }
    destruct Q as [[[x sh1] cx1] [a [[[x' sh'] cx'] [S C]]]].
    destruct (left_some o sh1 cx1 N) as [n' L].
    destruct (written W V C L) as [n1 [N1 [P S1]]].
    assert (n1 = n) by congruence. subst n1.
    exists x, sh1, cx1, a, x', sh', cx', n'.
    split; [exact S|]. split; [eapply called_sees; eauto|]. auto.
  Qed.
End Runs.
