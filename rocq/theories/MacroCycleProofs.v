(** MacroCycleProofs.v — superstates without cycles have ranks. *)

From Coq Require Import String List Bool Arith Lia Permutation.
From Verif Require Import Machine Blocking Awaitable Api Spec TripleProofs TransitionProofs ShapeProofs TotalProofs.
From Verif Require Import MacroSyntax MacroVisit MacroAnalyze MacroLower MacroGen MacroSem MacroSpec MacroBasics MacroExpandProofs MacroLowerProofs MacroCallProofs.
From Verif Require Import MacroMachineProofs MacroBehaviour MacroConfigProofs MacroPathProofs MacroExtraProofs.
Import ListNotations.
Open Scope string_scope.
Open Scope list_scope.
Set Implicit Arguments.
Local Open Scope comp_scope.

Section Climb.
  Variable item : item_impl.
  Hypothesis ND : NoDup (map m_name (methods item)).

  Definition climb_parent (v : ident) : option ident :=
    match find (fun m => marked "superstate" m && String.eqb (m_name m) v) (methods item) with
    | Some m => declared "superstate" "superstate" m
    | None => None
    end.
  Lemma climb_parent_above v u : climb_parent v = Some u -> above item v u /\ In v (map m_name (methods item)).
  Proof.
    unfold climb_parent. destruct (find _ _) as [m|] eqn:F; [|discriminate]. intros D.
    apply find_some in F as [I K]. apply andb_true_iff in K as [K N]. apply String.eqb_eq in N. subst v.
    split; [exact (above_direct item m I K D)|now apply in_map].
  Qed.
  Lemma same_method m m' : In m (methods item) -> In m' (methods item) -> m_name m = m_name m' -> m = m'.
  Proof.
    clear - ND. induction (methods item) as [|z ms IH]; [intros []|]. cbn in ND. inversion ND as [|? ? N ND']; subst.
    intros [->|I] [->|I'] E; auto; exfalso; apply N; [rewrite E|rewrite <- E]; now apply in_map.
  Qed.
  Lemma climb_parent_of m u : In m (methods item) -> marked "superstate" m = true ->
    declared "superstate" "superstate" m = Some u -> climb_parent (m_name m) = Some u.
  Proof.
    intros I K D. unfold climb_parent. destruct (find _ _) as [m'|] eqn:F.
    - apply find_some in F as [I' K']. apply andb_true_iff in K' as [K' N]. apply String.eqb_eq in N.
      now rewrite (same_method _ _ I' I N).
    - apply (find_none _ _ F) in I. rewrite K, String.eqb_refl in I. discriminate.
  Qed.

  Fixpoint climb (k : nat) (v : ident) : list ident :=
    match k with
    | 0 => []
    | S k => match climb_parent v with Some u => v :: climb k u | None => [] end
    end.
  Lemma in_climb k : forall v x, In x (climb k v) -> x = v \/ above item v x.
  Proof.
    induction k as [|k IH]; intros v x; [intros []|]. cbn. destruct (climb_parent v) as [u|] eqn:P; [|intros []].
    apply climb_parent_above in P as [A _]. intros [<-|I]; [now left|right].
    destruct (IH _ _ I) as [->|B]; [exact A|exact (above_trans A B)].
  Qed.
  Hypothesis NC : forall v, ~ above item v v.
  Lemma climb_nodup k : forall v, NoDup (climb k v).
  Proof.
    induction k as [|k IH]; intros v; [constructor|]. cbn. destruct (climb_parent v) as [u|] eqn:P; constructor; [|apply IH].
    apply climb_parent_above in P as [A _]. intros I. apply (NC (v := v)).
    destruct (in_climb _ _ _ I) as [->|B]; [exact A|exact (above_trans A B)].
  Qed.
  Lemma climb_bound k v : length (climb k v) <= length (methods item).
  Proof.
    rewrite <- (map_length m_name). apply NoDup_incl_length; [apply climb_nodup|].
    revert v. induction k as [|k IH]; intros v x; [intros []|]. cbn. destruct (climb_parent v) as [u|] eqn:P; [|intros []].
    apply climb_parent_above in P as [_ A]. intros [<-|I]; [exact A|exact (IH _ _ I)].
  Qed.
  Lemma climb_enough k : forall v, length (climb k v) < k -> climb (S k) v = climb k v.
  Proof.
    induction k as [|k IH]; intros v L; [cbn in L; lia|]. change (climb (S (S k)) v) with
      (match climb_parent v with Some u => v :: climb (S k) u | None => [] end).
    cbn [climb] in *. destruct (climb_parent v) as [u|]; [|reflexivity]. f_equal. apply IH. cbn in L. lia.
  Qed.
  Lemma no_cycle_acyclic : acyclic item.
  Proof.
    set (n := S (length (methods item))). exists (fun v => S n - length (climb (S n) v)).
    intros m u I K D. pose proof (climb_parent_of _ I K D) as P.
    cbn [climb]. rewrite P. change (match climb_parent u with Some u0 => u :: climb n u0 | None => [] end) with (climb (S n) u).
    rewrite (@climb_enough n u) by (pose proof (@climb_bound n u); subst n; lia). cbn [length].
    pose proof (@climb_bound n u). subst n. lia.
  Qed.
End Climb.

Lemma acyclic_no_cycle item : acyclic item -> forall v, ~ above item v v.
Proof.
  intros [rank R]. assert (H : forall a b, above item a b -> rank a < rank b).
  { induction 1 as [m u I K D|a b c _ IH1 _ IH2]; [exact (R m u I K D)|lia]. }
  intros v A. specialize (H _ _ A). lia.
Qed.

(** ** Entering only ends in user code *)
Section Enter.
  Variable m : machine.
  Definition ends {X A} (c : comp m X A) : Prop :=
    forall x sh cx w, r_out (c x sh cx) = Abort w -> w = Panicked \/ w = DroppedFuture.
  Lemma ends_ret {X A} (a : A) : ends (ret a : comp m X A).
  Proof. intros x sh cx w. discriminate. Qed.
  Lemma ends_self {X} : ends (self : comp m X X).
  Proof. intros x sh cx w. discriminate. Qed.
  Lemma ends_bind {X A B} (c : comp m X A) (k : A -> comp m X B) :
    ends c -> (forall a, ends (k a)) -> ends (bind c k).
  Proof.
    intros Hc Hk x sh cx w E. specialize (Hc x sh cx). unfold bind in E.
    destruct (r_out (c x sh cx)) as [a|w']; simpl in E; [exact (Hk _ _ _ _ _ E)|injection E as <-; exact (Hc _ eq_refl)].
  Qed.
  Lemma ends_via {X V A} (put : X -> V -> X) v (c : comp m V A) : ends c -> ends (via put v c).
  Proof. intros Hc x sh cx. apply Hc. Qed.
  Lemma ends_action {X} f (o : X -> obs m) : ends (call_action f o : comp m X unit).
  Proof.
    intros x sh cx w. unfold call_action.
    destruct (f x sh cx) as [[[[| |] x'] sh'] cx']; simpl; intros E; inversion E; auto.
  Qed.
  Ltac ends :=
    repeat first
      [ apply ends_ret | apply ends_self | apply ends_action | apply ends_via
      | apply ends_bind; [|intros ?] | assumption
      | match goal with |- ends (match ?x with _ => _ end) => destruct x end ].
  Lemma ends_superstate_enter n : ends (superstate_enter m n).
  Proof. induction n as [|[|n] IH]; [simpl; ends.. |]. change (ends (u <- self ;; match u_super m u with Some v => via (u_put m) v (superstate_enter m (S n)) | None => ret tt end ;;; u_call_entry m)). ends. Qed.
  Lemma ends_climb n : ends (climb_entry m n).
  Proof. induction n as [|n IH]; simpl; ends. Qed.
  Lemma ends_mode_enter md n : ends (mode_enter m md n).
  Proof.
    unfold mode_enter. destruct md.
    - destruct n as [|[|n]]; unfold Blocking.state_enter; ends; apply ends_superstate_enter.
    - induction n as [|[|n] IH]; [simpl; ends.. |].
      change (ends (x <- self ;; match s_super m x with Some u => via (s_put m) u (climb_entry m n) | None => ret tt end ;;; Awaitable.state_enter m (S n))).
      ends. apply ends_climb.
  Qed.
  Lemma init_ends h stack md (sm : state_machine m) cx l w : follows h m ->
    chain h (leaf_parent h (s_disc m (sm_state sm))) l -> length l <= stack ->
    a_out (init_with_context stack md sm cx) = Abort w -> w = Panicked \/ w = DroppedFuture.
  Proof.
    intros F C L. unfold init_with_context. destruct (initialized sm); cbn [negb]; [discriminate|].
    unfold run_inner. cbv zeta. rewrite mode_init_eq.
    assert (E : exists d, Blocking.state_depth m stack (state (sm_inner sm)) = Ret d).
    { unfold Blocking.state_depth. unfold sm_state in C.
      destruct (s_super m (state (sm_inner sm))) as [u|] eqn:Es; [|now exists 1].
      rewrite (leaf_some F _ Es) in C. rewrite (superstate_depth_chain F u C L). now eexists. }
    destruct E as [d ->].
    pose proof (@ends_mode_enter md d (state (sm_inner sm)) (shared_storage (sm_inner sm)) cx w) as Q.
    set (r := bind (lift (Ret d)) (mode_enter m md) (state (sm_inner sm)) (shared_storage (sm_inner sm)) cx).
    assert (Q' : r_out r = r_out (mode_enter m md d (state (sm_inner sm)) (shared_storage (sm_inner sm)) cx)) by reflexivity.
    rewrite <- Q' in Q. cbn [a_out]. destruct (r_out r) as [[]|w']; [discriminate|].
    cbn. exact Q.
  Qed.
End Enter.

Section Exact.
  Variables Val Sh Ev Cx : Type.
  Variables (args : list meta) (item : item_impl) (g : generated) (c : config).
  Variables sms ums : list impl_fn.
  Hypothesis ND : NoDup (map m_name (methods item)).
  Hypothesis X : expanded args item g c sms ums.
  Hypothesis CO : compiles g.

  Lemma chain_or_cycle : forall k seen i mi,
    k + length seen = length ums -> NoDup seen -> (forall j, In j seen -> j < length ums) ->
    nth_error ums i = Some mi ->
    (forall j mj, In j seen -> nth_error ums j = Some mj -> above item (m_name mj) (m_name mi)) ->
    (exists l, chain (generated_hierarchy g) (Some i) l /\ length l <= k) \/
    (exists v, (m_name mi = v \/ above item (m_name mi) v) /\ above item v v).
  Proof.
    induction k as [|k IH]; intros seen i mi L NDs Hs Ei Hr;
      assert (Hi : i < length ums) by (apply nth_error_Some; congruence);
      (destruct (in_dec Nat.eq_dec i seen) as [I|I];
       [right; exists (m_name mi); split; [now left|exact (Hr _ _ I Ei)]|]).
    - exfalso. pose proof (@pigeonhole (i :: seen) (length ums)) as P. cbn in P.
      assert (S (length seen) <= length ums); [|lia]. apply P; [constructor; auto|].
      intros j [<-|J]; auto.
    - destruct (sup_parent (generated_hierarchy g) i) as [j|] eqn:E.
      + destruct (@sup_parent_spec args item g c sms ums X CO i j E) as (m & u & mu & Em & DE & Eu & Nu).
        rewrite Ei in Em. injection Em as <-.
        assert (Im : In mi ums) by (eapply nth_error_In; eauto). apply (in_ums X) in Im. destruct Im as [Im Km].
        assert (A : above item (m_name mi) (m_name mu)) by (rewrite Nu; exact (above_direct item mi Im Km DE)).
        destruct (IH (i :: seen) j mu) as [[l [C Ll]]|(v & R & V)]; auto.
        * cbn. lia.
        * constructor; assumption.
        * intros j' [<-|J]; auto.
        * intros j' mj [<-|J] Ej; [rewrite Ei in Ej; injection Ej as <-; exact A|].
          exact (above_trans (Hr _ _ J Ej) A).
        * left. exists (i :: l). split; [constructor; rewrite E; exact C|]. cbn. lia.
        * right. exists v. split; [right|exact V]. destruct R as [<-|R]; [exact A|exact (above_trans A R)].
      + left. exists [i]. split; [constructor; rewrite E; constructor|]. cbn. lia.
  Qed.

  Theorem init_diverges_iff (B : bodies Val Sh Ev Cx g) stack md
      (sm : state_machine (generated_machine B)) (cx : Cx) m :
    In m (methods item) -> marked "state" m = true ->
    tag (sm_state sm) = variant_of m -> initialized sm = false ->
    length (filter (marked "superstate") (methods item)) <= stack ->
    (a_out (@init_with_context (generated_machine B) stack md sm cx) = Abort Diverges <-> cycle_over item m) /\
    forall w, a_out (@init_with_context (generated_machine B) stack md sm cx) = Abort w ->
      w = Panicked \/ w = DroppedFuture \/ w = Diverges.
  Proof.
    intros I K T Hi Hs.
    assert (J : In m sms) by (apply (in_sms X); auto).
    pose proof (@state_disc' Val args item g c sms ums X CO (sm_state sm) m J T) as E.
    destruct (@leaf_parent_spec args item g c sms ums X CO m _ E) as [P V].
    pose proof (@generated_follows Val Sh Ev Cx args item g c sms ums X CO B) as F.
    rewrite (Permutation_length (ex_supers X)) in Hs.
    assert (D : (exists l, chain (generated_hierarchy g) (leaf_parent (generated_hierarchy g) (discriminant (sm_state sm))) l /\
                           length l <= length ums) \/ cycle_over item m).
    { destruct (leaf_parent (generated_hierarchy g) (discriminant (sm_state sm))) as [i|] eqn:EL.
      - specialize (V i eq_refl). destruct (nth_error ums i) as [mi|] eqn:Ei; [|apply nth_error_None in Ei; lia].
        destruct (@chain_or_cycle (length ums) [] i mi) as [D|(v & R & C)]; auto.
        + constructor.
        + intros j [].
        + intros j mj [].
        + right. exists (m_name mi), v. split; [|split; assumption]. cbn in P. rewrite <- P. unfold nth_name. now rewrite Ei.
      - left. exists []. split; [constructor|apply Nat.le_0_l]. }
    pose proof (fun C => @cycle_diverges Val Sh Ev Cx args item g c sms ums ND X CO B stack md sm cx m I K C T Hi) as CD.
    destruct D as [(l & C & L)|C].
    - assert (U : forall w, a_out (@init_with_context (generated_machine B) stack md sm cx) = Abort w ->
                  w = Panicked \/ w = DroppedFuture).
      { intros w. apply (@init_ends (generated_machine B) (generated_hierarchy g) stack md sm cx l w F C). lia. }
      split; [split; [|exact CD]|].
      + intros A. destruct (U _ A); discriminate.
      + intros w A. destruct (U _ A); auto.
    - split; [split; [intros _; exact C|exact CD]|]. intros w. rewrite (CD C). intros A. injection A as <-. auto.
  Qed.
End Exact.
