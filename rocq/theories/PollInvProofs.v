(** PollInvProofs.v — lemmas for Props54: every future of the library keeps the condition. *)

From Coq Require Import List Bool Arith.
From Verif Require Import Machine Api Poll PollSimSpec PollInvSpec Tasks.
From Verif Require PollProofs.
Import ListNotations.
Set Implicit Arguments.

Section Keep.
  Variable W : Type.
  Variable m : machine.
  Variable I : Shared m -> Ctx m -> Prop.
  Variable F : futures W m.
  Hypothesis CK : callbacks_keep I F.
  Notation store X := (X * Shared m * Ctx m)%type.

  (** [P] holds of the store after any polls. *)
  Definition holds {S A} (P : S -> Prop) (c : fut W m S A) : Prop :=
    forall w ws s, P s -> let '(_, s1, _, _) := drive c w ws s in P s1.
  Definition inv {X} (s : store X) : Prop := I (snd (fst s)) (snd s).
  Definition ok {X A} (c : fut W m (store X) A) : Prop := holds (@inv X) c.

  Lemma holds_bind {S A B} (P : S -> Prop) (c : fut W m S A) (k : A -> fut W m S B) :
    holds P c -> (forall a, holds P (k a)) -> holds P (abind c k).
  Proof.
    intros Hc Hk w ws s H. rewrite PollProofs.drive_bind. specialize (Hc w ws s H).
    destruct (drive c w ws s) as [[[[[a|y]|] s1] tr] [w1 ws1]]; try exact Hc.
    specialize (Hk a w1 ws1 s1 Hc). unfold PollProofs.prepend.
    destruct (drive (k a) w1 ws1 s1) as [[[o s2] tr2] l]. exact Hk.
  Qed.
  Lemma holds_ret {S A} (P : S -> Prop) (a : A) : holds P (aret a).
  Proof. intros w ws s H. destruct ws; exact H. Qed.
  Lemma holds_lift {S A} (P : S -> Prop) (o : outcome A) : holds P (alift o).
  Proof. intros w ws s H. destruct ws; exact H. Qed.
  Lemma holds_get {S} (P : S -> Prop) : holds P (aget (World := W) (m := m)).
  Proof. intros w ws s H. destruct ws; exact H. Qed.
  Lemma ok_self {X} : ok (aself (X := X)).
  Proof. intros w ws s H. destruct ws; exact H. Qed.
  Lemma ok_via {X V A} (put : X -> V -> X) v (c : fut W m (store V) A) : ok c -> ok (avia put v c).
  Proof.
    intros H w ws s Hs. unfold avia. rewrite PollProofs.drive_aborrow.
    specialize (H w ws (v, snd (fst s), snd s) Hs).
    destruct (drive c w ws (v, snd (fst s), snd s)) as [[[o [[v1 sh1] cx1]] tr] l]. exact H.
  Qed.
  Lemma ok_call {X A} o (ans : A -> list (obs m)) (f : ufut W (store X) A) :
    keeps_condition I f -> ok (acall o ans f).
  Proof.
    intros H w ws [[x sh] cx] Hs. rewrite PollProofs.drive_acall. specialize (H w ws x sh cx Hs).
    destruct (udrive f w ws (x, sh, cx)) as [[[[a|]|] [[x1 sh1] cx1]] l]; exact H.
  Qed.
  Lemma ok_hook {X} o (f : ufut W (Shared m) unit) : hook_keeps_condition I f -> ok (ahook (X := X) o f).
  Proof.
    intros H w ws [[x sh] cx] Hs. unfold ahook. rewrite PollProofs.drive_aborrow, PollProofs.drive_acall. cbn [fst snd].
    specialize (H w ws sh cx Hs). destruct (udrive f w ws sh) as [[[[a|]|] sh1] l]; exact H.
  Qed.

  Variable stack : nat.

  Lemma ok_handle_loop e n : ok (a_handle_loop F n e).
  Proof.
    induction n as [|n IH]; cbn [a_handle_loop]; [apply holds_lift|].
    apply holds_bind; [apply ok_self|intros u0]. apply holds_bind; [apply ok_hook, CK|intros _].
    apply holds_bind; [apply ok_call, CK|intros r]. apply holds_bind; [apply ok_self|intros u1].
    apply holds_bind; [apply ok_hook, CK|intros _]. destruct r; try apply holds_ret.
    apply holds_bind; [apply ok_self|intros u]. destruct (u_super m u); [apply ok_via, IH|apply holds_ret].
  Qed.
  Lemma ok_state_handle e : ok (a_state_handle F stack e).
  Proof.
    unfold a_state_handle. apply holds_bind; [apply ok_self|intros u0]. apply holds_bind; [apply ok_hook, CK|intros _].
    apply holds_bind; [apply ok_call, CK|intros r]. apply holds_bind; [apply ok_self|intros u1].
    apply holds_bind; [apply ok_hook, CK|intros _]. destruct r; try apply holds_ret.
    apply holds_bind; [apply ok_self|intros u]. destruct (s_super m u); [apply ok_via, ok_handle_loop|apply holds_ret].
  Qed.
  Lemma ok_climb_entry n : ok (a_climb_entry F n).
  Proof.
    induction n as [|n IH]; cbn [a_climb_entry]; [apply ok_call, CK|].
    apply holds_bind; [apply ok_self|intros u]. destruct (u_super m u); [apply ok_via, IH|apply ok_call, CK].
  Qed.
  Lemma ok_state_enter n : ok (a_state_enter F n).
  Proof.
    induction n as [|[|n] IH]; [apply holds_ret|apply ok_call, CK|]. cbn [a_state_enter] in *.
    apply holds_bind; [apply ok_self|intros x]. apply holds_bind; [|intros _; exact IH].
    destruct (s_super m x); [apply ok_via, ok_climb_entry|apply holds_ret].
  Qed.
  Lemma ok_exit_loop n : ok (a_exit_loop F n).
  Proof.
    induction n as [|n IH]; cbn [a_exit_loop]; [apply holds_ret|].
    apply holds_bind; [apply ok_call, CK|intros _]. apply holds_bind; [apply ok_self|intros u].
    destruct (u_super m u); [apply ok_via, IH|apply holds_ret].
  Qed.
  Lemma ok_state_exit n : ok (a_state_exit F n).
  Proof.
    unfold a_state_exit. apply holds_bind; [destruct (1 <=? n); [apply ok_call, CK|apply holds_ret]|intros _].
    apply holds_bind; [apply ok_self|intros x]. destruct (s_super m x); [apply ok_via, ok_exit_loop|apply holds_ret].
  Qed.
  Lemma ok_inner_init : ok (a_inner_init F stack).
  Proof.
    unfold a_inner_init. apply holds_bind; [apply ok_self|intros x]. apply holds_bind; [apply holds_lift|intros n]. apply ok_state_enter.
  Qed.
  Lemma ok_swap t : ok (a_swap_state W m t).
  Proof. intros w ws s H. destruct ws; exact H. Qed.
  Lemma ok_transition t : ok (a_transition F stack t).
  Proof.
    unfold a_transition. apply holds_bind; [apply ok_self|intros x]. apply holds_bind; [apply ok_hook, CK|intros _].
    apply holds_bind; [apply holds_lift|intros ls]. apply holds_bind; [apply ok_state_exit|intros _].
    apply holds_bind; [apply ok_swap|intros old]. apply holds_bind; [apply ok_state_enter|intros _].
    apply holds_bind; [apply ok_self|intros new]. apply ok_hook, CK.
  Qed.
  Lemma ok_inner_handle e : ok (a_inner_handle F stack e).
  Proof.
    unfold a_inner_handle. apply holds_bind; [apply ok_state_handle|intros r]. destruct r; [apply holds_ret..|apply ok_transition].
  Qed.

  (** The machine and the context. *)
  Definition machine_inv (s : state_machine m * Ctx m) : Prop := I (sm_shared (fst s)) (snd s).
  Lemma holds_inner (c : fut W m (store (State m)) unit) : ok c -> holds machine_inv (on_inner c).
  Proof.
    intros H w ws s Hs. unfold on_inner. rewrite PollProofs.drive_aborrow.
    match goal with |- context [drive c w ws ?t] => specialize (H w ws t Hs); destruct (drive c w ws t) as [[[o [[v1 sh1] cx1]] tr] l] end.
    exact H.
  Qed.
  Lemma holds_set : holds machine_inv (a_set_initialized W m).
  Proof. intros w ws s H. destruct ws; exact H. Qed.
  Lemma holds_init : holds machine_inv (a_init_with_context F stack).
  Proof.
    unfold a_init_with_context. apply holds_bind; [apply holds_get|intros s]. destruct (negb _); [|apply holds_ret].
    apply holds_bind; [apply holds_inner, ok_inner_init|intros _; apply holds_set].
  Qed.
  Lemma holds_handle e : holds machine_inv (a_handle_with_context F stack e).
  Proof.
    unfold a_handle_with_context. apply holds_bind; [apply holds_get|intros s].
    apply holds_bind; [destruct (negb _); [|apply holds_ret]; apply holds_bind; [apply holds_inner, ok_inner_init|intros _; apply holds_set]|].
    intros _. apply holds_inner, ok_inner_handle.
  Qed.
  Lemma holds_session es : holds machine_inv (a_session F stack es).
  Proof.
    induction es as [|e es IH]; cbn [a_session]; [apply holds_ret|]. apply holds_bind; [apply holds_handle|intros _; exact IH].
  Qed.
  Lemma holds_execute (c : fut W m (state_machine m * Ctx m) unit) polls s : holds machine_inv c -> machine_inv s ->
    machine_inv (snd (fst (execute c polls s))).
  Proof.
    intros H Hs. destruct polls as [|w ws]; [exact Hs|]. cbn [execute]. specialize (H w ws s Hs).
    destruct (drive c w ws s) as [[[o s1] tr] l]. exact H.
  Qed.
End Keep.
