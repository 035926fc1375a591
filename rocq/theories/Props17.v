(** Props17.v — C68: machines that keep to no rules.  Theorems only; see AnySpec.v for the
    vocabulary.  Neither [follows] nor [stable] is assumed: `superstate()` may depend on data,
    callbacks may overwrite the state with another variant. *)

From Coq Require Import List Bool Arith Lia.
From Verif Require Import Machine Api Spec AnySpec Examples AnyExamples.
From Verif Require AnyProofs.
Import ListNotations.

(** C68.  Handling an event ends, unless user code aborts it; at most [n + 1] handlers are asked,
    until one does not answer "super"; if that one asks for a transition, then (and only then)
    there is one: the hook, exits from the leaf up, entries down to the leaf, the hook, which is
    given the state the machine ends in. *)
Theorem C68_any_machine :
  forall (m : machine) (n : nat) (rank : Sup m -> nat) (md : mode) (sm : state_machine m) (e : Event m) (cx : Ctx m),
    goes_up m n rank -> initialized sm = true ->
    let r := handle_with_context n md sm e cx in
    (a_out r = Ret tt \/ a_out r = Abort Panicked \/ a_out r = Abort DroppedFuture) /\
    exists t1 t2, a_tr r = t1 ++ t2 /\ dispatches (S n) t1 /\
      ((t2 = [] /\ (a_out r = Ret tt -> forall s, ~ In (Transition s) (answers_in t1))) \/
       (exists s l, answers_in t1 = l ++ [Transition s] /\ transits (S n) (a_out r) (sm_state (a_machine r)) t2)).
Proof.
  intros m n rank md sm e cx G Hi. cbv zeta. unfold handle_with_context. rewrite Hi. cbn [negb].
  destruct (@AnyProofs.handle_any m n rank G md e (fun _ => True) (sm_state sm) (sm_shared sm) cx I) as [U S].
  split; [|exact S]. destruct U as [U|(w & U & [->| ->])]; auto.
Qed.
Print Assumptions C68_any_machine.
(** Initialization: at most [n + 1] entries, the last one the leaf's. *)
Theorem C68_any_init :
  forall (m : machine) (n : nat) (rank : Sup m -> nat) (md : mode) (sm : state_machine m) (cx : Ctx m),
    goes_up m n rank -> initialized sm = false ->
    let r := init_with_context n md sm cx in
    (a_out r = Ret tt \/ a_out r = Abort Panicked \/ a_out r = Abort DroppedFuture) /\
    forallb (@is_enter m) (a_tr r) = true /\ length (a_tr r) <= S n /\
    (a_out r = Ret tt -> exists t s, a_tr r = t ++ [OEnter (NState s)]).
Proof.
  intros m n rank md sm cx G Hi. cbv zeta.
  destruct (@AnyProofs.init_any m n rank G md (fun _ => True) (sm_state sm) (sm_shared sm) cx I) as [(A & B & U) E].
  unfold init_with_context. rewrite Hi. cbn [negb]. unfold run_inner. cbn [a_out a_tr a_machine].
  unfold sm_state, sm_shared in *.
  destruct (r_out (inner_init m n md (state (sm_inner sm)) (shared_storage (sm_inner sm)) cx)) as [[]|w] eqn:O; cbn [a_out a_tr].
  - auto.
  - split; [|split; [exact A|split; [exact B|intros D; discriminate D]]].
    destruct U as [U|(w' & U & [->| ->])]; [discriminate U|inversion U; auto..].
Qed.
Print Assumptions C68_any_init.

Theorem C68_stable_needed :
  follows no_hierarchy turncoat /\ goes_up turncoat 1 (fun _ => 0) /\
  exists ops cs sm', history 1 BlockingMode ops (new_state_machine turncoat tt) cs sm' /\
    Forall (@calm turncoat) ops /\ completed cs /\ forall stk, ~ replay [] (acts (log_of cs)) stk.
Proof.
  split; [split; intros; try discriminate; reflexivity|].
  split; [split; intros; [discriminate|lia..]|].
  exists [OpHandle (m := turncoat) true tt; OpHandle (m := turncoat) false tt].
  eexists _, _. split; [repeat (econstructor; [vm_compute; reflexivity|]); constructor|].
  split; [repeat constructor|]. split; [repeat constructor|]. intros stk R. vm_compute in R.
  inversion R as [|? ? ? ? R1|]; subst. inversion R1 as [| |? ? ? ? R2 E]; subst.
  symmetry in E. apply (app_inj_tail [] _) in E. destruct E as [_ E]. discriminate E.
Qed.
Print Assumptions C68_stable_needed.

Theorem C68_follows_needed :
  stable chameleon /\ goes_up chameleon 1 (fun _ => 0) /\
  exists ops cs sm', history 1 BlockingMode ops (new_state_machine chameleon tt) cs sm' /\
    Forall (@calm chameleon) ops /\ completed cs /\ forall stk, ~ replay [] (acts (log_of cs)) stk.
Proof.
  split; [split; cbn; intros; match goal with H : _ = _ |- _ => inversion H; try reflexivity end; destruct e; reflexivity|].
  split; [split; intros; [discriminate|lia..]|].
  exists [OpHandle (m := chameleon) true tt; OpHandle (m := chameleon) false tt].
  eexists _, _. split; [repeat (econstructor; [vm_compute; reflexivity|]); constructor|].
  split; [repeat constructor|]. split; [repeat constructor|]. intros stk R. vm_compute in R.
  repeat match goal with
  | H : replay _ (_ :: _) _ |- _ => inversion H; clear H; subst
  | H : ?l ++ [_] = _ |- _ =>
      first [ apply (app_inj_tail l []) in H | apply (app_inj_tail l [_]) in H | apply (app_inj_tail l [_; _]) in H ];
      destruct H as [H ?]; subst; try discriminate
  end.
Qed.
Print Assumptions C68_follows_needed.

Theorem C68_rank_needed :
  follows one_above sisyphus /\ height_at_most 2 one_above /\
  forall (n : nat) (md : mode) (sm : state_machine sisyphus), initialized sm = true ->
    a_out (handle_with_context (m := sisyphus) n md sm true tt) = Abort Diverges.
Proof.
  split; [split; cbn; intros; try reflexivity; try (destruct u; reflexivity)|]. split.
  - intros [|[|u]]; [exists [0; 1]|exists [1]|exists [S (S u)]]; (split; [repeat constructor|cbn; lia]).
  - intros n md sm Hi. unfold handle_with_context. rewrite Hi. cbn [negb]. unfold dispatch, run_inner. cbn [a_out].
exact (AnyExamples.never_ends n md (fun _ => True) _ _ tt I).
Qed.
Print Assumptions C68_rank_needed.

(** The demo machine, and one event of a machine that breaks both rules. *)
Example C68_case :
  goes_up (demo true) 2 (fun u => match u with Blinking _ => 1 | Powered _ => 0 end) /\
  goes_up chameleon 1 (fun _ => 0) /\
  let r := handle_with_context 1 AwaitableMode (StateMachine (@Inner chameleon tt 1) true) false tt in
  a_out r = Ret tt /\ acts (a_tr r) = [Exit (AtState 0); Exit (AtSuper 1); Enter (AtState 1)].
Proof.
  split; [split|split; [split|split; vm_compute; reflexivity]].
  - intros [n|n] v H; inversion H. lia.
  - intros [n|n] sh cx [] r u' sh' cx' H; inversion H; lia.
  - intros [n|n]; lia.
  - discriminate.
  - intros. lia.
  - intros. lia.
Qed.
