(** Props42.v — C93: keeping accounts, journals, monitors.  Theorems only; see AccountSpec.v. *)

From Coq Require Import List Bool Arith ZArith Lia.
From Verif Require Import Machine Api Spec AccountSpec Examples.
From Verif Require AccountProofs JournalProofs.
Import ListNotations.

(** C93.  The library adds nothing and drops nothing between callbacks: if every callback changes shared
    storage and context as is right for itself, in a sense that adds up, then a call changes them as is
    right for the calls into user code it has made, however it ends.  Nothing is assumed of the machine. *)
Theorem C93_call :
  forall (m : machine) (T : list (obs m) -> Shared m * Ctx m -> Shared m * Ctx m -> Prop),
    additive T -> keeps_account T ->
    forall (stack : nat) (md : mode) (sm : state_machine m) (cx : Ctx m),
      (let r := init_with_context stack md sm cx in
       T (a_tr r) (sm_shared sm, cx) (sm_shared (a_machine r), a_cx r)) /\
      (forall e, let r := handle_with_context stack md sm e cx in
       T (a_tr r) (sm_shared sm, cx) (sm_shared (a_machine r), a_cx r)).
Proof.
  intros m T [T0 T2] K stack md sm cx. split.
  - exact (AccountProofs.init_moves m stack T T0 T2 K md sm cx).
  - intros e. exact (AccountProofs.handle_moves m stack T T0 T2 K md sm e cx).
Qed.
Print Assumptions C93_call.

(** The same over histories, for accounts of the shared storage, if the client does not meddle with
    them through `inner_mut`. *)
Theorem C93_accounts :
  forall (m : machine) (T : list (obs m) -> Shared m -> Shared m -> Prop),
    (forall p, T [] p p) -> (forall t1 t2 p q r, T t1 p q -> T t2 q r -> T (t1 ++ t2) p r) ->
    keeps_account (fun tr p q => T tr (fst p) (fst q)) ->
    forall (stack : nat) (md : mode) (ops : list (op m)) (sm sm' : state_machine m) (cs : list (called m)),
      Forall (fun o => forall f, o = OpInnerMut f -> forall sh, T [] sh (f sh)) ops ->
      history stack md ops sm cs sm' -> T (log_of cs) (sm_shared sm) (sm_shared sm').
Proof.
  intros m T T0 T2 K stack md ops sm sm' cs F H.
  exact (AccountProofs.history_accounts m stack md T T0 T2 K ops sm cs sm' F H).
Qed.
Print Assumptions C93_accounts.

(** Logging through the hooks disturbs nothing and misses nothing: a machine whose hooks keep a journal
    as well does exactly what it does without, in any history, and the journal is at the end what the
    calls of the hooks, in order, have made of it, aborted calls included.  Nothing is assumed of the
    machine. *)
Theorem C93_journal :
  forall (m : machine) (L : Type) (j : journal m L) (stack : nat) (md : mode) (ops : list (op m))
         (sm sm' : state_machine m) (cs : list (called m)) (l : L),
    history stack md ops sm cs sm' ->
    exists cs', history stack md (map (op_beside j) ops) (add_journal j l sm) cs'
                  (add_journal j (fold_left (note j) (log_of cs) l) sm') /\
                map (@called_without m L j) cs' = cs.
Proof.
  intros m L j stack md ops sm sm' cs l H. exact (JournalProofs.history_journal m L j stack md ops sm cs sm' l H).
Qed.
Print Assumptions C93_journal.

(** A monitor in `after_transition` that was told the first state knows the current state (the variant),
    as long as no call is aborted. *)
Theorem C93_monitor :
  forall (h : hierarchy) (m : machine) (stack : nat) (md : mode) (ops : list (op m))
         (sm sm' : state_machine m) (cs : list (called m)),
    well_formed h m stack -> faithful_views m -> Forall (@calm m) ops ->
    Forall (fun c => c_out c = Ret tt) cs -> history stack md ops sm cs sm' ->
    exists cs', history stack md (map (op_beside (monitor m)) ops)
                  (add_journal (monitor m) (s_disc m (sm_state sm)) sm) cs'
                  (add_journal (monitor m) (s_disc m (sm_state sm')) sm').
Proof.
  intros h m stack md ops sm sm' cs W V C O H.
  destruct (C93_journal m nat (monitor m) stack md ops sm sm' cs (s_disc m (sm_state sm)) H) as (cs' & H' & _).
  exists cs'. rewrite (JournalProofs.history_known h m stack md W V ops sm cs sm' C O H) in H'. exact H'.
Qed.
Print Assumptions C93_monitor.

(** An aborted call can go past it: if an entry action panics the state has changed, but
    `after_transition` is not called. *)
Theorem C93_monitor_aborted_refuted :
  exists (h : hierarchy) (m : machine) (stack : nat) (md : mode) (ops : list (op m))
         (sm sm' : state_machine m) (cs : list (called m)),
    well_formed h m stack /\ faithful_views m /\ Forall (@calm m) ops /\
    history stack md ops sm cs sm' /\
    fold_left (note (monitor m)) (log_of cs) (s_disc m (sm_state sm)) <> s_disc m (sm_state sm').
Proof.
  pose (sm := running true (Idle 3) []).
  destruct (exec_all 2 BlockingMode [OpHandle (m := demo true) Button 14] sm) as [cs sm'] eqn:E.
  exists demo_hierarchy, (demo true), 2, BlockingMode, [OpHandle (m := demo true) Button 14], sm, sm', cs.
  split; [exact (demo_well_formed true)|]. split; [exact (demo_views true)|]. split; [repeat constructor|].
  split.
  - pose proof (HistoryProofs.exec_all_history 2 BlockingMode [OpHandle (m := demo true) Button 14] sm) as H.
    rewrite E in H. exact H.
  - vm_compute in E. injection E as <- <-. vm_compute. discriminate.
Qed.
Print Assumptions C93_monitor_aborted_refuted.

(** A pool: `Busy` is in a superstate which acquires something when it is entered and releases it when
    it is left; the context tells the entry action of the leaf to panic. *)
Definition pool : machine := {|
  State := bool; Sup := unit; Shared := Z; Event := unit; Ctx := bool; initial := false;
  s_disc := fun b => if b then 1 else 0; u_disc := fun _ => 0;
  s_super := fun b => if b then Some tt else None; s_put := fun b _ => b;
  u_super := fun _ => None; u_put := fun u _ => u;
  s_handler := fun b sh cx _ => (Returns (Transition (negb b)), b, sh, cx);
  s_entry := fun b sh cx => (if cx then Panics else Returns tt, b, sh, cx); s_exit := no_action;
  u_handler := fun u sh cx _ => (Returns Super, u, sh, cx);
  u_entry := fun u sh cx => (Returns tt, u, (sh + 1)%Z, cx);
  u_exit := fun u sh cx => (Returns tt, u, (sh - 1)%Z, cx);
  h_before_dispatch := no_dispatch_hook; h_after_dispatch := no_dispatch_hook;
  h_before_transition := no_transition_hook; h_after_transition := no_transition_hook
|}.
Fixpoint balance (tr : list (obs pool)) : Z :=
  match tr with
  | [] => 0
  | OEnter (NSuper _) :: tr' => 1 + balance tr'
  | OExit (NSuper _) :: tr' => -1 + balance tr'
  | _ :: tr' => balance tr'
  end.
Lemma balance_app t1 t2 : balance (t1 ++ t2) = (balance t1 + balance t2)%Z.
Proof. induction t1 as [|o t1 IH]; [reflexivity|]. destruct o as [| | | | | |[]|[]]; cbn [app balance]; rewrite IH; lia. Qed.

Example C93_case :
  let T (tr : list (obs pool)) (p q : Shared pool) := (q : Z) = (p + balance tr)%Z in
  (forall p, T [] p p) /\ (forall t1 t2 p q r, T t1 p q -> T t2 q r -> T (t1 ++ t2) p r) /\
  keeps_account (fun tr p q => T tr (fst p) (fst q)) /\
  let go (fail : bool) := OpHandle (m := pool) tt fail in
  let r := exec_all 1 AwaitableMode [go true; go false; go true; go false] (new_state_machine pool 0%Z) in
  map (@c_out pool) (fst r) = [Abort Panicked; Ret tt; Abort Panicked; Ret tt] /\
  sm_shared (snd r) = 1%Z /\ balance (log_of (fst r)) = 1%Z /\ sm_state (snd r) = true.
Proof.
  cbv zeta. split; [|split; [|split]].
  - intros p. cbn. lia.
  - intros t1 t2 p q r -> ->. rewrite balance_app. lia.
  - split; intros; cbn; lia.
  - vm_compute. repeat split.
Qed.
