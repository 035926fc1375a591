(** Props32.v — C83: how much user code a call runs.  Theorems only; see WorkSpec.v. *)

From Coq Require Import List Bool Arith Lia.
From Verif Require Import Machine Api Spec SuperCalls SuperSpec WorkSpec.
From Verif Require Examples WorkCalls WorkTight.
Import ListNotations.

(** C83.  In a machine whose superstates are nested at most [stack] deep a call of `init` or
    `handle` calls handlers, actions and hooks at most 6 d + 2 times, with d = [stack] + 1 the length
    of the longest path; 5 d + 2 times if the machine was initialised before. *)
Theorem C83_calls :
  forall (h : hierarchy) (m : machine) (stack : nat),
    well_formed h m stack -> faithful_views m ->
    forall (md : mode) (o : op m) (sm sm' : state_machine m) (out : outcome unit) (cx : option (Ctx m))
           (tr : list (obs m)),
      exec stack md o sm = (out, sm', cx, tr) ->
      calls tr <= if initialized sm then 5 * (stack + 1) + 2 else 6 * (stack + 1) + 2.
Proof.
  intros h m stack W V md o sm sm' out cx tr E.
  refine (@WorkCalls.call_bound m stack md o sm out sm' cx tr _ _ E).
  - destruct V. constructor; assumption.
  - intros x Hx. destruct (s_super m x) as [u|] eqn:Ex; [|now destruct Hx].
    destruct (wf_height W (u_disc m u)) as (l & Hl & Ll). inversion Hl; subst. cbn in Ll. lia.
Qed.
Print Assumptions C83_calls.

(** The same for machines without a hierarchy, where [stack] is only how deep the library may
    recurse. *)
Theorem C83_calls_any :
  forall (m : machine) (stack : nat),
    lends m -> (forall x, s_super m x <> None -> 1 <= stack) ->
    forall (md : mode) (o : op m) (sm sm' : state_machine m) (out : outcome unit) (cx : option (Ctx m))
           (tr : list (obs m)),
      exec stack md o sm = (out, sm', cx, tr) ->
      calls tr <= if initialized sm then 5 * (stack + 1) + 2 else 6 * (stack + 1) + 2.
Proof.
  intros m stack L R md o sm sm' out cx tr E. exact (@WorkCalls.call_bound m stack md o sm out sm' cx tr L R E).
Qed.
Print Assumptions C83_calls_any.

(** `superstate()` is asked at most 3 d (d + 1) times on any state value (and on the superstates
    borrowed from it) during a call: if states carry a number that `superstate()` increments, no
    callback and no caller ever sees a number that is larger than that, plus what the state had before.
    This needs no hierarchy. *)
Theorem C83_superstate_calls :
  forall (m : machine) (stack : nat) (md : mode) (o : op (counting m)) (sm sm' : state_machine (counting m))
         (out : outcome unit) (cx : option (Ctx m)) (tr : list (obs (counting m))),
    (forall f, o <> OpStateMut f) ->
    exec_s (counted m) stack md o sm = (out, sm', cx, tr) ->
    let d := stack + 1 in
    let most := snd (state (sm_inner sm)) + 3 * d * (d + 1) in
    snd (state (sm_inner sm')) <= most /\ Forall (numbers_at_most most) tr.
Proof.
  intros m stack md o sm sm' out cx tr N E d most.
  destruct (@WorkCalls.work_bounds m stack (1 - stack) (or_introl (le_n _)) md o sm out sm' cx tr N E) as (A & B & _).
  split; assumption.
Qed.
Print Assumptions C83_superstate_calls.

(** And counting does not change what the machine does. *)
Theorem C83_counting_unseen :
  forall (m : machine), lends m ->
    forall (stack : nat) (md : mode) (ops' : list (op (counting m))) (ops : list (op m))
           (sm sm' : state_machine (counting m)) (cs : list (called (counting m))),
      Forall2 (at_op (numbers_out m)) ops' ops ->
      exec_all_s (counted m) stack md ops' sm = (cs, sm') ->
      exec_all stack md ops (at_machine (numbers_out m) sm) =
        (map (at_called (numbers_out m)) cs, at_machine (numbers_out m) sm').
Proof.
  intros m L stack md ops' ops sm sm' cs Ho E.
  refine (@Props22.C73_unseen (counting m) m (numbers_out m) (counted m) (@WorkCalls.numbers_unseen m) L _ stack md ops' ops sm sm' cs Ho E).
  split; cbn; discriminate.
Qed.
Print Assumptions C83_counting_unseen.

(** The bounds of C83_calls are the best possible, at every depth, in both modes, whether the machine
    was initialised before or not: the machine [towers n] reaches them. *)
Theorem C83_reached :
  forall (n : nat),
    (1 <= n -> exists h, well_formed h (towers n) n /\ faithful_views (towers n)) /\
    forall (md : mode) (b started : bool),
      exists (sm' : state_machine (towers n)) (tr : list (obs (towers n))),
        exec n md (OpHandle (m := towers n) tt tt) (StateMachine (Inner (m := towers n) tt b) started) =
          (Ret tt, sm', Some tt, tr) /\
        calls tr = if started then 5 * (n + 1) + 2 else 6 * (n + 1) + 2.
Proof.
  intros n. split.
  - intros P. exists (WorkTight.towers_hierarchy n).
    split; [exact (WorkTight.towers_well_formed n P)|exact (WorkTight.towers_views n)].
  - intros md b started. destruct (WorkTight.reached n md b started) as (tr & E & L). eauto.
Qed.
Print Assumptions C83_reached.

(** The bounds of C83_calls are reached, in both modes, and the hypotheses are met; and the number
    of `superstate()` calls does grow with the square of the depth. *)
Example C83_case :
  (forall n, lends (towers n) /\ (forall x, s_super (towers n) x <> None -> 1 <= n)) /\
  (well_formed Examples.demo_hierarchy (Examples.demo true) 2 /\ faithful_views (Examples.demo true)) /\
  (let handle n md := snd (exec n md (OpHandle (m := towers n) tt tt) (new_state_machine (towers n) tt)) in
   let again n md := snd (exec n md (OpHandle (m := towers n) tt tt)
                            (snd (fst (fst (exec n md (OpHandle (m := towers n) tt tt) (new_state_machine (towers n) tt)))))) in
   map (fun n => calls (handle n BlockingMode)) [0; 1; 2; 3; 7] = [8; 14; 20; 26; 50] /\
   map (fun n => calls (handle n AwaitableMode)) [0; 1; 2; 3; 7] = [8; 14; 20; 26; 50] /\
   map (fun n => calls (again n BlockingMode)) [0; 1; 2; 3; 7] = [7; 12; 17; 22; 42] /\
   map (fun n => calls (again n AwaitableMode)) [0; 1; 2; 3; 7] = [7; 12; 17; 22; 42]) /\
  (let asked n md := snd (state (sm_inner (snd (fst (fst
     (exec_s (counted (towers n)) n md (OpHandle (m := counting (towers n)) tt tt)
        (StateMachine (Inner (m := counting (towers n)) tt (false, 0)) false))))))) in
   map (fun n => asked n BlockingMode) [1; 2; 3; 7] = [6; 11; 17; 51] /\
   map (fun n => asked n AwaitableMode) [1; 2; 3; 7] = [6; 12; 20; 72]).
Proof.
  split; [|split; [|split]].
  - intros n. split; [split|].
    + intros x v. cbn. destruct n; [discriminate|]. now intros [= <-].
    + intros [b l] v. cbn -[Nat.leb]. destruct l as [|[|l]]; try discriminate.
      destruct (S (S l) <=? n); [|discriminate]. now intros [= <-].
    + intros x. cbn. destruct n; [congruence|]. lia.
  - split; [exact (Examples.demo_well_formed true)|exact (Examples.demo_views true)].
  - cbv zeta. split; [|split; [|split]]; vm_compute; reflexivity.
  - cbv zeta. split; vm_compute; reflexivity.
Qed.
