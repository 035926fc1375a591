(** WorkCalls.v — bounds for whole calls. *)

From Coq Require Import List Bool Arith Lia.
From Verif Require Import Machine Blocking Awaitable Api Spec SuperCalls SuperSpec WorkSpec WorkProofs.
From Verif Require Props22.
Import ListNotations.
Set Implicit Arguments.

Lemma run_bounds m K b t (c : comp (counting m) (State m * nat) unit) (i : inner (counting m)) cx :
  runs (m := m) K (fun x => snd x <= b) t (fun _ => True) c (state i) ->
  let r := run_inner c i cx in
  snd (state (a_machine r)) <= b /\ calls (a_tr r) <= t /\ Forall (@numbers_at_most m K) (a_tr r).
Proof. intros R. destruct (R (shared_storage i) cx) as (A1 & A2 & A3 & _). cbv zeta. unfold run_inner. cbn. auto. Qed.

Lemma work_bounds m stack slack (room : 1 - stack <= slack \/ forall x, s_super m x = None) md
  (o : op (counting m)) (sm : state_machine (counting m)) out sm' cx tr :
  (forall f, o <> OpStateMut f) ->
  exec_s (counted m) stack md o sm = (out, sm', cx, tr) ->
  let d := stack + 1 in
  let K := snd (state (sm_inner sm)) + 3 * d * (d + 1) in
  snd (state (sm_inner sm')) <= K /\ Forall (@numbers_at_most m K) tr /\
  calls tr <= (if initialized sm then 5 * d + 2 else 6 * d + 2) + slack.
Proof.
  intros NS E d K. set (k := snd (state (sm_inner sm))) in *.
  assert (Init : forall cx, let r := run_inner (inner_init_s (counted m) stack md) (sm_inner sm) cx in
    snd (state (a_machine r)) <= k + d + d * d /\ calls (a_tr r) <= d /\ Forall (@numbers_at_most m K) (a_tr r)).
  { intros c. apply run_bounds. destruct (state (sm_inner sm)) as [x kx] eqn:Es.
    apply (@runs_init m K stack slack room); unfold K, k, d; cbn; nia. }
  assert (Hand : forall e cx (i : inner (counting m)), snd (state i) <= k + d + d * d ->
    let r := run_inner (inner_handle_s (counted m) stack md e) i cx in
    snd (state (a_machine r)) <= K /\ calls (a_tr r) <= 5 * d + 2 + slack /\ Forall (@numbers_at_most m K) (a_tr r)).
  { intros e c i Li. apply run_bounds. destruct (state i) as [x kx] eqn:Es. cbn in Li.
    apply runs_inner_handle; [exact room| | |]; unfold K, k, d in *; cbn; nia. }
  destruct o as [c|e c|f|f]; cbn [exec_s] in E.
  - destruct (initialized sm); cbn [negb] in E.
    + injection E as <- <- <- <-. split; [unfold K; fold k; lia|]. split; [constructor|]. unfold calls. cbn. lia.
    + specialize (Init c). cbv zeta in Init. set (r := run_inner _ _ _) in *. clearbody r. destruct Init as (I1 & I2 & I3).
      assert (E' : sm_inner sm' = a_machine r /\ tr = a_tr r) by (destruct (a_out r); injection E as <- <- <- <-; auto).
      destruct E' as [-> ->]. split; [unfold K, d in *; nia|]. split; [exact I3|]. lia.
  - destruct (initialized sm); cbn [negb] in E.
    + unfold dispatch_s in E. assert (L : snd (state (sm_inner sm)) <= k + d + d * d) by (fold k; lia).
      specialize (Hand e c (sm_inner sm) L). cbv zeta in Hand. set (r := run_inner _ _ _) in *. clearbody r.
      injection E as <- <- <- <-. cbn. destruct Hand as (I1 & I2 & I3). auto.
    + specialize (Init c). cbv zeta in Init. set (r := run_inner _ _ _) in *. clearbody r. destruct Init as (I1 & I2 & I3).
      destruct (a_out r).
      * unfold dispatch_s in E. cbn [sm_inner initialized] in E.
        specialize (Hand e (a_cx r) (a_machine r) I1). cbv zeta in Hand. set (r' := run_inner _ _ _) in *. clearbody r'.
        injection E as <- <- <- <-. cbn. destruct Hand as (J1 & J2 & J3). rewrite calls_app.
        split; [exact J1|]. split; [apply Forall_app; auto|]. unfold d in *. lia.
      * injection E as <- <- <- <-. cbn. split; [unfold K, d in *; nia|]. split; [exact I3|]. lia.
  - injection E as <- <- <- <-. cbn. split; [unfold K; fold k; lia|]. split; [constructor|]. unfold calls. cbn. lia.
  - now destruct (NS f).
Qed.

Lemma numbers_unseen m : looks_same (numbers_out m) (counted m).
Proof.
  split; cbn; auto.
  - intros [x k] o x' [= <- <-]. cbn. split; [reflexivity|]. now destruct (s_super m x).
  - intros [x k] o x' [= <- <-]. cbn. split; [reflexivity|]. now destruct (u_super m x).
  - intros [x k] sh cx e r x' sh' cx'. cbn. destruct (s_handler m x sh cx e) as [[[q y] s1] c1].
    intros [= <- <- <- <-]. now destruct q as [[| |t]| |].
  - intros [x k] sh cx r x' sh' cx'. cbn. destruct (s_entry m x sh cx) as [[[q y] s1] c1]. now intros [= <- <- <- <-].
  - intros [x k] sh cx r x' sh' cx'. cbn. destruct (s_exit m x sh cx) as [[[q y] s1] c1]. now intros [= <- <- <- <-].
  - intros [x k] sh cx e r x' sh' cx'. cbn. destruct (u_handler m x sh cx e) as [[[q y] s1] c1].
    intros [= <- <- <- <-]. now destruct q as [[| |t]| |].
  - intros [x k] sh cx r x' sh' cx'. cbn. destruct (u_entry m x sh cx) as [[[q y] s1] c1]. now intros [= <- <- <- <-].
  - intros [x k] sh cx r x' sh' cx'. cbn. destruct (u_exit m x sh cx) as [[[q y] s1] c1]. now intros [= <- <- <- <-].
Qed.

(** The numbers change nothing. *)
Definition with_numbers m (o : op m) : op (counting m) :=
  match o with
  | OpInit c => @OpInit (counting m) c
  | OpHandle e c => @OpHandle (counting m) e c
  | OpInnerMut f => @OpInnerMut (counting m) f
  | OpStateMut f => @OpStateMut (counting m) (fun x => (f (fst x), snd x))
  end.
Definition from_zero m (sm : state_machine m) : state_machine (counting m) :=
  @StateMachine (counting m) (@Inner (counting m) (shared_storage (sm_inner sm)) (state (sm_inner sm), 0)) (initialized sm).

Lemma calls_seen m (tr : list (obs (counting m))) : calls (map (at_obs (numbers_out m)) tr) = calls tr.
Proof. unfold calls. induction tr as [|o tr IH]; [reflexivity|]. cbn. destruct o; cbn; auto. Qed.

Lemma call_bound m stack md (o : op m) sm out sm' cx tr : lends m -> (forall x, s_super m x <> None -> 1 <= stack) ->
  exec stack md o sm = (out, sm', cx, tr) ->
  let d := stack + 1 in
  calls tr <= if initialized sm then 5 * d + 2 else 6 * d + 2.
Proof.
  intros L R E d.
  destruct o as [c|e c|f|f];
    try (cbn in E; injection E as <- <- <- <-; unfold calls; cbn; lia).
  all: match type of E with exec _ _ ?o _ = _ => set (oo := o) in * end.
  all: assert (H : exec_all_s (counted m) stack md [with_numbers oo] (from_zero sm) =
             exec_all_s (counted m) stack md [with_numbers oo] (from_zero sm)) by reflexivity.
  all: destruct (exec_s (counted m) stack md (with_numbers oo) (from_zero sm)) as [[[out1 sm1] cx1] tr1] eqn:E1.
  all: assert (Room : 1 - stack <= 0 \/ forall x, s_super m x = None).
  1,3: destruct stack as [|n]; [right; intros x; destruct (s_super m x) eqn:Ex; [exfalso|reflexivity]|left; lia].
  1,2: assert (1 <= 0) by (apply (R x); congruence); lia.
  all: destruct (@work_bounds m stack 0 Room md (with_numbers oo) (from_zero sm) _ _ _ _ (fun f => ltac:(discriminate)) E1) as (_ & _ & B).
  all: assert (X : exec_all_s (counted m) stack md [with_numbers oo] (from_zero sm) = ([Called out1 cx1 tr1], sm1)) by
    (cbn [exec_all_s]; rewrite E1; reflexivity).
  all: apply (@Props22.C73_unseen (counting m) m (numbers_out m) (counted m) (@numbers_unseen m) L) with (ops := [oo]) in X;
    [|split; cbn; discriminate|constructor; [cbn; auto|constructor]].
  all: assert (F : at_machine (numbers_out m) (from_zero sm) = sm) by (destruct sm as [[? ?] ?]; reflexivity).
  all: rewrite F in X; cbn [exec_all] in X; rewrite E in X; injection X as _ _ -> _; unfold at_called; cbn [c_tr];
    rewrite calls_seen; cbn [from_zero initialized] in B; fold d in B; rewrite Nat.add_0_r in B; exact B.
Qed.
