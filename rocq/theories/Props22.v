(** Props22.v — C73: what `superstate()` may do. *)

From Coq Require Import List Bool Arith Lia.
From Verif Require Import Machine Blocking Awaitable Api SuperCalls SuperSpec SuperProofs.
Import ListNotations.
Set Implicit Arguments.

(** *** C73 *)

(** A `superstate()` that changes the state (counts its calls, fills a cache) where nothing else
    looks cannot be noticed, however often the library calls it: over any history every call ends
    as without, and everything else is the same. *)
Theorem C73_unseen :
  forall (m' m : machine) (F : look m' m) (sc : superstates m'),
    looks_same F sc -> lends m -> never_panics sc ->
    forall (stack : nat) (md : mode) (ops' : list (op m')) (ops : list (op m)) (sm sm' : state_machine m')
           (cs : list (called m')),
      Forall2 (at_op F) ops' ops ->
      exec_all_s sc stack md ops' sm = (cs, sm') ->
      exec_all stack md ops (at_machine F sm) = (map (at_called F) cs, at_machine F sm').
Proof.
  intros m' m F sc Hs Hl Hn stack md ops' ops sm sm' cs Ho He.
  exact (@history_same m' m F sc Hs Hl stack md Hn ops' ops sm cs sm' Ho He).
Qed.
Print Assumptions C73_unseen.

(** If it may panic: a call either does what it would do without, or it panics, having made some
    first part of the calls into user code it would have made. *)
Theorem C73_panics :
  forall (m' m : machine) (F : look m' m) (sc : superstates m'),
    looks_same F sc -> lends m ->
    forall (stack : nat) (md : mode) (o' : op m') (o : op m) (sm sm' : state_machine m') (out : outcome unit)
           (cx : option (Ctx m')) (tr : list (obs m')),
      at_op F o' o ->
      exec_s sc stack md o' sm = (out, sm', cx, tr) ->
      exec stack md o (at_machine F sm) =
        (out, at_machine F sm', option_map (at_cx F) cx, map (at_obs F) tr) \/
      out = Abort Panicked /\
      exists rest, snd (exec stack md o (at_machine F sm)) = map (at_obs F) tr ++ rest.
Proof.
  intros m' m F sc Hs Hl stack md o' o sm sm' out cx tr Ho He.
  exact (@exec_panics m' m F sc Hs Hl stack md o' o sm out sm' cx tr Ho He).
Qed.
Print Assumptions C73_panics.

(** A call that initialises the machine and panics on the way has called entry actions only, and
    leaves it uninitialised, so that the next call initialises it again; nothing else leaves it
    uninitialised. *)
Definition is_entry {m : machine} (o : obs m) : Prop := exists n, o = OEnter n.

Theorem C73_init_again :
  forall (m : machine) (sc : superstates m) (stack : nat) (md : mode) (o : op m) (sm sm' : state_machine m)
         (out : outcome unit) (cx : option (Ctx m)) (tr : list (obs m)),
    exec_s sc stack md o sm = (out, sm', cx, tr) ->
    (initialized sm = true -> initialized sm' = true) /\
    ((exists c, o = OpInit c) -> (initialized sm' = true <-> initialized sm = true \/ out = Ret tt)) /\
    ((exists e c, o = OpHandle e c) ->
       (out = Ret tt -> initialized sm' = true) /\
       (initialized sm' = false -> (exists w, out = Abort w) /\ Forall is_entry tr)) /\
    ((exists c, o = OpInit c) -> Forall is_entry tr).
Proof.
  intros m sc stack md o sm sm' out cx tr H.
  exact (@init_again m sc stack md o sm out sm' cx tr H).
Qed.
Print Assumptions C73_init_again.

(** So Machine.v, in which `superstate()` is a pure, total projection, models the library for
    machines whose `superstate()` is one. *)
Definition itself (m : machine) : look m m :=
  @Look m m (fun x => x) (fun u => u) (fun s => s) (fun e => e) (fun c => c).

Lemma itself_obs (m : machine) (o : obs m) : at_obs (itself m) o = o.
Proof.
  assert (Hn : forall n, at_node (itself m) n = n) by (intros []; reflexivity).
  destruct o; cbn; rewrite ?Hn; try reflexivity. destruct r; reflexivity.
Qed.
Lemma itself_machine (m : machine) (sm : state_machine m) : at_machine (itself m) sm = sm.
Proof. destruct sm as [[sh x] b]. reflexivity. Qed.
Lemma itself_called (m : machine) (c : called m) : at_called (itself m) c = c.
Proof.
  destruct c as [out cx tr]. unfold at_called. cbn [c_out c_cx c_tr].
  f_equal; [destruct cx; reflexivity |].
  rewrite (map_ext _ (fun o => o) (@itself_obs m)). apply map_id.
Qed.
Lemma itself_same (m : machine) : looks_same (itself m) (pure_superstates m).
Proof.
  assert (Hr : forall r, at_reply (itself m) r = r) by (intros [[] | |]; reflexivity).
  assert (Hn : forall n, at_node (itself m) n = n) by (intros []; reflexivity).
  split; cbn; intros; rewrite ?Hr, ?Hn; try reflexivity; try assumption.
  - injection H as <- <-. split; [reflexivity | destruct (s_super m x); reflexivity].
  - injection H as <- <-. split; [reflexivity | destruct (u_super m u); reflexivity].
Qed.

Theorem C73_pure :
  forall (m : machine) (stack : nat) (md : mode) (ops : list (op m)) (sm : state_machine m),
    lends m ->
    exec_all_s (pure_superstates m) stack md ops sm = exec_all stack md ops sm.
Proof.
  intros m stack md ops sm Hl.
  destruct (exec_all_s (pure_superstates m) stack md ops sm) as [cs sm'] eqn:E.
  assert (Ho : Forall2 (at_op (itself m)) ops ops).
  { clear E. induction ops as [| o ops IH]; constructor; [| exact IH]. destruct o; cbn; auto. }
  assert (Hn : never_panics (pure_superstates m)) by (split; cbn; discriminate).
  pose proof (@C73_unseen m m (itself m) _ (itself_same m) Hl Hn stack md ops ops sm sm' cs Ho E) as H.
  rewrite !itself_machine in H. rewrite H. f_equal.
  rewrite (map_ext _ (fun c => c) (@itself_called m)). symmetry. apply map_id.
Qed.
Print Assumptions C73_pure.

(** Two states in a superstate; an event names the target. *)
Definition plain_pair : machine := {|
  State := nat; Sup := unit; Shared := nat; Event := nat; Ctx := unit;
  initial := 0;
  s_disc := fun x => x; u_disc := fun _ => 0;
  s_super := fun x => if x <? 2 then Some tt else None; s_put := fun x _ => x;
  u_super := fun _ => None; u_put := fun u _ => u;
  s_handler := fun x n c e => (Returns Super, x, n, c);
  s_entry := fun x n c => (Returns tt, x, S n, c);
  s_exit := no_action;
  u_handler := fun u n c e => (Returns (Transition e), u, n, c);
  u_entry := no_action; u_exit := no_action;
  h_before_dispatch := no_dispatch_hook; h_after_dispatch := no_dispatch_hook;
  h_before_transition := no_transition_hook; h_after_transition := no_transition_hook
|}.
(** The same, each state counting the calls of its `superstate()`, which panics when there have been
    [limit]. *)
Definition counting_pair : machine := {|
  State := nat * nat; Sup := unit; Shared := nat; Event := nat; Ctx := unit;
  initial := (0, 0);
  s_disc := fun x => fst x; u_disc := fun _ => 0;
  s_super := fun _ => None; s_put := fun x _ => x;
  u_super := fun _ => None; u_put := fun u _ => u;
  s_handler := fun x n c e => (Returns Super, x, n, c);
  s_entry := fun x n c => (Returns tt, x, S n, c);
  s_exit := no_action;
  u_handler := fun u n c e => (Returns (Transition (e, 0)), u, n, c);
  u_entry := no_action; u_exit := no_action;
  h_before_dispatch := no_dispatch_hook; h_after_dispatch := no_dispatch_hook;
  h_before_transition := no_transition_hook; h_after_transition := no_transition_hook
|}.
Definition counting (limit : option nat) : superstates counting_pair :=
  @Superstates counting_pair
    (fun x => (match limit with
               | Some l => if snd x <? l then Some (if fst x <? 2 then Some tt else None) else None
               | None => Some (if fst x <? 2 then Some tt else None)
               end, (fst x, S (snd x))))
    (fun u => (Some None, u)).
Definition forget : look counting_pair plain_pair :=
  @Look counting_pair plain_pair (fun x => fst x) (fun u => u) (fun s => s) (fun e => e) (fun c => c).

Lemma counting_looks limit : looks_same forget (counting limit).
Proof.
  split; cbn -[Nat.ltb]; try reflexivity.
  - intros [p n] o x' H. cbn -[Nat.ltb] in H |- *.
    assert (Hx : (fst x', o) = (p, if p <? 2 then Some tt else None)).
    { destruct limit as [l |]; [destruct (n <? l) |]; inversion H; reflexivity. }
    injection Hx as -> ->. split; [reflexivity | destruct (p <? 2); reflexivity].
  - intros u o u' [= <- <-]. split; reflexivity.
  - intros x sh cx e r x' sh' cx' [= <- <- <- <-]. reflexivity.
  - intros x sh cx r x' sh' cx' [= <- <- <- <-]. reflexivity.
  - intros x sh cx r x' sh' cx' [= <- <- <- <-]. reflexivity.
  - intros u sh cx e r u' sh' cx' [= <- <- <- <-]. reflexivity.
  - intros u sh cx r u' sh' cx' [= <- <- <- <-]. reflexivity.
  - intros u sh cx r u' sh' cx' [= <- <- <- <-]. reflexivity.
  - intros sh n e r sh' [= <- <-]. reflexivity.
  - intros sh n e r sh' [= <- <-]. reflexivity.
  - intros sh a b r sh' [= <- <-]. reflexivity.
  - intros sh a b r sh' [= <- <-]. reflexivity.
Qed.

Example C73_case :
  looks_same forget (counting None) /\ lends plain_pair /\ never_panics (counting None) /\
  forall md,
    let ops := [OpHandle (m := counting_pair) 1 tt; OpHandle (m := counting_pair) 1 tt] in
    Forall2 (at_op forget) ops [OpHandle (m := plain_pair) 1 tt; OpHandle (m := plain_pair) 1 tt] /\
    map (fun c => c_out c) (fst (exec_all_s (counting None) 2 md ops (new_state_machine counting_pair 0)))
      = [Ret tt; Ret tt] /\
    sm_state (snd (exec_all_s (counting None) 2 md ops (new_state_machine counting_pair 0))) <>
      sm_state (new_state_machine counting_pair 0).
Proof.
  split; [apply counting_looks |]. split; [split; cbn; try reflexivity; discriminate |].
  split; [split; intros x; cbn; discriminate |].
  intros md. cbv zeta. split; [repeat constructor |].
  destruct md; (split; [reflexivity | vm_compute; discriminate]).
Qed.

(** The machine with a limit, started in state 0 after having been asked often enough, panics when
    the path is computed: the handlers have run, and no exit action. *)
Example C73_panic_case : forall md,
  looks_same forget (counting (Some 4)) /\
  exists tr,
    fst (exec_s (counting (Some 4)) 2 md (OpHandle (m := counting_pair) 1 tt)
           (StateMachine (@Inner counting_pair 0 (0, 2)) true)) =
      (Abort Panicked, StateMachine (@Inner counting_pair 0 (0, 5)) true, Some tt) /\
    snd (exec_s (counting (Some 4)) 2 md (OpHandle (m := counting_pair) 1 tt)
           (StateMachine (@Inner counting_pair 0 (0, 2)) true)) = tr /\
    tr <> [] /\ (forall n, ~ In (OExit n) tr).
Proof.
  intros md. split; [apply counting_looks |].
  destruct md; eexists; (split; [vm_compute; reflexivity |]); (split; [vm_compute; reflexivity |]);
    (split; [discriminate |]); intros n H; cbn in H; intuition discriminate.
Qed.
