(** Props21.v — C72: the state values the library owns. *)

From Coq Require Import List Bool Arith Permutation Lia.
From Verif Require Import Machine Blocking Awaitable Api Drops DropSpec DropProofs.
Import ListNotations.
Set Implicit Arguments.

(** *** C72 *)

(** The model with drops does what Api.v does: leave the drops out and the calls into user code,
    how each call of the client ended, and the machine in the end are the same. *)
Theorem C72_same_machine :
  forall (m : machine) (stack : nat) (md : mode) (ops : list (op m)) (sm sm' : state_machine m)
         (rs : list (outcome unit * list (event_of m))),
    run_d stack md ops sm = (rs, sm') ->
    map (fun c => (c_out c, c_tr c)) (fst (exec_all stack md ops sm)) =
      map (fun r => (fst r, calls_in (snd r))) rs /\
    snd (exec_all stack md ops sm) = sm'.
Proof.
  intros m stack md ops sm sm' rs H. exact (@run_erases m stack md ops sm rs sm' H).
Qed.
Print Assumptions C72_same_machine.

(** Over any history, with caught panics and dropped futures: the states dropped and the state the
    machine holds in the end are the state it held at first and the targets the handlers
    returned, each once. *)
Theorem C72_dropped_once :
  forall (m : machine) (stack : nat) (md : mode) (T : Type) (mark : State m -> T),
    keeps_mark m mark ->
    forall (ops : list (op m)) (sm sm' : state_machine m) (rs : list (outcome unit * list (event_of m))),
      Forall (keeps_marks mark) ops ->
      run_d stack md ops sm = (rs, sm') ->
      Forall (fun r => unwound (fst r)) rs ->
      Permutation
        (map mark (flat_map (fun r => drops_in (snd r)) rs) ++ [mark (sm_state sm')])
        (mark (sm_state sm) :: map mark (flat_map (fun r => targets_in (snd r)) rs)).
Proof.
  intros m stack md T mark Hk ops sm sm' rs Ho Hr Hu.
  exact (@run_drops m stack T mark Hk md ops sm rs sm' Ho Hr Hu).
Qed.
Print Assumptions C72_dropped_once.

(** So if no two of these had the same mark, no mark is dropped twice, and the machine's current
    state has not been dropped. *)
Theorem C72_never_twice :
  forall (m : machine) (stack : nat) (md : mode) (T : Type) (mark : State m -> T),
    keeps_mark m mark ->
    forall (ops : list (op m)) (sm sm' : state_machine m) (rs : list (outcome unit * list (event_of m))),
      Forall (keeps_marks mark) ops ->
      run_d stack md ops sm = (rs, sm') ->
      Forall (fun r => unwound (fst r)) rs ->
      NoDup (mark (sm_state sm) :: map mark (flat_map (fun r => targets_in (snd r)) rs)) ->
      NoDup (map mark (flat_map (fun r => drops_in (snd r)) rs)) /\
      ~ In (mark (sm_state sm')) (map mark (flat_map (fun r => drops_in (snd r)) rs)).
Proof.
  intros m stack md T mark Hk ops sm sm' rs Ho Hr Hu Hn.
  pose proof (@C72_dropped_once m stack md T mark Hk ops sm sm' rs Ho Hr Hu) as P.
  apply (Permutation_NoDup (Permutation_sym P)) in Hn.
  rewrite Permutation_app_comm in Hn. cbn [app] in Hn.
  inversion Hn; subst. split; assumption.
Qed.
Print Assumptions C72_never_twice.

(** Within one call: everything is dropped after the last call into user code — in a transition
    that completes, after the after-transition hook, and it is the state that was left: it is
    still alive while the entry actions run.  A call drops nothing iff no handler asked for a
    transition. *)
Theorem C72_dropped_last :
  forall (m : machine) (stack : nat) (md : mode) (o : op m) (sm sm' : state_machine m)
         (out : outcome unit) (cx : option (Ctx m)) (tr : list (event_of m)),
    exec_d stack md o sm = (out, sm', cx, tr) -> unwound out ->
    exists t ds,
      tr = map Did t ++ map Dropped ds /\
      length ds = length (targets_in tr) /\ length ds <= 1 /\
      (out = Ret tt -> forall d, In d ds -> exists t0, t = t0 ++ [OAfterTransition d (sm_state sm')]).
Proof.
  intros m stack md o sm sm' out cx tr He Hu.
  assert (Hk : keeps_mark m (fun _ => tt)) by (split; reflexivity).
  assert (Ho : keeps_marks (fun _ => tt) o) by (destruct o; cbn; auto).
  destruct (@exec_drops m stack unit (fun _ => tt) Hk md o sm out sm' cx tr Ho He Hu)
    as (t & ds & Et & L & L1 & _ & Hend).
  exists t, ds. repeat split; assumption.
Qed.
Print Assumptions C72_dropped_last.

(** A machine whose states carry a serial number, issued by the shared storage; the handler of
    the superstate asks for the transitions.  Entering the place 2 panics. *)
Definition tickets : machine := {|
  State := nat * nat;           (* place, serial number *)
  Sup := unit; Shared := nat; Event := nat; Ctx := unit;
  initial := (0, 0);
  s_disc := fst; u_disc := fun _ => 0;
  s_super := fun _ => Some tt; s_put := fun x _ => x;
  u_super := fun _ => None; u_put := fun u _ => u;
  s_handler := fun x n c e => (Returns Super, x, n, c);
  s_entry := fun x n c => ((if fst x =? 2 then Panics else Returns tt), x, n, c);
  s_exit := no_action;
  u_handler := fun u n c e => ((if e =? 9 then Returns Handled else Returns (Transition (e, n))), u, S n, c);
  u_entry := no_action; u_exit := no_action;
  h_before_dispatch := no_dispatch_hook; h_after_dispatch := no_dispatch_hook;
  h_before_transition := no_transition_hook; h_after_transition := no_transition_hook
|}.

Example C72_case :
  keeps_mark tickets snd /\
  let ops : list (op tickets) := [OpHandle (m := tickets) 1 tt; OpHandle (m := tickets) 9 tt;
              OpHandle (m := tickets) 2 tt; OpHandle (m := tickets) 3 tt] in
  Forall (keeps_marks (m := tickets) snd) ops /\
  forall md, exists rs sm',
    run_d 1 md ops (new_state_machine tickets 1) = (rs, sm') /\
    map fst rs = [Ret tt; Ret tt; Abort Panicked; Ret tt] /\
    Forall (fun r => unwound (fst r)) rs /\
    map (fun r => drops_in (snd r)) rs = [[(0, 0)]; []; [(1, 1)]; [(2, 3)]] /\
    sm_state sm' = (3, 4) /\
    NoDup (snd (sm_state (new_state_machine tickets 1)) ::
           map snd (flat_map (fun r => targets_in (snd r)) rs)).
Proof.
  split; [| split].
  - split; try reflexivity.
    + intros x sh cx e r x' sh' cx' H. injection H. intros; subst; reflexivity.
    + intros x sh cx r x' sh' cx' H. injection H. intros; subst; reflexivity.
    + intros x sh cx r x' sh' cx' H. injection H. intros; subst; reflexivity.
  - repeat constructor.
  - intros md. destruct md; eexists _, _; (split; [vm_compute; reflexivity |]); cbn.
    all: split; [reflexivity | split; [repeat constructor; discriminate |]].
    all: split; [reflexivity | split; [reflexivity |]].
    all: repeat constructor; cbn; intuition discriminate.
Qed.
