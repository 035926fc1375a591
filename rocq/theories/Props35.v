(** Props35.v — C86: the whole life of a machine. *)

From Coq Require Import List Bool Arith Permutation Lia.
From Verif Require Import Machine Blocking Awaitable Api Drops DropSpec DropProofs Life LifeSpec LifeProofs.
Import ListNotations.
Set Implicit Arguments.

(** *** C86 *)

(** A `StateMachine` from its construction to its drop, whatever panics are caught and futures
    dropped on the way: the states dropped are the one it was constructed with and the targets
    the handlers returned, each once; none is leaked and none is dropped twice.  The shared
    storage is dropped once, and it is the one the machine was constructed with. *)
Theorem C86_dropped_once :
  forall (m : machine) (stack : nat) (md : mode) (T U : Type) (mark : State m -> T) (label : Shared m -> U),
    keeps_mark m mark -> keeps_storage m label ->
    forall (ops : list (op m)) (sm : state_machine m) (outs : list (outcome unit)) (evs : list (life_event m)),
      Forall (keeps_marks mark) ops -> Forall (keeps_storages label) ops ->
      sm_life stack md ops sm = (outs, evs) ->
      Forall unwound outs ->
      Permutation (map mark (states_dropped evs)) (mark (sm_state sm) :: map mark (targets_asked evs)) /\
      map label (storages_dropped evs) = [label (sm_shared sm)].
Proof.
  intros m stack md T U mark label Hm Hl ops sm outs evs Ho Hs. unfold sm_life.
  destruct (run_d stack md ops sm) as [rs sm'] eqn:E. intros [= <- <-] Hu.
  assert (Hu' : Forall (fun r : outcome unit * list (event_of m) => unwound (fst r)) rs).
  { apply Forall_forall. intros r Hin. rewrite Forall_forall in Hu. apply Hu, in_map, Hin. }
  split.
  - unfold states_dropped, targets_asked, events_of. rewrite !flat_map_app, !plain_events. cbn [flat_map drop_inner plain_event app].
    unfold drops_in at 1, targets_in at 1. rewrite !flat_map_app. cbn [flat_map drop_in target_in app].
    change (flat_map (@drop_in m) ?l) with (drops_in l). change (flat_map (@target_in m) ?l) with (targets_in l).
    rewrite drops_flat, targets_flat, app_nil_r, map_app.
    exact (@run_drops m stack T mark Hm md ops sm rs sm' Ho E Hu').
  - unfold storages_dropped. rewrite flat_map_app. change (flat_map _ (events_of rs)) with (storages_dropped (events_of rs)).
    unfold events_of. rewrite no_storages. cbn.
    rewrite <- (proj2 (@run_erases m stack md ops sm rs sm' E)).
    f_equal. exact (@exec_all_lasting m stack U label Hl md ops sm Hs).
Qed.
Print Assumptions C86_dropped_once.

(** The drop comes last: first the shared storage, then the current state; nothing of the user's
    is called by it. *)
Theorem C86_order :
  forall (m : machine) (stack : nat) (md : mode) (ops : list (op m)) (sm : state_machine m)
         (outs : list (outcome unit)) (evs : list (life_event m)),
    sm_life stack md ops sm = (outs, evs) ->
    exists l,
      evs = map Ev l ++ [DroppedStorage (sm_shared (snd (exec_all stack md ops sm)));
                         Ev (Dropped (sm_state (snd (exec_all stack md ops sm))))] /\
      outs = map c_out (fst (exec_all stack md ops sm)) /\
      calls_in l = log_of (fst (exec_all stack md ops sm)).
Proof.
  intros m stack md ops sm outs evs. unfold sm_life.
  destruct (run_d stack md ops sm) as [rs sm'] eqn:E. intros [= <- <-].
  destruct (@run_erases m stack md ops sm rs sm' E) as [Hc Hs].
  exists (flat_map snd rs). split; [| split].
  - unfold events_of, drop_inner. rewrite Hs. reflexivity.
  - assert (H := f_equal (map fst) Hc). rewrite !map_map in H. cbn in H. symmetry. exact H.
  - assert (H := f_equal (fun l => concat (map snd l)) Hc). cbv beta in H. rewrite !map_map in H. cbn in H.
    unfold log_of.
    transitivity (concat (map (fun x : outcome unit * list (event_of m) => calls_in (snd x)) rs)); [| symmetry; rewrite flat_map_concat_map; exact H].
    clear. induction rs as [| r rs IH]; cbn; [reflexivity |].
    rewrite <- IH. apply flat_map_app.
Qed.
Print Assumptions C86_order.

(** The typestate machines live the same life: using an `UninitializedStateMachine` by [pre],
    initializing it, using the `InitializedStateMachine` by [ops] and dropping it is what a
    `StateMachine` does when it is used so and dropped.  An `init` that is aborted takes the machine
    with it: it is dropped at once. *)
Theorem C86_front_ends :
  forall (m : machine) (stack : nat) (md : mode) (pre : list (um_op m)) (init_cx : option (Ctx m))
         (ops : list (im_op m)) (um : uninitialized_machine m)
         (outs : list (outcome unit)) (evs : list (life_event m)),
    um_life stack md pre init_cx ops um = (outs, evs) ->
    Forall unwound outs ->
    sm_life stack md
      (map (@as_op_before m) pre ++
       match init_cx, outs with
       | None, _ => []
       | Some cx, Abort _ :: _ => [OpInit cx]
       | Some cx, _ => OpInit cx :: map (@as_op m) ops
       end)
      (StateMachine (um_inner um) false) =
    (map (fun _ => Ret tt) pre ++ outs, evs).
Proof.
  intros m stack md pre init_cx ops um outs evs. unfold um_life, sm_life.
  rewrite run_d_app, run_pre. set (um1 := fold_left _ pre um).
  assert (Hp : flat_map (snd (A := outcome unit)) (map (fun _ : um_op m => (Ret tt, @nil (event_of m))) pre) = []).
  { clear. induction pre as [| o pre IH]; cbn; [reflexivity | exact IH]. }
  destruct init_cx as [cx |]; [| cbn [run_d]; intros [= <- <-] _].
  2: { rewrite map_app, map_map. cbn [map app fst]. unfold events_of. rewrite flat_map_app, Hp. reflexivity. }
  destruct (a_out (run_inner (inner_init m stack md) (um_inner um1) cx)) as [[] | w] eqn:Eo.
  - destruct (im_run_d stack md ops _) as [rs im'] eqn:Ei. intros [= <- <-] _.
    cbn [run_d exec_d exec]. unfold init_with_context. cbn [initialized negb sm_inner]. rewrite Eo.
    cbn [a_out a_machine a_cx a_tr].
    change (a_machine (run_inner ?c ?i ?x)) with (im_inner (InitializedMachine (a_machine (run_inner c i x)))).
    rewrite run_im, Ei. cbn [sm_inner].
    rewrite map_app, map_map. cbn [map app fst]. unfold events_of. rewrite flat_map_app, Hp.
    cbn [flat_map app snd]. rewrite map_app, <- app_assoc. reflexivity.
  - intros [= <- <-] Hu. inversion Hu as [| ? ? Hw _]; subst.
    cbn [run_d exec_d exec]. unfold init_with_context. cbn [initialized negb sm_inner]. rewrite Eo.
    cbn [a_out a_machine a_cx a_tr sm_inner].
    rewrite map_app, map_map. cbn [map app fst]. unfold events_of. rewrite flat_map_app, Hp.
    cbn [flat_map app snd]. rewrite app_nil_r.
    destruct w; try reflexivity. exfalso. apply Hw. reflexivity.
Qed.
Print Assumptions C86_front_ends.

(** The machine of C72 with a name in its shared storage, beside the next serial number.  Entering
    the place 2 panics. *)
Definition named_tickets : machine := {|
  State := nat * nat;           (* place, serial number *)
  Sup := unit; Shared := nat * nat; Event := nat; Ctx := unit;
  initial := (0, 0);
  s_disc := fst; u_disc := fun _ => 0;
  s_super := fun _ => Some tt; s_put := fun x _ => x;
  u_super := fun _ => None; u_put := fun u _ => u;
  s_handler := fun x n c e => (Returns Super, x, n, c);
  s_entry := fun x n c => ((if fst x =? 2 then Panics else Returns tt), x, n, c);
  s_exit := no_action;
  u_handler := fun u n c e => (Returns (Transition (e, snd n)), u, (fst n, S (snd n)), c);
  u_entry := no_action; u_exit := no_action;
  h_before_dispatch := no_dispatch_hook; h_after_dispatch := no_dispatch_hook;
  h_before_transition := no_transition_hook; h_after_transition := no_transition_hook
|}.

Example C86_case :
  keeps_mark named_tickets snd /\ keeps_storage named_tickets fst /\
  forall md,
    (* three transitions, one of them aborted, then the drop *)
    (let r := sm_life 1 md [OpHandle (m := named_tickets) 1 tt; OpHandle (m := named_tickets) 2 tt; OpHandle (m := named_tickets) 3 tt]
                (new_state_machine named_tickets (77, 1)) in
     fst r = [Ret tt; Abort Panicked; Ret tt] /\ Forall unwound (fst r) /\
     states_dropped (snd r) = [(0, 0); (1, 1); (2, 2); (3, 3)] /\
     targets_asked (snd r) = [(1, 1); (2, 2); (3, 3)] /\
     storages_dropped (snd r) = [(77, 4)]) /\
    (* the typestate machine, when the client makes the state one whose entry panics *)
    (let r := um_life (m := named_tickets) 1 md [UStateMut (m := named_tickets) (fun x => (2, snd x))] (Some tt)
                [IHandle (m := named_tickets) 1 tt] (new_uninitialized named_tickets (77, 7)) in
     fst r = [Abort Panicked] /\ Forall unwound (fst r) /\
     states_dropped (snd r) = [(2, 0)] /\ storages_dropped (snd r) = [(77, 7)]) /\
    (* and when all goes well *)
    (let r := um_life (m := named_tickets) 1 md [] (Some tt) [IHandle (m := named_tickets) 1 tt; IHandle (m := named_tickets) 5 tt]
                (new_uninitialized named_tickets (77, 7)) in
     fst r = [Ret tt; Ret tt; Ret tt] /\
     states_dropped (snd r) = [(0, 0); (1, 7); (5, 8)] /\ storages_dropped (snd r) = [(77, 9)]).
Proof.
  cbv zeta. split; [| split].
  1, 2: split; try reflexivity; intros until 1; match goal with H : _ = _ |- _ => now injection H as <- <- <- <- || now injection H as <- <- end.
  intros md; destruct md; repeat split; try (vm_compute; reflexivity).
  all: vm_compute; repeat constructor; discriminate.
Qed.
