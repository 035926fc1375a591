(** Props23.v — C74: behaviour states have in common can be moved to their superstate and back. *)

From Coq Require Import List Bool Arith Lia.
From Verif Require Import Machine Blocking Awaitable Api Spec PullSpec PullProofs AnySpec.
Import ListNotations.
Set Implicit Arguments.

(** *** C74 *)

(** [m] leaves certain events of certain states and superstates to the superstate above;
    [pushed_down m ..] treats them there itself, in the same way.  For every history of calls, every
    call ends alike in both machines and leaves the same context, the same actions run and the same
    transitions are made, and state and storage are the same afterwards. *)
Theorem C74_pushed_down :
  forall (m : machine) (by_state : State m -> Event m -> bool) (by_super : Sup m -> Event m -> bool)
         (stack : nat) (rank : Sup m -> nat),
    goes_up m stack rank -> lending m -> no_dispatch_hooks m -> deferring m by_state by_super ->
    forall (md : mode) (ops : list (op m)) (sm sm' : state_machine m) (cs : list (called m)),
      exec_all stack md ops sm = (cs, sm') ->
      exists cs',
        exec_all stack md (map (@down_op m by_state by_super) ops) (down_machine by_state by_super sm) =
          (cs', down_machine by_state by_super sm') /\
        map (see_called (m := pushed_down m by_state by_super)) cs' = map see_called cs.
Proof.
  intros m by_state by_super stack rank Hu Hl Hq Hd md ops sm sm' cs E.
  exact (@pushed_history m by_state by_super stack rank Hu Hl Hq Hd md ops sm cs sm' E).
Qed.
Print Assumptions C74_pushed_down.

(** The blinking light of the README with a counter: states 0 (on) and 1 (off) are in the superstate,
    2 (not blinking) is not.  Event 0 is the timer, 1 the button, which `blinking` handles: it puts
    the counter into the storage and goes to 2.  Every entry adds to the storage. *)
Definition blinking_light : machine := {|
  State := nat * nat; Sup := nat; Shared := list nat; Event := nat; Ctx := unit;
  initial := (0, 0);
  s_disc := fst; u_disc := fun _ => 0;
  s_super := fun x => if fst x <? 2 then Some (snd x) else None; s_put := fun x c => (fst x, c);
  u_super := fun _ => None; u_put := fun u _ => u;
  s_handler := fun x l c e =>
    match fst x, e with
    | 0, 0 => (Returns (Transition (1, S (snd x))), x, l, c)
    | 1, 0 => (Returns (Transition (0, S (snd x))), x, l, c)
    | 2, 1 => (Returns (Transition (0, 0)), x, l, c)
    | _, _ => (Returns Super, x, l, c)
    end;
  s_entry := fun x l c => (Returns tt, x, fst x :: l, c);
  s_exit := no_action;
  u_handler := fun n l c e =>
    match e with
    | 1 => (Returns (Transition (2, 0)), 0, 100 + n :: l, c)
    | _ => (Returns Super, n, l, c)
    end;
  u_entry := no_action; u_exit := no_action;
  h_before_dispatch := no_dispatch_hook; h_after_dispatch := no_dispatch_hook;
  h_before_transition := no_transition_hook; h_after_transition := no_transition_hook
|}.
(** Here `led_off` treats every event itself, `led_on` only the button. *)
Definition light_itself (x : nat * nat) (e : nat) : bool :=
  match fst x, e with 1, _ => true | 0, 1 => true | _, _ => false end.
Definition nobody (u e : nat) : bool := false.

Example C74_case :
  goes_up blinking_light 1 (fun _ => 0) /\ lending blinking_light /\ no_dispatch_hooks blinking_light /\
  deferring blinking_light light_itself nobody /\
  (** The handlers are different, *)
  s_handler blinking_light (0, 5) [] tt 1 = (Returns Super, (0, 5), [], tt) /\
  s_handler (pushed_down blinking_light light_itself nobody) (0, 5) [] tt 1 =
    (Returns (Transition (2, 0)), (0, 0), [105], tt) /\
  (** the runs are the same. *)
  forall md,
    let ops := [OpHandle (m := blinking_light) 0 tt; OpHandle (m := blinking_light) 1 tt;
                OpHandle (m := blinking_light) 1 tt; OpHandle (m := blinking_light) 7 tt] in
    let sm := new_state_machine blinking_light [] in
    let r := exec_all 1 md ops sm in
    let r' := exec_all 1 md (map (@down_op blinking_light light_itself nobody) ops)
                       (down_machine (m := blinking_light) light_itself nobody sm) in
    (shared_storage (sm_inner (snd r)), state (sm_inner (snd r))) = ([0; 2; 101; 1; 0], (0, 0)) /\
    (shared_storage (sm_inner (snd r')), state (sm_inner (snd r'))) = ([0; 2; 101; 1; 0], (0, 0)) /\
    map (fun c => length (c_tr c)) (fst r) <> map (fun c => length (c_tr c)) (fst r').
Proof.
  split; [| split; [| split; [| split]]].
  - split; cbn; [discriminate | lia | lia].
  - split; [| discriminate]. intros [k n] v. cbn -[Nat.ltb]. destruct (k <? 2); [| discriminate].
    intros [= <-]. reflexivity.
  - split; reflexivity.
  - assert (H : forall u sh cx e, defers_only blinking_light u sh cx e).
    { intros u sh cx e u' sh' cx'. cbn. destruct e as [| [| e]]; [| discriminate |]; intros [= <- <- <-]; auto. }
    split; intros; apply H.
  - split; [reflexivity |]. split; [reflexivity |].
    intros []; cbn zeta; (split; [reflexivity | split; [reflexivity | discriminate]]).
Qed.
