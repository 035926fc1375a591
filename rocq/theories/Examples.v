(** Examples.v — a concrete machine used to show that the hypotheses of the theorems are
    met by non-trivial cases, and as witness in the refutations.  A blinking light in the
    style of examples/macro/blinky/src/main.rs with a two-level hierarchy:

<<
      Powered n
        Blinking n
          On n, Off n
        Idle n
      Fault
>>
    *)

From Coq Require Import List Bool Arith Lia.
From Verif Require Import Machine Api Spec.
Import ListNotations.
Set Implicit Arguments.

Inductive demo_state := On (n : nat) | Off (n : nat) | Idle (n : nat) | Fault.
Inductive demo_sup := Blinking (n : nat) | Powered (n : nat).
Inductive demo_event := Timer | Button | Halt | Noop | Boom | Again.

Definition demo_s_disc (s : demo_state) : nat :=
  match s with On _ => 0 | Off _ => 1 | Idle _ => 2 | Fault => 3 end.
Definition demo_u_disc (u : demo_sup) : nat :=
  match u with Blinking _ => 0 | Powered _ => 1 end.

Definition demo_s_super (s : demo_state) : option demo_sup :=
  match s with
  | On n | Off n => Some (Blinking n)
  | Idle n => Some (Powered n)
  | Fault => None
  end.
Definition sup_val (u : demo_sup) : nat := match u with Blinking n | Powered n => n end.
Definition demo_s_put (s : demo_state) (u : demo_sup) : demo_state :=
  match s with
  | On _ => On (sup_val u)
  | Off _ => Off (sup_val u)
  | Idle _ => Idle (sup_val u)
  | Fault => Fault
  end.
Definition demo_u_super (u : demo_sup) : option demo_sup :=
  match u with Blinking n => Some (Powered n) | Powered _ => None end.
Definition demo_u_put (u v : demo_sup) : demo_sup :=
  match u with Blinking _ => Blinking (sup_val v) | Powered n => Powered n end.


Definition demo_s_handler (s : demo_state) (sh : list nat) (cx : nat) (e : demo_event)
  : reply (response demo_state) * demo_state * list nat * nat :=
  match s, e with
  | On n, Timer => (Returns (Transition (Off 0)), On (n + 1), sh ++ [n], cx + 1)
  | On n, Again => (Returns (Transition (On 40)), On n, sh, cx)
  | Off n, Timer => (Returns (Transition (On n)), Off n, sh ++ [n], cx + 1)
  | Off n, Noop => (Returns Handled, Off (n + 2), sh, cx)
  | Idle n, Button => (Returns (Transition (On 5)), Idle n, sh, cx)
  | Fault, Button => (Returns (Transition (Idle 7)), Fault, sh, cx)
  | x, _ => (Returns Super, x, sh ++ [100], cx)
  end.
Definition demo_u_handler (u : demo_sup) (sh : list nat) (cx : nat) (e : demo_event)
  : reply (response demo_state) * demo_sup * list nat * nat :=
  match u, e with
  | Blinking n, Button => (Returns (Transition (Idle 1)), Blinking (n + 10), sh, cx + 1)
  | Blinking n, Boom => (Panics, Blinking (n + 3), sh, cx + 1)
  | Powered n, Halt => (Returns (Transition Fault), Powered (n + 20), sh, cx)
  | Powered n, Timer => (Returns Handled, Powered n, sh, cx)
  | v, _ => (Returns Super, v, sh ++ [101], cx)
  end.

Definition demo_s_entry (s : demo_state) (sh : list nat) (cx : nat)
  : reply unit * demo_state * list nat * nat :=
  match s with
  | On n => (Returns tt, On (n + 1), sh ++ [1], cx)
  | x => (Returns tt, x, sh ++ [2], cx)
  end.
Definition demo_s_exit (s : demo_state) (sh : list nat) (cx : nat)
  : reply unit * demo_state * list nat * nat :=
  match s with
  | On n => (Returns tt, On 0, sh ++ [3], cx)
  | x => (Returns tt, x, sh ++ [4], cx)
  end.

(** The context decides whether these actions go wrong. *)
Definition demo_u_entry (u : demo_sup) (sh : list nat) (cx : nat)
  : reply unit * demo_sup * list nat * nat :=
  match u with
  | Blinking n =>
      if cx =? 14 then (Panics, Blinking n, sh, cx) else (Returns tt, Blinking (n + 1), sh ++ [5], cx)
  | Powered n =>
      if cx =? 15 then (Cancelled, Powered n, sh, cx) else (Returns tt, Powered n, sh ++ [6], cx)
  end.
Definition demo_u_exit (u : demo_sup) (sh : list nat) (cx : nat)
  : reply unit * demo_sup * list nat * nat :=
  match u with
  | Blinking n =>
      if cx =? 13 then (Panics, Blinking n, sh, cx) else (Returns tt, Blinking n, sh ++ [7], cx)
  | Powered n => (Returns tt, Powered n, sh ++ [8], cx)
  end.

Definition demo_hook {N : Type} (active : bool) (code : nat) (sh : list nat) (_ _ : N)
  : reply unit * list nat := (Returns tt, if active then sh ++ [code] else sh).
Definition demo_hook_d {N E : Type} (active : bool) (code : nat) (sh : list nat) (_ : N) (_ : E)
  : reply unit * list nat := (Returns tt, if active then sh ++ [code] else sh).

(** [active]: do the hooks do anything? *)
Definition demo (active : bool) : machine := {|
  State := demo_state; Sup := demo_sup; Shared := list nat; Event := demo_event; Ctx := nat;
  initial := On 0;
  s_disc := demo_s_disc; u_disc := demo_u_disc;
  s_super := demo_s_super; s_put := demo_s_put;
  u_super := demo_u_super; u_put := demo_u_put;
  s_handler := demo_s_handler; s_entry := demo_s_entry; s_exit := demo_s_exit;
  u_handler := demo_u_handler; u_entry := demo_u_entry; u_exit := demo_u_exit;
  h_before_dispatch := demo_hook_d active 90;
  h_after_dispatch := demo_hook_d active 91;
  h_before_transition := demo_hook active 92;
  h_after_transition := demo_hook active 93
|}.

Definition demo_hierarchy : hierarchy := {|
  leaf_parent := fun s => match s with 0 | 1 => Some 0 | 2 => Some 1 | _ => None end;
  sup_parent := fun u => match u with 0 => Some 1 | _ => None end
|}.

Lemma demo_follows b : follows demo_hierarchy (demo b).
Proof.
  split.
  - intros []; reflexivity.
  - intros []; reflexivity.
  - intros [] ? ? ? ?; reflexivity.
  - intros [] ? ? ? ?; reflexivity.
Qed.

Lemma demo_stable b : stable (demo b).
Proof.
  split; cbn -[Nat.eqb].
  - intros [] sh cx [] *; simpl; intros H; inversion H; reflexivity.
  - intros [] *; simpl; intros H; inversion H; reflexivity.
  - intros [] *; simpl; intros H; inversion H; reflexivity.
  - intros [] sh cx [] *; simpl; intros H; inversion H; reflexivity.
  - intros [] sh cx *; cbn -[Nat.eqb].
    + destruct (cx =? 14); intros H; inversion H; reflexivity.
    + destruct (cx =? 15); intros H; inversion H; reflexivity.
  - intros [] sh cx *; cbn -[Nat.eqb].
    + destruct (cx =? 13); intros H; inversion H; reflexivity.
    + intros H; inversion H; reflexivity.
Qed.

Lemma demo_height : height_at_most 2 demo_hierarchy.
Proof.
  intros [|u].
  - exists [0; 1]. split; [repeat constructor|simpl; lia].
  - exists [S u]. split; [|simpl; lia]. constructor. simpl. constructor.
Qed.

Lemma demo_well_formed b : well_formed demo_hierarchy (demo b) 2.
Proof. split; [apply demo_follows|apply demo_stable|apply demo_height]. Qed.

Lemma demo_views b : faithful_views (demo b).
Proof.
  split; simpl.
  - intros [] v H; inversion H; subst; reflexivity.
  - intros [] v v' H; inversion H; subst; destruct v'; simpl; intros E; try discriminate; reflexivity.
  - intros [] v v1 v2 H; inversion H; subst; reflexivity.
  - intros [] v H; inversion H; subst; reflexivity.
  - intros [] v v' H; inversion H; subst; destruct v'; simpl; intros E; try discriminate; reflexivity.
  - intros [] v v1 v2 H; inversion H; subst; reflexivity.
Qed.

Lemma demo_quiet : quiet (demo false).
Proof. split; reflexivity. Qed.

(** A machine in state [s] with shared storage [sh]. *)
Definition running b (s : demo_state) (sh : list nat) : state_machine (demo b) :=
  StateMachine (@Inner (demo b) sh s) true.
Definition fresh b : state_machine (demo b) := new_state_machine (demo b) [].

(** ** A flat machine: no superstates (`type Superstate<'a> = ()`, i.e. no values that are
    ever produced by `superstate`). *)
Definition flat_machine : machine := {|
  State := bool; Sup := unit; Shared := nat; Event := unit; Ctx := unit;
  initial := true;
  s_disc := fun b : bool => if b then 0 else 1; u_disc := fun _ : unit => 0;
  s_super := fun _ : bool => None; s_put := fun (b : bool) (_ : unit) => b;
  u_super := fun _ : unit => None; u_put := fun (u _ : unit) => u;
  s_handler := fun (b : bool) (n : nat) (c _ : unit) => (Returns (Transition (negb b)), b, n + 1, c);
  s_entry := no_action; s_exit := no_action;
  u_handler := fun (u : unit) (n : nat) (c _ : unit) => (Returns Super, u, n, c);
  u_entry := no_action; u_exit := no_action;
  h_before_dispatch := no_dispatch_hook; h_after_dispatch := no_dispatch_hook;
  h_before_transition := no_transition_hook; h_after_transition := no_transition_hook
|}.
