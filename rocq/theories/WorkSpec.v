(** WorkSpec.v — how often a call asks user code; vocabulary of C83.  No proofs here. *)

From Coq Require Import List Bool Arith.
From Verif Require Import Machine Api SuperCalls SuperSpec.
Import ListNotations.
Set Implicit Arguments.

(** Calls of handlers, actions and hooks in a log ([OReturn] is no call). *)
Definition is_call {m : machine} (o : obs m) : bool := match o with OReturn _ => false | _ => true end.
Definition calls {m : machine} (tr : list (obs m)) : nat := length (filter is_call tr).

Section Count.
  Variable m : machine.

  (** The machine [m] in which every state value carries a number; a superstate carries the number
      of the state it is borrowed from, and gives it back.  A state that a handler constructs has
      the number 0.  User code cannot see the numbers. *)
  Definition fresh (r : reply (response (State m))) : reply (response (State m * nat)) :=
    match r with
    | Returns Handled => Returns Handled
    | Returns Super => Returns Super
    | Returns (Transition t) => Returns (Transition (t, 0))
    | Panics => Panics
    | Cancelled => Cancelled
    end.
  Definition plain (n : node (State m * nat) (Sup m * nat)) : node (State m) (Sup m) :=
    match n with NState x => NState (fst x) | NSuper u => NSuper (fst u) end.
  Definition counting : machine := {|
    State := State m * nat; Sup := Sup m * nat; Shared := Shared m; Event := Event m; Ctx := Ctx m;
    initial := (initial m, 0);
    s_disc := fun x => s_disc m (fst x); u_disc := fun u => u_disc m (fst u);
    s_super := fun x => option_map (fun v => (v, snd x)) (s_super m (fst x));
    s_put := fun x v => (s_put m (fst x) (fst v), snd v);
    u_super := fun u => option_map (fun v => (v, snd u)) (u_super m (fst u));
    u_put := fun u v => (u_put m (fst u) (fst v), snd v);
    s_handler := fun x sh cx e => let '(r, x', sh', cx') := s_handler m (fst x) sh cx e in (fresh r, (x', snd x), sh', cx');
    s_entry := fun x sh cx => let '(r, x', sh', cx') := s_entry m (fst x) sh cx in (r, (x', snd x), sh', cx');
    s_exit := fun x sh cx => let '(r, x', sh', cx') := s_exit m (fst x) sh cx in (r, (x', snd x), sh', cx');
    u_handler := fun x sh cx e => let '(r, x', sh', cx') := u_handler m (fst x) sh cx e in (fresh r, (x', snd x), sh', cx');
    u_entry := fun x sh cx => let '(r, x', sh', cx') := u_entry m (fst x) sh cx in (r, (x', snd x), sh', cx');
    u_exit := fun x sh cx => let '(r, x', sh', cx') := u_exit m (fst x) sh cx in (r, (x', snd x), sh', cx');
    h_before_dispatch := fun sh n e => h_before_dispatch m sh (plain n) e;
    h_after_dispatch := fun sh n e => h_after_dispatch m sh (plain n) e;
    h_before_transition := fun sh a b => h_before_transition m sh (fst a) (fst b);
    h_after_transition := fun sh a b => h_after_transition m sh (fst a) (fst b)
  |}.
  (** `superstate()` does what it did and counts: the number is how often it has been called on a
      state value and on the superstates borrowed from it. *)
  Definition counted : superstates counting := @Superstates counting
    (fun x => (Some (option_map (fun v => (v, S (snd x))) (s_super m (fst x))), (fst x, S (snd x))))
    (fun u => (Some (option_map (fun v => (v, S (snd u))) (u_super m (fst u))), (fst u, S (snd u)))).
  (** Leaving the numbers out. *)
  Definition numbers_out : look counting m :=
    @Look counting m fst fst (fun s => s) (fun e => e) (fun c => c).

  (** The numbers of all values that are shown to user code are at most [k]. *)
  Definition number (n : node (State m * nat) (Sup m * nat)) : nat :=
    match n with NState x => snd x | NSuper u => snd u end.
  Definition numbers_at_most (k : nat) (o : obs counting) : Prop :=
    match o with
    | OBeforeDispatch n _ | OHandler n _ | OAfterDispatch n _ | OExit n | OEnter n => number n <= k
    | OReturn _ => True
    | OBeforeTransition a b | OAfterTransition a b => snd a <= k /\ snd b <= k
    end.
End Count.

(** Two towers of [n] superstates with a leaf in each; the outermost superstate of one makes a
    transition to the leaf of the other. *)
Definition towers (n : nat) : machine := {|
  State := bool; Sup := bool * nat; Shared := unit; Event := unit; Ctx := unit;
  initial := false;
  s_disc := fun b => if b then 1 else 0;
  u_disc := fun u => 2 * snd u + if fst u then 1 else 0;
  s_super := fun b => match n with 0 => None | _ => Some (b, n) end; s_put := fun b u => fst u;
  u_super := fun u => match snd u with S (S l) => if S (S l) <=? n then Some (fst u, S l) else None | _ => None end;
  u_put := fun u v => (fst v, snd u);
  s_handler := fun b sh cx e => (Returns (match n with 0 => Transition (negb b) | _ => Super end), b, sh, cx);
  s_entry := fun b sh cx => (Returns tt, b, sh, cx); s_exit := fun b sh cx => (Returns tt, b, sh, cx);
  u_handler := fun u sh cx e => (Returns (match snd u with S (S _) => Super | _ => Transition (negb (fst u)) end), u, sh, cx);
  u_entry := fun u sh cx => (Returns tt, u, sh, cx); u_exit := fun u sh cx => (Returns tt, u, sh, cx);
  h_before_dispatch := fun sh _ _ => (Returns tt, sh); h_after_dispatch := fun sh _ _ => (Returns tt, sh);
  h_before_transition := fun sh _ _ => (Returns tt, sh); h_after_transition := fun sh _ _ => (Returns tt, sh)
|}.

