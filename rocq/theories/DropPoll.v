(** DropPoll.v — the futures of the awaitable half, with the `M::State` values they own.

    Poll.v has the futures, Drops.v the drops of atomic calls.  Here an `async fn` that owns a
    state value while it awaits keeps that value in its future: dropping the future drops the
    value, a poll that panics drops it while unwinding.  Models awaitable/state.rs:103-154,
    awaitable/inner.rs:19-63 and awaitable/state_machine.rs:62-113 (the other functions own no
    state: they are taken from Poll.v as they are).

    Simplifications: those of Poll.v and Drops.v; what the user's own futures own is the
    user's (a target that a handler has not yet returned).  No proofs here. *)

From Coq Require Import List Bool Arith.
From Verif Require Import Machine Blocking Awaitable Api Poll Drops.
Import ListNotations.
Set Implicit Arguments.

Section DropPoll.
  Variable World : Type.
  Variable m : machine.
  Notation store X := (X * Shared m * Ctx m)%type.

  Inductive opoll_result (S A F : Type) : Type :=
  | OReady (o : outcome A) (s : S) (tr : list (event_of m))
  | OPending (s : S) (tr : list (event_of m)) (f : F).
  Arguments OReady {S A F}.
  Arguments OPending {S A F}.

  (** A future, and the states its local variables own between polls, in the order in which
      they are dropped with it. *)
  CoInductive ofut (S A : Type) : Type :=
  | OFut (held : list (State m)) (poll : World -> S -> opoll_result S A (ofut S A)).
  Definition opoll {S A} (f : ofut S A) : World -> S -> opoll_result S A (ofut S A) :=
    match f with OFut _ p => p end.
  Definition held {S A} (f : ofut S A) : list (State m) :=
    match f with OFut h _ => h end.

  Definition ologging {S A F} (t : list (event_of m)) (r : opoll_result S A F) : opoll_result S A F :=
    match r with
    | OReady o s tr => OReady o s (t ++ tr)
    | OPending s tr f => OPending s (t ++ tr) f
    end.

  (** A future of Poll.v, which owns nothing. *)
  CoFixpoint owns_nothing {S A} (c : fut World m S A) : ofut S A :=
    OFut [] (fun w s =>
      match poll c w s with
      | PReady o s' tr => OReady o s' (map Did tr)
      | PPending s' tr c' => OPending s' (map Did tr) (owns_nothing c')
      end).

  (** `let a = c.await; k(a)` *)
  CoFixpoint obind {S A B} (c : ofut S A) (k : A -> ofut S B) : ofut S B :=
    OFut (held c) (fun w s =>
      match opoll c w s with
      | OReady (Ret a) s' tr => ologging tr (opoll (k a) w s')
      | OReady (Abort y) s' tr => OReady (Abort y) s' tr
      | OPending s' tr c' => OPending s' tr (obind c' k)
      end).

  (** As [borrowed] and [aborrow] in Poll.v. *)
  CoFixpoint oborrowed {S V A} (put : S -> V -> S) (s0 : S) (v : V) (c : ofut V A) : ofut S A :=
    OFut (held c) (fun w _ =>
      match opoll c w v with
      | OReady o v' tr => OReady o (put s0 v') tr
      | OPending v' tr c' => OPending (put s0 v') tr (oborrowed put s0 v' c')
      end).
  Definition oborrow {S V A} (get : S -> V) (put : S -> V -> S) (c : ofut V A) : ofut S A :=
    OFut (held c) (fun w s => opoll (oborrowed put s (get s) c) w s).
  Definition ovia {X V A} (put : X -> V -> X) (v : V) (c : ofut (store V) A) : ofut (store X) A :=
    oborrow (fun s : store X => (v, snd (fst s), snd s))
            (fun (s : store X) (t : store V) => (put (fst (fst s)) (fst (fst t)), snd (fst t), snd t)) c.

  (** [c] is awaited while a local variable owns [x]; what [c] itself owns goes first. *)
  CoFixpoint oowning {S A} (x : State m) (c : ofut S A) : ofut S A :=
    OFut (held c ++ [x]) (fun w s =>
      match opoll c w s with
      | OReady (Ret a) s' tr => OReady (Ret a) s' tr
      | OReady (Abort y) s' tr => OReady (Abort y) s' (tr ++ if unwinds y then [Dropped x] else [])
      | OPending s' tr c' => OPending s' tr (oowning x c')
      end).
  (** The end of the scope of the variable that owns [x]. *)
  Definition oend {S} (x : State m) : ofut S unit :=
    OFut [x] (fun _ s => OReady (Ret tt) s [Dropped x]).
  Definition oowning_response {S A} (r : response (State m)) (c : ofut S A) : ofut S A :=
    match r with Transition t => oowning t c | _ => c end.

  Variable F : futures World m.
  Variable stack : nat.
  Notation plain := owns_nothing.

  Local Notation "x <- c ;; k" := (obind c (fun x => k))
    (at level 61, c at next level, right associativity).
  Local Notation "c ;;; k" := (obind c (fun _ => k)) (at level 61, right associativity).

  (** awaitable/state.rs:119-148: `response` is owned during the hook of lines 130-135. *)
  Fixpoint o_handle_loop (n : nat) (e : Event m) : ofut (store (Sup m)) (response (State m)) :=
    match n with
    | 0 => plain (alift (Abort Diverges))
    | S n' =>
        u0 <- plain aself ;;
        plain (a_before_dispatch F (NSuper u0) e) ;;;
        response <- plain (a_u_handler F e) ;;
        u1 <- plain aself ;;
        oowning_response response (plain (a_after_dispatch F (NSuper u1) e)) ;;;
        match response with
        | Handled => plain (aret Handled)
        | Super =>
            u <- plain aself ;;
            match u_super m u with
            | Some v => ovia (u_put m) v (o_handle_loop n' e)
            | None => plain (aret Handled)
            end
        | Transition t => plain (aret (Transition t))
        end
    end.

  (** awaitable/state.rs:103-154: and during the hook of line 114. *)
  Definition o_state_handle (e : Event m) : ofut (store (State m)) (response (State m)) :=
    x0 <- plain aself ;;
    plain (a_before_dispatch F (NState x0) e) ;;;
    response <- plain (a_s_handler F e) ;;
    x1 <- plain aself ;;
    oowning_response response (plain (a_after_dispatch F (NState x1) e)) ;;;
    match response with
    | Handled => plain (aret Handled)
    | Super =>
        x <- plain aself ;;
        match s_super m x with
        | Some u => ovia (s_put m) u (o_handle_loop stack e)
        | None => plain (aret Super)
        end
    | Transition t => plain (aret (Transition t))
    end.

  (** awaitable/inner.rs:43-63: `target` owns the target until line 55 and the old state
      after it, to the end of the function. *)
  Definition o_transition (target : State m) : ofut (store (State m)) unit :=
    levels <- oowning target
      (x <- plain aself ;;
       plain (a_before_transition F x target) ;;;
       levels <- plain (alift (Awaitable.transition_path m stack x target)) ;;
       plain (a_state_exit F (fst levels)) ;;;
       plain (aret levels)) ;;
    old <- plain (a_swap_state World m target) ;;
    oowning old
      (plain (a_state_enter F (snd levels)) ;;;
       new <- plain aself ;;
       plain (a_after_transition F old new)) ;;;
    oend old.

  (** awaitable/inner.rs:26-40. *)
  Definition o_inner_handle (e : Event m) : ofut (store (State m)) unit :=
    response <- o_state_handle e ;;
    match response with
    | Super => plain (aret tt)
    | Handled => plain (aret tt)
    | Transition t => o_transition t
    end.

  Notation machine_store := (state_machine m * Ctx m)%type.
  Definition o_on_inner (c : ofut (store (State m)) unit) : ofut machine_store unit :=
    oborrow (fun s : machine_store => (state (sm_inner (fst s)), shared_storage (sm_inner (fst s)), snd s))
            (fun (s : machine_store) (t : store (State m)) =>
               (StateMachine (Inner (snd (fst t)) (fst (fst t))) (initialized (fst s)), snd t)) c.

  (** awaitable/state_machine.rs:71-76: owns no state. *)
  Definition o_init_with_context : ofut machine_store unit := plain (a_init_with_context F stack).
  (** :89-99 *)
  Definition o_handle_with_context (e : Event m) : ofut machine_store unit :=
    s <- plain aget ;;
    plain (if negb (initialized (fst s))
           then abind (on_inner (a_inner_init F stack)) (fun _ => a_set_initialized World m)
           else aret tt) ;;;
    o_on_inner (o_inner_handle e).

  (** ** Executors: as [drive] and [execute]; what a dropped future owned ends the log. *)
  Fixpoint odrive {S A} (f : ofut S A) (w : World) (ws : list World) (s : S)
    : option (outcome A) * S * list (event_of m) * (World * list World) :=
    match opoll f w s with
    | OReady o s' tr => (Some o, s', tr, (w, ws))
    | OPending s' tr f' =>
        match ws with
        | [] => (None, s', tr ++ map Dropped (held f'), (w, []))
        | w' :: ws' =>
            let '(o, s2, tr2, unused) := odrive f' w' ws' s' in (o, s2, tr ++ tr2, unused)
        end
    end.
  Definition oexecute {S A} (f : ofut S A) (ws : list World) (s : S)
    : option (outcome A) * S * list (event_of m) :=
    match ws with
    | [] => (None, s, map Dropped (held f))
    | w :: ws' => fst (odrive f w ws' s)
    end.

  (** A client: for each call an event, a context, and the polls it gets. *)
  Record polled_call : Type := PolledCall { pc_event : Event m; pc_ctx : Ctx m; pc_polls : list World }.
  Fixpoint osession (calls : list polled_call) (sm : state_machine m)
    : list (option (outcome unit) * list (event_of m)) * state_machine m :=
    match calls with
    | [] => ([], sm)
    | c :: calls' =>
        let '(o, (sm1, _), tr) := oexecute (o_handle_with_context (pc_event c)) (pc_polls c) (sm, pc_ctx c) in
        let '(rest, sm2) := osession calls' sm1 in ((o, tr) :: rest, sm2)
    end.
End DropPoll.
Arguments OReady {m S A F}.
Arguments OPending {m S A F}.
Arguments OFut {World m S A}.
Arguments opoll {World m S A}.
Arguments held {World m S A}.
Arguments owns_nothing {World m S A}.
Arguments obind {World m S A B}.
Arguments oborrowed {World m S V A}.
Arguments oborrow {World m S V A}.
Arguments ovia {World m X V A}.
Arguments oowning {World m S A}.
Arguments oend {World m S}.
Arguments oowning_response {World m S A}.
Arguments odrive {World m S A}.
Arguments oexecute {World m S A}.
