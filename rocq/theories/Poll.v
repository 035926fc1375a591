(** Poll.v — the awaitable half of the library once more, at the level of polls.

    In Awaitable.v an `.await` on a user callback is one atomic step.  Here the futures are
    explicit: an `async fn` of the library is a future that a caller polls; each poll runs
    until the pending user future returns `Poll::Pending` again, or to the end; the caller may
    drop the future between any two polls.  Models awaitable/state.rs:103-218,
    awaitable/inner.rs:19-63 and awaitable/state_machine.rs:62-113; the source lines of each
    definition are those given in Awaitable.v and Api.v.

    Simplifications: dropping a future runs no user code of its own (destructors of the
    user's futures are not modelled), and wakers are part of the [World] a poll sees.
    No proofs here. *)

From Coq Require Import List Bool Arith.
From Verif Require Import Machine Blocking Awaitable Api.
Import ListNotations.
Set Implicit Arguments.

Section Poll.
  (** What a future can learn from outside when polled: timers, channels, wakers.  One value
      per poll. *)
  Variable World : Type.

  (** ** The user's futures *)

  (** A future over the store [S] it has borrowed (`Future::poll`).  [UReady None]: panic. *)
  Inductive upoll_result (S A F : Type) : Type :=
  | UReady (a : option A) (s : S)
  | UPending (s : S) (f : F).
  Arguments UReady {S A F}.
  Arguments UPending {S A F}.
  CoInductive ufut (S A : Type) : Type :=
  | UFut (poll : World -> S -> upoll_result S A (ufut S A)).
  Definition upoll {S A} (f : ufut S A) : World -> S -> upoll_result S A (ufut S A) :=
    match f with UFut p => p end.

  (** Types, `initial`, discriminants and superstate views are those of a machine [m]; the
      callbacks are replaced by futures. *)
  Variable m : machine.

  Notation store X := (X * Shared m * Ctx m)%type.

  (** awaitable/state.rs:14-40, awaitable/superstate.rs:13-38,
      awaitable/into_state_machine.rs:29-63: every callback is a method returning a future.
      Hooks borrow the shared storage only. *)
  Record futures : Type := Futures {
    f_s_handler : Event m -> ufut (store (State m)) (response (State m));
    f_s_entry : ufut (store (State m)) unit;
    f_s_exit : ufut (store (State m)) unit;
    f_u_handler : Event m -> ufut (store (Sup m)) (response (State m));
    f_u_entry : ufut (store (Sup m)) unit;
    f_u_exit : ufut (store (Sup m)) unit;
    f_before_dispatch : node (State m) (Sup m) -> Event m -> ufut (Shared m) unit;
    f_after_dispatch : node (State m) (Sup m) -> Event m -> ufut (Shared m) unit;
    f_before_transition : State m -> State m -> ufut (Shared m) unit;
    f_after_transition : State m -> State m -> ufut (Shared m) unit
  }.
  Variable F : futures.

  (** ** The library's futures *)

  (** A poll runs library code and user code, whose calls it logs. *)
  Inductive poll_result (S A F : Type) : Type :=
  | PReady (o : outcome A) (s : S) (tr : list (obs m))
  | PPending (s : S) (tr : list (obs m)) (f : F).
  Arguments PReady {S A F}.
  Arguments PPending {S A F}.
  CoInductive fut (S A : Type) : Type :=
  | Fut (poll : World -> S -> poll_result S A (fut S A)).
  Definition poll {S A} (f : fut S A) : World -> S -> poll_result S A (fut S A) :=
    match f with Fut p => p end.

  Definition logging {S A F} (t : list (obs m)) (r : poll_result S A F) : poll_result S A F :=
    match r with
    | PReady o s tr => PReady o s (t ++ tr)
    | PPending s tr f => PPending s (t ++ tr) f
    end.

  Definition aret {S A} (a : A) : fut S A := Fut (fun _ s => PReady (Ret a) s []).
  Definition alift {S A} (o : outcome A) : fut S A := Fut (fun _ s => PReady o s []).
  Definition aget {S} : fut S S := Fut (fun _ s => PReady (Ret s) s []).

  (** `let a = c.await; k(a)`: [k] starts in the poll in which [c] got ready. *)
  CoFixpoint abind {S A B} (c : fut S A) (k : A -> fut S B) : fut S B :=
    Fut (fun w s =>
      match poll c w s with
      | PReady (Ret a) s' tr => logging tr (poll (k a) w s')
      | PReady (Abort y) s' tr => PReady (Abort y) s' tr
      | PPending s' tr c' => PPending s' tr (abind c' k)
      end).

  (** A user future being awaited; [answer] is logged when it returns. *)
  CoFixpoint awaiting {S A} (answer : A -> list (obs m)) (f : ufut S A) : fut S A :=
    Fut (fun w s =>
      match upoll f w s with
      | UReady (Some a) s' => PReady (Ret a) s' (answer a)
      | UReady None s' => PReady (Abort Panicked) s' []
      | UPending s' f' => PPending s' [] (awaiting answer f')
      end).
  (** `callback(..).await`; the call is logged at the first poll. *)
  Definition acall {S A} (o : S -> obs m) (answer : A -> list (obs m)) (f : ufut S A)
    : fut S A :=
    Fut (fun w s => logging [o s] (poll (awaiting answer f) w s)).

  (** A future that has borrowed a part [v : V] of the store [s0]; [put] is the whole once
      the part has changed.  While it is alive nobody else can touch [s0]. *)
  CoFixpoint borrowed {S V A} (put : S -> V -> S) (s0 : S) (v : V) (c : fut V A) : fut S A :=
    Fut (fun w _ =>
      match poll c w v with
      | PReady o v' tr => PReady o (put s0 v') tr
      | PPending v' tr c' => PPending (put s0 v') tr (borrowed put s0 v' c')
      end).
  Definition aborrow {S V A} (get : S -> V) (put : S -> V -> S) (c : fut V A) : fut S A :=
    Fut (fun w s => poll (borrowed put s (get s) c) w s).

  (** The current node. *)
  Definition aself {X} : fut (store X) X :=
    Fut (fun _ s => PReady (Ret (fst (fst s))) s []).
  (** The superstate borrowed from the current node. *)
  Definition avia {X V A} (put : X -> V -> X) (v : V) (c : fut (store V) A) : fut (store X) A :=
    aborrow (fun s : store X => (v, snd (fst s), snd s))
            (fun (s : store X) (t : store V) => (put (fst (fst s)) (fst (fst t)), snd (fst t), snd t)) c.
  (** A hook: borrows the shared storage. *)
  Definition ahook {X} (o : obs m) (f : ufut (Shared m) unit) : fut (store X) unit :=
    aborrow (fun s : store X => snd (fst s))
            (fun (s : store X) sh => (fst (fst s), sh, snd s)) (acall (fun _ => o) (fun _ => []) f).

  Definition no_answer (_ : unit) : list (obs m) := [].
  Definition handler_answer (r : response (State m)) : list (obs m) := [OReturn r].
  Definition a_s_handler e := acall (fun s : store (State m) => OHandler (NState (fst (fst s))) e) handler_answer (f_s_handler F e).
  Definition a_u_handler e := acall (fun s : store (Sup m) => OHandler (NSuper (fst (fst s))) e) handler_answer (f_u_handler F e).
  Definition a_s_entry := acall (fun s : store (State m) => OEnter (NState (fst (fst s)))) no_answer (f_s_entry F).
  Definition a_s_exit := acall (fun s : store (State m) => OExit (NState (fst (fst s)))) no_answer (f_s_exit F).
  Definition a_u_entry := acall (fun s : store (Sup m) => OEnter (NSuper (fst (fst s)))) no_answer (f_u_entry F).
  Definition a_u_exit := acall (fun s : store (Sup m) => OExit (NSuper (fst (fst s)))) no_answer (f_u_exit F).
  Definition a_before_dispatch {X} n e : fut (store X) unit :=
    ahook (OBeforeDispatch n e) (f_before_dispatch F n e).
  Definition a_after_dispatch {X} n e : fut (store X) unit :=
    ahook (OAfterDispatch n e) (f_after_dispatch F n e).
  Definition a_before_transition {X} a b : fut (store X) unit :=
    ahook (OBeforeTransition a b) (f_before_transition F a b).
  Definition a_after_transition {X} a b : fut (store X) unit :=
    ahook (OAfterTransition a b) (f_after_transition F a b).

  Local Notation "x <- c ;; k" := (abind c (fun x => k))
    (at level 61, c at next level, right associativity).
  Local Notation "c ;;; k" := (abind c (fun _ => k)) (at level 61, right associativity).

  Variable stack : nat.

  (** awaitable/state.rs:119-148. *)
  Fixpoint a_handle_loop (n : nat) (e : Event m) : fut (store (Sup m)) (response (State m)) :=
    match n with
    | 0 => alift (Abort Diverges)
    | S n' =>
        u0 <- aself ;;
        a_before_dispatch (NSuper u0) e ;;;
        response <- a_u_handler e ;;
        u1 <- aself ;;
        a_after_dispatch (NSuper u1) e ;;;
        match response with
        | Handled => aret Handled
        | Super =>
            u <- aself ;;
            match u_super m u with
            | Some v => avia (u_put m) v (a_handle_loop n' e)
            | None => aret Handled
            end
        | Transition t => aret (Transition t)
        end
    end.

  (** awaitable/state.rs:103-154. *)
  Definition a_state_handle (e : Event m) : fut (store (State m)) (response (State m)) :=
    x0 <- aself ;;
    a_before_dispatch (NState x0) e ;;;
    response <- a_s_handler e ;;
    x1 <- aself ;;
    a_after_dispatch (NState x1) e ;;;
    match response with
    | Handled => aret Handled
    | Super =>
        x <- aself ;;
        match s_super m x with
        | Some u => avia (s_put m) u (a_handle_loop stack e)
        | None => aret Super
        end
    | Transition t => aret (Transition t)
    end.

  (** awaitable/state.rs:172-178. *)
  Fixpoint a_climb_entry (n : nat) : fut (store (Sup m)) unit :=
    match n with
    | 0 => a_u_entry
    | S n' =>
        u <- aself ;;
        match u_super m u with
        | Some v => avia (u_put m) v (a_climb_entry n')
        | None => a_u_entry
        end
    end.

  (** awaitable/state.rs:170-185. *)
  Fixpoint a_state_enter (levels : nat) : fut (store (State m)) unit :=
    match levels with
    | 0 => aret tt
    | S l =>
        match l with
        | 0 => a_s_entry
        | S l' =>
            x <- aself ;;
            match s_super m x with
            | Some u => avia (s_put m) u (a_climb_entry l')
            | None => aret tt
            end ;;;
            a_state_enter l
        end
    end.

  (** awaitable/state.rs:208-215. *)
  Fixpoint a_exit_loop (levels : nat) : fut (store (Sup m)) unit :=
    match levels with
    | 0 => aret tt
    | S l =>
        a_u_exit ;;;
        u <- aself ;;
        match u_super m u with
        | Some v => avia (u_put m) v (a_exit_loop l)
        | None => aret tt
        end
    end.

  (** awaitable/state.rs:191-218. *)
  Definition a_state_exit (levels : nat) : fut (store (State m)) unit :=
    (if 1 <=? levels then a_s_exit else aret tt) ;;;
    x <- aself ;;
    match s_super m x with
    | Some u => avia (s_put m) u (a_exit_loop (levels - 1))
    | None => aret tt
    end.

  (** `core::mem::swap` (awaitable/inner.rs:55). *)
  Definition a_swap_state (target : State m) : fut (store (State m)) (State m) :=
    Fut (fun _ s => PReady (Ret (fst (fst s))) (target, snd (fst s), snd s) []).

  (** awaitable/inner.rs:19-24. *)
  Definition a_inner_init : fut (store (State m)) unit :=
    x <- aself ;;
    enter_levels <- alift (Awaitable.state_depth m stack x) ;;
    a_state_enter enter_levels.

  (** awaitable/inner.rs:43-63. *)
  Definition a_transition (target : State m) : fut (store (State m)) unit :=
    x <- aself ;;
    a_before_transition x target ;;;
    levels <- alift (Awaitable.transition_path m stack x target) ;;
    a_state_exit (fst levels) ;;;
    old <- a_swap_state target ;;
    a_state_enter (snd levels) ;;;
    new <- aself ;;
    a_after_transition old new.

  (** awaitable/inner.rs:26-40. *)
  Definition a_inner_handle (e : Event m) : fut (store (State m)) unit :=
    response <- a_state_handle e ;;
    match response with
    | Super => aret tt
    | Handled => aret tt
    | Transition t => a_transition t
    end.

  (** ** awaitable/state_machine.rs *)

  Notation machine_store := (state_machine m * Ctx m)%type.
  (** A method of `Inner` awaited on the field `inner`. *)
  Definition on_inner (c : fut (store (State m)) unit) : fut machine_store unit :=
    aborrow (fun s : machine_store => (state (sm_inner (fst s)), shared_storage (sm_inner (fst s)), snd s))
            (fun (s : machine_store) (t : store (State m)) =>
               (StateMachine (Inner (snd (fst t)) (fst (fst t))) (initialized (fst s)), snd t)) c.
  (** `self.initialized = true` *)
  Definition a_set_initialized : fut machine_store unit :=
    Fut (fun _ s => PReady (Ret tt) (StateMachine (sm_inner (fst s)) true, snd s) []).

  (** :71-76 *)
  Definition a_init_with_context : fut machine_store unit :=
    s <- aget ;;
    if negb (initialized (fst s)) then on_inner a_inner_init ;;; a_set_initialized else aret tt.
  (** :89-99 *)
  Definition a_handle_with_context (e : Event m) : fut machine_store unit :=
    s <- aget ;;
    (if negb (initialized (fst s)) then on_inner a_inner_init ;;; a_set_initialized else aret tt) ;;;
    on_inner (a_inner_handle e).

  (** ** Executors *)

  (** Poll a future once per element of [w :: ws], stop when it is ready, and drop it if it
      never is ([None]).  Between two polls the store stays as it is: it is borrowed.  Returns
      also the log and the polls not made (with the last one made). *)
  Fixpoint drive {S A} (f : fut S A) (w : World) (ws : list World) (s : S)
    : option (outcome A) * S * list (obs m) * (World * list World) :=
    match poll f w s with
    | PReady o s' tr => (Some o, s', tr, (w, ws))
    | PPending s' tr f' =>
        match ws with
        | [] => (None, s', tr, (w, []))
        | w' :: ws' =>
            let '(o, s2, tr2, unused) := drive f' w' ws' s' in (o, s2, tr ++ tr2, unused)
        end
    end.
  (** The same, where the future may also be dropped before the first poll. *)
  Definition execute {S A} (f : fut S A) (ws : list World) (s : S)
    : option (outcome A) * S * list (obs m) :=
    match ws with
    | [] => (None, s, [])
    | w :: ws' => fst (drive f w ws' s)
    end.

  (** A user future on its own, polled likewise. *)
  Fixpoint udrive {S A} (f : ufut S A) (w : World) (ws : list World) (s : S)
    : option (option A) * S * (World * list World) :=
    match upoll f w s with
    | UReady a s' => (Some a, s', (w, ws))
    | UPending s' f' =>
        match ws with
        | [] => (None, s', (w, []))
        | w' :: ws' => udrive f' w' ws' s'
        end
    end.
End Poll.

Arguments UReady {S A F}.
Arguments UPending {S A F}.
Arguments UFut {World S A}.
Arguments PReady {m S A F}.
Arguments PPending {m S A F}.

(** ** The same machine with atomic callbacks

    The polls an execution will make are part of the shared storage: a callback uses up as
    many as its future needs; if there are not enough it is cancelled. *)
Section Sync.
  Variable World : Type.
  Variable m : machine.
  Variable F : futures World m.
  Definition schedule : Type := World * list World.

  Definition reply_of {A} (o : option (option A)) : reply A :=
    match o with
    | Some (Some a) => Returns a
    | Some None => Panics
    | None => Cancelled
    end.
  Definition atomically {X A} (f : ufut World (X * Shared m * Ctx m) A)
      (x : X) (sh : Shared m * schedule) (cx : Ctx m)
    : reply A * X * (Shared m * schedule) * Ctx m :=
    let '(o, (x', sh', cx'), unused) := udrive f (fst (snd sh)) (snd (snd sh)) (x, fst sh, cx) in
    (reply_of o, x', (sh', unused), cx').
  Definition atomic_hook (f : ufut World (Shared m) unit) (sh : Shared m * schedule)
    : reply unit * (Shared m * schedule) :=
    let '(o, sh', unused) := udrive f (fst (snd sh)) (snd (snd sh)) (fst sh) in
    (reply_of o, (sh', unused)).

  Definition sync : machine := {|
    State := State m; Sup := Sup m; Shared := Shared m * schedule; Event := Event m; Ctx := Ctx m;
    initial := initial m; s_disc := s_disc m; u_disc := u_disc m;
    s_super := s_super m; s_put := s_put m; u_super := u_super m; u_put := u_put m;
    s_handler := fun x sh cx e => atomically (f_s_handler F e) x sh cx;
    s_entry := fun x sh cx => atomically (f_s_entry F) x sh cx;
    s_exit := fun x sh cx => atomically (f_s_exit F) x sh cx;
    u_handler := fun x sh cx e => atomically (f_u_handler F e) x sh cx;
    u_entry := fun x sh cx => atomically (f_u_entry F) x sh cx;
    u_exit := fun x sh cx => atomically (f_u_exit F) x sh cx;
    h_before_dispatch := fun sh n e => atomic_hook (f_before_dispatch F n e) sh;
    h_after_dispatch := fun sh n e => atomic_hook (f_after_dispatch F n e) sh;
    h_before_transition := fun sh a b => atomic_hook (f_before_transition F a b) sh;
    h_after_transition := fun sh a b => atomic_hook (f_after_transition F a b) sh
  |}.

  (** A machine of type [m] about to be polled with [sch]. *)
  Definition with_schedule (sm : state_machine m) (sch : schedule) : state_machine sync :=
    StateMachine (@Inner sync (shared_storage (sm_inner sm), sch) (state (sm_inner sm)))
                 (initialized sm).

  (** Log entries do not mention shared storage: the two kinds of logs are the same. *)
  Definition to_sync (o : obs m) : obs sync :=
    match o with
    | OBeforeDispatch n e => @OBeforeDispatch sync n e
    | OHandler n e => @OHandler sync n e
    | OReturn r => @OReturn sync r
    | OAfterDispatch n e => @OAfterDispatch sync n e
    | OBeforeTransition a b => @OBeforeTransition sync a b
    | OAfterTransition a b => @OAfterTransition sync a b
    | OExit n => @OExit sync n
    | OEnter n => @OEnter sync n
    end.

  (** ** Futures that compute a given callback

      [computes f g]: whatever the polls are, when [f] gets ready its result and effect are
      those of the function [g]. *)
  Definition computes {S A} (f : ufut World S A) (g : S -> reply A * S) : Prop :=
    forall w ws s, match udrive f w ws s with
                   | (Some a, s', _) => g s = (reply_of (Some a), s')
                   | (None, _, _) => True
                   end.
  Definition curried {X A} (g : X -> Shared m -> Ctx m -> reply A * X * Shared m * Ctx m)
      (s : X * Shared m * Ctx m) : reply A * (X * Shared m * Ctx m) :=
    let '(x, sh, cx) := s in let '(r, x', sh', cx') := g x sh cx in (r, (x', sh', cx')).

  (** The futures compute the callbacks of [m]. *)
  Record implements : Prop := {
    im_s_handler : forall e, computes (f_s_handler F e) (curried (fun x sh cx => s_handler m x sh cx e));
    im_s_entry : computes (f_s_entry F) (curried (s_entry m));
    im_s_exit : computes (f_s_exit F) (curried (s_exit m));
    im_u_handler : forall e, computes (f_u_handler F e) (curried (fun x sh cx => u_handler m x sh cx e));
    im_u_entry : computes (f_u_entry F) (curried (u_entry m));
    im_u_exit : computes (f_u_exit F) (curried (u_exit m));
    im_before_dispatch : forall n e,
      computes (f_before_dispatch F n e) (fun sh => h_before_dispatch m sh n e);
    im_after_dispatch : forall n e,
      computes (f_after_dispatch F n e) (fun sh => h_after_dispatch m sh n e);
    im_before_transition : forall a b,
      computes (f_before_transition F a b) (fun sh => h_before_transition m sh a b);
    im_after_transition : forall a b,
      computes (f_after_transition F a b) (fun sh => h_after_transition m sh a b)
  }.

  (** However often a callback's future is polled, the variant of its node stays. *)
  Definition keeps {X A} (disc : X -> nat) (f : ufut World (X * Shared m * Ctx m) A) : Prop :=
    forall w ws x sh cx, match udrive f w ws (x, sh, cx) with
                         | (_, s', _) => disc (fst (fst s')) = disc x
                         end.
  Record variant_safe : Prop := {
    ks_s_handler : forall e, keeps (s_disc m) (f_s_handler F e);
    ks_s_entry : keeps (s_disc m) (f_s_entry F);
    ks_s_exit : keeps (s_disc m) (f_s_exit F);
    ks_u_handler : forall e, keeps (u_disc m) (f_u_handler F e);
    ks_u_entry : keeps (u_disc m) (f_u_entry F);
    ks_u_exit : keeps (u_disc m) (f_u_exit F)
  }.
End Sync.

Arguments aret {World m S A}.
Arguments alift {World m S A}.
Arguments aget {World m S}.
Arguments abind {World m S A B}.
Arguments awaiting {World m S A}.
Arguments acall {World m S A}.
Arguments borrowed {World m S V A}.
Arguments aborrow {World m S V A}.
Arguments aself {World m X}.
Arguments avia {World m X V A}.
Arguments ahook {World m X}.
Arguments drive {World m S A}.
Arguments udrive {World S A}.
Arguments atomically {World m X A}.
Arguments atomic_hook {World m}.
