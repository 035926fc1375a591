(** RefSpec.v — a reference interpreter; vocabulary of C78.  No proofs here.

    The library walks up and down the superstates by nested borrows, recursion and loops, and
    differently in its two modules.  This is the same behaviour written down as one would
    explain it: levels are numbered from the leaf (level 0) upwards, every call into user code
    reads one level of the current state and writes that level back, and which levels a
    transition leaves and enters is read off the two lists of names. *)

From Coq Require Import List Bool Arith.
From Verif Require Import Machine Api Spec.
Import ListNotations.
Set Implicit Arguments.
Local Open Scope comp_scope.

Section Levels.
  Variable m : machine.

  (** The [k]-th superstate around [u], and [u] after that superstate has become [w]. *)
  Fixpoint sup_look (k : nat) (u : Sup m) : option (Sup m) :=
    match k with
    | 0 => Some u
    | S k' => match u_super m u with Some v => sup_look k' v | None => None end
    end.
  Fixpoint sup_write (k : nat) (u w : Sup m) : Sup m :=
    match k with
    | 0 => w
    | S k' => match u_super m u with Some v => u_put m u (sup_write k' v w) | None => u end
    end.

  (** Level [k] of the state [x], and [x] after that level has become [n]. *)
  Definition look (k : nat) (x : State m) : option (node (State m) (Sup m)) :=
    match k with
    | 0 => Some (NState x)
    | S k' => match s_super m x with Some u => option_map NSuper (sup_look k' u) | None => None end
    end.
  Definition write (k : nat) (x : State m) (n : node (State m) (Sup m)) : State m :=
    match k, n with
    | 0, NState x' => x'
    | S k', NSuper w => match s_super m x with Some u => s_put m x (sup_write k' u w) | None => x end
    | _, _ => x
    end.

  (** The variants of the superstates around [x], innermost first (at most [stack]). *)
  Fixpoint sup_names (stack : nat) (u : Sup m) : list nat :=
    match stack with
    | 0 => []
    | S n => u_disc m u :: match u_super m u with Some v => sup_names n v | None => [] end
    end.
  Definition names (stack : nat) (x : State m) : list nat :=
    match s_super m x with Some u => sup_names stack u | None => [] end.
End Levels.

(** How many elements the two lists have in common at the front. *)
Fixpoint in_common (xs ys : list nat) : nat :=
  match xs, ys with
  | x :: xs', y :: ys' => if x =? y then S (in_common xs' ys') else 0
  | _, _ => 0
  end.

Section Walk.
  Variable m : machine.
  (** [X] is the type of states, [look] and [write] are those above. *)
  Variable X : Type.
  Variable look : nat -> X -> option (node (State m) (Sup m)).
  Variable write : nat -> X -> node (State m) (Sup m) -> X.

  (** One call of a callback of level [k]: what it is given, what becomes of it.  If there is
      no such level nothing happens. *)
  Definition act_at (f : node (State m) (Sup m) -> Shared m -> Ctx m ->
                         reply unit * node (State m) (Sup m) * Shared m * Ctx m)
      (o : node (State m) (Sup m) -> obs m) (k : nat) : comp m X unit :=
    fun x sh cx =>
      match look k x with
      | None => Res (Ret tt) x sh cx []
      | Some n => let '(r, n', sh', cx') := f n sh cx in Res (outcome_of r) (write k x n') sh' cx' [o n]
      end.
  Definition enter_at : nat -> comp m X unit := act_at (node_entry m) OEnter.
  Definition exit_at : nat -> comp m X unit := act_at (node_exit m) OExit.
  Definition ask_at (e : Event m) (k : nat) : comp m X (response (State m)) :=
    fun x sh cx =>
      match look k x with
      | None => Res (Ret Super) x sh cx []
      | Some n =>
          let '(r, n', sh', cx') := node_handler m n sh cx e in
          Res (outcome_of r) (write k x n') sh' cx'
              (OHandler n e :: match r with Returns a => [OReturn a] | _ => [] end)
      end.
  (** A dispatch hook, which is shown level [k]. *)
  Definition show_at (f : node (State m) (Sup m) -> comp m X unit) (k : nat) : comp m X unit :=
    fun x sh cx => match look k x with None => Res (Ret tt) x sh cx [] | Some n => f n x sh cx end.

  (** Exit actions of [n] levels from [k] upwards; entry actions from level [n - 1] down. *)
  Fixpoint walk_out (k n : nat) : comp m X unit :=
    match n with
    | 0 => ret tt
    | S n' => exit_at k ;;; walk_out (S k) n'
    end.
  Fixpoint walk_in (n : nat) : comp m X unit :=
    match n with
    | 0 => ret tt
    | S n' => enter_at n' ;;; walk_in n'
    end.

  (** Asking [n] levels from [k] upwards, until one does not answer "super".  The result is the
      target of the transition asked for, if any.  In the awaitable module the second hook
      comes right after the handler, ... *)
  Fixpoint ask_up (e : Event m) (k n : nat) : comp m X (option (State m)) :=
    match n with
    | 0 => ret None
    | S n' =>
        show_at (fun nd => before_dispatch m nd e) k ;;;
        r <- ask_at e k ;;
        show_at (fun nd => after_dispatch m nd e) k ;;;
        match r with
        | Super => ask_up e (S k) n'
        | Handled => ret None
        | Transition t => ret (Some t)
        end
    end.
  (** ... in the blocking one, for superstates, when the levels above are done too. *)
  Fixpoint ask_up_nested (e : Event m) (k n : nat) : comp m X (option (State m)) :=
    match n with
    | 0 => ret None
    | S n' =>
        show_at (fun nd => before_dispatch m nd e) k ;;;
        r <- ask_at e k ;;
        t <- match r with
             | Super => ask_up_nested e (S k) n'
             | Handled => ret None
             | Transition t => ret (Some t)
             end ;;
        show_at (fun nd => after_dispatch m nd e) k ;;;
        ret t
    end.
  Definition ask_leaf_first (e : Event m) (n : nat) : comp m X (option (State m)) :=
    show_at (fun nd => before_dispatch m nd e) 0 ;;;
    r <- ask_at e 0 ;;
    show_at (fun nd => after_dispatch m nd e) 0 ;;;
    match r with
    | Super => ask_up_nested e 1 n
    | Handled => ret None
    | Transition t => ret (Some t)
    end.
End Walk.
Arguments act_at m {X} look write f o k _ _ _.
Arguments enter_at m {X} look write k _ _ _.
Arguments exit_at m {X} look write k _ _ _.
Arguments ask_at m {X} look write e k _ _ _.
Arguments show_at m {X} look f k _ _ _.
Arguments walk_out m {X} look write k n _ _ _.
Arguments walk_in m {X} look write n _ _ _.
Arguments ask_up m {X} look write e k n _ _ _.
Arguments ask_up_nested m {X} look write e k n _ _ _.
Arguments ask_leaf_first m {X} look write e n _ _ _.

Section Reference.
  Variable m : machine.
  Variable stack : nat.
  Variable md : mode.

  (** How many levels of [x] are left for [t], or entered from [t]: the leaf and the superstates
      that are not common to both. *)
  Definition own_levels (x t : State m) : nat :=
    if s_disc m x =? s_disc m t then 1
    else S (length (names m stack x) - in_common (rev (names m stack x)) (rev (names m stack t))).

  Definition replace_by (t : State m) : comp m (State m) (State m) :=
    fun x sh cx => Res (Ret x) t sh cx [].

  Definition ref_transition (t : State m) : comp m (State m) unit :=
    x <- self ;;
    match md with
    | BlockingMode => before_transition m t x   (* the arguments are swapped: see C11 *)
    | AwaitableMode => before_transition m x t
    end ;;;
    walk_out m (look m) (write m) 0 (own_levels x t) ;;;
    old <- replace_by t ;;
    walk_in m (look m) (write m) (own_levels t x) ;;;
    new <- self ;;
    after_transition m old new.

  Definition ref_handle (e : Event m) : comp m (State m) unit :=
    x <- self ;;
    o <- match md with
         | BlockingMode => ask_leaf_first m (look m) (write m) e (length (names m stack x))
         | AwaitableMode => ask_up m (look m) (write m) e 0 (S (length (names m stack x)))
         end ;;
    match o with
    | Some t => ref_transition t
    | None => ret tt
    end.

  Definition ref_init : comp m (State m) unit :=
    x <- self ;; walk_in m (look m) (write m) (S (length (names m stack x))).

  (** What a client's operation does to a machine.  It is marked as initialized when the entry
      actions have returned. *)
  Definition ref_exec (o : op m) (sm : state_machine m)
    : outcome unit * state_machine m * option (Ctx m) * list (obs m) :=
    let x := sm_state sm in
    let sh := sm_shared sm in
    let started (b : bool) {A} (r : res m (State m) A) := StateMachine (Inner (r_sh r) (r_self r)) b in
    let returned {A} (r : res m (State m) A) := match r_out r with Ret _ => true | Abort _ => false end in
    match o with
    | OpInit cx =>
        if initialized sm then (Ret tt, sm, Some cx, [])
        else let r := ref_init x sh cx in (r_out r, started (returned r) r, Some (r_cx r), r_tr r)
    | OpHandle e cx =>
        if initialized sm
        then let r := ref_handle e x sh cx in (r_out r, started true r, Some (r_cx r), r_tr r)
        else let r := (ref_init ;;; ref_handle e) x sh cx in
             (r_out r, started (returned (ref_init x sh cx)) r, Some (r_cx r), r_tr r)
    | OpInnerMut f => (Ret tt, StateMachine (Inner (f sh) x) (initialized sm), None, [])
    | OpStateMut f => (Ret tt, StateMachine (Inner sh (f x)) (initialized sm), None, [])
    end.
  Fixpoint ref_exec_all (ops : list (op m)) (sm : state_machine m) : list (called m) * state_machine m :=
    match ops with
    | [] => ([], sm)
    | o :: ops' =>
        let '(out, sm1, cx, tr) := ref_exec o sm in
        let '(cs, sm') := ref_exec_all ops' sm1 in (Called out cx tr :: cs, sm')
    end.
End Reference.
