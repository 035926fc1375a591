(** Spec.v — independent specification: trees of states, root paths, routes between
    leaves, stack discipline, sequential threading of data.  Nothing here mentions how
    the library computes; the only imports are the machine interface and its log. *)

From Coq Require Import List Bool Arith.
From Verif Require Import Machine.
Import ListNotations.
Set Implicit Arguments.

(** ** Hierarchies of state variants *)

(** Variants are identified by their discriminants (natural numbers); leaf states and
    superstates are different kinds of node. *)
Inductive place : Type :=
| AtState (s : nat)
| AtSuper (u : nat).

(** A hierarchy: the enclosing superstate of every leaf and of every superstate;
    [None] is the implicit top. *)
Record hierarchy := {
  leaf_parent : nat -> option nat;
  sup_parent : nat -> option nat
}.

(** [chain h o l]: [l] lists [o] and its ancestors, innermost first. It is finite, so
    nodes on a cycle have no chain. *)
Inductive chain (h : hierarchy) : option nat -> list nat -> Prop :=
| chain_top : chain h None []
| chain_up u l : chain h (sup_parent h u) l -> chain h (Some u) (u :: l).

(** [path h s p]: [p] is the active path of leaf [s]: outermost superstate first, the
    leaf last. *)
Definition path (h : hierarchy) (s : nat) (p : list place) : Prop :=
  exists l, chain h (leaf_parent h s) l /\ p = map AtSuper (rev l) ++ [AtState s].

(** Every superstate has at most [n] ancestors, itself included. In particular the
    hierarchy has no cycle. *)
Definition height_at_most (n : nat) (h : hierarchy) : Prop :=
  forall u, exists l, chain h (Some u) l /\ length l <= n.

(** ** Entry and exit actions *)

Inductive act : Type :=
| Exit (p : place)
| Enter (p : place).

(** The node an action belongs to. *)
Definition act_place (a : act) : place := match a with Exit p => p | Enter p => p end.

(** The two lists do not begin with the same element. *)
Definition diverge {A} (xs ys : list A) : Prop :=
  match xs, ys with
  | x :: _, y :: _ => x <> y
  | _, _ => True
  end.

(** [route h s t acts]: what a transition from leaf [s] to leaf [t] has to do. The active
    paths share exactly [common]; what is below it is exited from the inside out, then
    entered from the outside in.  A self-transition leaves and re-enters the leaf. *)
Definition route (h : hierarchy) (s t : nat) (acts : list act) : Prop :=
  (s = t /\ acts = [Exit (AtState s); Enter (AtState s)]) \/
  (s <> t /\
   exists common xs ys,
     path h s (common ++ xs) /\ path h t (common ++ ys) /\ diverge xs ys /\
     acts = map Exit (rev xs) ++ map Enter ys).

(** Stack discipline: entering pushes, exiting must pop that same node; [stk] is listed
    outermost first. *)
Inductive replay : list place -> list act -> list place -> Prop :=
| replay_done stk : replay stk [] stk
| replay_enter stk p acts stk' :
    replay (stk ++ [p]) acts stk' -> replay stk (Enter p :: acts) stk'
| replay_exit stk p acts stk' :
    replay stk acts stk' -> replay (stk ++ [p]) (Exit p :: acts) stk'.

Definition prefix {A} (l1 l2 : list A) : Prop := exists l3, l2 = l1 ++ l3.

(** ** Reading a log *)

Section Log.
  Variable m : machine.

  Definition place_of (n : node (State m) (Sup m)) : place :=
    match n with
    | NState s => AtState (s_disc m s)
    | NSuper u => AtSuper (u_disc m u)
    end.

  (** The entry and exit actions in a log, in order. *)
  Definition act_of (o : obs m) : list act :=
    match o with
    | OExit n => [Exit (place_of n)]
    | OEnter n => [Enter (place_of n)]
    | _ => []
    end.
  Definition acts (tr : list (obs m)) : list act := flat_map act_of tr.

  (** A log entry with every node replaced by its place in the hierarchy. *)
  Inductive call : Type :=
  | CBeforeDispatch (p : place) (e : Event m)
  | CHandler (p : place) (e : Event m)
  | CReturn (r : response (State m))
  | CAfterDispatch (p : place) (e : Event m)
  | CBeforeTransition (a b : nat)
  | CAfterTransition (a b : nat)
  | CExit (p : place)
  | CEnter (p : place).

  Definition call_of (o : obs m) : call :=
    match o with
    | OBeforeDispatch n e => CBeforeDispatch (place_of n) e
    | OHandler n e => CHandler (place_of n) e
    | OReturn r => CReturn r
    | OAfterDispatch n e => CAfterDispatch (place_of n) e
    | OBeforeTransition a b => CBeforeTransition (s_disc m a) (s_disc m b)
    | OAfterTransition a b => CAfterTransition (s_disc m a) (s_disc m b)
    | OExit n => CExit (place_of n)
    | OEnter n => CEnter (place_of n)
    end.
  Definition calls (tr : list (obs m)) : list call := map call_of tr.

  (** The handler calls, in order: where, with which event, and the answer, if it
      returned. *)
  Fixpoint handler_calls (l : list call)
    : list (place * Event m * option (response (State m))) :=
    match l with
    | [] => []
    | CHandler p e :: l' =>
        (p, e, match l' with CReturn r :: _ => Some r | _ => None end) :: handler_calls l'
    | _ :: l' => handler_calls l'
    end.

  Definition is_transition_hook (o : obs m) : bool :=
    match o with OBeforeTransition _ _ | OAfterTransition _ _ => true | _ => false end.
  Definition is_dispatch_hook (o : obs m) : bool :=
    match o with OBeforeDispatch _ _ | OAfterDispatch _ _ => true | _ => false end.
  Definition is_action (o : obs m) : bool :=
    match o with OExit _ | OEnter _ => true | _ => false end.
  Definition is_exit (o : obs m) : bool := match o with OExit _ => true | _ => false end.
  Definition is_enter (o : obs m) : bool := match o with OEnter _ => true | _ => false end.
  Definition is_handler (o : obs m) : bool :=
    match o with OHandler _ _ | OReturn _ => true | _ => false end.

  (** In the log, the handler of the node at [p] answered the event [e] with a transition
      to [target]. *)
  Definition asks_for (tr : list (obs m)) (p : place) (e : Event m) (target : State m) : Prop :=
    In (p, e, Some (Transition target)) (handler_calls (calls tr)).

  (** No handler asked for a transition. *)
  Definition no_transition (tr : list (obs m)) : Prop :=
    forall p e target, ~ asks_for tr p e target.

End Log.

Arguments CBeforeDispatch {m}.
Arguments CHandler {m}.
Arguments CReturn {m}.
Arguments CAfterDispatch {m}.
Arguments CBeforeTransition {m}.
Arguments CAfterTransition {m}.
Arguments CExit {m}.
Arguments CEnter {m}.

(** ** Dispatching an event *)

(** [answers ps vis r]: of the nodes [ps] (innermost first) exactly those in [vis] are
    asked, with the answers listed there: each of them but the last said "super"; the
    search stops at the first other answer, [r], or at the top. *)
Inductive answers (S : Type)
  : list place -> list (place * response S) -> response S -> Prop :=
| answers_top : answers [] [] Super
| answers_stop p ps r : r <> Super -> answers (p :: ps) [(p, r)] r
| answers_super p ps vis r : answers ps vis r -> answers (p :: ps) ((p, Super) :: vis) r.

(** [upward h s p]: the leaf [s] and its superstates, innermost first. *)
Definition upward (h : hierarchy) (s : nat) (p : list place) : Prop :=
  exists l, chain h (leaf_parent h s) l /\ p = AtState s :: map AtSuper l.

Section DispatchOrder.
  Variable m : machine.
  Variable e : Event m.

  (** Each handler call has its own pair of hooks, one after the other. *)
  Fixpoint rounds (vis : list (place * response (State m))) : list (call m) :=
    match vis with
    | [] => []
    | (p, r) :: vis' =>
        [CBeforeDispatch p e; CHandler p e; CReturn r; CAfterDispatch p e] ++ rounds vis'
    end.

  (** The second hook of each node runs after everything its ancestors do. *)
  Fixpoint nested (vis : list (place * response (State m))) : list (call m) :=
    match vis with
    | [] => []
    | (p, r) :: vis' =>
        [CBeforeDispatch p e; CHandler p e; CReturn r] ++ nested vis' ++ [CAfterDispatch p e]
    end.
End DispatchOrder.

Arguments rounds {m}.
Arguments nested {m}.

(** A log of dispatch hooks and handler calls in which every handler call comes right after
    "before dispatch" for the same node and event, and has one "after dispatch" for that
    node and event behind it, properly nested. *)
Inductive bracketed (m : machine) : list (call m) -> Prop :=
| bracketed_nil : bracketed []
| bracketed_call p e r inner rest :
    bracketed inner -> bracketed rest ->
    bracketed ([CBeforeDispatch p e; CHandler p e; CReturn r] ++ inner ++
               [CAfterDispatch p e] ++ rest).

(** The same without nesting: "after dispatch" comes right after the handler. *)
Inductive tightly_bracketed (m : machine) : list (call m) -> Prop :=
| tight_nil : tightly_bracketed []
| tight_call p e r rest :
    tightly_bracketed rest ->
    tightly_bracketed ([CBeforeDispatch p e; CHandler p e; CReturn r; CAfterDispatch p e]
                       ++ rest).

(** ** Hooks *)

(** Hooks that do nothing (the default). *)
Record quiet (m : machine) : Prop := {
  q_before_dispatch : forall sh n e, h_before_dispatch m sh n e = (Returns tt, sh);
  q_after_dispatch : forall sh n e, h_after_dispatch m sh n e = (Returns tt, sh);
  q_before_transition : forall sh a b, h_before_transition m sh a b = (Returns tt, sh);
  q_after_transition : forall sh a b, h_after_transition m sh a b = (Returns tt, sh)
}.

(** All entry and exit actions and all hooks are the defaults of the traits. *)
Record silent (m : machine) : Prop := {
  sl_s_entry : forall x sh cx, s_entry m x sh cx = no_action x sh cx;
  sl_s_exit : forall x sh cx, s_exit m x sh cx = no_action x sh cx;
  sl_u_entry : forall u sh cx, u_entry m u sh cx = no_action u sh cx;
  sl_u_exit : forall u sh cx, u_exit m u sh cx = no_action u sh cx;
  sl_before_dispatch : forall sh n e, h_before_dispatch m sh n e = no_dispatch_hook sh n e;
  sl_after_dispatch : forall sh n e, h_after_dispatch m sh n e = no_dispatch_hook sh n e;
  sl_before_transition : forall sh a b, h_before_transition m sh a b = no_transition_hook sh a b;
  sl_after_transition : forall sh a b, h_after_transition m sh a b = no_transition_hook sh a b
}.

(** A log without the hook calls. *)
Definition unhooked (m : machine) (t : list (obs m)) : list (obs m) :=
  filter (fun o => negb (is_dispatch_hook o || is_transition_hook o)) t.

(** ** Machines over a hierarchy *)

Section Machines.
  Variable h : hierarchy.
  Variable m : machine.

  (** The `superstate` methods of [m] follow the hierarchy [h]: which superstate encloses
      a node depends only on the node's variant, and ending a borrow does not change the
      variant of the borrowed-from node (if the view kept its variant). *)
  Record follows : Prop := {
    fo_leaf : forall x, option_map (u_disc m) (s_super m x) = leaf_parent h (s_disc m x);
    fo_sup : forall u, option_map (u_disc m) (u_super m u) = sup_parent h (u_disc m u);
    fo_s_put : forall x v v', s_super m x = Some v -> u_disc m v' = u_disc m v ->
                              s_disc m (s_put m x v') = s_disc m x;
    fo_u_put : forall u v v', u_super m u = Some v -> u_disc m v' = u_disc m v ->
                              u_disc m (u_put m u v') = u_disc m u
  }.

  (** Handlers and actions do not overwrite the node they run on with another variant. *)
  Record stable : Prop := {
    st_s_handler : forall x sh cx e r x' sh' cx',
      s_handler m x sh cx e = (r, x', sh', cx') -> s_disc m x' = s_disc m x;
    st_s_entry : forall x sh cx r x' sh' cx',
      s_entry m x sh cx = (r, x', sh', cx') -> s_disc m x' = s_disc m x;
    st_s_exit : forall x sh cx r x' sh' cx',
      s_exit m x sh cx = (r, x', sh', cx') -> s_disc m x' = s_disc m x;
    st_u_handler : forall u sh cx e r u' sh' cx',
      u_handler m u sh cx e = (r, u', sh', cx') -> u_disc m u' = u_disc m u;
    st_u_entry : forall u sh cx r u' sh' cx',
      u_entry m u sh cx = (r, u', sh', cx') -> u_disc m u' = u_disc m u;
    st_u_exit : forall u sh cx r u' sh' cx',
      u_exit m u sh cx = (r, u', sh', cx') -> u_disc m u' = u_disc m u
  }.

  (** Superstates are views of the storage of the node they are borrowed from (laws of
      mutable borrows), at least among values of the same variant. *)
  Record faithful_views : Prop := {
    fv_s_get_put : forall x v, s_super m x = Some v -> s_put m x v = x;
    fv_s_put_get : forall x v v', s_super m x = Some v -> u_disc m v' = u_disc m v ->
                                  s_super m (s_put m x v') = Some v';
    fv_s_put_put : forall x v v1 v2, s_super m x = Some v ->
      u_disc m v1 = u_disc m v -> u_disc m v2 = u_disc m v ->
      s_put m (s_put m x v1) v2 = s_put m x v2;
    fv_u_get_put : forall u v, u_super m u = Some v -> u_put m u v = u;
    fv_u_put_get : forall u v v', u_super m u = Some v -> u_disc m v' = u_disc m v ->
                                  u_super m (u_put m u v') = Some v';
    fv_u_put_put : forall u v v1 v2, u_super m u = Some v ->
      u_disc m v1 = u_disc m v -> u_disc m v2 = u_disc m v ->
      u_put m (u_put m u v1) v2 = u_put m u v2
  }.

End Machines.

(** ** Data: every callback gets what the previous one left *)

Section Threads.
  Variable m : machine.

  (** [overwrite u v v' u']: [v] is [u] or the view of one of its enclosing superstates,
      obtained by borrowing upwards; if [v] is overwritten with [v'], then [u] becomes
      [u']. *)
  Inductive overwrite : Sup m -> Sup m -> Sup m -> Sup m -> Prop :=
  | overwrite_here u u' : overwrite u u u' u'
  | overwrite_up u v v' w w' :
      u_super m u = Some v -> overwrite v w w' v' -> overwrite u w w' (u_put m u v').

  (** [touches x n n' x']: the node [n] is the leaf state [x] or the view of one of its
      superstates; if it is overwritten with [n'], then the state becomes [x']. *)
  Inductive touches
    : State m -> node (State m) (Sup m) -> node (State m) (Sup m) -> State m -> Prop :=
  | touches_leaf x x' : touches x (NState x) (NState x') x'
  | touches_super x v u u' v' :
      s_super m x = Some v -> overwrite v u u' v' ->
      touches x (NSuper u) (NSuper u') (s_put m x v').

  (** The same, when only a superstate value is at hand. *)
  Inductive touches_above
    : Sup m -> node (State m) (Sup m) -> node (State m) (Sup m) -> Sup m -> Prop :=
  | touches_above_super u v v' u' :
      overwrite u v v' u' -> touches_above u (NSuper v) (NSuper v') u'.

  (** The callbacks of a node. *)
  Definition of_state {A} (r : reply A * State m * Shared m * Ctx m)
    : reply A * node (State m) (Sup m) * Shared m * Ctx m :=
    let '(a, x, sh, cx) := r in (a, NState x, sh, cx).
  Definition of_super {A} (r : reply A * Sup m * Shared m * Ctx m)
    : reply A * node (State m) (Sup m) * Shared m * Ctx m :=
    let '(a, u, sh, cx) := r in (a, NSuper u, sh, cx).
  Definition node_handler (n : node (State m) (Sup m)) sh cx e :=
    match n with
    | NState x => of_state (s_handler m x sh cx e)
    | NSuper u => of_super (u_handler m u sh cx e)
    end.
  Definition node_entry (n : node (State m) (Sup m)) sh cx :=
    match n with
    | NState x => of_state (s_entry m x sh cx)
    | NSuper u => of_super (u_entry m u sh cx)
    end.
  Definition node_exit (n : node (State m) (Sup m)) sh cx :=
    match n with
    | NState x => of_state (s_exit m x sh cx)
    | NSuper u => of_super (u_exit m u sh cx)
    end.

  (** The node a logged call was made on or showed to a dispatch hook, and the value that
      call left it with, given the shared storage and the context. *)
  Definition node_called (o : obs m) : option (node (State m) (Sup m)) :=
    match o with
    | OHandler n _ | OEnter n | OExit n | OBeforeDispatch n _ | OAfterDispatch n _ => Some n
    | _ => None
    end.
  Definition node_left (o : obs m) (sh : Shared m) (cx : Ctx m)
    : option (node (State m) (Sup m)) :=
    match o with
    | OHandler n e => let '(_, n', _, _) := node_handler n sh cx e in Some n'
    | OEnter n => let '(_, n', _, _) := node_entry n sh cx in Some n'
    | OExit n => let '(_, n', _, _) := node_exit n sh cx in Some n'
    | OBeforeDispatch n _ | OAfterDispatch n _ => Some n
    | _ => None
    end.

  Section Level.
    (** [X] is the leaf state, [T] is [touches] (or the superstate variants). *)
    Variable X : Type.
    Variable T : X -> node (State m) (Sup m) -> node (State m) (Sup m) -> X -> Prop.

    (** [n] can be borrowed from [x]. *)
    Definition sees (x : X) (n : node (State m) (Sup m)) : Prop := exists n' x', T x n n' x'.

    (** [callback o c a c']: the logged call [o], made with state, shared storage and
        context [c], ends with [a] and leaves [c'].  Handlers and actions run on the
        current value of their node; hooks can write the shared storage only, and are
        shown the current value of the node. *)
    Inductive callback
      : obs m -> X * Shared m * Ctx m -> outcome (option (response (State m))) ->
        X * Shared m * Ctx m -> Prop :=
    | cb_handler x n n' x' sh sh' cx cx' e r :
        T x n n' x' -> node_handler n sh cx e = (r, n', sh', cx') ->
        callback (OHandler n e) (x, sh, cx)
          (match outcome_of r with Ret a => Ret (Some a) | Abort w => Abort w end)
          (x', sh', cx')
    | cb_entry x n n' x' sh sh' cx cx' r :
        T x n n' x' -> node_entry n sh cx = (r, n', sh', cx') ->
        callback (OEnter n) (x, sh, cx)
          (match outcome_of r with Ret _ => Ret None | Abort w => Abort w end) (x', sh', cx')
    | cb_exit x n n' x' sh sh' cx cx' r :
        T x n n' x' -> node_exit n sh cx = (r, n', sh', cx') ->
        callback (OExit n) (x, sh, cx)
          (match outcome_of r with Ret _ => Ret None | Abort w => Abort w end) (x', sh', cx')
    | cb_before_dispatch x n sh sh' cx e r :
        sees x n -> h_before_dispatch m sh n e = (r, sh') ->
        callback (OBeforeDispatch n e) (x, sh, cx)
          (match outcome_of r with Ret _ => Ret None | Abort w => Abort w end) (x, sh', cx)
    | cb_after_dispatch x n sh sh' cx e r :
        sees x n -> h_after_dispatch m sh n e = (r, sh') ->
        callback (OAfterDispatch n e) (x, sh, cx)
          (match outcome_of r with Ret _ => Ret None | Abort w => Abort w end) (x, sh', cx)
    | cb_before_transition x a b sh sh' cx r :
        h_before_transition m sh a b = (r, sh') ->
        callback (OBeforeTransition a b) (x, sh, cx)
          (match outcome_of r with Ret _ => Ret None | Abort w => Abort w end) (x, sh', cx)
    | cb_after_transition x a b sh sh' cx r :
        h_after_transition m sh a b = (r, sh') ->
        callback (OAfterTransition a b) (x, sh, cx)
          (match outcome_of r with Ret _ => Ret None | Abort w => Abort w end) (x, sh', cx).

    (** [thread tr c out c']: the log [tr] is a sequence of callbacks, each started with
        what the one before it left, from [c] to [c']; it ends at the first callback that
        does not return, if any. *)
    Inductive thread
      : list (obs m) -> X * Shared m * Ctx m -> outcome unit -> X * Shared m * Ctx m -> Prop :=
    | thread_done c : thread [] c (Ret tt) c
    | thread_stop o c w c' : callback o c (Abort w) c' -> thread [o] c (Abort w) c'
    | thread_call o c c1 tr out c' :
        callback o c (Ret None) c1 -> thread tr c1 out c' -> thread (o :: tr) c out c'
    | thread_answer o r c c1 tr out c' :
        callback o c (Ret (Some r)) c1 -> thread tr c1 out c' ->
        thread (o :: OReturn r :: tr) c out c'.
  End Level.

End Threads.

Arguments sees {m X}.
Arguments callback {m X}.
Arguments thread {m X}.

(** [so_far m e c tr c']: while the event [e] is handled, the callbacks logged in [tr] lead
    from [c] to [c'], one after the other; if one of them asked for a transition, its target
    may have replaced the state on the way. *)
Definition so_far (m : machine) (e : Event m) (c : State m * Shared m * Ctx m)
    (tr : list (obs m)) (c' : State m * Shared m * Ctx m) : Prop :=
  thread (touches m) tr c (Ret tt) c' \/
  exists t1 t2 x sh cx p target,
    tr = t1 ++ t2 /\ asks_for t1 p e target /\
    thread (touches m) t1 c (Ret tt) (x, sh, cx) /\
    thread (touches m) t2 (target, sh, cx) (Ret tt) c'.
Arguments so_far m e c tr c' : clear implicits.

(** The standing assumptions on a machine: its superstate methods follow an (acyclic)
    hierarchy [h] of height at most [stack], and its handlers and actions do not
    overwrite their node with another variant. *)
Record well_formed (h : hierarchy) (m : machine) (stack : nat) : Prop := {
  wf_follows : follows h m;
  wf_stable : stable m;
  wf_height : height_at_most stack h
}.
