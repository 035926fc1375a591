(** SuperSpec.v — when an impure `superstate()` cannot be noticed.  Specification only. *)

From Coq Require Import List Bool Arith.
From Verif Require Import Machine Api SuperCalls.
Import ListNotations.
Set Implicit Arguments.

(** A way to look at the values of a machine [m'] (say, with caches) as values of a machine [m]
    (without). *)
Record look (m' m : machine) := Look {
  at_s : State m' -> State m; at_u : Sup m' -> Sup m;
  at_sh : Shared m' -> Shared m; at_e : Event m' -> Event m; at_cx : Ctx m' -> Ctx m
}.

Section Look.
  Variables m' m : machine.
  Variable F : look m' m.

  Definition at_node (n : node (State m') (Sup m')) : node (State m) (Sup m) :=
    match n with NState x => NState (at_s F x) | NSuper u => NSuper (at_u F u) end.
  Definition at_response (r : response (State m')) : response (State m) :=
    match r with Handled => Handled | Super => Super | Transition t => Transition (at_s F t) end.
  Definition at_reply (r : reply (response (State m'))) : reply (response (State m)) :=
    match r with Returns a => Returns (at_response a) | Panics => Panics | Cancelled => Cancelled end.
  Definition at_obs (o : obs m') : obs m :=
    match o with
    | OBeforeDispatch n e => OBeforeDispatch (at_node n) (at_e F e)
    | OHandler n e => OHandler (at_node n) (at_e F e)
    | OReturn r => OReturn (at_response r)
    | OAfterDispatch n e => OAfterDispatch (at_node n) (at_e F e)
    | OBeforeTransition a b => OBeforeTransition (at_s F a) (at_s F b)
    | OAfterTransition a b => OAfterTransition (at_s F a) (at_s F b)
    | OExit n => OExit (at_node n)
    | OEnter n => OEnter (at_node n)
    end.
  Definition at_machine (sm : state_machine m') : state_machine m :=
    StateMachine (Inner (at_sh F (shared_storage (sm_inner sm))) (at_s F (state (sm_inner sm))))
                 (initialized sm).
  Definition at_called (c : called m') : called m :=
    Called (c_out c) (option_map (at_cx F) (c_cx c)) (map at_obs (c_tr c)).
  (** The same operation. *)
  Definition at_op (o' : op m') (o : op m) : Prop :=
    match o', o with
    | OpInit c', OpInit c => c = at_cx F c'
    | OpHandle e' c', OpHandle e c => e = at_e F e' /\ c = at_cx F c'
    | OpInnerMut f', OpInnerMut f => forall s, at_sh F (f' s) = f (at_sh F s)
    | OpStateMut f', OpStateMut f => forall x, at_s F (f' x) = f (at_s F x)
    | _, _ => False
    end.

  (** Looked at this way, all user code of [m'] does what that of [m] does; and `superstate()` of
      [m'], if it returns, changes nothing, and returns what that of [m] returns. *)
  Record looks_same (sc : superstates m') : Prop := {
    ls_s_disc : forall x, s_disc m (at_s F x) = s_disc m' x;
    ls_u_disc : forall u, u_disc m (at_u F u) = u_disc m' u;
    ls_s_super : forall x o x', ask_s sc x = (Some o, x') ->
      at_s F x' = at_s F x /\ option_map (at_u F) o = s_super m (at_s F x);
    ls_u_super : forall u o u', ask_u sc u = (Some o, u') ->
      at_u F u' = at_u F u /\ option_map (at_u F) o = u_super m (at_u F u);
    ls_s_put : forall x v, at_s F (s_put m' x v) = s_put m (at_s F x) (at_u F v);
    ls_u_put : forall u v, at_u F (u_put m' u v) = u_put m (at_u F u) (at_u F v);
    ls_s_handler : forall x sh cx e r x' sh' cx', s_handler m' x sh cx e = (r, x', sh', cx') ->
      s_handler m (at_s F x) (at_sh F sh) (at_cx F cx) (at_e F e) = (at_reply r, at_s F x', at_sh F sh', at_cx F cx');
    ls_s_entry : forall x sh cx r x' sh' cx', s_entry m' x sh cx = (r, x', sh', cx') ->
      s_entry m (at_s F x) (at_sh F sh) (at_cx F cx) = (r, at_s F x', at_sh F sh', at_cx F cx');
    ls_s_exit : forall x sh cx r x' sh' cx', s_exit m' x sh cx = (r, x', sh', cx') ->
      s_exit m (at_s F x) (at_sh F sh) (at_cx F cx) = (r, at_s F x', at_sh F sh', at_cx F cx');
    ls_u_handler : forall u sh cx e r u' sh' cx', u_handler m' u sh cx e = (r, u', sh', cx') ->
      u_handler m (at_u F u) (at_sh F sh) (at_cx F cx) (at_e F e) = (at_reply r, at_u F u', at_sh F sh', at_cx F cx');
    ls_u_entry : forall u sh cx r u' sh' cx', u_entry m' u sh cx = (r, u', sh', cx') ->
      u_entry m (at_u F u) (at_sh F sh) (at_cx F cx) = (r, at_u F u', at_sh F sh', at_cx F cx');
    ls_u_exit : forall u sh cx r u' sh' cx', u_exit m' u sh cx = (r, u', sh', cx') ->
      u_exit m (at_u F u) (at_sh F sh) (at_cx F cx) = (r, at_u F u', at_sh F sh', at_cx F cx');
    ls_before_dispatch : forall sh n e r sh', h_before_dispatch m' sh n e = (r, sh') ->
      h_before_dispatch m (at_sh F sh) (at_node n) (at_e F e) = (r, at_sh F sh');
    ls_after_dispatch : forall sh n e r sh', h_after_dispatch m' sh n e = (r, sh') ->
      h_after_dispatch m (at_sh F sh) (at_node n) (at_e F e) = (r, at_sh F sh');
    ls_before_transition : forall sh a b r sh', h_before_transition m' sh a b = (r, sh') ->
      h_before_transition m (at_sh F sh) (at_s F a) (at_s F b) = (r, at_sh F sh');
    ls_after_transition : forall sh a b r sh', h_after_transition m' sh a b = (r, sh') ->
      h_after_transition m (at_sh F sh) (at_s F a) (at_s F b) = (r, at_sh F sh')
  }.
End Look.

(** Borrowing and writing nothing changes nothing. *)
Record lends (m : machine) : Prop := {
  le_s : forall x v, s_super m x = Some v -> s_put m x v = x;
  le_u : forall u v, u_super m u = Some v -> u_put m u v = u
}.

(** `superstate()` does not panic. *)
Definition never_panics (m : machine) (sc : superstates m) : Prop :=
  (forall x, fst (ask_s sc x) <> None) /\ (forall u, fst (ask_u sc u) <> None).

(** The `superstate()` of Machine.v. *)
Definition pure_superstates (m : machine) : superstates m :=
  @Superstates m (fun x => (Some (s_super m x), x)) (fun u => (Some (u_super m u), u)).
