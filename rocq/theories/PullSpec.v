(** PullSpec.v — moving behaviour between states and the superstate they share.
    Specification only. *)

From Coq Require Import List Bool Arith.
From Verif Require Import Machine Api Spec.
Import ListNotations.
Set Implicit Arguments.

Section Pull.
  Variable m : machine.

  (** The machine [m] with other handlers. *)
  Definition with_handlers
      (hs : State m -> Shared m -> Ctx m -> Event m -> reply (response (State m)) * State m * Shared m * Ctx m)
      (hu : Sup m -> Shared m -> Ctx m -> Event m -> reply (response (State m)) * Sup m * Shared m * Ctx m)
    : machine := {|
    State := State m; Sup := Sup m; Shared := Shared m; Event := Event m; Ctx := Ctx m;
    initial := initial m;
    s_disc := s_disc m; u_disc := u_disc m;
    s_super := s_super m; s_put := s_put m; u_super := u_super m; u_put := u_put m;
    s_handler := hs; s_entry := s_entry m; s_exit := s_exit m;
    u_handler := hu; u_entry := u_entry m; u_exit := u_exit m;
    h_before_dispatch := h_before_dispatch m; h_after_dispatch := h_after_dispatch m;
    h_before_transition := h_before_transition m; h_after_transition := h_after_transition m
  |}.

  (** Which events which states and superstates no longer leave to their superstate but treat
      themselves. *)
  Variable by_state : State m -> Event m -> bool.
  Variable by_super : Sup m -> Event m -> bool.

  (** A state's handler that, where it answered `Super`, now does what the handler of its
      superstate does, on the data it has in common with it. *)
  Definition s_itself x sh cx e :=
    if by_state x e then
      match s_handler m x sh cx e with
      | (Returns Super, x1, sh1, cx1) =>
          match s_super m x1 with
          | Some u =>
              let '(r, u', sh2, cx2) := u_handler m u sh1 cx1 e in (r, s_put m x1 u', sh2, cx2)
          | None => (Returns Super, x1, sh1, cx1)
          end
      | other => other
      end
    else s_handler m x sh cx e.
  Definition u_itself u sh cx e :=
    if by_super u e then
      match u_handler m u sh cx e with
      | (Returns Super, u1, sh1, cx1) =>
          match u_super m u1 with
          | Some v =>
              let '(r, v', sh2, cx2) := u_handler m v sh1 cx1 e in (r, u_put m u1 v', sh2, cx2)
          | None => (Returns Super, u1, sh1, cx1)
          end
      | other => other
      end
    else u_handler m u sh cx e.
  Definition pushed_down : machine := with_handlers s_itself u_itself.

  (** Where the superstate asked in this way defers the event further up, it does nothing else. *)
  Definition defers_only (u : Sup m) (sh : Shared m) (cx : Ctx m) (e : Event m) : Prop :=
    forall u' sh' cx', u_handler m u sh cx e = (Returns Super, u', sh', cx') -> u' = u /\ sh' = sh /\ cx' = cx.
  Record deferring : Prop := {
    df_state : forall x sh cx e x1 sh1 cx1 u, by_state x e = true ->
      s_handler m x sh cx e = (Returns Super, x1, sh1, cx1) -> s_super m x1 = Some u ->
      defers_only u sh1 cx1 e;
    df_super : forall v sh cx e v1 sh1 cx1 u, by_super v e = true ->
      u_handler m v sh cx e = (Returns Super, v1, sh1, cx1) -> u_super m v1 = Some u ->
      defers_only u sh1 cx1 e
  }.

  (** Borrowing and writing nothing changes nothing. *)
  Record lending : Prop := {
    ln_s : forall x v, s_super m x = Some v -> s_put m x v = x;
    ln_u : forall u v, u_super m u = Some v -> u_put m u v = u
  }.

  (** No dispatch hooks. *)
  Record no_dispatch_hooks : Prop := {
    nd_before : forall sh n e, h_before_dispatch m sh n e = (Returns tt, sh);
    nd_after : forall sh n e, h_after_dispatch m sh n e = (Returns tt, sh)
  }.

  (** The same operation and machine. *)
  Definition down_op (o : op m) : op pushed_down :=
    match o with
    | OpInit cx => @OpInit pushed_down cx
    | OpHandle e cx => @OpHandle pushed_down e cx
    | OpInnerMut f => @OpInnerMut pushed_down f
    | OpStateMut f => @OpStateMut pushed_down f
    end.
  Definition down_machine (sm : state_machine m) : state_machine pushed_down :=
    StateMachine (@Inner pushed_down (shared_storage (sm_inner sm)) (state (sm_inner sm))) (initialized sm).
End Pull.

(** What a log shows of the actions and transitions: who was asked about the event is left out. *)
Inductive seen (S U : Type) :=
| Exits (n : node S U) | Enters (n : node S U) | Before (a b : S) | After (a b : S).
Arguments Exits {S U} n. Arguments Enters {S U} n. Arguments Before {S U} a b. Arguments After {S U} a b.
Definition see {m : machine} (t : list (obs m)) : list (seen (State m) (Sup m)) :=
  flat_map (fun o => match o with
                     | OExit n => [Exits n]
                     | OEnter n => [Enters n]
                     | OBeforeTransition a b => [Before a b]
                     | OAfterTransition a b => [After a b]
                     | OBeforeDispatch _ _ | OHandler _ _ | OReturn _ | OAfterDispatch _ _ => []
                     end) t.
(** How a call ended, the context it left, and its actions and transitions. *)
Definition see_called {m : machine} (c : called m) :=
  (c_out c, c_cx c, see (c_tr c)).
