(** IdleSpec.v — a superstate that only groups states, and the machine without it.
    Specification only. *)

From Coq Require Import List Bool Arith.
From Verif Require Import Machine Blocking Awaitable Api Spec.
Import ListNotations.
Set Implicit Arguments.

Section Idle.
  (** [g] is the discriminant of a superstate of [m]. *)
  Variable g : nat.
  Variable m : machine.

  (** The superstate [g] does nothing: it defers every event, it has no entry and no exit
      action, and the dispatch hooks do nothing when they are shown it. *)
  Record idle : Prop := {
    id_handler : forall u sh cx e, u_disc m u = g -> u_handler m u sh cx e = (Returns Super, u, sh, cx);
    id_entry : forall u sh cx, u_disc m u = g -> u_entry m u sh cx = no_action u sh cx;
    id_exit : forall u sh cx, u_disc m u = g -> u_exit m u sh cx = no_action u sh cx;
    id_before : forall u sh e, u_disc m u = g ->
      h_before_dispatch m sh (NSuper u) e = (Returns tt, sh);
    id_after : forall u sh e, u_disc m u = g ->
      h_after_dispatch m sh (NSuper u) e = (Returns tt, sh)
  }.

  (** The machine without [g]: what was in [g] is in the superstate that [g] was in.
      Everything else is that of [m]. *)
  Definition without : machine := {|
    State := State m; Sup := Sup m; Shared := Shared m; Event := Event m; Ctx := Ctx m;
    initial := initial m;
    s_disc := s_disc m; u_disc := u_disc m;
    s_super := fun x =>
      match s_super m x with
      | Some v => if u_disc m v =? g then u_super m v else Some v
      | None => None
      end;
    s_put := fun x w =>
      match s_super m x with
      | Some v => if u_disc m v =? g then s_put m x (u_put m v w) else s_put m x w
      | None => s_put m x w
      end;
    u_super := fun u =>
      match u_super m u with
      | Some v => if u_disc m v =? g then u_super m v else Some v
      | None => None
      end;
    u_put := fun u w =>
      match u_super m u with
      | Some v => if u_disc m v =? g then u_put m u (u_put m v w) else u_put m u w
      | None => u_put m u w
      end;
    s_handler := s_handler m; s_entry := s_entry m; s_exit := s_exit m;
    u_handler := u_handler m; u_entry := u_entry m; u_exit := u_exit m;
    h_before_dispatch := h_before_dispatch m; h_after_dispatch := h_after_dispatch m;
    h_before_transition := h_before_transition m; h_after_transition := h_after_transition m
  |}.

  (** The same log entry, machine, operation. *)
  Definition same_obs (o : obs m) : obs without :=
    match o with
    | OBeforeDispatch n e => @OBeforeDispatch without n e
    | OHandler n e => @OHandler without n e
    | OReturn r => @OReturn without r
    | OAfterDispatch n e => @OAfterDispatch without n e
    | OBeforeTransition a b => @OBeforeTransition without a b
    | OAfterTransition a b => @OAfterTransition without a b
    | OExit n => @OExit without n
    | OEnter n => @OEnter without n
    end.
  Definition same_machine (sm : state_machine m) : state_machine without :=
    StateMachine (@Inner without (shared_storage (sm_inner sm)) (state (sm_inner sm)))
                 (initialized sm).
  Definition same_op (o : op m) : op without :=
    match o with
    | OpInit cx => @OpInit without cx
    | OpHandle e cx => @OpHandle without e cx
    | OpInnerMut f => @OpInnerMut without f
    | OpStateMut f => @OpStateMut without f
    end.

  (** A call on [g], or a dispatch hook shown [g]. *)
  Definition about_g (o : obs m) : bool :=
    match o with
    | OBeforeDispatch (NSuper u) _ | OHandler (NSuper u) _ | OAfterDispatch (NSuper u) _
    | OExit (NSuper u) | OEnter (NSuper u) => u_disc m u =? g
    | _ => false
    end.

  (** A log without the calls about [g] and what they answered. *)
  Fixpoint hide (t : list (obs m)) : list (obs without) :=
    match t with
    | [] => []
    | o :: t' =>
        if about_g o then match t' with OReturn _ :: t'' => hide t'' | _ => hide t' end
        else same_obs o :: hide t'
    end.

  Definition hide_called (c : called m) : called without :=
    @Called without (c_out c) (c_cx c) (hide (c_tr c)).

End Idle.
