(** TypestatePollSpec.v — futures that leave a part of the shared storage alone, and clients that
    do; the life of a `StateMachine` at the level of polls.  Specification only. *)

From Coq Require Import List Bool Arith.
From Verif Require Import Machine Api Poll Drops DropPoll Life TypestatePoll.
Import ListNotations.
Set Implicit Arguments.

Section Labels.
  Variable World : Type.
  Variable m : machine.
  Variable F : futures World m.

  (** However often a callback's future is polled, [label] of the shared storage stays. *)
  Definition future_keeps_storage {U X A} (label : Shared m -> U)
      (f : ufut World (X * Shared m * Ctx m) A) : Prop :=
    forall w ws x sh cx, label (snd (fst (snd (fst (udrive f w ws (x, sh, cx)))))) = label sh.
  Definition hook_keeps_storage {U} (label : Shared m -> U) (f : ufut World (Shared m) unit) : Prop :=
    forall w ws sh, label (snd (fst (udrive f w ws sh))) = label sh.
  Record futures_keep_storage {U} (label : Shared m -> U) : Prop := {
    fs_s_handler : forall e, future_keeps_storage label (f_s_handler F e);
    fs_s_entry : future_keeps_storage label (f_s_entry F);
    fs_s_exit : future_keeps_storage label (f_s_exit F);
    fs_u_handler : forall e, future_keeps_storage label (f_u_handler F e);
    fs_u_entry : future_keeps_storage label (f_u_entry F);
    fs_u_exit : future_keeps_storage label (f_u_exit F);
    fs_before_dispatch : forall n e, hook_keeps_storage label (f_before_dispatch F n e);
    fs_after_dispatch : forall n e, hook_keeps_storage label (f_after_dispatch F n e);
    fs_before_transition : forall a b, hook_keeps_storage label (f_before_transition F a b);
    fs_after_transition : forall a b, hook_keeps_storage label (f_after_transition F a b)
  }.

  (** The client's writes keep mark and label, before and after initialization. *)
  Definition pre_keeps {T U} (mark : State m -> T) (label : Shared m -> U) (o : um_op m) : Prop :=
    match o with
    | UInnerMut f => forall sh, label (f sh) = label sh
    | UStateMut f => forall x, mark (f x) = mark x
    end.
  Definition use_keeps {T U} (mark : State m -> T) (label : Shared m -> U) (o : aim_op World m) : Prop :=
    match o with
    | AHandle _ => True
    | AInnerMut f => forall sh, label (f sh) = label sh
    | AStateMut f => forall x, mark (f x) = mark x
    end.
End Labels.

Section OneStep.
  Variable World : Type.
  Variable m : machine.
  Variable F : futures World m.
  Variable stack : nat.

  (** A client of a `StateMachine`: a call is polled and then dropped, or completes. *)
  Inductive asm_op : Type :=
  | SInit (cx : Ctx m) (polls : list World)
  | SHandle (c : polled_call World m)
  | SInnerMut (f : Shared m -> Shared m)
  | SStateMut (f : State m -> State m).
  Definition asm_exec (o : asm_op) (sm : state_machine m)
    : option (outcome unit) * state_machine m * list (event_of m) :=
    match o with
    | SInit cx polls =>
        let '(out, (sm', _), tr) := oexecute (o_init_with_context F stack) polls (sm, cx) in (out, sm', tr)
    | SHandle c =>
        let '(out, (sm', _), tr) :=
          oexecute (o_handle_with_context F stack (pc_event c)) (pc_polls c) (sm, pc_ctx c) in (out, sm', tr)
    | SInnerMut f => (Some (Ret tt), inner_mut f sm, [])
    | SStateMut f => (Some (Ret tt), state_mut f sm, [])
    end.
  Fixpoint asm_life (ops : list asm_op) (sm : state_machine m)
    : list (option (outcome unit)) * list (life_event m) :=
    match ops with
    | [] => ([], [DroppedStorage (sm_shared sm); Ev (Dropped (sm_state sm))])
    | o :: ops' =>
        let '(out, sm1, tr) := asm_exec o sm in
        let '(outs, evs) := asm_life ops' sm1 in (out :: outs, map Ev tr ++ evs)
    end.

  (** Uses of the typestate machines as uses of a `StateMachine`. *)
  Definition before_as (o : um_op m) : asm_op :=
    match o with UInnerMut f => SInnerMut f | UStateMut f => SStateMut f end.
  Definition use_as (o : aim_op World m) : asm_op :=
    match o with AHandle c => SHandle c | AInnerMut f => SInnerMut f | AStateMut f => SStateMut f end.
End OneStep.
