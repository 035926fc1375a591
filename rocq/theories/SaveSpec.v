(** SaveSpec.v — a program that saves its machine and goes on with what it reads back; vocabulary
    of C70. *)

From Coq Require Import List Bool Arith.
From Verif Require Import Machine Api Spec Serde.
Import ListNotations.
Set Implicit Arguments.

Section Save.
  Variable m : machine.
  (** The user's implementations, in each format. *)
  Variable ser_shared : format -> Shared m -> result data.
  Variable ser_state : format -> State m -> result data.
  Variable de_shared : format -> data -> result (Shared m).
  Variable de_state : format -> data -> result (State m).
  Variable stack : nat.
  Variable md : mode.

  (** What the program does: it handles an event, or saves the machine in some format and replaces
      it by the one read back ([cx]: for `init`, where it is called). *)
  Inductive deed := Handles (e : Event m) (cx : Ctx m) | Restores (f : format) (cx : Ctx m).
  Definition events_of (ds : list deed) : list (Event m * Ctx m) :=
    flat_map (fun d => match d with Handles e cx => [(e, cx)] | Restores _ _ => [] end) ds.

  (** With a `StateMachine`, which is initialized again by the next `handle`; [None]: saving or
      restoring failed. *)
  Fixpoint session (sm : state_machine m) (ds : list deed) : option (state_machine m * list (called m)) :=
    match ds with
    | [] => Some (sm, [])
    | Handles e cx :: ds' =>
        let r := handle_with_context stack md sm e cx in
        option_map (fun z => (fst z, Called (a_out r) (Some (a_cx r)) (a_tr r) :: snd z)) (session (a_machine r) ds')
    | Restores f _ :: ds' =>
        match ser_sm m (ser_shared f) (ser_state f) f sm with
        | Ok d => match de_sm m (de_shared f) (de_state f) f d with
                  | Ok sm' => session sm' ds'
                  | Err _ => None
                  end
        | Err _ => None
        end
    end.
  (** With an `InitializedStateMachine`: read back as an `UninitializedStateMachine`, then `init`. *)
  Fixpoint typed_session (im : initialized_machine m) (ds : list deed)
    : option (initialized_machine m * list (called m)) :=
    match ds with
    | [] => Some (im, [])
    | Handles e cx :: ds' =>
        let r := im_handle_with_context stack md im e cx in
        option_map (fun z => (fst z, Called (a_out r) (Some (a_cx r)) (a_tr r) :: snd z)) (typed_session (a_machine r) ds')
    | Restores f cx :: ds' =>
        match ser_im m (ser_shared f) (ser_state f) f im with
        | Ok d => match de_um m (de_shared f) (de_state f) f d with
                  | Ok um => match um_init_with_context stack md um cx with
                             | (Ret im', _, _) => typed_session im' ds'
                             | (Abort _, _, _) => None
                             end
                  | Err _ => None
                  end
        | Err _ => None
        end
    end.

  (** Formats that the library reads back (C23, C44). *)
  Definition readable_format (f : format) : Prop :=
    layout_of f = Named \/ layout_of f = Tagged \/ layout_of f = Positional.
  Definition restores_readably (ds : list deed) : Prop :=
    Forall (fun d => match d with Restores f _ => readable_format f | Handles _ _ => True end) ds.
  (** Every storage and state can be serialized. *)
  Definition serializable : Prop :=
    (forall f sh, exists d, ser_shared f sh = Ok d) /\ (forall f x, exists d, ser_state f x = Ok d).
End Save.

(** Entry actions that change nothing; a superstate not written to is not written back. *)
Record quiet_entries (m : machine) : Prop := {
  qe_state : forall x sh cx, s_entry m x sh cx = (Returns tt, x, sh, cx);
  qe_super : forall u sh cx, u_entry m u sh cx = (Returns tt, u, sh, cx);
  qe_s_put : forall x v, s_super m x = Some v -> s_put m x v = x;
  qe_u_put : forall u v, u_super m u = Some v -> u_put m u v = u
}.

(** The same calls with the same results; the log of the one may have entries in front. *)
Definition same_call {m : machine} (c c' : called m) : Prop :=
  c_out c = c_out c' /\ c_cx c = c_cx c' /\
  exists t, forallb (@is_enter m) t = true /\ c_tr c = t ++ c_tr c'.

Arguments serializable {m}.
Arguments session {m}.
Arguments typed_session {m}.
Arguments Handles {m}.
Arguments Restores {m}.
