(** DropPollSpec.v — futures that leave a mark on a state alone.  Specification only. *)

From Coq Require Import List Bool Arith.
From Verif Require Import Machine Api Poll Drops DropSpec.
Set Implicit Arguments.

Section Marks.
  Variable World : Type.
  Variable m : machine.
  Variable F : futures World m.
  Variable T : Type.
  Variable mark : State m -> T.

  (** However often the future of a handler or action is polled, and whether or not it gets
      ready, the state it works on keeps its mark; nor is it replaced through a superstate. *)
  Definition future_keeps {A} (f : ufut World (State m * Shared m * Ctx m) A) : Prop :=
    forall w ws x sh cx, mark (fst (fst (snd (fst (udrive f w ws (x, sh, cx)))))) = mark x.
  Record futures_keep_mark : Prop := {
    fk_handler : forall e, future_keeps (f_s_handler F e);
    fk_entry : future_keeps (f_s_entry F);
    fk_exit : future_keeps (f_s_exit F);
    fk_put : forall x v, mark (s_put m x v) = mark x
  }.
End Marks.
