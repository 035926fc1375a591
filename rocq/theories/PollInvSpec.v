(** PollInvSpec.v — conditions on the shared storage and the context that every poll of every
    callback keeps; vocabulary of C105.  No proofs here. *)

From Coq Require Import List.
From Verif Require Import Machine Api Poll PollSimSpec.
Import ListNotations.
Set Implicit Arguments.

Section Inv.
  Variable W : Type.
  Variable m : machine.
  (** The condition. *)
  Variable I : Shared m -> Ctx m -> Prop.

  (** However often the future is polled, and whatever the world is then, the condition holds
      afterwards if it held before: whether the future is still pending (and is dropped), has
      panicked or is ready. *)
  Definition keeps_condition {X A} (f : ufut W (X * Shared m * Ctx m) A) : Prop :=
    forall w ws x sh cx, I sh cx ->
      let '(_, (_, sh', cx'), _) := udrive f w ws (x, sh, cx) in I sh' cx'.
  (** The hooks borrow the shared storage only; the context stays what it is. *)
  Definition hook_keeps_condition (f : ufut W (Shared m) unit) : Prop :=
    forall w ws sh cx, I sh cx -> let '(_, sh', _) := udrive f w ws sh in I sh' cx.

  Record callbacks_keep (F : futures W m) : Prop := {
    ck_s_handler : forall e, keeps_condition (f_s_handler F e);
    ck_s_entry : keeps_condition (f_s_entry F);
    ck_s_exit : keeps_condition (f_s_exit F);
    ck_u_handler : forall e, keeps_condition (f_u_handler F e);
    ck_u_entry : keeps_condition (f_u_entry F);
    ck_u_exit : keeps_condition (f_u_exit F);
    ck_before_dispatch : forall n e, hook_keeps_condition (f_before_dispatch F n e);
    ck_after_dispatch : forall n e, hook_keeps_condition (f_after_dispatch F n e);
    ck_before_transition : forall a b, hook_keeps_condition (f_before_transition F a b);
    ck_after_transition : forall a b, hook_keeps_condition (f_after_transition F a b)
  }.
End Inv.
Arguments keeps_condition {W m} I {X A} f.
Arguments hook_keeps_condition {W m} I f.
Arguments callbacks_keep {W m} I F.

(** A client that keeps a condition on the shared storage when it writes to it ([inner_mut]). *)
Definition op_keeps {W : Type} {m : machine} (J : Shared m -> Prop) (o : polled_op W m) : Prop :=
  match o with PolledInnerMut f => forall sh, J sh -> J (f sh) | _ => True end.
