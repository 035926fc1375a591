(** TaskSpec.v — vocabulary of C88.  Specification only. *)

From Coq Require Import List Bool Arith.
From Verif Require Import Machine Api Spec Poll SuperSpec PaceSpec Tasks.
Import ListNotations.
Set Implicit Arguments.

(** The events handled one after the other with nothing in between; stops at a panic. *)
Fixpoint in_sequence {m : machine} (stack : nat) (es : list (Event m)) (sm : state_machine m) (cx : Ctx m)
  : api_res m (state_machine m) :=
  match es with
  | [] => ApiRes (Ret tt) sm cx []
  | e :: es' =>
      and_then (handle_with_context stack AwaitableMode sm e cx)
               (fun sm' cx' => in_sequence stack es' sm' cx')
  end.

Section Spec.
  Variable World : Type.

  (** How often a schedule polls the task [i]. *)
  Definition turns (i : nat) (schedule : list (nat * World)) : list World :=
    map snd (filter (fun p => fst p =? i) schedule).

  (** The callbacks of the job's machine are computed by its futures; each of these is pending at
      most [k] times. *)
  Record decent (k : nat) (j : job World) : Prop := {
    de_implements : implements (j_F j);
    de_hierarchy : exists h, well_formed h (j_m j) (j_stack j);
    de_lends : lends (j_m j);
    de_paced : paced (fun _ => 0) (fun _ => k) (j_F j)
  }.

  (** As many turns as the job can need. *)
  Definition enough (k : nat) (j : job World) : nat :=
    1 + length (j_events j) * (k * (6 * (j_stack j + 1) + 2)).
End Spec.
