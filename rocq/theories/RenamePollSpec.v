(** RenamePollSpec.v — an impl block with `async fn`s, its methods and parameters renamed and
    reordered; vocabulary of C101 (see RenameSpec.v for [renamed_impl], [renamed_settings],
    [renamed_bodies], [renamed_relations] and PollSimSpec.v for [future_rel]).  No proofs here. *)

From Coq Require Import String List Bool.
From Verif Require Import MacroSyntax MacroLower MacroGen MacroSem MacroSpec MacroPoll.
From Verif Require Import Machine Api Poll Sim RenameSpec PollSimSpec.
Import ListNotations.
Open Scope string_scope.
Open Scope list_scope.
Set Implicit Arguments.

(** The renamed copy of an `async fn` is an `async fn`, and of another function it is not. *)
Definition async_kept (rho : ident -> ident) (item item' : item_impl) : Prop :=
  forall m m', In m (methods item) -> relevant m = true -> In m' (methods item') ->
    m_name m' = rho (m_name m) -> m_async m' = m_async m.

Section Bodies.
  Variables item item' : item_impl.
  Variable rho : ident -> ident.
  Variables World Val Sh Ev Cx : Type.
  Variables g g' : generated.
  Variables (FB : async_bodies World Val Sh Ev Cx g) (FB' : async_bodies World Val Sh Ev Cx g').
  Notation same_state := (@twin_states item item' rho Val g g').
  Notation same_super := (@twin_supers item item' rho Val g g').

  (** The renamed `async` functions do, poll by poll, what the functions did under the old names; and
      so do the hooks, given values of corresponding variants. *)
  Record renamed_async_bodies : Prop := {
    ra_handler : forall m, In m (methods item) -> m_async m = true ->
      marked "state" m = true \/ marked "superstate" m = true ->
      future_rel eq eq (response_rel same_state) (fb_handler FB (m_name m)) (fb_handler FB' (rho (m_name m)));
    ra_action : forall m, In m (methods item) -> m_async m = true -> marked "action" m = true ->
      future_rel eq eq eq (fb_action FB (m_name m)) (fb_action FB' (rho (m_name m)));
    ra_dispatch_hook : forall p n n' e, node_rel same_state same_super n n' ->
      future_rel eq eq eq (fb_dispatch_hook FB p n e) (fb_dispatch_hook FB' p n' e);
    ra_transition_hook : forall p a a' b b', same_state a a' -> same_state b b' ->
      future_rel eq eq eq (fb_transition_hook FB p a b) (fb_transition_hook FB' p a' b')
  }.
End Bodies.
