(** AddPollSpec.v — an impl block with `async fn`s, and further methods added to it; vocabulary of
    C100 (see AddSpec.v for [extends], [same_settings], [same_bodies], [same_relations] and
    PollSimSpec.v for [future_rel]).  No proofs here. *)

From Coq Require Import String List Bool.
From Verif Require Import MacroSyntax MacroLower MacroGen MacroSem MacroSpec MacroPoll.
From Verif Require Import Machine Api Poll Sim AddSpec PollSimSpec.
Import ListNotations.
Open Scope string_scope.
Open Scope list_scope.
Set Implicit Arguments.

Section Bodies.
  Variable item : item_impl.
  Variables World Val Sh Ev Cx : Type.
  Variables g g' : generated.
  Variables (FB : async_bodies World Val Sh Ev Cx g) (FB' : async_bodies World Val Sh Ev Cx g').
  Notation same_state := (@same_value Val (g_state_variants g) (g_state_variants g')).
  Notation same_super := (@same_value Val (g_super_variants g) (g_super_variants g')).

  (** The `async` functions of [item] do in the larger block what they do in the smaller one, poll by
      poll; and so do the hooks, given values of the old variants. *)
  Record same_async_bodies : Prop := {
    sa_handler : forall m, In m (methods item) -> m_async m = true ->
      marked "state" m = true \/ marked "superstate" m = true ->
      future_rel eq eq (response_rel same_state) (fb_handler FB (m_name m)) (fb_handler FB' (m_name m));
    sa_action : forall m, In m (methods item) -> m_async m = true -> marked "action" m = true ->
      future_rel eq eq eq (fb_action FB (m_name m)) (fb_action FB' (m_name m));
    sa_dispatch_hook : forall p n n' e, node_rel same_state same_super n n' ->
      future_rel eq eq eq (fb_dispatch_hook FB p n e) (fb_dispatch_hook FB' p n' e);
    sa_transition_hook : forall p a a' b b', same_state a a' -> same_state b b' ->
      future_rel eq eq eq (fb_transition_hook FB p a b) (fb_transition_hook FB' p a' b')
  }.
End Bodies.
