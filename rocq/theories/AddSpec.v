(** AddSpec.v — an impl block with further methods; vocabulary of C84.  No proofs here. *)

From Coq Require Import String List Bool.
From Verif Require Import MacroSyntax MacroLower MacroGen MacroSem MacroSpec.
From Verif Require Import Machine Api Sim.
Import ListNotations.
Open Scope string_scope.
Open Scope list_scope.
Set Implicit Arguments.

(** A state, a superstate or an action. *)
Definition part_of_machine (m : impl_fn) : Prop :=
  marked "state" m = true \/ marked "superstate" m = true \/ marked "action" m = true.
(** The states, superstates and actions of [item] are also in [item'], as they are.  Nothing is
    said about the other methods of either block, and nothing about their order. *)
Definition extends (item item' : item_impl) : Prop :=
  forall m, In m (methods item) -> part_of_machine m -> In m (methods item').

(** The same names for the event and the context, and the same hooks. *)
Record same_settings (g g' : generated) : Prop := {
  ss_event : g_event_ident g' = g_event_ident g;
  ss_context : g_context_ident g' = g_context_ident g;
  ss_before_transition : g_before_transition g' = g_before_transition g;
  ss_after_transition : g_after_transition g' = g_after_transition g;
  ss_before_dispatch : g_before_dispatch g' = g_before_dispatch g;
  ss_after_dispatch : g_after_dispatch g' = g_after_dispatch g
}.

(** Values of two enums: the same variant with the same contents. *)
Definition same_value Val (d d' : enum) (x : value Val d) (x' : value Val d') : Prop :=
  tag x' = tag x /\ vals x' = vals x.

Section Bodies.
  Variable item : item_impl.
  Variables Val Sh Ev Cx : Type.
  Variables g g' : generated.
  Variables (B : bodies Val Sh Ev Cx g) (B' : bodies Val Sh Ev Cx g').
  Notation same_state := (@same_value Val (g_state_variants g) (g_state_variants g')).
  Notation same_super := (@same_value Val (g_super_variants g) (g_super_variants g')).

  (** The functions of [item] do in the larger block what they do in the smaller one.  Nothing is
      said about the other functions of the larger block, nor about hooks that are given values
      of its other variants. *)
  Record same_bodies : Prop := {
    sb_handler : forall m args, In m (methods item) -> marked "state" m = true \/ marked "superstate" m = true ->
      reply_rel (response_rel same_state) (fst (b_handler B (m_name m) args)) (fst (b_handler B' (m_name m) args)) /\
      snd (b_handler B' (m_name m) args) = snd (b_handler B (m_name m) args);
    sb_action : forall m args, In m (methods item) -> marked "action" m = true ->
      b_action B' (m_name m) args = b_action B (m_name m) args;
    sb_dispatch_hook : forall p sh n n' e, node_rel same_state same_super n n' ->
      b_dispatch_hook B' p sh n' e = b_dispatch_hook B p sh n e;
    sb_transition_hook : forall p sh a a' b b', same_state a a' -> same_state b b' ->
      b_transition_hook B' p sh a' b' = b_transition_hook B p sh a b;
    sb_async : forall p, b_async B' p = b_async B p;
    sb_initial : same_state (b_initial B (g_initial g)) (b_initial B' (g_initial g'))
  }.

  Definition same_relations : relations (generated_machine B) (generated_machine B') :=
    Relations (generated_machine B) (generated_machine B') same_state same_super eq eq eq.
End Bodies.
