(** AsyncPollSpec.v — two impl blocks that differ in which functions are `async`, poll by poll;
    vocabulary of C102 (see AsyncSpec.v for [other_async], AddSpec.v for [same_value] and PollSimSpec.v
    for [future_rel]).  No proofs here. *)

From Coq Require Import String List Bool.
From Verif Require Import MacroSyntax MacroLower MacroGen MacroSem MacroSpec MacroPoll.
From Verif Require Import Machine Api Poll Sim AddSpec PollSimSpec AsyncSpec.
Import ListNotations.
Open Scope string_scope.
Open Scope list_scope.
Set Implicit Arguments.

(** What calling the method gives to the one who calls it in an `async` block: its future, if it is
    an `async fn`; and if not, it has run when it returns. *)
Definition method_future World A S (m : impl_fn) (run : ident -> S -> reply A * S) (fut : ident -> ufut World S A) : ufut World S A :=
  if m_async m then fut (m_name m) else at_once (run (m_name m)).

Section Bodies.
  Variables item item' : item_impl.
  Variables World Val Sh Ev Cx : Type.
  Variables g g' : generated.
  Variables (B : bodies Val Sh Ev Cx g) (B' : bodies Val Sh Ev Cx g').
  Variables (FB : async_bodies World Val Sh Ev Cx g) (FB' : async_bodies World Val Sh Ev Cx g').
  Notation same_state := (@same_value Val (g_state_variants g) (g_state_variants g')).
  Notation same_super := (@same_value Val (g_super_variants g) (g_super_variants g')).

  (** The methods do the same in the two blocks, poll by poll; and so do the hooks. *)
  Record same_when_polled : Prop := {
    sp_handler : forall m m', In m (methods item) -> In m' (methods item') -> same_but_async m m' ->
      marked "state" m = true \/ marked "superstate" m = true ->
      future_rel eq eq (response_rel same_state)
        (method_future m (b_handler B) (fb_handler FB)) (method_future m' (b_handler B') (fb_handler FB'));
    sp_action : forall m m', In m (methods item) -> In m' (methods item') -> same_but_async m m' ->
      marked "action" m = true ->
      future_rel eq eq eq
        (method_future m (b_action B) (fb_action FB)) (method_future m' (b_action B') (fb_action FB'));
    sp_dispatch_hook : forall p n n' e, node_rel same_state same_super n n' ->
      future_rel eq eq eq (fb_dispatch_hook FB p n e) (fb_dispatch_hook FB' p n' e);
    sp_transition_hook : forall p a a' b b', same_state a a' -> same_state b b' ->
      future_rel eq eq eq (fb_transition_hook FB p a b) (fb_transition_hook FB' p a' b');
    sp_initial : same_state (b_initial B (g_initial g)) (b_initial B' (g_initial g'))
  }.
End Bodies.
