(** RegroupSpec.v — an impl block from which a superstate that only groups others is taken away;
    vocabulary of C98.  No proofs here. *)

From Coq Require Import String List Bool.
From Verif Require Import MacroSyntax MacroAnalyze MacroLower MacroGen MacroSem MacroSpec.
From Verif Require Import Machine Blocking Awaitable Api Sim IdleSpec AddSpec.
Import ListNotations.
Open Scope string_scope.
Open Scope list_scope.
Set Implicit Arguments.

(** What was in [i] is now in [up]. *)
Definition moved_to (i : ident) (up o : option ident) : option ident :=
  match o with
  | Some j => if (j =? i)%string then up else Some j
  | None => None
  end.
(** The same method, but if its superstate was [i] it is now [up]. *)
Record moved_method (i : ident) (up : option ident) (m m' : impl_fn) : Prop := {
  mv_name : m_name m' = m_name m;
  mv_marks : forall kind, In kind ["state"; "superstate"; "action"] -> marked kind m' = marked kind m;
  mv_super : forall kind, In kind ["state"; "superstate"] ->
    declared kind "superstate" m' = moved_to i up (declared kind "superstate" m);
  mv_actions : forall kind key, In kind ["state"; "superstate"] -> In key ["entry_action"; "exit_action"] ->
    declared kind key m' = declared kind key m;
  mv_storage : forall kind, In kind ["state"; "superstate"] -> local_storage kind m' = local_storage kind m;
  mv_inputs : m_inputs m' = m_inputs m
}.
(** [i] is a superstate of [item] without actions; the other states, superstates and actions of
    [item] are in [item'], where those that were in [i] are in what [i] was in.  Nothing is said
    about further methods of [item'] (the method [i] may still be there) nor about their order. *)
Definition dissolved (i : ident) (item item' : item_impl) : Prop :=
  exists mi, In mi (methods item) /\ m_name mi = i /\
    marked "superstate" mi = true /\ marked "state" mi = false /\ marked "action" mi = false /\
    declared "superstate" "entry_action" mi = None /\ declared "superstate" "exit_action" mi = None /\
    forall m, In m (methods item) -> part_of_machine m -> m_name m <> i ->
      exists m', In m' (methods item') /\ moved_method i (declared "superstate" "superstate" mi) m m'.

(** The place of the variant of the superstate [i] in its enum. *)
Definition place_of (g : generated) (i : ident) : nat :=
  match position (fun v => (v_name v =? pascal i)%string) (g_super_variants g) with
  | Some n => n
  | None => length (g_super_variants g)
  end.

Section Bodies.
  Variable i : ident.
  Variable item : item_impl.
  Variables Val Sh Ev Cx : Type.
  Variables g g' : generated.
  Variables (B : bodies Val Sh Ev Cx g) (B' : bodies Val Sh Ev Cx g').
  Notation same_state := (@same_value Val (g_state_variants g) (g_state_variants g')).
  (** Superstates other than [i]. *)
  Definition same_super_but (u : value Val (g_super_variants g)) (u' : value Val (g_super_variants g')) : Prop :=
    same_value u u' /\ tag u <> pascal i.

  (** [i] always defers to its superstate, changing nothing, and the dispatch hooks do nothing
      when they are shown it. *)
  Record idle_method : Prop := {
    im_handler : forall args, b_handler B i args = (Returns Super, args);
    im_hook : forall p sh u e, tag u = pascal i -> b_dispatch_hook B p sh (NSuper u) e = (Returns tt, sh)
  }.
  (** The other functions do the same in both blocks. *)
  Record same_bodies_but : Prop := {
    bb_handler : forall m args, In m (methods item) -> m_name m <> i ->
      marked "state" m = true \/ marked "superstate" m = true ->
      reply_rel (response_rel same_state) (fst (b_handler B (m_name m) args)) (fst (b_handler B' (m_name m) args)) /\
      snd (b_handler B' (m_name m) args) = snd (b_handler B (m_name m) args);
    bb_action : forall m args, In m (methods item) -> m_name m <> i -> marked "action" m = true ->
      b_action B' (m_name m) args = b_action B (m_name m) args;
    bb_dispatch_hook : forall p sh n n' e, node_rel same_state same_super_but n n' ->
      b_dispatch_hook B' p sh n' e = b_dispatch_hook B p sh n e;
    bb_transition_hook : forall p sh a a' b b', same_state a a' -> same_state b b' ->
      b_transition_hook B' p sh a' b' = b_transition_hook B p sh a b;
    bb_async : forall p, b_async B' p = b_async B p;
    bb_initial : same_state (b_initial B (g_initial g)) (b_initial B' (g_initial g'))
  }.

  (** The machine of the block without [i], compared with that of [item] without [i]
      ([without], IdleSpec.v). *)
  Definition regrouped : relations (without (place_of g i) (generated_machine B)) (generated_machine B') :=
    Relations (without (place_of g i) (generated_machine B)) (generated_machine B') same_state same_super_but eq eq eq.
End Bodies.
