(** RenameSpec.v — one impl block with its methods and parameters renamed and reordered; vocabulary of C82.  No
    proofs here. *)

From Coq Require Import String List Bool Permutation.
From Verif Require Import MacroSyntax MacroLower MacroGen MacroSem MacroSpec.
From Verif Require Import Machine Api Sim.
Import ListNotations.
Open Scope string_scope.
Open Scope list_scope.
Set Implicit Arguments.

(** A state, a superstate or an action. *)
Definition relevant (m : impl_fn) : bool := existsb (fun kind => marked kind m) ["state"; "superstate"; "action"].

Section Rename.
  (** New names of methods, and of parameters and fields. *)
  Variables rho sigma : ident -> ident.

  Definition renamed_param (p p' : fn_arg) : Prop :=
    match p, p' with
    | Receiver, Receiver => True
    | Typed pt, Typed pt' => exists i, pt_pat pt = PatIdent i /\ pt_pat pt' = PatIdent (sigma i)
    | _, _ => False
    end.
  (** The same method under a new name: marked in the same way, referring to the same superstate
      and actions by their new names, with the same parameters and fields under their new
      names. *)
  Record renamed_method (m m' : impl_fn) : Prop := {
    rn_name : m_name m' = rho (m_name m);
    rn_marks : forall kind, In kind ["state"; "superstate"; "action"] -> marked kind m' = marked kind m;
    rn_declared : forall kind key, In kind ["state"; "superstate"] ->
      In key ["superstate"; "entry_action"; "exit_action"] ->
      declared kind key m' = option_map rho (declared kind key m);
    rn_storage : forall kind, In kind ["state"; "superstate"] ->
      map f_name (local_storage kind m') = map sigma (map f_name (local_storage kind m));
    rn_inputs : Forall2 renamed_param (m_inputs m) (m_inputs m')
  }.
  (** The states, superstates and actions of [item], renamed, are in [item'].  They may have been
      put into another order, and [item'] may have further methods. *)
  Definition renamed_impl (item item' : item_impl) : Prop :=
    exists ms more, Forall2 renamed_method (filter relevant (methods item)) ms /\
                    Permutation (ms ++ more) (methods item').
  (** Distinct names stay distinct, and `self` stays `self`. *)
  Definition proper : Prop :=
    (forall i j, sigma i = sigma j -> i = j) /\ sigma "shared_storage" = "shared_storage".

  (** The event and the context are called by their new names, and the hooks are the same. *)
  Record renamed_settings (g g' : generated) : Prop := {
    rs_event : g_event_ident g' = sigma (g_event_ident g);
    rs_context : g_context_ident g' = sigma (g_context_ident g);
    rs_before_transition : g_before_transition g' = g_before_transition g;
    rs_after_transition : g_after_transition g' = g_after_transition g;
    rs_before_dispatch : g_before_dispatch g' = g_before_dispatch g;
    rs_after_dispatch : g_after_dispatch g' = g_after_dispatch g
  }.

  (** Values of the variants of a method and of the renamed method, with the same contents. *)
  Definition twins (item item' : item_impl) (kind : ident) Val d d' (x : value Val d) (x' : value Val d') : Prop :=
    exists m m', In m (methods item) /\ In m' (methods item') /\ m_name m' = rho (m_name m) /\ marked kind m = true /\
      tag x = variant_of m /\ tag x' = variant_of m' /\ vals x' = vals x.
End Rename.

Section Bodies.
  Variables item item' : item_impl.
  Variable rho : ident -> ident.
  Variables Val Sh Ev Cx : Type.
  Variables g g' : generated.
  Variables (B : bodies Val Sh Ev Cx g) (B' : bodies Val Sh Ev Cx g').
  Definition twin_states (x : value Val (g_state_variants g)) (x' : value Val (g_state_variants g')) : Prop :=
    twins rho item item' "state" x x'.
  Definition twin_supers (x : value Val (g_super_variants g)) (x' : value Val (g_super_variants g')) : Prop :=
    twins rho item item' "superstate" x x'.

  (** The user's functions do the same, with the new names. *)
  Record renamed_bodies : Prop := {
    rb_handler : forall m args, In m (methods item) -> marked "state" m = true \/ marked "superstate" m = true ->
      reply_rel (response_rel twin_states) (fst (b_handler B (m_name m) args)) (fst (b_handler B' (rho (m_name m)) args)) /\
      snd (b_handler B' (rho (m_name m)) args) = snd (b_handler B (m_name m) args);
    rb_action : forall m args, In m (methods item) -> marked "action" m = true ->
      b_action B' (rho (m_name m)) args = b_action B (m_name m) args;
    rb_dispatch_hook : forall p sh n n' e, node_rel twin_states twin_supers n n' ->
      b_dispatch_hook B' p sh n' e = b_dispatch_hook B p sh n e;
    rb_transition_hook : forall p sh a a' b b', twin_states a a' -> twin_states b b' ->
      b_transition_hook B' p sh a' b' = b_transition_hook B p sh a b;
    rb_async : forall p, b_async B' p = b_async B p;
    rb_initial : twin_states (b_initial B (g_initial g)) (b_initial B' (g_initial g'))
  }.

  Definition renamed_relations : relations (generated_machine B) (generated_machine B') :=
    Relations (generated_machine B) (generated_machine B') twin_states twin_supers eq eq eq.
End Bodies.
