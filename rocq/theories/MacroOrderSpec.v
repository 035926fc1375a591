(** MacroOrderSpec.v — when two expansions of one impl block are the same; vocabulary of C35. *)

From Coq Require Import String Ascii List Bool Arith Permutation.
From Verif Require Import Machine Spec Sim MacroSyntax MacroLower MacroGen MacroSem.
Import ListNotations.
Open Scope string_scope.
Open Scope list_scope.
Set Implicit Arguments.

(** ** Two expansions of one impl block *)

(** The same code, with enum variants, constructors and match arms in another order.  (The
    event and context types are another matter.) *)
Record arms_reordered (a a' : arms) : Prop := {
  ar_handler : Permutation (call_handler_arms a) (call_handler_arms a');
  ar_entry : Permutation (call_entry_action_arms a) (call_entry_action_arms a');
  ar_exit : Permutation (call_exit_action_arms a) (call_exit_action_arms a');
  ar_superstate : Permutation (superstate_arms a) (superstate_arms a')
}.
Record reordered (g g' : generated) : Prop := {
  ro_impl : g_impl g' = g_impl g;
  ro_mode : g_mode g' = g_mode g;
  ro_initial : g_initial g' = g_initial g;
  ro_before_transition : g_before_transition g' = g_before_transition g;
  ro_after_transition : g_after_transition g' = g_after_transition g;
  ro_before_dispatch : g_before_dispatch g' = g_before_dispatch g;
  ro_after_dispatch : g_after_dispatch g' = g_after_dispatch g;
  ro_visibility : g_visibility g' = g_visibility g;
  ro_state_ident : g_state_ident g' = g_state_ident g;
  ro_state_derives : g_state_derives g' = g_state_derives g;
  ro_state_generics : g_state_generics g' = g_state_generics g;
  ro_state_variants : Permutation (g_state_variants g) (g_state_variants g');
  ro_constructors : Permutation (g_constructors g) (g_constructors g');
  ro_state_arms : arms_reordered (g_state_arms g) (g_state_arms g');
  ro_super_ident : g_super_ident g' = g_super_ident g;
  ro_super_derives : g_super_derives g' = g_super_derives g;
  ro_super_generics : g_super_generics g' = g_super_generics g;
  ro_super_variants : Permutation (g_super_variants g) (g_super_variants g');
  ro_super_arms : arms_reordered (g_super_arms g) (g_super_arms g');
  ro_event_ident : g_event_ident g' = g_event_ident g;
  ro_context_ident : g_context_ident g' = g_context_ident g
}.

(** The same value of the two enums: the same variant with the same fields. *)
Definition alike {Val d d'} (x : value Val d) (x' : value Val d') : Prop :=
  tag x = tag x' /\ vals x = vals x'.
Definition alike_node {Val d d' e e'} (n : node (value Val d) (value Val e)) (n' : node (value Val d') (value Val e'))
  : Prop :=
  match n, n' with
  | NState x, NState x' => alike x x'
  | NSuper u, NSuper u' => alike u u'
  | _, _ => False
  end.
Definition alike_reply {Val d d'} (r : reply (response (value Val d))) (r' : reply (response (value Val d'))) : Prop :=
  match r, r' with
  | Returns (Transition x), Returns (Transition x') => alike x x'
  | Returns Handled, Returns Handled | Returns Super, Returns Super => True
  | Panics, Panics | Cancelled, Cancelled => True
  | _, _ => False
  end.
(** The user's functions, compiled against either of the two: they do the same. *)
Record same_bodies (Val Sh Ev Cx : Type) (g g' : generated) (B : bodies Val Sh Ev Cx g) (B' : bodies Val Sh Ev Cx g')
  : Prop := {
  sb_handler : forall f args, alike_reply (fst (b_handler B f args)) (fst (b_handler B' f args)) /\
                              snd (b_handler B f args) = snd (b_handler B' f args);
  sb_action : forall f args, b_action B f args = b_action B' f args;
  sb_dispatch_hook : forall p sh n n' e, alike_node n n' -> b_dispatch_hook B p sh n e = b_dispatch_hook B' p sh n' e;
  sb_transition_hook : forall p sh x x' y y', alike x x' -> alike y y' ->
    b_transition_hook B p sh x y = b_transition_hook B' p sh x' y';
  sb_async : forall p, b_async B p = b_async B' p;
  sb_initial : forall e, alike (b_initial B e) (b_initial B' e)
}.

(** Everything but the order of declaration. *)
Definition alike_relations (Val Sh Ev Cx : Type) (g g' : generated) (B : bodies Val Sh Ev Cx g) (B' : bodies Val Sh Ev Cx g')
  : relations (generated_machine B) (generated_machine B') :=
  Relations (generated_machine B) (generated_machine B')
    (fun x x' => alike x x') (fun u u' => alike u u') eq eq eq.
Definition alike_option {Val d d'} (x : option (value Val d)) (x' : option (value Val d')) : Prop :=
  match x, x' with
  | Some v, Some v' => alike v v'
  | None, None => True
  | _, _ => False
  end.

(** ** Serialized states, as `#[derive(Serialize, Deserialize)]` on the generated enum does it:
    self-describing formats (JSON, ..) store the name of the variant, the others (bincode,
    postcard, ..) its number. *)
Definition by_name {Val d} (x : value Val d) : ident * list Val := (tag x, vals x).
Definition read_by_name {Val} (d : enum) (s : ident * list Val) : option (value Val d) := make d (fst s) (snd s).
Definition by_number {Val d} (x : value Val d) : nat * list Val := (discriminant x, vals x).
Definition read_by_number {Val} (d : enum) (s : nat * list Val) : option (value Val d) :=
  match nth_error d (fst s) with
  | Some v => make d (v_name v) (snd s)
  | None => None
  end.
