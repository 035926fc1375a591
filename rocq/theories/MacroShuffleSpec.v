(** MacroShuffleSpec.v — one impl block with its items in another order; vocabulary of C75. *)

From Coq Require Import String List Permutation.
From Verif Require Import MacroSyntax MacroLower MacroGen MacroOrderSpec.
Import ListNotations.

(** The same methods, constants, .. of the same type, declared in another order. *)
Definition shuffled (item item' : item_impl) : Prop :=
  i_self item = i_self item' /\ i_generics item = i_generics item' /\
  Permutation (i_items item) (i_items item').

(** An expansion with another copy of the user's impl block. *)
Definition with_impl (i : item_impl) (g : generated) : generated :=
  Generated i (g_mode g) (g_event_type g) (g_context_type g) (g_initial g)
            (g_before_transition g) (g_after_transition g) (g_before_dispatch g) (g_after_dispatch g)
            (g_visibility g) (g_state_ident g) (g_state_derives g) (g_state_generics g)
            (g_state_variants g) (g_constructors g) (g_state_arms g)
            (g_super_ident g) (g_super_derives g) (g_super_generics g) (g_super_variants g) (g_super_arms g)
            (g_event_ident g) (g_context_ident g).

(** The same code, up to the order of variants, constructors and arms (see [reordered]) and
    of the items of the user's impl block, which is part of the output. *)
Definition rearranged (g g' : generated) : Prop :=
  shuffled (g_impl g) (g_impl g') /\ reordered g (with_impl (g_impl g) g').
