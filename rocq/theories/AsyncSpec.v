(** AsyncSpec.v — an impl block of which other functions are `async`; vocabulary of C97.  No
    proofs here. *)

From Coq Require Import String List Bool.
From Verif Require Import MacroSyntax MacroLower MacroGen MacroSem MacroSpec.
From Verif Require Import Machine Api.
Import ListNotations.
Open Scope string_scope.
Open Scope list_scope.
Set Implicit Arguments.

(** The same method, up to `async`. *)
Record same_but_async (m m' : impl_fn) : Prop := {
  sba_name : m_name m' = m_name m;
  sba_attrs : m_attrs m' = m_attrs m;
  sba_generics : m_generics m' = m_generics m;
  sba_inputs : m_inputs m' = m_inputs m
}.
(** The same impl block, except that other methods may be `async`. *)
Definition other_async (item item' : item_impl) : Prop :=
  i_self item' = i_self item /\ i_generics item' = i_generics item /\
  Forall2 same_but_async (methods item) (methods item').

(** No hooks are configured. *)
Definition no_hooks (args : list meta) : Prop :=
  last_value as_path "before_transition" args = None /\ last_value as_path "after_transition" args = None /\
  last_value as_path "before_dispatch" args = None /\ last_value as_path "after_dispatch" args = None.

(** The traits the generated code implements: blocking or awaitable. *)
Definition mode_of (g : generated) : mode :=
  match g_mode g with MBlocking => BlockingMode | MAwaitable => AwaitableMode end.
