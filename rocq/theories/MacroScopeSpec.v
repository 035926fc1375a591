(** MacroScopeSpec.v — when the names used in an annotated impl block fit together; vocabulary
    of C67.  About the source only. *)

From Coq Require Import String List Bool.
From Verif Require Import MacroSyntax MacroSpec.
Import ListNotations.
Open Scope string_scope.
Open Scope list_scope.
Set Implicit Arguments.

Section Scope.
  (** The names of the event and the context. *)
  Variables ev cx : ident.
  Variable item : item_impl.

  Definition has_parameter (m : impl_fn) (i : ident) : Prop := exists p, In p (m_inputs m) /\ names i p.
  (** The state-local storage of the handler [m]: its parameters but the event and the context,
      and its `local_storage`. *)
  Definition keeps (kind : ident) (m : impl_fn) (f : ident) : Prop :=
    (has_parameter m f /\ f <> ev /\ f <> cx) \/ In f (map f_name (local_storage kind m)).

  (** How the generated code passes the parameters: `self` is `shared_storage` there. *)
  Definition passed_as (p : fn_arg) : list ident :=
    match p with
    | Receiver => ["shared_storage"]
    | Typed (PatType _ (PatIdent i) _) => [i]
    | _ => []
    end.
  Definition distinct_arguments (m : impl_fn) : Prop := NoDup (flat_map passed_as (m_inputs m)).

  (** The action [ma] finds its arguments in the node of [m]. *)
  Definition action_fits (kind : ident) (m ma : impl_fn) : Prop :=
    distinct_arguments ma /\
    forall i, has_parameter ma i -> keeps kind m i \/ i = cx \/ i = "shared_storage".
  (** The superstate [mu] can borrow its storage from the node of [m]. *)
  Definition superstate_fits (kind : ident) (m mu : impl_fn) : Prop :=
    forall f, keeps "superstate" mu f -> keeps kind m f.

  Record node_fits (kind : ident) (m : impl_fn) : Prop := {
    nf_handler : distinct_arguments m;
    nf_actions : forall key ma, key = "entry_action" \/ key = "exit_action" ->
      In ma (methods item) -> marked "action" ma = true -> declared kind key m = Some (m_name ma) ->
      action_fits kind m ma;
    nf_superstate : forall mu,
      In mu (methods item) -> marked "superstate" mu = true -> declared kind "superstate" m = Some (m_name mu) ->
      superstate_fits kind m mu
  }.
  Definition distinct_variants (kind : ident) : Prop :=
    forall m m', In m (methods item) -> marked kind m = true -> In m' (methods item) -> marked kind m' = true ->
      variant_of m = variant_of m' -> m = m'.

  Record well_scoped : Prop := {
    ws_methods : NoDup (map m_name (methods item));
    ws_states : distinct_variants "state";
    ws_superstates : distinct_variants "superstate";
    ws_names : ev <> cx /\ ev <> "shared_storage" /\ cx <> "shared_storage";
    ws_nodes : forall kind m, kind = "state" \/ kind = "superstate" ->
      In m (methods item) -> marked kind m = true -> node_fits kind m
  }.

  (** No name hides another. *)
  Record nothing_hidden : Prop := {
    nh_storage : forall kind m f, kind = "state" \/ kind = "superstate" ->
      In m (methods item) -> marked kind m = true -> In f (map f_name (local_storage kind m)) ->
      f <> "shared_storage" /\ f <> ev /\ f <> cx;
    nh_parameters : forall m, In m (methods item) -> ~ has_parameter m "shared_storage"
  }.
End Scope.
Definition event_name (args : list meta) : ident := or_else (last_value as_ident "event_identifier" args) "event".
Definition context_name (args : list meta) : ident := or_else (last_value as_ident "context_identifier" args) "context".
