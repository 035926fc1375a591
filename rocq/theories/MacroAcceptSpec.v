(** MacroAcceptSpec.v — which impl blocks `#[state_machine]` accepts; vocabulary of C48.
    Independent of how the macro checks. *)

From Coq Require Import String Ascii List Bool Arith Permutation.
From Verif Require Import MacroSyntax MacroSpec.
Import ListNotations.
Open Scope string_scope.
Open Scope list_scope.
Set Implicit Arguments.

(** ** What the Rust compiler guarantees anyway, and one restriction *)

Definition parameter_names (m : impl_fn) : list ident :=
  flat_map (fun p => match p with Typed (PatType _ (PatIdent i) _) => [i] | _ => [] end) (m_inputs m).
(** Methods have different names, and so have the parameters of a method; and no method has
    two attributes `#[state]`. *)
Record ordinary (item : item_impl) : Prop := {
  or_methods : NoDup (map m_name (methods item));
  or_parameters : forall m, In m (methods item) -> NoDup (parameter_names m);
  or_once : forall m before a between b after, In m (methods item) ->
    m_attrs m = before ++ a :: between ++ b :: after ->
    ~ (is_ident (meta_path a) "state" = true /\ is_ident (meta_path b) "state" = true)
}.

(** ** Arguments of `#[state_machine(..)]` *)

(** `key = "text"`, where the text is what the key asks for. *)
Definition sets {A} (parse : lit_str -> option A) (key : ident) (a : meta) : Prop :=
  exists s v, a = MetaNameValue [key] (VStr s) /\ parse s = Some v.
Definition proper_argument (a : meta) : Prop :=
  sets as_expr "initial" a \/
  sets as_ident "event_identifier" a \/
  sets as_ident "context_identifier" a \/
  sets as_path "before_transition" a \/
  sets as_path "after_transition" a \/
  sets as_path "before_dispatch" a \/
  sets as_path "after_dispatch" a \/
  sets as_visibility "visibility" a \/
  (exists t, a = MetaList ["state"] t) \/
  (exists t, a = MetaList ["superstate"] t).
(** Inside `state(..)` and `superstate(..)`: `name = "Identifier"` and `derive(paths)`. *)
Definition proper_enum_argument (a : meta) : Prop :=
  sets as_ident "name" a \/
  exists l s paths, a = MetaList ["derive"] (Tokens l s (Some paths)).
(** Of several `key(..)` only the last is looked at. *)
Definition contents (key : ident) (a : meta) : option tokens :=
  match a with
  | MetaList p t => if is_ident p key then Some t else None
  | _ => None
  end.
Definition proper_contents (key : ident) (args : list meta) : Prop :=
  forall t, last_of (contents key) args = Some t ->
    exists l s p, t = Tokens (Some l) s p /\ forall a, In a l -> proper_enum_argument a.

(** ** Methods *)

(** An identifier that can name a variant. *)
Definition good_variant (name : string) : Prop :=
  exists c rest, name = String c rest /\ is_number c = false /\
    ~ In "#"%char (list_ascii_of_string name) /\ name <> "Self".
(** All parameters except `self` are `identifier: type`. *)
Definition by_name (m : impl_fn) : Prop :=
  forall pt, In (Typed pt) (m_inputs m) -> exists i, pt_pat pt = PatIdent i.
Definition by_reference (m : impl_fn) : Prop :=
  forall pt, In (Typed pt) (m_inputs m) -> exists l mu t, pt_ty pt = TReference l mu t.
Definition exists_method (item : item_impl) (kind name : ident) : Prop :=
  exists m, In m (methods item) /\ marked kind m = true /\ m_name m = name.

(** State handlers ([kind] is "state") and superstate handlers ("superstate"). *)
Record proper_handler (item : item_impl) (kind : ident) (m : impl_fn) : Prop := {
  ph_generics : m_generics m = [];
  ph_names : by_name m;
  ph_references : by_reference m;
  ph_arguments : forall a, In a (arguments_of kind m) -> known_argument a = true -> well_formed_argument a;
  ph_variant : good_variant (variant_of m);
  ph_superstate : forall u, declared kind "superstate" m = Some u -> exists_method item "superstate" u;
  ph_entry : forall a, declared kind "entry_action" m = Some a -> exists_method item "action" a;
  ph_exit : forall a, declared kind "exit_action" m = Some a -> exists_method item "action" a
}.
(** The first `#[default]` of every parameter that is stored is `#[default]` or
    `#[default = "expression"]`. *)
Definition proper_defaults (ev cx : ident) (m : impl_fn) : Prop :=
  forall attrs i t d, In (Typed (PatType attrs (PatIdent i) t)) (m_inputs m) -> i <> ev -> i <> cx ->
    find (fun a => is_ident (meta_path a) "default") attrs = Some d ->
    (exists p, d = MetaPath p) \/ (exists p s e, d = MetaNameValue p (VStr s) /\ as_expr s = Some e).
Record proper_action (m : impl_fn) : Prop := {
  pa_generics : m_generics m = [];
  pa_names : by_name m
}.

(** ** The impl block *)

Definition is_path (t : ty) : Prop := exists p args, t = TPath p args /\ p <> [].
(** If there are type parameters, `where` clauses bound paths. *)
Definition proper_where (item : item_impl) : Prop :=
  forall i bounds t bs, In (GType i bounds) (g_params (i_generics item)) ->
    In (WhereType t bs) (g_where (i_generics item)) -> is_path t.

Record accepted (args : list meta) (item : item_impl) : Prop := {
  ac_self : exists p l, i_self item = TPath p l;
  ac_where : proper_where item;
  ac_arguments : forall a, In a args -> proper_argument a;
  ac_initial : exists a, In a args /\ sets as_expr "initial" a;
  ac_state : proper_contents "state" args;
  ac_superstate : proper_contents "superstate" args;
  ac_states : forall m, In m (methods item) -> marked "state" m = true ->
    proper_handler item "state" m /\
    proper_defaults (or_else (last_value as_ident "event_identifier" args) "event")
                    (or_else (last_value as_ident "context_identifier" args) "context") m;
  ac_superstates : forall m, In m (methods item) -> marked "superstate" m = true ->
    proper_handler item "superstate" m;
  ac_actions : forall m, In m (methods item) -> marked "action" m = true -> proper_action m
}.

(** ** Why the macro may panic, instead of giving a diagnostic *)
Inductive panic_cause (item : item_impl) : Prop :=
| pc_self : (forall p l, i_self item <> TPath p l) -> panic_cause item
| pc_where i bounds t bs : In (GType i bounds) (g_params (i_generics item)) ->
    In (WhereType t bs) (g_where (i_generics item)) -> ~ is_path t -> panic_cause item
| pc_variant m : is_handler item m -> ~ good_variant (variant_of m) -> panic_cause item
| pc_reference_pattern m pt : is_handler item m -> In (Typed pt) (m_inputs m) ->
    pt_pat pt = PatReference -> panic_cause item
| pc_action_pattern m pt : In m (methods item) -> marked "action" m = true -> In (Typed pt) (m_inputs m) ->
    (forall i, pt_pat pt <> PatIdent i) -> panic_cause item.

(** ** The user's impl block in the output *)

(** A parameter of a state handler: unchanged, or without the first `#[default]`, if it is
    stored and has one (the other attributes may be reordered). *)
Definition passed_parameter (ev cx : ident) (p p' : fn_arg) : Prop :=
  (p' = p /\ forall attrs i t d, p = Typed (PatType attrs (PatIdent i) t) -> i <> ev -> i <> cx ->
               find (fun a => is_ident (meta_path a) "default") attrs <> Some d) \/
  (exists attrs i t d attrs', p = Typed (PatType attrs (PatIdent i) t) /\ i <> ev /\ i <> cx /\
     find (fun a => is_ident (meta_path a) "default") attrs = Some d /\
     Permutation attrs (d :: attrs') /\ p' = Typed (PatType attrs' (PatIdent i) t)).
(** A method: unchanged, unless it is a state handler. *)
Definition passed_method (ev cx : ident) (m m' : impl_fn) : Prop :=
  (marked "state" m = false -> m' = m) /\
  (marked "state" m = true -> exists inputs, Forall2 (passed_parameter ev cx) (m_inputs m) inputs /\
     m' = ImplFn (m_attrs m) (m_name m) (m_generics m) (m_async m) inputs).
Definition passed_item (ev cx : ident) (a b : impl_item) : Prop :=
  match a, b with
  | ItemMethod m, ItemMethod m' => passed_method ev cx m m'
  | ItemOther s, ItemOther t => t = s
  | _, _ => False
  end.
