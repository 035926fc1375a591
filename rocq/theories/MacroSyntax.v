(** MacroSyntax.v — the part of Rust's syntax tree (crate `syn`) that the procedural macro
    `statig_macro` (/repo/macro/src) looks at, and the outcome of running the macro.
    No proofs here. *)

From Coq Require Import String Ascii List Bool Arith Permutation.
Import ListNotations.
Open Scope string_scope.
Set Implicit Arguments.

(** `syn::Ident`, and `syn::Lifetime` without its apostrophe (its field `ident`). *)
Definition ident := string.
(** `syn::Path`, without generic arguments. *)
Definition path := list ident.
(** `Path::is_ident`. *)
Definition is_ident (p : path) (s : ident) : bool :=
  match p with
  | [i] => (i =? s)%string
  | _ => false
  end.

(** `syn::Expr` and `syn::Visibility`: opaque source text. *)
Inductive expr : Type := Expr (text : string).
Definition visibility := string.

(** `syn::Type`.  Every type other than a reference or a path ([TOther]: tuple, slice, array,
    pointer, trait object, ...) is given by a name for its shape and its parts, in source
    order.  Simplification: generic arguments of a path are those of its last segment (the
    visitors do not distinguish segments). *)
Inductive ty : Type :=
| TReference (lifetime : option ident) (mutable : bool) (elem : ty)
| TPath (segments : path) (args : list part)
| TOther (shape : string) (parts : list part)
with part : Type :=
| PartLifetime (l : ident)
| PartIdent (i : ident)
| PartType (t : ty).

Definition unit_type : ty := TOther "tuple" [].

(** `syn::Field`, named. *)
Record field : Type := Field { f_name : ident; f_ty : ty }.

(** `syn::LitStr`, given by what syn's parsers make of its contents ([None]: syntax error). *)
Record lit_str : Type := LitStr {
  as_ident : option ident;
  as_expr : option expr;
  as_path : option path;
  as_visibility : option visibility;
  as_field : option field
}.

(** `syn::Meta`.  The token stream of a list is again given by what the parsers used by the
    macro make of it. *)
Inductive meta : Type :=
| MetaPath (p : path)
| MetaList (p : path) (t : tokens)
| MetaNameValue (p : path) (v : literal)
with tokens : Type :=
| Tokens (as_metas : option (list meta)) (as_strings : option (list lit_str))
         (as_paths : option (list path))
with literal : Type :=
| VStr (s : lit_str)
| VOther.

Definition meta_path (m : meta) : path :=
  match m with MetaPath p | MetaList p _ | MetaNameValue p _ => p end.

(** `syn::Pat`, `syn::PatType`, `syn::FnArg`. *)
Inductive pat : Type :=
| PatIdent (i : ident)
| PatReference
| PatTuple
| PatTupleStruct
| PatStruct
| PatWild
| PatOther.
Record pat_type : Type := PatType { pt_attrs : list meta; pt_pat : pat; pt_ty : ty }.
Inductive fn_arg : Type :=
| Receiver
| Typed (p : pat_type).

(** `syn::GenericParam`, `syn::WherePredicate`, `syn::Generics`. *)
Inductive generic_param : Type :=
| GLifetime (l : ident) (bounds : list ident)
| GType (i : ident) (bounds : list string)
| GConst (i : ident).
Inductive predicate : Type :=
| WhereType (bounded : ty) (bounds : list string)
| WhereLifetime (l : ident) (bounds : list ident).
Record generics : Type := Generics {
  g_params : list generic_param;
  g_where : list predicate
}.

(** `syn::ImplItemFn` without its body, and `syn::ItemImpl`. *)
Record impl_fn : Type := ImplFn {
  m_attrs : list meta;
  m_name : ident;
  m_generics : list generic_param;
  m_async : bool;
  m_inputs : list fn_arg
}.
Inductive impl_item : Type :=
| ItemMethod (m : impl_fn)
| ItemOther (text : string).
Record item_impl : Type := ItemImpl {
  i_self : ty;
  i_generics : generics;
  i_items : list impl_item
}.
Definition methods (i : item_impl) : list impl_fn :=
  flat_map (fun it => match it with ItemMethod m => [m] | ItemOther _ => [] end) (i_items i).

(** How running the macro ends: with output, with a diagnostic (`abort!`), or with a panic
    of the macro itself.  The compiler reports the last two as errors. *)
Inductive expansion (A : Type) : Type :=
| Done (a : A)
| Rejected (message : string)
| Crashed (message : string).
Arguments Done {A}.
Arguments Rejected {A}.
Arguments Crashed {A}.

Definition ebind {A B} (c : expansion A) (k : A -> expansion B) : expansion B :=
  match c with
  | Done a => k a
  | Rejected s => Rejected s
  | Crashed s => Crashed s
  end.
Notation "'do' x <- c ; k" := (ebind c (fun x => k))
  (at level 61, x name, c at next level, right associativity).
Notation "'do' ' x <- c ; k" := (ebind c (fun x => k))
  (at level 61, x strict pattern, c at next level, right associativity).

(** A loop over [l] that collects results / that threads a value. *)
Fixpoint emap {A B} (f : A -> expansion B) (l : list A) : expansion (list B) :=
  match l with
  | [] => Done []
  | a :: l' => do b <- f a; do bs <- emap f l'; Done (b :: bs)
  end.
Fixpoint efold {A S} (f : S -> A -> expansion S) (s : S) (l : list A) : expansion S :=
  match l with
  | [] => Done s
  | a :: l' => do s' <- f s a; efold f s' l'
  end.

(** ** `std::collections::HashMap<Ident, T>`

    Association lists with distinct keys; the order in which a map is iterated is arbitrary
    (an [order] given from outside), but the same for every iteration of one map. *)
Definition hash_map (T : Type) := list (ident * T).
Fixpoint hm_get {T} (k : ident) (m : hash_map T) : option T :=
  match m with
  | [] => None
  | (k', v) :: m' => if (k =? k')%string then Some v else hm_get k m'
  end.
Fixpoint hm_insert {T} (k : ident) (v : T) (m : hash_map T) : hash_map T :=
  match m with
  | [] => [(k, v)]
  | (k', v') :: m' => if (k =? k')%string then (k', v) :: m' else (k', v') :: hm_insert k v m'
  end.
Record order : Type := Order {
  arrange : forall T, hash_map T -> hash_map T;
  arrange_same : forall T (m : hash_map T), Permutation m (arrange m)
}.
Arguments arrange _ {T}.
(** `HashMap::values`. *)
Definition hm_values {T} (o : order) (m : hash_map T) : list T := map snd (arrange o m).
(** `HashMap::iter().map(f).collect()`. *)
Definition hm_map {T U} (o : order) (f : T -> expansion U) (m : hash_map T)
  : expansion (hash_map U) :=
  emap (fun kv => do u <- f (snd kv); Done (fst kv, u)) (arrange o m).
