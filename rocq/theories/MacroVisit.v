(** MacroVisit.v — macro/src/visitors.  No proofs here. *)

From Coq Require Import String List Bool Arith.
From Verif Require Import MacroSyntax.
Import ListNotations.
Open Scope string_scope.
Set Implicit Arguments.

(** ** lifetime_visitor.rs

    `Lifetime` has its name, without the apostrophe, in the field `ident`: `'_` has `ident`
    equal to "_".  The visitor compares with "'_". *)

(** :26-30 `visit_lifetime_mut`. *)
Definition visit_lifetime (new : ident) (l : ident) : ident :=
  if negb (l =? "'_") then new else l.

(** :32-38 `visit_type_reference_mut`, which does not visit the referenced type; everything
    else is syn's default traversal, which visits all parts. *)
Fixpoint rename_type (new : ident) (t : ty) : ty :=
  match t with
  | TReference (Some l) m e => TReference (Some (if l =? "'_" then new else l)) m e
  | TReference None m e => TReference (Some new) m e
  | TPath p args => TPath p (map (rename_part new) args)
  | TOther s parts => TOther s (map (rename_part new) parts)
  end
with rename_part (new : ident) (p : part) : part :=
  match p with
  | PartLifetime l => PartLifetime (visit_lifetime new l)
  | PartIdent i => PartIdent i
  | PartType t => PartType (rename_type new t)
  end.

(** ** generic_param_visitor.rs

    syn's default traversal of a type meets these identifiers and lifetimes. *)
Fixpoint type_idents (t : ty) : list ident :=
  match t with
  | TReference _ _ e => type_idents e
  | TPath p args => p ++ flat_map part_idents args
  | TOther _ parts => flat_map part_idents parts
  end
with part_idents (p : part) : list ident :=
  match p with
  | PartLifetime _ => []
  | PartIdent i => [i]
  | PartType t => type_idents t
  end.
Fixpoint type_lifetimes (t : ty) : list ident :=
  match t with
  | TReference l _ e => match l with Some l => [l] | None => [] end ++ type_lifetimes e
  | TPath _ args => flat_map part_lifetimes args
  | TOther _ parts => flat_map part_lifetimes parts
  end
with part_lifetimes (p : part) : list ident :=
  match p with
  | PartLifetime l => [l]
  | PartIdent _ => []
  | PartType t => type_lifetimes t
  end.

(** :33-46 `visit_ident`: the candidates that have this name. *)
Definition visit_ident (candidates : list generic_param) (i : ident) : list generic_param :=
  filter (fun p => match p with
                   | GType j _ => (j =? i)%string
                   | GConst j => (j =? i)%string
                   | GLifetime _ _ => false
                   end) candidates.
(** :48-51 `visit_lifetime`: a parameter without bounds of this name, candidate or not. *)
Definition visit_lifetime_param (l : ident) : generic_param := GLifetime l [].

(** :21-25 `search` on one argument: its pattern and its type (attributes have been removed
    or hold no identifiers of interest: not modelled). *)
Definition pat_idents (p : pat) : list ident := match p with PatIdent i => [i] | _ => [] end.
Definition search (candidates : list generic_param) (arg : pat_type) : list generic_param :=
  flat_map (visit_ident candidates) (pat_idents (pt_pat arg) ++ type_idents (pt_ty arg)) ++
  map visit_lifetime_param (type_lifetimes (pt_ty arg)).
