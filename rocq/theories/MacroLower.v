(** MacroLower.v — macro/src/lower.rs.  No proofs here. *)

From Coq Require Import String Ascii List Bool Arith.
From Verif Require Import MacroSyntax MacroVisit MacroAnalyze.
Import ListNotations.
Open Scope string_scope.
Open Scope list_scope.
Set Implicit Arguments.

(** ** Generated code *)

(** `syn::Variant` with named fields. *)
Record variant : Type := Variant { v_name : ident; v_fields : list field }.
(** `Enum::Variant { fields }`, as a pattern or as an expression. *)
Record pattern : Type := Pattern { p_enum : ident; p_variant : ident; p_fields : list ident }.
(** The expressions that occur as handler and action calls: `{}` and
    `Path::f(args)`, with or without `.await`. *)
Inductive code : Type :=
| EmptyBlock
| Call (target : path) (f : ident) (args : list ident) (awaited : bool).
(** `#name`, `#name: Default::default()`, `#name: #value` in a struct literal. *)
Inductive field_value : Type :=
| FvArgument (i : ident)
| FvDefault (i : ident)
| FvExpr (i : ident) (value : expr).
(** `fn #name(#args) -> Self { Self::#variant { #values } }`. *)
Record constructor : Type := Constructor {
  n_name : ident;
  n_args : list field;
  n_variant : ident;
  n_values : list field_value
}.

(** :84-104 `struct State`, :106-127 `struct Superstate`, :129-134 `struct Action`,
    :136-140 `enum Mode`. *)
Record l_state : Type := LState {
  ls_variant : variant;
  ls_pat : pattern;
  ls_handler : code;
  ls_entry : code;
  ls_exit : code;
  ls_super : option pattern;
  ls_constructor : constructor
}.
Record l_super : Type := LSuper {
  lu_variant : variant;
  lu_pat : pattern;
  lu_handler : code;
  lu_entry : code;
  lu_exit : code;
  lu_super : option pattern
}.
Definition l_action := code.
Inductive macro_mode : Type := MBlocking | MAwaitable.

(** :20-32 `struct Ir` and :34-81 `struct StateMachine`. *)
Record ir : Type := Ir {
  ir_impl : item_impl;
  ir_config : config;
  ir_event_type : ty;
  ir_context_type : ty;
  ir_state_generics : list generic_param;
  ir_super_generics : list generic_param;
  ir_mode : macro_mode;
  ir_states : hash_map l_state;
  ir_supers : hash_map l_super
}.

(** ** :737-746 `snake_case_to_pascal_case`

    Simplification: identifiers are ASCII ([upper] changes a-z only). *)
Definition upper (c : ascii) : ascii :=
  let n := nat_of_ascii c in
  if (Nat.leb 97 n && Nat.leb n 122)%bool then ascii_of_nat (n - 32) else c.
(** `str::split('_')`. *)
Fixpoint split_underscore (s : string) : list string :=
  match s with
  | EmptyString => [EmptyString]
  | String c s' =>
      if (c =? "_")%char then EmptyString :: split_underscore s'
      else match split_underscore s' with
           | [] => [String c EmptyString]
           | w :: ws => String c w :: ws
           end
  end.
Definition capitalize (s : string) : string :=
  match s with
  | EmptyString => EmptyString
  | String c s' => String (upper c) s'
  end.
Definition pascal (s : string) : string := String.concat "" (map capitalize (split_underscore s)).
(** `format_ident!("{}", pascal)` and its later use as the name of a variant: panics unless
    it is an identifier. *)
Definition is_digit (c : ascii) : bool :=
  let n := nat_of_ascii c in (Nat.leb 48 n && Nat.leb n 57)%bool.
Fixpoint has_char (c : ascii) (s : string) : bool :=
  match s with
  | EmptyString => false
  | String c' s' => (c =? c')%char || has_char c s'
  end.
Definition variant_ident (s : ident) : expansion ident :=
  match pascal s with
  | EmptyString => Crashed "Ident is not allowed to be empty"
  | String c w =>
      if is_digit c then Crashed "not a valid Ident"
      else if has_char "#" (String c w) then Crashed "not a valid Ident"
      else if (String c w =? "Self")%string then Crashed "expected identifier, found keyword"
      else Done (String c w)
  end.

(** ** :645-653 `fn_arg_to_ident`, :655-670 `fn_arg_to_state_field`,
    :672-690 `fn_arg_to_superstate_field` *)
Definition not_verified {A} : expansion A := Crashed "all patterns should be verified to be idents".
Definition fn_arg_to_ident (a : fn_arg) : expansion ident :=
  match a with
  | Receiver => Done "shared_storage"
  | Typed pt =>
      match pt_pat pt with
      | PatIdent i => Done i
      | _ => not_verified
      end
  end.
Definition to_field (pt : pat_type) (t : ty) : expansion field :=
  match pt_pat pt with
  | PatIdent i => Done (Field i t)
  | _ => not_verified
  end.
Definition fn_arg_to_state_field (pt : pat_type) : expansion field :=
  match pt_ty pt with
  | TReference _ _ t => to_field pt t
  | _ => Rejected "input must be passed as a reference"
  end.
Definition superstate_lifetime : ident := "sub".
Definition fn_arg_to_superstate_field (pt : pat_type) : expansion field :=
  match pt_ty pt with
  | TReference _ m t => to_field pt (TReference (Some superstate_lifetime) m t)
  | _ => Rejected "input must be passed as a reference"
  end.

(** :480-487 and :564-571: a `local_storage` entry replaces the first field of its name or
    is added at the end. *)
Fixpoint add_field (fields : list field) (f : field) : list field :=
  match fields with
  | [] => [f]
  | g :: fields' =>
      if (f_name g =? f_name f)%string then f :: fields' else g :: add_field fields' f
  end.

(** :490-510: which fields the constructor takes, and what it fills in. *)
Definition find_default (ds : list storage_default) (i : ident) : option storage_default :=
  find (fun d => (i =? default_ident d)%string) ds.
Definition constructor_args (ds : list storage_default) (fields : list field) : list field :=
  filter (fun f => match find_default ds (f_name f) with Some _ => false | None => true end)
         fields.
Definition constructor_value (ds : list storage_default) (f : field) : field_value :=
  match find_default ds (f_name f) with
  | Some (DefaultEmpty i) => FvDefault i
  | Some (DefaultValue i e) => FvExpr i e
  | None => FvArgument (f_name f)
  end.

(** :463-544 `lower_state`. *)
Definition lower_state (c : config) (s : a_state) : expansion l_state :=
  do name <- variant_ident (as_name s);
  do fields0 <- emap fn_arg_to_state_field (as_state_inputs s);
  let fields := fold_left add_field (as_storage s) fields0 in
  do inputs <- emap fn_arg_to_ident (as_inputs s);
  Done (LState (Variant name fields)
               (Pattern (c_state_ident c) name (map f_name fields))
               (Call (c_shared_path c) (as_name s) inputs (as_async s))
               EmptyBlock EmptyBlock None
               (Constructor (as_name s) (constructor_args (as_defaults s) fields) name
                            (map (constructor_value (as_defaults s)) fields))).

(** :546-603 `lower_superstate`. *)
Definition lower_superstate (c : config) (u : a_super) : expansion l_super :=
  do name <- variant_ident (au_name u);
  do fields0 <- emap fn_arg_to_superstate_field (au_state_inputs u);
  let fields := fold_left add_field (au_storage u) fields0 in
  do inputs <- emap fn_arg_to_ident (au_inputs u);
  Done (LSuper (Variant name fields)
               (Pattern (c_super_ident c) name (map f_name fields))
               (Call (c_shared_path c) (au_name u) inputs (au_async u))
               EmptyBlock EmptyBlock None).

(** :605-643 `lower_action` (`call_inputs` is computed and never used; it panics on the same
    inputs as `handler_inputs`). *)
Definition lower_action (c : config) (a : a_action) : expansion l_action :=
  do inputs <- emap fn_arg_to_ident (aa_inputs a);
  Done (Call (c_shared_path c) (aa_name a) inputs (aa_async a)).

(** ** Linking, :187-264 *)
Definition link_action (actions : hash_map l_action) (declared : option ident) (old : code)
    (message : string) : expansion code :=
  match declared with
  | None => Done old
  | Some a =>
      match hm_get a actions with
      | Some call => Done call
      | None => Rejected message
      end
  end.
Definition link_super (supers : hash_map l_super) (declared : option ident)
    (old : option pattern) : expansion (option pattern) :=
  match declared with
  | None => Done old
  | Some u =>
      match hm_get u supers with
      | Some s => Done (Some (lu_pat s))
      | None => Rejected "superstate not found"
      end
  end.
(** :188-224, one iteration; [mo_states] is looked up again by key. *)
Definition link_state (mo : model) (supers : hash_map l_super) (actions : hash_map l_action)
    (key : ident) (s : l_state) : expansion l_state :=
  let a := hm_get key (mo_states mo) in
  let declared (f : a_state -> option ident) := match a with Some a => f a | None => None end in
  do sup <- link_super supers (declared as_superstate) (ls_super s);
  do entry <- link_action actions (declared as_entry) (ls_entry s) "entry action not found";
  do exit <- link_action actions (declared as_exit) (ls_exit s) "exit action not found";
  Done (LState (ls_variant s) (ls_pat s) (ls_handler s) entry exit sup (ls_constructor s)).
(** :228-264, one iteration. *)
Definition link_superstate (mo : model) (supers : hash_map l_super)
    (actions : hash_map l_action) (key : ident) (s : l_super) : expansion l_super :=
  let a := hm_get key (mo_supers mo) in
  let declared (f : a_super -> option ident) := match a with Some a => f a | None => None end in
  do sup <- link_super supers (declared au_superstate) (lu_super s);
  do entry <- link_action actions (declared au_entry) (lu_entry s) "action not found";
  do exit <- link_action actions (declared au_exit) (lu_exit s) "action not found";
  Done (LSuper (lu_variant s) (lu_pat s) (lu_handler s) entry exit sup).

(** ** Event and context types, :266-367 *)
Definition referenced (message : string) (pt : pat_type) : expansion ty :=
  match pt_ty pt with
  | TReference _ _ t => Done t
  | _ => Rejected message
  end.
(** :272-287 and the three blocks like it: the type of the argument found by `analyze`, which
    checks again that its pattern is the identifier. *)
Definition find_type (name : ident) (message : string) (old : option ty) (arg : option pat_type)
  : expansion (option ty) :=
  match arg with
  | Some pt =>
      match pt_pat pt with
      | PatIdent i =>
          if (name =? i)%string then do t <- referenced message pt; Done (Some t)
          else Done old
      | _ => Done old
      end
  | None => Done old
  end.
Record types : Type := Types { x_mode : macro_mode; x_event : option ty; x_context : option ty }.
Definition find_types (c : config) (x : types) (a : option pat_type * option pat_type * bool)
  : expansion types :=
  let '(ev, cx, is_async) := a in
  do e <- find_type (c_event_ident c) "event must be passed in as a reference" (x_event x) ev;
  do k <- find_type (c_context_ident c) "context must be passed in as a reference" (x_context x) cx;
  Done (Types (if is_async then MAwaitable else x_mode x) e k).

(** ** Generics, :369-431 and :692-735 *)
(** :692-697 `get_generic_argument_ident`. *)
Definition get_generic_argument_ident (t : ty) : expansion ident :=
  match t with
  | TPath p _ =>
      match rev p with
      | i :: _ => Done i
      | [] => Crashed "called `Option::unwrap()` on a `None` value"
      end
  | _ => Crashed "can not get ident of shared storage"
  end.
(** :699-711 `predicate_bounded_to_param`. *)
Definition predicate_bounded_to_param (w : predicate) (p : generic_param) : expansion bool :=
  match w, p with
  | WhereType t _, GType i _ => do j <- get_generic_argument_ident t; Done (j =? i)%string
  | WhereLifetime l _, GLifetime l' _ => Done (l =? l')%string
  | _, _ => Done false
  end.
(** :713-735 `map_generics`; only its panics matter here: where clauses are copied to the
    enums' generics, but never printed (codegen.rs:179,352 take the first component of
    `split_for_impl` only). *)
Definition map_generics (g : generics) : expansion (list generic_param) :=
  emap (fun p => do _ <- emap (fun w => predicate_bounded_to_param w p) (g_where g); Done p)
       (g_params g).
Definition eqb_idents (a b : list ident) : bool :=
  if list_eq_dec string_dec a b then true else false.
Definition eqb_param (a b : generic_param) : bool :=
  match a, b with
  | GLifetime l bs, GLifetime l' bs' => (l =? l')%string && eqb_idents bs bs'
  | GType i bs, GType i' bs' => (i =? i')%string && eqb_idents bs bs'
  | GConst i, GConst i' => (i =? i')%string
  | _, _ => false
  end.
Definition used_params (candidates : list generic_param) (args : list pat_type)
  : list generic_param :=
  filter (fun p => existsb (eqb_param p) (flat_map (search candidates) args)) candidates.

(** ** :142-461 `lower` *)
(** The iteration orders of the maps of `Model` and of `Ir`. *)
Record orders : Type := Orders {
  o_states : order;
  o_supers : order;
  o_actions : order;
  o_ir_states : order;
  o_ir_supers : order
}.
Definition lower (o : orders) (mo : model) : expansion ir :=
  let c := mo_config mo in
  do states0 <- hm_map (o_states o) (lower_state c) (mo_states mo);
  do supers0 <- hm_map (o_supers o) (lower_superstate c) (mo_supers mo);
  do actions <- hm_map (o_actions o) (lower_action c) (mo_actions mo);
  do states <- emap (fun kv => do s <- link_state mo supers0 actions (fst kv) (snd kv);
                              Done (fst kv, s)) (arrange (o_ir_states o) states0);
  do supers <- emap (fun kv => do s <- link_superstate mo supers0 actions (fst kv) (snd kv);
                              Done (fst kv, s)) (arrange (o_ir_supers o) supers0);
  do x1 <- efold (find_types c) (Types MBlocking None None)
                 (map (fun s => (as_event s, as_context s, as_async s))
                      (hm_values (o_states o) (mo_states mo)));
  do x2 <- efold (find_types c) x1
                 (map (fun s => (au_event s, au_context s, au_async s))
                      (hm_values (o_supers o) (mo_supers mo)));
  let x3 := fold_left (fun x a => Types (if aa_async a then MAwaitable else x_mode x)
                                        (x_event x) (x_context x))
                      (hm_values (o_actions o) (mo_actions mo)) x2 in
  let event_type := match x_event x3 with Some t => t | None => unit_type end in
  let context_type := match x_context x3 with Some t => t | None => unit_type end in
  do params <- map_generics (c_generics c);
  let state_inputs := flat_map as_state_inputs (hm_values (o_states o) (mo_states mo)) in
  let super_inputs := flat_map au_state_inputs (hm_values (o_supers o) (mo_supers mo)) in
  let lifetime := if existsb (fun s => negb (match au_state_inputs s with [] => true | _ => false end))
                             (hm_values (o_supers o) (mo_supers mo))
                  then [GLifetime superstate_lifetime []] else [] in
  Done (Ir (mo_impl mo) c
           (rename_type "event" event_type) (rename_type "context" context_type)
           (used_params params state_inputs) (used_params params super_inputs ++ lifetime)
           (x_mode x3) states supers).
