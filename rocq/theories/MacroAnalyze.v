(** MacroAnalyze.v — macro/src/analyze.rs.  No proofs here.

    `abort!` is [Rejected], a panic is [Crashed]; messages are shortened. *)

From Coq Require Import String List Bool Arith.
From Verif Require Import MacroSyntax.
Import ListNotations.
Open Scope string_scope.
Set Implicit Arguments.

(** :27-60 `struct StateMachine`. *)
Record config : Type := Config {
  c_initial : expr;
  c_shared_type : ty;
  c_shared_path : path;
  c_generics : generics;
  c_state_ident : ident;
  c_state_derives : list path;
  c_super_ident : ident;
  c_super_derives : list path;
  c_event_ident : ident;
  c_context_ident : ident;
  c_visibility : visibility;
  c_before_transition : option path;
  c_after_transition : option path;
  c_before_dispatch : option path;
  c_after_dispatch : option path
}.

(** :125-139 `enum LocalStorageDefault`. *)
Inductive storage_default : Type :=
| DefaultEmpty (i : ident)
| DefaultValue (i : ident) (value : expr).
Definition default_ident (d : storage_default) : ident :=
  match d with DefaultEmpty i => i | DefaultValue i _ => i end.

(** :62-89 `struct State`. *)
Record a_state : Type := AState {
  as_name : ident;
  as_superstate : option ident;
  as_entry : option ident;
  as_exit : option ident;
  as_storage : list field;
  as_defaults : list storage_default;
  as_inputs : list fn_arg;
  as_state_inputs : list pat_type;
  as_event : option pat_type;
  as_context : option pat_type;
  as_async : bool
}.

(** :89-112 `struct Superstate`. *)
Record a_super : Type := ASuper {
  au_name : ident;
  au_superstate : option ident;
  au_entry : option ident;
  au_exit : option ident;
  au_storage : list field;
  au_inputs : list fn_arg;
  au_state_inputs : list pat_type;
  au_event : option pat_type;
  au_context : option pat_type;
  au_async : bool
}.

(** :114-120 `struct Action`. *)
Record a_action : Type := AAction {
  aa_name : ident;
  aa_inputs : list fn_arg;
  aa_async : bool
}.

(** :12-25 `struct Model`. *)
Record model : Type := Model {
  mo_impl : item_impl;
  mo_config : config;
  mo_states : hash_map a_state;
  mo_supers : hash_map a_super;
  mo_actions : hash_map a_action
}.

(** :651-664 `meta_require_name_lit_str`. *)
Definition name_lit_str (m : meta) : expansion lit_str :=
  match m with
  | MetaNameValue _ (VStr s) => Done s
  | MetaNameValue _ VOther => Rejected "expected string literal"
  | _ => Rejected "expected name-value pair"
  end.
(** `match meta_require_name_lit_str(meta).parse() { Ok(x) => x, Err(_) => abort!(..) }`. *)
Definition parsed {A} (parse : lit_str -> option A) (message : string) (m : meta) : expansion A :=
  do s <- name_lit_str m;
  match parse s with
  | Some a => Done a
  | None => Rejected message
  end.
(** `meta.require_list()`. *)
Definition require_list (message : string) (m : meta) : expansion tokens :=
  match m with
  | MetaList _ t => Done t
  | _ => Rejected message
  end.
Definition as_metas (t : tokens) := match t with Tokens m _ _ => m end.
Definition as_strings (t : tokens) := match t with Tokens _ s _ => s end.
Definition as_paths (t : tokens) := match t with Tokens _ _ p => p end.

(** :625-638 `get_meta`: the arguments of all attributes called [name]; an attribute whose
    arguments do not parse (or that has none) contributes nothing. *)
Definition attr_args (m : meta) : option (list meta) :=
  match m with
  | MetaList _ t => as_metas t
  | _ => None
  end.
Definition get_meta (attrs : list meta) (name : ident) : list meta :=
  flat_map (fun a => match attr_args a with Some l => l | None => [] end)
           (filter (fun a => is_ident (meta_path a) name) attrs).

(** :640-649 `get_shared_storage_path`. *)
Definition get_shared_storage_path (t : ty) : expansion path :=
  match t with
  | TPath p _ => Done p
  | _ => Crashed "can not get path of shared storage"
  end.

(** The local variables of `analyze_state_machine` (:192-209). *)
Record settings : Type := Settings {
  t_initial : option expr;
  t_event_ident : ident;
  t_context_ident : ident;
  t_before_transition : option path;
  t_after_transition : option path;
  t_before_dispatch : option path;
  t_after_dispatch : option path;
  t_visibility : visibility;
  t_state_meta : tokens;
  t_super_meta : tokens
}.
Definition no_tokens : tokens := Tokens (Some []) (Some []) (Some []).
Definition default_settings : settings :=
  Settings None "event" "context" None None None None "pub" no_tokens no_tokens.

(** :212-266, one iteration. *)
Definition setting (t : settings) (m : meta) : expansion settings :=
  let '(Settings i e c bt at_ bd ad v sm um) := t in
  let is := is_ident (meta_path m) in
  if is "initial" then
    do i <- parsed as_expr "initial state must be an expression" m;
    Done (Settings (Some i) e c bt at_ bd ad v sm um)
  else if is "event_identifier" then
    do e <- parsed as_ident "event identifier must be an ident" m;
    Done (Settings i e c bt at_ bd ad v sm um)
  else if is "context_identifier" then
    do c <- parsed as_ident "context identifier must be an ident" m;
    Done (Settings i e c bt at_ bd ad v sm um)
  else if is "before_transition" then
    do p <- parsed as_path "before transition hook must be a function pointer" m;
    Done (Settings i e c (Some p) at_ bd ad v sm um)
  else if is "after_transition" then
    do p <- parsed as_path "after transition hook must be a function pointer" m;
    Done (Settings i e c bt (Some p) bd ad v sm um)
  else if is "before_dispatch" then
    do p <- parsed as_path "before dispatch hook must be a function pointer" m;
    Done (Settings i e c bt at_ (Some p) ad v sm um)
  else if is "after_dispatch" then
    do p <- parsed as_path "after dispatch hook must be a function pointer" m;
    Done (Settings i e c bt at_ bd (Some p) v sm um)
  else if is "visibility" then
    do v <- parsed as_visibility "visibility must be a visibility keyword" m;
    Done (Settings i e c bt at_ bd ad v sm um)
  else if is "state" then
    do l <- require_list "state must contain a list of meta items" m;
    Done (Settings i e c bt at_ bd ad v l um)
  else if is "superstate" then
    do l <- require_list "superstate must contain a list of meta items" m;
    Done (Settings i e c bt at_ bd ad v sm l)
  else Rejected "unknown argument for `state_machine` attribute".

(** :278-300 and :303-332: the arguments of `state(..)` and `superstate(..)`. *)
Definition enum_setting (nd : ident * list path) (m : meta) : expansion (ident * list path) :=
  if is_ident (meta_path m) "name" then
    do n <- parsed as_ident "type name must be an ident" m;
    Done (n, snd nd)
  else if is_ident (meta_path m) "derive" then
    do t <- require_list "derive must be a list of paths" m;
    match as_paths t with
    | Some ps => Done (fst nd, (snd nd ++ ps)%list)
    | None => Rejected "derive must be a list of paths"
    end
  else Rejected "unknown argument".
Definition enum_settings (default : ident) (t : tokens) : expansion (ident * list path) :=
  match as_metas t with
  | Some metas => efold enum_setting (default, []) metas
  | None => Rejected "meta must be a list of meta items"
  end.

(** :186-351 `analyze_state_machine`. *)
Definition analyze_state_machine (args : list meta) (item : item_impl) : expansion config :=
  do p <- get_shared_storage_path (i_self item);
  do t <- efold setting default_settings args;
  match t_initial t with
  | None => Rejected "no initial state defined"
  | Some initial =>
      do '(state_ident, state_derives) <- enum_settings "State" (t_state_meta t);
      do '(super_ident, super_derives) <- enum_settings "Superstate" (t_super_meta t);
      Done (Config initial (i_self item) p (i_generics item) state_ident state_derives
                   super_ident super_derives (t_event_ident t) (t_context_ident t)
                   (t_visibility t) (t_before_transition t) (t_after_transition t)
                   (t_before_dispatch t) (t_after_dispatch t))
  end.

(** :598-623 `analyze_local_storage_default`. *)
Definition analyze_default (i : ident) (attr : meta) : expansion storage_default :=
  match attr with
  | MetaPath _ => Done (DefaultEmpty i)
  | MetaNameValue _ (VStr s) =>
      match as_expr s with
      | Some e => Done (DefaultValue i e)
      | None => Rejected "value must be an expression"
      end
  | MetaNameValue _ VOther => Rejected "must be string literal"
  | MetaList _ _ => Rejected "wrong attribute format"
  end.

(** `Vec::swap_remove` at the first attribute called "default" (:391-398), if any. *)
Fixpoint position {A} (f : A -> bool) (l : list A) : option nat :=
  match l with
  | [] => None
  | a :: l' => if f a then Some 0 else option_map S (position f l')
  end.
Definition swap_remove {A} (n : nat) (l : list A) : list A :=
  match skipn n l with
  | [] => l
  | a :: rest =>
      (firstn n l ++ match rev rest with [] => [] | z :: r => z :: rev r end)%list
  end.
Definition is_default (a : meta) : bool := is_ident (meta_path a) "default".

(** What the loops over the inputs collect. *)
Record collected : Type := Collected {
  k_inputs : list fn_arg;       (* the parameters as they are left in the method *)
  k_defaults : list storage_default;
  k_state_inputs : list pat_type;
  k_event : option pat_type;
  k_context : option pat_type
}.
Definition unsupported {A} (p : pat) : expansion A :=
  match p with
  | PatTuple => Rejected "tuple pattern is not supported"
  | PatTupleStruct => Rejected "tuple struct pattern is not supported"
  | PatStruct => Rejected "struct pattern is not supported"
  | PatWild => Rejected "wildcard pattern is not supported"
  | _ => Rejected "patterns are not supported"
  end.

(** :379-421, one iteration; the `#[default]` attribute is removed from the method. *)
Definition state_input (ev cx : ident) (k : collected) (a : fn_arg) : expansion collected :=
  let '(Collected ins ds sts e c) := k in
  match a with
  | Receiver => Done (Collected (ins ++ [a])%list ds sts e c)
  | Typed pt =>
      match pt_pat pt with
      | PatIdent i =>
          if (ev =? i)%string then Done (Collected (ins ++ [a])%list ds sts (Some pt) c)
          else if (cx =? i)%string then Done (Collected (ins ++ [a])%list ds sts e (Some pt))
          else
            match position is_default (pt_attrs pt) with
            | Some n =>
                match nth_error (pt_attrs pt) n with
                | Some attr =>
                    do d <- analyze_default i attr;
                    let pt' := PatType (swap_remove n (pt_attrs pt)) (pt_pat pt) (pt_ty pt) in
                    Done (Collected (ins ++ [Typed pt']) (ds ++ [d]) (sts ++ [pt']) e c)%list
                | None => Crashed "index out of bounds"
                end
            | None => Done (Collected (ins ++ [a])%list ds (sts ++ [pt])%list e c)
            end
      | PatReference => Done (Collected (ins ++ [a])%list ds (sts ++ [pt])%list e c)
      | p => unsupported p
      end
  end.

(** :498-525, one iteration. *)
Definition super_input (ev cx : ident) (k : collected) (a : fn_arg) : expansion collected :=
  let '(Collected ins ds sts e c) := k in
  match a with
  | Receiver => Done (Collected (ins ++ [a])%list ds sts e c)
  | Typed pt =>
      match pt_pat pt with
      | PatIdent i =>
          if (ev =? i)%string then Done (Collected (ins ++ [a])%list ds sts (Some pt) c)
          else if (cx =? i)%string then Done (Collected (ins ++ [a])%list ds sts e (Some pt))
          else Done (Collected (ins ++ [a])%list ds (sts ++ [pt])%list e c)
      | PatReference => Done (Collected (ins ++ [a])%list ds (sts ++ [pt])%list e c)
      | p => unsupported p
      end
  end.
Definition nothing_collected : collected := Collected [] [] [] None None.

(** The variables set by the loops over the arguments of `#[state(..)]` (:424-456) and
    `#[superstate(..)]` (:528-560), which are the same code. *)
Record relations_of : Type := RelationsOf {
  w_superstate : option ident;
  w_entry : option ident;
  w_exit : option ident;
  w_storage : list field
}.
Definition storage_field (s : lit_str) : expansion field :=
  match as_field s with
  | Some f => Done f
  | None => Rejected "local storage entry must be a named field"
  end.
Definition argument (w : relations_of) (m : meta) : expansion relations_of :=
  let '(RelationsOf su en ex st) := w in
  let is := is_ident (meta_path m) in
  if is "superstate" then
    do i <- parsed as_ident "superstate must be an ident" m;
    Done (RelationsOf (Some i) en ex st)
  else if is "entry_action" then
    do i <- parsed as_ident "entry action must be an ident" m;
    Done (RelationsOf su (Some i) ex st)
  else if is "exit_action" then
    do i <- parsed as_ident "exit action must be an ident" m;
    Done (RelationsOf su en (Some i) st)
  else if is "local_storage" then
    do t <- require_list "local storage must be a list of string literals" m;
    match as_strings t with
    | Some strings =>
        do fields <- emap storage_field strings;
        Done (RelationsOf su en ex (st ++ fields)%list)
    | None => Rejected "local storage must be a list of string literals"
    end
  else Done w.
Definition arguments (metas : list meta) : expansion relations_of :=
  efold argument (RelationsOf None None None []) metas.

(** :353-471 `analyze_state`; also returns the method it has modified. *)
Definition analyze_state (m : impl_fn) (c : config) : expansion (a_state * impl_fn) :=
  match m_generics m with
  | _ :: _ => Rejected "state handlers can not define their generics themselves"
  | [] =>
      do k <- efold (state_input (c_event_ident c) (c_context_ident c)) nothing_collected
                    (m_inputs m);
      do w <- arguments (get_meta (m_attrs m) "state");
      Done (AState (m_name m) (w_superstate w) (w_entry w) (w_exit w) (w_storage w)
                   (k_defaults k) (m_inputs m) (k_state_inputs k) (k_event k) (k_context k)
                   (m_async m),
            ImplFn (m_attrs m) (m_name m) (m_generics m) (m_async m) (k_inputs k))
  end.

(** :473-574 `analyze_superstate`. *)
Definition analyze_superstate (m : impl_fn) (c : config) : expansion a_super :=
  match m_generics m with
  | _ :: _ => Rejected "superstate handlers can not define their generics themselves"
  | [] =>
      do k <- efold (super_input (c_event_ident c) (c_context_ident c)) nothing_collected
                    (m_inputs m);
      do w <- arguments (get_meta (m_attrs m) "superstate");
      Done (ASuper (m_name m) (w_superstate w) (w_entry w) (w_exit w) (w_storage w)
                   (m_inputs m) (k_state_inputs k) (k_event k) (k_context k) (m_async m))
  end.

(** :576-596 `analyze_action`. *)
Definition analyze_action (m : impl_fn) : expansion a_action :=
  match m_generics m with
  | _ :: _ => Rejected "action handlers can not define their generics themselves"
  | [] => Done (AAction (m_name m) (m_inputs m) (m_async m))
  end.

(** :157-175: the loop over the attributes of one method. *)
Record found : Type := Found {
  fd_states : hash_map a_state;
  fd_supers : hash_map a_super;
  fd_actions : hash_map a_action
}.
Definition attribute (c : config) (fm : found * impl_fn) (p : path) : expansion (found * impl_fn) :=
  let '(Found ss us acts, m) := fm in
  if is_ident p "state" then
    do '(s, m') <- analyze_state m c;
    Done (Found (hm_insert (as_name s) s ss) us acts, m')
  else if is_ident p "superstate" then
    do u <- analyze_superstate m c;
    Done (Found ss (hm_insert (au_name u) u us) acts, m)
  else if is_ident p "action" then
    do a <- analyze_action m;
    Done (Found ss us (hm_insert (aa_name a) a acts), m)
  else Done (Found ss us acts, m).
Definition analyze_method (c : config) (f : found) (m : impl_fn) : expansion (found * impl_fn) :=
  efold (attribute c) (f, m) (map meta_path (m_attrs m)).

(** :149-175: the loop over the items. *)
Fixpoint analyze_items (c : config) (f : found) (items : list impl_item)
  : expansion (found * list impl_item) :=
  match items with
  | [] => Done (f, [])
  | ItemOther t :: items' =>
      do '(f', r) <- analyze_items c f items';
      Done (f', ItemOther t :: r)
  | ItemMethod m :: items' =>
      do '(f1, m') <- analyze_method c f m;
      do '(f2, r) <- analyze_items c f1 items';
      Done (f2, ItemMethod m' :: r)
  end.

(** :141-184 `analyze`. *)
Definition analyze (args : list meta) (item : item_impl) : expansion model :=
  do c <- analyze_state_machine args item;
  do '(f, items) <- analyze_items c (Found [] [] []) (i_items item);
  Done (Model (ItemImpl (i_self item) (i_generics item) items) c
              (fd_states f) (fd_supers f) (fd_actions f)).
