(** MacroSpec.v — what the `#[state_machine]` macro is expected to do, in terms of the source
    it is applied to and of the values of the generated types.  Independent of how the macro
    computes. *)

From Coq Require Import String Ascii List Bool Arith Permutation.
From Verif Require Import Machine Spec MacroSyntax MacroLower MacroGen MacroSem.
Import ListNotations.
Open Scope string_scope.
Open Scope list_scope.
Set Implicit Arguments.

(** ** Reading an impl block *)

(** The method has the attribute `#[kind]` or `#[kind(..)]`. *)
Definition marked (kind : ident) (m : impl_fn) : bool :=
  existsb (fun a => is_ident (meta_path a) kind) (m_attrs m).

(** The arguments given in the attributes `#[kind(..)]` of a method (those that parse). *)
Definition arguments_of (kind : ident) (m : impl_fn) : list meta :=
  flat_map (fun a => if is_ident (meta_path a) kind then
                       match a with
                       | MetaList _ (Tokens (Some l) _ _) => l
                       | _ => []
                       end
                     else []) (m_attrs m).

(** `key = "name"` among the arguments; the last one counts. *)
Definition values_of (kind key : ident) (m : impl_fn) : list ident :=
  flat_map (fun a => match a with
                     | MetaNameValue p (VStr s) =>
                         if is_ident p key then match as_ident s with Some i => [i] | None => [] end
                         else []
                     | _ => []
                     end) (arguments_of kind m).
Definition declared (kind key : ident) (m : impl_fn) : option ident :=
  last (map Some (values_of kind key m)) None.

(** The declared superstate relation on names has no cycle: every superstate has a rank that
    is smaller than the rank of its superstate. *)
Definition acyclic (item : item_impl) : Prop :=
  exists rank : ident -> nat,
    forall m u, In m (methods item) -> marked "superstate" m = true ->
      declared "superstate" "superstate" m = Some u -> rank (m_name m) < rank u.

(** ** Arguments of `#[state_machine(..)]` *)

(** The value of the last argument `key = "value"`, and the contents of the last argument
    `key(..)`. *)
Definition value_at {A} (parse : lit_str -> option A) (key : ident) (a : meta) : option A :=
  match a with
  | MetaNameValue p (VStr s) => if is_ident p key then parse s else None
  | _ => None
  end.
Definition list_at (key : ident) (a : meta) : option (list meta) :=
  match a with
  | MetaList p (Tokens (Some l) _ _) => if is_ident p key then Some l else None
  | _ => None
  end.
Fixpoint last_of {A} (at_ : meta -> option A) (args : list meta) : option A :=
  match args with
  | [] => None
  | a :: rest => match last_of at_ rest with Some v => Some v | None => at_ a end
  end.
Definition last_value {A} (parse : lit_str -> option A) (key : ident) : list meta -> option A :=
  last_of (value_at parse key).
Definition or_else {A} (o : option A) (d : A) : A := match o with Some a => a | None => d end.
(** The arguments inside `state(..)` or `superstate(..)`. *)
Definition inside (key : ident) (args : list meta) : list meta := or_else (last_of (list_at key) args) [].
(** The paths in all `derive(..)` arguments. *)
Definition derived (args : list meta) : list MacroSyntax.path :=
  flat_map (fun a => match a with
                     | MetaList p (Tokens _ _ (Some l)) => if is_ident p "derive" then l else []
                     | _ => []
                     end) args.
Definition key_in (keys : list ident) (a : meta) : Prop :=
  exists k, In k keys /\ is_ident (meta_path a) k = true.

(** ** Names of variants: `led_on` becomes `LedOn` *)
Definition uppercase (c : ascii) : ascii :=
  match c with
  | "a" => "A" | "b" => "B" | "c" => "C" | "d" => "D" | "e" => "E" | "f" => "F" | "g" => "G"
  | "h" => "H" | "i" => "I" | "j" => "J" | "k" => "K" | "l" => "L" | "m" => "M" | "n" => "N"
  | "o" => "O" | "p" => "P" | "q" => "Q" | "r" => "R" | "s" => "S" | "t" => "T" | "u" => "U"
  | "v" => "V" | "w" => "W" | "x" => "X" | "y" => "Y" | "z" => "Z"
  | c => c
  end%char.
(** Every letter after an underscore (or at the start) becomes uppercase; underscores go. *)
Fixpoint camel_case (start : bool) (s : string) : string :=
  match s with
  | EmptyString => EmptyString
  | String c s' =>
      if (c =? "_")%char then camel_case true s'
      else String (if start then uppercase c else c) (camel_case false s')
  end.
Definition variant_of (m : impl_fn) : ident := camel_case true (m_name m).

(** Usual names: words of lowercase letters and digits, each beginning with a letter,
    separated by single underscores. *)
Definition is_lowercase (c : ascii) : bool :=
  let n := nat_of_ascii c in (Nat.leb 97 n && Nat.leb n 122)%bool.
Definition is_number (c : ascii) : bool :=
  let n := nat_of_ascii c in (Nat.leb 48 n && Nat.leb n 57)%bool.
Fixpoint in_word (s : string) : bool :=
  match s with
  | EmptyString => true
  | String "_" (String c s') => is_lowercase c && in_word s'
  | String c s' => (is_lowercase c || is_number c) && in_word s'
  end%bool.
Definition snake_case (s : string) : bool :=
  match s with
  | EmptyString => false
  | String c s' => is_lowercase c && in_word s'
  end%bool.

(** The named fields declared by `local_storage("..", ..)`. *)
Definition local_storage (kind : ident) (m : impl_fn) : list field :=
  flat_map (fun a => match a with
                     | MetaList p (Tokens _ (Some l) _) =>
                         if is_ident p "local_storage"
                         then flat_map (fun s => match as_field s with Some f => [f] | None => [] end) l
                         else []
                     | _ => []
                     end) (arguments_of kind m).

(** The typed parameters other than the event and the context, and the types they refer to. *)
Definition parameter_fields (ev cx : ident) (m : impl_fn) : list field :=
  flat_map (fun p => match p with
                     | Typed (PatType _ (PatIdent i) (TReference _ _ t)) =>
                         if ((i =? ev) || (i =? cx))%string then [] else [Field i t]
                     | _ => []
                     end) (m_inputs m).
(** The same, as references that live as long as the superstate. *)
Definition borrowed_fields (ev cx : ident) (m : impl_fn) : list field :=
  flat_map (fun p => match p with
                     | Typed (PatType _ (PatIdent i) (TReference _ mu t)) =>
                         if ((i =? ev) || (i =? cx))%string then []
                         else [Field i (TReference (Some "sub") mu t)]
                     | _ => []
                     end) (m_inputs m).
(** A field of the storage: declared by `local_storage` (the last declaration of its name
    counts), or else by a parameter. *)
Definition stores (declared parameters : list field) (f : field) : Prop :=
  (exists before after, declared = before ++ f :: after /\ ~ In (f_name f) (map f_name after)) \/
  (In f parameters /\ ~ In (f_name f) (map f_name declared)).

(** ** Defaults *)
Inductive initial_value : Type :=
| FromArgument                  (* no `#[default]` *)
| DefaultOfType                 (* `#[default]` *)
| ByExpression (e : expr).      (* `#[default = "e"]` *)
(** What the parameter [p] says about the field of its name. *)
Definition parameter_default (p : fn_arg) : initial_value :=
  match p with
  | Receiver => FromArgument
  | Typed pt =>
      match find (fun a => is_ident (meta_path a) "default") (pt_attrs pt) with
      | Some (MetaNameValue _ (VStr s)) =>
          match as_expr s with Some e => ByExpression e | None => FromArgument end
      | Some (MetaPath _) => DefaultOfType
      | _ => FromArgument
      end
  end.
Definition names_b (f : ident) (p : fn_arg) : bool :=
  match p with
  | Typed pt => match pt_pat pt with PatIdent i => (i =? f)%string | _ => false end
  | Receiver => false
  end.
(** The first parameter called [f] counts (parameters have different names); the event and
    the context are not fields. *)
Definition initial_value_of (ev cx : ident) (m : impl_fn) (f : ident) : initial_value :=
  if ((f =? ev) || (f =? cx))%string then FromArgument else
  match find (names_b f) (m_inputs m) with
  | Some p => parameter_default p
  | None => FromArgument
  end.
Definition by_argument (i : initial_value) : bool :=
  match i with FromArgument => true | _ => false end.

(** ** Calls by name *)
Section ByName.
  Variables Val Sh Ev Cx : Type.
  (** The names given to the event and context parameters. *)
  Variables ev cx : ident.

  (** [denotes fields sh c e p a]: what the parameter [p] of a method stands for, given the
      fields of the current state, the shared storage, the context, and the event (if there
      is one). *)
  Inductive denotes (fields : ident -> option Val) (sh : Sh) (c : Cx) (e : option Ev)
    : fn_arg -> arg Val Sh Ev Cx -> Prop :=
  | denotes_self : denotes fields sh c e Receiver (AShared sh)
  | denotes_event pt v : pt_pat pt = PatIdent ev -> e = Some v ->
      denotes fields sh c e (Typed pt) (AEvent v)
  | denotes_context pt : pt_pat pt = PatIdent cx ->
      denotes fields sh c e (Typed pt) (AContext c)
  | denotes_field pt f v : pt_pat pt = PatIdent f -> f <> ev -> f <> cx -> fields f = Some v ->
      denotes fields sh c e (Typed pt) (AField v).

  Definition names (f : ident) (p : fn_arg) : Prop :=
    exists pt, p = Typed pt /\ pt_pat pt = PatIdent f.

  (** What a method left in its arguments ends up where they came from, and nothing else
      changes. *)
  Record written (ps : list fn_arg) (left : list (arg Val Sh Ev Cx))
      (fields fields' : ident -> option Val) (sh sh' : Sh) (c c' : Cx) : Prop := {
    wr_field : forall f p v, In (p, AField v) (combine ps left) -> names f p ->
                 f <> ev -> f <> cx -> fields' f = Some v;
    wr_other : forall f, (forall p, In p ps -> ~ names f p) -> fields' f = fields f;
    wr_shared : forall s, In (Receiver, AShared s) (combine ps left) -> sh' = s;
    wr_not_shared : ~ In Receiver ps -> sh' = sh;
    wr_context : forall p k, In (p, AContext k) (combine ps left) -> names cx p -> c' = k;
    wr_not_context : (forall p, In p ps -> ~ names cx p) -> c' = c
  }.

  (** Two arguments of the same kind: a reference stays what it is. *)
  Definition same_kind (a b : arg Val Sh Ev Cx) : Prop :=
    match a, b with
    | AShared _, AShared _ | AEvent _, AEvent _ | AContext _, AContext _ | AField _, AField _ => True
    | _, _ => False
    end.

  (** The method with the parameters [ps] and the given [body] is called once, with exactly
      what its parameters denote, and its writes are kept. *)
  Definition calls_by_name {A} (ps : list fn_arg)
      (body : list (arg Val Sh Ev Cx) -> reply A * list (arg Val Sh Ev Cx))
      (e : option Ev) (fields : ident -> option Val) (sh : Sh) (c : Cx)
      (r : reply A) (fields' : ident -> option Val) (sh' : Sh) (c' : Cx) : Prop :=
    exists args left,
      Forall2 (denotes fields sh c e) ps args /\ body args = (r, left) /\
      (Forall2 same_kind args left -> written ps left fields fields' sh sh' c c').
End ByName.

(** No field of a state or superstate, and no typed parameter, has a name used by the
    generated code. *)
Record hygienic (item : item_impl) (g : generated) : Prop := {
  hy_fields : forall v f, In v (all_variants g) -> In f (v_fields v) ->
    f_name f <> "shared_storage" /\ f_name f <> g_event_ident g /\ f_name f <> g_context_ident g;
  hy_params : forall m p, In m (methods item) -> In p (m_inputs m) -> ~ names "shared_storage" p
}.

(** The entry (exit) action [a] of a node with the fields of [x] is run; [None]: there is
    none, and nothing happens. *)
Definition action_runs (item : item_impl) (g : generated) (Val Sh Ev Cx : Type) (B : bodies Val Sh Ev Cx g)
    (d : enum) (a : option ident) (x x' : value Val d) (sh sh' : Sh) (cx cx' : Cx) (r : reply unit) : Prop :=
  match a with
  | None => r = Returns tt /\ x' = x /\ sh' = sh /\ cx' = cx
  | Some i => exists ma, In ma (methods item) /\ marked "action" ma = true /\ m_name ma = i /\
      tag x' = tag x /\
      calls_by_name (g_event_ident g) (g_context_ident g) (m_inputs ma) (b_action B i) None
        (get_field x) sh cx r (get_field x') sh' cx'
  end.

(** ** The declared hierarchy, by name *)

(** A node: "state" or "superstate", and the name of its method. *)
Definition element : Type := ident * ident.
(** [lineage item u l]: [l] lists the superstate [u] and its superstates, innermost first. *)
Inductive lineage (item : item_impl) : option ident -> list ident -> Prop :=
| lineage_top : lineage item None []
| lineage_up mu l : In mu (methods item) -> marked "superstate" mu = true ->
    lineage item (declared "superstate" "superstate" mu) l ->
    lineage item (Some (m_name mu)) (m_name mu :: l).
(** The state [m] and its superstates, innermost first. *)
Definition declared_upward (item : item_impl) (m : impl_fn) (p : list element) : Prop :=
  exists l, lineage item (declared "state" "superstate" m) l /\
            p = ("state", m_name m) :: map (pair "superstate") l.
(** The same, outermost first. *)
Definition declared_path (item : item_impl) (m : impl_fn) (p : list element) : Prop :=
  declared_upward item m (rev p).

Inductive step : Type :=
| Exits (e : element)
| Enters (e : element).
(** What a transition from [ms] to [mt] has to do: as [Spec.route], on names. *)
Definition declared_route (item : item_impl) (ms mt : impl_fn) (steps : list step) : Prop :=
  (ms = mt /\ steps = [Exits ("state", m_name ms); Enters ("state", m_name ms)]) \/
  (ms <> mt /\
   exists common xs ys,
     declared_path item ms (common ++ xs) /\ declared_path item mt (common ++ ys) /\ diverge xs ys /\
     steps = map Exits (rev xs) ++ map Enters ys).

(** [above item a b]: [b] is a superstate of [a], directly or not. *)
Inductive above (item : item_impl) : ident -> ident -> Prop :=
| above_direct m u : In m (methods item) -> marked "superstate" m = true ->
    declared "superstate" "superstate" m = Some u -> above item (m_name m) u
| above_trans a b c : above item a b -> above item b c -> above item a c.
(** The superstates of the state [m] run into a cycle. *)
Definition cycle_over (item : item_impl) (m : impl_fn) : Prop :=
  exists u v, declared "state" "superstate" m = Some u /\ (u = v \/ above item u v) /\ above item v v.

(** The node [n] belongs to that method. *)
Definition belongs (item : item_impl) Val ds du (n : node (value Val ds) (value Val du)) (e : element) : Prop :=
  exists m, In m (methods item) /\ marked (fst e) m = true /\ m_name m = snd e /\
    match n with
    | NState x => fst e = "state" /\ tag x = variant_of m
    | NSuper u => fst e = "superstate" /\ tag u = variant_of m
    end.
(** The nodes whose handlers were called, in order. *)
Definition handled (m : machine) (tr : list (obs m)) : list (node (State m) (Sup m)) :=
  flat_map (fun o => match o with OHandler n _ => [n] | _ => [] end) tr.
(** A logged entry or exit is that step. *)
Definition performs (item : item_impl) (g : generated) (Val Sh Ev Cx : Type) (B : bodies Val Sh Ev Cx g)
    (o : obs (generated_machine B)) (s : step) : Prop :=
  match o, s with
  | OExit n, Exits e => belongs item n e
  | OEnter n, Enters e => belongs item n e
  | _, _ => False
  end.
Arguments performs item {g Val Sh Ev Cx} B.

(** ** Lifetimes *)

(** [renamed new t t']: [t'] is [t] with every anonymous or elided lifetime, at any depth,
    replaced by [new], and every other lifetime kept. *)
Definition renamed_lifetime (new l : ident) : ident := if (l =? "_")%string then new else l.
Inductive renamed (new : ident) : ty -> ty -> Prop :=
| renamed_elided m t t' : renamed new t t' ->
    renamed new (TReference None m t) (TReference (Some new) m t')
| renamed_reference l m t t' : renamed new t t' ->
    renamed new (TReference (Some l) m t) (TReference (Some (renamed_lifetime new l)) m t')
| renamed_path p args args' : Forall2 (renamed_part new) args args' ->
    renamed new (TPath p args) (TPath p args')
| renamed_other s parts parts' : Forall2 (renamed_part new) parts parts' ->
    renamed new (TOther s parts) (TOther s parts')
with renamed_part (new : ident) : part -> part -> Prop :=
| renamed_part_lifetime l : renamed_part new (PartLifetime l) (PartLifetime (renamed_lifetime new l))
| renamed_part_ident i : renamed_part new (PartIdent i) (PartIdent i)
| renamed_part_type t t' : renamed new t t' -> renamed_part new (PartType t) (PartType t').

(** The type has an anonymous (`'_`) or elided lifetime, at any depth. *)
Fixpoint anonymous (t : ty) : bool :=
  match t with
  | TReference None _ _ => true
  | TReference (Some l) _ e => (l =? "_")%string || anonymous e
  | TPath _ args => existsb anonymous_part args
  | TOther _ parts => existsb anonymous_part parts
  end
with anonymous_part (p : part) : bool :=
  match p with
  | PartLifetime l => (l =? "_")%string
  | PartIdent _ => false
  | PartType t => anonymous t
  end.

(** The lifetimes outside references are anonymous; references have an elided or a named
    lifetime, and nothing to rename below them. *)
Fixpoint easily_renamed (t : ty) : bool :=
  match t with
  | TReference None _ e => negb (anonymous e)
  | TReference (Some l) _ e => negb (l =? "_")%string && negb (anonymous e)
  | TPath _ args => forallb easily_renamed_part args
  | TOther _ parts => forallb easily_renamed_part parts
  end
with easily_renamed_part (p : part) : bool :=
  match p with
  | PartLifetime l => (l =? "_")%string
  | PartIdent _ => true
  | PartType t => easily_renamed t
  end.

(** All lifetimes of the type, as written. *)
Inductive has_lifetime (l : ident) : ty -> Prop :=
| hl_reference m t : has_lifetime l (TReference (Some l) m t)
| hl_below o m t : has_lifetime l t -> has_lifetime l (TReference o m t)
| hl_path p args a : In a args -> part_has_lifetime l a -> has_lifetime l (TPath p args)
| hl_other s parts a : In a parts -> part_has_lifetime l a -> has_lifetime l (TOther s parts)
with part_has_lifetime (l : ident) : part -> Prop :=
| phl_lifetime : part_has_lifetime l (PartLifetime l)
| phl_type t : has_lifetime l t -> part_has_lifetime l (PartType t).

(** All identifiers of the type: names in paths, of constants, ... *)
Inductive has_ident (i : ident) : ty -> Prop :=
| hi_below o m t : has_ident i t -> has_ident i (TReference o m t)
| hi_segment p args : In i p -> has_ident i (TPath p args)
| hi_path p args a : In a args -> part_has_ident i a -> has_ident i (TPath p args)
| hi_other s parts a : In a parts -> part_has_ident i a -> has_ident i (TOther s parts)
with part_has_ident (i : ident) : part -> Prop :=
| phi_ident : part_has_ident i (PartIdent i)
| phi_type t : has_ident i t -> part_has_ident i (PartType t).

(** The handler [m] takes a parameter called [name], of type [t]. *)
Definition takes (m : impl_fn) (name : ident) (t : ty) : Prop :=
  exists attrs, In (Typed (PatType attrs (PatIdent name) t)) (m_inputs m).
(** State and superstate handlers. *)
Definition is_handler (item : item_impl) (m : impl_fn) : Prop :=
  In m (methods item) /\ (marked "state" m = true \/ marked "superstate" m = true).

(** A parameter of the handler that is not the event or the context uses the generic
    parameter [p] of the impl block: its type (or its own name) mentions it. *)
Definition uses_generic (ev cx : ident) (m : impl_fn) (p : generic_param) : Prop :=
  exists i t, takes m i t /\ i <> ev /\ i <> cx /\
    match p with
    | GType n _ | GConst n => n = i \/ has_ident n t
    | GLifetime l _ => has_lifetime l t
    end.

(** ** Arguments of `#[state(..)]` and `#[superstate(..)]` that count *)
Definition known_argument (a : meta) : bool :=
  existsb (is_ident (meta_path a)) ["superstate"; "entry_action"; "exit_action"; "local_storage"].
(** Only those are left; an argument list that is no list of metas is emptied. *)
Definition cleaned_attr (a : meta) : meta :=
  match a with
  | MetaList p (Tokens l s q) =>
      if is_ident p "state" || is_ident p "superstate"
      then MetaList p (Tokens (Some (filter known_argument (or_else l []))) s q)
      else a
  | _ => a
  end.
Definition cleaned_method (m : impl_fn) : impl_fn :=
  ImplFn (map cleaned_attr (m_attrs m)) (m_name m) (m_generics m) (m_async m) (m_inputs m).
Definition cleaned (item : item_impl) : item_impl :=
  ItemImpl (i_self item) (i_generics item)
    (map (fun it => match it with ItemMethod m => ItemMethod (cleaned_method m) | ItemOther t => ItemOther t end)
         (i_items item)).
(** The generated code, without the impl block, which is passed through. *)
Definition apart_from_impl (e : expansion generated) : expansion generated :=
  match e with
  | Done (Generated _ md et ct i bt at_ bd ad v si sd sg sv k sa ui ud ug uv ua ei ci) =>
      Done (Generated (ItemImpl unit_type (Generics [] []) []) md et ct i bt at_ bd ad v si sd sg sv k sa ui ud ug uv ua ei ci)
  | Rejected s => Rejected s
  | Crashed s => Crashed s
  end.
(** A known argument that means something: `key = "identifier"`, `local_storage("name: Type", ..)`. *)
Definition well_formed_argument (a : meta) : Prop :=
  if is_ident (meta_path a) "local_storage"
  then exists p l q strings fields, a = MetaList p (Tokens l (Some strings) q) /\
         Forall2 (fun s f => as_field s = Some f) strings fields
  else exists p s i, a = MetaNameValue p (VStr s) /\ as_ident s = Some i.
