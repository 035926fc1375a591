(** MacroSem.v — what the code generated by `#[state_machine]` does: the generated enums as
    types, the generated `match` arms as callbacks, giving a [machine]; and the checks of the
    Rust compiler that matter for it.  No proofs here.

    The code given meaning here is the one printed by codegen.rs:39-505; the meaning is that
    of Rust (match, struct patterns, scoping, mutable references).

    Simplifications: values of fields are untyped ([Val]); a reference passed to a method is
    modelled by its value before and after the call (a method with a `&T` parameter returns
    it unchanged); the bodies of the user's methods are arbitrary functions of the arguments
    they are called with. *)

From Coq Require Import String List Bool Arith.
From Verif Require Import Machine MacroSyntax MacroVisit MacroAnalyze MacroLower MacroGen.
Import ListNotations.
Open Scope string_scope.
Open Scope list_scope.
Set Implicit Arguments.

(** ** Enums *)
Definition enum := list variant.
Definition fields_of (d : enum) (n : ident) : option (list ident) :=
  option_map (fun v => map f_name (v_fields v)) (find (fun v => (v_name v =? n)%string) d).
Definition shaped {Val} (d : enum) (n : ident) (vs : list Val) : bool :=
  match fields_of d n with
  | Some fs => Nat.eqb (length fs) (length vs)
  | None => false
  end.
(** A value of the enum [d]: a variant and a value for each of its fields. *)
Record value (Val : Type) (d : enum) : Type := Value {
  tag : ident;
  vals : list Val;
  shape_ok : shaped d tag vals = true
}.
Arguments tag {Val d}.
Arguments vals {Val d}.
Arguments Value {Val} d tag vals shape_ok.

Section Values.
  Variable Val : Type.
  Variable d : enum.

  Definition make (n : ident) (vs : list Val) : option (value Val d) :=
    match bool_dec (shaped d n vs) true with
    | left H => Some (Value d n vs H)
    | right _ => None
    end.
  Definition with_vals (x : value Val d) (vs : list Val) : value Val d :=
    match make (tag x) vs with Some y => y | None => x end.

  (** `core::mem::discriminant`: the position of the variant in the declaration. *)
  Definition discriminant (x : value Val d) : nat :=
    match position (fun v => (v_name v =? tag x)%string) d with
    | Some n => n
    | None => length d
    end.

  Definition field_index (x : value Val d) (f : ident) : option nat :=
    match fields_of d (tag x) with
    | Some fs => position (String.eqb f) fs
    | None => None
    end.
  Definition get_field (x : value Val d) (f : ident) : option Val :=
    match field_index x f with
    | Some i => nth_error (vals x) i
    | None => None
    end.
  Definition set_nth (i : nat) (v : Val) (l : list Val) : list Val :=
    firstn i l ++ match skipn i l with [] => [] | _ :: r => v :: r end.
  Definition set_field (x : value Val d) (f : ident) (v : Val) : value Val d :=
    match field_index x f with
    | Some i => with_vals x (set_nth i v (vals x))
    | None => x
    end.
End Values.
Arguments make {Val}.

(** All results, or none. *)
Fixpoint all_some {A} (l : list (option A)) : option (list A) :=
  match l with
  | [] => Some []
  | None :: _ => None
  | Some a :: l' => option_map (cons a) (all_some l')
  end.

Section Semantics.
  Variables Val Sh Ev Cx : Type.
  Variable g : generated.

  Notation State := (value Val (g_state_variants g)).
  Notation SuperV := (value Val (g_super_variants g)).

  (** An argument passed to one of the user's methods. *)
  Inductive arg : Type :=
  | AShared (sh : Sh)
  | AEvent (e : Ev)
  | AContext (cx : Cx)
  | AField (v : Val).

  (** The user's functions.  A method gets its arguments in the order of its parameters, and
      returns their values after the call.  [b_async]: the hook returns a future. *)
  Record bodies : Type := Bodies {
    b_handler : ident -> list arg -> reply (response State) * list arg;
    b_action : ident -> list arg -> reply unit * list arg;
    b_dispatch_hook : path -> Sh -> node State SuperV -> Ev -> reply unit * Sh;
    b_transition_hook : path -> Sh -> State -> State -> reply unit * Sh;
    b_async : path -> bool;
    b_initial : expr -> State
  }.
  Variable B : bodies.

  (** ** Scoping

      What an identifier means in an arm: a field bound by the pattern, else a parameter of
      the generated method (`call_entry_action` and `call_exit_action` have no event). *)
  Inductive slot : Type :=
  | SField (f : ident)
  | SShared
  | SEvent
  | SContext.
  Definition resolve (fields : list ident) (has_event : bool) (i : ident) : option slot :=
    if existsb (String.eqb i) fields then Some (SField i)
    else if (i =? "shared_storage")%string then Some SShared
    else if (has_event && (i =? g_event_ident g)%string)%bool then Some SEvent
    else if (i =? g_context_ident g)%string then Some SContext
    else None.

  Section Calls.
    Variable d : enum.
    Definition store : Type := value Val d * Sh * Cx.

    Definition read (s : store) (e : option Ev) (sl : slot) : option arg :=
      let '(x, sh, cx) := s in
      match sl with
      | SField f => option_map AField (get_field x f)
      | SShared => Some (AShared sh)
      | SEvent => option_map AEvent e
      | SContext => Some (AContext cx)
      end.
    Definition write (s : store) (sl : slot) (a : arg) : store :=
      let '(x, sh, cx) := s in
      match sl, a with
      | SField f, AField v => (set_field x f v, sh, cx)
      | SShared, AShared sh' => (x, sh', cx)
      | SContext, AContext cx' => (x, sh, cx')
      | _, _ => s
      end.
    Fixpoint write_all (s : store) (sls : list slot) (args : list arg) : store :=
      match sls, args with
      | sl :: sls', a :: args' => write_all (write s sl a) sls' args'
      | _, _ => s
      end.

    (** `Path::f(args)` in the arm of a pattern with the given fields.  (The failing cases do
        not compile.) *)
    Definition run_call {A} (run : ident -> list arg -> reply A * list arg)
        (fields : list ident) (e : option Ev) (f : ident) (args : list ident) (s : store)
      : reply A * store :=
      match all_some (map (resolve fields (match e with Some _ => true | None => false end)) args) with
      | None => (Panics, s)
      | Some sls =>
          match all_some (map (read s e) sls) with
          | None => (Panics, s)
          | Some as_ =>
              let '(r, as') := run f as_ in (r, write_all s sls as')
          end
      end.

    (** `match self { #arms, _ => .. }`: the first arm whose pattern matches. *)
    Definition select {T} (arms : list (pattern * T)) (n : ident) : option (pattern * T) :=
      find (fun a => (p_variant (fst a) =? n)%string) arms.

    (** `call_handler`. *)
    Definition run_handler (arms : list (pattern * code)) (x : value Val d) (sh : Sh) (cx : Cx)
        (e : Ev) : reply (response State) * value Val d * Sh * Cx :=
      match select arms (tag x) with
      | Some (p, Call _ f args _) =>
          let '(r, (x', sh', cx')) := run_call (b_handler B) (p_fields p) (Some e) f args (x, sh, cx) in
          (r, x', sh', cx')
      | Some (_, EmptyBlock) => (Panics, x, sh, cx)   (* does not compile: `()` is no response *)
      | None => (Returns Super, x, sh, cx)
      end.
    (** `call_entry_action`, `call_exit_action`. *)
    Definition run_action (arms : list (pattern * code)) (x : value Val d) (sh : Sh) (cx : Cx)
      : reply unit * value Val d * Sh * Cx :=
      match select arms (tag x) with
      | Some (p, Call _ f args _) =>
          let '(r, (x', sh', cx')) := run_call (b_action B) (p_fields p) None f args (x, sh, cx) in
          (r, x', sh', cx')
      | Some (_, EmptyBlock) => (Returns tt, x, sh, cx)
      | None => (Returns tt, x, sh, cx)
      end.

    (** `superstate`: `Some(Superstate::V { a, b })` borrows the fields [a], [b] of the node;
        when the borrow ends they have the values the superstate had. *)
    Definition run_superstate (arms : list (pattern * option pattern)) (x : value Val d)
      : option SuperV :=
      match select arms (tag x) with
      | Some (_, Some q) =>
          match fields_of (g_super_variants g) (p_variant q) with
          | Some fs =>
              match all_some (map (get_field x) fs) with
              | Some vs => make (g_super_variants g) (p_variant q) vs
              | None => None
              end
          | None => None
          end
      | _ => None
      end.
    Definition put_back (x : value Val d) (v : SuperV) : value Val d :=
      match fields_of (g_super_variants g) (tag v) with
      | Some fs => fold_left (fun x f => match get_field v f with
                                         | Some w => set_field x f w
                                         | None => x
                                         end) fs x
      | None => x
      end.
  End Calls.

  (** ** Hooks: `#hook(self, ..);` drops what the hook returns; if that is a future, it was
      never polled. *)
  Definition run_hook (c : hook_code) (run : path -> Sh -> reply unit * Sh) (sh : Sh)
    : reply unit * Sh :=
    match c with
    | NoHook => (Returns tt, sh)
    | HookStatement p => if b_async B p then (Returns tt, sh) else run p sh
    | HookFuture p => run p sh
    end.

  (** ** The generated machine *)
  Definition generated_machine : machine := {|
    Machine.State := State; Machine.Sup := SuperV; Machine.Shared := Sh; Machine.Event := Ev;
    Machine.Ctx := Cx;
    initial := b_initial B (g_initial g);
    s_disc := @discriminant Val _; u_disc := @discriminant Val _;
    s_super := run_superstate (superstate_arms (g_state_arms g));
    s_put := @put_back _;
    u_super := run_superstate (superstate_arms (g_super_arms g));
    u_put := @put_back _;
    s_handler := run_handler (call_handler_arms (g_state_arms g));
    s_entry := run_action (call_entry_action_arms (g_state_arms g));
    s_exit := run_action (call_exit_action_arms (g_state_arms g));
    u_handler := run_handler (call_handler_arms (g_super_arms g));
    u_entry := run_action (call_entry_action_arms (g_super_arms g));
    u_exit := run_action (call_exit_action_arms (g_super_arms g));
    h_before_dispatch := fun sh n e =>
      run_hook (g_before_dispatch g) (fun p sh => b_dispatch_hook B p sh n e) sh;
    h_after_dispatch := fun sh n e =>
      run_hook (g_after_dispatch g) (fun p sh => b_dispatch_hook B p sh n e) sh;
    h_before_transition := fun sh a b =>
      run_hook (g_before_transition g) (fun p sh => b_transition_hook B p sh a b) sh;
    h_after_transition := fun sh a b =>
      run_hook (g_after_transition g) (fun p sh => b_transition_hook B p sh a b) sh
  |}.

  (** ** Constructors: `State::name(args)`.

      [eval]: the value of an expression given the constructor's arguments; [default]:
      `Default::default()` at the type of the field. *)
  Variable eval : expr -> (ident -> option Val) -> Val.
  Variable default : ty -> Val.
  Definition lookup_arg (args : list (ident * Val)) (i : ident) : option Val := hm_get i args.
  Definition value_name (fv : field_value) : ident :=
    match fv with FvArgument i | FvDefault i | FvExpr i _ => i end.
  (** The struct literal names every field; the value of field [f]. *)
  Definition literal_value (fvs : list field_value) (args : list (ident * Val)) (f : field)
    : option Val :=
    match find (fun fv => (value_name fv =? f_name f)%string) fvs with
    | Some (FvArgument i) => lookup_arg args i
    | Some (FvDefault _) => Some (default (f_ty f))
    | Some (FvExpr _ e) => Some (eval e (lookup_arg args))
    | None => None
    end.
  Definition construct (name : ident) (actuals : list Val) : option State :=
    match find (fun c => (n_name c =? name)%string) (g_constructors g) with
    | None => None
    | Some c =>
        if Nat.eqb (length actuals) (length (n_args c)) then
          let args := combine (map f_name (n_args c)) actuals in
          match find (fun v => (v_name v =? n_variant c)%string) (g_state_variants g) with
          | None => None
          | Some v =>
              match all_some (map (literal_value (n_values c) args) (v_fields v)) with
              | Some vs => make (g_state_variants g) (n_variant c) vs
              | None => None
              end
          end
        else None
    end.
End Semantics.
Arguments AShared {Val Sh Ev Cx}.
Arguments AEvent {Val Sh Ev Cx}.
Arguments AContext {Val Sh Ev Cx}.
Arguments AField {Val Sh Ev Cx}.

(** ** Checks made by the Rust compiler

    Only those needed to give the generated code a meaning; rustc also checks types and
    borrows.  With the error codes. *)
Section Compiles.
  Variable g : generated.

  Definition all_variants : list variant := g_state_variants g ++ g_super_variants g.
  Definition async_method (f : ident) (b : bool) : Prop :=
    exists m, In m (methods (g_impl g)) /\ m_name m = f /\ m_async m = b.
  (** E0425 (unresolved name), E0499 (borrowed twice), E0308/E0277 (an async method that is
      not awaited, or the converse). *)
  Definition call_ok (p : pattern) (has_event : bool) (c : code) : Prop :=
    match c with
    | EmptyBlock => True
    | Call _ f args awaited =>
        (forall i, In i args ->
           In i (p_fields p) \/ i = "shared_storage" \/ (has_event = true /\ i = g_event_ident g) \/
           i = g_context_ident g) /\
        NoDup args /\ async_method f awaited
    end.
  Definition arms_ok (a : arms) : Prop :=
    (forall p c, In (p, c) (call_handler_arms a) -> call_ok p true c) /\
    (forall p c, In (p, c) (call_entry_action_arms a) -> call_ok p false c) /\
    (forall p c, In (p, c) (call_exit_action_arms a) -> call_ok p false c) /\
    (forall p q, In (p, Some q) (superstate_arms a) ->
       forall i, In i (p_fields q) -> In i (p_fields p)).

  Record compiles : Prop := {
    (* E0592, duplicate methods *)
    co_methods : NoDup (map m_name (methods (g_impl g)));
    (* E0428, duplicate variants *)
    co_state_variants : NoDup (map v_name (g_state_variants g));
    co_super_variants : NoDup (map v_name (g_super_variants g));
    (* E0124, duplicate fields *)
    co_fields : forall v, In v all_variants -> NoDup (map f_name (v_fields v));
    (* E0415, duplicate parameters of the generated methods *)
    co_params : NoDup ["shared_storage"; g_event_ident g; g_context_ident g];
    co_state_arms : arms_ok (g_state_arms g);
    co_super_arms : arms_ok (g_super_arms g)
  }.
End Compiles.
