(** MacroTypedSpec.v — the types of the storage of a generated machine; vocabulary of C76. *)

From Coq Require Import String List Bool.
From Verif Require Import Machine Sim.
From Verif Require Import MacroSyntax MacroVisit MacroAnalyze MacroLower MacroGen MacroSem MacroSpec.
Import ListNotations.
Open Scope string_scope.
Open Scope list_scope.
Set Implicit Arguments.

Definition a_kind (kind : ident) : Prop := kind = "state" \/ kind = "superstate".

Section Source.
  Variable item : item_impl.
  (** The names of the event and context parameters. *)
  Variables ev cx : ident.

  (** The state (superstate) of the handler [m] keeps a value of type [t] under the name [f].
      A state owns its storage, a superstate has references to it. *)
  Definition keeps (kind : ident) (m : impl_fn) (f : ident) (t : ty) : Prop :=
    (kind = "state" /\ stores (local_storage "state" m) (parameter_fields ev cx m) (Field f t)) \/
    (kind = "superstate" /\ exists l mu,
       stores (local_storage "superstate" m) (borrowed_fields ev cx m) (Field f (TReference l mu t))).

  (** Every parameter in [ps] other than the event and the context is a reference to a value
      that [m] keeps under that name. *)
  Definition served (kind : ident) (m : impl_fn) (ps : list fn_arg) : Prop :=
    forall attrs f t, In (Typed (PatType attrs (PatIdent f) t)) ps -> f <> ev -> f <> cx ->
      exists l mu t', t = TReference l mu t' /\ keeps kind m f t'.

  (** The types in the impl block fit together. *)
  Record types_fit : Prop := {
    tf_handlers : forall kind m, a_kind kind -> In m (methods item) -> marked kind m = true ->
      served kind m (m_inputs m);
    tf_actions : forall kind m which a, a_kind kind -> In m (methods item) -> marked kind m = true ->
      which = "entry_action" \/ which = "exit_action" -> declared kind which m = Some (m_name a) ->
      In a (methods item) -> marked "action" a = true -> served kind m (m_inputs a);
    tf_superstates : forall kind m mu, a_kind kind -> In m (methods item) -> marked kind m = true ->
      declared kind "superstate" m = Some (m_name mu) ->
      In mu (methods item) -> marked "superstate" mu = true ->
      forall f t, keeps "superstate" mu f t -> keeps kind m f t;
    tf_references : forall m f t, In m (methods item) -> marked "superstate" m = true ->
      stores (local_storage "superstate" m) (borrowed_fields ev cx m) (Field f t) ->
      exists l mu t', t = TReference l mu t'
  }.

  Variables Val Sh Ev Cx : Type.
  (** [has t v]: the value [v] has the type [t]. *)
  Variable has : ty -> Val -> Prop.

  (** What is kept has the type it is declared with. *)
  Definition well_typed (kind : ident) (d : enum) (x : value Val d) : Prop :=
    forall m f t v, In m (methods item) -> marked kind m = true -> tag x = variant_of m ->
      keeps kind m f t -> get_field x f = Some v -> has t v.
  Definition node_typed (ds du : enum) (n : node (value Val ds) (value Val du)) : Prop :=
    match n with
    | NState x => well_typed "state" x
    | NSuper u => well_typed "superstate" u
    end.

  (** The argument [a] may be passed for the parameter [p]. *)
  Inductive suits : fn_arg -> arg Val Sh Ev Cx -> Prop :=
  | suits_self sh : suits Receiver (AShared sh)
  | suits_event pt e : pt_pat pt = PatIdent ev -> suits (Typed pt) (AEvent e)
  | suits_context pt c : pt_pat pt = PatIdent cx -> suits (Typed pt) (AContext c)
  | suits_field attrs f l mu t v : f <> ev -> f <> cx -> has t v ->
      suits (Typed (PatType attrs (PatIdent f) (TReference l mu t))) (AField v).

  Section Bodies.
    Variable g : generated.

    (** The user's methods are well typed: called with arguments of the types of their
        parameters, they leave such values, and return well-typed states. *)
    Record sound (B : bodies Val Sh Ev Cx g) : Prop := {
      sd_initial : well_typed "state" (b_initial B (g_initial g));
      sd_handler : forall m as_ r left, is_handler item m -> Forall2 suits (m_inputs m) as_ ->
        b_handler B (m_name m) as_ = (r, left) ->
        Forall2 suits (m_inputs m) left /\
        (forall t, r = Returns (Transition t) -> well_typed "state" t);
      sd_action : forall m as_ r left, In m (methods item) -> marked "action" m = true ->
        Forall2 suits (m_inputs m) as_ -> b_action B (m_name m) as_ = (r, left) ->
        Forall2 suits (m_inputs m) left
    }.

    (** The two programs do the same whenever their methods and hooks are given arguments of
        the declared types. *)
    Record agree (B B' : bodies Val Sh Ev Cx g) : Prop := {
      ag_initial : b_initial B (g_initial g) = b_initial B' (g_initial g);
      ag_async : forall p, b_async B p = b_async B' p;
      ag_handler : forall m as_, is_handler item m -> Forall2 suits (m_inputs m) as_ ->
        b_handler B (m_name m) as_ = b_handler B' (m_name m) as_;
      ag_action : forall m as_, In m (methods item) -> marked "action" m = true ->
        Forall2 suits (m_inputs m) as_ -> b_action B (m_name m) as_ = b_action B' (m_name m) as_;
      ag_dispatch_hook : forall p sh n e, node_typed n ->
        b_dispatch_hook B p sh n e = b_dispatch_hook B' p sh n e;
      ag_transition_hook : forall p sh a b, well_typed "state" a -> well_typed "state" b ->
        b_transition_hook B p sh a b = b_transition_hook B' p sh a b
    }.
  End Bodies.
End Source.

(** An entry of the log mentions only well-typed states and superstates. *)
Definition entry_typed (item : item_impl) (g : generated) (Val Sh Ev Cx : Type) (B : bodies Val Sh Ev Cx g)
    (has : ty -> Val -> Prop) (o : obs (generated_machine B)) : Prop :=
  let typed := fun n => @node_typed item (g_event_ident g) (g_context_ident g) Val has
                          (g_state_variants g) (g_super_variants g) n in
  match o with
  | OBeforeDispatch n _ | OHandler n _ | OAfterDispatch n _ | OExit n | OEnter n => typed n
  | OReturn (Transition t) => typed (NState t)
  | OReturn _ => True
  | OBeforeTransition a b | OAfterTransition a b => typed (NState a) /\ typed (NState b)
  end.
Arguments entry_typed item {g Val Sh Ev Cx} B has o.

(** Two programs compiled against the same generated code: nothing differs. *)
Definition equal_relations (Val Sh Ev Cx : Type) (g : generated) (B B' : bodies Val Sh Ev Cx g)
  : relations (generated_machine B) (generated_machine B') :=
  Relations (generated_machine B) (generated_machine B') eq eq eq eq eq.
