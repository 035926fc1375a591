(** ConstSpec.v — what callbacks keep of a state's storage; vocabulary of C80.  No proofs
    here. *)

From Coq Require Import String List Bool Arith.
From Verif Require Import MacroSyntax MacroLower MacroGen MacroSem MacroSpec.
From Verif Require Import Machine Api Spec.
Import ListNotations.
Open Scope string_scope.
Open Scope list_scope.
Set Implicit Arguments.

(** [R n n']: seen from [n], the later value [n'] of the same state or superstate is as it should
    be — a field has not changed, a counter has not gone down.  Every handler and action sees
    to that for the node it is called for, and when a borrow ends it holds of the node if it
    holds of the superstate borrowed from it. *)
Record lasting (m : machine) (R : node (State m) (Sup m) -> node (State m) (Sup m) -> Prop) : Prop := {
  la_refl : forall n, R n n;
  la_trans : forall a b c, R a b -> R b c -> R a c;
  la_handler : forall n sh cx e r n' sh' cx', node_handler m n sh cx e = (r, n', sh', cx') -> R n n';
  la_entry : forall n sh cx r n' sh' cx', node_entry m n sh cx = (r, n', sh', cx') -> R n n';
  la_exit : forall n sh cx r n' sh' cx', node_exit m n sh cx = (r, n', sh', cx') -> R n n';
  la_s_put : forall x u u', s_super m x = Some u -> u_disc m u' = u_disc m u ->
    R (NSuper u) (NSuper u') -> R (NState x) (NState (s_put m x u'));
  la_u_put : forall u v v', u_super m u = Some v -> u_disc m v' = u_disc m v ->
    R (NSuper v) (NSuper v') -> R (NSuper u) (NSuper (u_put m u v'))
}.

(** The targets of the transitions that handlers asked for. *)
Definition targets {m : machine} (tr : list (obs m)) : list (State m) :=
  flat_map (fun o => match o with OReturn (Transition t) => [t] | _ => [] end) tr.

(** The client does not write the state. *)
Definition hands_off {m : machine} (o : op m) : Prop := match o with OpStateMut _ => False | _ => True end.

(** ** In the source of a generated machine *)
Section Source.
  Variable item : item_impl.

  (** If the method has a parameter called [f], it is a shared reference `&T`. *)
  Definition reads_only (f : ident) (m : impl_fn) : Prop :=
    forall attrs t, In (Typed (PatType attrs (PatIdent f) t)) (m_inputs m) ->
      exists l t', t = TReference l false t'.
  (** So do the handler and the actions of a node. *)
  Definition node_reads_only (kind : ident) (f : ident) (m : impl_fn) : Prop :=
    reads_only f m /\
    forall which a, which = "entry_action" \/ which = "exit_action" ->
      declared kind which m = Some (m_name a) -> In a (methods item) -> marked "action" a = true ->
      reads_only f a.
  (** [u] is a superstate of the state [m], directly or not. *)
  Definition around (m : impl_fn) (u : ident) : Prop :=
    exists v, declared "state" "superstate" m = Some v /\ (v = u \/ above item v u).
  (** And so do the state [m] and all superstates around it. *)
  Definition read_only (f : ident) (m : impl_fn) : Prop :=
    node_reads_only "state" f m /\
    forall mu, In mu (methods item) -> marked "superstate" mu = true -> around m (m_name mu) ->
      node_reads_only "superstate" f mu.

  (** The user's methods cannot write through a shared reference; and what they are given as
      storage, event or context remains that. *)
  Definition keeps_shared Val Sh Ev Cx (ps : list fn_arg) (as_ left : list (arg Val Sh Ev Cx)) : Prop :=
    Forall2 (@same_kind Val Sh Ev Cx) as_ left /\
    forall i attrs pat l t, nth_error ps i = Some (Typed (PatType attrs pat (TReference l false t))) ->
      nth_error left i = nth_error as_ i.
  Record borrow_checked Val Sh Ev Cx (g : generated) (B : bodies Val Sh Ev Cx g) : Prop := {
    bc_handler : forall m as_ r left, In m (methods item) -> marked "state" m = true \/ marked "superstate" m = true ->
      b_handler B (m_name m) as_ = (r, left) -> keeps_shared (m_inputs m) as_ left;
    bc_action : forall m as_ r left, In m (methods item) -> marked "action" m = true ->
      b_action B (m_name m) as_ = (r, left) -> keeps_shared (m_inputs m) as_ left
  }.
End Source.
