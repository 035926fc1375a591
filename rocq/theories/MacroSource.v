(** MacroSource.v — the functions of an annotated impl block as source text has them: they do
    not depend on the order in which the macro declares the variants of `State`.  Used to
    write down the examples of /repo/examples.  No proofs here. *)

From Coq Require Import String List Bool Arith.
From Verif Require Import MacroSyntax MacroVisit MacroAnalyze MacroLower MacroGen MacroSem MacroSpec MacroOrderSpec.
From Verif Require Import Machine Api Sim.
Import ListNotations.
Open Scope string_scope.
Open Scope list_scope.
Set Implicit Arguments.

(** A state as the source denotes it: by a call of a generated constructor
    (codegen.rs:127-142), or as a value it got hold of (a clone of a state seen before): a
    variant and its fields. *)
Inductive state_expr (Val : Type) : Type :=
| Built (name : ident) (actuals : list Val)    (* State::name(actuals) *)
| Copied (x : ident * list Val).               (* x.clone() *)
Arguments Built {Val} name actuals.
Arguments Copied {Val} x.

(** The bodies of the methods and hooks. [src_eval]: expressions in `#[default = ".."]`;
    [src_default]: `Default::default()`. *)
Record source (Val Sh Ev Cx : Type) : Type := Source {
  src_handler : ident -> list (arg Val Sh Ev Cx) -> reply (response (state_expr Val)) * list (arg Val Sh Ev Cx);
  src_action : ident -> list (arg Val Sh Ev Cx) -> reply unit * list (arg Val Sh Ev Cx);
  src_dispatch_hook : path -> Sh -> node (ident * list Val) (ident * list Val) -> Ev -> reply unit * Sh;
  src_transition_hook : path -> Sh -> ident * list Val -> ident * list Val -> reply unit * Sh;
  src_async : path -> bool;
  src_eval : expr -> (ident -> option Val) -> Val;
  src_default : ty -> Val
}.

Section Compile.
  Variables Val Sh Ev Cx : Type.
  Variable s : source Val Sh Ev Cx.
  Variable g : generated.

  (** The state denoted; [None]: does not compile. *)
  Definition built (t : state_expr Val) : option (value Val (g_state_variants g)) :=
    match t with
    | Built name actuals => construct g (src_eval s) (src_default s) name actuals
    | Copied x => read_by_name (g_state_variants g) x
    end.
  Definition compiled_reply (r : reply (response (state_expr Val)))
    : reply (response (value Val (g_state_variants g))) :=
    match r with
    | Returns Handled => Returns Handled
    | Returns Super => Returns Super
    | Returns (Transition t) => match built t with Some x => Returns (Transition x) | None => Panics end
    | Panics => Panics
    | Cancelled => Cancelled
    end.
  Definition seen_node (n : node (value Val (g_state_variants g)) (value Val (g_super_variants g)))
    : node (ident * list Val) (ident * list Val) :=
    match n with NState x => NState (by_name x) | NSuper u => NSuper (by_name u) end.

  (** The source compiled against the generated enums; [first] is the initial state. *)
  Definition compiled (first : value Val (g_state_variants g)) : bodies Val Sh Ev Cx g := {|
    b_handler := fun f args => (compiled_reply (fst (src_handler s f args)), snd (src_handler s f args));
    b_action := src_action s;
    b_dispatch_hook := fun p sh n e => src_dispatch_hook s p sh (seen_node n) e;
    b_transition_hook := fun p sh x y => src_transition_hook s p sh (by_name x) (by_name y);
    b_async := src_async s;
    b_initial := fun _ => first
  |}.
End Compile.

(** The generated machine and one written by hand: states and superstates correspond by name and
    fields, the shared storage as given, events and contexts are the same. *)
Section Agree.
  Variables Val Sh : Type.
  Variable hand : machine.
  Variable s : source Val Sh (Event hand) (Ctx hand).
  Variable name : State hand -> ident * list Val.
  Variable super_name : Sup hand -> ident * list Val.
  Variable shared : Sh -> Shared hand -> Prop.
  Definition by_names (g : generated) (first : value Val (g_state_variants g))
    : relations (generated_machine (compiled s g first)) hand :=
    Relations (generated_machine (compiled s g first)) hand
      (fun x y => by_name x = name y) (fun u v => by_name u = super_name v) shared eq eq.

  (** Whatever the iteration order [o], the macro accepts the annotated block, the result
      compiles, and driving it with any events in any mode does what driving the machine
      written by hand with them does: same states, same storage, and for each call the same
      outcome and the same callbacks on corresponding states. *)
  Definition agrees (args : list meta) (item : item_impl) (init : state_expr Val) : Prop :=
    forall o, exists g first,
      expand o args item = Done g /\ compiles g /\ built s g init = Some first /\
      forall stack md sh sh' evs, shared sh sh' ->
      let made := sm_handles stack md (new_state_machine (generated_machine (compiled s g first)) sh) evs in
      let written := sm_handles stack md (new_state_machine hand sh') evs in
      by_name (sm_state (fst made)) = name (sm_state (fst written)) /\
      shared (sm_shared (fst made)) (sm_shared (fst written)) /\
      initialized (fst made) = initialized (fst written) /\
      Forall2 (called_rel (by_names g first)) (snd made) (snd written).
End Agree.
