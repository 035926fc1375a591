(** MacroGen.v — macro/src/codegen.rs and macro/src/lib.rs: the generated code.
    No proofs here. *)

From Coq Require Import String List Bool Arith.
From Verif Require Import MacroSyntax MacroVisit MacroAnalyze MacroLower.
Import ListNotations.
Open Scope string_scope.
Open Scope list_scope.
Set Implicit Arguments.

(** The bodies of a hook method of `impl IntoStateMachine` (:60-154): absent; a statement
    `hook(self, ..);` whose value is dropped; or `hook(self, ..)` returned as the future. *)
Inductive hook_code : Type :=
| NoHook
| HookStatement (hook : path)
| HookFuture (hook : path).
Definition codegen_hook (m : macro_mode) (hook : option path) : hook_code :=
  match hook with
  | None => NoHook
  | Some p => match m with MBlocking => HookStatement p | MAwaitable => HookFuture p end
  end.

(** The arms of the four generated `match self` of one enum, without the last arm of each,
    which is `_ => Response::Super`, `_ => {}`, `_ => {}`, `_ => None`. *)
Record arms : Type := Arms {
  call_handler_arms : list (pattern * code);
  call_entry_action_arms : list (pattern * code);
  call_exit_action_arms : list (pattern * code);
  superstate_arms : list (pattern * option pattern)
}.

Record generated : Type := Generated {
  g_impl : item_impl;                 (* the impl block, as left by `analyze` *)
  g_mode : macro_mode;                (* `statig::blocking` or `statig::awaitable` *)
  g_event_type : ty;
  g_context_type : ty;
  g_initial : expr;
  g_before_transition : hook_code;
  g_after_transition : hook_code;
  g_before_dispatch : hook_code;
  g_after_dispatch : hook_code;
  g_visibility : visibility;
  g_state_ident : ident;
  g_state_derives : list path;
  g_state_generics : list generic_param;
  g_state_variants : list variant;
  g_constructors : list constructor;
  g_state_arms : arms;
  g_super_ident : ident;
  g_super_derives : list path;
  g_super_generics : list generic_param;
  g_super_variants : list variant;
  g_super_arms : arms;
  g_event_ident : ident;              (* parameter names of the generated methods *)
  g_context_ident : ident
}.

(** :215-348 `codegen_state_impl_state`, :370-505 `codegen_superstate_impl_superstate`. *)
Definition codegen_state_arms (states : list l_state) : arms :=
  Arms (map (fun s => (ls_pat s, ls_handler s)) states)
       (map (fun s => (ls_pat s, ls_entry s)) states)
       (map (fun s => (ls_pat s, ls_exit s)) states)
       (map (fun s => (ls_pat s, ls_super s)) states).
Definition codegen_super_arms (supers : list l_super) : arms :=
  Arms (map (fun s => (lu_pat s, lu_handler s)) supers)
       (map (fun s => (lu_pat s, lu_entry s)) supers)
       (map (fun s => (lu_pat s, lu_exit s)) supers)
       (map (fun s => (lu_pat s, lu_super s)) supers).

(** :8-37 `codegen`, :39-175 `codegen_state_machine_impl`, :177-195 `codegen_state`,
    :197-213 `codegen_state_impl`, :350-368 `codegen_superstate`.  The maps of the [ir] are
    listed in their iteration order. *)
Definition codegen (i : ir) : generated :=
  let c := ir_config i in
  let states := map snd (ir_states i) in
  let supers := map snd (ir_supers i) in
  let hook := codegen_hook (ir_mode i) in
  Generated (ir_impl i) (ir_mode i) (ir_event_type i) (ir_context_type i) (c_initial c)
            (hook (c_before_transition c)) (hook (c_after_transition c))
            (hook (c_before_dispatch c)) (hook (c_after_dispatch c))
            (c_visibility c)
            (c_state_ident c) (c_state_derives c) (ir_state_generics i)
            (map ls_variant states) (map ls_constructor states) (codegen_state_arms states)
            (c_super_ident c) (c_super_derives c) (ir_super_generics i)
            (map lu_variant supers) (codegen_super_arms supers)
            (c_event_ident c) (c_context_ident c).

(** lib.rs:22-33 `state_machine`, after parsing. *)
Definition expand (o : orders) (args : list meta) (item : item_impl) : expansion generated :=
  do mo <- analyze args item;
  do i <- lower o mo;
  Done (codegen i).
