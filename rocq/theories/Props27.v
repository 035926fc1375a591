(** Props27.v — C78: the library computes what the reference interpreter computes.  Theorems
    only; see RefSpec.v. *)

From Coq Require Import String List Bool Arith Lia.
From Verif Require Import MacroSyntax MacroLower MacroGen MacroSem MacroSpec.
From Verif Require Import Machine Api Spec RefSpec Examples.
From Verif Require RefProofs Props7.
Import ListNotations.
Open Scope string_scope.
Open Scope list_scope.

(** C78.  Whatever a client does, in either mode, each call ends as the reference says, with
    the same calls into user code with the same arguments, the same context, shared storage and
    state — also when callbacks panic or are cancelled. *)
Theorem C78_reference :
  forall (h : hierarchy) (m : machine) (stack : nat) (md : mode)
         (ops : list (op m)) (sm : state_machine m) (cs : list (called m)) (sm' : state_machine m),
    well_formed h m stack -> faithful_views m ->
    history stack md ops sm cs sm' <-> ref_exec_all stack md ops sm = (cs, sm').
Proof.
  intros h m stack md ops sm cs sm' [Hf Hs Hh] Hv.
  exact (@RefProofs.history_ref h m Hf Hs Hv stack Hh md ops sm cs sm').
Qed.
Print Assumptions C78_reference.

(** Single calls. *)
Theorem C78_call :
  forall (h : hierarchy) (m : machine) (stack : nat) (md : mode) (o : op m) (sm : state_machine m),
    well_formed h m stack -> faithful_views m ->
    exec stack md o sm = ref_exec stack md o sm.
Proof.
  intros h m stack md o sm [Hf Hs Hh] Hv.
  exact (@RefProofs.exec_ref h m Hf Hs Hv stack Hh md o sm).
Qed.
Print Assumptions C78_call.

(** Every machine that the macro generates behaves so. *)
Theorem C78_generated :
  forall (o : orders) (args : list meta) (item : item_impl) (g : generated)
         (Val Sh Ev Cx : Type) (B : bodies Val Sh Ev Cx g) (stack : nat) (md : mode)
         (ops : list (op (generated_machine B))) (sm : state_machine (generated_machine B)) cs sm',
    expand o args item = Done g -> compiles g -> acyclic item ->
    1 <= stack -> length (filter (marked "superstate") (methods item)) <= stack ->
    history stack md ops sm cs sm' <-> ref_exec_all stack md ops sm = (cs, sm').
Proof.
  intros o args item g Val Sh Ev Cx B stack md ops sm cs sm' E CO AC S1 S2.
  destruct (Props7.C31_well_formed o args item g Val Sh Ev Cx B stack E CO AC S1 S2) as (h & W & V).
  exact (C78_reference h _ stack md ops sm cs sm' W V).
Qed.
Print Assumptions C78_generated.

(** In `On`, two superstates deep: the reference reads off the levels. *)
Example C78_case :
  well_formed demo_hierarchy (demo true) 2 /\ faithful_views (demo true) /\
  names (demo true) 2 (On 3) = [0; 1] /\ names (demo true) 2 (Idle 3) = [1] /\
  own_levels (demo true) 2 (On 3) (Idle 1) = 2 /\ own_levels (demo true) 2 (Idle 1) (On 3) = 1 /\
  own_levels (demo true) 2 (On 3) (On 9) = 1 /\ own_levels (demo true) 2 (On 3) Fault = 3 /\
  look (demo true) 2 (On 3) = Some (NSuper (Powered 3)) /\
  write (demo true) 2 (On 3) (NSuper (Powered 8)) = On 8 /\
  let r := ref_exec_all 2 AwaitableMode
             [OpInit (m := demo true) 0; OpHandle (m := demo true) Button 0;
              OpHandle (m := demo true) Button 0; OpHandle (m := demo true) Boom 0]
             (@new_state_machine (demo true) []) in
  map c_out (fst r) = [Ret tt; Ret tt; Ret tt; Abort Panicked] /\ sm_state (snd r) = On 10.
Proof.
  split; [apply demo_well_formed|]. split; [apply demo_views|].
  repeat split; vm_compute; reflexivity.
Qed.

(** If superstates are not views of the state — what is written to them gets lost — the library
    is not the reference: while it goes up, it still hands out the values it has borrowed. *)
Definition forgetful : machine := {|
  State := nat; Sup := bool * nat; Shared := unit; Event := unit; Ctx := unit; initial := 0;
  s_disc := fun _ => 0; u_disc := fun u => if fst u then 1 else 0;
  s_super := fun x => Some (false, x); s_put := fun x _ => x;
  u_super := fun u => if fst u then None else Some (true, snd u); u_put := fun u _ => u;
  s_handler := fun x sh cx _ => (Returns Super, x, sh, cx);
  s_entry := no_action; s_exit := no_action;
  u_handler := fun u sh cx _ => (Returns Super, (fst u, S (snd u)), sh, cx);
  u_entry := no_action; u_exit := no_action;
  h_before_dispatch := no_dispatch_hook; h_after_dispatch := no_dispatch_hook;
  h_before_transition := no_transition_hook; h_after_transition := no_transition_hook |}.
Theorem C78_views_needed :
  exists (h : hierarchy) (sm : state_machine forgetful),
    well_formed h forgetful 2 /\
    exec 2 AwaitableMode (OpHandle (m := forgetful) tt tt) sm <>
    ref_exec 2 AwaitableMode (OpHandle (m := forgetful) tt tt) sm.
Proof.
  exists {| leaf_parent := fun _ => Some 0; sup_parent := fun u => match u with 0 => Some 1 | _ => None end |}.
  exists (StateMachine (m := forgetful) (Inner (m := forgetful) tt 0) true). split.
  - constructor.
    + constructor; try reflexivity. intros [[] n]; reflexivity.
    + constructor; intros *; cbn; unfold no_action; intros H; injection H; intros; subst; reflexivity.
    + intros [|u]; [exists [0; 1]|exists [S u]]; (split; [repeat constructor|cbn; lia]).
  - vm_compute. discriminate.
Qed.
Print Assumptions C78_views_needed.
