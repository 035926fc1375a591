(** RepoTestProofs.v — the machines of the tests: generated and written by hand are similar. *)

From Coq Require Import String Ascii List Bool Arith Lia.
From Verif Require Import MacroSyntax MacroVisit MacroAnalyze MacroLower MacroGen MacroSem MacroSpec MacroOrderSpec MacroSource MacroExamples.
From Verif Require Import Machine Blocking Api Spec Sim RepoExamples RepoTests.
From Verif Require Import MacroSourceProofs.
Import ListNotations.
Open Scope string_scope.
Open Scope list_scope.
Set Implicit Arguments.

Ltac same_value :=
  repeat match goal with
  | x : value _ _ |- _ => destruct x as [? ? ?]
  end;
  unfold by_name in *; cbn [tag vals] in *;
  repeat match goal with
  | H : (_, _) = _ |- _ => injection H as -> ->
  end.
Ltac cases :=
  repeat match goal with
  | x : foo_state |- _ => destruct x
  | x : foo_super |- _ => destruct x
  | x : foo_event |- _ => destruct x
  | x : hooks_state |- _ => destruct x
  | x : counter_state |- _ => destruct x
  | x : counter_event |- _ => destruct x
  | x : gen_state _ |- _ => destruct x
  | x : gen_super _ |- _ => destruct x
  | x : generic_event _ |- _ => destruct x
  | x : rec_state |- _ => destruct x
  | x : flags |- _ => destruct x
  | x : (nat * nat)%type |- _ => destruct x
  | x : unit |- _ => destruct x
  end.
Ltac prepare :=
  intros;
  repeat match goal with
  | H : node_rel _ _ _ _ |- _ => destruct H
  end;
  cbn [r_state r_sup r_shared r_event r_ctx by_names foo foo_bar counter gen_machine receiver
       State Sup Shared Event Ctx generated_machine] in *;
  subst; cases; same_value; try discriminate.
Ltac finish :=
  vm_compute; repeat (constructor || assumption || (intros; discriminate) || reflexivity || (intros; assumption)).

Definition code_of (args : list meta) (item : item_impl) : generated := output (expand all_forward args item).

(** Foo. *)
Lemma snoc {A B} (R : A -> B -> Prop) l l' a b : Forall2 R l l' -> R a b -> Forall2 R (l ++ [a]) (l' ++ [b]).
Proof. intros H K. apply Forall2_app; [exact H|constructor; [exact K|constructor]]. Qed.
Definition foo_code : generated := Eval vm_compute in code_of foo_args foo_impl.
Lemma foo_expands : expand all_forward foo_args foo_impl = Done foo_code.
Proof. vm_compute. reflexivity. Qed.
Lemma foo_compiles : compiles foo_code.
Proof. apply compilesb_ok. vm_compute. reflexivity. Qed.
Definition foo_first : value unit (g_state_variants foo_code).
Proof. refine (Value (g_state_variants foo_code) "S11" [] _). vm_compute. reflexivity. Defined.
Lemma foo_built : built foo_source foo_code (Built "s11" []) = Some foo_first.
Proof. vm_compute. reflexivity. Qed.
Ltac pushed :=
  vm_compute; split; [constructor; reflexivity|split; [reflexivity|split; [|reflexivity]]];
  refine (@snoc _ _ _ _ _ _ _ _ _); [assumption|vm_compute; reflexivity].
Lemma foo_similar : similar (@by_names unit (list named_step) foo foo_source foo_name foo_super_name (Forall2 same_step) foo_code foo_first).
Proof.
  constructor; try (prepare; finish; fail).
  - prepare; pushed.
  - prepare; pushed.
  - prepare; pushed.
  - prepare; pushed.
Qed.
Definition async_foo_code : generated := Eval vm_compute in code_of foo_args async_foo_impl.
Lemma async_foo_expands : expand all_forward foo_args async_foo_impl = Done async_foo_code.
Proof. vm_compute. reflexivity. Qed.
Lemma async_foo_compiles : compiles async_foo_code.
Proof. apply compilesb_ok. vm_compute. reflexivity. Qed.
Definition async_foo_first : value unit (g_state_variants async_foo_code).
Proof. refine (Value (g_state_variants async_foo_code) "S11" [] _). vm_compute. reflexivity. Defined.
Lemma async_foo_built : built foo_source async_foo_code (Built "s11" []) = Some async_foo_first.
Proof. vm_compute. reflexivity. Qed.
Lemma async_foo_similar : similar (@by_names unit (list named_step) foo foo_source foo_name foo_super_name (Forall2 same_step) async_foo_code async_foo_first).
Proof.
  constructor; try (prepare; finish; fail).
  - prepare; pushed.
  - prepare; pushed.
  - prepare; pushed.
  - prepare; pushed.
Qed.

(** FooBar. *)
Definition hooks_code : generated := Eval vm_compute in code_of hooks_args hooks_impl.
Lemma hooks_expands : expand all_forward hooks_args hooks_impl = Done hooks_code.
Proof. vm_compute. reflexivity. Qed.
Lemma hooks_compiles : compiles hooks_code.
Proof. apply compilesb_ok. vm_compute. reflexivity. Qed.
Definition hooks_first : value unit (g_state_variants hooks_code).
Proof. refine (Value (g_state_variants hooks_code) "Foo" [] _). vm_compute. reflexivity. Defined.
Lemma hooks_built : built (hooks_source false) hooks_code (Built "foo" []) = Some hooks_first.
Proof. vm_compute. reflexivity. Qed.
Lemma hooks_similar : similar (@by_names unit flags foo_bar (hooks_source false) hooks_name (fun _ => ("", [])) eq hooks_code hooks_first).
Proof. constructor; prepare; finish. Qed.
Definition async_hooks_code : generated := Eval vm_compute in code_of hooks_args async_hooks_impl.
Lemma async_hooks_expands : expand all_forward hooks_args async_hooks_impl = Done async_hooks_code.
Proof. vm_compute. reflexivity. Qed.
Lemma async_hooks_compiles : compiles async_hooks_code.
Proof. apply compilesb_ok. vm_compute. reflexivity. Qed.
Definition async_hooks_first : value unit (g_state_variants async_hooks_code).
Proof. refine (Value (g_state_variants async_hooks_code) "Foo" [] _). vm_compute. reflexivity. Defined.
Lemma async_hooks_built : built (hooks_source true) async_hooks_code (Built "foo" []) = Some async_hooks_first.
Proof. vm_compute. reflexivity. Qed.
Lemma async_hooks_similar : similar (@by_names unit flags foo_bar (hooks_source true) hooks_name (fun _ => ("", [])) eq async_hooks_code async_hooks_first).
Proof. constructor; prepare; finish. Qed.

(** Counter. *)
Definition counter_code : generated := Eval vm_compute in code_of counter_args counter_impl.
Lemma counter_expands : expand all_forward counter_args counter_impl = Done counter_code.
Proof. vm_compute. reflexivity. Qed.
Lemma counter_compiles : compiles counter_code.
Proof. apply compilesb_ok. vm_compute. reflexivity. Qed.
Definition counter_first : value unit (g_state_variants counter_code).
Proof. refine (Value (g_state_variants counter_code) "Up" [] _). vm_compute. reflexivity. Defined.
Lemma counter_built max : built (counter_source max) counter_code (Built "up" []) = Some counter_first.
Proof. vm_compute. reflexivity. Qed.
Lemma counter_similar max : similar (@by_names unit unit (counter max) (counter_source max) counter_name (fun _ => ("", [])) eq counter_code counter_first).
Proof. constructor; prepare; finish. Qed.

(** Machine<T>. *)
Definition gen_code : generated := Eval vm_compute in code_of machine_args machine_impl.
Lemma gen_expands : expand all_forward machine_args machine_impl = Done gen_code.
Proof. vm_compute. reflexivity. Qed.
Lemma gen_compiles : compiles gen_code.
Proof. apply compilesb_ok. vm_compute. reflexivity. Qed.
Definition gen_first T : value (generic_val T) (g_state_variants gen_code).
Proof. refine (Value (g_state_variants gen_code) "Foo" [] _). vm_compute. reflexivity. Defined.
Lemma gen_built T (d : T) n : built (machine_source d n) gen_code (Built "foo" []) = Some (gen_first T).
Proof. vm_compute. reflexivity. Qed.
Lemma gen_similar T (d : T) n : similar (@by_names (generic_val T) unit (gen_machine d n) (machine_source d n) gen_name gen_super_name eq gen_code (gen_first T)).
Proof. constructor; prepare; finish. Qed.

(** Receiver. *)
Definition rec_code : generated := Eval vm_compute in code_of receiver_args receiver_impl.
Lemma rec_expands : expand all_forward receiver_args receiver_impl = Done rec_code.
Proof. vm_compute. reflexivity. Qed.
Lemma rec_compiles : compiles rec_code.
Proof. apply compilesb_ok. vm_compute. reflexivity. Qed.
Definition rec_first : value unit (g_state_variants rec_code).
Proof. refine (Value (g_state_variants rec_code) "On" [] _). vm_compute. reflexivity. Defined.
Lemma rec_built io : built (receiver_source io) rec_code (Built "on" []) = Some rec_first.
Proof. vm_compute. reflexivity. Qed.
Lemma rec_similar io : similar (@by_names unit (list attempt) (receiver io) (receiver_source io) rec_name (fun _ => ("", [])) eq rec_code rec_first).
Proof.
  constructor; prepare; vm_compute;
  repeat match goal with |- context [io ?l ?s] => destruct (io l s) as [[]| |] end;
  repeat (constructor || assumption || (intros; discriminate) || reflexivity || (intros; assumption)).
Qed.
