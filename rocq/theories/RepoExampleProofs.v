(** RepoExampleProofs.v — the examples written with and without the macro are similar. *)

From Coq Require Import String Ascii List Bool Arith Lia.
From Verif Require Import MacroSyntax MacroVisit MacroAnalyze MacroLower MacroGen MacroSem MacroSpec MacroOrderSpec MacroSource MacroExamples.
From Verif Require Import Machine Blocking Api Spec Sim RepoExamples.
From Verif Require Import MacroSourceProofs.
Import ListNotations.
Open Scope string_scope.
Open Scope list_scope.
Set Implicit Arguments.

(** Replace a generated value by the one it stands for. *)
Ltac same_value :=
  repeat match goal with
  | x : value _ _ |- _ => destruct x as [? ? ?]
  end;
  unfold by_name in *; cbn [tag vals] in *;
  repeat match goal with
  | H : (_, _) = _ |- _ => injection H as -> ->
  end.
Ltac cases :=
  repeat match goal with
  | x : basic_state |- _ => destruct x
  | x : blinky_state |- _ => destruct x
  | x : blinky_super |- _ => destruct x
  | x : blinky_event |- _ => destruct x
  | x : dish_state |- _ => destruct x
  | x : dish_super |- _ => destruct x
  | x : dish_event |- _ => destruct x
  | x : cd_state |- _ => destruct x
  | x : cd_event |- _ => destruct x
  | x : barrier_state |- _ => destruct x
  | x : barrier_super |- _ => destruct x
  | x : barrier_event |- _ => destruct x
  | x : bool |- _ => destruct x
  | x : unit |- _ => destruct x
  end.
Ltac by_cases :=
  intros;
  repeat match goal with
  | H : node_rel _ _ _ _ |- _ => destruct H
  end;
  cbn [r_state r_sup r_shared r_event r_ctx by_names basic cd_player blinky_machine dishwasher barrier
       State Sup Shared Event Ctx generated_machine] in *;
  subst; cases; same_value; try discriminate;
  vm_compute; repeat (constructor || assumption || (intros; discriminate) || reflexivity || (intros; assumption)).

Definition code_of (args : list meta) (item : item_impl) : generated := output (expand all_forward args item).
Definition basic_code : generated := Eval vm_compute in code_of basic_args basic_impl.
Lemma basic_expands : expand all_forward basic_args basic_impl = Done basic_code.
Proof. vm_compute. reflexivity. Qed.
Lemma basic_compiles : compiles basic_code.
Proof. apply compilesb_ok. vm_compute. reflexivity. Qed.
Definition basic_first : value unit (g_state_variants basic_code).
Proof. refine (Value (g_state_variants basic_code) "Off" [] _). vm_compute. reflexivity. Defined.
Lemma basic_built : built basic_source basic_code (Built "off" []) = Some basic_first.
Proof. vm_compute. reflexivity. Qed.

Lemma basic_similar : similar (@by_names unit bool basic basic_source basic_name (fun _ => ("", [])) eq basic_code basic_first).
Proof. constructor; by_cases. Qed.

Definition blinky_main_code : generated := Eval vm_compute in code_of blinky_main_args blinky_impl.
Lemma blinky_main_expands : expand all_forward blinky_main_args blinky_impl = Done blinky_main_code.
Proof. vm_compute. reflexivity. Qed.
Lemma blinky_main_compiles : compiles blinky_main_code.
Proof. apply compilesb_ok. vm_compute. reflexivity. Qed.
Definition blinky_main_first : value unit (g_state_variants blinky_main_code).
Proof. refine (Value (g_state_variants blinky_main_code) "LedOn" [] _). vm_compute. reflexivity. Defined.
Lemma blinky_main_built : built blinky_source blinky_main_code (Built "led_on" []) = Some blinky_main_first.
Proof. vm_compute. reflexivity. Qed.
Lemma blinky_main_similar : similar (@by_names unit unit blinky_machine blinky_source blinky_name blinky_super_name eq blinky_main_code blinky_main_first).
Proof. constructor; by_cases. Qed.

Definition async_blinky_code : generated := Eval vm_compute in code_of async_blinky_args async_blinky_impl.
Lemma async_blinky_expands : expand all_forward async_blinky_args async_blinky_impl = Done async_blinky_code.
Proof. vm_compute. reflexivity. Qed.
Lemma async_blinky_compiles : compiles async_blinky_code.
Proof. apply compilesb_ok. vm_compute. reflexivity. Qed.
Definition async_blinky_first : value unit (g_state_variants async_blinky_code).
Proof. refine (Value (g_state_variants async_blinky_code) "LedOn" [] _). vm_compute. reflexivity. Defined.
Lemma async_blinky_built : built async_blinky_source async_blinky_code (Built "led_on" []) = Some async_blinky_first.
Proof. vm_compute. reflexivity. Qed.
Lemma async_blinky_similar : similar (@by_names unit unit blinky_machine async_blinky_source blinky_name blinky_super_name eq async_blinky_code async_blinky_first).
Proof. constructor; by_cases. Qed.

Definition dish_code : generated := Eval vm_compute in code_of dish_args dish_impl.
Lemma dish_expands : expand all_forward dish_args dish_impl = Done dish_code.
Proof. vm_compute. reflexivity. Qed.
Lemma dish_compiles : compiles dish_code.
Proof. apply compilesb_ok. vm_compute. reflexivity. Qed.
Definition dish_first : value unit (g_state_variants dish_code).
Proof. refine (Value (g_state_variants dish_code) "Idle" [] _). vm_compute. reflexivity. Defined.
Lemma dish_built : built dish_source dish_code (Built "idle" []) = Some dish_first.
Proof. vm_compute. reflexivity. Qed.
Lemma dish_similar : similar (@by_names unit (ident * list unit) dishwasher dish_source dish_name dish_super_name (fun p q => p = dish_name q) dish_code dish_first).
Proof. constructor; by_cases. Qed.

Definition cd_code : generated := Eval vm_compute in code_of cd_args cd_impl.
Lemma cd_expands : expand all_forward cd_args cd_impl = Done cd_code.
Proof. vm_compute. reflexivity. Qed.
Lemma cd_compiles : compiles cd_code.
Proof. apply compilesb_ok. vm_compute. reflexivity. Qed.
Definition cd_first : value unit (g_state_variants cd_code).
Proof. refine (Value (g_state_variants cd_code) "Empty" [] _). vm_compute. reflexivity. Defined.
Lemma cd_built : built cd_source cd_code (Built "empty" []) = Some cd_first.
Proof. vm_compute. reflexivity. Qed.
Lemma cd_similar : similar (@by_names unit unit cd_player cd_source cd_name (fun _ => ("", [])) eq cd_code cd_first).
Proof. constructor; by_cases. Qed.

Definition async_cd_code : generated := Eval vm_compute in code_of cd_args async_cd_impl.
Lemma async_cd_expands : expand all_forward cd_args async_cd_impl = Done async_cd_code.
Proof. vm_compute. reflexivity. Qed.
Lemma async_cd_compiles : compiles async_cd_code.
Proof. apply compilesb_ok. vm_compute. reflexivity. Qed.
Definition async_cd_first : value unit (g_state_variants async_cd_code).
Proof. refine (Value (g_state_variants async_cd_code) "Empty" [] _). vm_compute. reflexivity. Defined.
Lemma async_cd_built : built cd_source async_cd_code (Built "empty" []) = Some async_cd_first.
Proof. vm_compute. reflexivity. Qed.
Lemma async_cd_similar : similar (@by_names unit unit cd_player cd_source cd_name (fun _ => ("", [])) eq async_cd_code async_cd_first).
Proof. constructor; by_cases. Qed.

Definition barrier_code : generated := Eval vm_compute in code_of barrier_args barrier_impl.
Lemma barrier_expands : expand all_forward barrier_args barrier_impl = Done barrier_code.
Proof. vm_compute. reflexivity. Qed.
Lemma barrier_compiles : compiles barrier_code.
Proof. apply compilesb_ok. vm_compute. reflexivity. Qed.
Definition barrier_first : value bool (g_state_variants barrier_code).
Proof. refine (Value (g_state_variants barrier_code) "Initializing" [true; false; false] _). vm_compute. reflexivity. Defined.
Lemma barrier_built : built barrier_source barrier_code (Built "initializing" []) = Some barrier_first.
Proof. vm_compute. reflexivity. Qed.
Lemma barrier_similar : similar (@by_names bool unit barrier barrier_source barrier_name barrier_super_name eq barrier_code barrier_first).
Proof. constructor; by_cases. Qed.
