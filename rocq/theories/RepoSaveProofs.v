(** RepoSaveProofs.v — lemmas about the machine of the serde test. *)

From Coq Require Import String List Bool Arith Lia.
From Verif Require Import MacroSyntax MacroVisit MacroAnalyze MacroLower MacroGen MacroSem MacroSpec MacroOrderSpec MacroSource MacroExamples.
From Verif Require Import Machine Blocking Api Spec Sim Serde AnySpec SaveSpec RepoExamples RepoSpec RepoSave.
From Verif Require Import MacroSourceProofs RepoExampleProofs.
Import ListNotations.
Open Scope string_scope.
Open Scope list_scope.
Set Implicit Arguments.

Definition save_code : generated := Eval vm_compute in code_of save_args save_impl.
Lemma save_expands : expand all_forward save_args save_impl = Done save_code.
Proof. vm_compute. reflexivity. Qed.
Lemma save_compiles : compiles save_code.
Proof. apply compilesb_ok. vm_compute. reflexivity. Qed.
Definition save_first : value unit (g_state_variants save_code).
Proof. refine (Value (g_state_variants save_code) "LedOn" [] _). vm_compute. reflexivity. Defined.
Lemma save_built : built save_source save_code (Built "led_on" []) = Some save_first.
Proof. vm_compute. reflexivity. Qed.
Ltac by_cases_too :=
  intros;
  repeat match goal with
  | H : node_rel _ _ _ _ |- _ => destruct H
  end;
  cbn [r_state r_sup r_shared r_event r_ctx by_names save_blinky
       State Sup Shared Event Ctx generated_machine] in *;
  subst; cases; same_value; try discriminate;
  vm_compute; repeat (constructor || assumption || (intros; discriminate) || reflexivity || (intros; assumption)).
Lemma save_similar : similar (@by_names unit bool save_blinky save_source blinky_name blinky_super_name eq save_code save_first).
Proof. constructor; by_cases_too. Qed.
Lemma save_agrees : agrees save_blinky save_source blinky_name blinky_super_name eq save_args save_impl (Built "led_on" []).
Proof.
  exact (@every_order unit bool save_blinky save_source blinky_name blinky_super_name eq all_forward save_args save_impl
           save_code (Built "led_on" []) save_first save_expands save_compiles save_built save_similar).
Qed.

Lemma save_quiet : quiet_entries save_blinky.
Proof. split; intros; reflexivity. Qed.
Lemma save_up n : goes_up save_blinky (S n) (fun _ => 0).
Proof. split; intros; [discriminate|lia..]. Qed.
Lemma save_round f : round_trips save_blinky (save_ser_shared f) save_ser_state save_de_shared save_de_state.
Proof.
  split.
  - intros led d H. inversion H; subst. destruct f as [[] ?], led; reflexivity.
  - intros x d H. inversion H; subst. destruct x; reflexivity.
Qed.
Lemma save_serializable : serializable (m := save_blinky) save_ser_shared (fun _ => save_ser_state).
Proof. split; intros; eexists; reflexivity. Qed.

Lemma save_step n md (b : bool) (l : light) (led : bool) (e : blinky_event) :
  let r := handle_with_context (S (S n)) md (StateMachine (@Inner save_blinky led (light_state l)) b) e tt in
  a_out r = Ret tt /\ sm_inner (a_machine r) = @Inner save_blinky led (light_state (use_light l e)).
Proof. destruct l as [[] []], b, e, md, led; vm_compute; split; reflexivity. Qed.
Lemma handles_cons (m : machine) stack md (sm : state_machine m) e cx evs :
  let r := handle_with_context stack md sm e cx in
  let h := sm_handles stack md (a_machine r) evs in
  sm_handles stack md sm ((e, cx) :: evs) = (fst h, Called (a_out r) (Some (a_cx r)) (a_tr r) :: snd h).
Proof. cbv zeta. cbn [sm_handles]. destruct (sm_handles stack md _ evs). reflexivity. Qed.
Lemma save_steps n md (evs : list blinky_event) : forall (b : bool) (l : light) (led : bool),
  let r := sm_handles (S (S n)) md (StateMachine (@Inner save_blinky led (light_state l)) b) (no_context evs) in
  completed (snd r) /\ sm_inner (fst r) = @Inner save_blinky led (light_state (fold_left use_light evs l)).
Proof.
  induction evs as [|e evs IH]; intros b l led; [split; [constructor|reflexivity]|].
  cbv zeta. change (no_context (e :: evs)) with ((e, tt) :: no_context evs).
  pose proof (@handles_cons save_blinky (S (S n)) md (StateMachine (@Inner save_blinky led (light_state l)) b) e tt (no_context evs)) as C.
  cbv zeta in C. destruct (save_step n md b l led e) as [O I].
  destruct (handle_with_context (S (S n)) md (StateMachine (@Inner save_blinky led (light_state l)) b) e tt) as [o [i' b'] c t].
  cbn [a_out a_machine sm_inner a_cx a_tr] in *. subst i'. destruct (IH b' (use_light l e) led) as [K1 K2].
  split.
  - refine (eq_ind_r (fun z => completed (snd z)) _ C). constructor; [exact O|exact K1].
  - refine (eq_ind_r (fun z => sm_inner (fst z) = _) _ C). exact K2.
Qed.
