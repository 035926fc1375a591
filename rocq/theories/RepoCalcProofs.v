(** RepoCalcProofs.v — the calculator written with the macro is similar to the one written by
    hand, but for one string. *)

From Coq Require Import String Ascii List Bool Arith Lia.
From Verif Require Import MacroSyntax MacroVisit MacroAnalyze MacroLower MacroGen MacroSem MacroSpec MacroOrderSpec MacroSource MacroExamples.
From Verif Require Import Machine Blocking Api Spec Sim RepoExamples.
From Verif Require Import MacroSourceProofs.
Import ListNotations.
Open Scope string_scope.
Open Scope list_scope.
Set Implicit Arguments.

Definition calc_code : generated := Eval vm_compute in output (expand all_forward calc_args calc_impl).
Lemma calc_expands : expand all_forward calc_args calc_impl = Done calc_code.
Proof. vm_compute. reflexivity. Qed.
Lemma calc_compiles : compiles calc_code.
Proof. apply compilesb_ok. vm_compute. reflexivity. Qed.

Section Calculator.
  Variable fl : floats.
  Definition calc_first : value (calc_val fl) (g_state_variants calc_code).
  Proof. refine (Value (g_state_variants calc_code) "Begin" [] _). vm_compute. reflexivity. Defined.
  Lemma calc_built : built (calc_source fl) calc_code (Built "begin" []) = Some calc_first.
  Proof. vm_compute. reflexivity. Qed.

  Notation R := (@by_names (calc_val fl) string (calculator_with fl "-0") (calc_source fl) (@calc_name fl) (@calc_super_name fl) eq calc_code calc_first).

  Ltac open_values :=
    repeat match goal with x : value _ _ |- _ => destruct x as [? ? ?] end;
    unfold by_name in *; cbn [tag vals] in *;
    repeat match goal with H : (_, _) = _ |- _ => injection H as -> -> end.
  Ltac prepare :=
    intros;
    repeat match goal with H : node_rel _ _ _ _ |- _ => destruct H end;
    cbn [r_state r_sup r_shared r_event r_ctx by_names calculator_with
         State Sup Shared Event Ctx generated_machine] in *;
    subst;
    repeat match goal with
    | x : calc_state _ |- _ => destruct x
    | x : calc_super _ |- _ => destruct x
    | x : unit |- _ => destruct x
    end;
    open_values; try discriminate.
  Ltac finish := vm_compute;
    repeat match goal with |- context [match ?x with Some _ => _ | None => _ end] => destruct x end;
    repeat (constructor || assumption || (intros; discriminate) || reflexivity || (intros; assumption)).

  Lemma calc_similar : similar R.
  Proof.
    constructor.
    - reflexivity.
    - prepare; finish.
    - prepare; finish.
    - prepare; finish.
    - prepare; finish.
    - prepare; finish.
    - prepare; finish.
    - prepare; match goal with e : calc_event |- _ => destruct e as [| |[|n]| |[]|] end; finish.
    - prepare; finish.
    - prepare; finish.
    - prepare; match goal with e : calc_event |- _ => destruct e as [| |[|n]| |[]|] end; finish.
    - prepare; finish.
    - prepare; finish.
    - intros sh sh' n n' e e' E _ _. split; [now constructor|exact E].
    - intros sh sh' n n' e e' E _ _. split; [now constructor|exact E].
    - intros sh sh' a a' b b' E _ _. split; [now constructor|exact E].
    - intros sh sh' a a' b b' E _ _. split; [now constructor|exact E].
  Qed.
End Calculator.
