(** RepoRingProofs.v — BenchComplex: generated and written by hand are similar. *)

From Coq Require Import String Ascii List Bool Arith Lia.
From Verif Require Import MacroSyntax MacroVisit MacroAnalyze MacroLower MacroGen MacroSem MacroSpec MacroOrderSpec MacroSource MacroExamples.
From Verif Require Import Machine Blocking Api Spec Sim RepoExamples RepoTests.
From Verif Require Import MacroSourceProofs.
Import ListNotations.
Open Scope string_scope.
Open Scope list_scope.
Set Implicit Arguments.

Definition bench_code : generated := Eval vm_compute in output (expand all_forward bench_args bench_impl).
Lemma bench_expands : expand all_forward bench_args bench_impl = Done bench_code.
Proof. vm_compute. reflexivity. Qed.
Lemma bench_compiles : compiles bench_code.
Proof. apply compilesb_ok. vm_compute. reflexivity. Qed.
Definition bench_first : value unit (g_state_variants bench_code).
Proof. refine (Value (g_state_variants bench_code) "S1" [] _). vm_compute. reflexivity. Defined.
Definition async_bench_code : generated := Eval vm_compute in output (expand all_forward bench_args async_bench_impl).
Lemma async_bench_expands : expand all_forward bench_args async_bench_impl = Done async_bench_code.
Proof. vm_compute. reflexivity. Qed.
Lemma async_bench_compiles : compiles async_bench_code.
Proof. apply compilesb_ok. vm_compute. reflexivity. Qed.
Definition async_bench_first : value unit (g_state_variants async_bench_code).
Proof. refine (Value (g_state_variants async_bench_code) "S1" [] _). vm_compute. reflexivity. Defined.

Section Ring.
  Variable Ev : Type.
  Variable is : nat -> Ev -> bool.
  Lemma bench_built : built (bench_source is) bench_code (Built "s1" []) = Some bench_first.
  Proof. vm_compute. reflexivity. Qed.
  Lemma async_bench_built : built (bench_source is) async_bench_code (Built "s1" []) = Some async_bench_first.
  Proof. vm_compute. reflexivity. Qed.

  (** The states there are. *)
  Lemma ring_range n : (n <= 50 /\ In n (seq 0 51)) \/ ring_name n = ("", []).
  Proof.
    destruct (Nat.leb_spec n 50) as [H|H]; [left; split; [exact H|apply in_seq; lia]|right].
    unfold ring_name. destruct n as [|n]; [lia|]. cbn [Nat.eqb].
    destruct (Nat.leb_spec (S n) 50); [lia|reflexivity].
  Qed.
  Lemma ring_valid (g : generated) (x : value unit (g_state_variants g)) n :
    (forall v : list unit, shaped (g_state_variants g) "" v = false) -> by_name x = ring_name n ->
    In n (seq 0 51) /\ shaped (g_state_variants g) (fst (ring_name n)) (snd (ring_name n)) = true.
  Proof.
    intros N E. destruct x as [t v ok]. unfold by_name in E. cbn [tag vals] in E.
    destruct (ring_range n) as [[_ H]|H].
    - split; [exact H|]. rewrite <- E. exact ok.
    - rewrite H in E. injection E as -> ->. rewrite N in ok. discriminate ok.
  Qed.

  Ltac each :=
    match goal with
    | E : by_name ?x = ring_name ?n |- _ =>
        let I := fresh "I" in
        assert (I : In n (seq 0 51)) by (refine (proj1 (@ring_valid _ x n _ E)); intros; reflexivity);
        destruct x as [?t ?v ?ok]; unfold by_name in E; cbn [tag vals] in E;
        cbn [seq In] in I;
        repeat (destruct I as [<-|I]; [|]); [..|destruct I];
        vm_compute in E; injection E as -> ->
    end.
  Lemma bench_disc (x : value unit (g_state_variants bench_code)) n : by_name x = ring_name n -> discriminant x = n.
  Proof. intros E. each; vm_compute; reflexivity. Qed.
  Lemma async_bench_disc (x : value unit (g_state_variants async_bench_code)) n : by_name x = ring_name n -> discriminant x = n.
  Proof. intros E. each; vm_compute; reflexivity. Qed.

  Definition source_name (n : nat) : ident := if Nat.eqb n 0 then "idle" else s_number n.
  Ltac handlers := intros E; each; eexists; split; reflexivity.
  Lemma bench_handler (x : value unit (g_state_variants bench_code)) n e : by_name x = ring_name n ->
    exists x', run_handler (compiled (bench_source is) bench_code bench_first) (call_handler_arms (g_state_arms bench_code)) x tt tt e =
      (compiled_reply (bench_source is) bench_code
         (Returns (if is (S n) e then Transition (Built (source_name (next_in_ring n)) []) else Handled)), x', tt, tt) /\
      by_name x' = ring_name n.
  Proof. handlers. Qed.
  Lemma async_bench_handler (x : value unit (g_state_variants async_bench_code)) n e : by_name x = ring_name n ->
    exists x', run_handler (compiled (bench_source is) async_bench_code async_bench_first) (call_handler_arms (g_state_arms async_bench_code)) x tt tt e =
      (compiled_reply (bench_source is) async_bench_code
         (Returns (if is (S n) e then Transition (Built (source_name (next_in_ring n)) []) else Handled)), x', tt, tt) /\
      by_name x' = ring_name n.
  Proof. handlers. Qed.
  Ltac targets :=
    match goal with
    | |- In _ _ -> _ => let I := fresh "I" in intros I; cbn [seq In] in I; repeat (destruct I as [<-|I]; [|]); [..|destruct I];
        eexists; split; reflexivity
    end.
  Lemma bench_target n : In n (seq 0 51) ->
    exists y, built (bench_source is) bench_code (Built (source_name n) []) = Some y /\ by_name y = ring_name n.
  Proof. targets. Qed.
  Lemma async_bench_target n : In n (seq 0 51) ->
    exists y, built (bench_source is) async_bench_code (Built (source_name n) []) = Some y /\ by_name y = ring_name n.
  Proof. targets. Qed.
  Lemma next_in n : In n (seq 0 51) -> In (next_in_ring n) (seq 0 51).
  Proof.
    rewrite !in_seq. intros H. unfold next_in_ring. destruct (Nat.eqb_spec n 0); [lia|]. destruct (Nat.eqb_spec n 50); lia.
  Qed.

  Notation R := (@by_names unit unit (ring is) (bench_source is) ring_name (fun _ => ("", [])) eq bench_code bench_first).
  Notation R' := (@by_names unit unit (ring is) (bench_source is) ring_name (fun _ => ("", [])) eq async_bench_code async_bench_first).
  Ltac start := cbn [r_state r_sup r_shared r_event r_ctx by_names ring State Sup Shared Event Ctx generated_machine];
    intros; subst.
  Ltac no_supers := match goal with H : by_name ?x = ("", []) |- _ =>
    exfalso; destruct x as [?t ?v ?ok]; unfold by_name in H; cbn [tag vals] in H; injection H as -> ->; discriminate end.
  Ltac finish := vm_compute;
    repeat match goal with |- context [is ?k ?e] => destruct (is k e) end;
    repeat (constructor || assumption || (intros; discriminate) || reflexivity || (intros; assumption)).
  Ltac units := repeat match goal with x : unit |- _ => destruct x end.
  Ltac handled H T :=
    start; units;
    match goal with A : by_name ?x = ring_name ?n |- context [s_handler (ring is) _ _ _ ?e] =>
      let x' := fresh "x'" in let X := fresh "X" in let N := fresh "N" in let I := fresh "I" in
      assert (I : In n (seq 0 51)) by (refine (proj1 (@ring_valid _ x n _ A)); intros; reflexivity);
      destruct (H x n e A) as (x' & X & N);
      cbn [s_handler generated_machine];
      match type of X with ?l = ?r =>
        match goal with |- callback_rel ?RR ?RA ?RX ?c ?c' => change (callback_rel RR RA RX l c') end; rewrite X end;
      cbn [s_handler ring only_shared callback_rel];
      let y := fresh "y" in let Y := fresh "Y" in let M := fresh "M" in
      destruct (T (next_in_ring n) (@next_in n I)) as (y & Y & M);
      destruct (is (S n) e); cbn [compiled_reply]; rewrite ?Y;
      (split; [constructor; constructor; try exact M|split; [exact N|split; reflexivity]])
    end.
  Ltac whole disc hs ts :=
    constructor;
    [ reflexivity
    | start;
      match goal with A : by_name ?x = ring_name ?n, B : by_name ?y = ring_name ?k |- _ =>
        change (discriminant x = discriminant y <-> n = k); rewrite (disc x n A), (disc y k B); reflexivity end
    | start; no_supers
    | start; units; each; finish
    | start; no_supers
    | start; no_supers
    | start; no_supers
    | handled hs ts
    | start; units; each; finish
    | start; units; each; finish
    | start; no_supers
    | start; no_supers
    | start; no_supers
    | start; units; vm_compute; repeat constructor
    | start; units; vm_compute; repeat constructor
    | start; units; vm_compute; repeat constructor
    | start; units; vm_compute; repeat constructor ].
  Lemma bench_similar : similar R.
  Proof. whole (@bench_disc) (@bench_handler) (@bench_target). Qed.
  Lemma async_bench_similar : similar R'.
  Proof. whole (@async_bench_disc) (@async_bench_handler) (@async_bench_target). Qed.
End Ring.
