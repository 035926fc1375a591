(** RepoAgree.v — the examples, with and without the macro. *)

From Coq Require Import String Ascii List Bool Arith Lia.
From Verif Require Import MacroSyntax MacroVisit MacroAnalyze MacroLower MacroGen MacroSem MacroSpec MacroOrderSpec MacroSource MacroExamples.
From Verif Require Import Machine Blocking Api Spec Sim RepoExamples RepoSpec.
From Verif Require Import MacroSourceProofs RepoExampleProofs RepoCalcProofs RepoUseProofs RepoCalcUse RepoCalcFacts.
Import ListNotations.
Open Scope string_scope.
Open Scope list_scope.
Set Implicit Arguments.

Lemma basic_agrees : agrees basic basic_source basic_name (fun _ => ("", [])) eq basic_args basic_impl (Built "off" []).
Proof.
  exact (@every_order unit bool basic basic_source basic_name (fun _ => ("", [])) eq all_forward basic_args basic_impl
           basic_code (Built "off" []) basic_first basic_expands basic_compiles basic_built basic_similar).
Qed.
Lemma blinky_agrees : agrees blinky_machine blinky_source blinky_name blinky_super_name eq blinky_main_args blinky_impl (Built "led_on" []).
Proof.
  exact (@every_order unit unit blinky_machine blinky_source blinky_name blinky_super_name eq all_forward blinky_main_args blinky_impl
           blinky_main_code (Built "led_on" []) blinky_main_first blinky_main_expands blinky_main_compiles blinky_main_built blinky_main_similar).
Qed.
Lemma async_blinky_agrees : agrees blinky_machine async_blinky_source blinky_name blinky_super_name eq async_blinky_args async_blinky_impl (Built "led_on" []).
Proof.
  exact (@every_order unit unit blinky_machine async_blinky_source blinky_name blinky_super_name eq all_forward async_blinky_args async_blinky_impl
           async_blinky_code (Built "led_on" []) async_blinky_first async_blinky_expands async_blinky_compiles async_blinky_built async_blinky_similar).
Qed.
Lemma dish_agrees : agrees dishwasher dish_source dish_name dish_super_name (fun p q => p = dish_name q) dish_args dish_impl (Built "idle" []).
Proof.
  exact (@every_order unit (ident * list unit) dishwasher dish_source dish_name dish_super_name (fun p q => p = dish_name q) all_forward dish_args dish_impl
           dish_code (Built "idle" []) dish_first dish_expands dish_compiles dish_built dish_similar).
Qed.
Lemma cd_agrees : agrees cd_player cd_source cd_name (fun _ => ("", [])) eq cd_args cd_impl (Built "empty" []).
Proof.
  exact (@every_order unit unit cd_player cd_source cd_name (fun _ => ("", [])) eq all_forward cd_args cd_impl
           cd_code (Built "empty" []) cd_first cd_expands cd_compiles cd_built cd_similar).
Qed.
Lemma async_cd_agrees : agrees cd_player cd_source cd_name (fun _ => ("", [])) eq cd_args async_cd_impl (Built "empty" []).
Proof.
  exact (@every_order unit unit cd_player cd_source cd_name (fun _ => ("", [])) eq all_forward cd_args async_cd_impl
           async_cd_code (Built "empty" []) async_cd_first async_cd_expands async_cd_compiles async_cd_built async_cd_similar).
Qed.
Lemma barrier_agrees : agrees barrier barrier_source barrier_name barrier_super_name eq barrier_args barrier_impl (Built "initializing" []).
Proof.
  exact (@every_order bool unit barrier barrier_source barrier_name barrier_super_name eq all_forward barrier_args barrier_impl
           barrier_code (Built "initializing" []) barrier_first barrier_expands barrier_compiles barrier_built barrier_similar).
Qed.
Lemma calc_agrees fl : agrees (calculator_with fl "-0") (calc_source fl) (@calc_name fl) (@calc_super_name fl) eq calc_args calc_impl (Built "begin" []).
Proof.
  exact (@every_order (calc_val fl) string (calculator_with fl "-0") (calc_source fl) (@calc_name fl) (@calc_super_name fl) eq all_forward calc_args calc_impl
           calc_code (Built "begin" []) (calc_first fl) calc_expands calc_compiles (calc_built fl) (calc_similar fl)).
Qed.

Lemma completed_both m1 m2 (R : relations m1 m2) l l' : Forall2 (called_rel R) l l' -> completed l' -> completed l.
Proof.
  intros H. induction H as [|a b l l' [O _] H IH]; intros C; [constructor|].
  pose proof (Forall_inv C) as C1. pose proof (Forall_inv_tail C) as C2. constructor; [now rewrite O|now apply IH].
Qed.

Lemma dish_new stack md prev evs : 3 <= stack ->
  let r := sm_handles stack md (new_state_machine dishwasher prev) (no_context evs) in
  sm_state (fst r) = shown (fold_left use_appliance evs (Appliance PIdle false)) /\ completed (snd r).
Proof.
  intros H. cbv zeta. destruct (stack3 H) as [n ->].
  apply (@dish_history n md evs false Idle prev (Appliance PIdle false)). split; [reflexivity|discriminate].
Qed.
Lemma dish_macro : forall o, exists g first,
  expand o dish_args dish_impl = Done g /\ compiles g /\ built dish_source g (Built "idle" []) = Some first /\
  forall stack md prev evs, 3 <= stack ->
  let r := sm_handles stack md (new_state_machine (generated_machine (compiled dish_source g first)) (dish_name prev)) (no_context evs) in
  by_name (sm_state (fst r)) = dish_name (shown (fold_left use_appliance evs (Appliance PIdle false))) /\ completed (snd r).
Proof.
  intros o. destruct (dish_agrees o) as (g & first & E & C & B & H). exists g, first.
  split; [exact E|]. split; [exact C|]. split; [exact B|]. intros stack md prev evs ST. cbv zeta.
  destruct (H stack md (dish_name prev) prev (no_context evs) eq_refl) as (H1 & _ & _ & H4).
  destruct (@dish_new stack md prev evs ST) as [D1 D2]. cbv zeta in H1.
  split; [etransitivity; [exact H1|exact (f_equal dish_name D1)]|exact (completed_both H4 D2)].
Qed.

Lemma barrier_macro : forall o, exists g first,
  expand o barrier_args barrier_impl = Done g /\ compiles g /\ built barrier_source g (Built "initializing" []) = Some first /\
  forall stack md evs, 3 <= stack ->
  let r := sm_handles stack md (new_state_machine (generated_machine (compiled barrier_source g first)) tt) (no_context evs) in
  (fst (by_name (sm_state (fst r))) = "Initialized" <-> In EvB evs /\ In EvC evs) /\ completed (snd r).
Proof.
  intros o. destruct (barrier_agrees o) as (g & first & E & C & B & H). exists g, first.
  split; [exact E|]. split; [exact C|]. split; [exact B|]. intros stack md evs ST. cbv zeta.
  destruct (H stack md tt tt (no_context evs) eq_refl) as (H1 & _ & _ & H4). cbv zeta in H1.
  destruct (stack3 ST) as [n ->].
  destruct (@barrier_run n md evs false (Initializing true false false)) as [D1 D2].
  split; [|exact (completed_both H4 D2)].
  match goal with |- context [by_name ?s] => set (x := by_name s) end.
  assert (X : x = barrier_name (fold_left barrier_next evs (Initializing true false false)))
    by (etransitivity; [exact H1|exact (f_equal barrier_name D1)]).
  clearbody x. subst x. clear H1 H4.
  rewrite barrier_fold. cbn [orb].
  assert (Bb : existsb is_b evs = true <-> In EvB evs).
  { rewrite existsb_exists. split; [intros ([] & I & K); try discriminate K; exact I|intros I; exists EvB; now split]. }
  assert (Cc : existsb is_c evs = true <-> In EvC evs).
  { rewrite existsb_exists. split; [intros ([] & I & K); try discriminate K; exact I|intros I; exists EvC; now split]. }
  rewrite <- Bb, <- Cc. destruct evs as [|e evs]; [cbn; split; [discriminate|intros [X _]; discriminate X]|].
  cbn [negb andb]. destruct (existsb is_b (e :: evs)), (existsb is_c (e :: evs)); cbn; split; try tauto; try discriminate;
    intros [X Y]; discriminate.
Qed.

Lemma calc_macro_chain fl : forall o, exists g first,
  expand o calc_args calc_impl = Done g /\ compiles g /\ built (calc_source fl) g (Built "begin" []) = Some first /\
  forall stack md display n l v vs, 4 <= stack -> keyed n -> Forall (fun on => keyed (snd on)) l ->
  f_parse fl (read_as true n) = Some v ->
  Forall2 (fun on v => f_parse fl (read_as false (snd on)) = Some v) l vs ->
  let result := fold_left (fun acc (ov : operator * f32 fl) => eval_op fl (fst ov) acc (snd ov)) (combine (map fst l) vs) v in
  let r := sm_handles stack md (new_state_machine (generated_machine (compiled (calc_source fl) g first)) display)
             (no_context (chain_keys n l)) in
  by_name (sm_state (fst r)) = ("Result", [VNum result]) /\ sm_shared (fst r) = f_show fl result /\ completed (snd r).
Proof.
  intros o. destruct (@calc_agrees fl o) as (g & first & E & C & B & H). exists g, first.
  split; [exact E|]. split; [exact C|]. split; [exact B|].
  intros stack md display n l v vs ST P Ps V Vs. cbv zeta.
  destruct (H stack md display display (no_context (chain_keys n l)) eq_refl) as (H1 & H2 & _ & H4).
  destruct (@new_chain fl "-0" stack md display ST n l v vs P Ps V Vs) as (D1 & D2 & D3). cbv zeta in H1, H2.
  split; [|split; [|exact (completed_both H4 D3)]].
  - etransitivity; [exact H1|]. exact (f_equal (@calc_name fl) D1).
  - etransitivity; [exact H2|]. exact D2.
Qed.
Lemma calc_macro_never fl (F : sound_floats fl) : forall o, exists g first,
  expand o calc_args calc_impl = Done g /\ compiles g /\ built (calc_source fl) g (Built "begin" []) = Some first /\
  forall stack md display evs, 4 <= stack -> ~ In Ce evs -> ~ In (Digit 0) evs ->
  completed (snd (sm_handles stack md (new_state_machine (generated_machine (compiled (calc_source fl) g first)) display)
                    (no_context evs))).
Proof.
  intros o. destruct (@calc_agrees fl o) as (g & first & E & C & B & H). exists g, first.
  split; [exact E|]. split; [exact C|]. split; [exact B|].
  intros stack md display evs ST N1 N2.
  destruct (H stack md display display (no_context evs) eq_refl) as (_ & _ & _ & H4).
  apply (completed_both H4). apply (@new_never fl "-0" stack md display ST F evs); auto.
  apply (sf_numeral _ F). exists true, [0], None. split; [reflexivity|discriminate].
Qed.
Lemma minus_shows fl minus0 n md d0 :
  sm_shared (fst (sm_handles (S (S (S (S n)))) md (new_state_machine (calculator_with fl minus0) d0) (no_context [Operator Sub]))) = minus0.
Proof.
  destruct (@calc_runs_fresh fl minus0 n md [Operator Sub] CBegin d0 CNegated1 minus0) as [H1 _]; [discriminate|reflexivity|].
  unfold new_state_machine. change (initial (calculator_with fl minus0)) with (@CBegin fl).
  exact (f_equal (@sm_shared (calculator_with fl minus0)) H1).
Qed.
Lemma calculators_differ fl :
  ~ agrees (calculator fl) (calc_source fl) (@calc_name fl) (@calc_super_name fl) eq calc_args calc_impl (Built "begin" []).
Proof.
  intros A. destruct (A all_forward) as (g & first & E & _ & B & H).
  destruct (@calc_agrees fl all_forward) as (g' & first' & E' & _ & B' & H').
  rewrite E in E'. injection E' as <-. pose proof (eq_trans (eq_sym B) B') as BB. injection BB as <-.
  destruct (H 4 BlockingMode "" "" (no_context [Operator Sub]) eq_refl) as (_ & X & _).
  destruct (H' 4 BlockingMode "" "" (no_context [Operator Sub]) eq_refl) as (_ & Y & _).
  cbv zeta in X, Y. pose proof (eq_trans (eq_sym X) Y) as Z.
  pose proof (@minus_shows fl "- 0" 0 BlockingMode "") as P. pose proof (@minus_shows fl "-0" 0 BlockingMode "") as Q.
  pose proof (eq_trans (eq_trans (eq_sym P) Z) Q) as W. discriminate W.
Qed.
