(** Props13.v — C53 to C58: the examples of the repository.  Theorems only. *)

From Coq Require Import String Ascii List Bool Arith Lia.
From Verif Require Import MacroSyntax MacroVisit MacroAnalyze MacroLower MacroGen MacroSem MacroSpec MacroOrderSpec MacroSource MacroExamples.
From Verif Require Import Machine Blocking Api Spec Sim RepoExamples RepoSpec.
From Verif Require RepoUseProofs RepoCalcUse RepoCalcFacts RepoAgree.
Import ListNotations.
Open Scope string_scope.
Open Scope list_scope.

(** C53.  The examples written with the macro act like the ones written by hand. *)
Theorem C53_basic :
  agrees basic basic_source basic_name (fun _ => ("", [])) eq basic_args basic_impl (Built "off" []).
Proof. exact RepoAgree.basic_agrees. Qed.
Print Assumptions C53_basic.
Theorem C53_blinky :
  agrees blinky_machine blinky_source blinky_name blinky_super_name eq blinky_main_args blinky_impl (Built "led_on" []) /\
  agrees blinky_machine async_blinky_source blinky_name blinky_super_name eq async_blinky_args async_blinky_impl (Built "led_on" []).
Proof. exact (conj RepoAgree.blinky_agrees RepoAgree.async_blinky_agrees). Qed.
Print Assumptions C53_blinky.
Theorem C53_dishwasher :
  agrees dishwasher dish_source dish_name dish_super_name (fun p q => p = dish_name q) dish_args dish_impl (Built "idle" []).
Proof. exact RepoAgree.dish_agrees. Qed.
Print Assumptions C53_dishwasher.
Theorem C53_cd_player :
  agrees cd_player cd_source cd_name (fun _ => ("", [])) eq cd_args cd_impl (Built "empty" []) /\
  agrees cd_player cd_source cd_name (fun _ => ("", [])) eq cd_args async_cd_impl (Built "empty" []).
Proof. exact (conj RepoAgree.cd_agrees RepoAgree.async_cd_agrees). Qed.
Print Assumptions C53_cd_player.
(** The calculators agree but for what they show after a leading minus. *)
Theorem C53_calculator_partial :
  forall fl : floats,
    agrees (calculator_with fl "-0") (calc_source fl) (@calc_name fl) (@calc_super_name fl) eq calc_args calc_impl (Built "begin" []).
Proof. intros fl. exact (@RepoAgree.calc_agrees fl). Qed.
Print Assumptions C53_calculator_partial.
Theorem C53_calculator_refuted :
  forall fl : floats,
    ~ agrees (calculator fl) (calc_source fl) (@calc_name fl) (@calc_super_name fl) eq calc_args calc_impl (Built "begin" []).
Proof. intros fl. exact (@RepoAgree.calculators_differ fl). Qed.
Print Assumptions C53_calculator_refuted.

(** The two dishwashers after three events. *)
Example C53_case : forall o, exists g first,
  expand o dish_args dish_impl = Done g /\
  let made := sm_handles 3 BlockingMode
                (new_state_machine (generated_machine (compiled dish_source g first)) ("Idle", []))
                (no_context [StartProgram; DishTimer; DoorOpens]) in
  let written := sm_handles 3 BlockingMode (new_state_machine dishwasher Idle)
                (no_context [StartProgram; DishTimer; DoorOpens]) in
  by_name (sm_state (fst made)) = ("DoorOpened", []) /\ sm_state (fst written) = DoorOpened /\
  sm_shared (fst made) = ("Rinse", []) /\ sm_shared (fst written) = Rinse.
Proof.
  intros o. destruct (C53_dishwasher o) as (g & first & E & _ & _ & H). exists g, first. split; [exact E|].
  destruct (H 3 BlockingMode ("Idle", []) Idle (no_context [StartProgram; DishTimer; DoorOpens]) eq_refl) as (H1 & H2 & _).
  cbv zeta in *.
  assert (W1 : sm_state (fst (sm_handles 3 BlockingMode (new_state_machine dishwasher Idle)
                (no_context [StartProgram; DishTimer; DoorOpens]))) = DoorOpened) by (vm_compute; reflexivity).
  assert (W2 : sm_shared (fst (sm_handles 3 BlockingMode (new_state_machine dishwasher Idle)
                (no_context [StartProgram; DishTimer; DoorOpens]))) = Rinse) by (vm_compute; reflexivity).
  split; [exact (eq_trans H1 (f_equal dish_name W1))|]. split; [exact W1|].
  split; [exact (eq_trans H2 (f_equal dish_name W2))|exact W2].
Qed.

(** C54.  The dishwasher: opening and closing the door never loses the program, which only
    advances while the door is closed.  For every history, whatever the initial
    `previous_state`. *)
Theorem C54_dishwasher :
  forall (stack : nat) (md : mode) (previous : dish_state) (evs : list dish_event), 3 <= stack ->
    let r := sm_handles stack md (new_state_machine dishwasher previous) (no_context evs) in
    sm_state (fst r) = shown (fold_left use_appliance evs (Appliance PIdle false)) /\ completed (snd r).
Proof. intros stack md previous evs ST. exact (@RepoAgree.dish_new stack md previous evs ST). Qed.
Print Assumptions C54_dishwasher.
Theorem C54_dishwasher_macro :
  forall o, exists g first,
    expand o dish_args dish_impl = Done g /\ compiles g /\ built dish_source g (Built "idle" []) = Some first /\
    forall (stack : nat) (md : mode) (previous : dish_state) (evs : list dish_event), 3 <= stack ->
    let r := sm_handles stack md
               (new_state_machine (generated_machine (compiled dish_source g first)) (dish_name previous)) (no_context evs) in
    by_name (sm_state (fst r)) = dish_name (shown (fold_left use_appliance evs (Appliance PIdle false))) /\
    completed (snd r).
Proof. exact RepoAgree.dish_macro. Qed.
Print Assumptions C54_dishwasher_macro.
Example C54_case :
  shown (fold_left use_appliance [StartProgram; DishTimer; DoorOpens; DishTimer; DoorOpens; DoorCloses; DishTimer] (Appliance PIdle false)) = Dry.
Proof. reflexivity. Qed.

(** C55.  The barrier of examples/macro/barrier should open when A, B and C have been seen.  It
    opens when B and C have: `#[default = "true"] a`. *)
Theorem C55_barrier_partial :
  forall o, exists g first,
    expand o barrier_args barrier_impl = Done g /\ compiles g /\
    built barrier_source g (Built "initializing" []) = Some first /\
    forall (stack : nat) (md : mode) (evs : list barrier_event), 3 <= stack ->
    let r := sm_handles stack md (new_state_machine (generated_machine (compiled barrier_source g first)) tt) (no_context evs) in
    (fst (by_name (sm_state (fst r))) = "Initialized" <-> In EvB evs /\ In EvC evs) /\ completed (snd r).
Proof. exact RepoAgree.barrier_macro. Qed.
Print Assumptions C55_barrier_partial.
Theorem C55_barrier_refuted :
  forall o, exists g first,
    expand o barrier_args barrier_impl = Done g /\ compiles g /\
    built barrier_source g (Built "initializing" []) = Some first /\
    ~ forall (stack : nat) (md : mode) (evs : list barrier_event), 3 <= stack ->
      let r := sm_handles stack md (new_state_machine (generated_machine (compiled barrier_source g first)) tt) (no_context evs) in
      fst (by_name (sm_state (fst r))) = "Initialized" <-> In EvA evs /\ In EvB evs /\ In EvC evs.
Proof.
  intros o. destruct (C55_barrier_partial o) as (g & first & E & C & B & H). exists g, first.
  split; [exact E|]. split; [exact C|]. split; [exact B|]. intros K.
  destruct (H 3 BlockingMode [EvB; EvC] (le_n 3)) as [H1 _]. specialize (K 3 BlockingMode [EvB; EvC] (le_n 3)).
  cbv zeta in H1, K. assert (X : In EvB [EvB; EvC] /\ In EvC [EvB; EvC]) by (cbn; tauto).
  apply H1 in X. apply K in X. destruct X as [[X|[X|[]]] _]; discriminate X.
Qed.
Print Assumptions C55_barrier_refuted.

(** C56.  The calculator never panics.  It does; exactly when an operator or `=` asks for the
    first number while the display is empty or a lone point (or cannot be read after a leading
    minus). *)
Theorem C56_panics_exactly :
  forall fl : floats, sound_floats fl ->
  forall (minus0 : string) (stack : nat) (md : mode) (display : string) (evs : list calc_event) (e : calc_event),
    4 <= stack ->
    let h := sm_handles stack md (new_state_machine (calculator_with fl minus0) display) (no_context evs) in
    completed (snd h) ->
    let r := handle_with_context stack md (fst h) e tt in
    (a_out r = Ret tt \/ a_out r = Abort Panicked) /\
    (a_out r = Abort Panicked <->
     wants_number (fl := fl) (sm_state (fst h)) e = true /\ unreadable fl minus0 (sm_shared (fst h))).
Proof.
  intros fl F minus0 stack md display evs e ST. exact (@RepoCalcFacts.new_panic fl minus0 stack md display ST F evs e).
Qed.
Print Assumptions C56_panics_exactly.
Theorem C56_never_panics_partial :
  forall fl : floats, sound_floats fl ->
  forall (minus0 : string) (stack : nat) (md : mode) (display : string) (evs : list calc_event),
    4 <= stack -> f_parse fl minus0 <> None -> ~ In Ce evs -> ~ In (Digit 0) evs ->
    completed (snd (sm_handles stack md (new_state_machine (calculator_with fl minus0) display) (no_context evs))).
Proof.
  intros fl F minus0 stack md display evs ST. exact (@RepoCalcFacts.new_never fl minus0 stack md display ST F evs).
Qed.
Print Assumptions C56_never_panics_partial.
Theorem C56_never_panics_macro_partial :
  forall fl : floats, sound_floats fl ->
  forall o, exists g first,
    expand o calc_args calc_impl = Done g /\ compiles g /\ built (calc_source fl) g (Built "begin" []) = Some first /\
    forall (stack : nat) (md : mode) (display : string) (evs : list calc_event),
    4 <= stack -> ~ In Ce evs -> ~ In (Digit 0) evs ->
    completed (snd (sm_handles stack md (new_state_machine (generated_machine (compiled (calc_source fl) g first)) display)
                      (no_context evs))).
Proof. intros fl F. exact (@RepoAgree.calc_macro_never fl F). Qed.
Print Assumptions C56_never_panics_macro_partial.
(** `0 =` panics; so does `- =` in the version written by hand, if "- 0" cannot be read. *)
Theorem C56_refuted :
  forall fl : floats, sound_floats fl ->
  forall (minus0 : string) (stack : nat) (md : mode) (display : string), 4 <= stack ->
    let calls := fun keys =>
      map c_out (snd (sm_handles stack md (new_state_machine (calculator_with fl minus0) display) (no_context keys))) in
    calls [Digit 0; Equal] = [Ret tt; Abort Panicked] /\
    (f_parse fl minus0 = None -> calls [Operator Sub; Equal] = [Ret tt; Abort Panicked]).
Proof.
  intros fl F minus0 stack md display ST. cbv zeta. split.
  - exact (@RepoCalcFacts.zero_equal_panics fl minus0 stack md display ST F).
  - exact (@RepoCalcFacts.minus_equal_panics fl minus0 stack md display ST).
Qed.
Print Assumptions C56_refuted.
Example C56_case :
  sound_floats toy /\ f_parse toy "- 0" = None /\
  map c_out (snd (sm_handles 4 BlockingMode (new_state_machine (calculator toy) "") (no_context [Digit 5; Ce; Point; Equal])))
    = [Ret tt; Ret tt; Ret tt; Abort Panicked].
Proof. split; [exact RepoCalcFacts.toy_sound|]. split; vm_compute; reflexivity. Qed.

(** C57.  Chains `n0 op1 n1 .. =` are evaluated from left to right: for all numbers keyed in
    without a zero right after the minus, the first of them not just zeros. *)
Theorem C57_chain_partial :
  forall (fl : floats) (minus0 : string) (stack : nat) (md : mode) (display : string)
         (n : entry) (l : list (operator * entry)) (v : f32 fl) (vs : list (f32 fl)),
    4 <= stack -> well_keyed true n -> Forall (fun on => well_keyed false (snd on)) l ->
    f_parse fl (canonical n) = Some v ->
    Forall2 (fun on v => f_parse fl (canonical (snd on)) = Some v) l vs ->
    let result := fold_left (fun acc (ov : operator * f32 fl) => eval_op fl (fst ov) acc (snd ov)) (combine (map fst l) vs) v in
    let r := sm_handles stack md (new_state_machine (calculator_with fl minus0) display) (no_context (chain_keys n l)) in
    sm_state (fst r) = CResult result /\ sm_shared (fst r) = f_show fl result /\ completed (snd r).
Proof.
  intros fl minus0 stack md display n l v vs ST P Ps V Vs. rewrite <- (RepoCalcFacts.read_right P) in V.
  exact (@RepoCalcFacts.new_chain fl minus0 stack md display ST n l v vs (proj1 P) (RepoCalcFacts.wells Ps) V
           (@RepoCalcFacts.reads_right _ (f_parse fl) l vs Ps Vs)).
Qed.
Print Assumptions C57_chain_partial.
Theorem C57_chain_macro_partial :
  forall fl o, exists g first,
    expand o calc_args calc_impl = Done g /\ compiles g /\ built (calc_source fl) g (Built "begin" []) = Some first /\
    forall (stack : nat) (md : mode) (display : string)
           (n : entry) (l : list (operator * entry)) (v : f32 fl) (vs : list (f32 fl)),
    4 <= stack -> well_keyed true n -> Forall (fun on => well_keyed false (snd on)) l ->
    f_parse fl (canonical n) = Some v ->
    Forall2 (fun on v => f_parse fl (canonical (snd on)) = Some v) l vs ->
    let result := fold_left (fun acc (ov : operator * f32 fl) => eval_op fl (fst ov) acc (snd ov)) (combine (map fst l) vs) v in
    let r := sm_handles stack md (new_state_machine (generated_machine (compiled (calc_source fl) g first)) display)
               (no_context (chain_keys n l)) in
    by_name (sm_state (fst r)) = ("Result", [VNum result]) /\ sm_shared (fst r) = f_show fl result /\ completed (snd r).
Proof.
  intros fl o. destruct (@RepoAgree.calc_macro_chain fl o) as (g & first & E & C & B & H). exists g, first.
  split; [exact E|]. split; [exact C|]. split; [exact B|].
  intros stack md display n l v vs ST P Ps V Vs. rewrite <- (RepoCalcFacts.read_right P) in V.
  exact (H stack md display n l v vs ST (proj1 P) (RepoCalcFacts.wells Ps) V (@RepoCalcFacts.reads_right _ (f_parse fl) l vs Ps Vs)).
Qed.
Print Assumptions C57_chain_macro_partial.
(** For all numbers, whatever they start with: the chain's value, of what [read_as] says was read. *)
Theorem C57_exact :
  forall (fl : floats) (minus0 : string) (stack : nat) (md : mode) (display : string)
         (n : entry) (l : list (operator * entry)) (v : f32 fl) (vs : list (f32 fl)),
    4 <= stack -> keyed n -> Forall (fun on => keyed (snd on)) l ->
    f_parse fl (read_as true n) = Some v ->
    Forall2 (fun on v => f_parse fl (read_as false (snd on)) = Some v) l vs ->
    let result := fold_left (fun acc (ov : operator * f32 fl) => eval_op fl (fst ov) acc (snd ov)) (combine (map fst l) vs) v in
    let r := sm_handles stack md (new_state_machine (calculator_with fl minus0) display) (no_context (chain_keys n l)) in
    sm_state (fst r) = CResult result /\ sm_shared (fst r) = f_show fl result /\ completed (snd r).
Proof.
  intros fl minus0 stack md display n l v vs ST P Ps V Vs.
  exact (@RepoCalcFacts.new_chain fl minus0 stack md display ST n l v vs P Ps V Vs).
Qed.
Print Assumptions C57_exact.
Theorem C57_exact_macro :
  forall fl o, exists g first,
    expand o calc_args calc_impl = Done g /\ compiles g /\ built (calc_source fl) g (Built "begin" []) = Some first /\
    forall (stack : nat) (md : mode) (display : string)
           (n : entry) (l : list (operator * entry)) (v : f32 fl) (vs : list (f32 fl)),
    4 <= stack -> keyed n -> Forall (fun on => keyed (snd on)) l ->
    f_parse fl (read_as true n) = Some v ->
    Forall2 (fun on v => f_parse fl (read_as false (snd on)) = Some v) l vs ->
    let result := fold_left (fun acc (ov : operator * f32 fl) => eval_op fl (fst ov) acc (snd ov)) (combine (map fst l) vs) v in
    let r := sm_handles stack md (new_state_machine (generated_machine (compiled (calc_source fl) g first)) display)
               (no_context (chain_keys n l)) in
    by_name (sm_state (fst r)) = ("Result", [VNum result]) /\ sm_shared (fst r) = f_show fl result /\ completed (snd r).
Proof. intros fl. exact (@RepoAgree.calc_macro_chain fl). Qed.
Print Assumptions C57_exact_macro.
(** What goes wrong: with a zero right after the minus, and something but zeros after it, the
    number read is the one without the minus (the first number: if the point follows the zeros). *)
Theorem C57_minus_lost_refuted :
  forall (first : bool) (l : list nat) (f : option (list nat)),
    first = false \/ drop_zeros l = [] -> drop_zeros l <> [] \/ f <> None ->
    let n := Entry true (0 :: l) f in
    let n' := Entry false (0 :: l) f in
    canonical n = String "-" (canonical n') /\ read_as first n = canonical n' /\ read_as first n <> canonical n.
Proof.
  intros first l f A B. cbv zeta.
  assert (E : read_as first (Entry true (0 :: l) f) = canonical (Entry false (0 :: l) f)).
  { rewrite (@RepoCalcFacts.minus_lost first l f A B). apply RepoCalcFacts.read_right. split; [left; discriminate|]. split; [discriminate|].
    cbn [int_part frac_part drop_zeros]. intros _ ->. destruct B; [assumption|contradiction]. }
  split; [reflexivity|]. split; [exact E|]. rewrite E. intros X.
  apply (f_equal String.length) in X. change (canonical (Entry true (0 :: l) f)) with (String "-" (canonical (Entry false (0 :: l) f))) in X.
  exact (n_Sn _ X).
Qed.
Print Assumptions C57_minus_lost_refuted.
(** `- 0 . 5 =` gives 0.5: the point after a zero drops the sign. *)
Theorem C57_leading_zero_refuted :
  forall (fl : floats) (minus0 : string) (stack : nat) (md : mode) (display : string) (half : f32 fl),
    4 <= stack -> f_parse fl "0.5" = Some half ->
    let n := Entry true [0] (Some [5]) in
    text_of n = "-0.5" /\
    let r := sm_handles stack md (new_state_machine (calculator_with fl minus0) display) (no_context (chain_keys n [])) in
    sm_state (fst r) = CResult half /\ sm_shared (fst r) = f_show fl half.
Proof.
  intros fl minus0 stack md display half ST P. split; [reflexivity|].
  exact (@RepoCalcFacts.minus_zero_point_five fl minus0 stack md display ST half P).
Qed.
Print Assumptions C57_leading_zero_refuted.
(** 12 + 30 * 2 = 84, with the toy numbers. *)
Example C57_case :
  let n k := Entry false k None in
  Forall (fun on => well_keyed false (snd on)) [(Add, n [3; 0]); (Mul, n [0; 2])] /\ well_keyed true (n [0; 1; 2]) /\
  f_parse toy (canonical (n [0; 1; 2])) = Some 12 /\
  Forall2 (fun on v => f_parse toy (canonical (snd on)) = Some v) [(Add, n [3; 0]); (Mul, n [0; 2])] [30; 2] /\
  sm_shared (fst (sm_handles 4 BlockingMode (new_state_machine (calculator toy) "")
                    (no_context (chain_keys (n [0; 1; 2]) [(Add, n [3; 0]); (Mul, n [0; 2])])))) = "84".
Proof.
  split; [repeat (constructor; try discriminate)|]. split; [repeat (constructor; try discriminate)|]. split; [reflexivity|].
  split; [repeat constructor|vm_compute; reflexivity].
Qed.

(** C58.  `AC` clears the calculator, from any state but one: after an operator and a minus it
    takes two. *)
Theorem C58_clears_partial :
  forall (fl : floats) (minus0 : string) (stack : nat) (md : mode) (display : string) (b : bool) (x : calc_state fl),
    4 <= stack -> (forall a op, x <> CNegated2 a op) ->
    let r := handle_with_context stack md (StateMachine (Inner (m := calculator_with fl minus0) display x) b) Ac tt in
    a_out r = Ret tt /\ sm_state (a_machine r) = CBegin /\ sm_shared (a_machine r) = "0".
Proof.
  intros fl minus0 stack md display b x ST N. exact (@RepoCalcFacts.ac_clears fl minus0 stack md ST x display b N).
Qed.
Print Assumptions C58_clears_partial.
Theorem C58_twice_clears :
  forall (fl : floats) (minus0 : string) (stack : nat) (md : mode) (display : string) (b : bool) (x : calc_state fl),
    4 <= stack ->
    let r := sm_handles stack md (StateMachine (Inner (m := calculator_with fl minus0) display x) b) (no_context [Ac; Ac]) in
    completed (snd r) /\ sm_state (fst r) = CBegin /\ sm_shared (fst r) = "0".
Proof.
  intros fl minus0 stack md display b x ST. exact (@RepoCalcFacts.ac_twice fl minus0 stack md ST x display b).
Qed.
Print Assumptions C58_twice_clears.
Theorem C58_refuted :
  forall (fl : floats) (minus0 : string) (stack : nat) (md : mode) (display : string) (v : f32 fl) (op : operator) (d : nat),
    4 <= stack -> d <> 0 -> f_parse fl (show_digit d) = Some v ->
    let r := sm_handles stack md (new_state_machine (calculator_with fl minus0) display)
               (no_context [Digit d; Operator op; Operator Sub; Ac]) in
    completed (snd r) /\ sm_state (fst r) = COpEntered v op /\ sm_shared (fst r) = "".
Proof.
  intros fl minus0 stack md display v op d ST N P. exact (@RepoCalcFacts.ac_after_minus fl minus0 stack md display ST v op d N P).
Qed.
Print Assumptions C58_refuted.
Example C58_case : f_parse toy (show_digit 7) = Some 7.
Proof. reflexivity. Qed.
