(** RepoTestUse.v — the machines of the tests, for all events. *)

From Coq Require Import String Ascii List Bool Arith Lia.
From Verif Require Import MacroSyntax MacroVisit MacroAnalyze MacroLower MacroGen MacroSem MacroSpec MacroOrderSpec MacroSource MacroExamples.
From Verif Require Import Machine Blocking Api Spec Sim RepoExamples RepoSpec RepoTests RepoTestSpec.
From Verif Require Import MacroSourceProofs RepoTestProofs RepoRingProofs RepoUseProofs RepoCalcFacts RepoAgree.
Import ListNotations.
Open Scope string_scope.
Open Scope list_scope.
Set Implicit Arguments.

(** Foo. *)
Lemma foo_agrees : agrees foo foo_source foo_name foo_super_name (Forall2 same_step) foo_args foo_impl (Built "s11" []).
Proof.
  exact (@every_order unit (list named_step) foo foo_source foo_name foo_super_name (Forall2 same_step) all_forward foo_args foo_impl
           foo_code (Built "s11" []) foo_first foo_expands foo_compiles foo_built foo_similar).
Qed.
Lemma async_foo_agrees : agrees foo foo_source foo_name foo_super_name (Forall2 same_step) foo_args async_foo_impl (Built "s11" []).
Proof.
  exact (@every_order unit (list named_step) foo foo_source foo_name foo_super_name (Forall2 same_step) all_forward foo_args async_foo_impl
           async_foo_code (Built "s11" []) async_foo_first async_foo_expands async_foo_compiles async_foo_built async_foo_similar).
Qed.
Definition snocs {A} (l : list A) (p : list A) : list A := fold_left (fun q a => q ++ [a]) l p.
Lemma snocs_app {A} (l : list A) : forall p, snocs l p = p ++ l.
Proof.
  unfold snocs. induction l as [|a l IH]; intros p; cbn; [symmetry; apply app_nil_r|]. rewrite IH, <- app_assoc. reflexivity.
Qed.
Lemma foo_step_ok n md x p e :
  let r := handle_with_context (S (S (S (S n)))) md (StateMachine (Inner (m := foo) p x) true) e tt in
  a_out r = Ret tt /\ a_machine r = StateMachine (Inner (m := foo) (snocs (fst (foo_walk x e)) p) (snd (foo_walk x e))) true.
Proof. destruct md, x, e; vm_compute; split; reflexivity. Qed.
Lemma foo_first_step n md p e :
  let r := handle_with_context (S (S (S (S n)))) md (StateMachine (Inner (m := foo) p S11) false) e tt in
  a_out r = Ret tt /\
  a_machine r = StateMachine (Inner (m := foo) (snocs (fst (foo_walk S11 e)) (snocs foo_start p)) (snd (foo_walk S11 e))) true.
Proof. destruct md, e; vm_compute; split; reflexivity. Qed.
Lemma foo_history n md evs : forall x p,
  let r := sm_handles (S (S (S (S n)))) md (StateMachine (Inner (m := foo) p x) true) (no_context evs) in
  sm_state (fst r) = snd (foo_walks x evs) /\ sm_shared (fst r) = p ++ fst (foo_walks x evs) /\ completed (snd r).
Proof.
  induction evs as [|e evs IH]; intros x p; cbv zeta.
  - cbn. split; [reflexivity|]. split; [symmetry; apply app_nil_r|constructor].
  - destruct (@foo_step_ok n md x p e) as [O M].
    cbn [no_context map foo_walks]. destruct (foo_walk x e) as [l y] eqn:W.
    rewrite (@sm_handles_cons foo). cbn [fst snd] in *. rewrite M.
    destruct (IH y (snocs l p)) as (IH1 & IH2 & IH3). destruct (foo_walks y evs) as [l' z]. cbn [fst snd] in *.
    split; [exact IH1|]. split; [etransitivity; [exact IH2|]; rewrite snocs_app; symmetry; apply app_assoc|].
    constructor; [exact O|exact IH3].
Qed.
Lemma foo_new stack md p e evs : 4 <= stack ->
  let r := sm_handles stack md (new_state_machine foo p) (no_context (e :: evs)) in
  sm_state (fst r) = snd (foo_walks S11 (e :: evs)) /\ sm_shared (fst r) = p ++ foo_start ++ fst (foo_walks S11 (e :: evs)) /\
  completed (snd r).
Proof.
  intros ST. cbv zeta. destruct (stack4 ST) as [n ->].
  destruct (@foo_first_step n md p e) as [O M].
  cbn [no_context map foo_walks]. destruct (foo_walk S11 e) as [l y] eqn:W.
  rewrite (@sm_handles_cons foo). cbn [fst snd] in *.
  change (new_state_machine foo p) with (StateMachine (Inner (m := foo) p S11) false). rewrite M.
  destruct (@foo_history n md evs y (snocs l (snocs foo_start p))) as (IH1 & IH2 & IH3).
  destruct (foo_walks y evs) as [l' z]. cbn [fst snd] in *.
  split; [exact IH1|]. split; [|constructor; [exact O|exact IH3]].
  etransitivity; [exact IH2|]. rewrite !snocs_app, <- !app_assoc. reflexivity.
Qed.
Lemma same_steps_map (l : list named_step) l' : Forall2 same_step l l' -> l = map (fun t => (named_node (fst t), snd t)) l'.
Proof. intros H. induction H as [|a b l l' E H IH]; cbn; [reflexivity|]. rewrite <- IH, E. reflexivity. Qed.
Lemma foo_macro item : agrees foo foo_source foo_name foo_super_name (Forall2 same_step) foo_args item (Built "s11" []) ->
  forall o, exists g first,
  expand o foo_args item = Done g /\ compiles g /\ built foo_source g (Built "s11" []) = Some first /\
  forall stack md e evs, 4 <= stack ->
  let r := sm_handles stack md (new_state_machine (generated_machine (compiled foo_source g first)) []) (no_context (e :: evs)) in
  by_name (sm_state (fst r)) = foo_name (snd (foo_walks S11 (e :: evs))) /\
  sm_shared (fst r) = map (fun t => (named_node (fst t), snd t)) (foo_start ++ fst (foo_walks S11 (e :: evs))) /\
  completed (snd r).
Proof.
  intros A o. destruct (A o) as (g & first & E & C & B & H). exists g, first.
  split; [exact E|]. split; [exact C|]. split; [exact B|]. intros stack md e evs ST. cbv zeta.
  destruct (H stack md [] [] (no_context (e :: evs)) (Forall2_nil _)) as (H1 & H2 & _ & H4).
  destruct (@foo_new stack md [] e evs ST) as (D1 & D2 & D3). cbv zeta in H1, H2.
  split; [etransitivity; [exact H1|exact (f_equal foo_name D1)]|]. split; [|exact (completed_both H4 D3)].
  apply same_steps_map in H2. etransitivity; [exact H2|]. apply f_equal. exact D2.
Qed.

(** FooBar. *)
Lemma hooks_agrees : agrees foo_bar (hooks_source false) hooks_name (fun _ => ("", [])) eq hooks_args hooks_impl (Built "foo" []).
Proof.
  exact (@every_order unit flags foo_bar (hooks_source false) hooks_name (fun _ => ("", [])) eq all_forward hooks_args hooks_impl
           hooks_code (Built "foo" []) hooks_first hooks_expands hooks_compiles hooks_built hooks_similar).
Qed.
Lemma async_hooks_agrees : agrees foo_bar (hooks_source true) hooks_name (fun _ => ("", [])) eq hooks_args async_hooks_impl (Built "foo" []).
Proof.
  exact (@every_order unit flags foo_bar (hooks_source true) hooks_name (fun _ => ("", [])) eq all_forward hooks_args async_hooks_impl
           async_hooks_code (Built "foo" []) async_hooks_first async_hooks_expands async_hooks_compiles async_hooks_built async_hooks_similar).
Qed.
Lemma hooks_step n md b x f e :
  let r := handle_with_context (S (S (S n))) md (StateMachine (Inner (m := foo_bar) f x) b) e tt in
  a_out r = Ret tt /\
  a_machine r = StateMachine (Inner (m := foo_bar) (Flags true true true true) match x with HFoo => HBar | HBar => HFoo end) true.
Proof. destruct md, b, x, e, f; vm_compute; split; reflexivity. Qed.
Lemma hooks_history n md evs : forall e b x f,
  let r := sm_handles (S (S (S n))) md (StateMachine (Inner (m := foo_bar) f x) b) (no_context (e :: evs)) in
  sm_shared (fst r) = Flags true true true true /\ completed (snd r).
Proof.
  induction evs as [|e' evs IH]; intros e b x f; cbv zeta; destruct (@hooks_step n md b x f e) as [O M];
  cbn [no_context map]; rewrite (@sm_handles_cons foo_bar); cbn [fst snd]; rewrite M.
  - split; [reflexivity|]. constructor; [exact O|constructor].
  - destruct (IH e' true match x with HFoo => HBar | HBar => HFoo end (Flags true true true true)) as [IH1 IH2].
    split; [exact IH1|]. constructor; [exact O|exact IH2].
Qed.
Lemma hooks_macro (asyncs : bool) item :
  agrees foo_bar (hooks_source asyncs) hooks_name (fun _ => ("", [])) eq hooks_args item (Built "foo" []) ->
  forall o, exists g first,
  expand o hooks_args item = Done g /\ compiles g /\ built (hooks_source asyncs) g (Built "foo" []) = Some first /\
  forall stack md f e evs, 3 <= stack ->
  let r := sm_handles stack md (new_state_machine (generated_machine (compiled (hooks_source asyncs) g first)) f) (no_context (e :: evs)) in
  sm_shared (fst r) = Flags true true true true /\ completed (snd r).
Proof.
  intros A o. destruct (A o) as (g & first & E & C & B & H). exists g, first.
  split; [exact E|]. split; [exact C|]. split; [exact B|]. intros stack md f e evs ST. cbv zeta.
  destruct (H stack md f f (no_context (e :: evs)) eq_refl) as (_ & H2 & _ & H4).
  destruct (stack3 ST) as [n ->]. destruct (@hooks_history n md evs e false HFoo f) as (D1 & D2). cbv zeta in H2.
  split; [etransitivity; [exact H2|exact D1]|exact (completed_both H4 D2)].
Qed.

(** Counter. *)
Section Along.
  Variables m1 m2 : machine.
  Variable R : relations m1 m2.
  Hypothesis S : similar R.
  Lemma sim_along stack md evs evs' : Forall2 (r_event R) evs evs' -> forall sm sm' cx cx', machine_rel R sm sm' -> r_ctx R cx cx' ->
    let r := pass_along stack md sm cx evs in let r' := pass_along stack md sm' cx' evs' in
    machine_rel R (fst (fst r)) (fst (fst r')) /\ r_ctx R (snd (fst r)) (snd (fst r')) /\ snd r = snd r'.
  Proof.
    intros F. induction F as [|e e' evs evs' He F IH]; intros sm sm' cx cx' M C; cbv zeta.
    - cbn. auto.
    - cbn [pass_along]. destruct (@sim_handle m1 m2 R S stack md sm sm' e e' cx cx' M He C) as (O & M1 & C1 & _).
      specialize (IH _ _ _ _ M1 C1). cbv zeta in IH.
      destruct (pass_along stack md (a_machine (handle_with_context stack md sm e cx)) _ evs) as [[a b] c].
      destruct (pass_along stack md (a_machine (handle_with_context stack md sm' e' cx')) _ evs') as [[a' b'] c'].
      cbn [fst snd] in *. destruct IH as (I1 & I2 & ->). split; [exact I1|]. split; [exact I2|]. now rewrite O.
  Qed.
End Along.
Definition counter_next (x : counter_state) (e : counter_event) : counter_state :=
  match x, e with Up, Elapsed => Down | Down, Elapsed => Up | _, _ => x end.
Definition counter_value (max : nat) (x : counter_state) (e : counter_event) (n : nat) : nat :=
  match x, e with Up, Press => saturating_add max n | Down, Press => saturating_sub n | _, _ => n end.
Lemma counter_step n max md b x e i j :
  let r := handle_with_context (S (S (S n))) md (StateMachine (Inner (m := counter max) tt x) b) e (i, j) in
  a_out r = Ret tt /\
  a_machine r = StateMachine (Inner (m := counter max) tt (counter_next x e)) true /\
  a_cx r = (counter_value max x e i, j).
Proof. destruct md, b, x, e; vm_compute; repeat split; reflexivity. Qed.
Definition is_up (x : counter_state) : bool := match x with Up => true | Down => false end.
Lemma count_step max x i e : count max (is_up x, i) e = (is_up (counter_next x e), if Nat.leb i max then counter_value max x e i else snd (count max (is_up x, i) e)).
Proof.
  unfold count, saturating_add. destruct (Nat.leb_spec i max) as [H|H].
  - destruct x, e; cbn [is_up counter_next counter_value negb]; try reflexivity.
    + f_equal. unfold saturating_add. destruct (Nat.ltb_spec i max); lia.
    + f_equal. unfold saturating_sub. lia.
  - destruct x, e; reflexivity.
Qed.
Lemma counter_bounded max x e i : i <= max -> counter_value max x e i <= max.
Proof. destruct x, e; cbn; unfold saturating_add, saturating_sub; lia. Qed.
Lemma counter_history n max md evs : forall b x i j, i <= max ->
  let r := pass_along (S (S (S n))) md (StateMachine (Inner (m := counter max) tt x) b) (i, j) evs in
  snd (fst r) = (snd (fold_left (count max) evs (is_up x, i)), j) /\ snd r = map (fun _ => Ret tt) evs.
Proof.
  induction evs as [|e evs IH]; intros b x i j L; cbv zeta; [split; reflexivity|].
  destruct (@counter_step n max md b x e i j) as (O & M & C).
  pose proof (counter_bounded x e L) as L'. destruct (IH true (counter_next x e) _ j L') as [IH1 IH2].
  cbn [pass_along fold_left map]. rewrite M, C, O.
  rewrite count_step. destruct (Nat.leb_spec i max) as [_|?]; [|lia].
  destruct (pass_along (S (S (S n))) md (StateMachine (Inner (m := counter max) tt (counter_next x e)) true) (counter_value max x e i, j) evs) as [[a c] d].
  cbn [fst snd] in *. split; [exact IH1|]. f_equal. exact IH2.
Qed.
Lemma counter_macro max : forall o, exists g first,
  expand o counter_args counter_impl = Done g /\ compiles g /\ built (counter_source max) g (Built "up" []) = Some first /\
  forall stack md i j evs, 3 <= stack -> i <= max ->
  let r := pass_along stack md (new_state_machine (generated_machine (compiled (counter_source max) g first)) tt) (i, j) evs in
  snd (fst r) = (snd (fold_left (count max) evs (true, i)), j) /\ snd r = map (fun _ => Ret tt) evs.
Proof.
  intros o.
  pose proof (@every_order unit unit (counter max) (counter_source max) counter_name (fun _ => ("", [])) eq all_forward counter_args counter_impl
    counter_code (Built "up" []) counter_first counter_expands counter_compiles (counter_built max) (counter_similar max)) as A.
  destruct (A o) as (g & first & E & C & B & _). exists g, first.
  split; [exact E|]. split; [exact C|]. split; [exact B|].
  pose proof (@any_order unit unit (counter max) (counter_source max) counter_name (fun _ => ("", [])) eq all_forward counter_args counter_impl
    counter_code (Built "up" []) counter_first counter_expands counter_compiles (counter_built max) (counter_similar max) o g first E B) as S.
  intros stack md i j evs ST L. cbv zeta.
  assert (FE : Forall2 eq evs evs) by (clear; induction evs; constructor; auto).
  pose proof (@sim_along _ _ _ S stack md evs evs FE
    (new_state_machine (generated_machine (compiled (counter_source max) g first)) tt) (new_state_machine (counter max) tt) (i, j) (i, j)) as H.
  cbv zeta in H. destruct H as (_ & H2 & H3); [split; [exact (si_initial S)|split; reflexivity]|reflexivity|].
  destruct (stack3 ST) as [n ->].
  destruct (@counter_history n max md evs false Up i j L) as [D1 D2].
  split; [etransitivity; [exact H2|exact D1]|etransitivity; [exact H3|exact D2]].
Qed.

(** Machine<T>. *)
Definition gen_held {T} (default : T) (size : nat) (h : option T) : gen_state T :=
  match h with None => GFoo | Some t => GBar (VT t) (VArray (repeat default size)) end.
Lemma gen_step T (d : T) size n md b h e :
  let r := handle_with_context (S (S (S n))) md (StateMachine (Inner (m := gen_machine d size) tt (gen_held d size h)) b) e tt in
  a_out r = Ret tt /\ a_machine r = StateMachine (Inner (m := gen_machine d size) tt (gen_held d size (hold h e))) true.
Proof. destruct md, b, h, e; vm_compute; split; reflexivity. Qed.
Lemma gen_history T (d : T) size n md evs : forall b h,
  let r := sm_handles (S (S (S n))) md (StateMachine (Inner (m := gen_machine d size) tt (gen_held d size h)) b) (no_context evs) in
  sm_state (fst r) = gen_held d size (fold_left hold evs h) /\ completed (snd r).
Proof.
  induction evs as [|e evs IH]; intros b h; cbv zeta.
  - split; [reflexivity|constructor].
  - destruct (@gen_step T d size n md b h e) as [O M]. destruct (IH true (hold h e)) as [IH1 IH2].
    cbn [no_context map fold_left]. rewrite (@sm_handles_cons (gen_machine d size)). cbn [fst snd]. rewrite M.
    split; [exact IH1|]. constructor; [exact O|exact IH2].
Qed.
Lemma gen_macro T (d : T) size : forall o, exists g first,
  expand o machine_args machine_impl = Done g /\ compiles g /\ built (machine_source d size) g (Built "foo" []) = Some first /\
  forall stack md evs, 3 <= stack ->
  let r := sm_handles stack md (new_state_machine (generated_machine (compiled (machine_source d size) g first)) tt) (no_context evs) in
  by_name (sm_state (fst r)) = match fold_left hold evs None with
                               | None => ("Foo", [])
                               | Some t => ("Bar", [VT t; VArray (repeat d size)])
                               end /\ completed (snd r).
Proof.
  intros o.
  pose proof (@every_order (generic_val T) unit (gen_machine d size) (machine_source d size) gen_name gen_super_name eq all_forward machine_args machine_impl
    gen_code (Built "foo" []) (gen_first T) gen_expands gen_compiles (gen_built d size) (gen_similar d size)) as A.
  destruct (A o) as (g & first & E & C & B & H). exists g, first.
  split; [exact E|]. split; [exact C|]. split; [exact B|]. intros stack md evs ST. cbv zeta.
  destruct (H stack md tt tt (no_context evs) eq_refl) as (H1 & _ & _ & H4).
  destruct (stack3 ST) as [n ->]. destruct (@gen_history T d size n md evs false None) as (D1 & D2). cbv zeta in H1.
  split; [|exact (completed_both H4 D2)]. etransitivity; [exact H1|]. etransitivity; [exact (f_equal gen_name D1)|].
  destruct (fold_left hold evs None); reflexivity.
Qed.

(** Receiver. *)
Lemma rec_agrees io : agrees (receiver io) (receiver_source io) rec_name (fun _ => ("", [])) eq receiver_args receiver_impl (Built "on" []).
Proof.
  exact (@every_order unit (list attempt) (receiver io) (receiver_source io) rec_name (fun _ => ("", [])) eq all_forward receiver_args receiver_impl
    rec_code (Built "on" []) rec_first rec_expands rec_compiles (rec_built io) (rec_similar io)).
Qed.
(** How a computation ends, whatever it calls. *)
Definition ends {m X A} (c : comp m X A) x sh cx (o : outcome A) x' sh' cx' : Prop := exists tr, c x sh cx = Res o x' sh' cx' tr.
Lemma ends_bind m X A B (c : comp m X A) (k : A -> comp m X B) x sh cx a x1 sh1 cx1 o x2 sh2 cx2 :
  ends c x sh cx (Ret a) x1 sh1 cx1 -> ends (k a) x1 sh1 cx1 o x2 sh2 cx2 -> ends (bind c k) x sh cx o x2 sh2 cx2.
Proof. intros [t H] [t' K]. unfold ends, bind. rewrite H. cbn. rewrite K. cbn. eexists. reflexivity. Qed.
Lemma ends_stop m X A B (c : comp m X A) (k : A -> comp m X B) x sh cx w x1 sh1 cx1 :
  ends c x sh cx (Abort w) x1 sh1 cx1 -> ends (bind c k) x sh cx (Abort w) x1 sh1 cx1.
Proof. intros [t H]. unfold ends, bind. rewrite H. cbn. eexists. reflexivity. Qed.
Lemma ends_call m (f : State m -> Shared m -> Ctx m -> Event m -> reply (response (State m)) * State m * Shared m * Ctx m) nd e x sh cx r x' sh' cx' :
  f x sh cx e = (r, x', sh', cx') -> ends (call_handler m f nd e) x sh cx (outcome_of r) x' sh' cx'.
Proof. intros H. unfold ends, call_handler. rewrite H. eexists. reflexivity. Qed.
(** A machine without superstates and without hooks. *)
Section Flat.
  Variable m : machine.
  Hypothesis flat : forall x, s_super m x = None.
  Hypothesis no_bd : h_before_dispatch m = no_dispatch_hook.
  Hypothesis no_ad : h_after_dispatch m = no_dispatch_hook.
  Hypothesis no_bt : h_before_transition m = no_transition_hook.
  Hypothesis no_at : h_after_transition m = no_transition_hook.
  Hypothesis no_exit : s_exit m = no_action.
  Lemma ends_before X n e (x : X) sh cx : ends (before_dispatch m n e) x sh cx (Ret tt) x sh cx.
  Proof. unfold ends, before_dispatch, call_hook. rewrite no_bd. eexists. reflexivity. Qed.
  Lemma ends_after X n e (x : X) sh cx : ends (after_dispatch m n e) x sh cx (Ret tt) x sh cx.
  Proof. unfold ends, after_dispatch, call_hook. rewrite no_ad. eexists. reflexivity. Qed.
  Lemma ends_before_t X a b (x : X) sh cx : ends (before_transition m a b) x sh cx (Ret tt) x sh cx.
  Proof. unfold ends, before_transition, call_hook. rewrite no_bt. eexists. reflexivity. Qed.
  Lemma ends_after_t X a b (x : X) sh cx : ends (after_transition m a b) x sh cx (Ret tt) x sh cx.
  Proof. unfold ends, after_transition, call_hook. rewrite no_at. eexists. reflexivity. Qed.
  Lemma ends_exit x sh cx : ends (s_call_exit m) x sh cx (Ret tt) x sh cx.
  Proof. unfold ends, s_call_exit, call_action. rewrite no_exit. eexists. reflexivity. Qed.
  Lemma ends_self X (x : X) sh cx : ends (m := m) self x sh cx (Ret x) x sh cx.
  Proof. eexists. reflexivity. Qed.
  Lemma ends_ret X A (a : A) (x : X) sh cx : ends (m := m) (ret a) x sh cx (Ret a) x sh cx.
  Proof. eexists. reflexivity. Qed.
  Lemma flat_path stack x y : transition_path m stack x y = Ret (1, 1).
  Proof. unfold transition_path, state_depth. rewrite !flat. destruct (same_state m x y); reflexivity. Qed.
  Lemma ends_entry x sh cx r x' sh' cx' : s_entry m x sh cx = (r, x', sh', cx') -> ends (s_call_entry m) x sh cx (outcome_of r) x' sh' cx'.
  Proof. intros H. unfold ends, s_call_entry, call_action. rewrite H. eexists. reflexivity. Qed.
  (** What [handle] does there. *)
  Definition flat_init x sh cx : reply unit * State m * Shared m * Ctx m := s_entry m x sh cx.
  Definition flat_handle x sh cx e : reply unit * State m * Shared m * Ctx m :=
    match s_handler m x sh cx e with
    | (Returns (Transition y), _, sh', cx') => s_entry m y sh' cx'
    | (Returns _, x', sh', cx') => (Returns tt, x', sh', cx')
    | (Panics, x', sh', cx') => (Panics, x', sh', cx')
    | (Cancelled, x', sh', cx') => (Cancelled, x', sh', cx')
    end.
  Ltac pass := eapply ends_bind; [first [apply ends_self | apply ends_before | apply ends_after | apply ends_before_t | apply ends_after_t | apply ends_exit]|]; cbv beta.
  Lemma flat_inits stack md x sh cx r x' sh' cx' : flat_init x sh cx = (r, x', sh', cx') ->
    ends (Api.inner_init m stack md) x sh cx (outcome_of r) x' sh' cx'.
  Proof.
    intros H. destruct md; cbn [Api.inner_init]; unfold inner_init, Awaitable.inner_init; pass;
    (eapply ends_bind; [unfold ends, lift, Awaitable.state_depth, state_depth; rewrite flat; eexists; reflexivity|]);
    apply ends_entry; exact H.
  Qed.
  Lemma flat_transition stack md x sh cx y r x' sh' cx' : s_entry m y sh cx = (r, x', sh', cx') ->
    ends (match md with BlockingMode => transition m stack y | AwaitableMode => Awaitable.transition m stack y end)
      x sh cx (outcome_of r) x' sh' cx'.
  Proof.
    intros H. destruct md; [unfold transition|unfold Awaitable.transition]; do 2 pass;
    (eapply ends_bind; [unfold ends, lift, Awaitable.transition_path; rewrite flat_path; eexists; reflexivity|]); cbn [fst snd].
    - eapply ends_bind; [exact (ends_exit x sh cx)|].
      eapply ends_bind; [unfold swap_state; eexists; reflexivity|].
      pose proof (@ends_entry y sh cx r x' sh' cx' H) as K. destruct r as [[]| |]; cbn [outcome_of] in *; [|exact (ends_stop _ K)..].
      eapply ends_bind; [exact K|]. pass. apply ends_after_t.
    - eapply ends_bind.
      { unfold Awaitable.state_exit. cbn [Nat.leb]. eapply ends_bind; [exact (ends_exit x sh cx)|]. pass. rewrite flat. apply ends_ret. }
      eapply ends_bind; [unfold swap_state; eexists; reflexivity|].
      pose proof (@ends_entry y sh cx r x' sh' cx' H) as K. destruct r as [[]| |]; cbn [outcome_of] in *; [|exact (ends_stop _ K)..].
      eapply ends_bind; [exact K|]. pass. apply ends_after_t.
  Qed.
  Lemma flat_handles stack md x sh cx e r x' sh' cx' : flat_handle x sh cx e = (r, x', sh', cx') ->
    ends (Api.inner_handle m stack md e) x sh cx (outcome_of r) x' sh' cx'.
  Proof.
    intros H. unfold flat_handle in H.
    destruct (s_handler m x sh cx e) as [[[q x1] sh1] cx1] eqn:Q.
    pose proof (@ends_call m (s_handler m) NState e x sh cx q x1 sh1 cx1 Q) as C.
    assert (D : ends (match md with BlockingMode => state_handle m stack e | AwaitableMode => Awaitable.state_handle m stack e end)
                x sh cx (outcome_of q) x1 sh1 cx1).
    { destruct md; [unfold state_handle|unfold Awaitable.state_handle]; do 2 pass;
      (destruct q as [[| |y]| |]; cbn [outcome_of] in *; [..|exact (ends_stop _ C)|exact (ends_stop _ C)]);
      (eapply ends_bind; [exact C|]; do 2 pass); try apply ends_ret; pass; rewrite flat; apply ends_ret. }
    destruct md; cbn [Api.inner_handle]; [unfold inner_handle|unfold Awaitable.inner_handle];
    (destruct q as [[| |y]| |]; cbn [outcome_of] in *;
     [eapply ends_bind; [exact D|]; cbv beta iota ..|injection H as <- <- <- <-; exact (ends_stop _ D)|injection H as <- <- <- <-; exact (ends_stop _ D)]).
    all: try (injection H as <- <- <- <-; apply ends_ret).
    - exact (@flat_transition stack BlockingMode x1 sh1 cx1 y r x' sh' cx' H).
    - exact (@flat_transition stack AwaitableMode x1 sh1 cx1 y r x' sh' cx' H).
  Qed.
  Lemma flat_ready stack md x sh cx e q x' sh' cx' : flat_handle x sh cx e = (q, x', sh', cx') ->
    let r := handle_with_context stack md (StateMachine (Inner sh x) true) e cx in
    a_out r = outcome_of q /\ a_machine r = StateMachine (Inner sh' x') true /\ a_cx r = cx'.
  Proof.
    intros H. destruct (@flat_handles stack md x sh cx e q x' sh' cx' H) as [t K].
    unfold handle_with_context, dispatch, run_inner. cbn [initialized negb sm_inner state shared_storage]. rewrite K.
    cbn. repeat split.
  Qed.
  Lemma flat_fresh stack md x sh cx e x1 sh1 cx1 q x' sh' cx' :
    flat_init x sh cx = (Returns tt, x1, sh1, cx1) -> flat_handle x1 sh1 cx1 e = (q, x', sh', cx') ->
    let r := handle_with_context stack md (StateMachine (Inner sh x) false) e cx in
    a_out r = outcome_of q /\ a_machine r = StateMachine (Inner sh' x') true /\ a_cx r = cx'.
  Proof.
    intros G H. destruct (@flat_inits stack md x sh cx _ x1 sh1 cx1 G) as [t K].
    destruct (@flat_handles stack md x1 sh1 cx1 e q x' sh' cx' H) as [t' K'].
    unfold handle_with_context, dispatch, run_inner. cbn [initialized negb sm_inner state shared_storage]. rewrite K.
    cbn. rewrite K'. cbn. repeat split.
  Qed.
  Lemma flat_failed stack md x sh cx e q x1 sh1 cx1 : q <> Returns tt -> flat_init x sh cx = (q, x1, sh1, cx1) ->
    let r := handle_with_context stack md (StateMachine (Inner sh x) false) e cx in
    a_out r = outcome_of q /\ a_machine r = StateMachine (Inner sh1 x1) false /\ a_cx r = cx1.
  Proof.
    intros Q G. destruct (@flat_inits stack md x sh cx q x1 sh1 cx1 G) as [t K].
    unfold handle_with_context, dispatch, run_inner. cbn [initialized negb sm_inner state shared_storage]. rewrite K.
    destruct q as [[]| |]; [now destruct Q|..]; cbn; repeat split.
  Qed.
End Flat.

(** Receiver. *)
Inductive rec_at : nat -> rec_state -> bool -> list attempt -> Prop :=
| rec_at0 log : delivered log = [] -> rec_at 0 ROn false log
| rec_at1 log : delivered log = [entering_on] -> rec_at 1 ROn true log
| rec_at2 log : delivered log = [entering_on; received_step] -> rec_at 2 ROff true log.
Lemma delivered_snoc log line r : delivered (log ++ [(line, r)]) = match r with Returns _ => delivered log ++ [line] | _ => delivered log end.
Proof. unfold delivered. rewrite filter_app, map_app. destruct r; cbn; try reflexivity; apply app_nil_r. Qed.
Lemma delivered_attempt io line log : delivered (attempted io line log) =
  match io log line with Returns _ => delivered log ++ [line] | _ => delivered log end.
Proof. apply delivered_snoc. Qed.
Ltac finish_step F :=
  destruct F as (?O & ?M & _);
  match goal with O : a_out ?r = _ |- _ => set (r0 := r) in *; clearbody r0; destruct r0 as [? ? ? ?] end;
  cbn [a_out a_machine outcome_of] in *; subst; cbn [sm_state sm_shared sm_inner state shared_storage initialized].
Lemma rec_step io stack md k x b l e : rec_at k x b l ->
  let r := handle_with_context stack md (StateMachine (Inner (m := receiver io) l x) b) e tt in
  exists k', rec_at k' (sm_state (a_machine r)) (initialized (a_machine r)) (sm_shared (a_machine r)) /\
             k <= k' /\ (a_out r = Ret tt -> k' = 2) /\ ((forall log line, io log line = Returns tt) -> a_out r = Ret tt).
Proof.
  intros H. destruct e.
  assert (F : forall s, s_super (receiver io) s = None) by reflexivity.
  pose proof (@flat_ready (receiver io) F eq_refl eq_refl eq_refl eq_refl eq_refl stack md) as FR.
  pose proof (@flat_fresh (receiver io) F eq_refl eq_refl eq_refl eq_refl eq_refl stack md) as FF.
  pose proof (@flat_failed (receiver io) F stack md) as FX.
  cbv zeta in *. destruct H as [log D|log D|log D].
  - pose proof (delivered_attempt io entering_on log) as D1.
    destruct (io log entering_on) as [[]| |] eqn:E1.
    + set (log' := attempted io entering_on log) in *.
      pose proof (delivered_attempt io received_step log') as D2.
      assert (I : flat_init (receiver io) ROn log tt = (Returns tt, ROn, log', tt)) by (cbn; rewrite E1; reflexivity).
      destruct (io log' received_step) as [[]| |] eqn:E2.
      * assert (J : flat_handle (receiver io) ROn log' tt tt = (Returns tt, ROff, attempted io received_step log', tt)) by (cbn; rewrite E2; reflexivity).
        specialize (FF _ _ _ _ _ _ _ _ _ _ _ I J). clear FR FX. finish_step FF. exists 2.
        rewrite D1, D in D2. split; [constructor; exact D2|]. repeat split; lia || auto.
      * assert (J : flat_handle (receiver io) ROn log' tt tt = (Panics, ROn, attempted io received_step log', tt)) by (cbn; rewrite E2; reflexivity).
        specialize (FF _ _ _ _ _ _ _ _ _ _ _ I J). clear FR FX. finish_step FF. exists 1.
        rewrite D1, D in D2. split; [constructor; exact D2|]. repeat split; try lia; [discriminate|intros N; rewrite N in E2; discriminate E2].
      * assert (J : flat_handle (receiver io) ROn log' tt tt = (Cancelled, ROn, attempted io received_step log', tt)) by (cbn; rewrite E2; reflexivity).
        specialize (FF _ _ _ _ _ _ _ _ _ _ _ I J). clear FR FX. finish_step FF. exists 1.
        rewrite D1, D in D2. split; [constructor; exact D2|]. repeat split; try lia; [discriminate|intros N; rewrite N in E2; discriminate E2].
    + assert (I : flat_init (receiver io) ROn log tt = (Panics, ROn, attempted io entering_on log, tt)) by (cbn; rewrite E1; reflexivity).
      specialize (FX ROn log tt tt Panics _ _ _ ltac:(discriminate) I). clear FR FF. finish_step FX. exists 0.
      rewrite D in D1. split; [constructor; exact D1|]. repeat split; try lia; [discriminate|intros N; rewrite N in E1; discriminate E1].
    + assert (I : flat_init (receiver io) ROn log tt = (Cancelled, ROn, attempted io entering_on log, tt)) by (cbn; rewrite E1; reflexivity).
      specialize (FX ROn log tt tt Cancelled _ _ _ ltac:(discriminate) I). clear FR FF. finish_step FX. exists 0.
      rewrite D in D1. split; [constructor; exact D1|]. repeat split; try lia; [discriminate|intros N; rewrite N in E1; discriminate E1].
  - pose proof (delivered_attempt io received_step log) as D1. rewrite D in D1.
    destruct (io log received_step) as [[]| |] eqn:E2.
    + assert (J : flat_handle (receiver io) ROn log tt tt = (Returns tt, ROff, attempted io received_step log, tt)) by (cbn; rewrite E2; reflexivity).
      specialize (FR _ _ _ _ _ _ _ _ J). clear FF FX. finish_step FR. exists 2.
      split; [constructor; exact D1|]. repeat split; lia || auto.
    + assert (J : flat_handle (receiver io) ROn log tt tt = (Panics, ROn, attempted io received_step log, tt)) by (cbn; rewrite E2; reflexivity).
      specialize (FR _ _ _ _ _ _ _ _ J). clear FF FX. finish_step FR. exists 1.
      split; [constructor; exact D1|]. repeat split; try lia; [discriminate|intros N; rewrite N in E2; discriminate E2].
    + assert (J : flat_handle (receiver io) ROn log tt tt = (Cancelled, ROn, attempted io received_step log, tt)) by (cbn; rewrite E2; reflexivity).
      specialize (FR _ _ _ _ _ _ _ _ J). clear FF FX. finish_step FR. exists 1.
      split; [constructor; exact D1|]. repeat split; try lia; [discriminate|intros N; rewrite N in E2; discriminate E2].
  - assert (J : flat_handle (receiver io) ROff log tt tt = (Returns tt, ROff, log, tt)) by reflexivity.
    specialize (FR _ _ _ _ _ _ _ _ J). clear FF FX. finish_step FR. exists 2.
    split; [constructor; exact D|]. repeat split; lia || auto.
Qed.
Lemma rec_history io stack md evs : forall k x b l, rec_at k x b l ->
  let r := sm_handles stack md (StateMachine (Inner (m := receiver io) l x) b) (no_context evs) in
  exists k', rec_at k' (sm_state (fst r)) (initialized (fst r)) (sm_shared (fst r)) /\ k <= k' /\
             (some_completed (snd r) -> k' = 2) /\
             ((forall log line, io log line = Returns tt) -> evs <> [] -> some_completed (snd r)).
Proof.
  induction evs as [|e evs IH]; intros k x b l H; cbv zeta.
  - exists k. split; [exact H|]. split; [lia|]. split; [intros C; inversion C|congruence].
  - destruct (@rec_step io stack md k x b l e H) as (k1 & H1 & L1 & R1 & N1).
    cbn [no_context map]. rewrite (@sm_handles_cons (receiver io)). cbn [fst snd].
    destruct (a_machine (handle_with_context stack md (StateMachine (Inner (m := receiver io) l x) b) e tt)) as [[l1 x1] b1].
    cbn [sm_state sm_shared sm_inner state shared_storage initialized] in H1.
    destruct (IH k1 x1 b1 l1 H1) as (k2 & H2 & L2 & R2 & N2). exists k2.
    split; [exact H2|]. split; [lia|]. split.
    + intros C. apply Exists_cons in C. destruct C as [C|C]; [|exact (R2 C)].
      cbn [c_out] in C. specialize (R1 C). inversion H2; lia.
    + intros N _. apply Exists_cons. left. exact (N1 N).
Qed.
Lemma some_both m1 m2 (R : relations m1 m2) l l' : Forall2 (called_rel R) l l' -> some_completed l <-> some_completed l'.
Proof.
  intros H. induction H as [|a b l l' [O _] H IH]; [split; intros C; inversion C|].
  unfold some_completed. rewrite !Exists_cons, O. fold (some_completed l) (some_completed l'). tauto.
Qed.
Lemma rec_at_facts k x b l : rec_at k x b l ->
  delivered l = firstn k [entering_on; received_step] /\ k <= 2 /\ rec_name x = (if Nat.eqb k 2 then "Off" else "On", []).
Proof. intros [? D|? D|? D]; (split; [exact D|split; [lia|reflexivity]]). Qed.
Lemma rec_macro io : forall o, exists g first,
  expand o receiver_args receiver_impl = Done g /\ compiles g /\ built (receiver_source io) g (Built "on" []) = Some first /\
  forall stack md evs,
  let r := sm_handles stack md (new_state_machine (generated_machine (compiled (receiver_source io) g first)) []) (no_context evs) in
  exists k, delivered (sm_shared (fst r)) = firstn k [entering_on; received_step] /\ k <= 2 /\
            by_name (sm_state (fst r)) = (if Nat.eqb k 2 then "Off" else "On", []) /\
            (some_completed (snd r) -> k = 2) /\
            ((forall log line, io log line = Returns tt) -> evs <> [] -> some_completed (snd r)).
Proof.
  intros o. destruct (rec_agrees io o) as (g & first & E & C & B & H). exists g, first.
  split; [exact E|]. split; [exact C|]. split; [exact B|]. intros stack md evs. cbv zeta.
  destruct (H stack md [] [] (no_context evs) eq_refl) as (H1 & H2 & _ & H4).
  destruct (@rec_history io stack md evs 0 ROn false [] (@rec_at0 [] eq_refl)) as (k & K & _ & R & N).
  change (StateMachine (Inner (m := receiver io) [] ROn) false) with (new_state_machine (receiver io) []) in *. cbv zeta in H1, H2.
  exists k. destruct (rec_at_facts K) as (D1 & D2 & D3).
  split; [etransitivity; [exact (f_equal delivered H2)|exact D1]|]. split; [exact D2|].
  split; [etransitivity; [exact H1|exact D3]|].
  split; [intros S; apply R; exact (proj1 (some_both H4) S)|].
  intros S T. apply (proj2 (some_both H4)). exact (N S T).
Qed.

(** BenchComplex. *)
Lemma ring_step Ev (is : nat -> Ev -> bool) stack md x b e :
  let r := handle_with_context stack md (StateMachine (Inner (m := ring is) tt x) b) e tt in
  a_out r = Ret tt /\ a_machine r = StateMachine (Inner (m := ring is) tt (if is (S x) e then next_in_ring x else x)) true.
Proof.
  assert (F : forall s, s_super (ring is) s = None) by reflexivity.
  assert (J : flat_handle (ring is) x tt tt e = (Returns tt, if is (S x) e then next_in_ring x else x, tt, tt))
    by (unfold flat_handle; cbn; destruct (is (S x) e); reflexivity).
  cbv zeta. destruct b.
  - destruct (@flat_ready (ring is) F eq_refl eq_refl eq_refl eq_refl eq_refl stack md _ _ _ _ _ _ _ _ J) as (O & M & _).
    split; [exact O|exact M].
  - destruct (@flat_fresh (ring is) F eq_refl eq_refl eq_refl eq_refl eq_refl stack md x tt tt e x tt tt _ _ _ _ eq_refl J) as (O & M & _).
    split; [exact O|exact M].
Qed.
Definition ring_next {Ev} (is : nat -> Ev -> bool) (x : nat) (e : Ev) : nat := if is (S x) e then next_in_ring x else x.
Lemma ring_history Ev (is : nat -> Ev -> bool) stack md evs : forall x b,
  let r := sm_handles stack md (StateMachine (Inner (m := ring is) tt x) b) (no_context evs) in
  sm_state (fst r) = fold_left (ring_next is) evs x /\ completed (snd r).
Proof.
  induction evs as [|e evs IH]; intros x b; cbv zeta; [split; [reflexivity|constructor]|].
  destruct (@ring_step Ev is stack md x b e) as [O M]. destruct (IH (ring_next is x e) true) as [I1 I2].
  cbn [no_context map fold_left]. rewrite (@sm_handles_cons (ring is)). cbn [fst snd]. rewrite M.
  split; [exact I1|constructor; [exact O|exact I2]].
Qed.
Lemma ring_moves evs : forall x, fold_left (ring_next (fun k e => Nat.eqb e k)) evs x = fold_left move_on evs x.
Proof. induction evs as [|e evs IH]; intros x; [reflexivity|]. cbn [fold_left]. apply IH. Qed.
Lemma ring_macro item :
  agrees (ring is_event) (bench_source is_event) ring_name (fun _ => ("", [])) eq bench_args item (Built "s1" []) ->
  forall o, exists g first,
  expand o bench_args item = Done g /\ compiles g /\ built (bench_source is_event) g (Built "s1" []) = Some first /\
  forall stack md evs,
  let r := sm_handles stack md (new_state_machine (generated_machine (compiled (bench_source is_event) g first)) tt) (no_context evs) in
  by_name (sm_state (fst r)) = ring_name (fold_left move_on evs 1) /\ completed (snd r).
Proof.
  intros A o. destruct (A o) as (g & first & E & C & B & H). exists g, first.
  split; [exact E|]. split; [exact C|]. split; [exact B|]. intros stack md evs. cbv zeta.
  destruct (H stack md tt tt (no_context evs) eq_refl) as (H1 & _ & _ & H4).
  destruct (@ring_history nat is_event stack md evs 1 false) as [D1 D2]. cbv zeta in H1.
  split; [|exact (completed_both H4 D2)]. etransitivity; [exact H1|]. etransitivity; [exact (f_equal ring_name D1)|].
  exact (f_equal ring_name (ring_moves evs 1)).
Qed.
Lemma bench_agrees : agrees (ring is_event) (bench_source is_event) ring_name (fun _ => ("", [])) eq bench_args bench_impl (Built "s1" []).
Proof.
  exact (@every_order unit unit (ring is_event) (bench_source is_event) ring_name (fun _ => ("", [])) eq all_forward bench_args bench_impl
    bench_code (Built "s1" []) bench_first bench_expands bench_compiles (bench_built is_event) (bench_similar is_event)).
Qed.
Lemma async_bench_agrees : agrees (ring is_event) (bench_source is_event) ring_name (fun _ => ("", [])) eq bench_args async_bench_impl (Built "s1" []).
Proof.
  exact (@every_order unit unit (ring is_event) (bench_source is_event) ring_name (fun _ => ("", [])) eq all_forward bench_args async_bench_impl
    async_bench_code (Built "s1" []) async_bench_first async_bench_expands async_bench_compiles (async_bench_built is_event) (async_bench_similar is_event)).
Qed.
Lemma ring_name_s1 n : ring_name n = ("S1", []) -> n = 1.
Proof.
  intros E. destruct (@ring_range n) as [[_ I]|N]; [|rewrite N in E; discriminate E].
  cbn [seq In] in I. repeat (destruct I as [<-|I]; [solve [reflexivity|vm_compute in E; discriminate E]|]). destruct I.
Qed.
Lemma never_back evs : forall n, fold_left move_on evs n = 1 -> n = 1.
Proof.
  induction evs as [|e evs IH]; intros n H; [exact H|]. cbn [fold_left] in H. apply IH in H. unfold move_on in H.
  destruct (Nat.eqb_spec e (S n)); [|exact H].
  destruct (Nat.eqb_spec n 0); [lia|]. destruct (Nat.eqb_spec n 50); lia.
Qed.

(** tests/state_local_storage.rs. *)
Definition local_next (x : local_state) : local_state := match x with LOn _ _ => LOff false | LOff _ => LOn true 34 end.
Lemma local_step n md b x e :
  let r := handle_with_context (S (S (S n))) md (StateMachine (Inner (m := local_storage) tt x) b) e tt in
  a_out r = Ret tt /\
  a_machine r = StateMachine (Inner (m := local_storage) tt (local_next x)) true.
Proof. destruct md, b, x, e; vm_compute; split; reflexivity. Qed.
Lemma local_history n md evs : forall k b,
  let r := sm_handles (S (S (S n))) md (StateMachine (Inner (m := local_storage) tt (alternates k)) b) (no_context evs) in
  sm_state (fst r) = alternates (k + List.length evs) /\ completed (snd r).
Proof.
  induction evs as [|e evs IH]; intros k b; cbv zeta.
  - cbn. rewrite Nat.add_0_r. split; [reflexivity|constructor].
  - destruct (@local_step n md b (alternates k) e) as [O M]. destruct (IH (S k) true) as [I1 I2].
    assert (X : local_next (alternates k) = alternates (S k)).
    { destruct k as [|k]; [reflexivity|]. unfold alternates. rewrite (Nat.even_succ (S k)), <- Nat.negb_even.
      destruct (Nat.even (S k)); reflexivity. }
    rewrite X in M. cbn [no_context map List.length]. rewrite (@sm_handles_cons local_storage). cbn [fst snd]. rewrite M.
    rewrite <- plus_n_Sm. split; [exact I1|constructor; [exact O|exact I2]].
Qed.
Lemma local_new stack md evs : 3 <= stack ->
  let r := sm_handles stack md (new_state_machine local_storage tt) (no_context evs) in
  sm_state (fst r) = alternates (List.length evs) /\ completed (snd r).
Proof. intros ST. destruct (stack3 ST) as [n ->]. exact (@local_history n md evs 0 false). Qed.
