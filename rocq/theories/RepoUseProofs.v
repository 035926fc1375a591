(** RepoUseProofs.v — the example machines, one event at a time. *)

From Coq Require Import String Ascii List Bool Arith Lia.
From Verif Require Import Machine Blocking Api Spec RepoExamples RepoSpec.
Import ListNotations.
Open Scope string_scope.
Open Scope list_scope.
Set Implicit Arguments.

Section Flat.
  Variable m : machine.
  Variables (stack : nat) (md : mode).
  Lemma sm_handles_app (sm : state_machine m) l l' :
    sm_handles stack md sm (l ++ l') =
    (fst (sm_handles stack md (fst (sm_handles stack md sm l)) l'),
     snd (sm_handles stack md sm l) ++ snd (sm_handles stack md (fst (sm_handles stack md sm l)) l')).
  Proof.
    revert sm. induction l as [|[e cx] l IH]; intros sm; cbn [app sm_handles].
    - cbn. now destruct (sm_handles stack md sm l').
    - rewrite IH. destruct (sm_handles stack md (a_machine (handle_with_context stack md sm e cx)) l) as [s c]. reflexivity.
  Qed.
  Lemma sm_handles_cons (sm : state_machine m) e cx l :
    sm_handles stack md sm ((e, cx) :: l) =
    (fst (sm_handles stack md (a_machine (handle_with_context stack md sm e cx)) l),
     Called (a_out (handle_with_context stack md sm e cx)) (Some (a_cx (handle_with_context stack md sm e cx)))
       (a_tr (handle_with_context stack md sm e cx))
     :: snd (sm_handles stack md (a_machine (handle_with_context stack md sm e cx)) l)).
  Proof.
    cbn [sm_handles]. now destruct (sm_handles stack md (a_machine (handle_with_context stack md sm e cx)) l).
  Qed.
End Flat.

(** Dishwasher. *)
Definition dish_next (x prev : dish_state) (e : dish_event) : dish_state :=
  match x, e with
  | Idle, StartProgram => Soap | Soap, DishTimer => Rinse | Rinse, DishTimer => Dry | Dry, DishTimer => Idle
  | DoorOpened, DoorCloses => prev
  | DoorOpened, _ => DoorOpened
  | _, DoorOpens => DoorOpened
  | _, _ => x
  end.
Definition dish_previous (x prev : dish_state) (e : dish_event) : dish_state :=
  match x, e with
  | Idle, (StartProgram | DoorOpens) | Soap, (DishTimer | DoorOpens)
  | Rinse, (DishTimer | DoorOpens) | Dry, (DishTimer | DoorOpens) | DoorOpened, DoorCloses => x
  | _, _ => prev
  end.
Lemma dish_step n md b x prev e :
  let r := handle_with_context (S (S (S n))) md (StateMachine (Inner (m := dishwasher) prev x) b) e tt in
  a_out r = Ret tt /\
  a_machine r = StateMachine (Inner (m := dishwasher) (dish_previous x prev e) (dish_next x prev e)) true.
Proof. destruct md, b, x, e, prev; vm_compute; split; reflexivity. Qed.

Definition dish_invariant (x prev : dish_state) (a : appliance) : Prop :=
  x = shown a /\ (door_open a = true -> prev = shown (Appliance (running_program a) false)).
Lemma dish_invariant_step x prev a e : dish_invariant x prev a ->
  dish_invariant (dish_next x prev e) (dish_previous x prev e) (use_appliance a e).
Proof.
  destruct a as [p o]. intros [-> H]. cbn in H.
  destruct o, p, e; cbn in *; split; cbn; try reflexivity; try (intros; discriminate); auto; rewrite ?H by reflexivity; reflexivity.
Qed.
Lemma dish_history n md evs : forall b x prev a, dish_invariant x prev a ->
  sm_state (fst (sm_handles (S (S (S n))) md (StateMachine (Inner (m := dishwasher) prev x) b) (no_context evs)))
    = shown (fold_left use_appliance evs a) /\
  completed (snd (sm_handles (S (S (S n))) md (StateMachine (Inner (m := dishwasher) prev x) b) (no_context evs))).
Proof.
  induction evs as [|e evs IH]; intros b x prev a I.
  - split; [apply I|constructor].
  - destruct (dish_step n md b x prev e) as [O M].
    specialize (IH true _ _ _ (dish_invariant_step e I)). destruct IH as [IH1 IH2].
    cbn [no_context map fold_left].
    rewrite (@sm_handles_cons dishwasher). cbn [fst snd]. rewrite M.
    split; [exact IH1|]. constructor; [exact O|exact IH2].
Qed.

(** Barrier. *)
Definition barrier_next (x : barrier_state) (e : barrier_event) : barrier_state :=
  match x with
  | Initialized => Initialized
  | Initializing a b c =>
      match match e with EvA => (true, b, c) | EvB => (a, true, c) | EvC => (a, b, true) end with
      | (true, true, true) => Initialized
      | (a', b', c') => Initializing a' b' c'
      end
  end.
Lemma barrier_step n md b x e :
  let r := handle_with_context (S (S (S n))) md (StateMachine (Inner (m := barrier) tt x) b) e tt in
  a_out r = Ret tt /\ a_machine r = StateMachine (Inner (m := barrier) tt (barrier_next x e)) true.
Proof. destruct md, b, x as [[] [] []|], e; vm_compute; split; reflexivity. Qed.
Lemma barrier_run n md evs : forall b x,
  sm_state (fst (sm_handles (S (S (S n))) md (StateMachine (Inner (m := barrier) tt x) b) (no_context evs)))
    = fold_left barrier_next evs x /\
  completed (snd (sm_handles (S (S (S n))) md (StateMachine (Inner (m := barrier) tt x) b) (no_context evs))).
Proof.
  induction evs as [|e evs IH]; intros b x.
  - split; [reflexivity|constructor].
  - destruct (barrier_step n md b x e) as [O M]. destruct (IH true (barrier_next x e)) as [IH1 IH2].
    cbn [no_context map fold_left].
    rewrite (@sm_handles_cons barrier). cbn [fst snd]. rewrite M.
    split; [exact IH1|]. constructor; [exact O|exact IH2].
Qed.
Definition is_a (e : barrier_event) : bool := match e with EvA => true | _ => false end.
Definition is_b (e : barrier_event) : bool := match e with EvB => true | _ => false end.
Definition is_c (e : barrier_event) : bool := match e with EvC => true | _ => false end.
Lemma barrier_fold evs : forall a b c,
  fold_left barrier_next evs (Initializing a b c) =
  (if negb (match evs with [] => true | _ => false end) &&
      (a || existsb is_a evs) && (b || existsb is_b evs) && (c || existsb is_c evs) then Initialized
   else Initializing (a || existsb is_a evs) (b || existsb is_b evs) (c || existsb is_c evs)).
Proof.
  assert (K : forall evs, fold_left barrier_next evs Initialized = Initialized)
    by (intros l; induction l as [|? ? H]; [reflexivity|exact H]).
  induction evs as [|e evs IH]; intros a b c; [cbn; now rewrite !orb_false_r|].
  destruct evs as [|e' evs]; [destruct e, a, b, c; reflexivity|].
  change (fold_left barrier_next (e :: e' :: evs) (Initializing a b c))
    with (fold_left barrier_next (e' :: evs) (barrier_next (Initializing a b c) e)).
  destruct a, b, c, e; cbn [barrier_next]; rewrite ?IH, ?K; cbn [existsb is_a is_b is_c orb andb negb];
    rewrite ?orb_true_r, ?orb_false_r; reflexivity.
Qed.
