(** Props5.v — C23 to C26, C44.  Theorems only. *)

From Coq Require Import List Bool Arith String Lia.
From Verif Require Import Machine Api Spec Equality Serde Examples.
From Verif Require SerdeProofs RestoreProofs EqualityProofs.
Import ListNotations.
Local Open Scope string_scope.

(** Serialization of the demo machine, as a derived implementation would do it. *)
Definition demo_ser_state (s : demo_state) : result data :=
  match s with
  | On n => Ok (DMap [(KStr "On", DAtom n)])
  | Off n => Ok (DMap [(KStr "Off", DAtom n)])
  | Idle n => Ok (DMap [(KStr "Idle", DAtom n)])
  | Fault => Ok (DAtom 0)
  end.
Definition demo_de_state (d : data) : result demo_state :=
  match d with
  | DMap [(KStr s, DAtom n)] =>
      if string_dec s "On" then Ok (On n)
      else if string_dec s "Off" then Ok (Off n)
      else if string_dec s "Idle" then Ok (Idle n)
      else Err (UserError 0)
  | DAtom _ => Ok Fault
  | _ => Err (UserError 1)
  end.
Definition demo_ser_shared (l : list nat) : result data :=
  if Nat.ltb 100 (List.length l) then Err (UserError 2) else Ok (DSeq (map DAtom l)).
Fixpoint atoms (l : list data) : result (list nat) :=
  match l with
  | [] => Ok []
  | DAtom n :: l' => try (atoms l') (fun r => Ok (n :: r))
  | _ => Err (UserError 3)
  end.
Definition demo_de_shared (d : data) : result (list nat) :=
  match d with DSeq l => atoms l | _ => Err (UserError 4) end.
Lemma demo_round_trips b :
  round_trips (demo b) demo_ser_shared demo_ser_state demo_de_shared demo_de_state.
Proof.
  split.
  - intros v d. simpl. unfold demo_ser_shared.
    destruct (Nat.ltb 100 (List.length v)); [discriminate|]. intros H. injection H as <-. simpl.
    induction v as [|x v IH]; [reflexivity|]. simpl. rewrite IH. reflexivity.
  - intros [n|n|n|] d H; injection H as <-; reflexivity.
Qed.

(** C23.  The three machine types, the formats that key struct fields by name (with or
    without the name of the struct) and those that list them.  What serializes, deserializes to
    the same storage and state, as either of the types that implement `Deserialize`. *)
Theorem C23_round_trip :
  forall (m : machine) (ser_shared : Shared m -> result data) (ser_state : State m -> result data)
         (de_shared : data -> result (Shared m)) (de_state : data -> result (State m))
         (f : format) (d : data),
    round_trips m ser_shared ser_state de_shared de_state ->
    layout_of f = Named \/ layout_of f = Tagged \/ layout_of f = Positional ->
    (forall sm, ser_sm m ser_shared ser_state f sm = Ok d ->
       de_sm m de_shared de_state f d = Ok (StateMachine (sm_inner sm) false) /\
       de_um m de_shared de_state f d = Ok (UninitializedMachine (sm_inner sm))) /\
    (forall im, ser_im m ser_shared ser_state f im = Ok d ->
       de_sm m de_shared de_state f d = Ok (StateMachine (im_inner im) false) /\
       de_um m de_shared de_state f d = Ok (UninitializedMachine (im_inner im))) /\
    (forall um, ser_um m ser_shared ser_state f um = Ok d ->
       de_sm m de_shared de_state f d = Ok (StateMachine (um_inner um) false) /\
       de_um m de_shared de_state f d = Ok um).
Proof.
  intros m ser_shared ser_state de_shared de_state f d RT L.
  exact (conj (fun sm => @RestoreProofs.round_trip_sm m _ _ _ _ f RT L sm d)
        (conj (fun im => @RestoreProofs.round_trip_im m _ _ _ _ f RT L im d)
              (fun um => @RestoreProofs.round_trip_um m _ _ _ _ f RT L um d))).
Qed.
Print Assumptions C23_round_trip.

(** Serialization fails only if the serialization of a part does. *)
Theorem C23_serializes :
  forall (m : machine) (ser_shared : Shared m -> result data) (ser_state : State m -> result data)
         (f : format) (sm : state_machine m) (d1 d2 : data),
    ser_shared (sm_shared sm) = Ok d1 -> ser_state (sm_state sm) = Ok d2 ->
    exists d, ser_sm m ser_shared ser_state f sm = Ok d /\
      ser_im m ser_shared ser_state f (InitializedMachine (sm_inner sm)) = Ok d /\
      ser_um m ser_shared ser_state f (UninitializedMachine (sm_inner sm)) = Ok d.
Proof.
  intros m ser_shared ser_state f sm d1 d2 E1 E2.
  unfold ser_sm, ser_um, ser_im, ser_inner. unfold sm_shared, sm_state in E1, E2. simpl.
  rewrite E1. simpl. rewrite E2. simpl. eexists. auto.
Qed.
Print Assumptions C23_serializes.

Example C23_case :
  round_trips (demo true) demo_ser_shared demo_ser_state demo_de_shared demo_de_state /\
  ser_sm (demo true) demo_ser_shared demo_ser_state (Format Tagged true)
         (running true (On 3) [7; 8]) =
  Ok (DStruct "StateMachine" [(KStr "shared_storage", DSeq [DAtom 7; DAtom 8]);
                              (KStr "state", DMap [(KStr "On", DAtom 3)])]).
Proof. split; [apply demo_round_trips|reflexivity]. Qed.

(** C44.  The same for formats that key fields by index or by bytes, and which serde's derived
    implementations support: whatever is serialized is rejected on the way back. *)
Theorem C44_other_keys_refuted :
  forall (m : machine) (ser_shared : Shared m -> result data) (ser_state : State m -> result data)
         (de_shared : data -> result (Shared m)) (de_state : data -> result (State m))
         (f : format) (sm : state_machine m) (d : data),
    layout_of f = Indexed \/ layout_of f = AsBytes ->
    ser_sm m ser_shared ser_state f sm = Ok d ->
    de_sm m de_shared de_state f d = Err InvalidType /\
    de_um m de_shared de_state f d = Err InvalidType.
Proof.
  intros m ser_shared ser_state de_shared de_state f sm d L E.
  unfold de_sm, de_um.
  rewrite (@SerdeProofs.indexed_fails m ser_shared ser_state de_shared de_state f _ _ L E).
  split; reflexivity.
Qed.
Print Assumptions C44_other_keys_refuted.

Example C44_case :
  exists d, ser_sm (demo true) demo_ser_shared demo_ser_state (Format Indexed true)
         (running true (On 3) [7; 8]) = Ok d.
Proof. eexists. reflexivity. Qed.

(** C24, maps: accepted are exactly the two orders of the two fields, with readable values. *)
Theorem C24_map_accepted :
  forall (m : machine) (de_shared : data -> result (Shared m)) (de_state : data -> result (State m))
         (f : format) (l : list (key * data)) (sm : state_machine m),
    de_sm m de_shared de_state f (DMap l) = Ok sm <->
    initialized sm = false /\
    exists d1 d2,
      (l = [(KStr "shared_storage", d1); (KStr "state", d2)] \/
       l = [(KStr "state", d2); (KStr "shared_storage", d1)]) /\
      de_shared d1 = Ok (sm_shared sm) /\ de_state d2 = Ok (sm_state sm).
Proof.
  intros m de_shared de_state f l sm. unfold de_sm.
  pose proof (@SerdeProofs.map_accepts m de_shared de_state f l) as H.
  destruct (de_inner m de_shared de_state f (DMap l)) as [i|e] eqn:E; cbn [try].
  - specialize (H i). destruct H as [H _]. specialize (H eq_refl).
    destruct H as (d1 & d2 & Hl & H1 & H2). split.
    + intros Hs. injection Hs as <-. split; [reflexivity|]. exists d1, d2. auto.
    + intros (Hi & e1 & e2 & Hl' & G1 & G2). destruct sm as [[sh s] i']. simpl in *. subst i'.
      assert (e1 = d1 /\ e2 = d2) as [-> ->].
      { destruct Hl as [->| ->], Hl' as [Hl'|Hl']; try discriminate; injection Hl'; auto. }
      destruct i as [sh' s']. unfold sm_shared, sm_state in *. simpl in *. congruence.
  - split; [discriminate|]. intros (Hi & d1 & d2 & Hl & G1 & G2).
    destruct (H (sm_inner sm)) as [_ H2]. discriminate H2. exists d1, d2. auto.
Qed.
Print Assumptions C24_map_accepted.

(** What is wrong decides the error; the first offending entry counts. *)
Theorem C24_map_rejected :
  forall (m : machine) (de_shared : data -> result (Shared m)) (de_state : data -> result (State m))
         (f : format) (good : list (key * data)),
    readable m de_shared de_state good ->
    (forall s d rest, s <> "shared_storage" -> s <> "state" ->
       de_sm m de_shared de_state f (DMap (good ++ (KStr s, d) :: rest)%list) = Err (UnknownField s)) /\
    (forall name d rest, name = "shared_storage" \/ name = "state" -> occurrences name good = 1 ->
       de_sm m de_shared de_state f (DMap (good ++ (KStr name, d) :: rest)%list) =
       Err (DuplicateField name)) /\
    (occurrences "shared_storage" good = 0 ->
       de_sm m de_shared de_state f (DMap good) = Err (MissingField "shared_storage")) /\
    (occurrences "shared_storage" good = 1 -> occurrences "state" good = 0 ->
       de_sm m de_shared de_state f (DMap good) = Err (MissingField "state")).
Proof.
  intros m de_shared de_state f good R. unfold de_sm. split; [|split].
  - intros s d rest N1 N2.
    now rewrite (@SerdeProofs.map_unknown m de_shared de_state f good s d rest R N1 N2).
  - intros name d rest Hn Ho.
    now rewrite (@SerdeProofs.map_duplicate m de_shared de_state f good name d rest R Ho Hn).
  - destruct (@SerdeProofs.map_missing m de_shared de_state f good R) as [H1 H2]. split.
    + intros H. now rewrite (H1 H).
    + intros H G. now rewrite (H2 H G).
Qed.
Print Assumptions C24_map_rejected.

(** Sequences. *)
Theorem C24_sequence :
  forall (m : machine) (de_shared : data -> result (Shared m)) (de_state : data -> result (State m))
         (f : format) (l : list data),
    (forall i, de_um m de_shared de_state f (DSeq l) = Ok (UninitializedMachine i) <->
       exists d1 d2 rest, l = d1 :: d2 :: rest /\ de_shared d1 = Ok (shared_storage i) /\
         de_state d2 = Ok (state i) /\ (strict f = true -> rest = [])) /\
    (l = [] -> de_um m de_shared de_state f (DSeq l) = Err (InvalidLength 0)) /\
    (forall d1 v, l = [d1] -> de_shared d1 = Ok v ->
       de_um m de_shared de_state f (DSeq l) = Err (InvalidLength 1)).
Proof.
  intros m de_shared de_state f l. unfold de_um. split; [|split].
  - intros i. rewrite <- (@SerdeProofs.seq_accepts m de_shared de_state f l i).
    destruct (de_inner m de_shared de_state f (DSeq l)); simpl; split; intros H; congruence.
  - intros ->. reflexivity.
  - intros d1 v -> E.
    destruct (@SerdeProofs.seq_short m de_shared de_state f) as [_ H]. now rewrite (H d1 v E).
Qed.
Print Assumptions C24_sequence.

Example C24_case :
  readable (demo true) demo_de_shared demo_de_state
    [(KStr "state", DAtom 0)] /\
  occurrences "shared_storage" [(KStr "state", DAtom 0)] = 0 /\
  occurrences "state" [(KStr "state", DAtom 0)] = 1 /\
  de_sm (demo true) demo_de_shared demo_de_state (Format Named true)
    (DMap [(KStr "state", DAtom 0); (KStr "shared_storage", DSeq [])]) =
  Ok (StateMachine (@Inner (demo true) [] Fault) false).
Proof.
  split; [|split; [reflexivity|split; reflexivity]].
  split; [|split; vm_compute; auto].
  intros k d [H|[]]. injection H as <- <-. right. split; [reflexivity|]. exists Fault. reflexivity.
Qed.

(** C25.  A machine in any state, initialized or not, is stored and restored.  [r0], [r]: the
    first `init` or the first `handle` of the restored machine. *)
Theorem C25_restored_reenters :
  forall (m : machine) (ser_shared : Shared m -> result data) (ser_state : State m -> result data)
         (de_shared : data -> result (Shared m)) (de_state : data -> result (State m))
         (f : format) (h : hierarchy) (stack : nat) (md : mode) (sm sm' : state_machine m)
         (d : data) (e : Event m) (cx : Ctx m),
    round_trips m ser_shared ser_state de_shared de_state ->
    layout_of f = Named \/ layout_of f = Tagged \/ layout_of f = Positional ->
    well_formed h m stack ->
    ser_sm m ser_shared ser_state f sm = Ok d -> de_sm m de_shared de_state f d = Ok sm' ->
    initialized sm' = false /\
    let r0 := init_with_context stack md sm' cx in
    let r := handle_with_context stack md sm' e cx in
    exists p ps, path h (s_disc m (sm_state sm)) p /\ upward h (s_disc m (sm_state sm)) ps /\
      forallb (@is_enter m) (a_tr r0) = true /\ prefix (acts (a_tr r0)) (map Enter p) /\
      (a_out r0 = Ret tt -> acts (a_tr r0) = map Enter p) /\
      (exists rest, a_tr r = (a_tr r0 ++ rest)%list) /\
      prefix (map (fun c => fst (fst c)) (handler_calls (calls (a_tr r)))) ps /\
      (a_out r = Ret tt -> exists a rest,
         handler_calls (calls (a_tr r)) = (AtState (s_disc m (sm_state sm)), e, Some a) :: rest).
Proof.
  intros m ser_shared ser_state de_shared de_state f h stack md sm sm' d e cx RT L W E E'.
  destruct (@RestoreProofs.round_trip_sm m _ _ _ _ f RT L sm d E) as [E2 _].
  rewrite E2 in E'. injection E' as <-. split; [reflexivity|].
  exact (@RestoreProofs.uninitialized_enters m h stack md W (StateMachine (sm_inner sm) false) e cx eq_refl).
Qed.
Print Assumptions C25_restored_reenters.

(** The same for the typestate front end; here what was stored is an initialized machine. *)
Theorem C25_restored_typestate :
  forall (m : machine) (ser_shared : Shared m -> result data) (ser_state : State m -> result data)
         (de_shared : data -> result (Shared m)) (de_state : data -> result (State m))
         (f : format) (h : hierarchy) (stack : nat) (md : mode) (im : initialized_machine m)
         (um : uninitialized_machine m) (d : data) (cx : Ctx m) (o : outcome (initialized_machine m))
         (cx' : Ctx m) (tr : list (obs m)),
    round_trips m ser_shared ser_state de_shared de_state ->
    layout_of f = Named \/ layout_of f = Tagged \/ layout_of f = Positional ->
    well_formed h m stack ->
    ser_im m ser_shared ser_state f im = Ok d -> de_um m de_shared de_state f d = Ok um ->
    um_init_with_context stack md um cx = (o, cx', tr) ->
    exists p, path h (s_disc m (state (im_inner im))) p /\ forallb (@is_enter m) tr = true /\
      prefix (acts tr) (map Enter p) /\
      forall im', o = Ret im' -> acts tr = map Enter p /\
        s_disc m (state (im_inner im')) = s_disc m (state (im_inner im)).
Proof.
  intros m ser_shared ser_state de_shared de_state f h stack md im um d cx o cx' tr RT L W E E' Hi.
  destruct (@RestoreProofs.round_trip_im m _ _ _ _ f RT L im d E) as [_ E2].
  rewrite E2 in E'. injection E' as <-.
  exact (@RestoreProofs.um_init_log m h stack md W _ cx o cx' tr Hi).
Qed.
Print Assumptions C25_restored_typestate.

Example C25_case :
  well_formed demo_hierarchy (demo true) 2 /\
  exists d, ser_sm (demo true) demo_ser_shared demo_ser_state (Format Named true)
              (running true (Idle 4) [1]) = Ok d /\
    exists sm', de_sm (demo true) demo_de_shared demo_de_state (Format Named true) d = Ok sm' /\
      acts (a_tr (init_with_context 2 BlockingMode sm' 0)) = [Enter (AtSuper 1); Enter (AtState 2)].
Proof.
  split; [apply demo_well_formed|]. eexists. split; [reflexivity|]. eexists. split; [reflexivity|].
  vm_compute. reflexivity.
Qed.

(** C26.  Symmetry and transitivity. *)
Theorem C26_partial_eq :
  forall (S U : eq_type) (m : machine) (eq_state : State m -> State m -> bool)
         (eq_shared : Shared m -> Shared m -> bool) (state_Eq shared_Eq : bool),
    lawful_partial_eq S -> lawful_partial_eq U ->
    partial_equivalence eq_state -> partial_equivalence eq_shared ->
    lawful_partial_eq (response_type S) /\ lawful_partial_eq (node_type S U) /\
    lawful_partial_eq (sm_type m eq_state eq_shared) /\
    lawful_partial_eq (im_type m eq_state eq_shared state_Eq shared_Eq) /\
    lawful_partial_eq (um_type m eq_state eq_shared state_Eq shared_Eq).
Proof.
  intros S U m es eh b1 b2 HS HU H1 H2.
  exact (conj (@EqualityProofs.response_partial S HS) (conj (@EqualityProofs.node_partial S U HS HU)
        (conj (@EqualityProofs.sm_partial m es eh H1 H2)
        (conj (@EqualityProofs.im_partial m es eh H1 H2)
              (@EqualityProofs.um_partial m es eh H1 H2))))).
Qed.
Print Assumptions C26_partial_eq.

(** Types that claim `Eq` are reflexive if the user's types that do are — except
    `StateMachine`, for which both user types must be `Eq`, and which claims it regardless. *)
Theorem C26_eq_partial :
  forall (S U : eq_type) (m : machine) (eq_state : State m -> State m -> bool)
         (eq_shared : Shared m -> Shared m -> bool) (state_Eq shared_Eq : bool),
    lawful_eq S -> lawful_eq U ->
    lawful_eq (EqType eq_state state_Eq) -> lawful_eq (EqType eq_shared shared_Eq) ->
    lawful_eq (response_type S) /\ lawful_eq (node_type S U) /\
    lawful_eq (im_type m eq_state eq_shared state_Eq shared_Eq) /\
    lawful_eq (um_type m eq_state eq_shared state_Eq shared_Eq) /\
    (state_Eq = true -> shared_Eq = true -> lawful_eq (sm_type m eq_state eq_shared)).
Proof.
  intros S U m es eh b1 b2 HS HU H1 H2.
  refine (conj (@EqualityProofs.response_eq_lawful S HS) (conj (@EqualityProofs.node_eq_lawful S U HS HU)
        (conj (@EqualityProofs.im_eq_lawful m es eh b1 b2 H1 H2)
        (conj (@EqualityProofs.um_eq_lawful m es eh b1 b2 H1 H2) _)))).
  intros -> ->. exact (@EqualityProofs.sm_eq_lawful_if m es eh true true H1 H2 eq_refl).
Qed.
Print Assumptions C26_eq_partial.

(** The exception is real: a state holding a NaN, which is not equal to itself. *)
Theorem C26_state_machine_eq_refuted :
  exists (m : machine) (eq_state : State m -> State m -> bool)
         (eq_shared : Shared m -> Shared m -> bool),
    partial_equivalence eq_state /\ partial_equivalence eq_shared /\
    lawful_eq (EqType eq_state false) /\ lawful_eq (EqType eq_shared true) /\
    ~ lawful_eq (sm_type m eq_state eq_shared).
Proof.
  exists (demo true),
    (fun a b => match a, b with Fault, _ | _, Fault => false | _, _ => Nat.eqb (demo_s_disc a) (demo_s_disc b) end),
    (fun _ _ => true).
  split; [|split; [|split; [|split]]].
  - split.
    + intros [n|n|n|] [k|k|k|]; simpl; intros H; try discriminate; reflexivity.
    + intros [n|n|n|] [k|k|k|] [j|j|j|]; simpl; intros H G; try discriminate; reflexivity.
  - split; reflexivity.
  - intros H. discriminate.
  - intros _ a. reflexivity.
  - intros H. specialize (H eq_refl (running true Fault [])). discriminate.
Qed.
Print Assumptions C26_state_machine_eq_refuted.

(** Different variants are never equal, same variants are compared by their contents. *)
Theorem C26_distinguishes :
  forall (S U : eq_type) (a b : S) (u v : U),
    response_eqb (@Handled S) Super = false /\ response_eqb (@Super S) Handled = false /\
    response_eqb Handled (Transition a) = false /\ response_eqb (Transition a) Handled = false /\
    response_eqb Super (Transition a) = false /\ response_eqb (Transition a) Super = false /\
    response_eqb (Transition a) (Transition b) = eqb a b /\
    node_eqb (NState a) (NSuper u) = false /\ node_eqb (NSuper u) (NState a) = false /\
    node_eqb (NState a) (@NState S U b) = eqb a b /\ node_eqb (@NSuper S U u) (NSuper v) = eqb u v.
Proof. intros S U a b u v. repeat split. Qed.
Print Assumptions C26_distinguishes.

(** Machines are equal exactly if they agree in storage, state and (for `StateMachine`)
    whether they are initialized. *)
Theorem C26_machines :
  forall (m : machine) (eq_state : State m -> State m -> bool)
         (eq_shared : Shared m -> Shared m -> bool) (a b : state_machine m),
    sm_eqb m eq_state eq_shared a b = true <->
    eq_shared (sm_shared a) (sm_shared b) = true /\ eq_state (sm_state a) (sm_state b) = true /\
    initialized a = initialized b.
Proof.
  intros m es eh a b. unfold sm_eqb, inner_eqb, sm_shared, sm_state.
  rewrite !andb_true_iff, eqb_true_iff. tauto.
Qed.
Print Assumptions C26_machines.

Example C26_case :
  lawful_eq (EqType Nat.eqb true) /\ partial_equivalence Nat.eqb /\
  implements_Eq (response_type (EqType Nat.eqb true)) = true.
Proof.
  split; [intros _ a; simpl; apply Nat.eqb_refl|]. split; [|reflexivity]. split.
  - intros a b H. apply Nat.eqb_eq in H. subst. apply Nat.eqb_refl.
  - intros a b c H G. apply Nat.eqb_eq in H, G. subst. apply Nat.eqb_refl.
Qed.
