(** Props19.v — C70: programs that save their machine and go on with what they read back.  Theorems
    only; see SaveSpec.v for the vocabulary. *)

From Coq Require Import String List Bool Arith Lia.
From Verif Require Import MacroSyntax MacroVisit MacroAnalyze MacroLower MacroGen MacroSem MacroSpec MacroOrderSpec MacroSource MacroExamples.
From Verif Require Import Machine Blocking Api Spec Sim Serde AnySpec SaveSpec RepoExamples RepoSpec RepoSave AnyExamples.
From Verif Require SaveProofs RepoSaveProofs.
Import ListNotations.
Open Scope string_scope.
Open Scope list_scope.

(** C70.  If entry actions change nothing, then saving and restoring a machine, wherever, however
    often and in whatever formats, makes no difference: all succeed, the data are the same in the
    end, and so are the results of the calls; only the entries of a restored machine are logged
    once more. *)
Theorem C70_session :
  forall (m : machine) (ser_shared : format -> Shared m -> result data) (ser_state : format -> State m -> result data)
         (de_shared : format -> data -> result (Shared m)) (de_state : format -> data -> result (State m))
         (stack : nat) (md : mode) (rank : Sup m -> nat) (sm : state_machine m) (ds : list (deed m)),
    quiet_entries m -> goes_up m stack rank ->
    (forall f, round_trips m (ser_shared f) (ser_state f) (de_shared f) (de_state f)) ->
    serializable ser_shared ser_state -> restores_readably ds ->
    exists sm' cs, session ser_shared ser_state de_shared de_state stack md sm ds = Some (sm', cs) /\
      let h := sm_handles stack md sm (events_of ds) in
      sm_shared sm' = sm_shared (fst h) /\ sm_state sm' = sm_state (fst h) /\ Forall2 same_call cs (snd h).
Proof.
  intros m s1 s2 d1 d2 stack md rank sm ds Q G RT S R.
  destruct (@SaveProofs.session_same m s1 s2 d1 d2 stack md rank Q G RT S ds sm sm R eq_refl (fun H => H)) as (sm' & cs & A & B & C).
  exists sm', cs. split; [exact A|]. unfold sm_shared, sm_state. cbv zeta in B. rewrite B. split; [reflexivity|]. split; [reflexivity|exact C].
Qed.
Print Assumptions C70_session.
Theorem C70_typed_session :
  forall (m : machine) (ser_shared : format -> Shared m -> result data) (ser_state : format -> State m -> result data)
         (de_shared : format -> data -> result (Shared m)) (de_state : format -> data -> result (State m))
         (stack : nat) (md : mode) (rank : Sup m -> nat) (im : initialized_machine m) (ds : list (deed m)),
    quiet_entries m -> goes_up m stack rank ->
    (forall f, round_trips m (ser_shared f) (ser_state f) (de_shared f) (de_state f)) ->
    serializable ser_shared ser_state -> restores_readably ds ->
    typed_session ser_shared ser_state de_shared de_state stack md im ds = Some (im_handles stack md im (events_of ds)).
Proof.
  intros m s1 s2 d1 d2 stack md rank im ds Q G RT S R.
  exact (@SaveProofs.typed_same m s1 s2 d1 d2 stack md rank Q G RT S ds im R).
Qed.
Print Assumptions C70_typed_session.

(** The machine of the serde test, saved and restored anywhere, is a blinking light; what the macro
    generates agrees with it. *)
Theorem C70_serde_test :
  forall (stack : nat) (md : mode) (led : bool) (ds : list (deed save_blinky)), 2 <= stack -> restores_readably ds ->
    exists sm' cs,
      session (m := save_blinky) save_ser_shared (fun _ => save_ser_state) (fun _ => save_de_shared) (fun _ => save_de_state) stack md
        (new_state_machine save_blinky led) ds = Some (sm', cs) /\
      sm_shared sm' = led /\ completed cs /\
      sm_state sm' = light_state (fold_left use_light (map fst (events_of ds)) (Light true true)).
Proof.
  intros [|[|n]] md led ds ST R; [lia..|].
  destruct (@SaveProofs.session_same save_blinky save_ser_shared (fun _ => save_ser_state) (fun _ => save_de_shared) (fun _ => save_de_state)
              (S (S n)) md (fun _ => 0) RepoSaveProofs.save_quiet (RepoSaveProofs.save_up (S n)) RepoSaveProofs.save_round
              RepoSaveProofs.save_serializable ds (new_state_machine save_blinky led) (new_state_machine save_blinky led) R eq_refl (fun H => H))
    as (sm' & cs & A & B & C).
  exists sm', cs. split; [exact A|].
  assert (E : no_context (map fst (events_of ds)) = events_of ds).
  { clear. induction (events_of ds) as [|[e []] l IH]; [reflexivity|]. cbn. f_equal. exact IH. }
  assert (K : completed (snd (sm_handles (S (S n)) md (new_state_machine save_blinky led) (events_of ds))) /\
    sm_inner (fst (sm_handles (S (S n)) md (new_state_machine save_blinky led) (events_of ds))) =
    @Inner save_blinky led (light_state (fold_left use_light (map fst (events_of ds)) (Light true true)))).
  { refine (eq_ind (no_context (map fst (events_of ds))) (fun evs => completed (snd (sm_handles (S (S n)) md (new_state_machine save_blinky led) evs)) /\
      sm_inner (fst (sm_handles (S (S n)) md (new_state_machine save_blinky led) evs)) = _) _ _ E).
    exact (RepoSaveProofs.save_steps n md (map fst (events_of ds)) false (Light true true) led). }
  destruct K as [K1 K2].
  cbv zeta in B, C. rewrite K2 in B. unfold sm_shared, sm_state.
  split; [exact (f_equal (@shared_storage save_blinky) B)|]. split; [|exact (f_equal (@state save_blinky) B)].
  clear - C K1. revert C K1. generalize (snd (sm_handles (S (S n)) md (new_state_machine save_blinky led) (events_of ds))).
  intros y C K1. induction C as [|a b cs' y' (H & _) _ IH]; [constructor|]. inversion K1 as [|? ? K3 K4]; subst. constructor; [exact (eq_trans H K3)|exact (IH K4)].
Qed.
Print Assumptions C70_serde_test.
Theorem C70_serde_test_macro :
  agrees save_blinky save_source blinky_name blinky_super_name eq save_args save_impl (Built "led_on" []).
Proof. exact RepoSaveProofs.save_agrees. Qed.
Print Assumptions C70_serde_test_macro.

(** It does make a difference if entering is noticed: a machine whose entry action counts. *)
Theorem C70_quiet_needed :
  exists (m : machine) (ser_shared : format -> Shared m -> result data) (ser_state : format -> State m -> result data)
         (de_shared : format -> data -> result (Shared m)) (de_state : format -> data -> result (State m))
         (rank : Sup m -> nat) (sm : state_machine m) (ds : list (deed m)),
    goes_up m 1 rank /\ (forall f, round_trips m (ser_shared f) (ser_state f) (de_shared f) (de_state f)) /\
    serializable ser_shared ser_state /\ restores_readably ds /\
    exists sm' cs, session ser_shared ser_state de_shared de_state 1 BlockingMode sm ds = Some (sm', cs) /\
      sm_shared sm' <> sm_shared (fst (sm_handles 1 BlockingMode sm (events_of ds))).
Proof.
  exists counts_entries, (fun _ n => Ok (DAtom n)), (fun _ _ => Ok (DAtom 0)), (fun _ d => match d with DAtom n => Ok n | _ => Err (UserError 0) end),
    (fun _ _ => Ok tt), (fun _ => 0), (new_state_machine counts_entries 0),
    [Handles (m := counts_entries) tt tt; Restores (m := counts_entries) (Format Named true) tt; Handles (m := counts_entries) tt tt].
  split; [split; intros; [discriminate|lia..]|]. split.
  { intros f. split; [intros v d H; inversion H; reflexivity|intros [] d H; reflexivity]. }
  split; [split; intros; eexists; reflexivity|]. split; [repeat constructor|].
  eexists _, _. split; [vm_compute; reflexivity|]. vm_compute. discriminate.
Qed.
Print Assumptions C70_quiet_needed.

(** The end of the test (serde.rs:97-103), with more restores. *)
Example C70_case :
  let json := Format Named true in let bincode := Format Positional false in
  let ds := [Restores (m := save_blinky) json tt; Handles (m := save_blinky) ButtonPressed tt; Restores (m := save_blinky) bincode tt; Restores (m := save_blinky) json tt] in
  restores_readably ds /\
  option_map (fun z => (sm_shared (fst z), sm_state (fst z), map c_out (snd z)))
    (session (m := save_blinky) save_ser_shared (fun _ => save_ser_state) (fun _ => save_de_shared) (fun _ => save_de_state) 2 BlockingMode
       (new_state_machine save_blinky true) ds) = Some (true, NotBlinking, [Ret tt]).
Proof. cbv zeta. split; [|vm_compute; reflexivity]. repeat (constructor; [cbn; unfold readable_format; cbn; auto|]). constructor. Qed.
