(** Props30.v — C81: implementations that cannot be told apart.  Theorems only; see AgreeSpec.v
    ([op_rel]), Sim.v ([relations], [similar], [machine_rel], [called_rel]) and KindSim.v
    ([kindred]). *)

From Coq Require Import List Bool Arith Lia.
From Verif Require Import Machine Api Spec Sim KindSim AgreeSpec.
From Verif Require AgreeProofs.
Import ListNotations.

(** C81.  Take two machines, with their own types of states, superstates, storage, events and
    contexts, and relations between these types such that the callbacks of the two, given
    related arguments, give related results ([similar]).  Then related clients cannot tell
    related machines apart: over any history, in either mode, each call ends in the same way
    with related contexts, calls corresponding callbacks with related arguments, and leaves
    related machines.  Nothing else is required of the machines. *)
Theorem C81_lockstep :
  forall (m1 m2 : machine) (R : relations m1 m2) (stack : nat) (md : mode)
         (ops : list (op m1)) (ops' : list (op m2)) (sm : state_machine m1) (sm' : state_machine m2)
         cs cs' sm1 sm1',
    similar R -> Forall2 (op_rel R) ops ops' -> machine_rel R sm sm' ->
    history stack md ops sm cs sm1 -> history stack md ops' sm' cs' sm1' ->
    machine_rel R sm1 sm1' /\ Forall2 (called_rel R) cs cs'.
Proof.
  intros m1 m2 R stack md ops ops' sm sm' cs cs' sm1 sm1' S F M H H'.
  exact (@AgreeProofs.history_agree m1 m2 R stack md
           (fun sm sm' cx cx' M C => @sim_init m1 m2 R S stack md sm sm' cx cx' M C)
           (fun sm sm' e e' cx cx' M E C => @sim_handle m1 m2 R S stack md sm sm' e e' cx cx' M E C)
           ops ops' F sm sm' cs cs' sm1 sm1' M H H').
Qed.
Print Assumptions C81_lockstep.

(** It is enough that writing a superstate back keeps the relations for the variant that was
    borrowed ([kindred]), if the callbacks of one of the two never turn a node into another. *)
Theorem C81_lockstep_views :
  forall (m1 m2 : machine) (R : relations m1 m2) (stack : nat) (md : mode)
         (ops : list (op m1)) (ops' : list (op m2)) (sm : state_machine m1) (sm' : state_machine m2)
         cs cs' sm1 sm1',
    kindred R -> stable m1 -> Forall2 (op_rel R) ops ops' -> machine_rel R sm sm' ->
    history stack md ops sm cs sm1 -> history stack md ops' sm' cs' sm1' ->
    machine_rel R sm1 sm1' /\ Forall2 (called_rel R) cs cs'.
Proof.
  intros m1 m2 R stack md ops ops' sm sm' cs cs' sm1 sm1' S ST F M H H'.
  exact (@AgreeProofs.history_agree m1 m2 R stack md
           (fun sm sm' cx cx' M C => @kin_init m1 m2 R S ST stack md sm sm' cx cx' M C)
           (fun sm sm' e e' cx cx' M E C => @kin_handle m1 m2 R S ST stack md sm sm' e e' cx cx' M E C)
           ops ops' F sm sm' cs cs' sm1 sm1' M H H').
Qed.
Print Assumptions C81_lockstep_views.

(** So a client that sends the same events with the same contexts gets the same outcomes and
    the same contexts back, from machines just made. *)
Theorem C81_same_answers :
  forall (m1 m2 : machine) (R : relations m1 m2) (stack : nat) (md : mode) sh sh'
         (events : list (Event m1 * Ctx m1)) (events' : list (Event m2 * Ctx m2)) cs cs' sm1 sm1',
    similar R -> r_shared R sh sh' ->
    Forall2 (fun a b => r_event R (fst a) (fst b) /\ r_ctx R (snd a) (snd b)) events events' ->
    history stack md (map (fun p => OpHandle (m := m1) (fst p) (snd p)) events) (new_state_machine m1 sh) cs sm1 ->
    history stack md (map (fun p => OpHandle (m := m2) (fst p) (snd p)) events') (new_state_machine m2 sh') cs' sm1' ->
    map c_out cs = map c_out cs' /\ Forall2 (fun c c' => opt_rel (r_ctx R) (c_cx c) (c_cx c')) cs cs' /\
    r_state R (sm_state sm1) (sm_state sm1') /\ r_shared R (sm_shared sm1) (sm_shared sm1').
Proof.
  intros m1 m2 R stack md sh sh' events events' cs cs' sm1 sm1' S Hs F H H'.
  assert (O : Forall2 (op_rel R) (map (fun p => OpHandle (m := m1) (fst p) (snd p)) events)
                                 (map (fun p => OpHandle (m := m2) (fst p) (snd p)) events')).
  { clear H H'. induction F as [|a b l l' [A B] F IH]; constructor; [now constructor|exact IH]. }
  assert (M : machine_rel R (new_state_machine m1 sh) (new_state_machine m2 sh')).
  { split; [exact (si_initial S)|]. split; [exact Hs|reflexivity]. }
  destruct (C81_lockstep m1 m2 R stack md _ _ _ _ cs cs' sm1 sm1' S O M H H') as [(M1 & M2 & _) G].
  clear - G M1 M2. split; [|split; [|split; assumption]].
  - induction G as [|c c' l l' (A & _) G IH]; cbn; congruence.
  - induction G as [|c c' l l' (_ & A & _) G IH]; constructor; auto.
Qed.
Print Assumptions C81_same_answers.

(** The README's timed light in two implementations: one counts down to 0 in a `led_on` inside a
    superstate, the other counts up to 10 and keeps the light as a number. *)
Inductive signal := Tick | Press.
Definition down : machine := {|
  State := option nat; Sup := nat; Shared := bool; Event := signal; Ctx := nat;
  initial := None;
  s_disc := fun x => match x with Some _ => 0 | None => 1 end; u_disc := fun _ => 0;
  s_super := fun x => x; s_put := fun x u => match x with Some _ => Some u | None => None end;
  u_super := fun _ => None; u_put := fun u _ => u;
  s_handler := fun x sh cx e =>
    match x, e with
    | None, Press => (Returns (Transition (Some 10)), x, sh, cx)
    | None, Tick => (Returns Handled, x, sh, cx)
    | Some _, _ => (Returns Super, x, sh, S cx)
    end;
  s_entry := fun x sh cx => (Returns tt, x, match x with Some _ => true | None => false end, cx);
  s_exit := fun x sh cx => (Returns tt, x, sh, cx);
  u_handler := fun u sh cx e =>
    match e, u with
    | Tick, 0 => (Panics, u, sh, cx)
    | Tick, S c => (Returns (if Nat.eqb c 0 then Transition None else Handled), c, sh, cx)
    | Press, _ => (Returns (Transition (Some 10)), u, sh, cx)
    end;
  u_entry := fun u sh cx => (Returns tt, u, sh, cx); u_exit := fun u sh cx => (Returns tt, u, sh, cx);
  h_before_dispatch := fun sh _ _ => (Returns tt, sh); h_after_dispatch := fun sh _ _ => (Returns tt, sh);
  h_before_transition := fun sh _ _ => (Returns tt, sh); h_after_transition := fun sh _ _ => (Returns tt, sh)
|}.
Definition up : machine := {|
  State := bool * nat; Sup := nat; Shared := nat; Event := signal; Ctx := nat;
  initial := (false, 7);
  s_disc := fun x => if fst x then 5 else 3; u_disc := fun _ => 9;
  s_super := fun x => if fst x then Some (snd x) else None; s_put := fun x u => (fst x, u);
  u_super := fun _ => None; u_put := fun u _ => u;
  s_handler := fun x sh cx e =>
    if fst x then (Returns Super, x, sh, S cx)
    else match e with
         | Press => (Returns (Transition (true, 0)), (false, snd x + 1), sh, cx)
         | Tick => (Returns Handled, x, sh, cx)
         end;
  s_entry := fun x sh cx => (Returns tt, x, if fst x then 1 else 0, cx);
  s_exit := fun x sh cx => (Returns tt, x, sh, cx);
  u_handler := fun u sh cx e =>
    match e with
    | Tick => if Nat.eqb u 10 then (Panics, u, sh, cx)
              else (Returns (if Nat.eqb u 9 then Transition (false, 0) else Handled), S u, sh, cx)
    | Press => (Returns (Transition (true, 0)), u, sh, cx)
    end;
  u_entry := fun u sh cx => (Returns tt, u, sh, cx); u_exit := fun u sh cx => (Returns tt, u, sh, cx);
  h_before_dispatch := fun sh _ _ => (Returns tt, sh); h_after_dispatch := fun sh _ _ => (Returns tt, sh);
  h_before_transition := fun sh _ _ => (Returns tt, sh); h_after_transition := fun sh _ _ => (Returns tt, sh)
|}.
Definition sums (u v : nat) : Prop := u + v = 10.
Definition down_up : relations down up := Relations down up
  (fun x y => match x with Some c => fst y = true /\ sums c (snd y) | None => fst y = false end)
  sums (fun l n => n = if l then 1 else 0) eq eq.
Lemma down_up_similar : similar down_up.
Proof.
  unfold down_up, sums. constructor; cbn; try (intros; repeat split; cbn; auto; constructor; auto; fail).
  - intros [c|] [[] d] [c2|] [[] d2]; cbn; intuition discriminate.
  - intros [c|] [[] d]; cbn; intros H; try (destruct H; discriminate); try discriminate; constructor. tauto.
  - intros [c|] [[] d] v v'; cbn; intuition discriminate.
  - intros [c|] [[] d] sh sh' cx cx' e e' H1 -> -> ->; cbn in *; try (destruct H1; discriminate); try discriminate.
    + repeat split; try tauto. constructor. constructor.
    + destruct e'; cbn; repeat split; constructor; constructor; cbn; auto.
  - intros [c|] [[] d] sh sh' cx cx' H1 -> ->; cbn in *; try (destruct H1; discriminate); try discriminate;
      repeat split; try tauto; constructor; reflexivity.
  - intros u u' sh sh' cx cx' e e' H1 -> -> ->. destruct e'; cbn.
    + destruct u as [|c]; cbn; destruct (Nat.eqb_spec u' 10); try lia; cbn; repeat split; try lia; try constructor.
      destruct (Nat.eqb_spec c 0), (Nat.eqb_spec u' 9); try lia; constructor; reflexivity.
    + repeat split; try assumption. constructor. constructor. cbn. auto.
Qed.

(** For all sequences of events: same outcomes, same contexts, same light. *)
Theorem C81_two_lights :
  forall (md : mode) (es : list (signal * nat)) cs cs' sm1 sm1',
    history 1 md (map (fun p => OpHandle (m := down) (fst p) (snd p)) es) (new_state_machine down false) cs sm1 ->
    history 1 md (map (fun p => OpHandle (m := up) (fst p) (snd p)) es) (new_state_machine up 0) cs' sm1' ->
    map c_out cs = map c_out cs' /\ map c_cx cs = map c_cx cs' /\
    sm_shared sm1' = (if sm_shared sm1 then 1 else 0).
Proof.
  intros md es cs cs' sm1 sm1' H H'.
  assert (F : Forall2 (fun a b => r_event down_up (fst a) (fst b) /\ r_ctx down_up (snd a) (snd b)) es es).
  { clear. induction es; constructor; cbn; auto. }
  destruct (C81_same_answers down up down_up 1 md false 0 es es cs cs' sm1 sm1' down_up_similar eq_refl F H H') as (A & B & _ & C).
  split; [exact A|]. split; [|exact C]. clear - B.
  induction B as [|c c' l l' O B IH]; [reflexivity|]. apply (f_equal2 (@cons _)); [|exact IH].
  inversion O as [|a b Q]; [reflexivity|]. cbn in Q. now rewrite Q.
Qed.
Print Assumptions C81_two_lights.

(** Eleven events, also with the client reaching into the storage. *)
Example C81_case :
  let evs := (Press, 0) :: repeat (Tick, 3) 10 in
  let a := exec_all 1 BlockingMode (map (fun p => OpHandle (m := down) (fst p) (snd p)) evs) (new_state_machine down false) in
  let b := exec_all 1 BlockingMode (map (fun p => OpHandle (m := up) (fst p) (snd p)) evs) (new_state_machine up 0) in
  sm_state (snd a) = None /\ sm_state (snd b) = (false, 0) /\ sm_shared (snd a) = false /\ sm_shared (snd b) = 0 /\
  map c_cx (fst a) = map c_cx (fst b) /\
  op_rel down_up (OpInnerMut (m := down) negb) (OpInnerMut (m := up) (fun n => 1 - n)).
Proof.
  cbv zeta. repeat split; try (vm_compute; reflexivity).
  constructor. intros [] s'; cbn; intros ->; reflexivity.
Qed.
