(** Props52.v — C103: being impossible to tell apart is an equivalence, so edits can be made one after
    the other.  Theorems only; see EquivSpec.v ([edits], [composed_relations], [converse_relations])
    and Sim.v ([similar], [machine_rel], [called_rel]). *)

From Coq Require Import String List Bool Arith Lia.
From Verif Require Import MacroSyntax MacroLower MacroGen MacroSem MacroSpec MacroPoll.
From Verif Require Import Machine Api Spec Sim AgreeSpec Poll RenameSpec AddSpec PollSimSpec EquivSpec.
From Verif Require MacroBehaviour RenameSim AddProofs EquivProofs EquivPollProofs Props30 Props48.
Import ListNotations.
Open Scope string_scope.
Open Scope list_scope.

(** C103.  A machine cannot be told apart from itself; if one cannot be told apart from another, then
    neither can the other from the one; and if nor can the other from a third, the first and the
    third cannot be told apart. *)
Theorem C103_equivalence :
  (forall m : machine, similar (identity_relations m)) /\
  (forall (m1 m2 : machine) (R : relations m1 m2), similar R -> similar (converse_relations R)) /\
  (forall (m1 m2 m3 : machine) (R : relations m1 m2) (S : relations m2 m3),
     similar R -> similar S -> similar (composed_relations R S)).
Proof.
  split; [exact EquivProofs.identity_similar|]. split.
  - exact EquivProofs.converse_similar.
  - exact EquivProofs.composed_similar.
Qed.
Print Assumptions C103_equivalence.

(** The same holds poll by poll, for machines whose views keep their variant when they are written
    through (as all that `#[state_machine]` generates do). *)
Theorem C103_equivalence_polled :
  (forall (W : Type) (m : machine) (F : futures W m),
     (forall u v, u_disc m (u_put m u v) = u_disc m u) -> similar_futures (identity_relations m) eq F F) /\
  (forall (W1 W2 : Type) (RW : W1 -> W2 -> Prop) (m1 m2 : machine) (R : relations m1 m2) (F1 : futures W1 m1) (F2 : futures W2 m2),
     similar_futures R RW F1 F2 -> (forall u v, u_disc m2 (u_put m2 u v) = u_disc m2 u) ->
     similar_futures (converse_relations R) (converse RW) F2 F1) /\
  (forall (W1 W2 W3 : Type) (RW : W1 -> W2 -> Prop) (SW : W2 -> W3 -> Prop) (m1 m2 m3 : machine)
          (R : relations m1 m2) (S : relations m2 m3) (F1 : futures W1 m1) (F2 : futures W2 m2) (F3 : futures W3 m3),
     similar_futures R RW F1 F2 -> similar_futures S SW F2 F3 ->
     similar_futures (composed_relations R S) (compose RW SW) F1 F3).
Proof.
  split; [exact EquivPollProofs.identity_futures|]. split.
  - exact EquivPollProofs.converse_futures.
  - exact EquivPollProofs.composed_futures.
Qed.
Print Assumptions C103_equivalence_polled.

(** So after any number of edits that each cannot be noticed, or take such an edit back, the machine
    cannot be told apart from the one at the start, over any history of calls, in either mode. *)
Theorem C103_edits :
  forall (m1 m2 : machine) (R : relations m1 m2) (stack : nat) (md : mode)
         (ops : list (op m1)) (ops' : list (op m2)) (sm : state_machine m1) (sm' : state_machine m2)
         cs cs' sm1 sm1',
    edits R -> Forall2 (op_rel R) ops ops' -> machine_rel R sm sm' ->
    history stack md ops sm cs sm1 -> history stack md ops' sm' cs' sm1' ->
    machine_rel R sm1 sm1' /\ Forall2 (called_rel R) cs cs'.
Proof.
  intros m1 m2 R stack md ops ops' sm sm' cs cs' sm1 sm1' E.
  apply Props30.C81_lockstep. clear - E.
  induction E as [m|m m' m'' R S E IH K|m m' m'' R S E IH K].
  - apply EquivProofs.identity_similar.
  - exact (EquivProofs.composed_similar IH K).
  - exact (EquivProofs.composed_similar IH (EquivProofs.converse_similar K)).
Qed.
Print Assumptions C103_edits.

(** For instance: rename an impl block (C82) and then add methods to the result (C84). *)
Theorem C103_renamed_and_extended :
  forall (o o' o'' : orders) (args args' args'' : list meta) (item item' item'' : item_impl) (g g' g'' : generated)
         (rho sigma : ident -> ident) (Val Sh Ev Cx : Type)
         (B : bodies Val Sh Ev Cx g) (B' : bodies Val Sh Ev Cx g') (B'' : bodies Val Sh Ev Cx g''),
    expand o args item = Done g -> compiles g -> expand o' args' item' = Done g' -> compiles g' ->
    expand o'' args'' item'' = Done g'' -> compiles g'' ->
    proper sigma -> renamed_impl rho sigma item item' -> renamed_settings sigma g g' -> renamed_bodies item item' rho B B' ->
    extends item' item'' -> same_settings g' g'' -> same_bodies item' B' B'' ->
    forall (stack : nat) (md : mode) (sh : Sh) (events : list (Ev * Cx)) cs cs'' sm1 sm1'',
      history stack md (map (fun p => OpHandle (m := generated_machine B) (fst p) (snd p)) events)
              (new_state_machine (generated_machine B) sh) cs sm1 ->
      history stack md (map (fun p => OpHandle (m := generated_machine B'') (fst p) (snd p)) events)
              (new_state_machine (generated_machine B'') sh) cs'' sm1'' ->
      map c_out cs = map c_out cs'' /\ map c_cx cs = map c_cx cs'' /\ sm_shared sm1 = sm_shared sm1'' /\
      vals (sm_state sm1'') = vals (sm_state sm1).
Proof.
  intros o o' o'' args args' args'' item item' item'' g g' g'' rho sigma Val Sh Ev Cx B B' B''
         E CO E' CO' E2 CO2 PR RI RS RB EX SS SB stack md sh events cs cs'' sm1 sm1'' H H'.
  destruct (MacroBehaviour.expand_compiles o args item E CO) as (ND & c & sms & ums & X).
  destruct (MacroBehaviour.expand_compiles o' args' item' E' CO') as (ND' & c' & sms' & ums' & X').
  destruct (MacroBehaviour.expand_compiles o'' args'' item'' E2 CO2) as (ND2 & c2 & sms2 & ums2 & X2).
  pose proof (@RenameSim.renamed_similar rho sigma PR args args' item item' g g' c c' sms ums sms' ums' X X' CO CO' ND' RI RS Val Sh Ev Cx B B' RB) as S1.
  pose proof (@AddProofs.extended_similar args' args'' item' item'' g' g'' c' c2 sms' ums' sms2 ums2 X' X2 CO' CO2 ND' ND2 EX SS Val Sh Ev Cx B' B'' SB) as S2.
  destruct (Props30.C81_same_answers (generated_machine B) (generated_machine B'') (composed_relations (renamed_relations item item' rho B B') (same_relations B' B'')) stack md sh sh events events cs cs'' sm1 sm1''
              (EquivProofs.composed_similar S1 S2)) as (P & Q & (y & T1 & T2) & (s & U1 & U2)).
  - exists sh. split; reflexivity.
  - clear. induction events as [|a l IH]; constructor; [|exact IH]. split; eexists; split; reflexivity.
  - exact H.
  - exact H'.
  - split; [exact P|]. split; [|split].
    + clear - Q. induction Q as [|k k' l l' O Q IH]; [reflexivity|]. apply (f_equal2 (@cons _)); [|exact IH].
      inversion O as [|a b W]; [reflexivity|]. cbn in W. destruct W as (z & -> & ->). reflexivity.
    + cbn in U1, U2. congruence.
    + destruct T1 as (m & m' & _ & _ & _ & _ & _ & _ & V). destruct T2 as [_ V2]. congruence.
Qed.
Print Assumptions C103_renamed_and_extended.

(** The light that counts down, replaced by the one that counts up (C81), and that again by the first:
    the relations compose, and in the end relate each switched-on light to itself.  And the same for the
    awaitable lights of C99. *)
Definition there_and_back : relations Props30.down Props30.down :=
  composed_relations (composed_relations (identity_relations Props30.down) Props30.down_up) (converse_relations Props30.down_up).
Example C103_case :
  edits there_and_back /\ similar there_and_back /\
  r_state there_and_back (initial Props30.down) (initial Props30.down) /\ (forall b, r_shared there_and_back b b) /\
  machine_rel there_and_back (new_state_machine Props30.down true) (new_state_machine Props30.down true) /\
  similar_futures (composed_relations Props30.down_up (converse_relations Props30.down_up)) (compose eq (converse eq))
    (Props48.slowly Props30.down S) (Props48.slowly Props30.down S) /\
  (let evs := (Props30.Press, 0) :: repeat (Props30.Tick, 3) 10 in
   let a := exec_all 1 BlockingMode (map (fun p => OpHandle (m := Props30.down) (fst p) (snd p)) evs) (new_state_machine Props30.down false) in
   sm_state (snd a) = None /\ map c_out (fst a) = repeat (Ret tt) 11).
Proof.
  assert (E : edits there_and_back).
  { unfold there_and_back. apply edit_back; [apply edit; [apply no_edit|]|]; exact Props30.down_up_similar. }
  assert (SI : similar there_and_back).
  { unfold there_and_back. apply EquivProofs.composed_similar; [apply EquivProofs.composed_similar; [apply EquivProofs.identity_similar|]|
      apply EquivProofs.converse_similar]; exact Props30.down_up_similar. }
  assert (SH : forall b, r_shared there_and_back b b).
  { intros b. exists (if b then 1 else 0). split; [exists b; split; [reflexivity|]|]; destruct b; reflexivity. }
  split; [exact E|]. split; [exact SI|]. split; [exact (si_initial SI)|]. split; [exact SH|].
  split; [split; [exact (si_initial SI)|split; [apply SH|reflexivity]]|].
  split.
  { apply (EquivPollProofs.composed_futures Props48.lights_slowly).
    apply (EquivPollProofs.converse_futures Props48.lights_slowly). reflexivity. }
  split; vm_compute; reflexivity.
Qed.
