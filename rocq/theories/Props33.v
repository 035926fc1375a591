(** Props33.v — C84: further methods do not disturb a machine.  Theorems only; see AddSpec.v,
    Sim.v ([machine_rel], [called_rel]) and AgreeSpec.v ([op_rel]). *)

From Coq Require Import String List Bool Arith Lia.
From Verif Require Import MacroSyntax MacroLower MacroGen MacroSem MacroSpec MacroExamples.
From Verif Require Import Machine Api Spec Sim AgreeSpec AddSpec.
From Verif Require MacroBehaviour AddProofs Props30.
Import ListNotations.
Open Scope string_scope.
Open Scope list_scope.

(** C84.  Take an impl block that the macro accepts and add methods to it, be they states,
    superstates, actions or helpers, anywhere in the block.  Let the functions that were there do
    what they did.  If the larger block is accepted too (and both compile) then the machine it
    gives cannot be told from the old one: over any history of corresponding calls, in either
    mode, each call ends in the same way with the same context, runs the same functions on values
    of the same variants with the same contents, and leaves the same shared storage and a state
    of the same variant with the same contents. *)
Theorem C84_added :
  forall (o o' : orders) (args args' : list meta) (item item' : item_impl) (g g' : generated)
         (Val Sh Ev Cx : Type) (B : bodies Val Sh Ev Cx g) (B' : bodies Val Sh Ev Cx g'),
    expand o args item = Done g -> compiles g -> expand o' args' item' = Done g' -> compiles g' ->
    extends item item' -> same_settings g g' -> same_bodies item B B' ->
    let R := same_relations B B' in
    forall (stack : nat) (md : mode) ops ops' (sm : state_machine (generated_machine B))
           (sm' : state_machine (generated_machine B')) cs cs' sm1 sm1',
      Forall2 (op_rel R) ops ops' -> machine_rel R sm sm' ->
      history stack md ops sm cs sm1 -> history stack md ops' sm' cs' sm1' ->
      machine_rel R sm1 sm1' /\ Forall2 (called_rel R) cs cs'.
Proof.
  intros o o' args args' item item' g g' Val Sh Ev Cx B B' E CO E' CO' EX SS SB R stack md ops ops' sm sm' cs cs' sm1 sm1' F M H H'.
  destruct (MacroBehaviour.expand_compiles o args item E CO) as (ND & c & sms & ums & X).
  destruct (MacroBehaviour.expand_compiles o' args' item' E' CO') as (ND' & c' & sms' & ums' & X').
  refine (Props30.C81_lockstep _ _ R stack md ops ops' sm sm' cs cs' sm1 sm1' _ F M H H').
  exact (@AddProofs.extended_similar args args' item item' g g' c c' sms ums sms' ums' X X' CO CO' ND ND' EX SS Val Sh Ev Cx B B' SB).
Qed.
Print Assumptions C84_added.

(** So machines just made give a client that sends the same events the same outcomes and
    contexts, the same shared storage and the same state. *)
Theorem C84_same_answers :
  forall (o o' : orders) (args args' : list meta) (item item' : item_impl) (g g' : generated)
         (Val Sh Ev Cx : Type) (B : bodies Val Sh Ev Cx g) (B' : bodies Val Sh Ev Cx g'),
    expand o args item = Done g -> compiles g -> expand o' args' item' = Done g' -> compiles g' ->
    extends item item' -> same_settings g g' -> same_bodies item B B' ->
    forall (stack : nat) (md : mode) (sh : Sh) (events : list (Ev * Cx)) cs cs' sm1 sm1',
      history stack md (map (fun p => OpHandle (m := generated_machine B) (fst p) (snd p)) events)
              (new_state_machine (generated_machine B) sh) cs sm1 ->
      history stack md (map (fun p => OpHandle (m := generated_machine B') (fst p) (snd p)) events)
              (new_state_machine (generated_machine B') sh) cs' sm1' ->
      map c_out cs = map c_out cs' /\ map c_cx cs = map c_cx cs' /\ sm_shared sm1 = sm_shared sm1' /\
      tag (sm_state sm1') = tag (sm_state sm1) /\ vals (sm_state sm1') = vals (sm_state sm1).
Proof.
  intros o o' args args' item item' g g' Val Sh Ev Cx B B' E CO E' CO' EX SS SB stack md sh events cs cs' sm1 sm1' H H'.
  destruct (MacroBehaviour.expand_compiles o args item E CO) as (ND & c & sms & ums & X).
  destruct (MacroBehaviour.expand_compiles o' args' item' E' CO') as (ND' & c' & sms' & ums' & X').
  pose proof (@AddProofs.extended_similar args args' item item' g g' c c' sms ums sms' ums' X X' CO CO' ND ND' EX SS Val Sh Ev Cx B B' SB) as S.
  destruct (Props30.C81_same_answers _ _ (same_relations B B') stack md sh sh events events cs cs' sm1 sm1' S eq_refl) as (P & Q & T & U).
  - clear. induction events as [|a l IH]; constructor; [split; reflexivity|exact IH].
  - exact H.
  - exact H'.
  - split; [exact P|]. split; [|split; [exact U|exact T]]. clear - Q.
    induction Q as [|k k' l l' O Q IH]; [reflexivity|]. apply (f_equal2 (@cons _)); [|exact IH].
    inversion O as [|a b W]; [reflexivity|]. cbn in W. now rewrite W.
Qed.
Print Assumptions C84_same_answers.

(** The added functions are free to do anything: whatever the old functions do ([B]) and whatever
    the added ones do ([B2]), there are bodies of the larger block with just these functions. *)
Theorem C84_bodies_exist :
  forall (o o' : orders) (args args' : list meta) (item item' : item_impl) (g g' : generated)
         (Val Sh Ev Cx : Type) (B : bodies Val Sh Ev Cx g) (B2 : bodies Val Sh Ev Cx g'),
    expand o args item = Done g -> compiles g -> expand o' args' item' = Done g' -> compiles g' ->
    extends item item' -> same_settings g g' ->
    exists B' : bodies Val Sh Ev Cx g', same_bodies item B B' /\
      (forall n, (forall m, In m (methods item) -> part_of_machine m -> n <> m_name m) ->
         b_handler B' n = b_handler B2 n /\ b_action B' n = b_action B2 n).
Proof.
  intros o o' args args' item item' g g' Val Sh Ev Cx B B2 E CO E' CO' EX SS.
  destruct (MacroBehaviour.expand_compiles o args item E CO) as (ND & c & sms & ums & X).
  destruct (MacroBehaviour.expand_compiles o' args' item' E' CO') as (ND' & c' & sms' & ums' & X').
  exact (@AddProofs.extended_bodies args args' item item' g g' c c' sms ums sms' ums' X X' CO CO' ND ND' EX SS Val Sh Ev Cx B B2).
Qed.
Print Assumptions C84_bodies_exist.

(** The blinky of MacroExamples.v with two more states, one more superstate above one of them,
    and an action; the new ones come first, and the helper `log` is gone. *)
Definition fast : impl_fn :=
  method [with_args "state" [set_to "superstate" "alarm"; set_to "entry_action" "ring"]] "fast"
    [Receiver; by_ref "led" (named_type "bool"); event_param].
Definition slow : impl_fn :=
  method [with_args "state" [set_to "superstate" "blinking"]] "slow" [by_ref "led" (named_type "bool"); event_param].
Definition alarm : impl_fn :=
  method [with_args "superstate" [set_to "superstate" "top"]] "alarm" [by_ref "led" (named_type "bool"); event_param].
Definition ring : impl_fn := method [MetaPath ["action"]] "ring" [by_ref "led" (named_type "bool")].
Definition larger : item_impl :=
  impl_of [ring; fast; led_on; alarm; led_off; not_blinking; slow; blinking; top; enter_led_on; leave].
Definition larger_code : generated := Eval vm_compute in output (expand all_forward blinky_args larger).
Lemma larger_expands : expand all_forward blinky_args larger = Done larger_code.
Proof. vm_compute. reflexivity. Qed.
Lemma larger_compiles : compiles larger_code.
Proof. apply compilesb_ok. vm_compute. reflexivity. Qed.
Lemma larger_extends : extends blinky larger.
Proof.
  intros m I P. cbn in I.
  destruct I as [<-|[<-|[<-|[<-|[<-|[<-|[<-|[<-|[]]]]]]]]];
    try (cbn; tauto); unfold part_of_machine in P; vm_compute in P; destruct P as [P|[P|P]]; discriminate.
Qed.
Lemma larger_settings : same_settings blinky_code larger_code.
Proof. constructor; reflexivity. Qed.

Example C84_case :
  (forall Val Sh Ev Cx (B : bodies Val Sh Ev Cx blinky_code) (B2 : bodies Val Sh Ev Cx larger_code),
     exists B' : bodies Val Sh Ev Cx larger_code,
     same_bodies blinky B B' /\ b_handler B' "fast" = b_handler B2 "fast" /\ b_action B' "ring" = b_action B2 "ring" /\
     forall stack md sh events cs cs' sm1 sm1',
       history stack md (map (fun p => OpHandle (m := generated_machine B) (fst p) (snd p)) events)
               (new_state_machine (generated_machine B) sh) cs sm1 ->
       history stack md (map (fun p => OpHandle (m := generated_machine B') (fst p) (snd p)) events)
               (new_state_machine (generated_machine B') sh) cs' sm1' ->
       map c_out cs = map c_out cs' /\ tag (sm_state sm1') = tag (sm_state sm1)) /\
  map v_name (g_state_variants blinky_code) = ["LedOn"; "LedOff"; "NotBlinking"] /\
  map v_name (g_state_variants larger_code) = ["Fast"; "LedOn"; "LedOff"; "NotBlinking"; "Slow"] /\
  map v_name (g_super_variants larger_code) = ["Alarm"; "Blinking"; "Top"] /\
  sm_shared (snd (exec_all 9 BlockingMode (map (fun p => OpHandle (m := generated_machine blinky_bodies) (fst p) (snd p)) [(1, 0); (2, 0)])
                 (new_state_machine (generated_machine blinky_bodies) 5))) <> 5.
Proof.
  split; [|repeat split; try (vm_compute; reflexivity); vm_compute; discriminate].
  intros Val Sh Ev Cx B B2.
  destruct (C84_bodies_exist all_forward all_forward blinky_args blinky_args blinky larger _ _ Val Sh Ev Cx B B2
              blinky_expands blinky_compiles larger_expands larger_compiles larger_extends larger_settings) as (B' & SB & O).
  exists B'. split; [exact SB|]. split; [|split].
  - apply O. intros m I _. cbn in I. destruct I as [<-|[<-|[<-|[<-|[<-|[<-|[<-|[<-|[]]]]]]]]]; discriminate.
  - apply O. intros m I _. cbn in I. destruct I as [<-|[<-|[<-|[<-|[<-|[<-|[<-|[<-|[]]]]]]]]]; discriminate.
  - intros stack md sh events cs cs' sm1 sm1' H H'.
    destruct (C84_same_answers all_forward all_forward blinky_args blinky_args blinky larger _ _ Val Sh Ev Cx B B'
                blinky_expands blinky_compiles larger_expands larger_compiles larger_extends larger_settings SB
                stack md sh events cs cs' sm1 sm1' H H') as (P & _ & _ & Q & _).
    auto.
Qed.
