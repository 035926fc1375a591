(** Props31.v — C82: names do not matter.  Theorems only; see RenameSpec.v, Sim.v ([machine_rel],
    [called_rel]) and AgreeSpec.v ([op_rel]). *)

From Coq Require Import String List Bool Arith Lia Permutation.
From Verif Require Import MacroSyntax MacroLower MacroGen MacroSem MacroSpec MacroExamples.
From Verif Require Import Machine Api Spec Sim AgreeSpec RenameSpec.
From Verif Require MacroBehaviour RenameSim RenameMake Props30.
Import ListNotations.
Open Scope string_scope.
Open Scope list_scope.

(** C82.  Take an impl block that the macro accepts, give its methods new names ([rho]) and its
    parameters and fields new names ([sigma]), put the methods into another order, add
    further methods (also states, superstates and actions) and drop helper methods, let the
    attributes refer to the new names, and let the functions do what they did.  If the result is accepted too (and both compile) then
    the two machines cannot be told apart: over any history of corresponding calls, in either
    mode, each call ends in the same way with the same context, runs corresponding functions,
    and leaves the two machines with the same shared storage and in corresponding states with
    the same contents. *)
Theorem C82_renamed :
  forall (o o' : orders) (args args' : list meta) (item item' : item_impl) (g g' : generated)
         (rho sigma : ident -> ident) (Val Sh Ev Cx : Type)
         (B : bodies Val Sh Ev Cx g) (B' : bodies Val Sh Ev Cx g'),
    expand o args item = Done g -> compiles g -> expand o' args' item' = Done g' -> compiles g' ->
    proper sigma -> renamed_impl rho sigma item item' -> renamed_settings sigma g g' ->
    renamed_bodies item item' rho B B' ->
    let R := renamed_relations item item' rho B B' in
    forall (stack : nat) (md : mode) ops ops' (sm : state_machine (generated_machine B))
           (sm' : state_machine (generated_machine B')) cs cs' sm1 sm1',
      Forall2 (op_rel R) ops ops' -> machine_rel R sm sm' ->
      history stack md ops sm cs sm1 -> history stack md ops' sm' cs' sm1' ->
      machine_rel R sm1 sm1' /\ Forall2 (called_rel R) cs cs'.
Proof.
  intros o o' args args' item item' g g' rho sigma Val Sh Ev Cx B B' E CO E' CO' PR RI RS RB R stack md ops ops' sm sm' cs cs' sm1 sm1' F M H H'.
  destruct (MacroBehaviour.expand_compiles o args item E CO) as (ND & c & sms & ums & X).
  destruct (MacroBehaviour.expand_compiles o' args' item' E' CO') as (ND' & c' & sms' & ums' & X').
  refine (Props30.C81_lockstep _ _ R stack md ops ops' sm sm' cs cs' sm1 sm1' _ F M H H').
  exact (@RenameSim.renamed_similar rho sigma PR args args' item item' g g' c c' sms ums sms' ums' X X' CO CO' ND' RI RS Val Sh Ev Cx B B' RB).
Qed.
Print Assumptions C82_renamed.

(** So machines just made give a client that sends the same events the same outcomes and
    contexts, and the same shared storage; their states are those of corresponding methods, with
    the same contents. *)
Theorem C82_same_answers :
  forall (o o' : orders) (args args' : list meta) (item item' : item_impl) (g g' : generated)
         (rho sigma : ident -> ident) (Val Sh Ev Cx : Type)
         (B : bodies Val Sh Ev Cx g) (B' : bodies Val Sh Ev Cx g'),
    expand o args item = Done g -> compiles g -> expand o' args' item' = Done g' -> compiles g' ->
    proper sigma -> renamed_impl rho sigma item item' -> renamed_settings sigma g g' ->
    renamed_bodies item item' rho B B' ->
    forall (stack : nat) (md : mode) (sh : Sh) (events : list (Ev * Cx)) cs cs' sm1 sm1',
      history stack md (map (fun p => OpHandle (m := generated_machine B) (fst p) (snd p)) events)
              (new_state_machine (generated_machine B) sh) cs sm1 ->
      history stack md (map (fun p => OpHandle (m := generated_machine B') (fst p) (snd p)) events)
              (new_state_machine (generated_machine B') sh) cs' sm1' ->
      map c_out cs = map c_out cs' /\ map c_cx cs = map c_cx cs' /\ sm_shared sm1 = sm_shared sm1' /\
      twin_states item item' rho g g' (sm_state sm1) (sm_state sm1').
Proof.
  intros o o' args args' item item' g g' rho sigma Val Sh Ev Cx B B' E CO E' CO' PR RI RS RB stack md sh events cs cs' sm1 sm1' H H'.
  destruct (MacroBehaviour.expand_compiles o args item E CO) as (ND & c & sms & ums & X).
  destruct (MacroBehaviour.expand_compiles o' args' item' E' CO') as (ND' & c' & sms' & ums' & X').
  pose proof (@RenameSim.renamed_similar rho sigma PR args args' item item' g g' c c' sms ums sms' ums' X X' CO CO' ND' RI RS Val Sh Ev Cx B B' RB) as S.
  destruct (Props30.C81_same_answers _ _ (renamed_relations item item' rho B B') stack md sh sh events events cs cs' sm1 sm1' S eq_refl) as (P & Q & T & U).
  - clear. induction events as [|a l IH]; constructor; [split; reflexivity|exact IH].
  - exact H.
  - exact H'.
  - split; [exact P|]. split; [|split; [exact U|exact T]]. clear - Q.
    induction Q as [|k k' l l' O Q IH]; [reflexivity|]. apply (f_equal2 (@cons _)); [|exact IH].
    inversion O as [|a b W]; [reflexivity|]. cbn in W. now rewrite W.
Qed.
Print Assumptions C82_same_answers.

(** Whatever the functions of the first impl block do, functions of the second do the same under
    the new names. *)
Theorem C82_bodies_exist :
  forall (o o' : orders) (args args' : list meta) (item item' : item_impl) (g g' : generated)
         (rho sigma : ident -> ident) (Val Sh Ev Cx : Type) (B : bodies Val Sh Ev Cx g),
    expand o args item = Done g -> compiles g -> expand o' args' item' = Done g' -> compiles g' ->
    proper sigma -> renamed_impl rho sigma item item' -> renamed_settings sigma g g' ->
    exists B' : bodies Val Sh Ev Cx g', renamed_bodies item item' rho B B'.
Proof.
  intros o o' args args' item item' g g' rho sigma Val Sh Ev Cx B E CO E' CO' PR RI RS.
  destruct (MacroBehaviour.expand_compiles o args item E CO) as (ND & c & sms & ums & X).
  destruct (MacroBehaviour.expand_compiles o' args' item' E' CO') as (ND' & c' & sms' & ums' & X').
  exact (@RenameMake.bodies_exist rho sigma PR args args' item item' g g' c c' sms ums sms' ums' X X' CO CO' ND' RI RS Val Sh Ev Cx B).
Qed.
Print Assumptions C82_bodies_exist.

(** The blinky of MacroExamples.v with all methods renamed and in the opposite order, and the field `led` called
    `lamp`. *)
Definition my (n : ident) : ident := ("my_" ++ n)%string.
Definition lamp_for_led (i : ident) : ident :=
  if (i =? "led")%string then "lamp" else if (i =? "lamp")%string then "led" else i.
Definition new_methods : list impl_fn := [
  method [with_args "state" [set_to "superstate" "my_blinking"; set_to "entry_action" "my_enter_led_on"]] "my_led_on"
    [Receiver; by_ref_default "lamp" (MetaPath ["default"]) (named_type "bool"); by_ref "count" (named_type "u8"); event_param];
  method [with_args "state" [set_to "superstate" "my_blinking"]] "my_led_off"
    [by_ref "lamp" (named_type "bool"); event_param];
  method [with_args "state" [set_to "exit_action" "my_leave";
            with_strings "local_storage" [storage_text (Field "extra" (named_type "u8"))]]] "my_not_blinking"
    [event_param; context_param'];
  method [with_args "superstate" [set_to "superstate" "my_top"]] "my_blinking"
    [Receiver; by_ref "lamp" (named_type "bool"); event_param];
  method [MetaPath ["superstate"]] "my_top" [];
  method [MetaPath ["action"]] "my_enter_led_on"
    [by_ref "count" (named_type "u8"); by_ref "lamp" (named_type "bool"); context_param'];
  method [MetaPath ["action"]] "my_leave" [Receiver];
  method [] "my_log" [Receiver]].
Definition blinky' : item_impl := impl_of (rev new_methods).
Definition blinky_args' : list meta :=
  [set_to "initial" "State::my_led_on(0)"; set_to "before_transition" "Self::log"].
Definition blinky_code' : generated := Eval vm_compute in output (expand all_forward blinky_args' blinky').
Lemma blinky_expands' : expand all_forward blinky_args' blinky' = Done blinky_code'.
Proof. vm_compute. reflexivity. Qed.
Lemma blinky_compiles' : compiles blinky_code'.
Proof. apply compilesb_ok. vm_compute. reflexivity. Qed.
Lemma lamp_proper : proper lamp_for_led.
Proof.
  split; [|reflexivity]. intros i j. unfold lamp_for_led.
  destruct (String.eqb_spec i "led"), (String.eqb_spec i "lamp"), (String.eqb_spec j "led"), (String.eqb_spec j "lamp");
    subst; intros H; try discriminate; try congruence.
Qed.
Lemma blinky_renamed : renamed_impl my lamp_for_led blinky blinky'.
Proof.
  exists (filter relevant new_methods), [method [] "my_log" [Receiver]]. split; [|exact (Permutation_rev new_methods)].
  repeat (apply Forall2_cons || apply Forall2_nil);
    (constructor;
     [reflexivity
     |intros k [<-|[<-|[<-|[]]]]; vm_compute; reflexivity
     |intros k y [<-|[<-|[]]] [<-|[<-|[<-|[]]]]; vm_compute; reflexivity
     |intros k [<-|[<-|[]]]; vm_compute; reflexivity
     |repeat (apply Forall2_cons || apply Forall2_nil); cbn; try exact I; eexists; repeat split; reflexivity]).
Qed.
Lemma blinky_settings : renamed_settings lamp_for_led blinky_code blinky_code'.
Proof. constructor; reflexivity. Qed.

(** The blinky and its renamed copy, for all functions that the user may write and all events;
    and one run of both.  The declarations of the two enums are in another order here. *)
Example C82_case :
  (forall Val Sh Ev Cx (B : bodies Val Sh Ev Cx blinky_code), exists B' : bodies Val Sh Ev Cx blinky_code',
     renamed_bodies blinky blinky' my B B' /\
     forall stack md sh events cs cs' sm1 sm1',
       history stack md (map (fun p => OpHandle (m := generated_machine B) (fst p) (snd p)) events)
               (new_state_machine (generated_machine B) sh) cs sm1 ->
       history stack md (map (fun p => OpHandle (m := generated_machine B') (fst p) (snd p)) events)
               (new_state_machine (generated_machine B') sh) cs' sm1' ->
       map c_out cs = map c_out cs' /\ sm_shared sm1 = sm_shared sm1') /\
  map v_name (g_state_variants blinky_code) = ["LedOn"; "LedOff"; "NotBlinking"] /\
  map v_name (g_state_variants blinky_code') = ["MyNotBlinking"; "MyLedOff"; "MyLedOn"] /\
  map (fun v => map f_name (v_fields v)) (g_super_variants blinky_code') = [[]; ["lamp"]] /\
  sm_shared (snd (exec_all 9 BlockingMode (map (fun p => OpHandle (m := generated_machine blinky_bodies) (fst p) (snd p)) [(1, 0); (2, 0)])
                 (new_state_machine (generated_machine blinky_bodies) 5))) <> 5.
Proof.
  split; [|repeat split; try (vm_compute; reflexivity); vm_compute; discriminate].
  intros Val Sh Ev Cx B.
  destruct (C82_bodies_exist all_forward all_forward blinky_args blinky_args' blinky blinky' _ _ my lamp_for_led Val Sh Ev Cx B
              blinky_expands blinky_compiles blinky_expands' blinky_compiles' lamp_proper blinky_renamed blinky_settings) as [B' RB].
  exists B'. split; [exact RB|]. intros stack md sh events cs cs' sm1 sm1' H H'.
  destruct (C82_same_answers all_forward all_forward blinky_args blinky_args' blinky blinky' _ _ my lamp_for_led Val Sh Ev Cx B B'
              blinky_expands blinky_compiles blinky_expands' blinky_compiles' lamp_proper blinky_renamed blinky_settings RB
              stack md sh events cs cs' sm1 sm1' H H') as (P & _ & Q & _).
  auto.
Qed.
