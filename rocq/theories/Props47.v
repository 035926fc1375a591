(** Props47.v — C98: a superstate that does nothing can be taken out of an impl block.  Theorems
    only; see RegroupSpec.v, IdleSpec.v ([same_op], [hide_called]), Sim.v ([machine_rel],
    [called_rel]) and AgreeSpec.v ([op_rel]). *)

From Coq Require Import String List Bool Arith Lia.
From Verif Require Import MacroSyntax MacroLower MacroGen MacroSem MacroSpec MacroExamples.
From Verif Require Import Machine Blocking Awaitable Api Spec Sim AgreeSpec IdleSpec AddSpec RegroupSpec.
From Verif Require MacroBehaviour RegroupProofs Props7 Props20 Props30.
Import ListNotations.
Open Scope string_scope.
Open Scope list_scope.

(** C98.  Take an impl block that the macro accepts and take out a superstate [i] whose method
    always defers, changing nothing, and that has no actions; let what was in [i] be in what [i]
    was in.  Let the other functions do what they did, and the dispatch hooks do nothing for [i].
    If the new block is accepted too (and both compile) then, over any history of corresponding
    calls, in either mode, each call ends in the same way with the same context, and leaves the
    same shared storage and a state of the same variant with the same contents; and it makes the
    same calls of user code, in the same order, on values of the same variants with the same
    contents, except that those about [i] are missing ([hide_called]). *)
Theorem C98_regrouped :
  forall (o o' : orders) (args args' : list meta) (item item' : item_impl) (g g' : generated)
         (Val Sh Ev Cx : Type) (B : bodies Val Sh Ev Cx g) (B' : bodies Val Sh Ev Cx g') (i : ident),
    expand o args item = Done g -> compiles g -> expand o' args' item' = Done g' -> compiles g' ->
    acyclic item -> dissolved i item item' -> same_settings g g' ->
    idle_method i B -> same_bodies_but i item B B' ->
    let R := regrouped i B B' in
    let k := place_of g i in
    forall (stack : nat) (md : mode) ops ops' (sm : state_machine (generated_machine B))
           (sm' : state_machine (generated_machine B')) cs cs' sm1 sm1',
      length (filter (marked "superstate") (methods item)) <= stack ->
      Forall2 (op_rel R) (map (same_op k (m := generated_machine B)) ops) ops' ->
      machine_rel R (same_machine k sm) sm' ->
      history stack md ops sm cs sm1 -> history stack md ops' sm' cs' sm1' ->
      machine_rel R (same_machine k sm1) sm1' /\
      Forall2 (called_rel R) (map (hide_called k (m := generated_machine B)) cs) cs'.
Proof.
  intros o o' args args' item item' g g' Val Sh Ev Cx B B' i E CO E' CO' AC DI SS ID SB R k stack md ops ops' sm sm' cs cs' sm1 sm1' L F M H H'.
  destruct (MacroBehaviour.expand_compiles o args item E CO) as (ND & c & sms & ums & X).
  destruct (MacroBehaviour.expand_compiles o' args' item' E' CO') as (ND' & c' & sms' & ums' & X').
  destruct DI as (mi & MI & NI & KI & KS & KA & EN & EX & MV).
  assert (S1 : 1 <= stack).
  { pose proof (filter_In (marked "superstate") mi (methods item)) as [_ J]. specialize (J (conj MI KI)).
    destruct (filter (marked "superstate") (methods item)) as [|a l]; [destruct J|]. cbn in L. lia. }
  destruct (Props7.C31_well_formed o args item g Val Sh Ev Cx B stack E CO AC S1 L) as (h & W & V).
  pose proof (@RegroupProofs.idle_generated i args item g c sms ums X CO Val Sh Ev Cx B ID mi MI NI KI EN EX) as I.
  pose proof (@RegroupProofs.regrouped_kindred i args args' item item' g g' c c' sms ums sms' ums' X X' CO CO' ND ND' SS AC
                Val Sh Ev Cx B B' SB mi MI NI KI KS KA MV) as KD.
  pose proof (@Props20.C71_idle_superstate k h (generated_machine B) stack md ops sm sm1 cs W V I H) as H1.
  destruct (@Props20.C71_again k h (generated_machine B) stack W V) as ((h' & W' & _) & _).
  exact (Props30.C81_lockstep_views _ _ R stack md _ ops' _ sm' _ cs' _ sm1' KD (wf_stable W') F M H1 H').
Qed.
Print Assumptions C98_regrouped.

(** So machines just made give a client that sends the same events the same outcomes and
    contexts, the same shared storage and the same state. *)
Theorem C98_same_answers :
  forall (o o' : orders) (args args' : list meta) (item item' : item_impl) (g g' : generated)
         (Val Sh Ev Cx : Type) (B : bodies Val Sh Ev Cx g) (B' : bodies Val Sh Ev Cx g') (i : ident),
    expand o args item = Done g -> compiles g -> expand o' args' item' = Done g' -> compiles g' ->
    acyclic item -> dissolved i item item' -> same_settings g g' ->
    idle_method i B -> same_bodies_but i item B B' ->
    forall (stack : nat) (md : mode) (sh : Sh) (events : list (Ev * Cx)) cs cs' sm1 sm1',
      length (filter (marked "superstate") (methods item)) <= stack ->
      history stack md (map (fun p => OpHandle (m := generated_machine B) (fst p) (snd p)) events)
              (new_state_machine (generated_machine B) sh) cs sm1 ->
      history stack md (map (fun p => OpHandle (m := generated_machine B') (fst p) (snd p)) events)
              (new_state_machine (generated_machine B') sh) cs' sm1' ->
      map c_out cs = map c_out cs' /\ map c_cx cs = map c_cx cs' /\ sm_shared sm1 = sm_shared sm1' /\
      tag (sm_state sm1') = tag (sm_state sm1) /\ vals (sm_state sm1') = vals (sm_state sm1).
Proof.
  intros o o' args args' item item' g g' Val Sh Ev Cx B B' i E CO E' CO' AC DI SS ID SB stack md sh events cs cs' sm1 sm1' L H H'.
  assert (O : Forall2 (op_rel (regrouped i B B'))
    (map (same_op (place_of g i) (m := generated_machine B)) (map (fun p => OpHandle (m := generated_machine B) (fst p) (snd p)) events))
    (map (fun p => OpHandle (m := generated_machine B') (fst p) (snd p)) events)).
  { clear H H'. induction events as [|a l IH]; [constructor|]. cbn [map same_op]. constructor; [|exact IH].
    exact (@op_rel_handle _ _ (regrouped i B B') (fst a) (fst a) (snd a) (snd a) eq_refl eq_refl). }
  assert (M : machine_rel (regrouped i B B') (same_machine (place_of g i) (new_state_machine (generated_machine B) sh))
                (new_state_machine (generated_machine B') sh)).
  { split; [exact (bb_initial SB)|]. split; reflexivity. }
  destruct (C98_regrouped o o' args args' item item' g g' Val Sh Ev Cx B B' i E CO E' CO' AC DI SS ID SB stack md _ _ _ _ cs cs' sm1 sm1' L O M H H')
    as ((M1 & M2 & _) & Q).
  split; [|split; [|split; [exact M2|exact M1]]].
  - clear - Q. revert cs' Q. induction cs as [|a cs IH]; intros cs' Q; inversion Q as [|x y l l' P Q']; subst; [reflexivity|].
    cbn. rewrite (IH l' Q'). destruct P as (P & _). cbn in P. now rewrite P.
  - clear - Q. revert cs' Q. induction cs as [|a cs IH]; intros cs' Q; inversion Q as [|x y l l' P Q']; subst; [reflexivity|].
    apply (f_equal2 (@cons _)); [|exact (IH l' Q')]. destruct P as (_ & P & _). cbn in P.
    inversion P as [|u w W]; [reflexivity|]. cbn in W. now rewrite W.
Qed.
Print Assumptions C98_same_answers.

(** Whatever the functions do, there are bodies of the new block that do the same. *)
Theorem C98_bodies_exist :
  forall (o o' : orders) (args args' : list meta) (item item' : item_impl) (g g' : generated)
         (Val Sh Ev Cx : Type) (B : bodies Val Sh Ev Cx g) (i : ident),
    expand o args item = Done g -> compiles g -> expand o' args' item' = Done g' -> compiles g' ->
    dissolved i item item' -> same_settings g g' ->
    exists B' : bodies Val Sh Ev Cx g', same_bodies_but i item B B'.
Proof.
  intros o o' args args' item item' g g' Val Sh Ev Cx B i E CO E' CO' DI SS.
  destruct (MacroBehaviour.expand_compiles o args item E CO) as (ND & c & sms & ums & X).
  destruct (MacroBehaviour.expand_compiles o' args' item' E' CO') as (ND' & c' & sms' & ums' & X').
  destruct DI as (mi & MI & NI & KI & KS & KA & EN & EX & MV).
  apply RegroupProofs.made_same.
  exact (@RegroupProofs.pushed i args args' item item' g g' c c' sms ums sms' ums' X X' CO CO' ND SS Val mi MI NI KS MV).
Qed.
Print Assumptions C98_bodies_exist.

(** The blinky of MacroExamples.v, where Blinking does nothing, and without Blinking: LedOn and
    LedOff are in Top. *)
Definition led_on_flat : impl_fn :=
  method [with_args "state" [set_to "superstate" "top"; set_to "entry_action" "enter_led_on"]] "led_on"
    [Receiver; by_ref_default "led" (MetaPath ["default"]) (named_type "bool"); by_ref "count" (named_type "u8");
     event_param].
Definition led_off_flat : impl_fn :=
  method [with_args "state" [set_to "superstate" "top"]] "led_off" [by_ref "led" (named_type "bool"); event_param].
Definition flat : item_impl := impl_of [led_on_flat; led_off_flat; not_blinking; top; enter_led_on; leave; log].
Definition flat_code : generated := Eval vm_compute in output (expand all_forward blinky_args flat).
Lemma flat_expands : expand all_forward blinky_args flat = Done flat_code.
Proof. vm_compute. reflexivity. Qed.
Lemma flat_compiles : compiles flat_code.
Proof. apply compilesb_ok. vm_compute. reflexivity. Qed.
Lemma flat_settings : same_settings blinky_code flat_code.
Proof. constructor; reflexivity. Qed.
Lemma moved_dec m m' : m_name m' = m_name m -> m_inputs m' = m_inputs m ->
  map (fun kind => marked kind m') ["state"; "superstate"; "action"] = map (fun kind => marked kind m) ["state"; "superstate"; "action"] ->
  map (fun kind => declared kind "superstate" m') ["state"; "superstate"] =
    map (fun kind => moved_to "blinking" (Some "top") (declared kind "superstate" m)) ["state"; "superstate"] ->
  map (fun kind => (declared kind "entry_action" m', declared kind "exit_action" m', local_storage kind m')) ["state"; "superstate"] =
    map (fun kind => (declared kind "entry_action" m, declared kind "exit_action" m, local_storage kind m)) ["state"; "superstate"] ->
  moved_method "blinking" (Some "top") m m'.
Proof.
  intros N I M S R. cbn [map] in M, S, R.
  assert (M1 := f_equal (fun l => nth 0 l false) M). assert (M2 := f_equal (fun l => nth 1 l false) M). assert (M3 := f_equal (fun l => nth 2 l false) M).
  assert (S1 := f_equal (fun l => nth 0 l None) S). assert (S2 := f_equal (fun l => nth 1 l None) S).
  assert (R1 := f_equal (fun l => nth 0 l (None, None, [])) R). assert (R2 := f_equal (fun l => nth 1 l (None, None, [])) R).
  cbn [nth] in *. clear M S R.
  constructor; [exact N| | | | |exact I].
  - intros kind [<-|[<-|[<-|[]]]]; assumption.
  - intros kind [<-|[<-|[]]]; assumption.
  - intros kind key [<-|[<-|[]]] [<-|[<-|[]]]; congruence.
  - intros kind [<-|[<-|[]]]; congruence.
Qed.
Lemma flat_dissolved : dissolved "blinking" blinky flat.
Proof.
  exists blinking. split; [cbn; tauto|]. repeat (split; [vm_compute; reflexivity|]).
  change (declared "superstate" "superstate" blinking) with (Some "top").
  intros m I P N. cbn in I.
  destruct I as [<-|[<-|[<-|[<-|[<-|[<-|[<-|[<-|[]]]]]]]]].
  - exists led_on_flat. split; [cbn; tauto|]. apply moved_dec; vm_compute; reflexivity.
  - exists led_off_flat. split; [cbn; tauto|]. apply moved_dec; vm_compute; reflexivity.
  - exists not_blinking. split; [cbn; tauto|]. apply moved_dec; vm_compute; reflexivity.
  - destruct N. reflexivity.
  - exists top. split; [cbn; tauto|]. apply moved_dec; vm_compute; reflexivity.
  - exists enter_led_on. split; [cbn; tauto|]. apply moved_dec; vm_compute; reflexivity.
  - exists leave. split; [cbn; tauto|]. apply moved_dec; vm_compute; reflexivity.
  - unfold part_of_machine in P. vm_compute in P. destruct P as [P|[P|P]]; discriminate.
Qed.
Definition lazy_bodies : bodies nat nat nat nat blinky_code := {|
  b_handler := fun f args => if (f =? "blinking")%string then (Returns Super, args) else b_handler blinky_bodies f args;
  b_action := b_action blinky_bodies; b_dispatch_hook := b_dispatch_hook blinky_bodies;
  b_transition_hook := b_transition_hook blinky_bodies; b_async := b_async blinky_bodies; b_initial := b_initial blinky_bodies |}.

Example C98_case :
  (exists B' : bodies nat nat nat nat flat_code,
     same_bodies_but "blinking" blinky lazy_bodies B' /\
     forall md events cs cs' sm1 sm1',
       history 2 md (map (fun p => OpHandle (m := generated_machine lazy_bodies) (fst p) (snd p)) events)
               (new_state_machine (generated_machine lazy_bodies) 5) cs sm1 ->
       history 2 md (map (fun p => OpHandle (m := generated_machine B') (fst p) (snd p)) events)
               (new_state_machine (generated_machine B') 5) cs' sm1' ->
       map c_out cs = map c_out cs' /\ map c_cx cs = map c_cx cs' /\ sm_shared sm1 = sm_shared sm1') /\
  map v_name (g_super_variants blinky_code) = ["Blinking"; "Top"] /\
  map v_name (g_super_variants flat_code) = ["Top"] /\
  let run n ops := exec_all n BlockingMode ops (new_state_machine (generated_machine lazy_bodies) 5) in
  let ops := map (fun p => OpHandle (m := generated_machine lazy_bodies) (fst p) (snd p)) [(1, 0); (2, 0)] in
  tag (sm_state (snd (run 2 ops))) = "NotBlinking" /\ sm_shared (snd (run 2 ops)) <> 5 /\
  map (fun c => length (c_tr c)) (fst (run 2 ops)) = [21; 4] /\
  map (fun c => length (hide (place_of blinky_code "blinking") (c_tr c))) (fst (run 2 ops)) = [15; 4].
Proof.
  split; [|split; [|split; [|split; [|split; [|split]]]]].
  - destruct (C98_bodies_exist all_forward all_forward blinky_args blinky_args blinky flat _ _ nat nat nat nat lazy_bodies "blinking"
                blinky_expands blinky_compiles flat_expands flat_compiles flat_dissolved flat_settings) as [B' SB].
    exists B'. split; [exact SB|]. intros md events cs cs' sm1 sm1' H H'.
    destruct (C98_same_answers all_forward all_forward blinky_args blinky_args blinky flat _ _ nat nat nat nat lazy_bodies B' "blinking"
                blinky_expands blinky_compiles flat_expands flat_compiles blinky_acyclic flat_dissolved flat_settings
                ltac:(split; intros; reflexivity) SB 2 md 5 events cs cs' sm1 sm1' ltac:(vm_compute; lia) H H') as (P & Q & R & _).
    auto.
  - reflexivity.
  - reflexivity.
  - vm_compute. reflexivity.
  - vm_compute. discriminate.
  - vm_compute. reflexivity.
  - vm_compute. reflexivity.
Qed.
