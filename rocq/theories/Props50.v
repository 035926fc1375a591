(** Props50.v — C101: names do not matter to an awaitable machine, poll by poll.  Theorems only; see
    RenameSpec.v ([renamed_impl], [renamed_bodies]), RenamePollSpec.v ([renamed_async_bodies]) and
    PollSimSpec.v ([run_all_polled], [polled_op_rel], [polled_result_rel]). *)

From Coq Require Import String List Bool Arith Lia Permutation.
From Verif Require Import MacroSyntax MacroLower MacroGen MacroSem MacroSpec MacroExamples MacroPoll MacroPollSpec.
From Verif Require Import Machine Api Spec Sim Poll RenameSpec PollSimSpec RenamePollSpec.
From Verif Require MacroPollProofs RenamePollProofs Props31 Props45 Props48 Props49.
Import ListNotations.
Open Scope string_scope.
Open Scope list_scope.

(** C101.  Take an impl block with `async fn`s that the macro accepts and rename and reorder it as in
    C82, leaving `async` what is `async`.  Let the functions do what they did, the `async` ones poll by
    poll.  If the result is accepted too (and both compile) then, whatever calls are made on the two
    machines, however often they are polled, and wherever they are dropped, corresponding calls are
    pending, panic or are ready at the same poll, with the same context, having run corresponding
    functions; and they leave the same shared storage and corresponding states with the same contents. *)
Theorem C101_renamed :
  forall (World : Type) (o o' : orders) (args args' : list meta) (item item' : item_impl) (g g' : generated)
         (Val Sh Ev Cx : Type) (B : bodies Val Sh Ev Cx g) (B' : bodies Val Sh Ev Cx g')
         (FB : async_bodies World Val Sh Ev Cx g) (FB' : async_bodies World Val Sh Ev Cx g'),
    expand o args item = Done g -> compiles g -> expand o' args' item' = Done g' -> compiles g' ->
    forall rho sigma : ident -> ident,
    proper sigma -> renamed_impl rho sigma item item' -> renamed_settings sigma g g' ->
    renamed_bodies item item' rho B B' -> async_kept rho item item' -> renamed_async_bodies item item' rho FB FB' ->
    sync_not_cancelled item B -> sync_not_cancelled item' B' ->
    let R := renamed_relations item item' rho B B' in
    forall (stack : nat) ops ops' (sm sm1 : state_machine (generated_machine B))
           (sm' sm1' : state_machine (generated_machine B')) rs rs',
      Forall2 (polled_op_rel eq R) ops ops' -> machine_rel R sm sm' ->
      run_all_polled (generated_futures B FB) stack ops sm = (rs, sm1) ->
      run_all_polled (generated_futures B' FB') stack ops' sm' = (rs', sm1') ->
      machine_rel R sm1 sm1' /\ Forall2 (opt_rel (polled_result_rel R)) rs rs'.
Proof.
  intros World o o' args args' item item' g g' Val Sh Ev Cx B B' FB FB' E CO E' CO' rho sigma PR RI RS RB AK RA NC NC' R
         stack ops ops' sm sm1 sm' sm1' rs rs' F M H H'.
  exact (Props48.C99_histories _ _ R World World eq _ _ stack ops ops' sm sm1 sm' sm1' rs rs'
           (@RenamePollProofs.renamed_futures World Val Sh Ev Cx o o' args args' item item' g g' B B' FB FB' E CO E' CO' rho sigma PR RI RS RB AK RA NC NC')
           (MacroPollProofs.generated_variant_safe B FB) F M H H').
Qed.
Print Assumptions C101_renamed.

(** So two machines just made that are sent the same events, with the same polls, give the same
    outcomes (or are both dropped) and contexts, and are left with the same storage and corresponding states. *)
Theorem C101_same_answers :
  forall (World : Type) (o o' : orders) (args args' : list meta) (item item' : item_impl) (g g' : generated)
         (Val Sh Ev Cx : Type) (B : bodies Val Sh Ev Cx g) (B' : bodies Val Sh Ev Cx g')
         (FB : async_bodies World Val Sh Ev Cx g) (FB' : async_bodies World Val Sh Ev Cx g'),
    expand o args item = Done g -> compiles g -> expand o' args' item' = Done g' -> compiles g' ->
    forall rho sigma : ident -> ident,
    proper sigma -> renamed_impl rho sigma item item' -> renamed_settings sigma g g' ->
    renamed_bodies item item' rho B B' -> async_kept rho item item' -> renamed_async_bodies item item' rho FB FB' ->
    sync_not_cancelled item B -> sync_not_cancelled item' B' ->
    forall (stack : nat) (sh : Sh) (calls : list (list World * Ev * Cx)) sm1 sm1' rs rs',
      run_all_polled (generated_futures B FB) stack
        (map (fun c => PolledHandle (m := generated_machine B) (fst (fst c)) (snd (fst c)) (snd c)) calls)
        (new_state_machine (generated_machine B) sh) = (rs, sm1) ->
      run_all_polled (generated_futures B' FB') stack
        (map (fun c => PolledHandle (m := generated_machine B') (fst (fst c)) (snd (fst c)) (snd c)) calls)
        (new_state_machine (generated_machine B') sh) = (rs', sm1') ->
      map (option_map fst) rs = map (option_map fst) rs' /\ sm_shared sm1 = sm_shared sm1' /\
      twin_states item item' rho g g' (sm_state sm1) (sm_state sm1').
Proof.
  intros World o o' args args' item item' g g' Val Sh Ev Cx B B' FB FB' E CO E' CO' rho sigma PR RI RS RB AK RA NC NC'
         stack sh calls sm1 sm1' rs rs' H H'.
  assert (O : Forall2 (polled_op_rel eq (renamed_relations item item' rho B B'))
    (map (fun c => PolledHandle (m := generated_machine B) (fst (fst c)) (snd (fst c)) (snd c)) calls)
    (map (fun c => PolledHandle (m := generated_machine B') (fst (fst c)) (snd (fst c)) (snd c)) calls)).
  { clear. induction calls as [|[[ws e] cx] l IH]; [constructor|]. cbn [map fst snd]. constructor; [|exact IH].
    constructor; try reflexivity. clear. induction ws; constructor; auto. }
  assert (M0 : machine_rel (renamed_relations item item' rho B B') (new_state_machine (generated_machine B) sh) (new_state_machine (generated_machine B') sh)).
  { split; [exact (rb_initial RB)|]. split; reflexivity. }
  destruct (C101_renamed World o o' args args' item item' g g' Val Sh Ev Cx B B' FB FB' E CO E' CO' rho sigma PR RI RS RB AK RA NC NC'
              stack _ _ _ sm1 _ sm1' rs rs' O M0 H H') as [(M1 & M3 & _) F].
  split; [|split; [exact M3|exact M1]]. clear - F.
  induction F as [|r r' l l' HR F IH]; [reflexivity|]. cbn [map]. apply (f_equal2 (@cons _)); [|exact IH].
  inversion HR as [|[[a cx] tr] [[a' cx'] tr'] (Q1 & Q2 & _)]; [reflexivity|]. cbn in Q2 |- *. now rewrite Q1, Q2.
Qed.
Print Assumptions C101_same_answers.

(** The blinky of C96, with four `async fn`s, and the renamed and reversed blinky of C82 with the
    same four functions `async`. *)
Definition my_async : list ident := ["my_led_on"; "my_blinking"; "my_enter_led_on"; "my_log"].
Definition slow_renamed : item_impl :=
  impl_of (rev (map (fun m => if existsb (String.eqb (m_name m)) my_async then Props45.async_fn m else m) Props31.new_methods)).
Definition slow_renamed_code : generated := Eval vm_compute in output (expand all_forward Props31.blinky_args' slow_renamed).
Definition renamed_state : value nat (g_state_variants slow_renamed_code).
Proof. refine (Value (g_state_variants slow_renamed_code) "MyLedOn" [0; 0] _). vm_compute. reflexivity. Defined.
Definition renamed_answer (f : ident) : response (value nat (g_state_variants slow_renamed_code)) :=
  if (f =? "my_top")%string then Transition (a_value slow_renamed_code "MyNotBlinking" [7] renamed_state) else Super.
Definition the_renamed_bodies : bodies nat nat nat nat slow_renamed_code := {|
  b_handler := fun f args => (Returns (renamed_answer f), map bump (map bump args));
  b_action := fun f args => (Returns tt, map bump (map bump args));
  b_dispatch_hook := fun p sh n e => (Returns tt, sh);
  b_transition_hook := fun p sh a b => (Returns tt, 1000 + sh);
  b_async := fun p => false;
  b_initial := fun e => renamed_state
|}.
Definition the_renamed_futures : async_bodies unit nat nat nat nat slow_renamed_code :=
  @AsyncBodies unit nat nat nat nat slow_renamed_code
    (fun f => Props45.halves (map bump) (renamed_answer f)) (fun f => Props45.halves (map bump) tt)
    (fun p n e => Props45.halves (fun sh => sh) tt) (fun p a b => Props45.halves (fun sh => 500 + sh) tt).
Lemma is_twin m m' kind (x : value nat (g_state_variants Props45.slow_code)) (x' : value nat (g_state_variants slow_renamed_code)) :
  In m (methods Props45.slow_blinky) -> In m' (methods slow_renamed) -> m_name m' = Props31.my (m_name m) ->
  marked kind m = true -> tag x = variant_of m -> tag x' = variant_of m' -> vals x' = vals x ->
  twins Props31.my Props45.slow_blinky slow_renamed kind x x'.
Proof. intros. exists m, m'. repeat split; assumption. Qed.
Lemma slow_initial : twin_states Props45.slow_blinky slow_renamed Props31.my Props45.slow_code slow_renamed_code Props45.slow_state renamed_state.
Proof.
  refine (@is_twin (nth 0 (methods Props45.slow_blinky) led_on) (nth 7 (methods slow_renamed) led_on) "state" _ _ _ _ _ _ _ _ _);
    try (vm_compute; reflexivity); apply nth_In; vm_compute; lia.
Qed.
Lemma same_renamed_answer m : In m (methods Props45.slow_blinky) ->
  response_rel (twin_states Props45.slow_blinky slow_renamed Props31.my Props45.slow_code slow_renamed_code)
    (Props45.slow_answer (m_name m)) (renamed_answer (Props31.my (m_name m))).
Proof.
  intros I. unfold Props45.slow_answer, renamed_answer.
  assert (((Props31.my (m_name m)) =? "my_top")%string = (m_name m =? "top")%string) as ->.
  { cbn in I. repeat (destruct I as [<-|I]; [reflexivity|]). destruct I. }
  destruct (m_name m =? "top")%string; constructor.
  refine (@is_twin (nth 2 (methods Props45.slow_blinky) led_on) (nth 5 (methods slow_renamed) led_on) "state" _ _ _ _ _ _ _ _ _);
    try (vm_compute; reflexivity); apply nth_In; vm_compute; lia.
Qed.
Lemma slow_is_renamed : renamed_impl Props31.my Props31.lamp_for_led Props45.slow_blinky slow_renamed.
Proof.
  exists (filter relevant (rev (methods slow_renamed))), [Props45.async_fn (method [] "my_log" [Receiver])]. split.
  - repeat (apply Forall2_cons || apply Forall2_nil);
    (constructor;
     [reflexivity
     |intros k [<-|[<-|[<-|[]]]]; vm_compute; reflexivity
     |intros k y [<-|[<-|[]]] [<-|[<-|[<-|[]]]]; vm_compute; reflexivity
     |intros k [<-|[<-|[]]]; vm_compute; reflexivity
     |repeat (apply Forall2_cons || apply Forall2_nil); cbn; try exact I; eexists; repeat split; reflexivity]).
  - exact (Permutation_rev (rev (methods slow_renamed))).
Qed.
Example C101_case :
  expand all_forward blinky_args Props45.slow_blinky = Done Props45.slow_code /\ compiles Props45.slow_code /\
  expand all_forward Props31.blinky_args' slow_renamed = Done slow_renamed_code /\ compiles slow_renamed_code /\
  g_mode slow_renamed_code = MAwaitable /\
  proper Props31.lamp_for_led /\ renamed_impl Props31.my Props31.lamp_for_led Props45.slow_blinky slow_renamed /\
  renamed_settings Props31.lamp_for_led Props45.slow_code slow_renamed_code /\
  renamed_bodies Props45.slow_blinky slow_renamed Props31.my Props45.slow_bodies the_renamed_bodies /\
  async_kept Props31.my Props45.slow_blinky slow_renamed /\
  renamed_async_bodies Props45.slow_blinky slow_renamed Props31.my Props45.slow_futures the_renamed_futures /\
  sync_not_cancelled Props45.slow_blinky Props45.slow_bodies /\ sync_not_cancelled slow_renamed the_renamed_bodies /\
  let calls := [([tt], 5, 0); ([tt; tt], 5, 0); (repeat tt 20, 5, 0)] in
  map (option_map (fun r => fst (fst r))) (fst (run_all_polled (generated_futures the_renamed_bodies the_renamed_futures) 3
        (map (fun c => PolledHandle (m := generated_machine the_renamed_bodies) (fst (fst c)) (snd (fst c)) (snd c)) calls)
        (new_state_machine (generated_machine the_renamed_bodies) 0))) = [Some None; Some None; Some (Some (Ret tt))].
Proof.
  split; [vm_compute; reflexivity|]. split; [apply compilesb_ok; vm_compute; reflexivity|].
  split; [vm_compute; reflexivity|]. split; [apply compilesb_ok; vm_compute; reflexivity|].
  split; [reflexivity|]. split; [exact Props31.lamp_proper|]. split; [exact slow_is_renamed|].
  split; [constructor; reflexivity|].
  split.
  { constructor; try reflexivity.
    - intros m l I _. split; [constructor; exact (same_renamed_answer m I)|reflexivity].
    - exact slow_initial. }
  split.
  { intros m m' I Rm I' N. cbn in I, I'.
    destruct I as [<-|[<-|[<-|[<-|[<-|[<-|[<-|[<-|[]]]]]]]]]; cbn in N |- *;
      destruct I' as [<-|[<-|[<-|[<-|[<-|[<-|[<-|[<-|[]]]]]]]]]; cbn in N |- *; try reflexivity; discriminate N. }
  split.
  { constructor; intros; apply Props49.halves_rel; first [apply same_renamed_answer; assumption|reflexivity]. }
  split. { intros f l _ _. split; discriminate. }
  split. { intros f l _ _. split; discriminate. }
  vm_compute. reflexivity.
Qed.
