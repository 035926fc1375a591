(** Props49.v — C100: further methods do not disturb an awaitable machine, poll by poll.  Theorems
    only; see AddSpec.v ([extends], [same_bodies]), AddPollSpec.v ([same_async_bodies]) and
    PollSimSpec.v ([run_all_polled], [polled_op_rel], [polled_result_rel]). *)

From Coq Require Import String List Bool Arith Lia.
From Verif Require Import MacroSyntax MacroLower MacroGen MacroSem MacroSpec MacroExamples MacroPoll MacroPollSpec.
From Verif Require Import Machine Api Spec Sim Poll AddSpec PollSimSpec AddPollSpec.
From Verif Require MacroPollProofs PollSimProofs AddPollProofs Props33 Props45 Props48.
Import ListNotations.
Open Scope string_scope.
Open Scope list_scope.

(** C100.  Take an impl block with `async fn`s that the macro accepts, and add methods to it, anywhere
    in the block, or put its methods in another order.  Let the functions that were there do what they
    did, the `async` ones poll by poll.  If the new block is accepted too (and both compile) then,
    whatever calls are made on the two machines, however often they are polled, and wherever they are
    dropped, corresponding calls are pending, panic or are ready at the same poll, with the same
    context, having run the same functions on values of the same variants with the same contents; and
    they leave the same shared storage and a state of the same variant with the same contents. *)
Theorem C100_added :
  forall (World : Type) (o o' : orders) (args args' : list meta) (item item' : item_impl) (g g' : generated)
         (Val Sh Ev Cx : Type) (B : bodies Val Sh Ev Cx g) (B' : bodies Val Sh Ev Cx g')
         (FB : async_bodies World Val Sh Ev Cx g) (FB' : async_bodies World Val Sh Ev Cx g'),
    expand o args item = Done g -> compiles g -> expand o' args' item' = Done g' -> compiles g' ->
    extends item item' -> same_settings g g' ->
    same_bodies item B B' -> same_async_bodies item FB FB' ->
    sync_not_cancelled item B -> sync_not_cancelled item' B' ->
    let R := same_relations B B' in
    forall (stack : nat) ops ops' (sm sm1 : state_machine (generated_machine B))
           (sm' sm1' : state_machine (generated_machine B')) rs rs',
      Forall2 (polled_op_rel eq R) ops ops' -> machine_rel R sm sm' ->
      run_all_polled (generated_futures B FB) stack ops sm = (rs, sm1) ->
      run_all_polled (generated_futures B' FB') stack ops' sm' = (rs', sm1') ->
      machine_rel R sm1 sm1' /\ Forall2 (opt_rel (polled_result_rel R)) rs rs'.
Proof.
  intros World o o' args args' item item' g g' Val Sh Ev Cx B B' FB FB' E CO E' CO' EX SS SB SA NC NC' R
         stack ops ops' sm sm1 sm' sm1' rs rs' F M H H'.
  exact (Props48.C99_histories _ _ R World World eq _ _ stack ops ops' sm sm1 sm' sm1' rs rs'
           (@AddPollProofs.added_futures World Val Sh Ev Cx o o' args args' item item' g g' B B' FB FB' E CO E' CO' EX SS SB SA NC NC')
           (MacroPollProofs.generated_variant_safe B FB) F M H H').
Qed.
Print Assumptions C100_added.

(** So two machines just made that are sent the same events, with the same polls, give the same
    outcomes (or are both dropped) and contexts, and are left with the same storage and state. *)
Theorem C100_same_answers :
  forall (World : Type) (o o' : orders) (args args' : list meta) (item item' : item_impl) (g g' : generated)
         (Val Sh Ev Cx : Type) (B : bodies Val Sh Ev Cx g) (B' : bodies Val Sh Ev Cx g')
         (FB : async_bodies World Val Sh Ev Cx g) (FB' : async_bodies World Val Sh Ev Cx g'),
    expand o args item = Done g -> compiles g -> expand o' args' item' = Done g' -> compiles g' ->
    extends item item' -> same_settings g g' ->
    same_bodies item B B' -> same_async_bodies item FB FB' ->
    sync_not_cancelled item B -> sync_not_cancelled item' B' ->
    forall (stack : nat) (sh : Sh) (calls : list (list World * Ev * Cx)) sm1 sm1' rs rs',
      run_all_polled (generated_futures B FB) stack
        (map (fun c => PolledHandle (m := generated_machine B) (fst (fst c)) (snd (fst c)) (snd c)) calls)
        (new_state_machine (generated_machine B) sh) = (rs, sm1) ->
      run_all_polled (generated_futures B' FB') stack
        (map (fun c => PolledHandle (m := generated_machine B') (fst (fst c)) (snd (fst c)) (snd c)) calls)
        (new_state_machine (generated_machine B') sh) = (rs', sm1') ->
      map (option_map fst) rs = map (option_map fst) rs' /\ sm_shared sm1 = sm_shared sm1' /\
      tag (sm_state sm1') = tag (sm_state sm1) /\ vals (sm_state sm1') = vals (sm_state sm1).
Proof.
  intros World o o' args args' item item' g g' Val Sh Ev Cx B B' FB FB' E CO E' CO' EX SS SB SA NC NC'
         stack sh calls sm1 sm1' rs rs' H H'.
  assert (O : Forall2 (polled_op_rel eq (same_relations B B'))
    (map (fun c => PolledHandle (m := generated_machine B) (fst (fst c)) (snd (fst c)) (snd c)) calls)
    (map (fun c => PolledHandle (m := generated_machine B') (fst (fst c)) (snd (fst c)) (snd c)) calls)).
  { clear. induction calls as [|[[ws e] cx] l IH]; [constructor|]. cbn [map fst snd]. constructor; [|exact IH].
    constructor; try reflexivity. clear. induction ws; constructor; auto. }
  assert (M0 : machine_rel (same_relations B B') (new_state_machine (generated_machine B) sh) (new_state_machine (generated_machine B') sh)).
  { split; [exact (sb_initial SB)|]. split; reflexivity. }
  destruct (C100_added World o o' args args' item item' g g' Val Sh Ev Cx B B' FB FB' E CO E' CO' EX SS SB SA NC NC'
              stack _ _ _ sm1 _ sm1' rs rs' O M0 H H') as [((M1 & M2) & M3 & _) F].
  split; [|split; [exact M3|split; [exact M1|exact M2]]]. clear - F.
  induction F as [|r r' l l' HR F IH]; [reflexivity|]. cbn [map]. apply (f_equal2 (@cons _)); [|exact IH].
  inversion HR as [|[[a cx] tr] [[a' cx'] tr'] (Q1 & Q2 & _)]; [reflexivity|]. cbn in Q2 |- *. now rewrite Q1, Q2.
Qed.
Print Assumptions C100_same_answers.

(** The blinky of C96, with three `async fn`s, and with two more states, one of them `async`, one
    more superstate and one more action in front. *)
Definition slow_larger : item_impl :=
  impl_of [Props33.ring; Props45.async_fn Props33.fast; Props45.async_fn led_on; Props33.alarm; led_off; not_blinking;
           Props33.slow; Props45.async_fn blinking; top; Props45.async_fn enter_led_on; leave].
Definition slow_larger_code : generated := Eval vm_compute in output (expand all_forward blinky_args slow_larger).
Definition larger_state : value nat (g_state_variants slow_larger_code).
Proof. refine (Value (g_state_variants slow_larger_code) "LedOn" [0; 0] _). vm_compute. reflexivity. Defined.
Definition larger_answer (f : ident) : response (value nat (g_state_variants slow_larger_code)) :=
  if (f =? "top")%string then Transition (a_value slow_larger_code "NotBlinking" [7] larger_state) else Super.
Definition larger_bodies : bodies nat nat nat nat slow_larger_code := {|
  b_handler := fun f args => (Returns (larger_answer f), map bump (map bump args));
  b_action := fun f args => (Returns tt, map bump (map bump args));
  b_dispatch_hook := fun p sh n e => (Returns tt, sh);
  b_transition_hook := fun p sh a b => (Returns tt, 1000 + sh);
  b_async := fun p => false;
  b_initial := fun e => larger_state
|}.
Definition larger_futures : async_bodies unit nat nat nat nat slow_larger_code :=
  @AsyncBodies unit nat nat nat nat slow_larger_code
    (fun f => Props45.halves (map bump) (larger_answer f)) (fun f => Props45.halves (map bump) tt)
    (fun p n e => Props45.halves (fun sh => sh) tt) (fun p a b => Props45.halves (fun sh => 500 + sh) tt).
Lemma halves_rel {S A A'} (RA : A -> A' -> Prop) (half : S -> S) a a' : RA a a' ->
  future_rel eq eq RA (Props45.halves half a) (Props45.halves half a').
Proof.
  intros Ha. apply AddPollProofs.answers_future. intros s s' <- w ws. destruct ws as [|v [|]]; cbn.
  - split; [constructor|reflexivity].
  - split; [repeat constructor; exact Ha|reflexivity].
  - split; [repeat constructor; exact Ha|reflexivity].
Qed.
Lemma same_answer f : response_rel (@same_value nat (g_state_variants Props45.slow_code) (g_state_variants slow_larger_code))
  (Props45.slow_answer f) (larger_answer f).
Proof.
  unfold Props45.slow_answer, larger_answer. destruct (f =? "top")%string; constructor. vm_compute. split; reflexivity.
Qed.
Example C100_case :
  expand all_forward blinky_args Props45.slow_blinky = Done Props45.slow_code /\ compiles Props45.slow_code /\
  expand all_forward blinky_args slow_larger = Done slow_larger_code /\ compiles slow_larger_code /\
  g_mode slow_larger_code = MAwaitable /\ map v_name (g_state_variants slow_larger_code) = ["Fast"; "LedOn"; "LedOff"; "NotBlinking"; "Slow"] /\
  extends Props45.slow_blinky slow_larger /\ same_settings Props45.slow_code slow_larger_code /\
  same_bodies Props45.slow_blinky Props45.slow_bodies larger_bodies /\
  same_async_bodies Props45.slow_blinky Props45.slow_futures larger_futures /\
  sync_not_cancelled Props45.slow_blinky Props45.slow_bodies /\ sync_not_cancelled slow_larger larger_bodies /\
  let calls := [([tt], 5, 0); ([tt; tt], 5, 0); (repeat tt 20, 5, 0)] in
  map (option_map (fun r => fst (fst r))) (fst (run_all_polled (generated_futures larger_bodies larger_futures) 3
        (map (fun c => PolledHandle (m := generated_machine larger_bodies) (fst (fst c)) (snd (fst c)) (snd c)) calls)
        (new_state_machine (generated_machine larger_bodies) 0))) = [Some None; Some None; Some (Some (Ret tt))].
Proof.
  split; [vm_compute; reflexivity|]. split; [apply compilesb_ok; vm_compute; reflexivity|].
  split; [vm_compute; reflexivity|]. split; [apply compilesb_ok; vm_compute; reflexivity|].
  split; [reflexivity|]. split; [reflexivity|].
  split.
  { intros m I P. cbn in I.
    destruct I as [<-|[<-|[<-|[<-|[<-|[<-|[<-|[<-|[]]]]]]]]];
      try (cbn; tauto); unfold part_of_machine in P; vm_compute in P; destruct P as [P|[P|P]]; discriminate. }
  split; [constructor; reflexivity|].
  split.
  { constructor; try reflexivity.
    - intros m l _ _. split; [constructor; apply same_answer|reflexivity].
    - vm_compute. split; reflexivity. }
  split.
  { constructor; intros; apply halves_rel; first [apply same_answer|reflexivity]. }
  split. { intros f l _ _. split; discriminate. }
  split. { intros f l _ _. split; discriminate. }
  vm_compute. reflexivity.
Qed.
