(** Props51.v — C102: an `async fn` that does not wait is like a plain method, poll by poll.  Theorems
    only; see AsyncSpec.v ([other_async]), AsyncPollSpec.v ([method_future], [same_when_polled]) and
    PollSimSpec.v ([run_all_polled], [polled_op_rel], [polled_result_rel]). *)

From Coq Require Import String List Bool Arith Lia.
From Verif Require Import MacroSyntax MacroLower MacroGen MacroSem MacroSpec MacroExamples MacroPoll MacroPollSpec.
From Verif Require Import Machine Api Spec Sim Poll AddSpec PollSimSpec AsyncSpec AsyncPollSpec.
From Verif Require MacroPollProofs AsyncPollProofs Props45 Props48 Props49.
Import ListNotations.
Open Scope string_scope.
Open Scope list_scope.

(** C102.  Make other methods of an impl block `async`, so that the macro still generates an awaitable
    machine.  If calling each method gives futures that do the same, where a method that is not `async`
    counts as a future that is ready when it is first polled (so that adding or removing `async` on
    methods that do not wait is allowed), then, whatever calls are made on the two machines,
    however often they are polled, and wherever they are dropped, corresponding calls are pending,
    panic or are ready at the same poll, with the same context, having run the same functions; and
    they leave the same shared storage and a state of the same variant with the same contents. *)
Theorem C102_other_async :
  forall (World : Type) (o o' : orders) (args : list meta) (item item' : item_impl) (g g' : generated)
         (Val Sh Ev Cx : Type) (B : bodies Val Sh Ev Cx g) (B' : bodies Val Sh Ev Cx g')
         (FB : async_bodies World Val Sh Ev Cx g) (FB' : async_bodies World Val Sh Ev Cx g'),
    expand o args item = Done g -> compiles g -> expand o' args item' = Done g' -> compiles g' ->
    other_async item item' -> g_mode g = MAwaitable -> g_mode g' = MAwaitable ->
    same_when_polled item item' B B' FB FB' ->
    sync_not_cancelled item B -> sync_not_cancelled item' B' ->
    let R := same_relations B B' in
    forall (stack : nat) ops ops' (sm sm1 : state_machine (generated_machine B))
           (sm' sm1' : state_machine (generated_machine B')) rs rs',
      Forall2 (polled_op_rel eq R) ops ops' -> machine_rel R sm sm' ->
      run_all_polled (generated_futures B FB) stack ops sm = (rs, sm1) ->
      run_all_polled (generated_futures B' FB') stack ops' sm' = (rs', sm1') ->
      machine_rel R sm1 sm1' /\ Forall2 (opt_rel (polled_result_rel R)) rs rs'.
Proof.
  intros World o o' args item item' g g' Val Sh Ev Cx B B' FB FB' E CO E' CO' OA Md Md' SP NC NC' R
         stack ops ops' sm sm1 sm' sm1' rs rs' F M H H'.
  exact (Props48.C99_histories _ _ R World World eq _ _ stack ops ops' sm sm1 sm' sm1' rs rs'
           (@AsyncPollProofs.async_futures World Val Sh Ev Cx o o' args item item' g g' B B' FB FB' E CO E' CO' OA Md Md' SP NC NC')
           (MacroPollProofs.generated_variant_safe B FB) F M H H').
Qed.
Print Assumptions C102_other_async.

(** So two machines just made that are sent the same events, with the same polls, give the same
    outcomes (or are both dropped) and contexts, and are left with the same storage and state. *)
Theorem C102_same_answers :
  forall (World : Type) (o o' : orders) (args : list meta) (item item' : item_impl) (g g' : generated)
         (Val Sh Ev Cx : Type) (B : bodies Val Sh Ev Cx g) (B' : bodies Val Sh Ev Cx g')
         (FB : async_bodies World Val Sh Ev Cx g) (FB' : async_bodies World Val Sh Ev Cx g'),
    expand o args item = Done g -> compiles g -> expand o' args item' = Done g' -> compiles g' ->
    other_async item item' -> g_mode g = MAwaitable -> g_mode g' = MAwaitable ->
    same_when_polled item item' B B' FB FB' ->
    sync_not_cancelled item B -> sync_not_cancelled item' B' ->
    forall (stack : nat) (sh : Sh) (calls : list (list World * Ev * Cx)) sm1 sm1' rs rs',
      run_all_polled (generated_futures B FB) stack
        (map (fun c => PolledHandle (m := generated_machine B) (fst (fst c)) (snd (fst c)) (snd c)) calls)
        (new_state_machine (generated_machine B) sh) = (rs, sm1) ->
      run_all_polled (generated_futures B' FB') stack
        (map (fun c => PolledHandle (m := generated_machine B') (fst (fst c)) (snd (fst c)) (snd c)) calls)
        (new_state_machine (generated_machine B') sh) = (rs', sm1') ->
      map (option_map fst) rs = map (option_map fst) rs' /\ sm_shared sm1 = sm_shared sm1' /\
      tag (sm_state sm1') = tag (sm_state sm1) /\ vals (sm_state sm1') = vals (sm_state sm1).
Proof.
  intros World o o' args item item' g g' Val Sh Ev Cx B B' FB FB' E CO E' CO' OA Md Md' SP NC NC'
         stack sh calls sm1 sm1' rs rs' H H'.
  assert (O : Forall2 (polled_op_rel eq (same_relations B B'))
    (map (fun c => PolledHandle (m := generated_machine B) (fst (fst c)) (snd (fst c)) (snd c)) calls)
    (map (fun c => PolledHandle (m := generated_machine B') (fst (fst c)) (snd (fst c)) (snd c)) calls)).
  { clear. induction calls as [|[[ws e] cx] l IH]; [constructor|]. cbn [map fst snd]. constructor; [|exact IH].
    constructor; try reflexivity. clear. induction ws; constructor; auto. }
  assert (M0 : machine_rel (same_relations B B') (new_state_machine (generated_machine B) sh) (new_state_machine (generated_machine B') sh)).
  { split; [exact (sp_initial SP)|]. split; reflexivity. }
  destruct (C102_other_async World o o' args item item' g g' Val Sh Ev Cx B B' FB FB' E CO E' CO' OA Md Md' SP NC NC'
              stack _ _ _ sm1 _ sm1' rs rs' O M0 H H') as [((M1 & M2) & M3 & _) F].
  split; [|split; [exact M3|split; [exact M1|exact M2]]]. clear - F.
  induction F as [|r r' l l' HR F IH]; [reflexivity|]. cbn [map]. apply (f_equal2 (@cons _)); [|exact IH].
  inversion HR as [|[[a cx] tr] [[a' cx'] tr'] (Q1 & Q2 & _)]; [reflexivity|]. cbn in Q2 |- *. now rewrite Q1, Q2.
Qed.
Print Assumptions C102_same_answers.

(** The blinky of C96, where `led_on` is not `async`; and where it is, but does not wait. *)
Definition hasty : item_impl :=
  impl_of [led_on; led_off; not_blinking; Props45.async_fn blinking; top; Props45.async_fn enter_led_on; leave; Props45.async_fn log].
Definition hasty_code : generated := Eval vm_compute in output (expand all_forward blinky_args hasty).
Definition hasty_state : value nat (g_state_variants hasty_code).
Proof. refine (Value (g_state_variants hasty_code) "LedOn" [0; 0] _). vm_compute. reflexivity. Defined.
Definition hasty_answer (f : ident) : response (value nat (g_state_variants hasty_code)) :=
  if (f =? "top")%string then Transition (a_value hasty_code "NotBlinking" [7] hasty_state) else Super.
Definition hasty_bodies : bodies nat nat nat nat hasty_code := {|
  b_handler := fun f args => (Returns (hasty_answer f), map bump (map bump args));
  b_action := fun f args => (Returns tt, map bump (map bump args));
  b_dispatch_hook := fun p sh n e => (Returns tt, sh);
  b_transition_hook := fun p sh a b => (Returns tt, 1000 + sh);
  b_async := fun p => false;
  b_initial := fun e => hasty_state
|}.
Definition hasty_futures : async_bodies unit nat nat nat nat hasty_code :=
  @AsyncBodies unit nat nat nat nat hasty_code
    (fun f => Props45.halves (map bump) (hasty_answer f)) (fun f => Props45.halves (map bump) tt)
    (fun p n e => Props45.halves (fun sh => sh) tt) (fun p a b => Props45.halves (fun sh => 500 + sh) tt).
(** As in C96, but `led_on` does everything at the first poll. *)
Definition ready_futures : async_bodies unit nat nat nat nat Props45.slow_code :=
  @AsyncBodies unit nat nat nat nat Props45.slow_code
    (fun f => if (f =? "led_on")%string then at_once (b_handler Props45.slow_bodies f) else fb_handler Props45.slow_futures f)
    (fb_action Props45.slow_futures) (fb_dispatch_hook Props45.slow_futures) (fb_transition_hook Props45.slow_futures).
Lemma at_once_rel {S A A'} (RA : A -> A' -> Prop) (f : S -> S) a a' : RA a a' ->
  future_rel eq eq RA (at_once (World := unit) (fun s => (Returns a, f s))) (at_once (World := unit) (fun s => (Returns a', f s))).
Proof.
  intros H. apply AddPollProofs.answers_future. intros s s' <- w ws. rewrite !MacroPollProofs.udrive_at_once. cbn.
  split; [repeat constructor; exact H|reflexivity].
Qed.
Lemma hasty_same f : response_rel (@same_value nat (g_state_variants hasty_code) (g_state_variants Props45.slow_code))
  (hasty_answer f) (Props45.slow_answer f).
Proof.
  unfold Props45.slow_answer, hasty_answer. destruct (f =? "top")%string; constructor. vm_compute. split; reflexivity.
Qed.
Example C102_case :
  expand all_forward blinky_args hasty = Done hasty_code /\ compiles hasty_code /\ g_mode hasty_code = MAwaitable /\
  expand all_forward blinky_args Props45.slow_blinky = Done Props45.slow_code /\ compiles Props45.slow_code /\
  g_mode Props45.slow_code = MAwaitable /\ other_async hasty Props45.slow_blinky /\
  map m_async (methods hasty) <> map m_async (methods Props45.slow_blinky) /\
  same_when_polled hasty Props45.slow_blinky hasty_bodies Props45.slow_bodies hasty_futures ready_futures /\
  sync_not_cancelled hasty hasty_bodies /\ sync_not_cancelled Props45.slow_blinky Props45.slow_bodies /\
  let calls := [([tt], 5, 0); ([tt; tt], 5, 0); (repeat tt 20, 5, 0)] in
  map (option_map (fun r => fst (fst r))) (fst (run_all_polled (generated_futures Props45.slow_bodies ready_futures) 3
        (map (fun c => PolledHandle (m := generated_machine Props45.slow_bodies) (fst (fst c)) (snd (fst c)) (snd c)) calls)
        (new_state_machine (generated_machine Props45.slow_bodies) 0))) = [Some None; Some None; Some (Some (Ret tt))].
Proof.
  split; [vm_compute; reflexivity|]. split; [apply compilesb_ok; vm_compute; reflexivity|]. split; [reflexivity|].
  split; [vm_compute; reflexivity|]. split; [apply compilesb_ok; vm_compute; reflexivity|]. split; [reflexivity|].
  split. { split; [reflexivity|]. split; [reflexivity|]. repeat constructor. }
  split; [vm_compute; discriminate|].
  split.
  { constructor.
    - intros m m' I I' Q _. cbn in I, I'. pose proof (sba_name Q) as N. clear Q.
      destruct I as [<-|[<-|[<-|[<-|[<-|[<-|[<-|[<-|[]]]]]]]]];
        destruct I' as [<-|[<-|[<-|[<-|[<-|[<-|[<-|[<-|[]]]]]]]]]; try discriminate N; clear N;
        first [apply Props49.halves_rel; apply hasty_same|apply at_once_rel; apply hasty_same].
    - intros m m' I I' Q K. cbn in I, I'. pose proof (sba_name Q) as N. clear Q.
      destruct I as [<-|[<-|[<-|[<-|[<-|[<-|[<-|[<-|[]]]]]]]]]; vm_compute in K; try discriminate K; clear K;
        destruct I' as [<-|[<-|[<-|[<-|[<-|[<-|[<-|[<-|[]]]]]]]]]; try discriminate N; clear N;
        first [apply Props49.halves_rel; reflexivity|apply at_once_rel; reflexivity].
    - intros; apply Props49.halves_rel; reflexivity.
    - intros; apply Props49.halves_rel; reflexivity.
    - vm_compute. split; reflexivity. }
  split. { intros f l _ _. split; discriminate. }
  split. { intros f l _ _. split; discriminate. }
  vm_compute. reflexivity.
Qed.
