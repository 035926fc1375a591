(** Props46.v — C97: which functions of an impl block are `async`. *)

From Coq Require Import String List Bool Arith Lia.
From Verif Require Import MacroSyntax MacroLower MacroGen MacroSem MacroSpec MacroAcceptSpec MacroScopeSpec MacroExamples MacroPoll MacroPollSpec.
From Verif Require Import Machine Api Spec Sim AgreeSpec AddSpec AsyncSpec Poll.
From Verif Require MacroBehaviour RenameMake AddProofs AsyncProofs HistoryProofs DataProofs.
From Verif Require Props4 Props7 Props11 Props16 Props30 Props45.
Import ListNotations.
Open Scope string_scope.
Open Scope list_scope.

(** *** C97 *)

(** Whether an impl block is accepted by the macro and the compiler does not depend on it. *)
Theorem C97_accepted :
  forall (o o' : orders) (args : list meta) (item item' : item_impl),
    ordinary item -> other_async item item' ->
    ((exists g, expand o args item = Done g /\ compiles g) <->
     (exists g', expand o' args item' = Done g' /\ compiles g')).
Proof.
  assert (H : forall o o' args item item', ordinary item -> other_async item item' ->
    (exists g, expand o args item = Done g /\ compiles g) -> (exists g', expand o' args item' = Done g' /\ compiles g')).
  { intros o o' args item item' O OA (g & E & CO).
    assert (A : accepted args item) by (apply (Props11.C48_accepted o args item O); eauto).
    apply (Props16.C67_checked o args item g E) in CO.
    destruct (proj2 (Props11.C48_accepted o' args item' (@AsyncProofs.ordinary_new item item' OA O))
                    (@AsyncProofs.accepted_new item item' OA args A)) as [g' E'].
    exists g'. split; [exact E'|]. apply (Props16.C67_checked o' args item' g' E').
    exact (@AsyncProofs.scoped_new item item' OA _ _ CO). }
  intros o o' args item item' O OA. split; apply H; auto.
  - exact (@AsyncProofs.ordinary_new item item' OA O).
  - exact (AsyncProofs.other_async_sym OA).
Qed.
Print Assumptions C97_accepted.

(** The same functions can be written for both. *)
Theorem C97_bodies_exist :
  forall (o o' : orders) (args : list meta) (item item' : item_impl) (g g' : generated)
         (Val Sh Ev Cx : Type) (B : bodies Val Sh Ev Cx g),
    other_async item item' ->
    expand o args item = Done g -> compiles g -> expand o' args item' = Done g' -> compiles g' ->
    g_mode g' = g_mode g \/ no_hooks args ->
    exists B' : bodies Val Sh Ev Cx g', same_bodies item B B'.
Proof.
  intros o o' args item item' g g' Val Sh Ev Cx B OA E CO E' CO' H.
  destruct (MacroBehaviour.expand_compiles o args item E CO) as (ND & c & sms & ums & X).
  destruct (MacroBehaviour.expand_compiles o' args item' E' CO') as (ND' & c' & sms' & ums' & X').
  pose proof (@AsyncProofs.settings_same args item item' g g' c c' sms ums sms' ums' X X' H) as SS.
  destruct OA as (_ & _ & F).
  destruct (@RenameMake.bodies_exist AddProofs.same AddProofs.same AddProofs.same_proper args args item item' g g' c c' sms ums sms' ums'
              X X' CO CO' ND' (@AsyncProofs.as_renamed args item item' g c sms ums X F)
              (@AsyncProofs.settings_renamed g g' SS) Val Sh Ev Cx B) as [B' RB].
  exists B'. exact (proj1 (@AsyncProofs.bodies_iff args item item' g g' c sms ums X F Val Sh Ev Cx B B') RB).
Qed.
Print Assumptions C97_bodies_exist.

(** If both machines are awaitable, or both blocking, they cannot be told apart. *)
Theorem C97_same_mode :
  forall (o o' : orders) (args : list meta) (item item' : item_impl) (g g' : generated)
         (Val Sh Ev Cx : Type) (B : bodies Val Sh Ev Cx g) (B' : bodies Val Sh Ev Cx g'),
    other_async item item' ->
    expand o args item = Done g -> compiles g -> expand o' args item' = Done g' -> compiles g' ->
    g_mode g' = g_mode g -> same_bodies item B B' ->
    let R := same_relations B B' in
    forall (stack : nat) (md : mode) ops ops' (sm : state_machine (generated_machine B))
           (sm' : state_machine (generated_machine B')) cs cs' sm1 sm1',
      Forall2 (op_rel R) ops ops' -> machine_rel R sm sm' ->
      history stack md ops sm cs sm1 -> history stack md ops' sm' cs' sm1' ->
      machine_rel R sm1 sm1' /\ Forall2 (called_rel R) cs cs'.
Proof.
  intros o o' args item item' g g' Val Sh Ev Cx B B' OA E CO E' CO' Md SB R stack md ops ops' sm sm' cs cs' sm1 sm1' F M H H'.
  destruct (MacroBehaviour.expand_compiles o args item E CO) as (ND & c & sms & ums & X).
  destruct (MacroBehaviour.expand_compiles o' args item' E' CO') as (ND' & c' & sms' & ums' & X').
  pose proof (@AsyncProofs.settings_same args item item' g g' c c' sms ums sms' ums' X X' (or_introl Md)) as SS.
  destruct OA as (_ & _ & OA).
  exact (Props30.C81_lockstep _ _ R stack md ops ops' sm sm' cs cs' sm1 sm1'
           (@AsyncProofs.async_similar args args item item' g g' c c' sms ums sms' ums' X X' CO CO' ND' OA SS Val Sh Ev Cx B B' SB) F M H H').
Qed.
Print Assumptions C97_same_mode.

(** Without hooks it does not matter even whether the macro generates a blocking or an awaitable
    machine: each in its own mode, they give the same outcomes and contexts and make the same
    calls, and their states and storage stay the same. *)
Theorem C97_modes :
  forall (o o' : orders) (args : list meta) (item item' : item_impl) (g g' : generated)
         (Val Sh Ev Cx : Type) (B : bodies Val Sh Ev Cx g) (B' : bodies Val Sh Ev Cx g'),
    other_async item item' ->
    expand o args item = Done g -> compiles g -> expand o' args item' = Done g' -> compiles g' ->
    no_hooks args -> same_bodies item B B' -> acyclic item ->
    let R := same_relations B B' in
    forall (stack : nat) ops ops' (sm : state_machine (generated_machine B))
           (sm' : state_machine (generated_machine B')) cs cs' sm1 sm1',
      1 <= stack -> length (filter (marked "superstate") (methods item)) <= stack ->
      Forall2 (op_rel R) ops ops' -> machine_rel R sm sm' ->
      history stack (mode_of g) ops sm cs sm1 -> history stack (mode_of g') ops' sm' cs' sm1' ->
      machine_rel R sm1 sm1' /\
      Forall2 (fun (k : called (generated_machine B)) (k' : called (generated_machine B')) =>
                 c_out k = c_out k' /\ c_cx k = c_cx k' /\
                           Forall2 (obs_rel R) (unhooked (c_tr k)) (unhooked (c_tr k'))) cs cs'.
Proof.
  intros o o' args item item' g g' Val Sh Ev Cx B B' OA E CO E' CO' NH SB AC R stack ops ops' sm sm' cs cs' sm1 sm1' S1 S2 F M H H'.
  destruct (MacroBehaviour.expand_compiles o args item E CO) as (ND & c & sms & ums & X).
  destruct (MacroBehaviour.expand_compiles o' args item' E' CO') as (ND' & c' & sms' & ums' & X').
  pose proof (@AsyncProofs.settings_same args item item' g g' c c' sms ums sms' ums' X X' (or_intror NH)) as SS.
  pose proof (proj2 (proj2 OA)) as OF.
  pose proof (@AsyncProofs.async_similar args args item item' g g' c c' sms ums sms' ums' X X' CO CO' ND' OF SS Val Sh Ev Cx B B' SB) as SI.
  destruct (@Props7.C31_well_formed o args item g Val Sh Ev Cx B stack E CO AC S1 S2) as (h & W & V).
  pose proof (@AsyncProofs.no_hooks_quiet args item g c sms ums X Val Sh Ev Cx B NH) as Q.
  (* the first machine in the mode of the second *)
  pose proof (HistoryProofs.exec_all_history stack (mode_of g') ops sm) as H0.
  set (cs0 := fst (exec_all stack (mode_of g') ops sm)) in H0.
  set (sm0 := snd (exec_all stack (mode_of g') ops sm)) in H0.
  destruct (Props30.C81_lockstep _ _ R stack (mode_of g') ops ops' sm sm' cs0 cs' sm0 sm1' SI F M H0 H') as [M1 C1].
  assert (A : sm1 = sm0 /\ Forall2 (fun k k' => c_out k = c_out k' /\ c_cx k = c_cx k' /\ unhooked (c_tr k) = unhooked (c_tr k')) cs cs0).
  { revert H H0. unfold mode_of. destruct (g_mode g), (g_mode g'); intros H H0.
    - destruct (AsyncProofs.history_fun H H0) as [-> ->]. split; [reflexivity|]. clear. induction cs0; constructor; auto.
    - exact (Props4.C15_modes_agree h _ stack ops sm cs cs0 sm1 sm0 W V Q H H0).
    - destruct (Props4.C15_modes_agree h _ stack ops sm cs0 cs sm0 sm1 W V Q H0 H) as [-> G]. split; [reflexivity|].
      clear - G. induction G as [|k k' l l' (P1 & P2 & P3) G IH]; constructor; auto.
    - destruct (AsyncProofs.history_fun H H0) as [-> ->]. split; [reflexivity|]. clear. induction cs0; constructor; auto. }
  destruct A as [-> A]. split; [exact M1|].
  clear - A C1. revert cs' C1. induction A as [|k k0 l l0 (P1 & P2 & P3) A IH]; intros cs' C1.
  - inversion C1; subst. constructor.
  - inversion C1 as [|? k' ? l' (Q1 & Q2 & Q3) C2]; subst. constructor; [|apply IH; exact C2].
    split; [congruence|]. split.
    + rewrite P2. inversion Q2 as [|a b Q]; [reflexivity|]. cbn in Q. now rewrite Q.
    + rewrite P3. exact (AsyncProofs.unhooked_rel Q3).
Qed.
Print Assumptions C97_modes.

(** And polled: a call of the awaitable machine that completes, after however many polls, does
    what the same call of the blocking machine does at once. *)
Theorem C97_polled :
  forall (World : Type) (o o' : orders) (args : list meta) (item item' : item_impl) (g g' : generated)
         (Val Sh Ev Cx : Type) (B : bodies Val Sh Ev Cx g) (B' : bodies Val Sh Ev Cx g')
         (FB : async_bodies World Val Sh Ev Cx g),
    other_async item item' ->
    expand o args item = Done g -> compiles g -> expand o' args item' = Done g' -> compiles g' ->
    no_hooks args -> same_bodies item B B' -> acyclic item ->
    g_mode g = MAwaitable -> g_mode g' = MBlocking ->
    async_computes item B FB -> sync_not_cancelled item B ->
    let R := same_relations B B' in
    forall (stack : nat) (e : Ev) (w : World) (ws : list World) (sm sm1 : state_machine (generated_machine B))
           (sm' : state_machine (generated_machine B')) (cx cx1 : Cx) (out : outcome unit)
           (tr : list (obs (generated_machine B))) (unused : World * list World),
      1 <= stack -> length (filter (marked "superstate") (methods item)) <= stack ->
      machine_rel R sm sm' ->
      drive (a_handle_with_context (generated_futures B FB) stack e) w ws (sm, cx) = (Some out, (sm1, cx1), tr, unused) ->
      let r := @handle_with_context (generated_machine B') stack BlockingMode sm' e cx in
      a_out r = out /\ machine_rel R sm1 (a_machine r) /\ a_cx r = cx1 /\
      Forall2 (obs_rel R) (unhooked tr) (unhooked (a_tr r)).
Proof.
  intros World o o' args item item' g g' Val Sh Ev Cx B B' FB OA E CO E' CO' NH SB AC Md Md' CP NC R
         stack e w ws sm sm1 sm' cx cx1 out tr unused S1 S2 M Hd.
  destruct (Props45.C96_schedule World o args item g Val Sh Ev Cx B FB stack e w ws sm sm1 cx cx1 out tr unused E CO Md CP NC) as [P _].
  specialize (P Hd).
  assert (H : history stack (mode_of g) [OpHandle (m := generated_machine B) e cx] sm [@Called (generated_machine B) out (Some cx1) tr] sm1).
  { eapply history_cons; [|constructor]. unfold mode_of. rewrite Md. cbn [exec].
    change (let r := @handle_with_context (generated_machine B) stack AwaitableMode sm e cx in
            (a_out r, a_machine r, Some (a_cx r), a_tr r) = (out, sm1, Some cx1, tr)). rewrite P. reflexivity. }
  set (r := @handle_with_context (generated_machine B') stack BlockingMode sm' e cx).
  assert (H' : history stack (mode_of g') [OpHandle (m := generated_machine B') e cx] sm'
                 [@Called (generated_machine B') (a_out r) (Some (a_cx r)) (a_tr r)] (a_machine r)).
  { eapply history_cons; [|constructor]. unfold mode_of. rewrite Md'. reflexivity. }
  assert (F : Forall2 (op_rel R) [OpHandle (m := generated_machine B) e cx] [OpHandle (m := generated_machine B') e cx]).
  { constructor; [|constructor]. constructor; reflexivity. }
  destruct (C97_modes o o' args item item' g g' Val Sh Ev Cx B B' OA E CO E' CO' NH SB AC stack _ _ sm sm' _ _ sm1 (a_machine r)
              S1 S2 F M H H') as [M1 C1].
  inversion C1 as [|? ? ? ? (Q1 & Q2 & Q3) _]; subst. cbn in Q1, Q2, Q3.
  split; [now symmetry|]. split; [exact M1|]. split; [|exact Q3]. now injection Q2.
Qed.
Print Assumptions C97_polled.

(** [blinky] without its hook, and with two functions made `async`: the one is blocking, the
    other awaitable. *)
Definition async_blinky : item_impl :=
  impl_of [Props45.async_fn led_on; led_off; not_blinking; blinking; top; Props45.async_fn enter_led_on; leave; log].
Definition unhooked_args : list meta := [set_to "initial" "State::led_on(0)"].
Definition code_of (item : item_impl) : generated := output (expand all_forward unhooked_args item).
Definition async_code : generated := Eval vm_compute in code_of async_blinky.
Definition async_state : value nat (g_state_variants async_code).
Proof. refine (Value (g_state_variants async_code) "LedOn" [0; 0] _). vm_compute. reflexivity. Defined.
Definition async_answer (f : ident) : response (value nat (g_state_variants async_code)) :=
  if (f =? "top")%string then Transition (a_value async_code "NotBlinking" [7] async_state) else Super.
Definition the_bodies : bodies nat nat nat nat async_code := {|
  b_handler := fun f args => (Returns (async_answer f), map bump (map bump args));
  b_action := fun f args => (Returns tt, map bump (map bump args));
  b_dispatch_hook := fun p sh n e => (Returns tt, sh);
  b_transition_hook := fun p sh a b => (Returns tt, sh);
  b_async := fun p => false;
  b_initial := fun e => async_state
|}.
Definition the_futures : MacroPoll.async_bodies unit nat nat nat nat async_code :=
  @AsyncBodies unit nat nat nat nat async_code
    (fun f => Props45.halves (map bump) (async_answer f)) (fun f => Props45.halves (map bump) tt)
    (fun p n e => Props45.halves (fun sh => sh) tt) (fun p a b => Props45.halves (fun sh => sh) tt).
Example C97_case :
  other_async async_blinky blinky /\ ordinary async_blinky /\ no_hooks unhooked_args /\ acyclic async_blinky /\
  expand all_forward unhooked_args async_blinky = Done (code_of async_blinky) /\ compiles (code_of async_blinky) /\
  expand all_forward unhooked_args blinky = Done (code_of blinky) /\ compiles (code_of blinky) /\
  g_mode (code_of async_blinky) = MAwaitable /\ g_mode (code_of blinky) = MBlocking /\
  forall (B : bodies nat nat nat nat (code_of async_blinky)),
    exists B' : bodies nat nat nat nat (code_of blinky), same_bodies async_blinky B B'.
Proof.
  assert (OA : other_async async_blinky blinky).
  { split; [reflexivity|]. split; [reflexivity|]. repeat (constructor; [constructor; reflexivity|]). constructor. }
  assert (E : expand all_forward unhooked_args async_blinky = Done (code_of async_blinky)) by (vm_compute; reflexivity).
  assert (E' : expand all_forward unhooked_args blinky = Done (code_of blinky)) by (vm_compute; reflexivity).
  assert (CO : compiles (code_of async_blinky)) by (apply compilesb_ok; vm_compute; reflexivity).
  assert (CO' : compiles (code_of blinky)) by (apply compilesb_ok; vm_compute; reflexivity).
  assert (NH : no_hooks unhooked_args) by (repeat split; vm_compute; reflexivity).
  split; [exact OA|]. split; [apply Props11.ordinaryb_ok; vm_compute; reflexivity|]. split; [exact NH|].
  split; [|repeat (split; [first [exact E|exact CO|exact E'|exact CO'|vm_compute; reflexivity]|])].
  - apply (@AsyncProofs.acyclic_new Props45.slow_blinky); [|exact Props45.slow_acyclic].
    split; [reflexivity|]. split; [reflexivity|]. repeat (constructor; [constructor; reflexivity|]). constructor.
  - intros B. exact (C97_bodies_exist all_forward all_forward unhooked_args async_blinky blinky _ _ nat nat nat nat B
                       OA E CO E' CO' (or_intror NH)).
Qed.
Example C97_polled_case :
  async_computes async_blinky the_bodies the_futures /\ sync_not_cancelled async_blinky the_bodies /\
  let sm : state_machine (generated_machine the_bodies) :=
    StateMachine (@Inner (generated_machine the_bodies) 0 async_state) true in
  let r n := drive (a_handle_with_context (generated_futures the_bodies the_futures) 2 5) tt (repeat tt n) (sm, 0) in
  (let '(o, (sm1, _), _, _) := r 0 in o = None /\ vals (sm_state sm1) = [10; 10]) /\
  (let '(o, (sm1, _), _, _) := r 1 in o = Some (Ret tt) /\ tag (sm_state sm1) = "NotBlinking" /\ vals (sm_state sm1) = [7]).
Proof.
  split. { constructor; intros; intros w ws s; destruct ws as [|? ws]; try exact I; destruct ws; reflexivity. }
  split. { intros f l _ _. split; discriminate. }
  vm_compute. repeat split.
Qed.
