(** Props45.v — C96: `#[state_machine]` on impl blocks with `async fn`s, poll by poll. *)

From Coq Require Import String List Bool Arith Lia.
From Verif Require Import MacroSyntax MacroLower MacroGen MacroSem MacroSpec MacroExamples MacroPoll MacroPollSpec.
From Verif Require Import Machine Api Spec Poll PaceSpec SuperSpec.
From Verif Require MacroMachineProofs MacroBehaviour MacroPathProofs MacroPollProofs Props6 Props7 Props36.
Import ListNotations.
Open Scope string_scope.
Open Scope list_scope.

(** *** C96 *)

(** If the `async fn`s and hooks compute, in however many polls, what [B] says, then every call
    that completes does what the generated machine does with the functions of [B]. *)
Theorem C96_schedule :
  forall (World : Type) (o : orders) (args : list meta) (item : item_impl) (g : generated)
         (Val Sh Ev Cx : Type) (B : bodies Val Sh Ev Cx g) (FB : async_bodies World Val Sh Ev Cx g)
         (stack : nat) (e : Ev) (w : World) (ws : list World)
         (sm sm1 : state_machine (generated_machine B)) (cx cx1 : Cx)
         (out : outcome unit) (tr : list (obs (generated_machine B))) (unused : World * list World),
    expand o args item = Done g -> compiles g -> g_mode g = MAwaitable ->
    async_computes item B FB -> sync_not_cancelled item B ->
    (drive (a_handle_with_context (generated_futures B FB) stack e) w ws (sm, cx) = (Some out, (sm1, cx1), tr, unused) ->
     @handle_with_context (generated_machine B) stack AwaitableMode sm e cx = @ApiRes (generated_machine B) _ out sm1 cx1 tr) /\
    (drive (a_init_with_context (generated_futures B FB) stack) w ws (sm, cx) = (Some out, (sm1, cx1), tr, unused) ->
     @init_with_context (generated_machine B) stack AwaitableMode sm cx = @ApiRes (generated_machine B) _ out sm1 cx1 tr).
Proof.
  intros World o args item g Val Sh Ev Cx B FB stack e w ws sm sm1 cx cx1 out tr unused E CO Md AC NC.
  destruct (MacroBehaviour.expand_compiles o args item E CO) as [ND _].
  apply Props6.C40_schedule_does_not_matter.
  exact (@MacroPollProofs.generated_implements World Val Sh Ev Cx g B FB o args item E ND Md AC NC).
Qed.
Print Assumptions C96_schedule.

(** Polled with [w :: ws], a handler or action calls the method declared for it, with what its
    parameters name, and what that method has written is where it belongs, whether it is ready,
    has panicked or is dropped now. *)
Theorem C96_arguments :
  forall (World : Type) (o : orders) (args : list meta) (item : item_impl) (g : generated)
         (Val Sh Ev Cx : Type) (B : bodies Val Sh Ev Cx g) (FB : async_bodies World Val Sh Ev Cx g)
         (m : impl_fn) (w : World) (ws : list World) (unused : World * list World)
         (sh sh' : Sh) (cx cx' : Cx),
    expand o args item = Done g -> compiles g -> hygienic item g -> sync_not_cancelled item B ->
    In m (methods item) ->
    let F := generated_futures B FB in
    let body args := if m_async m
                     then let '(ans, args', _) := udrive (fb_handler FB (m_name m)) w ws args in (reply_of ans, args')
                     else b_handler B (m_name m) args in
    (marked "state" m = true ->
     forall (x x' : value Val (g_state_variants g)), tag x = variant_of m ->
     (forall (e : Ev) ans, udrive (f_s_handler F e) w ws (x, sh, cx) = (ans, (x', sh', cx'), unused) ->
        tag x' = tag x /\
        calls_by_name (g_event_ident g) (g_context_ident g) (m_inputs m) body (Some e)
          (get_field x) sh cx (reply_of ans) (get_field x') sh' cx') /\
     (forall ans, udrive (f_s_entry F) w ws (x, sh, cx) = (ans, (x', sh', cx'), unused) ->
        action_runs item (polled_bodies item B FB w ws) (declared "state" "entry_action" m) x x' sh sh' cx cx' (reply_of ans)) /\
     (forall ans, udrive (f_s_exit F) w ws (x, sh, cx) = (ans, (x', sh', cx'), unused) ->
        action_runs item (polled_bodies item B FB w ws) (declared "state" "exit_action" m) x x' sh sh' cx cx' (reply_of ans))) /\
    (marked "superstate" m = true ->
     forall (u u' : value Val (g_super_variants g)), tag u = variant_of m ->
     (forall (e : Ev) ans, udrive (f_u_handler F e) w ws (u, sh, cx) = (ans, (u', sh', cx'), unused) ->
        tag u' = tag u /\
        calls_by_name (g_event_ident g) (g_context_ident g) (m_inputs m) body (Some e)
          (get_field u) sh cx (reply_of ans) (get_field u') sh' cx') /\
     (forall ans, udrive (f_u_entry F) w ws (u, sh, cx) = (ans, (u', sh', cx'), unused) ->
        action_runs item (polled_bodies item B FB w ws) (declared "superstate" "entry_action" m) u u' sh sh' cx cx' (reply_of ans)) /\
     (forall ans, udrive (f_u_exit F) w ws (u, sh, cx) = (ans, (u', sh', cx'), unused) ->
        action_runs item (polled_bodies item B FB w ws) (declared "superstate" "exit_action" m) u u' sh sh' cx cx' (reply_of ans))).
Proof.
  intros World o args item g Val Sh Ev Cx B FB m w ws unused sh sh' cx cx' E CO HY NC Im F body.
  destruct (MacroBehaviour.expand_compiles o args item E CO) as [ND _].
  destruct (@MacroPollProofs.generated_polled World Val Sh Ev Cx g B FB o args item E ND NC w ws sh cx)
    as (P1 & P2 & P3 & P4 & P5 & P6).
  assert (Eb : forall l, b_handler (polled_bodies item B FB w ws) (m_name m) l = body l).
  { intros l. unfold body, polled_bodies, polled_body. cbn [b_handler].
    now rewrite (@MacroPollProofs.is_async_method item ND m Im). }
  assert (Ec : forall e (fs fs' : ident -> option Val) r,
    calls_by_name (g_event_ident g) (g_context_ident g) (m_inputs m)
      (b_handler (polled_bodies item B FB w ws) (m_name m)) (Some e) fs sh cx r fs' sh' cx' ->
    calls_by_name (g_event_ident g) (g_context_ident g) (m_inputs m) body (Some e) fs sh cx r fs' sh' cx').
  { intros e fs fs' r (l & l' & D & Hb & W). exists l, l'. rewrite <- Eb. auto. }
  destruct (@Props7.C29_handlers o args item g Val Sh Ev Cx (polled_bodies item B FB w ws) m E CO HY Im) as [H1 H2].
  destruct (@Props7.C29_actions o args item g Val Sh Ev Cx (polled_bodies item B FB w ws) m E CO HY Im) as [A1 A2].
  split; intros K x x' T; (split; [|split]).
  - intros e ans Hd. pose proof (eq_ind _ (fun r => let '(o, (y, sh1, cx1), l) := r in
      s_handler (generated_machine (polled_bodies item B FB w ws)) x sh cx e = (reply_of o, y, sh1, cx1)) (P1 e x) _ Hd) as Q.
    destruct (H1 K x x' sh sh' cx cx' e _ T Q) as [Ht Hc]. split; [exact Ht|exact (Ec _ _ _ _ Hc)].
  - intros ans Hd. pose proof (eq_ind _ (fun r => let '(o, (y, sh1, cx1), l) := r in
      s_entry (generated_machine (polled_bodies item B FB w ws)) x sh cx = (reply_of o, y, sh1, cx1)) (P2 x) _ Hd) as Q.
    exact (proj1 (A1 K x x' sh sh' cx cx' _ T) Q).
  - intros ans Hd. pose proof (eq_ind _ (fun r => let '(o, (y, sh1, cx1), l) := r in
      s_exit (generated_machine (polled_bodies item B FB w ws)) x sh cx = (reply_of o, y, sh1, cx1)) (P3 x) _ Hd) as Q.
    exact (proj2 (A1 K x x' sh sh' cx cx' _ T) Q).
  - intros e ans Hd. pose proof (eq_ind _ (fun r => let '(o, (y, sh1, cx1), l) := r in
      u_handler (generated_machine (polled_bodies item B FB w ws)) x sh cx e = (reply_of o, y, sh1, cx1)) (P4 e x) _ Hd) as Q.
    destruct (H2 K x x' sh sh' cx cx' e _ T Q) as [Ht Hc]. split; [exact Ht|exact (Ec _ _ _ _ Hc)].
  - intros ans Hd. pose proof (eq_ind _ (fun r => let '(o, (y, sh1, cx1), l) := r in
      u_entry (generated_machine (polled_bodies item B FB w ws)) x sh cx = (reply_of o, y, sh1, cx1)) (P5 x) _ Hd) as Q.
    exact (proj1 (A2 K x x' sh sh' cx cx' _ T) Q).
  - intros ans Hd. pose proof (eq_ind _ (fun r => let '(o, (y, sh1, cx1), l) := r in
      u_exit (generated_machine (polled_bodies item B FB w ws)) x sh cx = (reply_of o, y, sh1, cx1)) (P6 x) _ Hd) as Q.
    exact (proj2 (A2 K x x' sh sh' cx cx' _ T) Q).
Qed.
Print Assumptions C96_arguments.

(** A call that is dropped leaves the machine in a state of the variant it was in, or, if an
    entry action or `after_transition` had been called, of the variant of the target. *)
Theorem C96_dropped :
  forall (World : Type) (o : orders) (args : list meta) (item : item_impl) (g : generated)
         (Val Sh Ev Cx : Type) (B : bodies Val Sh Ev Cx g) (FB : async_bodies World Val Sh Ev Cx g)
         (stack : nat) (e : Ev) (w : World) (ws : list World)
         (sm sm1 : state_machine (generated_machine B)) (cx cx1 : Cx)
         (tr : list (obs (generated_machine B))) (unused : World * list World),
    expand o args item = Done g -> compiles g -> acyclic item ->
    1 <= stack -> length (filter (marked "superstate") (methods item)) <= stack ->
    initialized sm = true ->
    drive (a_handle_with_context (generated_futures B FB) stack e) w ws (sm, cx) = (None, (sm1, cx1), tr, unused) ->
    initialized sm1 = true /\
    exists t last, tr = t ++ [last] /\
      match last with
      | OEnter _ | OAfterTransition _ _ =>
          exists p target, @asks_for (generated_machine B) tr p e target /\ tag (sm_state sm1) = tag target
      | _ => tag (sm_state sm1) = tag (sm_state sm)
      end.
Proof.
  intros World o args item g Val Sh Ev Cx B FB stack e w ws sm sm1 cx cx1 tr unused E CO AC S1 S2 Hi Hd.
  destruct (@Props7.C31_well_formed o args item g Val Sh Ev Cx B stack E CO AC S1 S2) as (h & W & _).
  destruct (@Props6.C41_dropped_state World h (generated_machine B) stack (generated_futures B FB) e w ws sm sm1 cx cx1 tr unused
              W (MacroPollProofs.generated_variant_safe B FB) Hi Hd) as (H1 & (t & last & Ht & Hl) & _).
  split; [exact H1|]. exists t, last. split; [exact Ht|].
  destruct last; try (apply MacroMachineProofs.discriminant_tag; exact Hl).
  all: destruct Hl as (p & target & Ha & Hs); exists p, target; split; [exact Ha|];
    apply MacroMachineProofs.discriminant_tag; exact Hs.
Qed.
Print Assumptions C96_dropped.

(** If each `async fn` and each hook is pending at most [k] times, every call completes within
    a number of polls bounded by [k] and the number of superstates; methods that are not
    `async` never make it wait. *)
Theorem C96_completes :
  forall (World : Type) (o : orders) (args : list meta) (item : item_impl) (g : generated)
         (Val Sh Ev Cx : Type) (B : bodies Val Sh Ev Cx g) (FB : async_bodies World Val Sh Ev Cx g)
         (k stack : nat) (e : Ev) (w : World) (ws : list World)
         (sm : state_machine (generated_machine B)) (cx : Cx),
    expand o args item = Done g -> compiles g -> g_mode g = MAwaitable -> acyclic item ->
    1 <= stack -> length (filter (marked "superstate") (methods item)) <= stack ->
    async_paced item FB k ->
    k * (6 * (stack + 1) + 2) <= length ws ->
    exists out sm1 cx1 tr unused,
      drive (a_handle_with_context (generated_futures B FB) stack e) w ws (sm, cx) = (Some out, (sm1, cx1), tr, unused).
Proof.
  intros World o args item g Val Sh Ev Cx B FB k stack e w ws sm cx E CO Md AC S1 S2 AP L.
  destruct (MacroBehaviour.expand_compiles o args item E CO) as [ND _].
  destruct (@Props7.C31_well_formed o args item g Val Sh Ev Cx B stack E CO AC S1 S2) as (h & W & V).
  destruct (@Props36.C87_completes World h (generated_machine B) (generated_futures B FB) k stack e w ws sm cx W)
    as (out & sm1 & cx1 & tr & w' & rest & Hd & _).
  - destruct V. constructor; assumption.
  - exact (@MacroPollProofs.generated_paced World Val Sh Ev Cx g B FB o args item E ND Md k AP).
  - exact L.
  - eauto 6.
Qed.
Print Assumptions C96_completes.

(** [blinky] with three `async fn`s, each of which does half of its work, waits, and does the
    other half. *)
Definition async_fn (m : impl_fn) : impl_fn :=
  ImplFn (m_attrs m) (m_name m) (m_generics m) true (m_inputs m).
Definition slow_blinky : item_impl :=
  impl_of [async_fn led_on; led_off; not_blinking; async_fn blinking; top; async_fn enter_led_on; leave; async_fn log].
Definition slow_code : generated := Eval vm_compute in output (expand all_forward blinky_args slow_blinky).
Definition slow_state : value nat (g_state_variants slow_code).
Proof. refine (Value (g_state_variants slow_code) "LedOn" [0; 0] _). vm_compute. reflexivity. Defined.
Definition slow_answer (f : ident) : response (value nat (g_state_variants slow_code)) :=
  if (f =? "top")%string then Transition (a_value slow_code "NotBlinking" [7] slow_state) else Super.
Definition slow_bodies : bodies nat nat nat nat slow_code := {|
  b_handler := fun f args => (Returns (slow_answer f), map bump (map bump args));
  b_action := fun f args => (Returns tt, map bump (map bump args));
  b_dispatch_hook := fun p sh n e => (Returns tt, sh);
  b_transition_hook := fun p sh a b => (Returns tt, 1000 + sh);
  b_async := fun p => false;
  b_initial := fun e => slow_state
|}.
Definition halves {S A : Type} (half : S -> S) (a : A) : ufut unit S A :=
  UFut (fun _ s => @UPending S A (ufut unit S A) (half s)
                     (UFut (fun _ s => @UReady S A (ufut unit S A) (Some a) (half s)))).
Definition slow_futures : async_bodies unit nat nat nat nat slow_code :=
  @AsyncBodies unit nat nat nat nat slow_code
    (fun f => halves (map bump) (slow_answer f)) (fun f => halves (map bump) tt)
    (fun p n e => halves (fun sh => sh) tt) (fun p a b => halves (fun sh => 500 + sh) tt).
Lemma slow_acyclic : acyclic slow_blinky.
Proof.
  exists (fun i => if (i =? "top")%string then 1 else 0).
  intros m u I K D. cbn in I.
  repeat (destruct I as [<-|I]; [vm_compute in K; try discriminate; vm_compute in D; try discriminate;
                                  injection D as <-; vm_compute; lia|]).
  destruct I.
Qed.

Example C96_case :
  expand all_forward blinky_args slow_blinky = Done slow_code /\ compiles slow_code /\
  g_mode slow_code = MAwaitable /\ hygienic slow_blinky slow_code /\ acyclic slow_blinky /\
  length (filter (marked "superstate") (methods slow_blinky)) <= 2 /\
  async_computes slow_blinky slow_bodies slow_futures /\ sync_not_cancelled slow_blinky slow_bodies /\
  async_paced slow_blinky slow_futures 1 /\
  let sm : state_machine (generated_machine slow_bodies) :=
    StateMachine (@Inner (generated_machine slow_bodies) 0 slow_state) true in
  let r n := drive (a_handle_with_context (generated_futures slow_bodies slow_futures) 2 5) tt (repeat tt n) (sm, 0) in
  (let '(o, (sm1, _), _, _) := r 0 in o = None /\ vals (sm_state sm1) = [10; 10] /\ sm_shared sm1 = 1) /\
  (let '(o, (sm1, _), _, _) := r 1 in o = None /\ vals (sm_state sm1) = [30; 20] /\ sm_shared sm1 = 3) /\
  (let '(o, (sm1, _), _, _) := r 3 in
   o = Some (Ret tt) /\ tag (sm_state sm1) = "NotBlinking" /\ sm_shared sm1 = 1004).
Proof.
  split; [vm_compute; reflexivity|]. split; [apply compilesb_ok; vm_compute; reflexivity|].
  split; [reflexivity|]. split; [apply hygienicb_ok; vm_compute; reflexivity|].
  split; [exact slow_acyclic|]. split; [vm_compute; lia|].
  split. { constructor; intros; intros w ws s; destruct ws as [|? ws]; try exact I; destruct ws; reflexivity. }
  split. { intros f l _ _. split; discriminate. }
  split. { constructor; intros; intros w; cbn; intros w'; reflexivity. }
  vm_compute. repeat split.
Qed.
