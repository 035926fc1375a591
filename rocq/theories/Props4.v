(** Props4.v — C15 to C17, C22, C27, C43.  Theorems only. *)

From Coq Require Import List Bool Arith Lia.
From Verif Require Import Machine Api Spec Equality Sim Examples.
From Verif Require DataProofs TotalProofs MiscProofs HistoryProofs EqualityProofs.
Import ListNotations.

(** C15.  The same program of calls on a blocking and on an awaitable machine with the same
    callbacks.  [unhooked]: the log without the calls of the four hooks, i.e. all handlers
    and actions with their arguments and answers. *)
Theorem C15_modes_agree :
  forall (h : hierarchy) (m : machine) (stack : nat) (ops : list (op m)) (sm : state_machine m)
         (cs1 cs2 : list (called m)) (sm1 sm2 : state_machine m),
    well_formed h m stack -> faithful_views m -> quiet m ->
    history stack BlockingMode ops sm cs1 sm1 -> history stack AwaitableMode ops sm cs2 sm2 ->
    sm1 = sm2 /\
    Forall2 (fun c c' => c_out c = c_out c' /\ c_cx c = c_cx c' /\
                         unhooked (c_tr c) = unhooked (c_tr c')) cs1 cs2.
Proof.
  intros h m stack ops sm cs1 cs2 sm1 sm2 W V Q.
  exact (@DataProofs.history_same h m stack W V Q ops sm cs1 sm1 cs2 sm2).
Qed.
Print Assumptions C15_modes_agree.

Definition C15_ops b : list (op (demo b)) :=
  [OpHandle (m := demo b) Timer 0; OpHandle (m := demo b) Boom 0; OpHandle (m := demo b) Button 12;
   OpHandle (m := demo b) Button 0; OpHandle (m := demo b) Noop 0; OpHandle (m := demo b) Halt 0].

Example C15_case :
  well_formed demo_hierarchy (demo false) 2 /\ faithful_views (demo false) /\ quiet (demo false) /\
  map c_out (fst (exec_all 2 BlockingMode (C15_ops false) (fresh false))) =
  [Ret tt; Abort Panicked; Abort Panicked; Ret tt; Ret tt; Ret tt].
Proof.
  split; [apply demo_well_formed|]. split; [apply demo_views|]. split; [apply demo_quiet|].
  vm_compute. reflexivity.
Qed.

(** With hooks that do something the modes can differ: the order of the dispatch hooks of
    superstates and the arguments of `before_transition` differ (C11, C14). *)
Theorem C15_hooks_differ :
  exists (h : hierarchy) (m : machine) (stack : nat) (sm : state_machine m) (e : Event m)
         (cx : Ctx m),
    well_formed h m stack /\ faithful_views m /\ initialized sm = true /\
    let r := handle_with_context stack BlockingMode sm e cx in
    let r' := handle_with_context stack AwaitableMode sm e cx in
    a_out r = Ret tt /\ a_out r' = Ret tt /\
    sm_shared (a_machine r) <> sm_shared (a_machine r').
Proof.
  exists demo_hierarchy, (demo true), 2, (running true (On 3) []), Noop, 0.
  split; [apply demo_well_formed|]. split; [apply demo_views|].
  split; [reflexivity|]. split; [vm_compute; reflexivity|]. split; [vm_compute; reflexivity|].
  vm_compute. discriminate.
Qed.
Print Assumptions C15_hooks_differ.

(** C16.  No hypotheses at all: hierarchies may be cyclic or depend on data, callbacks may
    overwrite their node.  ([Underflow]: a subtraction in the library failed.) *)
Theorem C16_no_underflow :
  forall (m : machine) (stack : nat) (md : mode) (sm : state_machine m) (e : Event m) (cx : Ctx m),
    a_out (init_with_context stack md sm cx) <> Abort Underflow /\
    a_out (handle_with_context stack md sm e cx) <> Abort Underflow.
Proof.
  intros m stack md sm e cx.
  exact (conj (@TotalProofs.api_init_safe m stack md sm cx)
              (@TotalProofs.api_handle_safe m stack md sm e cx)).
Qed.
Print Assumptions C16_no_underflow.

Example C16_case :
  a_out (handle_with_context 2 BlockingMode (running true (On 3) []) Halt 0) = Ret tt.
Proof. vm_compute. reflexivity. Qed.

(** C17.  [stack] bounds the nesting of recursive library functions (twice that for
    `common_ancestor_depth`) and the iterations of loops.  With the height of the hierarchy
    as bound every call ends, by itself or by an abort in user code; a larger bound changes
    nothing.  The only other abort, [Diverges], is excluded. *)
Theorem C17_terminates :
  forall (h : hierarchy) (m : machine) (stack stack' : nat) (md : mode) (sm : state_machine m)
         (e : Event m) (cx : Ctx m),
    well_formed h m stack -> stack <= stack' ->
    (forall w, a_out (handle_with_context stack md sm e cx) = Abort w ->
               w = Panicked \/ w = DroppedFuture) /\
    (forall w, a_out (init_with_context stack md sm cx) = Abort w ->
               w = Panicked \/ w = DroppedFuture) /\
    handle_with_context stack' md sm e cx = handle_with_context stack md sm e cx /\
    init_with_context stack' md sm cx = init_with_context stack md sm cx.
Proof.
  intros h m stack stack' md sm e cx W L.
  exact (@TotalProofs.terminates h m stack stack' md sm e cx W L).
Qed.
Print Assumptions C17_terminates.

(** For any machine (no hypotheses): if a bound suffices, larger ones give the same. *)
Theorem C17_more_stack_same :
  forall (m : machine) (stack stack' : nat) (md : mode) (sm : state_machine m) (e : Event m)
         (cx : Ctx m),
    stack <= stack' ->
    a_out (handle_with_context stack md sm e cx) <> Abort Diverges ->
    handle_with_context stack' md sm e cx = handle_with_context stack md sm e cx.
Proof.
  intros m stack stack' md sm e cx.
  exact (@TotalProofs.api_handle_extends m stack stack' md sm e cx).
Qed.
Print Assumptions C17_more_stack_same.

(** The hypothesis is needed: on a cyclic hierarchy initialization does not end, whatever
    the bound. *)
Theorem C17_cyclic_diverges :
  forall (h : hierarchy) (m : machine) (stack : nat) (md : mode) (sm : state_machine m) (cx : Ctx m),
    follows h m -> initialized sm = false ->
    (forall l, ~ chain h (leaf_parent h (s_disc m (sm_state sm))) l) ->
    a_out (init_with_context stack md sm cx) = Abort Diverges.
Proof.
  intros h m stack md sm cx F. exact (@TotalProofs.cyclic_init_diverges h m F stack md sm cx).
Qed.
Print Assumptions C17_cyclic_diverges.

Example C17_case :
  well_formed demo_hierarchy (demo true) 2 /\
  a_out (handle_with_context 1 BlockingMode (running true (On 3) []) Halt 0) = Abort Diverges /\
  a_out (handle_with_context 2 BlockingMode (running true (On 3) []) Halt 0) = Ret tt.
Proof. split; [apply demo_well_formed|]. split; vm_compute; reflexivity. Qed.

(** C22.  For a context type with a single value, the context-free methods of all three
    machine types equal the general ones; likewise `step` for a single event value. *)
Theorem C22_unit_context :
  forall (m : machine) (stack : nat) (md : mode) (c0 : Ctx m) (sm : state_machine m)
         (im : initialized_machine m) (um : uninitialized_machine m) (e : Event m) (cx : Ctx m),
    (forall a b : Ctx m, a = b) ->
    init stack md c0 sm = init_with_context stack md sm cx /\
    handle stack md c0 sm e = handle_with_context stack md sm e cx /\
    im_handle stack md c0 im e = im_handle_with_context stack md im e cx /\
    um_init stack md c0 um = um_init_with_context stack md um cx.
Proof.
  intros m stack md c0 sm im um e cx H.
  exact (@MiscProofs.unit_context m stack md c0 sm im um e cx H).
Qed.
Print Assumptions C22_unit_context.

Theorem C22_unit_event :
  forall (m : machine) (stack : nat) (md : mode) (e0 : Event m) (sm : state_machine m)
         (im : initialized_machine m) (e : Event m) (cx : Ctx m),
    (forall a b : Event m, a = b) ->
    step_with_context stack md e0 sm cx = handle_with_context stack md sm e cx /\
    im_step_with_context stack md e0 im cx = im_handle_with_context stack md im e cx.
Proof.
  intros m stack md e0 sm im e cx H. exact (@MiscProofs.unit_event m stack md e0 sm im e cx H).
Qed.
Print Assumptions C22_unit_event.

Theorem C22_unit_both :
  forall (m : machine) (stack : nat) (md : mode) (e0 : Event m) (c0 : Ctx m)
         (sm : state_machine m) (im : initialized_machine m) (e : Event m) (cx : Ctx m),
    (forall a b : Event m, a = b) -> (forall a b : Ctx m, a = b) ->
    step stack md e0 c0 sm = handle_with_context stack md sm e cx /\
    im_step stack md e0 c0 im = im_handle_with_context stack md im e cx.
Proof.
  intros m stack md e0 c0 sm im e cx H G.
  exact (@MiscProofs.unit_both m stack md e0 c0 sm im e cx H G).
Qed.
Print Assumptions C22_unit_both.

Example C22_case :
  (forall a b : Event flat_machine, a = b) /\ (forall a b : Ctx flat_machine, a = b) /\
  sm_state (a_machine (step 1 BlockingMode (m := flat_machine) tt tt
                        (new_state_machine flat_machine 0))) = false.
Proof. split; [intros [] []; reflexivity|]. split; [intros [] []; reflexivity|]. reflexivity. Qed.

(** C27.  [csh], [cs] are the user's `clone` functions.  The clone compares equal whenever
    the parts do. *)
Theorem C27_clone_is_equal :
  forall (m : machine) (eq_state : State m -> State m -> bool)
         (eq_shared : Shared m -> Shared m -> bool) (csh : Shared m -> Shared m)
         (cs : State m -> State m) (sm : state_machine m),
    (forall sh, eq_shared sh (csh sh) = true) -> (forall x, eq_state x (cs x) = true) ->
    sm_eqb m eq_state eq_shared sm (clone csh cs sm) = true.
Proof.
  intros m eq_state eq_shared csh cs sm.
  exact (@EqualityProofs.clone_equal m eq_state eq_shared csh cs sm).
Qed.
Print Assumptions C27_clone_is_equal.

(** Lockstep: [R] relates values to their clones; if the user's callbacks do not distinguish
    related values ([similar]: related arguments give related results), then the original and the
    clone, fed the same events, stay related, end every call the same way, and make related
    calls.  For plain data ([csh], [cs] the identity, [R] equality) it says they are equal. *)
Theorem C27_clone_lockstep :
  forall (m : machine) (stack : nat) (md : mode) (R : relations m m) (csh : Shared m -> Shared m)
         (cs : State m -> State m) (sm : state_machine m) (evs : list (Event m * Ctx m)),
    similar R ->
    (forall sh, r_shared R sh (csh sh)) -> (forall x, r_state R x (cs x)) ->
    (forall e, r_event R e e) -> (forall c, r_ctx R c c) ->
    let a := sm_handles stack md sm evs in
    let b := sm_handles stack md (clone csh cs sm) evs in
    machine_rel R (fst a) (fst b) /\ Forall2 (called_rel R) (snd a) (snd b).
Proof.
  intros m stack md R csh cs sm evs. exact (@MiscProofs.clone_lockstep m stack md R csh cs sm evs).
Qed.
Print Assumptions C27_clone_lockstep.

(** Independence: in a program that uses both, each behaves as if it were alone. *)
Theorem C27_independent :
  forall (m : machine) (stack : nat) (md : mode) (ops : list (bool * op m))
         (a b : state_machine m) (ca cb : list (called m)) (a' b' : state_machine m),
    history2 stack md ops (a, b) (ca, cb) (a', b') ->
    history stack md (map snd (filter (fun o => fst o) ops)) a ca a' /\
    history stack md (map snd (filter (fun o => negb (fst o)) ops)) b cb b'.
Proof.
  intros m stack md ops a b ca cb a' b'.
  exact (@MiscProofs.history2_split m stack md ops a b ca cb a' b').
Qed.
Print Assumptions C27_independent.

(** The demo machine with storage compared up to the order of its log. *)
Definition demo_rel b : relations (demo b) (demo b) :=
  Relations (demo b) (demo b) eq eq (fun l l' : list nat => length l = length l') eq eq.
Ltac rel Hl :=
  repeat (first [reflexivity | apply conj | constructor]);
  rewrite ?app_length, ?Hl; reflexivity.
Example C27_case : similar (demo_rel true) /\
  (forall sh, r_shared (demo_rel true) sh (rev sh)).
Proof.
  split; [|intros sh; simpl; symmetry; apply rev_length].
  split; simpl; try (intros; subst; reflexivity).
  - intros x x' <-. destruct (demo_s_super x); constructor; reflexivity.
  - intros x x' <-. destruct (demo_u_super x); constructor; reflexivity.
  - intros x x' sh sh' cx cx' e e' <- Hl <- <-. unfold callback_rel.
    destruct x, e; simpl; rel Hl.
  - intros x x' sh sh' cx cx' <- Hl <-. unfold callback_rel.
    destruct x; simpl; rel Hl.
  - intros x x' sh sh' cx cx' <- Hl <-. unfold callback_rel.
    destruct x; simpl; rel Hl.
  - intros x x' sh sh' cx cx' e e' <- Hl <- <-. unfold callback_rel.
    destruct x, e; simpl; rel Hl.
  - intros x x' sh sh' cx cx' <- Hl <-. unfold callback_rel, demo_u_entry.
    destruct x; [destruct (cx =? 14)|destruct (cx =? 15)];
      simpl; rel Hl.
  - intros x x' sh sh' cx cx' <- Hl <-. unfold callback_rel, demo_u_exit.
    destruct x; [destruct (cx =? 13)|];
      simpl; rel Hl.
  - intros. split; simpl; [constructor; reflexivity|]. rewrite !app_length. simpl in *. congruence.
  - intros. split; simpl; [constructor; reflexivity|]. rewrite !app_length. simpl in *. congruence.
  - intros. split; simpl; [constructor; reflexivity|]. rewrite !app_length. simpl in *. congruence.
  - intros. split; simpl; [constructor; reflexivity|]. rewrite !app_length. simpl in *. congruence.
Qed.

(** C43.  No superstates (`superstate()` returns `None`, in particular for `type
    Superstate<'_> = ()`). *)
Theorem C43_flat_dispatch :
  forall (m : machine) (stack : nat) (md : mode) (sm : state_machine m) (e : Event m) (cx : Ctx m),
    (forall x, s_super m x = None) -> (forall u, u_super m u = None) -> stable m -> 1 <= stack ->
    let r := handle_with_context stack md sm e cx in
    (forall c, In c (handler_calls (calls (a_tr r))) ->
               fst c = (AtState (s_disc m (sm_state sm)), e)) /\
    (a_out r = Ret tt ->
     exists a, handler_calls (calls (a_tr r)) = [(AtState (s_disc m (sm_state sm)), e, Some a)]).
Proof.
  intros m stack md sm e cx Hs Hu St L.
  exact (conj (@MiscProofs.flat_dispatch_any m Hs Hu St stack L md sm e cx)
              (@MiscProofs.flat_dispatch m Hs Hu St stack L md sm e cx)).
Qed.
Print Assumptions C43_flat_dispatch.

Theorem C43_flat_transition :
  forall (m : machine) (stack : nat) (md : mode) (sm : state_machine m) (e : Event m) (cx : Ctx m)
         (p : place) (target : State m),
    (forall x, s_super m x = None) -> (forall u, u_super m u = None) -> stable m -> 1 <= stack ->
    initialized sm = true ->
    let r := handle_with_context stack md sm e cx in
    asks_for (a_tr r) p e target ->
    prefix (acts (a_tr r)) [Exit (AtState (s_disc m (sm_state sm))); Enter (AtState (s_disc m target))] /\
    (a_out r = Ret tt ->
     acts (a_tr r) = [Exit (AtState (s_disc m (sm_state sm))); Enter (AtState (s_disc m target))] /\
     s_disc m (sm_state (a_machine r)) = s_disc m target).
Proof.
  intros m stack md sm e cx p target Hs Hu St L Hi.
  exact (@MiscProofs.flat_transition m Hs Hu St stack L md sm e cx p target Hi).
Qed.
Print Assumptions C43_flat_transition.

Example C43_case :
  stable flat_machine /\
  asks_for (m := flat_machine)
    (a_tr (handle_with_context 1 AwaitableMode (StateMachine (@Inner flat_machine 4 true) true) tt tt))
    (AtState 0) tt false.
Proof.
  split; [|vm_compute; auto].
  split; simpl; intros; match goal with H : _ = _ |- _ => inversion H; reflexivity end.
Qed.
