(** Props54.v — C105: what every poll of every callback keeps, the awaitable machine keeps, wherever
    its futures are dropped.  Theorems only; see PollInvSpec.v. *)

From Coq Require Import List Bool Arith Lia.
From Verif Require Import Machine Api Spec Poll PollSimSpec PollInvSpec Tasks TaskSpec.
From Verif Require Import Drops DropPoll TypestatePoll.
From Verif Require PollProofs DropPollProofs TypestatePollProofs PollInvProofs TaskProofs.
Import ListNotations.
Set Implicit Arguments.

(** C105.  A condition on the shared storage and the context that every poll of every callback
    keeps holds after a call of `init` or `handle` if it held before: polled to the end, dropped
    after any number of polls, or panicking; in whatever worlds. *)
Theorem C105_call :
  forall (W : Type) (m : machine) (I : Shared m -> Ctx m -> Prop) (F : futures W m),
    callbacks_keep I F ->
    forall (stack : nat) (polls : list W) (sm : state_machine m) (cx : Ctx m), I (sm_shared sm) cx ->
      (let '(_, (sm', cx'), _) := execute (a_init_with_context F stack) polls (sm, cx) in I (sm_shared sm') cx') /\
      (forall e, let '(_, (sm', cx'), _) := execute (a_handle_with_context F stack e) polls (sm, cx) in I (sm_shared sm') cx').
Proof.
  intros W m I F CK stack polls sm cx H. split.
  - pose proof (@PollInvProofs.holds_execute W m I _ polls (sm, cx) (PollInvProofs.holds_init CK stack) H) as G.
    destruct (execute (a_init_with_context F stack) polls (sm, cx)) as [[o [sm1 cx1]] tr]. exact G.
  - intros e. pose proof (@PollInvProofs.holds_execute W m I _ polls (sm, cx) (PollInvProofs.holds_handle CK stack e) H) as G.
    destruct (execute (a_handle_with_context F stack e) polls (sm, cx)) as [[o [sm1 cx1]] tr]. exact G.
Qed.
Print Assumptions C105_call.

(** In particular what no poll of a callback undoes no call undoes: how far a log has grown or a
    counter has got, for instance.  [R sh0 cx0] is the condition of having got at least as far as
    [sh0] and [cx0]. *)
Theorem C105_never_undone :
  forall (W : Type) (m : machine) (R : Shared m -> Ctx m -> Shared m -> Ctx m -> Prop) (F : futures W m),
    (forall sh cx, R sh cx sh cx) -> (forall sh0 cx0, callbacks_keep (R sh0 cx0) F) ->
    forall (stack : nat) (polls : list W) (sm : state_machine m) (e : Event m) (cx : Ctx m),
      let '(_, (sm', cx'), _) := execute (a_handle_with_context F stack e) polls (sm, cx) in
      R (sm_shared sm) cx (sm_shared sm') cx'.
Proof. intros W m R F Rr CK stack polls sm e cx. exact (proj2 (C105_call (CK _ _) stack polls sm cx (Rr _ _)) e). Qed.
Print Assumptions C105_never_undone.

(** Over any history of such calls, each polled any number of times, and of writes by a client that
    keeps the condition; here it speaks of the shared storage. *)
Theorem C105_history :
  forall (W : Type) (m : machine) (J : Shared m -> Prop) (F : futures W m),
    callbacks_keep (fun sh _ => J sh) F ->
    forall (stack : nat) (ops : list (polled_op W m)) (sm : state_machine m),
      Forall (op_keeps J) ops -> J (sm_shared sm) -> J (sm_shared (snd (run_all_polled F stack ops sm))).
Proof.
  intros W m J F CK stack ops. induction ops as [|o ops IH]; intros sm K H; [exact H|].
  inversion K as [|? ? Ko Kops]; subst. cbn [run_all_polled].
  assert (G : J (sm_shared (snd (run_polled F stack o sm)))).
  { destruct o as [ps cx|ps e cx|f|f]; cbn [run_polled].
    - destruct (C105_call CK stack ps sm cx H) as [G _].
      destruct (execute (a_init_with_context F stack) ps (sm, cx)) as [[r [sm1 cx1]] tr]. exact G.
    - destruct (C105_call CK stack ps sm cx H) as [_ G]. specialize (G e).
      destruct (execute (a_handle_with_context F stack e) ps (sm, cx)) as [[r [sm1 cx1]] tr]. exact G.
    - exact (Ko _ H).
    - exact H. }
  destruct (run_polled F stack o sm) as [r sm1]. cbn [snd] in G. specialize (IH sm1 Kops G).
  destruct (run_all_polled F stack ops sm1) as [rs sm2]. exact IH.
Qed.
Print Assumptions C105_history.

(** On an executor the condition of a task holds at any time, whatever the order of polls and
    whatever the other tasks are. *)
Theorem C105_on_executor :
  forall (W : Type) (js : list (job W)) (schedule : list (nat * W)) (i : nat) (j : job W)
         (I : Shared (j_m j) -> Ctx (j_m j) -> Prop),
    nth_error js i = Some j -> callbacks_keep I (j_F j) -> I (sm_shared (j_sm j)) (j_cx j) ->
    exists p : progress W (j_m j),
      nth_error (run_pool schedule (spawn_all js)) i = Some (existT _ (j_m j) p) /\
      I (sm_shared (fst (p_store p))) (snd (p_store p)).
Proof.
  intros W js schedule i j I Hj CK H. exists (TaskProofs.take (turns i schedule) (spawn j)).
  split; [rewrite TaskProofs.pool_isolated; unfold spawn_all; rewrite nth_error_map, Hj; reflexivity|].
  destruct (turns i schedule) as [|w ws]; [exact H|].
  pose proof (@TaskProofs.take_drives W (j_m j) ws w (spawn j) eq_refl) as D.
  pose proof (@PollInvProofs.holds_session W (j_m j) I (j_F j) CK (j_stack j) (j_events j) w ws (j_sm j, j_cx j) H) as G.
  unfold spawn in D at 1 2. cbn [p_fut p_store] in D.
  destruct (drive (a_session (j_F j) (j_stack j) (j_events j)) w ws (j_sm j, j_cx j)) as [[[o s1] tr] l].
  cbv zeta in D. destruct D as (_ & -> & _). exact G.
Qed.
Print Assumptions C105_on_executor.

(** The typestate: the machine that an awaited `init` returns has it, however often it was polled
    before; and then it holds over any history of polled `handle`s and such writes. *)
Theorem C105_typestate :
  forall (W : Type) (m : machine) (J : Shared m -> Prop) (F : futures W m),
    callbacks_keep (fun sh _ => J sh) F ->
    forall (stack : nat) (um : uninitialized_machine m) (polls : list W) (cx cx' : Ctx m)
           (im : initialized_machine m) (evs : list (Life.life_event m)) (ops : list (aim_op W m)),
      iexecute (a_um_init F stack um) polls cx = (Some (Ret im), cx', evs) ->
      J (shared_storage (um_inner um)) ->
      Forall (fun o => match o with AInnerMut f => forall sh, J sh -> J (f sh) | _ => True end) ops ->
      J (shared_storage (im_inner im)) /\
      J (shared_storage (im_inner (snd (aim_run F stack ops im)))).
Proof.
  intros W m J F CK stack um polls cx cx' im evs ops E H K.
  assert (G : J (shared_storage (im_inner im))).
  { destruct polls as [|w ws]; [discriminate|]. cbn [iexecute] in E. unfold a_um_init in E.
    rewrite (@TypestatePollProofs.idrive_running W m) in E.
    pose proof (@PollInvProofs.ok_inner_init W m (fun sh _ => J sh) F CK stack w ws
                  (state (um_inner um), shared_storage (um_inner um), cx) H) as G.
    destruct (drive (a_inner_init F stack) w ws (state (um_inner um), shared_storage (um_inner um), cx)) as [[[[[a|y]|] s1] tr] l];
      cbn [fst] in E; try discriminate. injection E; intros; subst. exact G. }
  split; [exact G|]. clear E H. revert im G. induction ops as [|o ops IH]; intros im G; [exact G|].
  inversion K as [|? ? Ko Kops]; subst. specialize (IH Kops). cbn [aim_run].
  assert (G1 : J (shared_storage (im_inner (snd (fst (aim_exec F stack o im)))))).
  { destruct o as [c|f|f]; cbn [aim_exec].
    - destruct (pc_polls c) as [|w ws]; [exact G|]. cbn [oexecute]. unfold o_im_handle. rewrite DropPollProofs.odrive_borrow.
      cbn [fst snd]. set (st := (state (im_inner im), shared_storage (im_inner im), pc_ctx c)).
      pose proof (@DropPollProofs.o_inner_handle_forgets W m F stack (pc_event c) w ws st) as Fo.
      pose proof (@PollInvProofs.ok_inner_handle W m (fun sh _ => J sh) F CK stack (pc_event c) w ws st G) as Q.
      destruct (odrive (o_inner_handle F stack (pc_event c)) w ws st) as [[[o [[x1 sh1] cx1]] tr] l].
      rewrite Fo in Q. exact Q.
    - exact (Ko _ G).
    - exact G. }
  destruct (aim_exec F stack o im) as [[out im1] tr]. cbn [fst snd] in G1. specialize (IH im1 G1).
  destruct (aim_run F stack ops im1) as [rest im2]. exact IH.
Qed.
Print Assumptions C105_typestate.

(** Two accounts.  An event moves an amount from the first to the second and changes the state; the
    callbacks wait until the world lets them go on. *)
Definition accounts : machine := {|
  State := bool; Sup := unit; Shared := nat * nat; Event := nat; Ctx := unit;
  initial := false; s_disc := fun x => if x : bool then 1 else 0; u_disc := fun _ => 0;
  s_super := fun _ => None; s_put := fun x _ => x; u_super := fun _ => None; u_put := fun u _ => u;
  s_handler := fun x sh cx _ => (Returns Handled, x, sh, cx);
  s_entry := fun x sh cx => (Returns tt, x, sh, cx); s_exit := fun x sh cx => (Returns tt, x, sh, cx);
  u_handler := fun u sh cx _ => (Returns Handled, u, sh, cx);
  u_entry := fun u sh cx => (Returns tt, u, sh, cx); u_exit := fun u sh cx => (Returns tt, u, sh, cx);
  h_before_dispatch := fun sh _ _ => (Returns tt, sh); h_after_dispatch := fun sh _ _ => (Returns tt, sh);
  h_before_transition := fun sh _ _ => (Returns tt, sh); h_after_transition := fun sh _ _ => (Returns tt, sh)
|}.
Definition debit (n : nat) (sh : nat * nat) : nat * nat := (fst sh - n, snd sh).
Definition credit (n : nat) (sh : nat * nat) : nat * nat := (fst sh, snd sh + n).
(** Waits until the world says [true], does [f], and asks for the other state. *)
Definition when_told (f : nat * nat -> nat * nat) : ufut bool (bool * (nat * nat) * unit) (response bool) :=
  cofix wait := UFut (fun go s =>
    if go : bool then UReady (Some (Transition (negb (fst (fst s))))) (fst (fst s), f (snd (fst s)), snd s)
    else UPending s wait).
(** Both in the same poll. *)
Definition move (n : nat) : ufut bool (bool * (nat * nat) * unit) (response bool) :=
  when_told (fun sh => if n <=? fst sh then credit n (debit n sh) else sh).
(** The debit, then an `.await`, then the credit. *)
Definition move_in_two (n : nat) : ufut bool (bool * (nat * nat) * unit) (response bool) :=
  UFut (fun _ s => if n <=? fst (snd (fst s))
                   then UPending (fst (fst s), debit n (snd (fst s)), snd s) (when_told (credit n))
                   else UReady (Some Handled) s).
Definition at_once {S : Type} : ufut bool S unit := UFut (fun _ s => UReady (Some tt) s).
Definition acting (h : nat -> ufut bool (bool * (nat * nat) * unit) (response bool)) : futures bool accounts :=
  @Futures bool accounts h at_once at_once (fun _ => UFut (fun _ s => UReady (Some Handled) s)) at_once at_once
    (fun _ _ => at_once) (fun _ _ => at_once) (fun _ _ => at_once) (fun _ _ => at_once).
Definition total (sh : nat * nat) : nat := fst sh + snd sh.

Lemma at_once_keeps {X} (I : Shared accounts -> Ctx accounts -> Prop) :
  keeps_condition (m := accounts) I (at_once (S := X * (nat * nat) * unit)).
Proof. intros w ws x sh cx H. destruct ws; exact H. Qed.
Lemma at_once_hook (I : Shared accounts -> Ctx accounts -> Prop) : hook_keeps_condition (m := accounts) I at_once.
Proof. intros w ws sh cx H. destruct ws; exact H. Qed.

(** Moved in one poll, the total stays, whatever is dropped. *)
Theorem C105_total_stays :
  forall (stack : nat) (calls : list (list bool * nat)) (sm : state_machine accounts),
    total (sm_shared (snd (run_all_polled (acting move) stack
      (map (fun c => PolledHandle (m := accounts) (fst c) (snd c) tt) calls) sm))) = total (sm_shared sm).
Proof.
  intros stack calls sm.
  apply (@C105_history bool accounts (fun sh => total sh = total (sm_shared sm)) (acting move)); [|clear; induction calls; constructor; auto; exact Logic.I|reflexivity].
  constructor; intros; try apply at_once_keeps; try apply at_once_hook.
  - intros w ws x sh cx. unfold acting, f_s_handler, move, when_told. revert w x sh cx.
    induction ws as [|w' ws IH]; intros w x sh cx H; destruct w; cbn; try exact H; try (apply IH; exact H).
    all: destruct (e <=? fst sh) eqn:E; [|exact H]; apply Nat.leb_le in E; unfold total, credit, debit in *; cbn in *; lia.
  - intros w ws x sh cx H. destruct ws; exact H.
Qed.
Print Assumptions C105_total_stays.

(** The second account never loses. *)
Theorem C105_second_grows :
  forall (stack : nat) (polls : list bool) (e : nat) (sm : state_machine accounts),
    let '(_, (sm', _), _) := execute (a_handle_with_context (acting move_in_two) stack e) polls (sm, tt) in
    snd (sm_shared sm) <= snd (sm_shared sm').
Proof.
  intros stack polls e sm.
  apply (@C105_never_undone bool accounts (fun sh _ sh' _ => snd sh <= snd sh') (acting move_in_two)); [intros; apply le_n|].
  intros sh0 cx0. constructor; intros; try apply at_once_keeps; try apply at_once_hook.
  - intros w ws x sh cx H. unfold acting, f_s_handler, move_in_two.
    assert (G : forall ws w x sh, snd sh0 <= snd sh ->
      let '(_, (_, sh', _), _) := udrive (when_told (credit e0)) w ws (x, sh, cx) in snd sh0 <= snd sh').
    { clear. induction ws as [|w' ws IH]; intros w x sh H; destruct w; cbn; try exact H; try (apply IH; exact H).
      all: unfold credit; cbn; lia. }
    destruct ws as [|w' ws]; cbn; destruct (e0 <=? fst sh); try exact H. exact (G ws w' x (debit e0 sh) H).
  - intros w ws x sh cx H. destruct ws; exact H.
Qed.
Print Assumptions C105_second_grows.

(** That every poll keeps the condition is needed, not only the whole future: moved in two polls the
    total stays if the call is polled to its end, and not if it is dropped between the two. *)
Theorem C105_polls_needed :
  let sm := inner_mut (m := accounts) (fun _ => (7, 3)) (new_state_machine accounts (0, 0)) in
  let after polls := total (sm_shared (snd (run_all_polled (acting move_in_two) 2 [PolledHandle (m := accounts) polls 5 tt] sm))) in
  total (sm_shared sm) = 10 /\
  after [true; false; false; true; true] = 10 /\ after [] = 10 /\
  after [true; false] = 5.
Proof. vm_compute. repeat split. Qed.
Print Assumptions C105_polls_needed.

Example C105_case :
  let run calls := snd (run_all_polled (acting move) 2 (map (fun c => PolledHandle (m := accounts) (fst c) (snd c) tt) calls)
                          (new_state_machine accounts (7, 3))) in
  sm_shared (run [([false; true], 5); ([false], 1); ([true], 2)]) = (0, 10) /\
  sm_shared (run [([false; true], 5); ([false], 1); ([true], 9)]) = (2, 8) /\
  (exists polls e, let '(o, (sm', _), _) := execute (a_handle_with_context (acting move) 2 e) polls (new_state_machine accounts (7, 3), tt) in
     o = Some (Ret tt) /\ sm_shared sm' = (4, 6)) /\
  (let im := InitializedMachine (m := accounts) (Inner (m := accounts) (7, 3) false) in
   fst (fst (iexecute (a_um_init (acting move) 2 (new_uninitialized accounts (7, 3))) [true] tt)) = Some (Ret im) /\
   shared_storage (im_inner (snd (aim_run (acting move) 2
     [AHandle (@PolledCall bool accounts 3 tt [false; true]); AHandle (@PolledCall bool accounts 3 tt [false])] im))) = (4, 6)).
Proof. vm_compute. repeat split. exists [false; true], 3. vm_compute. repeat split. Qed.
