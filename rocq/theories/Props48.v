(** Props48.v — C99: awaitable implementations that cannot be told apart.  Theorems only; see
    PollSimSpec.v ([similar_futures], [future_rel], [run_all_polled]) and Sim.v ([relations],
    [machine_rel]). *)

From Coq Require Import List Bool Arith Lia.
From Verif Require Import Machine Api Spec Sim KindSim Poll PollSimSpec.
From Verif Require PollSimProofs Props6 Props30.
Import ListNotations.

(** C99.  Take two awaitable machines, with their own types, and relations between these types such
    that the futures of their callbacks correspond: polled equally often, on related data, they
    become ready at the same poll with related answers, or panic at the same poll, or are still
    pending, and in each case have done related things to what they borrow.  Then, poll by poll, the
    machines cannot be told apart either: the future of a call, polled any number of times, is
    pending or ready in both (and ready at the same poll), has called corresponding callbacks with
    related arguments, and leaves related machines and contexts, also when it is dropped. *)
Theorem C99_poll_by_poll :
  forall (m1 m2 : machine) (R : relations m1 m2) (W1 W2 : Type) (RW : W1 -> W2 -> Prop)
         (F1 : futures W1 m1) (F2 : futures W2 m2) (stack : nat)
         (e : Event m1) (e' : Event m2) (w : W1) (ws : list W1) (w' : W2) (ws' : list W2)
         (sm : state_machine m1) (sm' : state_machine m2) (cx : Ctx m1) (cx' : Ctx m2),
    similar_futures R RW F1 F2 -> variant_safe F1 ->
    schedule_rel RW (w, ws) (w', ws') -> machine_rel R sm sm' -> r_ctx R cx cx' -> r_event R e e' ->
    let agree r r' :=
      let '(o, (sm1, cx1), tr, unused) := r in
      let '(o', (sm1', cx1'), tr', unused') := r' in
      o = o' /\ machine_rel R sm1 sm1' /\ r_ctx R cx1 cx1' /\ Forall2 (obs_rel R) tr tr' /\
      schedule_rel RW unused unused' in
    agree (drive (a_handle_with_context F1 stack e) w ws (sm, cx))
          (drive (a_handle_with_context F2 stack e') w' ws' (sm', cx')) /\
    agree (drive (a_init_with_context F1 stack) w ws (sm, cx))
          (drive (a_init_with_context F2 stack) w' ws' (sm', cx')).
Proof.
  intros m1 m2 R W1 W2 RW F1 F2 stack e e' w ws w' ws' sm sm' cx cx' S V L M C E agree. split.
  - exact (@PollSimProofs.handle_driven m1 m2 R W1 W2 RW F1 F2 S V stack e e' E w ws w' ws' sm sm' cx cx' L M C).
  - exact (@PollSimProofs.init_driven m1 m2 R W1 W2 RW F1 F2 S V stack w ws w' ws' sm sm' cx cx' L M C).
Qed.
Print Assumptions C99_poll_by_poll.

(** So over any history of calls, each polled any number of times and then dropped if it is not
    ready, and of writes to the storage or state in between. *)
Theorem C99_histories :
  forall (m1 m2 : machine) (R : relations m1 m2) (W1 W2 : Type) (RW : W1 -> W2 -> Prop)
         (F1 : futures W1 m1) (F2 : futures W2 m2) (stack : nat)
         (ops : list (polled_op W1 m1)) (ops' : list (polled_op W2 m2))
         (sm sm1 : state_machine m1) (sm' sm1' : state_machine m2) rs rs',
    similar_futures R RW F1 F2 -> variant_safe F1 ->
    Forall2 (polled_op_rel RW R) ops ops' -> machine_rel R sm sm' ->
    run_all_polled F1 stack ops sm = (rs, sm1) -> run_all_polled F2 stack ops' sm' = (rs', sm1') ->
    machine_rel R sm1 sm1' /\ Forall2 (opt_rel (polled_result_rel R)) rs rs'.
Proof.
  intros m1 m2 R W1 W2 RW F1 F2 stack ops ops' sm sm1 sm' sm1' rs rs' S V O M H H'.
  destruct (@PollSimProofs.run_all_polled_rel m1 m2 R W1 W2 RW F1 F2 S V stack ops ops' O sm sm' M) as [A B].
  rewrite H, H' in A, B. auto.
Qed.
Print Assumptions C99_histories.

(** If only what the futures compute corresponds ([kindred], [implements]), not when they are ready
    or what they are polled with, then the calls that complete correspond. *)
Theorem C99_completed :
  forall (m1 m2 : machine) (R : relations m1 m2) (W1 W2 : Type)
         (F1 : futures W1 m1) (F2 : futures W2 m2) (stack : nat)
         (e : Event m1) (e' : Event m2) (w : W1) (ws : list W1) (w' : W2) (ws' : list W2)
         (sm sm1 : state_machine m1) (sm' sm1' : state_machine m2)
         (cx cx1 : Ctx m1) (cx' cx1' : Ctx m2) (out out' : outcome unit) tr tr' unused unused',
    kindred R -> stable m1 -> implements F1 -> implements F2 ->
    machine_rel R sm sm' -> r_ctx R cx cx' -> r_event R e e' ->
    drive (a_handle_with_context F1 stack e) w ws (sm, cx) = (Some out, (sm1, cx1), tr, unused) ->
    drive (a_handle_with_context F2 stack e') w' ws' (sm', cx') = (Some out', (sm1', cx1'), tr', unused') ->
    out = out' /\ machine_rel R sm1 sm1' /\ r_ctx R cx1 cx1' /\ Forall2 (obs_rel R) tr tr'.
Proof.
  intros m1 m2 R W1 W2 F1 F2 stack e e' w ws w' ws' sm sm1 sm' sm1' cx cx1 cx' cx1' out out' tr tr' unused unused' K ST I1 I2 M C E H H'.
  apply Props6.C40_schedule_does_not_matter in H; [|exact I1].
  apply Props6.C40_schedule_does_not_matter in H'; [|exact I2].
  pose proof (@kin_handle m1 m2 R K ST stack AwaitableMode sm sm' e e' cx cx' M E C) as P.
  rewrite H, H' in P. exact P.
Qed.
Print Assumptions C99_completed.

(** The two lights of C81, with callbacks that are pending when first polled and then until the world
    says they may go on, and count this in the context. *)
Definition until {X : Type} {m : machine} {A : Type} (tick : Ctx m -> Ctx m)
    (g : X * Shared m * Ctx m -> reply A * (X * Shared m * Ctx m)) : ufut bool (X * Shared m * Ctx m) A :=
  (cofix wait := UFut (fun go s =>
     if go : bool then
       UReady (match fst (g s) with Returns a => Some a | _ => None end) (snd (g s))
     else UPending (let '(x, sh, cx) := s in (x, sh, tick cx)) wait)).
Definition pause {X : Type} {m : machine} {A : Type} (tick : Ctx m -> Ctx m)
    (f : ufut bool (X * Shared m * Ctx m) A) : ufut bool (X * Shared m * Ctx m) A :=
  UFut (fun _ s => UPending (let '(x, sh, cx) := s in (x, sh, tick cx)) f).
Definition until_hook {Sh : Type} : ufut bool Sh unit :=
  (cofix wait := UFut (fun go s => if go : bool then UReady (Some tt) s else UPending s wait)).
Definition slowly (m : machine) (tick : Ctx m -> Ctx m) : futures bool m :=
  let slow X A g := pause tick (@until X m A tick (curried m g)) in
  @Futures bool m
    (fun e => slow _ _ (fun x sh cx => s_handler m x sh cx e)) (slow _ _ (s_entry m)) (slow _ _ (s_exit m))
    (fun e => slow _ _ (fun x sh cx => u_handler m x sh cx e)) (slow _ _ (u_entry m)) (slow _ _ (u_exit m))
    (fun n e => until_hook) (fun n e => until_hook) (fun a b => until_hook) (fun a b => until_hook).

Lemma until_udrive {X : Type} {m : machine} {A : Type} (tick : Ctx m -> Ctx m) g w ws x sh cx :
  udrive (@until X m A tick g) w ws (x, sh, cx) =
  if w then (Some (match fst (g (x, sh, cx)) with Returns a => Some a | _ => None end), snd (g (x, sh, cx)), (w, ws))
  else match ws with [] => (None, (x, sh, tick cx), (w, []))
       | w' :: ws' => udrive (@until X m A tick g) w' ws' (x, sh, tick cx) end.
Proof. destruct ws, w; reflexivity. Qed.
Lemma until_hook_udrive {Sh : Type} w ws (s : Sh) :
  udrive until_hook w ws s = if w then (Some (Some tt), s, (w, ws))
  else match ws with [] => (None, s, (w, [])) | w' :: ws' => udrive until_hook w' ws' s end.
Proof. destruct ws, w; reflexivity. Qed.

Lemma until_rel (m1 m2 : machine) (R : relations m1 m2) t1 t2 X Y A B (RX : X -> Y -> Prop) (RA : A -> B -> Prop) g g' :
  (forall cx cx', r_ctx R cx cx' -> r_ctx R (t1 cx) (t2 cx')) ->
  (forall x x' sh sh' cx cx', RX x x' -> r_shared R sh sh' -> r_ctx R cx cx' ->
     callback_rel R RA RX (g x sh cx) (g' x' sh' cx')) ->
  future_rel eq (store_rel R RX) RA (until t1 (curried m1 g)) (until t2 (curried m2 g')).
Proof.
  intros T G w ws. revert w. induction ws as [|v ws IH]; intros w w' ws' [[x sh] cx] [[x' sh'] cx'] [Hw Hws] (Hx & Hs & Hc);
    cbn [fst snd] in Hw, Hws; subst w'; rewrite (until_udrive t1 (curried m1 g) w), (until_udrive t2 (curried m2 g') w); (destruct w; [|]).
  1, 3: specialize (G _ _ _ _ _ _ Hx Hs Hc); unfold curried;
    destruct (g x sh cx) as [[[r y] sh1] cx1], (g' x' sh' cx') as [[[r' y'] sh1'] cx1'];
    destruct G as (Gr & Gx & Gs & Gc); cbn [fst snd];
    (split; [destruct Gr; repeat constructor; assumption|split; [repeat split; assumption|split; [reflexivity|exact Hws]]]).
  - inversion Hws; subst. split; [constructor|]. split; [repeat split; auto|]. split; [reflexivity|constructor].
  - inversion Hws as [|? v' ? ws1 Hv Hws1]; subst. apply IH; [split; [reflexivity|exact Hws1]|repeat split; auto].
Qed.
Lemma pause_rel (m1 m2 : machine) (R : relations m1 m2) t1 t2 X Y A B (RX : X -> Y -> Prop) (RA : A -> B -> Prop) f f' :
  (forall cx cx', r_ctx R cx cx' -> r_ctx R (t1 cx) (t2 cx')) ->
  future_rel eq (store_rel R RX) RA f f' ->
  future_rel eq (store_rel R RX) RA (pause t1 f) (pause t2 f').
Proof.
  intros T G w ws w' ws' [[x sh] cx] [[x' sh'] cx'] [Hw Hws] (Hx & Hs & Hc). cbn [fst snd] in Hw, Hws.
  inversion Hws as [|v v' ws0 ws0' Hv Hws0]; subst.
  - cbn. split; [constructor|]. split; [repeat split; auto|]. split; [reflexivity|constructor].
  - apply (G v' ws0 v' ws0' (x, sh, t1 cx) (x', sh', t2 cx')); [split; [reflexivity|exact Hws0]|repeat split; auto].
Qed.
Lemma until_hook_rel S S' (RS : S -> S' -> Prop) : future_rel eq RS eq until_hook until_hook.
Proof.
  intros w ws. revert w. induction ws as [|v ws IH]; intros w w' ws' s s' [Hw Hws] Hs;
    cbn [fst snd] in Hw, Hws; subst w'; rewrite (until_hook_udrive w _ s), (until_hook_udrive w _ s'); (destruct w; [|]).
  1, 3: split; [repeat constructor|split; [exact Hs|split; [reflexivity|exact Hws]]].
  - inversion Hws; subst. split; [constructor|]. split; [exact Hs|]. split; [reflexivity|constructor].
  - inversion Hws as [|? v' ? ws1 Hv Hws1]; subst. apply IH; [split; [reflexivity|exact Hws1]|exact Hs].
Qed.
Lemma lights_slowly : similar_futures Props30.down_up eq (slowly Props30.down S) (slowly Props30.up S).
Proof.
  pose proof Props30.down_up_similar as S. destruct S.
  assert (T : forall cx cx' : nat, cx = cx' -> Datatypes.S cx = Datatypes.S cx') by (intros ? ? ->; reflexivity).
  constructor; try assumption.
  - intros x x' v v' w w' H1 H2 _ _ _. exact (si_s_put _ _ _ _ H1 H2).
  - intros u u' v v' w w' H1 H2 _ _ _. exact (si_u_put _ _ _ _ H1 H2).
  - reflexivity.
  - intros e e' He. apply pause_rel; [exact T|]; apply until_rel; [exact T|]. intros; apply si_s_handler; assumption.
  - apply pause_rel; [exact T|]; apply until_rel; [exact T|exact si_s_entry].
  - apply pause_rel; [exact T|]; apply until_rel; [exact T|exact si_s_exit].
  - intros e e' He. apply pause_rel; [exact T|]; apply until_rel; [exact T|]. intros; apply si_u_handler; assumption.
  - apply pause_rel; [exact T|]; apply until_rel; [exact T|exact si_u_entry].
  - apply pause_rel; [exact T|]; apply until_rel; [exact T|exact si_u_exit].
  - intros. apply until_hook_rel.
  - intros. apply until_hook_rel.
  - intros. apply until_hook_rel.
  - intros. apply until_hook_rel.
Qed.
Lemma down_safe : variant_safe (slowly Props30.down S).
Proof.
  assert (G : forall X A (disc : X -> nat) (g : X -> bool -> nat -> reply A * X * bool * nat),
    (forall x sh cx, disc (snd (fst (fst (g x sh cx)))) = disc x) ->
    keeps Props30.down disc (pause (m := Props30.down) S (until (m := Props30.down) S (curried Props30.down g)))).
  { intros X A disc g H w [|w0 ws] x sh cx; [reflexivity|]. cbn [udrive upoll pause]. generalize (S cx) as c. clear cx.
    revert w0 x sh. induction ws as [|v ws IH]; intros w0 x sh cx; rewrite until_udrive; destruct w0.
    1, 3: specialize (H x sh cx); unfold curried; destruct (g x sh cx) as [[[r y] sh1] cx1]; exact H.
    - reflexivity.
    - apply IH. }
  constructor.
  - intros e. apply G. intros [c|] sh cx; [|destruct e]; reflexivity.
  - apply G. reflexivity.
  - apply G. reflexivity.
  - intros e. apply G. intros u sh cx. reflexivity.
  - apply G. reflexivity.
  - apply G. reflexivity.
Qed.

(** Whatever is pressed, polled and dropped, the two show the same light and leave the same
    contexts. *)
Theorem C99_two_lights :
  forall (stack : nat) (calls : list (list bool * Props30.signal * nat)) rs rs' sm1 sm1',
    run_all_polled (slowly Props30.down S) stack
      (map (fun c => PolledHandle (m := Props30.down) (fst (fst c)) (snd (fst c)) (snd c)) calls)
      (new_state_machine Props30.down false) = (rs, sm1) ->
    run_all_polled (slowly Props30.up S) stack
      (map (fun c => PolledHandle (m := Props30.up) (fst (fst c)) (snd (fst c)) (snd c)) calls)
      (new_state_machine Props30.up 0) = (rs', sm1') ->
    sm_shared sm1' = (if sm_shared sm1 then 1 else 0) /\
    map (option_map fst) rs = map (option_map fst) rs'.
Proof.
  intros stack calls rs rs' sm1 sm1' H H'.
  assert (O : Forall2 (polled_op_rel eq Props30.down_up)
    (map (fun c => PolledHandle (m := Props30.down) (fst (fst c)) (snd (fst c)) (snd c)) calls)
    (map (fun c => PolledHandle (m := Props30.up) (fst (fst c)) (snd (fst c)) (snd c)) calls)).
  { clear. induction calls as [|[[ws e] cx] l IH]; [constructor|]. cbn [map fst snd]. constructor; [|exact IH].
    constructor; try reflexivity. clear. induction ws; constructor; auto. }
  assert (M0 : machine_rel Props30.down_up (new_state_machine Props30.down false) (new_state_machine Props30.up 0))
    by (repeat split).
  destruct (C99_histories _ _ Props30.down_up bool bool eq _ _ stack _ _ _ sm1 _ sm1' rs rs' lights_slowly down_safe O M0 H H')
    as [(_ & M & _) F].
  split; [exact M|]. clear - F.
  induction F as [|r r' l l' HR F IH]; [reflexivity|]. cbn [map]. apply (f_equal2 (@cons _)); [|exact IH].
  inversion HR as [|[[o cx] tr] [[o' cx'] tr'] (Q1 & Q2 & _)]; [reflexivity|]. cbn in Q2 |- *. now rewrite Q1, Q2.
Qed.
Print Assumptions C99_two_lights.

(** The first press is dropped while the first callback waits, the second while the light is being
    switched on, the third completes. *)
Example C99_case :
  let calls := [([false; false], Props30.Press, 0); ([true; true; false], Props30.Press, 7);
                (repeat true 40, Props30.Press, 3)] in
  let a := run_all_polled (slowly Props30.down S) 2
             (map (fun c => PolledHandle (m := Props30.down) (fst (fst c)) (snd (fst c)) (snd c)) calls)
             (new_state_machine Props30.down false) in
  let b := run_all_polled (slowly Props30.up S) 2
             (map (fun c => PolledHandle (m := Props30.up) (fst (fst c)) (snd (fst c)) (snd c)) calls)
             (new_state_machine Props30.up 0) in
  map (option_map fst) (fst a) = map (option_map fst) (fst b) /\ map (option_map (fun r => fst (fst r))) (fst a) = [Some None; Some None; Some (Some (Ret tt))].
Proof. vm_compute. split; reflexivity. Qed.
