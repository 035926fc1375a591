(** Props37.v — C88: several machines on one executor. *)

From Coq Require Import List Bool Arith Lia.
From Verif Require Import Machine Api Spec Poll SuperSpec PaceSpec Tasks TaskSpec.
From Verif Require TaskProofs Props21 Props35 Props36.
Import ListNotations.

(** *** C88 *)

(** What becomes of a task depends on its own turns only: not on how they are interleaved with
    those of other tasks, nor on what these do. *)
Theorem C88_isolated :
  forall (World : Type) (schedule1 schedule2 : list (nat * World)) (before others after others' : list (task World))
         (t : task World),
    length before = length others ->
    turns (length before) schedule1 = turns (length before) schedule2 ->
    nth_error (run_pool schedule1 (before ++ t :: after)) (length before) =
    nth_error (run_pool schedule2 (others ++ t :: others')) (length before).
Proof.
  intros World schedule1 schedule2 before others after others' t L T.
  rewrite !TaskProofs.pool_isolated, T. f_equal.
  rewrite L at 2. rewrite !nth_error_app2, !Nat.sub_diag by apply le_n. reflexivity.
Qed.
Print Assumptions C88_isolated.

(** If the futures compute the callbacks of the machine, then at any time, under any schedule: a
    task that has ended did what the machine does when it handles the events in sequence with
    nothing in between; one that has not has made the first of those calls into user code. *)
Theorem C88_any_schedule :
  forall (World : Type) (js : list (job World)) (schedule : list (nat * World)) (i : nat) (j : job World),
    nth_error js i = Some j -> implements (j_F j) ->
    exists p : progress World (j_m j),
      nth_error (run_pool schedule (spawn_all js)) i = Some (existT _ (j_m j) p) /\
      match p_end p with
      | Some o =>
          in_sequence (j_stack j) (j_events j) (j_sm j) (j_cx j) =
          ApiRes o (fst (p_store p)) (snd (p_store p)) (p_log p)
      | None => exists more, a_tr (in_sequence (j_stack j) (j_events j) (j_sm j) (j_cx j)) = p_log p ++ more
      end.
Proof.
  intros World js schedule i j Hj I.
  exists (TaskProofs.take (turns i schedule) (spawn j)). split.
  - rewrite TaskProofs.pool_isolated. unfold spawn_all. rewrite nth_error_map, Hj. reflexivity.
  - destruct (turns i schedule) as [| w ws].
    + cbn. eexists. reflexivity.
    + pose proof (@TaskProofs.take_drives World (j_m j) ws w (spawn j) eq_refl) as T.
      pose proof (@TaskProofs.session_performs World (j_m j) (j_F j) (j_stack j) I (j_events j) w ws (j_sm j) (j_cx j)) as S.
      unfold spawn in T at 1 2. cbn [p_fut p_store] in T.
      destruct (drive (a_session (j_F j) (j_stack j) (j_events j)) w ws (j_sm j, j_cx j)) as [[[o s] tr] l].
      cbv zeta in T. destruct T as (-> & -> & ->). cbn [spawn p_log app].
      destruct o as [o |]; exact S.
Qed.
Print Assumptions C88_any_schedule.

(** If moreover each callback's future is pending at most [k] times, every task that gets enough
    turns ends, so all schedules that are fair in this sense lead to the same results. *)
Theorem C88_fair :
  forall (World : Type) (k : nat) (js : list (job World)) (schedule : list (nat * World)) (i : nat) (j : job World),
    nth_error js i = Some j -> decent k j -> enough k j <= length (turns i schedule) ->
    exists p : progress World (j_m j),
      nth_error (run_pool schedule (spawn_all js)) i = Some (existT _ (j_m j) p) /\
      let r := in_sequence (j_stack j) (j_events j) (j_sm j) (j_cx j) in
      p_end p = Some (a_out r) /\ p_store p = (a_machine r, a_cx r) /\ p_log p = a_tr r.
Proof.
  intros World k js schedule i j Hj D E.
  exists (TaskProofs.take (turns i schedule) (spawn j)). split.
  - rewrite TaskProofs.pool_isolated. unfold spawn_all. rewrite nth_error_map, Hj. reflexivity.
  - unfold enough in E. destruct (turns i schedule) as [| w ws]; [cbn in E; lia |].
    destruct D as [I [h W] L P].
    pose proof (@TaskProofs.take_drives World (j_m j) ws w (spawn j) eq_refl) as T.
    unfold spawn in T at 1 2. cbn [p_fut p_store] in T.
    pose proof (@TaskProofs.session_completes World (j_m j) (j_F j) (j_stack j) h k W L P (j_events j) w ws (j_sm j) (j_cx j)) as C.
    pose proof (@TaskProofs.session_performs World (j_m j) (j_F j) (j_stack j) I (j_events j) w ws (j_sm j) (j_cx j)) as S.
    destruct (drive (a_session (j_F j) (j_stack j) (j_events j)) w ws (j_sm j, j_cx j)) as [[[o s] tr] l].
    cbv zeta in *. destruct T as (-> & -> & ->). cbn [spawn p_log app fst] in *.
    destruct o as [o |]; [| exfalso; apply C; [cbn in E; lia | reflexivity]].
    rewrite S. cbn. destruct s. auto.
Qed.
Print Assumptions C88_fair.

(** Two machines of different types, with futures of different lengths. *)
Lemma after_computes {World T A : Type} n (g : T -> option A * T) (f : T -> reply A * T) :
  (forall s, f s = (let '(a, s') := g s in (reply_of (Some a), s'))) ->
  computes (Props36.after (World := World) n g) f.
Proof.
  intros H. induction n as [| n IH]; intros w ws s.
  - specialize (H s). destruct ws; cbn; destruct (g s) as [a s']; exact H.
  - destruct ws as [| w' ws]; [exact I |]. exact (IH w' ws s).
Qed.
Definition never_cancels {A} (r : reply A) : bool := match r with Cancelled => false | _ => true end.
Lemma slow_implements (m : machine) a b c d :
  (forall x sh cx e, never_cancels (fst (fst (fst (s_handler m x sh cx e)))) = true) ->
  (forall x sh cx, never_cancels (fst (fst (fst (s_entry m x sh cx)))) = true) ->
  (forall x sh cx, never_cancels (fst (fst (fst (s_exit m x sh cx)))) = true) ->
  (forall x sh cx e, never_cancels (fst (fst (fst (u_handler m x sh cx e)))) = true) ->
  (forall x sh cx, never_cancels (fst (fst (fst (u_entry m x sh cx)))) = true) ->
  (forall x sh cx, never_cancels (fst (fst (fst (u_exit m x sh cx)))) = true) ->
  (forall sh n e, never_cancels (fst (h_before_dispatch m sh n e)) = true) ->
  (forall sh n e, never_cancels (fst (h_after_dispatch m sh n e)) = true) ->
  (forall sh x y, never_cancels (fst (h_before_transition m sh x y)) = true) ->
  (forall sh x y, never_cancels (fst (h_after_transition m sh x y)) = true) ->
  implements (Props36.slow m a b c d).
Proof.
  intros H1 H2 H3 H4 H5 H6 H7 H8 H9 H10.
  assert (G : forall X A n (g : X -> Shared m -> Ctx m -> reply A * X * Shared m * Ctx m),
            (forall x sh cx, never_cancels (fst (fst (fst (g x sh cx)))) = true) ->
            computes (Props36.after (World := unit) n (Props36.of_callback g)) (curried m g)).
  { intros X A n g H. apply after_computes. intros [[x sh] cx]. specialize (H x sh cx). cbn.
    destruct (g x sh cx) as [[[[r | |] x'] sh'] cx']; try reflexivity. discriminate. }
  assert (K : forall n (g : Shared m -> reply unit * Shared m),
            (forall sh, never_cancels (fst (g sh)) = true) ->
            computes (Props36.after (World := unit) n (Props36.of_hook g)) g).
  { intros n g H. apply after_computes. intros sh. specialize (H sh). unfold Props36.of_hook.
    destruct (g sh) as [[r | |] sh']; try reflexivity. discriminate. }
  split; intros; first [apply G | apply K]; auto.
Qed.

Definition tower_hierarchy : hierarchy := {| leaf_parent := fun _ => Some 0; sup_parent := fun _ => None |}.
Lemma tickets_decent : forall es sm,
  decent 3 (@Job unit Props21.tickets (Props36.slow Props21.tickets 2 3 0 1) 1 es sm tt) /\
  forall es' sm',
  decent 3 (@Job unit Props35.named_tickets (Props36.slow Props35.named_tickets 1 0 2 3) 1 es' sm' tt).
Proof.
  intros es sm. split; [| intros es' sm'].
  all: split; cbn [j_F j_m j_stack].
  1, 5: apply slow_implements; intros; cbn; try reflexivity; try (destruct (fst x =? 2); reflexivity);
        try (destruct (e =? 9); reflexivity).
  1, 4: exists tower_hierarchy; split; [split; reflexivity | split | intros n; exists [n]; split; [repeat constructor | cbn; lia]];
        intros; cbn in *; match goal with H : _ = _ |- _ => injection H; intros; subst; reflexivity end.
  1, 3: split; cbn; intros; reflexivity.
  all: split; intros; (eapply Props36.pends_weaken; [| apply Props36.after_pends]; lia).
Qed.

Example C88_case :
  let a := @Job unit Props21.tickets (Props36.slow Props21.tickets 2 3 0 1) 1
             [1; 9; 3] (new_state_machine Props21.tickets 1) tt in
  let b := @Job unit Props35.named_tickets (Props36.slow Props35.named_tickets 1 0 2 3) 1
             [4; 2; 5] (new_state_machine Props35.named_tickets (7, 1)) tt in
  decent 3 a /\ decent 3 b /\
  (forall schedule, enough 3 a <= length (turns 0 schedule) -> enough 3 b <= length (turns 1 schedule) ->
     exists p q, nth_error (run_pool schedule (spawn_all [a; b])) 0 = Some (existT _ Props21.tickets p) /\
                 nth_error (run_pool schedule (spawn_all [a; b])) 1 = Some (existT _ Props35.named_tickets q) /\
                 p_end p = Some (Ret tt) /\ sm_state (fst (p_store p)) = (3, 3) /\
                 p_end q = Some (Abort Panicked) /\ sm_state (fst (p_store q)) = (2, 2)).
Proof.
  cbv zeta.
  pose proof (proj1 (tickets_decent [1; 9; 3] (new_state_machine Props21.tickets 1))) as Da.
  pose proof (proj2 (tickets_decent [] (new_state_machine Props21.tickets 1)) [4; 2; 5] (new_state_machine Props35.named_tickets (7, 1))) as Db.
  split; [exact Da |]. split; [exact Db |].
  intros schedule Ea Eb.
  match type of Da with decent _ ?a => match type of Db with decent _ ?b =>
    destruct (@C88_fair unit 3 [a; b] schedule 0 a eq_refl Da Ea) as (p & Hp & A1 & A2 & _);
    destruct (@C88_fair unit 3 [a; b] schedule 1 b eq_refl Db Eb) as (q & Hq & B1 & B2 & _)
  end end.
  exists p, q. split; [exact Hp |]. split; [exact Hq |]. cbn [j_m] in *.
  split; [exact A1 |]. split; [exact (f_equal (fun s => sm_state (fst s)) A2) |].
  split; [exact B1 | exact (f_equal (fun s => sm_state (fst s)) B2)].
Qed.
