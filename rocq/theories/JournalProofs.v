(** JournalProofs.v — proofs for C93: journals and monitors. *)

From Coq Require Import List Bool Arith.
From Verif Require Import Machine Api Spec Sim AgreeSpec AccountSpec.
From Verif Require AccountProofs HistoryProofs Props3 Props30 DiagramProofs ProgressProofs.
Import ListNotations.

Section Journal.
  Variable m : machine.
  Variable L : Type.
  Variable j : journal m L.

  Definition plain : relations m (journaled j) :=
    Relations m (journaled j) eq eq (fun sh s => fst s = sh) eq eq.

  Lemma beside_rel {A X} (RA : A -> A -> Prop) (c : reply A * X * Shared m * Ctx m) l : (forall a, RA a a) ->
    callback_rel plain RA eq c (beside c l).
  Proof.
    intros RR. destruct c as [[[r x] sh] cx]. cbn. split; [|auto]. destruct r; constructor; auto.
  Qed.
  Lemma hook_beside (c : reply unit * Shared m) l : hook_rel plain c (beside2 c l).
  Proof. destruct c as [r sh]. split; cbn; [|reflexivity]. destruct r; constructor; auto. Qed.
  Lemma response_same (r : response (State m)) : response_rel eq r r.
  Proof. destruct r; constructor; reflexivity. Qed.
  Lemma node_same (n n' : node (State m) (Sup m)) : node_rel eq eq n n' -> n = n'.
  Proof. now intros [a b ->|a b ->]. Qed.
  Lemma opt_same {A} (o : option A) : opt_rel eq o o.
  Proof. destruct o; constructor; reflexivity. Qed.

  Lemma journaled_similar : similar plain.
  Proof.
    split; cbn [plain r_state r_sup r_shared r_event r_ctx]; intros; subst;
      repeat match goal with H : node_rel _ _ _ _ |- _ => apply node_same in H; subst end;
      try reflexivity; try apply opt_same;
      try (apply beside_rel; intros; first [apply response_same|reflexivity]);
      try apply hook_beside.
  Qed.

  Lemma op_beside_rel o : op_rel plain o (op_beside j o).
  Proof.
    destruct o; constructor; cbn; auto.
    - intros s s' <-. reflexivity.
    - intros x x' <-. reflexivity.
  Qed.
  Lemma obs_same o o' : obs_rel plain o o' -> obs_without o' = o.
  Proof.
    intros [n n' e e' N E|n n' e e' N E|a a' R|n n' e e' N E|a a' b b' A B|a a' b b' A B|n n' N|n n' N]; cbn in *;
      repeat match goal with H : node_rel _ _ _ _ |- _ => apply node_same in H end; subst; try reflexivity.
    destruct R as [| |a b ->]; reflexivity.
  Qed.
  Lemma called_same c c' : called_rel plain c c' -> called_without c' = c.
  Proof.
    destruct c as [o x t], c' as [o' x' t']. intros (A & B & C). cbn in *. unfold called_without. cbn.
    subst o'. f_equal.
    - destruct B as [|a b B]; [reflexivity|]. cbn in B. now subst.
    - induction C as [|a b t t' H C IH]; [reflexivity|]. cbn. rewrite IH, (obs_same _ _ H). reflexivity.
  Qed.

  Definition noted (tr : list (obs (journaled j))) (p q : Shared (journaled j)) : Prop :=
    snd q = fold_left (note j) (map (@obs_without m L j) tr) (snd p).
  Lemma journaled_accounts : keeps_account (m := journaled j) (fun tr p q => noted tr (fst p) (fst q)).
  Proof.
    unfold noted. split; cbn; intros; try reflexivity.
    - destruct (s_handler m x (fst sh) cx e) as [[[[] x'] s'] c']; reflexivity.
    - destruct (u_handler m u (fst sh) cx e) as [[[[] x'] s'] c']; reflexivity.
    - destruct (s_entry m x (fst sh) cx) as [[[r x'] s'] c']; reflexivity.
    - destruct (s_exit m x (fst sh) cx) as [[[r x'] s'] c']; reflexivity.
    - destruct (u_entry m u (fst sh) cx) as [[[r x'] s'] c']; reflexivity.
    - destruct (u_exit m u (fst sh) cx) as [[[r x'] s'] c']; reflexivity.
  Qed.

  Lemma history_journal stack md ops sm cs sm' l : history stack md ops sm cs sm' ->
    exists cs', history stack md (map (op_beside j) ops) (add_journal j l sm) cs'
                  (add_journal j (fold_left (note j) (log_of cs) l) sm') /\
                map (@called_without m L j) cs' = cs.
  Proof.
    intros H.
    destruct (exec_all stack md (map (op_beside j) ops) (add_journal j l sm)) as [cs' smj] eqn:E.
    assert (H' := HistoryProofs.exec_all_history stack md (map (op_beside j) ops) (add_journal j l sm)).
    rewrite E in H'. cbn in H'.
    assert (F : Forall2 (op_rel plain) ops (map (op_beside j) ops))
      by (clear; induction ops; constructor; auto using op_beside_rel).
    assert (M : machine_rel plain sm (add_journal j l sm)) by (repeat split).
    destruct (Props30.C81_lockstep m (journaled j) plain stack md _ _ _ _ _ _ _ _ journaled_similar F M H H') as [M' G].
    assert (C : map (@called_without m L j) cs' = cs).
    { clear - G. induction G as [|c c' cs cs' A G IH]; [reflexivity|]. cbn. now rewrite IH, (called_same _ _ A). }
    assert (N : noted (log_of cs') (sm_shared (add_journal j l sm)) (sm_shared smj)).
    { refine (AccountProofs.history_accounts (journaled j) stack md noted _ _ journaled_accounts _ _ _ _ _ H').
      - reflexivity.
      - unfold noted. intros t1 t2 p q r A B. now rewrite B, A, map_app, fold_left_app.
      - apply Forall_map, Forall_forall. intros o _ f. destruct o; try discriminate. intros [= <-] s. reflexivity. }
    exists cs'. split; [|exact C].
    replace (add_journal j (fold_left (note j) (log_of cs) l) sm') with smj; [exact H'|].
    destruct M' as (M1 & M2 & M3). unfold noted in N. cbn in N.
    replace (map (@obs_without m L j) (log_of cs')) with (log_of cs) in N.
    2:{ rewrite <- C. clear. unfold log_of. induction cs' as [|c cs' IH]; [reflexivity|]. cbn. rewrite map_app. now rewrite IH. }
    unfold add_journal. rewrite <- N. destruct smj as [[[s1 s2] x] b]. cbn in *. now subst.
  Qed.
End Journal.

Section Monitor.
  Variable h : hierarchy.
  Variable m : machine.
  Variable stack : nat.
  Variable md : mode.
  Hypothesis W : well_formed h m stack.
  Hypothesis V : faithful_views m.

  Let known (l : nat) (tr : list (obs m)) : nat := fold_left (note (monitor m)) tr l.

  Lemma known_none l tr : forallb (fun o => negb (is_transition_hook o)) tr = true -> known l tr = l.
  Proof.
    unfold known. revert l. induction tr as [|o tr IH]; intros l F; [reflexivity|].
    cbn in F. apply andb_prop in F as [F1 F2]. cbn [fold_left]. rewrite (IH _ F2). destruct o; try discriminate; reflexivity.
  Qed.

  Lemma dispatch_known sm e cx : initialized sm = true ->
    let r := handle_with_context stack md sm e cx in
    a_out r = Ret tt -> known (s_disc m (sm_state sm)) (a_tr r) = s_disc m (sm_state (a_machine r)).
  Proof.
    intros I r O.
    destruct (Props3.C13_transition_hooks h m stack md sm e cx W I) as (t1 & t2 & E & F & D).
    fold r in E, D.
    destruct D as [[-> N]|(p & t & a & b & t3 & A & _ & _)].
    - rewrite known_none.
      + destruct (Props3.C21_threaded h m stack md sm e cx W V) as [[_ TH]|(u1 & u2 & x1 & sh1 & cx1 & p & t & E' & A & _)].
        * symmetry. exact (proj1 (DiagramProofs.thread_within h m stack W _ _ _ _ TH)).
        * exfalso. fold r in E'. apply (N O p e t). unfold asks_for. rewrite E'.
          apply ProgressProofs.handler_calls_app. exact A.
      + rewrite E, app_nil_r. clear -F. induction t1 as [|o t1 IH]; [reflexivity|].
        cbn in *. apply andb_prop in F as [F1 F2]. rewrite (IH F2). destruct o; auto.
    - assert (A' : asks_for (a_tr r) p e t) by (unfold asks_for; rewrite E; apply ProgressProofs.handler_calls_app; exact A).
      destruct (Props3.C12_after_transition_called h m stack md sm e cx p t W V I A' O) as (t0 & x1 & E' & _).
      fold r in E'. rewrite E'. unfold known. rewrite fold_left_app. reflexivity.
  Qed.
  Lemma init_known sm cx l : known l (a_tr (init_with_context stack md sm cx)) = l /\
    s_disc m (sm_state (a_machine (init_with_context stack md sm cx))) = s_disc m (sm_state sm).
  Proof.
    split.
    - apply known_none. assert (F := Props3.C13_init_no_hooks h m stack md sm cx W).
      clear -F. induction (a_tr (init_with_context stack md sm cx)) as [|o tr IH]; [reflexivity|].
      cbn in *. apply andb_prop in F as [F1 F2]. rewrite (IH F2). destruct o; auto; discriminate.
    - exact (proj1 (DiagramProofs.init_diagram h m stack md W V sm cx)).
  Qed.
  Lemma handle_known sm e cx :
    let r := handle_with_context stack md sm e cx in
    a_out r = Ret tt -> known (s_disc m (sm_state sm)) (a_tr r) = s_disc m (sm_state (a_machine r)).
  Proof.
    intros r O. destruct (initialized sm) eqn:I; [exact (dispatch_known sm e cx I O)|].
    destruct (init_known sm cx (s_disc m (sm_state sm))) as [K1 K2].
    set (r1 := init_with_context stack md sm cx) in *.
    assert (Q : a_out r1 = Ret tt /\ initialized (a_machine r1) = true /\
                let r2 := handle_with_context stack md (a_machine r1) e (a_cx r1) in
                a_out r = a_out r2 /\ a_machine r = a_machine r2 /\ a_tr r = a_tr r1 ++ a_tr r2).
    { subst r r1. clear K1 K2. unfold init_with_context, handle_with_context in *. rewrite I in *. cbn [negb] in *. cbv zeta in *.
      set (q := run_inner (inner_init m stack md) (sm_inner sm) cx) in *.
      destruct (a_out q) as [[]|w] eqn:Q; [|cbn in O; discriminate]. cbn [a_out a_machine a_cx a_tr initialized negb] in *. auto. }
    destruct Q as (Q1 & Q2 & Q3 & Q4 & Q5). rewrite Q4, Q5. unfold known. rewrite fold_left_app.
    fold (known (s_disc m (sm_state sm)) (a_tr r1)). rewrite K1, <- K2.
    apply dispatch_known; [exact Q2|]. now rewrite <- Q3.
  Qed.
  Lemma history_known ops sm cs sm' : Forall (@calm m) ops -> Forall (fun c => c_out c = Ret tt) cs ->
    history stack md ops sm cs sm' ->
    known (s_disc m (sm_state sm)) (log_of cs) = s_disc m (sm_state sm').
  Proof.
    intros C O H. induction H as [|o ops sm out sm1 cx tr cs sm' E H IH]; [reflexivity|].
    inversion C as [|? ? C1 C2]; subst. inversion O as [|? ? O1 O2]; subst. specialize (IH C2 O2).
    unfold log_of. cbn [flat_map c_tr]. unfold known. rewrite fold_left_app.
    assert (S : known (s_disc m (sm_state sm)) tr = s_disc m (sm_state sm1)).
    { cbn in O1. destruct o as [c|e c|f|f]; cbn [exec] in E; injection E as E0 E1 E2 E3; subst sm1 tr.
      - destruct (init_known sm c (s_disc m (sm_state sm))) as [K1 K2]. now rewrite K1, K2.
      - apply handle_known. now rewrite E0.
      - reflexivity.
      - cbn. now rewrite (C1 _). }
    unfold known in S. rewrite S. exact IH.
  Qed.
End Monitor.
