(** ProgressProofs.v — proofs for C92. *)

From Coq Require Import List Bool Arith Lia.
From Verif Require Import Machine Api Spec ProgressSpec.
From Verif Require DiagramProofs Props1 Props3.
Import ListNotations.

Lemma chain_same h p l : chain h p l -> forall l', chain h p l' -> l' = l.
Proof.
  induction 1; intros l' C; inversion C; subst; [reflexivity|]. f_equal. auto.
Qed.
Lemma upward_same h s p p' : upward h s p -> upward h s p' -> p' = p.
Proof. intros (l & C & ->) (l' & C' & ->). now rewrite (chain_same _ _ _ C _ C'). Qed.

Section Calls.
  Variable h : hierarchy.
  Variable m : machine.
  Variable stack : nat.
  Variable md : mode.
  Hypothesis W : well_formed h m stack.
  Hypothesis V : faithful_views m.

  Lemma thread_answers tr c out c' : thread (touches m) tr c out c' ->
    forall p e r, In (p, e, Some r) (handler_calls (calls tr)) -> can_answer m p e r.
  Proof.
    induction 1 as [c|o c w c' H|o c c1 tr out c' H _ IH|o r0 c c1 tr out c' H _ IH]; intros p e r.
    - now intros [].
    - destruct o; cbn; intros I; try contradiction. destruct I as [I|[]]. discriminate.
    - destruct o; cbn; try exact (IH p e r).
      remember (Ret None) as a eqn:A. inversion H; subst. destruct r0 as [q| |]; discriminate.
    - remember (Ret (Some r0)) as a eqn:A.
      destruct H as [x n n' x' sh sh' cx cx' e0 r1 HT HN|x n n' x' sh sh' cx cx' r1 HT HN|x n n' x' sh sh' cx cx' r1 HT HN
                    |x n sh sh' cx e0 r1 HS HN|x n sh sh' cx e0 r1 HS HN|x a1 b sh sh' cx r1 HN|x a1 b sh sh' cx r1 HN];
        destruct r1 as [q| |]; cbn in A; try discriminate.
      injection A as ->. cbn. intros [E|E]; [|exact (IH p e r E)].
      injection E as <- <- <-. exists n, sh, cx, n', sh', cx'. split; [reflexivity|exact HN].
  Qed.
  Lemma handler_calls_app (t1 t2 : list (obs m)) p e r :
    In (p, e, Some r) (handler_calls (calls t1)) -> In (p, e, Some r) (handler_calls (calls (t1 ++ t2))).
  Proof.
    induction t1 as [|o t1 IH]; [now intros []|]. destruct o; cbn; try exact IH.
    intros [E|E]; [left|right; exact (IH E)]. destruct t1 as [|o1 t1]; cbn in *; [discriminate|exact E].
  Qed.
  Lemma handler_calls_enter (t1 t2 : list (obs m)) c :
    forallb (fun o => is_enter o || is_transition_hook o) t2 = true ->
    In c (handler_calls (calls (t1 ++ t2))) -> In c (handler_calls (calls t1)).
  Proof.
    intros F. induction t1 as [|o t1 IH]; cbn.
    - induction t2 as [|o t2 IH]; [easy|]. cbn in F. apply andb_prop in F as [F1 F2].
      destruct o; try discriminate; cbn; exact (IH F2).
    - destruct o; cbn; try exact IH. intros [E|E]; [left|right; exact (IH E)].
      destruct t1 as [|o1 t1]; cbn in *; [|exact E].
      destruct t2 as [|o2 t2]; [exact E|]. cbn in F. apply andb_prop in F as [F _]. now destruct o2.
  Qed.

  (** Every handler call of a call is of [inside ++ [p]] if [p] never answers "super". *)
  Lemma calls_inside sm e cx (inside outside : list place) p :
    upward h (s_disc m (sm_state sm)) (inside ++ p :: outside) ->
    (forall r, In (p, e, Some r) (handler_calls (calls (a_tr (handle_with_context stack md sm e cx)))) -> r <> Super) ->
    forall q r, In (q, e, Some r) (handler_calls (calls (a_tr (handle_with_context stack md sm e cx)))) ->
    In q (inside ++ [p]).
  Proof.
    intros U N q r I.
    destruct (Props1.C01_dispatch_goes_up h m stack md sm e cx W) as (ps & U' & ND & P & EV & RL & _).
    rewrite (upward_same _ _ _ _ U U') in *. clear U' ps.
    set (hc := handler_calls _) in *. clearbody hc.
    assert (RE : removelast hc = [] \/ exists c, hc = removelast hc ++ [c]).
    { destruct hc as [|c0 hc0]; [now left|right]. exists (last (c0 :: hc0) c0). now apply app_removelast_last. }
    destruct P as (rest & P).
    destruct (le_lt_dec (length hc) (length inside + 1)) as [L|L].
    - assert (F : map (fun c => fst (fst c)) hc = firstn (length hc) (inside ++ [p])).
      { assert (F : firstn (length hc) (inside ++ p :: outside) = map (fun c => fst (fst c)) hc).
        { rewrite P, firstn_app, map_length, Nat.sub_diag, firstn_O, app_nil_r.
          rewrite <- (map_length (fun c => fst (fst c)) hc). apply firstn_all. }
        rewrite <- F. change (p :: outside) with ([p] ++ outside). rewrite app_assoc, firstn_app.
        replace (length hc - length (inside ++ [p])) with 0 by (rewrite app_length; cbn; lia).
        rewrite firstn_O, app_nil_r. reflexivity. }
      apply (in_map (fun c => fst (fst c))) in I. rewrite F in I. cbn in I.
      rewrite <- (firstn_skipn (length hc) (inside ++ [p])). apply in_or_app. now left.
    - exfalso.
      assert (NE : nth_error (map (fun c => fst (fst c)) hc) (length inside) = Some p).
      { transitivity (nth_error (inside ++ p :: outside) (length inside)).
        - rewrite P, nth_error_app1; [reflexivity|]. rewrite map_length. lia.
        - rewrite nth_error_app2, Nat.sub_diag; [reflexivity|lia]. }
      rewrite nth_error_map in NE. destruct (nth_error hc (length inside)) as [[[p' e'] o]|] eqn:K; [|discriminate].
      cbn in NE. injection NE as ->.
      destruct RE as [R|(c & R)].
      { destruct hc as [|c0 [|c1 hc0]]; cbn in L; try lia. cbn in R. destruct hc0; discriminate. }
      assert (I2 : In (p, e', o) (removelast hc)).
      { apply nth_error_In with (length inside). rewrite R in K, L. rewrite app_length in L. cbn in L.
        rewrite nth_error_app1 in K by lia. exact K. }
      assert (I3 : In (p, e', o) hc) by (eapply nth_error_In; eassumption).
      assert (S := RL _ I2). cbn in S. subst o. assert (X := EV _ I3). cbn in X. subst e'. exact (N Super I3 eq_refl).
  Qed.

  Lemma leads sm e cx G : leads_to h m (s_disc m (sm_state sm)) e G ->
    let r := handle_with_context stack md sm e cx in
    let s' := s_disc m (sm_state (a_machine r)) in
    G s' \/ (a_out r <> Ret tt /\ s' = s_disc m (sm_state sm)).
  Proof.
    intros (inside & p & outside & U & AN & NS) r s'.
    destruct (Props3.C21_threaded h m stack md sm e cx W V)
      as [[NT T]|(t1 & t2 & x1 & sh1 & cx1 & q & t & E & A & F & T1 & T2)].
    - right. split; [|exact (proj1 (DiagramProofs.thread_within h m stack W _ _ _ _ T))].
      intros R. specialize (NT R). assert (TA := thread_answers _ _ _ _ T). fold r in T, NT, TA.
      destruct (Props1.C01_dispatch_goes_up h m stack md sm e cx W) as (ps & U' & _ & _ & EV & _ & D).
      rewrite (upward_same _ _ _ _ U U') in *. clear U' ps. destruct (D R) as (vis & a & AV & HC).
      fold r in EV, HC. rewrite HC in TA.
      assert (NTV : forall q t, ~ In (q, Transition t) vis).
      { intros q t I. apply (NT q e t). unfold asks_for. rewrite HC. apply in_map_iff. exists (q, Transition t). auto. }
      assert (TV : forall q a, In (q, a) vis -> can_answer m q e a).
      { intros q b I. apply TA. apply in_map_iff. exists (q, b). auto. }
      clear - AN NS AV NTV TV. revert vis AV NTV TV.
      assert (KP : forall q, In q (inside ++ [p]) -> forall r, can_answer m q e r -> r = Super \/ exists t, r = Transition t)
        by (intros q I r H; destruct (AN q r I H) as [->|(t & -> & _)]; eauto).
      clear AN. induction inside as [|q inside IH]; intros vis AV NTV TV; cbn in AV.
      + inversion AV; subst.
        * destruct (KP p (or_introl eq_refl) a (TV p a (or_introl eq_refl))) as [K|(t & K)]; subst a;
            [congruence|exact (NTV p t (or_introl eq_refl))].
        * exact (NS (TV p Super (or_introl eq_refl))).
      + inversion AV; subst.
        * destruct (KP q (or_introl eq_refl) a (TV q a (or_introl eq_refl))) as [K|(t & K)]; subst a;
            [congruence|exact (NTV q t (or_introl eq_refl))].
        * eapply (IH (fun q0 I => KP q0 (or_intror I))); [eassumption| |].
          -- intros q0 t I. exact (NTV q0 t (or_intror I)).
          -- intros q0 b I. exact (TV q0 b (or_intror I)).
    - left. assert (D := proj1 (DiagramProofs.thread_within h m stack W _ _ _ _ T2)).
      change (s' = s_disc m t) in D. rewrite D.
      assert (TA := thread_answers _ _ _ _ T1).
      assert (I : In q (inside ++ [p])).
      { apply (calls_inside sm e cx inside outside p U) with (r := Transition t).
        - intros r0 I0 ->. rewrite E in I0. apply (handler_calls_enter _ _ _ F) in I0. exact (NS (TA _ _ _ I0)).
        - rewrite E. apply handler_calls_app. exact A. }
      destruct (AN q _ I (TA _ _ _ A)) as [K|(t0 & K & HG)]; [discriminate|]. now injection K as <-.
  Qed.

  Lemma leads_only sm e cx (G : nat -> Prop) : leads_only_to h m (s_disc m (sm_state sm)) e G ->
    let r := handle_with_context stack md sm e cx in
    let s' := s_disc m (sm_state (a_machine r)) in
    G s' \/ s' = s_disc m (sm_state sm).
  Proof.
    intros LO r s'.
    destruct (Props3.C21_threaded h m stack md sm e cx W V)
      as [[NT T]|(t1 & t2 & x1 & sh1 & cx1 & q & t & E & A & F & T1 & T2)].
    - right. exact (proj1 (DiagramProofs.thread_within h m stack W _ _ _ _ T)).
    - left. assert (D := proj1 (DiagramProofs.thread_within h m stack W _ _ _ _ T2)).
      change (s' = s_disc m t) in D. rewrite D.
      destruct (Props1.C01_dispatch_goes_up h m stack md sm e cx W) as (ps & U & _ & (rest & P) & _).
      apply (LO ps q t U); [|exact (thread_answers _ _ _ _ T1 _ _ _ A)].
      rewrite P. apply in_or_app. left. apply in_map_iff. exists (q, e, Some (Transition t)). split; [reflexivity|].
      rewrite E. apply handler_calls_app. exact A.
  Qed.

  Section Goal.
    Variable E : Event m -> Prop.
    Variable goal : nat -> bool.
    Variable rank : nat -> nat.
    Hypothesis towards : forall s e, goal s = false -> E e ->
      leads_to h m s e (fun t => goal t = true \/ rank t < rank s).

    Lemma exec_towards o sm out sm1 cx tr : calm o -> event_in m E o ->
      exec stack md o sm = (out, sm1, cx, tr) -> goal (s_disc m (sm_state sm)) = false ->
      let s := s_disc m (sm_state sm) in
      let s1 := s_disc m (sm_state sm1) in
      goal s1 = true \/ rank s1 < rank s \/
      (rank s1 = rank s /\ match o with OpHandle _ _ => out <> Ret tt | _ => True end).
    Proof.
      intros C EI X NG s s1. subst s s1.
      destruct o as [c|e c|f|f]; cbn [exec] in X; injection X as X0 X1 X2 X3; subst sm1.
      - right. right. split; [|exact I].
        now rewrite (proj1 (DiagramProofs.init_diagram h m stack md W V sm c)).
      - destruct (leads sm e c _ (towards _ e NG EI)) as [[K|K]|[K1 K2]]; [now left|right; now left|].
        right. right. rewrite K2. split; [reflexivity|]. now rewrite <- X0.
      - right. right. split; [reflexivity|exact I].
      - right. right. split; [|exact I]. cbn. now rewrite (C _).
    Qed.

    Lemma reached ops sm cs sm' : Forall (@calm m) ops -> Forall (event_in m E) ops ->
      history stack md ops sm cs sm' -> rank (s_disc m (sm_state sm)) < handled m ops cs ->
      exists ops1 ops2 cs1 cs2 sm1, ops = ops1 ++ ops2 /\ cs = cs1 ++ cs2 /\
        history stack md ops1 sm cs1 sm1 /\ history stack md ops2 sm1 cs2 sm' /\
        goal (s_disc m (sm_state sm1)) = true /\
        handled m ops1 cs1 <= S (rank (s_disc m (sm_state sm))).
    Proof.
      intros C EI H. induction H as [|o ops sm out sm1 cx tr cs sm' X H IH]; intros L; [cbn in L; lia|].
      destruct (goal (s_disc m (sm_state sm))) eqn:NG.
      { exists [], (o :: ops), [], (Called out cx tr :: cs), sm. repeat split; auto; try constructor.
        - econstructor; eauto.
        - cbn. lia. }
      inversion C as [|? ? C1 C2]; subst. inversion EI as [|? ? E1 E2]; subst. specialize (IH C2 E2).
      assert (HD : handled m (o :: ops) (Called out cx tr :: cs) <= S (handled m ops cs) /\
                   (match o with OpHandle _ _ => out <> Ret tt | _ => True end ->
                    handled m (o :: ops) (Called out cx tr :: cs) = handled m ops cs) /\
                   forall a b, handled m (o :: a) (Called out cx tr :: b) <= S (handled m a b) /\
                     (match o with OpHandle _ _ => out <> Ret tt | _ => True end ->
                      handled m (o :: a) (Called out cx tr :: b) = handled m a b)).
      { assert (G : forall a b, handled m (o :: a) (Called out cx tr :: b) <= S (handled m a b) /\
                     (match o with OpHandle _ _ => out <> Ret tt | _ => True end ->
                      handled m (o :: a) (Called out cx tr :: b) = handled m a b)).
        { intros a b. destruct o as [c|e c|f|f]; cbn [handled]; try (split; [lia|reflexivity]).
          destruct out as [[]|w]; (split; [lia|]); [now intros []|reflexivity]. }
        split; [apply G|split; [apply G|exact G]]. }
      destruct HD as (HD1 & HD2 & HD3).
      assert (OK : goal (s_disc m (sm_state sm1)) = true -> exists ops1 ops2 cs1 cs2 sm2,
          o :: ops = ops1 ++ ops2 /\ Called out cx tr :: cs = cs1 ++ cs2 /\
          history stack md ops1 sm cs1 sm2 /\ history stack md ops2 sm2 cs2 sm' /\
          goal (s_disc m (sm_state sm2)) = true /\ handled m ops1 cs1 <= S (rank (s_disc m (sm_state sm)))).
      { intros G. exists [o], ops, [Called out cx tr], cs, sm1. repeat split; auto.
        - econstructor; [exact X|constructor].
        - destruct (HD3 [] []) as [Q _]. cbn [handled] in *. lia. }
      assert (GO : rank (s_disc m (sm_state sm1)) < handled m ops cs ->
                   (rank (s_disc m (sm_state sm1)) < rank (s_disc m (sm_state sm)) \/
                    (rank (s_disc m (sm_state sm1)) = rank (s_disc m (sm_state sm)) /\
                     match o with OpHandle _ _ => out <> Ret tt | _ => True end)) ->
                   exists ops1 ops2 cs1 cs2 sm2,
          o :: ops = ops1 ++ ops2 /\ Called out cx tr :: cs = cs1 ++ cs2 /\
          history stack md ops1 sm cs1 sm2 /\ history stack md ops2 sm2 cs2 sm' /\
          goal (s_disc m (sm_state sm2)) = true /\ handled m ops1 cs1 <= S (rank (s_disc m (sm_state sm)))).
      { intros G K. destruct (IH G) as (ops1 & ops2 & cs1 & cs2 & sm2 & -> & -> & A & B & D & F).
        exists (o :: ops1), ops2, (Called out cx tr :: cs1), cs2, sm2. repeat split; auto.
        - econstructor; eauto.
        - destruct (HD3 ops1 cs1) as [Q1 Q2]. destruct K as [K|[K1 K2]]; [lia|]. rewrite (Q2 K2). lia. }
      destruct (exec_towards o sm out sm1 cx tr C1 E1 X NG) as [K|[K|[K1 K2]]].
      - exact (OK K).
      - apply GO; [lia|now left].
      - apply GO; [rewrite <- (HD2 K2); lia|now right].
    Qed.

    Hypothesis stays : forall s e, goal s = true -> E e -> leads_only_to h m s e (fun t => goal t = true).
    Lemma kept ops sm cs sm' : Forall (@calm m) ops -> Forall (event_in m E) ops ->
      history stack md ops sm cs sm' -> goal (s_disc m (sm_state sm)) = true ->
      goal (s_disc m (sm_state sm')) = true.
    Proof.
      intros C EI H. induction H as [|o ops sm out sm1 cx tr cs sm' X H IH]; intros G; [exact G|].
      inversion C as [|? ? C1 C2]; subst. inversion EI as [|? ? E1 E2]; subst. apply (IH C2 E2).
      destruct o as [c|e c|f|f]; cbn [exec] in X; injection X as X0 X1 X2 X3; subst sm1.
      - now rewrite (proj1 (DiagramProofs.init_diagram h m stack md W V sm c)).
      - destruct (leads_only sm e c _ (stays _ e G E1)) as [K|K]; [exact K|now rewrite K].
      - exact G.
      - cbn. now rewrite (C1 _).
    Qed.
  End Goal.
End Calls.
