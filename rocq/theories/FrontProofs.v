(** FrontProofs.v — lemmas for Props2: initialization, front ends, histories. *)

From Coq Require Import List Bool Arith Lia.
From Verif Require Import Machine Blocking Awaitable Api Spec TripleProofs ShapeProofs
  DispatchProofs TransitionProofs ApiProofs RouteProofs HistoryProofs TotalProofs ThreadProofs
  HandleProofs.
Import ListNotations.
Set Implicit Arguments.

Section Front.
  Variable m : machine.
  Variable stack : nat.
  Variable md : mode.

  (** *** C10 *)
  Lemma front_ends_agree sh cx (e : Event m) evs :
    let sm := new_state_machine m sh in
    match um_init_with_context stack md (new_uninitialized m sh) cx with
    | (Ret im, cx', tr) =>
        init_with_context stack md sm cx = ApiRes (Ret tt) (erase im) cx' tr /\
        (sm_handles stack md (erase im) evs =
           let '(im', cs) := im_handles stack md im evs in (erase im', cs)) /\
        (sm_handles stack md sm ((e, cx) :: evs) =
           let '(im', cs) := im_handles stack md im ((e, cx') :: evs) in
           (erase im', match cs with
                       | c :: cs' => Called (c_out c) (c_cx c) (tr ++ c_tr c) :: cs'
                       | [] => [] end))
    | (Abort w, cx', tr) =>
        a_out (init_with_context stack md sm cx) = Abort w /\
        a_cx (init_with_context stack md sm cx) = cx' /\
        a_tr (init_with_context stack md sm cx) = tr
    end.
  Proof.
    intros sm. pose proof (um_init_erase m stack md sh cx) as H. cbv zeta in H. fold sm in H.
    destruct (um_init_with_context stack md (new_uninitialized m sh) cx) as [[[im|w] cx'] tr]; [|exact H].
    split; [exact H|]. split; [apply handles_agree|].
    cbn [sm_handles im_handles].
    assert (E : handle_with_context stack md sm e cx =
      (let r := im_handle_with_context stack md im e cx' in
       ApiRes (a_out r) (erase (a_machine r)) (a_cx r) (tr ++ a_tr r))).
    { rewrite handle_is_init_then_handle, H. unfold and_then. cbn [a_out a_machine a_cx a_tr].
      rewrite im_handle_erase. reflexivity. }
    rewrite E. cbv zeta. cbn [a_out a_machine a_cx a_tr]. rewrite handles_agree.
    destruct (im_handles stack md _ evs) as [im' cs]. reflexivity.
  Qed.

  Variable h : hierarchy.
  Hypothesis W : well_formed h m stack.

  (** *** C08 *)
  Lemma init_log (sm : state_machine m) cx :
    initialized sm = false ->
    let r := init_with_context stack md sm cx in
    exists p, path h (s_disc m (sm_state sm)) p /\
      forallb (@is_enter m) (a_tr r) = true /\
      prefix (acts (a_tr r)) (map Enter p) /\
      s_disc m (sm_state (a_machine r)) = s_disc m (sm_state sm) /\
      (a_out r = Ret tt <-> initialized (a_machine r) = true) /\
      (a_out r = Ret tt -> acts (a_tr r) = map Enter p) /\
      (forall w, a_out r = Abort w -> w = Panicked \/ w = DroppedFuture).
  Proof.
    intros Hi r. destruct (api_init_run W md sm cx Hi) as (p & Hp & Hd & Ho & Hr).
    fold r in Hd, Ho, Hr. exists p.
    assert (Hpre : prefix (acts (a_tr r)) (map Enter p)).
    { destruct (a_out r); [destruct Hr as [-> _]; exists []; now rewrite app_nil_r|apply Hr]. }
    split; [exact Hp|]. split; [eapply all_enter; eauto|]. split; [exact Hpre|]. split; [exact Hd|].
    destruct (a_out r) as [[]|w].
    - destruct Hr as [Ha Hi']. split; [tauto|]. split; [auto|discriminate].
    - destruct Hr as (Hu & _ & _ & Hi'). split; [split; congruence|]. split; [discriminate|].
      intros w' E. injection E as <-. destruct w; simpl in Hu; auto; contradiction.
  Qed.

  (** A history without aborts: at most one initialization, and first of all. *)
  Lemma init_once ops (sm : state_machine m) cs sm' :
    initialized sm = false -> history stack md ops sm cs sm' -> Forall (@calm m) ops ->
    completed cs ->
    (log_of cs = [] /\ initialized sm' = false /\
     Forall (fun o => match o with OpInit _ | OpHandle _ _ => False | _ => True end) ops) \/
    (exists p t0 sm1 ops1 cs1,
        path h (s_disc m (sm_state sm)) p /\ acts t0 = map Enter p /\
        forallb (@is_enter m) t0 = true /\
        log_of cs = t0 ++ log_of cs1 /\ initialized sm1 = true /\
        history stack md ops1 sm1 cs1 sm' /\ length ops1 <= length ops).
  Proof.
    intros Hi H; revert Hi; induction H as [sm|o ops sm out sm1 cx tr cs sm' E H IH];
      intros Hi Hk Hc.
    - left. repeat split; auto.
    - inversion Hk as [|? ? Hk1 Hk2]; subst. inversion Hc as [|? ? Hc1 Hc2]; subst. simpl in Hc1.
      change (log_of (Called out cx tr :: cs)) with (tr ++ log_of cs).
      assert (Hmut : tr = [] -> initialized sm1 = false ->
        match o with OpInit _ | OpHandle _ _ => False | _ => True end ->
        s_disc m (sm_state sm1) = s_disc m (sm_state sm) ->
        (tr ++ log_of cs = [] /\ initialized sm' = false /\
          Forall (fun o => match o with OpInit _ | OpHandle _ _ => False | _ => True end) (o :: ops)) \/
        (exists p t0 sm1 ops1 cs1,
            path h (s_disc m (sm_state sm)) p /\ acts t0 = map Enter p /\
            forallb (@is_enter m) t0 = true /\
            tr ++ log_of cs = t0 ++ log_of cs1 /\ initialized sm1 = true /\
            history stack md ops1 sm1 cs1 sm' /\ length ops1 <= length (o :: ops))).
      { intros -> Hi1 Ho Hd. destruct (IH Hi1 Hk2 Hc2) as
          [(Hl & Hi' & Hf)|(p & t0 & sm2 & ops1 & cs1 & Hp & Ha & He & Hl & Hi2 & Hh & Hlen)].
        - left. simpl. auto.
        - right. exists p, t0, sm2, ops1, cs1. rewrite <- Hd. simpl. auto 9. }
      destruct o as [c|e c|f|f]; simpl in E; inversion E as [[E1 E2 E3 E4]].
      + right. destruct (init_log sm c Hi) as (p & Hp & He & _ & _ & Hiff & Ha & _).
        rewrite E1, Hc1 in *. exists p, (a_tr (init_with_context stack md sm c)), sm1, ops, cs.
        rewrite E2 in Hiff. split; [exact Hp|]. split; [auto|]. split; [exact He|].
        split; [reflexivity|]. split; [now apply Hiff|]. split; [exact H|simpl; lia].
      + right. destruct (init_log sm c Hi) as (p & Hp & He & _ & _ & Hiff & Ha & _).
        pose proof (handle_is_init_then_handle stack md sm e c) as Hr. unfold and_then in Hr.
        destruct (a_out (init_with_context stack md sm c)) as [[]|w] eqn:Ei.
        * set (r0 := init_with_context stack md sm c) in *.
          exists p, (a_tr r0), (a_machine r0), (OpHandle e (a_cx r0) :: ops),
            (Called out (Some (a_cx (handle_with_context stack md (a_machine r0) e (a_cx r0))))
               (a_tr (handle_with_context stack md (a_machine r0) e (a_cx r0))) :: cs).
          split; [exact Hp|]. split; [auto|]. split; [exact He|]. rewrite Hr in *.
          cbn [a_out a_machine a_cx a_tr] in *.
          split. { unfold log_of. cbn [flat_map c_tr]. now rewrite app_assoc. }
          split; [now apply Hiff|]. split; [|simpl; lia].
          econstructor; [|exact H]. simpl. rewrite E1, E2. reflexivity.
        * rewrite Hr in E1. rewrite Ei in E1. congruence.
      + subst. apply Hmut; auto.
      + subst. apply Hmut; auto. unfold state_mut, sm_state. simpl. apply Hk1.
  Qed.

  (** *** C19 *)
  Lemma init_aborted (sm : state_machine m) cx w :
    initialized sm = false ->
    let r := init_with_context stack md sm cx in
    a_out r = Abort w ->
    initialized (a_machine r) = false /\
    (forall e, handle_with_context stack md sm e cx = r) /\
    exists p, path h (s_disc m (sm_state sm)) p /\ forallb (@is_enter m) (a_tr r) = true /\
      prefix (acts (a_tr r)) (map Enter p) /\
      forall cx2, let r2 := init_with_context stack md (a_machine r) cx2 in
        prefix (acts (a_tr r2)) (map Enter p) /\ (a_out r2 = Ret tt -> acts (a_tr r2) = map Enter p).
  Proof.
    intros Hi r Eo. destruct (init_log sm cx Hi) as (p & Hp & He & Hpre & Hd & Hiff & _ & _).
    fold r in He, Hpre, Hd, Hiff.
    assert (Hi' : initialized (a_machine r) = false).
    { destruct (initialized (a_machine r)); [|reflexivity].
      assert (a_out r = Ret tt) by (now apply Hiff). congruence. }
    split; [exact Hi'|]. split.
    { intros e. rewrite handle_is_init_then_handle. unfold and_then. fold r. now rewrite Eo. }
    exists p. split; [exact Hp|]. split; [exact He|]. split; [exact Hpre|].
    intros cx2 r2. destruct (init_log (a_machine r) cx2 Hi') as (p2 & Hp2 & _ & Hpre2 & _ & _ & Ha2 & _).
    fold r2 in Hpre2, Ha2. rewrite Hd in Hp2.
    rewrite <- (path_functional Hp Hp2) in *. auto.
  Qed.

  (** After an abort that came later than initialization, the machine stays initialized. *)
  Lemma handle_initialized (sm : state_machine m) e cx :
    let r := handle_with_context stack md sm e cx in
    initialized (a_machine r) = true <->
    initialized sm = true \/ a_out (init_with_context stack md sm cx) = Ret tt.
  Proof.
    intros r. subst r. rewrite handle_is_init_then_handle. unfold and_then.
    destruct (initialized sm) eqn:Hi.
    - rewrite init_idempotent by exact Hi. cbn [a_out a_machine a_cx a_tr].
      split; [auto|]. intros _. now apply handle_stays_initialized.
    - destruct (init_log sm cx Hi) as (p & _ & _ & _ & _ & Hiff & _ & _).
      destruct (a_out (init_with_context stack md sm cx)) as [[]|w] eqn:Ei.
      + cbn [a_machine]. split; [auto|]. intros _. apply handle_stays_initialized. now apply Hiff.
      + split; [intros H; apply Hiff in H; discriminate|]. intros [?|?]; discriminate.
  Qed.

  (** *** C42 *)
  Lemma state_mut_before_init (sm : state_machine m) f g cx :
    initialized sm = false ->
    let r := init_with_context stack md (state_mut f (inner_mut g sm)) cx in
    a_out r = Ret tt ->
    exists p, path h (s_disc m (f (sm_state sm))) p /\ acts (a_tr r) = map Enter p /\
      s_disc m (sm_state (a_machine r)) = s_disc m (f (sm_state sm)).
  Proof.
    intros Hi r Eo. assert (Hi' : initialized (state_mut f (inner_mut g sm)) = false) by exact Hi.
    destruct (init_log (state_mut f (inner_mut g sm)) cx Hi') as (p & Hp & _ & _ & Hd & _ & Ha & _).
    exists p. split; [exact Hp|]. split; [now apply Ha|exact Hd].
  Qed.
End Front.
