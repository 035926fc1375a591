(** RestoreProofs.v — C23, C25: machines restored from serialized data. *)

From Coq Require Import List Bool Arith String Lia.
From Verif Require Import Machine Blocking Awaitable Api Serde Spec HistoryProofs HandleProofs
  FrontProofs SerdeProofs.
Import ListNotations.
Set Implicit Arguments.

Section Restore.
  Variable m : machine.
  Variable ser_shared : Shared m -> result data.
  Variable ser_state : State m -> result data.
  Variable de_shared : data -> result (Shared m).
  Variable de_state : data -> result (State m).
  Variable f : format.
  Hypothesis RT : round_trips m ser_shared ser_state de_shared de_state.
  Hypothesis L : layout_of f = Named \/ layout_of f = Tagged \/ layout_of f = Positional.

  Notation de_sm := (de_sm m de_shared de_state f).
  Notation de_um := (de_um m de_shared de_state f).

  Lemma round_trip_sm sm d : ser_sm m ser_shared ser_state f sm = Ok d ->
    de_sm d = Ok (StateMachine (sm_inner sm) false) /\
    de_um d = Ok (UninitializedMachine (sm_inner sm)).
  Proof.
    intros E. unfold Serde.de_sm, Serde.de_um.
    rewrite (@round_trip_inner m ser_shared ser_state de_shared de_state f _ _ RT L E).
    split; reflexivity.
  Qed.
  Lemma round_trip_um um d : ser_um m ser_shared ser_state f um = Ok d ->
    de_sm d = Ok (StateMachine (um_inner um) false) /\
    de_um d = Ok um.
  Proof.
    intros E. unfold Serde.de_sm, Serde.de_um.
    rewrite (@round_trip_inner m ser_shared ser_state de_shared de_state f _ _ RT L E).
    destruct um. split; reflexivity.
  Qed.
  Lemma round_trip_im im d : ser_im m ser_shared ser_state f im = Ok d ->
    de_sm d = Ok (StateMachine (im_inner im) false) /\
    de_um d = Ok (UninitializedMachine (im_inner im)).
  Proof. exact (@round_trip_sm (StateMachine (im_inner im) false) d). Qed.

  Variable h : hierarchy.
  Variable stack : nat.
  Variable md : mode.
  Hypothesis W : well_formed h m stack.

  Lemma handle_extends_init (sm : state_machine m) e cx :
    exists rest, a_tr (handle_with_context stack md sm e cx) =
                 a_tr (init_with_context stack md sm cx) ++ rest.
  Proof.
    rewrite handle_is_init_then_handle. unfold and_then.
    destruct (init_with_context stack md sm cx) as [[[]|w] sm1 cx1 t1]; cbn [a_out a_tr a_machine a_cx].
    - eexists. reflexivity.
    - exists []. now rewrite app_nil_r.
  Qed.

  (** Any uninitialized machine, whatever its state. *)
  Lemma uninitialized_enters (sm : state_machine m) e cx :
    initialized sm = false ->
    let r0 := init_with_context stack md sm cx in
    let r := handle_with_context stack md sm e cx in
    exists p ps, path h (s_disc m (sm_state sm)) p /\ upward h (s_disc m (sm_state sm)) ps /\
      forallb (@is_enter m) (a_tr r0) = true /\ prefix (acts (a_tr r0)) (map Enter p) /\
      (a_out r0 = Ret tt -> acts (a_tr r0) = map Enter p) /\
      (exists rest, a_tr r = a_tr r0 ++ rest) /\
      prefix (map (fun c => fst (fst c)) (handler_calls (calls (a_tr r)))) ps /\
      (a_out r = Ret tt -> exists a rest,
         handler_calls (calls (a_tr r)) = (AtState (s_disc m (sm_state sm)), e, Some a) :: rest).
  Proof.
    intros Hi r0 r.
    destruct (@FrontProofs.init_log m stack md h W sm cx Hi) as (p & Hp & He & Hpre & _ & _ & Hc & _).
    fold r0 in He, Hpre, Hc.
    destruct (dispatch_order W md sm e cx) as (ps & Hup & _ & Hpp & _ & _ & Hans).
    fold r in Hpp, Hans.
    exists p, ps. split; [exact Hp|]. split; [exact Hup|]. split; [exact He|].
    split; [exact Hpre|]. split; [exact Hc|]. split; [exact (handle_extends_init sm e cx)|].
    split; [exact Hpp|]. intros Ho. destruct (Hans Ho) as (vis & a & Ha & E).
    destruct Hup as (l & Hl & ->).
    rewrite E. inversion Ha; subst; simpl; eauto.
  Qed.

  Lemma um_init_log (um : uninitialized_machine m) cx o cx' tr :
    um_init_with_context stack md um cx = (o, cx', tr) ->
    exists p, path h (s_disc m (state (um_inner um))) p /\ forallb (@is_enter m) tr = true /\
      prefix (acts tr) (map Enter p) /\
      forall im, o = Ret im -> acts tr = map Enter p /\
        s_disc m (state (im_inner im)) = s_disc m (state (um_inner um)).
  Proof.
    intros E.
    destruct (@FrontProofs.init_log m stack md h W (StateMachine (um_inner um) false) cx eq_refl)
      as (p & Hp & He & Hpre & Hd & _ & Hc & _).
    unfold um_init_with_context in E. unfold init_with_context in He, Hpre, Hd, Hc. simpl negb in *.
    cbn [sm_inner] in *.
    exists p. split; [exact Hp|].
    destruct (run_inner _ (um_inner um) cx) as [[[]|w] i cx1 t1]; cbn [a_out a_tr a_cx a_machine] in *;
      inversion E; subst; (split; [exact He|]); (split; [exact Hpre|]).
    - intros im Ei. inversion Ei; subst. split; [exact (Hc eq_refl)|exact Hd].
    - intros im Ei. discriminate.
  Qed.
End Restore.
