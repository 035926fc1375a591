(** RepoCalcUse.v — the calculator, one key at a time. *)

From Coq Require Import String Ascii List Bool Arith Lia.
From Verif Require Import Machine Blocking Api Spec HistoryProofs Sim RepoExamples RepoSpec RepoUseProofs.
Import ListNotations.
Open Scope string_scope.
Open Scope list_scope.
Set Implicit Arguments.

Section CalcUse.
  Variable fl : floats.
  Variable minus0 : string.
  Notation calc := (calculator_with fl minus0).
  Notation St := (calc_state fl).

  Definition entered (x : St) (d : string) : string :=
    match x with CBegin => "0" | CResult r => f_show fl r | _ => d end.
  Definition supers (x : St) : list (calc_super fl) :=
    match x with
    | CBegin | CResult _ => [CReady; COn]
    | CZero1 | CInt1 | CFrac1 | CNegated1 => [COperand1; COn]
    | COpEntered _ _ | CNegated2 _ _ => [COn]
    | CZero2 a op | CInt2 a op | CFrac2 a op => [COperand2 a op; COn]
    end.
  Definition settle (x : St) (r : reply (response St) * string) (otherwise : string -> option (St * string)) : option (St * string) :=
    match r with
    | (Returns Handled, d) => Some (x, d)
    | (Returns (Transition y), d) => Some (y, entered y d)
    | (Returns Super, d) => otherwise d
    | _ => None
    end.
  Fixpoint offer (us : list (calc_super fl)) (x : St) (e : calc_event) (d : string) : option (St * string) :=
    match us with
    | [] => Some (x, d)
    | u :: us' => settle x (calc_super_handler u d e) (offer us' x e)
    end.
  Definition calc_step (x : St) (d : string) (e : calc_event) : option (St * string) :=
    settle x (calc_handler minus0 x d e) (offer (supers x) x e).
End CalcUse.


(** The calculator, with what its display reads as kept next to it. *)
Section Watched.
  Variable fl : floats.
  Variable minus0 : string.
  Notation calc := (calculator_with fl minus0).
  Definition see (d : string) : string * option (f32 fl) := (d, f_parse fl d).
  Definition keep {X} (x : X) (p : string * option (f32 fl)) (c : unit) (r : reply (response (calc_state fl)) * string)
    : reply (response (calc_state fl)) * X * (string * option (f32 fl)) * unit :=
    match r with
    | (Returns Super, _) => (Returns Super, x, p, c)
    | (r, d) => (r, x, see d, c)
    end.
  Definition w_number (p : string * option (f32 fl)) (k : f32 fl -> calc_state fl) : reply (response (calc_state fl)) * string :=
    match snd p with Some x => (Returns (Transition (k x)), fst p) | None => (Panics, fst p) end.
  Definition w_super (u : calc_super fl) (p : string * option (f32 fl)) (c : unit) (e : calc_event) :=
    keep u p c
      match u, e with
      | CReady, Operator op => w_number p (fun a => COpEntered a op)
      | COperand1, Operator op => w_number p (fun a => COpEntered a op)
      | COperand1, Equal => w_number p (fun a => CResult a)
      | COperand2 a op, Equal => w_number p (fun b => CResult (eval_op fl op a b))
      | COperand2 a op, Operator next => w_number p (fun b => COpEntered (eval_op fl op a b) next)
      | _, _ => calc_super_handler u (fst p) e
      end.
  Definition w_handler (x : calc_state fl) (p : string * option (f32 fl)) (c : unit) (e : calc_event) :=
    keep x p c (calc_handler minus0 x (fst p) e).
  Definition w_entry (x : calc_state fl) (p : string * option (f32 fl)) (c : unit)
    : reply unit * calc_state fl * (string * option (f32 fl)) * unit :=
    (Returns tt, x, match x with CBegin => see "0" | CResult r => see (f_show fl r) | _ => p end, c).
  Definition watched : machine := {|
    State := calc_state fl; Sup := calc_super fl; Shared := string * option (f32 fl); Event := calc_event; Ctx := unit;
    initial := CBegin; s_disc := s_disc calc; u_disc := u_disc calc;
    s_super := s_super calc; s_put := s_put calc; u_super := u_super calc; u_put := u_put calc;
    s_handler := w_handler; s_entry := w_entry; s_exit := no_action;
    u_handler := w_super; u_entry := no_action; u_exit := no_action;
    h_before_dispatch := no_dispatch_hook; h_after_dispatch := no_dispatch_hook;
    h_before_transition := no_transition_hook; h_after_transition := no_transition_hook
  |}.
  Definition watching : relations calc watched :=
    @Relations calc watched eq eq (fun d p => p = see d) eq eq.
  Lemma keep_rel {X} (x : X) d c r :
    (forall d', r = (Returns Super, d') -> d' = d) ->
    callback_rel watching (response_rel eq) eq (fst r, x, snd r, c) (keep x (see d) c r).
  Proof.
    intros K. destruct r as [[[| |t]| |] d']; cbn; repeat split; try constructor; try reflexivity.
    all: try (unfold see; now rewrite (K d' eq_refl)). all: constructor; reflexivity.
  Qed.
  Lemma watched_similar : similar watching.
  Proof.
    constructor; cbn [r_state r_sup r_shared r_event r_ctx watching]; intros; subst; try reflexivity.
    - cbn. destruct (s_super calc x') eqn:E; cbn in E; rewrite E; constructor; reflexivity.
    - cbn. destruct (u_super calc u') eqn:E; cbn in E; rewrite E; constructor; reflexivity.
    - cbn [s_handler watched]. unfold w_handler, see. cbn [fst].
      change (s_handler calc x' sh cx' e') with (only_shared (calc_handler minus0) x' sh cx' e').
      unfold only_shared.
      pose proof (@keep_rel _ x' sh cx' (calc_handler minus0 x' sh e')) as K.
      destruct (calc_handler minus0 x' sh e') as [r d] eqn:E. apply K. intros d' [= -> ->].
      destruct x', e' as [| |[|k]| |[]|]; cbn in E; unfold go, handled, defer in E; congruence.
    - cbn. split; [now constructor|]. repeat split. now destruct x'.
    - cbn. split; [now constructor|]. repeat split.
    - cbn [u_handler watched]. unfold w_super, see. cbn [fst].
      change (u_handler calc x' sh cx' e') with (only_shared (@calc_super_handler fl) x' sh cx' e').
      unfold only_shared.
      match goal with |- context [keep _ _ _ ?r] => replace r with (calc_super_handler x' sh e') end.
      + pose proof (@keep_rel _ x' sh cx' (calc_super_handler x' sh e')) as K.
        destruct (calc_super_handler x' sh e') as [r d] eqn:E. apply K. intros d' [= -> ->].
        destruct x', e' as [| |[|k]| |[]|]; cbn in E; unfold parsed, go, handled, defer in E; try congruence;
          destruct (f_parse fl sh); congruence.
      + destruct x', e'; reflexivity.
    - cbn. split; [now constructor|]. repeat split.
    - cbn. split; [now constructor|]. repeat split.
    - cbn. split; [now constructor|]. repeat split.
    - cbn. split; [now constructor|]. repeat split.
    - cbn. split; [now constructor|]. repeat split.
    - cbn. split; [now constructor|]. repeat split.
  Qed.
End Watched.

Lemma watched_handle fl minus0 n md (x : calc_state fl) (d : string) s (e : calc_event) :
  let r := handle_with_context (S (S (S (S n)))) md (StateMachine (Inner (m := watched fl minus0) (d, s) x) true) e tt in
  match
    match supers x, e with
    | CReady :: _, Operator Sub => match x with CBegin => Some (CNegated1, minus0) | _ => option_map (fun a => (COpEntered a Sub, d)) s end
    | CReady :: _, Operator op => option_map (fun a => (COpEntered a op, d)) s
    | COperand1 :: _, Operator op => match x with CNegated1 => Some (x, d) | _ => option_map (fun a => (COpEntered a op, d)) s end
    | COperand1 :: _, Equal => option_map (fun a => (CResult a, f_show fl a)) s
    | COperand2 a op :: _, Equal => option_map (fun b => (CResult (eval_op fl op a b), f_show fl (eval_op fl op a b))) s
    | COperand2 a op :: _, Operator next => option_map (fun b => (COpEntered (eval_op fl op a b) next, d)) s
    | _, _ => calc_step minus0 x d e
    end
  with
  | Some (y, d') => a_out r = Ret tt /\ sm_state (a_machine r) = y /\ fst (sm_shared (a_machine r)) = d' /\ initialized (a_machine r) = true
  | None => a_out r = Abort Panicked
  end.
Proof.
  destruct fl as [F parse show dv ml sb ad].
  destruct md, x, e as [| |[|k]| |[]|], s; vm_compute; repeat split.
Qed.

Lemma calc_handle fl minus0 n md (x : calc_state fl) (d : string) (e : calc_event) :
  let r := handle_with_context (S (S (S (S n)))) md (StateMachine (Inner (m := calculator_with fl minus0) d x) true) e tt in
  match calc_step minus0 x d e with
  | Some (y, d') =>
      a_out r = Ret tt /\
      a_machine r = StateMachine (Inner (m := calculator_with fl minus0) d' y) true
  | None => a_out r = Abort Panicked
  end.
Proof.
  cbv zeta.
  pose proof (@watched_handle fl minus0 n md x d (f_parse fl d) e) as W. cbv zeta in W.
  pose proof (@sim_handle _ _ (watching fl minus0) (watched_similar fl minus0) (S (S (S (S n)))) md
                (StateMachine (Inner (m := calculator_with fl minus0) d x) true)
                (StateMachine (Inner (m := watched fl minus0) (d, f_parse fl d) x) true) e e tt tt) as S.
  destruct S as (O & (MS & MD & MI) & _); [repeat split|reflexivity|reflexivity|].
  cbn [r_state r_shared watching] in MS, MD.
  set (r := handle_with_context _ md (StateMachine (Inner (m := calculator_with fl minus0) d x) true) e tt) in *.
  set (w := handle_with_context _ md (StateMachine (Inner (m := watched fl minus0) (d, f_parse fl d) x) true) e tt) in *.
  clearbody r w.
  match type of W with match ?a with _ => _ end => replace a with (calc_step minus0 x d e) in W end.
  2: { unfold calc_step, settle, parsed.
       destruct x, e as [| |[|k]| |[]|]; cbn; unfold parsed; try reflexivity; destruct (f_parse fl d); reflexivity. }
  destruct (calc_step minus0 x d e) as [[y d']|].
  - destruct W as (W1 & W2 & W3 & W4). split; [congruence|].
    rewrite MD in W3. cbn in W3. rewrite W4 in MI. rewrite <- MS in W2.
    destruct (a_machine r) as [[sh st] i]. cbn in *. congruence.
  - congruence.
Qed.

Lemma calc_init fl minus0 n md x d :
  let r := init_with_context (S (S (S (S n)))) md (StateMachine (Inner (m := calculator_with fl minus0) d x) false) tt in
  a_out r = Ret tt /\ sm_state (a_machine r) = x /\ sm_shared (a_machine r) = entered x d /\
  initialized (a_machine r) = true /\ a_cx r = tt.
Proof. destruct fl as [F parse show dv ml sb ad]. destruct md, x; vm_compute; repeat split. Qed.

Lemma calc_handle_fresh fl minus0 n md x d e :
  let r := handle_with_context (S (S (S (S n)))) md (StateMachine (Inner (m := calculator_with fl minus0) d x) false) e tt in
  match calc_step minus0 x (entered x d) e with
  | Some (y, d') =>
      a_out r = Ret tt /\
      a_machine r = StateMachine (Inner (m := calculator_with fl minus0) d' y) true
  | None => a_out r = Abort Panicked
  end.
Proof.
  cbv zeta. rewrite handle_is_init_then_handle. unfold and_then.
  destruct (@calc_init fl minus0 n md x d) as (I1 & I2 & I3 & I4 & I5).
  destruct (init_with_context (S (S (S (S n)))) md (StateMachine (Inner (m := calculator_with fl minus0) d x) false) tt)
    as [o [[sh st] i] cx tr].
  unfold sm_state, sm_shared in *. cbn [a_out a_machine a_cx a_tr sm_inner state shared_storage initialized] in *. subst.
  exact (@calc_handle fl minus0 n md x (entered x d) e).
Qed.

(** Many keys. *)
Fixpoint calc_run fl minus0 (x : calc_state fl) (d : string) (evs : list calc_event) : option (calc_state fl * string) :=
  match evs with
  | [] => Some (x, d)
  | e :: evs' =>
      match calc_step minus0 x d e with
      | Some (y, d') => calc_run minus0 y d' evs'
      | None => None
      end
  end.
Lemma calc_run_app fl minus0 evs evs' : forall (x : calc_state fl) d,
  calc_run minus0 x d (evs ++ evs') =
  match calc_run minus0 x d evs with Some (y, d') => calc_run minus0 y d' evs' | None => None end.
Proof.
  induction evs as [|e evs IH]; intros x d; [reflexivity|]. cbn [app calc_run].
  destruct (calc_step minus0 x d e) as [[y d']|]; [apply IH|reflexivity].
Qed.
Lemma calc_runs fl minus0 n md evs : forall x d y d',
  calc_run minus0 x d evs = Some (y, d') ->
  fst (sm_handles (S (S (S (S n)))) md (StateMachine (Inner (m := calculator_with fl minus0) d x) true) (no_context evs))
    = StateMachine (Inner (m := calculator_with fl minus0) d' y) true /\
  completed (snd (sm_handles (S (S (S (S n)))) md (StateMachine (Inner (m := calculator_with fl minus0) d x) true) (no_context evs))).
Proof.
  induction evs as [|e evs IH]; intros x d y d' E.
  - injection E as -> ->. split; [reflexivity|constructor].
  - cbn [calc_run] in E. pose proof (@calc_handle fl minus0 n md x d e) as K.
    destruct (calc_step minus0 x d e) as [[x1 d1]|]; [|discriminate]. destruct K as [O M].
    destruct (IH x1 d1 y d' E) as [IH1 IH2].
    cbn [no_context map]. rewrite (@sm_handles_cons (calculator_with fl minus0)). cbn [fst snd]. rewrite M.
    split; [exact IH1|]. constructor; [exact O|exact IH2].
Qed.
Lemma calc_runs_fresh fl minus0 n md evs x d y d' : evs <> [] ->
  calc_run minus0 x (entered x d) evs = Some (y, d') ->
  fst (sm_handles (S (S (S (S n)))) md (StateMachine (Inner (m := calculator_with fl minus0) d x) false) (no_context evs))
    = StateMachine (Inner (m := calculator_with fl minus0) d' y) true /\
  completed (snd (sm_handles (S (S (S (S n)))) md (StateMachine (Inner (m := calculator_with fl minus0) d x) false) (no_context evs))).
Proof.
  destruct evs as [|e evs]; intros N E; [contradiction|].
  cbn [calc_run] in E. pose proof (@calc_handle_fresh fl minus0 n md x d e) as K.
  destruct (calc_step minus0 x (entered x d) e) as [[x1 d1]|]; [|discriminate]. destruct K as [O M].
  destruct (@calc_runs fl minus0 n md evs x1 d1 y d' E) as [IH1 IH2].
  cbn [no_context map]. rewrite (@sm_handles_cons (calculator_with fl minus0)). cbn [fst snd]. rewrite M.
  split; [exact IH1|]. constructor; [exact O|exact IH2].
Qed.
