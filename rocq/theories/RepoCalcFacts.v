(** RepoCalcFacts.v — what the calculator computes, and when it panics. *)

From Coq Require Import String Ascii List Bool Arith Lia.
From Verif Require Import Machine Blocking Api Spec Sim RepoExamples RepoSpec RepoUseProofs RepoCalcUse.
Import ListNotations.
Open Scope string_scope.
Open Scope list_scope.
Set Implicit Arguments.

Notation "a +++ b" := (String.append a b) (at level 60, right associativity).
Lemma cat_assoc a b c : (a +++ b) +++ c = a +++ (b +++ c).
Proof. induction a as [|x a IH]; cbn; [reflexivity|now rewrite IH]. Qed.
Lemma cat_nil a : a +++ "" = a.
Proof. induction a as [|x a IH]; cbn; [reflexivity|now rewrite IH]. Qed.
Lemma digits_cons d l : digits (d :: l) = show_digit d +++ digits l.
Proof. unfold digits. cbn [map String.concat]. destruct l; cbn [map]; [now rewrite cat_nil|reflexivity]. Qed.
Lemma digits_app l l' : digits (l ++ l') = digits l +++ digits l'.
Proof. induction l as [|d l IH]; [reflexivity|]. cbn [app]. now rewrite !digits_cons, IH, cat_assoc. Qed.

(** What is read is right. *)
Lemma read_right first n : well_keyed first n -> read_as first n = canonical n.
Proof.
  destruct n as [ng il fr]. unfold well_keyed, keyed, read_as, canonical, text_of. cbn [negative int_part frac_part].
  intros (K & N & Z). destruct il as [|[|k] il]; [reflexivity| |reflexivity].
  destruct ng; [exfalso; exact (N eq_refl il eq_refl)|]. cbn [drop_zeros] in *.
  destruct (drop_zeros il) as [|d ds] eqn:D, fr as [f|]; try reflexivity.
  destruct first; [exfalso; exact (Z eq_refl eq_refl eq_refl)|reflexivity].
Qed.
(** A minus before a zero is lost. *)
Lemma minus_lost first l f : first = false \/ drop_zeros l = [] -> drop_zeros l <> [] \/ f <> None ->
  read_as first (Entry true (0 :: l) f) = read_as first (Entry false (0 :: l) f).
Proof.
  unfold read_as. cbn [negative int_part frac_part drop_zeros andb]. intros [-> | ->] [H|H];
  try contradiction; try (destruct (drop_zeros l), f; try contradiction; reflexivity).
Qed.

Lemma wells (l : list (operator * entry)) :
  Forall (fun on => well_keyed false (snd on)) l -> Forall (fun on => keyed (snd on)) l.
Proof. induction 1 as [|x l H _ IH]; constructor; [exact (proj1 H)|exact IH]. Qed.
Lemma reads_right V (parse : string -> option V) (l : list (operator * entry)) vs :
  Forall (fun on => well_keyed false (snd on)) l ->
  Forall2 (fun on v => parse (canonical (snd on)) = Some v) l vs ->
  Forall2 (fun on v => parse (read_as false (snd on)) = Some v) l vs.
Proof.
  intros H F. induction F as [|x v l vs E _ IH]; [constructor|]. inversion_clear H as [|? ? W Ws].
  constructor; [now rewrite (read_right W)|exact (IH Ws)].
Qed.

Section Chains.
  Variable fl : floats.
  Variable minus0 : string.
  Notation run := (@calc_run fl minus0).
  Notation St := (calc_state fl).

  (** States that take digits at the end of the display. *)
  Definition appends (x : St) : Prop :=
    match x with CInt1 | CFrac1 | CInt2 _ _ | CFrac2 _ _ => True | _ => False end.
  Lemma run_digits x l : appends x -> forall d, run x d (map Digit l) = Some (x, d +++ digits l).
  Proof.
    intros A. induction l as [|n l IH]; intros d; cbn [map calc_run].
    - change (digits []) with "". now rewrite cat_nil.
    - replace (calc_step minus0 x d (Digit n)) with (Some (x, push d (show_digit n))).
      + rewrite IH, digits_cons. unfold push. now rewrite cat_assoc.
      + destruct x; try contradiction; destruct n; reflexivity.
  Qed.

  Lemma run_cons x d e evs :
    run x d (e :: evs) = match calc_step minus0 x d e with Some (y, d') => run y d' evs | None => None end.
  Proof. reflexivity. Qed.

  (** Keying in a number. *)
  Lemma run_zeros (zero int : St) (lead : string -> string) :
    appends int ->
    (forall d, calc_step minus0 zero d (Digit 0) = Some (zero, d)) ->
    (forall d k, k <> 0 -> calc_step minus0 zero d (Digit k) = Some (int, lead d +++ show_digit k)) ->
    forall l d, run zero d (map Digit l) =
      Some (match drop_zeros l with [] => (zero, d) | ds => (int, lead d +++ digits ds) end).
  Proof.
    intros A Z N l d. induction l as [|k l IH]; [reflexivity|]. cbn [map]. rewrite run_cons. destruct k as [|k].
    - rewrite Z. exact IH.
    - rewrite N by discriminate. cbn [drop_zeros]. rewrite run_digits by exact A. now rewrite digits_cons, cat_assoc.
  Qed.
  Lemma run_entry (first : bool) (start neg zero int frac : St) d0 (mz : string) (lead : string -> string) n :
    keyed n ->
    appends int -> appends frac ->
    calc_step minus0 start d0 (Operator Sub) = Some (neg, mz) ->
    calc_step minus0 start d0 Point = Some (frac, "0.") ->
    calc_step minus0 start d0 (Digit 0) = Some (zero, if first then "" else "0") ->
    (forall k, k <> 0 -> calc_step minus0 start d0 (Digit k) = Some (int, show_digit k)) ->
    calc_step minus0 neg mz Point = Some (frac, "-0.") ->
    calc_step minus0 neg mz (Digit 0) = Some (zero, "-0") ->
    (forall k, k <> 0 -> calc_step minus0 neg mz (Digit k) = Some (int, push "-" (show_digit k))) ->
    (forall d, calc_step minus0 zero d (Digit 0) = Some (zero, d)) ->
    (forall d k, k <> 0 -> calc_step minus0 zero d (Digit k) = Some (int, lead d +++ show_digit k)) ->
    (forall d, calc_step minus0 zero d Point = Some (frac, "0.")) ->
    lead (if first then "" else "0") = "" -> lead "-0" = (if first then "-0" else "") ->
    (forall d, calc_step minus0 int d Point = Some (frac, push d ".")) ->
    exists x, (x = zero \/ x = int \/ x = frac) /\ run start d0 (keys n) = Some (x, read_as first n).
  Proof.
    intros P Ai Af Hs Hp Hz Hd Np Nz Nd Zz Zd Zp L0 L1 Ip. destruct n as [ng il fr]. unfold keyed, keys, read_as, text_of in *.
    cbn [negative int_part frac_part] in *.
    assert (F : forall d (o : option (list nat)), exists x, (x = zero \/ x = int \/ x = frac) /\
              run int d (match o with Some l => Point :: map Digit l | None => [] end) =
              Some (x, d +++ match o with Some l => "." +++ digits l | None => "" end)).
    { intros d [l|].
      - exists frac. split; [auto|]. rewrite run_cons, Ip, run_digits by exact Af. unfold push. now rewrite cat_assoc.
      - exists int. split; [auto|]. cbn [calc_run]. now rewrite cat_nil. }
    assert (Z : forall d l (o : option (list nat)), exists x, (x = zero \/ x = int \/ x = frac) /\
              run zero d (map Digit l ++ match o with Some l => Point :: map Digit l | None => [] end) =
              Some (x, match drop_zeros l, o with
                       | [], None => d
                       | [], Some l => "0." +++ digits l
                       | ds, o => lead d +++ digits ds +++ match o with Some l => "." +++ digits l | None => "" end
                       end)).
    { intros d l o. rewrite calc_run_app, (@run_zeros zero int lead Ai Zz Zd). destruct (drop_zeros l) as [|k ds].
      - destruct o as [f|].
        + exists frac. split; [auto|]. rewrite run_cons, Zp, run_digits by exact Af. reflexivity.
        + exists zero. split; [auto|]. reflexivity.
      - destruct (F (lead d +++ digits (k :: ds)) o) as (x & X & E). exists x. split; [exact X|]. rewrite E, cat_assoc. reflexivity. }
    destruct ng; cbn [app].
    - destruct il as [|[|k] il].
      + destruct fr as [l|]; [|destruct P; contradiction]. cbn [map app].
        rewrite run_cons, Hs, run_cons, Np, run_digits by exact Af. exists frac. split; [auto|reflexivity].
      + cbn [map app drop_zeros]. rewrite run_cons, Hs, run_cons, Nz. destruct (Z "-0" il fr) as (x & X & E).
        exists x. split; [exact X|]. rewrite E, L1. cbn [andb]. destruct (drop_zeros il), fr; try reflexivity; now destruct first.
      + cbn [map app]. rewrite run_cons, Hs, run_cons, (Nd (S k)) by discriminate.
        rewrite calc_run_app, run_digits by exact Ai.
        destruct (F (push "-" (show_digit (S k)) +++ digits il) fr) as [x [Hx E]]. exists x. split; [exact Hx|].
        rewrite E. unfold push. now rewrite digits_cons, !cat_assoc.
    - destruct il as [|[|k] il].
      + destruct fr as [l|]; [|destruct P; contradiction]. cbn [map app].
        rewrite run_cons, Hp, run_digits by exact Af. exists frac. split; [auto|reflexivity].
      + cbn [map app drop_zeros]. rewrite run_cons, Hz. destruct (Z (if first then "" else "0") il fr) as (x & X & E).
        exists x. split; [exact X|]. rewrite E, L0. cbn [andb]. destruct (drop_zeros il), fr; reflexivity.
      + cbn [map app]. rewrite run_cons, (Hd (S k)) by discriminate. rewrite calc_run_app, run_digits by exact Ai.
        destruct (F (show_digit (S k) +++ digits il) fr) as [x [Hx E]]. exists x. split; [exact Hx|].
        rewrite E. now rewrite digits_cons, !cat_assoc.
  Qed.

  Lemma run_entry1 n : keyed n ->
    exists x, (x = CZero1 \/ x = CInt1 \/ x = CFrac1) /\ run CBegin "0" (keys n) = Some (x, read_as true n).
  Proof.
    intros P. apply (@run_entry true CBegin CNegated1 CZero1 CInt1 CFrac1 "0" minus0 (fun d => d) n P I I); try reflexivity;
      first [intros [|k]; try contradiction; reflexivity|intros d [|k]; try contradiction; reflexivity].
  Qed.
  Lemma run_entry2 a op d n : keyed n ->
    exists x, (x = CZero2 a op \/ x = CInt2 a op \/ x = CFrac2 a op) /\ run (COpEntered a op) d (keys n) = Some (x, read_as false n).
  Proof.
    intros P. apply (@run_entry false (COpEntered a op) (CNegated2 a op) (CZero2 a op) (CInt2 a op) (CFrac2 a op) d "-0" (fun _ => "") n P I I); try reflexivity;
      first [intros [|k]; try contradiction; reflexivity|intros d' [|k]; try contradiction; reflexivity].
  Qed.

  (** `op1 n1 op2 n2 .. =` *)
  Lemma run_chain2 l : forall vs a op x d b,
    (x = CZero2 a op \/ x = CInt2 a op \/ x = CFrac2 a op) -> f_parse fl d = Some b ->
    Forall (fun on => keyed (snd on)) l ->
    Forall2 (fun on v => f_parse fl (read_as false (snd on)) = Some v) l vs ->
    run x d (flat_map (fun on => Operator (fst on) :: keys (snd on)) l ++ [Equal]) =
    let result := fold_left (fun acc (ov : operator * f32 fl) => eval_op fl (fst ov) acc (snd ov))
                    (combine (map fst l) vs) (eval_op fl op a b) in
    Some (CResult result, f_show fl result).
  Proof.
    induction l as [|[o n] l IH]; intros vs a op x d b X P Ps Vs; inversion Vs; subst.
    - cbn [flat_map app]. rewrite run_cons.
      replace (calc_step minus0 x d Equal) with (Some (CResult (eval_op fl op a b), f_show fl (eval_op fl op a b))); [reflexivity|].
      destruct X as [-> | [-> | ->]]; unfold calc_step, settle; cbn; unfold parsed; rewrite P; reflexivity.
    - inversion Ps; subst. cbn [flat_map fst snd map combine fold_left app]. cbn [fst snd] in *.
      rewrite run_cons.
      replace (calc_step minus0 x d (Operator o)) with (Some (COpEntered (eval_op fl op a b) o, d)).
      2: { destruct X as [-> | [-> | ->]]; unfold calc_step, settle; cbn; unfold parsed; rewrite P; reflexivity. }
      rewrite <- app_assoc, calc_run_app.
      destruct (@run_entry2 (eval_op fl op a b) o d n) as [x' [X' E]]; [assumption|]. rewrite E.
      now apply IH.
  Qed.
  Lemma run_chain n l v vs : keyed n -> Forall (fun on => keyed (snd on)) l ->
    f_parse fl (read_as true n) = Some v ->
    Forall2 (fun on v => f_parse fl (read_as false (snd on)) = Some v) l vs ->
    run CBegin "0" (chain_keys n l) =
    let result := fold_left (fun acc (ov : operator * f32 fl) => eval_op fl (fst ov) acc (snd ov))
                    (combine (map fst l) vs) v in
    Some (CResult result, f_show fl result).
  Proof.
    intros P Ps V Vs. unfold chain_keys. rewrite calc_run_app.
    destruct (@run_entry1 n P) as [x [X E]]. rewrite E.
    destruct l as [|[o m] l]; inversion Vs; subst.
    - cbn [flat_map app map combine fold_left]. rewrite run_cons.
      replace (calc_step minus0 x (read_as true n) Equal) with (Some (CResult v, f_show fl v)); [reflexivity|].
      destruct X as [-> | [-> | ->]]; unfold calc_step, settle; cbn; unfold parsed; rewrite V; reflexivity.
    - inversion Ps; subst. cbn [flat_map fst snd map combine fold_left app]. cbn [fst snd] in *.
      rewrite run_cons.
      replace (calc_step minus0 x (read_as true n) (Operator o)) with (Some (COpEntered v o, read_as true n)).
      2: { destruct X as [-> | [-> | ->]]; unfold calc_step, settle; cbn; unfold parsed; rewrite V; reflexivity. }
      rewrite <- app_assoc, calc_run_app.
      destruct (@run_entry2 v o (read_as true n) m) as [x' [X' E']]; [assumption|]. rewrite E'.
      now apply run_chain2.
  Qed.
End Chains.

(** When the calculator panics. *)
Section Panics.
  Variable fl : floats.
  Variable minus0 : string.
  Notation St := (calc_state fl).
  Hypothesis F : sound_floats fl.

  Definition whole (s : string) : Prop :=
    exists (minus : bool) (l : list nat), s = (if minus then "-" else "") +++ digits l /\ l <> [].
  Lemma whole_numeral s : whole s -> numeral s.
  Proof.
    intros (m & l & -> & N). exists m, l, None. cbn. rewrite app_nil_r, cat_nil. now split.
  Qed.
  Lemma whole_digit s d : whole s -> whole (push s (show_digit d)).
  Proof.
    intros (m & l & -> & N). exists m, (l ++ [d]). rewrite digits_app, digits_cons. unfold push.
    change (digits []) with "". rewrite cat_nil, cat_assoc. split; [reflexivity|]. now destruct l.
  Qed.
  Lemma digit_whole d : whole (show_digit d).
  Proof.
    exists false, [d]. rewrite digits_cons. change (digits []) with "". rewrite cat_nil. split; [reflexivity|discriminate].
  Qed.
  Lemma minus_digit_whole d : whole (push "-" (show_digit d)).
  Proof.
    exists true, [d]. rewrite digits_cons. change (digits []) with "". rewrite cat_nil. split; [reflexivity|discriminate].
  Qed.
  Lemma whole_point s : whole s -> numeral (push s ".").
  Proof.
    intros (m & l & -> & N). exists m, l, (Some []). change (digits []) with "". unfold push.
    rewrite cat_nil, cat_assoc, app_nil_r. now split.
  Qed.
  Lemma app_nonempty {A} (a b : list A) x : a ++ b ++ [x] <> [].
  Proof. destruct a; [|discriminate]. now destruct b. Qed.
  Lemma numeral_digit s d : numeral s -> numeral (push s (show_digit d)).
  Proof.
    intros (m & l & r & -> & N). unfold push. destruct r as [r|].
    - exists m, l, (Some (r ++ [d])). rewrite digits_app, digits_cons. change (digits []) with "".
      rewrite cat_nil, !cat_assoc. split; [reflexivity|]. apply app_nonempty.
    - exists m, (l ++ [d]), None. rewrite digits_app, digits_cons. change (digits []) with "".
      rewrite !cat_nil, !cat_assoc. split; [reflexivity|]. rewrite app_nil_r. intros H. now destruct l.
  Qed.
  Lemma zero_point : numeral "0.".
  Proof. exists false, [0], (Some []). split; [reflexivity|discriminate]. Qed.
  Lemma minus_zero_point : numeral "-0.".
  Proof. exists true, [0], (Some []). split; [reflexivity|discriminate]. Qed.
  Lemma point_digit d : numeral (push "." (show_digit d)).
  Proof.
    exists false, [], (Some [d]). rewrite digits_cons. change (digits []) with "". rewrite cat_nil.
    split; [reflexivity|discriminate].
  Qed.
  Lemma zero_whole : whole "0".
  Proof. exists false, [0]. split; [reflexivity|discriminate]. Qed.
  Lemma minus_zero_whole : whole "-0".
  Proof. exists true, [0]. split; [reflexivity|discriminate]. Qed.

  Definition fits (x : St) (d : string) : Prop :=
    match x with
    | CBegin => d = "0"
    | CResult r => d = f_show fl r
    | CZero1 | CInt1 => d = "" \/ whole d
    | CFrac1 => d = "" \/ d = "." \/ numeral d
    | CNegated1 => d = "" \/ d = minus0
    | COpEntered _ _ | CNegated2 _ _ => True
    | CZero2 _ _ | CInt2 _ _ => whole d
    | CFrac2 _ _ => numeral d
    end.
  Hint Resolve whole_numeral whole_digit digit_whole minus_digit_whole whole_point numeral_digit zero_point
    minus_zero_point point_digit zero_whole minus_zero_whole : numerals.
  Lemma empty_digit_whole d : whole (push "" (show_digit d)).
  Proof. exact (digit_whole d). Qed.
  Lemma minus_digit_whole' d : whole (String "-" (show_digit d)).
  Proof. exact (minus_digit_whole d). Qed.
  Lemma whole_zero s : whole s -> whole (push s "0").
  Proof. exact (@whole_digit s 0). Qed.
  Lemma numeral_zero s : numeral s -> numeral (push s "0").
  Proof. exact (@numeral_digit s 0). Qed.
  Lemma point_zero : numeral (push "." "0").
  Proof. exact (point_digit 0). Qed.
  Hint Resolve empty_digit_whole minus_digit_whole' whole_zero numeral_zero point_zero : numerals.
  Lemma fits_step x d e y d' : fits x d -> calc_step minus0 x d e = Some (y, d') -> fits y d'.
  Proof.
    intros H E. unfold calc_step, settle in E.
    destruct x, e as [| |[|k]| |[]|]; cbn in E; unfold parsed, go, handled, defer in E;
      try destruct (f_parse fl d) as [v|]; try discriminate; injection E as <- <-; cbn in *;
      repeat match goal with H : _ \/ _ |- _ => destruct H as [-> | H] end;
      auto with numerals.
  Qed.

  Lemma whole_reads s : whole s -> f_parse fl s <> None.
  Proof. intros W. apply (sf_numeral _ F s). now apply whole_numeral. Qed.
  Lemma panic_step x d e : fits x d ->
    (calc_step minus0 x d e = None <-> wants_number x e = true /\ unreadable fl minus0 d).
  Proof.
    intros H.
    assert (R : unreadable fl minus0 d -> f_parse fl d = None).
    { intros [-> |[-> |[-> P]]]; [exact (sf_empty _ F)|exact (sf_point _ F)|exact P]. }
    assert (Z : f_parse fl "0" <> None) by (apply whole_reads, zero_whole).
    pose proof (sf_printed _ F) as Sh. pose proof (sf_numeral _ F) as Nm. pose proof whole_reads as Wr.
    unfold calc_step, settle, unreadable in *.
    destruct x, e as [| |[|k]| |[]|]; cbn in H |- *; unfold parsed, go, handled, defer;
      destruct (f_parse fl d) as [v|] eqn:E; (split; [intros N; try discriminate N|intros [N1 N2]; try discriminate N1]);
      try reflexivity; try (specialize (R N2); discriminate R);
      try (exfalso; subst d; congruence);
      try (exfalso; now apply (Wr d));
      try (exfalso; now apply (Nm d)).
    all: split; [reflexivity|].
    all: repeat match goal with H : _ \/ _ |- _ => destruct H as [H | H] end; auto.
    all: try (exfalso; now apply (Wr d)); try (exfalso; now apply (Nm d)).
    all: subst; auto.
  Qed.

  (** Without `CE` and `0`. *)
  Definition clean (e : calc_event) : Prop := e <> Ce /\ e <> Digit 0.
  Definition reads (x : St) (d : string) : Prop :=
    match x with
    | CZero1 => False
    | CInt1 => whole d
    | CFrac1 => numeral d
    | CNegated1 => d = minus0
    | _ => fits x d
    end.
  Lemma reads_step x d e : f_parse fl minus0 <> None -> reads x d -> clean e ->
    exists y d', calc_step minus0 x d e = Some (y, d') /\ reads y d'.
  Proof.
    intros M H [C1 C2].
    assert (Z : f_parse fl "0" <> None) by (apply whole_reads, zero_whole).
    pose proof (sf_printed _ F) as Sh. pose proof (sf_numeral _ F) as Nm. pose proof whole_reads as Wr.
    unfold calc_step, settle.
    destruct x, e as [| |[|k]| |[]|]; try contradiction; try congruence; cbn [fits reads] in H;
      cbn; unfold parsed, go, handled, defer;
      try (destruct (f_parse fl d) as [v|] eqn:E; [|exfalso; subst; solve [congruence | now apply (Wr d) | now apply (Nm d) | eapply Sh; eassumption]]);
      (eexists; eexists; split; [reflexivity|]); cbn; auto with numerals.
  Qed.
End Panics.

(** Whole histories. *)
Lemma handles_nil m stack md (sm : state_machine m) : sm_handles stack md sm [] = (sm, []).
Proof. reflexivity. Qed.
Lemma fits_history fl minus0 (F : sound_floats fl) n md evs : forall x d,
  fits minus0 x d ->
  completed (snd (sm_handles (S (S (S (S n)))) md (StateMachine (Inner (m := calculator_with fl minus0) d x) true) (no_context evs))) ->
  exists x' d',
    fst (sm_handles (S (S (S (S n)))) md (StateMachine (Inner (m := calculator_with fl minus0) d x) true) (no_context evs))
      = StateMachine (Inner (m := calculator_with fl minus0) d' x') true /\ fits minus0 x' d'.
Proof.
  induction evs as [|e evs IH]; intros x d H C.
  - exists x, d. now split.
  - revert C. cbn [no_context map]. rewrite (@sm_handles_cons (calculator_with fl minus0)). cbn [fst snd]. intros C.
    pose proof (Forall_inv C) as C1. pose proof (Forall_inv_tail C) as C2. cbn [c_out] in C1. clear C.
    pose proof (@calc_handle fl minus0 n md x d e) as K. cbv zeta in K.
    destruct (calc_step minus0 x d e) as [[y d']|] eqn:E; [|exfalso; pose proof (eq_trans (eq_sym C1) K) as X; discriminate X]. destruct K as [_ M].
    rewrite M in C2 |- *. apply (IH y d'); [|exact C2]. eapply fits_step; eassumption.
Qed.
Lemma never_panics fl minus0 (F : sound_floats fl) n md evs (M0 : f_parse fl minus0 <> None) : forall x d,
  reads minus0 x d -> Forall clean evs ->
  completed (snd (sm_handles (S (S (S (S n)))) md (StateMachine (Inner (m := calculator_with fl minus0) d x) true) (no_context evs))).
Proof.
  induction evs as [|e evs IH]; intros x d H C; [constructor|].
  inversion C as [|? ? C1 C2]; subst.
  cbn [no_context map]. rewrite (@sm_handles_cons (calculator_with fl minus0)). cbn [fst snd].
  pose proof (@calc_handle fl minus0 n md x d e) as K. cbv zeta in K.
  destruct (@reads_step fl minus0 F x d e M0 H C1) as (y & d' & E & R). rewrite E in K. destruct K as [O M].
  constructor; [exact O|]. rewrite M. now apply IH.
Qed.

(** The toy floats are sound. *)
Lemma some_char_app p a b : some_char p (a +++ b) = some_char p a || some_char p b.
Proof. induction a as [|c a IH]; cbn; [reflexivity|]. now rewrite IH, orb_assoc. Qed.
Fixpoint all_char (p : ascii -> bool) (s : string) : bool :=
  match s with EmptyString => true | String c s' => p c && all_char p s' end.
Lemma uint_digits u : all_char is_digit (DecimalString.NilEmpty.string_of_uint u) = true.
Proof. induction u; cbn; auto. Qed.
Lemma show_digit_digits d : all_char is_digit (show_digit d) = true.
Proof.
  unfold show_digit, DecimalString.NilZero.string_of_uint. destruct (Nat.to_uint d) eqn:E; [reflexivity|..];
    rewrite <- E; apply uint_digits.
Qed.
Lemma show_digit_some d : some_char is_digit (show_digit d) = true.
Proof.
  pose proof (show_digit_digits d) as H.
  assert (N : show_digit d <> "").
  { unfold show_digit, DecimalString.NilZero.string_of_uint. destruct (Nat.to_uint d); discriminate. }
  destruct (show_digit d) as [|c s]; [contradiction|]. cbn in *. apply andb_prop in H. now rewrite (proj1 H).
Qed.
Lemma digits_no_space s : all_char is_digit s = true -> some_char (fun c => Ascii.eqb c " ") s = false.
Proof.
  induction s as [|c s IH]; cbn; [reflexivity|]. intros H. apply andb_prop in H. destruct H as [H1 H2].
  rewrite (IH H2), orb_false_r. destruct (Ascii.eqb_spec c " ") as [-> |]; [discriminate H1|reflexivity].
Qed.
Lemma toy_sound : sound_floats toy.
Proof.
  assert (D : forall l, some_char (fun c => Ascii.eqb c " ") (digits l) = false).
  { induction l as [|d l IH]; [reflexivity|]. rewrite digits_cons, some_char_app, IH, orb_false_r.
    apply digits_no_space, show_digit_digits. }
  assert (S : forall l, l <> [] -> some_char is_digit (digits l) = true).
  { intros [|d l] N; [contradiction|]. now rewrite digits_cons, some_char_app, show_digit_some. }
  constructor; cbn [f_parse f_show toy].
  - intros s (m & l & r & -> & N). unfold toy_parse. rewrite !some_char_app.
    replace (some_char (fun c => Ascii.eqb c " ") (if m then "-" else "")) with false by now destruct m.
    rewrite D. cbn [orb].
    replace (some_char is_digit (digits l) || _) with true.
    2: { destruct l as [|d l].
         - destruct r as [r|]; [|contradiction]. cbn [app] in N. rewrite some_char_app, (S r N). reflexivity.
         - rewrite (S (d :: l)) by discriminate. reflexivity. }
    rewrite orb_true_r. destruct r as [r|]; rewrite ?some_char_app, ?D; discriminate.
  - intros x. unfold toy_parse. rewrite show_digit_some, digits_no_space by apply show_digit_digits. discriminate.
  - reflexivity.
  - reflexivity.
Qed.

(** From a new calculator. *)
Lemma stack4 stack : 4 <= stack -> exists n, stack = S (S (S (S n))).
Proof. intros H. exists (stack - 4). lia. Qed.
Lemma stack3 stack : 3 <= stack -> exists n, stack = S (S (S n)).
Proof. intros H. exists (stack - 3). lia. Qed.
Section New.
  Variable fl : floats.
  Variable minus0 : string.
  Notation calc := (calculator_with fl minus0).
  Variables (stack : nat) (md : mode) (d0 : string).
  Hypothesis ST : 4 <= stack.
  Notation fresh := (new_state_machine calc d0).

  Lemma new_chain n l v vs : keyed n -> Forall (fun on => keyed (snd on)) l ->
    f_parse fl (read_as true n) = Some v ->
    Forall2 (fun on v => f_parse fl (read_as false (snd on)) = Some v) l vs ->
    let result := fold_left (fun acc (ov : operator * f32 fl) => eval_op fl (fst ov) acc (snd ov))
                    (combine (map fst l) vs) v in
    let r := sm_handles stack md fresh (no_context (chain_keys n l)) in
    sm_state (fst r) = CResult result /\ sm_shared (fst r) = f_show fl result /\ completed (snd r).
  Proof.
    intros P Ps V Vs. cbv zeta. destruct (stack4 ST) as [k ->].
    pose proof (@run_chain fl minus0 n l v vs P Ps V Vs) as R. cbv zeta in R.
    set (result := fold_left _ _ v) in *.
    destruct (@calc_runs_fresh fl minus0 k md (chain_keys n l) CBegin d0 (CResult result) (f_show fl result)) as [H1 H2].
    - unfold chain_keys. intros N. apply app_eq_nil in N as [_ N]. apply app_eq_nil in N as [_ N]. discriminate N.
    - exact R.
    - unfold new_state_machine. change (initial calc) with (@CBegin fl). rewrite H1. split; [reflexivity|].
      split; [reflexivity|exact H2].
  Qed.

  Lemma new_panic (F : sound_floats fl) evs e :
    let h := sm_handles stack md fresh (no_context evs) in
    completed (snd h) ->
    let r := handle_with_context stack md (fst h) e tt in
    (a_out r = Ret tt \/ a_out r = Abort Panicked) /\
    (a_out r = Abort Panicked <->
     wants_number (fl := fl) (sm_state (fst h)) e = true /\ unreadable fl minus0 (sm_shared (fst h))).
  Proof.
    cbv zeta. destruct (stack4 ST) as [n ->]. destruct evs as [|e0 evs].
    - intros _. cbn [no_context map]. rewrite handles_nil. cbn [fst].
      unfold new_state_machine. change (initial calc) with (@CBegin fl).
      pose proof (@calc_handle_fresh fl minus0 n md CBegin d0 e) as K. cbv zeta in K.
      pose proof (@panic_step fl minus0 F CBegin "0" e eq_refl) as P. cbn [entered] in K.
      destruct (calc_step minus0 CBegin "0" e) as [[y d']|].
      + destruct K as [K _]. split; [now left|]. rewrite K. unfold sm_state. cbn [sm_inner state wants_number].
        split; [discriminate|intros [X _]; discriminate X].
      + destruct P as [P _]. destruct (P eq_refl) as [X _]. discriminate X.
    - cbn [no_context map]. rewrite (@sm_handles_cons calc). cbn [fst snd].
      unfold new_state_machine. change (initial calc) with (@CBegin fl).
      pose proof (@calc_handle_fresh fl minus0 n md CBegin d0 e0) as K. cbv zeta in K. cbn [entered] in K.
      intros C. pose proof (Forall_inv C) as C1. pose proof (Forall_inv_tail C) as C2. cbn [c_out] in C1. clear C.
      pose proof (@fits_step fl minus0 CBegin "0" e0) as FS.
      destruct (calc_step minus0 CBegin "0" e0) as [[y d']|];
        [|exfalso; pose proof (eq_trans (eq_sym C1) K) as X; discriminate X].
      destruct K as [_ M]. rewrite M in C2 |- *.
      destruct (@fits_history fl minus0 F n md evs y d' (FS _ _ eq_refl eq_refl) C2) as (x & d & E & Fi).
      match goal with |- context [fst (sm_handles ?a ?b ?c ?l)] => set (sm' := fst (sm_handles a b c l)) end.
      assert (E2 : sm' = StateMachine (Inner (m := calc) d x) true) by exact E. clearbody sm'. subst sm'.
      unfold sm_state, sm_shared. cbn [sm_inner state shared_storage].
      pose proof (@calc_handle fl minus0 n md x d e) as K. cbv zeta in K.
      pose proof (@panic_step fl minus0 F x d e Fi) as P.
      destruct (calc_step minus0 x d e) as [[x1 d1]|].
      + destruct K as [K _]. split; [now left|]. rewrite K. rewrite <- P. split; discriminate.
      + split; [now right|]. rewrite K, <- P. tauto.
  Qed.

  Lemma new_never (F : sound_floats fl) evs : f_parse fl minus0 <> None -> ~ In Ce evs -> ~ In (Digit 0) evs ->
    completed (snd (sm_handles stack md fresh (no_context evs))).
  Proof.
    intros M0 NC N0. destruct (stack4 ST) as [n ->]. destruct evs as [|e evs]; [constructor|].
    assert (C : Forall clean (e :: evs)).
    { apply Forall_forall. intros k Hk. split; intros ->; contradiction. }
    inversion C as [|? ? C1 C2]; subst.
    cbn [no_context map]. rewrite (@sm_handles_cons calc). cbn [fst snd].
    unfold new_state_machine. change (initial calc) with (@CBegin fl).
    pose proof (@calc_handle_fresh fl minus0 n md CBegin d0 e) as K. cbv zeta in K. cbn [entered] in K.
    destruct (@reads_step fl minus0 F CBegin "0" e M0 eq_refl C1) as (y & d' & E & R). rewrite E in K. destruct K as [O M].
    constructor; [exact O|]. rewrite M. now apply (@never_panics fl minus0 F n md evs M0).
  Qed.

  (** `AC`. *)
  Lemma ac_clears (x : calc_state fl) d b :
    (forall a op, x <> CNegated2 a op) ->
    let r := handle_with_context stack md (StateMachine (Inner (m := calc) d x) b) Ac tt in
    a_out r = Ret tt /\ sm_state (a_machine r) = CBegin /\ sm_shared (a_machine r) = "0".
  Proof.
    intros N. cbv zeta. destruct (stack4 ST) as [n ->]. destruct b.
    - pose proof (@calc_handle fl minus0 n md x d Ac) as K. cbv zeta in K.
      replace (calc_step minus0 x d Ac) with (Some (@CBegin fl, "0")) in K.
      + destruct K as [K1 K2]. rewrite K2. now repeat split.
      + destruct x; try reflexivity. now destruct (N operand1 op).
    - pose proof (@calc_handle_fresh fl minus0 n md x d Ac) as K. cbv zeta in K.
      replace (calc_step minus0 x (entered x d) Ac) with (Some (@CBegin fl, "0")) in K.
      + destruct K as [K1 K2]. rewrite K2. now repeat split.
      + destruct x; try reflexivity. now destruct (N operand1 op).
  Qed.
  Lemma ac_twice (x : calc_state fl) d b :
    let r := sm_handles stack md (StateMachine (Inner (m := calc) d x) b) (no_context [Ac; Ac]) in
    completed (snd r) /\ sm_state (fst r) = CBegin /\ sm_shared (fst r) = "0".
  Proof.
    cbv zeta. destruct (stack4 ST) as [n ->].
    assert (R : forall d, calc_run minus0 x d [Ac; Ac] = Some (@CBegin fl, "0")) by (intros; destruct x; reflexivity).
    destruct b.
    - destruct (@calc_runs fl minus0 n md [Ac; Ac] x d _ _ (R d)) as [H1 H2].
      split; [exact H2|]. rewrite H1. now split.
    - destruct (@calc_runs_fresh fl minus0 n md [Ac; Ac] x d CBegin "0") as [H1 H2]; [discriminate|apply R|].
      split; [exact H2|]. rewrite H1. now split.
  Qed.

  Lemma zero_equal_panics (F : sound_floats fl) :
    map c_out (snd (sm_handles stack md fresh (no_context [Digit 0; Equal]))) = [Ret tt; Abort Panicked].
  Proof.
    destruct (stack4 ST) as [n ->]. cbn [no_context map]. rewrite !(@sm_handles_cons calc). cbn [fst snd map c_out].
    unfold new_state_machine. change (initial calc) with (@CBegin fl).
    destruct (@calc_handle_fresh fl minus0 n md CBegin d0 (Digit 0)) as [O M]. rewrite M, O.
    pose proof (@calc_handle fl minus0 n md CZero1 "" Equal) as K. cbv zeta in K.
    replace (calc_step minus0 CZero1 "" Equal) with (@None (calc_state fl * string)) in K
      by (unfold calc_step, settle; cbn; unfold parsed; now rewrite (sf_empty _ F)).
    exact (f_equal (fun o => [Ret tt; o]) K).
  Qed.
  Lemma minus_equal_panics : f_parse fl minus0 = None ->
    map c_out (snd (sm_handles stack md fresh (no_context [Operator Sub; Equal]))) = [Ret tt; Abort Panicked].
  Proof.
    intros P. destruct (stack4 ST) as [n ->]. cbn [no_context map]. rewrite !(@sm_handles_cons calc). cbn [fst snd map c_out].
    unfold new_state_machine. change (initial calc) with (@CBegin fl).
    destruct (@calc_handle_fresh fl minus0 n md CBegin d0 (Operator Sub)) as [O M]. rewrite M, O.
    pose proof (@calc_handle fl minus0 n md CNegated1 minus0 Equal) as K. cbv zeta in K.
    replace (calc_step minus0 CNegated1 minus0 Equal) with (@None (calc_state fl * string)) in K
      by (unfold calc_step, settle; cbn; unfold parsed; now rewrite P).
    exact (f_equal (fun o => [Ret tt; o]) K).
  Qed.
  Lemma minus_zero_point_five half : f_parse fl "0.5" = Some half ->
    let r := sm_handles stack md fresh (no_context (chain_keys (Entry true [0] (Some [5])) [])) in
    sm_state (fst r) = CResult half /\ sm_shared (fst r) = f_show fl half.
  Proof.
    intros P. cbv zeta. destruct (stack4 ST) as [n ->].
    destruct (@calc_runs_fresh fl minus0 n md (chain_keys (Entry true [0] (Some [5])) []) CBegin d0 (CResult half) (f_show fl half)) as [H1 H2].
    - discriminate.
    - cbn. unfold calc_step, settle. cbn. unfold parsed. rewrite P. reflexivity.
    - unfold new_state_machine. change (initial calc) with (@CBegin fl). rewrite H1. now split.
  Qed.
  Lemma ac_after_minus v op d : d <> 0 -> f_parse fl (show_digit d) = Some v ->
    let r := sm_handles stack md fresh (no_context [Digit d; Operator op; Operator Sub; Ac]) in
    completed (snd r) /\ sm_state (fst r) = COpEntered v op /\ sm_shared (fst r) = "".
  Proof.
    intros N P. cbv zeta. destruct (stack4 ST) as [n ->].
    destruct (@calc_runs_fresh fl minus0 n md [Digit d; Operator op; Operator Sub; Ac] CBegin d0 (COpEntered v op) "") as [H1 H2].
    - discriminate.
    - destruct d as [|d]; [contradiction|]. rewrite run_cons.
      replace (calc_step minus0 CBegin (entered CBegin d0) (Digit (S d))) with (Some (@CInt1 fl, show_digit (S d))) by reflexivity.
      rewrite run_cons.
      replace (calc_step minus0 CInt1 (show_digit (S d)) (Operator op)) with (Some (COpEntered v op, show_digit (S d)))
        by (unfold calc_step, settle; cbn -[show_digit]; unfold parsed; now rewrite P).
      reflexivity.
    - unfold new_state_machine. change (initial calc) with (@CBegin fl). rewrite H1. split; [exact H2|now split].
  Qed.
End New.
