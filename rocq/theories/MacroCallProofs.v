(** MacroCallProofs.v — what the generated machine does: which method runs, with which
    arguments. *)

From Coq Require Import String Ascii List Bool Arith Lia Permutation.
From Verif Require Import Machine Spec MacroSyntax MacroVisit MacroAnalyze MacroLower MacroGen MacroSem.
From Verif Require Import MacroSpec MacroBasics MacroExpandProofs MacroLowerProofs.
Import ListNotations.
Open Scope string_scope.
Open Scope list_scope.
Set Implicit Arguments.

(** ** Calls by name *)
Section RunCall.
  Variables Val Sh Ev Cx : Type.
  Variable g : generated.
  Variable d : enum.
  Notation ev := (g_event_ident g).
  Notation cxi := (g_context_ident g).
  Notation "'arg''" := (arg Val Sh Ev Cx).

  Hypothesis distinct : NoDup ["shared_storage"; ev; cxi].
  Variable F : list ident.
  Hypothesis clean : forall f, In f F -> f <> "shared_storage" /\ f <> ev /\ f <> cxi.

  Definition slot_of (p : fn_arg) : slot :=
    match p with
    | Receiver => SShared
    | Typed pt => if (pat_name pt =? ev)%string then SEvent
                  else if (pat_name pt =? cxi)%string then SContext
                  else SField (pat_name pt)
    end.

  Variable ps : list fn_arg.
  Hypothesis idents : forall pt, In (Typed pt) ps -> exists i, pt_pat pt = PatIdent i.
  Hypothesis typed : forall pt, In (Typed pt) ps -> pat_name pt <> "shared_storage".
  Hypothesis once : NoDup (map param_ident ps).
  Variable e : option Ev.
  Notation has_event := (match e with Some _ => true | None => false end).
  Hypothesis scoped : forall i, In i (map param_ident ps) ->
    In i F \/ i = "shared_storage" \/ (has_event = true /\ i = ev) \/ i = cxi.

  Lemma distinct3 : "shared_storage" <> ev /\ "shared_storage" <> cxi /\ ev <> cxi.
  Proof.
    inversion distinct as [|? ? N1 N2]; subst. inversion N2 as [|? ? N3 _]; subst.
    repeat split; intros E; [apply N1|apply N1|apply N3]; cbn; rewrite E; auto.
  Qed.
  Lemma existsb_in i (l : list ident) : existsb (String.eqb i) l = true <-> In i l.
  Proof.
    rewrite existsb_exists. split; [intros [x [I E]]; apply String.eqb_eq in E; now subst|].
    intros I. exists i. split; [exact I|]. apply String.eqb_refl.
  Qed.

  Lemma resolve_slot p : In p ps -> resolve g F has_event (param_ident p) = Some (slot_of p).
  Proof.
    intros I. destruct distinct3 as [D1 [D2 D3]]. unfold resolve.
    pose proof (@scoped _ (in_map param_ident ps p I)) as S.
    destruct (existsb (String.eqb (param_ident p)) F) eqn:E.
    - apply existsb_in in E. destruct (@clean _ E) as [C1 [C2 C3]].
      destruct p as [|pt]; [destruct (C1 eq_refl)|]. cbn in *.
      destruct (String.eqb_spec (pat_name pt) ev); [contradiction|].
      destruct (String.eqb_spec (pat_name pt) cxi); [contradiction|]. reflexivity.
    - destruct p as [|pt]; [reflexivity|]. cbn in *.
      destruct (String.eqb_spec (pat_name pt) "shared_storage") as [X|_].
      { destruct (@typed pt I X). }
      assert (NF : ~ In (pat_name pt) F) by (rewrite <- existsb_in; congruence).
      destruct (String.eqb_spec (pat_name pt) ev) as [X|NE].
      + rewrite X in *. destruct S as [S|[S|[[-> _]|S]]]; [contradiction|exfalso; auto| |exfalso; auto].
        reflexivity.
      + rewrite andb_false_r.
        destruct (String.eqb_spec (pat_name pt) cxi) as [X|NC]; [reflexivity|].
        destruct S as [S|[S|[[_ S]|S]]]; try contradiction. exfalso. exact (@typed pt I S).
  Qed.

  Section Store.
  Variable x : value Val d.
  Hypothesis HF : fields_of d (tag x) = Some F.
  Variables (sh : Sh) (cx : Cx).

  Lemma get_field_in f : In f F -> exists v, get_field x f = Some v.
  Proof.
    intros I. destruct (get_field x f) eqn:E; [eauto|]. apply get_field_index in E.
    unfold field_index in E. rewrite HF in E. destruct (position_eqb_in _ _ I). congruence.
  Qed.
  Lemma get_field_not_in f v : get_field x f = Some v -> In f F.
  Proof.
    unfold get_field, field_index. rewrite HF. destruct (position (String.eqb f) F) as [n|] eqn:E; [|discriminate].
    intros _. apply position_eqb_some in E. eapply nth_error_In; eauto.
  Qed.

  Lemma read_slot p : In p ps ->
    exists a, read (x, sh, cx) e (slot_of p) = Some a /\
              denotes ev cxi (get_field x) sh cx e p a.
  Proof.
    intros I. destruct p as [|pt]; [eexists; split; [reflexivity|constructor]|].
    destruct (@idents pt I) as [i P]. cbn. unfold pat_name. rewrite P.
    pose proof (@scoped _ (in_map param_ident ps _ I)) as S. cbn in S. unfold pat_name in S. rewrite P in S.
    destruct distinct3 as [D1 [D2 D3]].
    destruct (String.eqb_spec i ev) as [->|NE].
    - destruct S as [S|[S|[[S _]|S]]].
      + destruct (@clean _ S) as [_ [N _]]. destruct (N eq_refl).
      + symmetry in S. contradiction.
      + destruct e as [v|] eqn:Ee; [|discriminate]. eexists. split; [reflexivity|].
        econstructor; eauto.
      + contradiction.
    - destruct (String.eqb_spec i cxi) as [->|NC].
      + eexists. split; [reflexivity|]. constructor. exact P.
      + destruct S as [S|[S|[[_ S]|S]]]; try contradiction.
        * destruct (get_field_in _ S) as [v V]. cbn. rewrite V. eexists. split; [reflexivity|].
          eapply denotes_field; eauto.
        * exfalso. apply (@typed pt I). unfold pat_name. now rewrite P.
  Qed.
  End Store.

  (** Writing back. *)
  Lemma write_tag (s : store Val Sh Cx d) sl (a : arg') :
    tag (fst (fst (write s sl a))) = tag (fst (fst s)).
  Proof.
    destruct s as [[x sh] cx]. destruct sl, a; cbn; try reflexivity. apply set_field_tag.
  Qed.
  Lemma write_all_tag sls : forall (s : store Val Sh Cx d) (l : list arg'),
    tag (fst (fst (write_all s sls l))) = tag (fst (fst s)).
  Proof.
    induction sls as [|sl sls IH]; intros s [|a l]; cbn; try reflexivity. now rewrite IH, write_tag.
  Qed.

  (** What a slot holds. *)
  Definition content (s : store Val Sh Cx d) (sl : slot) : option arg' :=
    let '(x, sh, cx) := s in
    match sl with
    | SField f => option_map (@AField Val Sh Ev Cx) (get_field x f)
    | SShared => Some (AShared sh)
    | SEvent => None
    | SContext => Some (AContext cx)
    end.
  Definition fits (sl : slot) (a : arg') : Prop :=
    match sl, a with
    | SField _, AField _ | SShared, AShared _ | SContext, AContext _ => True
    | _, _ => False
    end.
  Lemma content_write s sl (a : arg') :
    fits sl a -> content s sl <> None -> content (write s sl a) sl = Some a.
  Proof.
    destruct s as [[x sh] cx]. destruct sl, a; cbn; try tauto. intros _ N.
    rewrite get_set_same; [reflexivity|]. intros E. apply N. now rewrite E.
  Qed.
  Lemma content_write_other s sl sl' (a : arg') :
    sl <> sl' -> content (write s sl a) sl' = content s sl'.
  Proof.
    destruct s as [[x sh] cx]. destruct sl as [f| | |], a, sl' as [f'| | |]; cbn; intros N; try reflexivity; try (now destruct N).
    rewrite get_set_other; [reflexivity|congruence].
  Qed.
  Lemma write_all_other sls : forall s sl (l : list arg'),
    ~ In sl sls -> content (write_all s sls l) sl = content s sl.
  Proof.
    induction sls as [|sl' sls IH]; intros s sl [|a l] N; cbn; try reflexivity.
    rewrite IH by (intros I; apply N; now right). apply content_write_other.
    intros ->. apply N. now left.
  Qed.
  Lemma write_all_at sls : forall s sl (l : list arg') a,
    NoDup sls -> In (sl, a) (combine sls l) -> fits sl a -> content s sl <> None ->
    content (write_all s sls l) sl = Some a.
  Proof.
    induction sls as [|sl' sls IH]; intros s sl [|a' l] a ND I K N; cbn in I; try tauto.
    inversion ND as [|? ? NI ND']; subst. cbn. destruct I as [[= -> ->]|I].
    - rewrite write_all_other by exact NI. now apply content_write.
    - apply IH; auto. rewrite content_write_other; [exact N|].
      intros ->. apply NI. apply in_combine_l in I. exact I.
  Qed.
  Lemma in_combine_map (qs : list fn_arg) (l : list arg') p a :
    In (p, a) (combine qs l) -> In (slot_of p, a) (combine (map slot_of qs) l).
  Proof.
    revert l. induction qs as [|q qs IH]; intros [|b l]; cbn; try tauto.
    intros [[= -> ->]|I]; auto.
  Qed.

  Lemma slot_field p f : (forall pt, p = Typed pt -> exists i, pt_pat pt = PatIdent i) ->
    slot_of p = SField f -> names f p /\ f <> ev /\ f <> cxi.
  Proof.
    intros Id. destruct p as [|pt]; cbn; [discriminate|].
    destruct (String.eqb_spec (pat_name pt) ev); [discriminate|].
    destruct (String.eqb_spec (pat_name pt) cxi); [discriminate|]. intros [= <-].
    destruct (Id _ eq_refl) as [i P]. unfold pat_name in *. rewrite P in *.
    split; [|auto]. exists pt. auto.
  Qed.
  Lemma names_slot f p : names f p -> f <> ev -> f <> cxi -> slot_of p = SField f.
  Proof.
    intros [pt [-> P]] N1 N2. cbn. unfold pat_name. rewrite P.
    destruct (String.eqb_spec f ev); [contradiction|].
    destruct (String.eqb_spec f cxi); [contradiction|]. reflexivity.
  Qed.
  Lemma names_ident f p : names f p -> param_ident p = f.
  Proof. intros [pt [-> P]]. cbn. unfold pat_name. now rewrite P. Qed.
  Lemma names_context p : (forall pt, p = Typed pt -> exists i, pt_pat pt = PatIdent i) ->
    slot_of p = SContext <-> names cxi p.
  Proof.
    intros Id. destruct distinct3 as [_ [_ D3]]. split.
    - destruct p as [|pt]; cbn; [discriminate|].
      destruct (String.eqb_spec (pat_name pt) ev); [discriminate|].
      destruct (String.eqb_spec (pat_name pt) cxi) as [E|]; [|discriminate]. intros _.
      destruct (Id _ eq_refl) as [i P]. exists pt. split; [reflexivity|]. unfold pat_name in E.
      rewrite P in E. subst i. exact P.
    - intros [pt [-> P]]. cbn. unfold pat_name. rewrite P.
      destruct (String.eqb_spec cxi ev) as [E|_]; [congruence|]. now rewrite String.eqb_refl.
  Qed.

  Lemma slots_nodup : NoDup (map slot_of ps).
  Proof.
    destruct distinct3 as [D1 [D2 D3]].
    assert (J : forall p q, In p ps -> In q ps -> slot_of p = slot_of q -> param_ident p = param_ident q).
    { intros p q Ip Iq E. destruct p as [|pt], q as [|qt]; cbn in *; try reflexivity.
      - destruct (pat_name qt =? ev); [discriminate|]. destruct (pat_name qt =? cxi); discriminate.
      - destruct (pat_name pt =? ev); [discriminate|]. destruct (pat_name pt =? cxi); discriminate.
      - destruct (String.eqb_spec (pat_name pt) ev), (String.eqb_spec (pat_name qt) ev),
          (String.eqb_spec (pat_name pt) cxi), (String.eqb_spec (pat_name qt) cxi); congruence. }
    clear - once J. revert once J. induction ps as [|p qs IH]; intros ND J; [constructor|].
    cbn in *. inversion ND as [|? ? NI ND']; subst. constructor; [|apply IH; auto].
    intros I. apply NI. apply in_map_iff in I. destruct I as [q [E I]].
    rewrite (J p q (or_introl eq_refl) (or_intror I) (eq_sym E)). now apply in_map.
  Qed.

  Lemma denotes_fits fl sh cx p a b :
    denotes ev cxi fl sh cx e p a -> same_kind a b -> slot_of p <> SEvent -> fits (slot_of p) b.
  Proof.
    destruct distinct3 as [D1 [D2 D3]].
    intros D K N. destruct D as [|pt v P E|pt P|pt f v P N1 N2 E]; cbn in *; unfold pat_name in *; rewrite ?P in *.
    - destruct b; tauto.
    - rewrite String.eqb_refl in N. now destruct N.
    - destruct (String.eqb_spec cxi ev) as [X|_]; [congruence|]. rewrite String.eqb_refl. destruct b; tauto.
    - destruct (String.eqb_spec f ev); [contradiction|]. destruct (String.eqb_spec f cxi); [contradiction|].
      destruct b; tauto.
  Qed.

  Theorem run_call_by_name A (run : ident -> list arg' -> reply A * list arg') f
      (x x' : value Val d) sh sh' cx cx' r :
    fields_of d (tag x) = Some F ->
    run_call g run F e f (map param_ident ps) (x, sh, cx) = (r, (x', sh', cx')) ->
    tag x' = tag x /\
    calls_by_name ev cxi ps (run f) e (get_field x) sh cx r (get_field x') sh' cx'.
  Proof.
    intros HF H. unfold run_call in H.
    assert (R1 : all_some (map (resolve g F has_event) (map param_ident ps)) = Some (map slot_of ps)).
    { rewrite map_map. apply all_some_map.
      assert (Q : forall p, In p ps -> resolve g F has_event (param_ident p) = Some (slot_of p)) by (exact resolve_slot).
      revert Q. clear. induction ps as [|p qs IH]; intros Q; cbn; constructor; auto with datatypes. }
    rewrite R1 in H.
    assert (R2 : exists args, all_some (map (read (x, sh, cx) e) (map slot_of ps)) = Some args /\
                   Forall2 (denotes ev cxi (get_field x) sh cx e) ps args).
    { assert (Q : forall p, In p ps -> exists a, read (x, sh, cx) e (slot_of p) = Some a /\
              denotes ev cxi (get_field x) sh cx e p a) by (intros p I; now apply read_slot).
      revert Q. clear. induction ps as [|p qs IH]; intros Q; [exists []; cbn; auto|].
      destruct (Q p (or_introl eq_refl)) as [a [E1 E2]].
      destruct IH as [l [E3 E4]]; [intros q I; apply Q; now right|].
      exists (a :: l). cbn in *. rewrite E1, E3. split; [reflexivity|constructor; auto]. }
    destruct R2 as [args [R2 D]]. rewrite R2 in H.
    destruct (run f args) as [r0 left_] eqn:RF. injection H as <- W.
    pose proof (write_all_tag (map slot_of ps) (x, sh, cx) left_) as T. rewrite W in T. cbn in T.
    split; [exact T|]. exists args, left_. split; [exact D|]. split; [exact RF|]. intros K.
    pose proof slots_nodup as SN.
    assert (KF : forall p b, In (p, b) (combine ps left_) -> slot_of p <> SEvent -> fits (slot_of p) b).
    { clear - D K distinct. revert args left_ D K. induction ps as [|p qs IH]; intros args left_ D K q b I N; [destruct I|].
      inversion D as [|? a ? as_ Da Das]; subst. inversion K as [|? b' ? bs Kb Kbs]; subst. cbn in I.
      destruct I as [[= -> ->]|I]; [eapply denotes_fits; eauto|eapply IH; eauto]. }
    assert (At : forall p b, In (p, b) (combine ps left_) -> slot_of p <> SEvent ->
                 content (x, sh, cx) (slot_of p) <> None ->
                 content (x', sh', cx') (slot_of p) = Some b).
    { intros p b I N C. rewrite <- W. apply write_all_at; auto using in_combine_map. }
    assert (Oth : forall sl, ~ In sl (map slot_of ps) -> content (x', sh', cx') sl = content (x, sh, cx) sl).
    { intros sl N. rewrite <- W. now apply write_all_other. }
    constructor.
    - intros h p v I Nf N1 N2. pose proof (names_slot Nf N1 N2) as SF.
      pose proof (in_combine_l _ _ _ _ I) as Ip.
      assert (C : content (x, sh, cx) (SField h) <> None).
      { assert (Ih : In h F).
        { pose proof (@scoped _ (in_map param_ident ps p Ip)) as S. rewrite (names_ident Nf) in S.
          destruct S as [S|[S|[[_ S]|S]]]; try contradiction; [exact S|].
          destruct Nf as [pt [-> P]]. exfalso. apply (@typed pt Ip). unfold pat_name. now rewrite P. }
        destruct (@get_field_in x HF h Ih) as [w E]. cbn. rewrite E. discriminate. }
      specialize (At p _ I). rewrite SF in At. specialize (At ltac:(discriminate) C). cbn in At.
      destruct (get_field x' h); [|discriminate]. cbn in At. congruence.
    - intros h N. specialize (Oth (SField h)).
      assert (NI : ~ In (SField h) (map slot_of ps)).
      { intros I. apply in_map_iff in I. destruct I as [p [E I]].
        apply (N p I). apply slot_field with (f := h); [|exact E]. intros pt ->. auto. }
      specialize (Oth NI). cbn in Oth. destruct (get_field x' h), (get_field x h); cbn in Oth; congruence.
    - intros s I. specialize (At _ _ I). cbn in At. specialize (At ltac:(discriminate) ltac:(discriminate)). congruence.
    - intros N. specialize (Oth SShared). cbn in Oth. assert (Some (@AShared Val Sh Ev Cx sh') = Some (AShared sh)) as E.
      { apply Oth. intros I. apply in_map_iff in I. destruct I as [p [E I]]. destruct p as [|pt]; [auto|]. cbn in E.
        destruct (pat_name pt =? ev); [discriminate|]. destruct (pat_name pt =? cxi); discriminate. }
      congruence.
    - intros p k I Np. assert (SC : slot_of p = SContext).
      { apply names_context; [|exact Np]. intros pt ->. apply idents. eapply in_combine_l; eauto. }
      specialize (At _ _ I). rewrite SC in At. specialize (At ltac:(discriminate) ltac:(discriminate)). cbn in At. congruence.
    - intros N. specialize (Oth SContext). cbn in Oth. assert (Some (@AContext Val Sh Ev Cx cx') = Some (AContext cx)) as E.
      { apply Oth. intros I. apply in_map_iff in I. destruct I as [p [E I]]. apply (N p I).
        apply names_context; [|exact E]. intros pt ->. auto. }
      congruence.
  Qed.
End RunCall.
