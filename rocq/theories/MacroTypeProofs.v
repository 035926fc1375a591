(** MacroTypeProofs.v — the event and context types and the generics found by the macro. *)

From Coq Require Import String Ascii List Bool Arith Lia Permutation.
From Verif Require Import Machine MacroSyntax MacroVisit MacroAnalyze MacroLower MacroGen MacroSem.
From Verif Require Import MacroSpec MacroBasics MacroExpandProofs MacroLowerProofs.
Import ListNotations.
Open Scope string_scope.
Open Scope list_scope.
Set Implicit Arguments.

(** ** Induction on types *)
Section TypeInduction.
  Variable P : ty -> Prop.
  Definition on_part (p : part) : Prop := match p with PartType t => P t | _ => True end.
  Hypothesis H1 : forall o m t, P t -> P (TReference o m t).
  Hypothesis H2 : forall p args, Forall on_part args -> P (TPath p args).
  Hypothesis H3 : forall s parts, Forall on_part parts -> P (TOther s parts).
  Fixpoint type_ind (t : ty) : P t :=
    let parts := fix parts (l : list part) : Forall on_part l :=
      match l with
      | [] => Forall_nil _
      | p :: l' => Forall_cons p
          (match p return on_part p with PartType t' => type_ind t' | PartLifetime _ | PartIdent _ => I end)
          (parts l')
      end in
    match t with
    | TReference o m e => H1 o m (type_ind e)
    | TPath p args => H2 p (parts args)
    | TOther s l => H3 s (parts l)
    end.
End TypeInduction.

(** ** Renaming *)
Section Rename.
  Variable new : ident.
  Hypothesis New : new <> "_".

  Lemma renamed_reference_inv l m t t' : renamed new (TReference (Some l) m t) t' ->
    exists t1, t' = TReference (Some (renamed_lifetime new l)) m t1 /\ renamed new t t1.
  Proof. intros R. inversion R; subst; eauto. Qed.
  Lemma renamed_lifetime_inv l p : renamed_part new (PartLifetime l) p -> p = PartLifetime (renamed_lifetime new l).
  Proof. intros R. now inversion R. Qed.

  Lemma renamed_self t : renamed new t t <-> anonymous t = false.
  Proof.
    revert t. apply (@type_ind (fun t => renamed new t t <-> anonymous t = false)).
    - intros [l|] m t IH; cbn.
      + rewrite orb_false_iff, String.eqb_neq, <- IH. split.
        * intros R. destruct (renamed_reference_inv R) as [t1 [E R']]. injection E as E <-. split; [|exact R'].
          intros ->. cbn in E. congruence.
        * intros [N R]. assert (E : renamed_lifetime new l = l).
          { unfold renamed_lifetime. destruct (String.eqb_spec l "_"); congruence. }
          rewrite <- E at 2. now constructor.
      + split; [|discriminate]. intros R. inversion R.
    - intros p args F. cbn. split.
      + intros R. inversion R as [| |? ? ? Q|]; subst. clear R. induction args as [|a args IH]; [reflexivity|].
        inversion Q as [|? ? ? ? Qa Qs]; subst. inversion F as [|? ? Fa Fs]; subst. cbn. rewrite (IH Fs Qs), orb_false_r.
        destruct a as [l|i|t]; cbn; [|reflexivity|].
        * pose proof (renamed_lifetime_inv Qa) as E. injection E as E. unfold renamed_lifetime in E.
          destruct (String.eqb_spec l "_") as [->|]; [congruence|reflexivity].
        * inversion Qa; subst. now apply Fa.
      + intros R. constructor. induction args as [|a args IH]; [constructor|].
        cbn in R. apply orb_false_iff in R. destruct R as [Ra Rs]. inversion F as [|? ? Fa Fs]; subst.
        constructor; [|auto]. destruct a as [l|i|t]; cbn in *.
        * assert (E : renamed_lifetime new l = l) by (unfold renamed_lifetime; now rewrite Ra).
          rewrite <- E at 2. constructor.
        * constructor.
        * constructor. now apply Fa.
    - intros s parts F. cbn. split.
      + intros R. inversion R as [| | |? ? ? Q]; subst. clear R. induction parts as [|a args IH]; [reflexivity|].
        inversion Q as [|? ? ? ? Qa Qs]; subst. inversion F as [|? ? Fa Fs]; subst. cbn. rewrite (IH Fs Qs), orb_false_r.
        destruct a as [l|i|t]; cbn; [|reflexivity|].
        * pose proof (renamed_lifetime_inv Qa) as E. injection E as E. unfold renamed_lifetime in E.
          destruct (String.eqb_spec l "_") as [->|]; [congruence|reflexivity].
        * inversion Qa; subst. now apply Fa.
      + intros R. constructor. induction parts as [|a args IH]; [constructor|].
        cbn in R. apply orb_false_iff in R. destruct R as [Ra Rs]. inversion F as [|? ? Fa Fs]; subst.
        constructor; [|auto]. destruct a as [l|i|t]; cbn in *.
        * assert (E : renamed_lifetime new l = l) by (unfold renamed_lifetime; now rewrite Ra).
          rewrite <- E at 2. constructor.
        * constructor.
        * constructor. now apply Fa.
  Qed.

  (** No lifetime of the type is the one being introduced, and none is called "'_" (lifetimes
      have no apostrophe in their names). *)
  Definition proper (t : ty) : Prop := forall l, has_lifetime l t -> l <> "'_" /\ l <> new.
  Lemma rename_exact t : proper t ->
    (renamed new t (rename_type new t) <-> easily_renamed t = true).
  Proof.
    revert t. apply (@type_ind (fun t => proper t -> (renamed new t (rename_type new t) <-> easily_renamed t = true))).
    - intros [l|] m t IH Pr; cbn.
      + destruct (Pr l (hl_reference l m t)) as [N1 _].
        rewrite andb_true_iff, !negb_true_iff, String.eqb_neq, <- renamed_self.
        destruct (String.eqb_spec l "'_") as [->|_]; [congruence|]. split.
        * intros R. destruct (renamed_reference_inv R) as [t1 [E R']]. injection E as E <-. split; [|exact R'].
          intros ->. cbn in E. congruence.
        * intros [N R]. assert (E : renamed_lifetime new l = l).
          { unfold renamed_lifetime. destruct (String.eqb_spec l "_"); congruence. }
          rewrite <- E at 2. now constructor.
      + rewrite negb_true_iff, <- renamed_self. split; [|now constructor]. intros R. now inversion R.
    - intros p args F Pr. cbn [rename_type easily_renamed].
      assert (Q : Forall2 (renamed_part new) args (map (rename_part new) args) <->
                  forallb easily_renamed_part args = true).
      { assert (Pr' : forall a l, In a args -> part_has_lifetime l a -> l <> "'_" /\ l <> new).
        { intros a l I H. apply Pr. exact (@hl_path l p args a I H). }
        clear Pr. induction args as [|a args IH]; [split; [reflexivity|constructor]|].
        inversion F as [|? ? Fa Fs]; subst. cbn [map forallb]. rewrite andb_true_iff, <- (IH Fs) by firstorder.
        assert (S : renamed_part new a (rename_part new a) <-> easily_renamed_part a = true).
        { destruct a as [l|i|t]; cbn.
          - destruct (Pr' _ l (or_introl eq_refl) (phl_lifetime l)) as [N1 N2]. unfold visit_lifetime.
            destruct (String.eqb_spec l "'_"); [contradiction|]. cbn. split.
            + intros R. pose proof (renamed_lifetime_inv R) as E. injection E as E. unfold renamed_lifetime in E.
              destruct (String.eqb_spec l "_"); congruence.
            + intros E. apply String.eqb_eq in E. subst l. exact (renamed_part_lifetime new "_").
          - split; [reflexivity|constructor].
          - cbn in Fa. rewrite <- Fa.
            + split; [intros R; now inversion R|now constructor].
            + intros l H. apply (Pr' _ l (or_introl eq_refl)). now constructor. }
        rewrite <- S. split.
        - intros R. now inversion R.
        - intros [? ?]. now constructor. }
      rewrite <- Q. split; [intros R; now inversion R|now constructor].
    - intros p args F Pr. cbn [rename_type easily_renamed].
      assert (Q : Forall2 (renamed_part new) args (map (rename_part new) args) <->
                  forallb easily_renamed_part args = true).
      { assert (Pr' : forall a l, In a args -> part_has_lifetime l a -> l <> "'_" /\ l <> new).
        { intros a l I H. apply Pr. exact (@hl_other l p args a I H). }
        clear Pr. induction args as [|a args IH]; [split; [reflexivity|constructor]|].
        inversion F as [|? ? Fa Fs]; subst. cbn [map forallb]. rewrite andb_true_iff, <- (IH Fs) by firstorder.
        assert (S : renamed_part new a (rename_part new a) <-> easily_renamed_part a = true).
        { destruct a as [l|i|t]; cbn.
          - destruct (Pr' _ l (or_introl eq_refl) (phl_lifetime l)) as [N1 N2]. unfold visit_lifetime.
            destruct (String.eqb_spec l "'_"); [contradiction|]. cbn. split.
            + intros R. pose proof (renamed_lifetime_inv R) as E. injection E as E. unfold renamed_lifetime in E.
              destruct (String.eqb_spec l "_"); congruence.
            + intros E. apply String.eqb_eq in E. subst l. exact (renamed_part_lifetime new "_").
          - split; [reflexivity|constructor].
          - cbn in Fa. rewrite <- Fa.
            + split; [intros R; now inversion R|now constructor].
            + intros l H. apply (Pr' _ l (or_introl eq_refl)). now constructor. }
        rewrite <- S. split.
        - intros R. now inversion R.
        - intros [? ?]. now constructor. }
      rewrite <- Q. split; [intros R; now inversion R|now constructor].
  Qed.
End Rename.

(** ** Event and context parameters *)
Section Found.
  Variables ev cx : ident.
  Definition found_param (f : option pat_type -> fn_arg -> option pat_type) (n : ident) : Prop :=
    forall ins, match fold_left f ins None with
                | Some pt => In (Typed pt) ins /\ pt_pat pt = PatIdent n
                | None => forall pt, In (Typed pt) ins -> pt_pat pt <> PatIdent n
                end.
  Lemma found_fold f n :
    (forall old a, f old a = match a with
                             | Typed pt => match pt_pat pt with
                                           | PatIdent i => if (n =? i)%string then Some pt else old
                                           | _ => old
                                           end
                             | Receiver => old
                             end) -> found_param f n.
  Proof.
    intros F ins. induction ins as [|a ins IH] using rev_ind; cbn; [intros pt []|].
    rewrite fold_left_app. cbn. rewrite F.
    assert (K : match fold_left f ins None with
                | Some pt => In (Typed pt) (ins ++ [a]) /\ pt_pat pt = PatIdent n
                | None => (forall pt, a = Typed pt -> pt_pat pt <> PatIdent n) ->
                          forall pt, In (Typed pt) (ins ++ [a]) -> pt_pat pt <> PatIdent n
                end).
    { destruct (fold_left f ins None).
      - destruct IH. split; [apply in_or_app; auto|auto].
      - intros H pt I. apply in_app_or in I. destruct I as [I|[I|[]]]; auto. }
    assert (N : (forall pt, a = Typed pt -> pt_pat pt <> PatIdent n) ->
                match fold_left f ins None with
                | Some pt => In (Typed pt) (ins ++ [a]) /\ pt_pat pt = PatIdent n
                | None => forall pt, In (Typed pt) (ins ++ [a]) -> pt_pat pt <> PatIdent n
                end).
    { intros H. destruct (fold_left f ins None); auto. }
    destruct a as [|pt]; [apply N; discriminate|]. destruct (pt_pat pt) as [i| | | | | |] eqn:P;
      try (apply N; intros q [= <-]; congruence).
    destruct (String.eqb_spec n i) as [<-|D].
    - split; [apply in_or_app; cbn; auto|exact P].
    - apply N. intros q [= <-]. congruence.
  Qed.
  Lemma found_event : found_param (named_param ev) ev.
  Proof. apply found_fold. intros old [|pt]; reflexivity. Qed.
  Lemma found_context : ev <> cx -> found_param (context_param ev cx) cx.
  Proof.
    intros N. apply found_fold. intros old [|pt]; [reflexivity|]. cbn.
    destruct (pt_pat pt) as [i| | | | | |]; try reflexivity.
    destruct (String.eqb_spec ev i) as [<-|_]; [|reflexivity].
    destruct (String.eqb_spec cx ev) as [E|_]; [congruence|reflexivity].
  Qed.
  Lemma no_context : ev = cx -> forall ins, fold_left (context_param ev cx) ins None = None.
  Proof.
    intros <- ins. induction ins as [|a ins IH] using rev_ind; [reflexivity|].
    rewrite fold_left_app. cbn. rewrite IH. destruct a as [|pt]; [reflexivity|]. cbn.
    destruct (pt_pat pt); try reflexivity. now destruct (ev =? i).
  Qed.

  (** What `lower` makes of the parameter found for one method. *)
  Definition reads (n : ident) (m : impl_fn) (pt : option pat_type) : Prop :=
    match pt with
    | Some pt => takes m n (pt_ty pt) /\ pt_pat pt = PatIdent n
    | None => forall t, ~ takes m n t
    end.
  Lemma found_reads f n m ins : found_param f n -> Forall2 same_param (m_inputs m) ins ->
    reads n m (fold_left f ins None).
  Proof.
    intros F S. specialize (F ins). unfold reads. destruct (fold_left f ins None) as [pt|].
    - destruct F as [I P]. split; [|exact P].
      destruct (Forall2_in_right S I) as [[|q] [J Q]]; [destruct Q|]. destruct Q as [E [T _]].
      exists (pt_attrs q). destruct q as [qa qp qt]. cbn in *. subst. now rewrite P in J.
    - intros t [attrs I]. destruct (Forall2_in_left S I) as [[|q] [J Q]]; [destruct Q|].
      destruct Q as [E _]. exact (F q J (eq_sym E)).
  Qed.
End Found.

Lemma find_type_done n msg old pt r :
  find_type n msg old pt = Done r -> (forall p, pt = Some p -> pt_pat p = PatIdent n) ->
  match pt with
  | Some p => exists l mu t, pt_ty p = TReference l mu t /\ r = Some t
  | None => r = old
  end.
Proof.
  unfold find_type. destruct pt as [p|]; [|intros [= <-]; reflexivity].
  intros H P. rewrite (P p eq_refl), String.eqb_refl in H.
  destruct (ebind_done _ _ H) as [t [E D]]. injection D as <-. unfold referenced in E.
  destruct (pt_ty p) as [l mu e| |] eqn:T; try discriminate. injection E as <-. eauto.
Qed.

(** The fold over a list of methods, given the parameter each of them contributes. *)
Definition found_in (n : ident) (ms : list impl_fn) (old new : option ty) : Prop :=
  (exists m l mu t, In m ms /\ takes m n (TReference l mu t) /\ new = Some t) \/
  ((forall m t, In m ms -> ~ takes m n t) /\ new = old).
Definition by_reference (n : ident) (m : impl_fn) : Prop :=
  (forall t, ~ takes m n t) \/ exists l mu t, takes m n (TReference l mu t).

Lemma found_in_cons n m ms old mid new :
  found_in n [m] old mid -> found_in n ms mid new -> found_in n (m :: ms) old new.
Proof.
  intros A [B|[B ->]].
  - destruct B as (m' & l & mu & t & I & K & ->). left. exists m', l, mu, t. cbn. auto.
  - destruct A as [(m' & l & mu & t & [<-|[]] & K & ->)|[A ->]].
    + left. exists m, l, mu, t. cbn. auto.
    + right. split; [|reflexivity]. intros m' t [<-|I]; [apply A; now left|auto].
Qed.

Lemma find_types_found c T (ev_of cx_of : T -> option pat_type) (as_of : T -> bool) ms (h : list T) :
  Forall2 (fun m s => reads (c_event_ident c) m (ev_of s) /\
             (c_event_ident c <> c_context_ident c -> reads (c_context_ident c) m (cx_of s)) /\
             (c_event_ident c = c_context_ident c -> cx_of s = None)) ms h ->
  forall x x', efold (find_types c) x (map (fun s => (ev_of s, cx_of s, as_of s)) h) = Done x' ->
  found_in (c_event_ident c) ms (x_event x) (x_event x') /\
  (forall m, In m ms -> by_reference (c_event_ident c) m) /\
  (c_event_ident c <> c_context_ident c ->
   found_in (c_context_ident c) ms (x_context x) (x_context x') /\
   (forall m, In m ms -> by_reference (c_context_ident c) m)) /\
  (c_event_ident c = c_context_ident c -> x_context x' = x_context x).
Proof.
  induction 1 as [|m s ms h (R1 & R2 & R3) _ IH]; intros x x' H; cbn in H.
  - injection H as <-. split; [right; split; [intros ? ? []|reflexivity]|]. split; [intros ? []|].
    split; [|reflexivity]. intros _. split; [right; split; [intros ? ? []|reflexivity]|intros ? []].
  - destruct (ebind_done _ _ H) as [x1 [E H1]]. clear H. destruct (IH _ _ H1) as (A1 & A2 & A3 & A4).
    clear IH H1. destruct (ebind_done _ _ E) as [e [E1 E']]. destruct (ebind_done _ _ E') as [k [E2 D]].
    injection D as <-. clear E E'. cbn in A1, A3, A4.
    assert (G : forall n pt old r msg, reads n m pt -> find_type n msg old pt = Done r ->
               found_in n [m] old r /\ by_reference n m).
    { clear. intros n pt old r msg R F. apply find_type_done in F.
      - destruct pt as [p|]; cbn in R.
        + destruct R as [R _]. destruct F as (l & mu & t & Q & ->). rewrite Q in R.
          split; [left; exists m, l, mu, t; cbn; auto|right; eauto].
        + subst r. split; [right; split; [|reflexivity]|left; exact R]. intros m' t [<-|[]]. apply R.
      - intros p ->. apply R. }
    destruct (G _ _ _ _ _ R1 E1) as [B1 B2].
    split; [eapply found_in_cons; eauto|]. split; [intros m' [<-|I]; auto|]. split.
    + intros N. destruct (A3 N) as [C1 C2]. destruct (G _ _ _ _ _ (R2 N) E2) as [D1 D2].
      split; [eapply found_in_cons; eauto|]. intros m' [<-|I]; auto.
    + intros Q. rewrite (A4 Q). rewrite (R3 Q) in E2. cbn in E2. congruence.
Qed.

Lemma action_types l : forall x,
  x_event (fold_left (fun x a => Types (if aa_async a then MAwaitable else x_mode x)
                                       (x_event x) (x_context x)) l x) = x_event x /\
  x_context (fold_left (fun x a => Types (if aa_async a then MAwaitable else x_mode x)
                                         (x_event x) (x_context x)) l x) = x_context x.
Proof. induction l as [|a l IH]; intros x; cbn; [auto|]. destruct (IH (Types (if aa_async a then MAwaitable else x_mode x) (x_event x) (x_context x))) as [-> ->]. auto. Qed.

(** ** Generics *)
Lemma type_idents_spec i t : In i (type_idents t) <-> has_ident i t.
Proof.
  revert t. apply (@type_ind (fun t => In i (type_idents t) <-> has_ident i t)).
  - intros o m t IH. cbn. rewrite IH. split; [now constructor|intros H; now inversion H].
  - intros p args F. cbn [type_idents]. rewrite in_app_iff, in_flat_map. split.
    + intros [H|[a [I H]]]; [now apply hi_segment|]. apply (@hi_path i p args a I).
      rewrite Forall_forall in F. specialize (F a I). destruct a as [l|j|t]; cbn in *; [tauto| |].
      * destruct H as [->|[]]. constructor.
      * constructor. now apply F.
    + intros H. inversion H as [|? ? Hp|? ? a I Ha|]; subst; [auto|]. right. exists a. split; [exact I|].
      rewrite Forall_forall in F. specialize (F a I). inversion Ha; subst; cbn in *; [auto|now apply F].
  - intros s args F. cbn [type_idents]. rewrite in_flat_map. split.
    + intros [a [I H]]. apply (@hi_other i s args a I).
      rewrite Forall_forall in F. specialize (F a I). destruct a as [l|j|t]; cbn in *; [tauto| |].
      * destruct H as [->|[]]. constructor.
      * constructor. now apply F.
    + intros H. inversion H as [| | |? ? a I Ha]; subst. exists a. split; [exact I|].
      rewrite Forall_forall in F. specialize (F a I). inversion Ha; subst; cbn in *; [auto|now apply F].
Qed.
Lemma type_lifetimes_spec i t : In i (type_lifetimes t) <-> has_lifetime i t.
Proof.
  revert t. apply (@type_ind (fun t => In i (type_lifetimes t) <-> has_lifetime i t)).
  - intros o m t IH. cbn. rewrite in_app_iff, IH. split.
    + intros [H|H]; [|now apply hl_below]. destruct o as [l|]; [|destruct H]. destruct H as [->|[]]. constructor.
    + intros H. inversion H; subst; cbn; auto.
  - intros p args F. cbn [type_lifetimes]. rewrite in_flat_map. split.
    + intros [a [I H]]. apply (@hl_path i p args a I).
      rewrite Forall_forall in F. specialize (F a I). destruct a as [l|j|t]; cbn in *; [|tauto|].
      * destruct H as [->|[]]. constructor.
      * constructor. now apply F.
    + intros H. inversion H as [| |? ? a I Ha|]; subst. exists a. split; [exact I|].
      rewrite Forall_forall in F. specialize (F a I). inversion Ha; subst; cbn in *; [auto|now apply F].
  - intros s args F. cbn [type_lifetimes]. rewrite in_flat_map. split.
    + intros [a [I H]]. apply (@hl_other i s args a I).
      rewrite Forall_forall in F. specialize (F a I). destruct a as [l|j|t]; cbn in *; [|tauto|].
      * destruct H as [->|[]]. constructor.
      * constructor. now apply F.
    + intros H. inversion H as [| | |? ? a I Ha]; subst. exists a. split; [exact I|].
      rewrite Forall_forall in F. specialize (F a I). inversion Ha; subst; cbn in *; [auto|now apply F].
Qed.

Lemma eqb_param_eq a b : eqb_param a b = true <-> a = b.
Proof.
  assert (L : forall x y, eqb_idents x y = true <-> x = y).
  { intros x y. unfold eqb_idents. destruct (list_eq_dec string_dec x y); split; congruence. }
  destruct a, b; cbn; rewrite ?andb_true_iff, ?String.eqb_eq, ?L; split; try discriminate;
    try (intros [-> ->]; reflexivity); try (intros ->; reflexivity); intros [= -> ->] || intros [= ->]; auto.
Qed.

(** [pt] mentions [p], a candidate. *)
Definition mentions (pt : pat_type) (p : generic_param) : Prop :=
  match p with
  | GType n _ | GConst n => pt_pat pt = PatIdent n \/ has_ident n (pt_ty pt)
  | GLifetime l bs => bs = [] /\ has_lifetime l (pt_ty pt)
  end.
Lemma search_spec cand pt p : In p cand -> (In p (search cand pt) <-> mentions pt p).
Proof.
  intros C. unfold search. rewrite in_app_iff, in_flat_map, in_map_iff.
  assert (Q : forall n, In n (pat_idents (pt_pat pt) ++ type_idents (pt_ty pt)) <->
                        (pt_pat pt = PatIdent n \/ has_ident n (pt_ty pt))).
  { intros n. rewrite in_app_iff, type_idents_spec. destruct (pt_pat pt); cbn; intuition congruence. }
  destruct p as [l bs|n bs|n]; cbn [mentions].
  - split.
    + intros [[i [_ I]]|[l' [E I]]].
      * unfold visit_ident in I. apply filter_In in I. destruct I as [_ D]. discriminate.
      * injection E as -> <-. split; [reflexivity|]. now apply type_lifetimes_spec.
    + intros [-> H]. right. exists l. split; [reflexivity|]. now apply type_lifetimes_spec.
  - split.
    + intros [[i [J I]]|[l' [E I]]]; [|discriminate].
      apply filter_In in I. destruct I as [_ D]. apply String.eqb_eq in D. subst i. now apply Q.
    + intros H. left. exists n. split; [now apply Q|]. apply filter_In. split; [exact C|apply String.eqb_refl].
  - split.
    + intros [[i [J I]]|[l' [E I]]]; [|discriminate].
      apply filter_In in I. destruct I as [_ D]. apply String.eqb_eq in D. subst i. now apply Q.
    + intros H. left. exists n. split; [now apply Q|]. apply filter_In. split; [exact C|apply String.eqb_refl].
Qed.
Lemma used_params_spec cand pts : 
  exists keep, used_params cand pts = filter keep cand /\
    forall p, In p cand -> (keep p = true <-> exists pt, In pt pts /\ mentions pt p).
Proof.
  eexists. split; [reflexivity|]. intros p C. rewrite existsb_exists. split.
  - intros [q [I E]]. apply eqb_param_eq in E. subst q. apply in_flat_map in I. destruct I as [pt [I S]].
    exists pt. split; [exact I|]. now apply (search_spec _ _ _ C).
  - intros [pt [I S]]. exists p. split; [|now apply eqb_param_eq]. apply in_flat_map. exists pt.
    split; [exact I|]. now apply search_spec.
Qed.
Lemma map_generics_same g ps : map_generics g = Done ps -> ps = g_params g.
Proof.
  unfold map_generics. intros H. apply emap_done in H. induction H as [|a b l r E _ IH]; [reflexivity|].
  destruct (ebind_done _ _ E) as [? [_ D]]. injection D as <-. congruence.
Qed.

(** ** The whole expansion *)
Definition used_by (c : config) (kind : ident) (item : item_impl) (p : generic_param) : Prop :=
  exists m pt, In m (methods item) /\ marked kind m = true /\ In pt (field_params c m) /\ mentions pt p.
Record typed (args : list meta) (item : item_impl) (g : generated) (c : config) : Prop := Typed_ {
  ty_config : analyze_state_machine args item = Done c;
  ty_event : exists e, g_event_type g = rename_type "event" (or_else e unit_type) /\
    found_in (c_event_ident c) (filter (fun m => marked "state" m || marked "superstate" m) (methods item)) None e;
  ty_event_reference : forall m, is_handler item m -> by_reference (c_event_ident c) m;
  ty_context : exists k, g_context_type g = rename_type "context" (or_else k unit_type) /\
    (c_event_ident c <> c_context_ident c ->
     found_in (c_context_ident c) (filter (fun m => marked "state" m || marked "superstate" m) (methods item)) None k) /\
    (c_event_ident c = c_context_ident c -> k = None);
  ty_context_reference : c_event_ident c <> c_context_ident c ->
    forall m, is_handler item m -> by_reference (c_context_ident c) m;
  ty_state_generics : exists keep, g_state_generics g = filter keep (g_params (i_generics item)) /\
    forall p, In p (g_params (i_generics item)) -> (keep p = true <-> used_by c "state" item p);
  ty_super_generics : exists keep borrows,
    g_super_generics g = filter keep (g_params (i_generics item)) ++ (if borrows : bool then [GLifetime "sub" []] else []) /\
    (forall p, In p (g_params (i_generics item)) -> (keep p = true <-> used_by c "superstate" item p)) /\
    (borrows = true <-> exists m, In m (methods item) /\ marked "superstate" m = true /\ field_params c m <> [])
}.

Lemma entries_values T (P : impl_fn -> T -> Prop) ms (h : hash_map T) :
  entries P ms h -> Forall2 P ms (map snd h).
Proof. induction 1 as [|m [k t] ms h [_ Pm] _ IH]; cbn; constructor; auto. Qed.

Lemma found_in_perm n ms ms' old new :
  (forall m, In m ms <-> In m ms') -> found_in n ms old new -> found_in n ms' old new.
Proof.
  intros Q [(m & l & mu & t & I & K & E)|[N E]].
  - left. exists m, l, mu, t. rewrite <- Q. auto.
  - right. split; [|exact E]. intros m t I. rewrite <- Q in I. auto.
Qed.
Lemma found_in_app n ms ms' old mid new :
  found_in n ms old mid -> found_in n ms' mid new -> found_in n (ms ++ ms') old new.
Proof.
  intros A [B|[B ->]].
  - destruct B as (m & l & mu & t & I & K & E). left. exists m, l, mu, t. rewrite in_app_iff. auto.
  - destruct A as [(m & l & mu & t & I & K & E)|[A ->]].
    + left. exists m, l, mu, t. rewrite in_app_iff. auto.
    + right. split; [|reflexivity]. intros m t I. apply in_app_or in I. destruct I; auto.
Qed.

Lemma same_mentions p q g : same_typed p q -> (mentions p g <-> mentions q g).
Proof. intros [E [T _]]. unfold mentions. now rewrite E, T. Qed.
Lemma mentions_found c T (inputs_of : T -> list pat_type) kind ms (h : list T) item p :
  Permutation (filter (marked kind) (methods item)) ms ->
  Forall2 (fun m s => Forall2 same_typed (field_params c m) (inputs_of s)) ms h ->
  ((exists pt, In pt (flat_map inputs_of h) /\ mentions pt p) <-> used_by c kind item p).
Proof.
  intros P F. split.
  - intros [pt [I M]]. apply in_flat_map in I. destruct I as [s [I J]].
    destruct (Forall2_in_right F I) as [m [Im S]]. destruct (Forall2_in_right S J) as [q [Jq Sq]].
    apply (Permutation_in _ (Permutation_sym P)) in Im. apply filter_In in Im.
    exists m, q. rewrite (same_mentions p Sq). tauto.
  - intros (m & q & Im & K & Jq & M).
    assert (Im' : In m ms) by (apply (Permutation_in _ P), filter_In; auto).
    destruct (Forall2_in_left F Im') as [s [I S]]. destruct (Forall2_in_left S Jq) as [pt [J Sq]].
    exists pt. rewrite <- (same_mentions p Sq). split; [|exact M]. apply in_flat_map. eauto.
Qed.

Theorem expand_types o args item g :
  NoDup (map m_name (methods item)) -> expand o args item = Done g ->
  exists c, typed args item g c.
Proof.
  intros ND H. unfold expand in H. destruct (ebind_done _ _ H) as [mo [A H1]]. clear H.
  destruct (ebind_done _ _ H1) as [i [L H2]]. clear H1. injection H2 as <-.
  destruct (@analyze_done args item mo ND A) as [C [I1 [_ [I2 [ES [EU EA]]]]]]. clear A.
  assert (CG : c_generics (mo_config mo) = i_generics item).
  { clear - C. unfold analyze_state_machine in C.
    destruct (ebind_done _ _ C) as [p [_ C1]]. destruct (ebind_done _ _ C1) as [t [_ C2]].
    destruct (t_initial t); [|discriminate].
    destruct (ebind_done _ _ C2) as [[? ?] [_ C3]]. destruct (ebind_done _ _ C3) as [[? ?] [_ C4]].
    injection C4 as <-. reflexivity. }
  unfold lower in L. set (c := mo_config mo) in *.
  destruct (ebind_done _ _ L) as [states0 [_ L']]. clear L.
  destruct (ebind_done _ _ L') as [supers0 [_ L]]. clear L'.
  destruct (ebind_done _ _ L) as [actions [_ L']]. clear L.
  destruct (ebind_done _ _ L') as [states [_ L]]. clear L'.
  destruct (ebind_done _ _ L) as [supers [_ L']]. clear L.
  destruct (ebind_done _ _ L') as [x1 [L6 L]]. clear L'.
  destruct (ebind_done _ _ L) as [x2 [L7 L']]. clear L.
  destruct (ebind_done _ _ L') as [params [L8 L]]. clear L'. injection L as <-.
  apply map_generics_same in L8. rewrite CG in L8.
  destruct (entries_arrange (o_states o) ES) as [s1 [Q1 G1]].
  destruct (entries_arrange (o_supers o) EU) as [s2 [Q2 G2]].
  apply entries_values in G1. apply entries_values in G2.
  fold (hm_values (o_states o) (mo_states mo)) in G1. fold (hm_values (o_supers o) (mo_supers mo)) in G2.
  set (hs := hm_values (o_states o) (mo_states mo)) in *.
  set (hu := hm_values (o_supers o) (mo_supers mo)) in *.
  assert (R1 : Forall2 (fun m s => reads (c_event_ident c) m (as_event s) /\
             (c_event_ident c <> c_context_ident c -> reads (c_context_ident c) m (as_context s)) /\
             (c_event_ident c = c_context_ident c -> as_context s = None)) s1 hs).
  { eapply Forall2_imp; [|exact G1]. intros m s [m1 [SI _]].
    destruct (si_state_inputs SI) as [ins [S [_ [E1 E2]]]].
    pose proof (same_params_trans (st_inputs (si_stripped SI)) S) as S'. rewrite E1, E2.
    split; [exact (found_reads m (found_event _) S')|]. split; [|intros Q; exact (no_context Q ins)].
    intros N. exact (found_reads m (found_context N) S'). }
  assert (R2 : Forall2 (fun m s => reads (c_event_ident c) m (au_event s) /\
             (c_event_ident c <> c_context_ident c -> reads (c_context_ident c) m (au_context s)) /\
             (c_event_ident c = c_context_ident c -> au_context s = None)) s2 hu).
  { eapply Forall2_imp; [|exact G2]. intros m s SI.
    rewrite (ui_event SI), (ui_context SI). pose proof (ui_inputs SI) as S'.
    split; [exact (found_reads m (found_event _) S')|]. split; [|intros Q; exact (no_context Q _)].
    intros N. exact (found_reads m (found_context N) S'). }
  destruct (@find_types_found c _ as_event as_context as_async s1 hs R1 _ _ L6) as (A1 & A2 & A3 & A4).
  destruct (@find_types_found c _ au_event au_context au_async s2 hu R2 _ _ L7) as (B1 & B2 & B3 & B4).
  cbn in A1, A3, A4.
  assert (IN : forall m, In m (s1 ++ s2) <->
    In m (filter (fun m => marked "state" m || marked "superstate" m) (methods item))).
  { intros m. rewrite in_app_iff, filter_In, orb_true_iff. split.
    - intros [J|J]; [apply (Permutation_in _ (Permutation_sym Q1)) in J|apply (Permutation_in _ (Permutation_sym Q2)) in J];
        apply filter_In in J; tauto.
    - intros [J [K|K]]; [left; apply (Permutation_in _ Q1)|right; apply (Permutation_in _ Q2)]; now apply filter_In. }
  assert (HD : forall m, is_handler item m -> In m s1 \/ In m s2).
  { intros m [J K]. apply in_app_or, IN, filter_In. split; [exact J|]. apply orb_true_iff. tauto. }
  pose proof (action_types (hm_values (o_actions o) (mo_actions mo)) x2) as [X1 X2].
  assert (F1 : Forall2 (fun m s => Forall2 same_typed (field_params c m) (as_state_inputs s)) s1 hs).
  { eapply Forall2_imp; [|exact G1]. intros m s [m1 [SI _]].
    destruct (si_state_inputs SI) as [ins [S [E0 _]]].
    pose proof (same_params_trans (st_inputs (si_stripped SI)) S) as S'. rewrite E0. now apply same_field_params. }
  assert (F2 : Forall2 (fun m s => Forall2 same_typed (field_params c m) (au_state_inputs s)) s2 hu).
  { eapply Forall2_imp; [|exact G2]. intros m s SI. rewrite (ui_state_inputs SI).
    apply same_field_params, (ui_inputs SI). }
  exists c. constructor; cbn.
  - exact C.
  - rewrite X1. exists (x_event x2). split; [reflexivity|].
    eapply found_in_perm; [exact IN|]. eapply found_in_app; [exact A1|exact B1].
  - intros m K. destruct (HD m K); auto.
  - rewrite X2. exists (x_context x2). split; [reflexivity|]. split.
    + intros N. eapply found_in_perm; [exact IN|]. eapply found_in_app; [apply A3, N|apply B3, N].
    + intros Q. rewrite (B4 Q). exact (A4 Q).
  - intros N m K. destruct (HD m K); [now apply A3|now apply B3].
  - subst params. destruct (used_params_spec (g_params (i_generics item)) (flat_map as_state_inputs hs)) as [keep [E K]].
    exists keep. split; [exact E|]. intros p J. rewrite (K p J). exact (@mentions_found c _ as_state_inputs "state" s1 hs item p Q1 F1).
  - subst params. destruct (used_params_spec (g_params (i_generics item)) (flat_map au_state_inputs hu)) as [keep [E K]].
    exists keep. eexists. split; [f_equal; exact E|]. split.
    + intros p J. rewrite (K p J). exact (@mentions_found c _ au_state_inputs "superstate" s2 hu item p Q2 F2).
    + rewrite existsb_exists. split.
      * intros [s [J N]]. destruct (Forall2_in_right F2 J) as [m [Im S]].
        apply (Permutation_in _ (Permutation_sym Q2)), filter_In in Im. exists m. split; [tauto|]. split; [tauto|].
        intros E0. rewrite E0 in S. destruct (au_state_inputs s); [discriminate|inversion S].
      * intros (m & Im & Km & N). assert (J : In m s2) by (apply (Permutation_in _ Q2), filter_In; auto).
        destruct (Forall2_in_left F2 J) as [s [Js S]]. exists s. split; [exact Js|].
        destruct (au_state_inputs s); [|reflexivity]. inversion S as [Z|]. congruence.
Qed.

(** ** In the words of the specification *)
Lemma uses_generic_spec c m p : idents_only m ->
  ((exists pt, In pt (field_params c m) /\ mentions pt p) <->
   uses_generic (c_event_ident c) (c_context_ident c) m p /\
   match p with GLifetime _ bs => bs = [] | _ => True end).
Proof.
  intros IO. unfold uses_generic. split.
  - intros [pt [I M]]. unfold field_params in I. apply in_flat_map in I. destruct I as [a [I J]].
    destruct a as [|q]; [destruct J|]. destruct (IO q I) as [i P]. cbn in J. rewrite P in J.
    destruct (String.eqb_spec (c_event_ident c) i) as [|N1]; [destruct J|].
    destruct (String.eqb_spec (c_context_ident c) i) as [|N2]; [destruct J|].
    destruct J as [->|[]]. split.
    + exists i, (pt_ty pt). split.
      { exists (pt_attrs pt). destruct pt as [at_ pp pty]. cbn in *. now rewrite P in I. }
      split; [congruence|]. split; [congruence|]. destruct p as [l bs|n bs|n]; cbn in M; [tauto| |];
        (destruct M as [M|M]; [left; congruence|tauto]).
    + destruct p; cbn in M; tauto.
  - intros [(i & t & [attrs I] & N1 & N2 & M) B]. exists (PatType attrs (PatIdent i) t). split.
    + unfold field_params. apply in_flat_map. eexists. split; [exact I|]. cbn.
      destruct (String.eqb_spec (c_event_ident c) i) as [|_]; [congruence|].
      destruct (String.eqb_spec (c_context_ident c) i) as [|_]; [congruence|]. now left.
    + destruct p as [l bs|n bs|n]; cbn; [tauto| |]; (destruct M as [->|M]; tauto).
Qed.
Lemma field_params_spec c m : idents_only m ->
  (field_params c m <> [] <->
   exists i t, takes m i t /\ i <> c_event_ident c /\ i <> c_context_ident c).
Proof.
  intros IO. split.
  - intros H. destruct (field_params c m) as [|pt l] eqn:F; [congruence|].
    assert (I : In pt (field_params c m)) by (rewrite F; now left). clear H F.
    unfold field_params in I. apply in_flat_map in I. destruct I as [a [I J]].
    destruct a as [|q]; [destruct J|]. destruct (IO q I) as [i P]. cbn in J. rewrite P in J.
    destruct (String.eqb_spec (c_event_ident c) i) as [|N1]; [destruct J|].
    destruct (String.eqb_spec (c_context_ident c) i) as [|N2]; [destruct J|].
    exists i, (pt_ty q). split; [|split; congruence].
    exists (pt_attrs q). destruct q as [at_ pp pty]. cbn in *. now rewrite P in I.
  - intros (i & t & [attrs I] & N1 & N2) E.
    assert (J : In (PatType attrs (PatIdent i) t) (field_params c m)).
    { unfold field_params. apply in_flat_map. eexists. split; [exact I|]. cbn.
      destruct (String.eqb_spec (c_event_ident c) i) as [|_]; [congruence|].
      destruct (String.eqb_spec (c_context_ident c) i) as [|_]; [congruence|]. now left. }
    rewrite E in J. destruct J.
Qed.
