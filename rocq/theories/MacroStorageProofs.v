(** MacroStorageProofs.v — the fields of variants, and the constructors. *)

From Coq Require Import String Ascii List Bool Arith Lia Permutation.
From Verif Require Import Machine Spec.
From Verif Require Import MacroSyntax MacroVisit MacroAnalyze MacroLower MacroGen MacroSem.
From Verif Require Import MacroSpec MacroBasics MacroExpandProofs MacroLowerProofs MacroCallProofs
  MacroMachineProofs MacroBehaviour MacroPathProofs.
Import ListNotations.
Open Scope string_scope.
Open Scope list_scope.
Set Implicit Arguments.

Lemma nodup_app_r A (l r : list A) : NoDup (l ++ r) -> NoDup r.
Proof. induction l as [|a l IH]; cbn; [auto|]. intros N. inversion N; auto. Qed.

(** ** Fields *)
Lemma parameter_fields_eq c m : idents_only m -> fields_by_reference c m ->
  map state_field_of (field_params c m) = parameter_fields (c_event_ident c) (c_context_ident c) m /\
  map super_field_of (field_params c m) = borrowed_fields (c_event_ident c) (c_context_ident c) m.
Proof.
  unfold idents_only, fields_by_reference, field_params, parameter_fields, borrowed_fields.
  induction (m_inputs m) as [|p l IH]; intros Id Re; [split; reflexivity|].
  destruct IH as [IH1 IH2].
  { intros pt I. apply Id. now right. }
  { intros pt I. apply Re. cbn. apply in_or_app. auto. }
  destruct p as [|[at_ pa t]]; [exact (conj IH1 IH2)|].
  destruct (Id _ (or_introl eq_refl)) as [i P]. cbn in P. subst pa. cbn.
  rewrite (String.eqb_sym i (c_event_ident c)), (String.eqb_sym i (c_context_ident c)).
  destruct (c_event_ident c =? i)%string eqn:E1; [destruct t; exact (conj IH1 IH2)|].
  destruct (c_context_ident c =? i)%string eqn:E2; [destruct t; exact (conj IH1 IH2)|].
  destruct (Re (PatType at_ (PatIdent i) t)) as (lf & mu & t' & R).
  { cbn. rewrite E1, E2. now left. }
  cbn in R. subst t. cbn. rewrite IH1, IH2. split; reflexivity.
Qed.

Lemma add_field_nodup fs f : NoDup (map f_name (add_field fs f)) -> NoDup (map f_name fs).
Proof.
  induction fs as [|a fs IH]; cbn; [constructor|].
  destruct (String.eqb_spec (f_name a) (f_name f)) as [E|N]; cbn; [rewrite E; auto|].
  intros ND. inversion ND as [|? ? N1 N2]; subst. constructor; [|auto].
  intros I. apply N1. apply add_field_names. auto.
Qed.
Lemma add_fields_nodup st : forall fs, NoDup (map f_name (fold_left add_field st fs)) -> NoDup (map f_name fs).
Proof. induction st as [|f st IH]; intros fs; cbn; [auto|]. intros H. apply IH in H. exact (add_field_nodup _ _ H). Qed.
Lemma add_field_in fs f h : NoDup (map f_name fs) ->
  In h (add_field fs f) <-> h = f \/ (In h fs /\ f_name h <> f_name f).
Proof.
  induction fs as [|a fs IH]; cbn; [intuition congruence|]. intros ND. inversion ND as [|? ? N1 N2]; subst.
  destruct (String.eqb_spec (f_name a) (f_name f)) as [E|N]; cbn.
  - split.
    + intros [->|I]; [auto|]. right. split; [auto|]. intros E'. apply N1. rewrite E, <- E'. now apply in_map.
    + intros [->|[[->|I] N]]; [auto|contradiction|auto].
  - rewrite (IH N2). split.
    + intros [->|[->|[I N']]]; [right; auto|auto|auto].
    + intros [->|[[->|I] N']]; auto.
Qed.
Lemma add_field_nodup' fs f : NoDup (map f_name fs) -> NoDup (map f_name (add_field fs f)).
Proof.
  induction fs as [|a fs IH]; cbn; [repeat constructor; tauto|]. intros ND. inversion ND as [|? ? N1 N2]; subst.
  destruct (String.eqb_spec (f_name a) (f_name f)) as [E|N]; cbn.
  - rewrite <- E. now constructor.
  - constructor; [|auto]. intros I. apply add_field_names in I. destruct I; auto.
Qed.
Lemma stores_nil ps f : stores [] ps f <-> In f ps.
Proof.
  split.
  - intros [(l1 & l2 & E & _)|[I _]]; [now destruct l1|exact I].
  - intros I. right. split; [exact I|]. intros [].
Qed.
Lemma add_fields_in st : forall fs h, NoDup (map f_name fs) ->
  In h (fold_left add_field st fs) <-> stores st fs h.
Proof.
  induction st as [|f st IH]; intros fs h ND; cbn; [now rewrite stores_nil|].
  rewrite (IH _ _ (add_field_nodup' _ f ND)). split.
  - intros [(l1 & l2 & -> & N)|[I N]].
    + left. exists (f :: l1), l2. auto.
    + apply (add_field_in _ _ _ ND) in I. destruct I as [->|[I N']].
      * left. exists [], st. auto.
      * right. split; [exact I|]. cbn. intuition congruence.
  - intros [(l1 & l2 & E & N)|[I N]].
    + destruct l1 as [|a l1]; cbn in E; injection E as -> ->.
      * right. split; [|exact N]. apply (add_field_in _ _ _ ND). auto.
      * left. exists l1, l2. auto.
    + right. cbn in N. split; [|tauto]. apply (add_field_in _ _ _ ND). right. split; [exact I|].
      intros E. apply N. left. congruence.
Qed.
(** Without overlaps: the parameters in order, then the declared fields in order. *)
Lemma add_fields_app st : forall fs,
  NoDup (map f_name st) -> (forall f, In f st -> ~ In (f_name f) (map f_name fs)) ->
  fold_left add_field st fs = fs ++ st.
Proof.
  induction st as [|f st IH]; intros fs ND NI; cbn; [now rewrite app_nil_r|].
  inversion ND as [|? ? N1 N2]; subst.
  assert (E : add_field fs f = fs ++ [f]).
  { assert (N : ~ In (f_name f) (map f_name fs)) by (apply NI; now left). clear - N.
    induction fs as [|a fs IH]; cbn; [reflexivity|]. cbn in N.
    destruct (String.eqb_spec (f_name a) (f_name f)) as [E|_]; [exfalso; apply N; auto|]. rewrite IH; auto. }
  rewrite E, IH.
  - rewrite <- app_assoc. reflexivity.
  - exact N2.
  - intros h I. rewrite map_app, in_app_iff. cbn. intros [J|[J|[]]].
    + apply (NI h); [now right|exact J].
    + apply N1. rewrite J. now apply in_map.
Qed.

Section Storage.
  Variables (args : list meta) (item : item_impl) (g : generated) (c : config).
  Variables sms ums : list impl_fn.
  Hypothesis ND : NoDup (map m_name (methods item)).
  Hypothesis X : expanded args item g c sms ums.
  Hypothesis CO : compiles g.
  Notation ev := (g_event_ident g).
  Notation cxi := (g_context_ident g).

  Lemma state_variant_of m v : In m sms -> In v (g_state_variants g) -> v_name v = vname m ->
    v = state_variant c m.
  Proof.
    intros I J E. pose proof (co_state_variants CO) as N.
    assert (K : In (state_variant c m) (g_state_variants g)) by (rewrite (ex_state_variants X); now apply in_map).
    pose proof (@find_name _ _ N J) as F1. pose proof (@find_name _ _ N K) as F2. cbn [state_variant v_name] in F2.
    unfold vname in E. rewrite <- E in F2. congruence.
  Qed.
  Lemma super_variant_of m v : In m ums -> In v (g_super_variants g) -> v_name v = vname m ->
    v = super_variant c m.
  Proof.
    intros I J E. pose proof (co_super_variants CO) as N.
    assert (K : In (super_variant c m) (g_super_variants g)) by (rewrite (ex_super_variants X); now apply in_map).
    pose proof (@find_name _ _ N J) as F1. pose proof (@find_name _ _ N K) as F2. cbn [super_variant v_name] in F2.
    unfold vname in E. rewrite <- E in F2. congruence.
  Qed.
  Lemma state_fields_nodup m : In m sms -> NoDup (map f_name (state_fields c m)).
  Proof.
    intros I. apply (co_fields CO (state_variant c m)). apply in_or_app. left. rewrite (ex_state_variants X).
    now apply in_map.
  Qed.
  Lemma super_fields_nodup m : In m ums -> NoDup (map f_name (super_fields c m)).
  Proof.
    intros I. apply (co_fields CO (super_variant c m)). apply in_or_app. right. rewrite (ex_super_variants X).
    now apply in_map.
  Qed.

  Theorem state_storage m v : In m sms -> In v (g_state_variants g) -> v_name v = vname m ->
    (forall f, In f (v_fields v) <-> stores (local_storage "state" m) (parameter_fields ev cxi m) f) /\
    (NoDup (map f_name (local_storage "state" m)) ->
     (forall f, In f (local_storage "state" m) -> ~ In (f_name f) (map f_name (parameter_fields ev cxi m))) ->
     v_fields v = parameter_fields ev cxi m ++ local_storage "state" m).
  Proof.
    intros I J E. rewrite (@state_variant_of m v I J E). cbn [state_variant v_fields]. clear v J E.
    pose proof (@state_fields_nodup m I) as N. unfold state_fields in *.
    destruct (ex_state_methods X _ I) as (Id & Re & _). destruct (parameter_fields_eq Id Re) as [P _].
    rewrite (ex_event_ident X), (ex_context_ident X). rewrite P in *. split.
    - intros f. apply add_fields_in. exact (add_fields_nodup _ _ N).
    - apply add_fields_app.
  Qed.
  Theorem super_storage m v : In m ums -> In v (g_super_variants g) -> v_name v = vname m ->
    (forall f, In f (v_fields v) <-> stores (local_storage "superstate" m) (borrowed_fields ev cxi m) f) /\
    (NoDup (map f_name (local_storage "superstate" m)) ->
     (forall f, In f (local_storage "superstate" m) -> ~ In (f_name f) (map f_name (borrowed_fields ev cxi m))) ->
     v_fields v = borrowed_fields ev cxi m ++ local_storage "superstate" m).
  Proof.
    intros I J E. rewrite (@super_variant_of m v I J E). cbn [super_variant v_fields]. clear v J E.
    pose proof (@super_fields_nodup m I) as N. unfold super_fields in *.
    destruct (ex_super_methods X _ I) as (Id & Re & _). destruct (parameter_fields_eq Id Re) as [_ P].
    rewrite (ex_event_ident X), (ex_context_ident X). rewrite P in *. split.
    - intros f. apply add_fields_in. exact (add_fields_nodup _ _ N).
    - apply add_fields_app.
  Qed.

  (** ** Defaults *)
  Definition as_default (f : ident) (i : initial_value) : option storage_default :=
    match i with
    | FromArgument => None
    | DefaultOfType => Some (DefaultEmpty f)
    | ByExpression e => Some (DefaultValue f e)
    end.
  Lemma find_default_app a b f : find_default (a ++ b) f =
    match find_default a f with Some d => Some d | None => find_default b f end.
  Proof. unfold find_default. induction a as [|d a IH]; cbn; [reflexivity|]. destruct (_ =? _)%string; auto. Qed.
  Local Arguments find_default : simpl never.
  Lemma find_default_nil f : find_default [] f = None.
  Proof. reflexivity. Qed.
  Lemma find_default_one d f : find_default [d] f = if (f =? default_ident d)%string then Some d else None.
  Proof. reflexivity. Qed.
  Lemma find_default_none e k l f :
    (forall p, In p l -> names_b f p = false) ->
    (forall pt, In (Typed pt) l -> exists i, pt_pat pt = PatIdent i) ->
    find_default (flat_map (default_param e k) l) f = None.
  Proof.
    induction l as [|p l IH]; intros N Id; cbn; [reflexivity|]. rewrite find_default_app, IH.
    - destruct p as [|pt]; cbn; [reflexivity|]. destruct (Id pt (or_introl eq_refl)) as [i P]. rewrite P.
      specialize (N _ (or_introl eq_refl)). cbn in N. rewrite P in N.
      destruct (e =? i)%string; [reflexivity|]. destruct (k =? i)%string; [reflexivity|].
      destruct (find is_default (pt_attrs pt)) as [a|]; [|reflexivity].
      assert (Q : forall d, analyze_default i a = Done d -> default_ident d = i).
      { intros d. destruct a as [p|p t|p [s|]]; cbn; try discriminate; [intros [= <-]; reflexivity|].
        destruct (as_expr s); [intros [= <-]; reflexivity|discriminate]. }
      destruct (analyze_default i a) as [d| |] eqn:A; try reflexivity. rewrite find_default_one.
      rewrite (Q d eq_refl), String.eqb_sym, N. reflexivity.
    - intros q I. apply N. now right.
    - intros q I. apply Id. now right.
  Qed.
  Lemma defaults_of e k l f : f <> e -> f <> k ->
    (forall pt, In (Typed pt) l -> exists i, pt_pat pt = PatIdent i) ->
    NoDup (map pat_name (flat_map (field_param e k) l)) ->
    find_default (flat_map (default_param e k) l) f =
    as_default f (match find (names_b f) l with Some p => parameter_default p | None => FromArgument end).
  Proof.
    intros Ne Nk. induction l as [|p l IH]; intros Id N; cbn; [reflexivity|]. rewrite find_default_app.
    destruct (names_b f p) eqn:NB.
    - destruct p as [|pt]; [discriminate|]. destruct (Id pt (or_introl eq_refl)) as [i P]. cbn in NB, N |- *.
      rewrite P in *. apply String.eqb_eq in NB. subst i.
      destruct (String.eqb_spec e f) as [|_]; [congruence|]. destruct (String.eqb_spec k f) as [|_]; [congruence|].
      cbn in N. inversion N as [|? ? N1 N2]; subst.
      assert (Rest : find_default (flat_map (default_param e k) l) f = None).
      { apply find_default_none; [|intros q I; apply Id; now right].
        intros q I. destruct (names_b f q) eqn:NQ; [|reflexivity]. exfalso. apply N1.
        destruct q as [|qt]; [discriminate|]. cbn in NQ. unfold pat_name at 1. rewrite P.
        destruct (pt_pat qt) as [j| | | | | |] eqn:Q; try discriminate. apply String.eqb_eq in NQ. subst j.
        apply in_map_iff. exists qt. unfold pat_name. rewrite Q. split; [reflexivity|].
        apply in_flat_map. exists (Typed qt). split; [exact I|]. cbn. rewrite Q.
        destruct (String.eqb_spec e f) as [|_]; [congruence|]. destruct (String.eqb_spec k f) as [|_]; [congruence|].
        now left. }
      change (fun a => is_ident (meta_path a) "default") with is_default.
      destruct (find is_default (pt_attrs pt)) as [a|]; [|exact Rest].
      destruct a as [q|q t|q [s|]]; cbn; [rewrite find_default_one; cbn; rewrite String.eqb_refl; reflexivity|exact Rest| |exact Rest].
      destruct (as_expr s) as [x|]; cbn; [rewrite find_default_one; cbn; rewrite String.eqb_refl; reflexivity|exact Rest].
    - rewrite IH.
      + assert (Q : find_default (default_param e k p) f = None); [|now rewrite Q].
        pose proof (@find_default_none e k [p] f) as Q. cbn in Q. rewrite app_nil_r in Q. apply Q.
        * intros q [<-|[]]. exact NB.
        * intros pt [->|[]]. apply Id. now left.
      + intros q I. apply Id. now right.
      + cbn in N. rewrite map_app in N. exact (nodup_app_r _ _ N).
  Qed.

  Lemma params_nodup m : In m sms -> NoDup (map pat_name (field_params c m)).
  Proof.
    intros I. pose proof (@state_fields_nodup m I) as N. unfold state_fields in N.
    apply add_fields_nodup in N. rewrite map_map in N. exact N.
  Qed.
  Lemma find_default_spec m f : In m sms ->
    find_default (flat_map (default_param (c_event_ident c) (c_context_ident c)) (m_inputs m)) f =
    as_default f (initial_value_of ev cxi m f).
  Proof.
    intros I. destruct (ex_state_methods X _ I) as (Id & Re & _). unfold initial_value_of.
    rewrite (ex_event_ident X), (ex_context_ident X).
    destruct (String.eqb_spec f (c_event_ident c)) as [E|N1]; cbn [orb].
    2: destruct (String.eqb_spec f (c_context_ident c)) as [E|N2].
    3: { apply defaults_of; auto. exact (@params_nodup m I). }
    - clear - E. cbn. subst f. induction (m_inputs m) as [|p l IH]; [reflexivity|]. cbn.
      rewrite find_default_app, IH.
      destruct p as [|pt]; cbn; [reflexivity|]. destruct (pt_pat pt) as [i| | | | | |]; try reflexivity.
      destruct (String.eqb_spec (c_event_ident c) i) as [|N]; [reflexivity|].
      destruct (c_context_ident c =? i)%string; [reflexivity|].
      destruct (find is_default (pt_attrs pt)) as [a|]; [|reflexivity].
      destruct a as [q|q t|q [s|]]; cbn; try reflexivity.
      + rewrite find_default_one; cbn. destruct (String.eqb_spec (c_event_ident c) i); [contradiction|reflexivity].
      + destruct (as_expr s); cbn; try reflexivity. rewrite find_default_one; cbn. destruct (String.eqb_spec (c_event_ident c) i); [contradiction|reflexivity].
    - clear - E. cbn. subst f. induction (m_inputs m) as [|p l IH]; [reflexivity|]. cbn.
      rewrite find_default_app, IH.
      destruct p as [|pt]; cbn; [reflexivity|]. destruct (pt_pat pt) as [i| | | | | |]; try reflexivity.
      destruct (c_event_ident c =? i)%string; [reflexivity|].
      destruct (String.eqb_spec (c_context_ident c) i) as [|N]; [reflexivity|].
      destruct (find is_default (pt_attrs pt)) as [a|]; [|reflexivity].
      destruct a as [q|q t|q [s|]]; cbn; try reflexivity.
      + rewrite find_default_one; cbn. destruct (String.eqb_spec (c_context_ident c) i); [contradiction|reflexivity].
      + destruct (as_expr s); cbn; try reflexivity. rewrite find_default_one; cbn. destruct (String.eqb_spec (c_context_ident c) i); [contradiction|reflexivity].
  Qed.

  (** ** Constructors *)
  Variable Val : Type.
  Variable eval : expr -> (ident -> option Val) -> Val.
  Variable default : ty -> Val.

  Lemma constructor_value_name ds f : value_name (constructor_value ds f) = f_name f.
  Proof.
    unfold constructor_value. destruct (find_default ds (f_name f)) as [d|] eqn:E; [|reflexivity].
    unfold find_default in E. apply find_some in E. destruct E as [_ E]. apply String.eqb_eq in E.
    destruct d; cbn in *; congruence.
  Qed.
  Lemma find_value ds fs f : NoDup (map f_name fs) -> In f fs ->
    find (fun fv => (value_name fv =? f_name f)%string) (map (constructor_value ds) fs) =
    Some (constructor_value ds f).
  Proof.
    induction fs as [|a fs IH]; cbn; [tauto|]. intros N I. inversion N as [|? ? N1 N2]; subst.
    rewrite constructor_value_name. destruct (String.eqb_spec (f_name a) (f_name f)) as [E|NE].
    - destruct I as [->|I]; [reflexivity|]. exfalso. apply N1. rewrite E. now apply in_map.
    - destruct I as [->|I]; [contradiction|auto].
  Qed.
  Lemma get_field_nth d (x : value Val d) fs n f v : fields_of d (tag x) = Some fs -> NoDup fs ->
    nth_error fs n = Some f -> nth_error (vals x) n = Some v -> get_field x f = Some v.
  Proof.
    intros H N E V. unfold get_field, field_index. rewrite H, (position_nth _ N E). exact V.
  Qed.
  Lemma combine_get (l : list ident) (vs : list Val) n i v : NoDup l ->
    nth_error l n = Some i -> nth_error vs n = Some v -> hm_get i (combine l vs) = Some v.
  Proof.
    revert vs n. induction l as [|a l IH]; intros vs n N E V; [now destruct n|].
    destruct vs as [|w vs]; [now destruct n|]. inversion N as [|? ? N1 N2]; subst.
    destruct n as [|n]; cbn in *.
    - injection E as ->. injection V as ->. now rewrite String.eqb_refl.
    - destruct (String.eqb_spec i a) as [->|_]; [exfalso; apply N1; eapply nth_error_In; eauto|]. eauto.
  Qed.
  Lemma Forall2_nth A B' (R : A -> B' -> Prop) l r n a : Forall2 R l r -> nth_error l n = Some a ->
    exists b, nth_error r n = Some b /\ R a b.
  Proof.
    intros F. revert n. induction F as [|x y l r H _ IH]; intros n; [now destruct n|].
    destruct n as [|n]; cbn; [intros [= ->]; eauto|auto].
  Qed.
  Lemma nodup_filter_names (p : field -> bool) fs : NoDup (map f_name fs) -> NoDup (map f_name (filter p fs)).
  Proof.
    induction fs as [|a fs IH]; cbn; [auto|]. intros N. inversion N as [|? ? N1 N2]; subst.
    destruct (p a); cbn; [|auto]. constructor; [|auto]. intros I. apply N1.
    apply in_map_iff in I. destruct I as [h [<- I]]. apply filter_In in I. apply in_map. tauto.
  Qed.

  Lemma find_constructor m k : In m sms -> In k (g_constructors g) -> n_name k = m_name m ->
    find (fun q => (n_name q =? m_name m)%string) (g_constructors g) = Some k.
  Proof.
    intros I J E. pose proof (ex_constructors X) as F. pose proof (names_sms ND X) as N. clear - I J E F N.
    assert (N' : NoDup (map n_name (g_constructors g))).
    { assert (Q : map n_name (g_constructors g) = map m_name sms); [|now rewrite Q].
      symmetry. apply (@Forall2_map_eq _ _ _ m_name n_name). eapply Forall2_imp; [|exact F].
      intros a b (m1 & _ & _ & ->). reflexivity. }
    clear F N. induction (g_constructors g) as [|a l IH]; cbn; [destruct J|].
    cbn in N'. inversion N' as [|? ? N1 N2]; subst. rewrite <- E.
    destruct (String.eqb_spec (n_name a) (n_name k)) as [E'|NE].
    - destruct J as [->|J]; [reflexivity|]. exfalso. apply N1. rewrite E'. now apply in_map.
    - destruct J as [->|J]; [contradiction|]. rewrite E. auto.
  Qed.

  Theorem constructs m v actuals :
    In m sms -> In v (g_state_variants g) -> v_name v = vname m ->
    length (filter is_state_attr (m_attrs m)) = 1 ->
    let taken := filter (fun f => by_argument (initial_value_of ev cxi m (f_name f))) (v_fields v) in
    (length actuals <> length taken -> construct g eval default (m_name m) actuals = None) /\
    (length actuals = length taken ->
     exists x, construct g eval default (m_name m) actuals = Some x /\ tag x = vname m /\
       (forall n f, nth_error taken n = Some f -> get_field x (f_name f) = nth_error actuals n) /\
       (forall f, In f (v_fields v) -> initial_value_of ev cxi m (f_name f) = DefaultOfType ->
          get_field x (f_name f) = Some (default (f_ty f))) /\
       (forall f e, In f (v_fields v) -> initial_value_of ev cxi m (f_name f) = ByExpression e ->
          get_field x (f_name f) = Some (eval e (fun i => hm_get i (combine (map f_name taken) actuals))))).
  Proof.
    intros I J E Single. rewrite (@state_variant_of m v I J E). cbn [state_variant v_fields]. clear v J E.
    set (fs := state_fields c m). pose proof (@state_fields_nodup m I : NoDup (map f_name fs)) as N.
    cbn zeta. set (taken := filter _ fs).
    destruct (Forall2_in_left (ex_constructors X) I) as [k [Ik (m1 & St & Eq & Ek)]].
    specialize (Eq Single). subst m1. cbn zeta in Ek. set (ds := flat_map _ _) in Ek. fold fs in Ek.
    assert (DS : forall f, find_default ds f = as_default f (initial_value_of ev cxi m f)).
    { intros f. exact (@find_default_spec m f I). }
    assert (TK : constructor_args ds fs = taken).
    { unfold constructor_args, taken. apply filter_ext. intros f. rewrite DS.
      destruct (initial_value_of ev cxi m (f_name f)); reflexivity. }
    assert (FC : find (fun q => (n_name q =? m_name m)%string) (g_constructors g) = Some k).
    { apply find_constructor; auto. rewrite Ek. reflexivity. }
    unfold construct. rewrite FC. rewrite Ek. cbn [n_args n_variant n_values].
    rewrite TK.
    assert (FV : find (fun v => (v_name v =? pascal (m_name m))%string) (g_state_variants g) = Some (state_variant c m)).
    { apply (@find_name (g_state_variants g) (state_variant c m) (co_state_variants CO)).
      rewrite (ex_state_variants X). now apply in_map. }
    rewrite FV. split.
    { intros L. destruct (Nat.eqb_spec (length actuals) (length taken)); [contradiction|reflexivity]. }
    intros L. rewrite L, Nat.eqb_refl. cbn [state_variant v_fields]. fold fs.
    set (env := combine (map f_name taken) actuals).
    assert (LV : forall f, In f fs -> literal_value eval default (map (constructor_value ds) fs) env f =
      match initial_value_of ev cxi m (f_name f) with
      | FromArgument => hm_get (f_name f) env
      | DefaultOfType => Some (default (f_ty f))
      | ByExpression e => Some (eval e (fun i => hm_get i env))
      end).
    { intros f If. unfold literal_value. rewrite (@find_value ds fs f N If). unfold constructor_value. rewrite DS.
      destruct (initial_value_of ev cxi m (f_name f)); reflexivity. }
    assert (NT : NoDup (map f_name taken)) by (apply nodup_filter_names; exact N).
    assert (ENV : forall n f, nth_error taken n = Some f -> hm_get (f_name f) env = nth_error actuals n /\
                                                          nth_error actuals n <> None).
    { intros n f En. assert (n < length actuals) by (rewrite L; apply nth_error_Some; congruence).
      destruct (nth_error actuals n) as [w|] eqn:V; [|apply nth_error_None in V; lia]. split; [|discriminate].
      apply (@combine_get (map f_name taken) actuals n); auto. rewrite nth_error_map, En. reflexivity. }
    destruct (all_some_exists (literal_value eval default (map (constructor_value ds) fs) env) fs) as [vs VS].
    { intros f If. rewrite (LV f If). destruct (initial_value_of ev cxi m (f_name f)) eqn:IV; try discriminate.
      assert (It : In f taken) by (apply filter_In; rewrite IV; auto).
      destruct (In_nth_error _ _ It) as [n En]. destruct (ENV n f En) as [-> W]. exact W. }
    rewrite VS. pose proof (proj1 (all_some_map _ _ _) VS) as F2.
    destruct (@make_some Val (g_state_variants g) (pascal (m_name m)) vs) as [x [MX [TX VX]]].
    { unfold shaped. change (pascal (m_name m)) with (vname m). rewrite (@state_fields_of _ _ _ _ _ _ X CO m I).
      apply Nat.eqb_eq. rewrite map_length. apply (Forall2_length F2). }
    exists x. split; [exact MX|]. split; [exact TX|].
    assert (GF : forall f, In f fs -> get_field x (f_name f) = literal_value eval default (map (constructor_value ds) fs) env f).
    { intros f If. destruct (In_nth_error _ _ If) as [n En]. destruct (@Forall2_nth _ _ _ _ _ _ _ F2 En) as [w [Ew Lw]].
      rewrite Lw. apply (@get_field_nth _ x (map f_name fs) n); auto.
      - rewrite TX. exact (@state_fields_of _ _ _ _ _ _ X CO m I).
      - rewrite nth_error_map, En. reflexivity.
      - rewrite VX. exact Ew. }
    split; [|split].
    - intros n f En. assert (It : In f taken) by (eapply nth_error_In; eauto).
      apply filter_In in It. destruct It as [If Ib]. rewrite (GF f If), (LV f If).
      destruct (initial_value_of ev cxi m (f_name f)); try discriminate. apply (ENV n f En).
    - intros f If IV. rewrite (GF f If), (LV f If), IV. reflexivity.
    - intros f e If IV. rewrite (GF f If), (LV f If), IV. reflexivity.
  Qed.
End Storage.
