(** MacroArgProofs.v — the arguments of `#[state(..)]` and `#[superstate(..)]`. *)

From Coq Require Import String Ascii List Bool Arith Lia Permutation.
From Verif Require Import Machine MacroSyntax MacroVisit MacroAnalyze MacroLower MacroGen MacroSem.
From Verif Require Import MacroSpec MacroBasics MacroExpandProofs MacroLowerProofs.
Import ListNotations.
Open Scope string_scope.
Open Scope list_scope.
Set Implicit Arguments.

Definition emapd {A B} (f : A -> B) (e : expansion A) : expansion B := do a <- e; Done (f a).
Lemma emapd_bind A B C (f : B -> C) (e : expansion A) k :
  emapd f (ebind e k) = ebind e (fun a => emapd f (k a)).
Proof. destruct e; reflexivity. Qed.
Lemma ebind_ext A B (e : expansion A) (k k' : A -> expansion B) :
  (forall a, k a = k' a) -> ebind e k = ebind e k'.
Proof. intros H. destruct e; cbn; auto. Qed.

(** ** Unknown arguments *)
Lemma argument_unknown w a : known_argument a = false -> argument w a = Done w.
Proof.
  unfold known_argument. cbn. rewrite !orb_false_iff. intros (A & B & C & D & _).
  destruct w. unfold argument. now rewrite A, B, C, D.
Qed.
Lemma arguments_known l : forall w, efold argument w (filter known_argument l) = efold argument w l.
Proof.
  induction l as [|a l IH]; intros w; [reflexivity|]. cbn [filter].
  destruct (known_argument a) eqn:K; cbn [efold].
  - apply ebind_ext. exact IH.
  - rewrite (argument_unknown w a K). cbn. apply IH.
Qed.
Lemma meta_path_cleaned a : meta_path (cleaned_attr a) = meta_path a.
Proof. destruct a as [|p [? ? ?]|]; cbn; try reflexivity. now destruct (_ || _). Qed.
Lemma get_meta_cleaned attrs kind : kind = "state" \/ kind = "superstate" ->
  get_meta (map cleaned_attr attrs) kind = filter known_argument (get_meta attrs kind).
Proof.
  intros K. unfold get_meta. induction attrs as [|a attrs IH]; [reflexivity|]. cbn [map filter].
  rewrite meta_path_cleaned. destruct (is_ident (meta_path a) kind) eqn:P; [|exact IH].
  cbn [flat_map]. rewrite IH, filter_app. f_equal.
  destruct a as [|p [l ? ?]|]; cbn in P |- *; try reflexivity.
  assert (Q : is_ident p "state" || is_ident p "superstate" = true).
  { apply orb_true_iff. destruct K as [-> | ->]; auto. }
  rewrite Q. cbn. now destruct l.
Qed.
Lemma analyze_state_cleaned m c :
  analyze_state (cleaned_method m) c = emapd (fun r => (fst r, cleaned_method (snd r))) (analyze_state m c).
Proof.
  unfold analyze_state. cbn [cleaned_method m_generics m_inputs m_attrs m_name m_async].
  destruct (m_generics m); [|reflexivity]. rewrite emapd_bind. apply ebind_ext. intros k.
  rewrite emapd_bind. unfold arguments. rewrite (get_meta_cleaned _ (or_introl eq_refl)), arguments_known.
  apply ebind_ext. intros w. reflexivity.
Qed.
Lemma analyze_superstate_cleaned m c :
  analyze_superstate (cleaned_method m) c = analyze_superstate m c.
Proof.
  unfold analyze_superstate. cbn [cleaned_method m_generics m_inputs m_attrs m_name m_async].
  destruct (m_generics m); [|reflexivity]. apply ebind_ext. intros k.
  unfold arguments. now rewrite (get_meta_cleaned _ (or_intror eq_refl)), arguments_known.
Qed.
Lemma attribute_cleaned c f m p :
  attribute c (f, cleaned_method m) p = emapd (fun r => (fst r, cleaned_method (snd r))) (attribute c (f, m) p).
Proof.
  unfold attribute. destruct f as [ss us acts]. destruct (is_ident p "state").
  { rewrite analyze_state_cleaned. unfold emapd. destruct (analyze_state m c) as [[s m']| |]; reflexivity. }
  destruct (is_ident p "superstate").
  { rewrite analyze_superstate_cleaned. unfold emapd. destruct (analyze_superstate m c); reflexivity. }
  destruct (is_ident p "action").
  { unfold analyze_action. cbn [cleaned_method m_generics]. destruct (m_generics m); reflexivity. }
  reflexivity.
Qed.
Lemma attributes_cleaned c ps : forall f m,
  efold (attribute c) (f, cleaned_method m) ps =
  emapd (fun r => (fst r, cleaned_method (snd r))) (efold (attribute c) (f, m) ps).
Proof.
  induction ps as [|p ps IH]; intros f m; [reflexivity|]. cbn [efold]. rewrite attribute_cleaned. unfold emapd at 1.
  destruct (attribute c (f, m) p) as [[f1 m1]| |]; cbn; [apply IH|reflexivity|reflexivity].
Qed.
Definition cleaned_item (it : impl_item) : impl_item :=
  match it with ItemMethod m => ItemMethod (cleaned_method m) | ItemOther t => ItemOther t end.
Lemma analyze_items_cleaned c items : forall f,
  analyze_items c f (map cleaned_item items) =
  emapd (fun r => (fst r, map cleaned_item (snd r))) (analyze_items c f items).
Proof.
  induction items as [|[m|t] items IH]; intros f; [reflexivity| |]; cbn [map cleaned_item analyze_items].
  - unfold analyze_method. cbn [cleaned_method m_attrs].
    rewrite map_map, (map_ext _ _ meta_path_cleaned), (attributes_cleaned c _ f m). unfold emapd.
    destruct (efold (attribute c) (f, m) (map meta_path (m_attrs m))) as [[f1 m1]| |]; cbn; try reflexivity.
    rewrite IH. unfold emapd. destruct (analyze_items c f1 items) as [[f2 r]| |]; reflexivity.
  - rewrite IH. unfold emapd. destruct (analyze_items c f items) as [[f2 r]| |]; reflexivity.
Qed.

(** The rest of the macro does not look at the impl block. *)
Definition with_impl (i : item_impl) (mo : model) : model :=
  Model i (mo_config mo) (mo_states mo) (mo_supers mo) (mo_actions mo).
Lemma lower_impl o i mo :
  apart_from_impl (emapd codegen (lower o (with_impl i mo))) = apart_from_impl (emapd codegen (lower o mo)).
Proof.
  unfold lower. cbn [with_impl mo_impl mo_config mo_states mo_supers mo_actions].
  change (link_state (with_impl i mo)) with (link_state mo).
  change (link_superstate (with_impl i mo)) with (link_superstate mo).
  destruct (hm_map (o_states o) _ _); [|reflexivity|reflexivity]. cbn [ebind].
  destruct (hm_map (o_supers o) _ _); [|reflexivity|reflexivity]. cbn [ebind].
  destruct (hm_map (o_actions o) _ _); [|reflexivity|reflexivity]. cbn [ebind].
  destruct (emap _ _); [|reflexivity|reflexivity]. cbn [ebind].
  destruct (emap _ _); [|reflexivity|reflexivity]. cbn [ebind].
  destruct (efold _ _ _) as [x1| |]; [|reflexivity|reflexivity]. cbn [ebind].
  destruct (efold _ _ _) as [x2| |]; [|reflexivity|reflexivity]. cbn [ebind].
  destruct (map_generics _); [|reflexivity|reflexivity]. reflexivity.
Qed.

Theorem expand_cleaned o args item :
  apart_from_impl (expand o args (cleaned item)) = apart_from_impl (expand o args item).
Proof.
  unfold expand, analyze.
  assert (C : analyze_state_machine args (cleaned item) = analyze_state_machine args item) by reflexivity.
  rewrite C. destruct (analyze_state_machine args item) as [c| |]; [|reflexivity|reflexivity]. cbn [ebind].
  change (i_items (cleaned item)) with (map cleaned_item (i_items item)). rewrite analyze_items_cleaned.
  unfold emapd at 1. destruct (analyze_items c (Found [] [] []) (i_items item)) as [[f r]| |]; [|reflexivity|reflexivity].
  cbn [ebind fst snd].
  set (mo := Model (ItemImpl (i_self item) (i_generics item) r) c (fd_states f) (fd_supers f) (fd_actions f)).
  exact (lower_impl o (ItemImpl (i_self (cleaned item)) (i_generics (cleaned item)) (map cleaned_item r)) mo).
Qed.

(** ** Known arguments are well formed *)
Lemma argument_well_formed w a w' : argument w a = Done w' -> known_argument a = true -> well_formed_argument a.
Proof.
  destruct w as [su en ex st]. unfold argument, known_argument, well_formed_argument. cbn [existsb]. intros H K.
  destruct (is_ident (meta_path a) "superstate") eqn:X1.
  { apply is_ident_eq in X1. rewrite X1. cbn. destruct (ebind_done _ _ H) as [i [P _]].
    destruct (parsed_ident _ _ P) as [p [s [-> S]]]. eauto. }
  destruct (is_ident (meta_path a) "entry_action") eqn:X2.
  { apply is_ident_eq in X2. rewrite X2. cbn. destruct (ebind_done _ _ H) as [i [P _]].
    destruct (parsed_ident _ _ P) as [p [s [-> S]]]. eauto. }
  destruct (is_ident (meta_path a) "exit_action") eqn:X3.
  { apply is_ident_eq in X3. rewrite X3. cbn. destruct (ebind_done _ _ H) as [i [P _]].
    destruct (parsed_ident _ _ P) as [p [s [-> S]]]. eauto. }
  destruct (is_ident (meta_path a) "local_storage") eqn:X4; [|discriminate].
  destruct (ebind_done _ _ H) as [t [P D]].
  destruct a as [|p t'|]; cbn in P; try discriminate. injection P as ->.
  destruct t as [l ss q]. cbn in D. destruct ss as [ss|]; [|discriminate].
  destruct (ebind_done _ _ D) as [fs [F _]]. exists p, l, q, ss, fs. split; [reflexivity|].
  apply emap_done in F. eapply Forall2_imp; [|exact F]. intros s f E. unfold storage_field in E.
  destruct (as_field s); [congruence|discriminate].
Qed.
Lemma arguments_well_formed l : forall w w', efold argument w l = Done w' ->
  forall a, In a l -> known_argument a = true -> well_formed_argument a.
Proof.
  induction l as [|b l IH]; intros w w' H a I K; [destruct I|]. cbn in H.
  destruct (ebind_done _ _ H) as [w1 [E H1]]. destruct I as [<-|I]; [exact (argument_well_formed _ _ E K)|eauto].
Qed.

Definition fine (kind : ident) (m : impl_fn) : Prop :=
  forall a, In a (arguments_of kind m) -> known_argument a = true -> well_formed_argument a.
Lemma attribute_fine c f m p f' m' : attribute c (f, m) p = Done (f', m') ->
  m_attrs m' = m_attrs m /\
  (is_ident p "state" = true -> fine "state" m) /\ (is_ident p "superstate" = true -> fine "superstate" m).
Proof.
  unfold attribute. destruct f as [ss us acts]. intros H. destruct (is_ident p "state") eqn:X1.
  { destruct (ebind_done _ _ H) as [[s m1] [A D]]. injection D as <- <-. unfold analyze_state in A.
    destruct (m_generics m); [|discriminate]. destruct (ebind_done _ _ A) as [k [_ A1]].
    destruct (ebind_done _ _ A1) as [w [W A2]]. injection A2 as <- <-. split; [reflexivity|]. split.
    - intros _ a I. rewrite <- get_meta_arguments in I. exact (arguments_well_formed _ _ W _ I).
    - apply is_ident_eq in X1. rewrite X1. cbn. discriminate. }
  destruct (is_ident p "superstate") eqn:X2.
  { destruct (ebind_done _ _ H) as [u [A D]]. injection D as <- <-. unfold analyze_superstate in A.
    destruct (m_generics m); [|discriminate]. destruct (ebind_done _ _ A) as [k [_ A1]].
    destruct (ebind_done _ _ A1) as [w [W _]]. split; [reflexivity|]. split; [discriminate|].
    intros _ a I. rewrite <- get_meta_arguments in I. exact (arguments_well_formed _ _ W _ I). }
  destruct (is_ident p "action").
  { destruct (ebind_done _ _ H) as [u [_ D]]. injection D as <- <-. split; [reflexivity|]. split; discriminate. }
  injection H as <- <-. split; [reflexivity|]. split; discriminate.
Qed.
Lemma attributes_fine c ps : forall f m f' m', efold (attribute c) (f, m) ps = Done (f', m') ->
  (forall p, In p ps -> is_ident p "state" = true -> fine "state" m) /\
  (forall p, In p ps -> is_ident p "superstate" = true -> fine "superstate" m).
Proof.
  induction ps as [|p ps IH]; intros f m f' m' H; cbn in H; [split; intros ? []|].
  destruct (ebind_done _ _ H) as [[f1 m1] [E H1]].
  destruct (@attribute_fine c f m p f1 m1 E) as (A & B1 & B2). destruct (IH _ _ _ _ H1) as [C1 C2].
  assert (G : forall kind, fine kind m1 -> fine kind m).
  { intros kind F. unfold fine, arguments_of in *. now rewrite A in F. }
  split; intros q [<-|I] K; auto.
  - apply G. exact (C1 q I K).
  - apply G. exact (C2 q I K).
Qed.
Lemma items_fine c items : forall f r, analyze_items c f items = Done r ->
  forall m, In m (method_list items) ->
    (marked "state" m = true -> fine "state" m) /\ (marked "superstate" m = true -> fine "superstate" m).
Proof.
  induction items as [|[m0|t] items IH]; intros f r H m I; [destruct I| |]; cbn in H.
  - destruct (ebind_done _ _ H) as [[f1 m1] [E H1]]. destruct (ebind_done _ _ H1) as [[f2 r2] [E2 _]].
    cbn in I. destruct I as [<-|I]; [|exact (IH _ _ E2 m I)].
    unfold analyze_method in E. destruct (attributes_fine c _ _ _ E) as [A B]. unfold marked. split; intros K;
      apply existsb_exists in K; destruct K as [a [J K]]; [apply (A (meta_path a))|apply (B (meta_path a))]; auto;
      now apply in_map.
  - destruct (ebind_done _ _ H) as [[f1 r1] [E _]]. exact (IH _ _ E m I).
Qed.
Theorem expand_fine o args item g : expand o args item = Done g ->
  forall m a, In m (methods item) ->
    (marked "state" m = true /\ In a (arguments_of "state" m)) \/
    (marked "superstate" m = true /\ In a (arguments_of "superstate" m)) ->
    known_argument a = true -> well_formed_argument a.
Proof.
  intros H m a I J K. unfold expand in H. destruct (ebind_done _ _ H) as [mo [A _]]. unfold analyze in A.
  destruct (ebind_done _ _ A) as [c [_ A1]]. destruct (ebind_done _ _ A1) as [r [E _]].
  destruct (@items_fine c (i_items item) _ _ E m I) as [F1 F2].
  destruct J as [[M J]|[M J]]; [exact (F1 M a J K)|exact (F2 M a J K)].
Qed.
