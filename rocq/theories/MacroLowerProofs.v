(** MacroLowerProofs.v — the output of a successful run of the macro, as a function of the
    methods of the impl block. *)

From Coq Require Import String Ascii List Bool Arith Lia Permutation.
From Verif Require Import Machine MacroSyntax MacroVisit MacroAnalyze MacroLower MacroGen MacroSem.
From Verif Require Import MacroSpec MacroBasics MacroExpandProofs.
Import ListNotations.
Open Scope string_scope.
Open Scope list_scope.
Set Implicit Arguments.

(** ** Permutations *)
Lemma Forall2_flip A B (R : A -> B -> Prop) l r :
  Forall2 R l r -> Forall2 (fun b a => R a b) r l.
Proof. induction 1; constructor; auto. Qed.
Lemma Permutation_Forall2_l A B (R : A -> B -> Prop) l l' :
  Permutation l l' -> forall r, Forall2 R l r -> exists r', Permutation r r' /\ Forall2 R l' r'.
Proof.
  induction 1 as [|x l l' P IH|x y l|l l' l'' P1 IH1 P2 IH2]; intros r F.
  - inversion F; subst. exists []. split; constructor.
  - inversion F as [|? b ? bs Hb Hbs]; subst. destruct (IH _ Hbs) as [r' [P' F']].
    exists (b :: r'). split; constructor; auto.
  - inversion F as [|? b ? bs Hb Hbs]; subst. inversion Hbs as [|? c ? cs Hc Hcs]; subst.
    exists (c :: b :: cs). split; [apply perm_swap|]. constructor; auto.
  - destruct (IH1 _ F) as [r1 [Q1 F1]]. destruct (IH2 _ F1) as [r2 [Q2 F2]].
    exists r2. split; [eapply perm_trans; eauto|auto].
Qed.
Lemma Permutation_Forall2_r A B (R : A -> B -> Prop) l r r' :
  Permutation r r' -> Forall2 R l r -> exists l', Permutation l l' /\ Forall2 R l' r'.
Proof.
  intros P F. apply Forall2_flip in F. destruct (Permutation_Forall2_l P F) as [l' [Q F']].
  exists l'. split; [exact Q|]. now apply Forall2_flip in F'.
Qed.
Lemma Forall2_trans3 A B C (R : A -> B -> Prop) (Q : B -> C -> Prop) (S : A -> C -> Prop) l m r :
  (forall a b c, R a b -> Q b c -> S a c) -> Forall2 R l m -> Forall2 Q m r -> Forall2 S l r.
Proof.
  intros H F. revert r. induction F; intros r G; inversion G; subst; constructor; eauto.
Qed.
Lemma Forall2_map_fun A B (f : A -> B) l r : Forall2 (fun a b => b = f a) l r -> r = map f l.
Proof. induction 1; cbn; congruence. Qed.

(** ** The output, method by method *)
Definition pat_name (pt : pat_type) : ident :=
  match pt_pat pt with PatIdent i => i | _ => "" end.
Definition param_ident (a : fn_arg) : ident :=
  match a with Receiver => "shared_storage" | Typed pt => pat_name pt end.
Definition state_field_of (pt : pat_type) : field :=
  Field (pat_name pt) (match pt_ty pt with TReference _ _ t => t | t => t end).
Definition super_field_of (pt : pat_type) : field :=
  Field (pat_name pt)
        (match pt_ty pt with TReference _ m t => TReference (Some superstate_lifetime) m t | t => t end).

Section Output.
  Variable c : config.
  Variable item : item_impl.

  Definition field_params (m : impl_fn) : list pat_type :=
    flat_map (field_param (c_event_ident c) (c_context_ident c)) (m_inputs m).
  Definition state_fields (m : impl_fn) : list field :=
    fold_left add_field (storage_of "state" m) (map state_field_of (field_params m)).
  Definition super_fields (m : impl_fn) : list field :=
    fold_left add_field (storage_of "superstate" m) (map super_field_of (field_params m)).
  Definition state_variant (m : impl_fn) : variant := Variant (pascal (m_name m)) (state_fields m).
  Definition super_variant (m : impl_fn) : variant := Variant (pascal (m_name m)) (super_fields m).
  Definition state_pattern (m : impl_fn) : pattern :=
    Pattern (c_state_ident c) (pascal (m_name m)) (map f_name (state_fields m)).
  Definition super_pattern (m : impl_fn) : pattern :=
    Pattern (c_super_ident c) (pascal (m_name m)) (map f_name (super_fields m)).
  Definition call_of (m : impl_fn) : code :=
    Call (c_shared_path c) (m_name m) (map param_ident (m_inputs m)) (m_async m).
  Definition find_method (kind name : ident) : option impl_fn :=
    find (fun m => (m_name m =? name)%string) (filter (marked kind) (methods item)).
  Definition action_code (a : option ident) : code :=
    match a with
    | None => EmptyBlock
    | Some a => match find_method "action" a with Some m => call_of m | None => EmptyBlock end
    end.
  Definition super_link (u : option ident) : option pattern :=
    match u with
    | None => None
    | Some u => option_map super_pattern (find_method "superstate" u)
    end.

  (** All typed parameters are identifiers with reference types where they become fields. *)
  Definition idents_only (m : impl_fn) : Prop :=
    forall pt, In (Typed pt) (m_inputs m) -> exists i, pt_pat pt = PatIdent i.
  Definition fields_by_reference (m : impl_fn) : Prop :=
    forall pt, In pt (field_params m) -> exists l mu t, pt_ty pt = TReference l mu t.

  Definition constructor_of (m : impl_fn) (k : constructor) : Prop :=
    exists m1, stripped m m1 /\
      (length (filter is_state_attr (m_attrs m)) = 1 -> m1 = m) /\
      let ds := flat_map (default_param (c_event_ident c) (c_context_ident c)) (m_inputs m1) in
      k = Constructor (m_name m) (constructor_args ds (state_fields m)) (pascal (m_name m))
                      (map (constructor_value ds) (state_fields m)).

  Record state_out (m : impl_fn) (l : l_state) : Prop := StateOut {
    so_variant : ls_variant l = state_variant m;
    so_pat : ls_pat l = state_pattern m;
    so_handler : ls_handler l = call_of m;
    so_entry : ls_entry l = action_code (declared "state" "entry_action" m);
    so_exit : ls_exit l = action_code (declared "state" "exit_action" m);
    so_super : ls_super l = super_link (declared "state" "superstate" m);
    so_constructor : constructor_of m (ls_constructor l);
    so_idents : idents_only m;
    so_reference : fields_by_reference m;
    so_name : variant_ident (m_name m) = Done (pascal (m_name m));
    so_generics : m_generics m = []
  }.
  Record super_out (m : impl_fn) (l : l_super) : Prop := SuperOut {
    uo_variant : lu_variant l = super_variant m;
    uo_pat : lu_pat l = super_pattern m;
    uo_handler : lu_handler l = call_of m;
    uo_entry : lu_entry l = action_code (declared "superstate" "entry_action" m);
    uo_exit : lu_exit l = action_code (declared "superstate" "exit_action" m);
    uo_super : lu_super l = super_link (declared "superstate" "superstate" m);
    uo_idents : idents_only m;
    uo_reference : fields_by_reference m;
    uo_name : variant_ident (m_name m) = Done (pascal (m_name m));
    uo_generics : m_generics m = []
  }.
  (** Everything a method refers to exists. *)
  Record resolved (kind : ident) (m : impl_fn) : Prop := Resolved {
    re_super : forall u, declared kind "superstate" m = Some u ->
                 exists mu, find_method "superstate" u = Some mu;
    re_entry : forall a, declared kind "entry_action" m = Some a ->
                 exists ma, find_method "action" a = Some ma;
    re_exit : forall a, declared kind "exit_action" m = Some a ->
                exists ma, find_method "action" a = Some ma
  }.
End Output.

(** ** Names of parameters and fields *)
Lemma variant_ident_done s v : variant_ident s = Done v -> v = pascal s.
Proof.
  unfold variant_ident. destruct (pascal s) as [|ch w]; [discriminate|].
  destruct (is_digit ch); [discriminate|]. destruct (has_char "#" (String ch w)); [discriminate|].
  destruct (String ch w =? "Self"); [discriminate|]. now intros [= <-].
Qed.

Lemma same_param_ident a b : same_param a b -> param_ident a = param_ident b.
Proof.
  destruct a as [|p], b as [|q]; cbn; try tauto. intros [E _]. unfold pat_name. now rewrite E.
Qed.
Lemma fn_args_done l r : emap fn_arg_to_ident l = Done r ->
  r = map param_ident l /\ forall pt, In (Typed pt) l -> exists i, pt_pat pt = PatIdent i.
Proof.
  intros H. apply emap_done in H. induction H as [|a b l r E _ [IH1 IH2]]; [split; [reflexivity|intros ? []]|].
  unfold fn_arg_to_ident in E. destruct a as [|p].
  - injection E as <-. split; [cbn; congruence|]. intros pt [D|I]; [discriminate|auto].
  - destruct (pt_pat p) eqn:P; try discriminate. injection E as <-. split.
    + cbn. unfold pat_name. rewrite P. congruence.
    + intros pt [[= <-]|I]; eauto.
Qed.
Lemma same_params_idents l l' : Forall2 same_param l l' ->
  map param_ident l' = map param_ident l /\
  ((forall pt, In (Typed pt) l' -> exists i, pt_pat pt = PatIdent i) ->
   forall pt, In (Typed pt) l -> exists i, pt_pat pt = PatIdent i).
Proof.
  intros F. split.
  - symmetry. apply Forall2_map_eq. eapply Forall2_imp; [|exact F]. intros; now apply same_param_ident.
  - intros H pt I. destruct (Forall2_in_left F I) as [b [J S]]. destruct b as [|q]; [destruct S|].
    destruct S as [E _]. destruct (H _ J) as [i P]. exists i. congruence.
Qed.
Lemma same_field_params ev cx l l' : Forall2 same_param l l' ->
  Forall2 same_typed (flat_map (field_param ev cx) l) (flat_map (field_param ev cx) l').
Proof.
  induction 1 as [|a b l l' S _ IH]; [constructor|]. cbn. apply Forall2_app; [|exact IH].
  destruct a as [|p], b as [|q]; cbn in S; try tauto; [constructor|].
  pose proof S as [E _]. cbn. rewrite <- E. destruct (pt_pat p); try constructor; try exact S; try constructor.
  destruct (ev =? i); [constructor|]. destruct (cx =? i); [constructor|]. repeat constructor; apply S.
Qed.
Lemma state_fields_done l r : emap fn_arg_to_state_field l = Done r ->
  r = map state_field_of l /\ forall pt, In pt l -> exists q m t, pt_ty pt = TReference q m t.
Proof.
  intros H. apply emap_done in H. induction H as [|a b l r E _ [IH1 IH2]]; [split; [reflexivity|intros ? []]|].
  unfold fn_arg_to_state_field in E. destruct (pt_ty a) eqn:T; try discriminate.
  unfold to_field in E. destruct (pt_pat a) eqn:P; try discriminate. injection E as <-. split.
  - cbn. unfold state_field_of at 1, pat_name. rewrite P, T. congruence.
  - intros pt [<-|I]; eauto.
Qed.
Lemma super_fields_done l r : emap fn_arg_to_superstate_field l = Done r ->
  r = map super_field_of l /\ forall pt, In pt l -> exists q m t, pt_ty pt = TReference q m t.
Proof.
  intros H. apply emap_done in H. induction H as [|a b l r E _ [IH1 IH2]]; [split; [reflexivity|intros ? []]|].
  unfold fn_arg_to_superstate_field in E. destruct (pt_ty a) eqn:T; try discriminate.
  unfold to_field in E. destruct (pt_pat a) eqn:P; try discriminate. injection E as <-. split.
  - cbn. unfold super_field_of at 1, pat_name. rewrite P, T. congruence.
  - intros pt [<-|I]; eauto.
Qed.
Lemma same_state_fields l l' : Forall2 same_typed l l' -> map state_field_of l' = map state_field_of l.
Proof.
  intros F. symmetry. apply Forall2_map_eq. eapply Forall2_imp; [|exact F].
  intros p q [E [T _]]. unfold state_field_of, pat_name. now rewrite E, T.
Qed.
Lemma same_super_fields l l' : Forall2 same_typed l l' -> map super_field_of l' = map super_field_of l.
Proof.
  intros F. symmetry. apply Forall2_map_eq. eapply Forall2_imp; [|exact F].
  intros p q [E [T _]]. unfold super_field_of, pat_name. now rewrite E, T.
Qed.
Lemma same_by_reference l l' : Forall2 same_typed l l' ->
  (forall pt, In pt l' -> exists q m t, pt_ty pt = TReference q m t) ->
  forall pt, In pt l -> exists q m t, pt_ty pt = TReference q m t.
Proof.
  intros F H pt I. destruct (Forall2_in_left F I) as [b [J [_ [T _]]]]. rewrite T. auto.
Qed.

(** ** Before linking *)
Record state_pre (c : config) (m : impl_fn) (l : l_state) : Prop := StatePre {
  sp_variant : ls_variant l = state_variant c m;
  sp_pat : ls_pat l = state_pattern c m;
  sp_handler : ls_handler l = call_of c m;
  sp_entry : ls_entry l = EmptyBlock;
  sp_exit : ls_exit l = EmptyBlock;
  sp_super : ls_super l = None;
  sp_constructor : constructor_of c m (ls_constructor l);
  sp_idents : idents_only m;
  sp_reference : fields_by_reference c m;
  sp_name : variant_ident (m_name m) = Done (pascal (m_name m));
  sp_generics : m_generics m = []
}.
Record super_pre (c : config) (m : impl_fn) (l : l_super) : Prop := SuperPre {
  up_variant : lu_variant l = super_variant c m;
  up_pat : lu_pat l = super_pattern c m;
  up_handler : lu_handler l = call_of c m;
  up_entry : lu_entry l = EmptyBlock;
  up_exit : lu_exit l = EmptyBlock;
  up_super : lu_super l = None;
  up_idents : idents_only m;
  up_reference : fields_by_reference c m;
  up_name : variant_ident (m_name m) = Done (pascal (m_name m));
  up_generics : m_generics m = []
}.

Lemma lower_state_done c m s l : state_found c m s -> lower_state c s = Done l -> state_pre c m l.
Proof.
  intros [m1 [SI SG]] H. unfold lower_state in H.
  destruct (ebind_done _ _ H) as [name [N H1]]. clear H.
  destruct (ebind_done _ _ H1) as [f0 [F H2]]. clear H1.
  destruct (ebind_done _ _ H2) as [ins [I H3]]. clear H2. injection H3 as <-.
  pose proof (variant_ident_done _ N) as ->.
  destruct (si_state_inputs SI) as [ins' [S' [D1 _]]].
  destruct (state_fields_done _ F) as [F1 F2]. destruct (fn_args_done _ I) as [I1 I2].
  rewrite (si_inputs SI) in I1, I2. rewrite D1 in F1, F2.
  pose proof (st_inputs (si_stripped SI)) as S1.
  pose proof (same_params_trans S1 S') as S2.
  pose proof (same_field_params (c_event_ident c) (c_context_ident c) S2) as S3.
  rewrite (same_state_fields S3) in F1.
  destruct (same_params_idents S1) as [J1 J2]. rewrite J1 in I1.
  rewrite (si_name SI) in N |- *. rewrite (si_storage SI), (si_defaults SI), (si_async SI). subst f0 ins.
  constructor; cbn; try reflexivity; try assumption.
  - exists m1. split; [apply SI|]. split; [exact SG|]. reflexivity.
  - intros pt IN. exact (J2 I2 pt IN).
  - exact (same_by_reference S3 F2).
  - apply SI.
Qed.
Lemma lower_super_done c m u l : super_info c m u -> lower_superstate c u = Done l -> super_pre c m l.
Proof.
  intros UI H. unfold lower_superstate in H.
  destruct (ebind_done _ _ H) as [name [N H1]]. clear H.
  destruct (ebind_done _ _ H1) as [f0 [F H2]]. clear H1.
  destruct (ebind_done _ _ H2) as [ins [I H3]]. clear H2. injection H3 as <-.
  pose proof (variant_ident_done _ N) as ->.
  destruct (super_fields_done _ F) as [F1 F2]. destruct (fn_args_done _ I) as [I1 I2].
  rewrite (ui_state_inputs UI) in F1, F2.
  pose proof (ui_inputs UI) as S1.
  pose proof (same_field_params (c_event_ident c) (c_context_ident c) S1) as S3.
  rewrite (same_super_fields S3) in F1.
  destruct (same_params_idents S1) as [J1 J2]. rewrite J1 in I1.
  rewrite (ui_name UI) in N |- *. rewrite (ui_storage UI), (ui_async UI). subst f0 ins.
  constructor; cbn; try reflexivity; try assumption.
  - intros pt IN. exact (J2 I2 pt IN).
  - exact (same_by_reference S3 F2).
  - apply UI.
Qed.
Lemma lower_action_done c m a l : action_info m a -> lower_action c a = Done l ->
  l = call_of c m /\ idents_only m.
Proof.
  intros AI H. unfold lower_action in H.
  destruct (ebind_done _ _ H) as [ins [I H1]]. injection H1 as <-.
  destruct (fn_args_done _ I) as [I1 I2].
  destruct (same_params_idents (ai_inputs AI)) as [J1 J2].
  split; [|exact (J2 I2)]. unfold call_of. rewrite (ai_name AI), (ai_async AI). congruence.
Qed.

(** ** Lookup *)
Lemma entries_find T (P : impl_fn -> T -> Prop) ms h key t :
  entries P ms h -> hm_get key h = Some t ->
  exists m, find (fun m => (m_name m =? key)%string) ms = Some m /\ P m t.
Proof.
  intros F. induction F as [|m [k v] ms h [K Pm] _ IH]; cbn; [discriminate|]. cbn in K. subst k.
  rewrite (String.eqb_sym key). destruct (m_name m =? key)%string; [|exact IH].
  intros [= ->]. eauto.
Qed.
Lemma entries_lookup T (P : impl_fn -> T -> Prop) ms h m :
  NoDup (map m_name ms) -> entries P ms h -> In m ms ->
  exists t, hm_get (m_name m) h = Some t /\ P m t.
Proof.
  intros ND F. induction F as [|m' [k v] ms h [K Pm] _ IH]; cbn; [tauto|]. cbn in K. subst k.
  inversion ND as [|? ? N ND']; subst. intros [->|I].
  - rewrite String.eqb_refl. eauto.
  - destruct (String.eqb_spec (m_name m) (m_name m')) as [E|_]; [|auto].
    exfalso. apply N. rewrite <- E. now apply in_map.
Qed.
Lemma find_in_perm ms ms' key m :
  NoDup (map m_name ms) -> Permutation ms ms' ->
  find (fun m => (m_name m =? key)%string) ms' = Some m ->
  find (fun m => (m_name m =? key)%string) ms = Some m.
Proof.
  intros ND P H. apply find_some in H. destruct H as [I E].
  apply (Permutation_in _ (Permutation_sym P)) in I. clear P ms'.
  induction ms as [|a ms IH]; [destruct I|]. cbn. inversion ND as [|? ? N ND']; subst.
  destruct (String.eqb_spec (m_name a) key) as [Ea|Na].
  - destruct I as [->|I]; [reflexivity|]. apply String.eqb_eq in E. exfalso. apply N.
    rewrite Ea, <- E. now apply in_map.
  - destruct I as [->|I]; [apply String.eqb_eq in E; contradiction|]. auto.
Qed.

Lemma entries_arrange T (P : impl_fn -> T -> Prop) ms h (o : order) :
  entries P ms h -> exists ms', Permutation ms ms' /\ entries P ms' (arrange o h).
Proof. intros F. exact (Permutation_Forall2_r (arrange_same o h) F). Qed.
Lemma entries_hm_map T U (P : impl_fn -> T -> Prop) (Q : impl_fn -> U -> Prop) ms h o f r :
  (forall m t u, P m t -> f t = Done u -> Q m u) ->
  entries P ms h -> hm_map o f h = Done r ->
  exists ms', Permutation ms ms' /\ entries Q ms' r.
Proof.
  intros PQ F H. apply hm_map_done in H. destruct (entries_arrange o F) as [ms' [Pm F']].
  exists ms'. split; [exact Pm|]. unfold entries in *.
  refine (@Forall2_trans3 _ _ _ _ _ _ _ _ _ _ F' H). cbn. intros m [k t] [k' u] [K1 P1] [K2 D]. cbn in *.
  split; [congruence|eauto].
Qed.

(** ** The whole expansion *)
Definition any_async (item : item_impl) : bool :=
  existsb m_async (filter (marked "state") (methods item)) ||
  existsb m_async (filter (marked "superstate") (methods item)) ||
  existsb m_async (filter (marked "action") (methods item)).

Record expanded (args : list meta) (item : item_impl) (g : generated) (c : config)
    (sms ums : list impl_fn) : Prop := Expanded {
  ex_config : analyze_state_machine args item = Done c;
  ex_self : i_self (g_impl g) = i_self item;
  ex_impl : Forall2 same_item (i_items item) (i_items (g_impl g));
  ex_states : Permutation (filter (marked "state") (methods item)) sms;
  ex_supers : Permutation (filter (marked "superstate") (methods item)) ums;
  ex_state_variants : g_state_variants g = map (state_variant c) sms;
  ex_super_variants : g_super_variants g = map (super_variant c) ums;
  ex_state_arms : g_state_arms g = Arms
    (map (fun m => (state_pattern c m, call_of c m)) sms)
    (map (fun m => (state_pattern c m, action_code c item (declared "state" "entry_action" m))) sms)
    (map (fun m => (state_pattern c m, action_code c item (declared "state" "exit_action" m))) sms)
    (map (fun m => (state_pattern c m, super_link c item (declared "state" "superstate" m))) sms);
  ex_super_arms : g_super_arms g = Arms
    (map (fun m => (super_pattern c m, call_of c m)) ums)
    (map (fun m => (super_pattern c m, action_code c item (declared "superstate" "entry_action" m))) ums)
    (map (fun m => (super_pattern c m, action_code c item (declared "superstate" "exit_action" m))) ums)
    (map (fun m => (super_pattern c m, super_link c item (declared "superstate" "superstate" m))) ums);
  ex_constructors : Forall2 (constructor_of c) sms (g_constructors g);
  ex_state_resolved : forall m, In m sms -> resolved item "state" m;
  ex_super_resolved : forall m, In m ums -> resolved item "superstate" m;
  ex_state_methods : forall m, In m sms -> idents_only m /\ fields_by_reference c m /\
    variant_ident (m_name m) = Done (pascal (m_name m)) /\ m_generics m = [];
  ex_super_methods : forall m, In m ums -> idents_only m /\ fields_by_reference c m /\
    variant_ident (m_name m) = Done (pascal (m_name m)) /\ m_generics m = [];
  ex_action_methods : forall m, In m (methods item) -> marked "action" m = true ->
    idents_only m /\ m_generics m = [];
  ex_mode : g_mode g = if any_async item then MAwaitable else MBlocking;
  ex_hooks : g_before_transition g = codegen_hook (g_mode g) (c_before_transition c) /\
             g_after_transition g = codegen_hook (g_mode g) (c_after_transition c) /\
             g_before_dispatch g = codegen_hook (g_mode g) (c_before_dispatch c) /\
             g_after_dispatch g = codegen_hook (g_mode g) (c_after_dispatch c);
  ex_initial : g_initial g = c_initial c;
  ex_event_ident : g_event_ident g = c_event_ident c;
  ex_context_ident : g_context_ident g = c_context_ident c;
  ex_state_ident : g_state_ident g = c_state_ident c;
  ex_super_ident : g_super_ident g = c_super_ident c;
  ex_state_derives : g_state_derives g = c_state_derives c;
  ex_super_derives : g_super_derives g = c_super_derives c;
  ex_visibility : g_visibility g = c_visibility c
}.

(** The mode. *)
Lemma find_types_mode c l : forall x x',
  efold (find_types c) x l = Done x' ->
  x_mode x' = if existsb (fun a => snd a) l then MAwaitable else x_mode x.
Proof.
  induction l as [|a l IH]; intros x x' H; cbn in H; [injection H as <-; reflexivity|].
  destruct (ebind_done _ _ H) as [x1 [E H1]]. rewrite (IH _ _ H1). clear IH H1 H.
  destruct a as [[e k] b]. unfold find_types in E.
  destruct (ebind_done _ _ E) as [e1 [_ E1]]. destruct (ebind_done _ _ E1) as [k1 [_ E2]].
  injection E2 as <-. cbn. now destruct (existsb _ l), b.
Qed.
Lemma action_mode l : forall x,
  x_mode (fold_left (fun x a => Types (if aa_async a then MAwaitable else x_mode x)
                                      (x_event x) (x_context x)) l x) =
  if existsb aa_async l then MAwaitable else x_mode x.
Proof.
  induction l as [|a l IH]; intros x; cbn; [reflexivity|]. rewrite IH. cbn.
  now destruct (existsb aa_async l), (aa_async a).
Qed.
Lemma existsb_perm A (f : A -> bool) l l' : Permutation l l' -> existsb f l = existsb f l'.
Proof.
  induction 1; cbn; try congruence. now rewrite !orb_assoc, (orb_comm (f y)).
Qed.
Lemma existsb_map A B (f : A -> B) g l : existsb g (map f l) = existsb (fun a => g (f a)) l.
Proof. induction l; cbn; congruence. Qed.
Lemma existsb_entries T (P : impl_fn -> T -> Prop) f ms (h : hash_map T) :
  entries P ms h -> (forall m t, P m t -> f t = m_async m) ->
  existsb f (map snd h) = existsb m_async ms.
Proof.
  intros F H. induction F as [|m [k t] ms h [_ Pm] _ IH]; cbn; [reflexivity|].
  rewrite IH. f_equal. auto.
Qed.

Section Link.
  Variables (c : config) (item : item_impl) (mo : model).
  Hypothesis ND : NoDup (map m_name (methods item)).
  Variables (actions : hash_map l_action) (supers : hash_map l_super).
  Variables ams ums : list impl_fn.
  Hypothesis PA : Permutation (filter (marked "action") (methods item)) ams.
  Hypothesis EA : entries (fun m l => l = call_of c m /\ idents_only m) ams actions.
  Hypothesis PU : Permutation (filter (marked "superstate") (methods item)) ums.
  Hypothesis EU : entries (super_pre c) ums supers.

  Lemma link_action_done a old msg l :
    old = EmptyBlock -> link_action actions a old msg = Done l ->
    l = action_code c item a /\
    (forall x, a = Some x -> exists ma, find_method item "action" x = Some ma).
  Proof.
    unfold link_action. intros ->. destruct a as [a|].
    - destruct (hm_get a actions) as [t|] eqn:G; [|discriminate]. intros [= <-].
      destruct (entries_find _ EA G) as [m [F [-> _]]].
      apply (find_in_perm _ (filter_names_nodup _ _ ND) PA) in F.
      cbn. unfold find_method. rewrite F. split; [reflexivity|]. intros x [= <-]. eauto.
    - intros [= <-]. split; [reflexivity|]. discriminate.
  Qed.
  Lemma link_super_done u old l :
    old = None -> link_super supers u old = Done l ->
    l = super_link c item u /\
    (forall x, u = Some x -> exists mu, find_method item "superstate" x = Some mu).
  Proof.
    unfold link_super. intros ->. destruct u as [u|].
    - destruct (hm_get u supers) as [t|] eqn:G; [|discriminate]. intros [= <-].
      destruct (entries_find _ EU G) as [m [F Pm]].
      apply (find_in_perm _ (filter_names_nodup _ _ ND) PU) in F.
      cbn. unfold find_method. rewrite F. cbn. rewrite (up_pat Pm). split; [reflexivity|].
      intros x [= <-]. eauto.
    - intros [= <-]. split; [reflexivity|]. discriminate.
  Qed.

  Lemma link_state_done m s l :
    hm_get (m_name m) (mo_states mo) = Some s -> state_found c m s -> forall l0, state_pre c m l0 ->
    link_state mo supers actions (m_name m) l0 = Done l ->
    state_out c item m l /\ resolved item "state" m.
  Proof.
    intros G [m1 [SI _]] l0 SP H. unfold link_state in H. rewrite G in H.
    destruct (ebind_done _ _ H) as [su [E1 H1]]. clear H.
    destruct (ebind_done _ _ H1) as [en [E2 H2]]. clear H1.
    destruct (ebind_done _ _ H2) as [ex [E3 H3]]. clear H2. injection H3 as <-.
    rewrite (si_super SI) in E1. rewrite (si_entry SI) in E2. rewrite (si_exit SI) in E3.
    destruct (link_super_done _ (sp_super SP) E1) as [-> R1].
    destruct (link_action_done _ _ (sp_entry SP) E2) as [-> R2].
    destruct (link_action_done _ _ (sp_exit SP) E3) as [-> R3].
    split; [|constructor; assumption]. destruct SP. constructor; cbn; auto.
  Qed.
  Lemma link_superstate_done m s l :
    hm_get (m_name m) (mo_supers mo) = Some s -> super_info c m s -> forall l0, super_pre c m l0 ->
    link_superstate mo supers actions (m_name m) l0 = Done l ->
    super_out c item m l /\ resolved item "superstate" m.
  Proof.
    intros G SI l0 SP H. unfold link_superstate in H. rewrite G in H.
    destruct (ebind_done _ _ H) as [su [E1 H1]]. clear H.
    destruct (ebind_done _ _ H1) as [en [E2 H2]]. clear H1.
    destruct (ebind_done _ _ H2) as [ex [E3 H3]]. clear H2. injection H3 as <-.
    rewrite (ui_super SI) in E1. rewrite (ui_entry SI) in E2. rewrite (ui_exit SI) in E3.
    destruct (link_super_done _ (up_super SP) E1) as [-> R1].
    destruct (link_action_done _ _ (up_entry SP) E2) as [-> R2].
    destruct (link_action_done _ _ (up_exit SP) E3) as [-> R3].
    split; [|constructor; assumption]. destruct SP. constructor; cbn; auto.
  Qed.
End Link.

Lemma entries_link T U (P : impl_fn -> T -> Prop) (Q : impl_fn -> U -> Prop) ms h f r :
  (forall m t u, In m ms -> P m t -> f (m_name m) t = Done u -> Q m u) ->
  entries P ms h ->
  emap (fun kv => do s <- f (fst kv) (snd kv); Done (fst kv, s)) h = Done r ->
  entries Q ms r.
Proof.
  intros PQ F H. apply emap_done in H. revert r H.
  induction F as [|m [k t] ms h [K Pm] _ IH]; intros r H; inversion H as [|? b ? bs Hb Hbs]; subst; constructor.
  - cbn in *. subst k. destruct (f (m_name m) t) as [u| |] eqn:E; cbn in Hb; try discriminate.
    injection Hb as <-. cbn. split; [reflexivity|]. eapply PQ; eauto.
  - apply IH; [|exact Hbs]. intros. eapply PQ; eauto. now right.
Qed.

Lemma entries_map T U (P : impl_fn -> T -> Prop) (f : impl_fn -> U) (k : T -> U) ms h :
  entries P ms h -> (forall m t, P m t -> k t = f m) -> map k (map snd h) = map f ms.
Proof.
  intros F H. induction F as [|m [? t] ms h [_ Pm] _ IH]; cbn; [reflexivity|]. rewrite IH. f_equal. auto.
Qed.

Theorem expand_done o args item g :
  NoDup (map m_name (methods item)) -> expand o args item = Done g ->
  exists c sms ums, expanded args item g c sms ums.
Proof.
  intros ND H. unfold expand in H. destruct (ebind_done _ _ H) as [mo [A H1]]. clear H.
  destruct (ebind_done _ _ H1) as [i [L H2]]. clear H1. injection H2 as <-.
  destruct (@analyze_done args item mo ND A) as [C [I1 [_ [I2 [ES [EU EA]]]]]]. clear A.
  unfold lower in L. set (c := mo_config mo) in *.
  destruct (ebind_done _ _ L) as [states0 [L1 L']]. clear L.
  destruct (ebind_done _ _ L') as [supers0 [L2 L]]. clear L'.
  destruct (ebind_done _ _ L) as [actions [L3 L']]. clear L.
  destruct (ebind_done _ _ L') as [states [L4 L]]. clear L'.
  destruct (ebind_done _ _ L) as [supers [L5 L']]. clear L.
  destruct (ebind_done _ _ L') as [x1 [L6 L]]. clear L'.
  destruct (ebind_done _ _ L) as [x2 [L7 L']]. clear L.
  destruct (ebind_done _ _ L') as [params [L8 L]]. clear L'. injection L as <-.
  destruct (@entries_hm_map _ _ _ (state_pre c) _ _ _ _ _ (@lower_state_done c) ES L1) as [sm0 [P1 F1]].
  destruct (@entries_hm_map _ _ _ (super_pre c) _ _ _ _ _ (@lower_super_done c) EU L2) as [um0 [P2 F2]].
  destruct (@entries_hm_map _ _ _ (fun m l => l = call_of c m /\ idents_only m) _ _ _ _ _ (@lower_action_done c) EA L3)
    as [am0 [P3 F3]].
  destruct (entries_arrange (o_ir_states o) F1) as [sms [P4 F4]].
  destruct (entries_arrange (o_ir_supers o) F2) as [ums [P5 F5]].
  pose proof (perm_trans P1 P4) as PS. pose proof (perm_trans P2 P5) as PU.
  assert (F6 : entries (fun m l => state_out c item m l /\ resolved item "state" m) sms states).
  { refine (@entries_link _ _ _ _ _ _ (link_state mo supers0 actions) _ _ F4 L4).
    intros m l0 l IN SP E.
    apply (Permutation_in _ (Permutation_sym PS)) in IN.
    destruct (@entries_lookup _ _ _ _ m (filter_names_nodup _ _ ND) ES IN) as [s [G SF]].
    exact (@link_state_done c item mo ND actions supers0 am0 um0 P3 F3 P2 F2 m s l G SF l0 SP E). }
  assert (F7 : entries (fun m l => super_out c item m l /\ resolved item "superstate" m) ums supers).
  { refine (@entries_link _ _ _ _ _ _ (link_superstate mo supers0 actions) _ _ F5 L5).
    intros m l0 l IN SP E.
    apply (Permutation_in _ (Permutation_sym PU)) in IN.
    destruct (@entries_lookup _ _ _ _ m (filter_names_nodup _ _ ND) EU IN) as [s [G SF]].
    exact (@link_superstate_done c item mo ND actions supers0 am0 um0 P3 F3 P2 F2 m s l G SF l0 SP E). }
  assert (FS : forall m, In m sms -> exists l, state_out c item m l /\ resolved item "state" m).
  { intros m IN. destruct (Forall2_in_left F6 IN) as [[k l] [_ [_ Q]]]. eauto. }
  assert (FU : forall m, In m ums -> exists l, super_out c item m l /\ resolved item "superstate" m).
  { intros m IN. destruct (Forall2_in_left F7 IN) as [[k l] [_ [_ Q]]]. eauto. }
  exists c, sms, ums. constructor; try reflexivity; try assumption.
  - cbn. apply (entries_map _ _ F6). intros m l [Q _]. apply Q.
  - cbn. apply (entries_map _ _ F7). intros m l [Q _]. apply Q.
  - cbn. unfold codegen_state_arms. f_equal; apply (entries_map _ _ F6); intros m l [[] _]; congruence.
  - cbn. unfold codegen_super_arms. f_equal; apply (entries_map _ _ F7); intros m l [[] _]; congruence.
  - cbn. clear - F6. induction F6 as [|m [k l] sms states [_ [Q _]] _ IH]; constructor; [apply Q|exact IH].
  - intros m IN. destruct (FS m IN) as [l [_ R]]. exact R.
  - intros m IN. destruct (FU m IN) as [l [_ R]]. exact R.
  - intros m IN. destruct (FS m IN) as [l [[] _]]. auto.
  - intros m IN. destruct (FU m IN) as [l [[] _]]. auto.
  - intros m IN MK. assert (IN' : In m (filter (marked "action") (methods item))) by (apply filter_In; auto).
    destruct (@entries_lookup _ _ _ _ m (filter_names_nodup _ _ ND) EA IN') as [a [_ AI]]. split; [|apply AI].
    apply (Permutation_in _ P3) in IN'. destruct (Forall2_in_left F3 IN') as [[k l] [_ [_ [_ Q]]]]. exact Q.
  - cbn. rewrite action_mode, (find_types_mode _ _ _ L7), (find_types_mode _ _ _ L6), !existsb_map. cbn [snd x_mode].
    unfold hm_values.
    destruct (entries_arrange (o_states o) ES) as [s1 [Q1 G1]].
    destruct (entries_arrange (o_supers o) EU) as [s2 [Q2 G2]].
    destruct (entries_arrange (o_actions o) EA) as [s3 [Q3 G3]].
    unfold any_async. rewrite (existsb_perm _ Q1), (existsb_perm _ Q2), (existsb_perm _ Q3).
    match goal with |- context [existsb ?f (map snd (arrange (o_states o) (mo_states mo)))] =>
      change f with as_async end.
    match goal with |- context [existsb ?f (map snd (arrange (o_supers o) (mo_supers mo)))] =>
      change f with au_async end.
    rewrite (@existsb_entries _ _ as_async _ _ G1), (@existsb_entries _ _ au_async _ _ G2),
            (@existsb_entries _ _ aa_async _ _ G3).
    + now destruct (existsb m_async s1), (existsb m_async s2), (existsb m_async s3).
    + intros m a AI. apply AI.
    + intros m a AI. apply AI.
    + intros m a [m1 [AI _]]. apply AI.
  - cbn. auto.
Qed.
