(** MacroOrderProofs.v — the iteration order of the macro's hash maps does not matter. *)

From Coq Require Import String Ascii List Bool Arith Lia Permutation.
From Verif Require Import Machine Api Sim.
From Verif Require Import MacroSyntax MacroVisit MacroAnalyze MacroLower MacroGen MacroSem.
From Verif Require Import MacroSpec MacroOrderSpec MacroBasics MacroExpandProofs MacroLowerProofs.
Import ListNotations.
Open Scope string_scope.
Open Scope list_scope.
Set Implicit Arguments.

(** ** Loops over permuted lists *)
Lemma emap_perm A B (f : A -> expansion B) l l' r :
  Permutation l l' -> emap f l = Done r -> exists r', emap f l' = Done r' /\ Permutation r r'.
Proof.
  intros P H. apply emap_done in H. destruct (Permutation_Forall2_l P H) as [r' [Q F]].
  exists r'. split; [now apply emap_done|exact Q].
Qed.
Lemma emap_ext A B (f f' : A -> expansion B) l : (forall a, f a = f' a) -> emap f l = emap f' l.
Proof. intros H. induction l as [|a l IH]; cbn; [reflexivity|]. rewrite H, IH. reflexivity. Qed.
Lemma arrange_perm T (o o' : order) (h h' : hash_map T) :
  Permutation h h' -> Permutation (arrange o h) (arrange o' h').
Proof.
  intros P. eapply perm_trans; [apply Permutation_sym, arrange_same|].
  eapply perm_trans; [exact P|apply arrange_same].
Qed.
Lemma hm_map_perm T U (o o' : order) (f : T -> expansion U) h r :
  hm_map o f h = Done r -> exists r', hm_map o' f h = Done r' /\ Permutation r r'.
Proof. unfold hm_map. intros H. eapply emap_perm; [|exact H]. now apply arrange_perm. Qed.
Lemma hm_map_keys T U (o : order) (f : T -> expansion U) h r :
  NoDup (map fst h) -> hm_map o f h = Done r -> NoDup (map fst r).
Proof.
  intros ND H. apply hm_map_done in H.
  assert (E : map fst (arrange o h) = map fst r).
  { apply Forall2_map_eq. eapply Forall2_imp; [|exact H]. cbn. tauto. }
  rewrite <- E. eapply Permutation_NoDup; [|exact ND]. apply Permutation_map, arrange_same.
Qed.
Lemma hm_values_perm T (o o' : order) (h : hash_map T) : Permutation (hm_values o h) (hm_values o' h).
Proof. apply Permutation_map, arrange_perm. reflexivity. Qed.

Lemma hm_insert_keys T k (v : T) h : NoDup (map fst h) -> NoDup (map fst (hm_insert k v h)).
Proof.
  assert (I : forall k' h, In k' (map fst (hm_insert k v h)) <-> k' = k \/ In k' (map fst h)).
  { intros k' h0. induction h0 as [|[k1 v1] h0 IH]; cbn; [intuition congruence|].
    destruct (String.eqb_spec k k1) as [->|N]; cbn; [intuition congruence|]. rewrite IH. intuition congruence. }
  induction h as [|[k1 v1] h IH]; cbn; intros ND; [constructor; [intros []|constructor]|].
  inversion ND as [|? ? N ND']; subst. destruct (String.eqb_spec k k1) as [->|D]; cbn; [exact ND|].
  constructor; [|auto]. rewrite I. intuition congruence.
Qed.

(** ** `analyze`: keys are distinct *)
Definition keys_distinct (f : found) : Prop :=
  NoDup (map fst (fd_states f)) /\ NoDup (map fst (fd_supers f)) /\ NoDup (map fst (fd_actions f)).
Lemma attribute_keys c f m p f' m' :
  attribute c (f, m) p = Done (f', m') -> keys_distinct f -> keys_distinct f'.
Proof.
  unfold attribute, keys_distinct. destruct f as [ss us acts]. cbn. intros H (A & B & C).
  destruct (is_ident p "state").
  { destruct (ebind_done _ _ H) as [[s m1] [_ D]]. injection D as <- <-. cbn. auto using hm_insert_keys. }
  destruct (is_ident p "superstate").
  { destruct (ebind_done _ _ H) as [u [_ D]]. injection D as <- <-. cbn. auto using hm_insert_keys. }
  destruct (is_ident p "action").
  { destruct (ebind_done _ _ H) as [u [_ D]]. injection D as <- <-. cbn. auto using hm_insert_keys. }
  injection H as <- <-. auto.
Qed.
Lemma attributes_keys c ps : forall f m f' m',
  efold (attribute c) (f, m) ps = Done (f', m') -> keys_distinct f -> keys_distinct f'.
Proof.
  induction ps as [|p ps IH]; intros f m f' m' H K; cbn in H; [now injection H as <- <-|].
  destruct (ebind_done _ _ H) as [[f1 m1] [E H1]]. eapply IH; [exact H1|]. eapply attribute_keys; eauto.
Qed.
Lemma items_keys c items : forall f f' r,
  analyze_items c f items = Done (f', r) -> keys_distinct f -> keys_distinct f'.
Proof.
  induction items as [|[m|t] items IH]; intros f f' r H K; cbn in H; [now injection H as <- <-| |].
  - destruct (ebind_done _ _ H) as [[f1 m1] [E H1]]. destruct (ebind_done _ _ H1) as [[f2 r2] [E2 D]].
    injection D as <- <-. eapply IH; [exact E2|]. eapply attributes_keys; [exact E|exact K].
  - destruct (ebind_done _ _ H) as [[f1 r1] [E D]]. injection D as <- <-. eapply IH; eauto.
Qed.
Lemma analyze_keys args item mo : analyze args item = Done mo ->
  NoDup (map fst (mo_states mo)) /\ NoDup (map fst (mo_supers mo)) /\ NoDup (map fst (mo_actions mo)).
Proof.
  intros H. unfold analyze in H. destruct (ebind_done _ _ H) as [c [_ H1]].
  destruct (ebind_done _ _ H1) as [[f r] [E D]]. injection D as <-. cbn.
  apply (@items_keys c _ _ _ _ E). repeat split; constructor.
Qed.

(** ** `lower`: linking, types, generics *)
Lemma link_state_perm mo su su' ac ac' key s :
  (forall k, hm_get k su = hm_get k su') -> (forall k, hm_get k ac = hm_get k ac') ->
  link_state mo su ac key s = link_state mo su' ac' key s.
Proof.
  intros H1 H2. unfold link_state, link_super, link_action.
  destruct (match hm_get key (mo_states mo) with Some a => as_superstate a | None => None end) as [u|];
    [rewrite H1; destruct (hm_get u su'); [|reflexivity]|]; cbn [ebind];
  destruct (match hm_get key (mo_states mo) with Some a => as_entry a | None => None end) as [a|];
    try (rewrite H2; destruct (hm_get a ac'); [|reflexivity]); cbn [ebind];
  destruct (match hm_get key (mo_states mo) with Some a => as_exit a | None => None end) as [b|];
    try (rewrite H2; destruct (hm_get b ac'); [|reflexivity]); reflexivity.
Qed.
Lemma link_superstate_perm mo su su' ac ac' key s :
  (forall k, hm_get k su = hm_get k su') -> (forall k, hm_get k ac = hm_get k ac') ->
  link_superstate mo su ac key s = link_superstate mo su' ac' key s.
Proof.
  intros H1 H2. unfold link_superstate, link_super, link_action.
  destruct (match hm_get key (mo_supers mo) with Some a => au_superstate a | None => None end) as [u|];
    [rewrite H1; destruct (hm_get u su'); [|reflexivity]|]; cbn [ebind];
  destruct (match hm_get key (mo_supers mo) with Some a => au_entry a | None => None end) as [a|];
    try (rewrite H2; destruct (hm_get a ac'); [|reflexivity]); cbn [ebind];
  destruct (match hm_get key (mo_supers mo) with Some a => au_exit a | None => None end) as [b|];
    try (rewrite H2; destruct (hm_get b ac'); [|reflexivity]); reflexivity.
Qed.

Definition type_ok (n : ident) (pt : option pat_type) : Prop :=
  match pt with
  | Some p => match pt_pat p with
              | PatIdent i => n = i -> exists l mu t, pt_ty p = TReference l mu t
              | _ => True
              end
  | None => True
  end.
Lemma find_type_ok n msg old pt r : find_type n msg old pt = Done r -> type_ok n pt.
Proof.
  unfold find_type, type_ok. destruct pt as [p|]; [|auto]. destruct (pt_pat p) as [i| | | | | |]; auto.
  intros H ->. rewrite String.eqb_refl in H. destruct (ebind_done _ _ H) as [t [E _]]. unfold referenced in E.
  destruct (pt_ty p); try discriminate. eauto.
Qed.
Lemma type_ok_done n msg old pt : type_ok n pt -> exists r, find_type n msg old pt = Done r.
Proof.
  unfold find_type, type_ok. destruct pt as [p|]; [|eauto]. destruct (pt_pat p) as [i| | | | | |]; eauto.
  intros H. destruct (String.eqb_spec n i) as [->|]; [|eauto].
  destruct (H eq_refl) as (l & mu & t & E). unfold referenced. rewrite E. cbn. eauto.
Qed.
Definition types_ok (c : config) (a : option pat_type * option pat_type * bool) : Prop :=
  type_ok (c_event_ident c) (fst (fst a)) /\ type_ok (c_context_ident c) (snd (fst a)).
Lemma find_types_ok c l : forall x x', efold (find_types c) x l = Done x' -> Forall (types_ok c) l.
Proof.
  induction l as [|[[e k] b] l IH]; intros x x' H; [constructor|]. cbn in H.
  destruct (ebind_done _ _ H) as [x1 [E H1]]. constructor; [|eauto].
  destruct (ebind_done _ _ E) as [e1 [E1 E']]. destruct (ebind_done _ _ E') as [k1 [E2 _]].
  split; cbn; [exact (find_type_ok _ _ _ _ E1)|exact (find_type_ok _ _ _ _ E2)].
Qed.
Lemma types_ok_done c l : forall x, Forall (types_ok c) l -> exists x', efold (find_types c) x l = Done x'.
Proof.
  induction l as [|[[e k] b] l IH]; intros x F; cbn; [eauto|]. inversion F as [|? ? [A B] F']; subst.
  cbn in A, B. destruct (type_ok_done _ "event must be passed in as a reference" (x_event x) _ A) as [r1 ->].
  destruct (type_ok_done _ "context must be passed in as a reference" (x_context x) _ B) as [r2 ->]. cbn. auto.
Qed.

Lemma used_params_perm ps l l' : Permutation l l' -> used_params ps l = used_params ps l'.
Proof.
  intros P. unfold used_params. apply filter_ext. intros p. apply existsb_perm.
  now apply Permutation_flat_map.
Qed.

Lemma Permutation_map2 A B C (f : B -> C) (g : A -> B) l l' :
  Permutation l l' -> Permutation (map f (map g l)) (map f (map g l')).
Proof. intros. now apply Permutation_map, Permutation_map. Qed.

Theorem lower_order o o' mo i :
  NoDup (map fst (mo_supers mo)) -> NoDup (map fst (mo_actions mo)) ->
  lower o mo = Done i ->
  exists i', lower o' mo = Done i' /\ reordered (codegen i) (codegen i').
Proof.
  intros NU NA L. unfold lower in L. set (c := mo_config mo) in *.
  destruct (ebind_done _ _ L) as [states0 [L1 L']]. clear L.
  destruct (ebind_done _ _ L') as [supers0 [L2 L]]. clear L'.
  destruct (ebind_done _ _ L) as [actions [L3 L']]. clear L.
  destruct (ebind_done _ _ L') as [states [L4 L]]. clear L'.
  destruct (ebind_done _ _ L) as [supers [L5 L']]. clear L.
  destruct (ebind_done _ _ L') as [x1 [L6 L]]. clear L'.
  destruct (ebind_done _ _ L) as [x2 [L7 L']]. clear L.
  destruct (ebind_done _ _ L') as [params [L8 L]]. clear L'. injection L as <-.
  destruct (@hm_map_perm _ _ _ (o_states o') _ _ _ L1) as [states0' [M1 P1]].
  destruct (@hm_map_perm _ _ _ (o_supers o') _ _ _ L2) as [supers0' [M2 P2]].
  destruct (@hm_map_perm _ _ _ (o_actions o') _ _ _ L3) as [actions' [M3 P3]].
  assert (G2 : forall k, hm_get k supers0 = hm_get k supers0').
  { intros k. apply hm_get_perm; [|exact P2]. exact (@hm_map_keys _ _ _ _ _ _ NU L2). }
  assert (G3 : forall k, hm_get k actions = hm_get k actions').
  { intros k. apply hm_get_perm; [|exact P3]. exact (@hm_map_keys _ _ _ _ _ _ NA L3). }
  destruct (@emap_perm _ _ _ _ _ _ (@arrange_perm _ (o_ir_states o) (o_ir_states o') _ _ P1) L4) as [states' [M4 P4]].
  destruct (@emap_perm _ _ _ _ _ _ (@arrange_perm _ (o_ir_supers o) (o_ir_supers o') _ _ P2) L5) as [supers' [M5 P5]].
  assert (M4' : emap (fun kv => do s <- link_state mo supers0' actions' (fst kv) (snd kv); Done (fst kv, s))
                     (arrange (o_ir_states o') states0') = Done states').
  { rewrite <- M4. apply emap_ext. intros kv. now rewrite (link_state_perm mo _ _ _ _ (fst kv) (snd kv) G2 G3). }
  assert (M5' : emap (fun kv => do s <- link_superstate mo supers0' actions' (fst kv) (snd kv); Done (fst kv, s))
                     (arrange (o_ir_supers o') supers0') = Done supers').
  { rewrite <- M5. apply emap_ext. intros kv. now rewrite (link_superstate_perm mo _ _ _ _ (fst kv) (snd kv) G2 G3). }
  pose proof (hm_values_perm (o_states o) (o_states o') (mo_states mo)) as V1.
  pose proof (hm_values_perm (o_supers o) (o_supers o') (mo_supers mo)) as V2.
  pose proof (hm_values_perm (o_actions o) (o_actions o') (mo_actions mo)) as V3.
  assert (T1 : exists y1, efold (find_types c) (Types MBlocking None None)
                 (map (fun s => (as_event s, as_context s, as_async s)) (hm_values (o_states o') (mo_states mo))) = Done y1).
  { apply types_ok_done. eapply Permutation_Forall; [apply Permutation_map, V1|]. exact (find_types_ok _ _ _ L6). }
  destruct T1 as [y1 N6].
  assert (T2 : exists y2, efold (find_types c) y1
                 (map (fun s => (au_event s, au_context s, au_async s)) (hm_values (o_supers o') (mo_supers mo))) = Done y2).
  { apply types_ok_done. eapply Permutation_Forall; [apply Permutation_map, V2|]. exact (find_types_ok _ _ _ L7). }
  destruct T2 as [y2 N7].
  unfold lower. fold c. rewrite M1. cbn [ebind]. rewrite M2. cbn [ebind]. rewrite M3. cbn [ebind].
  rewrite M4'. cbn [ebind]. rewrite M5'. cbn [ebind]. rewrite N6. cbn [ebind]. rewrite N7. cbn [ebind].
  rewrite L8. cbn [ebind]. eexists. split; [reflexivity|].
  assert (MO : forall acts acts' , Permutation acts acts' ->
    x_mode (fold_left (fun x a => Types (if aa_async a then MAwaitable else x_mode x) (x_event x) (x_context x)) acts' y2) =
    x_mode (fold_left (fun x a => Types (if aa_async a then MAwaitable else x_mode x) (x_event x) (x_context x)) acts x2)).
  { intros acts acts' P. rewrite !action_mode, (find_types_mode _ _ _ L7), (find_types_mode _ _ _ L6),
      (find_types_mode _ _ _ N7), (find_types_mode _ _ _ N6).
    rewrite <- (existsb_perm _ P).
    rewrite (existsb_perm _ (Permutation_map _ V1)), (existsb_perm _ (Permutation_map _ V2)). reflexivity. }
  assert (SG : used_params params (flat_map as_state_inputs (hm_values (o_states o') (mo_states mo))) =
               used_params params (flat_map as_state_inputs (hm_values (o_states o) (mo_states mo)))).
  { symmetry. now apply used_params_perm, Permutation_flat_map. }
  assert (UG : used_params params (flat_map au_state_inputs (hm_values (o_supers o') (mo_supers mo))) =
               used_params params (flat_map au_state_inputs (hm_values (o_supers o) (mo_supers mo)))).
  { symmetry. now apply used_params_perm, Permutation_flat_map. }
  constructor; cbn [codegen g_impl g_mode g_initial g_before_transition g_after_transition g_before_dispatch
    g_after_dispatch g_visibility g_state_ident g_state_derives g_state_generics g_state_variants g_constructors
    g_state_arms g_super_ident g_super_derives g_super_generics g_super_variants g_super_arms g_event_ident
    g_context_ident ir_impl ir_config ir_mode ir_state_generics ir_super_generics ir_states ir_supers];
    try reflexivity; rewrite ?(MO _ _ V3); try reflexivity; try assumption.
  - now apply Permutation_map2.
  - now apply Permutation_map2.
  - constructor; cbn; now apply Permutation_map2.
  - f_equal; [exact UG|]. now rewrite (existsb_perm _ V2).
  - now apply Permutation_map2.
  - constructor; cbn; now apply Permutation_map2.
Qed.

Theorem expand_order o o' args item g :
  expand o args item = Done g -> exists g', expand o' args item = Done g' /\ reordered g g'.
Proof.
  intros H. unfold expand in H. destruct (ebind_done _ _ H) as [mo [A H1]].
  destruct (ebind_done _ _ H1) as [i [L D]]. injection D as <-.
  destruct (analyze_keys _ _ A) as (_ & K2 & K3).
  destruct (lower_order o o' mo K2 K3 L) as [i' [L' R]].
  exists (codegen i'). split; [|exact R]. unfold expand. rewrite A. cbn [ebind]. rewrite L'. reflexivity.
Qed.
