(** MacroShuffleProofs.v — the macro and the order of the items of the impl block (C75). *)

From Coq Require Import String Ascii List Bool Arith Lia Permutation.
From Verif Require Import Machine Api Sim.
From Verif Require Import MacroSyntax MacroVisit MacroAnalyze MacroLower MacroGen MacroSem.
From Verif Require Import MacroSpec MacroOrderSpec MacroBasics MacroExpandProofs MacroLowerProofs.
From Verif Require Import MacroOrderProofs MacroReorderProofs MacroShuffleSpec.
Import ListNotations.
Open Scope string_scope.
Open Scope list_scope.
Set Implicit Arguments.

Lemma methods_perm l l' s g s' g' : Permutation l l' ->
  Permutation (methods (ItemImpl s g l)) (methods (ItemImpl s' g' l')).
Proof. intros P. unfold methods. cbn. now apply Permutation_flat_map. Qed.
Lemma shuffled_methods item item' : shuffled item item' -> Permutation (methods item) (methods item').
Proof. destruct item, item'. intros (_ & _ & P). now apply methods_perm. Qed.

(** ** Hash maps *)
Lemma hm_get_insert T k k' (v : T) h : hm_get k (hm_insert k' v h) = if (k =? k')%string then Some v else hm_get k h.
Proof.
  induction h as [|[k1 v1] h IH]; cbn; [reflexivity|].
  destruct (String.eqb_spec k' k1) as [->|N]; cbn.
  - destruct (k =? k1)%string; reflexivity.
  - destruct (String.eqb_spec k k1) as [->|N']; [|exact IH].
    destruct (String.eqb_spec k1 k'); [congruence|reflexivity].
Qed.
Lemma hm_ext T (h h' : hash_map T) : NoDup (map fst h) -> NoDup (map fst h') ->
  (forall k, hm_get k h = hm_get k h') -> Permutation h h'.
Proof.
  intros N N' H.
  assert (D : forall l : hash_map T, NoDup (map fst l) -> NoDup l).
  { intros l. apply NoDup_map_inv. }
  apply NoDup_Permutation; [now apply D|now apply D|]. intros [k v]. split; intros I.
  - apply hm_get_in. rewrite <- H. now apply hm_get_nodup.
  - apply hm_get_in. rewrite H. now apply hm_get_nodup.
Qed.

(** ** One method: what it adds to the maps does not depend on what is in them. *)
Definition nothing : found := Found [] [] [].
Definition same_at (k : ident) (f f' : found) : Prop :=
  hm_get k (fd_states f) = hm_get k (fd_states f') /\
  hm_get k (fd_supers f) = hm_get k (fd_supers f') /\
  hm_get k (fd_actions f) = hm_get k (fd_actions f').

Lemma same_at_refl k f : same_at k f f. Proof. repeat split. Qed.
Lemma same_at_trans k f f1 f2 : same_at k f f1 -> same_at k f1 f2 -> same_at k f f2.
Proof. intros (A & B & C) (D & E & F). split; [|split]; congruence. Qed.

Lemma analyze_state_name m c s m' : analyze_state m c = Done (s, m') -> as_name s = m_name m /\ m_name m' = m_name m.
Proof.
  unfold analyze_state. destruct (m_generics m); [|discriminate]. intros H.
  destruct (ebind_done _ _ H) as [k [_ H1]]. destruct (ebind_done _ _ H1) as [w [_ D]]. now injection D as <- <-.
Qed.
Lemma analyze_superstate_name m c u : analyze_superstate m c = Done u -> au_name u = m_name m.
Proof.
  unfold analyze_superstate. destruct (m_generics m); [|discriminate]. intros H.
  destruct (ebind_done _ _ H) as [k [_ H1]]. destruct (ebind_done _ _ H1) as [w [_ D]]. now injection D as <-.
Qed.
Lemma analyze_action_name m a : analyze_action m = Done a -> aa_name a = m_name m.
Proof. unfold analyze_action. destruct (m_generics m); [|discriminate]. now intros [= <-]. Qed.

(** From any two [f] and [g]: the same method, the same effect. *)
Lemma attribute_local c f m p f' m' : attribute c (f, m) p = Done (f', m') ->
  m_name m' = m_name m /\ (forall k, k <> m_name m -> same_at k f f') /\
  forall g, exists g', attribute c (g, m) p = Done (g', m') /\
                       (same_at (m_name m) f g -> same_at (m_name m) f' g').
Proof.
  destruct f as [ss us acts]. unfold attribute. intros H.
  destruct (is_ident p "state").
  { destruct (ebind_done _ _ H) as [[s m1] [E D]]. injection D as <- <-.
    destruct (analyze_state_name _ _ E) as [Es Em]. rewrite Es. split; [exact Em|]. split.
    - intros k N. unfold same_at. cbn. rewrite hm_get_insert. apply String.eqb_neq in N. rewrite N. auto.
    - intros [ss' us' acts']. rewrite E. cbn [ebind]. rewrite Es. eexists. split; [reflexivity|].
      unfold same_at. cbn. rewrite !hm_get_insert, String.eqb_refl. tauto. }
  destruct (is_ident p "superstate").
  { destruct (ebind_done _ _ H) as [s [E D]]. injection D as <- <-.
    pose proof (analyze_superstate_name _ _ E) as Es. rewrite Es. split; [reflexivity|]. split.
    - intros k N. unfold same_at. cbn. rewrite hm_get_insert. apply String.eqb_neq in N. rewrite N. auto.
    - intros [ss' us' acts']. rewrite E. cbn [ebind]. rewrite Es. eexists. split; [reflexivity|].
      unfold same_at. cbn. rewrite !hm_get_insert, String.eqb_refl. tauto. }
  destruct (is_ident p "action").
  { destruct (ebind_done _ _ H) as [s [E D]]. injection D as <- <-.
    pose proof (analyze_action_name _ E) as Es. rewrite Es. split; [reflexivity|]. split.
    - intros k N. unfold same_at. cbn. rewrite hm_get_insert. apply String.eqb_neq in N. rewrite N. auto.
    - intros [ss' us' acts']. rewrite E. cbn [ebind]. rewrite Es. eexists. split; [reflexivity|].
      unfold same_at. cbn. rewrite !hm_get_insert, String.eqb_refl. tauto. }
  injection H as <- <-. split; [reflexivity|]. split; [intros; apply same_at_refl|].
  intros [ss' us' acts']. eexists. split; [reflexivity|auto].
Qed.
Lemma attributes_local c ps : forall f m f' m', efold (attribute c) (f, m) ps = Done (f', m') ->
  m_name m' = m_name m /\ (forall k, k <> m_name m -> same_at k f f') /\
  forall g, exists g', efold (attribute c) (g, m) ps = Done (g', m') /\
                       (same_at (m_name m) f g -> same_at (m_name m) f' g').
Proof.
  induction ps as [|p ps IH]; intros f m f' m' H; cbn [efold] in H.
  - injection H as <- <-. split; [reflexivity|]. split; [intros; apply same_at_refl|]. intros g. exists g. split; [reflexivity|auto].
  - destruct (ebind_done _ _ H) as [[f1 m1] [E H1]]. destruct (attribute_local _ _ _ _ E) as (N1 & O1 & L1).
    destruct (IH _ _ _ _ H1) as (N2 & O2 & L2). rewrite N1 in *. split; [congruence|]. split.
    + intros k N. eapply same_at_trans; eauto.
    + intros g. destruct (L1 g) as [g1 [E1 S1]]. destruct (L2 g1) as [g2 [E2 S2]]. exists g2. cbn [efold]. rewrite E1. cbn [ebind].
      split; [exact E2|auto].
Qed.

(** ** The items *)
Definition one_item (c : config) (it : impl_item) : expansion impl_item :=
  match it with
  | ItemMethod m => do '(f, m') <- analyze_method c nothing m; Done (ItemMethod m')
  | ItemOther t => Done (ItemOther t)
  end.
Definition item_names (items : list impl_item) : list ident :=
  flat_map (fun it => match it with ItemMethod m => [m_name m] | ItemOther _ => [] end) items.
Lemma item_names_methods s g items : item_names items = map m_name (methods (ItemImpl s g items)).
Proof. unfold item_names, methods. cbn. induction items as [|[m|t] l IH]; cbn; congruence. Qed.
Lemma in_item_names m items : In (ItemMethod m) items -> In (m_name m) (item_names items).
Proof. intros I. unfold item_names. apply in_flat_map. exists (ItemMethod m). split; [exact I|now left]. Qed.

Lemma items_local c items : forall f f' r, analyze_items c f items = Done (f', r) ->
  NoDup (item_names items) ->
  emap (one_item c) items = Done r /\
  (forall k, ~ In k (item_names items) -> same_at k f f') /\
  (forall m, In (ItemMethod m) items -> same_at (m_name m) f nothing ->
     exists f1 m', analyze_method c nothing m = Done (f1, m') /\ same_at (m_name m) f' f1).
Proof.
  induction items as [|[m|t] items IH]; intros f f' r H ND; cbn [analyze_items] in H.
  - injection H as <- <-. split; [reflexivity|]. split; [intros; apply same_at_refl|intros m []].
  - destruct (ebind_done _ _ H) as [[f1 m1] [E H1]]. destruct (ebind_done _ _ H1) as [[f2 r2] [E2 D]]. injection D as <- <-.
    cbn in ND. inversion ND as [|? ? N ND']; subst. destruct (IH _ _ _ E2 ND') as (R & O & L).
    unfold analyze_method in E. destruct (attributes_local _ _ _ _ E) as (N1 & O1 & L1).
    destruct (L1 nothing) as [g1 [G1 S1]].
    split; [|split].
    + cbn [emap one_item]. unfold analyze_method at 1. rewrite G1. cbn [ebind]. rewrite R. reflexivity.
    + intros k NI. cbn in NI. apply same_at_trans with f1; [apply O1; intuition congruence|apply O; tauto].
    + intros m0 [I|I] Z.
      * injection I as <-. exists g1, m1. split; [exact G1|].
        pose proof (O _ N) as (A & B & C). destruct (S1 Z) as (A' & B' & C'). split; [|split]; congruence.
      * apply L; [exact I|]. assert (Q : m_name m0 <> m_name m).
        { intros Q. apply N. rewrite <- Q. now apply in_item_names. }
        destruct (O1 _ Q) as (A & B & C). destruct Z as (A' & B' & C'). split; [|split]; congruence.
  - destruct (ebind_done _ _ H) as [[f1 r1] [E D]]. injection D as <- <-. destruct (IH _ _ _ E ND) as (R & O & L).
    split; [|split].
    + cbn. rewrite R. reflexivity.
    + exact O.
    + intros m [I|I]; [discriminate|]. now apply L.
Qed.
Lemma items_done c items : forall f r, emap (one_item c) items = Done r -> exists f', analyze_items c f items = Done (f', r).
Proof.
  induction items as [|[m|t] items IH]; intros f r H; cbn [emap one_item] in H.
  - injection H as <-. exists f. reflexivity.
  - destruct (ebind_done _ _ H) as [it [E H1]]. destruct (ebind_done _ _ H1) as [r2 [E2 D]]. injection D as <-.
    destruct (ebind_done _ _ E) as [[f1 m1] [E1 D]]. injection D as <-.
    unfold analyze_method in E1. destruct (attributes_local _ _ _ _ E1) as (_ & _ & L).
    destruct (L f) as [g1 [G1 _]]. destruct (IH g1 _ E2) as [f2 F2]. exists f2.
    cbn [analyze_items]. unfold analyze_method. rewrite G1. cbn [ebind]. rewrite F2. reflexivity.
  - cbn [ebind] in H. destruct (ebind_done _ _ H) as [r2 [E2 D]]. injection D as <-. destruct (IH f _ E2) as [f2 F2]. exists f2.
    cbn [analyze_items]. rewrite F2. reflexivity.
Qed.

Lemma items_perm c items items' f r : analyze_items c nothing items = Done (f, r) ->
  NoDup (item_names items) -> Permutation items items' ->
  exists f' r', analyze_items c nothing items' = Done (f', r') /\ Permutation r r' /\ forall k, same_at k f f'.
Proof.
  intros H ND P. destruct (items_local _ _ _ H ND) as (R & O & L).
  destruct (emap_perm _ P R) as [r' [R' Q]]. destruct (items_done c items' nothing R') as [f' H'].
  assert (ND' : NoDup (item_names items')).
  { eapply Permutation_NoDup; [|exact ND]. unfold item_names. now apply Permutation_flat_map. }
  destruct (items_local _ _ _ H' ND') as (_ & O' & L').
  exists f', r'. split; [exact H'|]. split; [exact Q|]. intros k.
  destruct (in_dec string_dec k (item_names items)) as [I|N].
  - unfold item_names in I. apply in_flat_map in I. destruct I as [[m|t] [I J]]; [|destruct J].
    destruct J as [<-|[]]. destruct (L m I (same_at_refl _ _)) as (f1 & m1 & E1 & S1).
    destruct (L' m (Permutation_in _ P I) (same_at_refl _ _)) as (f2 & m2 & E2 & S2).
    rewrite E1 in E2. injection E2 as <- <-.
    destruct S1 as (A & B & C), S2 as (A' & B' & C'). split; [|split]; congruence.
  - assert (N' : ~ In k (item_names items')).
    { intros I. apply N. revert I. apply Permutation_in, Permutation_sym. unfold item_names. now apply Permutation_flat_map. }
    pose proof (O k N) as (A & B & C). pose proof (O' k N') as (A' & B' & C'). split; [|split]; congruence.
Qed.

Lemma analyze_perm args item item' mo : analyze args item = Done mo ->
  NoDup (map m_name (methods item)) -> shuffled item item' ->
  exists mo', analyze args item' = Done mo' /\ mo_config mo = mo_config mo' /\ shuffled (mo_impl mo) (mo_impl mo') /\
    Permutation (mo_states mo) (mo_states mo') /\ Permutation (mo_supers mo) (mo_supers mo') /\
    Permutation (mo_actions mo) (mo_actions mo').
Proof.
  intros A ND S. pose proof (analyze_keys _ _ A) as (K1 & K2 & K3). pose proof A as A0.
  destruct item as [s ge items], item' as [s' ge' items']. destruct S as (Es & Eg & P). cbn in Es, Eg, P. subst s' ge'.
  unfold analyze in A. destruct (ebind_done _ _ A) as [c [Ec H1]].
  destruct (ebind_done _ _ H1) as [[f r] [E D]]. injection D as <-. cbn in E, K1, K2, K3.
  rewrite <- item_names_methods in ND.
  destruct (items_perm _ E ND P) as (f' & r' & E' & Q & G).
  assert (A' : analyze args (ItemImpl s ge items') =
    Done (Model (ItemImpl s ge r') c (fd_states f') (fd_supers f') (fd_actions f'))).
  { unfold analyze. change (analyze_state_machine args (ItemImpl s ge items')) with (analyze_state_machine args (ItemImpl s ge items)).
    rewrite Ec. cbn [ebind i_items]. unfold nothing in E'. rewrite E'. reflexivity. }
  pose proof (analyze_keys _ _ A') as (K1' & K2' & K3'). cbn in K1', K2', K3'.
  eexists. split; [exact A'|]. cbn. split; [reflexivity|]. split; [repeat split; exact Q|].
  split; [|split]; apply hm_ext; try assumption; intros k; apply (G k).
Qed.

(** ** `lower`, on permuted maps *)
Lemma link_state_ext mo mo' su su' ac ac' key s :
  (forall k, hm_get k (mo_states mo) = hm_get k (mo_states mo')) ->
  (forall k, hm_get k su = hm_get k su') -> (forall k, hm_get k ac = hm_get k ac') ->
  link_state mo su ac key s = link_state mo' su' ac' key s.
Proof.
  intros H H1 H2. rewrite (link_state_perm mo su su' ac ac' key s H1 H2). unfold link_state. now rewrite H.
Qed.
Lemma link_superstate_ext mo mo' su su' ac ac' key s :
  (forall k, hm_get k (mo_supers mo) = hm_get k (mo_supers mo')) ->
  (forall k, hm_get k su = hm_get k su') -> (forall k, hm_get k ac = hm_get k ac') ->
  link_superstate mo su ac key s = link_superstate mo' su' ac' key s.
Proof.
  intros H H1 H2. rewrite (link_superstate_perm mo su su' ac ac' key s H1 H2). unfold link_superstate. now rewrite H.
Qed.
Lemma hm_map_perms T U (o o' : order) (f : T -> expansion U) h h' r :
  Permutation h h' -> hm_map o f h = Done r -> exists r', hm_map o' f h' = Done r' /\ Permutation r r'.
Proof. unfold hm_map. intros P H. eapply emap_perm; [|exact H]. now apply arrange_perm. Qed.
Lemma hm_values_perms T (o o' : order) (h h' : hash_map T) : Permutation h h' -> Permutation (hm_values o h) (hm_values o' h').
Proof. intros P. now apply Permutation_map, arrange_perm. Qed.

Theorem lower_perm o o' mo mo' i :
  mo_config mo = mo_config mo' ->
  Permutation (mo_states mo) (mo_states mo') -> Permutation (mo_supers mo) (mo_supers mo') ->
  Permutation (mo_actions mo) (mo_actions mo') ->
  NoDup (map fst (mo_states mo)) -> NoDup (map fst (mo_supers mo)) -> NoDup (map fst (mo_actions mo)) ->
  lower o mo = Done i ->
  exists i', lower o' mo' = Done i' /\ g_impl (codegen i) = mo_impl mo /\ g_impl (codegen i') = mo_impl mo' /\
    reordered (codegen i) (with_impl (g_impl (codegen i)) (codegen i')).
Proof.
  intros EC PS PU PA NS NU NA L. unfold lower in L. set (c := mo_config mo) in *.
  destruct (ebind_done _ _ L) as [states0 [L1 L']]. clear L.
  destruct (ebind_done _ _ L') as [supers0 [L2 L]]. clear L'.
  destruct (ebind_done _ _ L) as [actions [L3 L']]. clear L.
  destruct (ebind_done _ _ L') as [states [L4 L]]. clear L'.
  destruct (ebind_done _ _ L) as [supers [L5 L']]. clear L.
  destruct (ebind_done _ _ L') as [x1 [L6 L]]. clear L'.
  destruct (ebind_done _ _ L) as [x2 [L7 L']]. clear L.
  destruct (ebind_done _ _ L') as [params [L8 L]]. clear L'. injection L as <-.
  destruct (@hm_map_perms _ _ _ (o_states o') _ _ _ _ PS L1) as [states0' [M1 P1]].
  destruct (@hm_map_perms _ _ _ (o_supers o') _ _ _ _ PU L2) as [supers0' [M2 P2]].
  destruct (@hm_map_perms _ _ _ (o_actions o') _ _ _ _ PA L3) as [actions' [M3 P3]].
  assert (GS : forall k, hm_get k (mo_states mo) = hm_get k (mo_states mo')).
  { intros k. now apply hm_get_perm. }
  assert (GU : forall k, hm_get k (mo_supers mo) = hm_get k (mo_supers mo')).
  { intros k. now apply hm_get_perm. }
  assert (G2 : forall k, hm_get k supers0 = hm_get k supers0').
  { intros k. apply hm_get_perm; [|exact P2]. exact (@hm_map_keys _ _ _ _ _ _ NU L2). }
  assert (G3 : forall k, hm_get k actions = hm_get k actions').
  { intros k. apply hm_get_perm; [|exact P3]. exact (@hm_map_keys _ _ _ _ _ _ NA L3). }
  destruct (@emap_perm _ _ _ _ _ _ (@arrange_perm _ (o_ir_states o) (o_ir_states o') _ _ P1) L4) as [states' [M4 P4]].
  destruct (@emap_perm _ _ _ _ _ _ (@arrange_perm _ (o_ir_supers o) (o_ir_supers o') _ _ P2) L5) as [supers' [M5 P5]].
  assert (M4' : emap (fun kv => do s <- link_state mo' supers0' actions' (fst kv) (snd kv); Done (fst kv, s))
                     (arrange (o_ir_states o') states0') = Done states').
  { rewrite <- M4. apply emap_ext. intros kv. now rewrite (link_state_ext mo mo' _ _ _ _ (fst kv) (snd kv) GS G2 G3). }
  assert (M5' : emap (fun kv => do s <- link_superstate mo' supers0' actions' (fst kv) (snd kv); Done (fst kv, s))
                     (arrange (o_ir_supers o') supers0') = Done supers').
  { rewrite <- M5. apply emap_ext. intros kv. now rewrite (link_superstate_ext mo mo' _ _ _ _ (fst kv) (snd kv) GU G2 G3). }
  pose proof (hm_values_perms (o_states o) (o_states o') PS) as V1.
  pose proof (hm_values_perms (o_supers o) (o_supers o') PU) as V2.
  pose proof (hm_values_perms (o_actions o) (o_actions o') PA) as V3.
  assert (T1 : exists y1, efold (find_types c) (Types MBlocking None None)
                 (map (fun s => (as_event s, as_context s, as_async s)) (hm_values (o_states o') (mo_states mo'))) = Done y1).
  { apply types_ok_done. eapply Permutation_Forall; [apply Permutation_map, V1|]. exact (find_types_ok _ _ _ L6). }
  destruct T1 as [y1 N6].
  assert (T2 : exists y2, efold (find_types c) y1
                 (map (fun s => (au_event s, au_context s, au_async s)) (hm_values (o_supers o') (mo_supers mo'))) = Done y2).
  { apply types_ok_done. eapply Permutation_Forall; [apply Permutation_map, V2|]. exact (find_types_ok _ _ _ L7). }
  destruct T2 as [y2 N7].
  unfold lower. rewrite <- EC. rewrite M1. cbn [ebind]. rewrite M2. cbn [ebind]. rewrite M3. cbn [ebind].
  rewrite M4'. cbn [ebind]. rewrite M5'. cbn [ebind]. rewrite N6. cbn [ebind]. rewrite N7. cbn [ebind].
  rewrite L8. cbn [ebind]. eexists. split; [reflexivity|]. split; [reflexivity|]. split; [reflexivity|].
  assert (MO : forall acts acts' , Permutation acts acts' ->
    x_mode (fold_left (fun x a => Types (if aa_async a then MAwaitable else x_mode x) (x_event x) (x_context x)) acts' y2) =
    x_mode (fold_left (fun x a => Types (if aa_async a then MAwaitable else x_mode x) (x_event x) (x_context x)) acts x2)).
  { intros acts acts' P. rewrite !action_mode, (find_types_mode _ _ _ L7), (find_types_mode _ _ _ L6),
      (find_types_mode _ _ _ N7), (find_types_mode _ _ _ N6).
    rewrite <- (existsb_perm _ P).
    rewrite (existsb_perm _ (Permutation_map _ V1)), (existsb_perm _ (Permutation_map _ V2)). reflexivity. }
  assert (SG : used_params params (flat_map as_state_inputs (hm_values (o_states o') (mo_states mo'))) =
               used_params params (flat_map as_state_inputs (hm_values (o_states o) (mo_states mo)))).
  { symmetry. now apply used_params_perm, Permutation_flat_map. }
  assert (UG : used_params params (flat_map au_state_inputs (hm_values (o_supers o') (mo_supers mo'))) =
               used_params params (flat_map au_state_inputs (hm_values (o_supers o) (mo_supers mo)))).
  { symmetry. now apply used_params_perm, Permutation_flat_map. }
  constructor; cbn [with_impl codegen g_impl g_mode g_initial g_before_transition g_after_transition g_before_dispatch
    g_after_dispatch g_visibility g_state_ident g_state_derives g_state_generics g_state_variants g_constructors
    g_state_arms g_super_ident g_super_derives g_super_generics g_super_variants g_super_arms g_event_ident
    g_context_ident ir_impl ir_config ir_mode ir_state_generics ir_super_generics ir_states ir_supers];
    try reflexivity; rewrite ?(MO _ _ V3); try reflexivity; try assumption.
  - now apply Permutation_map2.
  - now apply Permutation_map2.
  - constructor; cbn; now apply Permutation_map2.
  - f_equal; [exact UG|]. now rewrite (existsb_perm _ V2).
  - now apply Permutation_map2.
  - constructor; cbn; now apply Permutation_map2.
Qed.

Theorem expand_shuffled o o' args item item' g :
  expand o args item = Done g -> NoDup (map m_name (methods item)) -> shuffled item item' ->
  exists g', expand o' args item' = Done g' /\ rearranged g g'.
Proof.
  intros H ND S. unfold expand in H. destruct (ebind_done _ _ H) as [mo [A H1]].
  destruct (ebind_done _ _ H1) as [i [L D]]. injection D as <-.
  destruct (analyze_keys _ _ A) as (K1 & K2 & K3).
  destruct (analyze_perm _ A ND S) as (mo' & A' & EC & SI & PS & PU & PA).
  destruct (lower_perm o o' mo mo' EC PS PU PA K1 K2 K3 L) as (i' & L' & I & I' & R).
  exists (codegen i'). split.
  - unfold expand. rewrite A'. cbn [ebind]. rewrite L'. reflexivity.
  - split; [now rewrite I, I'|exact R].
Qed.

(** ** The compiler *)
Lemma arms_ok_impl g i a : Permutation (methods (g_impl g)) (methods i) -> arms_ok g a -> arms_ok (with_impl i g) a.
Proof.
  intros P (H1 & H2 & H3 & H4).
  assert (K : forall p b c, call_ok g p b c -> call_ok (with_impl i g) p b c).
  { intros p b [|t f args aw]; cbn; [auto|]. unfold async_method. cbn. intros (X & Y & (m & I & N)). split; [exact X|].
    split; [exact Y|]. exists m. split; [exact (Permutation_in _ P I)|exact N]. }
  split; [|split; [|split]]; eauto.
Qed.
Lemma compiles_impl g i : Permutation (methods (g_impl g)) (methods i) -> compiles g -> compiles (with_impl i g).
Proof.
  intros P [C1 C2 C3 C4 C5 C6 C7]. constructor; cbn; try assumption.
  - eapply Permutation_NoDup; [apply Permutation_map, P|exact C1].
  - now apply arms_ok_impl.
  - now apply arms_ok_impl.
Qed.
Lemma with_impl_same g i : with_impl (g_impl g) (with_impl i g) = g.
Proof. now destruct g. Qed.
Lemma with_impl_self g : with_impl (g_impl g) g = g.
Proof. now destruct g. Qed.
Lemma compiles_rearranged g g' : rearranged g g' -> compiles g -> compiles g'.
Proof.
  intros [S R] C. apply (compiles_reordered R) in C.
  rewrite <- (with_impl_same g' (g_impl g)). apply compiles_impl; [|exact C].
  cbn. now apply shuffled_methods.
Qed.
Lemma reordered_back g g' : reordered g (with_impl (g_impl g) g') -> reordered g' (with_impl (g_impl g') g).
Proof.
  intros [H1 H2 H3 H4 H5 H6 H7 H8 H9 H10 H11 H12 H13 [A1 A2 A3 A4] H15 H16 H17 H18 [B1 B2 B3 B4] H20 H21].
  cbn in *. constructor; cbn; try congruence; try (now apply Permutation_sym); constructor; now apply Permutation_sym.
Qed.
Lemma rearranged_sym g g' : rearranged g g' -> rearranged g' g.
Proof.
  intros [(A & B & P) R]. split; [|now apply reordered_back].
  split; [congruence|]. split; [congruence|]. now apply Permutation_sym.
Qed.
Lemma compiles_rearranged_iff g g' : rearranged g g' -> (compiles g <-> compiles g').
Proof. intros R. split; apply compiles_rearranged; [exact R|now apply rearranged_sym]. Qed.

(** ** The same code *)
Lemma rearranged_code args item g g' c sms ums :
  expanded args item g c sms ums -> compiles g -> rearranged g g' -> same_code g g'.
Proof.
  intros X CO [_ R]. destruct (expanded_same X CO R). constructor; assumption.
Qed.
