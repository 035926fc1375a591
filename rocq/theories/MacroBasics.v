(** MacroBasics.v — lemmas about the data structures of the macro model: expansions, hash
    maps, enum values. *)

From Coq Require Import String Ascii List Bool Arith Lia Permutation Eqdep_dec.
From Verif Require Import MacroSyntax MacroVisit MacroAnalyze MacroLower MacroGen MacroSem.
Import ListNotations.
Open Scope string_scope.
Open Scope list_scope.
Set Implicit Arguments.

(** ** Expansions *)
Lemma ebind_done A B (c : expansion A) (k : A -> expansion B) b :
  ebind c k = Done b -> exists a, c = Done a /\ k a = Done b.
Proof. destruct c; cbn; intros H; try discriminate. eauto. Qed.

Ltac ebinds H :=
  repeat match type of H with
  | ebind ?c ?k = Done ?b =>
      let a := fresh "a" in let Ha := fresh "E" in
      destruct (@ebind_done _ _ c k b H) as [a [Ha H']]; clear H; rename H' into H; cbv beta in H
  end.

Lemma emap_done A B (f : A -> expansion B) l r :
  emap f l = Done r <-> Forall2 (fun a b => f a = Done b) l r.
Proof.
  revert r. induction l as [|a l IH]; intros r; cbn.
  - split; [intros [= <-]; constructor | intros H; inversion H; reflexivity].
  - split.
    + destruct (f a) as [b| |] eqn:E; cbn; try discriminate.
      destruct (emap f l) as [bs| |] eqn:E2; cbn; try discriminate.
      intros [= <-]. constructor; [exact E|]. apply IH. reflexivity.
    + intros H; inversion H as [|? b ? bs Hb Hbs]; subst. rewrite Hb. cbn.
      apply IH in Hbs. rewrite Hbs. reflexivity.
Qed.

(** ** Lists *)
Lemma Forall2_in_left A B (R : A -> B -> Prop) l r a :
  Forall2 R l r -> In a l -> exists b, In b r /\ R a b.
Proof.
  induction 1 as [|x y l r H _ IH]; cbn; [tauto|]. intros [->|I]; eauto.
  destruct (IH I) as [b [? ?]]. eauto.
Qed.
Lemma Forall2_in_right A B (R : A -> B -> Prop) l r b :
  Forall2 R l r -> In b r -> exists a, In a l /\ R a b.
Proof.
  induction 1 as [|x y l r H _ IH]; cbn; [tauto|]. intros [->|I]; eauto.
  destruct (IH I) as [a [? ?]]. eauto.
Qed.
Arguments Forall2_in_left {A B R l r a}.
Arguments Forall2_in_right {A B R l r b}.
Lemma Forall2_length A B (R : A -> B -> Prop) l r : Forall2 R l r -> length l = length r.
Proof. induction 1; cbn; congruence. Qed.
Lemma Forall2_map_eq A B C (f : A -> C) (g : B -> C) l r :
  Forall2 (fun a b => f a = g b) l r -> map f l = map g r.
Proof. induction 1; cbn; congruence. Qed.
Lemma Forall2_imp A B (R Q : A -> B -> Prop) l r :
  (forall a b, R a b -> Q a b) -> Forall2 R l r -> Forall2 Q l r.
Proof. intros I. induction 1; constructor; auto. Qed.

(** ** Hash maps *)
Lemma hm_get_in T k (m : hash_map T) v : hm_get k m = Some v -> In (k, v) m.
Proof.
  induction m as [|[k' v'] m IH]; cbn; [discriminate|].
  destruct (String.eqb_spec k k') as [->|N]; [intros [= ->]; auto | auto].
Qed.
Lemma hm_get_none T k (m : hash_map T) : hm_get k m = None <-> ~ In k (map fst m).
Proof.
  induction m as [|[k' v'] m IH]; cbn; [tauto|].
  destruct (String.eqb_spec k k') as [->|N]; [|rewrite IH; intuition congruence].
  split; [discriminate|]. intros H. exfalso. apply H. auto.
Qed.
Lemma hm_get_nodup T k (m : hash_map T) v :
  NoDup (map fst m) -> In (k, v) m -> hm_get k m = Some v.
Proof.
  induction m as [|[k' v'] m IH]; cbn; [tauto|]. intros ND [[= -> ->]|I].
  - now rewrite String.eqb_refl.
  - inversion ND as [|? ? N ND']; subst.
    destruct (String.eqb_spec k k') as [->|_]; [|auto].
    exfalso. apply N. apply (in_map fst) in I. exact I.
Qed.
Lemma hm_get_perm T k (m m' : hash_map T) :
  NoDup (map fst m) -> Permutation m m' -> hm_get k m = hm_get k m'.
Proof.
  intros ND P. destruct (hm_get k m) as [v|] eqn:E.
  - symmetry. apply hm_get_nodup.
    + apply (Permutation_NoDup (Permutation_map fst P) ND).
    + apply (Permutation_in _ P). now apply hm_get_in.
  - symmetry. apply hm_get_none. apply hm_get_none in E. intros I. apply E.
    apply (Permutation_in _ (Permutation_sym (Permutation_map fst P)) I).
Qed.
Lemma hm_insert_new T k (v : T) m : ~ In k (map fst m) -> hm_insert k v m = m ++ [(k, v)].
Proof.
  induction m as [|[k' v'] m IH]; cbn; [reflexivity|]. intros N.
  destruct (String.eqb_spec k k') as [->|_]; [exfalso; auto|]. f_equal. auto.
Qed.
Lemma hm_insert_last T k (v v' : T) m :
  ~ In k (map fst m) -> hm_insert k v (m ++ [(k, v')]) = m ++ [(k, v)].
Proof.
  induction m as [|[k1 v1] m IH]; cbn.
  - now rewrite String.eqb_refl.
  - intros N. destruct (String.eqb_spec k k1) as [->|_]; [exfalso; auto|]. f_equal. auto.
Qed.
Lemma hm_map_done T U o (f : T -> expansion U) m r :
  hm_map o f m = Done r ->
  Forall2 (fun kv kv' => fst kv = fst kv' /\ f (snd kv) = Done (snd kv')) (arrange o m) r.
Proof.
  unfold hm_map. intros H. apply emap_done in H. eapply Forall2_imp; [|exact H].
  intros [k v] [k' v'] E. cbn in *. destruct (f v); cbn in E; try discriminate.
  injection E as <- <-. auto.
Qed.

(** ** Positions *)
Lemma position_some A (f : A -> bool) l n :
  position f l = Some n -> exists a, nth_error l n = Some a /\ f a = true.
Proof.
  revert n. induction l as [|a l IH]; intros n; cbn; [discriminate|].
  destruct (f a) eqn:E; [intros [= <-]; cbn; eauto|].
  destruct (position f l) as [k|]; cbn; [|discriminate]. intros [= <-]. cbn. auto.
Qed.
Lemma position_lt A (f : A -> bool) l n : position f l = Some n -> n < length l.
Proof.
  intros H. destruct (position_some _ _ H) as [a [E _]]. apply nth_error_Some. congruence.
Qed.
Lemma position_none A (f : A -> bool) l :
  position f l = None <-> forall a, In a l -> f a = false.
Proof.
  induction l as [|a l IH]; cbn; [tauto|]. destruct (f a) eqn:E.
  - split; [discriminate|]. intros H. rewrite (H a (or_introl eq_refl)) in E. discriminate.
  - destruct (position f l); cbn.
    + split; [discriminate|]. intros H. assert (Some n = None) as X by (apply IH; auto). discriminate.
    + split; [|auto]. intros _ b [<-|I]; [exact E|]. destruct IH as [IH _]. exact (IH eq_refl b I).
Qed.
Lemma position_ext A (f g : A -> bool) l : (forall a, In a l -> f a = g a) -> position f l = position g l.
Proof.
  induction l as [|a l IH]; cbn; [reflexivity|]. intros H. rewrite (H a (or_introl eq_refl)).
  destruct (g a); [reflexivity|]. rewrite IH; auto.
Qed.
Lemma position_find A (f : A -> bool) l n a :
  position f l = Some n -> nth_error l n = Some a -> find f l = Some a.
Proof.
  revert n. induction l as [|b l IH]; intros n; cbn; [discriminate|].
  destruct (f b); [intros [= <-]; cbn; congruence|].
  destruct (position f l) as [k|]; cbn; [|discriminate]. intros [= <-]. cbn. eauto.
Qed.
Lemma find_position A (f : A -> bool) l a :
  find f l = Some a -> exists n, position f l = Some n /\ nth_error l n = Some a.
Proof.
  induction l as [|b l IH]; cbn; [discriminate|]. destruct (f b).
  - intros [= ->]. exists 0. auto.
  - intros H. destruct (IH H) as [n [-> E]]. exists (S n). auto.
Qed.

(** The position of a name in a list of names. *)
Lemma position_eqb_inj (l : list ident) i j n :
  position (String.eqb i) l = Some n -> position (String.eqb j) l = Some n -> i = j.
Proof.
  intros H1 H2. destruct (position_some _ _ H1) as [a [E1 F1]].
  destruct (position_some _ _ H2) as [b [E2 F2]].
  apply String.eqb_eq in F1, F2. subst a b. rewrite E1 in E2. now injection E2.
Qed.
Lemma position_eqb_in (l : list ident) i : In i l -> exists n, position (String.eqb i) l = Some n.
Proof.
  intros I. destruct (position (String.eqb i) l) as [n|] eqn:E; [eauto|].
  rewrite position_none in E. specialize (E i I). now rewrite String.eqb_refl in E.
Qed.
Lemma position_eqb_some (l : list ident) i n :
  position (String.eqb i) l = Some n -> nth_error l n = Some i.
Proof.
  intros H. destruct (position_some _ _ H) as [a [E F]]. apply String.eqb_eq in F. subst a. exact E.
Qed.
Lemma position_nth (l : list ident) n i :
  NoDup l -> nth_error l n = Some i -> position (String.eqb i) l = Some n.
Proof.
  revert n. induction l as [|a l IH]; intros n ND; [now destruct n|]. cbn.
  inversion ND as [|? ? N ND']; subst. destruct n as [|n]; cbn.
  - intros [= ->]. now rewrite String.eqb_refl.
  - intros E. destruct (String.eqb_spec i a) as [->|_].
    + exfalso. apply N. eapply nth_error_In; eauto.
    + now rewrite (IH n ND' E).
Qed.

(** ** [all_some] *)
Lemma all_some_map A B (f : A -> option B) l r :
  all_some (map f l) = Some r <-> Forall2 (fun a b => f a = Some b) l r.
Proof.
  revert r. induction l as [|a l IH]; intros r; cbn.
  - split; [intros [= <-]; constructor | intros H; inversion H; reflexivity].
  - split.
    + destruct (f a) eqn:E; [|discriminate]. destruct (all_some (map f l)) as [bs|]; cbn; [|discriminate].
      intros [= <-]. constructor; [exact E|]. now apply IH.
    + intros H; inversion H as [|? b ? bs Hb Hbs]; subst. rewrite Hb. apply IH in Hbs. now rewrite Hbs.
Qed.
Lemma all_some_exists A B (f : A -> option B) l :
  (forall a, In a l -> f a <> None) -> exists r, all_some (map f l) = Some r.
Proof.
  induction l as [|a l IH]; cbn; [eauto|]. intros H.
  destruct (f a) eqn:E; [|destruct (H a (or_introl eq_refl) E)].
  destruct IH as [r ->]; [auto|]. cbn. eauto.
Qed.
Lemma all_some_length A (l : list (option A)) r : all_some l = Some r -> length r = length l.
Proof.
  revert r. induction l as [|[a|] l IH]; intros r; cbn; [intros [= <-]; reflexivity| |discriminate].
  destruct (all_some l); cbn; [|discriminate]. intros [= <-]. cbn. f_equal. auto.
Qed.

(** ** Enum values *)
Section Values.
  Variable Val : Type.
  Variable d : enum.
  Notation val := (value Val d).

  Lemma value_eq (x y : val) : tag x = tag y -> vals x = vals y -> x = y.
  Proof.
    destruct x as [t v H], y as [t' v' H']. cbn. intros -> ->. f_equal.
    apply UIP_dec. apply bool_dec.
  Qed.
  Lemma make_some n (vs : list Val) : shaped d n vs = true ->
    exists x, make d n vs = Some x /\ tag x = n /\ vals x = vs.
  Proof.
    intros H. unfold make. destruct (bool_dec (shaped d n vs) true) as [H'|N]; [|contradiction].
    eexists. split; [reflexivity|]. auto.
  Qed.
  Lemma make_inv n (vs : list Val) x : make d n vs = Some x -> tag x = n /\ vals x = vs.
  Proof.
    unfold make. destruct (bool_dec (shaped d n vs) true); [|discriminate]. intros [= <-]. auto.
  Qed.
  Lemma shaped_length n (vs vs' : list Val) :
    shaped d n vs = true -> length vs' = length vs -> shaped d n vs' = true.
  Proof.
    unfold shaped. destruct (fields_of d n); [|discriminate]. intros H E. now rewrite E.
  Qed.
  Lemma with_vals_ok (x : val) vs : length vs = length (vals x) ->
    tag (with_vals x vs) = tag x /\ vals (with_vals x vs) = vs.
  Proof.
    intros E. unfold with_vals.
    destruct (make_some (tag x) vs) as [y [-> [? ?]]]; [|auto].
    apply (shaped_length _ _ _ (shape_ok x) E).
  Qed.
  Lemma with_vals_tag (x : val) vs : tag (with_vals x vs) = tag x.
  Proof.
    unfold with_vals. destruct (make d (tag x) vs) as [y|] eqn:E; [|reflexivity].
    apply make_inv in E. tauto.
  Qed.

  Lemma set_nth_length i (v : Val) l : length (set_nth i v l) = length l.
  Proof.
    unfold set_nth. rewrite app_length, firstn_length.
    pose proof (skipn_length i l) as H. destruct (skipn i l); cbn in *; lia.
  Qed.
  Lemma set_nth_same i (v : Val) l : i < length l -> nth_error (set_nth i v l) i = Some v.
  Proof.
    revert i. induction l as [|a l IH]; intros i H; cbn in H; [lia|].
    destruct i as [|i]; cbn; [reflexivity|]. unfold set_nth in IH. apply IH. lia.
  Qed.
  Lemma set_nth_other i j (v : Val) l : i <> j -> nth_error (set_nth i v l) j = nth_error l j.
  Proof.
    revert i j. induction l as [|a l IH]; intros i j N.
    - unfold set_nth. now destruct i.
    - destruct i as [|i], j as [|j]; cbn; try reflexivity; [lia|].
      unfold set_nth in IH. apply IH. lia.
  Qed.

  Lemma set_field_tag (x : val) f v : tag (set_field x f v) = tag x.
  Proof. unfold set_field. destruct (field_index x f); [apply with_vals_tag|reflexivity]. Qed.
  Lemma field_index_tag (x y : val) f : tag x = tag y -> field_index x f = field_index y f.
  Proof. unfold field_index. now intros ->. Qed.
  Lemma field_index_lt (x : val) f i : field_index x f = Some i -> i < length (vals x).
  Proof.
    unfold field_index. pose proof (shape_ok x) as H. unfold shaped in H.
    destruct (fields_of d (tag x)) as [fs|]; [|discriminate]. apply Nat.eqb_eq in H.
    intros E. apply position_lt in E. rewrite <- H. exact E.
  Qed.
  Lemma get_field_index (x : val) f : get_field x f = None <-> field_index x f = None.
  Proof.
    unfold get_field. destruct (field_index x f) as [i|] eqn:E; [|tauto].
    apply field_index_lt in E. split; [|discriminate]. intros H. apply nth_error_None in H. lia.
  Qed.
  Lemma get_set_same (x : val) f v : get_field x f <> None -> get_field (set_field x f v) f = Some v.
  Proof.
    intros H. unfold get_field. rewrite (field_index_tag _ x f (set_field_tag _ _ _)).
    destruct (field_index x f) as [i|] eqn:E.
    - unfold set_field. rewrite E.
      destruct (with_vals_ok x (set_nth i v (vals x))) as [_ ->]; [apply set_nth_length|].
      apply set_nth_same. eapply field_index_lt; eauto.
    - exfalso. apply H. now apply get_field_index.
  Qed.
  Lemma get_set_other (x : val) f h v : f <> h -> get_field (set_field x f v) h = get_field x h.
  Proof.
    intros N. unfold get_field. rewrite (field_index_tag _ x h (set_field_tag _ _ _)).
    destruct (field_index x h) as [j|] eqn:E; [|reflexivity].
    unfold set_field. destruct (field_index x f) as [i|] eqn:E'; [|reflexivity].
    destruct (with_vals_ok x (set_nth i v (vals x))) as [_ ->]; [apply set_nth_length|].
    apply set_nth_other. intros ->. apply N.
    unfold field_index in E, E'. destruct (fields_of d (tag x)) as [fs|]; [|discriminate].
    eapply position_eqb_inj; eauto.
  Qed.

  (** Values of one variant are determined by their fields (if these are distinct). *)
  Lemma value_ext (x y : val) :
    tag x = tag y ->
    (forall fs, fields_of d (tag x) = Some fs -> NoDup fs) ->
    (forall f, get_field x f = get_field y f) -> x = y.
  Proof.
    intros T ND H. apply value_eq; [exact T|].
    pose proof (shape_ok x) as Hx. pose proof (shape_ok y) as Hy. unfold shaped in Hx, Hy.
    rewrite <- T in Hy. destruct (fields_of d (tag x)) as [fs|] eqn:E; [|discriminate].
    apply Nat.eqb_eq in Hx, Hy. specialize (ND fs eq_refl).
    assert (G : forall n, n < length fs -> nth_error (vals x) n = nth_error (vals y) n).
    { intros n L. destruct (nth_error fs n) as [f|] eqn:F; [|apply nth_error_None in F; lia].
      specialize (H f). unfold get_field, field_index in H. rewrite <- T in H. rewrite E in H.
      rewrite (@position_nth fs n f ND F) in H. exact H. }
    rewrite Hx in G, Hy. symmetry in Hy.
    clear - G Hy. revert G Hy. generalize (vals x) (vals y). intros l. induction l as [|a l IH]; intros [|b r] G E; cbn in E; try discriminate; [reflexivity|].
    assert (a = b) as <- by (specialize (G 0 ltac:(cbn; lia)); cbn in G; congruence).
    f_equal. apply IH; [|lia]. intros n L. apply (G (S n)). cbn. lia.
  Qed.
End Values.

Lemma fields_of_in (d : enum) n fs :
  fields_of d n = Some fs -> exists v, In v d /\ v_name v = n /\ map f_name (v_fields v) = fs.
Proof.
  unfold fields_of. destruct (find _ d) as [v|] eqn:E; cbn; [|discriminate]. intros [= <-].
  apply find_some in E. destruct E as [I E]. apply String.eqb_eq in E. eauto.
Qed.
Lemma find_name (d : enum) v :
  NoDup (map v_name d) -> In v d -> find (fun w => (v_name w =? v_name v)%string) d = Some v.
Proof.
  induction d as [|w d IH]; cbn; [tauto|]. intros ND I. inversion ND as [|? ? N ND']; subst.
  destruct (String.eqb_spec (v_name w) (v_name v)) as [E|NE].
  - destruct I as [->|I]; [reflexivity|]. exfalso. apply N. rewrite E. now apply in_map.
  - destruct I as [->|I]; [contradiction|]. auto.
Qed.
Lemma fields_of_variant (d : enum) v :
  NoDup (map v_name d) -> In v d -> fields_of d (v_name v) = Some (map f_name (v_fields v)).
Proof. intros ND I. unfold fields_of. now rewrite (find_name _ _ ND I). Qed.
Lemma value_variant Val d (x : value Val d) :
  exists v, In v d /\ v_name v = tag x /\ fields_of d (tag x) = Some (map f_name (v_fields v)).
Proof.
  pose proof (shape_ok x) as H. unfold shaped in H.
  destruct (fields_of d (tag x)) as [fs|] eqn:E; [|discriminate].
  destruct (fields_of_in _ _ E) as [v [I [N <-]]]. eauto.
Qed.
