(** MacroMachineProofs.v — the generated machine: its handlers, actions and superstates are
    the declared ones, and it satisfies what the theorems about the runtime assume. *)

From Coq Require Import String Ascii List Bool Arith Lia Permutation.
From Verif Require Import Machine Spec ShapeProofs.
From Verif Require Import MacroSyntax MacroVisit MacroAnalyze MacroLower MacroGen MacroSem.
From Verif Require Import MacroSpec MacroBasics MacroExpandProofs MacroLowerProofs MacroCallProofs.
Import ListNotations.
Open Scope string_scope.
Open Scope list_scope.
Set Implicit Arguments.

(** ** Lists of methods *)
Definition vname (m : impl_fn) : ident := pascal (m_name m).

Lemma select_method T (pt : impl_fn -> pattern) (cd : impl_fn -> T) ms m :
  (forall m, p_variant (pt m) = vname m) -> NoDup (map vname ms) -> In m ms ->
  select (map (fun m => (pt m, cd m)) ms) (vname m) = Some (pt m, cd m).
Proof.
  intros N. unfold select. induction ms as [|a ms IH]; cbn; [tauto|]. intros ND I.
  inversion ND as [|? ? NI ND']; subst. rewrite N.
  destruct (String.eqb_spec (vname a) (vname m)) as [E|NE].
  - destruct I as [->|I]; [reflexivity|]. exfalso. apply NI. rewrite E. now apply in_map.
  - destruct I as [->|I]; [contradiction|auto].
Qed.
Arguments select_method {T} pt cd {ms m}.
Lemma nth_error_map A B (f : A -> B) l n : nth_error (map f l) n = option_map f (nth_error l n).
Proof. revert n. induction l; intros [|n]; cbn; auto. Qed.
Lemma position_variant_nth (d : enum) n v :
  NoDup (map v_name d) -> nth_error d n = Some v ->
  position (fun w => (v_name w =? v_name v)%string) d = Some n.
Proof.
  revert n. induction d as [|w d IH]; intros n ND; [now destruct n|]. cbn.
  inversion ND as [|? ? N ND']; subst. destruct n as [|n]; cbn.
  - intros [= ->]. now rewrite String.eqb_refl.
  - intros E. destruct (String.eqb_spec (v_name w) (v_name v)) as [X|_].
    + exfalso. apply N. rewrite X. apply in_map. eapply nth_error_In; eauto.
    + now rewrite (IH n ND' E).
Qed.

(** ** Discriminants *)
Lemma discriminant_tag Val d (x y : value Val d) : discriminant x = discriminant y <-> tag x = tag y.
Proof.
  split; [|unfold discriminant; now intros ->].
  assert (Q : forall z : value Val d, exists n v, position (fun v => (v_name v =? tag z)%string) d = Some n /\
            nth_error d n = Some v /\ v_name v = tag z).
  { intros z. destruct (value_variant z) as [v [I [N _]]].
    destruct (position (fun v => (v_name v =? tag z)%string) d) as [n|] eqn:E.
    - destruct (position_some _ _ E) as [w [W1 W2]]. apply String.eqb_eq in W2. eauto.
    - rewrite position_none in E. specialize (E v I). rewrite N, String.eqb_refl in E. discriminate. }
  unfold discriminant. destruct (Q x) as [n [v [-> [E1 <-]]]]. destruct (Q y) as [k [w [-> [E2 <-]]]].
  intros ->. congruence.
Qed.

(** ** Superstates as views *)
Section Views.
  Variable Val : Type.
  Variable g : generated.
  Variable d : enum.
  Notation sup := (value Val (g_super_variants g)).
  Hypothesis fields_once : forall n fs, fields_of d n = Some fs -> NoDup fs.
  Hypothesis super_fields_once : forall n fs, fields_of (g_super_variants g) n = Some fs -> NoDup fs.

  Definition mirrors (x : value Val d) (v : sup) : Prop :=
    forall f, get_field v f <> None -> get_field v f = get_field x f.
  Lemma fields_defined d' (v : value Val d') fs f :
    fields_of d' (tag v) = Some fs -> In f fs <-> get_field v f <> None.
  Proof.
    intros H. split.
    - intros I E. apply get_field_index in E. unfold field_index in E. rewrite H in E.
      destruct (position_eqb_in _ _ I). congruence.
    - intros N. destruct (get_field v f) as [w|] eqn:E; [|contradiction]. exact (get_field_not_in _ H _ E).
  Qed.

  Lemma put_back_tag (x : value Val d) (v : sup) : tag (put_back g x v) = tag x.
  Proof.
    unfold put_back. destruct (fields_of _ (tag v)) as [fs|]; [|reflexivity]. revert x.
    induction fs as [|f fs IH]; intros x; cbn; [reflexivity|]. rewrite IH.
    destruct (get_field v f); [apply set_field_tag|reflexivity].
  Qed.
  Lemma put_back_field (x : value Val d) (v : sup) f :
    get_field (put_back g x v) f =
    match get_field v f with
    | Some w => match get_field x f with Some _ => Some w | None => None end
    | None => get_field x f
    end.
  Proof.
    unfold put_back. pose proof (shape_ok v) as SO. unfold shaped in SO.
    destruct (fields_of (g_super_variants g) (tag v)) as [fs|] eqn:FS; [|discriminate].
    assert (Q : forall l (x : value Val d),
              get_field (fold_left (fun x f => match get_field v f with Some w => set_field x f w | None => x end) l x) f =
              if existsb (String.eqb f) l then
                match get_field v f with
                | Some w => match get_field x f with Some _ => Some w | None => None end
                | None => get_field x f
                end
              else get_field x f).
    { induction l as [|h l IH]; intros y; cbn; [reflexivity|]. rewrite IH. clear IH.
      destruct (String.eqb_spec f h) as [<-|N]; cbn [orb].
      - destruct (get_field v f) as [w|] eqn:V.
        + destruct (get_field y f) eqn:Y.
          * rewrite get_set_same by congruence. now destruct (existsb (String.eqb f) l).
          * assert (set_field y f w = y) as -> by (unfold set_field; apply get_field_index in Y; now rewrite Y).
            rewrite Y. now destruct (existsb (String.eqb f) l).
        + now destruct (existsb (String.eqb f) l).
      - destruct (get_field v h); [|reflexivity]. rewrite get_set_other by congruence. reflexivity. }
    rewrite Q. destruct (existsb (String.eqb f) fs) eqn:E; [reflexivity|].
    destruct (get_field v f) as [w|] eqn:V; [|reflexivity].
    assert (In f fs) by (apply (fields_defined _ _ FS); congruence).
    apply existsb_in in H. congruence.
  Qed.

  Lemma put_same (x : value Val d) v : mirrors x v -> put_back g x v = x.
  Proof.
    intros M. apply value_ext; [apply put_back_tag| |].
    - intros fs H. exact (fields_once _ H).
    - intros f. rewrite put_back_field. specialize (M f). destruct (get_field v f) as [w|]; [|reflexivity].
      rewrite <- M by discriminate. reflexivity.
  Qed.
  Lemma put_mirrors (x : value Val d) v v' : mirrors x v -> tag v' = tag v -> mirrors (put_back g x v') v'.
  Proof.
    intros M T f N. rewrite put_back_field. destruct (get_field v' f) as [w|] eqn:E; [|contradiction].
    assert (E' : get_field v f <> None).
    { destruct (value_variant v) as [vv [_ [_ FV]]]. pose proof FV as FV'. rewrite <- T in FV'.
      apply (fields_defined _ _ FV). apply (fields_defined _ _ FV'). congruence. }
    rewrite <- (M f E'). destruct (get_field v f); [reflexivity|contradiction].
  Qed.
  Lemma put_twice (x : value Val d) v1 v2 : tag v1 = tag v2 -> put_back g (put_back g x v1) v2 = put_back g x v2.
  Proof.
    intros T. apply value_ext; [rewrite !put_back_tag; reflexivity| |].
    - intros fs H. exact (fields_once _ H).
    - intros f. rewrite !put_back_field. destruct (get_field v2 f) as [w|] eqn:E2.
      + destruct (get_field v1 f); [|reflexivity]. now destruct (get_field x f).
      + assert (get_field v1 f = None) as ->; [|reflexivity].
        destruct (get_field v1 f) as [w|] eqn:E1; [|reflexivity]. exfalso.
        destruct (value_variant v1) as [vv [_ [_ FV]]]. pose proof FV as FV'. rewrite T in FV'.
        apply (proj1 (fields_defined _ _ FV')) in E2; [exact E2|]. apply (fields_defined _ _ FV). congruence.
  Qed.
  Lemma mirrors_unique (x : value Val d) v w : mirrors x v -> mirrors x w -> tag v = tag w -> v = w.
  Proof.
    intros M1 M2 T. apply value_ext; [exact T| |].
    - intros fs H. exact (super_fields_once _ H).
    - intros f. specialize (M1 f). specialize (M2 f).
      destruct (value_variant v) as [vv [_ [_ FV]]]. pose proof FV as FV'. rewrite T in FV'.
      destruct (get_field v f) eqn:E1, (get_field w f) eqn:E2; try reflexivity.
      + rewrite M1, M2 by discriminate. reflexivity.
      + exfalso. apply (proj1 (fields_defined _ _ FV')) in E2; [exact E2|].
        apply (fields_defined _ _ FV). congruence.
      + exfalso. apply (proj1 (fields_defined _ _ FV)) in E1; [exact E1|].
        apply (fields_defined _ _ FV'). congruence.
  Qed.
End Views.

Arguments mirrors {Val g d}.
Arguments mirrors_unique {Val g d} _ {x v w}.

(** ** The machine *)
Lemma run_call_tag Val Sh Ev Cx g d A (run : ident -> list (arg Val Sh Ev Cx) -> reply A * list (arg Val Sh Ev Cx))
    F e f args (x x' : value Val d) sh sh' cx cx' r :
  run_call g run F e f args (x, sh, cx) = (r, (x', sh', cx')) -> tag x' = tag x.
Proof.
  unfold run_call. destruct (all_some _) as [sls|]; [|intros [= _ <- _ _]; reflexivity].
  destruct (all_some _) as [as_|]; [|intros [= _ <- _ _]; reflexivity].
  destruct (run f as_) as [r0 l]. intros [= _ E].
  pose proof (write_all_tag sls (x, sh, cx) l) as T. rewrite E in T. exact T.
Qed.

Section Generated.
  Variables Val Sh Ev Cx : Type.
  Variables (args : list meta) (item : item_impl) (g : generated) (c : config).
  Variables sms ums : list impl_fn.
  Hypothesis ND : NoDup (map m_name (methods item)).
  Hypothesis X : expanded args item g c sms ums.
  Hypothesis CO : compiles g.
  Variable B : bodies Val Sh Ev Cx g.
  Notation M := (generated_machine B).
  Notation state := (value Val (g_state_variants g)).
  Notation sup := (value Val (g_super_variants g)).

  Lemma state_names : NoDup (map vname sms).
  Proof.
    pose proof (co_state_variants CO) as H. rewrite (ex_state_variants X), map_map in H. exact H.
  Qed.
  Lemma super_names : NoDup (map vname ums).
  Proof.
    pose proof (co_super_variants CO) as H. rewrite (ex_super_variants X), map_map in H. exact H.
  Qed.
  Lemma in_sms m : In m sms <-> In m (methods item) /\ marked "state" m = true.
  Proof.
    rewrite <- filter_In. split; apply Permutation_in; [apply Permutation_sym|]; apply (ex_states X).
  Qed.
  Lemma in_ums m : In m ums <-> In m (methods item) /\ marked "superstate" m = true.
  Proof.
    rewrite <- filter_In. split; apply Permutation_in; [apply Permutation_sym|]; apply (ex_supers X).
  Qed.

  Lemma state_fields_of m : In m sms ->
    fields_of (g_state_variants g) (vname m) = Some (map f_name (state_fields c m)).
  Proof.
    intros I. assert (J : In (state_variant c m) (g_state_variants g)) by
      (rewrite (ex_state_variants X); now apply in_map).
    exact (@fields_of_variant (g_state_variants g) (state_variant c m) (co_state_variants CO) J).
  Qed.
  Lemma super_fields_of m : In m ums ->
    fields_of (g_super_variants g) (vname m) = Some (map f_name (super_fields c m)).
  Proof.
    intros I. assert (J : In (super_variant c m) (g_super_variants g)) by
      (rewrite (ex_super_variants X); now apply in_map).
    exact (@fields_of_variant (g_super_variants g) (super_variant c m) (co_super_variants CO) J).
  Qed.
  Arguments state_fields_of {m}.
  Arguments super_fields_of {m}.
  Lemma state_method (x : state) : exists m, In m sms /\ tag x = vname m.
  Proof.
    destruct (value_variant x) as [v [I [N _]]]. rewrite (ex_state_variants X) in I.
    apply in_map_iff in I. destruct I as [m [<- I]]. exists m. split; [exact I|]. symmetry. exact N.
  Qed.
  Lemma super_method (u : sup) : exists m, In m ums /\ tag u = vname m.
  Proof.
    destruct (value_variant u) as [v [I [N _]]]. rewrite (ex_super_variants X) in I.
    apply in_map_iff in I. destruct I as [m [<- I]]. exists m. split; [exact I|]. symmetry. exact N.
  Qed.

  Lemma state_fields_once n fs : fields_of (g_state_variants g) n = Some fs -> NoDup fs.
  Proof.
    intros H. destruct (fields_of_in _ _ H) as [v [I [_ <-]]]. apply (co_fields CO).
    apply in_or_app. auto.
  Qed.
  Lemma super_fields_once' n fs : fields_of (g_super_variants g) n = Some fs -> NoDup fs.
  Proof.
    intros H. destruct (fields_of_in _ _ H) as [v [I [_ <-]]]. apply (co_fields CO).
    apply in_or_app. auto.
  Qed.

  Lemma find_method_in kind u m : find_method item kind u = Some m ->
    In m (methods item) /\ marked kind m = true /\ m_name m = u.
  Proof.
    intros H. apply find_some in H. destruct H as [I E]. apply filter_In in I. apply String.eqb_eq in E. tauto.
  Qed.
  Arguments find_method_in {kind u m}.
  Lemma find_method_some kind m : In m (methods item) -> marked kind m = true ->
    find_method item kind (m_name m) = Some m.
  Proof.
    intros I K. unfold find_method. assert (J : In m (filter (marked kind) (methods item))) by (apply filter_In; auto).
    pose proof (filter_names_nodup (marked kind) _ ND) as N. revert J N.
    generalize (filter (marked kind) (methods item)) as l. induction l as [|a l IH]; cbn; [tauto|].
    intros J N. inversion N as [|? ? N1 N2]; subst.
    destruct (String.eqb_spec (m_name a) (m_name m)) as [E|NE].
    - destruct J as [->|J]; [reflexivity|]. exfalso. apply N1. rewrite E. now apply in_map.
    - destruct J as [->|J]; [contradiction|auto].
  Qed.

  (** *** Superstates *)
  Lemma run_super_spec d (ms : list impl_fn) (pt : impl_fn -> pattern) kind (x : value Val d) m :
    (forall m, p_variant (pt m) = vname m) -> NoDup (map vname ms) -> In m ms -> tag x = vname m ->
    fields_of d (vname m) = Some (p_fields (pt m)) ->
    resolved item kind m ->
    (forall p q, In (p, Some q) (map (fun m => (pt m, super_link c item (declared kind "superstate" m))) ms) ->
       forall i, In i (p_fields q) -> In i (p_fields p)) ->
    let r := run_superstate g (map (fun m => (pt m, super_link c item (declared kind "superstate" m))) ms) x in
    match declared kind "superstate" m with
    | None => r = None
    | Some u => exists mu v, find_method item "superstate" u = Some mu /\ r = Some v /\
                  tag v = vname mu /\ mirrors x v /\
                  super_link c item (declared kind "superstate" m) = Some (super_pattern c mu)
    end.
  Proof.
    intros PN NDn I T FO RE OK. cbn. unfold run_superstate.
    rewrite T, (select_method pt _ PN NDn I).
    destruct (declared kind "superstate" m) as [u|] eqn:DE; cbn; [|reflexivity].
    destruct (re_super RE DE) as [mu FM]. rewrite FM. cbn.
    destruct (find_method_in FM) as [Iu [Ku Nu]].
    assert (Iu' : In mu ums) by (apply in_ums; auto).
    change (pascal (m_name mu)) with (vname mu). rewrite (super_fields_of Iu').
    assert (SL : super_link c item (declared kind "superstate" m) = Some (super_pattern c mu)).
    { rewrite DE. cbn. now rewrite FM. }
    assert (OKm : forall i, In i (map f_name (super_fields c mu)) -> In i (p_fields (pt m))).
    { intros i Ii. apply (OK (pt m) (super_pattern c mu)); [|exact Ii]. apply in_map_iff. exists m.
      split; [|exact I]. now rewrite SL. }
    rewrite <- T in FO.
    assert (Q : exists vs, all_some (map (get_field x) (map f_name (super_fields c mu))) = Some vs).
    { apply all_some_exists. intros f If. apply (fields_defined _ _ FO). auto. }
    destruct Q as [vs Q]. rewrite Q.
    assert (SH : shaped (g_super_variants g) (vname mu) vs = true).
    { unfold shaped. rewrite (super_fields_of Iu'). apply all_some_length in Q. rewrite map_length in Q.
      apply Nat.eqb_eq. symmetry. exact Q. }
    destruct (make_some _ _ _ SH) as [v [MK [T1 V1]]]. rewrite MK.
    exists mu, v. split; [reflexivity|]. split; [reflexivity|]. split; [exact T1|]. split; [|reflexivity].
    intros f Nf. unfold get_field at 1. unfold field_index. rewrite T1, (super_fields_of Iu'), V1.
    destruct (position (String.eqb f) (map f_name (super_fields c mu))) as [n|] eqn:P.
    - apply all_some_map in Q. pose proof (position_eqb_some _ _ P) as NE. clear - Q NE.
      revert n NE. induction Q as [|a b l r E _ IH]; intros [|n] NE; cbn in *; try discriminate.
      + injection NE as ->. congruence.
      + auto.
    - exfalso. apply Nf. unfold get_field, field_index. rewrite T1, (super_fields_of Iu'), P. reflexivity.
  Qed.

  Theorem state_super m (x : state) : In m sms -> tag x = vname m ->
    match declared "state" "superstate" m with
    | None => s_super M x = None
    | Some u => exists mu v, find_method item "superstate" u = Some mu /\ s_super M x = Some v /\
                  tag v = vname mu /\ mirrors x v /\
                  super_link c item (declared "state" "superstate" m) = Some (super_pattern c mu)
    end.
  Proof.
    intros I T. cbn. rewrite (ex_state_arms X). cbn [superstate_arms].
    apply (@run_super_spec _ sms (state_pattern c) "state" x m); auto.
    - exact state_names.
    - exact (state_fields_of I).
    - exact (ex_state_resolved X _ I).
    - pose proof (co_state_arms CO) as [_ [_ [_ A]]]. rewrite (ex_state_arms X) in A. exact A.
  Qed.
  Theorem super_super m (u : sup) : In m ums -> tag u = vname m ->
    match declared "superstate" "superstate" m with
    | None => u_super M u = None
    | Some w => exists mu v, find_method item "superstate" w = Some mu /\ u_super M u = Some v /\
                  tag v = vname mu /\ mirrors u v /\
                  super_link c item (declared "superstate" "superstate" m) = Some (super_pattern c mu)
    end.
  Proof.
    intros I T. cbn. rewrite (ex_super_arms X). cbn [superstate_arms].
    apply (@run_super_spec _ ums (super_pattern c) "superstate" u m); auto.
    - exact super_names.
    - exact (super_fields_of I).
    - exact (ex_super_resolved X _ I).
    - pose proof (co_super_arms CO) as [_ [_ [_ A]]]. rewrite (ex_super_arms X) in A. exact A.
  Qed.

  Lemma state_super_some (x : state) v : s_super M x = Some v ->
    exists m u mu, In m sms /\ tag x = vname m /\ declared "state" "superstate" m = Some u /\
      find_method item "superstate" u = Some mu /\ tag v = vname mu /\ mirrors x v.
  Proof.
    intros E. destruct (state_method x) as [m [I T]]. pose proof (@state_super m x I T) as S.
    destruct (declared "state" "superstate" m) as [u|] eqn:DE; [|congruence].
    destruct S as [mu [w [F [W [Tw [Mw _]]]]]]. rewrite E in W. injection W as <-.
    exists m, u, mu. auto 10.
  Qed.
  Lemma super_super_some (x : sup) v : u_super M x = Some v ->
    exists m u mu, In m ums /\ tag x = vname m /\ declared "superstate" "superstate" m = Some u /\
      find_method item "superstate" u = Some mu /\ tag v = vname mu /\ mirrors x v.
  Proof.
    intros E. destruct (super_method x) as [m [I T]]. pose proof (@super_super m x I T) as S.
    destruct (declared "superstate" "superstate" m) as [u|] eqn:DE; [|congruence].
    destruct S as [mu [w [F [W [Tw [Mw _]]]]]]. rewrite E in W. injection W as <-.
    exists m, u, mu. auto 10.
  Qed.

  (** *** Views *)
  Theorem generated_views : faithful_views M.
  Proof.
    assert (K : forall v v' : sup, u_disc M v' = u_disc M v -> tag v' = tag v).
    { intros v v'. cbn. apply discriminant_tag. }
    constructor.
    - intros x v E. destruct (@state_super_some x v E) as (m & u & mu & _ & _ & _ & _ & _ & MI).
      apply put_same; [exact state_fields_once|exact MI].
    - intros x v v' E D. destruct (@state_super_some x v E) as (m & u & mu & I & T & DE & FM & Tv & MI).
      assert (T' : tag (put_back g x v') = vname m) by (rewrite put_back_tag; exact T).
      pose proof (@state_super m _ I T') as S. rewrite DE in S. destruct S as (mu' & w & FM' & W & Tw & MW & _).
      change (s_put M x v') with (put_back g x v'). rewrite W. f_equal.
      rewrite FM in FM'. injection FM' as <-.
      apply (mirrors_unique super_fields_once' MW); [|rewrite (K _ _ D); congruence].
      exact (@put_mirrors Val g _ x v v' MI (K _ _ D)).
    - intros x v v1 v2 E D1 D2. apply put_twice; [exact state_fields_once|].
      rewrite (K _ _ D1), (K _ _ D2). reflexivity.
    - intros x v E. destruct (@super_super_some x v E) as (m & u & mu & _ & _ & _ & _ & _ & MI).
      apply put_same; [exact super_fields_once'|exact MI].
    - intros x v v' E D. destruct (@super_super_some x v E) as (m & u & mu & I & T & DE & FM & Tv & MI).
      assert (T' : tag (put_back g x v') = vname m) by (rewrite put_back_tag; exact T).
      pose proof (@super_super m _ I T') as S. rewrite DE in S. destruct S as (mu' & w & FM' & W & Tw & MW & _).
      change (u_put M x v') with (put_back g x v'). rewrite W. f_equal.
      rewrite FM in FM'. injection FM' as <-.
      apply (mirrors_unique super_fields_once' MW); [|rewrite (K _ _ D); congruence].
      exact (@put_mirrors Val g _ x v v' MI (K _ _ D)).
    - intros x v v1 v2 E D1 D2. apply put_twice; [exact super_fields_once'|].
      rewrite (K _ _ D1), (K _ _ D2). reflexivity.
  Qed.

  (** *** Callbacks keep the variant *)
  Lemma run_handler_tag d arms (x x' : value Val d) sh sh' cx cx' e r :
    run_handler B arms x sh cx e = (r, x', sh', cx') -> tag x' = tag x.
  Proof.
    unfold run_handler. destruct (select arms (tag x)) as [[p [|t f as_ aw]]|].
    - intros [= _ <- _ _]. reflexivity.
    - destruct (run_call _ _ _ _ _ _ _) as [r0 [[y sh0] cx0]] eqn:E. intros [= _ <- _ _].
      exact (run_call_tag _ _ _ _ _ _ _ _ _ E).
    - intros [= _ <- _ _]. reflexivity.
  Qed.
  Lemma run_action_tag d arms (x x' : value Val d) sh sh' cx cx' r :
    run_action B arms x sh cx = (r, x', sh', cx') -> tag x' = tag x.
  Proof.
    unfold run_action. destruct (select arms (tag x)) as [[p [|t f as_ aw]]|].
    - intros [= _ <- _ _]. reflexivity.
    - destruct (run_call _ _ _ _ _ _ _) as [r0 [[y sh0] cx0]] eqn:E. intros [= _ <- _ _].
      exact (run_call_tag _ _ _ _ _ _ _ _ _ E).
    - intros [= _ <- _ _]. reflexivity.
  Qed.
  Theorem generated_stable : stable M.
  Proof.
    constructor.
    - intros x sh cx e r x' sh' cx' H. apply discriminant_tag. exact (run_handler_tag _ _ _ _ _ H).
    - intros x sh cx r x' sh' cx' H. apply discriminant_tag. exact (run_action_tag _ _ _ _ H).
    - intros x sh cx r x' sh' cx' H. apply discriminant_tag. exact (run_action_tag _ _ _ _ H).
    - intros x sh cx e r x' sh' cx' H. apply discriminant_tag. exact (run_handler_tag _ _ _ _ _ H).
    - intros x sh cx r x' sh' cx' H. apply discriminant_tag. exact (run_action_tag _ _ _ _ H).
    - intros x sh cx r x' sh' cx' H. apply discriminant_tag. exact (run_action_tag _ _ _ _ H).
  Qed.

  (** *** The hierarchy *)
  Definition arm_parent (arms : list (pattern * option pattern)) (n : nat) : option nat :=
    match nth_error arms n with
    | Some (_, Some q) => position (fun v => (v_name v =? p_variant q)%string) (g_super_variants g)
    | _ => None
    end.
  Definition generated_hierarchy : hierarchy := {|
    leaf_parent := arm_parent (superstate_arms (g_state_arms g));
    sup_parent := arm_parent (superstate_arms (g_super_arms g))
  |}.

  Lemma disc_nth d ms (var : impl_fn -> variant) (x : value Val d) :
    d = map var ms -> (forall m, v_name (var m) = vname m) -> NoDup (map vname ms) ->
    forall m, In m ms -> tag x = vname m -> nth_error ms (discriminant x) = Some m.
  Proof.
    intros -> N NDn m I T. destruct (In_nth_error _ _ I) as [n E].
    assert (P : position (fun v => (v_name v =? tag x)%string) (map var ms) = Some n).
    { rewrite T, <- (N m). apply position_variant_nth.
      - rewrite map_map. erewrite map_ext; [exact NDn|exact N].
      - rewrite nth_error_map, E. reflexivity. }
    unfold discriminant. rewrite P. exact E.
  Qed.
  Lemma state_disc m (x : state) : In m sms -> tag x = vname m -> nth_error sms (discriminant x) = Some m.
  Proof. intros I T. apply (@disc_nth _ sms (state_variant c) x (ex_state_variants X)); auto. exact state_names. Qed.
  Lemma super_disc m (x : sup) : In m ums -> tag x = vname m -> nth_error ums (discriminant x) = Some m.
  Proof. intros I T. apply (@disc_nth _ ums (super_variant c) x (ex_super_variants X)); auto. exact super_names. Qed.

  Lemma disc_position (v : sup) mu : In mu ums -> tag v = vname mu ->
    position (fun w => (v_name w =? vname mu)%string) (g_super_variants g) = Some (discriminant v).
  Proof.
    intros I T. pose proof (@super_disc mu v I T) as E. change (vname mu) with (v_name (super_variant c mu)).
    apply position_variant_nth; [apply CO|]. revert E. generalize (discriminant v). intros n E.
    rewrite (ex_super_variants X), nth_error_map, E. reflexivity.
  Qed.

  Theorem generated_follows : follows generated_hierarchy M.
  Proof.
    constructor.
    - intros x. destruct (state_method x) as [m [I T]]. pose proof (@state_super m x I T) as S.
      pose proof (@state_disc m x I T) as D. unfold generated_hierarchy, arm_parent. cbn [leaf_parent].
      rewrite (ex_state_arms X). cbn [superstate_arms s_disc generated_machine].
      rewrite nth_error_map, D. cbn [option_map].
      destruct (declared "state" "superstate" m) as [u|] eqn:DE.
      + destruct S as (mu & v & FM & SV & TV & _ & SL). rewrite SV, SL. cbn.
        destruct (find_method_in FM) as [Iu [Ku _]]. symmetry. apply disc_position; [|exact TV].
        apply in_ums; auto.
      + rewrite S. reflexivity.
    - intros x. destruct (super_method x) as [m [I T]]. pose proof (@super_super m x I T) as S.
      pose proof (@super_disc m x I T) as D. unfold generated_hierarchy, arm_parent. cbn [sup_parent].
      rewrite (ex_super_arms X). cbn [superstate_arms u_disc generated_machine].
      rewrite nth_error_map, D. cbn [option_map].
      destruct (declared "superstate" "superstate" m) as [u|] eqn:DE.
      + destruct S as (mu & v & FM & SV & TV & _ & SL). rewrite SV, SL. cbn.
        destruct (find_method_in FM) as [Iu [Ku _]]. symmetry. apply disc_position; [|exact TV].
        apply in_ums; auto.
      + rewrite S. reflexivity.
    - intros x v v' _ _. apply discriminant_tag. apply put_back_tag.
    - intros x v v' _ _. apply discriminant_tag. apply put_back_tag.
  Qed.

  (** *** Height *)
  Lemma sup_parent_spec i j : sup_parent generated_hierarchy i = Some j ->
    exists m u mu, nth_error ums i = Some m /\ declared "superstate" "superstate" m = Some u /\
      nth_error ums j = Some mu /\ m_name mu = u.
  Proof.
    unfold generated_hierarchy, arm_parent. cbn [sup_parent]. rewrite (ex_super_arms X). cbn [superstate_arms].
    rewrite nth_error_map. destruct (nth_error ums i) as [m|] eqn:E; cbn [option_map]; [|discriminate].
    destruct (declared "superstate" "superstate" m) as [u|] eqn:DE; cbn; [|discriminate].
    destruct (find_method item "superstate" u) as [mu|] eqn:FM; cbn; [|discriminate].
    intros P. exists m, u, mu. repeat split; auto.
    - destruct (find_method_in FM) as [Iu [Ku _]]. assert (Iu' : In mu ums) by (apply in_ums; auto).
      destruct (In_nth_error _ _ Iu') as [n En].
      assert (P' : position (fun v => (v_name v =? pascal (m_name mu))%string) (g_super_variants g) = Some n).
      { apply (@position_variant_nth (g_super_variants g) n (super_variant c mu)); [apply CO|].
        rewrite (ex_super_variants X), nth_error_map, En. reflexivity. }
      rewrite P in P'. injection P' as ->. exact En.
    - apply (find_method_in FM).
  Qed.

  Lemma pigeonhole (l : list nat) n : NoDup l -> (forall i, In i l -> i < n) -> length l <= n.
  Proof.
    intros N H. rewrite <- (seq_length n 0). apply NoDup_incl_length; [exact N|].
    intros i I. apply in_seq. specialize (H i I). lia.
  Qed.

  Lemma chain_exists : acyclic item -> forall k seen i,
    k + length seen = length ums -> NoDup seen -> (forall j, In j seen -> j < length ums) ->
    i < length ums ->
    (forall rank : ident -> nat,
       (forall m u, In m (methods item) -> marked "superstate" m = true ->
          declared "superstate" "superstate" m = Some u -> rank (m_name m) < rank u) ->
       forall j mj mi, In j seen -> nth_error ums j = Some mj -> nth_error ums i = Some mi ->
         rank (m_name mj) < rank (m_name mi)) ->
    exists l, chain generated_hierarchy (Some i) l /\ length l <= k.
  Proof.
    intros [rank R]. induction k as [|k IH]; intros seen i L NDs Hs Hi Hr.
    - exfalso. assert (~ In i seen).
      { intros I. destruct (nth_error ums i) as [mi|] eqn:E; [|apply nth_error_None in E; lia].
        specialize (Hr rank R i mi mi I E eq_refl). lia. }
      pose proof (@pigeonhole (i :: seen) (length ums)) as P. cbn in P.
      assert (S (length seen) <= length ums); [|lia]. apply P; [constructor; auto|].
      intros j [<-|I]; auto.
    - destruct (sup_parent generated_hierarchy i) as [j|] eqn:E.
      + destruct (@sup_parent_spec i j E) as (m & u & mu & Em & DE & Eu & Nu).
        assert (Im : In m ums) by (eapply nth_error_In; eauto). apply in_ums in Im. destruct Im as [Im Km].
        destruct (IH (i :: seen) j) as [l [C Ll]].
        * cbn. lia.
        * constructor; [|exact NDs]. intros I. specialize (Hr rank R i m m I Em Em). lia.
        * intros j' [<-|I]; auto.
        * apply nth_error_Some. congruence.
        * intros rank' R' j' mj mi I Ej Ei. rewrite Eu in Ei. injection Ei as <-.
          specialize (R' m u Im Km DE) as R1. rewrite Nu. destruct I as [<-|I].
          -- rewrite Em in Ej. injection Ej as <-. exact R1.
          -- specialize (Hr rank' R' j' mj m I Ej Em). lia.
        * exists (i :: l). split; [constructor; rewrite E; exact C|]. cbn. lia.
      + exists [i]. split; [constructor; rewrite E; constructor|]. cbn. lia.
  Qed.

  Theorem generated_height : acyclic item -> height_at_most (Nat.max 1 (length ums)) generated_hierarchy.
  Proof.
    intros A i. destruct (Nat.lt_ge_cases i (length ums)) as [L|L].
    - destruct (@chain_exists A (length ums) [] i) as [l [C Ll]]; auto.
      + constructor.
      + intros j [].
      + intros rank _ j mj mi [].
      + exists l. split; [exact C|]. exact (Nat.le_trans _ _ _ Ll (Nat.le_max_r _ _)).
    - exists [i]. split; [|exact (Nat.le_max_l _ _)]. constructor.
      replace (sup_parent generated_hierarchy i) with (@None nat); [constructor|].
      unfold generated_hierarchy, arm_parent. cbn [sup_parent]. rewrite (ex_super_arms X). cbn [superstate_arms].
      rewrite nth_error_map. apply nth_error_None in L. now rewrite L.
  Qed.
End Generated.
