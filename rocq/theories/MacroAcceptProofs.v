(** MacroAcceptProofs.v — which impl blocks the macro accepts, and when it panics (C48). *)

From Coq Require Import String Ascii List Bool Arith Lia Permutation.
From Verif Require Import Machine MacroSyntax MacroVisit MacroAnalyze MacroLower MacroGen MacroSem.
From Verif Require Import MacroSpec MacroAcceptSpec MacroBasics MacroExpandProofs MacroLowerProofs MacroMachineProofs.
From Verif Require Import MacroBehaviour MacroConfigProofs MacroArgProofs MacroTypeProofs.
Import ListNotations.
Open Scope string_scope.
Open Scope list_scope.
Set Implicit Arguments.

(** [verdict P C e]: [e] succeeds if and only if [P]; if it crashes then because of [C]. *)
Definition verdict {A} (P C : Prop) (e : expansion A) : Prop :=
  match e with
  | Done _ => P
  | Rejected _ => ~ P
  | Crashed _ => ~ P /\ C
  end.

Lemma v_iff A (P Q C : Prop) (e : expansion A) : verdict P C e -> (P <-> Q) -> verdict Q C e.
Proof. destruct e; cbn; tauto. Qed.
Lemma v_bind A B (P Q C : Prop) (e : expansion A) (k : A -> expansion B) :
  verdict P C e -> (forall a, e = Done a -> P -> verdict Q C (k a)) -> verdict (P /\ Q) C (ebind e k).
Proof.
  intros V K. destruct e as [a| |]; cbn in *; [|tauto|tauto].
  specialize (K a eq_refl V). destruct (k a); cbn in *; tauto.
Qed.
Lemma v_bind_left A B (P C : Prop) (e : expansion A) (k : A -> expansion B) :
  verdict P C e -> (forall a, e = Done a -> exists b, k a = Done b) -> verdict P C (ebind e k).
Proof.
  intros V K. destruct e as [a| |]; cbn in *; [|exact V|exact V].
  destruct (K a eq_refl) as [b ->]. exact V.
Qed.
Lemma v_efold A S (P : A -> Prop) C (f : S -> A -> expansion S) l : forall s,
  (forall s a, In a l -> verdict (P a) C (f s a)) ->
  verdict (forall a, In a l -> P a) C (efold f s l).
Proof.
  induction l as [|a l IH]; intros s H; cbn; [intros a []|].
  eapply v_iff; [apply v_bind; [apply H; now left|]|].
  - intros s' _ _. apply (IH s'). intros t b I. apply H. now right.
  - split; [intros [A1 A2] b [<-|I]; auto|]. intros A1. split; auto.
Qed.
Lemma v_emap A B (P : A -> Prop) C (f : A -> expansion B) l :
  (forall a, In a l -> verdict (P a) C (f a)) -> verdict (forall a, In a l -> P a) C (emap f l).
Proof.
  induction l as [|a l IH]; intros H; cbn; [intros a []|].
  eapply v_iff; [apply v_bind; [apply H; now left|]|].
  - intros s' _ _. apply v_bind_left; [apply IH; intros b I; apply H; now right|]. eauto.
  - split; [intros [A1 A2] b [<-|I]; auto|]. intros A1. split; auto.
Qed.

(** ** The arguments of `#[state_machine]` *)
Lemma v_parsed A (parse : lit_str -> option A) msg a key C :
  is_ident (meta_path a) key = true -> verdict (sets parse key a) C (parsed parse msg a).
Proof.
  intros K. apply is_ident_eq in K. unfold parsed.
  destruct a as [p|p t|p [s|]]; cbn in *; try (intros (s' & v & D & _); discriminate).
  subst p. destruct (parse s) eqn:E; cbn.
  - exists s, a. auto.
  - intros (s' & v & D & F). injection D as <-. congruence.
Qed.
Lemma sets_path A (parse : lit_str -> option A) key a : sets parse key a -> meta_path a = [key].
Proof. intros (s & v & -> & _). reflexivity. Qed.
Lemma proper_keys a : proper_argument a -> key_in known_keys a.
Proof.
  unfold key_in, known_keys. intros H. repeat destruct H as [H|H];
    try (apply sets_path in H; rewrite H; eexists; split; [|apply String.eqb_refl]; cbn; tauto).
  all: destruct H as [t ->]; eexists; (split; [|apply String.eqb_refl]); cbn; tauto.
Qed.

Ltac wrong_key K := let H := fresh in
  intros H; repeat destruct H as [H|H];
  first [ apply sets_path in H | destruct H as [? ->]; cbn in K | idtac ]; congruence.

Lemma v_setting C t a : verdict (proper_argument a) C (setting t a).
Proof.
  destruct t as [i e c bt at_ bd ad v sm um]. unfold setting.
  assert (Q : forall (A : Type) (parse : lit_str -> option A) key msg (k : A -> settings),
            is_ident (meta_path a) key = true ->
            (sets parse key a <-> proper_argument a) ->
            verdict (proper_argument a) C (ebind (parsed parse msg a) (fun x => Done (k x)))).
  { intros A parse key msg k K E. eapply v_iff; [|exact E]. apply v_bind_left; [now apply v_parsed|eauto]. }
  assert (L : forall key msg (k : tokens -> settings),
            is_ident (meta_path a) key = true ->
            ((exists t, a = MetaList [key] t) <-> proper_argument a) ->
            verdict (proper_argument a) C (ebind (require_list msg a) (fun x => Done (k x)))).
  { intros key msg k K E. eapply v_iff; [|exact E]. apply v_bind_left; [|eauto].
    apply is_ident_eq in K. destruct a as [p|p t|p v']; cbn in *; try (intros [? ?]; discriminate).
    subst p. eauto. }
  repeat match goal with
  | |- context [if is_ident (meta_path a) ?key then _ else _] =>
      let K := fresh "K" in destruct (is_ident (meta_path a) key) eqn:K;
      [ clear - Q L K;
        first [ eapply Q; [exact K|] | eapply L; [exact K|] ];
        apply is_ident_eq in K; unfold proper_argument; split;
        [ tauto
        | intros H; repeat destruct H as [H|H];
          first [ exact H
                | exfalso; apply sets_path in H; rewrite H in K; discriminate
                | exfalso; destruct H as [? ->]; discriminate ] ]
      | ]
  end.
  cbn. intros H. apply proper_keys in H. destruct H as [k [I E]]. cbn in I.
  repeat destruct I as [<-|I]; congruence.
Qed.
Lemma v_enum_setting C nd a : verdict (proper_enum_argument a) C (enum_setting nd a).
Proof.
  unfold enum_setting. destruct (is_ident (meta_path a) "name") eqn:K1.
  { eapply v_iff; [apply v_bind_left; [apply (@v_parsed _ as_ident _ a "name" C K1)|eauto]|].
    unfold proper_enum_argument. split; [tauto|]. intros [H|(l & s & ps & ->)]; [exact H|discriminate]. }
  destruct (is_ident (meta_path a) "derive") eqn:K2.
  - apply is_ident_eq in K2. destruct a as [p|p [ms ss [ps|]]|p v]; cbn in K2 |- *; subst; cbn in *.
    + intros [H|(l & s & q & D)]; [apply sets_path in H; discriminate|discriminate].
    + right. eauto.
    + intros [H|(l & s & q & D)]; [apply sets_path in H; discriminate|discriminate].
    + intros [H|(l & s & q & D)]; [apply sets_path in H; discriminate|discriminate].
  - cbn. intros [H|(l & s & q & ->)]; [apply sets_path in H; rewrite H in K1; discriminate|discriminate].
Qed.
Lemma v_enum C d key args :
  verdict (proper_contents key args) C (enum_settings d (or_else (last_of (tokens_at key) args) no_tokens)).
Proof.
  unfold enum_settings, proper_contents. change (contents key) with (tokens_at key).
  destruct (last_of (tokens_at key) args) as [t|]; cbn.
  - destruct t as [[l|] s p]; cbn.
    + eapply v_iff; [apply v_efold; intros nd a _; apply v_enum_setting|]. split.
      * intros H t [= <-]. eauto 10.
      * intros H. destruct (H _ eq_refl) as (l' & s' & p' & [= <- <- <-] & K). exact K.
    + intros H. destruct (H _ eq_refl) as (l' & s' & p' & D & K). discriminate.
  - intros t D. discriminate.
Qed.

Section Item.
  Variable args : list meta.
  Variable item : item_impl.
  Let cause := panic_cause item.

  Definition config_ok : Prop :=
    (exists p l, i_self item = TPath p l) /\ (forall a, In a args -> proper_argument a) /\
    (exists a, In a args /\ sets as_expr "initial" a) /\
    proper_contents "state" args /\ proper_contents "superstate" args.

  Lemma initial_found t : efold setting default_settings args = Done t ->
    (t_initial t <> None <-> exists a, In a args /\ sets as_expr "initial" a).
  Proof.
    intros H. pose proof (@settings_seen _ _ _ H) as S. rewrite (se_initial S). cbn. rewrite override_none.
    assert (P : forall a, In a args -> proper_argument a).
    { assert (V : verdict (forall a, In a args -> proper_argument a) True (efold setting default_settings args))
        by (apply v_efold; intros; apply v_setting). rewrite H in V. exact V. }
    clear H S t. unfold last_value. induction args as [|a l IH]; cbn.
    - split; [congruence|]. intros (a & [] & _).
    - assert (IH' := IH (fun b I => P b (or_intror I))). clear IH.
      destruct (last_of (value_at as_expr "initial") l) as [e|].
      + split; [|discriminate]. intros _. destruct (proj1 IH') as (b & I & K); [discriminate|]. eauto.
      + assert (Q : ~ exists a, In a l /\ sets as_expr "initial" a) by (intros X; now apply (proj2 IH' X)).
        split.
        * intros N. exists a. split; [now left|]. unfold value_at in N.
          destruct a as [p|p t|p [s|]]; try congruence. destruct (is_ident p "initial") eqn:K; [|congruence].
          apply is_ident_eq in K. subst p. destruct (as_expr s) eqn:E; [|congruence]. exists s, e. auto.
        * intros (b & [<-|I] & K); [|exfalso; eauto]. destruct K as (s & v & -> & E). cbn. congruence.
  Qed.

  Lemma v_config : verdict config_ok cause (analyze_state_machine args item).
  Proof.
    unfold analyze_state_machine, config_ok. apply v_bind.
    - destruct (i_self item) as [l m e|p l|s l] eqn:E; cbn.
      + split; [intros (p & a & D); discriminate|]. apply pc_self. intros p a. rewrite E. discriminate.
      + eauto.
      + split; [intros (p & a & D); discriminate|]. apply pc_self. intros p a. rewrite E. discriminate.
    - intros p _ _. apply v_bind; [apply v_efold; intros; apply v_setting|].
      intros t T _. pose proof (initial_found T) as IN. pose proof (@settings_seen _ _ _ T) as S.
      destruct (t_initial t) as [ini|].
      + eapply v_iff.
        * rewrite (se_state S), (se_super S). cbn [t_state_meta t_super_meta default_settings].
          apply v_bind; [apply v_enum|]. intros [si sd] _ _. apply v_bind_left; [apply v_enum|].
          intros [ui ud] _. eauto.
        * assert (X : exists a, In a args /\ sets as_expr "initial" a) by (apply IN; discriminate). tauto.
      + cbn. intros [X _]. apply IN in X. now apply X.
  Qed.
End Item.

(** ** Methods *)
Lemma v_argument C w a : verdict (known_argument a = true -> well_formed_argument a) C (argument w a).
Proof.
  destruct w as [su en ex st]. unfold argument.
  assert (Q : forall key msg (k : ident -> relations_of),
            is_ident (meta_path a) key = true -> In key ["superstate"; "entry_action"; "exit_action"] ->
            verdict (known_argument a = true -> well_formed_argument a) C
                    (ebind (parsed as_ident msg a) (fun x => Done (k x)))).
  { intros key msg k K I. eapply v_iff; [apply v_bind_left; [apply (@v_parsed _ as_ident msg a key C K)|eauto]|].
    apply is_ident_eq in K.
    assert (N : is_ident (meta_path a) "local_storage" = false).
    { rewrite K. cbn in I. repeat destruct I as [<-|I]; try reflexivity. destruct I. }
    unfold known_argument, well_formed_argument. rewrite N, K. split.
    - intros (s & i & -> & E) _. eauto.
    - intros H. destruct H as (p & s & i & -> & E).
      + cbn. cbn in I. repeat destruct I as [<-|I]; try reflexivity. destruct I.
      + cbn in K. subst p. exists s, i. auto. }
  destruct (is_ident (meta_path a) "superstate") eqn:K1; [eapply Q; [exact K1|cbn; tauto]|].
  destruct (is_ident (meta_path a) "entry_action") eqn:K2; [eapply Q; [exact K2|cbn; tauto]|].
  destruct (is_ident (meta_path a) "exit_action") eqn:K3; [eapply Q; [exact K3|cbn; tauto]|].
  destruct (is_ident (meta_path a) "local_storage") eqn:K4.
  - unfold known_argument, well_formed_argument. cbn [existsb]. rewrite K1, K2, K3, K4. cbn [orb].
    destruct a as [p|p [ms [ss|] ps]|p v]; cbn in *.
    + intros H. destruct (H eq_refl) as (p' & l & q & ss & fs & D & _). discriminate.
    + eapply v_iff.
      * apply v_bind_left; [|eauto].
        apply (@v_emap _ _ (fun s => exists f, as_field s = Some f) C). intros s _. unfold storage_field.
        destruct (as_field s); cbn; [eauto|]. intros [f D]. discriminate.
      * split.
        -- intros H _. exists p, ms, ps, ss. clear - H. induction ss as [|s ss IH].
           ++ exists []. split; [reflexivity|constructor].
           ++ destruct IH as (fs & _ & F); [intros; apply H; now right|].
              destruct (H s (or_introl eq_refl)) as [f E]. exists (f :: fs). split; [reflexivity|]. now constructor.
        -- intros H. destruct (H eq_refl) as (p' & l & q & ss' & fs & D & F). injection D as <- <- <- <-.
           intros s I. destruct (Forall2_in_left F I) as [f [_ E]]. eauto.
    + intros H. destruct (H eq_refl) as (p' & l & q & ss & fs & D & _). discriminate.
    + intros H. destruct (H eq_refl) as (p' & l & q & ss & fs & D & _). discriminate.
  - cbn. unfold known_argument. cbn. rewrite K1, K2, K3, K4. cbn. discriminate.
Qed.
Lemma v_arguments C kind m :
  verdict (forall a, In a (arguments_of kind m) -> known_argument a = true -> well_formed_argument a) C
          (arguments (get_meta (m_attrs m) kind)).
Proof. unfold arguments. rewrite get_meta_arguments. apply v_efold. intros w a _. apply v_argument. Qed.

(** What `analyze` checks about patterns. *)
Definition simple_param (a : fn_arg) : Prop :=
  match a with
  | Receiver => True
  | Typed pt => (exists i, pt_pat pt = PatIdent i) \/ pt_pat pt = PatReference
  end.
Definition default_ok (ev cx : ident) (a : fn_arg) : Prop :=
  match a with
  | Receiver => True
  | Typed pt => forall i d, pt_pat pt = PatIdent i -> i <> ev -> i <> cx ->
      find is_default (pt_attrs pt) = Some d ->
      (exists p, d = MetaPath p) \/ (exists p s e, d = MetaNameValue p (VStr s) /\ as_expr s = Some e)
  end.
Lemma v_analyze_default C i d :
  verdict ((exists p, d = MetaPath p) \/ (exists p s e, d = MetaNameValue p (VStr s) /\ as_expr s = Some e)) C
          (analyze_default i d).
Proof.
  destruct d as [p|p t|p [s|]]; cbn.
  - left. eauto.
  - intros [[q D]|(q & s & e & D & _)]; discriminate.
  - destruct (as_expr s) eqn:E; cbn.
    + right. eauto.
    + intros [[q D]|(q & s' & e & D & F)]; [discriminate|]. injection D as <- <-. congruence.
  - intros [[q D]|(q & s & e & D & _)]; discriminate.
Qed.
Lemma v_state_input C ev cx k a : verdict (simple_param a /\ default_ok ev cx a) C (state_input ev cx k a).
Proof.
  destruct k as [ins ds sts e c]. unfold state_input. destruct a as [|pt]; [cbn; auto|].
  unfold simple_param, default_ok. destruct (pt_pat pt) as [i| | | | | |] eqn:P; cbn.
  - destruct (String.eqb_spec ev i) as [->|N1].
    { cbn. split; [eauto|]. intros j d E0 M1 M2; exfalso; congruence. }
    destruct (String.eqb_spec cx i) as [->|N2].
    { cbn. split; [eauto|]. intros j d E0 M1 M2; exfalso; congruence. }
    destruct (position is_default (pt_attrs pt)) as [n|] eqn:Q.
    + destruct (nth_error (pt_attrs pt) n) as [d|] eqn:N.
      * pose proof (position_find _ _ Q N) as F.
        eapply v_iff; [apply v_bind_left; [apply v_analyze_default|eauto]|]. split.
        -- intros H. split; [eauto|]. intros j d1 _ _ _ E. rewrite F in E. injection E as <-. exact H.
        -- intros [_ H]. apply (H i d); auto.
      * exfalso. apply position_lt in Q. apply nth_error_None in N. lia.
    + cbn. split; [eauto|]. intros j d _ _ _ F. destruct (find_position _ _ F) as [n [Y _]]. congruence.
  - split; [auto|]. intros; discriminate.
  - intros [[[i D]|D] _]; discriminate.
  - intros [[[i D]|D] _]; discriminate.
  - intros [[[i D]|D] _]; discriminate.
  - intros [[[i D]|D] _]; discriminate.
  - intros [[[i D]|D] _]; discriminate.
Qed.
Lemma v_super_input C ev cx k a : verdict (simple_param a) C (super_input ev cx k a).
Proof.
  destruct k as [ins ds sts e c]. unfold super_input. destruct a as [|pt]; [cbn; auto|].
  unfold simple_param. destruct (pt_pat pt) as [i| | | | | |] eqn:P; cbn.
  - destruct (ev =? i); [cbn; eauto|]. destruct (cx =? i); cbn; eauto.
  - auto.
  - intros [[i D]|D]; discriminate.
  - intros [[i D]|D]; discriminate.
  - intros [[i D]|D]; discriminate.
  - intros [[i D]|D]; discriminate.
  - intros [[i D]|D]; discriminate.
Qed.

(** The part of the checks that `analyze` does for one method. *)
Definition simple (m : impl_fn) : Prop := forall a, In a (m_inputs m) -> simple_param a.
Record state_ok (ev cx : ident) (m : impl_fn) : Prop := StateOk {
  ok_generics : m_generics m = [];
  ok_simple : simple m;
  ok_defaults : forall a, In a (m_inputs m) -> default_ok ev cx a;
  ok_arguments : fine "state" m
}.
Record super_ok (m : impl_fn) : Prop := SuperOk {
  ok_generics' : m_generics m = [];
  ok_simple' : simple m;
  ok_arguments' : fine "superstate" m
}.
Lemma v_analyze_state C m c : verdict (state_ok (c_event_ident c) (c_context_ident c) m) C (analyze_state m c).
Proof.
  unfold analyze_state. destruct (m_generics m) as [|g gs] eqn:G.
  - eapply v_iff.
    + apply v_bind; [apply v_efold; intros k a _; apply v_state_input|].
      intros k _ _. apply v_bind_left; [apply v_arguments|]. eauto.
    + split.
      * intros [A B]. constructor; [exact G|intros a I; now apply A|intros a I; now apply A|exact B].
      * intros [A1 A2 A3 A4]. split; [intros a I; split; auto|exact A4].
  - cbn. intros []. congruence.
Qed.
Lemma v_analyze_superstate C m c : verdict (super_ok m) C (analyze_superstate m c).
Proof.
  unfold analyze_superstate. destruct (m_generics m) as [|g gs] eqn:G.
  - eapply v_iff.
    + apply v_bind; [apply v_efold; intros k a _; apply v_super_input|].
      intros k _ _. apply v_bind_left; [apply v_arguments|]. eauto.
    + split.
      * intros [A B]. constructor; auto.
      * intros [A1 A2 A3]. split; auto.
  - cbn. intros []. congruence.
Qed.
Lemma v_analyze_action C m : verdict (m_generics m = []) C (analyze_action m).
Proof. unfold analyze_action. destruct (m_generics m); cbn; [reflexivity|discriminate]. Qed.

Lemma stripped_simple m m1 : stripped m m1 -> (simple m1 <-> simple m).
Proof.
  intros S. pose proof (st_inputs S) as F. split; intros H a I.
  - destruct (Forall2_in_left F I) as [b [J Q]]. specialize (H b J). destruct a, b; cbn in *; try tauto.
    destruct Q as [E _]. rewrite E. exact H.
  - destruct (Forall2_in_right F I) as [b [J Q]]. specialize (H b J). destruct a, b; cbn in *; try tauto.
    destruct Q as [E _]. rewrite <- E. exact H.
Qed.
Lemma stripped_super_ok m m1 : stripped m m1 -> (super_ok m1 <-> super_ok m).
Proof.
  intros S. pose proof (stripped_simple S) as SI.
  assert (A : arguments_of "superstate" m1 = arguments_of "superstate" m) by (unfold arguments_of; now rewrite (st_attrs S)).
  pose proof (st_generics S) as G.
  split; intros [B1 B2 B3]; (constructor; [congruence|tauto|]); unfold fine in *; rewrite A in *; exact B3.
Qed.

Definition once (attrs : list meta) : Prop :=
  forall before a between b after, attrs = before ++ a :: between ++ b :: after ->
    ~ (is_ident (meta_path a) "state" = true /\ is_ident (meta_path b) "state" = true).
Lemma once_tail a l : once (a :: l) -> once l.
Proof. intros O before x between y after ->. exact (O (a :: before) x between y after eq_refl). Qed.
Lemma once_head a l : once (a :: l) -> is_ident (meta_path a) "state" = true ->
  forall b, In b l -> is_ident (meta_path b) "state" = false.
Proof.
  intros O K b I. destruct (is_ident (meta_path b) "state") eqn:E; [|reflexivity]. exfalso.
  apply in_split in I. destruct I as (l1 & l2 & ->). exact (O [] a l1 b l2 eq_refl (conj K E)).
Qed.

Definition attr_ok (ev cx : ident) (m : impl_fn) (a : meta) : Prop :=
  (is_ident (meta_path a) "state" = true -> state_ok ev cx m) /\
  (is_ident (meta_path a) "superstate" = true -> super_ok m) /\
  (is_ident (meta_path a) "action" = true -> m_generics m = []).
Definition method_ok (ev cx : ident) (m : impl_fn) : Prop :=
  (marked "state" m = true -> state_ok ev cx m) /\
  (marked "superstate" m = true -> super_ok m) /\
  (marked "action" m = true -> m_generics m = []).
Lemma v_attributes C c m attrs : forall f m1,
  stripped m m1 -> once attrs ->
  (m1 = m \/ forall b, In b attrs -> is_ident (meta_path b) "state" = false) ->
  verdict (forall a, In a attrs -> attr_ok (c_event_ident c) (c_context_ident c) m a) C
          (efold (attribute c) (f, m1) (map meta_path attrs)).
Proof.
  induction attrs as [|a attrs IH]; intros f m1 S O D; cbn; [intros a []|].
  eapply v_iff; [apply v_bind with (P := attr_ok (c_event_ident c) (c_context_ident c) m a)
     (Q := forall b, In b attrs -> attr_ok (c_event_ident c) (c_context_ident c) m b)|].
  - unfold attribute, attr_ok. destruct f as [ss us acts].
    destruct (is_ident (meta_path a) "state") eqn:X1.
    { assert (m1 = m) as -> by (destruct D as [D|D]; [exact D|rewrite (D a (or_introl eq_refl)) in X1; discriminate]).
      eapply v_iff; [apply v_bind_left; [apply v_analyze_state|intros [s m2] _; eauto]|].
      apply is_ident_eq in X1. rewrite X1. cbn. split; [|tauto].
      intros H. split; [auto|]. split; discriminate. }
    destruct (is_ident (meta_path a) "superstate") eqn:X2.
    { eapply v_iff; [apply v_bind_left; [apply v_analyze_superstate|eauto]|].
      rewrite (stripped_super_ok S). apply is_ident_eq in X2. rewrite X2. cbn. split; [|tauto].
      intros H. split; [discriminate|]. split; [auto|discriminate]. }
    destruct (is_ident (meta_path a) "action") eqn:X3.
    { eapply v_iff; [apply v_bind_left; [apply v_analyze_action|eauto]|]. rewrite (st_generics S).
      split; [|tauto]. intros H. split; [discriminate|]. split; [discriminate|auto]. }
    cbn. split; [discriminate|]. split; discriminate.
  - intros [f1 m2] E _. apply IH; [|exact (once_tail O)|].
    + destruct f as [ss us acts]. unfold attribute in E.
      destruct (is_ident (meta_path a) "state").
      { destruct (ebind_done _ _ E) as [[s m3] [A B]]. injection B as _ <-.
        exact (proj2 (@analyze_state_done c m m1 s m3 S A)). }
      destruct (is_ident (meta_path a) "superstate").
      { destruct (ebind_done _ _ E) as [u [A B]]. injection B as _ <-. exact S. }
      destruct (is_ident (meta_path a) "action").
      { destruct (ebind_done _ _ E) as [u [A B]]. injection B as _ <-. exact S. }
      injection E as _ <-. exact S.
    + destruct (is_ident (meta_path a) "state") eqn:X1; [right; exact (once_head O X1)|].
      destruct D as [->|D]; [left|right; intros b I; apply D; now right].
      destruct f as [ss us acts]. unfold attribute in E.
      destruct (is_ident (meta_path a) "superstate").
      { destruct (ebind_done _ _ E) as [u [A B]]. now injection B as _ <-. }
      destruct (is_ident (meta_path a) "action").
      { destruct (ebind_done _ _ E) as [u [A B]]. now injection B as _ <-. }
      now injection E as _ <-.
  - split; [intros [A B] b [<-|I]; auto|]. intros A. split; auto.
Qed.
Lemma v_method C c f m : once (m_attrs m) ->
  verdict (method_ok (c_event_ident c) (c_context_ident c) m) C (analyze_method c f m).
Proof.
  intros O. unfold analyze_method. eapply v_iff; [apply (@v_attributes C c m); [apply stripped_refl|exact O|now left]|].
  unfold method_ok, attr_ok, marked. split.
  - intros H. split; [|split]; intros K; apply existsb_exists in K; destruct K as (a & I & K); apply (H a I); exact K.
  - intros (A & B & D) a I. split; [|split]; intros K; [apply A|apply B|apply D]; apply existsb_exists; eauto.
Qed.
Lemma v_items C c items : (forall m, In m (method_list items) -> once (m_attrs m)) -> forall f,
  verdict (forall m, In m (method_list items) -> method_ok (c_event_ident c) (c_context_ident c) m) C
          (analyze_items c f items).
Proof.
  induction items as [|[m|t] items IH]; intros O f; cbn; [intros m []| |].
  - eapply v_iff; [apply v_bind; [apply v_method; apply O; now left|]|].
    + intros [f1 m1] _ _. apply v_bind_left; [apply IH; intros m' I; apply O; now right|]. intros [f2 r] _. eauto.
    + split; [intros [A B] m' [<-|I]; auto|]. intros A. split; auto.
  - apply v_bind_left; [apply IH; exact O|]. intros [f1 r] _. eauto.
Qed.

(** ** `lower` *)
Lemma has_char_in c s : has_char c s = true <-> In c (list_ascii_of_string s).
Proof.
  induction s as [|d s IH]; cbn; [split; [discriminate|tauto]|]. rewrite orb_true_iff, IH, Ascii.eqb_eq.
  split; intros [H|H]; auto.
Qed.
Lemma v_variant (C : Prop) s : (~ good_variant (camel_case true s) -> C) ->
  verdict (good_variant (camel_case true s)) C (variant_ident s).
Proof.
  intros H. unfold variant_ident. rewrite pascal_camel. unfold good_variant in *.
  set (v := camel_case true s) in *. clearbody v.
  assert (Q : forall (A : Type) msg, ~ (exists c rest, v = String c rest /\ is_number c = false /\
              ~ In "#"%char (list_ascii_of_string v) /\ v <> "Self") -> verdict (exists c rest, v = String c rest /\ is_number c = false /\
              ~ In "#"%char (list_ascii_of_string v) /\ v <> "Self") C (@Crashed A msg)).
  { intros A msg N. cbn. auto. }
  destruct v as [|c w]; [apply Q; intros (c & r & D & _); discriminate|].
  destruct (is_digit c) eqn:E1.
  { apply Q. intros (c' & r & D & N & _). injection D as <- <-. unfold is_digit in E1. unfold is_number in N. congruence. }
  destruct (has_char "#" (String c w)) eqn:E2.
  { apply Q. intros (c' & r & D & N & I & _). apply I, has_char_in, E2. }
  destruct (String.eqb_spec (String c w) "Self") as [E3|E3].
  { apply Q. intros (c' & r & D & N & I & M). contradiction. }
  cbn [verdict]. exists c, w. split; [reflexivity|]. split; [exact E1|]. split; [|exact E3].
  intros I. apply has_char_in in I. congruence.
Qed.

Lemma v_fn_args (C : Prop) l :
  (forall pt, In (Typed pt) l -> (forall i, pt_pat pt <> PatIdent i) -> C) ->
  verdict (forall pt, In (Typed pt) l -> exists i, pt_pat pt = PatIdent i) C (emap fn_arg_to_ident l).
Proof.
  intros H. eapply v_iff.
  - apply (@v_emap _ _ (fun a => forall pt, a = Typed pt -> exists i, pt_pat pt = PatIdent i) C).
    intros a I. destruct a as [|pt]; cbn; [intros; discriminate|].
    destruct (pt_pat pt) as [i| | | | | |] eqn:P; cbn; try (intros q [= <-]; eauto; fail).
    all: split; [intros K; destruct (K pt eq_refl) as [i D]; congruence|].
    all: apply (H pt I); intros i; congruence.
  - split; [intros K pt I; exact (K _ I pt eq_refl)|]. intros K a I pt ->. auto.
Qed.
Definition ref (t : ty) : Prop := exists l mu e, t = TReference l mu e.
Lemma v_to_field (C : Prop) pt t : ((forall i, pt_pat pt <> PatIdent i) -> C) ->
  verdict (exists i, pt_pat pt = PatIdent i) C (to_field pt t).
Proof.
  intros H. unfold to_field. destruct (pt_pat pt) eqn:P; cbn; eauto.
  all: split; [intros [i D]; discriminate|]. all: apply H; intros i; discriminate.
Qed.
Lemma v_state_fields (C : Prop) l : (forall pt, In pt l -> (forall i, pt_pat pt <> PatIdent i) -> C) ->
  verdict (forall pt, In pt l -> ref (pt_ty pt) /\ exists i, pt_pat pt = PatIdent i) C (emap fn_arg_to_state_field l).
Proof.
  intros H. apply v_emap. intros pt I. unfold fn_arg_to_state_field.
  destruct (pt_ty pt) as [q mu t| |] eqn:T; cbn.
  - eapply v_iff; [apply v_to_field; exact (H pt I)|]. split; [|tauto]. intros K. split; [|exact K]. now exists q, mu, t.
  - intros [(? & ? & ? & D) _]. discriminate.
  - intros [(? & ? & ? & D) _]. discriminate.
Qed.
Lemma v_super_fields (C : Prop) l : (forall pt, In pt l -> (forall i, pt_pat pt <> PatIdent i) -> C) ->
  verdict (forall pt, In pt l -> ref (pt_ty pt) /\ exists i, pt_pat pt = PatIdent i) C (emap fn_arg_to_superstate_field l).
Proof.
  intros H. apply v_emap. intros pt I. unfold fn_arg_to_superstate_field.
  destruct (pt_ty pt) as [q mu t| |] eqn:T; cbn.
  - eapply v_iff; [apply v_to_field; exact (H pt I)|]. split; [|tauto]. intros K. split; [|exact K]. now exists q, mu, t.
  - intros [(? & ? & ? & D) _]. discriminate.
  - intros [(? & ? & ? & D) _]. discriminate.
Qed.

Lemma field_param_in ev cx a pt : In pt (field_param ev cx a) -> a = Typed pt.
Proof.
  destruct a as [|q]; cbn; [tauto|]. destruct (pt_pat q); cbn; try tauto.
  - destruct (ev =? i); cbn; [tauto|]. destruct (cx =? i); cbn; [tauto|]. intros [->|[]]. reflexivity.
  - intros [->|[]]. reflexivity.
Qed.
Lemma field_params_in c m pt : In pt (field_params c m) -> In (Typed pt) (m_inputs m).
Proof.
  unfold field_params. intros I. apply in_flat_map in I. destruct I as (a & J & K).
  apply field_param_in in K. now subst a.
Qed.

(** What `lower` checks for one handler. *)
Record lowers (c : config) (m : impl_fn) : Prop := Lowers {
  lw_variant : good_variant (variant_of m);
  lw_reference : fields_by_reference c m;
  lw_names : by_name m
}.
Section Lower.
  Variable item : item_impl.
  Let cause := panic_cause item.
  Variable c : config.

  Lemma simple_reference m pt : simple m -> In (Typed pt) (m_inputs m) -> (forall i, pt_pat pt <> PatIdent i) ->
    pt_pat pt = PatReference.
  Proof. intros S I N. destruct (S _ I) as [[i E]|E]; [elim (N i E)|exact E]. Qed.

  Lemma same_typed_fields (F : list fn_arg) m : Forall2 same_param (m_inputs m) F ->
    (forall pt, In pt (flat_map (field_param (c_event_ident c) (c_context_ident c)) F) ->
        exists pt', In pt' (field_params c m) /\ pt_pat pt' = pt_pat pt /\ pt_ty pt' = pt_ty pt) /\
    (forall pt', In pt' (field_params c m) ->
        exists pt, In pt (flat_map (field_param (c_event_ident c) (c_context_ident c)) F) /\
                   pt_pat pt' = pt_pat pt /\ pt_ty pt' = pt_ty pt).
  Proof.
    intros S. pose proof (same_field_params (c_event_ident c) (c_context_ident c) S) as T. split; intros pt I.
    - destruct (Forall2_in_right T I) as [p [J (A & B & _)]]. exists p. auto.
    - destruct (Forall2_in_left T I) as [p [J (A & B & _)]]. exists p. auto.
  Qed.

  Lemma v_lower_state m s : is_handler item m -> simple m -> state_found c m s ->
    verdict (lowers c m) cause (lower_state c s).
  Proof.
    intros H S [m1 [SI _]]. unfold lower_state. rewrite (si_name SI), (si_inputs SI).
    destruct (si_state_inputs SI) as [ins [S' [D1 _]]]. rewrite D1.
    pose proof (st_inputs (si_stripped SI)) as S1.
    destruct (@same_typed_fields _ m (same_params_trans S1 S')) as [T1 T2].
    eapply v_iff.
    - apply v_bind; [apply v_variant; intros N; exact (pc_variant H N)|]. intros name _ _.
      apply v_bind.
      + apply v_state_fields. intros pt I N. destruct (T1 pt I) as (pt' & I' & P & _).
        apply field_params_in in I'. apply (pc_reference_pattern pt' H I'). apply (@simple_reference m _ S I').
        intros i. rewrite P. apply N.
      + intros f0 _ _. apply v_bind_left; [|eauto].
        apply v_fn_args. intros pt I N. destruct (Forall2_in_right S1 I) as [[|pt'] [J Q]]; [destruct Q|].
        destruct Q as [P _]. apply (pc_reference_pattern pt' H J). apply (@simple_reference m _ S J).
        intros i. rewrite P. apply N.
    - destruct (same_params_idents S1) as [J1 J2]. split.
      + intros (A & B & D). constructor; [exact A| |exact (J2 D)].
        intros pt I. destruct (T2 pt I) as (q & Iq & _ & Ty). rewrite Ty. apply (B q Iq).
      + intros [A B D]. split; [exact A|]. split.
        * intros pt I. destruct (T1 pt I) as (q & Iq & P & Ty). rewrite <- P, <- Ty. split; [exact (B q Iq)|].
          apply D. exact (field_params_in _ _ _ Iq).
        * intros pt I. destruct (Forall2_in_right S1 I) as [[|pt'] [J Q]]; [destruct Q|].
          destruct Q as [P _]. rewrite <- P. exact (D pt' J).
  Qed.
  Lemma v_lower_super m s : is_handler item m -> simple m -> super_info c m s ->
    verdict (lowers c m) cause (lower_superstate c s).
  Proof.
    intros H S SI. unfold lower_superstate. rewrite (ui_name SI), (ui_state_inputs SI).
    pose proof (ui_inputs SI) as S1.
    destruct (@same_typed_fields _ m S1) as [T1 T2].
    eapply v_iff.
    - apply v_bind; [apply v_variant; intros N; exact (pc_variant H N)|]. intros name _ _.
      apply v_bind.
      + apply v_super_fields. intros pt I N. destruct (T1 pt I) as (pt' & I' & P & _).
        apply field_params_in in I'. apply (pc_reference_pattern pt' H I'). apply (@simple_reference m _ S I').
        intros i. rewrite P. apply N.
      + intros f0 _ _. apply v_bind_left; [|eauto].
        apply v_fn_args. intros pt I N. destruct (Forall2_in_right S1 I) as [[|pt'] [J Q]]; [destruct Q|].
        destruct Q as [P _]. apply (pc_reference_pattern pt' H J). apply (@simple_reference m _ S J).
        intros i. rewrite P. apply N.
    - destruct (same_params_idents S1) as [J1 J2]. split.
      + intros (A & B & D). constructor; [exact A| |exact (J2 D)].
        intros pt I. destruct (T2 pt I) as (q & Iq & _ & Ty). rewrite Ty. apply (B q Iq).
      + intros [A B D]. split; [exact A|]. split.
        * intros pt I. destruct (T1 pt I) as (q & Iq & P & Ty). rewrite <- P, <- Ty. split; [exact (B q Iq)|].
          apply D. exact (field_params_in _ _ _ Iq).
        * intros pt I. destruct (Forall2_in_right S1 I) as [[|pt'] [J Q]]; [destruct Q|].
          destruct Q as [P _]. rewrite <- P. exact (D pt' J).
  Qed.
  Lemma v_lower_action m a : In m (methods item) -> marked "action" m = true -> action_info m a ->
    verdict (by_name m) cause (lower_action c a).
  Proof.
    intros I0 M AI. unfold lower_action. pose proof (ai_inputs AI) as S1. eapply v_iff.
    - apply v_bind_left; [|eauto]. apply v_fn_args. intros pt I N.
      destruct (Forall2_in_right S1 I) as [[|pt'] [J Q]]; [destruct Q|]. destruct Q as [P _].
      apply (@pc_action_pattern item m pt' I0 M J). intros i. rewrite P. apply N.
    - destruct (same_params_idents S1) as [J1 J2]. split; [exact J2|]. intros D pt I.
      destruct (Forall2_in_right S1 I) as [[|pt'] [J Q]]; [destruct Q|]. destruct Q as [P _]. rewrite <- P. exact (D pt' J).
  Qed.
End Lower.

Lemma v_hm_map T U (R : impl_fn -> T -> Prop) (Q : impl_fn -> Prop) C ms h o (f : T -> expansion U) :
  entries R ms h -> (forall m t, In m ms -> R m t -> verdict (Q m) C (f t)) ->
  verdict (forall m, In m ms -> Q m) C (hm_map o f h).
Proof.
  intros F H. unfold hm_map. destruct (entries_arrange o F) as [ms' [Pm F']].
  assert (H' : forall m t, In m ms' -> R m t -> verdict (Q m) C (f t)).
  { intros m t I. apply H. exact (Permutation_in _ (Permutation_sym Pm) I). }
  eapply v_iff with (P := forall m, In m ms' -> Q m).
  2:{ split; intros K m I; apply K; [exact (Permutation_in _ Pm I)|exact (Permutation_in _ (Permutation_sym Pm) I)]. }
  clear H F Pm ms. revert H'. induction F' as [|m [k t] ms' h' [K Pm] _ IH]; intros H; cbn; [intros m []|].
  eapply v_iff; [apply v_bind; [apply v_bind_left; [apply (H m t (or_introl eq_refl) Pm)|eauto]|]|].
  - intros kv _ _. apply v_bind_left; [apply IH; intros m' t' I; apply H; now right|eauto].
  - split; [intros [A B] m' [<-|I]; auto|]. intros A. split; [apply A; now left|]. intros m1 I. apply A. now right.
Qed.
Lemma v_link T U (R : impl_fn -> T -> Prop) (Q : impl_fn -> Prop) C ms h (f : ident -> T -> expansion U) :
  entries R ms h -> (forall m t, In m ms -> R m t -> verdict (Q m) C (f (m_name m) t)) ->
  verdict (forall m, In m ms -> Q m) C (emap (fun kv => do s <- f (fst kv) (snd kv); Done (fst kv, s)) h).
Proof.
  intros F H. induction F as [|m [k t] ms h [K Pm] _ IH]; cbn; [intros m []|]. cbn in K, Pm. subst k.
  eapply v_iff; [apply v_bind; [apply v_bind_left; [apply (H m t (or_introl eq_refl) Pm)|eauto]|]|].
  - intros kv _ _. apply v_bind_left; [apply IH; intros m' t' I; apply H; now right|eauto].
  - split; [intros [A B] m' [<-|I]; auto|]. intros A. split; [apply A; now left|]. intros m' I. apply A. now right.
Qed.

(** Everything the handler refers to exists. *)
Record links (item : item_impl) (kind : ident) (m : impl_fn) : Prop := Links {
  lk_superstate : forall u, declared kind "superstate" m = Some u -> exists_method item "superstate" u;
  lk_entry : forall a, declared kind "entry_action" m = Some a -> exists_method item "action" a;
  lk_exit : forall a, declared kind "exit_action" m = Some a -> exists_method item "action" a
}.
Section Links.
  Variables (c : config) (item : item_impl) (mo : model) (C : Prop).
  Hypothesis ND : NoDup (map m_name (methods item)).
  Variables (actions : hash_map l_action) (supers : hash_map l_super).
  Variables ams ums : list impl_fn.
  Hypothesis PA : Permutation (filter (marked "action") (methods item)) ams.
  Hypothesis EA : entries (fun m l => l = call_of c m /\ idents_only m) ams actions.
  Hypothesis PU : Permutation (filter (marked "superstate") (methods item)) ums.
  Hypothesis EU : entries (super_pre c) ums supers.

  Lemma get_exists T (P : impl_fn -> T -> Prop) kind ms h key :
    Permutation (filter (marked kind) (methods item)) ms -> entries P ms h ->
    (hm_get key h <> None <-> exists_method item kind key).
  Proof.
    intros Pm F. split.
    - intros N. destruct (hm_get key h) as [t|] eqn:G; [|congruence].
      destruct (entries_find _ F G) as [m [Fm _]]. apply find_some in Fm. destruct Fm as [I E].
      apply (Permutation_in _ (Permutation_sym Pm)) in I. apply filter_In in I. apply String.eqb_eq in E.
      exists m. tauto.
    - intros (m & I & M & <-). assert (J : In m ms) by (apply (Permutation_in _ Pm), filter_In; auto).
      destruct (@entries_lookup _ _ _ _ m (Permutation_NoDup (Permutation_map m_name Pm) (filter_names_nodup _ _ ND)) F J)
        as [t [G _]]. congruence.
  Qed.
  Lemma v_link_action a old msg :
    verdict (forall x, a = Some x -> exists_method item "action" x) C (link_action actions a old msg).
  Proof.
    unfold link_action. destruct a as [x|]; [|cbn; intros; discriminate].
    pose proof (@get_exists _ _ "action" ams actions x PA EA) as G. destruct (hm_get x actions); cbn.
    - intros y [= <-]. apply G. discriminate.
    - intros H. apply (proj2 G (H x eq_refl)). reflexivity.
  Qed.
  Lemma v_link_super a old :
    verdict (forall x, a = Some x -> exists_method item "superstate" x) C (link_super supers a old).
  Proof.
    unfold link_super. destruct a as [x|]; [|cbn; intros; discriminate].
    pose proof (@get_exists _ _ "superstate" ums supers x PU EU) as G. destruct (hm_get x supers); cbn.
    - intros y [= <-]. apply G. discriminate.
    - intros H. apply (proj2 G (H x eq_refl)). reflexivity.
  Qed.
  Lemma v_link_state m s l0 : hm_get (m_name m) (mo_states mo) = Some s -> state_found c m s ->
    verdict (links item "state" m) C (link_state mo supers actions (m_name m) l0).
  Proof.
    intros G [m1 [SI _]]. unfold link_state. rewrite G, (si_super SI), (si_entry SI), (si_exit SI). eapply v_iff.
    - apply v_bind; [apply v_link_super|]. intros su _ _. apply v_bind; [apply v_link_action|].
      intros en _ _. apply v_bind_left; [apply v_link_action|eauto].
    - split; [intros (A & B & D); now constructor|intros []; auto].
  Qed.
  Lemma v_link_superstate m s l0 : hm_get (m_name m) (mo_supers mo) = Some s -> super_info c m s ->
    verdict (links item "superstate" m) C (link_superstate mo supers actions (m_name m) l0).
  Proof.
    intros G SI. unfold link_superstate. rewrite G, (ui_super SI), (ui_entry SI), (ui_exit SI). eapply v_iff.
    - apply v_bind; [apply v_link_super|]. intros su _ _. apply v_bind; [apply v_link_action|].
      intros en _ _. apply v_bind_left; [apply v_link_action|eauto].
    - split; [intros (A & B & D); now constructor|intros []; auto].
  Qed.
End Links.

(** Event and context types. *)
Definition named_by_reference (n : ident) (m : impl_fn) : Prop := forall t, takes m n t -> ref t.
Lemma takes_unique m n t t' : NoDup (parameter_names m) -> takes m n t -> takes m n t' -> t = t'.
Proof.
  unfold parameter_names, takes. intros ND [at1 I1] [at2 I2]. revert ND I1 I2.
  induction (m_inputs m) as [|a l IH]; cbn; [tauto|]. intros ND I1 I2.
  assert (K : forall at0 t0, In (Typed (PatType at0 (PatIdent n) t0)) l ->
     In n (flat_map (fun p => match p with Typed (PatType _ (PatIdent i) _) => [i] | _ => [] end) l)).
  { intros at0 t0 I. apply in_flat_map. eexists. split; [exact I|]. now left. }
  destruct I1 as [->|I1], I2 as [E2|I2].
  - congruence.
  - cbn in ND. inversion ND as [|? ? N _]. elim N. eauto.
  - subst a. cbn in ND. inversion ND as [|? ? N _]. elim N. eauto.
  - apply IH; auto. destruct a as [|[? [] ?]]; cbn in ND; auto. now inversion ND.
Qed.
Lemma v_find_type C n msg old m pt : NoDup (parameter_names m) -> reads n m pt ->
  verdict (named_by_reference n m) C (find_type n msg old pt).
Proof.
  intros ND R. unfold find_type, named_by_reference. destruct pt as [pt|]; cbn in R.
  - destruct R as [K P]. rewrite P, String.eqb_refl. unfold referenced.
    destruct (pt_ty pt) as [l mu e|p l|s l]; cbn.
    + intros t K'. rewrite (takes_unique ND K' K). now exists l, mu, e.
    + intros H. destruct (H _ K) as (? & ? & ? & D). discriminate.
    + intros H. destruct (H _ K) as (? & ? & ? & D). discriminate.
  - cbn. intros t K. elim (R t K).
Qed.
Definition types_ok (c : config) (m : impl_fn) : Prop :=
  named_by_reference (c_event_ident c) m /\
  (c_event_ident c <> c_context_ident c -> named_by_reference (c_context_ident c) m).
Lemma v_find_types C c T (ev_of cx_of : T -> option pat_type) (as_of : T -> bool) ms (h : list T) :
  Forall2 (fun m s => reads (c_event_ident c) m (ev_of s) /\
             (c_event_ident c <> c_context_ident c -> reads (c_context_ident c) m (cx_of s)) /\
             (c_event_ident c = c_context_ident c -> cx_of s = None)) ms h ->
  (forall m, In m ms -> NoDup (parameter_names m)) ->
  forall x, verdict (forall m, In m ms -> types_ok c m) C
                    (efold (find_types c) x (map (fun s => (ev_of s, cx_of s, as_of s)) h)).
Proof.
  induction 1 as [|m s ms h (R1 & R2 & R3) _ IH]; intros ND x; cbn; [intros m []|].
  pose proof (ND m (or_introl eq_refl)) as NDm.
  eapply v_iff; [apply v_bind with (P := types_ok c m)|].
  - unfold types_ok. apply v_bind; [apply v_find_type; auto|]. intros e _ _.
    apply v_bind_left; [|eauto].
    destruct (string_dec (c_event_ident c) (c_context_ident c)) as [E|N].
    + rewrite (R3 E). cbn. intros D. contradiction.
    + eapply v_iff; [apply v_find_type; [exact NDm|exact (R2 N)]|]. tauto.
  - intros x1 _ _. apply IH. intros m' I. apply ND. now right.
  - split; [intros [A B] m' [<-|I]; auto|]. intros A. split; [apply A; now left|]. intros m' I. apply A. now right.
Qed.

(** Generics. *)
Lemma v_generics item : verdict (proper_where item) (panic_cause item) (map_generics (i_generics item)).
Proof.
  unfold map_generics, proper_where. eapply v_iff.
  - apply (@v_emap _ _ (fun p => forall w, In w (g_where (i_generics item)) ->
             match p, w with GType _ _, WhereType t _ => is_path t | _, _ => True end)).
    intros p Ip. apply v_bind_left; [|eauto]. apply v_emap. intros w Iw. unfold predicate_bounded_to_param.
    destruct w as [t bs|l bs], p as [l' bs'|i bs'|i]; cbn; auto.
    apply v_bind_left; [|eauto]. unfold get_generic_argument_ident, is_path.
    destruct t as [q mu e|q a|s a].
    + assert (N : ~ is_path (TReference q mu e)) by (intros (? & ? & D & _); discriminate).
      split; [exact N|]. exact (@pc_where item _ _ _ _ Ip Iw N).
    + destruct (rev q) as [|j r] eqn:E.
      * assert (N : ~ is_path (TPath q a)).
        { intros (q' & a' & D & Ne). injection D as <- <-. apply Ne. rewrite <- (rev_involutive q), E. reflexivity. }
        split; [exact N|]. exact (@pc_where item _ _ _ _ Ip Iw N).
      * cbn. exists q, a. split; [reflexivity|]. intros ->. discriminate.
    + assert (N : ~ is_path (TOther s a)) by (intros (? & ? & D & _); discriminate).
      split; [exact N|]. exact (@pc_where item _ _ _ _ Ip Iw N).
  - split.
    + intros H i bs t bs' I J. exact (H _ I _ J).
    + intros H p I w J. destruct p, w; auto. eauto.
Qed.

(** ** The whole macro *)
Lemma handler_left item m : In m (filter (marked "state") (methods item)) -> is_handler item m.
Proof. intros I. apply filter_In in I. split; tauto. Qed.
Lemma handler_right item m : In m (filter (marked "superstate") (methods item)) -> is_handler item m.
Proof. intros I. apply filter_In in I. split; tauto. Qed.

Lemma references_iff c m : by_name m ->
  (fields_by_reference c m /\ types_ok c m <-> MacroAcceptSpec.by_reference m).
Proof.
  intros N. split.
  - intros [F [E K]] pt I. destruct (N pt I) as [i P].
    assert (T : takes m i (pt_ty pt)) by (exists (pt_attrs pt); destruct pt; cbn in *; subst; exact I).
    destruct (string_dec (c_event_ident c) i) as [Ee|N1]; [subst i; exact (E _ T)|].
    destruct (string_dec (c_context_ident c) i) as [Ec|N2].
    { subst i. exact (K N1 _ T). }
    apply F. unfold field_params. apply in_flat_map. exists (Typed pt). split; [exact I|]. cbn. rewrite P.
    destruct (String.eqb_spec (c_event_ident c) i); [contradiction|].
    destruct (String.eqb_spec (c_context_ident c) i); [contradiction|]. now left.
  - intros R. split.
    + intros pt I. apply R. exact (field_params_in _ _ _ I).
    + split; [|intros _]; intros t [attrs I]; exact (R _ I).
Qed.

(** What `lower` checks. *)
Definition rest_ok (item : item_impl) (c : config) : Prop :=
  (forall m, In m (filter (marked "state") (methods item)) -> lowers c m) /\
  (forall m, In m (filter (marked "superstate") (methods item)) -> lowers c m) /\
  (forall m, In m (filter (marked "action") (methods item)) -> by_name m) /\
  (forall m, In m (filter (marked "state") (methods item)) -> links item "state" m) /\
  (forall m, In m (filter (marked "superstate") (methods item)) -> links item "superstate" m) /\
  (forall m, In m (filter (marked "state") (methods item)) -> types_ok c m) /\
  (forall m, In m (filter (marked "superstate") (methods item)) -> types_ok c m) /\
  proper_where item.

Theorem v_expand o args item : ordinary item ->
  verdict (accepted args item) (panic_cause item) (expand o args item).
Proof.
  intros [ND NP ON]. unfold expand. eapply v_iff.
  - apply v_bind with (P := config_ok args item /\
       forall m, In m (methods item) ->
         method_ok (or_else (last_value as_ident "event_identifier" args) "event")
                   (or_else (last_value as_ident "context_identifier" args) "context") m)
       (Q := forall c, analyze_state_machine args item = Done c -> rest_ok item c).
    + unfold analyze. apply v_bind; [apply v_config|].
      intros c C _. destruct (config_spec args item C) as [_ _ _ _ _ _ _ Ev Cx _ _ _ _ _ _ _ _ _].
      rewrite <- Ev, <- Cx. apply v_bind_left; [|intros [f r] _; eauto].
      apply v_items. intros m I. exact (fun b a bt b' af => @ON m b a bt b' af I).
    + intros mo A [_ MO].
      apply v_bind_left; [|eauto].
      destruct (@analyze_done args item mo ND A) as [C [_ [_ [_ [ES [EU EA]]]]]].
      pose proof (config_spec args item C) as CF. clear A. set (c := mo_config mo) in *.
      apply v_iff with (P := rest_ok item c).
      2:{ split; [intros K c' C'; rewrite C in C'; injection C' as <-; exact K|intros K; exact (K c C)]. }
      unfold rest_ok.
      assert (SS : forall m, In m (filter (marked "state") (methods item)) -> simple m).
      { intros m I. apply filter_In in I. destruct I as [I K]. destruct (MO m I) as [M _]. apply (M K). }
      assert (SU : forall m, In m (filter (marked "superstate") (methods item)) -> simple m).
      { intros m I. apply filter_In in I. destruct I as [I K]. destruct (MO m I) as [_ [M _]]. apply (M K). }
      unfold lower. fold c.
      apply v_bind.
      { refine (@v_hm_map _ _ _ _ _ _ _ (o_states o) _ ES _). intros m s I SF.
        apply v_lower_state; [exact (handler_left _ _ I)|exact (SS m I)|exact SF]. }
      intros states0 L1 LS. apply v_bind.
      { refine (@v_hm_map _ _ _ _ _ _ _ (o_supers o) _ EU _). intros m s I SF.
        apply v_lower_super; [exact (handler_right _ _ I)|exact (SU m I)|exact SF]. }
      intros supers0 L2 LU. apply v_bind.
      { refine (@v_hm_map _ _ _ _ _ _ _ (o_actions o) _ EA _). intros m s I AI. apply filter_In in I.
        apply v_lower_action; tauto. }
      intros actions L3 LA.
      destruct (@entries_hm_map _ _ _ (state_pre c) _ _ _ _ _ (@lower_state_done c) ES L1) as [sm0 [P1 F1]].
      destruct (@entries_hm_map _ _ _ (super_pre c) _ _ _ _ _ (@lower_super_done c) EU L2) as [um0 [P2 F2]].
      destruct (@entries_hm_map _ _ _ (fun m l => l = call_of c m /\ idents_only m) _ _ _ _ _ (@lower_action_done c) EA L3)
        as [am0 [P3 F3]].
      destruct (entries_arrange (o_ir_states o) F1) as [sms [P4 F4]].
      destruct (entries_arrange (o_ir_supers o) F2) as [ums [P5 F5]].
      pose proof (perm_trans P1 P4) as PS. pose proof (perm_trans P2 P5) as PU.
      apply v_bind.
      { eapply v_iff with (P := forall m, In m sms -> links item "state" m).
        - refine (@v_link _ _ _ _ _ _ _ (link_state mo supers0 actions) F4 _). intros m l0 I SP.
          apply (Permutation_in _ (Permutation_sym PS)) in I.
          destruct (@entries_lookup _ _ _ _ m (filter_names_nodup _ _ ND) ES I) as [s [G SF]].
          exact (@v_link_state c item mo (panic_cause item) ND actions supers0 am0 um0 P3 F3 P2 F2 m s l0 G SF).
        - split; intros K m I; apply K; [exact (Permutation_in _ PS I)|exact (Permutation_in _ (Permutation_sym PS) I)]. }
      intros states L4 _. apply v_bind.
      { eapply v_iff with (P := forall m, In m ums -> links item "superstate" m).
        - refine (@v_link _ _ _ _ _ _ _ (link_superstate mo supers0 actions) F5 _). intros m l0 I SP.
          apply (Permutation_in _ (Permutation_sym PU)) in I.
          destruct (@entries_lookup _ _ _ _ m (filter_names_nodup _ _ ND) EU I) as [s [G SF]].
          exact (@v_link_superstate c item mo (panic_cause item) ND actions supers0 am0 um0 P3 F3 P2 F2 m s l0 G SF).
        - split; intros K m I; apply K; [exact (Permutation_in _ PU I)|exact (Permutation_in _ (Permutation_sym PU) I)]. }
      intros supers L5 _.
      destruct (entries_arrange (o_states o) ES) as [s1 [Q1 G1]].
      destruct (entries_arrange (o_supers o) EU) as [s2 [Q2 G2]].
      apply entries_values in G1. apply entries_values in G2.
      fold (hm_values (o_states o) (mo_states mo)) in G1. fold (hm_values (o_supers o) (mo_supers mo)) in G2.
      assert (N1 : forall m, In m s1 -> NoDup (parameter_names m)).
      { intros m I. apply NP. apply (Permutation_in _ (Permutation_sym Q1)) in I. apply filter_In in I. tauto. }
      assert (N2 : forall m, In m s2 -> NoDup (parameter_names m)).
      { intros m I. apply NP. apply (Permutation_in _ (Permutation_sym Q2)) in I. apply filter_In in I. tauto. }
      apply v_bind.
      { eapply v_iff with (P := forall m, In m s1 -> types_ok c m).
        - apply v_find_types; [|exact N1]. eapply Forall2_imp; [|exact G1]. intros m s [m1 [SI _]].
          destruct (si_state_inputs SI) as [ins [S [_ [E1 E2]]]].
          pose proof (same_params_trans (st_inputs (si_stripped SI)) S) as S'. rewrite E1, E2.
          split; [exact (found_reads m (found_event _) S')|]. split; [|intros Q; exact (no_context Q ins)].
          intros N. exact (found_reads m (found_context N) S').
        - split; intros K m I; apply K; [exact (Permutation_in _ Q1 I)|exact (Permutation_in _ (Permutation_sym Q1) I)]. }
      intros x1 _ _. apply v_bind.
      { eapply v_iff with (P := forall m, In m s2 -> types_ok c m).
        - apply v_find_types; [|exact N2]. eapply Forall2_imp; [|exact G2]. intros m s SI.
          rewrite (ui_event SI), (ui_context SI). pose proof (ui_inputs SI) as S'.
          split; [exact (found_reads m (found_event _) S')|]. split; [|intros Q; exact (no_context Q _)].
          intros N. exact (found_reads m (found_context N) S').
        - split; intros K m I; apply K; [exact (Permutation_in _ Q2 I)|exact (Permutation_in _ (Permutation_sym Q2) I)]. }
      intros x2 _ _. apply v_bind_left; [|eauto]. rewrite (cf_generics CF). apply v_generics.
  - assert (HH : forall kind c m, In m (filter (marked kind) (methods item)) -> lowers c m -> links item kind m ->
                 types_ok c m -> m_generics m = [] -> fine kind m -> proper_handler item kind m).
    { intros kind c m I [L1 L2 L3] [K1 K2 K3] T G F. constructor; auto. apply (references_iff c L3). auto. }
    assert (BB : forall kind m c, proper_handler item kind m -> lowers c m /\ links item kind m /\ types_ok c m).
    { intros kind m c [B1 B2 B3 B4 B5 B6 B7 B8]. destruct (proj2 (references_iff c B2) B3) as [R1 R2].
      split; [constructor; auto|]. split; [constructor; auto|exact R2]. }
    assert (EV : forall c, analyze_state_machine args item = Done c ->
      c_event_ident c = or_else (last_value as_ident "event_identifier" args) "event" /\
      c_context_ident c = or_else (last_value as_ident "context_identifier" args) "context").
    { intros c C. pose proof (config_spec args item C) as CF. split; apply CF. }
    assert (FI : forall kind m, In m (methods item) -> marked kind m = true ->
                   In m (filter (marked kind) (methods item))) by (intros; now apply filter_In).
    split.
    + intros [[(A1 & A2 & A3 & A4 & A5) MO] R].
      assert (X : exists c, analyze_state_machine args item = Done c).
      { pose proof (v_config args item) as V. destruct (analyze_state_machine args item) as [c|msg|msg]; [eauto| |];
          exfalso; unfold config_ok in V; cbn in V; tauto. }
      destruct X as [c C]. destruct (R c C) as (R1 & R2 & R3 & R4 & R5 & R6 & R7 & R8).
      constructor; auto.
      * intros m I M. destruct (MO m I) as (M1 & _ & _). destruct (M1 M) as [G S D F].
        split; [apply (@HH "state" c m); auto|].
        intros attrs i t d J N1 N2 FD. exact (D _ J i d eq_refl N1 N2 FD).
      * intros m I M. destruct (MO m I) as (_ & M1 & _). destruct (M1 M) as [G S F].
        apply (@HH "superstate" c m); auto.
      * intros m I M. destruct (MO m I) as (_ & _ & M1). constructor; auto.
    + intros [A1 A2 A3 A4 A5 A6 A7 A8 A9]. split; [split; [unfold config_ok; auto 10|]|].
      * intros m I. split; [|split]; intros M.
        -- destruct (A7 m I M) as [[B1 B2 B3 B4 B5 B6 B7 B8] D]. constructor; auto.
           ++ intros a J. destruct a as [|pt]; cbn; [exact Logic.I|]. left. exact (B2 pt J).
           ++ intros a J. destruct a as [|pt]; cbn; [exact Logic.I|]. intros i d P N1 N2 FD.
              apply (D (pt_attrs pt) i (pt_ty pt) d); auto. destruct pt; cbn in *; subst; exact J.
        -- destruct (A8 m I M) as [B1 B2 B3 B4 B5 B6 B7 B8]. constructor; auto.
           intros a J. destruct a as [|pt]; cbn; [exact Logic.I|]. left. exact (B2 pt J).
        -- apply (A9 m I M).
      * intros c C. unfold rest_ok.
        assert (Y1 : forall m, In m (filter (marked "state") (methods item)) -> proper_handler item "state" m).
        { intros m I. apply filter_In in I. destruct I as [I M]. exact (proj1 (A7 m I M)). }
        assert (Y2 : forall m, In m (filter (marked "superstate") (methods item)) -> proper_handler item "superstate" m).
        { intros m I. apply filter_In in I. destruct I as [I M]. exact (A8 m I M). }
        split; [intros m I; apply (BB _ _ c (Y1 m I))|]. split; [intros m I; apply (BB _ _ c (Y2 m I))|].
        split; [intros m I; apply filter_In in I; destruct I as [I M]; apply (A9 m I M)|].
        split; [intros m I; apply (BB _ _ c (Y1 m I))|]. split; [intros m I; apply (BB _ _ c (Y2 m I))|].
        split; [intros m I; apply (BB _ _ c (Y1 m I))|]. split; [intros m I; apply (BB _ _ c (Y2 m I))|exact A2].
Qed.
