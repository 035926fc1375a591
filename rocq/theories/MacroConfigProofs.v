(** MacroConfigProofs.v — the arguments of `#[state_machine(..)]`. *)

From Coq Require Import String Ascii List Bool Arith Lia Permutation.
From Verif Require Import Machine Spec.
From Verif Require Import MacroSyntax MacroVisit MacroAnalyze MacroLower MacroGen MacroSem.
From Verif Require Import MacroSpec MacroBasics.
Import ListNotations.
Open Scope string_scope.
Open Scope list_scope.
Set Implicit Arguments.

Lemma is_ident_true p k : is_ident p k = true -> p = [k].
Proof.
  destruct p as [|i [|j p]]; cbn; try discriminate. intros E. apply String.eqb_eq in E. congruence.
Qed.
Lemma parsed_done A (parse : lit_str -> option A) msg m v key : parsed parse msg m = Done v ->
  is_ident (meta_path m) key = true -> value_at parse key m = Some v.
Proof.
  unfold parsed. intros H K. destruct (ebind_done _ _ H) as [s [N P]].
  destruct m as [p|p t|p [s'|]]; cbn in N; try discriminate. injection N as ->.
  cbn in *. rewrite K. destruct (parse s); [injection P as ->; reflexivity|discriminate].
Qed.
Lemma value_at_other A (parse : lit_str -> option A) key k m :
  is_ident (meta_path m) k = true -> (k =? key)%string = false -> value_at parse key m = None.
Proof.
  intros K N. apply is_ident_true in K. destruct m as [p|p t|p [s|]]; cbn in *; try reflexivity.
  subst p. cbn. now rewrite N.
Qed.
Lemma list_at_other key k m :
  is_ident (meta_path m) k = true -> (k =? key)%string = false -> list_at key m = None.
Proof.
  intros K N. apply is_ident_true in K. destruct m as [p|p [[l|] t u]|p v]; cbn in *; try reflexivity.
  subst p. cbn. now rewrite N.
Qed.


(** ** The settings after the loop over the arguments *)
Definition tokens_at (key : ident) (a : meta) : option tokens :=
  match a with
  | MetaList p t => if is_ident p key then Some t else None
  | _ => None
  end.
Lemma tokens_at_other key k m :
  is_ident (meta_path m) k = true -> (k =? key)%string = false -> tokens_at key m = None.
Proof.
  intros K N. apply is_ident_true in K. destruct m as [p|p t|p v]; cbn in *; try reflexivity.
  subst p. cbn. now rewrite N.
Qed.
Definition override {A} (o d : option A) : option A := match o with Some a => Some a | None => d end.
Definition known_keys : list ident :=
  ["initial"; "event_identifier"; "context_identifier"; "before_transition"; "after_transition";
   "before_dispatch"; "after_dispatch"; "visibility"; "state"; "superstate"].

Record seen (args : list meta) (t0 t : settings) : Prop := Seen {
  se_keys : forall a, In a args -> key_in known_keys a;
  se_initial : t_initial t = override (last_value as_expr "initial" args) (t_initial t0);
  se_event : t_event_ident t = or_else (last_value as_ident "event_identifier" args) (t_event_ident t0);
  se_context : t_context_ident t = or_else (last_value as_ident "context_identifier" args) (t_context_ident t0);
  se_bt : t_before_transition t = override (last_value as_path "before_transition" args) (t_before_transition t0);
  se_at : t_after_transition t = override (last_value as_path "after_transition" args) (t_after_transition t0);
  se_bd : t_before_dispatch t = override (last_value as_path "before_dispatch" args) (t_before_dispatch t0);
  se_ad : t_after_dispatch t = override (last_value as_path "after_dispatch" args) (t_after_dispatch t0);
  se_vis : t_visibility t = or_else (last_value as_visibility "visibility" args) (t_visibility t0);
  se_state : t_state_meta t = or_else (last_of (tokens_at "state") args) (t_state_meta t0);
  se_super : t_super_meta t = or_else (last_of (tokens_at "superstate") args) (t_super_meta t0)
}.

Lemma last_of_cons A (at_ : meta -> option A) a l : last_of at_ (a :: l) = override (last_of at_ l) (at_ a).
Proof. cbn. destruct (last_of at_ l); reflexivity. Qed.
Lemma override_assoc A (a b c : option A) : override a (override b c) = override (override a b) c.
Proof. destruct a, b; reflexivity. Qed.
Lemma or_else_override A (a b : option A) c : or_else a (or_else b c) = or_else (override a b) c.
Proof. destruct a, b; reflexivity. Qed.

Lemma seen_nil t : seen [] t t.
Proof. constructor; try reflexivity. intros a []. Qed.
Lemma seen_cons a rest t0 t1 t : seen [a] t0 t1 -> seen rest t1 t -> seen (a :: rest) t0 t.
Proof.
  intros S1 S2. constructor.
  1: { intros b [<-|I]; [apply (se_keys S1); now left|now apply (se_keys S2)]. }
  all: unfold last_value; rewrite last_of_cons.
  - rewrite (se_initial S2), (se_initial S1). unfold last_value. rewrite last_of_cons. cbn. apply override_assoc.
  - rewrite (se_event S2), (se_event S1). unfold last_value. rewrite last_of_cons. cbn. apply or_else_override.
  - rewrite (se_context S2), (se_context S1). unfold last_value. rewrite last_of_cons. cbn. apply or_else_override.
  - rewrite (se_bt S2), (se_bt S1). unfold last_value. rewrite last_of_cons. cbn. apply override_assoc.
  - rewrite (se_at S2), (se_at S1). unfold last_value. rewrite last_of_cons. cbn. apply override_assoc.
  - rewrite (se_bd S2), (se_bd S1). unfold last_value. rewrite last_of_cons. cbn. apply override_assoc.
  - rewrite (se_ad S2), (se_ad S1). unfold last_value. rewrite last_of_cons. cbn. apply override_assoc.
  - rewrite (se_vis S2), (se_vis S1). unfold last_value. rewrite last_of_cons. cbn. apply or_else_override.
  - rewrite (se_state S2), (se_state S1). cbn. apply or_else_override.
  - rewrite (se_super S2), (se_super S1). cbn. apply or_else_override.
Qed.

Lemma require_list_done msg a t key : require_list msg a = Done t -> is_ident (meta_path a) key = true ->
  tokens_at key a = Some t.
Proof. destruct a as [p|p u|p v]; cbn; try discriminate. intros [= ->] ->. reflexivity. Qed.

Ltac other K := match goal with
  | |- context [value_at ?p ?key ?a] => rewrite (@value_at_other _ p key _ a K eq_refl)
  | |- context [tokens_at ?key ?a] => rewrite (@tokens_at_other key _ a K eq_refl)
  end.
Lemma setting_seen t a t' : setting t a = Done t' -> seen [a] t t'.
Proof.
  intros H. destruct t as [i e c bt at_ bd ad v sm um]. unfold setting in H.
  repeat match type of H with
  | (if is_ident (meta_path a) ?k then _ else _) = _ =>
      let N := fresh "N" in destruct (is_ident (meta_path a) k) eqn:N; [rename N into K|clear N]
  end; try discriminate.
  all: let x := fresh "x" in let P := fresh "P" in
       destruct (ebind_done _ _ H) as [x [P Q]]; injection Q as <-; clear H.
  all: (first [pose proof (@parsed_done _ _ _ _ _ _ P K) as V | pose proof (@require_list_done _ _ _ _ P K) as V]).
  all: constructor; [intros b [<-|[]]; eexists; split; [|exact K]; cbn; tauto|..];
       unfold last_value; cbn [last_of];
       first [rewrite V; reflexivity | other K; reflexivity].
Qed.
Lemma settings_seen args t0 t : efold setting t0 args = Done t -> seen args t0 t.
Proof.
  revert t0. induction args as [|a args IH]; cbn; intros t0 H.
  - injection H as <-. apply seen_nil.
  - destruct (ebind_done _ _ H) as [t1 [S R]]. exact (@seen_cons a args t0 t1 t (@setting_seen t0 a t1 S) (IH _ R)).
Qed.

(** ** The arguments of `state(..)` and `superstate(..)` *)
Lemma derived_cons a l : derived (a :: l) = derived [a] ++ derived l.
Proof. unfold derived. cbn. now rewrite app_nil_r. Qed.
Lemma enum_fold l nd nd' : efold enum_setting nd l = Done nd' ->
  (forall a, In a l -> key_in ["name"; "derive"] a) /\
  fst nd' = or_else (last_value as_ident "name" l) (fst nd) /\ snd nd' = snd nd ++ derived l.
Proof.
  revert nd. induction l as [|a l IH]; intros nd H.
  - injection H as <-. split; [intros a []|]. split; [reflexivity|]. cbn. now rewrite app_nil_r.
  - cbn in H. destruct (ebind_done _ _ H) as [nd1 [S R]]. destruct (IH _ R) as [K1 [N1 D1]].
    rewrite derived_cons. unfold last_value in *. rewrite last_of_cons.
    unfold enum_setting in S.
    destruct (is_ident (meta_path a) "name") eqn:K.
    + destruct (ebind_done _ _ S) as [n [P Q]]. injection Q as <-.
      split; [intros b [<-|J]; [exists "name"; cbn; auto|now apply K1]|].
      rewrite N1, D1. rewrite (@parsed_done _ _ _ _ _ _ P K). cbn [fst snd].
      split; [destruct (last_of _ l); reflexivity|].
      assert (E : derived [a] = []).
      { apply is_ident_true in K. destruct a as [p|p [u1 u2 [u3|]]|p v]; cbn in *; try reflexivity.
        subst p. reflexivity. }
      now rewrite E.
    + destruct (is_ident (meta_path a) "derive") eqn:K'; [|discriminate].
      destruct (ebind_done _ _ S) as [t [P Q]].
      destruct (as_paths t) as [ps|] eqn:AP; [|discriminate]. injection Q as <-.
      split; [intros b [<-|J]; [exists "derive"; cbn; auto|now apply K1]|].
      rewrite N1, D1. rewrite (@value_at_other _ _ _ _ _ K' (eq_refl : ("derive" =? "name")%string = false)). cbn [fst snd].
      split; [destruct (last_of _ l); reflexivity|].
      assert (E : derived [a] = ps).
      { destruct a as [p|p u|p v]; cbn in P; try discriminate. injection P as ->.
        destruct t as [u1 u2 u3]. cbn in *. subst u3. rewrite K'. apply app_nil_r. }
      rewrite E. now rewrite app_assoc.
Qed.

Lemma last_list key args t l : last_of (tokens_at key) args = Some t -> as_metas t = Some l ->
  last_of (list_at key) args = Some l.
Proof.
  induction args as [|a args IH]; cbn; [discriminate|]. intros H M.
  destruct (last_of (tokens_at key) args) as [t'|] eqn:E.
  - injection H as ->. now rewrite (IH eq_refl M).
  - assert (N : last_of (list_at key) args = None).
    { clear - E. induction args as [|b args IH]; [reflexivity|]. cbn in *.
      destruct (last_of (tokens_at key) args); [discriminate|]. rewrite IH by reflexivity.
      destruct b as [p|p [[u|] u2 u3]|p v]; cbn in *; try reflexivity. destruct (is_ident p key); [discriminate|reflexivity]. }
    rewrite N. destruct a as [p|p u|p v]; cbn in *; try discriminate.
    destruct (is_ident p key) eqn:K; [|discriminate]. injection H as ->.
    destruct t as [u1 u2 u3]. cbn in *. now subst u1.
Qed.
Lemma no_list key args : last_of (tokens_at key) args = None -> last_of (list_at key) args = None.
Proof.
  intros E. induction args as [|b args IH]; [reflexivity|]. cbn in *.
  destruct (last_of (tokens_at key) args); [discriminate|]. rewrite IH by reflexivity.
  destruct b as [p|p [[u|] u2 u3]|p v]; cbn in *; try reflexivity. destruct (is_ident p key); [discriminate|reflexivity].
Qed.
Lemma enum_spec key d args nd :
  enum_settings d (or_else (last_of (tokens_at key) args) no_tokens) = Done nd ->
  (forall a, In a (inside key args) -> key_in ["name"; "derive"] a) /\
  fst nd = or_else (last_value as_ident "name" (inside key args)) d /\
  snd nd = derived (inside key args).
Proof.
  unfold enum_settings. intros H.
  destruct (as_metas (or_else (last_of (tokens_at key) args) no_tokens)) as [l|] eqn:M; [|discriminate].
  assert (E : inside key args = l).
  { unfold inside. destruct (last_of (tokens_at key) args) as [t|] eqn:T.
    - cbn in M. now rewrite (@last_list _ _ _ _ T M).
    - cbn in M. injection M as <-. now rewrite (@no_list _ _ T). }
  rewrite E. exact (@enum_fold _ _ _ H).
Qed.

(** ** The configuration *)
Record configured (args : list meta) (item : item_impl) (c : config) : Prop := Configured {
  cf_keys : forall a, In a args -> key_in known_keys a;
  cf_state_keys : forall a, In a (inside "state" args) -> key_in ["name"; "derive"] a;
  cf_super_keys : forall a, In a (inside "superstate" args) -> key_in ["name"; "derive"] a;
  cf_self : c_shared_type c = i_self item;
  cf_path : exists ps, i_self item = TPath (c_shared_path c) ps;
  cf_generics : c_generics c = i_generics item;
  cf_initial : last_value as_expr "initial" args = Some (c_initial c);
  cf_event : c_event_ident c = or_else (last_value as_ident "event_identifier" args) "event";
  cf_context : c_context_ident c = or_else (last_value as_ident "context_identifier" args) "context";
  cf_visibility : c_visibility c = or_else (last_value as_visibility "visibility" args) "pub";
  cf_bt : c_before_transition c = last_value as_path "before_transition" args;
  cf_at : c_after_transition c = last_value as_path "after_transition" args;
  cf_bd : c_before_dispatch c = last_value as_path "before_dispatch" args;
  cf_ad : c_after_dispatch c = last_value as_path "after_dispatch" args;
  cf_state_ident : c_state_ident c = or_else (last_value as_ident "name" (inside "state" args)) "State";
  cf_state_derives : c_state_derives c = derived (inside "state" args);
  cf_super_ident : c_super_ident c = or_else (last_value as_ident "name" (inside "superstate" args)) "Superstate";
  cf_super_derives : c_super_derives c = derived (inside "superstate" args)
}.
Lemma override_none A (o : option A) : override o None = o.
Proof. destruct o; reflexivity. Qed.
Lemma config_spec args item c : analyze_state_machine args item = Done c -> configured args item c.
Proof.
  unfold analyze_state_machine. intros H.
  destruct (ebind_done _ _ H) as [p [P H1]]. destruct (ebind_done _ _ H1) as [t [T H2]].
  destruct (t_initial t) as [ini|] eqn:TI; [|discriminate].
  destruct (ebind_done _ _ H2) as [[si sd] [S H3]]. destruct (ebind_done _ _ H3) as [[ui ud] [U H4]].
  injection H4 as <-. pose proof (@settings_seen _ _ _ T) as SE.
  rewrite (se_state SE) in S. rewrite (se_super SE) in U. cbn [t_state_meta t_super_meta default_settings] in S, U.
  destruct (@enum_spec _ _ _ _ S) as [SK [SN SD]]. destruct (@enum_spec _ _ _ _ U) as [UK [UN UD]].
  constructor; cbn; auto.
  - exact (se_keys SE).
  - destruct (i_self item) as [l m e|q ps|s ps]; cbn in P; try discriminate. injection P as ->. now exists ps.
  - rewrite (se_initial SE) in TI. cbn in TI. now rewrite override_none in TI.
  - exact (se_event SE).
  - exact (se_context SE).
  - exact (se_vis SE).
  - rewrite (se_bt SE). apply override_none.
  - rewrite (se_at SE). apply override_none.
  - rewrite (se_bd SE). apply override_none.
  - rewrite (se_ad SE). apply override_none.
Qed.
