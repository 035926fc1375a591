(** AsyncProofs.v — which functions are `async` makes no difference to a machine (C97). *)

From Coq Require Import String List Bool Arith Lia Permutation.
From Verif Require Import MacroSyntax MacroVisit MacroAnalyze MacroLower MacroGen MacroSem MacroSpec MacroScopeSpec MacroAcceptSpec.
From Verif Require Import MacroBasics MacroExpandProofs MacroLowerProofs MacroCallProofs MacroMachineProofs.
From Verif Require Import Machine Api Spec Sim SimIff RenameSpec RenameProofs RenameSim RenameMake AddSpec AddProofs AsyncSpec.
From Verif Require MacroBehaviour MacroConfigProofs.
Import ListNotations.
Open Scope string_scope.
Open Scope list_scope.
Set Implicit Arguments.

Lemma filter_both A (f : A -> bool) l : Permutation (filter f l ++ filter (fun a => negb (f a)) l) l.
Proof.
  induction l as [|a l IH]; [constructor|]. cbn. destruct (f a); cbn.
  - now constructor.
  - rewrite <- Permutation_middle. now constructor.
Qed.
Lemma Forall2_In_l A B (R : A -> B -> Prop) l l' : Forall2 R l l' -> forall a, In a l -> exists b, In b l' /\ R a b.
Proof.
  induction 1 as [|a b l l' K F IH]; intros x I; [destruct I|].
  destruct I as [<-|I]; [exists b; split; [now left|exact K]|]. destruct (IH x I) as (y & J & Q). exists y. split; [now right|exact Q].
Qed.
Lemma NoDup_map_eq A B (f : A -> B) l : NoDup (map f l) -> forall a b, In a l -> In b l -> f a = f b -> a = b.
Proof.
  induction l as [|x l IH]; intros N a b I J E; [destruct I|]. inversion N as [|? ? NI N' Q]; subst.
  destruct I as [<-|I], J as [<-|J]; auto.
  - destruct NI. rewrite E. now apply in_map.
  - destruct NI. rewrite <- E. now apply in_map.
Qed.
Lemma same_sym m m' : same_but_async m m' -> same_but_async m' m.
Proof. intros [a b c d]. now constructor. Qed.
Lemma relevant_async m m' : same_but_async m m' -> relevant m' = relevant m.
Proof. intros [a b c d]. unfold relevant, marked. now rewrite b. Qed.
Lemma renamed_async m m' : same_but_async m m' -> idents_only m -> renamed_method same same m m'.
Proof.
  intros K I. pose proof (renamed_same I) as Q. destruct m as [at_ n ge y ps], m' as [at' n' ge' y' ps'].
  destruct K as [a b c d]. cbn in a, b, c, d. subst. destruct Q as [q1 q2 q3 q4 q5]. constructor; assumption.
Qed.

Section Two.
  Variables args args' : list meta.
  Variables item item' : item_impl.
  Variables g g' : generated.
  Variables c c' : config.
  Variables sms ums sms' ums' : list impl_fn.
  Hypothesis X : expanded args item g c sms ums.
  Hypothesis X' : expanded args' item' g' c' sms' ums'.
  Hypothesis CO : compiles g.
  Hypothesis CO' : compiles g'.
  Hypothesis ND : NoDup (map m_name (methods item)).
  Hypothesis ND' : NoDup (map m_name (methods item')).
  Hypothesis EX : Forall2 same_but_async (methods item) (methods item').
  Hypothesis SS : same_settings g g'.
  Variables Val Sh Ev Cx : Type.

  Lemma as_renamed : renamed_impl same same item item'.
  Proof.
    exists (filter relevant (methods item')), (filter (fun m => negb (relevant m)) (methods item')).
    split; [|apply filter_both].
    assert (Q : forall m, In m (methods item) -> relevant m = true -> idents_only m).
    { intros m I R. apply part_relevant in R. destruct R as [R|[R|R]].
      - apply (ex_state_methods X). apply (in_sms X). auto.
      - apply (ex_super_methods X). apply (in_ums X). auto.
      - apply (ex_action_methods X); auto. }
    clear - EX Q. revert Q. induction EX as [|m m' l l' K F IH]; intros Q; [constructor|]. cbn [filter].
    rewrite (relevant_async K). destruct (relevant m) eqn:R.
    - constructor; [apply (renamed_async K), Q; [now left|exact R]|]. apply (IH F). intros n J Rn; apply Q; [now right|exact Rn].
    - apply (IH F). intros n J Rn; apply Q; [now right|exact Rn].
  Qed.
  Lemma counterpart m : In m (methods item) -> exists m', In m' (methods item') /\ same_but_async m m'.
  Proof. exact (Forall2_In_l EX m). Qed.
  Lemma settings_renamed : renamed_settings same g g'.
  Proof. destruct SS. constructor; assumption. Qed.

  Lemma same_states (x : value Val (g_state_variants g)) (x' : value Val (g_state_variants g')) :
    twin_states item item' same g g' x x' <-> same_value x x'.
  Proof.
    split.
    - intros (m & m' & I & I' & N & M & T & T' & V). split; [|exact V]. rewrite T, T'. unfold variant_of. now rewrite N.
    - intros [T V]. destruct (state_method X x) as (m & I & Tm). apply (in_sms X) in I. destruct I as [I M].
      destruct (counterpart m I) as (m' & I' & K).
      exists m, m'. rewrite MacroBehaviour.vname_variant in Tm. repeat split; auto; [apply (sba_name K)|].
      unfold variant_of. rewrite (sba_name K), T. exact Tm.
  Qed.
  Lemma same_supers (x : value Val (g_super_variants g)) (x' : value Val (g_super_variants g')) :
    twin_supers item item' same g g' x x' <-> same_value x x'.
  Proof.
    split.
    - intros (m & m' & I & I' & N & M & T & T' & V). split; [|exact V]. rewrite T, T'. unfold variant_of. now rewrite N.
    - intros [T V]. destruct (super_method X x) as (m & I & Tm). apply (in_ums X) in I. destruct I as [I M].
      destruct (counterpart m I) as (m' & I' & K).
      exists m, m'. rewrite MacroBehaviour.vname_variant in Tm. repeat split; auto; [apply (sba_name K)|].
      unfold variant_of. rewrite (sba_name K), T. exact Tm.
  Qed.
  Lemma same_nodes (n : node (value Val (g_state_variants g)) (value Val (g_super_variants g))) (n' : node (value Val (g_state_variants g')) (value Val (g_super_variants g'))) :
    node_rel (twin_states item item' same g g') (twin_supers item item' same g g') n n' <->
    node_rel (@same_value Val (g_state_variants g) (g_state_variants g')) (@same_value Val (g_super_variants g) (g_super_variants g')) n n'.
  Proof.
    split; apply node_rel_mono; intros x y; try apply same_states; apply same_supers.
  Qed.
  Lemma bodies_iff (B : bodies Val Sh Ev Cx g) (B' : bodies Val Sh Ev Cx g') :
    renamed_bodies item item' same B B' <-> same_bodies item B B'.
  Proof.
    split; intros [h a d t s i]; constructor.
    - intros m as_ I M. destruct (h m as_ I M) as [P Q]. split; [|exact Q]. revert P. apply reply_rel_mono. intros x y.
      apply response_rel_mono. intros; apply same_states; assumption.
    - exact a.
    - intros p sh n n' e N. apply d. apply same_nodes. exact N.
    - intros p sh x x' y y' P Q. apply t; apply same_states; assumption.
    - exact s.
    - apply same_states. exact i.
    - intros m as_ I M. destruct (h m as_ I M) as [P Q]. split; [|exact Q]. revert P. apply reply_rel_mono. intros x y.
      apply response_rel_mono. intros; apply same_states; assumption.
    - exact a.
    - intros p sh n n' e N. apply d. apply same_nodes. exact N.
    - intros p sh x x' y y' P Q. apply t; apply same_states; assumption.
    - exact s.
    - apply same_states. exact i.
  Qed.

  Theorem async_similar (B : bodies Val Sh Ev Cx g) (B' : bodies Val Sh Ev Cx g') :
    same_bodies item B B' -> similar (same_relations B B').
  Proof.
    intros SB. apply bodies_iff in SB.
    pose proof (@RenameSim.renamed_similar same same same_proper args args' item item' g g' c c' sms ums sms' ums' X X' CO CO' ND' as_renamed settings_renamed Val Sh Ev Cx B B' SB) as S.
    refine (@similar_iff _ _ _ _ _ _ _ _ _ _ _ S); [exact same_states|exact same_supers].
  Qed.

End Two.

(** ** Nothing depends on `async` but the mode *)
Lemma other_async_sym item item' : other_async item item' -> other_async item' item.
Proof.
  intros (A & B & F). split; [congruence|]. split; [congruence|].
  clear - F. induction F as [|m m' l l' K F IH]; constructor; [now apply same_sym|exact IH].
Qed.
Section Same.
  Variables item item' : item_impl.
  Hypothesis OA : other_async item item'.
  Lemma same_names : map m_name (methods item') = map m_name (methods item).
  Proof. destruct OA as (_ & _ & F). induction F as [|m m' l l' K F IH]; [reflexivity|]. cbn. now rewrite IH, (sba_name K). Qed.
  Lemma from_new m' : In m' (methods item') -> exists m, In m (methods item) /\ same_but_async m m'.
  Proof.
    intros I. destruct (other_async_sym OA) as (_ & _ & F). destruct (Forall2_In_l F m' I) as (m & J & K).
    exists m. split; [exact J|now apply same_sym].
  Qed.
  Lemma to_new m : In m (methods item) -> exists m', In m' (methods item') /\ same_but_async m m'.
  Proof. destruct OA as (_ & _ & F). apply (Forall2_In_l F). Qed.
  Ltac split_same K := match type of K with same_but_async ?m ?m' =>
    destruct m as [? ? ? ? ?], m' as [? ? ? ? ?]; destruct K as [? ? ? ?]; cbn in *; subst end.

  Lemma ordinary_new : ordinary item -> ordinary item'.
  Proof.
    intros [a b c]. constructor.
    - now rewrite same_names.
    - intros m' I. destruct (from_new m' I) as (m & J & K). specialize (b m J). unfold parameter_names in *. now rewrite (sba_inputs K).
    - intros m' x y z t w I E. destruct (from_new m' I) as (m & J & K). rewrite (sba_attrs K) in E. exact (c m x y z t w J E).
  Qed.
  Lemma exists_new kind n : exists_method item kind n -> exists_method item' kind n.
  Proof.
    intros (m & I & M & E). destruct (to_new m I) as (m' & J & K). exists m'. split; [exact J|].
    split; [unfold marked in *; now rewrite (sba_attrs K)|]. now rewrite (sba_name K).
  Qed.
  Lemma handler_new kind m m' : same_but_async m m' -> proper_handler item kind m -> proper_handler item' kind m'.
  Proof.
    intros K [a b c d e f h i]. destruct m as [at_ n ge y ps], m' as [at' n' ge' y' ps']. destruct K as [k1 k2 k3 k4].
    cbn in k1, k2, k3, k4. subst. constructor; try assumption; intros u D; apply exists_new; auto.
  Qed.
  Lemma accepted_new args : accepted args item -> accepted args item'.
  Proof.
    intros [a b c d e f h i j]. destruct OA as (O1 & O2 & _). constructor; try assumption.
    - now rewrite O1.
    - unfold proper_where in *. now rewrite O2.
    - intros m' I M. destruct (from_new m' I) as (m & J & K).
      assert (M' : marked "state" m = true) by (unfold marked in *; now rewrite (sba_attrs K) in M).
      destruct (h m J M') as [P D]. split; [exact (handler_new K P)|]. unfold proper_defaults in *. now rewrite (sba_inputs K).
    - intros m' I M. destruct (from_new m' I) as (m & J & K). apply (handler_new K), i; [exact J|].
      unfold marked in *; now rewrite (sba_attrs K) in M.
    - intros m' I M. destruct (from_new m' I) as (m & J & K).
      assert (M' : marked "action" m = true) by (unfold marked in *; now rewrite (sba_attrs K) in M).
      destruct (j m J M') as [P Q]. constructor; [now rewrite (sba_generics K)|]. unfold by_name in *. now rewrite (sba_inputs K).
  Qed.

  Lemma marked_same m m' kind : same_but_async m m' -> marked kind m' = marked kind m.
  Proof. intros K. unfold marked. now rewrite (sba_attrs K). Qed.
  Lemma declared_same m m' kind key : same_but_async m m' -> declared kind key m' = declared kind key m.
  Proof.
    intros K. destruct m as [at_ n ge y ps], m' as [at' n' ge' y' ps']. destruct K as [k1 k2 k3 k4].
    cbn in k1, k2, k3, k4. now subst.
  Qed.
  Lemma keeps_same ev cx kind m m' f : same_but_async m m' -> keeps ev cx kind m' f <-> keeps ev cx kind m f.
  Proof.
    intros K. destruct m as [at_ n ge y ps], m' as [at' n' ge' y' ps']. destruct K as [k1 k2 k3 k4].
    cbn in k1, k2, k3, k4. now subst.
  Qed.
  Lemma variant_same m m' : same_but_async m m' -> variant_of m' = variant_of m.
  Proof. intros K. unfold variant_of. now rewrite (sba_name K). Qed.
  Lemma scoped_new ev cx : well_scoped ev cx item -> well_scoped ev cx item'.
  Proof.
    intros [a b c d e]. assert (N : NoDup (map m_name (methods item'))) by now rewrite same_names.
    assert (V : forall kind, distinct_variants item kind -> distinct_variants item' kind).
    { intros kind H m1 m2 I1 M1 I2 M2 E. destruct (from_new m1 I1) as (n1 & J1 & K1), (from_new m2 I2) as (n2 & J2 & K2).
      rewrite (marked_same kind K1) in M1. rewrite (marked_same kind K2) in M2.
      rewrite (variant_same K1), (variant_same K2) in E. specialize (H n1 n2 J1 M1 J2 M2 E).
      apply (@NoDup_map_eq _ _ m_name (methods item') N); [exact I1|exact I2|].
      rewrite (sba_name K1), (sba_name K2). now rewrite H. }
    constructor; auto. intros kind m' Kd I M. destruct (from_new m' I) as (m & J & K).
    rewrite (marked_same kind K) in M. destruct (e kind m Kd J M) as [x y z]. constructor.
    - unfold distinct_arguments in *. now rewrite (sba_inputs K).
    - intros key ma' Hk Ia Ma D. destruct (from_new ma' Ia) as (ma & Ja & Ka). rewrite (marked_same _ Ka) in Ma.
      rewrite (declared_same _ _ K), (sba_name Ka) in D. destruct (y key ma Hk Ja Ma D) as [F1 F2]. split.
      + unfold distinct_arguments in *. now rewrite (sba_inputs Ka).
      + intros i Hp. rewrite (keeps_same ev cx kind i K). apply F2. unfold has_parameter in *. now rewrite (sba_inputs Ka) in Hp.
    - intros mu' Iu Mu D f Hf. destruct (from_new mu' Iu) as (mu & Ju & Ku). rewrite (marked_same _ Ku) in Mu.
      rewrite (declared_same _ _ K), (sba_name Ku) in D. apply (keeps_same ev cx kind f K).
      apply (z mu Ju Mu D). now apply (keeps_same ev cx "superstate" f Ku).
  Qed.
  Lemma acyclic_new : acyclic item -> acyclic item'.
  Proof.
    intros [rank H]. exists rank. intros m' u I M D. destruct (from_new m' I) as (m & J & K).
    rewrite (marked_same _ K) in M. rewrite (declared_same _ _ K) in D. rewrite (sba_name K). now apply (H m u).
  Qed.
  Lemma supers_new : length (filter (marked "superstate") (methods item')) = length (filter (marked "superstate") (methods item)).
  Proof.
    destruct OA as (_ & _ & F). clear OA. induction F as [|m m' l l' K F IH]; [reflexivity|]. cbn [filter].
    rewrite (marked_same _ K). destruct (marked "superstate" m); cbn; auto.
  Qed.
End Same.

Section Settings.
  Variables args : list meta.
  Variables item item' : item_impl.
  Variables g g' : generated.
  Variables c c' : config.
  Variables sms ums sms' ums' : list impl_fn.
  Hypothesis X : expanded args item g c sms ums.
  Hypothesis X' : expanded args item' g' c' sms' ums'.
  Lemma settings_same : g_mode g' = g_mode g \/ no_hooks args -> same_settings g g'.
  Proof.
    intros H. pose proof (MacroConfigProofs.config_spec _ _ (ex_config X)) as F.
    pose proof (MacroConfigProofs.config_spec _ _ (ex_config X')) as F'.
    destruct (ex_hooks X) as (h1 & h2 & h3 & h4). destruct (ex_hooks X') as (k1 & k2 & k3 & k4).
    rewrite (MacroConfigProofs.cf_bt F) in h1. rewrite (MacroConfigProofs.cf_at F) in h2.
    rewrite (MacroConfigProofs.cf_bd F) in h3. rewrite (MacroConfigProofs.cf_ad F) in h4.
    rewrite (MacroConfigProofs.cf_bt F') in k1. rewrite (MacroConfigProofs.cf_at F') in k2.
    rewrite (MacroConfigProofs.cf_bd F') in k3. rewrite (MacroConfigProofs.cf_ad F') in k4.
    constructor.
    - now rewrite (ex_event_ident X), (ex_event_ident X'), (MacroConfigProofs.cf_event F), (MacroConfigProofs.cf_event F').
    - now rewrite (ex_context_ident X), (ex_context_ident X'), (MacroConfigProofs.cf_context F), (MacroConfigProofs.cf_context F').
    - rewrite h1, k1. destruct H as [->|(N & _)]; [reflexivity|now rewrite N].
    - rewrite h2, k2. destruct H as [->|(_ & N & _)]; [reflexivity|now rewrite N].
    - rewrite h3, k3. destruct H as [->|(_ & _ & N & _)]; [reflexivity|now rewrite N].
    - rewrite h4, k4. destruct H as [->|(_ & _ & _ & N)]; [reflexivity|now rewrite N].
  Qed.
  Lemma no_hooks_quiet Val Sh Ev Cx (B : bodies Val Sh Ev Cx g) : no_hooks args -> quiet (generated_machine B).
  Proof.
    intros (n1 & n2 & n3 & n4). pose proof (MacroConfigProofs.config_spec _ _ (ex_config X)) as F.
    destruct (ex_hooks X) as (h1 & h2 & h3 & h4).
    rewrite (MacroConfigProofs.cf_bt F), n1 in h1. rewrite (MacroConfigProofs.cf_at F), n2 in h2.
    rewrite (MacroConfigProofs.cf_bd F), n3 in h3. rewrite (MacroConfigProofs.cf_ad F), n4 in h4.
    constructor; intros; cbn [generated_machine h_before_dispatch h_after_dispatch h_before_transition h_after_transition].
    - now rewrite h3. - now rewrite h4. - now rewrite h1. - now rewrite h2.
  Qed.
End Settings.

(** ** Histories *)
Lemma history_fun m stack md (ops : list (op m)) : forall sm cs cs' sm1 sm1',
  history stack md ops sm cs sm1 -> history stack md ops sm cs' sm1' -> cs = cs' /\ sm1 = sm1'.
Proof.
  induction ops as [|o ops IH]; intros sm cs cs' sm1 sm1' H H'; inversion H; inversion H'; subst; [auto|].
  match goal with A : exec _ _ _ _ = ?r, B : exec _ _ _ _ = ?r' |- _ => assert (Q : r = r') by congruence end.
  injection Q as -> -> -> ->.
  match goal with A : history _ _ ops _ ?c _, B : history _ _ ops _ ?c' _ |- _ => destruct (IH _ _ _ _ _ A B) as [-> ->] end. auto.
Qed.
Lemma unhooked_rel m1 m2 (R : relations m1 m2) t t' :
  Forall2 (obs_rel R) t t' -> Forall2 (obs_rel R) (unhooked t) (unhooked t').
Proof.
  intros F. induction F as [|a b l l' K F IH]; [constructor|]. unfold unhooked. cbn [filter].
  assert (E : negb (is_dispatch_hook a || is_transition_hook a) = negb (is_dispatch_hook b || is_transition_hook b)) by now destruct K.
  rewrite <- E. destruct (negb _); [constructor; assumption|exact IH].
Qed.
