(** MacroScopeProofs.v — lemmas for C67. *)

From Coq Require Import String List Bool Permutation.
From Verif Require Import Machine MacroSyntax MacroVisit MacroAnalyze MacroLower MacroGen MacroSem MacroSpec MacroAcceptSpec MacroScopeSpec.
From Verif Require Import MacroBasics MacroExpandProofs MacroLowerProofs MacroMachineProofs MacroBehaviour MacroConfigProofs.
From Verif Require MacroAcceptProofs.
Import ListNotations.
Open Scope string_scope.
Open Scope list_scope.
Set Implicit Arguments.

Lemma passed_params m : idents_only m -> flat_map passed_as (m_inputs m) = map param_ident (m_inputs m).
Proof.
  unfold idents_only. generalize (m_inputs m) as l. induction l as [|p l IH]; cbn; [reflexivity|]. intros I.
  rewrite IH by (intros pt J; apply I; now right). destruct p as [|[attrs pat t]]; [reflexivity|].
  destruct (I _ (or_introl eq_refl)) as [i E]. cbn in E. subst pat. reflexivity.
Qed.
Lemma add_field_nodup fs f : NoDup (map f_name fs) -> NoDup (map f_name (add_field fs f)).
Proof.
  induction fs as [|a fs IH]; cbn; intros N; [repeat constructor; tauto|].
  destruct (String.eqb_spec (f_name a) (f_name f)) as [E|NE]; cbn.
  - rewrite <- E. exact N.
  - inversion N as [|? ? N1 N2]; subst. constructor; [|auto]. intros I. apply add_field_names in I. destruct I as [I|I]; [auto|congruence].
Qed.
Lemma add_fields_nodup st : forall fs, NoDup (map f_name fs) -> NoDup (map f_name (fold_left add_field st fs)).
Proof. induction st as [|f st IH]; intros fs N; cbn; [exact N|]. apply IH, add_field_nodup, N. Qed.
Lemma field_params_nodup c m : idents_only m -> NoDup (map param_ident (m_inputs m)) -> NoDup (map pat_name (field_params c m)).
Proof.
  unfold idents_only, field_params. generalize (m_inputs m) as l. induction l as [|p l IH]; cbn; [constructor|]. intros I N.
  inversion N as [|? ? N1 N2]; subst.
  assert (R : NoDup (map pat_name (flat_map (field_param (c_event_ident c) (c_context_ident c)) l))).
  { apply IH; [intros pt J; apply I; now right|exact N2]. }
  rewrite map_app. destruct p as [|pt]; [exact R|]. cbn [field_param].
  destruct (I pt (or_introl eq_refl)) as [i E]. cbn [param_ident] in N1. unfold pat_name in N1. rewrite E in N1 |- *.
  destruct (c_event_ident c =? i)%string; [exact R|]. destruct (c_context_ident c =? i)%string; [exact R|]. cbn. constructor; [|exact R].
  unfold pat_name at 1. rewrite E. intros J. apply N1. clear -J.
  apply in_map_iff in J. destruct J as [q [<- J]]. apply in_flat_map in J. destruct J as [a [Ia J]].
  destruct a as [|r]; [destruct J|]. apply in_map_iff. exists (Typed r). split; [|exact Ia].
  assert (K : q = r); [|subst q; reflexivity].
  cbn in J. destruct (pt_pat r) as [h| | | | | |]; try (destruct J; fail); try (destruct J as [<-|[]]; reflexivity).
  destruct (c_event_ident c =? h)%string; [destruct J|]. destruct (c_context_ident c =? h)%string; [destruct J|]. destruct J as [<-|[]]. reflexivity.
Qed.

Section Fits.
  Variables (args : list meta) (item : item_impl) (g : generated) (c : config).
  Variables sms ums : list impl_fn.
  Hypothesis ND : NoDup (map m_name (methods item)).
  Hypothesis X : expanded args item g c sms ums.
  Hypothesis NI : map m_name (methods (g_impl g)) = map m_name (methods item).
  Notation ev := (c_event_ident c).
  Notation cx := (c_context_ident c).

  Lemma kept_state m : In m sms -> forall f, In f (map f_name (state_fields c m)) <-> keeps ev cx "state" m f.
  Proof. intros I f. exact (state_fields_names c f (proj1 (ex_state_methods X m I))). Qed.
  Lemma kept_super m : In m ums -> forall f, In f (map f_name (super_fields c m)) <-> keeps ev cx "superstate" m f.
  Proof. intros I f. exact (super_fields_names c f (proj1 (ex_super_methods X m I))). Qed.

  Lemma method_async m : In m (methods item) -> async_method g (m_name m) (m_async m).
  Proof.
    unfold async_method, methods. intros I. apply in_flat_map in I. destruct I as [it [It I]].
    pose proof (ex_impl X) as F. revert It. induction F as [|a b l l' S F IH]; [intros []|].
    intros [->|It].
    - destruct it as [m1|t]; [|destruct I]. destruct I as [->|[]]. destruct b as [m2|t]; [|destruct S].
      exists m2. split; [now left|]. destruct S. auto.
    - destruct (IH It) as [m' [I' R]]. exists m'. split; [|exact R]. apply in_flat_map in I'. destruct I' as [it' [J J']].
      apply in_flat_map. exists it'. split; [now right|exact J'].
  Qed.
  Lemma param_named m : idents_only m -> forall i,
    In i (map param_ident (m_inputs m)) <-> has_parameter m i \/ (In Receiver (m_inputs m) /\ i = "shared_storage").
  Proof.
    intros Id i. rewrite in_map_iff. split.
    - intros [p [E I]]. destruct p as [|pt]; cbn in E; [subst i; now right|].
      left. exists (Typed pt). split; [exact I|]. exists pt. split; [reflexivity|]. destruct (Id pt I) as [j P].
      unfold pat_name in E. rewrite P in E. congruence.
    - intros [[p [I [pt [-> P]]]]|[I ->]].
      + exists (Typed pt). split; [|exact I]. cbn. unfold pat_name. now rewrite P.
      + exists Receiver. auto.
  Qed.

  (** One node. *)
  Section Node.
    Variable kind : ident.
    Variable m : impl_fn.
    Variable p : pattern.
    Hypothesis Im : In m (methods item).
    Hypothesis Id : idents_only m.
    Hypothesis Fields : forall f, In f (p_fields p) <-> keeps ev cx kind m f.

    Lemma handler_ok : call_ok g p true (call_of c m) <-> distinct_arguments m.
    Proof.
      unfold distinct_arguments. rewrite (passed_params Id). cbn [call_of call_ok]. split; [tauto|]. intros N.
      split; [|split; [exact N|exact (method_async _ Im)]].
      rewrite (ex_event_ident X), (ex_context_ident X). intros i I. apply (param_named Id) in I. destruct I as [H|[_ ->]]; [|auto].
      destruct (string_dec i ev) as [->|N1]; [auto|]. destruct (string_dec i cx) as [->|N2]; [auto|].
      left. apply Fields. left. auto.
    Qed.
    Lemma action_ok ma : In ma (methods item) -> idents_only ma ->
      (call_ok g p false (call_of c ma) <-> action_fits ev cx kind m ma).
    Proof.
      intros Ia Ida. unfold action_fits, distinct_arguments. rewrite (passed_params Ida). cbn [call_of call_ok].
      rewrite (ex_context_ident X). split.
      - intros (S & N & _). split; [exact N|]. intros i H.
        destruct (S i (proj2 (param_named Ida i) (or_introl H))) as [F|[F|[[F _]|F]]]; [left; now apply Fields|auto|discriminate|auto].
      - intros (N & S). split; [|split; [exact N|exact (method_async _ Ia)]].
        intros i I. apply (param_named Ida) in I. destruct I as [H|[_ ->]]; [|auto].
        destruct (S i H) as [F|[F|F]]; [left; now apply Fields|auto|auto].
    Qed.
  End Node.

  Lemma declared_fits (kind key : ident) m (P : impl_fn -> Prop) k2 :
    (forall a, declared kind key m = Some a -> exists ma, find_method item k2 a = Some ma) ->
    ((forall a ma, declared kind key m = Some a -> find_method item k2 a = Some ma -> P ma) <->
     (forall ma, In ma (methods item) -> marked k2 ma = true -> declared kind key m = Some (m_name ma) -> P ma)).
  Proof.
    intros R. split.
    - intros H ma I K D. apply (H (m_name ma) ma D). exact (@find_method_some item ND k2 ma I K).
    - intros H a ma D F. destruct (@find_method_in item k2 a ma F) as (I & K & E). apply H; [exact I|exact K|]. congruence.
  Qed.

  Section Nodes.
    Variable kind : ident.
    Variable ms : list impl_fn.
    Variable pt : impl_fn -> pattern.
    Hypothesis IM : forall m, In m ms -> In m (methods item) /\ idents_only m.
    Hypothesis Fields : forall m, In m ms -> forall f, In f (p_fields (pt m)) <-> keeps ev cx kind m f.
    Hypothesis RE : forall m, In m ms -> resolved item kind m.
    Definition arms_for : arms := Arms
      (map (fun m => (pt m, call_of c m)) ms)
      (map (fun m => (pt m, action_code c item (declared kind "entry_action" m))) ms)
      (map (fun m => (pt m, action_code c item (declared kind "exit_action" m))) ms)
      (map (fun m => (pt m, super_link c item (declared kind "superstate" m))) ms).

    Lemma each_arm T (f : impl_fn -> T) (P : pattern -> T -> Prop) :
      (forall p k, In (p, k) (map (fun m => (pt m, f m)) ms) -> P p k) <-> (forall m, In m ms -> P (pt m) (f m)).
    Proof.
      split.
      - intros H m I. apply H. apply in_map_iff. exists m. auto.
      - intros H p k I. apply in_map_iff in I. destruct I as [m [E I]]. injection E as <- <-. exact (H m I).
    Qed.
    Lemma action_arm m key : In m ms ->
      (forall a, declared kind key m = Some a -> exists ma, find_method item "action" a = Some ma) ->
      (call_ok g (pt m) false (action_code c item (declared kind key m)) <->
       (forall ma, In ma (methods item) -> marked "action" ma = true -> declared kind key m = Some (m_name ma) ->
          action_fits ev cx kind m ma)).
    Proof.
      intros I R. rewrite <- (@declared_fits kind key m (fun ma => action_fits ev cx kind m ma) "action" R).
      destruct (declared kind key m) as [a|] eqn:D; cbn [action_code].
      - destruct (R a eq_refl) as [ma F]. rewrite F. destruct (@find_method_in item "action" a ma F) as (Ia & K & _).
        rewrite (@action_ok kind m (pt m) (Fields m I) ma Ia (proj1 (ex_action_methods X ma Ia K))).
        split; [intros H a' ma' E F'|intros H; exact (H a ma eq_refl F)]. injection E as <-. congruence.
      - split; [intros _ a ma E; discriminate|exact (fun _ => Logic.I)].
    Qed.
    Lemma arms_fit : arms_ok g arms_for <-> (forall m, In m ms -> node_fits ev cx item kind m).
    Proof.
      unfold arms_ok, arms_for. cbn [call_handler_arms call_entry_action_arms call_exit_action_arms superstate_arms].
      pose proof (each_arm (call_of c) (fun p k => call_ok g p true k)) as E1.
      pose proof (each_arm (fun m => action_code c item (declared kind "entry_action" m)) (fun p k => call_ok g p false k)) as E2.
      pose proof (each_arm (fun m => action_code c item (declared kind "exit_action" m)) (fun p k => call_ok g p false k)) as E3.
      pose proof (each_arm (fun m => super_link c item (declared kind "superstate" m))
        (fun p k => forall q, k = Some q -> forall i, In i (p_fields q) -> In i (p_fields p))) as E4.
      cbn beta in E1, E2, E3, E4. rewrite E1, E2, E3.
      assert (E4' : (forall p q, In (p, Some q) (map (fun m => (pt m, super_link c item (declared kind "superstate" m))) ms) ->
                       forall i, In i (p_fields q) -> In i (p_fields p)) <->
                    (forall m, In m ms -> forall mu, In mu (methods item) -> marked "superstate" mu = true ->
                       declared kind "superstate" m = Some (m_name mu) -> superstate_fits ev cx kind m mu)).
      { split.
        - intros H m I. apply (@declared_fits kind "superstate" m (fun mu => superstate_fits ev cx kind m mu) "superstate" (re_super (RE m I))).
          intros u mu D F f K. apply (Fields m I). apply (H (pt m) (super_pattern c mu)).
          + apply in_map_iff. exists m. split; [|exact I]. rewrite D. cbn [super_link]. now rewrite F.
          + destruct (@find_method_in item "superstate" u mu F) as (Iu & Ku & _).
            apply (@kept_super mu (proj2 (in_ums X mu) (conj Iu Ku))). exact K.
        - intros H p0 q0 J0. refine (proj2 E4 _ p0 (Some q0) J0 q0 eq_refl). clear p0 q0 J0.
          intros m I q Q i J. destruct (declared kind "superstate" m) as [u|] eqn:D; [|discriminate].
          cbn [super_link] in Q. destruct (re_super (RE m I) D) as [mu F]. rewrite F in Q. injection Q as <-.
          destruct (@find_method_in item "superstate" u mu F) as (Iu & Ku & N). subst u.
          apply (Fields m I). apply (H m I mu Iu Ku D).
          apply (@kept_super mu (proj2 (in_ums X mu) (conj Iu Ku))). exact J. }
      rewrite E4'. split.
      - intros (A & B & C & D) m I. destruct (IM m I) as [Im Id]. constructor.
        + exact (proj1 (@handler_ok kind m (pt m) Im Id (Fields m I)) (A m I)).
        + intros key ma [->| ->] Ia K Dc.
          * exact (proj1 (@action_arm m "entry_action" I (re_entry (RE m I))) (B m I) ma Ia K Dc).
          * exact (proj1 (@action_arm m "exit_action" I (re_exit (RE m I))) (C m I) ma Ia K Dc).
        + exact (D m I).
      - intros H. split; [|split; [|split]]; intros m I; destruct (IM m I) as [Im Id]; pose proof (H m I) as NF.
        + exact (proj2 (@handler_ok kind m (pt m) Im Id (Fields m I)) (nf_handler NF)).
        + apply (proj2 (@action_arm m "entry_action" I (re_entry (RE m I)))). intros ma. exact (nf_actions NF ma (or_introl eq_refl)).
        + apply (proj2 (@action_arm m "exit_action" I (re_exit (RE m I)))). intros ma. exact (nf_actions NF ma (or_intror eq_refl)).
        + exact (nf_superstate NF).
    Qed.
  End Nodes.
End Fits.

Lemma map_nodup_inj A B (f : A -> B) l : NoDup l -> (forall a b, In a l -> In b l -> f a = f b -> a = b) -> NoDup (map f l).
Proof.
  intros N. induction N as [|a l N1 N2 IH]; cbn; intros I; [constructor|]. constructor; [|apply IH; intros x y X Y; apply I; now right].
  intros J. apply in_map_iff in J. destruct J as [b [E J]]. apply N1. rewrite (I a b (or_introl eq_refl) (or_intror J) (eq_sym E)). exact J.
Qed.
Lemma nodup_map_inj A B (f : A -> B) l a b : NoDup (map f l) -> In a l -> In b l -> f a = f b -> a = b.
Proof.
  induction l as [|x l IH]; cbn; [tauto|]. intros N I J E. inversion N as [|? ? N1 N2]; subst.
  destruct I as [->|I], J as [->|J]; [reflexivity| | |auto].
  - exfalso. apply N1. rewrite E. now apply in_map.
  - exfalso. apply N1. rewrite <- E. now apply in_map.
Qed.
Lemma in_super_variants args item g c sms ums : expanded args item g c sms ums -> forall v,
  In v (all_variants g) <-> (exists m, In m sms /\ v = state_variant c m) \/ (exists m, In m ums /\ v = super_variant c m).
Proof.
  intros X v. unfold all_variants. rewrite (ex_state_variants X), (ex_super_variants X), in_app_iff, !in_map_iff.
  split; (intros [(m & A & B)|(m & A & B)]; [left|right]; exists m; auto).
Qed.

Lemma distinct_names item kind ms : NoDup (map m_name (methods item)) -> Permutation (filter (marked kind) (methods item)) ms ->
  (NoDup (map vname ms) <-> distinct_variants item kind).
Proof.
  intros ND P. assert (IN : forall m, In m ms <-> In m (methods item) /\ marked kind m = true).
  { intros m. rewrite <- filter_In. split; apply Permutation_in; [now apply Permutation_sym|exact P]. }
  assert (N : NoDup ms). { apply (Permutation_NoDup P). apply NoDup_filter. exact (NoDup_map_inv _ _ ND). }
  split.
  - intros H m m' I K I' K' E. rewrite <- !vname_variant in E.
    refine (@nodup_map_inj _ _ vname ms m m' H _ _ E); apply IN; auto.
  - intros H. apply map_nodup_inj; [exact N|]. intros a b A B E. rewrite !vname_variant in E.
    apply IN in A. apply IN in B. destruct A, B. exact (H a b ltac:(assumption) ltac:(assumption) ltac:(assumption) ltac:(assumption) E).
Qed.

Theorem compiles_iff o args item g : expand o args item = Done g ->
  (compiles g <-> well_scoped (event_name args) (context_name args) item).
Proof.
  intros E. pose proof (expand_names o args item E) as NI.
  split.
  - intros CO. destruct (expand_compiles o args item E CO) as [ND [c [sms [ums X]]]].
    destruct (config_spec args item (ex_config X)).
    unfold event_name, context_name. rewrite <- cf_event, <- cf_context.
    constructor.
    + exact ND.
    + apply (@distinct_names _ _ _ ND (ex_states X)). pose proof (co_state_variants CO) as N. rewrite (ex_state_variants X), map_map in N. exact N.
    + apply (@distinct_names _ _ _ ND (ex_supers X)). pose proof (co_super_variants CO) as N. rewrite (ex_super_variants X), map_map in N. exact N.
    + pose proof (co_params CO) as N. rewrite (ex_event_ident X), (ex_context_ident X) in N.
      inversion N as [|? ? N1 N2]; subst. inversion N2 as [|? ? N3 N4]; subst. cbn in N1, N3. intuition congruence.
    + intros kind m [->| ->] I K.
      * pose proof (co_state_arms CO) as A. rewrite (ex_state_arms X) in A.
        refine (proj1 (@arms_fit _ _ _ _ _ _ ND X "state" sms (state_pattern c) _ _ (ex_state_resolved X)) A m (proj2 (in_sms X m) (conj I K))).
        -- intros m' I'. split; [exact (proj1 (proj1 (in_sms X m') I'))|exact (proj1 (ex_state_methods X m' I'))].
        -- intros m' I' f. exact (kept_state X m' I' f).
      * pose proof (co_super_arms CO) as A. rewrite (ex_super_arms X) in A.
        refine (proj1 (@arms_fit _ _ _ _ _ _ ND X "superstate" ums (super_pattern c) _ _ (ex_super_resolved X)) A m (proj2 (in_ums X m) (conj I K))).
        -- intros m' I'. split; [exact (proj1 (proj1 (in_ums X m') I'))|exact (proj1 (ex_super_methods X m' I'))].
        -- intros m' I' f. exact (kept_super X m' I' f).
  - intros WS. pose proof (ws_methods WS) as ND. destruct (expand_done o args item ND E) as [c [sms [ums X]]].
    destruct (config_spec args item (ex_config X)).
    unfold event_name, context_name in WS. rewrite <- cf_event, <- cf_context in WS.
    assert (SM : forall m, In m sms -> In m (methods item) /\ idents_only m).
    { intros m' I'. split; [exact (proj1 (proj1 (in_sms X m') I'))|exact (proj1 (ex_state_methods X m' I'))]. }
    assert (UM : forall m, In m ums -> In m (methods item) /\ idents_only m).
    { intros m' I'. split; [exact (proj1 (proj1 (in_ums X m') I'))|exact (proj1 (ex_super_methods X m' I'))]. }
    assert (SF : forall m, In m sms -> node_fits (c_event_ident c) (c_context_ident c) item "state" m).
    { intros m I. apply (in_sms X) in I. destruct I as [I K]. exact (ws_nodes WS m (or_introl eq_refl) I K). }
    assert (UF : forall m, In m ums -> node_fits (c_event_ident c) (c_context_ident c) item "superstate" m).
    { intros m I. apply (in_ums X) in I. destruct I as [I K]. exact (ws_nodes WS m (or_intror eq_refl) I K). }
    constructor.
    + rewrite NI. exact ND.
    + rewrite (ex_state_variants X), map_map. exact (proj2 (@distinct_names _ _ _ ND (ex_states X)) (ws_states WS)).
    + rewrite (ex_super_variants X), map_map. exact (proj2 (@distinct_names _ _ _ ND (ex_supers X)) (ws_superstates WS)).
    + intros v I. apply (in_super_variants X) in I. destruct I as [(m & I & ->)|(m & I & ->)].
      * pose proof (nf_handler (SF m I)) as N. destruct (SM m I) as [_ Id]. unfold distinct_arguments in N. rewrite (passed_params Id) in N.
        cbn [state_variant v_fields]. apply add_fields_nodup. rewrite map_map. exact (field_params_nodup c Id N).
      * pose proof (nf_handler (UF m I)) as N. destruct (UM m I) as [_ Id]. unfold distinct_arguments in N. rewrite (passed_params Id) in N.
        cbn [super_variant v_fields]. apply add_fields_nodup. rewrite map_map. exact (field_params_nodup c Id N).
    + rewrite (ex_event_ident X), (ex_context_ident X). destruct (ws_names WS) as (A & B & C).
      repeat constructor; cbn; intuition congruence.
    + rewrite (ex_state_arms X).
      exact (proj2 (@arms_fit _ _ _ _ _ _ ND X "state" sms (state_pattern c) SM (fun m I f => kept_state X m I f) (ex_state_resolved X)) SF).
    + rewrite (ex_super_arms X).
      exact (proj2 (@arms_fit _ _ _ _ _ _ ND X "superstate" ums (super_pattern c) UM (fun m I f => kept_super X m I f) (ex_super_resolved X)) UF).
Qed.

Theorem hygienic_iff o args item g : expand o args item = Done g -> well_scoped (event_name args) (context_name args) item ->
  (hygienic item g <-> nothing_hidden (event_name args) (context_name args) item).
Proof.
  intros E WS. pose proof (ws_methods WS) as ND. destruct (expand_done o args item ND E) as [c [sms [ums X]]].
  destruct (config_spec args item (ex_config X)).
  unfold event_name, context_name in *. rewrite <- cf_event, <- cf_context in *.
  split.
  - intros H. constructor.
    + intros kind m f [->| ->] I K F.
      * pose proof (proj2 (in_sms X m) (conj I K)) as IS.
        pose proof (proj2 (kept_state X m IS f) (or_intror F)) as J. apply in_map_iff in J. destruct J as [fd [<- J]].
        pose proof (hy_fields H (state_variant c m) fd (proj2 (in_super_variants X _) (or_introl (ex_intro _ m (conj IS eq_refl)))) J) as R.
        rewrite (ex_event_ident X), (ex_context_ident X) in R. exact R.
      * pose proof (proj2 (in_ums X m) (conj I K)) as IS.
        pose proof (proj2 (kept_super X m IS f) (or_intror F)) as J. apply in_map_iff in J. destruct J as [fd [<- J]].
        pose proof (hy_fields H (super_variant c m) fd (proj2 (in_super_variants X _) (or_intror (ex_intro _ m (conj IS eq_refl)))) J) as R.
        rewrite (ex_event_ident X), (ex_context_ident X) in R. exact R.
    + intros m I [p [J N]]. exact (hy_params H m I J N).
  - intros H. constructor.
    + rewrite (ex_event_ident X), (ex_context_ident X). intros v f I J. apply (in_super_variants X) in I.
      destruct I as [(m & I & ->)|(m & I & ->)].
      * apply (in_map f_name) in J. apply (kept_state X m I) in J. apply (in_sms X) in I. destruct I as [I K].
        destruct J as [(P & N1 & N2)|J]; [|exact (nh_storage H m (f_name f) (or_introl eq_refl) I K J)].
        split; [|auto]. intros S. rewrite S in P. exact (nh_parameters H I P).
      * apply (in_map f_name) in J. apply (kept_super X m I) in J. apply (in_ums X) in I. destruct I as [I K].
        destruct J as [(P & N1 & N2)|J]; [|exact (nh_storage H m (f_name f) (or_intror eq_refl) I K J)].
        split; [|auto]. intros S. rewrite S in P. exact (nh_parameters H I P).
    + intros m p I J N. apply (nh_parameters H I). exists p. auto.
Qed.
