(** RenameSim.v — machines generated from an impl block and from the renamed one are alike. *)

From Coq Require Import String List Bool Arith Lia Permutation.
From Verif Require Import MacroSyntax MacroVisit MacroAnalyze MacroLower MacroGen MacroSem MacroSpec.
From Verif Require Import MacroBasics MacroExpandProofs MacroLowerProofs MacroCallProofs MacroMachineProofs.
From Verif Require Import Machine Api Spec Sim RenameSpec RenameProofs.
From Verif Require MacroBehaviour.
Import ListNotations.
Open Scope string_scope.
Open Scope list_scope.
Set Implicit Arguments.

(** A method and the renamed one. *)
Definition paired_methods (rho : ident -> ident) (item item' : item_impl) (m m' : impl_fn) : Prop :=
  In m (filter relevant (methods item)) /\ In m' (methods item') /\ m_name m' = rho (m_name m).
Lemma relevant_in item kind m : In kind ["state"; "superstate"; "action"] -> In m (methods item) -> marked kind m = true ->
  In m (filter relevant (methods item)).
Proof. intros K I M. apply filter_In. split; [exact I|]. apply existsb_exists. eauto. Qed.
Lemma paired_in rho item item' m m' : paired_methods rho item item' m m' -> In m (methods item).
Proof. intros (I & _). apply filter_In in I. tauto. Qed.
Lemma NoDup_left A (l r : list A) : NoDup (l ++ r) -> NoDup l.
Proof.
  induction l as [|a l IH]; cbn; intros N; constructor; inversion N; subst; [|auto].
  intros I. match goal with H : ~ In a _ |- _ => apply H end. apply in_or_app. auto.
Qed.

Section Two.
  Variables rho sigma : ident -> ident.
  Hypothesis PR : proper sigma.
  Variables args args' : list meta.
  Variables item item' : item_impl.
  Variables g g' : generated.
  Variables c c' : config.
  Variables sms ums sms' ums' : list impl_fn.
  Hypothesis X : expanded args item g c sms ums.
  Hypothesis X' : expanded args' item' g' c' sms' ums'.
  Hypothesis CO : compiles g.
  Hypothesis CO' : compiles g'.
  Hypothesis ND : NoDup (map m_name (methods item)).
  Hypothesis ND' : NoDup (map m_name (methods item')).
  Hypothesis RI : renamed_impl rho sigma item item'.
  Hypothesis RS : renamed_settings sigma g g'.
  Variables Val Sh Ev Cx : Type.
  Variables (B : bodies Val Sh Ev Cx g) (B' : bodies Val Sh Ev Cx g').
  Hypothesis RB : renamed_bodies item item' rho B B'.
  Notation pair := (paired_methods rho item item').
  Notation kinds := ["state"; "superstate"].

  Lemma CE : c_event_ident c' = sigma (c_event_ident c).
  Proof. rewrite <- (ex_event_ident X), <- (ex_event_ident X'). apply (rs_event RS). Qed.
  Lemma CC : c_context_ident c' = sigma (c_context_ident c).
  Proof. rewrite <- (ex_context_ident X), <- (ex_context_ident X'). apply (rs_context RS). Qed.
  Lemma pair_exists m : In m (filter relevant (methods item)) -> exists m', pair m m' /\ renamed_method rho sigma m m'.
  Proof.
    destruct RI as (ms & more & F & P). intros I. destruct (@combine_left _ _ _ _ _ _ F I) as [m' J].
    exists m'. pose proof (@Forall2_combine _ _ _ _ _ _ _ F J) as R. split; [|exact R].
    split; [exact I|]. split; [|exact (rn_name R)]. apply (Permutation_in _ P), in_or_app. left. exact (in_combine_r _ _ _ _ J).
  Qed.
  Arguments pair_exists {m}.
  Lemma pair_functional m m1 m2 : pair m m1 -> pair m m2 -> m1 = m2.
  Proof. intros (_ & I1 & E1) (_ & I2 & E2). apply (same_by_name _ _ _ ND' I1 I2). congruence. Qed.
  Arguments pair_functional {m m1 m2}.
  Lemma pair_renamed m m' : pair m m' -> renamed_method rho sigma m m'.
  Proof.
    intros P. destruct (pair_exists (proj1 P)) as (m2 & Q & R). now rewrite (pair_functional P Q).
  Qed.
  Arguments pair_renamed {m m'}.
  Lemma pair_injective m1 m2 m' : pair m1 m' -> pair m2 m' -> m1 = m2.
  Proof.
    destruct RI as (ms & more & F & P). intros (I1 & J1 & E1) (I2 & J2 & E2).
    destruct (@combine_left _ _ _ _ _ _ F I1) as [n1 K1]. destruct (@combine_left _ _ _ _ _ _ F I2) as [n2 K2].
    pose proof (@Forall2_combine _ _ _ _ _ _ _ F K1) as R1. pose proof (@Forall2_combine _ _ _ _ _ _ _ F K2) as R2.
    assert (A1 : In n1 (methods item')) by (apply (Permutation_in _ P), in_or_app; left; exact (in_combine_r _ _ _ _ K1)).
    assert (A2 : In n2 (methods item')) by (apply (Permutation_in _ P), in_or_app; left; exact (in_combine_r _ _ _ _ K2)).
    assert (n1 = m') as -> by (apply (same_by_name _ _ _ ND' A1 J1); rewrite (rn_name R1); congruence).
    assert (n2 = m') as -> by (apply (same_by_name _ _ _ ND' A2 J1); rewrite (rn_name R2); congruence).
    assert (NM : NoDup ms).
    { apply (@NoDup_left _ ms more), (Permutation_NoDup (Permutation_sym P)). exact (NoDup_map_inv _ _ ND'). }
    exact (combine_injective _ _ _ _ NM K1 K2).
  Qed.
  Arguments pair_injective {m1 m2 m'}.
  Lemma pair_marked kind m m' : pair m m' -> In kind ["state"; "superstate"; "action"] -> marked kind m' = marked kind m.
  Proof. intros I K. destruct (pair_renamed I) as [_ H _ _ _]; exact (H kind K). Qed.

  (** A reference to [i] in one block, to [rho i] in the other. *)
  Lemma find_pair kind i m : In kind ["state"; "superstate"; "action"] -> find_method item kind i = Some m ->
    exists m', pair m m' /\ find_method item' kind (rho i) = Some m'.
  Proof.
    intros K F. destruct (@find_method_in item kind i m F) as (I & M & N).
    destruct (pair_exists (@relevant_in item kind m K I M)) as (m' & J & _). exists m'. split; [exact J|].
    rewrite <- N, <- (rn_name (pair_renamed J)).
    apply (@find_method_some item' ND' kind m' (proj1 (proj2 J))).
    rewrite (pair_marked J K). exact M.
  Qed.

  Section Kind.
    Variable kind : ident.
    Variables d d' : enum.
    Variables ms ms' : list impl_fn.
    Variables pt pt' : impl_fn -> pattern.
    Hypothesis KI : In kind kinds.
    Hypothesis PN : forall m, p_variant (pt m) = vname m.
    Hypothesis PN' : forall m, p_variant (pt' m) = vname m.
    Hypothesis NN : NoDup (map vname ms).
    Hypothesis NN' : NoDup (map vname ms').
    Hypothesis FO : forall m, In m ms -> fields_of d (vname m) = Some (p_fields (pt m)).
    Hypothesis FO' : forall m, In m ms' -> fields_of d' (vname m) = Some (p_fields (pt' m)).
    Hypothesis IM : forall m, In m ms <-> In m (methods item) /\ marked kind m = true.
    Hypothesis IM' : forall m, In m ms' <-> In m (methods item') /\ marked kind m = true.
    Hypothesis FS : forall m m', renamed_method rho sigma m m' -> p_fields (pt' m') = map sigma (p_fields (pt m)).
    Notation val := (value Val d).
    Notation val' := (value Val d').

    Lemma kind3 : In kind ["state"; "superstate"; "action"].
    Proof. destruct KI as [<-|[<-|[]]]; cbn; auto. Qed.
    (** The methods of a pair of twins. *)
    Record twin_of (m m' : impl_fn) (x : val) (x' : val') : Prop := {
      tw_pair : pair m m'; tw_in : In m ms; tw_in' : In m' ms';
      tw_tag : tag x = vname m; tw_tag' : tag x' = vname m';
      tw_paired : paired sigma (p_fields (pt m)) x x' }.
    Lemma twins_of (x : val) (x' : val') : twins rho item item' kind x x' -> exists m m', twin_of m m' x x'.
    Proof.
      intros (m & m' & I1 & I2 & IE & M & T & T' & V). rewrite <- MacroBehaviour.vname_variant in T, T'.
      assert (I : pair m m') by (split; [exact (@relevant_in item kind m kind3 I1 M)|auto]).
      assert (J : In m ms) by (apply IM; split; [exact I1|exact M]).
      assert (J' : In m' ms').
      { apply IM'. split; [exact I2|]. rewrite (pair_marked I kind3). exact M. }
      exists m, m'. constructor; auto. split; [rewrite T; auto|]. split; [|exact V]. rewrite T', (FO' _ J').
      now rewrite (FS (pair_renamed I)).
    Qed.
    Lemma twins_back m m' (x : val) (x' : val') : pair m m' -> In m ms -> tag x = vname m -> tag x' = vname m' -> vals x' = vals x ->
      twins rho item item' kind x x'.
    Proof.
      intros P I T T' V. exists m, m'. rewrite <- !MacroBehaviour.vname_variant. apply IM in I. pose proof (paired_in P). destruct P as (? & ? & ?). tauto.
    Qed.
    Lemma disc_twin (x : val) (x' : val') (y : val) (y' : val') : twins rho item item' kind x x' -> twins rho item item' kind y y' ->
      (discriminant x = discriminant y <-> discriminant x' = discriminant y').
    Proof.
      intros T1 T2. destruct (twins_of T1) as (m & m' & H). destruct (twins_of T2) as (n & n' & K).
      rewrite !discriminant_tag, (tw_tag H), (tw_tag' H), (tw_tag K), (tw_tag' K). split; intros E.
      - pose proof (same_by_vname _ _ _ NN (tw_in H) (tw_in K) E) as <-.
        now rewrite (pair_functional (tw_pair H) (tw_pair K)).
      - pose proof (same_by_vname _ _ _ NN' (tw_in' H) (tw_in' K) E) as Q.
        pose proof (tw_pair K) as P. rewrite <- Q in P. now rewrite (pair_injective (tw_pair H) P).
    Qed.

    (** The result of a call. *)
    Lemma call_twin A A' (RA : A -> A' -> Prop) run run' (e : option Ev) m m' f x x' sh cx :
      twin_of m m' x x' -> pair (fst f) (snd f) ->
      (forall as_ : list (arg Val Sh Ev Cx), reply_rel RA (fst (run (m_name (fst f)) as_)) (fst (run' (m_name (snd f)) as_)) /\
        snd (run' (m_name (snd f)) as_) = snd (run (m_name (fst f)) as_)) ->
      let a := run_call g run (p_fields (pt m)) e (m_name (fst f)) (map param_ident (m_inputs (fst f))) (x, sh, cx) in
      let b := run_call g' run' (p_fields (pt' m')) e (m_name (snd f)) (map param_ident (m_inputs (snd f))) (x', sh, cx) in
      reply_rel RA (fst a) (fst b) /\ twins rho item item' kind (fst (fst (snd a))) (fst (fst (snd b))) /\
      snd (fst (snd a)) = snd (fst (snd b)) /\ snd (snd a) = snd (snd b).
    Proof.
      intros T F H. destruct f as [f f']. cbn [fst snd] in *.
      pose proof (pair_renamed F) as RF. rewrite (arguments_sigma PR RF), (FS (pair_renamed (tw_pair T))).
      assert (S : stores sigma (p_fields (pt m)) (x, sh, cx) (x', sh, cx)) by (repeat split; cbn; apply (tw_paired T)).
      pose proof (@run_call_sigma sigma PR Val Sh Ev Cx g g' RS d d' (p_fields (pt m)) A A' RA run run' e
                    (m_name f) (m_name f') (map param_ident (m_inputs f)) _ _ H S) as [Q1 Q2].
      cbv zeta. split; [exact Q1|].
      destruct (run_call g run (p_fields (pt m)) e (m_name f) (map param_ident (m_inputs f)) (x, sh, cx)) as [r [[y s1] c1]] eqn:E1.
      destruct (run_call g' run' (map sigma (p_fields (pt m))) e (m_name f') (map sigma (map param_ident (m_inputs f))) (x', sh, cx)) as [r' [[y' s1'] c1']] eqn:E2.
      apply run_call_tag in E1. apply run_call_tag in E2. cbn in *. destruct Q2 as (P & A1 & A2). cbn in *.
      split; [|auto]. apply (@twins_back m m' y y' (tw_pair T) (tw_in T)); [rewrite E1; apply (tw_tag T)|rewrite E2; apply (tw_tag' T)|apply P].
    Qed.

    Lemma handler_twin (x : val) (x' : val') sh cx e : twins rho item item' kind x x' ->
      let r := run_handler B (map (fun m => (pt m, MacroLowerProofs.call_of c m)) ms) x sh cx e in
      let r' := run_handler B' (map (fun m => (pt' m, MacroLowerProofs.call_of c' m)) ms') x' sh cx e in
      callback_rel (renamed_relations item item' rho B B') (response_rel (@twin_states item item' rho Val g g'))
        (fun (y : val) (y' : val') => twins rho item item' kind y y') r r'.
    Proof.
      intros T. destruct (twins_of T) as (m & m' & H). cbv zeta. unfold run_handler.
      rewrite (tw_tag H), (tw_tag' H), (select_method pt _ PN NN (tw_in H)), (select_method pt' _ PN' NN' (tw_in' H)).
      cbn [MacroLowerProofs.call_of].
      pose proof (@call_twin _ _ (response_rel (@twin_states item item' rho Val g g')) (b_handler B) (b_handler B') (Some e) m m' (m, m') x x' sh cx H (tw_pair H)) as Q.
      cbn [fst snd] in Q. specialize (Q ltac:(intros as_; rewrite (rn_name (pair_renamed (tw_pair H))); apply (rb_handler RB);
        [exact (paired_in (tw_pair H))|destruct KI as [<-|[<-|[]]]; [left|right]; apply IM, (tw_in H)])).
      cbv zeta in Q.
      destruct (run_call g (b_handler B) _ _ _ _ _) as [r [[y s1] c1]], (run_call g' (b_handler B') _ _ _ _ _) as [r' [[y' s1'] c1']].
      cbn in *. tauto.
    Qed.
    Lemma action_twin key (x : val) (x' : val') sh cx : In key ["superstate"; "entry_action"; "exit_action"] ->
      twins rho item item' kind x x' ->
      (forall m i, In m ms -> declared kind key m = Some i -> exists ma, find_method item "action" i = Some ma) ->
      let r := run_action B (map (fun m => (pt m, action_code c item (declared kind key m))) ms) x sh cx in
      let r' := run_action B' (map (fun m => (pt' m, action_code c' item' (declared kind key m))) ms') x' sh cx in
      callback_rel (renamed_relations item item' rho B B') eq (fun (y : val) (y' : val') => twins rho item item' kind y y') r r'.
    Proof.
      intros KK T RE. destruct (twins_of T) as (m & m' & H). cbv zeta. unfold run_action.
      rewrite (tw_tag H), (tw_tag' H), (select_method pt _ PN NN (tw_in H)), (select_method pt' _ PN' NN' (tw_in' H)).
      assert (RD : declared kind key m' = option_map rho (declared kind key m)) by (destruct (pair_renamed (tw_pair H)) as [_ _ W _ _]; exact (W kind key KI KK)); rewrite RD.
      destruct (declared kind key m) as [i|] eqn:D; cbn [option_map action_code].
      2: { repeat split; auto. now constructor. }
      destruct (RE m i (tw_in H) D) as [ma F]. rewrite F.
      destruct (@find_pair "action" i ma) as [ma' [P F']]; [cbn; auto|exact F|]. rewrite F'. cbn [MacroLowerProofs.call_of].
      pose proof (@call_twin _ _ eq (b_action B) (b_action B') None m m' (ma, ma') x x' sh cx H P) as Q.
      cbn [fst snd] in Q.
      destruct (@find_method_in item "action" i ma F) as (Ia & Ma & _).
      specialize (Q ltac:(intros as_; rewrite (rn_name (pair_renamed P)), (rb_action RB _ as_ Ia Ma);
                          split; [destruct (fst (b_action B (m_name ma) as_)); constructor; reflexivity|reflexivity])).
      cbv zeta in Q.
      destruct (run_call g (b_action B) _ _ _ _ _) as [r [[y s1] c1]], (run_call g' (b_action B') _ _ _ _ _) as [r' [[y' s1'] c1']].
      cbn in *. tauto.
    Qed.

    (** Views of superstates. *)
    Lemma super_twin (x : val) (x' : val') : twins rho item item' kind x x' ->
      (forall m i, In m ms -> declared kind "superstate" m = Some i -> exists mu, find_method item "superstate" i = Some mu) ->
      opt_rel (@twin_supers item item' rho Val g g')
        (run_superstate g (map (fun m => (pt m, super_link c item (declared kind "superstate" m))) ms) x)
        (run_superstate g' (map (fun m => (pt' m, super_link c' item' (declared kind "superstate" m))) ms') x').
    Proof.
      intros T RE. destruct (twins_of T) as (m & m' & H). unfold run_superstate.
      rewrite (tw_tag H), (tw_tag' H), (select_method pt _ PN NN (tw_in H)), (select_method pt' _ PN' NN' (tw_in' H)).
      assert (RD : declared kind "superstate" m' = option_map rho (declared kind "superstate" m))
        by (destruct (pair_renamed (tw_pair H)) as [_ _ W _ _]; apply (W kind "superstate" KI); cbn; auto).
      rewrite RD. destruct (declared kind "superstate" m) as [i|] eqn:D; cbn [option_map super_link]; [|constructor].
      destruct (RE m i (tw_in H) D) as [mu F]. rewrite F.
      destruct (@find_pair "superstate" i mu) as [mu' [P F']]; [cbn; auto|exact F|]. rewrite F'.
      destruct (@find_method_in item "superstate" i mu F) as (Iu & Mu & _).
      destruct (@find_method_in item' "superstate" (rho i) mu' F') as (Iu' & Mu' & _).
      assert (J : In mu ums) by (apply (in_ums X); auto). assert (J' : In mu' ums') by (apply (in_ums X'); auto).
      cbn [option_map super_pattern p_variant p_fields].
      pose proof (super_fields_of X CO mu J) as SF. pose proof (super_fields_of X' CO' mu' J') as SF'. unfold vname in SF, SF'.
      rewrite (super_fields_sigma PR _ _ CE CC (pair_renamed P)) in SF'. rewrite SF, SF'.
      pose proof (@view_sigma sigma PR Val g g' d d' (p_fields (pt m)) (map f_name (super_fields c mu)) x x' _ _ (tw_paired H) SF SF') as V.
      destruct (match all_some (map (get_field x) _) with Some _ => _ | None => _ end) as [v|],
        (match all_some (map (get_field x') _) with Some _ => _ | None => _ end) as [v'|]; try contradiction; [|constructor].
      destruct V as (T1 & T2 & V). constructor. exists mu, mu'. rewrite <- !MacroBehaviour.vname_variant. destruct P as (? & ? & ?). auto 10.
    Qed.
  End Kind.

  (** *** The two enums *)
  Lemma state_fs m m' : renamed_method rho sigma m m' ->
    p_fields (state_pattern c' m') = map sigma (p_fields (state_pattern c m)).
  Proof. intros R. exact (state_fields_sigma PR _ _ CE CC R). Qed.
  Lemma super_fs m m' : renamed_method rho sigma m m' ->
    p_fields (super_pattern c' m') = map sigma (p_fields (super_pattern c m)).
  Proof. intros R. exact (super_fields_sigma PR _ _ CE CC R). Qed.
  Lemma in_two : In "state" kinds /\ In "superstate" kinds.
  Proof. cbn; auto. Qed.
  Lemma stateT (x : value Val (g_state_variants g)) (x' : value Val (g_state_variants g')) : @twin_states item item' rho Val g g' x x' ->
    exists m m', twin_of sms sms' (state_pattern c) m m' x x'.
  Proof.
    exact (@twins_of "state" _ _ sms sms' (state_pattern c) (state_pattern c') (proj1 in_two)
      (state_fields_of X CO) (state_fields_of X' CO') (in_sms X) (in_sms X') state_fs x x').
  Qed.
  Lemma superT (x : value Val (g_super_variants g)) (x' : value Val (g_super_variants g')) : @twin_supers item item' rho Val g g' x x' ->
    exists m m', twin_of ums ums' (super_pattern c) m m' x x'.
  Proof.
    exact (@twins_of "superstate" _ _ ums ums' (super_pattern c) (super_pattern c') (proj2 in_two)
      (super_fields_of X CO) (super_fields_of X' CO') (in_ums X) (in_ums X') super_fs x x').
  Qed.
  Lemma hook_twin h run run' (sh : Sh) : (forall p, run' p sh = run p sh) ->
    run_hook B' h run' sh = run_hook B h run sh.
  Proof. intros H. destruct h; cbn; rewrite ?(rb_async RB), ?H; reflexivity. Qed.
  Lemma hook_eq (a a' : reply unit * Sh) : a' = a -> hook_rel (renamed_relations item item' rho B B') a a'.
  Proof. intros ->. destruct a as [[[]| |] s]; (split; [|reflexivity]); constructor; reflexivity. Qed.

  Theorem renamed_similar : similar (renamed_relations item item' rho B B').
  Proof.
    destruct in_two as [KS KU].
    pose proof (state_fields_of X CO) as F1. pose proof (state_fields_of X' CO') as F1'.
    pose proof (super_fields_of X CO) as F2. pose proof (super_fields_of X' CO') as F2'.
    pose proof (state_names X CO) as N1. pose proof (state_names X' CO') as N1'.
    pose proof (super_names X CO) as N2. pose proof (super_names X' CO') as N2'.
    constructor; cbn [renamed_relations r_state r_sup r_shared r_event r_ctx generated_machine initial s_disc u_disc
      s_super u_super s_put u_put s_handler s_entry s_exit u_handler u_entry u_exit Machine.State Machine.Sup Machine.Shared Machine.Ctx Machine.Event
      h_before_dispatch h_after_dispatch h_before_transition h_after_transition].
    - apply (rb_initial RB).
    - intros x x' y y' H K. exact (@disc_twin "state" _ _ sms sms' (state_pattern c) (state_pattern c') KS N1 N1' F1 F1' (in_sms X) (in_sms X') state_fs x x' y y' H K).
    - intros x x' y y' H K. exact (@disc_twin "superstate" _ _ ums ums' (super_pattern c) (super_pattern c') KU N2 N2' F2 F2' (in_ums X) (in_ums X') super_fs x x' y y' H K).
    - intros x x' H. rewrite (ex_state_arms X), (ex_state_arms X'). cbn [superstate_arms].
      apply (@super_twin "state" _ _ sms sms' (state_pattern c) (state_pattern c') KS (fun _ => eq_refl) (fun _ => eq_refl) N1 N1' F1 F1' (in_sms X) (in_sms X') state_fs x x' H).
      intros m i I D. exact (re_super (ex_state_resolved X _ I) D).
    - intros x x' H. rewrite (ex_super_arms X), (ex_super_arms X'). cbn [superstate_arms].
      apply (@super_twin "superstate" _ _ ums ums' (super_pattern c) (super_pattern c') KU (fun _ => eq_refl) (fun _ => eq_refl) N2 N2' F2 F2' (in_ums X) (in_ums X') super_fs x x' H).
      intros m i I D. exact (re_super (ex_super_resolved X _ I) D).
    - intros x x' v v' H K. destruct (stateT H) as (m & m' & T). destruct (superT K) as (n & n' & T2).
      apply (@twins_back "state" _ _ sms (in_sms X) m m' _ _ (tw_pair T) (tw_in T)).
      + rewrite put_back_tag. apply (tw_tag T).
      + rewrite put_back_tag. apply (tw_tag' T).
      + destruct (@put_sigma sigma PR Val g g' _ _ _ _ x x' v v' (tw_paired T) (tw_paired T2)) as (_ & _ & Q). exact Q.
    - intros x x' v v' H K. destruct (superT H) as (m & m' & T). destruct (superT K) as (n & n' & T2).
      apply (@twins_back "superstate" _ _ ums (in_ums X) m m' _ _ (tw_pair T) (tw_in T)).
      + rewrite put_back_tag. apply (tw_tag T).
      + rewrite put_back_tag. apply (tw_tag' T).
      + destruct (@put_sigma sigma PR Val g g' _ _ _ _ x x' v v' (tw_paired T) (tw_paired T2)) as (_ & _ & Q). exact Q.
    - intros x x' sh sh' cx cx' e e' H <- <- <-. rewrite (ex_state_arms X), (ex_state_arms X'). cbn [call_handler_arms].
      exact (@handler_twin "state" _ _ sms sms' (state_pattern c) (state_pattern c') KS (fun _ => eq_refl) (fun _ => eq_refl) N1 N1' F1 F1' (in_sms X) (in_sms X') state_fs x x' sh cx e H).
    - intros x x' sh sh' cx cx' H <- <-. rewrite (ex_state_arms X), (ex_state_arms X'). cbn [call_entry_action_arms].
      apply (@action_twin "state" _ _ sms sms' (state_pattern c) (state_pattern c') KS (fun _ => eq_refl) (fun _ => eq_refl) N1 N1' F1 F1' (in_sms X) (in_sms X') state_fs "entry_action" x x' sh cx); [cbn; auto|exact H|].
      intros m i I D. exact (re_entry (ex_state_resolved X _ I) D).
    - intros x x' sh sh' cx cx' H <- <-. rewrite (ex_state_arms X), (ex_state_arms X'). cbn [call_exit_action_arms].
      apply (@action_twin "state" _ _ sms sms' (state_pattern c) (state_pattern c') KS (fun _ => eq_refl) (fun _ => eq_refl) N1 N1' F1 F1' (in_sms X) (in_sms X') state_fs "exit_action" x x' sh cx); [cbn; auto|exact H|].
      intros m i I D. exact (re_exit (ex_state_resolved X _ I) D).
    - intros x x' sh sh' cx cx' e e' H <- <- <-. rewrite (ex_super_arms X), (ex_super_arms X'). cbn [call_handler_arms].
      exact (@handler_twin "superstate" _ _ ums ums' (super_pattern c) (super_pattern c') KU (fun _ => eq_refl) (fun _ => eq_refl) N2 N2' F2 F2' (in_ums X) (in_ums X') super_fs x x' sh cx e H).
    - intros x x' sh sh' cx cx' H <- <-. rewrite (ex_super_arms X), (ex_super_arms X'). cbn [call_entry_action_arms].
      apply (@action_twin "superstate" _ _ ums ums' (super_pattern c) (super_pattern c') KU (fun _ => eq_refl) (fun _ => eq_refl) N2 N2' F2 F2' (in_ums X) (in_ums X') super_fs "entry_action" x x' sh cx); [cbn; auto|exact H|].
      intros m i I D. exact (re_entry (ex_super_resolved X _ I) D).
    - intros x x' sh sh' cx cx' H <- <-. rewrite (ex_super_arms X), (ex_super_arms X'). cbn [call_exit_action_arms].
      apply (@action_twin "superstate" _ _ ums ums' (super_pattern c) (super_pattern c') KU (fun _ => eq_refl) (fun _ => eq_refl) N2 N2' F2 F2' (in_ums X) (in_ums X') super_fs "exit_action" x x' sh cx); [cbn; auto|exact H|].
      intros m i I D. exact (re_exit (ex_super_resolved X _ I) D).
    - intros sh sh' n n' e e' <- H <-. rewrite (rs_before_dispatch RS). apply hook_eq, hook_twin.
      intros p. now apply (rb_dispatch_hook RB).
    - intros sh sh' n n' e e' <- H <-. rewrite (rs_after_dispatch RS). apply hook_eq, hook_twin.
      intros p. now apply (rb_dispatch_hook RB).
    - intros sh sh' a a' b b' <- H K. rewrite (rs_before_transition RS). apply hook_eq, hook_twin.
      intros p. now apply (rb_transition_hook RB).
    - intros sh sh' a a' b b' <- H K. rewrite (rs_after_transition RS). apply hook_eq, hook_twin.
      intros p. now apply (rb_transition_hook RB).
  Qed.
End Two.
