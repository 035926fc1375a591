(** RegroupProofs.v — taking a superstate that only groups others away from an impl block (C98). *)

From Coq Require Import String List Bool Arith Lia Permutation.
From Verif Require Import MacroSyntax MacroVisit MacroAnalyze MacroLower MacroGen MacroSem MacroSpec.
From Verif Require Import MacroBasics MacroExpandProofs MacroLowerProofs MacroCallProofs MacroMachineProofs.
From Verif Require Import Machine Blocking Awaitable Api Spec Sim KindSim IdleSpec.
From Verif Require Import RenameSpec RenameProofs AddSpec AddProofs RegroupSpec.
From Verif Require MacroBehaviour RenameSim.
Import ListNotations.
Open Scope string_scope.
Open Scope list_scope.
Set Implicit Arguments.

(** ** A method that leaves its arguments as they are *)
Section Calls.
  Variables Val Sh Ev Cx : Type.
  Variable g : generated.
  Variable d : enum.
  Notation arg' := (arg Val Sh Ev Cx).
  Lemma set_nth_same A (l : list A) : forall n v, nth_error l n = Some v -> firstn n l ++ match skipn n l with [] => [] | _ :: r => v :: r end = l.
  Proof. induction l as [|a l IH]; intros [|n] v E; cbn in *; try discriminate; [congruence|]. f_equal. auto. Qed.
  Lemma set_field_same (x : value Val d) f v : get_field x f = Some v -> set_field x f v = x.
  Proof.
    unfold get_field, set_field. destruct (field_index x f) as [n|]; [|reflexivity]. intros E.
    assert (S : set_nth n v (vals x) = vals x) by (unfold set_nth; now apply set_nth_same).
    rewrite S. unfold with_vals, make. destruct (bool_dec (shaped d (tag x) (vals x)) true) as [H|N]; [|reflexivity].
    destruct x as [t vs H']. cbn in *. f_equal. apply Eqdep_dec.UIP_dec. apply bool_dec.
  Qed.
  Lemma write_read (s : store Val Sh Cx d) (e : option Ev) sl (a : arg') : read s e sl = Some a -> write s sl a = s.
  Proof.
    destruct s as [[x sh] cx]. destruct sl; cbn.
    - destruct (get_field x f) eqn:E; cbn; intros [= <-]. now rewrite (set_field_same _ _ E).
    - now intros [= <-].
    - destruct e; cbn; intros [= <-]. reflexivity.
    - now intros [= <-].
  Qed.
  Lemma write_all_read (s : store Val Sh Cx d) (e : option Ev) sls : forall l : list arg', all_some (map (read s e) sls) = Some l -> write_all s sls l = s.
  Proof.
    induction sls as [|sl sls IH]; intros l E; cbn in *; [now injection E as <-|].
    destruct (read s e sl) as [a|] eqn:R; [|discriminate]. destruct (all_some (map (read s e) sls)) as [l0|]; [|discriminate].
    injection E as <-. rewrite (write_read _ _ _ R). now apply IH.
  Qed.
  Lemma run_call_idle A (r : reply A) (run : ident -> list arg' -> reply A * list arg') F (e : Ev) f l (x : value Val d) sh cx :
    fields_of d (tag x) = Some F ->
    (forall j, In j l -> In j F \/ j = "shared_storage" \/ (true = true /\ j = g_event_ident g) \/ j = g_context_ident g) ->
    (forall as_, run f as_ = (r, as_)) ->
    run_call g run F (Some e) f l (x, sh, cx) = (r, (x, sh, cx)).
  Proof.
    intros FO SC H. unfold run_call.
    assert (Q : exists sls, all_some (map (resolve g F true) l) = Some sls /\
                exists as_, all_some (map (read (x, sh, cx) (Some e)) sls) = Some as_).
    { induction l as [|j l IH]; [exists []; split; [reflexivity|exists []; reflexivity]|].
      destruct IH as (sls & E & as_ & E'); [intros j' I; apply SC; now right|]. specialize (SC j (or_introl eq_refl)).
      assert (R : exists sl a, resolve g F true j = Some sl /\ read (x, sh, cx) (Some e) sl = Some a).
      { unfold resolve. destruct (existsb (String.eqb j) F) eqn:EF.
        - apply MacroCallProofs.existsb_in in EF. exists (SField j). cbn.
          destruct (get_field x j) as [v|] eqn:G; [eexists; split; reflexivity|].
          destruct (proj1 (@fields_defined Val d x F j FO) EF G).
        - assert (NF : ~ In j F) by (rewrite <- MacroCallProofs.existsb_in; congruence).
          destruct (j =? "shared_storage")%string eqn:E1; [exists SShared; eexists; split; reflexivity|].
          destruct (j =? g_event_ident g)%string eqn:E2; [exists SEvent; eexists; split; reflexivity|].
          destruct (j =? g_context_ident g)%string eqn:E3; [exists SContext; eexists; split; reflexivity|].
          apply String.eqb_neq in E1, E2, E3. exfalso. cbn in *. tauto. }
      destruct R as (sl & a & R1 & R2). exists (sl :: sls). cbn. cbn in R2. rewrite R1, E. split; [reflexivity|]. rewrite R2, E'. eexists; reflexivity. }
    destruct Q as (sls & E & as_ & E'). rewrite E, E', H. now rewrite (@write_all_read _ _ _ _ E').
  Qed.
End Calls.

(** ** Values of two enums with the same fields *)
Lemma same_vals Val (d d' : enum) (x : value Val d) (x' : value Val d') fs :
  fields_of d (tag x) = Some fs -> fields_of d' (tag x') = Some fs -> NoDup fs ->
  (forall f, get_field x' f = get_field x f) -> vals x' = vals x.
Proof.
  intros E E' ND H. pose proof (shape_ok x) as Hx. pose proof (shape_ok x') as Hy. unfold shaped in Hx, Hy.
  rewrite E in Hx. rewrite E' in Hy. apply Nat.eqb_eq in Hx, Hy.
  assert (G : forall n, n < length fs -> nth_error (vals x') n = nth_error (vals x) n).
  { intros n L. destruct (nth_error fs n) as [f|] eqn:F; [|apply nth_error_None in F; lia].
    specialize (H f). unfold get_field, field_index in H. rewrite E, E' in H.
    rewrite (@position_nth fs n f ND F) in H. exact H. }
  rewrite Hx in G, Hy. clear - G Hy. revert G Hy. generalize (vals x) (vals x'). intros l r. revert r. induction l as [|a l IH]; intros [|b r] G E; cbn in E; try discriminate; [reflexivity|].
  assert (b = a) as -> by (specialize (G 0 ltac:(cbn; lia)); cbn in G; congruence).
  f_equal. apply IH; [|lia]. intros n L. apply (G (S n)). cbn. lia.
Qed.

Section Two.
  Variable i : ident.
  Variables args args' : list meta.
  Variables item item' : item_impl.
  Variables g g' : generated.
  Variables c c' : config.
  Variables sms ums sms' ums' : list impl_fn.
  Hypothesis X : expanded args item g c sms ums.
  Hypothesis X' : expanded args' item' g' c' sms' ums'.
  Hypothesis CO : compiles g.
  Hypothesis CO' : compiles g'.
  Hypothesis ND : NoDup (map m_name (methods item)).
  Hypothesis ND' : NoDup (map m_name (methods item')).
  Hypothesis SS : same_settings g g'.
  Hypothesis AC : acyclic item.
  Variables Val Sh Ev Cx : Type.
  Variables (B : bodies Val Sh Ev Cx g) (B' : bodies Val Sh Ev Cx g').
  Hypothesis SB : same_bodies_but i item B B'.
  Hypothesis IM : idle_method i B.
  Variable mi : impl_fn.
  Hypothesis MI : In mi (methods item).
  Hypothesis NI : m_name mi = i.
  Hypothesis KI : marked "superstate" mi = true.
  Hypothesis KS : marked "state" mi = false.
  Hypothesis KA : marked "action" mi = false.
  Hypothesis EN : declared "superstate" "entry_action" mi = None.
  Hypothesis EX : declared "superstate" "exit_action" mi = None.
  Notation up := (declared "superstate" "superstate" mi).
  Hypothesis MV : forall m, In m (methods item) -> part_of_machine m -> m_name m <> i ->
      exists m', In m' (methods item') /\ moved_method i up m m'.
  Notation M := (generated_machine B).
  Notation state := (value Val (g_state_variants g)).
  Notation sup := (value Val (g_super_variants g)).
  Notation k := (place_of g i).

  Lemma mi_in : In mi ums.
  Proof. apply (in_ums X). auto. Qed.
  Lemma mi_vname : vname mi = pascal i.
  Proof. unfold vname. now rewrite NI. Qed.
  Lemma at_place (u : sup) : discriminant u = k <-> tag u = pascal i.
  Proof.
    assert (J : In (super_variant c mi) (g_super_variants g)) by (rewrite (ex_super_variants X); apply in_map, mi_in).
    destruct (In_nth_error _ _ J) as [n E].
    pose proof (@position_variant_nth (g_super_variants g) n (super_variant c mi) (co_super_variants CO) E) as P.
    change (v_name (super_variant c mi)) with (vname mi) in P. rewrite mi_vname in P.
    unfold place_of. rewrite P. destruct (super_method X u) as (m & I & T).
    pose proof (@disc_position Val args item g c sms ums X CO u m I T) as Q.
    split; intros H.
    - rewrite H in Q. pose proof (@super_disc Val args item g c sms ums X CO m u I T) as D.
      rewrite H in D. pose proof E as E2. rewrite (ex_super_variants X), nth_error_map, D in E2. cbn in E2. injection E2 as E2.
      rewrite T, <- mi_vname. assert (v_name (super_variant c m) = v_name (super_variant c mi)) as W; [|exact W].
      unfold super_variant. cbn. congruence.
    - assert (m = mi) as ->.
      { apply (same_by_vname _ _ _ (super_names X CO) I mi_in). rewrite <- T, H. symmetry. exact mi_vname. }
      rewrite mi_vname in Q. rewrite P in Q. congruence.
  Qed.

  Theorem idle_generated : idle k M.
  Proof.
    destruct IM as [IH IK].
    assert (HD : forall u : sup, tag u = pascal i -> select (call_handler_arms (g_super_arms g)) (tag u) = Some (super_pattern c mi, MacroLowerProofs.call_of c mi)).
    { intros u T. rewrite T, <- mi_vname, (ex_super_arms X). cbn [call_handler_arms].
      apply (select_method (super_pattern c) (MacroLowerProofs.call_of c) (fun _ => eq_refl) (super_names X CO) mi_in). }
    constructor; cbn [generated_machine u_disc u_handler u_entry u_exit h_before_dispatch h_after_dispatch].
    - intros u sh cx e T. apply at_place in T. unfold run_handler. rewrite (HD u T). cbn [MacroLowerProofs.call_of].
      assert (FO : fields_of (g_super_variants g) (tag u) = Some (p_fields (super_pattern c mi))).
      { rewrite T, <- mi_vname. exact (super_fields_of X CO mi mi_in). }
      pose proof (co_super_arms CO) as [A _]. rewrite (ex_super_arms X) in A. cbn [call_handler_arms] in A.
      destruct (A (super_pattern c mi) (MacroLowerProofs.call_of c mi)) as [SC _]; [apply in_map_iff; exists mi; split; [reflexivity|exact mi_in]|].
      rewrite (@run_call_idle Val Sh Ev Cx g _ _ (Returns Super) (b_handler B) _ e _ _ u sh cx FO SC); [reflexivity|].
      intros as_. rewrite NI. apply IH.
    - intros u sh cx T. apply at_place in T. unfold run_action. rewrite T, <- mi_vname, (ex_super_arms X). cbn [call_entry_action_arms].
      rewrite (select_method (super_pattern c) (fun m => action_code c item (declared "superstate" "entry_action" m)) (fun _ => eq_refl) (super_names X CO) mi_in).
      rewrite EN. reflexivity.
    - intros u sh cx T. apply at_place in T. unfold run_action. rewrite T, <- mi_vname, (ex_super_arms X). cbn [call_exit_action_arms].
      rewrite (select_method (super_pattern c) (fun m => action_code c item (declared "superstate" "exit_action" m)) (fun _ => eq_refl) (super_names X CO) mi_in).
      rewrite EX. reflexivity.
    - intros u sh e T. apply at_place in T. unfold run_hook. destruct (g_before_dispatch g) as [|p|p]; [reflexivity| |].
      + destruct (b_async B p); [reflexivity|]. apply IK. exact T.
      + apply IK. exact T.
    - intros u sh e T. apply at_place in T. unfold run_hook. destruct (g_after_dispatch g) as [|p|p]; [reflexivity| |].
      + destruct (b_async B p); [reflexivity|]. apply IK. exact T.
      + apply IK. exact T.
  Qed.
  (** ** Methods and moved methods *)
  Record pair (m m' : impl_fn) : Prop := {
    pr_in : In m (methods item);
    pr_in' : In m' (methods item');
    pr_not : m_name m <> i;
    pr_moved : moved_method i up m m'
  }.
  Notation kinds := ["state"; "superstate"].
  Lemma pair_exists kind m : In kind ["state"; "superstate"; "action"] -> In m (methods item) -> marked kind m = true ->
    m_name m <> i -> exists m', pair m m'.
  Proof.
    intros K I MK N. destruct (@MV m I) as (m' & I' & R); [|exact N|exists m'; constructor; assumption].
    unfold part_of_machine. cbn in K. destruct K as [<-|[<-|[<-|[]]]]; tauto.
  Qed.
  Lemma find_pair kind j m : In kind ["state"; "superstate"; "action"] -> find_method item kind j = Some m -> j <> i ->
    exists m', pair m m' /\ find_method item' kind j = Some m'.
  Proof.
    intros K F N. destruct (@find_method_in item kind j m F) as (I & MK & E). rewrite <- E in N.
    destruct (@pair_exists kind m K I MK N) as (m' & P). exists m'. split; [exact P|].
    rewrite <- E, <- (mv_name (pr_moved P)). apply (@find_method_some item' ND' kind m' (pr_in' P)).
    rewrite (@mv_marks _ _ _ _ (pr_moved P) kind K). exact MK.
  Qed.
  Lemma find_i kind m : find_method item kind i = Some m -> m = mi.
  Proof.
    intros F. destruct (@find_method_in item kind i m F) as (I & _ & E). apply (same_by_name _ _ _ ND I MI). congruence.
  Qed.
  Lemma CE : c_event_ident c' = c_event_ident c.
  Proof. rewrite <- (ex_event_ident X), <- (ex_event_ident X'). apply (ss_event SS). Qed.
  Lemma CC : c_context_ident c' = c_context_ident c.
  Proof. rewrite <- (ex_context_ident X), <- (ex_context_ident X'). apply (ss_context SS). Qed.
  Lemma state_fs m m' : moved_method i up m m' -> p_fields (state_pattern c' m') = p_fields (state_pattern c m).
  Proof.
    intros R. cbn. unfold state_fields, field_params. rewrite !(@mv_storage _ _ _ _ R) by (cbn; auto).
    now rewrite (mv_inputs R), CE, CC.
  Qed.
  Lemma super_fs m m' : moved_method i up m m' -> p_fields (super_pattern c' m') = p_fields (super_pattern c m).
  Proof.
    intros R. cbn. unfold super_fields, field_params. rewrite !(@mv_storage _ _ _ _ R) by (cbn; auto).
    now rewrite (mv_inputs R), CE, CC.
  Qed.
  Lemma up_not_i : up <> Some i.
  Proof.
    intros E. destruct AC as [rank R]. specialize (R mi i MI KI E). rewrite NI in R. lia.
  Qed.
  Lemma map_same l : map same l = l.
  Proof. apply map_id. Qed.

  Section Kind.
    Variable kind : ident.
    Variables d d' : enum.
    Variables ms ms' : list impl_fn.
    Variables pt pt' : impl_fn -> pattern.
    Hypothesis KK : In kind kinds.
    Hypothesis PN : forall m, p_variant (pt m) = vname m.
    Hypothesis PN' : forall m, p_variant (pt' m) = vname m.
    Hypothesis NN : NoDup (map vname ms).
    Hypothesis NN' : NoDup (map vname ms').
    Hypothesis FO : forall m, In m ms -> fields_of d (vname m) = Some (p_fields (pt m)).
    Hypothesis FO' : forall m, In m ms' -> fields_of d' (vname m) = Some (p_fields (pt' m)).
    Hypothesis IMs : forall m, In m ms <-> In m (methods item) /\ marked kind m = true.
    Hypothesis IMs' : forall m, In m ms' <-> In m (methods item') /\ marked kind m = true.
    Hypothesis FS : forall m m', moved_method i up m m' -> p_fields (pt' m') = p_fields (pt m).
    Hypothesis VM : forall x : value Val d, exists m, In m ms /\ tag x = vname m.
    Notation val := (value Val d).
    Notation val' := (value Val d').
    (** [rel]: the same value, and not the superstate [i]. *)
    Definition rel (x : val) (x' : val') : Prop :=
      same_value x x' /\ (marked kind mi = true -> tag x <> pascal i).

    Lemma kind3 : In kind ["state"; "superstate"; "action"].
    Proof. destruct KK as [<-|[<-|[]]]; cbn; auto. Qed.
    Record twin_of (m m' : impl_fn) (x : val) (x' : val') : Prop := {
      tw_pair : pair m m'; tw_in : In m ms; tw_in' : In m' ms';
      tw_tag : tag x = vname m; tw_tag' : tag x' = vname m';
      tw_paired : paired same (p_fields (pt m)) x x' }.
    Lemma twins_of (x : val) (x' : val') : rel x x' -> exists m m', twin_of m m' x x'.
    Proof.
      intros [[T V] N]. destruct (VM x) as (m & I & E). pose proof (proj1 (IMs m) I) as [I1 MK].
      assert (NM : m_name m <> i).
      { intros Q. assert (m = mi) as -> by (apply (same_by_name _ _ _ ND I1 MI); congruence).
        apply (N MK). rewrite E. exact mi_vname. }
      destruct (@pair_exists kind m kind3 I1 MK NM) as [m' P].
      assert (J' : In m' ms').
      { apply IMs'. split; [exact (pr_in' P)|]. rewrite (@mv_marks _ _ _ _ (pr_moved P) kind kind3). exact MK. }
      assert (E' : tag x' = vname m') by (rewrite T, E; unfold vname; now rewrite (mv_name (pr_moved P))).
      exists m, m'. constructor; auto. split; [rewrite E; auto|]. split; [|exact V].
      rewrite E', (FO' _ J'), map_same. now rewrite (FS (pr_moved P)).
    Qed.
    Lemma disc_twin (x : val) (x' : val') (y : val) (y' : val') : rel x x' -> rel y y' ->
      (discriminant x = discriminant y <-> discriminant x' = discriminant y').
    Proof.
      intros [[T1 _] _] [[T2 _] _]. rewrite !discriminant_tag, T1, T2. tauto.
    Qed.
    Lemma rel_step (x y : val) (x' y' : val') : rel x x' -> tag y = tag x -> tag y' = tag x' -> vals y' = vals y -> rel y y'.
    Proof. intros [[T V] N] E E' W. split; [split; congruence|]. rewrite E. exact N. Qed.

    (** The result of a call. *)
    Lemma call_twin A A' (RA : A -> A' -> Prop) run run' (e : option Ev) m m' f x x' sh cx :
      rel x x' -> twin_of m m' x x' -> pair (fst f) (snd f) ->
      (forall as_ : list (arg Val Sh Ev Cx), reply_rel RA (fst (run (m_name (fst f)) as_)) (fst (run' (m_name (fst f)) as_)) /\
        snd (run' (m_name (fst f)) as_) = snd (run (m_name (fst f)) as_)) ->
      let a := run_call g run (p_fields (pt m)) e (m_name (fst f)) (map param_ident (m_inputs (fst f))) (x, sh, cx) in
      let b := run_call g' run' (p_fields (pt' m')) e (m_name (snd f)) (map param_ident (m_inputs (snd f))) (x', sh, cx) in
      reply_rel RA (fst a) (fst b) /\ rel (fst (fst (snd a))) (fst (fst (snd b))) /\
      snd (fst (snd a)) = snd (fst (snd b)) /\ snd (snd a) = snd (snd b).
    Proof.
      intros RL T F H. destruct f as [f f']. cbn [fst snd] in *.
      pose proof (pr_moved F) as RF. rewrite (mv_inputs RF), (mv_name RF), (FS (pr_moved (tw_pair T))).
      assert (S : stores same (p_fields (pt m)) (x, sh, cx) (x', sh, cx)) by (repeat split; cbn; apply (tw_paired T)).
      assert (RS : renamed_settings same g g') by (destruct SS; constructor; assumption).
      pose proof (@run_call_sigma same same_proper Val Sh Ev Cx g g' RS d d' (p_fields (pt m)) A A' RA run run' e
                    (m_name f) (m_name f) (map param_ident (m_inputs f)) _ _ H S) as [Q1 Q2].
      rewrite !map_same in Q1, Q2.
      cbv zeta. split; [exact Q1|].
      destruct (run_call g run (p_fields (pt m)) e (m_name f) (map param_ident (m_inputs f)) (x, sh, cx)) as [r [[y s1] c1]] eqn:E1.
      destruct (run_call g' run' (p_fields (pt m)) e (m_name f) (map param_ident (m_inputs f)) (x', sh, cx)) as [r' [[y' s1'] c1']] eqn:E2.
      apply run_call_tag in E1. apply run_call_tag in E2. cbn in *. destruct Q2 as (P & A1 & A2). cbn in *.
      split; [|auto]. exact (@rel_step x y x' y' RL E1 E2 (proj2 (proj2 P))).
    Qed.

    Notation rel_state := (@same_value Val (g_state_variants g) (g_state_variants g')).
    Lemma handler_twin (x : val) (x' : val') sh cx e : rel x x' ->
      callback_rel (regrouped i B B') (response_rel rel_state) rel
        (run_handler B (map (fun m => (pt m, MacroLowerProofs.call_of c m)) ms) x sh cx e)
        (run_handler B' (map (fun m => (pt' m, MacroLowerProofs.call_of c' m)) ms') x' sh cx e).
    Proof.
      intros RL. destruct (twins_of RL) as (m & m' & H). unfold run_handler.
      rewrite (tw_tag H), (tw_tag' H), (select_method pt _ PN NN (tw_in H)), (select_method pt' _ PN' NN' (tw_in' H)).
      cbn [MacroLowerProofs.call_of].
      pose proof (@call_twin _ _ (response_rel rel_state) (b_handler B) (b_handler B') (Some e) m m' (m, m') x x' sh cx RL H (tw_pair H)) as Q.
      cbn [fst snd] in Q. specialize (Q ltac:(intros as_; apply (bb_handler SB);
        [exact (pr_in (tw_pair H))|exact (pr_not (tw_pair H))|destruct KK as [<-|[<-|[]]]; [left|right]; apply IMs, (tw_in H)])).
      cbv zeta in Q.
      destruct (run_call g (b_handler B) _ _ _ _ _) as [r [[y s1] c1]], (run_call g' (b_handler B') _ _ _ _ _) as [r' [[y' s1'] c1']].
      cbn in *. tauto.
    Qed.
    Lemma action_twin key (x : val) (x' : val') sh cx : In key ["entry_action"; "exit_action"] -> rel x x' ->
      (forall m j, In m ms -> declared kind key m = Some j -> exists ma, find_method item "action" j = Some ma) ->
      callback_rel (regrouped i B B') eq rel
        (run_action B (map (fun m => (pt m, action_code c item (declared kind key m))) ms) x sh cx)
        (run_action B' (map (fun m => (pt' m, action_code c' item' (declared kind key m))) ms') x' sh cx).
    Proof.
      intros K2 RL RE. destruct (twins_of RL) as (m & m' & H). unfold run_action.
      rewrite (tw_tag H), (tw_tag' H), (select_method pt _ PN NN (tw_in H)), (select_method pt' _ PN' NN' (tw_in' H)).
      rewrite (@mv_actions _ _ _ _ (pr_moved (tw_pair H)) kind key KK K2).
      destruct (declared kind key m) as [j|] eqn:D; cbn [action_code].
      2: { repeat split; auto; [constructor; reflexivity|apply RL|apply RL|apply RL]. }
      destruct (RE m j (tw_in H) D) as [ma F]. rewrite F.
      assert (NJ : j <> i).
      { intros ->. pose proof (find_i _ F) as ->. destruct (@find_method_in item "action" i mi F) as (_ & Q & _). congruence. }
      destruct (@find_pair "action" j ma) as [ma' [P F']]; [cbn; auto|exact F|exact NJ|]. rewrite F'. cbn [MacroLowerProofs.call_of].
      pose proof (@call_twin _ _ eq (b_action B) (b_action B') None m m' (ma, ma') x x' sh cx RL H P) as Q.
      cbn [fst snd] in Q.
      destruct (@find_method_in item "action" j ma F) as (Ia & Ma & _).
      specialize (Q ltac:(intros as_; rewrite (@bb_action _ _ _ _ _ _ _ _ _ _ SB ma as_ Ia (pr_not P) Ma);
                          split; [destruct (fst (b_action B (m_name ma) as_)); constructor; reflexivity|reflexivity])).
      cbv zeta in Q.
      destruct (run_call g (b_action B) _ _ _ _ _) as [r [[y s1] c1]], (run_call g' (b_action B') _ _ _ _ _) as [r' [[y' s1'] c1']].
      cbn in *. tauto.
    Qed.

    (** Superstates. *)
    Variable sup_of : val -> option sup.
    Variable sup_of' : val' -> option (value Val (g_super_variants g')).
    Hypothesis SP : forall m x, In m ms -> tag x = vname m ->
      match declared kind "superstate" m with
      | None => sup_of x = None
      | Some u => exists mu v, find_method item "superstate" u = Some mu /\ sup_of x = Some v /\ tag v = vname mu /\ mirrors x v /\
          super_link c item (declared kind "superstate" m) = Some (super_pattern c mu)
      end.
    Hypothesis SP' : forall m x, In m ms' -> tag x = vname m ->
      match declared kind "superstate" m with
      | None => sup_of' x = None
      | Some u => exists mu v, find_method item' "superstate" u = Some mu /\ sup_of' x = Some v /\ tag v = vname mu /\ mirrors x v /\
          super_link c' item' (declared kind "superstate" m) = Some (super_pattern c' mu)
      end.
    Notation same_sup := (@same_super_but i Val g g').
    Lemma mirrors_trans (x : val) (v w : sup) : mirrors x v -> mirrors v w -> mirrors x w.
    Proof. intros P Q f N. pose proof (Q f N) as E. rewrite E. apply P. congruence. Qed.
    Lemma other_tag j mu (v : sup) : find_method item "superstate" j = Some mu -> j <> i -> tag v = vname mu -> tag v <> pascal i.
    Proof.
      intros F N T E. destruct (@find_method_in item "superstate" j mu F) as (I & MK & Q).
      assert (mu = mi) as ->.
      { apply (same_by_vname _ _ _ (super_names X CO)); [apply (in_ums X); auto|exact mi_in|]. rewrite mi_vname. congruence. }
      congruence.
    Qed.
    Lemma view_twin j mu mu' m m' (x : val) (x' : val') (w : sup) w' : twin_of m m' x x' ->
      find_method item "superstate" j = Some mu -> find_method item' "superstate" j = Some mu' -> j <> i ->
      tag w = vname mu -> mirrors x w -> tag w' = vname mu' -> mirrors x' w' -> same_sup w w'.
    Proof.
      intros H F F' N T MR T' MR'. destruct (@find_pair "superstate" j mu) as [mu2 [P F2]]; [cbn; auto|exact F|exact N|].
      rewrite F' in F2. injection F2 as <-. split; [|exact (@other_tag j mu w F N T)].
      destruct (@find_method_in item "superstate" j mu F) as (Iu & Mu & _).
      destruct (@find_method_in item' "superstate" j mu' F') as (Iu' & Mu' & _).
      assert (J : In mu ums) by (apply (in_ums X); auto). assert (J' : In mu' ums') by (apply (in_ums X'); auto).
      pose proof (super_fields_of X CO mu J) as SF. pose proof (super_fields_of X' CO' mu' J') as SF'.
      pose proof (super_fs (pr_moved P)) as FE. cbn in FE. rewrite FE in SF'. rewrite <- T in SF. rewrite <- T' in SF'.
      split; [rewrite T, T'; unfold vname; now rewrite (mv_name (pr_moved P))|].
      apply (@same_vals Val _ _ w w' _ SF SF').
      - eapply (@super_fields_once' g CO); exact SF.
      - intros f. pose proof (@fields_defined Val _ w _ f SF) as D. pose proof (@fields_defined Val _ w' _ f SF') as D'.
        destruct (in_dec string_dec f (map f_name (super_fields c mu))) as [I|NI2].
        + rewrite (MR f), (MR' f) by tauto. exact (@paired_get same same_proper Val d d' _ x x' f (tw_paired H)).
        + destruct (get_field w f) eqn:G; [exfalso; apply NI2, D; discriminate|].
          destruct (get_field w' f) eqn:G'; [exfalso; apply NI2, D'; discriminate|]. reflexivity.
    Qed.

    Lemma link_twin (x : val) (x' : val') : rel x x' ->
      opt_rel same_sup
        match sup_of x with Some v => if Nat.eqb (discriminant v) k then u_super M v else Some v | None => None end
        (sup_of' x').
    Proof.
      intros RL. destruct (twins_of RL) as (m & m' & H).
      pose proof (@SP m x (tw_in H) (tw_tag H)) as S. pose proof (@SP' m' x' (tw_in' H) (tw_tag' H)) as S'.
      rewrite (@mv_super _ _ _ _ (pr_moved (tw_pair H)) kind KK) in S'.
      destruct (declared kind "superstate" m) as [j|] eqn:D; cbn [moved_to] in S'.
      2: { rewrite S, S'. constructor. }
      destruct S as (mu & v & F & E & T & MR & _). rewrite E. destruct (String.eqb_spec j i) as [->|N].
      - pose proof (find_i _ F) as ->. assert (Dv : discriminant v = k) by (apply at_place; rewrite T; exact mi_vname).
        rewrite Dv, Nat.eqb_refl. pose proof (@super_super Val Sh Ev Cx args item g c sms ums X CO B mi v mi_in T) as S2.
        pose proof up_not_i as UN.
        assert (U : (exists j2, up = Some j2) \/ up = None) by (clear; destruct up; [left; eauto|now right]).
        destruct U as [[j2 U]|U]; rewrite U in S2, S', UN.
        + destruct S2 as (mu2 & w & F2 & E2 & T2 & MR2 & _). rewrite E2. destruct S' as (mu2' & w' & F2' & E2' & T2' & MR2' & _). rewrite E2'.
          constructor. apply (@view_twin j2 mu2 mu2' m m' x x' w w' H F2 F2'); auto; [congruence|exact (@mirrors_trans x v w MR MR2)].
        + rewrite S2, S'. constructor.
      - assert (Dv : discriminant v <> k) by (intros Q; apply at_place in Q; exact (@other_tag j mu v F N T Q)).
        apply Nat.eqb_neq in Dv. rewrite Dv. destruct S' as (mu' & v' & F' & E' & T' & MR' & _). rewrite E'.
        constructor. exact (@view_twin j mu mu' m m' x x' v v' H F F' N T MR T' MR').
    Qed.
    Lemma put_through (x : val) (u0 w v : sup) : (forall n fs, fields_of d n = Some fs -> NoDup fs) ->
      mirrors x u0 -> mirrors u0 w -> tag v = tag w -> put_back g x (put_back g u0 v) = put_back g x v.
    Proof.
      intros FN P Q T. apply value_ext; [rewrite !put_back_tag; reflexivity| |].
      - intros fs E. exact (FN _ _ E).
      - intros f. rewrite !put_back_field. destruct (get_field v f) as [a|] eqn:G.
        + assert (W : get_field w f <> None).
          { destruct (value_variant w) as [ww [_ [_ FV]]]. pose proof FV as FV'. rewrite <- T in FV'.
            apply (fields_defined _ _ FV). apply (fields_defined _ _ FV'). congruence. }
          pose proof (Q f W) as E. destruct (get_field u0 f); [reflexivity|congruence].
        + destruct (get_field u0 f) as [b|] eqn:G0; [|reflexivity]. pose proof (P f ltac:(congruence)) as E. rewrite <- E, G0. reflexivity.
    Qed.
    Lemma sup_mirrors x v : sup_of x = Some v -> mirrors x v.
    Proof.
      intros E. destruct (VM x) as (m & I & T). pose proof (@SP m x I T) as S.
      destruct (declared kind "superstate" m); [|congruence].
      destruct S as (mu & v0 & _ & E0 & _ & MR & _). rewrite E in E0. injection E0 as <-. exact MR.
    Qed.
  End Kind.

  (** *** The two enums *)
  Notation rel_s := (@rel "state" (g_state_variants g) (g_state_variants g')).
  Notation rel_u := (@rel "superstate" (g_super_variants g) (g_super_variants g')).
  Notation same_sup := (@same_super_but i Val g g').
  Notation same_st := (@same_value Val (g_state_variants g) (g_state_variants g')).
  Lemma rel_state x x' : rel_s x x' <-> same_st x x'.
  Proof. unfold rel. rewrite KS. split; [tauto|]. intros H. split; [exact H|discriminate]. Qed.
  Lemma rel_super u u' : rel_u u u' <-> same_sup u u'.
  Proof. unfold rel, same_super_but. rewrite KI. tauto. Qed.
  Lemma in_two : In "state" kinds /\ In "superstate" kinds.
  Proof. cbn; auto. Qed.
  Lemma stateT x x' : same_st x x' -> exists m m', twin_of sms sms' (state_pattern c) m m' x x'.
  Proof.
    intros H. apply rel_state in H. revert H.
    exact (@twins_of "state" _ _ sms sms' (state_pattern c) (state_pattern c') (proj1 in_two)
      (state_fields_of X CO) (state_fields_of X' CO') (in_sms X) (in_sms X') state_fs (state_method X) x x').
  Qed.
  Lemma superT u u' : same_sup u u' -> exists m m', twin_of ums ums' (super_pattern c) m m' u u'.
  Proof.
    intros H. apply rel_super in H. revert H.
    exact (@twins_of "superstate" _ _ ums ums' (super_pattern c) (super_pattern c') (proj2 in_two)
      (super_fields_of X CO) (super_fields_of X' CO') (in_ums X) (in_ums X') super_fs (super_method X) u u').
  Qed.
  Lemma put_state x x' v v' : same_st x x' -> same_sup v v' -> same_st (put_back g x v) (put_back g' x' v').
  Proof.
    intros P Q. destruct (stateT P) as (m & m' & T). destruct (superT Q) as (n & n' & T2).
    split; [rewrite !put_back_tag; apply P|].
    destruct (@put_sigma same same_proper Val g g' _ _ _ _ x x' v v' (tw_paired T) (tw_paired T2)) as (_ & _ & W). exact W.
  Qed.
  Lemma put_super u u' v v' : same_sup u u' -> same_sup v v' -> same_sup (put_back g u v) (put_back g' u' v').
  Proof.
    intros P Q. destruct (superT P) as (m & m' & T). destruct (superT Q) as (n & n' & T2).
    split; [split|]; [rewrite !put_back_tag; apply P| |rewrite put_back_tag; apply P].
    destruct (@put_sigma same same_proper Val g g' _ _ _ _ u u' v v' (tw_paired T) (tw_paired T2)) as (_ & _ & W). exact W.
  Qed.
  Lemma s_mirrors (x : state) v : s_super M x = Some v -> mirrors x v.
  Proof. intros E. destruct (@state_super_some Val Sh Ev Cx args item g c sms ums X CO B x v E) as (? & ? & ? & _ & _ & _ & _ & _ & MR). exact MR. Qed.
  Lemma u_mirrors (x : sup) v : u_super M x = Some v -> mirrors x v.
  Proof. intros E. destruct (@super_super_some Val Sh Ev Cx args item g c sms ums X CO B x v E) as (? & ? & ? & _ & _ & _ & _ & _ & MR). exact MR. Qed.
  Lemma hook_twin h run run' (sh : Sh) : (forall p, run' p sh = run p sh) ->
    run_hook B' h run' sh = run_hook B h run sh.
  Proof. intros H. destruct h; cbn; rewrite ?(bb_async SB), ?H; reflexivity. Qed.
  Lemma hook_eq (a a' : reply unit * Sh) : a' = a -> hook_rel (regrouped i B B') a a'.
  Proof. intros ->. destruct a as [[[]| |] s]; (split; [|reflexivity]); constructor; reflexivity. Qed.
  Lemma to_rel A A' (RA : A -> A' -> Prop) X0 Y0 (RX RX' : X0 -> Y0 -> Prop) a a' :
    (forall x y, RX x y -> RX' x y) ->
    callback_rel (regrouped i B B') RA RX a a' -> callback_rel (regrouped i B B') RA RX' a a'.
  Proof.
    intros H. destruct a as [[[a x] s] z], a' as [[[a' x'] s'] z']. intros (P & Q & W & V).
    split; [exact P|]. split; [apply H; exact Q|]. split; assumption.
  Qed.

  Theorem regrouped_kindred : kindred (regrouped i B B').
  Proof.
    destruct in_two as [K1 K2].
    pose proof (state_fields_of X CO) as F1. pose proof (state_fields_of X' CO') as F1'.
    pose proof (super_fields_of X CO) as F2. pose proof (super_fields_of X' CO') as F2'.
    pose proof (state_names X CO) as N1. pose proof (state_names X' CO') as N1'.
    pose proof (super_names X CO) as N2. pose proof (super_names X' CO') as N2'.
    assert (AE : forall key, In key ["entry_action"; "exit_action"] -> forall m j, In m sms -> declared "state" key m = Some j -> exists ma, find_method item "action" j = Some ma).
    { intros key [<-|[<-|[]]] m j I D; [exact (re_entry (ex_state_resolved X _ I) D)|exact (re_exit (ex_state_resolved X _ I) D)]. }
    assert (AU : forall key, In key ["entry_action"; "exit_action"] -> forall m j, In m ums -> declared "superstate" key m = Some j -> exists ma, find_method item "action" j = Some ma).
    { intros key [<-|[<-|[]]] m j I D; [exact (re_entry (ex_super_resolved X _ I) D)|exact (re_exit (ex_super_resolved X _ I) D)]. }
    assert (SA : forall key, In key ["entry_action"; "exit_action"] -> forall x x' sh cx, same_st x x' ->
      callback_rel (regrouped i B B') eq same_st
        (run_action B (map (fun m => (state_pattern c m, action_code c item (declared "state" key m))) sms) x sh cx)
        (run_action B' (map (fun m => (state_pattern c' m, action_code c' item' (declared "state" key m))) sms') x' sh cx)).
    { intros key KY x x' sh cx H. apply rel_state in H. refine (@to_rel _ _ _ _ _ _ _ _ _ (fun x y => proj1 (rel_state x y)) _).
      exact (@action_twin "state" _ _ sms sms' (state_pattern c) (state_pattern c') K1 (fun _ => eq_refl) (fun _ => eq_refl) N1 N1' F1 F1' (in_sms X) (in_sms X') state_fs (state_method X) key x x' sh cx KY H (AE key KY)). }
    assert (UA : forall key, In key ["entry_action"; "exit_action"] -> forall x x' sh cx, same_sup x x' ->
      callback_rel (regrouped i B B') eq same_sup
        (run_action B (map (fun m => (super_pattern c m, action_code c item (declared "superstate" key m))) ums) x sh cx)
        (run_action B' (map (fun m => (super_pattern c' m, action_code c' item' (declared "superstate" key m))) ums') x' sh cx)).
    { intros key KY x x' sh cx H. apply rel_super in H. refine (@to_rel _ _ _ _ _ _ _ _ _ (fun x y => proj1 (rel_super x y)) _).
      exact (@action_twin "superstate" _ _ ums ums' (super_pattern c) (super_pattern c') K2 (fun _ => eq_refl) (fun _ => eq_refl) N2 N2' F2 F2' (in_ums X) (in_ums X') super_fs (super_method X) key x x' sh cx KY H (AU key KY)). }
    constructor.
    - apply (bb_initial SB).
    - intros x x' y y' H K. apply rel_state in H, K. exact (@disc_twin "state" _ _ x x' y y' H K).
    - intros x x' y y' H K. apply rel_super in H, K. exact (@disc_twin "superstate" _ _ x x' y y' H K).
    - intros x x' H. apply rel_state in H.
      exact (@link_twin "state" _ _ sms sms' (state_pattern c) (state_pattern c') K1 F1 F1' (in_sms X) (in_sms X') state_fs (state_method X)
        (s_super M) (s_super (generated_machine B'))
        (@state_super Val Sh Ev Cx args item g c sms ums X CO B) (@state_super Val Sh Ev Cx args' item' g' c' sms' ums' X' CO' B') x x' H).
    - intros x x' H. apply rel_super in H.
      exact (@link_twin "superstate" _ _ ums ums' (super_pattern c) (super_pattern c') K2 F2 F2' (in_ums X) (in_ums X') super_fs (super_method X)
        (u_super M) (u_super (generated_machine B'))
        (@super_super Val Sh Ev Cx args item g c sms ums X CO B) (@super_super Val Sh Ev Cx args' item' g' c' sms' ums' X' CO' B') x x' H).
    - intros x x' v v' w w' H K E _ D. apply (proj1 (discriminant_tag v w)) in D.
      assert (Q : s_put (without k M) x v = put_back g x v).
      { cbn [without s_put s_super u_put u_super] in *. destruct (s_super M x) as [u0|] eqn:E0; [|reflexivity].
        destruct (Nat.eqb (u_disc M u0) k); [|reflexivity].
        exact (@put_through _ x u0 w v (@state_fields_once g CO) (s_mirrors _ E0) (u_mirrors _ E) D). }
      change (same_st (s_put (without k M) x v) (put_back g' x' v')). rewrite Q. exact (put_state H K).
    - intros x x' v v' w w' H K E _ D. apply (proj1 (discriminant_tag v w)) in D.
      assert (Q : u_put (without k M) x v = put_back g x v).
      { cbn [without s_put s_super u_put u_super] in *. destruct (u_super M x) as [u0|] eqn:E0; [|reflexivity].
        destruct (Nat.eqb (u_disc M u0) k); [|reflexivity].
        exact (@put_through _ x u0 w v (@super_fields_once' g CO) (u_mirrors _ E0) (u_mirrors _ E) D). }
      change (same_sup (u_put (without k M) x v) (put_back g' x' v')). rewrite Q. exact (put_super H K).
    - intros u v. apply discriminant_tag. cbn [without u_put]. destruct (u_super M u) as [w|]; [destruct (Nat.eqb (u_disc M w) k)|]; apply put_back_tag.
    - intros x x' sh sh' cx cx' e e' H <- <- <-. cbn [without s_handler generated_machine]. rewrite (ex_state_arms X), (ex_state_arms X'). cbn [call_handler_arms].
      apply rel_state in H. refine (@to_rel _ _ _ _ _ _ _ _ _ (fun x y => proj1 (rel_state x y)) _).
      exact (@handler_twin "state" _ _ sms sms' (state_pattern c) (state_pattern c') K1 (fun _ => eq_refl) (fun _ => eq_refl) N1 N1' F1 F1' (in_sms X) (in_sms X') state_fs (state_method X) x x' sh cx e H).
    - intros x x' sh sh' cx cx' H <- <-. cbn [without s_entry generated_machine]. rewrite (ex_state_arms X), (ex_state_arms X'). cbn [call_entry_action_arms].
      apply SA; [cbn; auto|exact H].
    - intros x x' sh sh' cx cx' H <- <-. cbn [without s_exit generated_machine]. rewrite (ex_state_arms X), (ex_state_arms X'). cbn [call_exit_action_arms].
      apply SA; [cbn; auto|exact H].
    - intros x x' sh sh' cx cx' e e' H <- <- <-. cbn [without u_handler generated_machine]. rewrite (ex_super_arms X), (ex_super_arms X'). cbn [call_handler_arms].
      apply rel_super in H. refine (@to_rel _ _ _ _ _ _ _ _ _ (fun x y => proj1 (rel_super x y)) _).
      exact (@handler_twin "superstate" _ _ ums ums' (super_pattern c) (super_pattern c') K2 (fun _ => eq_refl) (fun _ => eq_refl) N2 N2' F2 F2' (in_ums X) (in_ums X') super_fs (super_method X) x x' sh cx e H).
    - intros x x' sh sh' cx cx' H <- <-. cbn [without u_entry generated_machine]. rewrite (ex_super_arms X), (ex_super_arms X'). cbn [call_entry_action_arms].
      apply UA; [cbn; auto|exact H].
    - intros x x' sh sh' cx cx' H <- <-. cbn [without u_exit generated_machine]. rewrite (ex_super_arms X), (ex_super_arms X'). cbn [call_exit_action_arms].
      apply UA; [cbn; auto|exact H].
    - intros sh sh' n n' e e' <- H <-. cbn [without h_before_dispatch generated_machine]. rewrite (ss_before_dispatch SS). apply hook_eq, hook_twin.
      intros p. now apply (bb_dispatch_hook SB).
    - intros sh sh' n n' e e' <- H <-. cbn [without h_after_dispatch generated_machine]. rewrite (ss_after_dispatch SS). apply hook_eq, hook_twin.
      intros p. now apply (bb_dispatch_hook SB).
    - intros sh sh' a a' b b' <- H K. cbn [without h_before_transition generated_machine]. rewrite (ss_before_transition SS). apply hook_eq, hook_twin.
      intros p. now apply (bb_transition_hook SB).
    - intros sh sh' a a' b b' <- H K. cbn [without h_after_transition generated_machine]. rewrite (ss_after_transition SS). apply hook_eq, hook_twin.
      intros p. now apply (bb_transition_hook SB).
  Qed.

  (** *** Bodies *)
  Lemma pushed (x : state) : exists x' : value Val (g_state_variants g'), same_st x x'.
  Proof.
    destruct (state_method X x) as (m & I & T). pose proof (proj1 (in_sms X m) I) as [I1 MK].
    assert (N : m_name m <> i).
    { intros Q. assert (m = mi) as -> by (apply (same_by_name _ _ _ ND I1 MI); congruence). congruence. }
    destruct (@pair_exists "state" m) as [m' P]; [cbn; auto|exact I1|exact MK|exact N|].
    assert (J' : In m' sms') by (apply (in_sms X'); split; [exact (pr_in' P)|]; rewrite (@mv_marks _ _ _ _ (pr_moved P) "state"); [exact MK|cbn; auto]).
    pose proof (state_fields_of X CO m I) as F. pose proof (state_fields_of X' CO' m' J') as F'.
    pose proof (state_fs (pr_moved P)) as FE. cbn in FE. rewrite FE in F'.
    assert (VN : vname m' = vname m) by (unfold vname; now rewrite (mv_name (pr_moved P))). rewrite VN in F'.
    destruct (@make_some Val (g_state_variants g') (tag x) (vals x)) as [x' [_ [T' V']]].
    { pose proof (shape_ok x) as S. unfold shaped in *. rewrite T, F in S. rewrite T, F'. exact S. }
    exists x'. split; assumption.
  Qed.
End Two.

Section Make.
  Variable i : ident.
  Variable item : item_impl.
  Variables g g' : generated.
  Variables Val Sh Ev Cx : Type.
  Notation st := (value Val (g_state_variants g)).
  Notation st' := (value Val (g_state_variants g')).
  Hypothesis PU : forall x : st, exists x' : st', same_value x x'.
  Variable B : bodies Val Sh Ev Cx g.

  Definition pull d (t : ident) (vs : list Val) : option (value Val d) := make d t vs.
  Lemma pull_same d d' (x : value Val d) (x' : value Val d') : same_value x x' -> pull d (tag x') (vals x') = Some x.
  Proof.
    intros [T V]. rewrite T, V. unfold pull. destruct (@make_some Val d (tag x) (vals x) (shape_ok x)) as [y [-> [T2 V2]]].
    f_equal. apply value_eq; assumption.
  Qed.
  Definition push (d : st') (x : st) : st' := match pull (g_state_variants g') (tag x) (vals x) with Some y => y | None => d end.
  Lemma push_same d x : same_value x (push d x).
  Proof.
    destruct (PU x) as [x' H]. unfold push, pull. destruct H as [T V]. pose proof (shape_ok x') as S. rewrite T, V in S.
    destruct (@make_some Val _ _ _ S) as [y [-> [T2 V2]]]. split; assumption.
  Qed.
  Definition made (d : st') : bodies Val Sh Ev Cx g' := {|
    b_handler := fun n l => let '(r, l') := b_handler B n l in
      (match r with
       | Returns Handled => Returns Handled | Returns Super => Returns Super
       | Returns (Transition x) => Returns (Transition (push d x))
       | Panics => Panics | Cancelled => Cancelled end, l');
    b_action := b_action B;
    b_dispatch_hook := fun p sh n e =>
      match n with
      | NState x => match pull (g_state_variants g) (tag x) (vals x) with Some y => b_dispatch_hook B p sh (NState y) e | None => (Returns tt, sh) end
      | NSuper u => match pull (g_super_variants g) (tag u) (vals u) with Some y => b_dispatch_hook B p sh (NSuper y) e | None => (Returns tt, sh) end
      end;
    b_transition_hook := fun p sh a b =>
      match pull (g_state_variants g) (tag a) (vals a), pull (g_state_variants g) (tag b) (vals b) with
      | Some x, Some y => b_transition_hook B p sh x y
      | _, _ => (Returns tt, sh)
      end;
    b_async := b_async B;
    b_initial := fun _ => push d (b_initial B (g_initial g))
  |}.
  Theorem made_same : exists B' : bodies Val Sh Ev Cx g', same_bodies_but i item B B'.
  Proof.
    destruct (PU (b_initial B (g_initial g))) as [d _]. exists (made d).
    constructor; cbn [made b_handler b_action b_dispatch_hook b_transition_hook b_async b_initial].
    - intros m l _ _ _. destruct (b_handler B (m_name m) l) as [[r| |] l']; cbn; (split; [|reflexivity]); try constructor.
      destruct r; constructor; constructor. apply push_same.
    - reflexivity.
    - intros p sh n n' e N. destruct N as [x x' V|u u' [V _]]; rewrite (pull_same V); reflexivity.
    - intros p sh a a' b b' H K. now rewrite (pull_same H), (pull_same K).
    - reflexivity.
    - apply push_same.
  Qed.
End Make.
