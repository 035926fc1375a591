(** AddProofs.v — an impl block with further methods gives a machine like the old one (C84). *)

From Coq Require Import String List Bool Arith Lia Permutation.
From Verif Require Import MacroSyntax MacroVisit MacroAnalyze MacroLower MacroGen MacroSem MacroSpec.
From Verif Require Import MacroBasics MacroExpandProofs MacroLowerProofs MacroCallProofs MacroMachineProofs.
From Verif Require Import Machine Api Spec Sim SimIff RenameSpec RenameProofs RenameSim RenameMake AddSpec.
From Verif Require MacroBehaviour.
Import ListNotations.
Open Scope string_scope.
Open Scope list_scope.
Set Implicit Arguments.

Definition same (i : ident) : ident := i.
Lemma same_proper : proper same.
Proof. split; [auto|reflexivity]. Qed.
Lemma part_relevant m : part_of_machine m <-> relevant m = true.
Proof.
  unfold part_of_machine, relevant. cbn [existsb]. rewrite orb_false_r, !orb_true_iff. tauto.
Qed.
Lemma incl_more A (l : list A) : forall l', NoDup l -> (forall a, In a l -> In a l') -> exists more, Permutation (l ++ more) l'.
Proof.
  induction l as [|a l IH]; intros l' N I; [exists l'; reflexivity|].
  inversion N as [|? ? NI N' E]; subst. destruct (in_split a l' (I a (or_introl eq_refl))) as (l1 & l2 & ->).
  destruct (IH (l1 ++ l2) N') as [more P].
  - intros b J. specialize (I b (or_intror J)). apply in_app_or in I. apply in_or_app. destruct I as [I|[->|I]]; tauto.
  - exists more. cbn. rewrite P. apply Permutation_middle.
Qed.
Lemma NoDup_names (l : list impl_fn) : NoDup (map m_name l) -> NoDup l.
Proof. apply NoDup_map_inv. Qed.
Lemma renamed_same m : idents_only m -> renamed_method same same m m.
Proof.
  intros I. constructor; try reflexivity.
  - intros kind key _ _. now destruct (declared kind key m).
  - intros kind _. now rewrite map_id.
  - unfold idents_only in I. induction (m_inputs m) as [|p l IH]; constructor.
    + destruct p as [|pt]; cbn; [exact Logic.I|]. destruct (I pt (or_introl eq_refl)) as [i E]. exists i. split; exact E.
    + apply IH. intros pt J. apply I. now right.
Qed.

Section Two.
  Variables args args' : list meta.
  Variables item item' : item_impl.
  Variables g g' : generated.
  Variables c c' : config.
  Variables sms ums sms' ums' : list impl_fn.
  Hypothesis X : expanded args item g c sms ums.
  Hypothesis X' : expanded args' item' g' c' sms' ums'.
  Hypothesis CO : compiles g.
  Hypothesis CO' : compiles g'.
  Hypothesis ND : NoDup (map m_name (methods item)).
  Hypothesis ND' : NoDup (map m_name (methods item')).
  Hypothesis EX : extends item item'.
  Hypothesis SS : same_settings g g'.
  Variables Val Sh Ev Cx : Type.

  Lemma as_renamed : renamed_impl same same item item'.
  Proof.
    destruct (@incl_more _ (filter relevant (methods item)) (methods item')) as [more P].
    - apply NoDup_filter, NoDup_names, ND.
    - intros m I. apply filter_In in I. destruct I as [I R]. apply EX; [exact I|]. now apply part_relevant.
    - exists (filter relevant (methods item)), more. split; [|exact P].
      assert (Q : forall m, In m (filter relevant (methods item)) -> renamed_method same same m m).
      { intros m I. apply filter_In in I. destruct I as [I R]. apply renamed_same.
        apply part_relevant in R. destruct R as [R|[R|R]].
        - apply (ex_state_methods X). apply (in_sms X). auto.
        - apply (ex_super_methods X). apply (in_ums X). auto.
        - apply (ex_action_methods X); auto. }
      clear P. induction (filter relevant (methods item)) as [|m l IH]; constructor; [apply Q; now left|].
      apply IH. intros m' I. apply Q. now right.
  Qed.
  Lemma settings_renamed : renamed_settings same g g'.
  Proof. destruct SS. constructor; assumption. Qed.

  Lemma same_states (x : value Val (g_state_variants g)) (x' : value Val (g_state_variants g')) :
    twin_states item item' same g g' x x' <-> same_value x x'.
  Proof.
    split.
    - intros (m & m' & I & I' & N & M & T & T' & V). split; [|exact V]. rewrite T, T'. unfold variant_of. now rewrite N.
    - intros [T V]. destruct (state_method X x) as (m & I & Tm). apply (in_sms X) in I. destruct I as [I M].
      exists m, m. rewrite MacroBehaviour.vname_variant in Tm. repeat split; auto; [apply EX; [exact I|now left]|congruence].
  Qed.
  Lemma same_supers (x : value Val (g_super_variants g)) (x' : value Val (g_super_variants g')) :
    twin_supers item item' same g g' x x' <-> same_value x x'.
  Proof.
    split.
    - intros (m & m' & I & I' & N & M & T & T' & V). split; [|exact V]. rewrite T, T'. unfold variant_of. now rewrite N.
    - intros [T V]. destruct (super_method X x) as (m & I & Tm). apply (in_ums X) in I. destruct I as [I M].
      exists m, m. rewrite MacroBehaviour.vname_variant in Tm. repeat split; auto; [apply EX; [exact I|unfold part_of_machine; auto]|congruence].
  Qed.
  Lemma same_nodes (n : node (value Val (g_state_variants g)) (value Val (g_super_variants g))) (n' : node (value Val (g_state_variants g')) (value Val (g_super_variants g'))) :
    node_rel (twin_states item item' same g g') (twin_supers item item' same g g') n n' <->
    node_rel (@same_value Val (g_state_variants g) (g_state_variants g')) (@same_value Val (g_super_variants g) (g_super_variants g')) n n'.
  Proof.
    split; apply node_rel_mono; intros x y; try apply same_states; apply same_supers.
  Qed.
  Lemma bodies_iff (B : bodies Val Sh Ev Cx g) (B' : bodies Val Sh Ev Cx g') :
    renamed_bodies item item' same B B' <-> same_bodies item B B'.
  Proof.
    split; intros [h a d t s i]; constructor.
    - intros m as_ I M. destruct (h m as_ I M) as [P Q]. split; [|exact Q]. revert P. apply reply_rel_mono. intros x y.
      apply response_rel_mono. intros; apply same_states; assumption.
    - exact a.
    - intros p sh n n' e N. apply d. apply same_nodes. exact N.
    - intros p sh x x' y y' P Q. apply t; apply same_states; assumption.
    - exact s.
    - apply same_states. exact i.
    - intros m as_ I M. destruct (h m as_ I M) as [P Q]. split; [|exact Q]. revert P. apply reply_rel_mono. intros x y.
      apply response_rel_mono. intros; apply same_states; assumption.
    - exact a.
    - intros p sh n n' e N. apply d. apply same_nodes. exact N.
    - intros p sh x x' y y' P Q. apply t; apply same_states; assumption.
    - exact s.
    - apply same_states. exact i.
  Qed.

  Theorem extended_similar (B : bodies Val Sh Ev Cx g) (B' : bodies Val Sh Ev Cx g') :
    same_bodies item B B' -> similar (same_relations B B').
  Proof.
    intros SB. apply bodies_iff in SB.
    pose proof (@RenameSim.renamed_similar same same same_proper args args' item item' g g' c c' sms ums sms' ums' X X' CO CO' ND' as_renamed settings_renamed Val Sh Ev Cx B B' SB) as S.
    refine (@similar_iff _ _ _ _ _ _ _ _ _ _ _ S); [exact same_states|exact same_supers].
  Qed.

  (** Functions that do anything where nothing is required. *)
  Definition machine_name (n : ident) : bool := existsb (fun m => (n =? m_name m)%string) (filter relevant (methods item)).
  Definition machine_variant (kind t : ident) : bool := existsb (fun m => marked kind m && (t =? variant_of m)%string) (methods item).
  Definition old_node_b (n : node (value Val (g_state_variants g')) (value Val (g_super_variants g'))) : bool :=
    match n with NState x => machine_variant "state" (tag x) | NSuper u => machine_variant "superstate" (tag u) end.
  Definition merge (B1 B2 : bodies Val Sh Ev Cx g') : bodies Val Sh Ev Cx g' := {|
    b_handler := fun n => if machine_name n then b_handler B1 n else b_handler B2 n;
    b_action := fun n => if machine_name n then b_action B1 n else b_action B2 n;
    b_dispatch_hook := fun p sh n e => if old_node_b n then b_dispatch_hook B1 p sh n e else b_dispatch_hook B2 p sh n e;
    b_transition_hook := fun p sh a b =>
      if machine_variant "state" (tag a) && machine_variant "state" (tag b) then b_transition_hook B1 p sh a b
      else b_transition_hook B2 p sh a b;
    b_async := b_async B1;
    b_initial := b_initial B1
  |}.
  Lemma named m : In m (filter relevant (methods item)) -> machine_name (m_name m) = true.
  Proof. intros I. apply existsb_exists. exists m. split; [exact I|apply String.eqb_refl]. Qed.
  Lemma varied_state (x : value Val (g_state_variants g)) (x' : value Val (g_state_variants g')) : same_value x x' ->
    machine_variant "state" (tag x') = true.
  Proof.
    intros [T V]. destruct (state_method X x) as (m & I & Tm). apply (in_sms X) in I. destruct I as [I M].
    apply existsb_exists. exists m. split; [exact I|]. rewrite M. rewrite MacroBehaviour.vname_variant in Tm.
    rewrite T, Tm. apply String.eqb_refl.
  Qed.
  Lemma varied_super (x : value Val (g_super_variants g)) (x' : value Val (g_super_variants g')) : same_value x x' ->
    machine_variant "superstate" (tag x') = true.
  Proof.
    intros [T V]. destruct (super_method X x) as (m & I & Tm). apply (in_ums X) in I. destruct I as [I M].
    apply existsb_exists. exists m. split; [exact I|]. rewrite M. rewrite MacroBehaviour.vname_variant in Tm.
    rewrite T, Tm. apply String.eqb_refl.
  Qed.
  Theorem extended_bodies (B : bodies Val Sh Ev Cx g) (B2 : bodies Val Sh Ev Cx g') :
    exists B' : bodies Val Sh Ev Cx g', same_bodies item B B' /\
      (forall n, (forall m, In m (methods item) -> part_of_machine m -> n <> m_name m) ->
         b_handler B' n = b_handler B2 n /\ b_action B' n = b_action B2 n).
  Proof.
    destruct (@RenameMake.bodies_exist same same same_proper args args' item item' g g' c c' sms ums sms' ums' X X' CO CO' ND' as_renamed settings_renamed Val Sh Ev Cx B) as [B1 RB].
    apply bodies_iff in RB. destruct RB as [h a d t s i]. exists (merge B1 B2). split; [constructor|]; cbn [merge b_handler b_action b_dispatch_hook b_transition_hook b_async b_initial].
    - intros m as_ I M. rewrite named; [auto|]. apply filter_In. split; [exact I|]. apply part_relevant. unfold part_of_machine. tauto.
    - intros m as_ I M. rewrite named; [auto|]. apply filter_In. split; [exact I|]. apply part_relevant. unfold part_of_machine. tauto.
    - intros p sh n n' e N. destruct N as [x x' V|u u' V]; cbn [old_node_b]; [rewrite (varied_state V)|rewrite (varied_super V)]; apply d; constructor; exact V.
    - intros p sh x x' y y' P Q. rewrite (varied_state P), (varied_state Q). cbn [andb]. auto.
    - exact s.
    - exact i.
    - intros n N. assert (E : machine_name n = false).
      { destruct (machine_name n) eqn:E; [|reflexivity]. apply existsb_exists in E. destruct E as (m & I & E).
        apply filter_In in I. destruct I as [I R]. apply part_relevant in R. apply String.eqb_eq in E. destruct (N m I R E). }
      rewrite E. auto.
  Qed.
End Two.
