(** MacroPathProofs.v — active paths and routes of generated machines, in terms of the names
    in the source. *)

From Coq Require Import String Ascii List Bool Arith Lia Permutation.
From Verif Require Import Machine Api Spec ShapeProofs.
From Verif Require ApiProofs HandleProofs.
From Verif Require Import MacroSyntax MacroVisit MacroAnalyze MacroLower MacroGen MacroSem.
From Verif Require Import MacroSpec MacroBasics MacroExpandProofs MacroLowerProofs MacroCallProofs
  MacroMachineProofs MacroBehaviour.
Import ListNotations.
Open Scope string_scope.
Open Scope list_scope.
Set Implicit Arguments.

Section Paths.
  Variables Val Sh Ev Cx : Type.
  Variables (args : list meta) (item : item_impl) (g : generated) (c : config).
  Variables sms ums : list impl_fn.
  Hypothesis ND : NoDup (map m_name (methods item)).
  Hypothesis X : expanded args item g c sms ums.
  Hypothesis CO : compiles g.
  Variable B : bodies Val Sh Ev Cx g.
  Notation M := (generated_machine B).
  Notation state := (value Val (g_state_variants g)).
  Notation sup := (value Val (g_super_variants g)).
  Notation H := (generated_hierarchy g).

  Definition nth_name (ms : list impl_fn) (i : nat) : ident :=
    match nth_error ms i with Some m => m_name m | None => "" end.
  Definition element_of (p : place) : element :=
    match p with
    | AtState i => ("state", nth_name sms i)
    | AtSuper i => ("superstate", nth_name ums i)
    end.
  Definition valid (p : place) : Prop :=
    match p with AtState i => i < length sms | AtSuper i => i < length ums end.

  Lemma names_sms : NoDup (map m_name sms).
  Proof.
    apply Permutation_NoDup with (map m_name (filter (marked "state") (methods item))).
    - apply Permutation_map. apply (ex_states X).
    - apply (filter_names_nodup (marked "state") _ ND).
  Qed.
  Lemma names_ums : NoDup (map m_name ums).
  Proof.
    apply Permutation_NoDup with (map m_name (filter (marked "superstate") (methods item))).
    - apply Permutation_map. apply (ex_supers X).
    - apply (filter_names_nodup (marked "superstate") _ ND).
  Qed.
  Lemma nth_name_inj ms i j : NoDup (map m_name ms) -> i < length ms -> j < length ms ->
    nth_name ms i = nth_name ms j -> i = j.
  Proof.
    intros N Li Lj E. rewrite NoDup_nth_error in N. apply N; [now rewrite map_length|].
    rewrite !nth_error_map. unfold nth_name in E.
    destruct (nth_error ms i) eqn:E1; [|apply nth_error_None in E1; lia].
    destruct (nth_error ms j) eqn:E2; [|apply nth_error_None in E2; lia].
    cbn. congruence.
  Qed.
  Lemma element_inj p q : valid p -> valid q -> element_of p = element_of q -> p = q.
  Proof.
    destruct p as [i|i], q as [j|j]; cbn; intros V W E; try discriminate; injection E as E; f_equal.
    - exact (@nth_name_inj sms i j names_sms V W E).
    - exact (@nth_name_inj ums i j names_ums V W E).
  Qed.

  Lemma sup_parent_none i m : nth_error ums i = Some m -> sup_parent H i = None ->
    declared "superstate" "superstate" m = None.
  Proof.
    intros E. unfold generated_hierarchy, arm_parent. cbn [sup_parent].
    rewrite (ex_super_arms X). cbn [superstate_arms]. rewrite nth_error_map, E. cbn [option_map].
    destruct (declared "superstate" "superstate" m) as [u|] eqn:DE; [|auto].
    assert (I : In m ums) by (eapply nth_error_In; eauto).
    destruct (re_super (ex_super_resolved X _ I) DE) as [mu F]. cbn. rewrite F. cbn.
    destruct (find_method_in _ _ _ F) as [Iu [Ku _]]. assert (Iu' : In mu ums) by (apply (in_ums X); auto).
    destruct (In_nth_error _ _ Iu') as [n En].
    assert (P' : position (fun v => (v_name v =? pascal (m_name mu))%string) (g_super_variants g) = Some n).
    { apply (@position_variant_nth (g_super_variants g) n (super_variant c mu)); [apply CO|].
      rewrite (ex_super_variants X), nth_error_map, En. reflexivity. }
    rewrite P'. discriminate.
  Qed.

  Lemma chain_lineage o l : chain H o l ->
    (forall i, o = Some i -> i < length ums) ->
    lineage item (option_map (nth_name ums) o) (map (nth_name ums) l) /\ Forall (fun i => i < length ums) l.
  Proof.
    induction 1 as [|i l C IH]; intros V; [split; constructor|].
    specialize (V i eq_refl). destruct (nth_error ums i) as [m|] eqn:E; [|apply nth_error_None in E; lia].
    assert (I : In m ums) by (eapply nth_error_In; eauto).
    assert (IM : In m (methods item) /\ marked "superstate" m = true) by (apply (in_ums X); auto).
    assert (P : option_map (nth_name ums) (sup_parent H i) = declared "superstate" "superstate" m).
    { destruct (sup_parent H i) as [j|] eqn:S.
      - destruct (@sup_parent_spec args item g c sms ums X CO i j S) as (m1 & u & mu & E1 & DE & Ej & <-).
        rewrite E in E1. injection E1 as <-. rewrite DE. cbn. unfold nth_name. rewrite Ej. reflexivity.
      - cbn. symmetry. exact (@sup_parent_none i m E S). }
    destruct IH as [L F].
    { intros j S. destruct (@sup_parent_spec args item g c sms ums X CO i j S) as (m1 & u & mu & _ & _ & Ej & _).
      apply nth_error_Some. congruence. }
    split; [|now constructor]. cbn. unfold nth_name at 1 2. rewrite E. constructor; [apply IM..|].
    rewrite <- P. exact L.
  Qed.

  Lemma leaf_parent_spec m i : nth_error sms i = Some m ->
    option_map (nth_name ums) (leaf_parent H i) = declared "state" "superstate" m /\
    forall j, leaf_parent H i = Some j -> j < length ums.
  Proof.
    intros E. assert (I : In m sms) by (eapply nth_error_In; eauto).
    unfold generated_hierarchy, arm_parent. cbn [leaf_parent].
    rewrite (ex_state_arms X). cbn [superstate_arms]. rewrite nth_error_map, E. cbn [option_map].
    destruct (declared "state" "superstate" m) as [u|] eqn:DE; cbn; [|split; [reflexivity|discriminate]].
    destruct (re_super (ex_state_resolved X _ I) DE) as [mu F]. rewrite F. cbn.
    destruct (find_method_in _ _ _ F) as [Iu [Ku Nu]]. assert (Iu' : In mu ums) by (apply (in_ums X); auto).
    destruct (In_nth_error _ _ Iu') as [n En].
    assert (P' : position (fun v => (v_name v =? pascal (m_name mu))%string) (g_super_variants g) = Some n).
    { apply (@position_variant_nth (g_super_variants g) n (super_variant c mu)); [apply CO|].
      rewrite (ex_super_variants X), nth_error_map, En. reflexivity. }
    rewrite P'. cbn. unfold nth_name. rewrite En. split; [congruence|].
    intros j [= <-]. apply nth_error_Some. congruence.
  Qed.

  Lemma upward_declared m i ps : nth_error sms i = Some m -> upward H i ps ->
    declared_upward item m (map element_of ps) /\ Forall valid ps.
  Proof.
    intros E [l [C ->]]. destruct (leaf_parent_spec _ E) as [P V].
    destruct (chain_lineage C V) as [L F]. split.
    - exists (map (nth_name ums) l). split; [rewrite <- P; exact L|].
      cbn. unfold nth_name at 1. rewrite E. f_equal. rewrite !map_map. reflexivity.
    - constructor; [apply nth_error_Some; cbn; congruence|]. apply Forall_map. exact F.
  Qed.
  Lemma path_declared m i p : nth_error sms i = Some m -> Spec.path H i p ->
    declared_path item m (map element_of p) /\ Forall valid p.
  Proof.
    intros E [l [C ->]]. destruct (@upward_declared m i (AtState i :: map AtSuper l) E) as [U V].
    { exists l. auto. }
    assert (R : map AtSuper (rev l) ++ [AtState i] = rev (AtState i :: map AtSuper l)).
    { cbn. rewrite map_rev. reflexivity. }
    rewrite R. split.
    - unfold declared_path. rewrite <- map_rev, rev_involutive. exact U.
    - apply Forall_rev. exact V.
  Qed.

  Definition step_of (a : act) : step :=
    match a with Exit p => Exits (element_of p) | Enter p => Enters (element_of p) end.
  Lemma diverge_declared xs ys : Forall valid xs -> Forall valid ys -> diverge xs ys ->
    diverge (map element_of xs) (map element_of ys).
  Proof.
    destruct xs as [|x xs], ys as [|y ys]; cbn; auto. intros Vx Vy N E.
    inversion Vx; inversion Vy; subst. apply N. apply element_inj; auto.
  Qed.
  Lemma route_declared ms mt i j full : nth_error sms i = Some ms -> nth_error sms j = Some mt ->
    route H i j full ->
    declared_route item ms mt (map step_of full) /\ Forall (fun a => valid (act_place a)) full.
  Proof.
    intros Ei Ej [[<- ->]|[N (common & xs & ys & Ps & Pt & D & ->)]].
    - rewrite Ei in Ej. injection Ej as <-. split.
      + left. split; [reflexivity|]. cbn. unfold nth_name. rewrite Ei. reflexivity.
      + assert (i < length sms) by (apply nth_error_Some; congruence). repeat constructor; cbn; auto.
    - destruct (path_declared Ei Ps) as [Ds Vs]. destruct (path_declared Ej Pt) as [Dt Vt].
      apply Forall_app in Vs. apply Forall_app in Vt. destruct Vs as [_ Vx], Vt as [_ Vy]. split.
      + right. split.
        * intros ->. apply N. apply (@nth_name_inj sms i j names_sms);
            [apply nth_error_Some; congruence|apply nth_error_Some; congruence|].
          unfold nth_name. rewrite Ei, Ej. reflexivity.
        * exists (map element_of common), (map element_of xs), (map element_of ys).
          rewrite !map_app in *. split; [exact Ds|]. split; [exact Dt|].
          split; [apply diverge_declared; auto|]. rewrite <- (map_rev element_of), !map_map. reflexivity.
      + apply Forall_app. split; apply Forall_map; cbn; [apply Forall_rev|]; auto.
  Qed.

  Lemma belongs_place (n : node state sup) : belongs item n (element_of (@place_of M n)).
  Proof.
    destruct n as [x|u].
    - destruct (state_method X x) as [m [I T]]. pose proof (state_disc X CO _ x I T) as E.
      cbn. unfold nth_name. rewrite E. exists m. assert (J := proj1 (in_sms X m) I).
      rewrite <- vname_variant. cbn. tauto.
    - destruct (super_method X u) as [m [I T]]. pose proof (super_disc X CO _ u I T) as E.
      cbn. unfold nth_name. rewrite E. exists m. assert (J := proj1 (in_ums X m) I).
      rewrite <- vname_variant. cbn. tauto.
  Qed.
  Lemma performs_acts (tr : list (obs M)) :
    Forall2 (performs item B) (filter (@is_action M) tr) (map step_of (acts tr)).
  Proof.
    induction tr as [|o tr IH]; [constructor|].
    destruct o; cbn; try exact IH; constructor; try exact IH; cbn; apply belongs_place.
  Qed.

  Lemma state_at (x : state) m : In m (methods item) -> marked "state" m = true -> tag x = variant_of m ->
    nth_error sms (s_disc M x) = Some m.
  Proof.
    intros I K T. cbn. apply (state_disc X CO); [apply (in_sms X); auto|]. rewrite vname_variant. exact T.
  Qed.

  Lemma state_disc' (x : state) m : In m sms -> tag x = variant_of m -> nth_error sms (discriminant x) = Some m.
  Proof. intros I T. apply (state_disc X CO _ x I). rewrite vname_variant. exact T. Qed.
  Lemma super_disc' (x : sup) m : In m ums -> tag x = variant_of m -> nth_error ums (discriminant x) = Some m.
  Proof. intros I T. apply (super_disc X CO _ x I). rewrite vname_variant. exact T. Qed.

  Hypothesis AC : acyclic item.
  Variable stack : nat.
  Hypothesis S1 : 1 <= stack.
  Hypothesis S2 : length (filter (marked "superstate") (methods item)) <= stack.
  Theorem generated_well_formed : well_formed H M stack.
  Proof.
    constructor; [exact (generated_follows X CO B)|exact (generated_stable B)|].
    intros u. destruct (@generated_height args item g c sms ums X CO AC u) as [l [C L]].
    exists l. split; [exact C|]. rewrite (Permutation_length (ex_supers X)) in S2.
    eapply Nat.le_trans; [exact L|]. apply Nat.max_lub; assumption.
  Qed.

  Lemma handler_places (tr : list (obs M)) :
    map (fun k => fst (fst k)) (handler_calls (calls tr)) = map (@place_of M) (handled tr).
  Proof.
    unfold handled, calls. induction tr as [|o tr IH]; [reflexivity|]. destruct o; cbn; try exact IH.
    f_equal. exact IH.
  Qed.

  Theorem generated_dispatch md (sm : state_machine M) (e : Ev) (cx : Cx) m :
    In m (methods item) -> marked "state" m = true -> tag (sm_state sm) = variant_of m ->
    let r := @handle_with_context M stack md sm e cx in
    exists els above, declared_upward item m (els ++ above) /\
      Forall2 (fun n el => belongs item n el) (handled (a_tr r)) els.
  Proof.
    intros I K T. cbn zeta.
    destruct (HandleProofs.dispatch_order generated_well_formed md sm e cx) as (ps & U & _ & P & _ & S & _).
    destruct P as [l P]. rewrite handler_places in P.
    exists (map element_of (map (@place_of M) (handled (a_tr (handle_with_context stack md sm e cx))))), (map element_of l).
    rewrite <- map_app, <- P. split.
    - exact (proj1 (upward_declared (@state_at _ m I K T) U)).
    - generalize (handled (a_tr (handle_with_context stack md sm e cx))). intros ns.
      induction ns as [|n ns IH]; constructor; [apply belongs_place|exact IH].
  Qed.

  Theorem generated_transition md (sm : state_machine M) (e : Ev) (cx : Cx) p (target : state) ms mt :
    In ms (methods item) -> marked "state" ms = true -> tag (sm_state sm) = variant_of ms ->
    In mt (methods item) -> marked "state" mt = true -> tag target = variant_of mt ->
    initialized sm = true ->
    let r := @handle_with_context M stack md sm e cx in
    @asks_for M (a_tr r) p e target -> a_out r = Ret tt ->
    exists steps, declared_route item ms mt steps /\
      Forall2 (performs item B) (filter (@is_action M) (a_tr r)) steps /\
      tag (sm_state (a_machine r)) = variant_of mt.
  Proof.
    intros I1 K1 T1 I2 K2 T2 Hi. cbn zeta. intros A O.
    destruct (ApiProofs.handle_transition_route generated_well_formed md sm e cx p e target Hi A)
      as (full & R & _ & F). destruct (F O) as [F1 F2].
    exists (map step_of full). split; [|split].
    - exact (proj1 (route_declared (@state_at _ ms I1 K1 T1) (@state_at _ mt I2 K2 T2) R)).
    - rewrite <- F1. apply performs_acts.
    - rewrite <- T2. cbn in F2. apply discriminant_tag in F2. exact F2.
  Qed.
End Paths.
