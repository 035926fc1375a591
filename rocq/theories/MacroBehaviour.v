(** MacroBehaviour.v — the behaviour of generated machines in terms of the source. *)

From Coq Require Import String Ascii List Bool Arith Lia Permutation.
From Verif Require Import Machine Spec ShapeProofs.
From Verif Require Import MacroSyntax MacroVisit MacroAnalyze MacroLower MacroGen MacroSem.
From Verif Require Import MacroSpec MacroBasics MacroExpandProofs MacroLowerProofs MacroCallProofs
  MacroMachineProofs.
Import ListNotations.
Open Scope string_scope.
Open Scope list_scope.
Set Implicit Arguments.

(** ** Names of variants *)
Lemma upper_uppercase ch : upper ch = uppercase ch.
Proof. destruct ch as [[] [] [] [] [] [] [] []]; vm_compute; reflexivity. Qed.
Lemma split_not_nil s : split_underscore s <> [].
Proof. destruct s as [|ch s]; cbn; [discriminate|]. destruct (ch =? "_")%char; [discriminate|]. destruct (split_underscore s); discriminate. Qed.
Lemma concat_nil (l : list string) : String.concat "" l = fold_right String.append "" l.
Proof.
  induction l as [|a l IH]; [reflexivity|]. destruct l as [|b l].
  - cbn. induction a; cbn; congruence.
  - change (String.concat "" (a :: b :: l)) with (a ++ ("" ++ String.concat "" (b :: l)))%string.
    rewrite IH. reflexivity.
Qed.
Lemma camel_split s :
  camel_case true s = fold_right String.append "" (map capitalize (split_underscore s)) /\
  camel_case false s = match split_underscore s with
                       | [] => ""
                       | w :: ws => (w ++ fold_right String.append "" (map capitalize ws))%string
                       end.
Proof.
  induction s as [|ch s [IH1 IH2]]; [split; reflexivity|]. cbn.
  destruct (ch =? "_")%char eqn:E; [split; cbn; rewrite IH1; reflexivity|].
  pose proof (split_not_nil s) as N. destruct (split_underscore s) as [|w ws]; [contradiction|].
  cbn. rewrite IH2, upper_uppercase. split; reflexivity.
Qed.
Theorem pascal_camel s : pascal s = camel_case true s.
Proof. unfold pascal. rewrite concat_nil. symmetry. apply camel_split. Qed.
Lemma vname_variant m : vname m = variant_of m.
Proof. apply pascal_camel. Qed.

(** ** Names of methods are kept *)
Lemma attributes_name c attrs : forall fm f' m',
  efold (attribute c) fm attrs = Done (f', m') -> m_name m' = m_name (snd fm).
Proof.
  induction attrs as [|a attrs IH]; intros [fd m1] f' m' H; cbn in H.
  - injection H as <- <-. reflexivity.
  - destruct (ebind_done _ _ H) as [[fd1 m2] [E1 H1]]. apply IH in H1. cbn in *. rewrite H1. clear - E1.
    destruct fd as [ss us acts]. unfold attribute in E1.
    destruct (is_ident a "state").
    { destruct (ebind_done _ _ E1) as [[s m3] [A B]]. injection B as <- <-.
      unfold analyze_state in A. destruct (m_generics m1); [|discriminate].
      destruct (ebind_done _ _ A) as [k [K A1]]. destruct (ebind_done _ _ A1) as [w [W A2]].
      injection A2 as <- <-. reflexivity. }
    destruct (is_ident a "superstate").
    { destruct (ebind_done _ _ E1) as [u [A B]]. injection B as <- <-. reflexivity. }
    destruct (is_ident a "action").
    { destruct (ebind_done _ _ E1) as [u [A B]]. injection B as <- <-. reflexivity. }
    injection E1 as <- <-. reflexivity.
Qed.
Lemma items_names c items : forall f f' items',
  analyze_items c f items = Done (f', items') ->
  map m_name (method_list items') = map m_name (method_list items).
Proof.
  induction items as [|it items IH]; intros f f' items' H; cbn in H.
  - injection H as <- <-. reflexivity.
  - destruct it as [m|t].
    + destruct (ebind_done _ _ H) as [[f1 m'] [E1 H1]]. destruct (ebind_done _ _ H1) as [[f2 r] [E2 H2]].
      injection H2 as <- <-. cbn. f_equal; [|exact (IH _ _ _ E2)].
      unfold analyze_method in E1. exact (attributes_name _ _ _ E1).
    + destruct (ebind_done _ _ H) as [[f1 r] [E1 H1]]. injection H1 as <- <-. cbn. exact (IH _ _ _ E1).
Qed.
Lemma expand_names o args item g : expand o args item = Done g ->
  map m_name (methods (g_impl g)) = map m_name (methods item).
Proof.
  intros H. unfold expand in H. destruct (ebind_done _ _ H) as [mo [A H1]].
  destruct (ebind_done _ _ H1) as [i [L H2]]. injection H2 as <-. cbn.
  assert (I : ir_impl i = mo_impl mo).
  { unfold lower in L. repeat (destruct (ebind_done _ _ L) as [? [_ L']]; clear L; rename L' into L).
    injection L as <-. reflexivity. }
  rewrite I. unfold analyze in A. destruct (ebind_done _ _ A) as [c [_ A1]].
  destruct (ebind_done _ _ A1) as [[f items] [E A2]]. injection A2 as <-. cbn.
  exact (items_names _ _ _ E).
Qed.
Theorem expand_compiles o args item g : expand o args item = Done g -> compiles g ->
  NoDup (map m_name (methods item)) /\ exists c sms ums, expanded args item g c sms ums.
Proof.
  intros H CO. assert (ND : NoDup (map m_name (methods item))).
  { rewrite <- (expand_names _ _ _ H). apply CO. }
  split; [exact ND|]. exact (expand_done _ _ _ ND H).
Qed.

(** ** Field names *)
Lemma add_field_names fs f h : In h (map f_name (add_field fs f)) <-> In h (map f_name fs) \/ h = f_name f.
Proof.
  induction fs as [|a fs IH]; cbn; [intuition congruence|].
  destruct (String.eqb_spec (f_name a) (f_name f)) as [E|N]; cbn; [|rewrite IH; tauto].
  rewrite E. intuition congruence.
Qed.
Lemma add_fields_names st : forall fs h,
  In h (map f_name (fold_left add_field st fs)) <-> In h (map f_name fs) \/ In h (map f_name st).
Proof.
  induction st as [|f st IH]; intros fs h; cbn; [tauto|]. rewrite IH, add_field_names. intuition congruence.
Qed.
Lemma field_params_names c m h : idents_only m ->
  In h (map pat_name (field_params c m)) <->
  (exists p, In p (m_inputs m) /\ names h p) /\ h <> c_event_ident c /\ h <> c_context_ident c.
Proof.
  intros Id. unfold field_params. split.
  - intros I. apply in_map_iff in I. destruct I as [pt [<- I]]. apply in_flat_map in I.
    destruct I as [a [Ia I]]. destruct a as [|q]; [destruct I|]. destruct (Id q Ia) as [i P].
    cbn in I. rewrite P in I. destruct (String.eqb_spec (c_event_ident c) i) as [|N1]; [destruct I|].
    destruct (String.eqb_spec (c_context_ident c) i) as [|N2]; [destruct I|]. destruct I as [<-|[]].
    unfold pat_name. rewrite P. split; [|auto]. exists (Typed q). split; [exact Ia|]. exists q. auto.
  - intros [[p [I [pt [-> P]]]] [N1 N2]]. apply in_map_iff. exists pt. unfold pat_name at 1. rewrite P.
    split; [reflexivity|]. apply in_flat_map. exists (Typed pt). split; [exact I|]. cbn. rewrite P.
    destruct (String.eqb_spec (c_event_ident c) h); [congruence|].
    destruct (String.eqb_spec (c_context_ident c) h); [congruence|]. now left.
Qed.
Lemma state_fields_names c m h : idents_only m ->
  In h (map f_name (state_fields c m)) <->
  ((exists p, In p (m_inputs m) /\ names h p) /\ h <> c_event_ident c /\ h <> c_context_ident c) \/
  In h (map f_name (local_storage "state" m)).
Proof.
  intros Id. unfold state_fields. rewrite add_fields_names, map_map. cbn [state_field_of f_name].
  rewrite (field_params_names _ _ Id). reflexivity.
Qed.
Lemma super_fields_names c m h : idents_only m ->
  In h (map f_name (super_fields c m)) <->
  ((exists p, In p (m_inputs m) /\ names h p) /\ h <> c_event_ident c /\ h <> c_context_ident c) \/
  In h (map f_name (local_storage "superstate" m)).
Proof.
  intros Id. unfold super_fields. rewrite add_fields_names, map_map. cbn [super_field_of f_name].
  rewrite (field_params_names _ _ Id). reflexivity.
Qed.

(** ** Callbacks *)
Section Callbacks.
  Variables Val Sh Ev Cx : Type.
  Variables (args : list meta) (item : item_impl) (g : generated) (c : config).
  Variables sms ums : list impl_fn.
  Hypothesis ND : NoDup (map m_name (methods item)).
  Hypothesis X : expanded args item g c sms ums.
  Hypothesis CO : compiles g.
  Hypothesis HY : hygienic item g.
  Variable B : bodies Val Sh Ev Cx g.
  Notation M := (generated_machine B).
  Notation state := (value Val (g_state_variants g)).
  Notation sup := (value Val (g_super_variants g)).
  Notation ev := (g_event_ident g).
  Notation cxi := (g_context_ident g).

  Lemma clean_fields (d : enum) n fs : (forall v, In v d -> In v (all_variants g)) ->
    fields_of d n = Some fs ->
    forall f, In f fs -> f <> "shared_storage" /\ f <> ev /\ f <> cxi.
  Proof.
    intros S H f I. destruct (fields_of_in _ _ H) as [v [Iv [_ <-]]]. apply in_map_iff in I.
    destruct I as [h [<- I]]. exact (@hy_fields _ _ HY v h (S v Iv) I).
  Qed.
  Lemma clean_params m : In m (methods item) -> idents_only m ->
    forall pt, In (Typed pt) (m_inputs m) -> pat_name pt <> "shared_storage".
  Proof.
    intros I Id pt Ip E. destruct (Id pt Ip) as [i P]. unfold pat_name in E. rewrite P in E. subst i.
    apply (@hy_params _ _ HY m (Typed pt) I Ip). exists pt. auto.
  Qed.

  Lemma call_by_name d A (run : ident -> list (arg Val Sh Ev Cx) -> reply A * list (arg Val Sh Ev Cx))
      (m : impl_fn) p (e : option Ev) (x x' : value Val d) sh sh' cx cx' r :
    (forall v, In v d -> In v (all_variants g)) ->
    In m (methods item) -> idents_only m ->
    fields_of d (tag x) = Some (p_fields p) ->
    call_ok g p (match e with Some _ => true | None => false end) (call_of c m) ->
    run_call g run (p_fields p) e (m_name m) (map param_ident (m_inputs m)) (x, sh, cx) = (r, (x', sh', cx')) ->
    tag x' = tag x /\
    calls_by_name ev cxi (m_inputs m) (run (m_name m)) e (get_field x) sh cx r (get_field x') sh' cx'.
  Proof.
    intros S I Id FO [SC [NDa _]] H.
    exact (@run_call_by_name Val Sh Ev Cx g d (co_params CO) (p_fields p) (@clean_fields d _ _ S FO)
             (m_inputs m) Id (@clean_params m I Id) NDa e SC A run (m_name m) x x' sh sh' cx cx' r FO H).
  Qed.

  Lemma state_variants_all v : In v (g_state_variants g) -> In v (all_variants g).
  Proof. intros I. apply in_or_app. auto. Qed.
  Lemma super_variants_all v : In v (g_super_variants g) -> In v (all_variants g).
  Proof. intros I. apply in_or_app. auto. Qed.

  Section Handler.
    Variable d : enum.
    Variable ms : list impl_fn.
    Variable pt : impl_fn -> pattern.
    Hypothesis sub : forall v, In v d -> In v (all_variants g).
    Hypothesis PN : forall m, p_variant (pt m) = vname m.
    Hypothesis NDn : NoDup (map vname ms).
    Hypothesis FO : forall m, In m ms -> fields_of d (vname m) = Some (p_fields (pt m)).
    Hypothesis IM : forall m, In m ms -> In m (methods item) /\ idents_only m.

    Lemma handler_by_name m (x x' : value Val d) sh sh' cx cx' e r :
      (forall p k, In (p, k) (map (fun m => (pt m, call_of c m)) ms) -> call_ok g p true k) ->
      In m ms -> tag x = vname m ->
      run_handler B (map (fun m => (pt m, call_of c m)) ms) x sh cx e = (r, x', sh', cx') ->
      tag x' = tag x /\
      calls_by_name ev cxi (m_inputs m) (b_handler B (m_name m)) (Some e) (get_field x) sh cx r
        (get_field x') sh' cx'.
    Proof.
      intros OK I T H. unfold run_handler in H. rewrite T, (select_method pt _ PN NDn I) in H.
      cbn [call_of] in H.
      destruct (run_call _ _ _ _ _ _ _) as [r0 [[y sh0] cx0]] eqn:E. injection H as <- <- <- <-.
      destruct (IM _ I) as [Im Id].
      apply (@call_by_name d _ (b_handler B) m (pt m) (Some e) x y sh sh0 cx cx0 r0 sub Im Id); auto.
      - rewrite T. auto.
      - apply OK. apply in_map_iff. eauto.
    Qed.

    Lemma action_by_name (a : impl_fn -> option ident) m (x x' : value Val d) sh sh' cx cx' r :
      (forall p k, In (p, k) (map (fun m => (pt m, action_code c item (a m))) ms) -> call_ok g p false k) ->
      (forall i, a m = Some i -> exists ma, find_method item "action" i = Some ma) ->
      In m ms -> tag x = vname m ->
      run_action B (map (fun m => (pt m, action_code c item (a m))) ms) x sh cx = (r, x', sh', cx') ->
      match a m with
      | None => r = Returns tt /\ x' = x /\ sh' = sh /\ cx' = cx
      | Some i => exists ma, In ma (methods item) /\ marked "action" ma = true /\ m_name ma = i /\
          tag x' = tag x /\
          calls_by_name ev cxi (m_inputs ma) (b_action B i) None (get_field x) sh cx r
            (get_field x') sh' cx'
      end.
    Proof.
      intros OK RE I T H. unfold run_action in H. rewrite T, (select_method pt _ PN NDn I) in H.
      assert (OKm : call_ok g (pt m) false (action_code c item (a m))).
      { apply OK. apply in_map_iff. exists m. auto. }
      destruct (a m) as [i|]; cbn [action_code] in *.
      - destruct (RE i eq_refl) as [ma F]. rewrite F in *. cbn [call_of] in H.
        destruct (@find_method_in item "action" i ma F) as [Im [K N]].
        destruct (run_call _ _ _ _ _ _ _) as [r0 [[y sh0] cx0]] eqn:E. injection H as <- <- <- <-.
        exists ma. split; [exact Im|]. split; [exact K|]. split; [exact N|]. subst i.
        destruct (ex_action_methods X ma Im K) as [Id _].
        apply (@call_by_name d _ (b_action B) ma (pt m) None x y sh sh0 cx cx0 r0 sub Im Id); auto.
        rewrite T. auto.
      - injection H as <- <- <- <-. auto.
    Qed.
  End Handler.

  Lemma sms_methods m : In m sms -> In m (methods item) /\ idents_only m.
  Proof.
    intros I. split; [|apply (ex_state_methods X _ I)]. apply (in_sms X) in I. tauto.
  Qed.
  Lemma ums_methods m : In m ums -> In m (methods item) /\ idents_only m.
  Proof.
    intros I. split; [|apply (ex_super_methods X _ I)]. apply (in_ums X) in I. tauto.
  Qed.

  Theorem state_handler m (x x' : state) sh sh' cx cx' e r :
    In m sms -> tag x = vname m -> s_handler M x sh cx e = (r, x', sh', cx') ->
    tag x' = tag x /\
    calls_by_name ev cxi (m_inputs m) (b_handler B (m_name m)) (Some e) (get_field x) sh cx r
      (get_field x') sh' cx'.
  Proof.
    intros I T H. cbn in H. rewrite (ex_state_arms X) in H. cbn [call_handler_arms] in H.
    refine (@handler_by_name _ sms (state_pattern c) state_variants_all (fun _ => eq_refl)
              (state_names X CO) (fun m I => @state_fields_of _ _ _ _ _ _ X CO m I) sms_methods
              m x x' sh sh' cx cx' e r _ I T H).
    pose proof (co_state_arms CO) as [A _]. rewrite (ex_state_arms X) in A. exact A.
  Qed.
  Theorem super_handler m (x x' : sup) sh sh' cx cx' e r :
    In m ums -> tag x = vname m -> u_handler M x sh cx e = (r, x', sh', cx') ->
    tag x' = tag x /\
    calls_by_name ev cxi (m_inputs m) (b_handler B (m_name m)) (Some e) (get_field x) sh cx r
      (get_field x') sh' cx'.
  Proof.
    intros I T H. cbn in H. rewrite (ex_super_arms X) in H. cbn [call_handler_arms] in H.
    refine (@handler_by_name _ ums (super_pattern c) super_variants_all (fun _ => eq_refl)
              (super_names X CO) (fun m I => @super_fields_of _ _ _ _ _ _ X CO m I) ums_methods
              m x x' sh sh' cx cx' e r _ I T H).
    pose proof (co_super_arms CO) as [A _]. rewrite (ex_super_arms X) in A. exact A.
  Qed.

  Theorem state_entry m (x x' : state) sh sh' cx cx' r :
    In m sms -> tag x = vname m -> s_entry M x sh cx = (r, x', sh', cx') ->
    action_runs item B (declared "state" "entry_action" m) x x' sh sh' cx cx' r.
  Proof.
    intros I T H. cbn in H. rewrite (ex_state_arms X) in H. cbn [call_entry_action_arms] in H.
    refine (@action_by_name _ sms (state_pattern c) state_variants_all (fun _ => eq_refl)
              (state_names X CO) (fun m I => @state_fields_of _ _ _ _ _ _ X CO m I)
              (declared "state" "entry_action")
              m x x' sh sh' cx cx' r _ (re_entry (ex_state_resolved X _ I)) I T H).
    pose proof (co_state_arms CO) as [_ [A _]]. rewrite (ex_state_arms X) in A. exact A.
  Qed.
  Theorem state_exit m (x x' : state) sh sh' cx cx' r :
    In m sms -> tag x = vname m -> s_exit M x sh cx = (r, x', sh', cx') ->
    action_runs item B (declared "state" "exit_action" m) x x' sh sh' cx cx' r.
  Proof.
    intros I T H. cbn in H. rewrite (ex_state_arms X) in H. cbn [call_exit_action_arms] in H.
    refine (@action_by_name _ sms (state_pattern c) state_variants_all (fun _ => eq_refl)
              (state_names X CO) (fun m I => @state_fields_of _ _ _ _ _ _ X CO m I)
              (declared "state" "exit_action")
              m x x' sh sh' cx cx' r _ (re_exit (ex_state_resolved X _ I)) I T H).
    pose proof (co_state_arms CO) as [_ [_ [A _]]]. rewrite (ex_state_arms X) in A. exact A.
  Qed.
  Theorem super_entry m (x x' : sup) sh sh' cx cx' r :
    In m ums -> tag x = vname m -> u_entry M x sh cx = (r, x', sh', cx') ->
    action_runs item B (declared "superstate" "entry_action" m) x x' sh sh' cx cx' r.
  Proof.
    intros I T H. cbn in H. rewrite (ex_super_arms X) in H. cbn [call_entry_action_arms] in H.
    refine (@action_by_name _ ums (super_pattern c) super_variants_all (fun _ => eq_refl)
              (super_names X CO) (fun m I => @super_fields_of _ _ _ _ _ _ X CO m I)
              (declared "superstate" "entry_action")
              m x x' sh sh' cx cx' r _ (re_entry (ex_super_resolved X _ I)) I T H).
    pose proof (co_super_arms CO) as [_ [A _]]. rewrite (ex_super_arms X) in A. exact A.
  Qed.
  Theorem super_exit m (x x' : sup) sh sh' cx cx' r :
    In m ums -> tag x = vname m -> u_exit M x sh cx = (r, x', sh', cx') ->
    action_runs item B (declared "superstate" "exit_action" m) x x' sh sh' cx cx' r.
  Proof.
    intros I T H. cbn in H. rewrite (ex_super_arms X) in H. cbn [call_exit_action_arms] in H.
    refine (@action_by_name _ ums (super_pattern c) super_variants_all (fun _ => eq_refl)
              (super_names X CO) (fun m I => @super_fields_of _ _ _ _ _ _ X CO m I)
              (declared "superstate" "exit_action")
              m x x' sh sh' cx cx' r _ (re_exit (ex_super_resolved X _ I)) I T H).
    pose proof (co_super_arms CO) as [_ [_ [A _]]]. rewrite (ex_super_arms X) in A. exact A.
  Qed.
End Callbacks.
