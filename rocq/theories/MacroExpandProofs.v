(** MacroExpandProofs.v — what a successful run of the macro says about its output: every
    state, superstate and action comes from a method with that attribute, with the relations
    declared there. *)

From Coq Require Import String Ascii List Bool Arith Lia Permutation.
From Verif Require Import Machine MacroSyntax MacroVisit MacroAnalyze MacroLower MacroGen MacroSem.
From Verif Require Import MacroSpec MacroBasics.
Import ListNotations.
Open Scope string_scope.
Open Scope list_scope.
Set Implicit Arguments.

(** ** Parameters *)

(** The same parameter, up to removed attributes. *)
Definition same_typed (p q : pat_type) : Prop :=
  pt_pat p = pt_pat q /\ pt_ty p = pt_ty q /\ incl (pt_attrs q) (pt_attrs p).
Definition same_param (a b : fn_arg) : Prop :=
  match a, b with
  | Receiver, Receiver => True
  | Typed p, Typed q => same_typed p q
  | _, _ => False
  end.
Lemma same_param_refl a : same_param a a.
Proof. destruct a; cbn; [exact I|]. repeat split. apply incl_refl. Qed.
Lemma same_param_trans a b c : same_param a b -> same_param b c -> same_param a c.
Proof.
  destruct a, b, c; cbn; try tauto. intros [? [? ?]] [? [? ?]]. repeat split; try congruence.
  eapply incl_tran; eauto.
Qed.
Lemma same_params_refl l : Forall2 same_param l l.
Proof. induction l; constructor; auto using same_param_refl. Qed.
Lemma same_params_trans l l' l'' :
  Forall2 same_param l l' -> Forall2 same_param l' l'' -> Forall2 same_param l l''.
Proof.
  intros H. revert l''. induction H; intros l'' H'; inversion H'; subst; constructor; eauto using same_param_trans.
Qed.

Arguments same_params_trans {l l' l''}.

(** The method after `#[default]` attributes have been removed from its parameters. *)
Record stripped (m m' : impl_fn) : Prop := Stripped {
  st_attrs : m_attrs m' = m_attrs m;
  st_name : m_name m' = m_name m;
  st_generics : m_generics m' = m_generics m;
  st_async : m_async m' = m_async m;
  st_inputs : Forall2 same_param (m_inputs m) (m_inputs m')
}.
Lemma stripped_refl m : stripped m m.
Proof. constructor; auto using same_params_refl. Qed.
Lemma stripped_trans m m' m'' : stripped m m' -> stripped m' m'' -> stripped m m''.
Proof.
  intros [] []. constructor; try congruence. eapply same_params_trans; eauto.
Qed.

(** Parameters that become fields; the event and the context parameter; defaults. *)
Definition field_param (ev cx : ident) (a : fn_arg) : list pat_type :=
  match a with
  | Receiver => []
  | Typed pt =>
      match pt_pat pt with
      | PatIdent i => if (ev =? i)%string then [] else if (cx =? i)%string then [] else [pt]
      | PatReference => [pt]
      | _ => []
      end
  end.
Definition named_param (name : ident) (old : option pat_type) (a : fn_arg) : option pat_type :=
  match a with
  | Receiver => old
  | Typed pt =>
      match pt_pat pt with
      | PatIdent i => if (name =? i)%string then Some pt else old
      | _ => old
      end
  end.
Definition context_param (ev cx : ident) (old : option pat_type) (a : fn_arg) : option pat_type :=
  match a with
  | Receiver => old
  | Typed pt =>
      match pt_pat pt with
      | PatIdent i => if (ev =? i)%string then old else if (cx =? i)%string then Some pt else old
      | _ => old
      end
  end.
Definition default_param (ev cx : ident) (a : fn_arg) : list storage_default :=
  match a with
  | Receiver => []
  | Typed pt =>
      match pt_pat pt with
      | PatIdent i =>
          if (ev =? i)%string then [] else if (cx =? i)%string then []
          else match find is_default (pt_attrs pt) with
               | Some attr => match analyze_default i attr with Done d => [d] | _ => [] end
               | None => []
               end
      | _ => []
      end
  end.

Lemma swap_remove_incl A n (l : list A) : incl (swap_remove n l) l.
Proof.
  unfold swap_remove. destruct (skipn n l) as [|a rest] eqn:E; [apply incl_refl|].
  intros x I. rewrite <- (firstn_skipn n l). apply in_app_or in I. apply in_or_app.
  destruct I as [I|I]; [auto|]. right. rewrite E. right.
  destruct (rev rest) as [|z r] eqn:R; [destruct I|].
  apply in_rev. rewrite R. destruct I as [->|I]; [left; reflexivity|right]. now apply in_rev.
Qed.

Section Inputs.
  Variables ev cx : ident.

  Lemma state_inputs_done l : forall k k',
    efold (state_input ev cx) k l = Done k' ->
    exists ins,
      Forall2 same_param l ins /\ k_inputs k' = k_inputs k ++ ins /\
      k_state_inputs k' = k_state_inputs k ++ flat_map (field_param ev cx) ins /\
      k_defaults k' = k_defaults k ++ flat_map (default_param ev cx) l /\
      k_event k' = fold_left (named_param ev) ins (k_event k) /\
      k_context k' = fold_left (context_param ev cx) ins (k_context k).
  Proof.
    induction l as [|a l IH]; intros k k' H; cbn in H.
    - injection H as <-. exists []. cbn. rewrite !app_nil_r. repeat split. constructor.
    - destruct (ebind_done _ _ H) as [k1 [E1 H1]]. clear H.
      destruct (IH _ _ H1) as [ins [S [E2 [E3 [E4 [E5 E6]]]]]]. clear IH H1.
      assert (Q : exists a', same_param a a' /\ k_inputs k1 = k_inputs k ++ [a'] /\
                 k_state_inputs k1 = k_state_inputs k ++ field_param ev cx a' /\
                 k_defaults k1 = k_defaults k ++ default_param ev cx a /\
                 k_event k1 = named_param ev (k_event k) a' /\
                 k_context k1 = context_param ev cx (k_context k) a').
      { clear - E1. destruct k as [ins ds sts e c]. unfold state_input in E1.
        destruct a as [|pt].
        - injection E1 as <-. exists Receiver. cbn. rewrite !app_nil_r. auto 10.
        - destruct (pt_pat pt) as [i| | | | | |] eqn:P; try discriminate.
          + destruct (ev =? i) eqn:X1; [|destruct (cx =? i) eqn:X2].
            * injection E1 as <-. exists (Typed pt). cbn. rewrite P, X1, !app_nil_r.
              repeat split. apply incl_refl.
            * injection E1 as <-. exists (Typed pt). cbn. rewrite P, X1, X2, !app_nil_r.
              repeat split. apply incl_refl.
            * destruct (position is_default (pt_attrs pt)) as [n|] eqn:Q.
              -- destruct (nth_error (pt_attrs pt) n) as [attr|] eqn:N; [|discriminate].
                 destruct (ebind_done _ _ E1) as [dd [D1 D2]]. injection D2 as <-.
                 exists (Typed (PatType (swap_remove n (pt_attrs pt)) (pt_pat pt) (pt_ty pt))).
                 cbn. rewrite P, X1, X2. rewrite (position_find _ _ Q N), D1. cbn.
                 repeat split; auto. apply swap_remove_incl.
              -- injection E1 as <-. exists (Typed pt). cbn. rewrite P, X1, X2.
                 assert (find is_default (pt_attrs pt) = None) as ->.
                 { destruct (find is_default (pt_attrs pt)) as [z|] eqn:Z; [|reflexivity].
                   destruct (find_position _ _ Z) as [n [Y _]]. congruence. }
                 rewrite !app_nil_r. repeat split. apply incl_refl.
          + injection E1 as <-. exists (Typed pt). cbn. rewrite P, !app_nil_r.
            repeat split. apply incl_refl. }
      destruct Q as [a' [S1 [F2 [F3 [F4 [F5 F6]]]]]].
      exists (a' :: ins). cbn. rewrite E2, E3, E4, E5, E6, F2, F3, F4, F5, F6, <- !app_assoc.
      repeat split. constructor; auto.
  Qed.

  Lemma super_inputs_done l : forall k k',
    efold (super_input ev cx) k l = Done k' ->
    k_inputs k' = k_inputs k ++ l /\
    k_state_inputs k' = k_state_inputs k ++ flat_map (field_param ev cx) l /\
    k_event k' = fold_left (named_param ev) l (k_event k) /\
    k_context k' = fold_left (context_param ev cx) l (k_context k).
  Proof.
    induction l as [|a l IH]; intros k k' H; cbn in H.
    - injection H as <-. cbn. rewrite !app_nil_r. auto.
    - destruct (ebind_done _ _ H) as [k1 [E1 H1]]. clear H.
      destruct (IH _ _ H1) as [E2 [E3 [E5 E6]]]. clear IH H1.
      assert (Q : k_inputs k1 = k_inputs k ++ [a] /\
                 k_state_inputs k1 = k_state_inputs k ++ field_param ev cx a /\
                 k_event k1 = named_param ev (k_event k) a /\
                 k_context k1 = context_param ev cx (k_context k) a).
      { clear - E1. destruct k as [ins ds sts e c]. unfold super_input in E1.
        destruct a as [|pt].
        - injection E1 as <-. cbn. rewrite !app_nil_r. auto 10.
        - destruct (pt_pat pt) as [i| | | | | |] eqn:P; try discriminate.
          + cbn. rewrite P. destruct (ev =? i) eqn:X1; [|destruct (cx =? i) eqn:X2];
              injection E1 as <-; cbn; rewrite ?app_nil_r; auto.
          + cbn. rewrite P. injection E1 as <-. cbn. auto. }
      destruct Q as [F2 [F3 [F5 F6]]].
      cbn. rewrite E2, E3, E5, E6, F2, F3, F5, F6, <- !app_assoc. auto.
  Qed.
End Inputs.

(** ** Arguments of the attributes *)

Notation storage_of := local_storage.

Lemma get_meta_arguments m kind : get_meta (m_attrs m) kind = arguments_of kind m.
Proof.
  unfold get_meta, arguments_of. induction (m_attrs m) as [|a l IH]; cbn; [reflexivity|].
  destruct (is_ident (meta_path a) kind); cbn; rewrite IH; [|reflexivity]. f_equal.
  destruct a as [| ? [[|] ? ?] |]; reflexivity.
Qed.

Definition key_values (key : ident) (l : list meta) : list ident :=
  flat_map (fun a => match a with
                     | MetaNameValue p (VStr s) =>
                         if is_ident p key then match as_ident s with Some i => [i] | None => [] end
                         else []
                     | _ => []
                     end) l.
Definition list_fields (l : list meta) : list field :=
  flat_map (fun a => match a with
                     | MetaList p (Tokens _ (Some l) _) =>
                         if is_ident p "local_storage"
                         then flat_map (fun s => match as_field s with Some f => [f] | None => [] end) l
                         else []
                     | _ => []
                     end) l.

Lemma last_nonempty A (x : A) l d d' : last (x :: l) d = last (x :: l) d'.
Proof. revert x. induction l as [|y l IH]; intros x; [reflexivity|]. exact (IH y). Qed.
Lemma last_app A (l r : list A) d : last (l ++ r) d = last r (last l d).
Proof.
  induction l as [|x l IH]; [reflexivity|]. destruct l as [|y l].
  - destruct r as [|z r]; [reflexivity|]. exact (last_nonempty z r d x).
  - exact IH.
Qed.
Lemma last_map_app (a : option ident) (l r : list ident) :
  last (map Some (l ++ r)) a = last (map Some r) (last (map Some l) a).
Proof. rewrite map_app. apply last_app. Qed.
Lemma last_cons_default (x : ident) (a : option ident) l :
  last (map Some (x :: l)) a = last (map Some l) (Some x).
Proof. exact (last_map_app a [x] l). Qed.

Lemma parsed_ident msg m i : parsed as_ident msg m = Done i ->
  exists p s, m = MetaNameValue p (VStr s) /\ as_ident s = Some i.
Proof.
  unfold parsed. destruct m as [|?|? [s|]]; cbn; try discriminate.
  destruct (as_ident s) eqn:E; [|discriminate]. intros [= <-]. eauto.
Qed.

Lemma is_ident_eq p i : is_ident p i = true <-> p = [i].
Proof.
  destruct p as [|a [|b p]]; cbn; try (split; discriminate).
  rewrite String.eqb_eq. split; [intros ->; reflexivity | congruence].
Qed.

Lemma arguments_done l : forall w w',
  efold argument w l = Done w' ->
  w_superstate w' = last (map Some (key_values "superstate" l)) (w_superstate w) /\
  w_entry w' = last (map Some (key_values "entry_action" l)) (w_entry w) /\
  w_exit w' = last (map Some (key_values "exit_action" l)) (w_exit w) /\
  w_storage w' = w_storage w ++ list_fields l.
Proof.
  induction l as [|a l IH]; intros w w' H; cbn in H.
  - injection H as <-. cbn. rewrite app_nil_r. auto.
  - destruct (ebind_done _ _ H) as [w1 [E1 H1]]. clear H.
    destruct (IH _ _ H1) as [E2 [E3 [E4 E5]]]. clear IH H1. rewrite E2, E3, E4, E5. clear E2 E3 E4 E5.
    assert (Q : w_superstate w1 = last (map Some (key_values "superstate" [a])) (w_superstate w) /\
                w_entry w1 = last (map Some (key_values "entry_action" [a])) (w_entry w) /\
                w_exit w1 = last (map Some (key_values "exit_action" [a])) (w_exit w) /\
                w_storage w1 = w_storage w ++ list_fields [a]).
    { destruct w as [su en ex st]. unfold argument in E1.
      destruct (is_ident (meta_path a) "superstate") eqn:X1.
      { destruct (ebind_done _ _ E1) as [i [P D]]. injection D as <-.
        destruct (parsed_ident _ _ P) as [p [s [-> S]]]. cbn in X1.
        apply is_ident_eq in X1. subst p. cbn. rewrite S. cbn. rewrite app_nil_r. auto. }
      destruct (is_ident (meta_path a) "entry_action") eqn:X2.
      { destruct (ebind_done _ _ E1) as [i [P D]]. injection D as <-.
        destruct (parsed_ident _ _ P) as [p [s [-> S]]]. cbn in X2.
        apply is_ident_eq in X2. subst p. cbn. rewrite S. cbn. rewrite app_nil_r. auto. }
      destruct (is_ident (meta_path a) "exit_action") eqn:X3.
      { destruct (ebind_done _ _ E1) as [i [P D]]. injection D as <-.
        destruct (parsed_ident _ _ P) as [p [s [-> S]]]. cbn in X3.
        apply is_ident_eq in X3. subst p. cbn. rewrite S. cbn. rewrite app_nil_r. auto. }
      destruct (is_ident (meta_path a) "local_storage") eqn:X4.
      { destruct (ebind_done _ _ E1) as [t [P D]].
        destruct a as [|p t'|]; cbn in P; try discriminate. injection P as ->.
        destruct t as [ms ss ps]. cbn in D. destruct ss as [ss|]; [|discriminate].
        destruct (ebind_done _ _ D) as [fs [F G]]. injection G as <-. cbn in *. rewrite X4.
        rewrite app_nil_r. repeat split. f_equal.
        apply emap_done in F. clear - F. induction F as [|s f ss fs E _ IH]; [reflexivity|].
        unfold storage_field in E. cbn. destruct (as_field s); [|discriminate]. injection E as ->.
        cbn. f_equal. exact IH. }
      injection E1 as <-. cbn.
      destruct a as [| p [? [ss|] ?] | p [s|]]; cbn in *; rewrite ?X1, ?X2, ?X3, ?X4; cbn;
        rewrite ?app_nil_r; auto. }
    destruct Q as [-> [-> [-> ->]]].
    change (key_values "superstate" (a :: l)) with (key_values "superstate" ([a] ++ l)).
    change (key_values "entry_action" (a :: l)) with (key_values "entry_action" ([a] ++ l)).
    change (key_values "exit_action" (a :: l)) with (key_values "exit_action" ([a] ++ l)).
    change (list_fields (a :: l)) with (list_fields ([a] ++ l)).
    unfold key_values, list_fields. rewrite !flat_map_app, !last_map_app, app_assoc. auto.
Qed.

Lemma arguments_declared kind m w :
  arguments (get_meta (m_attrs m) kind) = Done w ->
  w_superstate w = declared kind "superstate" m /\
  w_entry w = declared kind "entry_action" m /\
  w_exit w = declared kind "exit_action" m /\
  w_storage w = storage_of kind m.
Proof.
  intros H. apply arguments_done in H. rewrite get_meta_arguments in H. exact H.
Qed.

(** ** States, superstates and actions found by `analyze` *)
Record state_info (c : config) (m m1 : impl_fn) (s : a_state) : Prop := StateInfo {
  si_stripped : stripped m m1;
  si_generics : m_generics m = [];
  si_name : as_name s = m_name m;
  si_super : as_superstate s = declared "state" "superstate" m;
  si_entry : as_entry s = declared "state" "entry_action" m;
  si_exit : as_exit s = declared "state" "exit_action" m;
  si_storage : as_storage s = storage_of "state" m;
  si_inputs : as_inputs s = m_inputs m1;
  si_async : as_async s = m_async m;
  si_defaults : as_defaults s =
    flat_map (default_param (c_event_ident c) (c_context_ident c)) (m_inputs m1);
  si_state_inputs : exists ins, Forall2 same_param (m_inputs m1) ins /\
    as_state_inputs s = flat_map (field_param (c_event_ident c) (c_context_ident c)) ins /\
    as_event s = fold_left (named_param (c_event_ident c)) ins None /\
    as_context s = fold_left (context_param (c_event_ident c) (c_context_ident c)) ins None
}.
Record super_info (c : config) (m : impl_fn) (u : a_super) : Prop := SuperInfo {
  ui_generics : m_generics m = [];
  ui_name : au_name u = m_name m;
  ui_super : au_superstate u = declared "superstate" "superstate" m;
  ui_entry : au_entry u = declared "superstate" "entry_action" m;
  ui_exit : au_exit u = declared "superstate" "exit_action" m;
  ui_storage : au_storage u = storage_of "superstate" m;
  ui_inputs : Forall2 same_param (m_inputs m) (au_inputs u);
  ui_async : au_async u = m_async m;
  ui_state_inputs : au_state_inputs u =
    flat_map (field_param (c_event_ident c) (c_context_ident c)) (au_inputs u);
  ui_event : au_event u = fold_left (named_param (c_event_ident c)) (au_inputs u) None;
  ui_context : au_context u =
    fold_left (context_param (c_event_ident c) (c_context_ident c)) (au_inputs u) None
}.
Record action_info (m : impl_fn) (a : a_action) : Prop := ActionInfo {
  ai_generics : m_generics m = [];
  ai_name : aa_name a = m_name m;
  ai_inputs : Forall2 same_param (m_inputs m) (aa_inputs a);
  ai_async : aa_async a = m_async m
}.

Lemma stripped_declared kind key m m1 : stripped m m1 -> declared kind key m1 = declared kind key m.
Proof. intros []. unfold declared, values_of, arguments_of. now rewrite st_attrs0. Qed.
Lemma stripped_storage kind m m1 : stripped m m1 -> storage_of kind m1 = storage_of kind m.
Proof. intros []. unfold local_storage, arguments_of. now rewrite st_attrs0. Qed.
Lemma stripped_marked kind m m1 : stripped m m1 -> marked kind m1 = marked kind m.
Proof. intros []. unfold marked. now rewrite st_attrs0. Qed.

Lemma analyze_state_done c m m1 s m2 :
  stripped m m1 -> analyze_state m1 c = Done (s, m2) -> state_info c m m1 s /\ stripped m m2.
Proof.
  intros S H. unfold analyze_state in H. destruct (m_generics m1) eqn:G; [|discriminate].
  destruct (ebind_done _ _ H) as [k [K H1]]. destruct (ebind_done _ _ H1) as [w [W H2]].
  injection H2 as <- <-. clear H H1.
  destruct (state_inputs_done _ _ _ _ K) as [ins [I1 [I2 [I3 [I4 [I5 I6]]]]]]. cbn in I2, I3, I4, I5, I6.
  destruct (arguments_declared _ _ W) as [W1 [W2 [W3 W4]]].
  pose proof S as [SA SN SG SY SI].
  split.
  - constructor; cbn; try congruence.
    + rewrite W1. now apply stripped_declared.
    + rewrite W2. now apply stripped_declared.
    + rewrite W3. now apply stripped_declared.
    + rewrite W4. now apply stripped_storage.
    + exists ins. auto.
  - constructor; cbn; try congruence. rewrite I2. eapply same_params_trans; eauto.
Qed.
Lemma analyze_superstate_done c m m1 u :
  stripped m m1 -> analyze_superstate m1 c = Done u -> super_info c m u.
Proof.
  intros S H. unfold analyze_superstate in H. destruct (m_generics m1) eqn:G; [|discriminate].
  destruct (ebind_done _ _ H) as [k [K H1]]. destruct (ebind_done _ _ H1) as [w [W H2]].
  injection H2 as <-. clear H H1.
  destruct (super_inputs_done _ _ _ _ K) as [I2 [I3 [I5 I6]]]. cbn in I2, I3, I5, I6.
  destruct (arguments_declared _ _ W) as [W1 [W2 [W3 W4]]].
  pose proof S as [SA SN SG SY SI].
  constructor; cbn; try congruence; try assumption.
  - rewrite W1. now apply stripped_declared.
  - rewrite W2. now apply stripped_declared.
  - rewrite W3. now apply stripped_declared.
  - rewrite W4. now apply stripped_storage.
Qed.
Lemma analyze_action_done m m1 a :
  stripped m m1 -> analyze_action m1 = Done a -> action_info m a.
Proof.
  intros S H. unfold analyze_action in H. destruct (m_generics m1) eqn:G; [|discriminate].
  injection H as <-. destruct S. constructor; cbn; congruence || assumption.
Qed.

(** The number of `#[state]` attributes of a method; with one of them nothing has been
    stripped when it is looked at. *)
Definition is_state_attr (a : meta) : bool := is_ident (meta_path a) "state".
Definition state_found (c : config) (m : impl_fn) (s : a_state) : Prop :=
  exists m1, state_info c m m1 s /\ (length (filter is_state_attr (m_attrs m)) = 1 -> m1 = m).

(** The loop over the attributes of one method. *)
Definition found_for {T} (P : T -> Prop) (key : ident) (b : bool) (old new : hash_map T) : Prop :=
  if b then exists t, P t /\ new = old ++ [(key, t)] else new = old.
Lemma found_insert T (P : T -> Prop) key b (old new : hash_map T) t :
  ~ In key (map fst old) -> found_for P key b old new -> P t ->
  found_for P key true old (hm_insert key t new).
Proof.
  intros N H Pt. exists t. split; [exact Pt|]. unfold found_for in H. destruct b.
  - destruct H as [t' [_ ->]]. now apply hm_insert_last.
  - subst new. now apply hm_insert_new.
Qed.

Lemma attributes_done c m f attrs : forall bs bu ba fd m1 f' m',
  stripped m m1 -> (bs = false -> m1 = m) ->
  length (filter is_state_attr (m_attrs m)) = (if bs then 1 else 0) + length (filter is_state_attr attrs) \/
  2 <= length (filter is_state_attr (m_attrs m)) ->
  ~ In (m_name m) (map fst (fd_states f)) -> ~ In (m_name m) (map fst (fd_supers f)) ->
  ~ In (m_name m) (map fst (fd_actions f)) ->
  found_for (state_found c m) (m_name m) bs (fd_states f) (fd_states fd) ->
  found_for (super_info c m) (m_name m) bu (fd_supers f) (fd_supers fd) ->
  found_for (action_info m) (m_name m) ba (fd_actions f) (fd_actions fd) ->
  efold (attribute c) (fd, m1) (map meta_path attrs) = Done (f', m') ->
  stripped m m' /\
  found_for (state_found c m) (m_name m)
    (bs || existsb (fun a => is_ident (meta_path a) "state") attrs) (fd_states f) (fd_states f') /\
  found_for (super_info c m) (m_name m)
    (bu || existsb (fun a => is_ident (meta_path a) "superstate") attrs) (fd_supers f) (fd_supers f') /\
  found_for (action_info m) (m_name m)
    (ba || existsb (fun a => is_ident (meta_path a) "action") attrs) (fd_actions f) (fd_actions f').
Proof.
  induction attrs as [|a attrs IH]; intros bs bu ba fd m1 f' m' S M C N1 N2 N3 F1 F2 F3 H; cbn in H.
  - injection H as <- <-. cbn. rewrite !orb_false_r. auto.
  - destruct (ebind_done _ _ H) as [[fd1 m2] [E1 H1]]. clear H. cbn [existsb].
    destruct fd as [ss us acts]. unfold attribute in E1. cbn in F1, F2, F3.
    destruct (is_ident (meta_path a) "state") eqn:X1.
    { cbn in C. unfold is_state_attr at 2 in C. rewrite X1 in C. cbn in C.
      destruct (ebind_done _ _ E1) as [[s m3] [A B]]. injection B as <- <-.
      destruct (@analyze_state_done c m m1 s m3 S A) as [SI S'].
      apply is_ident_eq in X1. rewrite X1. cbn [is_ident].
      change ("state" =? "superstate") with false. change ("state" =? "action") with false.
      rewrite !orb_false_l, !orb_true_r.
      apply (IH true bu ba _ _ _ _ S') in H1; cbn; try assumption; try discriminate;
        [destruct bs; lia|].
      rewrite (si_name SI). apply (@found_insert _ _ _ bs (fd_states f) ss s N1 F1).
      exists m1. split; [exact SI|]. intros C1. destruct bs; [exfalso; lia|auto]. }
    cbn in C. unfold is_state_attr at 2 in C. rewrite X1 in C.
    destruct (is_ident (meta_path a) "superstate") eqn:X2.
    { destruct (ebind_done _ _ E1) as [u [A B]]. injection B as <- <-.
      pose proof (@analyze_superstate_done c m m1 u S A) as UI.
      apply is_ident_eq in X2. rewrite X2. cbn [is_ident].
      change ("superstate" =? "state") with false. change ("superstate" =? "action") with false.
      rewrite !orb_false_l, !orb_true_r.
      apply (IH bs true ba _ _ _ _ S M C N1 N2 N3) in H1; cbn; try assumption.
      rewrite (ui_name UI). exact (@found_insert _ _ _ bu (fd_supers f) us u N2 F2 UI). }
    destruct (is_ident (meta_path a) "action") eqn:X3.
    { destruct (ebind_done _ _ E1) as [u [A B]]. injection B as <- <-.
      pose proof (@analyze_action_done m m1 u S A) as AI. cbn [orb]. rewrite orb_true_r.
      apply (IH bs bu true _ _ _ _ S M C N1 N2 N3) in H1; cbn; try assumption.
      rewrite (ai_name AI). exact (@found_insert _ _ _ ba (fd_actions f) acts u N3 F3 AI). }
    injection E1 as <- <-. cbn [orb]. exact (IH bs bu ba (Found ss us acts) _ _ _ S M C N1 N2 N3 F1 F2 F3 H1).
Qed.

Lemma analyze_method_done c m f f' m' :
  ~ In (m_name m) (map fst (fd_states f)) -> ~ In (m_name m) (map fst (fd_supers f)) ->
  ~ In (m_name m) (map fst (fd_actions f)) ->
  analyze_method c f m = Done (f', m') ->
  stripped m m' /\
  found_for (state_found c m) (m_name m) (marked "state" m)
            (fd_states f) (fd_states f') /\
  found_for (super_info c m) (m_name m) (marked "superstate" m) (fd_supers f) (fd_supers f') /\
  found_for (action_info m) (m_name m) (marked "action" m) (fd_actions f) (fd_actions f').
Proof.
  intros N1 N2 N3 H. unfold analyze_method in H.
  exact (@attributes_done c m f (m_attrs m) false false false f m f' m' (stripped_refl m) (fun _ => eq_refl)
           (or_introl eq_refl) N1 N2 N3
           eq_refl eq_refl eq_refl H).
Qed.

(** The loop over the items. *)
Definition method_list (items : list impl_item) : list impl_fn :=
  flat_map (fun it => match it with ItemMethod m => [m] | ItemOther _ => [] end) items.
Definition same_item (a b : impl_item) : Prop :=
  match a, b with
  | ItemMethod m, ItemMethod m' => stripped m m'
  | ItemOther s, ItemOther t => s = t
  | _, _ => False
  end.
Definition entries {T} (P : impl_fn -> T -> Prop) (ms : list impl_fn) (h : hash_map T) : Prop :=
  Forall2 (fun m kt => fst kt = m_name m /\ P m (snd kt)) ms h.

Lemma analyze_items_done c items : forall f f' items',
  (forall m, In m (method_list items) ->
     ~ In (m_name m) (map fst (fd_states f)) /\ ~ In (m_name m) (map fst (fd_supers f)) /\
     ~ In (m_name m) (map fst (fd_actions f))) ->
  NoDup (map m_name (method_list items)) ->
  analyze_items c f items = Done (f', items') ->
  Forall2 same_item items items' /\
  (exists h, fd_states f' = fd_states f ++ h /\
     entries (state_found c)
             (filter (marked "state") (method_list items)) h) /\
  (exists h, fd_supers f' = fd_supers f ++ h /\
     entries (super_info c) (filter (marked "superstate") (method_list items)) h) /\
  (exists h, fd_actions f' = fd_actions f ++ h /\
     entries action_info (filter (marked "action") (method_list items)) h).
Proof.
  induction items as [|it items IH]; intros f f' items' N ND H; cbn in H.
  - injection H as <- <-. repeat split; [constructor| | |]; exists []; rewrite app_nil_r;
      (split; [reflexivity|constructor]).
  - destruct it as [m|t].
    + destruct (ebind_done _ _ H) as [[f1 m'] [E1 H1]]. clear H.
      destruct (ebind_done _ _ H1) as [[f2 r] [E2 H2]]. clear H1. injection H2 as <- <-.
      cbn in N, ND. inversion ND as [|? ? NI ND']; subst.
      destruct (N m (or_introl eq_refl)) as [N1 [N2 N3]].
      destruct (@analyze_method_done c m f f1 m' N1 N2 N3 E1) as [S [F1 [F2 F3]]].
      assert (K : forall T (P : T -> Prop) b (old new : hash_map T),
                found_for P (m_name m) b old new ->
                forall m2, In m2 (method_list items) -> ~ In (m_name m2) (map fst old) ->
                ~ In (m_name m2) (map fst new)).
      { intros T P b old new F m2 I2 NO. unfold found_for in F.
        destruct b; [destruct F as [t [_ ->]]|subst; exact NO].
        rewrite map_app. intros J. apply in_app_or in J. destruct J as [J|[J|[]]]; [auto|].
        cbn in J. apply NI. rewrite J. now apply in_map. }
      destruct (IH f1 f2 r) as [SI [[h1 [A1 B1]] [[h2 [A2 B2]] [h3 [A3 B3]]]]]; [|exact ND'|exact E2|].
      { intros m2 I2. destruct (N m2 (or_intror I2)) as [M1 [M2 M3]].
        repeat split; eapply K; eauto. }
      assert (J : forall T (P : impl_fn -> T -> Prop) b old new h all,
                found_for (P m) (m_name m) b old new ->
                entries P (filter all (method_list items)) h -> all m = b ->
                exists h', new ++ h = old ++ h' /\
                  entries P (filter all (m :: method_list items)) h').
      { intros T P b old new h all F En Hb. cbn. rewrite Hb. unfold found_for in F. destruct b.
        - destruct F as [t [Pt ->]]. exists ((m_name m, t) :: h). rewrite <- app_assoc.
          split; [reflexivity|]. constructor; auto.
        - subst new. exists h. auto. }
      split; [constructor; [exact S|exact SI]|].
      rewrite A1, A2, A3.
      repeat split; [eapply J; eauto|eapply J; eauto|eapply J; eauto].
    + destruct (ebind_done _ _ H) as [[f1 r] [E1 H1]]. clear H. injection H1 as <- <-.
      destruct (IH f f1 r) as [SI Q]; [exact N|exact ND|exact E1|].
      split; [constructor; [reflexivity|exact SI]|exact Q].
Qed.

Lemma entries_keys T (P : impl_fn -> T -> Prop) ms h :
  entries P ms h -> map fst h = map m_name ms.
Proof. intros H. symmetry. apply Forall2_map_eq. eapply Forall2_imp; [|exact H]. cbn. intuition congruence. Qed.

Lemma filter_names_nodup (f : impl_fn -> bool) l :
  NoDup (map m_name l) -> NoDup (map m_name (filter f l)).
Proof.
  induction l as [|a l IH]; cbn; [auto|]. intros ND. inversion ND as [|? ? N ND']; subst.
  destruct (f a); cbn; [|auto]. constructor; [|auto]. intros I. apply N.
  apply in_map_iff in I. destruct I as [b [<- I]]. apply filter_In in I. apply in_map. tauto.
Qed.

Theorem analyze_done args item mo :
  NoDup (map m_name (methods item)) -> analyze args item = Done mo ->
  analyze_state_machine args item = Done (mo_config mo) /\
  i_self (mo_impl mo) = i_self item /\ i_generics (mo_impl mo) = i_generics item /\
  Forall2 same_item (i_items item) (i_items (mo_impl mo)) /\
  entries (state_found (mo_config mo))
          (filter (marked "state") (methods item)) (mo_states mo) /\
  entries (super_info (mo_config mo)) (filter (marked "superstate") (methods item)) (mo_supers mo) /\
  entries action_info (filter (marked "action") (methods item)) (mo_actions mo).
Proof.
  intros ND H. unfold analyze in H. destruct (ebind_done _ _ H) as [c [C H1]]. clear H.
  destruct (ebind_done _ _ H1) as [[f items] [E H2]]. clear H1. injection H2 as <-. cbn.
  destruct (@analyze_items_done c (i_items item) (Found [] [] []) f items) as [S [[h1 [A1 B1]] [[h2 [A2 B2]] [h3 [A3 B3]]]]];
    [cbn; tauto|exact ND|exact E|]. cbn in A1, A2, A3. rewrite A1, A2, A3. auto 10.
Qed.
