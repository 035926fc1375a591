(** MacroTypedProofs.v — generated machines respect the types of their storage. *)

From Coq Require Import String Ascii List Bool Arith Lia Permutation.
From Verif Require Import Machine Api Spec Sim KindSim.
From Verif Require Import MacroSyntax MacroVisit MacroAnalyze MacroLower MacroGen MacroSem.
From Verif Require Import MacroSpec MacroTypedSpec MacroBasics MacroExpandProofs MacroLowerProofs MacroCallProofs
  MacroMachineProofs MacroBehaviour MacroStorageProofs.
Import ListNotations.
Open Scope string_scope.
Open Scope list_scope.
Set Implicit Arguments.

Lemma field_type_once (fs : list field) f t t' :
  NoDup (map f_name fs) -> In (Field f t) fs -> In (Field f t') fs -> t = t'.
Proof.
  induction fs as [|a fs IH]; cbn; [tauto|]. intros N. inversion N as [|? ? N1 N2]; subst.
  intros [->|I] [E|J]; try congruence.
  - exfalso. apply N1. cbn. apply (in_map f_name) in J. exact J.
  - subst a. exfalso. apply N1. apply (in_map f_name) in I. exact I.
  - eauto.
Qed.

Section Typed.
  Variables Val Sh Ev Cx : Type.
  Variables (args : list meta) (item : item_impl) (g : generated) (c : config).
  Variables sms ums : list impl_fn.
  Hypothesis ND : NoDup (map m_name (methods item)).
  Hypothesis X : expanded args item g c sms ums.
  Hypothesis CO : compiles g.
  Hypothesis HY : hygienic item g.
  Notation ev := (g_event_ident g).
  Notation cxi := (g_context_ident g).
  Hypothesis TF : types_fit item ev cxi.
  Variable has : ty -> Val -> Prop.
  Notation typed kind x := (well_typed item ev cxi has kind x).
  Notation fits := (@suits ev cxi Val Sh Ev Cx has).
  Notation arg' := (arg Val Sh Ev Cx).

  Lemma ev_not_cx : ev <> cxi.
  Proof. exact (proj2 (proj2 (@distinct3 g (co_params CO)))). Qed.

  (** ** Storage *)
  Lemma state_keeps m f t : In m sms -> keeps ev cxi "state" m f t -> In (Field f t) (state_fields c m).
  Proof.
    intros I [[_ S]|[[=] _]].
    apply (proj1 (@state_storage args item g c sms ums X CO m (state_variant c m) I
                    ltac:(rewrite (ex_state_variants X); now apply in_map) eq_refl)). exact S.
  Qed.
  Lemma super_keeps m f t : In m ums -> keeps ev cxi "superstate" m f t ->
    exists l mu, In (Field f (TReference l mu t)) (super_fields c m).
  Proof.
    intros I [[[=] _]|[_ (l & mu & S)]]. exists l, mu.
    apply (proj1 (@super_storage args item g c sms ums X CO m (super_variant c m) I
                    ltac:(rewrite (ex_super_variants X); now apply in_map) eq_refl)). exact S.
  Qed.
  Lemma super_field_kept m f : In m ums -> In f (map f_name (super_fields c m)) ->
    exists t, keeps ev cxi "superstate" m f t.
  Proof.
    intros I J. apply in_map_iff in J. destruct J as [[n t] [<- J]]. cbn.
    pose proof (proj1 (@super_storage args item g c sms ums X CO m (super_variant c m) I
                    ltac:(rewrite (ex_super_variants X); now apply in_map) eq_refl) (Field n t)) as S.
    cbn [super_variant v_fields] in S. apply S in J. pose proof (proj1 (@in_ums _ _ _ _ _ _ X m) I) as [Im K].
    destruct (tf_references TF m Im K J) as (l & mu & t' & ->). exists t'. right. split; [reflexivity|]. eauto.
  Qed.

  (** ** One kind of nodes *)
  Section Nodes.
    Variable kind : ident.
    Hypothesis KD : a_kind kind.
    Variable d : enum.
    Variable ms : list impl_fn.
    Variable pt : impl_fn -> pattern.
    Hypothesis sub : forall v, In v d -> In v (all_variants g).
    Hypothesis PN : forall m, p_variant (pt m) = vname m.
    Hypothesis NDn : NoDup (map vname ms).
    Hypothesis FO : forall m, In m ms -> fields_of d (vname m) = Some (p_fields (pt m)).
    Hypothesis IM : forall m, In m ms -> In m (methods item) /\ idents_only m.
    Hypothesis MS : forall m, In m ms <-> In m (methods item) /\ marked kind m = true.
    Hypothesis ONCE : forall m f t t', In m ms -> keeps ev cxi kind m f t -> keeps ev cxi kind m f t' -> t = t'.
    Hypothesis KF : forall m f t, In m ms -> keeps ev cxi kind m f t -> In f (p_fields (pt m)).

    Lemma same_method m m' : In m ms -> In m' ms -> vname m = vname m' -> m = m'.
    Proof.
      clear - NDn. revert NDn. induction ms as [|a l IH]; cbn; [tauto|]. intros N. inversion N as [|? ? N1 N2]; subst.
      intros [->|I] [->|J] E; auto.
      - exfalso. apply N1. rewrite E. now apply in_map.
      - exfalso. apply N1. rewrite <- E. now apply in_map.
    Qed.
    Lemma typed_at m (x : value Val d) : In m ms -> tag x = vname m ->
      (typed kind x <-> forall f t v, keeps ev cxi kind m f t -> get_field x f = Some v -> has t v).
    Proof.
      intros I T. split.
      - intros W f t v K G. apply (W m f t v); auto; try apply (MS m); auto. now rewrite <- vname_variant.
      - intros W m' f t v I' K' T' K G. assert (m' = m) as ->.
        { apply same_method; [now apply MS|exact I|]. rewrite vname_variant. congruence. }
        eauto.
    Qed.
    Lemma kept_clean m f t : In m ms -> keeps ev cxi kind m f t -> f <> ev /\ f <> cxi.
    Proof.
      intros I K. pose proof (@clean_fields item g HY d _ _ sub (FO _ I) f (KF I K)). tauto.
    Qed.

    Lemma denotes_suits m (x : value Val d) sh cx e ps as_ :
      In m ms -> tag x = vname m -> typed kind x -> served ev cxi kind m ps ->
      Forall2 (denotes ev cxi (get_field x) sh cx e) ps as_ -> Forall2 fits ps as_.
    Proof.
      intros I T W S F. revert S. induction F as [|p a ps' as' D F IH]; intros S; constructor.
      - destruct D as [|q v P E|q P|q f v P N1 N2 G]; try (constructor; assumption).
        destruct q as [attrs pa t]. cbn in P. subst pa.
        destruct (S attrs f t) as (l & mu & t' & -> & K); auto; [now left|].
        constructor; auto. exact (proj1 (@typed_at m x I T) W f t' v K G).
      - apply IH. intros attrs f t J. apply (S attrs f t). now right.
    Qed.
    Lemma suits_same_kind ps as_ left : Forall2 fits ps as_ -> Forall2 fits ps left ->
      Forall2 (@same_kind Val Sh Ev Cx) as_ left.
    Proof.
      pose proof ev_not_cx as NE.
      intros F. revert left. induction F as [|p a ps' as' D F IH]; intros left G; inversion G as [|? b ? ? D' G']; subst;
        constructor; [|auto]. clear - NE D D'.
      destruct D as [|q v P|q v P|attrs f l mu t v N1 N2 G]; inversion D' as [|q' v' P'|q' v' P'|attrs' f' l' mu' t' v' N1' N2' G'];
        subst; cbn in *; try exact I; congruence.
    Qed.
    Lemma suits_named ps left f p : Forall2 fits ps left -> In p ps -> names f p -> f <> ev -> f <> cxi ->
      exists attrs l mu t v, p = Typed (PatType attrs (PatIdent f) (TReference l mu t)) /\
        In (p, AField v) (combine ps left) /\ has t v.
    Proof.
      intros F. induction F as [|q a ps' as' D F IH]; cbn; [tauto|]. intros [->|I] [pt' [-> P]] N1 N2.
      - inversion D as [|q v P1|q v P1|attrs f' l mu t v N1' N2' G]; subst; cbn in *; try congruence.
        injection P as ->. exists attrs, l, mu, t, v. auto.
      - destruct IH as (attrs & l & mu & t & v & E & J & H); auto; [now exists pt'|].
        exists attrs, l, mu, t, v. auto.
    Qed.
    Lemma written_typed m (x x' : value Val d) sh sh' cx cx' ps left :
      In m ms -> tag x = vname m -> tag x' = tag x -> typed kind x -> served ev cxi kind m ps ->
      Forall2 fits ps left -> written ev cxi ps left (get_field x) (get_field x') sh sh' cx cx' -> typed kind x'.
    Proof.
      intros I T T' W S F [Wf Wo _ _ _ _]. rewrite T in T'. apply (@typed_at m x' I T'). intros f t v K G.
      destruct (@kept_clean m f t I K) as [N1 N2].
      destruct (existsb (names_b f) ps) eqn:E.
      - apply existsb_exists in E. destruct E as [p [J E]].
        assert (NP : names f p).
        { destruct p as [|q]; [discriminate|]. cbn in E. destruct (pt_pat q) eqn:P; try discriminate.
          apply String.eqb_eq in E. subst. now exists q. }
        destruct (@suits_named ps left f p F J NP N1 N2) as (attrs & l & mu & t' & w & -> & J' & H).
        rewrite (Wf f _ w J' NP N1 N2) in G. injection G as <-.
        destruct (S attrs f (TReference l mu t') J N1 N2) as (l2 & mu2 & t2 & [= -> -> ->] & K2).
        now rewrite (ONCE I K K2).
      - rewrite Wo in G.
        + exact (proj1 (@typed_at m x I T) W f t v K G).
        + intros p J [q [-> P]]. assert (names_b f (Typed q) = true) by (cbn; rewrite P; apply String.eqb_refl).
          assert (existsb (names_b f) ps = true) by (apply existsb_exists; eauto). congruence.
    Qed.

    (** A call depends only on what the method does with the arguments it gets. *)
    Lemma run_call_agree A (run run' : ident -> list arg' -> reply A * list arg') m mt p e (x : value Val d) sh cx :
      In m ms -> tag x = vname m -> In mt (methods item) -> idents_only mt ->
      fields_of d (tag x) = Some (p_fields p) ->
      call_ok g p (match e with Some _ => true | None => false end) (call_of c mt) ->
      (forall as_, Forall2 (denotes ev cxi (get_field x) sh cx e) (m_inputs mt) as_ ->
         run (m_name mt) as_ = run' (m_name mt) as_) ->
      run_call g run (p_fields p) e (m_name mt) (map param_ident (m_inputs mt)) (x, sh, cx) =
      run_call g run' (p_fields p) e (m_name mt) (map param_ident (m_inputs mt)) (x, sh, cx).
    Proof.
      intros I T Im Id FO' OK AG.
      set (probe := fun (_ : ident) (as_ : list arg') => (Returns as_, as_)).
      destruct (run_call g probe (p_fields p) e (m_name mt) (map param_ident (m_inputs mt)) (x, sh, cx))
        as [r [[y sy] cy]] eqn:E.
      pose proof (@call_by_name Val Sh Ev Cx item g c CO HY d _ probe mt p e x y sh sy cx cy r sub Im Id FO' OK E)
        as [_ (as_ & left & DE & PR & _)].
      unfold run_call in *. destruct (all_some _) as [sls|]; [|reflexivity].
      destruct (all_some _) as [as2|]; [|reflexivity].
      unfold probe in E, PR. injection E as <- _. injection PR as -> _. now rewrite (AG as2 DE).
    Qed.

    Variables B B' : bodies Val Sh Ev Cx g.
    Hypothesis SO : sound item ev cxi has B.
    Hypothesis AG : agree item ev cxi has B B'.

    Lemma node_handler (x : value Val d) sh cx e :
      (forall p k, In (p, k) (map (fun m => (pt m, call_of c m)) ms) -> call_ok g p true k) ->
      (exists m, In m ms /\ tag x = vname m) -> typed kind x ->
      let arms := map (fun m => (pt m, call_of c m)) ms in
      run_handler B arms x sh cx e = run_handler B' arms x sh cx e /\
      let '(r, x', _, _) := run_handler B arms x sh cx e in
      typed kind x' /\ forall t, r = Returns (Transition t) -> typed "state" t.
    Proof.
      intros OK [m [I T]] W. cbn zeta. destruct (IM _ I) as [Im Id].
      pose proof (proj1 (MS m) I) as [_ K].
      assert (HM : is_handler item m) by (split; [exact Im|]; destruct KD as [->| ->]; auto).
      pose proof (tf_handlers TF m KD Im K) as S. split.
      - unfold run_handler. rewrite T, (select_method pt _ PN NDn I). cbn [call_of].
        rewrite (@run_call_agree _ (b_handler B) (b_handler B') m m (pt m) (Some e) x sh cx I T Im Id); auto.
        + rewrite T. auto.
        + apply OK. apply in_map_iff. eauto.
        + intros as_ D. apply (ag_handler AG); [exact HM|]. exact (@denotes_suits m x sh cx (Some e) _ as_ I T W S D).
      - destruct (run_handler B _ x sh cx e) as [[[r x'] sh'] cx'] eqn:E.
        pose proof (@handler_by_name Val Sh Ev Cx item g c CO HY B d ms pt sub PN NDn FO IM m x x' sh sh' cx cx' e r OK I T E)
          as [T' (as_ & left & D & R & WR)].
        pose proof (@denotes_suits m x sh cx (Some e) _ as_ I T W S D) as F.
        destruct (sd_handler SO HM F R) as [FL TR]. split; [|exact TR].
        exact (@written_typed m x x' sh sh' cx cx' _ left I T T' W S FL (WR (suits_same_kind F FL))).
    Qed.

    Lemma node_action which (x : value Val d) sh cx :
      which = "entry_action" \/ which = "exit_action" ->
      (forall p k, In (p, k) (map (fun m => (pt m, action_code c item (declared kind which m))) ms) -> call_ok g p false k) ->
      (forall m i, In m ms -> declared kind which m = Some i -> exists ma, find_method item "action" i = Some ma) ->
      (exists m, In m ms /\ tag x = vname m) -> typed kind x ->
      let arms := map (fun m => (pt m, action_code c item (declared kind which m))) ms in
      run_action B arms x sh cx = run_action B' arms x sh cx /\
      let '(r, x', _, _) := run_action B arms x sh cx in typed kind x'.
    Proof.
      intros WH OK RE [m [I T]] W. cbn zeta. destruct (IM _ I) as [Im Id].
      pose proof (proj1 (MS m) I) as [_ K]. split.
      - unfold run_action. rewrite T, (select_method pt _ PN NDn I).
        assert (OKm : call_ok g (pt m) false (action_code c item (declared kind which m))).
        { apply OK. apply in_map_iff. exists m. auto. }
        destruct (declared kind which m) as [i|] eqn:DE; cbn [action_code] in *; [|reflexivity].
        destruct (RE m i I DE) as [ma F]. rewrite F in *. cbn [call_of] in *.
        destruct (@find_method_in item "action" i ma F) as [Ia [Ka N]]. subst i.
        destruct (ex_action_methods X ma Ia Ka) as [Ida _].
        pose proof (tf_actions TF m ma KD Im K WH DE Ia Ka) as S.
        rewrite (@run_call_agree _ (b_action B) (b_action B') m ma (pt m) None x sh cx I T Ia Ida); auto.
        + rewrite T. auto.
        + intros as_ D. apply (ag_action AG); [exact Ia|exact Ka|]. exact (@denotes_suits m x sh cx None _ as_ I T W S D).
      - destruct (run_action B _ x sh cx) as [[[r x'] sh'] cx'] eqn:E.
        pose proof (@action_by_name Val Sh Ev Cx args item g c sms ums X CO HY B d ms pt sub PN NDn FO (declared kind which)
                      m x x' sh sh' cx cx' r OK (fun i => RE m i I) I T E) as H.
        destruct (declared kind which m) as [i|] eqn:DE; [|destruct H as (_ & -> & _); exact W].
        destruct H as (ma & Ia & Ka & <- & T' & as_ & left & D & R & WR).
        pose proof (tf_actions TF m ma KD Im K WH DE Ia Ka) as S.
        pose proof (@denotes_suits m x sh cx None _ as_ I T W S D) as F.
        pose proof (sd_action SO ma Ia Ka F R) as FL.
        exact (@written_typed m x x' sh sh' cx cx' _ left I T T' W S FL (WR (suits_same_kind F FL))).
    Qed.

    (** Superstates: borrowed, and written back. *)
    Lemma view_typed m mu (x : value Val d) (v : value Val (g_super_variants g)) :
      In m ms -> tag x = vname m -> typed kind x ->
      declared kind "superstate" m = Some (m_name mu) -> In mu ums -> tag v = vname mu -> mirrors x v ->
      well_typed item ev cxi has "superstate" v.
    Proof.
      intros I T W DE J TV MI m' f t w I' K' T' KE G.
      assert (m' = mu) as ->.
      { pose proof (super_names X CO) as N.
        assert (J' : In m' ums) by (apply (in_ums X); auto). clear - N J J' T' TV.
        rewrite <- vname_variant in T'. rewrite TV in T'. clear TV. revert N J J' T'.
        induction ums as [|a l IH]; cbn; [tauto|]. intros N. inversion N as [|? ? N1 N2]; subst.
        intros [->|I] [->|J] E; auto.
        - exfalso. apply N1. rewrite E. now apply in_map.
        - exfalso. apply N1. rewrite <- E. now apply in_map. }
      destruct (proj1 (MS m) I) as [Im K].
      pose proof (tf_superstates TF m KD Im K DE I' K' KE) as KM.
      assert (N : get_field v f <> None) by congruence. specialize (MI f N). rewrite MI in G.
      exact (proj1 (@typed_at m x I T) W f t w KM G).
    Qed.
    Lemma put_typed m mu (x : value Val d) (v : value Val (g_super_variants g)) :
      In m ms -> tag x = vname m -> typed kind x ->
      declared kind "superstate" m = Some (m_name mu) -> In mu ums -> tag v = vname mu ->
      well_typed item ev cxi has "superstate" v -> typed kind (put_back g x v).
    Proof.
      intros I T W DE J TV WV.
      assert (T' : tag (put_back g x v) = vname m) by (rewrite put_back_tag; exact T).
      apply (@typed_at m _ I T'). intros f t w K G. rewrite put_back_field in G.
      destruct (get_field v f) as [w'|] eqn:E; [|exact (proj1 (@typed_at m x I T) W f t w K G)].
      destruct (get_field x f) eqn:E2; [|discriminate]. injection G as <-.
      assert (IF : In f (map f_name (super_fields c mu))).
      { pose proof (@super_fields_of args item g c sms ums X CO mu J) as FV. rewrite <- TV in FV.
        apply (fields_defined _ _ FV). congruence. }
      destruct (@super_field_kept mu f J IF) as [t' KE].
      destruct (proj1 (in_ums X mu) J) as [Imu Kmu]. destruct (proj1 (MS m) I) as [Im Km].
      pose proof (tf_superstates TF m KD Im Km DE Imu Kmu KE) as KM. rewrite (ONCE I K KM).
      apply (WV mu f t' w'); auto. now rewrite <- vname_variant.
    Qed.
  End Nodes.

  (** ** The machine *)
  Variables B B' : bodies Val Sh Ev Cx g.
  Hypothesis SO : sound item ev cxi has B.
  Hypothesis AG : agree item ev cxi has B B'.
  Notation M := (generated_machine B).
  Notation M' := (generated_machine B').
  Notation state := (value Val (g_state_variants g)).
  Notation sup := (value Val (g_super_variants g)).

  Definition typed_relations : relations M M' :=
    Relations M M' (fun x x' : state => x = x' /\ typed "state" x)
                   (fun u u' : sup => u = u' /\ typed "superstate" u) eq eq eq.
  Notation R := typed_relations.

  Lemma state_kind : a_kind "state". Proof. now left. Qed.
  Lemma super_kind : a_kind "superstate". Proof. now right. Qed.
  Lemma state_once m f t t' : In m sms -> keeps ev cxi "state" m f t -> keeps ev cxi "state" m f t' -> t = t'.
  Proof.
    intros I K K'. apply (state_keeps I) in K. apply (state_keeps I) in K'.
    exact (field_type_once _ _ _ _ (@state_fields_nodup args item g c sms ums X CO m I) K K').
  Qed.
  Lemma super_once m f t t' : In m ums -> keeps ev cxi "superstate" m f t -> keeps ev cxi "superstate" m f t' -> t = t'.
  Proof.
    intros I K K'. apply (super_keeps I) in K. apply (super_keeps I) in K'.
    destruct K as (l & mu & K), K' as (l' & mu' & K').
    pose proof (field_type_once _ _ _ _ (@super_fields_nodup args item g c sms ums X CO m I) K K') as [= _ _ E]. exact E.
  Qed.
  Lemma state_kept m f t : In m sms -> keeps ev cxi "state" m f t -> In f (p_fields (state_pattern c m)).
  Proof. intros I K. apply (state_keeps I) in K. apply (in_map f_name) in K. exact K. Qed.
  Lemma super_kept m f t : In m ums -> keeps ev cxi "superstate" m f t -> In f (p_fields (super_pattern c m)).
  Proof. intros I K. apply (super_keeps I) in K. destruct K as (l & mu & K). apply (in_map f_name) in K. exact K. Qed.

  Lemma typed_s_handler x sh cx e : typed "state" x ->
    callback_rel R (response_rel (r_state R)) (r_state R) (s_handler M x sh cx e) (s_handler M' x sh cx e).
  Proof.
    intros W. cbn [s_handler generated_machine]. rewrite (ex_state_arms X). cbn [call_handler_arms].
    pose proof (co_state_arms CO) as [A _]. rewrite (ex_state_arms X) in A.
    pose proof (@node_handler "state" state_kind _ sms (state_pattern c) (@state_variants_all g) (fun _ => eq_refl)
                  (state_names X CO) (fun m I => @state_fields_of _ _ _ _ _ _ X CO m I)
                  (@sms_methods args item g c sms ums X) (in_sms X) state_once state_kept B B' SO AG x sh cx e A
                  (state_method X x) W) as [E H].
    cbn zeta in E, H. rewrite <- E. destruct (run_handler B _ x sh cx e) as [[[r x'] sh'] cx'].
    destruct H as [Wx TR]. repeat split; auto. destruct r as [[| |t]| |]; repeat constructor. now apply TR.
  Qed.
  Lemma typed_u_handler x sh cx e : typed "superstate" x ->
    callback_rel R (response_rel (r_state R)) (r_sup R) (u_handler M x sh cx e) (u_handler M' x sh cx e).
  Proof.
    intros W. cbn [u_handler generated_machine]. rewrite (ex_super_arms X). cbn [call_handler_arms].
    pose proof (co_super_arms CO) as [A _]. rewrite (ex_super_arms X) in A.
    pose proof (@node_handler "superstate" super_kind _ ums (super_pattern c) (@super_variants_all g) (fun _ => eq_refl)
                  (super_names X CO) (fun m I => @super_fields_of _ _ _ _ _ _ X CO m I)
                  (@ums_methods args item g c sms ums X) (in_ums X) super_once super_kept B B' SO AG x sh cx e A
                  (super_method X x) W) as [E H].
    cbn zeta in E, H. rewrite <- E. destruct (run_handler B _ x sh cx e) as [[[r x'] sh'] cx'].
    destruct H as [Wx TR]. repeat split; auto. destruct r as [[| |t]| |]; repeat constructor. now apply TR.
  Qed.
  Lemma reply_refl (r : reply unit) : reply_rel eq r r.
  Proof. destruct r; now constructor. Qed.
  Lemma typed_s_entry x sh cx : typed "state" x ->
    callback_rel R eq (r_state R) (s_entry M x sh cx) (s_entry M' x sh cx).
  Proof.
    intros W. cbn [s_entry generated_machine]. rewrite (ex_state_arms X). cbn [call_entry_action_arms].
    pose proof (co_state_arms CO) as [_ [A _]]. rewrite (ex_state_arms X) in A.
    pose proof (@node_action "state" state_kind _ sms (state_pattern c) (@state_variants_all g) (fun _ => eq_refl)
                  (state_names X CO) (fun m I => @state_fields_of _ _ _ _ _ _ X CO m I)
                  (@sms_methods args item g c sms ums X) (in_sms X) state_once state_kept B B' SO AG
                  "entry_action" x sh cx (or_introl eq_refl) A
                  (fun m i I DE => re_entry (ex_state_resolved X m I) DE)
                  (state_method X x) W) as [E H].
    cbn zeta in E, H. rewrite <- E. destruct (run_action B _ x sh cx) as [[[r x'] sh'] cx'].
    repeat split; auto. apply reply_refl.
  Qed.
  Lemma typed_s_exit x sh cx : typed "state" x ->
    callback_rel R eq (r_state R) (s_exit M x sh cx) (s_exit M' x sh cx).
  Proof.
    intros W. cbn [s_exit generated_machine]. rewrite (ex_state_arms X). cbn [call_exit_action_arms].
    pose proof (co_state_arms CO) as [_ [_ [A _]]]. rewrite (ex_state_arms X) in A.
    pose proof (@node_action "state" state_kind _ sms (state_pattern c) (@state_variants_all g) (fun _ => eq_refl)
                  (state_names X CO) (fun m I => @state_fields_of _ _ _ _ _ _ X CO m I)
                  (@sms_methods args item g c sms ums X) (in_sms X) state_once state_kept B B' SO AG
                  "exit_action" x sh cx (or_intror eq_refl) A
                  (fun m i I DE => re_exit (ex_state_resolved X m I) DE)
                  (state_method X x) W) as [E H].
    cbn zeta in E, H. rewrite <- E. destruct (run_action B _ x sh cx) as [[[r x'] sh'] cx'].
    repeat split; auto. apply reply_refl.
  Qed.
  Lemma typed_u_entry x sh cx : typed "superstate" x ->
    callback_rel R eq (r_sup R) (u_entry M x sh cx) (u_entry M' x sh cx).
  Proof.
    intros W. cbn [u_entry generated_machine]. rewrite (ex_super_arms X). cbn [call_entry_action_arms].
    pose proof (co_super_arms CO) as [_ [A _]]. rewrite (ex_super_arms X) in A.
    pose proof (@node_action "superstate" super_kind _ ums (super_pattern c) (@super_variants_all g) (fun _ => eq_refl)
                  (super_names X CO) (fun m I => @super_fields_of _ _ _ _ _ _ X CO m I)
                  (@ums_methods args item g c sms ums X) (in_ums X) super_once super_kept B B' SO AG
                  "entry_action" x sh cx (or_introl eq_refl) A
                  (fun m i I DE => re_entry (ex_super_resolved X m I) DE)
                  (super_method X x) W) as [E H].
    cbn zeta in E, H. rewrite <- E. destruct (run_action B _ x sh cx) as [[[r x'] sh'] cx'].
    repeat split; auto. apply reply_refl.
  Qed.
  Lemma typed_u_exit x sh cx : typed "superstate" x ->
    callback_rel R eq (r_sup R) (u_exit M x sh cx) (u_exit M' x sh cx).
  Proof.
    intros W. cbn [u_exit generated_machine]. rewrite (ex_super_arms X). cbn [call_exit_action_arms].
    pose proof (co_super_arms CO) as [_ [_ [A _]]]. rewrite (ex_super_arms X) in A.
    pose proof (@node_action "superstate" super_kind _ ums (super_pattern c) (@super_variants_all g) (fun _ => eq_refl)
                  (super_names X CO) (fun m I => @super_fields_of _ _ _ _ _ _ X CO m I)
                  (@ums_methods args item g c sms ums X) (in_ums X) super_once super_kept B B' SO AG
                  "exit_action" x sh cx (or_intror eq_refl) A
                  (fun m i I DE => re_exit (ex_super_resolved X m I) DE)
                  (super_method X x) W) as [E H].
    cbn zeta in E, H. rewrite <- E. destruct (run_action B _ x sh cx) as [[[r x'] sh'] cx'].
    repeat split; auto. apply reply_refl.
  Qed.

  Lemma typed_s_super (x : state) : typed "state" x -> opt_rel (r_sup R) (s_super M x) (s_super M' x).
  Proof.
    intros W. change (s_super M' x) with (s_super M x). destruct (s_super M x) as [v|] eqn:E; [|constructor].
    constructor. split; [reflexivity|].
    destruct (@state_super_some Val Sh Ev Cx args item g c sms ums X CO B x v E) as (m & u & mu & I & T & DE & F & TV & MI).
    destruct (@find_method_in item "superstate" u mu F) as [Im [K N]]. subst u.
    exact (@view_typed "state" state_kind _ sms (state_names X CO) (in_sms X) m mu x v I T W DE
             (proj2 (in_ums X mu) (conj Im K)) TV MI).
  Qed.
  Lemma typed_u_super (x : sup) : typed "superstate" x -> opt_rel (r_sup R) (u_super M x) (u_super M' x).
  Proof.
    intros W. change (u_super M' x) with (u_super M x). destruct (u_super M x) as [v|] eqn:E; [|constructor].
    constructor. split; [reflexivity|].
    destruct (@super_super_some Val Sh Ev Cx args item g c sms ums X CO B x v E) as (m & u & mu & I & T & DE & F & TV & MI).
    destruct (@find_method_in item "superstate" u mu F) as [Im [K N]]. subst u.
    exact (@view_typed "superstate" super_kind _ ums (super_names X CO) (in_ums X) m mu x v I T W DE
             (proj2 (in_ums X mu) (conj Im K)) TV MI).
  Qed.
  Lemma typed_s_put (x : state) (v w : sup) : typed "state" x -> typed "superstate" v ->
    s_super M x = Some w -> discriminant v = discriminant w -> typed "state" (put_back g x v).
  Proof.
    intros W WV E D.
    destruct (@state_super_some Val Sh Ev Cx args item g c sms ums X CO B x w E) as (m & u & mu & I & T & DE & F & TV & MI).
    destruct (@find_method_in item "superstate" u mu F) as [Im [K N]]. subst u.
    apply discriminant_tag in D. rewrite <- D in TV.
    exact (@put_typed "state" state_kind _ sms (state_names X CO) (in_sms X) state_once m mu x v I T W DE
             (proj2 (in_ums X mu) (conj Im K)) TV WV).
  Qed.
  Lemma typed_u_put (x : sup) (v w : sup) : typed "superstate" x -> typed "superstate" v ->
    u_super M x = Some w -> discriminant v = discriminant w -> typed "superstate" (put_back g x v).
  Proof.
    intros W WV E D.
    destruct (@super_super_some Val Sh Ev Cx args item g c sms ums X CO B x w E) as (m & u & mu & I & T & DE & F & TV & MI).
    destruct (@find_method_in item "superstate" u mu F) as [Im [K N]]. subst u.
    apply discriminant_tag in D. rewrite <- D in TV.
    exact (@put_typed "superstate" super_kind _ ums (super_names X CO) (in_ums X) super_once m mu x v I T W DE
             (proj2 (in_ums X mu) (conj Im K)) TV WV).
  Qed.

  Lemma hook_same (h : hook_code) run run' sh : (forall p sh, run p sh = run' p sh) ->
    hook_rel R (run_hook B h run sh) (run_hook B' h run' sh).
  Proof.
    intros E. unfold run_hook, hook_rel. destruct h as [|p|p]; cbn.
    - split; [apply reply_refl|reflexivity].
    - rewrite (ag_async AG). destruct (b_async B' p); cbn; [split; [apply reply_refl|reflexivity]|].
      rewrite E. split; [apply reply_refl|reflexivity].
    - rewrite E. split; [apply reply_refl|reflexivity].
  Qed.

  Theorem typed_kindred : kindred R.
  Proof.
    constructor; cbn [r_state r_sup r_shared r_event r_ctx typed_relations].
    - split; [exact (ag_initial AG)|exact (sd_initial SO)].
    - intros x x' y y' [-> _] [-> _]. reflexivity.
    - intros x x' y y' [-> _] [-> _]. reflexivity.
    - intros x x' [<- W]. exact (typed_s_super W).
    - intros x x' [<- W]. exact (typed_u_super W).
    - intros x x' v v' w w' [<- W] [<- WV] E _ D. split; [reflexivity|]. exact (@typed_s_put x v w W WV E D).
    - intros x x' v v' w w' [<- W] [<- WV] E _ D. split; [reflexivity|]. exact (@typed_u_put x v w W WV E D).
    - intros u v. apply discriminant_tag. apply put_back_tag.
    - intros x x' sh sh' cx cx' e e' [<- W] <- <- <-. exact (typed_s_handler sh cx e W).
    - intros x x' sh sh' cx cx' [<- W] <- <-. exact (typed_s_entry sh cx W).
    - intros x x' sh sh' cx cx' [<- W] <- <-. exact (typed_s_exit sh cx W).
    - intros x x' sh sh' cx cx' e e' [<- W] <- <- <-. exact (typed_u_handler sh cx e W).
    - intros x x' sh sh' cx cx' [<- W] <- <-. exact (typed_u_entry sh cx W).
    - intros x x' sh sh' cx cx' [<- W] <- <-. exact (typed_u_exit sh cx W).
    - intros sh sh' n n' e e' <- Hn <-. apply hook_same. intros p s.
      destruct Hn as [a b [<- W]|a b [<- W]]; apply (ag_dispatch_hook AG); exact W.
    - intros sh sh' n n' e e' <- Hn <-. apply hook_same. intros p s.
      destruct Hn as [a b [<- W]|a b [<- W]]; apply (ag_dispatch_hook AG); exact W.
    - intros sh sh' a a' b b' <- [<- W] [<- W']. apply hook_same. intros p s.
      now apply (ag_transition_hook AG).
    - intros sh sh' a a' b b' <- [<- W] [<- W']. apply hook_same. intros p s.
      now apply (ag_transition_hook AG).
  Qed.

  Theorem typed_handles stack md sh evs :
    let r := sm_handles stack md (@new_state_machine M sh) evs in
    let r' := sm_handles stack md (@new_state_machine M' sh) evs in
    machine_rel R (fst r) (fst r') /\ Forall2 (called_rel R) (snd r) (snd r').
  Proof.
    cbn zeta. apply (@kin_handles M M' R typed_kindred (generated_stable B) stack md evs evs).
    - induction evs as [|[e cx] evs IH]; constructor; [|exact IH]. split; reflexivity.
    - split; [|split; reflexivity]. exact (ks_initial typed_kindred).
  Qed.

  Lemma typed_node n n' : node_rel (r_state R) (r_sup R) n n' ->
    n = n' /\ node_typed item ev cxi has n.
  Proof. intros [a b [<- W]|a b [<- W]]; split; auto. Qed.
  Lemma typed_entry o o' : obs_rel R o o' -> entry_typed item B has o /\ obs_rel (equal_relations B B') o o'.
  Proof.
    assert (N : forall n n', node_rel (r_state R) (r_sup R) n n' ->
              node_typed item ev cxi has n /\
              node_rel (r_state (equal_relations B B')) (r_sup (equal_relations B B')) n n').
    { intros n n' [a b [<- W]|a b [<- W]]; (split; [exact W|now constructor]). }
    intros [n n' e e' H1 H2|n n' e e' H1 H2|a a' H1|n n' e e' H1 H2|a a' b b' H1 H2|a a' b b' H1 H2|n n' H1|n n' H1];
      try (destruct (N _ _ H1) as [T Q]; split; [exact T|constructor; assumption]).
    - destruct H1 as [| |a b [<- W]]; (split; [cbn; auto|repeat constructor]).
    - destruct H1 as [<- W1], H2 as [<- W2]. split; [now split|now constructor].
    - destruct H1 as [<- W1], H2 as [<- W2]. split; [now split|now constructor].
  Qed.
  Lemma typed_called k k' : called_rel R k k' ->
    Forall (entry_typed item B has) (c_tr k) /\ called_rel (equal_relations B B') k k'.
  Proof.
    intros (O & C & T). split.
    - clear C O. induction T as [|o o' l l' H _ IH]; constructor; [apply (typed_entry H)|exact IH].
    - repeat split; [exact O| |].
      + destruct C; now constructor.
      + clear C O. induction T as [|o o' l l' H _ IH]; constructor; [apply (typed_entry H)|exact IH].
  Qed.
  Lemma typed_all l l' : Forall2 (called_rel R) l l' ->
    Forall (fun k => Forall (entry_typed item B has) (c_tr k)) l /\
    Forall2 (called_rel (equal_relations B B')) l l'.
  Proof.
    intros F. split; induction F as [|a b l l' H F IH]; constructor; try exact IH; apply (typed_called H).
  Qed.
End Typed.
