(** ConstMacroProofs.v — read-only fields of generated machines (C80). *)

From Coq Require Import String List Bool Arith Lia.
From Verif Require Import MacroSyntax MacroLower MacroGen MacroSem MacroSpec.
From Verif Require Import Machine Api Spec ConstSpec.
From Verif Require MacroMachineProofs Props7.
Import ListNotations.
Open Scope string_scope.
Open Scope list_scope.
Set Implicit Arguments.

Section Call.
  Variables Val Sh Ev Cx : Type.
  Variables ev cxi f : ident.
  Hypothesis Fe : f <> ev.
  Hypothesis Fc : f <> cxi.

  Lemma names_dec (p : fn_arg) : names f p \/ ~ names f p.
  Proof.
    destruct p as [|[attrs q t]]; [right; intros (pt & [=] & _)|].
    destruct q as [i| | | | | |]; try (right; intros (pt & [= <-] & Ep); discriminate Ep).
    destruct (string_dec i f) as [->|N].
    - left. eexists. split; reflexivity.
    - right. intros (pt & [= <-] & [= E]). contradiction.
  Qed.
  Lemma some_names (ps : list fn_arg) :
    (forall p, In p ps -> ~ names f p) \/ exists i p, nth_error ps i = Some p /\ names f p.
  Proof.
    induction ps as [|p ps IH]; [left; intros p []|].
    destruct (names_dec p) as [N|N]; [right; exists 0, p; split; [reflexivity|exact N]|].
    destruct IH as [IH|(i & q & E & M)].
    - left. intros q [<-|J]; auto.
    - right. exists (S i), q. split; assumption.
  Qed.
  Lemma combine_nth_error {A B} (l : list A) (l' : list B) i a b :
    nth_error l i = Some a -> nth_error l' i = Some b -> In (a, b) (combine l l').
  Proof.
    revert l' i. induction l as [|x l IH]; intros [|y l'] [|i]; cbn; try discriminate.
    - intros [= ->] [= ->]. now left.
    - intros E1 E2. right. eauto.
  Qed.
  Lemma Forall2_nth {A B} (P : A -> B -> Prop) l l' i a :
    Forall2 P l l' -> nth_error l i = Some a -> exists b, nth_error l' i = Some b /\ P a b.
  Proof.
    intros H. revert i. induction H; intros [|i]; cbn; try discriminate.
    - intros [= ->]. eauto.
    - eauto.
  Qed.
  Lemma call_keeps {A} (m : impl_fn) (body : list (arg Val Sh Ev Cx) -> reply A * list (arg Val Sh Ev Cx))
      e fields sh c r fields' sh' c' :
    reads_only f m -> (forall as_ r left, body as_ = (r, left) -> keeps_shared (m_inputs m) as_ left) ->
    calls_by_name ev cxi (m_inputs m) body e fields sh c r fields' sh' c' -> fields' f = fields f.
  Proof.
    intros RO KS (as_ & left & D & Eb & W). destruct (KS as_ r left Eb) as [SK KE]. specialize (W SK).
    destruct (some_names (m_inputs m)) as [N|(i & p & E & N)]; [exact (@wr_other _ _ _ _ _ _ _ _ _ _ _ _ _ _ W f N)|].
    destruct (Forall2_nth i D E) as (a & Ea & Da).
    destruct N as (pt & -> & Ep). destruct pt as [attrs pat t]. cbn in Ep. subst pat.
    destruct (RO attrs t (nth_error_In _ _ E)) as (l & t' & ->).
    pose proof (KE i attrs (PatIdent f) l t' E) as K. rewrite Ea in K.
    inversion Da as [|pt v H1 H2|pt H1|pt f' v H1 H2 H3 H4]; subst; cbn in *.
    - injection H1 as ->. contradiction.
    - injection H1 as ->. contradiction.
    - injection H1 as <-. rewrite H4. eapply (wr_field W); eauto.
      + exact (@combine_nth_error _ _ _ _ i _ _ E K).
      + eexists. split; reflexivity.
  Qed.
End Call.

Section ReadOnly.
  Variables (o : orders) (args : list meta) (item : item_impl) (g : generated).
  Variables Val Sh Ev Cx : Type.
  Variable B : bodies Val Sh Ev Cx g.
  Hypothesis E : expand o args item = Done g.
  Hypothesis CO : compiles g.
  Hypothesis HY : hygienic item g.
  Hypothesis BC : borrow_checked item B.
  Variables (m : impl_fn) (f : ident).
  Hypothesis Im : In m (methods item).
  Hypothesis Km : marked "state" m = true.
  Hypothesis RO : read_only item f m.
  Hypothesis Fe : f <> g_event_ident g.
  Hypothesis Fc : f <> g_context_ident g.
  Notation M := (generated_machine B).
  Notation state := (value Val (g_state_variants g)).
  Notation sup := (value Val (g_super_variants g)).

  Definition unchanged (n n' : node state sup) : Prop :=
    match n, n' with
    | NState x, NState x' => tag x' = tag x /\ (tag x = variant_of m -> get_field x' f = get_field x f)
    | NSuper u, NSuper u' => tag u' = tag u /\
        forall mu, In mu (methods item) -> marked "superstate" mu = true -> around item m (m_name mu) ->
          tag u = variant_of mu -> get_field u' f = get_field u f
    | _, _ => False
    end.

  Lemma unchanged_handler n sh cx e r n' sh' cx' : node_handler M n sh cx e = (r, n', sh', cx') -> unchanged n n'.
  Proof.
    destruct (Props7.C29_every_value o args item g Val E CO) as [VS VU].
    destruct n as [x|u]; cbn [node_handler].
    - destruct (s_handler M x sh cx e) as [[[q y] s] c] eqn:EH. intros [= <- <- <- <-].
      destruct (VS x) as (mx & (Ix & Kx & Tx) & _).
      pose proof (proj1 (Props7.C29_handlers o args item g Val Sh Ev Cx B mx E CO HY Ix) Kx x y sh s cx c e q Tx EH) as [T C].
      split; [exact T|]. intros Tm.
      destruct (Props7.C29_handlers o args item g Val Sh Ev Cx B m E CO HY Im) as [H _].
      destruct (H Km x y sh s cx c e q Tm EH) as [_ C'].
      exact (call_keeps Fe Fc (proj1 (proj1 RO)) (fun as_ r0 left => @bc_handler _ _ _ _ _ _ _ BC _ as_ r0 left Im (or_introl Km)) C').
    - destruct (u_handler M u sh cx e) as [[[q y] s] c] eqn:EH. intros [= <- <- <- <-].
      destruct (VU u) as (mx & (Ix & Kx & Tx) & _).
      pose proof (proj2 (Props7.C29_handlers o args item g Val Sh Ev Cx B mx E CO HY Ix) Kx u y sh s cx c e q Tx EH) as [T C].
      split; [exact T|]. intros mu Iu Ku AR Tm.
      destruct (Props7.C29_handlers o args item g Val Sh Ev Cx B mu E CO HY Iu) as [_ H].
      destruct (H Ku u y sh s cx c e q Tm EH) as [_ C'].
      exact (call_keeps Fe Fc (proj1 (proj2 RO mu Iu Ku AR)) (fun as_ r0 left => @bc_handler _ _ _ _ _ _ _ BC _ as_ r0 left Iu (or_intror Ku)) C').
  Qed.

  Lemma action_keeps kind which mx d (x y : value Val d) sh s cx c q :
    which = "entry_action" \/ which = "exit_action" -> node_reads_only item kind f mx ->
    action_runs item B (declared kind which mx) x y sh s cx c q -> get_field y f = get_field x f.
  Proof.
    intros WH [_ NR] A. unfold action_runs in A. destruct (declared kind which mx) as [i|] eqn:DE.
    - destruct A as (ma & Ia & Ka & <- & _ & C).
      exact (call_keeps Fe Fc (NR which ma WH DE Ia Ka) (fun as_ r0 left => @bc_action _ _ _ _ _ _ _ BC ma as_ r0 left Ia Ka) C).
    - destruct A as (_ & -> & _). reflexivity.
  Qed.
  Lemma action_tag a d (x y : value Val d) sh s cx c q : action_runs item B a x y sh s cx c q -> tag y = tag x.
  Proof. destruct a as [i|]; cbn; [intros (ma & _ & _ & _ & T & _); exact T|intros (_ & -> & _); reflexivity]. Qed.

  Lemma unchanged_entry n sh cx r n' sh' cx' : node_entry M n sh cx = (r, n', sh', cx') -> unchanged n n'.
  Proof.
    destruct (Props7.C29_every_value o args item g Val E CO) as [VS VU].
    destruct n as [x|u]; cbn [node_entry].
    - destruct (s_entry M x sh cx) as [[[q y] s] c] eqn:EH. intros [= <- <- <- <-].
      destruct (VS x) as (mx & (Ix & Kx & Tx) & _). split.
      + exact (@action_tag _ _ _ _ _ _ _ _ _ (proj1 (proj1 (Props7.C29_actions o args item g Val Sh Ev Cx B mx E CO HY Ix) Kx x y sh s cx c q Tx) EH)).
      + intros Tm. exact (@action_keeps _ _ _ _ _ _ _ _ _ _ _ (or_introl eq_refl) (proj1 RO)
          (proj1 (proj1 (Props7.C29_actions o args item g Val Sh Ev Cx B m E CO HY Im) Km x y sh s cx c q Tm) EH)).
    - destruct (u_entry M u sh cx) as [[[q y] s] c] eqn:EH. intros [= <- <- <- <-].
      destruct (VU u) as (mx & (Ix & Kx & Tx) & _). split.
      + exact (@action_tag _ _ _ _ _ _ _ _ _ (proj1 (proj2 (Props7.C29_actions o args item g Val Sh Ev Cx B mx E CO HY Ix) Kx u y sh s cx c q Tx) EH)).
      + intros mu Iu Ku AR Tm. exact (@action_keeps _ _ _ _ _ _ _ _ _ _ _ (or_introl eq_refl) (proj2 RO mu Iu Ku AR)
          (proj1 (proj2 (Props7.C29_actions o args item g Val Sh Ev Cx B mu E CO HY Iu) Ku u y sh s cx c q Tm) EH)).
  Qed.
  Lemma unchanged_exit n sh cx r n' sh' cx' : node_exit M n sh cx = (r, n', sh', cx') -> unchanged n n'.
  Proof.
    destruct (Props7.C29_every_value o args item g Val E CO) as [VS VU].
    destruct n as [x|u]; cbn [node_exit].
    - destruct (s_exit M x sh cx) as [[[q y] s] c] eqn:EH. intros [= <- <- <- <-].
      destruct (VS x) as (mx & (Ix & Kx & Tx) & _). split.
      + exact (@action_tag _ _ _ _ _ _ _ _ _ (proj2 (proj1 (Props7.C29_actions o args item g Val Sh Ev Cx B mx E CO HY Ix) Kx x y sh s cx c q Tx) EH)).
      + intros Tm. exact (@action_keeps _ _ _ _ _ _ _ _ _ _ _ (or_intror eq_refl) (proj1 RO)
          (proj2 (proj1 (Props7.C29_actions o args item g Val Sh Ev Cx B m E CO HY Im) Km x y sh s cx c q Tm) EH)).
    - destruct (u_exit M u sh cx) as [[[q y] s] c] eqn:EH. intros [= <- <- <- <-].
      destruct (VU u) as (mx & (Ix & Kx & Tx) & _). split.
      + exact (@action_tag _ _ _ _ _ _ _ _ _ (proj2 (proj2 (Props7.C29_actions o args item g Val Sh Ev Cx B mx E CO HY Ix) Kx u y sh s cx c q Tx) EH)).
      + intros mu Iu Ku AR Tm. exact (@action_keeps _ _ _ _ _ _ _ _ _ _ _ (or_intror eq_refl) (proj2 RO mu Iu Ku AR)
          (proj2 (proj2 (Props7.C29_actions o args item g Val Sh Ev Cx B mu E CO HY Iu) Ku u y sh s cx c q Tm) EH)).
  Qed.

  Lemma put_keeps d (x : value Val d) (u u' : sup) :
    (forall f0, get_field u f0 <> None -> get_field u f0 = get_field x f0) -> get_field u' f = get_field u f ->
    get_field (put_back g x u') f = get_field x f.
  Proof.
    intros MI P. rewrite MacroMachineProofs.put_back_field. rewrite P.
    destruct (get_field u f) as [w|] eqn:G; [|reflexivity].
    rewrite <- (MI f) by congruence. now rewrite G.
  Qed.
  Lemma unchanged_s_put (x : state) (u u' : sup) : s_super M x = Some u -> unchanged (NSuper u) (NSuper u') ->
    unchanged (NState x) (NState (s_put M x u')).
  Proof.
    intros S [T H]. cbn [s_put generated_machine]. split; [apply MacroMachineProofs.put_back_tag|]. intros Tm.
    pose proof (proj1 (Props7.C30_superstates o args item g Val Sh Ev Cx B m E CO Im) Km x Tm) as D.
    destruct (declared "state" "superstate" m) as [i|] eqn:DE; [|congruence].
    destruct D as (mu & v & Iu & Ku & N & S' & Tv & MI). rewrite S in S'. injection S' as <-.
    apply (@put_keeps _ x u u' MI). apply (H mu Iu Ku); [|exact Tv].
    exists i. split; [exact DE|]. left. congruence.
  Qed.
  Lemma unchanged_u_put (u v v' : sup) : u_super M u = Some v -> unchanged (NSuper v) (NSuper v') ->
    unchanged (NSuper u) (NSuper (u_put M u v')).
  Proof.
    intros S [T H]. cbn [u_put generated_machine]. split; [apply MacroMachineProofs.put_back_tag|].
    intros mu Iu Ku AR Tm.
    pose proof (proj2 (Props7.C30_superstates o args item g Val Sh Ev Cx B mu E CO Iu) Ku u Tm) as D.
    destruct (declared "superstate" "superstate" mu) as [i|] eqn:DE; [|congruence].
    destruct D as (mw & w & Iw & Kw & N & S' & Tw & MI). rewrite S in S'. injection S' as <-.
    apply (@put_keeps _ u v v' MI). apply (H mw Iw Kw); [|exact Tw].
    assert (AB : above item (m_name mu) (m_name mw)) by (rewrite N; exact (above_direct item mu Iu Ku DE)).
    destruct AR as (j & Dm & [->|A]); exists (m_name mu) + exists j; (split; [exact Dm|]); right; [exact AB|].
    exact (above_trans A AB).
  Qed.
  Lemma read_only_lasts : lasting M unchanged.
  Proof.
    constructor.
    - intros [x|u]; cbn; auto.
    - intros [a|a] [b|b] [c|c]; cbn; try tauto.
      + intros [T1 H1] [T2 H2]. split; [congruence|]. intros T. rewrite H2, H1; auto; congruence.
      + intros [T1 H1] [T2 H2]. split; [congruence|]. intros mu I1 I2 I3 T. rewrite (H2 mu), (H1 mu); auto; congruence.
    - exact unchanged_handler.
    - exact unchanged_entry.
    - exact unchanged_exit.
    - intros x u u' S _. exact (@unchanged_s_put x u u' S).
    - intros x u u' S _. exact (@unchanged_u_put x u u' S).
  Qed.
End ReadOnly.
