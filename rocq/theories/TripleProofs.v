(** TripleProofs.v — a small program logic for [comp] and the basic facts about chains. *)

From Coq Require Import List Bool Arith Lia.
From Verif Require Import Machine Blocking Awaitable Api Spec.
Import ListNotations.
Set Implicit Arguments.

(** ** Lists *)

Lemma prefix_refl {A} (l : list A) : prefix l l.
Proof. exists []; now rewrite app_nil_r. Qed.

Lemma prefix_app {A} (l l1 l2 : list A) : prefix l1 l2 -> prefix (l ++ l1) (l ++ l2).
Proof. intros [l3 ->]. exists l3. now rewrite app_assoc. Qed.

Lemma prefix_app_r {A} (l1 l2 l3 : list A) : prefix l1 l2 -> prefix l1 (l2 ++ l3).
Proof. intros [l4 ->]. exists (l4 ++ l3). now rewrite app_assoc. Qed.

Lemma prefix_nil {A} (l : list A) : prefix [] l.
Proof. now exists l. Qed.

Lemma prefix_trans {A} (l1 l2 l3 : list A) : prefix l1 l2 -> prefix l2 l3 -> prefix l1 l3.
Proof. intros [a ->] [b ->]. exists (a ++ b). now rewrite app_assoc. Qed.

Lemma prefix_length {A} (l1 l2 : list A) : prefix l1 l2 -> length l1 <= length l2.
Proof. intros [l ->]. rewrite app_length. lia. Qed.

Lemma prefix_in {A} (l1 l2 : list A) x : prefix l1 l2 -> In x l1 -> In x l2.
Proof. intros [l ->] H. apply in_or_app. now left. Qed.

Lemma prefix_map {A B} (f : A -> B) l1 l2 : prefix l1 l2 -> prefix (map f l1) (map f l2).
Proof. intros [l ->]. exists (map f l). apply map_app. Qed.

Lemma firstn_prefix {A} n (l : list A) : prefix (firstn n l) l.
Proof. exists (skipn n l). now rewrite firstn_skipn. Qed.

(** ** Chains *)

Section Chains.
  Variable h : hierarchy.

  Lemma chain_functional o l1 l2 : chain h o l1 -> chain h o l2 -> l1 = l2.
  Proof.
    intros H1; revert l2; induction H1 as [|u l H1 IH]; intros l2 H2; inversion H2; subst.
    - reflexivity.
    - f_equal. now apply IH.
  Qed.

  Lemma chain_length_pos u l : chain h (Some u) l -> 1 <= length l.
  Proof. intros H; inversion H; subst; simpl; lia. Qed.

  Lemma chain_app xs ys o : chain h o (xs ++ ys) ->
    ys <> [] -> exists o', chain h o' ys.
  Proof.
    revert o; induction xs as [|x xs IH]; simpl; intros o H Hne.
    - eauto.
    - inversion H; subst. eauto.
  Qed.

  (** A chain has no repetition. *)
  Lemma chain_suffix o xs u ys : chain h o (xs ++ u :: ys) -> chain h (Some u) (u :: ys).
  Proof.
    revert o; induction xs as [|x xs IH]; simpl; intros o H; inversion H; subst.
    - now constructor.
    - eauto.
  Qed.

  Lemma chain_NoDup o l : chain h o l -> NoDup l.
  Proof.
    induction 1 as [|u l H IH]; constructor; auto.
    intros Hin. apply in_split in Hin. destruct Hin as (xs & ys & ->).
    assert (H1 : chain h (Some u) (u :: xs ++ u :: ys)) by now constructor.
    assert (H2 : chain h (Some u) (u :: ys)) by (eapply chain_suffix; exact H).
    pose proof (chain_functional H1 H2) as E.
    apply (f_equal (@length nat)) in E. simpl in E. rewrite app_length in E. simpl in E. lia.
  Qed.

  Lemma path_functional s p1 p2 : path h s p1 -> path h s p2 -> p1 = p2.
  Proof.
    intros (l1 & H1 & ->) (l2 & H2 & ->). now rewrite (chain_functional H1 H2).
  Qed.
End Chains.

Lemma height_chain n h o : height_at_most n h -> exists l, chain h o l /\ length l <= n.
Proof.
  intros H. destruct o as [u|].
  - apply H.
  - exists []. split; [constructor | simpl; lia].
Qed.

Lemma height_bound n h o l : height_at_most n h -> chain h o l -> length l <= n.
Proof.
  intros H Hc. destruct (height_chain o H) as (l' & Hc' & Hl).
  now rewrite (chain_functional Hc Hc').
Qed.

(** ** Inversion of runs *)

Section Runs.
  Variable m : machine.

  Lemma bind_run {X A B} (c : comp m X A) (k : A -> comp m X B) x sh cx o x2 sh2 cx2 t :
    bind c k x sh cx = Res o x2 sh2 cx2 t ->
    (exists w, o = Abort w /\ c x sh cx = Res (Abort w) x2 sh2 cx2 t) \/
    (exists a x1 sh1 cx1 t1 t2,
        c x sh cx = Res (Ret a) x1 sh1 cx1 t1 /\
        k a x1 sh1 cx1 = Res o x2 sh2 cx2 t2 /\ t = t1 ++ t2).
  Proof.
    unfold bind. destruct (c x sh cx) as [[a|w] x1 sh1 cx1 t1]; simpl.
    - destruct (k a x1 sh1 cx1) as [o' x2' sh2' cx2' t2] eqn:E; simpl; intros H;
        inversion H; subst. right. repeat eexists. now rewrite E.
    - intros H; inversion H; subst. left. eauto.
  Qed.

  Lemma self_run {X} (x : X) (sh : Shared m) cx o x2 sh2 cx2 t :
    self x sh cx = Res o x2 sh2 cx2 t ->
    o = Ret x /\ x2 = x /\ sh2 = sh /\ cx2 = cx /\ t = [].
  Proof. unfold self; intros H; inversion H; auto. Qed.

  Lemma self_bind_run {X B} (k : X -> comp m X B) x sh cx :
    bind self k x sh cx = k x x sh cx.
  Proof. unfold bind, self; simpl. now destruct (k x x sh cx). Qed.

  Lemma ret_run {X A} (a : A) (x : X) (sh : Shared m) cx o x2 sh2 cx2 t :
    ret a x sh cx = Res o x2 sh2 cx2 t ->
    o = Ret a /\ x2 = x /\ sh2 = sh /\ cx2 = cx /\ t = [].
  Proof. unfold ret; intros H; inversion H; auto. Qed.

  Lemma via_run {X V A} (put : X -> V -> X) v (c : comp m V A) x sh cx o x2 sh2 cx2 t :
    via put v c x sh cx = Res o x2 sh2 cx2 t ->
    exists v2, c v sh cx = Res o v2 sh2 cx2 t /\ x2 = put x v2.
  Proof.
    unfold via. destruct (c v sh cx); simpl. intros H; inversion H; subst. eauto.
  Qed.

  Lemma lift_run {X A} (o' : outcome A) (x : X) (sh : Shared m) cx o x2 sh2 cx2 t :
    lift o' x sh cx = Res o x2 sh2 cx2 t ->
    o = o' /\ x2 = x /\ sh2 = sh /\ cx2 = cx /\ t = [].
  Proof. unfold lift; intros H; inversion H; auto. Qed.

  Definition user (w : why) : Prop := w = Panicked \/ w = DroppedFuture.

  Lemma user_outcome {A} (r : reply A) w : outcome_of r = Abort w -> user w.
  Proof. destruct r; simpl; intros E; inversion E; unfold user; auto. Qed.

  Lemma hook_run {X} f (ob : obs m) (x : X) sh cx o x2 sh2 cx2 t :
    call_hook f ob x sh cx = Res o x2 sh2 cx2 t ->
    x2 = x /\ cx2 = cx /\ t = [ob] /\ (forall w, o = Abort w -> user w).
  Proof.
    unfold call_hook. destruct (f sh) as [r sh']. intros H; inversion H; subst.
    repeat split; auto. intros w. apply user_outcome.
  Qed.

  Lemma action_run {X} f (ob : X -> obs m) (x : X) sh cx o x2 sh2 cx2 t :
    call_action f ob x sh cx = Res o x2 sh2 cx2 t ->
    exists r, f x sh cx = (r, x2, sh2, cx2) /\ o = outcome_of r /\ t = [ob x].
  Proof.
    unfold call_action. destruct (f x sh cx) as [[[r x'] sh'] cx'] eqn:E.
    intros H; inversion H; subst. eauto.
  Qed.

  Lemma handler_run {X} f (nd : X -> node (State m) (Sup m)) (e : Event m) (x : X) sh cx
      o x2 sh2 cx2 t :
    call_handler m f nd e x sh cx = Res o x2 sh2 cx2 t ->
    exists r, f x sh cx e = (r, x2, sh2, cx2) /\ o = outcome_of r /\
      t = OHandler (nd x) e :: match r with Returns a => [OReturn a] | _ => [] end.
  Proof.
    unfold call_handler. destruct (f x sh cx e) as [[[r x'] sh'] cx'] eqn:E.
    intros H; inversion H; subst. eauto.
  Qed.
End Runs.

(** ** Triples *)

Section Triples.
  Variable m : machine.

  (** If [P] holds of `*self` before, then [Q] of result, `*self` and log if [c] returns,
      and [R] of reason, `*self` and log if it aborts. *)
  Definition tri {X A} (P : X -> Prop) (c : comp m X A)
      (Q : A -> X -> list (obs m) -> Prop) (R : why -> X -> list (obs m) -> Prop) : Prop :=
    forall x sh cx, P x ->
      let r := c x sh cx in
      match r_out r with
      | Ret a => Q a (r_self r) (r_tr r)
      | Abort w => R w (r_self r) (r_tr r)
      end.

  Lemma tri_ret {X A} (P : X -> Prop) (a : A) (Q : A -> X -> list (obs m) -> Prop)
      (R : why -> X -> list (obs m) -> Prop) :
    (forall x, P x -> Q a x []) -> tri P (ret a) Q R.
  Proof. intros H x sh cx HP. simpl. auto. Qed.

  Lemma tri_self {X} (P : X -> Prop) (Q : X -> X -> list (obs m) -> Prop)
      (R : why -> X -> list (obs m) -> Prop) :
    (forall x, P x -> Q x x []) -> tri P self Q R.
  Proof. intros H x sh cx HP. simpl. auto. Qed.

  Lemma tri_conseq {X A} (P P' : X -> Prop) (c : comp m X A)
      (Q Q' : A -> X -> list (obs m) -> Prop) (R R' : why -> X -> list (obs m) -> Prop) :
    tri P' c Q' R' -> (forall x, P x -> P' x) ->
    (forall a x t, Q' a x t -> Q a x t) -> (forall w x t, R' w x t -> R w x t) ->
    tri P c Q R.
  Proof.
    intros H HP HQ HR x sh cx Hx. specialize (H x sh cx (HP x Hx)). cbv zeta in *.
    destruct (r_out (c x sh cx)); auto.
  Qed.

  Lemma tri_bind {X A B} (P : X -> Prop) (c : comp m X A) (k : A -> comp m X B)
      (Q1 : A -> X -> list (obs m) -> Prop) (R1 : why -> X -> list (obs m) -> Prop)
      (Q : B -> X -> list (obs m) -> Prop) (R : why -> X -> list (obs m) -> Prop) :
    tri P c Q1 R1 ->
    (forall w x t, R1 w x t -> R w x t) ->
    (forall a t1, tri (fun x => Q1 a x t1) (k a)
                      (fun b x t2 => Q b x (t1 ++ t2)) (fun w x t2 => R w x (t1 ++ t2))) ->
    tri P (bind c k) Q R.
  Proof.
    intros Hc HR Hk x sh cx HP. unfold bind. specialize (Hc x sh cx HP).
    cbv zeta in *. destruct (r_out (c x sh cx)) as [a|w] eqn:E.
    - specialize (Hk a _ _ (r_sh (c x sh cx)) (r_cx (c x sh cx)) Hc). cbv zeta in Hk.
      simpl. destruct (r_out (k a _ _ _)); exact Hk.
    - simpl. auto.
  Qed.

  (** [x <- self ;; k x] *)
  Lemma tri_self_bind {X B} (P : X -> Prop) (k : X -> comp m X B)
      (Q : B -> X -> list (obs m) -> Prop) (R : why -> X -> list (obs m) -> Prop) :
    (forall x, P x -> tri (fun y => y = x) (k x) Q R) ->
    tri P (bind self k) Q R.
  Proof.
    intros Hk x sh cx HP. unfold bind, self. simpl.
    specialize (Hk x HP x sh cx eq_refl). cbv zeta in Hk.
    destruct (k x x sh cx); simpl in *. exact Hk.
  Qed.

  Lemma tri_via {X V A} (P : X -> Prop) (put : X -> V -> X) (v : V) (c : comp m V A)
      (PV : V -> Prop) (QV : A -> V -> list (obs m) -> Prop)
      (RV : why -> V -> list (obs m) -> Prop)
      (Q : A -> X -> list (obs m) -> Prop) (R : why -> X -> list (obs m) -> Prop) :
    tri PV c QV RV -> (forall x, P x -> PV v) ->
    (forall x a v' t, P x -> QV a v' t -> Q a (put x v') t) ->
    (forall x w v' t, P x -> RV w v' t -> R w (put x v') t) ->
    tri P (via put v c) Q R.
  Proof.
    intros H HP HQ HR x sh cx Hx. unfold via. specialize (H v sh cx (HP x Hx)).
    cbv zeta in *. simpl. destruct (r_out (c v sh cx)); eauto.
  Qed.

  Lemma tri_lift_ret {X A} (P : X -> Prop) (o : outcome A) a
      (Q : A -> X -> list (obs m) -> Prop) (R : why -> X -> list (obs m) -> Prop) :
    o = Ret a -> (forall x, P x -> Q a x []) -> tri P (lift o : comp m X A) Q R
  .
  Proof. intros -> H x sh cx HP. simpl. auto. Qed.

End Triples.

Ltac hook_in H :=
  unfold before_dispatch, after_dispatch, before_transition, after_transition in H;
  apply hook_run in H.
