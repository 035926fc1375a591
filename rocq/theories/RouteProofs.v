(** RouteProofs.v — facts about the specification alone: routes, stacks, minimality. *)

From Coq Require Import List Bool Arith Lia.
From Verif Require Import Machine Spec TripleProofs.
Import ListNotations.
Set Implicit Arguments.

(** ** Replay *)

Lemma replay_app a l1 b l2 c : replay a l1 b -> replay b l2 c -> replay a (l1 ++ l2) c.
Proof.
  intros H; revert l2 c; induction H; intros l2 c Hb; simpl.
  - exact Hb.
  - constructor. auto.
  - constructor. auto.
Qed.

Lemma replay_enters stk ps : replay stk (map Enter ps) (stk ++ ps).
Proof.
  revert stk; induction ps as [|p ps IH]; intros stk; simpl.
  - rewrite app_nil_r. constructor.
  - constructor. specialize (IH (stk ++ [p])). now rewrite <- app_assoc in IH.
Qed.

Lemma replay_exits stk ps : replay (stk ++ ps) (map Exit (rev ps)) stk.
Proof.
  induction ps as [|p ps IH] using rev_ind; simpl.
  - rewrite app_nil_r. constructor.
  - rewrite rev_app_distr, app_assoc. simpl. constructor. exact IH.
Qed.

Lemma replay_functional a l b : replay a l b -> forall c, replay a l c -> b = c.
Proof.
  induction 1; intros c Hc; inversion Hc; subst; auto.
  match goal with E : _ ++ [_] = _ ++ [_] |- _ => apply app_inj_tail in E; destruct E as [-> _] end.
  auto.
Qed.

Lemma NoDup_tail {A} (l1 l2 : list A) : NoDup (l1 ++ l2) -> NoDup l2.
Proof. induction l1; simpl; auto. intros H; inversion H; auto. Qed.

Section Routes.
  Variable h : hierarchy.

  Lemma path_nonempty s p : path h s p -> p <> [].
  Proof. intros (l & _ & ->) E. now apply app_eq_nil in E. Qed.

  Lemma route_replay s t r ps pt :
    route h s t r -> path h s ps -> path h t pt -> replay ps r pt.
  Proof.
    intros [(-> & ->)|(Hne & c & xs & ys & Hs & Ht & D & ->)] H1 H2.
    - rewrite <- (path_functional H1 H2). destruct H1 as (l & Hc & ->).
      constructor. constructor. constructor.
    - rewrite (path_functional H1 Hs), (path_functional H2 Ht).
      eapply replay_app; [apply replay_exits | apply replay_enters].
  Qed.

  (** The part of a path above a node is determined by the node. *)
  Lemma path_split s p a q b : path h s p -> p = a ++ q :: b ->
    (exists l, q = AtState s /\ b = [] /\ chain h (leaf_parent h s) l /\ a = map AtSuper (rev l)) \/
    (exists u l, q = AtSuper u /\ chain h (Some u) (u :: l) /\ a = map AtSuper (rev l)).
  Proof.
    intros (l & Hc & ->) E.
    destruct b as [|b0 b _] using rev_ind.
    - left. apply app_inj_tail in E. destruct E as [<- <-]. exists l. auto.
    - right. change (q :: b ++ [b0]) with ((q :: b) ++ [b0]) in E. rewrite app_assoc in E.
      apply app_inj_tail in E. destruct E as [E _].
      symmetry in E. rewrite map_rev in E.
      apply (f_equal (@rev _)) in E. rewrite rev_involutive, rev_app_distr in E. simpl in E.
      symmetry in E. rewrite <- app_assoc in E. simpl in E.
      apply map_eq_app in E. destruct E as (l1 & l2 & -> & E1 & E2).
      apply map_eq_cons in E2. destruct E2 as (u & l3 & -> & <- & E3).
      exists u, l3. split; [reflexivity|]. split; [eapply chain_suffix; eauto|].
      rewrite map_rev, E3, rev_involutive. reflexivity.
  Qed.

  Lemma path_same_above s t ps pt a q b a' b' :
    path h s ps -> path h t pt -> ps = a ++ q :: b -> pt = a' ++ q :: b' -> a = a'.
  Proof.
    intros H1 H2 E1 E2.
    destruct (path_split _ _ _ H1 E1) as [(l & -> & _ & Hc & ->)|(u & l & -> & Hc & ->)];
      destruct (path_split _ _ _ H2 E2) as [(l' & Eq & _ & Hc' & ->)|(u' & l' & Eq & Hc' & ->)];
      inversion Eq; subst.
    - now rewrite (chain_functional Hc Hc').
    - pose proof (chain_functional Hc Hc') as E. now inversion E.
  Qed.

  Lemma path_NoDup s p : path h s p -> NoDup p.
  Proof.
    intros Hp. destruct (Hp) as (l & Hc & E).
    assert (G : forall a q b, p = a ++ q :: b -> ~ In q a).
    { intros a q b Ep Hin. apply in_split in Hin. destruct Hin as (a1 & a2 & ->).
      rewrite <- app_assoc in Ep. simpl in Ep.
      assert (EE : a1 = a1 ++ q :: a2).
      { eapply path_same_above; [exact Hp | exact Hp | exact Ep |].
        rewrite Ep, <- app_assoc. reflexivity. }
      apply (f_equal (@length _)) in EE. rewrite app_length in EE. simpl in EE. lia. }
    clear - G. induction p as [|q p IH] using rev_ind; [constructor|].
    apply NoDup_Add with (a := q) (l := p).
    - rewrite <- (app_nil_r p) at 1. apply Add_app.
    - split.
      + apply IH. intros a q' b E. apply (G a q' (b ++ [q])). rewrite E, <- app_assoc. reflexivity.
      + apply (G p q []). reflexivity.
  Qed.

  Lemma disjoint_legs s t c xs ys :
    path h s (c ++ xs) -> path h t (c ++ ys) -> diverge xs ys -> forall p, In p xs -> ~ In p ys.
  Proof.
    intros H1 H2 D p Hx Hy.
    apply in_split in Hx. destruct Hx as (x1 & x2 & ->).
    apply in_split in Hy. destruct Hy as (y1 & y2 & ->).
    assert (E : c ++ x1 = c ++ y1).
    { eapply path_same_above; [exact H1 | exact H2 | |]; now rewrite <- app_assoc. }
    apply app_inv_head in E. subst y1. destruct x1; simpl in D; congruence.
  Qed.

  Lemma route_no_repeat s t r : s <> t -> route h s t r -> NoDup (map act_place r).
  Proof.
    intros Hne [(E & _)|(_ & c & xs & ys & H1 & H2 & D & ->)]; [congruence|].
    rewrite map_app, !map_map. simpl. rewrite !map_id.
    pose proof (path_NoDup H1) as N1. pose proof (path_NoDup H2) as N2.
    assert (Nx : NoDup xs) by exact (NoDup_tail _ _ N1).
    assert (Ny : NoDup ys) by exact (NoDup_tail _ _ N2).
    pose proof (disjoint_legs _ _ _ H1 H2 D) as Dj.
    apply NoDup_rev in Nx.
    assert (Dj' : forall p, In p (rev xs) -> ~ In p ys).
    { intros p Hp. apply Dj. now apply in_rev. }
    revert Dj' Nx. generalize (rev xs). intros l. induction l as [|a l IH]; simpl; intros Dj' Nx.
    - exact Ny.
    - inversion Nx; subst. constructor.
      + intros Hin. apply in_app_or in Hin. destruct Hin; [tauto|]. apply (Dj' a); auto.
      + apply IH; auto.
  Qed.

  Lemma route_spares_shared s t r ps pt p :
    s <> t -> route h s t r -> path h s ps -> path h t pt -> In p ps -> In p pt ->
    ~ In p (map act_place r).
  Proof.
    intros Hne [(E & _)|(_ & c & xs & ys & H1 & H2 & D & ->)] P1 P2 I1 I2; [congruence|].
    rewrite (path_functional P1 H1) in I1. rewrite (path_functional P2 H2) in I2.
    rewrite map_app, !map_map. simpl. rewrite !map_id. intros Hin.
    pose proof (disjoint_legs _ _ _ H1 H2 D) as Dj.
    pose proof (path_NoDup H1) as N1. pose proof (path_NoDup H2) as N2.
    assert (Sep : forall (l1 l2 : list place) q, NoDup (l1 ++ l2) -> In q l1 -> In q l2 -> False).
    { clear. induction l1 as [|a l1 IH]; simpl; intros l2 q N; [tauto|].
      inversion N; subst. intros [->|Hi] Hj.
      - apply H1. apply in_or_app. now right.
      - eapply IH; eauto. }
    apply in_app_or in I1. apply in_app_or in I2. apply in_app_or in Hin.
    rewrite <- in_rev in Hin.
    destruct Hin as [Hin|Hin].
    - destruct I2 as [I2|I2].
      + exact (Sep _ _ _ N1 I2 Hin).
      + exact (Dj _ Hin I2).
    - destruct I1 as [I1|I1].
      + exact (Sep _ _ _ N2 I1 Hin).
      + exact (Dj _ I1 Hin).
  Qed.

  (** ** Minimality *)

  Lemma place_eq_dec (p q : place) : {p = q} + {p <> q}.
  Proof. decide equality; apply Nat.eq_dec. Defined.

  Fixpoint lcp (a b : list place) : nat :=
    match a, b with
    | x :: a', y :: b' => if place_eq_dec x y then S (lcp a' b') else 0
    | _, _ => 0
    end.

  Lemma lcp_le a b : lcp a b <= length a /\ lcp a b <= length b.
  Proof.
    revert b; induction a as [|x a IH]; intros [|y b]; simpl; try lia.
    destruct (place_eq_dec x y); [specialize (IH b)|]; lia.
  Qed.

  Lemma lcp_snoc a p b :
    (lcp (a ++ [p]) b = lcp a b) \/ (lcp (a ++ [p]) b = S (lcp a b) /\ lcp a b = length a).
  Proof.
    revert b; induction a as [|x a IH]; intros [|y b]; simpl; auto.
    - destruct (place_eq_dec p y); auto.
    - destruct (place_eq_dec x y); auto. destruct (IH b); lia.
  Qed.

  Lemma lcp_refl a : lcp a a = length a.
  Proof.
    induction a as [|x a IH]; simpl; [reflexivity|].
    destruct (place_eq_dec x x); [lia|congruence].
  Qed.

  Lemma lcp_diverge c xs ys : diverge xs ys -> lcp (c ++ xs) (c ++ ys) = length c.
  Proof.
    intros D. induction c as [|x c IH]; simpl.
    - destruct xs as [|x xs], ys as [|y ys]; simpl in *; auto.
      destruct (place_eq_dec x y); [congruence|reflexivity].
    - destruct (place_eq_dec x x); [lia|congruence].
  Qed.

  Lemma replay_length a l b : replay a l b ->
    length a + length b <= length l + 2 * lcp a b.
  Proof.
    induction 1 as [stk|stk p l stk' H IH|stk p l stk' H IH]; simpl.
    - rewrite lcp_refl. lia.
    - rewrite app_length in IH. simpl in IH.
      destruct (lcp_snoc stk p stk') as [E|[E1 E2]]; rewrite ?E, ?E1 in IH.
      + lia.
      + pose proof (lcp_le stk stk'). lia.
    - rewrite app_length. simpl.
      destruct (lcp_snoc stk p stk') as [E|[E1 E2]]; rewrite ?E, ?E1; lia.
  Qed.

  Lemma route_minimal s t r ps pt l :
    s <> t -> route h s t r -> path h s ps -> path h t pt -> replay ps l pt ->
    length r <= length l.
  Proof.
    intros Hne [(E & _)|(_ & c & xs & ys & H1 & H2 & D & ->)] P1 P2 R; [congruence|].
    rewrite (path_functional P1 H1), (path_functional P2 H2) in R.
    apply replay_length in R. rewrite (lcp_diverge _ _ _ D), !app_length in R.
    rewrite app_length, !map_length, rev_length. lia.
  Qed.

  (** The route is unique. *)
  Lemma route_functional s t r1 r2 : route h s t r1 -> route h s t r2 -> r1 = r2.
  Proof.
    intros [(E & ->)|(Hne & c & xs & ys & H1 & H2 & D & ->)]
           [(E' & ->)|(Hne' & c' & xs' & ys' & H1' & H2' & D' & ->)]; try congruence.
    pose proof (path_functional H1 H1') as E1. pose proof (path_functional H2 H2') as E2.
    assert (L : length c = length c').
    { rewrite <- (lcp_diverge c _ _ D), <- (lcp_diverge c' _ _ D'). congruence. }
    assert (Ec : c = c' /\ xs = xs').
    { clear - E1 L. revert c' E1 L. induction c as [|x c IH]; intros [|y c'] E L; simpl in *; try discriminate; auto.
      inversion E; subst. destruct (IH c'); auto. now subst. }
    destruct Ec as [-> ->]. apply app_inv_head in E2. now subst.
  Qed.
End Routes.

(** ** Replaying as a computation (the stack is kept innermost first) *)
Definition place_eqb (p q : place) : bool :=
  match p, q with
  | AtState a, AtState b => a =? b
  | AtSuper a, AtSuper b => a =? b
  | _, _ => false
  end.

Fixpoint run_stack (stk : list place) (l : list act) : option (list place) :=
  match l with
  | [] => Some stk
  | Enter p :: l' => run_stack (p :: stk) l'
  | Exit p :: l' =>
      match stk with
      | q :: stk' => if place_eqb p q then run_stack stk' l' else None
      | [] => None
      end
  end.

Lemma place_eqb_refl p : place_eqb p p = true.
Proof. destruct p; simpl; apply Nat.eqb_refl. Qed.

Lemma replay_run_stack a l b : replay a l b -> run_stack (rev a) l = Some (rev b).
Proof.
  induction 1 as [stk|stk p acts stk' _ IH|stk p acts stk' _ IH]; simpl; [reflexivity| |].
  - now rewrite rev_app_distr in IH.
  - rewrite rev_app_distr. simpl. now rewrite place_eqb_refl.
Qed.
