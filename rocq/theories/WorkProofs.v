(** WorkProofs.v — bounds on the number of calls of user code. *)

From Coq Require Import List Bool Arith Lia.
From Verif Require Import Machine Blocking Awaitable Api SuperCalls SuperSpec WorkSpec.
Import ListNotations.
Set Implicit Arguments.
Local Open Scope comp_scope.

Lemma calls_app m (a b : list (obs m)) : calls (a ++ b) = calls a + calls b.
Proof. unfold calls. now rewrite filter_app, app_length. Qed.

#[local] Arguments calls : simpl never.

Section Work.
  Variable m : machine.
  Notation cm := (counting m).
  Notation sc := (counted m).
  Notation S' := (State m * nat)%type.
  Notation U' := (Sup m * nat)%type.
  Variable K : nat.

  (** From [x], [c] ends with [I] of `self`, makes at most [t] calls, shows no number above [K],
      and returns only what satisfies [P]. *)
  Definition runs {X A} (I : X -> Prop) (t : nat) (P : A -> Prop) (c : comp cm X A) (x : X) : Prop :=
    forall sh cx, let r := c x sh cx in
      I (r_self r) /\ calls (r_tr r) <= t /\ Forall (numbers_at_most (m := m) K) (r_tr r) /\
      (forall v, r_out r = Ret v -> P v).

  Lemma runs_weaken X A (I I' : X -> Prop) t t' (P P' : A -> Prop) c x : runs I t P c x ->
    (forall y, I y -> I' y) -> t <= t' -> (forall v, P v -> P' v) -> runs I' t' P' c x.
  Proof. intros R HI Ht HP sh cx. destruct (R sh cx) as (A1 & A2 & A3 & A4). repeat split; auto; lia. Qed.
  Lemma runs_bind X A B (I1 I : X -> Prop) t1 t2 (P1 : A -> Prop) (P : B -> Prop) c (k : A -> comp cm X B) x :
    runs I1 t1 P1 c x -> (forall y, I1 y -> I y) ->
    (forall v y, P1 v -> I1 y -> runs I t2 P (k v) y) -> runs I (t1 + t2) P (bind c k) x.
  Proof.
    intros R W H sh cx. cbv zeta. unfold bind. destruct (R sh cx) as (A1 & A2 & A3 & A4). cbv zeta in *.
    destruct (c x sh cx) as [o y sh' cx' tr]. cbn in *. destruct o as [v|w]; cbn.
    - destruct (H v y (A4 v eq_refl) A1 sh' cx') as (B1 & B2 & B3 & B4). cbv zeta in *.
      destruct (k v y sh' cx') as [o2 y2 sh2 cx2 tr2]. cbn in *. rewrite calls_app.
      split; [exact B1|]. split; [lia|]. split; [apply Forall_app; auto|exact B4].
    - split; [auto|]. split; [lia|]. split; [exact A3|discriminate].
  Qed.
  Lemma runs_self X B (I : X -> Prop) t (P : B -> Prop) (k : X -> comp cm X B) x :
    runs I t P (k x) x -> runs I t P (bind self k) x.
  Proof. intros R sh cx. exact (R sh cx). Qed.
  Lemma runs_ret X A (I : X -> Prop) t (P : A -> Prop) v x : I x -> P v -> runs I t P (ret (m := cm) v) x.
  Proof. intros H1 H2 sh cx. cbn. repeat split; auto; [unfold calls; cbn; lia|]. now intros ? [= <-]. Qed.
  Lemma runs_abort X A (I : X -> Prop) t (P : A -> Prop) w x : I x -> runs I t P (abort (m := cm) w) x.
  Proof. intros H1 sh cx. cbn. repeat split; auto; [unfold calls; cbn; lia|discriminate]. Qed.
  Lemma runs_lift X A (I : X -> Prop) t (P : A -> Prop) o x : I x -> (forall v, o = Ret v -> P v) -> runs I t P (lift (m := cm) o) x.
  Proof. intros H1 H2 sh cx. cbn. repeat split; auto. unfold calls; cbn; lia. Qed.
  Lemma runs_via X V A (J : V -> Prop) (I : X -> Prop) t (P : A -> Prop) put v c x :
    runs J t P c v -> (forall w, J w -> I (put x w)) -> runs I t P (via (m := cm) put v c) x.
  Proof. intros R W sh cx. destruct (R sh cx) as (A1 & A2 & A3 & A4). cbn. repeat split; auto. Qed.
  Lemma runs_hook X (I : X -> Prop) f o x : I x -> numbers_at_most K o -> runs I 1 (fun _ => True) (call_hook (m := cm) f o) x.
  Proof.
    intros H1 H2 sh cx. cbv zeta. unfold call_hook. destruct (f sh) as [r sh']. cbn. repeat split; auto.
    unfold calls. cbn. destruct (is_call o); cbn; lia.
  Qed.

  (** Bounds on the number that `self` carries. *)
  Definition upto {Y} (b : nat) (x : Y * nat) : Prop := snd x <= b.
  Definition upto2 {Y Z} (b b' : nat) (p : (Y * nat) * (Z * nat)) : Prop := snd (fst p) <= b /\ snd (snd p) <= b'.

  Lemma runs_u_entry u k b : k <= b -> k <= K -> runs (upto b) 1 (fun _ => True) (u_call_entry cm) (u, k).
  Proof.
    intros H1 H2 sh cx. cbv zeta. unfold u_call_entry, call_action. cbn [u_entry counting fst snd].
    destruct (u_entry m u sh cx) as [[[r x'] sh'] cx']. cbn. repeat split; auto.
  Qed.
  Lemma runs_u_exit u k b : k <= b -> k <= K -> runs (upto b) 1 (fun _ => True) (u_call_exit cm) (u, k).
  Proof.
    intros H1 H2 sh cx. cbv zeta. unfold u_call_exit, call_action. cbn [u_exit counting fst snd].
    destruct (u_exit m u sh cx) as [[[r x'] sh'] cx']. cbn. repeat split; auto.
  Qed.
  Lemma runs_s_entry u k b : k <= b -> k <= K -> runs (upto b) 1 (fun _ => True) (s_call_entry cm) (u, k).
  Proof.
    intros H1 H2 sh cx. cbv zeta. unfold s_call_entry, call_action. cbn [s_entry counting fst snd].
    destruct (s_entry m u sh cx) as [[[r x'] sh'] cx']. cbn. repeat split; auto.
  Qed.
  Lemma runs_s_exit u k b : k <= b -> k <= K -> runs (upto b) 1 (fun _ => True) (s_call_exit cm) (u, k).
  Proof.
    intros H1 H2 sh cx. cbv zeta. unfold s_call_exit, call_action. cbn [s_exit counting fst snd].
    destruct (s_exit m u sh cx) as [[[r x'] sh'] cx']. cbn. repeat split; auto.
  Qed.
  Definition is_fresh (r : response S') : Prop := match r with Transition t => snd t = 0 | _ => True end.
  Lemma runs_u_handler u k e b : k <= b -> k <= K -> runs (upto b) 1 is_fresh (u_call_handler cm e) (u, k).
  Proof.
    intros H1 H2 sh cx. cbv zeta. unfold u_call_handler, call_handler. cbn [u_handler counting fst snd].
    destruct (u_handler m u sh cx e) as [[[r x'] sh'] cx'].
    destruct r as [[| |t]| |]; cbn; (split; [exact H1|]); (split; [unfold calls; cbn; lia|]);
      (split; [repeat constructor; exact H2|]); try discriminate; intros v [= <-]; cbn; auto.
  Qed.
  Lemma runs_s_handler u k e b : k <= b -> k <= K -> runs (upto b) 1 is_fresh (s_call_handler cm e) (u, k).
  Proof.
    intros H1 H2 sh cx. cbv zeta. unfold s_call_handler, call_handler. cbn [s_handler counting fst snd].
    destruct (s_handler m u sh cx e) as [[[r x'] sh'] cx'].
    destruct r as [[| |t]| |]; cbn; (split; [exact H1|]); (split; [unfold calls; cbn; lia|]);
      (split; [repeat constructor; exact H2|]); try discriminate; intros v [= <-]; cbn; auto.
  Qed.

  Definition view_upto (b : nat) (o : option U') : Prop := forall v, o = Some v -> snd v <= b.
  Lemma runs_ask_u u k b : k < b -> runs (upto b) 0 (view_upto b) (ask cm (ask_u sc)) (u, k).
  Proof.
    intros H sh cx. cbn. split; [exact H|]. split; [unfold calls; cbn; lia|]. split; [constructor|].
    intros v [= <-] w. destruct (u_super m u); cbn; [|discriminate]. intros [= <-]. exact H.
  Qed.
  Lemma runs_ask_s u k b : k < b -> runs (upto b) 0 (view_upto b) (ask cm (ask_s sc)) (u, k).
  Proof.
    intros H sh cx. cbn. split; [exact H|]. split; [unfold calls; cbn; lia|]. split; [constructor|].
    intros v [= <-] w. destruct (s_super m u); cbn; [|discriminate]. intros [= <-]. exact H.
  Qed.
  Lemma runs_on_u A u k b t (P : A -> Prop) c d : k < b ->
    (forall v j, j <= S k -> runs (upto b) t P c (v, j)) -> (forall v j, j <= S k -> runs (upto b) t P d (v, j)) ->
    runs (upto b) t P (on_super (m := cm) (ask_u sc) (u_put cm) c d) (u, k).
  Proof.
    intros L Hc Hd. unfold on_super. change t with (0 + t). eapply runs_bind.
    - apply (@runs_ask_u u k (S k)). lia.
    - unfold upto. intros y Hy. lia.
    - intros [[v j]|] [u' k'] Hv Hy.
      + eapply runs_via; [apply Hc; exact (Hv (v, j) eq_refl)|]. intros w Hw. exact Hw.
      + apply Hd. exact Hy.
  Qed.
  Lemma runs_on_s A u k b t (P : A -> Prop) c d : k < b ->
    (forall v j, j <= S k -> runs (upto b) t P c (v, j)) -> (forall v j, j <= S k -> runs (upto b) t P d (v, j)) ->
    runs (upto b) t P (on_super (m := cm) (ask_s sc) (s_put cm) c d) (u, k).
  Proof.
    intros L Hc Hd. unfold on_super. change t with (0 + t). eapply runs_bind.
    - apply (@runs_ask_s u k (S k)). lia.
    - unfold upto. intros y Hy. lia.
    - intros [[v j]|] [u' k'] Hv Hy.
      + eapply runs_via; [apply Hc; exact (Hv (v, j) eq_refl)|]. intros w Hw. exact Hw.
      + apply Hd. exact Hy.
  Qed.

  (** *** Depths and paths *)
  Lemma runs_depth n : forall u k b, k + n <= b -> runs (upto b) 0 (fun d => d <= n) (superstate_depth_s sc n) (u, k).
  Proof.
    induction n as [|n IH]; intros u k b L; cbn [superstate_depth_s]; [apply runs_abort; unfold upto; cbn; lia|].
    apply runs_on_u; [lia| |].
    - intros v j Hj. change 0 with (0 + 0). eapply runs_bind; [apply (IH v j b); lia|auto|].
      intros d y Hd Hy. apply runs_ret; [exact Hy|cbn in *; lia].
    - intros v j Hj. apply runs_ret; [unfold upto; cbn; lia|cbn; lia].
  Qed.
  Variable stack : nat.
  Lemma runs_fst Y A (I : U' -> Prop) (I2 : Y -> Prop) t (P : A -> Prop) c u y : runs I t P c u -> I2 y ->
    runs (fun p => I (fst p) /\ I2 (snd p)) t P (on_fst (m := cm) c) (u, y).
  Proof. intros R H. unfold on_fst. apply runs_self. eapply runs_via; [exact R|]. cbn. auto. Qed.
  Lemma runs_snd Y A (I : U' -> Prop) (I2 : Y -> Prop) t (P : A -> Prop) c u y : runs I t P c u -> I2 y ->
    runs (fun p => I2 (fst p) /\ I (snd p)) t P (on_snd (m := cm) c) (y, u).
  Proof. intros R H. unfold on_snd. apply runs_self. eapply runs_via; [exact R|]. cbn. auto. Qed.
  Lemma runs_fst_s Y A (I : S' -> Prop) (I2 : Y -> Prop) t (P : A -> Prop) c u y : runs I t P c u -> I2 y ->
    runs (fun p => I (fst p) /\ I2 (snd p)) t P (on_fst (m := cm) c) (u, y).
  Proof. intros R H. unfold on_fst. apply runs_self. eapply runs_via; [exact R|]. cbn. auto. Qed.
  Lemma runs_snd_s Y A (I : S' -> Prop) (I2 : Y -> Prop) t (P : A -> Prop) c u y : runs I t P c u -> I2 y ->
    runs (fun p => I2 (fst p) /\ I (snd p)) t P (on_snd (m := cm) c) (y, u).
  Proof. intros R H. unfold on_snd. apply runs_self. eapply runs_via; [exact R|]. cbn. auto. Qed.

  Lemma runs_common n : forall u v k l b b', k + n * (stack + 1) + stack <= b -> l + n * (stack + 1) + stack <= b' ->
    runs (upto2 b b') 0 (fun _ => True) (common_ancestor_depth_s sc stack n) ((u, k), (v, l)).
  Proof.
    induction n as [|n IH]; intros u v k l b b' L L'; cbn [common_ancestor_depth_s];
      [apply runs_abort; split; cbn; lia|].
    cbn [Nat.mul] in L, L'.
    change 0 with (0 + 0). apply runs_bind with (I1 := fun p => upto (k + stack) (fst p) /\ upto l (snd p)) (P1 := fun _ => True).
    { eapply runs_weaken; [apply runs_fst with (I2 := upto l); [apply (@runs_depth stack u k (k + stack)); lia|unfold upto; cbn; lia]|auto|lia|auto]. }
    { unfold upto, upto2. intros y []. lia. }
    intros ds [[u1 k1] [v1 l1]] _ [A1 A2]. unfold upto in A1, A2. cbn in A1, A2.
    change 0 with (0 + 0). apply runs_bind with (I1 := fun p => upto (k + stack) (fst p) /\ upto (l + stack) (snd p)) (P1 := fun _ => True).
    { eapply runs_weaken; [apply runs_snd with (I2 := upto (k + stack)); [apply (@runs_depth stack v1 l1 (l + stack)); lia|exact A1]|auto|lia|auto]. }
    { unfold upto, upto2. intros y []. lia. }
    intros dt [[u2 k2] [v2 l2]] _ [B1 B2]. unfold upto in B1, B2. cbn in B1, B2.
    destruct (Nat.compare ds dt).
    - apply runs_self. cbn [fst snd]. destruct (same_superstate cm (u2, k2) (v2, l2)).
      + eapply runs_weaken; [apply runs_fst with (I2 := upto (l + stack)); [apply (@runs_depth stack u2 k2 (k + stack + stack)); lia|exact B2]| |lia|auto].
        unfold upto, upto2. intros y []. lia.
      + change 0 with (0 + 0). apply runs_bind with (I1 := fun p => upto (S (k + stack)) (fst p) /\ upto (l + stack) (snd p)) (P1 := view_upto (S (k + stack))).
        { apply runs_fst with (I2 := upto (l + stack)); [apply runs_ask_u; lia|exact B2]. }
        { unfold upto, upto2. intros y []. lia. }
        intros a [[u3 k3] [v3 l3]] Va [C1 C2]. unfold upto in C1, C2. cbn in C1, C2.
        change 0 with (0 + 0). apply runs_bind with (I1 := fun p => upto (S (k + stack)) (fst p) /\ upto (S (l + stack)) (snd p)) (P1 := view_upto (S (l + stack))).
        { apply runs_snd with (I2 := upto (S (k + stack))); [apply runs_ask_u; lia|exact C1]. }
        { unfold upto, upto2. intros y []. lia. }
        intros c [[u4 k4] [v4 l4]] Vc [D1 D2]. unfold upto in D1, D2. cbn in D1, D2.
        destruct a as [[a ka]|]; [|apply runs_ret; [split; cbn; lia|exact I]].
        destruct c as [[c kc]|]; [|apply runs_ret; [split; cbn; lia|exact I]].
        pose proof (Va _ eq_refl) as Va'. pose proof (Vc _ eq_refl) as Vc'. cbn in Va', Vc'.
        eapply runs_via; [apply (IH a c ka kc b b'); lia|]. intros w Hw. exact Hw.
    - (* Lt *)
      change 0 with (0 + 0). apply runs_bind with (I1 := fun p => upto (k + stack) (fst p) /\ upto (S (l + stack)) (snd p)) (P1 := view_upto (S (l + stack))).
      { apply runs_snd with (I2 := upto (k + stack)); [apply runs_ask_u; lia|exact B1]. }
      { unfold upto, upto2. intros y []. lia. }
      intros a [[u3 k3] [v3 l3]] Va [C1 C2]. unfold upto in C1, C2. cbn in C1, C2.
      destruct a as [[a ka]|]; [|apply runs_ret; [split; cbn; lia|exact I]].
      pose proof (Va _ eq_refl) as Va'. cbn in Va'. apply runs_self.
      eapply runs_via; [cbn [fst snd]; apply (IH u3 a k3 ka b b'); lia|]. intros w Hw. exact Hw.
    - (* Gt *)
      change 0 with (0 + 0). apply runs_bind with (I1 := fun p => upto (S (k + stack)) (fst p) /\ upto (l + stack) (snd p)) (P1 := view_upto (S (k + stack))).
      { apply runs_fst with (I2 := upto (l + stack)); [apply runs_ask_u; lia|exact B2]. }
      { unfold upto, upto2. intros y []. lia. }
      intros a [[u3 k3] [v3 l3]] Va [C1 C2]. unfold upto in C1, C2. cbn in C1, C2.
      destruct a as [[a ka]|]; [|apply runs_ret; [split; cbn; lia|exact I]].
      pose proof (Va _ eq_refl) as Va'. cbn in Va'. apply runs_self.
      eapply runs_via; [cbn [fst snd]; apply (IH a v3 ka l3 b b'); lia|]. intros w Hw. exact Hw.
  Qed.
  Lemma runs_state_depth x k b : k + stack + 1 <= b -> runs (upto b) 0 (fun d => d <= stack + 1) (state_depth_s sc stack) (x, k).
  Proof.
    intros L. unfold state_depth_s. apply runs_on_s; [lia| |].
    - intros v j Hj. change 0 with (0 + 0). eapply runs_bind; [apply (@runs_depth stack v j b); lia|auto|].
      intros d y Hd Hy. apply runs_ret; [exact Hy|cbn in *; lia].
    - intros v j Hj. apply runs_ret; [unfold upto; cbn; lia|cbn; lia].
  Qed.
  Definition path_asks : nat := 2 * (stack + 1) * (stack + 1).
  Arguments path_asks : simpl never.
  Lemma runs_path x y k l : 
    runs (upto2 (k + path_asks) (l + path_asks)) 0 (fun p => fst p <= stack + 1 /\ snd p <= stack + 1) (transition_path_s sc stack) ((x, k), (y, l)).
  Proof.
    unfold transition_path_s. apply runs_self. cbn [fst snd].
    destruct (same_state cm (x, k) (y, l)); [apply runs_ret; [split; cbn; lia|cbn; lia]|].
    assert (PA : path_asks = stack + 1 + 1 + ((stack + stack) * (stack + 1) + stack)) by (unfold path_asks; nia).
    rewrite PA. clear PA. set (ca := (stack + stack) * (stack + 1)) in *.
    change 0 with (0 + 0). apply runs_bind with (I1 := fun p => upto (k + stack + 1) (fst p) /\ upto l (snd p)) (P1 := fun d => d <= stack + 1).
    { apply runs_fst_s with (I2 := upto l); [apply runs_state_depth; lia|unfold upto; cbn; lia]. }
    { unfold upto, upto2. intros z []. lia. }
    intros ds [[x1 k1] [y1 l1]] Hs [A1 A2]. unfold upto in A1, A2. cbn in A1, A2.
    change 0 with (0 + 0). apply runs_bind with (I1 := fun p => upto (k + stack + 1) (fst p) /\ upto (l + stack + 1) (snd p)) (P1 := fun d => d <= stack + 1).
    { apply runs_snd_s with (I2 := upto (k + stack + 1)); [apply runs_state_depth; lia|exact A1]. }
    { unfold upto, upto2. intros z []. lia. }
    intros dt [[x2 k2] [y2 l2]] Ht [B1 B2]. unfold upto in B1, B2. cbn in B1, B2.
    change 0 with (0 + 0). apply runs_bind with (I1 := fun p => upto (k + stack + 2) (fst p) /\ upto (l + stack + 1) (snd p)) (P1 := view_upto (k + stack + 2)).
    { apply runs_fst_s with (I2 := upto (l + stack + 1)); [apply runs_ask_s; lia|exact B2]. }
    { unfold upto, upto2. intros z []. lia. }
    intros a [[x3 k3] [y3 l3]] Va [C1 C2]. unfold upto in C1, C2. cbn in C1, C2.
    change 0 with (0 + 0). apply runs_bind with (I1 := fun p => upto (k + stack + 2) (fst p) /\ upto (l + stack + 2) (snd p)) (P1 := view_upto (l + stack + 2)).
    { apply runs_snd_s with (I2 := upto (k + stack + 2)); [apply runs_ask_s; lia|exact C1]. }
    { unfold upto, upto2. intros z []. lia. }
    intros c [[x4 k4] [y4 l4]] Vc [D1 D2]. unfold upto in D1, D2. cbn in D1, D2.
    destruct a as [[a ka]|]; [|apply runs_ret; [split; cbn; lia|cbn; lia]].
    destruct c as [[c kc]|]; [|apply runs_ret; [split; cbn; lia|cbn; lia]].
    pose proof (Va _ eq_refl) as Va'. pose proof (Vc _ eq_refl) as Vc'. cbn in Va', Vc'.
    change 0 with (0 + 0). apply runs_bind with (I1 := upto2 (k + (stack + 1 + 1 + (ca + stack))) (l + (stack + 1 + 1 + (ca + stack)))) (P1 := fun _ => True).
    { eapply runs_via; [apply (@runs_common (stack + stack)) with (b := k + (stack + 1 + 1 + (ca + stack))) (b' := l + (stack + 1 + 1 + (ca + stack))); fold ca; lia|].
      intros w Hw. exact Hw. }
    { auto. }
    intros d p _ Hp. change 0 with (0 + 0). eapply runs_bind.
    { apply runs_lift with (P := fun n => n <= stack + 1); [exact Hp|]. unfold checked_sub.
      intros n. destruct (d <=? ds); [|discriminate]. intros [= <-]. lia. }
    { auto. }
    intros e1 p1 He1 Hp1. change 0 with (0 + 0). eapply runs_bind.
    { apply runs_lift with (P := fun n => n <= stack + 1); [exact Hp1|]. unfold checked_sub.
      intros n. destruct (d <=? dt); [|discriminate]. intros [= <-]. lia. }
    { auto. }
    intros e2 p2 He2 Hp2. apply runs_ret; [exact Hp2|auto].
  Qed.

  (** *** Dispatch *)
  Definition counts {X A} (tr ta : nat) (c : comp cm X A) : Prop :=
    forall x sh cx, let r := c x sh cx in
      match r_out r with Ret _ => calls (r_tr r) <= tr | Abort _ => calls (r_tr r) <= ta end.
  Lemma counts_weaken X A t1 t2 t3 t4 (c : comp cm X A) : counts t1 t2 c -> t1 <= t3 -> t2 <= t4 -> counts t3 t4 c.
  Proof. intros H L1 L2 x sh cx. specialize (H x sh cx). cbv zeta in *. destruct (r_out _); lia. Qed.
  Lemma counts_bind X A B t1 a1 t2 a2 (c : comp cm X A) (k : A -> comp cm X B) :
    counts t1 a1 c -> (forall v, counts t2 a2 (k v)) -> counts (t1 + t2) (Nat.max a1 (t1 + a2)) (bind c k).
  Proof.
    intros H1 H2 x sh cx. cbv zeta. unfold bind. specialize (H1 x sh cx). cbv zeta in H1.
    destruct (c x sh cx) as [o y sh' cx' tr]. cbn in H1 |- *. destruct o as [v|w]; cbn; [|lia].
    specialize (H2 v y sh' cx'). cbv zeta in H2. destruct (k v y sh' cx') as [o2 y2 sh2 cx2 tr2]. cbn in H2 |- *.
    rewrite calls_app. destruct o2; lia.
  Qed.
  Lemma counts_stop X A B t1 a1 (c : comp cm X A) (k : A -> comp cm X B) :
    counts t1 a1 c -> (forall v x sh cx, r_out (k v x sh cx) = Abort Diverges /\ r_tr (k v x sh cx) = []) ->
    counts 0 (Nat.max a1 t1) (bind c k).
  Proof.
    intros H1 H2 x sh cx. cbv zeta. unfold bind. specialize (H1 x sh cx). cbv zeta in H1.
    destruct (c x sh cx) as [o y sh' cx' tr]. cbn in H1 |- *. destruct o as [v|w]; cbn; [|lia].
    destruct (H2 v y sh' cx') as [E1 E2]. destruct (k v y sh' cx') as [o2 y2 sh2 cx2 tr2]. cbn in E1, E2 |- *.
    subst. rewrite app_nil_r. lia.
  Qed.
  Lemma counts_self X B t a (k : X -> comp cm X B) : (forall x, counts t a (k x)) -> counts t a (bind self k).
  Proof. intros H x sh cx. exact (H x x sh cx). Qed.
  Lemma counts_ret X A t a (v : A) : counts (X := X) t a (ret (m := cm) v).
  Proof. intros x sh cx. cbn. unfold calls. cbn. lia. Qed.
  Lemma counts_via X V A t a put v (c : comp cm V A) : counts t a c -> counts (X := X) t a (via (m := cm) put v c).
  Proof. intros H x sh cx. exact (H v sh cx). Qed.
  Lemma counts_hook X f o : counts (X := X) 1 1 (call_hook (m := cm) f o).
  Proof.
    intros x sh cx. cbv zeta. unfold call_hook. destruct (f sh) as [r sh']. cbn.
    assert (H : calls [o] <= 1) by (unfold calls; cbn; destruct (is_call o); cbn; lia). destruct r; cbn; exact H.
  Qed.
  Lemma counts_u_handler e : counts 1 1 (u_call_handler cm e).
  Proof.
    intros [u k] sh cx. cbv zeta. unfold u_call_handler, call_handler. cbn [u_handler counting fst snd].
    destruct (u_handler m u sh cx e) as [[[r x'] sh'] cx']. destruct r as [[| |t]| |]; cbn; unfold calls; cbn; lia.
  Qed.
  Lemma counts_s_handler e : counts 1 1 (s_call_handler cm e).
  Proof.
    intros [u k] sh cx. cbv zeta. unfold s_call_handler, call_handler. cbn [s_handler counting fst snd].
    destruct (s_handler m u sh cx e) as [[[r x'] sh'] cx']. destruct r as [[| |t]| |]; cbn; unfold calls; cbn; lia.
  Qed.
  Lemma counts_on X A t a f put c (d : comp cm X A) : counts t a c -> counts t a d -> counts t a (on_super (m := cm) f put c d).
  Proof.
    intros H1 H2 x sh cx. cbv zeta. unfold on_super, bind, ask.
    destruct (f x) as [[[v|]|] x']; cbn; [| |unfold calls; cbn; lia].
    - exact (H1 v sh cx).
    - specialize (H2 x' sh cx). cbv zeta in H2. destruct (d x' sh cx) as [o2 y2 sh2 cx2 tr2]. exact H2.
  Qed.

  Definition nested n e : comp cm U' (response S') :=
    u0 <- self ;;
    before_dispatch cm (NSuper u0) e ;;;
    response <- superstate_handle_s sc n e ;;
    u1 <- self ;;
    after_dispatch cm (NSuper u1) e ;;;
    ret response.
  Lemma counts_nested n e : counts (3 * n - 2) (3 * n - 1) (superstate_handle_s sc n e) ->
    (n = 0 -> forall x sh cx, superstate_handle_s sc n e x sh cx = abort Diverges x sh cx) ->
    counts (3 * n) (3 * n + (1 - n)) (nested n e).
  Proof.
    intros H Z. unfold nested. apply counts_self. intros u0.
    destruct n as [|n].
    - eapply counts_weaken; [eapply counts_stop; [apply counts_hook|]|lia|lia].
      intros v x sh cx. split; reflexivity.
    - eapply counts_weaken.
      + apply counts_bind; [apply counts_hook|intros _]. apply counts_bind; [exact H|intros r].
        apply counts_self. intros u1. apply counts_bind; [apply counts_hook|intros _]. apply (@counts_ret U' _ 0 0).
      + lia.
      + lia.
  Qed.
  Lemma counts_superstate_handle n e : counts (3 * n - 2) (3 * n - 1) (superstate_handle_s sc n e).
  Proof.
    induction n as [|n IH]; cbn [superstate_handle_s]; [intros x sh cx; cbn; unfold calls; cbn; lia|].
    assert (N : counts (3 * n) (3 * n + (1 - n)) (nested n e)) by (apply counts_nested; [exact IH|intros ->; reflexivity]).
    eapply counts_weaken; [apply counts_bind; [apply counts_u_handler|intros r]| |].
    - instantiate (1 := 3 * n + (1 - n)). instantiate (1 := 3 * n).
      destruct r; [apply counts_ret| |apply counts_ret]. apply counts_on; [exact N|apply counts_ret].
    - lia.
    - lia.
  Qed.

  Lemma runs_tighten X A I t t' a b (P : A -> Prop) (c : comp cm X A) x : runs I t P c x -> counts a b c ->
    a <= t' -> b <= t' -> runs I t' P c x.
  Proof.
    intros R H L1 L2 sh cx. destruct (R sh cx) as (A1 & A2 & A3 & A4). specialize (H x sh cx). cbv zeta in *.
    repeat split; auto. destruct (r_out _); lia.
  Qed.
  Lemma runs_before X n e (I : X -> Prop) x : I x -> number m n <= K -> runs I 1 (fun _ => True) (before_dispatch cm n e) x.
  Proof. intros H L. apply runs_hook; [exact H|exact L]. Qed.
  Lemma runs_after X n e (I : X -> Prop) x : I x -> number m n <= K -> runs I 1 (fun _ => True) (after_dispatch cm n e) x.
  Proof. intros H L. apply runs_hook; [exact H|exact L]. Qed.
  Lemma runs_nested n e b t (H : forall u k, k + n <= b -> runs (upto b) t is_fresh (superstate_handle_s sc n e) (u, k)) :
    b <= K -> forall u k, k + n <= b -> runs (upto b) (1 + (t + (1 + 0))) is_fresh (nested n e) (u, k).
  Proof.
    intros LK u k L. unfold nested. apply runs_self.
    eapply runs_bind; [apply runs_before with (I := upto k); [exact (le_n _)|cbn; lia]|unfold upto; intros y Hy; lia|].
    intros _ [u1 k1] _ H1. unfold upto in H1. cbn in H1.
    eapply runs_bind; [apply H; lia|auto|]. intros r [u2 k2] Hr H2. unfold upto in H2. cbn in H2. apply runs_self.
    eapply runs_bind; [apply runs_after with (I := upto b); [exact H2|cbn; lia]|auto|].
    intros _ y _ Hy. apply runs_ret; [exact Hy|exact Hr].
  Qed.
  Lemma runs_superstate_handle n e b : b <= K -> forall u k, k + n <= b ->
    runs (upto b) (3 * n) is_fresh (superstate_handle_s sc n e) (u, k).
  Proof.
    intros LK. induction n as [|n IH]; intros u k L; cbn [superstate_handle_s]; [apply runs_abort; unfold upto; cbn; lia|].
    eapply runs_weaken; [|intros y Hy; exact Hy| |intros v Hv; exact Hv].
    - eapply runs_bind; [apply (@runs_u_handler u k e k); lia|unfold upto; intros y Hy; lia|].
      intros r [u1 k1] Hr H1. unfold upto in H1. cbn in H1.
      instantiate (1 := 1 + (3 * n + (1 + 0))).
      destruct r as [| |t]; [apply runs_ret; [unfold upto; cbn; lia|exact I]| |apply runs_ret; [unfold upto; cbn; lia|exact Hr]].
      apply runs_on_u; [lia| |].
      + intros v j Hj. apply (@runs_nested n e b (3 * n) IH LK). lia.
      + intros v j Hj. apply runs_ret; [unfold upto; cbn; lia|exact I].
    - lia.
  Qed.

  Variable slack : nat.
  Hypothesis room : 1 - stack <= slack \/ forall x, s_super m x = None.
  Lemma counts_bl_handle e : counts (3 * (stack + 1)) (3 * (stack + 1) + slack) (bl_handle_s sc stack e).
  Proof.
    unfold bl_handle_s. apply counts_self. intros x0.
    eapply counts_weaken.
    - apply counts_bind; [apply counts_hook|intros _]. apply counts_bind; [apply counts_s_handler|intros r].
      apply counts_self. intros x1. apply counts_bind; [apply counts_hook|intros _].
      instantiate (1 := 3 * stack + slack). instantiate (1 := 3 * stack).
      destruct r; [apply counts_ret| |apply counts_ret].
      pose proof (@counts_nested stack e (@counts_superstate_handle stack e)) as N.
      destruct room as [Hr|Hr].
      + apply counts_on; [|apply counts_ret]. eapply counts_weaken; [apply N; intros ->; reflexivity|lia|lia].
      + intros [y k] sh cx. cbn. rewrite Hr. cbn. unfold calls. cbn. lia.
    - lia.
    - lia.
  Qed.
  Lemma runs_handle md e b x k : b <= K -> k + (stack + 1) <= b ->
    runs (upto b) (3 * (stack + 1) + slack) is_fresh (handle_s sc stack md e) (x, k).
  Proof.
    intros LK L. destruct md; cbn [handle_s].
    - eapply runs_tighten with (t := 3 + (5 + 3 * stack)); [|apply counts_bl_handle|lia|lia].
      unfold bl_handle_s. apply runs_self. change (3 + (5 + 3 * stack)) with (1 + (1 + (1 + (5 + 3 * stack)))).
      eapply runs_bind; [apply runs_before with (I := upto k); [exact (le_n _)|cbn; lia]|unfold upto; intros y Hy; lia|].
      intros _ [x1 k1] _ H1. unfold upto in H1. cbn in H1.
      eapply runs_bind; [apply (@runs_s_handler x1 k1 e k); lia|unfold upto; intros y Hy; lia|].
      intros r [x2 k2] Hr H2. unfold upto in H2. cbn in H2. apply runs_self.
      eapply runs_bind; [apply runs_after with (I := upto k); [exact H2|cbn; lia]|unfold upto; intros y Hy; lia|].
      intros _ [x3 k3] _ H3. unfold upto in H3. cbn in H3.
      destruct r as [| |t]; [apply runs_ret; [unfold upto; cbn; lia|exact I]| |apply runs_ret; [unfold upto; cbn; lia|exact Hr]].
      apply runs_on_s; [lia| |].
      + intros v j Hj. eapply runs_weaken; [apply (@runs_nested stack e b (3 * stack)); [|exact LK|]|auto| |auto].
        * intros u i Li. apply runs_superstate_handle; lia.
        * lia.
        * lia.
      + intros v j Hj. apply runs_ret; [unfold upto; cbn; lia|exact I].
    - unfold aw_handle_s. apply runs_self.
      eapply runs_weaken with (I := upto b) (P := is_fresh) (t := 1 + (1 + (1 + 3 * stack))); [|auto|lia|auto].
      eapply runs_bind; [apply runs_before with (I := upto k); [exact (le_n _)|cbn; lia]|unfold upto; intros y Hy; lia|].
      intros _ [x1 k1] _ H1. unfold upto in H1. cbn in H1.
      eapply runs_bind; [apply (@runs_s_handler x1 k1 e k); lia|unfold upto; intros y Hy; lia|].
      intros r [x2 k2] Hr H2. unfold upto in H2. cbn in H2. apply runs_self.
      eapply runs_bind; [apply runs_after with (I := upto k); [exact H2|cbn; lia]|unfold upto; intros y Hy; lia|].
      intros _ [x3 k3] _ H3. unfold upto in H3. cbn in H3.
      destruct r as [| |t]; [apply runs_ret; [unfold upto; cbn; lia|exact I]| |apply runs_ret; [unfold upto; cbn; lia|exact Hr]].
      apply runs_on_s; [lia| |].
      + intros v j Hj. assert (Lj : j + stack <= b) by lia. clear - LK Lj. revert v j Lj.
        induction stack as [|n IH]; intros u i Li; cbn [handle_loop_s]; [apply runs_abort; unfold upto; cbn; lia|].
        apply runs_self. eapply runs_weaken with (I := upto b) (P := is_fresh) (t := 1 + (1 + (1 + 3 * n))); [|auto|lia|auto].
        eapply runs_bind; [apply runs_before with (I := upto i); [exact (le_n _)|cbn; lia]|unfold upto; intros y Hy; lia|].
        intros _ [x1 k1] _ H1. unfold upto in H1. cbn in H1.
        eapply runs_bind; [apply (@runs_u_handler x1 k1 e i); lia|unfold upto; intros y Hy; lia|].
        intros r [x2 k2] Hr H2. unfold upto in H2. cbn in H2. apply runs_self.
        eapply runs_bind; [apply runs_after with (I := upto i); [exact H2|cbn; lia]|unfold upto; intros y Hy; lia|].
        intros _ [x3 k3] _ H3. unfold upto in H3. cbn in H3.
        destruct r as [| |t]; [apply runs_ret; [unfold upto; cbn; lia|exact I]| |apply runs_ret; [unfold upto; cbn; lia|exact Hr]].
        apply runs_on_u; [lia| |].
        * intros v j Hj. apply IH. lia.
        * intros v j Hj. apply runs_ret; [unfold upto; cbn; lia|exact I].
      + intros v j Hj. apply runs_ret; [unfold upto; cbn; lia|exact I].
  Qed.

  (** *** Entering and leaving *)
  Notation any := (fun _ => True).
  Lemma runs_superstate_enter l b : b <= K -> forall u k, k + l <= b -> runs (upto b) l any (superstate_enter_s sc l) (u, k).
  Proof.
    intros LK. induction l as [|l IH]; intros u k L; cbn [superstate_enter_s]; [apply runs_ret; [unfold upto; cbn; lia|exact I]|].
    destruct l as [|l]; [apply runs_u_entry; lia|].
    eapply runs_weaken with (I := upto b) (P := any) (t := S l + 1); [|auto|lia|auto].
    eapply runs_bind; [apply runs_on_u with (b := b); [lia| |]|auto|].
    - intros v j Hj. apply IH. lia.
    - intros v j Hj. apply runs_ret; [unfold upto; cbn; lia|exact I].
    - intros _ [u1 k1] _ H1. unfold upto in H1. cbn in H1. apply runs_u_entry; lia.
  Qed.
  Lemma runs_superstate_exit l b : b <= K -> forall u k, k + l <= b -> runs (upto b) l any (superstate_exit_s sc l) (u, k).
  Proof.
    intros LK. induction l as [|l IH]; intros u k L; cbn [superstate_exit_s]; [apply runs_ret; [unfold upto; cbn; lia|exact I]|].
    destruct l as [|l]; [apply runs_u_exit; lia|].
    eapply runs_weaken with (I := upto b) (P := any) (t := 1 + S l); [|auto|lia|auto].
    eapply runs_bind; [apply (@runs_u_exit u k k); lia|unfold upto; intros y Hy; lia|].
    intros _ [u1 k1] _ H1. unfold upto in H1. cbn in H1. apply runs_on_u; [lia| |].
    - intros v j Hj. apply IH. lia.
    - intros v j Hj. apply runs_ret; [unfold upto; cbn; lia|exact I].
  Qed.
  Lemma runs_climb n b : b <= K -> forall u k, k + n <= b -> runs (upto b) 1 any (climb_entry_s sc n) (u, k).
  Proof.
    intros LK. induction n as [|n IH]; intros u k L; cbn [climb_entry_s]; [apply runs_u_entry; lia|].
    apply runs_on_u; [lia| |].
    - intros v j Hj. apply IH. lia.
    - intros v j Hj. apply runs_u_entry; lia.
  Qed.
  Lemma runs_exit_loop l b : b <= K -> forall u k, k + l <= b -> runs (upto b) l any (exit_loop_s sc l) (u, k).
  Proof.
    intros LK. induction l as [|l IH]; intros u k L; cbn [exit_loop_s]; [apply runs_ret; [unfold upto; cbn; lia|exact I]|].
    eapply runs_weaken with (I := upto b) (P := any) (t := 1 + l); [|auto|lia|auto].
    eapply runs_bind; [apply (@runs_u_exit u k k); lia|unfold upto; intros y Hy; lia|].
    intros _ [u1 k1] _ H1. unfold upto in H1. cbn in H1. apply runs_on_u; [lia| |].
    - intros v j Hj. apply IH. lia.
    - intros v j Hj. apply runs_ret; [unfold upto; cbn; lia|exact I].
  Qed.
  Lemma runs_enter md l b x k : b <= K -> k + l * l <= b -> runs (upto b) l any (enter_s sc md l) (x, k).
  Proof.
    intros LK. destruct md; cbn [enter_s].
    - intros L. assert (L' : k + l <= b) by nia. clear L. destruct l as [|[|l]]; cbn [bl_enter_s].
      + apply runs_ret; [unfold upto; cbn; lia|exact I].
      + apply runs_s_entry; lia.
      + eapply runs_weaken with (I := upto b) (P := any) (t := S l + 1); [|auto|lia|auto].
        eapply runs_bind; [apply runs_on_s with (b := b); [lia| |]|auto|].
        * intros v j Hj. apply runs_superstate_enter; lia.
        * intros v j Hj. apply runs_ret; [unfold upto; cbn; lia|exact I].
        * intros _ [u1 k1] _ H1. unfold upto in H1. cbn in H1. apply runs_s_entry; lia.
    - revert x k. induction l as [|l IH]; intros x k L; cbn [aw_enter_s]; [apply runs_ret; [unfold upto; cbn; lia|exact I]|].
      destruct l as [|l]; [apply runs_s_entry; lia|].
      eapply runs_weaken with (I := upto b) (P := any) (t := 1 + S l); [|auto|lia|auto].
      eapply runs_bind with (I1 := upto (k + S l)); [apply runs_on_s; [lia| |]|unfold upto; intros y Hy; nia|].
      + intros v j Hj. apply runs_climb; nia.
      + intros v j Hj. apply runs_ret; [unfold upto; cbn; lia|exact I].
      + intros _ [u1 k1] _ H1. unfold upto in H1. cbn in H1. apply IH. nia.
  Qed.
  Lemma runs_exit md l b x k : b <= K -> k + l <= b -> k + 1 <= b -> runs (upto b) l any (exit_s sc md l) (x, k).
  Proof.
    intros LK L L1. destruct md; cbn [exit_s].
    - destruct l as [|[|l]]; cbn [bl_exit_s].
      + apply runs_ret; [unfold upto; cbn; lia|exact I].
      + apply runs_s_exit; lia.
      + eapply runs_weaken with (I := upto b) (P := any) (t := 1 + S l); [|auto|lia|auto].
        eapply runs_bind; [apply (@runs_s_exit x k k); lia|unfold upto; intros y Hy; lia|].
        intros _ [u1 k1] _ H1. unfold upto in H1. cbn in H1. apply runs_on_s; [lia| |].
        * intros v j Hj. apply runs_superstate_exit; lia.
        * intros v j Hj. apply runs_ret; [unfold upto; cbn; lia|exact I].
    - unfold aw_exit_s. destruct l as [|l]; cbn [Nat.leb].
      + eapply runs_weaken with (I := upto b) (P := any) (t := 0 + 0); [|auto|lia|auto].
        eapply runs_bind with (P1 := any); [apply (@runs_ret _ _ (upto k)); [exact (le_n _)|exact I]|unfold upto; intros y Hy; lia|].
        intros _ [u1 k1] _ H1. unfold upto in H1. cbn in H1. apply runs_on_s; [lia| |].
        * intros v j Hj. apply runs_ret; [unfold upto; cbn; lia|exact I].
        * intros v j Hj. apply runs_ret; [unfold upto; cbn; lia|exact I].
      + eapply runs_weaken with (I := upto b) (P := any) (t := 1 + l); [|auto|lia|auto].
        eapply runs_bind; [apply (@runs_s_exit x k k); lia|unfold upto; intros y Hy; lia|].
        intros _ [u1 k1] _ H1. unfold upto in H1. cbn in H1. apply runs_on_s; [lia| |].
        * intros v j Hj. cbn [Nat.sub]. rewrite Nat.sub_0_r. apply runs_exit_loop; lia.
        * intros v j Hj. apply runs_ret; [unfold upto; cbn; lia|exact I].
  Qed.

  (** *** Transitions and whole calls *)
  Notation d := (stack + 1).
  Lemma runs_init md b x k : b <= K -> k + d + d * d <= b -> runs (upto b) d any (inner_init_s sc stack md) (x, k).
  Proof.
    intros LK L. unfold inner_init_s. eapply runs_weaken with (I := upto b) (P := any) (t := 0 + d); [|auto|lia|auto].
    eapply runs_bind; [apply (@runs_state_depth x k (k + d)); lia|unfold upto; intros y Hy; lia|].
    intros l [x1 k1] Hl H1. unfold upto in H1. cbn in H1, Hl.
    eapply runs_weaken; [apply (@runs_enter md l b x1 k1); [exact LK|nia]|auto|lia|auto].
  Qed.
  Lemma runs_transition md b x k t : b <= K -> k + 2 * d * d + d <= b -> 3 * d * d <= b -> snd t = 0 ->
    runs (upto b) (2 * d + 2) any (transition_s sc stack md t) (x, k).
  Proof.
    intros LK L LT Ht. destruct t as [t kt]. cbn in Ht. subst kt. unfold transition_s. apply runs_self.
    eapply runs_weaken with (I := upto b) (P := any) (t := 1 + (0 + (d + (0 + (d + 1))))); [|auto|lia|auto].
    eapply runs_bind with (I1 := upto k) (P1 := any).
    { destruct md; (apply runs_hook; [exact (le_n _)|cbn; nia]). }
    { unfold upto. intros y Hy. nia. }
    intros _ [x1 k1] _ H1. unfold upto in H1. cbn in H1.
    eapply runs_bind with (I1 := upto (k + path_asks)) (P1 := fun p => fst (fst p) <= d /\ snd (fst p) <= d /\ snd (snd p) <= path_asks).
    { intros sh cx. cbv zeta. unfold path_to. destruct (@runs_path x1 t k1 0 sh cx) as ([A1 A1'] & A2 & A3 & A4). cbv zeta in *.
      destruct (transition_path_s _ _ _ _ _) as [o [s1 s2] sh' cx' tr]. cbn in A1, A1', A2, A3, A4 |- *.
      split; [unfold upto; cbn; lia|]. split; [exact A2|]. split; [exact A3|].
      intros v. destruct o as [lv|w]; [|discriminate]. intros [= <-]. destruct (A4 _ eq_refl). cbn. lia. }
    { unfold upto, path_asks. intros y Hy. nia. }
    intros [[l1 l2] [t1 kt1]] [x2 k2] (B1 & B2 & B3) H2. unfold upto in H2. cbn in B1, B2, B3, H2. cbn [fst snd].
    assert (PB : k + path_asks + d <= b) by (unfold path_asks; nia).
    assert (PT : path_asks + d * d <= b) by (unfold path_asks; nia).
    eapply runs_bind with (I1 := upto (k + path_asks + d)) (P1 := any).
    { eapply runs_weaken; [apply (@runs_exit md l1 (k + path_asks + d) x2 k2); lia|auto|lia|auto]. }
    { unfold upto. intros y Hy. lia. }
    intros _ [x3 k3] _ H3. unfold upto in H3. cbn in H3.
    eapply runs_bind with (I1 := upto path_asks) (P1 := upto b).
    { intros sh cx. cbn. split; [exact B3|]. split; [unfold calls; cbn; lia|]. split; [constructor|]. intros v [= <-]. unfold upto. cbn. lia. }
    { unfold upto. intros y Hy. lia. }
    intros [x4 k4] [y4 j4] H4 H5. unfold upto in H4, H5. cbn in H4, H5.
    eapply runs_bind with (I1 := upto b) (P1 := any).
    { eapply runs_weaken; [apply (@runs_enter md l2 b y4 j4); [exact LK|nia]|auto|lia|auto]. }
    { auto. }
    intros _ [y5 j5] _ H6. unfold upto in H6. cbn in H6. apply runs_self. apply runs_hook; [exact H6|cbn; lia].
  Qed.
  Lemma runs_inner_handle md e b x k : b <= K -> k + 2 * d * d + 2 * d <= b -> 3 * d * d <= b ->
    runs (upto b) (5 * d + 2 + slack) any (inner_handle_s sc stack md e) (x, k).
  Proof.
    intros LK L LT. unfold inner_handle_s.
    eapply runs_weaken with (I := upto b) (P := any) (t := 3 * d + slack + (2 * d + 2)); [|auto|lia|auto].
    eapply runs_bind with (I1 := upto (k + d)); [apply runs_handle; nia|unfold upto; intros y Hy; nia|].
    intros r [x1 k1] Hr H1. unfold upto in H1. cbn in H1.
    destruct r as [| |t]; [apply runs_ret; [unfold upto; cbn; nia|exact I]|apply runs_ret; [unfold upto; cbn; nia|exact I]|].
    apply runs_transition; [exact LK|nia|exact LT|exact Hr].
  Qed.
End Work.
