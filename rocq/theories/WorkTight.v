(** WorkTight.v — proofs for C83: the bounds are reached. *)

From Coq Require Import List Bool Arith Lia.
From Verif Require Import Machine Api Spec RefSpec WorkSpec.
From Verif Require Props27.
Import ListNotations.
Local Open Scope comp_scope.

Section Towers.
  Variable n : nat.
  Notation T := (towers n).

  Definition towers_hierarchy : hierarchy := {|
    leaf_parent := fun s => match n with 0 => None | _ => Some (2 * n + s) end;
    sup_parent := fun d => if (2 <=? Nat.div2 d) && (Nat.div2 d <=? n) then Some (d - 2) else None
  |}.

  Lemma div2_disc l (b : bool) : Nat.div2 (2 * l + if b then 1 else 0) = l.
  Proof. destruct b; [rewrite Nat.add_1_r; apply Nat.div2_succ_double|rewrite Nat.add_0_r; apply Nat.div2_double]. Qed.
  Lemma disc_inj (u v : Sup T) : u_disc T u = u_disc T v -> u = v.
  Proof.
    destruct u as [b l], v as [c k]. cbn -[Nat.mul]. intros E.
    assert (l = k) by (rewrite <- (div2_disc l b), <- (div2_disc k c); now rewrite E).
    subst k. f_equal. destruct b, c; (reflexivity || lia).
  Qed.
  Lemma u_super_some (u v : Sup T) : u_super T u = Some v ->
    exists l, u = (fst v, S (S l)) /\ v = (fst v, S l) /\ S (S l) <= n.
  Proof.
    destruct u as [b [|[|l]]]; cbn -[Nat.leb]; try discriminate.
    destruct (S (S l) <=? n) eqn:L; [|discriminate]. intros [= <-]. exists l. apply Nat.leb_le in L. auto.
  Qed.

  Lemma towers_height : 1 <= n -> height_at_most n towers_hierarchy.
  Proof.
    intros P u.
    assert (G : forall l u, Nat.div2 u = l -> exists c, chain towers_hierarchy (Some u) c /\
                 length c <= if (1 <=? l) && (l <=? n) then l else 1).
    { clear u. induction l as [|l IH]; intros u Hu.
      - exists [u]. split; [|cbn; lia]. constructor. cbn. rewrite Hu. constructor.
      - destruct l as [|l].
        + exists [u]. split; [|cbn [length]; destruct ((1 <=? 1) && (1 <=? n)); lia].
          constructor. cbn -[Nat.leb]. rewrite Hu. constructor.
        + destruct (S (S l) <=? n) eqn:L.
          * destruct (IH (u - 2)) as (c & Hc & Lc).
            { do 2 (destruct u as [|u]; [discriminate|]). cbn in Hu. cbn. rewrite Nat.sub_0_r. lia. }
            exists (u :: c). split.
            { constructor. cbn -[Nat.leb]. rewrite Hu, L. cbn. exact Hc. }
            apply Nat.leb_le in L. cbn [length].
            replace (S l <=? n) with true in Lc by (symmetry; apply Nat.leb_le; lia). cbn in Lc |- *. lia.
          * exists [u]. split; [|rewrite andb_false_r; cbn; lia].
            constructor. cbn -[Nat.leb]. rewrite Hu, L. cbn. constructor. }
    destruct (G _ u eq_refl) as (c & Hc & Lc). exists c. split; [exact Hc|].
    destruct (1 <=? Nat.div2 u); cbn [andb] in Lc; [|lia].
    destruct (Nat.div2 u <=? n) eqn:L; [apply Nat.leb_le in L|]; lia.
  Qed.

  Lemma towers_well_formed : 1 <= n -> well_formed towers_hierarchy T n.
  Proof.
    intros P. split; [| |exact (towers_height P)].
    - split.
      + intros b. cbn -[Nat.mul]. destruct n; [reflexivity|]. reflexivity.
      + intros [b l]. cbn -[Nat.mul Nat.leb Nat.div2]. rewrite div2_disc.
        destruct l as [|[|l]]; [reflexivity|reflexivity|]. 
        change (2 <=? S (S l)) with true. cbn [andb].
        destruct (S (S l) <=? n); [|reflexivity]. cbn -[Nat.mul]. f_equal. lia.
      + intros x v v' E D. apply disc_inj in D. subst v'. cbn in E |- *. destruct n; [discriminate|]. now injection E as <-.
      + intros u v v' E D. apply disc_inj in D. subst v'. apply u_super_some in E. destruct E as (l & -> & E & _).
        cbn. reflexivity.
    - split; intros; match goal with H : _ = _ |- _ => injection H as <- <- <- <- end; reflexivity.
  Qed.
  Lemma towers_views : faithful_views T.
  Proof.
    split.
    - intros x v. cbn. destruct n; [discriminate|]. now intros [= <-].
    - intros x v v' E D. apply disc_inj in D. subst v'. cbn in E |- *. destruct n; [discriminate|]. now injection E as <-.
    - intros x v v1 v2 E D1 D2. apply disc_inj in D1, D2. now subst v1 v2.
    - intros u v E. apply u_super_some in E. destruct E as (l & -> & E & _). reflexivity.
    - intros u v v' E D. apply disc_inj in D. subst v'. 
      assert (E' := E). apply u_super_some in E'. destruct E' as (l & -> & _ & _). exact E.
    - intros u v v1 v2 E D1 D2. apply disc_inj in D1, D2. now subst v1 v2.
  Qed.

  (** [c], run on [b], returns [a] and leaves [b'], with [k] calls. *)
  Definition runs {A} (c : comp T (State T) A) (b : bool) (a : A) (b' : bool) (k : nat) : Prop :=
    exists tr : list (obs T), c b tt tt = @Res T bool A (Ret a) b' tt tt tr /\ WorkSpec.calls tr = k.
  Lemma runs_bind {A B} (c : comp T (State T) A) (f : A -> comp T (State T) B) b a b1 k a' b2 k' :
    runs c b a b1 k -> runs (f a) b1 a' b2 k' -> runs (bind c f) b a' b2 (k + k').
  Proof.
    intros (tr & E & L) (tr' & E' & L'). exists (tr ++ tr'). split.
    - unfold bind. rewrite E. cbn [r_out r_self r_sh r_cx r_tr]. now rewrite E'.
    - unfold WorkSpec.calls in *. rewrite filter_app, app_length. lia.
  Qed.
  Lemma runs_ret {A} (a : A) b : runs (ret a) b a b 0.
  Proof. now exists []. Qed.
  Lemma runs_self b : runs self b b b 0.
  Proof. now exists []. Qed.

  (** The levels. *)
  Lemma sup_looks k b l : k < l -> l <= n -> sup_look T k (b, l) = Some (b, l - k).
  Proof.
    revert l. induction k as [|k IH]; intros l Hk Hl.
    - cbn. now rewrite Nat.sub_0_r.
    - destruct l as [|[|l]]; [lia|lia|]. cbn -[Nat.leb]. replace (S (S l) <=? n) with true by (symmetry; apply Nat.leb_le; lia).
      rewrite IH by lia. reflexivity.
  Qed.
  Lemma sup_writes k b l : k < l -> l <= n -> sup_write T k (b, l) (b, l - k) = (b, l).
  Proof.
    revert l. induction k as [|k IH]; intros l Hk Hl.
    - cbn. now rewrite Nat.sub_0_r.
    - destruct l as [|[|l]]; [lia|lia|]. cbn -[Nat.leb Nat.sub]. replace (S (S l) <=? n) with true by (symmetry; apply Nat.leb_le; lia).
      change (S (S l) - S k) with (S l - k). rewrite IH by lia. reflexivity.
  Qed.
  Definition level (b : bool) (k : nat) : node (State T) (Sup T) :=
    match k with 0 => NState (b : State T) | S k' => NSuper ((b, n - k') : Sup T) end.
  Lemma s_super_T b : 1 <= n -> s_super T b = Some (b, n).
  Proof. cbn. destruct n; [lia|reflexivity]. Qed.
  Lemma looks k b : k <= n -> look T k b = Some (level b k).
  Proof.
    destruct k as [|k]; intros H; [reflexivity|]. unfold look. rewrite s_super_T by lia.
    rewrite sup_looks by lia. reflexivity.
  Qed.
  Lemma writes k b : k <= n -> RefSpec.write T k b (level b k) = b.
  Proof.
    destruct k as [|k]; intros H; [reflexivity|]. unfold RefSpec.write, level. rewrite s_super_T by lia.
    rewrite sup_writes by lia. reflexivity.
  Qed.

  Lemma exits k b : k <= n -> runs (exit_at T (look T) (RefSpec.write T) k) b tt b 1.
  Proof.
    intros H. exists [OExit (level b k)]. split; [|reflexivity]. unfold exit_at, act_at. rewrite looks by exact H.
    assert (E : node_exit T (level b k) tt tt = (Returns tt, level b k, tt, tt)) by now destruct k.
    rewrite E. cbn [outcome_of]. now rewrite writes by exact H.
  Qed.
  Lemma enters k b : k <= n -> runs (enter_at T (look T) (RefSpec.write T) k) b tt b 1.
  Proof.
    intros H. exists [OEnter (level b k)]. split; [|reflexivity]. unfold enter_at, act_at. rewrite looks by exact H.
    assert (E : node_entry T (level b k) tt tt = (Returns tt, level b k, tt, tt)) by now destruct k.
    rewrite E. cbn [outcome_of]. now rewrite writes by exact H.
  Qed.
  Lemma walks_out j : forall k b, k + j <= n + 1 -> runs (walk_out T (look T) (RefSpec.write T) k j) b tt b j.
  Proof.
    induction j as [|j IH]; intros k b H; [apply runs_ret|].
    change (S j) with (1 + j) at 2. cbn [walk_out]. eapply runs_bind; [apply exits; lia|apply IH; lia].
  Qed.
  Lemma walks_in j : forall b, j <= n + 1 -> runs (walk_in T (look T) (RefSpec.write T) j) b tt b j.
  Proof.
    induction j as [|j IH]; intros b H; [apply runs_ret|].
    change (S j) with (1 + j) at 2. cbn [walk_in]. eapply runs_bind; [apply enters; lia|apply IH; lia].
  Qed.
  Lemma shows_before k b : k <= n -> runs (show_at T (look T) (fun nd => before_dispatch T nd tt) k) b tt b 1.
  Proof. intros H. eexists. split; [unfold show_at; rewrite looks by exact H; reflexivity|reflexivity]. Qed.
  Lemma shows_after k b : k <= n -> runs (show_at T (look T) (fun nd => after_dispatch T nd tt) k) b tt b 1.
  Proof. intros H. eexists. split; [unfold show_at; rewrite looks by exact H; reflexivity|reflexivity]. Qed.
  Definition answer (b : bool) (k : nat) : response (State T) := if k <? n then Super else Transition (negb b).
  Lemma asks k b : k <= n -> runs (ask_at T (look T) (RefSpec.write T) tt k) b (answer b k) b 1.
  Proof.
    intros H. exists [OHandler (level b k) tt; OReturn (answer b k)]. split; [|reflexivity].
    unfold ask_at. rewrite looks by exact H.
    assert (E : node_handler T (level b k) tt tt tt = (Returns (answer b k), level b k, tt, tt)).
    { unfold answer. destruct k as [|k]; cbn -[Nat.ltb Nat.sub].
      - destruct n; reflexivity.
      - destruct (S k <? n) eqn:L.
        + apply Nat.ltb_lt in L. destruct (n - k) as [|[|x]] eqn:N; [lia|lia|reflexivity].
        + apply Nat.ltb_ge in L. destruct (n - k) as [|[|x]] eqn:N; [lia|reflexivity|lia]. }
    rewrite E. cbn [outcome_of]. now rewrite writes by exact H.
  Qed.

  Lemma asks_up j : forall k b, k + j = n + 1 -> 1 <= j ->
    runs (ask_up T (look T) (RefSpec.write T) tt k j) b (Some (negb b)) b (3 * j).
  Proof.
    induction j as [|j IH]; intros k b H P; [lia|].
    replace (3 * S j) with (1 + (1 + (1 + 3 * j))) by lia. cbn [ask_up].
    eapply runs_bind; [apply shows_before; lia|]. cbv beta.
    eapply runs_bind; [apply asks; lia|]. cbv beta.
    eapply runs_bind; [apply shows_after; lia|]. cbv beta. unfold answer.
    destruct (k <? n) eqn:L.
    - apply Nat.ltb_lt in L. apply IH; lia.
    - apply Nat.ltb_ge in L. replace j with 0 by lia. apply runs_ret.
  Qed.
  Lemma asks_nested j : forall k b, k + j = n + 1 -> 1 <= j ->
    runs (ask_up_nested T (look T) (RefSpec.write T) tt k j) b (Some (negb b)) b (3 * j).
  Proof.
    induction j as [|j IH]; intros k b H P; [lia|].
    replace (3 * S j) with (1 + (1 + (3 * j + (1 + 0)))) by lia. cbn [ask_up_nested].
    eapply runs_bind; [apply shows_before; lia|]. cbv beta.
    eapply runs_bind; [apply asks; lia|]. cbv beta.
    eapply runs_bind with (a := Some (negb b)).
    - unfold answer. destruct (k <? n) eqn:L.
      + apply Nat.ltb_lt in L. apply IH; lia.
      + apply Nat.ltb_ge in L. replace j with 0 by lia. apply runs_ret.
    - cbv beta. eapply runs_bind; [apply shows_after; lia|]. apply runs_ret.
  Qed.
  Lemma asks_leaf_first b : 1 <= n -> runs (ask_leaf_first T (look T) (RefSpec.write T) tt n) b (Some (negb b)) b (3 * (n + 1)).
  Proof.
    intros P. replace (3 * (n + 1)) with (1 + (1 + (1 + 3 * n))) by lia. unfold ask_leaf_first.
    eapply runs_bind; [apply shows_before; lia|]. cbv beta.
    eapply runs_bind; [apply asks; lia|]. cbv beta.
    eapply runs_bind; [apply shows_after; lia|]. cbv beta. unfold answer.
    replace (0 <? n) with true by (symmetry; apply Nat.ltb_lt; lia). apply asks_nested; lia.
  Qed.

  (** The names. *)
  Lemma sup_names_T b l : forall s, 1 <= l -> l <= n -> l <= s ->
    exists r, sup_names T s (b, l) = r ++ [2 + if b then 1 else 0] /\ length r = l - 1.
  Proof.
    induction l as [|l IH]; intros s P Q R; [lia|]. destruct s as [|s]; [lia|].
    destruct l as [|l].
    - exists []. split; [reflexivity|reflexivity].
    - destruct (IH s) as (r & E & L); [lia|lia|lia|].
      cbn -[Nat.leb Nat.mul]. replace (S (S l) <=? n) with true by (symmetry; apply Nat.leb_le; lia).
      rewrite E. exists (2 * S (S l) + (if b then 1 else 0) :: r). split; [reflexivity|]. cbn. lia.
  Qed.
  Lemma names_T b : 1 <= n -> exists r, names T n b = r ++ [2 + if b then 1 else 0] /\ length r = n - 1.
  Proof. intros P. unfold names. rewrite s_super_T by exact P. now apply sup_names_T. Qed.
  Lemma names_length b : 1 <= n -> length (names T n b) = n.
  Proof. intros P. destruct (names_T b P) as (r & -> & L). rewrite app_length. cbn. lia. Qed.
  Lemma own b : 1 <= n -> own_levels T n b (negb b) = n + 1.
  Proof.
    intros P. unfold own_levels. replace (s_disc T b =? s_disc T (negb b)) with false by now destruct b.
    destruct (names_T b P) as (r & E & L). destruct (names_T (negb b) P) as (r' & E' & L').
    rewrite E', E. rewrite !rev_app_distr. cbn [rev app in_common].
    replace (2 + (if b then 1 else 0) =? 2 + (if negb b then 1 else 0)) with false by now destruct b.
    rewrite app_length. cbn. lia.
  Qed.

  Lemma transits md b : 1 <= n -> runs (ref_transition T n md (negb b)) b tt (negb b) (2 * (n + 1) + 2).
  Proof.
    intros P. replace (2 * (n + 1) + 2) with (0 + (1 + ((n + 1) + (0 + ((n + 1) + (0 + 1)))))) by lia. unfold ref_transition.
    eapply runs_bind; [apply runs_self|]. cbv beta.
    eapply runs_bind.
    { instantiate (1 := b). instantiate (1 := tt). destruct md; eexists; (split; [reflexivity|reflexivity]). }
    cbv beta. rewrite own by exact P.
    eapply runs_bind; [apply walks_out; lia|]. cbv beta.
    eapply runs_bind. { instantiate (1 := negb b). instantiate (1 := b). now exists []. } cbv beta.
    replace (own_levels T n (negb b) b) with (n + 1) by (rewrite <- (negb_involutive b) at 2; now rewrite own).
    eapply runs_bind; [apply walks_in; lia|]. cbv beta.
    eapply runs_bind; [apply runs_self|]. cbv beta. eexists. split; reflexivity.
  Qed.
  Lemma handles md b : 1 <= n -> runs (ref_handle T n md tt) b tt (negb b) (5 * (n + 1) + 2).
  Proof.
    intros P. replace (5 * (n + 1) + 2) with (0 + (3 * (n + 1) + (2 * (n + 1) + 2))) by lia. unfold ref_handle.
    eapply runs_bind; [apply runs_self|]. cbv beta. rewrite names_length by exact P.
    eapply runs_bind with (a := Some (negb b)).
    - destruct md; [now apply asks_leaf_first|]. replace (n + 1) with (S n) by lia. apply asks_up; lia.
    - cbv beta iota. now apply transits.
  Qed.
  Lemma inits b : 1 <= n -> runs (ref_init T n) b tt b (n + 1).
  Proof.
    intros P. replace (n + 1) with (0 + S n) by lia. unfold ref_init.
    eapply runs_bind; [apply runs_self|]. cbv beta. rewrite names_length by exact P. apply walks_in. lia.
  Qed.

  Lemma handle_reaches md b (i : bool) : 1 <= n -> exists tr,
    exec n md (OpHandle (m := T) tt tt) (StateMachine (Inner (m := T) tt b) i) =
      (Ret tt, StateMachine (Inner (m := T) tt (negb b)) true, Some tt, tr) /\
    WorkSpec.calls tr = if i then 5 * (n + 1) + 2 else 6 * (n + 1) + 2.
  Proof.
    intros P. rewrite (Props27.C78_call towers_hierarchy T n md _ _ (towers_well_formed P) towers_views).
    unfold ref_exec. cbn [initialized sm_state sm_shared sm_inner state shared_storage].
    destruct i.
    - destruct (handles md b P) as (tr & E & L). exists tr. split; [|exact L]. cbv zeta. now rewrite E.
    - destruct (runs_bind _ (fun _ => ref_handle T n md tt) _ _ _ _ _ _ _ (inits b P) (handles md b P)) as (tr & E & L).
      destruct (inits b P) as (tr0 & E0 & _).
      exists tr. split; [|lia]. cbv zeta. rewrite E, E0. reflexivity.
  Qed.
End Towers.

Lemma reached n md b (i : bool) : exists tr,
  exec n md (OpHandle (m := towers n) tt tt) (StateMachine (Inner (m := towers n) tt b) i) =
    (Ret tt, StateMachine (Inner (m := towers n) tt (negb b)) true, Some tt, tr) /\
  WorkSpec.calls tr = if i then 5 * (n + 1) + 2 else 6 * (n + 1) + 2.
Proof.
  destruct n as [|n]; [|apply handle_reaches; lia].
  destruct md, b, i; eexists; (split; [reflexivity|reflexivity]).
Qed.
