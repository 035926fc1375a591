(** RefProofs.v — the library computes what the reference interpreter computes (C78). *)

From Coq Require Import List Bool Arith Lia.
From Verif Require Import Machine Blocking Awaitable Api Spec TripleProofs ShapeProofs
  DispatchProofs TransitionProofs ApiProofs ThreadProofs SameProofs RefSpec.
Import ListNotations.
Set Implicit Arguments.

Definition alike_at {m : machine} {X A} (c c' : comp m X A) : Prop := forall x sh cx, c x sh cx = c' x sh cx.

Lemma alike_bind {m : machine} {X A B} (c c' : comp m X A) (k k' : A -> comp m X B) :
  alike_at c c' -> (forall a, alike_at (k a) (k' a)) -> alike_at (bind c k) (bind c' k').
Proof.
  intros H K x sh cx. unfold bind. rewrite <- (H x sh cx).
  destruct (r_out (c x sh cx)) as [a|w]; [|reflexivity]. now rewrite (K a).
Qed.
Lemma bind_same {m : machine} {X A B} (c : comp m X A) (k k' : A -> comp m X B) x sh cx :
  (forall a, r_out (c x sh cx) = Ret a ->
     k a (r_self (c x sh cx)) (r_sh (c x sh cx)) (r_cx (c x sh cx)) =
     k' a (r_self (c x sh cx)) (r_sh (c x sh cx)) (r_cx (c x sh cx))) ->
  bind c k x sh cx = bind c k' x sh cx.
Proof. intros H. unfold bind. destruct (r_out (c x sh cx)) as [a|w]; [|reflexivity]. now rewrite (H a eq_refl). Qed.
Lemma bind_first {m : machine} {X A B} (c c' : comp m X A) (k : A -> comp m X B) x sh cx :
  c x sh cx = c' x sh cx -> bind c k x sh cx = bind c' k x sh cx.
Proof. intros H. unfold bind. now rewrite H. Qed.
Lemma bind_ret_l {m : machine} {X A B} (a : A) (k : A -> comp m X B) x sh cx :
  bind (ret a) k x sh cx = k a x sh cx.
Proof. unfold bind, ret. cbn. now destruct (k a x sh cx). Qed.
Lemma bind_of_nothing {m : machine} {X A B} (a : A) (c : comp m X A) (k : A -> comp m X B) x sh cx :
  c x sh cx = Res (Ret a) x sh cx [] -> bind c k x sh cx = k a x sh cx.
Proof. intros H. unfold bind. rewrite H. cbn. now destruct (k a x sh cx). Qed.
Lemma bind_bind {m : machine} {X A B C} (c : comp m X A) (k : A -> comp m X B) (j : B -> comp m X C) x sh cx :
  bind (bind c k) j x sh cx = bind c (fun a => bind (k a) j) x sh cx.
Proof.
  unfold bind. destruct (c x sh cx) as [[a|w] x1 sh1 cx1 t1]; simpl; [|reflexivity].
  destruct (k a x1 sh1 cx1) as [[b|w] x2 sh2 cx2 t2]; simpl; [|reflexivity].
  now rewrite app_assoc.
Qed.

Section Ref.
  Variable h : hierarchy.
  Variable m : machine.
  Hypothesis Hf : follows h m.
  Hypothesis Hs : stable m.
  Hypothesis Hv : faithful_views m.

  Notation nd := (node (State m) (Sup m)).

  Definition ulook (k : nat) (u : Sup m) : option nd := option_map NSuper (sup_look m k u).
  Definition uwrite (k : nat) (u : Sup m) (n : nd) : Sup m :=
    match n with NSuper w => sup_write m k u w | NState _ => u end.

  Lemma sup_write_disc k : forall u w w', sup_look m k u = Some w -> u_disc m w' = u_disc m w ->
    u_disc m (sup_write m k u w') = u_disc m u.
  Proof.
    induction k as [|k IH]; intros u w w' E D; cbn in *.
    - congruence.
    - destruct (u_super m u) as [v|] eqn:Ev; [|reflexivity].
      eapply (fo_u_put Hf); [exact Ev|]. eapply IH; eauto.
  Qed.

  (** Computations on a superstate that do not change its variant. *)
  Definition steady {A} (c : comp m (Sup m) A) : Prop :=
    forall u sh cx, u_disc m (r_self (c u sh cx)) = u_disc m u.
  Lemma steady_bind {A B} (c : comp m (Sup m) A) (k : A -> comp m (Sup m) B) :
    steady c -> (forall a, steady (k a)) -> steady (bind c k).
  Proof.
    intros Hc Hk u sh cx. unfold bind. specialize (Hc u sh cx).
    destruct (r_out (c u sh cx)); cbn; [|exact Hc]. now rewrite Hk.
  Qed.
  Lemma steady_ret {A} (a : A) : steady (ret a).
  Proof. intros u sh cx. reflexivity. Qed.

  (** Callbacks of a superstate. *)
  Definition tame (f : nd -> Shared m -> Ctx m -> reply unit * nd * Shared m * Ctx m) : Prop :=
    forall u sh cx, exists r u' sh' cx', f (NSuper u) sh cx = (r, NSuper u', sh', cx') /\ u_disc m u' = u_disc m u.
  Lemma tame_entry : tame (node_entry m).
  Proof.
    intros u sh cx. cbn. destruct (u_entry m u sh cx) as [[[r u'] sh'] cx'] eqn:E.
    exists r, u', sh', cx'. split; [reflexivity|]. exact (st_u_entry Hs _ _ _ E).
  Qed.
  Lemma tame_exit : tame (node_exit m).
  Proof.
    intros u sh cx. cbn. destruct (u_exit m u sh cx) as [[[r u'] sh'] cx'] eqn:E.
    exists r, u', sh', cx'. split; [reflexivity|]. exact (st_u_exit Hs _ _ _ E).
  Qed.
  Lemma tame_handler e u sh cx : exists r u' sh' cx',
    node_handler m (NSuper u) sh cx e = (r, NSuper u', sh', cx') /\ u_disc m u' = u_disc m u.
  Proof.
    cbn. destruct (u_handler m u sh cx e) as [[[r u'] sh'] cx'] eqn:E.
    exists r, u', sh', cx'. split; [reflexivity|]. exact (st_u_handler Hs _ _ _ _ E).
  Qed.

  Lemma steady_act f o k : tame f -> steady (act_at m ulook uwrite f o k).
  Proof.
    intros T u sh cx. unfold act_at, ulook. destruct (sup_look m k u) as [w|] eqn:E; [|reflexivity].
    cbn [option_map]. destruct (T w sh cx) as (r & w' & sh' & cx' & Ef & D). rewrite Ef. cbn.
    eapply sup_write_disc; eauto.
  Qed.
  Lemma steady_ask e k : steady (ask_at m ulook uwrite e k).
  Proof.
    intros u sh cx. unfold ask_at, ulook. destruct (sup_look m k u) as [w|] eqn:E; [|reflexivity].
    cbn [option_map]. destruct (tame_handler e w sh cx) as (r & w' & sh' & cx' & Ef & D). rewrite Ef. cbn.
    eapply sup_write_disc; eauto.
  Qed.
  Lemma steady_hook f o : steady (call_hook f o).
  Proof. intros u sh cx. unfold call_hook. now destruct (f sh). Qed.
  Lemma steady_show f k : (forall n, steady (f n)) -> steady (show_at m ulook f k).
  Proof. intros T u sh cx. unfold show_at. destruct (ulook k u) as [n|]; [apply T|reflexivity]. Qed.
  Lemma steady_walk_out n : forall k, steady (walk_out m ulook uwrite k n).
  Proof.
    induction n as [|n IH]; intros k; [apply steady_ret|]. apply steady_bind; [apply steady_act, tame_exit|auto].
  Qed.
  Lemma steady_ask_up e n : forall k, steady (ask_up m ulook uwrite e k n).
  Proof.
    induction n as [|n IH]; intros k; [apply steady_ret|]. cbn [ask_up].
    apply steady_bind; [apply steady_show; intros; apply steady_hook|]. intros ?.
    apply steady_bind; [apply steady_ask|]. intros r.
    apply steady_bind; [apply steady_show; intros; apply steady_hook|]. intros ?.
    destruct r; auto using steady_ret.
  Qed.
  Lemma steady_nested e n : forall k, steady (ask_up_nested m ulook uwrite e k n).
  Proof.
    induction n as [|n IH]; intros k; [apply steady_ret|]. cbn [ask_up_nested].
    apply steady_bind; [apply steady_show; intros; apply steady_hook|]. intros ?.
    apply steady_bind; [apply steady_ask|]. intros r.
    apply steady_bind; [destruct r; auto using steady_ret|]. intros t.
    apply steady_bind; [apply steady_show; intros; apply steady_hook|]. intros ?. apply steady_ret.
  Qed.

  (** Running on the view one level up is running one level higher. *)
  Section Shift.
    Variable X : Type.
    Variable sup : X -> option (Sup m).
    Variable put : X -> Sup m -> X.
    Variable look : nat -> X -> option nd.
    Variable write : nat -> X -> nd -> X.
    Hypothesis look_up : forall j x, look (S j) x = match sup x with Some u => ulook j u | None => None end.
    Hypothesis write_up : forall j x w,
      write (S j) x (NSuper w) = match sup x with Some u => put x (sup_write m j u w) | None => x end.
    Hypothesis get_put : forall x v, sup x = Some v -> put x v = x.
    Hypothesis put_get : forall x v v', sup x = Some v -> u_disc m v' = u_disc m v -> sup (put x v') = Some v'.
    Hypothesis put_put : forall x v v1 v2, sup x = Some v ->
      u_disc m v1 = u_disc m v -> u_disc m v2 = u_disc m v -> put (put x v1) v2 = put x v2.

    Definition on_up {A} (d : comp m X A) (c : comp m (Sup m) A) : comp m X A :=
      bind self (fun x => match sup x with Some v => via put v c | None => d end).

    Lemma on_up_some {A} (d : comp m X A) c x v sh cx :
      sup x = Some v -> on_up d c x sh cx = via put v c x sh cx.
    Proof. intros E. unfold on_up. now rewrite self_bind_run, E. Qed.
    Lemma on_up_none {A} (d : comp m X A) c x sh cx :
      sup x = None -> on_up d c x sh cx = d x sh cx.
    Proof. intros E. unfold on_up. now rewrite self_bind_run, E. Qed.

    Lemma on_up_bind {A B} (a1 : A) (d2 : A -> comp m X B)
        (c1 : comp m (Sup m) A) (c2 : A -> comp m (Sup m) B) :
      steady c1 -> (forall a, steady (c2 a)) ->
      alike_at (on_up (d2 a1) (bind c1 c2)) (bind (on_up (ret a1) c1) (fun a => on_up (d2 a) (c2 a))).
    Proof.
      intros K1 K2 x sh cx. destruct (sup x) as [v|] eqn:E.
      - rewrite (on_up_some _ _ _ _ E). unfold bind. rewrite (on_up_some (ret a1) c1 _ _ E). unfold via.
        specialize (K1 v sh cx).
        destruct (c1 v sh cx) as [[a|w] v1 sh1 cx1 t1] eqn:E1; cbn [r_out r_self r_sh r_cx r_tr] in *; [|reflexivity].
        rewrite (on_up_some _ _ _ _ (put_get _ E K1)). unfold via.
        cbn [r_out r_self r_sh r_cx r_tr]. specialize (K2 a v1 sh1 cx1).
        rewrite (put_put _ _ E K1); [reflexivity|congruence].
      - rewrite (on_up_none _ _ _ _ E).
        rewrite (@bind_of_nothing _ _ _ _ a1) by (now rewrite (on_up_none _ _ _ _ E)).
        now rewrite (on_up_none _ _ _ _ E).
    Qed.

    Lemma up_act f o j : tame f ->
      alike_at (on_up (ret tt) (act_at m ulook uwrite f o j)) (act_at m look write f o (S j)).
    Proof.
      intros T x sh cx. destruct (sup x) as [v|] eqn:E.
      - rewrite (on_up_some _ _ _ _ E). unfold via, act_at. rewrite look_up, E. unfold ulook.
        destruct (sup_look m j v) as [w|] eqn:El; cbn [option_map].
        + destruct (T w sh cx) as (r & w' & sh' & cx' & Ef & D). rewrite Ef, write_up, E. reflexivity.
        + cbn. now rewrite (get_put E).
      - rewrite (on_up_none _ _ _ _ E). unfold act_at. now rewrite look_up, E.
    Qed.
    Lemma up_ask e j :
      alike_at (on_up (ret Super) (ask_at m ulook uwrite e j)) (ask_at m look write e (S j)).
    Proof.
      intros x sh cx. destruct (sup x) as [v|] eqn:E.
      - rewrite (on_up_some _ _ _ _ E). unfold via, ask_at. rewrite look_up, E. unfold ulook.
        destruct (sup_look m j v) as [w|] eqn:El; cbn [option_map].
        + destruct (tame_handler e w sh cx) as (r & w' & sh' & cx' & Ef & D). rewrite Ef, write_up, E. reflexivity.
        + cbn. now rewrite (get_put E).
      - rewrite (on_up_none _ _ _ _ E). unfold ask_at. now rewrite look_up, E.
    Qed.
    Lemma up_show (f : nd -> Shared m -> reply unit * Shared m) (o : nd -> obs m) j :
      alike_at (on_up (ret tt) (show_at m ulook (fun n => call_hook (f n) (o n)) j))
               (show_at m look (fun n => call_hook (f n) (o n)) (S j)).
    Proof.
      intros x sh cx. destruct (sup x) as [v|] eqn:E.
      - rewrite (on_up_some _ _ _ _ E). unfold via, show_at. rewrite look_up, E.
        destruct (ulook j v) as [w|] eqn:El.
        + unfold call_hook. destruct (f w sh). cbn. now rewrite (get_put E).
        + cbn. now rewrite (get_put E).
      - rewrite (on_up_none _ _ _ _ E). unfold show_at. now rewrite look_up, E.
    Qed.

    Lemma up_ret {A} (a : A) : alike_at (on_up (ret a) (ret a)) (ret a).
    Proof.
      intros x sh cx. destruct (sup x) as [v|] eqn:E.
      - rewrite (on_up_some _ _ _ _ E). unfold via. cbn. now rewrite (get_put E).
      - now rewrite (on_up_none _ _ _ _ E).
    Qed.

    Lemma alike_trans {Y A} (c1 c2 c3 : comp m Y A) : alike_at c1 c2 -> alike_at c2 c3 -> alike_at c1 c3.
    Proof. intros H1 H2 x sh cx. now rewrite H1. Qed.

    Lemma up_walk_out n : forall k,
      alike_at (on_up (ret tt) (walk_out m ulook uwrite k n)) (walk_out m look write (S k) n).
    Proof.
      induction n as [|n IH]; intros k; [apply up_ret|].
      cbn [walk_out].
      eapply alike_trans; [apply (@on_up_bind _ _ tt (fun _ => ret tt));
                           [apply steady_act, tame_exit|intros; apply steady_walk_out]|].
      apply alike_bind; [apply up_act, tame_exit|]. intros ?. apply IH.
    Qed.
    Definition asked_of (r : response (State m)) : option (State m) :=
      match r with Transition t => Some t | _ => None end.
    Lemma up_ask_up e n : forall k,
      alike_at (on_up (ret None) (ask_up m ulook uwrite e k n)) (ask_up m look write e (S k) n).
    Proof.
      induction n as [|n IH]; intros k; [apply up_ret|].
      cbn [ask_up].
      assert (K : forall r : response (State m), steady (match r with
        | Super => ask_up m ulook uwrite e (S k) n | Handled => ret None | Transition t => ret (Some t) end)).
      { intros []; auto using steady_ret, steady_ask_up. }
      assert (Sb : forall f k (o : nd -> obs m), steady (show_at m ulook (fun n => call_hook (f n) (o n)) k)).
      { intros. apply steady_show. intros. apply steady_hook. }
      eapply alike_trans; [apply (@on_up_bind _ _ tt (fun _ => ret None)); [apply Sb|]|].
      { intros ?. apply steady_bind; [apply steady_ask|]. intros r. apply steady_bind; [apply Sb|]. intros ?. apply K. }
      apply alike_bind; [apply up_show|]. intros ?.
      eapply alike_trans; [apply (@on_up_bind _ _ Super (fun r => ret (asked_of r))); [apply steady_ask|]|].
      { intros r. apply steady_bind; [apply Sb|]. intros ?. apply K. }
      apply alike_bind; [apply up_ask|]. intros r.
      eapply alike_trans; [apply (@on_up_bind _ _ tt (fun _ => ret (asked_of r))); [apply Sb|intros ?; apply K]|].
      apply alike_bind; [apply up_show|]. intros ?.
      destruct r as [| |t]; cbn [asked_of]; [apply up_ret|apply IH|apply up_ret].
    Qed.
    Lemma up_nested e n : forall k,
      alike_at (on_up (ret None) (ask_up_nested m ulook uwrite e k n)) (ask_up_nested m look write e (S k) n).
    Proof.
      induction n as [|n IH]; intros k; [apply up_ret|].
      cbn [ask_up_nested].
      assert (K : forall r : response (State m), steady (match r with
        | Super => ask_up_nested m ulook uwrite e (S k) n | Handled => ret None | Transition t => ret (Some t) end)).
      { intros []; auto using steady_ret, steady_nested. }
      assert (Sb : forall f k (o : nd -> obs m), steady (show_at m ulook (fun n => call_hook (f n) (o n)) k)).
      { intros. apply steady_show. intros. apply steady_hook. }
      assert (K2 : forall t : option (State m), steady (bind (show_at m ulook (fun nd => after_dispatch m nd e) k) (fun _ => ret t))).
      { intros t. apply steady_bind; [apply Sb|intros ?; apply steady_ret]. }
      eapply alike_trans; [apply (@on_up_bind _ _ tt (fun _ => ret None)); [apply Sb|]|].
      { intros ?. apply steady_bind; [apply steady_ask|]. intros r. apply steady_bind; [apply K|exact K2]. }
      apply alike_bind; [apply up_show|]. intros ?.
      eapply alike_trans; [apply (@on_up_bind _ _ Super (fun r => ret (asked_of r))); [apply steady_ask|]|].
      { intros r. apply steady_bind; [apply K|exact K2]. }
      apply alike_bind; [apply up_ask|]. intros r.
      eapply alike_trans; [apply (@on_up_bind _ _ (asked_of r) (fun t => ret t)); [apply K|exact K2]|].
      apply alike_bind; [destruct r as [| |t]; cbn [asked_of]; [apply up_ret|apply IH|apply up_ret]|]. intros t.
      eapply alike_trans; [apply (@on_up_bind _ _ tt (fun _ => ret t)); [apply Sb|intros ?; apply steady_ret]|].
      apply alike_bind; [apply up_show|]. intros ?. apply up_ret.
    Qed.
  End Shift.

  (** The two instances: borrowing from a superstate and from the leaf. *)
  Notation uup := (on_up (u_super m) (u_put m)).
  Notation sup := (on_up (s_super m) (s_put m)).
  Notation wl := (look m).
  Notation ww := (write m).
  Lemma u_look_up j x : ulook (S j) x = match u_super m x with Some u => ulook j u | None => None end.
  Proof. unfold ulook. cbn. now destruct (u_super m x). Qed.
  Lemma u_write_up j x w :
    uwrite (S j) x (NSuper w) = match u_super m x with Some u => u_put m x (sup_write m j u w) | None => x end.
  Proof. reflexivity. Qed.
  Lemma s_look_up j x : wl (S j) x = match s_super m x with Some u => ulook j u | None => None end.
  Proof. reflexivity. Qed.
  Lemma s_write_up j x w :
    ww (S j) x (NSuper w) = match s_super m x with Some u => s_put m x (sup_write m j u w) | None => x end.
  Proof. reflexivity. Qed.
  Let ugp := fv_u_get_put Hv.
  Let upg := fv_u_put_get Hv.
  Let upp := fv_u_put_put Hv.
  Let sgp := fv_s_get_put Hv.
  Let spg := fv_s_put_get Hv.
  Let spp := fv_s_put_put Hv.

  Lemma u_exit_0 : alike_at (exit_at m ulook uwrite 0) (u_call_exit m).
  Proof.
    intros u sh cx. unfold exit_at, act_at, u_call_exit, call_action. cbn.
    now destruct (u_exit m u sh cx) as [[[r u'] sh'] cx'].
  Qed.
  Lemma s_exit_0 : alike_at (exit_at m wl ww 0) (s_call_exit m).
  Proof.
    intros u sh cx. unfold exit_at, act_at, s_call_exit, call_action. cbn.
    now destruct (s_exit m u sh cx) as [[[r u'] sh'] cx'].
  Qed.
  Lemma u_enter_0 : alike_at (enter_at m ulook uwrite 0) (u_call_entry m).
  Proof.
    intros u sh cx. unfold enter_at, act_at, u_call_entry, call_action. cbn.
    now destruct (u_entry m u sh cx) as [[[r u'] sh'] cx'].
  Qed.
  Lemma s_enter_0 : alike_at (enter_at m wl ww 0) (s_call_entry m).
  Proof.
    intros u sh cx. unfold enter_at, act_at, s_call_entry, call_action. cbn.
    now destruct (s_entry m u sh cx) as [[[r u'] sh'] cx'].
  Qed.
  Lemma u_ask_0 e : alike_at (ask_at m ulook uwrite e 0) (u_call_handler m e).
  Proof.
    intros u sh cx. unfold ask_at, u_call_handler, call_handler. cbn.
    now destruct (u_handler m u sh cx e) as [[[r u'] sh'] cx'].
  Qed.
  Lemma s_ask_0 e : alike_at (ask_at m wl ww e 0) (s_call_handler m e).
  Proof.
    intros u sh cx. unfold ask_at, s_call_handler, call_handler. cbn.
    now destruct (s_handler m u sh cx e) as [[[r u'] sh'] cx'].
  Qed.

  (** Exits. *)
  Lemma exit_loop_walk n : alike_at (exit_loop m n) (walk_out m ulook uwrite 0 n).
  Proof.
    induction n as [|n IH]; [intros u sh cx; reflexivity|].
    cbn [exit_loop walk_out].
    apply alike_bind; [intros u sh cx; symmetry; apply u_exit_0|]. intros ?.
    eapply alike_trans; [|apply (@up_walk_out _ _ _ ulook uwrite u_look_up u_write_up ugp upg upp n 0)].
    intros u sh cx. unfold on_up. rewrite !self_bind_run.
    destruct (u_super m u); [|reflexivity]. unfold via. now rewrite IH.
  Qed.
  Lemma state_exit_walk md n : alike_at (mode_exit m md n) (walk_out m wl ww 0 n).
  Proof.
    assert (A : alike_at (Awaitable.state_exit m n) (walk_out m wl ww 0 n)).
    { intros x sh cx. unfold Awaitable.state_exit. destruct n as [|n]; cbn [Nat.leb Nat.sub].
      - rewrite bind_ret_l, self_bind_run. destruct (s_super m x) as [v|] eqn:E; [|reflexivity].
        unfold via. cbn. now rewrite (sgp _ E).
      - cbn [walk_out]. rewrite Nat.sub_0_r. apply alike_bind; [intros y sh1 cx1; symmetry; apply s_exit_0|]. intros ?.
        eapply alike_trans; [|apply (@up_walk_out _ _ _ wl ww s_look_up s_write_up sgp spg spp n 0)].
        intros y sh1 cx1. unfold on_up. rewrite !self_bind_run.
        destruct (s_super m y); [|reflexivity]. unfold via. now rewrite exit_loop_walk. }
    destruct md; [|exact A]. intros x sh cx. cbn [mode_exit].
    rewrite (@exit_same m Hv n x sh cx). apply A.
  Qed.

  (** Entries. *)
  Lemma climb_walk n : forall k l u sh cx, chain h (Some k) l -> n < length l -> u_disc m u = k ->
    climb_entry m n u sh cx = enter_at m ulook uwrite n u sh cx.
  Proof.
    induction n as [|n IH]; intros k l u sh cx Hc Hn Hu; [symmetry; apply u_enter_0|].
    inversion Hc as [|? l' Hc' E1 E2]; subst k l. cbn in Hn.
    destruct (sup_parent h (u_disc m u)) as [k'|] eqn:Hp; [|inversion Hc'; subst; cbn in Hn; lia].
    destruct (@SameProofs.sup_at h m Hf _ _ u Hp eq_refl) as (v & E & Ev).
    unfold enter_at. rewrite <- (@up_act _ _ _ ulook uwrite u_look_up u_write_up ugp _ _ n tame_entry u sh cx).
    rewrite (on_up_some _ _ _ _ _ _ E). cbn [climb_entry]. rewrite self_bind_run, E.
    unfold via. rewrite (IH k' l' v sh cx Hc'); [reflexivity|lia|exact Ev].
  Qed.
  Lemma state_enter_walk md n : forall k l x sh cx, chain h (leaf_parent h k) l -> n <= S (length l) ->
    s_disc m x = k -> mode_enter m md n x sh cx = walk_in m wl ww n x sh cx.
  Proof.
    assert (A : forall n k l x sh cx, chain h (leaf_parent h k) l -> n <= S (length l) ->
      s_disc m x = k -> Awaitable.state_enter m n x sh cx = walk_in m wl ww n x sh cx).
    { clear n. induction n as [|n IH]; intros k l x sh cx Hc Hn Hx; [reflexivity|].
      destruct n as [|n].
      - cbn [Awaitable.state_enter walk_in]. unfold bind. rewrite s_enter_0.
        destruct (s_call_entry m x sh cx) as [[[]|w] x1 sh1 cx1 t1]; cbn; rewrite ?app_nil_r; reflexivity.
      - change (walk_in m wl ww (S (S n)) x sh cx) with
          (bind (enter_at m wl ww (S n)) (fun _ => walk_in m wl ww (S n)) x sh cx).
        change (Awaitable.state_enter m (S (S n)) x sh cx) with
          (bind self (fun x0 => bind (match s_super m x0 with
             | Some v => via (s_put m) v (climb_entry m n)
             | None => ret tt end) (fun _ => Awaitable.state_enter m (S n))) x sh cx).
        rewrite self_bind_run.
        destruct (leaf_parent h k) as [k'|] eqn:Hp; [|inversion Hc; subst; cbn in Hn; lia].
        destruct (@SameProofs.leaf_at h m Hf _ _ x Hp Hx) as (v & E & Ev). rewrite E.
        assert (G : via (s_put m) v (climb_entry m n) x sh cx = enter_at m wl ww (S n) x sh cx).
        { unfold enter_at.
          rewrite <- (@up_act _ _ _ wl ww s_look_up s_write_up sgp _ _ n tame_entry x sh cx).
          rewrite (on_up_some _ _ _ _ _ _ E). unfold via. rewrite (climb_walk (k := k') (l := l)); auto. lia. }
        rewrite <- (bind_first _ _ _ _ _ _ G). apply bind_same. intros a Ea.
        apply (IH k l); [now rewrite Hp|lia|].
        unfold via. cbn [r_self]. rewrite <- Hx. eapply (fo_s_put Hf); [exact E|].
        rewrite (climb_walk (k := k') (l := l)); auto; [|lia]. exact (steady_act _ n tame_entry v sh cx). }
    intros k l x sh cx Hc Hn Hx. destruct md; [|exact (A n k l x sh cx Hc Hn Hx)].
    cbn [mode_enter]. rewrite (enter_same Hf Hs Hv Hc Hn sh cx Hx). exact (A n k l x sh cx Hc Hn Hx).
  Qed.

  (** Dispatch. *)
  Lemma bind_bind_same {X A B C} (c c' : comp m X A) (k : A -> comp m X B) (j : B -> comp m X C) (k' : A -> comp m X C) x sh cx :
    c x sh cx = c' x sh cx ->
    (forall a, r_out (c x sh cx) = Ret a ->
       bind (k a) j (r_self (c x sh cx)) (r_sh (c x sh cx)) (r_cx (c x sh cx)) =
       k' a (r_self (c x sh cx)) (r_sh (c x sh cx)) (r_cx (c x sh cx))) ->
    bind (bind c k) j x sh cx = bind c' k' x sh cx.
  Proof.
    intros E H. rewrite bind_bind, <- (bind_first _ _ _ _ _ _ E). apply bind_same. exact H.
  Qed.
  Lemma via_ret {X A B} (put : X -> Sup m -> X) v (c : comp m (Sup m) A) (g : A -> B) x sh cx :
    bind (via put v c) (fun r => ret (g r)) x sh cx = via put v (bind c (fun r => ret (g r))) x sh cx.
  Proof. unfold bind, via. cbn. destruct (c v sh cx) as [[a|w] ? ? ? ?]; reflexivity. Qed.
  Lemma via_same {X A} (put : X -> Sup m -> X) v (c c' : comp m (Sup m) A) x sh cx :
    c v sh cx = c' v sh cx -> via put v c x sh cx = via put v c' x sh cx.
  Proof. intros E. unfold via. now rewrite E. Qed.
  Lemma u_show_0 (f : nd -> comp m (Sup m) unit) u sh cx : show_at m ulook f 0 u sh cx = f (NSuper u) u sh cx.
  Proof. reflexivity. Qed.
  Lemma s_show_0 (f : nd -> comp m (State m) unit) u sh cx : show_at m wl f 0 u sh cx = f (NState u) u sh cx.
  Proof. reflexivity. Qed.

  Lemma chain_up_inv k l : chain h (Some k) l -> exists l', l = k :: l' /\ chain h (sup_parent h k) l'.
  Proof. inversion 1; subst; eauto. Qed.

  Lemma loop_walk e fuel : forall k l u sh cx, chain h (Some k) l -> length l <= fuel -> u_disc m u = k ->
    bind (handle_loop m fuel e) (fun r => ret (asked_of r)) u sh cx = ask_up m ulook uwrite e 0 (length l) u sh cx.
  Proof.
    induction fuel as [|fuel IH]; intros k l u sh cx Hc Hl Hu;
      destruct (chain_up_inv Hc) as (l' & -> & Hc'); cbn [length] in *; [lia|].
    cbn [handle_loop ask_up].
    rewrite bind_bind, self_bind_run.
    apply bind_bind_same; [now rewrite u_show_0|]. intros ? _.
    pose proof (steady_hook (fun sh => h_before_dispatch m sh (NSuper u) e) (OBeforeDispatch (NSuper u) e) u sh cx) as D1.
    unfold before_dispatch. set (r1 := call_hook _ _ u sh cx) in *. rewrite Hu in D1.
    apply bind_bind_same; [now rewrite u_ask_0|]. intros r _.
    pose proof (steady_ask e 0 (r_self r1) (r_sh r1) (r_cx r1)) as D2. rewrite u_ask_0, D1 in D2.
    set (r2 := u_call_handler m e (r_self r1) (r_sh r1) (r_cx r1)) in *. clearbody r2. clear r1 D1.
    rewrite bind_bind, self_bind_run.
    apply bind_bind_same; [now rewrite u_show_0|]. intros ? _.
    pose proof (steady_hook (fun sh => h_after_dispatch m sh (NSuper (r_self r2)) e) (OAfterDispatch (NSuper (r_self r2)) e)
                  (r_self r2) (r_sh r2) (r_cx r2)) as D3.
    unfold after_dispatch. set (r3 := call_hook _ _ (r_self r2) (r_sh r2) (r_cx r2)) in *. rewrite D2 in D3.
    clearbody r3. clear r2 D2.
    destruct r as [| |t]; [now rewrite bind_ret_l| |now rewrite bind_ret_l].
    rewrite bind_bind, self_bind_run.
    rewrite <- (@up_ask_up _ _ _ ulook uwrite u_look_up u_write_up ugp upg upp e (length l') 0).
    destruct (u_super m (r_self r3)) as [v|] eqn:E.
    - rewrite (on_up_some _ _ _ _ _ _ E).
      assert (Ev : sup_parent h k = Some (u_disc m v)) by (rewrite <- D3; symmetry; rewrite <- (fo_sup Hf); now rewrite E).
      rewrite Ev in Hc'. rewrite via_ret. apply via_same.
      exact (IH _ _ v (r_sh r3) (r_cx r3) Hc' ltac:(lia) eq_refl).
    - rewrite (on_up_none _ _ _ _ _ _ E). now rewrite bind_ret_l.
  Qed.

  Lemma after_last {X A B} (lk : nat -> X -> option nd) (nod : X -> nd) (e : Event m) (c : comp m X A) (g : A -> B) :
    (forall x, lk 0 x = Some (nod x)) ->
    alike_at (bind (bind c (fun r => bind self (fun x => bind (after_dispatch m (nod x) e) (fun _ => ret r))))
                   (fun r => ret (g r)))
             (bind (bind c (fun r => ret (g r))) (fun t => bind (show_at m lk (fun n => after_dispatch m n e) 0) (fun _ => ret t))).
  Proof.
    intros L x sh cx. rewrite !bind_bind. apply bind_same. intros a _. rewrite bind_bind, self_bind_run, bind_ret_l.
    rewrite bind_bind. set (r := c x sh cx).
    rewrite (bind_first (show_at m lk (fun n => after_dispatch m n e) 0) (after_dispatch m (nod (r_self r)) e));
      [|unfold show_at; now rewrite L].
    apply bind_same. intros ? _. now rewrite bind_ret_l.
  Qed.

  Definition round (fuel : nat) (e : Event m) : comp m (Sup m) (response (State m)) :=
    bind self (fun u0 => bind (before_dispatch m (NSuper u0) e) (fun _ =>
    bind (superstate_handle m fuel e) (fun r =>
    bind self (fun u1 => bind (after_dispatch m (NSuper u1) e) (fun _ => ret r))))).

  Lemma nested_walk e fuel : forall k l u sh cx, chain h (Some k) l -> length l <= fuel -> u_disc m u = k ->
    bind (round fuel e) (fun r => ret (asked_of r)) u sh cx = ask_up_nested m ulook uwrite e 0 (length l) u sh cx.
  Proof.
    induction fuel as [|fuel IH]; intros k l u sh cx Hc Hl Hu;
      destruct (chain_up_inv Hc) as (l' & -> & Hc'); cbn [length] in *; [lia|].
    unfold round. cbn [ask_up_nested].
    rewrite bind_bind, self_bind_run.
    apply bind_bind_same; [now rewrite u_show_0|]. intros ? _.
    pose proof (steady_hook (fun sh => h_before_dispatch m sh (NSuper u) e) (OBeforeDispatch (NSuper u) e) u sh cx) as D1.
    unfold before_dispatch. set (r1 := call_hook _ _ u sh cx) in *. rewrite Hu in D1.
    rewrite (@after_last _ _ _ ulook NSuper e (superstate_handle m (S fuel) e) asked_of (fun x => eq_refl)).
    cbn [superstate_handle]. rewrite (@bind_bind m).
    apply bind_bind_same; [now rewrite u_ask_0|]. intros r _.
    pose proof (steady_ask e 0 (r_self r1) (r_sh r1) (r_cx r1)) as D2. rewrite u_ask_0, D1 in D2.
    set (r2 := u_call_handler m e (r_self r1) (r_sh r1) (r_cx r1)) in *. clearbody r2. clear r1 D1.
    rewrite <- bind_bind. apply bind_first.
    destruct r as [| |t]; [now rewrite bind_ret_l| |now rewrite bind_ret_l].
    rewrite bind_bind, self_bind_run.
    rewrite <- (@up_nested _ _ _ ulook uwrite u_look_up u_write_up ugp upg upp e (length l') 0).
    destruct (u_super m (r_self r2)) as [v|] eqn:E.
    - rewrite (on_up_some _ _ _ _ _ _ E).
      assert (Ev : sup_parent h k = Some (u_disc m v)) by (rewrite <- D2; symmetry; rewrite <- (fo_sup Hf); now rewrite E).
      rewrite Ev in Hc'. rewrite via_ret. apply via_same.
      exact (IH _ _ v (r_sh r2) (r_cx r2) Hc' ltac:(lia) eq_refl).
    - rewrite (on_up_none _ _ _ _ _ _ E). now rewrite bind_ret_l.
  Qed.

  (** The leaf's own round: hook, handler, hook. *)
  Lemma leaf_round (e : Event m) (k : nat) (F : response (State m) -> comp m (State m) (response (State m)))
      (G : response (State m) -> comp m (State m) (option (State m))) x sh cx :
    s_disc m x = k ->
    (forall r y sh1 cx1, s_disc m y = k -> bind (F r) (fun r => ret (asked_of r)) y sh1 cx1 = G r y sh1 cx1) ->
    bind (bind self (fun x0 => bind (before_dispatch m (NState x0) e) (fun _ =>
          bind (s_call_handler m e) (fun r => bind self (fun x1 =>
          bind (after_dispatch m (NState x1) e) (fun _ => F r)))))) (fun r => ret (asked_of r)) x sh cx =
    bind (show_at m wl (fun n => before_dispatch m n e) 0) (fun _ =>
    bind (ask_at m wl ww e 0) (fun r =>
    bind (show_at m wl (fun n => after_dispatch m n e) 0) (fun _ => G r))) x sh cx.
  Proof.
    intros Hx HF.
    rewrite bind_bind, self_bind_run.
    apply bind_bind_same; [now rewrite s_show_0|]. intros ? _.
    assert (D1 : s_disc m (r_self (before_dispatch m (NState x) e x sh cx)) = k).
    { unfold before_dispatch, call_hook. destruct (h_before_dispatch m sh (NState x) e). exact Hx. }
    set (r1 := before_dispatch m (NState x) e x sh cx) in *.
    apply bind_bind_same; [now rewrite s_ask_0|]. intros r _.
    assert (D2 : s_disc m (r_self (s_call_handler m e (r_self r1) (r_sh r1) (r_cx r1))) = k).
    { unfold s_call_handler, call_handler.
      destruct (s_handler m (r_self r1) (r_sh r1) (r_cx r1) e) as [[[q y] sh'] cx'] eqn:Eh.
      cbn. rewrite (st_s_handler Hs _ _ _ _ Eh). exact D1. }
    set (r2 := s_call_handler m e (r_self r1) (r_sh r1) (r_cx r1)) in *. clearbody r2. clear r1 D1.
    rewrite bind_bind, self_bind_run.
    apply bind_bind_same; [now rewrite s_show_0|]. intros ? _.
    apply HF. unfold after_dispatch, call_hook. destruct (h_after_dispatch m (r_sh r2) (NState (r_self r2)) e). exact D2.
  Qed.

  Variable stack : nat.
  Hypothesis Hh : height_at_most stack h.

  Lemma sup_names_chain fuel : forall u l, chain h (Some (u_disc m u)) l -> length l <= fuel -> sup_names m fuel u = l.
  Proof.
    induction fuel as [|fuel IH]; intros u l Hc Hl; destruct (chain_up_inv Hc) as (l' & -> & Hc'); cbn in *; [lia|].
    f_equal. rewrite <- (fo_sup Hf) in Hc'. destruct (u_super m u) as [v|]; cbn in Hc'.
    - apply IH; [exact Hc'|lia].
    - inversion Hc'. reflexivity.
  Qed.
  Lemma names_chain x l : chain h (leaf_parent h (s_disc m x)) l -> names m stack x = l.
  Proof.
    intros Hc. pose proof (height_bound Hh Hc) as Hl. unfold names. rewrite <- (fo_leaf Hf) in Hc.
    destruct (s_super m x) as [v|]; cbn in Hc.
    - now apply sup_names_chain.
    - inversion Hc. reflexivity.
  Qed.

  Lemma aw_dispatch e x sh cx l : chain h (leaf_parent h (s_disc m x)) l ->
    bind (Awaitable.state_handle m stack e) (fun r => ret (asked_of r)) x sh cx =
    ask_up m wl ww e 0 (S (length l)) x sh cx.
  Proof.
    intros Hc. pose proof (height_bound Hh Hc) as Hl. unfold Awaitable.state_handle. cbn [ask_up].
    apply (@leaf_round e (s_disc m x) _ _ x sh cx eq_refl). intros r y sh1 cx1 Hy.
    destruct r as [| |t]; [now rewrite bind_ret_l| |now rewrite bind_ret_l].
    rewrite bind_bind, self_bind_run.
    rewrite <- (@up_ask_up _ _ _ wl ww s_look_up s_write_up sgp spg spp e (length l) 0).
    destruct (s_super m y) as [v|] eqn:E.
    - rewrite (on_up_some _ _ _ _ _ _ E), via_ret. apply via_same.
      rewrite <- Hy, <- (fo_leaf Hf), E in Hc. exact (@loop_walk e stack _ l v sh1 cx1 Hc Hl eq_refl).
    - rewrite (on_up_none _ _ _ _ _ _ E). now rewrite bind_ret_l.
  Qed.
  Lemma bl_dispatch e x sh cx l : chain h (leaf_parent h (s_disc m x)) l ->
    bind (Blocking.state_handle m stack e) (fun r => ret (asked_of r)) x sh cx =
    ask_leaf_first m wl ww e (length l) x sh cx.
  Proof.
    intros Hc. pose proof (height_bound Hh Hc) as Hl. unfold Blocking.state_handle, ask_leaf_first.
    apply (@leaf_round e (s_disc m x) _ _ x sh cx eq_refl). intros r y sh1 cx1 Hy.
    destruct r as [| |t]; [now rewrite bind_ret_l| |now rewrite bind_ret_l].
    rewrite bind_bind, self_bind_run.
    rewrite <- (@up_nested _ _ _ wl ww s_look_up s_write_up sgp spg spp e (length l) 0).
    destruct (s_super m y) as [v|] eqn:E.
    - rewrite (on_up_some _ _ _ _ _ _ E), via_ret. apply via_same.
      rewrite <- Hy, <- (fo_leaf Hf), E in Hc. exact (@nested_walk e stack _ l v sh1 cx1 Hc Hl eq_refl).
    - rewrite (on_up_none _ _ _ _ _ _ E). now rewrite bind_ret_l.
  Qed.

  (** Which levels a transition leaves and enters. *)
  Lemma in_common_app c xs ys : in_common (c ++ xs) (c ++ ys) = length c + in_common xs ys.
  Proof. induction c as [|a c IH]; cbn; [reflexivity|]. now rewrite Nat.eqb_refl, IH. Qed.
  Lemma in_common_diverge xs ys : diverge xs ys -> in_common xs ys = 0.
  Proof. destruct xs as [|a xs], ys as [|b ys]; cbn; auto. intros N. now apply Nat.eqb_neq in N as ->. Qed.
  Lemma levels_ok x t : Blocking.transition_path m stack x t = Ret (own_levels m stack x t, own_levels m stack t x) /\
    own_levels m stack t x <= S (length (names m stack t)).
  Proof.
    destruct (height_chain (leaf_parent h (s_disc m x)) Hh) as (l1 & H1 & L1).
    destruct (height_chain (leaf_parent h (s_disc m t)) Hh) as (l2 & H2 & L2).
    unfold own_levels. rewrite (names_chain x H1), (names_chain t H2).
    destruct (Nat.eq_dec (s_disc m x) (s_disc m t)) as [Ed|Ed].
    - unfold Blocking.transition_path, same_state. rewrite Ed, Nat.eqb_refl. split; [reflexivity|lia].
    - destruct (transition_path_split Hf Hh _ _ H1 H2 Ed) as (xs & ys & c & (E1 & E2 & D) & E).
      rewrite E, E1, E2. apply Nat.eqb_neq in Ed as Ed1. rewrite Ed1. rewrite Nat.eqb_sym, Ed1.
      rewrite !rev_app_distr, !in_common_app, (in_common_diverge _ _ D), !app_length, !rev_length.
      assert (D' : diverge (rev ys) (rev xs)) by (destruct (rev xs), (rev ys); cbn in *; auto).
      rewrite (in_common_diverge _ _ D'). split; [repeat f_equal; lia|lia].
  Qed.

  Lemma transition_ref md t x sh cx : mode_transition m stack md t x sh cx = ref_transition m stack md t x sh cx.
  Proof.
    rewrite mode_transition_eq. unfold ref_transition. rewrite self_bind_run.
    destruct (levels_ok x t) as [E L]. rewrite E.
    apply bind_same. intros ? _. rewrite bind_lift_run. cbn [fst snd].
    rewrite (bind_first _ _ _ _ _ _ (state_exit_walk md (own_levels m stack x t) _ _ _)).
    apply bind_same. intros ? _. apply bind_same. intros old Eo.
    destruct (height_chain (leaf_parent h (s_disc m t)) Hh) as (l2 & H2 & L2).
    rewrite (names_chain t H2) in L. apply bind_first. cbn [r_self].
    exact (@state_enter_walk md _ _ l2 t _ _ H2 L eq_refl).
  Qed.
  Lemma handle_ref md e x sh cx : inner_handle m stack md e x sh cx = ref_handle m stack md e x sh cx.
  Proof.
    rewrite mode_handle_eq. unfold ref_handle. rewrite self_bind_run.
    destruct (height_chain (leaf_parent h (s_disc m x)) Hh) as (l & Hc & L). rewrite (names_chain x Hc).
    assert (A : bind (mode_state_handle m stack e md) (fun r => ret (asked_of r)) x sh cx =
                match md with
                | BlockingMode => ask_leaf_first m wl ww e (length l)
                | AwaitableMode => ask_up m wl ww e 0 (S (length l))
                end x sh cx).
    { destruct md; [now apply bl_dispatch|now apply aw_dispatch]. }
    rewrite <- (bind_first _ _ _ _ _ _ A). rewrite bind_bind. apply bind_same. intros r _.
    rewrite bind_ret_l. destruct r as [| |t]; try reflexivity. apply transition_ref.
  Qed.
  Lemma init_ref md x sh cx : inner_init m stack md x sh cx = ref_init m stack x sh cx.
  Proof.
    rewrite mode_init_eq. unfold ref_init. rewrite self_bind_run.
    destruct (height_chain (leaf_parent h (s_disc m x)) Hh) as (l & Hc & L). rewrite (names_chain x Hc).
    rewrite (state_depth_ok Hf Hh _ Hc), bind_lift_run. rewrite ?Nat.add_1_r.
    exact (@state_enter_walk md _ _ l x _ _ Hc (le_n _) eq_refl).
  Qed.

  Lemma exec_ref md (o : op m) (sm : state_machine m) : exec stack md o sm = ref_exec stack md o sm.
  Proof.
    destruct sm as [[sh x] b]. destruct o as [cx|e cx|f|f]; cbn [exec ref_exec]; try reflexivity.
    - unfold init_with_context, run_inner. cbn [initialized sm_inner state shared_storage sm_state sm_shared].
      destruct b; cbn [negb]; [reflexivity|]. cbn [a_out a_machine a_cx a_tr]. rewrite init_ref.
      destruct (r_out (ref_init m stack x sh cx)) as [[]|w]; reflexivity.
    - unfold handle_with_context, dispatch, run_inner. cbn [initialized sm_inner state shared_storage sm_state sm_shared].
      destruct b; cbn [negb].
      + cbn [a_out a_machine a_cx a_tr initialized sm_inner state shared_storage]. now rewrite handle_ref.
      + cbn [a_out a_machine a_cx a_tr initialized sm_inner state shared_storage]. rewrite init_ref. unfold bind.
        destruct (r_out (ref_init m stack x sh cx)) as [[]|w]; cbn [a_out a_machine a_cx a_tr]; [|reflexivity].
        now rewrite handle_ref.
  Qed.
  Lemma history_ref md (ops : list (op m)) (sm : state_machine m) cs sm' : history stack md ops sm cs sm' <-> ref_exec_all stack md ops sm = (cs, sm').
  Proof.
    revert sm cs sm'. induction ops as [|o ops IH]; intros sm cs sm'; cbn.
    - split; [inversion 1; reflexivity|]. intros [= <- <-]. constructor.
    - rewrite <- exec_ref. destruct (exec stack md o sm) as [[[out sm1] cx] tr] eqn:E. split.
      + inversion 1 as [|? ? ? ? ? ? ? ? ? E1 H1]; subst. rewrite E in E1. injection E1 as <- <- <- <-.
        apply IH in H1. now rewrite H1.
      + destruct (ref_exec_all stack md ops sm1) as [cs1 sm2] eqn:E2. intros [= <- <-].
        econstructor; [exact E|]. now apply IH.
  Qed.
End Ref.
