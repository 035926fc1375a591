(** Props26.v — C77: what entry actions establish holds while the node is active.  Theorems
    only; see ActiveSpec.v. *)

From Coq Require Import List Bool Arith Lia.
From Verif Require Import Machine Api Spec ActiveSpec.
From Verif Require ActiveProofs.
Import ListNotations.

(** C77.  Suppose each callback alone, called when what should hold does hold, leaves what
    should hold then: an entry action, called when [Active] holds of the nodes around its node,
    makes it hold of its own node too; a handler that does not ask for a transition keeps it
    for all active nodes; one that does keeps it for those that stay active and leaves
    [Leaving] for the others; and so on ([step]).  Then, in either mode, after any completed
    calls [Active] holds of the current state and of all superstates around it. *)
Theorem C77_while_active :
  forall (h : hierarchy) (m : machine) (stack : nat) (md : mode)
         (Always : Shared m -> Prop) (Active Leaving : place -> Shared m -> Prop)
         (ops : list (op m)) (sm : state_machine m) (cs : list (called m)) (sm' : state_machine m),
    well_formed h m stack -> maintains h m Always Active Leaving ->
    initialized sm = false -> Always (sm_shared sm) ->
    Forall (careful h m Always Active Leaving) ops ->
    history stack md ops sm cs sm' -> completed cs ->
    Always (sm_shared sm') /\
    (initialized sm' = true ->
     forall p q, path h (s_disc m (sm_state sm')) p -> In q p -> Active q (sm_shared sm')).
Proof.
  intros h m stack md Always Active Leaving ops sm cs sm' W MT I A C H D.
  assert (R : ActiveProofs.at_rest h Always Active Leaving sm).
  { unfold ActiveProofs.at_rest. rewrite I. split; [exact A|]. split; intros p []. }
  pose proof (proj1 (@ActiveProofs.history_leads h m stack W Always Active Leaving MT md ops sm cs sm' H C R) D) as R'.
  unfold ActiveProofs.at_rest in R'. destruct (initialized sm').
  - split.
    + destruct (TripleProofs.height_chain (leaf_parent h (s_disc m (sm_state sm'))) (wf_height W)) as (l & Hc & _).
      exact (proj1 (R' _ (ex_intro _ l (conj Hc eq_refl)))).
    + intros _ p q (l & Hc & ->) J. apply (proj2 (proj2 (R' _ (ex_intro _ l (conj Hc eq_refl))))).
      cbn [snd]. apply in_app_or in J. destruct J as [J|[<-|[]]]; [right|now left].
      rewrite map_rev in J. now apply in_rev in J.
  - split; [exact (proj1 R')|discriminate].
Qed.
Print Assumptions C77_while_active.

(** If moreover each callback alone returns when it is called so, then no call ever panics: a
    callback may rely on what should hold. *)
Theorem C77_unfailing :
  forall (h : hierarchy) (m : machine) (stack : nat) (md : mode)
         (Always : Shared m -> Prop) (Active Leaving : place -> Shared m -> Prop)
         (ops : list (op m)) (sm : state_machine m) (cs : list (called m)) (sm' : state_machine m),
    well_formed h m stack -> maintains h m Always Active Leaving -> unfailing h m Always Active Leaving ->
    initialized sm = false -> Always (sm_shared sm) ->
    Forall (careful h m Always Active Leaving) ops ->
    history stack md ops sm cs sm' -> completed cs.
Proof.
  intros h m stack md Always Active Leaving ops sm cs sm' W MT UF I A C H.
  assert (R : ActiveProofs.at_rest h Always Active Leaving sm).
  { unfold ActiveProofs.at_rest. rewrite I. split; [exact A|]. split; intros p []. }
  exact (proj2 (@ActiveProofs.history_leads h m stack W Always Active Leaving MT md ops sm cs sm' H C R) UF).
Qed.
Print Assumptions C77_unfailing.

(** A lamp.  The superstate switches the power; `led_on` needs power to light up, and its
    handler puts out the light before it asks for the transition. *)
Inductive lamp_state := LedOn | LedOff | Standby.
Inductive lamp_super := Powered.
Inductive lamp_event := Tick | Plug | Glitch.
Record lamp_storage := LampStorage { power : bool; led : bool; ticks : nat }.

Definition lamp (glitchy : bool) : machine := {|
  State := lamp_state; Sup := lamp_super; Shared := lamp_storage; Event := lamp_event; Ctx := unit;
  initial := LedOn;
  s_disc := fun x => match x with LedOn => 0 | LedOff => 1 | Standby => 2 end;
  u_disc := fun _ => 0;
  s_super := fun x => match x with Standby => None | _ => Some Powered end;
  s_put := fun x _ => x; u_super := fun _ => None; u_put := fun u _ => u;
  s_handler := fun x sh cx e =>
    match x, e with
    | LedOn, Tick => (Returns (Transition LedOff), x, LampStorage (power sh) false (S (ticks sh)), cx)
    | LedOff, Tick => (Returns (Transition LedOn), x, LampStorage (power sh) (led sh) (S (ticks sh)), cx)
    | LedOn, Glitch => (if glitchy then Panics else Returns Handled,
                        x, if glitchy then LampStorage (power sh) false (ticks sh) else sh, cx)
    | Standby, Plug => (Returns (Transition LedOff), x, sh, cx)
    | _, _ => (Returns Super, x, sh, cx)
    end;
  s_entry := fun x sh cx =>
    match x with
    | LedOn => if power sh then (Returns tt, x, LampStorage true true (ticks sh), cx)
               else (Panics, x, sh, cx)
    | LedOff => (Returns tt, x, LampStorage (power sh) false (ticks sh), cx)
    | Standby => (Returns tt, x, LampStorage (power sh) false (ticks sh), cx)
    end;
  s_exit := fun x sh cx => (Returns tt, x, sh, cx);
  u_handler := fun u sh cx e =>
    match e with Plug => (Returns (Transition Standby), u, sh, cx) | _ => (Returns Handled, u, sh, cx) end;
  u_entry := fun u sh cx => (Returns tt, u, LampStorage true false (ticks sh), cx);
  u_exit := fun u sh cx => (Returns tt, u, LampStorage false false (ticks sh), cx);
  h_before_dispatch := fun sh _ _ => (Returns tt, sh); h_after_dispatch := fun sh _ _ => (Returns tt, sh);
  h_before_transition := fun sh _ _ => (Returns tt, sh); h_after_transition := fun sh _ _ => (Returns tt, sh)
|}.
Definition lamp_tree : hierarchy := {|
  leaf_parent := fun s => match s with 0 => Some 0 | 1 => Some 0 | _ => None end;
  sup_parent := fun _ => None
|}.
Definition lamp_active (p : place) (sh : lamp_storage) : Prop :=
  match p with
  | AtSuper _ => power sh = true
  | AtState 0 => led sh = true
  | AtState _ => led sh = false
  end.

Lemma lamp_well_formed b : well_formed lamp_tree (lamp b) 1.
Proof.
  constructor.
  - constructor; try reflexivity; intros []; reflexivity.
  - constructor; cbn; intros; repeat match goal with x : lamp_state |- _ => destruct x | e : lamp_event |- _ => destruct e
      | H : context [if ?c then _ else _] |- _ => destruct c end; congruence.
  - intros u. exists [u]. split; [constructor; constructor|cbn; lia].
Qed.
Lemma chain_lamp l : chain lamp_tree (Some 0) l -> l = [0].
Proof. intros H. inversion H as [|? ? H1]; subst. inversion H1. reflexivity. Qed.
Lemma lamp_upward s ps : upward lamp_tree s ps ->
  ps = AtState s :: match s with 0 | 1 => [AtSuper 0] | _ => [] end.
Proof.
  intros (l & Hc & ->). f_equal. destruct s as [|[|s]]; cbn in Hc.
  - now rewrite (chain_lamp _ Hc).
  - now rewrite (chain_lamp _ Hc).
  - inversion Hc. reflexivity.
Qed.
Lemma lamp_kept s t left kept p : parts lamp_tree s t left kept -> In p kept -> p = AtSuper 0.
Proof.
  intros [U [[-> ->]|[N (entered & U' & D)]]] J.
  - apply lamp_upward in U. cbn in U. injection U as ->. destruct t as [|[|t]]; cbn in J; intuition congruence.
  - apply lamp_upward in U. apply lamp_upward in U'.
    assert (J1 : In p (left ++ kept)) by (apply in_or_app; now right).
    assert (J2 : In p (entered ++ kept)) by (apply in_or_app; now right).
    rewrite U in J1. rewrite U' in J2.
    destruct s as [|[|s]], t as [|[|t]]; cbn in *; intuition congruence.
Qed.
Lemma lamp_maintains b : maintains lamp_tree (lamp b) (fun _ => True) lamp_active (fun _ _ => True).
Proof.
  intros o a c c' sh cx sh' S (_ & _ & K) E. split; [exact I|]. split; [intros; exact I|].
  inversion S; subst; clear S; cbn [fst snd] in *.
  - (* entering *)
    destruct n as [x|u]; cbn in H.
    + apply lamp_upward in H. injection H as ->. destruct x; cbn in E.
      * specialize (K (AtSuper 0) (or_introl eq_refl)). cbn in K. rewrite K in E. injection E as <-.
        intros p [<-|[<-|[]]]; reflexivity.
      * injection E as <-. intros p [<-|[<-|[]]]; [reflexivity|]. exact (K (AtSuper 0) (or_introl eq_refl)).
      * injection E as <-. intros p [<-|[]]; reflexivity.
    + destruct H as (l & Hc & H). apply chain_lamp in Hc. subst l. injection H as ->. destruct u. injection E as <-.
      intros p [<-|[]]. reflexivity.
  - (* leaving *)
    destruct n as [x|u]; cbn in *.
    + injection E as <-. exact K.
    + destruct H as (l & Hc & H). apply chain_lamp in Hc. subst l. injection H as H.
      apply app_eq_nil in H; destruct H as [-> ->]. intros p [].
  - (* a handler that stays *)
    destruct n as [x|u].
    + pose proof (lamp_upward _ _ H) as ->.
      destruct x, e; cbn in E; try (injection E as <- <-; exact K); try (injection E as <- _; now destruct (H1 _ eq_refl)).
      destruct b; [discriminate|]. injection E as <- <-. exact K.
    + destruct e; cbn in E; injection E as <- <-; exact K.
  - (* a handler that asks for a transition *)
    intros p J. pose proof (lamp_kept _ _ _ _ _ H0 J) as ->.
    specialize (K (AtSuper 0) (in_or_app _ _ _ (or_intror J))). cbn in K.
    destruct n as [x|u].
    + destruct x, e; cbn in E; try discriminate; try (injection E as <- <-; exact K).
      destruct b; discriminate.
    + destruct e; cbn in E; try discriminate; injection E as <- <-; exact K.
  - injection E as <-. exact K.
  - injection E as <-. exact K.
  - injection E as <-. exact K.
  - injection E as <-. exact K.
Qed.
Lemma lamp_unfailing : unfailing lamp_tree (lamp false) (fun _ => True) lamp_active (fun _ _ => True).
Proof.
  intros o a c c' sh cx S (_ & _ & K). inversion S; subst; clear S; cbn [fst snd] in *; try (eexists; reflexivity).
  - destruct n as [x|u]; [|eexists; reflexivity]. cbn in H. apply lamp_upward in H. injection H as ->.
    destruct x; try (eexists; reflexivity).
    specialize (K (AtSuper 0) (or_introl eq_refl)). cbn in K. cbn. rewrite K. eexists; reflexivity.
  - destruct n as [x|u]; eexists; reflexivity.
  - destruct n as [[]|u], e; eexists; reflexivity.
  - destruct n as [[]|u], e; eexists; reflexivity.
Qed.

(** Whatever happens, the light is on exactly in `led_on`, there is power in `powered`, and the
    panic in the entry action of `led_on` is never reached. *)
Example C77_case :
  forall (md : mode) (ops : list (op (lamp false))) (cs : list (called (lamp false))) (sm' : state_machine (lamp false)),
    Forall (fun o => match o with OpInit _ | OpHandle _ _ => True | _ => False end) ops ->
    history 1 md ops (@new_state_machine (lamp false) (LampStorage false false 0)) cs sm' ->
    completed cs /\
    (initialized sm' = true ->
     (led (sm_shared sm') = true <-> sm_state sm' = LedOn) /\
     (sm_state sm' <> Standby -> power (sm_shared sm') = true)).
Proof.
  intros md ops cs sm' F H.
  assert (C : Forall (careful lamp_tree (lamp false) (fun _ => True) lamp_active (fun _ _ => True)) ops).
  { eapply Forall_impl; [|exact F]. intros [] G; cbn in *; tauto. }
  assert (D : completed cs).
  { eapply C77_unfailing; [exact (lamp_well_formed false)|exact (lamp_maintains false)|exact lamp_unfailing| | |exact C|exact H];
      [reflexivity|exact I]. }
  split; [exact D|]. intros J.
  assert (A : forall p q, path lamp_tree (s_disc (lamp false) (sm_state sm')) p -> In q p -> lamp_active q (sm_shared sm')).
  { refine (proj2 (C77_while_active _ _ _ _ _ _ _ _ _ _ _ (lamp_well_formed false) (lamp_maintains false) _ _ C H D) J);
      [reflexivity|exact I]. }
  set (x := sm_state sm' : lamp_state) in *.
  assert (P : path lamp_tree (s_disc (lamp false) x)
              (match x with Standby => [AtState 2] | LedOn => [AtSuper 0; AtState 0] | LedOff => [AtSuper 0; AtState 1] end)).
  { destruct x; [exists [0]|exists [0]|exists []]; (split; [repeat constructor|reflexivity]). }
  specialize (A _ (AtState (s_disc (lamp false) x)) P) as A1. specialize (A _ (AtSuper 0) P) as A2. cbn in A1, A2.
  destruct x; cbn in A1, A2.
  - rewrite A1 by auto. split; [tauto|]. intros _. now apply A2; auto.
  - rewrite A1 by auto. split; [split; discriminate|]. intros _. apply A2. now left.
  - rewrite A1 by auto. split; [split; discriminate|tauto].
Qed.

(** Without that the calls are completed, it does not hold: a handler that panics half way may
    leave the light out although the machine stays in `led_on`. *)
Theorem C77_completed_needed :
  exists cs sm',
    history 1 BlockingMode [OpInit (m := lamp true) tt; OpHandle (m := lamp true) Glitch tt]
      (@new_state_machine (lamp true) (LampStorage false false 0)) cs sm' /\
    maintains lamp_tree (lamp true) (fun _ => True) lamp_active (fun _ _ => True) /\
    initialized sm' = true /\ sm_state sm' = LedOn /\ ~ lamp_active (AtState 0) (sm_shared sm').
Proof.
  do 2 eexists. split.
  - econstructor; [reflexivity|]. econstructor; [reflexivity|]. constructor.
  - split; [apply lamp_maintains|]. repeat split. discriminate.
Qed.
Print Assumptions C77_completed_needed.
