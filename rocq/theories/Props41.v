(** Props41.v — C92: goals that events lead to.  Theorems only; see ProgressSpec.v. *)

From Coq Require Import String List Bool Arith Lia.
From Verif Require Import MacroSyntax MacroLower MacroGen MacroSem MacroSpec.
From Verif Require Import Machine Api Spec ProgressSpec.
From Verif Require ProgressProofs Props7.
Import ListNotations.
Open Scope string_scope.
Open Scope list_scope.

(** C92.  If the handlers of a leaf and of the superstates around it are such that the event leads to
    [G], then a call of `handle` that returns has brought the machine to [G].  One that does not return
    has brought it to [G] or left it where it was. *)
Theorem C92_step :
  forall (h : hierarchy) (m : machine) (stack : nat) (md : mode) (sm : state_machine m) (e : Event m)
         (cx : Ctx m) (G : nat -> Prop),
    well_formed h m stack -> faithful_views m ->
    leads_to h m (s_disc m (sm_state sm)) e G ->
    let r := handle_with_context stack md sm e cx in
    let s' := s_disc m (sm_state (a_machine r)) in
    G s' \/ (a_out r <> Ret tt /\ s' = s_disc m (sm_state sm)).
Proof.
  intros h m stack md sm e cx G W V L. exact (ProgressProofs.leads h m stack md W V sm e cx G L).
Qed.
Print Assumptions C92_step.

(** So a goal is reached if every event, in every leaf outside it, leads to the goal or to a leaf of
    smaller rank: after at most as many completed calls as the rank of the first leaf, and one, whatever
    else happens in between: calls that are aborted, calls of `init`, changes through `inner_mut`, and
    changes through `state_mut` that keep the leaf. *)
Theorem C92_reached :
  forall (h : hierarchy) (m : machine) (stack : nat) (md : mode) (E : Event m -> Prop)
         (goal : nat -> bool) (rank : nat -> nat),
    well_formed h m stack -> faithful_views m ->
    (forall s e, goal s = false -> E e -> leads_to h m s e (fun t => goal t = true \/ rank t < rank s)) ->
    forall (ops : list (op m)) (sm : state_machine m) (cs : list (called m)) (sm' : state_machine m),
      Forall (@calm m) ops -> Forall (event_in m E) ops -> history stack md ops sm cs sm' ->
      rank (s_disc m (sm_state sm)) < handled m ops cs ->
      exists ops1 ops2 cs1 cs2 sm1,
        ops = ops1 ++ ops2 /\ cs = cs1 ++ cs2 /\
        history stack md ops1 sm cs1 sm1 /\ history stack md ops2 sm1 cs2 sm' /\
        goal (s_disc m (sm_state sm1)) = true /\
        handled m ops1 cs1 <= S (rank (s_disc m (sm_state sm))).
Proof.
  intros h m stack md E goal rank W V T ops sm cs sm' C EI H L.
  exact (ProgressProofs.reached h m stack md W V E goal rank T ops sm cs sm' C EI H L).
Qed.
Print Assumptions C92_reached.

(** If moreover no event leads out of the goal, the machine is there at the end. *)
Theorem C92_stays :
  forall (h : hierarchy) (m : machine) (stack : nat) (md : mode) (E : Event m -> Prop)
         (goal : nat -> bool) (rank : nat -> nat),
    well_formed h m stack -> faithful_views m ->
    (forall s e, goal s = false -> E e -> leads_to h m s e (fun t => goal t = true \/ rank t < rank s)) ->
    (forall s e, goal s = true -> E e -> leads_only_to h m s e (fun t => goal t = true)) ->
    forall (ops : list (op m)) (sm : state_machine m) (cs : list (called m)) (sm' : state_machine m),
      Forall (@calm m) ops -> Forall (event_in m E) ops -> history stack md ops sm cs sm' ->
      rank (s_disc m (sm_state sm)) < handled m ops cs ->
      goal (s_disc m (sm_state sm')) = true.
Proof.
  intros h m stack md E goal rank W V T S ops sm cs sm' C EI H L.
  destruct (C92_reached h m stack md E goal rank W V T ops sm cs sm' C EI H L)
    as (ops1 & ops2 & cs1 & cs2 & sm1 & -> & -> & _ & H2 & G & _).
  apply Forall_app in C as [_ C2]. apply Forall_app in EI as [_ E2].
  exact (ProgressProofs.kept h m stack md W V E goal S ops2 sm1 cs2 sm' C2 E2 H2 G).
Qed.
Print Assumptions C92_stays.

(** Machines that the macro generates. *)
Theorem C92_generated :
  forall (o : orders) (args : list meta) (item : item_impl) (g : generated)
         (Val Sh Ev Cx : Type) (B : bodies Val Sh Ev Cx g) (stack : nat),
    expand o args item = Done g -> compiles g -> acyclic item ->
    1 <= stack -> length (filter (marked "superstate") (methods item)) <= stack ->
    exists h, well_formed h (generated_machine B) stack /\
      forall (md : mode) (E : Ev -> Prop) (goal : nat -> bool) (rank : nat -> nat),
        (forall s e, goal s = false -> E e ->
           leads_to h (generated_machine B) s e (fun t => goal t = true \/ rank t < rank s)) ->
        (forall s e, goal s = true -> E e ->
           leads_only_to h (generated_machine B) s e (fun t => goal t = true)) ->
        forall (ops : list (op (generated_machine B))) (sm : state_machine (generated_machine B)) cs sm',
          Forall (@calm (generated_machine B)) ops -> Forall (event_in (generated_machine B) E) ops ->
          history stack md ops sm cs sm' ->
          rank (s_disc _ (sm_state sm)) < handled _ ops cs ->
          goal (s_disc _ (sm_state sm')) = true.
Proof.
  intros o args item g Val Sh Ev Cx B stack E CO AC S1 S2.
  destruct (Props7.C31_well_formed o args item g Val Sh Ev Cx B stack E CO AC S1 S2) as (h & W & V).
  exists h. split; [exact W|]. intros md Ev' goal rank T S ops sm cs sm' C EI H L.
  exact (C92_stays h (generated_machine B) stack md Ev' goal rank W V T S ops sm cs sm' C EI H L).
Qed.
Print Assumptions C92_generated.

(** Leaves 0, 1, 2, ..., of which all but 0 are in one superstate.  On the event [true], leaf 0 does
    nothing, odd leaves go one down, even ones leave it to the superstate, and that goes to leaf 1.  If
    the context is [true], the leaf panics. *)
Definition ladder : machine := {|
  State := nat; Sup := unit; Shared := unit; Event := bool; Ctx := bool; initial := 6;
  s_disc := fun n => n; u_disc := fun _ => 0;
  s_super := fun n => match n with 0 => None | S _ => Some tt end; s_put := fun n _ => n;
  u_super := fun _ => None; u_put := fun u _ => u;
  s_handler := fun n sh cx (e : bool) =>
    (if cx then Panics
     else Returns (match n with
                   | 0 => Handled
                   | S k => if e then if Nat.odd n then Transition k else Super else Handled
                   end), n, sh, cx);
  s_entry := no_action; s_exit := no_action;
  u_handler := fun u sh cx (e : bool) => (Returns (if e then Transition 1 else Handled), u, sh, cx);
  u_entry := no_action; u_exit := no_action;
  h_before_dispatch := no_dispatch_hook; h_after_dispatch := no_dispatch_hook;
  h_before_transition := no_transition_hook; h_after_transition := no_transition_hook
|}.
Definition ladder_hierarchy : hierarchy :=
  {| leaf_parent := fun n => match n with 0 => None | S _ => Some 0 end; sup_parent := fun _ => None |}.

Lemma ladder_leads s : s <> 0 ->
  leads_to ladder_hierarchy ladder s true (fun t => Nat.eqb t 0 = true \/ t < s).
Proof.
  intros N. destruct s as [|k]; [easy|]. clear N.
  assert (U : upward ladder_hierarchy (S k) [AtState (S k); AtSuper 0]) by (exists [0]; split; [repeat constructor|reflexivity]).
  assert (LF : forall r, can_answer ladder (AtState (S k)) true r ->
               (Nat.odd (S k) = true /\ r = Transition (k : State ladder)) \/ (Nat.odd (S k) = false /\ r = Super)).
  { intros r (n & sh & cx & n' & sh' & cx' & P & A). destruct n as [x|u]; cbn in P; [|discriminate].
    injection P as ->. destruct cx; cbn in A; [discriminate|].
    change (if match k with 0 => false | S n' => Nat.even n' end then false else true) with (Nat.odd (S k)) in *.
    destruct (Nat.odd (S k)) eqn:O; unfold Nat.odd in O; cbn in O;
      (destruct (match k with 0 => false | S n' => Nat.even n' end); try discriminate; injection A as <- _ _ _; auto). }
  assert (KK : Nat.eqb k 0 = true \/ k < S k) by (right; lia).
  destruct (Nat.odd (S k)) eqn:O.
  - exists [], (AtState (S k)), [AtSuper 0]. split; [exact U|]. split.
    + intros q r [<-|[]] A. destruct (LF r A) as [[_ ->]|[B _]]; [|discriminate].
      right. exists (k : State ladder). auto.
    + intros A. destruct (LF _ A) as [[_ B]|[B _]]; discriminate.
  - assert (K1 : 1 <= k) by (destruct k; [discriminate|lia]).
    assert (SF : forall r, can_answer ladder (AtSuper 0) true r -> r = Transition (1 : State ladder)).
    { intros r (n & sh & cx & n' & sh' & cx' & P & A). destruct n as [x|u]; cbn in P; [discriminate|].
      cbn in A. now injection A as <- _ _ _. }
    exists [AtState (S k)], (AtSuper 0), []. split; [exact U|]. split.
    + intros q r [<-|[<-|[]]] A.
      * destruct (LF r A) as [[B _]|[_ ->]]; [discriminate|now left].
      * rewrite (SF r A). right. exists (1 : State ladder). split; [reflexivity|right]. cbn. lia.
    + intros A. discriminate (SF _ A).
Qed.

(** From leaf 6, of rank 6, leaf 0 is reached and kept; calls that panic, and `init`, do not count. *)
Example C92_case :
  well_formed ladder_hierarchy ladder 1 /\ faithful_views ladder /\
  (forall s e, Nat.eqb s 0 = false -> e = true ->
     leads_to ladder_hierarchy ladder s e (fun t => Nat.eqb t 0 = true \/ t < s)) /\
  (forall s e, Nat.eqb s 0 = true -> e = true ->
     leads_only_to ladder_hierarchy ladder s e (fun t => Nat.eqb t 0 = true)) /\
  let step (fail : bool) := OpHandle (m := ladder) true fail in
  let ops := [step true; OpInit (m := ladder) true; step false; step true;
              step false; step false; step false; step false; step false; step false] in
  let r := exec_all 1 BlockingMode ops (new_state_machine ladder tt) in
  handled ladder ops (fst r) = 7 /\ sm_state (snd r) = 0 /\
  map (@c_out ladder) (firstn 4 (fst r)) = [Abort Panicked; Ret tt; Ret tt; Abort Panicked].
Proof.
  split; [|split; [|split; [|split]]].
  - split.
    + split; cbn; try reflexivity. now intros [|n].
    + split; intros; cbn in *; unfold no_action in *; congruence.
    + intros u. exists [u]. split; [repeat constructor|auto].
  - split; cbn; intros; try congruence.
    + destruct v', v. assumption.
  - intros s e G ->. apply ladder_leads. now intros ->.
  - intros s e G -> up q t (l & C & ->) I A. apply Nat.eqb_eq in G. subst s. inversion C; subst.
    destruct I as [<-|[]]. destruct A as (n & sh & cx & n' & sh' & cx' & P & A). destruct n as [x|u]; [|discriminate].
    cbn in P. injection P as ->. destruct cx; discriminate.
  - vm_compute. auto.
Qed.
