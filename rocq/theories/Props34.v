(** Props34.v — C85: what aborted calls do to the balance of entries and exits.  Theorems only;
    see BalanceSpec.v. *)

From Coq Require Import List Bool Arith Lia.
From Verif Require Import Machine Api Spec BalanceSpec Examples.
From Verif Require HistoryProofs BalanceProofs RouteProofs ShapeProofs.
Import ListNotations.

(** C85.  Take any history, in either mode, in which callbacks may panic and futures may be
    dropped anywhere, as often as they like.  Then for every node [p] of the hierarchy: the
    machine may have exited [p] more often than its entries and its being active account for, but
    at most once for each transition that was aborted in an action; and it may have entered it
    more often, but at most once for each initialisation that was aborted in an action.
    ([stk]: the nodes that are active now, each once.) *)
Theorem C85_balance :
  forall (h : hierarchy) (m : machine) (stack : nat) (md : mode) (ops : list (op m))
         (sm : state_machine m) (cs : list (called m)) (sm' : state_machine m),
    well_formed h m stack -> initialized sm = false -> history stack md ops sm cs sm' ->
    Forall (@calm m) ops ->
    exists stk,
      (if initialized sm' then path h (s_disc m (sm_state sm')) stk else stk = []) /\ NoDup stk /\
      forall p,
        exits p (acts (log_of cs)) + times p stk <= entries p (acts (log_of cs)) + broken_transitions cs /\
        entries p (acts (log_of cs)) <= exits p (acts (log_of cs)) + times p stk + broken_inits cs.
Proof.
  intros h m stack md ops sm cs sm' W I H K.
  destruct (@BalanceProofs.history_fair h m stack W md ops sm cs sm' [] H K) as (stk & S & C).
  { unfold HistoryProofs.stack_of. now rewrite I. }
  exists stk. split; [exact S|]. split.
  - unfold HistoryProofs.stack_of in S. destruct (initialized sm'); [exact (RouteProofs.path_NoDup S)|subst; constructor].
  - intros p. specialize (C p). cbn [times filter length] in C. change (times p []) with 0 in C. lia.
Qed.
Print Assumptions C85_balance.

(** Only aborts in actions matter: if there are none, every node has been entered as often as it
    was exited, and once more if it is active. *)
Theorem C85_exact :
  forall (h : hierarchy) (m : machine) (stack : nat) (md : mode) (ops : list (op m))
         (sm : state_machine m) (cs : list (called m)) (sm' : state_machine m),
    well_formed h m stack -> initialized sm = false -> history stack md ops sm cs sm' ->
    Forall (@calm m) ops -> Forall (fun c => ~ aborted_in_action c) cs ->
    exists stk,
      (if initialized sm' then path h (s_disc m (sm_state sm')) stk else stk = []) /\
      forall p, entries p (acts (log_of cs)) = exits p (acts (log_of cs)) + times p stk.
Proof.
  intros h m stack md ops sm cs sm' W I H K N.
  destruct (C85_balance h m stack md ops sm cs sm' W I H K) as (stk & S & _ & C).
  assert (B : forall c, In c cs -> broken c = false).
  { intros c J. rewrite Forall_forall in N. specialize (N c J). unfold aborted_in_action in N. unfold broken.
    destruct (c_out c) as [|w]; [reflexivity|]. destruct (rev (c_tr c)) as [|o l] eqn:E; [reflexivity|].
    assert (E' : c_tr c = rev l ++ [o]) by (rewrite <- (rev_involutive (c_tr c)), E; reflexivity).
    destruct o; try reflexivity; destruct N; (split; [discriminate|]); eexists _, _; (split; [exact E'|exact Logic.I]). }
  assert (Z : broken_transitions cs = 0 /\ broken_inits cs = 0).
  { clear - B. unfold broken_transitions, broken_inits. induction cs as [|c cs IH]; [auto|]. cbn [filter].
    rewrite (B c (or_introl eq_refl)). cbn [andb]. apply IH. intros c' J. apply B. now right. }
  exists stk. split; [exact S|]. intros p. specialize (C p). lia.
Qed.
Print Assumptions C85_exact.

(** Both bounds are reached, for any number of aborts: a machine of one state that answers every
    event with a transition to itself, and whose exit action panics (and whose entry action does
    if the context says so). *)
Definition jammed : machine := {|
  State := unit; Sup := Empty_set; Shared := unit; Event := unit; Ctx := bool; initial := tt;
  s_disc := fun _ => 0; u_disc := fun _ => 0;
  s_super := fun _ => None; s_put := fun x _ => x; u_super := fun _ => None; u_put := fun u _ => u;
  s_handler := fun x sh cx _ => (Returns (Transition tt), x, sh, cx);
  s_entry := fun x sh cx => (if cx then Panics else Returns tt, x, sh, cx);
  s_exit := fun x sh cx => (Panics, x, sh, cx);
  u_handler := fun u sh cx _ => (Returns Super, u, sh, cx);
  u_entry := no_action; u_exit := no_action;
  h_before_dispatch := no_dispatch_hook; h_after_dispatch := no_dispatch_hook;
  h_before_transition := no_transition_hook; h_after_transition := no_transition_hook |}.
Definition no_tree : hierarchy := {| leaf_parent := fun _ => None; sup_parent := fun _ => None |}.
Lemma jammed_well_formed : well_formed no_tree jammed 1.
Proof.
  constructor.
  - constructor; try reflexivity; intros [].
  - constructor; intros *; cbn; unfold no_action; intros H; injection H; intros; subst; reflexivity.
  - intros u. exists [u]. split; [repeat constructor|cbn; lia].
Qed.
Definition still (n : nat) : state_machine jammed := StateMachine (m := jammed) (Inner (m := jammed) tt tt) (Nat.ltb 0 n).
Lemma again (md : mode) (o : op jammed) sm out cx tr (n : nat) :
  exec 1 md o sm = (out, sm, cx, tr) -> history 1 md (repeat o n) sm (repeat (Called out cx tr) n) sm.
Proof. intros E. induction n as [|n IH]; cbn [repeat]; [constructor|]. econstructor; [exact E|exact IH]. Qed.
Lemma counts (c : called jammed) (p : place) (n : nat) :
  entries p (acts (log_of (repeat c n))) = n * entries p (acts (c_tr c)) /\
  exits p (acts (log_of (repeat c n))) = n * exits p (acts (c_tr c)) /\
  broken_transitions (repeat c n) = n * broken_transitions [c] /\ broken_inits (repeat c n) = n * broken_inits [c].
Proof.
  induction n as [|n IH]; [repeat split; reflexivity|]. cbn [repeat].
  change (log_of (c :: repeat c n)) with (c_tr c ++ log_of (repeat c n)).
  rewrite ShapeProofs.acts_app, BalanceProofs.entries_app, BalanceProofs.exits_app.
  destruct IH as (I1 & I2 & I3 & I4). rewrite I1, I2.
  split; [reflexivity|]. split; [reflexivity|]. unfold broken_transitions, broken_inits in *. cbn [filter] in *.
  destruct (broken c), (moving c); cbn [andb negb length] in *; lia.
Qed.
Theorem C85_reached :
  forall (md : mode) (n : nat) (p : place), p = AtState 0 ->
    (exists ops cs sm', history 1 md ops (@new_state_machine jammed tt) cs sm' /\ Forall (@calm jammed) ops /\
       initialized sm' = true /\ broken_transitions cs = n /\ broken_inits cs = 0 /\
       entries p (acts (log_of cs)) = 1 /\ exits p (acts (log_of cs)) = n) /\
    (exists ops cs sm', history 1 md ops (@new_state_machine jammed tt) cs sm' /\ Forall (@calm jammed) ops /\
       initialized sm' = false /\ broken_transitions cs = 0 /\ broken_inits cs = n /\
       entries p (acts (log_of cs)) = n /\ exits p (acts (log_of cs)) = 0).
Proof.
  intros md n p ->. split.
  - destruct (exec 1 md (OpInit (m := jammed) false) (still 0)) as [[[o1 s1] x1] t1] eqn:E1.
    destruct (exec 1 md (OpHandle (m := jammed) tt false) (still 1)) as [[[o2 s2] x2] t2] eqn:E2.
    assert (S : s1 = still 1 /\ s2 = still 1 /\ broken (Called (m := jammed) o1 x1 t1) = false /\
                acts t1 = [Enter (AtState 0)] /\ acts t2 = [Exit (AtState 0)] /\
                broken (Called (m := jammed) o2 x2 t2) = true /\ moving (Called (m := jammed) o2 x2 t2) = true).
    { destruct md; vm_compute in E1, E2; injection E1 as <- <- <- <-; injection E2 as <- <- <- <-; repeat split; vm_compute; reflexivity. }
    destruct S as (-> & -> & B1 & A1 & A2 & B2 & M2).
    exists (OpInit (m := jammed) false :: repeat (OpHandle (m := jammed) tt false) n),
      (Called o1 x1 t1 :: repeat (Called o2 x2 t2) n), (still 1).
    split; [econstructor; [exact E1|apply again; exact E2]|].
    split; [constructor; [exact Logic.I|]; apply Forall_forall; intros o J; apply repeat_spec in J; subst; exact Logic.I|].
    split; [reflexivity|].
    destruct (counts (Called o2 x2 t2) (AtState 0) n) as (C1 & C2 & C3 & C4). cbn [c_tr] in C1, C2. rewrite A2 in C1, C2.
    change (log_of (Called o1 x1 t1 :: repeat (Called o2 x2 t2) n)) with (t1 ++ log_of (repeat (Called o2 x2 t2) n)).
    rewrite ShapeProofs.acts_app, BalanceProofs.entries_app, BalanceProofs.exits_app, A1, C1, C2.
    unfold broken_transitions, broken_inits in *. cbn [filter] in *. rewrite B2, M2 in C3, C4. rewrite B1. cbn [andb negb filter length] in *.
    rewrite C3, C4. vm_compute entries. vm_compute exits. lia.
  - destruct (exec 1 md (OpInit (m := jammed) true) (still 0)) as [[[o1 s1] x1] t1] eqn:E1.
    assert (S : s1 = still 0 /\ acts t1 = [Enter (AtState 0)] /\
                broken (Called (m := jammed) o1 x1 t1) = true /\ moving (Called (m := jammed) o1 x1 t1) = false).
    { destruct md; vm_compute in E1; injection E1 as <- <- <- <-; repeat split; vm_compute; reflexivity. }
    destruct S as (-> & A1 & B1 & M1).
    exists (repeat (OpInit (m := jammed) true) n), (repeat (Called o1 x1 t1) n), (still 0).
    split; [apply again; exact E1|].
    split; [apply Forall_forall; intros o J; apply repeat_spec in J; subst; exact Logic.I|].
    split; [reflexivity|].
    destruct (counts (Called o1 x1 t1) (AtState 0) n) as (C1 & C2 & C3 & C4). cbn [c_tr] in C1, C2. rewrite A1 in C1, C2.
    rewrite C1, C2, C3, C4. unfold broken_transitions, broken_inits. cbn [filter]. rewrite B1, M1. cbn [andb negb length].
    vm_compute entries. vm_compute exits. lia.
Qed.
Print Assumptions C85_reached.

(** The demo machine: the exit action of `Blinking` panics once (context 13 at the transition),
    then the transition is made; `On` and `Blinking` were exited once more than entered, `Powered`
    is still active. *)
Example C85_case :
  well_formed demo_hierarchy (demo true) 2 /\
  let r := exec_all 2 BlockingMode
             [OpInit (m := demo true) 0; OpHandle (m := demo true) Button 12; OpHandle (m := demo true) Button 0]
             (@new_state_machine (demo true) []) in
  map c_out (fst r) = [Ret tt; Abort Panicked; Ret tt] /\
  broken_transitions (fst r) = 1 /\ broken_inits (fst r) = 0 /\ sm_state (snd r) = Idle 1 /\
  map (fun p => (entries p (acts (log_of (fst r))), exits p (acts (log_of (fst r))))) [AtState 0; AtSuper 0; AtSuper 1; AtState 2]
    = [(1, 2); (1, 2); (1, 0); (1, 0)].
Proof. split; [apply demo_well_formed|]. cbv zeta. repeat split; vm_compute; reflexivity. Qed.
