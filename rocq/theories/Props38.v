(** Props38.v — C89: machines that use machines.  Theorems only; see NestSpec.v. *)

From Coq Require Import List Bool Arith.
From Verif Require Import Machine Api Spec NestSpec Examples.
From Verif Require NestProofs Props2.
Import ListNotations.

(** C89.  If every callback, alone, moves the shared storage and the context along a preorder, then
    every call of the machine does, also a call that is aborted; this asks nothing else of the
    machine. *)
Theorem C89_calls_move :
  forall (m : machine) (R : Shared m * Ctx m -> Shared m * Ctx m -> Prop),
    (forall p, R p p) -> (forall p q r, R p q -> R q r -> R p r) -> callbacks_move m R ->
    forall (stack : nat) (md : mode) (sm : state_machine m) (cx : Ctx m),
      (let r := init_with_context stack md sm cx in R (sm_shared sm, cx) (sm_shared (a_machine r), a_cx r)) /\
      (forall e, let r := handle_with_context stack md sm e cx in
                 R (sm_shared sm, cx) (sm_shared (a_machine r), a_cx r)).
Proof.
  intros m R R1 R2 M stack md sm cx. split.
  - exact (@NestProofs.init_moves m stack R R1 R2 M md sm cx).
  - intros e. exact (@NestProofs.handle_moves m stack R R1 R2 M md sm e cx).
Qed.
Print Assumptions C89_calls_move.

(** A machine [i] in the shared storage of a machine [m], in any two modes: if each callback of [m],
    alone, uses it only through its API, then all that happens to it during any history of [m] —
    panics and cancellations of [m] included — is one history of [i]. *)
Theorem C89_nested :
  forall (m i : machine) (stack stack' : nat) (md md' : mode)
         (get : Shared m -> state_machine i * list (called i)) (fine : op i -> called i -> Prop),
    callbacks_move m (fun p q => only_uses m stack' md' get fine (fst p) (fst q)) ->
    forall (ops : list (op m)) (sm sm' : state_machine m) (cs : list (called m)),
      Forall (only_uses_op m stack' md' get fine) ops ->
      history stack md ops sm cs sm' ->
      only_uses m stack' md' get fine (sm_shared sm) (sm_shared sm').
Proof.
  intros m i stack stack' md md' get fine M ops sm sm' cs Ho H.
  refine (@NestProofs.history_moves m stack md _ _ _ M ops sm cs sm' _ H).
  - apply NestProofs.uses_refl.
  - apply NestProofs.uses_trans.
  - refine (Forall_impl _ _ Ho). intros o Hf f -> sh. exact (Hf sh).
Qed.
Print Assumptions C89_nested.

(** For example: entry and exit actions of [i] are bracketed (C07), whatever becomes of the calls of
    [m], as long as the calls of [i] complete. *)
Theorem C89_bracketed :
  forall (h : hierarchy) (m i : machine) (stack stack' : nat) (md md' : mode)
         (get : Shared m -> state_machine i * list (called i)),
    let fine := fun (o : op i) (c : called i) => calm o /\ c_out c = Ret tt in
    well_formed h i stack' ->
    callbacks_move m (fun p q => only_uses m stack' md' get fine (fst p) (fst q)) ->
    forall (ops : list (op m)) (sm sm' : state_machine m) (cs : list (called m)),
      Forall (only_uses_op m stack' md' get fine) ops ->
      initialized (fst (get (sm_shared sm))) = false -> snd (get (sm_shared sm)) = [] ->
      history stack md ops sm cs sm' ->
      let '(now, record) := get (sm_shared sm') in
      exists stk,
        (if initialized now then path h (s_disc i (sm_state now)) stk else stk = []) /\
        replay [] (acts (log_of record)) stk.
Proof.
  intros h m i stack stack' md md' get fine W M ops sm sm' cs Ho I0 R0 H.
  destruct (C89_nested m i stack stack' md md' get fine M ops sm sm' cs Ho H) as (ops' & cs' & H' & E & F).
  destruct (get (sm_shared sm')) as [now record]. cbn [fst snd] in *. rewrite R0 in E. cbn in E. subst record.
  refine (Props2.C07_bracketed h i stack' md' ops' _ cs' now W I0 H' _ _).
  - clear H'. induction F as [|o c os cs0 [A _] _ IH]; constructor; assumption.
  - clear H'. unfold completed. induction F as [|o c os cs0 [_ B] _ IH]; constructor; assumption.
Qed.
Print Assumptions C89_bracketed.

(** A flat machine that owns a `demo`: it initializes it when it enters `true`, forwards events to it,
    and panics after the second event it forwards in `true`. *)
Definition owned : Type := state_machine (demo true) * list (called (demo true)).
Definition use (o : op (demo true)) (p : owned) : owned :=
  let '(out, sm', cx, tr) := exec 2 BlockingMode o (fst p) in (sm', snd p ++ [Called out cx tr]).
Definition owner : machine := {|
  State := bool * nat; Sup := unit; Shared := owned; Event := bool; Ctx := unit; initial := (false, 0);
  s_disc := fun x => if fst x then 1 else 0; u_disc := fun _ => 0;
  s_super := fun _ => None; s_put := fun x _ => x; u_super := fun _ => None; u_put := fun u _ => u;
  s_handler := fun x p cx e =>
    let p' := use (OpHandle (m := demo true) (if e then Button else Timer) 0) p in
    (match x with
     | (true, 1) => Panics
     | (true, _) => Returns Handled
     | (false, n) => Returns (Transition (true, n))
     end, (fst x, S (snd x)), p', cx);
  s_entry := fun x p cx => (Returns tt, x, if fst x then use (OpInit (m := demo true) 0) p else p, cx);
  s_exit := no_action;
  u_handler := fun u p cx _ => (Returns Handled, u, p, cx); u_entry := no_action; u_exit := no_action;
  h_before_dispatch := no_dispatch_hook;
  h_after_dispatch := fun p _ e => (Returns tt, if e then use (OpInnerMut (m := demo true) (fun l => l ++ [7])) p else p);
  h_before_transition := no_transition_hook; h_after_transition := no_transition_hook
|}.

Lemma demo_returns (o : op (demo true)) sm :
  (exists e, o = OpHandle (m := demo true) (if e : bool then Button else Timer) 0) \/
  o = OpInit (m := demo true) 0 \/ (exists f, o = OpInnerMut (m := demo true) f) ->
  fst (fst (fst (exec 2 BlockingMode o sm))) = Ret tt.
Proof.
  intros [(e & ->)|[->|(f & ->)]]; [| |reflexivity];
    destruct sm as [[sh [n|n|n|]] [|]]; try destruct e; reflexivity.
Qed.
Lemma use_fine (o : op (demo true)) (p : owned) :
  calm o -> fst (fst (fst (exec 2 BlockingMode o (fst p)))) = Ret tt ->
  only_uses owner 2 BlockingMode (fun p => p) (fun o c => calm o /\ c_out c = Ret tt) p (use o p).
Proof.
  intros C E. unfold use. destruct (exec 2 BlockingMode o (fst p)) as [[[out sm'] cx] tr] eqn:X. cbn in E. subst out.
  exists [o], [Called (Ret tt) cx tr]. split; [|split; [reflexivity|repeat constructor; assumption]].
  econstructor; [exact X|constructor].
Qed.

Example C89_case :
  well_formed demo_hierarchy (demo true) 2 /\
  callbacks_move owner (fun p q => only_uses owner 2 BlockingMode (fun p => p)
                                     (fun o c => calm o /\ c_out c = Ret tt) (fst p) (fst q)) /\
  let r := exec_all 0 AwaitableMode
             (map (fun e => OpHandle (m := owner) e tt) [false; true; false; true; true])
             (new_state_machine owner (fresh true, [])) in
  map c_out (fst r) = [Ret tt; Ret tt; Abort Panicked; Ret tt; Ret tt] /\
  length (snd (sm_shared (snd r))) = 9.
Proof.
  split; [exact (demo_well_formed true)|]. split.
  - split; intros; cbn -[use only_uses]; try apply NestProofs.uses_refl.
    + apply use_fine; [exact I|]. apply demo_returns. left. now exists e.
    + destruct (fst x); [|apply NestProofs.uses_refl]. apply use_fine; [exact I|]. apply demo_returns. auto.
    + destruct e; [|apply NestProofs.uses_refl]. apply use_fine; [exact I|]. apply demo_returns. right. right. eauto.
  - cbv zeta. split; vm_compute; reflexivity.
Qed.
