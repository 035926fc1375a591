(** ActiveSpec.v — what holds while a node is active; vocabulary of C77.

    A user who writes an entry action relies on what it established being true as long as the
    machine is in that state: "in `LedOn` the LED is on".  This file says which obligations on
    the single callbacks that takes.  No proofs here. *)

From Coq Require Import List Bool Arith.
From Verif Require Import Machine Api Spec.
Import ListNotations.
Set Implicit Arguments.

(** [q] and the superstates around it, innermost first. *)
Definition within (h : hierarchy) (q : place) (ps : list place) : Prop :=
  match q with
  | AtState s => upward h s ps
  | AtSuper u => exists l, chain h (Some u) l /\ ps = map AtSuper l
  end.

(** [parts h s t left kept]: a transition from leaf [s] to leaf [t] leaves the nodes [left] and
    stays in the nodes [kept] (both innermost first).  A self-transition leaves the leaf only. *)
Definition parts (h : hierarchy) (s t : nat) (left kept : list place) : Prop :=
  upward h s (left ++ kept) /\
  ((s = t /\ left = [AtState s]) \/
   (s <> t /\ exists entered, upward h t (entered ++ kept) /\ diverge (rev left) (rev entered))).

Section Active.
  Variable h : hierarchy.
  Variable m : machine.
  (** What holds of the shared storage all the time, while a node is active, and while it is
      about to be left because some handler has asked for a transition. *)
  Variable Always : Shared m -> Prop.
  Variable Active Leaving : place -> Shared m -> Prop.

  (** The nodes [fst c] are about to be left, the nodes [snd c] are not. *)
  Definition holds (c : list place * list place) (sh : Shared m) : Prop :=
    Always sh /\ (forall p, In p (fst c) -> Leaving p sh) /\ (forall p, In p (snd c) -> Active p sh).

  (** What a call into user code answers, and the shared storage it leaves. *)
  Definition to_option {A B C D} (f : A -> option B) (r : reply A * C * Shared m * D)
    : reply (option B) * Shared m :=
    let '(a, _, sh, _) := r in
    (match a with Returns a => Returns (f a) | Panics => Panics | Cancelled => Cancelled end, sh).
  Definition to_none (r : reply unit * Shared m) : reply (option (response (State m))) * Shared m :=
    (match fst r with Returns _ => Returns None | Panics => Panics | Cancelled => Cancelled end, snd r).
  Definition effect (o : obs m) (sh : Shared m) (cx : Ctx m)
    : reply (option (response (State m))) * Shared m :=
    match o with
    | OHandler n e => to_option Some (node_handler m n sh cx e)
    | OEnter n => to_option (fun _ => None) (node_entry m n sh cx)
    | OExit n => to_option (fun _ => None) (node_exit m n sh cx)
    | OBeforeDispatch n e => to_none (h_before_dispatch m sh n e)
    | OAfterDispatch n e => to_none (h_after_dispatch m sh n e)
    | OBeforeTransition a b => to_none (h_before_transition m sh a b)
    | OAfterTransition a b => to_none (h_after_transition m sh a b)
    | OReturn _ => (Returns None, sh)
    end.

  (** [step o a c c']: the call [o] is made when the nodes of [c] are active; if its answer is
      [a], those of [c'] are active afterwards. *)
  Inductive step : obs m -> option (response (State m)) ->
      list place * list place -> list place * list place -> Prop :=
  | step_enter n above :
      within h (place_of m n) (place_of m n :: above) ->
      step (OEnter n) None ([], above) ([], place_of m n :: above)
  | step_exit n left kept :
      within h (place_of m n) (place_of m n :: left ++ kept) ->
      step (OExit n) None (place_of m n :: left, kept) (left, kept)
  | step_stay n e s ps r :
      upward h s ps -> In (place_of m n) ps -> (forall t, r <> Transition t) ->
      step (OHandler n e) (Some r) ([], ps) ([], ps)
  | step_leave n e s t left kept :
      In (place_of m n) (left ++ kept) -> parts h s (s_disc m t) left kept ->
      step (OHandler n e) (Some (Transition t)) ([], left ++ kept) (left, kept)
  | step_before_dispatch n e s ps :
      upward h s ps -> In (place_of m n) ps ->
      step (OBeforeDispatch n e) None ([], ps) ([], ps)
  | step_after_dispatch n e s left kept :
      upward h s (left ++ kept) -> In (place_of m n) (left ++ kept) ->
      step (OAfterDispatch n e) None (left, kept) (left, kept)
  | step_before_transition a b s left kept :
      upward h s (left ++ kept) ->
      step (OBeforeTransition a b) None (left, kept) (left, kept)
  | step_after_transition a b ps :
      upward h (s_disc m b) ps ->
      step (OAfterTransition a b) None ([], ps) ([], ps).

  (** Each callback alone, called when what should hold does hold, leaves it so. *)
  Definition maintains : Prop :=
    forall o a c c' sh cx sh',
      step o a c c' -> holds c sh -> effect o sh cx = (Returns a, sh') -> holds c' sh'.

  (** Each callback alone, called when what should hold does hold, returns. *)
  Definition unfailing : Prop :=
    forall o a c c' sh cx, step o a c c' -> holds c sh -> exists b, fst (effect o sh cx) = Returns b.

  (** The client's own changes to the shared storage keep to the rules too. *)
  Definition careful (o : op m) : Prop :=
    match o with
    | OpInnerMut f =>
        forall s ps sh, upward h s ps \/ ps = [] -> holds ([], ps) sh -> holds ([], ps) (f sh)
    | OpStateMut f => forall x, s_disc m (f x) = s_disc m x
    | _ => True
    end.
End Active.
Arguments step h m _ _ _ _ : clear implicits.
Arguments effect m _ _ _ : clear implicits.
Arguments maintains h m Always Active Leaving : clear implicits.
Arguments unfailing h m Always Active Leaving : clear implicits.
Arguments holds m Always Active Leaving c sh : clear implicits.
Arguments careful h m Always Active Leaving o : clear implicits.
Arguments to_none m r : clear implicits.
Arguments to_option m {A B C D} f r.
