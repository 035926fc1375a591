(** AccountSpec.v — keeping accounts of the calls in the storage; vocabulary of C93.  No proofs here. *)

From Coq Require Import List Bool Arith.
From Verif Require Import Machine Api.
Import ListNotations.
Set Implicit Arguments.

Section Accounts.
  Variable m : machine.
  (** [T tr p q]: from [p] to [q] the shared storage and the context change as is right for the
      calls [tr]. *)
  Variable T : list (obs m) -> Shared m * Ctx m -> Shared m * Ctx m -> Prop.

  (** What the log says about a call of a handler. *)
  Definition handler_log (n : node (State m) (Sup m)) (e : Event m) (r : reply (response (State m))) : list (obs m) :=
    OHandler n e :: match r with Returns a => [OReturn a] | _ => [] end.

  (** It is right to change nothing for no calls, and what is right for one list of calls and then
      for another is right for both. *)
  Definition additive : Prop :=
    (forall p, T [] p p) /\
    (forall t1 t2 p q r, T t1 p q -> T t2 q r -> T (t1 ++ t2) p r).

  (** Every callback, however it ends and on whatever node, does what is right for itself. *)
  Record keeps_account : Prop := {
    ka_s_handler : forall x sh cx e, let '(r, _, sh', cx') := s_handler m x sh cx e in
      T (handler_log (NState x) e r) (sh, cx) (sh', cx');
    ka_u_handler : forall u sh cx e, let '(r, _, sh', cx') := u_handler m u sh cx e in
      T (handler_log (NSuper u) e r) (sh, cx) (sh', cx');
    ka_s_entry : forall x sh cx, let '(_, _, sh', cx') := s_entry m x sh cx in T [OEnter (NState x)] (sh, cx) (sh', cx');
    ka_s_exit : forall x sh cx, let '(_, _, sh', cx') := s_exit m x sh cx in T [OExit (NState x)] (sh, cx) (sh', cx');
    ka_u_entry : forall u sh cx, let '(_, _, sh', cx') := u_entry m u sh cx in T [OEnter (NSuper u)] (sh, cx) (sh', cx');
    ka_u_exit : forall u sh cx, let '(_, _, sh', cx') := u_exit m u sh cx in T [OExit (NSuper u)] (sh, cx) (sh', cx');
    ka_before_dispatch : forall n e sh cx, T [OBeforeDispatch n e] (sh, cx) (snd (h_before_dispatch m sh n e), cx);
    ka_after_dispatch : forall n e sh cx, T [OAfterDispatch n e] (sh, cx) (snd (h_after_dispatch m sh n e), cx);
    ka_before_transition : forall a b sh cx, T [OBeforeTransition a b] (sh, cx) (snd (h_before_transition m sh a b), cx);
    ka_after_transition : forall a b sh cx, T [OAfterTransition a b] (sh, cx) (snd (h_after_transition m sh a b), cx)
  }.
End Accounts.
Arguments handler_log {m} n e r.

(** ** A machine whose hooks also keep a journal (README.md, "Introspection": "for logging purposes you
    can define various callbacks") *)

Record journal (m : machine) (L : Type) : Type := Journal {
  j_before_dispatch : L -> node (State m) (Sup m) -> Event m -> L;
  j_after_dispatch : L -> node (State m) (Sup m) -> Event m -> L;
  j_before_transition : L -> State m -> State m -> L;
  j_after_transition : L -> State m -> State m -> L
}.

Section Journal.
  Variable m : machine.
  Variable L : Type.
  Variable j : journal m L.

  (** What the journal notes of a call into user code: only of hooks. *)
  Definition note (l : L) (o : obs m) : L :=
    match o with
    | OBeforeDispatch n e => j_before_dispatch j l n e
    | OAfterDispatch n e => j_after_dispatch j l n e
    | OBeforeTransition a b => j_before_transition j l a b
    | OAfterTransition a b => j_after_transition j l a b
    | _ => l
    end.

  Definition beside {A X Y Z} (c : A * X * Y * Z) (l : L) : A * X * (Y * L) * Z :=
    let '(a, x, y, z) := c in (a, x, (y, l), z).
  Definition beside2 {A Y} (c : A * Y) (l : L) : A * (Y * L) := (fst c, (snd c, l)).

  (** The journal is a further field of the shared storage; the hooks write it, and then do what they
      did before; nothing else looks at it. *)
  Definition journaled : machine := {|
    State := State m; Sup := Sup m; Shared := Shared m * L; Event := Event m; Ctx := Ctx m;
    initial := initial m; s_disc := s_disc m; u_disc := u_disc m;
    s_super := s_super m; s_put := s_put m; u_super := u_super m; u_put := u_put m;
    s_handler := fun x s cx e => beside (s_handler m x (fst s) cx e) (snd s);
    s_entry := fun x s cx => beside (s_entry m x (fst s) cx) (snd s);
    s_exit := fun x s cx => beside (s_exit m x (fst s) cx) (snd s);
    u_handler := fun x s cx e => beside (u_handler m x (fst s) cx e) (snd s);
    u_entry := fun x s cx => beside (u_entry m x (fst s) cx) (snd s);
    u_exit := fun x s cx => beside (u_exit m x (fst s) cx) (snd s);
    h_before_dispatch := fun s n e => beside2 (h_before_dispatch m (fst s) n e) (j_before_dispatch j (snd s) n e);
    h_after_dispatch := fun s n e => beside2 (h_after_dispatch m (fst s) n e) (j_after_dispatch j (snd s) n e);
    h_before_transition := fun s a b => beside2 (h_before_transition m (fst s) a b) (j_before_transition j (snd s) a b);
    h_after_transition := fun s a b => beside2 (h_after_transition m (fst s) a b) (j_after_transition j (snd s) a b)
  |}.

  (** The same machine, client's operation, and log entry, with and without the journal. *)
  Definition add_journal (l : L) (sm : state_machine m) : state_machine journaled :=
    StateMachine (m := journaled) (Inner (m := journaled) (sm_shared sm, l) (sm_state sm)) (initialized sm).
  Definition op_beside (o : op m) : op journaled :=
    match o with
    | OpInit cx => OpInit (m := journaled) cx
    | OpHandle e cx => OpHandle (m := journaled) e cx
    | OpInnerMut f => OpInnerMut (m := journaled) (fun s => (f (fst s), snd s))
    | OpStateMut f => OpStateMut (m := journaled) f
    end.
  Definition obs_without (o : obs journaled) : obs m :=
    match o with
    | OBeforeDispatch n e => OBeforeDispatch (m := m) n e
    | OHandler n e => OHandler (m := m) n e
    | OReturn r => OReturn (m := m) r
    | OAfterDispatch n e => OAfterDispatch (m := m) n e
    | OBeforeTransition a b => OBeforeTransition (m := m) a b
    | OAfterTransition a b => OAfterTransition (m := m) a b
    | OExit n => OExit (m := m) n
    | OEnter n => OEnter (m := m) n
    end.
  Definition called_without (c : called journaled) : called m :=
    Called (m := m) (c_out c) (c_cx c) (map obs_without (c_tr c)).
End Journal.

(** ** A monitor: it keeps in mind the last target it has seen in `after_transition`. *)
Definition monitor (m : machine) : journal m nat :=
  Journal m (fun l _ _ => l) (fun l _ _ => l) (fun l _ _ => l) (fun _ _ t => s_disc m t).
