(** AnyExamples.v — machines that break the rules, used in C68. *)

From Coq Require Import List Bool Arith Lia.
From Verif Require Import Machine Api Spec AnySpec.
From Verif Require Blocking Awaitable AnyProofs.
Import ListNotations.

(** A machine with nothing but handlers and superstates. *)
Definition plain {St Su : Type} (i : St) (sd : St -> nat) (ud : Su -> nat) (up : St -> option Su) (put : St -> Su -> St)
    (uup : Su -> option Su) (sh : St -> bool -> response St * St) (uh : Su -> Su) : machine := {|
  State := St; Sup := Su; Shared := unit; Event := bool; Ctx := unit; initial := i; s_disc := sd; u_disc := ud;
  s_super := up; s_put := put; u_super := uup; u_put := fun u _ => u;
  s_handler := fun x s c e => (Returns (fst (sh x e)), snd (sh x e), s, c);
  s_entry := no_action; s_exit := no_action;
  u_handler := fun u s c e => (Returns Super, uh u, s, c); u_entry := no_action; u_exit := no_action;
  h_before_dispatch := no_dispatch_hook; h_after_dispatch := no_dispatch_hook;
  h_before_transition := no_transition_hook; h_after_transition := no_transition_hook |}.

(** [stable] is needed for C07: the handler of 0 overwrites its state with 1. *)
Definition turncoat : machine :=
  plain 0 (fun x => x) (fun u : unit => 0) (fun _ => None) (fun x _ => x) (fun _ => None)
    (fun x e => if e then (Handled, 1) else (Transition 2, x)) (fun u => u).
(** [follows] is needed: one variant, the superstate depends on the data. *)
Definition chameleon : machine :=
  plain 0 (fun x => x / 2) (fun u : nat => u) (fun x => if x <? 2 then Some x else None) (fun x _ => x) (fun _ => None)
    (fun x e => if e then (Transition 1, x) else (Transition 2, x)) (fun u => u).
(** So is that handlers of superstates do not go back down: 0 is below 1, whose handler turns it
    into 0 again. *)
Definition sisyphus : machine :=
  plain tt (fun _ => 0) (fun u : bool => if u then 1 else 0) (fun _ => Some false) (fun x _ => x)
    (fun u => if u then None else Some true) (fun x _ => (Super, x)) (fun u => false).

Definition no_hierarchy : hierarchy := {| leaf_parent := fun _ => None; sup_parent := fun _ => None |}.
Definition one_above : hierarchy :=
  {| leaf_parent := fun _ => Some 0; sup_parent := fun u => match u with 0 => Some 1 | _ => None end |}.

Lemma never_ends n md P :
  AnyProofs.yields P (inner_handle sisyphus n md true) (fun _ o _ => o = Abort Diverges).
Proof.
  assert (BD : forall X (P : X -> Prop) nd e (Q : list (obs sisyphus) -> outcome unit -> X -> Prop),
    (forall x, P x -> Q [OBeforeDispatch nd e] (Ret tt) x) -> AnyProofs.yields P (before_dispatch sisyphus nd e) Q)
    by (intros X P0 nd e Q H x sh cx Hx; exact (H x Hx)).
  assert (AD : forall X (P : X -> Prop) nd e (Q : list (obs sisyphus) -> outcome unit -> X -> Prop),
    (forall x, P x -> Q [OAfterDispatch nd e] (Ret tt) x) -> AnyProofs.yields P (after_dispatch sisyphus nd e) Q)
    by (intros X P0 nd e Q H x sh cx Hx; exact (H x Hx)).
  assert (B : forall n (P : bool -> Prop), AnyProofs.yields P (Blocking.superstate_handle sisyphus n true) (fun _ o _ => o = Abort Diverges)).
  { clear n P. induction n as [|n IH]; intros P; [intros u sh cx _; reflexivity|]. cbn [Blocking.superstate_handle].
    apply AnyProofs.y_bind, AnyProofs.y_handler. intros u sh cx r u' sh' cx' _ E. inversion E; subst. apply AnyProofs.y_self. intros u1 <-.
    change (u_super sisyphus false) with (Some true). cbn iota.
    apply (@AnyProofs.y_via _ _ _ _ _ _ true _ _ (fun _ o _ => o = Abort Diverges)); [|auto]. apply AnyProofs.y_self. intros v _.
    apply AnyProofs.y_bind, BD. intros v1 _. apply AnyProofs.y_bind. eapply AnyProofs.y_weaken; [apply IH with (P := eq v1)|auto|].
    cbv beta. intros t o x ->. reflexivity. }
  assert (A : forall n (P : bool -> Prop), AnyProofs.yields P (Awaitable.handle_loop sisyphus n true) (fun _ o _ => o = Abort Diverges)).
  { clear n P. induction n as [|n IH]; intros P; [intros u sh cx _; reflexivity|]. cbn [Awaitable.handle_loop].
    apply AnyProofs.y_self. intros v _. apply AnyProofs.y_bind, BD. intros v1 _.
    apply AnyProofs.y_bind, AnyProofs.y_handler. intros u sh cx r u' sh' cx' _ E. inversion E; subst. apply AnyProofs.y_self. intros u1 <-.
    apply AnyProofs.y_bind, AD. intros v2 <-. apply AnyProofs.y_self. intros v3 <-.
    change (u_super sisyphus false) with (Some true). cbn iota.
    apply (@AnyProofs.y_via _ _ _ _ _ _ true _ _ (fun _ o _ => o = Abort Diverges)); [apply IH|auto]. }
  destruct md; unfold inner_handle, Blocking.inner_handle, Awaitable.inner_handle, Blocking.state_handle, Awaitable.state_handle;
    apply AnyProofs.y_bind, AnyProofs.y_self; intros x _; apply AnyProofs.y_bind, BD; intros x1 _;
    apply AnyProofs.y_bind, AnyProofs.y_handler; intros u sh cx r u' sh' cx' _ E; inversion E; subst; apply AnyProofs.y_self; intros u1 <-;
    apply AnyProofs.y_bind, AD; intros v2 <-; apply AnyProofs.y_self; intros v3 <-;
    match goal with |- context [s_super sisyphus ?z] => change (s_super sisyphus z) with (Some false) end; cbn iota;
    apply (@AnyProofs.y_via _ _ _ _ _ _ false _ _ (fun _ o _ => o = Abort Diverges));
    [|intros x0 t o v' _ ->; reflexivity| |intros x0 t o v' _ ->; reflexivity].
  - apply AnyProofs.y_self. intros v _.
    apply AnyProofs.y_bind, BD. intros v1 _. apply AnyProofs.y_bind. eapply AnyProofs.y_weaken; [apply B with (P := eq v1)|auto|].
    cbv beta. intros t o x0 ->. reflexivity.
  - apply A.
Qed.
