(** Props20.v — C71: a superstate that does nothing can be left out.  Theorems only; see IdleSpec.v
    for the vocabulary. *)

From Coq Require Import List Bool Arith Lia.
From Verif Require Import Machine Api Spec Examples IdleSpec.
From Verif Require IdleProofs.
Import ListNotations.
Set Implicit Arguments.

(** C71.  Whatever a client does: with and without the superstate [g], which does nothing, all calls
    end in the same way, leave the same state, shared storage and context, and call the same user
    code with the same values in the same order; only the calls about [g] are missing. *)
Theorem C71_idle_superstate :
  forall (g : nat) (h : hierarchy) (m : machine) (stack : nat) (md : mode)
         (ops : list (op m)) (sm sm' : state_machine m) (cs : list (called m)),
    well_formed h m stack -> faithful_views m -> idle g m ->
    history stack md ops sm cs sm' ->
    history stack md (map (same_op g (m := m)) ops) (same_machine g sm)
      (map (hide_called g (m := m)) cs) (same_machine g sm').
Proof.
  intros g h m stack md ops sm sm' cs W V I H. exact (@IdleProofs.history_without g h m stack W V I md ops sm cs sm' H).
Qed.
Print Assumptions C71_idle_superstate.

(** What is left is again such a machine, so more superstates can be left out. *)
Theorem C71_again :
  forall (g : nat) (h : hierarchy) (m : machine) (stack : nat),
    well_formed h m stack -> faithful_views m ->
    (exists h', well_formed h' (without g m) stack /\
       (forall s p, path h s p -> path h' s (filter (fun q => match q with AtSuper u => negb (u =? g) | _ => true end) p))) /\
    faithful_views (without g m) /\
    (forall g', idle g' m -> idle g' (without g m)).
Proof.
  intros g h m stack W V. split; [|split].
  - exists (IdleProofs.h' g h). split; [exact (IdleProofs.well_formed' g W)|].
    exact (@IdleProofs.path_without g h m stack W).
  - exact (IdleProofs.views' g W V).
  - intros g' [H1 H2 H3 H4 H5]. split; assumption.
Qed.
Print Assumptions C71_again.

(** Blinking of the demo, but doing nothing; it still has data, shared with Powered. *)
Definition lazy (active : bool) : machine :=
  let m := demo active in {|
  State := demo_state; Sup := demo_sup; Shared := list nat; Event := demo_event; Ctx := nat;
  initial := On 0; s_disc := demo_s_disc; u_disc := demo_u_disc;
  s_super := demo_s_super; s_put := demo_s_put; u_super := demo_u_super; u_put := demo_u_put;
  s_handler := demo_s_handler; s_entry := demo_s_entry; s_exit := demo_s_exit;
  u_handler := fun u sh cx e => match u with Blinking _ => (Returns Super, u, sh, cx) | _ => demo_u_handler u sh cx e end;
  u_entry := fun u sh cx => match u with Blinking _ => no_action u sh cx | _ => demo_u_entry u sh cx end;
  u_exit := fun u sh cx => match u with Blinking _ => no_action u sh cx | _ => demo_u_exit u sh cx end;
  h_before_dispatch := demo_hook_d active 90; h_after_dispatch := demo_hook_d active 91;
  h_before_transition := demo_hook true 92; h_after_transition := demo_hook true 93 |}.

Example C71_case :
  well_formed demo_hierarchy (lazy false) 2 /\ faithful_views (lazy false) /\ idle 0 (lazy false) /\
  let ops := [OpInit (m := lazy false) 3; OpHandle (m := lazy false) Timer 0; OpHandle (m := lazy false) Halt 0;
              OpHandle (m := lazy false) Button 0; OpHandle (m := lazy false) Button 0] in
  map (fun c => length (c_tr c)) (fst (exec_all 2 BlockingMode ops (new_state_machine (lazy false) []))) = [3; 8; 18; 9; 9] /\
  map (fun c => length (c_tr c)) (fst (exec_all 2 BlockingMode (map (same_op 0 (m := lazy false)) ops)
    (new_state_machine (without 0 (lazy false)) []))) = [2; 8; 13; 9; 8] /\
  sm_shared (snd (exec_all 2 BlockingMode ops (new_state_machine (lazy false) []))) =
  sm_shared (snd (exec_all 2 BlockingMode (map (same_op 0 (m := lazy false)) ops) (new_state_machine (without 0 (lazy false)) []))).
Proof.
  split; [|split; [|split]].
  - destruct (demo_well_formed false) as [[F1 F2 F3 F4] [S1 S2 S3 S4 S5 S6] Hh]. split; [split; assumption| |assumption].
    split; [exact S1|exact S2|exact S3| | |].
    + intros [n|n] sh cx e r u' sh' cx'; [intros H; inversion H; reflexivity|exact (S4 (Powered n) sh cx e r u' sh' cx')].
    + intros [n|n] sh cx r u' sh' cx'; [intros H; inversion H; reflexivity|exact (S5 (Powered n) sh cx r u' sh' cx')].
    + intros [n|n] sh cx r u' sh' cx'; [intros H; inversion H; reflexivity|exact (S6 (Powered n) sh cx r u' sh' cx')].
  - destruct (demo_views false). split; assumption.
  - split; intros [n|n] *; cbn; intros; (discriminate || reflexivity).
  - vm_compute. repeat split.
Qed.

(** The hooks have to ignore the superstate, too: with a hook that counts it makes a difference. *)
Theorem C71_hooks_needed :
  let m := lazy true in
  well_formed demo_hierarchy m 2 /\ faithful_views m /\
  (forall u sh cx e, u_disc m u = 0 -> u_handler m u sh cx e = (Returns Super, u, sh, cx)) /\
  (forall u sh cx, u_disc m u = 0 -> u_entry m u sh cx = no_action u sh cx /\ u_exit m u sh cx = no_action u sh cx) /\
  sm_shared (a_machine (handle_with_context 2 BlockingMode (new_state_machine m []) Halt 0)) <>
  sm_shared (a_machine (handle_with_context 2 BlockingMode (new_state_machine (without 0 m) []) Halt 0)).
Proof.
  cbv zeta. split; [|split; [|split; [|split]]].
  - destruct (demo_well_formed true) as [[F1 F2 F3 F4] [S1 S2 S3 S4 S5 S6] Hh]. split; [split; assumption| |assumption].
    split; [exact S1|exact S2|exact S3| | |].
    + intros [n|n] sh cx e r u' sh' cx'; [intros H; inversion H; reflexivity|exact (S4 (Powered n) sh cx e r u' sh' cx')].
    + intros [n|n] sh cx r u' sh' cx'; [intros H; inversion H; reflexivity|exact (S5 (Powered n) sh cx r u' sh' cx')].
    + intros [n|n] sh cx r u' sh' cx'; [intros H; inversion H; reflexivity|exact (S6 (Powered n) sh cx r u' sh' cx')].
  - destruct (demo_views true). split; assumption.
  - intros [n|n] *; cbn; intros; (discriminate || reflexivity).
  - intros [n|n] *; cbn; intros; (discriminate || (split; reflexivity)).
  - vm_compute. discriminate.
Qed.
Print Assumptions C71_hooks_needed.
