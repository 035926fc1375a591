(** AgreeSpec.v — two implementations of the same machine, driven by the same client; vocabulary
    of C81 (see Sim.v for [relations], [similar], [machine_rel], [called_rel] and KindSim.v for
    [kindred]).  No proofs here. *)

From Coq Require Import List.
From Verif Require Import Machine Api Sim.
Import ListNotations.
Set Implicit Arguments.

(** The same call, on related data; a function by which the client writes the storage or the
    state takes related values to related values. *)
Inductive op_rel (m1 m2 : machine) (R : relations m1 m2) : op m1 -> op m2 -> Prop :=
| op_rel_init cx cx' : r_ctx R cx cx' -> op_rel R (OpInit (m := m1) cx) (OpInit (m := m2) cx')
| op_rel_handle e e' cx cx' : r_event R e e' -> r_ctx R cx cx' ->
    op_rel R (OpHandle (m := m1) e cx) (OpHandle (m := m2) e' cx')
| op_rel_inner f f' : (forall s s', r_shared R s s' -> r_shared R (f s) (f' s')) ->
    op_rel R (OpInnerMut (m := m1) f) (OpInnerMut (m := m2) f')
| op_rel_state f f' : (forall x x', r_state R x x' -> r_state R (f x) (f' x')) ->
    op_rel R (OpStateMut (m := m1) f) (OpStateMut (m := m2) f').
