(** EquivSpec.v — relations between machines, composed and reversed; vocabulary of C103 (see Sim.v for
    [relations] and [similar]).  No proofs here. *)

From Verif Require Import Machine Api Sim.
Set Implicit Arguments.

Definition compose {A B C} (R : A -> B -> Prop) (S : B -> C -> Prop) (a : A) (c : C) : Prop :=
  exists b, R a b /\ S b c.
Definition converse {A B} (R : A -> B -> Prop) (b : B) (a : A) : Prop := R a b.

Definition identity_relations (m : machine) : relations m m := Relations m m eq eq eq eq eq.
Definition converse_relations m1 m2 (R : relations m1 m2) : relations m2 m1 :=
  Relations m2 m1 (converse (r_state R)) (converse (r_sup R)) (converse (r_shared R)) (converse (r_event R)) (converse (r_ctx R)).
Definition composed_relations m1 m2 m3 (R : relations m1 m2) (S : relations m2 m3) : relations m1 m3 :=
  Relations m1 m3 (compose (r_state R) (r_state S)) (compose (r_sup R) (r_sup S)) (compose (r_shared R) (r_shared S))
            (compose (r_event R) (r_event S)) (compose (r_ctx R) (r_ctx S)).

(** Any number of edits, one after the other, each of which relates a machine to one that cannot be
    told apart from it (or takes such an edit back). *)
Inductive edits : forall m m' : machine, relations m m' -> Prop :=
| no_edit m : edits (identity_relations m)
| edit m m' m'' (R : relations m m') (S : relations m' m'') :
    edits R -> similar S -> edits (composed_relations R S)
| edit_back m m' m'' (R : relations m m') (S : relations m'' m') :
    edits R -> similar S -> edits (composed_relations R (converse_relations S)).
