(** What a tour from depot 0 is, independently of the examples.  [walk] is the length of a walk (TspSpec.v). *)
From Verif Require Import Base TspSpec.

(** [l] lists the cities in the order of a closed tour that starts and ends in city 0: every other city of 0..nv-1 exactly once, then city 0 *)
Definition tour0 (nv : nat) (l : list nat) : Prop :=
  exists t, l = t ++ [0] /\ NoDup t /\ forall c, In c t <-> c < nv /\ c <> 0.
