(** What a tour is, independently of the example. *)
From Verif Require Import Base.

(** length of the walk from a through the cities l *)
Fixpoint walk (d : nat -> nat -> Z) (a : nat) (l : list nat) : Z :=
  match l with [] => 0%Z | b :: r => (d a b + walk d b r)%Z end.
(** [l] lists the cities in the order of a closed tour that starts and ends in city 1: every other city of 0..nv-1 exactly once, then city 1 *)
Definition tour (nv : nat) (l : list nat) : Prop :=
  exists t, l = t ++ [1] /\ NoDup t /\ forall c, In c t <-> c < nv /\ c <> 1.
