(** What a tour of the toy examples is, independently of the code.  [walk] is the length of a walk (TspSpec.v). *)
From Verif Require Import Base TspSpec MispSpec.
From Coq Require Import Sorting.Sorted.

(** [l] lists the cities in the order of a closed tour that starts and ends in city 1: every other city of 1..n exactly once, then city 1 *)
Definition tour1 (n : nat) (l : list nat) : Prop :=
  exists t, l = t ++ [1] /\ NoDup t /\ forall c, In c t <-> 2 <= c <= n.
(** an independent set of the graph on 1..n, as an increasing list ([independent], [adjacent], [total]: MispSpec.v) *)
Definition indep1 (n : nat) (es : list (nat * nat)) (S : list nat) : Prop :=
  StronglySorted lt S /\ Forall (fun v => 1 <= v <= n) S /\ independent es S.
(** some vertex beyond the last member can still be added *)
Definition extends1 (n : nat) (es : list (nat * nat)) (S : list nat) : Prop :=
  exists u, 1 <= u <= n /\ forall i, In i S -> i < u /\ ~ adjacent es i u.
