(** Model of examples/tsp.cpp as a problem for the engine.  Sets of cities (GNSet: SetModel.v, C24-C28) are bit masks of type N: the code only uses
    membership, union, intersection, difference, removal and equality of them.  Distances are ints stored in doubles (tsp.cpp:86-91), so exact. *)
From Verif Require Import Base DDModel.

(** membership, insertion and removal for a bit mask *)
Definition bmem (s : N) (v : nat) : bool := N.testbit s (N.of_nat v).
Definition badd (s : N) (v : nat) : N := N.setbit s (N.of_nat v).
Definition bdel (s : N) (v : nat) : N := N.clearbit s (N.of_nat v).
(** {0, ..., n-1} *)
Definition bfull (n : nat) : N := N.ones (N.of_nat n).
(** the members below n in increasing order (the iteration order of GNSet, C25) *)
Definition blist (n : nat) (s : N) : list nat := filter (bmem s) (seq 0 n).

(** examples/tsp.cpp:3-10 TSP = (s, e, hops) *)
Record tsp := mkTsp { t_s : N; t_e : nat; t_h : nat }.
(** examples/tsp.cpp:12-16 *)
Definition tsp_eqb (a b : tsp) : bool := (t_e a =? t_e b) && (t_h a =? t_h b) && (t_s a =? t_s b)%N.

Section Tsp.
(** the instance: number of cities and distance matrix (tsp.cpp:43-52, 84-91) *)
Variables (nv : nat) (d : nat -> nat -> Z).
(** tsp.cpp:48, 105, 109: C = GNSet(0,nv-1), sz = its size *)
Definition tsp_C : N := bfull nv.
(** tsp.cpp:110-111 *)
Definition tsp_init : tsp := mkTsp 0 1 0.
Definition tsp_target : tsp := mkTsp tsp_C 1 nv.
(** tsp.cpp:112-117 *)
Definition tsp_lgf (s : tsp) : list Z :=
  if (Z.of_nat nv - 1 <=? Z.of_nat (t_h s))%Z then [1%Z]
  else map Z.of_nat (blist nv (bdel (bdel (N.ldiff tsp_C (t_s s)) 1) (t_e s))).
(** tsp.cpp:118-123 *)
Definition tsp_stf (s : tsp) (label : Z) : option tsp :=
  if (label =? 1)%Z then Some (mkTsp tsp_C 1 nv) else Some (mkTsp (badd (t_s s) (Z.to_nat label)) (Z.to_nat label) (S (t_h s))).
(** tsp.cpp:124-126 *)
Definition tsp_scf (s : tsp) (label : Z) : Z := d (t_e s) (Z.to_nat label).
(** tsp.cpp:127-133 *)
Definition tsp_smf (a b : tsp) : option tsp :=
  if (t_e a =? t_e b) && (t_h a =? t_h b) then Some (mkTsp (N.land (t_s a) (t_s b)) (t_e a) (t_h a)) else None.
(** tsp.cpp:134 *)
Definition tsp_eqs (s : tsp) : bool := (t_e s =? 1) && (t_h s =? nv).
(** tsp.cpp:136-143 *)
Definition tsp_prob : prob tsp := mkProb tsp tsp_init tsp_target tsp_lgf tsp_stf tsp_scf tsp_smf tsp_eqs None None true tsp_eqb.
End Tsp.
