(** Models of the examples with a built-in instance: foo.cpp, tsptoy.cpp, tsptoy2.cpp.  Sets (GNSet) are bit masks as in TspModel.v.  The instance is a
    parameter; the data of the programs are at the end. *)
From Verif Require Import Base DDModel TspModel MispModel ColorModel.

Section Toy.
(** n cities 1..n, distances (tsptoy.cpp:41-49) *)
Variables (n : nat) (d : nat -> nat -> Z).
(** tsptoy.cpp:41 C *)
Definition y_C : N := bdel (bfull (S n)) 0.

(** ** tsptoy.cpp; the states and their equality are those of tsp.cpp (tsptoy.cpp:3-17) *)
(** tsptoy.cpp:52-53 *)
Definition y_init : tsp := mkTsp 0 1 0.
Definition y_target : tsp := mkTsp y_C 1 n.
(** tsptoy.cpp:54-59 *)
Definition y_lgf (s : tsp) : list Z :=
  if (Z.of_nat n - 1 <=? Z.of_nat (t_h s))%Z then [1%Z] else map Z.of_nat (blist (S n) (bdel (bdel (N.ldiff y_C (t_s s)) 1) (t_e s))).
(** tsptoy.cpp:60-65 *)
Definition y_stf (s : tsp) (label : Z) : option tsp :=
  if (label =? 1)%Z then Some (mkTsp y_C 1 n) else Some (mkTsp (badd (t_s s) (Z.to_nat label)) (Z.to_nat label) (S (t_h s))).
(** tsptoy.cpp:66-68; es.at finds the arc: its ends are different cities *)
Definition y_scf (s : tsp) (label : Z) : Z := d (t_e s) (Z.to_nat label).
(** tsptoy.cpp:72: (float)valid.size()/s1.hops >= .7.  The quotient of small ints is the float nearest to it; the float nearest to 7/10 is below the
    double .7, all other quotients of numbers below 2^22 are on their own side of it.  0/0 is a NaN, so the test fails. *)
Definition near7 (valid hops : nat) : bool := 7 * hops <? 10 * valid.
(** tsptoy.cpp:69-75 *)
Definition y_smf (a b : tsp) : option tsp :=
  let valid := N.land (t_s a) (t_s b) in
  if (t_e a =? t_e b) && (t_h a =? t_h b) && near7 (length (blist (S n) valid)) (t_h a) then Some (mkTsp valid (t_e a) (t_h a)) else None.
(** tsptoy.cpp:76 *)
Definition y_eqs (s : tsp) : bool := (t_e s =? 1) && (t_h s =? n).
(** tsptoy.cpp:78-85 *)
Definition toy_prob : prob tsp := mkProb tsp y_init y_target y_lgf y_stf y_scf y_smf y_eqs None None true tsp_eqb.

(** ** tsptoy2.cpp *)
(** tsptoy2.cpp:3-9 TSP = (s, e) *)
Record toy2 := mkToy2 { z_s : N; z_e : nat }.
(** tsptoy2.cpp:11-15 *)
Definition toy2_eqb (a b : toy2) : bool := (z_e a =? z_e b) && (z_s a =? z_s b)%N.
(** tsptoy2.cpp:49-51 *)
Definition z_init : toy2 := mkToy2 0 1.
Definition z_target : toy2 := mkToy2 y_C 1.
Definition z_lgf (s : toy2) : list Z := map Z.of_nat (blist (S n) (badd (N.ldiff y_C (z_s s)) 1)).
(** tsptoy2.cpp:53-64 *)
Definition z_stf (s : toy2) (label : Z) : option toy2 :=
  let size := length (blist (S n) (z_s s)) in
  if ((label =? 1)%Z && (size <? n - 1)) || (negb (label =? 1)%Z && (n - 1 <=? size)) then None
  else if (label =? 1)%Z && (n - 1 <=? size) then Some z_target
  else if negb (zmem (z_s s) label) && negb (Z.of_nat (z_e s) =? label)%Z then Some (mkToy2 (badd (z_s s) (Z.to_nat label)) (Z.to_nat label)) else None.
(** tsptoy2.cpp:65 *)
Definition z_scf (s : toy2) (label : Z) : Z := d (z_e s) (Z.to_nat label).
(** tsptoy2.cpp:66-70 *)
Definition z_smf (a b : toy2) : option toy2 := if z_e a =? z_e b then Some (mkToy2 (N.land (z_s a) (z_s b)) (z_e a)) else None.
(** tsptoy2.cpp:71 *)
Definition z_eqs (s : toy2) : bool := z_e s =? 1.
(** tsptoy2.cpp:73-80 *)
Definition toy2_prob : prob toy2 := mkProb toy2 z_init z_target z_lgf z_stf z_scf z_smf z_eqs None None true toy2_eqb.
End Toy.

Section Foo.
(** n vertices 1..n, edges, weights (foo.cpp:42-51) *)
Variables (n : nat) (es : list (nat * nat)) (weight : nat -> Z).
(** foo.cpp:53-57; a vertex counts as its own neighbour *)
Definition f_nbrs (i : nat) : N :=
  bof (filter (fun j => (j =? i) || existsb (fun e => ((fst e =? i) && (snd e =? j)) || ((fst e =? j) && (snd e =? i))) es) (seq 1 n)).
(** foo.cpp:13-24, 60-68: a state is a set; top = n+1 *)
Definition f_init : N := bdel (bfull (S n)) 0.
Definition f_target : N := 0%N.
(** foo.cpp:69-71 Range::close(1,top) *)
Definition f_lgf (s : N) : list Z := rclose 1 (Z.of_nat (S n)).
(** foo.cpp:72-82 *)
Definition f_stf (s : N) (label : Z) : option N :=
  if (label =? Z.of_nat (S n))%Z then Some 0%N
  else if zmem s label then Some (bof (filter (fun i => (Z.to_nat label <=? i) && negb (bmem (f_nbrs (Z.to_nat label)) i)) (blist (S n) s))) else None.
(** foo.cpp:83-85 *)
Definition f_scf (s : N) (label : Z) : Z := if (label =? Z.of_nat (S n))%Z then 0%Z else weight (Z.to_nat label).
(** util.hpp:757-762 max of a set, INT_MIN for the empty one *)
Definition f_max (s : N) : Z := fold_left (fun _ i => Z.of_nat i) (blist (S n) s) (-2147483648)%Z.
(** foo.cpp:86-91 *)
Definition f_smf (a b : N) : option N := if (f_max a =? f_max b)%Z then Some (N.land a b) else None.
(** foo.cpp:92-94 *)
Definition f_eqs (s : N) : bool := (s =? 0)%N.
(** foo.cpp:113-122 *)
Definition foo_prob : prob N := mkProb N f_init f_target f_lgf f_stf f_scf f_smf f_eqs None None false N.eqb.
End Foo.

(** tsptoy.cpp:42-49 (tsptoy2.cpp:40-47); the entries that es does not have are never read *)
Definition toy_d (a b : nat) : Z :=
  nth b (nth a [[]; [0; 0; 10; 15; 20; 6; 20]; [0; 10; 0; 35; 25; 100; 5]; [0; 15; 35; 0; 30; 100; 100]; [0; 20; 25; 30; 0; 3; 30]; [0; 6; 100; 100; 3; 0; 100]; [0; 20; 5; 100; 30; 100; 0]]%Z []) 0%Z.
(** foo.cpp:44-48 *)
Definition foo_es : list (nat * nat) := [(1, 2); (1, 3); (2, 1); (2, 3); (2, 4); (3, 1); (3, 2); (3, 4); (4, 2); (4, 3); (4, 5); (5, 4)].
(** foo.cpp:51 *)
Definition foo_w (i : nat) : Z := nth i [0; 3; 4; 2; 2; 7]%Z 0%Z.
