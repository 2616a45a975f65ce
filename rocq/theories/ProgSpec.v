(** What the programs have to find, in terms of the instance files; nothing here refers to the models of the programs. *)
From Verif Require Import Base ReadSpec.

(** a set of vertices 1..nv of a DIMACS file without the two ends of an edge line *)
Definition dimacs_set (nv : Z) (ls : list dline) (S : list Z) : Prop :=
  NoDup S /\ (forall v, In v S -> 1 <= v <= nv)%Z /\ forall a b, In (a, b) (edges1 ls) -> a <> b -> In a S -> In b S -> False.

(** knapsack: which items (profit, weight) of the file are taken *)
Fixpoint taken (f : Z * Z -> Z) (items : list (Z * Z)) (pick : list bool) : Z :=
  match items, pick with
  | x :: r, b :: q => ((if b then f x else 0) + taken f r q)%Z
  | _, _ => 0%Z
  end.
Definition packing (capa : Z) (items : list (Z * Z)) (pick : list bool) : Prop := length pick = length items /\ (taken snd items pick <= capa)%Z.

(** a round trip through the cities 0..n-1; the last city is followed by the first one *)
Definition round_trip (n : nat) (t : list nat) : Prop := NoDup t /\ forall c, In c t <-> c < n.
Fixpoint hops (d : nat -> nat -> Z) (first : nat) (t : list nat) : Z :=
  match t with
  | [] => 0%Z
  | [a] => d a first
  | a :: (b :: _) as r => (d a b + hops d first r)%Z
  end.
Definition trip_length (d : nat -> nat -> Z) (t : list nat) : Z := match t with [] => 0%Z | a :: _ => hops d a t end.

(** a colour for each vertex 0..nv-1 of the edges of the file *)
Definition file_colouring (es : list (Z * Z)) (c : Z -> Z) : Prop := forall a b, In (a, b) es -> c a <> c b.
(** exactly k colours are used *)
Definition colours_used (nv : Z) (c : Z -> Z) (k : nat) : Prop :=
  exists cs, NoDup cs /\ length cs = k /\ forall x, In x cs <-> exists v, (0 <= v < nv)%Z /\ c v = x.

(** distances of a full matrix, row by row, and of the lower half with the diagonal *)
Definition full_entry (n : nat) (ds : list Z) (i j : nat) : Z := nth (i * n + j) ds 0%Z.
Definition low_entry (ds : list Z) (i j : nat) : Z := let a := Nat.max i j in let b := Nat.min i j in nth (a * (a + 1) / 2 + b) ds 0%Z.
