(** Graph colouring, for PropColor.v: nothing here refers to the models. *)
From Verif Require Import Base.

(** a graph: vertices 0..K-1 and a list of edges between different vertices *)
Definition simple_graph (K : nat) (es : list (nat * nat)) : Prop := forall x y, In (x, y) es -> x < K /\ y < K /\ x <> y.
(** c gives a colour to every vertex and the ends of an edge get different colours *)
Definition colouring {A} (K : nat) (es : list (nat * nat)) (c : list A) : Prop :=
  length c = K /\ forall x y, In (x, y) es -> forall u, nth_error c x = Some u -> nth_error c y = Some u -> False.
(** c uses exactly the colours 1..k, k occurs, and a new colour is one more than the largest before it *)
Inductive first_use : list Z -> Z -> Prop :=
| fu_nil : first_use [] 0
| fu_old c k l : first_use c k -> (1 <= l <= k)%Z -> first_use (c ++ [l]) k
| fu_new c k : first_use c k -> first_use (c ++ [(k + 1)%Z]) (k + 1).
(** k different colours occur in c *)
Definition uses {A} (c : list A) (k : nat) : Prop := exists cs, NoDup cs /\ length cs = k /\ forall x, In x cs <-> In x c.
