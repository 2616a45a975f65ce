(** Clique partitions and bounds, independently of examples/misp4_lag.cpp. *)
From Verif Require Import Base MispSpec.

(** any two different members are adjacent *)
Definition clique (es : list (nat * nat)) (c : list nat) : Prop := forall u v, In u c -> In v c -> u <> v -> adjacent es u v.
(** the cliques share out the vertices 0..nv-1: each vertex is in exactly one, once; none is empty *)
Definition clique_partition (nv : nat) (es : list (nat * nat)) (cs : list (list nat)) : Prop :=
  Forall (clique es) cs /\ Forall (fun c => c <> []) cs /\ Permutation (concat cs) (seq 0 nv).
(** no vertex of a later clique could be added to an earlier one *)
Definition greedy_maximal (es : list (nat * nat)) (cs : list (list nat)) : Prop :=
  forall i j v, i < j -> In v (nth j cs []) -> exists u, In u (nth i cs []) /\ ~ adjacent es u v.
(** the number of the clique of each vertex *)
Definition numbers (nv : nat) (cs : list (list nat)) (of : list Z) : Prop :=
  length of = nv /\ forall v i, v < nv -> (nth v of (-1)%Z = Z.of_nat i <-> In v (nth i cs [])).
(** the graph has no other vertices than 0..nv-1 *)
Definition in_graph (nv : nat) (es : list (nat * nat)) : Prop := forall a b, In (a, b) es -> a < nv /\ b < nv.
(** b bounds the weight of every independent set inside the vertices selected by [sel] *)
Definition bounds_sets (nv : nat) (es : list (nat * nat)) (weight : nat -> Z) (sel : nat -> bool) (b : Z) : Prop :=
  forall T, indep_set nv es T -> (forall v, In v T -> sel v = true) -> (total weight T <= b)%Z.
