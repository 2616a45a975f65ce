(** What a Golomb ruler is, independently of the examples. *)
From Verif Require Import Base.
From Coq Require Import Sorting.Sorted.
Local Open Scope Z_scope.

(** the ruler has the mark 0 and the marks [xs]: strictly increasing, and no distance occurs between two different pairs of marks *)
Definition golomb (xs : list Z) : Prop :=
  StronglySorted Z.lt (0 :: xs) /\
  (forall a b c d, In a (0 :: xs) -> In b (0 :: xs) -> In c (0 :: xs) -> In d (0 :: xs) -> a < b -> c < d -> b - a = d - c -> a = c /\ b = d).
(** a Golomb ruler with n marks *)
Definition ruler_of (n : Z) (xs : list Z) : Prop := golomb xs /\ Z.of_nat (length xs) = n - 1.
(** its length: the last mark *)
Definition rlen (xs : list Z) : Z := last xs 0.
(** a table of lower bounds on the length of a Golomb ruler with k marks, as far as n marks *)
Definition opt_valid (opt : Z -> Z) (n : Z) : Prop :=
  (forall k, 0 <= k <= n -> 0 <= opt k) /\ forall k xs, 1 <= k <= n -> ruler_of k xs -> opt k <= rlen xs.
