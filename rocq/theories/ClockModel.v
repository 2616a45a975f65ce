(** src/RuntimeMonitor.cpp, and the time limits of the examples.  A reading of the clock is a number of nanoseconds (libstdc++); duration_cast to a coarser unit divides and
    rounds towards zero.  Simplified: the conversions of a count to double are exact (they are below 2^53). *)
From Coq Require Import QArith.
From Verif Require Import Base.
Local Open Scope Z_scope.

(** RuntimeMonitor.cpp:30-34 milli; the same computation in elapsedSince (24-29) and elapsedMilliseconds (46-50) *)
Definition ck_milli (s e : Z) : Z := Z.quot (e - s) 1000000.
(** RuntimeMonitor.cpp:35-45 elapsedSeconds *)
Definition ck_seconds (s e : Z) : Q := inject_Z (ck_milli s e) / inject_Z 1000.
(** RuntimeMonitor.cpp:51-56 elapsedSinceMicro: the count becomes an unsigned long *)
Definition ck_micro (s now : Z) : Z := (Z.quot (now - s) 1000) mod 18446744073709551616.
(** coloring.cpp:256, coloring2.cpp:219, coloring3.cpp:270: elapsed >= T; src/search.cpp:27, 72-76: [start] is read before the loop, [clk k] after the k-th extraction *)
Definition ck_limit (T start : Z) (clk : nat -> Z) (k : nat) : bool := T <=? ck_milli start (clk k).
