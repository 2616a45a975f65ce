(** Properties C59 and C60: examples/coloring.cpp, coloring2.cpp, coloring3.cpp, coloringtoy.cpp.  [program K es UB PP]: PP is the problem of one of them, for a graph
    with K vertices and edges es and the colours 1..UB; PP (Some b) when the primal bound is b, PP None without the cut by the bound. *)
From Verif Require Import Base DDModel DDSpec DDFrame DDExpand DDExamples DDWide SearchModel SearchProofs SearchEx SearchDyn TspModel MispModel ColorModel ColorSpec ColorProofs ColorTop ColorEnd.
Local Open Scope Z_scope.

(** C59: the solutions are exactly the proper colourings in which each new colour is one more than the largest before it ([first_use ls v]: ls is such a
    sequence with the colours 1..v), valued by the number of colours *)
Theorem C59_solutions_are_colourings : forall K es UB, simple_graph K es -> (1 <= K)%nat -> forall St (PP : option Z -> prob St), program K es UB PP ->
  forall b ls v, pos b -> (path (PP b) (p_init (PP b)) ls v (p_target (PP b)) <-> first_use ls v /\ colouring K es ls /\ v <= Z.of_nat UB /\ within b v).
Proof. exact @pr_solutions. Qed.
Print Assumptions C59_solutions_are_colourings.
(** C59: no number of colours is lost: every colouring, in whatever colours, has a solution with the same number of colours *)
Theorem C59_no_colouring_lost : forall K es UB, simple_graph K es -> (1 <= K)%nat -> forall St (PP : option Z -> prob St), program K es UB PP ->
  forall b (c : list Z) k, pos b -> colouring K es c -> uses c k -> (k <= UB)%nat -> within b (Z.of_nat k) -> exists ls, path (PP b) (p_init (PP b)) ls (Z.of_nat k) (p_target (PP b)).
Proof. exact @pr_rename. Qed.
Print Assumptions C59_no_colouring_lost.
(** C59: an exact diagram gives the least number of colours and a colouring with as many *)
Theorem C59_exact_diagram_is_chromatic_number : forall K es UB, simple_graph K es -> (1 <= K)%nat -> Z.of_nat UB < 2147483647 -> forall St (PP : option Z -> prob St), program K es UB PP ->
  forall b fuel primal, pos b -> (S UB ^ K + 1 <= fuel)%nat -> (exists (c : list Z) k, colouring K es c /\ uses c k /\ (k <= UB)%nat /\ within b (Z.of_nat k)) ->
  exists d n, ex_compute (PP b) fuel (initDefault (PP b) (dd_empty (PP b) true)) primal = Ok d /\ trg_node d = Ok n /\
    colouring K es (n_lab n) /\ uses (n_lab n) (Z.to_nat (n_bound n)) /\ forall (c : list Z) k, colouring K es c -> uses c k -> n_bound n <= Z.of_nat k.
Proof. exact @pr_exact. Qed.
Print Assumptions C59_exact_diagram_is_chromatic_number.
(** C59: a relaxed diagram of any width gives a lower bound on the number of colours that improve on the primal bound *)
Theorem C59_relaxed_diagram_bounds : forall K es UB, simple_graph K es -> (1 <= K)%nat -> Z.of_nat UB < 2147483647 -> forall St (PP : option Z -> prob St), program K es UB PP ->
  forall b srt fuel primal w, pos b -> (forall d l, Permutation (srt d l) l) -> (K + 1 < fuel)%nat ->
  exists d n, run (PP b) srt fuel (SRelaxed w) primal = Ok d /\ trg_node d = Ok n /\
    forall (c : list Z) k, colouring K es c -> uses c k -> (k <= UB)%nat -> within b (Z.of_nat k) -> Z.of_nat k < primal -> n_bound n <= Z.of_nat k.
Proof. exact @pr_relaxed. Qed.
Print Assumptions C59_relaxed_diagram_bounds.
(** C59: the checkers of the programs accept every colouring *)
Theorem C59_checker_accepts : forall K es c, simple_graph K es -> colouring K es c -> co_check es c = Ok true.
Proof. exact check_ok. Qed.
Print Assumptions C59_checker_accepts.
Example C59_case : simple_graph 5 c5 /\ colouring 5 c5 [7; 2; 7; 2; -1] /\ uses [7; 2; 7; 2; -1] 3 /\ colouring 5 c5 [1; 2; 1; 2; 3] /\ first_use [1; 2; 1; 2; 3] 3 /\ co_check c5 [1; 2; 1; 2; 3] = Ok true /\
  outcome (ex_compute (co_prob 5 c5 5 None) 200 (initDefault (co_prob 5 c5 5 None) (dd_empty (co_prob 5 c5 5 None) true)) 2147483647) = Ok (3, [1; 2; 1; 2; 3], true, 11%nat) /\
  outcome (run (c2_prob 5 5 (c3_adj c5) None) (exSrt (c2_prob 5 5 (c3_adj c5) None)) 10 (SRelaxed 1) 2147483647) = Ok (3, [1; 2; 1; 3; 2], false, 12%nat).
Proof.
  csplit; try (apply graphb_ok; vm_compute; reflexivity); try (apply colb_ok; vm_compute; reflexivity); [exact (uses_nodup [7; 2; 7; 2; -1])| |vm_compute; reflexivity|vm_compute; reflexivity|vm_compute; reflexivity].
  apply (fu_new [1; 2; 1; 2] 2), (fu_old [1; 2; 1] 2 2); [|lia]. apply (fu_old [1; 2] 2 1); [|lia]. apply (fu_new [1] 1), (fu_new [] 0). constructor.
Qed.

(** C60: the search reports only proper colourings, with the number of colours they use, and the checker accepts each of them *)
Theorem C60_incumbents_are_colourings : forall K es UB, simple_graph K es -> (1 <= K)%nat -> Z.of_nat UB < 2147483647 -> forall St (PP : option Z -> prob St), program K es UB PP ->
  forall srt dfuel mxw lim, (forall d l, Permutation (srt d l) l) -> (K + 1 < dfuel)%nat -> (N.of_nat mxw < 4294967296)%N ->
  forall fuel s e, csearch PP srt dfuel lim fuel mxw None = Ok (s, e) ->
  (b_primal (s_b s) <> 2147483647 -> colouring K es (b_inc (s_b s)) /\ uses (b_inc (s_b s)) (Z.to_nat (b_primal (s_b s))) /\ 0 <= b_primal (s_b s) <= Z.of_nat UB) /\
  forall ls, In ls (b_log (s_b s)) -> colouring K es ls /\ co_check es ls = Ok true.
Proof. exact @pr_found. Qed.
Print Assumptions C60_incumbents_are_colourings.
(** C60: the search ends *)
Theorem C60_terminates : forall K es UB, simple_graph K es -> (1 <= K)%nat -> Z.of_nat UB < 2147483647 -> forall St (PP : option Z -> prob St), program K es UB PP ->
  forall srt dfuel mxw lim, (forall d l, Permutation (srt d l) l) -> (K + 1 < dfuel)%nat -> (N.of_nat mxw < 4294967296)%N ->
  forall fuel, (S UB ^ K + 1 <= fuel)%nat -> exists s e, csearch PP srt dfuel lim fuel mxw None = Ok (s, e).
Proof. exact @pr_total. Qed.
Print Assumptions C60_terminates.
(** C60: with a width that no layer exceeds, the result is the least number of colours *)
Theorem C60_wide_enough_is_optimal : forall K es UB, simple_graph K es -> (1 <= K)%nat -> Z.of_nat UB < 2147483647 -> forall St (PP : option Z -> prob St), program K es UB PP ->
  forall srt dfuel mxw lim, (forall d l, Permutation (srt d l) l) -> (K + 1 < dfuel)%nat -> (N.of_nat mxw < 4294967296)%N ->
  forall fuel, lim 0%nat = false -> narrow (PP None) (p_init (PP None)) mxw -> (1 <= fuel)%nat ->
  exists s, csearch PP srt dfuel lim fuel mxw None = Ok (s, Emptied) /\ s_ttl s = 1%nat /\
    forall (c : list Z) k, colouring K es c -> uses c k -> (k <= UB)%nat -> b_primal (s_b s) <= Z.of_nat k.
Proof. exact @pr_wide. Qed.
Print Assumptions C60_wide_enough_is_optimal.
(** C60: otherwise the result is the least number of colours when the queue ran empty, no node was refused as already seen, and no exact node of an
    inexact diagram that was cut has an improving edge straight to the target.  Full statement: without the last two conditions; it is false: *)
Theorem C60_search_is_optimal_partial : forall K es UB, simple_graph K es -> (1 <= K)%nat -> Z.of_nat UB < 2147483647 -> forall St (PP : option Z -> prob St), program K es UB PP ->
  forall srt dfuel mxw lim, (forall d l, Permutation (srt d l) l) -> (K + 1 < dfuel)%nat -> (N.of_nat mxw < 4294967296)%N ->
  forall fuel s, csearch PP srt dfuel lim fuel mxw None = Ok (s, Emptied) -> s_seen s = 0%nat -> hist_ok (PP None) s ->
  forall (c : list Z) k, colouring K es c -> uses c k -> (k <= UB)%nat -> b_primal (s_b s) <= Z.of_nat k.
Proof. exact @pr_optimal. Qed.
Print Assumptions C60_search_is_optimal_partial.
Example C60_case : simple_graph 8 g8 /\ colouring 8 g8 [1; 2; 2; 2; 1; 1; 1; 1] /\ uses [1; 2; 2; 2; 1; 1; 1; 1] 2 /\
  forall St (PP : option Z -> prob St), program 8 g8 8 PP -> exists s, crun PP 2 = Ok (s, Emptied) /\ b_primal (s_b s) = 2 /\ b_inc (s_b s) = [1; 2; 2; 2; 1; 1; 1; 1] /\
    s_ttl s = 5%nat /\ s_seen s = 0%nat /\ length (s_hist s) = 3%nat /\ hist_ok (PP None) s.
Proof. csplit; [exact g8_graph|exact (proj1 g8_two)|exact (proj2 g8_two)|exact @g8_run]. Qed.
Example C60_wide_case : exists s, crun (co_prob 5 c5 5) 20 = Ok (s, Emptied) /\ b_primal (s_b s) = 3 /\ s_ttl s = 1%nat.
Proof.
  destruct (so_inv (co_prob 5 c5 5 None) (crun (co_prob 5 c5 5) 20) (mkObs 3 [1; 2; 1; 3; 2] [[1; 2; 1; 3; 2]] 1 0 0 0 false 0 false true None) (pr_refl 5 c5 5 _ (coloring1 5 c5 5))) as (s & H & H1 & _ & _ & H2 & _);
    [vm_compute; reflexivity|exists s; csplit; auto].
Qed.
(** finding: all four programs stop at three colours on bipartite graphs with five (width 1) and six (width 2) vertices *)
Theorem C60_search_is_optimal_refuted : (simple_graph 5 g5 /\ colouring 5 g5 [1; 2; 2; 1; 1] /\ uses [1; 2; 2; 1; 1] 2 /\
    forall St (PP : option Z -> prob St), program 5 g5 5 PP -> exists s, crun PP 1 = Ok (s, Emptied) /\ b_primal (s_b s) = 3 /\ s_seen s = 1%nat /\ hist_ok (PP None) s) /\
  (simple_graph 6 g6 /\ colouring 6 g6 [1; 2; 1; 2; 1; 1] /\ uses [1; 2; 1; 2; 1; 1] 2 /\
    forall St (PP : option Z -> prob St), program 6 g6 6 PP -> exists s, crun PP 2 = Ok (s, Emptied) /\ b_primal (s_b s) = 3 /\ s_seen s = 1%nat /\ hist_ok (PP None) s).
Proof. csplit; [exact g5_graph|exact (proj1 g5_two)|exact (proj2 g5_two)|exact @g5_run|exact g6_graph|exact (proj1 g6_two)|exact (proj2 g6_two)|exact @g6_run]. Qed.
Print Assumptions C60_search_is_optimal_refuted.
(** finding: a graph with an edge from a vertex to itself has no colouring; the programs report one, and the checker rejects it *)
Theorem C60_loop_edge_refuted : forall St (PP : option Z -> prob St), program 2 [(0, 0)]%nat 2 PP ->
  (forall c : list Z, ~ colouring 2 [(0, 0)]%nat c) /\ exists s, crun PP 2 = Ok (s, Emptied) /\ b_inc (s_b s) = [1; 1] /\ b_primal (s_b s) = 1 /\ co_check [(0, 0)]%nat (b_inc (s_b s)) = Ok false.
Proof.
  intros St PP PR. split.
  - intros [|x c] [L C]; [discriminate|]. exact (C 0%nat 0%nat (or_introl eq_refl) x eq_refl eq_refl).
  - destruct (loop_run PP PR) as (s & H1 & H2 & H3). exists s. csplit; auto. rewrite H2. reflexivity.
Qed.
Print Assumptions C60_loop_edge_refuted.
(** C60: coloringtoy.cpp, with its own graph and width, reports a colouring with the least number of colours *)
Theorem C60_toy_program_result : exists s, crun (ct_prob 5 ct_es 5) 4 = Ok (s, Emptied) /\ b_primal (s_b s) = 3 /\ b_inc (s_b s) = [1; 1; 2; 2; 3] /\
  colouring 5 ct_es (b_inc (s_b s)) /\ forall (c : list Z) k, colouring 5 ct_es c -> uses c k -> (3 <= k)%nat.
Proof.
  destruct ct_run as (s & E & P & I & _). exists s. csplit; auto; [|exact ct_three]. rewrite I. apply colb_ok. vm_compute. reflexivity.
Qed.
Print Assumptions C60_toy_program_result.
