(** Property C48: the TSP example (examples/tsp.cpp). *)
From Verif Require Import Base DDModel DDSpec DDFrame DDRestricted DDExact DDExamples SearchModel SearchProofs SearchEx TspModel TspSpec TspProofs TspEnd.
From Coq Require Import Permutation.

(** C48: the solutions are exactly the closed tours from city 1 through every other city once, valued by their length *)
Theorem C48_solutions_are_tours : forall nv d, 2 <= nv -> forall ls v, path (tsp_prob nv d) (p_init (tsp_prob nv d)) ls v (p_target (tsp_prob nv d)) <->
  exists l, tour nv l /\ ls = map Z.of_nat l /\ v = walk d 1 l.
Proof. exact tsp_solutions. Qed.
Print Assumptions C48_solutions_are_tours.
Example C48_solution_case : path (tsp_prob 3 tdist) (p_init (tsp_prob 3 tdist)) [2; 0; 1]%Z 20 (p_target (tsp_prob 3 tdist)).
Proof. apply C48_solutions_are_tours; [lia|]. exists [2; 0; 1]. destruct tour3 as (T & W & _). auto. Qed.

(** C48: the closures are valid: reachable states are closed under transitions and merging, layered by the number of hops, at most nv-1 deep, and a
    merged state has every completion of the states it stands for, at the same cost *)
Theorem C48_closures_valid : forall nv d, 2 <= nv -> tsp_inv nv (p_init (tsp_prob nv d)) /\ valid_model (tsp_prob nv d) (tsp_inv nv) t_h (nv - 1).
Proof. intros nv d H. split; [left; now apply (tsp_init_live nv d)|now apply tsp_valid]. Qed.
Print Assumptions C48_closures_valid.
(** the merge does merge: two partial tours over different cities that end in the same city *)
Example C48_merge_case : p_smf (tsp_prob 5 tdist) (mkTsp 9 3 2) (mkTsp 12 3 2) = Some (mkTsp 8 3 2) /\ tsp_inv 5 (mkTsp 9 3 2) /\ tsp_inv 5 (mkTsp 12 3 2).
Proof.
  split; [reflexivity|]. split; left; unfold tsp_live; cbn [t_s t_e t_h]; csplit; try lia; auto; intros c Hc;
    (destruct (Nat.lt_ge_cases c 5) as [L|L]; [split; [exact L|intros ->; discriminate]|]);
    exfalso; unfold TspModel.bmem in Hc; rewrite N.bits_above_log2 in Hc; [discriminate|cbn; lia|discriminate|cbn; lia].
Qed.

(** C48: every distance the closures read is inside the nv x nv matrix *)
Theorem C48_indices_in_range : forall nv d, 2 <= nv -> forall s l, tsp_inv nv s -> s <> p_target (tsp_prob nv d) -> In l (p_labels (tsp_prob nv d) s) ->
  t_e s < nv /\ (0 <= l < Z.of_nat nv)%Z.
Proof. exact tsp_indices. Qed.
Print Assumptions C48_indices_in_range.
(** finding: with one city it is not: the depot is city 1 *)
Theorem C48_single_city_refuted : forall d, In 1%Z (p_labels (tsp_prob 1 d) (p_init (tsp_prob 1 d))) /\ p_init (tsp_prob 1 d) <> p_target (tsp_prob 1 d).
Proof. exact tsp_one. Qed.
Print Assumptions C48_single_city_refuted.

(** C48: an exact diagram computes a shortest tour; [fits]: every walk of at most nv steps is shorter than 2^31-1 (the value the engine uses for "none") *)
Theorem C48_exact_diagram_finds_shortest_tour : forall nv d, 2 <= nv -> forall fuel primal, fits nv d -> 2 ^ nv * nv * nv + 1 <= fuel ->
  exists dd n l, ex_compute (tsp_prob nv d) fuel (initDefault (tsp_prob nv d) (dd_empty (tsp_prob nv d) true)) primal = Ok dd /\ trg_node dd = Ok n /\
    tour nv l /\ n_lab n = map Z.of_nat l /\ n_bound n = walk d 1 l /\ (forall l', tour nv l' -> (n_bound n <= walk d 1 l')%Z).
Proof. exact tsp_exact. Qed.
Print Assumptions C48_exact_diagram_finds_shortest_tour.

(** C48: a search of any width ends, and everything it reports is a tour of the reported length *)
Theorem C48_search_reports_tours : forall nv d, 2 <= nv -> forall srt dfuel mxw lim fuel, fits nv d -> (forall dd l, Permutation (srt dd l) l) -> nv < dfuel ->
  (N.of_nat mxw < 4294967296)%N -> 2 ^ nv * nv * nv + 1 <= fuel ->
  exists s e, search (tsp_prob nv d) srt dfuel lim fuel mxw None = Ok (s, e) /\
    (forall lab, In lab (b_log (s_b s)) -> exists l, tour nv l /\ lab = map Z.of_nat l) /\
    (b_primal (s_b s) <> 2147483647%Z -> exists l, tour nv l /\ b_inc (s_b s) = map Z.of_nat l /\ b_primal (s_b s) = walk d 1 l).
Proof. exact tsp_search. Qed.
Print Assumptions C48_search_reports_tours.
Example C48_fits_case : fits 6 tdist.
Proof. exact tdist_fits. Qed.

(** finding: but not necessarily a shortest one: on six cities, width 1, the search ends with 30 although there is a tour of length 27 (nodes whose
    state was queued before with a worse bound are dropped, C18) *)
Theorem C48_search_optimal_refuted : exists s, search (tsp_prob 6 tdist) (exSrt (tsp_prob 6 tdist)) 20 nolim 100 1 None = Ok (s, Emptied) /\
  b_primal (s_b s) = 30%Z /\ s_seen s = 9 /\ tour 6 [3; 2; 5; 0; 4; 1] /\ walk tdist 1 [3; 2; 5; 0; 4; 1] = 27%Z.
Proof. exact tsp_misses. Qed.
Print Assumptions C48_search_optimal_refuted.
