(** Properties C61 and C62: the TSP examples with depot 0 (examples/tsp_test2.cpp, tsp_test3.cpp, tsp_test4.cpp, tsptw.cpp) and their local bounds. *)
From Verif Require Import Base DDModel DDSpec DDFrame DDMerge DDExact DDWide DDExamples SearchModel SearchProofs SearchEx TspModel TspSpec TspProofs TourModel TourSpec TourBound TourProofs TourTop TourRoot TourEnd.
From Coq Require Import Permutation.

(** ** C61: the programs.  [tprogram nv d junk P size]: P is one of the four on nv cities with distances d; [junk] is the int that the bound of the initial
    state, which is undefined (C62), happens to yield *)

(** C61: the solutions are exactly the closed tours from city 0 through every other city once, valued by their length *)
Theorem C61_solutions_are_tours : forall nv d junk, 1 <= nv -> (Z.of_nat nv <= 2147483647)%Z -> forall St (P : prob St) size, tprogram nv d junk P size ->
  forall ls v, path P (p_init P) ls v (p_target P) <-> exists l, tour0 nv l /\ ls = map Z.of_nat l /\ v = walk d 0 l.
Proof. intros nv d junk H S St P size TP. exact (tp_solutions nv d junk H S P size TP). Qed.
Print Assumptions C61_solutions_are_tours.
Example C61_solution_case : path (t3_probj 5 dA 0) (p_init (t3_probj 5 dA 0)) [3; 2; 1; 4; 0]%Z 25 (p_target (t3_probj 5 dA 0)).
Proof. apply (C61_solutions_are_tours 5 dA 0 ltac:(lia) ltac:(lia) _ _ _ (tp_3 5 dA 0)). exists [3; 2; 1; 4; 0]. destruct dA_tour as [T W]. auto. Qed.

(** C61: the closures are valid (closed, layered, at most nv-1 deep, merging keeps every completion, the bounds do not exceed any completion), provided
    the undefined bound of the initial state is not more than a shortest tour *)
Theorem C61_closures_valid : forall nv d junk, 1 <= nv -> (Z.of_nat nv <= 2147483647)%Z -> forall St (P : prob St) size, tprogram nv d junk P size ->
  (forall l, tour0 nv l -> (junk <= walk d 0 l)%Z) -> exists I rank, I (p_init P) /\ valid_model P I rank (nv - 1).
Proof. intros nv d junk H S St P size TP. exact (tp_valid nv d junk H S P size TP). Qed.
Print Assumptions C61_closures_valid.
(** tsp_test4 merges only states whose sets of visited cities differ in size by less than 5; tsp_test2 merges the others too *)
Example C61_merge_case : p_smf (t4_prob 7 dC 0) (mkTsp 15 3 3) (mkTsp 27 3 3) = Some (mkTsp 11 3 3) /\ p_smf (t4_prob 7 dC 0) (mkTsp 127 1 6) (mkTsp 3 1 6) = None /\
  p_smf (t2_prob 7 dC 0) (mkTsp 127 1 6) (mkTsp 3 1 6) = Some (mkTsp 3 1 6).
Proof. vm_compute. auto. Qed.

(** C61: a search of any width ends, and everything it reports is a tour of the reported length *)
Theorem C61_search_reports_tours : forall nv d junk, 1 <= nv -> (Z.of_nat nv <= 2147483647)%Z -> forall St (P : prob St) size, tprogram nv d junk P size ->
  forall srt dfuel mxw lim fuel, fits nv d -> (forall l, tour0 nv l -> (junk <= walk d 0 l)%Z) -> (forall dd l, Permutation (srt dd l) l) -> nv < dfuel ->
  (N.of_nat mxw < 4294967296)%N -> size + 1 <= fuel ->
  exists s e, search P srt dfuel lim fuel mxw None = Ok (s, e) /\
    (forall lab, In lab (b_log (s_b s)) -> exists l, tour0 nv l /\ lab = map Z.of_nat l) /\
    (b_primal (s_b s) <> 2147483647%Z -> exists l, tour0 nv l /\ b_inc (s_b s) = map Z.of_nat l /\ b_primal (s_b s) = walk d 0 l).
Proof.
  intros nv d junk H S St P size TP srt dfuel mxw lim fuel FT J Hs Hf Hm F. destruct (tp_total nv d junk H S P size TP srt dfuel mxw lim FT J Hs Hf Hm fuel F) as (s & e & E).
  exists s, e. split; [exact E|]. exact (tp_genuine nv d junk H S P size TP srt dfuel mxw lim FT J Hs Hf Hm fuel s e E).
Qed.
Print Assumptions C61_search_reports_tours.
Example C61_fits_case : fits 5 dA /\ fits 5 dC /\ (forall l, tour0 5 l -> (0 <= walk dA 0 l)%Z) /\ (forall l, tour0 5 l -> (0 <= walk dC 0 l)%Z).
Proof. csplit; auto using dA_fits, dC_fits; intros; [apply dA_low|apply dC_low]. Qed.

(** C61: if the width is never reached, the search finds a shortest tour at the first node *)
Theorem C61_wide_search_optimal : forall nv d junk, 1 <= nv -> (Z.of_nat nv <= 2147483647)%Z -> forall St (P : prob St) size, tprogram nv d junk P size ->
  forall srt dfuel mxw lim fuel, fits nv d -> (forall l, tour0 nv l -> (junk <= walk d 0 l)%Z) -> (forall dd l, Permutation (srt dd l) l) -> nv < dfuel ->
  (N.of_nat mxw < 4294967296)%N -> (forall l, tour0 nv l -> (- 2147483647 <= walk d 0 l)%Z) -> lim 0 = false -> narrow P (p_init P) mxw -> 1 <= fuel ->
  exists s, search P srt dfuel lim fuel mxw None = Ok (s, Emptied) /\ s_ttl s = 1 /\ forall l, tour0 nv l -> (b_primal (s_b s) <= walk d 0 l)%Z.
Proof. intros nv d junk H S St P size TP srt dfuel mxw lim fuel FT J Hs Hf Hm Lo. exact (tp_wide nv d junk H S P size TP srt dfuel mxw lim FT J Hs Hf Hm Lo fuel). Qed.
Print Assumptions C61_wide_search_optimal.
(** such a width exists: the number of states *)
Theorem C61_wide_enough : forall nv d junk, 1 <= nv -> (Z.of_nat nv <= 2147483647)%Z -> forall St (P : prob St) size, tprogram nv d junk P size -> narrow P (p_init P) size.
Proof. intros nv d junk H S St P size TP. exact (tp_narrow nv d junk H S P size TP). Qed.
Print Assumptions C61_wide_enough.
Example C61_wide_case : narrow (t4_prob 5 dA 0) (p_init (t4_prob 5 dA 0)) 800.
Proof. exact (C61_wide_enough 5 dA 0 ltac:(lia) ltac:(lia) _ _ _ (tp_4 5 dA 0)). Qed.

(** C61, full statement: a search of any width that ends with an empty queue finds a shortest tour.  Proved when no node was dropped as "seen" (C18) and no
    relaxed diagram has an improving edge that the cut set leaves out (hist_ok, C16) *)
Theorem C61_search_optimal_partial : forall nv d junk, 1 <= nv -> (Z.of_nat nv <= 2147483647)%Z -> forall St (P : prob St) size, tprogram nv d junk P size ->
  forall srt dfuel mxw lim fuel s, fits nv d -> (forall l, tour0 nv l -> (junk <= walk d 0 l)%Z) -> (forall dd l, Permutation (srt dd l) l) -> nv < dfuel ->
  (N.of_nat mxw < 4294967296)%N -> (forall l, tour0 nv l -> (- 2147483647 <= walk d 0 l)%Z) ->
  search P srt dfuel lim fuel mxw None = Ok (s, Emptied) -> s_seen s = 0 -> hist_ok P s -> forall l, tour0 nv l -> (b_primal (s_b s) <= walk d 0 l)%Z.
Proof. intros nv d junk H S St P size TP srt dfuel mxw lim fuel s FT J Hs Hf Hm Lo. exact (tp_optimal nv d junk H S P size TP srt dfuel mxw lim FT J Hs Hf Hm Lo fuel s). Qed.
Print Assumptions C61_search_optimal_partial.
(** all four programs meet the hypotheses on five cities with width 1; several nodes are treated *)
Example C61_search_case : forall St (P : prob St) n, tprogram 5 dA 0 P n ->
  exists s, search P (exSrt P) 40 nolim 400 1 None = Ok (s, Emptied) /\ b_primal (s_b s) = 25%Z /\ s_seen s = 0 /\ hist_ok P s /\ 4 < s_ttl s.
Proof. exact t_right. Qed.

(** finding: the full statement is false of each of the four programs *)
Theorem C61_search_optimal_refuted :
  (forall St (P : prob St) n, tprogram 5 dC 0 P n -> exists s, search P (exSrt P) 40 nolim 400 1 None = Ok (s, Emptied) /\ b_primal (s_b s) = 56%Z /\ s_seen s = 0) /\
  tour0 5 [1; 4; 2; 3; 0] /\ walk dC 0 [1; 4; 2; 3; 0] = 43%Z.
Proof. exact t_misses. Qed.
Print Assumptions C61_search_optimal_refuted.

(** C61: the component lb of the states of tsp_test2 and tsp_test3 has no effect: every closure of the program with lb is that of the program without *)
Theorem C61_lb_is_not_used : forall nv d junk, forgets (t2_prob nv d junk) (t2_full nv d junk) /\ forgets (t3_probj nv d junk) (t3_full nv d junk).
Proof. intros nv d junk. split; [apply t2_forgets|apply t3_forgets]. Qed.
Print Assumptions C61_lb_is_not_used.
Example C61_lb_case : p_stf (t2_full 5 dA 0) (mkLb _ (mkTsp 3 1 1) 9) 2 = Some (mkLb _ (mkTsp 7 2 2) 11) /\ p_eqb (t2_full 5 dA 0) (mkLb _ (mkTsp 3 1 1) 9) (mkLb _ (mkTsp 3 1 1) 4) = true.
Proof. vm_compute. auto. Qed.

(** ** C62: the bounds.  [pre]: the cities visited so far; [A]: the set in the state, between the common part that a merged state keeps and all of [pre] *)

(** C62: past the root, the bound of tsp_test3, tsp_test4 and tsptw is defined and not more than any way of completing the tour *)
Theorem C62_greedy_bound_sound : forall nv d inf A pre post, 1 <= nv -> pre <> [] -> tour0 nv (pre ++ post ++ [0]) -> stands_for A pre ->
  exists v, greedy nv d inf A (last pre 0) (length pre) = Ok v /\ (v <= walk d (last pre 0%nat) (post ++ [0%nat]))%Z.
Proof. exact greedy_bound. Qed.
Print Assumptions C62_greedy_bound_sound.
(** C62: likewise the spanning tree bound of tsp_test2 (guard = false) and tsp_test4 (guard = true) *)
Theorem C62_spanning_tree_bound_sound : forall nv d guard A pre post, 1 <= nv -> (Z.of_nat nv <= 2147483647)%Z -> pre <> [] -> tour0 nv (pre ++ post ++ [0]) -> stands_for A pre ->
  exists v, mst nv d guard A (last pre 0) (length pre) = Ok v /\ (v <= walk d (last pre 0%nat) (post ++ [0%nat]))%Z.
Proof. exact mst_bound. Qed.
Print Assumptions C62_spanning_tree_bound_sound.
(** a merged state: after 3, 2 or after 1, 2 only {0, 2} is certain *)
Example C62_bounds_case : tour0 5 ([3; 2] ++ [1; 4] ++ [0]) /\ stands_for 5 [3; 2] /\ greedy 5 dA imax 5 2 2 = Ok 6%Z /\ mst 5 dA false 5 2 2 = Ok 9%Z /\ mst 5 dA true 5 2 2 = Ok 9%Z /\
  walk dA 2 [1; 4; 0] = 17%Z.
Proof.
  split; [is_tour [3; 2; 1; 4]|]. split; [|csplit; vm_compute; reflexivity]. split; [reflexivity|]. split; [reflexivity|].
  intros c Hc. destruct c as [|[|[|c]]]; auto; try discriminate Hc; [right; cbn; auto|]. exfalso.
  assert (L : N.testbit 5 (N.of_nat (S (S (S c)))) = false) by (apply N.bits_above_log2; cbn; lia). unfold bmem in Hc. congruence.
Qed.

(** finding: the bound of the initial state, which the search takes first (src/search.cpp:48), is undefined on every instance: greedy reads a cell of the
    array of edges that was never written, the spanning tree loop of tsp_test2 extracts from the empty heap; the guard of tsp_test4 only helps the latter *)
Theorem C62_root_bound_defined_refuted : forall nv d, 1 <= nv -> (Z.of_nat nv <= 2147483647)%Z -> forall inf A e,
  greedy nv d inf A e 0 = Err UB /\ mst nv d false A e 0 = Err UB /\ exists v, mst nv d true A e 0 = Ok v.
Proof. intros nv d H S inf A e. split; [now apply greedy_root|]. split; [now apply mst_root|now apply mst_root_guard]. Qed.
Print Assumptions C62_root_bound_defined_refuted.

(** finding: if it yields 2147483647 or more, the search ends at once without any tour *)
Theorem C62_search_finds_a_tour_refuted : forall nv d junk, 1 <= nv -> (2147483647 <= junk)%Z -> (Z.of_nat nv <= 2147483647)%Z ->
  forall St (P : prob St) size, tprogram nv d junk P size -> forall srt dfuel lim fuel mxw, lim 0 = false -> 1 <= fuel ->
  exists s, search P srt dfuel lim fuel mxw None = Ok (s, Emptied) /\ b_primal (s_b s) = 2147483647%Z /\ b_log (s_b s) = [] /\ s_ttl s = 1.
Proof. intros nv d junk H HJ S St P size TP srt dfuel lim fuel mxw. exact (tp_nothing nv d junk P size srt dfuel lim fuel mxw H HJ S TP). Qed.
Print Assumptions C62_search_finds_a_tour_refuted.
