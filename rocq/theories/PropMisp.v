(** Property C47: the MISP examples (examples/misp.cpp, misp2.cpp, misp3.cpp, misp4.cpp, misp5.cpp). *)
From Verif Require Import Base DDModel DDSpec DDFrame DDRestricted DDExact DDExamples SearchModel SearchProofs SearchEx TspModel TspProofs MispModel MispSpec MispProofs MispInst MispFirst MispEnd.
From Coq Require Import Permutation Sorting.Sorted.

(** C47: in misp2 to misp5 the solutions represent the independent sets one to one, valued by their weight ([represents]: the labels tell for an
    increasing list of vertices which are picked; every independent set is picked by exactly one solution).  In misp4 and misp5 the labels decide
    about the vertices 0, 1, 2, ... in turn.  Weights may be negative. *)
Theorem C47_solutions_are_independent_sets : forall top es weight, 1 <= top ->
  (exists vertex, represents (misp2 top es weight) top es weight vertex) /\ (exists vertex, represents (misp3 top es weight) top es weight vertex) /\
  represents (misp4p top es weight) top es weight (fun ls => seq 0 (length ls)) /\ represents (misp5 top es weight) top es weight (fun ls => seq 0 (length ls)).
Proof. exact misp_represent. Qed.
Print Assumptions C47_solutions_are_independent_sets.
Example C47_solution_case : indep_set 5 g3 [1; 3; 4] /\ path (misp4p 5 g3 one) (p_init (misp4p 5 g3 one)) [0; 1; 0; 1; 1]%Z 3 (p_target (misp4p 5 g3 one)).
Proof. split; [now apply indepb_ok|]. apply walk_path; [intros; apply misp4_eqb_eq|reflexivity]. Qed.

(** C47, misp.cpp: its solutions are the independent sets that no vertex beyond their last one can be added to; the labels are the vertices *)
Theorem C47_misp_solutions : forall top es weight, 1 <= top -> forall ls v,
  path (misp1 top es weight) (p_init (misp1 top es weight)) ls v (p_target (misp1 top es weight)) <->
  exists S, indep_set top es S /\ right_maximal top es S /\ ls = map Z.of_nat S /\ v = total weight S.
Proof. exact m1_solutions. Qed.
Print Assumptions C47_misp_solutions.
(** C47, misp.cpp: with weights >= 0 they include a best independent set *)
Theorem C47_misp_solutions_suffice : forall top es weight, 1 <= top -> (forall v, v < top -> (0 <= weight v)%Z) -> forall S, indep_set top es S ->
  exists ls v, path (misp1 top es weight) (p_init (misp1 top es weight)) ls v (p_target (misp1 top es weight)) /\ (total weight S <= v)%Z.
Proof. exact m1_optimum. Qed.
Print Assumptions C47_misp_solutions_suffice.
(** finding: they are not all the independent sets, and with negative weights they may miss the best one *)
Theorem C47_misp_all_sets_refuted : (indep_set 3 [] [0] /\
    ~ exists ls v, path (misp1 3 [] one) (p_init (misp1 3 [] one)) ls v (p_target (misp1 3 [] one)) /\ ls = [0%Z]) /\
  (indep_set 1 [] [] /\ total (fun _ => (-1)%Z) [] = 0%Z /\
    forall ls v, path (misp1 1 [] (fun _ => (-1)%Z)) (p_init (misp1 1 [] (fun _ => (-1)%Z))) ls v (p_target (misp1 1 [] (fun _ => (-1)%Z))) -> v = (-1)%Z).
Proof. exact (conj misp1_not_all misp1_negative). Qed.
Print Assumptions C47_misp_all_sets_refuted.

(** C47: with weights >= 0 the closures of all five are valid: closed, layered, merge relaxes, local bound bounds *)
Theorem C47_closures_valid : forall top es weight, 1 <= top -> nonneg top weight ->
  valid_model (misp1 top es weight) (inv1 top es weight) m_n (top - 1) /\
  valid_model (misp2 top es weight) (dinv (misp2 top es weight) (live2 top)) m_n (top - 1) /\
  valid_model (misp3 top es weight) (dinv (misp3 top es weight) (live3 top)) m_n (top - 1) /\
  valid_model (misp4p top es weight) (dinv (misp4p top es weight) (live4 top)) q_n (top - 1) /\
  valid_model (misp5 top es weight) (dinv (misp5 top es weight) (live5 top)) m_n (top - 1).
Proof. exact misp_valid. Qed.
Print Assumptions C47_closures_valid.
Example C47_nonneg_case : nonneg 5 one /\ p_smf (misp4p 5 g3 one) (mkM4 24 2) (mkM4 20 2) = Some (mkM4 28 2) /\ m4_local 5 one (mkM4 28 2) false = 3%Z.
Proof. split; [apply one_nonneg|split; reflexivity]. Qed.
(** the invariants hold initially *)
Theorem C47_initial_states : forall top es weight, 1 <= top ->
  inv1 top es weight (p_init (misp1 top es weight)) /\ dinv (misp2 top es weight) (live2 top) (p_init (misp2 top es weight)) /\
  dinv (misp3 top es weight) (live3 top) (p_init (misp3 top es weight)) /\ dinv (misp4p top es weight) (live4 top) (p_init (misp4p top es weight)) /\
  dinv (misp5 top es weight) (live5 top) (p_init (misp5 top es weight)).
Proof.
  intros top es weight H. repeat split; left; [now apply (m1_init_live top es weight)|now apply (dc_init _ _ _ _ _ _ _ _ (dec2 top es weight H))|
    now apply (dc_init _ _ _ _ _ _ _ _ (dec3 top es weight H))|now apply (dc_init _ _ _ _ _ _ _ _ (dec4 top es weight H))|now apply (dc_init _ _ _ _ _ _ _ _ (dec5 top es weight H))].
Qed.
Print Assumptions C47_initial_states.
(** finding: with negative weights the local bounds are not valid *)
Theorem C47_negative_local_refuted : ~ valid_local (misp3 2 [] negw) (dinv (misp3 2 [] negw) (live3 2)) /\
  ~ valid_local (misp4p 2 [] negw) (dinv (misp4p 2 [] negw) (live4 2)) /\ ~ valid_local (misp5 2 [] negw) (dinv (misp5 2 [] negw) (live5 2)).
Proof. exact negative_local. Qed.
Print Assumptions C47_negative_local_refuted.

(** C47: exact diagrams of misp.cpp and misp2.cpp find a maximum weight independent set *)
Theorem C47_exact_diagram_misp : forall top es weight, 1 <= top -> forall fuel primal, (forall v, v < top -> (0 <= weight v)%Z) ->
  2 ^ top * (top + 1) * (top + 1) + 1 <= fuel ->
  exists d n S, ex_compute (misp1 top es weight) fuel (initDefault (misp1 top es weight) (dd_empty (misp1 top es weight) true)) primal = Ok d /\ trg_node d = Ok n /\
    indep_set top es S /\ n_lab n = map Z.of_nat S /\ n_bound n = total weight S /\ forall S', indep_set top es S' -> (total weight S' <= n_bound n)%Z.
Proof. exact m1_exact. Qed.
Print Assumptions C47_exact_diagram_misp.
Theorem C47_exact_diagram_misp2 : forall top es weight, 1 <= top -> forall fuel primal, (forall v, v < top -> (0 <= weight v)%Z) ->
  2 ^ top * (top + 1) * (top + 1) + 1 <= fuel ->
  exists d n vs, ex_compute (misp2 top es weight) fuel (initDefault (misp2 top es weight) (dd_empty (misp2 top es weight) true)) primal = Ok d /\ trg_node d = Ok n /\
    length vs = length (n_lab n) /\ indep_set top es (picks vs (n_lab n)) /\ n_bound n = total weight (picks vs (n_lab n)) /\
    forall S', indep_set top es S' -> (total weight S' <= n_bound n)%Z.
Proof. exact m2_exact. Qed.
Print Assumptions C47_exact_diagram_misp2.

(** C47: a search of any width ends, and everything it reports is an independent set of the reported weight *)
Theorem C47_misp_search : forall top es weight, 1 <= top -> forall srt dfuel mxw lim fuel, nonneg top weight -> (forall dd l, Permutation (srt dd l) l) ->
  top < dfuel -> (N.of_nat mxw < 4294967296)%N -> 2 ^ top * (top + 1) * (top + 1) + 1 <= fuel ->
  exists s e, search (misp1 top es weight) srt dfuel lim fuel mxw None = Ok (s, e) /\
    (forall lab, In lab (b_log (s_b s)) -> exists S, indep_set top es S /\ lab = map Z.of_nat S) /\
    (b_primal (s_b s) <> sentinel (misp1 top es weight) -> exists S, indep_set top es S /\ b_inc (s_b s) = map Z.of_nat S /\ b_primal (s_b s) = total weight S).
Proof. exact misp1_search. Qed.
Print Assumptions C47_misp_search.
Theorem C47_search_reports_independent_sets : forall top es weight, 1 <= top -> forall srt2 srt3 srt4 srt5 dfuel mxw lim fuel, nonneg top weight ->
  (forall dd l, Permutation (srt2 dd l) l) -> (forall dd l, Permutation (srt3 dd l) l) -> (forall dd l, Permutation (srt4 dd l) l) -> (forall dd l, Permutation (srt5 dd l) l) ->
  top < dfuel -> (N.of_nat mxw < 4294967296)%N -> 2 ^ top * (top + 1) * (top + 1) + 1 <= fuel ->
  (exists vertex s e, search (misp2 top es weight) srt2 dfuel lim fuel mxw None = Ok (s, e) /\ represents (misp2 top es weight) top es weight vertex /\ reports (misp2 top es weight) top es weight vertex s) /\
  (exists vertex s e, search (misp3 top es weight) srt3 dfuel lim fuel mxw None = Ok (s, e) /\ represents (misp3 top es weight) top es weight vertex /\ reports (misp3 top es weight) top es weight vertex s) /\
  (exists vertex s e, search (misp4p top es weight) srt4 dfuel lim fuel mxw None = Ok (s, e) /\ represents (misp4p top es weight) top es weight vertex /\ reports (misp4p top es weight) top es weight vertex s) /\
  (exists vertex s e, search (misp5 top es weight) srt5 dfuel lim fuel mxw None = Ok (s, e) /\ represents (misp5 top es weight) top es weight vertex /\ reports (misp5 top es weight) top es weight vertex s).
Proof. exact misp_searches. Qed.
Print Assumptions C47_search_reports_independent_sets.
(** finding: but not necessarily a maximum one, in any of the five ([misses P es top w got best seen]: with width w the search ends with [got] although
    an independent set of weight [best] exists; [seen] nodes were dropped as already seen).  With seen = 0 the cause is an arc from an exact node
    straight to the sink: computeCutSet skips it, so no queued node covers that solution *)
Theorem C47_search_optimal_refuted : misses (misp1 6 g1 one) g1 6 2 3 4 0 /\ misses (misp2 6 g2 one) g2 6 2 3 4 0 /\ misses (misp3 5 g3 one) g3 5 2 2 3 0 /\
  misses (misp4p 7 g4 one) g4 7 2 3 4 0 /\ misses (misp5 7 g4 one) g4 7 2 3 4 0 /\ misses (misp4p 4 g5 one) g5 4 1 1 3 1.
Proof. exact misp_misses. Qed.
Print Assumptions C47_search_optimal_refuted.

(** C47: the solution checkers of misp4 and misp5 accept every solution on graphs without self loops *)
Theorem C47_checkers_accept : forall top es weight, 1 <= top -> (forall a b, In (a, b) es -> a <> b) ->
  (forall ls v, path (misp4p top es weight) (p_init (misp4p top es weight)) ls v (p_target (misp4p top es weight)) -> checker es ls = true) /\
  (forall ls v, path (misp5 top es weight) (p_init (misp5 top es weight)) ls v (p_target (misp5 top es weight)) -> checker es ls = true).
Proof. exact checkers_accept. Qed.
Print Assumptions C47_checkers_accept.
Example C47_no_loops_case : forall a b, In (a, b) g4 -> a <> b.
Proof. intros a b H. cbn in H. repeat (destruct H as [H|H]; [injection H as <- <-; discriminate|]). destruct H. Qed.
(** finding: those of misp, misp2 and misp3 reject some, because their labels are not flags of the vertices 0, 1, 2, ... *)
Theorem C47_checkers_refuted :
  (exists ls v, path (misp1 4 [(0, 1)] one) (p_init (misp1 4 [(0, 1)] one)) ls v (p_target (misp1 4 [(0, 1)] one)) /\ checker [(0, 1)] ls = false) /\
  (exists ls v, path (misp2 3 [(0, 1)] one) (p_init (misp2 3 [(0, 1)] one)) ls v (p_target (misp2 3 [(0, 1)] one)) /\ checker [(0, 1)] ls = false) /\
  (exists ls v, path (misp3 3 [(0, 1)] one) (p_init (misp3 3 [(0, 1)] one)) ls v (p_target (misp3 3 [(0, 1)] one)) /\ checker [(0, 1)] ls = false).
Proof. exact checkers_reject. Qed.
Print Assumptions C47_checkers_refuted.
(** finding: the sum in misp5's checker reads past the end of a solution exactly when it has fewer labels than there are vertices; such solutions exist *)
Theorem C47_misp5_sum_refuted : (forall top w ls, m5_sum top w ls = Err UB <-> length ls < top) /\
  exists ls v, path (misp5 2 [(0, 1)] one) (p_init (misp5 2 [(0, 1)] one)) ls v (p_target (misp5 2 [(0, 1)] one)) /\ checker [(0, 1)] ls = true /\ m5_sum 2 one ls = Err UB.
Proof. exact (conj m5_sum_ok m5_sum_overrun). Qed.
Print Assumptions C47_misp5_sum_refuted.
