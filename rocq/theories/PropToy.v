(** Properties C63 and C64: the examples with a built-in instance (examples/tsptoy.cpp, tsptoy2.cpp, foo.cpp). *)
From Verif Require Import Base DDModel DDSpec DDFrame DDMerge DDExact DDWide DDExamples DDRelaxedEnd SearchModel SearchProofs SearchEx TspModel TspSpec TspProofs MispModel MispSpec TourEnd ToyModel ToySpec ToyProofs ToyTwo ToyFoo ToyEnd ToyRuns.
From Coq Require Import Permutation.

(** ** C63: tsptoy.cpp and tsptoy2.cpp *)

(** C63: for every number n of cities and all distances the solutions of both programs are exactly the closed tours from city 1, valued by their length *)
Theorem C63_solutions_are_tours : forall n d, 1 <= n -> forall ls v,
  (path (toy_prob n d) (p_init (toy_prob n d)) ls v (p_target (toy_prob n d)) <-> exists l, tour1 n l /\ ls = map Z.of_nat l /\ v = walk d 1 l) /\
  (path (toy2_prob n d) (p_init (toy2_prob n d)) ls v (p_target (toy2_prob n d)) <-> exists l, tour1 n l /\ ls = map Z.of_nat l /\ v = walk d 1 l).
Proof. intros n d H ls v. exact (conj (y_solutions n d H ls v) (z_solutions n d H ls v)). Qed.
Print Assumptions C63_solutions_are_tours.
Example C63_solution_case : path (toy2_prob 6 toy_d) (p_init (toy2_prob 6 toy_d)) [5; 4; 6; 2; 3; 1]%Z 94 (p_target (toy2_prob 6 toy_d)).
Proof. apply (C63_solutions_are_tours 6 toy_d ltac:(lia)). exists [5; 4; 6; 2; 3; 1]. destruct tour1_94 as [T W]. auto. Qed.

(** C63: the closures of tsptoy.cpp are valid (closed, layered, at most n-1 deep, merging keeps every completion) *)
Theorem C63_toy_closures_valid : forall n d, 1 <= n -> exists I rank, I (p_init (toy_prob n d)) /\ valid_model (toy_prob n d) I rank (n - 1).
Proof. intros n d H. exact (ex_intro _ (y_inv n) (ex_intro _ t_h (conj (or_introl (y_init_live n d H)) (y_valid n d H)))). Qed.
Print Assumptions C63_toy_closures_valid.
Example C63_merge_case : p_smf (toy_prob 6 toy_d) (mkTsp 60 2 4) (mkTsp 92 2 4) = Some (mkTsp 28 2 4) /\ p_smf (toy_prob 6 toy_d) (mkTsp 12 2 2) (mkTsp 20 2 2) = None.
Proof. vm_compute. auto. Qed.

(** C63: a search of tsptoy.cpp ends at every width, and everything it reports is a tour of the reported length *)
Theorem C63_toy_search_reports_tours : forall n d, 1 <= n -> forall srt dfuel mxw lim fuel, fits (S n) d -> (forall dd l, Permutation (srt dd l) l) -> n < dfuel ->
  (N.of_nat mxw < 4294967296)%N -> 2 ^ S n * S n * n + 1 <= fuel ->
  exists s e, search (toy_prob n d) srt dfuel lim fuel mxw None = Ok (s, e) /\
    (forall lab, In lab (b_log (s_b s)) -> exists l, tour1 n l /\ lab = map Z.of_nat l) /\
    (b_primal (s_b s) <> 2147483647%Z -> exists l, tour1 n l /\ b_inc (s_b s) = map Z.of_nat l /\ b_primal (s_b s) = walk d 1 l).
Proof. intros n d H srt dfuel mxw lim fuel. exact (y_search n d H srt dfuel mxw lim fuel). Qed.
Print Assumptions C63_toy_search_reports_tours.
Example C63_fits_case : fits 7 toy_d /\ forall dd l, Permutation (exSrt (toy_prob 6 toy_d) dd l) l.
Proof. split; [exact toy_fits|exact (exSrt_perm _)]. Qed.

(** C63: an exact diagram of tsptoy.cpp computes a shortest tour *)
Theorem C63_toy_exact_diagram : forall n d, 1 <= n -> forall fuel primal, fits (S n) d -> 2 ^ S n * S n * n + 1 <= fuel ->
  exists dd x l, ex_compute (toy_prob n d) fuel (initDefault (toy_prob n d) (dd_empty (toy_prob n d) true)) primal = Ok dd /\ trg_node dd = Ok x /\
    tour1 n l /\ n_lab x = map Z.of_nat l /\ n_bound x = walk d 1 l /\ (forall l', tour1 n l' -> (n_bound x <= walk d 1 l')%Z).
Proof. intros n d H fuel primal. exact (y_exact n d H fuel primal). Qed.
Print Assumptions C63_toy_exact_diagram.

(** C63: if the width is never reached, the search of tsptoy.cpp finds a shortest tour at the first node *)
Theorem C63_toy_wide_search_optimal : forall n d, 1 <= n -> forall srt dfuel mxw lim, fits (S n) d -> (forall dd l, Permutation (srt dd l) l) -> n < dfuel ->
  (N.of_nat mxw < 4294967296)%N -> (forall l, tour1 n l -> (- 2147483647 <= walk d 1 l)%Z) -> forall fuel, lim 0 = false -> narrow (toy_prob n d) (p_init (toy_prob n d)) mxw -> 1 <= fuel ->
  exists s, search (toy_prob n d) srt dfuel lim fuel mxw None = Ok (s, Emptied) /\ s_ttl s = 1 /\ forall l, tour1 n l -> (b_primal (s_b s) <= walk d 1 l)%Z.
Proof. intros n d H srt dfuel mxw lim FT Hs Hf Hm Lo. exact (y_search_wide n d H srt dfuel mxw lim FT Hs Hf Hm Lo). Qed.
Print Assumptions C63_toy_wide_search_optimal.
Example C63_wide_case : narrow (toy_prob 6 toy_d) (p_init (toy_prob 6 toy_d)) 64 /\ forall l, tour1 6 l -> (- 2147483647 <= walk toy_d 1 l)%Z.
Proof. split; [apply toy_narrow; lia|]. intros l _. pose proof (toy_low l 1). lia. Qed.

(** C63, full statement: a search of tsptoy.cpp of any width that ends with an empty queue finds a shortest tour.  Proved for every instance when no node was
    dropped as "seen" (C18) and no relaxed diagram has an improving edge that the cut set leaves out (hist_ok, C16) *)
Theorem C63_toy_search_optimal_partial : forall n d, 1 <= n -> forall srt dfuel mxw lim, fits (S n) d -> (forall dd l, Permutation (srt dd l) l) -> n < dfuel ->
  (N.of_nat mxw < 4294967296)%N -> (forall l, tour1 n l -> (- 2147483647 <= walk d 1 l)%Z) -> forall fuel s,
  search (toy_prob n d) srt dfuel lim fuel mxw None = Ok (s, Emptied) -> s_seen s = 0 -> hist_ok (toy_prob n d) s -> forall l, tour1 n l -> (b_primal (s_b s) <= walk d 1 l)%Z.
Proof. intros n d H srt dfuel mxw lim FT Hs Hf Hm Lo. exact (y_search_optimal n d H srt dfuel mxw lim FT Hs Hf Hm Lo). Qed.
Print Assumptions C63_toy_search_optimal_partial.

(** C63: on the built-in instance tsptoy.cpp reports a shortest tour for every width from 30 on, the default 64 included *)
Theorem C63_toy_program_result : forall w, 30 <= w -> (N.of_nat w < 4294967296)%N ->
  exists s, search (toy_prob 6 toy_d) (exSrt (toy_prob 6 toy_d)) 40 nolim 400 w None = Ok (s, Emptied) /\ b_primal (s_b s) = 94%Z /\
    (exists l, tour1 6 l /\ b_inc (s_b s) = map Z.of_nat l /\ walk toy_d 1 l = 94%Z) /\ forall l, tour1 6 l -> (94 <= walk toy_d 1 l)%Z.
Proof.
  intros w L H. destruct (toy_result w L H) as (s & E & V & T). exact (ex_intro _ s (conj E (conj V (conj T toy_shortest)))).
Qed.
Print Assumptions C63_toy_program_result.

(** C63: the merge of tsptoy2.cpp is not a relaxation: on the built-in instance it merges two reachable states of one depth into a state all of whose
    completions are longer, by at least 100, than a completion of the first *)
Theorem C63_toy2_merge_refuted : exists a b m v, let P := toy2_prob 6 toy_d in
  path P (p_init P) [3; 2]%Z 50 a /\ path P (p_init P) [4; 2]%Z 45 b /\ p_smf P a b = Some m /\
  compl P a v /\ (exists v', compl P m v') /\ forall v', compl P m v' -> (v + 100 <= v')%Z.
Proof. exact toy2_merge_bad. Qed.
Print Assumptions C63_toy2_merge_refuted.
(** C63: its test for the target holds of the initial state, which is not the target *)
Theorem C63_toy2_eqs_refuted : forall n d, 1 <= n -> p_eqs (toy2_prob n d) (p_init (toy2_prob n d)) = true /\ p_init (toy2_prob n d) <> p_target (toy2_prob n d).
Proof. intros n d H. exact (conj (proj1 (toy2_eqs_init n d)) (proj2 (toy2_eqs_init n d) H)). Qed.
Print Assumptions C63_toy2_eqs_refuted.
(** tests: with width 64 (the default) tsptoy2 nevertheless reports 94, as the engine refuses its merges (a node with the merged state exists on an
    earlier layer) *)
Example C63_toy2_run : ends_with (toy2_prob 6 toy_d) 94 (search (toy2_prob 6 toy_d) (exSrt (toy2_prob 6 toy_d)) 40 nolim 400 64 None) = true.
Proof. exact toy2_run. Qed.

(** ** C64: foo.cpp *)

(** C64: for every graph on vertices 1..n and all weights the solutions of foo.cpp are the independent sets, listed in increasing order and closed by the label
    n+1 if a vertex beyond the last one could still be added, valued by their weight *)
Theorem C64_solutions_are_independent_sets : forall n es weight, 1 <= n -> forall ls v,
  path (foo_prob n es weight) (p_init (foo_prob n es weight)) ls v (p_target (foo_prob n es weight)) <->
  exists S', indep1 n es S' /\ v = total weight S' /\
    (ls = map Z.of_nat S' /\ ~ extends1 n es S' \/ ls = map Z.of_nat S' ++ [Z.of_nat (S n)] /\ extends1 n es S').
Proof. intros n es weight H. exact (f_solutions n es weight H). Qed.
Print Assumptions C64_solutions_are_independent_sets.
Example C64_solution_case : indep1 5 foo_es [2; 5] /\ total foo_w [2; 5] = 11%Z.
Proof. exact foo_best. Qed.

(** C64: an exact diagram of foo.cpp finds an independent set of maximum weight *)
Theorem C64_exact_diagram : forall n es weight, 1 <= n -> forall fuel primal,
  (forall S', indep1 n es S' -> (-2147483647 < total weight S')%Z) -> 2 ^ S n <= fuel ->
  exists d x S', ex_compute (foo_prob n es weight) fuel (initDefault (foo_prob n es weight) (dd_empty (foo_prob n es weight) true)) primal = Ok d /\ trg_node d = Ok x /\
    indep1 n es S' /\ n_bound x = total weight S' /\ (n_lab x = map Z.of_nat S' \/ n_lab x = map Z.of_nat S' ++ [Z.of_nat (S n)]) /\
    forall S'', indep1 n es S'' -> (total weight S'' <= n_bound x)%Z.
Proof. intros n es weight H fuel primal. exact (f_exact n es weight H fuel primal). Qed.
Print Assumptions C64_exact_diagram.
Example C64_fits_case : forall S', indep1 5 foo_es S' -> (-2147483647 < total foo_w S')%Z.
Proof. exact foo_fits. Qed.

(** C64: the merge of foo.cpp (intersection) is not a relaxation *)
Theorem C64_merge_refuted : exists P a b m v, P = foo_prob 3 [] (fun _ => 1%Z) /\ path P (p_init P) [1]%Z 1 a /\ path P (p_init P) [2]%Z 1 b /\ p_smf P a b = Some m /\
  compl P a v /\ forall v', compl P m v' -> (v' < v)%Z.
Proof. exact foo_merge_bad. Qed.
Print Assumptions C64_merge_refuted.

(** C64: the program as written (its instance, width 1) ends with an empty queue and reports 10, but an independent set of weight 11 exists *)
Theorem C64_program_optimal_refuted : exists s S', search (foo_prob 5 foo_es foo_w) (exSrt (foo_prob 5 foo_es foo_w)) 40 nolim 400 1 None = Ok (s, Emptied) /\
  b_primal (s_b s) = 10%Z /\ b_inc (s_b s) = [1; 5]%Z /\ s_seen s = 1 /\ indep1 5 foo_es S' /\ total foo_w S' = 11%Z.
Proof.
  destruct foo_result as (s & E & H1 & H2 & H3). destruct foo_best as [I T].
  exact (ex_intro _ s (ex_intro _ [2; 5] (conj E (conj H1 (conj H2 (conj H3 (conj I T))))))).
Qed.
Print Assumptions C64_program_optimal_refuted.
