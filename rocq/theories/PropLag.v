(** Properties C65, C66, C67, C68: examples/misp4_lag.cpp and branch and bound with a local bound that keeps state. *)
From Coq Require Import QArith Permutation.
From Verif Require Import Base DDModel DDSpec DDFrame DDExamples DDRelaxedEnd DDWide SearchModel SearchProofs SearchEx TspModel TspProofs MispModel MispSpec MispProofs MispInst MispFirst MispEnd ColorModel SearchLoc LagModel LagSpec LagClique LagProofs LagEnd LagTight.
Local Open Scope nat_scope.

(** C65: for a graph on the vertices 0..nv-1 maximalCliquePartition reads no array out of bounds and never reaches the exit of line 136; the cliques share out
    the vertices, CliqueOfVertex numbers them, and no vertex of a later clique extends an earlier one *)
Theorem C65_partition : forall nv es, in_graph nv es ->
  exists part, maximalCliquePartition nv es = Ok part /\ clique_partition nv es (q_cliques part) /\ greedy_maximal es (q_cliques part) /\ numbers nv (q_cliques part) (q_of part).
Proof. intros nv es H. destruct (partition_ok nv es H) as (cs & E & A & B & C). exists (mkClq (clq_of nv cs) cs). auto. Qed.
Print Assumptions C65_partition.
Example C65_graph_case : in_graph 7 l2 /\ maximalCliquePartition 7 l2 = Ok part2.
Proof. split; [|exact part2_ok]. intros a b H. cbn in H. repeat (destruct H as [H|H]; [injection H as <- <-; lia|]). destruct H. Qed.
(** finding: readFile accepts an edge to a vertex beyond the announced number; then visited is read out of bounds *)
Theorem C65_any_file_refuted : exists nv es, maximalCliquePartition nv es = Err UB.
Proof. exact (ex_intro _ 3 (ex_intro _ [(0, 1); (1, 3)] outside_edge)). Qed.
Print Assumptions C65_any_file_refuted.

(** C66: CliqueBound bounds the weight of every independent set inside S, for any weights *)
Theorem C66_clique_bound : forall nv es part weight, in_graph nv es -> maximalCliquePartition nv es = Ok part ->
  forall S, bounds_sets nv es weight (bmem S) (cliqueBound nv part weight S).
Proof. exact clique_bounds. Qed.
Print Assumptions C66_clique_bound.
(** C66: so does LagBound, for any nonnegative multipliers on edges *)
Theorem C66_lag_bound : forall nv es part weight, in_graph nv es -> maximalCliquePartition nv es = Ok part ->
  forall lam S, lam_ok es lam -> bounds_sets nv es weight (bmem S) (lagBound nv part weight lam S).
Proof. exact lag_bounds. Qed.
Print Assumptions C66_lag_bound.
(** C66: and lagrangianDual, after any positive number of rounds with any step size, from any such multipliers *)
Theorem C66_dual_bound : forall nv es part weight, in_graph nv es -> maximalCliquePartition nv es = Ok part ->
  forall maxIter alpha0 lam reOpt S, lam_ok es lam -> 1 <= maxIter ->
  exists z, fst (lagrangianDual nv es part weight maxIter alpha0 lam reOpt S) = Some z /\ bounds_sets nv es weight (bmem S) z.
Proof. exact dual_bounds. Qed.
Print Assumptions C66_dual_bound.
(** C66: the multipliers it leaves behind, which the bounds of other states use, are again nonnegative and on edges *)
Theorem C66_multipliers : forall nv es part weight, in_graph nv es -> maximalCliquePartition nv es = Ok part ->
  forall maxIter alpha0 lam reOpt S, lam_ok es lam -> lam_ok es (snd (lagrangianDual nv es part weight maxIter alpha0 lam reOpt S)).
Proof. exact dual_multipliers. Qed.
Print Assumptions C66_multipliers.
(** the 5-cycle: clique bound 3, dual bound 2, which is the maximum *)
Definition c5 : list (nat * nat) := [(0, 1); (1, 2); (2, 3); (3, 4); (4, 0)].
Definition c5p := mkClq [0; 0; 1; 1; 2]%Z [[0; 1]; [3; 2]; [4]].
Example C66_cycle_case : in_graph 5 c5 /\ maximalCliquePartition 5 c5 = Ok c5p /\ lam_ok c5 [] /\ lam_ok c5 [((1, 2), 1 # 2)] /\ cliqueBound 5 c5p one 31 = 3%Z /\
  fst (lagrangianDual 5 c5 c5p one 50 1 (lag_start 5 c5 c5p one) true 31) = Some 2%Z /\ indep_set 5 c5 [0; 2] /\ total one [0; 2] = 2%Z.
Proof.
  csplit; try (vm_compute; reflexivity).
  - intros a b H. cbn in H. repeat (destruct H as [H|H]; [injection H as <- <-; lia|]). destruct H.
  - constructor.
  - constructor; [|constructor]. cbn. csplit; [left; right; left; reflexivity|lia|discriminate].
  - now apply indepb_ok.
Qed.
(** C66: the margin of lines 397 and 427: a value too small by at most 0.00001, as by rounding, still gives a bound *)
Theorem C66_margin : forall (best : Z) (value : Q), (inject_Z best - (1 # 100000) <= value)%Q -> (best <= Qround.Qfloor (value + eps))%Z.
Proof. exact floor_margin. Qed.
Print Assumptions C66_margin.
Example C66_margin_case : (inject_Z 2 - (1 # 100000) <= 199999 # 100000)%Q /\ Qround.Qfloor ((199999 # 100000) + eps) = 2%Z.
Proof. split; [discriminate|reflexivity]. Qed.
(** C66: with weights >= 0 CliqueBound is never above the plain sum (LBopt = 0), and without multipliers LagBound is CliqueBound *)
Theorem C66_clique_at_most_sum : forall nv es part weight, in_graph nv es -> maximalCliquePartition nv es = Ok part -> forall S,
  (forall v, v < nv -> (0 <= weight v)%Z) -> (cliqueBound nv part weight S <= m4_local nv weight (mkM4 S 0) false)%Z.
Proof. intros nv es part weight Hg Hp S W. unfold m4_local. cbn [q_sel]. rewrite wsum_total. exact (clique_le_sum nv es part weight Hg Hp S W). Qed.
Print Assumptions C66_clique_at_most_sum.
Theorem C66_lag_without_multipliers : forall nv part weight S, lagBound nv part weight [] S = cliqueBound nv part weight S.
Proof. exact lag_nil. Qed.
Print Assumptions C66_lag_without_multipliers.

(** C67: branch and bound whose local bound keeps state between calls ([searchM]; [locD m], [locB m] are the bounds in state m, [Mok] an invariant of the states
    under which they are valid): it ends, reports solutions, and is optimal under the conditions of C10 *)
Theorem C67_search_total : forall St M (P : prob St) (locD : M -> St -> Z) locB (Mok : M -> Prop) I rank N srt dfuel mxw, setting P I rank N srt dfuel mxw -> loc_ok P I locD locB Mok ->
  forall lim user, be P (match user with Some p => p | None => sentinel P end) (sentinel P) -> forall m0, Mok m0 ->
  forall L, (forall s, s <> p_target P -> (exists ls v, path P (p_init P) ls v s) -> In s L) -> forall fuel, length L <= fuel ->
  exists s m e, searchM P locD locB srt dfuel lim m0 fuel mxw user = Ok (s, m, e).
Proof. exact @searchM_total. Qed.
Print Assumptions C67_search_total.
Theorem C67_search_genuine : forall St M (P : prob St) (locD : M -> St -> Z) locB (Mok : M -> Prop) I rank N srt dfuel mxw, setting P I rank N srt dfuel mxw -> loc_ok P I locD locB Mok ->
  forall lim user, let p0 := match user with Some p => p | None => sentinel P end in be P p0 (sentinel P) -> forall m0, Mok m0 ->
  forall fuel s m e, searchM P locD locB srt dfuel lim m0 fuel mxw user = Ok (s, m, e) ->
  (b_primal (s_b s) <> p0 -> genuine P (p_init P) 0 [] (p_target P) (b_primal (s_b s)) (b_inc (s_b s))) /\
  (forall ls, In ls (b_log (s_b s)) -> exists v, genuine P (p_init P) 0 [] (p_target P) v ls /\ bt P v p0).
Proof. exact @searchM_genuine. Qed.
Print Assumptions C67_search_genuine.
Theorem C67_search_optimal : forall St M (P : prob St) (locD : M -> St -> Z) locB (Mok : M -> Prop) I rank N srt dfuel mxw, setting P I rank N srt dfuel mxw -> loc_ok P I locD locB Mok ->
  forall lim user, be P (match user with Some p => p | None => sentinel P end) (sentinel P) -> forall m0, Mok m0 ->
  forall fuel s m e, searchM P locD locB srt dfuel lim m0 fuel mxw user = Ok (s, m, e) ->
  e = Emptied -> valid_qdom P I -> s_seen s = 0 -> hist_ok P s -> forall V, solution P (p_init P) 0 V -> be P (b_primal (s_b s)) V.
Proof. exact @searchM_optimal. Qed.
Print Assumptions C67_search_optimal.
Theorem C67_search_narrow : forall St M (P : prob St) (locD : M -> St -> Z) locB (Mok : M -> Prop) I rank N srt dfuel mxw, setting P I rank N srt dfuel mxw -> loc_ok P I locD locB Mok ->
  forall lim user, let p0 := match user with Some p => p | None => sentinel P end in be P p0 (sentinel P) -> forall m0, Mok m0 ->
  forall fuel, lim 0 = false -> narrow P (p_init P) mxw -> 1 <= fuel ->
  exists s m, searchM P locD locB srt dfuel lim m0 fuel mxw user = Ok (s, m, Emptied) /\ s_ttl s = 1 /\ (forall V, solution P (p_init P) 0 V -> be P (b_primal (s_b s)) V) /\
    (b_primal (s_b s) <> p0 -> genuine P (p_init P) 0 [] (p_target P) (b_primal (s_b s)) (b_inc (s_b s))).
Proof. exact @searchM_narrow. Qed.
Print Assumptions C67_search_narrow.
(** C67: a bound that leaves its state alone gives the search of src/search.cpp as modelled before *)
Theorem C67_static : forall St M (P : prob St) (locD : M -> St -> Z) (locB : M -> St -> Z * M) m srt dfuel lim fuel mxw user, (forall s, snd (locB m s) = m) ->
  searchM P locD locB srt dfuel lim m fuel mxw user = (do x <- search (atm P locD locB m) srt dfuel lim fuel mxw user ; Ok (fst x, m, snd x)).
Proof. exact @searchM_static. Qed.
Print Assumptions C67_static.
(** the hypotheses hold for the Lagrangian bound, whose state changes *)
Example C67_lag_case : setting (lag_base 5 c5 one) (dinv (misp4p 5 c5 one) (live4 5)) q_n 4 (exSrt (lag_base 5 c5 one)) 20 2 /\
  loc_ok (lag_base 5 c5 one) (dinv (misp4p 5 c5 one) (live4 5)) (lag_dd 5 c5p one) (lag_bb 5 c5 c5p one) (lam_ok c5) /\
  lam_ok c5 (lag_start 5 c5 c5p one) /\ snd (lag_bb 5 c5 c5p one (lag_start 5 c5 c5p one) (mkM4 30 1)) <> lag_start 5 c5 c5p one.
Proof.
  destruct C66_cycle_case as (G & E & _). csplit.
  - apply (relocal_setting 5 c5 one ltac:(lia) None); [apply one_nonneg|intros; apply exSrt_perm|lia|lia|]. apply base_model; [lia|apply one_nonneg].
  - apply lag_locals; auto.
  - exact (lag_start_ok 5 c5 c5p one G E).
  - vm_compute. discriminate.
Qed.

(** C68: misp4_lag.cpp with LBopt = 1 and 2: the closures with the clique bound, and with the Lagrangian bounds at all multipliers that occur, are valid *)
Theorem C68_clique_closures_valid : forall nv es part weight, in_graph nv es -> maximalCliquePartition nv es = Ok part -> 1 <= nv -> nonneg nv weight ->
  valid_model (misp_clique nv es part weight) (dinv (misp4p nv es weight) (live4 nv)) q_n (nv - 1).
Proof. exact clique_model. Qed.
Print Assumptions C68_clique_closures_valid.
Theorem C68_lag_locals_valid : forall nv es part weight, in_graph nv es -> maximalCliquePartition nv es = Ok part -> 1 <= nv ->
  loc_ok (lag_base nv es weight) (dinv (misp4p nv es weight) (live4 nv)) (lag_dd nv part weight) (lag_bb nv es part weight) (lam_ok es) /\
  lam_ok es (lag_start nv es part weight).
Proof. intros nv es part weight Hg Hp Hn. split; [now apply lag_locals|now apply lag_start_ok]. Qed.
Print Assumptions C68_lag_locals_valid.
(** C68: with weights >= 0 searches of any width end, and what they report are independent sets of the reported weight; the labels decide about 0, 1, 2, ... *)
Theorem C68_clique_search : forall nv es part weight, in_graph nv es -> maximalCliquePartition nv es = Ok part -> 1 <= nv -> forall srt dfuel mxw lim fuel,
  nonneg nv weight -> (forall dd l, Permutation (srt dd l) l) -> nv < dfuel -> (N.of_nat mxw < 4294967296)%N -> 2 ^ nv * nv <= fuel ->
  exists s e, search (misp_clique nv es part weight) srt dfuel lim fuel mxw None = Ok (s, e) /\
    reports (misp_clique nv es part weight) nv es weight (fun ls => seq 0 (length ls)) s.
Proof. exact clique_search. Qed.
Print Assumptions C68_clique_search.
Theorem C68_lag_search : forall nv es part weight, in_graph nv es -> maximalCliquePartition nv es = Ok part -> 1 <= nv -> forall srt dfuel mxw lim fuel,
  nonneg nv weight -> (forall dd l, Permutation (srt dd l) l) -> nv < dfuel -> (N.of_nat mxw < 4294967296)%N -> 2 ^ nv * nv <= fuel ->
  exists s m e, searchM (lag_base nv es weight) (lag_dd nv part weight) (lag_bb nv es part weight) srt dfuel lim (lag_start nv es part weight) fuel mxw None = Ok (s, m, e) /\
    lam_ok es m /\ reports (lag_base nv es weight) nv es weight (fun ls => seq 0 (length ls)) s.
Proof. exact lag_search. Qed.
Print Assumptions C68_lag_search.
(** C68: the result is a maximum when the queue ran empty, no node was dropped as already seen, and no arc straight to the sink was lost ([hist_ok], C10) *)
Theorem C68_lag_optimal : forall nv es part weight, in_graph nv es -> maximalCliquePartition nv es = Ok part -> 1 <= nv -> forall srt dfuel mxw lim fuel s m,
  nonneg nv weight -> (forall dd l, Permutation (srt dd l) l) -> nv < dfuel -> (N.of_nat mxw < 4294967296)%N ->
  searchM (lag_base nv es weight) (lag_dd nv part weight) (lag_bb nv es part weight) srt dfuel lim (lag_start nv es part weight) fuel mxw None = Ok (s, m, Emptied) ->
  s_seen s = 0 -> hist_ok (lag_base nv es weight) s -> forall S, indep_set nv es S -> (total weight S <= b_primal (s_b s))%Z.
Proof. exact lag_optimal. Qed.
Print Assumptions C68_lag_optimal.
(** a run of width 3 over three nodes that meets these conditions *)
Example C68_optimal_case : in_graph 9 l3 /\ maximalCliquePartition 9 l3 = Ok part3 /\ exists s m,
  searchM (lag_base 9 l3 one) (lag_dd 9 part3 one) (lag_bb 9 l3 part3 one) (exSrt (lag_base 9 l3 one)) 20 nolim (lag_start 9 l3 part3 one) 100 3 None = Ok (s, m, Emptied) /\
  s_seen s = 0 /\ hist_ok (lag_base 9 l3 one) s /\ s_ttl s = 3 /\ b_primal (s_b s) = 3%Z /\ b_inc (s_b s) = [0; 0; 0; 1; 0; 0; 0; 1; 1]%Z.
Proof. exact (conj l3_graph (conj part3_ok l3_run)). Qed.
(** C68: with width at least 2^nv the first node already gives a maximum weight independent set *)
Theorem C68_lag_wide : forall nv es part weight, in_graph nv es -> maximalCliquePartition nv es = Ok part -> 1 <= nv -> forall srt dfuel mxw lim fuel,
  nonneg nv weight -> (forall dd l, Permutation (srt dd l) l) -> nv < dfuel -> (N.of_nat mxw < 4294967296)%N -> 2 ^ nv <= mxw -> lim 0 = false -> 1 <= fuel ->
  exists s m S, searchM (lag_base nv es weight) (lag_dd nv part weight) (lag_bb nv es part weight) srt dfuel lim (lag_start nv es part weight) fuel mxw None = Ok (s, m, Emptied) /\
    s_ttl s = 1 /\ indep_set nv es S /\ b_primal (s_b s) = total weight S /\ picks (seq 0 (length (b_inc (s_b s)))) (b_inc (s_b s)) = S /\
    forall S', indep_set nv es S' -> (total weight S' <= total weight S)%Z.
Proof. exact lag_wide. Qed.
Print Assumptions C68_lag_wide.
(** finding: narrower searches may miss the maximum with both bounds, also without dropping seen nodes ([misses], C47; [missesM] the same for LBopt = 2) *)
Theorem C68_search_optimal_refuted : misses (misp_clique 4 l1 part1 one) l1 4 1 1 2 1 /\ misses (misp_clique 7 l2 part2 one) l2 7 3 4 5 0 /\
  missesM 4 l1 part1 1 1 2 1 /\ missesM 7 l2 part2 3 4 5 0.
Proof. exact lag_misses. Qed.
Print Assumptions C68_search_optimal_refuted.
