(** Properties C09 (merge functions that are not total) and C84: how wide and how large the diagrams of the engine get, and how many nodes
    branch and bound keeps. *)
From Verif Require Import Base DDModel DDSpec DDInv DDRestricted DDRestricted2 DDRelaxed2 DDRelaxedEnd DDExamples TabModel SearchModel SearchProofs SearchEx
  KnapModel KnapProofs TspModel TspSpec TspProofs TspEnd ApartProofs SizeProofs SizeSearch SizeEx SizeTop.

(** ** C09: no layer of a relaxed diagram is wider than the larger of the width and c, when at most c states of one depth cannot be merged pairwise.
    ([merges_to] is spelled out in the hypotheses: few; closed; and no dominance, or mergers that are one of the two states.) *)
Theorem C09_relaxed_width_few : forall St (P : prob St) I rank N c, valid_model P I rank N ->
  (forall k l, (forall s, In s l -> I s /\ s <> p_target P /\ rank s = k) -> ForallOrdPairs (fun a b => p_smf P a b = None) l -> length l <= c) ->
  (forall x a b m, (forall s, s = x \/ s = a \/ s = b -> I s /\ s <> p_target P /\ rank s = rank x) ->
     p_smf P x a = None -> p_smf P x b = None -> p_smf P a b = Some m -> p_smf P x m = None) ->
  (p_sdom P = None \/ forall a b m, I a -> I b -> rank a = rank b -> p_smf P a b = Some m -> m = a \/ m = b) ->
  forall rs rb rl, rs <> p_target P -> I rs -> in_range P rs rb ->
  forall srt : dd St -> list nat -> list nat, (forall d l, Permutation (srt d l) l) ->
  forall fuel d primal w d', started d rs rb rl -> N + 1 < fuel + rank rs -> rx_compute P srt fuel d primal w = Ok d' ->
  forall k, length (layer_nodes d' k) <= Nat.max 1 (Nat.max w c).
Proof.
  intros St P I rank N c V A B C rs rb rl Hrs HI HR srt HS fuel d primal w d'.
  exact (relaxed_width_few P I rank N c V {| mt_few := A; mt_closed := B; mt_table := C |} rs rb rl Hrs HI HR primal srt HS fuel d w d').
Qed.
Print Assumptions C09_relaxed_width_few.

(** the merge functions of knapsack.cpp and knapsack2.cpp leave at most 50 and capa/2+1 states, the one of tsp.cpp one per city; a total one leaves one *)
Theorem C09_example_merges :
  (forall weight profit capa, 1 <= length weight -> (0 <= capa)%Z -> Forall (fun w => 0 <= w)%Z weight -> exists I,
     valid_model (knapsack weight profit capa) I fst (length weight) /\ I (p_init (knapsack weight profit capa)) /\ merges_to (knapsack weight profit capa) I fst 50) /\
  (forall weight profit capa, 1 <= length weight -> (0 <= capa)%Z -> Forall (fun w => 0 <= w)%Z weight ->
     valid_model (knapsack2 weight profit capa frac_exact) (kn_inv weight) fst (length weight) -> exists I,
     valid_model (knapsack2 weight profit capa frac_exact) I fst (length weight) /\ I (p_init (knapsack2 weight profit capa frac_exact)) /\
     merges_to (knapsack2 weight profit capa frac_exact) I fst (Z.to_nat (capa / 2) + 1)) /\
  (forall nv d, 2 <= nv -> exists I, valid_model (tsp_prob nv d) I t_h (nv - 1) /\ I (p_init (tsp_prob nv d)) /\ merges_to (tsp_prob nv d) I t_h nv) /\
  (forall St (P : prob St) (I : St -> Prop) (rank : St -> nat), p_sdom P = None ->
     (forall a b, I a -> I b -> a <> p_target P -> b <> p_target P -> rank a = rank b -> p_smf P a b <> None) -> merges_to P I rank 1).
Proof. exact example_merges. Qed.
Print Assumptions C09_example_merges.

(** a knapsack of capacity 11 merges equal states only; at width 1 its layers keep 2 and 4 nodes.  A tour over four cities keeps three nodes
    per layer at width 1 (one per last city) and five at width 5.  So the width given is exceeded, the bounds of the theorem are not. *)
Example C09_few_case : (1 <= length exw /\ Forall (fun w => 0 <= w)%Z exw) /\
  (do d <- run exK (exSrt exK) 20 (SRelaxed 1) (initialBest exK) ; Ok (map (fun k => length (layer_nodes d k)) [0; 1; 2])) = Ok [1; 2; 4] /\
  (do d <- run exT (exSrt exT) 20 (SRelaxed 1) (initialBest exT) ; Ok (map (fun k => length (layer_nodes d k)) [0; 1; 2; 3])) = Ok [1; 3; 3; 3] /\
  (do d <- run exT (exSrt exT) 20 (SRelaxed 5) (initialBest exT) ; Ok (map (fun k => length (layer_nodes d k)) [0; 1; 2; 3])) = Ok [1; 3; 5; 5].
Proof. exact few_case. Qed.

(** finding: the width given to the program is no bound for the layers of knapsack and tsp *)
Theorem C09_partial_merge_refuted : exists d k, run exK (exSrt exK) 20 (SRelaxed 1) (initialBest exK) = Ok d /\ 1 < length (layer_nodes d k).
Proof. exact partial_merge_refuted. Qed.
Print Assumptions C09_partial_merge_refuted.

(** ** C84: nodes and edges created by one compilation, dead ones included; L bounds the labels of a state *)
Theorem C84_restricted_size : forall St (P : prob St) I rank N L, valid_model P I rank N ->
  (forall s, I s -> s <> p_target P -> length (p_labels P s) <= L) ->
  forall rs rb rl, rs <> p_target P -> I rs -> in_range P rs rb ->
  forall primal fuel d w d', started d rs rb rl -> 1 <= w -> (N.of_nat w < 4294967296)%N -> rs_compute P fuel d primal w = Ok d' ->
  d_nn d' <= 2 + (1 + (N - rank rs) * w) * L /\ d_ne d' <= (1 + (N - rank rs) * w) * L.
Proof. exact @restricted_size. Qed.
Print Assumptions C84_restricted_size.
Theorem C84_relaxed_size : forall St (P : prob St) I rank N L, valid_model P I rank N ->
  (forall s, I s -> s <> p_target P -> length (p_labels P s) <= L) ->
  forall rs rb rl, rs <> p_target P -> I rs -> in_range P rs rb ->
  forall primal c, merges_to P I rank c -> forall srt : dd St -> list nat -> list nat, (forall d l, Permutation (srt d l) l) ->
  forall fuel d w d', started d rs rb rl -> N + 1 < fuel + rank rs -> rx_compute P srt fuel d primal w = Ok d' -> let W := Nat.max 1 (Nat.max w c) in
  d_nn d' <= 2 + (1 + 2 * ((N - rank rs) * W)) * L /\ d_ne d' <= (1 + (N - rank rs) * W) * L.
Proof. exact @relaxed_size. Qed.
Print Assumptions C84_relaxed_size.
(** restricted, width 3: 10 nodes and 12 edges (bounds 28 and 26); relaxed, width 1, tours: 23 and 18 (bounds 102 and 52) *)
Example C84_size_case : (valid_model exP exI fst 4 /\ (forall s, exI s -> s <> p_target exP -> length (p_labels exP s) <= 2) /\ in_range exP (p_init exP) 0) /\
  (do d <- run exP (exSrt exP) 20 (SRestricted 3) (initialBest exP) ; Ok (d_nn d, d_ne d)) = Ok (10, 12) /\
  (do d <- run exT (exSrt exT) 20 (SRelaxed 1) (initialBest exT) ; Ok (d_nn d, d_ne d)) = Ok (23, 18).
Proof. exact size_case. Qed.

(** ** C84: the search, for every width, limit and number of iterations: the diagrams in use, and the nodes kept (at most one per node of the relaxed
    diagram for each cut set computed) *)
Theorem C84_search_size : forall St (P : prob St) I rank N L c srt dfuel mxw lim fuel s e, setting P I rank N srt dfuel mxw -> merges_to P I rank c ->
  (forall s, I s -> s <> p_target P -> length (p_labels P s) <= L) -> 1 <= mxw -> search P srt dfuel lim fuel mxw None = Ok (s, e) ->
  d_nn (s_restr s) <= 2 + (1 + N * mxw) * L /\ d_nn (s_relaxed s) <= 2 + (1 + 2 * (N * Nat.max (s_w s) c)) * L /\
  length (s_pool s) <= 1 + length (s_hist s) * (4 + 2 * (N * Nat.max (s_w s) c) * L + L).
Proof. exact @search_small'. Qed.
Print Assumptions C84_search_size.
Theorem C84_knapsack_size : forall weight profit capa srt dfuel mxw lim fuel s e, 1 <= length weight -> (0 <= capa)%Z -> Forall (fun w => 0 <= w)%Z weight -> Forall (fun p => 0 <= p)%Z profit ->
  (forall d l, Permutation (srt d l) l) -> length weight + 1 < dfuel -> 1 <= mxw -> (N.of_nat mxw < 4294967296)%N ->
  search (knapsack weight profit capa) srt dfuel lim fuel mxw None = Ok (s, e) -> let n := length weight in
  d_nn (s_restr s) <= 2 + (1 + n * mxw) * 2 /\ d_nn (s_relaxed s) <= 2 + (1 + 2 * (n * Nat.max (s_w s) 50)) * 2 /\
  length (s_pool s) <= 1 + length (s_hist s) * (6 + 4 * (n * Nat.max (s_w s) 50)).
Proof. exact knapsack_size. Qed.
Print Assumptions C84_knapsack_size.
Theorem C84_tsp_size : forall nv d srt dfuel mxw lim fuel s e, 2 <= nv -> fits nv d -> (forall d l, Permutation (srt d l) l) -> nv < dfuel -> 1 <= mxw -> (N.of_nat mxw < 4294967296)%N ->
  search (tsp_prob nv d) srt dfuel lim fuel mxw None = Ok (s, e) ->
  d_nn (s_restr s) <= 2 + (1 + (nv - 1) * mxw) * nv /\ d_nn (s_relaxed s) <= 2 + (1 + 2 * ((nv - 1) * Nat.max (s_w s) nv)) * nv /\
  length (s_pool s) <= 1 + length (s_hist s) * (4 + 2 * ((nv - 1) * Nat.max (s_w s) nv) * nv + nv).
Proof. exact tsp_size. Qed.
Print Assumptions C84_tsp_size.
(** four cities, width 1, stopped after the first node *)
Example C84_search_case : fits 4 tdist /\
  (do (s, _) <- search exT (exSrt exT) 20 (fun k => 0 <? k) 100 1 None ; Ok (d_nn (s_restr s), d_nn (s_relaxed s), length (s_pool s), length (s_hist s), s_w s)) = Ok (5, 23, 3, 1, 1).
Proof. exact size_search_case. Qed.
