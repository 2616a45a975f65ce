(** Properties C16, C17, C18, C19, C22, C23, C53: branch and bound (src/search.cpp).

    [setting P I rank N srt dfuel mxw] (SearchProofs.v) collects the conditions: a layered model with valid closures on the states I, of depth at most
    N; an initial state other than the target; values that fit an int; a layer order that is a permutation; enough rounds for one diagram; a width below
    2^32.  [lim k] is the answer of the time-limit oracle after the k-th extraction; a run that ends at [Limited q] is the search stopped at an arbitrary
    moment between two nodes, so the theorems hold at every such moment and not only at the end. *)
From Coq Require Import Sorted.
From Verif Require Import Base HeapModel DDModel DDSpec TabModel KnapModel KnapProofs DDExamples DDWide SearchModel SearchProofs SearchEx.

(** hypotheses met: a table with 8 states, width 2; the search processes two nodes and improves twice *)
Example C16_nontrivial : setting goodP (inTab t_good) (tabRank t_good) 3 (exSrt goodP) 20 2 /\ be goodP (sentinel goodP) (sentinel goodP) /\
  exists s, search goodP (exSrt goodP) 20 nolim 100 2 None = Ok (s, Emptied) /\ b_primal (s_b s) = 9%Z /\ b_inc (s_b s) = [0; 1; 0]%Z /\
    b_log (s_b s) = [[0; 1; 0]; [0; 0; 0]]%Z /\ s_ttl s = 2 /\ s_seen s = 0 /\ length (s_hist s) = 1 /\ hist_ok goodP s.
Proof. split; [apply good_setting; reflexivity|]. split; [apply be_refl|exact good_run]. Qed.

(** C16 *)
Theorem C16_incumbent_genuine : forall St (P : prob St) I rank N srt dfuel mxw, setting P I rank N srt dfuel mxw ->
  forall lim user, let p0 := match user with Some p => p | None => sentinel P end in be P p0 (sentinel P) ->
  forall fuel s e, search P srt dfuel lim fuel mxw user = Ok (s, e) ->
  (b_primal (s_b s) <> p0 -> genuine P (p_init P) 0 [] (p_target P) (b_primal (s_b s)) (b_inc (s_b s))) /\
  forall lab, In lab (b_log (s_b s)) -> exists v, genuine P (p_init P) 0 [] (p_target P) v lab /\ bt P v p0.
Proof. exact @search_genuine. Qed.
Print Assumptions C16_incumbent_genuine.

(** C17: the callbacks (most recent first) got genuine solutions of strictly improving values, all better than the start; the primal bound is the last
    of them, the incumbent its labels *)
Theorem C17_primal_improves : forall St (P : prob St) I rank N srt dfuel mxw, setting P I rank N srt dfuel mxw ->
  forall lim user, let p0 := match user with Some p => p | None => sentinel P end in be P p0 (sentinel P) ->
  forall fuel s e, search P srt dfuel lim fuel mxw user = Ok (s, e) ->
  exists vs, Forall2 (fun lab v => genuine P (p_init P) 0 [] (p_target P) v lab) (b_log (s_b s)) vs /\
    StronglySorted (bt P) vs /\ Forall (fun v => bt P v p0) vs /\ b_primal (s_b s) = hd p0 vs /\ b_inc (s_b s) = hd [] (b_log (s_b s)).
Proof. exact @search_monotone. Qed.
Print Assumptions C17_primal_improves.

(** C18, as far as it holds.  The full claim, refuted below, is this without the hypotheses [s_seen s = 0] (no cut-set node was dropped because its state
    had been met before) and [hist_ok P s] (whenever a cut set was computed, no exact node of the relaxed diagram has an arc into the target that would
    improve the primal bound), and without [valid_qdom] (dominance is valid between states of different depths as well).
    Nothing is missing in the proof; what is missing is in the code. *)
Theorem C18_search_optimal_partial : forall St (P : prob St) I rank N srt dfuel mxw, setting P I rank N srt dfuel mxw ->
  forall lim user, let p0 := match user with Some p => p | None => sentinel P end in be P p0 (sentinel P) ->
  forall fuel s e, search P srt dfuel lim fuel mxw user = Ok (s, e) -> e = Emptied ->
  valid_qdom P I -> (forall V, solution P (p_init P) 0 V -> be P (initialWorst P) V) ->
  s_seen s = 0 -> hist_ok P s ->
  forall V, solution P (p_init P) 0 V -> be P (b_primal (s_b s)) V.
Proof. exact @search_optimal. Qed.
Print Assumptions C18_search_optimal_partial.

Example C18_nontrivial : valid_qdom goodP (inTab t_good) /\ (forall V, solution goodP (p_init goodP) 0 V -> be goodP (initialWorst goodP) V) /\
  exists s, search goodP (exSrt goodP) 20 nolim 100 2 None = Ok (s, Emptied) /\ s_seen s = 0 /\ hist_ok goodP s.
Proof.
  split; [intros sdom a b H; discriminate|]. split; [exact good_worst|]. destruct good_run as (s & H & _ & _ & _ & _ & H1 & _ & H2). exists s. auto.
Qed.

(** C18 fails: (a) the root of the diagram is in its own cut set and cannot be queued again *)
Theorem C18_root_in_cutset_refuted : exists (P : prob nat) I rank N s, setting P I rank N (exSrt P) 20 1 /\ p_sdom P = None /\ p_local P = None /\
  search P (exSrt P) 20 nolim 100 1 None = Ok (s, Emptied) /\ hist_ok P s /\ s_seen s = 1 /\
  b_primal (s_b s) = 11%Z /\ solution P (p_init P) 0 7 /\ p_min P = true.
Proof. exact search_root_refuted. Qed.
Print Assumptions C18_root_in_cutset_refuted.
(** (b) no cut set contains its root, but a state is reached again with a better bound and is dropped *)
Theorem C18_state_seen_refuted : exists (P : prob nat) I rank N s, setting P I rank N (exSrt P) 20 2 /\ p_sdom P = None /\ p_local P = None /\
  search P (exSrt P) 20 nolim 100 2 None = Ok (s, Emptied) /\ hist_ok P s /\ root_never_cut s /\ s_seen s = 1 /\
  b_primal (s_b s) = 30%Z /\ solution P (p_init P) 0 26 /\ p_min P = true.
Proof. exact search_seen_refuted. Qed.
Print Assumptions C18_state_seen_refuted.
(** (c) examples/knapsack2.cpp itself, preset included, with exact and with IEEE double arithmetic: nothing is dropped, yet the value found is 29 and 31 is
    possible *)
Theorem C18_exact_path_refuted : setting (knC frac_exact) (kn_inv knW) fst 5 (exSrt (knC frac_exact)) 20 2 /\ kn2_getUB knW knP 23 = Ok 16%Z /\
  forall frac, frac = frac_exact \/ frac = frac_double -> exists s, search (knC frac) (exSrt (knC frac)) 20 nolim 100 2 (Some 16%Z) = Ok (s, Emptied) /\
    root_never_cut s /\ s_seen s = 0 /\ s_insDom s = 0 /\ s_pruned s = 0 /\
    b_primal (s_b s) = 29%Z /\ solution (knC frac) (p_init (knC frac)) 0 31 /\ p_min (knC frac) = false.
Proof. exact search_exact_path_refuted. Qed.
Print Assumptions C18_exact_path_refuted.
(** (d) dominance valid at each depth is applied to queued nodes of different depths *)
Theorem C18_queue_dominance_refuted : exists (P : prob nat) I rank N s, setting P I rank N (exSrt P) 20 2 /\ p_local P = None /\
  search P (exSrt P) 20 nolim 100 2 None = Ok (s, Emptied) /\ hist_ok P s /\ s_seen s = 0 /\
  b_primal (s_b s) = 17%Z /\ solution P (p_init P) 0 14 /\ p_min P = true.
Proof. exact search_dom_refuted. Qed.
Print Assumptions C18_queue_dominance_refuted.

(** C19: [narrow P s w]: at no depth more than w different states are reachable from s *)
Theorem C19_wide_enough_is_optimal : forall St (P : prob St) I rank N srt dfuel mxw, setting P I rank N srt dfuel mxw ->
  forall lim user, let p0 := match user with Some p => p | None => sentinel P end in be P p0 (sentinel P) ->
  forall fuel, lim 0 = false -> narrow P (p_init P) mxw -> (forall V, solution P (p_init P) 0 V -> be P (initialWorst P) V) -> 1 <= fuel ->
  exists s, search P srt dfuel lim fuel mxw user = Ok (s, Emptied) /\ s_ttl s = 1 /\ (forall V, solution P (p_init P) 0 V -> be P (b_primal (s_b s)) V) /\
    (b_primal (s_b s) <> p0 -> genuine P (p_init P) 0 [] (p_target P) (b_primal (s_b s)) (b_inc (s_b s))).
Proof. exact @search_narrow. Qed.
Print Assumptions C19_wide_enough_is_optimal.
Example C19_nontrivial : setting goodP (inTab t_good) (tabRank t_good) 3 (exSrt goodP) 20 4 /\ narrow goodP (p_init goodP) 4 /\
  (forall V, solution goodP (p_init goodP) 0 V -> be goodP (initialWorst goodP) V).
Proof. split; [apply good_setting; reflexivity|]. split; [exact good_narrow|exact good_worst]. Qed.

(** C22, as far as it holds: LIM? is printed true exactly when the queue is not empty at the end; it is never true when the loop ran to its end; and when
    it is false then, under the conditions of C18, only the node in hand when the limit fired can lead to something better.  The full claim needs that
    node to be reported as well; it is refuted below. *)
Theorem C22_limit_reported_partial : forall St (P : prob St) I rank N srt dfuel mxw, setting P I rank N srt dfuel mxw ->
  forall lim user, let p0 := match user with Some p => p | None => sentinel P end in be P p0 (sentinel P) ->
  forall fuel s e, search P srt dfuel lim fuel mxw user = Ok (s, e) -> lim_flag s = false ->
  valid_qdom P I -> (forall V, solution P (p_init P) 0 V -> be P (initialWorst P) V) -> s_seen s = 0 -> hist_ok P s ->
  forall V, solution P (p_init P) 0 V -> bt P V (b_primal (s_b s)) -> exists q, e = Limited q /\ covers P (pool_node P (s_pool s) (fst q)) V.
Proof. exact @search_lim_false. Qed.
Print Assumptions C22_limit_reported_partial.
Theorem C22_finished_not_limited : forall St (P : prob St) I rank N srt dfuel mxw, setting P I rank N srt dfuel mxw ->
  forall lim user, let p0 := match user with Some p => p | None => sentinel P end in be P p0 (sentinel P) ->
  forall fuel s e, search P srt dfuel lim fuel mxw user = Ok (s, e) -> e = Emptied -> lim_flag s = false.
Proof. exact @search_emptied. Qed.
Print Assumptions C22_finished_not_limited.
Example C22_flag_can_be_true : exists s q, search (tabP t_two) (exSrt (tabP t_two)) 20 lim1 100 2 None = Ok (s, Limited q) /\ lim_flag s = true.
Proof. exact two_limited. Qed.
(** the limit fires with one node in hand whose key beats the primal bound: 11 is reported with LIM? false although 9 is possible *)
Theorem C22_last_node_refuted : setting goodP (inTab t_good) (tabRank t_good) 3 (exSrt goodP) 20 2 /\
  exists s q, search goodP (exSrt goodP) 20 lim1 100 2 None = Ok (s, Limited q) /\ b_primal (s_b s) = 11%Z /\ lim_flag s = false /\
  isBetter goodP (snd q) (b_primal (s_b s)) = true /\ solution goodP (p_init goodP) 0 9.
Proof. exact (conj (good_setting 2 eq_refl) good_limited). Qed.
Print Assumptions C22_last_node_refuted.

(** C23 *)
Theorem C23_preset_primal : forall St (P : prob St) I rank N srt dfuel mxw, setting P I rank N srt dfuel mxw ->
  forall lim user, let p0 := match user with Some p => p | None => sentinel P end in be P p0 (sentinel P) ->
  forall fuel s e, search P srt dfuel lim fuel mxw user = Ok (s, e) ->
  be P (b_primal (s_b s)) p0 /\
  ((forall V, solution P (p_init P) 0 V -> ~ bt P V p0) -> b_primal (s_b s) = p0 /\ b_inc (s_b s) = [] /\ b_log (s_b s) = []).
Proof. exact @search_preset. Qed.
Print Assumptions C23_preset_primal.
Example C23_nontrivial :
  (exists s, search goodP (exSrt goodP) 20 nolim 100 2 (Some 9%Z) = Ok (s, Emptied) /\ b_primal (s_b s) = 9%Z /\ b_inc (s_b s) = [] /\ b_log (s_b s) = []) /\
  (exists s, search goodP (exSrt goodP) 20 nolim 100 2 (Some 10%Z) = Ok (s, Emptied) /\ b_primal (s_b s) = 9%Z /\ b_log (s_b s) = [[0; 1; 0]]%Z).
Proof. exact (conj good_preset good_preset10). Qed.
(** The hypothesis that the preset is no worse than the sentinel is needed: with Maximize and the preset -2^31, an infeasible problem is reported as solved
    with value -(2^31-1) and no labels. *)
Theorem C23_preset_below_sentinel_refuted : exists (P : prob nat) I rank N s, setting P I rank N (exSrt P) 20 3 /\ p_min P = false /\
  (forall V, ~ solution P (p_init P) 0 V) /\
  search P (exSrt P) 20 nolim 100 3 (Some (-2147483648)%Z) = Ok (s, Emptied) /\ b_primal (s_b s) = (-2147483647)%Z /\ b_log (s_b s) = [[]].
Proof. exact preset_refuted. Qed.
Print Assumptions C23_preset_below_sentinel_refuted.

(** C53: the entries taken out so far and those still queued are different nodes with different states, each genuinely reachable *)
Theorem C53_states_queued_once : forall St (P : prob St) I rank N srt dfuel mxw, setting P I rank N srt dfuel mxw ->
  forall lim user, let p0 := match user with Some p => p | None => sentinel P end in be P p0 (sentinel P) ->
  forall fuel s e, search P srt dfuel lim fuel mxw user = Ok (s, e) ->
  NoDup (map fst (s_out s ++ entries (s_pq s))) /\
  NoDup (map (fun q => n_state (pool_node P (s_pool s) (fst q))) (s_out s ++ entries (s_pq s))) /\
  (forall q, In q (s_out s ++ entries (s_pq s)) -> let n := pool_node P (s_pool s) (fst q) in
     n_state n <> p_target P /\ genuine P (p_init P) 0 [] (n_state n) (n_bound n) (n_lab n)) /\
  s_ttl s <= length (s_out s).
Proof. exact @search_once. Qed.
Print Assumptions C53_states_queued_once.
Theorem C53_nodes_at_most_states : forall St (P : prob St) I rank N srt dfuel mxw, setting P I rank N srt dfuel mxw ->
  forall lim user, let p0 := match user with Some p => p | None => sentinel P end in be P p0 (sentinel P) ->
  forall fuel s e, search P srt dfuel lim fuel mxw user = Ok (s, e) ->
  forall L, (forall x, x <> p_target P -> (exists ls v, path P (p_init P) ls v x) -> In x L) -> s_ttl s <= length L.
Proof. exact @search_processed. Qed.
Print Assumptions C53_nodes_at_most_states.
(** hence the search terminates, without undefined behaviour, when the reachable states are finitely many *)
Theorem C53_search_terminates : forall St (P : prob St) I rank N srt dfuel mxw, setting P I rank N srt dfuel mxw ->
  forall lim user, let p0 := match user with Some p => p | None => sentinel P end in be P p0 (sentinel P) ->
  forall L, (forall x, x <> p_target P -> (exists ls v, path P (p_init P) ls v x) -> In x L) ->
  forall fuel, length L <= fuel -> exists s e, search P srt dfuel lim fuel mxw user = Ok (s, e).
Proof. exact @search_total. Qed.
Print Assumptions C53_search_terminates.
Example C53_nontrivial : forall x, x <> p_target goodP -> (exists ls v, path goodP (p_init goodP) ls v x) -> In x (seq 0 7).
Proof.
  intros x Nt (ls & v & Pt). assert (I0 : inTab t_good (p_init goodP)) by (unfold inTab; cbn; lia).
  pose proof (path_closed goodP (inTab t_good) _ _ _ _ (tab_closed t_good eq_refl) I0 Pt) as Ix. unfold inTab in Ix. cbn in Nt, Ix. apply in_seq. lia.
Qed.
