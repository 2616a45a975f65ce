(** Properties C69, C70 and C71: what branch and bound (src/search.cpp:94-195) keeps of C18 when nodes are refused as already seen (src/dd.hpp:352-372), and the
    growth of the width (src/search.cpp:125-128). *)
From Verif Require Import Base DDModel DDSpec DDFrame DDExact DDWide DDExamples DDRestricted DDRestricted2 DDRelaxedEnd TabModel SearchModel SearchProofs SearchEx SearchDyn SearchSeen SearchCut
  TspModel TspProofs MispModel MispSpec MispProofs MispInst MispEnd ColorModel ColorSpec ColorProofs ColorTop ColorEnd ColorCut SeenEx.

(** C69: without dominance a refused node does no harm when it is not the root of its own diagram and the node kept for its state is no worse.  This replaces
    the condition [s_seen s = 0] of C18; the full statement, without conditions, is C18 and is false. *)
Theorem C69_refused_nodes_harmless : forall St (P : prob St) I rank N srt dfuel mxw, setting P I rank N srt dfuel mxw -> p_sdom P = None ->
  forall lim user, let p0 := match user with Some p => p | None => sentinel P end in be P p0 (sentinel P) ->
  forall fuel s, search P srt dfuel lim fuel mxw user = Ok (s, Emptied) -> (forall V, solution P (p_init P) 0 V -> be P (initialWorst P) V) ->
  hist_ok P s -> seen_ok P s -> forall V, solution P (p_init P) 0 V -> be P (b_primal (s_b s)) V.
Proof. exact @search_optimal_seen. Qed.
Print Assumptions C69_refused_nodes_harmless.
(** C69: with at least as much width as any state has labels, no cut set contains the root of its diagram *)
Theorem C69_root_never_cut : forall St (P : prob St) I rank N srt dfuel mxw, setting P I rank N srt dfuel mxw ->
  forall lim user, let p0 := match user with Some p => p | None => sentinel P end in be P p0 (sentinel P) ->
  forall fuel s e, search P srt dfuel lim fuel mxw user = Ok (s, e) -> fan_le P (fun _ => p_labels P) p0 mxw -> root_never_cut s.
Proof. exact @search_uncut. Qed.
Print Assumptions C69_root_never_cut.
(** C69: the two together *)
Theorem C69_enough_width_for_labels : forall St (P : prob St) I rank N srt dfuel mxw, setting P I rank N srt dfuel mxw ->
  forall lim user, let p0 := match user with Some p => p | None => sentinel P end in be P p0 (sentinel P) ->
  forall fuel s, p_sdom P = None -> search P srt dfuel lim fuel mxw user = Ok (s, Emptied) -> (forall V, solution P (p_init P) 0 V -> be P (initialWorst P) V) ->
  fan_le P (fun _ => p_labels P) p0 mxw -> kept_best P s -> hist_ok P s -> forall V, solution P (p_init P) 0 V -> be P (b_primal (s_b s)) V.
Proof. exact @search_optimal_fan. Qed.
Print Assumptions C69_enough_width_for_labels.
(** C69: the same for labels that depend on the primal bound *)
Theorem C69_bound_dependent_labels : forall St (P : prob St) I rank N srt dfuel mxw, setting P I rank N srt dfuel mxw ->
  forall lim user, let p0 := match user with Some p => p | None => sentinel P end in be P p0 (sentinel P) ->
  forall lab, dyn_ok P lab p0 I rank N ->
  forall fuel s, p_sdom P = None -> searchD P lab srt dfuel lim fuel mxw user = Ok (s, Emptied) -> (forall V, solution P (p_init P) 0 V -> be P (initialWorst P) V) ->
  fan_le P lab p0 mxw -> kept_best P s -> hist_ok P s -> forall V, solution P (p_init P) 0 V -> be P (b_primal (s_b s)) V.
Proof. exact @searchD_optimal_fan. Qed.
Print Assumptions C69_bound_dependent_labels.
(** examples/misp4.cpp on a graph with ten vertices and width 2: one node is refused *)
Example C69_case : setting P10 (dinv P10 (live4 10)) q_n 9 (exSrt P10) 20 2 /\ p_sdom P10 = None /\ fan_le P10 (fun _ => p_labels P10) (sentinel P10) 2 /\
  exists s, run10 = Ok (s, Emptied) /\ b_primal (s_b s) = 5%Z /\ s_seen s = 1 /\ length (s_hist s) = 4 /\ hist_ok P10 s /\ seen_ok P10 s /\ kept_best P10 s.
Proof.
  csplit; [exact P10_setting|reflexivity|apply misp4_fan; lia|]. destruct run10_obs as (s & H1 & H2 & H3 & H4 & H5 & H6). exists s. csplit; auto. now apply seen_kept.
Qed.
Example C69_worst_case : forall V, solution P10 (p_init P10) 0 V -> be P10 (initialWorst P10) V.
Proof. exact P10_worst. Qed.

(** C70: when a state other than the target is reached with one value only, the nodes kept are never worse *)
Theorem C70_one_value_keeps_best : forall St (P : prob St) I rank N srt dfuel mxw, setting P I rank N srt dfuel mxw ->
  forall lim user, let p0 := match user with Some p => p | None => sentinel P end in be P p0 (sentinel P) ->
  forall fuel s e, search P srt dfuel lim fuel mxw user = Ok (s, e) -> one_value P -> kept_best P s.
Proof. exact @search_one_value. Qed.
Print Assumptions C70_one_value_keeps_best.
(** C70: the colouring programs are of this kind, and a state has at most as many labels as there are vertices *)
Theorem C70_colouring_one_value : forall K es UB, (1 <= K)%nat -> forall St (PP : option Z -> prob St), program K es UB PP -> one_value (PP None).
Proof. exact @pr_one_value. Qed.
Print Assumptions C70_colouring_one_value.
Theorem C70_colouring_labels : forall K es UB, simple_graph K es -> (1 <= K)%nat -> forall St (PP : option Z -> prob St), program K es UB PP ->
  forall p0 w, (1 <= p0)%Z -> (K <= w)%nat -> fan_le (PP None) (fun b => p_labels (PP (Some b))) p0 w.
Proof. exact @pr_fan. Qed.
Print Assumptions C70_colouring_labels.
(** C70: with a width of at least the number of vertices, the colouring programs end with the least number of colours when no exact node of a diagram that was
    cut has an improving edge straight to the target (C60 also asks that no node was refused) *)
Theorem C70_colouring_search_partial : forall K es UB, simple_graph K es -> (1 <= K)%nat -> (Z.of_nat UB < 2147483647)%Z -> forall St (PP : option Z -> prob St), program K es UB PP ->
  forall srt dfuel mxw lim, (forall d l, Permutation (srt d l) l) -> (K + 1 < dfuel)%nat -> (N.of_nat mxw < 4294967296)%N ->
  forall fuel s, csearch PP srt dfuel lim fuel mxw None = Ok (s, Emptied) -> (K <= mxw)%nat -> hist_ok (PP None) s ->
  forall (c : list Z) k, colouring K es c -> uses c k -> (k <= UB)%nat -> (b_primal (s_b s) <= Z.of_nat k)%Z.
Proof. exact @pr_optimal_fan. Qed.
Print Assumptions C70_colouring_search_partial.
Example C70_case : simple_graph 5 g5w /\ program 5 g5w 4 (c2_prob 5 4 (c3_adj g5w)) /\
  exists s, crun (c2_prob 5 4 (c3_adj g5w)) 5 = Ok (s, Emptied) /\ b_primal (s_b s) = 3%Z /\ s_ttl s = 3 /\ hist_ok (c2_prob 5 4 (c3_adj g5w) None) s.
Proof. csplit; [apply graphb_ok; reflexivity|exact (coloring3 5 g5w 4 eq_refl)|exact g5w_run]. Qed.

(** C71: the width of the relaxed diagrams is the given one plus one for each cut set so far that contains the root of its diagram *)
Theorem C71_width : forall St (P : prob St) I rank N srt dfuel mxw, setting P I rank N srt dfuel mxw ->
  forall lim user, let p0 := match user with Some p => p | None => sentinel P end in be P p0 (sentinel P) ->
  forall fuel s e, search P srt dfuel lim fuel mxw user = Ok (s, e) -> s_w s = mxw + length (filter (fun x => cut_has_root (fst x)) (s_hist s)).
Proof. exact @search_width. Qed.
Print Assumptions C71_width.
Example C71_case : exists s, search (tabP t_root) (exSrt (tabP t_root)) 20 nolim 100 1 None = Ok (s, Emptied) /\ s_w s = 2 /\ length (s_hist s) = 1.
Proof. exact root_run. Qed.
