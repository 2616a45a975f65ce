{
 "claims": [
  {
   "property": "C01",
   "status": "proved",
   "theorems": [
    "C01_exact_value_is_optimal",
    "C01_exact_terminates"
   ],
   "note": "any acyclic model (layered or not) without local bound, any root node, both senses; termination from a finite list of reachable states"
  },
  {
   "property": "C02",
   "status": "proved",
   "theorems": [
    "C02_exact_incumbent_is_genuine"
   ],
   "note": "labels of the sink replay from the root to the target with exactly the reported value"
  },
  {
   "property": "C03",
   "status": "partial",
   "theorems": [
    "C03_local_bound_refuted"
   ],
   "note": "false: Exact prunes with the sentinel bound of nodes not yet evaluated, and a valid local bound loses the only solution"
  },
  {
   "property": "C04",
   "status": "proved",
   "theorems": [
    "C04_restricted_reports_genuine"
   ],
   "note": ""
  },
  {
   "property": "C05",
   "status": "proved",
   "theorems": [
    "C05_restricted_exact_is_optimal",
    "C05_restricted_without_merge"
   ],
   "note": "Every width, 0 included; the second one without any condition on the merge function."
  },
  {
   "property": "C06",
   "status": "partial",
   "theorems": [
    "C06_restricted_width",
    "C06_width_zero_refuted"
   ],
   "note": "Proved for every width >= 1; false for width 0 (unsigned wrap-around), refuted with a witness."
  },
  {
   "property": "C07",
   "status": "proved",
   "theorems": [
    "C07_relaxed_dual_bound"
   ],
   "note": "Every width, every ordering of the layers."
  },
  {
   "property": "C08",
   "status": "proved",
   "theorems": [
    "C08_relaxed_exact_is_optimal"
   ],
   "note": ""
  },
  {
   "property": "C09",
   "status": "partial",
   "theorems": [
    "C09_relaxed_width",
    "C09_relaxed_width_few",
    "C09_example_merges",
    "C09_dominance_refuted",
    "C09_partial_merge_refuted"
   ],
   "note": "Proved for models without dominance whose merge function is total on a layer; false with dominance (witness).  Also proved with max(width, c) for merge functions that leave at most c states of a layer unmerged, with dominance if the merger is one of the two states; for such functions the width alone is no bound (witness)."
  },
  {
   "property": "C10",
   "status": "partial",
   "theorems": [
    "C10_non_layered_refuted"
   ],
   "note": "The property is false; refuted with a witness for both strategies."
  },
  {
   "property": "C11",
   "status": "proved",
   "theorems": [
    "C11_exact_nodes_genuine"
   ],
   "note": ""
  },
  {
   "property": "C12",
   "status": "proved",
   "theorems": [
    "C12_cutset_covers"
   ],
   "note": "Second disjunct: solutions whose best cover is an all-exact path straight to the sink (see C18)."
  },
  {
   "property": "C13",
   "status": "proved",
   "theorems": [
    "C13_backward_bound",
    "C13_prune_safe"
   ],
   "note": ""
  },
  {
   "property": "C14",
   "status": "partial",
   "theorems": [
    "C14_backward_best",
    "C14_sentinel_refuted"
   ],
   "note": "Best suffix values proved; nodes without a path to the sink get a value near the sentinel, not the sentinel itself (witness)."
  },
  {
   "property": "C15",
   "status": "proved",
   "theorems": [
    "C15_forward_best"
   ],
   "note": ""
  },
  {
   "property": "C16",
   "status": "proved",
   "theorems": [
    "C16_incumbent_genuine"
   ],
   "note": "layered models with valid closures, any width below 2^32, any time-limit oracle, preset primal no worse than the sentinel; a run ending at Limited is the search at an arbitrary moment between nodes"
  },
  {
   "property": "C17",
   "status": "proved",
   "theorems": [
    "C17_primal_improves"
   ],
   "note": "same conditions as C16"
  },
  {
   "property": "C18",
   "status": "partial",
   "theorems": [
    "C18_search_optimal_partial",
    "C18_root_in_cutset_refuted",
    "C18_state_seen_refuted",
    "C18_exact_path_refuted",
    "C18_queue_dominance_refuted"
   ],
   "note": "false for the code as written: four different counterexamples, one of them examples/knapsack2.cpp itself. Proved under run-time conditions: no cut-set node was dropped by cloneNode, no improving arc from an exact node into the sink when a cut set is taken, dominance valid across depths"
  },
  {
   "property": "C19",
   "status": "proved",
   "theorems": [
    "C19_wide_enough_is_optimal"
   ],
   "note": "width at least the number of distinct states at each depth, limit does not fire before the root"
  },
  {
   "property": "C20",
   "status": "partial",
   "theorems": [
    "C20_dominance_keeps_optimum",
    "C20_sink_dominated_refuted"
   ],
   "note": "Proved for relations that do not relate states with a reached sink; false otherwise (witness: null dereference)."
  },
  {
   "property": "C21",
   "status": "proved",
   "theorems": [
    "C21_local_prune_safe"
   ],
   "note": ""
  },
  {
   "property": "C22",
   "status": "partial",
   "theorems": [
    "C22_limit_reported_partial",
    "C22_finished_not_limited",
    "C22_last_node_refuted"
   ],
   "note": "false for the node in hand when the limit fires: LIM? false although it could improve; positive part under the conditions of C18"
  },
  {
   "property": "C23",
   "status": "proved",
   "theorems": [
    "C23_preset_primal",
    "C23_preset_below_sentinel_refuted"
   ],
   "note": "for presets no worse than the sentinel; the excluded value (Maximize, -2^31) is refuted"
  },
  {
   "property": "C24",
   "status": "proved",
   "theorems": [
    "C24_contains",
    "C24_progress",
    "C24_insert_refuted",
    "C24_contains_negative_refuted"
   ],
   "note": "every history of constructors and operations; insert proved to succeed for values below 2^20 on sets with at least one word; the excluded inputs are refuted"
  },
  {
   "property": "C25",
   "status": "proved",
   "theorems": [
    "C25_iteration",
    "C25_iteration_nonempty",
    "C25_iteration_refuted"
   ],
   "note": "members below 32768 (the iterator delivers a short); copies of zero-word sets excluded, both exclusions refuted"
  },
  {
   "property": "C26",
   "status": "proved",
   "theorems": [
    "C26_equality"
   ],
   "note": "all capacities; operator!= is the negation"
  },
  {
   "property": "C27",
   "status": "partial",
   "theorems": [
    "C27_hash_refuted",
    "C27_hash_partial"
   ],
   "note": "false across capacities (witness); proved for equal capacities"
  },
  {
   "property": "C28",
   "status": "partial",
   "theorems": [
    "C28_removeBelow",
    "C28_removeAbove_partial",
    "C28_removeAbove_inserted",
    "C28_removeAbove_refuted"
   ],
   "note": "removeBelow proved; removeAbove is false after a union or from a range/default set (witnesses), proved when largestPossible() bounds the members"
  },
  {
   "property": "C29",
   "status": "proved",
   "theorems": [
    "C29_contains",
    "C29_insert_defined",
    "C29_iteration",
    "C29_largest",
    "C29_equality_hash",
    "C29_interval_refuted"
   ],
   "note": "NatSet has no difference operator; up to 512 words (short iterator)"
  },
  {
   "property": "C30",
   "status": "partial",
   "theorems": [
    "C30_sub_refuted",
    "C30_sub_wrong_refuted",
    "C30_sub_one_word",
    "C30_sub_near",
    "C30_sub_partial"
   ],
   "note": "false in general: elements lost, a word written past the end, a shift by 64 (witnesses); proved for one-word sets and under an explicit arithmetic condition"
  },
  {
   "property": "C31",
   "status": "partial",
   "theorems": [
    "C31_iteration",
    "C31_close",
    "C31_increasing",
    "C31_flip_partial",
    "C31_flip_refuted",
    "C31_contains_refuted",
    "C31_contains_partial",
    "C31_gnset",
    "C31_gnset_refuted"
   ],
   "note": "iteration, size, close and GNSet(Range) proved; contains and backward flip are false (witnesses)"
  },
  {
   "property": "C32",
   "status": "proved",
   "theorems": [
    "C32_queue_fifo",
    "C32_queue_refines_sequence",
    "C32_queue_progress",
    "C32_size_zero_refuted"
   ],
   "note": "for initial sizes >= 1; CQueue(0) is refuted"
  },
  {
   "property": "C33",
   "status": "proved",
   "theorems": [
    "C33_locations_distinct",
    "C33_retract_removes_one",
    "C33_folds_visit_in_order",
    "C33_retract_order_refuted",
    "C32_queue_refines_sequence"
   ],
   "note": "retract returns nothing in the code (the value is read through the location); it does not keep the order of the others"
  },
  {
   "property": "C34",
   "status": "proved",
   "theorems": [
    "C34_extractMax_returns_best",
    "C34_heap_refines_bag",
    "C34_heap_progress",
    "C34_heap_counts"
   ],
   "note": "Any history within the contract, any strict weak order, any initial capacity >= 1."
  },
  {
   "property": "C35",
   "status": "proved",
   "theorems": [
    "C35_locations_stay_valid",
    "C34_heap_refines_bag",
    "C35_find_stale_refuted"
   ],
   "note": "Heap::find additionally sees dead elements (separate refutation)."
  },
  {
   "property": "C36",
   "status": "proved",
   "theorems": [
    "C36_mergeSort_strict",
    "C36_mergeSort_preorder"
   ],
   "note": ""
  },
  {
   "property": "C37",
   "status": "partial",
   "theorems": [
    "C37_vec_is_sequence_partial",
    "C37_set_truncates_refuted",
    "C37_move_alias_refuted"
   ],
   "note": "Every history is proved to be a history of independent sequences (below 2^31 elements), except the last clause: v[i]=x inside truncates (refuted). Move construction aliases the source (refuted)."
  },
  {
   "property": "C38",
   "status": "proved",
   "theorems": [
    "C38_blocks_disjoint_aligned_inside",
    "C38_debug_build",
    "C38_debug_assertion_refuted",
    "C38_rounding_refuted"
   ],
   "note": "sizes up to 2^62, any segment size; the bases of segments are taken to be aligned. Debug builds abort on blocks larger than an empty segment; sizes near 2^64 are rounded to 0 (both refuted)"
  },
  {
   "property": "C39",
   "status": "proved",
   "theorems": [
    "C38_blocks_disjoint_aligned_inside",
    "C39_clear_reuses"
   ],
   "note": ""
  },
  {
   "property": "C40",
   "status": "partial",
   "theorems": [
    "C40_table_is_dictionary",
    "C40_lookup_since_clear",
    "C40_magic_wrap_refuted"
   ],
   "note": "Both tables modelled in full (getLoc, rawInsertAt/safeInsertAt, safeInsert, insert, get, size, clear, doOnAll; 32-bit magic numbers). Every history with fewer than 2^32 calls of clear() is a history of a dictionary, for every hash and equality with equal keys hashing equally, every requested size >= 2. With 2^32 clears stale entries come back (C40_magic_wrap_refuted)."
  },
  {
   "property": "C41",
   "status": "partial",
   "theorems": [
    "C41_table_size",
    "C41_listed_sizes_are_prime",
    "C41_tiny_size_refuted"
   ],
   "note": "Proved for every requested size >= 2 (64-bit unsigned arithmetic and conversion to int modelled). For sizes 0 and 1 the search reads _primes[-1] (C41_tiny_size_refuted)."
  },
  {
   "property": "C42",
   "status": "partial",
   "theorems": [
    "C42_uf_defined",
    "C42_uf_same_iff_connected",
    "C42_uf_representative",
    "C42_uf_merge_result",
    "C42_merge_result_refuted"
   ],
   "note": "Partition and sizes proved for every history of up to 2^31-1 nodes. The last clause (merge returns the representative) is false: C42_merge_result_refuted; C42_uf_merge_result says exactly when it holds."
  },
  {
   "property": "C43",
   "status": "proved",
   "theorems": [
    "C43_list_is_sequence",
    "C43_remove_nonmember_refuted",
    "C43_clear_keeps_links_refuted"
   ],
   "note": "release build; any number of lists over the same nodes; the copy constructor is not modelled"
  },
  {
   "property": "C44",
   "status": "proved",
   "theorems": [
    "C44_add_transfer",
    "C44_add_disconnect",
    "C44_mixed_refuted"
   ],
   "note": "for every history of addArc and transferArcs, and for every history of addArc and disconnect, the child and parent vectors are exactly the multigraph; self loops and transfers between adjacent nodes excluded (they do not occur). Mixing transfers and later disconnects goes wrong: stale _fix/_tix"
  },
  {
   "property": "C45",
   "status": "partial",
   "theorems": [
    "C45_index_partial",
    "C45_store_read_partial",
    "C45_farray_is_sequence",
    "C45_make_copy",
    "C45_overflow_refuted",
    "C45_assign_moved_refuted",
    "C45_self_move_refuted"
   ],
   "note": "any number of dimensions up to 2^31 cells; beyond, the int index overflows (refuted). FArray as a family of sequences on an explicit heap, no leaks; moved-from and self-move counterexamples"
  },
  {
   "property": "C46",
   "status": "partial",
   "theorems": [
    "C46_solutions_are_selections",
    "C46_knapsack_closures_valid",
    "C46_knapsack2_closures_valid_partial",
    "C46_exact_diagram_solves_knapsack",
    "C46_preset_is_attained",
    "C46_preset_overruns",
    "C46_double_local_bound_refuted",
    "C46_cross_depth_dominance_refuted"
   ],
   "note": "knapsack.cpp fully; knapsack2.cpp with the local bound computed exactly. As written (double arithmetic) its local bound is refuted, with a search that misses the optimum; sDom is only valid within a layer; getUB overruns when all items fit"
  },
  {
   "property": "C47",
   "status": "partial",
   "theorems": [
    "C47_solutions_are_independent_sets",
    "C47_misp_solutions",
    "C47_misp_solutions_suffice",
    "C47_misp_all_sets_refuted",
    "C47_closures_valid",
    "C47_initial_states",
    "C47_negative_local_refuted",
    "C47_exact_diagram_misp",
    "C47_exact_diagram_misp2",
    "C47_misp_search",
    "C47_search_reports_independent_sets",
    "C47_search_optimal_refuted",
    "C47_checkers_accept",
    "C47_checkers_refuted",
    "C47_misp5_sum_refuted"
   ],
   "note": "misp2 to misp5: exactly the independent sets, one to one, any weights. misp.cpp: only those not extendable to the right (refuted as stated; equal optimum for weights >= 0). Merge and local bound valid for weights >= 0 (refuted for negative ones). Sets are bit masks; values are unbounded integers"
  },
  {
   "property": "C48",
   "status": "proved",
   "theorems": [
    "C48_solutions_are_tours",
    "C48_closures_valid",
    "C48_indices_in_range",
    "C48_single_city_refuted",
    "C48_exact_diagram_finds_shortest_tour",
    "C48_search_reports_tours",
    "C48_search_optimal_refuted"
   ],
   "note": "at least two cities (the depot is city 1); with one city the closures read outside the matrix. Sets are bit masks; distances are unbounded integers"
  },
  {
   "property": "C49",
   "status": "partial",
   "theorems": [
    "C49_nda_is_sequence_partial",
    "C49_sort_after_pop_refuted",
    "C49_pushf_without_room_refuted",
    "C49_suffix_holes_refuted",
    "C49_pop_empty_refuted"
   ],
   "note": "every operation sequence except: sort and eraseSuffix once something was popped or erased, push_front without room, popping an empty array; each of those is refuted"
  },
  {
   "property": "C50",
   "status": "proved",
   "theorems": [
    "C50_reuse_is_fresh"
   ],
   "note": "apply on any two diagrams from the same node and bounds gives equal results; pool memory itself is C38/C39"
  },
  {
   "property": "C51",
   "status": "partial",
   "theorems": [
    "C51_revBitsOfLong",
    "C51_revBitsOfByte",
    "C51_revBitsOfWord_partial",
    "C51_revBitsOfWord_refuted"
   ],
   "note": "revBitsOfLong and revBitsOfByte proved; revBitsOfWord leaves the top byte undefined (loop bound), refuted"
  },
  {
   "property": "C52",
   "status": "proved",
   "theorems": [
    "C52_min",
    "C52_max",
    "C52_filter",
    "C52_sum",
    "C52_minBy",
    "C52_maxBy"
   ],
   "note": "members below 32768; sums over unbounded integers"
  },
  {
   "property": "C53",
   "status": "proved",
   "theorems": [
    "C53_states_queued_once",
    "C53_nodes_at_most_states",
    "C53_search_terminates"
   ],
   "note": ""
  },
  {
   "property": "C54",
   "status": "proved",
   "theorems": [
    "C54_restricted_terminates",
    "C54_relaxed_terminates"
   ],
   "note": ""
  },
  {
   "property": "C55",
   "status": "proved",
   "theorems": [
    "C55_uf_depth_logarithmic"
   ],
   "note": "Union by size and path compression modelled."
  },
  {
   "property": "C56",
   "status": "partial",
   "theorems": [
    "C56_solutions_are_rulers",
    "C56_exact_diagram_finds_shortest",
    "C56_restricted_diagram",
    "C56_equality_on_unmerged_states",
    "C56_closures_valid_partial",
    "C56_words_are_sets",
    "C56_length_limit_refuted",
    "C56_equality_of_merged_states_refuted",
    "C56_words_refuted"
   ],
   "note": "Proved: solutions, exact and restricted diagrams with the code's equality. Relaxed diagrams only with an equality that compares the distances (the code's equality is refuted on merged states). False: the length limit (exceeded by one), the sets for gaps of 64 and for the mark 256."
  },
  {
   "property": "C57",
   "status": "partial",
   "theorems": [
    "C57_mid_sound",
    "C57_mid_complete",
    "C57_midlb_solutions",
    "C57_exact_diagram_mid",
    "C57_exact_diagram_midlb",
    "C57_closures_valid_partial"
   ],
   "note": "Everything stated is proved for exact diagrams; the validity of the merge only with an equality that compares distances and sm, as in C56."
  },
  {
   "property": "C58",
   "status": "partial",
   "theorems": [
    "C58_incumbents_genuine",
    "C58_primal_bound",
    "C58_terminates",
    "C58_wide_enough_is_optimal",
    "C58_search_is_optimal_partial",
    "C58_static_labels"
   ],
   "note": "Optimality in general only when no node was refused as already seen and no exact node of a cut diagram has an improving edge straight to the target; without these it is false (C18, C60)."
  },
  {
   "property": "C59",
   "status": "proved",
   "theorems": [
    "C59_solutions_are_colourings",
    "C59_no_colouring_lost",
    "C59_exact_diagram_is_chromatic_number",
    "C59_relaxed_diagram_bounds",
    "C59_checker_accepts"
   ],
   "note": "All four programs; fewer than 65536 colours for coloring2 and coloring3 (unsigned short), fewer than 2^31-1 for coloring. Sets of colours are bit masks."
  },
  {
   "property": "C60",
   "status": "partial",
   "theorems": [
    "C60_incumbents_are_colourings",
    "C60_terminates",
    "C60_wide_enough_is_optimal",
    "C60_search_is_optimal_partial",
    "C60_search_is_optimal_refuted",
    "C60_loop_edge_refuted",
    "C60_toy_program_result"
   ],
   "note": "Optimality is false in general: bipartite graphs of five and six vertices where all four programs stop at three colours (widths 1 and 2). Proved for wide enough diagrams and for runs without refused nodes."
  },
  {
   "property": "C61",
   "status": "partial",
   "theorems": [
    "C61_solutions_are_tours",
    "C61_closures_valid",
    "C61_search_reports_tours",
    "C61_wide_search_optimal",
    "C61_wide_enough",
    "C61_search_optimal_partial",
    "C61_search_optimal_refuted",
    "C61_lb_is_not_used"
   ],
   "note": "All four programs. Optimality of the search is false in general (all four miss the optimum of an instance with five cities); proved for wide enough diagrams and for runs without refused nodes. Statements about the search assume that the undefined root bound (C62) is not more than a shortest tour."
  },
  {
   "property": "C62",
   "status": "partial",
   "theorems": [
    "C62_greedy_bound_sound",
    "C62_spanning_tree_bound_sound",
    "C62_root_bound_defined_refuted",
    "C62_search_finds_a_tour_refuted"
   ],
   "note": "Proved for every state but the initial one, where both bounds are undefined on every instance; if the undefined value is large the search reports nothing. Values are unbounded integers; doubles of the matrix of tsp_test3 are integers."
  },
  {
   "property": "C63",
   "status": "partial",
   "theorems": [
    "C63_solutions_are_tours",
    "C63_toy_closures_valid",
    "C63_toy_search_reports_tours",
    "C63_toy_exact_diagram",
    "C63_toy_wide_search_optimal",
    "C63_toy_search_optimal_partial",
    "C63_toy_program_result",
    "C63_toy2_merge_refuted",
    "C63_toy2_eqs_refuted"
   ],
   "note": "Solutions for both programs; closures, searches and the result 94 at every width from 30 on (the default is 64) for tsptoy. The merge of tsptoy2 is not a relaxation and its target test accepts the initial state, so only its solutions are proved; its run with the default width is a test."
  },
  {
   "property": "C64",
   "status": "partial",
   "theorems": [
    "C64_solutions_are_independent_sets",
    "C64_exact_diagram",
    "C64_merge_refuted",
    "C64_program_optimal_refuted"
   ],
   "note": "Solutions and exact diagrams are proved for all graphs. The merge is not a relaxation, and the program itself reports 10 where 11 is possible."
  },
  {
   "property": "C65",
   "status": "partial",
   "theorems": [
    "C65_partition",
    "C65_any_file_refuted"
   ],
   "note": "Proved for every graph on the announced vertices. readFile does not reject edges to vertices beyond them; then visited is read out of bounds (witness)."
  },
  {
   "property": "C66",
   "status": "proved",
   "theorems": [
    "C66_clique_bound",
    "C66_lag_bound",
    "C66_dual_bound",
    "C66_multipliers",
    "C66_margin",
    "C66_clique_at_most_sum",
    "C66_lag_without_multipliers"
   ],
   "note": "Rational arithmetic instead of double; C66_margin says how much rounding the margin of 0.0001 absorbs."
  },
  {
   "property": "C67",
   "status": "partial",
   "theorems": [
    "C67_search_total",
    "C67_search_genuine",
    "C67_search_optimal",
    "C67_search_narrow",
    "C67_static"
   ],
   "note": "Optimality when no node was refused as seen and no improving edge goes straight to the sink, as for the search with a fixed bound (C18)."
  },
  {
   "property": "C68",
   "status": "partial",
   "theorems": [
    "C68_clique_closures_valid",
    "C68_lag_locals_valid",
    "C68_clique_search",
    "C68_lag_search",
    "C68_lag_optimal",
    "C68_lag_wide",
    "C68_search_optimal_refuted"
   ],
   "note": "Optimality is false in general (graphs of four and seven vertices, both bounds); proved at width 2^nv and for runs without refused nodes."
  },
  {
   "property": "C69",
   "status": "proved",
   "theorems": [
    "C69_refused_nodes_harmless",
    "C69_root_never_cut",
    "C69_enough_width_for_labels",
    "C69_bound_dependent_labels"
   ],
   "note": "Without dominance; replaces the condition of C18 and C58 that no node was refused."
  },
  {
   "property": "C70",
   "status": "partial",
   "theorems": [
    "C70_one_value_keeps_best",
    "C70_colouring_one_value",
    "C70_colouring_labels",
    "C70_colouring_search_partial"
   ],
   "note": "The condition on improving edges straight to the target remains; no colouring instance is known where it matters at this width."
  },
  {
   "property": "C71",
   "status": "proved",
   "theorems": [
    "C71_width"
   ],
   "note": ""
  },
  {
   "property": "C72",
   "status": "proved",
   "theorems": [
    "C72_dimacs",
    "C72_bad_vertex",
    "C72_no_problem_line",
    "C72_missing_file",
    "C72_ends"
   ],
   "note": ""
  },
  {
   "property": "C73",
   "status": "proved",
   "theorems": [
    "C73_colouring_file",
    "C73_no_edges_refuted",
    "C73_needs_N",
    "C73_dimacs_file_refuted",
    "C73_ends"
   ],
   "note": "The program fails on empty edge sets and on the shipped DIMACS files."
  },
  {
   "property": "C74",
   "status": "proved",
   "theorems": [
    "C74_knapsack_file",
    "C74_knapsack2_file",
    "C74_knapsack2_newline_refuted",
    "C74_ends"
   ],
   "note": "knapsack2.cpp writes out of bounds for every file with anything after the last number."
  },
  {
   "property": "C75",
   "status": "proved",
   "theorems": [
    "C75_tsp_file",
    "C75_tsp_file_old",
    "C75_tsp4_full",
    "C75_tsp4_lower",
    "C75_tsp4_other_refuted",
    "C75_no_section_endless",
    "C75_no_section_endless4"
   ],
   "note": "Both readers loop forever on files without EDGE_WEIGHT_SECTION; tsp_test4.cpp does not fill the matrix for other formats."
  },
  {
   "property": "C76",
   "status": "proved",
   "theorems": [
    "C76_misp_ends",
    "C76_misp_reports_sets",
    "C76_misp_maximum",
    "C76_misp_maximum_refuted"
   ],
   "note": "The maximum needs a wide diagram; the refuted theorem is a file on which misp4 with width 1 is wrong."
  },
  {
   "property": "C77",
   "status": "proved",
   "theorems": [
    "C77_knapsack_ends",
    "C77_knapsack_reports_packings",
    "C77_knapsack_best",
    "C77_knapsack2_trailing_refuted",
    "C77_knapsack2_all_fit_refuted",
    "C77_knapsack2_best_refuted"
   ],
   "note": "knapsack.cpp; the refuted theorems are about knapsack2.cpp."
  },
  {
   "property": "C78",
   "status": "proved",
   "theorems": [
    "C78_tsp_ends",
    "C78_tsp_reports_trips",
    "C78_tsp_shortest",
    "C78_tour_programs",
    "C78_test4_full",
    "C78_test4_lower",
    "C78_shortest_refuted"
   ],
   "note": "The shortest trip needs a wide diagram; the refuted theorem is a file on which tsp_test2 with width 1 is wrong."
  },
  {
   "property": "C79",
   "status": "proved",
   "theorems": [
    "C79_colouring_ends",
    "C79_reports_colourings",
    "C79_fewest_colours",
    "C79_fewest_colours_refuted"
   ],
   "note": "The fewest colours need a wide diagram; the refuted theorem is a file on which coloring with width 1 is wrong."
  },
  {
   "property": "C80",
   "status": "proved",
   "theorems": [
    "C80_file",
    "C80_reader_ends",
    "C80_no_windows_refuted",
    "C80_program",
    "C80_windows_ignored",
    "C80_windows_refuted"
   ],
   "note": "Doubles in the file are integers; a decimal point or exponent is not followed. The program ignores the time windows."
  },
  {
   "property": "C81",
   "status": "proved",
   "theorems": [
    "C81_double_search_is_exact",
    "C81_int_costs",
    "C81_wide_double_search_is_optimal",
    "C81_compilations",
    "C81_rounding",
    "C81_double_search_refuted",
    "C81_double_value_refuted"
   ],
   "note": "For doubles that are integers (the costs of all examples except the fractional local bounds); infinities and fractional costs are not modelled. Without the size condition the claim is refuted."
  },
  {
   "property": "C82",
   "status": "proved",
   "theorems": [
    "C82_blocks_apart",
    "C82_full",
    "C82_adapter_size",
    "C82_equality",
    "C82_wrap_refuted",
    "C82_alignment_refuted",
    "C82_copy_refuted"
   ],
   "note": "construct, destroy and address are not modelled. Nothing in the repository uses this header."
  },
  {
   "property": "C83",
   "status": "proved",
   "theorems": [
    "C83_misp_same",
    "C83_knapsack_same",
    "C83_tsp_same",
    "C83_colouring_same",
    "C83_misp_maximum",
    "C83_knapsack_best",
    "C83_tsp_shortest",
    "C83_fewest_colours"
   ],
   "note": ""
  },
  {
   "property": "C84",
   "status": "proved",
   "theorems": [
    "C84_restricted_size",
    "C84_relaxed_size",
    "C84_search_size",
    "C84_knapsack_size",
    "C84_tsp_size"
   ],
   "note": ""
  },
  {
   "property": "C85",
   "status": "proved",
   "theorems": [
    "C85_drawing_means",
    "C85_save_restricted",
    "C85_save_relaxed",
    "C85_save_exact",
    "C85_uncompiled_undefined"
   ],
   "note": ""
  },
  {
   "property": "C86",
   "status": "proved",
   "theorems": [
    "C86_search_unchanged",
    "C86_columns",
    "C86_strict",
    "C86_clock_adds",
    "C86_line_per_node",
    "C86_dual_column",
    "C86_gap_min",
    "C86_gap_max",
    "C86_gap_negative",
    "C86_final_shown_refuted",
    "C86_dual_monotone_refuted"
   ],
   "note": "The three findings are not part of the statement: the gap is negative for negative primals, the last improvement need not be shown, and the dual column need not be monotone."
  },
  {
   "property": "C87",
   "status": "partial",
   "theorems": [
    "C87_wide_finds_shortest",
    "C87_width_that_suffices",
    "C87_merging_unused",
    "C87_incumbents",
    "C87_confused_merges",
    "C87_relaxed_bound_refuted",
    "C87_repaired_relaxed_bound",
    "C87_repaired_incumbents",
    "C87_repaired_terminates",
    "C87_repaired_optimal_partial",
    "C87_repaired_optimal_fan_partial",
    "C87_one_value"
   ],
   "note": "Proved for the program as it is when the width suffices; for every width its incumbents are Golomb rulers with their lengths. That its relaxed diagrams give lower bounds is refuted; with an equality that compares the distances it is proved. Termination and optimality for smaller widths only for an equality that compares the distances; optimality then under the conditions of C18 and C58 (no node refused as seen, or a width of at least L+1; no improving edge from an exact node straight to the target in a diagram that was cut)."
  },
  {
   "property": "C88",
   "status": "partial",
   "theorems": [
    "C88_incumbents",
    "C88_wide_finds_shortest",
    "C88_width_that_suffices",
    "C88_one_node",
    "C88_node_keeps_rulers_refuted"
   ],
   "note": "Incumbents for every width and optimality when the width suffices are proved for the program as it is. That a node keeps its improving rulers is refuted; optimality for smaller widths is open (the equality of the code, C87, and an argument that follows one ruler instead of all of them)."
  },
  {
   "property": "C89",
   "status": "proved",
   "theorems": [
    "C89_incumbents",
    "C89_wide_finds_shortest",
    "C89_width_that_suffices",
    "C89_exact_states_told_apart"
   ],
   "note": ""
  },
  {
   "property": "C90",
   "status": "proved",
   "theorems": [
    "C90_handles_are_references",
    "C90_without_free",
    "C90_true_means_alive_refuted",
    "C90_equal_means_same_refuted",
    "C90_move_gives_up_refuted",
    "C90_order_refuted"
   ],
   "note": "One type of objects; the conversions between pointer types are not modelled. Nothing in the repository calls free or dealloc or orders handles."
  },
  {
   "property": "C91",
   "status": "proved",
   "theorems": [
    "C91_milliseconds",
    "C91_seconds",
    "C91_microseconds",
    "C91_pieces",
    "C91_limit_ends_search",
    "C91_limit_is_the_reason",
    "C91_limit_ends_search_bound_labels",
    "C91_limit_is_the_reason_bound_labels",
    "C91_colouring_limit",
    "C91_micro_refuted"
   ],
   "note": "The clock is an arbitrary sequence of readings; cputime() reads the wall clock."
  }
 ]
}