# Formal model of CODD (C++ decision-diagram optimiser) in Rocq/Coq 8.16.1

Source modelled: `/repo` (ldmbouge/CODD), read by hand; the C++ is never run here.
Properties: `properties.jsonl` (ids `C01`, `C02`, ...).  Claims and theorem names: `MANIFEST.json`.
Seeded-bug experiments on the model: `seeded/LOG.jsonl`.

## 1. Layout of the Coq development (`rocq/theories`, logical name `Verif`)

Each component has up to three files:

* `XxxModel.v`  – executable Gallina definitions only, each with a comment citing file and lines of `/repo`;
* `XxxSpec.v` / the first section of a proofs file – the independent specification (mathematical sets,
  lists, paths, ...), which does not mention the model's helpers;
* `XxxProofs.v` – lemmas;
* `PropXxx.v`  – only the property theorems (`exact lemma`), each with an `Example` that meets its
  hypotheses and a `Print Assumptions`.

## 2. Modelling conventions

* Objective values, costs and bounds are C++ `double`s.  The model uses unbounded `Z`
  (C81 proves that for integer-valued costs the search with double addition is the same as long as no value can pass 2^53, and what happens beyond;
  rounding of fractional costs is *not* modelled).
  The sentinel `numeric_limits<int>::max()` is kept as the literal 2147483647 and every theorem that needs
  "costs beat the sentinel" says so in a hypothesis.
* Undefined behaviour (null dereference, out-of-bounds access, shift by >= 64, failed assertion that guards memory) is a
  distinct outcome of the model (`Err UB` / `None`), never a default value.  Loops that may diverge take fuel and return a
  distinct out-of-fuel outcome.
* Machine words: `N` with explicit `mod 2^64` (`2^32`, `2^16`) where the property is about them; otherwise unbounded.
* A diagram is a store: nodes are numbered by creation (`_ndId++`), edges by creation; pointers become those numbers.
* The state table (`LHashtable<ST>`) of a diagram is replaced inside the diagram model by look-up by state equality; the table
  itself is modelled and verified separately (C40), under the proviso "equal states hash equally", which is exactly what
  C27 shows to be violated by `GNSet::hash` in general.
* The engine theorems ask of the equality closure only that it is right on the states of an invariant (`cl_eqb` of `DDSpec.v`), not on all values of the type.
* `CQueue`, `ANList`, the arc vectors, `Vec` are used in the diagram model as lists; C32/C37/C43/C44 justify this.
* `std::list::sort` in `LQueue::pullLayer` is called with a comparator (`!isBetter`) that is not a strict weak order, which
  the C++ standard leaves undefined; the model takes *any* function that returns a permutation of the layer, and the theorems hold
  for all of them.
* Printing, timing, graphviz display, the fork in `display()`, file parsing in examples are not modelled.
* The time limit is an arbitrary oracle `nat -> bool`.

## 3. Properties: what is modelled and how each is proved

Status and theorem names are those of `MANIFEST.json`.  "partial" means that the statement of `properties.jsonl` is false of the code in some
corner (a `_refuted` theorem gives the witness) or needs a hypothesis the statement does not have; the theorems that do hold are listed with it.

| id | status | model and proof | theorems | remarks |
|----|--------|-----------------|----------|---------|
| C01 | proved | `DDModel.v` (store of nodes and edges; `Exact::compute`, `computeBest`), `DDExact.v`: breadth-first invariant (an expanded node has exactly its transitions as edges), topological order of the degree heap. Specification: inductive `path` in `DDSpec.v` | `C01_exact_value_is_optimal`, `C01_exact_terminates` | any acyclic model (layered or not) without local bound, any root node, both senses; termination from a finite list of reachable states |
| C02 | proved | `DDModel.v` (store of nodes and edges; `Exact::compute`, `computeBest`), `DDExact.v`: breadth-first invariant (an expanded node has exactly its transitions as edges), topological order of the degree heap. Specification: inductive `path` in `DDSpec.v` | `C02_exact_incumbent_is_genuine` | labels of the sink replay from the root to the target with exactly the reported value |
| C03 | partial | two-layer witness run through the model | `C03_local_bound_refuted` | false: Exact prunes with the sentinel bound of nodes not yet evaluated, and a valid local bound loses the only solution |
| C04 | proved | `DDRestricted.v`: every node's (bound, labels) is a genuine path; needs no layering | `C04_restricted_reports_genuine` |  |
| C05 | proved | `DDRestricted2.v`/`DDRelaxed*.v`: coverage invariant, every improving solution has an open node or a sink arc at least as good | `C05_restricted_exact_is_optimal`, `C05_restricted_without_merge` | Every width, 0 included; the second one without any condition on the merge function. |
| C06 | partial | `DDWide.v`, `DDRestricted2.v`: invariant on queue lengths | `C06_restricted_width`, `C06_width_zero_refuted` | Proved for every width >= 1; false for width 0 (unsigned wrap-around), refuted with a witness. |
| C07 | proved | `DDRelaxed.v`, `DDRelaxed2.v`, `DDMerge.v`, `DDLayer.v`: coverage with merges and dominance, any order of the layers | `C07_relaxed_dual_bound` | Every width, every ordering of the layers. |
| C08 | proved | invariant "flagged exact implies genuine" (`DDRelaxedEnd.v`) | `C08_relaxed_exact_is_optimal` |  |
| C09 | partial | measure on the layer list (`DDLayer.v`); for partial merge functions (`ApartProofs.v`) the nodes set aside by mergeLayer stay pairwise unmergeable, and unmergeable with the rest of the layer, because a merger cannot be merged with what its parts could not be merged with; `SizeEx.v`: knapsack states that are more than 2% of the capacity apart are at most 50, tsp states with different last cities at most one per city | `C09_relaxed_width`, `C09_relaxed_width_few`, `C09_example_merges`, `C09_dominance_refuted`, `C09_partial_merge_refuted` | Proved for models without dominance whose merge function is total on a layer; false with dominance (witness).  Also proved with max(width, c) for merge functions that leave at most c states of a layer unmerged, with dominance if the merger is one of the two states; for such functions the width alone is no bound (witness). |
| C10 | partial | four-state witness | `C10_non_layered_refuted` | The property is false; refuted with a witness for both strategies. |
| C11 | proved | invariant "flagged exact implies genuine" (`DDRelaxedEnd.v`) | `C11_exact_nodes_genuine` |  |
| C12 | proved | graph consequences of the relaxed invariant (`DDRelaxedEnd.v`): each expanded node has for each label an arc to its successor, to a merged node that relaxes it or to a dominator | `C12_cutset_covers` | Second disjunct: solutions whose best cover is an all-exact path straight to the sink (see C18). |
| C13 | proved | graph consequences of the relaxed invariant (`DDRelaxedEnd.v`): each expanded node has for each label an arc to its successor, to a merged node that relaxes it or to a dominator | `C13_backward_bound`, `C13_prune_safe` |  |
| C14 | partial | `DDPasses.v`, `DDTopo.v`: passes on arbitrary acyclic stores | `C14_backward_best`, `C14_sentinel_refuted` | Best suffix values proved; nodes without a path to the sink get a value near the sentinel, not the sentinel itself (witness). |
| C15 | proved | `DDPasses.v`, `DDTopo.v`: passes on arbitrary acyclic stores | `C15_forward_best` |  |
| C16 | proved | `SearchModel.v`, `SearchProofs.v`: invariant of the search loop (bounds, node table of the B&B pool, queue as a bag) | `C16_incumbent_genuine` | layered models with valid closures, any width below 2^32, any time-limit oracle, preset primal no worse than the sentinel; a run ending at Limited is the search at an arbitrary moment between nodes |
| C17 | proved | `SearchModel.v`, `SearchProofs.v`: invariant of the search loop (bounds, node table of the B&B pool, queue as a bag) | `C17_primal_improves` | same conditions as C16 |
| C18 | partial | `SearchProofs.v` for the positive part, `SearchEx.v` for the runs of the model that go wrong | `C18_search_optimal_partial`, `C18_root_in_cutset_refuted`, `C18_state_seen_refuted`, `C18_exact_path_refuted`, `C18_queue_dominance_refuted` | false for the code as written: four different counterexamples, one of them examples/knapsack2.cpp itself. Proved under run-time conditions: no cut-set node was dropped by cloneNode, no improving arc from an exact node into the sink when a cut set is taken, dominance valid across depths |
| C19 | proved | corollary of C08 and the loop invariant (`DDWide.v`) | `C19_wide_enough_is_optimal` | width at least the number of distinct states at each depth, limit does not fire before the root |
| C20 | partial | `DDRelaxed.v`, `DDRelaxed2.v`, `DDMerge.v`, `DDLayer.v`: coverage with merges and dominance, any order of the layers | `C20_dominance_keeps_optimum`, `C20_sink_dominated_refuted` | Proved for relations that do not relate states with a reached sink; false otherwise (witness: null dereference). |
| C21 | proved | `DDRestricted2.v`/`DDRelaxed*.v`: coverage invariant, every improving solution has an open node or a sink arc at least as good | `C21_local_prune_safe` |  |
| C22 | partial | `SearchProofs.v` for the positive part, `SearchEx.v` for the runs of the model that go wrong | `C22_limit_reported_partial`, `C22_finished_not_limited`, `C22_last_node_refuted` | false for the node in hand when the limit fires: LIM? false although it could improve; positive part under the conditions of C18 |
| C23 | proved | `SearchModel.v`, `SearchProofs.v`: invariant of the search loop (bounds, node table of the B&B pool, queue as a bag) | `C23_preset_primal`, `C23_preset_below_sentinel_refuted` | for presets no worse than the sentinel; the excluded value (Maximize, -2^31) is refuted |
| C24 | proved | `SetModel.v` (word arrays, explicit 64-bit words, short iterator), `SetSpec.v` (membership), `SetProofs.v`, `GSetProofs.v`, `SetEnd.v`; histories of operations | `C24_contains`, `C24_progress`, `C24_insert_refuted`, `C24_contains_negative_refuted` | every history of constructors and operations; insert proved to succeed for values below 2^20 on sets with at least one word; the excluded inputs are refuted |
| C25 | proved | `SetModel.v` (word arrays, explicit 64-bit words, short iterator), `SetSpec.v` (membership), `SetProofs.v`, `GSetProofs.v`, `SetEnd.v`; histories of operations | `C25_iteration`, `C25_iteration_nonempty`, `C25_iteration_refuted` | members below 32768 (the iterator delivers a short); copies of zero-word sets excluded, both exclusions refuted |
| C26 | proved | `SetModel.v` (word arrays, explicit 64-bit words, short iterator), `SetSpec.v` (membership), `SetProofs.v`, `GSetProofs.v`, `SetEnd.v`; histories of operations | `C26_equality` | all capacities; operator!= is the negation |
| C27 | partial | `SetModel.v` (word arrays, explicit 64-bit words, short iterator), `SetSpec.v` (membership), `SetProofs.v`, `GSetProofs.v`, `SetEnd.v`; histories of operations | `C27_hash_refuted`, `C27_hash_partial` | false across capacities (witness); proved for equal capacities |
| C28 | partial | `SetModel.v` (word arrays, explicit 64-bit words, short iterator), `SetSpec.v` (membership), `SetProofs.v`, `GSetProofs.v`, `SetEnd.v`; histories of operations | `C28_removeBelow`, `C28_removeAbove_partial`, `C28_removeAbove_inserted`, `C28_removeAbove_refuted` | removeBelow proved; removeAbove is false after a union or from a range/default set (witnesses), proved when largestPossible() bounds the members |
| C29 | proved | `SetModel.v` (word arrays, explicit 64-bit words, short iterator), `SetSpec.v` (membership), `SetProofs.v`, `GSetProofs.v`, `SetEnd.v`; histories of operations | `C29_contains`, `C29_insert_defined`, `C29_iteration`, `C29_largest`, `C29_equality_hash`, `C29_interval_refuted` | NatSet has no difference operator; up to 512 words (short iterator) |
| C30 | partial | `SubModel.v`, `SubProofs.v`, `SubEnd.v`: the shift-and-reverse loop, word by word | `C30_sub_refuted`, `C30_sub_wrong_refuted`, `C30_sub_one_word`, `C30_sub_near`, `C30_sub_partial` | false in general: elements lost, a word written past the end, a shift by 64 (witnesses); proved for one-word sets and under an explicit arithmetic condition |
| C31 | partial | `SetModel.v`: Z intervals; GNSet(Range) through the set model | `C31_iteration`, `C31_close`, `C31_increasing`, `C31_flip_partial`, `C31_flip_refuted`, `C31_contains_refuted`, `C31_contains_partial`, `C31_gnset`, `C31_gnset_refuted` | iteration, size, close and GNSet(Range) proved; contains and backward flip are false (witnesses) |
| C32 | proved | `QueueModel.v`, `QueueRuns.v`: ring buffer with location identities refined to a sequence | `C32_queue_fifo`, `C32_queue_refines_sequence`, `C32_queue_progress`, `C32_size_zero_refuted` | for initial sizes >= 1; CQueue(0) is refuted |
| C33 | proved | `QueueModel.v`, `QueueRuns.v`: ring buffer with location identities refined to a sequence | `C33_locations_distinct`, `C33_retract_removes_one`, `C33_folds_visit_in_order`, `C33_retract_order_refuted`, `C32_queue_refines_sequence` | retract returns nothing in the code (the value is read through the location); it does not keep the order of the others |
| C34 | proved | `HeapModel.v`, `HeapRuns.v`: array heap with back pointers, refined to a bag; any strict weak order | `C34_extractMax_returns_best`, `C34_heap_refines_bag`, `C34_heap_progress`, `C34_heap_counts` | Any history within the contract, any strict weak order, any initial capacity >= 1. |
| C35 | proved | `HeapModel.v`, `HeapRuns.v`: array heap with back pointers, refined to a bag; any strict weak order | `C35_locations_stay_valid`, `C34_heap_refines_bag`, `C35_find_stale_refuted` | Heap::find additionally sees dead elements (separate refutation). |
| C36 | proved | `MSortModel.v`: the ping-pong merge sort on arrays, refined to a sorted permutation | `C36_mergeSort_strict`, `C36_mergeSort_preorder` |  |
| C37 | partial | `VecModel.v`/`VecSpec.v`: heap of arrays, copy/move/assign, refined to a family of sequences | `C37_vec_is_sequence_partial`, `C37_set_truncates_refuted`, `C37_move_alias_refuted` | Every history is proved to be a history of independent sequences (below 2^31 elements), except the last clause: v[i]=x inside truncates (refuted). Move construction aliases the source (refuted). |
| C38 | proved | `PoolModel.v`/`PoolSpec.v`: segment list, marks; history invariant | `C38_blocks_disjoint_aligned_inside`, `C38_debug_build`, `C38_debug_assertion_refuted`, `C38_rounding_refuted` | sizes up to 2^62, any segment size; the bases of segments are taken to be aligned. Debug builds abort on blocks larger than an empty segment; sizes near 2^64 are rounded to 0 (both refuted) |
| C39 | proved | `PoolModel.v`/`PoolSpec.v`: segment list, marks; history invariant | `C38_blocks_disjoint_aligned_inside`, `C39_clear_reuses` |  |
| C40 | partial | `HashModel.v`/`HashSpec.v`: buckets with 32-bit generation counter, prime table; history refined to a dictionary | `C40_table_is_dictionary`, `C40_lookup_since_clear`, `C40_magic_wrap_refuted` | Both tables modelled in full (getLoc, rawInsertAt/safeInsertAt, safeInsert, insert, get, size, clear, doOnAll; 32-bit magic numbers). Every history with fewer than 2^32 calls of clear() is a history of a dictionary, for every hash and equality with equal keys hashing equally, every requested size >= 2. With 2^32 clears stale entries come back (C40_magic_wrap_refuted). |
| C41 | partial | `HashModel.v`/`HashSpec.v`: buckets with 32-bit generation counter, prime table; history refined to a dictionary | `C41_table_size`, `C41_listed_sizes_are_prime`, `C41_tiny_size_refuted` | Proved for every requested size >= 2 (64-bit unsigned arithmetic and conversion to int modelled). For sizes 0 and 1 the search reads _primes[-1] (C41_tiny_size_refuted). |
| C42 | partial | `UFModel.v`/`UFSpec.v`: parent pointers, ranks, path compression | `C42_uf_defined`, `C42_uf_same_iff_connected`, `C42_uf_representative`, `C42_uf_merge_result`, `C42_merge_result_refuted` | Partition and sizes proved for every history of up to 2^31-1 nodes. The last clause (merge returns the representative) is false: C42_merge_result_refuted; C42_uf_merge_result says exactly when it holds. |
| C43 | proved | `ListModel.v`/`ListSpec.v`: next/prev pointers over a shared node store | `C43_list_is_sequence`, `C43_remove_nonmember_refuted`, `C43_clear_keeps_links_refuted` | release build; any number of lists over the same nodes; the copy constructor is not modelled |
| C44 | proved | `ArcModel.v`/`ArcSpec.v`: arc vectors with _fix/_tix, refined to a multigraph | `C44_add_transfer`, `C44_add_disconnect`, `C44_mixed_refuted` | for every history of addArc and transferArcs, and for every history of addArc and disconnect, the child and parent vectors are exactly the multigraph; self loops and transfers between adjacent nodes excluded (they do not occur). Mixing transfers and later disconnects goes wrong: stale _fix/_tix |
| C45 | partial | `MatModel.v`/`MatSpec.v`: row-major index in 32-bit int arithmetic; FArray on a heap with ownership | `C45_index_partial`, `C45_store_read_partial`, `C45_farray_is_sequence`, `C45_make_copy`, `C45_overflow_refuted`, `C45_assign_moved_refuted`, `C45_self_move_refuted` | any number of dimensions up to 2^31 cells; beyond, the int index overflows (refuted). FArray as a family of sequences on an explicit heap, no leaks; moved-from and self-move counterexamples |
| C46 | partial | `KnapModel.v`, `KnapProofs.v`, `KnapEnd.v`: closures as a `prob` record; doubles of the local bound through an abstract `frac`, with the IEEE result as witness | `C46_solutions_are_selections`, `C46_knapsack_closures_valid`, `C46_knapsack2_closures_valid_partial`, `C46_exact_diagram_solves_knapsack`, `C46_preset_is_attained`, `C46_preset_overruns`, `C46_double_local_bound_refuted`, `C46_cross_depth_dominance_refuted` | knapsack.cpp fully; knapsack2.cpp with the local bound computed exactly. As written (double arithmetic) its local bound is refuted, with a search that misses the optimum; sDom is only valid within a layer; getUB overruns when all items fit |
| C47 | partial | `MispModel.v`, `MispSpec.v`, `MispProofs.v` (one generic "vertex by vertex" proof), `MispInst.v` (misp2..5), `MispFirst.v` (misp.cpp), `MispEnd.v` (searches, checkers, witnesses) | `C47_solutions_are_independent_sets`, `C47_misp_solutions`, `C47_misp_solutions_suffice`, `C47_misp_all_sets_refuted`, `C47_closures_valid`, `C47_initial_states`, `C47_negative_local_refuted`, `C47_exact_diagram_misp`, `C47_exact_diagram_misp2`, `C47_misp_search`, `C47_search_reports_independent_sets`, `C47_search_optimal_refuted`, `C47_checkers_accept`, `C47_checkers_refuted`, `C47_misp5_sum_refuted` | misp2 to misp5: exactly the independent sets, one to one, any weights. misp.cpp: only those not extendable to the right (refuted as stated; equal optimum for weights >= 0). Merge and local bound valid for weights >= 0 (refuted for negative ones). Sets are bit masks; values are unbounded integers |
| C48 | proved | `TspModel.v`, `TspSpec.v`, `TspProofs.v`, `TspEnd.v` | `C48_solutions_are_tours`, `C48_closures_valid`, `C48_indices_in_range`, `C48_single_city_refuted`, `C48_exact_diagram_finds_shortest_tour`, `C48_search_reports_tours`, `C48_search_optimal_refuted` | at least two cities (the depot is city 1); with one city the closures read outside the matrix. Sets are bit masks; distances are unbounded integers |
| C49 | partial | `NdaModel.v`/`NdaSpec.v`: array with _from/_at/_sz, holes, refined to a sequence | `C49_nda_is_sequence_partial`, `C49_sort_after_pop_refuted`, `C49_pushf_without_room_refuted`, `C49_suffix_holes_refuted`, `C49_pop_empty_refuted` | every operation sequence except: sort and eraseSuffix once something was popped or erased, push_front without room, popping an empty array; each of those is refuted |
| C50 | proved | `DDModel.v` reset/duplicate/apply; equality with a fresh diagram (`PropReuse.v`) | `C50_reuse_is_fresh` | apply on any two diagrams from the same node and bounds gives equal results; pool memory itself is C38/C39 |
| C51 | partial | `BitModel.v`: byte tables and loops | `C51_revBitsOfLong`, `C51_revBitsOfByte`, `C51_revBitsOfWord_partial`, `C51_revBitsOfWord_refuted` | revBitsOfLong and revBitsOfByte proved; revBitsOfWord leaves the top byte undefined (loop bound), refuted |
| C52 | proved | `SetEnd.v`: folds over the iterator | `C52_min`, `C52_max`, `C52_filter`, `C52_sum`, `C52_minBy`, `C52_maxBy` | members below 32768; sums over unbounded integers |
| C53 | proved | `SearchModel.v`, `SearchProofs.v`: invariant of the search loop (bounds, node table of the B&B pool, queue as a bag) | `C53_states_queued_once`, `C53_nodes_at_most_states`, `C53_search_terminates` |  |
| C54 | proved | fuel bound from the layer rank | `C54_restricted_terminates`, `C54_relaxed_terminates` |  |
| C55 | proved | `UFModel.v`/`UFSpec.v`: parent pointers, ranks, path compression | `C55_uf_depth_logarithmic` | Union by size and path compression modelled. |
| C56 | partial | `RulerModel.v` (masks for the sets; the code's 4-word sets at the end), `RulerSpec.v` (`golomb`, independent of the code), `RulerProofs.v` (a state represents its marks), `RulerEnd.v`, `RulerTop.v` | `C56_solutions_are_rulers`, `C56_exact_diagram_finds_shortest`, `C56_restricted_diagram`, `C56_equality_on_unmerged_states`, `C56_closures_valid_partial`, `C56_words_are_sets`, `C56_length_limit_refuted`, `C56_equality_of_merged_states_refuted`, `C56_words_refuted` | Proved: solutions, exact and restricted diagrams with the code's equality. Relaxed diagrams only with an equality that compares the distances (the code's equality is refuted on merged states). False: the length limit (exceeded by one), the sets for gaps of 64 and for the mark 256. |
| C57 | partial | `RulerModel.v`, `RulerEnd.v` (mirror image), `RulerLb.v` (smallest unused distance) | `C57_mid_sound`, `C57_mid_complete`, `C57_midlb_solutions`, `C57_exact_diagram_mid`, `C57_exact_diagram_midlb`, `C57_closures_valid_partial` | Everything stated is proved for exact diagrams; the validity of the merge only with an equality that compares distances and sm, as in C56. |
| C58 | partial | `SearchDyn.v`: the search of C18 with labels `lab b`; the diagrams of each node are those of the problem relabelled with the bound of that moment | `C58_incumbents_genuine`, `C58_primal_bound`, `C58_terminates`, `C58_wide_enough_is_optimal`, `C58_search_is_optimal_partial`, `C58_static_labels` | Optimality in general only when no node was refused as already seen and no exact node of a cut diagram has an improving edge straight to the target; without these it is false (C18, C60). |
| C59 | proved | `ColorModel.v`, `ColorSpec.v` (proper colourings, independent of the code), `ColorProofs.v` (a state stands for a partial colouring; renaming of colours), `ColorTop.v`, `ColorEnd.v` | `C59_solutions_are_colourings`, `C59_no_colouring_lost`, `C59_exact_diagram_is_chromatic_number`, `C59_relaxed_diagram_bounds`, `C59_checker_accepts` | All four programs; fewer than 65536 colours for coloring2 and coloring3 (unsigned short), fewer than 2^31-1 for coloring. Sets of colours are bit masks. |
| C60 | partial | the colouring programs as instances of C58 (`ColorTop.v`, `ColorEnd.v`) | `C60_incumbents_are_colourings`, `C60_terminates`, `C60_wide_enough_is_optimal`, `C60_search_is_optimal_partial`, `C60_search_is_optimal_refuted`, `C60_loop_edge_refuted`, `C60_toy_program_result` | Optimality is false in general: bipartite graphs of five and six vertices where all four programs stop at three colours (widths 1 and 2). Proved for wide enough diagrams and for runs without refused nodes. |
| C61 | partial | `TourModel.v`, `TourSpec.v`, `TourProofs.v` (one proof for any program of the shape `tshape`), `TourTop.v` (the four programs have it), `TourEnd.v` | `C61_solutions_are_tours`, `C61_closures_valid`, `C61_search_reports_tours`, `C61_wide_search_optimal`, `C61_wide_enough`, `C61_search_optimal_partial`, `C61_search_optimal_refuted`, `C61_lb_is_not_used` | All four programs. Optimality of the search is false in general (all four miss the optimum of an instance with five cities); proved for wide enough diagrams and for runs without refused nodes. Statements about the search assume that the undefined root bound (C62) is not more than a shortest tour. |
| C62 | partial | `TourBound.v`: greedy as the sum of the cheapest edges, spanning tree as Kruskal's loop with union-find; `TourRoot.v` for the root | `C62_greedy_bound_sound`, `C62_spanning_tree_bound_sound`, `C62_root_bound_defined_refuted`, `C62_search_finds_a_tour_refuted` | Proved for every state but the initial one, where both bounds are undefined on every instance; if the undefined value is large the search reports nothing. Values are unbounded integers; doubles of the matrix of tsp_test3 are integers. |
| C63 | partial | `ToyModel.v`, `ToySpec.v`, `ToyProofs.v` (tsptoy), `ToyTwo.v` (tsptoy2; enumeration of completions), `ToyEnd.v` (layers by enumeration, so widths from 30 on are covered by the theorem on wide diagrams), `ToyRuns.v` (the results on the built-in instances) | `C63_solutions_are_tours`, `C63_toy_closures_valid`, `C63_toy_search_reports_tours`, `C63_toy_exact_diagram`, `C63_toy_wide_search_optimal`, `C63_toy_search_optimal_partial`, `C63_toy_program_result`, `C63_toy2_merge_refuted`, `C63_toy2_eqs_refuted` | Solutions for both programs; closures, searches and the result 94 at every width from 30 on (the default is 64) for tsptoy. The merge of tsptoy2 is not a relaxation and its target test accepts the initial state, so only its solutions are proved; its run with the default width is a test. |
| C64 | partial | `ToyModel.v`, `ToySpec.v`, `ToyFoo.v`, `ToyEnd.v`, `ToyRuns.v` | `C64_solutions_are_independent_sets`, `C64_exact_diagram`, `C64_merge_refuted`, `C64_program_optimal_refuted` | Solutions and exact diagrams are proved for all graphs. The merge is not a relaxation, and the program itself reports 10 where 11 is possible. |
| C65 | partial | `LagModel.v`, `LagSpec.v` (clique partition, greedy maximality), `LagClique.v` (invariant of the loops over visited vertices) | `C65_partition`, `C65_any_file_refuted` | Proved for every graph on the announced vertices. readFile does not reject edges to vertices beyond them; then visited is read out of bounds (witness). |
| C66 | proved | `LagProofs.v`: sums over cliques of the largest weight, multipliers as weights moved between the ends of an edge; `LagEnd.v`; `LagTight.v` for the comparisons | `C66_clique_bound`, `C66_lag_bound`, `C66_dual_bound`, `C66_multipliers`, `C66_margin`, `C66_clique_at_most_sum`, `C66_lag_without_multipliers` | Rational arithmetic instead of double; C66_margin says how much rounding the margin of 0.0001 absorbs. |
| C67 | partial | `SearchLoc.v`: the search of C18 with a bound state; every step is a step of the search for the problem with the bound of that moment (`relocal`) | `C67_search_total`, `C67_search_genuine`, `C67_search_optimal`, `C67_search_narrow`, `C67_static` | Optimality when no node was refused as seen and no improving edge goes straight to the sink, as for the search with a fixed bound (C18). |
| C68 | partial | misp4_lag as an instance of C47's closures and of C67 (`LagEnd.v`); runs in `LagTight.v` | `C68_clique_closures_valid`, `C68_lag_locals_valid`, `C68_clique_search`, `C68_lag_search`, `C68_lag_optimal`, `C68_lag_wide`, `C68_search_optimal_refuted` | Optimality is false in general (graphs of four and seven vertices, both bounds); proved at width 2^nv and for runs without refused nodes. |
| C69 | proved | `DDRoot.v`: the children of the root of a relaxed diagram stay exact when they fit into the width, so the root is no cut set node; `SearchSeen.v`: coverage of the queue by depth, a refused node is covered by the queue at its own depth or deeper; `SearchCut.v` | `C69_refused_nodes_harmless`, `C69_root_never_cut`, `C69_enough_width_for_labels`, `C69_bound_dependent_labels` | Without dominance; replaces the condition of C18 and C58 that no node was refused. |
| C70 | partial | `SearchCut.v` (`one_value_kept`), `ColorCut.v` (the state holds the number of colours used; at most one label more) | `C70_one_value_keeps_best`, `C70_colouring_one_value`, `C70_colouring_labels`, `C70_colouring_search_partial` | The condition on improving edges straight to the target remains; no colouring instance is known where it matters at this width. |
| C71 | proved | `SearchCut.v`: invariant of the search; the cut set has no duplicates | `C71_width` |  |
| C72 | proved | `ReadModel.v`: an input stream is the remaining text with the eof and fail bits; `ReadSpec.v`: grammar of the files, independent of the reader; `ReadProofs.v`: each stream operation on a known prefix, then induction over the lines; `ReadTerm.v`: the rest of the text gets shorter in each round | `C72_dimacs`, `C72_bad_vertex`, `C72_no_problem_line`, `C72_missing_file`, `C72_ends` |  |
| C73 | proved | `ReadRun.v`: induction over the assignments and the edges; `ReadTerm.v`; `ReadEx.v` (the DIMACS file) | `C73_colouring_file`, `C73_no_edges_refuted`, `C73_needs_N`, `C73_dimacs_file_refuted`, `C73_ends` | The program fails on empty edge sets and on the shipped DIMACS files. |
| C74 | proved | `ReadRun.v`: induction over the items; the last round is the attempt that fails | `C74_knapsack_file`, `C74_knapsack2_file`, `C74_knapsack2_newline_refuted`, `C74_ends` | knapsack2.cpp writes out of bounds for every file with anything after the last number. |
| C75 | proved | `ReadTsp.v`: the header loop, then one number per cell; without the section the state of the stream repeats | `C75_tsp_file`, `C75_tsp_file_old`, `C75_tsp4_full`, `C75_tsp4_lower`, `C75_tsp4_other_refuted`, `C75_no_section_endless`, `C75_no_section_endless4` | Both readers loop forever on files without EDGE_WEIGHT_SECTION; tsp_test4.cpp does not fill the matrix for other formats. |
| C76 | proved | `ProgModel.v` (main: reader, then the search on the problem built from what was read), `ProgSpec.v` (solutions of the file, in the numbering of the file), `ProgProofs.v`: the reader theorem C72, the problem theorems C47 to C50, the search theorems; file and run for the finding in `ProgEx.v` | `C76_misp_ends`, `C76_misp_reports_sets`, `C76_misp_maximum`, `C76_misp_maximum_refuted` | The maximum needs a wide diagram; the refuted theorem is a file on which misp4 with width 1 is wrong. |
| C77 | proved | `ProgKnap.v`: C74 with the theorems on the knapsack problem; `ProgEx.v` | `C77_knapsack_ends`, `C77_knapsack_reports_packings`, `C77_knapsack_best`, `C77_knapsack2_trailing_refuted`, `C77_knapsack2_all_fit_refuted`, `C77_knapsack2_best_refuted` | knapsack.cpp; the refuted theorems are about knapsack2.cpp. |
| C78 | proved | `ProgTsp.v`: C75 with C60 to C63; rotation of round trips; `ProgEx.v` | `C78_tsp_ends`, `C78_tsp_reports_trips`, `C78_tsp_shortest`, `C78_tour_programs`, `C78_test4_full`, `C78_test4_lower`, `C78_shortest_refuted` | The shortest trip needs a wide diagram; the refuted theorem is a file on which tsp_test2 with width 1 is wrong. |
| C79 | proved | `ProgColor.v`: C73 with the colouring theorems; `ProgEx.v` | `C79_colouring_ends`, `C79_reports_colourings`, `C79_fewest_colours`, `C79_fewest_colours_refuted` | The fewest colours need a wide diagram; the refuted theorem is a file on which coloring with width 1 is wrong. |
| C80 | proved | `ReadTwModel.v`, grammar in `ReadTwSpec.v`; `ReadTwProofs.v`: skip over white space and comments by induction, then as C75 and C78; `ReadTwEx.v` | `C80_file`, `C80_reader_ends`, `C80_no_windows_refuted`, `C80_program`, `C80_windows_ignored`, `C80_windows_refuted` | Doubles in the file are integers; a decimal point or exponent is not followed. The program ignores the time windows. |
| C81 | proved | `RoundModel.v`: every function of the engine that adds two values, again, with the addition as a parameter; `RoundProofs.v`, `RoundSearch.v`: the invariants of the compilations and of the search bound every value in reach by A + C (layers), so every sum is one the addition makes without error and each F function equals the one without; `RoundEx.v` | `C81_double_search_is_exact`, `C81_int_costs`, `C81_wide_double_search_is_optimal`, `C81_compilations`, `C81_rounding`, `C81_double_search_refuted`, `C81_double_value_refuted` | For doubles that are integers (the costs of all examples except the fractional local bounds); infinities and fractional costs are not modelled. Without the size condition the claim is refuted. |
| C82 | proved | `StackModel.v`: allocators as pairs of pointers into numbered buffers; `StackProofs.v`: induction over the operations, each allocator owns the part of its buffer below its pointer | `C82_blocks_apart`, `C82_full`, `C82_adapter_size`, `C82_equality`, `C82_wrap_refuted`, `C82_alignment_refuted`, `C82_copy_refuted` | construct, destroy and address are not modelled. Nothing in the repository uses this header. |
| C83 | proved | `ProgRound.v`: the main functions of `ProgModel.v` with the search of `RoundModel.v` (colouring: `RoundDyn.v`, the search whose labels read the primal bound); the sizes of costs and local bounds of each program bound every partial sum by 2^53, below which a double addition is exact (C81) | `C83_misp_same`, `C83_knapsack_same`, `C83_tsp_same`, `C83_colouring_same`, `C83_misp_maximum`, `C83_knapsack_best`, `C83_tsp_shortest`, `C83_fewest_colours` |  |
| C84 | proved | `SizeProofs.v`: nodes and edges added by each function of the compilation are counted, the layers are bounded by C09; `SizeSearch.v`: invariant of the search loop; `SizeEx.v`: knapsack and tsp | `C84_restricted_size`, `C84_relaxed_size`, `C84_search_size`, `C84_knapsack_size`, `C84_tsp_size` |  |
| C85 | proved | `SaveModel.v`: the two functions with Heap::find; the text of a node is represented by its number; `SaveProofs.v`: find returns the location of a node still in the heap, so the loop treats the nodes in topological order; `SaveEnd.v`: counts and order of the lines, and the final states of the three strategies are well-formed diagrams in which only the sink has the target state | `C85_drawing_means`, `C85_save_restricted`, `C85_save_relaxed`, `C85_save_exact`, `C85_uncompiled_undefined` |  |
| C86 | proved | `ProgressModel.v`: the loop of SearchModel with the flag primalBetter and the lines printed; the clock (fl > 5000) is an arbitrary function of the iteration; the quotient of the gap is rational, not rounded, and the elapsed time is left out; `ProgressProofs.v`: forgetting the lines gives back `search`, the lines by induction over the loop with the invariants of C14-C16 | `C86_search_unchanged`, `C86_columns`, `C86_strict`, `C86_clock_adds`, `C86_line_per_node`, `C86_dual_column`, `C86_gap_min`, `C86_gap_max`, `C86_gap_negative`, `C86_final_shown_refuted`, `C86_dual_monotone_refuted` | The three findings are not part of the statement: the gap is negative for negative primals, the last improvement need not be shown, and the dual column need not be monotone. |
| C87 | partial | `RulerSearch.v`: `searchD` of SearchDyn.v with the labels of gruler.cpp:94-102 read at the current primal bound; `NoMerge.v`: in a diagram wide enough for every layer the merge function is never called, so the search equals that of the problem without merging, for which the equality of the code is the equality of states (C56); `SoftEq.v`, `SoftSearch.v`, `RulerSoft.v`: whatever the width, a merged state has fewer marks than its counter says, so the equality of the code never confuses it with a state of an exact path; an invariant of the relaxed diagram under this weaker condition (`soft`) keeps exact nodes, cut-sets and exact sinks genuine, which gives the incumbents; `RulerLoss.v`: a node whose relaxed diagram loses a ruler (by computation), and its absence with the repaired equality from the dual bound of C07; `RulerFan.v`: one value per state and at most L+1 labels, so C69/C70 apply; for the repaired equality `dyn_ok` is proved from the characterisation of the solutions in C56 | `C87_wide_finds_shortest`, `C87_width_that_suffices`, `C87_merging_unused`, `C87_incumbents`, `C87_confused_merges`, `C87_relaxed_bound_refuted`, `C87_repaired_relaxed_bound`, `C87_repaired_incumbents`, `C87_repaired_terminates`, `C87_repaired_optimal_partial`, `C87_repaired_optimal_fan_partial`, `C87_one_value` | Proved for the program as it is when the width suffices; for every width its incumbents are Golomb rulers with their lengths. That its relaxed diagrams give lower bounds is refuted; with an equality that compares the distances it is proved. Termination and optimality for smaller widths only for an equality that compares the distances; optimality then under the conditions of C18 and C58 (no node refused as seen, or a width of at least L+1; no improving edge from an exact node straight to the target in a diagram that was cut). |
| C88 | partial | `MidSearch.v`: `searchD` with the labels of gruler_mid.cpp:96-111 at the current primal bound; `SoftSearch.v` (incumbents under the weak conditions `soft` and `dyn_sub`), `OnceSearch.v`: with a width that suffices the root's relaxed diagram is exact and is compiled with the labels of the starting bound, which allow each ruler or its mirror image (C57); the refutation is a node without labels, by computation | `C88_incumbents`, `C88_wide_finds_shortest`, `C88_width_that_suffices`, `C88_one_node`, `C88_node_keeps_rulers_refuted` | Incumbents for every width and optimality when the width suffices are proved for the program as it is. That a node keeps its improving rulers is refuted; optimality for smaller widths is open (the equality of the code, C87, and an argument that follows one ruler instead of all of them). |
| C89 | proved | `MidLbSearch.v`: as C88 for the states of gruler_midlb.cpp; the states of exact paths are determined by their marks (`RulerLb.v`), and a merged state has fewer marks than it counts | `C89_incumbents`, `C89_wide_finds_shortest`, `C89_width_that_suffices`, `C89_exact_states_told_apart` |  |
| C90 | proved | `HandleModel.v`: handles as addresses into a heap, the allocator a parameter; `HandleSpec.v`: the same operations on numbered objects, without addresses; `HandleProofs.v`: simulation, live objects have different addresses | `C90_handles_are_references`, `C90_without_free`, `C90_true_means_alive_refuted`, `C90_equal_means_same_refuted`, `C90_move_gives_up_refuted`, `C90_order_refuted` | One type of objects; the conversions between pointer types are not modelled. Nothing in the repository calls free or dealloc or orders handles. |
| C91 | proved | `ClockModel.v`: durations as quotients of nanoseconds, the limiter of the examples as the limit oracle of the search model; `ClockProofs.v`: arithmetic, and induction over the loop with the invariant of C16 (for labels that read the bound, of C58); `ClockColor.v`: the colouring programs, which set limits | `C91_milliseconds`, `C91_seconds`, `C91_microseconds`, `C91_pieces`, `C91_limit_ends_search`, `C91_limit_is_the_reason`, `C91_limit_ends_search_bound_labels`, `C91_limit_is_the_reason_bound_labels`, `C91_colouring_limit`, `C91_micro_refuted` | The clock is an arbitrary sequence of readings; cputime() reads the wall clock. |

## 4. Trusted base

* Coq 8.16.1 kernel, including `vm_compute` (used for concrete witnesses and table checks).
* Axioms: none.  `Print Assumptions` stands under every property theorem and answers "Closed under the global context" for each.
* The hand translation C++ -> Gallina (each definition cites its lines) and the simplifications of section 2.
* Statements are about the model.  The C++ was neither compiled nor run here.

Modelled: `src/dd.cpp` and `src/dd.hpp` (init/target/transition/duplicate/apply, the three strategies, both passes, LQueue, merging, cut set; not
`display`; of `print` and `saveGraph` the order and content of the lines, C85), `src/search.cpp` (of its output the progress lines, C86, and the final counters), `src/heap.hpp`, `src/queue.hpp`, `src/vec.hpp`, `src/uf.hpp`, `src/lighthash.hpp`,
`src/hashtable.hpp`, `src/msort.hpp`, `src/store.hpp/.cpp` (Pool), `src/stlAllocAdapter.hpp`, `src/pool.hpp` (LPool: the free list of search nodes, as part of the search model), `src/node.hpp/.cpp` (arcs, lists), `src/util.hpp` (NatSet,
GNSet, Range, FArray, Matrix, hashes, bit helpers, aggregates), `examples/knapsack.cpp`, `knapsack2.cpp`, `misp.cpp` to `misp5.cpp`, `tsp.cpp`, `gruler.cpp`,
`gruler_mid.cpp`, `gruler_midlb.cpp`, `coloring.cpp`, `coloring2.cpp`, `coloring3.cpp`, `coloringtoy.cpp`, `tsp_test2.cpp`, `tsp_test3.cpp`, `tsp_test4.cpp`, `tsptw.cpp`,
`tsptoy.cpp`, `tsptoy2.cpp`, `foo.cpp`, `misp4_lag.cpp` (not its printing and the export of the partition; rationals for doubles); the readers of instance files of all
examples (tsptw.cpp with integers only), on top of a model of `std::ifstream` (`get`, `getline`, `>>` for characters, words and integers; C locale); the
main functions of misp*, knapsack*, tsp* and coloring* (command line, checkers and printing left out);
`src/handle.hpp` (C90; elsewhere a pointer is the number of its node); `src/RuntimeMonitor.cpp` (C91).

Not modelled: the clock itself (an arbitrary sequence of readings), printing, decimal points and exponents in files, threads
(there are none), destructors other than FArray's and Vec's.  Doubles are integers except in the local bound of knapsack2.cpp and in misp4_lag.cpp (rationals).

Checks of the models against the authors' expectations: `SuiteEx.v` runs all seven programs of `test/` on the models (Vec, NatSet, GNSet, mergeSort,
`ofs - s`, removeBelow); all expected results come out.

## 5. Findings (each has a machine-checked witness unless marked "by reading")

Search and diagrams
* Branch and bound can end with a suboptimal answer, in four ways (C18): the root inside its own cut set is dropped because its state is "already seen";
  a state queued before with a worse bound is dropped (`cloneNode` returns nullptr); a solution through an arc from an exact node straight to the sink is
  not covered by the cut set; dominance between queue nodes of different depth.  It happens in the shipped examples: knapsack2 (29 instead of 31), tsp
  (30 instead of 27, width 1), misp to misp5 (e.g. 2 instead of 3 on a graph of five vertices, width 2) (C46, C47, C48).
* `Exact::compute` with a local bound prunes with bounds that are not yet computed (C03).
* Restricted with width 0 has no limit, because `_mxw - 1` wraps (C06); a restricted diagram is flagged inexact as soon as a layer reaches the width.
* Relaxed with dominance may exceed the width (C09); so do the relaxed diagrams of knapsack and tsp, whose merge functions are partial (width 1 leaves 4 nodes on a layer of a
  three-item knapsack; the true limit is max(width, 50) for knapsack and max(width, cities) for tsp); non-layered models break dual bounds and exactness (C10); a dominator that is the sink leads to a null
  dereference (C20); nodes without a path to the sink get a value near the sentinel, not the sentinel (C14).
* The time limit: the node in hand when it fires is lost and `LIM?` may say no (C22).  A preset of -2^31 with Maximize reports a fake solution on an
  infeasible problem (C23).

Containers
* GNSet: insert loops forever on zero-word sets and for values >= 2^21; contains of a negative value reads out of bounds (C24); a copy of a zero-word set
  iterates over garbage, members >= 32768 come out negative (C25); equal sets of different capacity hash differently (C27); removeAbove is wrong after a
  union and out of bounds on GNSet(0,63) (C28).  NatSet(lb,ub) rejects ub = 64n-1 (C29); `ofs - S` loses elements, writes past the end, shifts by 64 (C30).
* Range: contains includes the excluded end, is false on backward ranges; flip is off by two on backward ranges; GNSet(Range(0,-1)) is undefined (C31).
* CQueue(0) fails (C32); retract does not keep the order (C33); `Heap::find` sees dead elements (C35).
* Vec: `v[i] = x` truncates to i+1 elements; move construction aliases the source (C37).
* Pool: the debug assertion `_top != 0` fails for oversized blocks; sizes within 15 of 2^64 are rounded to 0 (C38).
* Hash tables: after 2^32 clears stale entries return (C40); requested sizes 0 and 1 read `_primes[-1]` (C41).
* UnionFind::merge returns r0 even when r0 was put below r1 (C42).
* ANList: removing an unlinked non-member empties the list; clear() leaves links behind (C43).
* transferArcs leaves stale `_fix/_tix`; a later disconnect removes another edge (C44).
* Matrix: the int index overflows above 2^31 cells; FArray: assigning to a moved-from array of the same size writes through null, self-move frees the cells (C45).
* NDArray: sort after pop compares null, push_front without room appends at the back, eraseSuffix counts holes, pop_front on empty loses the next push (C49).
* revBitsOfWord leaves the top byte undefined: its loop stops at i < 7 (C51).

Examples
* knapsack2: local bound in doubles is not valid, getUB overruns exactly when all items fit, sDom ignores depths (C46).
* misp.cpp: solutions are only the independent sets that cannot be extended to the right, wrong optimum for negative weights; local bounds of misp3 to misp5
  invalid for negative weights; the checkers of misp, misp2, misp3 read labels as vertex flags and reject genuine solutions; misp5's checker sums past the end
  of short solutions (C47).
* tsp.cpp with one city reads d[1][1] outside the 1x1 matrix (C48).
* gruler: rulers of length L+1 are accepted although the limit is L; the equality of states ignores the distances, so different merged states compare equal, and
  with different hash values; with six marks, L = 16 and width 25 the relaxed diagram of the node with marks 0 and 2 reports that there is no ruler although 2 7 13 16 17
  is one, so its bound is not a lower bound and the node would be discarded (C87); a gap of 64 between marks or the mark 256 is undefined behaviour in the 4-word sets (C56).
* gruler_mid: when a shorter ruler is found, a node can lose all its improving rulers, because the limit for the first half of the marks shrinks with the bound (six marks,
  L = 25, node 0 12 after a ruler of length 24); their mirror images lie below other nodes (C88).
* coloring, coloring2, coloring3, coloringtoy: the search ends with three colours on bipartite graphs of five vertices (width 1) and six vertices (width 2); an edge from a
  vertex to itself is ignored by the models and the reported colouring is rejected by the program's own checker (C60).
* tsp_test2, tsp_test3, tsp_test4, tsptw: the bound of the initial state is undefined on every instance (tsp_test2 extracts from an empty heap, the others read
  an uninitialised cell of the array of edges); a large value makes the search end without a tour (C62).  The search can end with a longer tour than the shortest:
  all four, with width 1, on one instance with five cities (C61; reported 56, shortest 43).  tsptw reads time windows and does not use them; the
  component lb of the states of tsp_test2 and tsp_test3 is computed and not used.
* foo.cpp reports 10 on its own instance with its own width 1, the maximum is 11: the root is in its own cut set and refused as seen.  Its merge (intersection of
  the remaining vertices) loses completions (C64).
* tsptoy2.cpp: its merge loses completions (a merged state has to visit cities that both tours visited); the test for the target accepts the initial state.  On
  its instance, in the runs tried, no merge is carried out and the result is right (C63).
* misp4_lag: an edge to a vertex beyond the announced number makes maximalCliquePartition read visited out of bounds (C65); with clique and Lagrangian
  bounds the search still misses maxima: 1 instead of 2 on four vertices, width 1; 4 instead of 5 on seven vertices, width 3 (C68).  By reading: when the
  gradient vanishes in a later round (line 354) the value of that round is not used; the move constructor of `Instance` drops `adj`.
* Readers (C72 to C75): a file that cannot be opened is undefined behaviour everywhere (uninitialised variables) and an endless loop in readLabel of tsp_test4;
  a DIMACS file without problem line, or with a vertex 0 or beyond nv+1, is undefined behaviour (the vertex nv+1 is accepted).  The colouring programs call
  readPyFile, but all files in data/coloring/DIMACS are DIMACS files: undefined behaviour; the same for `E = {}`.  knapsack2 writes behind its array for every
  file with anything after the last number, which includes the shipped files.  The TSP readers loop forever on files without EDGE_WEIGHT_SECTION (shipped:
  berlin52, ali535, ulysses16); tsp_test4 leaves the matrix uninitialised for formats other than FULL_MATRIX and LOWER_DIAG_ROW (shipped: bayg29).
* Whole programs (C76 to C79): knapsack2 is undefined for every file whose items all fit together (and, C74, for every file with anything after the last
  number).  Files on which a program reports a wrong optimum and says that it is done: misp4 with width 1 (1 instead of 3), knapsack2 with width 2 (29 instead
  of 31), coloring with width 1 (3 colours instead of 2), tsp_test2 with width 1 (56 instead of 43).  A colouring file with a K below the chromatic number
  ends without any solution.
* tsptw (C80) reads the time windows and does not use them; a file without windows is undefined behaviour, and so are (by reading) comments
  inside the matrix.
* stlAllocAdapter (C82): requests beyond max_size wrap and are granted too little; no alignment; a copied allocator gives out the same bytes again.
* Values beyond 2^53 (C81): partial sums that large round, and the search reports a wrong optimum, or a value that no solution has, even if every
  solution has a small value.  No shipped instance comes near.
* By reading only: coloring2 and coloring3 guard the label function with `vtx >= K+1` instead of `vtx >= K` (adj[K] would be read for the target; it is never
  asked); `CQueue::retract(val)` on an empty queue scans stale slots;
  `Pool::usage()` is an estimate; the move constructor of `Instance` in misp.cpp drops `adj`.
* **Progress lines** (C86): with a negative primal the gap column shows a negative percentage, however large the gap (`search.cpp:78` takes the absolute
  value of the difference only); the optimum found in the last node, or by an exact relaxed diagram (`search.cpp:109` leaves `primalBetter` down), is never
  shown in a progress line; the dual column can get worse from line to line, since the bound of a cut-set node is not combined with that of the node
  it was expanded from.
* **Handles** (C90): after `free()` on one handle its copies, and the handle it was moved from, still test true, and once the address is used again they equal
  handles of the new object; moving does not clear the source, so freeing both is a double delete; `operator bool` is not explicit and there is no `operator<`, so
  `h < g` compiles and compares null-ness only (an ordered container of handles would keep one element).  Nothing in the repository frees or orders handles.
* **Clock** (C91): `elapsedSinceMicro` returns about 2^64 when the clock was set back (high_resolution_clock is the system clock in libstdc++); by reading:
  `cputime()` reads the wall clock, so limits count time spent waiting.

## 6. Seeded bugs

`seeded/LOG.jsonl` has one line per wrong program tried in a scratch copy of the model: the edit, the claim it breaks, the theorems that failed, and what was
tightened when nothing failed.
