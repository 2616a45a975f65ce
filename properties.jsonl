{"id": "C01", "title": "Exact diagram value is the optimum", "statement": "After compiling a model without a local bound with the Exact strategy, currentOpt() equals the best cost over all label sequences that lead from the initial state to the target state (for Minimize the least, for Maximize the greatest); if no such sequence exists it is the 'no solution' sentinel.", "quantifier": "for every acyclic model (any state type, labels, transition and cost functions) whose compilation terminates, every cost assignment whose path costs beat the sentinel, both objective senses", "why_tests_cant": "The set of models, paths and costs is unbounded; a unit test compares one instance against one known number.", "anchors": ["src/dd.cpp:Exact::compute", "src/dd.cpp:AbstractDD::computeBest", "src/dd.hpp:DD::makeNode", "src/dd.hpp:DD::transition", "src/dd.hpp:AbstractDD::currentOpt"]}
{"id": "C02", "title": "Exact diagram incumbent is an optimal solution", "statement": "After an Exact compilation in which a solution exists, incumbent() is a label sequence that replays from the initial state to the target state under the user's label, transition and cost closures with total cost exactly currentOpt().", "quantifier": "for every acyclic model without local bound and every terminating compilation, both objective senses", "why_tests_cant": "Replaying a single returned sequence says nothing about ties, shared states and stale labels in other graphs.", "anchors": ["src/dd.cpp:AbstractDD::computeBest", "src/dd.cpp:AbstractDD::incumbent"]}
{"id": "C03", "title": "A valid local bound does not change the value of an Exact diagram", "statement": "Supplying a local bound that never under-promises (it is at least as good as every completion) does not make the Exact strategy lose an optimal solution that beats the current primal bound.", "quantifier": "for every acyclic model, every valid local bound, every primal bound", "why_tests_cant": "The examples never combine Exact with a local bound, and the failure depends on costs and on depth at least two.", "anchors": ["src/dd.cpp:Exact::compute", "src/dd.hpp:DD::transition"]}
{"id": "C04", "title": "A restricted diagram only reports genuine solutions", "statement": "Whenever the value of the sink of a restricted diagram is better than the sentinel, its label sequence replays from the start of the (sub)problem to the target and costs exactly that value; hence a restricted diagram never reports a value better than the optimum.", "quantifier": "for every model (layered or not, with or without dominance, local bound or merge function), every width, every primal bound, every start node", "why_tests_cant": "Unsoundness would come from interaction of node reuse, dominance redirection and width truncation, over unboundedly many graphs.", "anchors": ["src/dd.cpp:Restricted::compute", "src/dd.cpp:WidthBounded::tighten", "src/dd.cpp:Restricted::checkDominance", "src/dd.hpp:DD::makeNode"]}
{"id": "C05", "title": "A restricted diagram that claims to be exact found the optimum", "statement": "If isExact() is true after a restricted compilation, then no solution of the (sub)problem that beats the primal bound given at the start is better than the reported value.", "quantifier": "for every layered model, every width >= 1, every valid local bound and valid dominance relation, every primal bound", "why_tests_cant": "The exactness flag is a universally quantified claim about all solutions that were not kept.", "anchors": ["src/dd.cpp:Restricted::compute", "src/dd.cpp:WidthBounded::estimate", "src/dd.cpp:WidthBounded::pullLayer"]}
{"id": "C06", "title": "A restricted diagram respects the width limit", "statement": "No layer expanded by a restricted compilation holds more nodes than the requested width.", "quantifier": "for every layered model and every width", "why_tests_cant": "Depends on all layer sizes and on the moment the cut-off fires; width 0 and 1 are boundary cases of unsigned arithmetic.", "anchors": ["src/dd.cpp:Restricted::compute", "src/dd.cpp:WidthBounded::estimate", "src/dd.hpp:WidthBounded"]}
{"id": "C07", "title": "A relaxed diagram yields a valid dual bound", "statement": "After a relaxed compilation, for every solution of the (sub)problem that beats the primal bound given at the start, the value of the sink is at least as good as the cost of that solution.", "quantifier": "for every layered model, every merge function that only adds completions, every valid local bound, every valid dominance relation that never compares with the sink, every width, every order in which a layer may be sorted", "why_tests_cant": "A dual bound is a statement about all solutions; tests only observe the final optimum of a few instances.", "anchors": ["src/dd.cpp:Relaxed::compute", "src/dd.cpp:Relaxed::mergeLayer", "src/dd.cpp:Relaxed::mergeOne", "src/dd.cpp:Relaxed::mergePair", "src/dd.cpp:LQueue", "src/dd.hpp:DD::merge"]}
{"id": "C08", "title": "A relaxed diagram that claims to be exact found an optimal solution", "statement": "If isExact() is true after a relaxed compilation and the sink value is better than the sentinel, then the sink's label sequence is a genuine solution with exactly that cost, and no solution that beats the primal bound is better.", "quantifier": "for every layered model, every width, merge function, valid local bound and valid dominance relation", "why_tests_cant": "Same flag-means-optimal claim over all instances.", "anchors": ["src/dd.cpp:Relaxed::compute", "src/dd.hpp:DD::update", "src/dd.hpp:AbstractDD::isExact"]}
{"id": "C09", "title": "A relaxed diagram respects the width limit when everything can be merged", "statement": "If the merge function accepts every pair of states, every layer expanded by a relaxed compilation has at most max(1,width) nodes; the merge loop always stops.", "quantifier": "for every layered model with total merge function, every width, every layer content", "why_tests_cant": "Termination and width of an iterative in-place merge loop range over all layers and merge results (including a merge result that already is in the layer).", "anchors": ["src/dd.cpp:Relaxed::mergeLayer", "src/dd.cpp:Relaxed::mergeOne", "src/dd.cpp:Relaxed::mergePair", "src/dd.cpp:LQueue::pullLayer"]}
{"id": "C10", "title": "Dual bounds and exactness do not need states to be layered", "statement": "Relaxed and restricted diagrams give valid bounds (and valid exactness claims) also when the same state can be reached by label sequences of different lengths.", "quantifier": "for every acyclic model, width and primal bound", "why_tests_cant": "Only particular graph shapes (a long cheap path and a short expensive path to one state that is expanded before the cheap path arrives) expose it.", "anchors": ["src/dd.cpp:Restricted::compute", "src/dd.cpp:Relaxed::compute"]}
{"id": "C11", "title": "A node flagged exact is a genuine state with a genuine bound", "statement": "In a relaxed diagram, for every node with isExact(): its label sequence replays from the start of the subproblem to the node's state, and its bound is the cost of that sequence.", "quantifier": "for every layered model, merge function, dominance relation, local bound, width, and every node of the diagram", "why_tests_cant": "Branch-and-bound re-starts from these nodes; an error shows only as a wrong global optimum on some instance.", "anchors": ["src/dd.hpp:DD::makeNode", "src/dd.hpp:DD::merge", "src/dd.cpp:Relaxed::mergePair", "src/node.hpp:ANode::copyBoundAndLabels"]}
{"id": "C12", "title": "The cut set covers all solutions not settled by exact nodes", "statement": "Every node returned by computeCutSet() is exact; and every solution of the subproblem that beats the primal bound either has an at least as good counterpart passing through a returned node (that node's bound plus a completion of its state), or an at least as good path to the sink along exact nodes only.", "quantifier": "for every layered model, merge function, valid local bound and dominance, width", "why_tests_cant": "Coverage is a for-all-solutions property of a graph search over arbitrary diagrams.", "anchors": ["src/dd.cpp:Relaxed::computeCutSet"]}
{"id": "C13", "title": "Bound plus backward bound of a cut-set node never under-promises", "statement": "For every node of a relaxed diagram and every completion of its state whose total beats the primal bound, the node's backward bound is at least as good as the cost of the completion; so discarding a cut-set node whose bound plus backward bound does not beat the primal loses nothing.", "quantifier": "for every layered model, merge function, valid local bound and dominance, width", "why_tests_cant": "Quantifies over all completions of all nodes of all diagrams.", "anchors": ["src/dd.cpp:AbstractDD::computeBestBackward", "src/search.cpp:BAndB::search"]}
{"id": "C14", "title": "Backward pass computes best suffix values of the diagram", "statement": "After computeBestBackward the backward bound of every node is the best total edge cost over all paths of the diagram from that node to the sink (sentinel if none).", "quantifier": "for every finite acyclic diagram", "why_tests_cant": "All graphs, all orders of extraction from the degree heap.", "anchors": ["src/dd.cpp:AbstractDD::computeBestBackward"]}
{"id": "C15", "title": "Forward pass computes best prefix values of the diagram", "statement": "After computeBest the bound of every node is the best value of root bound plus total edge cost over all paths of the diagram from the root to that node, and its label list spells such a path.", "quantifier": "for every finite acyclic diagram", "why_tests_cant": "All graphs, all extraction orders.", "anchors": ["src/dd.cpp:AbstractDD::computeBest"]}
{"id": "C16", "title": "Branch and bound only ever holds genuine incumbents", "statement": "At every moment of BAndB::search, and whatever the time limit does, if the primal bound differs from the one at the start then the stored incumbent replays from the initial state to the target with cost exactly the primal bound; and every label sequence handed to a solution callback is a genuine solution.", "quantifier": "for every layered model, width, merge, valid local bound, dominance, initial primal, time-limit oracle and number of iterations", "why_tests_cant": "All histories of the search; tests only print the last incumbent.", "anchors": ["src/search.cpp:BAndB::search", "src/dd.cpp:AbstractDD::apply", "src/dd.hpp:DD::update", "src/dd.hpp:Bounds"]}
{"id": "C17", "title": "The primal bound only improves", "statement": "During BAndB::search the primal bound never gets worse, each solution callback is invoked exactly when it strictly improves, and the sequence of reported costs is strictly improving.", "quantifier": "for every model, width, time-limit oracle, number of iterations", "why_tests_cant": "A history property over all runs.", "anchors": ["src/dd.cpp:AbstractDD::apply", "src/dd.hpp:DD::update", "src/search.cpp:BAndB::search"]}
{"id": "C18", "title": "Branch and bound returns an optimal solution", "statement": "When BAndB::search ends because its queue is empty, the primal bound is the optimum of the problem (or the initial primal if nothing beats it).", "quantifier": "for every layered model with valid merge/local/dominance closures and every width", "why_tests_cant": "Optimality is the central promise; the failing cases need a particular interplay of width, cut set and state de-duplication.", "anchors": ["src/search.cpp:BAndB::search", "src/dd.hpp:DDNodeAllocator::cloneNode", "src/dd.cpp:Relaxed::computeCutSet"]}
{"id": "C19", "title": "Branch and bound is optimal when the width suffices", "statement": "If the width is at least the number of nodes of the widest layer (so that the first relaxed diagram merges nothing), BAndB::search ends after processing the root with the optimum as primal and an optimal solution as incumbent.", "quantifier": "for every layered model with valid closures", "why_tests_cant": "All instances.", "anchors": ["src/search.cpp:BAndB::search"]}
{"id": "C20", "title": "Dominance pruning keeps the optimum", "statement": "Discarding a new node because a queued node with an at least as good bound dominates its state never removes the last optimal solution from a restricted or relaxed diagram.", "quantifier": "for every layered model, every dominance relation that is valid (a dominating state has an at least as good completion for each completion of the dominated one), including relations that relate ordinary states with the target state", "why_tests_cant": "Needs all pairs of states and all arrival orders.", "anchors": ["src/dd.cpp:Restricted::checkDominance", "src/dd.cpp:LQueue::checkDominance", "src/node.hpp:ANList::pop_back"]}
{"id": "C21", "title": "Local-bound pruning never discards an improving solution", "statement": "A transition suppressed because bound + cost + local bound does not beat the primal leads to no solution that beats the primal.", "quantifier": "for every model with valid local bound, node, label, and primal", "why_tests_cant": "All states and completions.", "anchors": ["src/dd.hpp:DD::transition"]}
{"id": "C22", "title": "Hitting the time limit is reported", "statement": "If BAndB::search stops because of the time limit while a node that could improve the primal has not been processed, the final report says so (the LIM? flag is true).", "quantifier": "for every run and every moment at which the limit fires", "why_tests_cant": "Depends on the exact iteration at which the limit fires.", "anchors": ["src/search.cpp:BAndB::search"]}
{"id": "C23", "title": "A preset primal bound is honoured", "statement": "If the user sets a primal bound before the search, attach() keeps it, and only solutions strictly better than it are ever reported; if none exists the primal and the (empty) incumbent stay unchanged.", "quantifier": "for every model and every preset value", "why_tests_cant": "All values and models.", "anchors": ["src/dd.cpp:Bounds::attach", "src/dd.hpp:Bounds", "src/dd.cpp:AbstractDD::apply"]}
{"id": "C24", "title": "GNSet operations compute set algebra", "statement": "contains() after insert, remove, unionWith/|, interWith/&, diffWith/-, complement, copy and removeBelow equals the mathematical membership predicate; insert grows the set on demand.", "quantifier": "for all sets, all capacities and all element values in the supported range, any operation sequence", "why_tests_cant": "Words, capacities and element values are unbounded; word-boundary bugs occur at multiples of 64 only.", "anchors": ["src/util.hpp:GNSet"]}
{"id": "C25", "title": "GNSet iteration and size agree with membership", "statement": "Iterating a GNSet yields its members in increasing order, each exactly once, size() is their number, and empty() holds iff there are none.", "quantifier": "for all sets with any number of words, including copies of sets with no words", "why_tests_cant": "Every bit pattern.", "anchors": ["src/util.hpp:GNSet::iterator", "src/util.hpp:GNSet::size", "src/util.hpp:GNSet::empty"]}
{"id": "C26", "title": "GNSet equality is set equality", "statement": "operator== returns true iff both sets have the same members, whatever their capacities.", "quantifier": "for all pairs of sets", "why_tests_cant": "Different capacities with trailing zero words.", "anchors": ["src/util.hpp:operator==(GNSet,GNSet)"]}
{"id": "C27", "title": "Equal GNSets have equal hashes", "statement": "If operator== holds between two GNSets then their hash values are equal (required by the state table of the diagrams).", "quantifier": "for all pairs of sets and all histories that produced them", "why_tests_cant": "Needs two equal sets with different internal capacity.", "anchors": ["src/util.hpp:GNSet::hash", "src/lighthash.hpp:LHashtable"]}
{"id": "C28", "title": "GNSet removeAbove and removeBelow cut at the right element", "statement": "removeAbove(p) keeps exactly the members <= p; removeBelow(p) keeps exactly the members >= p.", "quantifier": "for all sets and all p in range, after any operation history", "why_tests_cant": "Depends on the history of the highest-element field and on p at word boundaries.", "anchors": ["src/util.hpp:GNSet::removeAbove", "src/util.hpp:GNSet::removeBelow"]}
{"id": "C29", "title": "NatSet operations compute set algebra", "statement": "For NatSet<n>: contains after insert, union, intersection, difference; size, empty, largest, iteration order, equality and hash agree with the set of members.", "quantifier": "for all n, all sets within 0..64n-1", "why_tests_cant": "All bit patterns and widths.", "anchors": ["src/util.hpp:NatSet"]}
{"id": "C30", "title": "NatSet 'ofs - S' is the reflected set", "statement": "The expression ofs - S yields exactly { ofs - v | v in S } when all these values lie in 0..64n-1.", "quantifier": "for all n, all sets S, all ofs with max(S) <= ofs < 64n", "why_tests_cant": "The function works by multi-word bit reversal and shifts; errors occur for particular word distances only.", "anchors": ["src/util.hpp:NatSet::operator-(int,NatSet)", "src/util.hpp:revBitsOfLong"]}
{"id": "C31", "title": "Range iteration, size, flip, close and membership agree", "statement": "A Range enumerates the values between its bounds in order; size() is their number; flip() enumerates the reverse; close() includes both ends; contains(p) holds iff p is enumerated; GNSet(Range) has exactly the enumerated members.", "quantifier": "for all integer bounds, forward and backward", "why_tests_cant": "All bound pairs incl. backward and empty ranges.", "anchors": ["src/util.hpp:Range", "src/util.hpp:GNSet(Range)"]}
{"id": "C32", "title": "CQueue is a FIFO queue", "statement": "Any sequence of enQueue/deQueue/peek/size/empty/clear on a CQueue behaves as an unbounded first-in first-out queue.", "quantifier": "for every initial size and every operation sequence (through any number of wrap-arounds and resizes)", "why_tests_cant": "Wrap-around and resize interact over long histories.", "anchors": ["src/queue.hpp:CQueue"]}
{"id": "C33", "title": "CQueue retract removes exactly one element; folds visit the live elements", "statement": "retract(loc) returns the value at loc and removes exactly that element (the multiset of the others is unchanged); doOnAll visits every live element once in queue order; foldl visits in queue order until the accumulator becomes non-null.", "quantifier": "for every queue state and live location", "why_tests_cant": "All ring positions.", "anchors": ["src/queue.hpp:CQueue::retract", "src/queue.hpp:CQueue::foldl", "src/queue.hpp:CQueue::doOnAll"]}
{"id": "C34", "title": "Heap always extracts a best element", "statement": "After any sequence of insertHeap/extractMax/remove/decrease (or insert followed by buildHeap), extractMax returns an element that no other element of the heap beats, and the multiset of remaining elements is the old one minus it.", "quantifier": "for every strict weak order, every operation sequence, every size through any number of array growths", "why_tests_cant": "All shapes and orders.", "anchors": ["src/heap.hpp:Heap"]}
{"id": "C35", "title": "Heap locations stay valid", "statement": "A location returned by insertHeap keeps designating the same element until it is extracted or removed; remove(loc) removes exactly that element; decrease(loc) changes exactly that element and restores the order.", "quantifier": "for every operation sequence", "why_tests_cant": "Location back-pointers are updated on every swap; errors need long histories.", "anchors": ["src/heap.hpp:Heap::remove", "src/heap.hpp:Heap::decrease", "src/heap.hpp:Heap::sendToRoot", "src/heap.hpp:Heap::refloat"]}
{"id": "C36", "title": "mergeSort sorts", "statement": "mergeSort leaves a permutation of its input in which no later element is strictly before an earlier one.", "quantifier": "for every array length, content and every strict weak order (and every total preorder given as <=)", "why_tests_cant": "All inputs.", "anchors": ["src/msort.hpp:mergeSort", "src/msort.hpp:mergeSortAux"]}
{"id": "C37", "title": "Vec behaves like a sequence", "statement": "push_back appends and returns the index of the new element, earlier elements keep their value across growth; remove(i,f) removes element i by moving the last one into its place and tells f; copy and assignment copy the contents; assigning v[i]=x for i < size changes only element i.", "quantifier": "for every operation sequence and capacity", "why_tests_cant": "Growth and aliasing over long histories.", "anchors": ["src/vec.hpp:Vec"]}
{"id": "C38", "title": "Pool allocations are aligned, in bounds and pairwise disjoint", "statement": "Every block returned by allocate lies inside one segment, starts at a multiple of 16 and overlaps no other live block.", "quantifier": "for every sequence of positive sizes and every segment size", "why_tests_cant": "All size sequences.", "anchors": ["src/store.hpp:Pool", "src/store.cpp:Pool::allocate"]}
{"id": "C39", "title": "Pool mark/clear frees exactly what was allocated after the mark", "statement": "After clear(m), blocks allocated before mark m stay intact and disjoint from all later allocations, and the later space is reused.", "quantifier": "for every properly nested sequence of allocate/mark/clear", "why_tests_cant": "All histories.", "anchors": ["src/store.hpp:Pool::mark", "src/store.cpp:Pool::clear"]}
{"id": "C40", "title": "LHashtable is a dictionary of the states inserted since the last clear", "statement": "getLoc(k) finds an entry iff an equal key was inserted since the last clear and then returns that node, provided equal keys hash equally.", "quantifier": "for every operation sequence including any number of clear() calls, every hash function, every table size", "why_tests_cant": "Stale entries are hidden by a 32-bit generation counter that wraps.", "anchors": ["src/lighthash.hpp:LHashtable"]}
{"id": "C41", "title": "Hash table construction picks a suitable prime size for any requested size", "statement": "Constructing a table for requested size sz yields the smallest listed prime >= sz (the largest listed prime if sz exceeds all) without out-of-bounds access.", "quantifier": "for every requested size", "why_tests_cant": "Boundary sizes 0 and 1.", "anchors": ["src/lighthash.hpp:LHashtable::LHashtable", "src/hashtable.hpp:Hashtable::Hashtable"]}
{"id": "C42", "title": "UnionFind maintains the partition generated by the merges", "statement": "setFor(a)==setFor(b) iff a and b are connected by merge calls; the size stored at a representative is the number of elements of its class; merge returns the representative of the merged class.", "quantifier": "for every sequence of makeSet/setFor/merge", "why_tests_cant": "All histories, path compression included.", "anchors": ["src/uf.hpp:UnionFind"]}
{"id": "C43", "title": "ANList behaves like a sequence without duplicates", "statement": "push_back, pop_back, remove (of a member), iteration and size of the intrusive doubly linked node list act as on a list.", "quantifier": "for every operation sequence", "why_tests_cant": "Pointer surgery over all positions.", "anchors": ["src/node.hpp:ANList"]}
{"id": "C44", "title": "Arc bookkeeping stays coherent", "statement": "After any sequence of addArc and transferArcs, each edge is listed exactly once among the children of its source and exactly once among the parents of its destination and nowhere else, and a node's nbParents()/nbChildren() are the numbers of its incoming/outgoing edges.", "quantifier": "for every graph (parallel edges included) and every sequence of the two operations without self loops", "why_tests_cant": "Index fields inside edges are updated by swaps; a stale index only shows up after further operations.", "anchors": ["src/node.cpp:ANode::addArc", "src/node.cpp:ANode::disconnect", "src/dd.cpp:Relaxed::transferArcs", "src/dd.cpp:AbstractDD::addArc"]}
{"id": "C45", "title": "Matrix indexing is injective and in bounds", "statement": "m[i][j] (and m[i][j][k]) addresses distinct cells for distinct in-range indices, all inside the allocation; a store through the proxy is what a later read returns; other cells are unchanged.", "quantifier": "for all dimensions and indices", "why_tests_cant": "All dimensions.", "anchors": ["src/util.hpp:Matrix", "src/util.hpp:FMatrix", "src/util.hpp:FArray"]}
{"id": "C46", "title": "The knapsack example solves 0/1 knapsack", "statement": "With the closures of the knapsack example, solutions of the model are exactly the 0/1 selections within capacity with profit as cost; its merge, local bound and dominance closures are valid; hence an exact diagram computes the best profit.", "quantifier": "for every instance (numbers of items, weights, profits, capacity)", "why_tests_cant": "All instances.", "anchors": ["examples/knapsack.cpp", "examples/knapsack2.cpp"]}
{"id": "C47", "title": "The MISP example solves maximum independent set", "statement": "With the closures of the MISP examples, solutions of the model are exactly the independent sets of the graph, cost being total weight; merge and local bound are valid.", "quantifier": "for every graph and weights", "why_tests_cant": "All graphs.", "anchors": ["examples/misp.cpp", "examples/misp2.cpp", "doc/CODD.org"]}
{"id": "C48", "title": "The TSP example solves the travelling salesman problem", "statement": "With the closures of the TSP example, solutions of the model are exactly the closed tours from the depot visiting each city once; merge is a valid relaxation.", "quantifier": "for every distance matrix and number of cities", "why_tests_cant": "All instances.", "anchors": ["examples/tsp.cpp"]}
{"id": "C49", "title": "Sorting container NDArray behaves like a sequence", "statement": "push_back, push_front, pop_front, erase, iteration and sort of the layer array act as on a sequence.", "quantifier": "for every operation sequence", "why_tests_cant": "Growth and front-gap interplay.", "anchors": ["src/dd.hpp:NDArray"]}
{"id": "C50", "title": "Re-using a diagram gives the same result as a fresh one", "statement": "apply(from,bounds) on a diagram that was used before (any number of compilations from other nodes) gives the same diagram, bounds and incumbent as on a newly duplicated one.", "quantifier": "for every history of earlier compilations", "why_tests_cant": "All histories; leftovers in the state table or node list would show only after particular sequences.", "anchors": ["src/dd.hpp:DD::reset", "src/dd.hpp:DD::makeInitFrom", "src/dd.cpp:AbstractDD::apply"]}
{"id": "C51", "title": "Bit reversal helpers reverse bits", "statement": "revBitsOfByte, revBitsOfWord and revBitsOfLong map bit i to bit (width-1-i).", "quantifier": "for all byte/word/long values", "why_tests_cant": "2^64 inputs.", "anchors": ["src/util.hpp:revBitsOfByte", "src/util.hpp:revBitsOfWord", "src/util.hpp:revBitsOfLong"]}
{"id": "C52", "title": "Set aggregation helpers min, max, sum and filter are correct", "statement": "min/max over a set with an optional filter return the extreme value of the mapped elements (the documented default if none qualifies), sum adds the mapped values of all members, filter keeps exactly the members satisfying the predicate.", "quantifier": "for all sets and functions", "why_tests_cant": "All sets.", "anchors": ["src/util.hpp:min", "src/util.hpp:max", "src/util.hpp:sum", "src/util.hpp:filter"]}
{"id": "C53", "title": "A state enters the branch-and-bound queue at most once", "statement": "During one search no two nodes with equal states are ever inserted into the queue, so the number of processed nodes is at most the number of states.", "quantifier": "for every run", "why_tests_cant": "All runs.", "anchors": ["src/dd.hpp:DDNodeAllocator::cloneNode", "src/search.cpp:BAndB::search"]}
{"id": "C54", "title": "Layered compilations terminate", "statement": "Restricted and relaxed compilations of a layered model with bounded depth always terminate, after at most depth+1 layer rounds, without touching invalid memory or a null node.", "quantifier": "for every layered bounded-depth model, width, merge function and dominance relation not involving the sink", "why_tests_cant": "Termination and absence of undefined behaviour for all inputs.", "anchors": ["src/dd.cpp:Restricted::compute", "src/dd.cpp:Relaxed::compute", "src/dd.cpp:AbstractDD::computeBestBackward"]}
{"id": "C55", "title": "UnionFind look-ups recurse at most log2(n) deep", "statement": "The recursion of setFor is never deeper than log2 of the number of nodes made (plus the call itself), so it cannot exhaust the stack.", "quantifier": "for every sequence of makeSet/setFor/merge with fewer than 2^31 nodes", "why_tests_cant": "The bound rests on union by size holding after every interleaving of merges and path compressions; a test sees only a few shapes of trees.", "anchors": ["src/uf.hpp:UnionFind::setFor", "src/uf.hpp:UnionFind::merge"]}
{"id": "C56", "title": "gruler.cpp: diagrams compute Golomb rulers", "statement": "The label sequences gruler.cpp accepts are exactly the Golomb rulers with n marks that beat the primal bound and respect the length limit, valued by their length; exact diagrams find a shortest ruler; restricted diagrams report rulers; merged states keep the completions of the states they replace; the 4-word sets of marks and distances behave like sets for every label the program tries.", "quantifier": "for every number of marks n >= 2, every length limit, every primal bound, every valid table of lower bounds, every width", "why_tests_cant": "The bounds on the labels prune with the table OPT, a triangular-number bound and the primal; that nothing optimal is pruned is a statement about all rulers. The set overflows appear only for marks beyond a word boundary.", "anchors": ["examples/gruler.cpp:main", "examples/gruler.cpp:SGRuler", "src/util.hpp:NatSet"]}
{"id": "C57", "title": "gruler_mid.cpp, gruler_midlb.cpp: symmetry breaking and the smallest unused distance lose no optimum", "statement": "Restricting the first half of the marks to the first half of the length keeps, of every Golomb ruler within the limits, the ruler itself or its mirror image; starting the labels at the smallest unused distance loses no ruler; exact diagrams of both programs find a shortest ruler.", "quantifier": "for every number of marks n >= 2, every length limit, every primal bound, every valid table of lower bounds", "why_tests_cant": "A lost ruler shows only if every optimal ruler of an instance is lost; the argument is a symmetry argument over all rulers.", "anchors": ["examples/gruler_mid.cpp:main", "examples/gruler_midlb.cpp:main"]}
{"id": "C58", "title": "Branch and bound with labels that read the primal bound", "statement": "When the label function consults the current primal bound, the search reports only solutions of the problem, ends, is optimal when the diagram fits the width and, under the conditions of C18, in general; provided that for each bound the search can be at, the closures are valid and every completion better than the bound is matched by one with the remaining labels.", "quantifier": "for every problem, every family of label functions with these properties, every width, preset bound, tie-breaking permutation and limit", "why_tests_cant": "The labels change while the search runs: nodes queued under one bound are expanded under another, so a completion that was counted on may no longer be generated.", "anchors": ["src/search.cpp:search", "src/dd.cpp:apply", "examples/coloring.cpp:main", "examples/gruler.cpp:main"]}
{"id": "C59", "title": "coloring.cpp, coloring2.cpp, coloring3.cpp, coloringtoy.cpp: the models are graph colouring", "statement": "The solutions are exactly the proper colourings in which a new colour is one more than the largest before, valued by the number of colours; every colouring has such a solution with as many colours; exact diagrams give the least number of colours, relaxed diagrams a lower bound; the checkers accept every solution.", "quantifier": "for every simple graph with at least one vertex, every number of colours offered, every primal bound >= 1, every width", "why_tests_cant": "The three programs encode the state differently (remaining colours per vertex, colours so far, colours so far with only lower neighbours) and merge it differently (union, agreement); that none of them loses or adds a colouring is a statement about all graphs.", "anchors": ["examples/coloring.cpp:main", "examples/coloring2.cpp:main", "examples/coloring3.cpp:main", "examples/coloringtoy.cpp:main"]}
{"id": "C60", "title": "coloring.cpp, coloring2.cpp, coloring3.cpp, coloringtoy.cpp: the search", "statement": "The search ends, reports only proper colourings with the number of colours they use, which the checker accepts, and ends with the least number of colours.", "quantifier": "for every simple graph with at least one vertex, every number of colours offered, every width, tie-breaking permutation and limit", "why_tests_cant": "A lost optimum depends on the interplay of width, cut set and the set of states already seen; the smallest counterexamples need specific graphs and widths.", "anchors": ["examples/coloring.cpp:main", "examples/coloring2.cpp:main", "examples/coloring3.cpp:main", "src/search.cpp:search", "examples/coloringtoy.cpp:main"]}
{"id": "C61", "title": "tsp_test2.cpp, tsp_test3.cpp, tsp_test4.cpp, tsptw.cpp: the models are the travelling salesman problem and the search solves it", "statement": "The solutions are exactly the closed tours from city 0 through all cities, valued by their length; merged states keep every completion; the search ends, reports only tours with their length, and ends with a shortest tour; the component lb of the states has no effect.", "quantifier": "for every number of cities >= 1, every distance matrix whose walks fit an int, every width, tie-breaking permutation and limit", "why_tests_cant": "The programs differ in how the state is merged (intersection of visited cities, plus union, with or without a closeness test); that no tour is lost or added holds for all matrices or not at all, and a lost optimum needs specific matrices and widths.", "anchors": ["examples/tsp_test2.cpp:main", "examples/tsp_test3.cpp:main", "examples/tsp_test4.cpp:main", "examples/tsptw.cpp:main", "src/search.cpp:search"]}
{"id": "C62", "title": "tsp_test2.cpp, tsp_test3.cpp, tsp_test4.cpp, tsptw.cpp: the local bounds", "statement": "The spanning tree bound and the greedy bound of a state are defined and not more than the length of any completion of any partial tour the state stands for.", "quantifier": "for every number of cities >= 1, every distance matrix, every partial tour and every set between the certain cities and the visited ones", "why_tests_cant": "An inadmissible bound only shows as a slightly worse final answer on some instances; undefined behaviour (empty heap, uninitialised array cells) may be silent.", "anchors": ["examples/tsp_test2.cpp:main", "examples/tsp_test3.cpp:main", "examples/tsp_test4.cpp:main", "examples/tsptw.cpp:main", "src/util.hpp:min", "src/util.hpp:sum", "src/search.cpp:search"]}
{"id": "C63", "title": "tsptoy.cpp, tsptoy2.cpp: the models are the travelling salesman problem and the programs solve their instance", "statement": "The solutions are exactly the closed tours from city 1 through all cities, valued by their length; merged states keep every completion; the search ends, reports only tours with their length, and ends with a shortest tour of the built-in instance at every width.", "quantifier": "for every number of cities >= 1, every distance matrix whose walks fit an int, every width, tie-breaking permutation and limit; the built-in instance for every width", "why_tests_cant": "A run with the default width says nothing about the other widths or matrices; a merge that loses completions may never be carried out on the built-in instance.", "anchors": ["examples/tsptoy.cpp:main", "examples/tsptoy2.cpp:main", "src/search.cpp:search"]}
{"id": "C64", "title": "foo.cpp: the model is the maximum independent set problem and the program solves its instance", "statement": "The solutions are exactly the independent sets of the graph, valued by their weight; an exact diagram finds the heaviest one; merged states keep every completion; the program reports the maximum of its instance.", "quantifier": "for every graph on 1..n, n >= 1, and all weights whose sums fit an int; the built-in instance with the width of the program", "why_tests_cant": "The program prints a plausible independent set; that it is not the heaviest one needs an independent computation of the optimum.", "anchors": ["examples/foo.cpp:main", "src/search.cpp:search"]}
{"id": "C65", "title": "misp4_lag.cpp: maximalCliquePartition partitions the vertices into cliques", "statement": "For a graph on the vertices 0..nv-1 the function reads no array out of bounds and does not reach its error exit; every vertex is in exactly one clique, the members of a clique are pairwise adjacent, no vertex of a later clique could be added to an earlier one, and CliqueOfVertex[v] is the number of the clique of v.", "quantifier": "for every number of vertices and every list of edges between them", "why_tests_cant": "The partition depends on degree counts and tie breaking among unvisited vertices; a wrong partition still gives plausible, too small bounds on a few graphs only.", "anchors": ["examples/misp4_lag.cpp:maximalCliquePartition", "examples/misp4_lag.cpp:findMaximalClique"]}
{"id": "C66", "title": "misp4_lag.cpp: the clique bound, the Lagrangian bound and the dual bound are upper bounds", "statement": "CliqueBound(S), LagBound(S) for any nonnegative multipliers on edges, and the result of lagrangianDual are at least the weight of every independent set inside S; lagrangianDual leaves nonnegative multipliers on edges behind, so the bounds of later states are valid too.", "quantifier": "for every graph, weights, set S, start multipliers >= 0, step size and number of rounds >= 1", "why_tests_cant": "A bound that is too small by one on rare states silently cuts off the optimum; the multipliers depend on the whole history of the search.", "anchors": ["examples/misp4_lag.cpp:CliqueBound", "examples/misp4_lag.cpp:LagBound", "examples/misp4_lag.cpp:lagrangianDual", "examples/misp4_lag.cpp:updateMultipliers", "examples/misp4_lag.cpp:solveCliqueSubproblem"]}
{"id": "C67", "title": "Branch and bound with a local bound that keeps state between calls", "statement": "When the local bound reads and changes state of its own (as the multipliers of misp4_lag), and is valid in every state that can occur, the search ends, reports only solutions with their value, and is optimal under the conditions of the search with a fixed bound; when the bound leaves its state alone the two searches are the same.", "quantifier": "for every problem, every bound with an invariant under which it is valid, every width, tie-breaking permutation, limit and start value", "why_tests_cant": "The sequence of states of the bound is fixed by the search order; tests see a few sequences.", "anchors": ["src/search.cpp:search", "src/dd.cpp:Relaxed::compute", "examples/misp4_lag.cpp:main"]}
{"id": "C68", "title": "misp4_lag.cpp: the search with clique and Lagrangian bounds solves the maximum weight independent set problem", "statement": "With LBopt = 1 and 2 the closures are valid, the search ends and reports only independent sets with their weight, and the reported weight is the maximum.", "quantifier": "for every graph with at least one vertex, weights >= 0, width, tie-breaking permutation and limit", "why_tests_cant": "Which nodes are cut off depends on bounds, merging and queue order at once; the wrong answers occur on few graphs and widths.", "anchors": ["examples/misp4_lag.cpp:main", "src/search.cpp:search"]}
{"id": "C69", "title": "A node refused as already seen does no harm when the node kept for its state is as good", "statement": "Without dominance, branch and bound that empties its queue ends with the optimum when every improving cut set node is not the root of its own diagram and no node kept for its state is worse, and no exact node of a cut diagram has an improving edge straight to the target.  With a width of at least the largest number of labels of a state, no cut set contains the root of its diagram.", "quantifier": "for every problem with valid closures and no dominance, every width, tie-breaking permutation, limit and start value, also with labels that depend on the primal bound", "why_tests_cant": "Whether a refused node was needed depends on which of two nodes with one state came first and on what the queue still holds; tests see a refused node and an optimal answer, never the reason.", "anchors": ["src/dd.hpp:cloneNode", "src/search.cpp:search", "src/dd.cpp:DD::computeCutSet"]}
{"id": "C70", "title": "Refused nodes are harmless in the colouring programs when the width is at least the number of vertices", "statement": "When a state other than the target is reached with one value only, the nodes kept are never worse than those refused.  The colouring programs are of this kind and a state has at most as many labels as vertices; so with that width they end with the least number of colours.", "quantifier": "for every graph without loops, number of colours, width >= number of vertices, tie-breaking permutation and limit", "why_tests_cant": "The wrong answers of C60 occur at small widths on few graphs; no test tells from which width on they stop.", "anchors": ["examples/coloring.cpp:main", "examples/coloring2.cpp:main", "examples/coloring3.cpp:main", "examples/coloringtoy.cpp:main", "src/search.cpp:search"]}
{"id": "C71", "title": "Growth of the width of the relaxed diagrams", "statement": "At the end of the search the width of the relaxed diagrams is the given width plus the number of cut sets that contain the root of their diagram.", "quantifier": "for every problem with valid closures, every width, tie-breaking permutation, limit and start value", "why_tests_cant": "The widening is only printed; a search that does not widen, or widens twice, still ends with plausible answers.", "anchors": ["src/search.cpp:search"]}
{"id": "C72", "title": "The DIMACS reader gives the graph of the file", "statement": "For every well-formed DIMACS file with one problem line and vertices between 1 and nv, readFile ends with the announced numbers, the edges in file order counted from 0, and their adjacency sets.  A vertex below 1 or above nv+1, a file without the character p and a file that cannot be opened are undefined behaviour.  Whatever the file contains, the reader ends or is undefined.", "quantifier": "for every text, in particular every sequence of comment, problem and edge lines with any blanks between their words", "why_tests_cant": "Instance files come from a few sources with one layout; other blanks, comments, line ends and broken files are not tried.", "anchors": ["examples/misp.cpp:readFile", "examples/misp.cpp:Instance::convert", "examples/misp2.cpp:readFile", "examples/misp3.cpp:readFile", "examples/misp4.cpp:readFile", "examples/misp5.cpp:readFile", "examples/misp4_lag.cpp:readFile"]}
{"id": "C73", "title": "The reader of the colouring examples gives the graph of the file", "statement": "For every file of assignments N = n, K = k, E = {(a,b), ...} with one N and vertices below n, readPyFile ends with n vertices, the edges sorted without repetition, their number with repetition, the adjacency sets, and the last K as upper bound.  E = {} is undefined behaviour, and so are DIMACS files, which is what the repository ships for colouring.  Whatever the file contains, the reader ends or is undefined.", "quantifier": "for every text, in particular every sequence of assignments with any white space", "why_tests_cant": "The examples are started with a handful of files; an empty set of edges or a file in the other format is a configuration nobody tests.", "anchors": ["examples/coloring.cpp:readPyFile", "examples/coloring2.cpp:readPyFile", "examples/coloring3.cpp:readPyFile"]}
{"id": "C74", "title": "The knapsack readers give the items of the file", "statement": "For a file with the number of items, the capacity and the items, knapsack.cpp reads exactly these items.  knapsack2.cpp reads them and sorts them if nothing follows the last number; if anything follows, even a newline, it writes behind the array.", "quantifier": "for every list of items and capacity, any white space between the numbers and any text without digits after them; termination for every text", "why_tests_cant": "The write behind the array goes to heap memory and usually changes nothing visible.", "anchors": ["examples/knapsack.cpp:readFile", "examples/knapsack2.cpp:readFile"]}
{"id": "C75", "title": "The TSP readers give the matrix of the file", "statement": "For a TSPLIB file with a full matrix (with header, or the old format with three words) tsp.cpp reads its matrix; tsp_test4.cpp reads full matrices and mirrors lower triangles.  With another weight format tsp_test4.cpp leaves the matrix without values.  A file without EDGE_WEIGHT_SECTION makes both readers loop forever.", "quantifier": "for every dimension, matrix, header lines and white space; non-termination for every file without the section", "why_tests_cant": "A reader that does not end on a file with coordinates shows up only for such files; a test that hangs shows no proof that it would hang forever.", "anchors": ["examples/tsp.cpp:readFile", "examples/tsp_test2.cpp:readFile", "examples/tsp_test3.cpp:readFile", "examples/tsp_test4.cpp:readFile", "examples/tsp_test4.cpp:readLabel"]}
{"id": "C76", "title": "The independent set programs from the DIMACS file to the reported size", "statement": "For every well-formed DIMACS file with one problem line and vertices between 1 and nv, misp, misp2, misp3, misp4 and misp5 end, and every value they report is the size of an independent set of the file.  If the width is at least 2^nv*(nv+1)^2+1 they report the size of a largest one.  With a smaller width they need not: misp4 with width 1 reports 1 on a file with an independent set of size 3.", "quantifier": "for every such file, every width, every order of the nodes in a layer, every time limit", "why_tests_cant": "The programs are run on benchmark files whose optimum is known only for some, with one or two widths; correctness of reader, problem definition and search is tested, if at all, separately.", "anchors": ["examples/misp.cpp:main", "examples/misp2.cpp:main", "examples/misp3.cpp:main", "examples/misp4.cpp:main", "examples/misp5.cpp:main"]}
{"id": "C77", "title": "The knapsack programs from the file to the reported profit", "statement": "For every file with the number of items, the capacity and the items, and nothing with digits after them, knapsack.cpp ends and reports only profits of packings, with labels that say which items are taken; with a width of at least capacity+1 the best profit.  knapsack2.cpp is undefined for every file with anything after the last number and for every file whose items all fit together; on other files it can report less than the best profit.", "quantifier": "for every list of items with non-negative profits and weights, every capacity, every width, every white space in the file", "why_tests_cant": "The shipped files never have all items fitting together; the write behind the array is silent; a profit below the optimum looks like any other.", "anchors": ["examples/knapsack.cpp:main", "examples/knapsack2.cpp:main"]}
{"id": "C78", "title": "The TSP programs from the file to the reported length", "statement": "For every TSPLIB file with a full matrix of n*n entries (or, for tsp_test4, a lower triangle) from 0 to hi with n*hi below the largest int, tsp.cpp, tsp_test2.cpp, tsp_test3.cpp and tsp_test4.cpp end and report only lengths of round trips through all cities, with the cities in order; with a sufficient width the shortest.  With a smaller width they need not: tsp_test2 with width 1 reports 56 on a file with a trip of length 43.  For the three programs with depot 0, the uninitialised value in the bound of the first node is assumed not to exceed the length of any trip.", "quantifier": "for every such file, every width, every order of the nodes in a layer, every time limit", "why_tests_cant": "Shortest trips are known for few files, and runs that end with them need widths tests do not use.", "anchors": ["examples/tsp.cpp:main", "examples/tsp_test2.cpp:main", "examples/tsp_test3.cpp:main", "examples/tsp_test4.cpp:main"]}
{"id": "C79", "title": "The colouring programs from the file to the reported number of colours", "statement": "For every file of assignments N, K, E without loops and with vertices below N, coloring.cpp, coloring2.cpp and coloring3.cpp end; what they report is the number of colours of a proper colouring of the file with at most K colours (at most N without K), and the labels are its colours; with a sufficient width no such colouring has fewer.  With a smaller width they need not: coloring with width 1 reports 3 colours on a bipartite graph with 5 vertices.", "quantifier": "for every such file, every width, every order of the nodes in a layer, every time limit", "why_tests_cant": "The repository ships no file that the colouring programs can read; a suboptimal number of colours looks like any other.", "anchors": ["examples/coloring.cpp:main", "examples/coloring2.cpp:main", "examples/coloring3.cpp:main"]}
{"id": "C80", "title": "tsptw.cpp from the file to the reported length", "statement": "For every file with the number of cities, the matrix and the time windows, with comment lines between these parts, tsptw.cpp reads exactly these numbers (integers only); it ends, reports only lengths of round trips, and with a sufficient width the shortest.  The time windows make no difference to the result: on a file with three cities it reports a trip that misses a window although another trip meets all of them.  A file without windows is undefined behaviour.  Whatever the file contains, the reader ends or is undefined.", "quantifier": "for every such file, every width, every order of the nodes in a layer, every time limit", "why_tests_cant": "No instance file of this format is shipped; a result that ignores an input looks like a result.", "anchors": ["examples/tsptw.cpp:skip", "examples/tsptw.cpp:readFile", "examples/tsptw.cpp:main"]}
{"id": "C81", "title": "Double arithmetic of the engine", "statement": "Costs and bounds are doubles.  As long as the costs, the local bounds and the number of layers keep every value at or below 2^53, the whole branch and bound search with double addition (rounding to 53 bits, ties to even) ends in exactly the state that unbounded integers give, for every width, order, limit and initial value; in particular for costs that are ints, local bounds up to 2^51 and up to a million layers.  Beyond that the search reports a wrong optimum, and a value no solution has, although every solution has a small value.", "quantifier": "for all models that meet the size condition, all widths, all orders of the nodes in a layer, all limits, all initial values", "why_tests_cant": "The theorems about the search are about integers; whether rounding can ever enter is a statement about all sums of a search, not about one run.", "anchors": ["src/dd.cpp:DD::computeBest", "src/dd.cpp:DD::computeBestBackward", "src/dd.cpp:Restricted::compute", "src/dd.cpp:Relaxed::compute", "src/dd.cpp:Relaxed::mergeLayer", "src/dd.hpp:DD::transition", "src/search.cpp:BAndB::search"]}
{"id": "C82", "title": "The bump allocator behind the container adapter", "statement": "For every program that makes allocators, asks them (directly or through the adapter) for memory and gives memory back, and copies no allocator: the blocks handed out from one buffer lie one after the other inside the buffer, so they never overlap; a request is refused exactly if it does not fit behind everything handed out before; giving back frees nothing; up to max_size() elements the adapter asks for exactly the bytes they need.  Beyond max_size() the byte count wraps and too small a block is granted; blocks are not aligned; a copy of an allocator hands out the memory of the original a second time.", "quantifier": "for all sequences of operations on any number of allocators of any capacity, all sizes", "why_tests_cant": "Overlap needs particular sequences; the wrap needs requests near 2^64 bytes.", "anchors": ["src/stlAllocAdapter.hpp:CoreAlloc::allocate", "src/stlAllocAdapter.hpp:StackAdapter::allocate", "src/stlAllocAdapter.hpp:StackAdapter::max_size"]}
{"id": "C83", "title": "Whole programs with the double arithmetic of the engine", "statement": "For every well-formed instance file, misp, misp2 to misp5, knapsack (up to a million items), tsp, coloring, coloring2 and coloring3 compute exactly the same with every addition of a bound and a cost rounded to a double as with exact integers.  So what C76 to C79 say about their results (a largest set, a best packing, a shortest trip, fewest colours, with a width that no layer exceeds) holds for the programs with doubles.", "quantifier": "for all instance files of the four formats, all widths, node orders, stopping conditions and fuels", "why_tests_cant": "Rounding errors show only for particular sums; one would have to run every file and compare with exact arithmetic.", "anchors": ["src/node.hpp:DDNode/setBound", "src/dd.cpp:Restricted::compute", "src/dd.cpp:Relaxed::compute", "src/search.cpp:BAndB::search", "examples/misp.cpp:main", "examples/knapsack.cpp:main", "examples/tsp.cpp:main", "examples/coloring.cpp:main"]}
{"id": "C84", "title": "Size of the diagrams and of the search", "statement": "A restricted compilation of width w from depth r creates at most 2+(1+(N-r)w)L nodes and (1+(N-r)w)L edges (N: depth of the model, L: most labels of a state), dead ones included; a relaxed one with W = max(w, number of states of a layer that cannot be merged pairwise) at most 2+(1+2(N-r)W)L nodes and (1+(N-r)W)L edges.  Branch and bound keeps at most one node per node of the relaxed diagram and cut set computed.  For knapsack W is at most max(w,50), for tsp max(w, number of cities).", "quantifier": "for every valid layered model, every start state, width, node order, limit and number of iterations; for all knapsack and tsp instances", "why_tests_cant": "Sizes for all widths and instances, including nodes that die while layers are merged, cannot be enumerated; measurements only show averages.", "anchors": ["src/dd.cpp:Restricted::compute", "src/dd.cpp:Relaxed::compute", "src/dd.cpp:Relaxed::mergeLayer", "src/search.cpp:BAndB::search", "examples/knapsack.cpp:smf", "examples/tsp.cpp:smf"]}
{"id": "C85", "title": "The picture of a diagram", "statement": "saveGraph and print succeed on every compiled restricted, relaxed and exact diagram: the degree heap never misses a node, each node of the diagram is written once with its colour, the sink is the only box, each arc is written once with its cost and label, after its source node and before its target node (print: after all arcs into its source).", "quantifier": "for every valid layered model (exact: every acyclic model), start state, width, node order and primal bound", "why_tests_cant": "The order of the lines depends on the heap for every shape of diagram, and a null result of find would only show for particular degree sequences.", "anchors": ["src/dd.cpp:AbstractDD::saveGraph", "src/dd.cpp:AbstractDD::print", "src/heap.hpp:Heap::find", "src/heap.hpp:Heap::decrease"]}
{"id": "C86", "title": "What the progress lines of the search say", "statement": "Printing progress does not influence the search; every primal shown is the starting bound or the cost of a solution; node counts and primals never go back; lines caused by an improvement show strictly improving primals; as long as no state met before was dropped, no solution beats both the primal and the dual of a line, and for positive primals the printed gap bounds the relative distance to the optimum.", "quantifier": "for every valid model, width, starting bound, limiter, clock behaviour and line", "why_tests_cant": "Users read the bounds and the gap off these lines while a run is unfinished, when the true optimum is unknown and nothing can be compared.", "anchors": ["src/search.cpp:BAndB::search", "src/dd.cpp:AbstractDD::apply"]}
{"id": "C87", "title": "Branch and bound on the Golomb ruler program", "statement": "When no layer exceeds the width, gruler.cpp expands one node and ends with a shortest Golomb ruler among those of length at most L+1, although its equality of states ignores the distances, because merging never happens; for every width it reports only Golomb rulers with their lengths; with an equality that compares the distances the search also ends for every width, and ends with a shortest ruler.", "quantifier": "for every number of marks, length limit, valid table of lower bounds, order of a layer, width, starting bound and limiter", "why_tests_cant": "The label function reads the primal bound of the running search, so the diagrams differ from node to node; a wrong bound or a wrong equality of states shows only for particular widths and mark counts.", "anchors": ["examples/gruler.cpp:main", "examples/gruler.cpp:SGRuler", "src/search.cpp:BAndB::search"]}
{"id": "C88", "title": "Branch and bound on the Golomb ruler program with half labels", "statement": "gruler_mid.cpp, whose labels keep the first half of the marks in the first half of the ruler and depend on the best length found so far, reports only Golomb rulers with their lengths for every width; when no layer exceeds the width it expands one node and ends with a shortest Golomb ruler among all those of length at most L+1; and a node keeps its improving rulers when a better ruler is found elsewhere.", "quantifier": "for every number of marks, length limit, valid table of lower bounds, order of a layer, width, starting bound and limiter", "why_tests_cant": "The labels lose solutions on purpose, relying on a mirror image elsewhere, and shrink while the search runs; whether the optimum survives depends on the order in which nodes and bounds arrive.", "anchors": ["examples/gruler_mid.cpp:main", "examples/gruler_mid.cpp:SGRuler", "src/search.cpp:BAndB::search"]}
{"id": "C89", "title": "Branch and bound on the Golomb ruler program with the smallest unused distance", "statement": "gruler_midlb.cpp, whose states also hold the smallest unused distance and whose equality of states compares neither it nor the distances, reports only Golomb rulers with their lengths for every width; when no layer exceeds the width it expands one node and ends with a shortest Golomb ruler among all those of length at most L+1; its equality confuses merged states only with each other.", "quantifier": "for every number of marks, length limit, valid table of lower bounds, order of a layer, width, starting bound and limiter", "why_tests_cant": "A wrong smallest unused distance skips labels only in particular states, and a confusion of states shows only at particular widths.", "anchors": ["examples/gruler_midlb.cpp:main", "examples/gruler_midlb.cpp:SGRuler", "src/search.cpp:BAndB::search"]}
{"id": "C90", "title": "Smart pointers of the engine refer to objects", "statement": "A program that uses no object after its end sees the same values through handle_ptr (copies, moves, assignment, dereference, test, comparison, free) as if every handle referred to an object that is never confused with another, whatever addresses the allocator chooses; a program that frees nothing can go wrong only by using nullptr. A handle that tests true need not be usable, equal handles need not stem from the same object, a moved-from handle is not null, and handles are not ordered.", "quantifier": "for every sequence of operations on any number of handles and every allocator", "why_tests_cant": "Whether an address is used again depends on the allocator and on the history of the heap.", "anchors": ["src/handle.hpp:handle_ptr", "src/handle.hpp:strict_ptr", "src/handle.hpp:make_handle"]}
{"id": "C91", "title": "Elapsed times and time limits", "statement": "Elapsed milliseconds and seconds are the time that passed rounded down to whole milliseconds; consecutive intervals add up within one millisecond; a search with a limit of T milliseconds ends at the latest with the first extraction after which the clock shows the limit, and is stopped for no other reason. Elapsed microseconds are wrong when the clock is set back.", "quantifier": "for every sequence of clock readings, limit, model, width and starting bound", "why_tests_cant": "Tests see a few readings of one clock, never one that is set back, and cannot show that a limit ends every search.", "anchors": ["src/RuntimeMonitor.cpp:elapsedMilliseconds", "src/RuntimeMonitor.cpp:elapsedSinceMicro", "src/search.cpp:BAndB::search", "examples/coloring.cpp:main"]}
