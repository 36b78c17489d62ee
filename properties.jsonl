{"id": "C01", "title": "Index maps and incidence stay consistent under every mutator", "statement": "Starting from a well-formed hypergraph (id-to-position maps exact, the net list of every vertex and the vertex list of every net describe the same incidences, no duplicates), any history of add_vertex with no nets, add_net of a new net over present vertices (with the matching vertex-side registration), remove_net, remove_free_vertex, sort, move and relabel operations ends in a well-formed hypergraph; lookups by id always find the right vertex or net.", "quantifier": "every well-formed hypergraph and every finite history of mutator calls with valid arguments", "why_tests_cant": "histories are unbounded and the failure needs a particular removal order (swap-with-last)", "anchors": ["src/hypergraph/hypergraph.cpp:add_vertex", "src/hypergraph/hypergraph.cpp:remove_free_vertex", "src/hypergraph/hypergraph.cpp:remove_net_by_index", "src/hypergraph/hypergraph.cpp:update_map", "include/hypergraph/hypergraph.hpp:hypergraph"]}
{"id": "C02", "title": "remove_net deletes exactly the named net", "statement": "After removing a net by id, that net is in no list and no map, every vertex that was in it has lost exactly that incidence, and every other net (id, vertices, cost, size), every vertex attribute and every other incidence is unchanged; no memory outside the live vector is read.", "quantifier": "every well-formed hypergraph and every net position, including the last", "why_tests_cant": "position-dependent behaviour; the out-of-range read after pop_back is silent", "anchors": ["src/hypergraph/hypergraph.cpp:remove_net_by_index", "src/hypergraph/hypergraph.cpp:vertex::remove_net"]}
{"id": "C03", "title": "remove_free_vertex deletes exactly the named vertex", "statement": "Removing a vertex without nets leaves all other vertices with their attributes and findable by id, and all nets unchanged; no memory outside the live vector is read.", "quantifier": "every well-formed hypergraph and every free vertex position, including the last", "why_tests_cant": "as C02", "anchors": ["src/hypergraph/hypergraph.cpp:remove_free_vertex"]}
{"id": "C04", "title": "Copying a hypergraph yields an equivalent hypergraph", "statement": "The copy has the same vertices, parts, weights, nets, net costs, net sizes and incidences, hence the same cut for every assignment.", "quantifier": "every well-formed hypergraph", "why_tests_cant": "needs net costs different from the default, which no test builds before copying", "anchors": ["include/hypergraph/hypergraph.hpp:hypergraph(const hypergraph&)"]}
{"id": "C05", "title": "Merging duplicate nets preserves every cut", "statement": "After simplify_duplicate_nets, for every assignment of parts the cut-net and the lambda-minus-one cut are the same as before, vertices keep weight and part, no two remaining nets have the same vertex set, and the remaining nets are a subset of the original ones.", "quantifier": "every well-formed hypergraph with representable costs, every assignment to any number of parts", "why_tests_cant": "needs all hypergraphs and all assignments", "anchors": ["src/hypergraph/hypergraph.cpp:simplify_duplicate_nets", "src/hypergraph/hypergraph.cpp:remove_duplicate_net"]}
{"id": "C06", "title": "Undoing the duplicate-net merge restores the hypergraph", "statement": "simplify_duplicate_nets followed by reset_duplicate_nets, with arbitrary relabelling in between, restores every net with its id, vertex set, cost and stored global size, and every incidence.", "quantifier": "every well-formed hypergraph and every relabelling in between", "why_tests_cant": "needs all hypergraphs; the unit test checks one instance and ignores stored sizes", "anchors": ["src/hypergraph/hypergraph.cpp:reset_duplicate_nets", "src/hypergraph/hypergraph.cpp:add_local_net"]}
{"id": "C07", "title": "Part counts are exact", "statement": "init_counts returns for every net the number of its vertices in part 0 and in part 1.", "quantifier": "every well-formed hypergraph whose vertices are in parts 0/1", "why_tests_cant": "all hypergraphs", "anchors": ["src/hypergraph/hypergraph.cpp:init_counts"]}
{"id": "C08", "title": "sort_vertices_on_part sorts every net by part", "statement": "Given exact counts, the call terminates without leaving a vertex list, each net keeps the same vertices, and in each net all part-0 vertices come before all part-1 vertices; nothing else changes.", "quantifier": "every well-formed bisected hypergraph", "why_tests_cant": "the inner scans are only bounded by a counting argument", "anchors": ["src/hypergraph/hypergraph.cpp:sort_vertices_on_part"]}
{"id": "C09", "title": "Moving a vertex keeps counts exact and nets sorted", "statement": "On part-sorted nets with exact counts, move(id) flips the part of exactly that vertex, keeps all nets part-sorted and the counts exact; moving twice restores all parts and counts.", "quantifier": "every well-formed bisected hypergraph, every vertex, every history of moves", "why_tests_cant": "histories of moves", "anchors": ["src/hypergraph/hypergraph.cpp:move", "src/hypergraph/hypergraph.cpp:move_sorted"]}
{"id": "C10", "title": "The cut functions agree with the definition of the cut", "statement": "cutsize with the cut-net metric is the total cost of the nets that touch more than one part, with the lambda-minus-one metric it is the sum of cost*(number of parts touched - 1); for a bisection both agree with each other and with cutsize computed from the counts; lambda-minus-one dominates cut-net when costs are nonnegative.", "quantifier": "every well-formed hypergraph and every assignment to any number of parts", "why_tests_cant": "all hypergraphs and assignments", "anchors": ["src/hypergraph/hypergraph.cpp:cutsize"]}
{"id": "C11", "title": "Part weights add up", "statement": "weight_all_parts(k) lists weight_part(0..k-1), sums to total_weight when every part is in [0,k), and is well defined exactly when every vertex has a part in [0,k).", "quantifier": "every hypergraph and every k", "why_tests_cant": "all assignments including unassigned vertices", "anchors": ["src/hypergraph/hypergraph.cpp:weight_all_parts", "src/hypergraph/hypergraph.cpp:weight_part", "src/hypergraph/hypergraph.cpp:total_weight"]}
{"id": "C12", "title": "Gain buckets are a max-priority structure", "statement": "After any history of insert and remove within the gain range (from the state established by initialisation), next() returns -1 exactly when the structure is empty and otherwise an element of largest gain; gain_next() is that gain; no bucket outside the allocated range is touched.", "quantifier": "every history of operations, every iteration order of the hash sets", "why_tests_cant": "histories, and hash order is unspecified", "anchors": ["src/multilevel_bisect/KLFM/gain_buckets.cpp:insert", "src/multilevel_bisect/KLFM/gain_buckets.cpp:remove", "src/multilevel_bisect/KLFM/gain_buckets.cpp:find_next_index", "src/multilevel_bisect/KLFM/gain_buckets.cpp:next", "src/multilevel_bisect/KLFM/gain_buckets.cpp:gain_next"]}
{"id": "C13", "title": "Gains are exact throughout a pass", "statement": "For every unlocked vertex the recorded gain always equals the decrease of the cut obtained by moving that vertex to the other part, after any history of move and remove operations on the gain structure; all accesses stay in range.", "quantifier": "every well-formed bisected hypergraph with nonnegative costs and every history of moves/removals of unlocked vertices", "why_tests_cant": "histories; incremental gain updates", "anchors": ["src/multilevel_bisect/KLFM/gain_buckets.cpp:gain_structure::move", "src/multilevel_bisect/KLFM/gain_buckets.cpp:gain_structure::remove", "src/multilevel_bisect/KLFM/gain_buckets.cpp:add_gain", "src/multilevel_bisect/KLFM/gain_buckets.cpp:init_"]}
{"id": "C14", "title": "A sequential KLFM pass never worsens a balanced bisection and reports its true cut", "statement": "KLFM_pass terminates without UB; the returned value is the cut of the resulting bisection and is at most the given cut; counts, weights and nets stay exact; if the bisection met the weight limits before, it does afterwards; only parts (0/1) and orders inside nets change.", "quantifier": "every well-formed bisected hypergraph, limits, options, random sequence and hash order", "why_tests_cant": "schedules of random choices; rollback", "anchors": ["src/multilevel_bisect/KLFM/KLFM.cpp:KLFM_pass"]}
{"id": "C15", "title": "KLFM refinement is sound", "statement": "KLFM terminates; the result is the true cut of the final bisection; from a balanced bisection it stays balanced and the cut does not increase; from an unbalanced one each part ends with at most the larger of its limit and its previous weight.", "quantifier": "every well-formed bisected hypergraph, limits, options, random sequence and hash order", "why_tests_cant": "all inputs and random sequences", "anchors": ["src/multilevel_bisect/KLFM/KLFM.cpp:KLFM", "src/multilevel_bisect/KLFM/KLFM.cpp:make_balanced"]}
{"id": "C16", "title": "make_balanced only moves weight out of the overfull part and keeps the cut value exact", "statement": "make_balanced terminates, the returned value is the true cut, vertices only leave the overfull part, the other part never exceeds its limit because of it, and it stops early only if every vertex of the overfull part was tried.", "quantifier": "every well-formed bisected hypergraph and limits", "why_tests_cant": "all inputs", "anchors": ["src/multilevel_bisect/KLFM/KLFM.cpp:make_balanced"]}
{"id": "C17", "title": "The next move is chosen among feasible moves", "statement": "If the best vertex of some side fits into the other side, part_next selects a side whose best vertex fits, preferring the larger gain.", "quantifier": "every gain structure state and every pair of remaining capacities", "why_tests_cant": "needs a state with one side full", "anchors": ["src/multilevel_bisect/KLFM/gain_buckets.cpp:part_next"]}
{"id": "C18", "title": "Label propagation labels are valid and groups keep their minimum size", "statement": "label_propagation terminates, gives every vertex a label in [0,l), its net/label counts stay exact, and a group whose size is at least min_size never drops below min_size.", "quantifier": "every hypergraph, l>0, iteration limit, min_size and random sequence", "why_tests_cant": "random schedules", "anchors": ["src/multilevel_bisect/label_propagation.cpp:label_propagation"]}
{"id": "C19", "title": "Label propagation bisection is balanced when there is slack, and its counts are exact", "statement": "label_propagation_bisect labels every vertex 0 or 1, leaves exact counts in C (from zero counts), and respects both weight limits whenever total weight plus the largest vertex weight is at most the sum of the limits.", "quantifier": "every hypergraph with nonnegative weights, nonnegative limits and every random sequence", "why_tests_cant": "random schedules", "anchors": ["src/multilevel_bisect/label_propagation.cpp:label_propagation_bisect"]}
{"id": "C20", "title": "Random bisection labels the requested range and respects the limits", "statement": "bisect_random gives every vertex with index in [start,end) one of the two interval labels, changes nothing else, returns the exact weights of the two sides, and the sides respect the limits (whenever a bisection within the limits is possible).", "quantifier": "every hypergraph, range, interval, limits and random sequence", "why_tests_cant": "random schedules; infeasible greedy choices", "anchors": ["src/bisect.cpp:bisect_random", "include/util/interval.hpp:interval"]}
{"id": "C21", "title": "Random sampling returns exactly the requested number of distinct vertices", "statement": "sample_random returns min(ns, size) strictly increasing indices of local vertices and terminates without failing an assertion.", "quantifier": "every non-empty hypergraph (of at most 2^53 vertices, so that the sizes are exact doubles), ns and random sequence", "why_tests_cant": "random schedules incl. extreme values", "anchors": ["src/multilevel_bisect/sample.cpp:sample_random"]}
{"id": "C22", "title": "Label-propagation sampling returns one sample per occurring label", "statement": "sample_lp returns strictly increasing indices, no two samples share a label, and every label that occurs gets a sample.", "quantifier": "every hypergraph, options and random sequence", "why_tests_cant": "needs the extreme random value", "anchors": ["src/multilevel_bisect/sample.cpp:sample_lp"]}
{"id": "C23", "title": "Sequential coarsening is a weight- and cut-preserving contraction", "statement": "coarsen_hypergraph_seq partitions the vertices into clusters of at most max_cluster_size matched vertices plus one representative; the coarse hypergraph (with its removed free vertices) has the same total weight; for every assignment of the clusters, cut and part weights of the coarse hypergraph equal those of the fine hypergraph under the projected assignment.", "quantifier": "every well-formed hypergraph, visiting order, match choice and every assignment", "why_tests_cant": "all random orders and all assignments", "anchors": ["src/multilevel_bisect/coarsen.cpp:coarsen_hypergraph_seq", "src/multilevel_bisect/coarsen.cpp:contract_hypergraph"]}
{"id": "C24", "title": "Uncoarsening projects the coarse bisection", "statement": "uncoarsen_hypergraph gives every fine vertex the part of its cluster, and changes nothing else; the cut and the part weights are unchanged by the projection.", "quantifier": "every coarsening result and every assignment", "why_tests_cant": "all inputs", "anchors": ["src/multilevel_bisect/uncoarsen.cpp:uncoarsen_hypergraph"]}
{"id": "C25", "title": "Free vertices are set aside and all come back", "statement": "merge_free_vertices removes exactly the vertices without nets and records their weight; assign_free_vertices puts every one of them back with its weight and a part in {0,1}, leaves the other parts alone and returns the exact part weights, within the limits whenever total plus largest free weight fits into the sum of the limits.", "quantifier": "every well-formed hypergraph, limits and random sequence", "why_tests_cant": "needs zero-weight free vertices; random schedules", "anchors": ["src/hypergraph/contraction.cpp:merge_free_vertices", "src/hypergraph/contraction.cpp:assign_free_vertices", "src/hypergraph/contraction.cpp:assign_free_vertices_"]}
{"id": "C26", "title": "Initial partitioning keeps the best candidate", "statement": "initial_partitioning leaves a 0/1 bisection whose true cut is the returned value; if any of the ten candidates met the limits then the result does, and no balanced candidate had a smaller cut.", "quantifier": "every well-formed hypergraph, limits, options and random sequence", "why_tests_cant": "random schedules", "anchors": ["src/multilevel_bisect/initial_partitioning.cpp:initial_partitioning"]}
{"id": "C27", "title": "Sequential multilevel bisection labels every vertex of the range and reports exact weights", "statement": "With one processor bisect_multilevel terminates without UB, every vertex with index in [start,end) ends with one of the two interval labels, no other vertex and no net changes, and the returned pair is the exact weight of the two sides.", "quantifier": "every well-formed hypergraph, range, limits, options, random sequence and hash order", "why_tests_cant": "composition of all phases", "anchors": ["src/bisect.cpp:bisect_multilevel"]}
{"id": "C28", "title": "Reordering separates the two labels", "statement": "reorder_hypergraph permutes the range [start,end) so that all vertices labelled low come first, sets end to the boundary, keeps all vertices outside the range in place and keeps id lookup exact.", "quantifier": "every hypergraph and range whose vertices carry one of the two labels, including one-sided and empty ranges", "why_tests_cant": "boundary cases", "anchors": ["src/recursive_bisection.cpp:reorder_hypergraph"]}
{"id": "C29", "title": "Recursive bisection gives every vertex a part in [0,k)", "statement": "With one processor, recursive_bisect terminates for every k>=1 and afterwards every vertex has a part in [0,k); vertices, weights, nets and incidences are those of the input.", "quantifier": "every well-formed hypergraph, k, imbalance, options, random sequence", "why_tests_cant": "depends on empty sub-ranges", "anchors": ["src/recursive_bisection.cpp:recursive_bisect", "include/work_item.hpp"]}
{"id": "C30", "title": "The label intervals of recursive bisection partition the part numbers", "statement": "Splitting [0,k-1] by k_low/k_high recursively produces every part number exactly once as a leaf, after exactly k-1 splits.", "quantifier": "every k>=1", "why_tests_cant": "unbounded k", "anchors": ["src/recursive_bisection.cpp:recursive_bisect"]}
{"id": "C31", "title": "Removing cut nets removes exactly the cut nets", "statement": "With the cut-net metric, remove_cut_nets takes out exactly the nets whose vertices lie in more than one part.", "quantifier": "every well-formed hypergraph and assignment", "why_tests_cant": "needs an uncut net of size two", "anchors": ["src/recursive_bisection.cpp:remove_cut_nets"]}
{"id": "C32", "title": "Cut nets are restored completely", "statement": "remove_cut_nets followed by add_cut_nets restores every net and every incidence, on the net side and on the vertex side.", "quantifier": "every well-formed hypergraph and assignment", "why_tests_cant": "the test only counts nets", "anchors": ["src/recursive_bisection.cpp:add_cut_nets"]}
{"id": "C33", "title": "Reading a matrix yields its row-net hypergraph", "statement": "For a valid general or symmetric coordinate listing, read_hypergraph returns the hypergraph with one vertex per column and one net per non-empty row, incidences exactly the (mirrored) nonzeros, unit or degree weights, and the nonzero count; it is well formed when no entry is repeated.", "quantifier": "every valid listing and both weight modes", "why_tests_cant": "all matrices", "anchors": ["src/hypergraph/readhypergraph.cpp:read_hypergraph_istream"]}
{"id": "C34", "title": "Invalid matrix input is rejected, not executed", "statement": "For every text the reader either returns no hypergraph or a well-defined one; it never reads or writes out of range.", "quantifier": "every input text", "why_tests_cant": "malformed inputs", "anchors": ["src/hypergraph/readhypergraph.cpp:read_hypergraph_istream"]}
{"id": "C35", "title": "Distributed reading is a partition of sequential reading", "statement": "For every number of processors the local hypergraphs own disjoint vertices that together are all vertices; per vertex the same nets and weight, and per net the union of local vertex lists is the sequential vertex list.", "quantifier": "every valid listing, every processor count", "why_tests_cant": "all p", "anchors": ["src/hypergraph/readhypergraph.cpp:read_hypergraph_istream(world)"]}
{"id": "C36", "title": "The distributed cut equals the cut of the whole hypergraph", "statement": "cutsize(world,...) returns on every processor the cut of the union hypergraph under the union assignment, for both metrics, independently of message order.", "quantifier": "every distribution of every hypergraph over any number of processors and every message order", "why_tests_cant": "message schedules", "anchors": ["src/hypergraph/hypergraph.cpp:cutsize(world)"]}
{"id": "C37", "title": "Distributed net sizes and counts are global", "statement": "global_net_sizes and the distributed init_counts give every processor the global size and global part counts of each of its nets, independently of message order.", "quantifier": "every distribution, every message order", "why_tests_cant": "message schedules", "anchors": ["src/hypergraph/hypergraph.cpp:global_net_sizes", "src/hypergraph/hypergraph.cpp:init_counts(world)"]}
{"id": "C38", "title": "Removing small nets is consistent across processors", "statement": "remove_free_nets(world,H,m) removes a net from every processor if its global size is at most m and otherwise keeps it on every processor that has a vertex in it; nothing else changes, hence for m<=1 every cut is preserved.", "quantifier": "every distribution, every message order, hash order", "why_tests_cant": "message schedules", "anchors": ["src/hypergraph/hypergraph.cpp:remove_free_nets(world)", "src/hypergraph/hypergraph.cpp:remove_free_nets"]}
{"id": "C39", "title": "All processors agree on rejected moves and the limits hold after rejection", "statement": "Given the same set of proposed moves, reject_unbalanced_moves computes the same rejections on every processor whatever the arrival order, and after undoing them the tracked total weights are the true ones and within the limits whenever they were within the limits before.", "quantifier": "every set of proposals and every arrival order", "why_tests_cant": "message schedules, ties", "anchors": ["src/multilevel_bisect/KLFM/KLFM_parallel.cpp:reject_unbalanced_moves", "src/multilevel_bisect/KLFM/KLFM_parallel.cpp:KLFM_pass_par"]}
{"id": "C40", "title": "Distributed count updates agree with the truth", "statement": "After update_C every processor holds the true global part counts for its nets and the sum over processors of the tracked cut is the true cut, for every set of local moves and message order.", "quantifier": "every distribution, local move set and message order", "why_tests_cant": "message schedules", "anchors": ["src/multilevel_bisect/KLFM/KLFM_parallel.cpp:update_C", "src/multilevel_bisect/KLFM/KLFM_parallel.cpp:init_previous_C", "src/multilevel_bisect/KLFM/KLFM_parallel.cpp:init_cost_my_nets"]}
{"id": "C41", "title": "The owner of the minimum is agreed on", "statement": "owner_min returns on every processor the same rank, whose value is minimal (the highest such rank).", "quantifier": "every number of processors and values", "why_tests_cant": "all vectors", "anchors": ["include/algorithm.hpp:owner_min"]}
{"id": "C42", "title": "Redistribution conserves vertices and loses every surplus", "statement": "redistribute_hypergraph conserves the multiset of (id, weight, part, nets) over all processors; a processor keeps of its own vertices with a label (other than a label nobody works on) no more than its limit whenever the limits suffice in total; each processor's lookups and incidences are consistent afterwards, nets keep their costs and the recorded number of vertices is unchanged.", "quantifier": "every distribution, labels, capacities", "why_tests_cant": "ring schedules with arbitrary deficits", "anchors": ["src/recursive_bisection.cpp:redistribute_hypergraph", "src/recursive_bisection.cpp:reduce_surplus"]}
{"id": "C43", "title": "Kstart is the prefix sum of part sizes", "statement": "start_parts returns k+1 values, starting with 0, whose differences are the numbers of nonzeros of the parts and whose last is the number of nonzeros; without out-of-range writes.", "quantifier": "every distribution and k", "why_tests_cant": "the out-of-range write is silent", "anchors": ["src/util/write_partitioning.cpp:start_parts"]}
{"id": "C44", "title": "The output file lists every nonzero once, grouped by part", "statement": "partitioning_to_file writes a header, Kstart and then the nonzeros part by part; every incidence appears exactly once and entries Kstart[i]..Kstart[i+1]-1 belong to part i.", "quantifier": "every distribution and k with all parts in [0,k)", "why_tests_cant": "all inputs", "anchors": ["src/util/write_partitioning.cpp:partitioning_to_file"]}
{"id": "C45", "title": "Random hypergraph files contain nz distinct nonzeros", "statement": "create_random_hypergraph writes exactly nz distinct in-range entries; it can terminate exactly when nz <= n*m.", "quantifier": "every n,m,nz and random sequence", "why_tests_cant": "random schedules", "anchors": ["src/util/random_hypergraph.cpp:create_random_hypergraph"]}
{"id": "C46", "title": "Parallel coarsening conserves weight and matches each vertex at most once", "statement": "In coarsen_hypergraph_par every vertex is matched to at most one sample, samples are never matched, a sample gets at most max_cluster_size matches, and total weight over all processors (with removed free vertices) is conserved.", "quantifier": "every distribution, sampling result, inner products and message order", "why_tests_cant": "message schedules", "anchors": ["src/multilevel_bisect/coarsen.cpp:request_matches", "src/multilevel_bisect/coarsen.cpp:send_information_matches", "src/multilevel_bisect/coarsen.cpp:contract_hypergraph(world)"]}
{"id": "C47", "title": "Recursive bisection meets the imbalance bound when every bisection does", "statement": "If every bisection returns sides within the limits it was given, each final part weighs at most (1+epsilon)*W/k, computed in double precision and rounded down.", "quantifier": "every k, weight and epsilon", "why_tests_cant": "floating-point limits for every k", "anchors": ["src/recursive_bisection.cpp:compute_max_global_weight", "src/recursive_bisection.cpp:recursive_bisect"]}
{"id": "C48", "title": "All processors perform the same collective operations", "statement": "In recursive_bisect every processor of a world takes part in the same sequence of collective operations of that world, so no run can deadlock or mix up supersteps.", "quantifier": "every processor count, k, metric and weights", "why_tests_cant": "schedules; depends on data", "anchors": ["src/recursive_bisection.cpp:recursive_bisect", "src/recursive_bisection.cpp:remove_cut_nets"]}
{"id": "C49", "title": "The reported load balance is the imbalance of the heaviest part", "statement": "load_balance(H,k) computes k*max part weight / total weight - 1 from exact part weights, and the distributed version computes the same value from the global weights on every processor.", "quantifier": "every hypergraph with positive total weight, every k and distribution", "why_tests_cant": "all inputs", "anchors": ["src/hypergraph/hypergraph.cpp:load_balance"]}
{"id": "C50", "title": "Parallel KLFM tracks the true cut", "statement": "KLFM_par terminates, returns on all processors the same value, which is the true cut of the resulting global bisection and not larger than the given cut, and keeps global counts exact, all accesses being in range.", "quantifier": "every distribution, options, random sequences and message orders", "why_tests_cant": "message schedules", "anchors": ["src/multilevel_bisect/KLFM/KLFM_parallel.cpp:KLFM_par", "src/multilevel_bisect/KLFM/KLFM_parallel.cpp:KLFM_pass_par", "src/multilevel_bisect/KLFM/KLFM_parallel.cpp:update_gains", "src/multilevel_bisect/KLFM/KLFM_parallel.cpp:find_top_moves"]}
{"id": "C51", "title": "Random hypergraph files are read back", "statement": "Whenever create_random_hypergraph(file,n,m,nz) ends, read_hypergraph on that file succeeds and gives a well-formed hypergraph with n vertices, at most m nets and exactly nz nonzeros, namely those in the file.", "quantifier": "every n,m,nz, random sequence and weight mode", "why_tests_cant": "all files that can be written", "anchors": ["src/util/random_hypergraph.cpp:create_random_hypergraph", "src/hypergraph/readhypergraph.cpp:read_hypergraph_istream"]}
{"id": "C52", "title": "A file that cannot be opened is reported by every processor", "statement": "If the output file cannot be opened, partitioning_to_file returns false on every processor and does not hang.", "quantifier": "every number of processors, k and every opening that fails", "why_tests_cant": "failures of the file system at arbitrary points", "anchors": ["src/util/write_partitioning.cpp:partitioning_to_file"]}
{"id": "C53", "title": "Redistribution separates the two parts", "statement": "After redistribute_hypergraph, if the limits suffice in total, the processors of group 0 hold no vertex with the high label and those of group 1 none with the low label; none exceeds its limit; the recorded sizes of nets are still right. If nobody works on part 0, its vertices are exactly those from the returned position on.", "quantifier": "every distribution, labels, limits, weights, order of arrival", "why_tests_cant": "needs all ring schedules and weights", "anchors": ["src/recursive_bisection.cpp:redistribute_hypergraph", "src/recursive_bisection.cpp:reduce_surplus"]}
{"id": "C54", "title": "Parallel uncoarsening keeps the bisection and never worsens its cut", "statement": "uncoarsen_hypergraph_par gives every fine vertex the part of the coarse vertex it was merged into, on whichever processor that is, before refining; whenever it returns, nothing but parts has changed, every vertex is in part 0 or 1, and the returned value is the exact cut of the fine bisection and not larger than the given cut.", "quantifier": "every distribution, parallel contraction, coarse bisection, limits, options and message order", "why_tests_cant": "message schedules; contractions across processors", "anchors": ["src/multilevel_bisect/uncoarsen.cpp:uncoarsen_hypergraph_par", "src/multilevel_bisect/uncoarsen.cpp:uncoarsen_hypergraph"]}
{"id": "C55", "title": "Free vertices on several processors all come back", "statement": "The distributed assign_free_vertices puts every removed vertex back exactly once on the processor that had it, in part 0 or 1; the returned weights are the exact global weights; if the parts were within limits that leave room for the heaviest free vertex, they still are.", "quantifier": "every number of processors, contractions, weights and limits that are not both 0", "why_tests_cant": "all weights and distributions", "anchors": ["src/multilevel_bisect/contraction.cpp:assign_free_vertices"]}
{"id": "C56", "title": "All processors bisect the whole coarse hypergraph and use the best result", "statement": "After the parallel coarsening every processor gets all vertices, with weights and nets, and all nets with exactly their vertices; and afterwards all processors use the bisection of one and the same processor: one with the smallest cut among those within the limits, if any is.", "quantifier": "every distribution, message order and results of the processors", "why_tests_cant": "message schedules", "anchors": ["src/bisect.cpp:bisect_multilevel"]}
{"id": "C57", "title": "Multilevel bisection on several processors labels its range and reports the weights", "statement": "bisect_multilevel on several processors ends normally, gives every vertex of the given range on every processor one of the two labels, changes nothing else, and returns to each processor the exact weights of its two sides.", "quantifier": "every distribution, ranges, options, limits, random sequence and message order", "why_tests_cant": "random and message schedules", "anchors": ["src/bisect.cpp:bisect_multilevel"]}
{"id": "C58", "title": "The gathered coarse hypergraph has the right net sizes", "statement": "In the hypergraph that every processor gets after parallel coarsening the recorded global size of each net is its number of vertices, so the sequential coarsening that follows weighs shared nets correctly.", "quantifier": "every distribution and processor", "why_tests_cant": "all distributions", "anchors": ["src/bisect.cpp:bisect_multilevel", "include/hypergraph/hypergraph.hpp:scaled_cost"]}
{"id": "C59", "title": "Recursive bisection on several processors assigns every vertex a part", "statement": "recursive_bisect on any number of processors ends, gives every vertex on every processor a part in [0,k), and otherwise only moves vertices between processors: vertices with weights and nets, net costs and recorded sizes are kept and every processor's hypergraph is consistent.", "quantifier": "every distribution, number of processors, k, imbalance, options, random sequence and message order", "why_tests_cant": "random and message schedules, all sizes", "anchors": ["src/recursive_bisection.cpp:recursive_bisect"]}
{"id": "C60", "title": "A vertex stays in the half it was bisected into", "statement": "When a group of processors has bisected its vertices and splits, the vertices of each half go to processors that go on dividing this half, so each vertex ends with one of the labels of its half.", "quantifier": "every distribution, bisection, number of processors, k, random sequence and message order", "why_tests_cant": "weights and schedules decide how many processors a half gets", "anchors": ["src/recursive_bisection.cpp:recursive_bisect", "src/recursive_bisection.cpp:redistribute_hypergraph"]}
{"id": "C61", "title": "The imbalance bound holds on several processors", "statement": "If every bisection in a run of recursive_bisect on several processors respects the limits it is given, no part weighs more than (1+epsilon)*W/k rounded down, whatever the numbers of processors that work on the halves.", "quantifier": "every distribution, number of processors, k, epsilon, eta, options, random sequence and message order", "why_tests_cant": "floating point limits over all splits and schedules", "anchors": ["src/recursive_bisection.cpp:recursive_bisect", "src/recursive_bisection.cpp:compute_max_global_weight"]}
{"id": "C62", "title": "From matrix file to result file", "statement": "For every valid Matrix Market file, PMondriaan run with any number of processors writes a distributed-matrix file in which every nonzero of the matrix is listed exactly once, in the slice of the part of its column, with correct sizes and part starts; the reported cut, part weights and imbalance are those of exactly the partitioning in the file.", "quantifier": "every matrix file, weight mode, number of processors, k, epsilon, eta, options, random sequence and message order", "why_tests_cant": "whole runs over all inputs and schedules", "anchors": ["tools/PMondriaan.cpp:main", "src/util/write_partitioning.cpp:partitioning_to_file", "src/recursive_bisection.cpp:recursive_bisect"]}
{"id": "C63", "title": "The imbalance bound of the program", "statement": "If every bisection in a run of PMondriaan respects the limits it is given, no part in the result file has a weight above (1+epsilon)*W/k rounded down, W being the total weight of the columns of the matrix in the input file.", "quantifier": "every matrix file, weight mode, number of processors, k, epsilon, eta, options, random sequence and message order", "why_tests_cant": "floating point limits over whole runs", "anchors": ["tools/PMondriaan.cpp:main", "src/recursive_bisection.cpp:compute_max_global_weight"]}
{"id": "C64", "title": "Cut nets are set aside on all processors", "statement": "With the cut-net metric, when all processors, in the groups they work in, set cut nets aside, exactly the nets that have vertices in two parts inside a group are taken from every processor; each processor keeps the pieces it had, with vertices and cost; nothing else changes.", "quantifier": "every distribution, partitioning into groups, parts and message order", "why_tests_cant": "message schedules, all distributions and groups", "anchors": ["src/recursive_bisection.cpp:remove_cut_nets"]}
{"id": "C65", "title": "Nets that were set aside come back on all processors", "statement": "After nets have been set aside and vertices have been moved between processors, putting the nets back ends on all processors with every net having the vertices and the cost it had, wherever they are now, and every vertex listing its nets.", "quantifier": "every distribution, set of nets, movement of vertices and message order", "why_tests_cant": "message schedules, all movements", "anchors": ["src/recursive_bisection.cpp:add_cut_nets"]}
{"id": "C66", "title": "Recursive bisection with the cut-net metric on several processors", "statement": "recursive_bisect with the cut-net metric on any number of processors ends on all of them, gives every vertex a part in [0,k), and keeps all vertices with their weights and all nets with their vertices and costs, and every processor's hypergraph is consistent.", "quantifier": "every distribution, number of processors, k, imbalance, options, random sequence and message order", "why_tests_cant": "random and message schedules, all sizes", "anchors": ["src/recursive_bisection.cpp:recursive_bisect", "src/recursive_bisection.cpp:remove_cut_nets", "src/recursive_bisection.cpp:add_cut_nets"]}
{"id": "C67", "title": "The imbalance bound holds with the cut-net metric on several processors", "statement": "Whenever every bisection of a run of recursive_bisect with the cut-net metric on any number of processors returns sides within the limits it was given, every part weighs at most (1+epsilon)W/k, over all processors.", "quantifier": "every distribution, number of processors, k, epsilon, eta, options, random sequence and message order", "why_tests_cant": "floating point limits over whole runs, all schedules", "anchors": ["src/recursive_bisection.cpp:recursive_bisect", "src/recursive_bisection.cpp:compute_max_global_weight"]}
{"id": "C68", "title": "The report of the program with the cut-net metric", "statement": "Whenever PMondriaan, run with the cut-net metric and at least two parts on any number of processors, ends with a result, the reported cut, part weights and imbalance are those of the partitioning of the columns by which the result file is sorted, all parts are in [0,k), and the file lists nonzeros of the matrix only, none twice.", "quantifier": "every matrix file, weight mode, number of processors, k, epsilon, eta, options, random sequence and message order", "why_tests_cant": "whole runs over all inputs and schedules", "anchors": ["tools/PMondriaan.cpp:main", "src/recursive_bisection.cpp:recursive_bisect", "src/recursive_bisection.cpp:add_cut_nets"]}
{"id": "C69", "title": "The output adheres to the balance constraint", "statement": "The partitioning PMondriaan delivers adheres to the balance constraint epsilon: no part weighs more than (1+epsilon)*W/k rounded down, at least whenever the parts have so much room that a partitioning within the bound is easy to find.", "quantifier": "every matrix file, weight mode, k, epsilon, options and random sequence", "why_tests_cant": "random choices over whole runs; rounding of the limits in every bisection adds up", "anchors": ["README.md:eps", "tools/PMondriaan.cpp:main", "src/recursive_bisection.cpp:recursive_bisect", "src/recursive_bisection.cpp:compute_max_global_weight", "src/bisect.cpp:bisect_random", "src/bisect.cpp:bisect_multilevel", "src/multilevel_bisect/initial_partitioning.cpp:initial_partitioning"]}
{"id": "C70", "title": "Columns without nonzeros", "statement": "For every valid Matrix Market file, also one in which some columns have no nonzeros, and for both weight modes, PMondriaan gives every column, with or without nonzeros, a part, and delivers its output file.", "quantifier": "every matrix file, weight mode, epsilon, options and random sequence", "why_tests_cant": "the column without nonzeros is set aside and put back over random coarsening and partitioning; all inputs and runs", "anchors": ["tools/PMondriaan.cpp:main", "src/bisect.cpp:bisect_multilevel", "src/hypergraph/contraction.cpp:assign_free_vertices", "src/hypergraph/contraction.cpp:merge_free_vertices", "src/hypergraph/hypergraph.cpp:load_balance"]}
{"id": "C71", "title": "The self-checks", "statement": "check_maps prints nothing exactly if every vertex and net id that occurs in the hypergraph is mapped to the vertex or net with that id, and never changes anything; on every consistent hypergraph it is silent. check_gains reports exactly the unlocked vertices whose recorded gain differs from the decrease of the cut if they move, with the right value; after every history of moves, removals and queries it is silent.", "quantifier": "every hypergraph, every gain structure, every history of operations", "why_tests_cant": "all index maps and all histories", "anchors": ["src/hypergraph/hypergraph.cpp:check_maps", "src/multilevel_bisect/KLFM/gain_buckets.cpp:check_gains"]}
{"id": "C72", "title": "The name of the result file", "statement": "PMondriaan writes its result into the results directory, whatever the name of the matrix file, and runs for different matrix files, numbers of parts or numbers of processors write to different result files.", "quantifier": "every file name, number of parts and number of processors", "why_tests_cant": "all strings: names with digits, dashes and slashes could be confused", "anchors": ["tools/PMondriaan.cpp:main"]}
{"id": "C73", "title": "Label propagation follows the majority of the neighbours", "statement": "Starting from some labels, label propagation goes over all vertices in any order, a number of sweeps that is at most the number of iterations asked for. Each time a vertex is visited, and its group is larger than the minimum group size, it takes a label that no other label beats in the number of neighbours (counted per common net) that carry it at that moment; otherwise it keeps its label. When the procedure stops before the number of iterations is reached, no vertex has to change: each is in a small group or already carries such a label. The bisection by label propagation does the same for the labels 0 and 1, except that a vertex changes its part only if the weight of the part it moves to stays within the limit.", "quantifier": "every consistent hypergraph, number of labels, number of iterations, minimum group size, pair of limits and outcome of the random generator (nonnegative weights for the bisection)", "why_tests_cant": "the incremental tables of labels per net stand in for the votes, and their agreement and the stopping rule must hold after every sequence of visits, orders and random choices", "anchors": ["src/multilevel_bisect/label_propagation.cpp:label_propagation", "src/multilevel_bisect/label_propagation.cpp:label_propagation_bisect"]}
{"id": "C74", "title": "Parallel matching prefers the greatest inner products", "statement": "In parallel coarsening every vertex that is not a sample chooses, among the samples announced by all processors, one that no other sample beats in inner product (the summed scaled costs of the common nets, divided by the smaller number of nets), and it chooses none exactly when no inner product is positive. For each sample a processor sends the requests of the best of its vertices that chose it, and the sample takes the best of the requests it receives, in both cases as many as the maximum cluster size allows: no refused request has a greater inner product than one that is taken. Comparisons are those of double precision, and no request carries a NaN.", "quantifier": "every consistent hypergraph, announced samples, sample size, maximum cluster size, received requests, order of messages and of hash sets", "why_tests_cant": "the inner products are accumulated in a shared array over hash sets and reset lazily, and selection is by nth_element, whose outcome is only partly specified; all orders have to be covered", "anchors": ["src/multilevel_bisect/coarsen.cpp:request_matches"]}
{"id": "C75", "title": "Sequential matching prefers the greatest inner product", "statement": "In sequential coarsening every vertex gets one turn. In its turn a vertex that others have joined stays as it is. Any other vertex joins a vertex that has not joined one itself and has fewer matches than the maximum cluster size, such that no other such vertex has a greater inner product with it (the summed scaled costs of the common nets, divided by the smaller number of nets, in double precision), and it joins none exactly when none of these inner products is positive. The clusters of the contraction are those that result from the last turn.", "quantifier": "every consistent hypergraph with at most 2^53 nets, whatever their costs and recorded sizes (also zero or negative), every maximum cluster size, every random order of the turns", "why_tests_cant": "the inner products live in one array that is shared by all turns, is filled net by net and reset only at the vertices visited, and zero doubles as the mark for not visited; whether a stale or duplicate entry can change a choice depends on all previous turns", "anchors": ["src/multilevel_bisect/coarsen.cpp:coarsen_hypergraph_seq"]}
{"id": "C76", "title": "Sequential coarsening makes progress", "statement": "In sequential coarsening with positive net costs, right net sizes and a maximum cluster size of at least one, no two vertices with a common net are both left alone: at least one of them ends in a cluster with another vertex. So if any net has two vertices, the coarse hypergraph has fewer vertices than the fine one, even counting the free vertices set aside. The coarse hypergraph meets the same conditions, so that the next round makes progress as well, and a round of the multilevel method, which merges duplicate nets first, makes progress in the same way. On the other hand a round keeps, whatever the costs, at least one vertex of every max_cluster_size + 1.", "quantifier": "every consistent hypergraph with at most 2^53 nets and vertices whose nets of two or more vertices have costs from 1 to 2^53 and recorded sizes from 2 to 2^53, every maximum cluster size from 1, every random order of the turns", "why_tests_cant": "whether a vertex finds a partner depends on all earlier turns and on inner products computed in double precision, which must never vanish by rounding", "anchors": ["src/multilevel_bisect/coarsen.cpp:coarsen_hypergraph_seq"]}
