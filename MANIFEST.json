{
 "claims": [
  {
   "property": "C01",
   "status": "proved",
   "theorems": [
    "C01_history_consistent"
   ],
   "note": "For every finite history of eleven kinds of mutator calls with valid arguments."
  },
  {
   "property": "C02",
   "status": "partial",
   "theorems": [
    "C02_remove_net_partial",
    "C02_stale_read_refuted"
   ],
   "note": "REFUTED by the code: remove_net_by_index reads nets_[index] after pop_back, past the end when the removed net is the last one (C02_stale_read_refuted, for every hypergraph). Everything else in the property is proved."
  },
  {
   "property": "C03",
   "status": "partial",
   "theorems": [
    "C03_remove_free_vertex_partial",
    "C03_stale_read_refuted"
   ],
   "note": "REFUTED by the code: as C02, for vertices_[index] in remove_free_vertex (C03_stale_read_refuted). Everything else is proved."
  },
  {
   "property": "C04",
   "status": "partial",
   "theorems": [
    "C04_copy_partial",
    "C04_costs_refuted"
   ],
   "note": "REFUTED by the code: the copy constructor re-creates nets without their cost, so every net of the copy costs 1 (C04_costs_refuted). Everything but the costs is proved."
  },
  {
   "property": "C05",
   "status": "proved",
   "theorems": [
    "C05_simplify_preserves_cuts",
    "C05_cost_overflow_refuted"
   ],
   "note": "Assumes that the sum of absolute net costs is below 2^31: costs are accumulated in an int; without that bound the property is false (C05_cost_overflow_refuted)."
  },
  {
   "property": "C06",
   "status": "partial",
   "theorems": [
    "C06_reset_partial",
    "C06_sizes_refuted"
   ],
   "note": "REFUTED by the code: restored nets get stored size 0, and a second merge/undo round fails an assertion because the duplicate list is never cleared (C06_sizes_refuted). Ids, vertices, costs, incidences and parts are proved to be restored."
  },
  {
   "property": "C07",
   "status": "proved",
   "theorems": [
    "C07_init_counts_exact"
   ],
   "note": "For every consistent hypergraph with parts 0/1."
  },
  {
   "property": "C08",
   "status": "proved",
   "theorems": [
    "C08_sort_on_part"
   ],
   "note": ""
  },
  {
   "property": "C09",
   "status": "proved",
   "theorems": [
    "C09_moves",
    "C09_move_twice"
   ],
   "note": "For every finite sequence of moves, by parity of the number of moves of each vertex."
  },
  {
   "property": "C10",
   "status": "proved",
   "theorems": [
    "C10_cutsize",
    "C10_bisection_agree",
    "C10_lambda_dominates"
   ],
   "note": "Any number of parts."
  },
  {
   "property": "C11",
   "status": "proved",
   "theorems": [
    "C11_part_weights"
   ],
   "note": ""
  },
  {
   "property": "C12",
   "status": "proved",
   "theorems": [
    "C12_priority_structure"
   ],
   "note": "For every finite history of insert/remove calls respecting the interface (an id is inserted only when absent, gains inside the range fixed at construction). Assumes a range below 2^62 and that the bucket vector can be allocated."
  },
  {
   "property": "C13",
   "status": "proved",
   "theorems": [
    "C13_gains_exact"
   ],
   "note": "For every finite history of move/lock/query operations on distinct vertices. Assumes non-negative net costs with sum below 2^62 and no vertex id equal to the sentinel -1."
  },
  {
   "property": "C14",
   "status": "proved",
   "theorems": [
    "C14_klfm_pass"
   ],
   "note": "Total correctness: termination is part of the statement. Same regime as C13, plus non-negative vertex weights."
  },
  {
   "property": "C15",
   "status": "proved",
   "theorems": [
    "C15_klfm"
   ],
   "note": "Total correctness, same regime as C14."
  },
  {
   "property": "C16",
   "status": "proved",
   "theorems": [
    "C16_make_balanced"
   ],
   "note": "Total correctness, same regime as C14."
  },
  {
   "property": "C17",
   "status": "partial",
   "theorems": [
    "C17_feasible_refuted",
    "C17_part_next_partial"
   ],
   "note": "REFUTED by the code: part_next compares the weight of the best vertex of a side with the room left in its own part, not in the part it would move to (C17_feasible_refuted). C17_part_next_partial characterises the choice actually made."
  },
  {
   "property": "C18",
   "status": "proved",
   "theorems": [
    "C18_labels",
    "C18_groups"
   ],
   "note": "Total correctness; exact counts and group sizes for every label propagation run."
  },
  {
   "property": "C19",
   "status": "proved",
   "theorems": [
    "C19_bisect"
   ],
   "note": "Total correctness, nonnegative weights and limits."
  },
  {
   "property": "C20",
   "status": "partial",
   "theorems": [
    "C20_random_bisection_partial",
    "C20_limits_refuted"
   ],
   "note": "REFUTED by the code in the 'whenever possible' form: the choice is greedy (C20_limits_refuted). C20_random_bisection_partial proves all the rest, and the limits when they leave room for one more largest vertex."
  },
  {
   "property": "C21",
   "status": "proved",
   "theorems": [
    "C21_sample_random"
   ],
   "note": "Sizes up to 2^53; binary64 arithmetic of the acceptance test is modelled with SpecFloat. Uses the standard library's axioms about reals and classical logic (listed in DESIGN.md)."
  },
  {
   "property": "C22",
   "status": "partial",
   "theorems": [
    "C22_sample_lp_partial",
    "C22_every_label_refuted"
   ],
   "note": "REFUTED by the code: if the generator returns its largest value a label can go without a sample (C22_every_label_refuted). C22_sample_lp_partial proves order, distinct labels and, without that value, completeness."
  },
  {
   "property": "C23",
   "status": "proved",
   "theorems": [
    "C23_coarsening"
   ],
   "note": "Total correctness for every consistent hypergraph, visiting order and tape; match scores are computed in the binary64 model, the proof does not depend on their values."
  },
  {
   "property": "C24",
   "status": "proved",
   "theorems": [
    "C24_projection"
   ],
   "note": "For every coarsening result and every partitioned coarse hypergraph with the free vertices back."
  },
  {
   "property": "C25",
   "status": "partial",
   "theorems": [
    "C25_set_aside",
    "C25_all_return_partial",
    "C25_weightless_refuted",
    "C25_uncoarsen_abort_refuted"
   ],
   "note": "REFUTED by the code for weightless free vertices: if their total weight is 0 they are not put back and uncoarsening aborts (C25_weightless_refuted, C25_uncoarsen_abort_refuted). C25_set_aside is total; C25_all_return_partial covers every other case."
  },
  {
   "property": "C26",
   "status": "proved",
   "theorems": [
    "C26_best_candidate"
   ],
   "note": "Total correctness in the regime of C14 plus total weight < 2^63-1. ip_candidates collects the candidates of the same run."
  },
  {
   "property": "C27",
   "status": "partial",
   "theorems": [
    "C27_multilevel_bisection_partial",
    "C27_weightless_refuted"
   ],
   "note": "REFUTED by the code: a weightless vertex without nets keeps its old part (C27_weightless_refuted). Proved for positive weights: total, both labels only, nothing else changed, exact weights."
  },
  {
   "property": "C28",
   "status": "partial",
   "theorems": [
    "C28_reorder_partial",
    "C28_one_sided_refuted"
   ],
   "note": "REFUTED by the code when no vertex of the range is labelled high (also an empty range): the boundary is one too small (C28_one_sided_refuted). Proved for every other range: the permutation, the boundary, the untouched vertices and the id lookup (C28_reorder_partial)."
  },
  {
   "property": "C29",
   "status": "partial",
   "theorems": [
    "C29_recursive_bisection_partial",
    "C29_two_parts_partial",
    "C29_one_part_refuted",
    "C29_empty_side_refuted"
   ],
   "note": "REFUTED by the code for k = 1 (no part is assigned) and for runs in which a side without vertices must be split again (conversion of NaN to an integer). Proved: for k >= 2 every run either ends with all parts in [0,k) and the input kept, or reaches that undefined conversion; no assertion, exception or endless loop; for k = 2 it always ends."
  },
  {
   "property": "C30",
   "status": "proved",
   "theorems": [
    "C30_labels",
    "C30_runs"
   ],
   "note": "The label intervals as the program computes them, for all bounds, and the number of splits of every run that ends."
  },
  {
   "property": "C31",
   "status": "partial",
   "theorems": [
    "C31_remove_cut_nets_partial",
    "C31_uncut_refuted",
    "C31_empty_net_refuted"
   ],
   "note": "REFUTED by the code: ids are compared instead of parts, so all nets with two or more vertices are removed; an empty net is undefined behaviour. Proved: exactly the nets with two or more vertices are removed and stored, hence all cut nets."
  },
  {
   "property": "C32",
   "status": "partial",
   "theorems": [
    "C32_restore_nets_partial",
    "C32_vertices_refuted"
   ],
   "note": "REFUTED by the code on the vertex side: afterwards no vertex lists a net with two or more vertices. Proved: nets, their vertices and costs are restored; ids, weights, parts and order of the vertices are kept."
  },
  {
   "property": "C33",
   "status": "proved",
   "theorems": [
    "C33_reading"
   ],
   "note": "Character-level model of the reader. Comment lines have at most 2047 characters (the reader skips 2048 characters per comment) and the dimensions are sizes a std::vector can have."
  },
  {
   "property": "C34",
   "status": "partial",
   "theorems": [
    "C34_outcome_partial",
    "C34_banner_partial",
    "C34_symmetry_partial",
    "C34_line_partial",
    "C34_mode_partial",
    "C34_out_of_range_refuted",
    "C34_missing_sizes_refuted"
   ],
   "note": "REFUTED by the code: an index 0 or beyond the announced size writes out of range, and a file that ends before the size line makes it use unset variables. Proved for every text: a returned hypergraph is the row-net hypergraph of entries in range, and no assertion fails or loop runs forever; short banners, unknown symmetries and weight modes and lines without numbers are rejected."
  },
  {
   "property": "C35",
   "status": "partial",
   "theorems": [
    "C35_distributed_reading_partial",
    "C35_large_refuted"
   ],
   "note": "REFUTED by the code for 2^32 or more entries (32 bit loop counter). Proved for every smaller valid listing without repeated nonzeros, every number of processors and every lawful block partitioning."
  },
  {
   "property": "C36",
   "status": "proved",
   "theorems": [
    "C36_distributed_cut"
   ],
   "note": "any number of processors, any order of message delivery (tape), any lawful distribution of the nets over owners"
  },
  {
   "property": "C37",
   "status": "proved",
   "theorems": [
    "C37_net_sizes",
    "C37_counts"
   ],
   "note": "sizes and counts; the counts need parts 0/1 and recorded global sizes, as the code computes count_1 = size - count_0"
  },
  {
   "property": "C38",
   "status": "proved",
   "theorems": [
    "C38_remove_free_nets"
   ],
   "note": "any lawful distribution of nets over owners, any message order"
  },
  {
   "property": "C39",
   "status": "partial",
   "theorems": [
    "C39_rejection_partial",
    "C39_taken_back_partial",
    "C39_ties_refuted",
    "C39_ties_run_refuted",
    "C39_weights_refuted"
   ],
   "note": "REFUTED by the code: with equal gain and position the order of arrival decides, and two processors may each count the other's move; and the proposals counted as rejected (lowest gain) are not the moves taken back (last ones), so agreed weights can be wrong. Partial: without such ties all processors agree and the tracked weights stay within the limits; they are the true ones if gains fall or the weights are equal. C39_taken_back_partial: a processor told r takes back exactly its last |r| moves in that direction."
  },
  {
   "property": "C40",
   "status": "proved",
   "theorems": [
    "C40_update_C"
   ],
   "note": "count_history runs the initialisation of KLFM_par/KLFM_pass_par and then any number of rounds of local moves, sending of changed counts and update_C, for every order of arrival. Counts are exact on every processor and the tracked cuts sum to the true cut. Needs parts 0/1 and recorded net sizes, both established by the callers (C37, C38). If update_C also updates gains and an (arbitrary) gain structure is inconsistent it can fail instead; on success the claim holds all the same."
  },
  {
   "property": "C41",
   "status": "proved",
   "theorems": [
    "C41_owner_min"
   ],
   "note": ""
  },
  {
   "property": "C42",
   "status": "proved",
   "theorems": [
    "C42_redistribute"
   ],
   "note": "Weights nonnegative, limits nonnegative, labels distinct; any p_low, any order of arrival. For the low label the surplus is reduced only if group 0 has processors."
  },
  {
   "property": "C43",
   "status": "partial",
   "theorems": [
    "C43_start_parts_partial",
    "C43_past_end_refuted"
   ],
   "note": "REFUTED by the code: the last round writes result[k+1], one past the end, for every k >= 1. Partial: the k+1 values are the prefix sums on every processor."
  },
  {
   "property": "C44",
   "status": "proved",
   "theorems": [
    "C44_output_file"
   ],
   "note": "For files that can be opened, labels in [0,k) and nonnegative ids; the past-end write of start_parts (C43) is logged and the run goes on."
  },
  {
   "property": "C45",
   "status": "partial",
   "theorems": [
    "C45_entries",
    "C45_can_end_partial",
    "C45_never_ends",
    "C45_large_refuted"
   ],
   "note": "REFUTED by the code for more than 2^32 rows or columns, which are drawn with 32 bits (never ends although nz <= n*m). Proved: the file on every end, never ending for nz > n*m; for n,m <= 2^32 it can still end after any draws. n = 0 or m = 0 with nz > 0 divides by zero (not stated)."
  },
  {
   "property": "C46",
   "status": "proved",
   "theorems": [
    "C46_coarsening",
    "C46_with_sampling",
    "C46_empty_processor_aborts"
   ],
   "note": "For every distribution, valid samples and message order; much stronger than the English text (all fields of coarsened_par in SpecCpar.v). With the choice of samples: sample_size > 0 and, for random samples, a vertex on every processor, which is needed (C46_empty_processor_aborts)."
  },
  {
   "property": "C47",
   "status": "proved",
   "theorems": [
    "C47_imbalance"
   ],
   "note": "For every run in which all bisections respect their limits; the limit is (1+eps)*W/k as the program computes it in double precision. k >= 2, positive weights, W and k*M at most 2^50."
  },
  {
   "property": "C48",
   "status": "partial",
   "theorems": [
    "C48_lambda_metric_partial",
    "C48_cut_net_partial",
    "C48_cut_net_small_partial",
    "C48_cut_net_refuted"
   ],
   "note": "REFUTED by the code for the cut-net metric: how often a processor calls remove_cut_nets, which synchronizes the whole world, depends on how many bisections it takes part in; with three processors and nine parts no execution comes to its end (C48_cut_net_refuted). Proved: for the lambda-1 metric, for every k, number of processors and weights, any two processors take part in the same operations of every world they share and no execution can get stuck; for the cut-net metric, a run is free of deadlocks if and only if all processors take part in equally many operations of the initial world, with the count as a function of the bisections, which covers one processor and two processors that part at the first bisection. In the model bisect is one operation of the sub-world."
  },
  {
   "property": "C49",
   "status": "proved",
   "theorems": [
    "C49_load_balance",
    "C49_load_balance_par"
   ],
   "note": "binary64 operations are those of SpecFloat; the exact integers entering them are proved"
  },
  {
   "property": "C50",
   "status": "partial",
   "theorems": [
    "C50_klfm_par_partial",
    "C50_klfm_par_safe_partial",
    "C50_out_of_range_refuted"
   ],
   "note": "REFUTED by the code: C50_out_of_range_refuted is a run of two processors in which a rejected move leaves the gains of its neighbours wrong until a gain bucket is accessed out of range. Proved: C50_klfm_par_partial (every run ends; unless it accesses out of range, all processors return the true cut, not larger than before, and the counts are exact, whatever the message order, options and given weights) and C50_klfm_par_safe_partial (no error at all, and exact weights within the limits, when no piece of a net is empty and no move can be rejected: one processor, or limits not below the total weight)."
  },
  {
   "property": "C51",
   "status": "proved",
   "theorems": [
    "C51_random_read_back"
   ],
   "note": "n, m at least 1 and at most the number of sets a vector can hold."
  },
  {
   "property": "C52",
   "status": "partial",
   "theorems": [
    "C52_open_failure_partial",
    "C52_open_failure_refuted"
   ],
   "note": "REFUTED by the code: with two or more processors the one that fails returns before the sync the others wait in. Partial: with one processor false is returned."
  },
  {
   "property": "C53",
   "status": "partial",
   "theorems": [
    "C53_separation_partial",
    "C53_weight_zero_refuted",
    "C53_limit_refuted",
    "C53_net_size_refuted"
   ],
   "note": "REFUTED by the code: vertices of weight 0 are never sent; a receiver may exceed its limit (the last vertex overshoots, and two senders may fill the same room); nets new on a processor get global size 0. Partial: separation for positive weights and the returned position."
  },
  {
   "property": "C54",
   "status": "proved",
   "theorems": [
    "C54_projection",
    "C54_uncoarsening",
    "C54_wide_limits"
   ],
   "note": "For every contraction that C46 allows and every delivery order. Stated for the runs that return; all that can go wrong is undefined behaviour (a bucket out of range in parallel refinement, C50, or the division in assign_free_vertices when both limits are 0), excluded when the limits allow every bisection (C54_wide_limits)."
  },
  {
   "property": "C55",
   "status": "proved",
   "theorems": [
    "C55_free_vertices_par"
   ],
   "note": "Free vertices have positive weights and the contractions record their weights, which C46 proves of parallel coarsening. Limits that are both 0 are a division by zero in the code."
  },
  {
   "property": "C56",
   "status": "proved",
   "theorems": [
    "C56_gather",
    "C56_gathered_cut",
    "C56_best_shared"
   ],
   "note": "Costs are those of the nets or 1 (the copy constructor drops costs, C04); if all costs are 1, as in multilevel bisection, cuts on the copy are the cuts of the whole."
  },
  {
   "property": "C57",
   "status": "partial",
   "theorems": [
    "C57_multilevel_bisection_par_partial",
    "C57_wide_limits_partial",
    "C57_empty_range_refuted"
   ],
   "note": "REFUTED by the code: with random samples a processor with an empty range fails an assertion (C57_empty_range_refuted), and parallel refinement can access a bucket out of range (C50_out_of_range_refuted). Proved: whenever it returns, the property; no other errors are possible; with label propagation and limits that allow every bisection it always ends normally. Weights must be positive (C27_weightless_refuted)."
  },
  {
   "property": "C58",
   "status": "partial",
   "theorems": [
    "C58_gathered_sizes_refuted",
    "C58_gathered_sizes_partial"
   ],
   "note": "REFUTED by the code: nets added from other processors keep recorded size 0, so scaled_cost is negative (C58_gathered_sizes_refuted). Proved: sizes are right for the nets the processor held, 0 for all others."
  },
  {
   "property": "C59",
   "status": "partial",
   "theorems": [
    "C59_recursive_bisection_par_partial",
    "C59_one_part_refuted",
    "C59_undefined_refuted"
   ],
   "note": "REFUTED by the code as stated: for k = 1 nothing is done (C59_one_part_refuted), and a half without vertices that must be split again makes the program convert a NaN to an integer (C59_undefined_refuted). Proved for the lambda-minus-one metric: every other run ends with all vertices in [0,k) and nothing else changed. The cut-net metric on several processors is covered by C48 only."
  },
  {
   "property": "C60",
   "status": "partial",
   "theorems": [
    "C60_halves_partial",
    "C60_processors_partial",
    "C60_high_half_refuted",
    "C60_low_half_refuted"
   ],
   "note": "REFUTED by the code: if the rounded share of processors of a half is 0, its vertices are divided among the labels of the other half (C60_high_half_refuted, C60_low_half_refuted). Proved: with a processor for each half the redistribution separates them exactly; with none for the low half it is set aside; the number of processors is in range."
  },
  {
   "property": "C61",
   "status": "proved",
   "theorems": [
    "C61_imbalance_par"
   ],
   "note": "Lambda-minus-one metric. Includes the runs in which a half gets no processors (C60)."
  },
  {
   "property": "C62",
   "status": "partial",
   "theorems": [
    "C62_program_partial",
    "C62_one_part_refuted",
    "C62_cut_net_refuted"
   ],
   "note": "REFUTED by the code for k = 1 (undefined behaviour for every matrix with a column, C62_one_part_refuted) and for the cut-net metric with three or more parts (a run whose result file has no nonzeros, C62_cut_net_refuted; see C68 for what holds then). Proved for the lambda-minus-one metric and k >= 2, and for the cut-net metric and k = 2, on any number of processors, for matrices without repeated nonzeros and with positive column weights: every run that does not execute one of the undefined operations of C59 delivers the right file and report."
  },
  {
   "property": "C63",
   "status": "proved",
   "theorems": [
    "C63_program_imbalance"
   ],
   "note": "Both metrics, any number of processors, k >= 2. As in C62 the file lists all nonzeros for the lambda-minus-one metric and for k = 2, otherwise some of them."
  },
  {
   "property": "C64",
   "status": "partial",
   "theorems": [
    "C64_set_aside_partial",
    "C64_uncut_refuted",
    "C64_bare_piece_refuted",
    "C64_groups_refuted"
   ],
   "note": "REFUTED by the code: labels are compared with vertex ids, so every net with two or more vertices inside a group is taken out, cut or not (C64_uncut_refuted); a piece of a net without vertices makes the behaviour undefined in every run (C64_bare_piece_refuted); so do two groups of two processors (C64_groups_refuted). Proved: the exact set of nets that is taken out, that it contains all cut nets, and everything else in the property."
  },
  {
   "property": "C65",
   "status": "partial",
   "theorems": [
    "C65_put_back_partial",
    "C65_unlisted_refuted"
   ],
   "note": "REFUTED by the code: a vertex that has not been moved to another processor does not list the nets that are back (C65_unlisted_refuted, for every state). Everything else in the property is proved."
  },
  {
   "property": "C66",
   "status": "partial",
   "theorems": [
    "C66_recursive_cut_par_partial",
    "C66_deadlock_refuted",
    "C66_unlisted_refuted"
   ],
   "note": "REFUTED by the code: a run of three processors that never ends (C66_deadlock_refuted); vertices that do not list their nets (C66_unlisted_refuted); undefined operations as in C59 and C64. Proved: every run that ends gives parts in [0,k) and keeps vertices, weights, nets and costs; with two parts it ends and is consistent."
  },
  {
   "property": "C67",
   "status": "proved",
   "theorems": [
    "C67_imbalance_cut_par"
   ],
   "note": "Limit in binary64: M = trunc((1+eps)*W/k). Stated for runs that end; runs that block (C66_deadlock_refuted) have no result."
  },
  {
   "property": "C68",
   "status": "proved",
   "theorems": [
    "C68_program_cut_net"
   ],
   "note": "Any number of processors, k >= 2, positive column weights, no repeated nonzeros. Runs that execute one of the undefined operations of C59 and C64, and runs that block (C66_deadlock_refuted), end without a result."
  },
  {
   "property": "C69",
   "status": "partial",
   "theorems": [
    "C69_balance_refuted",
    "C69_recursive_room_partial",
    "C69_recursive_total_partial",
    "C69_program_room_partial",
    "C69_program_total_partial",
    "C69_two_processors_refuted",
    "C69_random_two_parts_partial"
   ],
   "note": "REFUTED by the code: with the default options, two parts of weights 5 and 7 where each may weigh 6 and a partitioning 6|6 exists (C69_balance_refuted); and with random bisection on two processors even with enough room, on an input where one processor is always within the bound (C69_two_processors_refuted). Proved on one processor: with enough room (k*M-W at least (B+8)*k*(4*log2(k)-3), B the heaviest vertex or cluster) every run that returns is within the bound, with either metric; if the room is also moderate, every run with the lambda-minus-one metric returns, within the bound and without empty parts, for the function and for the whole program. Missing: several processors (C63: if every bisection is within its limits, so is the output). For random bisection into two parts on several processors: if the vertices of every processor fit into its share of the limits, every run returns and both parts are within the limit (C69_random_two_parts_partial)."
  },
  {
   "property": "C70",
   "status": "partial",
   "theorems": [
    "C70_empty_column_refuted",
    "C70_two_parts_partial"
   ],
   "note": "REFUTED by the code: weights by degree, two parts, one processor, multilevel bisection: for every matrix with a column without nonzeros in which every other column shares a row with another one, every run has undefined behaviour (C70_empty_column_refuted). Proved: with positive column weights (weight one: every matrix with a column, also with empty columns), two parts and one processor, every run delivers a result (C70_two_parts_partial). Missing: more parts or processors (C62_program_partial: result or undefined)."
  },
  {
   "property": "C71",
   "status": "proved",
   "theorems": [
    "C71_check_maps",
    "C71_check_maps_silent",
    "C71_check_gains",
    "C71_check_gains_silent"
   ],
   "note": "check_maps: exact characterisation for every hypergraph, and silence on consistent ones. check_gains: exact characterisation for every bisected consistent hypergraph with exact counts, and silence after every history of the gain structure."
  },
  {
   "property": "C72",
   "status": "partial",
   "theorems": [
    "C72_other_file_refuted",
    "C72_result_name_partial",
    "C72_result_directory"
   ],
   "note": "REFUTED by the code: only what follows the last slash of the matrix file is used, so runs for files with the same name in different directories overwrite each other's result (C72_other_file_refuted). Proved: two runs write to the same file exactly if the last components of the matrix files, the numbers of parts and the numbers of processors are equal (C72_result_name_partial), and the file is directly in the results directory (C72_result_directory)."
  },
  {
   "property": "C73",
   "status": "proved",
   "theorems": [
    "C73_label_propagation",
    "C73_bisection"
   ],
   "note": "Every run of label_propagation and label_propagation_bisect is a number of sweeps of visits as specified in SpecVote, from some initial labels; the votes are counted from the nets and labels, not from the tables the code keeps."
  },
  {
   "property": "C74",
   "status": "proved",
   "theorems": [
    "C74_requests",
    "C74_acceptance"
   ],
   "note": "Stated for the two halves of request_matches, run on one processor each: from the announced samples to the requests sent (C74_requests), and from the requests received to the matches and the messages of acceptance (C74_acceptance); coarsen_samples (C46) runs exactly these on every processor. Inner products are recomputed in SpecMatch from nets and costs, in the model of IEEE doubles. Of equal inner products any may be chosen."
  },
  {
   "property": "C75",
   "status": "proved",
   "theorems": [
    "C75_sequential_matching"
   ],
   "note": "One turn per vertex in some order (the shuffle is arbitrary); inner products as doubles with the rounding of the code. Holds for all costs and recorded sizes: the code uses the value 0.0 as the mark for a vertex not yet visited, so that a vertex can be visited twice and its inner product be divided twice, but the second value is never the greater one (share_le)."
  },
  {
   "property": "C76",
   "status": "proved",
   "theorems": [
    "C76_no_two_neighbours_alone",
    "C76_progress",
    "C76_next_round",
    "C76_round",
    "C76_not_too_fast"
   ],
   "note": "For hypergraphs with right recorded net sizes. Hypergraphs gathered from several processors do not have them (C58): Example C76_sizes_matter shows that with sizes 0 nothing is joined."
  }
 ]
}