# Formal model of PMondriaan in Rocq/Coq: design

## 1. What is modelled and how

The model is a set of total Gallina functions, one per C++ function, in
`rocq/theories`.  Each definition cites the file and lines it models.

* **Outcomes.** Model functions live in an outcome monad
  `M A := World -> out (A * World)` with `out := Ok | Err e`, where `e` is one of
  `UB` (out-of-range access, invalid iterator, bad float-to-integer cast, ...),
  `Abort` (a failing `assert`; the build does not define `NDEBUG`),
  `Throw` (an uncaught exception such as `unordered_map::at`) and
  `Fuel` (a `while` loop ran longer than its fuel).
  A theorem of the form "for every world there are a result and a world such
  that the call yields `Ok`" therefore says: terminates, no UB, no failing
  assertion, no exception.
* **Nondeterminism.** The world holds an arbitrary infinite tape of integers.  Everything the
  program does not control reads the tape: `std::mt19937` output, the iteration order
  of hash sets, `std::shuffle`, the order in which `std::sort`/`nth_element`
  leave ties, message arrival order.  Theorems quantify over all tapes.
* **Benign undefined reads/writes.**  Three places access memory just outside a live
  vector and then discard or overwrite the value (`remove_net_by_index` and
  `remove_free_vertex` after `pop_back`, `start_parts`).  They append a tag to a log in the world and
  go on, so that both "what the rest does" and "no such access" can be stated.
* **Loops.** Range-for loops are folds; `while` loops are fuelled iterations with the fuel computed from
  the input; `Err Fuel` is excluded by the theorems.
* **Numbers.** `long`/`size_t` are unbounded `Z`, except where the code narrows to `int`
  (`simplify_duplicate_nets`), where 32-bit wrap-around is modelled.  `numeric_limits<long>::min()`
  is the constant -2^63.  Doubles (sampling, matching scores, limits of recursive bisection) use the standard library's
  `SpecFloat` binary64 arithmetic.
* **Maps and sets.** `std::unordered_map<long,long>` is `gmap Z nat`, `unordered_set<long>` is `gset Z`.
* **BSP.** The bulk library is not part of the repository.  A world is the list of processor states; a superstep applies the local
  function on every processor, then delivers each processor's messages in an arbitrary order (tape/permutation).
  `bulk::sum`, `foldl_each`, coarrays and futures are modelled by their documented meaning.
  `block_partitioning` is a record of owner/local/global functions with its laws as explicit
  hypotheses and a concrete instance.

## 2. Trusted base

* Coq 8.16.1 kernel (and `vm_compute` for examples and refutation witnesses).
* std++ definitions (lists, gmap, gset) as used in statements; no axioms of std++ are used.
* `Print Assumptions` is run under every property theorem; see section 5 for the list.
* The correspondence between the C++ text and the Gallina functions (by reading).
* The meaning of the bulk library as described above.

Not modelled: CLI parsing, console output other than what `check_maps` and `check_gains` report, `print` helpers, MPI/thread backends,
file-system behaviour other than the text read or written, signed overflow of `long`, memory exhaustion.

## 3. Files

| file | content |
|---|---|
| `Base.v` | outcome monad, Hoare rules, loops, tape |
| `Types.v` | data types: vertices, nets, hypergraphs, options |
| `Spec.v`, `SpecMulti.v` | independent specification vocabulary: cuts, counts, weights, consistency, balance |
| `Hypergraph.v`; proofs `ListLemmas`, `HgBasics`, `HgOps`, `HgCuts`, `HgMove`, `HgMore`, `HgDup`, `HgHist`, `HgMoves` | hypergraph.hpp/.cpp, sequential part |
| `Gain.v`, `Klfm.v`; proofs `BucketProof`, `GainProof`, `GainMove`, `GainInit`, `KlfmProof` | gain buckets, gain structure, KLFM |
| `Float.v`, `FloatProof.v` | binary64 via the standard library's `SpecFloat`; rounding facts from Flocq |
| `LabelProp.v`; proofs `LabelPropProof`, `InitialProof`, `SampleProof` | label propagation, sampling, initial partitioning, random bisection |
| `Coarsen.v`; proofs `CoarsenProof`, `CoarsenLoop`, `UncoarsenProof` | contraction, sequential coarsening and uncoarsening, free vertices |
| `SpecPar.v`, `Par.v`; proofs `ParBase`, `ParProof`, `ParRemove`, `ParCut` | distributed hypergraphs: one local hypergraph per processor, message queues with arbitrary delivery order |
| `SpecBisect.v`, `Bisect.v`; proof `BisectProof` | create_new_hypergraph, bisect and bisect_multilevel with one processor |
| `Recursive.v`; proofs `ReorderProof`, `LimitProof`, `CutNetProof`, `RecProof` | recursive_bisect, compute_max_global_weight, reorder_hypergraph, remove_cut_nets, add_cut_nets with one processor |
| `SpecReader.v`, `Reader.v`; proofs `ReaderText`, `ReaderProof`, `ReaderPar`, `ReaderBad` | readhypergraph.cpp on texts (lists of characters), sequential and distributed |
| `SpecWriter.v`, `Writer.v`; proofs `WriterProof`, `RandomProof` | write_partitioning.cpp and random_hypergraph.cpp; files as lists of characters |
| `SpecKpar.v`, `KlfmPar.v`; proofs `KparReject`, `KparMove`, `KparCount`, `KparUpdate`, `KparInit`, `KparHist` (counts), `KparGain`, `KparGains`, `KparLoop`, `KparFind`, `KparUndo`, `KparTake` (one processor), `KparSync`, `KparPropose`, `KparRound`, `KparPass` (all processors) | KLFM_parallel.cpp: proposals, rejection, distributed counts, passes |
| `SpecRed.v`, `Redistribute.v`; proofs `RedSend`, `RedRing`, `RedRecv`, `RedProof` | redistribute_hypergraph and reduce_surplus on all processors |
| `Collective.v`, `SpecColl.v`; proofs `CollProof`, `CollCount`, `CollResult`, `CollDef` | control flow of recursive_bisect, remove_cut_nets, add_cut_nets and redistribute_hypergraph on many processors, reduced to collective operations; bisect is one operation |
| `SpecBpar.v`, `BisectPar.v`; proofs `UparFree`, `UparProof`, `GatherProof`, `MparProof` | bisect_multilevel, uncoarsen_hypergraph_par and assign_free_vertices on all processors: gathering the coarse hypergraph, sharing the best bisection, projecting parts. Not modelled: timers and log messages. Growing HC_list moves its elements (the defaulted move constructor does not throw); HC_list.push_back(HC_list[nc_par]) copies |
| `SpecRpar.v`, `RecursivePar.v`; proofs `RecParFloat`, `RecParBase`, `RecParProof` | recursive_bisect on any number of processors with the lambda-minus-one metric: parallel rounds, numbers of processors, local limits, redistribution, sequential work. The two groups after a split do not communicate, so one is run after the other; processors keep their order in `split` |
| `SpecCpar.v`, `CoarsenPar.v`; proofs `CparMatch`, `CparAccept`, `CparPhase`, `CparInfo`, `CparContract`, `CparLocal`, `CparTold`, `CparProof`, `CparWhole`, `CparGlobal`, `CparResult` | coarsen_hypergraph_par on all processors: announcing samples, requests, accepting, information about matches, contraction, removal of small nets and free vertices |
| `SpecProgram.v`, `Program.v`; proof `ProgramProof` | main of tools/PMondriaan.cpp on all processors: reading, copying, partitioning, load balance, cut, result file, part weights. Not modelled: command line, settings file, timers, messages |
| `SpecBalance.v`; proofs `LimitRoom`, `LimitCalm`, `RecRoom` | no code of their own: how much room one bisection needs, how far the limits computed in double precision are from the exact ones, and that room suffices all the way down the recursion on one processor |
| `Checks.v`, `SpecChecks.v` | the self-checks `check_maps` and `check_gains`; what they should find |
| `ResultName.v`, `SpecName.v` | the name of the result file; last component of a path |
| `SpecVote.v` | votes, favourite labels, visits and sweeps of label propagation |
| `SpecMatch.v` | inner products, choices of vertices and samples in parallel matching |
| `SpecSeqMatch.v` | turns of the vertices in sequential matching |
| `SpecCut.v`, `CutNetPar.v`, `RecursiveCut.v`; proofs `CutParProof`, `CutAdd`, `CutShed`, `CutRecProof` | remove_cut_nets and add_cut_nets on any number of processors, in groups, and recursive_bisect with the cut-net metric on several processors: the groups work independently between the calls of remove_cut_nets, in which the whole world must meet; if only some of the processors come, the outcome is a deadlock (`None`) |
| `Final*.v` | the property lemmas and their example data |
| `Props*.v` | only the property theorems (closed by `exact`), examples and `Print Assumptions`; generated from `Final*.v` by `tools/gen_theorems.py` |

## 4. Per property plan

"R" marks properties the code violates as stated: a theorem `..._refuted` exhibits the violation on the
faithful model and a `_partial` theorem states what does hold.

| id | plan |
|---|---|
| C01 | invariant `WF` preserved by each mutator, lifted to histories by induction over a command list |
| C02 | R (stale read logged when the last net is removed); exact frame theorem for the effect |
| C03 | R as C02 |
| C04 | R (costs dropped); partial: everything but costs is copied |
| C05 | invariant over the merge loop; costs of equal vertex lists are summed; hypothesis: total cost < 2^31 |
| C06 | R (stored global sizes become 0); partial: ids, vertex sets, costs, incidences restored |
| C07 | fold invariant |
| C08 | two-pointer invariant with counting argument |
| C09 | per-net permutation lemma for `move_sorted`, then counts |
| C10 | set cardinality against `gset` of labels |
| C11 | fold invariant |
| C12 | bracket invariant, history induction |
| C13 | invariant "recorded gain = cut difference" by per-net delta lemma |
| C14 | loop invariant with ghost best bisection; measure = number of unlocked vertices |
| C15 | composition of C08, C16, C14 |
| C16 | loop invariant as C14 |
| C17 | R: concrete state where the infeasible side is chosen |
| C18 | fold/while invariant |
| C19 | fold invariant, final pass argument |
| C20 | R in the "whenever possible" form (greedy); partial with slack hypothesis |
| C21 | loop invariant s_left <= remaining |
| C22 | R: extreme random value; partial: strictly increasing, distinct labels |
| C23 | matching invariant, cut preservation by label-set equality per net |
| C24 | fold invariant |
| C25 | R for zero total free weight; partial otherwise |
| C26 | invariant over the ten candidates |
| C27 | composition, R for zero-weight free vertices; partial for positive weights |
| C28 | R (one-sided low and empty ranges); partial: at least one high vertex |
| C29 | R (k = 1; empty side split again); partial: invariant "the stacked work items cover the labels and positions from here on", else a weightless work item is pending and the run ends in the NaN conversion |
| C30 | well-founded induction on k |
| C31 | R: ids compared instead of parts |
| C32 | R: vertex side not restored; partial: net side |
| C33 | character-level reader (streams with eofbit and failbit, getline, ignore, number extraction); scanning lemmas per item of the format, then a fold invariant |
| C34 | R: out-of-range indices, unset sizes; partial: outcome of every text |
| C35 | R for 2^32 entries; partial: lists of a processor = columns it owns, then C38 |
| C36–C38, C40 | BSP model, permutation-invariance of folds |
| C46 | the phases of the coarsening one after the other: announced samples, requests, accepted matches, information about matches, local contraction (`CparMatch` to `CparLocal`); then the union over the processors is shown to be the contraction by the clusters (`CparWhole`, `CparGlobal`), with C38 for the small nets |
| C42, C53 | invariant of the walk over the processors: what the visited processors could take is at most what was sent plus a nonpositive rest, so the walk only fails if the total is negative. C53: R (weight 0, limits of receivers, sizes of nets); partial for positive weights |
| C39 | R: ties and wrong weights; partial: agreement without ties, and an induction over the list of moves for what is taken back |
| C41 | fold invariant |
| C43 | R: out-of-range write logged; values proved |
| C44 | output as concatenation over parts; decimal output inverts the numerals of the reader's specification |
| C45 | R for more than 2^32 rows; loop invariant, set cardinality argument, draws that end the loop from every state |
| C47 | rounding error bounds for the limits of leaf sides (`LimitProof`), same stack invariant with weights |
| C48 | R for the cut-net metric; a skeleton of recursive_bisect gives the trace of collective operations of each processor, as a function of the total weights after each bisection; an execution lets all members of a world do their next operation of that world together (`SpecColl`). Traces that agree on all shared worlds cannot get stuck, because the members of the innermost waiting world can always go on; the traces are shown to agree by induction over the rounds up to the point where two processors part |
| C49 | fold invariant; float division kept symbolic |
| C50 | R (rejected moves leave wrong gains, bucket out of range); partial: invariant over rounds and passes (exact counts, best point = moves since then undone), with any gains if errors are allowed, with exact gains if no move can be rejected |
| C51 | composition of C45 and C33 |
| C52 | R with two or more processors; partial with one |
| C54 | the labels after the exchange of parts equal gpart of the representative (uses cr_owner, cr_stay); cut and weights by cr_cut, cr_parts of C46; then C50's refinement with errors allowed |
| C55 | split processor found by prefix sums; assign_all_vertices before and after it, the sequential function (C26) on it |
| C56 | exchange gives every processor the vertices and nets of all others as a multiset; owner_min (C41) for the best |
| C57 | R (empty range with random samples); partial: induction over the rounds with level invariant plev, errors UB and Abort tracked |
| C58 | R (size 0 for nets from other processors); partial for local nets |
| C59 | R (k = 1; half without vertices); partial: induction over the rounds with the set-aside vertices behind the range of each processor |
| C60 | R (a half gets no processors); partial: C53 with local limits that suffice in total (rounding of ceil(W/p)*(1+eta)) |
| C61 | as C47; if the low half gets no processors, it is set aside and weighs less than a third of the other half, which with the limit for two labels is at most M; otherwise the next redistribution brings it back into the range |
| C62 | R (k = 1; cut-net metric with three or more parts); partial: the spread matrix as an invariant from reading (C33, C35) through copying, partitioning (C59) and the reports (C01, C03) to the file (C44) |
| C63 | as C62 with C61 and C67 |
| C64 | R (not only cut nets; undefined operations); partial: the announced labels of a net as a function of its vertices, the owner's scan over them for every order of arrival, removal as a filter of nets |
| C65 | R (vertices that stay do not list the nets); partial: messages to all processors as a permutation; an invariant over the messages that counts, per net, the vertices here |
| C66 | R (deadlock, vertices that do not list nets); partial: computations of groups as resumptions that stop at remove_cut_nets; a predicate `safe` over resumptions that collects the nets taken out, closed under composition side by side; then C64 and C65 |
| C67 | as C61, inside the proof of C66: removing nets changes no weights and parts; runs with checked bisections are followed step by step through the calls of remove_cut_nets |
| C68 | as C62; the hypergraphs after add_cut_nets are compared with the ones in which every vertex lists all its nets: the reports do not depend on the lists of the vertices, the file depends only on them |
| C69 | refutations by concrete runs of the whole program, on one and on two processors; one processor: random and multilevel bisection are within their limits if these exceed the weight by the heaviest vertex (cluster) (`BisectProof`), the limits computed in double precision are within 4 of the exact ones (`LimitRoom`), so a bound of the form room >= c*k*log(k) is inherited by both halves (`fits_split`); with moderate room each half gets weight, so no NaN arises and every run returns; on several processors with random bisection into two parts the limit holds if the vertices of every processor fit into its share of the limits (`FinalRoomPar`) |
| C70 | universal refutation: on one processor, vertices without nets are set aside by `merge_free_vertices` and put back only if their total weight is positive; with weights by degree it is 0, so they keep part -1 and the imbalance computation reads out of bounds (`FinalEmpty`). Positive weights: two parts on one processor always give a result |
| C71 | the printed lines are the result of the model; a predicate 'prints nothing exactly if P' is composed along the loops (`FinalChecks`); for check_gains the gain formula is the cut decrease (as C13), and the invariant of the history gives silence |
| C72 | refutation by two paths with one base name; the name can be decoded from the end, since a printed number contains neither `p` nor `k` nor a slash (`FinalName`) |
| C73 | the tables of labels per net equal the votes of the neighbours (`vote_spec`); each visit of the loops meets `lp_visit`/`lpb_visit`; invariant over sweeps with the flag `change` (`VoteProof`, `FinalVote`) |
| C74 | order of doubles by a lexicographic key (`d_lt_key`); the array of inner products is exact for every order of nets and vertices; nth_element as a sorted arrangement; invariants over announced samples and over the lists of requests (`MatchProof`, `FinalMatch`) |
| C75 | the array of inner products is exact after the visit, whatever the costs; a vertex visited twice (0.0 is the mark for not visited) has its inner product divided twice, and a share of a double is not greater than the double (`FloatShare`, by Flocq), so that the choice stands; the array is all zero after the turn; invariant over the turns, joined with the one of C23 (`SeqMatchProof`, `FinalSeqMatch`) |
| C76 | from the turns of C75: a vertex that is alone at the end was alone in every state before, and at the later turn of two neighbours the inner product, at least 2^-106 by Flocq (`FloatBig`), was positive (`ProgressProof`, `FinalProgress`); merging duplicate nets keeps costs positive, by the sum over nets with the same vertices (`RoundProof`) |

## 5. Axioms

`Print Assumptions` is run under every property theorem in the `Props*.v` files.  All print
"Closed under the global context" except C21, C29 (partial theorems), C30_runs, C46_with_sampling, C47, C48 (all but C48_cut_net_refuted), C57 (partial theorems), C59 (partial theorem), C60 (partial theorems), C61, C62 (C62_program_partial), C63, C66 (partial theorem), C67, C68, C69 (partial theorems), C70, C75 and C76 (binary64 arithmetic through the reals), which list
only standard library axioms:

* `ClassicalDedekindReals.sig_not_dec`, `ClassicalDedekindReals.sig_forall_dec`
* `FunctionalExtensionality.functional_extensionality_dep`
* `Classical_Prop.classic`

A whole-library check (`coqchk`) in addition names `Coq.ssr.ssrunder.Under_rel.*`, and `Coq.Reals.Rdefinitions.RbaseSymbolsImpl.*`, `Coq.Reals.Rdefinitions.RinvImpl.*`: constants sealed by module types of the
standard library, loaded through the imported libraries; no theorem depends on them.

## 6. Regime of the theorems

Hypotheses that recur in statements, because the model counts in unbounded integers:
net costs nonnegative with sum below 2^62 (`klfm_pre`), vertex weights nonnegative, total
weight below 2^63-1, hypergraph sizes below 2^53 where a size is converted to double, no vertex with id -1.
