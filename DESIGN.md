# Machine-checked model of ArborX: design

Everything here is about the pinned source in `/repo` (read as text; never built or run).
Proofs are in Rocq/Coq 8.16.1 under `rocq/theories`, logical name `Verif`.

## 1. Trusted base

* The Coq 8.16.1 kernel (and `coqchk` for the re-check), including `vm_compute`.
* Axioms: each `Properties*.v` file ends every theorem with `Print Assumptions`.
  The list per theorem family is in section 5 and is updated with every milestone.
  No axiom is added by this development.
* The correspondence between the C++ source and the Gallina model.  It was established by reading;
  every model definition cites the file and lines it models and says where it simplifies.
* Kokkos semantics as assumed by the model: a kernel is a set of threads, each atomic operation is one
  indivisible step, memory is sequentially consistent at the granularity modelled (fences in the code are
  assumed to do what they say), and a kernel finishes before the next one on the same execution space starts.
* `Kokkos::sort`/`sortByKey`, `parallel_scan`, `parallel_reduce` are modelled by their specification
  (sorted permutation, prefix sums, fold over any bracketing), not by their implementation.  C99 derives the
  specification of `sortByKey` from the contract of `Kokkos::BinSort`.
* MPI is modelled by its specification: reliable, non-overtaking per (source, destination, tag).

### Modelled arithmetic
* Indices and lengths: `nat`; keys, codes: `Z`/`N` with explicit wrap-around where the C++ wraps.
* Floating point: one of
  (a) exact ordered-field arithmetic (`Z`, `Q` or `R`) when the property is about geometry,
  (b) an arbitrary *monotone rounding* of exact arithmetic when the property is about pruning safety,
  (c) `Coq.Floats.SpecFloat` (bit-exact IEEE binary32, pure Gallina, no axioms) for refutations which depend
  on special values (negative zero, infinities, rounding of sizes).
  Each theorem's comment says which.

### Not modelled
Kokkos itself, memory spaces and deep copies, template dispatch/concepts, profiling regions, execution-space
instances, device-specific `#ifdef`s, the text formatting of `ArborX_TreeVisualization`, `ArborX_Config`, experimental k-DOP tables beyond
what is cited, allocation failure, and integer overflow of `int` sizes (2^31 values) unless a theorem says so.

## 2. Layout

| file | content |
|---|---|
| `theories/<Area>Model.v` | executable Gallina model, each definition citing `/repo` lines |
| `theories/<Area>Spec.v` (or a Spec section) | independent specification |
| `theories/<Area>Proof.v` | lemmas |
| `theories/Properties<Area>.v` | only the final theorems (`exact …`), examples that meet the hypotheses, `Print Assumptions` |

### Mutation record
`seeded/LOG.jsonl` has one line per seeded edit of a model definition.  How to read `result`:
* `killed`: some proof script no longer compiles (`theorems_failed`, first failure of each file).  This shows that the
  proof depends on the edited text.  It does not by itself show that the theorem became false: a script can break
  although its theorem still holds, and edits with the claim `none` are of this kind.
* `SURVIVED`: everything still builds; `note` says whether the edit is harmless or which theorem was tightened.
* `invalid`: the edit changed the type of a definition or did not type-check, so the failures are typing errors and
  are no evidence.  An audit of all records (comparing the types of every definition before and after the edit) found
  eight of these among the first 116, first logged as killed; they are kept, marked, and repeated with the types kept (one
  repetition was ill-typed again and repeated once more).  All later edits
  went through the same type comparison, some batches before and the last ones after they were run; it found two more, marked and repeated too.
* `counterexample`, where present, is a statement about the mutant, proved or computed there, that contradicts the named theorem.
  So for these edits it is known that the theorem became false, not just that its proof broke.

`property_theorems_no_longer_proved` is not observed theorem by theorem: it lists the theorems of the claimed property in the
files that depend on a failing file.  Of the 700 edits 14 survived:
four are harmless (see `note`); for the other ten the theorems named in `tightened` were added and the edits repeated, and they are
now killed.  Four records are `unclear` (no verdict: time limit, or too few files rebuilt); `note` says which were repeated.

## 3. Plan per property

| id | modelled | proof method |
|---|---|---|
| C01 | `GenerateHierarchy::operator()` as a small-step interleaving machine over per-thread state and shared `_ranges`, node arrays; `delta` with the code's own bit formula | inductive invariant over all schedules; separate lemma that the delta sequence has no adjacent ties for codes < 2^63 |
| C02 | same machine carrying volumes in an abstract join semilattice | invariant; box instance is C36 |
| C03, C04 | rope traversal loop with fuel | induction over the range structure; fuel shown sufficient |
| C05 | nearest traversal with stack and heap exactly as written | loop invariant (every leaf is in the heap, pending, or pruned by a bound) |
| C06, C08 | the same with the capacity | capacity refuted by concrete trees (`_refuted`) plus a depth bound theorem |
| C07 | ordered traversal | refuted witness (false hit) plus correctness under the missing check |
| C09, C10 | half traversal starting at a leaf's rope | leaves visited from leaf i's rope are exactly those > i |
| C11-C13 | `InsertGenerator`, `queryImpl`, buffer policies; threads as interleavings of writes | case analysis on policy, per-query independence |
| C14 | team/tile decomposition | exactly-once by division lemmas; float `ceil` refutation by SpecFloat |
| C15 | loop as written | refuted by witness; positive theorem for what does hold |
| C16 | heap functions on lists/arrays | heap-order invariant with a hole |
| C17, C18 | `expandBitsBy`, `morton32/64` on `N` with masks as written | bitwise reasoning per bit (`N.bits_inj`), refutation for sign bit |
| C19 | loops with fuel | invariants |
| C20, C26, C31 | list functions; atomic reservation as interleaving | permutation reasoning |
| C21 | small-step machine over `labels` with reads, CAS, path-compression writes | invariant over all schedules, refinement to partition merging |
| C22-C24 | the sequence of kernels, each a machine run under any schedule (`Kernel`, continuation style), union-find steps interleaved as in C21; DenseBox's check-then-skip on labels is a guarded operation of the machine | connectivity invariant on labels; what each finished thread's operations guarantee (`Exec`) |
| C25, C53 | `cellIndex`, `cellBox`, `buildGrid` over Q (GridModel); C53 runs the DenseBox program of C24 on that grid | refuted at the upper face by running the model; proved below it |
| C27 | all kernels of one Boruvka round as interleavings of atomic steps, the loop and the final renumbering | cut property for the tie-broken edge order; invariants and potentials per kernel; components halve per round |
| C28 | packed directed edges | arithmetic on the bit fields |
| C29, C54 | host loop with the sequential union-find (DendrogramModel); the key sort is any sorted permutation | invariant over the prefix of processed edges; last edge touching a cluster forms it; counting for the two children |
| C30, C31, C55, C56 | the program of all ranks as a function of the local clusterings (DistDbscanModel): conversion, exchange, merge pairs, filtering, relabelling; the compaction also in any order | refuted by running the model; soundness through global indices of core points; completeness when every label has one merge target |
| C32-C35 | every collective step of all ranks at once: plan, exchange, kernels under any schedule, messages in any arrival order (DistributorModel, DistTreeModel) | destinations as tasks tagged with origin; permutation and grouping lemmas; counting argument for the k nearest |
| C38, C40, C41, C42 | the tests written once over a number interface, instantiated with exact rationals | `lra`/`nra`; convexity and first-wall arguments; witnesses by vm_compute for the refutations |
| C39 | ray-box test (RayModel) over IEEE arithmetic without rounding (`xq`: signed zeros, infinities, exact rationals) and over SpecFloat binary32 | lower/upper bound semantics per axis; witnesses |
| C43 | quadratic solver and ray-sphere interval over Coq reals | roots by Vieta; `nra` |
| C51, C60 | ray-triangle and segment-triangle over Coq reals with the tolerance as a parameter; SpecFloat binary64 for the refutations | sheared coordinates as weights of the hit point; coplanar rays through the rotated plane, where the hits of the edges are the ends of an interval; witnesses |
| C44 | the constexpr tables and `evaluateNonConstant` as list functions (InterpModel), any dimension and degree | induction over degrees; monomials as sorted words |
| C45, C62 | the kernels over Coq reals; SpecFloat binary32 | derivative signs, `nra`; witnesses |
| C46 | row reduction over exact rationals and over Coq reals; the moment matrix from normalised sources | witnesses; for clean runs (no pivot from above the pivot row) an invariant: a unit lower triangular factor times the reduced rows gives the permuted matrix, so kept rows are independent and dropped ones depend on them |
| C47, C48 | matrices as functions over Coq reals; the SVD loop with fuel | orthogonal similarity, decreasing off-diagonal sum; algebra of the normal equations |
| C63 | the whole coefficient computation on SpecFloat binary32 | one execution |
| C64 | the C27 model with single precision distances | one execution that gets stuck |
| C65 | the C27 machines with the HDBSCAN stores (edge mapping, sided and vertex parents), then keys, any sorting permutation, fix-up and parents; IEEE bit patterns | invariant over the rounds relating sided parents to the nested components of exact Boruvka rounds; then a tree argument over sorted chains |
| C66 | core distances by the nearest query of C05 with the MaxDistance callback, metric choice, then C65 or C27 followed by a key sort (any sorted permutation) and the union-find dendrogram of C29 | k-th nearest distance by counting; a minimum spanning tree connects every pair by edges not heavier than the pair, so tree cuts are all-pairs components |
| C67 | tree of boxes whose corners are IEEE numbers (not NaN), distance and intersection predicates computed bit-exactly for any format on SpecFloat | SpecFloat operations are Flocq's; every computed value is a rounded, saturated real (infinity = 2^emax), rounding and saturation are monotone, so squares, sums and roots are monotone in the coordinate gaps; then C01, C03, C05 |
| C68 | relation of C67 used by the DBSCAN model of C22/C23 | instance of C22/C23 with PruneSafe from C67 |
| C69 | single precision weights as the non-negative floats of C65 | instance of C66; no overflow from a bound on the exact value of the sum |
| C70 | BuildFloatModel: scene box reduction, centroid, scaling, conversion and Morton64 code on SpecFloat, undefined conversions as None | subtraction, division and multiplication by fixed operands are total and monotone on numbers (Flocq); clamp and truncation to cells; the scene box attains its bounds; Morton interleaving (C17); then C67, C68, and C69 with the height bound from distinct codes or few points (C70_hdbscan) |
| C71 | same model | two witnesses |
| C72 | centroids on SpecFloat | doubling is exact in the format, so 2a <= rn(a+b) <= 2b and halving stays inside; for tetrahedra rn(rn(3a)+a) = 4a for every number a (the errors of the two roundings cancel, ties go back to 4a because it is even in its last place) and every rounded operation is monotone; witnesses |
| C73, C74 | loop with the 64-entry stack, output as a list of statements (VizModel) | preorder of the subtree by induction; stack bounded by the height; witness of 65 points |
| C75 | same model as C61 | the slab of a box is spanned by its extreme corners, which are points of the box |
| C76 | GridModel with conversions to int and size_t (GridIndexModel), unwritten array elements as None | the chain of divisions bounds the product of the extents; mixed-radix digits; witnesses |
| C77 | the distributed query machine of C33/C34 with distances, radii (DistFloatModel: nextafter on mantissa and exponent) and boxes on SpecFloat | pred D <= D - ulp/2 bounds both rounding errors of the enlarged radius; the empty box saturates the square; monotone rounding for nodes |
| C78 | the loops of isValid and equals on SpecFloat values, NaN and infinities included (ValidModel) | differences of different numbers do not round to zero; the tie at the overflow threshold rounds to even; case analysis on special values |
| C79 | the functors of all reductions (ReduceModel) under arbitrary plans: start, apply, join in any nesting, each iteration once | induction over plans with an invariant on the iterations covered; sums of sub-multisets are bounded by the total |
| C80 | the whole coefficient computation on SpecFloat, double | witnesses |
| C81 | VerifyModel: all checks of verifyDBSCAN on the flat neighbour array, search with explicit stack and fuel | rows as a relation to the flat array, each write changes one row; the search marks exactly the component of its start (visited points closed under edges, fuel bounded by unvisited entries); one representative per component, so labels are unique exactly if they are distinct on representatives; IEEE instance from C67 |
| C82 | the distributed verifyDBSCAN, one record per rank, points as (rank, index) | the same lemmas on rows per rank; witness with two clusters and one label |
| C83 | SurfaceModel: the map of edges, splitting edges and triangles, back to vertices; the point type and the midpoint are parameters | invariant on meshes in edge form (edges unique, triangles share at most one edge, sides per edge); a half has the sides of its edge, an inner edge has two; equivalence of edge form and vertex form |
| C84 | SurfaceGeomModel over `ROps` | barycentric coordinates of the four parts; inner products of the corners of a face are positive; Groebner basis for the rotation |
| C85, C86, C87, C88, C89 | BenchDataModel: batches of writes in any order, the selection loop with its generator, the reader of every rank, the lattice kernel, buildEdges | disjoint writes; loop invariant `samples left <= data left`; mixed-radix digits; edges to smaller vertices connect by induction, then C21 |
| C90, C91, C92 | RaytracingModel: hits as steps of an interleaving, the sort as any permutation with its contract | induction over the interleaving with a closed form per thread; sorted permutations with equal keys are equal; witnesses |
| C93, C94, C95 | MolecularModel: neighbour loops on the compressed array, the reduction under arbitrary plans, writes in any order | antisymmetric double sum; chain rule (Coquelicot); witnesses over Q |
| C96, C97 | DriverModel over Q with conversions to int | cells of ranks as digits; linear arithmetic; witnesses |
| C98 | GridFloatModel: the grid on SpecFloat, conversions to int and size_t may be undefined | Flocq's relative error of a sum and of a quotient for the width of a cell; witnesses, also through the whole program of C24. Away from the faces of the cells: bounds for the computed corners, distances and cell length, unique digits of a cell index, then C24 |
| C99 | SortModel: the early returns, the reduction of C79, BinSort as bins filled in any order and sorted inside | the bins one after the other are a permutation; order between bins from the operator, inside from the sort; C99_codes gives the ascending codes C70 starts from, C70_sorted_points composes the two, with a tree that exists by C01_tree_exists |
| C100 | BenchLoopsModel: the do loop with fuel over a stream of numbers, the merges of C21 | induction over the draws; the last vertex is connected to nothing |
| C101 | ContactModel: place of a rank, the loops over a cube of 5^3 places, the colouring by parity | quotient and remainder are unique; the parity changes by one inside a rank and by four between ranks |
| C102 | ClusterSortModel: count, scan that overwrites the array it reads, fill, with the atomic passes of CrsModel | the rank of a large label among the large labels is its position; then the fill pass of the neighbour lists |
| C103 | ClusterReportModel: the three numbers printed | the lists of C102 are a permutation of the points in large clusters |
| C104 | CustomDistanceModel: the two distances of the example, with the traversal of C05 and the codes of C70 | cases of the clamp; the witness is computed |
| C105 | ExampleOutputModel: points and expected outputs of the DBSCAN and EMST examples; specification DbscanSpec, edge order of EdgeModel | a checker for clusterings of finitely many points, evaluated; uniqueness of sorted permutations |
| C106 | TimerModel: the callbacks with the stack of timers, the search of a label, the regions of the HDBSCAN benchmark | induction on the nesting of the regions |
| C49, C58 | trial division loop (FactorsModel) | induction on fuel; witness |
| C36, C37 | boxes over an abstract arithmetic (GeomOps, BoxModel): order only, or rationals with a rounding after every operation | lattice argument; monotonicity of each rounded step |
| C59 | same model on SpecFloat binary32 | witness |
| C61 | k-DOPs as boxes over their directions (KdopModel) | extreme corner per direction, monotone rounding |
| C57 | box distance, expansion and intersection in SpecFloat (BoxFloatModel), whole program of C34 | one execution of the model |
| C50 | interleaving machine like C01 | invariant |
| C52 | scan over Z | witness + theorem for non-negative k |

Properties that turn out not to be expressible get one line in section 6.

## 4. Findings (disagreements between code and property)

Each of these is a theorem named `…_refuted` with a concrete witness, beside a `_partial` theorem saying what does hold.

| Property | What is wrong | Where |
| --- | --- | --- |
| C06 | the nearest traversal's 64-entry stack can overflow: with equal Morton codes the tree can be deeper than 64 | `ArborX_TreeTraversal.hpp` nearest traversal, fixed-size stack |
| C07 | the ordered traversal reports a value whose own distance is infinite (no hit) when it is the root leaf or its box is hit | `ArborX_TreeTraversal.hpp` ordered traversal |
| C08 | the ordered traversal's fixed-size heap can overflow | same |
| C14 | brute force computes the number of tiles with a float `ceil`; for large sizes a whole tile is lost | `ArborX_BruteForceImpl.hpp` |
| C15 | brute-force nearest can return too few results | `ArborX_BruteForceImpl.hpp` nearest |
| C18 | codes that use the top bit break the hierarchy: in 1-D with Morton64 the ends of the scene get the codes 0 and 2^63 and thread 0 accesses `_ranges(-1)`; in 2-D with Morton32 a node is never initialised and a value is unreachable | `ArborX_MortonCode.hpp`, `ArborX_TreeConstruction.hpp` (delta) |
| C25 | points on the upper face get a cell index one past the last, which wraps into the next row, and `cellBox` returns another cell | `ArborX_CartesianGrid.hpp:51-82` |
| C52 | a negative `k` of a nearest query makes the offsets decrease and the buffer too small | `ArborX_NearestBufferProvider`, CRS nearest query |
| C53 | consequence of C25: DBSCAN with DenseBox splits the points 4, 4, 3.5 of {0, 4, 4, 3.5} with eps = 1, core_min_size = 2 | `ArborX_DBSCAN.hpp:330-480` |
| C54 | a dendrogram of a single point writes `parents(-1)` | `ArborX_DendrogramHelpers.hpp:80` |
| C30, C55 | merge pairs with two targets are rewritten after the local filter, so a link can be lost when the pairs of all ranks are filtered again; a cluster over five ranks is split | `ArborX_DistributedDBSCANHelpers.hpp:499-560`, `615-660` |
| C56 | in-place compaction inside the final pass of a `parallel_scan` reads entries another iteration may have overwritten | `ArborX_DistributedDBSCAN.hpp:107-121` |
| C57 | a box query expanded by the rounded radius plus one ulp of the rounded corner need not reach the value that gave the radius; the neighbour is lost in phase II | `ArborX_DistributedTreeNearestHelpers.hpp:98-121` |
| C59 | in floats the bounding box of a sphere does not cover the points the sphere test accepts, so a tree of spheres can miss what brute force reports | `ArborX_Expand.hpp:78-96`, `ArborX_Intersects.hpp:107-115` |
| C40 | the box-triangle test misses triangles with a vertex inside the box and accepts disjoint ones: one axis uses the wrong coordinate | `ArborX_Intersects.hpp:278-279` |
| C39 | a ray whose direction has a negative zero component is rejected by boxes it passes through | `ArborX_Ray.hpp:135-137` |
| C51 | a segment in the triangle's plane that ends inside the triangle is rejected | `ArborX_Intersects.hpp:503` |
| C60 | a small or distant triangle is reported as hit by rays that miss it by several times its size (absolute tolerances); a ray starting on an edge perpendicular to it misses the triangle | `ArborX_Ray.hpp:352-417` |
| C41 | the ellipsoid-box test in space misses a box corner inside the ellipsoid: face parameters are clamped separately | `ArborX_Intersects.hpp:600-611` |
| C58 | the greedy factorisation is not the closest one (72 = 12 x 6) | `ArborX_DistributedUtils.hpp:25-66` |
| C46 | the pivot search starts from row 0 instead of the pivot row, so an empty column takes a finished row again; a singular matrix can be left without zero row, and the moment matrix of six collinear neighbours with one too few | `ArborX_InterpDetailsMovingLeastSquaresCoefficients.hpp:313` |
| C62 | in float the weight of Buhmann kernels grows with distance near the edge of the support (cancellation, then `abs`) | `ArborX_InterpDetailsCompactRadialBasisFunction.hpp` |
| C63 | the diagonalisation stops at an absolute threshold of epsilon; with small weights the moment matrix is taken as diagonal and linear functions are not reproduced | `ArborX_SymmetricSVD.hpp` |
| C64 | when the distance of two points overflows to infinity no edge is found and `labels` is read at index 2^31-1 | `ArborX_BoruvkaHelpers.hpp:322-323, 417` |
| C71 | when the extent of the scene overflows, the scaled coordinate is inf/inf and a NaN is converted to an integer (undefined) | `ArborX_TranslateAndScale.hpp:30-36`, `ArborX_MortonCode.hpp:318-346` |
| C72 | the centroid of a triangle can lie outside its bounding box by a rounding error; the centroid of a box with large coordinates is infinite | `ArborX_Centroid.hpp:49-82` |
| C73 | drawing a tree overflows a 64-entry stack from 65 points on; a tree of one value reads children that do not exist | `ArborX_TreeVisualization.hpp:134-151` |
| C76 | the cell index along one axis is an `int` while the checks only bound the product of the extents by `size_t`; the constructor with a length per axis asserts on `_h[d]` before it is written | `ArborX_CartesianGrid.hpp:37-46, 59` |
| C80 | in double, three collinear neighbours (degree 1) or six (degree 2) can make the constant 1 interpolate as 0.602 or 0.747: the remainder of a dependent row exceeds the tolerance, the row is kept, and the pseudo-inverse of the singular matrix does not reproduce constants (the assertion at line 162 would fail in a debug build) | `ArborX_InterpDetailsMovingLeastSquaresCoefficients.hpp:117-197` |
| C82 | the distributed verifier accepts labels that join separate clusters, because the uniqueness check is left out | `benchmarks/cluster/ArborX_DBSCANVerification.hpp:529-535` |
| C85 | the last n mod 8 points of a cloud are never written (the views are not initialised) | `ArborXBenchmark_PointClouds.hpp:203-225` |
| C86 | one sample divides by zero | `benchmarks/cluster/data_timpl.hpp:54-60` |
| C87 | remainder modulo the wrong number: points are lost; fewer points than ranks divide by zero | `benchmarks/cluster/data_timpl.hpp:106-125` |
| C90 | lost energy is added to the ray | `examples/raytracing/example_raytracing.cpp:88`, `366` |
| C92 | the error is divided by the value, then compared with the tolerance times the value | `examples/raytracing/example_raytracing.cpp:382-386` |
| C93 | potential energy is assigned instead of accumulated | `examples/molecular_dynamics/example_molecular_dynamics.cpp:194` |
| C95 | offsets of the face centres are .5 with a spacing of 1.7 | `examples/molecular_dynamics/example_molecular_dynamics.cpp:67-92` |
| C96 | the options to skip a search switch it on | `distributed_tree_driver.cpp:318-319` |
| C97 | queries not centred (integer division, and the wrong third); negative shifts overlap | `distributed_tree_driver.cpp:140-146`, `292-295` |
| C98 | in single precision points in a cell can be farther apart than eps, and a point can be outside the box of its cell; DenseBox then joins noise points or misses neighbours, and the check for loss of precision passes | `ArborX_CartesianGrid.hpp:59`, `76-77`, `128-135`, `ArborX_DBSCAN.hpp:340-343` |
| C100 | the union-find benchmark with loops draws vertices modulo the number of edges, not of vertices: the last vertex is never used, and one edge makes it loop for ever | `union_find.cpp:57-59`, `122` |
| C101 | the distributed contact benchmark colours its spheres anew on every rank: two spheres of different ranks that meet are always of the same kind, so at the level of spheres no contact crosses ranks | `distributed_contact.cpp:75`, `109` |
| C103 | the DBSCAN benchmark counts the points of clusters below `--cluster-min-size` as noise points | `dbscan.cpp:222-224` |
| C104 | the custom distance example clamps y to the x-range of the box (`minCorner()[0]`, `maxCorner()[0]`), so its distance to a box is no lower bound and nearest queries can return wrong points | `example_custom_distance.cpp:66-68` |
| C105 | the expected output in the EMST example lists (3, 4) before (1, 2); the two edges have the same length and are printed in the other order | `example_emst.cpp:63-68` |
| C106 | the benchmark timers report only the first region of a label: the HDBSCAN benchmark prints the time of the sided parents for one iteration, and with `--verbose` it aborts if Boruvka's algorithm needs one iteration only | `print_timers.cpp:53-58`, `hdbscan.cpp:69-70`, `ArborX_MinimumSpanningTree.hpp:244-245` |

## 5. Assumptions per theorem

Output of `Print Assumptions` for every theorem named in MANIFEST.json. All axioms below belong to the standard library.

**Closed under the global context** (256 theorems): `C01_every_schedule_builds_valid_tree`, `C01_index_over_any_number_of_values`, `C01_nodes_initialised_once`, `C01_schedule_independent`, `C01_tree_exists`, `C02_bounds_is_hull`, `C02_every_node_is_hull`, `C03_build_then_query`, `C03_spatial_reports_each_match_once`, `C04_early_exit`, `C05_nearest_k_closest`, `C06_32bit_codes_partial`, `C06_distinct_codes_partial`, `C06_refuted`, `C06_small_partial`, `C07_ordered_partial`, `C07_refuted`, `C08_refuted`, `C08_small_partial`, `C09_half_traversal_pairs_once`, `C100_all_vertices_refuted`, `C100_edges`, `C100_one_edge_refuted`, `C101_alternate_refuted`, `C101_contacts`, `C101_places`, `C102_benchmark`, `C102_dbscan`, `C102_finishes`, `C102_sorted`, `C103_noise_refuted`, `C103_report`, `C104_fixed_exact`, `C104_fixed_nearest`, `C104_lower_bound_refuted`, `C104_nearest_refuted`, `C104_output`, `C105_dbscan`, `C105_emst`, `C105_emst_refuted`, `C106_first`, `C106_hdbscan`, `C106_hdbscan_refuted`, `C106_once`, `C10_expand_half_to_full`, `C10_full_list`, `C10_half_list`, `C11_nearest`, `C11_ordered`, `C11_spatial_any_threads`, `C11_spatial_tree`, `C12_sorting_predicates`, `C13_hard_buffer`, `C14_exact_tiles_partial`, `C14_float_count_partial`, `C14_refuted`, `C15_one_loss_partial`, `C15_refuted`, `C16_is_heap`, `C16_make_then_sort`, `C16_pop_heap`, `C16_priority_queue_history`, `C16_push_heap`, `C16_sort_heap`, `C16_top_is_maximal`, `C17_cell_coordinate`, `C17_morton32_interleaves`, `C17_morton64_interleaves`, `C17_morton_injective`, `C17_morton_monotone`, `C17_scaled`, `C17_scaled_exact`, `C18_morton32_2d_refuted`, `C18_morton64_1d_refuted`, `C18_morton64_multi_dim_partial`, `C19_lower_bound`, `C19_nth_element`, `C19_nth_element_end`, `C19_upper_bound`, `C20_apply_permutation`, `C20_permutation_roundtrip`, `C20_run_offsets`, `C21_union_find_computes_components`, `C22_fdbscan_valid`, `C23_dbscan_star_valid`, `C24_densebox_valid`, `C25_grid_cells_partial`, `C25_grid_cells_refuted`, `C26_reorder_dense_first`, `C27_euclidean`, `C27_minimum_spanning_tree`, `C27_mutual_reachability`, `C27_schedule_independent`, `C28_endpoints`, `C28_order`, `C28_total`, `C29_cut`, `C29_single_linkage`, `C30_complete_partial`, `C30_refuted`, `C30_sound_partial`, `C31_counts_offsets`, `C31_injective`, `C31_local_to_global`, `C32_batched_delivery`, `C32_delivery`, `C32_exactly_once`, `C33_spatial`, `C33_spatial_callback`, `C34_nearest`, `C34_tree_answer`, `C35_filterResults`, `C36_expand_least`, `C36_order_independent`, `C36_reduction`, `C36_sphere`, `C36_tree_join`, `C37_attained`, `C37_box_box`, `C37_box_box_exact`, `C37_overlap`, `C37_overlap_exact`, `C37_point_box`, `C37_sphere_box`, `C37_sphere_box_exact`, `C37_tree_queries`, `C38_point_tet`, `C38_point_triangle`, `C38_segment_box`, `C38_segment_segment`, `C38_tet_barycentric`, `C38_triangle_barycentric`, `C39_negative_zero_corner_refuted`, `C39_negative_zero_refuted`, `C39_ray_box`, `C39_ray_box_distance`, `C40_false_negative_refuted`, `C40_false_positive_refuted`, `C40_only_one_axis_wrong_partial`, `C40_other_axes_partial`, `C41_box_2d`, `C41_box_3d_aligned`, `C41_box_3d_refuted`, `C41_box_3d_sound_partial`, `C41_is_sphere`, `C41_segment_2d`, `C41_segment_3d`, `C42_box`, `C42_segment`, `C42_tetrahedron`, `C42_triangle`, `C44_basis`, `C44_size`, `C46_moment_refuted`, `C46_zero_row_refuted`, `C49_closestFactors`, `C50_labels_identify_uniform_subtrees`, `C50_parents_are_the_parents`, `C51_coplanar_refuted`, `C52_nonnegative_partial`, `C52_refuted`, `C53_densebox_on_grid_partial`, `C53_densebox_on_grid_refuted`, `C54_single_point_refuted`, `C55_complete_partial`, `C55_not_valid_refuted`, `C55_refuted`, `C55_sound_partial`, `C56_in_order_partial`, `C56_refuted`, `C57_box_query_refuted`, `C58_closest_refuted`, `C59_sphere_box_refuted`, `C60_false_negative_refuted`, `C60_false_positive_refuted`, `C61_box_around`, `C61_expand_covers`, `C61_join`, `C61_no_false_negative`, `C61_tree`, `C62_buhmann3_refuted`, `C62_monotone_refuted`, `C63_linear_refuted`, `C64_finite_points_refuted`, `C65_dendrogram`, `C65_float_bits`, `C65_single_precision`, `C66_hdbscan`, `C71_boxes_refuted`, `C71_refuted`, `C72_overflow_refuted`, `C72_triangle_refuted`, `C73_distinct_codes_partial`, `C73_height_partial`, `C73_one_value_refuted`, `C73_refuted`, `C73_small_partial`, `C74_graphviz`, `C74_visit_reported`, `C75_box_not_separated`, `C75_directions`, `C75_kdops`, `C76_index_partial`, `C76_int_refuted`, `C76_per_axis_always`, `C76_per_axis_refuted`, `C78_point`, `C79_count`, `C79_count_undefined`, `C79_dense`, `C79_destinations`, `C79_max`, `C79_max_int`, `C79_min`, `C79_minmax`, `C79_minmax_int`, `C79_overflow`, `C79_ranks`, `C80_linear_refuted`, `C80_quadratic_refuted`, `C81_accepts`, `C81_dbscan`, `C81_star`, `C82_mpi`, `C82_refuted`, `C83_ball`, `C83_plane`, `C83_surface`, `C85_all_points_refuted`, `C85_multiple_of_8`, `C85_point_cloud`, `C86_one_sample_refuted`, `C86_sample`, `C87_all_points_refuted`, `C87_few_points_refuted`, `C87_load`, `C88_lattice`, `C88_spacing`, `C89_tree`, `C92_tolerance_refuted`, `C93_sum_refuted`, `C95_fcc_refuted`, `C95_positions`, `C96_inverted`, `C96_options_refuted`, `C97_apart`, `C97_centre_refuted`, `C97_inside`, `C97_negative_refuted`, `C98_densebox_refuted`, `C98_own_box_refuted`, `C99_bins`, `C99_codes`, `C99_integer_keys`, `C99_sort_by_key`, `C99_sort_objects`.

**`Coq.Logic.FunctionalExtensionality.functional_extensionality_dep`, `Coq.Reals.ClassicalDedekindReals.sig_forall_dec`** (2 theorems, real-number statements): `C98_precision_check_refuted`, `C98_same_cell_refuted`.

**`Coq.Logic.FunctionalExtensionality.functional_extensionality_dep`, `Coq.Reals.ClassicalDedekindReals.sig_forall_dec`, `Coq.Reals.ClassicalDedekindReals.sig_not_dec`** (28 theorems, real-number statements): `C43_no_division_by_zero`, `C43_overlap`, `C43_ray_sphere`, `C46_clean_partial`, `C47_inverse`, `C47_moore_penrose`, `C47_similarity`, `C47_terminates`, `C48_clean`, `C48_singular`, `C48_solve`, `C51_segment_triangle_partial`, `C60_coplanar_partial`, `C60_hit_partial`, `C60_no_false_negative`, `C60_ray_triangle_exact`, `C84_ball`, `C84_plane`, `C84_regular`, `C84_rotate`, `C84_same_points`, `C90_deposit`, `C91_same_energies`, `C92_accepts`, `C93_serial`, `C93_term`, `C94_momentum`, `C95_distinct`.

**`Coq.Logic.Classical_Prop.classic`, `Coq.Logic.FunctionalExtensionality.functional_extensionality_dep`, `Coq.Reals.ClassicalDedekindReals.sig_forall_dec`, `Coq.Reals.ClassicalDedekindReals.sig_not_dec`** (41 theorems, real-number statements): `C45_at_zero`, `C45_decreasing`, `C45_even`, `C45_inside`, `C45_support`, `C48_exact`, `C48_reproduces`, `C67_boxes`, `C67_distances`, `C67_points`, `C68_dbscan`, `C69_hdbscan`, `C69_no_overflow`, `C70_boxes`, `C70_codes`, `C70_dbscan`, `C70_hdbscan`, `C70_order`, `C70_points`, `C70_sorted_points`, `C72_box`, `C72_segment`, `C72_tetrahedron`, `C77_empty_rank`, `C77_nearest_point`, `C77_nearest_sphere`, `C77_next`, `C77_spatial_box`, `C77_spatial_sphere`, `C77_sphere_reaches`, `C77_top_tree`, `C78_box`, `C78_equals_box`, `C78_equals_point`, `C78_equals_sphere`, `C78_sphere`, `C81_ieee`, `C90_conservation_refuted`, `C94_gradient`, `C98_densebox_partial`, `C98_width`.

The gate additionally runs `coqchk` on every module; no theorem relies on a type-in-type, guard or positivity exemption.

## 6. Not expressible or not modelled

- **Weak memory.** Kernels are interleavings of atomic steps, each touching one shared cell or performing one Kokkos atomic. Reordering of
  plain stores by the hardware and torn plain accesses are outside the model. Where the code relies on a fence
  (`ArborX_TreeConstruction.hpp`, rope and bounding-volume stores) the model takes it as effective.
- **Kokkos and MPI themselves.** `parallel_for`, `parallel_scan`, `sort`, `BinSort`, `MPI_Alltoall` and point-to-point messages are modelled by
  their documented contracts. Scans and sorts whose *implementation* lives in ArborX are modelled as written.
- **Host/device placement, allocation, labels, profiling regions and template dispatch** have no counterpart.
- **Fixed width of indices.** Array sizes are natural numbers; the bounds on n under which an `int`, a 31-bit packed field or a 64-bit code
  suffices are explicit hypotheses where the code depends on them (C01, C28, C27) and are not modelled elsewhere.
- **Rounding.** Geometry is parametric in a monotone arithmetic (boxes, k-DOPs), exact (Q or R), or bit exact on SpecFloat. Tree queries, DBSCAN
  and HDBSCAN are bit exact from the coordinates to the result (C67-C70, C77, C98). The tests between other shapes (C38, C40-C43), moving least
  squares (C46-C48) and rays against triangles (C51, C60) are proved in exact arithmetic; floats appear there only as witnesses. Every note in
  MANIFEST.json says which one applies.
- **Running time** is covered only as the bound on the number of steps contained in `Kernel`.
