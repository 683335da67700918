{
 "claims": [
  {
   "property": "C01",
   "status": "proved",
   "theorems": [
    "C01_tree_exists",
    "C01_index_over_any_number_of_values",
    "C01_every_schedule_builds_valid_tree",
    "C01_schedule_independent",
    "C01_nodes_initialised_once"
   ],
   "note": "Every interleaving of the construction kernel (sequentially consistent, one shared access per step) for any n >= 2, any sorted codes with a clear top bit, any bounding volume with a least-upper-bound expand."
  },
  {
   "property": "C02",
   "status": "proved",
   "theorems": [
    "C02_bounds_is_hull",
    "C02_every_node_is_hull"
   ],
   "note": "Every node volume and the root volume are hulls, for every interleaving."
  },
  {
   "property": "C03",
   "status": "proved",
   "theorems": [
    "C03_spatial_reports_each_match_once",
    "C03_build_then_query"
   ],
   "note": "Any valid index (0, 1 or more values), any predicate that is monotone with respect to bounding volumes; also composed with construction for every schedule."
  },
  {
   "property": "C04",
   "status": "proved",
   "theorems": [
    "C04_early_exit"
   ],
   "note": "Any callback as a state transformer."
  },
  {
   "property": "C05",
   "status": "proved",
   "theorems": [
    "C05_nearest_k_closest"
   ],
   "note": "Outcome is either the 64-entry stack overflow (see C06) or the k closest values; a one-value tree reports its value unconditionally."
  },
  {
   "property": "C06",
   "status": "partial",
   "theorems": [
    "C06_distinct_codes_partial",
    "C06_32bit_codes_partial",
    "C06_small_partial",
    "C06_refuted"
   ],
   "note": "REFUTED: the statement is false of the code. C06_refuted builds 130 points with 3-D Morton64 codes whose nearest query pushes past the 64-entry stack. The _partial theorems exclude overflow for distinct 64-bit codes, for all 31-bit codes (any n up to 2^31) and for at most 65 values."
  },
  {
   "property": "C07",
   "status": "partial",
   "theorems": [
    "C07_ordered_partial",
    "C07_refuted"
   ],
   "note": "REFUTED: the statement is false of the code. C07_refuted: two boxes missed by the ray, one is reported. C07_ordered_partial proves that the only error is at most one value at infinite distance, reported last."
  },
  {
   "property": "C08",
   "status": "partial",
   "theorems": [
    "C08_small_partial",
    "C08_refuted"
   ],
   "note": "REFUTED: the statement is false of the code. C08_refuted: 132 boxes overflow the 64-entry heap. C08_small_partial: no overflow for at most 64 values."
  },
  {
   "property": "C09",
   "status": "proved",
   "theorems": [
    "C09_half_traversal_pairs_once"
   ],
   "note": "Any valid index, symmetric monotone predicate."
  },
  {
   "property": "C10",
   "status": "proved",
   "theorems": [
    "C10_half_list",
    "C10_full_list",
    "C10_expand_half_to_full"
   ],
   "note": "Every interleaving of the count, fill and copy kernels (one atomic access per step). The half traversal is the one proved in C09. A schedule that does not run the kernels to completion gives the outcome Unfinished and is excluded by hypothesis; no run writes out of bounds."
  },
  {
   "property": "C11",
   "status": "proved",
   "theorems": [
    "C11_spatial_tree",
    "C11_spatial_any_threads",
    "C11_ordered",
    "C11_nearest"
   ],
   "note": "Every interleaving of fetch-add and store steps, every buffer size, every order of the simple loops; tree traversals give callback order, brute force gives it up to order within a slice. The callback is assumed to emit the same values in both passes; ints are unbounded."
  },
  {
   "property": "C12",
   "status": "proved",
   "theorems": [
    "C12_sorting_predicates"
   ],
   "note": "Any two completed runs with any two predicate permutations, buffer sizes and schedules give identical output."
  },
  {
   "property": "C13",
   "status": "proved",
   "theorems": [
    "C13_hard_buffer"
   ],
   "note": "Throws iff some query has more than b results, for every interleaving."
  },
  {
   "property": "C14",
   "status": "partial",
   "theorems": [
    "C14_exact_tiles_partial",
    "C14_float_count_partial",
    "C14_refuted"
   ],
   "note": "REFUTED: the statement is false of the code. The number of tiles is computed as ceil(float(n)/tile), so 2^24+1 values with 4096-value tiles leave the last value untested (C14_refuted). With exact counts, or whenever the rounding is exact up to the count, each pair is tested exactly once (the partial theorems)."
  },
  {
   "property": "C15",
   "status": "partial",
   "theorems": [
    "C15_refuted",
    "C15_one_loss_partial"
   ],
   "note": "REFUTED: the statement is false of the code. BruteForce nearest with k=1 and distances 1,5 reports the value at distance 5 (C15_refuted). C15_one_loss_partial gives what does hold: which values are reported."
  },
  {
   "property": "C16",
   "status": "proved",
   "theorems": [
    "C16_priority_queue_history",
    "C16_top_is_maximal",
    "C16_make_then_sort",
    "C16_sort_heap",
    "C16_push_heap",
    "C16_pop_heap",
    "C16_is_heap"
   ],
   "note": "All heap and priority-queue operations, any strict weak order, any operation history."
  },
  {
   "property": "C17",
   "status": "proved",
   "theorems": [
    "C17_morton32_interleaves",
    "C17_morton64_interleaves",
    "C17_morton_injective",
    "C17_morton_monotone",
    "C17_cell_coordinate",
    "C17_scaled",
    "C17_scaled_exact"
   ],
   "note": "All dimensions 1..10, both widths; integer part bit-exact, coordinate scaling and cell coordinate for any monotone rounding (C17_scaled, C17_cell_coordinate), scaling exact without rounding."
  },
  {
   "property": "C18",
   "status": "partial",
   "theorems": [
    "C18_morton64_1d_refuted",
    "C18_morton32_2d_refuted",
    "C18_morton64_multi_dim_partial"
   ],
   "note": "REFUTED: the statement is false of the code. The two _refuted theorems give bit-exact witnesses (1-D Morton64: out-of-bounds access; 2-D Morton32: lost value). The _partial theorem proves the claim for Morton64 in 2..10 dimensions."
  },
  {
   "property": "C19",
   "status": "proved",
   "theorems": [
    "C19_nth_element",
    "C19_nth_element_end",
    "C19_lower_bound",
    "C19_upper_bound"
   ],
   "note": ""
  },
  {
   "property": "C20",
   "status": "proved",
   "theorems": [
    "C20_apply_permutation",
    "C20_permutation_roundtrip",
    "C20_run_offsets"
   ],
   "note": ""
  },
  {
   "property": "C21",
   "status": "proved",
   "theorems": [
    "C21_union_find_computes_components"
   ],
   "note": "Any number of threads, any merge/merge_into requests, every interleaving (sequentially consistent); bounded steps, no out-of-bounds access."
  },
  {
   "property": "C22",
   "status": "proved",
   "theorems": [
    "C22_fdbscan_valid"
   ],
   "note": "From a valid tree to the final labels: counting query, half traversal, union-find kernel, finalization kernel, noise marking, every interleaving. The distance test is an arbitrary symmetric reflexive relation. FDBSCAN implementation with the atomic union-find."
  },
  {
   "property": "C23",
   "status": "proved",
   "theorems": [
    "C23_dbscan_star_valid"
   ],
   "note": "As C22 for the DBSCAN* variant, including core_min_size = 2."
  },
  {
   "property": "C24",
   "status": "proved",
   "theorems": [
    "C24_densebox_valid"
   ],
   "note": "From the sorted cell indices to the final labels: offsets, reordering, union-find inside dense cells, counting and merging queries on the mixed tree (including the check-then-skip on concurrent union-find state), finalization; every interleaving of every kernel. The grid is a parameter with the contract CellContract (see C25); the distance tests are abstract."
  },
  {
   "property": "C25",
   "status": "partial",
   "theorems": [
    "C25_grid_cells_partial",
    "C25_grid_cells_refuted"
   ],
   "note": "REFUTED on the upper face when an axis is a whole number of cells long (witness: bounds [0,2]^2, h = 1). Partial: proved in exact arithmetic for points below the top face."
  },
  {
   "property": "C26",
   "status": "proved",
   "theorems": [
    "C26_reorder_dense_first"
   ],
   "note": "Every interleaving of the reservations and stores, any cell sizes and threshold."
  },
  {
   "property": "C27",
   "status": "proved",
   "theorems": [
    "C27_minimum_spanning_tree",
    "C27_schedule_independent",
    "C27_euclidean",
    "C27_mutual_reachability"
   ],
   "note": "Whole routine (labels, radii, component nearest neighbours with both optimisations, reduction, edges, relabelling, final renumbering), every interleaving of every kernel, at most log2 n rounds. Weights: any symmetric metric at least as large as the geometric distance and below infinity, ties allowed; the tree must fit the traversal stack (see C06). Result is a minimum spanning tree and the same for all schedules. The HDBSCAN bookkeeping is C65."
  },
  {
   "property": "C28",
   "status": "proved",
   "theorems": [
    "C28_endpoints",
    "C28_order",
    "C28_total"
   ],
   "note": "Every pair of vertices below 2^31: the packed word gives back both end points and the direction; the edge order is the lexicographic order on (weight, unordered pair) and total."
  },
  {
   "property": "C29",
   "status": "proved",
   "theorems": [
    "C29_single_linkage",
    "C29_cut"
   ],
   "note": "Sequential union-find and dendrogramUnionFindHost for every spanning tree: parents are the next merging edge, vertices below a node are exactly its cluster, every edge has exactly two children; cutting at any height gives the threshold components. The key sort is any sorted permutation."
  },
  {
   "property": "C30",
   "status": "partial",
   "theorems": [
    "C30_sound_partial",
    "C30_complete_partial",
    "C30_refuted"
   ],
   "note": "REFUTED: pairs (4,1), (5,3), (5,4) of three ranks leave the linked labels 1 and 3 apart. Partial: sound for all pairs that go down, exact when no label has two targets."
  },
  {
   "property": "C31",
   "status": "proved",
   "theorems": [
    "C31_counts_offsets",
    "C31_local_to_global",
    "C31_injective"
   ],
   "note": "Every rank count and every label vector: offsets are exclusive prefix sums, a converted label is the position of the named point among the points of all ranks, noise stays noise, positions are injective."
  },
  {
   "property": "C32",
   "status": "proved",
   "theorems": [
    "C32_delivery",
    "C32_batched_delivery",
    "C32_exactly_once"
   ],
   "note": "Distributor plan (createFromSends from a list of destinations or from batches, both receive branches: dense all-to-all and graph communicator), permutation of exports and delivery, for every number of ranks, every schedule of the packing kernel and every arrival order of messages. MPI itself is assumed to deliver messages."
  },
  {
   "property": "C33",
   "status": "proved",
   "theorems": [
    "C33_spatial",
    "C33_spatial_callback"
   ],
   "note": "Whole collective program of spatial_queryDispatch (top-tree query, forwarding, bottom-tree query, sending back, merging), for every number of ranks, every schedule of each kernel, every message arrival order, every unstable key sort. The answers of the top and bottom trees enter as what C03/C11 prove about them; the bounds of a rank are assumed to be conservative for the predicate."
  },
  {
   "property": "C34",
   "status": "proved",
   "theorems": [
    "C34_nearest",
    "C34_tree_answer"
   ],
   "note": "Whole two-phase program (top-tree query, truncation, forwarding, radius by nth_element, second top-tree query, forwarding, filter), for every number of ranks, schedule, arrival order and content of the uninitialised radii. Distances in any strict weak order. Trees answer as C03/C05 prove; phase-II predicate assumed to report every nonempty rank whose bounds are within the radius (true by definition for point queries; C57 shows it fails for box queries). C34_not_vacuous exhibits an execution."
  },
  {
   "property": "C35",
   "status": "proved",
   "theorems": [
    "C35_filterResults"
   ],
   "note": "filterResults with its heap, for every candidate list, k and order of queries."
  },
  {
   "property": "C36",
   "status": "proved",
   "theorems": [
    "C36_expand_least",
    "C36_reduction",
    "C36_order_independent",
    "C36_tree_join",
    "C36_sphere"
   ],
   "note": "Least box for expansion by box, point, triangle/segment/tetrahedron vertices over any strict weak order (so for floats without NaN); any reduction tree; instance of the join the tree theorems use. Sphere in exact arithmetic only (see C59 for floats)."
  },
  {
   "property": "C37",
   "status": "proved",
   "theorems": [
    "C37_point_box",
    "C37_box_box",
    "C37_sphere_box",
    "C37_overlap",
    "C37_tree_queries",
    "C37_attained",
    "C37_sphere_box_exact",
    "C37_overlap_exact",
    "C37_box_box_exact"
   ],
   "note": "For every monotone rounding that keeps 0 and is idempotent, with a monotone square root: point-box against point and box, box-box, sphere-box; overlap tests need only the order. Fused multiply-add contraction is not covered."
  },
  {
   "property": "C38",
   "status": "proved",
   "theorems": [
    "C38_triangle_barycentric",
    "C38_point_triangle",
    "C38_tet_barycentric",
    "C38_point_tet",
    "C38_segment_segment",
    "C38_segment_box"
   ],
   "note": "Exact rational arithmetic. Nondegenerate triangles and tetrahedra (degenerate triangles abort); all segments including points and collinear ones; segment-box for any nonempty box. Rounding is not modelled here."
  },
  {
   "property": "C39",
   "status": "partial",
   "theorems": [
    "C39_ray_box",
    "C39_ray_box_distance",
    "C39_negative_zero_refuted",
    "C39_negative_zero_corner_refuted"
   ],
   "note": "REFUTED for negative zeros (C39_negative_zero_refuted: direction component -0; C39_negative_zero_corner_refuted: upper corner -0), in binary32 with integer inputs. Proved for IEEE arithmetic without rounding (signed zeros, infinities, exact rationals): intersects and distance are exact for every non-zero direction whose zeros are positive."
  },
  {
   "property": "C40",
   "status": "partial",
   "theorems": [
    "C40_false_negative_refuted",
    "C40_false_positive_refuted",
    "C40_other_axes_partial",
    "C40_only_one_axis_wrong_partial"
   ],
   "note": "REFUTED in both directions (C40_false_negative_refuted, C40_false_positive_refuted): the block for the axis e_y x bc of the separating-axis test uses the y instead of the x coordinates of a and b. C40_other_axes_partial: the other ten tests never reject a triangle that meets the box. Missing: completeness of the corrected test."
  },
  {
   "property": "C41",
   "status": "partial",
   "theorems": [
    "C41_segment_2d",
    "C41_box_2d",
    "C41_segment_3d",
    "C41_box_3d_sound_partial",
    "C41_box_3d_refuted",
    "C41_is_sphere",
    "C41_box_3d_aligned"
   ],
   "note": "REFUTED for boxes in space (C41_box_3d_refuted): clamping the two face parameters separately misses a box corner inside the ellipsoid. Proved in exact arithmetic: segments (2-D, 3-D), boxes in the plane, boxes in space for axis-aligned ellipsoids, and no false positive for every ellipsoid in space."
  },
  {
   "property": "C42",
   "status": "proved",
   "theorems": [
    "C42_triangle",
    "C42_segment",
    "C42_box",
    "C42_tetrahedron"
   ],
   "note": "Exact arithmetic. Boxes of any dimension, segments, non-collinear triangles (all seven zones of the zone test) and the tetrahedron distance. Coordinates are rationals, so float rounding is not covered; a triangle with a = b makes the code divide 0 by 0."
  },
  {
   "property": "C43",
   "status": "proved",
   "theorems": [
    "C43_no_division_by_zero",
    "C43_ray_sphere",
    "C43_overlap"
   ],
   "note": "Over the real numbers (axioms of Coq's Reals library). The float code computes the root in double; rounding is not covered."
  },
  {
   "property": "C44",
   "status": "proved",
   "theorems": [
    "C44_basis",
    "C44_size"
   ],
   "note": "Every dimension and degree: the slots are the products of the coordinates over the sorted index words of length <= Degree, each word once, and their number is binomial(dim+Degree, Degree)."
  },
  {
   "property": "C45",
   "status": "proved",
   "theorems": [
    "C45_support",
    "C45_even",
    "C45_inside",
    "C45_decreasing",
    "C45_at_zero"
   ],
   "note": "All nine kernels over the reals: 0 outside the support, even, positive value given by the polynomial inside, non-increasing on [0,1], finite at 0. Float behaviour is C62."
  },
  {
   "property": "C46",
   "status": "partial",
   "theorems": [
    "C46_moment_refuted",
    "C46_clean_partial",
    "C46_zero_row_refuted"
   ],
   "note": "REFUTED in exact arithmetic: C46_zero_row_refuted for a 3x3 positive semi-definite matrix, C46_moment_refuted for the moment matrix of six distinct collinear neighbours with the default weights and degree (two of three zero rows found, the matrix left over is singular with the constant outside its range). C46_clean_partial proves the rest over the reals: when no pivot comes from above the pivot row before the rows left are zero, the matrix left over is regular, every dropped monomial is a combination of kept ones at the neighbours, and the constant is kept."
  },
  {
   "property": "C47",
   "status": "proved",
   "theorems": [
    "C47_similarity",
    "C47_terminates",
    "C47_moore_penrose",
    "C47_inverse"
   ],
   "note": "Over the reals: U*ES*U^T = A and U orthogonal after any number of rotations, each rotation lowers the off-diagonal sum so the loop ends, and with zero off-diagonal entries the four Moore-Penrose identities hold for the kept eigenvalues."
  },
  {
   "property": "C48",
   "status": "proved",
   "theorems": [
    "C48_clean",
    "C48_solve",
    "C48_reproduces",
    "C48_exact",
    "C48_singular"
   ],
   "note": "Over the reals: with complete diagonalisation polynomials of the basis are reproduced exactly; when the loop stops at epsilon the error is bounded by a constant times the remaining off-diagonal; after elimination in the singular case the kept monomials are reproduced. C48_clean: the coefficients add up to one in the singular case when row reduction runs clean."
  },
  {
   "property": "C49",
   "status": "proved",
   "theorems": [
    "C49_closestFactors"
   ],
   "note": "Product, positivity, count and descending order; also that trial division terminates. Unbounded integers."
  },
  {
   "property": "C50",
   "status": "proved",
   "theorems": [
    "C50_parents_are_the_parents",
    "C50_labels_identify_uniform_subtrees"
   ],
   "note": "Both kernels: findParents for every order of its stores, reduceLabels for every interleaving of its threads (read, compare-exchange and store are separate steps), on any valid tree with at least two leaves. The two reserved label values are excluded, as the code asserts."
  },
  {
   "property": "C51",
   "status": "partial",
   "theorems": [
    "C51_coplanar_refuted",
    "C51_segment_triangle_partial"
   ],
   "note": "REFUTED for coplanar segments (C51_coplanar_refuted): a segment ending inside the triangle is rejected, because the far end of the overlap is compared with the length. Proved over the reals with zero tolerance: exact for segments not parallel to the triangle's plane."
  },
  {
   "property": "C52",
   "status": "partial",
   "theorems": [
    "C52_refuted",
    "C52_nonnegative_partial"
   ],
   "note": "REFUTED: the statement is false of the code for negative k (k = 3, -3, 3 share a buffer). C52_nonnegative_partial proves it for k >= 0 with a sum below 2^31."
  },
  {
   "property": "C53",
   "status": "partial",
   "theorems": [
    "C53_densebox_on_grid_partial",
    "C53_densebox_on_grid_refuted"
   ],
   "note": "REFUTED: points 0, 4, 4, 3.5 with eps = 1 and core_min_size = 2 are split (exact small numbers, so also in floating point). Partial: valid for every input with no axis a whole number of cells long, in exact arithmetic."
  },
  {
   "property": "C54",
   "status": "partial",
   "theorems": [
    "C54_single_point_refuted"
   ],
   "note": "REFUTED: for a single point (no edges) the dendrogram code writes parents(-1)."
  },
  {
   "property": "C55",
   "status": "partial",
   "theorems": [
    "C55_sound_partial",
    "C55_complete_partial",
    "C55_refuted",
    "C55_not_valid_refuted"
   ],
   "note": "REFUTED: ten points on a line on five ranks, one cluster, come out as two clusters (two points of the same rank within eps get different labels). Partial: for every instance the result never joins what is not connected and labels exactly the noise -1; it is a DBSCAN clustering when no label has two merge targets."
  },
  {
   "property": "C56",
   "status": "partial",
   "theorems": [
    "C56_in_order_partial",
    "C56_refuted"
   ],
   "note": "REFUTED: with four ghosts and the order 2, 1, 0, 3 a labelled ghost is lost. Partial: correct when the iterations run in order."
  },
  {
   "property": "C57",
   "status": "partial",
   "theorems": [
    "C57_box_query_refuted"
   ],
   "note": "REFUTED with an execution of the whole two-phase program in bit-exact single precision: the nearest neighbour of the box [1,2]x[1,2] at x = -2^-33 is lost."
  },
  {
   "property": "C58",
   "status": "partial",
   "theorems": [
    "C58_closest_refuted"
   ],
   "note": "REFUTED: 72 is split into 12 x 6, not 9 x 8. Harmless for correctness (C49 holds)."
  },
  {
   "property": "C59",
   "status": "partial",
   "theorems": [
    "C59_sphere_box_refuted"
   ],
   "note": "REFUTED in bit-exact single precision: centre -1, radius 1, point 2^-33."
  },
  {
   "property": "C60",
   "status": "partial",
   "theorems": [
    "C60_false_positive_refuted",
    "C60_false_negative_refuted",
    "C60_coplanar_partial",
    "C60_hit_partial",
    "C60_ray_triangle_exact",
    "C60_no_false_negative"
   ],
   "note": "REFUTED in both directions in binary64: C60_false_positive_refuted (a ray five units away from a triangle two units wide at distance 16384 is reported as hitting it), C60_false_negative_refuted (ray starting on an edge perpendicular to it). Proved over the reals: exact for non-coplanar rays with zero tolerance; with the code's tolerance no hit is missed when the triangle's angular size is above it. C60_coplanar_partial: with zero tolerance a coplanar ray reports exactly the interval of common points; C60_hit_partial: the hit test is exact for every triangle of non-zero area; both miss triangles with two vertices level with the origin along the main axis of the ray (where the refutation lives)."
  },
  {
   "property": "C61",
   "status": "proved",
   "theorems": [
    "C61_expand_covers",
    "C61_no_false_negative",
    "C61_box_around",
    "C61_join",
    "C61_tree"
   ],
   "note": "All six direction sets, every monotone rounding. Expansion and reduction order are those of C36, a k-DOP being a box over its directions."
  },
  {
   "property": "C62",
   "status": "partial",
   "theorems": [
    "C62_monotone_refuted",
    "C62_buhmann3_refuted"
   ],
   "note": "REFUTED: C62_monotone_refuted, C62_buhmann3_refuted (Buhmann<4> and Buhmann<3> in binary32, near the edge of the support). Over the reals the weights decrease (C45_decreasing)."
  },
  {
   "property": "C63",
   "status": "partial",
   "theorems": [
    "C63_linear_refuted"
   ],
   "note": "REFUTED: C63_linear_refuted (binary32, Wendland<6>, four neighbours on a circle, linear function off by 0.096). Over the reals C48_exact holds."
  },
  {
   "property": "C64",
   "status": "partial",
   "theorems": [
    "C64_finite_points_refuted"
   ],
   "note": "REFUTED: C64_finite_points_refuted (two points 2^70 apart: the distance overflows, no edge is found and labels is read at 2^31-1)."
  },
  {
   "property": "C65",
   "status": "proved",
   "theorems": [
    "C65_dendrogram",
    "C65_float_bits",
    "C65_single_precision"
   ],
   "note": "Whole routine on top of C27: edge mapping, sided parents, vertex parents, keys (bit pattern of the weight under the chain number), any sorting permutation, first-edge fix-up, parents and heights. Weights: any type whose order agrees with a non-negative int bit pattern (C65_float_bits proves it for IEEE single precision without -0, C65_single_precision is the instance). chain_offsets and chain_levels are not modelled (nothing reads them). With equal weights the end points of an edge need not lie below that edge; the claim is about heights and clusters."
  },
  {
   "property": "C66",
   "status": "proved",
   "theorems": [
    "C66_hdbscan"
   ],
   "note": "Composition of C05 (nearest query), C27, C29 and C65 from a built tree (C01) to the dendrogram. Distances, also of a point to itself, are symmetric, non-negative and finite; any strict weak order with ties. k > n uses all points. The nearest query runs once per point (queries are independent, C12)."
  },
  {
   "property": "C67",
   "status": "proved",
   "theorems": [
    "C67_distances",
    "C67_points",
    "C67_boxes"
   ],
   "note": "Bit-exact on SpecFloat for every format (prec, emax); proofs go through Flocq: every value is a rounded and saturated real, infinity standing for 2^emax. Box bounds of the tree carry a proof that they are not NaN, so the C01/C03/C05 theorems apply; as_ibox/as_num are the identity on the values that occur (leaf_box, num_pp, num_pb). Nearest queries either give the k nearest or report the stack overflow of C06; a tree of one leaf is not covered for nearest. Points beyond every finite distance are infinitely far and not reported by nearest."
  },
  {
   "property": "C68",
   "status": "proved",
   "theorems": [
    "C68_dbscan"
   ],
   "note": "Instance of C22/C23 with the float relation of C67. The dense-box variant is C24/C25/C53."
  },
  {
   "property": "C69",
   "status": "proved",
   "theorems": [
    "C69_no_overflow",
    "C69_hdbscan"
   ],
   "note": "Instance of C66 and C65_float_bits with the float distances of C67 and coordinates for which distances stay finite; C69_no_overflow shows |x| <= 2^61 in dimension <= 3 suffices. Outside that range C64 refutes."
  },
  {
   "property": "C70",
   "status": "proved",
   "theorems": [
    "C70_codes",
    "C70_order",
    "C70_points",
    "C70_boxes",
    "C70_dbscan",
    "C70_hdbscan",
    "C70_sorted_points"
   ],
   "note": "Bit-exact on SpecFloat from the coordinates to the sorted codes, with conversions float<->double and the undefined conversion of NaN or out-of-range values as None; then C67/C68, and C69 for HDBSCAN (single precision, finite computed distances, at most 65 points or distinct codes so that its stack of 64 suffices). The sort is any permutation that leaves the codes ascending; C70_sorted_points puts the sort of C99 in its place and shows that a tree is built. Morton64 only; dimension 1 is C18. The iff is for points (C70_codes); for boxes finite extents suffice."
  },
  {
   "property": "C71",
   "status": "partial",
   "theorems": [
    "C71_refuted",
    "C71_boxes_refuted"
   ],
   "note": "REFUTED in both precisions, for points and for boxes whose own extents and centroids are finite; C70_codes gives the exact condition."
  },
  {
   "property": "C72",
   "status": "partial",
   "theorems": [
    "C72_box",
    "C72_segment",
    "C72_overflow_refuted",
    "C72_triangle_refuted",
    "C72_tetrahedron"
   ],
   "note": "REFUTED for triangles and where a sum of corners overflows; proved for boxes, segments and tetrahedra otherwise."
  },
  {
   "property": "C73",
   "status": "partial",
   "theorems": [
    "C73_height_partial",
    "C73_small_partial",
    "C73_distinct_codes_partial",
    "C73_refuted",
    "C73_one_value_refuted"
   ],
   "note": "REFUTED: C73_refuted builds 65 points of the unit cube whose tree overflows the 64-entry stack, C73_one_value_refuted reads past the nodes of a one-value tree. The _partial theorems prove the claim for height at most 63, for 2 to 64 values and for distinct 64-bit codes."
  },
  {
   "property": "C74",
   "status": "proved",
   "theorems": [
    "C74_graphviz",
    "C74_visit_reported"
   ],
   "note": "Statements are compared as data; the text formatting is not modelled. For trees of height at most 63 (see C73)."
  },
  {
   "property": "C75",
   "status": "proved",
   "theorems": [
    "C75_directions",
    "C75_box_not_separated",
    "C75_kdops"
   ],
   "note": "Complements C61: found necessary because an always-true test satisfied C61."
  },
  {
   "property": "C76",
   "status": "partial",
   "theorems": [
    "C76_index_partial",
    "C76_int_refuted",
    "C76_per_axis_refuted",
    "C76_per_axis_always"
   ],
   "note": "REFUTED: the check bounds the product of the extents by size_t but the index along one axis is an int, so 2^32 cells along an axis pass every check and the conversion is undefined; the per-axis constructor asserts on _h before writing it. C76_index_partial proves the claim when no axis has more than 2^31 cells, for points below the upper faces (see C25) and exact coordinates."
  },
  {
   "property": "C77",
   "status": "proved",
   "theorems": [
    "C77_next",
    "C77_sphere_reaches",
    "C77_empty_rank",
    "C77_nearest_point",
    "C77_nearest_sphere",
    "C77_spatial_sphere",
    "C77_spatial_box",
    "C77_top_tree"
   ],
   "note": "Instances of C33 and C34 with every hypothesis about distances and predicates proved for IEEE arithmetic; the answers assumed of the top tree are those of a built tree (C77_top_tree) up to its stack overflow (C06). Box queries of nearest type are refuted in C57. Assumes the distances of the queries to the points are finite."
  },
  {
   "property": "C78",
   "status": "proved",
   "theorems": [
    "C78_point",
    "C78_box",
    "C78_sphere",
    "C78_equals_point",
    "C78_equals_box",
    "C78_equals_sphere"
   ],
   "note": "For every format and dimension, bit-exact. A finite box wider than the overflow threshold is rejected, which the statement says; a box that is one point is rejected by design (the tests of the project ask for it)."
  },
  {
   "property": "C79",
   "status": "proved",
   "theorems": [
    "C79_minmax",
    "C79_min",
    "C79_max",
    "C79_minmax_int",
    "C79_max_int",
    "C79_ranks",
    "C79_destinations",
    "C79_count",
    "C79_count_undefined",
    "C79_dense",
    "C79_overflow"
   ],
   "note": "Kokkos itself is represented by its contract (start from the identity, apply the functor, join). For floating-point views the least element is that of the view and the identity of Kokkos::Min together: C79_infinite_example shows a view of infinities if that identity is the largest finite number. C79_count_undefined: from a sum of 2^31 on the count is undefined for every plan, so the bound of C79_count is exact."
  },
  {
   "property": "C80",
   "status": "partial",
   "theorems": [
    "C80_linear_refuted",
    "C80_quadratic_refuted"
   ],
   "note": "REFUTED in double with the default weights: C80_linear_refuted (three collinear neighbours, degree 1, constant 1 interpolated as 0.602) and C80_quadratic_refuted (six collinear neighbours, default degree 2, 0.747). C48_exact proves it in exact arithmetic for regular moment matrices, C48_singular for singular ones if the matrix left over is regular."
  },
  {
   "property": "C81",
   "status": "proved",
   "theorems": [
    "C81_ieee",
    "C81_dbscan",
    "C81_star",
    "C81_accepts"
   ],
   "note": "The whole verifier on the compressed neighbour array, None for accesses out of bounds and failed assertions, fuel of the search never runs out. Threads of set_neighbors (disjoint rows) run in any sequential order. C81_ieee: with the rows the tree queries return for finite floating-point points (C67); C81_accepts: what FDBSCAN returns (C22, C23, C68) is accepted."
  },
  {
   "property": "C82",
   "status": "partial",
   "theorems": [
    "C82_mpi",
    "C82_refuted"
   ],
   "note": "REFUTED: separate clusters with the same label are accepted, since verifyClustersAreUnique is skipped (a FIXME in the code). C82_mpi: what it accepts is exactly the clusterings up to shared labels."
  },
  {
   "property": "C83",
   "status": "proved",
   "theorems": [
    "C83_surface",
    "C83_ball",
    "C83_plane"
   ],
   "note": "convertTriangles2EdgeForm with its map, subdivide and convertTriangles2VertexForm as written, None for accesses out of bounds and failed assertions; kernels whose threads write different places are sequential. Indices are natural numbers; the edges of the ball number 30*4^r, so int overflows from 14 refinements on."
  },
  {
   "property": "C84",
   "status": "proved",
   "theorems": [
    "C84_regular",
    "C84_same_points",
    "C84_ball",
    "C84_plane",
    "C84_rotate"
   ],
   "note": "Over the real numbers, a > 1 for the golden ratio; rounding of the coordinates is not covered."
  },
  {
   "property": "C85",
   "status": "partial",
   "theorems": [
    "C85_point_cloud",
    "C85_multiple_of_8",
    "C85_all_points_refuted"
   ],
   "note": "REFUTED: with n not a multiple of 8 the last n mod 8 points are never written (C85_all_points_refuted). C85_point_cloud: exactly the points below the last multiple of 8 are, each once, for every order of the batches. Random generators are functions of the index."
  },
  {
   "property": "C86",
   "status": "partial",
   "theorems": [
    "C86_sample",
    "C86_one_sample_refuted"
   ],
   "note": "REFUTED for one sample: division by zero (C86_one_sample_refuted). C86_sample proves the claim for two or more."
  },
  {
   "property": "C87",
   "status": "partial",
   "theorems": [
    "C87_load",
    "C87_all_points_refuted",
    "C87_few_points_refuted"
   ],
   "note": "REFUTED: the remainder is taken modulo the points per rank instead of the number of ranks, so points are lost (C87_all_points_refuted), and fewer points than ranks divide by zero (C87_few_points_refuted). C87_load says exactly what is read."
  },
  {
   "property": "C88",
   "status": "proved",
   "theorems": [
    "C88_lattice",
    "C88_spacing"
   ],
   "note": "Dimensions 2 and 3; integer coordinates (exact in float up to 2^24)."
  },
  {
   "property": "C89",
   "status": "proved",
   "theorems": [
    "C89_tree"
   ],
   "note": "Uses C21 for the union-find; AllowLoops is not modelled."
  },
  {
   "property": "C90",
   "status": "partial",
   "theorems": [
    "C90_deposit",
    "C90_conservation_refuted"
   ],
   "note": "REFUTED: the lost energy is added to the ray instead of subtracted, so a ray of energy 1 leaves more than 1 in two cells of length 1 (C90_conservation_refuted). C90_deposit: closed form of all energies for every interleaving, cells gain what rays gain. Over the reals; path lengths are given (C39, C43 cover the intersection)."
  },
  {
   "property": "C91",
   "status": "proved",
   "theorems": [
    "C91_same_energies"
   ],
   "note": "Over the reals, for distinct entry lengths within a ray; the ordered traversal is represented by its contract (C07, C08)."
  },
  {
   "property": "C92",
   "status": "partial",
   "theorems": [
    "C92_accepts",
    "C92_tolerance_refuted"
   ],
   "note": "REFUTED in binary32 with the constant of the code: 0 passes for 4e6, a relative error below 1e-6 at 1/1024 fails. C92_accepts: the test is relative to the square of the value."
  },
  {
   "property": "C93",
   "status": "partial",
   "theorems": [
    "C93_term",
    "C93_serial",
    "C93_sum_refuted"
   ],
   "note": "REFUTED: the functor assigns instead of adding, so the result depends on how the reduction is split and is not the sum (C93_sum_refuted). C93_term: each term is half the pair potential; C93_serial: a serial run returns one single term."
  },
  {
   "property": "C94",
   "status": "proved",
   "theorems": [
    "C94_gradient",
    "C94_momentum"
   ],
   "note": "Over the reals; the cut-off is a parameter (infinity in the program)."
  },
  {
   "property": "C95",
   "status": "partial",
   "theorems": [
    "C95_positions",
    "C95_distinct",
    "C95_fcc_refuted"
   ],
   "note": "REFUTED: the offsets are .5, not half of the spacing 1.7 (C95_fcc_refuted). C95_positions: every slot written exactly once in every order, C95_distinct: different points for spacings above 1/2."
  },
  {
   "property": "C96",
   "status": "partial",
   "theorems": [
    "C96_options_refuted",
    "C96_inverted"
   ],
   "note": "REFUTED: the flags are used the wrong way round; without arguments neither search runs. C96_inverted says what the code does."
  },
  {
   "property": "C97",
   "status": "partial",
   "theorems": [
    "C97_apart",
    "C97_negative_refuted",
    "C97_inside",
    "C97_centre_refuted"
   ],
   "note": "REFUTED: negative shifts above -1 let the clouds overlap (C97_negative_refuted), and the queries are not centred (C97_centre_refuted; also an integer division). C97_apart: no overlap for shifts of at least 1; C97_inside: queries stay inside the box for shifts between 0 and 1. Exact arithmetic; the rounded root of the number of ranks is a parameter."
  },
  {
   "property": "C98",
   "status": "partial",
   "theorems": [
    "C98_width",
    "C98_same_cell_refuted",
    "C98_precision_check_refuted",
    "C98_own_box_refuted",
    "C98_densebox_refuted",
    "C98_densebox_partial"
   ],
   "note": "REFUTED bit by bit in binary32: three points of magnitude 15 in the plane of which two share a cell and are farther apart than eps (C98_same_cell_refuted), points a fifth farther apart than eps that pass the check for loss of precision (C98_precision_check_refuted), a point outside the box of its cell with a neighbour that misses the box (C98_own_box_refuted), and the whole DenseBox program returning wrong clusters on such inputs (C98_densebox_refuted). C98_width: points that share an index on an axis are at most h * (1 + 5 * 2^-prec * (index + 1)) apart, in float and double. C98_densebox_partial: the whole program in float and double returns a DBSCAN clustering when every point keeps a distance of (DIM + 10) 2^-prec (i + 1) cells from the faces of its cell, coordinates are at most 2^60, eps is between 2^-40 and 2^40 and the constructor accepts; missing: points closer to a face, where the refutations live."
  },
  {
   "property": "C99",
   "status": "proved",
   "theorems": [
    "C99_sort_by_key",
    "C99_sort_objects",
    "C99_bins",
    "C99_integer_keys",
    "C99_codes"
   ],
   "note": "The version without vendor library. Kokkos::BinSort and its bin operator are not in the repository and are represented by their contract (bins respect the order; any placement order; a sort inside the bins); C99_bins shows the contract for the integer operator in exact arithmetic, C99_integer_keys is the instance. Infinite floating-point keys are outside the limits and not covered."
  },
  {
   "property": "C100",
   "status": "partial",
   "theorems": [
    "C100_edges",
    "C100_all_vertices_refuted",
    "C100_one_edge_refuted"
   ],
   "note": "REFUTED: with one edge the loop never ends (C100_one_edge_refuted), and the numbers are drawn modulo the number of edges although there is one vertex more, which is never drawn (C100_all_vertices_refuted). C100_edges: edges join different vertices once an iteration draws two numbers that differ, and the last vertex stays alone in every schedule."
  },
  {
   "property": "C101",
   "status": "partial",
   "theorems": [
    "C101_places",
    "C101_contacts",
    "C101_alternate_refuted"
   ],
   "note": "REFUTED: two predicates on neighbouring ranks can meet (C101_alternate_refuted), because the colouring starts anew on every rank and 5 places per direction are an odd number. C101_places: counts, distinct places, the boundaries filled when the number of ranks is a cube. C101_contacts: inside a rank spheres that meet are of different kinds, on different ranks always of the same kind, so no sphere of one kind meets one of the other kind on another rank. Spheres instead of their triangles, coordinates exact; the boxes of the triangles, which the benchmark searches, are not modelled."
  },
  {
   "property": "C102",
   "status": "proved",
   "theorems": [
    "C102_dbscan",
    "C102_benchmark",
    "C102_sorted",
    "C102_finishes"
   ],
   "note": "C102_sorted: never out of bounds, and when the kernels are done the lists are right; C102_finishes: two steps per point and kernel suffice. The value of `update` in the final pass is the contract of parallel_scan. Overflow of int is not modelled. C102_dbscan: for a valid DBSCAN clustering the lists are its clusters; C102_benchmark: composed with C22, the benchmark from the tree to the lists."
  },
  {
   "property": "C103",
   "status": "partial",
   "theorems": [
    "C103_report",
    "C103_noise_refuted"
   ],
   "note": "REFUTED: with a minimum cluster size above one the points of the clusters left out are printed as noise (C103_noise_refuted). C103_report: what is printed is the number of points outside the listed clusters, which for the default minimum size of one is the number of noise points; the other two numbers are right."
  },
  {
   "property": "C104",
   "status": "partial",
   "theorems": [
    "C104_lower_bound_refuted",
    "C104_nearest_refuted",
    "C104_fixed_exact",
    "C104_fixed_nearest",
    "C104_output"
   ],
   "note": "REFUTED: the example clamps the second coordinate to the range of the first one (C104_lower_bound_refuted), and with four points in the tree of their Morton codes the nearest query returns a point that is not the nearest (C104_nearest_refuted). C104_fixed_exact, C104_fixed_nearest: with the other component the distance is exact and the queries are right. C104_output: on the data of the example the output is as its comment says. Coordinates are integers, without rounding."
  },
  {
   "property": "C105",
   "status": "partial",
   "theorems": [
    "C105_dbscan",
    "C105_emst",
    "C105_emst_refuted"
   ],
   "note": "REFUTED: the comment of the EMST example lists the edge (3, 4) before the edge (1, 2) of the same length, but equal weights are ordered by the smaller vertex, so no sorted list prints that way (C105_emst_refuted); C105_emst gives the order that is printed. C105_dbscan: the four expected outputs of the DBSCAN example are those of every valid clustering (C22). Weights are squared distances, without the formatting; that the five edges are the minimum spanning tree is not proved here."
  },
  {
   "property": "C106",
   "status": "partial",
   "theorems": [
    "C106_first",
    "C106_once",
    "C106_hdbscan",
    "C106_hdbscan_refuted"
   ],
   "note": "REFUTED: get_time returns the first finished region of the label (C106_first), so for the sided parents the HDBSCAN benchmark prints the time of the second Boruvka iteration only, and with a single iteration (two or three points) it aborts because there is no such timer (C106_hdbscan, C106_hdbscan_refuted). C106_once: for regions entered once the time is right. Regions that are not reported are left out of the model."
  }
 ]
}