{"id": "C01", "title": "Tree construction is schedule independent and well formed", "statement": "Whatever order the device threads run in while a BVH over n >= 2 values is built from sorted space-filling-curve codes below 2^63, construction terminates, every thread interleaving produces the same tree, and that tree is a full binary tree whose root covers all n values, each internal node covers a contiguous range split in two non-empty child ranges, and every node has been initialised exactly once.", "quantifier": "for every n >= 2, every sorted code sequence below 2^63 (duplicates allowed) and every interleaving of the atomic steps of the n threads", "why_tests_cant": "A test run sees one schedule and a few code sequences; the claim is over all interleavings and all inputs.", "anchors": ["src/spatial/detail/ArborX_TreeConstruction.hpp: GenerateHierarchy::operator(), delta, setRope, internalIndex", "src/spatial/ArborX_LinearBVH.hpp: BoundingVolumeHierarchy ctor"]}
{"id": "C02", "title": "Every node's bounding volume encloses exactly its values and bounds() is the hull of the input", "statement": "After construction the bounding volume of each node is the union hull of the indexable geometries of exactly the leaves below it (every leaf enclosed, every face touched), and bounds() is the hull of all inputs.", "quantifier": "for every input sequence of boxes, every n and every thread interleaving of the construction", "why_tests_cant": "Missing visibility of a sibling's volume shows only under rare schedules; tests compare bounds() for fixed inputs.", "anchors": ["src/spatial/detail/ArborX_TreeConstruction.hpp: GenerateHierarchy::operator(), initializeSingleLeafTree, calculateBoundingBoxOfTheScene", "src/spatial/ArborX_LinearBVH.hpp: bounds"]}
{"id": "C03", "title": "A spatial query reports every matching value exactly once", "statement": "A spatial query on a BVH invokes the callback exactly once for each stored value whose geometry satisfies the predicate and never for any other value, and terminates following ropes.", "quantifier": "for every tree produced by construction, every predicate that is monotone w.r.t. bounding volumes (holds on an ancestor's volume whenever it holds on a leaf below it)", "why_tests_cant": "Tests check finite point sets; the claim quantifies over all trees and predicates.", "anchors": ["src/spatial/detail/ArborX_TreeTraversal.hpp: TreeTraversal<..., SpatialPredicateTag>::operator()", "src/spatial/detail/ArborX_HappyTreeFriends.hpp: getRope,getLeftChild"]}
{"id": "C04", "title": "Early exit stops a spatial traversal after exactly the requested callback", "statement": "If the callback returns early_exit for some match, no further callback for that query happens; all callbacks before it were matches, each at most once, and when no match asks for exit the full result is visited.", "quantifier": "for every tree, predicate and callback decision history", "why_tests_cant": "Depends on callback history; tests use one callback pattern.", "anchors": ["src/spatial/detail/ArborX_TreeTraversal.hpp: operatorInternalCode", "src/spatial/detail/ArborX_Callbacks.hpp: invoke_callback_and_check_early_exit"]}
{"id": "C05", "title": "k-nearest query returns k closest values in sorted order", "statement": "A nearest query with k >= 1 reports min(k, number of values at finite distance) values, in non-decreasing distance order, and no unreported value is strictly closer than a reported one, provided the traversal stack does not overflow.", "quantifier": "for every tree, every distance that is admissible w.r.t. bounding volumes (node distance <= leaf distance), every k >= 1", "why_tests_cant": "Pruning errors manifest only for special distance configurations; tests cannot enumerate all trees.", "anchors": ["src/spatial/detail/ArborX_TreeTraversal.hpp: TreeTraversal<..., NearestPredicateTag>::operator()", "src/misc/ArborX_PriorityQueue.hpp", "src/misc/ArborX_Heap.hpp: sortHeap"]}
{"id": "C06", "title": "The nearest traversal never overflows its fixed 64-entry stack", "statement": "For every tree a user can build (at most 2^31 values), the k-nearest traversal never pushes more than 64 entries on its stack.", "quantifier": "for every tree that construction can produce, every predicate and k", "why_tests_cant": "Depth of a Morton-code tree with duplicates can exceed 64; tests use balanced random trees.", "anchors": ["src/spatial/detail/ArborX_TreeTraversal.hpp: nearest stack[64]", "src/misc/ArborX_Stack.hpp"]}
{"id": "C07", "title": "Ordered spatial query reports only intersected values, in order", "statement": "An ordered spatial query (e.g. ray) reports exactly the values at finite distance, each once, in non-decreasing distance order until the callback exits early.", "quantifier": "for every tree, every admissible distance function, every callback history", "why_tests_cant": "Requires particular combination of one infinite-distance sibling and empty heap.", "anchors": ["src/spatial/detail/ArborX_TreeTraversal.hpp: TreeTraversal<..., OrderedSpatialPredicateTag>::operator()"]}
{"id": "C08", "title": "Ordered spatial query fits in its 64-entry heap", "statement": "The ordered traversal never holds more pending nodes than its fixed-size 64-entry buffer.", "quantifier": "for every tree construction can produce and every predicate", "why_tests_cant": "Requires an adversarial tree with more than 64 pending siblings.", "anchors": ["src/spatial/detail/ArborX_TreeTraversal.hpp: buffer_type heap[64] of the ordered traversal"]}
{"id": "C09", "title": "Half traversal visits every unordered matching pair exactly once", "statement": "The half traversal used for neighbour lists and DBSCAN* invokes the callback exactly once for each unordered pair of distinct leaves that match, and never pairs a leaf with itself.", "quantifier": "for every tree produced by construction and every symmetric predicate monotone w.r.t. volumes", "why_tests_cant": "Pair coverage depends on the rope structure of the whole tree.", "anchors": ["src/spatial/detail/ArborX_HalfTraversal.hpp: HalfTraversal::operator()"]}
{"id": "C10", "title": "Half and full neighbour lists agree with the distance predicate", "statement": "findHalfNeighborList lists each pair within the radius exactly once, and findFullNeighborList is its symmetric closure: j in list(i) iff i in list(j), without self and duplicates.", "quantifier": "for every tree and every symmetric neighbour predicate, every interleaving of the expansion kernel", "why_tests_cant": "Concurrent expansion order is not controlled by tests.", "anchors": ["src/spatial/detail/ArborX_NeighborList.hpp", "src/spatial/detail/ArborX_ExpandHalfToFull.hpp: expandHalfToFull"]}
{"id": "C11", "title": "CRS query storage holds exactly each query's results for every buffer policy", "statement": "query(tree, predicates, out, offset) returns offsets with offset[i+1]-offset[i] equal to the number of results of query i and the slice holding exactly those results in callback order, whatever the buffer size (none, too small, large enough) and however the threads interleave.", "quantifier": "for every result multiset per query, every buffer policy value, every interleaving", "why_tests_cant": "Each buffer size selects a different code path, underflow/overflow per query are mixed; tests try a few sizes.", "anchors": ["src/spatial/detail/ArborX_CrsGraphWrapperImpl.hpp: queryImpl, InsertGenerator, allocateAndInitializeStorage, toBufferStatus"]}
{"id": "C12", "title": "Sorting predicates does not change the CRS output", "statement": "The CRS output of query i is the same whether or not the predicates were reordered along a space-filling curve before the traversal.", "quantifier": "for every permutation the sort may produce and every per-query result list", "why_tests_cant": "A test sees the one permutation for its data.", "anchors": ["src/spatial/detail/ArborX_CrsGraphWrapperImpl.hpp: queryDispatch, queryImpl", "src/spatial/detail/ArborX_PermutedData.hpp"]}
{"id": "C13", "title": "A hard buffer limit throws exactly when some query exceeds it", "statement": "With a negative (hard) buffer size -b, the query throws iff some query has more than b results; otherwise the output equals the two-pass output.", "quantifier": "for every result count vector and every b >= 1", "why_tests_cant": "Boundary between equal and exceed depends on all counts.", "anchors": ["src/spatial/detail/ArborX_CrsGraphWrapperImpl.hpp: queryImpl"]}
{"id": "C14", "title": "Brute force spatial query evaluates each (query, value) pair exactly once", "statement": "The tiled brute-force search tests each predicate against each value exactly once for every team/tile size.", "quantifier": "for all numbers of queries and values and all tile sizes, with the tile counts computed as the code does", "why_tests_cant": "Tile remainders and float rounding of large sizes can't be enumerated by tests.", "anchors": ["src/spatial/detail/ArborX_BruteForceImpl.hpp: query(SpatialPredicateTag)"]}
{"id": "C15", "title": "Brute force k-nearest returns the k closest values", "statement": "BruteForce nearest query with k >= 1 over n > k values reports k values none of which is farther than an unreported value.", "quantifier": "for every distance sequence and k", "why_tests_cant": "Depends on the relative position of the (k+1)-th value.", "anchors": ["src/spatial/detail/ArborX_BruteForceImpl.hpp: query(NearestPredicateTag)"]}
{"id": "C16", "title": "Priority queue and heap operations preserve order and content", "statement": "push/pop/popPush/pushHeap/popHeap/sortHeap keep the multiset of elements, keep the heap property, pop returns a maximal element for the comparator and sortHeap leaves a sorted permutation.", "quantifier": "for every array content, every strict weak order and every operation history", "why_tests_cant": "History-dependent structure.", "anchors": ["src/misc/ArborX_Heap.hpp", "src/misc/ArborX_PriorityQueue.hpp"]}
{"id": "C17", "title": "Morton codes interleave coordinate bits and preserve per-dimension order", "statement": "The bit-expansion used for Morton codes spreads bit b of coordinate d to bit b*DIM+DIM-1-d, no information is lost, and codes are monotone in each coordinate.", "quantifier": "for every coordinate value below 2^bits, for every supported dimension", "why_tests_cant": "2^64 inputs; magic-constant bit tricks are checked on few values only.", "anchors": ["src/spatial/detail/ArborX_MortonCode.hpp: expandBitsBy, morton32, morton64"]}
{"id": "C18", "title": "Trees built from codes with the top bit set are still valid", "statement": "For any user-selectable space-filling curve (e.g. Morton32 in 2-D, Morton64 in 1-D) construction yields a valid tree reaching every value.", "quantifier": "for every sorted code sequence the curve can produce", "why_tests_cant": "Only special neighbours at sign boundary trigger it.", "anchors": ["src/spatial/detail/ArborX_TreeConstruction.hpp: delta", "src/spatial/detail/ArborX_MortonCode.hpp", "src/spatial/detail/ArborX_SpaceFillingCurves.hpp"]}
{"id": "C19", "title": "nth_element and the binary searches meet their std specification", "statement": "nth_element permutes the range and puts the n-th smallest value in place with smaller values before and larger after; lower_bound/upper_bound return the first not-less/greater position of a sorted range.", "quantifier": "for every array, every position, every comparator/value", "why_tests_cant": "Unbounded inputs; quickselect partition edge cases.", "anchors": ["src/kokkos_ext/ArborX_KokkosExtKernelStdAlgorithms.hpp"]}
{"id": "C20", "title": "Permutation and segment-offset helpers are lossless", "statement": "applyPermutation/applyInversePermutation are inverse to each other, and the offsets computed for an ordered view split it into maximal runs of equal values covering the whole view.", "quantifier": "for every permutation and every grouped view, in any thread order", "why_tests_cant": "Unbounded inputs.", "anchors": ["src/misc/ArborX_SortUtils.hpp: applyPermutation, applyInversePermutation", "src/misc/ArborX_Utils.hpp: computeOffsetsInOrderedView"]}
{"id": "C21", "title": "Concurrent union-find computes the connected components of the merged pairs", "statement": "Whatever the interleaving of reads, compare-and-swaps and path-compression writes, after all merges complete two elements have the same representative iff they are connected by merged pairs; no merge is lost and nothing else is joined.", "quantifier": "for every set of merge requests distributed over any number of threads and every interleaving of their memory operations", "why_tests_cant": "Lost updates occur only in rare interleavings.", "anchors": ["src/cluster/detail/ArborX_UnionFind.hpp: representative, merge, merge_into"]}
{"id": "C22", "title": "FDBSCAN returns a valid DBSCAN clustering", "statement": "For minPts and eps, labels satisfy: two core points have equal labels iff they are eps-density-connected; a border point has the label of some core point within eps; other points are noise (-1).", "quantifier": "for every point set, eps, minPts >= 2 and every interleaving of the union-find operations", "why_tests_cant": "Schedule dependent border assignment and races.", "anchors": ["src/cluster/ArborX_DBSCAN.hpp: dbscan", "src/cluster/detail/ArborX_FDBSCAN.hpp", "src/cluster/detail/ArborX_UnionFind.hpp"]}
{"id": "C23", "title": "DBSCAN* returns connected components of core points", "statement": "With the DBSCAN* variant, non-core points are noise and core points are labelled by connected components of the eps-graph on core points.", "quantifier": "for every point set, eps, minPts and interleaving", "why_tests_cant": "Same as above.", "anchors": ["src/cluster/ArborX_DBSCAN.hpp", "src/cluster/detail/ArborX_FDBSCAN.hpp", "src/spatial/detail/ArborX_HalfTraversal.hpp"]}
{"id": "C24", "title": "DenseBox DBSCAN equals plain DBSCAN when cells are correct", "statement": "Given grid cells of diameter at most eps and cell boxes enclosing their points, the DenseBox implementation yields a valid DBSCAN clustering (same core partition as FDBSCAN).", "quantifier": "for every point set and cell assignment satisfying the grid contract, every interleaving", "why_tests_cant": "Cell skipping depends on concurrent state.", "anchors": ["src/cluster/detail/ArborX_FDBSCANDenseBox.hpp", "src/cluster/ArborX_DBSCAN.hpp"]}
{"id": "C25", "title": "Grid cells group only points within one cell extent and contain them", "statement": "All points mapped to the same grid cell lie in that cell's box, so two points of one cell are at most the cell diagonal apart.", "quantifier": "for every bounding box, cell length and points inside the box", "why_tests_cant": "Boundary points coinciding with the upper corner are rarely tested.", "anchors": ["src/cluster/detail/ArborX_CartesianGrid.hpp: cellIndex, cellBox, buildGrid"]}
{"id": "C26", "title": "Dense/sparse reordering is a permutation with dense cells first", "statement": "reorderDenseAndSparseCells produces a permutation of the points, all dense-cell points first, points of one cell contiguous and labelled by their own cell index, whatever order threads obtain their offsets.", "quantifier": "for every cell-size sequence, threshold and every interleaving of the atomic offset reservations", "why_tests_cant": "Atomic fetch-add order is schedule dependent.", "anchors": ["src/cluster/detail/ArborX_FDBSCANDenseBox.hpp: reorderDenseAndSparseCells"]}
{"id": "C27", "title": "Boruvka rounds build a spanning forest of minimum total weight", "statement": "With distinct (tie-broken) edge order, each Boruvka round adds only edges of the unique minimum spanning tree, never creates a cycle, and the loop ends with n-1 edges in at most log2(n) rounds.", "quantifier": "for every complete weighted graph on n >= 2 vertices (with ties) and every component state", "why_tests_cant": "Tie handling and the merging of mutual edges cannot be exhausted by tests.", "anchors": ["src/cluster/ArborX_MinimumSpanningTree.hpp", "src/cluster/detail/ArborX_BoruvkaHelpers.hpp: FindComponentNearestNeighbors, UpdateComponentsAndEdges"]}
{"id": "C28", "title": "Directed edge comparison is a total order consistent on undirected edges", "statement": "The tie-break on candidate edges orders by weight and then by the unordered endpoint pair so that both endpoints of an edge rank it identically; 64-bit packing preserves that order.", "quantifier": "for every pair of edges with non-negative weights and indices below 2^31", "why_tests_cant": "Bit packing of float weights/ids over all values.", "anchors": ["src/cluster/detail/ArborX_BoruvkaHelpers.hpp: DirectedEdge"]}
{"id": "C29", "title": "Dendrogram parents follow the single-linkage merge order", "statement": "The dendrogram built from MST edges sorted by weight gives each vertex/edge the parent edge that is the one with which its cluster is next merged; parents have non-decreasing heights and there is exactly one root.", "quantifier": "for every tree on n >= 2 vertices with sorted edges", "why_tests_cant": "Unbounded structure.", "anchors": ["src/cluster/detail/ArborX_DendrogramHelpers.hpp: dendrogramUnionFindHost", "src/cluster/ArborX_Dendrogram.hpp: Dendrogram", "src/cluster/ArborX_HDBSCAN.hpp"]}
{"id": "C30", "title": "Distributed DBSCAN merging yields the union of all cross-rank links", "statement": "After merging, two clusters of different ranks have the same final label iff they are linked by a chain of merge pairs.", "quantifier": "for every list of merge pairs", "why_tests_cant": "Only chains through several ranks in a certain order break it.", "anchors": ["src/cluster/detail/ArborX_DistributedDBSCANHelpers.hpp: sortAndFilterMergePairs, relabel, computeMergePairs"]}
{"id": "C31", "title": "Distributed counts, offsets and local-to-global conversion are consistent", "statement": "Counts per rank sum to the number of ghosts, offsets are their exclusive prefix sums, and conversion of local to global labels maps distinct local clusters on one rank to distinct global labels, keeping noise as noise.", "quantifier": "for every rank vector and label vector", "why_tests_cant": "Unbounded inputs.", "anchors": ["src/cluster/detail/ArborX_DistributedDBSCANHelpers.hpp: computeCountsAndOffsets, convertLocalToGlobal"]}
{"id": "C32", "title": "Distributor delivers every item to its destination exactly once, in order", "statement": "After the communication plan is set up from destination ranks, posting delivers to each rank exactly the items destined to it, grouped by source rank and in source order within it.", "quantifier": "for every number of ranks, destination assignment and packet size, every arrival order", "why_tests_cant": "Arrival order and rank counts beyond test MPI sizes.", "anchors": ["src/distributed/detail/ArborX_Distributor.hpp: createFromSends, doPostsAndWaits, sortAndDetermineBufferLayout, determineBufferLayout"]}
{"id": "C33", "title": "Distributed spatial query equals the global query", "statement": "A spatial query on the distributed tree returns for each predicate exactly the values (with owner ranks) over all ranks that satisfy it, each once.", "quantifier": "for every distribution of values over any number of ranks (empty ranks included), every predicate monotone w.r.t. rank bounds", "why_tests_cant": "Number of ranks/distributions unbounded.", "anchors": ["src/distributed/detail/ArborX_DistributedTreeSpatial.hpp", "src/distributed/detail/ArborX_DistributedTreeUtils.hpp: forwardQueries, communicateResultsBack", "src/distributed/ArborX_DistributedTree.hpp"]}
{"id": "C34", "title": "Distributed nearest query equals the global k-nearest query", "statement": "The two-phase distributed nearest search returns for each query min(k, N) values over all ranks such that no unreturned value is closer.", "quantifier": "for every distribution of values over any number of ranks, every k >= 1", "why_tests_cant": "Phase-one radius bound depends on global distribution.", "anchors": ["src/distributed/detail/ArborX_DistributedTreeNearest.hpp: phaseI, phaseII, 2Round", "src/distributed/detail/ArborX_DistributedTreeNearestHelpers.hpp"]}
{"id": "C35", "title": "filterResults keeps the k closest candidates per query", "statement": "Reducing candidates of a query keeps the k (or all if fewer) smallest distances in sorted order.", "quantifier": "for every candidate list and k", "why_tests_cant": "Unbounded inputs.", "anchors": ["src/distributed/detail/ArborX_DistributedTreeUtils.hpp: filterResults"]}
{"id": "C36", "title": "Box expansion is the least enclosing box", "statement": "expand(box, geometry) yields the smallest box containing both; it is commutative, associative and idempotent so parallel reductions are order independent.", "quantifier": "for all boxes, points and spheres, any reduction tree order", "why_tests_cant": "All real inputs and reduction orders.", "anchors": ["src/geometry/algorithms/ArborX_Expand.hpp", "src/geometry/algorithms/ArborX_Reducer.hpp", "src/geometry/ArborX_Box.hpp"]}
{"id": "C37", "title": "Distance to a bounding box never exceeds distance to anything inside, even in floating point", "statement": "The computed point-box distance is at most the computed distance to any point contained in the box and the box-box, sphere-box variants likewise, so pruning with <= never loses a result. Conversely the bounds are attained: the computed point-box distance is that of a point of the box, a sphere meets a box only if it meets a point of it, overlapping boxes have a common point, and the sphere-box distance is never negative and zero on contact.", "quantifier": "for all boxes and points and every monotone rounding of the arithmetic operations", "why_tests_cant": "Rounding corner cases over all floats.", "anchors": ["src/geometry/algorithms/ArborX_Distance.hpp", "src/geometry/algorithms/ArborX_ClosestPoint.hpp", "src/geometry/algorithms/ArborX_Intersects.hpp"]}
{"id": "C38", "title": "Segment, triangle and tetrahedron tests are geometrically exact over exact arithmetic", "statement": "segments intersect iff they share a point; a point is reported in a triangle/tetrahedron iff it is a convex combination of its vertices; barycentric coordinates sum to one and reproduce the point.", "quantifier": "for all non-degenerate (and for segments all) rational inputs", "why_tests_cant": "Collinear/degenerate configurations form an infinite family.", "anchors": ["src/geometry/algorithms/ArborX_Intersects.hpp: point-triangle, point-tet, segment-segment", "src/geometry/algorithms/ArborX_BarycentricCoordinates.hpp"]}
{"id": "C39", "title": "Ray-box test accepts every ray that enters the box", "statement": "intersects(ray, box) is true iff some point origin+t*direction with t>=0 lies in the box, including zero direction components of either sign.", "quantifier": "for all rays and boxes in IEEE single precision with exactly representable intermediate results", "why_tests_cant": "Negative zero directions are easily missed.", "anchors": ["src/geometry/ArborX_Ray.hpp: intersection, intersects"]}
{"id": "C40", "title": "Box-triangle overlap test has no false negatives", "statement": "intersects(box, triangle) in 3-D is true whenever the triangle and the box share a point.", "quantifier": "for all boxes and triangles", "why_tests_cant": "Separating-axis typo only hits one axis family.", "anchors": ["src/geometry/algorithms/ArborX_Intersects.hpp: box-triangle"]}
{"id": "C41", "title": "Ellipsoid-box and ellipsoid-segment tests are exact", "statement": "intersects(ellipsoid, box) is true iff the box contains a point of the ellipsoid (2-D and 3-D); likewise for segments.", "quantifier": "for all positive definite shape matrices and boxes", "why_tests_cant": "Constrained minimizers on faces vary continuously.", "anchors": ["src/geometry/algorithms/ArborX_Intersects.hpp: ellipsoid-box, ellipsoid-segment, intersects_box2d"]}
{"id": "C42", "title": "Closest point functions return a point of the set at minimal distance", "statement": "closestPoint(point, box/segment/triangle) returns a point of the geometry that is at least as close as any other point of it.", "quantifier": "for all inputs (non-degenerate triangle)", "why_tests_cant": "Region case split over all real inputs.", "anchors": ["src/geometry/algorithms/ArborX_ClosestPoint.hpp"]}
{"id": "C43", "title": "Ray-sphere intersection interval is correct", "statement": "For a unit-direction ray the computed [tmin,tmax] is exactly the parameter interval inside the sphere, and overlapDistance is its non-negative part's length; no division by zero happens.", "quantifier": "for all rays and spheres over exact arithmetic", "why_tests_cant": "Tangency and origin-inside cases are measure zero.", "anchors": ["src/geometry/ArborX_Ray.hpp: solveQuadratic, intersection(ray,sphere), overlapDistance"]}
{"id": "C44", "title": "Polynomial basis lists every monomial up to the degree exactly once", "statement": "polynomialBasis<DIM,DEG> writes each monomial of total degree <= DEG exactly once, in the slots counted by polynomialBasisSize.", "quantifier": "for all dimensions, degrees and points", "why_tests_cant": "Dimensions/degrees are template parameters; tests instantiate a few.", "anchors": ["src/interpolation/detail/ArborX_InterpDetailsPolynomialBasis.hpp"]}
{"id": "C45", "title": "Compact radial basis functions vanish at and beyond the support radius and are non-negative inside", "statement": "Each compactly supported RBF is 1-normalised or finite at 0, non-negative on [0,1], and 0 for |x| >= 1.", "quantifier": "for all real arguments and each provided function", "why_tests_cant": "Continuous input.", "anchors": ["src/interpolation/detail/ArborX_InterpDetailsCompactRadialBasisFunction.hpp"]}
{"id": "C46", "title": "Row echelon detection finds singular moment matrices", "statement": "Row reduction of a singular matrix produces a zero row, i.e. singularity is detected and the reduced matrix is in echelon form.", "quantifier": "for all square matrices over exact arithmetic", "why_tests_cant": "Only particular rank patterns trip pivot selection.", "anchors": ["src/interpolation/detail/ArborX_InterpDetailsMovingLeastSquaresCoefficients.hpp: rowEchelonForm, isSingularMatrix"]}
{"id": "C47", "title": "Each Jacobi rotation is an exact similarity and the result is a (pseudo)inverse", "statement": "Each step of the symmetric SVD keeps U*ES*U^T equal to the input matrix with U orthogonal; when off-diagonal entries are zero the produced matrix is the Moore-Penrose inverse (for the kept singular values).", "quantifier": "for all symmetric matrices, any number of iterations over exact real arithmetic", "why_tests_cant": "Continuous inputs and iteration count.", "anchors": ["src/misc/ArborX_SymmetricSVD.hpp"]}
{"id": "C48", "title": "MLS interpolation reproduces polynomials up to its degree", "statement": "If the moment matrix is invertible, the moving-least-squares coefficients interpolate any polynomial in the basis exactly at the target point.", "quantifier": "for all source sets, weights and polynomials of the basis over exact arithmetic", "why_tests_cant": "Continuous inputs.", "anchors": ["src/interpolation/detail/ArborX_InterpDetailsMovingLeastSquaresCoefficients.hpp: coefficientsComputation", "src/interpolation/ArborX_InterpMovingLeastSquares.hpp"]}
{"id": "C49", "title": "closestFactors splits the process count exactly", "statement": "The factors computed for a process grid multiply to the number of processes and each is at least 1.", "quantifier": "for every positive number of processes", "why_tests_cant": "Unbounded input.", "anchors": ["src/distributed/detail/ArborX_DistributedUtils.hpp"]}
{"id": "C50", "title": "Tree node labelling identifies exactly the uniform subtrees", "statement": "After label reduction an internal node carries label L iff all its leaves carry L, else the invalid label, in any thread order; parents found are the true tree parents.", "quantifier": "for every tree, leaf label assignment and interleaving of the bottom-up threads", "why_tests_cant": "Bottom-up race over all schedules.", "anchors": ["src/spatial/detail/ArborX_TreeNodeLabeling.hpp"]}
{"id": "C51", "title": "Segment-triangle test has no false negatives", "statement": "intersects(segment, triangle) in 3-D is true whenever they share a point, including coplanar configurations.", "quantifier": "for all segments and non-degenerate triangles", "why_tests_cant": "Coplanar case rarely tested.", "anchors": ["src/geometry/algorithms/ArborX_Intersects.hpp: segment-triangle", "src/geometry/ArborX_Ray.hpp: ray-triangle"]}
{"id": "C52", "title": "Per-query nearest buffers never overlap", "statement": "The scratch buffers handed to different nearest predicates are disjoint and inside the allocation for any k the user passes.", "quantifier": "for every vector of k values accepted by nearest()", "why_tests_cant": "Mixed negative k only.", "anchors": ["src/spatial/detail/ArborX_NearestBufferProvider.hpp"]}
{"id": "C53", "title": "DenseBox DBSCAN on the grid it builds is a valid clustering", "statement": "With the DenseBox implementation, dbscan() returns a valid clustering for every input: two points within eps, both with at least core_min_size neighbours, get the same label.", "quantifier": "for every finite point set, every eps > 0 and every core_min_size >= 2", "why_tests_cant": "The failure needs an extent that is an exact whole number of cells and a dense cell on the far face; random test data does not produce it.", "anchors": ["src/cluster/ArborX_DBSCAN.hpp: dbscan", "src/cluster/detail/ArborX_CartesianGrid.hpp: cellIndex, cellBox, buildGrid"]}
{"id": "C54", "title": "The dendrogram of a single point can be built", "statement": "Building a dendrogram from the (empty) spanning tree of a single point accesses no array out of bounds.", "quantifier": "for every spanning tree, including the one without edges", "why_tests_cant": "Tests use at least two points; an out-of-bounds write to a host view is not reported in release builds.", "anchors": ["src/cluster/detail/ArborX_DendrogramHelpers.hpp: dendrogramUnionFindHost", "src/cluster/ArborX_Dendrogram.hpp: Dendrogram"]}
{"id": "C55", "title": "Distributed DBSCAN gives a DBSCAN clustering of the points of all ranks", "statement": "Whatever the distribution of the points over the ranks, the global labels form a DBSCAN clustering of all points: two core points have the same label iff they are connected through near core points, border points take the label of a near core point, noise is -1.", "quantifier": "for every number of ranks, every distribution of the points, every result of the local clusterings, every order in which equal keys are sorted", "why_tests_cant": "Only clusters that span five or more ranks in an unlucky numbering break it; tests run on a few ranks with slabs in rank order.", "anchors": ["src/cluster/ArborX_DistributedDBSCAN.hpp: dbscan", "src/cluster/detail/ArborX_DistributedDBSCANHelpers.hpp: computeMergePairs, sortAndFilterMergePairs, relabel"]}
{"id": "C56", "title": "Dropping unlabelled ghosts keeps every labelled one", "statement": "After the in-place compaction of the ghosts, every ghost with a label is still there, whatever the order in which the iterations of the parallel scan run.", "quantifier": "for every list of ghosts and every order of the iterations", "why_tests_cant": "The loss depends on the schedule of the final pass of a parallel_scan; serial and small runs execute it in order.", "anchors": ["src/cluster/ArborX_DistributedDBSCAN.hpp: dbscan (compress ghosts)"]}
{"id": "C57", "title": "Distributed nearest query with a box as query geometry finds its neighbours", "statement": "A distributed nearest query whose geometry is a box returns min(k, N) values over all ranks, as for points: expanding the box by the phase-one radius reaches every value at that distance.", "quantifier": "for every query box, distribution of values and k, in IEEE single precision", "why_tests_cant": "Only coordinates of very different magnitude make the rounded distance smaller than the real one.", "anchors": ["src/distributed/detail/ArborX_DistributedTreeNearestHelpers.hpp: approx_expand_by_radius", "src/distributed/detail/ArborX_DistributedTreeNearest.hpp: phaseII"]}
{"id": "C58", "title": "closestFactors returns the closest factors", "statement": "No other factorisation of the number of processes has its factors closer together than the one closestFactors returns.", "quantifier": "for every positive number of processes, two dimensions", "why_tests_cant": "The greedy choice is optimal for most small numbers.", "anchors": ["src/distributed/detail/ArborX_DistributedUtils.hpp: closestFactors"]}
{"id": "C59", "title": "The bounding box of a sphere covers every point the sphere test accepts", "statement": "If intersects(point, sphere) holds then the point lies in the box that expand(box, sphere) computes, so that a tree of spheres reports what a brute force search reports.", "quantifier": "for all spheres and points in IEEE single precision", "why_tests_cant": "Only a point and a centre of very different magnitudes make the rounded distance smaller than the real one.", "anchors": ["src/geometry/algorithms/ArborX_Expand.hpp: BoxTag, SphereTag", "src/geometry/algorithms/ArborX_Intersects.hpp: SphereTag, PointTag"]}
{"id": "C60", "title": "Ray-triangle test reports exactly the hits", "statement": "intersects(ray, triangle) is true iff some point origin + t*direction with t >= 0 lies in the triangle, and intersection() then returns the parameter of the hit (the interval for coplanar triangles).", "quantifier": "for all rays and all triangles of non-zero area, at any scale", "why_tests_cant": "The fixed tolerances matter only for triangles seen under small angles and for coplanar configurations.", "anchors": ["src/geometry/ArborX_Ray.hpp: intersection(ray, triangle), rotate2D, rayEdgeIntersect"]}
{"id": "C61", "title": "k-DOP bounding volumes are conservative", "statement": "A k-DOP expanded by a box contains all its points, a k-DOP and a box (or k-DOP) with a common point are reported to intersect, and the box around a k-DOP contains its points, so a tree of k-DOPs loses no result of a point or box query.", "quantifier": "for all supported (dimension, k), k-DOPs, boxes and points, in every monotone arithmetic", "why_tests_cant": "All real inputs and rounding of the projections.", "anchors": ["src/geometry/ArborX_KDOP.hpp", "src/geometry/algorithms/ArborX_Expand.hpp: KDOPTag", "src/geometry/algorithms/ArborX_Intersects.hpp: KDOPTag"]}
{"id": "C62", "title": "Interpolation weights decrease with distance in floating point", "statement": "For two neighbours of a target, the farther one never gets a larger radial-basis weight than the nearer one, as computed in single precision.", "quantifier": "for all nine kernels and all pairs of normalised distances in [0,1)", "why_tests_cant": "Needs all pairs of floats; only near the support boundary does cancellation exceed the value itself.", "anchors": ["src/interpolation/detail/ArborX_InterpDetailsCompactRadialBasisFunction.hpp", "src/interpolation/detail/ArborX_InterpDetailsMovingLeastSquaresCoefficients.hpp: phi"]}
{"id": "C63", "title": "Moving least squares reproduce linear functions up to rounding", "statement": "With PolynomialDegree<1> and neighbours in general position, interpolating the values of a linear function returns its value at the target up to rounding errors of the size of the coefficients times epsilon.", "quantifier": "for all kernels and all well-conditioned neighbour configurations, in IEEE single precision", "why_tests_cant": "The diagonalisation stops at an absolute threshold, which only matters when all weights are small.", "anchors": ["src/misc/ArborX_SymmetricSVD.hpp", "src/interpolation/detail/ArborX_InterpDetailsMovingLeastSquaresCoefficients.hpp"]}
{"id": "C64", "title": "Minimum spanning tree of any points with finite coordinates", "statement": "For two or more points with finite coordinates the minimum spanning tree routine makes no access out of bounds and returns a spanning tree.", "quantifier": "for every finite set of points representable in single precision", "why_tests_cant": "Test clouds have moderate coordinates; the squared distance overflows only from about 1.8e19 on.", "anchors": ["src/cluster/detail/ArborX_BoruvkaHelpers.hpp:322-323, 415-428", "src/geometry/algorithms/ArborX_Distance.hpp:53-71"]}
{"id": "C65", "title": "HDBSCAN dendrogram built together with the spanning tree", "statement": "The default HDBSCAN implementation (Boruvka rounds that also record sided parents, then key computation, sorting and reordering) returns the single-linkage dendrogram: a binary tree over the points whose merges never become lower towards the root, and cutting it at any height gives exactly the connected components of the points at mutual reachability distance at most that height. The edges are a minimum spanning tree whose weights are the heights.", "quantifier": "for every point set of 2 to 2^30 points, every symmetric metric not below the geometric distance (ties allowed), both optimisation flags, any uninitialised memory, every interleaving of every kernel and every order of equal keys in the sort", "why_tests_cant": "Tests compare a few inputs with a reference dendrogram on one schedule; wrong chains appear only for particular tie patterns, alpha-edge configurations or thread orders.", "anchors": ["src/cluster/ArborX_MinimumSpanningTree.hpp:170-313", "src/cluster/detail/ArborX_BoruvkaHelpers.hpp:448-730", "src/cluster/ArborX_HDBSCAN.hpp"]}
{"id": "C66", "title": "HDBSCAN from tree to dendrogram, both implementations", "statement": "hdbscan computes as core distance of every point its distance to the k-th nearest point (itself included), uses the greatest of the two core distances and the distance as weight (the plain distance for k <= 1), and returns, by the default implementation and by the spanning tree followed by union-find, a single-linkage dendrogram of all points under that weight: binary, heights not decreasing to the root, and cut at any height it gives the connected components of all pairs not farther than it.", "quantifier": "for every built tree over 2 to 2^30 points that fits the traversal stack, every k, both optimisation flags, any uninitialised memory, every interleaving of every kernel and every order of equal sort keys", "why_tests_cant": "Tests compare two implementations of the same library or a few reference outputs; agreement does not show that the result is the threshold components of all pairs, nor for ties, large k or other schedules.", "anchors": ["src/cluster/ArborX_HDBSCAN.hpp:22-51", "src/cluster/ArborX_MinimumSpanningTree.hpp:43-97", "src/cluster/detail/ArborX_MutualReachabilityDistance.hpp:26-66", "src/cluster/ArborX_Dendrogram.hpp:46-98"]}
{"id": "C67", "title": "Searches in floating point lose nothing, for every finite coordinate", "statement": "With coordinates of any IEEE format the computed distance of two points, and of a point and a node box, is never NaN nor negative, is symmetric, zero for equal points, and never larger for an enclosing box than for what it contains. Hence, on any tree the build can produce, a within query reports exactly the points (boxes) whose computed distance is at most the radius, an overlap query exactly the boxes overlapping the query box, and a nearest query k values of smallest computed distance; also when differences, squares or sums overflow to infinity.", "quantifier": "for every binary format, dimension, list of points or boxes with finite coordinates, sorted code list, build schedule, finite query and radius", "why_tests_cant": "Coordinates of tests are moderate; whether rounding or overflow can make a node look farther than a point in it needs all pairs of floats, in sums of any length.", "anchors": ["src/geometry/algorithms/ArborX_Distance.hpp:44-144", "src/geometry/algorithms/ArborX_Intersects.hpp:48-110", "src/geometry/algorithms/ArborX_Expand.hpp", "src/spatial/detail/ArborX_TreeTraversal.hpp"]}
{"id": "C68", "title": "DBSCAN in floating point", "statement": "FDBSCAN and FDBSCAN* run on points with finite floating-point coordinates return a valid clustering for the relation 'computed distance at most eps', whatever rounds or overflows.", "quantifier": "for every binary format, dimension, finite point list, build schedule, eps >= 0 (also infinite), core_min_size >= 2 and interleaving", "why_tests_cant": "Reference clusterings use the same float tests on few clouds; a node box rejected by one rounding error loses a neighbour only for special coordinates.", "anchors": ["src/cluster/ArborX_DBSCAN.hpp:150-330", "src/geometry/algorithms/ArborX_Distance.hpp:44-144"]}
{"id": "C69", "title": "HDBSCAN in single precision", "statement": "On points with finite single-precision coordinates whose computed distances do not overflow (in particular coordinates of magnitude at most 2^61 in up to three dimensions) hdbscan, by either implementation, returns a single-linkage dendrogram for the computed mutual reachability distances. This is the range in which C64 does not fail.", "quantifier": "for every such set of 2 to 2^30 points, sorted codes, build schedule, k, both optimisation flags, any uninitialised memory, every interleaving and every order of equal sort keys", "why_tests_cant": "It combines all floats of a 2^62 range with all schedules; the boundary where distances overflow (C64) is far from test data.", "anchors": ["src/cluster/ArborX_HDBSCAN.hpp:22-51", "src/cluster/detail/ArborX_BoruvkaHelpers.hpp:41-440", "src/geometry/algorithms/ArborX_Distance.hpp:44-144"]}
{"id": "C70", "title": "From floating-point coordinates to a correct tree", "statement": "Given finite points or boxes of single or double precision in 2 to 10 dimensions, the constructor's steps before the hierarchy (bounding box of the scene by any reduction order, centroids, scaling, Morton64 codes) are defined and yield codes below 2^63 that follow the order of the coordinates, exactly if no extent of the scene overflows. With whatever order the sort leaves equal codes in and whatever schedule builds the hierarchy, within, overlap and nearest queries and DBSCAN on the resulting tree are right. So is HDBSCAN for points of single precision with finite computed distances, if there are at most 65 points or no two codes agree.", "quantifier": "for both precisions, every dimension 2..10, every finite list, every reduction tree, every sorting permutation, every build schedule, every query", "why_tests_cant": "Rounding of every intermediate, all reduction orders and all float values up to the overflow boundary; the conversion to an integer is undefined only for coordinates no test uses.", "anchors": ["src/spatial/ArborX_LinearBVH.hpp:217-245", "src/spatial/detail/ArborX_TreeConstruction.hpp:26-60", "src/spatial/detail/ArborX_SpaceFillingCurves.hpp:30-85", "src/spatial/detail/ArborX_MortonCode.hpp:310-360", "src/geometry/algorithms/ArborX_TranslateAndScale.hpp:25-40"]}
{"id": "C71", "title": "Building is defined for all finite coordinates", "statement": "The construction of the tree from any finite points or boxes has no undefined behaviour. (False: when an extent of the scene overflows, the scaled coordinate is inf/inf and a NaN is converted to an unsigned integer.)", "quantifier": "for every finite list of points or boxes", "why_tests_cant": "Needs coordinates whose difference exceeds the largest float.", "anchors": ["src/geometry/algorithms/ArborX_TranslateAndScale.hpp:25-40", "src/spatial/detail/ArborX_MortonCode.hpp:318-346"]}
{"id": "C72", "title": "Computed centroids lie in their geometries", "statement": "The centroid computed for a box, segment, triangle or tetrahedron lies in its bounding box. (True for boxes, segments and tetrahedra as long as the sums do not overflow, false beyond; false for triangles: a triangle in the plane x = 16777214 has its centroid at x = 16777213.)", "quantifier": "for both precisions, every dimension, every finite box, segment or tetrahedron", "why_tests_cant": "Tests compare with a tolerance; that two roundings never leave the interval concerns all pairs of floats, subnormals included.", "anchors": ["src/geometry/algorithms/ArborX_Centroid.hpp:49-125"]}
{"id": "C73", "title": "Tree visualization visits every node once", "statement": "visitAllIterative passes every node of the tree to the visitor exactly once, a parent before its children. (False: its stack is a StaticVector of 64 entries. 65 points with only two equal codes overflow it, and a tree of one value reads children that do not exist. True for trees of height at most 63: two to 64 values, or any number with distinct codes.)", "quantifier": "for every tree", "why_tests_cant": "The overflow needs a tree that is split again on the right at each of the 63 bits of the code; random points never produce it.", "anchors": ["src/spatial/detail/ArborX_TreeVisualization.hpp:134-151", "src/misc/ArborX_Stack.hpp:26", "src/misc/ArborX_Containers.hpp:47"]}
{"id": "C74", "title": "The Graphviz output describes exactly the tree", "statement": "There is exactly one node statement per value and per internal node, all labels differ, every label but the root's is the target of exactly one edge, and the edges are exactly the parent-child pairs; for a nearest query the visitor gets the leaf node of each reported value.", "quantifier": "for every tree of height at most 63 over distinct values and every order of the permutation kernel", "why_tests_cant": "Output is not compared by any test; all trees are meant.", "anchors": ["src/spatial/detail/ArborX_TreeVisualization.hpp:36-105", "src/spatial/detail/ArborX_TreeVisualization.hpp:153-207"]}
{"id": "C75", "title": "k-DOP tests reject what a direction separates", "statement": "The directions of a k-DOP are k/2 different ones, no two opposite. If a k-DOP and a box are reported to intersect then no direction separates them, and two k-DOPs are reported to intersect exactly when their slabs overlap along every direction.", "quantifier": "for all supported (dimension, k), k-DOPs and boxes, in every monotone arithmetic", "why_tests_cant": "All real inputs and rounding of the projections.", "anchors": ["src/geometry/ArborX_KDOP.hpp:32-137", "src/geometry/algorithms/ArborX_Intersects.hpp:318-368"]}
{"id": "C76", "title": "Grid cell indices are computed without overflow once the constructor's checks pass", "statement": "If the constructor of the regular grid returns normally, the number of cells fits in size_t and the index of every point in the bounds is computed without overflow, lies below the number of cells and is the same for two points exactly when they have the same cell coordinates. The constructor taking a cell length per axis reads only values that were written.", "quantifier": "for all bounds, cell lengths and points", "why_tests_cant": "Tests use small grids; the failing ones have billions of cells along an axis.", "anchors": ["src/cluster/detail/ArborX_CartesianGrid.hpp:30-63", "src/cluster/detail/ArborX_CartesianGrid.hpp:88-142"]}
{"id": "C77", "title": "Distributed searches are correct in floating point", "statement": "With every distance, radius and overlap test computed in the arithmetic of the coordinates, spatial queries (spheres, boxes) and nearest queries (points, spheres) on a distributed tree of points with finite coordinates return exactly what the values of all ranks together require: the top tree never drops a rank that holds a needed value. The enlarged sphere of the second phase reaches every box whose computed distance is within the radius, and a rank without values is infinitely far.", "quantifier": "for all IEEE formats (wide enough for the empty box: emax >= 2 prec), ranks, finite points whose distances do not overflow, queries and schedules", "why_tests_cant": "A rank lost by one rounding error needs particular coordinates; tests compare few points on few ranks.", "anchors": ["src/distributed/detail/ArborX_DistributedTreeNearest.hpp", "src/distributed/detail/ArborX_DistributedTreeNearestHelpers.hpp:80-140", "src/distributed/detail/ArborX_DistributedTreeSpatial.hpp", "src/geometry/algorithms/ArborX_Distance.hpp"]}
{"id": "C78", "title": "isValid and equals are exact in floating point", "statement": "isValid accepts a point exactly if all coordinates are finite, a box exactly if all corners are finite, the minimum is below the maximum along every axis and no extent rounds to infinity (extents below 2^emax - 2^(emax-prec-1)), and a sphere exactly if its centre is finite and its radius is finite and not negative. equals holds exactly if all coordinates are the same real numbers or infinities and none is NaN; in particular +0 equals -0 and a geometry with a NaN is not equal to itself.", "quantifier": "for all IEEE formats, dimensions and coordinates, NaN and infinities included", "why_tests_cant": "Tests check a dozen values in one format; subnormal extents and extents at the overflow threshold are not among them.", "anchors": ["src/geometry/algorithms/ArborX_Valid.hpp:36-79", "src/geometry/algorithms/ArborX_Equals.hpp:36-73"]}
{"id": "C79", "title": "Parallel reductions do not depend on how the work is split", "statement": "minmax_reduce, min_reduce and max_reduce return the least and greatest element of a nonempty view (for int, whose identities bound every value; in general, of the view together with the identity); the overflow flag, the number of results and the number of points in dense cells are the sequential ones and no int overflow occurs if the total fits.", "quantifier": "for all views and all ways to split the iterations among threads and to combine partial results", "why_tests_cant": "Tests run with one split on one backend; the functor that assigns instead of adding is right only because of how its result is used.", "anchors": ["src/kokkos_ext/ArborX_KokkosExtMinMaxReduce.hpp:23-113", "src/spatial/detail/ArborX_CrsGraphWrapperImpl.hpp:184-208", "src/cluster/detail/ArborX_FDBSCANDenseBox.hpp:236-248", "src/distributed/detail/ArborX_Distributor.hpp:166-172", "src/distributed/detail/ArborX_Distributor.hpp:252-262"]}
{"id": "C80", "title": "Constants are interpolated as constants, also from degenerate neighbours", "statement": "If all source values are 1, the value interpolated by moving least squares is 1 up to rounding, also when the neighbours of the target are collinear or otherwise degenerate (dropping dependent monomials is meant to ensure it).", "quantifier": "for all targets, neighbours, degrees and weight functions, in double precision", "why_tests_cant": "Whether a dependent monomial is dropped depends on rounding errors of a row reduction; about one in 10^4 small integer configurations is affected, and the order of the neighbours matters.", "anchors": ["src/interpolation/detail/ArborX_InterpDetailsMovingLeastSquaresCoefficients.hpp:117-197", "src/interpolation/detail/ArborX_InterpDetailsMovingLeastSquaresCoefficients.hpp:302-347", "src/misc/ArborX_SymmetricSVD.hpp:230-253"]}
{"id": "C81", "title": "The DBSCAN verifier accepts exactly the clusterings", "statement": "verifyDBSCAN, on which the tests and the benchmarks rely, returns true exactly if the labels are a DBSCAN (DBSCAN*) clustering: core points have nonnegative labels, the same exactly if they are density-connected; a border point has the label of a core point near it (-1 for DBSCAN*); noise has label -1. It makes no access out of bounds, its depth-first search ends, and its assertions hold. With finite floating-point coordinates the neighbours its queries return are the right ones.", "quantifier": "for every number of points, symmetric and reflexive neighbour relation, labels, order of the neighbours of a point, order of the threads", "why_tests_cant": "A verifier that accepts too much makes every test that uses it pass; there is no second verifier to compare with, and wrong labels that slip through are by construction not noticed.", "anchors": ["benchmarks/cluster/ArborX_DBSCANVerification.hpp:81-346", "benchmarks/cluster/ArborX_DBSCANVerification.hpp:361-429"]}
{"id": "C82", "title": "The distributed DBSCAN verifier accepts exactly the clusterings", "statement": "The distributed verifyDBSCAN returns true, on all ranks, exactly if the labels are a DBSCAN clustering of the points of all ranks.", "quantifier": "for every number of ranks and of points per rank, neighbour relation, labels, orders of neighbours and threads", "why_tests_cant": "Clusters wrongly joined under one label pass the verifier, and with it the tests.", "anchors": ["benchmarks/cluster/ArborX_DBSCANVerification.hpp:431-545"]}
{"id": "C83", "title": "The surface generator makes closed connected triangulations, however often it refines", "statement": "buildTriangles never reads or writes out of bounds, its assertions hold, and its result is a triangulated surface: three different corners per triangle, all vertices in range and used, no triangle twice, no side in more than two triangles. The ball is closed (every side in exactly two triangles) and connected, with 10*4^r+2 vertices and 20*4^r triangles; the plane is connected, with (3*2^r+1)^2 vertices and 18*4^r triangles. The same holds for any initial surface.", "quantifier": "for every number of refinements, every initial surface, every point type and midpoint", "why_tests_cant": "A missing or doubled edge shows as a hole or a wrong distance only for points next to it; the benchmark prints times, never checks the surface, and the number of triangles grows by four with every refinement.", "anchors": ["benchmarks/triangulated_surface_distance/generator.hpp:28-163", "benchmarks/triangulated_surface_distance/generator.hpp:173-242", "benchmarks/triangulated_surface_distance/generator.hpp:297-321"]}
{"id": "C84", "title": "The icosahedron is regular, refining keeps the surface, projecting puts all vertices on the sphere, rotating keeps distances", "statement": "In exact arithmetic all triangles of the icosahedron are equilateral with sides of length 2 (a being the golden ratio), the refined triangles cover exactly the points the initial triangles cover (the plane is the square [0,3]^2); after the projection every vertex of the ball has distance radius from the centre, no norm being zero; the rotation keeps the distance of any two points, keeps the axis (1,-1,0) and turns by the angle.", "quantifier": "for every number of refinements, every surface, every point, radius and angle", "why_tests_cant": "There are infinitely many points on a surface; a division by a zero norm happens only if a refinement hits the centre.", "anchors": ["benchmarks/triangulated_surface_distance/generator.hpp:187-201", "benchmarks/triangulated_surface_distance/generator.hpp:244-285"]}
{"id": "C85", "title": "Point cloud generation writes every point", "statement": "generatePointCloud gives every point of the view a random point of the shape: the threads write disjoint batches and all points are covered.", "quantifier": "for every number of points and every order of the batches", "why_tests_cant": "The tests and benchmarks use counts that are multiples of 8; the points left out are uninitialised memory and look plausible.", "anchors": ["benchmarks/utils/ArborXBenchmark_PointClouds.hpp:182-225"]}
{"id": "C86", "title": "sampleData takes exactly the number of samples asked for", "statement": "For any positive number of samples smaller than the number of data, sampleData returns that many, each datum at most once and in order, whatever the random numbers.", "quantifier": "for all data and numbers of samples", "why_tests_cant": "Knuth's selection with one fixed generator; the loop bound and a division depend on the number of samples, and benchmarks use one value.", "anchors": ["benchmarks/cluster/data_timpl.hpp:35-62", "benchmarks/cluster/data_timpl.hpp:366-374"]}
{"id": "C87", "title": "The distributed reader loads every point exactly once", "statement": "The ranks of loadData together read all points asked for, each once and in order.", "quantifier": "for every file, limit and number of ranks", "why_tests_cant": "Lost points leave a smaller data set that clusters just as well; no test has a file.", "anchors": ["benchmarks/cluster/data_timpl.hpp:95-125", "benchmarks/cluster/data_timpl.hpp:383-406"]}
{"id": "C88", "title": "The generated distributed data is one lattice", "statement": "generateDistributedData: the points of all ranks together are all points of one lattice, each once; neighbouring positions are at distance 1 within a sequence and at the given spacing between sequences.", "quantifier": "for every number of ranks, size, sequence length, spacing and order of the iterations", "why_tests_cant": "The number of ranks, dimensions and iteration orders is unbounded; the clusters expected of the benchmark depend on it.", "anchors": ["benchmarks/cluster/mpi/distributed_data.hpp:21-90"]}
{"id": "C89", "title": "The union-find benchmark without loops builds a tree", "statement": "Without loops, buildEdges joins every vertex to a smaller one after a permutation, so the edges are a spanning tree and the union-find finds a single component, in every schedule.", "quantifier": "for every number of edges, random numbers, permutation and interleaving", "why_tests_cant": "A cycle would leave two components for particular random numbers only; the benchmark checks nothing.", "anchors": ["benchmarks/union_find/union_find.cpp:65-101", "benchmarks/union_find/union_find.cpp:137-144"]}
{"id": "C90", "title": "The ray tracing example conserves energy", "statement": "The energy the rays deposit in the cells is the energy they lose: the total deposited never exceeds what the rays started with, in every interleaving of the threads; the deposits are those of the exponential law.", "quantifier": "for every number of rays and cells, all path lengths and every interleaving of the atomic additions", "why_tests_cant": "The example compares its two approaches with each other; both have the same error.", "anchors": ["examples/raytracing/example_raytracing.cpp:45-49", "examples/raytracing/example_raytracing.cpp:75-92", "examples/raytracing/example_raytracing.cpp:355-369"]}
{"id": "C91", "title": "Both approaches of the ray tracing example deposit the same energies", "statement": "Visiting the cells by an ordered traversal and sorting all hits by ray and entry length give the same energy in every cell.", "quantifier": "for every set of hits with distinct entry lengths per ray, every permutation a sort may return, every interleaving", "why_tests_cant": "The sort may return any of many permutations, and the order of the atomic additions changes from run to run.", "anchors": ["examples/raytracing/example_raytracing.cpp:123-150", "examples/raytracing/example_raytracing.cpp:300-369"]}
{"id": "C92", "title": "The comparison of the ray tracing example uses a relative tolerance", "statement": "The comparison counts an error exactly when the relative difference of the two energies of a cell exceeds 1e-5.", "quantifier": "for all energies", "why_tests_cant": "The run of the example passes whenever the values agree to the last digits.", "anchors": ["examples/raytracing/example_raytracing.cpp:376-393"]}
{"id": "C93", "title": "The molecular dynamics example adds up the potential energy", "statement": "The reduction returns the sum of the terms of all pairs of neighbours, each half the pair potential, however Kokkos splits the iterations.", "quantifier": "for all particles, neighbour lists and ways to split the reduction", "why_tests_cant": "The value is never printed or checked, and depends on the number of threads.", "anchors": ["examples/molecular_dynamics/example_molecular_dynamics.cpp:168-198"]}
{"id": "C94", "title": "The forces of the molecular dynamics example are a gradient and keep the momentum", "statement": "The force of a neighbour is minus the gradient of the pair potential r^-12/12 - r^-6/6; the force on a particle is the sum over its neighbours within the cut-off; all forces add up to zero, and the update keeps the total momentum.", "quantifier": "for all particles at different places, symmetric neighbour lists, cut-offs and time steps", "why_tests_cant": "The example checks nothing; a wrong sign or factor only changes the trajectory.", "anchors": ["examples/molecular_dynamics/example_molecular_dynamics.cpp:128-166", "examples/molecular_dynamics/example_molecular_dynamics.cpp:200-211"]}
{"id": "C95", "title": "The molecular dynamics example starts from a face-centred cubic lattice", "statement": "Every slot of the uninitialised view is written by exactly one iteration, all particles are at different points, and they form a face-centred cubic lattice.", "quantifier": "for all numbers of cells and every order of the writes", "why_tests_cant": "The example checks nothing; a slot written twice or never shows as a particle at a strange place.", "anchors": ["examples/molecular_dynamics/example_molecular_dynamics.cpp:64-93"]}
{"id": "C96", "title": "The options of the distributed benchmark skip the searches they name", "statement": "do-not-perform-knn-search and do-not-perform-radius-search skip the search they name, and nothing else does.", "quantifier": "for all combinations of options", "why_tests_cant": "The benchmark runs and prints times in either case.", "anchors": ["benchmarks/distributed_tree_driver/distributed_tree_driver.cpp:300-301", "benchmarks/distributed_tree_driver/distributed_tree_driver.cpp:318-320"]}
{"id": "C97", "title": "The clouds and queries of the distributed benchmark are where its help says", "statement": "With a shift of at least 1, or a negative one, the clouds of different ranks do not overlap; with shift-queries, the queries are in a box of a third of the size in the centre of the box of all clouds.", "quantifier": "for every number of ranks, dimension 1 to 3, shift, scale and random numbers", "why_tests_cant": "The geometry shows only in the timings; it depends on the number of ranks.", "anchors": ["benchmarks/distributed_tree_driver/distributed_tree_driver.cpp:43-148"]}
{"id": "C98", "title": "DenseBox in floating point", "statement": "With single or double precision coordinates, any two points in the same cell of the DenseBox grid are within eps of each other, a point within eps of a point of a cell is within eps of the box of the cell, and therefore DenseBox returns the DBSCAN clusters whenever the constructor of the grid accepts the input.", "quantifier": "for all finite points and eps accepted by the constructor", "why_tests_cant": "The errors are in the last digit of particular coordinates, and every label is still plausible; the constructor's own comment admits that its check was found by experiment.", "anchors": ["src/cluster/detail/ArborX_CartesianGrid.hpp:49-136", "src/cluster/ArborX_DBSCAN.hpp:333-346"]}
{"id": "C99", "title": "Sorting by key", "statement": "sortByKey leaves the keys ascending and moves keys and values by one and the same permutation, and sortObjects returns that permutation; the bin operator is never built for an empty range or without bins.", "quantifier": "for all numbers of keys, all keys within the numeric limits of their type, all splits of the reduction, all orders in which the threads fill the bins and all bin operators that respect the order", "why_tests_cant": "The order inside bins depends on the schedule, and the two early returns (no keys, all keys equal) guard a division by zero that needs special keys to show.", "anchors": ["src/kokkos_ext/ArborX_KokkosExtSort.hpp:79-110", "src/misc/ArborX_SortUtils.hpp:25-45", "src/kokkos_ext/ArborX_KokkosExtMinMaxReduce.hpp:36-58"]}
{"id": "C100", "title": "The union-find benchmark with loops", "statement": "With loops, buildEdges ends for every number of edges, and every edge joins two different vertices out of all vertices of the benchmark.", "quantifier": "for every number of edges, all random numbers, orders of the iterations and interleavings of the merges", "why_tests_cant": "The isolated vertex changes no output of the benchmark, and the loop that never ends needs a size nobody runs.", "anchors": ["benchmarks/union_find/union_find.cpp:40-63", "benchmarks/union_find/union_find.cpp:121-144"]}
{"id": "C101", "title": "The distributed contact benchmark sets up contacts", "statement": "Every rank places 48 primitive and 50 predicate spheres, no place is used twice, together they fill the boundaries of the cubes, and any two spheres that meet are a primitive and a predicate, so that the search finds all contacts.", "quantifier": "for every number of ranks, every result of the cube root that is at least one, all ranks and all spheres", "why_tests_cant": "The benchmark reports times only; that no contact crosses from one rank to another shows in no output.", "anchors": ["benchmarks/distributed_contact/distributed_contact.cpp:74-123", "benchmarks/distributed_contact/unit_sphere.txt"]}
{"id": "C102", "title": "Clusters are sorted and filtered correctly", "statement": "Sorting and filtering the clusters of a clustering returns offsets and indices that list, for the clusters of at least the minimum size in order of their labels, each of their points once; no access is out of bounds and the element of the offsets that is never written does not matter.", "quantifier": "for all labels below the number of points, all minimum sizes of at least one, all orders of the scan and all schedules of the two atomic kernels", "why_tests_cant": "The kernels write through atomically incremented positions and the scan overwrites the array it reads; a test sees a few schedules on a few inputs.", "anchors": ["benchmarks/cluster/dbscan.cpp:46-144"]}
{"id": "C103", "title": "The DBSCAN benchmark prints the numbers of clusters, cluster points and noise points", "statement": "The three numbers printed are the number of clusters listed, the number of points in them, and the number of points labelled as noise.", "quantifier": "for all labels below the number of points, all minimum cluster sizes and all schedules", "why_tests_cant": "The benchmark checks the labels, not the numbers it prints; the error shows only with a minimum cluster size above the default.", "anchors": ["benchmarks/cluster/dbscan.cpp:216-224"]}
{"id": "C104", "title": "The nearest queries of the custom distance example return the nearest points", "statement": "The distance of a point to a bounding box in the custom distance example never exceeds the custom distance to a point in the box, so that nearest queries return the points nearest in that metric.", "quantifier": "for all points, boxes, trees and numbers of neighbours", "why_tests_cant": "The example has three points and one query, for which the pruning by the wrong distance does no harm.", "anchors": ["examples/custom_distance/example_custom_distance.cpp:53-70", "examples/custom_distance/example_custom_distance.cpp:82-117"]}
{"id": "C105", "title": "The clustering examples print what their comments promise", "statement": "The labels printed by the DBSCAN example and the edges printed by the EMST example are the expected outputs given in their comments.", "quantifier": "for all valid clusterings of the points, and for all orders and directions in which the edges are found", "why_tests_cant": "The examples are only run by the tests; their output is compared with nothing.", "anchors": ["examples/dbscan/example_dbscan.cpp:43-87", "examples/emst/example_emst.cpp:19-69", "src/cluster/detail/ArborX_WeightedEdge.hpp:30-48"]}
{"id": "C106", "title": "The times printed by the clustering benchmarks are the times spent in the regions", "statement": "With the verbose option, the time printed for a part of the algorithm is the time spent in the profiling regions of that label, and every label that is asked for was timed.", "quantifier": "for all nestings and sequences of regions, all clock values and all numbers of Boruvka iterations", "why_tests_cant": "The benchmarks have no tests, and times differ from run to run.", "anchors": ["benchmarks/cluster/print_timers.cpp:23-76", "benchmarks/cluster/hdbscan.cpp:53-87", "src/cluster/ArborX_MinimumSpanningTree.hpp:190-265"]}
