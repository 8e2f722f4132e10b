{"id": "C01", "title": "Curve files round-trip", "statement": "Writing any list of NURBS curves with serializeNURBSCurves and reading the bytes back yields the same number of curves in the same order, each with the same degree, the same knot doubles and the same control-point doubles bit for bit.", "quantifier": "every finite list of constructible curves (any degree, any 64-bit patterns for the doubles, any lengths that fit the 32-bit count fields)", "why_tests_cant": "The value space is infinite (all double bit patterns, all lengths); a test sees a handful of files.", "anchors": ["cmmcore/serialization.h:serializeNURBSCurves", "cmmcore/serialization.h:deserializeNURBSCurves", "cmmcore/serialization.h:serializeNURBSCurve", "cmmcore/serialization.h:deserializeNURBSCurve"]}
{"id": "C02", "title": "Curve records are self-delimiting", "statement": "Decoding one encoded value (int, double, bool, vec4, vector of doubles, vector of vec4, curve) that is followed by arbitrary further bytes returns exactly that value and leaves the read position exactly at the first following byte; so several records may be concatenated.", "quantifier": "every value and every byte string that follows it", "why_tests_cant": "Framing errors show up only for particular suffixes; the suffix ranges over all byte strings.", "anchors": ["cmmcore/serialization.h:deserializeDoubleVector", "cmmcore/serialization.h:deserializeVec4Vector", "cmmcore/serialization.h:deserializeNURBSCurve"]}
{"id": "C03", "title": "Distinct curves have distinct encodings", "statement": "Two curve lists whose encodings are the same byte string agree in count and in every degree, knot and control point; no encoding is a proper prefix of another.", "quantifier": "every pair of constructible curve lists", "why_tests_cant": "A collision or prefix relation is a statement about all pairs.", "anchors": ["cmmcore/serialization.h:serializeNURBSCurves"]}
{"id": "C04", "title": "A torn curve file is never accepted as complete", "statement": "If a file written by writeNURBSCurvesToFile is cut at any byte before its end, reading what is left never returns a curve list: the reader always runs past the end of the buffer.", "quantifier": "every list of curves and every crash point (every proper prefix of the file)", "why_tests_cant": "The crash point ranges over every byte of every possible file.", "anchors": ["cmmcore/serialization.h:deserializeNURBSCurves", "cmmcore/serialization.h:writeNURBSCurvesToFile", "cmmcore/serialization.h:readNURBSCurvesFromFile"]}
{"id": "C05", "title": "A torn curve file is reported as an error", "statement": "Reading a truncated curve file reports an error to the caller (an exception or error return) instead of executing undefined behaviour.", "quantifier": "every list of curves and every proper prefix of its file", "why_tests_cant": "Same crash-point quantification; in addition the failure is undefined behaviour which a test may not observe.", "anchors": ["cmmcore/serialization.h:deserializeInt", "cmmcore/serialization.h:deserializeDouble"]}
{"id": "C06", "title": "The periodic flag survives a round trip", "statement": "A curve that its owner has flagged periodic (or not) carries the same flag after being written and read back.", "quantifier": "every curve", "why_tests_cant": "The stored flag and the control points vary independently.", "anchors": ["cmmcore/serialization.h:serializeNURBSCurve", "cmmcore/nurbs.h:NURBSCurve::is_periodic"]}
{"id": "C07", "title": "Contiguous views address every element exactly once", "statement": "In a view built over a buffer with a given shape, the multi-index to buffer-position map is the row-major one, distinct in-range multi-indices address distinct buffer positions, every addressed position lies in the buffer and every buffer position is addressed.", "quantifier": "every shape (any number of dimensions, any extents whose product fits in 64 bits) and every multi-index", "why_tests_cant": "The shapes and the indices are unbounded.", "anchors": ["cmmcore/memoryview.h:MemoryView::MemoryView", "cmmcore/memoryview.h:compute_strides", "cmmcore/memoryview.h:operator()"]}
{"id": "C08", "title": "Element access is bounds-checked", "statement": "Element access by multi-index throws exactly when the number of indices differs from the number of dimensions or some index is not smaller than its extent; otherwise it returns the buffer element at the row-major position.", "quantifier": "every view, every index vector", "why_tests_cant": "Over all shapes and index vectors.", "anchors": ["cmmcore/memoryview.h:operator()"]}
{"id": "C09", "title": "Slicing selects the elements the caller asked for", "statement": "For a slice with positive step, the result has the extents Python slicing would give (negative bounds wrap, bounds are clamped, an integer index removes the dimension, missing trailing slices keep the dimension) and its element at index i along a sliced dimension is the original element at start+i*step.", "quantifier": "every view, every vector of slices with positive steps or integer indices, every multi-index of the result", "why_tests_cant": "Slices, shapes and indices are unbounded; off-by-one errors hide at boundary combinations.", "anchors": ["cmmcore/memoryview.h:MemoryView::slice", "cmmcore/memoryview.h:Slice"]}
{"id": "C10", "title": "Chains of slices never leave the buffer", "statement": "Starting from a view over a buffer, after any sequence of slice and operator[] calls with positive steps, every in-range multi-index of the resulting view still addresses a position inside the original buffer.", "quantifier": "every buffer, every finite history of slice calls, every in-range multi-index", "why_tests_cant": "History is unbounded.", "anchors": ["cmmcore/memoryview.h:MemoryView::slice", "cmmcore/memoryview.h:operator[]"]}
{"id": "C11", "title": "Reversed slices stay in the buffer", "statement": "For a slice with negative step every in-range multi-index of the result addresses an element of the original view.", "quantifier": "every view and every slice with negative step", "why_tests_cant": "Fails only for specific boundary combinations of start and extent.", "anchors": ["cmmcore/memoryview.h:MemoryView::slice"]}
{"id": "C12", "title": "Slicing rejects what it cannot do", "statement": "slice throws, and does not return a view, exactly when more slices than dimensions are given, an integer index is outside [-n,n), or a step is zero.", "quantifier": "every view with extents up to 2^30 and every slice vector with steps below 2^30 in magnitude (for larger steps see C81)", "why_tests_cant": "Over all slice vectors.", "anchors": ["cmmcore/memoryview.h:MemoryView::slice"]}
{"id": "C13", "title": "Reshape keeps element order", "statement": "On a contiguous view, reshape throws exactly when the element counts differ, and otherwise leaves the row-major sequence of elements unchanged.", "quantifier": "every contiguous view and every new shape", "why_tests_cant": "Over all shapes.", "anchors": ["cmmcore/memoryview.h:MemoryView::reshape", "cmmcore/memoryview.h:compute_total_size"]}
{"id": "C14", "title": "Reshape keeps element order of any view", "statement": "On any view obtained by slicing, reshape to a shape of equal element count leaves the row-major sequence of elements unchanged.", "quantifier": "every view, every new shape", "why_tests_cant": "Over all views; only non-contiguous ones fail.", "anchors": ["cmmcore/memoryview.h:MemoryView::reshape"]}
{"id": "C15", "title": "View serialization round-trips", "statement": "Serializing a contiguous view (at least one dimension) and deserializing the bytes yields a view of the same shape whose element at every multi-index equals the original one.", "quantifier": "every contiguous view with at least one dimension, any element bytes, any shape", "why_tests_cant": "Over all shapes and contents.", "anchors": ["cmmcore/memoryview.h:MemoryView::serialize", "cmmcore/memoryview.h:MemoryView::deserialize"]}
{"id": "C16", "title": "Serialization of any view round-trips", "statement": "Serializing any sliced view and deserializing it yields the same elements at every multi-index.", "quantifier": "every view reachable by slicing", "why_tests_cant": "Only non-contiguous views fail.", "anchors": ["cmmcore/memoryview.h:MemoryView::serialize", "cmmcore/memoryview.h:MemoryView::deserialize"]}
{"id": "C17", "title": "Deserializing hostile bytes is safe", "statement": "For arbitrary input bytes, deserialize either throws or returns a view all of whose in-range elements lie inside the data it owns.", "quantifier": "every byte string", "why_tests_cant": "The byte string is adversarial and unbounded.", "anchors": ["cmmcore/memoryview.h:MemoryView::deserialize"]}
{"id": "C18", "title": "A truncated serialized view is rejected", "statement": "Every proper prefix of a serialized view makes deserialize throw.", "quantifier": "every contiguous view, every proper prefix", "why_tests_cant": "Every cut point of every encoding.", "anchors": ["cmmcore/memoryview.h:MemoryView::deserialize"]}
{"id": "C19", "title": "size() is the number of elements", "statement": "size() of a view returns the number of its elements, and copy() copies them all.", "quantifier": "every view", "why_tests_cant": "Over all shapes, including those on which the loop does not terminate.", "anchors": ["cmmcore/memoryview.h:MemoryView::size", "cmmcore/memoryview.h:MemoryView::copy"]}
{"id": "C20", "title": "KD-tree range search is exact", "statement": "After any sequence of build and insert calls, rangeSearch(lower, upper) returns exactly the stored points (with multiplicity) whose three coordinates lie between lower and upper, boundaries included.", "quantifier": "every history of build/insert, every median choice nth_element may make, every query box", "why_tests_cant": "Histories, point sets (with ties) and boxes are unbounded.", "anchors": ["cmmcore/kdtree.h:KDTree3D::build", "cmmcore/kdtree.h:KDTree3D::insert", "cmmcore/kdtree.h:KDTree3D::rangeSearch"]}
{"id": "C21", "title": "KD-tree nearest neighbour is optimal", "statement": "After any sequence of build and insert calls on a non-empty tree, nearestNeighbor(target) returns a stored point and no stored point is strictly closer to the target.", "quantifier": "every history, every median choice, every target", "why_tests_cant": "Pruning errors show only for adversarial geometry.", "anchors": ["cmmcore/kdtree.h:KDTree3D::nearestNeighbor", "cmmcore/kdtree.h:nearestNeighborRec"]}
{"id": "C22", "title": "KD-tree size tracks its history", "statement": "size() equals the number of points stored, empty() holds exactly when no point is stored, and nearestNeighbor throws exactly then; build discards everything stored before.", "quantifier": "every history of build/insert", "why_tests_cant": "Histories are unbounded.", "anchors": ["cmmcore/kdtree.h:KDTree3D::size", "cmmcore/kdtree.h:KDTree3D::empty", "cmmcore/kdtree.h:KDTree3D::build"]}
{"id": "C23", "title": "Bounding box of points is tight", "statement": "The box constructed from a non-empty point vector contains every point and is contained in every box that does.", "quantifier": "every non-empty point vector", "why_tests_cant": "Unbounded point sets.", "anchors": ["cmmcore/aabb.h:AABB::AABB"]}
{"id": "C24", "title": "Box intersection test is exact", "statement": "a.intersects(b) is true exactly when some point lies in both boxes; it is symmetric.", "quantifier": "every pair of non-inverted boxes", "why_tests_cant": "All touching/degenerate configurations.", "anchors": ["cmmcore/aabb.h:AABB::intersects"]}
{"id": "C25", "title": "Box intersection and merge are meet and join", "statement": "intersection() of intersecting boxes contains exactly the common points; merge() is the smallest box containing both; expand(p) is the smallest box containing the box and p.", "quantifier": "every pair of boxes, every point", "why_tests_cant": "All configurations.", "anchors": ["cmmcore/aabb.h:AABB::intersection", "cmmcore/aabb.h:AABB::merge", "cmmcore/aabb.h:AABB::expand"]}
{"id": "C26", "title": "Default box is recognised as empty", "statement": "infinity() recognises a default-constructed box, and a default-constructed box is neutral for merge and expand.", "quantifier": "every box / point", "why_tests_cant": "All boxes.", "anchors": ["cmmcore/aabb.h:AABB::infinity", "cmmcore/aabb.h:AABB::AABB"]}
{"id": "C27", "title": "BVH stores every object exactly once", "statement": "Building a hierarchy, top-down or bottom-up, over any non-empty object list yields a tree whose leaves hold exactly the given objects, each exactly once.", "quantifier": "every non-empty list of objects, every tie-breaking of the sort/partition steps", "why_tests_cant": "Object lists are unbounded; degenerate geometry triggers the fallback splits.", "anchors": ["cmmcore/bvh.hpp:build_bvh_top_down", "cmmcore/bvh.hpp:build_bvh_bottom_up", "cmmcore/bvh.hpp:split_objects"]}
{"id": "C28", "title": "BVH node boxes enclose their objects", "statement": "In any built hierarchy every node's box is the smallest box containing the boxes of all objects below it.", "quantifier": "every built hierarchy, every node", "why_tests_cant": "Unbounded trees.", "anchors": ["cmmcore/bvh.hpp:build_bvh_top_down", "cmmcore/bvh.hpp:build_bvh_bottom_up"]}
{"id": "C29", "title": "BVH query returns exactly the hits", "statement": "traverse_bvh with a query box returns exactly the objects whose boxes intersect the query box, each once.", "quantifier": "every object list, every query box", "why_tests_cant": "Unbounded; pruning correctness.", "anchors": ["cmmcore/bvh.hpp:traverse_bvh"]}
{"id": "C30", "title": "BVH pair query returns exactly the intersecting pairs", "statement": "intersect_bvh_iterative on two hierarchies returns exactly the pairs (one object of each) whose boxes intersect.", "quantifier": "every pair of object lists", "why_tests_cant": "Unbounded; pruning correctness.", "anchors": ["cmmcore/bvh.hpp:intersect_bvh_iterative"]}
{"id": "C31", "title": "Recursive BVH pair query", "statement": "The recursive intersect_bvh returns exactly the pairs whose boxes intersect.", "quantifier": "every pair of object lists", "why_tests_cant": "It prunes by intersection volume, which fails for flat overlaps only.", "anchors": ["cmmcore/bvh.hpp:intersect_bvh"]}
{"id": "C32", "title": "BVH point query is exact", "statement": "contains_point returns exactly the objects whose box contains the point, each once.", "quantifier": "every hierarchy and point", "why_tests_cant": "Unbounded.", "anchors": ["cmmcore/bvh.hpp:contains_point"]}
{"id": "C33", "title": "Copying a hierarchy keeps its objects", "statement": "A copied hierarchy answers every query like the original.", "quantifier": "every hierarchy, every query", "why_tests_cant": "Any tree.", "anchors": ["cmmcore/bvh.hpp:BVHNode::BVHNode(const BVHNode&)", "cmmcore/bvh.hpp:BVHNode::operator="]}
{"id": "C34", "title": "Binomial table", "statement": "binomial_coefficient(n,k) is the number of k-subsets of an n-set for every n,k between 0 and 30; other arguments read outside the table.", "quantifier": "every n,k in 0..30", "why_tests_cant": "A finite table that no test in the repo sweeps.", "anchors": ["cmmcore/binom.h:binomial_coefficient"]}
{"id": "C35", "title": "Span lookup brackets the parameter", "statement": "For a sorted knot vector and a parameter in the domain, find_span returns an index s with degree <= s <= n and U[s] <= u < U[s+1] (at the right end of the domain the last index n); no array access is out of bounds.", "quantifier": "every degree, every sorted knot vector of the right length, every parameter of the domain", "why_tests_cant": "Knot vectors are unbounded, repeated knots are the failing cases.", "anchors": ["cmmcore/nurbs_utils.h:find_span"]}
{"id": "C36", "title": "Basis functions are the B-spline basis", "statement": "basis_funs returns the degree+1 values of the Cox-de Boor basis functions that can be non-zero at u; they are non-negative and sum to one.", "quantifier": "every degree up to 8 (the buffer size CMMCORE_DEG_STACK_SIZE - 1), every sorted knot vector, every u in the domain", "why_tests_cant": "Knot vectors and parameters are a continuum.", "anchors": ["cmmcore/nurbs_utils.h:basis_funs"]}
{"id": "C37", "title": "Curve evaluation is the rational B-spline formula", "statement": "Evaluating a curve returns sum(N_i w_i P_i)/sum(N_i w_i) over all control points with the Cox-de Boor basis.", "quantifier": "every curve of degree at most 8 with positive weights, every parameter in the domain", "why_tests_cant": "Continuum of parameters.", "anchors": ["cmmcore/nurbs_utils.h:curve_point", "cmmcore/nurbs.h:NURBSCurve::evaluate"]}
{"id": "C38", "title": "A curve point lies in the box of its control points", "statement": "Every evaluated point of a curve with positive weights lies within the coordinate-wise bounds of the (unweighted) control points.", "quantifier": "every curve with positive weights, every parameter", "why_tests_cant": "Continuum.", "anchors": ["cmmcore/nurbs_utils.h:curve_point"]}
{"id": "C39", "title": "Stored bounding box encloses the curve", "statement": "For a curve whose weights are all one, the box returned by aabb() after construction contains every evaluated point.", "quantifier": "every unit-weight curve, every parameter", "why_tests_cant": "Continuum.", "anchors": ["cmmcore/nurbs.h:NURBSCurve::rebuildAABB", "cmmcore/nurbs.h:NURBSCurve::aabb", "cmmcore/nurbs.h:NURBSCurve::evaluate"]}
{"id": "C40", "title": "Stored bounding box encloses rational curves", "statement": "For any positive weights the box returned by aabb() contains every evaluated point.", "quantifier": "every curve with positive weights", "why_tests_cant": "Fails only for non-unit weights.", "anchors": ["cmmcore/nurbs.h:NURBSCurve::rebuildAABB"]}
{"id": "C41", "title": "Clamped curves interpolate their end points", "statement": "A curve made from control points and a degree starts at the first control point and ends at the last.", "quantifier": "every control polygon with more points than the degree", "why_tests_cant": "All degrees and lengths.", "anchors": ["cmmcore/nurbs.h:NURBSCurve::generate_knots", "cmmcore/nurbs.h:NURBSCurve::evaluate"]}
{"id": "C42", "title": "Generated knot vectors are well formed", "statement": "The generated knot vector is non-decreasing, has n+degree+1 entries, is clamped, and its domain is [0, n-degree].", "quantifier": "every n > degree", "why_tests_cant": "All sizes.", "anchors": ["cmmcore/nurbs.h:NURBSCurve::generate_knots", "cmmcore/nurbs.h:NURBSSurface::generate_knots_u"]}
{"id": "C43", "title": "Knot insertion keeps the knot vector valid", "statement": "insert_knot(t,r) yields a sorted knot vector that contains the old knots plus r copies of t, and r more control points.", "quantifier": "every valid curve of degree at most 8, every t in the domain that is a knot or farther than 1e-12 from all knots, every count that keeps the multiplicity within the degree", "why_tests_cant": "All curves.", "anchors": ["cmmcore/nurbs_utils.h:knot_insertion", "cmmcore/nurbs_utils.h:knot_insertion_kv", "cmmcore/nurbs.h:NURBSCurve::insert_knot"]}
{"id": "C44", "title": "Knot insertion does not move the curve", "statement": "For unit weights, the curve after insert_knot evaluates to the same point as before at every parameter of the domain.", "quantifier": "every unit-weight curve, every inserted knot and count, every parameter", "why_tests_cant": "Continuum.", "anchors": ["cmmcore/nurbs_utils.h:knot_insertion", "cmmcore/nurbs.h:NURBSCurve::insert_knot", "cmmcore/nurbs.h:NURBSCurve::evaluate"]}
{"id": "C45", "title": "Knot insertion does not move rational curves", "statement": "The same for arbitrary positive weights.", "quantifier": "every curve with positive weights", "why_tests_cant": "Fails only with unequal weights.", "anchors": ["cmmcore/nurbs_utils.h:knot_insertion", "cmmcore/nurbs_utils.h:curve_point"]}
{"id": "C46", "title": "Splitting reproduces the curve", "statement": "split(t) returns two curves that together evaluate to the original curve on both sides of t, and throws at the ends of the domain.", "quantifier": "every unit-weight curve of degree 1 to 8, every interior t as in C43, every parameter", "why_tests_cant": "Continuum.", "anchors": ["cmmcore/nurbs.h:NURBSCurve::split"]}
{"id": "C47", "title": "Surface evaluation is the tensor-product formula", "statement": "Evaluating a surface returns the homogeneous tensor-product B-spline sum divided by its weight.", "quantifier": "every surface with positive weights, every (u,v) in the domain", "why_tests_cant": "Continuum.", "anchors": ["cmmcore/nurbs_utils.h:surface_point", "cmmcore/nurbs.h:NURBSSurface::evaluate"]}
{"id": "C48", "title": "Isocurves lie on the surface", "statement": "For unit weights the isocurve extracted at u0 (or v0) evaluates to the surface point at (u0,t) (or (t,v0)); out-of-range parameters throw; the four boundary curves of a clamped surface are its edges.", "quantifier": "every unit-weight surface, every parameter", "why_tests_cant": "Continuum.", "anchors": ["cmmcore/nurbs.h:extract_isocurve"]}
{"id": "C49", "title": "Moving a curve keeps it", "statement": "A moved-to curve has the same state as the source had; a copied curve too.", "quantifier": "every curve", "why_tests_cant": "All curves; only flagged ones fail.", "anchors": ["cmmcore/nurbs.h:NURBSCurve::NURBSCurve(NURBSCurve&&)"]}
{"id": "C50", "title": "Knot normalisation", "statement": "normalize_knots maps the domain affinely onto [0,1], keeps order and multiplicities, and does not change the shape.", "quantifier": "every curve with a non-degenerate domain", "why_tests_cant": "Continuum.", "anchors": ["cmmcore/nurbs.h:NURBSCurve::normalize_knots"]}
{"id": "C51", "title": "Knot multiplicity report", "statement": "getKnotMultiplicities counts, for every sorted knot list whose distinct values differ by more than the tolerance, each distinct knot exactly as often as it occurs; uniqueKnots lists them in order.", "quantifier": "every sorted knot list", "why_tests_cant": "All lists.", "anchors": ["cmmcore/nurbs_utils.h:getKnotMultiplicities", "cmmcore/nurbs_utils.h:uniqueKnots", "cmmcore/nurbs_utils.h:find_multiplicity"]}
{"id": "C52", "title": "Adaptive Simpson is exact on cubics", "statement": "integrate returns the exact integral of every polynomial of degree at most three, with zero error estimate, on every interval.", "quantifier": "every cubic, every interval", "why_tests_cant": "Continuum.", "anchors": ["cmmcore/integrate.h:adaptiveSimpson", "cmmcore/integrate.h:integrate"]}
{"id": "C53", "title": "Adaptive Simpson terminates with bounded work", "statement": "integrate terminates for every integrand, evaluates it at most a bounded number of times, only inside the interval, and returns a non-negative error estimate.", "quantifier": "every integrand", "why_tests_cant": "All functions.", "anchors": ["cmmcore/integrate.h:adaptiveSimpson"]}
{"id": "C54", "title": "Bounded minimiser respects its bounds", "statement": "Every point at which the bounded scalar minimiser evaluates the function, and the point it returns, lies within the bounds.", "quantifier": "every function, every pair of bounds", "why_tests_cant": "All functions.", "anchors": ["cmmcore/minimize_scalar.h:minimize_scalar_bounded"]}
{"id": "C55", "title": "Bounded minimiser returns its best sample", "statement": "The returned value is the function value at the returned point and is not larger than any other value the minimiser evaluated; the number of evaluations is reported correctly and is at most max(limit,2); the status is 0 (success) or 1, and 1 only when the limit is reached.", "quantifier": "every function, every bounds and options", "why_tests_cant": "All functions.", "anchors": ["cmmcore/minimize_scalar.h:minimize_scalar_bounded"]}
{"id": "C56", "title": "2x2 inverse and solver", "statement": "inverse() of a 2x2 matrix throws exactly for zero determinant and otherwise is a two-sided inverse; solve2x2 that reports success returns the solution.", "quantifier": "every 2x2 matrix", "why_tests_cant": "Continuum.", "anchors": ["cmmcore/matrix.h:Matrix2x2", "cmmcore/matrix.h:solve2x2"]}
{"id": "C57", "title": "N x N inverse", "statement": "If MatrixD::inverse returns, the result is a two-sided inverse; for a singular or non-square matrix it throws.", "quantifier": "every matrix of every size", "why_tests_cant": "All sizes.", "anchors": ["cmmcore/matrix.h:MatrixD::inverse"]}
{"id": "C58", "title": "Matrix product and transpose", "statement": "MatrixD product throws exactly on a dimension mismatch and is the mathematical product; it is associative; transpose reverses products.", "quantifier": "every triple of matrices", "why_tests_cant": "All sizes.", "anchors": ["cmmcore/matrix.h:MatrixD"]}
{"id": "C59", "title": "Cholesky solver", "statement": "For a symmetric matrix the Cholesky factorisation succeeds exactly when the matrix is positive definite; the factor is lower triangular with positive diagonal and times its transpose gives the matrix; the solver then returns the solution of the linear system, and otherwise leaves the output untouched and returns false.", "quantifier": "every symmetric matrix, every right-hand side, every dimension", "why_tests_cant": "All sizes.", "anchors": ["cmmcore/newthon2.h:choleskyDecomposition", "cmmcore/newthon2.h:solveLinearSystem"]}
{"id": "C60", "title": "Newton minimiser never goes uphill", "statement": "The point returned by newtonsMethod has a function value not larger than the starting point's.", "quantifier": "every function, every start point", "why_tests_cant": "All functions.", "anchors": ["cmmcore/newthon2.h:newtonsMethod", "cmmcore/newthon2.h:lineSearch"]}
{"id": "C61", "title": "Bezier-monomial conversion round-trips", "statement": "Converting a non-rational Bezier patch of bidegree up to 30 to monomial form and back into a new surface returns the same control points with Bezier knots; from degree 31 on the conversion reads outside the binomial table.", "quantifier": "every patch of every bidegree", "why_tests_cant": "All degrees.", "anchors": ["cmmcore/monomial.h:Monomial2D", "cmmcore/monomial.h:bpmat"]}
{"id": "C62", "title": "Monomial form evaluates like the Bezier form", "statement": "The polynomial with the computed coefficients equals the Bernstein form at every parameter.", "quantifier": "every patch, every parameter", "why_tests_cant": "Continuum.", "anchors": ["cmmcore/monomial.h:Monomial2D", "cmmcore/monomial.h:bpmat"]}
{"id": "C63", "title": "Monomial partial derivative and cross product", "statement": "compute_partial_derivative gives the coefficients of the partial derivative; cross gives those of the pointwise cross product.", "quantifier": "every coefficient tensor", "why_tests_cant": "All sizes.", "anchors": ["cmmcore/monomial.h:compute_partial_derivative", "cmmcore/monomial.h:cross"]}
{"id": "C64", "title": "A reported polygon gap is real", "statement": "If polygonRelationship2D reports DISTANCE, no point belongs to the convex hulls of both polygons.", "quantifier": "every pair of non-empty polygons", "why_tests_cant": "Continuum.", "anchors": ["cmmcore/polygon.h:polygonRelationship2D"]}
{"id": "C65", "title": "SAT2D separation is sound", "statement": "If SAT2D reports the polygons separable, their convex hulls are disjoint.", "quantifier": "every pair of polygons", "why_tests_cant": "Continuum.", "anchors": ["cmmcore/separability.h:SAT2D"]}
{"id": "C66", "title": "GJK non-collision is sound", "statement": "If GJK reports no collision, the convex hulls of the two vertex sets are disjoint; every point of the returned simplex is a difference of a vertex of the first and a vertex of the second set.", "quantifier": "every pair of non-empty vertex sets, every tolerance and iteration limit", "why_tests_cant": "Continuum.", "anchors": ["cmmcore/gjk.h:GJK", "cmmcore/gjk.h:support"]}
{"id": "C67", "title": "Closest point on a triangle is closest", "statement": "closestPointOnTriangle(a,b,c) returns a point of the triangle, and no point of the triangle is closer to the origin.", "quantifier": "every triangle whose first two vertices differ (no area needed)", "why_tests_cant": "Continuum with seven regions.", "anchors": ["cmmcore/closest_point.h:closestPointOnTriangle"]}
{"id": "C68", "title": "Closest point on a segment is closest", "statement": "closestPointOnSegm returns a point of the segment and no point of the segment is closer.", "quantifier": "every non-degenerate segment, every point", "why_tests_cant": "Continuum.", "anchors": ["cmmcore/closest_point.h:closestPointOnSegm"]}
{"id": "C69", "title": "Plane intersections satisfy their equations", "statement": "A point reported by planeRayIntersection or planeLineIntersection is on the line (within the segment for the latter) and on the plane, or is the start point within the tolerance of a parallel plane; the points of planePlaneIntersection are two different points on both planes, that of planePlanePlaneIntersection is the only common point of the three.", "quantifier": "every plane, line", "why_tests_cant": "Continuum.", "anchors": ["cmmcore/plane.h:plane::planeRayIntersection", "cmmcore/plane.h:plane::planeLineIntersection", "cmmcore/plane.h:plane::planePlaneIntersection", "cmmcore/plane.h:plane::planePlanePlaneIntersection"]}
{"id": "C70", "title": "Non-parallel planes are reported to meet", "statement": "planePlaneIntersection reports an intersection for every pair of non-parallel planes.", "quantifier": "every pair of planes", "why_tests_cant": "Fails for axis-aligned pairs only.", "anchors": ["cmmcore/plane.h:planePlaneIntersection"]}
{"id": "C71", "title": "Plane from point and normal contains the point", "statement": "plane(origin, normal) has zero signed distance at origin.", "quantifier": "every origin and normal", "why_tests_cant": "Continuum.", "anchors": ["cmmcore/plane.h:plane"]}
{"id": "C72", "title": "Coplanarity test", "statement": "isPtsCoplanar accepts only point sets that lie in one plane.", "quantifier": "every point vector", "why_tests_cant": "Fails only for the fourth point.", "anchors": ["cmmcore/plane.h:isPtsCoplanar"]}
{"id": "C73", "title": "Polyline assembly uses every segment once", "statement": "assemble_polylines uses every input segment in exactly one output polyline.", "quantifier": "every list of segments", "why_tests_cant": "All lists.", "anchors": ["cmmcore/polyline.h:assemble_polylines"]}
{"id": "C74", "title": "Convex hull vertices are input points", "statement": "Every vertex of convex_hull2d is an input point.", "quantifier": "every point vector", "why_tests_cant": "All point sets.", "anchors": ["cmmcore/_convexhull/convexhull2d.h:convex_hull2d"]}
{"id": "C75", "title": "Boundary points are grouped exactly once", "statement": "sort_boundary_intersections puts every point in exactly one sequence and every sequence has one or two points; the second point is the nearest of those still unassigned. If every distance between two points is below infinity, only the last sequence may have one point.", "quantifier": "every vector of boundary points", "why_tests_cant": "All lists.", "anchors": ["cmmcore/boundary_intersection.h:sort_boundary_intersections"]}
{"id": "C76", "title": "Curve-curve intersection reports parameters of the curves", "statement": "Every pair reported by ccx consists of parameters inside the domains of the two curves.", "quantifier": "every pair of curves, every tolerance", "why_tests_cant": "All curves, unbounded recursion.", "anchors": ["cmmcore/ccx.h:ccx"]}
{"id": "C77", "title": "Box volume is monotone", "statement": "volume() of a non-inverted box is non-negative and never exceeds the volume of a box that contains it.", "quantifier": "every pair of nested boxes", "why_tests_cant": "Continuum of boxes.", "anchors": ["cmmcore/aabb.h:AABB::volume"]}
{"id": "C78", "title": "setRight installs the right child", "statement": "After node.setRight(child) the node's right child is child and its left child is unchanged.", "quantifier": "every node, every child", "why_tests_cant": "Depends on which child the caller looks at; all trees.", "anchors": ["cmmcore/bvh.hpp:BVHNode::setRight"]}
{"id": "C79", "title": "Sub-views agree with element access", "statement": "operator[] throws exactly when the view has no dimension or the index is not smaller than the first extent; otherwise the sub-view drops the first dimension and its element at any multi-index is the element of the original at that multi-index prefixed by the index.", "quantifier": "every view, every index, every multi-index", "why_tests_cant": "Over all shapes, strides and indices.", "anchors": ["cmmcore/memoryview.h:operator[]"]}
{"id": "C80", "title": "Printing a view reads only its elements", "statement": "to_string prints the first elements of the view in order and reads nothing outside the buffer.", "quantifier": "every view over a buffer of matching size", "why_tests_cant": "Only some shapes fail.", "anchors": ["cmmcore/memoryview.h:MemoryView::to_string"]}
{"id": "C81", "title": "Slicing is defined for every step", "statement": "slice has defined behaviour for every int step.", "quantifier": "every view, every slice", "why_tests_cant": "The overflow needs extreme steps.", "anchors": ["cmmcore/memoryview.h:MemoryView::slice"]}
{"id": "C82", "title": "Curves of any degree can be evaluated", "statement": "Evaluating a curve has defined behaviour whatever its degree.", "quantifier": "every degree", "why_tests_cant": "The failing degrees are those above a hidden constant.", "anchors": ["cmmcore/nurbs_utils.h:basis_funs", "cmmcore/nurbs_utils.h:CMMCORE_DEG_STACK_SIZE"]}
{"id": "C83", "title": "Bounding box follows set_control_points", "statement": "After set_control_points the curve evaluates with the new points and aabb() encloses it.", "quantifier": "every curve and new control polygon", "why_tests_cant": "Needs the history: box built by the constructor, then points replaced.", "anchors": ["cmmcore/nurbs.h:NURBSCurve::set_control_points"]}
{"id": "C84", "title": "Decomposition into Bezier pieces", "statement": "decompose() returns one Bezier curve per non-empty knot span, in order, each with degree+1 control points and reproducing the curve on its span.", "quantifier": "every clamped unit-weight curve of degree 1 to 8 with interior multiplicities at most the degree and distinct knots more than 1e-12 apart", "why_tests_cant": "All curves, all parameters.", "anchors": ["cmmcore/nurbs.h:decompose", "cmmcore/nurbs.h:NURBSCurve::split"]}
{"id": "C85", "title": "bbox encloses the surface", "statement": "The box bbox() returns contains every point the surface evaluates to, and no smaller box contains the projected control points.", "quantifier": "every surface with positive weights, every (u,v)", "why_tests_cant": "Continuum of parameters.", "anchors": ["cmmcore/nurbs.h:NURBSSurface::bbox"]}
{"id": "C86", "title": "aabb() encloses the surface", "statement": "The box aabb() returns contains every point the surface evaluates to.", "quantifier": "every surface, every (u,v)", "why_tests_cant": "Continuum of parameters.", "anchors": ["cmmcore/nurbs.h:NURBSSurface::aabb"]}
{"id": "C87", "title": "Knot insertion keeps the surface", "statement": "Inserting a knot in u or v leaves every evaluated point unchanged, adds exactly the requested knots and leaves the other direction alone.", "quantifier": "every surface with positive weights, every admissible knot and count", "why_tests_cant": "Continuum of parameters and knots.", "anchors": ["cmmcore/nurbs.h:NURBSSurface::insert_knot_u", "cmmcore/nurbs.h:NURBSSurface::insert_knot_v"]}
{"id": "C88", "title": "Splitting reproduces the surface", "statement": "split_surface_u/v give two surfaces covering the two sides of the parameter, each evaluating to the original's points there; a parameter within tolerance of an edge throws.", "quantifier": "every surface with positive weights, every parameter, every tolerance", "why_tests_cant": "Continuum.", "anchors": ["cmmcore/nurbs.h:NURBSSurface::split_surface_u", "cmmcore/nurbs.h:NURBSSurface::split_surface_v"]}
{"id": "C89", "title": "Subdividing reproduces the surface", "statement": "subdivide(u,v) gives four patches covering the four quadrants, each evaluating to the original's points there.", "quantifier": "every surface with positive weights, every inner parameter pair", "why_tests_cant": "Continuum.", "anchors": ["cmmcore/nurbs.h:NURBSSurface::subdivide"]}
{"id": "C90", "title": "get_derivative returns an evaluable surface", "statement": "The surface get_derivative returns can be evaluated and gives the partial derivative.", "quantifier": "every surface, both directions", "why_tests_cant": "Continuum.", "anchors": ["cmmcore/nurbs.h:NURBSSurface::get_derivative"]}
{"id": "C91", "title": "An isocurve's box encloses it", "statement": "The aabb of an extracted isocurve contains every point of the isocurve.", "quantifier": "every surface, every parameter", "why_tests_cant": "Continuum.", "anchors": ["cmmcore/nurbs.h:NURBSSurface::extract_isocurve"]}
{"id": "C92", "title": "Isocurves of rational surfaces", "statement": "The isocurve of a surface with positive weights evaluates to the surface's points.", "quantifier": "every surface with positive weights, every parameter", "why_tests_cant": "Continuum.", "anchors": ["cmmcore/nurbs.h:NURBSSurface::extract_isocurve"]}
{"id": "C93", "title": "The free extract_isocurve agrees with the member", "statement": "extract_isocurve(surface, t, direction) evaluates to the surface's points for either direction and any knots.", "quantifier": "every unit-weight surface, every parameter", "why_tests_cant": "Continuum.", "anchors": ["cmmcore/boundary_intersection.h:extract_isocurve"]}
{"id": "C94", "title": "Surface constructor", "statement": "Constructing a surface from a rectangular net without knots gives clamped uniform knots, matching sizes and intervals, and keeps the net; an empty net throws invalid_argument.", "quantifier": "every net and degrees", "why_tests_cant": "Unbounded net sizes.", "anchors": ["cmmcore/nurbs.h:NURBSSurface::NURBSSurface", "cmmcore/nurbs.h:NURBSSurface::generate_knots_u"]}
{"id": "C95", "title": "The integral lies between the bounds of the integrand", "statement": "If lo <= f <= hi on [t0,t1] then lo*(t1-t0) <= integrate(f,t0,t1) <= hi*(t1-t0).", "quantifier": "every integrand, interval, tolerance and depth", "why_tests_cant": "All functions.", "anchors": ["cmmcore/integrate.h:integrate"]}
{"id": "C96", "title": "Reversing the interval negates the integral", "statement": "integrate(f,t1,t0) is minus integrate(f,t0,t1), with the same error estimate.", "quantifier": "every integrand, interval, tolerance and depth", "why_tests_cant": "All functions.", "anchors": ["cmmcore/integrate.h:integrate"]}
{"id": "C97", "title": "The error estimate is honest up to degree five", "statement": "For every polynomial of degree at most five the true error of integrate is at most the error it reports.", "quantifier": "every polynomial of degree at most five, interval, tolerance and depth", "why_tests_cant": "All polynomials.", "anchors": ["cmmcore/integrate.h:integrate"]}
{"id": "C98", "title": "The error estimate is honest for every integrand", "statement": "If integrate reports an error below the tolerance, the true error is at most the tolerance.", "quantifier": "every polynomial, interval, tolerance and depth", "why_tests_cant": "All functions.", "anchors": ["cmmcore/integrate.h:integrate"]}
{"id": "C99", "title": "Finding the end of an arc of given length", "statement": "At constant speed find_t1_newton returns exactly t0 + I / speed from any first guess; it gives up (NaN) when the speed at the guess is below 1e-10.", "quantifier": "every constant, start, length, guess, tolerance and iteration limit of at least one", "why_tests_cant": "Continuum.", "anchors": ["cmmcore/integrate.h:find_t1_newton"]}
{"id": "C100", "title": "The minimiser keeps its evaluation limit", "statement": "The bounded minimiser never evaluates the function more often than maxiter.", "quantifier": "every function, bounds, tolerance and positive limit", "why_tests_cant": "All functions and limits.", "anchors": ["cmmcore/minimize_scalar.h:minimize_scalar_bounded"]}
{"id": "C101", "title": "The minimiser finds the minimum of a unimodal function", "statement": "When the bounded minimiser reports success on a strictly unimodal function, the returned point is within 2*(sqrt(eps)*|x| + xatol/3) of the minimiser.", "quantifier": "every strictly unimodal function, bounds, positive tolerance and limit", "why_tests_cant": "All unimodal functions.", "anchors": ["cmmcore/minimize_scalar.h:minimize_scalar_bounded"]}
{"id": "C102", "title": "2x2 matrix from braces holds the values", "statement": "Matrix2x2 built from {{a,b},{c,d}} has these entries.", "quantifier": "all values", "why_tests_cant": "All values.", "anchors": ["cmmcore/matrix.h:Matrix2x2"]}
{"id": "C103", "title": "Every invertible matrix is inverted", "statement": "MatrixD::inverse returns for every invertible matrix.", "quantifier": "every invertible matrix", "why_tests_cant": "All matrices.", "anchors": ["cmmcore/matrix.h:MatrixD::inverse"]}
{"id": "C104", "title": "Numeric gradient and Hessian are exact on quadratics", "statement": "For every quadratic function the central differences give the exact gradient and Hessian, whatever the step.", "quantifier": "every quadratic function of every dimension, every point, every nonzero step", "why_tests_cant": "All functions.", "anchors": ["cmmcore/newthon2.h:computeGradient", "cmmcore/newthon2.h:computeHessian"]}
{"id": "C105", "title": "Newton minimiser converges on convex quadratics", "statement": "On a convex quadratic with curvature at least lam each iteration shrinks the distance to the minimiser by the factor 1e-6/(lam+1e-6); if the method stops early, the distance is at most 1e-6/lam times the stopping tolerance.", "quantifier": "every strictly convex quadratic of every dimension, start, tolerance and iteration limit", "why_tests_cant": "All functions.", "anchors": ["cmmcore/newthon2.h:newtonsMethod"]}
{"id": "C106", "title": "Normal and derivative patches", "statement": "computePartialDerivative and computeNormal return monomial patches whose polynomials are the partial derivatives and the cross product of the partial derivatives.", "quantifier": "every patch with 2 to 31 rows and columns (normals: 2 to 16), every parameter", "why_tests_cant": "Continuum of parameters, all sizes.", "anchors": ["cmmcore/monomial.h:Monomial2D::computePartialDerivative", "cmmcore/monomial.h:Monomial2D::computeNormal"]}
{"id": "C107", "title": "Derivative of a patch constant in u", "statement": "The derivative in u of a patch with a single row is the zero patch.", "quantifier": "every patch with one row", "why_tests_cant": "All such patches.", "anchors": ["cmmcore/monomial.h:Monomial2D::computePartialDerivative", "cmmcore/monomial.h:Monomial2D::set"]}
{"id": "C108", "title": "Assigned patches convert like the original", "statement": "After a = b, a converts to the same Bezier surface as b.", "quantifier": "every pair of objects", "why_tests_cant": "Every history of assignments.", "anchors": ["cmmcore/monomial.h:Monomial2D::operator="]}
{"id": "C109", "title": "Conversion overwrites its target", "statement": "to_bezier leaves in its argument the Bezier patch, whatever the surface held before.", "quantifier": "every patch and every target surface", "why_tests_cant": "Every history of the target.", "anchors": ["cmmcore/monomial.h:Monomial2D::to_bezier"]}
{"id": "C110", "title": "Rational patches survive the round trip", "statement": "Converting a rational Bezier patch to monomial form and back gives a surface with the same points.", "quantifier": "every rational patch", "why_tests_cant": "Continuum.", "anchors": ["cmmcore/monomial.h:Monomial2D"]}
{"id": "C111", "title": "TOUCH means no common interior", "statement": "If polygonRelationship2D reports TOUCH, some line has one polygon on each closed side.", "quantifier": "every pair of polygons", "why_tests_cant": "Continuum.", "anchors": ["cmmcore/polygon.h:polygonRelationship2D"]}
{"id": "C112", "title": "Convex polygons are classified exactly", "statement": "For convex polygons polygonRelationship2D reports DISTANCE exactly when they are disjoint, TOUCH exactly when they meet and a line separates them, INTERSECT exactly when they meet and no line does.", "quantifier": "every pair of strictly convex polygons in either orientation, coordinates up to 2^500", "why_tests_cant": "Continuum; any number of vertices.", "anchors": ["cmmcore/polygon.h:polygonRelationship2D"]}
{"id": "C113", "title": "Point in polygon", "statement": "pointInPolygon2D reports points outside the bounding box as outside; for convex polygons reports interior points as inside and only points of the polygon as inside; the answer does not depend on orientation or first vertex, and cutting any polygon along a diagonal splits the answer as exclusive or.", "quantifier": "every polygon and every point", "why_tests_cant": "Continuum; any number of vertices.", "anchors": ["cmmcore/polygon.h:pointInPolygon2D"]}
{"id": "C114", "title": "Convex hull encloses its input", "statement": "convex_hull2d returns a strictly convex counterclockwise polygon made of input points whose hull contains every input point.", "quantifier": "every set of three or more points", "why_tests_cant": "All point sets.", "anchors": ["cmmcore/_convexhull/convexhull2d.h:convex_hull2d"]}
{"id": "C115", "title": "SAT2D finds every separation", "statement": "For disjoint convex polygons SAT2D reports that they are separable.", "quantifier": "every pair of convex polygons", "why_tests_cant": "Continuum; depends on which polygon owns the separating edge.", "anchors": ["cmmcore/separability.h:SAT2D"]}
{"id": "C116", "title": "Degenerate polygons that do not meet", "statement": "polygonRelationship2D reports DISTANCE for polygons of fewer than three vertices that do not meet.", "quantifier": "every pair of polygons of up to two vertices", "why_tests_cant": "Continuum.", "anchors": ["cmmcore/polygon.h:polygonRelationship2D"]}
{"id": "C117", "title": "A crossing segment is reported", "statement": "planeLineIntersection reports a point of the plane for every segment that meets the plane and is not parallel to it within the tolerance.", "quantifier": "every plane and segment", "why_tests_cant": "Continuum.", "anchors": ["cmmcore/plane.h:plane::planeLineIntersection"]}
{"id": "C118", "title": "The origin of a plane is on it", "statement": "The origin of plane(a,b,c,d) satisfies the equation.", "quantifier": "every equation", "why_tests_cant": "Continuum.", "anchors": ["cmmcore/plane.h:plane"]}
{"id": "C119", "title": "A plane through three points contains them", "statement": "plane(tuple) has zero signed distance at the three points.", "quantifier": "every three points not on a line", "why_tests_cant": "Continuum; depends on rounding.", "anchors": ["cmmcore/plane.h:plane_eq_from_pts", "cmmcore/plane.h:plane"]}
{"id": "C120", "title": "A ray intersection is on the ray", "statement": "planeRayIntersection reports only points in the direction of the ray.", "quantifier": "every plane and ray", "why_tests_cant": "Continuum.", "anchors": ["cmmcore/plane.h:plane::planeRayIntersection"]}
{"id": "C121", "title": "Plane coordinates round trip", "statement": "cplane::evaluateInv inverts cplane::evaluate, and origin plus coordinates along the axes and the normal give back the point.", "quantifier": "every construction plane, every point", "why_tests_cant": "Continuum.", "anchors": ["cmmcore/plane.h:cplane::evaluate", "cmmcore/plane.h:cplane::evaluateInv"]}
{"id": "C122", "title": "Distance to a construction plane", "statement": "cplane::signedDistance is zero at the origin of the plane.", "quantifier": "every construction plane", "why_tests_cant": "Continuum.", "anchors": ["cmmcore/plane.h:cplane::signedDistance"]}
{"id": "C123", "title": "Unit vectors have length one", "statement": "vec3::unit returns a vector of length one within single precision.", "quantifier": "every vector of moderate length", "why_tests_cant": "Continuum.", "anchors": ["cmmcore/vec.h:vec3::unitize", "cmmcore/vec.h:vec3::unit"]}
{"id": "C124", "title": "A reported collision is one", "statement": "If GJK reports a collision, the convex hulls of the two vertex sets have a common point.", "quantifier": "every pair of non-empty vertex sets, every iteration limit", "why_tests_cant": "Continuum; the loop may not converge.", "anchors": ["cmmcore/gjk.h:GJK", "cmmcore/gjk.h:handleSimplex"]}
{"id": "C125", "title": "GJK gives the closest point", "statement": "If GJK reports no collision, closestPointToOrigin is the point of the difference of the hulls closest to the origin.", "quantifier": "every pair of disjoint hulls", "why_tests_cant": "Continuum.", "anchors": ["cmmcore/gjk.h:GJK"]}
{"id": "C126", "title": "Closest point of a simplex is closest", "statement": "closestPointOnSimplex returns a point of the hull of the simplex, and no point of the hull is closer to the origin.", "quantifier": "every simplex of one to four different points", "why_tests_cant": "Continuum.", "anchors": ["cmmcore/gjk.h:closestPointOnSimplex"]}
{"id": "C127", "title": "Closest point on a line is closest", "statement": "closestPointOnLine returns a point of the line through the two points, and no point of the line is closer to the given point.", "quantifier": "every line, every point", "why_tests_cant": "Continuum.", "anchors": ["cmmcore/closest_point.h:closestPointOnLine", "cmmcore/vec.h:vectorProjection"]}
{"id": "C128", "title": "Closest point on a ray is closest", "statement": "closestPointOnRay returns a point of the ray, and no point of the ray is closer to the given point.", "quantifier": "every ray, every point", "why_tests_cant": "Continuum.", "anchors": ["cmmcore/closest_point.h:closestPointOnRay"]}
{"id": "C129", "title": "Closest point on a triangle to a given point", "statement": "closestPointOnTriangle(pt,a,b,c) returns a point of the triangle, and no point of the triangle is closer to pt.", "quantifier": "every triangle, every point", "why_tests_cant": "Continuum.", "anchors": ["cmmcore/closest_point.h:closestPointOnTriangle"]}
{"id": "C130", "title": "Points are totally ordered", "statement": "operator< on vec3 is irreflexive, transitive and total, so points can be keys of ordered containers.", "quantifier": "all triples of finite points", "why_tests_cant": "Quantifies over triples.", "anchors": ["cmmcore/gjk.h:operator<"]}
{"id": "C131", "title": "GJK does not depend on the old simplex", "statement": "The result of GJK does not depend on what the simplex argument held before the call.", "quantifier": "every content of the simplex argument", "why_tests_cant": "Unbounded set of contents.", "anchors": ["cmmcore/gjk.h:GJK", "cmmcore/gjk.h:handleSimplex"]}
{"id": "C132", "title": "Assembled polylines are maximal", "statement": "When assemble_polylines returns, no end of a polyline is within the tolerance of an end of a segment in a later polyline, so no two polylines could still be joined.", "quantifier": "every list of segments", "why_tests_cant": "All lists.", "anchors": ["cmmcore/polyline.h:assemble_polylines", "cmmcore/polyline.h:find_nearby_endpoints"]}
{"id": "C133", "title": "Hash keys are consistent", "statement": "Vec3Equal is an equivalence, and vectors it calls equal have the same Vec3Hash; equal pairs have the same PairDoubleHash. So unordered containers of vectors work.", "quantifier": "every pair and triple of vectors with coordinates below 143165576", "why_tests_cant": "Quantifies over triples of reals.", "anchors": ["cmmcore/vec.h:Vec3Hash", "cmmcore/vec.h:Vec3Equal", "cmmcore/cm_hash.h:quantize"]}
{"id": "C134", "title": "Equal keys mean equal points", "statement": "Vectors that Vec3Equal calls equal agree to the stated number of decimals, and vectors that agree to that many decimals are equal.", "quantifier": "every pair of vectors", "why_tests_cant": "Continuum.", "anchors": ["cmmcore/vec.h:Vec3Equal", "cmmcore/cm_hash.h:quantize"]}
{"id": "C135", "title": "Every finite vector can be hashed", "statement": "Vec3Hash has defined behaviour for every finite vector.", "quantifier": "every vector", "why_tests_cant": "Continuum.", "anchors": ["cmmcore/vec.h:Vec3Hash", "cmmcore/cm_hash.h:quantize"]}
{"id": "C136", "title": "Boundary intersections are hits of the stated boundary", "statement": "Every point find_boundary_intersections adds is a hit reported by the curve-surface intersector for the boundary curve whose number and surface it records, with the parameters reported there.", "quantifier": "every pair of surfaces, every behaviour of the curve-surface intersector", "why_tests_cant": "Unbounded behaviours of the intersector.", "anchors": ["cmmcore/boundary_intersection.h:find_boundary_intersections", "cmmcore/boundary_intersection.h:IntersectionPoint"]}
{"id": "C137", "title": "Only duplicates are removed", "statement": "Every hit of a boundary curve is reported, up to the given tolerance: some reported point is within tol of it.", "quantifier": "every pair of surfaces, every behaviour of the curve-surface intersector", "why_tests_cant": "Unbounded behaviours of the intersector.", "anchors": ["cmmcore/boundary_intersection.h:find_boundary_intersections"]}
{"id": "C138", "title": "Start parameters of a boundary point", "statement": "get_start_params returns the stored parameters on both surfaces; on the surface the boundary belongs to they lie on that boundary.", "quantifier": "every boundary point", "why_tests_cant": "Continuum.", "anchors": ["cmmcore/boundary_intersection.h:IntersectionPoint"]}
{"id": "C139", "title": "Reported pairs are near-intersections", "statement": "At every pair ccx reports, the two curves come within the tolerance of one common point.", "quantifier": "every pair of clamped curves with unit weights whose halving points are distinguishable from the knots, every tolerance, every rounding of vector lengths", "why_tests_cant": "All curves, unbounded recursion.", "anchors": ["cmmcore/ccx.h:ccx"]}
{"id": "C140", "title": "Every intersection is reported", "statement": "If the curves meet at some parameters and ccx returns, some reported pair stands for that meeting: within tol in parameter of parameters whose points are within the tolerance of the meeting point.", "quantifier": "as C139, every meeting point", "why_tests_cant": "Continuum of curves and crossings.", "anchors": ["cmmcore/ccx.h:ccx"]}
{"id": "C141", "title": "Curve-curve intersection ends", "statement": "Every call of ccx ends, with a list of pairs or with an exception; nothing else happens.", "quantifier": "as C139", "why_tests_cant": "Unbounded recursion.", "anchors": ["cmmcore/ccx.h:ccx"]}
{"id": "C142", "title": "Any positive tolerance is acceptable", "statement": "ccx returns the intersections for every positive tolerance and does not throw.", "quantifier": "every pair of curves, every positive tolerance", "why_tests_cant": "Continuum.", "anchors": ["cmmcore/ccx.h:ccx", "cmmcore/nurbs.h:split"]}
{"id": "C143", "title": "One crossing is reported once", "statement": "Curves that cross once give one pair.", "quantifier": "every pair of curves", "why_tests_cant": "Continuum.", "anchors": ["cmmcore/ccx.h:ccx"]}
{"id": "C144", "title": "Weighted curves intersect too", "statement": "Meeting points of curves with positive weights are found.", "quantifier": "every pair of rational curves", "why_tests_cant": "Continuum.", "anchors": ["cmmcore/ccx.h:ccx", "cmmcore/nurbs.h:rebuildAABB"]}
{"id": "C145", "title": "Curve-surface hits are true", "statement": "Every hit csx reports has parameters inside the curve's and the surface's intervals, its point is the curve's point at that parameter, and the surface's point at its parameters is within the tolerance.", "quantifier": "every clamped curve with unit weights and surface with positive weights, every tolerance, every behaviour of Newton's method, of the GJK and separability tests and of the rounding of lengths", "why_tests_cant": "All curves, surfaces and solver answers; unbounded recursion.", "anchors": ["cmmcore/csx.h:csx", "cmmcore/csx.h:NURBSCurveSurfaceIntersector"]}
{"id": "C146", "title": "Curve-surface intersection ends", "statement": "Every call of csx ends, with a list of hits or with invalid_argument; nothing else happens.", "quantifier": "as C145, for oracles that return", "why_tests_cant": "Unbounded recursion.", "anchors": ["cmmcore/csx.h:csx", "cmmcore/csx.h:NURBSCurveSurfaceIntersector"]}
{"id": "C147", "title": "csx returns hits and does not throw", "statement": "For valid input and a positive tolerance csx returns.", "quantifier": "every curve, surface and tolerance", "why_tests_cant": "Continuum.", "anchors": ["cmmcore/csx.h:csx", "cmmcore/csx.h:NURBSCurveSurfaceIntersector", "cmmcore/nurbs.h:split"]}
{"id": "C148", "title": "csx reports every crossing", "statement": "Every point where the curve crosses the surface is among the hits.", "quantifier": "every curve and surface", "why_tests_cant": "Continuum.", "anchors": ["cmmcore/csx.h:csx", "cmmcore/csx.h:NURBSCurveSurfaceIntersector"]}
{"id": "C149", "title": "Hits do not depend on the surface's parametrization", "statement": "Scaling the surface's knots scales the parameters of the hits and changes nothing else.", "quantifier": "every curve, surface and scale", "why_tests_cant": "Continuum.", "anchors": ["cmmcore/csx.h:csx", "cmmcore/csx.h:computePtol"]}
{"id": "C150", "title": "The central projection test only separates what is separate", "statement": "When SphericalCentralProjectionTest2 says true, the two sets of points have no common point of their hulls but the centre.", "quantifier": "every centre and every two lists of points", "why_tests_cant": "Continuum.", "anchors": ["cmmcore/separability.h:SphericalCentralProjectionTest2"]}
{"id": "C151", "title": "AABBTest only separates what is separate", "statement": "AABBTest is true exactly when one axis separates the two lists, and then the hulls have no common point.", "quantifier": "every two non-empty lists of points", "why_tests_cant": "Continuum, any length.", "anchors": ["cmmcore/separability.h:AABBTest"]}
{"id": "C152", "title": "Central projection stays on the line", "statement": "The result of centerProjectionToXY, at height zero, is on the line through the centre and the point.", "quantifier": "every centre and point", "why_tests_cant": "Continuum.", "anchors": ["cmmcore/numeric_utils.h:centerProjectionToXY"]}
{"id": "C153", "title": "Curves do not jump", "statement": "Along its whole interval a curve moves at most K times as fast as its parameter, for some K: there are no jumps, in particular none at the knots.", "quantifier": "every curve with positive weights of degree up to 8 in which no inner knot occurs more often than the degree, and every two parameters", "why_tests_cant": "Continuum of parameters; unit tests sample a few.", "anchors": ["cmmcore/nurbs.h:NURBSCurve::evaluate", "cmmcore/nurbs_utils.h:curve_point", "cmmcore/nurbs_utils.h:find_span", "cmmcore/nurbs_utils.h:basis_funs"]}
{"id": "C154", "title": "derivative(t) is the derivative of the curve", "statement": "derivative(t) returns the limit of (C(t')-C(t))/(t'-t): from the right at every parameter, and from both sides at every parameter that is an end of the curve or a knot of lower multiplicity than the degree.", "quantifier": "every curve and every parameter", "why_tests_cant": "A limit over a continuum, for every curve.", "anchors": ["cmmcore/nurbs.h:NURBSCurve::derivative", "cmmcore/nurbs_utils.h:ders_basis_funs", "cmmcore/nurbs_utils.h:curve_derivs_alg1"]}
{"id": "C155", "title": "get_derivative() is the derivative as a curve", "statement": "The curve get_derivative() returns is valid, has the same interval and a degree less by one, and its point at t is the derivative of the original at t; it agrees with derivative(t).", "quantifier": "every curve and every parameter", "why_tests_cant": "A limit over a continuum, for every curve.", "anchors": ["cmmcore/nurbs.h:NURBSCurve::get_derivative", "cmmcore/nurbs_utils.h:get_nurbs_derivative"]}
{"id": "C156", "title": "Higher derivatives are derivatives of the lower ones", "statement": "derivative(t, result, d) fills in d entries: the point, and then each entry is the derivative of the entry before, as a function of t.", "quantifier": "every curve, parameter and number d", "why_tests_cant": "A limit over a continuum, for every curve.", "anchors": ["cmmcore/nurbs.h:NURBSCurve::derivative", "cmmcore/nurbs_utils.h:curve_derivs_alg1"]}
{"id": "C157", "title": "Finite differences approximate what they are named for", "statement": "derivative_fdm approximates the first derivative and second_derivative_fdm the second; on a curve that is quadratic in its parameter they are exact up to the rounding of the step.", "quantifier": "every curve that is quadratic around the parameter", "why_tests_cant": "Continuum.", "anchors": ["cmmcore/nurbs.h:NURBSCurve::derivative_fdm", "cmmcore/nurbs.h:NURBSCurve::second_derivative_fdm", "cmmcore/nurbs.h:NURBSCurve::derivatives"]}
{"id": "C158", "title": "Spherical coordinates round-trip", "statement": "Converting a point to spherical coordinates and back gives the point; the radius is its length, the polar angle is in [0, pi] and the azimuth in (-pi, pi]; off the axis the coordinates are unique. The two-angle version keeps the direction, and the list version does so for every element, whatever the output held before.", "quantifier": "every point, every angle in range and every list of points", "why_tests_cant": "Continuum of vectors; floating-point tests sample a few.", "anchors": ["cmmcore/vec.h:cartesian_to_spherical", "cmmcore/vec.h:spherical_to_cartesian"]}
{"id": "C159", "title": "== on vectors is equality", "statement": "== is an equivalence relation that only identifies vectors standing for the same point up to rounding.", "quantifier": "all vectors", "why_tests_cant": "Continuum of vectors; floating-point tests sample a few.", "anchors": ["cmmcore/vec.h:vec3::operator==", "cmmcore/vec.h:vec4::operator=="]}
{"id": "C160", "title": "Cross products are orthogonal", "statement": "a x b is orthogonal to both, changes sign when they are exchanged, has the area of the parallelogram as its length and vanishes exactly for parallel vectors; all overloads agree.", "quantifier": "all pairs of vectors", "why_tests_cant": "Continuum of vectors; floating-point tests sample a few.", "anchors": ["cmmcore/vec.h:vec3::cross", "cmmcore/vec.h:vec4::cross"]}
{"id": "C161", "title": "Projection is the closest multiple", "statement": "project and vectorProjection agree; the result is a multiple of the second vector, the rest is orthogonal to it, and no other multiple is closer.", "quantifier": "all vectors a and all b except zero", "why_tests_cant": "Continuum of vectors; floating-point tests sample a few.", "anchors": ["cmmcore/vec.h:vec3::project", "cmmcore/vec.h:vectorProjection"]}
{"id": "C162", "title": "dot_product fills its result", "statement": "dot_product on arrays computes the product for each of the n vectors and touches nothing else.", "quantifier": "all sizes and contents", "why_tests_cant": "Any size; out-of-bounds access by one element is usually silent.", "anchors": ["cmmcore/vec.h:dot_product"]}
{"id": "C163", "title": "dist and mag2 measure distance", "statement": "dist is the Euclidean distance, dist2 its square and mag2 the squared length.", "quantifier": "all points", "why_tests_cant": "Continuum of vectors; floating-point tests sample a few.", "anchors": ["cmmcore/vec.h:dist", "cmmcore/vec.h:dist2", "cmmcore/vec.h:mag2"]}
{"id": "C164", "title": "collinear detects parallel vectors", "statement": "collinear is true exactly when one vector is a multiple of the other.", "quantifier": "all non-zero vectors", "why_tests_cant": "Continuum of vectors; floating-point tests sample a few.", "anchors": ["cmmcore/vec.h:vec2::collinear", "cmmcore/vec.h:vec3::collinear"]}
{"id": "C165", "title": "vec4 arithmetic treats all four components", "statement": "add agrees with operator+, unit returns a vector of length one, dot(a, a) is sqLength().", "quantifier": "all vec4", "why_tests_cant": "Continuum of vectors; floating-point tests sample a few.", "anchors": ["cmmcore/vec.h:vec4::add", "cmmcore/vec.h:vec4::unitize", "cmmcore/vec.h:vec4::dot"]}
{"id": "C166", "title": "decompose splits a surface into Bezier patches", "statement": "decompose() of a surface with positive weights returns one patch for each pair of knot spans, in row order; each has no interior knots, has the span as its domain and the values of the surface on it.", "quantifier": "every clamped surface whose distinct knots are further apart than the split tolerance", "why_tests_cant": "Any degrees, knots, net and parameters; tests sample a few surfaces at a few points.", "anchors": ["cmmcore/nurbs.h:NURBSSurface::decompose"]}
{"id": "C167", "title": "Surfaces do not jump", "statement": "When interior knots are no more than degree-fold and weights are positive, points of the surface at nearby parameters are near: their distance is at most a constant times that of the parameters.", "quantifier": "all surfaces and all pairs of parameters in the domain", "why_tests_cant": "The constant must work for all pairs of points at once.", "anchors": ["cmmcore/nurbs.h:NURBSSurface::evaluate"]}
{"id": "C168", "title": "derivative_u and derivative_v are partial derivatives", "statement": "The value returned is the derivative of evaluate() in that parameter.", "quantifier": "all surfaces, all parameters inside the domain", "why_tests_cant": "Any degrees, knots, net and parameters; tests sample a few surfaces at a few points.", "anchors": ["cmmcore/nurbs.h:NURBSSurface::derivative_u", "cmmcore/nurbs.h:NURBSSurface::derivative_v"]}
{"id": "C169", "title": "normal is a unit vector perpendicular to the surface", "statement": "normal(u, v) is perpendicular to both partial derivatives and has length one where they are not parallel.", "quantifier": "all surfaces and parameters", "why_tests_cant": "Any degrees, knots, net and parameters; tests sample a few surfaces at a few points.", "anchors": ["cmmcore/nurbs.h:NURBSSurface::normal"]}
{"id": "C170", "title": "cross of two surfaces is pointwise", "statement": "The cross product of two surfaces of the same shape is defined, and evaluates to the cross product of their points.", "quantifier": "all pairs of surfaces with nets of the same size", "why_tests_cant": "Any degrees, knots, net and parameters; tests sample a few surfaces at a few points.", "anchors": ["cmmcore/nurbs.h:cross", "cmmcore/vec.h:vec4::cross"]}
{"id": "C171", "title": "Surface-surface intersection reports only points of both surfaces", "statement": "Every point that the search adds has parameters inside both domains, and both surfaces pass within the tolerance of it in each coordinate at these parameters. The ends of every patch that it adds are hits of a boundary curve of a part of one surface with a part of the other. What was in the result before stays.", "quantifier": "all pairs of decomposable surfaces, tolerances, separation tests and curve-surface intersections", "why_tests_cant": "Every pair of surfaces, of any size, and every tolerance; the recursion visits parts that no test enumerates.", "anchors": ["cmmcore/ssx.h:detectIntersections", "cmmcore/ssx.h:findStartIntersectionPoints", "cmmcore/ssx.h:processSimpleSurfaceIntersection"]}
{"id": "C172", "title": "Surface-surface intersection ends", "statement": "For surfaces of degree at most four the search ends after at most 24 levels of subdivision, with a result or with the exception of a domain too small to split; it never leaves the arrays it reads.", "quantifier": "all such surfaces and tolerances, zero and negative ones included", "why_tests_cant": "Non-termination and depth of recursion are not observable in a finite number of runs.", "anchors": ["cmmcore/ssx.h:detectIntersections", "cmmcore/ssx.h:findStartIntersectionPoints"]}
{"id": "C173", "title": "Surface-surface intersection returns", "statement": "The search never throws for valid surfaces.", "quantifier": "all decomposable surfaces and tolerances", "why_tests_cant": "Every pair of surfaces, of any size, and every tolerance; the recursion visits parts that no test enumerates.", "anchors": ["cmmcore/ssx.h:detectIntersections", "cmmcore/nurbs.h:NURBSSurface::subdivide"]}
{"id": "C174", "title": "Surface-surface intersection misses nothing", "statement": "Every point where the surfaces meet is near a reported point or part of a reported patch.", "quantifier": "all pairs of surfaces and all points where they meet", "why_tests_cant": "Completeness ranges over all points of the intersection.", "anchors": ["cmmcore/ssx.h:detectIntersections", "cmmcore/ssx.h:findStartIntersectionPoints"]}
{"id": "C175", "title": "The Gauss map is the field of normals", "statement": "gaussMap() of a Bezier patch is a Bezier patch over the unit square, and its value at each pair of parameters is the cross product of the partial derivatives of the patch.", "quantifier": "Bezier patches with unit weights of degrees one to four, all parameters", "why_tests_cant": "An identity of polynomials at all points.", "anchors": ["cmmcore/gauss_map.h:gaussMap", "cmmcore/monomial.h:Monomial2D::computeNormal"]}
{"id": "C176", "title": "Separable Gauss maps have no parallel normals", "statement": "When gaussMapSeparability() answers true, no normal of one surface is a multiple of a normal of the other.", "quantifier": "all pairs of patches and pairs of points on them", "why_tests_cant": "All pairs of normals at once.", "anchors": ["cmmcore/gauss_map.h:gaussMapSeparability", "cmmcore/separability.h:SphericalSeparabilityTest"]}
{"id": "C177", "title": "SAT3D calls only separate sets separate", "statement": "When SAT3D() answers true the convex hulls of the two sets of points have no common point.", "quantifier": "all finite sets of points and tolerances", "why_tests_cant": "Every pair of surfaces, of any size, and every tolerance; the recursion visits parts that no test enumerates.", "anchors": ["cmmcore/separability.h:SAT3D", "cmmcore/gjk.h:gjk"]}
{"id": "C178", "title": "A curve of degree one runs along its control polygon", "statement": "The points that a curve of degree one with positive weights and no repeated inner knots runs through are exactly the points of the segments between consecutive control points, and segment i is run through between knots i+1 and i+2.", "quantifier": "all such curves, of any number of control points and any weights, and all points", "why_tests_cant": "Equality of two infinite sets of points for control polygons of any size.", "anchors": ["cmmcore/nurbs.h:NURBSCurve::evaluate"]}
{"id": "C179", "title": "join() joins exactly the open curves with touching ends", "statement": "join() of two curves with clamped ends answers true exactly when neither has closing control points and an end of one is within 1e-10 of an end of the other. The result then has the control points of the first, possibly reversed, followed by those of the second, possibly reversed, so that the two touching ends are next to each other; it is marked periodic exactly when the two outer ends touch too.", "quantifier": "all pairs of clamped curves with positive weights", "why_tests_cant": "Every pair of curves, with every combination of touching ends.", "anchors": ["cmmcore/nurbs.h:join"]}
{"id": "C180", "title": "The joined curve runs through both curves", "statement": "The result of join() runs through every point of both curves.", "quantifier": "all pairs of joinable curves and all points of them", "why_tests_cant": "All points of all pairs of curves.", "anchors": ["cmmcore/nurbs.h:join"]}
{"id": "C181", "title": "A periodic curve closes", "statement": "A curve constructed as periodic has the same point at both ends of interval().", "quantifier": "all control points and degrees", "why_tests_cant": "Control polygons of any size and degree.", "anchors": ["cmmcore/nurbs.h:NURBSCurve::NURBSCurve", "cmmcore/nurbs.h:NURBSCurve::generate_knots_periodic", "cmmcore/nurbs.h:NURBSCurve::make_periodic", "cmmcore/nurbs.h:NURBSCurve::interval"]}
{"id": "C182", "title": "length() lies between the slowest and the fastest speed", "statement": "length(t0, t1) is at least the lowest speed on the way times t1 - t0, and at most the highest speed times t1 - t0.", "quantifier": "polynomial curves of degree one to three, all parts of them, all tolerances and bounds", "why_tests_cant": "The adaptive quadrature chooses its own points; the bound must hold for all curves and tolerances.", "anchors": ["cmmcore/nurbs.h:NURBSCurve::length", "cmmcore/integrate.h:integrate"]}
{"id": "C183", "title": "A curve is at least as long as the distance of its ends", "statement": "length() is not less than the distance of the end points of the curve, up to the tolerance.", "quantifier": "all polynomial curves", "why_tests_cant": "All curves; a counterexample needs a curve that is at rest at every point of quadrature.", "anchors": ["cmmcore/nurbs.h:NURBSCurve::length", "cmmcore/integrate.h:integrate"]}
{"id": "C184", "title": "lengthAt() inverts length()", "statement": "On a curve of constant speed lengthAt(l, t0) is the parameter t for which length(t0, t) = l, for every initial guess.", "quantifier": "all polynomial curves of constant speed, all lengths inside the curve and all guesses", "why_tests_cant": "All curves, lengths and initial guesses of the iteration.", "anchors": ["cmmcore/nurbs.h:NURBSCurve::lengthAt", "cmmcore/integrate.h:find_t1_newton"]}
{"id": "C185", "title": "solve2x2 solves", "statement": "solve2x2 answers false exactly when the determinant is smaller than 2^-52 in absolute value; otherwise its result is the one solution of the two equations.", "quantifier": "all 2 by 2 systems", "why_tests_cant": "Every system, up to the threshold.", "anchors": ["cmmcore/point_inversion.h:solve2x2"]}
{"id": "C186", "title": "A point of a curve is found on it", "statement": "point_inversion_curve for a point on the curve returns a parameter of that point (up to the tolerances), whatever the start.", "quantifier": "all curves, points on them and starts", "why_tests_cant": "All curves, points and starting values of a Newton iteration.", "anchors": ["cmmcore/point_inversion.h:point_inversion_curve"]}
{"id": "C187", "title": "The parameter found is in the interval", "statement": "point_inversion_curve from a start in the interval of the curve returns a parameter in the interval.", "quantifier": "all curves, points, starts and tolerances", "why_tests_cant": "The steps of the iteration are not bounded; any curve and point may lead outside.", "anchors": ["cmmcore/point_inversion.h:point_inversion_curve"]}
{"id": "C188", "title": "A point of a surface is found on it", "statement": "point_inversion_surface for a point on the surface returns parameters of that point (up to the tolerances), or throws where the surface is degenerate.", "quantifier": "all surfaces, points on them and starts", "why_tests_cant": "All surfaces, points and starting values of a Newton iteration.", "anchors": ["cmmcore/point_inversion.h:point_inversion_surface"]}
{"id": "C189", "title": "improve_uv finds the step in the parameters", "statement": "If the step in space is a du + b dv with independent du and dv, improve_uv answers true with (a, b) added to the parameters.", "quantifier": "all tangents and all steps in their plane", "why_tests_cant": "All pairs of tangents, in every position relative to the coordinate planes.", "anchors": ["cmmcore/ssx.h:improve_uv", "cmmcore/ssx.h:improve_uv_robust"]}
{"id": "C190", "title": "Knot refinement keeps the spline", "statement": "knot_refinement raises every requested knot (the given ones or those of the domain, with the middles asked for by density) to multiplicity degree, leaves the others and the domain alone, and the returned control points describe the same spline in all four coordinates; it throws runtime_error exactly when no knot can be added.", "quantifier": "all degrees, clamped knot vectors, control points, lists of new knots and densities, if different knots are 1e-8 apart", "why_tests_cant": "Any number and position of new knots, and a curve at every parameter.", "anchors": ["cmmcore/nurbs_utils.h:knot_refinement"]}
{"id": "C191", "title": "Refinement keeps the points of the curve", "statement": "Evaluating the refined curve gives the points of the original, at every parameter.", "quantifier": "all weights, knot vectors and new knots", "why_tests_cant": "Every parameter and all weights.", "anchors": ["cmmcore/nurbs_utils.h:knot_refinement"]}
{"id": "C192", "title": "Removing an inserted knot gives the curve back", "statement": "knot_removal of a knot just inserted returns the control points from before; the number of points falls by num.", "quantifier": "all curves, knots and tolerances", "why_tests_cant": "All curves and knots.", "anchors": ["cmmcore/nurbs_utils.h:knot_removal"]}
{"id": "C193", "title": "Derivative control points of a curve", "statement": "Row k + 1 of curve_deriv_cpts, on the knots without k + 1 at both ends, is the derivative of row k at every parameter; two-sided where the multiplicity of the parameter allows it.", "quantifier": "all degrees, knot vectors, control points and orders up to the degree", "why_tests_cant": "A limit at every parameter, for every curve.", "anchors": ["cmmcore/nurbs_utils.h:curve_deriv_cpts"]}
{"id": "C194", "title": "A part of the derivative control points", "statement": "curve_deriv_cpts for control points r1 to r2 gives the same entries as for all of them.", "quantifier": "all curves and ranges", "why_tests_cant": "All ranges of all curves.", "anchors": ["cmmcore/nurbs_utils.h:curve_deriv_cpts"]}
{"id": "C195", "title": "Derivative control points of a surface", "statement": "surface_deriv_cpts for all control points: table (k + 1, l) is the derivative by u of table (k, l), table (k, l + 1) that by v, at every parameter, up to the requested order.", "quantifier": "all degrees, knot vectors, nets of control points and orders", "why_tests_cant": "A limit at every pair of parameters, for every surface.", "anchors": ["cmmcore/nurbs_utils.h:surface_deriv_cpts"]}
{"id": "C196", "title": "A part of the derivative control points of a surface", "statement": "surface_deriv_cpts for a rectangle of control points gives the same entries as for all of them.", "quantifier": "all surfaces and rectangles", "why_tests_cant": "All rectangles of all surfaces.", "anchors": ["cmmcore/nurbs_utils.h:surface_deriv_cpts"]}
{"id": "C197", "title": "Derivatives of a rational surface", "statement": "The table of rat_surface_derivs satisfies the product rule: weight times result has the given derivatives, at every order asked for.", "quantifier": "all tables of homogeneous derivatives with non-zero weight, orders up to 30", "why_tests_cant": "Every table and every order.", "anchors": ["cmmcore/nurbs_utils.h:rat_surface_derivs"]}
{"id": "C198", "title": "STEP entities are numbered without gaps", "statement": "An export of a surface writes lines whose ids count up from the one given, each defined once, and returns the next free id; a file starts at 10.", "quantifier": "all surfaces and starting ids", "why_tests_cant": "Any number of control points, so any number of lines.", "anchors": ["cmmcore/nurbs.h:NURBSSurface::toSTEP", "cmmcore/nurbs.h:writeSTEPFile"]}
{"id": "C199", "title": "STEP references stay inside the export", "statement": "Every #id mentioned in an exported line is the id of a line of that export.", "quantifier": "all surfaces and starting ids", "why_tests_cant": "Any number of lines.", "anchors": ["cmmcore/nurbs.h:NURBSSurface::toSTEP"]}
{"id": "C200", "title": "STEP references have the right kind", "statement": "What an exported line refers to is of the kind its entity needs (an EDGE_CURVE two VERTEX_POINTs and a curve, a PRODUCT_DEFINITION a formation and a context, ...).", "quantifier": "all surfaces and starting ids", "why_tests_cant": "Any number of lines.", "anchors": ["cmmcore/nurbs.h:NURBSSurface::toSTEP"]}
{"id": "C201", "title": "STEP lines have matching brackets", "statement": "The brackets of every exported line match.", "quantifier": "all surfaces and starting ids", "why_tests_cant": "Any number of control points and knots inside a line.", "anchors": ["cmmcore/nurbs.h:NURBSSurface::toSTEP", "cmmcore/nurbs.h:NURBSCurve::toSTEP", "cmmcore/utils.h:vectorToString"]}
{"id": "C202", "title": "The exported curve is the curve", "statement": "Degree, points, weights and knots of the exported entity describe a rational curve through the same points as evaluate, at every parameter.", "quantifier": "all curves with positive weights whose knots are 1e-8 apart", "why_tests_cant": "Every parameter of every curve.", "anchors": ["cmmcore/nurbs.h:NURBSCurve::toSTEP", "cmmcore/nurbs_utils.h:getKnotMultiplicities"]}
{"id": "C203", "title": "The exported surface is the surface", "statement": "Degrees, net of points, weights and knots of the exported entity describe a rational surface through the same points as evaluate, at every pair of parameters.", "quantifier": "all surfaces with positive weights whose knots are 1e-8 apart", "why_tests_cant": "Every pair of parameters of every surface.", "anchors": ["cmmcore/nurbs.h:NURBSSurface::toSTEP"]}
{"id": "C204", "title": "Exported edges follow their curves", "statement": "Each exported edge goes from vertex to vertex along a curve that starts at the one and ends at the other.", "quantifier": "all clamped surfaces", "why_tests_cant": "All surfaces.", "anchors": ["cmmcore/nurbs.h:NURBSSurface::toSTEP"]}
{"id": "C205", "title": "The export keeps numbers", "statement": "The numbers read back from the text are the coordinates, weights and knots that were exported.", "quantifier": "all doubles", "why_tests_cant": "All numbers.", "anchors": ["cmmcore/nurbs.h:NURBSCurve::toSTEP", "cmmcore/nurbs.h:NURBSSurface::toSTEP"]}
{"id": "C206", "title": "The distance of two segments", "statement": "segmentsDistance returns the smallest distance of a point of one segment and a point of the other, the points and their parameters; both overloads agree.", "quantifier": "all pairs of segments", "why_tests_cant": "All positions and all parameters along both.", "anchors": ["cmmcore/numeric_utils.h:segmentsDistance"]}
{"id": "C207", "title": "A column has one entry per row", "statement": "vectorColumn returns the entries of the column, one for each row, or throws when a row is too short.", "quantifier": "all matrices and column numbers", "why_tests_cant": "All shapes.", "anchors": ["cmmcore/utils.h:vectorColumn"]}
{"id": "C208", "title": "Normals of a polygon", "statement": "polygonNormals appends one outward normal for each edge, perpendicular to it, of length 1 if asked for, and leaves the vector's contents alone.", "quantifier": "all polygons", "why_tests_cant": "Any number of vertices.", "anchors": ["cmmcore/polygon.h:polygonNormals"]}
{"id": "C209", "title": "Normals of a polygon up to direction", "statement": "polygonUniqueNormals collects for each edge a normal, and no two normals along the same line.", "quantifier": "all polygons", "why_tests_cant": "Any number of vertices, and any collisions of hash values.", "anchors": ["cmmcore/polygon.h:polygonUniqueNormals"]}
{"id": "C210", "title": "Boxes of directions", "statement": "SphericalAABBTest calls two sets of directions separable only when they have no direction in common; the answer is symmetric.", "quantifier": "all pairs of sets of directions", "why_tests_cant": "All sets.", "anchors": ["cmmcore/aabb.h:SphericalAABB", "cmmcore/separability.h:SphericalAABBTest"]}
{"id": "C211", "title": "A tolerance is positive and grows", "statement": "calc_epsilon is positive for every number, 0 included, and does not shrink when the number gets larger in size.", "quantifier": "all numbers", "why_tests_cant": "All numbers, also below the smallest normal one.", "anchors": ["cmmcore/utils.h:calc_epsilon"]}
{"id": "C212", "title": "A convex hull contains the points", "statement": "convex_hull returns some of the points such that all points are in their convex hull, and says what kind of hull it is.", "quantifier": "all lists of points, all ways equal elements may be sorted", "why_tests_cant": "Any number of points.", "anchors": ["cmmcore/convexhull.h:convex_hull"]}
{"id": "C213", "title": "A view read from a file is the last one written", "statement": "read_from_file after write_to_file returns a view with the shape and elements of the view written last.", "quantifier": "all views and all contents of the file", "why_tests_cant": "All shapes and strides.", "anchors": ["cmmcore/memoryview.h:write_to_file", "cmmcore/memoryview.h:read_from_file"]}
{"id": "C214", "title": "A write that breaks off is never taken for a view", "statement": "When write_to_file breaks off after any number of bytes, it throws, and reading throws or returns the view that was there before.", "quantifier": "all views and all points where the write breaks off", "why_tests_cant": "All crash points.", "anchors": ["cmmcore/memoryview.h:write_to_file", "cmmcore/memoryview.h:read_from_file"]}
{"id": "C215", "title": "GaussMap and the free functions agree", "statement": "A GaussMap holds the surface that gaussMap returns, and its separabilityTest answers as gaussMapSeparability does.", "quantifier": "all surfaces and all answers of the test on the sphere", "why_tests_cant": "All surfaces.", "anchors": ["cmmcore/gauss_map.h:GaussMap"]}
{"id": "C216", "title": "Parts of a GaussMap keep their normals", "statement": "After any number of subdivisions, the points of each part have the normals of the surface over its rectangle in their hull, and the inverse points are their negatives.", "quantifier": "all Bezier patches of degree 1 to 4, all sequences of subdivisions, all parameters", "why_tests_cant": "Any depth of subdivision and all parameters.", "anchors": ["cmmcore/gauss_map.h:GaussMap::subdivide"]}
{"id": "C217", "title": "A crossing is never rejected", "statement": "The test by boxes and GJK that the curve-surface intersection uses to discard a pair of parts never discards a curve and a surface that meet.", "quantifier": "all curves and surfaces with positive weights that meet, all tolerances", "why_tests_cant": "All shapes and all positions of the meeting point.", "anchors": ["cmmcore/csx.h:noNewIntersections", "cmmcore/gjk.h:gjk"]}
{"id": "C218", "title": "The convex hull of points in space is made of their extreme points", "statement": "convex_hull3d adds to the result exactly the input points that are not in the convex hull of the others, each once, and every input point is in the convex hull of what it added.", "quantifier": "all lists of points", "why_tests_cant": "Every number and arrangement of points; the walk over the facets depends on all of them.", "anchors": ["cmmcore/_convexhull/quickhull.hpp:convex_hull3d", "cmmcore/_convexhull/quickhull.hpp:quick_hull"]}
{"id": "C219", "title": "The convex hull does not depend on unset memory", "statement": "The result of convex_hull3d is determined by its points.", "quantifier": "all points, all contents of fresh memory", "why_tests_cant": "A test sees one content of memory.", "anchors": ["cmmcore/_convexhull/quickhull.hpp:quick_hull", "cmmcore/_convexhull/quickhull.hpp:create_initial_simplex"]}
{"id": "C220", "title": "Small bodies have a hull", "statement": "convex_hull3d finds the extreme points of a body however small it is.", "quantifier": "all points, all scales", "why_tests_cant": "All scales.", "anchors": ["cmmcore/_convexhull/quickhull.hpp:convex_hull3d", "cmmcore/_convexhull/quickhull.hpp:hypervolume", "cmmcore/cm_limits.h:CMMCORE_NUMERIC_EPSILON_DOUBLE"]}
{"id": "C221", "title": "The convex hull holds input points only", "statement": "After convex_hull3d the result holds points of the input and nothing else.", "quantifier": "all points, all earlier contents of the result", "why_tests_cant": "All earlier contents.", "anchors": ["cmmcore/_convexhull/quickhull.hpp:convex_hull3d"]}
{"id": "C222", "title": "Every point of a convex hull is extreme", "statement": "No point returned by convex_hull3d lies in the convex hull of the other inputs.", "quantifier": "all points", "why_tests_cant": "All arrangements of points.", "anchors": ["cmmcore/_convexhull/quickhull.hpp:convex_hull3d"]}
{"id": "C223", "title": "Points on a plane have a hull", "statement": "For points on one plane the convex hull of what convex_hull3d returns holds every input point.", "quantifier": "all points on one plane", "why_tests_cant": "All polygons on all planes.", "anchors": ["cmmcore/_convexhull/quickhull.hpp:convex_hull3d", "cmmcore/_convexhull/quickhull.hpp:get_affine_basis", "cmmcore/_convexhull/quickhull.hpp:steal_best"]}
{"id": "C224", "title": "The periodicity test compares the ends of the control polygon", "statement": "NURBSCurve::is_periodic returns true exactly when the last degree control points equal the first ones, coordinate by coordinate as numbers: the two zeros are equal and NaN equals nothing.", "quantifier": "all curves with at least as many control points as their degree, all bit patterns of coordinates", "why_tests_cant": "All coordinates including signed zeros and NaN.", "anchors": ["cmmcore/nurbs.h:NURBSCurve::is_periodic"]}
{"id": "C225", "title": "The memory of a view is released once", "statement": "No program that makes, copies, slices, assigns and destroys views releases the same memory twice.", "quantifier": "all histories of operations on any number of views", "why_tests_cant": "Every order of copies and destructions.", "anchors": ["cmmcore/memoryview.h:MemoryView::~MemoryView", "cmmcore/memoryview.h:MemoryView::copy", "cmmcore/memoryview.h:MemoryView::is_managed_"]}
{"id": "C226", "title": "The memory of a view is released in the end", "statement": "Once all views are destroyed, all memory that copy() and deserialize() allocated has been released.", "quantifier": "all histories of operations on any number of views", "why_tests_cant": "Every order of copies and destructions.", "anchors": ["cmmcore/memoryview.h:MemoryView::deserialize", "cmmcore/memoryview.h:MemoryView::copy", "cmmcore/memoryview.h:MemoryView::~MemoryView"]}
{"id": "C227", "title": "A view that exists can be read", "statement": "Reading an element of a view that has not been destroyed reads memory that has not been released.", "quantifier": "all histories of operations on any number of views", "why_tests_cant": "Every order of slices and destructions.", "anchors": ["cmmcore/memoryview.h:MemoryView::slice", "cmmcore/memoryview.h:MemoryView::operator[]", "cmmcore/memoryview.h:MemoryView::~MemoryView"]}
{"id": "C228", "title": "Iterating meets the elements of the view", "statement": "Going from begin() to end() meets each element of the view once, in row-major order, and no other element.", "quantifier": "all views", "why_tests_cant": "Every shape, offset and stride.", "anchors": ["cmmcore/memoryview.h:MemoryView::begin", "cmmcore/memoryview.h:MemoryView::end"]}
{"id": "C229", "title": "Views share their elements", "statement": "An assignment through a view derived by slice() and operator[] is seen through every other view of the same data at exactly the places that name the same element; nothing else changes.", "quantifier": "all data, shapes, pairs of chains of slices with positive steps and indexings, and places", "why_tests_cant": "Every pair of chains of slices and every index.", "anchors": ["cmmcore/memoryview.h:MemoryView::operator()", "cmmcore/memoryview.h:MemoryView::slice", "cmmcore/memoryview.h:MemoryView::operator[]"]}
{"id": "C230", "title": "Different vectors are printed differently", "statement": "For every two vectors that differ in a coordinate that is written differently, the texts written by operator<< and by format_vec3vec differ.", "quantifier": "all vec2, vec3 and vec4 values, all lists of points, every way of writing numbers without commas and brackets", "why_tests_cant": "a clash needs two particular vectors; tests look at the text of one", "anchors": ["cmmcore/vec.h:operator<<", "cmmcore/vec.h:format_vec3vec"]}
{"id": "C231", "title": "The printed hierarchy shows the hierarchy", "statement": "Two built hierarchies have the same output_bvh_nodes text exactly if they have nodes at the same places, with boxes whose corners are written the same; two lists of objects have the same output_objects3d text exactly if the boxes are written the same.", "quantifier": "all object lists, all partitions and sorts, both ways of building, every way of writing numbers without commas and brackets", "why_tests_cant": "injectivity ranges over all pairs of trees", "anchors": ["cmmcore/bvh.hpp:output_bvh_nodes", "cmmcore/bvh.hpp:output_objects3d"]}
{"id": "C232", "title": "Basis functions survive rounding", "statement": "Computed in floating point, the basis functions at a parameter of a valid knot vector are never negative, each is the true value up to a factor between (1-u)^6p and (1-u)^-6p, where u bounds the relative error of one operation, their sum is one up to the same factor, and no rounding ever makes a denominator zero.", "quantifier": "all valid knot vectors, parameters, degrees up to 8, all ways of rounding with a relative error below u", "why_tests_cant": "a bound over all knot vectors and all roundings; tests compare a few values with a tolerance", "anchors": ["cmmcore/nurbs_utils.h:basis_funs"]}
{"id": "C233", "title": "Computed curve points are accurate", "statement": "With positive weights, the point evaluate computes in floating point differs from the exact point of the curve, in each coordinate, by at most ((1-u)^-(14p+6) - 1) times the largest coordinate of a control point; in doubles by at most 2^-45 of it, and so leaves a box around the control points by no more than that.", "quantifier": "all curves with positive weights and valid knots, all parameters, all ways of rounding", "why_tests_cant": "the worst case over all curves, parameters and roundings", "anchors": ["cmmcore/nurbs.h:NURBSCurve::evaluate", "cmmcore/nurbs_utils.h:curve_point"]}
{"id": "C234", "title": "Computed surface points are accurate", "statement": "With positive weights, the point NURBSSurface::evaluate computes in floating point differs from the exact point by at most ((1-u)^-(14(p+q)+9) - 1) times the largest coordinate of a control point; in doubles by at most 2^-44 of it.", "quantifier": "all surfaces with positive weights and valid knots, all parameters, all ways of rounding", "why_tests_cant": "the worst case over all surfaces, parameters and roundings", "anchors": ["cmmcore/nurbs.h:NURBSSurface::evaluate", "cmmcore/nurbs_utils.h:surface_point"]}
{"id": "C235", "title": "Doubles round as assumed", "statement": "Rounding to the nearest double has a relative error of at most 2^-53 and delivers a number for every result in the normal range; with exact arithmetic the rounded computations are the evaluations themselves.", "quantifier": "all rational results, all curves, surfaces and parameters", "why_tests_cant": "statement about all numbers", "anchors": ["cmmcore/nurbs_utils.h:basis_funs", "cmmcore/nurbs_utils.h:curve_point", "cmmcore/nurbs_utils.h:surface_point"]}
{"id": "C236", "title": "Knot removal respects the tolerance", "statement": "knot_removal takes a knot out only where the points of the curve without it agree within the given tolerance; otherwise it returns the control points as they were.", "quantifier": "all valid knot vectors, control points, inner knots of any multiplicity up to the degree and tolerances", "why_tests_cant": "a statement about all curves and tolerances; the failing ones are those whose degree minus multiplicity is even, a test of one degree sees one case", "anchors": ["cmmcore/nurbs_utils.h:knot_removal"]}
{"id": "C237", "title": "Rounding does not spoil knot insertion", "statement": "Computed in floating point, insert_knot gives the exact new knots and control points that differ from the exact ones by at most ((1-u)^-8r - 1) times the largest coordinate, r the number of insertions; in doubles, with weights one, no point of the curve moves by more than 2^-44 of the largest coordinate, and evaluating the new curve in doubles gives the old points within 2^-43 of it.", "quantifier": "all valid curves, parameters, numbers of insertions and roundings with relative error u; the double theorem for every choice of fused and unfused products", "why_tests_cant": "the bound is about every sequence of roundings of every curve; a test sees single curves on one processor", "anchors": ["cmmcore/nurbs.h:NURBSCurve::insert_knot", "cmmcore/nurbs_utils.h:knot_insertion"]}
{"id": "C238", "title": "Rounding does not spoil splitting", "statement": "Splitting a curve with weights one in doubles gives two curves that meet at the parameter and run through the points of the old one up to 2^-44 of the largest coordinate, up to 2^-43 when they are evaluated in doubles; their boxes contain the old points up to 2^-44 of it.", "quantifier": "all valid curves with weights one, parameters inside the domain and choices of fused and unfused products", "why_tests_cant": "the bound is about every sequence of roundings of every curve; a test sees single curves on one processor", "anchors": ["cmmcore/nurbs.h:NURBSCurve::split", "cmmcore/nurbs_utils.h:knot_insertion", "cmmcore/nurbs_utils.h:find_multiplicity"]}
{"id": "C239", "title": "A knot is taken out several times", "statement": "Taking out a knot as often as it was put in gives the curve back; for any number of removals up to the number of times the knot occurs, only points and knots that exist are read.", "quantifier": "all valid knot vectors, points, tolerances and numbers of removals", "why_tests_cant": "the rounds widen towards both ends of the points; a test sees single degrees, multiplicities and positions", "anchors": ["cmmcore/nurbs_utils.h:knot_removal", "cmmcore/nurbs_utils.h:knot_removal_alpha_i", "cmmcore/nurbs_utils.h:knot_removal_alpha_j"]}
{"id": "C240", "title": "The planar hull survives double arithmetic", "statement": "Computed in doubles, with or without fused multiply-add, convex_hull2d of three or more points that are not on one line returns the corners of a convex polygon in counterclockwise order that contains all the points.", "quantifier": "all lists of points with whole or dyadic coordinates, all sorting algorithms and choices of fused and unfused products", "why_tests_cant": "rounding can turn the sign of any orientation test; a test sees single sets of points on one processor", "anchors": ["cmmcore/_convexhull/convexhull2d.h:convex_hull2d", "cmmcore/_convexhull/convexhull2d.h:orientation", "cmmcore/_convexhull/convexhull2d.h:PointComparator"]}
{"id": "C241", "title": "The relationship of polygons survives double arithmetic", "statement": "Computed in doubles, with or without fused multiply-add, polygonRelationship2D of two convex polygons answers DISTANCE exactly when they have no common point, TOUCH exactly when they meet but a line separates them, and INTERSECT otherwise; pointInPolygon2D answers as in exact arithmetic.", "quantifier": "all pairs of convex polygons (for pointInPolygon2D all polygons and points) with whole or dyadic coordinates, all choices of fused and unfused products", "why_tests_cant": "near an edge the answer hangs on the last bit of a projection or a quotient; a test sees single polygons on one processor", "anchors": ["cmmcore/polygon.h:polygonRelationship2D", "cmmcore/polygon.h:pointInPolygon2D", "cmmcore/vec.h:vec2::dot"]}
{"id": "C242", "title": "The separation test survives double arithmetic", "statement": "Computed in doubles, SAT2D answers true only for polygons without a common point, and answers as in exact arithmetic.", "quantifier": "all pairs of polygons with whole or dyadic coordinates, all behaviours of the set of normals, all choices of fused and unfused products", "why_tests_cant": "rounded projections of polygons that meet may look apart; a test sees single polygons on one processor", "anchors": ["cmmcore/separability.h:SAT2D", "cmmcore/separability.h:polygonProject", "cmmcore/vec.h:vec2::projection"]}
{"id": "C243", "title": "A patch made from coefficients converts to the patch of its polynomial", "statement": "A Monomial2D made from a table of coefficients, with the sizes given or taken from the table, copied or not, converts to a Bezier patch that runs through the polynomial; one made from sizes alone is the zero patch. With sizes that are not those of the table the conversion throws and returns no patch; negative sizes throw.", "quantifier": "all tables of at most 31 by 31 coefficients, all sizes, all parameters", "why_tests_cant": "the conversion goes through a matrix inverse of each size; a test sees single tables", "anchors": ["cmmcore/monomial.h:Monomial2D", "cmmcore/monomial.h:to_bezier"]}
{"id": "C244", "title": "Rounding does not make the KD-tree skip the nearest point", "statement": "In double arithmetic, with or without fused multiply-add and whatever overflows or underflows, nearestNeighbor returns a stored point whose distance to the target, as distanceSq computes it, is at most that of every stored point.", "quantifier": "all histories of build and insert with finite coordinates, all targets, all choices of fused and unfused products", "why_tests_cant": "the test that skips a subtree compares a rounded square with a rounded sum of rounded squares; a test sees single trees on one processor", "anchors": ["cmmcore/kdtree.h:nearestNeighbor", "cmmcore/vec.h:vec3::distanceSq"]}
{"id": "C245", "title": "The KD-tree finds the nearest point in double arithmetic", "statement": "In double arithmetic nearestNeighbor returns a stored point at minimal distance from the target; a stored point is found by asking for it.", "quantifier": "all histories of build and insert with finite coordinates, all targets", "why_tests_cant": "points at distances that round to the same double must be met; a test sees single trees", "anchors": ["cmmcore/kdtree.h:nearestNeighbor", "cmmcore/vec.h:vec3::distanceSq"]}
{"id": "C246", "title": "Rounding does not make the recursive pair query skip a pair", "statement": "In double arithmetic, whatever overflows or underflows, the recursive intersect_bvh reports exactly the pairs of objects whose boxes share points and whose common box has a computed volume that is not below 1e-6, each once.", "quantifier": "all collections of objects with proper boxes of finite coordinates, all ways the trees are built", "why_tests_cant": "the boxes of inner nodes are tested too, with volumes that are rounded, infinite or NaN; a test sees single trees", "anchors": ["cmmcore/bvh.hpp:intersect_bvh", "cmmcore/aabb.h:AABB::volume"]}
{"id": "C247", "title": "The recursive pair query applies its volume threshold in double arithmetic", "statement": "In double arithmetic the recursive intersect_bvh reports exactly the pairs of objects whose boxes have a volume of at least 1e-6 in common.", "quantifier": "all collections of objects with proper boxes of finite coordinates", "why_tests_cant": "volumes next to the threshold, and sides whose product leaves the range of doubles, must be met; a test sees single boxes", "anchors": ["cmmcore/bvh.hpp:intersect_bvh", "cmmcore/aabb.h:AABB::volume"]}
{"id": "C248", "title": "Rounding does not hide an endpoint that is close enough", "statement": "In double arithmetic, if an index of endpoints is built and queried without leaving the range of int, the candidates returned for a point contain every indexed endpoint whose computed distance to the point is below eps.", "quantifier": "all finite double coordinates for which the cells fit an int, all choices of fused and unfused products", "why_tests_cant": "the cell of a coordinate is rounded before it is cut off, and one double is put in the wrong cell; a test sees single points", "anchors": ["cmmcore/polyline.h:PointKey", "cmmcore/polyline.h:find_nearby_endpoints", "cmmcore/polyline.h:add_to_index", "cmmcore/vec.h:vec3::length"]}
{"id": "C249", "title": "Polylines are assembled correctly in double arithmetic", "statement": "In double arithmetic, when assemble_polylines returns, every input segment is used in exactly one polyline, segments that follow each other meet within the computed tolerance, and no end of a polyline is within the computed tolerance of an end of a segment in a later one. It returns whenever the coordinates divided by eps stay within 2147483646.", "quantifier": "every list of segments with finite double coordinates, all choices of fused and unfused products", "why_tests_cant": "rounding moves single points to another cell of the index; the effect on a whole assembly depends on all segments", "anchors": ["cmmcore/polyline.h:assemble_polylines", "cmmcore/polyline.h:find_nearby_endpoints", "cmmcore/polyline.h:PointKey"]}
{"id": "C250", "title": "The closest point of a segment survives double arithmetic", "statement": "In double arithmetic closestPointOnSegm(a, b) of two different points returns a point that differs from the point of the segment closest to the origin by at most 2^-49 of the larger coordinate of the ends, in each coordinate.", "quantifier": "all finite double coordinates, all choices of fused and unfused products", "why_tests_cant": "the quotient that gives the parameter is of two rounded sums, which underflow for short segments only; a test sees single segments", "anchors": ["cmmcore/closest_point.h:closestPointOnSegm", "cmmcore/vec.h:vec3::dot", "cmmcore/vec.h:vec3::sqLength"]}
{"id": "C251", "title": "The length of a vector is right in single precision", "statement": "vec3::length of a finite vector returns its Euclidean length up to single precision: the square differs from the true one by at most 2^-22 of it.", "quantifier": "all vectors with finite double coordinates, all choices of fused and unfused products", "why_tests_cant": "the sum of squares is a double but the root is taken of a float, so the range in which the result is usable is much smaller than that of doubles; a test sees single vectors", "anchors": ["cmmcore/vec.h:vec3::length"]}
{"id": "C252", "title": "A computed unit vector has length one and the direction of the vector", "statement": "vec3::unit of a finite vector longer than 1 returns a positive multiple of it, up to rounding, whose squared length is 1 up to 2^-21.", "quantifier": "all vectors with finite double coordinates that are longer than 1, all choices of fused and unfused products", "why_tests_cant": "overflow of the intermediate float depends on all coordinates; a test sees single vectors", "anchors": ["cmmcore/vec.h:vec3::unit", "cmmcore/vec.h:vec3::unitize", "cmmcore/vec.h:vec3::length"]}
{"id": "C253", "title": "distanceSq behaves like a distance in double arithmetic", "statement": "In double arithmetic distanceSq is the same in both directions, is 0 exactly for equal points, and does not get smaller when a point moves away in every coordinate.", "quantifier": "all points with finite double coordinates, all choices of fused and unfused products, overflow included", "why_tests_cant": "rounding, ties and fused products differ from input to input; a test sees single points", "anchors": ["cmmcore/vec.h:vec3::distanceSq", "cmmcore/vec.h:vec3::sqLength"]}
{"id": "C254", "title": "Cross product of parallel vectors in double arithmetic", "statement": "In double arithmetic a.cross(a) is the zero vector and a.cross(b) is the opposite of b.cross(a).", "quantifier": "all vectors with finite double coordinates, all choices of fused and unfused products", "why_tests_cant": "whether it holds depends on the products the compiler fuses and on the low bits of the coordinates", "anchors": ["cmmcore/vec.h:vec3::cross"]}
