# Formal model of cmmcore

Everything below `rocq/theories` is Coq 8.16.1. `Model*` files contain only
definitions (each citing the file and lines of /repo it models), `Spec*` files
contain small independent specifications, `Proof*` files contain lemmas, and
`Props*` files contain only the property theorems (closed by `exact`), their
`Print Assumptions` and `Example`s that show their hypotheses are met.

## Trusted base

* Coq's kernel (`coqc` 8.16.1, `vm_compute` included).
* What `Print Assumptions` prints under each theorem in the `Props*` files. No
  axiom is added by this development. The theorems over the reals
  (PropsNewton.v, PropsPlane.v, PropsVecOps.v) list the standard library's `sig_not_dec`,
  `sig_forall_dec`, `functional_extensionality_dep` and (where trigonometry is used) `classic`; the others are closed or list what is printed
  there.
* The reading of the C++ sources: the code cannot be run here, so the tie
  between model and code is the citation at every definition.
* Number model (see below), and the behaviour of the C++ standard library:
  `std::vector`, `std::min/max`, `std::sort`, `std::partition`,
  `std::nth_element`, `memcpy`, streams. Where the standard leaves freedom
  (`nth_element`, unstable `partition`) the model takes an arbitrary oracle
  constrained only by the standard's postcondition.
* Accuracy assumed of `sqrtf`: monotone with the root of 2^-104 equal to 2^-52 (C248,
  C249, conversion to float included), relative error at most 2^-24 (C251, C252).

## Number model

* `double` in geometric code is modelled by `Qc` (canonical rationals of the
  standard library: Leibniz equality, computable). Every finite double is a
  rational, so code that only copies, compares, takes min/max of doubles (boxes,
  trees, span search, knot bookkeeping) is modelled exactly. Code that does
  arithmetic is modelled with exact arithmetic: rounding, overflow, NaN and
  infinities are outside the model, except that point evaluation, knot insertion and
  splitting, the planar hull and the planar tests are modelled a second time with a rounding after every operation (C232-C235, C237, C238, C240-C242: relative error
  of one operation bounded by u, results outside the normal range end the run,
  a product that is added at once may be fused with the sum, which leaves it
  unrounded; other contractions are not modelled), and the nearest neighbour of the
  KD-tree, the recursive pair query, polyline assembly, the closest point of a segment,
  `length`, `unit` and `distanceSq` with gradual underflow and infinities as well
  (C244-C253). Division by zero, which gives inf/NaN in C++, is a separate outcome or excluded by hypothesis, never `x/0 = 0`.
* Code that needs square roots is modelled over the standard library's `R`
  (its axioms are then listed by `Print Assumptions`) or on squared lengths.
* Serialized doubles are 8 arbitrary bytes (bit patterns): exact.
* Machine integers: `int` is `Z` with the 32-bit range stated where it matters,
  `size_t` is taken modulo 2^64 where the property is about wrap-around.

## Outcomes

`res A := Ok a | Throw e | UB`. Out-of-range `vector`/array access is `UB`,
C++ exceptions are `Throw`, loops with no structural bound take fuel and return
a separate out-of-fuel value that theorems exclude explicitly.

## Plan per property

| property | model | method |
|---|---|---|
| C01-C06 | byte-level encoder/decoder of serialization.h | induction on values; prefix lemma; refutation witnesses for C05, C06 |
| C07-C19 | MemoryView: shape, strides, offset over a buffer; slice, reshape, call, serialize | induction on shapes; refutations for C11, C14, C16, C17 (wrap), C19 |
| C20-C22 | KD-tree as inductive tree, nth_element as oracle | invariants of build/insert; permutation proofs |
| C23-C26 | AABB over Qc | order reasoning; refutation for `infinity()` |
| C27-C33 | BVH builders with sort/partition oracles, traversals with explicit stacks | induction on fuel/tree; refutations for C31, C33 |
| C34 | the literal table | Pascal's rule checked on the table; induction for the count of subsets |
| C35-C42 | find_span, basis_funs, curve_point with array accesses that can be UB | loop invariants; Cox-de Boor recursion as spec; refutation C40 |
| C43-C46 | knot_insertion, knot_insertion_kv, insert_knot, split | blossom / knot-insertion identity for Cox-de Boor; refutation C45 |
| C47-C51 | surface_point, extract_isocurve, moves, normalize, multiplicities | as above |
| C82-C84 | set_control_points, decompose on top of the curve model | buffer overrun for every degree above 8; induction over the break points |
| C85-C94 | NURBSSurface in ModelSurface.v: constructor, insert, split, subdivide, bbox, get_derivative, isocurves | tensor product reduces to the curve lemmas row by row and column by column; refutations by concrete surfaces |
| C52-C53 | adaptiveSimpson with the integrand as function parameter | ring identity on cubics; induction on depth |
| C95-C99 | the same, and find_t1_newton | induction over the subdivision tree; Richardson identity up to degree five; a polynomial that hides from the samples for C98 |
| C54-C55, C100-C101 | minimize_scalar_bounded with the doubles for the golden ratio and sqrt(eps); the sign of a zero is an oracle | loop invariant; the minimiser of a unimodal function stays in the bracket |
| C102-C103 | matrix.h | concrete witnesses |
| C56-C58 | matrix.h | field; row-operation invariant for Gauss-Jordan |
| C59-C60, C104-C105 | newthon2.h over R (sqrt), all values finite | loop invariants; a failed pivot gives a direction of nonpositive curvature; the step of a definite system is a descent direction; contraction of the error on convex quadratics |
| C61-C63, C106-C110 | monomial.h on top of the matrix and surface models | Gaussian elimination of the conversion matrices never meets a small pivot, for every degree up to 30 (the binomial table ends there); binomial theorem; convolution of coefficients; refutations by concrete patches |
| C64-C65, C111-C113, C115-C116 | polygon.h and SAT2D over exact numbers; which normals an unordered set keeps is an oracle | separation theorem for finite point sets (Gordan), extreme vertices of convex polygons, counting of upward and downward edges |
| C74, C114 | convex_hull2d with std::sort as oracle | invariant of the stack: all triples turn left; popped points lie in a triangle of kept ones |
| C66-C68, C124-C131 | gjk.h and closest_point.h in ModelGjk.v over Qc | separating-hyperplane argument, optimality certificates by region, barycentric coordinates of the origin; refutations, one by a cycle of the loop |
| C69-C72, C117-C123 | plane.h over R; rounding to float is an oracle `fl` with stated accuracy | field; exact values of the wrong distances; refutations by concrete planes |
| C73, C75, C132-C138 | polyline.h, cm_hash.h, the hash functors of vec.h, boundary_intersection.h; nearness test, vector length, the curve-surface intersector and std::hash<int> are oracles | invariants over used segments and over the remaining candidates; neighbouring cells cover the tolerance; floor arithmetic |
| C76, C139-C144 | ccx.h with fuel on top of the curve model; vector length is an oracle | every piece is a trace of the original curve on a halved interval inside its box; induction on recursion; de Casteljau steps halve the control polygon; refutations by segments |
| C145-C149 | csx.h with fuel; Newton's method, GJK, degeneracy, the separability test and curve length are oracles with any answers | pieces of the curve and of the surface cut at arbitrary parameters trace the originals; induction on recursion with the u-interval as measure; refutations by segments and a bilinear patch |
| C150-C152 | AABBTest, SphericalCentralProjectionTest2, centerProjectionToXY | boxes attained in every axis; direct computation |
| C153-C157 | ders_basis_funs, curve_derivs_alg1, derivative, get_derivative, the finite differences | the k-th derivative of the Cox-de Boor recursion is defined symbolically; difference quotients bounded by polynomials in the step; continuity across knots by counting multiplicities; the table of ders_basis_funs for each degree up to 3; summation by parts for the control points; refutation by a rational segment |
| C158-C165 | vec.h over the reals: spherical coordinates, ==, cross, project, dot_product, dist, collinear, vec4 | atan2 from atan with its range; an angle is known from sine and cosine; Lagrange's identity; loop invariant for lists; refutations by literal vectors |
| C166-C170 | surface decompose, continuity of evaluate, derivative_u/v, normal, cross | decomposition: induction over the interior knots with the split theorem in each direction, then grid indexing; continuity: Lipschitz bound of the basis in each parameter and of a quotient with denominator bounded below; differences: a span polynomial of degree at most two; refutations by literal surfaces |
| C171-C177 | surface-surface intersection (the curve-surface intersection, 3-D hull and the test on the sphere are oracles): detectIntersections, findStartIntersectionPoints, processSimpleSurfaceIntersection, gaussMap, gaussMapSeparability, SAT3D | induction over the fuel with the invariant that each surface of the recursion is the part of the original one over a rectangle; a potential (the width of the Gauss map's domain halves, and subdivide throws below 2e-7) for termination; the Gauss map through the power basis and polynomial derivatives; refutations by literal bilinear patches |
| C178-C184 | polylines, join(), periodic curves, length() and lengthAt() | span by span formula of the degree one basis (weights move the parameter but not the segment); case analysis of join() over the eight ways of touching; a shift argument for the periodic knots; the bound for adaptive quadrature applied to the speed; refutations by literal curves |
| C185-C189 | point inversion on curves and surfaces, improve_uv | field identities for the 2 by 2 system; symbolic evaluation of segments and parallelograms at all parameters (inside and outside the interval), then an invariant of the iteration; a right start is a fixed point |
| C190-C197 | knot refinement and removal, control points of derivatives of curves and surfaces, derivatives of rational surfaces | the refinement loop builds new control points from the right: invariant that its state is the curve with the knots inserted one by one, for any number of new knots; slopes of splines by the derivative lemma for basis functions, iterated over trimmed knot vectors; product rule by induction over the table in the order it is filled |
| C198-C205 | STEP export of curves and surfaces | text as characters, numbers and references, one pair of id and text per line; the lines of an export are characterised completely by induction over control points, boundary curves and corners, and the properties are read off; the meaning of an entity is the textbook sum over its points, weights and written-out knots; decimal digits as rounding to six places, error by the largest power of ten below the number |
| C206-C216 | distances of segments, columns, tolerances, normals of polygons, boxes of directions, convex hulls, views in files, GaussMap | segments and normals over the reals, nearest points by completing the square; the set of normals as an insertion-ordered list whose hash and equality are modelled; std::sort and quickhull are parameters, the latter with the assumption that it is right (C218-C223 tell where it is); a file is its bytes and the position, a write takes any number of bytes; GaussMap by induction over the sequence of subdivisions |
| C217 | the rejection test of the curve-surface intersection | the point where they meet is in both convex hulls, so neither the boxes nor GJK (C66) separate them |
| C218-C223 | `convex_hull3d` and the class `quick_hull` for three dimensions, function by function: affine basis by Householder reflections, first simplex, the walk over visible facets, the matching of ridges by their hash, compactify | an invariant of the mesh (closed, oriented, every facet plane keeps all earlier points behind it) is kept by each added point; for coplanar points it holds of vertices moved a little towards the inside, each later one further, which makes the mesh strictly convex and keeps the sides of the grid points; a gap on the grid replaces the tolerance; the loop ends since each point added makes the outside lists shorter |
| C224 | `is_periodic` on 64-bit patterns | induction over the compared points; the specification decodes sign, exponent and fraction on its own |
| C225-C227 | a state machine over views and buffers: constructors, `copy`, the compiler's copy constructor and assignment, slices, `deserialize`, reads, the destructor | invariants over all histories: owners are unique, owned buffers are not freed, every malloc'ed buffer is freed or owned |
| C228, C229 | `begin`, `end` and a range-for over them; assignment through `operator()` | the run of positions is the row-major order; chains of slices are injective and name one element of the root |
| C230, C231 | `operator<<` of vectors, `format_vec3vec`, `output_bvh_nodes`, `output_objects3d`; writing a number is an oracle | texts are parsed back: a structuring character ends a number, three opening brackets mark children |
| C232-C235 | `basis_funs`, `curve_point`, `surface_point` with a rounding after every operation; rounding is an argument, rounding to doubles one instance | a simulation of the exact run: non-negative quantities stay within a factor (1-u)^k, signed ones within ((1-u)^-k - 1) of a bound; powers counted along the algorithm |
| C236 | `knot_removal` (as C192) | the two loops by induction with the points from the left and from the right as closed recursions; the middle cell is shared when degree minus multiplicity is even |
| C237 | `insert_knot`, `knot_insertion` with a rounding after every operation (as C232) | simulation of the exact run level by level, a factor (1-u)^-8 each; blends of rounded shares stay within the largest coordinate; then the moved control points move the curve by the partition of unity |
| C238 | `split` without normalized knots, `rebuildAABB` with a rounding after every operation (as C232) | the rounded run takes the same branches as the exact one; control points as C237; the rounded box coordinates by the same estimate |
| C239 | `knot_removal` (as C192), any number of rounds | each round by the loop invariants of C236 with the round number in the indices, then induction on the rounds |
| C240 | `convex_hull2d`, `orientation`, `distSq`, `PointComparator` with a rounding after every operation (as C232) | on the grid every result has fewer than 53 bits, so nothing is rounded and C114 applies with its tolerance met; a witness beyond |
| C241 | `polygonRelationship2D`, `pointInPolygon2D` with a rounding after every operation (as C232) | on the grid projections have fewer than 53 bits and are not rounded; the rounded quotient of an edge crossing stays on its side of the point, since it is on it or at least 2^-26 steps away; then C112; a witness beyond |
| C242 | `SAT2D`, `polygonProject`, `contains` with a rounding after every operation | quotients of dot products by the same square, rounded, keep their order; then C65; a witness beyond |
| C243 | the constructors of `Monomial2D` from sizes and coefficients and the copy constructor | the columns of the inverse matrix expand the powers in Bernstein polynomials; sizes that do not fit meet the size check of the matrix product |
| C244 | `nearestNeighbor`, `distanceSq` with a rounding after every operation, small numbers and infinity included | rounding to the nearest double is monotone and keeps doubles, so the rounded distance to the splitting plane is at most every rounded distance beyond it; then as C21 |
| C245 | the same | five relative errors of 2^-53; no error on a grid; two witnesses for every choice of fused products |
| C246 | recursive `intersect_bvh`, `AABB::volume` with a rounding after every operation, infinity and NaN included | a larger box has a computed volume that is larger, infinite or NaN, and neither of the last two is below 1e-6; then as C31 |
| C247 | the same | five relative errors of 2^-53; one witness |
| C248 | `PointKey`, `add_to_index`, `find_nearby_endpoints` and the test `(a - b).length() < eps` with a rounding after every operation; float conversion and `sqrtf` as an oracle | division by eps is exact; adding 1/2 crosses an integer for one double only, 1/2 - 2^-54, and no double in the cell two below is close to it; a coordinate difference of eps or more makes every rounded sum of squares at least 2^-104 |
| C249 | `assemble_polylines` over the index of C248 | the invariant of C73 and C132 with rounded cells; a cell that fits an int puts the coordinate in [-1, 1], so the raw key fits as well |
| C250 | `closestPointOnSegm(a, b)` with a rounding after every operation, division by 0 and `std::clamp` of infinities and NaN included; an infinity before the division is an outcome of its own, excluded by the theorems | refuted by underflow; on a grid both sums are exact, so the parameter is right up to one rounding, and three roundings follow in each coordinate |
| C251 | `vec3::length` with a rounding after every operation, the conversion to float in IEEE binary32, `sqrtf` as an oracle with relative error 2^-24 | five relative errors of 2^-53, one of 2^-24 and the square of another; two witnesses |
| C252 | `vec3::unit` and `unitize` over the length of C251 | two relative errors of 2^-53 in each squared quotient, and the error of C251; the quotients do not underflow |
| C253 | `distanceSq` as in C244 | rounding to nearest even is odd and monotone; underflow as the witness |
| C254 | `vec3::cross` with a rounding after each operation, either product of a difference fused or not | rounding is odd; a square of 61 bits as the witness |

## Findings

Properties that are false of the code, each proved by a `_refuted` theorem with a
concrete witness. Where the code satisfies a weaker statement, that is proved as
`_partial`.

* C05: a truncated curve file is never reported; the reader reads past the end
  of its buffer (serialization.h has no bounds checks).
* C06: the periodic flag is recomputed from the control points on reading, so it
  can differ from the one written.
* C11: `Slice(n, 0, -1)` clamps the start to n, so the first element of the result
  lies one past the end.
* C13: `reshape` compares products modulo 2^64 and treats a zero-dimensional shape
  as having no element.
* C14, C16: `reshape` and `serialize` ignore the strides of the view.
* C17: `deserialize` trusts the strides and the (wrapped) element count it reads.
* C19: `size()` multiplies its loop index: it returns 1 or does not return.
* C80: `to_string` walks the first dimension for as many steps as there are
  elements.
* C81: `slice` overflows int for steps near 2^31.
* C26: `AABB::infinity()` is constantly false: `a == b == c == x` compares truth
  values.
* C31: recursive `intersect_bvh` drops pairs whose common volume is below 1e-6
  (touching or flat boxes).
* C33: copying a `BVHNode` drops all object pointers; assigning a leaf keeps the object of the target instead of taking the one of the source.
* C78: `BVHNode::setRight` replaces the left child.
* C40: `rebuildAABB` divides control points by their weight while evaluation takes
  them as Cartesian: the box of a rational curve misses part of it.
* C45: `knot_insertion` treats control points as homogeneous, evaluation as
  Cartesian: inserting a knot moves a rational curve.
* C49: the move constructor of curves drops the periodic flag.
* C82: every curve of degree above 8 overruns the stack buffers when evaluated.
* C83: `set_control_points` does not rebuild the bounding box.
* C86: a surface's `_aabb` is never computed; `aabb()` returns the default box.
* C90: the surface from `get_derivative` has size 0 x 0 and, for unit weights,
  zero weights: no parameter can be evaluated.
* C91: an isocurve's box stays at its default.
* C92: surfaces evaluate homogeneous control points, curves Cartesian ones: the
  isocurve of a rational surface is not on the surface.
* C93: the free `extract_isocurve` ignores the surface's u knots in the V direction.
* C98: `integrate` can report error 0 for an integrand that vanishes at the five
  sampled points and has a positive integral.
* C100: `minimize_scalar_bounded` with limit 1 evaluates twice (the limit is looked
  at after an evaluation).
* C102: `Matrix2x2{{a,b},{c,d}}` ignores its argument and leaves the zero matrix.
* C103: `MatrixD::inverse` rejects invertible matrices with a pivot below 1e-10.
* C107: `computePartialDerivative` of a patch with one row reads the first row of an
  empty array.
* C108: `Monomial2D::operator=` does not assign the conversion matrices; `to_bezier`
  of the assigned object throws.
* C109: `to_bezier` resizes the target's control points and keeps its old weights.
* C110: the weights of a rational patch are dropped by the conversion.
* C65: an edge of length zero gives SAT2D a zero normal; all projections are NaN and
  the polygons are reported separable.
* C111: a repeated vertex gives polygonRelationship2D a zero axis; overlapping
  polygons are reported as touching.
* C114: `convex_hull2d` returns an empty hull for collinear points and for triangles
  of area below 5e-10.
* C115: SAT2D tries only the normals of its first polygon and misses separations by
  an edge of the second.
* C116: disjoint segments on one line are reported as touching, two empty polygons as
  intersecting.
* C70: `planePlaneIntersection` drops the coordinate with the largest coefficient
  instead of the largest component of the direction: a plane x = const is reported to
  meet no other plane.
* C71: `plane(origin, normal)` computes its last coefficient with comma operators.
* C72: `isPtsCoplanar` never tests the fourth point and accepts everything after three
  collinear points.
* C118: the origin stored by `plane(a,b,c,d)` is not on the plane unless d = 0.
* C119: `plane_eq_from_pts` rounds three products to float.
* C120: `planeRayIntersection` reports points behind the start of the ray.
* C121: `cplane` does not normalise its axes; evaluateInv is then no inverse.
* C122: `cplane::signedDistance` subtracts the origin a second time.
* C123: `vec3::unitize` leaves every vector of length up to one unchanged.
* C68: `closestPointOnSegm(pt, start, end)` compares an unnormalised parameter with 0
  and 1: the result can be outside the segment, or an end although the point is on it.
* C124: `handleSimplex` erases the wrong vertex of a triangle and reverses the
  orientation of a face; GJK cycles on a disjoint pair and reports a collision for
  every iteration limit.
* C125: the closest point after a negative answer is that of an unfinished simplex.
* C126: `closestPointOnSimplex` never updates the smallest distance; the last face wins.
* C128: `closestPointOnRay` returns points behind the start.
* C129: `closestPointOnTriangle(pt, ...)` does not add the point back.
* C131: GJK throws when the simplex argument is not empty.
* C73: `assemble_polylines` divides coordinates by 2^-52 and casts to int: undefined for
  every segment with a coordinate of a millionth or more, including the example in the
  header.
* C134, C135: `quantize` multiplies by the number of decimals (15), not by a power of ten:
  points a fifth apart are equal keys, points a rounding error apart may not be, and
  coordinates from 143165577 on overflow the cast.
* C137: `find_boundary_intersections` merges hits by that key, whatever its tolerance is.
* C142: `ccx` throws `invalid_argument` when the tolerance asks for pieces with an interval
  below 2e-12: a segment of a million units and a tolerance of 1e-6, or tolerance zero.
* C143: `ccx` reports a crossing at a halving point four times.
* C144: `ccx` misses crossings of weighted curves, whose boxes are wrong.
* C147: `csx` throws `invalid_argument` when Newton's method answers with an end of the
  curve, as it does for a curve that starts on the surface.
* C148: `csx` misses crossings: `continue` at csx.h:132 also skips the second half of the curve.
* C149: `csx` reports nothing on a surface whose parameter interval is below twice the
  curve's parameter tolerance, even for a crossing it has found.
* C150: `SphericalCentralProjectionTest2` separates a segment from its own middle.
* C152: `centerProjectionToXY` leaves the line when the point is as high as the centre.
* C154: `derivative(t)` ignores that the curve is rational, throws `invalid_argument` for
  every curve of degree 4 and more (its rows are `vec4`) and reads past the end for degree 0.
* C155: `get_derivative()` is wrong for rational curves.
* C156: `derivative(t, result, d)` reads past the end when d is more than degree + 1.
* C157: `second_derivative_fdm` is a copy of `derivative_fdm`.
* C159: `vec3 ==` is not transitive; `vec4 ==` ignores the weight.
* C160: `vec4::cross(b, result)` uses components of `b` in place of `*this`.
* C162: `dot_product` runs one element over the end of its arrays.
* C163: `dist` and `mag2` do not square; `dist(a, b)` is NaN when `dist(b, a)` is not.
* C164: `collinear` is false for a short vector and itself.
* C165: `vec4::add` leaves `w`; `vec4::unitize` divides by `w` and is not a unit vector;
  the scalar and NEON paths of `vec4::dot` differ.
* C169: the normal of a small patch (cross product of the derivatives no longer than one) is not
  a unit vector.
* C170: `cross` of surfaces reads the second net transposed (undefined behaviour for every net that
  is not square) and uses the wrong vec4 cross product.
* C173: the recursion of the surface-surface intersection ends in an exception when the two
  surfaces overlap in an area, since subdivide throws below 2e-7.
* C174: a floor and an upright wall through it, both parallel to the axes, are reported as not
  meeting: a flat overlap of boxes is dropped.
* C176: parallel planes have separable Gauss maps if their normals are no longer than one.
* C180: join() of a line and a parabola is a polyline through the control points of the parabola.
* C181: interval() of a periodic curve is the range of all knots; its ends are not on the closed curve.
* C183: length() of a polyline that rests at t = 0, 2, 4, 6 and 8 is 0, though its ends are 3000 apart.
* C186: point_inversion_curve never finds the end of a straight segment from its start.
* C187: point_inversion_curve returns parameters outside the interval.
* C188: point_inversion_surface returns its start on every parallelogram: all three tests return the parameters before the step.
* C189: improve_uv always answers false.
* C191: knot_refinement moves the points of curves with weights other than one.
* C192: knot_removal does not close the gap and cuts off the end of the curve.
* C196: surface_deriv_cpts for rows not starting at the first reads the wrong rows, and zeros.
* C200: four of the product entities of every exported file refer to the wrong entity.
* C201: every exported file has a line with a missing bracket.
* C204: the edges of an exported surface do not have the ends of their curves.
* C205: exported numbers have six digits.
* C206: segmentsDistance measures the lines, not the segments.
* C207: vectorColumn writes out of bounds for every matrix with more rows than columns.
* C208: polygonNormals normalises the wrong entries when the vector is not empty.
* C209: normals of tiny polygons are dropped.
* C210: SphericalAABBTest separates sets with a common direction.
* C212: convex_hull loses the apex of a tetrahedron and returns nothing for a vertical square.
* C213: a second view written to a file is never read.
* C214: a rewrite that breaks off leaves a file that is read as a mixture of two views.
* C219: quick_hull reads lower_dimensional_hull_ without setting it; if it is true only four points are returned.
* C220: convex_hull3d returns nothing for bodies smaller than about 1e-6.
* C221: convex_hull3d keeps the old content of its result if there are five points or more.
* C222: convex_hull3d returns inner points if there are fewer than five points.
* C223: convex_hull3d returns at most three of the points of a flat polygon.
* C224: `is_periodic` of a curve with fewer control points than its degree reads outside its control points.
* C225: copying a `MemoryView` made by `copy()` leads to a double free, since the class has a destructor but no copy constructor.
* C226: memory allocated by `deserialize` is never released; assigning to a view made by `copy()` leaks its memory.
* C227: slices of a view made by `copy()` dangle when that view is destroyed.
* C228: iterating over a slice with a step, a column or a single element meets the wrong elements.
* C168: `derivative_u` and `derivative_v` of a cubic surface are not its derivatives (they are off by h^2 times the third coefficient).
* C230: `operator<<` writes (1, 1, 21) and (1, 12, 1) as the same text `[1,121]`.
* C236: knot_removal compares a point with itself when degree minus multiplicity is even (a simple
  knot of a cubic): the tolerance has no effect and a knot that cannot be removed is taken out.
* C239: the rounds of knot_removal after the first start from the points given instead of those the round before left,
  and taking out the first inner knot once more than it occurs reads ctrlpts[-1].
* C240: convex_hull2d in doubles returns nothing for (0, 0), (2^27, 2^27 + 1), (2^28 - 1, 2^28 + 1).
* C241: polygonRelationship2D in doubles says that (0, 0), (2^27, 0), (2^27, 2^27 + 1) and (2^27 - 1, 2^27), (2 10^7, 2^27), (0, 3 10^7) touch; they do not meet.
* C242: SAT2D and polygonRelationship2D in doubles find two overlapping triangles with nine-digit coordinates apart.
* C245: of the stored points (2^27, 1, 0) and (2^27, 0, 0) KDTree::nearestNeighbor in doubles returns the first for the origin; with (2^-600, 0, 0) and the origin stored it returns the former for the origin.
* C247: the recursive intersect_bvh reports two coinciding flat squares of side 2^600 in doubles: their volume is computed as infinity times 0, NaN, and NaN < 1e-6 is false. Small flat squares are not reported (C31).
* C250: `closestPointOnSegm(a, b)` returns NaN for two different points whose squared distance underflows, such as (2^-600, 0, 0) and (2^-599, 0, 0); and it need not reach the end `b`, because `a + (b - a)` is rounded twice.
* C251: `vec3::length` passes a double to `sqrtf`: the length of (2^64, 0, 0), about 1.8e19, is infinite and that of (2^-76, 0, 0) is 0.
* C252: `vec3::unit` of (2^64, 0, 0) is the zero vector.
* C253: `distanceSq` of different points can be 0 in doubles, as for (2^-600, 0, 0) and (2^-599, 0, 0).
* C254: where the compiler fuses one of the two products, the cross product of a vector with itself need not be 0.

Not modelled: the header and date of a STEP file, file-system behaviour below the byte level, wasm and
cython bindings, the checks quick_hull runs in debug builds, how a stream writes a number, text output of times and of optimisation results, SIMD code paths (the scalar
definitions are modelled; the SIMD ones are assumed equivalent).
