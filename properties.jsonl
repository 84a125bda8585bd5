{"id": "C01", "title": "Multi-index iteration is a complete enumeration", "statement": "Starting from a fresh MultiIndexHandler, the first Get1DLength() values produced by repeatedly applying ++ are pairwise different, lie inside the box of lengths, cover every multi-index of the box, and the k-th one has Get1DIndex() = k; one more ++ returns to the origin.", "quantifier": "for every number of dimensions and every tuple of lengths >= 1", "why_tests_cant": "A test fixes one or two boxes; the claim is about all dimensions and lengths, and every loop over control points relies on it.", "anchors": [{"file": "src/util/multi_index_handler.h", "symbols": ["operator++", "Get1DIndex", "Get1DLength"]}]}
{"id": "C02", "title": "Multi-index stepping is reversible", "statement": "operator-- undoes operator++ and vice versa, and `- n` undoes `+ n`, from any valid position, also across the wrap-around at either end of the box.", "quantifier": "for every dimension count, every lengths >= 1, every position in the box and every n >= 0", "why_tests_cant": "Tests step over a handful of positions in fixed boxes; carry chains of arbitrary length need induction over the dimensions.", "anchors": [{"file": "src/util/multi_index_handler.h", "symbols": ["operator++", "operator--", "operator+", "operator-"]}]}
{"id": "C03", "title": "Linear index, slice number and Set1DIndex agree with the enumeration", "statement": "Get1DIndex is a bijection between the box and 0..Get1DLength()-1; Set1DIndex(i) with i in that range terminates at the unique multi-index whose linear index is i, and never terminates for i outside it; ExtractDimension(d) does not depend on the index in direction d, is below the number of slices, and together with that index determines the multi-index.", "quantifier": "for every dimension count, lengths >= 1, position, direction d and target index i", "why_tests_cant": "Non-termination for all bad targets and injectivity over all boxes cannot be sampled.", "anchors": [{"file": "src/util/multi_index_handler.h", "symbols": ["Get1DIndex", "Set1DIndex", "ExtractDimension", "GetDifferenceIndices"]}]}
{"id": "C04", "title": "Knot span lookup brackets the parameter", "statement": "For a non-decreasing knot vector and u in [first, last] that is not within tolerance of the last knot, GetKnotSpan(u) = k with knot[k] <= u < knot[k+1]; for u equal to the last knot it is the last span with knot[k] < last = knot[k+1]. The answer never indexes outside the vector.", "quantifier": "for every non-decreasing knot vector and every real u in its range", "why_tests_cant": "Binary-search boundary behaviour (repeated knots, ends, tolerance) over all vectors cannot be enumerated.", "anchors": [{"file": "src/baf/knot_vector.cc", "symbols": ["GetKnotSpan", "IsLastKnot", "IsInKnotVectorRange"]}]}
{"id": "C05", "title": "Inserting and removing a knot edits the knot multiset by exactly one occurrence", "statement": "On a non-decreasing knot vector, InsertKnot(u) with u >= first knot keeps the vector non-decreasing and adds exactly one occurrence of u; RemoveKnot(u) with u present (and u either the last knot or farther than the tolerance from it) keeps it non-decreasing and deletes exactly one occurrence; RemoveKnot after InsertKnot gives back the same vector. RemoveKnot of a value that is not a knot silently deletes a different knot.", "quantifier": "for every non-decreasing knot vector and every u", "why_tests_cant": "The position arithmetic must be right for every repetition pattern; tests use a few vectors.", "anchors": [{"file": "src/baf/knot_vector.cc", "symbols": ["InsertKnot", "RemoveKnot", "GetKnotSpan"]}]}
{"id": "C06", "title": "Multiplicity and distinct-knot counts", "statement": "GetMultiplicity(u) is the number of occurrences of u, the number of different knots reported equals the number of distinct values of a non-empty non-decreasing vector, and increment/decrement of the multiplicity of all knots changes every distinct knot's multiplicity by exactly one and no other.", "quantifier": "for every non-empty non-decreasing knot vector", "why_tests_cant": "Holds for all repetition patterns; tests see three.", "anchors": [{"file": "src/baf/knot_vector.cc", "symbols": ["GetMultiplicity", "GetNumberOfDifferentKnots"]}, {"file": "src/spl/parameter_space.h", "symbols": ["IncrementMultiplicityOfAllKnots", "DecrementMultiplicityOfAllKnots"]}]}
{"id": "C07", "title": "Basis functions are the Cox-de Boor functions", "statement": "The value returned by the basis function object number i of degree p is the mathematical B-spline N_{i,p}(u) defined by the Cox-de Boor recursion with 0/0 := 0 and the last span closed on the right.", "quantifier": "for every degree, every non-decreasing knot vector whose distinct knots are at least the library tolerance apart, every i and every real u", "why_tests_cant": "The recursion's value at every real parameter and for every repetition pattern is not testable pointwise.", "anchors": [{"file": "src/baf/basis_function.cc", "symbols": ["Evaluate", "IsCoordinateInSupport"]}, {"file": "src/baf/b_spline_basis_function.cc", "symbols": ["EvaluateOnSupport", "InverseWithPossiblyZeroDenominator"]}, {"file": "src/baf/zero_degree_b_spline_basis_function.cc", "symbols": ["EvaluateOnSupport"]}, {"file": "src/baf/basis_function_factory.cc", "symbols": ["CreateDynamic"]}]}
{"id": "C08", "title": "Basis functions are non-negative and locally supported", "statement": "Every basis function is >= 0 everywhere and exactly 0 outside [knot[i], knot[i+p+1]]; at a parameter in the domain only the p+1 functions selected by the knot span can be non-zero.", "quantifier": "for every degree, non-decreasing knot vector, index and real u", "why_tests_cant": "Universal over real parameters and knot vectors.", "anchors": [{"file": "src/baf/basis_function.cc", "symbols": ["Evaluate", "IsCoordinateInSupport"]}, {"file": "src/spl/parameter_space.h", "symbols": ["GetFirstNonZeroKnot", "EvaluateAllNonZeroBasisFunctions"]}]}
{"id": "C09", "title": "Partition of unity", "statement": "EvaluateAllNonZeroBasisFunctions returns p+1 values that sum to exactly 1 (in real arithmetic) at every parameter of the domain, both ends included.", "quantifier": "for every degree p, clamped non-decreasing knot vector with distinct knots at least the tolerance apart, every u in [first, last]", "why_tests_cant": "Needs an induction over the degree; sampling parameters cannot establish it.", "anchors": [{"file": "src/spl/parameter_space.h", "symbols": ["EvaluateAllNonZeroBasisFunctions", "GetFirstNonZeroKnot"]}, {"file": "src/baf/b_spline_basis_function.cc", "symbols": ["EvaluateOnSupport"]}]}
{"id": "C10", "title": "Basis function derivatives are true derivatives", "statement": "EvaluateDerivative(u, k) of a basis function is the derivative at u of v -> EvaluateDerivative(v, k-1), at every u that is not a knot, hence the k-th derivative of Evaluate; for k > p it is 0. At a knot it is the derivative from the right, at the last knot the derivative from the left (degree 0 on an empty span excepted).", "quantifier": "for every degree, derivative order k >= 1, index, non-decreasing tolerance-separated knot vector, and every u of the domain", "why_tests_cant": "A limit statement; finite differences at sample points do not prove it.", "anchors": [{"file": "src/baf/basis_function.cc", "symbols": ["EvaluateDerivative"]}, {"file": "src/baf/b_spline_basis_function.cc", "symbols": ["EvaluateDerivativeOnSupport"]}, {"file": "src/baf/zero_degree_b_spline_basis_function.cc", "symbols": ["EvaluateDerivativeOnSupport"]}]}
{"id": "C11", "title": "Knots closer than the tolerance", "statement": "Claim a user may expect: partition of unity holds for every valid (non-decreasing, clamped) knot vector. It does not: when distinct knots lie closer than 10*2^-52 the recursion drops terms and the functions sum to less than 1.", "quantifier": "refutation: exists a valid knot vector and a parameter", "why_tests_cant": "Needs a specific near-degenerate vector nobody tests.", "anchors": [{"file": "src/baf/b_spline_basis_function.cc", "symbols": ["InverseWithPossiblyZeroDenominator"]}, {"file": "src/util/numeric_settings.h", "symbols": ["kEpsilon"]}]}
{"id": "C12", "title": "Parameter space constructor accepts exactly clamped knot vectors", "statement": "Construction succeeds iff for each direction the degree is >= 0, there are at least 2p+2 knots, the first p+1 knots are equal and the last p+1 knots are equal; otherwise it throws runtime_error, and it never reads outside a vector. After success there are exactly m-p-1 basis functions per direction, built from the stored knots.", "quantifier": "for every number of directions, degrees and knot vectors", "why_tests_cant": "iff over all inputs, including malformed ones.", "anchors": [{"file": "src/spl/parameter_space.h", "symbols": ["ParameterSpace", "ThrowIfKnotVectorDoesNotStartAndEndWith"]}, {"file": "src/baf/basis_function_factory.cc", "symbols": ["CreateDynamic"]}]}
{"id": "C13", "title": "Evaluation is memory safe and rejects exactly the parameters outside the domain", "statement": "On a well-formed spline, Evaluate and EvaluateDerivative throw range_error iff some coordinate is outside [first knot, last knot] of its direction, and otherwise return one value per requested coordinate without any out-of-range access.", "quantifier": "for every well-formed B-spline or NURBS of any dimension, every parameter tuple, every list of valid coordinate numbers", "why_tests_cant": "Absence of out-of-range reads for all inputs and dimensions is beyond tests.", "anchors": [{"file": "src/spl/spline.h", "symbols": ["Evaluate", "EvaluateDerivative", "ThrowIfParametricCoordinateOutsideKnotVectorRange"]}, {"file": "src/spl/parameter_space.h", "symbols": ["GetBasisFunctions"]}, {"file": "src/spl/physical_space.h", "symbols": ["GetControlPoint"]}]}
{"id": "C14", "title": "B-spline evaluation equals the full tensor-product sum", "statement": "Evaluate(u) returns, for each requested coordinate, the sum over ALL control points of the product of the Cox-de Boor values times the coordinate, although only (p+1)^DIM terms are visited.", "quantifier": "for every dimension count, degrees, tolerance-separated clamped knot vectors, control nets and parameters in the domain", "why_tests_cant": "Equality of a windowed and a full sum over every net and parameter.", "anchors": [{"file": "src/spl/spline.h", "symbols": ["Evaluate"]}, {"file": "src/spl/b_spline.h", "symbols": ["GetEvaluatedControlPoint"]}, {"file": "src/spl/parameter_space.h", "symbols": ["GetArrayOfFirstNonZeroBasisFunctions"]}]}
{"id": "C15", "title": "Affine invariance of B-spline evaluation", "statement": "Applying an affine map to all control points applies the same map to every evaluated point; evaluation is linear in the control points.", "quantifier": "for every spline, parameter and affine map", "why_tests_cant": "Universal over maps and splines.", "anchors": [{"file": "src/spl/spline.h", "symbols": ["Evaluate"]}, {"file": "src/spl/b_spline.h", "symbols": ["GetEvaluatedControlPoint"]}]}
{"id": "C16", "title": "Convex hull property", "statement": "Every coordinate of an evaluated point lies between the minimum and maximum of that coordinate over the control points (also for every linear functional of the points); for NURBS this needs positive weights. Moving every control point by at most e in a coordinate moves every point by at most e in it.", "quantifier": "for every spline with tolerance-separated knots, positive weights and parameter in the domain", "why_tests_cant": "Bounds over the whole parameter domain.", "anchors": [{"file": "src/spl/spline.h", "symbols": ["Evaluate"]}, {"file": "src/spl/nurbs.h", "symbols": ["GetEvaluatedControlPoint"]}]}
{"id": "C17", "title": "Corner interpolation", "statement": "At a corner of the parameter domain the spline evaluates to the corresponding corner control point.", "quantifier": "for every B-spline of any dimension, and every NURBS with non-zero weights, for all corners", "why_tests_cant": "All dimensions, degrees and knot vectors.", "anchors": [{"file": "src/spl/spline.h", "symbols": ["Evaluate"]}, {"file": "src/baf/knot_vector.cc", "symbols": ["GetKnotSpan"]}, {"file": "src/baf/basis_function.cc", "symbols": ["IsCoordinateInSupport"]}]}
{"id": "C18", "title": "NURBS evaluation is the weighted quotient", "statement": "NURBS Evaluate returns sum(N w P)/sum(N w); with all weights equal and non-zero it equals the B-spline with the same control points; multiplying all weights by a non-zero constant changes nothing.", "quantifier": "for every NURBS of any dimension, every parameter with non-zero weight sum", "why_tests_cant": "Universal algebraic identity over nets, weights and parameters.", "anchors": [{"file": "src/spl/nurbs.h", "symbols": ["GetEvaluatedControlPoint", "GetEvaluatedWeightSum"]}, {"file": "src/spl/weighted_physical_space.h", "symbols": ["GetHomogenousControlPoint"]}]}
{"id": "C19", "title": "B-spline EvaluateDerivative is the partial derivative of Evaluate", "statement": "Raising the derivative order by one in direction d gives the derivative of the lower-order EvaluateDerivative with respect to u_d; order zero is Evaluate. On a knot it is the derivative from the right, at the end of the domain the one from the left.", "quantifier": "for every B-spline of any dimension, every direction, order and every parameter of the domain", "why_tests_cant": "A limit statement over all splines.", "anchors": [{"file": "src/spl/spline.h", "symbols": ["EvaluateDerivative"]}, {"file": "src/spl/b_spline.h", "symbols": ["GetEvaluatedDerivativeControlPoint"]}, {"file": "src/spl/parameter_space.h", "symbols": ["GetBasisFunctionDerivatives"]}]}
{"id": "C20", "title": "NURBS EvaluateDerivative is the derivative of the rational map", "statement": "For NURBS, EvaluateDerivative of order one in direction d is the partial derivative of Evaluate (quotient rule), and for curves order k+1 is the derivative of order k. On a knot it is the derivative from the right, at the end of the domain the one from the left.", "quantifier": "for every NURBS and parameter of the domain with non-vanishing weight sum", "why_tests_cant": "Recursive quotient-rule code for all orders cannot be checked by sampling.", "anchors": [{"file": "src/spl/nurbs.h", "symbols": ["GetRationalBasisFunctionDerivative", "GetDerivativesSum", "binomialCoefficient"]}]}
{"id": "C21", "title": "Knot insertion preserves the B-spline map", "statement": "InsertKnot(u, d, r) leaves Evaluate unchanged at every parameter of the domain.", "quantifier": "for every B-spline of any dimension, direction d, u strictly inside the domain and tolerance-separated or equal to existing knots, r with multiplicity + r <= p+1, all parameters", "why_tests_cant": "Equality of two maps on a continuum for all nets.", "anchors": [{"file": "src/spl/spline.h", "symbols": ["InsertKnot"]}, {"file": "src/spl/b_spline.h", "symbols": ["AdjustControlPoints", "GetNewControlPoint"]}, {"file": "src/spl/physical_space.h", "symbols": ["SetControlPoint", "AddControlPoints"]}]}
{"id": "C22", "title": "Knot insertion preserves the NURBS map", "statement": "Same as C21 for NURBS with positive weights, and all weights stay positive.", "quantifier": "for every NURBS with positive weights, same quantifiers as C21", "why_tests_cant": "Equality of two rational maps on a continuum.", "anchors": [{"file": "src/spl/spline.h", "symbols": ["InsertKnot"]}, {"file": "src/spl/nurbs.h", "symbols": ["AdjustControlPoints", "GetNewControlPoint", "GetNewWeight"]}, {"file": "src/spl/weighted_physical_space.h", "symbols": ["SetWeight"]}]}
{"id": "C23", "title": "Knot insertion bookkeeping and refinement", "statement": "After InsertKnot(u,d,r): direction d has r more knots (r more occurrences of u) and r more control points, all other directions, degrees and the point dimension are unchanged, and the spline is well formed (sizes agree, basis functions rebuilt). RefineKnots is the sequence of single insertions and preserves the map. Inserting r + 1 copies at once gives the same spline as inserting r copies and then one more.", "quantifier": "for every well-formed spline and admissible knot list", "why_tests_cant": "In-place shuffling of a flat array for arbitrary dimension; one wrong index corrupts memory only for some shapes.", "anchors": [{"file": "src/spl/spline.h", "symbols": ["InsertKnot", "RefineKnots"]}, {"file": "src/spl/parameter_space.h", "symbols": ["InsertKnot", "RecreateBasisFunctions"]}, {"file": "src/spl/physical_space.h", "symbols": ["IncrementNumberOfPoints"]}]}
{"id": "C24", "title": "Knot insertion at the ends of the domain", "statement": "Claim: InsertKnot accepts any u in [first, last] and preserves the map. Refuted: at the first knot the index arithmetic wraps below zero and reads outside the knot vector; at the last knot a control point is duplicated so that the map changes or control points become inconsistent.", "quantifier": "refutation: exists a well-formed spline", "why_tests_cant": "Existing tests only insert interior knots.", "anchors": [{"file": "src/spl/spline.h", "symbols": ["InsertKnot"]}, {"file": "src/baf/knot_vector.cc", "symbols": ["GetKnotSpan", "IsLastKnot"]}]}
{"id": "C25", "title": "Removing an inserted knot restores the spline", "statement": "InsertKnot(u,d,r) followed by RemoveKnot(u,d,tol,r) returns r and gives back exactly the original knot vector, control points and weights (real arithmetic).", "quantifier": "for every well-formed spline of any dimension, interior u whose multiplicity after the insertion is at most p, every r and tol >= 0", "why_tests_cant": "Round trip through an in-place algorithm over all nets.", "anchors": [{"file": "src/spl/spline.h", "symbols": ["RemoveKnot"]}, {"file": "src/spl/b_spline.h", "symbols": ["RemoveControlPoints", "GetTempNewControlPoints", "SetNewControlPoints", "IsKnotRemovable"]}, {"file": "src/spl/nurbs.h", "symbols": ["RemoveControlPoints"]}]}
{"id": "C26", "title": "A refused knot removal has no effect; accepted ones are counted", "statement": "RemoveKnot returns the number of removals performed; if it returns 0 the spline is unchanged, and if it returns c the direction has exactly c fewer knots and control points. It never exceeds the requested multiplicity. One copy is removed exactly when, on every line of control points in the direction, solving the insertion equations from both ends meets within the tolerance or the middle equation holds within the tolerance, measured in homogeneous coordinates (for NURBS with the tolerance scaled by smallest weight over one plus largest distance from the origin); the remaining control points are the two solutions. Several copies are removed one after the other until the first refusal.", "quantifier": "for every well-formed spline, interior knot of the vector, tolerance and requested multiplicity", "why_tests_cant": "Failure atomicity over all states.", "anchors": [{"file": "src/spl/spline.h", "symbols": ["RemoveKnot"]}, {"file": "src/spl/b_spline.h", "symbols": ["RemoveControlPoints"]}, {"file": "src/spl/nurbs.h", "symbols": ["RemoveControlPoints"]}]}
{"id": "C27", "title": "Accepted knot removal keeps the geometry within tolerance", "statement": "Claim: if RemoveKnot(u,d,tol) returns 1 the new map differs from the old one by at most tol. Refuted: with an odd number of affected control points the middle one is never compared when its two neighbours coincide. What holds: when degree minus multiplicity is odd, or the middle equation holds within the tolerance on every line, a B-spline moves by at most tol and a NURBS with positive weights by at most tol(1+m)/(1+m-tol), m being the largest distance of a control point from the origin.", "quantifier": "refutation: exists a spline and a parameter with arbitrarily large deviation; bounds: for every well-formed spline, knot, tolerance and parameter in the domain", "why_tests_cant": "The tests only remove knots that were inserted before.", "anchors": [{"file": "src/spl/b_spline.h", "symbols": ["IsKnotRemovable"]}, {"file": "src/spl/nurbs.h", "symbols": ["IsKnotRemovable"]}, {"file": "src/spl/spline.h", "symbols": ["RemoveKnot"]}]}
{"id": "C28", "title": "Subdivision yields two pieces of the same map", "statement": "SudivideSpline(u,d) returns two well-formed splines whose domains in direction d are [first,u] and [u,last], each evaluating to the original map on its domain, and the split spline itself keeps its map. Only where u already has p+1 copies, the left piece agrees with the original below u but not necessarily at u.", "quantifier": "for every well-formed spline of any dimension, interior u of multiplicity <= p+1", "why_tests_cant": "Equality of maps on a continuum; slicing indices for all shapes.", "anchors": [{"file": "src/spl/b_spline.h", "symbols": ["SudivideSpline"]}, {"file": "src/spl/nurbs.h", "symbols": ["SudivideSpline"]}, {"file": "src/spl/parameter_space.h", "symbols": ["GetDividedKnotVectors"]}, {"file": "src/spl/physical_space.h", "symbols": ["GetDividedControlPoints"]}, {"file": "src/spl/weighted_physical_space.h", "symbols": ["GetDividedWeights"]}]}
{"id": "C29", "title": "Degree elevation preserves the map", "statement": "Claim: ElevateDegreeForDimension leaves Evaluate unchanged. Refuted: for degree >= 1 one control point per Bezier segment is never written, so a division 0/0 enters the control net.", "quantifier": "refutation for concrete splines; universally, the unwritten point occurs for every spline of degree >= 1", "why_tests_cant": "The existing tests compare with AreGeometricallyEqual, which accepts NaN.", "anchors": [{"file": "src/spl/spline.h", "symbols": ["ElevateDegreeForDimension", "DegreeElevateBezierSegment", "SetNewBezierSegmentControlPoints"]}]}
{"id": "C30", "title": "Degree reduction of a Bezier segment inverts exact elevation", "statement": "DegreeReduceBezierSegment applied to a segment that is an exact degree elevation returns the original points with error 0, so it reports success for every tolerance > 0; for degree 1 it accesses index -1.", "quantifier": "for every degree >= 2, every segment and number of slices", "why_tests_cant": "Two recurrences meeting in the middle, even and odd degrees, all degrees.", "anchors": [{"file": "src/spl/spline.h", "symbols": ["DegreeReduceBezierSegment", "ReduceDegreeForDimension"]}]}
{"id": "C31", "title": "Geometric equality test is sound", "statement": "Claim: AreGeometricallyEqual(a,b) = true implies all compared samples of the two splines are within tolerance, and it never throws for splines over the same domain. Refuted: it accepts NaN, and it samples [0, length] instead of [first, last].", "quantifier": "refutation: exists splines", "why_tests_cant": "It is itself the test oracle of the test-suite.", "anchors": [{"file": "src/spl/spline.h", "symbols": ["AreGeometricallyEqual"]}, {"file": "src/util/vector_utils.h", "symbols": ["ComputeDistance"]}]}
{"id": "C32", "title": "Copies are independent, generator-built splines are not", "statement": "Mutating a copy-constructed spline never changes the original (and vice versa), and the pieces of a subdivision share nothing with each other or the split spline. The Spline constructors and BSplineGenerator copy the KnotVector objects they are given. Splines built from one generator do share state: an InsertKnot through one changes the other. The same holds after an assignment a = b, since no copy assignment is declared. NURBSGenerator keeps the given KnotVector objects: an InsertKnot on a spline of one generator changes the knots (not the points) of a spline of another one given the same objects, which may make its evaluation undefined.", "quantifier": "for every heap, every two objects and every sequence of member calls, changes of foreign knot vectors and creations", "why_tests_cant": "Aliasing is a property of all histories.", "anchors": [{"file": "src/spl/spline.h", "symbols": ["Spline"]}, {"file": "src/spl/b_spline.h", "symbols": ["BSpline"]}, {"file": "src/spl/nurbs.h", "symbols": ["NURBS"]}, {"file": "src/spl/parameter_space.h", "symbols": ["ParameterSpace"]}, {"file": "src/spl/b_spline_generator.h", "symbols": ["GetPhysicalSpace"]}, {"file": "src/spl/nurbs_generator.h", "symbols": ["NURBSGenerator"]}, {"file": "src/spl/spline_generator.h", "symbols": ["SplineGenerator"]}]}
{"id": "C33", "title": "Tolerant equality is reflexive and symmetric but not transitive", "statement": "AreEqual(a,a,tol) holds for tol > 0, AreEqual(a,b)=AreEqual(b,a), AreEqual true implies same shape and all stored numbers within tol; it is not transitive.", "quantifier": "for all splines and tolerances", "why_tests_cant": "Relational laws over all values.", "anchors": [{"file": "src/spl/parameter_space.h", "symbols": ["AreEqual"]}, {"file": "src/spl/physical_space.h", "symbols": ["AreEqual"]}, {"file": "src/spl/weighted_physical_space.h", "symbols": ["AreEqual"]}, {"file": "src/baf/knot_vector.cc", "symbols": ["AreEqual", "operator=="]}]}
{"id": "C34", "title": "Well-formedness is an invariant of every operation history", "statement": "Starting from a successful construction, any sequence of admissible InsertKnot, RefineKnots, RemoveKnot calls and subdivisions (going on with either piece or with the split spline) keeps: clamped non-decreasing knots, matching numbers of knots, basis functions, control points, weights; basis functions in sync with the knots. Without removals the result evaluates to the first map on what is left of its domain.", "quantifier": "for every finite sequence of operations", "why_tests_cant": "Histories are unbounded.", "anchors": [{"file": "src/spl/spline.h", "symbols": ["InsertKnot", "RemoveKnot"]}, {"file": "src/spl/parameter_space.h", "symbols": ["RecreateBasisFunctions"]}, {"file": "src/spl/physical_space.h", "symbols": ["AddControlPoints", "RemoveControlPoints"]}, {"file": "src/spl/b_spline.h", "symbols": ["SudivideSpline"]}, {"file": "src/spl/nurbs.h", "symbols": ["SudivideSpline"]}]}
{"id": "C35", "title": "Gauss-Legendre rules integrate polynomials exactly", "statement": "The n-point rule (n = 1..5) integrates every polynomial of degree <= 2n-1 over [-1,1] exactly (real arithmetic with the closed-form points), and its weights are positive and sum to 2.", "quantifier": "for every polynomial of degree <= 2n-1", "why_tests_cant": "All polynomials.", "anchors": [{"file": "example/iga/src/itg/one_point_gauss_legendre.h", "symbols": ["OnePointGaussLegendre"]}, {"file": "example/iga/src/itg/two_point_gauss_legendre.h", "symbols": ["TwoPointGaussLegendre"]}, {"file": "example/iga/src/itg/three_point_gauss_legendre.h", "symbols": ["ThreePointGaussLegendre"]}, {"file": "example/iga/src/itg/four_point_gauss_legendre.h", "symbols": ["FourPointGaussLegendre"]}, {"file": "example/iga/src/itg/five_point_gauss_legendre.h", "symbols": ["FivePointGaussLegendre"]}]}
{"id": "C36", "title": "Element-to-control-point connectivity", "statement": "For every element and local basis function, the global index delivered by the connectivity handler is the 1-based linear index of the control point whose basis function is non-zero on that element; element lists tile the parameter domain without gaps.", "quantifier": "for every clamped knot vector pattern, dimension and element", "why_tests_cant": "Repeated interior knots shift the indices; all patterns must be covered.", "anchors": [{"file": "example/iga/src/connectivity_handler.h", "symbols": ["GetGlobalIndex"]}, {"file": "example/iga/src/element_generator.h", "symbols": ["ElementGenerator", "GetKnotMultiplicityIndexShift", "GetElementNumberAtParamCoord"]}, {"file": "src/util/element_generator.h", "symbols": ["ElementGenerator"]}]}
{"id": "C37", "title": "NURBS basis derivatives used in assembly", "statement": "Claim: the element routine returns the derivatives of the rational basis functions. Refuted: only the first DIM entries get the quotient rule, and these use the already divided basis function.", "quantifier": "refutation: exists weights", "why_tests_cant": "Existing tests use unit weights.", "anchors": [{"file": "example/iga/src/basis_function_handler.h", "symbols": ["EvaluateAllNonZeroNURBSBasisFunctionDerivatives"]}]}
{"id": "C38", "title": "String splitting and trimming", "statement": "split(s, d) returns exactly the non-empty maximal pieces of s not containing d or newline, in order; joining pieces without delimiters by d and splitting gives the pieces back; trim removes exactly the leading whitespace/'[' and the trailing whitespace/']'.", "quantifier": "for every string and delimiter", "why_tests_cant": "All strings.", "anchors": [{"file": "src/util/string_operations.h", "symbols": ["split", "trim"]}]}
{"id": "C39", "title": "Prefix and suffix tests and file-format dispatch", "statement": "StartsWith(s,t) holds iff t is a prefix of s. Claim: EndsWith(s,t) holds iff t is a suffix. Refuted in both directions: a suffix occurring earlier too is missed, and a string one character shorter than the suffix is always accepted, so every 3-character file name is taken for an IRIT file.", "quantifier": "for all strings; refutations by witnesses and by a universal statement about the length", "why_tests_cant": "Length wrap-around is not exercised by tests.", "anchors": [{"file": "src/util/string_operations.h", "symbols": ["StartsWith", "EndsWith"]}, {"file": "src/io/io_converter.cc", "symbols": ["GetFileFormat"]}]}
{"id": "C40", "title": "Decimal parsing", "statement": "StringToDouble returns the decimal value of [-]digits[.digits][(e|E)[+|-]digits] when the mantissa contains a decimal point or no exponent is present (real arithmetic). Refuted without decimal point but with exponent: 1e5 reads as 1e7.", "quantifier": "for all digit strings", "why_tests_cant": "All numerals.", "anchors": [{"file": "src/util/string_operations.h", "symbols": ["StringToDouble"]}]}
{"id": "C41", "title": "Delimited number lists", "statement": "DelimitedStringToVector of a list of numerals each followed by ',' or ';' returns exactly their values in order.", "quantifier": "for every list of numerals", "why_tests_cant": "All lists.", "anchors": [{"file": "src/util/string_operations.h", "symbols": ["DelimitedStringToVector"]}]}
{"id": "C42", "title": "Converter position filtering", "statement": "The positions reported as written are exactly the requested positions (all if none requested) whose spline dimension the output format supports, in request order, and the splines handed to the writer are those; the scattering entries match the splines. A second conversion with the same object repeats the positions of the first.", "quantifier": "for every list of splines, requested positions and output format", "why_tests_cant": "All request lists and histories.", "anchors": [{"file": "src/io/io_converter.cc", "symbols": ["GetPositions", "GetSplinePositionsOfCorrectDimension", "GetScattering", "WriteFile"]}, {"file": "src/util/vector_utils.h", "symbols": ["FilterVector"]}]}
{"id": "C43", "title": "VTK cells reference existing points and tile the sampled grid", "statement": "The cell lists written for a spline reference only point numbers that are written for that spline (with the right offset), each cell's corners are the correct neighbours, the points are the spline at the equidistant parameters, and the header counts match the numbers of points and cells. Lists that are no splines, have the wrong scattering sizes or four parameters are refused. In double arithmetic the last sample can leave the domain (refuted).", "quantifier": "for every list of splines with 1..3 parameters and every scattering >= 1", "why_tests_cant": "Index arithmetic for all grids.", "anchors": [{"file": "src/io/vtk_writer.cc", "symbols": ["WriteFile"]}, {"file": "src/io/vtk_writer_utils.h", "symbols": ["WriteCellTypes"]}]}
{"id": "C44", "title": "File format round trips", "statement": "Reading back the knot and control point sections written for a spline yields the same structure (dimension, degrees, numbers of points, ordering of control points and weights) and numbers within the printing precision; if knots and weights are printed exactly, the spline read back evaluates to the same points within the printing precision (divided by the smallest weight for IRIT).", "quantifier": "for every spline", "why_tests_cant": "All splines and number formats.", "anchors": [{"file": "src/io/irit_writer.cc", "symbols": ["IRITWriter"]}, {"file": "src/io/irit_reader.cc", "symbols": ["IRITReader"]}, {"file": "src/io/iges_writer.cc", "symbols": ["IGESWriter"]}, {"file": "src/io/iges_reader.cc", "symbols": ["IGESReader"]}, {"file": "src/io/xml_writer.cc", "symbols": ["XMLWriter"]}, {"file": "src/io/xml_reader.cc", "symbols": ["XMLReader"]}]}
{"id": "C45", "title": "Point projection stays in the domain and terminates", "statement": "ProjectionOnCurve and ProjectionOnSurface execute their loop body at most 1001 times, for every input and number type. For curves whose domain starts at 0, and for surfaces in space with the same domain [0,last] in both directions, the returned parameters lie in the domain. There the result comes from the nearest of the samples by steps to the foot of the perpendicular on the tangent line or plane, each limited to the domain; all corrections but the last have a component of at least the tolerance, and the last has none or is number 1001. Refuted otherwise: a shifted domain throws range_error, a constant curve returns NaN, a surface with different domains throws or misses a point of the surface, rounding of the sample positions throws, and a surface in the plane is undefined behaviour.", "quantifier": "for every curve, surface and point; refutations by witness or for every curve of the described kind", "why_tests_cant": "Iterative algorithm over all inputs.", "anchors": [{"file": "src/spl/projection.h", "symbols": ["ProjectionOnCurve", "ProjectionOnSurface", "CheckParametricCoordinates", "FindInitialValue1D", "FindInitialValue2D", "UpdateConverged", "GetDelta1D", "GetDelta2D", "GetQ"]}]}
{"id": "C46", "title": "Translational surface is the sum of its curves", "statement": "The surface generated from two NURBS curves evaluates at (u,v) to trajectory(u) + cross-section(v).", "quantifier": "for all curves with positive weights and all parameters", "why_tests_cant": "Identity of maps on a continuum.", "anchors": [{"file": "src/spl/surface_generator.cc", "symbols": ["JoinParameterSpaces", "JoinPhysicalSpaces"]}]}
{"id": "C47", "title": "Square generator", "statement": "CreateSquare returns a valid B-spline surface over [0,1]^2 with uniform clamped knots whose corners are (-1,-1),(1,-1),(-1,1),(1,1); it is a product map into the square and affine for degree 1 or without interior knots. In double arithmetic the corner (1,1) can be missed.", "quantifier": "for every degree >= 1 and number of knots >= 2p+2", "why_tests_cant": "All degrees and sizes.", "anchors": [{"file": "src/spl/square_generator.cc", "symbols": ["CreateSquare", "GenerateParameterSpace", "GeneratePhysicalSpace"]}]}
{"id": "C48", "title": "Vector utilities", "statement": "ComputeDistance is a metric on vectors of equal length (real arithmetic), scalar product is bilinear and symmetric, the cross product is orthogonal to both arguments, FilterVector returns exactly the requested entries or throws.", "quantifier": "for all vectors", "why_tests_cant": "Algebraic laws over all vectors.", "anchors": [{"file": "src/util/vector_utils.h", "symbols": ["ComputeDistance", "ComputeScalarProduct", "CrossProduct", "FilterVector"]}]}
{"id": "C49", "title": "Linear precision", "statement": "A B-spline one of whose coordinates is an affine function of the Greville abscissae (means of p consecutive knots) evaluates in that coordinate to the same affine function of the parameters. The first derivative in direction d is then the constant factor of direction d, at the knots as well.", "quantifier": "for all B-splines of degree >= 1 in every direction, any number of directions, all parameters", "why_tests_cant": "Identity on a continuum for all knot vectors and degrees.", "anchors": [{"file": "src/spl/spline.h", "symbols": ["Evaluate"]}, {"file": "src/spl/b_spline.h", "symbols": ["GetEvaluatedControlPoint"]}, {"file": "src/baf/basis_function.cc", "symbols": ["Evaluate"]}]}
{"id": "C50", "title": "Projection onto straight curves and plane surfaces is exact", "statement": "For a B-spline curve whose control points are an affine function of the knot means (a straight line with constant speed) ProjectionOnCurve returns a parameter whose point is at least as near to the given point as every other point of the curve. For a surface of this kind ProjectionOnSurface returns the parameters of the foot of the perpendicular if it belongs to the surface.", "quantifier": "for every such curve or surface with domain starting at 0, every point, every tolerance and scattering", "why_tests_cant": "Optimality over all points of the curve for all inputs.", "anchors": [{"file": "src/spl/projection.h", "symbols": ["ProjectionOnCurve", "ProjectionOnSurface", "GetDelta1D", "GetDelta2D", "GetQ"]}]}
{"id": "C51", "title": "Construction of splines", "statement": "The constructors of BSpline and NURBS accept exactly clamped directions with as many control points (and weights) as the knots and degrees require, all control points of one dimension; the control point with multi-index idx is the given point number position(idx), the first direction running fastest. Everything else throws runtime_error, except that an empty list of control points is accessed before the check.", "quantifier": "for all knot vectors, degrees, control points and weights", "why_tests_cant": "All wrong combinations of sizes, for any number of directions.", "anchors": [{"file": "src/spl/b_spline.h", "symbols": ["BSpline"]}, {"file": "src/spl/nurbs.h", "symbols": ["NURBS"]}, {"file": "src/spl/physical_space.h", "symbols": ["PhysicalSpace"]}, {"file": "src/spl/weighted_physical_space.h", "symbols": ["WeightedPhysicalSpace"]}]}
{"id": "C52", "title": "Reference elements are mapped onto their elements", "statement": "Reference2ParameterSpace maps the reference coordinates xs in [-1,1]^d and the number of element es to the point that divides each side of es in the ratio of xs, and a point with all reference coordinates strictly between -1 and 1 is attributed to the same element by GetElementNumberAtParamCoord.", "quantifier": "for every well-formed spline of any dimension, every element, all reference coordinates", "why_tests_cant": "Tests use one knot vector without repeated interior knots; the claim needs every multiplicity and every dimension.", "anchors": [{"file": "example/iga/src/mapping_handler.h", "symbols": ["Reference2ParameterSpace"]}, {"file": "example/iga/src/element_generator.h", "symbols": ["GetElementNumberAtParamCoord"]}]}
{"id": "C53", "title": "Jacobian determinant of the map from the reference element", "statement": "GetJacobianDeterminant at a point strictly inside an element is the square root of the determinant of J^T J, where J is the derivative of the geometry times half the widths of the element; for a curve this is half the width times the speed, for a plane patch the product of the half widths times |det| of the derivative.", "quantifier": "for every well-formed spline with non-vanishing weight function, every inner point of every element", "why_tests_cant": "The derivative of a rational geometry is a limit; tests compare a few numbers.", "anchors": [{"file": "example/iga/src/mapping_handler.h", "symbols": ["GetJacobianDeterminant", "GetDxDxitilde", "GetDxDxi", "GetDxiDxitilde"]}]}
{"id": "C54", "title": "Assembled matrices and vectors", "statement": "The mass matrix, load vector and stiffness matrix hold for each (pair of) control points the tensor-product quadrature over all elements of the product of the basis functions, of basis function and source, and (unit weights) of conductivity times the product of the physical gradients. Hence the mass and stiffness matrices are symmetric with non-negative quadratic form, the entries of the mass matrix sum to the measure of the domain, the load vector is the mass matrix times the source coefficients, and the rows of the stiffness matrix sum to zero.", "quantifier": "for every well-formed spline of any dimension, every rule with points in (-1,1), every source and conductivity", "why_tests_cant": "The tests compare with one precomputed matrix; the claim is about every spline and the relation to derivatives and integrals.", "anchors": [{"file": "example/iga/src/linear_equation_assembler.h", "symbols": ["GetLeftSide", "GetRightSide"]}, {"file": "example/iga/src/element_integral_calculator.h", "symbols": ["GetLaplaceElementIntegral"]}, {"file": "example/iga/src/bdf_handler.h", "symbols": ["GetTimeDiscretizationMatrix"]}, {"file": "example/iga/src/basis_function_handler.h", "symbols": ["EvaluateAllElementNonZeroNURBSBasisFunctions", "EvaluateAllElementNonZeroNURBSBafDerivativesPhysical"]}]}
{"id": "C55", "title": "Boundary conditions in the assembled system", "statement": "SetZeroBC and SetDirichletBC replace exactly the rows of the control points with an extreme index in some direction by rows of the identity, with right-hand side 0 or the given values taken in the order of the control point numbers, and leave the other rows and entries as they are; fewer values than boundary control points are read out of bounds. The solutions of the changed system are exactly the vectors with the given boundary values that satisfy all other rows of the original system.", "quantifier": "for every number of directions, all control point counts, every matrix, vector and list of values", "why_tests_cant": "Tests set one matrix of a plane patch; which rows are changed and in which order the values are used depends on the dimension and counts.", "anchors": [{"file": "example/iga/src/linear_equation_assembler.h", "symbols": ["SetZeroBC"]}, {"file": "example/iga/src/linear_equation_assembler.h", "symbols": ["SetDirichletBC"]}]}
{"id": "C56", "title": "Solutions of the Poisson problem", "statement": "The vector returned by GetSteadyStateSolution solves the discrete Poisson problem with source 1 and zero boundary values, also after any number of earlier calls. On a new object GetUnsteadyStateSolution returns the zero vector followed by vectors each of which is an implicit Euler step from the one before, with the given boundary values. A second call of GetUnsteadyStateSolution on the same object gives other results, because the object's matrix and right-hand side are added to again.", "quantifier": "for every well-formed spline of any dimension with unit weights, every rule with points in (-1,1), every step width not 0, every number of calls", "why_tests_cant": "Needs every mesh and every history of calls; the tests construct a new object for each call.", "anchors": [{"file": "example/iga/src/poisson_problem.h", "symbols": ["GetSteadyStateSolution", "GetUnsteadyStateSolution"]}, {"file": "example/iga/src/bdf_handler.h", "symbols": ["GetBDF1LeftSide", "GetBDF1RightSide"]}]}
{"id": "C57", "title": "Boundary splines and Neumann conditions", "statement": "GetBoundarySplineConnectivity lists the numbers of the control points with the first or last index in a direction. When all directions have the same number of control points GetBoundarySplines returns splines with the control points and weights of the faces, and when moreover all directions have the same knots and degree they are the faces of the spline and GetRightSideNeumann adds to the entry of each control point the boundary integrals over the faces it lies on of its basis function times the flux. With different numbers of control points the functions throw; with equal numbers but different knots a boundary spline need not be the face, because the knots of the first DIM-1 directions are used for every face.", "quantifier": "for every dimension, all control point counts, knots, degrees, weights, coefficients and rules with points in (-1,1)", "why_tests_cant": "The tests use one square patch whose directions are equal, where using the wrong knot vector cannot be seen.", "anchors": [{"file": "example/iga/src/linear_equation_assembler.h", "symbols": ["GetBoundarySplines"]}, {"file": "example/iga/src/linear_equation_assembler.h", "symbols": ["GetBoundarySplineConnectivity"]}, {"file": "example/iga/src/linear_equation_assembler.h", "symbols": ["GetRightSideNeumann"]}]}
{"id": "C58", "title": "Solution spline and solution file", "statement": "SolutionSpline returns a NURBS with the same knots, degrees, weights and coordinates and one more coordinate, whose value at every parameter is the sum of the rational basis functions times the entries of the solution. The point data that WriteSolutionToVTK appends has one number per point of the file, and number k is the field at the parameters of point k.", "quantifier": "for every NURBS, every solution vector of at least the number of control points, every grid of at least one cell per direction (files: one to three directions, positive weights)", "why_tests_cant": "Tests compare one file of one patch; that point data and points stay in step for every dimension and grid needs the index handling.", "anchors": [{"file": "example/iga/src/solution_spline.h", "symbols": ["SolutionSpline"]}, {"file": "example/iga/src/solution_vtk_writer.h", "symbols": ["WriteSolutionToVTK"]}]}
{"id": "C59", "title": "Random splines are valid whatever is drawn", "statement": "The generators of random B-splines and NURBS return a well-formed spline of the requested dimensions: degrees between 1 and the given maximum, p+1 equal knots at both ends and equally spaced ones between, from the lower to the upper limit, coordinates in [-5,5] and weights in [0.1,2]. With a maximal degree below 1 the behaviour is undefined.", "quantifier": "for every sequence of numbers the random engine can draw, every dimension, limits low < high far enough apart, maximal degree and coordinate dimension", "why_tests_cant": "A test sees a few draws; validity for every draw is a statement about all sequences of random numbers.", "anchors": [{"file": "src/util/random.h", "symbols": ["GetBinomialRandom"]}, {"file": "src/spl/random_spline_utils.h", "symbols": ["GetRandomDegrees", "GetRandomKnotVectors", "GetRandomControlPoints", "GetRandomWeights"]}, {"file": "src/spl/random_b_spline_generator.h", "symbols": ["RandomBSplineGenerator"]}, {"file": "src/spl/random_nurbs_generator.h", "symbols": ["RandomNURBSGenerator"]}]}
{"id": "C60", "title": "Swept surfaces carry the section in an orthonormal frame along the trajectory", "statement": "Sweeping a section curve along a trajectory that starts at the parameter 0 and has a normal at each of the n sections gives a well-formed NURBS surface: n sections, the trajectory's degree with knots that are means of neighbouring parameters, control points of the section stretched and put into a right-handed orthonormal frame whose first axis is the trajectory's direction, products as weights, and at both ends exactly the section curve in the frame there. Orthogonal neighbouring normals give a runtime_error; a trajectory starting later than 0 a range_error. It is false that a straight trajectory always gives numbers, that reversed normals are detected, and that in doubles the last parameter always lies in the domain.", "quantifier": "for all NURBS curves with positive weights as trajectory and section, all degrees, knots, numbers of sections (at least degree + 1) and scalings; the false parts by concrete doubles", "why_tests_cant": "The unit tests compare one surface with stored numbers; that the frame is orthonormal and the surface valid for every trajectory, and which trajectories fail, cannot be sampled.", "anchors": [{"file": "src/spl/surface_generator.cc", "symbols": ["SurfaceGenerator", "CrossProduct", "DotProduct", "ComputeNorm", "ComputeNormal", "GetTransformation"]}, {"file": "src/baf/knot_vector.cc", "symbols": ["KnotVector"]}, {"file": "src/baf/control_point.cc", "symbols": ["Transform"]}]}
{"id": "C61", "title": "The converter programs write the splines their log file asks for and can be run again on the extended log", "statement": "Each of the nine converter programs, given a log file that lists input, output, positions (or all) and for VTK the scattering, hands to the writer exactly those of the splines asked for that the output format can hold, in that order and with their scattering rows, writes the result to the output path, and appends to the log an entry naming exactly these positions. The appended entry never changes how the log is read, so running the program again does the same. XML and IRIT outputs read back are the splines asked for up to the printing error. A wrong number of arguments, an unreadable log, any exception of the reader and an object that is no spline give a runtime_error. It is false that a heading directly after the positions is always recognised and that logs with carriage returns can be read; a log without positions leads to undefined behaviour.", "quantifier": "for all logs built from any sequence of settings and other lines, all readers and writers, all lists of splines, formats, time stamps; rerunning for all texts of the log", "why_tests_cant": "The tests use a handful of fixed logs. That every arrangement of settings is read as meant, and that no appended entry is ever taken for a setting, concerns all texts.", "anchors": [{"file": "src/io/executables/converter_log.cc", "symbols": ["ConverterLog", "GetInput", "GetOutput", "GetPositions", "GetScattering", "WriteLog", "OneSpline"]}, {"file": "src/io/executables/iges_to_vtk.cc", "symbols": ["main"]}, {"file": "src/io/executables/irit_to_xml.cc", "symbols": ["main"]}, {"file": "src/io/executables/xml_to_irit.cc", "symbols": ["main"]}]}
{"id": "C62", "title": "The XML reader understands documents of any origin", "statement": "An XML document whose entries give degrees, knots, weights and one row of variables per control point, in any layout of blanks and line feeds and with any variables besides the coordinates, is read as the list of the splines described: for entries with one to four directions the knots, degrees and weights are the numbers written, and coordinate c of a control point is the variable number first + c of its row, where first is the position of the variable x (0 without such a variable). Entries with another number of directions are left out. Fewer values than announced lead to undefined behaviour.", "quantifier": "for all documents, layouts, numerals, variable names, numbers of variables and splines", "why_tests_cant": "The tests read two fixed files.", "anchors": [{"file": "src/io/xml_reader.cc", "symbols": ["ReadFile", "GetControlPoints", "FindCoordinatePosition", "GetWeights"]}, {"file": "src/io/xml_reader_utils.h", "symbols": ["GetDegrees", "GetKnotVectors"]}]}
{"id": "C63", "title": "Domain and knot span are exact in double arithmetic", "statement": "For clamped, sorted knot vectors of finite doubles of at most 2^500 whose different knots are at least the tolerance apart, the code run in IEEE doubles finds a non-empty knot span that contains the parameter, with no error from the tolerance comparisons. Evaluation of a B-spline has a result for exactly the parameter points in the domain; every other point, including NaN and the infinities, is rejected with std::range_error.", "quantifier": "for all such knot vectors, degrees, control points, dimensions and all doubles as parameters", "why_tests_cant": "There are 2^64 parameters for one knot vector; the tests use a few decimal fractions.", "anchors": [{"file": "src/baf/knot_vector.cc", "symbols": ["GetKnotSpan", "IsLastKnot", "IsInKnotVectorRange"]}, {"file": "src/spl/parameter_space.h", "symbols": ["ThrowIfParametricCoordinateOutsideKnotVectorRange"]}, {"file": "src/spl/spline.h", "symbols": ["Evaluate"]}]}
{"id": "C64", "title": "Basis functions computed in double arithmetic", "statement": "For the knot vectors of C63 and parameters in the domain, every basis function value of degree p <= 500 computed in IEEE doubles is finite and not negative, differs from the Cox-de Boor value by at most p * 2^-50 of that value plus 4^(p+2) * 2^-1075 for underflow, and is exactly 0 outside the support. The p+1 values of the span add up to 1 up to p * 2^-50 and underflow.", "quantifier": "for all such knot vectors, degrees, basis function numbers and parameters", "why_tests_cant": "The tests compare a few values up to the tolerance 10 * 2^-52; a bound for every input needs a proof.", "anchors": [{"file": "src/baf/basis_function.cc", "symbols": ["Evaluate", "IsCoordinateInSupport"]}, {"file": "src/baf/b_spline_basis_function.cc", "symbols": ["EvaluateOnSupport", "ComputeLeftQuotient", "ComputeRightQuotient", "InverseWithPossiblyZeroDenominator"]}, {"file": "src/baf/zero_degree_b_spline_basis_function.cc", "symbols": ["EvaluateOnSupport"]}, {"file": "src/spl/parameter_space.h", "symbols": ["EvaluateAllNonZeroBasisFunctions"]}]}
{"id": "C65", "title": "Error of B-spline evaluation in double arithmetic", "statement": "For a B-spline with the knot vectors of C63 and control points of finite doubles with absolute value at most M <= 2^500, every coordinate computed in IEEE doubles at a point of the domain is finite and differs from the exact value by at most n * 2^-52 * M plus an underflow term, where n = sum over the directions of (6p+1) + product of (p+1) + 1. Refuted: the ends of the domain give the first and last control point exactly (49 * (1 / 49) is not 1).", "quantifier": "for all dimensions, degrees (total depth at most 500), knot vectors, control points and parameters", "why_tests_cant": "Rounding errors depend on every bit of the input; a test sees single inputs.", "anchors": [{"file": "src/spl/spline.h", "symbols": ["Evaluate", "GetEvaluatedControlPoint"]}, {"file": "src/spl/b_spline.h", "symbols": ["GetEvaluatedControlPoint"]}, {"file": "src/spl/parameter_space.h", "symbols": ["GetBasisFunctions", "GetArrayOfFirstNonZeroBasisFunctions"]}]}
{"id": "C66", "title": "Error of NURBS evaluation in double arithmetic", "statement": "For a NURBS with the knot vectors of C63, weights between 2^-100 and 2^100 and control points of finite doubles with absolute value at most M <= 2^500, every coordinate computed in IEEE doubles at a point of the domain is finite and differs from the exact rational value by at most (3n + 7) * 2^-52 * M plus an underflow term, where n = sum over the directions of (6p+1) + product of (p+1).", "quantifier": "for all dimensions, degrees (total depth at most 200), knot vectors, weights, control points and parameters", "why_tests_cant": "Rounding errors depend on every bit of the input; a test sees single inputs.", "anchors": [{"file": "src/spl/nurbs.h", "symbols": ["GetEvaluatedControlPoint", "GetEvaluatedWeightSum", "GetEvaluatedWeight"]}, {"file": "src/spl/spline.h", "symbols": ["Evaluate"]}, {"file": "src/spl/weighted_physical_space.h", "symbols": ["GetHomogenousControlPoint", "GetWeight"]}]}
{"id": "C67", "title": "Smoothness at knots", "statement": "At an interior parameter u that occurs r times among the knots of a direction of degree p (r = 0 if u is no knot), EvaluateDerivative of order m in that direction is continuous if m + r <= p, and order m + 1 is the two-sided derivative of order m if m + 1 + r <= p; the same holds for single basis functions, and Evaluate is continuous if r <= p. Refuted: continuity for m + r = p + 1.", "quantifier": "for all dimensions, degrees, knot vectors with separated knots, control points, weights (B-splines, or a weight function that is not zero at the parameter), mixed orders and interior parameters", "why_tests_cant": "Limits from both sides at every knot of every spline; a test compares single values.", "anchors": [{"file": "src/spl/spline.h", "symbols": ["EvaluateDerivative", "Evaluate"]}, {"file": "src/spl/nurbs.h", "symbols": ["GetRationalBasisFunctionDerivative"]}, {"file": "src/baf/basis_function.cc", "symbols": ["EvaluateDerivative"]}, {"file": "src/baf/knot_vector.cc", "symbols": ["GetKnotSpan"]}]}
{"id": "C68", "title": "Conversion of files", "statement": "IOConverter::ConvertFile reads the input file in the format its name has, and writes those of the requested splines that the output format can hold to the output file, in the order requested, returning their positions: read back, the output file contains the requested splines up to the printing error (XML, IRIT, IGES curves); a VTK file contains their sample points and cells. Names without a supported extension and files that cannot be opened are refused with runtime_error.", "quantifier": "for every input and output name, contents of the input file in any readable format, requested positions and scattering", "why_tests_cant": "The tests convert a few files of the repository.", "anchors": [{"file": "src/io/io_converter.cc", "symbols": ["IOConverter", "ConvertFile", "GetReader", "GetWriter", "GetFileFormat"]}, {"file": "src/io/io_converter.h", "symbols": ["IOConverter"]}]}
{"id": "C69", "title": "The IGES reader understands files of any origin", "statement": "From a file of lines of at least 72 characters the reader returns the rational B-spline curves (type 126) and surfaces (type 128) in the order of the directory, leaving out other entities: degrees, knots, weights (unless the polynomial flag is set) and control points are the numbers written in the parameter data, in any layout of blanks and numerals. Entities with fewer numbers than their header asks for (for surfaces: without the parameter range behind the control points) and lines of less than 72 characters lead to undefined behaviour.", "quantifier": "for all files, entities, layouts and numerals", "why_tests_cant": "The tests read two fixed files.", "anchors": [{"file": "src/io/iges_reader.cc", "symbols": ["ReadFile", "Create1DSpline", "Create2DSpline", "GetParameterSectionStartEndPointers", "ParameterSectionToVector"]}]}
{"id": "C70", "title": "The IRIT reader understands files of any origin", "statement": "From a file whose words (lines put together, split at blanks) contain objects CURVE, SURFACE or TRIVAR of type BSPLINE, the reader returns these splines in order, ignoring comments and all other objects: degrees, knots and weights are the numbers written, control points are the numbers written divided by the weight, in any layout and with any numerals. A BSPLINE object behind which no word begins with [KV leads to undefined behaviour, even in a complete file whose lines begin in the first column.", "quantifier": "for all files, objects, layouts, numerals and other words in the file", "why_tests_cant": "The tests read one fixed file.", "anchors": [{"file": "src/io/irit_reader.cc", "symbols": ["ReadFile", "GetSplinePositions", "GetDimension", "GetNumberOfControlPoints", "GetControlPoints", "GetWeights", "GetPositionOfFirstControlPoint"]}, {"file": "src/io/irit_reader_utils.h", "symbols": ["GetDegrees", "GetKnotVectors", "IsRational"]}]}
{"id": "C71", "title": "Knot insertion in double arithmetic keeps the spline up to rounding", "statement": "InsertKnot of a finite double u, r times, into a B-spline with the knot vectors of C63 and control points of finite doubles with absolute value at most M <= 2^499 gives a well-formed spline: the knot vector is the old one with r more copies of u, all control points are finite, and at no point of the domain do the two splines (as exact functions) differ by more than r * (2^-48 * M + 4 * 2^-1075) in any coordinate. Evaluating the new spline in doubles gives the old point up to this and the error of C65. RefineKnots with a list of knots moves the spline by at most twice this amount per knot.", "quantifier": "for all dimensions, degrees, knot vectors, control points, new knots and multiplicities (the new knot equal to or at least the tolerance away from each old one, at most p+1 copies)", "why_tests_cant": "Rounding errors depend on every bit of the input, and the tests compare with single control points only.", "anchors": [{"file": "src/spl/spline.h", "symbols": ["InsertKnot", "RefineKnots"]}, {"file": "src/spl/b_spline.h", "symbols": ["AdjustControlPoints"]}]}
{"id": "C72", "title": "Written files follow their formats", "statement": "An IGES file written by the library has the sections S, G, D, P, T with lines of 80 columns, each ending with the letter of its section and its number; the directory has two lines per spline giving entity type, first line and number of lines of the parameter data; these lines point back to the entry and hold exactly the numbers of the spline in the order of entity 126 or 128; the last line counts the lines of all sections. An XML file with at most four coordinates per point writes down every number of every spline at the place where a reader of such documents looks for it, and an IRIT file consists of numbered objects whose words are those of the spline with control points in homogeneous coordinates. Not so: the dates of the IGES header (a Hollerith constant of a Hollerith constant), its maximum coordinate (negative coordinates are not looked at), and the names of the variables of an XML file with more than four coordinates.", "quantifier": "for all lists of well-formed splines whose numbers the printing function can print, all names and times in the header", "why_tests_cant": "The tests compare one or two written files with the reader of the same library; that line numbers, pointers and counts agree for every number of splines and every length of data needs a statement about all of them.", "anchors": [{"file": "src/io/iges_writer.cc", "symbols": ["WriteFile", "GetGlobalSection", "GetDataEntry", "GetParameterSectionLayout", "GetTime", "GetHighestValue"]}, {"file": "src/io/xml_writer.cc", "symbols": ["AddSpline", "AddControlPointVarNames"]}, {"file": "src/io/irit_writer.cc", "symbols": ["WriteFile"]}]}
{"id": "C73", "title": "Knot insertion into NURBS in double arithmetic", "statement": "Inserting a knot r times into a NURBS in IEEE double arithmetic always succeeds and gives a well-formed NURBS over the old knots and the new ones, with all weights and coordinates finite. If the weights lie between m and W, the new ones stay within W/2^48 per knot of that range; coordinates and the points of the exact rational function move by at most (W/m)(M/2^44 + 2^-890) per knot, where M bounds the coordinates, provided r W/m is at most 2^40. The same holds for refinement by a list of knots, and a point evaluated on the new NURBS in doubles is within that distance plus the error of evaluation of the exact point of the old one.", "quantifier": "for all NURBS of any dimension with finite coordinates up to 2^498, weights from 2^-99 to 2^99, knots that are equal or at least the tolerance apart, all insertable knots and multiplicities, all parameters in the domain", "why_tests_cant": "The tests insert a few knots into a few NURBS and compare single points; that the quotient of two rounded sums stays close needs the ratio of the weights and every position of the knot.", "anchors": [{"file": "src/spl/spline.h", "symbols": ["InsertKnot", "RefineKnots"]}, {"file": "src/spl/nurbs.h", "symbols": ["AdjustControlPoints", "GetNewControlPoint", "GetNewWeight"]}]}
{"id": "C74", "title": "Derivatives in double arithmetic", "statement": "EvaluateDerivative of a B-spline and EvaluateDerivative of a basis function in IEEE double arithmetic give finite values that differ from the exact partial derivatives only by rounding. If distinct knots are at least h apart, h at most 1, and coordinates are at most M in absolute value, the error is at most (D + 2n + 2) 2^-52 n G M, where G is the product of (2p/h)^m over the directions, n is the number of summands, and D adds 6p + 2m + 3 for every direction of degree p and order m. The exact values it is compared to are the spline itself for order 0 and the derivative in the sense of analysis for every further order. Parameters outside the domain, NaN and infinities are rejected with range_error.", "quantifier": "for all B-splines of any dimension with finite coordinates up to 2^400 and knots that are equal or at least the tolerance apart, all degrees up to 500, all orders in all directions for which G is at most 2^400, all parameters in the domain", "why_tests_cant": "The tests compare single derivatives to a fixed tolerance; how the error grows with the order and shrinking spans needs a bound on every step of the recursion.", "anchors": [{"file": "src/spl/spline.h", "symbols": ["EvaluateDerivative"]}, {"file": "src/spl/b_spline.h", "symbols": ["GetEvaluatedDerivativeControlPoint"]}, {"file": "src/baf/b_spline_basis_function.cc", "symbols": ["EvaluateDerivativeOnSupport"]}, {"file": "src/baf/basis_function.cc", "symbols": ["EvaluateDerivative"]}]}
{"id": "C75", "title": "Control points are determined by the map", "statement": "If two B-splines, or two NURBS with the same positive weights, over the same knots agree for all parameters between two neighbouring distinct knots of every direction, then all control points used there are equal; if every control point has a support of positive length and the splines agree on the whole domain, all their control points are equal. Moving a single control point changes the value by exactly its rational basis function times the displacement, and does not change it outside the support of that point. A control point between p+2 equal knots does not matter at all.", "quantifier": "for all well-formed splines of any dimension, all degrees and knots, all parameters in the domain", "why_tests_cant": "That no other control points give the same map is a statement about all control points and all parameters; tests compare single values.", "anchors": [{"file": "src/spl/spline.h", "symbols": ["Evaluate"]}, {"file": "src/spl/b_spline.h", "symbols": ["GetEvaluatedControlPoint"]}, {"file": "src/spl/nurbs.h", "symbols": ["GetEvaluatedControlPoint"]}, {"file": "src/baf/b_spline_basis_function.cc", "symbols": ["EvaluateOnSupport"]}]}
{"id": "C76", "title": "Corner tangents and Bezier form", "statement": "At a corner of the domain whose end knots are repeated p+1 times, the first derivative in one direction is p divided by the length of the outermost knot span times the vector from the corner control point to its neighbour (for NURBS times the quotient of the two weights), with the sign of the end. A spline without interior knots evaluates to the (rational) Bezier form: the sum of Bernstein polynomial products times weighted control points, divided by the same sum of the weights.", "quantifier": "for all well-formed splines of any dimension, all degrees of at least one, all corners and directions; for all parameters in the domain", "why_tests_cant": "Both are closed formulas for all degrees, spans, points and weights; tests check single splines.", "anchors": [{"file": "src/spl/spline.h", "symbols": ["Evaluate", "EvaluateDerivative"]}, {"file": "src/spl/b_spline.h", "symbols": ["GetEvaluatedControlPoint"]}, {"file": "src/spl/nurbs.h", "symbols": ["GetEvaluatedDerivativeWeightSum"]}, {"file": "src/baf/b_spline_basis_function.cc", "symbols": ["EvaluateOnSupport", "EvaluateDerivativeOnSupport"]}]}
{"id": "C77", "title": "Affine change of the parameters", "statement": "A spline with the same control points over knots a t + b (a > 0, chosen per direction) gives at a u + b what the given spline gives at u, including the range error outside the domain; its derivatives of order m are those of the given spline divided by a^m in every direction.", "quantifier": "for all pairs of well-formed splines related in this way, all parameters, all derivative orders", "why_tests_cant": "Knots are compared with an absolute tolerance, so that rescaling leaves the map unchanged is a statement about all scales and parameters; tests use unit-sized knots.", "anchors": [{"file": "src/spl/spline.h", "symbols": ["Evaluate", "EvaluateDerivative"]}, {"file": "src/baf/knot_vector.cc", "symbols": ["GetKnotSpan", "IsInKnotVectorRange", "IsLastKnot"]}, {"file": "src/baf/b_spline_basis_function.cc", "symbols": ["EvaluateOnSupport", "EvaluateDerivativeOnSupport"]}]}
{"id": "C78", "title": "Variation diminution", "statement": "A plane (or line) does not meet a curve more often than its control polygon: if points of a B-spline curve, or of a NURBS curve with positive weights, at increasing parameters lie alternately on the two sides of a plane, then there are as many control points, in the same order, that do so too, each influencing the curve at the parameter in question. In particular a coordinate that does not decrease along the control points does not decrease along the curve.", "quantifier": "for all well-formed curves of every degree and dimension, all planes, all increasing lists of parameters", "why_tests_cant": "It compares the number of crossings of all planes with a whole curve, so it quantifies over infinitely many parameters and planes.", "anchors": [{"file": "src/spl/spline.h", "symbols": ["Evaluate"]}, {"file": "src/spl/b_spline.h", "symbols": ["GetEvaluatedControlPoint"]}, {"file": "src/spl/nurbs.h", "symbols": ["GetEvaluatedControlPoint"]}, {"file": "src/baf/b_spline_basis_function.cc", "symbols": ["EvaluateOnSupport"]}]}
{"id": "C79", "title": "Reproduction of polynomials", "statement": "Over any usable knot vectors every polynomial map whose degree in each parameter is at most the degree of that direction is a B-spline, which the constructor accepts and Evaluate returns the exact values of. Its control points are the coefficients times the means of the products of the knots inside the supports, and a B-spline that is a polynomial on one element has exactly these control points there. In particular control points at the means of the knots (Greville abscissae) reproduce affine maps. With weights the same holds of quotients of polynomials, such as the quarter circle.", "quantifier": "for all well-formed splines of every dimension and degree, all polynomials of these degrees, all parameters in the domain", "why_tests_cant": "It is an identity between functions for all knot vectors, degrees, polynomials and parameters; a test evaluates a few.", "anchors": [{"file": "src/spl/spline.h", "symbols": ["Evaluate"]}, {"file": "src/spl/b_spline.h", "symbols": ["GetEvaluatedControlPoint"]}, {"file": "src/spl/nurbs.h", "symbols": ["GetEvaluatedControlPoint"]}, {"file": "src/baf/b_spline_basis_function.cc", "symbols": ["EvaluateOnSupport"]}]}
{"id": "C80", "title": "Exact Galerkin integrals on affine patches", "statement": "If the spline has unit weights and maps its parameters affinely, and the Gauss rule has more points than the degree of every direction, then every entry of the mass matrix is exactly the integral of the product of the two basis functions over the patch (the product of the one-dimensional integrals times the volume factor of the map), and every entry of the stiffness matrix is exactly the integral of the conductivity times the scalar product of their gradients. The entries of the mass matrix sum to the volume of the patch for every rule, also with weights.", "quantifier": "for all well-formed splines of any dimension and degree with an affine map, all Gauss rules of the library with more points than the degrees, all pairs of control points", "why_tests_cant": "It compares quadrature with Riemann integrals for all knot vectors, degrees below the number of points and affine maps; a test compares with one precomputed matrix.", "anchors": [{"file": "example/iga/src/linear_equation_assembler.h", "symbols": ["GetLeftSide"]}, {"file": "example/iga/src/element_integral_calculator.h", "symbols": ["GetLaplaceElementIntegral"]}, {"file": "example/iga/src/bdf_handler.h", "symbols": ["GetTimeDiscretizationMatrix"]}]}
{"id": "C81", "title": "Range of int arithmetic in evaluation", "statement": "If the numbers of knots and the number of all coordinates of the control points are ints, Evaluate performs no int operation whose result is out of range, whatever the parameters and also in double arithmetic; the same holds of EvaluateDerivative for B-splines, for NURBS when the orders sum up to at most 30, and for NURBS curves up to order 33. From order 34 on EvaluateDerivative of a NURBS curve always overflows in binomialCoefficient. Get1DLength and binomialCoefficient are free of overflow exactly when their result is an int, Get1DIndex and ExtractDimension in every box of at most 2^31 multi-indices. Without the bound on the coordinates it fails: the constructor accepts splines on which Evaluate overflows.", "quantifier": "for all splines whose parts agree in size (in particular those the constructor makes), all parameters, all derivative orders", "why_tests_cant": "Overflow is undefined behaviour and needs splines or orders far beyond those of any test; that none occurs below the bounds concerns every size and every intermediate result.", "anchors": [{"file": "src/util/multi_index_handler.h", "symbols": ["Get1DIndex", "Get1DLength", "ExtractDimension"]}, {"file": "src/spl/nurbs.h", "symbols": ["binomialCoefficient", "GetDerivativesSum"]}, {"file": "src/spl/physical_space.h", "symbols": ["GetControlPoint"]}, {"file": "src/spl/spline.h", "symbols": ["Evaluate", "EvaluateDerivative"]}]}
{"id": "C82", "title": "Solvability of the assembled systems", "statement": "With an integration rule of distinct points, positive weights and more points than every degree (Gauss rules included), and a Jacobian determinant positive inside all elements, the mass matrix is positive definite, and the quadratic form of the stiffness matrix is nowhere negative and vanishes exactly for constant vectors. Hence the discrete Poisson problem has exactly one solution, which GetSteadyStateSolution returns in each call whatever solver is used, and the list returned by the first call of GetUnsteadyStateSolution with positive step width exists and does not depend on the solver.", "quantifier": "for every well-formed spline of any dimension (mass matrix: B-splines and NURBS with positive weights; stiffness: unit weights and no p+1 equal knots inside the domain), every such rule, every number of earlier calls, every solver that solves the systems with exactly one solution", "why_tests_cant": "Tests solve a few fixed systems; that no mesh, degree or refinement leads to a singular matrix is a statement about all of them.", "anchors": [{"file": "example/iga/src/poisson_problem.h", "symbols": ["GetSteadyStateSolution", "GetUnsteadyStateSolution"]}, {"file": "example/iga/src/linear_equation_assembler.h", "symbols": ["GetLeftSide"]}, {"file": "example/iga/src/element_integral_calculator.h", "symbols": ["GetLaplaceElementIntegral"]}]}
{"id": "C83", "title": "Degree reduction of a spline", "statement": "ReduceDegreeForDimension has one threshold e >= 0 per spline and direction: for every tolerance up to e it returns false and leaves the spline exactly as it was, although the spline was taken apart into Bezier segments; above e it can only return true. If the spline describes the same map as a spline of degree p-1 with one copy less of every knot, every positive tolerance gives true and exactly that spline. For a spline whose interior knots have multiplicity p the result is well-formed, has degree p-1 and one copy less of every knot, does not depend on the tolerance, and its numerators and denominators differ from the former ones by at most e everywhere in the domain.", "quantifier": "for every well-formed B-spline and NURBS with positive weights of any dimension, every direction of degree p >= 2 with interior multiplicities at most p, every tolerance", "why_tests_cant": "The tests reduce a few splines that were elevated before; that decomposition, reduction and knot removal fit together for all degrees, knot multiplicities and dimensions, and that failure restores the spline, concerns all of them.", "anchors": [{"file": "src/spl/spline.h", "symbols": ["ReduceDegreeForDimension", "ProduceBezierSegments", "RemoveBezierKnots", "DegreeReduceBezierSegment", "SetNewBezierSegmentControlPoints"]}]}
{"id": "C84", "title": "Memory safety of degree changes", "statement": "ElevateDegreeForDimension stays inside all arrays; the result is well-formed, has degree p+1 and the same breaks, and every interior knot has at least one copy more and at most p+1 copies. For a spline in Bezier form the new control net is known completely: on every line the point k(p+1)+p of segment k is the quotient 0/0 (and its weight 0), all others are the correct elevation. ReduceDegreeForDimension stays inside all arrays if no interior knot is simple; then a successful reduction keeps all breaks and at most one copy of each is lost. This is false without that condition: if the spline describes the same map as a spline of degree p-1 and has one simple knot besides the copies needed, in the last span, the loop at the end of RemoveBezierKnots reads behind the end of the knot vector for every positive tolerance.", "quantifier": "for every well-formed B-spline and NURBS with positive weights of any dimension, every direction of degree p >= 1 (elevation) or p >= 2 (reduction) with interior multiplicities at most p, every tolerance", "why_tests_cant": "The tests elevate and reduce splines whose knots all survive. Reading one entry behind a vector does not fail a test, and which knots vanish depends on the control points.", "anchors": [{"file": "src/spl/spline.h", "symbols": ["ElevateDegreeForDimension", "ReduceDegreeForDimension", "RemoveBezierKnots", "SetNewBezierSegmentControlPoints"]}, {"file": "src/baf/knot_vector.cc", "symbols": ["GetKnot"]}]}
{"id": "C85", "title": "Subdivision in double arithmetic", "statement": "SudivideSpline at an inner value u in IEEE doubles gives two well-formed splines. The knots of the first, followed by those of the second without its first p+1, are the old knots and the missing copies of u; the pieces end and start at u. No overflow occurs. Each new coordinate exceeds the bound M of the old ones by at most M/2^48 (plus underflow) per inserted knot, and on its side of u each piece, taken as an exact function of its coefficients, stays that close to the spline. If at least one knot was inserted, the last layer of control points of the first piece is bit for bit the first layer of the second: no gap opens. For NURBS the bound on coordinates is (W/m)(M/2^44 + 2^-890) per knot for weights in [m, W], weights stay positive, and the shared layer agrees in points and weights. Evaluating a piece in doubles gives the exact point of the undivided spline up to the error of evaluation plus this bound.", "quantifier": "for every B-spline and every NURBS of doubles of any dimension with separated, moderate knots, every direction, every finite u strictly inside its domain that is a knot at most p+1 times or separated from the knots, all parameters", "why_tests_cant": "The tests divide a few splines and compare points with a tolerance; they do not bound the rounding error for all inputs and do not look whether the pieces share their boundary exactly.", "anchors": [{"file": "src/spl/b_spline.h", "symbols": ["SudivideSpline"]}, {"file": "src/spl/nurbs.h", "symbols": ["SudivideSpline"]}, {"file": "src/spl/spline.h", "symbols": ["InsertKnot"]}, {"file": "src/spl/physical_space.h", "symbols": ["GetDividedControlPoints"]}, {"file": "src/spl/parameter_space.h", "symbols": ["GetDividedKnotVectors"]}, {"file": "src/spl/weighted_physical_space.h", "symbols": ["GetDividedWeights"]}]}
{"id": "C86", "title": "The order of knot insertions does not matter", "statement": "Two sequences of InsertKnot and RefineKnots calls that ask for the same knots in each direction, in any order, with any grouping into calls and any mixture of directions, both succeed and leave exactly the same spline: equal knots, degrees, control points and weights. Its knot vectors are the sorted unions and it evaluates as the original did.", "quantifier": "for every well-formed B-spline or NURBS with positive weights of any dimension without more than p+1 equal knots (exact arithmetic), all sequences of calls of any length whose knots may be inserted (inside the domain, equal to a knot or at least the tolerance away, at most p+1 copies)", "why_tests_cant": "The tests insert one knot, or a short list into one direction; the number of orders and groupings grows factorially and the claim is about all of them.", "anchors": [{"file": "src/spl/spline.h", "symbols": ["InsertKnot", "RefineKnots"]}, {"file": "src/spl/parameter_space.h", "symbols": ["InsertKnot"]}]}
{"id": "C87", "title": "Cuts commute", "statement": "Subdividing at u and then the upper piece at v gives exactly the same three splines as subdividing at v and then the lower piece at u. Subdividing at u in one direction and both pieces at v in another direction gives exactly the same four splines as the cuts in the other order. All subdivisions succeed; equal means equal knots, degrees, control points and weights.", "quantifier": "for every well-formed B-spline or NURBS with positive weights of any dimension without more than p+1 equal knots (exact arithmetic), all directions, all pairs of values strictly inside the domain that are knots or at least the tolerance away from the knots and from each other", "why_tests_cant": "The tests cut each example once and compare points; they never compare the results of several cuts in different orders, and could do so only for single values.", "anchors": [{"file": "src/spl/b_spline.h", "symbols": ["SudivideSpline"]}, {"file": "src/spl/nurbs.h", "symbols": ["SudivideSpline"]}, {"file": "src/spl/parameter_space.h", "symbols": ["GetDividedKnotVectors"]}, {"file": "src/spl/physical_space.h", "symbols": ["GetDividedControlPoints"]}]}
{"id": "C88", "title": "The example programs", "statement": "The optimizer example throws runtime_error unless it is given exactly two arguments; given two it builds the quadratic curve with control points (-1,0), (x,y), (1,0) without error and then calls WriteFile through a std::unique_ptr that was never set, which is undefined behaviour. That pointer is its only fault: the curve is the parabola with these control points, and WriteFile through a set pointer gives a file with 101 points of it at equal parameter steps and 100 line cells. The first example builds its spline and evaluates it without error; its value is 9 in double arithmetic.", "quantifier": "for all argument lists and every meaning of atof (double arithmetic for the failing call, exact arithmetic for the curve and the file); the first example has no input", "why_tests_cant": "The examples are not run by the tests; a run of the optimizer example seems to work with common compilers, because the writer has no data members, so the null dereference is not seen.", "anchors": [{"file": "example/ex1.cc", "symbols": ["main"]}, {"file": "example/testcase_optimizer.cc", "symbols": ["createVTKFromControlPoints", "main"]}, {"file": "src/io/vtk_writer.cc", "symbols": ["WriteFile"]}]}
{"id": "C89", "title": "Refining and cutting commute", "statement": "Cutting a refined spline at u gives exactly the splines that are obtained by cutting first and refining the pieces: the lower piece with the inserted knots below u, the upper piece with those above u, both with all inserted knots of the other directions. Inserted copies of u itself make no difference. All calls succeed; equal means equal knots, degrees, control points and weights.", "quantifier": "for every well-formed B-spline or NURBS with positive weights of any dimension without more than p+1 equal knots (exact arithmetic), every sequence of permitted InsertKnot and RefineKnots calls in all directions, every way of grouping and ordering the calls on the pieces, every u strictly inside the domain that is a knot or at least the tolerance away from all old and new knots", "why_tests_cant": "The tests refine or cut single examples and compare sampled points; equality of control points for all sequences of calls cannot be enumerated.", "anchors": [{"file": "src/spl/spline.h", "symbols": ["InsertKnot", "RefineKnots"]}, {"file": "src/spl/b_spline.h", "symbols": ["SudivideSpline"]}, {"file": "src/spl/nurbs.h", "symbols": ["SudivideSpline"]}]}
{"id": "C90", "title": "Patch test: linear functions are reproduced", "statement": "On an affine patch every row of the assembled stiffness matrix that belongs to an inner control point annihilates the control values of every linear function of the physical coordinates. Hence, if the boundary values are taken from a linear function and there is no source, the only solution of the inner equations has the control values of that function, and the solution equals the linear function at every point of the patch. SetDirichletBC with the boundary values of a linear function followed by any solver that solves uniquely solvable systems returns the control values of this function.", "quantifier": "for every well-formed B-spline or NURBS patch with unit weights of any dimension and degree whose map is affine with invertible matrix and whose neighbouring elements are linked in every direction, every Gauss rule with more points than the degree, every linear function; for the uniqueness every positive conductivity and non-degenerate patch (exact arithmetic)", "why_tests_cant": "The tests compare assembled numbers for one patch; the statement ranges over all knot vectors, degrees, dimensions and linear functions.", "anchors": [{"file": "example/iga/src/linear_equation_assembler.h", "symbols": ["GetLeftSide", "SetDirichletBC"]}, {"file": "example/iga/src/element_integral_calculator.h", "symbols": ["GetLaplaceElementIntegral"]}]}
{"id": "C91", "title": "Refinement can be undone in any order", "statement": "After a sequence of InsertKnot and RefineKnots calls any part of the inserted knots can be removed again by RemoveKnot calls in any order and grouping, with any tolerances including zero: every call removes all copies it is asked for, and the result is exactly the spline into which only the remaining knots are inserted. In particular removing all of them gives back the original spline.", "quantifier": "for every well-formed B-spline or NURBS with positive weights of any dimension without more than p+1 equal knots (exact arithmetic), every permitted sequence of insertions in all directions, every sequence of removals of inserted knots whose multiplicity does not exceed the degree, all non-negative tolerances", "why_tests_cant": "The tests insert one knot and remove it in single examples; the statement ranges over all sequences of insertions, removals, groupings and tolerances.", "anchors": [{"file": "src/spl/spline.h", "symbols": ["InsertKnot", "RefineKnots", "RemoveKnot"]}, {"file": "src/spl/b_spline.h", "symbols": ["RemoveControlPoints"]}, {"file": "src/spl/nurbs.h", "symbols": ["RemoveControlPoints"]}]}
{"id": "C92", "title": "Growing control points give a growing spline", "statement": "If a coordinate of the control points of a B-spline does not fall from one control point to the next along a direction, then the evaluated coordinate does not fall when the parameter of that direction increases; if it grows and the degree is at least one, the evaluated coordinate grows strictly. A curve with one growing coordinate therefore passes no point twice; for curves this also holds with positive weights.", "quantifier": "for every well-formed B-spline of any dimension, degrees and knot multiplicities (exact arithmetic), every direction and coordinate, every pair of parameters in the domain that differ in that direction", "why_tests_cant": "A test can compare evaluations at finitely many pairs of parameters of one spline; the statement is about all pairs and all control nets, including parameters on both sides of knots where the spline jumps.", "anchors": [{"file": "src/spl/spline.h", "symbols": ["Evaluate"]}, {"file": "src/spl/b_spline.h", "symbols": ["GetEvaluatedControlPoint"]}, {"file": "src/spl/nurbs.h", "symbols": ["GetEvaluatedControlPoint"]}]}
{"id": "C93", "title": "A spline is nowhere steeper than its control polygon", "statement": "Draw the control points of a B-spline along each direction over the means of p consecutive knots. If a coordinate of this polygon changes by at most K_d per unit in direction d, then the evaluated coordinate at two parameters differs by at most the sum of K_d times the distance in direction d, and the first derivative in direction d that EvaluateDerivative returns is at most K_d in absolute value, at knots and at the ends of the domain too.", "quantifier": "for every well-formed B-spline of any dimension with degrees of at least one and any knot multiplicities (exact arithmetic), every coordinate, all parameters in the domain, all bounds K_d", "why_tests_cant": "Tests compare values and derivatives at single parameters; the bound relates all pairs of parameters for all control nets.", "anchors": [{"file": "src/spl/spline.h", "symbols": ["Evaluate", "EvaluateDerivative"]}, {"file": "src/spl/b_spline.h", "symbols": ["GetEvaluatedControlPoint", "GetEvaluatedDerivativeControlPoint"]}]}
{"id": "C94", "title": "The cells of a VTK file follow the spline", "statement": "For every parameter of a B-spline written to a VTK file there is a cell of this spline in the file whose corners are all rows of the file that differ, in each coordinate, from the evaluated point by at most the sum over the directions of the steepness of the control polygon times the length of a cell in this direction. So the distance between the written mesh and the spline falls in proportion as more cells are asked for.", "quantifier": "for all lists of splines of dimension one to three and all numbers of cells the writer accepts, every B-spline among them with degrees of at least one, every parameter in its domain, all bounds on the steepness (exact arithmetic)", "why_tests_cant": "The tests compare a few lines of files for fixed splines; how far the mesh may be from the spline between the sampled points for any control net is not looked at.", "anchors": [{"file": "src/io/vtk_writer.h", "symbols": ["WriteFile", "Write1DCells", "Write2DCells", "Write3DCells"]}, {"file": "src/io/vtk_writer_utils.h", "symbols": ["WritePoints", "GetEdgeKnots"]}, {"file": "src/spl/spline.h", "symbols": ["Evaluate"]}]}
{"id": "C95", "title": "Refinement keeps the shape of the control polygon", "statement": "RefineKnots, and InsertKnot with any number of copies, leaves every coordinate of the control points in the range it had, also with positive weights. For B-splines a coordinate that does not fall from control point to control point along any direction still does not fall afterwards, and a bound on the steepness of the control polygon over the knot means, in any direction, still holds afterwards.", "quantifier": "for every well-formed spline of any dimension, every direction of refinement and every direction of the statement, every list of knots that may be inserted, every coordinate, all ranges and bounds (exact arithmetic)", "why_tests_cant": "Tests compare the control points of a few refined splines with stored numbers; that no list of knots ever widens the range or makes the polygon steeper concerns all control nets.", "anchors": [{"file": "src/spl/spline.h", "symbols": ["RefineKnots", "InsertKnot"]}, {"file": "src/spl/b_spline.h", "symbols": ["AdjustControlPoints"]}, {"file": "src/spl/nurbs.h", "symbols": ["AdjustControlPoints"]}]}
{"id": "C96", "title": "Refinement brings the control points to the spline", "statement": "A coordinate of a control point of a B-spline differs from the evaluated coordinate at a parameter by at most the sum over the directions of K_d (|m_d - u_d| + p_d h_d), where K_d is the steepness of the control polygon, m_d the mean of knots of the control point, p_d the degree and h_d the largest gap between knots. After RefineKnots the same holds for the new control points, gaps and means with the old K_d and the values of the spline before the call, so at its own knot means the control net tends to the spline when knots are inserted densely.", "quantifier": "for every well-formed B-spline of any dimension with degrees of at least one, every control point, every parameter in the domain, every coordinate, every list of knots that may be inserted in any direction, all bounds (exact arithmetic)", "why_tests_cant": "The statement bounds a distance for all control nets and all refinements; tests see a few control points of a few splines.", "anchors": [{"file": "src/spl/spline.h", "symbols": ["RefineKnots", "InsertKnot", "Evaluate"]}, {"file": "src/spl/b_spline.h", "symbols": ["AdjustControlPoints", "GetEvaluatedControlPoint"]}]}
{"id": "C97", "title": "Pieces of a subdivision inherit the shape of the control net", "statement": "When a spline is cut with SudivideSpline, the control points of both pieces and of the refined receiver stay in every range that contains a coordinate of the old control points. For B-splines, a coordinate that does not fall along a direction falls along it in neither piece nor in the receiver, and with degrees of at least one no control polygon of theirs, measured over its own knot means, is steeper than before.", "quantifier": "for every well-formed spline of any dimension (range: B-splines and NURBS with positive weights; growth and steepness: B-splines), every direction and every inner parameter at which it can be cut, every coordinate, all bounds (exact arithmetic)", "why_tests_cant": "The statement compares all control points of all pieces with all old ones, for every control net and every cut; tests check a few sampled values of a few pieces.", "anchors": [{"file": "src/spl/b_spline.h", "symbols": ["SudivideSpline"]}, {"file": "src/spl/nurbs.h", "symbols": ["SudivideSpline"]}, {"file": "src/spl/parameter_space.h", "symbols": ["GetDividedKnotVectors"]}, {"file": "src/spl/physical_space.h", "symbols": ["GetDividedControlPoints"]}, {"file": "src/spl/spline.h", "symbols": ["InsertKnot"]}]}
{"id": "C98", "title": "A spline varies no more than its control points", "statement": "Evaluate a coordinate of a B-spline at parameters in order along one direction, the others fixed. The sum of the absolute differences from value to value is at most K if in every row of control points along that direction the sum of the absolute differences from point to point is at most K. RefineKnots in any direction keeps every such bound K of the rows.", "quantifier": "for every well-formed B-spline of any dimension and degrees, every direction, every ordered list of parameters in the domain, every coordinate, every list of knots that may be inserted, every bound K (exact arithmetic)", "why_tests_cant": "The statement bounds a sum over any number of evaluations for all control nets; tests compare single values.", "anchors": [{"file": "src/spl/spline.h", "symbols": ["Evaluate", "RefineKnots", "InsertKnot"]}, {"file": "src/spl/b_spline.h", "symbols": ["AdjustControlPoints", "GetEvaluatedControlPoint"]}]}
