# Formal model of SplineLib: design

Source modelled: /repo (mfcats/SplineLib, pinned). Read as text, never built.
Prover: Rocq/Coq 8.16.1. All files are in `rocq/theories`, logical name `Verif`.

## 1. Modelling decisions

* **Numbers.** Code on `double` is modelled once, polymorphic in a record `NumOps`
  (operations +,-,*,/, comparisons, sqrt, abs, conversion from integers). It is used at two
  instances: `Rops dz` (real numbers; `dz` is an arbitrary function that gives the result of a
  division by zero and of the square root of a negative number, so that no theorem can depend on
  a totalised value) and `Fops` (Coq primitive IEEE binary64 floats). Positive theorems are about
  `Rops dz` for every `dz` (i.e. exact arithmetic, no rounding), except C63-C66, C71, C73 and C74, which bound the
  rounding errors of the same definitions on `Fops`; refutations run them on `Fops` (bit-exact) or
  on `Rops`. The C++ compiler is taken to evaluate doubles as IEEE binary64, to nearest even, without
  fused or extended operations.
* **Outcomes.** A function that can throw or access memory out of range returns
  `Res A = Ok a | Throw e | UB`. Every `std::vector`/`std::array` access is checked in the model
  and yields `UB` when out of range. Division by zero is IEEE-defined and goes to `dz`/NaN.
* **Integers.** `int` is Z without overflow (stated limit: fewer than 2^31 objects). `size_t`
  subtractions that can wrap are wrapped modulo 2^64 explicitly.
* **Dimension.** `template<int DIM>` arrays are lists; theorems hold for all DIM.
* **Loops** are structural recursion or fuel-free folds over index ranges.
* **Objects / aliasing.** Value semantics except in the heap model used for C32.
* The DEBUG macro (bounds-checked `at`) is off.

## 2. Per property plan

See MANIFEST.json for the status; the table is extended as the model grows.

| id | modelled / proved how |
|----|----|
| C01-C03 | `MultiIndex.v`: handler as two integer lists; mixed-radix induction over the list of lengths |
| C04-C06 | `KnotVec.v`: knot vector as list; upper/lower bound as first index with the predicate (spec of std algorithms); induction over sorted lists |
| C07-C11 | `Basis.v`: basis function objects as the tree the constructor builds; compared with an independent `cox_de_boor` on functions nat -> R; derivative via stdlib `derivable_pt_lim` |
| C12 | `Spaces.v`: constructor checks of ParameterSpace |
| C13-C18 | `SplineEval.v`: evaluation loops over the (p+1)^DIM active indices; shown equal to tensor sums (`TensorSum.v`) over all control points, which `SplineSpec.v` states independently of the model |
| C19, C20 | `RationalDeriv.v`: the multi-index Leibniz recursion of nurbs.h differentiated by induction on the total order; `EvalDeriv.v` connects it with the code's recursion; `OneSidedThms.v`: derivatives from the right at knots and from the left at the end of the domain, also for C10 |
| C21-C24 | `SplineEdit.v`: InsertKnot with the in-place backward update of the flat arrays. `AdjustFacts.v`: loop invariant (positions below the current one still hold the old net); `InsertFacts.v`: pass i over the original knot vector is one Boehm insertion into the vector that already holds i-1 copies; `Boehm.v`: the identity for one insertion, lifted to tensor products by `tsum_dir` |
| C25-C27 | `SplineEdit.v`: RemoveKnot with its temporary arrays, the check and the in-place compaction. `RemoveFacts.v`: the temporary arrays hold the two-sided recurrence at every line; `RemoveCheck.v`: the check is total, and what it decides line by line; `RemoveCompact.v`: the compaction is right although it overwrites the array it reads; `RemoveMain.v`: one pass and the loop. C25 instantiates the recurrences with the net before the insertion; `InsertRepeat.v`: several copies at once are the same as one after the other, so that removal undoes them one by one. C27 is refuted: with an odd number of affected points and equal neighbours the middle point is not looked at. `RemoveSpec.v` writes down the two-sided solution of the insertion equations and its two gaps on lists of reals, `RemoveDecide.v` shows that RemoveKnot succeeds exactly when every line has one gap within the tolerance (C26_removal_decision; without the assumption on intermediate weights a NURBS division by zero would decide), `RemoveBound.v` inserts the knot again in the new net: it differs from the old net only in the middle control points, which bounds the distance of the maps (C27_removal_deviation, C27_removal_deviation_nurbs) |
| C28 | `SplineEdit.v`: SudivideSpline, the slicing of knots, points and weights. `SubdivideFacts.v`: the sums over the left and right part of a knot vector split at a knot of multiplicity p+1 (at u itself the left part uses the last, the right part the first function, and the last insertion has made the two control points equal); `SubdividePieces.v`: slices of the net. With p+1 copies of u nothing is inserted and the spline may jump at u, so the left piece is compared below u only |
| C34 | `HistorySpec.v`: edits, admissibility, histories; every step (insertion, refinement, removal, subdivision with any of the three results) has a result and keeps the invariant; steps other than removals keep the map on the remaining domain |
| C29 | `SplineDegree.v`; `DegreeFacts.v`: the elevation loop writes all points but one; the loss of the homogeneous curve is that point's Bernstein term. Refutation of the spline-level claim by computation on floats |
| C30 | `DegreeReduce.v`: the two loops solve all elevation equations except one (even degree) or two (odd degree); the residual of these is the reported error, which bounds the deviation of the curves |
| C31 | the sampling loop is a fold over the grid; every sample is in the domain iff the domain starts at 0 |
| C32 | `Heap.v`: heap of KnotVector, ParameterSpace and PhysicalSpace objects, an object is two pointers; the members are programs of primitive steps run on the heap or on a value. `HeapFacts.v`: frame lemma and agreement of the two semantics for every program; `HeapLink.v`: the programs compute what the value-level functions of the other properties compute; `HeapThms.v`: histories. The property as first worded (every constructor shares the given KnotVector objects) is wrong: only NURBSGenerator does, the other constructors copy. Splines have a deep copy constructor but only the implicit, shallow assignment (`assigned`) |
| C33 | `EqualSpec.v`: what AreEqual decides; the value bound applies the convex hull bound to the difference spline |
| C48 | `VecUtils.v`; Cauchy-Schwarz and Minkowski on lists |
| C35 | `Gauss.v`: the five rules; moments by field arithmetic with sqrt 30 and sqrt 70, Riemann integral by the fundamental theorem |
| C36 | `Iga.v` (element_generator.h, connectivity_handler.h); `IgaFacts.v`: distinct consecutive knots of the inner part of the knot vector are the elements, the multiplicity shift is span - degree - element; lifted to all directions |
| C37 | `Iga.v` (basis_function_handler.h); `IgaBasis.v`: the two loops compute products of pieces and of derivative pieces; `IgaBasisThms.v`: what the quotient loop returns, and the two-weight counterexample |
| C38 | `StrOps.v` (string_operations.h): strings are lists of characters; `StrFacts.v`: the lines and fields of getline are the pieces of the inductive `pieces`, which is unique |
| C39 | `StrOps.v`, `Convert.v` (GetFileFormat): `find` characterised by first occurrence; the wrap-around of the length difference gives the extra case |
| C40 | `StrOps.v`, `StrNum.v`: the mantissa loop sums digit times power of ten; positions of point and exponent letter by `find_first_of`; numerals of less than 2^32 characters (the loop counter is a 32 bit unsigned number) |
| C41 | `StrDelim.v`: the loop removes one terminated piece or one separator per round |
| C42 | `Convert.v` (any_casts.h, io_converter.cc): member `written_` as state; what the writer gets as result |
| C43 | `Vtk.v` (vtk_writer.cc, vtk_writer_utils.h): the numbers handed to the stream; `VtkFacts.v`: the sequence of moves of the handler in one cell returns to its start, the loops visit the whole grid; `VtkThms.v`: points and assembly. Refuted on floats: the last sample parameter can exceed the last knot |
| C44 | `Irit.v`, `Xml.v`, `Iges.v` (writers and readers; `Format.v`: printing of integers). The printing of doubles is a parameter `fmt`; the theorems hold for every printing that yields readable numerals within a tolerance, and six decimals are shown to be one. `IritRead.v`/`IritFile.v`: the reader's scan over the entry list; `XmlFacts.v`; `IgesFacts.v` (fixed width lines), `IgesData.v` (parameter data), `IgesFile.v` (sections and pointers); `Rebuild.v`: the spline the reader builds; `NearMap.v`: with knots and weights printed exactly its map is near the one written (convex combination). XML: the document is the list of its spline elements (pugixml not modelled). Refuted: IRIT weights below half a millionth become 0; IGES surfaces make the reader access past the end; IGES numbers printed with an exponent and no point come back too large |
| C46 | `Generators.v` (surface_generator.cc, control_point.cc operator+): the double loop is a fold over the grid; the sums over the product net factor (`GeneratorsFacts.v`) |
| C47 | `Generators.v` (square_generator.cc): loop invariants for knots and coordinates (`SquareFacts.v`); corners by end interpolation, the rest by tensor product sums and linear precision (`GeneratorsThms.v`). Refuted on floats: the accumulated coordinate misses 1 |
| C49 | `GrevilleFacts.v`: sum of (knot sum) * N by induction on the degree, lifted to tensor products; first derivatives in `SlopeFacts.v` |
| C45 | `Projection.v` (src/spl/projection.h; the while loop with a fuel argument, None = still running). Termination for every number type, result in the domain by the invariant of the loop (`ProjectionFacts.v`, `ProjectionThms.v`). Refuted: shifted domain throws (all curves whose first half element length is outside the domain), constant curve gives NaN, surfaces with different domains throw or miss points, rounding of sample positions throws; points with fewer than 3 coordinates give undefined behaviour. `NewtonFacts.v`: the whole run (nearest first guess, every step, when it stops) as a sequence |
| C50 | same model; one step from anywhere reaches the foot of the perpendicular, which the clamping keeps or moves to the nearest end (`line_nearest`, `plane_foot`) |
| C51 | the constructor model `spline_new` of `SplineEval.v` is characterised completely for lists of equal length and nonempty knot vectors: accepted, rejected by `RuntimeError`, or undefined behaviour for an empty list of control points (`construct_ok`, `construct_bad`) |
| C52 | `IgaSystem.v` and `Iga.v` (mapping_handler.h); `IgaAssembly.v` `reference_ok`, `element_point_strict`; the element found again by `located_at` (`IgaSystemFacts.v`) |
| C53 | `jacobian_determinant` computes with the derivative routine of C11 in every direction; `dpart_partials`, `gram`; `mdet` is an arbitrary function (the determinant in the two special cases) |
| C54 | `Scatter.v`: loops that add to entries commute with reading an entry (`adds`); `mass_element_adds`, `load_vector_adds`, `laplace_adds` per element, sums over local numbers rewritten as sums over all control points (`local_sum`) because the other basis functions vanish; `IgaSystemCons.v` for symmetry, definiteness and sums. The stiffness matrix needs `minv` to return the inverse where it is called |
| C55 | `set_zero`, `set_dirichlet` in `IgaSystem.v`; `visited_sorted` (`IgaBoundaryFacts.v`): the loop over the index handler meets the control points in the order of their numbers; `rows_conditioned`; `conditioned_solutions` turns the changed system into `weak_form` |
| C56 | `problem_new`, `steady`, `unsteady`: the object carries its matrix and vector from call to call. `steady_solutions`: after k calls the rows inside are k+1 times those of C54, so the solutions are the same. `unsteady_solutions`: `bdf_left_ok`, `bdf_right_ok` and induction over the time steps. `unsteady_repeat` (refuted) in doubles on a line with three control points |
| C57 | `boundary_connectivity`, `boundary_directions`, `boundary_splines`, `right_side_neumann` in `IgaSystem.v`. `connectivity_ok`, `directions_ok` (`IgaFaceFacts.v`): the directions used are the first DIM-1 for every face; `face_sum`: at an end of the domain only the basis functions of the face are not 0; `neumann_adds` and `pick_face` (`IgaNeumannThms.v`): what one face adds to one entry. `faces_differ` (refuted) in doubles |
| C58 | `with_points`, `solution_spline`, `solution_data` in `IgaSystem.v`; `value_rows`: the control points built by the loop; `value_geometry`; `solution_file` uses `vtk_written` of C43 and the same grid of parameters |
| C59 | `Random.v`: the draws are a function `pick` of their number and of the upper limit of the distribution, arbitrary within the limits, so all sequences are covered; `limit_uniform`: `GetRandomKnotVectors` gives clamped uniform knots; `spline_new_ok`: the constructors accept the data |
| C60 | `Swept.v` (surface_generator.cc, knot_vector.cc constructor from averages, control_point.cc Transform): the loop invariant of `sweep_ok` gives frame, control points and weights of the sections so far; `mean_good`: the averaged knots are valid; `end_section`: a clamped end shows one section; the false parts by computing with doubles |
| C61 | `ConvLog.v` (converter_log.cc, the nine `main`s; files, clock, reader and writer are parameters): streams are replaced by lists of lines (`reads`), `log_read` by induction over the blocks; `loop_more`: lines without headings behind a blank line change nothing, for every text; composed with C42 and C44; the false parts by computing |
| C62 | `Xml.v` again; a source is what an entry says, `writes_down` relates it to the texts. `XmlReadFacts.v`: splitting and reading of each text (C38, C40), `concat_nth` for the rows, `spline_new_ok`; short data by the failing access of the last row |
| C63 | the model at `Fops`. `DoubleFacts.v`: exact meaning of the operations via Flocq's specification of primitive floats; `DoubleKnots.v`: for separated knots the rounded difference compared with the tolerance decides as the exact one, so search and span agree with the real instance (C04-C06) |
| C64 | `DoubleError.v`: a value is close when it lies between phi^-n and phi^n of the exact one (phi = 1 + 2^-53 and a bit) up to a slack for underflow; `DoubleBasis.v`: induction on the degree, both quotients need a sum of non-negative terms only, so no cancellation |
| C65 | `DoubleSum.v`: products and recursive sums; `DoubleEval.v`: the evaluation loop in doubles as a fold over the same indices as in C13; `DoubleThms.v`: closing bounds |
| C66 | `DoubleRational.v`: error of one quotient, the sum of the weights is relatively accurate because nothing cancels; `DoubleRationalThms.v`: the bound for the rational weights N w / W, which add up to 1 |
| C67 | `SmoothThms.v`: the polynomials of the spans on both sides of an r-fold knot agree there up to order p - r (at degree r both are the same unit vector, then the Cox-de Boor recursion); rational values are determined by the quotient identities of all lower orders |
| C68 | `ConvertFile.v` (io_converter.cc as a whole, with the models of the readers and writers of C42 to C44, C62; the files are a function from names to contents): composition of `convert_fresh` (C42) with the round trips of C44 and with C43 |
| C69 | `Iges.v` (the reader of C44). `IgesReadSpec.v`: lines, directory entries and parameter data as the IGES standard lays them out, the spline they describe (`described` of C62); `IgesReadFacts.v`: the reader takes exactly these numbers, and what it does when there are too few |
| C70 | `Irit.v` (the reader of C44). `IritDocSpec.v`: the words of a file and of an object as the IRIT format lays them out, the spline they describe in homogeneous coordinates; `IritDocFacts.v`: the reader takes exactly these numbers |
| C71 | The model of C23 at `Fops`. `AdjustAny.v`: one pass of AdjustControlPoints over any arithmetic; `DoubleMix.v`: error of the rounded scaling and of one mixed coordinate; `DoubleInsert.v`: one pass in doubles; `DoubleInsertThms.v`: compared with the exact pass on the rounded coefficients, in which the point does not move (C23), hence by partition of unity the spline moves by at most the largest coefficient error; induction over the copies and the list of knots |
| C72 | The writers of C44 (`Iges.v`, `Xml.v`, `Irit.v`) with GetTime added. `IgesLayoutSpec.v`: columns, right-aligned fields, directory entries, parameter records, terminate line; `IgesLayout.v`, `IgesLayoutThms.v`: the sections, by induction over the splines; `WrittenSpec.v`, `WrittenFacts.v`: the XML entries and IRIT words are those of a document in the sense of C62 and C70 with numerals near the numbers of the spline. Refuted for the dates (`C72_iges_date_refuted`), the maximum coordinate (`C72_iges_extent_refuted`) and the names of more than four variables (`C72_xml_names_refuted`) |
| C73 | The model of C23 at `Fops` with weights. `DoubleMixRational.v`: error of one mixed weight and of one weighted coordinate divided by it; `DoubleInsertRational.v`: one pass; `DoubleInsertRationalThms.v`: weights and weighted coordinates each change their sums by at most one error per pass, by the argument of C71; `DoubleNurbsInsert.v`: the quotient of the sums, constants, evaluation by C66 |
| C74 | The model of C10 and C19 at `Fops`. `DoubleDeriv.v`: a calculus of values that are at most G with an error of (f-1)G, one step of the recursion, basis functions of any order by induction on the order; `DoubleDerivThms.v`: the exact derivatives (formula of the literature, shown to be the derivatives by the pieces of C10), products over the directions, sums; no tightness claimed |
| C75 | The model of C14 and C18. `UniqueFacts.v`: linear independence of the p+1 pieces on one span by induction on the degree (the derivative of a vanishing combination vanishes, its coefficients are differences), then direction by direction; rational case by equal weight functions; `lost_point` shows that a support is needed |
| C76 | The model of C14, C18 and C60. `TangentFacts.v`: first derivatives of the basis functions at a clamped end, then the quotient rule of C18 at the corner; `BernsteinFacts.v`: the Cox-de Boor recursion over two knot values is the Bernstein recursion |
| C77 | The model of C14 and C18. `RescaleFacts.v`: piece, basis function and derivative recursions under an affine map of knots and parameter; the chain factor is carried through the rational derivative recursion of C18. Both splines have to be well-formed, since the tolerance of the comparisons does not scale |
| C78 | The model of C14. `VariationFacts.v`: every parameter is inserted as a knot p times (Boehm's formula of C21, at the level of the recursion, so without the tolerance of the library), then the values are coefficients; alternating signs are carried back through each insertion because new coefficients are convex combinations of neighbours |
| C79 | The model of C14. `PolynomialFacts.v`: the sum of the elementary symmetric polynomials of the inner knots times the pieces of the basis is a binomial times a power, by induction over the degree (the form of Marsden's identity coefficient by coefficient); tensor products by induction over the directions; the converse by the uniqueness of C75 |
| C80 | The models of C35, C52 and C54. `IntegralFacts.v`: basis functions are polynomials of degree p on each element, so products have degree at most 2p <= 2n - 1 and the rule (C35) is exact there; the elements tile the domain; the Riemann integral over the domain is the sum over the elements. `GalerkinFacts.v`: the tensor-product quadrature of a product of one-dimensional functions is the product; an affine map has constant partial derivatives. `StiffnessExact.v`: the physical gradient is the parametric one times the inverse of the matrix of the map. The determinant is any function that scales as one (`scales`) |
| C81 | `IntEval.v` models the functions of evaluation once more with every int operation checked (`cint`: out of range is UB). `IntFacts.v`, `IntEvalFacts.v`: below the bounds every check succeeds, because an index that the basis functions accept lies in the box; hence equality with the model of C14 for every arithmetic. `IntThms.v`: 34 over 17 exceeds 2^31 - 1; a curve of dimension 2^30 with three points |
| C82 | Spec: `dense_rule`, `linked_direction`, `nondegenerate`, `quadratic_form`, `correct_solver`. `PolyGrid.v`: a tensor-product polynomial that vanishes at the points of the rule vanishes in the element. `SolvableFacts.v`: a form that is zero makes the function (mass) or its slopes (stiffness) zero at all points of the rule, hence everywhere, hence the coefficients zero (linear independence, C75) or equal (neighbouring elements share a basis function). `LinearFacts.v`: a square system with trivial kernel is solvable. The determinant, the inverse and the solver (armadillo) are parameters |
| C83 | Spec: `interior_at_most`, `interior_exactly`, `one_copy_more`, `same_sums`, `close_sums`. `KnotRuns.v`: a knot vector as a list of runs. `ReduceKnots.v`: ProduceBezierSegments fills all interior runs to multiplicity p without changing the map, and RemoveBezierKnots undoes it (each removal is exact because the map is the same, C25; uniqueness of the control points, C75). `ReduceSegments.v`, `ReduceStage.v`: reading and writing the segments; joints agree because reduction keeps end points. `ReduceSums.v`: sums over two Bezier-form bases agree if the Bezier curves of every line agree. Real arithmetic. For interior multiplicities below p and a map that is not exactly of lower degree, nothing is claimed about the distance after a successful reduction (C27 shows that the removals alone can move the spline arbitrarily far) |
| C84 | Spec: `interior_between`, `same_breaks`, `one_copy_more_and`, `in_last_span`. `ElevateFacts.v`: the spline built by elevation before RemoveBezierKnots, with its whole net. `DegreeSafe.v`: RemoveBezierKnots run by run - if fewer copies are to be removed than a run has, the loop finds the end of every run whatever is removed (`remove_keeps`, on the counts of C26); if the last run vanishes, the scan for its end continues into the end knots and past them (`remove_last_ub`). `C84_reduction_reads_past` builds the intermediate splines by inserting the knots into q and uses C83's uniqueness. `C84_reduction_double_refuted`: the same on doubles for [0 0 0 1 2 2 2] and a straight line. Real arithmetic otherwise. A vanishing knot that is not the last interior one only shifts the later removals; nothing is claimed about it |
| C85 | Spec: `layers_meet` (`DoubleSplitSpec.v`), bounds as in C71. `DoubleSplit.v`: GetDividedKnotVectors and the copied nets on doubles. `DoubleSplitSums.v`: on its side of u the sum of a piece is the sum of the refined spline (exact arithmetic over the double coefficients); the last insertion pass copies a layer bitwise (`full_pass`). `DoubleSplitThms.v`, `DoubleSplitClose.v`, `DoubleSplitNurbs.v`: the run of SudivideSpline, closeness through the passes of C71 and C73, evaluation through C65 and C66. If u already has p+1 copies nothing is inserted, the map may jump at u and the left piece is compared only below u |
| C86 | Spec: calls and what they ask for (`OrderSpec.v`). `OrderThms.v`: the relation `refined` (same sums over more knots) holds for one insertion by the proof of C21/C22, composes, and is stable under permutation of the knots; sorted permutations are equal, so the knot vectors agree; weights and then control points agree because the tensor products of the basis functions are linearly independent (C75's `tensor_independent`, `all_points`) |
| C87 | `CutsThms.v`: the knots of the pieces by counting copies (`lower`, `upper`); each piece has the sums of the spline strictly inside its box (`subdivide_parts`, along the lines of C28); two parts of a spline over the same knots are equal (`part_unique`, by linear independence as in C75). `CutsClose.v`: sorted lists with equal counts are equal, so both orders give the same knots |
| C88 | `Programs.v`: the two programs; a smart pointer that may be empty is an `option`, calling through an empty one is UB. `ProgramsThms.v`: the construction by evaluation of the model, the curve by C76 (Bezier form), the file by C43's lemma `vtk_written`. Finding: `example/testcase_optimizer.cc:36-38` calls WriteFile through an empty unique_ptr, and its error text asks for 10 coordinates where two are needed. Not modelled: output to std::cout, the text of numbers |
| C89 | `RefineCutSpec.v`: the requests on one side of u by counting copies. `RefineCut.v`: a refinement is a part of the spline (C86, C87: `refined_part`); the knots of the refined piece and of the piece of the refined spline have equal counts, so both are the same part of s (`part_unique`) |
| C90 | The model of C54. `PatchFacts.v`: the rule is exact for the slope of a basis function on each element and the differences of the end values telescope over the elements (`B_cross`); the ends vanish for inner functions. `PatchThms.v`: the physical gradient of a linear function is constant, so an inner row is a sum of products, each with one such vanishing factor; uniqueness from the kernel of the matrix (C82) |
| C91 | `UndoSpec.v`: sequences of removals. `Undo.v`: by C86 the refined spline is also the result of inserting the knot to be removed last, so C25 removes it; induction over the removals |
| C92 | `MonotoneSpec.v`: coordinates that do not fall, or grow, along a direction. `Monotone1.v`: on one span the derivative is a combination of coefficient differences with non-negative factors (Abel summation, mean value theorem); between spans the pieces agree, or the convex hulls are ordered when the spline jumps. `Monotone.v`: tensor products. `RationalGrowth.v`: curves with weights; by C78 the coordinate does not fall, and if it were equal at two parameters all control points of a span would have the same coordinate |
| C93 | `SteepSpec.v`: steepness of the control polygon over the knot means. `Steep.v`: K times the parameter plus or minus the coordinate is a spline with coefficients that do not fall (linear precision), so C92 applies; one direction after the other; the derivative is a limit of difference quotients (C19) |
| C94 | `ResolveSpec.v`: length of a cell in the parameter space. `Resolve.v`: a parameter lies between two neighbouring sample parameters in each direction; the cell there has its corners at those samples (C43), and C93 bounds the difference of the values. Numbers as written before rounding to six digits |
| C95 | `SmoothSpec.v`: range of a coordinate. `Smooth.v`: a new control point is a mean of two neighbouring old ones, and the knot means move in the same way; induction over the list of knots |
| C96 | `ConvergeSpec.v`: largest gap between knots. `Converge.v`: the value is a convex combination of the control points whose support contains the parameter; their knot means are at most p gaps away from it; differences of control points along a path through the net are bounded by the steepness; refinement keeps steepness (C95) and values (C23) |
| C97 | `PiecesShape.v`: the control points of a piece are those of the refined receiver from some number on, with the same knots around them (`part_of`, from the code of the cut); the receiver is a refinement (C95), and range, growth and steepness pass to such parts |
| C98 | `VariesSpec.v`: sum of absolute differences along a list and along a row. `Varies.v`: the way along a row plus or minus the row does not fall, so by the growth of C92 a step of the values is at most the step of a function that stays between 0 and K. `VariesRefine.v`: one insertion mixes neighbours, which does not lengthen the way |

## 3. Trusted base

* the Coq kernel (incl. its implementation of primitive floats and 63-bit integers where `Fops` is used);
* the axioms printed by `Print Assumptions` beneath each theorem (standard library reals axioms only;
  primitive float/int constants for computations on `Fops`);
* the correspondence between the C++ text and the model definitions, each of which cites file and lines.

Axioms that occur (all from the standard library): for theorems about `Rops`
`ClassicalDedekindReals.sig_forall_dec`, `ClassicalDedekindReals.sig_not_dec` and
`FunctionalExtensionality.functional_extensionality_dep`; for computations on `Fops` the primitive
types and operations of `PrimFloat` and `PrimInt63` (and where a float fact is proved, the
specifications of these operations in `FloatAxioms` and `Uint63`); for C63-C66, C71, C73, C74 and C85 also
`Classical_Prop.classic`, which the library Flocq (used for its lemmas on rounding; it adds no axiom
of its own) takes from the standard library, and for C35, C80, C82, C90, C92, C93 and C94, where Riemann integrals or mean values of the standard
library bring it in. Many theorems are closed under the
global context.

## 4. Not modelled

* The random engine and its distributions (`src/util/random.h`): the numbers drawn are an arbitrary function
  within the limits of the distribution (C59). `GetUniformRandom` is not modelled.
* `src/util/system_operations.h`: the clock. The time stamps in an IGES file are arguments of the model's writer; `iges_time` is their text.
* File access: a file is its text (IRIT, IGES, VTK) or its element tree (XML); creating, opening and
  closing files and what a file holds after an exception are not modelled. pugixml is replaced by an
  element tree. In the converter programs (C61) the text of the help is not modelled.
* Printing of doubles: an arbitrary function in C44; six decimals are shown to satisfy what is required.
* Move semantics, the deleted and defaulted members, template instantiation, `NamedType` wrappers (their
  values are used directly), the DEBUG bounds checks.
* Overflow of `int` outside evaluation (for evaluation see C81); running out of memory; stack depth.
* In `example/iga`: the linear algebra (Armadillo): determinant, inverse and solution of a linear system are
  arbitrary functions in `IgaSystem.v`; an index outside a matrix is `UB` there although Armadillo throws.
* Concurrency: the library has none.

## 5. Comparison with the unit tests

The scripts in `conformance/` turn assertions of the library's unit tests into computations on the model with
doubles. Replayed: all tests with fixed inputs in knot_insertion_test, knot_removal_test, spline_subdivision_test,
degree_elevation_test, degree_reduction_test, projection_curve_test, projection_surface_test, square_generator_test,
surface_generator_test (without the VTK files and the degree test), parts of nurbs_test, and in `example/iga/test`
the tests of basis functions, connectivity, mapping, element integrals, assembly, boundary conditions, solution and
time stepping (with elimination instead of Armadillo). 150 computations; none disagrees. They are outside `rocq`
because coqchk would take hours for them.

## 6. Wrong programs

`seeded/LOG.jsonl` lists edits of model definitions that were tried in a copy outside this directory. For each edit the property files named by the claim were rebuilt.

- `theorems_failed` are the theorems that no longer build. This does not show each of them to be false of the edited program: a theorem also fails when a lemma it rests on breaks, even if its own claim would survive.
- `first_failing_lemmas` name the place where the proof broke first.
- Edits that turned out not to change the meaning carry a note saying so.
- Only the property files named by the claim were rebuilt, so theorems of other files may fail as well without being listed.
