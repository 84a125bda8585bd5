{
 "claims": [
  {
   "property": "C01",
   "status": "proved",
   "theorems": [
    "C01_enumeration"
   ],
   "note": "All dimensions and lengths."
  },
  {
   "property": "C02",
   "status": "proved",
   "theorems": [
    "C02_stepping_reversible"
   ],
   "note": "All dimensions and lengths."
  },
  {
   "property": "C03",
   "status": "proved",
   "theorems": [
    "C03_linear_index_bijective",
    "C03_set1d_terminates_iff",
    "C03_slice_number"
   ],
   "note": "All dimensions and lengths."
  },
  {
   "property": "C04",
   "status": "proved",
   "theorems": [
    "C04_span_brackets"
   ],
   "note": "Real arithmetic; every non-decreasing knot vector with at least two distinct knots."
  },
  {
   "property": "C05",
   "status": "proved",
   "theorems": [
    "C05_insert",
    "C05_remove",
    "C05_insert_remove",
    "C05_remove_absent"
   ],
   "note": "Real arithmetic."
  },
  {
   "property": "C06",
   "status": "proved",
   "theorems": [
    "C06_multiplicity",
    "C06_different_knots",
    "C06_increment_all_multiplicities",
    "C06_decrement_all_multiplicities"
   ],
   "note": "Real arithmetic; decrement needs knots separated by the tolerance and enough knots left."
  },
  {
   "property": "C07",
   "status": "proved",
   "theorems": [
    "C07_basis_is_cox_de_boor",
    "C07_degenerate_refuted"
   ],
   "note": "Real arithmetic, distinct knots farther apart than the tolerance. The refuted theorem shows the degree-0 function with support [last,last] returns 1 at the last knot."
  },
  {
   "property": "C08",
   "status": "proved",
   "theorems": [
    "C08_nonnegative_local_support",
    "C08_only_selected_functions"
   ],
   "note": "Real arithmetic, separated knots."
  },
  {
   "property": "C09",
   "status": "proved",
   "theorems": [
    "C09_partition_of_unity"
   ],
   "note": "Real arithmetic, separated knots."
  },
  {
   "property": "C10",
   "status": "proved",
   "theorems": [
    "C10_basis_derivatives",
    "C10_one_sided"
   ],
   "note": "Real arithmetic, separated knots."
  },
  {
   "property": "C11",
   "status": "proved",
   "theorems": [
    "C11_close_knots_refuted"
   ],
   "note": "The property records that the expected claim is false; proved by an IEEE double witness computed in the kernel."
  },
  {
   "property": "C12",
   "status": "proved",
   "theorems": [
    "C12_constructor_accepts_exactly_clamped"
   ],
   "note": "Real arithmetic; all dimensions and degrees."
  },
  {
   "property": "C13",
   "status": "proved",
   "theorems": [
    "C13_evaluation_safe"
   ],
   "note": "Real arithmetic; any number of directions; B-splines and NURBS (any weights)."
  },
  {
   "property": "C14",
   "status": "proved",
   "theorems": [
    "C14_bspline_full_sum"
   ],
   "note": "Real arithmetic; any number of directions."
  },
  {
   "property": "C15",
   "status": "proved",
   "theorems": [
    "C15_affine_invariance",
    "C15_weight_function"
   ],
   "note": "Real arithmetic; affine maps between any dimensions; also for NURBS with non-zero weight function."
  },
  {
   "property": "C16",
   "status": "proved",
   "theorems": [
    "C16_convex_hull",
    "C16_coordinate_bounds",
    "C16_stability"
   ],
   "note": "Real arithmetic; explicit convex combination."
  },
  {
   "property": "C17",
   "status": "proved",
   "theorems": [
    "C17_corner_interpolation",
    "C17_long_end_refuted"
   ],
   "note": "Real arithmetic; needs exactly p+1 equal knots at the ends, and the refuted theorem shows why."
  },
  {
   "property": "C18",
   "status": "proved",
   "theorems": [
    "C18_weighted_quotient",
    "C18_equal_weights",
    "C18_scaled_weights"
   ],
   "note": "Real arithmetic; any number of directions."
  },
  {
   "property": "C19",
   "status": "proved",
   "theorems": [
    "C19_bspline_derivative",
    "C19_C20_order_zero",
    "C19_C20_one_sided"
   ],
   "note": "Real arithmetic; any mixed order."
  },
  {
   "property": "C20",
   "status": "proved",
   "theorems": [
    "C20_nurbs_derivative",
    "C19_C20_order_zero",
    "C19_C20_one_sided"
   ],
   "note": "Real arithmetic; any mixed order, not only first order."
  },
  {
   "property": "C21",
   "status": "proved",
   "theorems": [
    "C21_insertion_preserves_bspline"
   ],
   "note": "Real arithmetic; any number of directions; insertion strictly inside the domain; all parameters, inside and outside the domain."
  },
  {
   "property": "C22",
   "status": "proved",
   "theorems": [
    "C22_insertion_preserves_nurbs"
   ],
   "note": "Real arithmetic; positive weights stay positive."
  },
  {
   "property": "C23",
   "status": "proved",
   "theorems": [
    "C23_insertion_bookkeeping",
    "C23_insertion_repeats",
    "C23_refinement"
   ],
   "note": "Real arithmetic; bookkeeping for arbitrary weights, refinement for B-splines and positive weights."
  },
  {
   "property": "C24",
   "status": "proved",
   "theorems": [
    "C24_first_knot_refuted",
    "C24_last_knot_refuted"
   ],
   "note": "Refuted: first knot universally undefined behaviour; last knot by a double-precision witness."
  },
  {
   "property": "C25",
   "status": "proved",
   "theorems": [
    "C25_remove_inverts_insert"
   ],
   "note": "Real arithmetic; B-splines and NURBS with positive weights; any number of copies up to multiplicity p; exact record equality of the spline; every tolerance >= 0."
  },
  {
   "property": "C26",
   "status": "proved",
   "theorems": [
    "C26_removal_count",
    "C26_removal_decision",
    "C26_removal_repeats",
    "C26_absent_knot_refuted",
    "C26_full_multiplicity_refuted"
   ],
   "note": "Real arithmetic; requested count at most the multiplicity, which is at most p. The decision theorem assumes for NURBS that no intermediate weight vanishes. Outside that the two refuted theorems give witnesses."
  },
  {
   "property": "C27",
   "status": "proved",
   "theorems": [
    "C27_removal_deviation_refuted",
    "C27_removal_deviation",
    "C27_removal_deviation_nurbs"
   ],
   "note": "Refuted for every deviation and every tolerance, real arithmetic. The two other theorems are the bounds that do hold: even number of equations, or middle equation within the tolerance."
  },
  {
   "property": "C28",
   "status": "proved",
   "theorems": [
    "C28_subdivision",
    "C28_jump_refuted"
   ],
   "note": "Real arithmetic; the maps agree for B-splines and NURBS with positive weights; the shared end u included, except for the left piece when u already has p+1 copies (C28_jump_refuted shows it can differ there); net sizes below 2^64."
  },
  {
   "property": "C34",
   "status": "proved",
   "theorems": [
    "C34_history_invariant",
    "C34_map_survives",
    "C34_map_survives_below"
   ],
   "note": "Real arithmetic; InsertKnot, RefineKnots, RemoveKnot and SudivideSpline in any order; construction from sorted, separated, clamped knot vectors."
  },
  {
   "property": "C29",
   "status": "proved",
   "theorems": [
    "C29_elevation_refuted",
    "C29_elevation_defect",
    "C29_elevation_degree_zero"
   ],
   "note": "Refuted by a float witness (NaN); the defect of DegreeElevateBezierSegment is given exactly for every degree >= 1 in real arithmetic."
  },
  {
   "property": "C30",
   "status": "proved",
   "theorems": [
    "C30_reduction",
    "C30_elevation_keeps_curve",
    "C30_degree_one_refuted"
   ],
   "note": "Real arithmetic, DegreeReduceBezierSegment for every degree >= 2, any number of lines and coordinates: totality, deviation bound, exactness; degree 1 is UB."
  },
  {
   "property": "C31",
   "status": "proved",
   "theorems": [
    "C31_geometric_equality",
    "C31_shifted_domain_refuted",
    "C31_nan_refuted"
   ],
   "note": "Holds for domains that start at 0 (real arithmetic, every number of samples); refuted for every other domain and for NaN."
  },
  {
   "property": "C33",
   "status": "proved",
   "theorems": [
    "C33_equality_iff",
    "C33_reflexive",
    "C33_symmetric",
    "C33_same_space",
    "C33_evaluation",
    "C33_zero_tolerance",
    "C33_transitivity_refuted",
    "C33_infinite_refuted"
   ],
   "note": "All splines and tolerances (real arithmetic); not transitive for any positive tolerance; with an infinite coordinate not reflexive in doubles."
  },
  {
   "property": "C48",
   "status": "proved",
   "theorems": [
    "C48_distance_value",
    "C48_distance_metric",
    "C48_scalar_value",
    "C48_scalar_bilinear",
    "C48_longer_first_refuted",
    "C48_cross_orthogonal",
    "C48_cross_short",
    "C48_cross_long",
    "C48_filter",
    "C48_filter_fail"
   ],
   "note": "Real arithmetic, vectors of every length; preconditions on lengths and on negative positions shown necessary."
  },
  {
   "property": "C35",
   "status": "proved",
   "theorems": [
    "C35_gauss_exact",
    "C35_integrable",
    "C35_gauss_weights",
    "C35_gauss_sharp"
   ],
   "note": "Real arithmetic with the closed-form points of the five classes; the integral is the Riemann integral of the standard library. Also shown sharp."
  },
  {
   "property": "C36",
   "status": "proved",
   "theorems": [
    "C36_elements_tile",
    "C36_connectivity",
    "C36_connectivity_exact",
    "C36_connectivity_injective",
    "C36_element_at"
   ],
   "note": "Real arithmetic, every well-formed spline of every dimension, any interior multiplicities: elements tile the domain, the connectivity lists exactly the non-vanishing functions, each once."
  },
  {
   "property": "C37",
   "status": "proved",
   "theorems": [
    "C37_values",
    "C37_unit_weights",
    "C37_derivatives_described",
    "C37_derivatives_refuted",
    "C37_degree_zero_refuted"
   ],
   "note": "Values correct for all weights; derivatives correct for unit weights, described exactly in general, and refuted with weights 1 and 2; out-of-bounds access for degree 0 in two directions."
  },
  {
   "property": "C38",
   "status": "proved",
   "theorems": [
    "C38_split",
    "C38_join",
    "C38_trim"
   ],
   "note": "All strings and delimiters; newline always separates too."
  },
  {
   "property": "C39",
   "status": "proved",
   "theorems": [
    "C39_starts_with",
    "C39_ends_with",
    "C39_missed_refuted",
    "C39_accepted_refuted",
    "C39_format",
    "C39_three",
    "C39_four",
    "C39_short"
   ],
   "note": "Prefix test exact; suffix test described exactly (strings shorter than 2^63) and refuted in both directions; file format detection for every name."
  },
  {
   "property": "C40",
   "status": "proved",
   "theorems": [
    "C40_value",
    "C40_no_point",
    "C40_leading_point",
    "C40_no_point_refuted",
    "C40_leading_point_refuted"
   ],
   "note": "Real arithmetic, numerals of less than 2^32 characters; the two wrong cases are described exactly and refuted by witnesses."
  },
  {
   "property": "C41",
   "status": "proved",
   "theorems": [
    "C41_pieces",
    "C41_pieces_exist",
    "C41_values",
    "C41_unterminated_refuted"
   ],
   "note": "All strings (shorter than 2^63): exactly the terminated pieces are read, in order."
  },
  {
   "property": "C42",
   "status": "proved",
   "theorems": [
    "C42_fresh",
    "C42_kept_unique",
    "C42_not_spline",
    "C42_again",
    "C42_again_all",
    "C42_twice_vtk",
    "C42_accumulated_refuted"
   ],
   "note": "All spline lists, requests, scatterings, formats; readers and writers are outside, what is handed to the writer is the result."
  },
  {
   "property": "C43",
   "status": "proved",
   "theorems": [
    "C43_written",
    "C43_points",
    "C43_cells",
    "C43_not_spline",
    "C43_wrong_sizes",
    "C43_four_parameters",
    "C43_rounding_refuted"
   ],
   "note": "Exact arithmetic, any list of splines with 1 to 3 parameters and at least one cell per direction; decimal printing not modelled. In double arithmetic writing can fail with range_error (refuted by witness)."
  },
  {
   "property": "C46",
   "status": "proved",
   "theorems": [
    "C46_sum",
    "C46_short_section"
   ],
   "note": "Exact arithmetic; all well-formed curves with positive weights, cross section with at least as many coordinates; otherwise out of bounds read."
  },
  {
   "property": "C47",
   "status": "proved",
   "theorems": [
    "C47_shape",
    "C47_corners",
    "C47_product",
    "C47_affine",
    "C47_too_few_knots",
    "C47_rounding_refuted"
   ],
   "note": "Exact arithmetic, degree >= 1, fewer than 2^31 knots; a missed corner in double arithmetic by witness."
  },
  {
   "property": "C49",
   "status": "proved",
   "theorems": [
    "C49_linear_precision",
    "C49_linear_derivative"
   ],
   "note": "Exact arithmetic, all B-splines of any dimension with degrees >= 1."
  },
  {
   "property": "C45",
   "status": "proved",
   "theorems": [
    "C45_curve_terminates",
    "C45_surface_terminates",
    "C45_curve_in_domain",
    "C45_surface_in_domain",
    "C45_curve_iterates",
    "C45_surface_iterates",
    "C45_shifted_curve_refuted",
    "C45_constant_curve_refuted",
    "C45_surface_throws_refuted",
    "C45_surface_wrong_refuted",
    "C45_sample_rounding_refuted",
    "C45_plane_surface_ub"
   ],
   "note": "Termination for every number type including doubles; domain in exact arithmetic for domains starting at 0 (surfaces: same domain in both directions, points in space); refuted otherwise."
  },
  {
   "property": "C50",
   "status": "proved",
   "theorems": [
    "C50_straight_curve",
    "C50_plane_surface"
   ],
   "note": "Exact arithmetic, domain starting at 0; surfaces: foot inside the surface."
  },
  {
   "property": "C44",
   "status": "proved",
   "theorems": [
    "C44_irit_round_trip",
    "C44_irit_six_decimals",
    "C44_irit_tiny_weight_refuted",
    "C44_xml_round_trip",
    "C44_xml_six_decimals",
    "C44_iges_round_trip",
    "C44_iges_surface_refuted",
    "C44_iges_unsupported",
    "C44_iges_exponent_refuted",
    "C44_xml_same_map",
    "C44_irit_same_map",
    "C44_iges_same_map",
    "C44_six_decimals_exact"
   ],
   "note": "Whole files of any number of splines (IRIT 1-3, XML 1-4, IGES 1 direction), every printing of doubles with readable numerals; the IGES claim is false for surfaces and for texts with exponent and no point, the IRIT claim for tiny weights."
  },
  {
   "property": "C32",
   "status": "proved",
   "theorems": [
    "C32_members",
    "C32_separate_histories",
    "C32_copies_independent",
    "C32_copy_value",
    "C32_constructors_copy",
    "C32_pieces_independent",
    "C32_generator_shares",
    "C32_assignment_shares",
    "C32_nurbs_generators_share",
    "C32_shared_knots_refuted"
   ],
   "note": "Every number type, every history. Exceptions leave the partial changes they made. KnotVector members enter as arbitrary changes of the object."
  },
  {
   "property": "C51",
   "status": "proved",
   "theorems": [
    "C51_accepted",
    "C51_rejected"
   ],
   "note": "Every combination of knots, degrees, control points and weights with nonempty knot vectors, one degree per knot vector and fewer than 2^64 control points."
  },
  {
   "property": "C52",
   "status": "proved",
   "theorems": [
    "C52_reference_mapping"
   ],
   "note": "Exact arithmetic, any number of directions."
  },
  {
   "property": "C53",
   "status": "proved",
   "theorems": [
    "C53_jacobian",
    "C53_jacobian_curve",
    "C53_jacobian_plane"
   ],
   "note": "Exact arithmetic; arma::det is a parameter, required to be the determinant for 1x1 and 2x2 matrices in the two special cases."
  },
  {
   "property": "C54",
   "status": "proved",
   "theorems": [
    "C54_mass_matrix",
    "C54_load_vector",
    "C54_stiffness_matrix",
    "C54_mass_consequences",
    "C54_load_is_mass_times_source",
    "C54_stiffness_consequences"
   ],
   "note": "Exact arithmetic; the stiffness matrix for unit weights (C37 refutes the gradients otherwise) and where the matrix inverse succeeds."
  },
  {
   "property": "C55",
   "status": "proved",
   "theorems": [
    "C55_boundary_conditions",
    "C55_solutions"
   ],
   "note": "Exact arithmetic; any number of directions; too few boundary values are UB in the model."
  },
  {
   "property": "C56",
   "status": "proved",
   "theorems": [
    "C56_steady",
    "C56_unsteady",
    "C56_unsteady_repeat_refuted"
   ],
   "note": "Exact arithmetic, unit weights, non-degenerate geometry; the linear solver is a parameter, required to be sound for the unsteady case. The refuted theorem shows in doubles that a second unsteady call differs."
  },
  {
   "property": "C57",
   "status": "proved",
   "theorems": [
    "C57_connectivity",
    "C57_boundary_splines",
    "C57_different_counts",
    "C57_face_refuted",
    "C57_neumann",
    "C57_neumann_curve"
   ],
   "note": "Exact arithmetic, domain ends of multiplicity p+1; the refuted theorem shows in doubles that with different knots a boundary spline is not the face."
  },
  {
   "property": "C58",
   "status": "proved",
   "theorems": [
    "C58_solution_spline",
    "C58_point_data"
   ],
   "note": "Exact arithmetic."
  },
  {
   "property": "C59",
   "status": "proved",
   "theorems": [
    "C59_random_bspline",
    "C59_random_nurbs",
    "C59_no_degree"
   ],
   "note": "Exact arithmetic; the engine is an arbitrary function within the limits of the distribution."
  },
  {
   "property": "C60",
   "status": "proved",
   "theorems": [
    "C60_swept",
    "C60_swept_jump",
    "C60_swept_late",
    "C60_averages",
    "C60_straight_refuted",
    "C60_flip_refuted",
    "C60_rounding_refuted"
   ],
   "note": "Exact arithmetic for the positive part; at a straight place the normal before must be orthogonal to the position vector (the code uses the position instead of the direction), else the refuted case occurs."
  },
  {
   "property": "C61",
   "status": "proved",
   "theorems": [
    "C61_read",
    "C61_program",
    "C61_again",
    "C61_to_xml",
    "C61_to_irit",
    "C61_arguments",
    "C61_help",
    "C61_no_log",
    "C61_bad_input",
    "C61_not_spline",
    "C61_nothing_asked",
    "C61_lost_refuted",
    "C61_carriage_refuted"
   ],
   "note": "Readers, writers, files and clock are parameters of the programs' model; texts shorter than 2^63; the last line of the log must not announce a path for the rerun."
  },
  {
   "property": "C62",
   "status": "proved",
   "theorems": [
    "C62_xml_document",
    "C62_xml_short"
   ],
   "note": "Every document of the described form, in exact arithmetic; the XML parser itself is trusted to deliver the tree."
  },
  {
   "property": "C63",
   "status": "proved",
   "theorems": [
    "C63_double_span",
    "C63_double_domain"
   ],
   "note": "IEEE doubles; knots at least the library tolerance apart and at most 2^500."
  },
  {
   "property": "C64",
   "status": "proved",
   "theorems": [
    "C64_double_basis",
    "C64_double_partition"
   ],
   "note": "IEEE doubles; B-spline basis functions, without derivatives."
  },
  {
   "property": "C65",
   "status": "proved",
   "theorems": [
    "C65_double_evaluate",
    "C65_double_ends_refuted"
   ],
   "note": "IEEE doubles; B-splines of any dimension."
  },
  {
   "property": "C66",
   "status": "proved",
   "theorems": [
    "C66_double_rational"
   ],
   "note": "IEEE doubles; NURBS of any dimension, coordinates 0 to dim - 1."
  },
  {
   "property": "C67",
   "status": "proved",
   "theorems": [
    "C67_basis_smooth",
    "C67_derivatives_smooth",
    "C67_evaluate_continuous",
    "C67_next_order_refuted"
   ],
   "note": "Real arithmetic, separated knots."
  },
  {
   "property": "C68",
   "status": "proved",
   "theorems": [
    "C68_to_xml",
    "C68_to_irit",
    "C68_to_iges",
    "C68_to_vtk",
    "C68_unreadable",
    "C68_missing",
    "C68_unwritable"
   ],
   "note": "A new converter; names of at least five characters; IGES output for curves only (surfaces: C44_iges_surface_refuted); what is left of a file when a writer throws is not modelled."
  },
  {
   "property": "C69",
   "status": "proved",
   "theorems": [
    "C69_iges_document",
    "C69_iges_short",
    "C69_iges_short_line"
   ],
   "note": "Real arithmetic; numerals the number reader understands (C40); files that can be opened."
  },
  {
   "property": "C70",
   "status": "proved",
   "theorems": [
    "C70_irit_document",
    "C70_irit_no_knots"
   ],
   "note": "Real arithmetic; numerals the number reader understands (C40); weights other than 0; closing brackets directly behind the last number; files that can be opened."
  },
  {
   "property": "C71",
   "status": "proved",
   "theorems": [
    "C71_double_insertion",
    "C71_double_insertion_evaluate",
    "C71_double_refinement"
   ],
   "note": "IEEE doubles; B-splines of any dimension; knots that are equal or at least the tolerance apart."
  },
  {
   "property": "C72",
   "status": "proved",
   "theorems": [
    "C72_iges_layout",
    "C72_iges_date_refuted",
    "C72_iges_extent_refuted",
    "C72_xml_document",
    "C72_xml_names_refuted",
    "C72_irit_document"
   ],
   "note": "Layout and contents of the written files; the three exceptions named in the statement are refuted."
  },
  {
   "property": "C73",
   "status": "proved",
   "theorems": [
    "C73_nurbs_insertion",
    "C73_nurbs_insertion_evaluate",
    "C73_nurbs_refinement"
   ],
   "note": "IEEE doubles; NURBS of any dimension; knots that are equal or at least the tolerance apart."
  },
  {
   "property": "C74",
   "status": "proved",
   "theorems": [
    "C74_exact_derivative_zero",
    "C74_exact_derivative",
    "C74_exact_basis_derivative",
    "C74_double_basis_derivative",
    "C74_double_derivative",
    "C74_double_derivative_domain"
   ],
   "note": "IEEE doubles; B-splines of any dimension; knots that are equal or at least the tolerance apart. Derivatives of NURBS in doubles are not covered."
  },
  {
   "property": "C75",
   "status": "proved",
   "theorems": [
    "C75_local_points",
    "C75_points",
    "C75_points_unsupported",
    "C75_moved_point",
    "C75_far_point"
   ],
   "note": "Exact arithmetic; NURBS need positive weights. Without a support of positive length uniqueness is refuted by C75_points_unsupported."
  },
  {
   "property": "C76",
   "status": "proved",
   "theorems": [
    "C76_corner_tangent",
    "C76_bezier_form"
   ],
   "note": "Exact arithmetic; the corner weight must not be zero, for the Bezier form weights are positive."
  },
  {
   "property": "C77",
   "status": "proved",
   "theorems": [
    "C77_rescaled_value",
    "C77_rescaled_derivative"
   ],
   "note": "Exact arithmetic; both splines are required to be well-formed because the knot tolerance is absolute."
  },
  {
   "property": "C78",
   "status": "proved",
   "theorems": [
    "C78_variation_diminishing",
    "C78_monotone"
   ],
   "note": "Exact arithmetic; curves."
  },
  {
   "property": "C79",
   "status": "proved",
   "theorems": [
    "C79_polynomial",
    "C79_every_polynomial",
    "C79_points_of_polynomial",
    "C79_linear_precision",
    "C79_rational",
    "C79_quarter_circle"
   ],
   "note": "Exact arithmetic."
  },
  {
   "property": "C80",
   "status": "proved",
   "theorems": [
    "C80_mass_exact",
    "C80_volume",
    "C80_stiffness_exact"
   ],
   "note": "Exact arithmetic; affine maps; determinant and inverse of the linear algebra library are parameters of which only the stated properties are used."
  },
  {
   "property": "C81",
   "status": "proved",
   "theorems": [
    "C81_index",
    "C81_extract",
    "C81_length",
    "C81_binomial",
    "C81_evaluate",
    "C81_derivative",
    "C81_curve_derivative",
    "C81_curve_derivative_refuted",
    "C81_constructed",
    "C81_evaluate_refuted"
   ],
   "note": "That evaluation never overflows is false without bounds on the sizes and orders (the two _refuted theorems)."
  },
  {
   "property": "C82",
   "status": "proved",
   "theorems": [
    "C82_mass_definite",
    "C82_stiffness_kernel",
    "C82_steady",
    "C82_unsteady",
    "C82_gauss"
   ],
   "note": "Exact real arithmetic; the solver of armadillo is a parameter that is assumed to solve the systems with exactly one solution."
  },
  {
   "property": "C83",
   "status": "proved",
   "theorems": [
    "C83_threshold",
    "C83_exact",
    "C83_bezier"
   ],
   "note": "Exact real arithmetic. Above the threshold, for splines that are neither in Bezier form nor exactly of lower degree, only the flag is described."
  },
  {
   "property": "C84",
   "status": "proved",
   "theorems": [
    "C84_elevation_safe",
    "C84_elevation_net",
    "C84_reduction_safe",
    "C84_reduction_reads_past",
    "C84_reduction_double_refuted"
   ],
   "note": "Safety holds as stated; without the condition on simple knots it is refuted. Exact real arithmetic except for the witness on doubles."
  },
  {
   "property": "C85",
   "status": "proved",
   "theorems": [
    "C85_double_subdivision",
    "C85_double_subdivision_evaluate",
    "C85_nurbs_subdivision",
    "C85_nurbs_subdivision_evaluate"
   ],
   "note": "IEEE doubles (PrimFloat with the stdlib float axioms, Flocq)."
  },
  {
   "property": "C86",
   "status": "proved",
   "theorems": [
    "C86_order_of_insertions"
   ],
   "note": "Exact arithmetic; in doubles different orders may round differently."
  },
  {
   "property": "C87",
   "status": "proved",
   "theorems": [
    "C87_cuts_in_one_direction",
    "C87_cuts_in_two_directions"
   ],
   "note": "Exact arithmetic. That the pieces are the right ones is C28."
  },
  {
   "property": "C88",
   "status": "proved",
   "theorems": [
    "C88_optimizer_refuses",
    "C88_optimizer_undefined",
    "C88_optimizer_curve",
    "C88_first_example"
   ],
   "note": "Curve and file in exact arithmetic; the failing call in double arithmetic."
  },
  {
   "property": "C89",
   "status": "proved",
   "theorems": [
    "C89_refine_and_cut"
   ],
   "note": "Exact arithmetic. That the calls on s succeed is C86."
  },
  {
   "property": "C90",
   "status": "proved",
   "theorems": [
    "C90_patch_test",
    "C90_solver"
   ],
   "note": "Exact arithmetic. Determinant and inverse are any functions with the stated laws, as in C80."
  },
  {
   "property": "C91",
   "status": "proved",
   "theorems": [
    "C91_undo"
   ],
   "note": "Exact arithmetic."
  },
  {
   "property": "C92",
   "status": "proved",
   "theorems": [
    "C92_monotone",
    "C92_strict",
    "C92_injective",
    "C92_rational"
   ],
   "note": "Exact arithmetic, B-splines; with weights for curves."
  },
  {
   "property": "C93",
   "status": "proved",
   "theorems": [
    "C93_lipschitz",
    "C93_derivative"
   ],
   "note": "Exact arithmetic, B-splines."
  },
  {
   "property": "C94",
   "status": "proved",
   "theorems": [
    "C94_cells_follow"
   ],
   "note": "Exact arithmetic, B-splines; coordinates before they are rounded for printing."
  },
  {
   "property": "C95",
   "status": "proved",
   "theorems": [
    "C95_range",
    "C95_monotone",
    "C95_steepness",
    "C95_copies"
   ],
   "note": "Exact arithmetic; growth and steepness for B-splines."
  },
  {
   "property": "C96",
   "status": "proved",
   "theorems": [
    "C96_near",
    "C96_refined"
   ],
   "note": "Exact arithmetic, B-splines."
  },
  {
   "property": "C97",
   "status": "proved",
   "theorems": [
    "C97_range",
    "C97_monotone",
    "C97_steepness"
   ],
   "note": "Exact arithmetic; growth and steepness for B-splines."
  },
  {
   "property": "C98",
   "status": "proved",
   "theorems": [
    "C98_variation",
    "C98_refined"
   ],
   "note": "Exact arithmetic, B-splines."
  }
 ]
}