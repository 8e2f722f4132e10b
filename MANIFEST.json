{
 "claims": [
  {
   "property": "C01",
   "status": "proved",
   "theorems": [
    "C01_curve_file_round_trip"
   ],
   "note": "exact bytes, any trailing bytes"
  },
  {
   "property": "C02",
   "status": "proved",
   "theorems": [
    "C02_records_self_delimiting"
   ],
   "note": ""
  },
  {
   "property": "C03",
   "status": "proved",
   "theorems": [
    "C03_encoding_injective_prefix_free"
   ],
   "note": ""
  },
  {
   "property": "C04",
   "status": "proved",
   "theorems": [
    "C04_torn_file_never_accepted"
   ],
   "note": "the reader runs past the end of the buffer (undefined behaviour) on every proper prefix"
  },
  {
   "property": "C05",
   "status": "partial",
   "theorems": [
    "C05_torn_file_reported_refuted"
   ],
   "note": "REFUTED: the property is false of the code; no truncated file is reported as an error (see C04)"
  },
  {
   "property": "C06",
   "status": "partial",
   "theorems": [
    "C06_periodic_flag_refuted",
    "C06_periodic_flag_partial"
   ],
   "note": "REFUTED: the flag read back is the computed is_periodic(), which is what the partial theorem states"
  },
  {
   "property": "C07",
   "status": "proved",
   "theorems": [
    "C07_row_major_bijection"
   ],
   "note": ""
  },
  {
   "property": "C08",
   "status": "proved",
   "theorems": [
    "C08_access_checked"
   ],
   "note": ""
  },
  {
   "property": "C09",
   "status": "proved",
   "theorems": [
    "C09_slice_selects"
   ],
   "note": "extents below 2^31, where the int conversions are lossless"
  },
  {
   "property": "C10",
   "status": "proved",
   "theorems": [
    "C10_chains_stay_in_buffer"
   ],
   "note": "extents below 2^31"
  },
  {
   "property": "C11",
   "status": "partial",
   "theorems": [
    "C11_negative_step_refuted",
    "C11_negative_step_partial"
   ],
   "note": "REFUTED: Slice(n,0,-1) clamps start to n, one past the end; true when the start is below the extent"
  },
  {
   "property": "C12",
   "status": "proved",
   "theorems": [
    "C12_slice_rejects"
   ],
   "note": "extents up to 2^30, steps below 2^30"
  },
  {
   "property": "C13",
   "status": "partial",
   "theorems": [
    "C13_reshape_refuted",
    "C13_reshape_partial"
   ],
   "note": "REFUTED for products that wrap modulo 2^64 and zero-dimensional shapes; proved for all others"
  },
  {
   "property": "C14",
   "status": "partial",
   "theorems": [
    "C14_reshape_strided_refuted"
   ],
   "note": "REFUTED: reshape recomputes contiguous strides"
  },
  {
   "property": "C15",
   "status": "proved",
   "theorems": [
    "C15_view_round_trip"
   ],
   "note": ""
  },
  {
   "property": "C16",
   "status": "partial",
   "theorems": [
    "C16_strided_round_trip_refuted"
   ],
   "note": "REFUTED: serialize writes total_size consecutive elements whatever the strides; a zero-dimensional view writes none"
  },
  {
   "property": "C17",
   "status": "partial",
   "theorems": [
    "C17_hostile_bytes_refuted",
    "C17_deserialize_itself_safe_partial"
   ],
   "note": "REFUTED: strides and wrapped shapes are trusted; the call itself never reads outside its input"
  },
  {
   "property": "C18",
   "status": "proved",
   "theorems": [
    "C18_truncated_view_rejected"
   ],
   "note": ""
  },
  {
   "property": "C19",
   "status": "partial",
   "theorems": [
    "C19_size_refuted"
   ],
   "note": "REFUTED: the loop multiplies its own index; size() is 1 whenever it terminates"
  },
  {
   "property": "C20",
   "status": "proved",
   "theorems": [
    "C20_range_search_exact"
   ],
   "note": "for every nth_element allowed by the standard"
  },
  {
   "property": "C21",
   "status": "proved",
   "theorems": [
    "C21_nearest_neighbor_optimal"
   ],
   "note": ""
  },
  {
   "property": "C22",
   "status": "proved",
   "theorems": [
    "C22_size_empty_throw"
   ],
   "note": ""
  },
  {
   "property": "C23",
   "status": "proved",
   "theorems": [
    "C23_points_box_tight"
   ],
   "note": ""
  },
  {
   "property": "C24",
   "status": "proved",
   "theorems": [
    "C24_intersects_exact",
    "C24_intersects_symmetric"
   ],
   "note": ""
  },
  {
   "property": "C25",
   "status": "proved",
   "theorems": [
    "C25_intersection_merge_expand"
   ],
   "note": ""
  },
  {
   "property": "C26",
   "status": "partial",
   "theorems": [
    "C26_infinity_recognises_default_refuted",
    "C26_default_neutral_partial"
   ],
   "note": "REFUTED: infinity() is constantly false (chained ==); neutrality of the default box holds"
  },
  {
   "property": "C27",
   "status": "proved",
   "theorems": [
    "C27_bvh_stores_each_object_once"
   ],
   "note": ""
  },
  {
   "property": "C28",
   "status": "proved",
   "theorems": [
    "C28_bvh_boxes_tight"
   ],
   "note": ""
  },
  {
   "property": "C29",
   "status": "proved",
   "theorems": [
    "C29_bvh_query_exact"
   ],
   "note": ""
  },
  {
   "property": "C30",
   "status": "proved",
   "theorems": [
    "C30_bvh_pairs_exact"
   ],
   "note": ""
  },
  {
   "property": "C31",
   "status": "partial",
   "theorems": [
    "C31_recursive_pairs_refuted",
    "C31_recursive_pairs_partial"
   ],
   "note": "REFUTED: pairs sharing less than 1e-6 of volume are dropped; exact characterisation proved"
  },
  {
   "property": "C32",
   "status": "proved",
   "theorems": [
    "C32_point_query_exact"
   ],
   "note": ""
  },
  {
   "property": "C33",
   "status": "partial",
   "theorems": [
    "C33_copy_keeps_objects_refuted",
    "C33_assign_leaf_refuted",
    "C33_assign_inner_empty",
    "C33_copy_boxes_partial",
    "C33_assign_boxes_partial"
   ],
   "note": "REFUTED: the copy constructor sets object to nullptr, so a copy returns nothing for any query; assigning a leaf keeps the old object of the target; shape and boxes are kept"
  },
  {
   "property": "C34",
   "status": "proved",
   "theorems": [
    "C34_binomial_table",
    "C34_binomial_outside_table"
   ],
   "note": "arguments outside 0..30 are undefined behaviour"
  },
  {
   "property": "C35",
   "status": "proved",
   "theorems": [
    "C35_find_span_brackets"
   ],
   "note": ""
  },
  {
   "property": "C36",
   "status": "proved",
   "theorems": [
    "C36_basis_functions"
   ],
   "note": ""
  },
  {
   "property": "C37",
   "status": "proved",
   "theorems": [
    "C37_evaluate_is_rational_bspline"
   ],
   "note": ""
  },
  {
   "property": "C38",
   "status": "proved",
   "theorems": [
    "C38_curve_in_hull"
   ],
   "note": ""
  },
  {
   "property": "C39",
   "status": "proved",
   "theorems": [
    "C39_box_encloses_unit_curve"
   ],
   "note": ""
  },
  {
   "property": "C40",
   "status": "partial",
   "theorems": [
    "C40_box_encloses_rational_curve_refuted"
   ],
   "note": "REFUTED: the box divides control points by their weight, evaluation does not; C39 is the true part"
  },
  {
   "property": "C41",
   "status": "proved",
   "theorems": [
    "C41_curve_interpolates_ends",
    "C41_clamped_curve_interpolates_ends"
   ],
   "note": ""
  },
  {
   "property": "C42",
   "status": "proved",
   "theorems": [
    "C42_generated_knots"
   ],
   "note": ""
  },
  {
   "property": "C43",
   "status": "proved",
   "theorems": [
    "C43_insert_knot_valid"
   ],
   "note": ""
  },
  {
   "property": "C44",
   "status": "proved",
   "theorems": [
    "C44_insert_knot_keeps_curve",
    "C43_insert_knot_valid"
   ],
   "note": ""
  },
  {
   "property": "C45",
   "status": "partial",
   "theorems": [
    "C45_insert_knot_rational_refuted",
    "C45_insert_knot_rational_partial"
   ],
   "note": "REFUTED: insertion treats control points as homogeneous, evaluation as Cartesian"
  },
  {
   "property": "C46",
   "status": "proved",
   "theorems": [
    "C46_split_reproduces_curve",
    "C46_split_normalized",
    "C46_split_throws_at_ends"
   ],
   "note": ""
  },
  {
   "property": "C47",
   "status": "proved",
   "theorems": [
    "C47_surface_is_tensor_product"
   ],
   "note": ""
  },
  {
   "property": "C48",
   "status": "proved",
   "theorems": [
    "C48_isocurve_lies_on_surface",
    "C48_isocurve_out_of_range",
    "C48_boundaries"
   ],
   "note": ""
  },
  {
   "property": "C49",
   "status": "partial",
   "theorems": [
    "C49_move_curve_refuted",
    "C49_move_curve_partial"
   ],
   "note": "REFUTED: the move constructor drops _periodic"
  },
  {
   "property": "C50",
   "status": "proved",
   "theorems": [
    "C50_normalize_knots"
   ],
   "note": ""
  },
  {
   "property": "C51",
   "status": "proved",
   "theorems": [
    "C51_knot_multiplicities"
   ],
   "note": ""
  },
  {
   "property": "C52",
   "status": "proved",
   "theorems": [
    "C52_integrate_exact_on_cubics"
   ],
   "note": ""
  },
  {
   "property": "C53",
   "status": "proved",
   "theorems": [
    "C53_integrate_bounded_work"
   ],
   "note": ""
  },
  {
   "property": "C54",
   "status": "proved",
   "theorems": [
    "C54_minimiser_respects_bounds",
    "C54_minimiser_crossed_bounds"
   ],
   "note": ""
  },
  {
   "property": "C55",
   "status": "proved",
   "theorems": [
    "C55_minimiser_returns_best_sample"
   ],
   "note": ""
  },
  {
   "property": "C56",
   "status": "proved",
   "theorems": [
    "C56_inverse_2x2",
    "C56_solve_2x2",
    "C56_operations_2x2"
   ],
   "note": ""
  },
  {
   "property": "C57",
   "status": "proved",
   "theorems": [
    "C57_matrix_inverse"
   ],
   "note": ""
  },
  {
   "property": "C58",
   "status": "proved",
   "theorems": [
    "C58_product",
    "C58_transpose",
    "C58_associative",
    "C58_transpose_of_product"
   ],
   "note": ""
  },
  {
   "property": "C59",
   "status": "proved",
   "theorems": [
    "C59_cholesky_factor",
    "C59_linear_solver"
   ],
   "note": "over the reals"
  },
  {
   "property": "C60",
   "status": "proved",
   "theorems": [
    "C60_newton_never_uphill"
   ],
   "note": "over the reals"
  },
  {
   "property": "C61",
   "status": "proved",
   "theorems": [
    "C61_round_trip",
    "C61_round_trip_weights",
    "C61_degree_limit"
   ],
   "note": "inverses of the 31 conversion matrices by computation, patches of all coordinates by proof"
  },
  {
   "property": "C62",
   "status": "proved",
   "theorems": [
    "C62_monomial_is_bezier",
    "C62_monomial_evaluates_like_surface"
   ],
   "note": ""
  },
  {
   "property": "C63",
   "status": "proved",
   "theorems": [
    "C63_partial_derivative_u",
    "C63_partial_derivative_v",
    "C63_cross_product"
   ],
   "note": ""
  },
  {
   "property": "C64",
   "status": "proved",
   "theorems": [
    "C64_distance_sound"
   ],
   "note": "all polygons, convex or not, any number of vertices"
  },
  {
   "property": "C65",
   "status": "partial",
   "theorems": [
    "C65_separable_refuted",
    "C65_separable_sound_partial"
   ],
   "note": "REFUTED: an edge of length zero gives the zero normal, whose projections are NaN, and the polygons are reported separable; true when no two consecutive vertices coincide"
  },
  {
   "property": "C66",
   "status": "proved",
   "theorems": [
    "C66_no_collision_sound",
    "C66_runs"
   ],
   "note": "for every tolerance and limit; running needs non-empty sets with coordinates up to 2^200"
  },
  {
   "property": "C67",
   "status": "proved",
   "theorems": [
    "C67_triangle_nearest",
    "C67_repeated_vertex"
   ],
   "note": "all triangles with different first two vertices; otherwise that vertex or a NaN is returned"
  },
  {
   "property": "C68",
   "status": "partial",
   "theorems": [
    "C68_segment_nearest_partial",
    "C68_segment_outside_refuted",
    "C68_segment_far_refuted",
    "C68_unit_segment_partial"
   ],
   "note": "REFUTED for the version with a point: the parameter is not divided by the squared length; true for unit segments, and the origin version is proved for all segments"
  },
  {
   "property": "C69",
   "status": "proved",
   "theorems": [
    "C69_ray",
    "C69_line",
    "C69_two_planes",
    "C69_three_planes"
   ],
   "note": "over the reals; planes made by the constructors"
  },
  {
   "property": "C70",
   "status": "partial",
   "theorems": [
    "C70_planes_meet_refuted"
   ],
   "note": "REFUTED: a plane x = const is reported to meet no plane at all: the coordinate eliminated is the one with the largest coefficient"
  },
  {
   "property": "C71",
   "status": "partial",
   "theorems": [
    "C71_contains_origin_refuted",
    "C71_distance_partial"
   ],
   "note": "REFUTED: comma operators drop two of three products; the exact distance is given"
  },
  {
   "property": "C72",
   "status": "partial",
   "theorems": [
    "C72_coplanar_refuted",
    "C72_collinear_refuted",
    "C72_coplanar_partial"
   ],
   "note": "REFUTED: the fourth point is never tested, and after three collinear points every set is accepted; exact criterion for the other points proved"
  },
  {
   "property": "C73",
   "status": "partial",
   "theorems": [
    "C73_assemble_refuted",
    "C73_segments_used_once_partial",
    "C73_when_it_returns",
    "C73_no_exception"
   ],
   "note": "REFUTED: a coordinate of 1e-6 or more overflows the cast to int when the key is computed, as in the header's own example; true for coordinates up to (2^31-2)*2^-52"
  },
  {
   "property": "C74",
   "status": "proved",
   "theorems": [
    "C74_hull_vertices"
   ],
   "note": "for every permutation the sort may return"
  },
  {
   "property": "C75",
   "status": "proved",
   "theorems": [
    "C75_grouping"
   ],
   "note": "distances are an oracle that may be infinite"
  },
  {
   "property": "C76",
   "status": "proved",
   "theorems": [
    "C76_ccx_domain"
   ],
   "note": "vector length is an oracle; fuel-indexed recursion, any fuel"
  },
  {
   "property": "C77",
   "status": "proved",
   "theorems": [
    "C77_volume_monotone"
   ],
   "note": ""
  },
  {
   "property": "C78",
   "status": "partial",
   "theorems": [
    "C78_setRight_refuted"
   ],
   "note": "REFUTED: setRight swaps the left child"
  },
  {
   "property": "C79",
   "status": "proved",
   "theorems": [
    "C79_subview_agrees"
   ],
   "note": ""
  },
  {
   "property": "C80",
   "status": "partial",
   "theorems": [
    "C80_to_string_refuted",
    "C80_to_string_partial"
   ],
   "note": "REFUTED for more than one dimension; proved for one"
  },
  {
   "property": "C81",
   "status": "partial",
   "theorems": [
    "C81_huge_step_refuted"
   ],
   "note": "REFUTED: stop-start+step overflows int"
  },
  {
   "property": "C82",
   "status": "partial",
   "theorems": [
    "C82_evaluate_any_degree_refuted"
   ],
   "note": "REFUTED: any curve of degree above 8 overruns the stack buffers"
  },
  {
   "property": "C83",
   "status": "partial",
   "theorems": [
    "C83_box_follows_control_points_refuted",
    "C83_set_control_points_partial"
   ],
   "note": "REFUTED: the box is not rebuilt; evaluation does follow"
  },
  {
   "property": "C84",
   "status": "proved",
   "theorems": [
    "C84_decompose_into_bezier"
   ],
   "note": ""
  },
  {
   "property": "C85",
   "status": "proved",
   "theorems": [
    "C85_bbox_encloses_surface"
   ],
   "note": ""
  },
  {
   "property": "C86",
   "status": "partial",
   "theorems": [
    "C86_surface_aabb_encloses_refuted"
   ],
   "note": "REFUTED: the stored box is never computed"
  },
  {
   "property": "C87",
   "status": "proved",
   "theorems": [
    "C87_insert_knot_u_keeps_surface",
    "C87_insert_knot_v_keeps_surface"
   ],
   "note": ""
  },
  {
   "property": "C88",
   "status": "proved",
   "theorems": [
    "C88_split_u_reproduces_surface",
    "C88_split_v_reproduces_surface",
    "C88_split_at_edge_throws"
   ],
   "note": ""
  },
  {
   "property": "C89",
   "status": "proved",
   "theorems": [
    "C89_subdivide_reproduces_surface",
    "C89_subdivide_halves"
   ],
   "note": ""
  },
  {
   "property": "C90",
   "status": "partial",
   "theorems": [
    "C90_surface_get_derivative_refuted",
    "C90_unit_surface_derivative_never_evaluates"
   ],
   "note": "REFUTED: sizes are left 0 and the weights become 0"
  },
  {
   "property": "C91",
   "status": "partial",
   "theorems": [
    "C91_isocurve_aabb_refuted"
   ],
   "note": "REFUTED: the box stays at its default"
  },
  {
   "property": "C92",
   "status": "partial",
   "theorems": [
    "C92_rational_isocurve_refuted",
    "C92_rational_isocurve_partial"
   ],
   "note": "REFUTED: surfaces are homogeneous, curves Cartesian; the homogeneous sums do agree"
  },
  {
   "property": "C93",
   "status": "partial",
   "theorems": [
    "C93_free_isocurve_refuted",
    "C93_free_isocurve_partial"
   ],
   "note": "REFUTED in the V direction: the u knots are ignored; in the U direction it equals the member function"
  },
  {
   "property": "C94",
   "status": "proved",
   "theorems": [
    "C94_surface_constructor",
    "C94_surface_constructor_empty"
   ],
   "note": ""
  },
  {
   "property": "C95",
   "status": "proved",
   "theorems": [
    "C95_integral_between_bounds"
   ],
   "note": ""
  },
  {
   "property": "C96",
   "status": "proved",
   "theorems": [
    "C96_integral_reversed"
   ],
   "note": ""
  },
  {
   "property": "C97",
   "status": "proved",
   "theorems": [
    "C97_estimate_bounds_quintic_error"
   ],
   "note": ""
  },
  {
   "property": "C98",
   "status": "partial",
   "theorems": [
    "C98_estimate_bounds_error_refuted",
    "C97_estimate_bounds_quintic_error"
   ],
   "note": "REFUTED: a polynomial of degree ten that vanishes at the five sampled points; true up to degree five (C97)"
  },
  {
   "property": "C99",
   "status": "proved",
   "theorems": [
    "C99_find_t1_constant_speed",
    "C99_find_t1_flat_start"
   ],
   "note": ""
  },
  {
   "property": "C100",
   "status": "partial",
   "theorems": [
    "C100_minimiser_evaluation_limit_refuted",
    "C55_minimiser_returns_best_sample"
   ],
   "note": "REFUTED for limit 1: two evaluations; at most max(limit,2) in general (C55)"
  },
  {
   "property": "C101",
   "status": "proved",
   "theorems": [
    "C101_minimiser_finds_unimodal_minimum"
   ],
   "note": ""
  },
  {
   "property": "C102",
   "status": "partial",
   "theorems": [
    "C102_initializer_list_refuted"
   ],
   "note": "REFUTED: the constructor ignores its argument"
  },
  {
   "property": "C103",
   "status": "partial",
   "theorems": [
    "C103_invertible_matrix_inverted_refuted",
    "C57_matrix_inverse"
   ],
   "note": "REFUTED: pivots below 1e-10 are taken for zero"
  },
  {
   "property": "C104",
   "status": "proved",
   "theorems": [
    "C104_differences_exact_on_quadratics"
   ],
   "note": "over the reals"
  },
  {
   "property": "C105",
   "status": "proved",
   "theorems": [
    "C105_newton_converges_on_convex_quadratics"
   ],
   "note": "over the reals"
  },
  {
   "property": "C106",
   "status": "proved",
   "theorems": [
    "C106_normal_patch",
    "C106_partial_patches"
   ],
   "note": ""
  },
  {
   "property": "C107",
   "status": "partial",
   "theorems": [
    "C107_constant_patch_derivative_refuted",
    "C107_constant_patch_derivative"
   ],
   "note": "REFUTED: reads the first row of an empty array"
  },
  {
   "property": "C108",
   "status": "partial",
   "theorems": [
    "C108_assigned_patch_converts_refuted"
   ],
   "note": "REFUTED: the conversion matrices are not assigned; converting throws"
  },
  {
   "property": "C109",
   "status": "partial",
   "theorems": [
    "C109_target_overwritten_refuted",
    "C61_round_trip"
   ],
   "note": "REFUTED: weights of the previous content stay; true for a new surface"
  },
  {
   "property": "C110",
   "status": "partial",
   "theorems": [
    "C110_rational_round_trip_refuted",
    "C61_round_trip_weights"
   ],
   "note": "REFUTED: weights are dropped; what comes back is the patch through the projected control points"
  },
  {
   "property": "C111",
   "status": "partial",
   "theorems": [
    "C111_touch_refuted",
    "C111_touch_sound_partial"
   ],
   "note": "REFUTED: a repeated vertex gives a zero axis on which everything touches; true without repeated vertices"
  },
  {
   "property": "C112",
   "status": "proved",
   "theorems": [
    "C112_convex_classification"
   ],
   "note": ""
  },
  {
   "property": "C113",
   "status": "proved",
   "theorems": [
    "C113_outside_box",
    "C113_inside_means_hull",
    "C113_interior_is_inside",
    "C113_orientation_irrelevant",
    "C113_first_vertex_irrelevant",
    "C113_diagonal"
   ],
   "note": ""
  },
  {
   "property": "C114",
   "status": "partial",
   "theorems": [
    "C114_collinear_refuted",
    "C114_small_refuted",
    "C114_hull_partial"
   ],
   "note": "REFUTED: collinear points and triangles of area below 5e-10 give an empty hull; proved in full for points that are not on one line, repeated and collinear ones included, whose turns and height differences are zero or at least 1e-9"
  },
  {
   "property": "C115",
   "status": "partial",
   "theorems": [
    "C115_disjoint_separable_refuted"
   ],
   "note": "REFUTED: normals of the second polygon are never tried"
  },
  {
   "property": "C116",
   "status": "partial",
   "theorems": [
    "C116_segments_refuted",
    "C116_empty_refuted"
   ],
   "note": "REFUTED: disjoint segments on one line are reported as TOUCH; two empty polygons as INTERSECT"
  },
  {
   "property": "C117",
   "status": "proved",
   "theorems": [
    "C117_line_complete"
   ],
   "note": ""
  },
  {
   "property": "C118",
   "status": "partial",
   "theorems": [
    "C118_equation_origin_refuted",
    "C118_equation_origin_partial",
    "C118_normal_origin_partial"
   ],
   "note": "REFUTED: wrong sign and scale; true only for d = 0"
  },
  {
   "property": "C119",
   "status": "partial",
   "theorems": [
    "C119_points_refuted",
    "C119_points_partial"
   ],
   "note": "REFUTED: three products are rounded to float; true when they are exact floats"
  },
  {
   "property": "C120",
   "status": "partial",
   "theorems": [
    "C120_ray_refuted",
    "C69_ray"
   ],
   "note": "REFUTED: negative parameters are accepted; the point is on the line"
  },
  {
   "property": "C121",
   "status": "partial",
   "theorems": [
    "C121_coordinates_refuted",
    "C121_coordinates_partial"
   ],
   "note": "REFUTED: axes are not normalised; true for orthonormal axes"
  },
  {
   "property": "C122",
   "status": "partial",
   "theorems": [
    "C122_cplane_distance_refuted",
    "C122_cplane_distance_partial"
   ],
   "note": "REFUTED: the origin is subtracted twice; the exact value is given"
  },
  {
   "property": "C123",
   "status": "partial",
   "theorems": [
    "C123_unit_refuted",
    "C123_unit_partial"
   ],
   "note": "REFUTED: vectors not longer than one are left as they are; true within 2^-22 for lengths from 2 to 2^50"
  },
  {
   "property": "C124",
   "status": "partial",
   "theorems": [
    "C124_collision_refuted",
    "C124_collision_converged_partial"
   ],
   "note": "REFUTED: the simplex cycles on a disjoint pair and running out of iterations counts as a collision; a collision found with a tetrahedron of positive volume is one up to the tolerance"
  },
  {
   "property": "C125",
   "status": "partial",
   "theorems": [
    "C125_closest_refuted",
    "C125_closest_of_simplex_partial"
   ],
   "note": "REFUTED: the loop stops at the first separating direction; the point is the closest of the final simplex"
  },
  {
   "property": "C126",
   "status": "partial",
   "theorems": [
    "C126_simplex_nearest_partial",
    "C126_tetrahedron_refuted"
   ],
   "note": "REFUTED for four points: the smallest distance is never updated, the last face wins; proved for one to three points"
  },
  {
   "property": "C127",
   "status": "proved",
   "theorems": [
    "C127_line_nearest"
   ],
   "note": ""
  },
  {
   "property": "C128",
   "status": "partial",
   "theorems": [
    "C128_ray_refuted",
    "C128_ray_front_partial",
    "C128_ray_line_partial"
   ],
   "note": "REFUTED: the ray is treated as a line; true for points in front of the start"
  },
  {
   "property": "C129",
   "status": "partial",
   "theorems": [
    "C129_triangle_from_refuted",
    "C129_triangle_from_relative_partial"
   ],
   "note": "REFUTED: the point is not added back; the result plus the point is closest"
  },
  {
   "property": "C130",
   "status": "proved",
   "theorems": [
    "C130_order"
   ],
   "note": ""
  },
  {
   "property": "C131",
   "status": "partial",
   "theorems": [
    "C131_reused_simplex_refuted",
    "C66_no_collision_sound"
   ],
   "note": "REFUTED: a full simplex makes the call throw invalid_argument; negative answers are sound for every old content"
  },
  {
   "property": "C132",
   "status": "proved",
   "theorems": [
    "C132_polylines_maximal",
    "C132_returns"
   ],
   "note": "whenever it returns, for all coordinates; it returns for those up to (2^31-2)*2^-52 and is undefined from 1e-6 on (C73)"
  },
  {
   "property": "C133",
   "status": "proved",
   "theorems": [
    "C133_hash_keys",
    "C133_pair_keys",
    "C133_pair_equal"
   ],
   "note": "std::hash<int> is an oracle"
  },
  {
   "property": "C134",
   "status": "partial",
   "theorems": [
    "C134_equal_keys_refuted",
    "C134_close_points_refuted",
    "C134_equal_keys_close_partial"
   ],
   "note": "REFUTED: quantize multiplies by the number of decimals (15) instead of a power of ten; equal vectors are within 2/15 in each coordinate"
  },
  {
   "property": "C135",
   "status": "partial",
   "theorems": [
    "C135_hash_every_vector_refuted",
    "C135_hash_defined_partial"
   ],
   "note": "REFUTED: a coordinate of 143165577 overflows the cast to int"
  },
  {
   "property": "C136",
   "status": "proved",
   "theorems": [
    "C136_boundary_points_are_hits"
   ],
   "note": "csx is an oracle"
  },
  {
   "property": "C137",
   "status": "partial",
   "theorems": [
    "C137_hits_kept_refuted",
    "C137_hits_kept_partial"
   ],
   "note": "REFUTED: duplicates are decided by Vec3Equal, not by tol; every hit has a reported point with the same key"
  },
  {
   "property": "C138",
   "status": "proved",
   "theorems": [
    "C138_start_params"
   ],
   "note": ""
  },
  {
   "property": "C139",
   "status": "proved",
   "theorems": [
    "C139_ccx_sound"
   ],
   "note": "unit weights (C144); length oracle with the stated accuracy"
  },
  {
   "property": "C140",
   "status": "proved",
   "theorems": [
    "C140_ccx_complete"
   ],
   "note": "unit weights (C144); for calls that return (C142)"
  },
  {
   "property": "C141",
   "status": "proved",
   "theorems": [
    "C141_ccx_returns"
   ],
   "note": "every length oracle"
  },
  {
   "property": "C142",
   "status": "partial",
   "theorems": [
    "C142_ccx_any_tolerance_refuted",
    "C142_ccx_too_fine_throws",
    "C142_ccx_returns_pairs_partial"
   ],
   "note": "REFUTED: split throws once an interval is shorter than 2e-12, so a long curve with a small tolerance throws invalid_argument; success proved for Bezier curves with a tolerance in proportion"
  },
  {
   "property": "C143",
   "status": "partial",
   "theorems": [
    "C143_ccx_once_refuted",
    "C143_ccx_neighbours_partial"
   ],
   "note": "REFUTED: a crossing at a halving point is reported four times; only neighbours in the result are compared, and parameters are compared with a distance in space"
  },
  {
   "property": "C144",
   "status": "partial",
   "theorems": [
    "C144_ccx_weights_refuted",
    "C140_ccx_complete"
   ],
   "note": "REFUTED: the box is around unweighted control points; with unit weights C140 holds"
  },
  {
   "property": "C145",
   "status": "proved",
   "theorems": [
    "C145_csx_sound"
   ],
   "note": "for all answers of Newton's method, GJK, separability and degeneracy tests; length oracle with the stated accuracy; knots clear of the cuts"
  },
  {
   "property": "C146",
   "status": "proved",
   "theorems": [
    "C146_csx_ends"
   ],
   "note": "for all answers of the oracles; the interval in u shrinks by more than 1e-7 per level"
  },
  {
   "property": "C147",
   "status": "partial",
   "theorems": [
    "C147_csx_no_exception_refuted",
    "C147_csx_no_exception_partial"
   ],
   "note": "REFUTED: a solver answer at the end of the curve makes split throw; proved for answers inside and a parameter tolerance above 1e-7"
  },
  {
   "property": "C148",
   "status": "partial",
   "theorems": [
    "C148_csx_complete_refuted",
    "C148_csx_complete_partial"
   ],
   "note": "REFUTED: a patch separable from the first half of the curve is not tried with the second half; proved: the first answer is reported first"
  },
  {
   "property": "C149",
   "status": "partial",
   "theorems": [
    "C149_csx_parametrization_refuted",
    "C149_csx_small_interval_empty"
   ],
   "note": "REFUTED: the curve's parameter tolerance is compared with the surface's intervals; below twice that nothing is reported"
  },
  {
   "property": "C150",
   "status": "partial",
   "theorems": [
    "C150_spherical_separation_refuted"
   ],
   "note": "REFUTED: points are scaled to unit length about the wrong centre before the projection"
  },
  {
   "property": "C151",
   "status": "proved",
   "theorems": [
    "C151_aabb_test_sound",
    "C151_aabb_test_exact"
   ],
   "note": ""
  },
  {
   "property": "C152",
   "status": "partial",
   "theorems": [
    "C152_projection_refuted",
    "C152_projection_partial"
   ],
   "note": "REFUTED for a point at the height of the centre"
  },
  {
   "property": "C153",
   "status": "proved",
   "theorems": [
    "C153_curve_continuous",
    "C153_made_curve_continuous"
   ],
   "note": ""
  },
  {
   "property": "C154",
   "status": "partial",
   "theorems": [
    "C154_derivative_rational_refuted",
    "C154_derivative_degree_refuted",
    "C154_derivative_partial",
    "C154_derivative_high_partial",
    "C154_derivative_zero_partial"
   ],
   "note": "REFUTED for rational curves (weights are ignored), for degree 4 and more (always throws) and for degree 0 (reads past the end); proved for unit weights and degree 1 to 3"
  },
  {
   "property": "C155",
   "status": "partial",
   "theorems": [
    "C155_derivative_curve_refuted",
    "C155_derivative_curve_partial"
   ],
   "note": "REFUTED for rational curves; proved with unit weights for every degree, when the first span is not empty"
  },
  {
   "property": "C156",
   "status": "partial",
   "theorems": [
    "C156_higher_derivatives_refuted",
    "C156_higher_derivatives_partial"
   ],
   "note": "REFUTED: more than degree + 1 entries read past the end of a vector; proved for unit weights, degree up to 3 and up to degree + 1 entries"
  },
  {
   "property": "C157",
   "status": "partial",
   "theorems": [
    "C157_second_difference_refuted",
    "C157_difference_exact_partial",
    "C157_expansion_partial"
   ],
   "note": "REFUTED: second_derivative_fdm computes the first derivative; proved: derivative_fdm and derivatives(t, d0, d1, d2) on quadratics exactly, and for unit weights of any degree their exact error terms"
  },
  {
   "property": "C158",
   "status": "proved",
   "theorems": [
    "C158_spherical_round_trip",
    "C158_spherical_ranges",
    "C158_spherical_back",
    "C158_angles_direction",
    "C158_angles_of_lists"
   ],
   "note": ""
  },
  {
   "property": "C159",
   "status": "partial",
   "theorems": [
    "C159_equality_refuted",
    "C159_weight_refuted",
    "C159_equality_partial",
    "C159_vec2_partial"
   ],
   "note": "REFUTED: == has a tolerance and is not transitive; == of vec4 ignores the weight. Proved: reflexive, symmetric, identifies only vectors closer than epsilon in each coordinate"
  },
  {
   "property": "C160",
   "status": "partial",
   "theorems": [
    "C160_cross_product",
    "C160_cross_zero",
    "C160_cross2",
    "C160_cross2_sign",
    "C160_cross4",
    "C160_cross4_refuted"
   ],
   "note": "proved for vec3; REFUTED for vec4: cross(b, result) reads the wrong vector"
  },
  {
   "property": "C161",
   "status": "proved",
   "theorems": [
    "C161_projection",
    "C161_projection_on_zero"
   ],
   "note": ""
  },
  {
   "property": "C162",
   "status": "partial",
   "theorems": [
    "C162_dot_product_refuted"
   ],
   "note": "REFUTED: the loop runs to i <= size"
  },
  {
   "property": "C163",
   "status": "partial",
   "theorems": [
    "C163_distance_refuted",
    "C163_distance_partial"
   ],
   "note": "REFUTED for dist and mag2 (no squares); proved for dist2"
  },
  {
   "property": "C164",
   "status": "partial",
   "theorems": [
    "C164_collinear_refuted",
    "C164_collinear3_partial",
    "C164_collinear2_partial",
    "C164_collinear2_zero"
   ],
   "note": "REFUTED for vec3 of length up to one, which unit() leaves alone; proved for longer ones with exact lengths, and for vec2"
  },
  {
   "property": "C165",
   "status": "partial",
   "theorems": [
    "C165_add4_refuted",
    "C165_unit4_refuted",
    "C165_unit4_zero_refuted",
    "C165_dot4_refuted",
    "C165_add4_partial",
    "C165_dot4_partial",
    "C165_to_vec3_partial"
   ],
   "note": "REFUTED: add leaves w, unitize divides by w, dot omits w"
  },
  {
   "property": "C166",
   "status": "proved",
   "theorems": [
    "C166_decompose_into_patches"
   ],
   "note": "knots of a direction further apart than the 1e-7 at which the code gives up splitting, as in the statement"
  },
  {
   "property": "C167",
   "status": "proved",
   "theorems": [
    "C167_surface_continuous"
   ],
   "note": ""
  },
  {
   "property": "C168",
   "status": "partial",
   "theorems": [
    "C168_difference_refuted",
    "C168_difference_u_partial",
    "C168_difference_v_partial",
    "C168_expansion_u_partial",
    "C168_expansion_v_partial"
   ],
   "note": "REFUTED for cubics: the value returned differs from the derivative by the third and higher odd coefficients of the expansion; proved for unit weights inside a knot span: exact up to degree two, the exact error terms for every degree; missing: rational surfaces"
  },
  {
   "property": "C169",
   "status": "partial",
   "theorems": [
    "C169_normal_unit_refuted",
    "C169_normal_perpendicular_partial",
    "C169_normal_unit_partial"
   ],
   "note": "REFUTED: unit() leaves vectors no longer than one alone; proved: perpendicular always, unit when the cross product is longer than one and its length is exact"
  },
  {
   "property": "C170",
   "status": "partial",
   "theorems": [
    "C170_surface_cross_refuted",
    "C170_surface_cross_not_square_refuted"
   ],
   "note": "REFUTED: vec4::cross reads the wrong vector, and the second net is indexed transposed, so one that is not square is accessed out of bounds"
  },
  {
   "property": "C171",
   "status": "proved",
   "theorems": [
    "C171_ssx_sound",
    "C171_detect_sound"
   ],
   "note": "for any curve-surface intersection and any separation tests"
  },
  {
   "property": "C172",
   "status": "proved",
   "theorems": [
    "C172_ssx_ends",
    "C172_detect_ends"
   ],
   "note": "assuming the curve-surface intersection, SAT3D and the test on the sphere answer"
  },
  {
   "property": "C173",
   "status": "partial",
   "theorems": [
    "C173_ssx_no_exception_refuted"
   ],
   "note": "REFUTED: subdivide throws when a domain is below 2e-7, which recursion reaches; C172 shows that this is the only exception"
  },
  {
   "property": "C174",
   "status": "partial",
   "theorems": [
    "C174_ssx_complete_refuted",
    "C174_ssx_accounted_partial"
   ],
   "note": "REFUTED: boxes with a flat overlap are dropped, so an upright wall through a horizontal floor is not found; proved: each meeting is reported, passed to the boundary search or dropped with a thin overlap"
  },
  {
   "property": "C175",
   "status": "proved",
   "theorems": [
    "C175_gauss_map"
   ],
   "note": ""
  },
  {
   "property": "C176",
   "status": "partial",
   "theorems": [
    "C176_separable_normals_refuted",
    "C176_separable_normals_partial"
   ],
   "note": "REFUTED: normals no longer than one are not normalised, so parallel planes count as separable; proved when the test on the sphere is sound"
  },
  {
   "property": "C177",
   "status": "proved",
   "theorems": [
    "C177_sat3d_sound"
   ],
   "note": "for any convex hull routine that keeps the hull"
  },
  {
   "property": "C178",
   "status": "proved",
   "theorems": [
    "C178_polyline",
    "C178_polyline_order"
   ],
   "note": ""
  },
  {
   "property": "C179",
   "status": "proved",
   "theorems": [
    "C179_join"
   ],
   "note": ""
  },
  {
   "property": "C180",
   "status": "partial",
   "theorems": [
    "C180_join_traces_refuted",
    "C180_join_traces_partial"
   ],
   "note": "REFUTED: the control points of both curves get the degree of the first and uniform knots, so the shape of curved pieces is lost; proved for two polylines"
  },
  {
   "property": "C181",
   "status": "partial",
   "theorems": [
    "C181_periodic_closes_refuted",
    "C181_periodic_closes_partial"
   ],
   "note": "REFUTED: interval() is the range of all knots, beyond the domain; proved: closed over the domain of the basis, for degrees 2 and 3 with equal derivatives"
  },
  {
   "property": "C182",
   "status": "proved",
   "theorems": [
    "C182_length_bounds",
    "C182_length_to",
    "C182_length_all"
   ],
   "note": ""
  },
  {
   "property": "C183",
   "status": "partial",
   "theorems": [
    "C183_length_distance_refuted",
    "C183_length_distance_partial"
   ],
   "note": "REFUTED: a polyline at rest at the five points that quadrature looks at has length 0; proved: the length of a straight segment is the distance of its ends"
  },
  {
   "property": "C184",
   "status": "proved",
   "theorems": [
    "C184_length_at",
    "C184_length_at_from_start"
   ],
   "note": ""
  },
  {
   "property": "C185",
   "status": "proved",
   "theorems": [
    "C185_solve2x2"
   ],
   "note": ""
  },
  {
   "property": "C186",
   "status": "partial",
   "theorems": [
    "C186_invert_curve_refuted",
    "C186_invert_curve_partial"
   ],
   "note": "REFUTED: from the start of any segment its end is never found, because second_derivative_fdm is the first derivative and f' vanishes; the result is also one iteration old; proved: a right start is kept"
  },
  {
   "property": "C187",
   "status": "partial",
   "theorems": [
    "C187_invert_in_interval_refuted"
   ],
   "note": "REFUTED: nothing keeps the parameter in the interval; from the end of a segment the search leaves it"
  },
  {
   "property": "C188",
   "status": "partial",
   "theorems": [
    "C188_invert_surface_refuted",
    "C188_invert_parallelogram_refuted",
    "C188_invert_surface_partial"
   ],
   "note": "REFUTED: on every parallelogram the first step is exact, but the parameters before the step are returned, so the answer is always the start; proved: a right start is kept, and a degenerate surface throws"
  },
  {
   "property": "C189",
   "status": "partial",
   "theorems": [
    "C189_improve_uv_refuted"
   ],
   "note": "REFUTED: the matrices are built by a constructor that stores nothing, so all determinants are 0 and the answer is always false"
  },
  {
   "property": "C190",
   "status": "proved",
   "theorems": [
    "C190_refinement"
   ],
   "note": ""
  },
  {
   "property": "C191",
   "status": "partial",
   "theorems": [
    "C191_refined_points_refuted",
    "C191_refined_points_partial"
   ],
   "note": "REFUTED: the control points are combined without their weights, so a weighted segment moves at its middle; proved for unit weights"
  },
  {
   "property": "C192",
   "status": "partial",
   "theorems": [
    "C192_removal_refuted",
    "C192_removal_exact",
    "C192_roundtrip_partial",
    "C192_far_points",
    "C192_removal_partial"
   ],
   "note": "REFUTED: the control points after the removed one are not moved up, the last ones are cut off instead; proved: exactly which points one removal returns, that after a knot was put in one point too many stays in the middle and the last is lost, that points away from the knot are kept for any number of removals, and the number of points"
  },
  {
   "property": "C193",
   "status": "proved",
   "theorems": [
    "C193_derivative_points"
   ],
   "note": ""
  },
  {
   "property": "C194",
   "status": "proved",
   "theorems": [
    "C194_part_of_derivative_points"
   ],
   "note": ""
  },
  {
   "property": "C195",
   "status": "proved",
   "theorems": [
    "C195_surface_derivative_points"
   ],
   "note": ""
  },
  {
   "property": "C196",
   "status": "partial",
   "theorems": [
    "C196_part_of_surface_points_refuted",
    "C196_part_of_surface_points_partial"
   ],
   "note": "REFUTED: rows from s0 on are copied to the start of a buffer that is then read from s0 on; proved for s0 = 0"
  },
  {
   "property": "C197",
   "status": "proved",
   "theorems": [
    "C197_rational_derivatives"
   ],
   "note": ""
  },
  {
   "property": "C198",
   "status": "proved",
   "theorems": [
    "C198_export_numbers_entities",
    "C198_file_numbers_entities",
    "C198_export_succeeds"
   ],
   "note": ""
  },
  {
   "property": "C199",
   "status": "proved",
   "theorems": [
    "C199_export_refers_inside"
   ],
   "note": ""
  },
  {
   "property": "C200",
   "status": "partial",
   "theorems": [
    "C200_references_have_the_right_kind_refuted",
    "C200_references_have_the_right_kind_partial"
   ],
   "note": "REFUTED for every export: references written as entity_id + 1 miss their entity by one (PRODUCT_DEFINITION refers to a category, its context to the formation, the formation to the protocol definition, the protocol definition to the product context); proved for the other kinds in the table"
  },
  {
   "property": "C201",
   "status": "partial",
   "theorems": [
    "C201_brackets_match_refuted",
    "C201_brackets_match_partial"
   ],
   "note": "REFUTED for every export: the line PRODUCT_RELATED_PRODUCT_CATEGORY lacks a closing bracket; proved for all other lines"
  },
  {
   "property": "C202",
   "status": "proved",
   "theorems": [
    "C202_exported_curve_is_the_curve"
   ],
   "note": ""
  },
  {
   "property": "C203",
   "status": "proved",
   "theorems": [
    "C203_exported_surface_is_the_surface"
   ],
   "note": ""
  },
  {
   "property": "C204",
   "status": "partial",
   "theorems": [
    "C204_edges_follow_their_curves_refuted",
    "C204_edges_follow_their_curves_partial"
   ],
   "note": "REFUTED: the second and third vertex are the same corner, one corner is missing and no edge has the ends of its curve; proved: which edges are written, for every clamped surface with unit weights"
  },
  {
   "property": "C205",
   "status": "partial",
   "theorems": [
    "C205_export_keeps_numbers_refuted",
    "C205_export_keeps_numbers_partial"
   ],
   "note": "REFUTED: six significant digits are written, so different curves have the same text; proved: the relative error is at most 5e-6"
  },
  {
   "property": "C206",
   "status": "partial",
   "theorems": [
    "C206_segments_distance_refuted",
    "C206_segments_parallel_refuted",
    "C206_segments_lines_partial",
    "C206_segments_overloads"
   ],
   "note": "REFUTED: the parameters are not limited to the segments, and parallel segments are measured from one end; proved: nearest points of the lines when they are not parallel, and the overloads agree for all segments"
  },
  {
   "property": "C207",
   "status": "partial",
   "theorems": [
    "C207_vector_column_tall_refuted",
    "C207_vector_column_wide_refuted",
    "C207_vector_column_square_partial",
    "C207_vector_column_throws_partial"
   ],
   "note": "REFUTED: the result has one entry per column; for every matrix with more rows than columns the write is out of bounds, for every one with fewer there are extra entries; proved for square matrices and short rows"
  },
  {
   "property": "C208",
   "status": "partial",
   "theorems": [
    "C208_polygon_normals_refuted",
    "C208_polygon_normals_partial",
    "C208_unit_normals_partial",
    "C208_normals_throw_partial"
   ],
   "note": "REFUTED when unit normals are appended to a vector that is not empty; proved for normals as they are, unit normals into an empty vector, and repeated vertices"
  },
  {
   "property": "C209",
   "status": "partial",
   "theorems": [
    "C209_unique_normals_refuted",
    "C209_unique_normals_partial",
    "C209_repeated_vertex_partial"
   ],
   "note": "REFUTED: normals shorter than the tolerance count as equal; proved for every polygon with this exception; a repeated vertex throws"
  },
  {
   "property": "C210",
   "status": "partial",
   "theorems": [
    "C210_boxes_of_directions_refuted",
    "C210_empty_set_refuted",
    "C210_single_directions_partial",
    "C210_never_apart_from_itself_partial",
    "C210_symmetric_partial",
    "C210_intersects_partial"
   ],
   "note": "REFUTED: the wedge starts at the largest gap instead of ending there, so sets with a common direction are called separable; an empty set is undefined behaviour; proved for single directions, a set and itself, and symmetry"
  },
  {
   "property": "C211",
   "status": "proved",
   "theorems": [
    "C211_epsilon_positive",
    "C211_epsilon_grows"
   ],
   "note": ""
  },
  {
   "property": "C212",
   "status": "partial",
   "theorems": [
    "C212_convex_hull_refuted",
    "C212_vertical_square_refuted",
    "C212_flat_square_refuted",
    "C212_few_points_partial",
    "C212_target_kept_partial",
    "C212_over_plane_partial",
    "C212_planar_hull_partial",
    "C212_planar_few_partial",
    "C212_solid_partial"
   ],
   "note": "REFUTED: four points always count as coplanar and are projected to xy, so an apex is lost and a vertical square has an empty hull; four or more points of a plane are called VOLUME; proved for three points at most, for points of a plane that is not vertical, not on one line, whose turns are zero or at least 1e-9, in two dimensions, and for points on a grid with one point after the fourth off the plane of the first three"
  },
  {
   "property": "C213",
   "status": "partial",
   "theorems": [
    "C213_last_view_refuted",
    "C213_view_file_partial",
    "C213_first_view_partial"
   ],
   "note": "REFUTED: a second view written to the same file is never read; proved for a view written at the start of a file with any contents"
  },
  {
   "property": "C214",
   "status": "partial",
   "theorems": [
    "C214_torn_rewrite_refuted",
    "C214_torn_new_file_partial"
   ],
   "note": "REFUTED for rewriting a file: a mixture of the old and the new view is read; proved for new files at every crash point"
  },
  {
   "property": "C215",
   "status": "proved",
   "theorems": [
    "C215_gauss_class_agrees"
   ],
   "note": ""
  },
  {
   "property": "C216",
   "status": "proved",
   "theorems": [
    "C216_gauss_subdivide"
   ],
   "note": ""
  },
  {
   "property": "C217",
   "status": "proved",
   "theorems": [
    "C217_gjk_test_sound",
    "C217_crossing_not_rejected",
    "C217_far_rejected",
    "C217_near_decided"
   ],
   "note": ""
  },
  {
   "property": "C218",
   "status": "partial",
   "theorems": [
    "C218_extreme_points_partial",
    "C218_cover_partial",
    "C220_small_bodies_refuted"
   ],
   "note": "REFUTED: nothing is returned for small bodies (C220). Proved for five or more points on a grid of spacing 1/k with 16 k^3 M^2 < 2^52, not all on one plane, in exact arithmetic, with the unset member false: all extreme points are returned, each once, every input point is in their hull and the rest of what is returned is on the boundary; exactly the extreme points if no four are on a plane. Missing: finer grids, rounding."
  },
  {
   "property": "C219",
   "status": "partial",
   "theorems": [
    "C219_unset_member_refuted",
    "C219_unset_member_four"
   ],
   "note": "REFUTED: lower_dimensional_hull_ is read uninitialised; if it is true, only the first four points are returned."
  },
  {
   "property": "C220",
   "status": "partial",
   "theorems": [
    "C220_small_bodies_refuted",
    "C220_small_bodies_lost"
   ],
   "note": "REFUTED: nothing is returned for a body smaller than about 1e-6."
  },
  {
   "property": "C221",
   "status": "partial",
   "theorems": [
    "C221_from_input_partial",
    "C221_old_content_refuted"
   ],
   "note": "REFUTED: the old content of the result stays when there are five points or more; what is added comes from the input."
  },
  {
   "property": "C222",
   "status": "partial",
   "theorems": [
    "C222_few_points_refuted"
   ],
   "note": "REFUTED: fewer than five points are returned as they are."
  },
  {
   "property": "C223",
   "status": "partial",
   "theorems": [
    "C223_flat_three_points",
    "C223_flat_refuted"
   ],
   "note": "REFUTED: at most three of five or more points on one plane are returned."
  },
  {
   "property": "C224",
   "status": "proved",
   "theorems": [
    "C224_periodic_test",
    "C224_short_curve_undefined"
   ],
   "note": "a curve with fewer control points than its degree is undefined behaviour"
  },
  {
   "property": "C225",
   "status": "partial",
   "theorems": [
    "C225_freed_once_refuted",
    "C225_freed_once_partial"
   ],
   "note": "REFUTED: MemoryView has a destructor and the compiler's copy constructor, so a copy of a view made by copy() frees its memory twice; true when only views that do not own memory are copied"
  },
  {
   "property": "C226",
   "status": "partial",
   "theorems": [
    "C226_deserialized_leaks_refuted",
    "C226_assignment_leaks_refuted",
    "C226_copies_released_partial"
   ],
   "note": "REFUTED: no history releases what deserialize() allocates, nor what a view owned before an assignment; what copy() allocates is released otherwise"
  },
  {
   "property": "C227",
   "status": "partial",
   "theorems": [
    "C227_readable_refuted",
    "C227_readable_partial",
    "C227_program_memory_partial"
   ],
   "note": "REFUTED: a slice of a view made by copy() dangles once that view is destroyed; true while no owner is destroyed, and for memory of the program"
  },
  {
   "property": "C228",
   "status": "partial",
   "theorems": [
    "C228_iterate_refuted",
    "C228_iterate_partial"
   ],
   "note": "REFUTED: begin() and end() ignore strides, and a view of a single element is empty to them; true for contiguous views with at least one dimension"
  },
  {
   "property": "C229",
   "status": "proved",
   "theorems": [
    "C229_write_through",
    "C229_denotes_one"
   ],
   "note": "for slices with positive steps; reversed slices are C11"
  },
  {
   "property": "C230",
   "status": "partial",
   "theorems": [
    "C230_vector_text_refuted",
    "C230_vec2_text_partial",
    "C230_points_text_partial"
   ],
   "note": "REFUTED: operator<< of vec3 and vec4 writes no comma between the later coordinates; true for vec2 and for format_vec3vec"
  },
  {
   "property": "C231",
   "status": "proved",
   "theorems": [
    "C231_tree_text",
    "C231_objects_text",
    "C231_one_child"
   ],
   "note": "how the stream writes a number is an argument: any text without commas and brackets"
  },
  {
   "property": "C232",
   "status": "proved",
   "theorems": [
    "C232_basis_rounding"
   ],
   "note": "standard model of rounding; a result outside the normal range ends the run and is reported as such"
  },
  {
   "property": "C233",
   "status": "proved",
   "theorems": [
    "C233_curve_rounding",
    "C233_curve_double",
    "C233_box_double"
   ],
   "note": "as C232; products added at once may be fused (fma) or not"
  },
  {
   "property": "C234",
   "status": "proved",
   "theorems": [
    "C234_surface_rounding",
    "C234_surface_double"
   ],
   "note": "as C232; products added at once may be fused (fma) or not"
  },
  {
   "property": "C235",
   "status": "proved",
   "theorems": [
    "C235_double_rounds",
    "C235_double_total",
    "C235_no_rounding"
   ],
   "note": ""
  },
  {
   "property": "C236",
   "status": "partial",
   "theorems": [
    "C236_tolerance_refuted",
    "C236_tolerance_ignored",
    "C236_tolerance_partial"
   ],
   "note": "REFUTED: where degree minus multiplicity is even, as for a simple knot of a cubic, a point is compared with itself and every tolerance lets the removal pass; proved for odd differences and one removal"
  },
  {
   "property": "C237",
   "status": "proved",
   "theorems": [
    "C237_insert_rounding",
    "C237_curve_kept_double",
    "C237_no_rounding"
   ],
   "note": "overflow and underflow end the modelled run and are excluded"
  },
  {
   "property": "C238",
   "status": "proved",
   "theorems": [
    "C238_split_double",
    "C238_no_rounding"
   ],
   "note": "as C237; without normalized knots"
  },
  {
   "property": "C239",
   "status": "partial",
   "theorems": [
    "C239_removals_refuted",
    "C239_removals_exact",
    "C239_too_many"
   ],
   "note": "REFUTED: a knot put in twice and taken out twice leaves another curve, as every round starts from the points given and the end is cut off; proved: exactly what each round does for no more removals than the knot occurs, that none of them reads outside the points, and that one more at the first inner knot always does"
  },
  {
   "property": "C240",
   "status": "partial",
   "theorems": [
    "C240_hull_refuted",
    "C240_hull_partial",
    "C240_vertices",
    "C240_no_rounding"
   ],
   "note": "REFUTED: a triangle with whole coordinates below 2^29 is taken for a line and its hull is empty; proved for multiples of 2^e (e from -14 to 480) fewer than 2^25 steps from the origin; the result is always among the points given"
  },
  {
   "property": "C241",
   "status": "partial",
   "theorems": [
    "C241_relationship_refuted",
    "C241_relationship_partial",
    "C241_point_in_polygon_partial",
    "C241_no_rounding"
   ],
   "note": "REFUTED: two triangles with whole coordinates below 2^28 that do not meet are said to touch; proved for multiples of 2^e (e from -450 to 450) fewer than 2^25 steps from the origin"
  },
  {
   "property": "C242",
   "status": "partial",
   "theorems": [
    "C242_separable_refuted",
    "C242_separable_sound_partial",
    "C242_same_partial",
    "C242_no_rounding"
   ],
   "note": "REFUTED: two overlapping triangles with whole coordinates below 2^29 are said to be separable; proved for multiples of 2^e (e from -450 to 450) fewer than 2^25 steps from the origin and polygons without edges of length zero (C65)"
  },
  {
   "property": "C243",
   "status": "proved",
   "theorems": [
    "C243_coefficients_convert",
    "C243_blank_is_zero",
    "C243_wrong_sizes",
    "C243_negative_sizes"
   ],
   "note": "sizes up to 31, beyond which binomial coefficients overflow (C61); evaluation for degrees up to 8, the size of its buffers"
  },
  {
   "property": "C244",
   "status": "proved",
   "theorems": [
    "C244_nearest_as_computed"
   ],
   "note": "all of IEEE double arithmetic with gradual underflow and infinities; range search (C20) does no arithmetic"
  },
  {
   "property": "C245",
   "status": "partial",
   "theorems": [
    "C245_nearest_in_doubles_refuted",
    "C245_stored_point_refuted",
    "C245_nearest_up_to_rounding_partial",
    "C245_nearest_on_grid_partial"
   ],
   "note": "REFUTED: of (2^27, 1, 0) and (2^27, 0, 0) the first is returned for the origin, and (2^-600, 0, 0) although the origin is stored; proved up to a factor (1 + 2^-53)^5 / (1 - 2^-53)^5 of the square for coordinate differences that are 0 or between 2^-500 and 2^500, and exactly for multiples of 2^e fewer than 2^24 steps from the origin"
  },
  {
   "property": "C246",
   "status": "proved",
   "theorems": [
    "C246_pairs_as_computed"
   ],
   "note": "infinity and NaN included; the iterative query (C30) does no arithmetic"
  },
  {
   "property": "C247",
   "status": "partial",
   "theorems": [
    "C247_volume_in_doubles_refuted",
    "C247_volume_up_to_rounding_partial"
   ],
   "note": "REFUTED: two coinciding flat squares of side 2^600 share no volume and are reported, as infinity times 0 is NaN and NaN < 1e-6 is false; proved up to factors (1 + 2^-53)^5 and (1 - 2^-53)^5 of the volume for common boxes with sides that are 0 or between 2^-300 and 2^300"
  },
  {
   "property": "C248",
   "status": "proved",
   "theorems": [
    "C248_near_endpoint_found",
    "C248_test_is_sound"
   ],
   "note": "the conversion to float and sqrtf are an oracle: monotone, and 2^-104 goes to 2^-52"
  },
  {
   "property": "C249",
   "status": "proved",
   "theorems": [
    "C249_joined_in_doubles",
    "C249_small_segments_return"
   ],
   "note": "float conversion and sqrtf as in C248"
  },
  {
   "property": "C250",
   "status": "partial",
   "theorems": [
    "C250_short_segment_refuted",
    "C250_closest_on_grid_partial",
    "C250_near_segment_partial",
    "C250_start_partial"
   ],
   "note": "REFUTED: the squared length of a segment from (2^-600,0,0) to (2^-599,0,0) is rounded to 0 and the result is not a number. True up to 2^-1073 for ends on a 24-bit grid; with ends 2^-500 apart the point is near the segment, but that it is near the closest point is missing there"
  },
  {
   "property": "C251",
   "status": "partial",
   "theorems": [
    "C251_long_vector_refuted",
    "C251_short_vector_refuted",
    "C251_length_partial"
   ],
   "note": "REFUTED: length of (2^64,0,0) is infinite and length of (2^-76,0,0) is 0, because the square of the length is converted to float. True when that square is between 2^-125 and 2^126 and every coordinate is 0 or between 2^-500 and 2^500"
  },
  {
   "property": "C252",
   "status": "partial",
   "theorems": [
    "C252_long_vector_refuted",
    "C252_unit_partial"
   ],
   "note": "REFUTED: unit of (2^64,0,0) is the zero vector, because its computed length is infinite. True when the squared length is between 1+2^-20 and 2^126 and every coordinate is 0 or between 2^-500 and 2^500; sqrtf as in C251"
  },
  {
   "property": "C253",
   "status": "partial",
   "theorems": [
    "C253_symmetric_partial",
    "C253_same_point_partial",
    "C253_moving_away_partial",
    "C253_different_points_refuted",
    "C253_different_points_partial"
   ],
   "note": "REFUTED: distanceSq of (2^-600,0,0) and (2^-599,0,0) is 0. Symmetry, 0 for equal points and growth hold for all points; it is not 0 for points 2^-500 apart in some coordinate"
  },
  {
   "property": "C254",
   "status": "partial",
   "theorems": [
    "C254_self_fused_refuted",
    "C254_self_partial",
    "C254_swap_partial",
    "C254_grid_partial"
   ],
   "note": "REFUTED where one of the two products is fused: the cross product of (0,1+2^-30,1+2^-30) with itself is (2^-60,0,0), which is not its own opposite either. Both hold without fused products when the result is finite; with and without, the cross product is exact on a grid of 26 bits"
  }
 ]
}