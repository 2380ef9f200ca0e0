{
 "claims": [
  {
   "property": "C01",
   "status": "proved",
   "theorems": [
    "C01_point_vector_accepts_exactly",
    "C01_point_vector_rejects",
    "C01_total"
   ],
   "note": ""
  },
  {
   "property": "C02",
   "status": "proved",
   "theorems": [
    "C02_points_accepts_exactly",
    "C02_points_dimension",
    "C02_points_rejects"
   ],
   "note": ""
  },
  {
   "property": "C03",
   "status": "proved",
   "theorems": [
    "C03_set_dimension_pads",
    "C03_set_dimension_rejects_smaller",
    "C03_set_dimension_composes",
    "C03_set_dimension_isometry",
    "C03_points_set_dimension"
   ],
   "note": ""
  },
  {
   "property": "C04",
   "status": "proved",
   "theorems": [
    "C04_is_equal_exact",
    "C04_is_close_formula",
    "C04_is_close_refl_sym",
    "C04_points_is_close",
    "C04_is_close_transitive_refuted",
    "C04_is_close_broadcast",
    "C04_negative_tolerance_raises",
    "C04_is_close_any_operand",
    "C04_is_close_any_raises",
    "C04_is_close_any_sym",
    "C04_is_close_scalar",
    "C04_is_close_instances",
    "C04_is_equal_any_operand"
   ],
   "note": ""
  },
  {
   "property": "C05",
   "status": "proved",
   "theorems": [
    "C05_isolated",
    "C05_points_isolated",
    "C05_list_isolated",
    "C05_shares",
    "C05_composite_shares",
    "C05_composite_built",
    "C05_composite_accepts",
    "C05_field_shares",
    "C05_slice_shares",
    "C05_row_shares",
    "C05_valid_forever_refuted"
   ],
   "note": ""
  },
  {
   "property": "C06",
   "status": "proved",
   "theorems": [
    "C06_pure",
    "C06_pure_history",
    "C06_failure",
    "C06_old_objects",
    "C06_to_array",
    "C06_set_item",
    "C06_set_item2",
    "C06_round",
    "C06_set_dimension",
    "C06_set_dimension_value",
    "C06_query_value"
   ],
   "note": ""
  },
  {
   "property": "C07",
   "status": "proved",
   "theorems": [
    "C07_from_points_unique_displacement",
    "C07_from_points_laws",
    "C07_from_points_mismatch",
    "C07_mismatch_always_raises_refuted"
   ],
   "note": ""
  },
  {
   "property": "C08",
   "status": "proved",
   "theorems": [
    "C08_norm_is_length",
    "C08_unit",
    "C08_unit_raises_iff_zero"
   ],
   "note": ""
  },
  {
   "property": "C09",
   "status": "proved",
   "theorems": [
    "C09_is_zero_default",
    "C09_is_perpendicular_default",
    "C09_with_tolerance",
    "C09_scale_invariant",
    "C09_perpendicular_mismatch"
   ],
   "note": ""
  },
  {
   "property": "C10",
   "status": "proved",
   "theorems": [
    "C10_cross_result",
    "C10_cross_bilinear",
    "C10_cross_right_handed",
    "C10_cross_rejects"
   ],
   "note": ""
  },
  {
   "property": "C11",
   "status": "proved",
   "theorems": [
    "C11_cosine_range_doubles",
    "C11_cosine",
    "C11_cosine_raises",
    "C11_cosine_range_always",
    "C11_cosine_mismatch"
   ],
   "note": ""
  },
  {
   "property": "C12",
   "status": "proved",
   "theorems": [
    "C12_angle_between",
    "C12_angle_between_raises"
   ],
   "note": ""
  },
  {
   "property": "C13",
   "status": "proved",
   "theorems": [
    "C13_angle_signed",
    "C13_angle_signed_rejects",
    "C13_zero_vector_raises_refuted"
   ],
   "note": ""
  },
  {
   "property": "C14",
   "status": "proved",
   "theorems": [
    "C14_angle_signed_3d",
    "C14_rejects"
   ],
   "note": ""
  },
  {
   "property": "C15",
   "status": "proved",
   "theorems": [
    "C15_parallel_complete",
    "C15_parallel_zero_tolerance",
    "C15_parallel_default",
    "C15_parallel_default_angle",
    "C15_parallel_symmetric",
    "C15_parallel_mismatch"
   ],
   "note": ""
  },
  {
   "property": "C16",
   "status": "proved",
   "theorems": [
    "C16_side_vector",
    "C16_side_vector_angle",
    "C16_side_vector_rejects",
    "C16_line_side_point"
   ],
   "note": ""
  },
  {
   "property": "C17",
   "status": "proved",
   "theorems": [
    "C17_project_vector",
    "C17_project_linear",
    "C17_zero_vector"
   ],
   "note": ""
  },
  {
   "property": "C18",
   "status": "proved",
   "theorems": [
    "C18_different_direction",
    "C18_different_direction_1d",
    "C18_different_direction_raises"
   ],
   "note": ""
  },
  {
   "property": "C19",
   "status": "proved",
   "theorems": [
    "C19_distance_is_metric",
    "C19_dimension_checked_refuted",
    "C19_mismatch_raises"
   ],
   "note": ""
  },
  {
   "property": "C20",
   "status": "proved",
   "theorems": [
    "C20_centroid_mean",
    "C20_centroid_permutation",
    "C20_centroid_translation",
    "C20_mean_center"
   ],
   "note": ""
  },
  {
   "property": "C21",
   "status": "proved",
   "theorems": [
    "C21_normalize_distance",
    "C21_normalize_all_zero"
   ],
   "note": ""
  },
  {
   "property": "C22",
   "status": "proved",
   "theorems": [
    "C22_unique"
   ],
   "note": ""
  },
  {
   "property": "C23",
   "status": "proved",
   "theorems": [
    "C23_affine_rank_upper",
    "C23_affine_rank_exact",
    "C23_true_configurations",
    "C23_zero_tolerance_exact",
    "C23_concurrent_default_exact",
    "C23_implications",
    "C23_depends_on_set",
    "C23_default_sound",
    "C23_tolerance_sound",
    "C23_default_tests_sound",
    "C23_simplex_not_coplanar",
    "C23_corner_not_collinear"
   ],
   "note": ""
  },
  {
   "property": "C24",
   "status": "proved",
   "theorems": [
    "C24_transform_coordinates",
    "C24_transform_orthonormal",
    "C24_line_transform_points"
   ],
   "note": ""
  },
  {
   "property": "C25",
   "status": "proved",
   "theorems": [
    "C25_line_construction",
    "C25_from_points",
    "C25_from_slope",
    "C25_to_point"
   ],
   "note": ""
  },
  {
   "property": "C26",
   "status": "proved",
   "theorems": [
    "C26_project_point",
    "C26_project_point_mismatch"
   ],
   "note": ""
  },
  {
   "property": "C27",
   "status": "proved",
   "theorems": [
    "C27_project_points_rowwise",
    "C27_distance_points_rowwise"
   ],
   "note": ""
  },
  {
   "property": "C28",
   "status": "proved",
   "theorems": [
    "C28_distance_point_min",
    "C28_representation_independent"
   ],
   "note": ""
  },
  {
   "property": "C29",
   "status": "proved",
   "theorems": [
    "C29_line_is_close",
    "C29_plane_is_close",
    "C29_mixed_type_error"
   ],
   "note": ""
  },
  {
   "property": "C30",
   "status": "proved",
   "theorems": [
    "C30_coplanar_accepted",
    "C30_meeting_or_parallel_accepted",
    "C30_zero_tolerance_exact",
    "C30_symmetric",
    "C30_type_error",
    "C30_dimension_mismatch",
    "C30_default_sound"
   ],
   "note": ""
  },
  {
   "property": "C31",
   "status": "proved",
   "theorems": [
    "C31_returns_common_point",
    "C31_result_sound",
    "C31_errors",
    "C31_unchecked_nearest"
   ],
   "note": ""
  },
  {
   "property": "C32",
   "status": "proved",
   "theorems": [
    "C32_parallel_lines",
    "C32_coplanar_lines",
    "C32_skew_lines",
    "C32_distance_line",
    "C32_high_dimension",
    "C32_near_parallel_refuted"
   ],
   "note": ""
  },
  {
   "property": "C33",
   "status": "proved",
   "theorems": [
    "C33_line_best_fit",
    "C33_concurrent_rejected",
    "C33_default_accepts"
   ],
   "note": ""
  },
  {
   "property": "C34",
   "status": "proved",
   "theorems": [
    "C34_from_points_collinear_raises",
    "C34_plane_construction",
    "C34_from_vectors_sound",
    "C34_from_vectors_total",
    "C34_from_points_sound",
    "C34_from_points_collinear_never_ok"
   ],
   "note": ""
  },
  {
   "property": "C35",
   "status": "proved",
   "theorems": [
    "C35_cartesian",
    "C35_cartesian_high_dim"
   ],
   "note": ""
  },
  {
   "property": "C36",
   "status": "proved",
   "theorems": [
    "C36_project_point",
    "C36_project_points_rowwise"
   ],
   "note": ""
  },
  {
   "property": "C37",
   "status": "proved",
   "theorems": [
    "C37_distances",
    "C37_side_point",
    "C37_contains_tolerance",
    "C37_representation_independent",
    "C37_batch_rowwise"
   ],
   "note": ""
  },
  {
   "property": "C38",
   "status": "proved",
   "theorems": [
    "C38_project_vector",
    "C38_project_line",
    "C38_project_line_any_tolerance"
   ],
   "note": ""
  },
  {
   "property": "C39",
   "status": "proved",
   "theorems": [
    "C39_intersect_line"
   ],
   "note": ""
  },
  {
   "property": "C40",
   "status": "proved",
   "theorems": [
    "C40_intersect_plane",
    "C40_rejections"
   ],
   "note": ""
  },
  {
   "property": "C41",
   "status": "proved",
   "theorems": [
    "C41_plane_best_fit",
    "C41_rejections"
   ],
   "note": ""
  },
  {
   "property": "C42",
   "status": "proved",
   "theorems": [
    "C42_mesh_on_plane",
    "C42_to_points",
    "C42_point_is_origin_refuted",
    "C42_to_mesh_low_high_dim"
   ],
   "note": ""
  },
  {
   "property": "C43",
   "status": "proved",
   "theorems": [
    "C43_construction",
    "C43_dimension_mismatch",
    "C43_mixed_dimensions_refuted",
    "C43_contains_complete",
    "C43_contains_zero_tolerance",
    "C43_contains_default",
    "C43_contains_default_near"
   ],
   "note": ""
  },
  {
   "property": "C44",
   "status": "proved",
   "theorems": [
    "C44_common_point_returned",
    "C44_result_sound",
    "C44_coplanar_segments",
    "C44_rejections"
   ],
   "note": ""
  },
  {
   "property": "C45",
   "status": "proved",
   "theorems": [
    "C45_construction",
    "C45_distance_point",
    "C45_project_point",
    "C45_nan_radius"
   ],
   "note": ""
  },
  {
   "property": "C46",
   "status": "proved",
   "theorems": [
    "C46_from_points",
    "C46_sound_for_any_rank_routine",
    "C46_not_2d"
   ],
   "note": ""
  },
  {
   "property": "C47",
   "status": "proved",
   "theorems": [
    "C47_intersect_circle",
    "C47_raises_iff_disjoint"
   ],
   "note": ""
  },
  {
   "property": "C48",
   "status": "proved",
   "theorems": [
    "C48_intersect_line",
    "C48_high_dimension",
    "C48_dimension_checked_refuted"
   ],
   "note": ""
  },
  {
   "property": "C49",
   "status": "proved",
   "theorems": [
    "C49_intersect_line",
    "C49_dimension_mismatch"
   ],
   "note": ""
  },
  {
   "property": "C50",
   "status": "proved",
   "theorems": [
    "C50_circle_best_fit",
    "C50_sphere_best_fit",
    "C50_rejections",
    "C50_circle_unique",
    "C50_sphere_unique"
   ],
   "note": ""
  },
  {
   "property": "C51",
   "status": "proved",
   "theorems": [
    "C51_mesh_on_sphere",
    "C51_to_points",
    "C51_no_angles"
   ],
   "note": ""
  },
  {
   "property": "C52",
   "status": "proved",
   "theorems": [
    "C52_circle",
    "C52_sphere",
    "C52_cylinder",
    "C52_scaling"
   ],
   "note": ""
  },
  {
   "property": "C53",
   "status": "proved",
   "theorems": [
    "C53_construction",
    "C53_accessors",
    "C53_multiple"
   ],
   "note": ""
  },
  {
   "property": "C54",
   "status": "proved",
   "theorems": [
    "C54_normal",
    "C54_area_perimeter",
    "C54_order_of_vertices"
   ],
   "note": ""
  },
  {
   "property": "C55",
   "status": "proved",
   "theorems": [
    "C55_angle",
    "C55_angle_sum_and_sines"
   ],
   "note": ""
  },
  {
   "property": "C56",
   "status": "proved",
   "theorems": [
    "C56_altitude",
    "C56_orthocenter_sound",
    "C56_orthocenter_returns",
    "C56_thin_triangle_refuted"
   ],
   "note": ""
  },
  {
   "property": "C57",
   "status": "proved",
   "theorems": [
    "C57_classify_exact",
    "C57_classify_counts",
    "C57_two_close_pairs",
    "C57_two_close_pairs_refuted",
    "C57_is_right",
    "C57_is_right_exact"
   ],
   "note": ""
  },
  {
   "property": "C58",
   "status": "proved",
   "theorems": [
    "C58_centroid"
   ],
   "note": ""
  },
  {
   "property": "C59",
   "status": "proved",
   "theorems": [
    "C59_construction",
    "C59_is_point_within",
    "C59_from_points",
    "C59_nan_radius"
   ],
   "note": ""
  },
  {
   "property": "C60",
   "status": "proved",
   "theorems": [
    "C60_intersect_infinite"
   ],
   "note": ""
  },
  {
   "property": "C61",
   "status": "proved",
   "theorems": [
    "C61_intersect_finite"
   ],
   "note": ""
  },
  {
   "property": "C62",
   "status": "proved",
   "theorems": [
    "C62_mesh_on_surface",
    "C62_to_points",
    "C62_empty"
   ],
   "note": ""
  },
  {
   "property": "C63",
   "status": "proved",
   "theorems": [
    "C63_fit",
    "C63_objective",
    "C63_initial_direction",
    "C63_rejects",
    "C63_returns",
    "C63_global",
    "C63_exact_recovery",
    "C63_covers_refuted"
   ],
   "note": ""
  },
  {
   "property": "C64",
   "status": "proved",
   "theorems": [
    "C64_shoelace",
    "C64_rejects",
    "C64_rotation_reversal",
    "C64_affine",
    "C64_cut",
    "C64_positive",
    "C64_triangle"
   ],
   "note": ""
  },
  {
   "property": "C65",
   "status": "proved",
   "theorems": [
    "C65_area",
    "C65_distances",
    "C65_permutation",
    "C65_volume",
    "C65_rejects"
   ],
   "note": ""
  },
  {
   "property": "C66",
   "status": "proved",
   "theorems": [
    "C66_solve_quadratic",
    "C66_rounded_coefficients",
    "C66_intersect_rounded"
   ],
   "note": ""
  },
  {
   "property": "C67",
   "status": "proved",
   "theorems": [
    "C67_dispatch",
    "C67_shows_2d",
    "C67_shows_3d",
    "C67_surfaces",
    "C67_segment_methods",
    "C67_plot_all",
    "C67_defaults"
   ],
   "note": ""
  },
  {
   "property": "C68",
   "status": "proved",
   "theorems": [
    "C68_array_wrap_valid",
    "C68_array_wrap_wraps"
   ],
   "note": ""
  },
  {
   "property": "C69",
   "status": "proved",
   "theorems": [
    "C69_dot",
    "C69_from_points",
    "C69_cross",
    "C69_is_zero",
    "C69_is_zero_exact",
    "C69_small_exact",
    "C69_is_perpendicular",
    "C69_side_vector",
    "C69_line",
    "C69_area_signed",
    "C69_project_vector",
    "C69_distance_point",
    "C69_is_zero_refuted",
    "C69_side_refuted",
    "C69_nonvacuous"
   ],
   "note": ""
  },
  {
   "property": "C70",
   "status": "proved",
   "theorems": [
    "C70_cosine_range",
    "C70_angle_between_domain",
    "C70_distance_symmetric",
    "C70_norm_nonneg",
    "C70_is_close_reflexive",
    "C70_is_close_symmetric",
    "C70_line_contains_own_point",
    "C70_unit",
    "C70_plane_contains_own_point",
    "C70_contains_second_point_refuted",
    "C70_tangent_circles_refuted",
    "C70_thin_triangle_angle_refuted",
    "C70_underflow_refuted",
    "C70_overflow_refuted",
    "C70_nan_radius",
    "C70_nonvacuous"
   ],
   "note": ""
  },
  {
   "property": "C71",
   "status": "proved",
   "theorems": [
    "C71_round",
    "C71_round_points",
    "C71_round_idempotent",
    "C71_rounded_facts"
   ],
   "note": ""
  },
  {
   "property": "C72",
   "status": "proved",
   "theorems": [
    "C72_arrays",
    "C72_vectors",
    "C72_points",
    "C72_lines",
    "C72_planes",
    "C72_type_errors",
    "C72_balls",
    "C72_triangles",
    "C72_multiple",
    "C72_cylinders",
    "C72_functions",
    "C72_nonvacuous"
   ],
   "note": ""
  },
  {
   "property": "C73",
   "status": "proved",
   "theorems": [
    "C73_dot_accurate",
    "C73_norm_accurate",
    "C73_distance_accurate",
    "C73_unit_accurate",
    "C73_cosine_accurate",
    "C73_side_sound",
    "C73_nonvacuous"
   ],
   "note": ""
  },
  {
   "property": "C74",
   "status": "proved",
   "theorems": [
    "C74_affine_rank",
    "C74_predicates",
    "C74_constructors",
    "C74_line_pairs",
    "C74_intersect_plane",
    "C74_ball_fits",
    "C74_line_plane_fits",
    "C74_histories"
   ],
   "note": ""
  },
  {
   "property": "C75",
   "status": "proved",
   "theorems": [
    "C75_ball_new",
    "C75_balls",
    "C75_sphere_line",
    "C75_circle_line",
    "C75_circle_circle",
    "C75_circle_from_points",
    "C75_cylinder_new",
    "C75_cylinder_from_points",
    "C75_cylinders",
    "C75_cylinder_line",
    "C75_line_fit",
    "C75_plane_fit",
    "C75_ball_fits",
    "C75_area_signed",
    "C75_intersect_plane",
    "C75_segment_construction_refuted",
    "C75_nonvacuous",
    "C75_intersect_line",
    "C75_distance_line",
    "C75_segment_contains",
    "C75_segment_intersect",
    "C75_triangle_new",
    "C75_triangles",
    "C75_triangle_area",
    "C75_orthocenter",
    "C75_area_triangle",
    "C75_volume_tetrahedron",
    "C75_vectors",
    "C75_points",
    "C75_lines",
    "C75_line_pairs_tests",
    "C75_planes",
    "C75_plane_line"
   ],
   "note": ""
  },
  {
   "property": "C76",
   "status": "proved",
   "theorems": [
    "C76_orders",
    "C76_power",
    "C76_norm_axioms",
    "C76_ordering",
    "C76_invariance",
    "C76_quasi_refuted",
    "C76_axis_keepdims",
    "C76_nonvacuous"
   ],
   "note": ""
  },
  {
   "property": "C77",
   "status": "proved",
   "theorems": [
    "C77_arrays",
    "C77_vectors",
    "C77_points",
    "C77_lines",
    "C77_planes",
    "C77_balls",
    "C77_circle_from_points",
    "C77_negative_tolerance",
    "C77_triangles",
    "C77_cylinders",
    "C77_functions",
    "C77_nonvacuous"
   ],
   "note": ""
  },
  {
   "property": "C78",
   "status": "proved",
   "theorems": [
    "C78_point_distance",
    "C78_norm",
    "C78_unit",
    "C78_project_vector",
    "C78_line",
    "C78_line_base",
    "C78_plane",
    "C78_plane_base",
    "C78_plane_project_vector",
    "C78_ball_distance",
    "C78_ball_project",
    "C78_ball_project_inside_refuted",
    "C78_centroid",
    "C78_angle_triangle",
    "C78_nonvacuous"
   ],
   "note": ""
  },
  {
   "property": "C79",
   "status": "proved",
   "theorems": [
    "C79_tests",
    "C79_guards",
    "C79_ranks",
    "C79_tests_double",
    "C79_guards_double",
    "C79_ranks_double",
    "C79_classify_refuted",
    "C79_project_line_refuted",
    "C79_nonvacuous"
   ],
   "note": ""
  },
  {
   "property": "C80",
   "status": "proved",
   "theorems": [
    "C80_plane_projection",
    "C80_line_projection",
    "C80_vector_projection",
    "C80_sphere_projection",
    "C80_line_as_plane",
    "C80_intersection_2d",
    "C80_angle_signed",
    "C80_triangle",
    "C80_area_by_line",
    "C80_volume_by_plane",
    "C80_distance",
    "C80_collinear",
    "C80_coplanar",
    "C80_lines_coplanar",
    "C80_line_fit",
    "C80_line_through_two",
    "C80_plane_fit",
    "C80_plane_through_three",
    "C80_circle_fit",
    "C80_sphere_fit"
   ],
   "note": ""
  },
  {
   "property": "C81",
   "status": "proved",
   "theorems": [
    "C81_reads_as_call",
    "C81_same_text",
    "C81_distinguishes",
    "C81_round_trip"
   ],
   "note": ""
  },
  {
   "property": "C82",
   "status": "proved",
   "theorems": [
    "C82_no_overflow",
    "C82_dot",
    "C82_norm",
    "C82_distance",
    "C82_model_order",
    "C82_cosine",
    "C82_orders_exist",
    "C82_orders_differ",
    "C82_unit",
    "C82_nonvacuous"
   ],
   "note": ""
  },
  {
   "property": "C83",
   "status": "proved",
   "theorems": [
    "C83_comparisons_exact",
    "C83_is_parallel",
    "C83_parallel_recognised",
    "C83_parallel_raises",
    "C83_is_perpendicular",
    "C83_perpendicular_2d",
    "C83_perpendicular_integers",
    "C83_perpendicular_3d_refuted",
    "C83_segment_contains_point",
    "C83_segment_recognises"
   ],
   "note": ""
  },
  {
   "property": "C84",
   "status": "proved",
   "theorems": [
    "C84_scalar_projection",
    "C84_project_vector",
    "C84_plane_distance_signed",
    "C84_plane_distance",
    "C84_line_project_point",
    "C84_plane_project_point",
    "C84_line_distance_point",
    "C84_line_contains_point",
    "C84_plane_contains_point"
   ],
   "note": ""
  },
  {
   "property": "C85",
   "status": "proved",
   "theorems": [
    "C85_ball_distance",
    "C85_ball_contains",
    "C85_ball_project_point",
    "C85_area_triangle",
    "C85_volume_tetrahedron",
    "C85_centroid"
   ],
   "note": ""
  },
  {
   "property": "C86",
   "status": "proved",
   "theorems": [
    "C86_from_points",
    "C86_dot",
    "C86_any_order",
    "C86_cross",
    "C86_norm",
    "C86_distance",
    "C86_is_zero",
    "C86_is_perpendicular",
    "C86_line_from_points",
    "C86_orientation",
    "C86_area_signed",
    "C86_ball_contains",
    "C86_area_triangle",
    "C86_volume_tetrahedron",
    "C86_plane_from_vectors",
    "C86_plane_cartesian",
    "C86_plane_intersect_line",
    "C86_plane_side_point",
    "C86_plane_side_point_on_plane_refuted"
   ],
   "note": ""
  },
  {
   "property": "C87",
   "status": "proved",
   "theorems": [
    "C87_rejections",
    "C87_tangent",
    "C87_secant"
   ],
   "note": ""
  },
  {
   "property": "C88",
   "status": "proved",
   "theorems": [
    "C88_classify",
    "C88_is_right",
    "C88_large_refuted"
   ],
   "note": ""
  },
  {
   "property": "C89",
   "status": "proved",
   "theorems": [
    "C89_rejects",
    "C89_shapes",
    "C89_rejects_basis"
   ],
   "note": ""
  },
  {
   "property": "C90",
   "status": "proved",
   "theorems": [
    "C90_sphere_intersect_line",
    "C90_sphere_grid",
    "C90_tangent_refuted"
   ],
   "note": ""
  },
  {
   "property": "C91",
   "status": "proved",
   "theorems": [
    "C91_circle_intersect_line",
    "C91_circle_grid",
    "C91_tangent_refuted",
    "C91_far_refuted"
   ],
   "note": ""
  },
  {
   "property": "C92",
   "status": "proved",
   "theorems": [
    "C92_is_parallel",
    "C92_parallel_refuted",
    "C92_intersect_line",
    "C92_distance_line",
    "C92_nonvacuous"
   ],
   "note": ""
  },
  {
   "property": "C93",
   "status": "proved",
   "theorems": [
    "C93_intersect",
    "C93_touching_refuted",
    "C93_nonvacuous"
   ],
   "note": ""
  },
  {
   "property": "C94",
   "status": "proved",
   "theorems": [
    "C94_intersect_plane",
    "C94_from_vectors",
    "C94_from_points",
    "C94_nonvacuous"
   ],
   "note": ""
  },
  {
   "property": "C95",
   "status": "proved",
   "theorems": [
    "C95_round_whole",
    "C95_round_decimals",
    "C95_idempotent",
    "C95_nearest_refuted",
    "C95_overflow_refuted",
    "C95_nonvacuous"
   ],
   "note": ""
  },
  {
   "property": "C96",
   "status": "proved",
   "theorems": [
    "C96_is_parallel",
    "C96_line_is_close",
    "C96_plane_is_close",
    "C96_default_tolerance_refuted",
    "C96_nonvacuous"
   ],
   "note": ""
  },
  {
   "property": "C97",
   "status": "proved",
   "theorems": [
    "C97_circle",
    "C97_sphere",
    "C97_cylinder",
    "C97_is_point_within",
    "C97_boundary_refuted",
    "C97_nonvacuous"
   ],
   "note": ""
  },
  {
   "property": "C98",
   "status": "proved",
   "theorems": [
    "C98_plane_distance_points",
    "C98_plane_distance_points_accurate",
    "C98_line_project_points",
    "C98_line_distance_points",
    "C98_plane_project_points",
    "C98_line_bitwise_refuted",
    "C98_nonvacuous"
   ],
   "note": ""
  },
  {
   "property": "C99",
   "status": "proved",
   "theorems": [
    "C99_length",
    "C99_perimeter",
    "C99_area",
    "C99_centroid",
    "C99_classify",
    "C99_tiny_side_refuted"
   ],
   "note": ""
  },
  {
   "property": "C100",
   "status": "proved",
   "theorems": [
    "C100_spherical",
    "C100_initial_direction",
    "C100_tiny_refuted"
   ],
   "note": ""
  }
 ]
}