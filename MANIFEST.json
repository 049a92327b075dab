{
 "claims": [
  {
   "property": "C01",
   "status": "proved",
   "theorems": [
    "C01_C02_normalise_R",
    "C01_C02_normalise_F",
    "C01_readings_R",
    "C01_readings_F"
   ],
   "note": "Over ideal reals and in binary64 for every double and every C library."
  },
  {
   "property": "C02",
   "status": "proved",
   "theorems": [
    "C01_C02_normalise_R",
    "C02_ctor_forms_R",
    "C02_normalize_angle_R",
    "C01_C02_normalise_F",
    "C02_normalize_angle_F"
   ],
   "note": "Over ideal reals and in binary64: AngleDeg normalisation is exact; normalize_angle is exact up to 2^-45 degree."
  },
  {
   "property": "C03",
   "status": "proved",
   "theorems": [
    "C03_history_R",
    "C03_history_F"
   ],
   "note": "Over ideal reals and in binary64, by induction over histories."
  },
  {
   "property": "C04",
   "status": "proved",
   "theorems": [
    "C04_arith_R",
    "C04_scale_R"
   ],
   "note": "Over ideal reals."
  },
  {
   "property": "C05",
   "status": "proved",
   "theorems": [
    "C05_reverse_R"
   ],
   "note": "Over ideal reals."
  },
  {
   "property": "C06",
   "status": "proved",
   "theorems": [
    "C06_left_of_R",
    "C06_left_equal_of_R",
    "C06_right_and_trichotomy_R",
    "C06_number_argument_R"
   ],
   "note": "Over ideal reals; the representation pair -180/180 is treated explicitly."
  },
  {
   "property": "C07",
   "status": "proved",
   "theorems": [
    "C07_is_within_R"
   ],
   "note": "Over ideal reals; the three exceptional representation pairs are characterised exactly."
  },
  {
   "property": "C08",
   "status": "proved",
   "theorems": [
    "C08_bisect_R",
    "C08_opposite_R",
    "C08_equal_R"
   ],
   "note": "Over ideal reals."
  },
  {
   "property": "C09",
   "status": "proved",
   "theorems": [
    "C09_acos_R",
    "C09_asin_R",
    "C09_atan_R",
    "C09_atan2_R"
   ],
   "note": "Over ideal reals."
  },
  {
   "property": "C10",
   "status": "proved",
   "theorems": [
    "C10_eq_R",
    "C10_eq_refuted"
   ],
   "note": "Over ideal reals."
  },
  {
   "property": "C11",
   "status": "proved",
   "theorems": [
    "C11_trig_R"
   ],
   "note": "Over ideal reals."
  },
  {
   "property": "C12",
   "status": "proved",
   "theorems": [
    "C12_polar_of_cartesian_R",
    "C12_tiny_R",
    "C12_cartesian_of_polar_R",
    "C12_polar_forms_R"
   ],
   "note": "Over ideal reals."
  },
  {
   "property": "C13",
   "status": "proved",
   "theorems": [
    "C13_rotate_R",
    "C13_compose_R"
   ],
   "note": "Over ideal reals."
  },
  {
   "property": "C14",
   "status": "proved",
   "theorems": [
    "C14_set_length_R",
    "C14_set_dir_R"
   ],
   "note": "Over ideal reals."
  },
  {
   "property": "C15",
   "status": "proved",
   "theorems": [
    "C15_metric_R"
   ],
   "note": "Over ideal reals."
  },
  {
   "property": "C16",
   "status": "proved",
   "theorems": [
    "C16_products_R",
    "C16_polar_products_R"
   ],
   "note": "Over ideal reals."
  },
  {
   "property": "C17",
   "status": "proved",
   "theorems": [
    "C17_flag",
    "C17_eq_ignores_flag_R"
   ],
   "note": "The flag theorem holds in every arithmetic; equality over ideal reals."
  },
  {
   "property": "C18",
   "status": "proved",
   "theorems": [
    "C18_algebra_R"
   ],
   "note": "Over ideal reals."
  },
  {
   "property": "C19",
   "status": "proved",
   "theorems": [
    "C19_line_through_points_R",
    "C19_degenerate_R"
   ],
   "note": "Over ideal reals."
  },
  {
   "property": "C20",
   "status": "proved",
   "theorems": [
    "C20_line_from_angle_R"
   ],
   "note": "Over ideal reals."
  },
  {
   "property": "C21",
   "status": "proved",
   "theorems": [
    "C21_dist_R",
    "C21_dist_degenerate_R"
   ],
   "note": "Over ideal reals."
  },
  {
   "property": "C22",
   "status": "proved",
   "theorems": [
    "C22_intersection_R",
    "C22_small_coefficients_refuted"
   ],
   "note": "Over ideal reals."
  },
  {
   "property": "C23",
   "status": "proved",
   "theorems": [
    "C23_projection_R"
   ],
   "note": "Over ideal reals."
  },
  {
   "property": "C24",
   "status": "proved",
   "theorems": [
    "C24_perpendicular_bisector_R"
   ],
   "note": "Over ideal reals."
  },
  {
   "property": "C25",
   "status": "proved",
   "theorems": [
    "C25_get_xy_R"
   ],
   "note": "Over ideal reals."
  },
  {
   "property": "C26",
   "status": "proved",
   "theorems": [
    "C26_eq_R",
    "C26_eq_refuted"
   ],
   "note": "Over ideal reals."
  },
  {
   "property": "C27",
   "status": "proved",
   "theorems": [
    "C27_exist_intersection_R"
   ],
   "note": "Over ideal reals."
  },
  {
   "property": "C28",
   "status": "proved",
   "theorems": [
    "C28_symmetric",
    "C28_symmetric_R",
    "C28_symmetric_F"
   ],
   "note": "Operand symmetry in every arithmetic with symmetric equality (reals, binary64); endpoint swaps over ideal reals."
  },
  {
   "property": "C29",
   "status": "proved",
   "theorems": [
    "C29_exist_intersection_line_R"
   ],
   "note": "Over ideal reals."
  },
  {
   "property": "C30",
   "status": "proved",
   "theorems": [
    "C30_except_endpoint_R"
   ],
   "note": "Over ideal reals."
  },
  {
   "property": "C31",
   "status": "proved",
   "theorems": [
    "C31_nearest_point_R"
   ],
   "note": "Over ideal reals."
  },
  {
   "property": "C32",
   "status": "proved",
   "theorems": [
    "C32_dist_point_R",
    "C32_dist_other_R"
   ],
   "note": "Over ideal reals."
  },
  {
   "property": "C33",
   "status": "proved",
   "theorems": [
    "C33_dist_seg_R"
   ],
   "note": "Over ideal reals."
  },
  {
   "property": "C34",
   "status": "proved",
   "theorems": [
    "C34_farthest_dist_R"
   ],
   "note": "Over ideal reals."
  },
  {
   "property": "C35",
   "status": "proved",
   "theorems": [
    "C35_on_segment_R",
    "C35_degenerate_refuted"
   ],
   "note": "Over ideal reals; the degenerate failure is proved with an exact characterisation and a witness."
  },
  {
   "property": "C36",
   "status": "proved",
   "theorems": [
    "C36_contains_R"
   ],
   "note": "Over ideal reals."
  },
  {
   "property": "C37",
   "status": "proved",
   "theorems": [
    "C37_intersection_line_R",
    "C37_intersection_seg_R"
   ],
   "note": "Over ideal reals."
  },
  {
   "property": "C38",
   "status": "proved",
   "theorems": [
    "C38_projection_R",
    "C38_on_segment_weakly_R"
   ],
   "note": "Over ideal reals."
  },
  {
   "property": "C39",
   "status": "proved",
   "theorems": [
    "C39_swap_R",
    "C39_direction_R",
    "C39_ctor_R",
    "C39_forms"
   ],
   "note": "Over ideal reals."
  },
  {
   "property": "C40",
   "status": "proved",
   "theorems": [
    "C40_in_right_dir_R",
    "C40_intersection_line_R",
    "C40_ray_through_points_R"
   ],
   "note": "Over ideal reals."
  },
  {
   "property": "C41",
   "status": "proved",
   "theorems": [
    "C41_intersection_ray_R",
    "C41_symmetric_R"
   ],
   "note": "Over ideal reals."
  },
  {
   "property": "C42",
   "status": "proved",
   "theorems": [
    "C42_signed_area_R"
   ],
   "note": "Over ideal reals."
  },
  {
   "property": "C43",
   "status": "proved",
   "theorems": [
    "C43_contains_R",
    "C43_degenerate_refuted"
   ],
   "note": "Over ideal reals; the behaviour on collinear vertices is characterised exactly."
  },
  {
   "property": "C44",
   "status": "proved",
   "theorems": [
    "C44_circumcenter_R"
   ],
   "note": "Over ideal reals."
  },
  {
   "property": "C45",
   "status": "proved",
   "theorems": [
    "C45_orthocenter_R"
   ],
   "note": "Over ideal reals."
  },
  {
   "property": "C46",
   "status": "proved",
   "theorems": [
    "C46_incenter_R",
    "C46_incenter_spec"
   ],
   "note": "Over ideal reals; the first theorem identifies the returned point with the length-weighted barycentre, the second shows that this point is inside and equidistant from the sides."
  },
  {
   "property": "C47",
   "status": "proved",
   "theorems": [
    "C47_centroid_raises",
    "C47_is_valid_R",
    "C47_is_valid_F",
    "C47_is_valid_iff_F"
   ],
   "note": "centroid in every arithmetic; is_valid over reals and over non-NaN doubles."
  },
  {
   "property": "C48",
   "status": "proved",
   "theorems": [
    "C48_intersection_line_R",
    "C48_common_case_raises_R",
    "C48_other_raises"
   ],
   "note": "Over ideal reals; the exception for other arguments in every arithmetic."
  },
  {
   "property": "C49",
   "status": "proved",
   "theorems": [
    "C49_basics_R",
    "C49_radius_R",
    "C49_radius_F"
   ],
   "note": "Containment and area over ideal reals; non-negative radius over reals and doubles."
  },
  {
   "property": "C50",
   "status": "proved",
   "theorems": [
    "C50_quadratic_R"
   ],
   "note": "Over ideal reals."
  },
  {
   "property": "C51",
   "status": "proved",
   "theorems": [
    "C51_intersection_line_R",
    "C51_nearly_horizontal_refuted"
   ],
   "note": "Over ideal reals; exact for the line the code works with (an x coefficient below 1e-6 is treated as 0), with a witness that this differs from the given line."
  },
  {
   "property": "C52",
   "status": "proved",
   "theorems": [
    "C52_intersection_seg",
    "C52_intersection_seg_raise",
    "C52_intersection_ray_R"
   ],
   "note": "Segments in every arithmetic, rays over ideal reals."
  },
  {
   "property": "C53",
   "status": "proved",
   "theorems": [
    "C53_intersection_circle_R",
    "C53_same_center_refuted"
   ],
   "note": "Over ideal reals; concentric circles and center x-distances strictly between 0 and 5e-7 are excluded from the completeness claim."
  },
  {
   "property": "C54",
   "status": "proved",
   "theorems": [
    "C54_circum_circle_R",
    "C54_circum_circle_contains_R"
   ],
   "note": "Over ideal reals."
  },
  {
   "property": "C55",
   "status": "proved",
   "theorems": [
    "C55_never_inverted_R",
    "C55_never_inverted_F"
   ],
   "note": "Over ideal reals and in binary64 (there: not negative, NaN allowed), by induction over histories."
  },
  {
   "property": "C56",
   "status": "proved",
   "theorems": [
    "C56_contains_R",
    "C56_diagonal_R",
    "C56_contains_almost_raises"
   ],
   "note": "Over ideal reals; contains_almost raises in every arithmetic."
  },
  {
   "property": "C57",
   "status": "proved",
   "theorems": [
    "C57_move_R"
   ],
   "note": "Over ideal reals."
  },
  {
   "property": "C58",
   "status": "proved",
   "theorems": [
    "C58_set_side_R"
   ],
   "note": "Over ideal reals."
  },
  {
   "property": "C59",
   "status": "proved",
   "theorems": [
    "C59_set_corner_R",
    "C59_set_corner_refuted"
   ],
   "note": "Over ideal reals: exact behaviour and a counterexample to the documented contract."
  },
  {
   "property": "C60",
   "status": "proved",
   "theorems": [
    "C60_two_corners_R",
    "C60_corners_not_contained_refuted"
   ],
   "note": "Over ideal reals."
  },
  {
   "property": "C61",
   "status": "proved",
   "theorems": [
    "C61_intersected_R",
    "C61_no_overlap_refuted"
   ],
   "note": "Over ideal reals."
  },
  {
   "property": "C62",
   "status": "proved",
   "theorems": [
    "C62_united_R"
   ],
   "note": "Over ideal reals."
  },
  {
   "property": "C63",
   "status": "proved",
   "theorems": [
    "C63_intersection_line_R",
    "C63_meets_reported_R",
    "C63_complete_R",
    "C63_corner_refuted",
    "C63_intersection_seg",
    "C63_intersection_ray_R",
    "C63_intersection_other_raises"
   ],
   "note": "Over ideal reals; the segment filter and the exception in every arithmetic."
  },
  {
   "property": "C64",
   "status": "proved",
   "theorems": [
    "C64_from_center_R",
    "C64_from_center_forms"
   ],
   "note": "Over ideal reals."
  },
  {
   "property": "C65",
   "status": "proved",
   "theorems": [
    "C65_contains_R",
    "C65_full_turn_refuted"
   ],
   "note": "Over ideal reals."
  },
  {
   "property": "C66",
   "status": "proved",
   "theorems": [
    "C66_radii_R",
    "C66_eq_R"
   ],
   "note": "Over ideal reals."
  },
  {
   "property": "C67",
   "status": "proved",
   "theorems": [
    "C67_bounding_box_R",
    "C67_center_R",
    "C67_empty_raises"
   ],
   "note": "Over ideal reals; the exception in every arithmetic."
  },
  {
   "property": "C68",
   "status": "proved",
   "theorems": [
    "C68_area_R",
    "C68_rotation_R",
    "C68_reversal_R",
    "C68_translation_R",
    "C68_cut_R",
    "C68_triangle_R"
   ],
   "note": "Over ideal reals."
  },
  {
   "property": "C69",
   "status": "proved",
   "theorems": [
    "C69_parity_R",
    "C69_start_orientation_R"
   ],
   "note": "Over ideal reals."
  },
  {
   "property": "C70",
   "status": "proved",
   "theorems": [
    "C70_contains_R",
    "C70_vertices_R",
    "C70_edge_point_refuted",
    "C70_boundary_excluded_R",
    "C70_repeated_vertex_refuted"
   ],
   "note": "Over ideal reals."
  },
  {
   "property": "C71",
   "status": "proved",
   "theorems": [
    "C71_convex_R",
    "C71_triangle_R"
   ],
   "note": "Over ideal reals."
  },
  {
   "property": "C72",
   "status": "proved",
   "theorems": [
    "C72_outline_dist_R",
    "C72_plane_dist"
   ],
   "note": "Over ideal reals; the plane variant in every arithmetic."
  },
  {
   "property": "C73",
   "status": "proved",
   "theorems": [
    "C73_only_inside_R",
    "C73_halfplane_R",
    "C73_stop_refuted",
    "C73_rect_R",
    "C73_bottom_refuted",
    "C73_empty"
   ],
   "note": "Over ideal reals; the empty polygon in every arithmetic."
  },
  {
   "property": "C74",
   "status": "proved",
   "theorems": [
    "C74_wrapping_R"
   ],
   "note": "Over ideal reals."
  },
  {
   "property": "C75",
   "status": "proved",
   "theorems": [
    "C75_convex_hull_R",
    "C75_collinear_refuted"
   ],
   "note": "Over ideal reals."
  },
  {
   "property": "C76",
   "status": "proved",
   "theorems": [
    "C76_graham_destroys",
    "C76_graham_drops_points"
   ],
   "note": "In every arithmetic, for every sort, by induction over call histories."
  },
  {
   "property": "C77",
   "status": "proved",
   "theorems": [
    "C77_graham_misses_F",
    "C77_graham_keeps_inner_F",
    "C77_graham_raises_R"
   ],
   "note": "Witnesses in binary64 with the model of CPython list.sort, for every libm; the exception over ideal reals."
  },
  {
   "property": "C78",
   "status": "proved",
   "theorems": [
    "C78_list2set_R"
   ],
   "note": "Over ideal reals."
  },
  {
   "property": "C79",
   "status": "proved",
   "theorems": [
    "C79_composition_R"
   ],
   "note": "Over ideal reals."
  },
  {
   "property": "C80",
   "status": "proved",
   "theorems": [
    "C80_inverted_R"
   ],
   "note": "Over ideal reals."
  },
  {
   "property": "C81",
   "status": "proved",
   "theorems": [
    "C81_premultiply_R"
   ],
   "note": "Over ideal reals."
  },
  {
   "property": "C82",
   "status": "proved",
   "theorems": [
    "C82_det_R"
   ],
   "note": "Over ideal reals."
  },
  {
   "property": "C83",
   "status": "proved",
   "theorems": [
    "C83_overwrites",
    "C83_product_R",
    "C83_reuse_refuted"
   ],
   "note": "Heap model; the overwrite in every arithmetic, products over ideal reals."
  },
  {
   "property": "C84",
   "status": "proved",
   "theorems": [
    "C84_eq_R",
    "C84_refuted_F",
    "C84_false_equal_R"
   ],
   "note": "Over ideal reals, witness also in binary64."
  },
  {
   "property": "C85",
   "status": "proved",
   "theorems": [
    "C85_inertia_R"
   ],
   "note": "Over ideal reals, by induction on the number of steps."
  },
  {
   "property": "C86",
   "status": "proved",
   "theorems": [
    "C86_final_R"
   ],
   "note": "Over ideal reals."
  },
  {
   "property": "C87",
   "status": "proved",
   "theorems": [
    "C87_final_speed_R"
   ],
   "note": "Over ideal reals."
  },
  {
   "property": "C88",
   "status": "proved",
   "theorems": [
    "C88_dir_rate_R"
   ],
   "note": "Over ideal reals."
  },
  {
   "property": "C89",
   "status": "proved",
   "theorems": [
    "C89_kick_rate_R",
    "C89_margin_zero_raises_R"
   ],
   "note": "Over ideal reals."
  },
  {
   "property": "C90",
   "status": "proved",
   "theorems": [
    "C90_first_term_R",
    "C90_first_term_raises_R",
    "C90_length_R",
    "C90_length_guards_R"
   ],
   "note": "Over ideal reals."
  },
  {
   "property": "C91",
   "status": "proved",
   "theorems": [
    "C91_clamp_R",
    "C91_clamp_F"
   ],
   "note": "Over ideal reals and for all doubles other than NaN."
  },
  {
   "property": "C92",
   "status": "proved",
   "theorems": [
    "C92_f_range_R",
    "C92_defaults_R",
    "C92_below_stop",
    "C92_stuck_F"
   ],
   "note": "Over ideal reals; the bound in every arithmetic; the endless run in binary64."
  },
  {
   "property": "C93",
   "status": "proved",
   "theorems": [
    "C93_r_int_R",
    "C93_ties_R",
    "C93_r_int_F",
    "C93_refuted_F",
    "C93_large_F"
   ],
   "note": "Over ideal reals and in binary64."
  },
  {
   "property": "C94",
   "status": "proved",
   "theorems": [
    "C94_quantize_R"
   ],
   "note": "Over ideal reals."
  },
  {
   "property": "C95",
   "status": "proved",
   "theorems": [
    "C95_unquantize_R"
   ],
   "note": "Over ideal reals."
  },
  {
   "property": "C96",
   "status": "proved",
   "theorems": [
    "C96_wind_R"
   ],
   "note": "Over ideal reals."
  },
  {
   "property": "C97",
   "status": "proved",
   "theorems": [
    "C97_area_F",
    "C97_exist_intersection_F",
    "C97_tiny_refuted_F",
    "C97_rounding_refuted_F"
   ],
   "note": "In binary64, for every libm."
  },
  {
   "property": "C98",
   "status": "proved",
   "theorems": [
    "C98_bounding_box_F"
   ],
   "note": "In binary64, for every libm."
  },
  {
   "property": "C99",
   "status": "proved",
   "theorems": [
    "C99_wrapping_edges_R"
   ],
   "note": "Over ideal reals."
  },
  {
   "property": "C102",
   "status": "proved",
   "theorems": [
    "C102_direct_R",
    "C102_direct_any_R",
    "C102_collinear_refuted"
   ],
   "note": "Over ideal reals. With collinear points the reported edges need not be hull sides: refuted, and what still holds is proved."
  },
  {
   "property": "C103",
   "status": "proved",
   "theorems": [
    "C103_dist_error_R",
    "C103_same_seen_R",
    "C103_domain_R"
   ],
   "note": "Over ideal reals."
  },
  {
   "property": "C104",
   "status": "proved",
   "theorems": [
    "C104_effective_turn_R"
   ],
   "note": "Over ideal reals."
  },
  {
   "property": "C105",
   "status": "proved",
   "theorems": [
    "C105_copying_programs",
    "C105_vector_operators_R"
   ],
   "note": "Every arithmetic. Programs over the calls of M_Obj.v (Vector2D, AngleDeg, Size2D, Segment2D, Rect2D, Triangle2D, Circle2D, Ray2D, Sector2D, Polygon2D)."
  },
  {
   "property": "C106",
   "status": "proved",
   "theorems": [
    "C106_only_receiver_changes"
   ],
   "note": "Every arithmetic."
  },
  {
   "property": "C107",
   "status": "proved",
   "theorems": [
    "C107_size_object_shared",
    "C107_two_rects_one_size",
    "C107_underscore_accessors"
   ],
   "note": "Every arithmetic."
  },
  {
   "property": "C108",
   "status": "proved",
   "theorems": [
    "C108_nearest_point_shares_R",
    "C108_projection_shares_R"
   ],
   "note": "Over ideal reals."
  },
  {
   "property": "C109",
   "status": "proved",
   "theorems": [
    "C109_polygon_of_list_shares_vertices",
    "C109_assign_shares",
    "C109_add_vertex_shares",
    "C109_vertices_shares",
    "C109_hull_keeps_the_list",
    "C109_assign_empty"
   ],
   "note": "Every arithmetic."
  },
  {
   "property": "C110",
   "status": "proved",
   "theorems": [
    "C110_self_intersected_R",
    "C110_self_united_R",
    "C110_intersected_shared_size"
   ],
   "note": "First two over ideal reals, third for every arithmetic."
  },
  {
   "property": "C100",
   "status": "proved",
   "theorems": [
    "C100_angle_bisector_R"
   ],
   "note": "Over ideal reals."
  },
  {
   "property": "C101",
   "status": "proved",
   "theorems": [
    "C101_ray_eq_R",
    "C101_ray_eq_refuted"
   ],
   "note": "Over ideal reals."
  },
  {
   "property": "C111",
   "status": "proved",
   "theorems": [
    "C111_compare_R",
    "C111_half_plane_order_R",
    "C111_not_an_order_refuted"
   ],
   "note": "Over ideal reals."
  },
  {
   "property": "C112",
   "status": "proved",
   "theorems": [
    "C112_parity_F",
    "C112_convex_F",
    "C112_vertices_F",
    "C112_closed_F",
    "C112_boundary_excluded_F"
   ],
   "note": "IEEE binary64 (Flocq), every libm."
  },
  {
   "property": "C113",
   "status": "proved",
   "theorems": [
    "C113_contains_F",
    "C113_area_F"
   ],
   "note": "IEEE binary64 (Flocq), every libm."
  },
  {
   "property": "C114",
   "status": "proved",
   "theorems": [
    "C114_convex_hull_F"
   ],
   "note": "IEEE binary64 (Flocq), every libm."
  },
  {
   "property": "C115",
   "status": "proved",
   "theorems": [
    "C115_area_F"
   ],
   "note": "IEEE binary64 (Flocq), every libm."
  },
  {
   "property": "C116",
   "status": "proved",
   "theorems": [
    "C116_orientation_F",
    "C116_exist_intersection_F",
    "C116_triangle_contains_F",
    "C116_polygon_area_F"
   ],
   "note": "IEEE binary64 (Flocq), every libm."
  },
  {
   "property": "C117",
   "status": "proved",
   "theorems": [
    "C117_history",
    "C117_moves_R",
    "C117_abs_R",
    "C117_equals_R",
    "C117_idiv_R"
   ],
   "note": "C117_history holds in any arithmetic."
  },
  {
   "property": "C118",
   "status": "proved",
   "theorems": [
    "C118_rect_history_R"
   ],
   "note": "Ideal reals."
  },
  {
   "property": "C119",
   "status": "proved",
   "theorems": [
    "C119_copies_R",
    "C119_polygon",
    "C119_triangle"
   ],
   "note": "Dispatch in any arithmetic, copies over ideal reals."
  },
  {
   "property": "C120",
   "status": "proved",
   "theorems": [
    "C120_segments_R",
    "C120_sizes_R"
   ],
   "note": "Ideal reals."
  },
  {
   "property": "C121",
   "status": "proved",
   "theorems": [
    "C121_programs_R",
    "C121_stops_R"
   ],
   "note": "Ideal reals; objects with identity and aliasing."
  },
  {
   "property": "C122",
   "status": "proved",
   "theorems": [
    "C122_hull_shares_points",
    "C122_accessors"
   ],
   "note": "Any arithmetic; object heap."
  },
  {
   "property": "C123",
   "status": "proved",
   "theorems": [
    "C123_convex_hull_margin_F"
   ],
   "note": "binary64, any libm."
  },
  {
   "property": "C124",
   "status": "proved",
   "theorems": [
    "C124_graham_R",
    "C124_python_sort"
   ],
   "note": "Ideal coordinates. The restriction to inputs hanging from the origin is part of the claim: elsewhere the scan is wrong (C76, C77). C124_python_sort: the sort the scan uses sorts."
  },
  {
   "property": "C125",
   "status": "proved",
   "theorems": [
    "C125_sort_keys",
    "C125_sort_keys_R",
    "C125_irreflexive_refuted"
   ],
   "note": "Any arithmetic for the relations between the operators; ideal coordinates for their meaning."
  },
  {
   "property": "C126",
   "status": "proved",
   "theorems": [
    "C126_copies_R"
   ],
   "note": "Ideal coordinates."
  },
  {
   "property": "C127",
   "status": "proved",
   "theorems": [
    "C127_line_forms"
   ],
   "note": "Any arithmetic; a bool counts as a number."
  },
  {
   "property": "C128",
   "status": "proved",
   "theorems": [
    "C128_triangle_ray_R",
    "C128_from_inside_refuted"
   ],
   "note": "Ideal coordinates. The contract of a ray/triangle intersection is refuted by a ray from inside."
  },
  {
   "property": "C129",
   "status": "proved",
   "theorems": [
    "C129_repr_identifies",
    "C129_repr_angles",
    "C129_words"
   ],
   "note": "CPython's str() of numbers is a parameter with the two stated facts; numbers of mixed types (1 and 1.0) are one type in the model."
  },
  {
   "property": "C130",
   "status": "proved",
   "theorems": [
    "C130_to_str",
    "C130_words"
   ],
   "note": "round() is a parameter. The contract (append to the string) is violated by three of the four classes."
  },
  {
   "property": "C131",
   "status": "proved",
   "theorems": [
    "C131_hash",
    "C131_unhashable"
   ],
   "note": "CPython's hashes are parameters with the stated fact. Sets are modelled as lists of (stored hash, object)."
  },
  {
   "property": "C132",
   "status": "proved",
   "theorems": [
    "C132_history_accuracy_F"
   ],
   "note": "doubles, any libm"
  },
  {
   "property": "C133",
   "status": "proved",
   "theorems": [
    "C133_side_tests_F",
    "C133_is_within_F",
    "C133_agree_F",
    "C133_trichotomy_refuted_F"
   ],
   "note": "doubles, any libm. The trichotomy of C06 fails in the window; the exact rule is proved."
  },
  {
   "property": "C134",
   "status": "proved",
   "theorems": [
    "C134_symmetry_F"
   ],
   "note": "doubles; pow even is a hypothesis on the C library"
  },
  {
   "property": "C135",
   "status": "proved",
   "theorems": [
    "C135_length_F",
    "C135_range_refuted_F"
   ],
   "note": "doubles, any libm"
  },
  {
   "property": "C136",
   "status": "proved",
   "theorems": [
    "C136_dist_F",
    "C136_triangle_order_F"
   ],
   "note": "doubles; the accuracy of pow(x,2) is a hypothesis on the C library, met by a multiplication (C136_nonvacuous)"
  },
  {
   "property": "C137",
   "status": "proved",
   "theorems": [
    "C137_circle_contains_F"
   ],
   "note": "as C136"
  },
  {
   "property": "C138",
   "status": "proved",
   "theorems": [
    "C138_corners_F"
   ],
   "note": "doubles, any libm"
  },
  {
   "property": "C139",
   "status": "proved",
   "theorems": [
    "C139_moves_F",
    "C139_exact_refuted_F"
   ],
   "note": "doubles, any libm; exactness of the far moves is violated"
  },
  {
   "property": "C140",
   "status": "proved",
   "theorems": [
    "C140_graham_margin_F"
   ],
   "note": "doubles; the accuracy of pow(x,2) is a hypothesis on the C library"
  },
  {
   "property": "C141",
   "status": "proved",
   "theorems": [
    "C141_direct_margin_F"
   ],
   "note": "doubles; the sort only has to return a rearrangement (shown of CPython's under pow_accurate: angle_lt_total, py_sort_small_total)"
  },
  {
   "property": "C142",
   "status": "proved",
   "theorems": [
    "C142_trig_F",
    "C142_from_polar_F",
    "C142_rotate_F",
    "C142_rotations_F"
   ],
   "note": "doubles; trig_accurate is a hypothesis on the C library (met by the correctly rounded one)"
  },
  {
   "property": "C143",
   "status": "proved",
   "theorems": [
    "C143_th_F",
    "C143_polar_roundtrip_F"
   ],
   "note": "doubles; atan2_accurate and trig_accurate are hypotheses on the C library"
  },
  {
   "property": "C144",
   "status": "proved",
   "theorems": [
    "C144_intersection_F",
    "C144_parallel_F",
    "C144_projection_F",
    "C144_orthocenter_F",
    "C144_dist_F"
   ],
   "note": "doubles, every libm"
  },
  {
   "property": "C145",
   "status": "proved",
   "theorems": [
    "C145_nearest_point_F",
    "C145_dist_F"
   ],
   "note": "doubles; the dist theorem assumes pow_square of the C library: C136's accuracy of squares, and squares are not negative"
  },
  {
   "property": "C146",
   "status": "proved",
   "theorems": [
    "C146_transform_F",
    "C146_product_F",
    "C146_translate_F",
    "C146_scale_F",
    "C146_rotation_F",
    "C146_inverse_F",
    "C146_integers_F"
   ],
   "note": "doubles; the rotation theorem assumes trig_accurate of the C library (C142)"
  },
  {
   "property": "C147",
   "status": "proved",
   "theorems": [
    "C147_coast_F",
    "C147_final_F",
    "C147_final_speed_F",
    "C147_effective_turn_F",
    "C147_kick_rate_F",
    "C147_dir_rate_F"
   ],
   "note": "doubles; C147_coast_F assumes pow_unit of the C library: powers of numbers in [0,1] within 2^-52"
  },
  {
   "property": "C148",
   "status": "proved",
   "theorems": [
    "C148_effective_turn_F",
    "C148_kick_rate_F"
   ],
   "note": "doubles, no assumption on the C library"
  },
  {
   "property": "C149",
   "status": "proved",
   "theorems": [
    "C149_contains_F",
    "C149_hit_F",
    "C149_miss_F"
   ],
   "note": "doubles, no assumption on the C library"
  },
  {
   "property": "C150",
   "status": "proved",
   "theorems": [
    "C150_quantize_F",
    "C150_monotone_F",
    "C150_unquantize_F"
   ],
   "note": "doubles, no assumption on the C library; r_int from C93_r_int_F"
  },
  {
   "property": "C151",
   "status": "proved",
   "theorems": [
    "C151_quadratic_F"
   ],
   "note": "doubles; no assumption on the C library (sqrt is correctly rounded in IEEE 754)"
  },
  {
   "property": "C152",
   "status": "proved",
   "theorems": [
    "C152_line_F",
    "C152_level_F"
   ],
   "note": "doubles; the C library's pow assumed accurate to 2^-52 when squaring"
  },
  {
   "property": "C153",
   "status": "proved",
   "theorems": [
    "C153_get_x_F",
    "C153_get_y_F"
   ],
   "note": "doubles, no assumption on the C library"
  },
  {
   "property": "C154",
   "status": "proved",
   "theorems": [
    "C154_set_length_F",
    "C154_normalize_F"
   ],
   "note": "doubles, no assumption on the C library"
  },
  {
   "property": "C155",
   "status": "proved",
   "theorems": [
    "C155_parity_F",
    "C155_convex_F"
   ],
   "note": "doubles, no assumption on the C library"
  },
  {
   "property": "C156",
   "status": "proved",
   "theorems": [
    "C156_bisect_F",
    "C156_bisect_numbers_F"
   ],
   "note": "doubles, no assumption on the C library"
  },
  {
   "property": "C157",
   "status": "proved",
   "theorems": [
    "C157_contains_F",
    "C157_constructed_F"
   ],
   "note": "doubles; atan2 of the C library accurate to 2^-51"
  },
  {
   "property": "C158",
   "status": "proved",
   "theorems": [
    "C158_outline_dist_F",
    "C158_plane_dist_F",
    "C158_seg_dist_F",
    "C158_farthest_dist_F"
   ],
   "note": "doubles; squares by pow accurate and not negative"
  },
  {
   "property": "C159",
   "status": "proved",
   "theorems": [
    "C159_bisector_F",
    "C159_circumcenter_F",
    "C159_circum_circle_F",
    "C159_collinear_F",
    "C159_contains_F"
   ],
   "note": "doubles; the radius needs squares by pow accurate and not negative, contains only accurate ones"
  },
  {
   "property": "C160",
   "status": "proved",
   "theorems": [
    "C160_vector_forms",
    "C160_angle_forms",
    "C160_ray_forms",
    "C160_rect_forms"
   ],
   "note": "any number type; equivalences, so both the accepted forms and the refusals"
  },
  {
   "property": "C161",
   "status": "proved",
   "theorems": [
    "C161_set_side_F"
   ],
   "note": "doubles; the far side is recomputed as near side plus length, hence only nearly equal"
  },
  {
   "property": "C162",
   "status": "proved",
   "theorems": [
    "C162_intersected_F"
   ],
   "note": "doubles; complements C61 (ideal reals)"
  },
  {
   "property": "C163",
   "status": "proved",
   "theorems": [
    "C163_arith_F",
    "C163_laws_refuted_F"
   ],
   "note": "doubles; gradual underflow makes a difference vanish only between equal values"
  },
  {
   "property": "C164",
   "status": "proved",
   "theorems": [
    "C164_weak_equality_F",
    "C164_determinant_tests_F"
   ],
   "note": "doubles; 'decides b x t m' says b answers x < t whenever x is not within m of t"
  },
  {
   "property": "C165",
   "status": "proved",
   "theorems": [
    "C165_projection_F"
   ],
   "note": "doubles; the exact foot is specified by perpendicularity, not by the code's formula"
  },
  {
   "property": "C166",
   "status": "proved",
   "theorems": [
    "C166_in_right_dir_F",
    "C166_intersection_line_F",
    "C166_intersection_ray_F",
    "C166_parallel_F"
   ],
   "note": "doubles; libm only assumed accurate"
  },
  {
   "property": "C167",
   "status": "proved",
   "theorems": [
    "C167_sector_F",
    "C167_area_F",
    "C167_segment_F"
   ],
   "note": "doubles; beyond 360 - 2^-44 degrees the difference of the two directions can round to a whole turn, which the code reads as an empty sector"
  },
  {
   "property": "C168",
   "status": "proved",
   "theorems": [
    "C168_angle_bisector_F",
    "C168_incenter_F"
   ],
   "note": "doubles; vertices at least 2^-18 apart and bisectors at least 2/999999 apart in sine, so that the parallel test cannot fire"
  },
  {
   "property": "C169",
   "status": "proved",
   "theorems": [
    "C169_set_polar_F",
    "C169_set_dir_F",
    "C169_rotated_vector_F",
    "C169_segment_F",
    "C169_ray_F",
    "C169_matrix_rotate_F"
   ],
   "note": "doubles; rotations of plain numbers up to 512 degrees, other directions given as numbers are unbounded"
  },
  {
   "property": "C170",
   "status": "proved",
   "theorems": [
    "C170_scale_F",
    "C170_exact_F"
   ],
   "note": "doubles"
  },
  {
   "property": "C171",
   "status": "proved",
   "theorems": [
    "C171_rect_line_F",
    "C171_rect_segment_F"
   ],
   "note": "doubles"
  },
  {
   "property": "C172",
   "status": "proved",
   "theorems": [
    "C172_segment_line_F",
    "C172_triangle_line_F"
   ],
   "note": "doubles"
  },
  {
   "property": "C173",
   "status": "proved",
   "theorems": [
    "C173_acos_F",
    "C173_asin_F",
    "C173_atan_F",
    "C173_tan_F"
   ],
   "note": "doubles; accuracy of acos/asin/atan/tan is a hypothesis on the C library, met by a correctly rounding one"
  },
  {
   "property": "C174",
   "status": "proved",
   "theorems": [
    "C174_segment_F",
    "C174_ray_F",
    "C174_circle_F"
   ],
   "note": "The error bound is stated through the half chord h, the slope bound p and the distance dl the computed line may be off."
  },
  {
   "property": "C175",
   "status": "proved",
   "theorems": [
    "C175_plain_F",
    "C175_angle_init_F",
    "C175_angles_F",
    "C175_directions_F",
    "C175_distances_F",
    "C175_polygons_F",
    "C175_circles_F",
    "C175_hull_F",
    "C175_line_dist_F",
    "C175_line_dist_refuted",
    "C175_dist_overflow_refuted"
   ],
   "note": "Sanity of the C library: trig_sane (sin and cos of a finite number finite and at most 4, atan2 NaN or at most 4 in size), pow_sane (pow(x,2) never negative, finite up to 2^501); both met by the correctly rounded library. Argument-type errors are C160 and the dispatch theorems; the triangle against a line (IndexError) is C47; the Graham scan is C177."
  },
  {
   "property": "C176",
   "status": "proved",
   "theorems": [
    "C176_set_corner_F",
    "C176_united_F",
    "C176_two_corners_F"
   ],
   "note": "Double-precision counterpart of C59, C60 and C62; up to rounding means an absolute error of at most 2^(k-50) for coordinates and sizes up to 2^k."
  },
  {
   "property": "C177",
   "status": "proved",
   "theorems": [
    "C177_distinct_R",
    "C177_distinct_F",
    "C177_ends_R",
    "C177_ends_F",
    "C177_copies_raise_R",
    "C177_copies_raise_F",
    "C177_python_sort"
   ],
   "note": "The scan can walk its index below zero, where Python lists wrap round; with distinct points it then always stops at the pair made of the new point and its successor. The sort is any function that returns a rearrangement; C177_python_sort shows that list.sort with the library's comparison is one for fewer than 64 points."
  },
  {
   "property": "C178",
   "status": "proved",
   "theorems": [
    "C178_on_segment_grid_F",
    "C178_on_segment_axis_F",
    "C178_on_segment_any_F",
    "C178_on_segment_refuted_F",
    "C178_equality_F",
    "C178_perpendicular_F"
   ],
   "note": "Double-precision counterpart of C35. C178_on_segment_refuted_F gives a segment with coordinates below 32 and a double exactly on it that is missed, and one off it that is reported."
  },
  {
   "property": "C179",
   "status": "proved",
   "theorems": [
    "C179_rect_ray_F",
    "C179_triangle_ray_F"
   ],
   "note": "Double-precision counterpart for rays of C171 and C172 (lines); circles and rays are C174."
  },
  {
   "property": "C180",
   "status": "proved",
   "theorems": [
    "C180_clip_F",
    "C180_axis_F",
    "C180_rect_whole_F",
    "C180_touching_refuted_F"
   ],
   "note": "Double-precision counterpart of C73. The bottom clip inside get_rectangle_clipped_polygon uses the line of the top side (C73); the touching case shows what that does to polygons that reach exactly to the bottom."
  },
  {
   "property": "C181",
   "status": "proved",
   "theorems": [
    "C181_never_F",
    "C181_ends_or_sticks_F",
    "C181_values_F",
    "C181_exact_F",
    "C181_tenths_refuted_F",
    "C181_infinite_stop_F",
    "C181_infinite_F",
    "C181_counting_F"
   ],
   "note": "Double-precision counterpart of C92 (which has one endless run), with infinities and NaN."
  },
  {
   "property": "C182",
   "status": "proved",
   "theorems": [
    "C182_divisions_F",
    "C182_rounding_F",
    "C182_coast_F",
    "C182_powers_F",
    "C182_series_F",
    "C182_seen_F",
    "C182_wind_F"
   ],
   "note": "Counterpart of C175 for soccer_math. Not covered: powers between 2^1023 and 2^1025, ratios whose power is within 2^-51 of 1 in calc_first_term_geom_series, distances beyond 2^600."
  },
  {
   "property": "C183",
   "status": "proved",
   "theorems": [
    "C183_seen_F",
    "C183_same_seen_F",
    "C183_monotone_F"
   ],
   "note": "Counterpart in doubles of C103."
  },
  {
   "property": "C184",
   "status": "proved",
   "theorems": [
    "C184_first_term_F",
    "C184_length_F",
    "C184_guards_F"
   ],
   "note": "Counterpart in doubles of C90."
  },
  {
   "property": "C185",
   "status": "proved",
   "theorems": [
    "C185_wind_F"
   ],
   "note": "Counterpart in doubles of C96; when it returns is C182_wind_F."
  },
  {
   "property": "C186",
   "status": "proved",
   "theorems": [
    "C186_dist2_F",
    "C186_box_center_F",
    "C186_from_center_F"
   ],
   "note": "Counterpart of C144 for the squared distance, and of the ideal-real properties of boxes."
  },
  {
   "property": "C187",
   "status": "proved",
   "theorems": [
    "C187_angle_eq_F",
    "C187_ray_eq_F",
    "C187_sector_eq_F",
    "C187_speed_limit_F"
   ],
   "note": "Counterpart in doubles of C10 and C101. Sector2D.radius_max returns the small radius, which is why a sector does not equal itself."
  },
  {
   "property": "C188",
   "status": "proved",
   "theorems": [
    "C188_track_F",
    "C188_coast_F"
   ],
   "note": "The loop is a client program built from the in-place operators. Counterpart in doubles of the agreement of iteration and closed form (C147 gives the closed form alone)."
  },
  {
   "property": "C189",
   "status": "proved",
   "theorems": [
    "C189_vector_F",
    "C189_matrix_F",
    "C189_agree_F"
   ],
   "note": "Counterpart in doubles of the ideal-real properties of matrix histories; C142 covers turns of a vector alone."
  },
  {
   "property": "C190",
   "status": "proved",
   "theorems": [
    "C190_hull_history",
    "C190_graham_takes_the_list",
    "C190_add_own_points"
   ],
   "note": "The points must be == to themselves (no NaN), which matters only for list2set's membership test. add_points never ending is stated as: whatever number of turns is allowed, the loop asks for one more."
  },
  {
   "property": "C191",
   "status": "proved",
   "theorems": [
    "C191_clip_shares",
    "C191_inside_keeps_vertices"
   ],
   "note": "A polygon with an empty vertex list gives a new default polygon (C73_empty)."
  },
  {
   "property": "C192",
   "status": "proved",
   "theorems": [
    "C192_agrees",
    "C192_outcome_F",
    "C192_damaged_F",
    "C192_history_F",
    "C192_history_R"
   ],
   "note": "trig_inf: sin, cos and tan of an infinity are NaN in the C library, so math.sin raises ValueError."
  },
  {
   "property": "C193",
   "status": "proved",
   "theorems": [
    "C193_vector_agrees",
    "C193_vector_R",
    "C193_vector_F",
    "C193_add_moves_x_refuted",
    "C193_segment",
    "C193_triangle",
    "C193_size",
    "C193_rect",
    "C193_rect_set_size",
    "C193_circle",
    "C193_sector"
   ],
   "note": "A vector whose coordinates are damaged angles is covered: rotate by an infinite angle raises and changes nothing."
  },
  {
   "property": "C194",
   "status": "proved",
   "theorems": [
    "C194_agrees",
    "C194_wrapping_direct",
    "C194_graham",
    "C194_retry_empties",
    "C194_copies_lost_R",
    "C194_history",
    "C194_edges"
   ],
   "note": "How many edges a failed compute leaves is stated for the Graham scan only."
  },
  {
   "property": "C195",
   "status": "proved",
   "theorems": [
    "C195_orientation",
    "C195_orientation_float_refuted",
    "C195_products",
    "C195_triangle",
    "C195_segments",
    "C195_on_segment",
    "C195_hull"
   ],
   "note": "The number instance NumP reads whole-valued literals as ints; in the functions claimed here they are only compared with, where it makes no difference."
  },
  {
   "property": "C196",
   "status": "proved",
   "theorems": [
    "C196_angle",
    "C196_angle_refuted",
    "C196_no_drift",
    "C196_left_behind",
    "C196_length"
   ],
   "note": "The theorems speak of the value of the degree, not of its type: the code's 360.0 makes it a float where NumP has an int."
  },
  {
   "property": "C197",
   "status": "proved",
   "theorems": [
    "C197_same",
    "C197_direction_refuted"
   ],
   "note": "The second theorem is about a contract the code violates for a user who expects 1 and 1.0 to be interchangeable."
  },
  {
   "property": "C198",
   "status": "proved",
   "theorems": [
    "C198_nan_point_F",
    "C198_nan_shape_F",
    "C198_nan_angle_F",
    "C198_bounding_box_F",
    "C198_minus_infinity_F",
    "C198_agrees_F",
    "C198_nan_dist_F",
    "C198_hull_first_F",
    "C198_hull_last_F",
    "C198_hull_direct_F"
   ],
   "note": "C198_agrees_F ties M_PolyF to M_Polygon on finite vertices (for dist: as long as no distance to an edge is NaN)."
  },
  {
   "property": "C199",
   "status": "proved",
   "theorems": [
    "C199_measures_F",
    "C199_tests_F",
    "C199_polygon_F",
    "C199_nearest_F",
    "C199_distance_F",
    "C199_lines_F",
    "C199_distances_F",
    "C199_tolerance_refuted_F"
   ],
   "note": "C199_distance_F, C199_distances_F: pow(x,2) of the C library is x*x rounded once."
  },
  {
   "property": "C200",
   "status": "proved",
   "theorems": [
    "C200_measures_F",
    "C200_tests_F",
    "C200_points_F",
    "C200_distances_F",
    "C200_polygon_F",
    "C200_centres_F",
    "C200_circles_F",
    "C200_contains_refuted_F"
   ],
   "note": "Two zeros of different sign count as the same coordinate."
  },
  {
   "property": "C201",
   "status": "proved",
   "theorems": [
    "C201_measures_F",
    "C201_tests_F",
    "C201_points_F",
    "C201_distances_F",
    "C201_centres_F",
    "C201_polygon_F",
    "C201_on_segment_refuted_F"
   ],
   "note": "Two zeros of different sign count as the same coordinate. Where both pow calls raise, the exchanged call may raise the other coordinate's exception."
  },
  {
   "property": "C202",
   "status": "proved",
   "theorems": [
    "C202_angles_F",
    "C202_sides_F",
    "C202_rotate_F",
    "C202_sector_F",
    "C202_reverse_refuted_F"
   ],
   "note": "Two zeros of different sign count as the same number of degrees. Every angle the API builds stores a number in [-180, 180] or NaN (C03)."
  },
  {
   "property": "C203",
   "status": "proved",
   "theorems": [
    "C203_coast_F",
    "C203_coast_swap_F",
    "C203_sides_F",
    "C203_line_F",
    "C203_quantize_F"
   ],
   "note": "Two zeros of different sign count as the same coordinate. From 2^53 steps on r_int itself is off (C93)."
  }
 ]
}
