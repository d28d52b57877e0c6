{
 "claims": [
  {
   "property": "C01",
   "status": "proved",
   "theorems": [
    "C01_exactly_once",
    "C01_prefix"
   ],
   "note": ""
  },
  {
   "property": "C02",
   "status": "proved",
   "theorems": [
    "C02_returns",
    "C02_terminates",
    "C02_eof_final"
   ],
   "note": ""
  },
  {
   "property": "C03",
   "status": "proved",
   "theorems": [
    "C03_buffer_safety"
   ],
   "note": ""
  },
  {
   "property": "C04",
   "status": "proved",
   "theorems": [
    "C04_consolidation",
    "C04_sections"
   ],
   "note": ""
  },
  {
   "property": "C05",
   "status": "proved",
   "theorems": [
    "C05_cache_transparent",
    "C05_evaluate_returns"
   ],
   "note": ""
  },
  {
   "property": "C06",
   "status": "proved",
   "theorems": [
    "C06_pruning_sound",
    "C06_full_grid",
    "C06_stream",
    "C06_zero_corner_refuted"
   ],
   "note": "The stronger reading (cells with a negative and a zero corner are never skipped) is refuted by C06_zero_corner_refuted."
  },
  {
   "property": "C07",
   "status": "proved",
   "theorems": [
    "C07_grid",
    "C07_limits",
    "C07_cells"
   ],
   "note": "The positions at which the field is sampled: C06_stream."
  },
  {
   "property": "C08",
   "status": "proved",
   "theorems": [
    "C08_counters"
   ],
   "note": ""
  },
  {
   "property": "C09",
   "status": "partial",
   "theorems": [
    "C09_renderall_refuted",
    "C09_renderall_partial"
   ],
   "note": "False of the code: triangles returned together with io.EOF are dropped; refuted on the octree renderer itself, proved when the final call returns none."
  },
  {
   "property": "C10",
   "status": "proved",
   "theorems": [
    "C10_fifo"
   ],
   "note": ""
  },
  {
   "property": "C11",
   "status": "proved",
   "theorems": [
    "C11_tables",
    "C11_triangles"
   ],
   "note": ""
  },
  {
   "property": "C12",
   "status": "proved",
   "theorems": [
    "C12_watertight",
    "C12_simple"
   ],
   "note": "Also proved: every directed edge occurs at most once (edge-manifold)."
  },
  {
   "property": "C13",
   "status": "proved",
   "theorems": [
    "C13_face_orientation",
    "C13_normal_outward",
    "C13_triangle_outward"
   ],
   "note": ""
  },
  {
   "property": "C14",
   "status": "proved",
   "theorems": [
    "C14_interpolation",
    "C14_triangles"
   ],
   "note": ""
  },
  {
   "property": "C15",
   "status": "partial",
   "theorems": [
    "C15_bit_identical_refuted",
    "C15_shared_vertex_real"
   ],
   "note": "False in binary64 (witness); true over the reals."
  },
  {
   "property": "C16",
   "status": "proved",
   "theorems": [
    "C16_closed"
   ],
   "note": ""
  },
  {
   "property": "C17",
   "status": "proved",
   "theorems": [
    "C17_write_stl",
    "C17_failing_writer"
   ],
   "note": ""
  },
  {
   "property": "C18",
   "status": "proved",
   "theorems": [
    "C18_round_trip"
   ],
   "note": ""
  },
  {
   "property": "C19",
   "status": "proved",
   "theorems": [
    "C19_create_same_as_write"
   ],
   "note": ""
  },
  {
   "property": "C20",
   "status": "partial",
   "theorems": [
    "C20_interrupted_partial",
    "C20_torn_refuted"
   ],
   "note": "Proved except when the final 84-byte header write itself is torn inside the count field, where it is refuted."
  },
  {
   "property": "C21",
   "status": "proved",
   "theorems": [
    "C21_rejects_malformed",
    "C21_values",
    "C21_prefix_rejected"
   ],
   "note": ""
  },
  {
   "property": "C22",
   "status": "partial",
   "theorems": [
    "C22_fragmentation_partial",
    "C22_data_with_eof_refuted"
   ],
   "note": "Proved for readers that report io.EOF separately; refuted for readers returning the last bytes together with io.EOF."
  },
  {
   "property": "C23",
   "status": "partial",
   "theorems": [
    "C23_count_partial",
    "C23_wraps_refuted"
   ],
   "note": "Proved below 2^32 triangles; refuted for a stream of 2^32."
  },
  {
   "property": "C24",
   "status": "proved",
   "theorems": [
    "C24_decodes",
    "C24_expand"
   ],
   "note": ""
  },
  {
   "property": "C25",
   "status": "proved",
   "theorems": [
    "C25_manifold_warning"
   ],
   "note": ""
  },
  {
   "property": "C26",
   "status": "proved",
   "theorems": [
    "C26_ids"
   ],
   "note": ""
  },
  {
   "property": "C27",
   "status": "proved",
   "theorems": [
    "C27_union",
    "C27_union_panics",
    "C27_union2_panics",
    "C27_union_order",
    "C27_difference",
    "C27_intersection",
    "C27_difference2",
    "C27_intersection2"
   ],
   "note": ""
  },
  {
   "property": "C28",
   "status": "proved",
   "theorems": [
    "C28_csg"
   ],
   "note": ""
  },
  {
   "property": "C29",
   "status": "partial",
   "theorems": [
    "C29_bounds_contain_partial",
    "C29_offset_refuted"
   ],
   "note": "Proved for every composition the rules solid3/solid2 build (one rule per constructor, with the conditions under which that constructor keeps the bound). Refuted in general: an offset of a solid whose field is not a distance (C29_offset_refuted); twists and over-full revolutions under C42 and C43."
  },
  {
   "property": "C30",
   "status": "partial",
   "theorems": [
    "C30_dominates_partial",
    "C30_level_sets_partial",
    "C30_extrude_refuted"
   ],
   "note": "Proved for the compositions of grade Euclid; plain extrusion does not keep the Euclidean bound (refuted), only the per-axis one, which still gives correct offset and shell Bounds (C30_level_sets_partial)."
  },
  {
   "property": "C31",
   "status": "partial",
   "theorems": [
    "C31_lipschitz_partial",
    "C31_union2d_refuted"
   ],
   "note": "Proved by induction for every composition of exact primitives and distance-preserving operations (rules fld3/fld2); Union2D and the 2D copies built on it only for members that dominate the distance to their Bounds. Refuted for Union2D with an Empty2 member."
  },
  {
   "property": "C32",
   "status": "partial",
   "theorems": [
    "C32_plain_partial",
    "C32_blend_grown_partial",
    "C32_blend_bounds_refuted"
   ],
   "note": "False for every polynomial blend radius (refuted); proved: Bounds grown by (N-1) times the depth of the blend contains the union, and plain minima respect Bounds."
  },
  {
   "property": "C33",
   "status": "proved",
   "theorems": [
    "C33_transform3",
    "C33_transform2",
    "C33_nil"
   ],
   "note": ""
  },
  {
   "property": "C34",
   "status": "proved",
   "theorems": [
    "C34_inverse44",
    "C34_inverse33",
    "C34_inverse22",
    "C34_determinant",
    "C34_monoid",
    "C34_composition",
    "C34_basic_maps"
   ],
   "note": ""
  },
  {
   "property": "C35",
   "status": "proved",
   "theorems": [
    "C35_rotate3d",
    "C35_rotate_xyz",
    "C35_rotate2d",
    "C35_mirrors"
   ],
   "note": ""
  },
  {
   "property": "C36",
   "status": "partial",
   "theorems": [
    "C36_rotate_to_vec_partial",
    "C36_opposite_refuted"
   ],
   "note": "Proved except for opposite directions, where the code returns the point reflection (refuted), and vectors shorter than epsilon in every coordinate, where it returns the identity. Within epsilon of equal directions the result is the identity."
  },
  {
   "property": "C37",
   "status": "proved",
   "theorems": [
    "C37_mulbox3",
    "C37_mulbox2"
   ],
   "note": ""
  },
  {
   "property": "C38",
   "status": "partial",
   "theorems": [
    "C38_scale_uniform_partial",
    "C38_negative_refuted"
   ],
   "note": "Proved for k > 0; for negative k the code turns the solid inside out (refuted)."
  },
  {
   "property": "C39",
   "status": "proved",
   "theorems": [
    "C39_extrude"
   ],
   "note": ""
  },
  {
   "property": "C40",
   "status": "proved",
   "theorems": [
    "C40_interpolates",
    "C40_faces",
    "C40_bounds"
   ],
   "note": ""
  },
  {
   "property": "C41",
   "status": "partial",
   "theorems": [
    "C41_twist_zero",
    "C41_twist_section",
    "C41_scale_twist_partial",
    "C41_scale_twist_refuted"
   ],
   "note": "Twist: proved. Scale-twist with twist 0 and scale (1,1) still scales the profile away from the bottom unless height is 1 (refuted); what it computes is proved."
  },
  {
   "property": "C42",
   "status": "partial",
   "theorems": [
    "C42_twist_partial",
    "C42_twist_refuted",
    "C42_scale_twist_refuted"
   ],
   "note": "Proved for profiles whose Bounds reach furthest from the axis at the corner Max; refuted for a profile to the left of the axis and for scale-twist."
  },
  {
   "property": "C43",
   "status": "partial",
   "theorems": [
    "C43_revolve_partial",
    "C43_bounds_partial",
    "C43_two_turns_refuted",
    "C43_wrap_refuted"
   ],
   "note": "Proved for theta <= 0, 0 < theta < 2 pi outside the tolerance and theta within tolerance of 2 pi; refuted beyond a full turn (theta = 4 pi: flat Bounds; theta = 3 pi: half the solid)."
  },
  {
   "property": "C44",
   "status": "proved",
   "theorems": [
    "C44_array3",
    "C44_array2",
    "C44_rotate_union3",
    "C44_rotate_union2",
    "C44_rotate_union_defined",
    "C44_rotate_copy3",
    "C44_rotate_copy2",
    "C44_none",
    "C44_array_box",
    "C44_rotate_union_box"
   ],
   "note": "RotateUnion: for every invertible affine step (no other step has copies). Plain minimum; blended minima under C32 and C76. RotateCopy2D panics for n <= 0 where the 3D version returns an empty solid."
  },
  {
   "property": "C45",
   "status": "partial",
   "theorems": [
    "C45_elongate3",
    "C45_elongate2_partial",
    "C45_elongate2_refuted"
   ],
   "note": "3D proved. Elongate2D translates by h/2 instead (refuted; what it computes and its Bounds are proved)."
  },
  {
   "property": "C46",
   "status": "proved",
   "theorems": [
    "C46_cut3",
    "C46_cut2"
   ],
   "note": "For a non-zero normal and a non-zero direction."
  },
  {
   "property": "C47",
   "status": "proved",
   "theorems": [
    "C47_slice"
   ],
   "note": "For a non-zero normal."
  },
  {
   "property": "C48",
   "status": "partial",
   "theorems": [
    "C48_line3_partial",
    "C48_line2_partial",
    "C48_multi_partial",
    "C48_orient_partial",
    "C48_single_refuted",
    "C48_unicode_refuted"
   ],
   "note": "Proved for ASCII patterns and at least two copies (2D membership for shapes inside their Bounds). Refuted: one copy panics in LineOf3D, Multi3D, Multi2D and Orient3D; non-ASCII runes shift the copies."
  },
  {
   "property": "C49",
   "status": "partial",
   "theorems": [
    "C49_culling_partial",
    "C49_inside_partial",
    "C49_empty_refuted",
    "C49_blend_refuted"
   ],
   "note": "Value: proved for members whose value dominates the distance to their Bounds, are 1-Lipschitz and have a point in Bounds (all exact shapes). Membership (value < 0): proved for all members that lie in their Bounds. Refuted for Empty2 members and for blends."
  },
  {
   "property": "C50",
   "status": "partial",
   "theorems": [
    "C50_special_cases",
    "C50_min_poly",
    "C50_chamfer_partial",
    "C50_chamfer_refuted",
    "C50_max_poly_partial",
    "C50_max_poly_refuted",
    "C50_min_round",
    "C50_min_exp"
   ],
   "note": "All proved except: the chamfer n = 0 does not equal min when |a-b| >= k and min is negative; MaxPoly for n = 0, 1 is not the dual of MinPoly (both refuted)."
  },
  {
   "property": "C51",
   "status": "proved",
   "theorems": [
    "C51_levels",
    "C51_exact",
    "C51_shell_exact"
   ],
   "note": "C51_levels for every field; for exact distance fields the offset and the shell are stated with distances."
  },
  {
   "property": "C52",
   "status": "partial",
   "theorems": [
    "C52_sections_partial",
    "C52_faces_partial",
    "C52_degenerate_partial",
    "C52_bounds_partial",
    "C52_bounds_refuted",
    "C52_nan_refuted"
   ],
   "note": "Proved for height > 2 round (sections) and round = 0 (Bounds; with rounding under C29 for profiles that dominate distance). Refuted: the accepted height = 2 round evaluates to NaN at z = 0, and with rounding a stretched profile leaves Bounds."
  },
  {
   "property": "C53",
   "status": "proved",
   "theorems": [
    "C53_extend3",
    "C53_extend2",
    "C53_include3",
    "C53_include2",
    "C53_shape3",
    "C53_centered3",
    "C53_shape2",
    "C53_vertices3",
    "C53_vertices2",
    "C53_vectors3",
    "C53_vectors2"
   ],
   "note": ""
  },
  {
   "property": "C54",
   "status": "partial",
   "theorems": [
    "C54_minmaxdist2_2d",
    "C54_maxdist2_3d",
    "C54_mindist2_3d_partial",
    "C54_mindist2_3d_refuted"
   ],
   "note": "2D exact; 3D maximum exact; 3D minimum wrong when the point is within the box along exactly one axis."
  },
  {
   "property": "C55",
   "status": "proved",
   "theorems": [
    "C55_accepts",
    "C55_centre",
    "C55_round_trip",
    "C55_mesh"
   ],
   "note": ""
  },
  {
   "property": "C56",
   "status": "partial",
   "theorems": [
    "C56_no_crossing_partial",
    "C56_result_partial",
    "C56_finds_partial",
    "C56_terminates_partial",
    "C56_result2_partial",
    "C56_sigmoid_refuted",
    "C56_epsilon2_refuted"
   ],
   "note": "Proved for sigmoid 0 and scale in (0,1]. Refuted: a positive sigmoid jumps over the surface; raycast2 with epsilon > 1/2 reports a hit too early."
  },
  {
   "property": "C57",
   "status": "partial",
   "theorems": [
    "C57_sphere",
    "C57_circle",
    "C57_box3",
    "C57_box2",
    "C57_line",
    "C57_overround_refuted"
   ],
   "note": "Proved for rounding up to half the smallest side; Box accepts larger roundings, for which the field is not a distance to any set (refuted)."
  },
  {
   "property": "C58",
   "status": "proved",
   "theorems": [
    "C58_cylinder",
    "C58_capsule",
    "C58_cone",
    "C58_cone_exact",
    "C58_cone_in_sharp"
   ],
   "note": "Cylinder and capsule: exact distance for every accepted parameter. Cone: distance to the rounded region under the slope in the (radius, z) half plane, 1-Lipschitz and inside Bounds for every accepted parameter, exact distance in space when the inset radii are not negative."
  },
  {
   "property": "C59",
   "status": "partial",
   "theorems": [
    "C59_exact_partial",
    "C59_winding_integer",
    "C59_bounds_partial",
    "C59_lipschitz_partial",
    "C59_dominates_partial",
    "C59_defined",
    "C59_gap_refuted",
    "C59_repeated_refuted"
   ],
   "note": "Proved (exact distance up to the cap sqrt(MaxFloat64), sign by winding number, Bounds, 1-Lipschitz) for vertex lists without repeated neighbours whose ends are equal or further apart than the tolerance. Refuted: ends within 1e-9 but not equal leave the loop open; a repeated vertex makes the value NaN everywhere (binary64)."
  },
  {
   "property": "C60",
   "status": "partial",
   "theorems": [
    "C60_vertices_partial",
    "C60_fillets_partial",
    "C60_calls",
    "C60_modifiers",
    "C60_chamfer",
    "C60_terminates",
    "C60_history_terminates",
    "C60_reverse",
    "C60_plain",
    "C60_arc_geometry",
    "C60_smooth_geometry",
    "C60_nil_panics",
    "C60_negative_facets_refuted",
    "C60_first_relative_refuted",
    "C60_all_relative_refuted"
   ],
   "note": "Termination for every history. The resulting vertices for positive facet counts and a first vertex with an absolute reference; the fillets for proper corners (not straight, positive radius) none of which uses up a whole edge exactly: there the code normalises a zero vector. Refuted: negative facet counts panic, a relative first vertex of an open polygon panics, an all-relative closed polygon is returned unresolved (its error is dropped)."
  },
  {
   "property": "C61",
   "status": "proved",
   "theorems": [
    "C61_nagon",
    "C61_small"
   ],
   "note": ""
  },
  {
   "property": "C62",
   "status": "partial",
   "theorems": [
    "C62_checked_partial",
    "C62_chamfered",
    "C62_chamfered_nil_refuted",
    "C62_nagon_no_error_refuted"
   ],
   "note": "Every form constructor with the recover wrapper: proved. Refuted: ChamferedCylinder panics for a nil solid; Nagon with fewer than 3 sides returns an empty list and no error."
  },
  {
   "property": "C63",
   "status": "partial",
   "theorems": [
    "C63_panel_partial",
    "C63_no_mark_refuted",
    "C63_eurorack_partial",
    "C63_eurorack_small_refuted",
    "C63_panel3",
    "C63_eurorack3_partial",
    "C63_panel_hole"
   ],
   "note": "Proved for patterns with a hole mark and HP >= 8. Refuted: a pattern without a mark panics; every panel with 1 < HP < 8 panics."
  },
  {
   "property": "C64",
   "status": "partial",
   "theorems": [
    "C64_defined_partial",
    "C64_no_hole_refuted",
    "C64_solid_partial",
    "C64_webs_partial",
    "C64_web",
    "C64_webs"
   ],
   "note": "Exact set of accepted parameters and the solid. Refuted: a standoff without a hole panics."
  },
  {
   "property": "C65",
   "status": "partial",
   "theorems": [
    "C65_helical",
    "C65_screw_motion",
    "C65_bounds_partial",
    "C65_defined",
    "C65_profiles",
    "C65_negative_taper_refuted",
    "C65_taper_slope_refuted"
   ],
   "note": "Helical structure for every thread, definedness for every built-in profile. Bounds for taper angles in [0, 90 degrees) and profiles inside their own Bounds. Refuted: negative taper leaves Bounds; the slope is atan(taper), not tan(taper)."
  },
  {
   "property": "C66",
   "status": "partial",
   "theorems": [
    "C66_bolt_outcome",
    "C66_nut_partial",
    "C66_knurl",
    "C66_bolt_nil_refuted",
    "C66_bolt_lengths_refuted",
    "C66_bolt_tolerance_refuted",
    "C66_bolt_accepts_invalid_refuted",
    "C66_bolt_tiny_refuted",
    "C66_nut_tolerance_refuted"
   ],
   "note": "Exact outcomes of Bolt, Nut and Knurl. Refuted: Bolt panics for a nil thread, for ShankLength >= TotalLength and for tiny threads, and accepts negative lengths and tolerance; Tolerance has no effect on Bolt or Nut."
  },
  {
   "property": "C67",
   "status": "proved",
   "theorems": [
    "C67_npt",
    "C67_npt_sizes",
    "C67_npt_thread",
    "C67_metric",
    "C67_metric_estimate"
   ],
   "note": ""
  },
  {
   "property": "C68",
   "status": "partial",
   "theorems": [
    "C68_nearest_partial",
    "C68_exact_partial",
    "C68_bounds",
    "C68_right_angle_refuted"
   ],
   "note": "Search and pruning are exact for every mesh, every sort order and every point that is not in the blind plane of a triangle. Refuted on that plane: the mesh of one right triangle evaluates to MaxFloat64."
  },
  {
   "property": "C69",
   "status": "partial",
   "theorems": [
    "C69_closest_partial",
    "C69_right_angle_refuted",
    "C69_nan_refuted"
   ],
   "note": "Exact for all triangles (degenerate ones too) except when the two edges at the first corner are perpendicular and the point projects onto the first corner along the first edge: then 0/0 is computed."
  },
  {
   "property": "C70",
   "status": "partial",
   "theorems": [
    "C70_closest_partial",
    "C70_vertex_label_refuted",
    "C70_clockwise_refuted"
   ],
   "note": "Closest point exact for every counterclockwise triangle. Refuted: a vertex is always labelled with the wrong index; for clockwise triangles the returned point can be off the triangle."
  },
  {
   "property": "C71",
   "status": "partial",
   "theorems": [
    "C71_numbering_partial",
    "C71_make",
    "C71_shape",
    "C71_position_refuted",
    "C71_flat_refuted"
   ],
   "note": "For every grid size: no panic, one index per corner and centre, exact node count, exact tetrahedra, centres in place. Refuted: the labels and Box.Vertices list the corners in different orders, so most corners are misplaced and tetrahedra of zero volume appear."
  },
  {
   "property": "C72",
   "status": "partial",
   "theorems": [
    "C72_connectivity_partial",
    "C72_defined",
    "C72_self_refuted",
    "C72_fourth_refuted",
    "C72_smooth_partial",
    "C72_smooth_mean",
    "C72_smooth_refuted"
   ],
   "note": "Exact connectivity and exact smoothing rule. Refuted: nodes are listed as their own neighbours, the fourth corner of a tetrahedron is nobody's neighbour, and smoothing stops at the first boundary node."
  },
  {
   "property": "C73",
   "status": "proved",
   "theorems": [
    "C73_canalis"
   ],
   "note": ""
  },
  {
   "property": "C74",
   "status": "partial",
   "theorems": [
    "C74_identity",
    "C74_mul",
    "C74_mul_affine",
    "C74_mul_assoc",
    "C74_inv",
    "C74_singular",
    "C74_slice",
    "C74_compose",
    "C74_compose_identity",
    "C74_translate",
    "C74_scale_partial",
    "C74_scale_ignores_origin",
    "C74_scale_refuted",
    "C74_transpose"
   ],
   "note": "All proved except Scale, which ignores its origin argument (refuted for every non-zero origin; proved for the zero origin)."
  },
  {
   "property": "C75",
   "status": "proved",
   "theorems": [
    "C75_recover",
    "C75_internal",
    "C75_pla"
   ],
   "note": ""
  },
  {
   "property": "C76",
   "status": "partial",
   "theorems": [
    "C76_min_poly",
    "C76_union",
    "C76_difference_intersection",
    "C76_round_chamfer_refuted"
   ],
   "note": "Proved for MinPoly with n >= 1 (any nonspreading blend); MinRound and the chamfer stretch the field (refuted)."
  },
  {
   "property": "C77",
   "status": "partial",
   "theorems": [
    "C77_merge_partial",
    "C77_tolerance",
    "C77_tolerance_errors",
    "C77_two_tolerances_refuted"
   ],
   "note": "Proved with twice the tolerance in each coordinate, and with the tolerance for coordinates >= -tol/2. Refuted around zero, where the grid cell is two tolerances wide."
  },
  {
   "property": "C78",
   "status": "partial",
   "theorems": [
    "C78_sign_partial",
    "C78_inside_partial",
    "C78_outside_refuted"
   ],
   "note": "The sign is the side of the plane of one nearest triangle; points strictly behind every triangle are never positive. Refuted outside: next to a sharp edge a point outside gets a negative value."
  },
  {
   "property": "C79",
   "status": "proved",
   "theorems": [
    "C79_compress",
    "C79_plane"
   ],
   "note": ""
  },
  {
   "property": "C80",
   "status": "partial",
   "theorems": [
    "C80_tetras_partial",
    "C80_flat_inside",
    "C80_nan_refuted"
   ],
   "note": "Exact outcome, exact choice of tetrahedra, valid indices; for a flat surface no finite node is left outside. Refuted: whenever the lattice cell at the lower corner is outside, the first returned node is NaN (a node without neighbours is smoothed to 0/0)."
  },
  {
   "property": "C81",
   "status": "partial",
   "theorems": [
    "C81_value_partial",
    "C81_convex",
    "C81_nearest_partial",
    "C81_vertex_refuted"
   ],
   "note": "Exact distance, sign rule and the sign inside convex meshes, for whichever triangle the gonum k-d tree returns. Refuted outside, next to a vertex: the wrong vertex is named, and (2,0,0) gets -1 for the corner of the unit cube."
  },
  {
   "property": "C82",
   "status": "partial",
   "theorems": [
    "C82_vertices_partial",
    "C82_normals_partial",
    "C82_angles",
    "C82_bounds",
    "C82_split_refuted",
    "C82_merge_refuted"
   ],
   "note": "Equal corners always share a vertex and shared corners are within two tolerances; normals exact when distinct corners are two tolerances apart. Refuted: arbitrarily close corners across a cell boundary are not shared; corners 1.8 tolerances apart around zero are."
  },
  {
   "property": "C83",
   "status": "partial",
   "theorems": [
    "C83_returns_partial",
    "C83_normals_partial",
    "C83_hangs_refuted",
    "C83_panics_refuted"
   ],
   "note": "Returns, with exact side normals and vertex normals that are positive multiples of the angle-weighted sum, for consistently oriented models whose distinct corners are two tolerances apart. Refuted in general: a sheet with an edge shared by three triangles makes the walk around a vertex go on for ever, and corners merged within one triangle make it index out of range."
  },
  {
   "property": "C84",
   "status": "partial",
   "theorems": [
    "C84_nearest_partial",
    "C84_exact_partial",
    "C84_partition",
    "C84_convex",
    "C84_bounds",
    "C84_nearest_refuted"
   ],
   "note": "For every pivot choice: no panic, the exact distance to some triangle that is at most the largest corner-to-centroid distance farther than the nearest one; exact where centroids are no farther, coordinate by coordinate, than the triangles; sign right inside convex meshes. Refuted: triangles are sorted by centroids but compared by their closest point, so for two long triangles, however partitioned, a corner of the mesh gets a distance of at least 7."
  },
  {
   "property": "C85",
   "status": "partial",
   "theorems": [
    "C85_maps_partial",
    "C85_box",
    "C85_entries",
    "C85_identity_refuted",
    "C85_inverse_refuted"
   ],
   "note": "Proved: composition of affine transforms, boxes, entries. Refuted: TransformIdentity is the zero matrix, and Mul with it returns it again, dropping the other transform; Determinant indexes the nine entries as a 4x4 matrix, so it and Inverse panic for every transform."
  },
  {
   "property": "C86",
   "status": "partial",
   "theorems": [
    "C86_normal3",
    "C86_normal2",
    "C86_gradient",
    "C86_lipschitz",
    "C86_divergence_linear",
    "C86_laplacian_refuted"
   ],
   "note": "All proved except laplacian, which is 0 for every field."
  },
  {
   "property": "C87",
   "status": "proved",
   "theorems": [
    "C87_conversions",
    "C87_integers",
    "C87_scalars",
    "C87_polar",
    "C87_equals",
    "C87_sets",
    "C87_ceil"
   ],
   "note": ""
  },
  {
   "property": "C88",
   "status": "proved",
   "theorems": [
    "C88_vertices",
    "C88_points",
    "C88_complete",
    "C88_not_missed"
   ],
   "note": "C88_complete and C88_not_missed assume that no triangle is dropped as degenerate; C88_not_missed excludes exact ties (C06)."
  },
  {
   "property": "C89",
   "status": "partial",
   "theorems": [
    "C89_package_partial",
    "C89_errors",
    "C89_part_numbers",
    "C89_close_refuted",
    "C89_pid_refuted",
    "C89_last_lost_refuted"
   ],
   "note": "Proved for the triangles RenderAll returns and when the dropped error of closing the file is nil. Refuted: an error of the deferred fp.Close is not returned, every object refers to property group 0, which does not exist (resource ids are positive and start at 1), and triangles delivered with io.EOF are lost (C09)."
  },
  {
   "property": "C90",
   "status": "proved",
   "theorems": [
    "C90_create",
    "C90_returns",
    "C90_read_back",
    "C90_accepted",
    "C90_empty_rejected",
    "C90_one_bad_triangle"
   ],
   "note": "The last two show what happens outside the conditions: an empty mesh, or one triangle that float32 rounding makes degenerate, gives a file that the reader rejects as a whole."
  },
  {
   "property": "C91",
   "status": "proved",
   "theorems": [
    "C91_sections",
    "C91_exact",
    "C91_bounds",
    "C91_degenerate"
   ],
   "note": ""
  },
  {
   "property": "C92",
   "status": "proved",
   "theorems": [
    "C92_center",
    "C92_center_and_scale"
   ],
   "note": ""
  },
  {
   "property": "C93",
   "status": "proved",
   "theorems": [
    "C93_lattice",
    "C93_union",
    "C93_union_order",
    "C93_inter",
    "C93_diff",
    "C93_copies",
    "C93_tree",
    "C93_start"
   ],
   "note": "math.Min and math.Max are modelled after the Go standard library's source; blended minimum functions are not covered here."
  },
  {
   "property": "C94",
   "status": "proved",
   "theorems": [
    "C94_iso_external",
    "C94_iso_internal",
    "C94_inch_threads",
    "C94_acme",
    "C94_ansi_buttress",
    "C94_plastic_buttress"
   ],
   "note": "For profiles wider than the polygon builder's tolerance of 1e-9. The Acme outline ends at plus and minus its radius instead of one pitch."
  },
  {
   "property": "C95",
   "status": "partial",
   "theorems": [
    "C95_iso_external",
    "C95_iso_internal",
    "C95_acme",
    "C95_ansi_buttress",
    "C95_plastic_buttress",
    "C95_axis_refuted",
    "C95_axis_profiles"
   ],
   "note": "Proved for all points off the axis. Refuted on the axis: the profile is evaluated on its own lower edge there, so the points of the axis are reported as not inside."
  },
  {
   "property": "C96",
   "status": "proved",
   "theorems": [
    "C96_convex",
    "C96_closed",
    "C96_nagon",
    "C96_offset"
   ],
   "note": "Edges longer than zero and, as for C59, a closing edge longer than the builder's tolerance of 1e-9 (or none)."
  },
  {
   "property": "C97",
   "status": "proved",
   "theorems": [
    "C97_chamfered",
    "C97_rounded_cylinder",
    "C97_hex_head",
    "C97_knurl",
    "C97_knurled_head",
    "C97_bolt",
    "C97_iso_bolt",
    "C97_nut"
   ],
   "note": "For parts larger than the polygon builder's tolerance of 1e-9. The region of the screw itself: C65, C94, C95."
  },
  {
   "property": "C98",
   "status": "proved",
   "theorems": [
    "C98_difference",
    "C98_offset",
    "C98_shell",
    "C98_sphere",
    "C98_circle",
    "C98_extrude",
    "C98_box",
    "C98_box_exact",
    "C98_box_sign",
    "C98_solid",
    "C98_box_go",
    "C98_solid_go"
   ],
   "note": "C98_box_go and C98_solid_go use math.Hypot and r3.Norm as published by Go and gonum; the others assume of them only that they are positive for positive arguments. No fused multiply-add."
  },
  {
   "property": "C99",
   "status": "proved",
   "theorems": [
    "C99_evaluate",
    "C99_error",
    "C99_sign",
    "C99_translate"
   ],
   "note": "The accumulated bounds must stay below 1000 for the magnitude and 10^6 for the error. A placement matrix is any matrix within 16 units in the last place of a rigid motion. math.Hypot, r3.Norm and r3.Unit as published by Go and gonum; no fused multiply-add. Polygons: edges whose height is not zero but below 2^-300 of the scale are excluded (the unit vector underflows), and so are ends that differ by about the closing tolerance. Partial revolutions, twisted, scaled and lofted extrusions, cones, blended Booleans and rotated copies are not included."
  },
  {
   "property": "C100",
   "status": "proved",
   "theorems": [
    "C100_pruned",
    "C100_kept",
    "C100_vertices",
    "C100_complete",
    "C100_solids"
   ],
   "note": "Origin, resolution and depth are arguments (computed by NewOctreeRenderer in C102). r3.Triangle.IsDegenerate is abstract; completeness assumes that it drops no triangle of the cell. No fused multiply-add."
  },
  {
   "property": "C101",
   "status": "partial",
   "theorems": [
    "C101_closed_partial",
    "C101_bit_closed_refuted",
    "C102_closed_partial",
    "C103_closed_partial",
    "C104_closed_partial"
   ],
   "note": "Closed up to 120 units of 2^-53 * S: the triangles are those of a closed surface whose vertices are named by grid edges, each placed within 60 units of one point per grid edge. Refuted with exact equality: for the unit ball and meshCells = 4 an edge of a delivered triangle is the reverse of no other."
  },
  {
   "property": "C102",
   "status": "proved",
   "theorems": [
    "C102_setup",
    "C102_few",
    "C102_scene",
    "C102_vertices"
   ],
   "note": "math.Log2 is an argument, assumed to be exact on powers of two and within 2^-45 on [1,2^60]. Boxes with coordinates up to X, 2^-320 <= X <= 2^320, and sides of at least X/2^30; meshCells up to 2^40. The box is an argument (C103 computes it). The capacity of the cube slice is not modelled."
  },
  {
   "property": "C103",
   "status": "proved",
   "theorems": [
    "C103_bounds",
    "C103_promise",
    "C103_contains",
    "C103_vertices"
   ],
   "note": "The expressions of C99 (no cones, rounded extrusions, lofts, blends, partial revolutions). math.Log2 as in C102. The closed surface is C103_closed_partial, listed under C101."
  },
  {
   "property": "C104",
   "status": "proved",
   "theorems": [
    "C104_float32",
    "C104_read_back"
   ],
   "note": "The normals (gonum's Triangle.Normal and Unit) are arguments: they decide only whether the file is accepted. A NaN is given one fixed payload. The closed surface read back is C104_closed_partial, listed under C101. math.Log2 as in C102."
  },
  {
   "property": "C105",
   "status": "partial",
   "theorems": [
    "C105_width_partial",
    "C105_width_refuted",
    "C105_bolt_refuted"
   ],
   "note": "Refuted: hex_head rounds the hexagon outwards less than it shrinks it, so that the flats are at F/2 * (0.92 + 0.16/sqrt 3), about 1.2 % too far, in all six directions (C105_width_partial gives this as the exact width; C105_width_refuted for every head, C105_bolt_refuted for every bolt with a hexagonal head)."
  },
  {
   "property": "C106",
   "status": "proved",
   "theorems": [
    "C106_spacer",
    "C106_fit",
    "C106_panics",
    "C106_row",
    "C106_apart"
   ],
   "note": "Real arithmetic. Diameters up to 10^100. The rule for no overlap is the predicate gentle; the program's own table meets it."
  },
  {
   "property": "C107",
   "status": "partial",
   "theorems": [
    "C107_pin_partial",
    "C107_screw_refuted",
    "C107_closed_refuted"
   ],
   "note": "Refuted: the blend (MinPoly 2 3) narrows the four corner holes - a point at 1.9 mm from the axis is solid although the hole is for an M4 screw - and the eight standoffs elsewhere are closed by the plate. A pin of radius 1.481 passes at the four corners."
  },
  {
   "property": "C108",
   "status": "partial",
   "theorems": [
    "C108_holes_partial",
    "C108_holes_refuted"
   ],
   "note": "Refuted: five of the eight positions are off the plate, where there is nothing to drill. The other three holes go through with a ring of material around. Of the pillars only the wall of the tube above the plate is proved, at the positions in the model's list support_pillars; that these positions are over the plate is not stated, so a pillar moved off the plate would not be noticed (seeded/LOG.jsonl, b13_39), nor would a standoff listed twice in place of one off the plate (b13_38)."
  },
  {
   "property": "C109",
   "status": "partial",
   "theorems": [
    "C109_solid",
    "C109_free_partial",
    "C109_sensor_refuted"
   ],
   "note": "Refuted: the cavity, not the housing, has the rounded edge, which leaves a lip at the mouth that a 23 mm sensor does not pass. The exact shape, the connector and the pins are proved."
  },
  {
   "property": "C110",
   "status": "partial",
   "theorems": [
    "C110_bore",
    "C110_disc",
    "C110_length_refuted"
   ],
   "note": "Refuted in its last part: the socket ends 12.3 mm above the flange at the latest (the flange is placed at -tlen/2 while the nut is centred). Bore and disc are proved."
  },
  {
   "property": "C111",
   "status": "partial",
   "theorems": [
    "C111_solid",
    "C111_through",
    "C111_ring",
    "C111_centred_refuted"
   ],
   "note": "Refuted in its last part: the width of the two sockets is taken from their bounding box, whose left end is at minus the radius of a socket and not at 0, so that the display sits 3.36 mm to the right of the middle. The rest is proved."
  },
  {
   "property": "C112",
   "status": "partial",
   "theorems": [
    "C112_point",
    "C112_distance",
    "C112_nan",
    "C112_collapsed",
    "C112_edge_ac",
    "C112_edge_bc",
    "C112_closest_partial",
    "C112_closest_refuted",
    "C112_rounding_refuted"
   ],
   "note": "Refuted in three ways: when diff.edge0 and edge0.edge1 both compute to zero (a right angle at the first corner and a target over its second side, or two equal corners) the result is NaN (C112_nan, C112_collapsed); when a product underflows, or when 1 - f01/(f01-f10) rounds to zero, a point is returned although another has half its squared distance (C112_closest_refuted, C112_rounding_refuted). Proved: the result always belongs to a point of the triangle (C112_point, C112_distance); the two edge searches are optimal up to rounding; the whole search is optimal up to rounding when the step dt1 (or the second parameter of p1) is computed with its strict sign and not below 2^-500 (step_ok). Missing: the runs where dt1 rounds to zero or to the other sign and the result is good nevertheless."
  },
  {
   "property": "C113",
   "status": "proved",
   "theorems": [
    "C113_volume",
    "C113_fill",
    "C113_apart",
    "C113_fit"
   ],
   "note": "The nodes are taken in their places; where meshTetraBCC puts them is C71. naiveTetras is not called by the program."
  },
  {
   "property": "C114",
   "status": "partial",
   "theorems": [
    "C114_sign_partial",
    "C114_membership_partial",
    "C114_cylinder_partial",
    "C114_cylinder_solid_partial",
    "C114_drawing_partial",
    "C114_plate_partial",
    "C114_refuted"
   ],
   "note": "Refuted on the upper and lower side, where the value can be negative, and on the lines of the left and right side beyond the corners, where it can be zero (C114_refuted, one witness each); for the cylinder also within the error of math.Hypot of the side wall. Proved at every other finite point: the sign is right; in particular no point strictly inside is taken as outside and no point strictly outside as inside. math.Hypot and r2.Norm as published by Go and gonum. No fused multiply-add."
  }
 ]
}