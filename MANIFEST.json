{
 "claims": [
  {
   "property": "C01",
   "status": "proved",
   "theorems": [
    "C01_affine_roundtrip",
    "C01_affine_is_rotate_then_shift"
   ],
   "note": "Round trip both ways; forward = rotate then shift."
  },
  {
   "property": "C02",
   "status": "proved",
   "theorems": [
    "C02_affine_rigid"
   ],
   "note": "Distances, orientation values and all three predicates are invariant, forward and inverse."
  },
  {
   "property": "C03",
   "status": "proved",
   "theorems": [
    "C03_orientation",
    "C03_np_orientation_rowwise"
   ],
   "note": "Exact characterisation by signed area and tolerance; reversal, cyclic shift, exclusivity; numpy version row-wise equal."
  },
  {
   "property": "C04",
   "status": "partial",
   "theorems": [
    "C04_trichotomy_refuted",
    "C04_trichotomy_partial"
   ],
   "note": "REFUTED as stated: value exactly at the threshold is none of the three; proved for every other triple."
  },
  {
   "property": "C05",
   "status": "proved",
   "theorems": [
    "C05_proper_crossing",
    "C05_no_division_by_zero"
   ],
   "note": ""
  },
  {
   "property": "C06",
   "status": "partial",
   "theorems": [
    "C06_intersection_on_segments_refuted",
    "C06_intersection_partial"
   ],
   "note": "REFUTED as stated: point returned 999 units off both segments; proved what each branch guarantees and that None is never returned for touching end points or proper crossings."
  },
  {
   "property": "C07",
   "status": "proved",
   "theorems": [
    "C07_is_between_accepts_segment",
    "C07_is_between_thin"
   ],
   "note": ""
  },
  {
   "property": "C08",
   "status": "proved",
   "theorems": [
    "C08_line_intersection"
   ],
   "note": ""
  },
  {
   "property": "C09",
   "status": "proved",
   "theorems": [
    "C09_segment_intersection"
   ],
   "note": ""
  },
  {
   "property": "C10",
   "status": "proved",
   "theorems": [
    "C10_ray_intersection"
   ],
   "note": ""
  },
  {
   "property": "C11",
   "status": "partial",
   "theorems": [
    "C11_line_intersects_refuted",
    "C11_line_intersects_constant_partial"
   ],
   "note": "REFUTED: Line.intersects is constantly False."
  },
  {
   "property": "C12",
   "status": "partial",
   "theorems": [
    "C12_triangle_centroid_refuted",
    "C12_triangle_partial",
    "C12_triangle_unrotated_partial"
   ],
   "note": "REFUTED for rot != 0 (rotates about the origin); proved: side lengths, circumradius, centroid = rotated centroid, and the full claim for rot = 0."
  },
  {
   "property": "C13",
   "status": "proved",
   "theorems": [
    "C13_convex_hull_correct"
   ],
   "note": "For every list of distinct points without near-collinear triples, any length; convex hull characterised by weights (in_hull) and by edges."
  },
  {
   "property": "C14",
   "status": "partial",
   "theorems": [
    "C14_terminates_refuted",
    "C14_terminates_partial"
   ],
   "note": "REFUTED: [(1,0),(0,0),(1,1),(0,0)] cycles for ever. Termination within n rounds proved for distinct points without near-collinear triples."
  },
  {
   "property": "C15",
   "status": "proved",
   "theorems": [
    "C15_point_in_cone_is_sector"
   ],
   "note": "General position (tolerance bands excluded) as in the statement."
  },
  {
   "property": "C16",
   "status": "proved",
   "theorems": [
    "C16_intersection_same_apex"
   ],
   "note": "All sign patterns checked through the Pluecker relations."
  },
  {
   "property": "C17",
   "status": "proved",
   "theorems": [
    "C17_list_intersection"
   ],
   "note": "Exact characterisation, hence independent of the list order."
  },
  {
   "property": "C18",
   "status": "partial",
   "theorems": [
    "C18_idempotent_refuted",
    "C18_symmetric_refuted",
    "C18_self_intersection_partial"
   ],
   "note": "REFUTED: convex cone with itself gives []; shared direction: result depends on order. The exact self-intersection behaviour of every cone is proved."
  },
  {
   "property": "C19",
   "status": "proved",
   "theorems": [
    "C19_polygon_total",
    "C19_tiny_direction_fails"
   ],
   "note": "\"Long enough\" made precise: margin * max-coordinate >= 1e-10; a tiny direction is shown to fail."
  },
  {
   "property": "C20",
   "status": "proved",
   "theorems": [
    "C20_point_in_triangle",
    "C20_point_in_hull"
   ],
   "note": ""
  },
  {
   "property": "C21",
   "status": "partial",
   "theorems": [
    "C21_angle_steps",
    "C21_rejects",
    "C21_star_polygon_partial",
    "C21_irregularity_one_refuted"
   ],
   "note": "Proved for irregularity < 1. REFUTED at irregularity = 1 (accepted by the parameter check): draws at the lower end give ZeroDivisionError."
  },
  {
   "property": "C22",
   "status": "proved",
   "theorems": [
    "C22_centred_and_spread",
    "C22_within_box0"
   ],
   "note": "Stronger: the extent of the polygon equals the spread of the draws in both coordinates."
  },
  {
   "property": "C23",
   "status": "partial",
   "theorems": [
    "C23_in_box_refuted",
    "C23_in_box_partial"
   ],
   "note": "REFUTED: the y pool is scaled with box[0]. Proved when box[0] <= box[1]."
  },
  {
   "property": "C24",
   "status": "proved",
   "theorems": [
    "C24_ids"
   ],
   "note": ""
  },
  {
   "property": "C25",
   "status": "partial",
   "theorems": [
    "C25_deep_copy_partial",
    "C25_shared_copy_refuted",
    "C25_shared_copy_follows",
    "C25_at_rest"
   ],
   "note": "REFUTED for Ellipse and StarshapedPolygon: copy() shares the motion model object, so the original follows every move of the copy. Proved for Polygon and StarshapedPrimitiveCombination (deepcopy), in both directions."
  },
  {
   "property": "C26",
   "status": "proved",
   "theorems": [
    "C26_polygon_fresh"
   ],
   "note": "Any history, including operations that raise."
  },
  {
   "property": "C27",
   "status": "partial",
   "theorems": [
    "C27_kernel_stale_refuted",
    "C27_kernel_fresh_partial"
   ],
   "note": "REFUTED for Ellipse: kernel(GLOBAL) before polygon() raises after storing the pose; later calls return None. Proved for StarshapedPolygon, and for Ellipse when polygon() was called before the first kernel()."
  },
  {
   "property": "C28",
   "status": "proved",
   "theorems": [
    "C28_frames",
    "C28_transform_is_place",
    "C28_bad_frame"
   ],
   "note": "Also: transform OBSTACLE->GLOBAL is rotate-then-shift by the pose; other frame values raise."
  },
  {
   "property": "C29",
   "status": "partial",
   "theorems": [
    "C29_set_xr",
    "C29_safe_set_raises",
    "C29_safe_set_refuted"
   ],
   "note": "Proved for the default call. REFUTED for safe_set=True: it raises AttributeError for kernel points too (the shapely kernel has no exterior_point)."
  },
  {
   "property": "C30",
   "status": "partial",
   "theorems": [
    "C30_locations",
    "C30_boundary_exclusive_refuted",
    "C30_boundary_exclusive_partial"
   ],
   "note": "REFUTED for real-valued locations with 0<|loc|<=1e-8 (Ellipse); proved for the sign-valued default point_location, everything else proved for all locations."
  },
  {
   "property": "C31",
   "status": "proved",
   "theorems": [
    "C31_reference_direction",
    "C31_undefined_at_xr"
   ],
   "note": "Also: not finite at the reference point itself."
  },
  {
   "property": "C32",
   "status": "partial",
   "theorems": [
    "C32_rigid_velocity_refuted",
    "C32_velocity_partial"
   ],
   "note": "REFUTED: the angular part uses the unit vector from xr instead of the lever arm from pos. Exact formula proved; right when the obstacle does not rotate."
  },
  {
   "property": "C33",
   "status": "proved",
   "theorems": [
    "C33_static"
   ],
   "note": ""
  },
  {
   "property": "C34",
   "status": "proved",
   "theorems": [
    "C34_cartesian",
    "C34_step_bound"
   ],
   "note": "Trajectory as an explicit sum; per-step bounds in both modes, with the exact displacement in the polar mode."
  },
  {
   "property": "C35",
   "status": "proved",
   "theorems": [
    "C35_interval_on_time"
   ],
   "note": "Durations positive, steps non-negative; holds at every prefix of the run."
  },
  {
   "property": "C36",
   "status": "partial",
   "theorems": [
    "C36_rests_refuted",
    "C36_rests_partial"
   ],
   "note": "REFUTED: at t equal to the last time argmax of an all-False array is 0 and one step is made away from the last point. Proved: strictly after the last time the last point is a rest point and small steps never increase the distance to it."
  },
  {
   "property": "C37",
   "status": "proved",
   "theorems": [
    "C37_waypoint_query"
   ],
   "note": "Includes the one case without a finite result: threshold <= 0 while standing on the waypoint."
  },
  {
   "property": "C38",
   "status": "proved",
   "theorems": [
    "C38_waypoints_reached"
   ],
   "note": ""
  },
  {
   "property": "C39",
   "status": "partial",
   "theorems": [
    "C39_any_step_refuted"
   ],
   "note": "REFUTED: wp_thresh = 0 gives nan in the first step for every waypoint list; a step of twice the distance oscillates for ever. C38 is the part that holds."
  },
  {
   "property": "C40",
   "status": "proved",
   "theorems": [
    "C40_point_location"
   ],
   "note": ""
  },
  {
   "property": "C41",
   "status": "proved",
   "theorems": [
    "C41_line_intersection"
   ],
   "note": "NoDup and exact set of common points, for every pair of frames."
  },
  {
   "property": "C42",
   "status": "partial",
   "theorems": [
    "C42_vertical_refuted",
    "C42_tangent_refuted",
    "C42_line_intersection_partial"
   ],
   "note": "REFUTED: vertical lines answer (0,+-a1) whatever the abscissa, and the tangent case ignores the ends of the segment. Proved for the class of C41 and for segments on the vertical axis."
  },
  {
   "property": "C43",
   "status": "proved",
   "theorems": [
    "C43_tangent_points"
   ],
   "note": "Includes the exactly vertical tangent. The order of the two points holds outside the 1e-10 tolerance of is_ccw, stated as an explicit bound."
  },
  {
   "property": "C44",
   "status": "partial",
   "theorems": [
    "C44_vertical_tangent_refuted",
    "C44_thin_refuted",
    "C44_off_ellipse_refuted",
    "C44_tangent_points_partial"
   ],
   "note": "REFUTED three ways: division by zero for x=(1.000001,0) on the unit circle and for a thin ellipse, and a returned point far off the ellipse. Proved away from the special case and for exactly vertical tangents."
  },
  {
   "property": "C45",
   "status": "proved",
   "theorems": [
    "C45_boundary_mapping"
   ],
   "note": "Diameter at least 0.01, direction not steeper than 100, two clear crossings."
  },
  {
   "property": "C46",
   "status": "partial",
   "theorems": [
    "C46_boundary_mapping_refuted",
    "C46_boundary_mapping_partial"
   ],
   "note": "REFUTED: a vertical direction off the centre maps to (0,a1). Proved for the class of C45 and on the vertical axis."
  },
  {
   "property": "C47",
   "status": "proved",
   "theorems": [
    "C47_normal"
   ],
   "note": ""
  },
  {
   "property": "C48",
   "status": "partial",
   "theorems": [
    "C48_polygon_partial",
    "C48_polygon_refuted"
   ],
   "note": "REFUTED for the unit circle with 20 points. Proved: vertices on, hull within the ellipse widened by 1e-3; coverage when 1e-3 makes up for the chord error."
  },
  {
   "property": "C49",
   "status": "partial",
   "theorems": [
    "C49_dilated_refuted",
    "C49_dilated_partial"
   ],
   "note": "REFUTED for a=(9,16), padding 1. Proved: contains the original; covers the padding for circles."
  },
  {
   "property": "C50",
   "status": "proved",
   "theorems": [
    "C50_tangent_points_general",
    "C50_angles_exist",
    "C50_tangent_points"
   ],
   "note": "General form: for every x not on an edge, in terms of a continuous choice of the angle along the boundary, which is proved to exist; then the separated case."
  },
  {
   "property": "C51",
   "status": "proved",
   "theorems": [
    "C51_tangent_points_inside"
   ],
   "note": ""
  },
  {
   "property": "C52",
   "status": "partial",
   "theorems": [
    "C52_convexity_partial",
    "C52_all_collinear_refuted",
    "C52_last_vertex_refuted"
   ],
   "note": "REFUTED: an all-collinear polygon raises IndexError, not RuntimeError, and so does a triangle with two repeated vertices. Proved: exact condition for an answer, exact meaning of the answer, independence of direction, when no turn is exactly at the threshold."
  },
  {
   "property": "C53",
   "status": "partial",
   "theorems": [
    "C53_point_location_partial",
    "C53_boundary_refuted"
   ],
   "note": "REFUTED: for every polygon the leftmost vertex is reported as exterior. Proved: exact in the open bounding box, and interior points are always right."
  },
  {
   "property": "C54",
   "status": "proved",
   "theorems": [
    "C54_vertex_angles",
    "C54_set_xr",
    "C54_table_follows_boundary",
    "C54_argsort_exists"
   ],
   "note": "np.argsort is any function sorting its input; also proved: when the boundary runs once around xr the table is the boundary order, begun elsewhere."
  },
  {
   "property": "C55",
   "status": "proved",
   "theorems": [
    "C55_normal",
    "C55_facing_edge"
   ],
   "note": ""
  },
  {
   "property": "C56",
   "status": "proved",
   "theorems": [
    "C56_distance_function"
   ],
   "note": "For polygons met once by every ray from xr; shapely intersection assumed exact."
  },
  {
   "property": "C57",
   "status": "partial",
   "theorems": [
    "C57_boundary_mapping_general",
    "C57_constructed",
    "C57_dilated_partial",
    "C57_dilated_refuted",
    "C57_two_places"
   ],
   "note": "REFUTED: for the unit square with xr=(0.01,0.01) and any padding up to 1/8 nothing is found towards (1,1). Proved: always found for constructed objects; exact condition after dilation; sufficient condition on the bounding box."
  },
  {
   "property": "C58",
   "status": "proved",
   "theorems": [
    "C58_point_location",
    "C58_union_refuted"
   ],
   "note": "Proved for members and hull that locate points correctly (instances: Ellipse, boxes). The topological union can differ: C58_union_refuted, of two abutting boxes a point of the common edge is reported outside (1) although it is interior to the union."
  },
  {
   "property": "C59",
   "status": "partial",
   "theorems": [
    "C59_candidates_partial",
    "C59_union_partial",
    "C59_one_member",
    "C59_order_refuted",
    "C59_shared_refuted",
    "C59_late_refuted"
   ],
   "note": "REFUTED in part \u2014 C59_order_refuted: the right tangent can be returned first, and admissible_kernel then accepts forbidden points; C59_shared_refuted: members sharing a tangent direction give no point; C59_late_refuted: beyond index 256 `j is not i` compares object identities. Proved for at most 257 candidates: a candidate is returned exactly when it is extreme, and the two points are tangents of the union."
  },
  {
   "property": "C60",
   "status": "partial",
   "theorems": [
    "C60_boundary_mapping_partial",
    "C60_near_refuted",
    "C60_collection_refuted"
   ],
   "note": "REFUTED in part \u2014 C60_near_refuted: the probe has fixed factor 10, so points near xr give None; C60_collection_refuted: a geometry collection raises TypeError. Proved: the result is the farthest border point on the probe segment, and None only if the probe meets no border."
  },
  {
   "property": "C61",
   "status": "proved",
   "theorems": [
    "C61_admissible_kernel"
   ],
   "note": "Both directions; the tolerance 1e-10 only matters for accepted points."
  },
  {
   "property": "C62",
   "status": "proved",
   "theorems": [
    "C62_starshaped",
    "C62_ellipse_tangents",
    "C62_polygon_tangents"
   ],
   "note": "For every convex region whose tangent_points are tangents; instances proved for Ellipse and convex Polygon. convex_hull is used through C13, hence the general position hypothesis."
  },
  {
   "property": "C63",
   "status": "proved",
   "theorems": [
    "C63_x_stays_out",
    "C63_admissible"
   ],
   "note": "For the exact semantic condition and for membership in the cone returned by admissible_kernel."
  },
  {
   "property": "C64",
   "status": "proved",
   "theorems": [
    "C64_connected_components"
   ],
   "note": "For any obstacles, any symmetric intersects predicate and any order of list(set(...))."
  },
  {
   "property": "C65",
   "status": "proved",
   "theorems": [
    "C65_preserves_obstacles"
   ],
   "note": "Same setting as C64."
  },
  {
   "property": "C66",
   "status": "proved",
   "theorems": [
    "C66_terminates"
   ],
   "note": "For every geometry oracle, clock and option set whose random displacements leave the line; the number of rounds is bounded by max(1, number of obstacles) and the answer does not depend on the fuel of the model."
  },
  {
   "property": "C67",
   "status": "partial",
   "theorems": [
    "C67_refuted",
    "C67_cut_raises_refuted",
    "C67_complete_partial"
   ],
   "note": "REFUTED in general (C67_refuted: with max_iterations the flag is COMPLETE although a returned cluster has no cluster obstacle; with make_convex that call raises). C67_complete_partial proves the property when the iteration was not cut by max_iterations."
  },
  {
   "property": "C68",
   "status": "proved",
   "theorems": [
    "C68_incomplete_returns_obstacles",
    "C68_no_tangents_gives_up"
   ],
   "note": "INCOMPLETE returns the input obstacles as singletons; missing tangents always give INCOMPLETE."
  },
  {
   "property": "C69",
   "status": "partial",
   "theorems": [
    "C69_refuted",
    "C69_no_obstacle_lost_partial"
   ],
   "note": "REFUTED in general (C69_refuted: two obstacles with id None, one disappears). Proved whenever the ids are pairwise distinct."
  },
  {
   "property": "C70",
   "status": "proved",
   "theorems": [
    "C70_names"
   ],
   "note": "For all sequences of ids, ints or None."
  },
  {
   "property": "C71",
   "status": "partial",
   "theorems": [
    "C71_refuted",
    "C71_feedback_partial",
    "C71_incomplete_forever"
   ],
   "note": "REFUTED in general (C71_refuted; C71_incomplete_forever: after one INCOMPLETE answer is fed back no later call on these obstacles can be COMPLETE). C71_feedback_partial proves it for answers that are not INCOMPLETE and not cut."
  },
  {
   "property": "C72",
   "status": "partial",
   "theorems": [
    "C72_refuted",
    "C72_make_convex_checks",
    "C72_convex_disjoint"
   ],
   "note": "The clearance checks and disjointness of the final convex obstacles are proved (C72_make_convex_checks, C72_convex_disjoint). The last clause is REFUTED (C72_refuted: polygon() keeps the polygon from before)."
  },
  {
   "property": "C73",
   "status": "partial",
   "theorems": [
    "C73_refuted",
    "C73_return_shape_partial"
   ],
   "note": "REFUTED for MAX_COMPUTE_TIME_CONVEX_HULL (C73_refuted). Proved for the other flags."
  },
  {
   "property": "C74",
   "status": "partial",
   "theorems": [
    "C74_kernel_points_partial",
    "C74_selection_in_admissible",
    "C74_selection_in_kernels",
    "C74_inside_refuted",
    "C74_collinear_refuted",
    "C74_degenerate_refuted"
   ],
   "note": "REFUTED in part \u2014 C74_inside_refuted: the centre (a centroid moved to the admissible kernel) need not lie in the selection set, and then the whole triangle lies outside it; C74_collinear_refuted: the third branch does not test collinearity; C74_degenerate_refuted: the triangle can shrink to one point. Proved: shape, side and centre of the triangle, how the centre is chosen, that a centre in the set whose disc of that radius is in the set gives a triangle in the set, and what the selection set is."
  },
  {
   "property": "C75",
   "status": "partial",
   "theorems": [
    "C75_refuted",
    "C75_plain_polygon_never",
    "C75_exclude_ellipse_never",
    "C75_convex_star_partial"
   ],
   "note": "REFUTED for plain Polygon (C75_refuted, C75_plain_polygon_never) and for Ellipse with exclude_obstacles (C75_exclude_ellipse_never). Proved for star-shaped classes without previous clusters and exclude_obstacles."
  },
  {
   "property": "C76",
   "status": "partial",
   "theorems": [
    "C76_convex_partial",
    "C76_convex_refuted"
   ],
   "note": "REFUTED when two edge vectors share a direction (x and y are sorted separately); proved for pairwise different directions."
  },
  {
   "property": "C77",
   "status": "partial",
   "theorems": [
    "C77_border_outside_refuted",
    "C77_border_on_box_partial"
   ],
   "note": "REFUTED: the box sides are intersected as rays; apex (900000,0) with direction (10,-11) gives a border point 809090 outside the box. Proved for directions clear of the diagonals, which is every direction when the apex is the centre."
  },
  {
   "property": "C78",
   "status": "partial",
   "theorems": [
    "C78_order_across_frames_refuted",
    "C78_across_frames_partial"
   ],
   "note": "REFUTED: with input frame GLOBAL and output frame OBSTACLE is_ccw mixes coordinates and the order is wrong. Proved: both points touch, in one of the two orders."
  },
  {
   "property": "C79",
   "status": "partial",
   "theorems": [
    "C79_weighted_normal_partial",
    "C79_weighted_normal_refuted"
   ],
   "note": "REFUTED: the result is not a unit vector. Proved: convex combination of the three outward edge normals with the stated weights."
  },
  {
   "property": "C80",
   "status": "partial",
   "theorems": [
    "C80_line_intersection_partial",
    "C80_line_intersection_refuted"
   ],
   "note": "REFUTED: a line through the inner corner of an L-shape raises UnboundLocalError. Proved: otherwise exact."
  },
  {
   "property": "C81",
   "status": "partial",
   "theorems": [
    "C81_order_refuted"
   ],
   "note": "REFUTED: obstacles 1,2,3 merged as (1,3) then 2 give the name 1_3_2, merged at once 1_2_3. Proved instead (C70): equal names mean equal id sequences."
  },
  {
   "property": "C82",
   "status": "partial",
   "theorems": [
    "C82_refuted",
    "C82_at_goal_never"
   ],
   "note": "REFUTED: C82_at_goal_never and C82_refuted (never an answer for any random sequence)."
  },
  {
   "property": "C83",
   "status": "partial",
   "theorems": [
    "C83_refuted",
    "C83_stuck_clock_never"
   ],
   "note": "REFUTED: C83_stuck_clock_never and C83_refuted (ZeroDivisionError). C75_convex_star_partial gives the positive statement when the clock advances."
  },
  {
   "property": "C84",
   "status": "partial",
   "theorems": [
    "C84_id_kept_partial",
    "C84_convex_refuted",
    "C84_vanishing_refuted"
   ],
   "note": "REFUTED in general \u2014 C84_convex_refuted: with make_convex the cluster obstacle of an unchanged scene gets a new id in every call; C84_vanishing_refuted: when the hull vanishes the obstacle's own id is used. C84_id_kept_partial proves it for every combination in the answer, when the previous names are pairwise different and the id was issued by the counter."
  },
  {
   "property": "C85",
   "status": "partial",
   "theorems": [
    "C85_vel_partial",
    "C85_single",
    "C85_order_refuted",
    "C85_hull_refuted"
   ],
   "note": "REFUTED in part \u2014 C85_order_refuted: with xr not at the origin the velocity of a member whose border is met earlier is returned; C85_hull_refuted: when the hull border is met last the call raises IndexError. Proved: with xr at the origin and one intersection per member the member met last is used (C85_vel_partial); the one-member case (C85_single)."
  },
  {
   "property": "C86",
   "status": "partial",
   "theorems": [
    "C86_sub_index",
    "C86_hull_normal",
    "C86_polygon_approx",
    "C86_edge",
    "C86_sub_normal",
    "C86_fresh_refuted",
    "C86_weighted"
   ],
   "note": "REFUTED in part \u2014 C86_fresh_refuted: the default kind raises AttributeError before polygon() was called. Proved: the edge normal, the member chosen and its normal, the weighted normal, the hull normal."
  },
  {
   "property": "C87",
   "status": "partial",
   "theorems": [
    "C87_table",
    "C87_polygon_kept",
    "C87_stale_refuted",
    "C87_set_xr_refuted",
    "C87_set_xr_partial"
   ],
   "note": "REFUTED in part \u2014 C87_stale_refuted: after a member has moved polygon() keeps the old shape; C87_set_xr_refuted: set_xr before polygon() changes xr and raises. Proved: the table describes the cached polygon around the current xr."
  },
  {
   "property": "C88",
   "status": "partial",
   "theorems": [
    "C88_value",
    "C88_inside_partial",
    "C88_refuted"
   ],
   "note": "REFUTED in part \u2014 C88_refuted: an interior point gets the value 4, because the probe of fixed length ends inside the farther member (see also C60_near_refuted: TypeError). Proved: meaning of the value (C88_value) and at most 1 exactly on the set whenever the probe reaches past it (C88_inside_partial)."
  },
  {
   "property": "C89",
   "status": "proved",
   "theorems": [
    "C89_unique_ids",
    "C89_carries_on"
   ],
   "note": "For callers whose obstacle and previous ids are in order (record in_order: issued by the counter and pairwise different). C89_carries_on shows that every answer not cut by max_iterations restores these conditions for the next call, also when obstacles left or were added, so the property holds along every sequence of calls that starts without previous clusters."
  },
  {
   "property": "C90",
   "status": "proved",
   "theorems": [
    "C90_spanned",
    "C90_least"
   ],
   "note": "model M_PolHull, for every shapely answer that is right for the polygon (record faithful)"
  },
  {
   "property": "C91",
   "status": "proved",
   "theorems": [
    "C91_kept"
   ],
   "note": "up to three kernel points"
  },
  {
   "property": "C92",
   "status": "partial",
   "theorems": [
    "C92_failures_partial",
    "C92_one_kernel_point",
    "C92_index_refuted",
    "C92_attribute_refuted"
   ],
   "note": "REFUTED \u2014 with three kernel points in general position IndexError when a vertex lies inside the kernel triangle (C92_index_refuted); AttributeError when a line through a kernel point overlaps an edge (C92_attribute_refuted). Proved: a single kernel point in general position never fails (C92_one_kernel_point); with up to three, IndexError and ValueError only in the stated situations (C92_failures_partial)"
  },
  {
   "property": "C93",
   "status": "partial",
   "theorems": [
    "C93_refuted",
    "C93_empty_refuted",
    "C93_already_starshaped_partial"
   ],
   "note": "REFUTED \u2014 a simple result that misses a vertex of the polygon and is not star-shaped (C93_refuted); the empty polygon for a polygon inside the kernel triangle (C93_empty_refuted). Proved: a polygon seen completely from all kernel points is returned unchanged (C93_already_starshaped_partial)"
  },
  {
   "property": "C94",
   "status": "proved",
   "theorems": [
    "C94_ring_start",
    "C94_ring_direction"
   ],
   "note": "needs a unique vertex with largest x; for reversal also a turn beyond the threshold there"
  },
  {
   "property": "C95",
   "status": "partial",
   "theorems": [
    "C95_convex_partial",
    "C95_tiny_refuted"
   ],
   "note": "REFUTED for tiny polygons: a triangle with area below the orientation threshold raises IndexError (C95_tiny_refuted). Proved: every convex counter-clockwise ring with a corner beyond the threshold other than the last (C95_convex_partial)"
  },
  {
   "property": "C96",
   "status": "proved",
   "theorems": [
    "C96_kernel_moves"
   ],
   "note": "all rotations and translations, all vertex lists, including failures"
  },
  {
   "property": "C97",
   "status": "partial",
   "theorems": [
    "C97_dart_partial",
    "C97_outside_refuted",
    "C97_missing_refuted",
    "C97_small_refuted",
    "C97_rings_partial"
   ],
   "note": "REFUTED \u2014 a result with a vertex outside the polygon (C97_outside_refuted), a result that misses points of the kernel (C97_missing_refuted), a 9 by 18 hexagon with a vertex that does not see the polygon (C97_small_refuted). Proved: quadrilaterals with one reflex vertex, at most 150 wide and with margins of 0.1, from any starting vertex (C97_dart_partial); nine rings of five to nine vertices that take other updates of the chain (C97_rings_partial)"
  },
  {
   "property": "C98",
   "status": "partial",
   "theorems": [
    "C98_none_refuted",
    "C98_value_refuted",
    "C98_index_refuted",
    "C98_size_refuted",
    "C98_form"
   ],
   "note": "REFUTED \u2014 star-shaped polygons for which the scan reports an empty kernel, ValueError, IndexError, or loses the answer when the polygon is enlarged (C98_*_refuted). Proved: the form of an answer (C98_form); the quadrilaterals of C97_dart_partial and the convex polygons of C95_convex_partial get one"
  },
  {
   "property": "C99",
   "status": "partial",
   "theorems": [
    "C99_dart_partial",
    "C99_convex_partial",
    "C99_attribute_refuted",
    "C99_outside_refuted"
   ],
   "note": "REFUTED \u2014 AttributeError on a star-shaped hexagon (C99_attribute_refuted); a reference point outside the polygon (C99_outside_refuted). Proved: quadrilaterals with one reflex vertex and convex polygons (C99_dart_partial, C99_convex_partial)"
  },
  {
   "property": "C100",
   "status": "proved",
   "theorems": [
    "C100_guarantee",
    "C100_inside",
    "C100_disjoint"
   ],
   "note": "for convex obstacles and make_convex off; the hypotheses on obstacles are the conclusions of C61-C63, those on the geometry library are the records faithful_geometry and convex_obstacles, and hull_right for the hull of a member; C100_example is a scene that meets them"
  },
  {
   "property": "C101",
   "status": "partial",
   "theorems": [
    "C101_region_partial",
    "C101_simple_refuted"
   ],
   "note": "REFUTED \u2014 with a direction near a diagonal the outline crosses itself, already for an apex 10 from the centre (C101_simple_refuted). Proved: directions clear of the diagonals (C101_region_partial)"
  },
  {
   "property": "C102",
   "status": "proved",
   "theorems": [
    "C102_guarantee",
    "C102_disjoint"
   ],
   "note": "C100 with the modelled methods of convex polygons and ellipses (record implemented), cone polygons and hulls; assumed of shapely: record sets (intersection, union, empty, the region of a convex ring, a swept ring lies within its fan). That the triangle lies inside the admissible kernel is a hypothesis here; C100_inside derives it from the triangle placement"
  },
  {
   "property": "C103",
   "status": "partial",
   "theorems": [
    "C103_answers",
    "C103_list_region",
    "C103_same_apex_partial",
    "C103_pair_partial",
    "C103_shared_refuted"
   ],
   "note": "REFUTED for directions shared between the cones: a cone intersected with itself gives the empty polygon with same_apex=True and the cone with same_apex=False (C103_shared_refuted). Proved for same_apex=False without a condition on pairs of cones (C103_list_region), for same_apex=True and Cone.intersection when no two directions are parallel. Assumed of shapely: record cone_sets"
  },
  {
   "property": "C104",
   "status": "partial",
   "theorems": [
    "C104_one_row_partial",
    "C104_two_rows_partial",
    "C104_many_rows",
    "C104_columns",
    "C104_one_row_converted",
    "C104_rows_refuted"
   ],
   "note": "REFUTED for two rows (answers that are not unit vectors) and for three or more rows (ValueError). Proved: one row without change of frame; two rows are right exactly when equally far from xr or on the two axes; the frame changes take points as columns; one row with a change of frame is an IndexError"
  },
  {
   "property": "C105",
   "status": "partial",
   "theorems": [
    "C105_made",
    "C105_copied_partial",
    "C105_duplicate_id",
    "C105_default_names",
    "C105_duplicate_refuted"
   ],
   "note": "REFUTED for duplicates: Polygon.copy ignores the name given, Ellipse.copy loses the name when none is given and has no defaults. Proved for constructions, other copies, ids of duplicates and default names"
  },
  {
   "property": "C106",
   "status": "partial",
   "theorems": [
    "C106_undilated",
    "C106_dilated_partial",
    "C106_polygon_partial",
    "C106_stale_refuted"
   ],
   "note": "REFUTED for Polygon: dilated_obstacle keeps the answer computed for the original (C106_stale_refuted). Proved for StarshapedPolygon and Ellipse, and for Polygon without dilation; C106_polygon_partial says exactly which ring is_convex answers for"
  },
  {
   "property": "C107",
   "status": "proved",
   "theorems": [
    "C107_guarantee",
    "C107_maximal",
    "C107_disjoint",
    "C107_polygons"
   ],
   "note": "C107_polygons is the instance for convex polygon obstacles with the modelled methods. The robot may lie on the border of a replaced obstacle: contains of shapely is about interiors. Assumed of shapely: record faithful_geometry and what is stated in the theorems"
  },
  {
   "property": "C108",
   "status": "partial",
   "theorems": [
    "C108_rounds_partial",
    "C108_given_up",
    "C108_make_convex_refuted"
   ],
   "note": "REFUTED with make_convex: the entry shows the convex hull made after the loop (C108_make_convex_refuted). Everything else is proved (C108_rounds_partial); a call that gives up in a later round has one entry more than iterations (C108_given_up)"
  },
  {
   "property": "C109",
   "status": "proved",
   "theorems": [
    "C109_one_point_hull",
    "C109_least"
   ],
   "note": "for every shapely answer that is right for the polygon (record faithful) and lists disjoint parts (record plain); premise roomy: no two vertices in the same direction from the kernel point, ring points on the rays through vertices not closer than 1/1000 of the distance of the vertex to each other, double areas of the triangles over the edges above 1000 times the threshold. With three kernel points the result can be wrong (C93)"
  },
  {
   "property": "C110",
   "status": "partial",
   "theorems": [
    "C110_own_hull_partial",
    "C110_in_line_refuted"
   ],
   "note": "REFUTED: from a kernel point of the polygon in line with one of its edges a polygon that is star-shaped from it loses its notch (C110_in_line_refuted). Proved when no two vertices are in the same direction from the kernel point (record roomy, C110_own_hull_partial)"
  },
  {
   "property": "C111",
   "status": "partial",
   "theorems": [
    "C111_values_partial",
    "C111_no_exception",
    "C111_shared_refuted",
    "C111_callers_array_refuted",
    "C111_returned_array_refuted",
    "C111_kinds_raise"
   ],
   "note": "REFUTED: set_pos keeps and pos returns the array itself, which move changes in place: an array given to two obstacles moves a Static one (C111_shared_refuted), arrays of the caller change (C111_callers_array_refuted, C111_returned_array_refuted), tuples and arrays of integers make move raise (C111_kinds_raise). Proved for programs that give every array to set_pos once, do not change it afterwards and do not keep what pos returned over a move (C111_values_partial, C111_no_exception)"
  },
  {
   "property": "C112",
   "status": "proved",
   "theorems": [
    "C112_orientation_error",
    "C112_turn_tests",
    "C112_large_refuted"
   ],
   "note": "for the bound 160; C112_large_refuted shows that it fails for coordinates up to 300"
  },
  {
   "property": "C113",
   "status": "proved",
   "theorems": [
    "C113_orientation_exact",
    "C113_tests_exact",
    "C113_off_grid_refuted"
   ],
   "note": "C113_off_grid_refuted shows that the restriction is needed"
  },
  {
   "property": "C114",
   "status": "proved",
   "theorems": [
    "C114_hull"
   ],
   "note": ""
  },
  {
   "property": "C115",
   "status": "partial",
   "theorems": [
    "C115_transforms",
    "C115_round_trip_partial",
    "C115_round_trip_refuted",
    "C115_grid_round_trip"
   ],
   "note": "REFUTED: there and back is not exact, already without rotation: 0.1 moved by 0.2 and back (C115_round_trip_refuted). Proved: the error bounds of both transforms (C115_transforms), the round trip up to 35 M 2^-53 (C115_round_trip_partial), exact without rotation for multiples of 2^-s below 2^(25-s) (C115_grid_round_trip)"
  },
  {
   "property": "C116",
   "status": "partial",
   "theorems": [
    "C116_crossing",
    "C116_test",
    "C116_ends",
    "C116_not_finite_refuted"
   ],
   "note": "REFUTED: with coordinates below 1 the test can succeed and the denominator be zero; the answer is then infinite or nan (C116_not_finite_refuted). Proved: the error bound when the cross product of the directions is at least 4e-10 (C116_crossing), the correctness of the test away from 2e-10 (C116_test), and that ends on the other segment are found and what is returned without a crossing is close to the other segment (C116_ends)"
  },
  {
   "property": "C117",
   "status": "proved",
   "theorems": [
    "C117_between",
    "C117_on_segment"
   ],
   "note": ""
  },
  {
   "property": "C118",
   "status": "partial",
   "theorems": [
    "C118_segments_partial",
    "C118_same_start",
    "C118_common_end_refuted"
   ],
   "note": "REFUTED: the segments from (0.8, 0.3) and from (0.5, 0.3) to (0.3, 0.7) have no common point according to the function (C118_common_end_refuted). Proved: crossings with both parameters at least e = 150 M^2 2^-53 / D away from 0 and 1 are found, and a point that is returned is within 2 M e of the crossing of the lines, with parameters within e of [0, 1] (C118_segments_partial); a common first point is returned exactly (C118_same_start)"
  },
  {
   "property": "C119",
   "status": "partial",
   "theorems": [
    "C119_changes",
    "C119_gives_up",
    "C119_answer_agrees",
    "C119_incomplete_refuted",
    "C119_clustered_refuted",
    "C119_raise_refuted"
   ],
   "note": "REFUTED: a call that gives up in a later round (C119_incomplete_refuted), one that raises (C119_raise_refuted) and one that puts an obstacle into a larger cluster (C119_clustered_refuted) leave other reference points behind. Proved: exactly which are set, and to what (C119_changes), that nothing changes when the call gives up before the first round (C119_gives_up), and that the answer agrees with what is left behind (C119_answer_agrees)"
  },
  {
   "property": "C120",
   "status": "proved",
   "theorems": [
    "C120_reference_points_ignored"
   ],
   "note": ""
  },
  {
   "property": "C121",
   "status": "partial",
   "theorems": [
    "C121_draw_shows_partial",
    "C121_update_shows_partial",
    "C121_order_refuted",
    "C121_combination_refuted",
    "C121_combination_partial"
   ],
   "note": "REFUTED: the second handle is the mark of the reference point for an Ellipse and the name for a StarshapedPolygon (C121_order_refuted); update_plot of a StarshapedPrimitiveCombination changes nothing and has no argument for the frame (C121_combination_refuted). Proved: what draw and update_plot show for the other classes (C121_draw_shows_partial, C121_update_shows_partial), and draw for the combination (C121_combination_partial)"
  },
  {
   "property": "C122",
   "status": "partial",
   "theorems": [
    "C122_shapely_partial",
    "C122_clipped_partial",
    "C122_cells_partial",
    "C122_raises_partial",
    "C122_line_refuted",
    "C122_clipped_refuted"
   ],
   "note": "REFUTED: a kernel that is a line segment makes draw_adm_ker raise (C122_line_refuted), a polygon of which the box leaves two parts makes draw_shapely_polygon raise (C122_clipped_refuted). Proved: what is drawn where otherwise, and exactly when draw_adm_ker raises"
  },
  {
   "property": "C123",
   "status": "proved",
   "theorems": [
    "C123_lines"
   ],
   "note": ""
  },
  {
   "property": "C124",
   "status": "partial",
   "theorems": [
    "C124_rays_partial",
    "C124_same_start",
    "C124_start_on_ray_refuted"
   ],
   "note": "REFUTED: a ray that starts exactly on the other one is not found to meet it (C124_start_on_ray_refuted). Proved: None for parallel rays; a crossing is found if both parameters are at least e = 34 M^2/(2^53 D), and the answer is within 18 M e max(1, t); an answer is only given if both parameters are at least -e (C124_rays_partial); rays with the same start (C124_same_start)"
  },
  {
   "property": "C125",
   "status": "partial",
   "theorems": [
    "C125_location_error",
    "C125_sides",
    "C125_boundary_refuted"
   ],
   "note": "REFUTED: (5, 12) is exactly on the circle with radius 13 and reported as exterior (C125_boundary_refuted). Proved: the error bound and the sides beyond it, and boundary_point (C125_location_error, C125_sides)"
  },
  {
   "property": "C126",
   "status": "partial",
   "theorems": [
    "C126_proper_partial",
    "C126_nan_refuted"
   ],
   "note": "REFUTED: for the ellipse with axes 3 and 2 and the point (2.258, 1.316803537189795), which is outside, both tangent points are nan (C126_nan_refuted). Proved: proper answers for all points with a0^2 a1^2 (F - 1) >= 13 M^4 / 2^53, M <= 1024 a bound for coordinates, axes and their inverses; when the vertical tangent through the point is taken, also for coordinates of the point not below 1/M (C126_proper_partial)"
  },
  {
   "property": "C127",
   "status": "partial",
   "theorems": [
    "C127_kernel",
    "C127_single_refuted"
   ],
   "note": "REFUTED: clusters of a single obstacle are built in the first iteration, which ignores exclude_obstacles (C127_single_refuted). Proved: the stored kernel of every cluster is as meant for clusters of two or more obstacles, and the plain intersection for single obstacles or without the option (C127_kernel)"
  },
  {
   "property": "C128",
   "status": "partial",
   "theorems": [
    "C128_point_in_cone",
    "C128_short_refuted"
   ],
   "note": "REFUTED: a convex cone whose directions are shorter than the threshold allows is not recognised as convex and accepts points far outside (C128_short_refuted). Proved: both parts for cones whose directions turn left by twice the threshold or do not turn left (C128_point_in_cone)"
  },
  {
   "property": "C129",
   "status": "partial",
   "theorems": [
    "C129_interval",
    "C129_decimal_refuted"
   ],
   "note": "REFUTED for steps off the binary grid: ten steps of 0.1 do not land on the break time 1, and the eleventh step then leaves the path by more than 0.09 (C129_decimal_refuted). Proved: all starts, lists and steps on a common grid (C129_interval)"
  },
  {
   "property": "C130",
   "status": "proved",
   "theorems": [
    "C130_entries",
    "C130_bounded",
    "C130_in_time",
    "C130_too_late",
    "C130_convex_late"
   ],
   "note": "relative to the course of the call: which clusters are built, kept or fail in each pass is an arbitrary input"
  },
  {
   "property": "C131",
   "status": "partial",
   "theorems": [
    "C131_waypoints",
    "C131_stuck_refuted"
   ],
   "note": "REFUTED for steps shorter than half the distance of neighbouring numbers: the obstacle never moves (C131_stuck_refuted). Proved: all steps with vel dt at least 2^-45 M, M the bound of the coordinates (C131_waypoints)"
  },
  {
   "property": "C132",
   "status": "partial",
   "theorems": [
    "C132_past_end",
    "C132_overshoot_refuted"
   ],
   "note": "REFUTED for longer steps: the obstacle overshoots, distance 1 becomes 3 (C132_overshoot_refuted). Proved: all steps up to 1 with speed times dt at most 1 (C132_past_end)"
  },
  {
   "property": "C133",
   "status": "partial",
   "theorems": [
    "C133_clustering",
    "C133_star_hull",
    "C133_cluster_draw_never",
    "C133_cluster_draw_refuted",
    "C133_cluster_draw_one"
   ],
   "note": "REFUTED for ObstacleCluster.draw: it takes the results of draw in the wrong order and never returns for a cluster of more than one obstacle or with a cluster_obstacle (C133_cluster_draw_never, C133_cluster_draw_refuted). Proved: draw_clustering (C133_clustering) and draw_star_hull (C133_star_hull)"
  },
  {
   "property": "C134",
   "status": "proved",
   "theorems": [
    "C134_exact",
    "C134_list_intersection"
   ],
   "note": ""
  },
  {
   "property": "C135",
   "status": "partial",
   "theorems": [
    "C135_same_code",
    "C135_convexity",
    "C135_convexity_clear",
    "C135_threshold_refuted"
   ],
   "note": "REFUTED for turns at the threshold: a convex clockwise ring with a turn of exactly 1e-10 is answered False (C135_threshold_refuted). Proved: what each answer means up to turns of 2e-10 (C135_convexity), and the full statement when every turn is 0 or at least 2e-10 (C135_convexity_clear)"
  },
  {
   "property": "C136",
   "status": "proved",
   "theorems": [
    "C136_point_in_triangle"
   ],
   "note": ""
  },
  {
   "property": "C137",
   "status": "proved",
   "theorems": [
    "C137_same_code",
    "C137_static",
    "C137_cartesian",
    "C137_heading",
    "C137_frequency"
   ],
   "note": ""
  },
  {
   "property": "C138",
   "status": "proved",
   "theorems": [
    "C138_location",
    "C138_boundary",
    "C138_one_star",
    "C138_one_polygon",
    "C138_tangents",
    "C138_one_tangents"
   ],
   "note": "velocity: for at most two points of the border on a segment (more make the code fail, C85)"
  },
  {
   "property": "C139",
   "status": "proved",
   "theorems": [
    "C139_same_code",
    "C139_accuracy",
    "C139_rotated",
    "C139_shape",
    "C139_collapse"
   ],
   "note": ""
  },
  {
   "property": "C140",
   "status": "proved",
   "theorems": [
    "C140_same_code",
    "C140_same_velocity",
    "C140_direction",
    "C140_at_xr",
    "C140_velocity"
   ],
   "note": "relative to the velocities computed by the motion model (C129, C131, C137)"
  },
  {
   "property": "C141",
   "status": "proved",
   "theorems": [
    "C141_same_code",
    "C141_own_frame",
    "C141_normal",
    "C141_centre"
   ],
   "note": "called with x_is_boundary=True; the boundary point is an argument"
  },
  {
   "property": "C142",
   "status": "proved",
   "theorems": [
    "C142_same_code",
    "C142_same_polygon_code",
    "C142_distance",
    "C142_location",
    "C142_polygon_distance",
    "C142_border"
   ],
   "note": "relative to the point that boundary_mapping answers; the query point is given in the obstacle frame"
  },
  {
   "property": "C143",
   "status": "proved",
   "theorems": [
    "C143_same_code",
    "C143_vertical",
    "C143_on_ellipse",
    "C143_on_line",
    "C143_missed",
    "C143_crossed",
    "C143_one",
    "C143_band",
    "C143_nan_refuted"
   ],
   "note": "line and points in the obstacle frame; between the two bounds on the slope and on dx either case may be taken"
  },
  {
   "property": "C144",
   "status": "proved",
   "theorems": [
    "C144_same_code",
    "C144_answer",
    "C144_at_xr",
    "C144_steep"
   ],
   "note": "point and answer in the obstacle frame; C144_steep states the defect of the steep case (the answer is off the ray) as it is; slopes between 99 and 101 are not covered"
  }
 ]
}