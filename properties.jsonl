{"id": "C01", "title": "affine_transform inverse round-trip", "statement": "affine_transform(affine_transform(x, rot, trans), rot, trans, inverse=True) gives back x, and applying the inverse first and then the forward transform also gives back x.", "quantifier": "every point, rotation angle and translation (real-valued)", "why_tests_cant": "the rotation/translation space is uncountable and the code has a separate rotation==0 branch", "anchors": ["utils/cg.py:affine_transform"]}
{"id": "C02", "title": "affine_transform is a rigid motion", "statement": "affine_transform preserves every distance and every orientation value, so is_cw/is_ccw/is_collinear give the same answer before and after moving the three points by the same pose.", "quantifier": "all points, triples, rotations, translations", "why_tests_cant": "universally quantified over three points and a pose", "anchors": ["utils/cg.py:affine_transform", "utils/cg.py:orientation_val"]}
{"id": "C03", "title": "orientation predicates describe the turn", "statement": "is_cw and is_ccw are never both true, reversing the three points exchanges them, cyclic shifts keep them, and is_ccw(a,b,c) holds exactly when twice the signed area of (a,b,c) exceeds 1e-10.", "quantifier": "all triples of points", "why_tests_cant": "infinitely many triples, tolerance boundary included", "anchors": ["utils/cg.py:orientation_val", "utils/cg.py:is_cw", "utils/cg.py:is_ccw", "utils/cg.py:is_collinear"]}
{"id": "C04", "title": "a triple is cw, ccw or collinear", "statement": "Every triple of points is reported as exactly one of is_cw, is_ccw, is_collinear.", "quantifier": "all triples of points", "why_tests_cant": "the failing triples form a measure-zero set a random test never hits", "anchors": ["utils/cg.py:is_collinear", "utils/cg.py:is_cw", "utils/cg.py:is_ccw"]}
{"id": "C05", "title": "get_intersection of properly crossing segments", "statement": "If the two segments cross properly (all four turns outside the tolerance band and opposite), get_intersection returns the one point that lies on both segments; and whenever its crossing test succeeds the division it performs has a non-zero denominator and the returned point lies on both carrier lines.", "quantifier": "all pairs of segments", "why_tests_cant": "continuous input space with a tolerance-dependent branch", "anchors": ["utils/cg.py:intersect", "utils/cg.py:get_intersection"]}
{"id": "C06", "title": "get_intersection only returns points of both segments", "statement": "Any point returned by get_intersection lies on both segments (up to the stated tolerances).", "quantifier": "all pairs of segments", "why_tests_cant": "violations need inputs inside the 1e-10 band", "anchors": ["utils/cg.py:get_intersection"]}
{"id": "C07", "title": "is_between accepts the segment and only a thin neighbourhood", "statement": "is_between(a,b,c) is true for every b on the segment ac, and if it is true then b is within sqrt(eps*(2L+eps))/2 of the carrier line and within eps/2 of the segment lengthwise, where L=|ac| and eps=1e-8+1e-7*L.", "quantifier": "all triples of points", "why_tests_cant": "needs a quantitative bound for every accepted point", "anchors": ["utils/cg.py:is_between"]}
{"id": "C08", "title": "Line.line_intersection", "statement": "Returns None exactly when the absolute determinant of the directions is below 1e-10; otherwise returns the unique point common to both lines, independently of the order of the two lines.", "quantifier": "all pairs of lines", "why_tests_cant": "universal over 8 real parameters, uniqueness is not observable by examples", "anchors": ["utils/cg.py:Line.line_intersection"]}
{"id": "C09", "title": "LineSegment.line_segment_intersection", "statement": "Returns a point exactly when the segments are not (nearly) parallel and share a point, and it is the only point they share.", "quantifier": "all pairs of segments", "why_tests_cant": "soundness and completeness over a continuous domain", "anchors": ["utils/cg.py:LineSegment.line_segment_intersection"]}
{"id": "C10", "title": "Ray.ray_intersection", "statement": "Returns a point exactly when the rays are not (nearly) parallel and share a point, and it is the only point they share.", "quantifier": "all pairs of rays", "why_tests_cant": "soundness and completeness over a continuous domain", "anchors": ["utils/cg.py:Ray.ray_intersection"]}
{"id": "C11", "title": "Line.intersects reports crossings", "statement": "Line.intersects(other) is true whenever the two properly cross.", "quantifier": "all pairs of lines", "why_tests_cant": "a property about every pair; the tests never call it", "anchors": ["utils/cg.py:Line.intersects"]}
{"id": "C12", "title": "equilateral_triangle", "statement": "The three returned points are pairwise at distance side_length, their mean is the centroid, each at distance side_length/sqrt(3) from it; for a non-zero rotation the mean is still the requested centroid.", "quantifier": "all centroids, side lengths, rotations", "why_tests_cant": "real parameters and trigonometry", "anchors": ["utils/cg.py:equilateral_triangle"]}
{"id": "C13", "title": "convex_hull of points in general position", "statement": "For at least one point, with no triple inside the collinearity tolerance, convex_hull terminates after at most n rounds and returns distinct input points starting with the leftmost-topmost, such that every other input point is strictly to the left of every hull edge; the region to the left of all hull edges is exactly the convex hull of the input.", "quantifier": "all finite point lists in general position", "why_tests_cant": "unbounded n, termination and a global geometric postcondition", "anchors": ["utils/cg.py:convex_hull"]}
{"id": "C14", "title": "convex_hull always terminates", "statement": "convex_hull returns for every non-empty list of points.", "quantifier": "all finite point lists", "why_tests_cant": "non-termination needs specific duplicate placements; a test would hang instead of failing", "anchors": ["utils/cg.py:convex_hull"]}
{"id": "C15", "title": "Cone.point_in_cone is sector membership", "statement": "For a cone whose two directions are not within tolerance of collinear, and x outside the tolerance bands, point_in_cone(x) is true exactly when x-apex lies in the open sector swept counter-clockwise from dir1 to dir2.", "quantifier": "all cones and points", "why_tests_cant": "continuous domain, convex and non-convex branch", "anchors": ["utils/cg.py:Cone.point_in_cone", "utils/cg.py:Cone.__init__"]}
{"id": "C16", "title": "Cone.intersection_same_apex is intersection", "statement": "For two cones with a common apex and directions in general position, a point is in the first and in the second cone exactly when it is in one of the returned cones.", "quantifier": "all pairs of cones in general position and all points", "why_tests_cant": "all angular configurations, including doubly-overlapping reflex cones", "anchors": ["utils/cg.py:Cone.intersection_same_apex"]}
{"id": "C17", "title": "folding same-apex cones over a list", "statement": "list_intersection(cones, same_apex=True) describes exactly the points in all cones of the list, whatever the order of the list, and reports the empty polygon exactly when the fold has no cone left.", "quantifier": "all non-empty lists of cones in general position", "why_tests_cant": "unbounded list length and order", "anchors": ["utils/cg.py:Cone.list_intersection"]}
{"id": "C18", "title": "cone intersection is idempotent and symmetric", "statement": "Intersecting a cone with itself gives that cone and intersection_same_apex does not depend on which cone is self.", "quantifier": "all pairs of cones with common apex, shared directions allowed", "why_tests_cant": "requires shared tangent directions, which random tests do not generate", "anchors": ["utils/cg.py:Cone.intersection_same_apex"]}
{"id": "C19", "title": "Cone.polygon is total inside the bounding box", "statement": "If the apex lies strictly inside the 2e6-wide box and both directions are long enough, polygon() never fails: it lists the apex, a point of the first ray on the line of one box side, the consecutive box corners counter-clockwise from that side to the side of the second point (none exactly when the cone is convex and both sides are the same), and a point of the second ray.", "quantifier": "all apexes in the box and all directions", "why_tests_cant": "angular case analysis over a continuous domain", "anchors": ["utils/cg.py:Cone.polygon"]}
{"id": "C20", "title": "point_in_triangle", "statement": "For every outcome of the random generator the point is a convex combination of the three vertices, with weights min(x,y), |x-y| and 1-max(x,y).", "quantifier": "all triangles, all random draws in [0,1)", "why_tests_cant": "quantifies over every random outcome", "anchors": ["utils/cg.py:point_in_triangle"]}
{"id": "C21", "title": "random star polygon", "statement": "random_angle_steps returns positive steps that sum to 2*pi; generate_star_polygon rejects irregularity/spikiness outside [0,1] and otherwise returns num_vertices points, the i-th at distance at most 2*avg_radius from the center at the angle given by the accumulated steps.", "quantifier": "all parameters, all random draws", "why_tests_cant": "quantifies over every random outcome", "anchors": ["utils/cg.py:generate_star_polygon", "utils/cg.py:random_angle_steps"]}
{"id": "C22", "title": "generate_convex_polygon closes up and is centred", "statement": "The edge vectors sum to zero, the mean of the returned vertices is the origin, and every vertex x coordinate is within box[0] of the origin.", "quantifier": "all n>=3, boxes and random draws", "why_tests_cant": "quantifies over every random outcome and n", "anchors": ["utils/cg.py:generate_convex_polygon"]}
{"id": "C23", "title": "generate_convex_polygon stays in its box", "statement": "Every returned vertex lies in [-box[0],box[0]] x [-box[1],box[1]].", "quantifier": "all boxes and random draws", "why_tests_cant": "needs a non-square box and an unlucky draw", "anchors": ["utils/cg.py:generate_convex_polygon"]}
{"id": "C24", "title": "obstacle ids", "statement": "Obstacles created with id='new' get pairwise distinct, strictly increasing positive ids whatever other obstacles are created in between; an explicit integer id is kept exactly when it was already handed out; temporary and invalid requests get no id.", "quantifier": "all creation histories", "why_tests_cant": "unbounded interleaved creation sequences over a class-level counter", "anchors": ["obstacles/obstacle.py:Obstacle._set_id_name", "obstacles/obstacle.py:Obstacle.copy"]}
{"id": "C25", "title": "a copy is independent of the original", "statement": "After c = o.copy(...), moving c does not change the pose of o.", "quantifier": "all obstacle classes and motion histories", "why_tests_cant": "aliasing is only visible through later mutations", "anchors": ["obstacles/obstacle.py:Obstacle.copy", "obstacles/ellipse.py:Ellipse.copy", "obstacles/starshaped_polygon.py:StarshapedPolygon.copy"]}
{"id": "C26", "title": "polygon() is never stale", "statement": "At every point of every history of moves, pose changes, motion-model replacements and queries, polygon(GLOBAL) equals the local polygon moved by the current pose and polygon(OBSTACLE) equals the local polygon.", "quantifier": "all operation histories", "why_tests_cant": "cache validity over unbounded histories", "anchors": ["obstacles/obstacle.py:Obstacle.polygon"]}
{"id": "C27", "title": "kernel() is never stale", "statement": "At every point of every history kernel(GLOBAL) equals the local kernel moved by the current pose.", "quantifier": "all operation histories, including calls that raised", "why_tests_cant": "needs histories with a failed call in the middle", "anchors": ["obstacles/starshaped_obstacle.py:StarshapedObstacle.kernel", "obstacles/ellipse.py:Ellipse._compute_kernel"]}
{"id": "C28", "title": "frame changes", "statement": "transform between frames round-trips in both directions and is the identity for equal frames or no motion model; rotate agrees with transform on differences of points and preserves length.", "quantifier": "all points, poses, frame pairs", "why_tests_cant": "continuous domain times frame dispatch", "anchors": ["obstacles/obstacle.py:Obstacle.transform", "obstacles/obstacle.py:Obstacle.rotate"]}
{"id": "C29", "title": "set_xr then xr", "statement": "After set_xr(p, frame), xr(frame) returns p, in either frame; set_xr(..., safe_set=True) changes xr only to points of the kernel.", "quantifier": "all points, poses, frames", "why_tests_cant": "universal over poses; safe_set is never exercised", "anchors": ["obstacles/starshaped_obstacle.py:StarshapedObstacle.set_xr", "obstacles/starshaped_obstacle.py:StarshapedObstacle.xr"]}
{"id": "C30", "title": "interior, boundary and exterior are exclusive", "statement": "A point is never both interior and exterior, every point that is neither has location 0, and boundary_point holds exactly for |location|<=1e-8; a boundary point is neither interior nor exterior.", "quantifier": "all obstacles and points", "why_tests_cant": "continuous domain, tolerance overlap", "anchors": ["obstacles/obstacle.py:Obstacle.interior_point", "obstacles/obstacle.py:Obstacle.exterior_point", "obstacles/obstacle.py:Obstacle.boundary_point"]}
{"id": "C31", "title": "reference_direction", "statement": "For x different from the reference point the result has length 1, points from xr to x, and expressing it in the other frame is the rotation of it.", "quantifier": "all points, references, poses, frames", "why_tests_cant": "continuous domain", "anchors": ["obstacles/starshaped_obstacle.py:StarshapedObstacle.reference_direction"]}
{"id": "C32", "title": "vel_intertial_frame is the rigid-body velocity", "statement": "The returned velocity equals linear velocity plus angular velocity crossed with the lever arm from the obstacle position to x.", "quantifier": "all poses, velocities, points", "why_tests_cant": "continuous domain", "anchors": ["obstacles/starshaped_obstacle.py:StarshapedObstacle.vel_intertial_frame"]}
{"id": "C33", "title": "Static obstacles never move", "statement": "Any sequence of move(dt) leaves position and rotation unchanged and advances time by the sum of the dt.", "quantifier": "all step sequences", "why_tests_cant": "unbounded histories", "anchors": ["obstacles/motion_model.py:Static", "obstacles/motion_model.py:MotionModel.move"]}
{"id": "C34", "title": "SinusVelocity trajectory", "statement": "In Cartesian mode the position after any step sequence is the initial position plus sum mag*cos(freq*t_k)*dt_k with t_k the elapsed time, and rotation is constant; in either mode each step moves by at most the velocity magnitude times |dt|.", "quantifier": "all parameters and step sequences", "why_tests_cant": "unbounded histories over reals", "anchors": ["obstacles/motion_model.py:SinusVelocity"]}
{"id": "C35", "title": "Interval passes its way-points on time", "statement": "For any step sequence that lands on each break time, the position at the i-th break time is the i-th listed position, and between two break times it is on the segment, at the time-proportional place.", "quantifier": "all interval lists and step sequences hitting the breaks", "why_tests_cant": "unbounded histories over reals", "anchors": ["obstacles/motion_model.py:Interval"]}
{"id": "C36", "title": "Interval rests at the last point", "statement": "Once the last time has been reached exactly, further moves keep the obstacle at the last listed position.", "quantifier": "all interval lists and step sequences", "why_tests_cant": "needs a schedule that lands exactly on the final time", "anchors": ["obstacles/motion_model.py:Interval.lin_vel"]}
{"id": "C37", "title": "Waypoints velocity query", "statement": "lin_vel() always terminates, never decreases the waypoint index nor raises it past the number of waypoints, skips exactly the run of waypoints closer than wp_thresh, and returns a vector of length |vel| toward the current waypoint, or zero when none is left.", "quantifier": "all waypoint lists, positions, thresholds", "why_tests_cant": "unbounded recursion depth and continuous positions", "anchors": ["obstacles/motion_model.py:Waypoints.lin_vel"]}
{"id": "C38", "title": "Waypoints are all reached", "statement": "If 0 < vel*dt <= wp_thresh, repeated move(dt) reaches all waypoints after finitely many steps and then stays at rest for ever.", "quantifier": "all waypoint lists, start positions, step sizes within the bound", "why_tests_cant": "liveness over unbounded histories", "anchors": ["obstacles/motion_model.py:Waypoints", "obstacles/motion_model.py:MotionModel.move"]}
{"id": "C39", "title": "Waypoints without the step-size bound", "statement": "Repeated move(dt) reaches all waypoints for every positive dt and every non-negative wp_thresh.", "quantifier": "all parameters", "why_tests_cant": "non-termination cannot be observed by a finite test", "anchors": ["obstacles/motion_model.py:Waypoints"]}
{"id": "C40", "title": "Ellipse.point_location", "statement": "Negative/zero/positive exactly for points inside/on/outside the ellipse placed at the current pose, in either input frame.", "quantifier": "all ellipses, poses, points", "why_tests_cant": "continuous domain", "anchors": ["obstacles/ellipse.py:Ellipse.point_location"]}
{"id": "C41", "title": "Ellipse.line_intersection for non-steep lines", "statement": "For a segment that is neither vertical nor steeper than 100 in the obstacle frame and not (nearly) tangent, the returned points are exactly the points common to the segment and the ellipse boundary.", "quantifier": "all ellipses, poses and segments in that class", "why_tests_cant": "soundness and completeness over a continuous domain", "anchors": ["obstacles/ellipse.py:Ellipse.line_intersection"]}
{"id": "C42", "title": "Ellipse.line_intersection for all lines", "statement": "Every returned point lies on the segment and on the ellipse.", "quantifier": "all ellipses and segments", "why_tests_cant": "the failing classes (vertical, tangent) have measure zero or need xr off-axis", "anchors": ["obstacles/ellipse.py:Ellipse.line_intersection"]}
{"id": "C43", "title": "Ellipse.tangent_points", "statement": "For an exterior point away from the vertical-tangent special case, two points are returned, both on the ellipse, both lines from x touch the ellipse only there, the whole ellipse lies in the wedge between them and the first is the one on the left seen from x; for all other points the list is empty.", "quantifier": "all ellipses, poses and points", "why_tests_cant": "continuous domain with quantification over the whole ellipse", "anchors": ["obstacles/ellipse.py:Ellipse.tangent_points"]}
{"id": "C44", "title": "Ellipse.tangent_points is defined for every exterior point", "statement": "For every exterior point the two tangent points are finite and lie on the ellipse.", "quantifier": "all ellipses and exterior points", "why_tests_cant": "failing set is one point of an axis", "anchors": ["obstacles/ellipse.py:Ellipse.tangent_points"]}
{"id": "C45", "title": "Ellipse.boundary_mapping in non-steep directions", "statement": "With the reference point inside, the mapped point lies on the boundary and on the ray from xr through x, and it is the only such point.", "quantifier": "all ellipses, references, points in non-steep directions", "why_tests_cant": "continuous domain, uniqueness", "anchors": ["obstacles/ellipse.py:Ellipse.boundary_mapping"]}
{"id": "C46", "title": "Ellipse.boundary_mapping in all directions", "statement": "The mapped point lies on the boundary and on the ray from xr through x.", "quantifier": "all points other than xr", "why_tests_cant": "failing set needs an off-centre reference and steep direction", "anchors": ["obstacles/ellipse.py:Ellipse.boundary_mapping"]}
{"id": "C47", "title": "Ellipse.normal is the outward unit normal", "statement": "For a boundary point b, normal(b, x_is_boundary=True) has length 1 and n.(y-b)<=0 for every y of the ellipse.", "quantifier": "all ellipses, poses and boundary points", "why_tests_cant": "quantifies over the whole ellipse", "anchors": ["obstacles/ellipse.py:Ellipse.normal"]}
{"id": "C48", "title": "Ellipse.polygon covers the ellipse", "statement": "The polygon representation contains every point of the ellipse and exceeds the axes by at most 1e-3.", "quantifier": "all ellipses, n_pol", "why_tests_cant": "needs points between polygon vertices; holds only partly", "anchors": ["obstacles/ellipse.py:Ellipse._compute_polygon_representation"]}
{"id": "C49", "title": "Ellipse.dilated_obstacle covers the padding", "statement": "Every point within distance padding of the ellipse lies in the dilated ellipse; the dilated ellipse contains the original and the original is unchanged.", "quantifier": "all ellipses and paddings", "why_tests_cant": "quantifies over all points of a Minkowski sum", "anchors": ["obstacles/ellipse.py:Ellipse.dilated_obstacle"]}
{"id": "C50", "title": "Polygon.tangent_points from a separated point", "statement": "If some line separates x strictly from all vertices, tangent_points returns two vertices such that every vertex (hence the convex hull) lies in the wedge between them, the first on the left seen from x.", "quantifier": "all vertex cycles and separated points", "why_tests_cant": "unbounded vertex count, angle unwrapping across the branch cut", "anchors": ["obstacles/polygon.py:Polygon.tangent_points"]}
{"id": "C51", "title": "Polygon.tangent_points from inside", "statement": "If the boundary runs strictly counter-clockwise (or clockwise) around x, tangent_points returns the empty list.", "quantifier": "all vertex cycles and such points", "why_tests_cant": "unbounded vertex count, winding argument", "anchors": ["obstacles/polygon.py:Polygon.tangent_points"]}
{"id": "C52", "title": "Polygon convexity check", "statement": "When is_convex() returns, it is True exactly when no vertex turns strictly clockwise or no vertex turns strictly counter-clockwise, independently of traversal direction; when every vertex is collinear a RuntimeError is raised.", "quantifier": "all vertex cycles", "why_tests_cant": "unbounded vertex count, error path", "anchors": ["obstacles/polygon.py:Polygon._check_convexity"]}
{"id": "C53", "title": "Polygon.point_location", "statement": "-1/0/1 exactly for interior/boundary/exterior points of the polygon.", "quantifier": "all polygons and points", "why_tests_cant": "boundary has measure zero; the bounding-box shortcut changes answers only there", "anchors": ["obstacles/polygon.py:Polygon.point_location"]}
{"id": "C54", "title": "vertex angle table", "statement": "After construction and after every set_xr, the table holds the same vertices, sorted by their angle around xr, with the angles stored in the same order plus the first angle advanced by 2*pi.", "quantifier": "all vertex lists and reference histories", "why_tests_cant": "unbounded vertex count and histories", "anchors": ["obstacles/starshaped_polygon.py:StarshapedPolygon._update_vertex_angles", "obstacles/starshaped_polygon.py:StarshapedPolygon.set_xr"]}
{"id": "C55", "title": "StarshapedPolygon.normal picks the facing edge", "statement": "The chosen edge is the one whose angular sector around xr contains x; the 'edge' normal has length 1, is perpendicular to that edge and points away from xr when the edge runs counter-clockwise around xr.", "quantifier": "all vertex tables and points", "why_tests_cant": "unbounded vertex count, wrap-around index", "anchors": ["obstacles/starshaped_polygon.py:StarshapedPolygon.normal"]}
{"id": "C56", "title": "StarshapedPolygon.distance_function", "statement": "Below/equal/above 1 exactly when x is closer/equal/farther than the boundary point in its direction, strictly increasing along every ray from xr.", "quantifier": "all points, references and boundary radii", "why_tests_cant": "continuous domain, piecewise definition", "anchors": ["obstacles/starshaped_polygon.py:StarshapedPolygon.distance_function", "obstacles/starshaped_obstacle.py:StarshapedObstacle.distance_function"]}
{"id": "C57", "title": "boundary mapping after dilation", "statement": "boundary_mapping of a dilated starshaped polygon finds the boundary in every direction.", "quantifier": "all star polygons, references, paddings and directions", "why_tests_cant": "needs an off-centre reference and a diagonal direction", "anchors": ["obstacles/starshaped_polygon.py:StarshapedPolygon.dilated_obstacle", "obstacles/starshaped_polygon.py:StarshapedPolygon.boundary_mapping"]}
{"id": "C58", "title": "combination point_location is union", "statement": "-1 exactly when x is interior to some member or the hull, 0 exactly when not and on the boundary of one, 1 otherwise.", "quantifier": "all member lists and points", "why_tests_cant": "unbounded member count", "anchors": ["obstacles/starshaped_primitive_combination.py:StarshapedPrimitiveCombination.point_location"]}
{"id": "C59", "title": "combination tangent points are the extreme candidates", "statement": "A candidate is returned exactly when all other candidates are strictly on one side of the line from x through it; the first returned point is on the left seen from x, as for the primitives.", "quantifier": "all candidate lists and view points", "why_tests_cant": "unbounded member count and order", "anchors": ["obstacles/starshaped_primitive_combination.py:StarshapedPrimitiveCombination.tangent_points"]}
{"id": "C60", "title": "combination boundary mapping", "statement": "The mapped point is the intersection of the probe segment with the members or hull that is farthest from xr, and one is found for every x different from xr.", "quantifier": "all members, references and points", "why_tests_cant": "near-reference points are rarely sampled", "anchors": ["obstacles/starshaped_primitive_combination.py:StarshapedPrimitiveCombination.boundary_mapping"]}
{"id": "C61", "title": "admissible_kernel is exact", "statement": "For a convex obstacle and a point x outside it, a point k rejected by admissible_kernel(obstacle, x) has x on a segment from k to the obstacle; an accepted k further than the tolerance from the two tangents has not; None is returned when there are no tangents.", "quantifier": "all convex obstacles with tangents, all x, all k", "why_tests_cant": "quantifies over all obstacle points and all kernel points", "anchors": ["starshaped_hull/starshaped_hull.py:admissible_kernel", "utils/cg.py:Cone.point_in_cone"]}
{"id": "C62", "title": "convex starshaped hull is starshaped", "statement": "For a convex obstacle O and kernel points K, the union of O and convex_kernel_starshaped_hull(O, K) contains every segment from a point of the triangle (convex hull) of K to any of its points, when the tangent and kernel points are distinct with no near-collinear triple.", "quantifier": "all convex regions with correct tangent points (Ellipse and convex Polygon are shown to be), all kernel sets", "why_tests_cant": "quantifies over every point pair of the set", "anchors": ["starshaped_hull/starshaped_hull.py:convex_kernel_starshaped_hull"]}
{"id": "C63", "title": "the starshaped hull keeps x out", "statement": "If the triangle of kernel points lies in the admissible kernel for x (outside the tolerance of the tangents), x is neither in the obstacle nor in the hull points' convex hull.", "quantifier": "all convex obstacles, exterior points, kernel triangles", "why_tests_cant": "quantifies over a two-dimensional family of segments", "anchors": ["starshaped_hull/starshaped_hull.py:convex_kernel_starshaped_hull", "starshaped_hull/starshaped_hull.py:admissible_kernel"]}
{"id": "C64", "title": "get_intersection_clusters computes connected components", "statement": "Two input clusters end in the same output cluster exactly when they are linked by a chain of intersecting polygons; the flag is True exactly when some pair intersects.", "quantifier": "all cluster lists and intersection relations, all set iteration orders", "why_tests_cant": "unbounded graph size and nondeterministic set order", "anchors": ["starshaped_hull/cluster_and_starify.py:get_intersection_clusters"]}
{"id": "C65", "title": "clustering preserves obstacles", "statement": "The obstacles of the output clusters are a permutation of those of the input clusters, and the number of clusters strictly decreases when an intersection exists.", "quantifier": "all cluster lists and relations", "why_tests_cant": "unbounded size", "anchors": ["starshaped_hull/cluster_and_starify.py:get_intersection_clusters"]}
{"id": "C66", "title": "cluster_and_starify terminates", "statement": "The iteration stops after at most max(1, number of obstacles) rounds for every geometry, timing and option setting.", "quantifier": "all scenes, oracles for the geometry library, timings, options", "why_tests_cant": "termination for every scene", "anchors": ["starshaped_hull/cluster_and_starify.py:cluster_and_starify"]}
{"id": "C67", "title": "COMPLETE means disjoint and starified", "statement": "When the flag is COMPLETE the returned cluster polygons are pairwise non-intersecting and every cluster has a cluster obstacle.", "quantifier": "all scenes, timings, options", "why_tests_cant": "global postcondition over all executions", "anchors": ["starshaped_hull/cluster_and_starify.py:cluster_and_starify"]}
{"id": "C68", "title": "INCOMPLETE returns the raw obstacles", "statement": "When the flag is INCOMPLETE the clusters are exactly the input obstacles as singletons in input order, with no kernel points; this is the answer whenever the robot or goal has no tangents to some obstacle.", "quantifier": "all scenes, timings, options", "why_tests_cant": "all early exits", "anchors": ["starshaped_hull/cluster_and_starify.py:cluster_and_starify"]}
{"id": "C69", "title": "no obstacle is lost", "statement": "In every result the obstacles of the clusters are a permutation of the input obstacles.", "quantifier": "all scenes whose obstacles have distinct ids / all scenes", "why_tests_cant": "needs id collisions", "anchors": ["starshaped_hull/cluster_and_starify.py:cluster_and_starify", "starshaped_hull/cluster_and_starify.py:ObstacleCluster"]}
{"id": "C70", "title": "cluster names identify obstacle sets", "statement": "Two clusters have the same name exactly when they hold the same sequence of obstacle ids.", "quantifier": "all id sequences", "why_tests_cant": "unbounded strings", "anchors": ["starshaped_hull/cluster_and_starify.py:ObstacleCluster", "starshaped_hull/cluster_and_starify.py:extract_cluster"]}
{"id": "C71", "title": "previous clusters can be fed back", "statement": "The clusters returned by one call can be passed as previous_clusters to the next.", "quantifier": "all results of a call", "why_tests_cant": "needs a failed first call", "anchors": ["starshaped_hull/cluster_and_starify.py:compute_kernel_points", "starshaped_hull/cluster_and_starify.py:cluster_and_starify"]}
{"id": "C72", "title": "make_convex keeps the guarantees", "statement": "With make_convex, each cluster replaced by its convex hull has a hull avoiding x, xg and the polygons of all other clusters, all other clusters are unchanged, and polygon() of a cluster is the polygon of its cluster obstacle.", "quantifier": "all scenes and timings", "why_tests_cant": "order-dependent in-place updates with caches", "anchors": ["starshaped_hull/cluster_and_starify.py:cluster_and_starify", "starshaped_hull/cluster_and_starify.py:ObstacleCluster.polygon"]}
{"id": "C73", "title": "return shape follows return_history", "statement": "With return_history the call returns five values, otherwise four.", "quantifier": "all options, scenes and timings", "why_tests_cant": "depends on timing in the convex phase", "anchors": ["starshaped_hull/cluster_and_starify.py:cluster_and_starify"]}
{"id": "C74", "title": "kernel points lie in the selection set", "statement": "compute_kernel_points returns an equilateral triangle around the chosen centre with side min(epsilon, 0.9*distance to the boundary of the selection set); if the centre is in the set the whole triangle is; the centre is not collinear with x and xg.", "quantifier": "all selection sets, centres, epsilon", "why_tests_cant": "quantifies over regions and random perturbations", "anchors": ["starshaped_hull/cluster_and_starify.py:compute_kernel_points"]}
{"id": "C75", "title": "cluster_and_starify accepts every convex obstacle", "statement": "Convex obstacles of every class provided by the library (Ellipse, Polygon, StarshapedPolygon) can be passed to cluster_and_starify without raising.", "quantifier": "all scenes of convex obstacles", "why_tests_cant": "class/method dispatch for each branch", "anchors": ["starshaped_hull/cluster_and_starify.py:compute_kernel_points", "starshaped_hull/cluster_and_starify.py:cluster_and_starify"]}
{"id": "C76", "title": "generate_convex_polygon is convex", "statement": "The vertices returned by generate_convex_polygon form a convex polygon listed counter-clockwise: no vertex lies to the right of any edge.", "quantifier": "all n, boxes and random draws", "why_tests_cant": "depends on ties between random edge directions and holds for every n", "anchors": ["utils/cg.py:generate_convex_polygon"]}
{"id": "C77", "title": "Cone.polygon border points lie on the box", "statement": "The two border points listed by polygon() are the points where the rays leave the bounding box.", "quantifier": "all apexes strictly inside the box and all directions that are long enough", "why_tests_cant": "only fails for apexes away from the centre and directions near a diagonal", "anchors": ["utils/cg.py:Cone.polygon"]}
{"id": "C78", "title": "Ellipse.tangent_points order does not depend on the frames", "statement": "For an exterior point x given in one frame and an answer requested in the other, the two tangent points are the same as with equal frames, the first on the left seen from x.", "quantifier": "all ellipses with positive axes, all poses, all exterior points, both input and both output frames", "why_tests_cant": "the order is decided by mixing a point of one frame with two points of another, so it is right for many poses and wrong for others", "anchors": ["obstacles/ellipse.py:163-200"]}
{"id": "C79", "title": "StarshapedPolygon.normal, 'weighted_edges'", "statement": "The 'weighted_edges' normal is a unit vector composed of the outward normals of the facing edge and its two neighbours with weights inversely proportional to the distance of x to the edge.", "quantifier": "all polygons, reference points, query points, frames", "why_tests_cant": "no test calls normal with type='weighted_edges'; the length depends on the edge lengths and on x", "anchors": ["obstacles/starshaped_polygon.py:StarshapedPolygon.normal"]}
{"id": "C80", "title": "Polygon.line_intersection answers for every segment", "statement": "line_intersection returns points of the segment on the polygon boundary, none exactly when they do not meet and all of them when there are finitely many, and never raises.", "quantifier": "all polygons, segments, frames", "why_tests_cant": "the branch for mixed intersections (an edge and a separate point) needs a segment collinear with an edge of a non-convex polygon", "anchors": ["obstacles/polygon.py:Polygon.line_intersection"]}
{"id": "C81", "title": "Cluster names do not depend on merge order", "statement": "Two clusters made of the same obstacles carry the same name, whatever sequence of get_intersection_clusters calls brought the obstacles together, so that history and previous-cluster lookups by name find them.", "quantifier": "all lists of obstacles, all sequences of intersections", "why_tests_cant": "Needs two different merge histories that end with the same obstacle set; single runs always see one order.", "anchors": ["starshaped_hull/cluster_and_starify.py:ObstacleCluster", "starshaped_hull/cluster_and_starify.py:get_intersection_clusters"]}
{"id": "C82", "title": "cluster_and_starify returns at the goal", "statement": "A call whose robot position equals the goal position returns, and can return COMPLETE.", "quantifier": "all scenes with x = xg, all random displacements", "why_tests_cant": "non-termination; needs every random sequence", "anchors": ["starshaped_hull/cluster_and_starify.py:compute_kernel_points", "starshaped_hull/cluster_and_starify.py:cluster_and_starify"]}
{"id": "C83", "title": "the result does not depend on clock resolution", "statement": "A call never raises because the clock returned the same value at consecutive readings.", "quantifier": "all scenes and clocks", "why_tests_cant": "needs a coarse clock or a very fast machine", "anchors": ["starshaped_hull/cluster_and_starify.py:compute_kernel_points"]}
{"id": "C84", "title": "cluster obstacles keep their id between calls", "statement": "A cluster whose name occurs in previous_clusters gets a cluster obstacle with the id of the previous cluster obstacle of that name.", "quantifier": "all scenes, options and previous clusters", "why_tests_cant": "needs sequences of calls in which hulls appear and vanish; ids are rarely asserted", "anchors": ["starshaped_hull/cluster_and_starify.py:cluster_and_starify"]}
{"id": "C85", "title": "velocity of a combination", "statement": "vel_intertial_frame(x) is the velocity, at the boundary point in the direction of x, of the member on whose border that point lies, whatever the order of the members.", "quantifier": "all members, hulls and query points", "why_tests_cant": "moving overlapping members with different velocities are rarely sampled in both orders", "anchors": ["obstacles/starshaped_primitive_combination.py:StarshapedPrimitiveCombination.vel_intertial_frame"]}
{"id": "C86", "title": "normal of a combination", "statement": "normal(x) returns, for each of its three documented kinds, a unit vector: the outward normal of the edge facing x, the normal of the member or hull whose border is met last, or the weighted one; and the default kind can be called on a new combination.", "quantifier": "all combinations and points different from xr", "why_tests_cant": "call order: a fresh object differs from one that was drawn before", "anchors": ["obstacles/starshaped_primitive_combination.py:StarshapedPrimitiveCombination.normal"]}
{"id": "C87", "title": "caches of a combination follow its members", "statement": "After set_xr, or after a member has moved, polygon() and the vertex angle table describe the current shape.", "quantifier": "all histories of polygon, set_xr and member motion", "why_tests_cant": "needs histories of calls with mutation in between", "anchors": ["obstacles/starshaped_primitive_combination.py:StarshapedPrimitiveCombination.set_xr", "obstacles/starshaped_primitive_combination.py:StarshapedPrimitiveCombination.polygon"]}
{"id": "C88", "title": "distance function agrees with point location", "statement": "distance_function(x) is below 1 exactly for interior points, 1 on the boundary and above 1 outside, for every x different from the reference.", "quantifier": "all star-shaped combinations and points", "why_tests_cant": "points close to the reference point are rarely sampled", "anchors": ["obstacles/starshaped_obstacle.py:StarshapedObstacle.distance_function", "obstacles/starshaped_primitive_combination.py:StarshapedPrimitiveCombination.boundary_mapping"]}
{"id": "C89", "title": "ids of cluster obstacles are unique", "statement": "The cluster obstacles in an answer have pairwise different ids, none of them the id of an obstacle outside the cluster, and this stays so when every answer is passed on as previous_clusters.", "quantifier": "all scenes, all sequences of calls", "why_tests_cant": "needs whole sequences of calls, with clusters merging, splitting and being made convex", "anchors": ["starshaped_hull/cluster_and_starify.py:cluster_and_starify", "obstacles/obstacle.py:Obstacle._set_id_name"]}
{"id": "C90", "title": "The hull of a polygon adds no point that star-shapedness does not need", "statement": "Whenever polygon_kernel_starshaped_hull(polygon, kernel_points) returns, every vertex of the result lies on a segment from one of the kernel points to a vertex of the polygon. Hence every region that contains the polygon's vertices and is star-shaped with respect to all the kernel points contains all vertices of the result.", "quantifier": "all polygons, all non-empty lists of kernel points, all shapely answers that are correct for that polygon", "why_tests_cant": "The result has coordinates computed from intersections of lines with earlier results; a test sees single polygons, not that no sequence of adjustments can ever leave the segments.", "anchors": ["starshaped_hull/starshaped_hull.py:polygon_kernel_starshaped_hull", "utils/cg.py:line", "utils/cg.py:ray"]}
{"id": "C91", "title": "Vertices with nothing behind them are kept", "statement": "If no ray from a vertex v of the polygon, pointing away from a kernel point, meets the polygon again, and v is not strictly inside the triangle of kernel points, then v itself is a vertex of the returned hull; later adjustments of the last augmented edge never overwrite it.", "quantifier": "all polygons, one to three kernel points, all such vertices", "why_tests_cant": "Adjustments replace entries of the list by index; whether an index can ever point at such a vertex depends on the whole history of the loop.", "anchors": ["starshaped_hull/starshaped_hull.py:polygon_kernel_starshaped_hull"]}
{"id": "C92", "title": "The hull of a polygon is computed without an exception", "statement": "For a simple polygon and kernel points in general position polygon_kernel_starshaped_hull returns a polygon and raises no exception.", "quantifier": "all simple polygons, all kernel points not on a line with two vertices", "why_tests_cant": "The failing list accesses depend on which vertices lie inside the kernel triangle and on collinear overlaps, which random scenes rarely hit.", "anchors": ["starshaped_hull/starshaped_hull.py:polygon_kernel_starshaped_hull"]}
{"id": "C93", "title": "The hull of a polygon contains it and is star-shaped with respect to the kernel points", "statement": "The polygon returned by polygon_kernel_starshaped_hull contains the given polygon and is star-shaped with respect to every kernel point; in particular a polygon that is already star-shaped with respect to them is returned unchanged (up to the starting vertex).", "quantifier": "all simple polygons, all kernel points", "why_tests_cant": "It is a statement about every point of a region and every position of three kernel points relative to the polygon.", "anchors": ["starshaped_hull/starshaped_hull.py:polygon_kernel_starshaped_hull"]}
{"id": "C94", "title": "The hull of a polygon does not depend on how its ring is listed", "statement": "Listing the vertices of the same polygon from another starting vertex, or in the opposite direction, gives the same list of hull vertices, provided one vertex has strictly the largest x coordinate and the turn there exceeds the orientation threshold.", "quantifier": "all polygons, all rotations and reversals of the vertex list, all kernel points, all shapely answers", "why_tests_cant": "It quantifies over all listings of all polygons; equality of results must hold exactly.", "anchors": ["starshaped_hull/starshaped_hull.py:polygon_kernel_starshaped_hull"]}
{"id": "C95", "title": "The kernel of a convex polygon is the polygon", "statement": "For a convex polygon, StarshapedPolygon.kernel() in the obstacle frame is the polygon itself: exactly its points see all of it.", "quantifier": "all convex polygons", "why_tests_cant": "It quantifies over all convex polygons of any size, including ones below the orientation threshold, and over every point.", "anchors": ["obstacles/starshaped_polygon.py:StarshapedPolygon._compute_kernel", "obstacles/polygon.py:Polygon._check_convexity"]}
{"id": "C96", "title": "The kernel moves with the polygon", "statement": "Moving the polygon by a rotation and a translation moves the computed kernel by the same motion; the polygons for which no kernel is found, or for which an exception is raised, are the same.", "quantifier": "all vertex lists, all rotations and translations", "why_tests_cant": "The scan makes hundreds of threshold decisions; that none of them depends on the pose has to hold for every polygon and every pose.", "anchors": ["obstacles/starshaped_polygon.py:StarshapedPolygon._compute_kernel"]}
{"id": "C97", "title": "The kernel is the set of points that see the whole polygon", "statement": "When _compute_kernel stores a polygon, its points are exactly the points of the obstacle from which every point of the obstacle is visible.", "quantifier": "all simple polygons, all starting vertices", "why_tests_cant": "Visibility of every point from every kernel point cannot be sampled, and errors show only for particular angles and sizes (the scan uses 300 as infinity).", "anchors": ["obstacles/starshaped_polygon.py:StarshapedPolygon._compute_kernel"]}
{"id": "C98", "title": "A star-shaped polygon has a kernel", "statement": "For every simple polygon with a point that sees all of it, _compute_kernel stores a polygon (with at least three distinct vertices) and raises no exception.", "quantifier": "all star-shaped simple polygons", "why_tests_cant": "Failures depend on tolerances and on the order in which edges are scanned; about one random polygon in a thousand is hit.", "anchors": ["obstacles/starshaped_polygon.py:StarshapedPolygon._compute_kernel"]}
{"id": "C99", "title": "Default reference point", "statement": "StarshapedPolygon(polygon) without xr, for a star-shaped polygon, succeeds and chooses a reference point from which the whole polygon is visible.", "quantifier": "all star-shaped simple polygons, all correct answers of contains and representative_point", "why_tests_cant": "It needs the kernel to be right for every polygon; a wrong one gives a reference point outside the obstacle only for some shapes.", "anchors": ["obstacles/starshaped_polygon.py:StarshapedPolygon.__init__", "obstacles/starshaped_polygon.py:StarshapedPolygon._compute_kernel"]}
{"id": "C100", "title": "A complete answer of cluster_and_starify is a set of disjoint star-shaped obstacles free of robot and goal", "statement": "For convex obstacles and make_convex off, when cluster_and_starify returns the status that all clusters are separate, then every returned obstacle contains its member obstacles, is star-shaped from every point of its kernel triangle, has the mean of that triangle as reference point, and contains neither the robot nor the goal position; obstacles of different clusters are disjoint. The kernel triangle lies inside the admissible kernel.", "quantifier": "all lists of convex obstacles, positions, options, random draws and clock readings, all correct answers of the geometry library", "why_tests_cant": "It is the composition of cone construction, kernel point selection, hull construction and the merging loop, for every scene.", "anchors": ["starshaped_hull/cluster_and_starify.py:cluster_and_starify", "starshaped_hull/starshaped_hull.py:kernel_starshaped_hull", "starshaped_hull/starshaped_hull.py:admissible_kernel"]}
{"id": "C101", "title": "Cone.polygon is the cone within the bounding square", "statement": "Cone(apex, dir1, dir2).polygon() is a simple polygon that covers exactly the points of the square |x|, |y| <= 10^6 in the sector counter-clockwise from dir1 to dir2.", "quantifier": "all apexes inside the square, all pairs of directions that are not parallel", "why_tests_cant": "The polygon is only used through intersections near the obstacles; the far corners where the outline is put together are never looked at.", "anchors": ["utils/cg.py:Cone.polygon"]}
{"id": "C102", "title": "cluster_and_starify on convex polygons and ellipses gives star-shaped, non-overlapping obstacles away from robot and goal", "statement": "For obstacles that are convex StarshapedPolygons or Ellipses, when cluster_and_starify(obstacles, x, xg, ...) reports a complete clustering with make_convex off: every cluster obstacle contains its members, is star-shaped from every point of its kernel triangle, and, when the triangle lies inside the admissible kernel, contains neither x nor xg; its reference point is in the triangle. For polygons, different cluster obstacles have no point in common. Nothing is assumed of the obstacle classes, of Cone.polygon or of the hull routine, only of shapely's set operations.", "quantifier": "all scenes of strictly convex polygons and ellipses with distinct ids, all poses, robot and goal positions within the bounding square in general position to the obstacles, all random draws", "why_tests_cant": "The result composes tangents, cones, cone outlines, kernel points, hulls and the merging loop; a scene test fixes one layout and looks at a picture.", "anchors": ["starshaped_hull/cluster_and_starify.py:cluster_and_starify", "starshaped_hull/starshaped_hull.py:convex_kernel_starshaped_hull", "obstacles/polygon.py:Polygon.tangent_points", "obstacles/ellipse.py:Ellipse.tangent_points", "utils/cg.py:Cone.polygon", "utils/cg.py:convex_hull"]}
{"id": "C103", "title": "Cone.intersection and Cone.list_intersection give the intersection of the cones within the bounding square", "statement": "The polygon returned by Cone.list_intersection(cones, same_apex) and by c1.intersection(c2, same_apex) covers, off the border lines of the cones, exactly the points of the bounding square that lie in all the cones; the answer does not depend on same_apex when the cones share their apex.", "quantifier": "all non-empty lists of cones with apex inside the bounding square and directions that are not parallel to each other and clear of the diagonals", "why_tests_cant": "The shortcut for cones with one apex works on directions and the general way on polygons; that the two give the same region is a statement about all points and all directions.", "anchors": ["utils/cg.py:Cone.list_intersection", "utils/cg.py:Cone.intersection", "utils/cg.py:Cone.intersection_same_apex", "utils/cg.py:Cone.polygon"]}
{"id": "C104", "title": "reference_direction of an array of points", "statement": "reference_direction(x) of an array x with one point per row returns an array with the reference direction of each row.", "quantifier": "all arrays of n rows, all frames, all reference points", "why_tests_cant": "The tests pass one point. Whether the shapes match depends on the number of rows, and for two rows the call answers without an error but divides by the wrong norms.", "anchors": ["obstacles/starshaped_obstacle.py:StarshapedObstacle.reference_direction", "obstacles/obstacle.py:Obstacle.transform", "utils/cg.py:affine_transform"]}
{"id": "C105", "title": "Names of obstacles", "statement": "str(obstacle) is the name given when it was made, copied or dilated; without a name, two obstacles print the same exactly when they have the same id; copy('duplicate') keeps the id, and keeps the name unless another is given.", "quantifier": "all sequences of constructions, copies and dilations of obstacles of all classes", "why_tests_cant": "copy is implemented three times with different defaults; only a statement about all call sequences and classes shows where they disagree.", "anchors": ["obstacles/obstacle.py:Obstacle._set_id_name", "obstacles/obstacle.py:Obstacle.copy", "obstacles/ellipse.py:Ellipse.copy", "obstacles/starshaped_polygon.py:StarshapedPolygon.copy"]}
{"id": "C106", "title": "is_convex and is_starshaped describe the present shape", "statement": "is_convex() answers whether the obstacle as it is now is convex, also after dilated_obstacle and whatever was asked before; is_starshaped() is true of every star-shaped class and of every convex polygon.", "quantifier": "all sequences of is_convex, is_starshaped and dilated_obstacle calls, all polygons", "why_tests_cant": "The answers are kept in the object; a wrong one needs a query before a dilation that changes the answer, an order of calls no test makes.", "anchors": ["obstacles/obstacle.py:Obstacle.is_convex", "obstacles/obstacle.py:Obstacle.is_starshaped", "obstacles/polygon.py:Polygon.dilated_obstacle", "obstacles/polygon.py:Polygon._check_convexity"]}
{"id": "C107", "title": "Guarantee of the clustering with make_convex", "statement": "Whatever flag other than INCOMPLETE the call ends with: every cluster's obstacle contains its members, has the mean of the kernel points as reference point, contains the kernel triangle and is star-shaped from all of it; an obstacle that was replaced by its convex hull is convex, robot and goal are not in its interior, and the obstacles of different clusters stay disjoint. With make_convex and flag COMPLETE, an obstacle that was not replaced is reported convex, or its hull contains the robot or the goal or meets the polygon of another cluster.", "quantifier": "all scenes with different ids, all options, all calls not cut short by max_iterations, all answers of shapely that describe the regions", "why_tests_cant": "The replacement depends on the other clusters and on the order of the loop; the claims are about all points of regions made in several rounds.", "anchors": ["starshaped_hull/cluster_and_starify.py:cluster_and_starify", "starshaped_hull/starshaped_hull.py:kernel_starshaped_hull", "obstacles/starshaped_primitive_combination.py:StarshapedPrimitiveCombination"]}
{"id": "C108", "title": "The history returned with return_history", "statement": "With return_history and flag COMPLETE the fifth value has one entry per iteration: the first with one cluster per obstacle, each made of the clusters of the one before, the last the returned clusters, and each entry shows the clusters of its round as they were.", "quantifier": "all scenes with different ids, all options, all calls not cut short by max_iterations", "why_tests_cant": "The entries hold the cluster objects that later rounds and the convex phase go on using; whether they still show their round is a statement about all later steps of the call.", "anchors": ["starshaped_hull/cluster_and_starify.py:cluster_and_starify", "starshaped_hull/cluster_and_starify.py:get_intersection_clusters"]}
{"id": "C109", "title": "The hull for a single kernel point is exact", "statement": "Called with a simple counter-clockwise polygon without holes and one kernel point, polygon_kernel_starshaped_hull returns a vertex list that goes round the kernel point exactly once, counter-clockwise, and encloses exactly the points on segments from the kernel point to the polygon: the least region that contains the polygon and is star-shaped from the kernel point. The kernel point may lie inside or outside the polygon.", "quantifier": "all simple polygons, all kernel points that see no two vertices in the same direction and leave room for the lengths and tolerances used by the code (record roomy), all right answers of shapely", "why_tests_cant": "Which vertices are visible, where rays leave the polygon and whether the kernel point is inserted depends on the whole polygon; the statement is about all polygons of any size and all points of the region.", "anchors": ["starshaped_hull/starshaped_hull.py:polygon_kernel_starshaped_hull", "utils/cg.py:is_ccw", "utils/cg.py:is_cw"]}
{"id": "C110", "title": "A polygon that is star-shaped from the kernel point is its own hull", "statement": "If the polygon passed to polygon_kernel_starshaped_hull is star-shaped with respect to the single kernel point, the returned vertex list encloses exactly the polygon. Calling the function again for a result of itself therefore changes nothing.", "quantifier": "all simple polygons that are star-shaped from the kernel point, all right answers of shapely", "why_tests_cant": "The result is wrong only for kernel points exactly in line with an edge, which random kernel points never are.", "anchors": ["starshaped_hull/starshaped_hull.py:polygon_kernel_starshaped_hull"]}
{"id": "C111", "title": "Positions of obstacles are values", "statement": "The position of an obstacle changes only when move or set_pos of its own motion model is called, and no call of a motion model changes arrays of the caller: arrays given to the constructor or to set_pos, and arrays returned by pos, keep their numbers. move works for every position that set_pos accepts.", "quantifier": "all programs of the caller that create arrays, lists and tuples, change them, create any number of motion models of all classes and call set_pos, pos and move in any order", "why_tests_cant": "Sharing of arrays shows only in the interleaving of calls on several objects; the statement is about all interleavings.", "anchors": ["obstacles/motion_model.py:MotionModel.__init__", "obstacles/motion_model.py:MotionModel.move", "obstacles/motion_model.py:MotionModel.set_pos", "obstacles/motion_model.py:MotionModel.pos"]}
{"id": "C112", "title": "Turn tests in binary64 arithmetic", "statement": "For points with coordinates of magnitude at most 160, is_ccw and is_cw as computed with binary64 numbers never report a turn that the points do not make: True means that the three points (the exact values of the given numbers) turn that way. Every turn with twice the triangle area beyond 2e-10 is reported, and exactly collinear points are reported collinear. For coordinates up to M the computed orientation value is within 33 M^2 2^-53 of the exact one.", "quantifier": "all triples of points with binary64 coordinates of magnitude at most 160 (error bound: at most 2^400)", "why_tests_cant": "There are about 2^380 such triples; wrong answers occur only for nearly collinear points, and first for coordinates of some hundreds (one with coordinates below 300 is exhibited).", "anchors": ["utils/cg.py:orientation_val", "utils/cg.py:is_collinear", "utils/cg.py:is_cw", "utils/cg.py:is_ccw"]}
{"id": "C113", "title": "Turn tests, crossing test and convex hull are exact on a grid", "statement": "If all coordinates are multiples of 2^-s, s at most 40, of magnitude below 2^(25-s), then orientation_val in binary64 is exact and is_ccw, is_cw, is_collinear, intersect and convex_hull give the answers of exact arithmetic (with the threshold exactly 1e-10).", "quantifier": "all such points, all lists of such points", "why_tests_cant": "The comparison is between the rounded computation and exact real arithmetic for all grid points; off the grid the answers differ (three points with coordinates 0, 1 and 1e-10).", "anchors": ["utils/cg.py:orientation_val", "utils/cg.py:is_collinear", "utils/cg.py:is_cw", "utils/cg.py:is_ccw", "utils/cg.py:intersect", "utils/cg.py:convex_hull"]}
{"id": "C114", "title": "convex_hull in binary64 arithmetic", "statement": "For distinct points with coordinates of magnitude at most 160, no three of which span less than 1e-10 of area, convex_hull computed with binary64 numbers ends within n rounds and returns the corners of the convex hull of the points, anticlockwise, starting with the leftmost (topmost of these).", "quantifier": "all lists of such points with binary64 coordinates", "why_tests_cant": "The result of gift wrapping depends on the consistency of all rounded turn tests; a single wrong test makes the loop run forever, and no finite sample excludes that.", "anchors": ["utils/cg.py:convex_hull"]}
{"id": "C115", "title": "affine_transform in binary64 arithmetic", "statement": "With binary64 numbers of magnitude at most M affine_transform is within 10 M 2^-53 (forward) and 17 M 2^-53 (inverse) of the exact transform, and the inverse of the transform gives back the point.", "quantifier": "all points, translations and rotation angles with binary64 numbers, all implementations of np.cos and np.sin with errors up to 2^-53", "why_tests_cant": "The inputs are all binary64 numbers and the error is below what tests with a tolerance see.", "anchors": ["utils/cg.py:affine_transform"]}
{"id": "C116", "title": "get_intersection in binary64 arithmetic", "statement": "For segments with binary64 coordinates get_intersection returns, when its crossing test succeeds, a proper point near the crossing of the two lines (within 400 M^3 2^-53 / D for coordinates up to M <= 160 and D the absolute cross product of the directions); the test itself is right when no end is within 2e-10 of the other line in terms of area; an end that lies exactly on the other segment is never missed.", "quantifier": "all quadruples of points with binary64 coordinates of magnitude at most 160 (ends: at most 2^400)", "why_tests_cant": "The denominator vanishes or is dominated by rounding only for nearly parallel segments at a distance of about 1e-10; random tests do not hit them.", "anchors": ["utils/cg.py:get_intersection", "utils/cg.py:intersect"]}
{"id": "C117", "title": "is_between in binary64 arithmetic", "statement": "With binary64 coordinates of magnitude up to 2^400 is_between(a, b, c) reports every point b that lies exactly on the segment from a to c, and is True exactly when |ab| + |bc| exceeds |ac| by at most 1e-8 + 1e-7 |ac|, except for excesses within one part in a million of this bound.", "quantifier": "all triples of points with finite binary64 coordinates of magnitude at most 2^400", "why_tests_cant": "The claim holds for all magnitudes, including those for which the squares underflow; a test can only sample them.", "anchors": ["utils/cg.py:is_between"]}
{"id": "C118", "title": "line_segment_intersection in binary64 arithmetic", "statement": "LineSegment.line_segment_intersection finds the common point of two segments that are not nearly parallel, also when it is an end point of both.", "quantifier": "all pairs of segments with binary64 coordinates of magnitude at most 160 and directions with cross product at least 2e-10", "why_tests_cant": "Whether the rounded parameter exceeds 1 depends on the last bits of the coordinates; with coordinates that are small integers it never does.", "anchors": ["utils/cg.py:LineSegment.line_segment_intersection"]}
{"id": "C119", "title": "Reference points of the caller's obstacles after cluster_and_starify", "statement": "The call changes the reference points of the obstacles it is given only where its answer says so: an obstacle whose cluster in the answer is the obstacle itself has the reference point shown there, every other obstacle keeps its own. In particular a call that gives up or raises changes nothing.", "quantifier": "all lists of obstacles, robot and goal positions, options, previous answers and answers of shapely", "why_tests_cant": "The side effect is on objects the tests do not look at again; whether a call gives up in a later round depends on the whole scene.", "anchors": ["starshaped_hull/cluster_and_starify.py:cluster_and_starify", "obstacles/starshaped_obstacle.py:StarshapedObstacle.set_xr"]}
{"id": "C120", "title": "cluster_and_starify does not depend on the reference points it is given", "statement": "Two calls with obstacles that differ in their reference points only have the same answer, so that a call can be repeated although the first has changed the reference points; with make_convex this needs that there is no limit on the number of iterations.", "quantifier": "all lists of obstacles, all reference points, robot and goal positions, options, previous answers and answers of shapely", "why_tests_cant": "It compares two executions for all reference points.", "anchors": ["starshaped_hull/cluster_and_starify.py:cluster_and_starify"]}
{"id": "C121", "title": "The plotting methods show the obstacle as it is", "statement": "draw, and update_plot with handles of the same obstacle after any number of motions, changes of the reference point and earlier updates, leave artists that show the boundary, the reference point and the name of the obstacle at its present pose in the frame asked for; the handles have the same meaning for every class.", "quantifier": "all obstacles, poses, frames GLOBAL and OBSTACLE, all sequences of updates", "why_tests_cant": "Pictures are looked at, not compared; the claim is about all sequences of motions and updates.", "anchors": ["obstacles/ellipse.py:Ellipse.update_plot", "obstacles/polygon.py:Polygon.update_plot", "obstacles/starshaped_polygon.py:StarshapedPolygon.update_plot", "obstacles/starshaped_primitive_combination.py:StarshapedPrimitiveCombination.update_plot"]}
{"id": "C122", "title": "draw_adm_ker and draw_shapely_polygon", "statement": "draw_adm_ker shows the admissible kernel and the kernel points of every cluster that has a kernel which is not empty, in axes of its own; draw_shapely_polygon draws the outlines of all polygons of a geometry in their order, cut at the limits if both are given.", "quantifier": "all lists of clusters; all geometries", "why_tests_cant": "That the grid has enough cells and none is used twice is a fact about all numbers of clusters; kernels that are line segments come from tangent cones that touch.", "anchors": ["starshaped_hull/cluster_and_starify.py:draw_adm_ker", "utils/misc.py:draw_shapely_polygon"]}
{"id": "C123", "title": "Line.line_intersection in binary64", "statement": "With coordinates of magnitude at most M (M at most 160), Line.line_intersection returns None for parallel lines, and for lines whose determinant D is at least 2e-10 a point within e max(M, |coordinate|) of the crossing point, e = 180 M^2 / (2^53 D).", "quantifier": "all pairs of lines with finite binary64 coordinates", "why_tests_cant": "The error depends on the angle between the lines; a test sees a few pairs only.", "anchors": ["utils/cg.py:Line.line_intersection"]}
{"id": "C124", "title": "Ray.ray_intersection in binary64", "statement": "With coordinates of magnitude at most M (M at most 160), Ray.ray_intersection returns None for parallel rays, finds the crossing point of two rays that meet, within an explicit bound, and finds none for rays that do not meet.", "quantifier": "all pairs of rays with finite binary64 coordinates", "why_tests_cant": "Whether a crossing at the start of a ray is found depends on the last bit of the coordinates.", "anchors": ["utils/cg.py:Ray.ray_intersection"]}
{"id": "C125", "title": "Ellipse.point_location in binary64", "statement": "The computed location of a point differs from the exact one, F - 1, by at most (5.1 F + 1.1) / 2^53, so that interior_point and exterior_point are right unless the location is within 8 / 2^53 of 0, boundary_point has its tolerance of 1e-8, and a point exactly on the boundary is neither interior nor exterior.", "quantifier": "all positive axes and all points (in the obstacle frame) with finite binary64 coordinates, at most 2^400 axes away", "why_tests_cant": "Rounding errors of single points; the bound is over all of them.", "anchors": ["obstacles/ellipse.py:Ellipse.point_location", "obstacles/obstacle.py:Obstacle.exterior_point", "obstacles/obstacle.py:Obstacle.interior_point", "obstacles/obstacle.py:Obstacle.boundary_point"]}
{"id": "C126", "title": "Ellipse.tangent_points in binary64", "statement": "For a point that exterior_point reports as exterior, tangent_points returns two points with proper coordinates (no nan, no infinity).", "quantifier": "all axes and all points (in the obstacle frame) with finite binary64 coordinates", "why_tests_cant": "The square root of a negative number is taken only within rounding distance of the boundary, where a random test point never lies; numpy only warns.", "anchors": ["obstacles/ellipse.py:Ellipse.tangent_points"]}
{"id": "C127", "title": "exclude_obstacles keeps the kernels of clusters clear of the other obstacles", "statement": "The admissible kernel that cluster_and_starify stores in a cluster is the intersection of the kernels of its obstacles for the robot and for the goal; with exclude_obstacles it is further restricted to the points in the kernels for all extreme points of every other obstacle that has them all outside, unless less than the area 1e-6 is left.", "quantifier": "all worlds with distinct obstacle ids, all options, all clusters returned", "why_tests_cant": "Which of the n^2 entries of the dictionary are used, and for which clusters, shows only in the combination of several obstacles; the result is used as a search region and never returned to the caller for comparison.", "anchors": ["starshaped_hull/cluster_and_starify.py:cluster_and_starify"]}
{"id": "C128", "title": "Cone.point_in_cone in binary64", "statement": "With coordinates of magnitude at most 79 point_in_cone of a convex cone accepts no point that is not strictly inside in exact arithmetic and accepts every point whose cross products with both directions exceed twice the threshold 1e-10; a cone that is not convex rejects only points strictly in the wedge left out, and all points well in it.", "quantifier": "all apexes, directions and points with finite binary64 coordinates of magnitude at most 79", "why_tests_cant": "apex + direction is rounded before the turn test; whether a point next to an edge is accepted depends on the last bits.", "anchors": ["utils/cg.py:Cone.point_in_cone", "utils/cg.py:Cone.__init__"]}
{"id": "C129", "title": "Interval motion in binary64", "statement": "An obstacle with an Interval motion model whose durations and time steps are multiples of a power of two is, after any steps that land on every break time passed, within 10 n 2^-53 M of its place on the listed piecewise linear path, where n is the number of steps and M bounds the coordinates; its clock is exact.", "quantifier": "all finite starts, lists of durations and positions, and lists of steps on a common binary grid; coordinates up to 2^300", "why_tests_cant": "Rounding errors add up over any number of steps, and the leg is chosen by comparing the rounded clock with rounded break times.", "anchors": ["obstacles/motion_model.py:Interval", "obstacles/motion_model.py:MotionModel.move"]}
{"id": "C130", "title": "The timing vector of cluster_and_starify", "statement": "The four times returned by cluster_and_starify are the milliseconds spent in disjoint stretches of the call: one stretch of clustering per iteration, one stretch of kernel computation for the set-up and one for every cluster built, three stretches of hull computation for every cluster built, and one stretch for make_convex; an incomplete call returns four zeros. If the clock is not set back, no entry is negative and the sum is at most the duration of the call.", "quantifier": "all clocks, limits of the computation time and courses of a call", "why_tests_cant": "The clock is not under control of a test; double counted or missed stretches look like noise.", "anchors": ["starshaped_hull/cluster_and_starify.py:cluster_and_starify", "utils/misc.py:tic", "utils/misc.py:toc"]}
{"id": "C131", "title": "Waypoints motion in binary64", "statement": "An obstacle with a Waypoints motion model that is moved by equal steps, none longer than wp_thresh, passes every way-point within wp_thresh (up to a relative error 2^-49) and then rests for ever, in binary64 arithmetic.", "quantifier": "all finite starts, way-point lists, velocities, thresholds and steps with vel dt at most wp_thresh; coordinates up to 2^300", "why_tests_cant": "That the obstacle never stalls or circles is about all later times; rounding could hold it away from a way-point for special values only.", "anchors": ["obstacles/motion_model.py:Waypoints", "obstacles/motion_model.py:MotionModel.move"]}
{"id": "C132", "title": "Interval motion after the last time, in binary64", "statement": "After the last time of the list, a call of move on an obstacle with an Interval motion model takes it no further from the last position than it was, up to 2^-48 M, and an obstacle at the last position stays there exactly, when the step does not reach beyond the position.", "quantifier": "all finite lists, obstacles and steps up to 1 with speed times dt at most 1; speeds of the last leg between 2^-200 and 2^300", "why_tests_cant": "The obstacle is pulled towards the last position with a speed that depends on a rounded direction; a drift shows only after very many steps.", "anchors": ["obstacles/motion_model.py:Interval.lin_vel", "obstacles/motion_model.py:MotionModel.move"]}
{"id": "C133", "title": "Pictures of clusters", "statement": "draw_clustering shows all obstacles of all clusters one after the other and then robot and goal; draw_star_hull shows of every cluster its star-shaped obstacle if there is one, then the union of its obstacles, and then robot and goal; ObstacleCluster.draw shows the obstacles of the cluster.", "quantifier": "all clusters of obstacles whose polygons are polygons or made of polygons", "why_tests_cant": "Drawing needs a display and is not tested at all; that no cluster can ever be drawn by its own method is about all clusters.", "anchors": ["starshaped_hull/cluster_and_starify.py:ObstacleCluster.draw", "starshaped_hull/cluster_and_starify.py:draw_clustering", "starshaped_hull/cluster_and_starify.py:draw_star_hull"]}
{"id": "C134", "title": "Cones with one apex in binary64", "statement": "For cones whose apex and directions have coordinates on a grid, Cone.point_in_cone and Cone.intersection_same_apex answer in binary64 exactly what they answer in exact arithmetic, and Cone.list_intersection answers cones that contain a point of the grid exactly when all the given cones contain it.", "quantifier": "all apexes, directions and points on a grid of 2^-s, s up to 40 (list_intersection: s up to 16, no two of the directions parallel, lists of any length)", "why_tests_cant": "The answers depend on the sign of rounded products; that no rounding changes an answer is about all inputs of the grid.", "anchors": ["utils/cg.py:Cone.point_in_cone", "utils/cg.py:Cone.intersection_same_apex", "utils/cg.py:Cone.list_intersection"]}
{"id": "C135", "title": "Polygon._check_convexity in binary64", "statement": "Computed in binary64, _check_convexity answers True exactly for rings all of whose turns have the same sign.", "quantifier": "all rings of finite points with coordinates up to 160", "why_tests_cant": "The three tests of orientation compare a rounded product with 1e-10; the gap between the tests is a single number.", "anchors": ["obstacles/polygon.py:Polygon._check_convexity"]}
{"id": "C136", "title": "point_in_triangle in binary64", "statement": "The point computed by point_in_triangle from two random numbers in [0,1] is, in each coordinate, within 2^-49 M of a point of the triangle, the convex combination |x-y| a + min(x,y) b + (1 - max(x,y)) c.", "quantifier": "all finite corners with coordinates up to M, 1 <= M <= 2^300, and all draws in [0,1]", "why_tests_cant": "A test sees some draws; a bound on the rounding holds for all draws.", "anchors": ["utils/cg.py:point_in_triangle"]}
{"id": "C137", "title": "Static and SinusVelocity motion in binary64", "statement": "An obstacle with a Static motion model stays exactly where it is. With a SinusVelocity model, after n steps the clock is exact, each Cartesian coordinate is within n (Th+5) 2^-53 M of the start plus the sum of mag cos(freq t) dt, and with linear and rotational velocities the rotation is within n (Th+5) 2^-53 L and each coordinate within n (Th+5) (2+nL) 2^-53 M of the exact sums. The stored frequency is 2 pi / period up to 3 units of 2^-53 and 0 for period 0.", "quantifier": "all finite parameters up to 2^300, all sequences of nonnegative steps that are multiples of 2^-s with exact sum; M bounds the positions, L the rotation, Th = frequency times total time up to 2^30; np.cos and np.sin within 2^-53", "why_tests_cant": "The error grows with the number of steps and with the argument of the cosine; a test follows one motion for some steps.", "anchors": ["obstacles/motion_model.py:Static", "obstacles/motion_model.py:SinusVelocity.__init__", "obstacles/motion_model.py:SinusVelocity.lin_vel", "obstacles/motion_model.py:SinusVelocity.rot_vel", "obstacles/motion_model.py:MotionModel.move"]}
{"id": "C138", "title": "Combinations of polygons", "statement": "For a StarshapedPrimitiveCombination of Polygon and StarshapedPolygon members: point_location answers -1 in the interior of a member or of the hull, 1 outside all of them and off their borders within the bounding boxes, else 0; boundary_mapping gives the point of the members' borders, in the global frame, that is farthest from the reference point on the segment to ten times the given point; when tangent_points gives two points, they are a tangent pair of the union of the members' convex hulls, each where its pose puts it; with a single StarshapedPolygon the sub_normal is the outward unit normal of the edge that faces the point, in the global frame, and the velocity is that of the obstacle; with a single Polygon both raise AttributeError.", "quantifier": "all poses, vertices, reference points and query points; any number of members (boundary_mapping without hull; tangent_points up to 128 members that lie beyond a line and are not in line with the point; the two last parts a single member); any shapely answers that describe interior, border and intersections", "why_tests_cant": "The members answer in frames of their own and the combination compares the answers in the global frame; a test has a few poses, mostly without rotation.", "anchors": ["obstacles/starshaped_primitive_combination.py:StarshapedPrimitiveCombination.point_location", "obstacles/starshaped_primitive_combination.py:StarshapedPrimitiveCombination.tangent_points", "obstacles/starshaped_primitive_combination.py:StarshapedPrimitiveCombination.boundary_mapping", "obstacles/starshaped_primitive_combination.py:StarshapedPrimitiveCombination.vel_intertial_frame", "obstacles/starshaped_primitive_combination.py:StarshapedPrimitiveCombination.normal"]}
{"id": "C139", "title": "equilateral_triangle in binary64", "statement": "Computed in binary64, each coordinate of the vertices of equilateral_triangle is within 5 units of 2^-53 M of the exact one, within 23 units with a rotation. Without rotation, if the side is at least 2^-43 M, the three points form a triangle listed clockwise with the given point strictly inside; for a side of 0.1 at coordinates of 1e16 they are one and the same point.", "quantifier": "all finite points and sides with |coordinates|, |side| <= M, 1 <= M <= 2^300; all rotations, np.cos and np.sin within 2^-53", "why_tests_cant": "How small the side may be beside the coordinates before the triangle degenerates is a statement about all magnitudes.", "anchors": ["utils/cg.py:equilateral_triangle"]}
{"id": "C140", "title": "reference_direction and vel_intertial_frame in binary64", "statement": "Computed in binary64, each coordinate of reference_direction(x) is within (11 + 102 M/D) 2^-53 of its value in exact arithmetic, D being the distance of x and the reference point in the output frame, for any pose and any two of the frames GLOBAL and OBSTACLE; each coordinate of vel_intertial_frame(x) is within W times that plus (V + 4W + 1) 2^-53 of its value in exact arithmetic (linear velocity plus rotational velocity crossed with the unit direction). For the reference point itself, given in the obstacle frame, both coordinates of the direction are nan.", "quantifier": "all finite points, positions and reference points with coordinates up to M, 1 <= M <= 2^300, D >= 2^-40 M; np.cos and np.sin of the rotation within 2^-53; V <= 2^300 bounds the coordinates of the linear velocity, W <= 2^300 the rotational velocity, both as the motion model computed them", "why_tests_cant": "The error depends on how close x is to the reference point relative to the coordinates; the bound holds for all such ratios.", "anchors": ["obstacles/starshaped_obstacle.py:StarshapedObstacle.reference_direction", "obstacles/starshaped_obstacle.py:StarshapedObstacle.vel_intertial_frame", "obstacles/obstacle.py:Obstacle.transform"]}
{"id": "C141", "title": "Ellipse.normal in binary64", "statement": "Computed in binary64, normal(b, x_is_boundary=True) with b given in the obstacle frame is within 24 2^-53 per coordinate of its value in exact arithmetic (60 2^-53 when wanted in the global frame), whatever the axes and the point; with b given in either frame it is within (60 + 204 M A/D) 2^-53, M bounding the coordinates, A the squared axes and D being the length of (a1^2 b0, a0^2 b1). At the centre both coordinates are nan.", "quantifier": "all finite poses, axes from 2^-50 on with squares up to 2^200, and points (in the obstacle frame: coordinates up to 2^150, D >= 2^-140, position up to 2^300; in either frame: M bounds the position, too, 1 <= M <= 2^100 D >= 2^-40 M A); np.cos and np.sin of the rotation within 2^-53; centre: answer in the obstacle frame, axes up to 2^400", "why_tests_cant": "Whether the error grows with thin axes or with far points is a question about all of them; tests sample a few.", "anchors": ["obstacles/ellipse.py:Ellipse.normal", "obstacles/obstacle.py:Obstacle.rotate", "obstacles/obstacle.py:Obstacle.transform"]}
{"id": "C142", "title": "distance_function and point_location of starshaped obstacles in binary64", "statement": "With b the answer of boundary_mapping, N the distance of x and L that of b from the reference point: StarshapedObstacle.distance_function computed in binary64 is within 34 (D + 2^-90) 2^-53 of D = (N/L)^2, and point_location has the right sign whenever |D - 1| >= 36 2^-53; StarshapedPolygon.distance_function is within 80 (1 + N + L)^2 2^-53 of its exact value, also when rounding makes it take the other of its two cases. If boundary_mapping answers with the point itself, both are exactly 1 and the location is 0.", "quantifier": "all finite x, b and reference points in the obstacle frame with coordinates up to 2^200, L >= 2^-100 (border: N >= 2^-100)", "why_tests_cant": "Near the border the two cases of the polygon formula meet and rounding decides which is taken; tests do not reach those inputs systematically.", "anchors": ["obstacles/starshaped_obstacle.py:StarshapedObstacle.distance_function", "obstacles/starshaped_obstacle.py:StarshapedObstacle.point_location", "obstacles/starshaped_polygon.py:StarshapedPolygon.distance_function"]}
{"id": "C143", "title": "Ellipse.line_intersection in binary64", "statement": "Computed in binary64 in the obstacle frame: for a steep line (|dx| <= 0.9999e-4 or 100.001 |dx| <= |dy|) the answer is exactly that of real arithmetic. For any other line (|dx| >= 1.0001e-4 and |dy| <= 99.999 |dx|; slope w) every point returned is finite, lies on the ellipse up to (93 2^-53 + 1.00001e-8 / a0^2)(1 + (a0 w / a1)^2) in the value of (x/a0)^2 + (y/a1)^2 - 1, and on the line up to 19 2^-53 M (1 + |w|), M bounding the axes and the coordinates. A line whose cut with the second axis is 20 2^-53 M (1 + |w|) or more beyond what meets the ellipse gives no point; one as much inside, whose two points lie left and right of the ellipse by a thousandth of a0, gives exactly two, the left one first up to 27 2^-53 a0. If one of the two points is inside the ellipse and the other outside, both by more than 21 2^-53 M^2 (1 + |w|) / a1^2 + (71 2^-53 + 1.11e-8 / a0^2)(1 + (a0 w / a1)^2), there is exactly one point, between them. With a0 beyond 1024 both points may be nan although the line crosses the ellipse.", "quantifier": "all finite axes with 2^-20 <= a0 <= 2^10, 2^-20 <= a1 <= 2^20, and pairs of finite points with coordinates up to 2^20; nan: one ellipse and line", "why_tests_cant": "Near tangent lines a difference of nearly equal numbers stands under the square root; whether it can turn negative beyond the tolerance is a question about all axes and lines.", "anchors": ["obstacles/ellipse.py:Ellipse.line_intersection"]}
{"id": "C144", "title": "Ellipse.boundary_mapping in binary64", "statement": "Computed in binary64 in the obstacle frame, boundary_mapping(x) of an ellipse whose reference point lies inside it by more than the rounding answers in every direction that is not steep (slope w at most 99, the ray spanning 1.001e-4 along the first axis): with a finite point that lies on the ellipse up to (94 2^-53 + 1.001e-8 / a0^2)(1 + (a0 w / a1)^2) in the value of (b0/a0)^2 + (b1/a1)^2 - 1, on the line through the reference point and x up to 29 2^-53 M (1 + |w|), and not on the other side of the reference point from x. In a steep direction (101 |dx| <= |dy|) it answers exactly (0, a1) or (0, -a1), wherever the ray meets the ellipse, as it does without rounding. For the reference point itself it answers with a point whose coordinates are nan.", "quantifier": "all finite axes from 2^-20 to 2^10, x with coordinates up to 2^400 and at least 2^-200 from the reference point, M at least 1 and 4 times the axes; 'inside': (r0/a0)^2 + (r1/a1)^2 - 1 <= -E with E = 22 2^-53 M^2 (1 + |w|) / a1^2 + (72 2^-53 + 1.12e-8 / a0^2)(1 + (a0 w / a1)^2) <= 1/3; steep directions: |r0| + 1.1 D |dx| / L + 19 2^-53 D <= a0 and |r1| < a1, with D the longer axis twice and L the distance of x; nan: all axes and all finite reference points", "why_tests_cant": "Rounding moves the end of the ray, its slope and both roots; that exactly one of the roots is always kept is a statement about all of these together.", "anchors": ["obstacles/ellipse.py:Ellipse.boundary_mapping", "obstacles/ellipse.py:Ellipse.line_intersection", "obstacles/starshaped_obstacle.py:StarshapedObstacle.reference_direction"]}
