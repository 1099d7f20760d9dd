# Formal model of albindgit/starworlds in Coq 8.16.1

## Approach

* The model is a set of total Gallina functions, one per Python function, in `rocq/theories/M_*.v`. Exceptions,
  divisions that would give nan/inf and running out of fuel are explicit values. Every definition cites file and lines of `/repo`.
* Numbers. `Num.v` declares a record of numeric operations with two instances: the reals `R` (all universal theorems) and
  the rationals `Q` (executable: witnesses are computed with `vm_compute` and transferred to `R`). Functions that use
  square roots or trigonometry exist only over `R`.
* Everything that decides a result but is not computed by the repository is an argument of the model: random draws, the order
  of `list(set(...))`, `np.argsort` (any sorting function), clock readings, and the answers of shapely/scipy. What a theorem
  assumes of them is written in its statement.
* Specifications (segments, regions, convexity, star-shapedness, sectors, rigid motions, connected components, kernels) live in
  `Spec.v` and `S_*.v` and do not mention model helpers.
* Lemmas are in `L_*.v`, computed witnesses in `W_*.v`, the property theorems in `P_*.v` (`Cnn_name`), each followed by
  `Print Assumptions` and accompanied by an `Example` in which a concrete non-trivial case meets the hypotheses.
* If the faithful model violates a property, `Cnn_..._refuted` states the violation with a witness, and the part that holds is
  proved beside it.

## Files

| model | source | spec / lemmas / witnesses | theorems |
|---|---|---|---|
| `M_Cg`, `M_ConePolygon`, `M_Hull`, `M_Gen` | `utils/cg.py` | `Spec`, `L_Cg`, `L_Geom`, `L_Cone`, `L_ConePolygon`, `L_Hull`, `L_Gen`, `W_Cg`, `W_Cone`, `W_Hull`, `W_Gen` | `P_Cg`, `P_Cone`, `P_Hull`, `P_Gen` |
| `M_Obstacle` | `obstacles/obstacle.py`, `obstacles/starshaped_obstacle.py` | `L_Obstacle` | `P_Obstacle` |
| `M_Motion` | `obstacles/motion_model.py` | `L_Motion` | `P_Motion` |
| `M_Ellipse` | `obstacles/ellipse.py` | `L_Ellipse`, `L_EllipsePolygon` | `P_Ellipse` |
| `M_Polygon` | `obstacles/polygon.py` | `L_Atan2`, `L_Polar`, `L_Polygon` | `P_Polygon` |
| `M_StarPolygon` | `obstacles/polygon.py:73-89`, `obstacles/starshaped_polygon.py:10-183` | `L_StarPolygon` | `P_StarPolygon` |
| `M_Kernel` | `obstacles/starshaped_polygon.py:10-20, 185-864` | `S_Kernel`, `L_Kernel*`, `L_Dart*`, `W_KernelQ` | `P_Kernel` |
| `M_Combination` | `obstacles/starshaped_primitive_combination.py` | | `P_Combination`, `P_CombBoundary`, `P_CombNormal` |
| `M_StarHull` | `starshaped_hull/starshaped_hull.py:8-45` | `L_HullDisjoint` | `P_StarHull` |
| `M_PolHull` | `starshaped_hull/starshaped_hull.py:49-206` | `S_PolHull`, `L_PolHull*`, `W_Pol*` | `P_PolHull` |
| `M_Clusters`, `M_Starify` | `starshaped_hull/cluster_and_starify.py:10-449` | `L_Clusters`, `L_Starify`, `W_Starify` | `P_Clusters`, `P_KernelPoints`, `P_Starify*` |

## Properties

Status as in MANIFEST.json. "partial" covers two cases, told apart in the note: a property that the faithful model violates (a `_refuted` theorem with a witness, and beside it what does hold), and a property proved under an extra hypothesis (`_partial`). The letters after a theorem are the axioms `Print Assumptions` lists for it (see Trusted base).

### C01 affine_transform inverse round-trip — proved

*Statement.* affine_transform(affine_transform(x, rot, trans), rot, trans, inverse=True) gives back x, and applying the inverse first and then the forward transform also gives back x.

*Modelled.* `utils/cg.py:affine_transform`

*Proof.* Both branches of the function over R with `cos`, `sin`; ring identities and `sin2_cos2`.

*Result.* Round trip both ways; forward = rotate then shift.

*Theorems.* `C01_affine_roundtrip` [DFN], `C01_affine_is_rotate_then_shift` [DFN]

### C02 affine_transform is a rigid motion — proved

*Statement.* affine_transform preserves every distance and every orientation value, so is_cw/is_ccw/is_collinear give the same answer before and after moving the three points by the same pose.

*Modelled.* `utils/cg.py:affine_transform`, `utils/cg.py:orientation_val`

*Proof.* Same model; distances and orientation values are polynomials in the transformed coordinates.

*Result.* Distances, orientation values and all three predicates are invariant, forward and inverse.

*Theorems.* `C02_affine_rigid` [DFN]

### C03 orientation predicates describe the turn — proved

*Statement.* is_cw and is_ccw are never both true, reversing the three points exchanges them, cyclic shifts keep them, and is_ccw(a,b,c) holds exactly when twice the signed area of (a,b,c) exceeds 1e-10.

*Modelled.* `utils/cg.py:orientation_val`, `utils/cg.py:is_cw`, `utils/cg.py:is_ccw`, `utils/cg.py:is_collinear`

*Proof.* The predicates over any `Num`; the value is minus twice the signed area.

*Result.* Exact characterisation by signed area and tolerance; reversal, cyclic shift, exclusivity; numpy version row-wise equal.

*Theorems.* `C03_orientation` [DF], `C03_np_orientation_rowwise` [DF]

### C04 a triple is cw, ccw or collinear — partial

*Statement.* Every triple of points is reported as exactly one of is_cw, is_ccw, is_collinear.

*Modelled.* `utils/cg.py:is_collinear`, `utils/cg.py:is_cw`, `utils/cg.py:is_ccw`

*Proof.* Case analysis on the threshold; the witness has value exactly 1e-10.

*Result.* REFUTED as stated: value exactly at the threshold is none of the three; proved for every other triple.

*Theorems.* `C04_trichotomy_refuted` [DF], `C04_trichotomy_partial` [DF]

### C05 get_intersection of properly crossing segments — proved

*Statement.* If the two segments cross properly (all four turns outside the tolerance band and opposite), get_intersection returns the one point that lies on both segments; and whenever its crossing test succeeds the division it performs has a non-zero denominator and the returned point lies on both carrier lines.

*Modelled.* `utils/cg.py:intersect`, `utils/cg.py:get_intersection`

*Proof.* Sign analysis of the four orientation values; the denominator is the difference of two of them.

*Theorems.* `C05_proper_crossing` [DFN], `C05_no_division_by_zero` [DFN]

### C06 get_intersection only returns points of both segments — partial

*Statement.* Any point returned by get_intersection lies on both segments (up to the stated tolerances).

*Modelled.* `utils/cg.py:get_intersection`

*Proof.* Branch by branch; the witness lies in the tolerance band of `intersect`.

*Result.* REFUTED as stated: point returned 999 units off both segments; proved what each branch guarantees and that None is never returned for touching end points or proper crossings.

*Theorems.* `C06_intersection_on_segments_refuted` [DFN], `C06_intersection_partial` [DFN]

### C07 is_between accepts the segment and only a thin neighbourhood — proved

*Statement.* is_between(a,b,c) is true for every b on the segment ac, and if it is true then b is within sqrt(eps*(2L+eps))/2 of the carrier line and within eps/2 of the segment lengthwise, where L=|ac| and eps=1e-8+1e-7*L.

*Modelled.* `utils/cg.py:is_between`

*Proof.* Triangle inequality, and the ellipse with foci at the end points.

*Theorems.* `C07_is_between_accepts_segment` [DFN], `C07_is_between_thin` [DFN]

### C08 Line.line_intersection — proved

*Statement.* Returns None exactly when the absolute determinant of the directions is below 1e-10; otherwise returns the unique point common to both lines, independently of the order of the two lines.

*Modelled.* `utils/cg.py:Line.line_intersection`

*Proof.* Cramer's rule; uniqueness from the determinant.

*Theorems.* `C08_line_intersection` [DF]

### C09 LineSegment.line_segment_intersection — proved

*Statement.* Returns a point exactly when the segments are not (nearly) parallel and share a point, and it is the only point they share.

*Modelled.* `utils/cg.py:LineSegment.line_segment_intersection`

*Proof.* As C08 with the parameter bounds.

*Theorems.* `C09_segment_intersection` [DF]

### C10 Ray.ray_intersection — proved

*Statement.* Returns a point exactly when the rays are not (nearly) parallel and share a point, and it is the only point they share.

*Modelled.* `utils/cg.py:Ray.ray_intersection`

*Proof.* As C08 with the sign conditions.

*Theorems.* `C10_ray_intersection` [DF]

### C11 Line.intersects reports crossings — partial

*Statement.* Line.intersects(other) is true whenever the two properly cross.

*Modelled.* `utils/cg.py:Line.intersects`

*Proof.* `is_ccw p q q` is always false because the same point is passed twice.

*Result.* REFUTED: Line.intersects is constantly False.

*Theorems.* `C11_line_intersects_refuted` [DF], `C11_line_intersects_constant_partial` [DF]

### C12 equilateral_triangle — partial

*Statement.* The three returned points are pairwise at distance side_length, their mean is the centroid, each at distance side_length/sqrt(3) from it; for a non-zero rotation the mean is still the requested centroid.

*Modelled.* `utils/cg.py:equilateral_triangle`

*Proof.* Algebra with sqrt 3; witness with rotated centroid.

*Result.* REFUTED for rot != 0 (rotates about the origin); proved: side lengths, circumradius, centroid = rotated centroid, and the full claim for rot = 0.

*Theorems.* `C12_triangle_centroid_refuted` [DFN], `C12_triangle_partial` [DFN], `C12_triangle_unrotated_partial` [DFN]

### C13 convex_hull of points in general position — proved

*Statement.* For at least one point, with no triple inside the collinearity tolerance, convex_hull terminates after at most n rounds and returns distinct input points starting with the leftmost-topmost, such that every other input point is strictly to the left of every hull edge; the region to the left of all hull edges is exactly the convex hull of the input.

*Modelled.* `utils/cg.py:convex_hull`

*Proof.* Invariant: every chosen point is extreme; the successor function is injective, so the walk is a cycle (pigeonhole).

*Result.* For every list of distinct points without near-collinear triples, any length; convex hull characterised by weights (in_hull) and by edges.

*Theorems.* `C13_convex_hull_correct` [DF]

### C14 convex_hull always terminates — partial

*Statement.* convex_hull returns for every non-empty list of points.

*Modelled.* `utils/cg.py:convex_hull`

*Proof.* Fuel bounds the loop; the witness is an invariant of the endless walk.

*Result.* REFUTED: [(1,0),(0,0),(1,1),(0,0)] cycles for ever. Termination within n rounds proved for distinct points without near-collinear triples.

*Theorems.* `C14_terminates_refuted` [DF], `C14_terminates_partial` [DF]

### C15 Cone.point_in_cone is sector membership — proved

*Statement.* For a cone whose two directions are not within tolerance of collinear, and x outside the tolerance bands, point_in_cone(x) is true exactly when x-apex lies in the open sector swept counter-clockwise from dir1 to dir2.

*Modelled.* `utils/cg.py:Cone.point_in_cone`, `utils/cg.py:Cone.__init__`

*Proof.* Signs of three orientation values against the definition of a sector.

*Result.* General position (tolerance bands excluded) as in the statement.

*Theorems.* `C15_point_in_cone_is_sector` [CDFN]

### C16 Cone.intersection_same_apex is intersection — proved

*Statement.* For two cones with a common apex and directions in general position, a point is in the first and in the second cone exactly when it is in one of the returned cones.

*Modelled.* `utils/cg.py:Cone.intersection_same_apex`

*Proof.* Reduction to sign vectors of a rank-2 oriented matroid (Pluecker relations), decided by computation over all sign vectors.

*Result.* All sign patterns checked through the Pluecker relations.

*Theorems.* `C16_intersection_same_apex` [DF]

### C17 folding same-apex cones over a list — proved

*Statement.* list_intersection(cones, same_apex=True) describes exactly the points in all cones of the list, whatever the order of the list, and reports the empty polygon exactly when the fold has no cone left.

*Modelled.* `utils/cg.py:Cone.list_intersection`

*Proof.* Induction over the list with C16.

*Result.* Exact characterisation, hence independent of the list order.

*Theorems.* `C17_list_intersection` [DF]

### C18 cone intersection is idempotent and symmetric — partial

*Statement.* Intersecting a cone with itself gives that cone and intersection_same_apex does not depend on which cone is self.

*Modelled.* `utils/cg.py:Cone.intersection_same_apex`

*Proof.* Witnesses by computation; self-intersection by the same sign reduction.

*Result.* REFUTED: convex cone with itself gives []; shared direction: result depends on order. The exact self-intersection behaviour of every cone is proved.

*Theorems.* `C18_idempotent_refuted` [DF], `C18_symmetric_refuted` [DF], `C18_self_intersection_partial` [DF]

### C19 Cone.polygon is total inside the bounding box — proved

*Statement.* If the apex lies strictly inside the 2e6-wide box and both directions are long enough, polygon() never fails: it lists the apex, a point of the first ray on the line of one box side, the consecutive box corners counter-clockwise from that side to the side of the second point (none exactly when the cone is convex and both sides are the same), and a point of the second ray.

*Modelled.* `utils/cg.py:Cone.polygon`

*Proof.* Case analysis on the side through which each ray leaves; the corner loop by computation.

*Result.* "Long enough" made precise: margin * max-coordinate >= 1e-10; a tiny direction is shown to fail.

*Theorems.* `C19_polygon_total` [CDFN], `C19_tiny_direction_fails` [CDFN]

### C20 point_in_triangle — proved

*Statement.* For every outcome of the random generator the point is a convex combination of the three vertices, with weights min(x,y), |x-y| and 1-max(x,y).

*Modelled.* `utils/cg.py:point_in_triangle`

*Proof.* The weights are non-negative with sum one for every pair of draws; region membership by convexity.

*Theorems.* `C20_point_in_triangle` [DF], `C20_point_in_hull` [DF]

### C21 random star polygon — partial

*Statement.* random_angle_steps returns positive steps that sum to 2*pi; generate_star_polygon rejects irregularity/spikiness outside [0,1] and otherwise returns num_vertices points, the i-th at distance at most 2*avg_radius from the center at the angle given by the accumulated steps.

*Modelled.* `utils/cg.py:generate_star_polygon`, `utils/cg.py:random_angle_steps`

*Proof.* Telescoping sum of the angle steps; the loop invariant is the running angle.

*Result.* Proved for irregularity < 1. REFUTED at irregularity = 1 (accepted by the parameter check): draws at the lower end give ZeroDivisionError.

*Theorems.* `C21_angle_steps` [DFN], `C21_rejects` [DFN], `C21_star_polygon_partial` [DFN], `C21_irregularity_one_refuted` [DFN]

### C22 generate_convex_polygon closes up and is centred — proved

*Statement.* The edge vectors sum to zero, the mean of the returned vertices is the origin, and every vertex x coordinate is within box[0] of the origin.

*Modelled.* `utils/cg.py:generate_convex_polygon`

*Proof.* The signed gaps of each chain telescope; shifting by the minimum.

*Result.* Stronger: the extent of the polygon equals the spread of the draws in both coordinates.

*Theorems.* `C22_centred_and_spread` [CDFN], `C22_within_box0` [CDFN]

### C23 generate_convex_polygon stays in its box — partial

*Statement.* Every returned vertex lies in [-box[0],box[0]] x [-box[1],box[1]].

*Modelled.* `utils/cg.py:generate_convex_polygon`

*Proof.* As C22 with the bounds of the draws; witness by computation.

*Result.* REFUTED: the y pool is scaled with box[0]. Proved when box[0] <= box[1].

*Theorems.* `C23_in_box_refuted` [CDFN], `C23_in_box_partial` [CDFN]

### C24 obstacle ids — proved

*Statement.* Obstacles created with id='new' get pairwise distinct, strictly increasing positive ids whatever other obstacles are created in between; an explicit integer id is kept exactly when it was already handed out; temporary and invalid requests get no id.

*Modelled.* `obstacles/obstacle.py:Obstacle._set_id_name`, `obstacles/obstacle.py:Obstacle.copy`

*Proof.* Induction over histories of constructions.

*Theorems.* `C24_ids` [-]

### C25 a copy is independent of the original — partial

*Statement.* After c = o.copy(...), moving c does not change the pose of o.

*Modelled.* `obstacles/obstacle.py:Obstacle.copy`, `obstacles/ellipse.py:Ellipse.copy`, `obstacles/starshaped_polygon.py:StarshapedPolygon.copy`

*Proof.* Motion models as a heap machine; `copy` as deep copy or shared reference.

*Result.* REFUTED for Ellipse and StarshapedPolygon: copy() shares the motion model object, so the original follows every move of the copy. Proved for Polygon and StarshapedPrimitiveCombination (deepcopy), in both directions.

*Theorems.* `C25_deep_copy_partial` [DFN], `C25_shared_copy_refuted` [DFN], `C25_shared_copy_follows` [DFN], `C25_at_rest` [DFN]

### C26 polygon() is never stale — proved

*Statement.* At every point of every history of moves, pose changes, motion-model replacements and queries, polygon(GLOBAL) equals the local polygon moved by the current pose and polygon(OBSTACLE) equals the local polygon.

*Modelled.* `obstacles/obstacle.py:Obstacle.polygon`

*Proof.* The cache as a state machine, refined to a cache-free specification by an invariant over all histories.

*Result.* Any history, including operations that raise.

*Theorems.* `C26_polygon_fresh` [DFN]

### C27 kernel() is never stale — partial

*Statement.* At every point of every history kernel(GLOBAL) equals the local kernel moved by the current pose.

*Modelled.* `obstacles/starshaped_obstacle.py:StarshapedObstacle.kernel`, `obstacles/ellipse.py:Ellipse._compute_kernel`

*Proof.* As C26 for the kernel cache.

*Result.* REFUTED for Ellipse: kernel(GLOBAL) before polygon() raises after storing the pose; later calls return None. Proved for StarshapedPolygon, and for Ellipse when polygon() was called before the first kernel().

*Theorems.* `C27_kernel_stale_refuted` [DFN], `C27_kernel_fresh_partial` [DFN]

### C28 frame changes — proved

*Statement.* transform between frames round-trips in both directions and is the identity for equal frames or no motion model; rotate agrees with transform on differences of points and preserves length.

*Modelled.* `obstacles/obstacle.py:Obstacle.transform`, `obstacles/obstacle.py:Obstacle.rotate`

*Proof.* Rigid-motion lemmas of C01.

*Result.* Also: transform OBSTACLE->GLOBAL is rotate-then-shift by the pose; other frame values raise.

*Theorems.* `C28_frames` [DFN], `C28_transform_is_place` [DFN], `C28_bad_frame` [DFN]

### C29 set_xr then xr — partial

*Statement.* After set_xr(p, frame), xr(frame) returns p, in either frame; set_xr(..., safe_set=True) changes xr only to points of the kernel.

*Modelled.* `obstacles/starshaped_obstacle.py:StarshapedObstacle.set_xr`, `obstacles/starshaped_obstacle.py:StarshapedObstacle.xr`

*Proof.* As C28.

*Result.* Proved for the default call. REFUTED for safe_set=True: it raises AttributeError for kernel points too (the shapely kernel has no exterior_point).

*Theorems.* `C29_set_xr` [DFN], `C29_safe_set_raises` [DFN], `C29_safe_set_refuted` [DFN]

### C30 interior, boundary and exterior are exclusive — partial

*Statement.* A point is never both interior and exterior, every point that is neither has location 0, and boundary_point holds exactly for |location|<=1e-8; a boundary point is neither interior nor exterior.

*Modelled.* `obstacles/obstacle.py:Obstacle.interior_point`, `obstacles/obstacle.py:Obstacle.exterior_point`, `obstacles/obstacle.py:Obstacle.boundary_point`

*Proof.* Case analysis on the value of `point_location`.

*Result.* REFUTED for real-valued locations with 0<|loc|<=1e-8 (Ellipse); proved for the sign-valued default point_location, everything else proved for all locations.

*Theorems.* `C30_locations` [DF], `C30_boundary_exclusive_refuted` [DF], `C30_boundary_exclusive_partial` [DFN]

### C31 reference_direction — proved

*Statement.* For x different from the reference point the result has length 1, points from xr to x, and expressing it in the other frame is the rotation of it.

*Modelled.* `obstacles/starshaped_obstacle.py:StarshapedObstacle.reference_direction`

*Proof.* Norm of a normalised vector; frames by C28.

*Result.* Also: not finite at the reference point itself.

*Theorems.* `C31_reference_direction` [DFN], `C31_undefined_at_xr` [DFN]

### C32 vel_intertial_frame is the rigid-body velocity — partial

*Statement.* The returned velocity equals linear velocity plus angular velocity crossed with the lever arm from the obstacle position to x.

*Modelled.* `obstacles/starshaped_obstacle.py:StarshapedObstacle.vel_intertial_frame`

*Proof.* Exact formula by unfolding; witness with a rotating obstacle.

*Result.* REFUTED: the angular part uses the unit vector from xr instead of the lever arm from pos. Exact formula proved; right when the obstacle does not rotate.

*Theorems.* `C32_rigid_velocity_refuted` [DFN], `C32_velocity_partial` [DFN]

### C33 Static obstacles never move — proved

*Statement.* Any sequence of move(dt) leaves position and rotation unchanged and advances time by the sum of the dt.

*Modelled.* `obstacles/motion_model.py:Static`, `obstacles/motion_model.py:MotionModel.move`

*Proof.* Induction over the steps.

*Theorems.* `C33_static` [DFN]

### C34 SinusVelocity trajectory — proved

*Statement.* In Cartesian mode the position after any step sequence is the initial position plus sum mag*cos(freq*t_k)*dt_k with t_k the elapsed time, and rotation is constant; in either mode each step moves by at most the velocity magnitude times |dt|.

*Modelled.* `obstacles/motion_model.py:SinusVelocity`

*Proof.* Induction over the steps; |cos| <= 1.

*Result.* Trajectory as an explicit sum; per-step bounds in both modes, with the exact displacement in the polar mode.

*Theorems.* `C34_cartesian` [DFN], `C34_step_bound` [DFN]

### C35 Interval passes its way-points on time — proved

*Statement.* For any step sequence that lands on each break time, the position at the i-th break time is the i-th listed position, and between two break times it is on the segment, at the time-proportional place.

*Modelled.* `obstacles/motion_model.py:Interval`

*Proof.* Invariant linking time, interval index and position.

*Result.* Durations positive, steps non-negative; holds at every prefix of the run.

*Theorems.* `C35_interval_on_time` [DFN]

### C36 Interval rests at the last point — partial

*Statement.* Once the last time has been reached exactly, further moves keep the obstacle at the last listed position.

*Modelled.* `obstacles/motion_model.py:Interval.lin_vel`

*Proof.* Witness at the last time point; distance estimate afterwards.

*Result.* REFUTED: at t equal to the last time argmax of an all-False array is 0 and one step is made away from the last point. Proved: strictly after the last time the last point is a rest point and small steps never increase the distance to it.

*Theorems.* `C36_rests_refuted` [DFN], `C36_rests_partial` [DFN]

### C37 Waypoints velocity query — proved

*Statement.* lin_vel() always terminates, never decreases the waypoint index nor raises it past the number of waypoints, skips exactly the run of waypoints closer than wp_thresh, and returns a vector of length |vel| toward the current waypoint, or zero when none is left.

*Modelled.* `obstacles/motion_model.py:Waypoints.lin_vel`

*Proof.* Recursion of `lin_vel` over the remaining waypoints.

*Result.* Includes the one case without a finite result: threshold <= 0 while standing on the waypoint.

*Theorems.* `C37_waypoint_query` [DFN]

### C38 Waypoints are all reached — proved

*Statement.* If 0 < vel*dt <= wp_thresh, repeated move(dt) reaches all waypoints after finitely many steps and then stays at rest for ever.

*Modelled.* `obstacles/motion_model.py:Waypoints`, `obstacles/motion_model.py:MotionModel.move`

*Proof.* The distance to the current waypoint decreases by a fixed amount in every step.

*Theorems.* `C38_waypoints_reached` [DFN]

### C39 Waypoints without the step-size bound — partial

*Statement.* Repeated move(dt) reaches all waypoints for every positive dt and every non-negative wp_thresh.

*Modelled.* `obstacles/motion_model.py:Waypoints`

*Proof.* Two explicit runs.

*Result.* REFUTED: wp_thresh = 0 gives nan in the first step for every waypoint list; a step of twice the distance oscillates for ever. C38 is the part that holds.

*Theorems.* `C39_any_step_refuted` [DFN]

### C40 Ellipse.point_location — proved

*Statement.* Negative/zero/positive exactly for points inside/on/outside the ellipse placed at the current pose, in either input frame.

*Modelled.* `obstacles/ellipse.py:Ellipse.point_location`

*Proof.* Polynomial arithmetic.

*Theorems.* `C40_point_location` [DFN]

### C41 Ellipse.line_intersection for non-steep lines — proved

*Statement.* For a segment that is neither vertical nor steeper than 100 in the obstacle frame and not (nearly) tangent, the returned points are exactly the points common to the segment and the ellipse boundary.

*Modelled.* `obstacles/ellipse.py:Ellipse.line_intersection`

*Proof.* Quadratic formula; sign of the discriminant.

*Result.* NoDup and exact set of common points, for every pair of frames.

*Theorems.* `C41_line_intersection` [DFN]

### C42 Ellipse.line_intersection for all lines — partial

*Statement.* Every returned point lies on the segment and on the ellipse.

*Modelled.* `obstacles/ellipse.py:Ellipse.line_intersection`

*Proof.* Witnesses by field arithmetic.

*Result.* REFUTED: vertical lines answer (0,+-a1) whatever the abscissa, and the tangent case ignores the ends of the segment. Proved for the class of C41 and for segments on the vertical axis.

*Theorems.* `C42_vertical_refuted` [DFN], `C42_tangent_refuted` [DFN], `C42_line_intersection_partial` [DFN]

### C43 Ellipse.tangent_points — proved

*Statement.* For an exterior point away from the vertical-tangent special case, two points are returned, both on the ellipse, both lines from x touch the ellipse only there, the whole ellipse lies in the wedge between them and the first is the one on the left seen from x; for all other points the list is empty.

*Modelled.* `obstacles/ellipse.py:Ellipse.tangent_points`

*Proof.* The tangent condition is a quadratic in the slope; Cauchy-Schwarz for the side.

*Result.* Includes the exactly vertical tangent. The order of the two points holds outside the 1e-10 tolerance of is_ccw, stated as an explicit bound.

*Theorems.* `C43_tangent_points` [DFN]

### C44 Ellipse.tangent_points is defined for every exterior point — partial

*Statement.* For every exterior point the two tangent points are finite and lie on the ellipse.

*Modelled.* `obstacles/ellipse.py:Ellipse.tangent_points`

*Proof.* Witnesses by exact real arithmetic.

*Result.* REFUTED three ways: division by zero for x=(1.000001,0) on the unit circle and for a thin ellipse, and a returned point far off the ellipse. Proved away from the special case and for exactly vertical tangents.

*Theorems.* `C44_vertical_tangent_refuted` [DFN], `C44_thin_refuted` [DFN], `C44_off_ellipse_refuted` [DFN], `C44_tangent_points_partial` [DFN]

### C45 Ellipse.boundary_mapping in non-steep directions — proved

*Statement.* With the reference point inside, the mapped point lies on the boundary and on the ray from xr through x, and it is the only such point.

*Modelled.* `obstacles/ellipse.py:Ellipse.boundary_mapping`

*Proof.* As C41 along the ray; choice of the nearer point.

*Result.* Diameter at least 0.01, direction not steeper than 100, two clear crossings.

*Theorems.* `C45_boundary_mapping` [DFN]

### C46 Ellipse.boundary_mapping in all directions — partial

*Statement.* The mapped point lies on the boundary and on the ray from xr through x.

*Modelled.* `obstacles/ellipse.py:Ellipse.boundary_mapping`

*Proof.* Witness by field arithmetic.

*Result.* REFUTED: a vertical direction off the centre maps to (0,a1). Proved for the class of C45 and on the vertical axis.

*Theorems.* `C46_boundary_mapping_refuted` [DFN], `C46_boundary_mapping_partial` [DFN]

### C47 Ellipse.normal is the outward unit normal — proved

*Statement.* For a boundary point b, normal(b, x_is_boundary=True) has length 1 and n.(y-b)<=0 for every y of the ellipse.

*Modelled.* `obstacles/ellipse.py:Ellipse.normal`

*Proof.* Gradient of the quadratic form; Cauchy-Schwarz for outwardness.

*Theorems.* `C47_normal` [DFN]

### C48 Ellipse.polygon covers the ellipse — partial

*Statement.* The polygon representation contains every point of the ellipse and exceeds the axes by at most 1e-3.

*Modelled.* `obstacles/ellipse.py:Ellipse._compute_polygon_representation`

*Proof.* Points cos/sin; chord estimate by `cos` of half the step.

*Result.* REFUTED for the unit circle with 20 points. Proved: vertices on, hull within the ellipse widened by 1e-3; coverage when 1e-3 makes up for the chord error.

*Theorems.* `C48_polygon_partial` [CDFN], `C48_polygon_refuted` [CDFN]

### C49 Ellipse.dilated_obstacle covers the padding — partial

*Statement.* Every point within distance padding of the ellipse lies in the dilated ellipse; the dilated ellipse contains the original and the original is unchanged.

*Modelled.* `obstacles/ellipse.py:Ellipse.dilated_obstacle`

*Proof.* Minkowski estimate for circles; explicit witness.

*Result.* REFUTED for a=(9,16), padding 1. Proved: contains the original; covers the padding for circles.

*Theorems.* `C49_dilated_refuted` [DFN], `C49_dilated_partial` [DFN]

### C50 Polygon.tangent_points from a separated point — proved

*Statement.* If some line separates x strictly from all vertices, tangent_points returns two vertices such that every vertex (hence the convex hull) lies in the wedge between them, the first on the left seen from x.

*Modelled.* `obstacles/polygon.py:Polygon.tangent_points`

*Proof.* Angle lifting: the unwrapped table is a continuous choice of the angle; its extremes are tangent vertices.

*Result.* General form: for every x not on an edge, in terms of a continuous choice of the angle along the boundary, which is proved to exist; then the separated case.

*Theorems.* `C50_tangent_points_general` [CDFN], `C50_angles_exist` [CDFN], `C50_tangent_points` [CDFN]

### C51 Polygon.tangent_points from inside — proved

*Statement.* If the boundary runs strictly counter-clockwise (or clockwise) around x, tangent_points returns the empty list.

*Modelled.* `obstacles/polygon.py:Polygon.tangent_points`

*Proof.* The lifted angle does not close up when the boundary runs around the point.

*Theorems.* `C51_tangent_points_inside` [CDFN]

### C52 Polygon convexity check — partial

*Statement.* When is_convex() returns, it is True exactly when no vertex turns strictly clockwise or no vertex turns strictly counter-clockwise, independently of traversal direction; when every vertex is collinear a RuntimeError is raised.

*Modelled.* `obstacles/polygon.py:Polygon._check_convexity`

*Proof.* List induction over the corners; the loop bound by the first non-collinear corner.

*Result.* REFUTED: an all-collinear polygon raises IndexError, not RuntimeError, and so does a triangle with two repeated vertices. Proved: exact condition for an answer, exact meaning of the answer, independence of direction, when no turn is exactly at the threshold.

*Theorems.* `C52_convexity_partial` [DF], `C52_all_collinear_refuted` [DF], `C52_last_vertex_refuted` [DF]

### C53 Polygon.point_location — partial

*Statement.* -1/0/1 exactly for interior/boundary/exterior points of the polygon.

*Modelled.* `obstacles/polygon.py:Polygon.point_location`

*Proof.* Case analysis; shapely `contains` assumed exact.

*Result.* REFUTED: for every polygon the leftmost vertex is reported as exterior. Proved: exact in the open bounding box, and interior points are always right.

*Theorems.* `C53_point_location_partial` [DFN], `C53_boundary_refuted` [DFN]

### C54 vertex angle table — proved

*Statement.* After construction and after every set_xr, the table holds the same vertices, sorted by their angle around xr, with the angles stored in the same order plus the first angle advanced by 2*pi.

*Modelled.* `obstacles/starshaped_polygon.py:StarshapedPolygon._update_vertex_angles`, `obstacles/starshaped_polygon.py:StarshapedPolygon.set_xr`

*Proof.* Sorting permutation; strictly increasing angles follow the boundary.

*Result.* np.argsort is any function sorting its input; also proved: when the boundary runs once around xr the table is the boundary order, begun elsewhere.

*Theorems.* `C54_vertex_angles` [CDFN], `C54_set_xr` [CDFN], `C54_table_follows_boundary` [CDFN], `C54_argsort_exists` [DF]

### C55 StarshapedPolygon.normal picks the facing edge — proved

*Statement.* The chosen edge is the one whose angular sector around xr contains x; the 'edge' normal has length 1, is perpendicular to that edge and points away from xr when the edge runs counter-clockwise around xr.

*Modelled.* `obstacles/starshaped_polygon.py:StarshapedPolygon.normal`

*Proof.* First table entry above the angle.

*Theorems.* `C55_normal` [CDFN], `C55_facing_edge` [CDFN]

### C56 StarshapedPolygon.distance_function — proved

*Statement.* Below/equal/above 1 exactly when x is closer/equal/farther than the boundary point in its direction, strictly increasing along every ray from xr.

*Modelled.* `obstacles/starshaped_polygon.py:StarshapedPolygon.distance_function`, `obstacles/starshaped_obstacle.py:StarshapedObstacle.distance_function`

*Proof.* One boundary point per ray; monotonicity along the ray.

*Result.* For polygons met once by every ray from xr; shapely intersection assumed exact.

*Theorems.* `C56_distance_function` [CDFN]

### C57 boundary mapping after dilation — partial

*Statement.* boundary_mapping of a dilated starshaped polygon finds the boundary in every direction.

*Modelled.* `obstacles/starshaped_polygon.py:StarshapedPolygon.dilated_obstacle`, `obstacles/starshaped_polygon.py:StarshapedPolygon.boundary_mapping`

*Proof.* Length of the probe against the diameter of the bounding box; C57_two_places: the nearer of two places.

*Result.* REFUTED: for the unit square with xr=(0.01,0.01) and any padding up to 1/8 nothing is found towards (1,1). Proved: always found for constructed objects; exact condition after dilation; sufficient condition on the bounding box.

*Theorems.* `C57_boundary_mapping_general` [DFN], `C57_constructed` [CDFN], `C57_dilated_partial` [CDFN], `C57_dilated_refuted` [CDFN], `C57_two_places` [DFN]

### C58 combination point_location is union — proved

*Statement.* -1 exactly when x is interior to some member or the hull, 0 exactly when not and on the boundary of one, 1 otherwise.

*Modelled.* `obstacles/starshaped_primitive_combination.py:StarshapedPrimitiveCombination.point_location`

*Proof.* List induction over the members.

*Result.* Proved for members and hull that locate points correctly (instances: Ellipse, boxes). The topological union can differ: C58_union_refuted, of two abutting boxes a point of the common edge is reported outside (1) although it is interior to the union.

*Theorems.* `C58_point_location` [CDF], `C58_union_refuted` [CDFN]

### C59 combination tangent points are the extreme candidates — partial

*Statement.* A candidate is returned exactly when all other candidates are strictly on one side of the line from x through it; the first returned point is on the left seen from x, as for the primitives.

*Modelled.* `obstacles/starshaped_primitive_combination.py:StarshapedPrimitiveCombination.tangent_points`

*Proof.* A candidate against all others; oriented-matroid transitivity around the point.

*Result.* REFUTED in part — C59_order_refuted: the right tangent can be returned first, and admissible_kernel then accepts forbidden points; C59_shared_refuted: members sharing a tangent direction give no point; C59_late_refuted: beyond index 256 `j is not i` compares object identities. Proved for at most 257 candidates: a candidate is returned exactly when it is extreme, and the two points are tangents of the union.

*Theorems.* `C59_candidates_partial` [DF], `C59_union_partial` [DF], `C59_one_member` [DF], `C59_order_refuted` [DF], `C59_shared_refuted` [DF], `C59_late_refuted` [DF]

### C60 combination boundary mapping — partial

*Statement.* The mapped point is the intersection of the probe segment with the members or hull that is farthest from xr, and one is found for every x different from xr.

*Modelled.* `obstacles/starshaped_primitive_combination.py:StarshapedPrimitiveCombination.boundary_mapping`

*Proof.* First index of the largest distance over the concatenated intersections.

*Result.* REFUTED in part — C60_near_refuted: the probe has fixed factor 10, so points near xr give None; C60_collection_refuted: a geometry collection raises TypeError. Proved: the result is the farthest border point on the probe segment, and None only if the probe meets no border.

*Theorems.* `C60_boundary_mapping_partial` [DFN], `C60_near_refuted` [DFN], `C60_collection_refuted` [DFN]

### C61 admissible_kernel is exact — proved

*Statement.* For a convex obstacle and a point x outside it, a point k rejected by admissible_kernel(obstacle, x) has x on a segment from k to the obstacle; an accepted k further than the tolerance from the two tangents has not; None is returned when there are no tangents.

*Modelled.* `starshaped_hull/starshaped_hull.py:admissible_kernel`, `utils/cg.py:Cone.point_in_cone`

*Proof.* Cone membership (C15) against visibility of the convex set.

*Result.* Both directions; the tolerance 1e-10 only matters for accepted points.

*Theorems.* `C61_admissible_kernel` [DF]

### C62 convex starshaped hull is starshaped — proved

*Statement.* For a convex obstacle O and kernel points K, the union of O and convex_kernel_starshaped_hull(O, K) contains every segment from a point of the triangle (convex hull) of K to any of its points, when the tangent and kernel points are distinct with no near-collinear triple.

*Modelled.* `starshaped_hull/starshaped_hull.py:convex_kernel_starshaped_hull`

*Proof.* Convexity arguments with C13; tangents from C43 and C50.

*Result.* For every convex region whose tangent_points are tangents; instances proved for Ellipse and convex Polygon. convex_hull is used through C13, hence the general position hypothesis.

*Theorems.* `C62_starshaped` [DF], `C62_ellipse_tangents` [DFN], `C62_polygon_tangents` [CDFN]

### C63 the starshaped hull keeps x out — proved

*Statement.* If the triangle of kernel points lies in the admissible kernel for x (outside the tolerance of the tangents), x is neither in the obstacle nor in the hull points' convex hull.

*Modelled.* `starshaped_hull/starshaped_hull.py:convex_kernel_starshaped_hull`, `starshaped_hull/starshaped_hull.py:admissible_kernel`

*Proof.* Separation by the tangent lines.

*Result.* For the exact semantic condition and for membership in the cone returned by admissible_kernel.

*Theorems.* `C63_x_stays_out` [DF], `C63_admissible` [DF]

### C64 get_intersection_clusters computes connected components — proved

*Statement.* Two input clusters end in the same output cluster exactly when they are linked by a chain of intersecting polygons; the flag is True exactly when some pair intersects.

*Modelled.* `starshaped_hull/cluster_and_starify.py:get_intersection_clusters`

*Proof.* Union-find style invariant of the backward merging loop.

*Result.* For any obstacles, any symmetric intersects predicate and any order of list(set(...)).

*Theorems.* `C64_connected_components` [-]

### C65 clustering preserves obstacles — proved

*Statement.* The obstacles of the output clusters are a permutation of those of the input clusters, and the number of clusters strictly decreases when an intersection exists.

*Modelled.* `starshaped_hull/cluster_and_starify.py:get_intersection_clusters`

*Proof.* Same invariant, multiset of obstacles.

*Result.* Same setting as C64.

*Theorems.* `C65_preserves_obstacles` [-]

### C66 cluster_and_starify terminates — proved

*Statement.* The iteration stops after at most max(1, number of obstacles) rounds for every geometry, timing and option setting.

*Modelled.* `starshaped_hull/cluster_and_starify.py:cluster_and_starify`

*Proof.* The number of clusters decreases with every round.

*Result.* For every geometry oracle, clock and option set whose random displacements leave the line; the number of rounds is bounded by max(1, number of obstacles) and the answer does not depend on the fuel of the model.

*Theorems.* `C66_terminates` [DFN]

### C67 COMPLETE means disjoint and starified — partial

*Statement.* When the flag is COMPLETE the returned cluster polygons are pairwise non-intersecting and every cluster has a cluster obstacle.

*Modelled.* `starshaped_hull/cluster_and_starify.py:cluster_and_starify`

*Proof.* Loop invariant; witnesses by running the model.

*Result.* REFUTED in general (C67_refuted: with max_iterations the flag is COMPLETE although a returned cluster has no cluster obstacle; with make_convex that call raises). C67_complete_partial proves the property when the iteration was not cut by max_iterations.

*Theorems.* `C67_refuted` [DFN], `C67_cut_raises_refuted` [DFN], `C67_complete_partial` [DFN]

### C68 INCOMPLETE returns the raw obstacles — proved

*Statement.* When the flag is INCOMPLETE the clusters are exactly the input obstacles as singletons in input order, with no kernel points; this is the answer whenever the robot or goal has no tangents to some obstacle.

*Modelled.* `starshaped_hull/cluster_and_starify.py:cluster_and_starify`

*Proof.* Case analysis on the exits.

*Result.* INCOMPLETE returns the input obstacles as singletons; missing tangents always give INCOMPLETE.

*Theorems.* `C68_incomplete_returns_obstacles` [DFN], `C68_no_tangents_gives_up` [DFN]

### C69 no obstacle is lost — partial

*Statement.* In every result the obstacles of the clusters are a permutation of the input obstacles.

*Modelled.* `starshaped_hull/cluster_and_starify.py:cluster_and_starify`, `starshaped_hull/cluster_and_starify.py:ObstacleCluster`

*Proof.* Invariant on the multiset of obstacles; cluster names and ids.

*Result.* REFUTED in general (C69_refuted: two obstacles with id None, one disappears). Proved whenever the ids are pairwise distinct.

*Theorems.* `C69_refuted` [DFN], `C69_no_obstacle_lost_partial` [DFN]

### C70 cluster names identify obstacle sets — proved

*Statement.* Two clusters have the same name exactly when they hold the same sequence of obstacle ids.

*Modelled.* `starshaped_hull/cluster_and_starify.py:ObstacleCluster`, `starshaped_hull/cluster_and_starify.py:extract_cluster`

*Proof.* Decimal printing is injective and contains no underscore.

*Result.* For all sequences of ids, ints or None.

*Theorems.* `C70_names` [-]

### C71 previous clusters can be fed back — partial

*Statement.* The clusters returned by one call can be passed as previous_clusters to the next.

*Modelled.* `starshaped_hull/cluster_and_starify.py:compute_kernel_points`, `starshaped_hull/cluster_and_starify.py:cluster_and_starify`

*Proof.* The stored clusters satisfy what the next call needs.

*Result.* REFUTED in general (C71_refuted; C71_incomplete_forever: after one INCOMPLETE answer is fed back no later call on these obstacles can be COMPLETE). C71_feedback_partial proves it for answers that are not INCOMPLETE and not cut.

*Theorems.* `C71_refuted` [DFN], `C71_feedback_partial` [DFN], `C71_incomplete_forever` [DFN]

### C72 make_convex keeps the guarantees — partial

*Statement.* With make_convex, each cluster replaced by its convex hull has a hull avoiding x, xg and the polygons of all other clusters, all other clusters are unchanged, and polygon() of a cluster is the polygon of its cluster obstacle.

*Modelled.* `starshaped_hull/cluster_and_starify.py:cluster_and_starify`, `starshaped_hull/cluster_and_starify.py:ObstacleCluster.polygon`

*Proof.* Invariant of the conversion loop.

*Result.* The clearance checks and disjointness of the final convex obstacles are proved (C72_make_convex_checks, C72_convex_disjoint). The last clause is REFUTED (C72_refuted: polygon() keeps the polygon from before).

*Theorems.* `C72_refuted` [DFN], `C72_make_convex_checks` [DFN], `C72_convex_disjoint` [DFN]

### C73 return shape follows return_history — partial

*Statement.* With return_history the call returns five values, otherwise four.

*Modelled.* `starshaped_hull/cluster_and_starify.py:cluster_and_starify`

*Proof.* Case analysis on the exits.

*Result.* REFUTED for MAX_COMPUTE_TIME_CONVEX_HULL (C73_refuted). Proved for the other flags.

*Theorems.* `C73_refuted` [DFN], `C73_return_shape_partial` [DFN]

### C74 kernel points lie in the selection set — partial

*Statement.* compute_kernel_points returns an equilateral triangle around the chosen centre with side min(epsilon, 0.9*distance to the boundary of the selection set); if the centre is in the set the whole triangle is; the centre is not collinear with x and xg.

*Modelled.* `starshaped_hull/cluster_and_starify.py:compute_kernel_points`

*Proof.* Norm estimates with a distance-to-boundary oracle; witnesses with square regions.

*Result.* REFUTED in part — C74_inside_refuted: the centre (a centroid moved to the admissible kernel) need not lie in the selection set, and then the whole triangle lies outside it; C74_collinear_refuted: the third branch does not test collinearity; C74_degenerate_refuted: the triangle can shrink to one point. Proved: shape, side and centre of the triangle, how the centre is chosen, that a centre in the set whose disc of that radius is in the set gives a triangle in the set, and what the selection set is.

*Theorems.* `C74_kernel_points_partial` [DFN], `C74_selection_in_admissible` [DF], `C74_selection_in_kernels` [DF], `C74_inside_refuted` [DFN], `C74_collinear_refuted` [DFN], `C74_degenerate_refuted` [DFN]

### C75 cluster_and_starify accepts every convex obstacle — partial

*Statement.* Convex obstacles of every class provided by the library (Ellipse, Polygon, StarshapedPolygon) can be passed to cluster_and_starify without raising.

*Modelled.* `starshaped_hull/cluster_and_starify.py:compute_kernel_points`, `starshaped_hull/cluster_and_starify.py:cluster_and_starify`

*Proof.* Composition of the totality of every step; witnesses by running the model.

*Result.* REFUTED for plain Polygon (C75_refuted, C75_plain_polygon_never) and for Ellipse with exclude_obstacles (C75_exclude_ellipse_never). Proved for star-shaped classes without previous clusters and exclude_obstacles.

*Theorems.* `C75_refuted` [DFN], `C75_plain_polygon_never` [DFN], `C75_exclude_ellipse_never` [DFN], `C75_convex_star_partial` [DFN]

### C76 generate_convex_polygon is convex — partial

*Statement.* The vertices returned by generate_convex_polygon form a convex polygon listed counter-clockwise: no vertex lies to the right of any edge.

*Modelled.* `utils/cg.py:generate_convex_polygon`

*Proof.* Edges sorted by angle turn left; closing sum of C22.

*Result.* REFUTED when two edge vectors share a direction (x and y are sorted separately); proved for pairwise different directions.

*Theorems.* `C76_convex_partial` [CDFN], `C76_convex_refuted` [CDFN]

### C77 Cone.polygon border points lie on the box — partial

*Statement.* The two border points listed by polygon() are the points where the rays leave the bounding box.

*Modelled.* `utils/cg.py:Cone.polygon`

*Proof.* Side selection by the direction's octant; witness by computation.

*Result.* REFUTED: the box sides are intersected as rays; apex (900000,0) with direction (10,-11) gives a border point 809090 outside the box. Proved for directions clear of the diagonals, which is every direction when the apex is the centre.

*Theorems.* `C77_border_outside_refuted` [CDFN], `C77_border_on_box_partial` [CDFN]

### C78 Ellipse.tangent_points order does not depend on the frames — partial

*Statement.* For an exterior point x given in one frame and an answer requested in the other, the two tangent points are the same as with equal frames, the first on the left seen from x.

*Modelled.* `obstacles/ellipse.py:163-200`

*Proof.* C43 in the obstacle frame; `is_ccw` on mixed coordinates in the witness.

*Result.* REFUTED: with input frame GLOBAL and output frame OBSTACLE is_ccw mixes coordinates and the order is wrong. Proved: both points touch, in one of the two orders.

*Theorems.* `C78_order_across_frames_refuted` [DFN], `C78_across_frames_partial` [DFN]

### C79 StarshapedPolygon.normal, 'weighted_edges' — partial

*Statement.* The 'weighted_edges' normal is a unit vector composed of the outward normals of the facing edge and its two neighbours with weights inversely proportional to the distance of x to the edge.

*Modelled.* `obstacles/starshaped_polygon.py:StarshapedPolygon.normal`

*Proof.* Weights are positive and sum to one.

*Result.* REFUTED: the result is not a unit vector. Proved: convex combination of the three outward edge normals with the stated weights.

*Theorems.* `C79_weighted_normal_partial` [CDFN], `C79_weighted_normal_refuted` [CDFN]

### C80 Polygon.line_intersection answers for every segment — partial

*Statement.* line_intersection returns points of the segment on the polygon boundary, none exactly when they do not meet and all of them when there are finitely many, and never raises.

*Modelled.* `obstacles/polygon.py:Polygon.line_intersection`

*Proof.* Case analysis on the geometry type; the witness is a geometry collection.

*Result.* REFUTED: a line through the inner corner of an L-shape raises UnboundLocalError. Proved: otherwise exact.

*Theorems.* `C80_line_intersection_partial` [DFN], `C80_line_intersection_refuted` [DFN]

### C81 Cluster names do not depend on merge order — partial

*Statement.* Two clusters made of the same obstacles carry the same name, whatever sequence of get_intersection_clusters calls brought the obstacles together, so that history and previous-cluster lookups by name find them.

*Modelled.* `starshaped_hull/cluster_and_starify.py:ObstacleCluster`, `starshaped_hull/cluster_and_starify.py:get_intersection_clusters`

*Proof.* By computation.

*Result.* REFUTED: obstacles 1,2,3 merged as (1,3) then 2 give the name 1_3_2, merged at once 1_2_3. Proved instead (C70): equal names mean equal id sequences.

*Theorems.* `C81_order_refuted` [D]

### C82 cluster_and_starify returns at the goal — partial

*Statement.* A call whose robot position equals the goal position returns, and can return COMPLETE.

*Modelled.* `starshaped_hull/cluster_and_starify.py:compute_kernel_points`, `starshaped_hull/cluster_and_starify.py:cluster_and_starify`

*Proof.* `is_collinear(x, x, c)` holds for every c, so the loop never ends.

*Result.* REFUTED: C82_at_goal_never and C82_refuted (never an answer for any random sequence).

*Theorems.* `C82_refuted` [DFN], `C82_at_goal_never` [DFN]

### C83 the result does not depend on clock resolution — partial

*Statement.* A call never raises because the clock returned the same value at consecutive readings.

*Modelled.* `starshaped_hull/cluster_and_starify.py:compute_kernel_points`

*Proof.* All clock readings equal give a zero total.

*Result.* REFUTED: C83_stuck_clock_never and C83_refuted (ZeroDivisionError). C75_convex_star_partial gives the positive statement when the clock advances.

*Theorems.* `C83_refuted` [DFN], `C83_stuck_clock_never` [DFN]

### C84 cluster obstacles keep their id between calls — partial

*Statement.* A cluster whose name occurs in previous_clusters gets a cluster obstacle with the id of the previous cluster obstacle of that name.

*Modelled.* `starshaped_hull/cluster_and_starify.py:cluster_and_starify`

*Proof.* The id argument follows the previous cluster of the same name.

*Result.* REFUTED in general — C84_convex_refuted: with make_convex the cluster obstacle of an unchanged scene gets a new id in every call; C84_vanishing_refuted: when the hull vanishes the obstacle's own id is used. C84_id_kept_partial proves it for every combination in the answer, when the previous names are pairwise different and the id was issued by the counter.

*Theorems.* `C84_id_kept_partial` [DFN], `C84_convex_refuted` [DFN], `C84_vanishing_refuted` [DFN]

### C85 velocity of a combination — partial

*Statement.* vel_intertial_frame(x) is the velocity, at the boundary point in the direction of x, of the member on whose border that point lies, whatever the order of the members.

*Modelled.* `obstacles/starshaped_primitive_combination.py:StarshapedPrimitiveCombination.vel_intertial_frame`

*Proof.* Selection loop over the coordinates of the points as in the code.

*Result.* REFUTED in part — C85_order_refuted: with xr not at the origin the velocity of a member whose border is met earlier is returned; C85_hull_refuted: when the hull border is met last the call raises IndexError. Proved: with xr at the origin and one intersection per member the member met last is used (C85_vel_partial); the one-member case (C85_single).

*Theorems.* `C85_vel_partial` [DFN], `C85_single` [DFN], `C85_order_refuted` [DFN], `C85_hull_refuted` [DFN]

### C86 normal of a combination — partial

*Statement.* normal(x) returns, for each of its three documented kinds, a unit vector: the outward normal of the edge facing x, the normal of the member or hull whose border is met last, or the weighted one; and the default kind can be called on a new combination.

*Modelled.* `obstacles/starshaped_primitive_combination.py:StarshapedPrimitiveCombination.normal`

*Proof.* Table lookup as in C55; farthest intersection as in C60.

*Result.* REFUTED in part — C86_fresh_refuted: the default kind raises AttributeError before polygon() was called. Proved: the edge normal, the member chosen and its normal, the weighted normal, the hull normal.

*Theorems.* `C86_sub_index` [DFN], `C86_hull_normal` [CDFN], `C86_polygon_approx` [CDFN], `C86_edge` [CDFN], `C86_sub_normal` [CDFN], `C86_fresh_refuted` [CDFN], `C86_weighted` [CDFN]

### C87 caches of a combination follow its members — partial

*Statement.* After set_xr, or after a member has moved, polygon() and the vertex angle table describe the current shape.

*Modelled.* `obstacles/starshaped_primitive_combination.py:StarshapedPrimitiveCombination.set_xr`, `obstacles/starshaped_primitive_combination.py:StarshapedPrimitiveCombination.polygon`

*Proof.* State machine of the cache.

*Result.* REFUTED in part — C87_stale_refuted: after a member has moved polygon() keeps the old shape; C87_set_xr_refuted: set_xr before polygon() changes xr and raises. Proved: the table describes the cached polygon around the current xr.

*Theorems.* `C87_table` [CDFN], `C87_polygon_kept` [CDFN], `C87_stale_refuted` [DFN], `C87_set_xr_refuted` [-], `C87_set_xr_partial` [CDFN]

### C88 distance function agrees with point location — partial

*Statement.* distance_function(x) is below 1 exactly for interior points, 1 on the boundary and above 1 outside, for every x different from the reference.

*Modelled.* `obstacles/starshaped_obstacle.py:StarshapedObstacle.distance_function`, `obstacles/starshaped_primitive_combination.py:StarshapedPrimitiveCombination.boundary_mapping`

*Proof.* Distance quotient along the probe; farthest point of C60.

*Result.* REFUTED in part — C88_refuted: an interior point gets the value 4, because the probe of fixed length ends inside the farther member (see also C60_near_refuted: TypeError). Proved: meaning of the value (C88_value) and at most 1 exactly on the set whenever the probe reaches past it (C88_inside_partial).

*Theorems.* `C88_value` [DFN], `C88_inside_partial` [DFN], `C88_refuted` [DFN]

### C89 ids of cluster obstacles are unique — proved

*Statement.* The cluster obstacles in an answer have pairwise different ids, none of them the id of an obstacle outside the cluster, and this stays so when every answer is passed on as previous_clusters.

*Modelled.* `starshaped_hull/cluster_and_starify.py:cluster_and_starify`, `obstacles/obstacle.py:Obstacle._set_id_name`

*Proof.* Invariant: issued ids are below the counter and pairwise different.

*Result.* For callers whose obstacle and previous ids are in order (record in_order: issued by the counter and pairwise different). C89_carries_on shows that every answer not cut by max_iterations restores these conditions for the next call, also when obstacles left or were added, so the property holds along every sequence of calls that starts without previous clusters.

*Theorems.* `C89_unique_ids` [DFN], `C89_carries_on` [DFN]

### C90 The hull of a polygon adds no point that star-shapedness does not need — proved

*Statement.* Whenever polygon_kernel_starshaped_hull(polygon, kernel_points) returns, every vertex of the result lies on a segment from one of the kernel points to a vertex of the polygon. Hence every region that contains the polygon's vertices and is star-shaped with respect to all the kernel points contains all vertices of the result.

*Modelled.* `starshaped_hull/starshaped_hull.py:polygon_kernel_starshaped_hull`, `utils/cg.py:line`, `utils/cg.py:ray`

*Proof.* Induction over the run of the algorithm: every vertex is a polygon vertex, a kernel point or a point between a kernel point and the polygon.

*Result.* model M_PolHull, for every shapely answer that is right for the polygon (record faithful)

*Theorems.* `C90_spanned` [DFN], `C90_least` [DFN]

### C91 Vertices with nothing behind them are kept — proved

*Statement.* If no ray from a vertex v of the polygon, pointing away from a kernel point, meets the polygon again, and v is not strictly inside the triangle of kernel points, then v itself is a vertex of the returned hull; later adjustments of the last augmented edge never overwrite it.

*Modelled.* `starshaped_hull/starshaped_hull.py:polygon_kernel_starshaped_hull`

*Proof.* Induction over the vertex loop: a vertex with free rays is appended and only augmented points are overwritten.

*Result.* up to three kernel points

*Theorems.* `C91_kept` [DFN]

### C92 The hull of a polygon is computed without an exception — partial

*Statement.* For a simple polygon and kernel points in general position polygon_kernel_starshaped_hull returns a polygon and raises no exception.

*Modelled.* `starshaped_hull/starshaped_hull.py:polygon_kernel_starshaped_hull`

*Proof.* Case analysis of every exit of the run; witnesses computed over Q with an exact geometry oracle and transferred to R.

*Result.* REFUTED — with three kernel points in general position IndexError when a vertex lies inside the kernel triangle (C92_index_refuted); AttributeError when a line through a kernel point overlaps an edge (C92_attribute_refuted). Proved: a single kernel point in general position never fails (C92_one_kernel_point); with up to three, IndexError and ValueError only in the stated situations (C92_failures_partial)

*Theorems.* `C92_failures_partial` [DFN], `C92_one_kernel_point` [DFN], `C92_index_refuted` [DFN], `C92_attribute_refuted` [DFN]

### C93 The hull of a polygon contains it and is star-shaped with respect to the kernel points — partial

*Statement.* The polygon returned by polygon_kernel_starshaped_hull contains the given polygon and is star-shaped with respect to every kernel point; in particular a polygon that is already star-shaped with respect to them is returned unchanged (up to the starting vertex).

*Modelled.* `starshaped_hull/starshaped_hull.py:polygon_kernel_starshaped_hull`

*Proof.* Witnesses as in C92; for a polygon seen from all kernel points every line(k, v) stays inside.

*Result.* REFUTED — a simple result that misses a vertex of the polygon and is not star-shaped (C93_refuted); the empty polygon for a polygon inside the kernel triangle (C93_empty_refuted). Proved: a polygon seen completely from all kernel points is returned unchanged (C93_already_starshaped_partial)

*Theorems.* `C93_refuted` [DFN], `C93_empty_refuted` [DFN], `C93_already_starshaped_partial` [DFN]

### C94 The hull of a polygon does not depend on how its ring is listed — proved

*Statement.* Listing the vertices of the same polygon from another starting vertex, or in the opposite direction, gives the same list of hull vertices, provided one vertex has strictly the largest x coordinate and the turn there exceeds the orientation threshold.

*Modelled.* `starshaped_hull/starshaped_hull.py:polygon_kernel_starshaped_hull`

*Proof.* The arrangement step normalises the ring.

*Result.* needs a unique vertex with largest x; for reversal also a turn beyond the threshold there

*Theorems.* `C94_ring_start` [DF], `C94_ring_direction` [DF]

### C95 The kernel of a convex polygon is the polygon — partial

*Statement.* For a convex polygon, StarshapedPolygon.kernel() in the obstacle frame is the polygon itself: exactly its points see all of it.

*Modelled.* `obstacles/starshaped_polygon.py:StarshapedPolygon._compute_kernel`, `obstacles/polygon.py:Polygon._check_convexity`

*Proof.* Exact behaviour of the convex branch through C52.

*Result.* REFUTED for tiny polygons: a triangle with area below the orientation threshold raises IndexError (C95_tiny_refuted). Proved: every convex counter-clockwise ring with a corner beyond the threshold other than the last (C95_convex_partial)

*Theorems.* `C95_convex_partial` [DFN], `C95_tiny_refuted` [DFN]

### C96 The kernel moves with the polygon — proved

*Statement.* Moving the polygon by a rotation and a translation moves the computed kernel by the same motion; the polygons for which no kernel is found, or for which an exception is raised, are the same.

*Modelled.* `obstacles/starshaped_polygon.py:StarshapedPolygon._compute_kernel`

*Proof.* Simulation: the whole scan commutes with a rigid motion, operation by operation (`L_KernelSim`, `L_KernelMove`).

*Result.* all rotations and translations, all vertex lists, including failures

*Theorems.* `C96_kernel_moves` [DFN]

### C97 The kernel is the set of points that see the whole polygon — partial

*Statement.* When _compute_kernel stores a polygon, its points are exactly the points of the obstacle from which every point of the obstacle is visible.

*Modelled.* `obstacles/starshaped_polygon.py:StarshapedPolygon._compute_kernel`

*Proof.* Symbolic execution of the scan on a quadrilateral with a reflex vertex, with all tolerances; the result is compared with the half-plane description of the kernel. Witnesses and the nine rings of C97_rings_partial over Q.

*Result.* REFUTED — a result with a vertex outside the polygon (C97_outside_refuted), a result that misses points of the kernel (C97_missing_refuted), a 9 by 18 hexagon with a vertex that does not see the polygon (C97_small_refuted). Proved: quadrilaterals with one reflex vertex, at most 150 wide and with margins of 0.1, from any starting vertex (C97_dart_partial); nine rings of five to nine vertices that take other updates of the chain (C97_rings_partial)

*Theorems.* `C97_dart_partial` [DFN], `C97_outside_refuted` [DFN], `C97_missing_refuted` [DFN], `C97_small_refuted` [DFN], `C97_rings_partial` [DFN]

### C98 A star-shaped polygon has a kernel — partial

*Statement.* For every simple polygon with a point that sees all of it, _compute_kernel stores a polygon (with at least three distinct vertices) and raises no exception.

*Modelled.* `obstacles/starshaped_polygon.py:StarshapedPolygon._compute_kernel`

*Proof.* Witnesses over Q; the form of an answer by unfolding the last lines.

*Result.* REFUTED — star-shaped polygons for which the scan reports an empty kernel, ValueError, IndexError, or loses the answer when the polygon is enlarged (C98_*_refuted). Proved: the form of an answer (C98_form); the quadrilaterals of C97_dart_partial and the convex polygons of C95_convex_partial get one

*Theorems.* `C98_none_refuted` [DFN], `C98_value_refuted` [DFN], `C98_index_refuted` [DFN], `C98_size_refuted` [DFN], `C98_form` [DFN]

### C99 Default reference point — partial

*Statement.* StarshapedPolygon(polygon) without xr, for a star-shaped polygon, succeeds and chooses a reference point from which the whole polygon is visible.

*Modelled.* `obstacles/starshaped_polygon.py:StarshapedPolygon.__init__`, `obstacles/starshaped_polygon.py:StarshapedPolygon._compute_kernel`

*Proof.* Centre of area inside a convex kernel; witnesses as in C98.

*Result.* REFUTED — AttributeError on a star-shaped hexagon (C99_attribute_refuted); a reference point outside the polygon (C99_outside_refuted). Proved: quadrilaterals with one reflex vertex and convex polygons (C99_dart_partial, C99_convex_partial)

*Theorems.* `C99_dart_partial` [DFN], `C99_convex_partial` [DFN], `C99_attribute_refuted` [DFN], `C99_outside_refuted` [DFN]

### C100 A complete answer of cluster_and_starify is a set of disjoint star-shaped obstacles free of robot and goal — proved

*Statement.* For convex obstacles and make_convex off, when cluster_and_starify returns the status that all clusters are separate, then every returned obstacle contains its member obstacles, is star-shaped from every point of its kernel triangle, has the mean of that triangle as reference point, and contains neither the robot nor the goal position; obstacles of different clusters are disjoint. The kernel triangle lies inside the admissible kernel.

*Modelled.* `starshaped_hull/cluster_and_starify.py:cluster_and_starify`, `starshaped_hull/starshaped_hull.py:kernel_starshaped_hull`, `starshaped_hull/starshaped_hull.py:admissible_kernel`

*Proof.* Invariant of the merging loop (`built`: every cluster was made from admissible cones, kernel points and a hull), then C15 (cones), C43 (kernel points), C61-C63 (tangents, hulls) and the end test of the loop; not_blocked: a point that sees x past an obstacle.

*Result.* for convex obstacles and make_convex off; the hypotheses on obstacles are the conclusions of C61-C63, those on the geometry library are the records faithful_geometry and convex_obstacles, and hull_right for the hull of a member; C100_example is a scene that meets them

*Theorems.* `C100_guarantee` [CDFN], `C100_inside` [DFN], `C100_disjoint` [DFN]

### C101 Cone.polygon is the cone within the bounding square — partial

*Statement.* Cone(apex, dir1, dir2).polygon() is a simple polygon that covers exactly the points of the square |x|, |y| <= 10^6 in the sector counter-clockwise from dir1 to dir2.

*Modelled.* `utils/cg.py:Cone.polygon`

*Proof.* The border points and corners are a chain of directions of total angle below 2 pi; each triangle over a side is the sector of its two directions within the box (`L_ConeRegion`).

*Result.* REFUTED — with a direction near a diagonal the outline crosses itself, already for an apex 10 from the centre (C101_simple_refuted). Proved: directions clear of the diagonals (C101_region_partial)

*Theorems.* `C101_region_partial` [CDFN], `C101_simple_refuted` [CDFN]

### C102 cluster_and_starify on convex polygons and ellipses gives star-shaped, non-overlapping obstacles away from robot and goal — proved

*Statement.* For obstacles that are convex StarshapedPolygons or Ellipses, when cluster_and_starify(obstacles, x, xg, ...) reports a complete clustering with make_convex off: every cluster obstacle contains its members, is star-shaped from every point of its kernel triangle, and, when the triangle lies inside the admissible kernel, contains neither x nor xg; its reference point is in the triangle. For polygons, different cluster obstacles have no point in common. Nothing is assumed of the obstacle classes, of Cone.polygon or of the hull routine, only of shapely's set operations.

*Modelled.* `starshaped_hull/cluster_and_starify.py:cluster_and_starify`, `starshaped_hull/starshaped_hull.py:convex_kernel_starshaped_hull`, `obstacles/polygon.py:Polygon.tangent_points`, `obstacles/ellipse.py:Ellipse.tangent_points`, `utils/cg.py:Cone.polygon`, `utils/cg.py:convex_hull`

*Proof.* `M_Shapes` puts the modelled tangent points, convexity test, hull and cone polygon behind the interface of `M_Clusters`; the premises of C100 follow from C62 (tangents of polygons and ellipses), C52 (convexity test), C13 (hull) and C101 (cone polygon). `W_Shapes` is a scene of two squares for which the whole call is evaluated.

*Result.* C100 with the modelled methods of convex polygons and ellipses (record implemented), cone polygons and hulls; assumed of shapely: record sets (intersection, union, empty, the region of a convex ring, a swept ring lies within its fan). That the triangle lies inside the admissible kernel is a hypothesis here; C100_inside derives it from the triangle placement

*Theorems.* `C102_guarantee` [CDFN], `C102_disjoint` [CDFN]

### C103 Cone.intersection and Cone.list_intersection give the intersection of the cones within the bounding square — partial

*Statement.* The polygon returned by Cone.list_intersection(cones, same_apex) and by c1.intersection(c2, same_apex) covers, off the border lines of the cones, exactly the points of the bounding square that lie in all the cones; the answer does not depend on same_apex when the cones share their apex.

*Modelled.* `utils/cg.py:Cone.list_intersection`, `utils/cg.py:Cone.intersection`, `utils/cg.py:Cone.intersection_same_apex`, `utils/cg.py:Cone.polygon`

*Proof.* `M_ConeSets` closes the gap between `Cone.list_intersection` on directions (M_Cg) and the polygon returned. Region of one cone: C101. Same apex: membership of a point is compared with the cone test of the code far out on the ray through the point (`far_point`), where C17 applies. The refutation is C18 on a cone with itself.

*Result.* REFUTED for directions shared between the cones: a cone intersected with itself gives the empty polygon with same_apex=True and the cone with same_apex=False (C103_shared_refuted). Proved for same_apex=False without a condition on pairs of cones (C103_list_region), for same_apex=True and Cone.intersection when no two directions are parallel. Assumed of shapely: record cone_sets

*Theorems.* `C103_answers` [CDFN], `C103_list_region` [CDFN], `C103_same_apex_partial` [CDFN], `C103_pair_partial` [CDFN], `C103_shared_refuted` [CDFN]

### C104 reference_direction of an array of points — partial

*Statement.* reference_direction(x) of an array x with one point per row returns an array with the reference direction of each row.

*Modelled.* `obstacles/starshaped_obstacle.py:StarshapedObstacle.reference_direction`, `obstacles/obstacle.py:Obstacle.transform`, `utils/cg.py:affine_transform`

*Proof.* `M_Arrays` writes out numpy broadcasting of shapes (n,2) and (n,) and the reading of x[0], x[1] as rows. The theorems say for each n what comes out.

*Result.* REFUTED for two rows (answers that are not unit vectors) and for three or more rows (ValueError). Proved: one row without change of frame; two rows are right exactly when equally far from xr or on the two axes; the frame changes take points as columns; one row with a change of frame is an IndexError

*Theorems.* `C104_one_row_partial` [DFN], `C104_two_rows_partial` [DFN], `C104_many_rows` [DFN], `C104_columns` [DFN], `C104_one_row_converted` [DFN], `C104_rows_refuted` [DFN]

### C105 Names of obstacles — partial

*Statement.* str(obstacle) is the name given when it was made, copied or dilated; without a name, two obstacles print the same exactly when they have the same id; copy('duplicate') keeps the id, and keeps the name unless another is given.

*Modelled.* `obstacles/obstacle.py:Obstacle._set_id_name`, `obstacles/obstacle.py:Obstacle.copy`, `obstacles/ellipse.py:Ellipse.copy`, `obstacles/starshaped_polygon.py:StarshapedPolygon.copy`

*Proof.* `M_Names` has the name part of `_set_id_name` and the three versions of copy; programs are sequences of constructions, copies and dilations. Ids never exceed the counter (invariant), so duplicates keep them; decimal printing is injective.

*Result.* REFUTED for duplicates: Polygon.copy ignores the name given, Ellipse.copy loses the name when none is given and has no defaults. Proved for constructions, other copies, ids of duplicates and default names

*Theorems.* `C105_made` [-], `C105_copied_partial` [-], `C105_duplicate_id` [-], `C105_default_names` [-], `C105_duplicate_refuted` [-]

### C106 is_convex and is_starshaped describe the present shape — partial

*Statement.* is_convex() answers whether the obstacle as it is now is convex, also after dilated_obstacle and whatever was asked before; is_starshaped() is true of every star-shaped class and of every convex polygon.

*Modelled.* `obstacles/obstacle.py:Obstacle.is_convex`, `obstacles/obstacle.py:Obstacle.is_starshaped`, `obstacles/polygon.py:Polygon.dilated_obstacle`, `obstacles/polygon.py:Polygon._check_convexity`

*Proof.* `M_Convexity` has the two cached answers; programs are sequences of queries and dilations (the buffered ring is an input). The counterexample is an L-shaped polygon whose erosion by 1 is proved to be a square (`core_is_shrunk`).

*Result.* REFUTED for Polygon: dilated_obstacle keeps the answer computed for the original (C106_stale_refuted). Proved for StarshapedPolygon and Ellipse, and for Polygon without dilation; C106_polygon_partial says exactly which ring is_convex answers for

*Theorems.* `C106_undilated` [DF], `C106_dilated_partial` [DF], `C106_polygon_partial` [DF], `C106_stale_refuted` [DFN]

### C107 Guarantee of the clustering with make_convex — proved

*Statement.* Whatever flag other than INCOMPLETE the call ends with: every cluster's obstacle contains its members, has the mean of the kernel points as reference point, contains the kernel triangle and is star-shaped from all of it; an obstacle that was replaced by its convex hull is convex, robot and goal are not in its interior, and the obstacles of different clusters stay disjoint. With make_convex and flag COMPLETE, an obstacle that was not replaced is reported convex, or its hull contains the robot or the goal or meets the polygon of another cluster.

*Modelled.* `starshaped_hull/cluster_and_starify.py:cluster_and_starify`, `starshaped_hull/starshaped_hull.py:kernel_starshaped_hull`, `obstacles/starshaped_primitive_combination.py:StarshapedPrimitiveCombination`

*Proof.* The clusters after the loop satisfy C100; each step of the convex phase keeps the reference point and the kernel points and enlarges the region to its hull, which contains the kernel triangle and is convex. Disjointness: a replacement is made only when the hull meets no polygon of another cluster, and polygon and region agree. Maximality: the loop over the clusters is followed with the polygons of the clusters after the last replacement.

*Result.* C107_polygons is the instance for convex polygon obstacles with the modelled methods. The robot may lie on the border of a replaced obstacle: contains of shapely is about interiors. Assumed of shapely: record faithful_geometry and what is stated in the theorems

*Theorems.* `C107_guarantee` [CDFN], `C107_maximal` [DFN], `C107_disjoint` [CDFN], `C107_polygons` [CDFN]

### C108 The history returned with return_history — partial

*Statement.* With return_history and flag COMPLETE the fifth value has one entry per iteration: the first with one cluster per obstacle, each made of the clusters of the one before, the last the returned clusters, and each entry shows the clusters of its round as they were.

*Modelled.* `starshaped_hull/cluster_and_starify.py:cluster_and_starify`, `starshaped_hull/cluster_and_starify.py:get_intersection_clusters`

*Proof.* `M_History` says what the caller finds in an entry after the call: objects are identified by the name of the cluster (injective in the ids). Invariant of the loop: every cluster of every entry is found in the cluster history under its name unchanged. Coarsening: C64/C65. The counterexample is one obstacle with make_convex.

*Result.* REFUTED with make_convex: the entry shows the convex hull made after the loop (C108_make_convex_refuted). Everything else is proved (C108_rounds_partial); a call that gives up in a later round has one entry more than iterations (C108_given_up)

*Theorems.* `C108_rounds_partial` [DFN], `C108_given_up` [DFN], `C108_make_convex_refuted` [DFN]

### C109 The hull for a single kernel point is exact — proved

*Statement.* Called with a simple counter-clockwise polygon without holes and one kernel point, polygon_kernel_starshaped_hull returns a vertex list that goes round the kernel point exactly once, counter-clockwise, and encloses exactly the points on segments from the kernel point to the polygon: the least region that contains the polygon and is star-shaped from the kernel point. The kernel point may lie inside or outside the polygon.

*Modelled.* `starshaped_hull/starshaped_hull.py:polygon_kernel_starshaped_hull`, `utils/cg.py:is_ccw`, `utils/cg.py:is_cw`

*Proof.* The ring of an enclosed region is handled by winding numbers (`L_Wind`, `L_Ring`, `L_Ring2`): every edge has the region on its left only, and the winding number separates inside from outside. `L_Lit*`, `L_Order*`: a point is lit if the region has no point beyond it; consecutive lit vertices of the ring either see one piece of one edge between their rays or are the two ends of an opening through which the kernel point sees the outside. `L_PolHull4`, `L_PolHull5`: the code finds exactly the lit vertices, where their rays leave the polygon, and inserts the kernel point at the first end of the opening; its list is one block per lit vertex. `L_PolHull6`: edges of the list are these pieces, or lie on one ray, so the triangles over them are exactly the segments to lit points. `W_HullOne` decides the premises for rational polygons by computation.

*Result.* for every shapely answer that is right for the polygon (record faithful) and lists disjoint parts (record plain); premise roomy: no two vertices in the same direction from the kernel point, ring points on the rays through vertices not closer than 1/1000 of the distance of the vertex to each other, double areas of the triangles over the edges above 1000 times the threshold. With three kernel points the result can be wrong (C93)

*Theorems.* `C109_one_point_hull` [CDFN], `C109_least` [CDFN]

### C110 A polygon that is star-shaped from the kernel point is its own hull — partial

*Statement.* If the polygon passed to polygon_kernel_starshaped_hull is star-shaped with respect to the single kernel point, the returned vertex list encloses exactly the polygon. Calling the function again for a result of itself therefore changes nothing.

*Modelled.* `starshaped_hull/starshaped_hull.py:polygon_kernel_starshaped_hull`

*Proof.* Corollary of C109; the counterexample is computed: for the dart of C90 and a point of it in line with an edge of the notch the model returns the triangle without the notch.

*Result.* REFUTED: from a kernel point of the polygon in line with one of its edges a polygon that is star-shaped from it loses its notch (C110_in_line_refuted). Proved when no two vertices are in the same direction from the kernel point (record roomy, C110_own_hull_partial)

*Theorems.* `C110_own_hull_partial` [CDFN], `C110_in_line_refuted` [DFN]

### C111 Positions of obstacles are values — partial

*Statement.* The position of an obstacle changes only when move or set_pos of its own motion model is called, and no call of a motion model changes arrays of the caller: arrays given to the constructor or to set_pos, and arrays returned by pos, keep their numbers. move works for every position that set_pos accepts.

*Modelled.* `obstacles/motion_model.py:MotionModel.__init__`, `obstacles/motion_model.py:MotionModel.move`, `obstacles/motion_model.py:MotionModel.set_pos`, `obstacles/motion_model.py:MotionModel.pos`

*Proof.* `M_MotionHeap` models positions as objects on a heap; `S_MotionHeap` states the semantics without sharing (with the motion models of `M_Motion`) and tracks what each variable may still be used for. Simulation: motion models refer to different objects, variables that may be written refer to objects of their own. The counterexamples are programs of three to six calls.

*Result.* REFUTED: set_pos keeps and pos returns the array itself, which move changes in place: an array given to two obstacles moves a Static one (C111_shared_refuted), arrays of the caller change (C111_callers_array_refuted, C111_returned_array_refuted), tuples and arrays of integers make move raise (C111_kinds_raise). Proved for programs that give every array to set_pos once, do not change it afterwards and do not keep what pos returned over a move (C111_values_partial, C111_no_exception)

*Theorems.* `C111_values_partial` [DFN], `C111_no_exception` [DFN], `C111_shared_refuted` [DFN], `C111_callers_array_refuted` [DFN], `C111_returned_array_refuted` [DFN], `C111_kinds_raise` [DFN]

### C112 Turn tests in binary64 arithmetic — proved

*Statement.* For points with coordinates of magnitude at most 160, is_ccw and is_cw as computed with binary64 numbers never report a turn that the points do not make: True means that the three points (the exact values of the given numbers) turn that way. Every turn with twice the triangle area beyond 2e-10 is reported, and exactly collinear points are reported collinear. For coordinates up to M the computed orientation value is within 33 M^2 2^-53 of the exact one.

*Modelled.* `utils/cg.py:orientation_val`, `utils/cg.py:is_collinear`, `utils/cg.py:is_cw`, `utils/cg.py:is_ccw`

*Proof.* `M_Float` instantiates the generic definitions of `M_Cg` with binary64 numbers as specified in `Coq.Floats.SpecFloat` of the standard library (no primitive floats, no axioms of them). `L_Float` proves from these definitions that addition, subtraction and multiplication return the exact result up to 2^-53 of it plus 2^-1075, and exactly the result where it is n 2^-s with |n| < 2^53; `L_FloatCmp` that comparisons compare the values. The rest is the usual error analysis of the two products and three differences. The counterexample was found by random search and is checked by computation.

*Result.* for the bound 160; C112_large_refuted shows that it fails for coordinates up to 300

*Theorems.* `C112_orientation_error` [DF], `C112_turn_tests` [DF], `C112_large_refuted` [DF]

### C113 Turn tests, crossing test and convex hull are exact on a grid — proved

*Statement.* If all coordinates are multiples of 2^-s, s at most 40, of magnitude below 2^(25-s), then orientation_val in binary64 is exact and is_ccw, is_cw, is_collinear, intersect and convex_hull give the answers of exact arithmetic (with the threshold exactly 1e-10).

*Modelled.* `utils/cg.py:orientation_val`, `utils/cg.py:is_collinear`, `utils/cg.py:is_cw`, `utils/cg.py:is_ccw`, `utils/cg.py:intersect`, `utils/cg.py:convex_hull`

*Proof.* The exactness part of the rounding lemmas; no multiple of 2^-80 lies between 1e-10 and the binary64 number nearest to it. The hull follows because all its comparisons agree.

*Result.* C113_off_grid_refuted shows that the restriction is needed

*Theorems.* `C113_orientation_exact` [DF], `C113_tests_exact` [DF], `C113_off_grid_refuted` [DF]

### C114 convex_hull in binary64 arithmetic — proved

*Statement.* For distinct points with coordinates of magnitude at most 160, no three of which span less than 1e-10 of area, convex_hull computed with binary64 numbers ends within n rounds and returns the corners of the convex hull of the points, anticlockwise, starting with the leftmost (topmost of these).

*Modelled.* `utils/cg.py:convex_hull`

*Proof.* By C112 all turn tests of the computation agree with exact arithmetic with the threshold 1e-10, so the computed hull is the one of C13.

*Theorems.* `C114_hull` [DF]

### C115 affine_transform in binary64 arithmetic — partial

*Statement.* With binary64 numbers of magnitude at most M affine_transform is within 10 M 2^-53 (forward) and 17 M 2^-53 (inverse) of the exact transform, and the inverse of the transform gives back the point.

*Modelled.* `utils/cg.py:affine_transform`

*Proof.* `affine_num` is the function for any kind of number with cosine and sine as parameters (with the reals it is that of `M_Cg`, lemma `affine_num_R`). Error analysis as for C112.

*Result.* REFUTED: there and back is not exact, already without rotation: 0.1 moved by 0.2 and back (C115_round_trip_refuted). Proved: the error bounds of both transforms (C115_transforms), the round trip up to 35 M 2^-53 (C115_round_trip_partial), exact without rotation for multiples of 2^-s below 2^(25-s) (C115_grid_round_trip)

*Theorems.* `C115_transforms` [DFN], `C115_round_trip_partial` [DFN], `C115_round_trip_refuted` [DF], `C115_grid_round_trip` [DF]

### C116 get_intersection in binary64 arithmetic — partial

*Statement.* For segments with binary64 coordinates get_intersection returns, when its crossing test succeeds, a proper point near the crossing of the two lines (within 400 M^3 2^-53 / D for coordinates up to M <= 160 and D the absolute cross product of the directions); the test itself is right when no end is within 2e-10 of the other line in terms of area; an end that lies exactly on the other segment is never missed.

*Modelled.* `utils/cg.py:get_intersection`, `utils/cg.py:intersect`

*Proof.* `get_intersection_num` is the function for any kind of number with the square root as a parameter (with the reals it is that of `M_Cg`, lemma `get_intersection_num_R`). `L_FloatDiv` proves the rounding of division and square root from the definitions of `SpecFloat`; `L_FloatLine` bounds the error of both scalar products, of their quotient (using that the successful test keeps the exact quotient within 1.5) and of the point. The counterexample is a pair of antiparallel segments with exact products, found by search; numpy evaluates `np.dot` of two-vectors with or without a fused multiply-add, the denominator is zero either way.

*Result.* REFUTED: with coordinates below 1 the test can succeed and the denominator be zero; the answer is then infinite or nan (C116_not_finite_refuted). Proved: the error bound when the cross product of the directions is at least 4e-10 (C116_crossing), the correctness of the test away from 2e-10 (C116_test), and that ends on the other segment are found and what is returned without a crossing is close to the other segment (C116_ends)

*Theorems.* `C116_crossing` [DF], `C116_test` [DFN], `C116_ends` [DFN], `C116_not_finite_refuted` [DF]

### C117 is_between in binary64 arithmetic — proved

*Statement.* With binary64 coordinates of magnitude up to 2^400 is_between(a, b, c) reports every point b that lies exactly on the segment from a to c, and is True exactly when |ab| + |bc| exceeds |ac| by at most 1e-8 + 1e-7 |ac|, except for excesses within one part in a million of this bound.

*Modelled.* `utils/cg.py:is_between`

*Proof.* `L_FloatNorm`: the norm of a difference has a relative error of 7 units in the last place for all magnitudes, up to 2^-299 from underflow; the tolerance of np.isclose is far larger. Triangle inequality and linear arithmetic.

*Theorems.* `C117_between` [DFN], `C117_on_segment` [DFN]

### C118 line_segment_intersection in binary64 arithmetic — partial

*Statement.* LineSegment.line_segment_intersection finds the common point of two segments that are not nearly parallel, also when it is an end point of both.

*Modelled.* `utils/cg.py:LineSegment.line_segment_intersection`

*Proof.* The generic definition of `M_Cg` with binary64 numbers. `L_FloatSeg` bounds the errors of the three cross products, the two quotients and the point. The counterexample is checked by computation.

*Result.* REFUTED: the segments from (0.8, 0.3) and from (0.5, 0.3) to (0.3, 0.7) have no common point according to the function (C118_common_end_refuted). Proved: crossings with both parameters at least e = 150 M^2 2^-53 / D away from 0 and 1 are found, and a point that is returned is within 2 M e of the crossing of the lines, with parameters within e of [0, 1] (C118_segments_partial); a common first point is returned exactly (C118_same_start)

*Theorems.* `C118_segments_partial` [DF], `C118_same_start` [DF], `C118_common_end_refuted` [DF]

### C119 Reference points of the caller's obstacles after cluster_and_starify — partial

*Statement.* The call changes the reference points of the obstacles it is given only where its answer says so: an obstacle whose cluster in the answer is the obstacle itself has the reference point shown there, every other obstacle keeps its own. In particular a call that gives up or raises changes nothing.

*Modelled.* `starshaped_hull/cluster_and_starify.py:cluster_and_starify`, `obstacles/starshaped_obstacle.py:StarshapedObstacle.set_xr`

*Proof.* `M_XrWrites` lists the calls of set_xr in the order of the loop. `C119_changes` is by induction over the loop of the first round. For `C119_answer_agrees` the agreement of a cluster with the list of calls is carried through the rounds (`kept_rounds`) and through make_convex. The counterexamples are runs of the toy world of `W_Starify`, computed.

*Result.* REFUTED: a call that gives up in a later round (C119_incomplete_refuted), one that raises (C119_raise_refuted) and one that puts an obstacle into a larger cluster (C119_clustered_refuted) leave other reference points behind. Proved: exactly which are set, and to what (C119_changes), that nothing changes when the call gives up before the first round (C119_gives_up), and that the answer agrees with what is left behind (C119_answer_agrees)

*Theorems.* `C119_changes` [DFN], `C119_gives_up` [DFN], `C119_answer_agrees` [DFN], `C119_incomplete_refuted` [DFN], `C119_clustered_refuted` [DFN], `C119_raise_refuted` [DFN]

### C120 cluster_and_starify does not depend on the reference points it is given — proved

*Statement.* Two calls with obstacles that differ in their reference points only have the same answer, so that a call can be repeated although the first has changed the reference points; with make_convex this needs that there is no limit on the number of iterations.

*Modelled.* `starshaped_hull/cluster_and_starify.py:cluster_and_starify`

*Proof.* The runs with the two kinds of reference points are compared part by part; all parts but make_convex do not mention the reference points, and make_convex reads them only of clusters that were not starified, which do not exist unless max_iterations has cut the run (`finished_done`).

*Theorems.* `C120_reference_points_ignored` [DFN]

### C121 The plotting methods show the obstacle as it is — partial

*Statement.* draw, and update_plot with handles of the same obstacle after any number of motions, changes of the reference point and earlier updates, leave artists that show the boundary, the reference point and the name of the obstacle at its present pose in the frame asked for; the handles have the same meaning for every class.

*Modelled.* `obstacles/ellipse.py:Ellipse.update_plot`, `obstacles/polygon.py:Polygon.update_plot`, `obstacles/starshaped_polygon.py:StarshapedPolygon.update_plot`, `obstacles/starshaped_primitive_combination.py:StarshapedPrimitiveCombination.update_plot`

*Proof.* `M_Plot`: artists are values, update_plot returns the changed list. The shape of the list of handles is an invariant of init_plot and update_plot; under it the result of update_plot does not depend on the coordinates in the handles. The ellipse patch of matplotlib is given by its parametrisation in `on_patch`.

*Result.* REFUTED: the second handle is the mark of the reference point for an Ellipse and the name for a StarshapedPolygon (C121_order_refuted); update_plot of a StarshapedPrimitiveCombination changes nothing and has no argument for the frame (C121_combination_refuted). Proved: what draw and update_plot show for the other classes (C121_draw_shows_partial, C121_update_shows_partial), and draw for the combination (C121_combination_partial)

*Theorems.* `C121_draw_shows_partial` [DFN], `C121_update_shows_partial` [DFN], `C121_order_refuted` [DFN], `C121_combination_refuted` [DF], `C121_combination_partial` [-]

### C122 draw_adm_ker and draw_shapely_polygon — partial

*Statement.* draw_adm_ker shows the admissible kernel and the kernel points of every cluster that has a kernel which is not empty, in axes of its own; draw_shapely_polygon draws the outlines of all polygons of a geometry in their order, cut at the limits if both are given.

*Modelled.* `starshaped_hull/cluster_and_starify.py:draw_adm_ker`, `utils/misc.py:draw_shapely_polygon`

*Proof.* Arithmetic of the integer square root (n < (sqrt n + 1)^2); induction over the clusters. What shapely says about emptiness and type of a geometry, and the intersection with the box, are parameters.

*Result.* REFUTED: a kernel that is a line segment makes draw_adm_ker raise (C122_line_refuted), a polygon of which the box leaves two parts makes draw_shapely_polygon raise (C122_clipped_refuted). Proved: what is drawn where otherwise, and exactly when draw_adm_ker raises

*Theorems.* `C122_shapely_partial` [-], `C122_clipped_partial` [-], `C122_cells_partial` [-], `C122_raises_partial` [-], `C122_line_refuted` [-], `C122_clipped_refuted` [D]

### C123 Line.line_intersection in binary64 — proved

*Statement.* With coordinates of magnitude at most M (M at most 160), Line.line_intersection returns None for parallel lines, and for lines whose determinant D is at least 2e-10 a point within e max(M, |coordinate|) of the crossing point, e = 180 M^2 / (2^53 D).

*Modelled.* `utils/cg.py:Line.line_intersection`

*Proof.* Rounding lemmas of `L_FloatSeg` and `L_FloatRay`: every operation adds at most 2^-53 of its result; the determinant stays away from the threshold.

*Theorems.* `C123_lines` [DF]

### C124 Ray.ray_intersection in binary64 — partial

*Statement.* With coordinates of magnitude at most M (M at most 160), Ray.ray_intersection returns None for parallel rays, finds the crossing point of two rays that meet, within an explicit bound, and finds none for rays that do not meet.

*Modelled.* `utils/cg.py:Ray.ray_intersection`

*Proof.* As C123, with the parameters of the crossing on the two rays. The counterexample is computed.

*Result.* REFUTED: a ray that starts exactly on the other one is not found to meet it (C124_start_on_ray_refuted). Proved: None for parallel rays; a crossing is found if both parameters are at least e = 34 M^2/(2^53 D), and the answer is within 18 M e max(1, t); an answer is only given if both parameters are at least -e (C124_rays_partial); rays with the same start (C124_same_start)

*Theorems.* `C124_rays_partial` [DF], `C124_same_start` [DF], `C124_start_on_ray_refuted` [DF]

### C125 Ellipse.point_location in binary64 — partial

*Statement.* The computed location of a point differs from the exact one, F - 1, by at most (5.1 F + 1.1) / 2^53, so that interior_point and exterior_point are right unless the location is within 8 / 2^53 of 0, boundary_point has its tolerance of 1e-8, and a point exactly on the boundary is neither interior nor exterior.

*Modelled.* `obstacles/ellipse.py:Ellipse.point_location`, `obstacles/obstacle.py:Obstacle.exterior_point`, `obstacles/obstacle.py:Obstacle.interior_point`, `obstacles/obstacle.py:Obstacle.boundary_point`

*Proof.* `sq_err` and `loc_err` in `L_FloatEllipse` bound the error of the quotients, the squares and the sum. The definitions of `M_FloatEllipse` agree with those of `M_Ellipse` over the reals (`ell_loc_real`, `ell_tangents_real`).

*Result.* REFUTED: (5, 12) is exactly on the circle with radius 13 and reported as exterior (C125_boundary_refuted). Proved: the error bound and the sides beyond it, and boundary_point (C125_location_error, C125_sides)

*Theorems.* `C125_location_error` [DF], `C125_sides` [DF], `C125_boundary_refuted` [DF]

### C126 Ellipse.tangent_points in binary64 — partial

*Statement.* For a point that exterior_point reports as exterior, tangent_points returns two points with proper coordinates (no nan, no infinity).

*Modelled.* `obstacles/ellipse.py:Ellipse.tangent_points`

*Proof.* The number under the root times the square of px^2 - a0^2 is a0^2 a1^2 (F - 1) up to 12.2 M^4 2^-53 (`disc_bound`): the error of the denominator cancels. The rest is a count of sizes (`sized`), so that nothing overflows and no denominator is rounded to zero. The counterexample is computed.

*Result.* REFUTED: for the ellipse with axes 3 and 2 and the point (2.258, 1.316803537189795), which is outside, both tangent points are nan (C126_nan_refuted). Proved: proper answers for all points with a0^2 a1^2 (F - 1) >= 13 M^4 / 2^53, M <= 1024 a bound for coordinates, axes and their inverses; when the vertical tangent through the point is taken, also for coordinates of the point not below 1/M (C126_proper_partial)

*Theorems.* `C126_proper_partial` [DFN], `C126_nan_refuted` [DF]

### C127 exclude_obstacles keeps the kernels of clusters clear of the other obstacles — partial

*Statement.* The admissible kernel that cluster_and_starify stores in a cluster is the intersection of the kernels of its obstacles for the robot and for the goal; with exclude_obstacles it is further restricted to the points in the kernels for all extreme points of every other obstacle that has them all outside, unless less than the area 1e-6 is left.

*Modelled.* `starshaped_hull/cluster_and_starify.py:cluster_and_starify`

*Proof.* `prepare_spec` reads the three dictionaries back under distinct ids; `exclude_spares` turns the nested intersections into a statement about points; the property of the stored kernels is carried through first round, later rounds and make_convex. Clusters of one obstacle are always found in the history, so that they are never rebuilt (`singles`). Assumed: shapely intersections are exact. The counterexample is a run of a small world, computed.

*Result.* REFUTED: clusters of a single obstacle are built in the first iteration, which ignores exclude_obstacles (C127_single_refuted). Proved: the stored kernel of every cluster is as meant for clusters of two or more obstacles, and the plain intersection for single obstacles or without the option (C127_kernel)

*Theorems.* `C127_kernel` [DFN], `C127_single_refuted` [DFN]

### C128 Cone.point_in_cone in binary64 — partial

*Statement.* With coordinates of magnitude at most 79 point_in_cone of a convex cone accepts no point that is not strictly inside in exact arithmetic and accepts every point whose cross products with both directions exceed twice the threshold 1e-10; a cone that is not convex rejects only points strictly in the wedge left out, and all points well in it.

*Modelled.* `utils/cg.py:Cone.point_in_cone`, `utils/cg.py:Cone.__init__`

*Proof.* `side_tests`: the rounding of apex + direction changes the cross product by less than 6e-12, the orientation value by less than 0.94e-10 (`orient_err`), together less than the threshold. The counterexample is computed.

*Result.* REFUTED: a convex cone whose directions are shorter than the threshold allows is not recognised as convex and accepts points far outside (C128_short_refuted). Proved: both parts for cones whose directions turn left by twice the threshold or do not turn left (C128_point_in_cone)

*Theorems.* `C128_point_in_cone` [DF], `C128_short_refuted` [DF]

### C129 Interval motion in binary64 — partial

*Statement.* An obstacle with an Interval motion model whose durations and time steps are multiples of a power of two is, after any steps that land on every break time passed, within 10 n 2^-53 M of its place on the listed piecewise linear path, where n is the number of steps and M bounds the coordinates; its clock is exact.

*Modelled.* `obstacles/motion_model.py:Interval`, `obstacles/motion_model.py:MotionModel.move`

*Proof.* M_FloatMotion.v states Interval over `Num`. On the grid the running sums of durations and the clock are exact (`n0_time`, sums below 2^(53-s)), so that the leg is the right one; the error of one step is bounded by `step_err` and added up by induction over the steps. The counterexample is computed.

*Result.* REFUTED for steps off the binary grid: ten steps of 0.1 do not land on the break time 1, and the eleventh step then leaves the path by more than 0.09 (C129_decimal_refuted). Proved: all starts, lists and steps on a common grid (C129_interval)

*Theorems.* `C129_interval` [DFN], `C129_decimal_refuted` [DF]

### C130 The timing vector of cluster_and_starify — proved

*Statement.* The four times returned by cluster_and_starify are the milliseconds spent in disjoint stretches of the call: one stretch of clustering per iteration, one stretch of kernel computation for the set-up and one for every cluster built, three stretches of hull computation for every cluster built, and one stretch for make_convex; an incomplete call returns four zeros. If the clock is not set back, no entry is negative and the sum is at most the duration of the call.

*Modelled.* `starshaped_hull/cluster_and_starify.py:cluster_and_starify`, `utils/misc.py:tic`, `utils/misc.py:toc`

*Proof.* M_Timing.v follows every reading of the clock through the call; `Inv` ties the lists of times to a list of stretches that follow each other. The course of a call (`script`) is an arbitrary input.

*Result.* relative to the course of the call: which clusters are built, kept or fail in each pass is an arbitrary input

*Theorems.* `C130_entries` [DF], `C130_bounded` [DF], `C130_in_time` [DF], `C130_too_late` [DF], `C130_convex_late` [DF]

### C131 Waypoints motion in binary64 — partial

*Statement.* An obstacle with a Waypoints motion model that is moved by equal steps, none longer than wp_thresh, passes every way-point within wp_thresh (up to a relative error 2^-49) and then rests for ever, in binary64 arithmetic.

*Modelled.* `obstacles/motion_model.py:Waypoints`, `obstacles/motion_model.py:MotionModel.move`

*Proof.* `coord_step`: a coordinate after a step is within 0.034 vel dt of the exact step towards the way-point, so that the distance falls by at least vel dt / 2 (`heads`) as long as the computed distance is not below the threshold; `approach`, `reach_all` and `stays` are inductions over this. The counterexample is a fixed point of the computed step.

*Result.* REFUTED for steps shorter than half the distance of neighbouring numbers: the obstacle never moves (C131_stuck_refuted). Proved: all steps with vel dt at least 2^-45 M, M the bound of the coordinates (C131_waypoints)

*Theorems.* `C131_waypoints` [DFN], `C131_stuck_refuted` [DFN]

### C132 Interval motion after the last time, in binary64 — partial

*Statement.* After the last time of the list, a call of move on an obstacle with an Interval motion model takes it no further from the last position than it was, up to 2^-48 M, and an obstacle at the last position stays there exactly, when the step does not reach beyond the position.

*Modelled.* `obstacles/motion_model.py:Interval.lin_vel`, `obstacles/motion_model.py:MotionModel.move`

*Proof.* The velocity is the speed of the last leg times the vector to the last position, which is normalised when it is longer than this speed; both are computed up to a few units of the last place, so a step that does not reach beyond the position shortens the distance up to the rounding of the position. A zero difference gives the zero velocity, hence the exact rest. The overshoot is computed.

*Result.* REFUTED for longer steps: the obstacle overshoots, distance 1 becomes 3 (C132_overshoot_refuted). Proved: all steps up to 1 with speed times dt at most 1 (C132_past_end)

*Theorems.* `C132_past_end` [DFN], `C132_overshoot_refuted` [DFN]

### C133 Pictures of clusters — partial

*Statement.* draw_clustering shows all obstacles of all clusters one after the other and then robot and goal; draw_star_hull shows of every cluster its star-shaped obstacle if there is one, then the union of its obstacles, and then robot and goal; ObstacleCluster.draw shows the obstacles of the cluster.

*Modelled.* `starshaped_hull/cluster_and_starify.py:ObstacleCluster.draw`, `starshaped_hull/cluster_and_starify.py:draw_clustering`, `starshaped_hull/cluster_and_starify.py:draw_star_hull`

*Proof.* M_PlotWorld.v: axes are the list of artists added to them; `depicts` is the picture of C121 of each obstacle. Inductions over the clusters. ObstacleCluster.draw passes the handles on as axes, on which every draw raises AttributeError.

*Result.* REFUTED for ObstacleCluster.draw: it takes the results of draw in the wrong order and never returns for a cluster of more than one obstacle or with a cluster_obstacle (C133_cluster_draw_never, C133_cluster_draw_refuted). Proved: draw_clustering (C133_clustering) and draw_star_hull (C133_star_hull)

*Theorems.* `C133_clustering` [DFN], `C133_star_hull` [DFN], `C133_cluster_draw_never` [DFN], `C133_cluster_draw_refuted` [DFN], `C133_cluster_draw_one` [DFN]

### C134 Cones with one apex in binary64 — proved

*Statement.* For cones whose apex and directions have coordinates on a grid, Cone.point_in_cone and Cone.intersection_same_apex answer in binary64 exactly what they answer in exact arithmetic, and Cone.list_intersection answers cones that contain a point of the grid exactly when all the given cones contain it.

*Modelled.* `utils/cg.py:Cone.point_in_cone`, `utils/cg.py:Cone.intersection_same_apex`, `utils/cg.py:Cone.list_intersection`

*Proof.* On the grid all differences and products of the tests are exact, so every comparison in binary64 is the one over the reals; the functions then take the same branches. The theorem about list_intersection follows from C17.

*Theorems.* `C134_exact` [DF], `C134_list_intersection` [DF]

### C135 Polygon._check_convexity in binary64 — partial

*Statement.* Computed in binary64, _check_convexity answers True exactly for rings all of whose turns have the same sign.

*Modelled.* `obstacles/polygon.py:Polygon._check_convexity`

*Proof.* M_FloatPolygon.v is the method for any kind of number; over the reals it is the model of C52 (C135_same_code). The computed orientation is within the error bound of C112 of the exact turn, far below 1e-10 for coordinates up to 160; the witness of the refutation is computed.

*Result.* REFUTED for turns at the threshold: a convex clockwise ring with a turn of exactly 1e-10 is answered False (C135_threshold_refuted). Proved: what each answer means up to turns of 2e-10 (C135_convexity), and the full statement when every turn is 0 or at least 2e-10 (C135_convexity_clear)

*Theorems.* `C135_same_code` [DF], `C135_convexity` [DF], `C135_convexity_clear` [DF], `C135_threshold_refuted` [DF]

### C136 point_in_triangle in binary64 — proved

*Statement.* The point computed by point_in_triangle from two random numbers in [0,1] is, in each coordinate, within 2^-49 M of a point of the triangle, the convex combination |x-y| a + min(x,y) b + (1 - max(x,y)) c.

*Modelled.* `utils/cg.py:point_in_triangle`

*Proof.* The three weights and each product and sum are followed with `close M k`: a value known up to k 2^-53 M. The convex combination of the exact weights lies in the hull of the corners.

*Theorems.* `C136_point_in_triangle` [DF]

### C137 Static and SinusVelocity motion in binary64 — proved

*Statement.* An obstacle with a Static motion model stays exactly where it is. With a SinusVelocity model, after n steps the clock is exact, each Cartesian coordinate is within n (Th+5) 2^-53 M of the start plus the sum of mag cos(freq t) dt, and with linear and rotational velocities the rotation is within n (Th+5) 2^-53 L and each coordinate within n (Th+5) (2+nL) 2^-53 M of the exact sums. The stored frequency is 2 pi / period up to 3 units of 2^-53 and 0 for period 0.

*Modelled.* `obstacles/motion_model.py:Static`, `obstacles/motion_model.py:SinusVelocity.__init__`, `obstacles/motion_model.py:SinusVelocity.lin_vel`, `obstacles/motion_model.py:SinusVelocity.rot_vel`, `obstacles/motion_model.py:MotionModel.move`

*Proof.* M_FloatSinus.v is move with the two classes for any kind of number; over the reals it is the model of C33 and C34 (C137_same_code). Induction over the steps: the clock is an exact sum of multiples of 2^-s; cosine and sine change at most as much as their argument; a step adds the error of the velocity and two roundings. np.cos and np.sin are functions assumed to be within 2^-53 of cosine and sine (such functions are given in the example).

*Theorems.* `C137_same_code` [DFN], `C137_static` [DF], `C137_cartesian` [CDFN], `C137_heading` [CDFN], `C137_frequency` [CDFN]

### C138 Combinations of polygons — proved

*Statement.* For a StarshapedPrimitiveCombination of Polygon and StarshapedPolygon members: point_location answers -1 in the interior of a member or of the hull, 1 outside all of them and off their borders within the bounding boxes, else 0; boundary_mapping gives the point of the members' borders, in the global frame, that is farthest from the reference point on the segment to ten times the given point; when tangent_points gives two points, they are a tangent pair of the union of the members' convex hulls, each where its pose puts it; with a single StarshapedPolygon the sub_normal is the outward unit normal of the edge that faces the point, in the global frame, and the velocity is that of the obstacle; with a single Polygon both raise AttributeError.

*Modelled.* `obstacles/starshaped_primitive_combination.py:StarshapedPrimitiveCombination.point_location`, `obstacles/starshaped_primitive_combination.py:StarshapedPrimitiveCombination.tangent_points`, `obstacles/starshaped_primitive_combination.py:StarshapedPrimitiveCombination.boundary_mapping`, `obstacles/starshaped_primitive_combination.py:StarshapedPrimitiveCombination.vel_intertial_frame`, `obstacles/starshaped_primitive_combination.py:StarshapedPrimitiveCombination.normal`

*Proof.* C58, C60, C85 and C86 take members with any answers; here the members are the models of Polygon and StarshapedPolygon. C53 gives point_location of a member, p_line_intersection its points on the probe; C50 gives the tangent pair of a member for C59; a pose keeps distances (dist_shown), so the farthest point in the frame of the member is the farthest in the global frame. Normal and velocity of a single member follow with C55 and C32.

*Result.* velocity: for at most two points of the border on a segment (more make the code fail, C85)

*Theorems.* `C138_location` [CDFN], `C138_boundary` [CDFN], `C138_one_star` [CDFN], `C138_one_polygon` [CDFN], `C138_tangents` [CDFN], `C138_one_tangents` [CDFN]

### C139 equilateral_triangle in binary64 — proved

*Statement.* Computed in binary64, each coordinate of the vertices of equilateral_triangle is within 5 units of 2^-53 M of the exact one, within 23 units with a rotation. Without rotation, if the side is at least 2^-43 M, the three points form a triangle listed clockwise with the given point strictly inside; for a side of 0.1 at coordinates of 1e16 they are one and the same point.

*Modelled.* `utils/cg.py:equilateral_triangle`

*Proof.* M_FloatTriangle.v is the function for any kind of number; over the reals it is the model of C12 (C139_same_code). The constants 1/sqrt(3) and -1/(2 sqrt(3)) are computed and compared with the exact ones by their squares; then `close M k` of C136.

*Theorems.* `C139_same_code` [DFN], `C139_accuracy` [DFN], `C139_rotated` [DFN], `C139_shape` [DFN], `C139_collapse` [DF]

### C140 reference_direction and vel_intertial_frame in binary64 — proved

*Statement.* Computed in binary64, each coordinate of reference_direction(x) is within (11 + 102 M/D) 2^-53 of its value in exact arithmetic, D being the distance of x and the reference point in the output frame, for any pose and any two of the frames GLOBAL and OBSTACLE; each coordinate of vel_intertial_frame(x) is within W times that plus (V + 4W + 1) 2^-53 of its value in exact arithmetic (linear velocity plus rotational velocity crossed with the unit direction). For the reference point itself, given in the obstacle frame, both coordinates of the direction are nan.

*Modelled.* `obstacles/starshaped_obstacle.py:StarshapedObstacle.reference_direction`, `obstacles/starshaped_obstacle.py:StarshapedObstacle.vel_intertial_frame`, `obstacles/obstacle.py:Obstacle.transform`

*Proof.* M_FloatDirection.v has transform, reference_direction and vel_intertial_frame for any kind of number; over the reals they are the models of C31 and C32 (C140_same_code away from the reference point, C140_same_velocity where lin_vel gives a velocity). C115 bounds the error of the two transformed points, norm_near that of the norm, quotient_err that of the quotient, unit_pert the change of the exact unit vector when its points move; cross product and sum add the roundings of a product, a difference and a sum.

*Result.* relative to the velocities computed by the motion model (C129, C131, C137)

*Theorems.* `C140_same_code` [DFN], `C140_same_velocity` [DFN], `C140_direction` [DFN], `C140_at_xr` [DFN], `C140_velocity` [DFN]

### C141 Ellipse.normal in binary64 — proved

*Statement.* Computed in binary64, normal(b, x_is_boundary=True) with b given in the obstacle frame is within 24 2^-53 per coordinate of its value in exact arithmetic (60 2^-53 when wanted in the global frame), whatever the axes and the point; with b given in either frame it is within (60 + 204 M A/D) 2^-53, M bounding the coordinates, A the squared axes and D being the length of (a1^2 b0, a0^2 b1). At the centre both coordinates are nan.

*Modelled.* `obstacles/ellipse.py:Ellipse.normal`, `obstacles/obstacle.py:Obstacle.rotate`, `obstacles/obstacle.py:Obstacle.transform`

*Proof.* M_FloatNormal.v has rotate and normal with x_is_boundary=True for any kind of number; over the reals they are the methods of M_Obstacle.v and M_Ellipse.v (C141_same_code). Squaring the axes and the products are relative errors (ell_err), so the quotient by the norm (unit_err, unit_pert of C140) does not depend on the axes; a transformed point adds 17 M 2^-53 per coordinate (transform_err of P_FloatDirection.v), scaled by A/D; rotate_err adds the rotation.

*Result.* called with x_is_boundary=True; the boundary point is an argument

*Theorems.* `C141_same_code` [DFN], `C141_own_frame` [DFN], `C141_normal` [DFN], `C141_centre` [DF]

### C142 distance_function and point_location of starshaped obstacles in binary64 — proved

*Statement.* With b the answer of boundary_mapping, N the distance of x and L that of b from the reference point: StarshapedObstacle.distance_function computed in binary64 is within 34 (D + 2^-90) 2^-53 of D = (N/L)^2, and point_location has the right sign whenever |D - 1| >= 36 2^-53; StarshapedPolygon.distance_function is within 80 (1 + N + L)^2 2^-53 of its exact value, also when rounding makes it take the other of its two cases. If boundary_mapping answers with the point itself, both are exactly 1 and the location is 0.

*Modelled.* `obstacles/starshaped_obstacle.py:StarshapedObstacle.distance_function`, `obstacles/starshaped_obstacle.py:StarshapedObstacle.point_location`, `obstacles/starshaped_polygon.py:StarshapedPolygon.distance_function`

*Proof.* M_FloatDistance.v has the two distance_function and point_location for any kind of number, with the answer of boundary_mapping as an argument; over the reals they are the methods of M_Obstacle.v and M_StarPolygon.v (C142_same_code, C142_same_polygon_code). norm_near bounds the two distances, ratio_err and sq_err the quotient and the square. Where rounding takes the other case of the polygon formula both cases of the formula are near 1: within 29 2^-53 and 15 (1 + N + L)^2 2^-53 (near1). The border: x / x and 1 * 1 are exact (the last clause of near).

*Result.* relative to the point that boundary_mapping answers; the query point is given in the obstacle frame

*Theorems.* `C142_same_code` [DFN], `C142_same_polygon_code` [DFN], `C142_distance` [DFN], `C142_location` [DFN], `C142_polygon_distance` [DFN], `C142_border` [DFN]

### C143 Ellipse.line_intersection in binary64 — proved

*Statement.* Computed in binary64 in the obstacle frame: for a steep line (|dx| <= 0.9999e-4 or 100.001 |dx| <= |dy|) the answer is exactly that of real arithmetic. For any other line (|dx| >= 1.0001e-4 and |dy| <= 99.999 |dx|; slope w) every point returned is finite, lies on the ellipse up to (93 2^-53 + 1.00001e-8 / a0^2)(1 + (a0 w / a1)^2) in the value of (x/a0)^2 + (y/a1)^2 - 1, and on the line up to 19 2^-53 M (1 + |w|), M bounding the axes and the coordinates. A line whose cut with the second axis is 20 2^-53 M (1 + |w|) or more beyond what meets the ellipse gives no point; one as much inside, whose two points lie left and right of the ellipse by a thousandth of a0, gives exactly two, the left one first up to 27 2^-53 a0. If one of the two points is inside the ellipse and the other outside, both by more than 21 2^-53 M^2 (1 + |w|) / a1^2 + (71 2^-53 + 1.11e-8 / a0^2)(1 + (a0 w / a1)^2), there is exactly one point, between them. With a0 beyond 1024 both points may be nan although the line crosses the ellipse.

*Modelled.* `obstacles/ellipse.py:Ellipse.line_intersection`

*Proof.* M_FloatChord.v has line_intersection for any kind of number, with the line and the points in the obstacle frame; over the reals it is the method of M_Ellipse.v (C143_same_code). The steep case only compares and negates (vertical_bpt). L_FloatRel.v carries relative errors with a tiny absolute part through products, quotients and sums; with it kx2, kx and the midpoint are bounded, and the number under the square root is within 32.1 2^-53 a0^2 of the square of half the chord (v_val), which for a0 <= 1024 stays above the -1e-8 that isclose sets to 0 (sqrt_arg): this is where the bound on a0 is needed, and C143_nan_refuted shows the loss of it beyond. line_val bounds the computed slope and cut, band_lip carries this over to the exact line. C143_one: a point of the computed line is inside or outside as its distance from the midpoint is below or above half the chord (side, sloped_one). C143_band says what the condition on the cut means.

*Result.* line and points in the obstacle frame; between the two bounds on the slope and on dx either case may be taken

*Theorems.* `C143_same_code` [DFN], `C143_vertical` [DFN], `C143_on_ellipse` [DFN], `C143_on_line` [DFN], `C143_missed` [DFN], `C143_crossed` [DFN], `C143_one` [DFN], `C143_band` [DFN], `C143_nan_refuted` [DF]

### C144 Ellipse.boundary_mapping in binary64 — proved

*Statement.* Computed in binary64 in the obstacle frame, boundary_mapping(x) of an ellipse whose reference point lies inside it by more than the rounding answers in every direction that is not steep (slope w at most 99, the ray spanning 1.001e-4 along the first axis): with a finite point that lies on the ellipse up to (94 2^-53 + 1.001e-8 / a0^2)(1 + (a0 w / a1)^2) in the value of (b0/a0)^2 + (b1/a1)^2 - 1, on the line through the reference point and x up to 29 2^-53 M (1 + |w|), and not on the other side of the reference point from x. In a steep direction (101 |dx| <= |dy|) it answers exactly (0, a1) or (0, -a1), wherever the ray meets the ellipse, as it does without rounding. For the reference point itself it answers with a point whose coordinates are nan.

*Modelled.* `obstacles/ellipse.py:Ellipse.boundary_mapping`, `obstacles/ellipse.py:Ellipse.line_intersection`, `obstacles/starshaped_obstacle.py:StarshapedObstacle.reference_direction`

*Proof.* M_FloatBoundary.v has enclosing_ball_diameter, the end of the ray and boundary_mapping for any kind of number; over the reals it is the method of M_Ellipse.v (C144_same_code). scale_err, unit_err (C140) and coord_err bound the end of the ray within 19 2^-53 of the diameter, end_slope its slope; inside_round and outside_round say that it lies outside; C143_one, C143_on_ellipse and C143_on_line give the answer. C144_steep: the end of the ray is beyond the second axis, and the special case only compares (vertical_bpt). C144_at_xr follows the nan of 0 / 0 through the method.

*Result.* point and answer in the obstacle frame; C144_steep states the defect of the steep case (the answer is off the ray) as it is; slopes between 99 and 101 are not covered

*Theorems.* `C144_same_code` [DFN], `C144_answer` [DFN], `C144_at_xr` [-], `C144_steep` [DFN]


## Trusted base

* The Coq 8.16.1 kernel (with `vm_compute` for the computed witnesses) and the standard library. No axiom is declared in `theories/`,
  nothing is admitted, no check is switched off.
* Axioms listed by `Print Assumptions` for the theorems above (387 theorems), all from the standard library, used by its real numbers:
  * D `ClassicalDedekindReals.sig_forall_dec` (370 theorems)
  * N `ClassicalDedekindReals.sig_not_dec` (283 theorems)
  * F `FunctionalExtensionality.functional_extensionality_dep` (368 theorems)
  * C `Classical_Prop.classic` (65 theorems)
  * `-` closed under the global context (17 theorems)
* The reading of the Python source by which the model was written. It was not compared with runs of the program: the code was read
  as text only.
* Exact arithmetic, except in C112 to C118, C123 to C126, C128, C129, C131, C132, C134 to C137 and C139 to C144: rounding, overflow, nan and inf of binary64 are not modelled elsewhere. There: that Python and numpy
  evaluate each operation with one rounding as in IEEE 754 (`Coq.Floats.SpecFloat`); a build of numpy may evaluate np.dot and np.linalg.norm (C116, C117)
  with fused multiply-adds, which is not modelled. A division by zero gives `NotFinite` (numpy) or
  `ZeroDivisionErr` (Python numbers). Thresholds such as 1e-10 are taken as the exact decimal numbers.

## What is modelled

* `utils/cg.py`: everything except `__str__` and `draw`. Set operations of shapely on cone polygons are parameters (C103).
* `obstacles/obstacle.py`: ids, names, copy, pose, location predicates, move, polygon and convexity caches, frames.
* `obstacles/starshaped_obstacle.py`: all methods, for one point at a time; `reference_direction` also for arrays of points (C104).
* `obstacles/motion_model.py`: all classes.
* `obstacles/ellipse.py`, `obstacles/polygon.py`, `obstacles/starshaped_polygon.py`, `obstacles/starshaped_primitive_combination.py`:
  all methods except `area()`; of the plotting what artists are made and moved (C121). Polygon buffering (`dilated_obstacle`) is a parameter.
* `starshaped_hull/starshaped_hull.py`: all functions. `starshaped_hull/cluster_and_starify.py`: all functions; of `draw_clustering` and `draw_star_hull` what artists are added (C133), of `draw_adm_ker` the grid and the kernels (C122).
* `utils/misc.py`: `draw_shapely_polygon`.

## What is not modelled

* Of plotting: colours, axes and their limits, what matplotlib does with the artists. Printing, `tic`, `toc` and `logprint`, the tests.
* Clock readings are arbitrary inputs. The timing vector is modelled apart from the rest of `cluster_and_starify` (M_Timing.v, C130), with the course of the call as an input.
* The internals of numpy, scipy and shapely. Their answers are parameters; every theorem states what it needs of them.
* Sharing of objects, except where it is the subject (C25: motion models; C27, C26, C87: caches; C84, C89: ids). In particular the
  entries of the history returned by `cluster_and_starify` are values; which of them the caller finds changed after the call is modelled in `M_History` (C108).

## Tests of the theorems

`seeded/LOG.jsonl` has one line per wrong program tried: the model definition edited, the edit, the property expected to break,
`failed_at` (first lemma that no longer compiles), `theorems_failed` (claimed theorems in the files that no longer compile), and
`theorems_tightened` (theorems strengthened because the wrong program was not noticed at first). The edits were made in a copy
outside this repository.

