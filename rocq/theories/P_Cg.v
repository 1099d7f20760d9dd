(** Properties C01-C12 and C20: utils/cg.py transforms, orientation, line/segment/ray intersections. *)
From Coq Require Import Reals Lra List Bool QArith Qreals.
From Verif Require Import Num Spec M_Cg L_Geom L_Cg W_Cg.
Import ListNotations.
Open Scope R_scope.

(** C01 *)
Theorem C01_affine_roundtrip : forall (x : Pt) (rot : R) (trans : Pt),
  affine_transform (affine_transform x rot trans false) rot trans true = x /\
  affine_transform (affine_transform x rot trans true) rot trans false = x.
Proof. exact affine_roundtrip. Qed.
Print Assumptions C01_affine_roundtrip.
Example C01_example :
  affine_transform (1, 2) (PI / 2) (3, 4) false = (1, 5) /\
  affine_transform (1, 5) (PI / 2) (3, 4) true = (1, 2).
Proof. exact w_C01. Qed.

(** The forward transform is what it should be: rotate counter-clockwise about the origin, then shift. *)
Theorem C01_affine_is_rotate_then_shift : forall (x : Pt) (rot : R) (trans : Pt),
  affine_transform x rot trans false = place rot trans x.
Proof. exact affine_forward. Qed.
Print Assumptions C01_affine_is_rotate_then_shift.

(** C02 *)
Theorem C02_affine_rigid : forall (rot : R) (trans : Pt) (inv : bool) (a b c : Pt),
  let f p := affine_transform p rot trans inv in
  dist (f a) (f b) = dist a b /\
  orientation_val (f a) (f b) (f c) = orientation_val a b c /\
  is_ccw (f a) (f b) (f c) = is_ccw a b c /\ is_cw (f a) (f b) (f c) = is_cw a b c /\
  is_collinear (f a) (f b) (f c) = is_collinear a b c.
Proof.
  exact (fun rot trans inv a b c =>
    conj (affine_rigid rot trans inv a b) (conj (affine_orientation rot trans inv a b c)
         (affine_turns rot trans inv a b c))).
Qed.
Print Assumptions C02_affine_rigid.
Example C02_example : is_ccw (0, 0) (1, 0) (0, 1) = true /\ dist (0, 0) (3, 4) = 5.
Proof. exact w_C02. Qed.

(** C03 *)
Theorem C03_orientation : forall a b c : Pt,
  (is_ccw a b c = true <-> TH < area2 a b c) /\
  (is_cw a b c = true <-> area2 a b c < - TH) /\
  (is_collinear a b c = true <-> - TH < area2 a b c < TH) /\
  ~ (is_cw a b c = true /\ is_ccw a b c = true) /\
  is_ccw c b a = is_cw a b c /\ is_cw c b a = is_ccw a b c /\
  is_ccw b c a = is_ccw a b c /\ is_cw b c a = is_cw a b c /\ is_collinear b c a = is_collinear a b c.
Proof.
  exact (fun a b c => conj (is_ccw_iff a b c) (conj (is_cw_iff a b c) (conj (is_collinear_iff a b c)
    (conj (turn_exclusive a b c) (conj (proj1 (turn_reverse a b c)) (conj (proj2 (turn_reverse a b c))
    (turn_cyclic a b c))))))).
Qed.
Print Assumptions C03_orientation.
(** The row-wise numpy version computes the same values. *)
Theorem C03_np_orientation_rowwise : forall a b c : list Pt,
  length a = length b -> length b = length c ->
  np_orientation_val a b c =
  map (fun t => orientation_val (fst (fst t)) (snd (fst t)) (snd t)) (combine (combine a b) c).
Proof. exact np_orientation_rows. Qed.
Print Assumptions C03_np_orientation_rowwise.
Example C03_example :
  is_ccw (0, 0) (1, 0) (1, 1) = true /\ is_cw (0, 0) (0, 1) (1, 1) = true /\
  is_collinear (0, 0) (1, 1) (2, 2) = true.
Proof. exact w_C03. Qed.

(** C04: false of the code (strict comparisons leave the threshold value itself out) ... *)
Theorem C04_trichotomy_refuted : exists a b c : Pt,
  is_cw a b c = false /\ is_ccw a b c = false /\ is_collinear a b c = false.
Proof. exact w_C04. Qed.
Print Assumptions C04_trichotomy_refuted.
(** ... and this is the only exception. *)
Theorem C04_trichotomy_partial : forall a b c : Pt, Rabs (area2 a b c) <> TH ->
  (is_cw a b c = true /\ is_ccw a b c = false /\ is_collinear a b c = false) \/
  (is_cw a b c = false /\ is_ccw a b c = true /\ is_collinear a b c = false) \/
  (is_cw a b c = false /\ is_ccw a b c = false /\ is_collinear a b c = true).
Proof. exact trichotomy_off_threshold. Qed.
Print Assumptions C04_trichotomy_partial.
Example C04_example : Rabs (area2 (0, 0) (1, 0) (0, 1)) <> TH.
Proof. exact w_C04_ex. Qed.

(** C05 *)
Theorem C05_proper_crossing : forall a1 a2 b1 b2 : Pt, properly_cross a1 a2 b1 b2 ->
  exists p, get_intersection a1 a2 b1 b2 = Some p /\ on_seg a1 a2 p /\ on_seg b1 b2 p /\
    forall q, on_seg a1 a2 q -> on_seg b1 b2 q -> q = p.
Proof. exact get_intersection_proper. Qed.
Print Assumptions C05_proper_crossing.
Theorem C05_no_division_by_zero : forall a1 a2 b1 b2 : Pt, intersect a1 a2 b1 b2 = true ->
  crossing_denom a1 a2 b1 b2 <> 0 /\
  exists p, get_intersection a1 a2 b1 b2 = Some p /\ on_line a1 a2 p /\ on_line b1 b2 p.
Proof. exact crossing_lines. Qed.
Print Assumptions C05_no_division_by_zero.
Example C05_example : properly_cross (0, 0) (2, 2) (0, 2) (2, 0) /\
  intersect (0, 0) (2, 2) (0, 2) (2, 0) = true.
Proof. exact w_C05. Qed.

(** C06: false of the code: the tolerance band counts as "not ccw", so a pair of segments that do not
    meet can pass the crossing test and the crossing of the carrier lines, here 999 units away from
    both segments, is returned. *)
Theorem C06_intersection_on_segments_refuted : exists (a1 a2 b1 b2 p : Pt),
  get_intersection a1 a2 b1 b2 = Some p /\
  (forall q, on_seg a1 a2 q -> 999 <= dist p q) /\ (forall q, on_seg b1 b2 q -> 999 <= dist p q).
Proof. exact w_C06. Qed.
Print Assumptions C06_intersection_on_segments_refuted.
(** What holds: outside the crossing branch the result is an end point of one segment that
    is_between accepts for the other (hence, by C07, is within a thin neighbourhood of it); in the
    crossing branch the point is on both carrier lines; None is never returned when an end point lies
    on the other segment or the segments cross properly. *)
Theorem C06_intersection_partial : forall a1 a2 b1 b2 : Pt,
  (forall p, get_intersection a1 a2 b1 b2 = Some p ->
    (intersect a1 a2 b1 b2 = true /\ on_line a1 a2 p /\ on_line b1 b2 p) \/
    ((p = a1 \/ p = a2) /\ is_between b1 p b2 = true) \/
    ((p = b1 \/ p = b2) /\ is_between a1 p a2 = true)) /\
  (get_intersection a1 a2 b1 b2 = None ->
    ~ on_seg b1 b2 a1 /\ ~ on_seg b1 b2 a2 /\ ~ on_seg a1 a2 b1 /\ ~ on_seg a1 a2 b2 /\
    ~ properly_cross a1 a2 b1 b2).
Proof. exact get_intersection_partial. Qed.
Print Assumptions C06_intersection_partial.
Example C06_example : intersect (0, 0) (1, 0) (1, 0) (1, -1) = false /\
  exists p, get_intersection (0, 0) (1, 0) (1, 0) (1, -1) = Some p.
Proof. exact w_C06_ex. Qed.

(** C07 *)
Theorem C07_is_between_accepts_segment : forall a b c : Pt, on_seg a c b -> is_between a b c = true.
Proof. exact is_between_accepts. Qed.
Print Assumptions C07_is_between_accepts_segment.
Theorem C07_is_between_thin : forall a b c : Pt, is_between a b c = true ->
  let L := dist a c in let e := btw_eps L in
  exists q, on_seg a c q /\ (dist b q <= e \/ dist b q * dist b q <= e * (2 * L + e) / 4).
Proof. exact is_between_thin. Qed.
Print Assumptions C07_is_between_thin.
Example C07_example : on_seg (0, 0) (4, 0) (1, 0) /\ is_between (0, 0) (1, 0) (4, 0) = true /\
  is_between (0, 0) (5, 0) (4, 0) = false.
Proof. exact w_C07. Qed.

(** C08 *)
Theorem C08_line_intersection : forall s o : line R,
  let det := cross (vsub (p2 s) (p1 s)) (vsub (p2 o) (p1 o)) in
  (line_intersection s o = None <-> Rabs det < TH) /\
  (forall p, line_intersection s o = Some p ->
     on_line (p1 s) (p2 s) p /\ on_line (p1 o) (p2 o) p /\
     forall q, on_line (p1 s) (p2 s) q -> on_line (p1 o) (p2 o) q -> q = p) /\
  line_intersection s o = line_intersection o s.
Proof.
  exact (fun s o => conj (line_int_none s o)
    (conj (fun p H => proj2 (line_int_some s o p H)) (line_int_sym s o))).
Qed.
Print Assumptions C08_line_intersection.
Example C08_example :
  line_intersection (Line (0, 0) (1, 1)) (Line (0, 2) (2, 0)) = Some (1, 1) /\
  line_intersection (Line (0, 0) (1, 1)) (Line (0, 1) (1, 2)) = None.
Proof. exact w_C08. Qed.

(** C09 *)
Theorem C09_segment_intersection : forall (s o : line R) (p : Pt),
  let det := cross (vsub (p2 s) (p1 s)) (vsub (p2 o) (p1 o)) in
  (line_segment_intersection s o = Some p <->
     TH <= Rabs det /\ on_seg (p1 s) (p2 s) p /\ on_seg (p1 o) (p2 o) p).
Proof. exact seg_int_spec. Qed.
Print Assumptions C09_segment_intersection.
Example C09_example :
  line_segment_intersection (Line (0, 0) (2, 2)) (Line (0, 2) (2, 0)) = Some (1, 1) /\
  line_segment_intersection (Line (0, 0) (1, 0)) (Line (2, 0) (2, 1)) = None.
Proof. exact w_C09. Qed.

(** C10 *)
Theorem C10_ray_intersection : forall (s o : line R) (p : Pt),
  let det := cross (vsub (p2 s) (p1 s)) (vsub (p2 o) (p1 o)) in
  (ray_intersection s o = Some p <->
     TH <= Rabs det /\ on_ray (p1 s) (p2 s) p /\ on_ray (p1 o) (p2 o) p).
Proof. exact ray_int_spec. Qed.
Print Assumptions C10_ray_intersection.
Example C10_example :
  ray_intersection (Line (0, 0) (1, 0)) (Line (5, -5) (5, -4)) = Some (5, 0) /\
  ray_intersection (Line (0, 0) (-1, 0)) (Line (5, -5) (5, -4)) = None.
Proof. exact w_C10. Qed.

(** C11: false of the code *)
Theorem C11_line_intersects_refuted : exists s o : line R,
  properly_cross (p1 s) (p2 s) (p1 o) (p2 o) /\ line_intersects s o = false.
Proof. exact w_C11. Qed.
Print Assumptions C11_line_intersects_refuted.
(** in fact it never reports anything *)
Theorem C11_line_intersects_constant_partial : forall s o : line R, line_intersects s o = false.
Proof. exact line_intersects_false. Qed.
Print Assumptions C11_line_intersects_constant_partial.

(** C12: the rotated triangle is not centred on the requested centroid ... *)
Theorem C12_triangle_centroid_refuted : exists (c : Pt) (L rot : R),
  let '(t0, t1, t2) := equilateral_triangle c L rot in mean [t0; t1; t2] <> c.
Proof. exact w_C12. Qed.
Print Assumptions C12_triangle_centroid_refuted.
(** ... but on the centroid rotated about the origin; the triangle is otherwise right. *)
Theorem C12_triangle_partial : forall (c : Pt) (L rot : R), 0 <= L ->
  let '(t0, t1, t2) := equilateral_triangle c L rot in
  dist t0 t1 = L /\ dist t1 t2 = L /\ dist t2 t0 = L /\ mean [t0; t1; t2] = rotv rot c /\
  dist (rotv rot c) t0 = L / sqrt 3 /\ dist (rotv rot c) t1 = L / sqrt 3 /\
  dist (rotv rot c) t2 = L / sqrt 3.
Proof. exact triangle_all. Qed.
Print Assumptions C12_triangle_partial.
Theorem C12_triangle_unrotated_partial : forall (c : Pt) (L : R), 0 <= L ->
  let '(t0, t1, t2) := equilateral_triangle c L 0 in
  dist t0 t1 = L /\ dist t1 t2 = L /\ dist t2 t0 = L /\ mean [t0; t1; t2] = c.
Proof. exact triangle_unrotated. Qed.
Print Assumptions C12_triangle_unrotated_partial.
Example C12_example : exists t0 t1 t2, equilateral_triangle (1, 2) 3 (PI / 2) = (t0, t1, t2) /\ t0 <> t1.
Proof. exact w_C12_ex. Qed.

(** C20 *)
Theorem C20_point_in_triangle : forall (a b c : Pt) (x y : R), 0 <= x < 1 -> 0 <= y < 1 ->
  exists wa wb wc, wa = Rabs (x - y) /\ wb = Rmin x y /\ wc = 1 - Rmax x y /\
    0 <= wa /\ 0 <= wb /\ 0 <= wc /\ wa + wb + wc = 1 /\
    point_in_triangle a b c x y = vadd (smul wa a) (vadd (smul wb b) (smul wc c)).
Proof. exact point_in_triangle_convex. Qed.
Print Assumptions C20_point_in_triangle.
Theorem C20_point_in_hull : forall (a b c : Pt) (x y : R), 0 <= x < 1 -> 0 <= y < 1 ->
  in_hull [a; b; c] (point_in_triangle a b c x y).
Proof. exact point_in_triangle_hull. Qed.
Print Assumptions C20_point_in_hull.
Example C20_example : point_in_triangle (0, 0) (4, 0) (0, 4) (1 / 4) (3 / 4) = (1, 1).
Proof. exact w_C20. Qed.
