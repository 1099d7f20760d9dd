(** Model of utils/cg.py, part 1: transforms, orientation, line/segment/ray intersections, cones.
    The predicates that only need field operations are generic in [Num]. *)
From Coq Require Import QArith Reals List Bool Arith.
From Verif Require Import Num.
Import ListNotations.

(** *** Exact field operations only *)
Section Generic.
  Context {T : Type} {N : Num T}.
  Local Open Scope num_scope.
  Notation pt := (pt T).

  (* cg.py:9  COLLINEAR_THRESHOLD = 1e-10 *)
  Definition COLLINEAR_THRESHOLD : T := nlit (1 # 10000000000).

  (* cg.py:51-52 orientation_val *)
  Definition orientation_val (a b c : pt) : T :=
    (snd b - snd a) * (fst c - fst b) - (fst b - fst a) * (snd c - snd b).

  (* cg.py:47-48 np_orientation_val: the same expression row by row (arrays a[:,0], a[:,1], ...) *)
  Fixpoint np_orientation_val (a b c : list pt) : list T :=
    match a, b, c with
    | x :: a', y :: b', z :: c' =>
        ((snd y - snd x) * (fst z - fst y) - (fst y - fst x) * (snd z - snd y))
          :: np_orientation_val a' b' c'
    | _, _, _ => []
    end.

  (* cg.py:55-56 *)
  Definition is_collinear (a b c : pt) : bool := nabs (orientation_val a b c) <? COLLINEAR_THRESHOLD.
  (* cg.py:59-60 *)
  Definition is_cw (a b c : pt) : bool := COLLINEAR_THRESHOLD <? orientation_val a b c.
  (* cg.py:63-64 *)
  Definition is_ccw (a b c : pt) : bool := orientation_val a b c <? - COLLINEAR_THRESHOLD.

  (* cg.py:73-74 intersect *)
  Definition intersect (a1 a2 b1 b2 : pt) : bool :=
    xorb (is_ccw a1 b1 b2) (is_ccw a2 b1 b2) && xorb (is_ccw a1 a2 b1) (is_ccw a1 a2 b2).

  (* cg.py:197-203 the crossing branch of get_intersection:
       da = a2-a1; db = b2-b1; dp = a1-b1; dap = [-da[1], da[0]];
       (dot(dap,dp) / dot(dap,db)) * db + b1 *)
  Definition crossing_denom (a1 a2 b1 b2 : pt) : T :=
    (- (snd a2 - snd a1)) * (fst b2 - fst b1) + (fst a2 - fst a1) * (snd b2 - snd b1).
  (* cg.py:200, 202 num = np.dot(dap, dp) *)
  Definition crossing_num (a1 a2 b1 : pt) : T :=
    (- (snd a2 - snd a1)) * (fst a1 - fst b1) + (fst a2 - fst a1) * (snd a1 - snd b1).
  (* cg.py:203 the returned point *)
  Definition crossing_point (a1 a2 b1 b2 : pt) : pt :=
    let k := crossing_num a1 a2 b1 / crossing_denom a1 a2 b1 b2 in
    (k * (fst b2 - fst b1) + fst b1, k * (snd b2 - snd b1) + snd b1).

  (* cg.py:100-104 class Line: a pair of points p1, p2 *)
  Record line : Type := Line { p1 : pt; p2 : pt }.

  (* cg.py:115, 141, 165: the parallel threshold 1e-10 *)
  Definition PARALLEL_THRESHOLD : T := nlit (1 # 10000000000).

  (* cg.py:109-122 Line.line_intersection; [None] is Python None *)
  Definition line_intersection (s o : line) : option pt :=
    let self_dx := fst (p1 s) - fst (p2 s) in
    let other_dx := fst (p1 o) - fst (p2 o) in
    let self_dy := snd (p1 s) - snd (p2 s) in
    let other_dy := snd (p1 o) - snd (p2 o) in
    let den := self_dx * other_dy - self_dy * other_dx in
    if nabs den <? PARALLEL_THRESHOLD then None
    else
      let tmp1 := fst (p1 s) * snd (p2 s) - snd (p1 s) * fst (p2 s) in
      let tmp2 := fst (p1 o) * snd (p2 o) - snd (p1 o) * fst (p2 o) in
      Some ((tmp1 * other_dx - self_dx * tmp2) / den, (tmp1 * other_dy - self_dy * tmp2) / den).

  (* cg.py:124-125 Line.intersects (note: other.p1 is passed twice, as in the source) *)
  Definition line_intersects (s o : line) : bool :=
    xorb (is_ccw (p1 s) (p1 o) (p1 o)) (is_ccw (p2 s) (p1 o) (p1 o)) &&
    xorb (is_ccw (p1 s) (p2 s) (p1 o)) (is_ccw (p1 s) (p2 s) (p2 o)).

  (* cg.py:133-150 LineSegment.line_segment_intersection *)
  Definition line_segment_intersection (s o : line) : option pt :=
    let self_dx := fst (p1 s) - fst (p2 s) in
    let other_dx := fst (p1 o) - fst (p2 o) in
    let self_dy := snd (p1 s) - snd (p2 s) in
    let other_dy := snd (p1 o) - snd (p2 o) in
    let p1_dx := fst (p1 s) - fst (p1 o) in
    let p1_dy := snd (p1 s) - snd (p1 o) in
    let den := self_dx * other_dy - self_dy * other_dx in
    if nabs den <? PARALLEL_THRESHOLD then None
    else
      let t := (p1_dx * other_dy - p1_dy * other_dx) / den in
      let u := (p1_dx * self_dy - p1_dy * self_dx) / den in
      if (t <? n0) || (n1 <? t) || (u <? n0) || (n1 <? u) then None
      else Some (fst (p1 s) - t * self_dx, snd (p1 s) - t * self_dy).

  (* cg.py:157-174 Ray.ray_intersection *)
  Definition ray_intersection (s o : line) : option pt :=
    let self_dx := fst (p1 s) - fst (p2 s) in
    let other_dx := fst (p1 o) - fst (p2 o) in
    let self_dy := snd (p1 s) - snd (p2 s) in
    let other_dy := snd (p1 o) - snd (p2 o) in
    let p1_dx := fst (p1 s) - fst (p1 o) in
    let p1_dy := snd (p1 s) - snd (p1 o) in
    let den := self_dx * other_dy - self_dy * other_dx in
    if nabs den <? PARALLEL_THRESHOLD then None
    else
      let t := (p1_dx * other_dy - p1_dy * other_dx) / den in
      let u := (p1_dx * self_dy - p1_dy * self_dx) / den in
      if (t <? n0) || (u <? n0) then None
      else Some (fst (p1 s) - t * self_dx, snd (p1 s) - t * self_dy).

  (* cg.py:33-39 point_in_triangle; x, y are the two draws of np.random.rand(2) *)
  Definition point_in_triangle (a b c : pt) (x y : T) : pt :=
    let q := nabs (x - y) in
    let s := q in
    let t := nlit (1 # 2) * (x + y - q) in
    let u := n1 - nlit (1 # 2) * (q + x + y) in
    (s * fst a + t * fst b + u * fst c, s * snd a + t * snd b + u * snd c).

  (* numpy vector addition / subtraction of 2-vectors *)
  Definition padd (a b : pt) : pt := (fst a + fst b, snd a + snd b).
  (* numpy vector subtraction *)
  Definition psub (a b : pt) : pt := (fst a - fst b, snd a - snd b).

  (* cg.py:270-290 class Cone: apex, dir1, dir2, is_convex = is_ccw([0,0], dir1, dir2);
     ray1.p2 = apex+dir1, ray2.p2 = apex+dir2 *)
  Record cone : Type := MkCone { apex : pt; dir1 : pt; dir2 : pt; is_convex : bool }.
  (* cg.py:284-290 Cone.__init__ *)
  Definition Cone (a d1 d2 : pt) : cone := MkCone a d1 d2 (is_ccw (n0, n0) d1 d2).

  (* cg.py:349-353 Cone.point_in_cone *)
  Definition point_in_cone (c : cone) (x : pt) : bool :=
    if is_convex c
    then is_ccw (apex c) (padd (apex c) (dir1 c)) x && is_cw (apex c) (padd (apex c) (dir2 c)) x
    else negb (is_ccw (apex c) (padd (apex c) (dir2 c)) x && is_cw (apex c) (padd (apex c) (dir1 c)) x).

  (* cg.py:365-384 Cone.intersection_same_apex *)
  Definition intersection_same_apex (self other : cone) : list cone :=
    let other_dir1_in_self := point_in_cone self (padd (apex other) (dir1 other)) in
    let other_dir2_in_self := point_in_cone self (padd (apex other) (dir2 other)) in
    let self_dir1_in_other := point_in_cone other (padd (apex self) (dir1 self)) in
    if other_dir1_in_self && other_dir2_in_self then
      if self_dir1_in_other
      then [Cone (apex self) (dir1 self) (dir2 other); Cone (apex self) (dir1 other) (dir2 self)]
      else [other]
    else if other_dir1_in_self then [Cone (apex self) (dir1 other) (dir2 self)]
    else if other_dir2_in_self then [Cone (apex self) (dir1 self) (dir2 other)]
    else if self_dir1_in_other then [self]
    else [].

  (* cg.py:394-405 the loop of Cone.list_intersection for same_apex=True, up to the final conversion
     of the remaining cones to a polygon: [None] is the early "return Polygon([])" of line 405. *)
  Fixpoint list_intersection_loop (cones_intersect : list cone) (cones : list cone) : option (list cone) :=
    match cones with
    | [] => Some cones_intersect
    | c :: cones' =>
        match flat_map (fun ci => intersection_same_apex ci c) cones_intersect with
        | [] => None
        | new => list_intersection_loop new cones'
        end
    end.
  (* cg.py:386-411 what Cone.list_intersection returns, before the conversion to shapely *)
  Inductive list_result : Type :=
  | IndexError                            (* cones[0] of an empty list, line 395 *)
  | EmptyPolygon                          (* line 405 *)
  | UnionOf (l : list cone).              (* lines 407-411: union of the polygons of these cones *)
  (* cg.py:386-411 Cone.list_intersection for same_apex=True *)
  Definition list_intersection (cones : list cone) : list_result :=
    match cones with
    | [] => IndexError
    | c :: cs => match list_intersection_loop [c] cs with
                 | None => EmptyPolygon
                 | Some l => UnionOf l
                 end
    end.
End Generic.
Arguments line T : clear implicits.
Arguments cone T : clear implicits.
Arguments list_result T : clear implicits.

(** *** Functions with trigonometry or square roots: over R only *)
Local Open Scope R_scope.
Notation RPt := (R * R)%type.

(* cg.py:12-24 affine_transform *)
Definition affine_transform (x : RPt) (rotation : R) (translation : RPt) (inverse : bool) : RPt :=
  if inverse then
    let x_t := (fst x - fst translation, snd x - snd translation) in
    if Reqb rotation 0 then x_t
    else
      let c := cos rotation in let s := sin rotation in
      (c * fst x_t + s * snd x_t, - s * fst x_t + c * snd x_t)
  else
    if negb (Reqb rotation 0) then
      let c := cos rotation in let s := sin rotation in
      (c * fst x - s * snd x + fst translation, s * fst x + c * snd x + snd translation)
    else (fst x + fst translation, snd x + snd translation).

(* numpy.linalg.norm of a 2-vector *)
Definition np_norm (p : RPt) : R := sqrt (fst p * fst p + snd p * snd p).

(* numpy.isclose(a, b, rtol, atol): |a - b| <= atol + rtol * |b| *)
Definition np_isclose (a b rtol atol : R) : bool := Rleb (Rabs (a - b)) (atol + rtol * Rabs b).

(* cg.py:69-70 is_between: isclose(|a-b| + |c-b|, |a-c|, rtol=1e-7), default atol=1e-8 *)
Definition is_between (a b c : RPt) : bool :=
  np_isclose (np_norm (psub a b) + np_norm (psub c b)) (np_norm (psub a c)) (1 / 10000000) (1 / 100000000).

(* cg.py:186-203 get_intersection *)
Definition get_intersection (a1 a2 b1 b2 : RPt) : option RPt :=
  if negb (intersect a1 a2 b1 b2) then
    if is_between b1 a1 b2 then Some a1
    else if is_between b1 a2 b2 then Some a2
    else if is_between a1 b1 a2 then Some b1
    else if is_between a1 b2 a2 then Some b2
    else None
  else Some (crossing_point a1 a2 b1 b2).

(* cg.py:206-215 equilateral_triangle: three vertices around the centroid; "if not rot: return";
   otherwise each vertex is rotated (about the origin, as written) *)
Definition triangle_base (centroid : RPt) (side_length : R) : RPt * RPt * RPt :=
  ((fst centroid + 0, snd centroid + 1 / sqrt 3 * side_length),
   (fst centroid + 1 / 2 * side_length, snd centroid + - 1 / (2 * sqrt 3) * side_length),
   (fst centroid + - 1 / 2 * side_length, snd centroid + - 1 / (2 * sqrt 3) * side_length)).
(* cg.py:206-215 equilateral_triangle *)
Definition equilateral_triangle (centroid : RPt) (side_length rot : R) : RPt * RPt * RPt :=
  let '(t0, t1, t2) := triangle_base centroid side_length in
  if Reqb rot 0 then (t0, t1, t2)
  else
    let c := cos rot in let s := sin rot in
    let r p := (c * fst p - s * snd p, s * fst p + c * snd p) in
    (r t0, r t1, r t2).
