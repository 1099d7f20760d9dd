(** Geometric vocabulary used in the statements of the properties.  Nothing here refers to the model. *)
From Coq Require Import Reals Lra List Permutation.
Import ListNotations.
Open Scope R_scope.

Notation Pt := (R * R)%type (only parsing).
Definition vadd (p q : Pt) : Pt := (fst p + fst q, snd p + snd q).
Definition vsub (p q : Pt) : Pt := (fst p - fst q, snd p - snd q).
Definition smul (k : R) (p : Pt) : Pt := (k * fst p, k * snd p).
Definition dot (p q : Pt) : R := fst p * fst q + snd p * snd q.
(** z-component of the cross product; positive when [q] is counter-clockwise of [p] *)
Definition cross (p q : Pt) : R := fst p * snd q - snd p * fst q.
Definition norm2 (p : Pt) : R := dot p p.
Definition norm (p : Pt) : R := sqrt (norm2 p).
Definition dist (p q : Pt) : R := norm (vsub p q).
(** twice the signed area of the triangle; positive when a, b, c turn counter-clockwise (left) *)
Definition area2 (a b c : Pt) : R := cross (vsub b a) (vsub c a).

(** point at parameter [t] of the line through [a] and [b] *)
Definition along (a b : Pt) (t : R) : Pt := vadd a (smul t (vsub b a)).
Definition on_line (a b p : Pt) : Prop := exists t, p = along a b t.
Definition on_ray (a b p : Pt) : Prop := exists t, 0 <= t /\ p = along a b t.
Definition on_seg (a b p : Pt) : Prop := exists t, 0 <= t <= 1 /\ p = along a b t.

Definition region : Type := Pt -> Prop.
Definition convex (S : region) : Prop :=
  forall p q r, S p -> S q -> on_seg p q r -> S r.
(** [S] contains the segment from [k] to each of its points *)
Definition starshaped_from (S : region) (k : Pt) : Prop :=
  forall p r, S p -> on_seg k p r -> S r.

(** weighted sums, convex hull of a finite list *)
Fixpoint wsum (ws : list R) (ps : list Pt) : Pt :=
  match ws, ps with
  | w :: ws', p :: ps' => vadd (smul w p) (wsum ws' ps')
  | _, _ => (0, 0)
  end.
Definition rsum (l : list R) : R := fold_right Rplus 0 l.
Definition in_hull (ps : list Pt) (q : Pt) : Prop :=
  exists ws, length ws = length ps /\ Forall (fun w => 0 <= w) ws /\ rsum ws = 1 /\ wsum ws ps = q.
Definition psum (ps : list Pt) : Pt := fold_right vadd (0, 0) ps.
(** arithmetic mean *)
Definition mean (ps : list Pt) : Pt := smul (/ INR (length ps)) (psum ps).

(** rotation by angle [r] followed by translation by [t] *)
Definition rotv (r : R) (p : Pt) : Pt :=
  (cos r * fst p - sin r * snd p, sin r * fst p + cos r * snd p).
Definition place (r : R) (t : Pt) (p : Pt) : Pt := vadd (rotv r p) t.

(** *** Tolerances of the code, as numbers *)
(** 1e-10: the band around collinear / parallel *)
Definition TH : R := 1 / 10000000000.
(** the slack numpy.isclose leaves around a length L in is_between: 1e-8 + 1e-7 L *)
Definition btw_eps (L : R) : R := 1 / 100000000 + 1 / 10000000 * L.
(** strictly beyond the tolerance, on different sides *)
Definition opposite (x y : R) : Prop := (TH < x /\ y < - TH) \/ (x < - TH /\ TH < y).
(** segments a1a2 and b1b2 cross, each end being beyond the tolerance from the other's line *)
Definition properly_cross (a1 a2 b1 b2 : Pt) : Prop :=
  opposite (area2 a1 b1 b2) (area2 a2 b1 b2) /\ opposite (area2 a1 a2 b1) (area2 a1 a2 b2).

(** *** Directions and sectors *)
Definition polar (r t : R) : Pt := (r * cos t, r * sin t).
(** [v] lies in the open sector swept counter-clockwise from [d1] to [d2] (by an angle w < 2 PI) *)
Definition in_sector (d1 d2 v : Pt) : Prop :=
  exists r1 r2 r t w s, 0 < r1 /\ 0 < r2 /\ 0 < r /\ 0 < s < w /\ w < 2 * PI /\
    d1 = polar r1 t /\ d2 = polar r2 (t + w) /\ v = polar r (t + s).
(** two directions are further from parallel than the tolerance *)
Definition apart (u v : Pt) : Prop := TH < Rabs (cross u v).
(** pairwise further from parallel than the tolerance *)
Definition general_directions (l : list Pt) : Prop := ForallOrdPairs apart l.
(** distance of a point to the sides of the square |x|, |y| <= 10^6, and largest coordinate of a direction *)
Definition box_margin (a : Pt) : R := 1000000 - Rmax (Rabs (fst a)) (Rabs (snd a)).
Definition max_coord (d : Pt) : R := Rmax (Rabs (fst d)) (Rabs (snd d)).
(** corners of the box counter-clockwise from the lower right one; corner k ends side k (bottom, right, top, left) *)
Definition box_corner (k : nat) : Pt :=
  match (k mod 4)%nat with
  | 0%nat => (1000000, -1000000) | 1%nat => (1000000, 1000000) | 2%nat => (-1000000, 1000000) | _ => (-1000000, -1000000)
  end.
Definition on_side_line (k : nat) (q : Pt) : Prop :=
  match (k mod 4)%nat with
  | 0%nat => snd q = -1000000 | 1%nat => fst q = 1000000 | 2%nat => snd q = 1000000 | _ => fst q = -1000000
  end.
Definition on_box (q : Pt) : Prop := max_coord q = 1000000.

(** *** Finite point sets *)
(** no repeated point and no three points within tolerance of a line *)
Definition general_position (l : list Pt) : Prop :=
  NoDup l /\ forall a b c, In a l -> In b l -> In c l -> a <> b -> b <> c -> a <> c -> TH < Rabs (area2 a b c).
(** edges of a closed polygon given by its vertices *)
Definition cyc_edges {A} (h : list A) : list (A * A) :=
  match h with [] => [] | v :: t => combine h (t ++ [v]) end.
(** leftmost point; among those the topmost *)
Definition leftmost_topmost (l : list Pt) (p : Pt) : Prop :=
  In p l /\ forall q, In q l -> fst p < fst q \/ (fst p = fst q /\ snd q <= snd p).
(** largest difference between two members *)
Definition is_spread (l : list R) (d : R) : Prop :=
  (exists a b, In a l /\ In b l /\ d = a - b) /\ forall a b, In a l -> In b l -> a - b <= d.
(** every vertex is on the left of (or on) every edge *)
Definition convex_ccw (l : list Pt) : Prop :=
  forall a b, In (a, b) (cyc_edges l) -> forall r, In r l -> 0 <= area2 a b r.

(** *** Timed motions *)
(** sum of mag * cos (f * t_k) * dt_k, with t_k the time elapsed before step k *)
Definition cos_sum (mag f : R) (dts : list R) : R :=
  rsum (map (fun k => mag * cos (f * rsum (firstn k dts)) * nth k dts 0) (seq 0 (length dts))).
(** a list of (duration, position): i-th break time and i-th listed position (the 0-th is the start) *)
Definition break_time (l : list (R * (R * R))) (i : nat) : R := rsum (firstn i (map fst l)).
Definition listed_position (start : Pt) (l : list (R * (R * R))) (i : nat) : Pt := nth i (start :: map snd l) (0, 0).
(** some prefix of the steps lasts exactly [b] *)
Definition lands_on (dts : list R) (b : R) : Prop := exists k, (k <= length dts)%nat /\ rsum (firstn k dts) = b.
(** speed on the last leg *)
Definition last_speed (start : Pt) (tps : list (R * (R * R))) : R :=
  norm (smul (/ (break_time tps (length tps) - break_time tps (length tps - 1))) (vsub (listed_position start tps (length tps)) (listed_position start tps (length tps - 1)))).

(** *** Ellipses and tangents *)
(** the filled ellipse with semi-axes [a] around the origin, and its boundary *)
Definition ell_form (a y : Pt) : R := (fst y / fst a) ^ 2 + (snd y / snd a) ^ 2.
Definition in_ellipse (a y : Pt) : Prop := ell_form a y <= 1.
Definition on_ellipse (a y : Pt) : Prop := ell_form a y = 1.
(** seen from [x], the set [S] lies between [t1] (left end) and [t2] (right end) *)
Definition tangent_pair (S : region) (x t1 t2 : Pt) : Prop :=
  S t1 /\ S t2 /\ area2 x t1 t2 < 0 /\ forall o, S o -> area2 x t1 o <= 0 <= area2 x t2 o.
(** the line through [x] and [t] meets [S] in [t] only *)
Definition touches_only_at (S : region) (x t : Pt) : Prop :=
  S t /\ forall o, S o -> area2 x t o = 0 -> o = t.
(** the segment is not (nearly) vertical *)
Definition gentle (l0 l1 : Pt) : Prop :=
  1 / 10000 <= Rabs (fst l1 - fst l0) /\ Rabs (snd l1 - snd l0) <= 100 * Rabs (fst l1 - fst l0).
(** its line misses the ellipse or cuts it in two points that are apart *)
Definition clear_crossing (a l0 l1 : Pt) : Prop :=
  (forall p, on_line l0 l1 p -> ~ on_ellipse a p) \/
  (exists p q, on_line l0 l1 p /\ on_line l0 l1 q /\ on_ellipse a p /\ on_ellipse a q /\ 2 / 10000 < Rabs (fst p - fst q)).

(** *** Angles of a closed chain of points around a point *)
(** [p] is seen from [x] in direction [t] *)
Definition sees (x p : Pt) (t : R) : Prop := exists r, 0 < r /\ vsub p x = polar r t.
(** consecutive entries differ by less than half a turn *)
Fixpoint small_steps (l : list R) : Prop :=
  match l with t :: ((t' :: _) as r) => Rabs (t' - t) < PI /\ small_steps r | _ => True end.
(** [i] is the first position of the largest / smallest entry *)
Definition first_max (l : list R) (i : nat) : Prop :=
  (i < length l)%nat /\ forall j, (j < length l)%nat -> nth j l 0 <= nth i l 0 /\ ((j < i)%nat -> nth j l 0 < nth i l 0).
Definition first_min (l : list R) (i : nat) : Prop :=
  (i < length l)%nat /\ forall j, (j < length l)%nat -> nth i l 0 <= nth j l 0 /\ ((j < i)%nat -> nth i l 0 < nth j l 0).
(** the chain closed by repeating its first point *)
Definition closed_chain {A} (l : list A) : list A := match l with [] => [] | p :: _ => l ++ [p] end.
(** twice the area of the triangle at the i-th vertex of a closed polygon *)
Definition turn (v : list Pt) (i : nat) : R :=
  let n := length v in
  area2 (nth ((i + n - 1) mod n) v (0, 0)) (nth i v (0, 0)) (nth ((i + 1) mod n) v (0, 0)).

(** *** Sorted tables and polygons around a point *)
(** each entry is in relation to all later ones *)
Definition ascending {A} (f : A -> R) (l : list A) : Prop := ForallOrdPairs (fun a b => f a <= f b) l.
Definition strictly_ascending {A} (f : A -> R) (l : list A) : Prop := ForallOrdPairs (fun a b => f a < f b) l.
(** [idcs] lists the positions of [l] in an order that sorts [l] *)
Definition sorts (l : list R) (idcs : list nat) : Prop :=
  Permutation idcs (seq 0 (length l)) /\ ascending (fun i => nth i l 0) idcs.
(** the points are passed counter-clockwise, in less than one turn, seen from [x] *)
Definition ccw_around (x : Pt) (v : list Pt) : Prop :=
  exists ts, Forall2 (sees x) v ts /\ strictly_ascending (fun t => t) ts /\ forall t, In t ts -> t < hd 0 ts + 2 * PI.
(** [l'] is [l] begun at another place *)
Definition rotation {A} (l l' : list A) : Prop := exists k, l' = skipn k l ++ firstn k l.
(** a closed curve met exactly once by every ray from [x] *)
Definition star_curve (x : Pt) (ring : region) : Prop :=
  ~ ring x /\ forall y, y <> x -> exists k, 0 < k /\ ring (along x y k) /\ forall k', 0 <= k' -> ring (along x y k') -> k' = k.
(** the boundary of a polygon *)
Definition on_ring (v : list Pt) (p : Pt) : Prop := exists a b, In (a, b) (cyc_edges v) /\ on_seg a b p.
(** within the bounding box of the vertices *)
Definition within_box (v : list Pt) (y : Pt) : Prop :=
  (exists p, In p v /\ fst p <= fst y) /\ (exists p, In p v /\ fst y <= fst p) /\ (exists p, In p v /\ snd p <= snd y) /\ (exists p, In p v /\ snd y <= snd p).
(** [d] is the distance from [x] to the segment *)
Definition dist_seg (a b x : Pt) (d : R) : Prop := (exists p, on_seg a b p /\ dist p x = d) /\ forall p, on_seg a b p -> d <= dist p x.
(** a vector turned clockwise by a quarter turn *)
Definition right_of (d : Pt) : Pt := (snd d, - fst d).

(** *** Chains *)
(** [i] and [j] below [n] are joined by a chain of steps of [r], taken in either direction *)
Inductive linked (n : nat) (r : nat -> nat -> Prop) : nat -> nat -> Prop :=
| linked_refl i : (i < n)%nat -> linked n r i i
| linked_step i j k : linked n r i j -> (k < n)%nat -> r j k \/ r k j -> linked n r i k.

(** convex hull of a region *)
Definition hull_region (S : region) : region := fun q => exists ps, (forall p, In p ps -> S p) /\ in_hull ps q.
Definition disjoint (S T : region) : Prop := forall p, ~ (S p /\ T p).
