(** Vocabulary for polygon_kernel_starshaped_hull called with a single kernel point. *)
From Coq Require Import Reals List.
From Verif Require Import Num Spec M_PolHull S_PolHull.
Import ListNotations.
Open Scope R_scope.

(** the parts of a shapely intersection result *)
Definition parts_of (g : geom R) : list (part R) :=
  match g with GEmpty => [] | GLine l => [PLine l] | GMultiLine ls => map PLine ls | GCollection gs => gs | GOther ps => map PPoint ps end.
(** the result is split the way shapely splits the intersection of a segment with a polygon: into points and segments
    without a common point; a GeometryCollection is made when there is a point among the parts *)
Record plain (g : geom R) : Prop := {
  pl_part : forall l, In (PLine l) (parts_of g) -> exists a b, l = [a; b] /\ a <> b;
  pl_apart : forall P p Q x q, parts_of g = P ++ p :: Q -> In q (P ++ Q) -> part_region p x -> ~ part_region q x;
  pl_mixed : forall gs, g = GCollection gs -> exists q, In (PPoint q) gs }.

(** the kernel point [k] in general position with respect to the ring [V], at the scale of the lengths and of the
    tolerance that the code uses *)
Record roomy (V : list Pt) (k : Pt) : Prop := {
  ro_gp : forall v w, In v V -> In w V -> v <> w -> area2 k v w <> 0;
  ro_area : forall a b, In (a, b) (cyc_edges V) -> 1000 * TH < Rabs (area2 k a b);
  ro_near : forall v t, In v V -> 0 < t -> on_ring V (along k v t) -> 1 / 1000 <= t <= 10000;
  ro_step : forall v t t', In v V -> 0 < t < t' -> on_ring V (along k v t) -> on_ring V (along k v t') -> 1 / 1000 <= t' - t }.

(** the region swept by the segments from [k] to the points of [A]: the least region that covers [A] and is star-shaped from [k] *)
Definition star_of (k : Pt) (A : region) : region := fun p => exists a, A a /\ on_seg k a p.
(** the region of a polygon that is star-shaped from [k]: the triangles over its edges *)
Definition fan (k : Pt) (l : list Pt) : region := fun p => exists x y, In (x, y) (cyc_edges l) /\ in_hull [k; x; y] p.
