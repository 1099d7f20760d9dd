(** Vocabulary of the kernel properties. *)
From Coq Require Import Reals List.
From Verif Require Import Spec S_PolHull.
Import ListNotations.
Open Scope R_scope.

(** the kernel of a region: its points that see all of it *)
Definition kernel_of (A : region) (k : Pt) : Prop := A k /\ starshaped_from A k.
(** on the left of (or on) every edge of the closed ring [v]: the inside of a convex counter-clockwise polygon *)
Definition left_of_all (v : list Pt) (p : Pt) : Prop := forall a b, In (a, b) (cyc_edges v) -> 0 <= area2 a b p.
(** the quadrilateral o, a, b, c that the diagonal o b cuts into two counter-clockwise triangles *)
Definition quad (o a b c : Pt) : region := fun x => in_triangle_of o a b x \/ in_triangle_of o b c x.
(** strictly on the left of every edge *)
Definition strictly_left_of_all (v : list Pt) (p : Pt) : Prop := forall a b, In (a, b) (cyc_edges v) -> 0 < area2 a b p.
(** the centre of area of the polygon [v] *)
Definition rsum (l : list R) : R := fold_right Rplus 0 l.
Definition area_centre (v : list Pt) : Pt :=
  let w := map (fun e => cross (fst e) (snd e)) (cyc_edges v) in
  let m f := rsum (map (fun e => (f (fst e) + f (snd e)) * cross (fst e) (snd e)) (cyc_edges v)) / (3 * rsum w) in
  (m fst, m snd).
