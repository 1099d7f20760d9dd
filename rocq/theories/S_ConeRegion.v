(** Vocabulary for the region covered by a cone polygon. *)
From Coq Require Import Reals List.
From Verif Require Import Spec.
Import ListNotations.
Open Scope R_scope.

Definition in_box (p : Pt) : Prop := max_coord p <= 1000000.
Definition consecutive {A} (u w : A) (l : list A) : Prop := exists l1 l2, l = l1 ++ u :: w :: l2.
(** the triangles spanned by [a] and consecutive points of [l] *)
Definition fan (a : Pt) (l : list Pt) : region := fun p => exists u w, consecutive u w l /\ in_hull [a; u; w] p.
(** seen from [a], the points of the list follow each other counter-clockwise from the angle [t + s] on, by less than half a turn
    each and less than a full turn altogether *)
Fixpoint turning (a : Pt) (t s : R) (l : list Pt) : Prop :=
  match l with
  | [] => True
  | v :: r => exists s' d, 0 < d /\ vsub v a = polar d (t + s') /\ s <= s' < s + PI /\ s' < 2 * PI /\ turning a t s' r
  end.
Definition sweeps (a : Pt) (l : list Pt) : Prop := exists t, turning a t 0 l.
(** two edges of a ring without a common end share a point *)
Definition crosses_itself (ring : list Pt) : Prop :=
  exists a b c d p, In (a, b) (cyc_edges ring) /\ In (c, d) (cyc_edges ring) /\ a <> c /\ a <> d /\ b <> c /\ b <> d /\ on_seg a b p /\ on_seg c d p.
(** a direction for which the ray from [p] can be followed to the border of the box: long enough, and clear of the diagonals *)
Definition usable (p d : Pt) : Prop := let m := box_margin p in TH <= m * max_coord d /\
  (Rabs (fst d) * (2000000 - m) <= Rabs (snd d) * m \/ Rabs (snd d) * (2000000 - m) <= Rabs (fst d) * m).
