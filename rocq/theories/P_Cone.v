(** Properties C15-C19: class Cone of utils/cg.py. *)
From Coq Require Import Reals Lra List Bool.
From Verif Require Import Num Spec M_Cg M_ConePolygon L_Cone L_ConePolygon W_Cone.
Import ListNotations.
Open Scope R_scope.

(** C15 *)
Theorem C15_point_in_cone_is_sector : forall a d1 d2 x : Pt,
  apart d1 d2 -> apart d1 (vsub x a) -> apart d2 (vsub x a) ->
  (point_in_cone (Cone a d1 d2) x = true <-> in_sector d1 d2 (vsub x a)).
Proof. exact point_in_cone_sector. Qed.
Print Assumptions C15_point_in_cone_is_sector.
Example C15_example : point_in_cone (Cone (1, 1) (1, 0) (0, 1)) (2, 3) = true /\
  point_in_cone (Cone (1, 1) (0, 1) (1, 0)) (2, 3) = false.
Proof. exact w_C15. Qed.

(** C16 *)
Theorem C16_intersection_same_apex : forall a d1 d2 e1 e2 x : Pt,
  general_directions [d1; d2; e1; e2; vsub x a] ->
  ((exists c, In c (intersection_same_apex (Cone a d1 d2) (Cone a e1 e2)) /\ point_in_cone c x = true) <->
   point_in_cone (Cone a d1 d2) x = true /\ point_in_cone (Cone a e1 e2) x = true).
Proof. exact cones_gp. Qed.
Print Assumptions C16_intersection_same_apex.
Example C16_example : general_directions [(1, 0); (0, 1); (1, 1); (-1, 2); (3, 4)].
Proof. exact gp_ex. Qed.

(** C17 *)
Theorem C17_list_intersection : forall (a x : Pt) (ds : list (Pt * Pt)),
  ds <> [] ->
  general_directions (flat_map (fun d => [fst d; snd d]) ds ++ [vsub x a]) ->
  let cones := map (fun d => Cone a (fst d) (snd d)) ds in
  match list_intersection cones with
  | IndexError => False
  | EmptyPolygon => ~ (forall c, In c cones -> point_in_cone c x = true)
  | UnionOf l => l <> [] /\
      ((exists c, In c l /\ point_in_cone c x = true) <-> (forall c, In c cones -> point_in_cone c x = true))
  end.
Proof. exact list_gp. Qed.
Print Assumptions C17_list_intersection.
Example C17_example :
  general_directions (flat_map (fun d => [fst d; snd d]) [((1, 0), (0, 1)); ((1, 1), (-1, 2))] ++ [(3, 4)]).
Proof. exact gp_ex. Qed.

(** C18: false of the code.  A convex cone intersected with itself is reported empty ... *)
Theorem C18_idempotent_refuted : exists c : cone R,
  intersection_same_apex c c = [] /\ exists x, point_in_cone c x = true.
Proof. exact w_C18_self. Qed.
Print Assumptions C18_idempotent_refuted.
(** ... and for cones sharing a direction the order decides between the empty answer and the right one. *)
Theorem C18_symmetric_refuted : exists c1 c2 : cone R, apex c1 = apex c2 /\
  intersection_same_apex c1 c2 = [] /\
  exists c, intersection_same_apex c2 c1 = [c] /\ exists x, point_in_cone c x = true.
Proof. exact w_C18_order. Qed.
Print Assumptions C18_symmetric_refuted.
(** every convex cone has this defect, every non-convex one is handled *)
Theorem C18_self_intersection_partial : forall a d1 d2 : Pt,
  intersection_same_apex (Cone a d1 d2) (Cone a d1 d2) =
  if is_ccw (n0, n0) d1 d2 then [] else [Cone a d1 d2; Cone a d1 d2].
Proof.
  exact (fun a d1 d2 =>
    match is_ccw (n0, n0) d1 d2 as b
      return is_ccw (n0, n0) d1 d2 = b ->
        intersection_same_apex (Cone a d1 d2) (Cone a d1 d2) = if b then [] else [Cone a d1 d2; Cone a d1 d2] with
    | true => fun H => self_intersection_convex a d1 d2 H
    | false => fun H => self_intersection_nonconvex a d1 d2 H
    end eq_refl).
Qed.
Print Assumptions C18_self_intersection_partial.

(** C19 *)
Theorem C19_polygon_total : forall c : cone R,
  0 < box_margin (apex c) ->
  TH <= box_margin (apex c) * max_coord (dir1 c) -> TH <= box_margin (apex c) * max_coord (dir2 c) ->
  exists i1 q1 n i2 q2, cone_polygon c = Vertices ([apex c; q1] ++ map (fun k => box_corner (i1 + k)) (seq 0 n) ++ [q2]) /\
    on_ray (apex c) (vadd (apex c) (dir1 c)) q1 /\ on_side_line i1 q1 /\
    on_ray (apex c) (vadd (apex c) (dir2 c)) q2 /\ on_side_line i2 q2 /\
    (i1 < 4)%nat /\ (i2 < 4)%nat /\ (n <= 4)%nat /\ ((i1 + n) mod 4 = i2)%nat /\ (n = 0%nat <-> is_convex c = true /\ i1 = i2).
Proof. exact cone_polygon_total. Qed.
Print Assumptions C19_polygon_total.
Example C19_example : 0 < box_margin (3, 4) /\ TH <= box_margin (3, 4) * max_coord (1, 2) /\
  TH <= box_margin (3, 4) * max_coord (-1, 0).
Proof. exact w_C19. Qed.
(** The length condition is needed: a tiny direction makes polygon() fail. *)
Theorem C19_tiny_direction_fails : exists c : cone R,
  apex c = (0, 0) /\ dir1 c <> (0, 0) /\ cone_polygon c = AttributeError.
Proof. exact w_C19_short. Qed.
Print Assumptions C19_tiny_direction_fails.

(** C77: the sides of the box are intersected as rays, so a border point can lie outside the box *)
Theorem C77_border_outside_refuted : exists c : cone R,
  0 < box_margin (apex c) /\ TH <= box_margin (apex c) * max_coord (dir1 c) /\ TH <= box_margin (apex c) * max_coord (dir2 c) /\
  exists q1 l, cone_polygon c = Vertices (apex c :: q1 :: l) /\ ~ on_box q1.
Proof. exact w_C77. Qed.
Print Assumptions C77_border_outside_refuted.
(** Directions clear of the diagonals (all of them when the apex is the centre of the box): the border points are where the rays leave the box. *)
Theorem C77_border_on_box_partial : forall c : cone R,
  let m := box_margin (apex c) in
  let clear d := Rabs (fst d) * (2000000 - m) <= Rabs (snd d) * m \/ Rabs (snd d) * (2000000 - m) <= Rabs (fst d) * m in
  0 < m -> TH <= m * max_coord (dir1 c) -> TH <= m * max_coord (dir2 c) -> clear (dir1 c) -> clear (dir2 c) ->
  exists q1 l q2, cone_polygon c = Vertices ([apex c; q1] ++ l ++ [q2]) /\ on_box q1 /\ on_box q2 /\
    on_ray (apex c) (vadd (apex c) (dir1 c)) q1 /\ on_ray (apex c) (vadd (apex c) (dir2 c)) q2.
Proof. exact cone_polygon_on_box. Qed.
Print Assumptions C77_border_on_box_partial.
Example C77_example : box_margin (0, 0) = 1000000 /\ forall d : Pt,
  Rabs (fst d) * (2000000 - 1000000) <= Rabs (snd d) * 1000000 \/ Rabs (snd d) * (2000000 - 1000000) <= Rabs (fst d) * 1000000.
Proof.
  split; [unfold box_margin; cbn [fst snd]; rewrite Rabs_R0, Rmax_left; lra|].
  intros d. destruct (Rle_dec (Rabs (fst d)) (Rabs (snd d))); [left|right]; lra.
Qed.
