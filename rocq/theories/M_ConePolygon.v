(** Model of Cone.polygon, utils/cg.py:270-347. *)
From Coq Require Import Reals List Bool Arith.
From Verif Require Import Num M_Cg.
Import ListNotations.
Local Open Scope R_scope.

(* numpy.arctan2(y, x): the angle of (x, y) in (-pi, pi] (signed zeros are not distinguished) *)
Definition arctan2 (y x : R) : R :=
  if Rltb 0 x then atan (y / x)
  else if Rltb x 0 then (if Rleb 0 y then atan (y / x) + PI else atan (y / x) - PI)
  else if Rltb 0 y then PI / 2
  else if Rltb y 0 then - (PI / 2)
  else 0.

(* cg.py:271-282 class attributes *)
Definition bb_width : R := 1000000.
(* cg.py:271-282 *)
Definition bottom_right : RPt := (bb_width, - bb_width).
(* cg.py:271-282 *)
Definition top_right : RPt := (bb_width, bb_width).
(* cg.py:271-282 *)
Definition bottom_left : RPt := (- bb_width, - bb_width).
(* cg.py:271-282 *)
Definition top_left : RPt := (- bb_width, bb_width).
(* cg.py:271-282 *)
Definition right_line : line R := Line bottom_right top_right.
(* cg.py:271-282 *)
Definition top_line : line R := Line top_left top_right.
(* cg.py:271-282 *)
Definition left_line : line R := Line top_left bottom_left.
(* cg.py:271-282 *)
Definition bottom_line : line R := Line bottom_left bottom_right.
(* cg.py:280 bb_edges = [bottom_line, right_line, top_line, left_line]; indices are always < 4 *)
Definition bb_edge (i : nat) : line R :=
  match i with 0%nat => bottom_line | 1%nat => right_line | 2%nat => top_line | _ => left_line end.
(* cg.py:281 bb_corners = [bottom_right, top_right, top_left, bottom_left] *)
Definition bb_corner (i : nat) : RPt :=
  match i with 0%nat => bottom_right | 1%nat => top_right | 2%nat => top_left | _ => bottom_left end.
(* cg.py:282 bb_corner_angles = pi/4 * [1, 3, 5, 7] *)
Definition bb_corner_angle (i : nat) : R :=
  PI / 4 * match i with 0%nat => 1 | 1%nat => 3 | 2%nat => 5 | _ => 7 end.

(* cg.py:297-316: side of the box the direction points at *)
Definition edge_index (angle : R) : nat :=
  if Rleb (bb_corner_angle 0) angle && Rltb angle (bb_corner_angle 1) then 0%nat
  else if Rleb (bb_corner_angle 1) angle && Rltb angle (bb_corner_angle 2) then 1%nat
  else if Rleb (bb_corner_angle 2) angle && Rltb angle (bb_corner_angle 3) then 2%nat
  else 3%nat.

(* cg.py:318-335: border point, with the two fall-backs (index +1, then +2 more);
   the final index and the (possibly None) point *)
Definition border (r : line R) (idx : nat) : nat * option RPt :=
  match ray_intersection r (bb_edge idx) with
  | Some p => (idx, Some p)
  | None =>
      let idx1 := ((idx + 1) mod 4)%nat in
      match ray_intersection r (bb_edge idx1) with
      | Some p => (idx1, Some p)
      | None =>
          let idx2 := ((idx1 + 2) mod 4)%nat in
          (idx2, ray_intersection r (bb_edge idx2))     (* None: "SOMETHING WRONG!" is printed *)
      end
  end.

(* cg.py:338-344: the "while True" that adds corners; [None] when the fuel runs out *)
Fixpoint corner_walk (fuel c_idx stop : nat) : option (list RPt) :=
  match fuel with
  | O => None
  | S f =>
      let next := ((c_idx + 1) mod 4)%nat in
      if Nat.eqb next stop then Some [bb_corner c_idx]
      else match corner_walk f next stop with
           | None => None
           | Some l => Some (bb_corner c_idx :: l)
           end
  end.

(* what cg.py:295-347 Cone.polygon may do *)
Inductive poly_out : Type :=
| Vertices (l : list RPt)
| AttributeError            (* None.xy at line 336 / 345 *)
| Loop.                     (* the corner loop did not finish within the given rounds *)

(* cg.py:295-347 Cone.polygon (the shapely polygon is represented by its vertex list) *)
Definition cone_polygon (c : cone R) : poly_out :=
  let angle1 := arctan2 (snd (dir1 c)) (fst (dir1 c)) + PI in
  let angle2 := arctan2 (snd (dir2 c)) (fst (dir2 c)) + PI in
  let ray1 := Line (apex c) (padd (apex c) (dir1 c)) in
  let ray2 := Line (apex c) (padd (apex c) (dir2 c)) in
  let '(i1, b1) := border ray1 (edge_index angle1) in
  let '(i2, b2) := border ray2 (edge_index angle2) in
  match b1, b2 with
  | Some q1, Some q2 =>
      if negb (is_convex c && Nat.eqb i1 i2) then
        match corner_walk 4 i1 i2 with
        | None => Loop
        | Some corners => Vertices ([apex c; q1] ++ corners ++ [q2])
        end
      else Vertices [apex c; q1; q2]
  | _, _ => AttributeError
  end.
