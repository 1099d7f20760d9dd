(** The answers of is_convex and is_starshaped, which are computed once and kept, and what dilated_obstacle does to them. *)
From Coq Require Import Reals List Bool.
From Verif Require Import Num M_Cg M_Obstacle M_Polygon.
Import ListNotations.

(* _polygon (exterior ring), _is_convex, _is_starshaped *)
Record shape_state := ShapeState { q_ring : list RPt; q_convex : option bool; q_star : option bool }.
(* the class decides the value given for is_starshaped: starshaped_obstacle.py:10 passes True, obstacle.py:25 has None *)
Definition new_shape (c : obs_class) (ring : list RPt) : shape_state :=
  ShapeState ring None (match c with CPolygon => None | _ => Some true end).
(* polygon.py:141-154, ellipse.py:206-207 _check_convexity. The class StarshapedPrimitiveCombination is not treated here (C87). *)
Definition check_for (c : obs_class) (ring : list RPt) : res bool :=
  match c with CEllipse => Ret true | _ => check_convexity ring end.
(* obstacle.py:114-118 is_convex: the new state and the answer *)
Definition ask_convex (c : obs_class) (s : shape_state) : shape_state * res bool :=
  match q_convex s with
  | Some b => (s, Ret b)
  | None => match check_for c (q_ring s) with
            | Ret b => (ShapeState (q_ring s) (Some b) (q_star s), Ret b)
            | Exn e => (s, Exn e)
            end
  end.
(* obstacle.py:120-127 is_starshaped *)
Definition ask_star (c : obs_class) (s : shape_state) : shape_state * res bool :=
  match q_star s with
  | Some b => (s, Ret b)
  | None => match ask_convex c s with
            | (s', Ret b) => (ShapeState (q_ring s') (q_convex s') (Some b), Ret b)
            | (s', Exn e) => (s', Exn e)
            end
  end.
(* dilated_obstacle with [ring'] for the buffered polygon: polygon.py:51-59 keeps all other attributes of the deep copy;
   starshaped_polygon.py:30-40 and ellipse.py:25-35 start from a new object *)
Definition dilate (c : obs_class) (ring' : list RPt) (s : shape_state) : shape_state :=
  match c with
  | CPolygon => ShapeState ring' (q_convex s) (q_star s)
  | _ => new_shape c ring'
  end.
(* what is done with an obstacle; a dilation goes on with the dilated obstacle *)
(* no counterpart in the source: sequences of the calls above *)
Inductive query : Type := AskConvex | AskStar | DilateTo (ring' : list RPt).
(* one call *)
Definition query_step (c : obs_class) (s : shape_state) (q : query) : shape_state :=
  match q with
  | AskConvex => fst (ask_convex c s)
  | AskStar => fst (ask_star c s)
  | DilateTo r => dilate c r s
  end.
(* a new obstacle and a sequence of calls *)
Definition query_run (c : obs_class) (ring : list RPt) (l : list query) : shape_state := fold_left (query_step c) l (new_shape c ring).
