(** StarshapedObstacle.reference_direction and the frame changes on an array of points, one point per row. *)
From Coq Require Import Reals List Bool.
From Verif Require Import Num M_Cg M_Motion M_Obstacle.
Import ListNotations.
Local Open Scope R_scope.

(* cg.py:12-24 affine_transform on an array of shape (n, 2): x[0] and x[1] are the first two rows, the arithmetic is
   entry by entry, a number added to a row is added to both entries. The other rows are not read. *)
Definition affine_rows (xs : list RPt) (rotation : R) (translation : RPt) (inverse : bool) : res (list RPt) :=
  match xs with
  | x0 :: x1 :: _ =>
      let at_col p := affine_transform p rotation translation inverse in
      let c0 := at_col (fst x0, fst x1) in
      let c1 := at_col (snd x0, snd x1) in
      Ret [(fst c0, fst c1); (snd c0, snd c1)]
  | _ => Exn IndexErr
  end.
(* obstacle.py:94-102 transform, with 154-160, on an array *)
Definition transform_rows (m : option mm) (xs : list RPt) (fi fo : frame) : res (list RPt) :=
  match m with
  | None => Ret xs
  | Some m =>
      if frame_eqb fi fo then Ret xs
      else match fi, fo with
           | OBSTACLE, GLOBAL => affine_rows xs (m_rot m) (m_pos m) false
           | GLOBAL, OBSTACLE => affine_rows xs (m_rot m) (m_pos m) true
           | _, _ => Exn InvalidFrameError
           end
  end.
(* starshaped_obstacle.py:32 dir / np.linalg.norm(dir, axis=1): shapes (n, 2) and (n,). numpy aligns the last axes: for n = 1 the
   one norm divides both columns, for n = 2 the norm of row j divides column j, otherwise the shapes do not match. *)
Definition divide_by_norms (dir : list RPt) : res (list RPt) :=
  match dir with
  | [d] => if Reqb (np_norm d) 0 then Exn NotFinite else Ret [(fst d / np_norm d, snd d / np_norm d)]
  | [d; e] => if Reqb (np_norm d) 0 || Reqb (np_norm e) 0 then Exn NotFinite
              else Ret [(fst d / np_norm d, snd d / np_norm e); (fst e / np_norm d, snd e / np_norm e)]
  | _ => Exn ValueErr
  end.
(* starshaped_obstacle.py:28-32 reference_direction *)
Definition reference_direction_rows (m : option mm) (xr : RPt) (xs : list RPt) (fi fo : frame) : res (list RPt) :=
  bind (transform_rows m xs fi fo) (fun xo => bind (transform m xr OBSTACLE fo) (fun xro =>
    divide_by_norms (map (fun x => psub x xro) xo))).
