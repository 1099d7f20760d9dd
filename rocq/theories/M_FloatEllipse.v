(** Model of parts of obstacles/ellipse.py for any kind of number, to say what is computed with rounding (with the instance NumB of M_Float). Points are given and
    returned in the obstacle frame, so that Obstacle.transform changes nothing. A square x**2 is the product x*x, rounded once. A division by zero gives an infinity or a nan, as in numpy. *)
From Coq Require Import Reals List Bool QArith.
From Verif Require Import Num M_Cg M_Float.
Import ListNotations.

Section Ellipse.
  Context {T : Type} {N : Num T}.
  Variable nsqrt : T -> T.   (* np.sqrt *)
  Local Open Scope num_scope.
  (* ellipse.py:90-93 point_location *)
  Definition ell_loc_num (a x : pt T) : T := nsq (fst x / fst a) + nsq (snd x / snd a) - n1.
  (* obstacle.py:58-59 interior_point, 61-62 exterior_point, 64-65 boundary_point: numpy.isclose with rtol = 1e-5, atol = 1e-8 *)
  Definition ell_interior_num (a x : pt T) : bool := ell_loc_num a x <? n0.
  Definition ell_exterior_num (a x : pt T) : bool := n0 <? ell_loc_num a x.   (* obstacle.py:61-62 *)
  Definition ell_boundary_num (a x : pt T) : bool := isclose_num (ell_loc_num a x) n0 (nlit (1 # 100000)) (nlit (1 # 100000000)).   (* obstacle.py:64-65 *)
  (* ellipse.py:173-174, 184-191: the point of the line with slope m through x; [tmp] is a2[1] / a2[0] *)
  Definition ell_tangent_at_num (x : pt T) (tmp m : T) : pt T :=
    let x1 := (fst x * nsq m - snd x * m) / (tmp + nsq m) in
    (x1, m * (x1 - fst x) + snd x).
  (* ellipse.py:167-192 *)
  Definition ell_tangents_num (a x : pt T) : pt T * pt T :=
    let px := fst x in let py := snd x in
    let a20 := nsq (fst a) in let a21 := nsq (snd a) in
    if nabs (a20 - nsq px) <? nlit (1 # 100000) then
      let m2 := (nsq py - a21) / (nlit 2 * px * py) in
      ((px, n0), ell_tangent_at_num x (a21 / a20) m2)
    else
      let tmp := nsq px - a20 in
      let c1 := px * py / tmp in
      let c2 := (a21 - nsq py) / tmp in
      let s := nsqrt (nsq c1 + c2) in
      let k := a21 / a20 in
      (ell_tangent_at_num x k (c1 + s), ell_tangent_at_num x k (c1 - s)).
  (* ellipse.py:163-200 tangent_points, input_frame = output_frame = Frame.OBSTACLE *)
  Definition ell_tangent_points_num (a x : pt T) : list (pt T) :=
    if negb (ell_exterior_num a x) then []
    else let (tp1, tp2) := ell_tangents_num a x in
         if is_ccw x tp1 tp2 then [tp2; tp1] else [tp1; tp2].
End Ellipse.
