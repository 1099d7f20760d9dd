(** distance_function and point_location of obstacles/starshaped_obstacle.py and distance_function of obstacles/starshaped_polygon.py for any kind of number; with the instance NumB
    they are what the code computes with rounding.  Simplifications: the point is given in the obstacle frame, and the answer [b] of boundary_mapping is an argument. A square x**2 is the
    product x*x, rounded once. *)
From Coq Require Import ZArith QArith SpecFloat List Bool.
From Verif Require Import Num M_Cg M_Float.

Section Distance.
  Context {T : Type} {N : Num T}.
  Variable nsqrt : T -> T.   (* np.sqrt *)
  Local Open Scope num_scope.
  (* np.linalg.norm(p - q) in starshaped_obstacle.py:37-39, starshaped_polygon.py:44-46 *)
  Definition dist_num (p q : pt T) : T := norm_num nsqrt (fst p - fst q, snd p - snd q).
  (* starshaped_obstacle.py:35-40 distance_function *)
  Definition distance_num (x xr b : pt T) : T := nsq (dist_num x xr / dist_num b xr).
  (* np.sign of a number that is not nan *)
  Definition sign_num (z : T) : T := if n0 <? z then n1 else if z <? n0 then nlit (-1) else n0.
  (* starshaped_obstacle.py:43-44 point_location *)
  Definition location_num (x xr b : pt T) : T := sign_num (distance_num x xr b - n1).
  (* starshaped_polygon.py:42-51 distance_function *)
  Definition sp_distance_num (x xr b : pt T) : T :=
    let dist_center := dist_num x xr in let local_radius := dist_num b xr in
    if dist_center <? local_radius then nsq (dist_center / local_radius) else nsq (dist_center - local_radius + n1).
End Distance.
