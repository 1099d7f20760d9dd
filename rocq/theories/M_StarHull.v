(** Model of starshaped_hull/starshaped_hull.py:8-45: admissible_kernel and convex_kernel_starshaped_hull.
    An obstacle enters only through its method tangent_points (global frame). *)
From Coq Require Import Reals List Bool Arith.
From Verif Require Import Num M_Cg M_Hull M_Motion M_Obstacle.
Import ListNotations.
Local Open Scope R_scope.

Section StarHull.
  Variable tangent_points : RPt -> res (list RPt).

  (* starshaped_hull.py:8-14 *)
  Definition admissible_kernel (x : RPt) : res (option (cone R)) :=
    bind (tangent_points x) (fun tps =>
      match tps with
      | [] => Ret None
      | [_] => Exn IndexErr
      | t0 :: t1 :: _ => Ret (Some (Cone x (psub x t0) (psub x t1)))
      end).

  (* starshaped_hull.py:36-38 *)
  Fixpoint all_tangent_points (kernel_points : list RPt) : res (list RPt) :=
    match kernel_points with
    | [] => Ret []
    | k :: r => bind (tangent_points k) (fun t => bind (all_tangent_points r) (fun l => Ret (t ++ l)))
    end.

  (* starshaped_hull.py:35-45; [unique] is np.unique(.., axis=0); the result is the list of vertices given to
     shapely.geometry.Polygon, [] for Polygon([]); [fuel] bounds the rounds of convex_hull *)
  Definition convex_kernel_starshaped_hull (unique : list RPt -> list RPt) (fuel : nat) (kernel_points : list RPt)
    : res (hull_out R) :=
    bind (all_tangent_points kernel_points) (fun tps =>
      match tps with
      | [] => Ret (Hull [])
      | _ => Ret (convex_hull fuel (unique tps ++ kernel_points))
      end).
End StarHull.
