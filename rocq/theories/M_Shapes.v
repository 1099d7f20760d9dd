(** Convex polygons and ellipses behind the interface of M_Clusters: the methods used by cluster_and_starify are the modelled ones. *)
From Coq Require Import Reals List Bool Arith ZArith.
From Verif Require Import Num M_Cg M_Hull M_Motion M_Obstacle M_Ellipse M_Polygon M_StarHull M_ConePolygon M_Clusters.
Import ListNotations.
Local Open Scope R_scope.

(* a StarshapedPolygon given by pose and vertices (polygon.py:11-18), or an Ellipse (ellipse.py:10-18) *)
Inductive shape : Type :=
| PolygonShape (m : option mm) (v : list RPt)
| EllipseShape (E : ellipse).
Record item : Type := Item { it_id : Z; it_shape : shape }.

(* polygon.py:91-135, ellipse.py:163-200 *)
Definition shape_tangents (s : shape) (k : RPt) : res (list RPt) :=
  match s with
  | PolygonShape m v => p_tangent_points m v k GLOBAL GLOBAL
  | EllipseShape E => e_tangent_points E k GLOBAL GLOBAL
  end.
(* polygon.py:141-154, ellipse.py:206-207 *)
Definition shape_convexity (s : shape) : res bool :=
  match s with PolygonShape _ v => check_convexity v | EllipseShape _ => Ret true end.

Section Shapes.
  Context {G : Type}.
  Variable ring : list RPt -> G.      (* shapely.geometry.Polygon of a vertex list *)
  Variable unique : list RPt -> list RPt.   (* np.unique(.., axis=0) *)
  Variable fuel : nat.
  (* starshaped_hull.py:35-45; shapely refuses a ring of one or two points *)
  Definition shape_hull (s : shape) (kp : RPt * RPt * RPt) : outcome G :=
    let '(a, b, c) := kp in
    match convex_kernel_starshaped_hull (shape_tangents s) unique fuel [a; b; c] with
    | Exn e => Raise e
    | Ret HullError => Raise IndexErr
    | Ret HullRunning => NoAnswer
    | Ret (Hull h) => match h with [_] | [_; _] => Raise ValueErr | _ => Val (ring h) end
    end.
  (** the parts of the interface that these classes implement *)
  Record implemented (M : methods item G) (Sh : shapely G) : Prop := {
    im_id : forall o, ob_id M o = Some (it_id o);
    im_tangents : forall o, ob_tangent_points M o = shape_tangents (it_shape o);
    im_convex : forall o b, shape_convexity (it_shape o) = Ret b -> ob_is_convex M o = b;
    (* obstacle.py:120-126: convex obstacles are star-shaped *)
    im_starshaped : forall o, ob_is_convex M o = true -> ob_is_starshaped M o = true;
    im_hull : forall o kp, ob_convex_hull M o kp = shape_hull (it_shape o) kp;
    (* obstacle.py:73-89, 162-172: the vertices in the global frame *)
    im_polygon : forall o m v vs, it_shape o = PolygonShape m v -> map_res (fun p => transform m p OBSTACLE GLOBAL) v = Ret vs -> ob_polygon M o = ring vs;
    (* cg.py:295-347 *)
    im_cone : forall c g, sh_cone Sh c = Ret g -> exists vs, cone_polygon c = Vertices vs /\ g = ring vs }.
End Shapes.
