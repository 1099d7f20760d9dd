(** Model of the drawing of clusters: starshaped_hull/cluster_and_starify.py:36-41 ObstacleCluster.draw, 452-463 draw_clustering and 466-480 draw_star_hull. As in M_Plot.v colours,
    limits and figures are left out; axes are the list of the artists added to them, in this order (those that are None are not added). *)
From Coq Require Import String Reals List Bool.
From Verif Require Import Num M_Cg M_Motion M_Obstacle M_Polygon M_Plot.
Import ListNotations.

(* what the name "ax" may hold in ObstacleCluster.draw: None, axes, or the list of handles *)
Inductive pyval : Type := PNone | PAxes (shown_there : list artist) | PHandles (h : handles).
(* an obstacle of the caller, or a StarshapedPrimitiveCombination *)
Inductive obst : Type := OPrim (o : drawn) | OComb (o : combined).
(* the artists among the handles *)
Definition artists (h : handles) : list artist := flat_map (fun a => match a with Some x => [x] | None => [] end) h.

Section Draw.
  Variable rand : list RPt.   (* polygon.py:29 np.random.rand(3, 2), moved at once by update_plot *)
  (* ellipse.py:62-65, polygon.py:46-49, starshaped_primitive_combination.py:177-180: draw with frame GLOBAL *)
  Definition draw_obst (o : obst) (show_reference show_name : bool) : res handles :=
    match o with OPrim d => draw d GLOBAL show_reference show_name rand | OComb c => comb_draw c show_reference show_name end.
  (* the same with the argument ax: line_handles, ax. A list has no add_patch and no plot; new axes are made for None. Simplification: show_reference is not False for a
     combination without polygons on a list *)
  Definition draw_on (ax : pyval) (o : obst) (show_reference show_name : bool) : res (pyval * pyval) :=
    match ax with
    | PHandles _ => Exn AttributeErr
    | PNone => bind (draw_obst o show_reference show_name) (fun h => Ret (PHandles h, PAxes (artists h)))
    | PAxes l => bind (draw_obst o show_reference show_name) (fun h => Ret (PHandles h, PAxes (l ++ artists h)))
    end.
  (* cluster_and_starify.py:39-40: "ax, _ = obs.draw(ax=ax)"; the second component is the name "_" *)
  Fixpoint draw_members (obstacles : list obst) (ax : pyval) (other : option pyval) : res (pyval * option pyval) :=
    match obstacles with
    | [] => Ret (ax, other)
    | o :: r => bind (draw_on ax o true false) (fun '(a, b) => draw_members r a (Some b))
    end.
  (* cluster_and_starify.py:36-41; [None] as the second component: the name "_" has no value (UnboundLocalError) *)
  Definition cluster_draw (cluster_obstacle : option obst) (obstacles : list obst) (ax : pyval) : res (pyval * option pyval) :=
    match cluster_obstacle with
    | None => draw_members obstacles ax None
    | Some o => bind (draw_on ax o true false) (fun '(a, b) => draw_members obstacles a (Some b))
    end.
  (* cluster_and_starify.py:456, 470: the results of draw are not used, the axes are *)
  Definition add_drawing (l : list artist) (o : obst) (show_reference : bool) : res (list artist) :=
    bind (draw_obst o show_reference false) (fun h => Ret (l ++ artists h)).
  Fixpoint draw_all (l : list artist) (os : list obst) : res (list artist) :=   (* cluster_and_starify.py:456 *)
    match os with [] => Ret l | o :: r => bind (add_drawing l o false) (fun l' => draw_all l' r) end.
  Fixpoint draw_clusters (l : list artist) (cls : list (list obst)) : res (list artist) :=   (* cluster_and_starify.py:455-456 *)
    match cls with [] => Ret l | c :: r => bind (draw_all l c) (fun l' => draw_clusters l' r) end.
  (* cluster_and_starify.py:452-463 draw_clustering; the obstacles of every cluster *)
  Definition draw_clustering (clusters : list (list obst)) (p pg : RPt) : res (list artist) :=
    bind (draw_clusters [] clusters) (fun l => Ret (l ++ [AMark p; AMark pg])).
  (* cluster_and_starify.py:468-473: cluster_obstacle and polygon_excluding_hull() of every cluster *)
  Fixpoint draw_hulls (l : list artist) (cls : list (option obst * sgeom)) : res (list artist) :=
    match cls with
    | [] => Ret l
    | (co, g) :: r =>
        bind (match co with Some o => add_drawing l o true | None => Ret l end) (fun l' =>
        bind (draw_shapely_polygon g None) (fun h => draw_hulls (l' ++ artists h) r))
    end.
  (* cluster_and_starify.py:466-480 draw_star_hull *)
  Definition draw_star_hull (clusters : list (option obst * sgeom)) (p pg : RPt) : res (list artist) :=
    bind (draw_hulls [] clusters) (fun l => Ret (l ++ [AMark p; AMark pg])).
End Draw.
