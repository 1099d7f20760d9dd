(** Model of starshaped_hull/cluster_and_starify.py:10-83: ObstacleCluster and get_intersection_clusters.
    Obstacles and shapely geometries are abstract: [Obs] and [G] are arbitrary types, their methods are the fields of
    [methods] and [shapely] (any functions). *)
From Coq Require Import String DecimalString DecimalZ Reals List Bool Arith ZArith.
From Verif Require Import Num M_Cg M_Motion M_Obstacle.
Import ListNotations.
Local Open Scope R_scope.

(* outcome of a call: a value, an exception, or (loops that wait for a random number) all draws used up *)
Inductive outcome (A : Type) : Type := Val (a : A) | Raise (e : exn) | NoAnswer.
Arguments Val {A} a. Arguments Raise {A} e. Arguments NoAnswer {A}.
(* sequencing of two calls; no counterpart in the source *)
Definition obind {A B} (o : outcome A) (f : A -> outcome B) : outcome B :=
  match o with Val a => f a | Raise e => Raise e | NoAnswer => NoAnswer end.
(* no counterpart in the source: a call without random numbers as an outcome *)
Definition of_res {A} (r : res A) : outcome A := match r with Ret a => Val a | Exn e => Raise e end.

(** *** names *)
(* str(o.id()), cluster_and_starify.py:12: an int in decimal, or None *)
Definition str_id (i : option Z) : string :=
  match i with None => "None"%string | Some z => NilZero.string_of_int (Z.to_int z) end.
(* cluster_and_starify.py:12 *)
Definition name_of (ids : list (option Z)) : string := String.concat "_" (map str_id ids).

(** *** geometry library *)
(* the operations of shapely used by the module; [sh_parts g] is None when geom_type is 'Polygon' and the list .geoms
   otherwise; the operations that may raise return a [res] *)
Record shapely (G : Type) : Type := Shapely {
  sh_area : G -> R;
  sh_is_empty : G -> bool;
  sh_intersection : G -> G -> G;
  sh_difference : G -> G -> G;
  sh_union : list G -> G;                       (* shapely.ops.unary_union *)
  sh_within : G -> G -> bool;
  sh_intersects : G -> G -> bool;
  sh_contains : G -> RPt -> bool;
  sh_centroid : G -> RPt;
  sh_nearest : G -> RPt -> res RPt;             (* shapely.ops.nearest_points(g, p)[0] *)
  sh_split : G -> RPt -> RPt -> res (list G);   (* shapely.ops.split by the segment *)
  sh_parts : G -> option (list G);
  sh_exterior_distance : G -> RPt -> res R;     (* g.exterior.distance(p) *)
  sh_convex_hull : G -> res G;                  (* Polygon(v[ConvexHull(v).vertices]) for v = exterior vertices *)
  sh_cone : cone R -> res G }.                  (* Cone.polygon() *)
Arguments sh_area {G}. Arguments sh_is_empty {G}. Arguments sh_intersection {G}. Arguments sh_difference {G}.
Arguments sh_union {G}. Arguments sh_within {G}. Arguments sh_intersects {G}. Arguments sh_contains {G}.
Arguments sh_centroid {G}. Arguments sh_nearest {G}. Arguments sh_split {G}. Arguments sh_parts {G}.
Arguments sh_exterior_distance {G}. Arguments sh_convex_hull {G}. Arguments sh_cone {G}.

(* the methods of an obstacle; whether kernel, set_xr, extreme_points exist depends on the class *)
Record methods (Obs G : Type) : Type := Methods {
  ob_id : Obs -> option Z;
  ob_class : Obs -> obs_class;
  ob_is_convex : Obs -> bool;
  ob_is_starshaped : Obs -> bool;
  ob_polygon : Obs -> G;
  ob_kernel : Obs -> res G;
  ob_tangent_points : Obs -> RPt -> res (list RPt);
  ob_exterior_point : Obs -> RPt -> bool;
  ob_extreme_points : Obs -> list RPt;
  ob_convex_hull : Obs -> RPt * RPt * RPt -> outcome G;    (* convex_kernel_starshaped_hull *)
  ob_polygon_hull : Obs -> RPt * RPt * RPt -> outcome G;   (* polygon_kernel_starshaped_hull *)
  ob_xr : Obs -> RPt }.                                  (* xr() in the global frame, where it exists *)
Arguments ob_id {Obs G}. Arguments ob_class {Obs G}. Arguments ob_is_convex {Obs G}. Arguments ob_is_starshaped {Obs G}.
Arguments ob_polygon {Obs G}. Arguments ob_kernel {Obs G}. Arguments ob_tangent_points {Obs G}.
Arguments ob_exterior_point {Obs G}. Arguments ob_extreme_points {Obs G}. Arguments ob_convex_hull {Obs G}.
Arguments ob_polygon_hull {Obs G}. Arguments ob_xr {Obs G}.

(** *** clusters *)
(* the cluster obstacle: an input obstacle (with the reference point last set by the module, if any), a
   StarshapedPrimitiveCombination, or the StarshapedPolygon built from a convex hull; each with its id *)
Inductive cluster_obst (Obs G : Type) : Type :=
| Original (o : Obs) (xr : option RPt)
| Combination (members : list Obs) (hull : option G) (xr : RPt) (id : option Z)
| HullPolygon (hull : G) (xr : RPt) (id : option Z).
Arguments Original {Obs G}. Arguments Combination {Obs G}. Arguments HullPolygon {Obs G}.

(* cluster_and_starify.py:11-18; _polygon_excluding_hull caches a value that does not change and is recomputed instead *)
Record cluster (Obs G : Type) : Type := Cluster {
  c_name : string;
  c_obstacles : list Obs;
  c_obstacle : option (cluster_obst Obs G);
  c_kernel_points : option (RPt * RPt * RPt);
  c_admissible_kernel : option G;
  c_polygon : option G }.                       (* _polygon *)
Arguments Cluster {Obs G}. Arguments c_name {Obs G}. Arguments c_obstacles {Obs G}. Arguments c_obstacle {Obs G}.
Arguments c_kernel_points {Obs G}. Arguments c_admissible_kernel {Obs G}. Arguments c_polygon {Obs G}.

(** *** index lists *)
Section Indices.
  Variable inter : nat -> nat -> bool.
  Variable setl : list nat -> list nat.
  (* cluster_and_starify.py:53-58 *)
  Definition idcs_of (n i : nat) : list nat := i :: filter (inter i) (seq (S i) (n - S i)).
  (* cluster_and_starify.py:52-58 intersections_exist after the double loop *)
  Definition intersections_exist (n : nat) : bool := existsb (fun i => existsb (inter i) (seq (S i) (n - S i))) (seq 0 n).
  (* cluster_and_starify.py:66-70 *)
  Definition share (a b : list nat) : bool := existsb (fun l_j => existsb (Nat.eqb l_j) b) a.
  (* cluster_and_starify.py:65: j = i-1, ..., 0; the first hit *)
  Fixpoint find_down (f : nat -> bool) (i : nat) : option nat :=
    match i with O => None | S j => if f j then Some j else find_down f j end.
  (* the assignment L[j] = v of cluster_and_starify.py:72-73 *)
  Fixpoint set_nth (j : nat) (v : list nat) (L : list (list nat)) : list (list nat) :=
    match L, j with
    | [], _ => []
    | _ :: t, O => v :: t
    | h :: t, S j' => h :: set_nth j' v t
    end.
  (* cluster_and_starify.py:65-74; list(set(...)) is [setl] *)
  Definition merge_step (L : list (list nat)) (i : nat) : list (list nat) :=
    match find_down (fun j => share (nth j L []) (nth i L [])) i with
    | None => L
    | Some j => set_nth i [] (set_nth j (setl (nth j L [] ++ nth i L [])) L)
    end.
  (* cluster_and_starify.py:64: i = No-1, ..., 1 *)
  Definition merged (n : nat) : list (list nat) :=
    fold_left merge_step (rev (seq 1 (n - 1))) (map (idcs_of n) (seq 0 n)).
End Indices.

Section Clusters.
  Context {Obs G : Type} (M : methods Obs G) (Sh : shapely G) (setl : list nat -> list nat).
  Notation cluster := (cluster Obs G).

  (* cluster_and_starify.py:11-18 ObstacleCluster([...]); obstacles[0] of an empty list raises IndexError, but the module never
     builds an empty cluster (for [] the model has no cluster obstacle) *)
  Definition new_cluster (l : list Obs) : cluster :=
    Cluster (name_of (map (ob_id M) l)) l (match l with [o] => Some (Original o None) | _ => None end) None None None.

  (* the polygon of a cluster obstacle: obstacle.py:73-89 polygon(); starshaped_primitive_combination.py:222-226
     _compute_polygon_representation *)
  Definition obst_polygon (c : cluster_obst Obs G) : G :=
    match c with
    | Original o _ => ob_polygon M o
    | Combination l hull _ _ => sh_union Sh (map (ob_polygon M) l ++ match hull with Some h => [h] | None => [] end)
    | HullPolygon h _ _ => h
    end.
  (* cluster_and_starify.py:23-29 polygon(): fills the cache *)
  Definition read_polygon (c : cluster) : cluster * option G :=
    match c_polygon c with
    | Some g => (c, Some g)
    | None =>
        match c_obstacle c with
        | None => (c, None)
        | Some ob => let g := obst_polygon ob in
            (Cluster (c_name c) (c_obstacles c) (c_obstacle c) (c_kernel_points c) (c_admissible_kernel c) (Some g), Some g)
        end
    end.
  (* cluster_and_starify.py:23-29 the value of polygon() *)
  Definition polygon_of (c : cluster) : option G := snd (read_polygon c).

  (* cluster_and_starify.py:31-34 *)
  Definition polygon_excluding_hull (l : list Obs) : G := sh_union Sh (map (ob_polygon M) l).

  (* None.intersects raises AttributeError; the module never asks for a missing polygon (see C66) *)
  Definition polygons_meet (a b : option G) : bool :=
    match a, b with Some p, Some q => sh_intersects Sh p q | _, _ => false end.
  (* "is None" *)
  Definition missing {A} (o : option A) : bool := match o with None => true | Some _ => false end.

  (* cluster_and_starify.py:44-83 get_intersection_clusters *)
  Definition get_intersection_clusters (clusters : list cluster) : outcome (list cluster * bool) :=
    let n := List.length clusters in
    let read := map read_polygon clusters in
    let pols := map snd read in
    let inter := fun i j => polygons_meet (nth i pols None) (nth j pols None) in
    if (2 <=? n) && existsb missing pols then Raise AttributeErr
    else if intersections_exist inter n then
      let L := merged inter setl n in
      Val (flat_map (fun idcs => match idcs with
             | [] => []
             | _ => [new_cluster (flat_map (fun j => nth j (map c_obstacles clusters) []) idcs)]
             end) L, true)
    else Val (map fst read, false).
End Clusters.
