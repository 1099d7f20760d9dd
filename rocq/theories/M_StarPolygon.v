(** Model of Polygon.line_intersection (obstacles/polygon.py:73-89) and of obstacles/starshaped_polygon.py:8-183 with an
    explicit reference point.  The vertex table (vertices, vertex_angles) is a pair; the exterior ring of the shapely
    polygon, which set_xr and _update_vertex_angles do not touch, enters through the oracle [isect] (the shapely
    intersection of a segment with the ring).  np.argsort is an oracle too: its order of equal keys is unspecified.
    nearest_points (line 83) is the oracle [nearest].  The kernel (lines 13-17) is modelled in M_Kernel. *)
From Coq Require Import Reals List Bool Arith.
From Verif Require Import Num Spec M_Cg M_ConePolygon M_Motion M_Obstacle M_Ellipse M_Polygon.
Import ListNotations.
Local Open Scope R_scope.

(* geometries returned by shapely's intersection; GOther stands for a GeometryCollection *)
Inductive geom : Type :=
| GEmpty | GPoint (p : RPt) | GMultiPoint (l : list RPt) | GLine (l : list RPt) | GMultiLine (ll : list (list RPt)) | GOther (pts : list RPt) (ll : list (list RPt)).
(* polygon.py:77-88; in the last branch intersection_points_obstacle is never assigned *)
Definition geom_points (g : geom) : res (list RPt) :=
  match g with
  | GEmpty => Ret []
  | GPoint p => Ret [p]
  | GMultiPoint l => Ret l
  | GLine l => Ret l
  | GMultiLine ll => Ret (concat ll)
  | GOther _ _ => Exn UnboundErr
  end.
(* polygon.py:73-89 line_intersection *)
Definition p_line_intersection (isect : RPt -> RPt -> geom) (m : option mm) (l0 l1 : RPt) (fi fo : frame) : res (list RPt) :=
  bind (transform m l0 fi OBSTACLE) (fun l0o =>
  bind (transform m l1 fi OBSTACLE) (fun l1o =>
  bind (geom_points (isect l0o l1o)) (fun l =>
  map_res (fun p => transform m p OBSTACLE fo) l))).

(* polygon.py:14 bounds; starshaped_polygon.py:22 and :34 *)
Definition width (v : list RPt) : R := lmax (map fst v) - lmin (map fst v).
(* bounds[3] - bounds[1], starshaped_polygon.py:22, 34 *)
Definition height (v : list RPt) : R := lmax (map snd v) - lmin (map snd v).
(* starshaped_polygon.py:22 *)
Definition diam_new (v : list RPt) : R := width v + height v.
(* starshaped_polygon.py:34 *)
Definition diam_dilated (v : list RPt) : R := Rmax (width v) (height v).

(* starshaped_polygon.py:177-183 _update_vertex_angles: the sorted vertices and the angle table *)
Definition vertex_angle (xr p : RPt) : R := arctan2 (snd p - snd xr) (fst p - fst xr).
(* starshaped_polygon.py:177-183 _update_vertex_angles *)
Definition update_angles (argsort : list R -> list nat) (xr : RPt) (v : list RPt) : list RPt * list R :=
  let phi := map (vertex_angle xr) v in
  let idcs := argsort phi in
  let phi' := map (fun i => nth i phi 0) idcs in
  (map (fun i => nth i v (0, 0)) idcs, phi' ++ [nth 0 phi' 0 + 2 * PI]).

(* the attributes _motion_model, _xr, vertices, vertex_angles, enclosing_ball_diameter of starshaped_polygon.py:10-22 *)
Record starpol : Type := StarPol { s_mm : option mm; s_xr : RPt; s_vertices : list RPt; s_angles : list R; s_diam : R }.
(* starshaped_polygon.py:10-22 __init__ with an explicit xr; [v] are the vertices of the oriented exterior *)
Definition sp_new (argsort : list R -> list nat) (m : option mm) (v : list RPt) (xr : RPt) : starpol :=
  let t := update_angles argsort xr v in StarPol m xr (fst t) (snd t) (diam_new v).
(* starshaped_polygon.py:158-160 set_xr with safe_set=False *)
Definition sp_set_xr (argsort : list R -> list nat) (xr : RPt) (fi : frame) (s : starpol) : res starpol :=
  bind (transform (s_mm s) xr fi OBSTACLE) (fun x =>
  let t := update_angles argsort x (s_vertices s) in Ret (StarPol (s_mm s) x (fst t) (snd t) (s_diam s))).
(* starshaped_polygon.py:30-40 dilated_obstacle; [v'] are the vertices of the buffered polygon *)
Definition sp_dilated (argsort : list R -> list nat) (v' : list RPt) (s : starpol) : starpol :=
  let t := update_angles argsort (s_xr s) v' in StarPol (s_mm s) (s_xr s) (fst t) (snd t) (diam_dilated v').

(* starshaped_polygon.py:71-74: np.argmax of a boolean array is the first True, 0 if there is none *)
Fixpoint first_above (a : R) (l : list R) : option nat :=
  match l with [] => None | t :: r => if Rltb a t then Some 0%nat else option_map S (first_above a r) end.
(* starshaped_polygon.py:70-74 v_idx *)
Definition facing (s : starpol) (x : RPt) : nat :=
  let i := match first_above (vertex_angle (s_xr s) x) (s_angles s) with Some i => i | None => 0%nat end in
  if Nat.eqb i (length (s_vertices s)) then 0%nat else i.
(* vertices[i] *)
Definition vert (s : starpol) (i : nat) : RPt := nth i (s_vertices s) (0, 0).
(* starshaped_polygon.py:77, 81-82 *)
Definition edge_normal (u w : RPt) : RPt := (snd w - snd u, fst u - fst w).
(* starshaped_polygon.py:76, 79 the values of the argument type *)
Inductive normal_type : Type := Edge | WeightedEdges | OtherType.
(* starshaped_polygon.py:76-89 *)
Definition normal_at (nearest : RPt -> RPt -> RPt -> RPt) (s : starpol) (k : nat) (ty : normal_type) (x : RPt) : res RPt :=
  let n := length (s_vertices s) in
  match ty with
  | Edge =>
      let nv := edge_normal (vert s (pred_idx k n)) (vert s k) in
      if Reqb (np_norm nv) 0 then Exn NotFinite else Ret (scale (/ np_norm nv) nv)
  | WeightedEdges =>
      let e := map (fun i => (vert s ((k + i + 2 * n - 2) mod n), vert s ((k + i + n - 1) mod n))) [0; 1; 2]%nat in
      let d := map (fun e => np_norm (psub (nearest (fst e) (snd e) x) x)) e in
      let w := map (fun d => 1 / (d + 1 / 1000000)) d in
      let total := fold_right Rplus 0 w in
      Ret (fold_right padd (0, 0) (map (fun we => scale (fst we / total) (edge_normal (fst (snd we)) (snd (snd we)))) (combine w e)))
  | OtherType => Exn UnboundErr
  end.
(* starshaped_polygon.py:68-90 normal *)
Definition sp_normal (nearest : RPt -> RPt -> RPt -> RPt) (s : starpol) (x : RPt) (fi fo : frame) (ty : normal_type) : res RPt :=
  bind (transform (s_mm s) x fi OBSTACLE) (fun xo =>
  bind (normal_at nearest s (facing s xo) ty xo) (fun n => rotate (s_mm s) n OBSTACLE fo)).

(* starshaped_polygon.py:54-66 boundary_mapping *)
Definition sp_boundary_mapping (isect : RPt -> RPt -> geom) (s : starpol) (x : RPt) (fi fo : frame) : res (option RPt) :=
  bind (transform (s_mm s) x fi OBSTACLE) (fun xo =>
  bind (reference_direction (s_mm s) (s_xr s) xo OBSTACLE OBSTACLE) (fun d =>
  bind (p_line_intersection isect (s_mm s) (s_xr s) (padd (s_xr s) (scale (11 / 10 * s_diam s) d)) OBSTACLE OBSTACLE) (fun l =>
  match l with
  | [] => Ret None
  | [p] => bind (transform (s_mm s) p OBSTACLE fo) (fun q => Ret (Some q))
  | p :: q :: _ =>
      let best := if Rltb (np_norm (psub p xo)) (np_norm (psub q xo)) then p else q in
      bind (transform (s_mm s) best OBSTACLE fo) (fun q => Ret (Some q))
  end))).
(* starshaped_polygon.py:42-51 distance_function; None - xr is a TypeError *)
Definition sp_distance_function (isect : RPt -> RPt -> geom) (s : starpol) (x : RPt) (fi : frame) : res R :=
  bind (transform (s_mm s) x fi OBSTACLE) (fun xo =>
  let dc := np_norm (psub xo (s_xr s)) in
  bind (sp_boundary_mapping isect s xo OBSTACLE OBSTACLE) (fun ob =>
  match ob with
  | None => Exn TypeErr
  | Some b =>
      let lr := np_norm (psub b (s_xr s)) in
      if Rltb dc lr then Ret ((dc / lr) ^ 2) else Ret (((dc - lr) + 1) ^ 2)
  end)).

(** What is assumed of the shapely intersection: the geometry [g] is that of the point set [A], with the type shapely
    chooses for it (isolated points, lines, or both). *)
Definition on_chain (l : list RPt) (p : RPt) : Prop := exists a b, In (a, b) (combine l (tl l)) /\ on_seg a b p.
(* not code: the coordinates of a LineString with different consecutive points *)
Definition proper_chain (l : list RPt) : Prop := (2 <= length l)%nat /\ forall a b, In (a, b) (combine l (tl l)) -> a <> b.
(* not code: what shapely promises, used as a hypothesis *)
Definition describes (g : geom) (A : RPt -> Prop) : Prop :=
  match g with
  | GEmpty => forall p, ~ A p
  | GPoint q => forall p, A p <-> p = q
  | GMultiPoint l => (2 <= length l)%nat /\ NoDup l /\ forall p, A p <-> In p l
  | GLine l => proper_chain l /\ forall p, A p <-> on_chain l p
  | GMultiLine ll => ll <> [] /\ Forall proper_chain ll /\ forall p, A p <-> exists l, In l ll /\ on_chain l p
  | GOther pts ll => pts <> [] /\ ll <> [] /\ Forall proper_chain ll /\ forall p, A p <-> In p pts \/ exists l, In l ll /\ on_chain l p
  end.
