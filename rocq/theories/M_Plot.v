(** Model of the plotting methods: obstacles/ellipse.py:37-65, obstacles/polygon.py:20-49, obstacles/starshaped_polygon.py:162-175,
    obstacles/starshaped_primitive_combination.py:157-180, utils/misc.py:17-39 and starshaped_hull/cluster_and_starify.py:483-500.
    The things matplotlib draws are values; a method that changes them returns the changed list. Colours, axis limits and the axes themselves
    are left out. A shapely polygon is its list of exterior coordinates without the repeated last one (matplotlib closes a polygon patch). *)
From Coq Require Import String Reals List Bool Arith.
From Verif Require Import Num M_Cg M_Motion M_Obstacle M_Polygon.
Import ListNotations.
Local Open Scope R_scope.

(* patches.Ellipse (the angle in degrees), patches.Polygon, the line of ax.plot with one point, ax.text *)
Inductive artist : Type :=
| AEllipse (center : RPt) (width height angle : R)
| APatch (xy : list RPt)
| AMark (p : RPt)
| AText (p : RPt) (s : string).
(* line_handles: the entries are artists or None *)
Definition handles : Type := list (option artist).

(* the attributes read by the plotting methods: _a or _polygon, _name, _motion_model, _xr *)
Inductive shape : Type := SEllipse (a : RPt) | SPolygon (ring : list RPt) | SStar (ring : list RPt).
(* the attributes of an obstacle that are read by the plotting methods *)
Record drawn : Type := Drawn { d_shape : shape; d_name : string; d_mm : option mm; d_xr : RPt }.

(* obstacle.py:46-56 pos(frame) and rot(frame); None for an unknown frame *)
Definition frame_pose (m : option mm) (f : frame) : option (RPt * R) :=
  match f, m with
  | OBSTACLE, _ | _, None => Some ((0, 0), 0)
  | GLOBAL, Some m' => Some (m_pos m', m_rot m')
  | OTHER, Some _ => None
  end.
(* np.rad2deg *)
Definition rad2deg (r : R) : R := r * 180 / PI.

(* "if show else [None]" *)
Definition shown (show : bool) (a : artist) : option artist := if show then Some a else None.
(* ellipse.py:37-51, polygon.py:20-33, starshaped_polygon.py:162-168 init_plot; [rand] are the three random points of polygon.py:29; a Polygon has no
   reference point and ignores show_reference (polygon.py:25-26) *)
Definition init_plot (o : drawn) (show_reference show_name : bool) (rand : list RPt) : handles :=
  match d_shape o with
  | SEllipse a => [Some (AEllipse (0, 0) (2 * fst a) (2 * snd a) 0); shown show_reference (AMark (d_xr o)); shown show_name (AText (d_xr o) (d_name o))]
  | SPolygon _ => [Some (APatch rand); shown show_name (AText (0, 0) (d_name o))]
  | SStar _ => [Some (APatch rand); shown show_name (AText (0, 0) (d_name o)); shown show_reference (AMark (0, 0))]
  end.

(* starshaped_obstacle.py:16-17 xr(frame) *)
Definition frame_xr (o : drawn) (f : frame) : res RPt := transform (d_mm o) (d_xr o) OBSTACLE f.
(* "if line_handles[i] is not None: line_handles[i].set_data(x, y)" and set_position; a text has no set_data, a line no set_position *)
Definition set_data (h : option artist) (p : res RPt) : res (option artist) :=
  match h with
  | None => Ret None
  | Some (AMark _) => bind p (fun q => Ret (Some (AMark q)))
  | Some _ => Exn AttributeErr
  end.
(* set_position of a text *)
Definition set_position (h : option artist) (p : res RPt) : res (option artist) :=
  match h with
  | None => Ret None
  | Some (AText _ s) => bind p (fun q => Ret (Some (AText q s)))
  | Some _ => Exn AttributeErr
  end.
(* ellipse.py:53-60, polygon.py:39-44, starshaped_polygon.py:170-175 update_plot. Simplification: the first handle is an ellipse (a polygon) patch; other
   lists of handles give AttributeErr, too short ones IndexErr. np.rad2deg(None) raises TypeError *)
Definition update_plot (o : drawn) (h : handles) (f : frame) : res handles :=
  match d_shape o, h with
  | SEllipse a, Some (AEllipse _ w ht _) :: h1 :: h2 :: r =>
      match frame_pose (d_mm o) f with
      | None => Exn TypeErr
      | Some (pos, rot) =>
          bind (set_data h1 (frame_xr o f)) (fun h1' => bind (set_position h2 (frame_xr o f)) (fun h2' => Ret (Some (AEllipse pos w ht (rad2deg rot)) :: h1' :: h2' :: r)))
      end
  | SPolygon ring, Some (APatch _) :: h1 :: r =>
      bind (extreme_points (d_mm o) ring f) (fun xy =>
      match frame_pose (d_mm o) f with
      | None => Exn TypeErr
      | Some (pos, _) => bind (set_position h1 (Ret pos)) (fun h1' => Ret (Some (APatch xy) :: h1' :: r))
      end)
  | SStar ring, Some (APatch _) :: h1 :: h2 :: r =>
      bind (extreme_points (d_mm o) ring f) (fun xy =>
      bind (set_position h1 (frame_xr o f)) (fun h1' => bind (set_data h2 (frame_xr o f)) (fun h2' => Ret (Some (APatch xy) :: h1' :: h2' :: r))))
  | _, _ :: _ :: _ :: _ => Exn AttributeErr
  | _, _ => Exn IndexErr
  end.
(* ellipse.py:62-65, polygon.py:46-49 draw *)
Definition draw (o : drawn) (f : frame) (show_reference show_name : bool) (rand : list RPt) : res handles :=
  update_plot o (init_plot o show_reference show_name rand) f.

(** *** StarshapedPrimitiveCombination *)
(* what misc.py:22-27 tells apart: a Polygon; a geometry with .geoms, whose parts are polygons or not (None); a LineString or Point *)
Inductive sgeom : Type := GPolygon (ring : list RPt) | GMulti (parts : list (option (list RPt))) | GSimple.
(* misc.py:22-27 pol_list *)
Definition polygon_parts (g : sgeom) : res (list (list RPt)) :=
  match g with
  | GPolygon r => Ret [r]
  | GMulti ps => Ret (flat_map (fun p => match p with Some r => [r] | None => [] end) ps)
  | GSimple => Exn AttributeErr
  end.
(* p.exterior of misc.py:33: only a Polygon has one *)
Definition exterior (g : sgeom) : res (list RPt) := match g with GPolygon r => Ret r | _ => Exn AttributeErr end.
(* the loop of misc.py:28-34 *)
Fixpoint draw_parts (clip : option (list RPt -> sgeom)) (l : list (list RPt)) : res handles :=
  match l with
  | [] => Ret []
  | r :: t => bind (match clip with None => Ret r | Some c => exterior (c r) end) (fun xy => bind (draw_parts clip t) (fun hs => Ret (Some (APatch xy) :: hs)))
  end.
(* misc.py:17-39 draw_shapely_polygon; [clip]: the intersection with the box when both limits are given *)
Definition draw_shapely_polygon (g : sgeom) (clip : option (list RPt -> sgeom)) : res handles := bind (polygon_parts g) (draw_parts clip).

(* the polygon and the reference point of a combination, starshaped_primitive_combination.py:222-226, starshaped_obstacle.py:11 (it has no motion model unless given one) *)
Record combined : Type := Combined { cb_polygon : sgeom; cb_name : string; cb_xr : RPt }.
(* starshaped_primitive_combination.py:157-172 *)
Definition comb_init_plot (o : combined) (show_reference show_name : bool) : res handles :=
  bind (draw_shapely_polygon (cb_polygon o) None) (fun hs => Ret (hs ++ [shown show_reference (AMark (cb_xr o)); shown show_name (AText (cb_xr o) (cb_name o))])).
(* starshaped_primitive_combination.py:174-175: does nothing, and has no argument for a frame *)
Definition comb_update_plot (o : combined) (h : handles) (f : option frame) : res handles := match f with None => Ret h | Some _ => Exn TypeErr end.
(* starshaped_primitive_combination.py:177-180 *)
Definition comb_draw (o : combined) (show_reference show_name : bool) : res handles :=
  bind (comb_init_plot o show_reference show_name) (fun h => comb_update_plot o h None).

(** *** cluster_and_starify.py:483-500 draw_adm_ker *)
(* cluster_and_starify.py:485 int(np.sqrt(n)) + 1; simplification: the square root is not rounded before it is cut down to an integer *)
Definition n_col (n : nat) : nat := (Nat.sqrt n + 1)%nat.
(* what is read of a cluster: admissible_kernel and kernel_points (three points whenever they are set, C74; fewer make shapely.geometry.Polygon raise) *)
Record kernel_view : Type := KernelView { kv_kernel : option sgeom; kv_points : option (RPt * RPt * RPt) }.
(* cluster_and_starify.py:484: the clusters shown, with their kernel; [is_empty] is that of shapely *)
Definition valid_kernels (is_empty : sgeom -> bool) (l : list kernel_view) : list (sgeom * option (RPt * RPt * RPt)) :=
  flat_map (fun k => match kv_kernel k with Some g => if is_empty g then [] else [(g, kv_points k)] | None => [] end) l.
(* cluster_and_starify.py:490-493: the patches of the kernel and of the triangle; [is_point]: geom_type == 'Point' *)
Definition kernel_patches (is_point : sgeom -> bool) (g : sgeom) (kp : option (RPt * RPt * RPt)) : res handles :=
  if is_point g then Ret [] else
  bind (draw_shapely_polygon g None) (fun h =>
  match kp with
  | None => Ret h
  | Some (a, b, c) => bind (draw_shapely_polygon (GPolygon [a; b; c]) None) (fun h' => Ret (h ++ h'))
  end).
(* cluster_and_starify.py:487-493: row and column of the axes, and the patches; the drawing of the obstacles (489) and of the two points (494-495) is left out *)
Fixpoint adm_ker_cells (is_point : sgeom -> bool) (n i : nat) (l : list (sgeom * option (RPt * RPt * RPt))) : res (list (nat * nat * handles)) :=
  match l with
  | [] => Ret []
  | (g, kp) :: r => bind (kernel_patches is_point g kp) (fun h =>
                    bind (adm_ker_cells is_point n (S i) r) (fun t => Ret ((i / n, i mod n, h)%nat :: t)))
  end.
(* cluster_and_starify.py:483-500: the number of rows and columns, and what is drawn where *)
Definition draw_adm_ker (is_empty is_point : sgeom -> bool) (l : list kernel_view) : res (nat * list (nat * nat * handles)) :=
  let valid := valid_kernels is_empty l in
  let n := n_col (List.length valid) in
  bind (adm_ker_cells is_point n 0 valid) (fun cells => Ret (n, cells)).
