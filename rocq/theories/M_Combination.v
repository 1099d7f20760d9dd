(** Model of obstacles/starshaped_primitive_combination.py (without drawing) and of the methods it inherits from
    starshaped_obstacle.py.  The members are any obstacles: they enter through their methods, evaluated in the global
    frame.  The hull enters through the shapely predicates used.  The class ignores its frame arguments; the motion model
    is None (cluster_and_starify never passes one). *)
From Coq Require Import Reals List Bool Arith ZArith.
From Verif Require Import Num M_Cg M_ConePolygon M_Motion M_Obstacle M_Ellipse M_Polygon M_StarPolygon.
Import ListNotations.
Local Open Scope R_scope.

(* the methods of a member; vel_intertial_frame and normal exist for starshaped members only *)
Record member : Type := Member {
  mb_location : RPt -> res R;
  mb_line_intersection : RPt -> RPt -> res (list RPt);
  mb_tangent_points : RPt -> res (list RPt);
  mb_vel : RPt -> res RPt;
  mb_normal : RPt -> res (option RPt) }.
(* Ellipse, StarshapedPolygon and Polygon as members; the last has neither vel_intertial_frame nor normal *)
Definition ellipse_member (E : ellipse) : member :=
  Member (fun x => e_point_location E x GLOBAL) (fun a b => e_line_intersection E a b GLOBAL GLOBAL)
    (fun x => e_tangent_points E x GLOBAL GLOBAL) (vel_intertial_frame (e_mm E) (e_xr E)) (fun x => e_normal E x GLOBAL GLOBAL false).
(* polygon.py: the methods of Polygon as modelled in M_Polygon and M_StarPolygon *)
Definition polygon_member (contains on_exterior : RPt -> bool) (isect : RPt -> RPt -> geom) (m : option mm) (v : list RPt) : member :=
  Member (fun x => p_point_location contains on_exterior m v x GLOBAL) (fun a b => p_line_intersection isect m a b GLOBAL GLOBAL)
    (fun x => p_tangent_points m v x GLOBAL GLOBAL) (fun _ => Exn AttributeErr) (fun _ => Exn AttributeErr).
(* starshaped_polygon.py: the methods of StarshapedPolygon as modelled in M_StarPolygon *)
Definition star_polygon_member (contains on_exterior : RPt -> bool) (isect : RPt -> RPt -> geom)
    (nearest : RPt -> RPt -> RPt -> RPt) (v : list RPt) (s : starpol) : member :=
  Member (fun x => p_point_location contains on_exterior (s_mm s) v x GLOBAL) (fun a b => p_line_intersection isect (s_mm s) a b GLOBAL GLOBAL)
    (fun x => p_tangent_points (s_mm s) v x GLOBAL GLOBAL) (vel_intertial_frame (s_mm s) (s_xr s))
    (fun x => bind (sp_normal nearest s x GLOBAL GLOBAL Edge) (fun n => Ret (Some n))).
(* the shapely polygon _hull_cluster: contains, disjoint, intersection of a segment with the exterior, exterior vertices *)
Record hull_geom : Type := HullGeom {
  hg_contains : RPt -> bool;
  hg_disjoint : RPt -> bool;
  hg_isect : RPt -> RPt -> geom;
  hg_vertices : list RPt }.
(* [cb_polygon]: exterior vertices of _polygon once computed; [cb_table]: vertices and vertex_angles *)
Record comb : Type := Comb {
  cb_members : list member;
  cb_hull : option hull_geom;
  cb_xr : RPt;
  cb_polygon : option (list RPt);
  cb_table : option (list RPt * list R) }.
(* starshaped_primitive_combination.py:10-16 *)
Definition cb_new (l : list member) (h : option hull_geom) (xr : RPt) : comb := Comb l h xr None None.

(* starshaped_primitive_combination.py:182-190 _hull_cluster_point_location *)
Definition hull_location (h : option hull_geom) (x : RPt) : R :=
  match h with
  | None => 1
  | Some g => if hg_contains g x then -1 else if hg_disjoint g x then 1 else 0
  end.
(* starshaped_primitive_combination.py:27-37 point_location *)
Definition cb_point_location (c : comb) (x : RPt) : res R :=
  bind (map_res (fun o => mb_location o x) (cb_members c)) (fun ls =>
  let locs := ls ++ [hull_location (cb_hull c) x] in
  if existsb (fun l => Rltb l 0) locs then Ret (-1)
  else if existsb (fun l => Reqb l 0) locs then Ret 0 else Ret 1).

(* starshaped_primitive_combination.py:192-210 _hull_cluster_line_intersections; the last branch prints and returns None *)
Definition hull_points (h : option hull_geom) (l0 l1 : RPt) : option (list RPt) :=
  match h with
  | None => Some []
  | Some g =>
      match hg_isect g l0 l1 with
      | GEmpty => Some []
      | GPoint p => Some [p]
      | GMultiPoint l => Some l
      | GLine l => Some l
      | GMultiLine ll => Some (concat ll)
      | GOther _ _ => None
      end
  end.
(* starshaped_primitive_combination.py:39-44 line_intersection; list += None is a TypeError *)
Definition cb_line_intersection (c : comb) (l0 l1 : RPt) : res (list RPt) :=
  bind (map_res (fun o => mb_line_intersection o l0 l1) (cb_members c)) (fun ls =>
  match hull_points (cb_hull c) l0 l1 with
  | None => Exn TypeErr
  | Some l => Ret (concat ls ++ l)
  end).

(* "j is not i" compares objects: CPython shares the ints up to 256, the two ranges make separate objects beyond *)
Definition same_int (i j : nat) : bool := Nat.eqb i j && Nat.leb i 256.
(* starshaped_primitive_combination.py:52 (53): all([is_ccw(x, tp[i], tp[j]) for j ... if j is not i]) *)
Definition all_others (cmp : RPt -> RPt -> RPt -> bool) (x : RPt) (cs : list RPt) (i : nat) : bool :=
  forallb (fun j => same_int i j || cmp x (nth i cs (0, 0)) (nth j cs (0, 0))) (seq 0 (length cs)).
(* starshaped_primitive_combination.py:52-53 *)
Definition extreme_candidate (x : RPt) (cs : list RPt) (i : nat) : bool := all_others is_ccw x cs i || all_others is_cw x cs i.
(* starshaped_primitive_combination.py:47-55 tangent_points *)
Definition extreme_candidates (x : RPt) (cs : list RPt) : list RPt :=
  map (fun i => nth i cs (0, 0)) (filter (extreme_candidate x cs) (seq 0 (length cs))).
(* starshaped_primitive_combination.py:47-55 tangent_points *)
Definition cb_tangent_points (c : comb) (x : RPt) : res (list RPt) :=
  bind (map_res (fun o => mb_tangent_points o x) (cb_members c)) (fun ls => Ret (extreme_candidates x (concat ls))).

(* starshaped_primitive_combination.py:63-69 boundary_mapping: first index of the largest distance *)
Definition probe_end (xr x : RPt) : RPt := padd xr (scale 10 (psub x xr)).
(* starshaped_primitive_combination.py:63-69 boundary_mapping *)
Definition cb_boundary_mapping (c : comb) (x : RPt) : res (option RPt) :=
  bind (cb_line_intersection c (cb_xr c) (probe_end (cb_xr c) x)) (fun l =>
  match l with
  | [] => Ret None
  | _ => Ret (Some (nth (argmax (map (fun ip => np_norm (psub ip (cb_xr c))) l)) l (0, 0)))
  end).
(* starshaped_obstacle.py:38-43 distance_function; None - xr is a TypeError *)
Definition cb_distance_function (c : comb) (x : RPt) : res R :=
  bind (cb_boundary_mapping c x) (fun ob =>
  match ob with
  | None => Exn TypeErr
  | Some b => let d := np_norm (psub b (cb_xr c)) in
              if Reqb d 0 then Exn NotFinite else Ret ((np_norm (psub x (cb_xr c)) / d) ^ 2)
  end).

(* starshaped_primitive_combination.py:71-81 vel_intertial_frame; [ps] is one point, so [p] runs over its two coordinates and p - xr subtracts xr from a number *)
Definition coordinate_dist (xr : RPt) (s : R) : R := np_norm (s - fst xr, s - snd xr).
(* starshaped_primitive_combination.py:71-81 the largest key of one point, started at -1 *)
Definition point_key (xr p : RPt) : R := Rmax (Rmax (coordinate_dist xr (fst p)) (coordinate_dist xr (snd p))) (-1).
(* starshaped_primitive_combination.py:71-81 the loop that selects a member *)
Fixpoint best_index (xr : RPt) (best : nat) (max_dist : R) (i : nat) (l : list RPt) : nat :=
  match l with
  | [] => best
  | p :: r => if Rltb max_dist (point_key xr p) then best_index xr i (point_key xr p) (S i) r
              else best_index xr best max_dist (S i) r
  end.
(* starshaped_primitive_combination.py:71-81 vel_intertial_frame *)
Definition cb_vel (c : comb) (x : RPt) : res RPt :=
  bind (cb_line_intersection c (cb_xr c) (probe_end (cb_xr c) x)) (fun l =>
  let n := length (cb_members c) in
  let k := best_index (cb_xr c) 0 (-1) 0 l in
  match nth_error (cb_members c) (if Nat.leb n k then k - n else k) with
  | None => Exn IndexErr
  | Some o => mb_vel o x
  end).

(* starshaped_primitive_combination.py:212-220 _update_vertex_angles; None.exterior is an AttributeError *)
Definition cb_update_angles (argsort : list R -> list nat) (c : comb) : res comb :=
  match cb_polygon c with
  | None => Exn AttributeErr
  | Some v => Ret (Comb (cb_members c) (cb_hull c) (cb_xr c) (cb_polygon c) (Some (update_angles argsort (cb_xr c) v)))
  end.
(* obstacle.py:73-77 polygon() with 222-226: the union is computed once; [union] gives its exterior vertices now *)
Definition cb_read_polygon (union : list RPt) (c : comb) : comb * list RPt :=
  match cb_polygon c with
  | Some v => (c, v)
  | None => (Comb (cb_members c) (cb_hull c) (cb_xr c) (Some union) (cb_table c), union)
  end.
(* starshaped_primitive_combination.py:153-155 set_xr, safe_set=False: the reference point is set before the table is updated *)
Definition cb_set_xr (argsort : list R -> list nat) (xr : RPt) (c : comb) : comb * res unit :=
  let c' := Comb (cb_members c) (cb_hull c) xr (cb_polygon c) (cb_table c) in
  match cb_update_angles argsort c' with Ret c'' => (c'', Ret tt) | Exn e => (c', Exn e) end.

(* starshaped_primitive_combination.py:84-101: the member or the hull whose intersection point is farthest *)
Fixpoint far_point (xr : RPt) (i : nat) (l : list RPt) (acc : nat * R) : nat * R :=
  match l with
  | [] => acc
  | p :: r => let d := np_norm (psub p xr) in far_point xr i r (if Rltb (snd acc) d then (i, d) else acc)
  end.
(* starshaped_primitive_combination.py:84-101 the outer loop *)
Fixpoint far_member (xr : RPt) (i : nat) (ls : list (list RPt)) (acc : nat * R) : nat * R :=
  match ls with [] => acc | l :: r => far_member xr (S i) r (far_point xr i l acc) end.
(* starshaped_primitive_combination.py:84-101 the selected index *)
Definition sub_index (c : comb) (x : RPt) : res nat :=
  bind (map_res (fun o => mb_line_intersection o (cb_xr c) (probe_end (cb_xr c) x)) (cb_members c)) (fun ls =>
  let acc := far_member (cb_xr c) 0 ls (0%nat, -1) in
  match hull_points (cb_hull c) (cb_xr c) (probe_end (cb_xr c) x) with
  | Some l => Ret (fst (far_point (cb_xr c) (length (cb_members c)) l acc))
  | None => Ret (fst acc)
  end).

(* starshaped_primitive_combination.py:83, 84, 124, 133 the values of the argument type *)
Inductive comb_normal : Type := SubNormal | PolygonApprox | WeightedApprox | OtherNormal.
(* starshaped_primitive_combination.py:122, 150 n / np.linalg.norm(n); 0 / 0 is NotFinite *)
Definition normalised (n : RPt) : res (option RPt) :=
  if Reqb (np_norm n) 0 then Exn NotFinite else Ret (Some (scale (/ np_norm n) n)).
(* starshaped_primitive_combination.py:105-123; index -1 of the closed list of vertices is the first vertex again, -2 the last one *)
Definition hull_normal (argsort : list R -> list nat) (xr : RPt) (hull : list RPt) (x : RPt) : res (option RPt) :=
  let '(v, phi) := update_angles argsort xr hull in
  let circ := v ++ [nth 0 v (0, 0)] in
  let k := match first_above (vertex_angle xr x) phi with Some i => i | None => 0%nat end in
  let k' := if Nat.eqb k 0 then length v else k in
  normalised (edge_normal (nth (k' - 1) circ (0, 0)) (nth k' circ (0, 0))).
(* starshaped_primitive_combination.py:124-151 *)
Definition approx_normal (nearest : RPt -> RPt -> RPt -> RPt) (ty : comb_normal) (xr : RPt) (t : list RPt * list R) (x : RPt) : res (option RPt) :=
  let s := StarPol None xr (fst t) (snd t) 0 in
  let n := length (fst t) in
  let k := facing s x in
  match ty with
  | PolygonApprox => normalised (edge_normal (vert s (pred_idx k n)) (vert s k))
  | _ =>
      let e := map (fun i => (vert s ((k + i + 2 * n - 2) mod n), vert s ((k + i + n - 1) mod n))) [0; 1; 2]%nat in
      let w := map (fun e => 1 / (np_norm (psub (nearest (fst e) (snd e) x) x) + 1 / 10000000000)) e in
      let total := fold_right Rplus 0 w in
      normalised (fold_right padd (0, 0) (map (fun we => scale (fst we / total) (edge_normal (fst (snd we)) (snd (snd we)))) (combine w e)))
  end.
(* starshaped_primitive_combination.py:83-151 normal; an unknown type falls through and returns None *)
Definition cb_normal (argsort : list R -> list nat) (nearest : RPt -> RPt -> RPt -> RPt) (c : comb) (x : RPt) (ty : comb_normal) : res (option RPt) :=
  match ty with
  | SubNormal =>
      bind (sub_index c x) (fun k =>
      match nth_error (cb_members c) k with
      | Some o => mb_normal o x
      | None => match cb_hull c with
                | None => Exn AttributeErr
                | Some g => hull_normal argsort (cb_xr c) (hg_vertices g) x
                end
      end)
  | OtherNormal => Ret None
  | _ =>
      bind (match cb_table c with
            | Some t => Ret t
            | None => bind (cb_update_angles argsort c) (fun c' => match cb_table c' with Some t => Ret t | None => Exn AttributeErr end)
            end) (fun t => approx_normal nearest ty (cb_xr c) t x)
  end.
