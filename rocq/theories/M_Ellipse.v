(** Model of obstacles/ellipse.py.  Divisions by the axes a[0], a[1] and by kx2 (line 130) are plain divisions:
    the theorems assume positive axes.  The shapely buffer in dilated_obstacle (line 31) is not modelled. *)
From Coq Require Import Reals List Bool Arith.
From Verif Require Import Num M_Cg M_Motion M_Obstacle.
Import ListNotations.
Local Open Scope R_scope.

(* ellipse.py:10-18: _a, _n_pol; obstacle.py _motion_model; starshaped_obstacle.py _xr *)
Record ellipse : Type := Ell { e_a : RPt; e_n : nat; e_mm : option mm; e_xr : RPt }.

(* ellipse.py:18 enclosing_ball_diameter *)
Definition e_diam (E : ellipse) : R := Rmax (2 * fst (e_a E)) (2 * snd (e_a E)).

(* ellipse.py:25-35 dilated_obstacle: the copy gets its own array of axes and the same motion model *)
Definition e_dilated (E : ellipse) (padding : R) : ellipse :=
  Ell (fst (e_a E) + padding, snd (e_a E) + padding) (e_n E) (e_mm E) (e_xr E).

(* ellipse.py:92, x in the obstacle frame *)
Definition ell_loc (a x : RPt) : R := (fst x / fst a) ^ 2 + (snd x / snd a) ^ 2 - 1.
(* ellipse.py:90-93 point_location *)
Definition e_point_location (E : ellipse) (x : RPt) (fi : frame) : res R :=
  bind (transform (e_mm E) x fi OBSTACLE) (fun xo => Ret (ell_loc (e_a E) xo)).

(* transform of each returned point *)
Fixpoint map_res {A B} (f : A -> res B) (l : list A) : res (list B) :=
  match l with
  | [] => Ret []
  | x :: r => bind (f x) (fun y => bind (map_res f r) (fun ys => Ret (y :: ys)))
  end.

(* ellipse.py:110-127: the special case of a vertical line, in the obstacle frame *)
Definition ell_vertical (a ll lr : RPt) : list RPt :=
  if Rltb (fst lr) (- fst a) || Rltb (fst a) (fst lr) then []
  else
    let top := if Rltb (snd ll) (snd lr) then lr else ll in
    let bottom := if Rltb (snd ll) (snd lr) then ll else lr in
    let x_top := (0, snd a) in
    let x_bottom := (0, - snd a) in
    if Rleb (snd a) (snd top) && Rleb (snd bottom) (- snd a) then [x_top; x_bottom]
    else if Rleb (snd a) (snd top) && Rleb (snd bottom) (snd a) then [x_top]
    else if Rleb (- snd a) (snd top) && Rleb (snd bottom) (- snd a) then [x_bottom]
    else [].

(* ellipse.py:129-161: the line y = m x + c *)
Definition ell_sloped (a ll lr : RPt) (m c : R) : list RPt :=
  let a20 := fst a ^ 2 in
  let a21 := snd a ^ 2 in
  let kx2 := a20 * m ^ 2 + a21 in
  let kx := 2 * a20 * m * c in
  let k1 := a20 * (c ^ 2 - a21) in
  let discriminant := a20 * m ^ 2 + a21 - c ^ 2 in
  if Rltb discriminant 0 then []
  else if Reqb discriminant 0 then
    let tmp_x := - kx / (2 * kx2) in [(tmp_x, m * tmp_x + c)]
  else
    let in_sqrt0 := kx ^ 2 / (4 * kx2 ^ 2) - k1 / kx2 in
    let in_sqrt := if np_isclose in_sqrt0 0 (1 / 100000) (1 / 100000000) then 0 else in_sqrt0 in
    let xl := - kx / (2 * kx2) - sqrt in_sqrt in
    let xr := - kx / (2 * kx2) + sqrt in_sqrt in
    let left := (xl, m * xl + c) in
    let right := (xr, m * xr + c) in
    if Rltb (fst lr) xl || Rltb xr (fst ll) || (Rltb xl (fst ll) && Rltb (fst ll) (fst lr) && Rltb (fst lr) xr) then []
    else if Rltb xl (fst ll) then [right]
    else if Rltb (fst lr) xr then [left]
    else [left; right].

(* ellipse.py:99-161 line_intersection, in the obstacle frame *)
Definition ell_line (a l0 l1 : RPt) : list RPt :=
  let ll := if Rltb (fst l0) (fst l1) then l0 else l1 in
  let lr := if Rltb (fst l0) (fst l1) then l1 else l0 in
  let m := (snd lr - snd ll) / (fst lr - fst ll) in
  let c := snd ll - m * fst ll in
  let vertical := if Rltb (Rabs (fst lr - fst ll)) (1 / 10000) then true else Rltb 100 (Rabs m) in
  if vertical then ell_vertical a ll lr else ell_sloped a ll lr m c.
(* ellipse.py:95-161 line_intersection *)
Definition e_line_intersection (E : ellipse) (l0 l1 : RPt) (fi fo : frame) : res (list RPt) :=
  bind (transform (e_mm E) l0 fi OBSTACLE) (fun l0o =>
  bind (transform (e_mm E) l1 fi OBSTACLE) (fun l1o =>
  map_res (fun p => transform (e_mm E) p OBSTACLE fo) (ell_line (e_a E) l0o l1o))).

(* ellipse.py:67-80 boundary_mapping *)
Definition e_boundary_mapping (E : ellipse) (x : RPt) (fi fo : frame) : res (option RPt) :=
  bind (transform (e_mm E) x fi OBSTACLE) (fun xo =>
  bind (reference_direction (e_mm E) (e_xr E) xo OBSTACLE OBSTACLE) (fun d =>
  bind (e_line_intersection E (e_xr E) (padd (e_xr E) (scale (11 / 10 * e_diam E) d)) OBSTACLE OBSTACLE) (fun l =>
  match l with
  | [] => Ret None
  | [p] => bind (transform (e_mm E) p OBSTACLE fo) (fun q => Ret (Some q))
  | p :: q :: _ =>
      let best := if Rltb (np_norm (psub p xo)) (np_norm (psub q xo)) then p else q in
      bind (transform (e_mm E) best OBSTACLE fo) (fun q => Ret (Some q))
  end))).

(* ellipse.py:82-88 normal *)
Definition ell_normal (a b : RPt) : res RPt :=
  let n := (snd a ^ 2 * fst b, fst a ^ 2 * snd b) in
  if Reqb (np_norm n) 0 then Exn NotFinite else Ret (scale (/ np_norm n) n).
(* ellipse.py:82-88 normal *)
Definition e_normal (E : ellipse) (x : RPt) (fi fo : frame) (x_is_boundary : bool) : res (option RPt) :=
  bind (if x_is_boundary then bind (transform (e_mm E) x fi OBSTACLE) (fun b => Ret (Some b))
        else e_boundary_mapping E x fi OBSTACLE) (fun ob =>
  match ob with
  | None => Ret None
  | Some b => bind (ell_normal (e_a E) b) (fun n => bind (rotate (e_mm E) n OBSTACLE fo) (fun r => Ret (Some r)))
  end).

(* ellipse.py:167-192, in the obstacle frame; None: a division by zero *)
Definition ell_tangent_at (a x : RPt) (m : R) : RPt :=
  let tmp := snd a ^ 2 / fst a ^ 2 in
  let x1 := (fst x * m ^ 2 - snd x * m) / (tmp + m ^ 2) in
  (x1, m * (x1 - fst x) + snd x).
(* ellipse.py:167-192 tangent_points in the obstacle frame *)
Definition ell_tangents (a x : RPt) : option (RPt * RPt) :=
  let px := fst x in let py := snd x in
  let a20 := fst a ^ 2 in let a21 := snd a ^ 2 in
  if Rltb (Rabs (a20 - px ^ 2)) (1 / 100000) then
    if Reqb (2 * px * py) 0 then None
    else Some ((px, 0), ell_tangent_at a x ((py ^ 2 - a21) / (2 * px * py)))
  else
    let tmp := px ^ 2 - a20 in
    let c1 := px * py / tmp in
    let c2 := (a21 - py ^ 2) / tmp in
    let s := sqrt (c1 ^ 2 + c2) in
    Some (ell_tangent_at a x (c1 + s), ell_tangent_at a x (c1 - s)).
(* ellipse.py:163-200 tangent_points; is_ccw is called with x as given (in the input frame) *)
Definition e_tangent_points (E : ellipse) (x : RPt) (fi fo : frame) : res (list RPt) :=
  bind (transform (e_mm E) x fi OBSTACLE) (fun xo =>
  if negb (exterior_point (ell_loc (e_a E) xo)) then Ret []
  else match ell_tangents (e_a E) xo with
       | None => Exn NotFinite
       | Some (t1, t2) =>
           bind (transform (e_mm E) t1 OBSTACLE fo) (fun tp1 =>
           bind (transform (e_mm E) t2 OBSTACLE fo) (fun tp2 =>
           Ret (if is_ccw x tp1 tp2 then [tp2; tp1] else [tp1; tp2])))
       end).

(* ellipse.py:212-217 _compute_polygon_representation; linspace(0, 2 pi, n, endpoint=False) *)
Definition ell_polygon (a : RPt) (n : nat) : list RPt :=
  map (fun k => let t := INR k * (2 * PI / INR n) in
                ((fst a + 1 / 1000) * cos t, (snd a + 1 / 1000) * sin t)) (seq 0 n).
