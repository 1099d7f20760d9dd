(** Model of obstacles/polygon.py.  A polygon is the list of the vertices of its oriented exterior ring
    (polygon.py:13-17), in the obstacle frame.  The shapely predicates contains / exterior.contains are parameters.
    line_intersection and dilated_obstacle are shapely calls and are not modelled. *)
From Coq Require Import Reals List Bool Arith.
From Verif Require Import Num M_Cg M_ConePolygon M_Motion M_Obstacle.
Import ListNotations.
Local Open Scope R_scope.

(* polygon.py:18 circular_vertices: exterior.coords, the first vertex repeated at the end *)
Definition circular (v : list RPt) : list RPt := match v with [] => [] | p :: _ => v ++ [p] end.

(* polygon.py:95-96: arctan2, negative angles advanced by 2 pi *)
Definition angle_to (x p : RPt) : R :=
  let t := arctan2 (snd p - snd x) (fst p - fst x) in if Rltb t 0 then t + 2 * PI else t.

(* polygon.py:100-111: phi[i+1:] is lowered (raised) by 2 pi where diff(phi)[i] > pi (< -pi); [off] is the sum of the
   corrections so far, [prev] the uncorrected angle of the previous vertex *)
Fixpoint unwrap (off prev : R) (l : list R) : list R :=
  match l with
  | [] => []
  | q :: r =>
      let d := q - prev in
      let off' := if Rltb PI d then off - 2 * PI else if Rltb d (- PI) then off + 2 * PI else off in
      (q + off') :: unwrap off' q r
  end.
(* polygon.py:99-111 the corrected phi *)
Definition unwrapped (l : list R) : list R := match l with [] => [] | p :: r => p :: unwrap 0 p r end.

(* np.argmax, np.argmin: the first index of the extreme value *)
Fixpoint arg_ext (better : R -> R -> bool) (best : R) (ibest i : nat) (l : list R) : nat :=
  match l with
  | [] => ibest
  | y :: r => if better y best then arg_ext better y i (S i) r else arg_ext better best ibest (S i) r
  end.
(* np.argmax, polygon.py:116 *)
Definition argmax (l : list R) : nat := match l with [] => 0%nat | y :: r => arg_ext (fun a b => Rltb b a) y 0 1 r end.
(* np.argmin, polygon.py:116 *)
Definition argmin (l : list R) : nat := match l with [] => 0%nat | y :: r => arg_ext (fun a b => Rltb a b) y 0 1 r end.

(* polygon.py:91-135 tangent_points *)
Definition p_tangent_points (m : option mm) (v : list RPt) (x : RPt) (fi fo : frame) : res (list RPt) :=
  bind (transform m x fi OBSTACLE) (fun xo =>
  let cv := circular v in
  let phi := unwrapped (map (angle_to xo) cv) in
  if Nat.eqb (length phi) 0 then Exn ValueErr
  else
    let i_min := argmin phi in
    let i_max := argmax phi in
    if Rltb (1 / 100000) (Rabs (nth 0 phi 0 - last phi 0)) then Ret []
    else if Rleb (2 * PI) (nth i_max phi 0 - nth i_min phi 0) then Ret []
    else
      bind (transform m (nth i_max cv (0, 0)) OBSTACLE fo) (fun tp1 =>
      bind (transform m (nth i_min cv (0, 0)) OBSTACLE fo) (fun tp2 =>
      Ret [tp1; tp2]))).

(* polygon.py:146, 152: v[i-1], v[i], v[(i+1) % N]; the index -1 is the last vertex *)
Definition corner (v : list RPt) (i : nat) : RPt * RPt * RPt :=
  let n := length v in (nth (pred_idx i n) v (0, 0), nth i v (0, 0), nth ((i + 1) mod n) v (0, 0)).
(* polygon.py:146, 152, 154 the test at vertex i *)
Definition at_corner (f : RPt -> RPt -> RPt -> bool) (v : list RPt) (i : nat) : bool :=
  let '(a, b, c) := corner v i in f a b c.
(* polygon.py:146-149: the while loop, at most N+1 rounds; v[i] with i = N raises before the test i > N *)
Fixpoint skip_collinear (fuel i : nat) (v : list RPt) : res nat :=
  match fuel with
  | O => Exn RuntimeErr
  | S fuel' =>
      if Nat.leb (length v) i then Exn IndexErr
      else if at_corner is_collinear v i then
        if Nat.ltb (length v) (i + 1) then Exn RuntimeErr else skip_collinear fuel' (i + 1) v
      else Ret i
  end.
(* polygon.py:141-154 _check_convexity; line 151 uses v[i+1] without % N *)
Definition check_convexity (v : list RPt) : res bool :=
  let n := length v in
  bind (skip_collinear (n + 2) 0 v) (fun i =>
  if Nat.leb n (i + 1) then Exn IndexErr
  else if is_cw (nth (pred_idx i n) v (0, 0)) (nth i v (0, 0)) (nth (i + 1) v (0, 0))
       then Ret (negb (existsb (at_corner is_ccw v) (seq 0 n)))
       else Ret (negb (existsb (at_corner is_cw v) (seq 0 n)))).

(* polygon.py:15 _pol_bounds: xmin, ymin, xmax, ymax *)
Definition lmin (l : list R) : R := match l with [] => 0 | a :: r => fold_left Rmin r a end.
(* maximum of a coordinate, polygon.py:15 *)
Definition lmax (l : list R) : R := match l with [] => 0 | a :: r => fold_left Rmax r a end.
(* polygon.py:61-71 point_location; contains, on_exterior: the shapely predicates of lines 67 and 69 *)
Definition p_point_location (contains on_exterior : RPt -> bool) (m : option mm) (v : list RPt) (x : RPt) (fi : frame) : res R :=
  bind (transform m x fi OBSTACLE) (fun xo =>
  let xmin := lmin (map fst v) in let ymin := lmin (map snd v) in
  let xmax := lmax (map fst v) in let ymax := lmax (map snd v) in
  if negb ((Rltb xmin (fst xo) && Rltb (fst xo) xmax) && (Rltb ymin (snd xo) && Rltb (snd xo) ymax)) then Ret 1
  else if contains xo then Ret (-1)
  else if on_exterior xo then Ret 0
  else Ret 1).
(* polygon.py:35-37 extreme_points *)
Definition extreme_points (m : option mm) (v : list RPt) (f : frame) : res (list RPt) :=
  match f, m with
  | OTHER, Some _ => Exn InvalidFrameError
  | GLOBAL, Some m' => Ret (apply_pose (pose_of m') v)
  | _, _ => Ret v
  end.
