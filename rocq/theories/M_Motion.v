(** Model of obstacles/motion_model.py.  Positions are vectors of reals; the in-place update of the
    position array (line 16) is a functional update here.  Aliasing of that array with a caller's array
    is not modelled here but in M_MotionHeap. *)
From Coq Require Import Reals List Bool Arith.
From Verif Require Import Num M_Cg.
Import ListNotations.
Local Open Scope R_scope.

(* the four subclasses with the attributes their constructors set:
   motion_model.py:41 Static, 50 SinusVelocity, 77 Interval, 98 Waypoints *)
Inductive mm_class : Type :=
| CStatic
| CSinus (cartesian_coords : bool) (x1_vel_mag x1_vel_freq x2_vel_mag x2_vel_freq : R)
| CInterval (pos_point : list RPt) (time_point : list R)
| CWaypoints (waypoints : list RPt) (vel wp_thresh : R).

(* motion_model.py:7-10: _pos, _rot, _t; _wp_idx (line 103) is only used by Waypoints *)
Record mm : Type := MM { m_class : mm_class; m_pos : RPt; m_rot : R; m_t : R; m_idx : nat }.

(* motion_model.py:7-10 MotionModel.__init__ for a Static; pos=None gives the origin *)
Definition static_new (pos : option RPt) (rot : R) : mm :=
  MM CStatic (match pos with None => (0, 0) | Some p => p end) rot 0 0.

(* motion_model.py:58, 60: 2*pi/period if period else 0 *)
Definition freq (period : R) : R := if Reqb period 0 then 0 else 2 * PI / period.
(* motion_model.py:54-60 SinusVelocity.__init__ *)
Definition sinus_new (pos : option RPt) (rot : R) (cart : bool) (x1_mag x1_period x2_mag x2_period : R) : mm :=
  MM (CSinus cart x1_mag (freq x1_period) x2_mag (freq x2_period))
     (match pos with None => (0, 0) | Some p => p end) rot 0 0.

(* np.cumsum *)
Fixpoint running (acc : R) (l : list R) : list R :=
  match l with [] => [] | x :: r => (acc + x) :: running (acc + x) r end.
(* motion_model.py:79-82 Interval.__init__ *)
Definition interval_new (init_pos : RPt) (time_pos : list (R * RPt)) : mm :=
  MM (CInterval (init_pos :: map snd time_pos) (running 0 (0 :: map fst time_pos))) init_pos 0 0 0.

(* motion_model.py:100-105 Waypoints.__init__ *)
Definition waypoints_new (init_pos : RPt) (waypoints : list RPt) (vel wp_thresh : R) : mm :=
  MM (CWaypoints (init_pos :: waypoints) vel wp_thresh) init_pos 0 0 0.

(* what a velocity query does: raise IndexError, produce nan/inf, or return a vector (and the new _wp_idx) *)
Inductive vel_out : Type := VelIndexError | VelNotFinite | Vel (idx : nat) (v : RPt).

(* numpy: number times 2-vector *)
Definition scale (k : R) (p : RPt) : RPt := (k * fst p, k * snd p).

(* np.argmax of an array of booleans: index of the first True, 0 if there is none *)
Fixpoint first_true (l : list bool) (i : nat) : option nat :=
  match l with [] => None | b :: r => if b then Some i else first_true r (S i) end.
(* np.argmax of a boolean array, motion_model.py:91 *)
Definition argmax_bool (l : list bool) : nat := match first_true l 0 with Some i => i | None => 0%nat end.

(* a[k-1] with Python's wrap-around of index -1 *)
Definition pred_idx (k n : nat) : nat := match k with O => (n - 1)%nat | S k' => k' end.

(* motion_model.py:84-92 Interval.lin_vel *)
Definition interval_vel (pp : list RPt) (tp : list R) (pos : RPt) (t : R) (idx : nat) : vel_out :=
  let n := length tp in
  let P k := nth k pp (0, 0) in
  let T k := nth k tp 0 in
  if Rltb (T (n - 1)%nat) t then
    if Nat.ltb n 2 then VelIndexError
    else if Reqb (T (n - 1)%nat - T (n - 2)%nat) 0 then VelNotFinite
    else
      let vel_norm := np_norm (scale (/ (T (n - 1)%nat - T (n - 2)%nat)) (psub (P (n - 1)%nat) (P (n - 2)%nat))) in
      let dir := psub (P (n - 1)%nat) pos in
      let dir' := if Rltb vel_norm (np_norm dir) then scale (/ np_norm dir) dir else dir in
      Vel idx (scale vel_norm dir')
  else
    let i := argmax_bool (map (fun x => Rltb t x) tp) in
    let j := pred_idx i n in
    if Reqb (T i - T j) 0 then VelNotFinite
    else Vel idx (scale (/ (T i - T j)) (psub (P i) (P j))).

(* motion_model.py:107-116 Waypoints.lin_vel; [rest] is waypoints[_wp_idx:] *)
Fixpoint waypoint_vel (rest : list RPt) (idx : nat) (pos : RPt) (vel wp_thresh : R) : vel_out :=
  match rest with
  | [] => Vel idx (0, 0)
  | w :: rest' =>
      let dir := psub w pos in
      let wp_dist := np_norm dir in
      if Rltb wp_dist wp_thresh then waypoint_vel rest' (S idx) pos vel wp_thresh
      else if Reqb wp_dist 0 then VelNotFinite
      else Vel idx (scale vel (scale (/ wp_dist) dir))
  end.

(* lin_vel of each class: motion_model.py:43-44, 62-68, 84-92, 107-116 *)
Definition lin_vel (m : mm) : vel_out :=
  match m_class m with
  | CStatic => Vel (m_idx m) (0, 0)
  | CSinus cart a1 f1 a2 f2 =>
      if cart then Vel (m_idx m) (a1 * cos (f1 * m_t m), a2 * cos (f2 * m_t m))
      else let v := a1 * cos (f1 * m_t m) in
           Vel (m_idx m) (cos (m_rot m) * v + - sin (m_rot m) * 0, sin (m_rot m) * v + cos (m_rot m) * 0)
  | CInterval pp tp => interval_vel pp tp (m_pos m) (m_t m) (m_idx m)
  | CWaypoints wps vel thr => waypoint_vel (skipn (m_idx m) wps) (m_idx m) (m_pos m) vel thr
  end.

(* rot_vel of each class: motion_model.py:46-47, 70-74, 94-95, 118-119 *)
Definition rot_vel (m : mm) : R :=
  match m_class m with
  | CSinus false _ _ a2 f2 => a2 * cos (f2 * m_t m)
  | _ => 0
  end.

(* motion_model.py:12-18 MotionModel.move; [None]: raised, or the position became nan/inf *)
Definition move (dt : R) (m : mm) : option mm :=
  match lin_vel m with
  | Vel idx v => Some (MM (m_class m) (padd (m_pos m) (scale dt v)) (m_rot m + rot_vel m * dt) (m_t m + dt) idx)
  | _ => None
  end.

(* successive calls of move *)
Definition moves (m : mm) (dts : list R) : option mm :=
  fold_left (fun o dt => match o with Some m' => move dt m' | None => None end) dts (Some m).

(* motion_model.py:20-24 set_pos, set_rot *)
Definition set_pos (p : RPt) (m : mm) : mm := MM (m_class m) p (m_rot m) (m_t m) (m_idx m).
(* motion_model.py:23-24 set_rot *)
Definition set_rot (r : R) (m : mm) : mm := MM (m_class m) (m_pos m) r (m_t m) (m_idx m).
