(** Interval of obstacles/motion_model.py for any kind of number; with the instance NumB it is what the code computes with rounding.  Only the position and the
    clock are kept: the rotation of an Interval stays 0 (motion_model.py:94-95).  The same method over the reals is in M_Motion. *)
From Coq Require Import ZArith QArith SpecFloat List Bool Arith.
From Verif Require Import Num M_Cg M_Motion M_Float.
Import ListNotations.

Section Interval.
  Context {T : Type} {N : Num T}.
  Variable nsqrt : T -> T.   (* np.sqrt *)
  Local Open Scope num_scope.
  (* np.cumsum, motion_model.py:81: every sum is the one before plus the next entry *)
  Fixpoint running_num (acc : T) (l : list T) : list T :=
    match l with [] => [] | x :: r => (acc + x) :: running_num (acc + x) r end.
  (* motion_model.py:80 pos_point *)
  Definition pos_points (init_pos : pt T) (time_pos : list (T * pt T)) : list (pt T) := init_pos :: map snd time_pos.
  (* motion_model.py:81 time_point *)
  Definition time_points (time_pos : list (T * pt T)) : list T := n0 :: running_num n0 (map fst time_pos).
  (* motion_model.py:84-92 Interval.lin_vel; [None]: IndexError. A quotient by 0 is what the kind of number gives (numpy warns and goes on) *)
  Definition interval_vel_num (pp : list (pt T)) (tp : list T) (pos : pt T) (t : T) : option (pt T) :=
    let n := length tp in
    let P k := nth k pp (n0, n0) in
    let S k := nth k tp n0 in
    if S (n - 1)%nat <? t then
      if Nat.ltb n 2 then None
      else
        let d := S (n - 1)%nat - S (n - 2)%nat in
        let vel_norm := norm_num nsqrt ((fst (P (n - 1)%nat) - fst (P (n - 2)%nat)) / d, (snd (P (n - 1)%nat) - snd (P (n - 2)%nat)) / d) in
        let dir := (fst (P (n - 1)%nat) - fst pos, snd (P (n - 1)%nat) - snd pos) in
        let l := norm_num nsqrt dir in
        let dir' := if vel_norm <? l then (fst dir / l, snd dir / l) else dir in
        Some (vel_norm * fst dir', vel_norm * snd dir')
    else
      let i := argmax_bool (map (fun x => t <? x) tp) in
      let j := pred_idx i n in
      let d := S i - S j in
      Some ((fst (P i) - fst (P j)) / d, (snd (P i) - snd (P j)) / d).
  (* motion_model.py:12-18 MotionModel.move of an Interval: the position and the clock *)
  Definition interval_move_num (pp : list (pt T)) (tp : list T) (dt : T) (st : pt T * T) : option (pt T * T) :=
    let '(pos, t) := st in
    match interval_vel_num pp tp pos t with
    | Some v => Some ((fst pos + fst v * dt, snd pos + snd v * dt), t + dt)
    | None => None
    end.
  (* motion_model.py:79-82, 7-10, 12-18: an Interval is made and moved by the given steps *)
  Definition interval_run (init_pos : pt T) (time_pos : list (T * pt T)) (dts : list T) : option (pt T * T) :=
    fold_left (fun o dt => match o with Some st => interval_move_num (pos_points init_pos time_pos) (time_points time_pos) dt st | None => None end)
      dts (Some (init_pos, n0)).
End Interval.

Section Waypoints.
  Context {T : Type} {N : Num T}.
  Variable nsqrt : T -> T.   (* np.sqrt *)
  Local Open Scope num_scope.
  (* motion_model.py:107-116 Waypoints.lin_vel: the new _wp_idx and the velocity; [rest] is waypoints[_wp_idx:] *)
  Fixpoint waypoint_vel_num (rest : list (pt T)) (idx : nat) (pos : pt T) (vel wp_thresh : T) : nat * pt T :=
    match rest with
    | [] => (idx, (n0, n0))
    | w :: rest' =>
        let dir := (fst w - fst pos, snd w - snd pos) in
        let wp_dist := norm_num nsqrt dir in
        if wp_dist <? wp_thresh then waypoint_vel_num rest' (S idx) pos vel wp_thresh
        else (idx, (vel * (fst dir / wp_dist), vel * (snd dir / wp_dist)))
    end.
  (* motion_model.py:12-18 MotionModel.move of a Waypoints: position and _wp_idx *)
  Definition waypoint_move_num (waypoints : list (pt T)) (vel wp_thresh dt : T) (st : pt T * nat) : pt T * nat :=
    let '(pos, idx) := st in
    let '(idx', v) := waypoint_vel_num (skipn idx waypoints) idx pos vel wp_thresh in
    ((fst pos + fst v * dt, snd pos + snd v * dt), idx').
  (* motion_model.py:100-105, 12-18: a Waypoints is made and moved by the given steps *)
  Definition waypoint_run (init_pos : pt T) (waypoints : list (pt T)) (vel wp_thresh : T) (dts : list T) : pt T * nat :=
    fold_left (fun st dt => waypoint_move_num (init_pos :: waypoints) vel wp_thresh dt st) dts (init_pos, 0%nat).
End Waypoints.
