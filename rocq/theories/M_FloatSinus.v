(** Static and SinusVelocity of obstacles/motion_model.py for any kind of number; with the instance NumB it is what the code computes with rounding.
    The same classes over the reals are in M_Motion. *)
From Coq Require Import ZArith QArith SpecFloat List Bool.
From Verif Require Import Num M_Cg M_Float.
Import ListNotations.

Section Sinus.
  Context {T : Type} {N : Num T}.
  Variables (ncos nsin : T -> T) (npi : T).   (* np.cos, np.sin, np.pi *)
  Local Open Scope num_scope.
  (* motion_model.py:7-10: _pos, _rot, _t *)
  Definition mstate : Type := (pt T * T * T)%type.
  (* motion_model.py:12-18 MotionModel.move: the velocities are asked for first, then position, rotation and clock are advanced *)
  Definition advance_num (lin : mstate -> pt T) (rot : mstate -> T) (st : mstate) (dt : T) : mstate :=
    let '(p, r, t) := st in ((fst p + fst (lin st) * dt, snd p + snd (lin st) * dt), r + rot st * dt, t + dt).
  (* motion_model.py:41-47 Static: lin_vel is np.zeros(2), rot_vel is 0. *)
  Definition static_run (pos : pt T) (rot : T) (dts : list T) : mstate :=
    fold_left (advance_num (fun _ => (n0, n0)) (fun _ => n0)) dts (pos, rot, n0).
  (* motion_model.py:58, 60: 2 * np.pi / period if period else 0 *)
  Definition freq_num (period : T) : T := if neqb period n0 then n0 else nlit 2 * npi / period.
  (* motion_model.py:62-68 SinusVelocity.lin_vel *)
  Definition sinus_lin_num (cart : bool) (m1 f1 m2 f2 : T) (st : mstate) : pt T :=
    let '(_, r, t) := st in
    if cart then (m1 * ncos (f1 * t), m2 * ncos (f2 * t))
    else let v := m1 * ncos (f1 * t) in (ncos r * v + - nsin r * n0, nsin r * v + ncos r * n0).
  (* motion_model.py:70-74 SinusVelocity.rot_vel *)
  Definition sinus_rot_num (cart : bool) (m2 f2 : T) (st : mstate) : T :=
    let '(_, _, t) := st in if cart then n0 else m2 * ncos (f2 * t).
  (* motion_model.py:54-60, 12-18: a SinusVelocity whose stored frequencies are f1 and f2 is moved by the given steps *)
  Definition sinus_run (cart : bool) (m1 f1 m2 f2 : T) (pos : pt T) (rot : T) (dts : list T) : mstate :=
    fold_left (advance_num (sinus_lin_num cart m1 f1 m2 f2) (sinus_rot_num cart m2 f2)) dts (pos, rot, n0).
End Sinus.
