(** transform of obstacles/obstacle.py, reference_direction and vel_intertial_frame of obstacles/starshaped_obstacle.py for any kind of number; with the instance NumB
    they are what the code computes with rounding.  The same methods over the reals are in M_Obstacle. *)
From Coq Require Import ZArith QArith SpecFloat List Bool.
From Verif Require Import Num M_Cg M_Motion M_Obstacle M_Float.

Section Direction.
  Context {T : Type} {N : Num T}.
  Variables (ncos nsin nsqrt : T -> T).   (* np.cos, np.sin, np.sqrt *)
  Local Open Scope num_scope.
  (* obstacle.py:94-102 transform, with 154-160; [pose]: position and rotation of the motion model, None without one *)
  Definition transform_num (pose : option (pt T * T)) (x : pt T) (fi fo : frame) : res (pt T) :=
    match pose with
    | None => Ret x
    | Some (pos, rot) =>
        if frame_eqb fi fo then Ret x
        else match fi, fo with
             | OBSTACLE, GLOBAL => Ret (affine_num ncos nsin x rot pos false)
             | GLOBAL, OBSTACLE => Ret (affine_num ncos nsin x rot pos true)
             | _, _ => Exn InvalidFrameError
             end
    end.
  (* starshaped_obstacle.py:29, 32: the quotient by the norm; 0 / 0 for a vanishing difference *)
  Definition unit_num (xo xro : pt T) : pt T :=
    let dir := (fst xo - fst xro, snd xo - snd xro) in let n := norm_num nsqrt dir in (fst dir / n, snd dir / n).
  (* starshaped_obstacle.py:28-32 reference_direction of a single point *)
  Definition reference_direction_num (pose : option (pt T * T)) (xr x : pt T) (fi fo : frame) : res (pt T) :=
    bind (transform_num pose x fi fo) (fun xo => bind (transform_num pose xr OBSTACLE fo) (fun xro => Ret (unit_num xo xro))).
  (* starshaped_obstacle.py:63-68 vel_intertial_frame with a motion model; v and omega are its lin_vel() and rot_vel();
     np.cross([0,0,w],[d0,d1,0])[:2] = (0*0 - w d1, w d0 - 0*0) *)
  Definition vel_num (pose : pt T * T) (v : pt T) (omega : T) (xr x : pt T) : res (pt T) :=
    bind (reference_direction_num (Some pose) xr x GLOBAL GLOBAL) (fun d => Ret (fst v + (n0 * n0 - omega * snd d), snd v + (omega * fst d - n0 * n0))).
End Direction.
