(** rotate of obstacles/obstacle.py and normal of obstacles/ellipse.py, called with x_is_boundary = True, for any kind of number; with the instance NumB they are what the code
    computes with rounding.  The same methods over the reals are in M_Obstacle and M_Ellipse. *)
From Coq Require Import ZArith QArith SpecFloat List Bool.
From Verif Require Import Num M_Cg M_Motion M_Obstacle M_Float M_FloatDirection.

Section Normal.
  Context {T : Type} {N : Num T}.
  Variables (ncos nsin nsqrt : T -> T).   (* np.cos, np.sin, np.sqrt *)
  Local Open Scope num_scope.
  (* obstacle.py:104-112 rotate, with 146-152 *)
  Definition rotate_num (pose : option (pt T * T)) (x : pt T) (fi fo : frame) : res (pt T) :=
    match pose with
    | None => Ret x
    | Some (_, rot) =>
        if frame_eqb fi fo then Ret x
        else match fi, fo with
             | OBSTACLE, GLOBAL => Ret (affine_num ncos nsin x rot (n0, n0) false)
             | GLOBAL, OBSTACLE => Ret (affine_num ncos nsin x rot (n0, n0) true)
             | _, _ => Exn InvalidFrameError
             end
    end.
  (* ellipse.py:86-87, with _a2 of line 12; b in the obstacle frame; 0 / 0 at the centre *)
  Definition ell_normal_num (a b : pt T) : pt T :=
    let v := (nsq (snd a) * fst b, nsq (fst a) * snd b) in let n := norm_num nsqrt v in (fst v / n, snd v / n).
  (* ellipse.py:82-88 normal, x_is_boundary = True *)
  Definition normal_num (pose : option (pt T * T)) (a x : pt T) (fi fo : frame) : res (pt T) :=
    bind (transform_num ncos nsin pose x fi OBSTACLE) (fun b => rotate_num pose (ell_normal_num a b) OBSTACLE fo).
End Normal.
