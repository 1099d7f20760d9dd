(** boundary_mapping of obstacles/ellipse.py for any kind of number; with the instance NumB it is what the code computes with rounding.  The same method over the reals is
    e_boundary_mapping in M_Ellipse.  Simplification: the point is given and the answer is wanted in the obstacle frame. *)
From Coq Require Import ZArith QArith List Bool.
From Verif Require Import Num M_Cg M_Float M_FloatDirection M_FloatChord.
Import ListNotations.

Section Boundary.
  Context {T : Type} {N : Num T}.
  Variable nsqrt : T -> T.   (* np.sqrt *)
  Local Open Scope num_scope.
  (* ellipse.py:18 enclosing_ball_diameter; max of two takes the second only if it is greater *)
  Definition ell_diam_num (a : pt T) : T := if nlit 2 * fst a <? nlit 2 * snd a then nlit 2 * snd a else nlit 2 * fst a.
  (* ellipse.py:70 the end of the ray, with starshaped_obstacle.py:28-32 *)
  Definition ray_end_num (a xr x : pt T) : pt T :=
    let s := nlit (11 # 10) * ell_diam_num a in let d := unit_num nsqrt x xr in (fst xr + s * fst d, snd xr + s * snd d).
  (* np.linalg.norm(p - x), ellipse.py:77 *)
  Definition gap_num (p x : pt T) : T := norm_num nsqrt (fst p - fst x, snd p - snd x).
  (* ellipse.py:67-80 boundary_mapping, input_frame = output_frame = Frame.OBSTACLE *)
  Definition boundary_num (a xr x : pt T) : option (pt T) :=
    match chord_num nsqrt a xr (ray_end_num a xr x) with
    | [] => None
    | [p] => Some p
    | p :: q :: _ => Some (if gap_num p x <? gap_num q x then p else q)
    end.
End Boundary.
