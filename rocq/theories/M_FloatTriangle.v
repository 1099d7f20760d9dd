(** equilateral_triangle of utils/cg.py for any kind of number; with the instance NumB it is what the code computes with rounding. *)
From Coq Require Import ZArith QArith SpecFloat List Bool.
From Verif Require Import Num M_Cg M_Float.

Section Triangle.
  Context {T : Type} {N : Num T}.
  Variables (ncos nsin nsqrt : T -> T).   (* np.cos, np.sin, np.sqrt *)
  Local Open Scope num_scope.
  (* cg.py:207-209: the centroid plus three rows; -1 / (2*np.sqrt(3)) * side_length is read from the left *)
  Definition triangle_base_num (centroid : pt T) (side : T) : pt T * pt T * pt T :=
    let low := nlit (-1) / (nlit 2 * nsqrt (nlit 3)) * side in
    ((fst centroid + n0, snd centroid + n1 / nsqrt (nlit 3) * side),
     (fst centroid + n1 / nlit 2 * side, snd centroid + low),
     (fst centroid + nlit (-1) / nlit 2 * side, snd centroid + low)).
  (* cg.py:206-215 equilateral_triangle *)
  Definition equilateral_num (centroid : pt T) (side rot : T) : pt T * pt T * pt T :=
    let '(t0, t1, t2) := triangle_base_num centroid side in
    if rot =? n0 then (t0, t1, t2)
    else
      let c := ncos rot in let s := nsin rot in
      let r p := (c * fst p - s * snd p, s * fst p + c * snd p) in
      (r t0, r t1, r t2).
End Triangle.
