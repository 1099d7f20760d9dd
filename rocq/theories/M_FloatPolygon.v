(** Model of Polygon._check_convexity of obstacles/polygon.py for any kind of number, to say what is computed with rounding (with the instance NumB of M_Float). *)
From Coq Require Import Reals List Bool QArith Arith.
From Verif Require Import Num M_Cg M_Motion M_Obstacle.
Import ListNotations.

Section Polygon.
  Context {T : Type} {N : Num T}.
  (* polygon.py:146, 152, 154: v[i-1], v[i], v[(i+1) % N]; the index -1 is the last vertex *)
  Definition corner_num (f : pt T -> pt T -> pt T -> bool) (v : list (pt T)) (i : nat) : bool :=
    let n := length v in f (nth (pred_idx i n) v (n0, n0)) (nth i v (n0, n0)) (nth ((i + 1) mod n) v (n0, n0)).
  (* polygon.py:146-149: the while loop, at most N+1 rounds; v[i] with i = N raises before the test i > N *)
  Fixpoint skip_collinear_num (fuel i : nat) (v : list (pt T)) : res nat :=
    match fuel with
    | O => Exn RuntimeErr
    | S fuel' =>
        if Nat.leb (length v) i then Exn IndexErr
        else if corner_num is_collinear v i then
          if Nat.ltb (length v) (i + 1) then Exn RuntimeErr else skip_collinear_num fuel' (i + 1) v
        else Ret i
    end.
  (* polygon.py:141-154 _check_convexity; line 151 uses v[i+1] without % N *)
  Definition check_convexity_num (v : list (pt T)) : res bool :=
    let n := length v in
    bind (skip_collinear_num (n + 2) 0 v) (fun i =>
    if Nat.leb n (i + 1) then Exn IndexErr
    else if is_cw (nth (pred_idx i n) v (n0, n0)) (nth i v (n0, n0)) (nth (i + 1) v (n0, n0))
         then Ret (negb (existsb (corner_num is_ccw v) (seq 0 n)))
         else Ret (negb (existsb (corner_num is_cw v) (seq 0 n)))).
End Polygon.
