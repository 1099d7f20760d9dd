(** Numbers as the code has them: IEEE 754 binary64, as specified by Coq.Floats.SpecFloat of the standard library (sign, mantissa, exponent;
    the operations round to the nearest, ties to even).  The generic definitions of M_Cg and M_Hull are used with this instance to say what the code
    computes with rounding.  Python and numpy evaluate the expressions of utils/cg.py:51-64 with one rounding per operation. *)
From Coq Require Import ZArith QArith SpecFloat.
From Verif Require Import Num M_Cg.

(* a binary64 number *)
Definition b64 : Type := spec_float.
(* the binary64 number nearest to an integer *)
Definition b64_of_Z (z : Z) : b64 := binary_normalize 53 1024 z 0 false.

(* no counterpart in the source: arithmetic of Python floats and numpy float64. A decimal literal is the number nearest to it: the quotient of two integers
   below 2^53, rounded once *)
Global Instance NumB : Num b64 | 20 := {|
  nadd := SFadd 53 1024; nsub := SFsub 53 1024; nmul := SFmul 53 1024; ndiv := SFdiv 53 1024;
  nopp := SFopp; nabs := SFabs; nltb := SFltb; nleb := SFleb; neqb := SFeqb;
  nlit := fun q => SFdiv 53 1024 (b64_of_Z (Qnum q)) (b64_of_Z (Zpos (Qden q))) |}.

(* np.sqrt of a binary64 number: the root rounded once *)
Definition b64_sqrt : b64 -> b64 := SFsqrt 53 1024.

Section Affine.
  Context {T : Type} {N : Num T}.
  Variables ncos nsin : T -> T.   (* np.cos, np.sin *)
  Local Open Scope num_scope.
  (* cg.py:12-24 affine_transform for any kind of number; the cosine and sine are parameters *)
  Definition affine_num (x : pt T) (rotation : T) (translation : pt T) (inverse : bool) : pt T :=
    if inverse then
      let x_t := (fst x - fst translation, snd x - snd translation) in
      if rotation =? n0 then x_t
      else let c := ncos rotation in let s := nsin rotation in
           (c * fst x_t + s * snd x_t, - s * fst x_t + c * snd x_t)
    else
      if rotation =? n0 then (fst x + fst translation, snd x + snd translation)
      else let c := ncos rotation in let s := nsin rotation in
           (c * fst x - s * snd x + fst translation, s * fst x + c * snd x + snd translation).
End Affine.

Section Between.
  Context {T : Type} {N : Num T}.
  Variable nsqrt : T -> T.   (* np.sqrt *)
  Local Open Scope num_scope.
  (* numpy.linalg.norm of a 2-vector: the square root of the dot product with itself *)
  Definition norm_num (p : pt T) : T := nsqrt (fst p * fst p + snd p * snd p).
  (* numpy.isclose(a, b, rtol, atol) of finite numbers: |a - b| <= atol + rtol * |b| *)
  Definition isclose_num (a b rtol atol : T) : bool := nabs (a - b) <=? atol + rtol * nabs b.
  (* cg.py:69-70 is_between for any kind of number; the square root is a parameter *)
  Definition between_num (a b c : pt T) : bool :=
    isclose_num (norm_num (fst a - fst b, snd a - snd b) + norm_num (fst c - fst b, snd c - snd b)) (norm_num (fst a - fst c, snd a - snd c))
      (nlit (1 # 10000000)) (nlit (1 # 100000000)).
  (* cg.py:186-203 get_intersection *)
  Definition get_intersection_num (a1 a2 b1 b2 : pt T) : option (pt T) :=
    if negb (intersect a1 a2 b1 b2) then
      if between_num b1 a1 b2 then Some a1
      else if between_num b1 a2 b2 then Some a2
      else if between_num a1 b1 a2 then Some b1
      else if between_num a1 b2 a2 then Some b2
      else None
    else Some (crossing_point a1 a2 b1 b2).
End Between.
