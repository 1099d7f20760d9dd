(** The real number a binary64 number stands for *)
From Coq Require Import ZArith Reals SpecFloat.
From Verif Require Import Num M_Float.
Local Open Scope R_scope.

Definition p2 (e : Z) : R := powerRZ 2 e.
Definition bval (f : b64) : R :=
  match f with S754_finite s m e => (if s then - IZR (Zpos m) else IZR (Zpos m)) * p2 e | _ => 0 end.
(** a proper number: not infinite, not a nan, and in the format *)
Definition bfin (f : b64) : Prop :=
  match f with S754_zero _ => True | S754_finite _ _ _ => valid_binary 53 1024 f = true | _ => False end.
Definition bpt (p : pt b64) : R * R := (bval (fst p), bval (snd p)).
Definition bfin_pt (p : pt b64) : Prop := bfin (fst p) /\ bfin (snd p).
(** coordinates of magnitude at most M *)
Definition within (M : R) (p : pt b64) : Prop := Rabs (bval (fst p)) <= M /\ Rabs (bval (snd p)) <= M.
(** coordinates are multiples k 2^-s, |k| < 2^25 *)
Definition on_grid (s : Z) (x : b64) : Prop := bfin x /\ exists k : Z, (Z.abs k < 2 ^ 25)%Z /\ bval x = IZR k * p2 (- s).
Definition on_grid_pt (s : Z) (p : pt b64) : Prop := on_grid s (fst p) /\ on_grid s (snd p).
(** ncos and nsin give numbers within 2^-53 of the cosine and the sine *)
Definition trig_near (ncos nsin : b64 -> b64) (r : b64) : Prop :=
  bfin (ncos r) /\ bfin (nsin r) /\ Rabs (bval (ncos r) - cos (bval r)) <= / 2 ^ 53 /\ Rabs (bval (nsin r) - sin (bval r)) <= / 2 ^ 53.
