(** Model of the position arrays of obstacles/motion_model.py as objects: who refers to which array, and what is changed in place.
    A position is an object of two numbers: a float64 array, an array of integers, a list or a tuple. Simplifications: exact real numbers, also
    in arrays of integers; writing into an array of integers is not modelled; the numbers in lists and in the arrays pos_point and waypoints are floats;
    _rot and _t are plain numbers. *)
From Coq Require Import Reals List Arith.
From Verif Require Import Num M_Cg M_Motion M_Obstacle.
Import ListNotations.
Local Open Scope R_scope.

(* what a position given by the caller can be; no counterpart in the source *)
Inductive kind : Type := KFloat | KInt | KList | KTuple.
(* an object with two entries; objects are numbered in the order of their creation *)
Record obj : Type := Obj { o_kind : kind; o_val : RPt }.
(* motion_model.py:7-10: as in M_Motion, but _pos refers to an object *)
Record hmm : Type := HM { h_class : mm_class; h_pos : nat; h_rot : R; h_t : R; h_idx : nat }.
(* the objects, the objects the variables of the caller refer to, and the motion models *)
Record hst : Type := HS { heap : list obj; vars : list nat; models : list hmm }.

(* what the caller does: create an object; change one in place, x[:] = p; create a motion model with pos=x or without, where the attributes the
   constructors set are part of the class; call set_pos, pos, move *)
Inductive op : Type :=
| New (k : kind) (p : RPt)
| Write (x : nat) (p : RPt)
| Make (c : mm_class) (x : option nat) (rot : R)
| SetPos (i x : nat)
| GetPos (i : nat)
| Move (i : nat) (dt : R).

(* the numbers in an object *)
Definition o_at (h : list obj) (l : nat) : obj := nth l h (Obj KFloat (0, 0)).
(* entry number n of a list is replaced *)
Fixpoint upd {A} (n : nat) (a : A) (l : list A) : list A :=
  match l, n with
  | [], _ => []
  | _ :: r, O => a :: r
  | b :: r, S n' => b :: upd n' a r
  end.

(* the motion model with the numbers its position has now *)
Definition hview (h : list obj) (m : hmm) : mm := MM (h_class m) (o_val (o_at h (h_pos m))) (h_rot m) (h_t m) (h_idx m).

(* motion_model.py:12-18 MotionModel.move of model number i. Line 15: a tuple has no copy. Line 16: the array is changed in place, an array of integers
   raises UFuncTypeError, a list plus an array is a new array *)
Definition h_move (s : hst) (i : nat) (m : hmm) (dt : R) : res hst :=
  match lin_vel (hview (heap s) m) with
  | VelIndexError => Exn IndexErr
  | VelNotFinite => Exn NotFinite
  | Vel idx v =>
      let o := o_at (heap s) (h_pos m) in
      let new := Obj KFloat (padd (o_val o) (scale dt v)) in
      let m' l := HM (h_class m) l (h_rot m + rot_vel (hview (heap s) m) * dt) (h_t m + dt) idx in
      match o_kind o with
      | KTuple => Exn AttributeErr
      | KInt => Exn TypeErr
      | KFloat => Ret (HS (upd (h_pos m) new (heap s)) (vars s) (upd i (m' (h_pos m)) (models s)))
      | KList => Ret (HS (heap s ++ [new]) (vars s) (upd i (m' (length (heap s))) (models s)))
      end
  end.

(* one call. Make: motion_model.py:8, np.array(pos, dtype='float64') is always a new array. SetPos: motion_model.py:20-21, the object itself is kept.
   GetPos: motion_model.py:26-27, the object itself is returned *)
Definition h_step (s : hst) (o : op) : res hst :=
  match o with
  | New k p => Ret (HS (heap s ++ [Obj k p]) (vars s ++ [length (heap s)]) (models s))
  | Write x p =>
      match nth_error (vars s) x with
      | None => Exn UnboundErr
      | Some l => match o_kind (o_at (heap s) l) with
                  | KFloat => Ret (HS (upd l (Obj KFloat p) (heap s)) (vars s) (models s))
                  | KList => Ret (HS (upd l (Obj KList p) (heap s)) (vars s) (models s))
                  | _ => Exn TypeErr
                  end
      end
  | Make c x rot =>
      let mk p := Ret (HS (heap s ++ [Obj KFloat p]) (vars s) (models s ++ [HM c (length (heap s)) rot 0 0])) in
      match x with
      | None => mk (0, 0)
      | Some x => match nth_error (vars s) x with None => Exn UnboundErr | Some l => mk (o_val (o_at (heap s) l)) end
      end
  | SetPos i x =>
      match nth_error (models s) i, nth_error (vars s) x with
      | Some m, Some l => Ret (HS (heap s) (vars s) (upd i (HM (h_class m) l (h_rot m) (h_t m) (h_idx m)) (models s)))
      | _, _ => Exn UnboundErr
      end
  | GetPos i => match nth_error (models s) i with None => Exn UnboundErr | Some m => Ret (HS (heap s) (vars s ++ [h_pos m]) (models s)) end
  | Move i dt => match nth_error (models s) i with None => Exn UnboundErr | Some m => h_move s i m dt end
  end.

(* a program of the caller *)
Fixpoint h_run (s : hst) (l : list op) : res hst :=
  match l with [] => Ret s | o :: r => bind (h_step s o) (fun s' => h_run s' r) end.
(* nothing created yet *)
Definition h_start : hst := HS [] [] [].

(* what the caller finds in variable x and as position of model i *)
Definition var_val (s : hst) (x : nat) : option RPt := option_map (fun l => o_val (o_at (heap s) l)) (nth_error (vars s) x).
Definition model_at (s : hst) (i : nat) : option mm := option_map (hview (heap s)) (nth_error (models s) i).
