(** Model of convex_hull (gift wrapping), utils/cg.py:218-268. *)
From Coq Require Import QArith Reals List Bool Arith.
From Verif Require Import Num M_Cg.
Import ListNotations.

Section Hull.
  Context {T : Type} {N : Num T}.
  Local Open Scope num_scope.
  Notation pt := (pt T).
  Variable points : list pt.
  Let n : nat := length points.

  (* points[i]; only used with i < len(points) *)
  Definition nthp (i : nat) : pt := nth i points (n0, n0).

  (* cg.py:221-228 leftmost, then topmost *)
  Definition leftmost_step (l i : nat) : nat :=
    if fst (nthp i) <? fst (nthp l) then i
    else if fst (nthp i) =? fst (nthp l)
         then (if snd (nthp l) <? snd (nthp i) then i else l)
         else l.
  (* cg.py:221-228 the loop over range(1, n) *)
  Definition leftmost : nat := fold_left leftmost_step (seq 1 (n - 1)) 0%nat.

  (* cg.py:248-255 the most counterclockwise point seen from p *)
  Definition wrap_step (p q i : nat) : nat :=
    if is_ccw (nthp p) (nthp i) (nthp q) then i else q.
  (* cg.py:248-255 the loop over range(n), started at (p + 1) % n *)
  Definition next_q (p : nat) : nat := fold_left (wrap_step p) (seq 0 n) ((p + 1) mod n)%nat.

  (* cg.py:236-266 the while loop; [None]: still running after [fuel] rounds *)
  Fixpoint hull_loop (fuel p l : nat) : option (list pt) :=
    match fuel with
    | O => None
    | S f =>
        let q := next_q p in
        if Nat.eqb q l then Some [nthp p]
        else match hull_loop f q l with
             | None => None
             | Some h => Some (nthp p :: h)
             end
    end.
End Hull.

(* what cg.py:218-268 convex_hull may do *)
Inductive hull_out (T : Type) : Type :=
| HullError                      (* IndexError: points[0] of an empty list *)
| HullRunning                    (* not finished within the given number of rounds *)
| Hull (h : list (pt T)).
Arguments HullError {T}. Arguments HullRunning {T}. Arguments Hull {T} h.

(* cg.py:218-268; [fuel] bounds the number of rounds of the while loop *)
Definition convex_hull {T} {N : Num T} (fuel : nat) (points : list (pt T)) : hull_out T :=
  match points with
  | [] => HullError
  | _ => match hull_loop points fuel (leftmost points) (leftmost points) with
         | None => HullRunning
         | Some h => Hull h
         end
  end.
