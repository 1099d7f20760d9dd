(** Positions as values: every variable and every motion model holds its own two numbers (the motion models of M_Motion). And the programs that
    cannot tell the difference. *)
From Coq Require Import Reals List Bool Arith.
From Verif Require Import Num M_Cg M_Motion M_MotionHeap.
Import ListNotations.
Local Open Scope R_scope.

Record vst : Type := VS { vvars : list RPt; vmodels : list mm }.
Definition v_step (s : vst) (o : op) : option vst :=
  match o with
  | New _ p => Some (VS (vvars s ++ [p]) (vmodels s))
  | Write x p => match nth_error (vvars s) x with None => None | Some _ => Some (VS (upd x p (vvars s)) (vmodels s)) end
  | Make c x rot =>
      let mk p := Some (VS (vvars s) (vmodels s ++ [MM c p rot 0 0])) in
      match x with None => mk (0, 0) | Some x => match nth_error (vvars s) x with None => None | Some p => mk p end end
  | SetPos i x => match nth_error (vmodels s) i, nth_error (vvars s) x with
                  | Some m, Some p => Some (VS (vvars s) (upd i (set_pos p m) (vmodels s)))
                  | _, _ => None end
  | GetPos i => match nth_error (vmodels s) i with None => None | Some m => Some (VS (vvars s ++ [m_pos m]) (vmodels s)) end
  | Move i dt => match nth_error (vmodels s) i with
                 | None => None
                 | Some m => match move dt m with None => None | Some m' => Some (VS (vvars s) (upd i m' (vmodels s))) end end
  end.
Fixpoint v_run (s : vst) (l : list op) : option vst :=
  match l with [] => Some s | o :: r => match v_step s o with None => None | Some s' => v_run s' r end end.
Definition v_start : vst := VS [] [].

(** what a variable may be used for: anything; reading only, as long as motion model i is not moved or placed elsewhere; nothing *)
Inductive use : Type := Own | View (i : nat) | Gone.
Definition end_view (i : nat) (u : use) : use := match u with View j => if Nat.eqb i j then Gone else u | _ => u end.
Definition track (us : list use) (o : op) : option (list use) :=
  match o with
  | New _ _ => Some (us ++ [Own])
  | Write x _ => match nth_error us x with Some Own => Some us | _ => None end
  | Make _ None _ => Some us
  | Make _ (Some x) _ => match nth_error us x with Some Own | Some (View _) => Some us | _ => None end
  | SetPos i x => match nth_error us x with Some Own => Some (upd x (View i) (map (end_view i) us)) | _ => None end
  | GetPos i => Some (us ++ [View i])
  | Move i _ => Some (map (end_view i) us)
  end.
(** an array is given to set_pos once and not changed afterwards; what pos returned is not changed, not given to set_pos, and not read any more after
    the next move *)
Fixpoint tidy (us : list use) (l : list op) : option (list use) :=
  match l with [] => Some us | o :: r => match track us o with None => None | Some us' => tidy us' r end end.
