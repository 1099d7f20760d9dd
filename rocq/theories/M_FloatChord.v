(** line_intersection of obstacles/ellipse.py for any kind of number; with the instance NumB it is what the code computes with rounding.  The same method over the reals is ell_line in
    M_Ellipse.  Simplifications: the line is given and the points are wanted in the obstacle frame.  A square x**2 is the product x*x, rounded once. *)
From Coq Require Import ZArith QArith List Bool.
From Verif Require Import Num M_Cg M_Float.
Import ListNotations.

Section Chord.
  Context {T : Type} {N : Num T}.
  Variable nsqrt : T -> T.   (* np.sqrt *)
  Local Open Scope num_scope.
  (* ellipse.py:99 *)
  Definition chord_left (l0 l1 : pt T) : pt T := if fst l0 <? fst l1 then l0 else l1.
  Definition chord_right (l0 l1 : pt T) : pt T := if fst l0 <? fst l1 then l1 else l0.   (* ellipse.py:100 *)
  (* ellipse.py:106 the slope of the line *)
  Definition chord_m (ll lr : pt T) : T := (snd lr - snd ll) / (fst lr - fst ll).
  Definition chord_c (ll lr : pt T) : T := snd ll - chord_m ll lr * fst ll.   (* ellipse.py:107 *)
  (* ellipse.py:103-108 *)
  Definition chord_steep (ll lr : pt T) : bool :=
    if nabs (fst lr - fst ll) <? nlit (1 # 10000) then true else nlit 100 <? nabs (chord_m ll lr).
  (* ellipse.py:111-127 the special case with a vertical line *)
  Definition chord_vertical (a ll lr : pt T) : list (pt T) :=
    if (fst lr <? - fst a) || (fst a <? fst lr) then []
    else
      let top := if snd ll <? snd lr then lr else ll in
      let bottom := if snd ll <? snd lr then ll else lr in
      if (snd a <=? snd top) && (snd bottom <=? - snd a) then [(n0, snd a); (n0, - snd a)]
      else if (snd a <=? snd top) && (snd bottom <=? snd a) then [(n0, snd a)]
      else if (- snd a <=? snd top) && (snd bottom <=? - snd a) then [(n0, - snd a)]
      else [].
  (* ellipse.py:130, with _a2 of line 12 *)
  Definition chord_kx2 (a : pt T) (m : T) : T := nsq (fst a) * nsq m + nsq (snd a).
  Definition chord_kx (a : pt T) (m c : T) : T := nlit 2 * nsq (fst a) * m * c.   (* ellipse.py:131 *)
  Definition chord_k1 (a : pt T) (c : T) : T := nsq (fst a) * (nsq c - nsq (snd a)).   (* ellipse.py:132 *)
  Definition chord_disc (a : pt T) (m c : T) : T := chord_kx2 a m - nsq c.   (* ellipse.py:135 *)
  (* ellipse.py:139, 146, 148 *)
  Definition chord_mid (a : pt T) (m c : T) : T := - chord_kx a m c / (nlit 2 * chord_kx2 a m).
  (* ellipse.py:143-145; numpy.isclose with rtol = 1e-5, atol = 1e-8 *)
  Definition chord_in_sqrt (a : pt T) (m c : T) : T :=
    let v := nsq (chord_kx a m c) / (nlit 4 * nsq (chord_kx2 a m)) - chord_k1 a c / chord_kx2 a m in
    if isclose_num v n0 (nlit (1 # 100000)) (nlit (1 # 100000000)) then n0 else v.
  (* ellipse.py:140, 147, 149: the point of the line over x *)
  Definition chord_point (m c x : T) : pt T := (x, m * x + c).
  (* ellipse.py:130-161 *)
  Definition chord_sloped (a ll lr : pt T) (m c : T) : list (pt T) :=
    if chord_disc a m c <? n0 then []
    else if chord_disc a m c =? n0 then [chord_point m c (chord_mid a m c)]
    else
      let xl := chord_mid a m c - nsqrt (chord_in_sqrt a m c) in
      let xr := chord_mid a m c + nsqrt (chord_in_sqrt a m c) in
      if (fst lr <? xl) || (xr <? fst ll) || ((xl <? fst ll) && (fst ll <? fst lr) && (fst lr <? xr)) then []
      else if xl <? fst ll then [chord_point m c xr]
      else if fst lr <? xr then [chord_point m c xl]
      else [chord_point m c xl; chord_point m c xr].
  (* ellipse.py:95-161 line_intersection, input_frame = output_frame = Frame.OBSTACLE *)
  Definition chord_num (a l0 l1 : pt T) : list (pt T) :=
    let ll := chord_left l0 l1 in let lr := chord_right l0 l1 in
    if chord_steep ll lr then chord_vertical a ll lr else chord_sloped a ll lr (chord_m ll lr) (chord_c ll lr).
End Chord.
