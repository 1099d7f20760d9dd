(** Models of generate_convex_polygon, generate_star_polygon, random_angle_steps: utils/cg.py:421-598.
    Random numbers are inputs: [u i] in [0,1) stands for the i-th call of np.random.uniform (scaled by the
    code), [g i] for the i-th standard normal, [b i] for the i-th np.random.randint(2). *)
From Coq Require Import Reals List Bool Arith.
From Verif Require Import Num M_Cg M_ConePolygon.
Import ListNotations.
Local Open Scope R_scope.

(* the outcomes of the functions of cg.py:421-598 *)
Inductive gen_out (A : Type) : Type :=
| GenValueError          (* ValueError: parameter out of range *)
| GenZeroDivision        (* ZeroDivisionError *)
| GenIndexError          (* IndexError *)
| Gen (a : A).
Arguments GenValueError {A}. Arguments GenZeroDivision {A}. Arguments GenIndexError {A}. Arguments Gen {A} a.

(* np.random.uniform(lower, upper) from a draw in [0,1) *)
Definition uniform (lower upper u : R) : R := lower + (upper - lower) * u.

(* sum accumulated in a loop: cumsum += angle *)
Definition cumsum (l : list R) : R := fold_left Rplus l 0.

(* cg.py:568-597 random_angle_steps(steps, irregularity) *)
Definition random_angle_steps (steps : nat) (irregularity : R) (u : nat -> R) : gen_out (list R) :=
  if Nat.eqb steps 0 then GenZeroDivision
  else
    let lower := (2 * PI / INR steps) - irregularity in
    let upper := (2 * PI / INR steps) + irregularity in
    let angles := map (fun i => uniform lower upper (u i)) (seq 0 steps) in
    let c := cumsum angles / (2 * PI) in
    if Reqb c 0 then GenZeroDivision
    else Gen (map (fun a => a / c) angles).

(* np.clip(x, lo, hi) *)
Definition np_clip (x lo hi : R) : R := Rmin (Rmax x lo) hi.

(* cg.py:553-564 the loop of generate_star_polygon; [i] counts the normal draws *)
Fixpoint star_points (center : RPt) (avg spik : R) (g : nat -> R) (i : nat) (angle : R) (steps : list R) : list RPt :=
  match steps with
  | [] => []
  | s :: rest =>
      let radius := np_clip (avg + spik * g i) 0 (2 * avg) in
      (fst center + radius * cos angle, snd center + radius * sin angle)
        :: star_points center avg spik g (S i) (angle + s) rest
  end.

(* cg.py:517-566 generate_star_polygon; [u0] is the draw for the start angle *)
Definition generate_star_polygon (center : RPt) (avg_radius irregularity spikiness : R) (num_vertices : nat)
  (u : nat -> R) (u0 : R) (g : nat -> R) : gen_out (list RPt) :=
  if Rltb irregularity 0 || Rltb 1 irregularity then GenValueError
  else if Rltb spikiness 0 || Rltb 1 spikiness then GenValueError
  else if Nat.eqb num_vertices 0 then GenZeroDivision
  else
    let irregularity' := irregularity * (2 * PI / INR num_vertices) in
    let spikiness' := spikiness * avg_radius in
    match random_angle_steps num_vertices irregularity' u with
    | Gen steps => Gen (star_points center avg_radius spikiness' g 0 (uniform 0 (2 * PI) u0) steps)
    | GenValueError => GenValueError
    | GenZeroDivision => GenZeroDivision
    | GenIndexError => GenIndexError
    end.

(** *** generate_convex_polygon, cg.py:421-515 *)
(* a sort: np.sort / sorted; both return the ascending arrangement, computed here by insertion *)
Section Sort.
  Context {A : Type} (leb : A -> A -> bool).
  (* insertion into a sorted list: one step of np.sort / sorted *)
  Fixpoint insert (x : A) (l : list A) : list A :=
    match l with
    | [] => [x]
    | y :: t => if leb x y then x :: l else y :: insert x t
    end.
  (* np.sort / sorted, used in cg.py:421-598 *)
  Definition isort (l : list A) : list A := fold_right insert [] l.
End Sort.

(* cg.py:439-452 (and 454-467): split the interior values into two chains, collect signed gaps.
   [k] counts the random bits. *)
Fixpoint chain (lastTop lastBot hi : R) (mids : list R) (b : nat -> bool) (k : nat) : list R :=
  match mids with
  | [] => [hi - lastTop; lastBot - hi]
  | m :: mids' =>
      if b k then (m - lastTop) :: chain m lastBot hi mids' b (S k)
      else (lastBot - m) :: chain lastTop m hi mids' b (S k)
  end.
(* cg.py:433-452: gaps of a sorted pool: pool[0], pool[1..n-2], pool[-1] *)
Definition gaps (pool : list R) (b : nat -> bool) : list R :=
  chain (hd 0 pool) (hd 0 pool) (last pool 0) (removelast (tl pool)) b 0.

(* cg.py:426-452: the x components of the edge vectors (426 and 427 both scale with box[0], so the same
   definition gives the y components before they are shuffled) *)
Definition drawn_x (box : RPt) (ux : list R) (b : nat -> bool) : list R :=
  gaps (isort Rleb (map (fun u => fst box * u) ux)) b.

(* Python's comparison of tuples (angle, value) *)
Definition tuple_leb (p q : R * R) : bool :=
  if Reqb (fst p) (fst q) then Rleb (snd p) (snd q) else Rltb (fst p) (fst q).

(* cg.py:489-496: partial sums *)
Fixpoint lay (x y : R) (xv yv : list R) : list RPt :=
  match xv, yv with
  | dx :: xv', dy :: yv' => (x, y) :: lay (x + dx) (y + dy) xv' yv'
  | _, _ => []
  end.
(* cg.py:497-498 running minimum of the partial sums after each step *)
Fixpoint lay_min (m s : R) (v : list R) : R :=
  match v with [] => m | d :: v' => lay_min (Rmin m (s + d)) (s + d) v' end.

(* np.mean(points, axis=0) *)
Definition np_mean (points : list RPt) : RPt :=
  (cumsum (map fst points) / INR (length points), cumsum (map snd points) / INR (length points)).

(* cg.py:421-515.  [ux], [uy]: the n draws for each pool (both scaled with box[0], as in lines 426-427);
   [shuffle]: np.random.shuffle.  The final shapely test only opens a plot and is left out. *)
Definition generate_convex_polygon (box : RPt) (ux uy : list R) (bx by_ : nat -> bool)
  (shuffle : list R -> list R) : gen_out (list RPt) :=
  match ux with
  | [] => GenIndexError
  | _ =>
      let xPool := isort Rleb (map (fun u => fst box * u) ux) in
      let yPool := isort Rleb (map (fun u => fst box * u) uy) in
      let xVec := drawn_x box ux bx in
      let yVec := shuffle (drawn_x box uy by_) in
      let angle := map (fun p => arctan2 (snd p) (fst p)) (combine xVec yVec) in
      let xVec' := map snd (isort tuple_leb (combine angle xVec)) in
      let yVec' := map snd (isort tuple_leb (combine angle yVec)) in
      let points := lay 0 0 xVec' yVec' in
      let xShift := hd 0 xPool - lay_min 0 0 xVec' in
      let yShift := hd 0 yPool - lay_min 0 0 yVec' in
      let points := map (fun p => (fst p + (xShift - fst box / 2), snd p + (yShift - snd box / 2))) points in
      let xr := np_mean points in
      Gen (map (fun p => (fst p - fst xr, snd p - snd xr)) points)
  end.
