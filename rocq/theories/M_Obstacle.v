(** Model of obstacles/obstacle.py and obstacles/starshaped_obstacle.py: ids, copies, frames, the polygon and
    kernel caches, reference points.  A shapely polygon is represented by its list of exterior vertices;
    shapely.affinity.affine_transform acts on the vertices. *)
From Coq Require Import Reals List Bool Arith ZArith.
From Verif Require Import Num M_Cg M_Motion.
Import ListNotations.
Local Open Scope R_scope.

(** *** ids *)
(* the id argument: 'new'/'n'; 'temporary'/'temp'/'t'; an int; anything else *)
Inductive id_arg : Type := IdNew | IdTemporary | IdInt (z : Z) | IdOther.

(* obstacle.py:133-143 _set_id_name, without the name; [counter] is the class variable Obstacle.id_counter *)
Definition set_id (counter : Z) (a : id_arg) : Z * option Z :=
  match a with
  | IdNew => ((counter + 1)%Z, Some (counter + 1)%Z)
  | IdTemporary => (counter, None)
  | IdInt z => (counter, if (0 <? z)%Z && (z <=? counter)%Z then Some z else None)
  | IdOther => (counter, None)
  end.
(* a history of constructions; obstacle.py:21 id_counter = 0 initially *)
Fixpoint set_ids (counter : Z) (l : list id_arg) : list (option Z) :=
  match l with
  | [] => []
  | a :: r => let '(c, i) := set_id counter a in i :: set_ids c r
  end.

(** *** copies: motion models live in a heap, an obstacle holds a reference or None *)
Inductive obs_class : Type := CPolygon | CEllipse | CStarPolygon | CCombination.
(* the motion model objects in existence; no counterpart in the source *)
Definition heap := list mm.
(* default of nth, never read *)
Definition dead : mm := static_new None 0.

(* obstacle.py:40-44 Obstacle.copy is deepcopy (used by Polygon and StarshapedPrimitiveCombination);
   ellipse.py:20-23 and starshaped_polygon.py:23-26 pass the same motion_model object to a new instance *)
Definition copy_ref (c : obs_class) (h : heap) (r : option nat) : heap * option nat :=
  match c with
  | CPolygon | CCombination =>
      match r with
      | None => (h, None)
      | Some l => (h ++ [nth l h dead], Some (length h))
      end
  | CEllipse | CStarPolygon => (h, r)
  end.

(* the object at address l is changed in place (motion_model.py:16-18) *)
Fixpoint upd (l : nat) (m : mm) (h : heap) : heap :=
  match h, l with
  | [], _ => []
  | _ :: t, O => m :: t
  | x :: t, S l' => x :: upd l' m t
  end.
(* obstacle.py:67-69 move *)
Definition move_ref (h : heap) (r : option nat) (dt : R) : option heap :=
  match r with
  | None => Some h
  | Some l => match move dt (nth l h dead) with Some m => Some (upd l m h) | None => None end
  end.
(* obstacle.py:67-69, called several times *)
Definition moves_ref (h : heap) (r : option nat) (dts : list R) : option heap :=
  fold_left (fun o dt => match o with Some h' => move_ref h' r dt | None => None end) dts (Some h).
(* obstacle.py:46-56 pos() and rot() in the global frame *)
Definition pose_ref (h : heap) (r : option nat) : RPt * R :=
  match r with None => ((0, 0), 0) | Some l => (m_pos (nth l h dead), m_rot (nth l h dead)) end.

(** *** frames *)
(* obstacle.py:10-12; [OTHER] stands for any other value passed as a frame *)
Inductive frame : Type := GLOBAL | OBSTACLE | OTHER.
(* obstacle.py:95, 105 input_frame == output_frame *)
Definition frame_eqb (a b : frame) : bool :=
  match a, b with GLOBAL, GLOBAL | OBSTACLE, OBSTACLE | OTHER, OTHER => true | _, _ => false end.
(* the exceptions that can leave a modelled call; NotFinite: nan or inf, numpy raises nothing *)
Inductive exn : Type := InvalidFrameError | AttributeErr | IndexErr | NotFinite | RuntimeErr | ValueErr | TypeErr | UnboundErr | ZeroDivisionErr.
(* result of a call: a value or an exception *)
Inductive res (A : Type) : Type := Ret (a : A) | Exn (e : exn).
Arguments Ret {A} a. Arguments Exn {A} e.
(* sequencing of two calls; no counterpart in the source *)
Definition bind {A B} (r : res A) (f : A -> res B) : res B := match r with Ret a => f a | Exn e => Exn e end.

(* obstacle.py:94-102 transform, with 154-160 *)
Definition transform (m : option mm) (x : RPt) (fi fo : frame) : res RPt :=
  match m with
  | None => Ret x
  | Some m =>
      if frame_eqb fi fo then Ret x
      else match fi, fo with
           | OBSTACLE, GLOBAL => Ret (affine_transform x (m_rot m) (m_pos m) false)
           | GLOBAL, OBSTACLE => Ret (affine_transform x (m_rot m) (m_pos m) true)
           | _, _ => Exn InvalidFrameError
           end
  end.
(* obstacle.py:104-112 rotate, with 146-152 *)
Definition rotate (m : option mm) (x : RPt) (fi fo : frame) : res RPt :=
  match m with
  | None => Ret x
  | Some m =>
      if frame_eqb fi fo then Ret x
      else match fi, fo with
           | OBSTACLE, GLOBAL => Ret (affine_transform x (m_rot m) (0, 0) false)
           | GLOBAL, OBSTACLE => Ret (affine_transform x (m_rot m) (0, 0) true)
           | _, _ => Exn InvalidFrameError
           end
  end.

(** *** objects with caches *)
(* what the class-specific methods compute: [rep] is the polygon stored by _compute_polygon_representation
   (or by the constructor of Polygon); for a StarshapedPolygon [kern] is what _compute_kernel stores,
   None when it gives up (starshaped_polygon.py:341 returns False without storing) *)
Inductive kind : Type :=
| KPolygon (rep : list RPt)
| KStarPolygon (rep : list RPt) (kern : option (list RPt))
| KEllipse (rep : list RPt).
(* obstacle.py:74-75, 200-201 the result of _compute_polygon_representation *)
Definition rep_of (k : kind) : list RPt := match k with KPolygon r | KStarPolygon r _ | KEllipse r => r end.

(* obstacle.py:80 current_pose *)
Definition pose := (R * R * R)%type.
(* obstacle.py:80 current_pose *)
Definition pose_of (m : mm) : pose := (fst (m_pos m), snd (m_pos m), m_rot m).
(* obstacle.py:81 list equality *)
Definition pose_eqb (a b : pose) : bool :=
  Reqb (fst (fst a)) (fst (fst b)) && Reqb (snd (fst a)) (snd (fst b)) && Reqb (snd a) (snd b).

(* obstacle.py:25-34 and starshaped_obstacle.py:11-14, the attributes of an instance *)
Record obj : Type := Obj {
  o_mm : option mm;                    (* _motion_model *)
  o_polygon : option (list RPt);       (* _polygon *)
  o_polygon_global : option (list RPt);(* _polygon_global *)
  o_polygon_pose : option pose;        (* _polygon_global_pose *)
  o_kernel : option (list RPt);        (* _kernel *)
  o_kernel_global : option (list RPt); (* _kernel_global *)
  o_kernel_pose : option pose;         (* _kernel_global_pose *)
  o_xr : RPt }.                        (* _xr *)

(* obstacle.py:82-85: the matrix of the pose applied to the polygon *)
Definition apply_pose (p : pose) (l : list RPt) : list RPt :=
  let c := cos (snd p) in let s := sin (snd p) in
  map (fun v => (c * fst v + - s * snd v + fst (fst p), s * fst v + c * snd v + snd (fst p))) l.

(* obstacle.py:162-172 _compute_global_polygon_representation, called from polygon.py:15: leaves the pose unset *)
Definition initial_global (rep : list RPt) (m : option mm) : option (list RPt) :=
  match m with
  | None => Some rep
  | Some m' => match m_class m' with CStatic => Some (apply_pose (pose_of m') rep) | _ => None end
  end.
(* constructors: obstacle.py:24-36, starshaped_obstacle.py:9-14, polygon.py:11-18, ellipse.py:10-18;
   starshaped_polygon.py:11-20 with an explicit xr *)
Definition new_obj (k : kind) (m : option mm) (xr : RPt) : obj :=
  match k with
  | KPolygon rep | KStarPolygon rep _ => Obj m (Some rep) (initial_global rep m) None None None None xr
  | KEllipse rep => Obj m None None None None None None xr
  end.

(* obstacle.py:73-89 polygon *)
Definition polygon (k : kind) (f : frame) (o : obj) : obj * res (option (list RPt)) :=
  let pol := match o_polygon o with None => rep_of k | Some p => p end in
  let o1 := Obj (o_mm o) (Some pol) (o_polygon_global o) (o_polygon_pose o) (o_kernel o) (o_kernel_global o) (o_kernel_pose o) (o_xr o) in
  match f, o_mm o with
  | OBSTACLE, _ | _, None => (o1, Ret (Some pol))
  | GLOBAL, Some m =>
      let current := pose_of m in
      if match o_polygon_pose o with Some p => pose_eqb current p | None => false end
      then (o1, Ret (o_polygon_global o))
      else
        let g := apply_pose current pol in
        (Obj (o_mm o) (Some pol) (Some g) (Some current) (o_kernel o) (o_kernel_global o) (o_kernel_pose o) (o_xr o), Ret (Some g))
  | OTHER, Some _ => (o1, Exn InvalidFrameError)
  end.

(* starshaped_obstacle.py:46-61 kernel; ellipse.py:209-210 _compute_kernel stores whatever _polygon is.
   affine_transform of None raises AttributeError after the pose has been stored *)
Definition kernel (k : kind) (f : frame) (o : obj) : obj * res (option (list RPt)) :=
  match k with
  | KPolygon _ => (o, Exn AttributeErr)
  | _ =>
    let kern := match o_kernel o with
                | Some q => Some q
                | None => match k with KEllipse _ => o_polygon o | KStarPolygon _ q => q | KPolygon _ => None end
                end in
    let o1 := Obj (o_mm o) (o_polygon o) (o_polygon_global o) (o_polygon_pose o) kern (o_kernel_global o) (o_kernel_pose o) (o_xr o) in
    match f, o_mm o with
    | OBSTACLE, _ | _, None => (o1, Ret kern)
    | GLOBAL, Some m =>
        let current := pose_of m in
        if match o_kernel_pose o with Some p => pose_eqb current p | None => false end
        then (o1, Ret (o_kernel_global o))
        else match kern with
             | None => (Obj (o_mm o) (o_polygon o) (o_polygon_global o) (o_polygon_pose o) kern (o_kernel_global o) (Some current) (o_xr o),
                        Exn AttributeErr)
             | Some q =>
                 let g := apply_pose current q in
                 (Obj (o_mm o) (o_polygon o) (o_polygon_global o) (o_polygon_pose o) kern (Some g) (Some current) (o_xr o), Ret (Some g))
             end
    | OTHER, Some _ => (o1, Exn InvalidFrameError)
    end
  end.

(* obstacle.py:129-130 assignment to _motion_model *)
Definition with_mm (m : option mm) (o : obj) : obj :=
  Obj m (o_polygon o) (o_polygon_global o) (o_polygon_pose o) (o_kernel o) (o_kernel_global o) (o_kernel_pose o) (o_xr o).
(* starshaped_obstacle.py:24, 26 assignment to _xr *)
Definition with_xr (x : RPt) (o : obj) : obj :=
  Obj (o_mm o) (o_polygon o) (o_polygon_global o) (o_polygon_pose o) (o_kernel o) (o_kernel_global o) (o_kernel_pose o) x.

(* starshaped_obstacle.py:16-17 xr *)
Definition get_xr (o : obj) (f : frame) : res RPt := transform (o_mm o) (o_xr o) OBSTACLE f.
(* starshaped_obstacle.py:19-26 set_xr; with safe_set the shapely polygon (or None) returned by kernel()
   has no method exterior_point *)
Definition set_xr (k : kind) (p : RPt) (f : frame) (safe : bool) (o : obj) : obj * res (option (list RPt)) :=
  match k with
  | KPolygon _ => (o, Exn AttributeErr)
  | _ =>
    match transform (o_mm o) p f OBSTACLE with
    | Exn e => (o, Exn e)
    | Ret new_xr =>
        if safe then
          let '(o1, r) := kernel k GLOBAL o in
          match r with Exn e => (o1, Exn e) | Ret _ => (o1, Exn AttributeErr) end
        else (with_xr new_xr o, Ret None)
    end
  end.

(** histories *)
Inductive op : Type :=
| OpMove (dt : R) | OpSetPos (p : RPt) | OpSetRot (r : R) | OpSetMotionModel (m : option mm)
| OpPolygon (f : frame) | OpKernel (f : frame) | OpSetXr (p : RPt) (f : frame) (safe : bool).

(* obstacle.py:67-69 move, 129-130 set_motion_model; set_pos and set_rot are called on the motion model.
   [None]: the position became nan/inf, outside the model *)
Definition step (k : kind) (o : obj) (x : op) : option (obj * res (option (list RPt))) :=
  match x with
  | OpMove dt =>
      match o_mm o with
      | None => Some (o, Ret None)
      | Some m => match lin_vel m with
                  | VelIndexError => Some (o, Exn IndexErr)
                  | VelNotFinite => None
                  | Vel _ _ => Some (with_mm (move dt m) o, Ret None)
                  end
      end
  | OpSetPos p => Some (with_mm (option_map (set_pos p) (o_mm o)) o, Ret None)
  | OpSetRot r => Some (with_mm (option_map (set_rot r) (o_mm o)) o, Ret None)
  | OpSetMotionModel m => Some (with_mm m o, Ret None)
  | OpPolygon f => Some (polygon k f o)
  | OpKernel f => Some (kernel k f o)
  | OpSetXr p f s => Some (set_xr k p f s o)
  end.
(* a sequence of calls on one object *)
Fixpoint run (k : kind) (o : obj) (l : list op) : option obj :=
  match l with
  | [] => Some o
  | x :: r => match step k o x with Some (o', _) => run k o' r | None => None end
  end.

(** *** interior / exterior / boundary, reference direction, inertial velocity *)
(* obstacle.py:58-65; loc is the value of point_location; np.isclose(loc, 0.) is |loc| <= 1e-8 + 1e-5*0 *)
Definition interior_point (loc : R) : bool := Rltb loc 0.
(* obstacle.py:61-62 exterior_point *)
Definition exterior_point (loc : R) : bool := Rltb 0 loc.
(* obstacle.py:64-65 boundary_point *)
Definition boundary_point (loc : R) : bool := np_isclose loc 0 (1 / 100000) (1 / 100000000).

(* np.sign *)
Definition np_sign (x : R) : R := if Rltb 0 x then 1 else if Rltb x 0 then -1 else 0.
(* starshaped_obstacle.py:35-40 distance_function, 43-44 point_location; [b] is the boundary point, in the obstacle frame *)
Definition distance_function (x_obstacle xr b : RPt) : res R :=
  let den := np_norm (psub b xr) in
  if Reqb den 0 then Exn NotFinite else Ret ((np_norm (psub x_obstacle xr) / den) ^ 2).
(* starshaped_obstacle.py:43-44 point_location *)
Definition star_point_location (x_obstacle xr b : RPt) : res R :=
  bind (distance_function x_obstacle xr b) (fun d => Ret (np_sign (d - 1))).

(* starshaped_obstacle.py:28-32 reference_direction *)
Definition reference_direction (m : option mm) (xr x : RPt) (fi fo : frame) : res RPt :=
  bind (transform m x fi fo) (fun xo => bind (transform m xr OBSTACLE fo) (fun xro =>
    let dir := psub xo xro in
    if Reqb (np_norm dir) 0 then Exn NotFinite else Ret (scale (/ np_norm dir) dir))).

(* starshaped_obstacle.py:63-68 vel_intertial_frame; np.cross([0,0,w],[d0,d1,0])[:2] = (-w d1, w d0) *)
Definition vel_intertial_frame (m : option mm) (xr x : RPt) : res RPt :=
  match m with
  | None => Ret (0, 0)
  | Some m' =>
      let omega := rot_vel m' in
      bind (reference_direction m xr x GLOBAL GLOBAL) (fun d =>
        match lin_vel m' with
        | Vel _ v => Ret (padd v (0 * 0 - omega * snd d, omega * fst d - 0 * 0))
        | VelIndexError => Exn IndexErr
        | VelNotFinite => Exn NotFinite
        end)
  end.
