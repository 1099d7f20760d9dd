(** Names of obstacles: the name part of Obstacle._set_id_name, and what copies and dilated obstacles are called. *)
From Coq Require Import String List Bool ZArith.
From Verif Require Import M_Obstacle M_Clusters.
Import ListNotations.
Open Scope Z_scope.

(* the attributes set by _set_id_name *)
Record tag := Tag { t_class : obs_class; t_id : option Z; t_name : string }.
(* obstacle.py:144 self._name = name if name else str(self._id): None and '' count as no name *)
Definition name_for (name : option string) (i : option Z) : string :=
  match name with
  | Some s => if String.eqb s "" then str_id i else s
  | None => str_id i
  end.
(* obstacle.py:38 __str__ *)
Definition str_obstacle (t : tag) : string := t_name t.
(* obstacle.py:25-31 construction with 133-144 _set_id_name; [counter] is Obstacle.id_counter *)
Definition create (counter : Z) (c : obs_class) (a : id_arg) (name : option string) : Z * tag :=
  let '(counter', i) := set_id counter a in (counter', Tag c i (name_for name i)).
(* the id argument of copy and dilated_obstacle: 'duplicate'/'d', or as in a construction *)
Inductive copy_id : Type := Duplicate | Id (a : id_arg).
(* the id of an existing object as an argument: an int, or None, which is none of the accepted values (obstacle.py:141-143) *)
Definition id_again (i : option Z) : id_arg := match i with Some z => IdInt z | None => IdOther end.
(* obstacle.py:40-44 copy (Polygon, StarshapedPrimitiveCombination); ellipse.py:20-23, starshaped_polygon.py:24-27 *)
Definition copy_tag (counter : Z) (t : tag) (a : copy_id) (name : option string) : Z * tag :=
  match t_class t with
  | CPolygon | CCombination =>
      match a with
      | Duplicate => (counter, t)
      | Id a => create counter (t_class t) a name
      end
  | CEllipse | CStarPolygon =>
      create counter (t_class t) (match a with Duplicate => id_again (t_id t) | Id a => a end) name
  end.
(* the call copy(id, name) with arguments left out ([None] outside): Obstacle.copy has the defaults 'temporary' and None, the other two
   have no defaults (ellipse.py:20, starshaped_polygon.py:24) *)
Definition copy_call (counter : Z) (t : tag) (a : option copy_id) (name : option (option string)) : res (Z * tag) :=
  match t_class t with
  | CPolygon | CCombination =>
      Ret (copy_tag counter t (match a with Some a => a | None => Id IdTemporary end) (match name with Some n => n | None => None end))
  | CEllipse | CStarPolygon =>
      match a, name with Some a, Some n => Ret (copy_tag counter t a n) | _, _ => Exn TypeErr end
  end.
(* polygon.py:52, starshaped_polygon.py:31, ellipse.py:26: dilated_obstacle(padding, id="new", name=None) starts with self.copy(id, name);
   starshaped_primitive_combination.py:24-25 returns None *)
Definition dilated_tag (counter : Z) (t : tag) (a : option copy_id) (name : option string) : option (Z * tag) :=
  match t_class t with
  | CCombination => None
  | _ => Some (copy_tag counter t (match a with Some a => a | None => Id IdNew end) name)
  end.
(* a program: constructions, copies and dilations of earlier obstacles (by position) *)
Inductive naming : Type :=
| Make (c : obs_class) (a : id_arg) (name : option string)
| Copy (k : nat) (a : copy_id) (name : option string)
| Dilate (k : nat) (a : option copy_id) (name : option string).
(* effect on the counter and the obstacles in existence; no counterpart in the source *)
Definition naming_step (w : Z * list tag) (o : naming) : Z * list tag :=
  let '(counter, ts) := w in
  let add r := (fst r, ts ++ [snd r]) in
  match o with
  | Make c a n => add (create counter c a n)
  | Copy k a n => match nth_error ts k with Some t => add (copy_tag counter t a n) | None => w end
  | Dilate k a n => match nth_error ts k with
                    | Some t => match dilated_tag counter t a n with Some r => add r | None => w end
                    | None => w
                    end
  end.
(* obstacle.py:21 id_counter = 0 *)
Definition naming_run (l : list naming) : Z * list tag := fold_left naming_step l (0, []).
