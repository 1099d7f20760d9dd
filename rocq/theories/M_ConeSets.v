(** Cone.intersection and Cone.list_intersection up to the geometry they return. *)
From Coq Require Import Reals List Bool.
From Verif Require Import Num M_Cg M_Obstacle M_ConePolygon M_Clusters M_Starify.
Import ListNotations.
Local Open Scope R_scope.

Section ConeSets.
  Context {G : Type}.
  Variable ring : list RPt -> G.          (* shapely.geometry.Polygon of a vertex list *)
  Variable inter : G -> G -> G.           (* intersection *)
  Variable union : list G -> G.           (* shapely.ops.unary_union *)
  (* cg.py:295-347 Cone.polygon as a geometry *)
  Definition cone_shape (c : cone R) : outcome G :=
    match cone_polygon c with
    | Vertices vs => Val (ring vs)
    | AttributeError => Raise AttributeErr
    | Loop => NoAnswer
    end.
  (* cg.py:408-412 and 357-361: one cone gives its polygon, otherwise the union *)
  Definition cones_shape (l : list (cone R)) : outcome G :=
    match l with
    | [c] => cone_shape c
    | _ => obind (omap cone_shape l) (fun gs => Val (union gs))
    end.
  (* cg.py:355-363 Cone.intersection *)
  Definition cone_intersection (self other : cone R) (same_apex : bool) : outcome G :=
    if same_apex then cones_shape (intersection_same_apex self other)
    else obind (cone_shape self) (fun g => obind (cone_shape other) (fun h => Val (inter g h))).
  (* cg.py:389-391 the loop for same_apex=False *)
  Fixpoint inter_all (g : G) (cones : list (cone R)) : outcome G :=
    match cones with
    | [] => Val g
    | c :: cs => obind (cone_shape c) (fun h => inter_all (inter g h) cs)
    end.
  (* cg.py:385-412 Cone.list_intersection *)
  Definition cone_list_intersection (cones : list (cone R)) (same_apex : bool) : outcome G :=
    if same_apex then
      match list_intersection cones with
      | IndexError => Raise IndexErr
      | EmptyPolygon => Val (ring [])
      | UnionOf l => cones_shape l
      end
    else match cones with
         | [] => Raise IndexErr
         | c :: cs => obind (cone_shape c) (fun g => inter_all g cs)
         end.
End ConeSets.
