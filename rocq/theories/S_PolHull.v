(** What polygon_kernel_starshaped_hull expects of shapely, and the vocabulary of its properties. *)
From Coq Require Import Reals List.
From Verif Require Import Num Spec M_PolHull.
Import ListNotations.
Open Scope R_scope.

(** the points of a LineString / of a shapely result *)
Definition polyline (l : list Pt) (x : Pt) : Prop := In x l \/ exists a b, In (a, b) (combine l (tl l)) /\ on_seg a b x.
Definition part_region (p : part R) (x : Pt) : Prop := match p with PPoint q => x = q | PLine l => polyline l x end.
Definition geom_region (g : geom R) (x : Pt) : Prop :=
  match g with
  | GEmpty => False
  | GLine l => polyline l x
  | GMultiLine ls => exists l, In l ls /\ polyline l x
  | GCollection gs => exists p, In p gs /\ part_region p x
  | GOther ps => In x ps
  end.
(** the points of a two-point LineString *)
Definition seg_region (s : seg R) (x : Pt) : Prop := on_seg (fst s) (snd s) x.
(** [v] lies in the interior of the hull of [ps] *)
Definition deep_inside (ps : list Pt) (v : Pt) : Prop := exists r, 0 < r /\ forall x, dist v x < r -> in_hull ps x.

(** shapely answers what its documentation says, for the polygon that covers [A] and the kernel points [K] *)
Record faithful (A : region) (K : list Pt) (W : pol_world R) : Prop := {
  f_disjoint : forall s, pw_disjoint W s = true <-> forall x, seg_region s x -> ~ A x;
  f_meet : forall s x, geom_region (pw_meet W s) x <-> seg_region s x /\ A x;
  f_meet_empty : forall s, pw_meet W s = GEmpty <-> forall x, seg_region s x -> ~ A x;
  f_cross : forall s s',
    match pw_cross W s s' with
    | XEmpty => forall x, ~ (seg_region s x /\ seg_region s' x)
    | XPoint c => forall x, seg_region s x /\ seg_region s' x <-> x = c
    | XLine a b => a <> b /\ forall x, seg_region s x /\ seg_region s' x <-> on_seg a b x
    end;
  f_kernel : length K = 3%nat -> forall v, pw_in_kernel W v = true <-> deep_inside K v }.

(** [A] is the region enclosed by the simple polygon with the counter-clockwise vertices [l]: a triangle, or a region
    with a triangle glued on along one edge *)
Definition in_triangle_of (a b c x : Pt) : Prop := 0 <= area2 a b x /\ 0 <= area2 b c x /\ 0 <= area2 c a x.
Inductive encloses : list Pt -> region -> Prop :=
| enc_triangle a b c : 0 < area2 a b c -> encloses [a; b; c] (in_triangle_of a b c)
| enc_ear a b c l A : 0 < area2 a b c -> encloses (a :: c :: l) A -> (forall x, A x -> in_triangle_of a b c x -> on_seg a c x) ->
    encloses (a :: b :: c :: l) (fun x => A x \/ in_triangle_of a b c x)
| enc_turn a l A : encloses (a :: l) A -> encloses (l ++ [a]) A
| enc_same l A B : encloses l A -> (forall x, A x <-> B x) -> encloses l B.

(** on a segment from a kernel point to a vertex *)
Definition spanned (K V : list Pt) (p : Pt) : Prop := exists k v, In k K /\ In v V /\ on_seg k v p.
(** no point of the ray leaving the polygon at [v], away from [k], is in [A] (up to the length the code looks at) *)
Definition open_behind (A : region) (k v : Pt) : Prop := forall t, 1 / 10000 <= t <= 100000 -> ~ A (vadd v (smul t (vsub v k))).
