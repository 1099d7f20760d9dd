(** Model of starshaped_hull/starshaped_hull.py:49-206 polygon_kernel_starshaped_hull, with line and ray of
    utils/cg.py:27-44.  The shapely geometry it consults (disjoint, intersection, contains) is a record of
    functions; the debug plots and k_centroid (used by them only) are left out.  Generic in [Num]: the
    comparison of two np.linalg.norm values (line 94) is made on their squares, which is the same test. *)
From Coq Require Import QArith Reals List Bool Arith ZArith.
From Verif Require Import Num M_Cg M_Motion M_Obstacle.
Import ListNotations.

(* Python list indexing: negative indices count from the end, IndexError outside *)
Definition py_index (n : nat) (i : Z) : option nat :=
  if (0 <=? i)%Z then (if (i <? Z.of_nat n)%Z then Some (Z.to_nat i) else None)
  else if (- Z.of_nat n <=? i)%Z then Some (Z.to_nat (i + Z.of_nat n)) else None.
(* l[i] *)
Definition py_get {A} (l : list A) (i : Z) : res A :=
  match py_index (length l) i with
  | Some j => match nth_error l j with Some a => Ret a | None => Exn IndexErr end
  | None => Exn IndexErr
  end.
(* l[i] = a *)
Definition py_set {A} (l : list A) (i : Z) (a : A) : res (list A) :=
  match py_index (length l) i with
  | Some j => Ret (firstn j l ++ a :: skipn (S j) l)
  | None => Exn IndexErr
  end.

Section PolHull.
  Context {T : Type} {N : Num T}.
  Local Open Scope num_scope.
  Notation pt := (pt T).

  (* numpy: number times 2-vector *)
  Definition pscale (c : T) (a : pt) : pt := (c * fst a, c * snd a).

  (* a shapely LineString with two coordinates *)
  Definition seg : Type := (pt * pt)%type.
  (* cg.py:27-29 line *)
  Definition line_seg (a b : pt) : seg :=
    (padd a (pscale (nlit (1 # 10000)) (psub b a)), padd a (pscale (nlit (9999 # 10000)) (psub b a))).
  (* cg.py:43-44 ray; DEFAULT_RAY_INFINITY_LENGTH = 100000. (cg.py:8) *)
  Definition ray_seg (a b c : pt) : seg :=
    (padd a (pscale (nlit (1 # 10000)) (psub c b)), padd a (pscale (nlit 100000) (psub c b))).

  (* the kinds of result of LineString.intersection(Polygon) that starshaped_hull.py:103-118 tells apart *)
  Inductive part : Type := PPoint (p : pt) | PLine (coords : list pt).
  (* the result of line(k, v).intersection(polygon), starshaped_hull.py:100 *)
  Inductive geom : Type :=
  | GEmpty
  | GLine (coords : list pt)              (* LineString *)
  | GMultiLine (ls : list (list pt))      (* MultiLineString *)
  | GCollection (gs : list part)          (* GeometryCollection *)
  | GOther (ps : list pt).                (* Point, MultiPoint *)
  (* LineString.intersection(LineString): empty, a Point, or something without attribute x *)
  Inductive cross_geom : Type := XEmpty | XPoint (p : pt) | XLine (a b : pt).

  (* the shapely calls of starshaped_hull.py:79, 81, 89, 100, 124, 131, 134, 150 *)
  Record pol_world : Type := {
    pw_disjoint : seg -> bool;              (* s.disjoint(polygon); s.intersects(polygon) is its negation *)
    pw_meet : seg -> geom;                  (* s.intersection(polygon) *)
    pw_cross : seg -> seg -> cross_geom;    (* s.intersection(s') *)
    pw_in_kernel : pt -> bool }.            (* convex_kernel_subset.contains(Point(v)) *)

  Variable W : pol_world.
  Variable K : list pt.   (* kernel_points *)

  (* starshaped_hull.py:68: np.argmax of the first column, the first of the largest *)
  Fixpoint argmax_x (best : T) (bi i : nat) (l : list pt) : nat :=
    match l with
    | [] => bi
    | p :: r => if best <? fst p then argmax_x (fst p) i (S i) r else argmax_x best bi (S i) r
    end.

  (* starshaped_hull.py:68-69 np.roll by -start_idx *)
  Definition roll_to_max (vertices : list pt) : list pt :=
    match vertices with
    | [] => []
    | p :: r => let s := argmax_x (fst p) 0 1 r in skipn s vertices ++ firstn s vertices
    end.
  (* starshaped_hull.py:71-72 np.flip, then np.roll by 1 *)
  Definition flip_roll (vs : list pt) : list pt :=
    match rev vs with [] => [] | b :: t => last t b :: removelast (b :: t) end.
  (* starshaped_hull.py:67-72 *)
  Definition arrange (vertices : list pt) : res (list pt) :=
    let vs := roll_to_max vertices in
    bind (py_get vs (-1)) (fun a => bind (py_get vs 0) (fun b => bind (py_get vs 1) (fun c =>
      if is_cw a b c then Ret (flip_roll vs) else Ret vs))).

  (* np.array_equal, starshaped_hull.py:99 *)
  Definition pt_eqb (a b : pt) : bool := (fst a =? fst b) && (snd a =? snd b).
  (* square of np.linalg.norm(a - b), starshaped_hull.py:94 *)
  Definition norm2_diff (a b : pt) : T := nsq (fst a - fst b) + nsq (snd a - snd b).

  (* starshaped_hull.py:79 *)
  Definition visible (v : pt) : bool := forallb (fun k => pw_disjoint W (ray_seg v k v)) K.

  (* starshaped_hull.py:88-95: the loop over the kernel points; e2, e1e2 are fixed before it *)
  Fixpoint adjust_loop (v e2 : pt) (e1e2 : seg) (e1_idx : Z) (ks : list pt) (sv : list pt) (adj : bool)
    : res (list pt * bool) :=
    match ks with
    | [] => Ret (sv, adj)
    | k :: r =>
        match pw_cross W (line_seg k v) e1e2 with
        | XEmpty => adjust_loop v e2 e1e2 e1_idx r sv adj
        | XLine _ _ => Exn AttributeErr
        | XPoint c =>
            bind (py_get sv e1_idx) (fun cur =>
              if norm2_diff e2 c <? norm2_diff e2 cur
              then bind (py_set sv e1_idx c) (fun sv' => adjust_loop v e2 e1e2 e1_idx r sv' true)
              else adjust_loop v e2 e1e2 e1_idx r sv true)
        end
    end.

  (* starshaped_hull.py:104-118 *)
  Definition intersection_points (g : geom) : list pt :=
    match g with
    | GLine c => c
    | GMultiLine ls => concat ls
    | GCollection gs => flat_map (fun p => match p with PPoint q => [q] | PLine _ => [] end) gs
    | GEmpty | GOther _ => []
    end.

  (* starshaped_hull.py:137-140 (and 152-155) append and remember the last augmented edge; 141-146 (156-160) swap when not CCW *)
  Definition augment (sv : list pt) (u v v_prev : pt) : res (list pt * Z * Z) :=
    let sv1 := sv ++ [u] in
    let e1 := (Z.of_nat (length sv1) - 1)%Z in
    let e2 := (Z.of_nat (length sv1) - 2)%Z in
    if is_ccw u v v_prev then
      bind (py_get sv1 (-1)) (fun a => bind (py_get sv1 (-2)) (fun b =>
        bind (py_set sv1 (-2) a) (fun sv2 => bind (py_set sv2 (-1) b) (fun sv3 => Ret (sv3, e2, e1)))))
    else Ret (sv1, e1, e2).

  (* starshaped_hull.py:132-136 *)
  Fixpoint shift_u (v_bar : pt) (u_v : seg) (kps : list pt) (u : pt) : res pt :=
    match kps with
    | [] => Ret u
    | kp :: r =>
        match pw_cross W (line_seg kp v_bar) u_v with
        | XEmpty => shift_u v_bar u_v r u
        | XPoint c => shift_u v_bar u_v r c
        | XLine _ _ => Exn AttributeErr
        end
    end.

  (* star_vertices, e1_idx, e2_idx, k_included of starshaped_hull.py:60-65 *)
  Record aug_state : Type := AS { a_sv : list pt; a_e1 : Z; a_e2 : Z; a_inc : list bool }.

  (* starshaped_hull.py:98-161: the loop over the kernel points of one vertex *)
  Fixpoint augment_loop (v v_prev v_bar : pt) (k_idx : nat) (ks : list pt) (s : aug_state) : res aug_state :=
    match ks with
    | [] => Ret s
    | k :: r =>
        let kps := filter (fun kp => negb (pt_eqb kp k)) K in
        let next := augment_loop v v_prev v_bar (S k_idx) r in
        match pw_meet W (line_seg k v) with
        | GEmpty =>
            if negb (nth k_idx (a_inc s) true) && forallb (fun kp => pw_disjoint W (ray_seg k kp v)) kps
            then bind (augment (a_sv s) k v v_prev) (fun '(sv, e1, e2) =>
                   next (AS sv e1 e2 (firstn k_idx (a_inc s) ++ true :: skipn (S k_idx) (a_inc s))))
            else next s
        | g =>
            match find (fun uc => pw_disjoint W (line_seg uc v)) (intersection_points g) with
            | None => next s
            | Some u =>
                if forallb (fun kp => pw_disjoint W (ray_seg u kp v)) kps
                then bind (shift_u v_bar (line_seg u v) kps u) (fun u' =>
                     bind (augment (a_sv s) u' v v_prev) (fun '(sv, e1, e2) => next (AS sv e1 e2 (a_inc s))))
                else next s
            end
        end
    end.

  (* starshaped_hull.py:80-82 *)
  Definition add_vertex (v : pt) (sv : list pt) : list pt :=
    if (length K <? 3)%nat || negb (pw_in_kernel W v) then sv ++ [v] else sv.

  (* starshaped_hull.py:76-163: one vertex; v_bar travels with the state *)
  Definition vertex_step (v v_prev : pt) (st : aug_state * pt) : res (aug_state * pt) :=
    let '(s, v_bar) := st in
    if visible v then
      let sv1 := add_vertex v (a_sv s) in
      bind (match sv1 with
            | [] => Ret (sv1, false)
            | _ => bind (py_get sv1 (a_e1 s)) (fun e1 => bind (py_get sv1 (a_e2 s)) (fun e2 =>
                     adjust_loop v e2 (line_seg e1 e2) (a_e1 s) K sv1 false))
            end) (fun '(sv2, adj) =>
      let s2 := AS sv2 (a_e1 s) (a_e2 s) (a_inc s) in
      bind (if adj then Ret s2 else augment_loop v v_prev v_bar 0 K s2) (fun s3 =>
      bind (py_get (a_sv s3) (-1)) (fun vb => Ret (s3, vb))))
    else Ret (s, v_bar).

  (* starshaped_hull.py:76-163 the loop over the vertices; v_prev is vertices[v_idx-1] *)
  Fixpoint vertex_loop (v_prev : pt) (vs : list pt) (st : aug_state * pt) : res (aug_state * pt) :=
    match vs with
    | [] => Ret st
    | v :: r => bind (vertex_step v v_prev st) (vertex_loop v r)
    end.

  (* starshaped_hull.py:179-183: the kernel points that edge (v, vp) leaves on its right *)
  Fixpoint insert_kernel (j : nat) (v vp : pt) (k_idx : nat) (ks : list pt) (sv : list pt) (inc : list bool)
    : list pt * list bool :=
    match ks with
    | [] => (sv, inc)
    | k :: r =>
        if negb (nth k_idx inc true) && is_cw k v vp
        then insert_kernel j v vp (S k_idx) r (firstn j sv ++ k :: skipn j sv)
               (firstn k_idx inc ++ true :: skipn (S k_idx) inc)
        else insert_kernel j v vp (S k_idx) r sv inc
    end.
  (* starshaped_hull.py:176-183 the outer loop: range(len(star_vertices)) is fixed before the loop *)
  Fixpoint final_loop (count j : nat) (sv : list pt) (inc : list bool) : res (list pt) :=
    match count with
    | O => Ret sv
    | S c =>
        bind (py_get sv (Z.of_nat j - 1)) (fun v => bind (py_get sv (Z.of_nat j)) (fun vp =>
          let '(sv', inc') := insert_kernel j v vp 0 K sv inc in final_loop c (S j) sv' inc'))
    end.

  (* starshaped_hull.py:55-206 once v_bar is kernel_points[0]; the result is the list given to shapely.geometry.Polygon, which accepts no
     vertex (empty polygon) and refuses one or two *)
  Definition hull_from (k0 : pt) (vertices : list pt) : res (list pt) :=
    bind (arrange vertices) (fun vs =>
    bind (vertex_loop (last vs k0) vs (AS [] 0 0 (map (fun _ => false) K), k0)) (fun '(s, _) =>
    bind (final_loop (length (a_sv s)) 0 (a_sv s) (a_inc s)) (fun sv =>
      match sv with
      | [_] | [_; _] => Exn ValueErr
      | _ => Ret sv
      end))).
  (* starshaped_hull.py:49-206 *)
  Definition polygon_kernel_starshaped_hull (vertices : list pt) : res (list pt) :=
    match K with
    | [] => Exn IndexErr
    | k0 :: _ => hull_from k0 vertices
    end.
End PolHull.
Arguments seg : clear implicits.
Arguments pol_world : clear implicits.
Arguments geom : clear implicits.
Arguments part : clear implicits.
Arguments cross_geom : clear implicits.
Arguments aug_state : clear implicits.
