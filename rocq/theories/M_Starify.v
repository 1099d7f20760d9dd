(** Model of starshaped_hull/cluster_and_starify.py:86-449: compute_kernel_points, extract_cluster, cluster_and_starify,
    and of starshaped_hull.py:18-32 kernel_starshaped_hull.
    Not modelled: printing, the timing vector (see M_Timing.v; here only the comparisons with max_compute_time and the division by the total
    time in compute_kernel_points), and the fact that entries of the returned history share the cluster objects that
    make_convex changes afterwards (here the history keeps them as they were when they were appended; what the caller finds there
    later is in M_History.v).  Simplification: where max_iterations has cut the rounds short, make_convex reads the reference point of an
    obstacle that is a cluster by itself as it was before the call (obst_xr), although line 261 may have set it in the first round; what the
    call sets is in M_XrWrites.v. *)
From Coq Require Import String Reals List Bool Arith ZArith.
From Verif Require Import Num M_Cg M_Motion M_Obstacle M_Clusters M_StarHull.
Import ListNotations.
Local Open Scope R_scope.

(* a list comprehension whose element may raise *)
Fixpoint omap {A B} (f : A -> outcome B) (l : list A) : outcome (list B) :=
  match l with
  | [] => Val []
  | a :: r => obind (f a) (fun b => obind (omap f r) (fun bs => Val (b :: bs)))
  end.

(* Polygon and StarshapedPolygon are subclasses of Polygon; every class but Polygon is a StarshapedObstacle *)
Definition is_polygon_class (c : obs_class) : bool := match c with CPolygon | CStarPolygon => true | _ => false end.
(* the classes with StarshapedObstacle as a base *)
Definition is_star_class (c : obs_class) : bool := match c with CPolygon => false | _ => true end.

(* the area 1e-6 of cluster_and_starify.py:97, 107, 110, 344, 358 *)
Definition small : R := 1 / 1000000.
(* np.mean(kernel_points, axis=0), cluster_and_starify.py:87, 258, 384 *)
Definition triangle_mean (k : RPt * RPt * RPt) : RPt :=
  let '(a, b, c) := k in ((fst a + fst b + fst c) / 3, (snd a + snd b + snd c) / 3).

(* cluster_and_starify.py:117-118: random displacements until the centre is off the line; NoAnswer: all draws used *)
Fixpoint off_line (x xg : RPt) (draws : list RPt) (c : RPt) : outcome RPt :=
  if is_collinear x xg c then
    match draws with [] => NoAnswer | d :: r => off_line x xg r (padd c d) end
  else Val c.

(* cluster_and_starify.py:177-179 exit flags *)
Inductive flag : Type := INCOMPLETE | COMPLETE | MAX_COMPUTE_TIME_CONVEX_HULL.
(* where max_compute_time < toc(t0) is evaluated: at an obstacle, at a round, at a cluster to be made convex *)
Inductive moment : Type := AtObstacle (i : nat) | AtRound (n : nat) | AtHull (j : nat).

Section Starify.
  Context {Obs G : Type} (M : methods Obs G) (Sh : shapely G) (setl : list nat -> list nat).
  Notation cluster := (cluster Obs G).
  Notation new_cluster := (new_cluster M).

  (* cluster_and_starify.py:168-170 the arguments, and what the world answers during the call *)
  Record options : Type := Options {
    op_epsilon : R;
    op_workspace : option G;                    (* workspace.polygon() *)
    op_default_workspace : G;                   (* Ellipse([1e10, 1e10]).polygon() *)
    op_late : moment -> bool;
    op_previous : option (list cluster);
    op_make_convex : bool;
    op_exclude_obstacles : bool;
    op_max_iterations : option nat;             (* None: infinity *)
    op_return_history : bool;
    op_draws : nat -> nat -> list RPt;          (* np.random.uniform draws for the i-th cluster of round n *)
    op_timer : nat -> nat -> R * R * R * R * R; (* the five readings of toc(t0) in that call of compute_kernel_points *)
    op_polygon_is_convex : G -> bool;           (* StarshapedPolygon(g).is_convex() *)
    op_empty : G }.                             (* shapely.geometry.Polygon([]) *)

  (** *** kernel points *)
  (* cluster_and_starify.py:92-99 *)
  Definition selection_set_workspace (adm : G) (obs : list Obs) (ws : G) : G :=
    let pe := polygon_excluding_hull M Sh obs in
    if sh_within Sh pe ws then adm
    else let t := sh_intersection Sh (sh_difference Sh adm ws) pe in
         if Rltb small (sh_area Sh t) then t else adm.
  (* cluster_and_starify.py:103-104; o.kernel() does not exist for a plain Polygon *)
  Fixpoint with_kernels (t : G) (obs : list Obs) : outcome G :=
    match obs with
    | [] => Val t
    | o :: r => if is_star_class (ob_class M o)
                then obind (of_res (ob_kernel M o)) (fun k => with_kernels (sh_intersection Sh t k) r)
                else Raise AttributeErr
    end.
  (* cluster_and_starify.py:92-111 the final tcss *)
  Definition selection_set (adm : G) (obs : list Obs) (ws : G) : outcome G :=
    let tcss := selection_set_workspace adm obs ws in
    obind (if forallb (ob_is_starshaped M) obs then with_kernels tcss obs else Val tcss) (fun t =>
    let t' := if Rltb (sh_area Sh t) small then sh_intersection Sh tcss (polygon_excluding_hull M Sh obs) else t in
    Val (if Rltb small (sh_area Sh t') then t' else tcss)).
  (* cluster_and_starify.py:127-132 *)
  Fixpoint same_side (x xg prev : RPt) (first : G) (rest : list G) : G :=
    match rest with
    | [] => first
    | g :: r => if Bool.eqb (is_ccw x xg (sh_centroid Sh g)) (is_ccw x xg prev) then g else same_side x xg prev first r
    end.
  (* cluster_and_starify.py:113-134 *)
  Definition triangle_center (adm tcss : G) (x xg : RPt) (prev : option RPt) (draws : list RPt) : outcome RPt :=
    match prev with
    | None => obind (of_res (sh_nearest Sh adm (sh_centroid Sh tcss))) (fun tc => off_line x xg draws tc)
    | Some p =>
        if sh_contains Sh tcss p && negb (is_collinear x xg p) then Val p
        else obind (of_res (sh_split Sh tcss x xg)) (fun l =>
             match l with
             | [] => Raise IndexErr
             | g :: r => of_res (sh_nearest Sh adm (sh_centroid Sh (same_side x xg p g r)))
             end)
    end.
  (* cluster_and_starify.py:145-149 *)
  Definition boundary_distance (tcss : G) (c : RPt) : outcome R :=
    match sh_parts Sh tcss with
    | None => of_res (sh_exterior_distance Sh tcss c)
    | Some gs => obind (omap (fun g => of_res (sh_exterior_distance Sh g c)) gs) (fun ds =>
                 match ds with [] => Raise ValueErr | d :: r => Val (fold_left Rmin r d) end)
    end.
  (* cluster_and_starify.py:90, 100, 105, 109, 136, 152-155: ts is a dict of differences to the last entry, then divided by their sum *)
  Definition total_time (t : R * R * R * R * R) : R :=
    let '(t1, t2, t3, t4, t5) := t in
    let a1 := t1 in let a2 := t2 - a1 in let a3 := t3 - a2 in let a4 := t4 - a3 in let a5 := t5 - a4 in
    a1 + a2 + a3 + a4 + a5.
  (* cluster_and_starify.py:86-157; np.mean(None, axis=0) raises *)
  Definition compute_kernel_points (adm : G) (obs : list Obs) (x xg : RPt) (epsilon : R) (cl_prev : option cluster) (ws : G)
      (draws : list RPt) (timer : R * R * R * R * R) : outcome (RPt * RPt * RPt) :=
    obind (match cl_prev with
           | None => Val None
           | Some p => match c_kernel_points p with None => Raise ValueErr | Some k => Val (Some (triangle_mean k)) end
           end) (fun prev =>
    obind (selection_set adm obs ws) (fun tcss =>
    obind (triangle_center adm tcss x xg prev draws) (fun c =>
    obind (boundary_distance tcss c) (fun dist =>
    let side := Rmin epsilon (9 / 10 * dist) in
    if Reqb (total_time timer) 0 then Raise ZeroDivisionErr
    else Val (equilateral_triangle c side 0))))).

  (* cluster_and_starify.py:159-165 *)
  Definition extract_cluster (name : string) (l : option (list cluster)) : option cluster :=
    match l with None => None | Some l => find (fun c => String.eqb name (c_name c)) l end.
  (* cluster_and_starify.py:367-371: the last match *)
  Definition extract_last (name : string) (l : option (list cluster)) : option cluster :=
    match l with None => None | Some l => find (fun c => String.eqb name (c_name c)) (rev l) end.

  (** *** hull *)
  (* starshaped_hull.py:18-32 for a list; a non-convex obstacle that is not a Polygon is iterated over: TypeError *)
  Definition hull_of (k : RPt * RPt * RPt) (o : Obs) : outcome G :=
    if ob_is_convex M o then ob_convex_hull M o k
    else if is_polygon_class (ob_class M o) then ob_polygon_hull M o k
    else Raise TypeErr.
  (* starshaped_hull.py:28-32 *)
  Definition kernel_starshaped_hull (obs : list Obs) (k : RPt * RPt * RPt) : outcome (option G) :=
    obind (omap (hull_of k) obs) (fun l =>
    let u := sh_union Sh l in Val (if sh_is_empty Sh u then None else Some u)).

  (** *** ids of cluster obstacles *)
  (* cluster_obstacle.id(), obstacle.py:71 *)
  Definition obst_id (c : cluster_obst Obs G) : option Z :=
    match c with Original o _ => ob_id M o | Combination _ _ _ i => i | HullPolygon _ _ i => i end.
  (* cluster_and_starify.py:254, 379 *)
  Definition id_argument (cl_prev : option cluster) : outcome id_arg :=
    match cl_prev with
    | None => Val IdNew
    | Some p => match c_obstacle p with
                | None => Raise AttributeErr
                | Some ob => Val (match obst_id ob with Some z => IdInt z | None => IdOther end)
                end
    end.

  (** *** dictionaries keyed by obstacle id, most recent entry first *)
  Definition id_eqb (a b : option Z) : bool :=
    match a, b with None, None => true | Some x, Some y => Z.eqb x y | _, _ => false end.
  (* d[i] *)
  Definition lookup {A} (i : option Z) (d : list (option Z * A)) : option A :=
    match find (fun e => id_eqb i (fst e)) d with Some e => Some (snd e) | None => None end.
  (* d[i][j] *)
  Definition lookup2 {A} (i j : option Z) (d : list (option Z * option Z * A)) : option A :=
    match find (fun e => id_eqb i (fst (fst e)) && id_eqb j (snd (fst e))) d with Some e => Some (snd e) | None => None end.

  (* cluster_and_starify.py:183-185 the three dictionaries *)
  Record cones : Type := Cones {
    k_robot : list (option Z * cone R);
    k_goal : list (option Z * cone R);
    k_others : list (option Z * option Z * option G) }.

  (* cluster_and_starify.py:223, 226: admissible_kernel(o, v).polygon() *)
  Definition kernel_polygon (o : Obs) (v : RPt) : outcome G :=
    obind (of_res (admissible_kernel (ob_tangent_points M o) v)) (fun k =>
      match k with None => Raise AttributeErr | Some c => of_res (sh_cone Sh c) end).
  (* cluster_and_starify.py:224-226 *)
  Fixpoint kernel_polygons (o : Obs) (acc : G) (vs : list RPt) : outcome G :=
    match vs with
    | [] => Val acc
    | v :: r => obind (kernel_polygon o v) (fun g => kernel_polygons o (sh_intersection Sh acc g) r)
    end.
  (* cluster_and_starify.py:219-226 for one pair: Val None when some extreme point is not exterior *)
  Definition excluding (o o_ex : Obs) : outcome (option G) :=
    if is_polygon_class (ob_class M o_ex) then
      let vs := ob_extreme_points M o_ex in
      if forallb (ob_exterior_point M o) vs then
        match vs with
        | [] => Raise IndexErr
        | v :: r => obind (kernel_polygon o v) (fun g => obind (kernel_polygons o g r) (fun g' => Val (Some g')))
        end
      else Val None
    else Raise AttributeErr.
  (* cluster_and_starify.py:216-226 *)
  Fixpoint excluding_all (o : Obs) (obs : list Obs) (d : list (option Z * option Z * option G))
      : outcome (list (option Z * option Z * option G)) :=
    match obs with
    | [] => Val d
    | o_ex :: r =>
        if id_eqb (ob_id M o_ex) (ob_id M o) then excluding_all o r d
        else obind (excluding o o_ex) (fun g => excluding_all o r ((ob_id M o, ob_id M o_ex, g) :: d))
    end.
  (* cluster_and_starify.py:197-226: None is "return default_result()" *)
  Fixpoint prepare (op : options) (x xg : RPt) (all : list Obs) (i : nat) (obs : list Obs) (k : cones) : outcome (option cones) :=
    match obs with
    | [] => Val (Some k)
    | o :: r =>
        if op_late op (AtObstacle i) then Val None
        else obind (of_res (admissible_kernel (ob_tangent_points M o) x)) (fun kx =>
             obind (of_res (admissible_kernel (ob_tangent_points M o) xg)) (fun kg =>
             match kx, kg with
             | Some cx, Some cg =>
                 obind (if op_exclude_obstacles op then excluding_all o all (k_others k) else Val (k_others k)) (fun d =>
                 prepare op x xg all (S i) r (Cones ((ob_id M o, cx) :: k_robot k) ((ob_id M o, cg) :: k_goal k) d))
             | _, _ => Val None
             end))
    end.

  (** *** first iteration, cluster_and_starify.py:234-275 *)
  (* cluster_and_starify.py:173-174 *)
  Definition workspace (op : options) : G := match op_workspace op with Some w => w | None => op_default_workspace op end.
  (* the entry of a dict initialised with None for every id; None has no method intersection *)
  Definition get_cone (d : list (option Z * cone R)) (i : option Z) : outcome (cone R) :=
    match lookup i d with Some c => Val c | None => Raise AttributeErr end.
  (* cluster_and_starify.py:238-275 one obstacle *)
  Definition first_cluster (op : options) (x xg : RPt) (k : cones) (counter : Z) (i : nat) (o : Obs) : outcome (Z * cluster) :=
    let cl := new_cluster [o] in
    obind (get_cone (k_robot k) (ob_id M o)) (fun cx => obind (get_cone (k_goal k) (ob_id M o)) (fun cg =>
    obind (of_res (sh_cone Sh cx)) (fun px => obind (of_res (sh_cone Sh cg)) (fun pg =>
    let adm := sh_intersection Sh px pg in
    let cl_prev := extract_cluster (c_name cl) (op_previous op) in
    obind (compute_kernel_points adm [o] x xg (op_epsilon op) cl_prev (workspace op) (op_draws op 0 i) (op_timer op 0 i)) (fun kp =>
    obind (id_argument cl_prev) (fun ida =>
    obind (kernel_starshaped_hull [o] kp) (fun hull =>
    match hull with
    | None =>
        if is_star_class (ob_class M o)
        then Val (counter, Cluster (c_name cl) [o] (Some (Original o (Some (triangle_mean kp)))) (Some kp) (Some adm) None)
        else Raise AttributeErr
    | Some h =>
        let '(counter', oid) := set_id counter ida in
        Val (counter', Cluster (c_name cl) [o] (Some (Combination [o] (Some h) (triangle_mean kp) oid)) (Some kp) (Some adm) None)
    end))))))).
  (* cluster_and_starify.py:234-275 *)
  Fixpoint first_clusters (op : options) (x xg : RPt) (k : cones) (counter : Z) (i : nat) (obs : list Obs) : outcome (Z * list cluster) :=
    match obs with
    | [] => Val (counter, [])
    | o :: r => obind (first_cluster op x xg k counter i o) (fun '(counter', cl) =>
                obind (first_clusters op x xg k counter' (S i) r) (fun '(counter'', cls) => Val (counter'', cl :: cls)))
    end.

  (** *** a later round, cluster_and_starify.py:327-394 *)
  (* cluster_and_starify.py:329-330 *)
  Definition history_lookup (name : string) (h : list cluster) : option cluster := find (fun c => String.eqb name (c_name c)) h.
  (* cg.py:407-411 *)
  Definition union_of_cones (l : list (cone R)) : outcome G :=
    match l with
    | [c] => of_res (sh_cone Sh c)
    | _ => obind (omap (fun c => of_res (sh_cone Sh c)) l) (fun gs => Val (sh_union Sh gs))
    end.
  (* cluster_and_starify.py:340 (341) *)
  Definition cones_polygon (op : options) (d : list (option Z * cone R)) (obs : list Obs) : outcome G :=
    obind (omap (fun o => get_cone d (ob_id M o)) obs) (fun cs =>
    match list_intersection cs with
    | IndexError => Raise IndexErr
    | EmptyPolygon => Val (op_empty op)
    | UnionOf l => union_of_cones l
    end).
  (* cluster_and_starify.py:353-357; every pair of different ids has an entry *)
  Definition exclude_from (d : list (option Z * option Z * option G)) (all obs : list Obs) (g : G) : G :=
    fold_left (fun g o => fold_left (fun g o_ex =>
      if id_eqb (ob_id M o_ex) (ob_id M o) then g
      else match lookup2 (ob_id M o) (ob_id M o_ex) d with Some (Some e) => sh_intersection Sh g e | _ => g end) all g) obs g.
  (* cluster_and_starify.py:344 (358) *)
  Definition vanishing (g : G) : bool := sh_is_empty Sh g || Rltb (sh_area Sh g) small.
  (* one new cluster; inr: "return default_result()", with the cluster as far as it got *)
  Definition later_cluster (op : options) (x xg : RPt) (all : list Obs) (k : cones) (n_iter i : nat) (counter : Z) (cl : cluster)
      : outcome (Z * cluster + cluster) :=
    obind (cones_polygon op (k_robot k) (c_obstacles cl)) (fun ar =>
    obind (cones_polygon op (k_goal k) (c_obstacles cl)) (fun ag =>
    let adm := sh_intersection Sh ar ag in
    if vanishing adm then Val (inr (Cluster (c_name cl) (c_obstacles cl) (c_obstacle cl) None (Some adm) None))
    else
      let ex := exclude_from (k_others k) all (c_obstacles cl) adm in
      let adm' := if op_exclude_obstacles op && negb (vanishing ex) then ex else adm in
      let cl_prev := extract_last (c_name cl) (op_previous op) in
      obind (compute_kernel_points adm' (c_obstacles cl) x xg (op_epsilon op) cl_prev (workspace op) (op_draws op n_iter i) (op_timer op n_iter i)) (fun kp =>
      obind (id_argument cl_prev) (fun ida =>
      obind (kernel_starshaped_hull (c_obstacles cl) kp) (fun hull =>
      let '(counter', oid) := set_id counter ida in
      let ob := Combination (filter (ob_is_starshaped M) (c_obstacles cl)) hull (triangle_mean kp) oid in
      Val (inl (counter', Cluster (c_name cl) (c_obstacles cl) (Some ob) (Some kp) (Some adm') (Some (obst_polygon M Sh ob))))))))).
  (* the for loop; the boolean is true when the round was abandoned *)
  Fixpoint starify_round (op : options) (x xg : RPt) (all : list Obs) (k : cones) (n_iter i : nat) (counter : Z) (h : list cluster)
      (todo : list cluster) : outcome (Z * list cluster * list cluster * bool) :=
    match todo with
    | [] => Val (counter, h, [], false)
    | cl :: r =>
        match history_lookup (c_name cl) h with
        | Some old => obind (starify_round op x xg all k n_iter (S i) counter h r) (fun '(c', h', cls, q) => Val (c', h', old :: cls, q))
        | None =>
            obind (later_cluster op x xg all k n_iter i counter cl) (fun s =>
            match s with
            | inr cl' => Val (counter, h, cl' :: r, true)
            | inl (c', cl') => obind (starify_round op x xg all k n_iter (S i) c' (cl' :: h) r)
                                 (fun '(c'', h'', cls, q) => Val (c'', h'', cl' :: cls, q))
            end)
        end
    end.

  (** *** the loop, cluster_and_starify.py:311-411 *)
  (* the two ways out of cluster_and_starify.py:311-411 *)
  Inductive loop_end : Type :=
  | Stopped (counter : Z) (n_iter : nat) (its : list (list cluster))                      (* default_result() *)
  | Finished (counter : Z) (n_iter : nat) (its : list (list cluster)) (clusters : list cluster).
  (* [fuel] bounds the number of rounds *)
  Fixpoint rounds (op : options) (x xg : RPt) (all : list Obs) (k : cones) (fuel n_iter : nat) (counter : Z) (h : list cluster)
      (its : list (list cluster)) (clusters : list cluster) (intersection_exists : bool) : outcome loop_end :=
    if intersection_exists then
      match fuel with
      | O => NoAnswer
      | S f =>
          if op_late op (AtRound n_iter) then Val (Stopped counter n_iter (its ++ [clusters]))
          else obind (starify_round op x xg all k n_iter 0 counter h clusters) (fun '(counter', h', cls, quit) =>
               if quit : bool then Val (Stopped counter' n_iter (its ++ [cls]))
               else
                 let its' := if op_return_history op then its ++ [cls] else its in
                 obind (get_intersection_clusters M Sh setl cls) (fun '(cls', ex) =>
                 let n' := S n_iter in
                 if match op_max_iterations op with Some m => (m <=? n')%nat | None => false end
                 then Val (Finished counter' n' its' cls')
                 else rounds op x xg all k f n' counter' h' its' cls' ex))
      end
    else Val (Finished counter n_iter its clusters).

  (** *** make_convex, cluster_and_starify.py:415-434 *)
  (* cluster_and_starify.py:419 *)
  Definition obst_is_convex (op : options) (c : cluster_obst Obs G) : bool :=
    match c with Original o _ => ob_is_convex M o | _ => op_polygon_is_convex op (obst_polygon M Sh c) end.
  (* cluster_obstacle.xr(Frame.GLOBAL), cluster_and_starify.py:432 *)
  Definition obst_xr (c : cluster_obst Obs G) : outcome RPt :=
    match c with
    | Original o (Some p) => Val p
    | Original o None => if is_star_class (ob_class M o) then Val (ob_xr M o) else Raise AttributeErr
    | Combination _ _ p _ => Val p
    | HullPolygon _ p _ => Val p
    end.
  (* [before], [r]: the clusters at the other positions, as they are at this moment; the boolean is false when time was up *)
  Fixpoint convexify (op : options) (x xg : RPt) (counter : Z) (before : list cluster) (todo : list cluster)
      : outcome (Z * bool * list cluster) :=
    match todo with
    | [] => Val (counter, true, before)
    | cl :: r =>
        match c_obstacle cl with
        | None => Raise AttributeErr
        | Some ob =>
            if obst_is_convex op ob then convexify op x xg counter (before ++ [cl]) r
            else if op_late op (AtHull (List.length before)) then Val (counter, false, before ++ cl :: r)
            else
              match read_polygon M Sh cl with
              | (_, None) => Raise AttributeErr
              | (cl1, Some g) =>
                  obind (of_res (sh_convex_hull Sh g)) (fun hull =>
                  if negb (existsb (sh_contains Sh hull) [x; xg])
                     && negb (existsb (fun c => polygons_meet Sh (Some hull) (polygon_of M Sh c)) (before ++ r))
                  then obind (obst_xr ob) (fun p =>
                       let '(counter', oid) := set_id counter IdNew in
                       convexify op x xg counter' (before ++ [Cluster (c_name cl1) (c_obstacles cl1) (Some (HullPolygon hull p oid))
                                                      (c_kernel_points cl1) (c_admissible_kernel cl1) (c_polygon cl1)]) r)
                  else convexify op x xg counter (before ++ [cl1]) r)
              end
        end
    end.

  (** *** the whole function, cluster_and_starify.py:168-449 *)
  (* cluster_and_starify.py:190-192, 446-447 the fifth value *)
  Inductive history : Type := Flat (l : list cluster) | Rounds (l : list (list cluster)).
  (* cluster_and_starify.py:189-194, 424, 446-449 the returned tuple (without the timing) *)
  Record answer : Type := Answer {
    a_clusters : list cluster;
    a_flag : flag;
    a_iter : nat;
    a_history : option history;     (* the fifth value returned, when there is one *)
    a_counter : Z }.                (* Obstacle.id_counter afterwards *)
  (* cluster_and_starify.py:189-194 *)
  Definition default_result (op : options) (obs : list Obs) (n_iter : nat) (its : list (list cluster)) (counter : Z) : answer :=
    let l := map (fun o => new_cluster [o]) obs in
    Answer l INCOMPLETE n_iter (if op_return_history op then Some (if (0 <? n_iter)%nat then Rounds its else Flat l) else None) counter.

  (* cluster_and_starify.py:168-449 *)
  Definition cluster_and_starify (op : options) (fuel : nat) (counter0 : Z) (x xg : RPt) (obs : list Obs) : outcome answer :=
    let counter := match op_workspace op with None => (counter0 + 1)%Z | Some _ => counter0 end in
    obind (prepare op x xg obs 0 obs (Cones [] [] [])) (fun k =>
    match k with
    | None => Val (default_result op obs 0 [] counter)
    | Some k =>
        obind (first_clusters op x xg k counter 0 obs) (fun '(counter1, cls) =>
        let its := if op_return_history op then [cls] else [] in
        obind (get_intersection_clusters M Sh setl cls) (fun '(cls1, ex) =>
        obind (rounds op x xg obs k fuel 1 counter1 (rev cls) its cls1 ex) (fun e =>
        match e with
        | Stopped counter2 n its' => Val (default_result op obs n its' counter2)
        | Finished counter2 n its' cls2 =>
            if op_make_convex op then
              obind (convexify op x xg counter2 [] cls2) (fun '(counter3, in_time, cls3) =>
              if in_time : bool then Val (Answer cls3 COMPLETE n (if op_return_history op then Some (Rounds its') else None) counter3)
              else Val (Answer cls3 MAX_COMPUTE_TIME_CONVEX_HULL n None counter3))
            else Val (Answer cls2 COMPLETE n (if op_return_history op then Some (Rounds its') else None) counter2)
        end)))
    end).
End Starify.
Arguments options Obs G : clear implicits.
Arguments answer Obs G : clear implicits.
Arguments history Obs G : clear implicits.
Arguments loop_end Obs G : clear implicits.
Arguments cones G : clear implicits.
