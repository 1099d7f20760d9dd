(** Scenes for C84 and C89, in the world of W_Starify.v. *)
From Coq Require Import String Reals List Bool Arith ZArith Lia Lra Permutation.
From Verif Require Import Num Spec M_Cg M_Motion M_Obstacle M_Clusters P_Clusters M_StarHull M_Starify L_Geom L_Cg L_Starify P_Starify P_StarifyResult P_StarifyTotal W_Starify P_StarifyRefuted P_StarifyIds.
Import ListNotations.
Local Open Scope Z_scope.

(* the options of the next call: the answer becomes previous_clusters *)
Definition feed {Obs G} (op : options Obs G) (a : answer Obs G) : options Obs G :=
  Options (op_epsilon op) (op_workspace op) (op_default_workspace op) (op_late op) (Some (a_clusters a)) (op_make_convex op) (op_exclude_obstacles op)
    (op_max_iterations op) (op_return_history op) (op_draws op) (op_timer op) (op_polygon_is_convex op) (op_empty op).

(** one obstacle, number 1, seen again with a previous cluster *)
Section Again.
  Variables (h : Z -> list Z) (ch : list Z -> list Z) (mc : bool) (p : cluster Z (list Z)) (ob : cluster_obst Z (list Z)) (z : Z) (k : RPt * RPt * RPt).
  Notation M := (toy_methods star_class (@Some Z) (fun o => [o]) h h).
  Notation Sh := (toy_shapely ch).
  Notation op := (toy_options (Some [p]) never mc false None false).
  Hypothesis named_p : c_name p = "1"%string.
  Hypothesis points_p : c_kernel_points p = Some k.
  Hypothesis obst_p : c_obstacle p = Some ob.
  Hypothesis id_p : obst_id M ob = Some z.
  Lemma again_ckp g obs eps ws draws : eps = (1 / 10)%R -> compute_kernel_points M Sh g obs Ox Og eps (Some p) ws draws (1, 1, 1, 1, 1)%R = Val (KP (List.length g)).
  Proof.
    intros ->. unfold compute_kernel_points. rewrite points_p. cbn [obind].
    assert (W : forall t, exists t', with_kernels M Sh t obs = Val t').
    { clear. induction obs as [|o obs IH]; intros t; cbn; [eauto|]. apply IH. }
    unfold selection_set. cbv zeta. change (forallb (ob_is_starshaped M) obs) with (forallb (fun _ : Z => true) obs).
    destruct (W (selection_set_workspace M Sh g obs ws)) as [t' E].
    assert (Q : (if forallb (fun _ : Z => true) obs then with_kernels M Sh (selection_set_workspace M Sh g obs ws) obs else Val (selection_set_workspace M Sh g obs ws)) = Val t').
    { replace (forallb (fun _ : Z => true) obs) with true; [exact E|]. clear. induction obs; cbn; auto. }
    rewrite Q. cbn [obind]. set (tc := if Rltb small _ then _ else _). clearbody tc. unfold triangle_center.
    cbn [sh_contains toy_shapely andb sh_split of_res obind same_side].
    change (sh_nearest Sh g (sh_centroid Sh tc)) with (Ret (A:=RPt) (level (List.length g))). cbn [of_res obind].
    change (boundary_distance Sh tc (level (List.length g))) with (Val 1%R). cbn [obind]. rewrite total_111. reflexivity.
  Qed.
  Definition again_cluster (counter : Z) : cluster Z (list Z) :=
    match h 1 with
    | [] => Cluster "1"%string [1] (Some (Original 1 (Some (level 1)))) (Some (KP 1)) (Some [0]) None
    | _ => Cluster "1"%string [1] (Some (Combination [1] (Some (h 1)) (level 1) (if (0 <? z) && (z <=? counter) then Some z else None))) (Some (KP 1)) (Some [0]) None
    end.
  Lemma again_run fuel counter : cluster_and_starify M Sh dedup op fuel counter Ox Og [1] =
    let c := fst (read_polygon M Sh (again_cluster counter)) in
    if mc then
      obind (convexify M Sh op Ox Og counter [] [c]) (fun '(c3, in_time, cls3) =>
      if in_time : bool then Val (Answer cls3 COMPLETE 1 None c3) else Val (Answer cls3 MAX_COMPUTE_TIME_CONVEX_HULL 1 None c3))
    else Val (Answer [c] COMPLETE 1 None counter).
  Proof.
    unfold cluster_and_starify. cbn [op_workspace toy_options]. rewrite toy_prepare by reflexivity. cbn [obind k_robot k_goal k_others rev map app].
    assert (F : first_cluster M Sh op Ox Og (Cones [(Some 1, Kc Ox)] [(Some 1, Kc Og)] []) counter 0 1 = Val (counter, again_cluster counter)).
    { unfold first_cluster. cbv zeta. unfold get_cone. cbn [ob_id toy_methods k_robot k_goal lookup find fst snd id_eqb]. cbn [Z.eqb Pos.eqb obind sh_cone toy_shapely of_res sh_intersection].
      cbn [new_cluster c_name map ob_id toy_methods op_previous toy_options extract_cluster find]. rewrite named_p. change (name_of [Some 1]) with "1"%string.
      cbn [String.eqb Ascii.eqb Bool.eqb]. cbn [op_epsilon op_timer op_draws toy_options]. rewrite again_ckp by reflexivity. cbn [obind id_argument List.length]. rewrite obst_p, id_p. cbn [obind].
      unfold kernel_starshaped_hull. cbn [omap]. unfold hull_of. cbn [ob_is_convex toy_methods ob_convex_hull]. rewrite hull_KP. cbn [Nat.leb obind sh_union toy_shapely concat sh_is_empty].
      rewrite app_nil_r, mean_KP. unfold again_cluster. destruct (h 1) as [|y l]; cbn [null obind]; [reflexivity|]. cbn [set_id]. reflexivity. }
    cbn [first_clusters]. rewrite F. cbn [obind]. cbv zeta. 
    assert (Gc : get_intersection_clusters M Sh dedup [again_cluster counter] = Val ([fst (read_polygon M Sh (again_cluster counter))], false)) by reflexivity.
    rewrite Gc. cbn [obind op_return_history toy_options rev app]. destruct fuel; cbn [rounds obind op_make_convex toy_options]; destruct mc; reflexivity.
  Qed.
End Again.

(** C84: made convex in both calls, the cluster obstacle of the unchanged scene changes its id *)
Definition bump (o : Z) : list Z := [5].
Definition bump_world : methods Z (list Z) := toy_methods star_class (@Some Z) (fun o => [o]) bump bump.
Definition grow (g : list Z) : list Z := 9 :: g.
Theorem C84_convex_refuted : exists (M : methods Z (list Z)) Sh setl op fuel counter x xg obs a0 a1 c0 c1 z0 z1,
  set_order setl /\ Forall (convex_star M) obs /\ op_previous op = None /\
  cluster_and_starify M Sh setl op fuel counter x xg obs = Val a0 /\ a_flag a0 = COMPLETE /\
  cluster_and_starify M Sh setl (feed op a0) fuel (a_counter a0) x xg obs = Val a1 /\ a_flag a1 = COMPLETE /\
  In c0 (a_clusters a0) /\ In c1 (a_clusters a1) /\ c_name c0 = c_name c1 /\ has_id M c0 z0 /\ has_id M c1 z1 /\ z0 <> z1.
Proof.
  exists bump_world, (toy_shapely grow), dedup, (toy_options None never true false None false), 1%nat, 1, Ox, Og, [1].
  assert (R : cluster_and_starify bump_world (toy_shapely grow) dedup (toy_options None never true false None false) 1 1 Ox Og [1] =
    run star_class (@Some Z) (fun o => [o]) bump bump grow KP level never true None false 1 1 [1]) by (apply run_ok; reflexivity).
  rewrite R. clear R.
  assert (E : exists c, run star_class (@Some Z) (fun o => [o]) bump bump grow KP level never true None false 1 1 [1] = Val (Answer [c] COMPLETE 1 None 3) /\
     c_name c = "1"%string /\ c_kernel_points c = Some (KP 1) /\ c_obstacle c = Some (HullPolygon [9; 1; 5] (level 1) (Some 3))).
  { generalize KP, level. intros kp lv. eexists. split; [vm_compute; reflexivity|]. auto. }
  destruct E as (c & E & N & K & O). rewrite E. exists (Answer [c] COMPLETE 1 None 3).
  assert (A := again_run bump grow true c _ 3 _ N K O eq_refl 1%nat 3).
  match type of A with _ = ?r => assert (V : exists c1, r = Val (Answer [c1] COMPLETE 1 None 4) /\ c_name c1 = "1"%string /\ has_id bump_world c1 4) end.
  { unfold again_cluster. generalize KP, level. intros kp lv. eexists. split; [vm_compute; reflexivity|]. split; [reflexivity|]. eexists. split; reflexivity. }
  destruct V as (c1 & V & N1 & I1). exists (Answer [c1] COMPLETE 1 None 4), c, c1, 3, 4.
  split; [exact dedup_ok|]. split; [apply Forall_forall; intros o _; apply toy_convex; reflexivity|]. split; [reflexivity|]. split; [reflexivity|]. split; [reflexivity|].
  split; [rewrite <- V; exact A|]. split; [reflexivity|]. split; [left; reflexivity|]. split; [left; reflexivity|]. split; [congruence|].
  split; [exists (HullPolygon [9; 1; 5] (level 1) (Some 3)); split; [exact O|reflexivity]|]. split; [exact I1|lia].
Qed.
(** without make_convex: the hull of the cluster vanishes (the obstacle moved), and the id with it *)
Theorem C84_vanishing_refuted : exists (M0 M1 : methods Z (list Z)) Sh setl op fuel counter x xg obs a0 a1 c0 c1 z0 z1,
  set_order setl /\ (forall o, ob_id M0 o = ob_id M1 o) /\ op_previous op = None /\ op_make_convex op = false /\
  cluster_and_starify M0 Sh setl op fuel counter x xg obs = Val a0 /\ a_flag a0 = COMPLETE /\
  cluster_and_starify M1 Sh setl (feed op a0) fuel (a_counter a0) x xg obs = Val a1 /\ a_flag a1 = COMPLETE /\
  In c0 (a_clusters a0) /\ In c1 (a_clusters a1) /\ c_name c0 = c_name c1 /\ has_id M0 c0 z0 /\ has_id M1 c1 z1 /\ z0 <> z1.
Proof.
  exists bump_world, (toy_methods star_class (@Some Z) (fun o => [o]) no_hull no_hull), (toy_shapely grow), dedup, (toy_options None never false false None false), 1%nat, 1, Ox, Og, [1].
  assert (R : cluster_and_starify bump_world (toy_shapely grow) dedup (toy_options None never false false None false) 1 1 Ox Og [1] =
    run star_class (@Some Z) (fun o => [o]) bump bump grow KP level never false None false 1 1 [1]) by (apply run_ok; reflexivity).
  rewrite R. clear R.
  assert (E : exists c, run star_class (@Some Z) (fun o => [o]) bump bump grow KP level never false None false 1 1 [1] = Val (Answer [c] COMPLETE 1 None 2) /\
     c_name c = "1"%string /\ c_kernel_points c = Some (KP 1) /\ c_obstacle c = Some (Combination [1] (Some [5]) (level 1) (Some 2))).
  { generalize KP, level. intros kp lv. eexists. split; [vm_compute; reflexivity|]. auto. }
  destruct E as (c & E & N & K & O). rewrite E. exists (Answer [c] COMPLETE 1 None 2).
  assert (A := again_run no_hull grow false c _ 2 _ N K O eq_refl 1%nat 2).
  match type of A with _ = ?r => assert (V : exists c1, r = Val (Answer [c1] COMPLETE 1 None 2) /\ c_name c1 = "1"%string /\ has_id (toy_methods star_class (@Some Z) (fun o => [o]) no_hull no_hull) c1 1) end.
  { unfold again_cluster. generalize KP, level. intros kp lv. eexists. split; [vm_compute; reflexivity|]. split; [reflexivity|]. eexists. split; reflexivity. }
  destruct V as (c1 & V & N1 & I1). exists (Answer [c1] COMPLETE 1 None 2), c, c1, 2, 1.
  split; [exact dedup_ok|]. split; [reflexivity|]. split; [reflexivity|]. split; [reflexivity|]. split; [reflexivity|]. split; [reflexivity|].
  split; [rewrite <- V; exact A|]. split; [reflexivity|]. split; [left; reflexivity|]. split; [left; reflexivity|]. split; [congruence|].
  split; [exists (Combination [1] (Some [5]) (level 1) (Some 2)); split; [exact O|reflexivity]|]. split; [exact I1|lia].
Qed.
(** the hypotheses of C84_id_kept_partial: the hull stays, the id stays *)
Example C84_example : exists op a c ms h xr p, cluster_and_starify bump_world (toy_shapely grow) dedup op 1 2 Ox Og [1] = Val a /\ a_flag a <> INCOMPLETE /\ one_per_name op /\
  In c (a_clusters a) /\ c_obstacle c = Some (Combination ms h xr (Some 2)) /\ given op p /\ c_name p = c_name c /\ has_id bump_world p 2 /\ issued 2 2.
Proof.
  set (p := Cluster "1"%string [1] (Some (Combination [1] (Some [5]) (level 1) (Some 2))) (Some (KP 1)) (Some [0]) None).
  assert (A := again_run bump grow false p _ 2 (KP 1) eq_refl eq_refl eq_refl eq_refl 1%nat 2). eexists. do 5 eexists. exists p.
  split; [exact A|]. split; [discriminate|]. split; [intros l El; injection El as <-; constructor; [intros []|constructor]|]. split; [left; reflexivity|]. split; [reflexivity|].
  split; [eexists; split; [reflexivity|left; reflexivity]|]. split; [reflexivity|]. split; [eexists; split; reflexivity|unfold issued; lia].
Qed.
(** C89: the three obstacles of the chain, first alone, then merged; numbers 1, 2, 3 are theirs *)
Example C89_example : exists op a, cluster_and_starify chain_world plane dedup op 3 3 Ox Og [1; 2; 3] = Val a /\ a_flag a <> INCOMPLETE /\ uncut op a /\
  in_order chain_world 3 [1; 2; 3] (op_previous op) /\ a_counter a = 5 /\ exists c, In c (a_clusters a) /\ has_id chain_world c 5.
Proof.
  exists (toy_options None never false false None false). fold (chain_call never false None false). rewrite (chain_run _ _ _ _ _ eq_refl eq_refl). generalize KP, level. intros kp lv.
  eexists. split; [vm_compute; reflexivity|]. split; [discriminate|]. split; [intros m H; discriminate|]. split; [|split; [reflexivity|eexists; split; [left; reflexivity|eexists; split; reflexivity]]].
  constructor; try discriminate.
  - repeat constructor; cbn; intros H; repeat (destruct H as [H|H]; try discriminate); exact H.
  - intros o [<-|[<-|[<-|[]]]]; eexists; (split; [reflexivity|unfold issued; lia]).
Qed.

Print Assumptions C84_id_kept_partial.
Print Assumptions C84_convex_refuted.
Print Assumptions C84_vanishing_refuted.
Print Assumptions C89_unique_ids.
Print Assumptions C89_carries_on.
