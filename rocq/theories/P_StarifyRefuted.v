(** Scenes in which cluster_and_starify breaks a property, and examples for the theorems about it (C66, C67, C69, C71,
    C72, C73, C75, C82, C83). The scenes are evaluated in the world of W_Starify.v. *)
From Coq Require Import String Reals List Bool Arith ZArith Lia Lra Permutation.
From Verif Require Import Num Spec M_Cg M_Motion M_Obstacle M_Clusters P_Clusters M_StarHull M_Starify L_Geom L_Cg L_Starify P_Starify P_StarifyResult P_StarifyTotal W_Starify.
Import ListNotations.

Definition star_class (o : Z) : obs_class := CStarPolygon.
Definition no_hull (o : Z) : list Z := [].
(* 1 and 2 share a cell; the hull of the cluster of 1 and 2 reaches the cell of 3 *)
Definition chain_cells (o : Z) : list Z := if Z.eqb o 2 then [1; 2]%Z else [o].
Definition chain_hull (o : Z) : list Z := if Z.eqb o 1 then [3]%Z else [].
Definition chain_world : methods Z (list Z) := toy_methods star_class (@Some Z) chain_cells no_hull chain_hull.
Definition plane : shapely (list Z) := toy_shapely (fun g => g).
Definition chain_call (late : moment -> bool) (mc : bool) (mi : option nat) (hist : bool) : outcome (answer Z (list Z)) :=
  cluster_and_starify chain_world plane dedup (toy_options None late mc false mi hist) 3 3 Ox Og [1; 2; 3]%Z.
Lemma chain_run mc mi hist kp lv : kp = KP -> lv = level ->
  chain_call never mc mi hist = run star_class (@Some Z) chain_cells no_hull chain_hull (fun g => g) kp lv never mc mi hist 3 3 [1; 2; 3]%Z.
Proof. intros -> ->. apply run_ok; [reflexivity|reflexivity]. Qed.

Lemma share_cell_sym p q : share_cell p q = share_cell q p.
Proof.
  apply eq_true_iff_eq. unfold share_cell. rewrite !existsb_exists. split; intros (a & Ha & H); apply existsb_exists in H as (b & Hb & E); apply Z.eqb_eq in E; subst b; exists a; (split; [assumption|]); apply existsb_exists; exists a; (split; [assumption|apply Z.eqb_refl]).
Qed.

(** without a bound the three end up in one cluster, in the third round *)
Example C66_example : exists a, chain_call never false None false = Val a /\ a_flag a = COMPLETE /\ a_iter a = 3%nat /\
  map c_obstacles (a_clusters a) = [[1; 2; 3]%Z] /\ map (@c_name _ _) (a_clusters a) = ["1_2_3"%string] /\
  forall n i, leaves_line Ox Og (op_draws (toy_options None never false false None false) n i).
Proof.
  rewrite (chain_run _ _ _ _ _ eq_refl eq_refl). generalize KP, level. intros kp lv. eexists. split; [vm_compute; reflexivity|]. do 4 (split; [reflexivity|]). intros n i. apply draws_leave.
Qed.
Example C67_example : exists op a, cluster_and_starify chain_world plane dedup op 3 3 Ox Og [1; 2; 3]%Z = Val a /\ a_flag a = COMPLETE /\ op_make_convex op = false /\ uncut op a /\
  (forall c, In c (a_clusters a) -> exists ob, c_obstacle c = Some ob).
Proof.
  exists (toy_options None never false false (Some 4%nat) false). fold (chain_call never false (Some 4%nat) false).
  rewrite (chain_run _ _ _ _ _ eq_refl eq_refl). generalize KP, level. intros kp lv. eexists. split; [vm_compute; reflexivity|]. do 2 (split; [reflexivity|]). split.
  - intros m H. injection H as <-. right. cbn. lia.
  - intros c [<-|[]]. eexists. reflexivity.
Qed.

(** with max_iterations = 2 the answer is COMPLETE although the only cluster has not been starified *)
Theorem C67_refuted : exists (M : methods Z (list Z)) Sh setl op fuel counter x xg obs a c,
  set_order setl /\ (forall p q, sh_intersects Sh p q = sh_intersects Sh q p) /\
  cluster_and_starify M Sh setl op fuel counter x xg obs = Val a /\ a_flag a = COMPLETE /\ op_make_convex op = false /\
  In c (a_clusters a) /\ c_obstacle c = None /\ polygon_of M Sh c = None /\ (1 < List.length (c_obstacles c))%nat.
Proof.
  exists chain_world, plane, dedup, (toy_options None never false false (Some 2%nat) false), 3%nat, 3%Z, Ox, Og, [1; 2; 3]%Z.
  fold (chain_call never false (Some 2%nat) false). rewrite (chain_run _ _ _ _ _ eq_refl eq_refl). generalize KP, level. intros kp lv. do 2 eexists.
  split; [exact dedup_ok|]. split; [exact share_cell_sym|]. split; [vm_compute; reflexivity|]. do 2 (split; [reflexivity|]). split; [left; reflexivity|]. do 2 (split; [reflexivity|]). cbn. lia.
Qed.
(** ... and with make_convex the same call raises *)
Theorem C67_cut_raises_refuted : exists (M : methods Z (list Z)) Sh setl op fuel counter x xg obs,
  set_order setl /\ op_make_convex op = true /\ op_max_iterations op = Some 2%nat /\
  Forall (convex_star M) obs /\ cluster_and_starify M Sh setl op fuel counter x xg obs = Raise AttributeErr.
Proof.
  exists chain_world, plane, dedup, (toy_options None never true false (Some 2%nat) false), 3%nat, 3%Z, Ox, Og, [1; 2; 3]%Z.
  fold (chain_call never true (Some 2%nat) false). rewrite (chain_run _ _ _ _ _ eq_refl eq_refl).
  split; [exact dedup_ok|]. do 2 (split; [reflexivity|]). split; [|generalize KP, level; intros; vm_compute; reflexivity].
  apply Forall_forall. intros o _. apply toy_convex. reflexivity.
Qed.

(** C68: time is up while looking at the first obstacle *)
Example C68_example : exists op a, cluster_and_starify chain_world plane dedup op 3 3 Ox Og [1; 2]%Z = Val a /\ a_flag a = INCOMPLETE /\ a_iter a = 0%nat.
Proof. exists (toy_options None (fun _ => true) false false None false). eexists. split; [reflexivity|split; reflexivity]. Qed.

(** C69: two obstacles without an id, two others that overlap: the first is replaced by the second *)
Definition nameless_id (o : Z) : option Z := if Z.ltb 2 o then Some (o - 2)%Z else None.
Definition nameless_cells (o : Z) : list Z := if Z.ltb 2 o then [3]%Z else [o].
Theorem C69_refuted : exists (M : methods Z (list Z)) Sh setl op fuel counter x xg obs a,
  set_order setl /\ (forall p q, sh_intersects Sh p q = sh_intersects Sh q p) /\
  cluster_and_starify M Sh setl op fuel counter x xg obs = Val a /\ a_flag a = COMPLETE /\ op_max_iterations op = None /\
  NoDup obs /\ exists o, In o obs /\ ~ In o (flat_map c_obstacles (a_clusters a)) /\
  (* nothing the caller receives covers the cell of the lost obstacle *)
  forall c g, In c (a_clusters a) -> polygon_of M Sh c = Some g -> sh_intersects Sh g (ob_polygon M o) = false.
Proof.
  exists (toy_methods star_class nameless_id nameless_cells no_hull no_hull), (toy_shapely (fun g => g)), dedup, (toy_options None never false false None false), 4%nat, 2%Z, Ox, Og, [1; 2; 3; 4]%Z.
  rewrite run_ok by reflexivity. generalize KP, level. intros kp lv. eexists. split; [exact dedup_ok|]. split; [exact share_cell_sym|]. split; [vm_compute; reflexivity|].
  do 2 (split; [reflexivity|]). split; [repeat constructor; cbn; intuition lia|]. exists 1%Z. split; [left; reflexivity|]. split; [cbn; intuition lia|].
  intros c g [<-|[<-|[]]] E; vm_compute in E; injection E as <-; reflexivity.
Qed.
Example C69_example : exists a, chain_call never false None false = Val a /\ NoDup (map (ob_id chain_world) [1; 2; 3]%Z) /\ Permutation (flat_map c_obstacles (a_clusters a)) [1; 2; 3]%Z.
Proof.
  rewrite (chain_run _ _ _ _ _ eq_refl eq_refl). generalize KP, level. intros kp lv. eexists. split; [vm_compute; reflexivity|].
  assert (ND : NoDup (map (ob_id chain_world) [1; 2; 3]%Z)) by (repeat constructor; cbn; intuition congruence). split; [exact ND|]. reflexivity.
Qed.

(** C71: the clusters of a call that ran out of time, fed back, make a call fail that succeeds without them *)
Theorem C71_refuted : exists (M : methods Z (list Z)) Sh setl op0 op fuel counter x xg obs a0 a,
  set_order setl /\ Forall (convex_star M) obs /\
  cluster_and_starify M Sh setl op0 fuel counter x xg obs = Val a0 /\
  cluster_and_starify M Sh setl op fuel counter x xg obs = Val a /\ op_previous op = None /\ a_flag a = COMPLETE /\
  cluster_and_starify M Sh setl
    (Options (op_epsilon op) (op_workspace op) (op_default_workspace op) (op_late op) (Some (a_clusters a0)) (op_make_convex op) (op_exclude_obstacles op)
       (op_max_iterations op) (op_return_history op) (op_draws op) (op_timer op) (op_polygon_is_convex op) (op_empty op)) fuel counter x xg obs = Raise ValueErr.
Proof.
  exists chain_world, plane, dedup, (toy_options None (fun _ => true) false false None false), (toy_options None never false false None false), 3%nat, 3%Z, Ox, Og, [1; 2; 3]%Z.
  do 2 eexists. split; [exact dedup_ok|]. split; [apply Forall_forall; intros o _; apply toy_convex; reflexivity|]. split; [reflexivity|].
  split; [fold (chain_call never false None false); rewrite (chain_run _ _ _ _ _ eq_refl eq_refl); reflexivity|]. split; [reflexivity|]. split; [reflexivity|].
  unfold cluster_and_starify, chain_world, plane. rewrite toy_prepare by reflexivity. reflexivity.
Qed.
Example C71_example : exists op a, cluster_and_starify chain_world plane dedup op 3 3 Ox Og [1; 2; 3]%Z = Val a /\ a_flag a <> INCOMPLETE /\ uncut op a.
Proof.
  exists (toy_options None never false false None false). fold (chain_call never false None false). rewrite (chain_run _ _ _ _ _ eq_refl eq_refl). generalize KP, level. intros kp lv.
  eexists. split; [vm_compute; reflexivity|]. split; [discriminate|]. intros m H. discriminate.
Qed.

(** C72: after make_convex the polygon of the cluster is still the one from before *)
Definition one_hull (o : Z) : list Z := [5]%Z.
Definition one_call (late : moment -> bool) (mc hist : bool) : outcome (answer Z (list Z)) :=
  cluster_and_starify (toy_methods star_class (@Some Z) (fun o => [o]) one_hull one_hull) (toy_shapely (fun g => 9 :: g)%Z) dedup (toy_options None late mc false None hist) 1 1 Ox Og [1]%Z.
Lemma one_run late mc hist kp lv : (forall m, (match m with AtHull _ => False | _ => True end) -> late m = false) -> kp = KP -> lv = level ->
  one_call late mc hist = run star_class (@Some Z) (fun o => [o]) one_hull one_hull (fun g => 9 :: g)%Z kp lv late mc None hist 1 1 [1]%Z.
Proof. intros H -> ->. apply run_ok; [reflexivity|exact H]. Qed.
Theorem C72_refuted : exists (M : methods Z (list Z)) Sh setl op fuel counter x xg obs a c ob g,
  set_order setl /\ Forall (convex_star M) obs /\
  cluster_and_starify M Sh setl op fuel counter x xg obs = Val a /\ a_flag a = COMPLETE /\
  In c (a_clusters a) /\ c_obstacle c = Some ob /\ polygon_of M Sh c = Some g /\ obst_polygon M Sh ob <> g.
Proof.
  exists (toy_methods star_class (@Some Z) (fun o => [o]) one_hull one_hull), (toy_shapely (fun g => 9 :: g)%Z), dedup, (toy_options None never true false None false), 1%nat, 1%Z, Ox, Og, [1]%Z.
  fold (one_call never true false). rewrite (one_run _ _ _ _ _ (fun _ _ => eq_refl) eq_refl eq_refl). generalize KP, level. intros kp lv. do 4 eexists.
  split; [exact dedup_ok|]. split; [apply Forall_forall; intros o _; apply toy_convex; reflexivity|]. split; [vm_compute; reflexivity|]. split; [reflexivity|]. split; [left; reflexivity|]. split; [reflexivity|]. split; [vm_compute; reflexivity|]. vm_compute. discriminate.
Qed.
Example C72_example : exists op a, one_call never true false = Val a /\ op = toy_options None never true false None false /\ a_flag a <> INCOMPLETE /\ uncut op a /\
  exists c h p d, In c (a_clusters a) /\ c_obstacle c = Some (HullPolygon h p d).
Proof.
  exists (toy_options None never true false None false). rewrite (one_run _ _ _ _ _ (fun _ _ => eq_refl) eq_refl eq_refl). generalize KP, level. intros kp lv. eexists.
  split; [vm_compute; reflexivity|]. split; [reflexivity|]. split; [discriminate|]. split; [intros m H; discriminate|]. do 4 eexists. split; [left; reflexivity|reflexivity].
Qed.

(** C73: time is up in the convex phase: no fifth value although it was asked for *)
Definition late_at_hull (m : moment) : bool := match m with AtHull _ => true | _ => false end.
Theorem C73_refuted : exists (M : methods Z (list Z)) Sh setl op fuel counter x xg obs a,
  set_order setl /\ Forall (convex_star M) obs /\ op_return_history op = true /\
  cluster_and_starify M Sh setl op fuel counter x xg obs = Val a /\ a_history a = None.
Proof.
  exists (toy_methods star_class (@Some Z) (fun o => [o]) one_hull one_hull), (toy_shapely (fun g => 9 :: g)%Z), dedup, (toy_options None late_at_hull true false None true), 1%nat, 1%Z, Ox, Og, [1]%Z.
  fold (one_call late_at_hull true true). rewrite (one_run late_at_hull _ _ _ _ (fun m => match m with AtHull _ => fun h => match h with end | _ => fun _ => eq_refl end) eq_refl eq_refl).
  generalize KP, level. intros kp lv. eexists. split; [exact dedup_ok|]. split; [apply Forall_forall; intros o _; apply toy_convex; reflexivity|]. split; [reflexivity|]. split; [vm_compute; reflexivity|reflexivity].
Qed.
Example C73_example : exists a l, one_call never true true = Val a /\ a_flag a = COMPLETE /\ a_history a = Some (Rounds l) /\ List.length l = 1%nat.
Proof.
  rewrite (one_run _ _ _ _ _ (fun _ _ => eq_refl) eq_refl eq_refl). generalize KP, level. intros kp lv. do 2 eexists. split; [vm_compute; reflexivity|]. split; [reflexivity|]. split; reflexivity.
Qed.

(** C75: a convex plain Polygon *)
Theorem C75_refuted : exists (M : methods Z (list Z)) Sh setl op fuel counter x xg o,
  set_order setl /\ ob_class M o = CPolygon /\ ob_is_convex M o = true /\ ob_is_starshaped M o = true /\
  cluster_and_starify M Sh setl op fuel counter x xg [o] = Raise AttributeErr.
Proof.
  exists (toy_methods (fun _ => CPolygon) (@Some Z) (fun o => [o]) no_hull no_hull), plane, dedup, (toy_options None never false false None false), 1%nat, 1%Z, Ox, Og, 1%Z.
  split; [exact dedup_ok|]. do 3 (split; [reflexivity|]). unfold cluster_and_starify, plane. rewrite toy_prepare by reflexivity. reflexivity.
Qed.
Lemma chain_total : geometry_total plane.
Proof.
  repeat split; intros; try (eexists; reflexivity). discriminate.
Qed.
Example C75_example : exists op, geometry_total plane /\ Forall (convex_star chain_world) [1; 2; 3]%Z /\ (forall n i, leaves_line Ox Og (op_draws op n i)) /\
  (forall n i, total_time (op_timer op n i) <> 0%R) /\ op_previous op = None /\ op_exclude_obstacles op = false /\ op_max_iterations op = None /\ set_order dedup /\
  exists a, cluster_and_starify chain_world plane dedup op 3 3 Ox Og [1; 2; 3]%Z = Val a.
Proof.
  exists (toy_options None never false false None false). split; [exact chain_total|]. assert (C : Forall (convex_star chain_world) [1; 2; 3]%Z) by (apply Forall_forall; intros o _; apply toy_convex; reflexivity).
  split; [exact C|]. assert (L : forall n i, leaves_line Ox Og (op_draws (toy_options None never false false None false) n i)) by (intros n i; apply draws_leave). split; [exact L|].
  assert (T : forall n i, total_time (op_timer (toy_options None never false false None false) n i) <> 0%R) by (intros n i; cbn; lra). split; [exact T|]. do 3 (split; [reflexivity|]). split; [exact dedup_ok|].
  apply (C75_convex_star_partial chain_world plane dedup chain_total _ _ _ _ C L T eq_refl eq_refl eq_refl dedup_ok); [cbn; lia|exact share_cell_sym].
Qed.

(** C82: robot at the goal: whatever the random displacements, the loop never ends *)
Definition at_goal (draws : nat -> nat -> list RPt) (timer : nat -> nat -> R * R * R * R * R) : options Z (list Z) :=
  Options (1 / 10)%R (Some []) [] never None false false None false draws timer (fun _ => false) [].
Lemma at_goal_loops draws timer fuel counter : cluster_and_starify chain_world plane dedup (at_goal draws timer) fuel counter Ox Ox [1]%Z = NoAnswer.
Proof.
  unfold cluster_and_starify. cbn [op_workspace at_goal prepare op_late never].
  change (admissible_kernel (ob_tangent_points chain_world 1%Z) Ox) with (Ret (Some (Kc Ox))). cbn [of_res obind op_exclude_obstacles at_goal k_others k_robot k_goal first_clusters].
  match goal with |- obind (obind ?f _) _ = _ => replace f with (@NoAnswer (Z * cluster Z (list Z))); [reflexivity|] end. symmetry.
  unfold first_cluster. cbv zeta. unfold get_cone, lookup. cbn [find fst snd ob_id chain_world toy_methods id_eqb k_robot k_goal]. rewrite Z.eqb_refl. cbn [obind of_res sh_cone plane toy_shapely sh_intersection op_previous at_goal extract_cluster snd fst].
  unfold compute_kernel_points. cbn [obind].
  assert (S1 : exists t, selection_set chain_world plane [0]%Z [1]%Z (workspace (at_goal draws timer)) = Val t).
  { unfold selection_set. cbv zeta. cbn [forallb ob_is_starshaped chain_world toy_methods andb with_kernels is_star_class ob_class star_class ob_kernel of_res obind]. eexists. reflexivity. }
  destruct S1 as [t S1]. fold plane. rewrite S1. cbn [obind]. unfold triangle_center. cbn [sh_nearest plane toy_shapely of_res obind]. rewrite off_line_same. reflexivity.
Qed.
Theorem C82_refuted : exists (M : methods Z (list Z)) Sh setl x obs, set_order setl /\ Forall (convex_star M) obs /\ geometry_total Sh /\
  forall draws timer fuel counter, cluster_and_starify M Sh setl (at_goal draws timer) fuel counter x x obs = NoAnswer.
Proof.
  exists chain_world, plane, dedup, Ox, [1]%Z. split; [exact dedup_ok|]. split; [apply Forall_forall; intros o _; apply toy_convex; reflexivity|]. split; [exact chain_total|].
  intros. apply at_goal_loops.
Qed.
(* a call at the goal does return when the time limit strikes first *)
Example C82_example : exists op a, op_previous op = None /\ cluster_and_starify chain_world plane dedup op 1 1 Ox Ox [1]%Z = Val a /\ a_flag a = INCOMPLETE.
Proof. exists (toy_options None (fun _ => true) false false None false). eexists. split; [reflexivity|]. split; reflexivity. Qed.

(** C83: a clock that does not advance between the five readings *)
Definition stuck : options Z (list Z) :=
  Options (1 / 10)%R (Some []) [] never None false false None false (fun _ _ => [(0, 1)%R]) (fun _ _ => (0, 0, 0, 0, 0)%R) (fun _ => false) [].
Theorem C83_refuted : exists (M : methods Z (list Z)) Sh setl op fuel counter x xg obs, set_order setl /\ Forall (convex_star M) obs /\ geometry_total Sh /\
  (forall n i, leaves_line x xg (op_draws op n i)) /\ (forall n i, op_timer op n i = (0, 0, 0, 0, 0)%R) /\
  cluster_and_starify M Sh setl op fuel counter x xg obs = Raise ZeroDivisionErr.
Proof.
  exists chain_world, plane, dedup, stuck, 1%nat, 1%Z, Ox, Og, [1]%Z. split; [exact dedup_ok|]. split; [apply Forall_forall; intros o _; apply toy_convex; reflexivity|]. split; [exact chain_total|].
  split; [intros n i; apply draws_leave|]. split; [reflexivity|].
  unfold cluster_and_starify. cbn [op_workspace stuck prepare op_late never].
  change (admissible_kernel (ob_tangent_points chain_world 1%Z) Ox) with (Ret (Some (Kc Ox))). change (admissible_kernel (ob_tangent_points chain_world 1%Z) Og) with (Ret (Some (Kc Og))). cbn [of_res obind op_exclude_obstacles stuck k_others k_robot k_goal first_clusters].
  match goal with |- obind (obind ?f _) _ = _ => replace f with (@Raise (Z * cluster Z (list Z)) ZeroDivisionErr); [reflexivity|] end. symmetry.
  unfold first_cluster. cbv zeta. unfold get_cone, lookup. cbn [find fst snd ob_id chain_world toy_methods id_eqb k_robot k_goal]. rewrite Z.eqb_refl. cbn [obind of_res sh_cone plane toy_shapely sh_intersection op_previous stuck extract_cluster snd fst].
  unfold compute_kernel_points. cbn [obind].
  assert (S1 : exists t, selection_set chain_world plane [0]%Z [1]%Z (workspace stuck) = Val t).
  { unfold selection_set. cbv zeta. cbn [forallb ob_is_starshaped chain_world toy_methods andb with_kernels is_star_class ob_class star_class ob_kernel of_res obind]. eexists. reflexivity. }
  destruct S1 as [t S1]. fold plane. rewrite S1. cbn [obind]. unfold triangle_center. cbn [sh_nearest plane toy_shapely of_res obind op_draws stuck].
  destruct (draws_leave (level (List.length [0%Z]))) as [c E]. rewrite E. cbn [obind]. unfold boundary_distance. cbn [sh_parts plane toy_shapely sh_exterior_distance of_res obind op_timer stuck].
  destruct (Reqb_spec (total_time (0, 0, 0, 0, 0)%R) 0) as [_|N]; [reflexivity|]. exfalso. apply N. cbn. ring.
Qed.
Print Assumptions C67_refuted.
Print Assumptions C67_cut_raises_refuted.
Print Assumptions C69_refuted.
Print Assumptions C71_refuted.
Print Assumptions C72_refuted.
Print Assumptions C73_refuted.
Print Assumptions C75_refuted.
Print Assumptions C82_refuted.
Print Assumptions C83_refuted.
