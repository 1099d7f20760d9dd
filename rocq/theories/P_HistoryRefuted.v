(** C108: a scene in which the history does not show a round as it was, and an example for C108_rounds_partial. *)
From Coq Require Import String Reals List Bool Arith ZArith Lia Lra Permutation.
From Verif Require Import Num Spec M_Cg M_Motion M_Obstacle M_Clusters P_Clusters M_StarHull M_Starify M_History L_Geom L_Cg L_Starify P_Starify P_StarifyResult P_StarifyTotal W_Starify P_StarifyRefuted P_History.
Import ListNotations.

(** with make_convex the entry of the round shows the convex hull found after the loop in the place of the combination the round had made *)
Theorem C108_make_convex_refuted : exists (M : methods Z (list Z)) Sh setl op fuel counter x xg obs a e c st hull h xr i i',
  set_order setl /\ Forall (convex_star M) obs /\ NoDup (map (ob_id M) obs) /\ op_return_history op = true /\ op_max_iterations op = None /\
  cluster_and_starify M Sh setl op fuel counter x xg obs = Val a /\ a_flag a = COMPLETE /\
  a_history a = Some (Rounds [e]) /\ In c e /\ c_obstacle c = Some (Combination st hull xr i) /\
  c_obstacle (seen_later M Sh (a_clusters a) c) = Some (HullPolygon h xr i').
Proof.
  exists (toy_methods star_class (@Some Z) (fun o => [o]) one_hull one_hull), (toy_shapely (fun g => 9 :: g)%Z), dedup, (toy_options None never true false None true), 1%nat, 1%Z, Ox, Og, [1]%Z.
  fold (one_call never true true). rewrite (one_run _ _ _ _ _ (fun _ _ => eq_refl) eq_refl eq_refl). generalize KP, level. intros kp lv. do 9 eexists.
  split; [exact dedup_ok|]. split; [apply Forall_forall; intros o _; apply toy_convex; reflexivity|]. split; [repeat constructor; intros []|]. do 2 (split; [reflexivity|]).
  split; [vm_compute; reflexivity|]. split; [reflexivity|]. split; [reflexivity|]. split; [left; reflexivity|]. split; [reflexivity|]. vm_compute. reflexivity.
Qed.
Print Assumptions C108_make_convex_refuted.

(** three rounds: {1},{2},{3}, then {1,2},{3}, then {1,2,3} *)
Example C108_example : exists op a l, cluster_and_starify chain_world plane dedup op 3 3 Ox Og [1; 2; 3]%Z = Val a /\ op_return_history op = true /\
  NoDup (map (ob_id chain_world) [1; 2; 3]%Z) /\ a_flag a = COMPLETE /\ uncut op a /\ op_make_convex op = false /\
  a_history a = Some (Rounds l) /\ map (map c_obstacles) l = [[[1]; [2]; [3]]; [[1; 2]; [3]]; [[1; 2; 3]]]%Z.
Proof.
  exists (toy_options None never false false None true). fold (chain_call never false None true). rewrite (chain_run _ _ _ _ _ eq_refl eq_refl). generalize KP, level. intros kp lv. do 2 eexists.
  split; [vm_compute; reflexivity|]. split; [reflexivity|]. split; [repeat constructor; cbn; intros H; repeat destruct H as [H|H]; try discriminate; destruct H|].
  split; [reflexivity|]. split; [intros m H; discriminate|]. split; [reflexivity|]. split; [reflexivity|]. vm_compute. reflexivity.
Qed.
