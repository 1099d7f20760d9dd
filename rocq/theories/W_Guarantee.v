(** A scene in which the hypotheses of C100 hold: two unit squares 200 apart, robot and goal on the far right. *)
From Coq Require Import String Reals List Bool Arith ZArith Lia Lra Permutation.
From Verif Require Import Num Spec S_Guarantee M_Cg M_Motion M_Obstacle M_Clusters L_Clusters P_Clusters M_StarHull M_Starify L_Geom L_Ellipse L_Hull L_HullDisjoint L_Cg L_Cone P_Cg P_Cone
  L_Starify P_Starify P_StarifyResult P_KernelPoints P_StarHull L_Guarantee P_Guarantee W_Starify.
Import ListNotations.
Open Scope R_scope.

(** *** two squares *)
Definition shift_of (o : bool) : Pt := if o then (200, 0) else (0, 0).
Definition sq_tangents (o : bool) (k : Pt) : res (list Pt) := bind (square_tangents (vsub k (shift_of o))) (fun l => Ret (map (vadd (shift_of o)) l)).
Definition sq_body (o : bool) : region := fun p => square_body (vsub p (shift_of o)).
Definition on_side (o : bool) (p : Pt) : Prop := if o then 100 < fst p else fst p <= 100.
Definition sideb (o : bool) (p : Pt) : bool := if o then Rltb 100 (fst p) else Rleb (fst p) 100.
Lemma sideb_iff o p : sideb o p = true <-> on_side o p.
Proof. destruct o; cbn; [destruct (Rltb_spec 100 (fst p))|destruct (Rleb_spec (fst p) 100)]; split; auto; try discriminate; lra. Qed.
(* a geometry is a set of points, possibly known to lie on one side of the line at 100 *)
Definition geo : Type := option bool * region.
Definition gden (g : geo) : region := fun p => snd g p /\ match fst g with Some o => on_side o p | None => True end.
Definition tagged (o : bool) (g : geo) : bool := match fst g with Some o' => Bool.eqb o o' | None => false end.
Definition gunion (l : list geo) : geo :=
  (if forallb (tagged false) l then Some false else if forallb (tagged true) l then Some true else None, fun p => exists g, In g l /\ gden g p).
Definition sq_points (o : bool) (l : list Pt) : res (list Pt) :=
  bind (all_tangent_points (sq_tangents o) l) (fun tps => Ret (match tps with [] => [] | _ => nodup pt_eq_dec tps ++ l end)).
Definition sq_hull (o : bool) (k : Pt * Pt * Pt) : outcome geo :=
  let '(a, b, c) := k in
  match sq_points o [a; b; c] with
  | Ret pts => if forallb (sideb o) pts then Val (Some o, in_hull pts) else NoAnswer
  | Exn e => Raise e
  end.
(* the kernel is answered as a disc in front of the square, so that the hulls are not empty *)
Definition centre (o : bool) : Pt := vadd (shift_of o) (2, 1 / 2).
Definition sq_methods : methods bool geo :=
  Methods bool geo (fun o => Some (if o then 2 else 1)%Z) (fun _ => CStarPolygon) (fun _ => true) (fun _ => true) (fun o => (Some o, sq_body o))
    (fun o => Ret (Some o, fun p => dist (centre o) p < 1 / 4)) sq_tangents (fun _ _ => true) (fun _ => []) sq_hull sq_hull (fun _ => (0, 0)).
Definition g_and (g h : geo) : geo := (match fst g with Some o => Some o | None => fst h end, fun p => gden g p /\ gden h p).
Definition sq_shapely : shapely geo :=
  Shapely geo (fun _ => 1) (fun _ => false) g_and (fun g _ => g) gunion (fun _ _ => true)
    (fun g h => match fst g, fst h with Some a, Some b => Bool.eqb a b | _, _ => true end) (fun _ _ => false)
    (fun g => match fst g with Some true => (202, 1 / 2) | _ => (2, 1 / 2) end) (fun _ p => Ret p) (fun g _ _ => Ret [g]) (fun _ => None) (fun _ _ => Ret (1 / 4)) (fun g => Ret (fst g, hull_region (gden g)))
    (fun c => Ret (None, fun p => in_sector (dir1 c) (dir2 c) (vsub p (apex c)))).
Definition sq_opts (mc : bool) : options bool geo :=
  Options (1 / 10) (Some (None, fun _ => True)) (None, fun _ => True) never None mc false None false (fun _ _ => []) (fun _ _ => (1, 1, 1, 1, 1)) (fun _ => false) (None, fun _ => False).
Notation sq_options := (sq_opts false).
Definition Sx : Pt := (300, 1 / 2).
Definition Sg : Pt := (300, 1 / 3).

Lemma sq_face o k : 1 < fst (vsub k (shift_of o)) -> 0 < snd k < 1 -> sq_tangents o k = Ret [vadd (shift_of o) (1, 0); vadd (shift_of o) (1, 1)].
Proof. intros H1 H2. unfold sq_tangents. rewrite square_face; [reflexivity|exact H1|]. destruct o, k; cbn in *; lra. Qed.
Lemma area2_shift s x a p : area2 (vsub x s) a (vsub p s) = area2 x (vadd s a) p.
Proof. destruct s, x, a, p. unv. ring. Qed.
Lemma sq_right o k : 1 < fst (vsub k (shift_of o)) -> tangents_of (sq_tangents o) (sq_body o) k /\ ~ sq_body o k.
Proof.
  intros H. destruct (square_right _ H) as [T N]. split; [|exact N]. destruct T as [[T _]|(_ & t1 & t2 & E & (A & B & C & D))]; [contradiction|]. right. split; [exact N|].
  exists (vadd (shift_of o) t1), (vadd (shift_of o) t2). unfold sq_tangents. rewrite E. split; [reflexivity|].
  assert (Q : forall t : Pt, vsub (vadd (shift_of o) t) (shift_of o) = t) by (intros [a b]; destruct (shift_of o); unv; f_equal; ring).
  repeat split; unfold sq_body; rewrite ?Q; auto.
  - rewrite <- area2_shift, Q. exact C.
  - rewrite <- area2_shift. apply D, H0.
  - rewrite <- area2_shift. apply D, H0.
Qed.
Lemma square_box p : square_body p -> 0 <= fst p <= 1.
Proof.
  intros (z & Hz & ->). cbn [shown]. apply (hull_in_convex (fun z => 0 <= fst z <= 1) square z); [| |exact Hz].
  - intros a b r A B (t & Ht & ->). destruct a as [a1 a2], b as [b1 b2]. unv. cbn [fst] in *. split; nra.
  - intros q Hq. cbn in Hq. repeat (destruct Hq as [<-|Hq]; [cbn; lra|]). destruct Hq.
Qed.
Lemma sq_on_side o p : sq_body o p -> on_side o p.
Proof. intros H. apply square_box in H. destruct o, p; cbn in *; lra. Qed.
Lemma on_side_convex o : convex (on_side o).
Proof. intros p q r P Q (t & Ht & ->). destruct o, p as [p1 p2], q as [q1 q2]; unv; cbn [fst on_side] in *; [destruct (Req_dec t 0); [subst; lra|]; nra|nra]. Qed.

Lemma sq_geometry mc : faithful_geometry sq_methods sq_shapely gden (sq_opts mc) Sx Sg [false; true].
Proof.
  split.
  - intros g h p [[A B] _]. auto.
  - intros l p. cbn [sh_union sq_shapely]. unfold gden at 1, gunion. cbn [fst snd]. split; [tauto|]. intros (g & Hg & Dg). split; [eauto|].
    assert (Q : forall o, forallb (tagged o) l = true -> on_side o p).
    { intros o F. rewrite forallb_forall in F. specialize (F g Hg). unfold tagged in F. destruct Dg as [_ Dg]. destruct (fst g); [|discriminate]. apply eqb_prop in F. subst. exact Dg. }
    destruct (forallb (tagged false) l) eqn:F; [apply Q, F|]. destruct (forallb (tagged true) l) eqn:F'; [apply Q, F'|exact I].
  - discriminate.
  - intros p [[] _].
  - intros c g p _ _ _ _ _ E. cbn [sh_cone sq_shapely] in E. injection E as <-. intros [H _] _ _. exact H.
Qed.
Lemma sq_obstacles : convex_obstacles sq_methods sq_body Sx Sg [false; true].
Proof.
  split.
  - intros o _. split; [reflexivity|]. split; [reflexivity|]. intros p q r P Q (t & Ht & ->). apply (square_convex (vsub p (shift_of o)) (vsub q (shift_of o))); [exact P|exact Q|].
    exists t. split; [exact Ht|]. destruct p, q, (shift_of o). unv. f_equal; ring.
  - repeat constructor; cbn; intuition discriminate.
  - intros o p _ [->| ->]; apply sq_right; destruct o; cbn; lra.
Qed.
Lemma sq_hull_right o a b c : hull_right sq_methods gden (nodup pt_eq_dec) o a b c.
Proof.
  intros g E. cbn [ob_convex_hull sq_methods sq_hull] in E. unfold sq_points in E. destruct (all_tangent_points (sq_tangents o) [a; b; c]) as [tps|e] eqn:T; [|discriminate]. cbn [bind] in E.
    set (pts := match tps with [] => [] | _ :: _ => nodup pt_eq_dec tps ++ [a; b; c] end) in *. destruct (forallb (sideb o) pts) eqn:F; [|discriminate]. injection E as <-.
    exists pts. split; [exists tps; split; [exact T|reflexivity]|]. intros q. unfold gden. cbn [fst snd]. split; [tauto|]. intros H. split; [exact H|].
    apply (hull_in_convex (on_side o) pts q (on_side_convex o)); [|exact H]. intros p Hp. rewrite forallb_forall in F. apply sideb_iff, F, Hp.
Qed.

(** *** the kernel triangles *)
Definition side4 : R := Rmin (1 / 10) (9 / 10 * (1 / 4)).
Definition KPo (o : bool) : Pt * Pt * Pt := equilateral_triangle (centre o) side4 0.
Definition pts_of (k : Pt * Pt * Pt) : list Pt := let '(a, b, c) := k in [a; b; c].
Lemma side_val : side4 = 1 / 10.
Proof. unfold side4. apply Rmin_left. lra. Qed.
Lemma coord_dist (c q : Pt) d : 0 < d -> dist c q < d -> Rabs (fst q - fst c) < d /\ Rabs (snd q - snd c) < d.
Proof.
  intros Hd H. unfold dist, norm in H.
  assert (Q : norm2 (vsub c q) < d * d).
  { apply Rnot_le_lt. intros Z. apply sqrt_le_1_alt in Z. rewrite sqrt_square in Z by lra. lra. }
  clear H. destruct c as [c1 c2], q as [q1 q2]. unfold norm2, dot, vsub in Q. cbn [fst snd] in *.
  pose proof (Rle_0_sqr (c1 - q1)) as QA. pose proof (Rle_0_sqr (c2 - q2)) as QB. unfold Rsqr in QA, QB.
  assert (A : Rsqr (c1 - q1) < Rsqr d) by (unfold Rsqr; lra). assert (B : Rsqr (c2 - q2) < Rsqr d) by (unfold Rsqr; lra).
  apply Rsqr_lt_abs_0 in A. apply Rsqr_lt_abs_0 in B. rewrite (Rabs_right d) in A, B by lra. rewrite Rabs_minus_sym, (Rabs_minus_sym q2). auto.
Qed.
Lemma KPo_near o k : in_hull (pts_of (KPo o)) k -> dist (centre o) k < 1 / 9.
Proof.
  unfold KPo. destruct (equilateral_triangle (centre o) side4 0) as [[t0 t1] t2] eqn:E. cbn [pts_of]. intros H. rewrite side_val in E.
  destruct (equi_dist (centre o) (1 / 10) t0 t1 t2 ltac:(lra) E) as (D0 & D1 & D2 & _).
  apply (disc_in (centre o) (1 / 10) (1 / 9) (fun z => dist (centre o) z < 1 / 9) t0 t1 t2 k); try lra; auto. rewrite dist_refl. lra.
Qed.
Lemma near_centre o q : dist (centre o) q < 1 / 4 -> 3 / 2 < fst (vsub q (shift_of o)) < 5 / 2 /\ 1 / 4 < snd q < 3 / 4.
Proof. intros H. apply coord_dist in H as [A B]; [|lra]. apply Rabs_def2 in A. apply Rabs_def2 in B. destruct o, q; cbn in *; lra. Qed.
Lemma KPo_mean o : triangle_mean (KPo o) = centre o.
Proof.
  unfold KPo. destruct (equilateral_triangle (centre o) side4 0) as [[t0 t1] t2] eqn:E. rewrite triangle_mean_mean. rewrite side_val in E. apply (equi_dist (centre o) (1 / 10) t0 t1 t2 ltac:(lra) E).
Qed.
Definition KPpts (o : bool) : list Pt := nodup pt_eq_dec [vadd (shift_of o) (1, 0); vadd (shift_of o) (1, 1); vadd (shift_of o) (1, 0); vadd (shift_of o) (1, 1); vadd (shift_of o) (1, 0); vadd (shift_of o) (1, 1)] ++ pts_of (KPo o).
Lemma KPo_hull o : sq_hull o (KPo o) = Val (Some o, in_hull (KPpts o)).
Proof.
  assert (Q : forall k, In k (pts_of (KPo o)) -> 3 / 2 < fst (vsub k (shift_of o)) < 5 / 2 /\ 1 / 4 < snd k < 3 / 4).
  { intros k Hk. apply near_centre. apply in_hull_mem in Hk. apply KPo_near in Hk. lra. }
  unfold KPpts. destruct (KPo o) as [[a b] c]. cbn [pts_of] in *. unfold sq_hull, sq_points. cbn [all_tangent_points].
  assert (Fc : forall k, In k [a; b; c] -> sq_tangents o k = Ret [vadd (shift_of o) (1, 0); vadd (shift_of o) (1, 1)]).
  { intros k Hk. apply sq_face; specialize (Q k Hk); lra. }
  rewrite (Fc a), (Fc b), (Fc c) by (cbn; auto). cbn [bind app].
  match goal with |- context [forallb (sideb o) ?l] => assert (F : forallb (sideb o) l = true) end; [|rewrite F; reflexivity].
  apply forallb_forall. intros p Hp. apply sideb_iff. apply in_app_iff in Hp as [Hp|Hp].
  - apply nodup_In in Hp. cbn in Hp. destruct o; repeat (destruct Hp as [<-|Hp]; [cbn; lra|]); destruct Hp.
  - apply Q in Hp. destruct o, p; cbn in *; lra.
Qed.

(** *** the call *)
Definition sq_cone (p : Pt) (o : bool) : cone R := Cone p (psub p (vadd (shift_of o) (1, 0))) (psub p (vadd (shift_of o) (1, 1))).
Lemma sq_cone_of p o : p = Sx \/ p = Sg -> admissible_kernel (sq_tangents o) p = Ret (Some (sq_cone p o)).
Proof. intros H. unfold admissible_kernel. rewrite sq_face; [reflexivity| |]; destruct H as [->| ->], o; cbn; lra. Qed.
Definition cone_region (c : cone R) : geo := (None, fun p => in_sector (dir1 c) (dir2 c) (vsub p (apex c))).
Definition sq_adm (o : bool) : geo := g_and (cone_region (sq_cone Sx o)) (cone_region (sq_cone Sg o)).
Definition sq_keep : cones geo := Cones [(Some 2%Z, sq_cone Sx true); (Some 1%Z, sq_cone Sx false)] [(Some 2%Z, sq_cone Sg true); (Some 1%Z, sq_cone Sg false)] [].
Lemma sq_prepare mc : prepare sq_methods sq_shapely (sq_opts mc) Sx Sg [false; true] 0 [false; true] (Cones [] [] []) = Val (Some sq_keep).
Proof.
  cbn [prepare sq_opts op_late never op_exclude_obstacles]. cbn [ob_tangent_points sq_methods ob_id k_robot k_goal k_others].
  rewrite (sq_cone_of Sx false), (sq_cone_of Sg false), (sq_cone_of Sx true), (sq_cone_of Sg true) by auto. cbn [of_res obind prepare k_others k_robot k_goal]. reflexivity.
Qed.
Lemma sq_kernel_points o : compute_kernel_points sq_methods sq_shapely (sq_adm o) [o] Sx Sg (1 / 10) None (None, fun _ => True) [] (1, 1, 1, 1, 1) = Val (KPo o).
Proof.
  unfold compute_kernel_points. cbn [obind].
  assert (Ss : selection_set sq_methods sq_shapely (sq_adm o) [o] (None, fun _ => True) = Val (g_and (sq_adm o) (Some o, fun p => dist (centre o) p < 1 / 4))).
  { unfold selection_set, selection_set_workspace. cbn [sh_within sq_shapely forallb ob_is_starshaped sq_methods andb with_kernels ob_class is_star_class ob_kernel of_res obind sh_area sh_intersection].
    rewrite one_small, small_1. reflexivity. }
  rewrite Ss. cbn [obind].
  assert (Tc : triangle_center sq_shapely (sq_adm o) (g_and (sq_adm o) (Some o, fun p => dist (centre o) p < 1 / 4)) Sx Sg None [] = Val (centre o)).
  { unfold triangle_center. cbn [sh_nearest sh_centroid sq_shapely of_res obind g_and fst sq_adm cone_region].
    assert (E : match o with true => (202, 1 / 2) | false => (2, 1 / 2) end = centre o) by (destruct o; unfold centre; cbn; unv; f_equal; lra). rewrite E. cbn [off_line].
    destruct (is_collinear Sx Sg (centre o)) eqn:C; [exfalso|reflexivity]. apply is_collinear_iff in C. unfold TH, Sx, Sg, centre in C. destruct o; cbn in C; unv; lra. }
  rewrite Tc. cbn [obind]. unfold boundary_distance. cbn [sh_parts sh_exterior_distance sq_shapely of_res obind]. rewrite total_111. reflexivity.
Qed.
Definition sq_cluster (o : bool) (n : Z) : cluster bool geo :=
  Cluster (name_of [Some (if o then 2 else 1)%Z]) [o] (Some (Combination [o] (Some (gunion [(Some o, in_hull (KPpts o))])) (centre o) (Some n))) (Some (KPo o)) (Some (sq_adm o)) None.
Lemma sq_first mc counter i o : first_cluster sq_methods sq_shapely (sq_opts mc) Sx Sg sq_keep counter i o = Val ((counter + 1)%Z, sq_cluster o (counter + 1)).
Proof.
  unfold first_cluster. cbv zeta. assert (K1 : get_cone (k_robot sq_keep) (ob_id sq_methods o) = Val (sq_cone Sx o)) by (destruct o; reflexivity).
  assert (K2 : get_cone (k_goal sq_keep) (ob_id sq_methods o) = Val (sq_cone Sg o)) by (destruct o; reflexivity). rewrite K1, K2. cbn [obind].
  cbn [sh_cone sq_shapely of_res obind sh_intersection]. change (g_and _ _) with (sq_adm o).
  cbn [sq_opts op_previous extract_cluster op_epsilon workspace op_workspace op_draws op_timer]. rewrite sq_kernel_points. cbn [obind id_argument].
  unfold kernel_starshaped_hull. cbn [omap]. unfold hull_of. cbn [ob_is_convex ob_convex_hull sq_methods]. rewrite KPo_hull. cbn [obind sh_union sh_is_empty sq_shapely set_id].
  rewrite KPo_mean. reflexivity.
Qed.
Definition sq_answer : answer bool geo :=
  Answer [fst (read_polygon sq_methods sq_shapely (sq_cluster false 1)); fst (read_polygon sq_methods sq_shapely (sq_cluster true 2))] COMPLETE 1 None 2.
Lemma sq_call : cluster_and_starify sq_methods sq_shapely (nodup Nat.eq_dec) sq_options 0 0 Sx Sg [false; true] = Val sq_answer.
Proof.
  unfold cluster_and_starify. cbn [sq_opts op_workspace]. fold (sq_opts false). rewrite sq_prepare. cbn [obind first_clusters]. rewrite sq_first. cbn [obind]. rewrite sq_first. cbn [obind].
  cbn [sq_opts op_return_history]. fold (sq_opts false).
  assert (E : get_intersection_clusters sq_methods sq_shapely (nodup Nat.eq_dec) [sq_cluster false (0 + 1); sq_cluster true (0 + 1 + 1)] =
              Val ([fst (read_polygon sq_methods sq_shapely (sq_cluster false 1)); fst (read_polygon sq_methods sq_shapely (sq_cluster true 2))], false)).
  { rewrite gic_value; [|intros c [<-|[<-|[]]]; cbn; congruence]. reflexivity. }
  rewrite E. reflexivity.
Qed.
Lemma sq_inside (o : bool) p q : p = Sx \/ p = Sg -> dist (centre o) q < 1 / 4 -> gden (cone_region (sq_cone p o)) q.
Proof.
  intros Hp Hq. apply near_centre in Hq. split; [|exact I]. cbn [cone_region snd sq_cone dir1 dir2 apex Cone].
  assert (A12 : apart (psub p (vadd (shift_of o) (1, 0))) (psub p (vadd (shift_of o) (1, 1)))) by (unfold apart, TH, Rabs; destruct Hp as [->| ->], o; unfold psub; nR; unv; cbn [fst snd Sx Sg shift_of]; destruct (Rcase_abs _); lra).
  assert (A1 : apart (psub p (vadd (shift_of o) (1, 0))) (vsub q p)) by (unfold apart, TH, Rabs; destruct Hp as [->| ->], o, q; unfold psub; nR; unv; cbn [fst snd Sx Sg shift_of] in *; destruct (Rcase_abs _); lra).
  assert (A2 : apart (psub p (vadd (shift_of o) (1, 1))) (vsub q p)) by (unfold apart, TH, Rabs; destruct Hp as [->| ->], o, q; unfold psub; nR; unv; cbn [fst snd Sx Sg shift_of] in *; destruct (Rcase_abs _); lra).
  apply (C15_point_in_cone_is_sector p _ _ q A12 A1 A2).
  unfold point_in_cone. cbn [is_convex apex dir1 dir2 Cone].
  assert (Nc : is_ccw (n0, n0) (psub p (vadd (shift_of o) (1, 0))) (psub p (vadd (shift_of o) (1, 1))) = false).
  { destruct (is_ccw _ _ _) eqn:Q; [exfalso|reflexivity]. apply is_ccw_iff in Q. revert Q. unfold n0, psub; nR. rewrite Num.Q2R_0. unfold TH. destruct Hp as [->| ->], o; unv; cbn [fst snd Sx Sg shift_of]; lra. }
  rewrite Nc, negb_true_iff, andb_false_iff. right. apply not_true_iff_false. intros Q. apply is_cw_iff in Q. revert Q. unfold padd, psub; nR. unfold TH. destruct Hp as [->| ->], o, q; unv; cbn [fst snd Sx Sg shift_of] in *; lra.
Qed.
Lemma sq_interior o k : in_hull (pts_of (KPo o)) k -> interior (gden (sq_adm o)) k.
Proof.
  intros H. apply KPo_near in H. exists (1 / 9). split; [lra|]. intros q Hq.
  assert (D : dist (centre o) q < 1 / 4).
  { unfold dist in *. replace (vsub (centre o) q) with (vadd (vsub (centre o) k) (vsub k q)) by (destruct (centre o), k, q; unv; f_equal; ring). eapply Rle_lt_trans; [apply norm_triangle|]. lra. }
  assert (A : gden (cone_region (sq_cone Sx o)) q /\ gden (cone_region (sq_cone Sg o)) q) by (split; apply sq_inside; auto). split; [exact A|exact I].
Qed.
Lemma sq_directions p o : p = Sx \/ p = Sg -> general_directions (directions_at sq_methods p [o]).
Proof.
  intros Hp. unfold directions_at. cbn [flat_map ob_tangent_points sq_methods]. rewrite sq_face by (destruct Hp as [->| ->], o; cbn; lra). cbn [app].
  constructor; [|constructor; [constructor|constructor]]. constructor; [|constructor].
  unfold apart, TH, Rabs. destruct Hp as [->| ->], o; unv; cbn [fst snd Sx Sg shift_of]; destruct (Rcase_abs _); lra.
Qed.
Lemma sq_triangle_tangents o k : In k (pts_of (KPo o)) -> tangents_of (sq_tangents o) (sq_body o) k.
Proof. intros H. apply sq_right. apply in_hull_mem in H. apply KPo_near in H. assert (Q : dist (centre o) k < 1 / 4) by lra. apply near_centre in Q. lra. Qed.

Definition sq_cl (o : bool) : cluster bool geo := fst (read_polygon sq_methods sq_shapely (sq_cluster o (if o then 2 else 1))).
Lemma sq_setl : set_order (nodup Nat.eq_dec).
Proof. intros l. split; [apply NoDup_nodup|apply nodup_In]. Qed.
Lemma sq_symmetric : forall p q, sh_intersects sq_shapely p q = sh_intersects sq_shapely q p.
Proof. intros [[[]|] ?] [[[]|] ?]; reflexivity. Qed.

(** the scene meets every hypothesis of C100; robot and goal are outside the two cluster obstacles, which have no point in common *)
Example C100_example :
  cluster_and_starify sq_methods sq_shapely (nodup Nat.eq_dec) sq_options 0 0 Sx Sg [false; true] = Val sq_answer /\
  a_clusters sq_answer = [sq_cl false; sq_cl true] /\ a_flag sq_answer = COMPLETE /\ uncut sq_options sq_answer /\
  faithful_geometry sq_methods sq_shapely gden sq_options Sx Sg [false; true] /\ convex_obstacles sq_methods sq_body Sx Sg [false; true] /\
  (forall o p, sq_body o p -> gden (ob_polygon sq_methods o) p) /\ (forall g h, sh_intersects sq_shapely g h = false -> disjoint (gden g) (gden h)) /\
  (forall g p d, sh_exterior_distance sq_shapely g p = Ret d -> 0 <= d) /\
  (forall o tcss, selection_set sq_methods sq_shapely (sq_adm o) [o] (None, fun _ => True) = Val tcss ->
     gden tcss (centre o) /\ forall d q, outer_distance sq_shapely tcss (centre o) d -> 0 < d /\ (dist (centre o) q < d -> gden tcss q)) /\
  (forall o a b c, hull_right sq_methods gden (nodup pt_eq_dec) o a b c) /\
  exists oa ob, c_obstacle (sq_cl false) = Some oa /\ c_obstacle (sq_cl true) = Some ob /\
    disjoint (obst_region gden sq_body oa) (obst_region gden sq_body ob) /\
    (exists p, obst_region gden sq_body oa p /\ ~ sq_body false p) /\ (exists p, obst_region gden sq_body ob p /\ ~ sq_body true p) /\
    ~ obst_region gden sq_body oa Sx /\ ~ obst_region gden sq_body ob Sx /\ ~ obst_region gden sq_body oa Sg /\ ~ obst_region gden sq_body ob Sg /\
    (forall k, in_hull (pts_of (KPo false)) k -> starshaped_from (obst_region gden sq_body oa) k) /\
    (forall k, in_hull (pts_of (KPo true)) k -> starshaped_from (obst_region gden sq_body ob) k).
Proof.
  assert (Un : uncut sq_options sq_answer) by (intros m Hm; discriminate).
  assert (Cov : forall o p, sq_body o p -> gden (ob_polygon sq_methods o) p) by (intros o p Hp; split; [exact Hp|apply sq_on_side, Hp]).
  assert (Dj : forall g h, sh_intersects sq_shapely g h = false -> disjoint (gden g) (gden h)).
  { intros [[[]|] r] [[[]|] r'] E; try discriminate; intros p [[_ A] [_ B]]; cbn in A, B; lra. }
  split; [exact sq_call|]. split; [reflexivity|]. split; [reflexivity|]. split; [exact Un|]. split; [exact (sq_geometry false)|]. split; [exact sq_obstacles|]. split; [exact Cov|]. split; [exact Dj|].
  split; [intros g p d E; injection E as <-; lra|]. split.
  { intros o tcss E. unfold selection_set, selection_set_workspace in E. cbn [sh_within sq_shapely forallb ob_is_starshaped sq_methods andb with_kernels ob_class is_star_class ob_kernel of_res obind sh_area sh_intersection] in E.
    rewrite one_small, small_1 in E. injection E as <-.
    assert (In4 : forall q, dist (centre o) q < 1 / 4 -> gden (g_and (sq_adm o) (Some o, fun p => dist (centre o) p < 1 / 4)) q).
    { intros q Hq. assert (Os : on_side o q) by (apply near_centre in Hq; destruct o, q; cbn in *; lra).
      assert (A : gden (cone_region (sq_cone Sx o)) q /\ gden (cone_region (sq_cone Sg o)) q) by (split; apply sq_inside; auto).
      split; [split; [split; [exact A|exact I]|split; [exact Hq|exact Os]]|exact Os]. }
    split; [apply In4; rewrite dist_refl; lra|]. intros d q Ed. unfold outer_distance in Ed. cbn [sh_parts sh_exterior_distance sq_shapely] in Ed. injection Ed as <-. split; [lra|apply In4]. }
  split; [exact sq_hull_right|].
  pose proof (C100_guarantee sq_methods sq_shapely (nodup Nat.eq_dec) gden sq_body (nodup pt_eq_dec) sq_options Sx Sg [false; true] sq_setl (fun l p => nodup_In pt_eq_dec l p) (sq_geometry false) sq_obstacles 0 0 sq_answer sq_call eq_refl eq_refl Un) as Gr.
  pose proof (C100_disjoint sq_methods sq_shapely (nodup Nat.eq_dec) gden sq_body sq_options Sx Sg [false; true] sq_setl sq_symmetric (sq_geometry false) sq_obstacles (fun o p _ => Cov o p) Dj 0 0 sq_answer sq_call eq_refl eq_refl Un) as Gd.
  assert (One : forall o, In (sq_cl o) (a_clusters sq_answer) -> exists ob, c_obstacle (sq_cl o) = Some ob /\ (exists p, obst_region gden sq_body ob p /\ ~ sq_body o p) /\
      ~ obst_region gden sq_body ob Sx /\ ~ obst_region gden sq_body ob Sg /\ (forall k, in_hull (pts_of (KPo o)) k -> starshaped_from (obst_region gden sq_body ob) k)).
  { intros o Ho. destruct (Gr (sq_cl o) Ho) as (ob & a1 & a2 & a3 & adm & E1 & E2 & E3 & _ & Hm & _ & St). exists ob. split; [exact E1|].
    assert (Ek : KPo o = (a1, a2, a3)) by (cbn in E2; injection E2 as E2; exact E2). assert (Ea : adm = sq_adm o) by (cbn in E3; injection E3 as <-; reflexivity). subst adm.
    pose proof (sq_interior o) as Int. pose proof (sq_triangle_tangents o) as Tg. pose proof (KPo_near o) as Nr. pose proof (KPo_mean o) as Mn. rewrite Ek in Int, Tg, Nr, Mn. cbn [pts_of] in Int, Tg, Nr.
    destruct St as [St Out]; [intros o' [<-|[]]; split; [apply sq_hull_right|exact Tg]|]. destruct (Out (sq_directions Sx o (or_introl eq_refl)) (sq_directions Sg o (or_intror eq_refl)) Int) as [O1 O2].
    split; [|split; [exact O1|split; [exact O2|rewrite Ek; exact St]]].
    exists (centre o). split.
    - cbn in E1. injection E1 as <-. right. eexists. split; [reflexivity|]. apply (fg_union _ _ _ _ _ _ _ (sq_geometry false)). eexists. split; [left; reflexivity|]. split.
      + cbn [snd]. rewrite <- Mn. destruct Hm as (w & L & Pw & Sw & Ew).
        apply (hull_in_convex (in_hull (KPpts o)) [a1; a2; a3]); [apply in_hull_convex| |exists w; auto].
        intros p Hp. apply in_hull_mem. unfold KPpts. rewrite Ek. apply in_app_iff. right. exact Hp.
      + cbn [fst]. destruct o; cbn; lra.
    - intros Hb. apply square_box in Hb. destruct o; cbn in Hb; lra. }
  destruct (One false (or_introl eq_refl)) as (oa & Ea & Pa & Xa & Ga & Sa). destruct (One true (or_intror (or_introl eq_refl))) as (ob & Eb & Pb & Xb & Gb & Sb).
  exists oa, ob. split; [exact Ea|]. split; [exact Eb|]. split; [apply (Gd 0%nat 1%nat (sq_cl false) (sq_cl true)); auto|]. auto 12.
Qed.
