(** The scene of W_Guarantee with the modelled polygon methods and cone polygons: the hypotheses of C102 hold. *)
From Coq Require Import String Reals List Bool Arith ZArith Lia Lra Permutation.
From Verif Require Import Num Spec S_Guarantee S_ConeRegion M_Cg M_Hull M_Motion M_Obstacle M_Ellipse M_Polygon M_ConePolygon M_Clusters L_Clusters P_Clusters M_StarHull M_Starify M_Shapes
  L_Geom L_Hull L_Cg L_Cone L_Obstacle L_Ellipse P_Cg P_Cone P_Hull P_Ellipse P_Polygon P_KernelPoints L_Starify P_StarHull P_Starify P_StarifyResult L_Guarantee P_ConeRegion P_Guarantee P_Shapes W_Starify W_Guarantee.
Import ListNotations.
Open Scope R_scope.

(** *** a convex ring lies within the triangles spanned from its first vertex *)
Lemma edge_left h a b q : strict_ring h -> In (a, b) (cyc_edges h) -> in_hull h q -> 0 <= area2 a b q.
Proof.
  intros S E H. apply (hull_in_convex (fun q => 0 <= area2 a b q) h q); [| |exact H].
  - intros u w r U W (t & Ht & ->). replace (area2 a b (along u w t)) with ((1 - t) * area2 a b u + t * area2 a b w) by (destruct a, b, u, w; unfold along; unv; ring). nra.
  - intros r Hr. apply (strict_convex h S a b E r Hr).
Qed.
Lemma sign_change (f : Pt -> R) : forall l u w, 0 <= f u -> f w <= 0 -> exists c d, consecutive c d (u :: l ++ [w]) /\ 0 <= f c /\ f d <= 0.
Proof.
  induction l as [|z l IH]; intros u w Hu Hw.
  - exists u, w. split; [exists [], []; reflexivity|auto].
  - destruct (Rle_dec (f z) 0) as [Z|Z]; [exists u, z; split; [exists [], (l ++ [w]); reflexivity|auto]|].
    destruct (IH z w ltac:(lra) Hw) as (c & d & (l1 & l2 & E) & H). exists c, d. split; [|exact H]. exists (u :: l1), l2. cbn [app]. f_equal. exact E.
Qed.
Lemma combine_cons_app {A} (l1 : list A) c d l2 (x y : A) : In (c, d) (combine (x :: l1 ++ c :: d :: l2) (l1 ++ c :: d :: l2 ++ [y])).
Proof. revert x. induction l1 as [|z l1 IH]; intros x; cbn [app combine]; [right; left; reflexivity|]. right. apply IH. Qed.
Lemma combine_last {A} (l1 : list A) z (x y : A) : In (z, y) (combine (x :: l1 ++ [z]) (l1 ++ [z] ++ [y])).
Proof. revert x. induction l1 as [|u l1 IH]; intros x; cbn [app combine]; [right; left; reflexivity|]. right. apply IH. Qed.
Lemma strict_fan a l p : strict_ring (a :: l) -> in_hull (a :: l) p -> fan a l p.
Proof.
  intros S H. pose proof S as (L & N & St). destruct l as [|u l]; [cbn in L; lia|]. destruct (exists_last (l := l)) as (m & w & ->); [destruct l; [cbn in L; lia|discriminate]|].
  assert (E1 : In (a, u) (cyc_edges (a :: u :: m ++ [w]))) by (left; reflexivity).
  assert (E2 : In (w, a) (cyc_edges (a :: u :: m ++ [w]))) by (unfold cyc_edges; pose proof (combine_last (u :: m) w a a) as Q; rewrite app_assoc in Q; exact Q).
  pose proof (edge_left _ _ _ _ S E1 H) as A1. pose proof (edge_left _ _ _ _ S E2 H) as A2.
  destruct (sign_change (fun z => area2 a z p) m u w) as (c & d & C & Hc & Hd); [exact A1|replace (area2 a w p) with (- area2 w a p) by (destruct a, w, p; unv; ring); lra|].
  exists c, d. split; [exact C|]. destruct C as (l1 & l2 & C).
  assert (E3 : In (c, d) (cyc_edges (a :: u :: m ++ [w]))).
  { rewrite C. unfold cyc_edges. rewrite <- app_assoc. apply (combine_cons_app l1 c d l2 a a). }
  assert (N' := N). rewrite C in N'. inversion N' as [|? ? Na N2]; subst.
  assert (P : 0 < area2 c d a) by (apply (St c d E3); [left; reflexivity| |]; intros ->; apply Na, in_app_iff; cbn; auto).
  assert (Q : 0 <= area2 d a p) by (replace (area2 d a p) with (- area2 a d p) by (destruct a, d, p; unv; ring); lra).
  apply (in_triangle a c d p); [replace (area2 a c d) with (area2 c d a) by (destruct a, c, d; unv; ring); exact P|exact Hc|apply (edge_left _ _ _ _ S E3 H)|exact Q|apply in_hull_convex| | |]; apply in_hull_mem; cbn; auto.
Qed.
Lemma fan_hull a l p : fan a l p -> in_hull (a :: l) p.
Proof.
  intros (u & w & (l1 & l2 & ->) & H). apply (hull_in_convex _ [a; u; w] p (in_hull_convex _)); [|exact H]. intros q Hq. apply in_hull_mem.
  destruct Hq as [<-|[<-|[<-|[]]]]; [left; reflexivity|right; apply in_app_iff; cbn; auto|right; apply in_app_iff; cbn; auto].
Qed.

(** *** the region of a ring *)
Definition tag (h : list Pt) : option bool := if forallb (sideb false) h then Some false else if forallb (sideb true) h then Some true else None.
Definition ring_region (h : list Pt) : region := fun p => in_hull h p /\ match h with a :: l => sweeps a l -> fan a l p | [] => False end.
Definition ring (h : list Pt) : geo := (tag h, ring_region h).
Lemma ring_in_hull h p : ring_region h p -> in_hull h p.
Proof. intros [H _]. exact H. Qed.
Lemma side_all o h p : forallb (sideb o) h = true -> in_hull h p -> on_side o p.
Proof. intros F H. apply (hull_in_convex _ h p (on_side_convex o)); [|exact H]. intros q Hq. rewrite forallb_forall in F. apply sideb_iff, F, Hq. Qed.
Lemma ring_den h p : gden (ring h) p <-> ring_region h p.
Proof.
  unfold gden, ring. cbn [fst snd]. split; [tauto|]. intros H. split; [exact H|]. apply ring_in_hull in H. unfold tag.
  destruct (forallb (sideb false) h) eqn:F; [apply (side_all false h); auto|]. destruct (forallb (sideb true) h) eqn:F'; [apply (side_all true h); auto|exact I].
Qed.
Lemma tag_of o h : h <> [] -> (forall p, In p h -> on_side o p) -> tag h = Some o.
Proof.
  intros N H. assert (F : forallb (sideb o) h = true) by (apply forallb_forall; intros p Hp; apply sideb_iff, H, Hp). unfold tag.
  destruct o; [|rewrite F; reflexivity]. destruct (forallb (sideb false) h) eqn:F'; [exfalso|rewrite F; reflexivity].
  destruct h as [|p h]; [congruence|]. specialize (H p (or_introl eq_refl)). cbn [forallb] in F'. apply andb_prop in F' as [F' _]. apply sideb_iff in F'. cbn in H, F'. lra.
Qed.
Definition g_both (g h : geo) : geo := (match fst h with Some o => Some o | None => fst g end, fun p => gden g p /\ gden h p).
Lemma gunion_tag o l : l <> [] -> (forall g, In g l -> fst g = Some o) -> fst (gunion l) = Some o.
Proof.
  intros N H. assert (F : forallb (tagged o) l = true) by (apply forallb_forall; intros g Hg; unfold tagged; rewrite (H g Hg); apply eqb_reflx). unfold gunion. cbn [fst].
  destruct o; [|rewrite F; reflexivity]. destruct (forallb (tagged false) l) eqn:F'; [exfalso|rewrite F; reflexivity].
  destruct l as [|g l]; [congruence|]. cbn [forallb] in F'. apply andb_prop in F' as [F' _]. unfold tagged in F'. rewrite (H g (or_introl eq_refl)) in F'. discriminate.
Qed.

(** *** the scene *)
Definition pose (o : bool) : option mm := if o then Some (static_new (Some (200, 0)) 0) else None.
Definition sq (o : bool) : item := Item (if o then 2 else 1)%Z (PolygonShape (pose o) square).
Definition pside (o : item) : bool := Z.eqb (it_id o) 2.
Definition sh_methods : methods item geo :=
  Methods item geo (fun o => Some (it_id o)) (fun _ => CStarPolygon) (fun o => match shape_convexity (it_shape o) with Ret b => b | Exn _ => false end) (fun _ => true)
    (fun o => match it_shape o with PolygonShape m v => match map_res (fun p => transform m p OBSTACLE GLOBAL) v with Ret vs => ring vs | Exn _ => ring [] end | EllipseShape _ => ring [] end)
    (fun o => Ret (Some (pside o), fun p => dist (centre (pside o)) p < 1 / 4)) (fun o => shape_tangents (it_shape o)) (fun _ _ => true) (fun _ => [])
    (fun o => shape_hull ring (nodup pt_eq_dec) 9 (it_shape o)) (fun o => shape_hull ring (nodup pt_eq_dec) 9 (it_shape o)) (fun _ => (0, 0)).
Definition cone_geo (c : cone R) : geo := match cone_polygon c with Vertices vs => ring vs | _ => ring [] end.
Definition sh_shapely : shapely geo :=
  Shapely geo (fun _ => 1) (fun _ => false) g_both (fun g _ => g) gunion (fun _ _ => true)
    (fun g h => match fst g, fst h with Some a, Some b => Bool.eqb a b | _, _ => true end) (fun _ _ => false)
    (fun g => match fst g with Some true => (202, 1 / 2) | _ => (2, 1 / 2) end) (fun _ p => Ret p) (fun g _ _ => Ret [g]) (fun _ => None) (fun _ _ => Ret (1 / 4)) (fun g => Ret g)
    (fun c => match cone_polygon c with Vertices vs => Ret (ring vs) | _ => Exn AttributeErr end).
Definition sh_options : options item geo :=
  Options (1 / 10) (Some (None, fun _ => True)) (None, fun _ => True) never None false false None false (fun _ _ => []) (fun _ _ => (1, 1, 1, 1, 1)) (fun _ => false) (None, fun _ => False).

Lemma pose_to o k : transform (pose o) k GLOBAL OBSTACLE = Ret (vsub k (shift_of o)).
Proof.
  destruct o; cbn [pose transform frame_eqb].
  - unfold affine_transform. cbn [m_rot m_pos static_new]. destruct (Reqb_spec 0 0) as [_|N]; [|congruence]. destruct k. cbn. unv. apply f_equal, pair_eq; ring.
  - destruct k. cbn. unv. apply f_equal, pair_eq; ring.
Qed.
Lemma pose_from o z : transform (pose o) z OBSTACLE GLOBAL = Ret (vadd (shift_of o) z).
Proof.
  destruct o; cbn [pose transform frame_eqb].
  - unfold affine_transform. cbn [m_rot m_pos static_new]. destruct (Reqb_spec 0 0) as [_|N]; [|congruence]. destruct z. cbn. unv. apply f_equal, pair_eq; ring.
  - destruct z. cbn. unv. apply f_equal, pair_eq; ring.
Qed.
Lemma pose_shown o z : shown (pose o) GLOBAL z = vadd (shift_of o) z.
Proof. rewrite <- to_frame_shown by (left; reflexivity). unfold to_frame. rewrite pose_from. reflexivity. Qed.
Lemma sq_shape_tangents o k : shape_tangents (it_shape (sq o)) k = sq_tangents o k.
Proof.
  cbn [sq it_shape shape_tangents]. unfold sq_tangents, square_tangents, p_tangent_points. rewrite pose_to. cbn [bind transform frame_eqb].
  destruct (Nat.eqb _ 0); [reflexivity|]. destruct (Rltb _ _); [reflexivity|]. destruct (Rleb _ _); [reflexivity|]. rewrite !pose_from. reflexivity.
Qed.
Lemma sq_shape_body o p : shape_body (it_shape (sq o)) p <-> sq_body o p.
Proof.
  cbn [sq it_shape shape_body]. unfold sq_body, square_body, placed. split; intros (z & Hz & E); exists z; (split; [exact Hz|]); cbn [shown] in *.
  - rewrite pose_shown in E. subst p. destruct (shift_of o), z. unv. apply pair_eq; ring.
  - rewrite pose_shown, <- E. destruct (shift_of o), p. unv. apply pair_eq; ring.
Qed.
Lemma square_strict : strict_ring square.
Proof.
  split; [cbn; lia|]. split.
  - unfold square. repeat constructor; cbn; intros H; repeat (destruct H as [H|H]; [injection H; intros; lra|]); exact H.
  - intros a b E r Hr Na Nb. unfold square, cyc_edges in *. cbn in E, Hr.
    destruct E as [E|[E|[E|[E|[]]]]]; injection E as <- <-; destruct Hr as [<-|[<-|[<-|[<-|[]]]]]; try congruence; unv; lra.
Qed.
Lemma sq_solid o : solid (it_shape (sq o)).
Proof.
  split; [exact square_strict|]. intros i Hi. unfold TH. unfold square in Hi. cbn in Hi. destruct i as [|[|[|[|i]]]]; [| | | |lia]; unfold turn, square; cbn; unv; lra.
Qed.
Lemma sq_sees o k : 1 < fst (vsub k (shift_of o)) -> sees (it_shape (sq o)) k.
Proof.
  intros H. exists (vsub k (shift_of o)). split; [rewrite pose_shown; destruct k, (shift_of o); unv; apply pair_eq; ring|]. right. exists (1, 0), (1, 1). split; [cbn; auto|].
  destruct (vsub k (shift_of o)) as [u w]. cbn [fst] in H. unv. lra.
Qed.
Lemma sh_implemented : implemented ring (nodup pt_eq_dec) 9 sh_methods sh_shapely.
Proof.
  split; cbn; auto.
  - intros o b ->. reflexivity.
  - intros o m v vs -> ->. reflexivity.
  - intros c g. destruct (cone_polygon c); [intros E; injection E as <-; eauto|discriminate|discriminate].
Qed.
Lemma sh_sets : sets sh_shapely gden ring sh_options.
Proof.
  split.
  - intros g h p [[A B] _]. auto.
  - apply (fg_union _ _ _ _ _ _ _ (sq_geometry false)).
  - discriminate.
  - intros p [[] _].
  - intros p H. apply ring_den in H. destruct H as [_ []].
  - intros h p S. rewrite ring_den. split; [intros [H _]; exact H|]. intros H. split; [exact H|]. destruct h as [|a l]; [destruct S as (L & _); cbn in L; lia|]. intros _. apply strict_fan; assumption.
  - intros a l p S H. apply ring_den in H. destruct H as [_ H]. apply H, S.
Qed.
Lemma far o p : p = Sx \/ p = Sg -> 1 < fst (vsub p (shift_of o)).
Proof. intros [->| ->]; destruct o; cbn; lra. Qed.
Lemma margin p : p = Sx \/ p = Sg -> box_margin p = 999700.
Proof. intros [->| ->]; unfold box_margin, Sx, Sg; cbn [fst snd]; rewrite !Rabs_pos_eq by lra; rewrite Rmax_left; lra. Qed.
Lemma sh_usable p o d : p = Sx \/ p = Sg -> In d [vsub p (vadd (shift_of o) (1, 0)); vsub p (vadd (shift_of o) (1, 1))] -> usable p d.
Proof.
  intros Hp Hd. unfold usable. cbv zeta. rewrite (margin p Hp).
  assert (B : 99 <= fst d /\ -1 <= snd d <= 1) by (destruct Hp as [->| ->], o, Hd as [<-|[<-|[]]]; unfold Sx, Sg, shift_of; unv; cbn [fst snd]; lra).
  destruct d as [d1 d2]. cbn [fst snd] in *. unfold max_coord. cbn [fst snd]. assert (A : Rabs d2 <= 1) by (apply Rabs_le; lra). rewrite (Rabs_pos_eq d1) by lra.
  split; [pose proof (Rmax_l d1 (Rabs d2)); unfold TH; nra|]. right. nra.
Qed.

(** *** the cones *)
Lemma sh_cone_ok p o : p = Sx \/ p = Sg -> exists l, cone_polygon (sq_cone p o) = Vertices (p :: l) /\
  forall q, cross (dir1 (sq_cone p o)) (vsub q p) <> 0 -> cross (dir2 (sq_cone p o)) (vsub q p) <> 0 ->
    (fan p l q <-> in_box q /\ in_sector (dir1 (sq_cone p o)) (dir2 (sq_cone p o)) (vsub q p)).
Proof.
  intros Hp. set (d1 := vsub p (vadd (shift_of o) (1, 0))). set (d2 := vsub p (vadd (shift_of o) (1, 1))).
  destruct (sh_usable p o d1 Hp) as [U1 V1]; [left; reflexivity|]. destruct (sh_usable p o d2 Hp) as [U2 V2]; [right; left; reflexivity|].
  destruct (C101_region_partial p d1 d2) as (l & E & _ & F); auto.
  - rewrite (margin p Hp). lra.
  - unfold d1, d2, apart, TH, Rabs. destruct Hp as [->| ->], o; unfold Sx, Sg, shift_of; unv; cbn [fst snd]; destruct (Rcase_abs _); lra.
  - exists l. split; [exact E|exact F].
Qed.
Lemma sh_inside (o : bool) p q : p = Sx \/ p = Sg -> dist (centre o) q < 1 / 4 -> gden (cone_geo (sq_cone p o)) q.
Proof.
  intros Hp Hq. destruct (sh_cone_ok p o Hp) as (l & E & F). unfold cone_geo. rewrite E. apply ring_den.
  destruct (sq_inside o p q Hp Hq) as [Sec _]. apply near_centre in Hq.
  assert (Fq : fan p l q).
  { apply F.
    - cbn [sq_cone dir1 Cone]. destruct Hp as [->| ->], o, q; unfold psub, Sx, Sg, shift_of in *; nR; unv; cbn [fst snd] in *; lra.
    - cbn [sq_cone dir2 Cone]. destruct Hp as [->| ->], o, q; unfold psub, Sx, Sg, shift_of in *; nR; unv; cbn [fst snd] in *; lra.
    - split; [|exact Sec]. unfold in_box, max_coord. apply Rmax_lub; apply Rabs_le; destruct o, q; cbn in *; lra. }
  split; [apply fan_hull, Fq|]. intros _. exact Fq.
Qed.
Lemma sh_cone_geo p o : p = Sx \/ p = Sg -> sh_cone sh_shapely (sq_cone p o) = Ret (cone_geo (sq_cone p o)).
Proof. intros Hp. destruct (sh_cone_ok p o Hp) as (l & E & _). cbn [sh_cone sh_shapely]. unfold cone_geo. rewrite E. reflexivity. Qed.
Definition sh_adm (o : bool) : geo := g_both (cone_geo (sq_cone Sx o)) (cone_geo (sq_cone Sg o)).
Definition sh_keep : cones geo := Cones [(Some 2%Z, sq_cone Sx true); (Some 1%Z, sq_cone Sx false)] [(Some 2%Z, sq_cone Sg true); (Some 1%Z, sq_cone Sg false)] [].
Lemma sh_cone_of p o : p = Sx \/ p = Sg -> admissible_kernel (shape_tangents (it_shape (sq o))) p = Ret (Some (sq_cone p o)).
Proof. intros H. rewrite <- (sq_cone_of p o H). unfold admissible_kernel. rewrite sq_shape_tangents. reflexivity. Qed.
Lemma sh_prepare : prepare sh_methods sh_shapely sh_options Sx Sg [sq false; sq true] 0 [sq false; sq true] (Cones [] [] []) = Val (Some sh_keep).
Proof.
  cbn [prepare sh_options op_late never op_exclude_obstacles]. cbn [ob_tangent_points sh_methods ob_id k_robot k_goal k_others].
  rewrite (sh_cone_of Sx false), (sh_cone_of Sg false), (sh_cone_of Sx true), (sh_cone_of Sg true) by auto. cbn [of_res obind prepare k_others k_robot k_goal]. reflexivity.
Qed.
Lemma pside_sq o : pside (sq o) = o.
Proof. destruct o; reflexivity. Qed.
Definition kernel_geo (o : bool) : geo := (Some o, fun p => dist (centre o) p < 1 / 4).
Lemma sh_selection o : selection_set sh_methods sh_shapely (sh_adm o) [sq o] (None, fun _ => True) = Val (g_both (sh_adm o) (kernel_geo o)).
Proof.
  unfold selection_set, selection_set_workspace. cbn [sh_within sh_shapely forallb ob_is_starshaped sh_methods andb with_kernels ob_class is_star_class ob_kernel of_res obind sh_area sh_intersection].
  rewrite pside_sq. rewrite one_small, small_1. reflexivity.
Qed.
Lemma sh_kernel_points o : compute_kernel_points sh_methods sh_shapely (sh_adm o) [sq o] Sx Sg (1 / 10) None (None, fun _ => True) [] (1, 1, 1, 1, 1) = Val (KPo o).
Proof.
  unfold compute_kernel_points. cbn [obind]. rewrite sh_selection. cbn [obind].
  assert (Tc : triangle_center sh_shapely (sh_adm o) (g_both (sh_adm o) (kernel_geo o)) Sx Sg None [] = Val (centre o)).
  { unfold triangle_center. cbn [sh_nearest sh_centroid sh_shapely of_res obind g_both fst kernel_geo].
    assert (E : match o with true => (202, 1 / 2) | false => (2, 1 / 2) end = centre o) by (destruct o; unfold centre; cbn; unv; f_equal; lra). rewrite E. cbn [off_line].
    destruct (is_collinear Sx Sg (centre o)) eqn:C; [exfalso|reflexivity]. apply is_collinear_iff in C. unfold TH, Sx, Sg, centre in C. destruct o; cbn in C; unv; lra. }
  rewrite Tc. cbn [obind]. unfold boundary_distance. cbn [sh_parts sh_exterior_distance sh_shapely of_res obind]. rewrite total_111. reflexivity.
Qed.

(** *** the hulls *)
Lemma KPo_coords o : exists r, 28 / 1000 < r < 29 / 1000 /\
  KPo o = ((fst (centre o), snd (centre o) + 2 * r), (fst (centre o) + 1 / 20, snd (centre o) - r), (fst (centre o) - 1 / 20, snd (centre o) - r)).
Proof.
  assert (Q : 0 < sqrt 3) by (apply sqrt_lt_R0; lra). assert (Q2 : sqrt 3 * sqrt 3 = 3) by (apply sqrt_sqrt; lra).
  assert (B : 173 / 100 < sqrt 3 < 174 / 100) by (split; nra).
  exists (1 / 10 / (2 * sqrt 3)). split.
  - split; apply (Rmult_lt_reg_r (2 * sqrt 3)); try lra; replace (1 / 10 / (2 * sqrt 3) * (2 * sqrt 3)) with (1 / 10) by (field; lra); lra.
  - unfold KPo, equilateral_triangle, triangle_base. rewrite side_val. destruct (Reqb_spec 0 0) as [_|N]; [|congruence]. apply (f_equal2 pair); [apply (f_equal2 pair)|]; apply pair_eq; field; lra.
Qed.
Lemma KPpts_mem o p : In p (KPpts o) <-> p = vadd (shift_of o) (1, 0) \/ p = vadd (shift_of o) (1, 1) \/ In p (pts_of (KPo o)).
Proof. unfold KPpts. rewrite in_app_iff, nodup_In. cbn [In]. intuition. Qed.
Lemma KPpts_general o : general_position (KPpts o).
Proof.
  destruct (KPo_coords o) as (r & Hr & E).
  assert (Mem : forall p, In p (KPpts o) -> p = vadd (shift_of o) (1, 0) \/ p = vadd (shift_of o) (1, 1) \/
      p = (fst (centre o), snd (centre o) + 2 * r) \/ p = (fst (centre o) + 1 / 20, snd (centre o) - r) \/ p = (fst (centre o) - 1 / 20, snd (centre o) - r)).
  { intros p Hp. apply KPpts_mem in Hp. rewrite E in Hp. cbn in Hp. intuition. }
  split.
  - unfold KPpts. assert (Nt : NoDup (pts_of (KPo o))).
    { rewrite E. cbn [pts_of]. repeat constructor; cbn; intros H; repeat (destruct H as [H|H]; [injection H; intros; destruct o; cbn in *; lra|]); exact H. }
    assert (Ap : forall l1 l2 : list Pt, NoDup l1 -> NoDup l2 -> (forall p, In p l1 -> ~ In p l2) -> NoDup (l1 ++ l2)).
    { clear. induction l1 as [|u l1 IH]; intros l2 N1 N2 D; [exact N2|]. inversion N1; subst. cbn. constructor; [|apply IH; auto; intros p Hp; apply D; right; exact Hp].
      rewrite in_app_iff. intros [H|H]; [contradiction|]. apply (D u (or_introl eq_refl) H). }
    apply Ap; [apply NoDup_nodup|exact Nt|]. intros p Hp Hq. apply nodup_In in Hp. assert (F : fst p = fst (shift_of o) + 1) by (cbn in Hp; destruct o; cbn in *; intuition; subst; cbn; lra).
    rewrite E in Hq. cbn in Hq. destruct o; cbn in *; repeat (destruct Hq as [<-|Hq]; [cbn in F; lra|]); exact Hq.
  - intros a b c Ha Hb Hc N1 N2 N3. apply Mem in Ha, Hb, Hc. clear Mem E. unfold TH, centre, Rabs in *.
    destruct o; destruct Ha as [->|[->|[->|[->| ->]]]]; destruct Hb as [->|[->|[->|[->| ->]]]]; try congruence; destruct Hc as [->|[->|[->|[->| ->]]]]; try congruence; clear N1 N2 N3; unfold vadd, shift_of, area2, cross, vsub; cbn [fst snd]; destruct (Rcase_abs _); lra.
Qed.
Lemma fresh (l k : list Pt) : NoDup l -> (length k < length l)%nat -> exists r, In r l /\ ~ In r k.
Proof.
  intros N L. destruct (Exists_dec (fun r => ~ In r k) l) as [D|D].
  - intros r. destruct (in_dec pt_eq_dec r k); [right|left]; auto.
  - apply Exists_exists in D. exact D.
  - exfalso. assert (I : incl l k). { intros r Hr. destruct (in_dec pt_eq_dec r k) as [Y|Y]; [exact Y|]. exfalso. apply D, Exists_exists. eauto. }
    apply NoDup_incl_length in I; [lia|exact N].
Qed.
Definition hull_geo (o : bool) : geo := match shape_hull ring (nodup pt_eq_dec) 9 (it_shape (sq o)) (KPo o) with Val g => g | _ => ring [] end.
Lemma sh_hull_val o : shape_hull ring (nodup pt_eq_dec) 9 (it_shape (sq o)) (KPo o) = Val (hull_geo o) /\ fst (hull_geo o) = Some o /\ forall q, gden (hull_geo o) q <-> in_hull (KPpts o) q.
Proof.
  pose proof (KPpts_general o) as Gp. assert (Np : KPpts o <> []) by (unfold KPpts; destruct (KPo o) as [[a b] c]; intros Z; apply app_eq_nil in Z as [_ Z]; discriminate).
  destruct (C13_convex_hull_correct (KPpts o) Np Gp) as (h & F & (p0 & rest & Eh & _) & Nd & Inc & Left & Hq).
  assert (L3 : (3 <= length (KPpts o))%nat) by (unfold KPpts; rewrite app_length; destruct (KPo o) as [[a b] c]; cbn [pts_of length]; lia).
  assert (L9 : (length (KPpts o) <= 9)%nat).
  { unfold KPpts. rewrite app_length. match goal with |- context [nodup pt_eq_dec ?l] => assert (Q : (length (nodup pt_eq_dec l) <= length l)%nat) by (apply NoDup_incl_length; [apply NoDup_nodup|intros z Hz; apply nodup_In in Hz; exact Hz]); set (n := nodup pt_eq_dec l) in *; clearbody n end.
    destruct (KPo o) as [[a b] c]. cbn [pts_of]. change (length [a; b; c]) with 3%nat. apply (Nat.add_le_mono_r _ _ 3) in Q. exact Q. }
  assert (Lh : (3 <= length h)%nat).
  { pose proof TH_pos. destruct h as [|h1 [|h2 [|h3 h]]]; [discriminate| | |cbn; lia].
    - destruct (fresh (KPpts o) [h1] (proj1 Gp) (Nat.lt_le_trans 1 3 _ ltac:(lia) L3)) as (r & Hr & Nr). specialize (Left h1 h1 (or_introl eq_refl) r Hr). assert (N : r <> h1) by (intros ->; apply Nr; left; reflexivity). specialize (Left N N). destruct h1, r. unv. lra.
    - destruct (fresh (KPpts o) [h1; h2] (proj1 Gp) (Nat.lt_le_trans 2 3 _ ltac:(lia) L3)) as (r & Hr & Nr). assert (N1 : r <> h1) by (intros ->; apply Nr; left; reflexivity). assert (N2 : r <> h2) by (intros ->; apply Nr; right; left; reflexivity).
      pose proof (Left h1 h2 (or_introl eq_refl) r Hr N1 N2) as A. pose proof (Left h2 h1 (or_intror (or_introl eq_refl)) r Hr N2 N1) as B. destruct h1, h2, r. unv. lra. }
  assert (V : shape_hull ring (nodup pt_eq_dec) 9 (it_shape (sq o)) (KPo o) = Val (ring h)).
  { assert (Q : forall k, In k (pts_of (KPo o)) -> sq_tangents o k = Ret [vadd (shift_of o) (1, 0); vadd (shift_of o) (1, 1)]).
    { intros k Hk. apply in_hull_mem in Hk. apply KPo_near in Hk. assert (Q : dist (centre o) k < 1 / 4) by lra. apply near_centre in Q. apply sq_face; lra. }
    unfold KPpts in *. destruct (KPo o) as [[a b] c]. cbn [pts_of] in *. unfold shape_hull, convex_kernel_starshaped_hull. cbn [all_tangent_points]. rewrite !sq_shape_tangents, (Q a), (Q b), (Q c) by (cbn; auto). cbn [bind app].
    rewrite (F 9%nat L9). destruct h as [|h1 [|h2 [|h3 h]]]; cbn in Lh; try lia. reflexivity. }
  unfold hull_geo. rewrite V. split; [reflexivity|].
  assert (Sd : forall p, In p (KPpts o) -> on_side o p).
  { intros p Hp. apply KPpts_mem in Hp as [->|[->|Hp]]; [destruct o; cbn; lra|destruct o; cbn; lra|]. apply in_hull_mem in Hp. apply KPo_near in Hp. assert (Q : dist (centre o) p < 1 / 4) by lra. apply near_centre in Q. destruct o, p; cbn in *; lra. }
  split; [apply tag_of; [intros Z; rewrite Z in Lh; cbn in Lh; lia|intros p Hp; apply Sd, Inc, Hp]|].
  intros q. destruct (Hq L3 q) as [_ Hq']. rewrite <- Hq'. apply (st_convex _ _ _ _ sh_sets). pose proof TH_pos. split; [exact Lh|]. split; [exact Nd|].
  intros a b E r Hr N1 N2. specialize (Left a b E r (Inc r Hr) N1 N2). lra.
Qed.

(** *** the call *)
Lemma sq_ring_tag o : fst (ob_polygon sh_methods (sq o)) = Some o.
Proof.
  cbn [ob_polygon sh_methods sq it_shape]. rewrite (map_res_frames _ _ _ (or_introl eq_refl)). cbn [ring fst]. apply tag_of; [discriminate|].
  intros p Hp. apply in_map_iff in Hp as (z & <- & Hz). rewrite to_frame_shown, pose_shown by (left; reflexivity). cbn in Hz. repeat (destruct Hz as [<-|Hz]; [destruct o; cbn; lra|]). destruct Hz.
Qed.
Definition sh_cluster (o : bool) (n : Z) : cluster item geo :=
  Cluster (name_of [Some (if o then 2 else 1)%Z]) [sq o] (Some (Combination [sq o] (Some (gunion [hull_geo o])) (centre o) (Some n))) (Some (KPo o)) (Some (sh_adm o)) None.
Lemma sh_first counter i o : first_cluster sh_methods sh_shapely sh_options Sx Sg sh_keep counter i (sq o) = Val ((counter + 1)%Z, sh_cluster o (counter + 1)).
Proof.
  unfold first_cluster. cbv zeta. assert (K1 : get_cone (k_robot sh_keep) (ob_id sh_methods (sq o)) = Val (sq_cone Sx o)) by (destruct o; reflexivity).
  assert (K2 : get_cone (k_goal sh_keep) (ob_id sh_methods (sq o)) = Val (sq_cone Sg o)) by (destruct o; reflexivity). rewrite K1, K2. cbn [obind].
  rewrite (sh_cone_geo Sx o), (sh_cone_geo Sg o) by auto. cbn [of_res obind]. change (sh_intersection sh_shapely ?g ?h) with (g_both g h). change (g_both _ _) with (sh_adm o).
  cbn [sh_options op_previous extract_cluster op_epsilon workspace op_workspace op_draws op_timer]. rewrite sh_kernel_points. cbn [obind id_argument].
  unfold kernel_starshaped_hull. cbn [omap]. unfold hull_of. cbn [ob_is_convex ob_convex_hull sh_methods]. rewrite (solid_convexity _ (sq_solid o)). rewrite (proj1 (sh_hull_val o)). cbn [obind sh_union sh_is_empty sh_shapely set_id].
  rewrite KPo_mean. reflexivity.
Qed.
Definition sh_cl (o : bool) : cluster item geo := fst (read_polygon sh_methods sh_shapely (sh_cluster o (if o then 2 else 1))).
Definition sh_answer : answer item geo := Answer [sh_cl false; sh_cl true] COMPLETE 1 None 2.
Lemma sh_tags o n : exists g, polygon_of sh_methods sh_shapely (sh_cluster o n) = Some g /\ fst g = Some o.
Proof.
  eexists. split; [reflexivity|]. cbn [obst_polygon sh_union sh_shapely map app]. apply gunion_tag; [discriminate|]. intros g [<-|[<-|[]]]; [apply sq_ring_tag|].
  apply gunion_tag; [discriminate|]. intros g [<-|[]]. apply sh_hull_val.
Qed.
Lemma sh_call : cluster_and_starify sh_methods sh_shapely (nodup Nat.eq_dec) sh_options 0 0 Sx Sg [sq false; sq true] = Val sh_answer.
Proof.
  unfold cluster_and_starify. cbn [sh_options op_workspace]. fold sh_options. rewrite sh_prepare. cbn [obind first_clusters]. rewrite sh_first. cbn [obind]. rewrite sh_first. cbn [obind].
  cbn [sh_options op_return_history]. fold sh_options.
  assert (E : get_intersection_clusters sh_methods sh_shapely (nodup Nat.eq_dec) [sh_cluster false (0 + 1); sh_cluster true (0 + 1 + 1)] = Val ([sh_cl false; sh_cl true], false)).
  { rewrite gic_value; [|intros c [<-|[<-|[]]]; cbn; congruence].
    assert (X : intersections_exist (meet_b sh_methods sh_shapely [sh_cluster false (0 + 1); sh_cluster true (0 + 1 + 1)]) 2 = false).
    { unfold intersections_exist. cbn [seq existsb Nat.sub orb]. unfold meet_b. cbn [map nth]. change (snd (read_polygon sh_methods sh_shapely ?c)) with (polygon_of sh_methods sh_shapely c).
      destruct (sh_tags false (0 + 1)) as (g & -> & Tg). destruct (sh_tags true (0 + 1 + 1)) as (h & -> & Th). cbn [polygons_meet sh_intersects sh_shapely]. rewrite Tg, Th. reflexivity. }
    cbn [List.length]. rewrite X. reflexivity. }
  rewrite E. reflexivity.
Qed.
Lemma sh_interior o k : in_hull (pts_of (KPo o)) k -> interior (gden (sh_adm o)) k.
Proof.
  intros H. apply KPo_near in H. exists (1 / 9). split; [lra|]. intros q Hq.
  assert (D : dist (centre o) q < 1 / 4) by (pose proof (dist_triangle (centre o) k q); lra).
  pose proof (sh_inside o Sx q (or_introl eq_refl) D) as A. pose proof (sh_inside o Sg q (or_intror eq_refl) D) as B.
  split; [split; assumption|]. cbn [sh_adm g_both fst]. destruct A as [_ A], B as [_ B]. destruct (fst (cone_geo (sq_cone Sg o))); [exact B|exact A].
Qed.
Lemma sh_directions p o : p = Sx \/ p = Sg -> directions_at sh_methods p [sq o] = directions_at sq_methods p [o].
Proof. intros Hp. unfold directions_at. cbn [flat_map ob_tangent_points sh_methods sq_methods]. rewrite sq_shape_tangents. reflexivity. Qed.
Lemma sh_points o pts : (let '(a, b, c) := KPo o in hull_points (shape_tangents (it_shape (sq o))) [a; b; c] (nodup pt_eq_dec) pts) -> pts = KPpts o.
Proof.
  assert (Q : forall k, In k (pts_of (KPo o)) -> sq_tangents o k = Ret [vadd (shift_of o) (1, 0); vadd (shift_of o) (1, 1)]).
  { intros k Hk. apply in_hull_mem in Hk. apply KPo_near in Hk. assert (Q : dist (centre o) k < 1 / 4) by lra. apply near_centre in Q. apply sq_face; lra. }
  unfold KPpts in *. destruct (KPo o) as [[a b] c]. cbn [pts_of] in *. intros (tps & E & ->). cbn [all_tangent_points] in E. rewrite !sq_shape_tangents, (Q a), (Q b), (Q c) in E by (cbn; auto). cbn [bind app] in E. injection E as <-. reflexivity.
Qed.
Notation bodies := (fun o => shape_body (it_shape o)).

Example C102_example :
  cluster_and_starify sh_methods sh_shapely (nodup Nat.eq_dec) sh_options 0 0 Sx Sg [sq false; sq true] = Val sh_answer /\
  a_flag sh_answer = COMPLETE /\ uncut sh_options sh_answer /\
  implemented ring (nodup pt_eq_dec) 9 sh_methods sh_shapely /\ sets sh_shapely gden ring sh_options /\
  (forall o, solid (it_shape (sq o)) /\ sees (it_shape (sq o)) Sx /\ sees (it_shape (sq o)) Sg) /\
  (forall p d, p = Sx \/ p = Sg -> In d (directions_at sh_methods p [sq false; sq true]) -> usable p d) /\
  exists oa ob, c_obstacle (sh_cl false) = Some oa /\ c_obstacle (sh_cl true) = Some ob /\
    disjoint (obst_region gden bodies oa) (obst_region gden bodies ob) /\
    (exists p, obst_region gden bodies oa p /\ ~ shape_body (it_shape (sq false)) p) /\ (exists p, obst_region gden bodies ob p /\ ~ shape_body (it_shape (sq true)) p) /\
    ~ obst_region gden bodies oa Sx /\ ~ obst_region gden bodies ob Sx /\ ~ obst_region gden bodies oa Sg /\ ~ obst_region gden bodies ob Sg /\
    (forall k, in_hull (pts_of (KPo false)) k -> starshaped_from (obst_region gden bodies oa) k) /\
    (forall k, in_hull (pts_of (KPo true)) k -> starshaped_from (obst_region gden bodies ob) k).
Proof.
  assert (Un : uncut sh_options sh_answer) by (intros m Hm; discriminate).
  assert (Dj : forall g h, sh_intersects sh_shapely g h = false -> disjoint (gden g) (gden h)).
  { intros [[[]|] r] [[[]|] r'] E; try discriminate; intros p [[_ A] [_ B]]; cbn in A, B; lra. }
  assert (Us : forall p d, p = Sx \/ p = Sg -> In d (directions_at sh_methods p [sq false; sq true]) -> usable p d).
  { intros p d Hp Hd. unfold directions_at in Hd. cbn [flat_map ob_tangent_points sh_methods] in Hd. rewrite !sq_shape_tangents in Hd.
    rewrite !sq_face in Hd by (try apply (far _ p Hp); destruct Hp as [->| ->]; cbn; lra). rewrite app_nil_r in Hd. cbn [map] in Hd. apply in_app_iff in Hd as [Hd|Hd]; [apply (sh_usable p false)|apply (sh_usable p true)]; assumption. }
  assert (Sol : forall o, solid (it_shape (sq o)) /\ sees (it_shape (sq o)) Sx /\ sees (it_shape (sq o)) Sg) by (intros o; split; [apply sq_solid|split; apply sq_sees, far; auto]).
  split; [exact sh_call|]. split; [reflexivity|]. split; [exact Un|]. split; [exact sh_implemented|]. split; [exact sh_sets|]. split; [exact Sol|]. split; [exact Us|].
  assert (Ids : NoDup (map it_id [sq false; sq true])) by (repeat constructor; cbn; intuition discriminate).
  assert (So : forall o, In o [sq false; sq true] -> solid (it_shape o)) by (intros o [<-|[<-|[]]]; apply Sol).
  assert (Se : forall o, In o [sq false; sq true] -> sees (it_shape o) Sx /\ sees (it_shape o) Sg) by (intros o [<-|[<-|[]]]; apply Sol).
  assert (Bx : 0 < box_margin Sx /\ 0 < box_margin Sg) by (rewrite !margin by auto; lra).
  assert (Sy : forall p q, sh_intersects sh_shapely p q = sh_intersects sh_shapely q p) by (intros [[[]|] ?] [[[]|] ?]; reflexivity).
  assert (Us2 : forall l : list Pt, (length (nodup pt_eq_dec l) <= length l)%nat) by (intros l; apply NoDup_incl_length; [apply NoDup_nodup|intros z Hz; apply nodup_In in Hz; exact Hz]).
  pose proof (C102_guarantee sh_methods sh_shapely (nodup Nat.eq_dec) gden ring (nodup pt_eq_dec) 9 sh_options Sx Sg [sq false; sq true] sq_setl (fun l p => nodup_In pt_eq_dec l p) Us2 (le_n 9) sh_implemented sh_sets Ids So Se Bx Us 0 0 sh_answer sh_call eq_refl eq_refl Un) as Gr.
  pose proof (C102_disjoint sh_methods sh_shapely (nodup Nat.eq_dec) gden ring (nodup pt_eq_dec) 9 sh_options Sx Sg [sq false; sq true] sq_setl Sy sh_implemented sh_sets Ids So Se Bx Us) as Gd.
  specialize (Gd ltac:(intros o [<-|[<-|[]]]; repeat eexists) Dj 0%nat 0%Z sh_answer sh_call eq_refl eq_refl Un).
  assert (One : forall o, In (sh_cl o) (a_clusters sh_answer) -> exists ob, c_obstacle (sh_cl o) = Some ob /\ (exists p, obst_region gden bodies ob p /\ ~ shape_body (it_shape (sq o)) p) /\
      ~ obst_region gden bodies ob Sx /\ ~ obst_region gden bodies ob Sg /\ (forall k, in_hull (pts_of (KPo o)) k -> starshaped_from (obst_region gden bodies ob) k)).
  { intros o Ho. destruct (Gr (sh_cl o) Ho) as (ob & a1 & a2 & a3 & adm & E1 & E2 & E3 & _ & Hm & _ & St). exists ob. split; [exact E1|].
    assert (Ek : KPo o = (a1, a2, a3)) by (cbn in E2; injection E2 as E2; exact E2). assert (Ea : adm = sh_adm o) by (cbn in E3; injection E3 as <-; reflexivity). subst adm.
    pose proof (sh_interior o) as Int. pose proof (KPo_near o) as Nr. pose proof (KPo_mean o) as Mn. pose proof (sh_points o) as Pts. rewrite Ek in Int, Nr, Mn, Pts. cbn [pts_of] in Int, Nr.
    destruct St as [St Out].
    { intros o' [<-|[]]. split.
      - intros k Hk. apply sq_sees. apply in_hull_mem in Hk. apply Nr in Hk. assert (Q : dist (centre o) k < 1 / 4) by lra. apply near_centre in Q. lra.
      - intros pts Hp. rewrite (Pts pts Hp). apply KPpts_general. }
    destruct Out as [O1 O2]; [change (c_obstacles (sh_cl o)) with [sq o]; rewrite sh_directions by auto; apply sq_directions; auto|change (c_obstacles (sh_cl o)) with [sq o]; rewrite sh_directions by auto; apply sq_directions; auto|exact Int|].
    split; [|split; [exact O1|split; [exact O2|rewrite Ek; exact St]]].
    exists (centre o). split.
    - cbn in E1. injection E1 as <-. right. eexists. split; [reflexivity|]. apply (st_union _ _ _ _ sh_sets). eexists. split; [left; reflexivity|]. apply sh_hull_val.
      rewrite <- Mn. apply (hull_in_convex (in_hull (KPpts o)) [a1; a2; a3]); [apply in_hull_convex| |exact Hm].
      intros p Hp. apply in_hull_mem, KPpts_mem. right. right. rewrite Ek. exact Hp.
    - intros Hb. apply sq_shape_body in Hb. apply square_box in Hb. destruct o; cbn in Hb; lra. }
  destruct (One false (or_introl eq_refl)) as (oa & Ea & Pa & Xa & Ga & Sa). destruct (One true (or_intror (or_introl eq_refl))) as (ob & Eb & Pb & Xb & Gb & Sb).
  exists oa, ob. split; [exact Ea|]. split; [exact Eb|]. split; [apply (Gd 0%nat 1%nat (sh_cl false) (sh_cl true)); auto|]. auto 12.
Qed.
