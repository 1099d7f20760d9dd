(** Properties C40-C49, C78: obstacles/ellipse.py.  Points z with coordinates in the obstacle frame; [shown m f z]
    is the same point in frame f (the placed point in GLOBAL, z itself in OBSTACLE). *)
From Coq Require Import Reals Lra Lia List Bool Psatz.
From Verif Require Import Num Spec M_Cg M_Motion M_Obstacle M_Ellipse L_Geom L_Polar L_Cg L_Gen L_Obstacle L_Ellipse L_EllipsePolygon.
Import ListNotations.
Open Scope R_scope.
Local Arguments affine_transform : simpl never.

(** C40 *)
Theorem C40_point_location : forall E f z, good f -> exists loc,
  e_point_location E (shown (e_mm E) f z) f = Ret loc /\
  (loc < 0 <-> ell_form (e_a E) z < 1) /\ (loc = 0 <-> on_ellipse (e_a E) z) /\ (0 < loc <-> 1 < ell_form (e_a E) z).
Proof.
  intros E f z Hf. exists (ell_loc (e_a E) z). unfold e_point_location. rewrite from_shown by exact Hf. cbn [bind].
  split; [reflexivity|]. unfold ell_loc, on_ellipse, ell_form. repeat split; intros; lra.
Qed.
Print Assumptions C40_point_location.
Example C40_example :
  let E := Ell (2, 1) 20 (Some (static_new (Some (5, 5)) 0)) (0, 0) in
  good GLOBAL /\ shown (e_mm E) GLOBAL (2, 0) = (7, 5) /\ e_point_location E (7, 5) GLOBAL = Ret 0 /\ e_point_location E (7, 5) OBSTACLE = Ret (145 / 4).
Proof.
  cbv zeta. cbn [e_mm e_a]. split; [left; reflexivity|]. split; [|split].
  - cbn. unfold place, rotv, vadd. cbn [fst snd]. rewrite cos_0, sin_0. apply pair_eq; lra.
  - unfold e_point_location. cbn. rewrite affine_back. unfold rotv, vsub. cbn [fst snd]. rewrite Ropp_0, cos_0, sin_0.
    f_equal. unfold ell_loc. cbn [fst snd]. field.
  - unfold e_point_location. cbn. f_equal. unfold ell_loc. cbn [fst snd]. field.
Qed.

(** C41: exactly the common points, without repetition *)
Theorem C41_line_intersection : forall E l0 l1 fi fo, good fi -> good fo -> 0 < fst (e_a E) -> 0 < snd (e_a E) ->
  gentle l0 l1 -> clear_crossing (e_a E) l0 l1 ->
  exists L, e_line_intersection E (shown (e_mm E) fi l0) (shown (e_mm E) fi l1) fi fo = Ret L /\ NoDup L /\
    forall p, In p L <-> exists z, p = shown (e_mm E) fo z /\ on_seg l0 l1 z /\ on_ellipse (e_a E) z.
Proof.
  intros E l0 l1 fi fo Hi Ho A B G C. destruct (ell_line_exact (e_a E) l0 l1 A B G C) as [N I].
  unfold e_line_intersection. rewrite !from_shown by exact Hi. cbn [bind]. rewrite map_res_frames by exact Ho.
  eexists. split; [reflexivity|]. split.
  - apply FinFun.Injective_map_NoDup; [|exact N]. intros p q. apply to_frame_inj. exact Ho.
  - intros p. rewrite in_map_iff. split.
    + intros (z & <- & Hz). exists z. rewrite to_frame_shown by exact Ho. split; [reflexivity|]. apply I. exact Hz.
    + intros (z & -> & Hz). exists z. rewrite to_frame_shown by exact Ho. split; [reflexivity|]. apply I. exact Hz.
Qed.
Print Assumptions C41_line_intersection.
Example C41_example : gentle (-3, 0) (0, 0) /\ clear_crossing (2, 1) (-3, 0) (0, 0) /\ on_seg (-3, 0) (0, 0) (-2, 0) /\ on_ellipse (2, 1) (-2, 0).
Proof.
  unfold gentle, clear_crossing, on_line, on_seg, along, on_ellipse, ell_form, vadd, smul, vsub. cbn [fst snd].
  split; [replace (0 - 0) with 0 by lra; rewrite Rabs_R0, Rabs_right by lra; lra|]. split; [right|split].
  - exists (-2, 0), (2, 0). cbn [fst snd]. repeat split; try lra.
    + exists (1 / 3). apply pair_eq; lra.
    + exists (5 / 3). apply pair_eq; lra.
    + rewrite Rabs_left by lra. lra.
  - exists (1 / 3). split; [lra|]. apply pair_eq; lra.
  - field.
Qed.

(** C42 *)
Theorem C42_vertical_refuted : exists E l0 l1 p, e_line_intersection E l0 l1 OBSTACLE OBSTACLE = Ret [p; (0, -1)] /\
  0 < fst (e_a E) /\ 0 < snd (e_a E) /\ ~ on_line l0 l1 p.
Proof.
  exists (Ell (1, 1) 20 None (0, 0)), (1 / 2, -5), (1 / 2, 5), (0, 1). cbn [e_a fst snd]. split; [|split; [lra|split; [lra|]]].
  - unfold e_line_intersection. cbn [e_mm transform bind e_a]. unfold ell_line. cbn [fst snd]. cbv zeta.
    destruct (Rltb_spec (1 / 2) (1 / 2)); [lra|]. cbn [fst snd]. replace (1 / 2 - 1 / 2) with 0 by lra. rewrite Rabs_R0.
    destruct (Rltb_spec 0 (1 / 10000)); [|lra]. unfold ell_vertical. cbn [fst snd].
    destruct (Rltb_spec (1 / 2) (- (1))); [lra|]. destruct (Rltb_spec 1 (1 / 2)); [lra|]. cbn [orb].
    destruct (Rltb_spec 5 (-5)); [lra|]. cbn [fst snd]. destruct (Rleb_spec 1 5); [|lra]. destruct (Rleb_spec (-5) (- (1))); [|lra]. cbn.
    replace (- (1)) with (-1) by lra. reflexivity.
  - intros (t & E). unfold along, vadd, smul, vsub in E. cbn [fst snd] in E. injection E as E1 E2. lra.
Qed.
Print Assumptions C42_vertical_refuted.
(** a tangent line: the point of contact is returned although it is not on the segment *)
Theorem C42_tangent_refuted : exists E l0 l1 p, e_line_intersection E l0 l1 OBSTACLE OBSTACLE = Ret [p] /\
  0 < fst (e_a E) /\ 0 < snd (e_a E) /\ gentle l0 l1 /\ ~ on_seg l0 l1 p.
Proof.
  exists (Ell (1, 1) 20 None (0, 0)), (5, 1), (6, 1), (0, 1). cbn [e_a fst snd]. split; [|split; [lra|split; [lra|split]]].
  - unfold e_line_intersection. cbn [e_mm transform bind e_a]. unfold ell_line. cbn [fst snd]. cbv zeta.
    destruct (Rltb_spec 5 6); [|lra]. cbn [fst snd]. rewrite (Rabs_right (6 - 5)) by lra.
    destruct (Rltb_spec (6 - 5) (1 / 10000)); [lra|]. replace ((1 - 1) / (6 - 5)) with 0 by field. rewrite Rabs_R0.
    destruct (Rltb_spec 100 0); [lra|]. unfold ell_sloped. cbn [fst snd]. cbv zeta.
    replace (1 ^ 2 * 0 ^ 2 + 1 ^ 2 - (1 - 0 * 5) ^ 2) with 0 by ring.
    destruct (Rltb_spec 0 0); [lra|]. destruct (Reqb_spec 0 0); [|lra]. cbn [map_res bind]. do 2 f_equal. apply pair_eq; field.
  - unfold gentle. cbn [fst snd]. replace (1 - 1) with 0 by lra. rewrite Rabs_R0, Rabs_right by lra. lra.
  - intros (t & Ht & E). unfold along, vadd, smul, vsub in E. cbn [fst snd] in E. injection E as E1 E2. lra.
Qed.
Print Assumptions C42_tangent_refuted.
(** what does hold: the class of C41, and segments on the vertical axis of the ellipse *)
Theorem C42_line_intersection_partial : forall E l0 l1 fi fo L p, good fi -> good fo -> 0 < fst (e_a E) -> 0 < snd (e_a E) ->
  (gentle l0 l1 /\ clear_crossing (e_a E) l0 l1) \/ (fst l0 = 0 /\ fst l1 = 0) ->
  e_line_intersection E (shown (e_mm E) fi l0) (shown (e_mm E) fi l1) fi fo = Ret L ->
  (In p L <-> exists z, p = shown (e_mm E) fo z /\ on_seg l0 l1 z /\ on_ellipse (e_a E) z).
Proof.
  intros E l0 l1 fi fo L p Hi Ho A B [[G C]|[X0 X1]] H.
  - destruct (C41_line_intersection E l0 l1 fi fo Hi Ho A B G C) as (L' & E' & _ & I). rewrite H in E'. injection E' as <-. apply I.
  - destruct l0 as [? y0], l1 as [? y1]. cbn [fst] in X0, X1. subst. unfold e_line_intersection in H. rewrite !from_shown in H by exact Hi.
    cbn [bind] in H. rewrite map_res_frames in H by exact Ho. injection H as <-. rewrite in_map_iff.
    pose proof (ell_line_axis (e_a E) y0 y1 A B) as I. split.
    + intros (z & <- & Hz). exists z. rewrite to_frame_shown by exact Ho. split; [reflexivity|]. apply I. exact Hz.
    + intros (z & -> & Hz). exists z. rewrite to_frame_shown by exact Ho. split; [reflexivity|]. apply I. exact Hz.
Qed.
Print Assumptions C42_line_intersection_partial.
Example C42_example : exists L, e_line_intersection (Ell (3, 2) 20 None (0, 0)) (0, 0) (0, 7) OBSTACLE OBSTACLE = Ret L /\ In (0, 2) L.
Proof.
  exists (ell_line (3, 2) (0, 0) (0, 7)). split.
  { unfold e_line_intersection. cbn [e_mm transform bind e_a]. induction (ell_line (3, 2) (0, 0) (0, 7)) as [|p l IH]; [reflexivity|]. cbn [map_res bind]. rewrite IH. reflexivity. }
  apply (ell_line_axis (3, 2)); cbn [fst snd]; try lra. split.
  - exists (2 / 7). split; [lra|]. unfold along, vadd, smul, vsub. cbn [fst snd]. apply pair_eq; lra.
  - unfold on_ellipse, ell_form. cbn [fst snd]. field.
Qed.

(** the placed ellipse *)
Definition body (E : ellipse) (f : frame) : region := fun y => exists z, in_ellipse (e_a E) z /\ y = shown (e_mm E) f z.

Lemma shown_area m f p q r : good f -> area2 (shown m f p) (shown m f q) (shown m f r) = area2 p q r.
Proof. intros Hf. rewrite <- !to_frame_shown by exact Hf. apply to_frame_area. exact Hf. Qed.
Lemma body_touch E f x t : good f -> touches_only_at (in_ellipse (e_a E)) x t ->
  touches_only_at (body E f) (shown (e_mm E) f x) (shown (e_mm E) f t).
Proof.
  intros Hf [S U]. split; [exists t; auto|]. intros o (z & Hz & ->). rewrite shown_area by exact Hf. intros Z. rewrite (U z Hz Z). reflexivity.
Qed.
Lemma body_pair E f x t1 t2 : good f -> tangent_pair (in_ellipse (e_a E)) x t1 t2 ->
  tangent_pair (body E f) (shown (e_mm E) f x) (shown (e_mm E) f t1) (shown (e_mm E) f t2).
Proof.
  intros Hf (S1 & S2 & N & U). split; [exists t1; auto|]. split; [exists t2; auto|]. split; [rewrite shown_area by exact Hf; exact N|].
  intros o (z & Hz & ->). rewrite !shown_area by exact Hf. apply U. exact Hz.
Qed.

(** C43, C44.  [x] in obstacle coordinates; the point is passed and the answer is read in the same frame [f].
    The order of the two points is decided by is_ccw with its 1e-10 tolerance: area2 x t1 t2 = 2 a0 a1 (form-1)^(3/2) / form. *)
Theorem C43_tangent_points : forall E x f, good f -> 0 < fst (e_a E) -> 0 < snd (e_a E) ->
  (ell_form (e_a E) x <= 1 -> e_tangent_points E (shown (e_mm E) f x) f f = Ret []) /\
  (1 < ell_form (e_a E) x -> 1 / 100000 <= Rabs (fst (e_a E) ^ 2 - fst x ^ 2) \/ fst x ^ 2 = fst (e_a E) ^ 2 ->
   exists t1 t2, e_tangent_points E (shown (e_mm E) f x) f f = Ret [shown (e_mm E) f t1; shown (e_mm E) f t2] /\
     on_ellipse (e_a E) t1 /\ on_ellipse (e_a E) t2 /\ t1 <> t2 /\
     touches_only_at (body E f) (shown (e_mm E) f x) (shown (e_mm E) f t1) /\
     touches_only_at (body E f) (shown (e_mm E) f x) (shown (e_mm E) f t2) /\
     ((TH * ell_form (e_a E) x) ^ 2 < 4 * (fst (e_a E) * snd (e_a E)) ^ 2 * (ell_form (e_a E) x - 1) ^ 3 ->
      tangent_pair (body E f) (shown (e_mm E) f x) (shown (e_mm E) f t1) (shown (e_mm E) f t2))).
Proof.
  intros E x f Hf A B. set (a := e_a E) in *. set (m := e_mm E) in *. unfold e_tangent_points. fold m a. rewrite from_shown by exact Hf. cbn [bind].
  assert (XT : exterior_point (ell_loc a x) = true <-> 1 < ell_form a x).
  { unfold exterior_point, ell_loc, ell_form. rewrite Rltb_true. lra. }
  split.
  - intros H. destruct (exterior_point (ell_loc a x)); [|reflexivity]. destruct XT as [XT _]. specialize (XT eq_refl). lra.
  - intros H N. apply XT in H as H'. rewrite H'. cbn [negb].
    destruct (ell_tangents_spec a x A B H N) as (t1 & t2 & K & E0 & O1 & O2 & KZ & F1 & F2 & KK). rewrite E0.
    rewrite !to_frame_ok by exact Hf. cbn [bind]. rewrite !to_frame_shown by exact Hf.
    pose proof (pair_facts a x t1 t2 K A B H O1 O2 KZ F1 F2) as [D _].
    pose proof (tangent_area a x t1 t2 K A B H O1 O2 KZ F1 F2 KK) as TA.
    pose proof (touches_from a x t1 K A B O1 KZ F1) as T1. pose proof (touches_from a x t2 (- K) A B O2 ltac:(lra) F2) as T2.
    assert (Q : forall s1 s2, area2 x s1 s2 <= TH -> (area2 x s1 s2) ^ 2 = (area2 x t1 t2) ^ 2 ->
       (TH * ell_form a x) ^ 2 < 4 * (fst a * snd a) ^ 2 * (ell_form a x - 1) ^ 3 -> area2 x s1 s2 < 0).
    { intros s1 s2 L S2 O. rewrite <- TA in O.
      replace ((ell_form a x * area2 x t1 t2) ^ 2) with ((ell_form a x * area2 x s1 s2) ^ 2) in O by (rewrite !Rpow_mult_distr, S2; reflexivity). pose proof TH_pos as TP.
      destruct (Rlt_or_le (area2 x s1 s2) 0) as [W|W]; [exact W|exfalso].
      set (u := area2 x s1 s2) in *. set (F := ell_form a x) in *.
      assert (F * u <= TH * F) by nra. assert (0 <= F * u) by nra. nra. }
    destruct (is_ccw (shown m f x) (shown m f t1) (shown m f t2)) eqn:CC.
    + exists t2, t1. split; [reflexivity|]. split; [exact O2|]. split; [exact O1|]. split; [auto|].
      split; [apply body_touch; assumption|]. split; [apply body_touch; assumption|]. intros O. apply body_pair; [exact Hf|].
      rewrite is_ccw_iff, shown_area in CC by exact Hf.
      assert (KP : K > 0). { rewrite F1 in CC. pose proof (bform_le a t1 t2 A B O1) as BL. unfold in_ellipse in BL. rewrite O2 in BL. specialize (BL ltac:(lra)).
        pose proof TH_pos. nra. }
      apply (tangent_pair_from a x t2 t1 (- K)); auto; [lra|]. intros z. rewrite F1. ring.
    + exists t1, t2. split; [reflexivity|]. split; [exact O1|]. split; [exact O2|]. split; [auto|].
      split; [apply body_touch; assumption|]. split; [apply body_touch; assumption|]. intros O. apply body_pair; [exact Hf|].
      assert (CC' : ~ TH < area2 x t1 t2). { intros Z. rewrite <- (shown_area m f) in Z by exact Hf. apply is_ccw_iff in Z. rewrite Z in CC. discriminate. }
      assert (NG : area2 x t1 t2 < 0) by (apply Q; [lra|reflexivity|exact O]).
      assert (KN : K < 0). { rewrite F1 in NG. pose proof (bform_le a t1 t2 A B O1) as BL. unfold in_ellipse in BL. rewrite O2 in BL. specialize (BL ltac:(lra)). nra. }
      apply (tangent_pair_from a x t1 t2 K); auto.
Qed.
Print Assumptions C43_tangent_points.
Example C43_example : let a : Pt := (2, 1) in let x : Pt := (0, 4) in
  1 < ell_form a x /\ 1 / 100000 <= Rabs (fst a ^ 2 - fst x ^ 2) /\ (TH * ell_form a x) ^ 2 < 4 * (fst a * snd a) ^ 2 * (ell_form a x - 1) ^ 3.
Proof.
  cbv zeta. unfold ell_form, TH. cbn [fst snd]. replace ((0 / 2) ^ 2 + (4 / 1) ^ 2) with 16 by field.
  split; [lra|]. split; [|lra]. rewrite Rabs_right; lra.
Qed.

(** C44 *)
Theorem C44_vertical_tangent_refuted : exists E x, 0 < fst (e_a E) /\ 0 < snd (e_a E) /\ 1 < ell_form (e_a E) x /\
  e_tangent_points E x OBSTACLE OBSTACLE = Exn NotFinite.
Proof.
  exists (Ell (1, 1) 20 None (0, 0)), (1000001 / 1000000, 0). cbn [e_a fst snd].
  split; [lra|]. split; [lra|]. split; [unfold ell_form; cbn [fst snd]; lra|].
  unfold e_tangent_points, exterior_point, ell_loc, ell_tangents. cbn [e_mm e_a transform bind fst snd].
  destruct (Rltb_spec 0 ((1000001 / 1000000 / 1) ^ 2 + (0 / 1) ^ 2 - 1)) as [_|C]; [|lra]. cbn [negb]. cbv zeta.
  destruct (Rltb_spec (Rabs (1 ^ 2 - (1000001 / 1000000) ^ 2)) (1 / 100000)) as [_|C]; [|rewrite Rabs_left in C; lra].
  destruct (Reqb_spec (2 * (1000001 / 1000000) * 0) 0); [reflexivity|lra].
Qed.
Print Assumptions C44_vertical_tangent_refuted.
Theorem C44_thin_refuted : exists E x, 0 < fst (e_a E) /\ 0 < snd (e_a E) /\ ell_form (e_a E) x = 25 /\
  e_tangent_points E x OBSTACLE OBSTACLE = Exn NotFinite.
Proof.
  exists (Ell (3 / 1000, 1) 20 None (0, 0)), (0, 5). cbn [e_a fst snd].
  split; [lra|]. split; [lra|]. split; [unfold ell_form; cbn [fst snd]; field|].
  unfold e_tangent_points, exterior_point, ell_loc, ell_tangents. cbn [e_mm e_a transform bind fst snd].
  destruct (Rltb_spec 0 ((0 / (3 / 1000)) ^ 2 + (5 / 1) ^ 2 - 1)) as [_|C]; [|lra]. cbn [negb]. cbv zeta.
  destruct (Rltb_spec (Rabs ((3 / 1000) ^ 2 - 0 ^ 2)) (1 / 100000)) as [_|C]; [|rewrite Rabs_right in C; lra].
  destruct (Reqb_spec (2 * 0 * 5) 0); [reflexivity|lra].
Qed.
Print Assumptions C44_thin_refuted.
(** the special case of a vertical tangent also answers with a point off the ellipse *)
Theorem C44_off_ellipse_refuted : exists E x t1 t2, 0 < fst (e_a E) /\ 0 < snd (e_a E) /\ 1 < ell_form (e_a E) x /\
  e_tangent_points E x OBSTACLE OBSTACLE = Ret [t1; t2] /\ ell_form (e_a E) t1 < 1 / 1000000.
Proof.
  exists (Ell (3 / 1000, 1) 20 None (0, 0)), (1 / 1000000, 5), (1 / 1000000, 0), (ell_tangent_at (3 / 1000, 1) (1 / 1000000, 5) 2400000). cbn [e_a fst snd].
  split; [lra|]. split; [lra|]. split; [unfold ell_form; cbn [fst snd]; lra|]. split; [|unfold ell_form; cbn [fst snd]; lra].
  unfold e_tangent_points, exterior_point, ell_loc, ell_tangents. cbn [e_mm e_a transform bind fst snd].
  destruct (Rltb_spec 0 ((1 / 1000000 / (3 / 1000)) ^ 2 + (5 / 1) ^ 2 - 1)) as [_|C]; [|lra]. cbn [negb]. cbv zeta.
  destruct (Rltb_spec (Rabs ((3 / 1000) ^ 2 - (1 / 1000000) ^ 2)) (1 / 100000)) as [_|C]; [|rewrite Rabs_right in C; lra].
  destruct (Reqb_spec (2 * (1 / 1000000) * 5) 0) as [C|_]; [lra|]. cbn [bind].
  replace ((5 ^ 2 - 1 ^ 2) / (2 * (1 / 1000000) * 5)) with 2400000 by field.
  destruct (is_ccw (1 / 1000000, 5) (1 / 1000000, 0) (ell_tangent_at (3 / 1000, 1) (1 / 1000000, 5) 2400000)) eqn:Q; [exfalso|reflexivity].
  apply is_ccw_iff in Q. revert Q. unfold area2, cross, vsub, ell_tangent_at, TH. cbn [fst snd]. lra.
Qed.
Print Assumptions C44_off_ellipse_refuted.
(** what does hold: away from the special case, or with a tangent that is exactly vertical *)
Theorem C44_tangent_points_partial : forall E x f, good f -> 0 < fst (e_a E) -> 0 < snd (e_a E) -> 1 < ell_form (e_a E) x ->
  1 / 100000 <= Rabs (fst (e_a E) ^ 2 - fst x ^ 2) \/ fst x ^ 2 = fst (e_a E) ^ 2 ->
  exists t1 t2, e_tangent_points E (shown (e_mm E) f x) f f = Ret [shown (e_mm E) f t1; shown (e_mm E) f t2] /\
    on_ellipse (e_a E) t1 /\ on_ellipse (e_a E) t2.
Proof.
  intros E x f Hf A B H N. destruct (C43_tangent_points E x f Hf A B) as [_ [t1 [t2 (Q & O1 & O2 & _)]]]; eauto.
Qed.
Print Assumptions C44_tangent_points_partial.
Example C44_example : let a : Pt := (2, 1) in let x : Pt := (2, 5) in 1 < ell_form a x /\ fst x ^ 2 = fst a ^ 2.
Proof. cbv zeta. unfold ell_form. cbn [fst snd]. split; lra. Qed.

(** C78: with different frames for x and for the answer is_ccw mixes coordinates and the two points come in the wrong order *)
Theorem C78_order_across_frames_refuted : exists E x t1 t2, 0 < fst (e_a E) /\ 0 < snd (e_a E) /\ 1 < ell_form (e_a E) x /\
  e_tangent_points E (shown (e_mm E) GLOBAL x) GLOBAL OBSTACLE = Ret [t1; t2] /\
  on_ellipse (e_a E) t1 /\ on_ellipse (e_a E) t2 /\ 1 < area2 x t1 t2.
Proof.
  set (E := Ell (1, 1) 20 (Some (static_new (Some (0, 3)) 0)) (0, 0)).
  assert (A : 0 < fst (e_a E)) by (cbn; lra). assert (B : 0 < snd (e_a E)) by (cbn; lra).
  set (s := sqrt (1 / 8)). assert (S2 : s * s = 1 / 8) by (apply sqrt_sqrt; lra). assert (SP : 0 < s) by (apply sqrt_lt_R0; lra).
  exists E, (0, -3), (8 / 3 * s, - 1 / 3), (- 8 / 3 * s, - 1 / 3).
  split; [exact A|]. split; [exact B|]. split; [unfold ell_form; cbn [E e_a fst snd]; lra|].
  split; [|unfold on_ellipse, ell_form, area2, cross, vsub; cbn [E e_a fst snd]; split; [|split]; nra].
  assert (P : shown (e_mm E) GLOBAL (0, -3) = (0, 0)).
  { cbn. unfold place, rotv, vadd. cbn [fst snd]. rewrite cos_0, sin_0. apply pair_eq; lra. }
  unfold e_tangent_points. rewrite from_shown by (left; reflexivity). rewrite P. cbn [bind].
  replace (exterior_point (ell_loc (e_a E) (0, -3))) with true by (symmetry; unfold exterior_point, ell_loc; cbn [E e_a fst snd]; apply Rltb_true; lra).
  cbn [negb]. unfold ell_tangents. cbn [E e_a fst snd]. cbv zeta.
  destruct (Rltb_spec (Rabs (1 ^ 2 - 0 ^ 2)) (1 / 100000)) as [C|_]; [rewrite Rabs_right in C; lra|].
  replace (0 * -3 / (0 ^ 2 - 1 ^ 2)) with 0 by field. replace ((1 ^ 2 - (-3) ^ 2) / (0 ^ 2 - 1 ^ 2)) with (8 * 8 * (1 / 8)) by field.
  replace (0 ^ 2 + 8 * 8 * (1 / 8)) with ((8 * s) * (8 * s)) by nra. rewrite sqrt_square by lra.
  assert (T : forall m, m ^ 2 = 8 -> ell_tangent_at (1, 1) (0, -3) m = (m / 3, - 1 / 3)).
  { intros m Hm. unfold ell_tangent_at. cbn [fst snd]. cbv zeta. rewrite Hm. apply pair_eq; [field|].
    replace (m * ((0 * 8 - -3 * m) / (1 ^ 2 / 1 ^ 2 + 8) - 0) + -3) with (m ^ 2 / 3 - 3) by field. rewrite Hm. field. }
  rewrite !T by nra. cbn [E e_mm transform frame_eqb bind].
  destruct (is_ccw (0, 0) ((0 + 8 * s) / 3, - 1 / 3) ((0 - 8 * s) / 3, - 1 / 3)) eqn:CC.
  - exfalso. apply is_ccw_iff in CC. revert CC. pose proof TH_pos. unfold area2, cross, vsub. cbn [fst snd]. lra.
  - replace ((0 + 8 * s) / 3) with (8 / 3 * s) by field. replace ((0 - 8 * s) / 3) with (- 8 / 3 * s) by field. reflexivity.
Qed.
Print Assumptions C78_order_across_frames_refuted.
(** what does hold across frames: both points, both on the ellipse, both touching *)
Theorem C78_across_frames_partial : forall E x fi fo, good fi -> good fo -> 0 < fst (e_a E) -> 0 < snd (e_a E) -> 1 < ell_form (e_a E) x ->
  1 / 100000 <= Rabs (fst (e_a E) ^ 2 - fst x ^ 2) \/ fst x ^ 2 = fst (e_a E) ^ 2 ->
  exists t1 t2, e_tangent_points E (shown (e_mm E) fi x) fi fo = Ret [shown (e_mm E) fo t1; shown (e_mm E) fo t2] /\ t1 <> t2 /\
    touches_only_at (in_ellipse (e_a E)) x t1 /\ touches_only_at (in_ellipse (e_a E)) x t2 /\
    (tangent_pair (in_ellipse (e_a E)) x t1 t2 \/ tangent_pair (in_ellipse (e_a E)) x t2 t1).
Proof.
  intros E x fi fo Hi Ho A B H N. unfold e_tangent_points. rewrite from_shown by exact Hi. cbn [bind].
  replace (exterior_point (ell_loc (e_a E) x)) with true by (symmetry; unfold exterior_point, ell_loc; rewrite Rltb_true; unfold ell_form in H; lra).
  cbn [negb]. destruct (ell_tangents_spec _ x A B H N) as (t1 & t2 & K & E0 & O1 & O2 & KZ & F1 & F2 & KK). rewrite E0.
  rewrite !to_frame_ok by exact Ho. cbn [bind]. rewrite !to_frame_shown by exact Ho.
  pose proof (pair_facts _ x t1 t2 K A B H O1 O2 KZ F1 F2) as [D _].
  pose proof (touches_from _ x t1 K A B O1 KZ F1) as T1. pose proof (touches_from _ x t2 (- K) A B O2 ltac:(lra) F2) as T2.
  assert (P : tangent_pair (in_ellipse (e_a E)) x t1 t2 \/ tangent_pair (in_ellipse (e_a E)) x t2 t1).
  { destruct (Rlt_or_le K 0); [left; apply (tangent_pair_from _ x t1 t2 K); auto|right].
    apply (tangent_pair_from _ x t2 t1 (- K)); auto; [lra|]. intros z. rewrite F1. ring. }
  destruct is_ccw; [exists t2, t1|exists t1, t2]; repeat (split; [solve [auto]|]); tauto.
Qed.
Print Assumptions C78_across_frames_partial.

(** C45, C46.  [x] in obstacle coordinates *)
Theorem C45_boundary_mapping : forall E x fi fo, good fi -> good fo -> 0 < fst (e_a E) -> 0 < snd (e_a E) -> 1 / 100 <= e_diam E ->
  ell_form (e_a E) (e_xr E) < 1 -> x <> e_xr E -> Rabs (snd x - snd (e_xr E)) <= 100 * Rabs (fst x - fst (e_xr E)) ->
  clear_crossing (e_a E) (e_xr E) x ->
  exists b, e_boundary_mapping E (shown (e_mm E) fi x) fi fo = Ret (Some (shown (e_mm E) fo b)) /\
    on_ellipse (e_a E) b /\ on_ray (e_xr E) x b /\ forall b', on_ellipse (e_a E) b' -> on_ray (e_xr E) x b' -> b' = b.
Proof.
  intros E x fi fo Hi Ho A B D I N G C.
  destruct (boundary_mapping_gentle E (shown (e_mm E) fi x) fi fo x Hi Ho A B (from_shown _ _ _ Hi) I N G D C) as (b & Q & R).
  exists b. rewrite to_frame_shown in Q by exact Ho. auto.
Qed.
Print Assumptions C45_boundary_mapping.
Example C45_example : let E := Ell (2, 1) 20 None (1, 0) in 1 / 100 <= e_diam E /\ ell_form (e_a E) (e_xr E) < 1 /\
  Rabs (snd (5, 0) - snd (e_xr E)) <= 100 * Rabs (fst (5, 0) - fst (e_xr E)) /\ clear_crossing (e_a E) (e_xr E) (5, 0).
Proof.
  cbv zeta. unfold e_diam, ell_form, clear_crossing, on_line, along, on_ellipse, vadd, smul, vsub, ell_form. cbn [e_a e_xr fst snd].
  split; [rewrite Rmax_left; lra|]. split; [lra|]. split; [replace (0 - 0) with 0 by lra; rewrite Rabs_R0, Rabs_right; lra|].
  right. exists (-2, 0), (2, 0). cbn [fst snd]. split; [exists (- 3 / 4); apply pair_eq; lra|].
  split; [exists (1 / 4); apply pair_eq; lra|]. split; [field|]. split; [field|]. rewrite Rabs_left; lra.
Qed.

Theorem C46_boundary_mapping_refuted : exists E x b, 0 < fst (e_a E) /\ 0 < snd (e_a E) /\ ell_form (e_a E) (e_xr E) < 1 /\ x <> e_xr E /\
  e_boundary_mapping E x OBSTACLE OBSTACLE = Ret (Some b) /\ ~ on_line (e_xr E) x b.
Proof.
  exists (Ell (1, 1) 20 None (1 / 2, 0)), (1 / 2, 5), (0, 1). cbn [e_a e_xr fst snd].
  split; [lra|]. split; [lra|]. split; [unfold ell_form; cbn [fst snd]; lra|]. split; [intros Q; injection Q; lra|]. split.
  - unfold e_boundary_mapping, reference_direction, e_diam, e_line_intersection. cbn [e_mm e_a e_xr transform bind fst snd].
    assert (NN : np_norm (psub (1 / 2, 5) (1 / 2, 0)) = 5).
    { rewrite np_norm_norm. unfold norm, norm2, dot, psub, vsub. cbn. replace ((1 / 2 - 1 / 2) * (1 / 2 - 1 / 2) + (5 - 0) * (5 - 0)) with (5 * 5) by field.
      apply sqrt_square. lra. }
    rewrite NN. destruct (Reqb_spec 5 0); [lra|]. cbn [bind]. rewrite Rmax_left by lra.
    replace (padd (1 / 2, 0) (scale (11 / 10 * (2 * 1)) (scale (/ 5) (psub (1 / 2, 5) (1 / 2, 0))))) with ((1 / 2, 22 / 10) : RPt)
      by (unfold padd, scale, psub; cbn; apply pair_eq; field).
    unfold ell_line. cbn [fst snd]. cbv zeta. destruct (Rltb_spec (1 / 2) (1 / 2)); [lra|]. cbn [fst snd].
    replace (1 / 2 - 1 / 2) with 0 by lra. rewrite Rabs_R0. destruct (Rltb_spec 0 (1 / 10000)); [|lra].
    unfold ell_vertical. cbn [fst snd]. destruct (Rltb_spec (1 / 2) (- (1))); [lra|]. destruct (Rltb_spec 1 (1 / 2)); [lra|]. cbn [orb].
    destruct (Rltb_spec (22 / 10) 0); [lra|]. cbn [fst snd]. destruct (Rleb_spec 1 (22 / 10)); [|lra]. destruct (Rleb_spec 0 (- (1))); [lra|].
    destruct (Rleb_spec 0 1); [|lra]. reflexivity.
  - intros (t & Q). unfold along, vadd, smul, vsub in Q. cbn [fst snd] in Q. injection Q as Q1 Q2. lra.
Qed.
Print Assumptions C46_boundary_mapping_refuted.
(** what does hold: the class of C45, and the vertical direction when the reference point is on the vertical axis *)
Theorem C46_boundary_mapping_partial : forall E x fi fo, good fi -> good fo -> 0 < fst (e_a E) -> 0 < snd (e_a E) ->
  ell_form (e_a E) (e_xr E) < 1 -> x <> e_xr E ->
  (1 / 100 <= e_diam E /\ Rabs (snd x - snd (e_xr E)) <= 100 * Rabs (fst x - fst (e_xr E)) /\ clear_crossing (e_a E) (e_xr E) x) \/
  (fst (e_xr E) = 0 /\ fst x = 0) ->
  exists b, e_boundary_mapping E (shown (e_mm E) fi x) fi fo = Ret (Some (shown (e_mm E) fo b)) /\
    on_ellipse (e_a E) b /\ on_ray (e_xr E) x b.
Proof.
  intros E x fi fo Hi Ho A B I N [(D & G & C)|[X0 X1]].
  - destruct (C45_boundary_mapping E x fi fo Hi Ho A B D I N G C) as (b & Q & O & R & _). eauto.
  - destruct (boundary_mapping_axis E (shown (e_mm E) fi x) fi fo x Hi Ho A B (from_shown _ _ _ Hi) I N X0 X1) as (b & Q & O & R).
    exists b. rewrite to_frame_shown in Q by exact Ho. auto.
Qed.
Print Assumptions C46_boundary_mapping_partial.

(** C47 *)
Theorem C47_normal : forall E b fi fo, good fi -> good fo -> 0 < fst (e_a E) -> 0 < snd (e_a E) -> on_ellipse (e_a E) b ->
  exists n, e_normal E (shown (e_mm E) fi b) fi fo true = Ret (Some n) /\ norm n = 1 /\
    forall y, in_ellipse (e_a E) y -> dot n (vsub (shown (e_mm E) fo y) (shown (e_mm E) fo b)) <= 0.
Proof.
  intros E b fi fo Hi Ho A B O. unfold e_normal. rewrite from_shown by exact Hi. cbn [bind]. set (a := e_a E) in *.
  unfold ell_normal. set (n0 := (snd a ^ 2 * fst b, fst a ^ 2 * snd b)).
  assert (BZ : b <> (0, 0)). { intros ->. unfold on_ellipse, ell_form in O. cbn [fst snd] in O. unfold Rdiv in O. rewrite !Rmult_0_l in O. lra. }
  assert (NP : 0 < np_norm n0).
  { rewrite np_norm_norm. apply norm_pos. intros Z. apply BZ. unfold n0 in Z. injection Z as Z1 Z2. destruct b as [b1 b2]. cbn [fst snd] in *.
    assert (0 < fst a ^ 2) by nra. assert (0 < snd a ^ 2) by nra. apply pair_eq; [apply Rmult_eq_reg_l with (snd a ^ 2)|apply Rmult_eq_reg_l with (fst a ^ 2)]; lra. }
  destruct (Reqb_spec (np_norm n0) 0); [lra|]. cbn [bind].
  assert (OB : good OBSTACLE) by (right; reflexivity).
  destruct (rotate_good (e_mm E) (scale (/ np_norm n0) n0) OBSTACLE fo OB Ho) as (al & Q & V). rewrite Q. cbn [bind].
  eexists. split; [reflexivity|]. split.
  - rewrite rotv_norm. change (scale (/ np_norm n0) n0) with (smul (/ np_norm n0) n0). rewrite norm_smul, <- (np_norm_norm n0).
    rewrite Rabs_pos_eq by (left; apply Rinv_0_lt_compat; exact NP). field. lra.
  - intros y Hy. rewrite (V y b (shown (e_mm E) fo y) (shown (e_mm E) fo b)).
    2,3: rewrite to_frame_ok, to_frame_shown by exact Ho; reflexivity.
    rewrite rotv_dot. pose proof (bform_le a b y A B O Hy) as BL.
    assert (D0 : dot n0 (vsub y b) = (fst a * snd a) ^ 2 * (bform a b y - 1)).
    { rewrite <- O. rewrite <- (bform_diag a b) by lra. unfold n0, dot, vsub, bform. cbn [fst snd]. field. lra. }
    assert (D1 : dot (scale (/ np_norm n0) n0) (vsub y b) = / np_norm n0 * dot n0 (vsub y b)) by (unfold dot, scale; cbn [fst snd]; ring).
    rewrite D1, D0. assert (0 < / np_norm n0) by (apply Rinv_0_lt_compat; exact NP).
    assert (0 <= / np_norm n0 * ((fst a * snd a) ^ 2 * (1 - bform a b y))) by (apply Rmult_le_pos; [lra|apply Rmult_le_pos; [apply pow2_ge_0|lra]]). lra.
Qed.
Print Assumptions C47_normal.
Example C47_example : on_ellipse (2, 1) (6 / 5, 4 / 5).
Proof. unfold on_ellipse, ell_form. cbn [fst snd]. field. Qed.

(** C48: the polygon (its convex hull) covers the ellipse as soon as 1e-3 makes up for the chord error, and never exceeds the widened ellipse *)
Theorem C48_polygon_partial : forall a n, (3 <= n)%nat -> 0 < fst a -> 0 < snd a ->
  (forall y, In y (ell_polygon a n) -> on_ellipse (fst a + 1 / 1000, snd a + 1 / 1000) y) /\
  (forall y, in_hull (ell_polygon a n) y -> in_ellipse (fst a + 1 / 1000, snd a + 1 / 1000) y) /\
  (fst a <= cos (PI / INR n) * (fst a + 1 / 1000) -> snd a <= cos (PI / INR n) * (snd a + 1 / 1000) ->
   forall y, in_ellipse a y -> in_hull (ell_polygon a n) y).
Proof.
  intros a n Hn A B. assert (V : forall y, In y (ell_polygon a n) -> on_ellipse (fst a + 1 / 1000, snd a + 1 / 1000) y).
  { intros y Hy. unfold ell_polygon in Hy. apply in_map_iff in Hy as (k & <- & _). unfold on_ellipse, ell_form. cbv zeta. cbn [fst snd].
    set (t := INR k * (2 * PI / INR n)). replace ((fst a + 1 / 1000) * cos t / (fst a + 1 / 1000)) with (cos t) by (field; lra).
    replace ((snd a + 1 / 1000) * sin t / (snd a + 1 / 1000)) with (sin t) by (field; lra). pose proof (sin2_cos2 t) as S. unfold Rsqr in S. lra. }
  split; [exact V|]. split.
  - intros y Hy. apply (hull_in_convex _ (ell_polygon a n)); [apply ellipse_convex; cbn [fst snd]; lra| |exact Hy].
    intros p Hp. apply V in Hp. unfold on_ellipse, in_ellipse in *. lra.
  - intros C0 C1 y Hy. apply covers; auto. unfold in_ellipse, ell_form in *. cbn [fst snd].
    set (c := cos (PI / INR n)) in *.
    assert (CP : 0 < c) by nra.
    assert (G : forall u v, 0 < v -> v <= c * (v + 1 / 1000) -> (u / (v + 1 / 1000)) ^ 2 <= (u / v) ^ 2 * c ^ 2).
    { intros u v V0 V1. replace (u / (v + 1 / 1000)) with (u / v * (v / (v + 1 / 1000))) by (field; lra). rewrite Rpow_mult_distr.
      apply Rmult_le_compat_l; [apply pow2_ge_0|]. apply pow_incr. split; [apply Rlt_le, Rdiv_lt_0_compat; lra|].
      apply Rmult_le_reg_r with (v + 1 / 1000); [lra|]. replace (v / (v + 1 / 1000) * (v + 1 / 1000)) with v by (field; lra). exact V1. }
    pose proof (G (fst y) (fst a) A C0). pose proof (G (snd y) (snd a) B C1).
    assert (((fst y / fst a) ^ 2 + (snd y / snd a) ^ 2) * c ^ 2 <= 1 * c ^ 2) by (apply Rmult_le_compat_r; [apply pow2_ge_0|exact Hy]). lra.
Qed.
Print Assumptions C48_polygon_partial.
Lemma cos_pi3 : cos (PI / INR 3) = 1 / 2.
Proof. replace (INR 3) with 3 by (cbn; lra). apply cos_PI3. Qed.
Example C48_example : let a : Pt := (1 / 1000, 1 / 2000) in 0 < fst a /\ 0 < snd a /\
  fst a <= cos (PI / INR 3) * (fst a + 1 / 1000) /\ snd a <= cos (PI / INR 3) * (snd a + 1 / 1000).
Proof. cbv zeta. rewrite cos_pi3. cbn [fst snd]. lra. Qed.
(** the default 20 points leave part of the unit circle outside *)
Theorem C48_polygon_refuted : exists y, in_ellipse (1, 1) y /\ ~ in_hull (ell_polygon (1, 1) 20) y.
Proof.
  set (p := PI / INR 20). exists (cos p, sin p). split.
  - unfold in_ellipse, ell_form. cbn [fst snd]. pose proof (sin2_cos2 p) as S. unfold Rsqr in S.
    replace ((cos p / 1) ^ 2 + (sin p / 1) ^ 2) with (sin p * sin p + cos p * cos p) by field. lra.
  - intros H. assert (N : (3 <= 20)%nat) by lia. assert (P1 : 0 < 1) by lra.
    pose proof (hull_bound (1, 1) 20%nat N P1 _ eq_refl H) as Q. cbn [fst snd] in Q. fold p in Q.
    pose proof (sin2_cos2 p) as S. unfold Rsqr in S.
    assert (P3 : 3 / 20 <= p). { unfold p. replace (INR 20) with 20 by (cbn; lra). pose proof PI2_3_2. unfold PI2 in *. lra. }
    assert (P4 : p <= PI). { unfold p. replace (INR 20) with 20 by (cbn; lra). pose proof PI_RGT_0. lra. }
    assert (C : cos p <= cos (3 / 20)) by (apply cos_decr_1; pose proof PI2_3_2; unfold PI2 in *; lra).
    assert (C' : cos (3 / 20) <= 1 - (3 / 20) ^ 2 / 2 + (3 / 20) ^ 4 / 24).
    { pose proof (cos_bound (3 / 20) 0 ltac:(pose proof PI2_3_2; unfold PI2 in *; lra) ltac:(pose proof PI2_3_2; unfold PI2 in *; lra)) as [_ W].
      unfold cos_approx, cos_term in W. cbn in W. lra. }
    nra.
Qed.
Print Assumptions C48_polygon_refuted.

(** C49 *)
Theorem C49_dilated_refuted : exists E p q, 0 < fst (e_a E) /\ 0 < snd (e_a E) /\ in_ellipse (e_a E) p /\ dist p q = 1 /\ ~ in_ellipse (e_a (e_dilated E 1)) q.
Proof.
  exists (Ell (9, 16) 20 None (0, 0)), (27 / 5, 64 / 5), (31 / 5, 67 / 5). unfold in_ellipse, ell_form, dist, norm, norm2, dot, vsub. cbn [e_dilated e_a fst snd].
  split; [lra|]. split; [lra|]. split; [lra|]. split; [|lra].
  match goal with |- sqrt ?u = 1 => replace u with 1 by field end. apply sqrt_1.
Qed.
Print Assumptions C49_dilated_refuted.
(** what does hold: it contains the original, and for circles all points within the padding *)
Theorem C49_dilated_partial : forall E padding, 0 < fst (e_a E) -> 0 < snd (e_a E) -> 0 <= padding ->
  (forall p, in_ellipse (e_a E) p -> in_ellipse (e_a (e_dilated E padding)) p) /\
  (fst (e_a E) = snd (e_a E) -> forall p q, in_ellipse (e_a E) p -> dist p q <= padding -> in_ellipse (e_a (e_dilated E padding)) q) /\
  (forall f z, shown (e_mm (e_dilated E padding)) f z = shown (e_mm E) f z).
Proof.
  intros E pd A B P. split; [|split; [|reflexivity]].
  - intros p Hp. unfold in_ellipse, ell_form in *. cbn [e_dilated e_a fst snd].
    assert (G : forall u v, 0 < v -> (u / (v + pd)) ^ 2 <= (u / v) ^ 2).
    { intros u v V. replace (u / (v + pd)) with (u / v * (v / (v + pd))) by (field; lra). rewrite Rpow_mult_distr.
      rewrite <- (Rmult_1_r ((u / v) ^ 2)) at 2. apply Rmult_le_compat_l; [apply pow2_ge_0|].
      assert (0 < v / (v + pd)) by (apply Rdiv_lt_0_compat; lra).
      assert (v / (v + pd) <= 1) by (apply Rmult_le_reg_r with (v + pd); [lra|]; replace (v / (v + pd) * (v + pd)) with v by (field; lra); lra). nra. }
    pose proof (G (fst p) _ A). pose proof (G (snd p) _ B). lra.
  - intros Q p q Hp D. destruct E as [[a0 a1] n m xr]. cbn [e_a e_dilated fst snd] in *. subst a1.
    assert (F : forall c z, 0 < c -> (in_ellipse (c, c) z <-> norm z <= c)).
    { intros c z C. assert (Z : ell_form (c, c) z = norm2 z / (c * c)) by (unfold ell_form, norm2, dot; cbn [fst snd]; field; lra).
      unfold in_ellipse. rewrite Z. pose proof (norm_sq z) as NS. pose proof (norm_nonneg z).
      assert (CC : 0 < c * c) by nra. split; intros H1.
      - apply Rmult_le_compat_r with (r := c * c) in H1; [|lra]. replace (norm2 z / (c * c) * (c * c)) with (norm2 z) in H1 by (field; lra). nra.
      - apply Rmult_le_reg_r with (c * c); [lra|]. replace (norm2 z / (c * c) * (c * c)) with (norm2 z) by (field; lra). nra. }
    apply F; [lra|]. apply F in Hp; [|lra]. pose proof (dist_triangle q p (0, 0)) as T.
    assert (N : forall z, norm z = dist z (0, 0)) by (intros [z1 z2]; unfold dist, vsub; cbn [fst snd]; rewrite !Rminus_0_r; reflexivity).
    rewrite N in *. rewrite (dist_sym p q) in D. lra.
Qed.
Print Assumptions C49_dilated_partial.
Example C49_example : in_ellipse (2, 2) (2, 0) /\ dist (2, 0) (3, 0) <= 1 /\ in_ellipse (e_a (e_dilated (Ell (2, 2) 20 None (0, 0)) 1)) (3, 0).
Proof.
  unfold in_ellipse, ell_form, dist, norm, norm2, dot, vsub. cbn [e_dilated e_a fst snd]. split; [lra|]. split; [|lra].
  replace ((2 - 3) * (2 - 3) + (0 - 0) * (0 - 0)) with 1 by field. rewrite sqrt_1. lra.
Qed.
