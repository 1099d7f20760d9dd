(** Witnesses and remaining lemmas for P_Cg.v. *)
From Coq Require Import Reals Lra Psatz List Bool QArith Qreals.
From Verif Require Import Num Spec M_Cg L_Geom L_Cg.
Import ListNotations.
Open Scope R_scope.

(** [area2] of concrete points, by evaluation *)
Ltac turn := first [apply is_ccw_iff | apply is_cw_iff | apply is_ccw_false | apply is_cw_false | apply is_collinear_iff]; unv; unfold TH; try lra; nra.

Lemma w_C01 :
  affine_transform (1, 2) (PI / 2) (3, 4) false = (1, 5) /\
  affine_transform (1, 5) (PI / 2) (3, 4) true = (1, 2).
Proof.
  rewrite affine_forward, affine_back. unv. rewrite cos_neg, sin_neg, cos_PI2, sin_PI2.
  split; apply pair_eq; lra.
Qed.
Lemma w_C02 : is_ccw (0, 0) (1, 0) (0, 1) = true /\ dist (0, 0) (3, 4) = 5.
Proof. split; [turn|]. apply dist_eq; [lra|]. unv; lra. Qed.
Lemma w_C03 :
  is_ccw (0, 0) (1, 0) (1, 1) = true /\ is_cw (0, 0) (0, 1) (1, 1) = true /\
  is_collinear (0, 0) (1, 1) (2, 2) = true.
Proof. repeat split; turn. Qed.
Lemma w_C04 : exists a b c : Pt, is_cw a b c = false /\ is_ccw a b c = false /\ is_collinear a b c = false.
Proof.
  exists (q2p (0, 0)%Q), (q2p (1, 0)%Q), (q2p (1, 1 # 10000000000)%Q).
  rewrite q2r_is_cw, q2r_is_ccw, q2r_is_collinear. vm_compute. auto.
Qed.
Lemma w_C04_ex : Rabs (area2 (0, 0) (1, 0) (0, 1)) <> TH.
Proof. unv. unfold TH. rewrite Rabs_pos_eq; lra. Qed.
Lemma w_C05 : properly_cross (0, 0) (2, 2) (0, 2) (2, 0) /\ intersect (0, 0) (2, 2) (0, 2) (2, 0) = true.
Proof.
  assert (properly_cross (0, 0) (2, 2) (0, 2) (2, 0)).
  { unfold properly_cross, opposite, TH; unv. lra. }
  split; auto. apply properly_cross_intersect; auto.
Qed.
Lemma w_C06 : exists (a1 a2 b1 b2 p : Pt),
  get_intersection a1 a2 b1 b2 = Some p /\
  (forall q, on_seg a1 a2 q -> 999 <= dist p q) /\ (forall q, on_seg b1 b2 q -> 999 <= dist p q).
Proof.
  set (a1 := (0, 0)). set (a2 := (1, 0)). set (b1 := (0, TH)). set (b2 := (- (1 + 1 / 2000), TH + TH / 1000)).
  exists a1, a2, b1, b2, (1000 + 1 / 2, 0).
  assert (HI : intersect a1 a2 b1 b2 = true).
  { unfold intersect.
    assert (is_ccw a1 b1 b2 = true) as -> by (unfold a1, a2, b1, b2; turn).
    assert (is_ccw a2 b1 b2 = false) as -> by (unfold a1, a2, b1, b2; turn).
    assert (is_ccw a1 a2 b1 = false) as -> by (unfold a1, a2, b1, b2; turn).
    assert (is_ccw a1 a2 b2 = true) as -> by (unfold a1, a2, b1, b2; turn). reflexivity. }
  split; [|split].
  - unfold get_intersection. rewrite HI. simpl. apply (f_equal (@Some Pt)).
    rewrite crossing_on_b, denom_cross. unfold a1, a2, b1, b2, TH. unv. apply pair_eq; field.
  - intros q (t & Ht & ->). eapply Rle_trans; [|apply dist_ge_x]. unfold a1, a2; unv. rewrite Rabs_pos_eq; lra.
  - intros q (t & Ht & ->). eapply Rle_trans; [|apply dist_ge_x]. unfold b1, b2; unv. rewrite Rabs_pos_eq; lra.
Qed.
Lemma get_intersection_partial (a1 a2 b1 b2 : Pt) :
  (forall p, get_intersection a1 a2 b1 b2 = Some p ->
    (intersect a1 a2 b1 b2 = true /\ on_line a1 a2 p /\ on_line b1 b2 p) \/
    ((p = a1 \/ p = a2) /\ is_between b1 p b2 = true) \/
    ((p = b1 \/ p = b2) /\ is_between a1 p a2 = true)) /\
  (get_intersection a1 a2 b1 b2 = None ->
    ~ on_seg b1 b2 a1 /\ ~ on_seg b1 b2 a2 /\ ~ on_seg a1 a2 b1 /\ ~ on_seg a1 a2 b2 /\
    ~ properly_cross a1 a2 b1 b2).
Proof.
  split; [|apply get_intersection_none].
  intros p H. destruct (intersect a1 a2 b1 b2) eqn:E.
  - left. destruct (crossing_lines _ _ _ _ E) as (_ & q & E1 & E2). rewrite H in E1. injection E1 as <-. auto.
  - right. apply get_intersection_endpoints in H; auto.
Qed.
Lemma w_C06_ex : intersect (0, 0) (1, 0) (1, 0) (1, -1) = false /\
  exists p, get_intersection (0, 0) (1, 0) (1, 0) (1, -1) = Some p.
Proof.
  assert (E : intersect (0, 0) (1, 0) (1, 0) (1, -1) = false).
  { unfold intersect. assert (is_ccw (0,0) (1,0) (1,0) = false) as -> by turn.
    assert (is_ccw (0,0) (1,0) (1,-1) = false) as -> by turn. apply andb_false_r. }
  split; auto. unfold get_intersection. rewrite E. simpl.
  assert (is_between (1, 0) (1, 0) (1, -1) = true) as -> by (apply is_between_accepts, on_seg_l).
  destruct (is_between (1, 0) (0, 0) (1, -1)); eexists; reflexivity.
Qed.
Lemma w_C07 : on_seg (0, 0) (4, 0) (1, 0) /\ is_between (0, 0) (1, 0) (4, 0) = true /\
  is_between (0, 0) (5, 0) (4, 0) = false.
Proof.
  assert (H : on_seg (0, 0) (4, 0) (1, 0)).
  { exists (1 / 4). split; [lra|]. unv. apply pair_eq; lra. }
  split; auto. split; [apply is_between_accepts; auto|].
  destruct (is_between (0, 0) (5, 0) (4, 0)) eqn:E; auto. apply is_between_iff in E.
  rewrite (dist_eq (0, 0) (5, 0) 5), (dist_eq (5, 0) (4, 0) 1), (dist_eq (0, 0) (4, 0) 4) in E by (unv; lra).
  unfold btw_eps in E. lra.
Qed.
Lemma w_C08 :
  line_intersection (Line (0, 0) (1, 1)) (Line (0, 2) (2, 0)) = Some (1, 1) /\
  line_intersection (Line (0, 0) (1, 1)) (Line (0, 1) (1, 2)) = None.
Proof.
  split.
  - destruct (line_intersection (Line (0, 0) (1, 1)) (Line (0, 2) (2, 0))) as [p|] eqn:E.
    + apply line_int_some in E as (_ & _ & _ & U). apply (f_equal (@Some Pt)). symmetry. apply U.
      * exists 1. unv. apply pair_eq; lra.
      * exists (1 / 2). unv. apply pair_eq; lra.
    + apply line_int_none in E. unfold ldet, ldir in E. simpl in E. unv. exfalso.
      apply Rabs_def2 in E. unfold TH in E. lra.
  - apply line_int_none. unfold ldet, ldir. simpl. unv. unfold TH.
    rewrite Rabs_pos_eq; lra.
Qed.
Lemma w_C09 :
  line_segment_intersection (Line (0, 0) (2, 2)) (Line (0, 2) (2, 0)) = Some (1, 1) /\
  line_segment_intersection (Line (0, 0) (1, 0)) (Line (2, 0) (2, 1)) = None.
Proof.
  split.
  - apply seg_int_spec. unfold ldet, ldir. simpl. split; [|split].
    + unv. unfold TH. rewrite Rabs_left; lra.
    + exists (1 / 2). split; [lra|]. unv. apply pair_eq; lra.
    + exists (1 / 2). split; [lra|]. unv. apply pair_eq; lra.
  - destruct (line_segment_intersection (Line (0, 0) (1, 0)) (Line (2, 0) (2, 1))) as [p|] eqn:E; auto.
    apply seg_int_spec in E as (_ & (t & Ht & ->) & (u & Hu & E)). simpl in E. unv.
    injection E; intros. lra.
Qed.
Lemma w_C10 :
  ray_intersection (Line (0, 0) (1, 0)) (Line (5, -5) (5, -4)) = Some (5, 0) /\
  ray_intersection (Line (0, 0) (-1, 0)) (Line (5, -5) (5, -4)) = None.
Proof.
  split.
  - apply ray_int_spec. unfold ldet, ldir. simpl. split; [|split].
    + unv. unfold TH. rewrite Rabs_pos_eq; lra.
    + exists 5. split; [lra|]. unv. apply pair_eq; lra.
    + exists 5. split; [lra|]. unv. apply pair_eq; lra.
  - destruct (ray_intersection (Line (0, 0) (-1, 0)) (Line (5, -5) (5, -4))) as [p|] eqn:E; auto.
    apply ray_int_spec in E as (_ & (t & Ht & ->) & (u & Hu & E)). simpl in E. unv.
    injection E; intros. lra.
Qed.
Lemma w_C11 : exists s o : line R,
  properly_cross (p1 s) (p2 s) (p1 o) (p2 o) /\ line_intersects s o = false.
Proof.
  exists (Line (0, 0) (2, 2)), (Line (0, 2) (2, 0)). simpl. split; [apply w_C05 | apply line_intersects_false].
Qed.
Lemma triangle_unrotated (c : Pt) (L : R) : 0 <= L ->
  let '(t0, t1, t2) := equilateral_triangle c L 0 in
  dist t0 t1 = L /\ dist t1 t2 = L /\ dist t2 t0 = L /\ mean [t0; t1; t2] = c.
Proof.
  intros H. pose proof (triangle_facts c L H) as F. unfold equilateral_triangle.
  destruct (triangle_base c L) as [[t0 t1] t2].
  destruct (Reqb_spec 0 0) as [_|K]; [|contradiction K; reflexivity]. tauto.
Qed.
Lemma w_C12 : exists (c : Pt) (L rot : R),
  let '(t0, t1, t2) := equilateral_triangle c L rot in mean [t0; t1; t2] <> c.
Proof.
  exists (1, 0), 1, PI. pose proof (triangle_all (1, 0) 1 PI ltac:(lra)) as H.
  destruct (equilateral_triangle (1, 0) 1 PI) as [[t0 t1] t2].
  destruct H as (_ & _ & _ & -> & _). unv. rewrite cos_PI, sin_PI. intros E. injection E; intros. lra.
Qed.
Lemma w_C12_ex : exists t0 t1 t2, equilateral_triangle (1, 2) 3 (PI / 2) = (t0, t1, t2) /\ t0 <> t1.
Proof.
  pose proof (triangle_all (1, 2) 3 (PI / 2) ltac:(lra)) as H.
  destruct (equilateral_triangle (1, 2) 3 (PI / 2)) as [[t0 t1] t2].
  exists t0, t1, t2. split; auto. intros ->. destruct H as (E & _). rewrite dist_refl in E. lra.
Qed.
Lemma point_in_triangle_convex (a b c : Pt) (x y : R) : 0 <= x < 1 -> 0 <= y < 1 ->
  exists wa wb wc, wa = Rabs (x - y) /\ wb = Rmin x y /\ wc = 1 - Rmax x y /\
    0 <= wa /\ 0 <= wb /\ 0 <= wc /\ wa + wb + wc = 1 /\
    point_in_triangle a b c x y = vadd (smul wa a) (vadd (smul wb b) (smul wc c)).
Proof.
  intros Hx Hy. do 3 eexists. do 3 (split; [reflexivity|]).
  rewrite point_in_triangle_eq.
  destruct (Rle_lt_dec x y) as [H|H].
  - rewrite Rmin_left, Rmax_right, Rabs_left1 by lra. repeat split; lra.
  - rewrite Rmin_right, Rmax_left, Rabs_pos_eq by lra. repeat split; lra.
Qed.
Lemma point_in_triangle_hull (a b c : Pt) (x y : R) : 0 <= x < 1 -> 0 <= y < 1 ->
  in_hull [a; b; c] (point_in_triangle a b c x y).
Proof.
  intros Hx Hy. destruct (point_in_triangle_convex a b c x y Hx Hy) as (wa & wb & wc & _ & _ & _ & H1 & H2 & H3 & H4 & ->).
  exists [wa; wb; wc]. simpl. repeat split; auto.
  - unfold rsum; simpl. lra.
  - destruct a, b, c; unv. apply pair_eq; ring.
Qed.
Lemma w_C20 : point_in_triangle (0, 0) (4, 0) (0, 4) (1 / 4) (3 / 4) = (1, 1).
Proof.
  rewrite point_in_triangle_eq. rewrite Rmin_left, Rmax_right, Rabs_left1 by lra. unv. apply pair_eq; lra.
Qed.
