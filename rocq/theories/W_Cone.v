(** Witnesses for P_Cone.v. *)
From Coq Require Import Reals Lra Psatz List Bool.
From Verif Require Import Num Spec M_Cg M_ConePolygon L_Geom L_Polar L_Cg L_Cone L_ConePolygon W_Cg.
Import ListNotations.
Open Scope R_scope.

Ltac apt := unfold apart; unv; unfold TH; (rewrite Rabs_pos_eq by lra; lra) || (rewrite Rabs_left by lra; lra).

Lemma cones_gp (a d1 d2 e1 e2 x : Pt) :
  general_directions [d1; d2; e1; e2; vsub x a] ->
  ((exists c, In c (intersection_same_apex (Cone a d1 d2) (Cone a e1 e2)) /\ point_in_cone c x = true) <->
   point_in_cone (Cone a d1 d2) x = true /\ point_in_cone (Cone a e1 e2) x = true).
Proof.
  intros H. unfold general_directions in H.
  repeat match goal with
  | H : ForallOrdPairs _ (_ :: _) |- _ => inversion_clear H
  | H : Forall _ (_ :: _) |- _ => inversion_clear H
  end.
  rewrite <- andb_true_iff, <- intersection_cones_ok by auto.
  unfold in_any. rewrite existsb_exists. reflexivity.
Qed.
Lemma gp_ex : general_directions [(1, 0); (0, 1); (1, 1); (-1, 2); (3, 4)].
Proof.
  unfold general_directions. repeat constructor; apt.
Qed.
Lemma w_C15 : point_in_cone (Cone (1, 1) (1, 0) (0, 1)) (2, 3) = true /\
  point_in_cone (Cone (1, 1) (0, 1) (1, 0)) (2, 3) = false.
Proof.
  split.
  - rewrite point_in_cone_sgn by (try apply Cone_wf; cbn [apex dir1 dir2 Cone]; apt).
    cbn [apex dir1 dir2 Cone]. unfold sgn, pic.
    destruct (Rltb_spec 0 (cross (1, 0) (0, 1))); [|unv; lra].
    destruct (Rltb_spec 0 (cross (1, 0) (vsub (2, 3) (1, 1)))); [|unv; lra].
    destruct (Rltb_spec 0 (cross (0, 1) (vsub (2, 3) (1, 1)))); [unv; lra|]. reflexivity.
  - rewrite point_in_cone_sgn by (try apply Cone_wf; cbn [apex dir1 dir2 Cone]; apt).
    cbn [apex dir1 dir2 Cone]. unfold sgn, pic.
    destruct (Rltb_spec 0 (cross (0, 1) (1, 0))); [unv; lra|].
    destruct (Rltb_spec 0 (cross (1, 0) (vsub (2, 3) (1, 1)))); [|unv; lra].
    destruct (Rltb_spec 0 (cross (0, 1) (vsub (2, 3) (1, 1)))); [unv; lra|]. reflexivity.
Qed.
Lemma list_gp (a x : Pt) (ds : list (Pt * Pt)) :
  ds <> [] ->
  general_directions (flat_map (fun d => [fst d; snd d]) ds ++ [vsub x a]) ->
  let cones := map (fun d => Cone a (fst d) (snd d)) ds in
  match list_intersection cones with
  | IndexError => False
  | EmptyPolygon => ~ (forall c, In c cones -> point_in_cone c x = true)
  | UnionOf l => l <> [] /\
      ((exists c, In c l /\ point_in_cone c x = true) <-> (forall c, In c cones -> point_in_cone c x = true))
  end.
Proof.
  intros Hne H cones.
  assert (ED : dirs cones = flat_map (fun d => [fst d; snd d]) ds).
  { unfold cones, dirs. clear. induction ds as [|[u w] ds IH]; [reflexivity|]. cbn [map flat_map]. rewrite IH. reflexivity. }
  assert (App : forall l v, ForallOrdPairs apart (l ++ [v]) -> ForallOrdPairs apart l /\ (forall u, In u l -> apart u v)).
  { clear. induction l as [|y l IH]; simpl; intros v H; [split; [constructor|intros u []]|].
    inversion_clear H. apply IH in H1 as [A B]. apply Forall_app in H0 as [C D]. inversion_clear D. split.
    - constructor; auto.
    - intros u [<-|Hu]; auto. }
  apply App in H as [H1 H2]. rewrite <- ED in H1, H2.
  apply (list_intersection_ok a x); auto.
  - unfold cones. destruct ds; [congruence|discriminate].
  - unfold cones. intros c Hc. apply in_map_iff in Hc as (d & <- & _). split; [apply Cone_wf|reflexivity].
Qed.

Lemma w_C18_self : exists c : cone R,
  intersection_same_apex c c = [] /\ exists x, point_in_cone c x = true.
Proof.
  exists (Cone (1, 1) (1, 0) (0, 1)). split.
  - apply self_intersection_convex. apply is_ccw_iff. unfold n0; nR. rewrite Num.Q2R_0. unv. unfold TH; lra.
  - exists (2, 3). apply w_C15.
Qed.
Lemma w_C18_order : exists c1 c2 : cone R, apex c1 = apex c2 /\
  intersection_same_apex c1 c2 = [] /\
  exists c, intersection_same_apex c2 c1 = [c] /\ exists x, point_in_cone c x = true.
Proof.
  set (d1 := (1, 0)). set (d2 := (1, 1)). set (d3 := (0, 1)). set (o := (0, 0)).
  exists (Cone o d1 d2), (Cone o d1 d3). split; [reflexivity|].
  assert (C12 : is_ccw (n0, n0) d1 d2 = true).
  { apply is_ccw_iff. unfold n0; nR. rewrite Num.Q2R_0. unfold d1, d2; unv. unfold TH; lra. }
  assert (C13 : is_ccw (n0, n0) d1 d3 = true).
  { apply is_ccw_iff. unfold n0; nR. rewrite Num.Q2R_0. unfold d1, d3; unv. unfold TH; lra. }
  unfold intersection_same_apex, point_in_cone, Cone. cbn [apex dir1 dir2 is_convex].
  rewrite !C12, !C13.
  destruct (self_turn o d1) as [A B]. rewrite !A. cbn [andb].
  assert (E1 : is_cw o (padd o d2) (padd o d3) = false).
  { apply is_cw_false. rewrite area_apex, vsub_padd. unfold d2, d3; unv. unfold TH; lra. }
  rewrite E1, andb_false_r. split; [reflexivity|].
  assert (E2 : is_ccw o (padd o d1) (padd o d2) = true).
  { apply is_ccw_iff. rewrite area_apex, vsub_padd. unfold d1, d2; unv. unfold TH; lra. }
  assert (E3 : is_cw o (padd o d3) (padd o d2) = true).
  { apply is_cw_iff. rewrite area_apex, vsub_padd. unfold d3, d2; unv. unfold TH; lra. }
  rewrite E2, E3. cbn [andb]. eexists. split; [reflexivity|]. exists (2, 1).
  cbn [apex dir1 dir2 is_convex].
  apply andb_true_intro. split.
  - apply is_ccw_iff. rewrite area_apex. unfold d1, o; unv. unfold TH; lra.
  - apply is_cw_iff. rewrite area_apex. unfold d2, o; unv. unfold TH; lra.
Qed.
Lemma w_C19 : 0 < box_margin (3, 4) /\ TH <= box_margin (3, 4) * max_coord (1, 2) /\
  TH <= box_margin (3, 4) * max_coord (-1, 0).
Proof.
  unfold box_margin, max_coord, TH; cbn [fst snd].
  rewrite (Rabs_pos_eq 3), (Rabs_pos_eq 4), (Rabs_pos_eq 1), (Rabs_pos_eq 2), (Rabs_left (-1)), Rabs_R0 by lra.
  rewrite (Rmax_right 3), (Rmax_right 1), (Rmax_left (- -1)) by lra. lra.
Qed.
Lemma w_C19_short : exists c : cone R, apex c = (0, 0) /\ dir1 c <> (0, 0) /\ cone_polygon c = AttributeError.
Proof.
  exists (Cone (0, 0) (TH / 10000000, 0) (1, 1)). split; [reflexivity|]. pose proof TH_pos. split.
  - cbn [dir1 Cone]. intros E. injection E; intros. lra.
  - apply cone_polygon_short. cbn [dir1 Cone]. unfold reach, bb_width. cbn [fst snd].
    rewrite Rabs_R0, Rabs_pos_eq, Rmax_left; lra.
Qed.

(** apex (900000, 0), direction (10, -11): the bottom side is tried first and hit at x = 1809090.9 *)
Lemma w_C77 : exists c : cone R,
  0 < box_margin (apex c) /\ TH <= box_margin (apex c) * max_coord (dir1 c) /\ TH <= box_margin (apex c) * max_coord (dir2 c) /\
  exists q1 l, cone_polygon c = Vertices (apex c :: q1 :: l) /\ ~ on_box q1.
Proof.
  exists (Cone (900000, 0) (10, -11) (0, 1)). cbn [apex dir1 dir2].
  assert (M : box_margin (900000, 0) = 100000).
  { unfold box_margin. cbn [fst snd]. rewrite Rabs_R0, Rabs_pos_eq, Rmax_left; lra. }
  assert (D1 : max_coord (10, -11) = 11) by (unfold max_coord; cbn [fst snd]; rewrite Rabs_pos_eq, Rabs_left, Rmax_right; lra).
  assert (D2 : max_coord (0, 1) = 1) by (unfold max_coord; cbn [fst snd]; rewrite Rabs_R0, Rabs_pos_eq, Rmax_right; lra).
  assert (H0 : 0 < box_margin (900000, 0)) by (rewrite M; lra).
  assert (H1 : TH <= box_margin (900000, 0) * max_coord (10, -11)) by (rewrite M, D1; unfold TH; lra).
  assert (H2 : TH <= box_margin (900000, 0) * max_coord (0, 1)) by (rewrite M, D2; unfold TH; lra).
  split; [exact H0|]. split; [exact H1|]. split; [exact H2|].
  destruct (border_found (900000, 0) (0, 1) H0 H2) as (i2 & b2 & E2 & L2 & _).
  assert (E1 : border (Wray (900000, 0) (10, -11)) (edge_index (arctan2 (-11) 10 + PI)) = (0%nat, Some (900000 + 10000000 / 11, -1000000))).
  { assert (EI : edge_index (arctan2 (-11) 10 + PI) = 0%nat).
    { pose proof (edge_index_dir (10, -11) ltac:(intros Z; injection Z; intros; lra)) as K. cbn [fst snd] in K.
      destruct (edge_index (arctan2 (-11) 10 + PI)) as [|[|[|]]]; [reflexivity| | |]; destruct K as [K1 K2]; exfalso.
      - rewrite Rabs_left in K2; lra.
      - lra.
      - lra. }
    rewrite EI. unfold border.
    assert (K : ray_intersection (Wray (900000, 0) (10, -11)) (bb_edge 0) = Some (900000 + 10000000 / 11, -1000000)).
    { apply ray_int_spec. split; [|split].
      - rewrite det_wray. cbn [bb_edge]. edges. unv. unfold bb_width, TH. rewrite Rabs_pos_eq; lra.
      - exists (1000000 / 11). split; [lra|]. unfold Wray, along. cbn [p1 p2]. rewrite vsub_padd. unv. apply pair_eq; lra.
      - exists ((900000 + 10000000 / 11 + 1000000) / 2000000). split; [lra|]. cbn [bb_edge]. edges. unv. unfold bb_width. apply pair_eq; field. }
    rewrite K. reflexivity. }
  unfold cone_polygon. cbv zeta. cbn [apex dir1 dir2 fst snd Cone]. unfold Wray in E1, E2. cbn [fst snd] in E2. rewrite E1, E2.
  assert (NB : ~ on_box (900000 + 10000000 / 11, -1000000)).
  { unfold on_box, max_coord. cbn [fst snd]. rewrite Rabs_pos_eq, Rabs_left, Rmax_left by lra. lra. }
  destruct (negb _).
  - destruct (corner_walk_ok 0 i2 ltac:(lia) L2) as (n & El & _). rewrite El. eexists _, _. split; [reflexivity|exact NB].
  - eexists _, _. split; [reflexivity|exact NB].
Qed.
