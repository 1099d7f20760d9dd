(** C101: the polygon of a cone. *)
From Coq Require Import Reals Lra Psatz List Bool Arith Lia.
From Verif Require Import Num Spec S_ConeRegion M_Cg M_ConePolygon L_Geom L_Polar L_Atan2 L_Cg L_Cone L_ConePolygon L_ConeRegion P_Cone.
Import ListNotations.
Open Scope R_scope.

Lemma side_nrm k q : on_side_line k q <-> nrm k q = 1000000.
Proof. unfold on_side_line, nrm. destruct (k mod 4)%nat as [|[|[|]]]; lra. Qed.
Lemma nrm_mod k p : nrm (k mod 4) p = nrm k p.
Proof. unfold nrm. rewrite Nat.mod_mod by lia. reflexivity. Qed.
Lemma margin_nrm a : 0 < box_margin a -> forall j, nrm j a < 1000000.
Proof.
  intros H j. pose proof (margin_facts a H) as (M1 & M2 & M3 & M4). unfold margin, bb_width in *. unfold box_margin in H. unfold nrm. destruct (j mod 4)%nat as [|[|[|]]]; lra.
Qed.
Lemma on_box_in q : on_box q -> in_box q.
Proof. unfold on_box, in_box. lra. Qed.
Lemma corner_in k : in_box (box_corner k).
Proof. apply box_nrm. intros j. unfold nrm, box_corner. destruct (mod4 j) as [F|[F|[F|F]]], (mod4 k) as [G|[G|[G|G]]]; rewrite F, G; cbn; lra. Qed.
Lemma corner_side k : nrm k (box_corner k) = 1000000 /\ nrm (S k) (box_corner k) = 1000000.
Proof. unfold nrm, box_corner. replace (S k) with (k + 1)%nat by lia. rewrite (mod4_add k 1). destruct (mod4 k) as [G|[G|[G|G]]]; rewrite G; cbn; lra. Qed.

(** consecutive points of the border part lie on a common side *)
Lemma corners_sides : forall n i q q2, nrm i q = 1000000 -> in_box q -> nrm (i + n) q2 = 1000000 -> in_box q2 ->
  forall u w, consecutive u w (q :: map (fun k => box_corner (i + k)) (seq 0 n) ++ [q2]) -> in_box u /\ in_box w /\ exists k, nrm k u = 1000000 /\ nrm k w = 1000000.
Proof.
  induction n as [|n IH]; intros i q q2 Sq Bq S2 B2 u w (l1 & l2 & E).
  - cbn in E. destruct l1 as [|b [|b' l1]]; cbn in E.
    + injection E as <- <- _. split; [exact Bq|]. split; [exact B2|]. exists i. rewrite Nat.add_0_r in S2. auto.
    + discriminate.
    + apply (f_equal (@length Pt)) in E. cbn in E. rewrite app_length in E. cbn in E. lia.
  - destruct l1 as [|b l1]; cbn in E.
    + injection E as <- <- _. rewrite Nat.add_0_r. split; [exact Bq|]. split; [apply corner_in|]. exists i. split; [exact Sq|apply corner_side].
    + injection E as _ E. rewrite Nat.add_0_r in E. apply (IH (S i) (box_corner i) q2); [apply corner_side|apply corner_in|replace (S i + n)%nat with (i + S n)%nat by lia; exact S2|exact B2|].
      exists l1, l2. rewrite <- E. f_equal. f_equal. rewrite <- (seq_shift n 0), map_map. apply map_ext. intros k. f_equal. lia.
Qed.

Lemma chain_sides i n a q1 q2 : (forall j, nrm j a < 1000000) -> in_box q1 -> in_box q2 -> nrm i q1 = 1000000 -> nrm (i + n) q2 = 1000000 -> (n <= 4)%nat ->
  cross (vsub q1 a) (vsub q2 a) <> 0 -> (n = 0%nat -> 0 < cross (vsub q1 a) (vsub q2 a)) -> (n = 4%nat -> cross (vsub q1 a) (vsub q2 a) < 0) ->
  chain_ok (vsub q1 a) (vsub q1 a) (map (fun v => vsub v a) (map (fun k => box_corner (i + k)) (seq 0 n) ++ [q2])).
Proof.
  intros Ha B1 B2 S1 S2 Ln Nc C0 C4. apply (chain_turn i).
  assert (Em : map (fun v => vsub (turn i v) (turn i a)) (map (fun k => box_corner (i + k)) (seq 0 n) ++ [q2]) = map (fun v => vsub v (turn i a)) (corners_from 0 n ++ [turn i q2])).
  { rewrite !map_app. unfold corners_from. rewrite !map_map. cbn [map]. f_equal. apply map_ext. intros k. rewrite turn_corner. reflexivity. }
  rewrite Em. clear Em. assert (Cr : cross (vsub (turn i q1) (turn i a)) (vsub (turn i q2) (turn i a)) = cross (vsub q1 a) (vsub q2 a)) by (rewrite <- !turn_sub; apply turn_cross).
  rewrite <- Cr in Nc, C0, C4. pose proof (fun j => eq_ind_r (fun z => z < 1000000) (Ha (i + j)%nat) (nrm_turn i j a)) as Ta. pose proof (turn_box i q1 B1) as T1. pose proof (turn_box i q2 B2) as T2.
  assert (N2 : nrm n (turn i q2) = 1000000) by (rewrite nrm_turn; exact S2). assert (N1 : nrm 0 (turn i q1) = 1000000) by (rewrite nrm_turn, Nat.add_0_r; exact S1).
  revert Nc C0 C4 Ta T1 T2 N1 N2. generalize (turn i q1), (turn i q2), (turn i a). clear - Ln. intros [s y] q2 [ax ay] Nc C0 C4 Ta T1 T2 N1 N2.
  pose proof (Ta 0%nat) as A0. pose proof (Ta 1%nat) as A1. pose proof (Ta 2%nat) as A2. pose proof (Ta 3%nat) as A3. rewrite box_nrm in T1. pose proof (T1 1%nat) as U1. pose proof (T1 3%nat) as U3.
  unfold nrm in N1, A0, A1, A2, A3, U1, U3. cbn in N1, A0, A1, A2, A3, U1, U3. assert (y = -1000000) by lra. subst y.
  apply chain_bottom; auto; lra.
Qed.

Lemma ray_scale a d q : (forall j, nrm j a < 1000000) -> (exists k, nrm k q = 1000000) -> on_ray a (vadd a d) q -> exists t, 0 < t /\ vsub q a = smul t d.
Proof.
  intros Ha [k Hk] (t & Ht & E). exists t. assert (V : vsub q a = smul t d) by (rewrite E; destruct a, d; unv; apply pair_eq; ring). split; [|exact V].
  destruct Ht as [Ht|Ht]; [exact Ht|exfalso]; subst t. assert (Qa : q = a) by (rewrite E; destruct a, d; unv; apply pair_eq; ring). rewrite Qa in Hk. specialize (Ha k). lra.
Qed.
Lemma polar_smul t r th : smul t (polar r th) = polar (t * r) th.
Proof. unfold polar. unv. apply pair_eq; ring. Qed.
Lemma unscale t d r th : 0 < t -> smul t d = polar r th -> d = polar (r / t) th.
Proof. intros Ht E. assert (d = smul (/ t) (smul t d)) by (destruct d; unv; apply pair_eq; field; lra). rewrite H, E, polar_smul. f_equal. field. lra. Qed.

Lemma last_map_snoc {A} (f : A -> Pt) l (x : A) e : last_of e (map f (l ++ [x])) = f x.
Proof. unfold last_of. rewrite map_app. cbn [map]. apply last_last. Qed.
Lemma consecutive_map {A} (f : A -> Pt) (l : list A) (Q : Pt -> Pt -> Prop) : (exists u w, consecutive u w (map f l) /\ Q u w) <-> (exists u w, consecutive u w l /\ Q (f u) (f w)).
Proof.
  split.
  - intros (u & w & (l1 & l2 & E) & H). apply map_eq_app in E. destruct E as (k1 & k2 & -> & _ & E). destruct k2 as [|b [|b' k2]]; [discriminate|discriminate|]. cbn in E. injection E as <- <- _.
    exists b, b'. split; [exists k1, k2; reflexivity|exact H].
  - intros (u & w & (l1 & l2 & ->) & H). exists (f u), (f w). split; [exists (map f l1), (map f l2); rewrite map_app; reflexivity|exact H].
Qed.

Lemma region_of_fan a d1 d2 i n q1 q2 : (forall j, nrm j a < 1000000) -> in_box q1 -> in_box q2 -> nrm i q1 = 1000000 -> nrm (i + n) q2 = 1000000 -> (n <= 4)%nat ->
  on_ray a (vadd a d1) q1 -> on_ray a (vadd a d2) q2 -> cross d1 d2 <> 0 -> (n = 0%nat -> 0 < cross d1 d2) -> (n = 4%nat -> cross d1 d2 < 0) ->
  sweeps a (q1 :: map (fun k => box_corner (i + k)) (seq 0 n) ++ [q2]) /\ forall p, cross d1 (vsub p a) <> 0 -> cross d2 (vsub p a) <> 0 ->
  (fan a (q1 :: map (fun k => box_corner (i + k)) (seq 0 n) ++ [q2]) p <-> in_box p /\ in_sector d1 d2 (vsub p a)).
Proof.
  intros Ha B1 B2 S1 S2 Ln R1 R2 Nc C0 C4. pose proof PI_RGT_0.
  destruct (ray_scale a d1 q1 Ha (ex_intro _ _ S1) R1) as (t1 & T1 & V1). destruct (ray_scale a d2 q2 Ha (ex_intro _ _ S2) R2) as (t2 & T2 & V2).
  assert (Cr : cross (vsub q1 a) (vsub q2 a) = t1 * t2 * cross d1 d2) by (rewrite V1, V2; destruct d1, d2; unv; ring).
  assert (T12 : 0 < t1 * t2) by (apply Rmult_lt_0_compat; auto).
  assert (Ch := chain_sides i n a q1 q2 Ha B1 B2 S1 S2 Ln ltac:(rewrite Cr; apply Rmult_integral_contrapositive; split; [lra|exact Nc]) ltac:(intros Z; rewrite Cr; specialize (C0 Z); nra) ltac:(intros Z; rewrite Cr; specialize (C4 Z); nra)).
  set (mid := map (fun k => box_corner (i + k)) (seq 0 n)) in *.
  assert (Nd1 : d1 <> (0, 0)) by (intros ->; apply Nc; destruct d2; unv; ring).
  split.
  { destruct (polar_from 0 d1 Nd1) as (t & _ & E1). pose proof (norm_pos _ Nd1) as Np1. set (r1 := norm d1) in *. assert (Tr : 0 < t1 * r1) by (apply Rmult_lt_0_compat; auto).
    assert (E0 : vsub q1 a = polar (t1 * r1) t) by (rewrite V1, E1, polar_smul; reflexivity).
    exists t, 0, (t1 * r1). rewrite Rplus_0_r. split; [exact Tr|]. split; [exact E0|]. split; [lra|]. split; [lra|].
    apply (chain_turning a t (t1 * r1) (vsub q1 a) Tr E0 _ (vsub q1 a) (t1 * r1) 0 Tr); [rewrite Rplus_0_r; exact E0|lra|exact Ch]. }
  intros p P1 P2.
  (* the fan through directions *)
  assert (Fb : fan a (q1 :: mid ++ [q2]) p <-> in_box p /\ exists u w, consecutive u w (vsub q1 a :: map (fun v => vsub v a) (mid ++ [q2])) /\ between u w (vsub p a)).
  { change (vsub q1 a :: map (fun v => vsub v a) (mid ++ [q2])) with (map (fun v => vsub v a) (q1 :: mid ++ [q2])). rewrite (consecutive_map (fun v => vsub v a) (q1 :: mid ++ [q2]) (fun u w => between u w (vsub p a))).
    unfold fan. split.
    - intros (u & w & Cs & Hh). destruct (corners_sides n i q1 q2 S1 B1 S2 B2 u w Cs) as (Bu & Bw & k & Su & Sw). apply (side_triangle k a u w p Ha Bu Bw Su Sw) in Hh. destruct Hh as [Bp Bt]. split; [exact Bp|]. exists u, w. auto.
    - intros [Bp (u & w & Cs & Bt)]. destruct (corners_sides n i q1 q2 S1 B1 S2 B2 u w Cs) as (Bu & Bw & k & Su & Sw). exists u, w. split; [exact Cs|]. apply (side_triangle k a u w p Ha Bu Bw Su Sw). auto. }
  rewrite Fb. clear Fb. assert (Nl : map (fun v : Pt => vsub v a) (mid ++ [q2]) <> []) by (rewrite map_app; destruct (map (fun v : Pt => vsub v a) mid); discriminate).
  assert (Nv : vsub p a <> (0, 0)) by (intros Z; apply P1; rewrite Z; destruct d1; unv; ring).
  split; intros [Bp Hh]; (split; [exact Bp|]).
  - destruct (polar_from 0 d1 Nd1) as (t & _ & E1). pose proof (norm_pos _ Nd1) as Np1. set (r1 := norm d1) in *. assert (Tr : 0 < t1 * r1) by (apply Rmult_lt_0_compat; auto).
    assert (E0 : vsub q1 a = polar (t1 * r1) t) by (rewrite V1, E1, polar_smul; reflexivity).
    destruct (chain_angles t (t1 * r1) (vsub q1 a) Tr E0 _ (vsub q1 a) (t1 * r1) 0 Tr ltac:(rewrite Rplus_0_r; exact E0) ltac:(lra) Ch) as (sm & rm & Hsm & Hrm & El & Un).
    rewrite last_map_snoc, V2 in El. apply (unscale t2 d2 rm (t + sm) T2) in El. assert (Rr : 0 < rm / t2) by (apply Rdiv_lt_0_compat; auto).
    destruct (polar_from t (vsub p a) Nv) as (th & Ht & Ev). pose proof (norm_pos _ Nv) as Npv. set (rv := norm (vsub p a)) in *. set (z := th - t). assert (Ez : th = t + z) by (unfold z; ring). rewrite Ez in Ev.
    assert (Hz : 0 <= z < 2 * PI) by (unfold z; lra). rewrite Ev in Hh. apply (Un rv z Npv Hz) in Hh. destruct Hh as [_ Hh].
    assert (z <> 0). { intros Z. rewrite Z, Rplus_0_r in Ev. apply P1. rewrite Ev, E1, cross_polar, Rminus_diag_eq, sin_0 by reflexivity. ring. }
    assert (z <> sm). { intros Z. rewrite Z in Ev. apply P2. rewrite Ev, El, cross_polar, Rminus_diag_eq, sin_0 by reflexivity. ring. }
    exists r1, (rm / t2), rv, t, sm, z. split; [exact Np1|]. split; [exact Rr|]. split; [exact Npv|]. split; [lra|]. split; [lra|]. auto.
  - destruct Hh as (r1 & r2 & rv & t & w & s & Hr1 & Hr2 & Hrv & Hs & Hw & E1 & E2 & Ev). assert (Tr : 0 < t1 * r1) by (apply Rmult_lt_0_compat; auto).
    assert (E0 : vsub q1 a = polar (t1 * r1) t) by (rewrite V1, E1, polar_smul; reflexivity).
    destruct (chain_angles t (t1 * r1) (vsub q1 a) Tr E0 _ (vsub q1 a) (t1 * r1) 0 Tr ltac:(rewrite Rplus_0_r; exact E0) ltac:(lra) Ch) as (sm & rm & Hsm & Hrm & El & Un).
    rewrite last_map_snoc, V2, E2, polar_smul in El. apply polar_eq_angle in El; [|apply Rmult_lt_0_compat; auto|exact Hrm|lra]. destruct El as [_ El].
    rewrite Ev. apply (Un rv s Hrv ltac:(lra)). split; [exact Nl|lra].
Qed.

(** Directions clear of the diagonals: the vertices go once round the apex, and the polygon covers the sector within the box and nothing else. *)
Theorem C101_region_partial : forall a d1 d2 : Pt,
  let m := box_margin a in
  let clear d := Rabs (fst d) * (2000000 - m) <= Rabs (snd d) * m \/ Rabs (snd d) * (2000000 - m) <= Rabs (fst d) * m in
  0 < m -> TH <= m * max_coord d1 -> TH <= m * max_coord d2 -> clear d1 -> clear d2 -> apart d1 d2 ->
  exists l, cone_polygon (Cone a d1 d2) = Vertices (a :: l) /\ sweeps a l /\
    forall p, cross d1 (vsub p a) <> 0 -> cross d2 (vsub p a) <> 0 -> (fan a l p <-> in_box p /\ in_sector d1 d2 (vsub p a)).
Proof.
  cbv zeta. intros a d1 d2 Hm H1 H2 C1 C2 Ap. set (c := Cone a d1 d2).
  destruct (cone_polygon_total c Hm H1 H2) as (i1 & q1 & n & i2 & q2 & E & R1 & S1 & R2 & S2 & L1 & L2 & Ln & Ei & En).
  destruct (cone_polygon_on_box c Hm H1 H2 C1 C2) as (q1' & l' & q2' & E' & B1 & B2 & _). rewrite E in E'. cbn [app] in E'. injection E' as Eq El.
  rewrite <- Eq in B1. apply app_inj_tail in El. destruct El as [_ El]. rewrite <- El in B2. clear Eq El q1' q2' l'.
  change (apex c) with a in *. change (dir1 c) with d1 in *. change (dir2 c) with d2 in *.
  exists (q1 :: map (fun k => box_corner (i1 + k)) (seq 0 n) ++ [q2]). split; [exact E|].
  apply side_nrm in S1, S2. rewrite <- Ei, nrm_mod in S2. apply apart_cases in Ap. pose proof TH_pos.
  assert (Ic : is_convex c = true <-> 0 < cross d1 d2). { unfold c, Cone. cbn [is_convex]. rewrite ccw0_sgn by (unfold apart; unfold Rabs; destruct (Rcase_abs (cross d1 d2)); lra). apply sgn_true. }
  apply region_of_fan; auto.
  - apply margin_nrm, Hm.
  - apply on_box_in, B1.
  - apply on_box_in, B2.
  - lra.
  - intros Z. apply Ic. apply En. exact Z.
  - intros Z. destruct (Rlt_dec 0 (cross d1 d2)) as [Q|Q]; [|lra]. exfalso. assert (n = 0%nat); [|lia]. apply En. split; [apply Ic, Q|]. subst n.
    replace (i1 + 4)%nat with (i1 + 1 * 4)%nat in Ei by lia. rewrite Nat.mod_add, Nat.mod_small in Ei by lia. exact Ei.
Qed.
Print Assumptions C101_region_partial.
Example C101_example : let a := (3, 4) in let d1 := (1, 2) in let d2 := (-1, 0) in
  0 < box_margin a /\ TH <= box_margin a * max_coord d1 /\ TH <= box_margin a * max_coord d2 /\
  Rabs (fst d1) * (2000000 - box_margin a) <= Rabs (snd d1) * box_margin a /\ Rabs (snd d2) * (2000000 - box_margin a) <= Rabs (fst d2) * box_margin a /\ apart d1 d2 /\
  in_box (2, 10) /\ in_sector d1 d2 (vsub (2, 10) a) /\ ~ in_box (2, 10000000).
Proof.
  cbv zeta. assert (M : box_margin (3, 4) = 999996) by (unfold box_margin; cbn [fst snd]; rewrite !Rabs_pos_eq, Rmax_right; lra). rewrite M. cbn [fst snd].
  assert (A1 : Rabs (-1) = 1) by (rewrite Rabs_left; lra). assert (A2 : Rabs 1 = 1) by (apply Rabs_pos_eq; lra). assert (A3 : Rabs 2 = 2) by (apply Rabs_pos_eq; lra).
  assert (X1 : max_coord (1, 2) = 2) by (unfold max_coord; cbn [fst snd]; rewrite A2, A3, Rmax_right; lra).
  assert (X2 : max_coord (-1, 0) = 1) by (unfold max_coord; cbn [fst snd]; rewrite A1, Rabs_R0, Rmax_left; lra). rewrite X1, X2, A1, A2, A3, Rabs_R0. pose proof TH_pos. unfold TH.
  split; [lra|]. split; [lra|]. split; [lra|]. split; [lra|]. split; [lra|].
  assert (Ap : apart (1, 2) (-1, 0)) by (unfold apart, TH; unv; rewrite Rabs_pos_eq; lra). split; [exact Ap|].
  split; [unfold in_box, max_coord; cbn [fst snd]; rewrite !Rabs_pos_eq, Rmax_right; lra|]. split.
  - apply C15_point_in_cone_is_sector; [exact Ap|unfold apart, TH; unv; rewrite Rabs_pos_eq; lra|unfold apart, TH; unv; rewrite Rabs_left; lra|].
    unfold point_in_cone, Cone. cbn [is_convex apex dir1 dir2]. rewrite ccw0_sgn by exact Ap.
    assert (Sg : sgn (1, 2) (-1, 0) = true) by (apply sgn_true; unv; lra). rewrite Sg.
    rewrite ccw_sgn by (unfold apart, TH; unv; rewrite Rabs_pos_eq; lra). rewrite cw_sgn by (unfold apart, TH; unv; rewrite Rabs_left; lra).
    assert (S1 : sgn (1, 2) (vsub (2, 10) (3, 4)) = true) by (apply sgn_true; unv; lra). rewrite S1.
    destruct (sgn (-1, 0) (vsub (2, 10) (3, 4))) eqn:S2; [apply sgn_true in S2; unv; lra|reflexivity].
  - unfold in_box, max_coord. cbn [fst snd]. rewrite !Rabs_pos_eq, Rmax_right; lra.
Qed.

(** A direction near a diagonal: the second border point lies beyond the corner, and the outline crosses itself. *)
Theorem C101_simple_refuted : exists (a d1 d2 : Pt) vs,
  999990 <= box_margin a /\ 1 <= max_coord d1 /\ 1 <= max_coord d2 /\ apart d1 d2 /\
  cone_polygon (Cone a d1 d2) = Vertices vs /\ crosses_itself vs /\ exists q, In q vs /\ ~ in_box q.
Proof.
  set (q2 := (10 + 1000000 * 200000 / 200001, 1000000)).
  exists (10, 0), (0, -1), (200000, 200001), [(10, 0); (10, -1000000); (1000000, -1000000); (1000000, 1000000); q2].
  split; [unfold box_margin; cbn [fst snd]; rewrite Rabs_R0, Rabs_pos_eq, Rmax_left; lra|].
  split; [unfold max_coord; cbn [fst snd]; rewrite Rabs_R0, Rabs_left, Rmax_right; lra|].
  split; [unfold max_coord; cbn [fst snd]; rewrite !Rabs_pos_eq, Rmax_right; lra|].
  split; [unfold apart, TH; unv; rewrite Rabs_pos_eq; lra|]. split; [|split].
  - assert (E1 : border (Wray (10, 0) (0, -1)) (edge_index (arctan2 (-1) 0 + PI)) = (0%nat, Some (10, -1000000))).
    { assert (EI : edge_index (arctan2 (-1) 0 + PI) = 0%nat).
      { pose proof (edge_index_dir (0, -1) ltac:(intros Z; injection Z; intros; lra)) as K. cbn [fst snd] in K.
        destruct (edge_index (arctan2 (-1) 0 + PI)) as [|[|[|]]]; [reflexivity| | |]; destruct K as [K1 K2]; exfalso; lra. }
      rewrite EI. unfold border. assert (K : ray_intersection (Wray (10, 0) (0, -1)) (bb_edge 0) = Some (10, -1000000)); [|rewrite K; reflexivity].
      apply ray_int_spec. split; [|split].
      - rewrite det_wray. cbn [bb_edge]. edges. unv. unfold bb_width, TH. rewrite Rabs_pos_eq; lra.
      - exists 1000000. split; [lra|]. unfold Wray, along. cbn [p1 p2]. rewrite vsub_padd. unv. apply pair_eq; lra.
      - exists (1000010 / 2000000). split; [lra|]. cbn [bb_edge]. edges. unv. unfold bb_width. apply pair_eq; field. }
    assert (E2 : border (Wray (10, 0) (200000, 200001)) (edge_index (arctan2 200001 200000 + PI)) = (2%nat, Some q2)).
    { assert (EI : edge_index (arctan2 200001 200000 + PI) = 2%nat).
      { pose proof (edge_index_dir (200000, 200001) ltac:(intros Z; injection Z; intros; lra)) as K. cbn [fst snd] in K.
        destruct (edge_index (arctan2 200001 200000 + PI)) as [|[|[|]]]; [| |reflexivity|]; destruct K as [K1 K2]; exfalso; try lra. rewrite Rabs_pos_eq in K2; lra. }
      rewrite EI. unfold border. assert (K : ray_intersection (Wray (10, 0) (200000, 200001)) (bb_edge 2) = Some q2); [|rewrite K; reflexivity].
      apply ray_int_spec. split; [|split].
      - rewrite det_wray. cbn [bb_edge]. edges. unv. unfold bb_width, TH. rewrite Rabs_left; lra.
      - exists (1000000 / 200001). split; [lra|]. unfold Wray, along. cbn [p1 p2]. rewrite vsub_padd. unfold q2. unv. apply pair_eq; field.
      - exists ((10 + 1000000 * 200000 / 200001 + 1000000) / 2000000). split; [lra|]. cbn [bb_edge]. edges. unfold q2. unv. unfold bb_width. apply pair_eq; field. }
    unfold cone_polygon. cbv zeta. cbn [apex dir1 dir2 fst snd Cone]. unfold Wray in E1, E2. rewrite E1, E2. cbn [Nat.eqb]. rewrite andb_false_r. cbn [negb corner_walk Nat.add Nat.modulo Nat.divmod fst snd Nat.sub Nat.eqb app bb_corner].
    unfold bottom_right, top_right, bb_width. do 4 f_equal.
  - exists (1000000, -1000000), (1000000, 1000000), q2, (10, 0), (1000000, 200001 * 999990 / 200000).
    assert (Q : 1000000 < 10 + 1000000 * 200000 / 200001) by lra.
    split; [cbn; right; right; left; reflexivity|]. split; [cbn; right; right; right; right; left; reflexivity|].
    split; [intros Z; injection Z as Z; lra|]. split; [intros Z; injection Z as Z; lra|]. split; [intros Z; injection Z as Z; lra|]. split; [intros Z; injection Z as Z; lra|]. split.
    + exists ((200001 * 999990 / 200000 + 1000000) / 2000000). split; [lra|]. unv. apply pair_eq; field.
    + exists (1 - 999990 / 200000 * 200001 / 1000000). split; [lra|]. unfold q2. unv. apply pair_eq; field.
  - exists q2. split; [cbn; do 4 right; left; reflexivity|]. intros B. rewrite box_nrm in B. specialize (B 1%nat). unfold nrm, q2 in B. cbn in B. lra.
Qed.
Print Assumptions C101_simple_refuted.
