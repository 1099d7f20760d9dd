(** Properties C125, C126: Ellipse.point_location and Ellipse.tangent_points in binary64 arithmetic. *)
From Coq Require Import ZArith QArith Qreals Reals SpecFloat Bool Lia Lra Psatz List.
From Verif Require Import Num Spec L_Geom M_Cg L_Cg M_Motion M_Obstacle M_Ellipse M_Float S_Float L_Float L_FloatCmp L_FloatCg L_FloatDiv M_FloatEllipse L_FloatEllipse W_Hull W_PolTransfer P_Float.
Import ListNotations.
Local Open Scope R_scope.

(** the definitions used here are those of M_Ellipse when the numbers are the reals *)
Lemma ell_loc_real (a x : RPt) : ell_loc_num a x = ell_loc a x.
Proof. unfold ell_loc_num, ell_loc, nsq, n1. nR. rewrite Q2R_1. ring. Qed.
Lemma ell_tangent_at_real (a x : RPt) m : ell_tangent_at_num x (snd a ^ 2 / fst a ^ 2) m = ell_tangent_at a x m.
Proof.
  unfold ell_tangent_at_num, ell_tangent_at, nsq. nR. cbv zeta. assert (E : m * m = m ^ 2) by ring. rewrite !E. reflexivity.
Qed.
Lemma ell_tangents_real (a x : RPt) r : ell_tangents a x = Some r -> ell_tangents_num sqrt a x = r.
Proof.
  unfold ell_tangents, ell_tangents_num. cbv zeta. unfold nsq. nR. rewrite !(Q2R_pos_lit 1 100000), Q2R_0 || rewrite !(Q2R_pos_lit 1 100000).
  replace (Q2R 2) with 2 by (unfold Q2R; cbn; lra). replace (fst a * fst a) with (fst a ^ 2) by ring. replace (snd a * snd a) with (snd a ^ 2) by ring.
  replace (fst x * fst x) with (fst x ^ 2) by ring. replace (snd x * snd x) with (snd x ^ 2) by ring.
  destruct (Rltb (Rabs (fst a ^ 2 - fst x ^ 2)) (1 / 100000)).
  - destruct (Reqb (2 * fst x * snd x) 0); [discriminate|]. intros H. injection H as <-. rewrite ell_tangent_at_real. unfold n0. cbn [nlit NumR]. rewrite Q2R_0. reflexivity.
  - intros H. injection H as <-. rewrite !ell_tangent_at_real. set (c1 := fst x * snd x / (fst x ^ 2 - fst a ^ 2)). replace (c1 * c1) with (c1 ^ 2) by ring. reflexivity.
Qed.

(** the test of boundary_point *)
Lemma boundary_close v : bfin v -> Rabs (bval v) <= p2 899 ->
  (Rabs (bval v) <= 0.99999905 * (1 / 100000000) -> isclose_num v n0 (nlit (1 # 100000)) (nlit (1 # 100000000)) = true) /\
  (1.00000095 * (1 / 100000000) <= Rabs (bval v) -> isclose_num v n0 (nlit (1 # 100000)) (nlit (1 # 100000000)) = false).
Proof.
  intros G B. set (l := bval v) in *. unfold isclose_num. cbn [nleb nabs nsub nadd nmul NumB]. rewrite zero_run. pose proof u_small as U. pose proof eta_small as Et.
  assert (D : near (SFsub 53 1024 v (S754_zero false)) (l - 0)).
  { apply sub_near; [exact G|exact I|]. cbn [bval]. fold l. rewrite Rminus_0_r. eapply Rle_trans; [exact B|apply p2_le; lia]. }
  destruct D as (D1 & D2 & _). destruct (abs_spec _ D1) as (D3 & D4). rewrite Rminus_0_r in D2. set (w := SFsub 53 1024 v (S754_zero false)) in *. clearbody w.
  rewrite leb_spec; [|exact D3|vm_compute; reflexivity]. rewrite D4.
  match goal with |- context [Rleb _ ?r] => assert (R1 : 0.9999999 * (1 / 100000000) <= r <= 1.0000001 * (1 / 100000000)) end.
  { rewrite b64q_R. replace (0.9999999 * (1 / 100000000)) with (Q2R (9999999 # 1000000000000000)) by (unfold Q2R; cbn; lra).
    replace (1.0000001 * (1 / 100000000)) with (Q2R (10000001 # 1000000000000000)) by (unfold Q2R; cbn; lra). split; apply Qle_Rle, Qle_bool_iff; vm_compute; reflexivity. }
  match goal with |- context [Rleb _ ?r] => set (r0 := r) in * end. clearbody r0.
  pose proof (Rabs_pos l) as P. assert (Q : p2 (-53) * Rabs l <= 0.00000000000001 * Rabs l) by (apply Rmult_le_compat_r; lra).
  assert (T1 : Rabs (bval w) <= Rabs l + Rabs (bval w - l)) by (replace (bval w) with (l + (bval w - l)) at 1 by ring; apply Rabs_triang).
  assert (T2 : Rabs l <= Rabs (bval w) + Rabs (bval w - l)) by (replace l with (bval w - (bval w - l)) at 1 by ring; eapply Rle_trans; [apply Rabs_triang|rewrite Rabs_Ropp; lra]).
  split; intros H; [apply Rleb_true|apply Rleb_false]; lra.
Qed.
(** C125: the computed location is within (5.1 F + 1.1) 2^-53 of the exact one, F - 1 *)
Theorem C125_location_error : forall a x, bfin_pt a -> bfin_pt x -> 0 < bval (fst a) -> 0 < bval (snd a) ->
  Rabs (bval (fst x) / bval (fst a)) <= p2 400 -> Rabs (bval (snd x) / bval (snd a)) <= p2 400 ->
  bfin (ell_loc_num a x) /\ Rabs (bval (ell_loc_num a x) - ell_loc (bpt a) (bpt x)) <= (5.1 * (ell_loc (bpt a) (bpt x) + 1) + 1.1) * / 2 ^ 53.
Proof.
  intros a x Fa Fx A0 A1 B0 B1. destruct (loc_err a x Fa Fx A0 A1 B0 B1) as (F & E). split; [exact F|].
  assert (Q : ell_loc (bpt a) (bpt x) = ell_form (bpt a) (bpt x) - 1) by (unfold ell_loc, ell_form; ring). rewrite Q.
  replace (ell_form (bpt a) (bpt x) - 1 + 1) with (ell_form (bpt a) (bpt x)) by ring. replace (/ 2 ^ 53) with (p2 (-53)) by reflexivity. rewrite Rmult_comm. exact E.
Qed.
Print Assumptions C125_location_error.
(** the point is on the right side, unless it is within 8 roundings of the boundary; boundary_point has the tolerance 1e-8 it promises *)
Theorem C125_sides : forall a x, bfin_pt a -> bfin_pt x -> 0 < bval (fst a) -> 0 < bval (snd a) ->
  Rabs (bval (fst x) / bval (fst a)) <= p2 400 -> Rabs (bval (snd x) / bval (snd a)) <= p2 400 ->
  let F := ell_loc (bpt a) (bpt x) in
  (8 * / 2 ^ 53 <= F -> ell_exterior_num a x = true /\ ell_interior_num a x = false) /\ (F <= - 8 * / 2 ^ 53 -> ell_interior_num a x = true /\ ell_exterior_num a x = false) /\
  (Rabs F <= 0.999998 * (1 / 100000000) -> ell_boundary_num a x = true) /\ (1.000002 * (1 / 100000000) <= Rabs F -> ell_boundary_num a x = false).
Proof.
  intros a x Fa Fx A0 A1 B0 B1 F. destruct (C125_location_error a x Fa Fx A0 A1 B0 B1) as (G & E). fold F in E. change (/ 2 ^ 53) with (p2 (-53)) in *.
  pose proof u_small as U. pose proof eta_small as Et.
  assert (F1 : 0 <= F + 1). { unfold F, ell_loc. assert (0 <= (fst (bpt x) / fst (bpt a)) ^ 2) by apply pow2_ge_0. assert (0 <= (snd (bpt x) / snd (bpt a)) ^ 2) by apply pow2_ge_0. lra. }
  unfold ell_exterior_num, ell_interior_num. cbn [nltb NumB]. rewrite zero_run, !ltb_spec by (try exact G; exact I). cbn [bval]. set (l := bval (ell_loc_num a x)) in *.
  apply Rabs_le_inv in E as (E1 & E2).
  assert (Lb : Rabs l <= p2 899).
  { assert (S : forall z, Rabs z <= p2 400 -> z ^ 2 <= p2 800) by (intros z Hz; replace 800%Z with (400 + 400)%Z by reflexivity; rewrite p2_add, <- Rsqr_pow2, Rsqr_abs; apply Rmult_le_compat; try assumption; apply Rabs_pos).
    apply S in B0, B1. assert (F2 : F + 1 <= 2 * p2 800) by (unfold F, ell_loc, bpt; cbn [fst snd]; lra).
    assert (P9 : 8 * p2 800 <= p2 899). { replace 899%Z with (800 + 99)%Z by reflexivity. rewrite p2_add. assert (8 <= p2 99) by (apply Rle_trans with (p2 3); [rewrite p2_Z by lia; simpl; lra|apply p2_le; lia]). pose proof (p2_pos 800). nra. }
    pose proof (p2_ge1 800 ltac:(lia)). assert ((5.1 * (F + 1) + 1.1) * p2 (-53) <= (5.1 * (F + 1) + 1.1) * 0.001) by (apply Rmult_le_compat_l; lra). apply Rabs_le. lra. }
  split; [|split; [|split]].
  - intros H. assert (0 < l) by nra. split; [apply Rltb_true|apply Rltb_false]; lra.
  - intros H. assert (l < 0) by nra. split; [apply Rltb_true|apply Rltb_false]; lra.
  - intros H. apply Rabs_le_inv in H. assert (K : (5.1 * (F + 1) + 1.1) * p2 (-53) <= 7 * (1 / 1000000000000000)) by (apply Rmult_le_compat; lra).
    assert (L : Rabs l <= 0.99999905 * (1 / 100000000)) by (apply Rabs_le; lra).
    apply boundary_close; [exact G|exact Lb|exact L].
  - intros H. apply boundary_close; [exact G|exact Lb|]. fold l. unfold Rabs at 1. unfold Rabs in H. destruct (Rcase_abs l), (Rcase_abs F); try lra; nra.
Qed.
Print Assumptions C125_sides.
(** a point exactly on the boundary that is reported as exterior: (5, 12) on the circle with radius 13 *)
Theorem C125_boundary_refuted : exists a x : pt b64, bfin_pt a /\ bfin_pt x /\ 0 < bval (fst a) /\ 0 < bval (snd a) /\ ell_loc (bpt a) (bpt x) = 0 /\ ell_exterior_num a x = true.
Proof.
  exists (b64_of_Z 13, b64_of_Z 13), (b64_of_Z 5, b64_of_Z 12). split; [apply fin_ptb_R; reflexivity|]. split; [apply fin_ptb_R; reflexivity|].
  unfold bpt. cbn [fst snd]. rewrite !b64q_R.
  replace (Q2R (b64q (b64_of_Z 13))) with 13 by (transitivity (Q2R 13); [unfold Q2R; cbn; lra|apply Qeq_eqR; vm_compute; reflexivity]).
  replace (Q2R (b64q (b64_of_Z 5))) with 5 by (transitivity (Q2R 5); [unfold Q2R; cbn; lra|apply Qeq_eqR; vm_compute; reflexivity]).
  replace (Q2R (b64q (b64_of_Z 12))) with 12 by (transitivity (Q2R 12); [unfold Q2R; cbn; lra|apply Qeq_eqR; vm_compute; reflexivity]).
  split; [lra|]. split; [lra|]. split; [unfold ell_loc; cbn [fst snd]; field|vm_compute; reflexivity].
Qed.
Print Assumptions C125_boundary_refuted.
Definition f3 : b64 := b64_of_Z 3.
Definition f2 : b64 := b64_of_Z 2.
Definition out_x : b64 := S754_finite false 5084563979301290 (-51).
Definition out_y : b64 := S754_finite false 5930355919408112 (-52).
(** the ellipse with axes 3 and 2: (1, 1) is inside, (3, 2) outside, and a point next to the boundary is on it for boundary_point *)
Example C125_example : let a := (f3, f2) in bfin_pt a /\ 0 < bval (fst a) /\ 0 < bval (snd a) /\
  ell_interior_num a (b64_of_Z 1, b64_of_Z 1) = true /\ ell_exterior_num a (f3, f2) = true /\ ell_boundary_num a (out_x, out_y) = true /\
  bfin_pt (out_x, out_y) /\ Rabs (bval out_x / bval f3) <= p2 400 /\ Rabs (bval out_y / bval f2) <= p2 400.
Proof.
  intros a. split; [apply fin_ptb_R; reflexivity|]. cbn [a fst snd]. rewrite !b64q_R.
  assert (E3 : Q2R (b64q f3) = 3) by (transitivity (Q2R 3); [apply Qeq_eqR; vm_compute; reflexivity|unfold Q2R; cbn; lra]).
  assert (E2 : Q2R (b64q f2) = 2) by (transitivity (Q2R 2); [apply Qeq_eqR; vm_compute; reflexivity|unfold Q2R; cbn; lra]). rewrite E3, E2.
  split; [lra|]. split; [lra|]. do 3 (split; [vm_compute; reflexivity|]). split; [apply fin_ptb_R; reflexivity|].
  assert (B : forall q, Qle_bool (b64q q) 3 = true -> Qle_bool 0 (b64q q) = true -> 0 <= Q2R (b64q q) <= 3).
  { intros q H1 H2. apply Qle_bool_iff, Qle_Rle in H1, H2. replace (Q2R 3) with 3 in H1 by (unfold Q2R; cbn; lra). rewrite Q2R_0 in H2. lra. }
  pose proof (B out_x ltac:(vm_compute; reflexivity) ltac:(vm_compute; reflexivity)). pose proof (B out_y ltac:(vm_compute; reflexivity) ltac:(vm_compute; reflexivity)). pose proof (p2_ge1 400 ltac:(lia)).
  assert (2 <= p2 400) by (rewrite <- p2_1; apply p2_le; lia). split; rewrite Rabs_pos_eq; lra.
Qed.

(** C126: for a point far enough outside the answer of tangent_points consists of two points with proper numbers. The condition on the location: a0^2 a1^2 (F - 1) >= 13 M^4 2^-53 *)
Theorem C126_proper_partial : forall M a x, 1 <= M -> M <= 1024 -> bfin_pt a -> bfin_pt x -> within M x -> / M <= bval (fst a) <= M -> / M <= bval (snd a) <= M ->
  13 * M ^ 4 * / 2 ^ 53 <= fst (bpt a) ^ 2 * snd (bpt a) ^ 2 * ell_loc (bpt a) (bpt x) ->
  (2 * (1 / 100000) <= Rabs (bval (fst x) ^ 2 - bval (fst a) ^ 2) \/ (/ M <= Rabs (bval (fst x)) /\ / M <= Rabs (bval (snd x)))) ->
  exists p q, ell_tangent_points_num b64_sqrt a x = [p; q] /\ bfin_pt p /\ bfin_pt q.
Proof.
  intros M a x M1 M2 Fa Fx Wx A0 A1 HG Hv. assert (IM : 0 < / M) by (apply Rinv_0_lt_compat; lra).
  assert (Lit : 0.99 * (1 / 100000) <= bval (@nlit b64 NumB (1 # 100000)) <= 1.01 * (1 / 100000)).
  { rewrite b64q_R. replace (0.99 * (1 / 100000)) with (Q2R (99 # 10000000)) by (unfold Q2R; cbn; lra). replace (1.01 * (1 / 100000)) with (Q2R (101 # 10000000)) by (unfold Q2R; cbn; lra).
    split; apply Qle_Rle, Qle_bool_iff; vm_compute; reflexivity. }
  unfold bpt, ell_loc in HG. cbn [fst snd] in HG. change (/ 2 ^ 53) with (p2 (-53)) in HG.
  set (px := bval (fst x)) in *. set (py := bval (snd x)) in *. set (a0 := bval (fst a)) in *. set (a1 := bval (snd a)) in *.
  assert (N0 : 0 < a0) by lra. assert (N1 : 0 < a1) by lra.
  assert (HF : a0 ^ 2 * a1 ^ 2 * ((px / a0) ^ 2 + (py / a1) ^ 2 - 1) = px * px * (a1 * a1) + py * py * (a0 * a0) - a0 * a0 * (a1 * a1)) by (field; lra).
  destruct (tangents_fin M a x M1 M2 Fa Fx Wx A0 A1 Lit) as (R1 & R2).
  { fold px py a0 a1. rewrite <- HF. replace (M * M * (M * M)) with (M ^ 4) by ring. exact HG. }
  { fold px py a0 a1. replace (px * px - a0 * a0) with (px ^ 2 - a0 ^ 2) by ring. exact Hv. }
  unfold ell_tangent_points_num. assert (Ex : ell_exterior_num a x = true).
  { assert (Sz : forall v w, Rabs v <= M -> / M <= w -> Rabs (v / w) <= p2 400).
    { intros v w Hv' Hw. unfold Rdiv. apply Rle_trans with (M * M); [apply abs_mul; [exact Hv'|]|].
      - rewrite Rabs_inv, Rabs_pos_eq by lra. rewrite <- (Rinv_inv M). apply Rinv_le_contravar; [exact IM|exact Hw].
      - apply Rle_trans with (p2 20); [rewrite p2_Z by lia; simpl; nra|apply p2_le; lia]. }
    apply (C125_sides a x Fa Fx); [exact N0|exact N1|apply Sz; [apply Wx|apply A0]|apply Sz; [apply Wx|apply A1]|].
    unfold bpt, ell_loc. cbn [fst snd]. fold px py a0 a1. change (/ 2 ^ 53) with (p2 (-53)). set (F := (px / a0) ^ 2 + (py / a1) ^ 2 - 1) in *.
    pose proof u_small as U. assert (B0 : 0 < a0 ^ 2 <= M ^ 2) by (split; [apply pow_lt; lra|apply pow_incr; lra]). assert (B1 : 0 < a1 ^ 2 <= M ^ 2) by (split; [apply pow_lt; lra|apply pow_incr; lra]).
    assert (B : 0 < a0 ^ 2 * a1 ^ 2 <= M ^ 4). { split; [apply Rmult_lt_0_compat; lra|]. replace (M ^ 4) with (M ^ 2 * M ^ 2) by ring. apply Rmult_le_compat; lra. }
    destruct (Rle_dec (8 * p2 (-53)) F) as [|C]; [assumption|exfalso]. assert (a0 ^ 2 * a1 ^ 2 * F <= M ^ 4 * (8 * p2 (-53))).
    { apply Rle_trans with (a0 ^ 2 * a1 ^ 2 * (8 * p2 (-53))); [apply Rmult_le_compat_l; lra|apply Rmult_le_compat_r; lra]. }
    assert (0 < M ^ 4 * p2 (-53)) by (apply Rmult_lt_0_compat; lra). lra. }
  rewrite Ex. cbn [negb]. destruct (ell_tangents_num b64_sqrt a x) as [t1 t2]. cbn [fst snd] in R1, R2. destruct (is_ccw x t1 t2); eauto 7.
Qed.
Print Assumptions C126_proper_partial.
(** a point outside that is reported as exterior, for which the tangent points are nan: the number under the square root is rounded to a negative one *)
Theorem C126_nan_refuted : exists a x : pt b64, bfin_pt a /\ bfin_pt x /\ 0 < bval (fst a) /\ 0 < bval (snd a) /\ 0 < ell_loc (bpt a) (bpt x) /\ ell_exterior_num a x = true /\
  ell_tangent_points_num b64_sqrt a x = [(S754_nan, S754_nan); (S754_nan, S754_nan)].
Proof.
  exists (f3, f2), (out_x, out_y). split; [apply fin_ptb_R; reflexivity|]. split; [apply fin_ptb_R; reflexivity|]. unfold bpt. cbn [fst snd]. rewrite !b64q_R.
  assert (E3 : Q2R (b64q f3) = 3) by (transitivity (Q2R 3); [apply Qeq_eqR; vm_compute; reflexivity|unfold Q2R; cbn; lra]).
  assert (E2 : Q2R (b64q f2) = 2) by (transitivity (Q2R 2); [apply Qeq_eqR; vm_compute; reflexivity|unfold Q2R; cbn; lra]).
  split; [lra|]. split; [lra|]. split; [|split; vm_compute; reflexivity]. rewrite E3, E2. unfold ell_loc. cbn [fst snd].
  assert (H : 0 < Q2R ((4 # 1) * (b64q out_x * b64q out_x) + (9 # 1) * (b64q out_y * b64q out_y) - 36)).
  { rewrite <- Q2R_0. apply Qlt_Rlt. apply Qnot_le_lt. intros H. apply Qle_bool_iff in H. vm_compute in H. discriminate. }
  rewrite Q2R_minus, Q2R_plus, !Q2R_mult in H. replace (Q2R (4 # 1)) with 4 in H by (unfold Q2R; cbn; lra). replace (Q2R (9 # 1)) with 9 in H by (unfold Q2R; cbn; lra). replace (Q2R 36) with 36 in H by (unfold Q2R; cbn; lra). lra.
Qed.
Print Assumptions C126_nan_refuted.
(** (4, 2) and the same ellipse *)
Example C126_example : let a := (f3, f2) in let x := (b64_of_Z 4, f2) in bfin_pt a /\ bfin_pt x /\ within 4 x /\ / 4 <= bval (fst a) <= 4 /\ / 4 <= bval (snd a) <= 4 /\
  13 * 4 ^ 4 * / 2 ^ 53 <= fst (bpt a) ^ 2 * snd (bpt a) ^ 2 * ell_loc (bpt a) (bpt x) /\ 2 * (1 / 100000) <= Rabs (bval (fst x) ^ 2 - bval (fst a) ^ 2).
Proof.
  intros a x. split; [apply fin_ptb_R; reflexivity|]. split; [apply fin_ptb_R; reflexivity|].
  assert (E4 : bval (b64_of_Z 4) = 4) by (rewrite b64q_R; transitivity (Q2R 4); [apply Qeq_eqR; vm_compute; reflexivity|unfold Q2R; cbn; lra]).
  assert (E3 : bval f3 = 3) by (rewrite b64q_R; transitivity (Q2R 3); [apply Qeq_eqR; vm_compute; reflexivity|unfold Q2R; cbn; lra]).
  assert (E2 : bval f2 = 2) by (rewrite b64q_R; transitivity (Q2R 2); [apply Qeq_eqR; vm_compute; reflexivity|unfold Q2R; cbn; lra]).
  unfold within, bpt, ell_loc. cbn [a x fst snd]. rewrite E4, E3, E2. rewrite !Rabs_pos_eq by lra. change (/ 2 ^ 53) with (p2 (-53)). pose proof u_small. lra.
Qed.
