(** Property C142: distance_function and point_location of starshaped obstacles in binary64 arithmetic. *)
From Coq Require Import ZArith QArith Qreals Reals SpecFloat Bool Lia Lra List.
From Verif Require Import Num Spec L_Geom M_Cg L_Cg M_Motion M_Obstacle M_Polygon M_StarPolygon M_Float S_Float L_Float L_FloatCmp L_FloatCg L_FloatDiv L_FloatNorm L_FloatGrid L_Obstacle P_Cg P_Float L_FloatEllipse P_FloatDirection M_FloatDistance.
Import ListNotations.
Local Open Scope R_scope.
Local Notation u := (p2 (-53)).

Lemma lit_R : (@n0 R NumR) = 0 /\ (@n1 R NumR) = 1 /\ (nlit (-1) : R) = -1.
Proof. unfold n0, n1; cbn; unfold Q2R; cbn; repeat split; lra. Qed.
Lemma dist_num_R p q : dist_num sqrt p q = np_norm (psub p q).
Proof. reflexivity. Qed.
(** with real numbers: the methods of M_Obstacle and M_StarPolygon *)
Theorem C142_same_code : forall x xr b, dist b xr <> 0 -> distance_function x xr b = Ret (distance_num sqrt x xr b) /\ star_point_location x xr b = Ret (location_num sqrt x xr b).
Proof.
  intros x xr b NZ. destruct lit_R as (Z0 & Z1 & Z2). assert (E : distance_function x xr b = Ret (distance_num sqrt x xr b)).
  { unfold distance_function, distance_num, nsq. cbv zeta. rewrite !dist_num_R, !np_norm_norm. change (norm (psub b xr)) with (dist b xr). destruct (Reqb_spec (dist b xr) 0); [contradiction|]. cbn [nmul ndiv NumR]. f_equal. ring. }
  split; [exact E|]. unfold star_point_location. rewrite E. cbn [bind]. f_equal. unfold location_num, sign_num, np_sign. cbn [nltb nsub NumR]. rewrite Z0, Z1, Z2. reflexivity.
Qed.
Print Assumptions C142_same_code.
Theorem C142_same_polygon_code : forall isect s x b, sp_boundary_mapping isect s x OBSTACLE OBSTACLE = Ret (Some b) -> sp_distance_function isect s x OBSTACLE = Ret (sp_distance_num sqrt x (s_xr s) b).
Proof.
  intros isect s x b E. destruct lit_R as (Z0 & Z1 & Z2). unfold sp_distance_function. assert (T : transform (s_mm s) x OBSTACLE OBSTACLE = Ret x) by (destruct (s_mm s); reflexivity). rewrite T. cbn [bind]. rewrite E. cbn [bind]. cbv zeta.
  unfold sp_distance_num. cbv zeta. rewrite !dist_num_R. cbn [nltb nsub nadd ndiv NumR]. rewrite Z1. unfold nsq. cbn [nmul NumR]. destruct (Rltb _ _); f_equal; ring.
Qed.
Print Assumptions C142_same_polygon_code.

(** the computed distance *)
Lemma dist_err p q : bfin_pt p -> bfin_pt q -> within (p2 200) p -> within (p2 200) q -> let N := dist (bpt p) (bpt q) in let n := dist_num b64_sqrt p q in
  bfin n /\ Rabs (bval n - N) <= 7 * (u * N) + p2 (-299) /\ 0 <= N <= p2 202.
Proof.
  intros Fp Fq Wp Wq N n. assert (P : p2 200 <= p2 400) by (apply p2_le; lia). assert (Wp' : within (p2 400) p) by (destruct Wp; split; lra). assert (Wq' : within (p2 400) q) by (destruct Wq; split; lra).
  destruct (norm_near p q Fp Fq Wp' Wq') as (F & H & H0 & _). split; [exact F|]. split; [eapply Rle_trans; [exact H|right; unfold N; ring]|]. split; [exact H0|].
  unfold N, dist. eapply Rle_trans; [apply norm_abs|]. unfold vsub, bpt. cbn [fst snd]. destruct Wp as (W1 & W2), Wq as (W3 & W4). pose proof (abs_dif _ _ _ _ W1 W3). pose proof (abs_dif _ _ _ _ W2 W4). change 202%Z with (2 + 200)%Z. rewrite p2_add, (p2_Z 2) by lia. change (2 ^ 2)%Z with 4%Z. lra.
Qed.
(** squares *)
Lemma sq_err t T0 e H : bfin t -> Rabs (bval t - T0) <= e -> Rabs T0 <= H -> 0 <= e <= H / 1000 -> H <= p2 400 -> p2 (-200) <= H -> let d := SFmul 53 1024 t t in
  bfin d /\ Rabs (bval d - T0 ^ 2) <= 2.001 * (e * H) + 1.01 * (u * (H * H)).
Proof.
  intros F E B (E0 & E1) H1 H2 d. pose proof u_small as (U0 & U1). pose proof (p2_pos (-200)) as P200. assert (Bt : Rabs (bval t) <= 1.001 * H). { replace (bval t) with (T0 + (bval t - T0)) by ring. eapply Rle_trans; [apply Rabs_triang|]. lra. }
  assert (HH : 0 < H * H) by (apply Rmult_lt_0_compat; lra). assert (Bq : Rabs (bval t * bval t) <= 1.003 * (H * H)). { eapply Rle_trans; [apply (abs_mul _ _ _ _ Bt Bt)|]. lra. }
  assert (H9 : 1.003 * (H * H) <= p2 900). { apply Rle_trans with (2 * (p2 400 * p2 400)); [assert (H * H <= p2 400 * p2 400) by (apply Rmult_le_compat; lra); lra|]. rewrite <- p2_add. assert (p2 900 = 2 * p2 899) by (change 900%Z with (1 + 899)%Z; rewrite p2_add; change (p2 1) with (2 * 1); lra). assert (p2 (400 + 400) <= p2 899) by (apply p2_le; lia). lra. }
  destruct (mul_near t t F F) as (Fd & Nd & _); [lra|]. fold d in Fd, Nd. split; [exact Fd|].
  assert (TH : p2 (-1075) <= u * (H * H) / 1000). { apply Rle_trans with (p2 (-10) * (u * (p2 (-200) * p2 (-200)))); [rewrite <- !p2_add; apply p2_le; lia|]. change (-10)%Z with (- (10))%Z. rewrite p2_inv, p2_Z by lia. change (2 ^ 10)%Z with 1024%Z. assert (p2 (-200) * p2 (-200) <= H * H) by (apply Rmult_le_compat; lra). assert (u * (p2 (-200) * p2 (-200)) <= u * (H * H)) by (apply Rmult_le_compat_l; lra). assert (0 <= u * (H * H)) by (apply Rmult_le_pos; lra). lra. }
  assert (UHH : 0 <= u * (H * H)) by (apply Rmult_le_pos; lra). assert (UQ : u * Rabs (bval t * bval t) <= u * (1.003 * (H * H))) by (apply Rmult_le_compat_l; lra).
  assert (S1 : Rabs (bval t + T0) <= 2.001 * H) by (eapply Rle_trans; [apply Rabs_triang|lra]). pose proof (abs_mul _ _ _ _ E S1) as PR.
  replace (bval d - T0 ^ 2) with ((bval d - bval t * bval t) + (bval t - T0) * (bval t + T0)) by ring. eapply Rle_trans; [apply Rabs_triang|]. lra.
Qed.
(** quotients of distances *)
Lemma ratio_err n r N R0 : bfin n -> bfin r -> Rabs (bval n - N) <= 7 * (u * N) + p2 (-299) -> Rabs (bval r - R0) <= 7 * (u * R0) + p2 (-299) -> 0 <= N <= p2 202 -> p2 (-100) <= R0 <= p2 202 ->
  let q := SFdiv 53 1024 n r in let H := N / R0 + p2 (-100) in bfin q /\ Rabs (bval q - N / R0) <= 16.1 * (u * H) /\ 0 <= N / R0 /\ H <= p2 400.
Proof.
  intros Fn Fr En Er (N0 & N1) (R1 & R2) q H. pose proof u_small as (U0 & U1). pose proof (p2_pos (-100)) as P100. assert (D0 : 0 < R0) by lra. set (Q := N / R0) in *. assert (EN : N = Q * R0) by (unfold Q; field; lra).
  assert (Q0 : 0 <= Q) by (unfold Q, Rdiv; apply Rmult_le_pos; [lra|left; apply Rinv_0_lt_compat; lra]).
  assert (Q1 : Q <= p2 302). { apply Rmult_le_reg_r with R0; [lra|]. rewrite <- EN. apply Rle_trans with (p2 302 * p2 (-100)); [rewrite <- p2_add; exact N1|apply Rmult_le_compat_l; [left; apply p2_pos|lra]]. }
  assert (H4 : H <= p2 400). { assert (p2 (-100) <= p2 302) by (apply p2_le; lia). assert (2 * p2 302 = p2 303) by (change 303%Z with (1 + 302)%Z; rewrite p2_add; change (p2 1) with (2 * 1); lra). assert (p2 303 <= p2 400) by (apply p2_le; lia). unfold H. lra. }
  assert (HP : 0 < H) by (unfold H; lra). assert (UH : 0 < u * H) by (apply Rmult_lt_0_compat; lra). assert (UR : 0 < u * R0) by (apply Rmult_lt_0_compat; lra).
  assert (T1 : p2 (-299) <= u * R0 / 1000). { apply Rle_trans with (p2 (-10) * (u * p2 (-100))); [rewrite <- !p2_add; apply p2_le; lia|]. change (-10)%Z with (- (10))%Z. rewrite p2_inv, p2_Z by lia. change (2 ^ 10)%Z with 1024%Z. assert (u * p2 (-100) <= u * R0) by (apply Rmult_le_compat_l; lra). assert (0 <= u * p2 (-100)) by (apply Rmult_le_pos; lra). lra. }
  assert (T2 : p2 (-299) <= u * H * R0 / 1000). { apply Rle_trans with (p2 (-10) * (u * p2 (-100) * p2 (-100))); [rewrite <- !p2_add; apply p2_le; lia|]. change (-10)%Z with (- (10))%Z. rewrite p2_inv, p2_Z by lia. change (2 ^ 10)%Z with 1024%Z. assert (G : u * p2 (-100) * p2 (-100) <= u * H * R0). { apply Rmult_le_compat; try lra; [apply Rmult_le_pos; lra|]. apply Rmult_le_compat_l; [lra|]. unfold H. lra. } assert (0 <= u * p2 (-100) * p2 (-100)) by (apply Rmult_le_pos; [apply Rmult_le_pos|]; lra). lra. }
  assert (UR1 : u * R0 <= 1 / 1000000000000000 * R0) by (apply Rmult_le_compat_r; lra). assert (RL : 0.999 * R0 <= bval r) by (apply L_FloatEllipse.Rabs_le_inv in Er; lra).
  assert (QH : Q <= H) by (unfold H; lra). assert (UHR : 0 < u * H * R0) by (apply Rmult_lt_0_compat; lra).
  assert (A : Rabs (bval n / bval r - Q) <= 15.03 * (u * H)).
  { replace (bval n / bval r - Q) with (((bval n - N) - Q * (bval r - R0)) / bval r) by (rewrite EN; field; lra). unfold Rdiv. rewrite Rabs_mult, (Rabs_pos_eq (/ bval r)) by (left; apply Rinv_0_lt_compat; lra). apply Rmult_le_reg_r with (bval r); [lra|]. rewrite Rmult_assoc, Rinv_l, Rmult_1_r by lra.
    assert (G1 : Rabs (Q * (bval r - R0)) <= 7.001 * (u * H * R0)). { rewrite Rabs_mult, (Rabs_pos_eq Q) by lra. apply Rle_trans with (H * (7.001 * (u * R0))); [apply Rmult_le_compat; try lra; apply Rabs_pos|]. right; ring. }
    assert (G2 : u * N <= u * H * R0). { rewrite EN. replace (u * (Q * R0)) with (u * Q * R0) by ring. apply Rmult_le_compat_r; [lra|]. apply Rmult_le_compat_l; lra. }
    eapply Rle_trans; [apply Rabs_triang|]. rewrite Rabs_Ropp. apply Rle_trans with (15.03 * (u * H) * (0.999 * R0)); [|apply Rmult_le_compat_l; lra]. replace (15.03 * (u * H) * (0.999 * R0)) with (15.03 * 0.999 * (u * H * R0)) by ring. lra. }
  assert (UH1 : u * H <= 1 / 1000000000000000 * H) by (apply Rmult_le_compat_r; lra).
  assert (B : Rabs (bval n / bval r) <= 1.001 * H). { replace (bval n / bval r) with (Q + (bval n / bval r - Q)) by ring. eapply Rle_trans; [apply Rabs_triang|]. rewrite (Rabs_pos_eq Q) by lra. lra. }
  destruct (div_near n r Fn Fr) as (Fq & Nq & _); [lra| |]. { assert (1.001 * H <= 2 * p2 400) by lra. assert (2 * p2 400 = p2 401) by (change 401%Z with (1 + 400)%Z; rewrite p2_add; change (p2 1) with (2 * 1); lra). assert (p2 401 <= p2 900) by (apply p2_le; lia). lra. }
  fold q in Fq, Nq. split; [exact Fq|]. split; [|split; [exact Q0|exact H4]].
  assert (T3 : p2 (-1075) <= u * H / 1000). { apply Rle_trans with (p2 (-10) * (u * p2 (-100))); [rewrite <- !p2_add; apply p2_le; lia|]. change (-10)%Z with (- (10))%Z. rewrite p2_inv, p2_Z by lia. change (2 ^ 10)%Z with 1024%Z. assert (u * p2 (-100) <= u * H) by (apply Rmult_le_compat_l; [lra|unfold H; lra]). assert (0 <= u * p2 (-100)) by (apply Rmult_le_pos; lra). lra. }
  assert (UB : u * Rabs (bval n / bval r) <= u * (1.001 * H)) by (apply Rmult_le_compat_l; lra).
  replace (bval q - Q) with ((bval q - bval n / bval r) + (bval n / bval r - Q)) by ring. eapply Rle_trans; [apply Rabs_triang|]. lra.
Qed.
Lemma square_ratio n r N R0 : bfin n -> bfin r -> Rabs (bval n - N) <= 7 * (u * N) + p2 (-299) -> Rabs (bval r - R0) <= 7 * (u * R0) + p2 (-299) -> 0 <= N <= p2 202 -> p2 (-100) <= R0 <= p2 202 ->
  let q := SFdiv 53 1024 n r in let d := SFmul 53 1024 q q in bfin d /\ Rabs (bval d - (N / R0) ^ 2) <= 34 * ((N / R0) ^ 2 + p2 (-90)) * u.
Proof.
  intros Fn Fr En Er N0 R1 q d. destruct (ratio_err n r N R0 Fn Fr En Er N0 R1) as (Fq & Eq & Q0 & H4). fold q in Fq, Eq. set (Q := N / R0) in *. set (w := p2 (-100)) in *. pose proof u_small as (U0 & U1). assert (W0 : 0 < w) by apply p2_pos. set (H := Q + w) in *.
  assert (HP : 0 < H) by (unfold H; lra). assert (UH : 0 < u * H) by (apply Rmult_lt_0_compat; lra). assert (UH1 : u * H <= 1 / 1000000000000000 * H) by (apply Rmult_le_compat_r; lra).
  assert (H2 : p2 (-200) <= H) by (apply Rle_trans with w; [apply p2_le; lia|unfold H; lra]).
  destruct (sq_err q Q (16.1 * (u * H)) H Fq Eq) as (Fd & Ed); try assumption; [rewrite Rabs_pos_eq; unfold H; lra|lra|]. fold d in Fd, Ed. split; [exact Fd|]. eapply Rle_trans; [exact Ed|].
  assert (HH : H * H <= 1.001 * (Q ^ 2 + p2 (-90))).
  { assert (W1 : 1024 * w <= p2 (-90)) by (right; unfold w; change (-90)%Z with (10 + -100)%Z; rewrite p2_add, (p2_Z 10) by lia; change (2 ^ 10)%Z with 1024%Z; reflexivity). assert (W2 : w <= 1 / 1000000) by (apply Rle_trans with (p2 (- (20))); [apply p2_le; lia|rewrite p2_inv, p2_Z by lia; change (2 ^ 20)%Z with 1048576%Z; lra]).
    assert (S1 : 2 * Q <= Q ^ 2 + 1) by (pose proof (pow2_ge_0 (Q - 1)); lra). assert (S2 : 2 * Q * w <= (Q ^ 2 + 1) * w) by (apply Rmult_le_compat_r; lra). assert (S3 : Q ^ 2 * w <= Q ^ 2 * (1 / 1000000)) by (apply Rmult_le_compat_l; [apply pow2_ge_0|lra]). assert (S4 : w * w <= w * (1 / 1000000)) by (apply Rmult_le_compat_l; lra).
    pose proof (pow2_ge_0 Q). replace (H * H) with (Q ^ 2 + 2 * Q * w + w * w) by (unfold H; ring). lra. }
  assert (UHH : u * (H * H) <= u * (1.001 * (Q ^ 2 + p2 (-90)))) by (apply Rmult_le_compat_l; lra). assert (0 <= u * (Q ^ 2 + p2 (-90))) by (apply Rmult_le_pos; [lra|pose proof (pow2_ge_0 Q); pose proof (p2_pos (-90)); lra]).
  replace (16.1 * (u * H) * H) with (16.1 * (u * (H * H))) by ring. lra.
Qed.
(** distance_function of StarshapedObstacle *)
Theorem C142_distance : forall x xr b, bfin_pt x -> bfin_pt xr -> bfin_pt b -> within (p2 200) x -> within (p2 200) xr -> within (p2 200) b -> p2 (-100) <= dist (bpt b) (bpt xr) ->
  let d := distance_num b64_sqrt x xr b in exists D, distance_function (bpt x) (bpt xr) (bpt b) = Ret D /\ bfin d /\ Rabs (bval d - D) <= 34 * (D + p2 (-90)) * p2 (-53).
Proof.
  intros x xr b Fx Fr Fb Wx Wr Wb HD d. destruct (dist_err x xr Fx Fr Wx Wr) as (Fn & En & N0). destruct (dist_err b xr Fb Fr Wb Wr) as (Fl & El & _ & L1). pose proof (p2_pos (-100)).
  destruct (square_ratio _ _ _ _ Fn Fl En El N0 (conj HD L1)) as (Fd & Ed). exists ((dist (bpt x) (bpt xr) / dist (bpt b) (bpt xr)) ^ 2). split; [unfold distance_function; cbv zeta; rewrite !np_norm_norm; change (norm (psub (bpt b) (bpt xr))) with (dist (bpt b) (bpt xr)); destruct (Reqb_spec (dist (bpt b) (bpt xr)) 0); [exfalso; lra|reflexivity]|]. split; [exact Fd|exact Ed].
Qed.
Print Assumptions C142_distance.
(** point_location of StarshapedObstacle: only within 36 2^-53 of the border can it err *)
Theorem C142_location : forall x xr b, bfin_pt x -> bfin_pt xr -> bfin_pt b -> within (p2 200) x -> within (p2 200) xr -> within (p2 200) b -> p2 (-100) <= dist (bpt b) (bpt xr) ->
  let D := (dist (bpt x) (bpt xr) / dist (bpt b) (bpt xr)) ^ 2 in 36 * p2 (-53) <= Rabs (D - 1) -> star_point_location (bpt x) (bpt xr) (bpt b) = Ret (bval (location_num b64_sqrt x xr b)).
Proof.
  intros x xr b Fx Fr Fb Wx Wr Wb HD D Far. pose proof u_small as (U0 & U1). pose proof (p2_pos (-100)). destruct (C142_distance x xr b Fx Fr Fb Wx Wr Wb HD) as (D' & ED & Fd & Ed). unfold star_point_location. rewrite ED. cbn [bind]. f_equal.
  assert (L : distance_function (bpt x) (bpt xr) (bpt b) = Ret D) by (unfold distance_function; cbv zeta; rewrite !np_norm_norm; change (norm (psub (bpt b) (bpt xr))) with (dist (bpt b) (bpt xr)); destruct (Reqb_spec (dist (bpt b) (bpt xr)) 0); [exfalso; lra|reflexivity]).
  rewrite L in ED. assert (EQ := f_equal (fun r => match r with Ret z => z | _ => 0 end) ED). cbv beta iota in EQ. subst D'. clear ED L.
  set (d := distance_num b64_sqrt x xr b) in *. assert (D0 : 0 <= D) by apply pow2_ge_0.
  assert (L0 : bfin (@n0 b64 NumB) /\ bval (@n0 b64 NumB) = 0) by (split; [exact I|reflexivity]). assert (L1 : bfin (@n1 b64 NumB) /\ bval (@n1 b64 NumB) = 1). { split; [vm_compute; reflexivity|]. assert (Q1 : Qeq (b64q (@n1 b64 NumB)) 1) by (vm_compute; reflexivity). rewrite b64q_R, (Qeq_eqR _ _ Q1). unfold Q2R. cbn. lra. }
  assert (L2 : bval (nlit (-1) : b64) = -1). { assert (Q1 : Qeq (b64q (nlit (-1) : b64)) (-1)) by (vm_compute; reflexivity). rewrite b64q_R, (Qeq_eqR _ _ Q1). unfold Q2R. cbn. lra. } destruct L0 as (F0 & V0), L1 as (F1 & V1).
  assert (P90 : p2 (-90) <= 1 / 1000000). { apply Rle_trans with (p2 (- (20))); [apply p2_le; lia|]. rewrite p2_inv, p2_Z by lia. change (2 ^ 20)%Z with 1048576%Z. lra. }
  assert (P9 : u * p2 (-90) <= u * (1 / 1000000)) by (apply Rmult_le_compat_l; lra). assert (UD : 0 <= u * D) by (apply Rmult_le_pos; lra). assert (UD1 : u * D <= 1 / 1000000000000000 * D) by (apply Rmult_le_compat_r; lra). apply L_FloatEllipse.Rabs_le_inv in Ed.
  assert (side : (1 + u <= bval d /\ 1 < D) \/ (bval d <= 1 - u /\ D < 1)).
  { unfold Rabs in Far. destruct (Rcase_abs (D - 1)).
    - right. assert (u * D <= u * 1) by (apply Rmult_le_compat_l; lra). lra.
    - left. assert (UF : u * (36 * u) <= u * (1 / 1000000)) by (apply Rmult_le_compat_l; lra). split; [|lra]. set (y := D - 1) in *. assert (EY : D = 1 + y) by (unfold y; ring). rewrite EY in Ed. assert (u * y <= 1 / 1000000000000000 * y) by (apply Rmult_le_compat_r; lra). lra. }
  assert (B : Rabs (bval d - 1) <= p2 900).
  { assert (DM : D <= p2 700). { destruct (dist_err x xr Fx Fr Wx Wr) as (_ & _ & N0 & N1). unfold D. assert (Q1 : 0 <= dist (bpt x) (bpt xr) / dist (bpt b) (bpt xr) <= p2 302). { split; [unfold Rdiv; apply Rmult_le_pos; [lra|left; apply Rinv_0_lt_compat; lra]|]. apply Rmult_le_reg_r with (dist (bpt b) (bpt xr)); [lra|]. unfold Rdiv. rewrite Rmult_assoc, Rinv_l, Rmult_1_r by lra. apply Rle_trans with (p2 302 * p2 (-100)); [rewrite <- p2_add; exact N1|apply Rmult_le_compat_l; [left; apply p2_pos|lra]]. }
      set (q := dist (bpt x) (bpt xr) / dist (bpt b) (bpt xr)) in *. replace (q ^ 2) with (q * q) by ring. apply Rle_trans with (p2 302 * p2 302); [apply Rmult_le_compat; lra|rewrite <- p2_add; apply p2_le; lia]. }
    assert (1 <= p2 700) by (rewrite <- p2_0; apply p2_le; lia). assert (4 * p2 700 <= p2 900) by (replace (4 * p2 700) with (p2 702); [apply p2_le; lia|change 702%Z with (2 + 700)%Z; rewrite p2_add, (p2_Z 2) by lia; change (2 ^ 2)%Z with 4%Z; ring]). apply Rabs_le. lra. }
  rewrite <- V1 in B. destruct (sub_near d n1 Fd F1 B) as (Fs & Ns & _). rewrite V1 in Ns. unfold location_num, sign_num, np_sign. fold d. cbn [nltb nsub NumB]. match type of Ns with context [Rabs (bval ?z - (bval d - 1))] => set (s := z) in * end. match goal with |- context [SFltb _ ?z] => change z with s end. rewrite !ltb_spec by assumption. rewrite V0.
  assert (E1 : p2 (-1075) <= u / 1000). { apply Rle_trans with (p2 (- (10)) * u); [rewrite <- p2_add; apply p2_le; lia|]. rewrite p2_inv, p2_Z by lia. change (2 ^ 10)%Z with 1024%Z. lra. } pose proof (p2_pos (-1075)) as E0.
  destruct side as [(S1 & S2)|(S1 & S2)].
  - rewrite (Rabs_pos_eq (bval d - 1)) in Ns by lra. assert (u * (bval d - 1) <= 1 / 1000 * (bval d - 1)) by (apply Rmult_le_compat_r; lra). apply L_FloatEllipse.Rabs_le_inv in Ns. destruct (Rltb_spec 0 (D - 1)); [|lra]. destruct (Rltb_spec 0 (bval s)); [|lra]. symmetry. exact V1.
  - rewrite (Rabs_left (bval d - 1)) in Ns by lra. assert (u * - (bval d - 1) <= 1 / 1000 * - (bval d - 1)) by (apply Rmult_le_compat_r; lra). apply L_FloatEllipse.Rabs_le_inv in Ns. destruct (Rltb_spec 0 (D - 1)); [lra|]. destruct (Rltb_spec 0 (bval s)); [lra|]. destruct (Rltb_spec (D - 1) 0); [|lra]. destruct (Rltb_spec (bval s) 0); [|lra]. symmetry. exact L2.
Qed.
Print Assumptions C142_location.
(** distance_function of StarshapedPolygon: N is the distance of the point, L that of the border; also when rounding takes the other case *)
Theorem C142_polygon_distance : forall x xr b, bfin_pt x -> bfin_pt xr -> bfin_pt b -> within (p2 200) x -> within (p2 200) xr -> within (p2 200) b -> p2 (-100) <= dist (bpt b) (bpt xr) ->
  let d := sp_distance_num b64_sqrt x xr b in let N := dist (bpt x) (bpt xr) in let L := dist (bpt b) (bpt xr) in
  bfin d /\ (N < L -> Rabs (bval d - (N / L) ^ 2) <= 80 * (1 + N + L) ^ 2 * p2 (-53)) /\ (L <= N -> Rabs (bval d - (N - L + 1) ^ 2) <= 80 * (1 + N + L) ^ 2 * p2 (-53)).
Proof.
  intros x xr b Fx Fr Fb Wx Wr Wb HL d N L. pose proof u_small as (U0 & U1). pose proof (p2_pos (-100)) as P100. destruct (dist_err x xr Fx Fr Wx Wr) as (Fn & En & N0 & N1). destruct (dist_err b xr Fb Fr Wb Wr) as (Fl & El & _ & L1). fold N in En, N0, N1. fold L in El, L1, HL.
  unfold d, sp_distance_num. cbv zeta. cbn [nltb NumB]. set (n := dist_num b64_sqrt x xr) in *. set (r := dist_num b64_sqrt b xr) in *. rewrite ltb_spec by assumption. clear d. unfold nsq. cbn [nmul ndiv nsub nadd NumB].
  set (W := 1 + N + L). assert (W1 : 1 <= W) by (unfold W; lra). assert (L0 : 0 < L) by lra. assert (WW : 1 <= W * W) by (apply Rle_trans with (1 * 1); [lra|apply Rmult_le_compat; lra]). assert (WL : W <= W * W) by (apply Rle_trans with (1 * W); [lra|apply Rmult_le_compat_r; lra]).
  assert (TU : p2 (-299) <= u * L / 1000). { apply Rle_trans with (p2 (-10) * (u * p2 (-100))); [rewrite <- !p2_add; apply p2_le; lia|]. change (-10)%Z with (- (10))%Z. rewrite p2_inv, p2_Z by lia. change (2 ^ 10)%Z with 1024%Z. assert (u * p2 (-100) <= u * L) by (apply Rmult_le_compat_l; lra). assert (0 <= u * p2 (-100)) by (apply Rmult_le_pos; lra). lra. }
  assert (EE : p2 (-1075) <= u / 1000). { apply Rle_trans with (p2 (- (10)) * u); [rewrite <- p2_add; apply p2_le; lia|]. rewrite p2_inv, p2_Z by lia. change (2 ^ 10)%Z with 1024%Z. lra. }
  assert (UN : 0 <= u * N) by (apply Rmult_le_pos; lra). assert (UL : 0 < u * L) by (apply Rmult_lt_0_compat; lra). assert (UN1 : u * N <= 1 / 1000000000000000 * N) by (apply Rmult_le_compat_r; lra). assert (UL1 : u * L <= 1 / 1000000000000000 * L) by (apply Rmult_le_compat_r; lra).
  assert (UW : u * W = u + u * N + u * L) by (unfold W; ring). assert (UWW : u * W <= u * (W * W)) by (apply Rmult_le_compat_l; lra). assert (UWW1 : u <= u * W) by lra.
  pose proof (L_FloatEllipse.Rabs_le_inv _ _ En) as En'. pose proof (L_FloatEllipse.Rabs_le_inv _ _ El) as El'.
  replace (80 * W ^ 2 * u) with (80 * (u * (W * W))) by ring. set (Q := N / L). assert (EQ : N = Q * L) by (unfold Q; field; lra). assert (Q0 : 0 <= Q) by (unfold Q, Rdiv; apply Rmult_le_pos; [lra|left; apply Rinv_0_lt_compat; lra]).
  assert (P90 : p2 (-90) <= 1 / 1000000). { apply Rle_trans with (p2 (- (20))); [apply p2_le; lia|]. rewrite p2_inv, p2_Z by lia. change (2 ^ 20)%Z with 1048576%Z. lra. } assert (P9 : u * p2 (-90) <= u * (1 / 1000000)) by (apply Rmult_le_compat_l; lra).
  assert (near1 : Rabs (N - L) <= 7.1 * (u * N + u * L) -> Rabs (Q ^ 2 - 1) <= 29 * u /\ Rabs ((N - L + 1) ^ 2 - 1) <= 15 * (u * (W * W))).
  { intros C. assert (Q1 : Q <= 2). { apply L_FloatEllipse.Rabs_le_inv in C. apply Rmult_le_reg_r with L; [lra|]. rewrite <- EQ. lra. }
    assert (C2 : Rabs (Q - 1) <= 14.3 * u). { assert (ED : Q - 1 = (N - L) * / L) by (unfold Q; field; lra). rewrite ED, Rabs_mult, (Rabs_pos_eq (/ L)) by (left; apply Rinv_0_lt_compat; lra). apply Rmult_le_reg_r with L; [lra|]. rewrite Rmult_assoc, Rinv_l, Rmult_1_r by lra. apply L_FloatEllipse.Rabs_le_inv in C. assert (NL : N <= 1.001 * L) by lra. assert (u * N <= u * (1.001 * L)) by (apply Rmult_le_compat_l; lra). apply Rabs_le. lra. }
    split.
    - replace (Q ^ 2 - 1) with ((Q - 1) * (Q + 1)) by ring. assert (B2 : Rabs (Q + 1) <= 2.001). { apply L_FloatEllipse.Rabs_le_inv in C2. apply Rabs_le. lra. } pose proof (abs_mul _ _ _ _ C2 B2). lra.
    - replace ((N - L + 1) ^ 2 - 1) with ((N - L) * (N - L + 2)) by ring. assert (C3 : Rabs (N - L) <= 7.1 * (u * W)) by lra. assert (B2 : Rabs (N - L + 2) <= 2.001 * W). { apply L_FloatEllipse.Rabs_le_inv in C. assert (N + L <= W) by (unfold W; lra). apply Rabs_le. lra. } pose proof (abs_mul _ _ _ _ C3 B2). replace (7.1 * (u * W) * (2.001 * W)) with (7.1 * 2.001 * (u * (W * W))) in H by ring. assert (0 <= u * (W * W)) by lra. lra. }
  assert (UWp : 0 <= u * (W * W)) by lra.
  destruct (Rltb_spec (bval n) (bval r)) as [C|C].
  - destruct (square_ratio n r N L Fn Fl En El (conj N0 N1) (conj HL L1)) as (Fd & Ed). fold Q in Ed. set (d := SFmul 53 1024 _ _) in *. split; [exact Fd|]. split; intros O.
    + assert (Q1 : Q <= 1) by (apply Rmult_le_reg_r with L; [lra|]; rewrite <- EQ; lra). assert (QQ : Q ^ 2 <= 1) by (replace (Q ^ 2) with (Q * Q) by ring; apply Rle_trans with (1 * 1); [apply Rmult_le_compat; lra|lra]). assert (UQ : u * Q ^ 2 <= u * 1) by (apply Rmult_le_compat_l; lra). eapply Rle_trans; [exact Ed|]. lra.
    + destruct near1 as (C1 & C2); [apply Rabs_le; lra|]. assert (QQ : Q ^ 2 <= 1 + 29 * u) by (apply L_FloatEllipse.Rabs_le_inv in C1; lra). assert (UQ : u * Q ^ 2 <= u * 1.001) by (apply Rmult_le_compat_l; lra).
      replace (bval d - (N - L + 1) ^ 2) with ((bval d - Q ^ 2) + ((Q ^ 2 - 1) - ((N - L + 1) ^ 2 - 1))) by ring. eapply Rle_trans; [apply Rabs_triang|]. pose proof (abs_dif _ _ _ _ C1 C2). lra.
  - assert (WM : W <= p2 204). { assert (1 <= p2 202) by (rewrite <- p2_0; apply p2_le; lia). assert (p2 204 = 4 * p2 202) by (change 204%Z with (2 + 202)%Z; rewrite p2_add, (p2_Z 2) by lia; change (2 ^ 2)%Z with 4%Z; reflexivity). unfold W. lra. }
    assert (P9' : 2 * p2 204 <= p2 400) by (replace (2 * p2 204) with (p2 205); [apply p2_le; lia|change 205%Z with (1 + 204)%Z; rewrite p2_add; change (p2 1) with (2 * 1); ring]). assert (P99 : p2 400 <= p2 900) by (apply p2_le; lia).
    assert (Bs : Rabs (bval n - bval r) <= 1.001 * (N + L)) by (apply Rabs_le; lra).
    destruct (sub_near n r Fn Fl) as (Fs & Ns & _); [unfold W in *; lra|]. set (s := SFsub 53 1024 n r) in *. assert (Us : u * Rabs (bval n - bval r) <= u * (1.001 * (N + L))) by (apply Rmult_le_compat_l; lra).
    assert (Es : Rabs (bval s - (N - L)) <= 8.1 * (u * W)). { replace (bval s - (N - L)) with ((bval s - (bval n - bval r)) + ((bval n - N) - (bval r - L))) by ring. eapply Rle_trans; [apply Rabs_triang|]. pose proof (abs_dif _ _ _ _ En El). lra. }
    assert (V1 : bfin (@n1 b64 NumB) /\ bval (@n1 b64 NumB) = 1). { split; [vm_compute; reflexivity|]. assert (Q1 : Qeq (b64q (@n1 b64 NumB)) 1) by (vm_compute; reflexivity). rewrite b64q_R, (Qeq_eqR _ _ Q1). unfold Q2R. cbn. lra. } destruct V1 as (F1 & V1).
    assert (UW1 : u * W <= 1 / 1000000000000000 * W) by (apply Rmult_le_compat_r; lra).
    assert (Bt : Rabs (bval s + bval (@n1 b64 NumB)) <= 1.001 * W). { rewrite V1. apply L_FloatEllipse.Rabs_le_inv in Es. unfold W in *. apply Rabs_le. lra. }
    destruct (add_near s n1 Fs F1) as (Ft & Nt & _); [lra|]. match type of Nt with context [Rabs (bval ?z - _)] => set (t := z) in * end. assert (Ut : u * Rabs (bval s + bval (@n1 b64 NumB)) <= u * (1.001 * W)) by (apply Rmult_le_compat_l; lra).
    assert (Et : Rabs (bval t - (N - L + 1)) <= 9.2 * (u * W)). { replace (bval t - (N - L + 1)) with ((bval t - (bval s + bval (@n1 b64 NumB))) + (bval s - (N - L))) by (rewrite V1; ring). eapply Rle_trans; [apply Rabs_triang|]. lra. }
    assert (BT : Rabs (N - L + 1) <= W) by (unfold W; apply Rabs_le; lra).
    destruct (sq_err t (N - L + 1) (9.2 * (u * W)) W Ft Et BT) as (Fd & Ed); [lra|lra|apply Rle_trans with 1; [rewrite <- p2_0; apply p2_le; lia|exact W1]|].
    match goal with |- bfin ?z /\ _ => change z with (SFmul 53 1024 t t) end. set (d := SFmul 53 1024 t t) in *. replace (9.2 * (u * W) * W) with (9.2 * (u * (W * W))) in Ed by ring. split; [exact Fd|]. split; intros O.
    + destruct near1 as (C1 & C2); [apply Rabs_le; lra|]. replace (bval d - Q ^ 2) with ((bval d - (N - L + 1) ^ 2) + (((N - L + 1) ^ 2 - 1) - (Q ^ 2 - 1))) by ring. eapply Rle_trans; [apply Rabs_triang|]. pose proof (abs_dif _ _ _ _ C2 C1). lra.
    + eapply Rle_trans; [exact Ed|]. lra.
Qed.
Print Assumptions C142_polygon_distance.
(** when boundary_mapping answers with the point itself: exactly 1, and location 0 *)
Theorem C142_border : forall x xr, bfin_pt x -> bfin_pt xr -> within (p2 200) x -> within (p2 200) xr -> p2 (-100) <= dist (bpt x) (bpt xr) ->
  bval (distance_num b64_sqrt x xr x) = 1 /\ bval (sp_distance_num b64_sqrt x xr x) = 1 /\ bval (location_num b64_sqrt x xr x) = 0.
Proof.
  intros x xr Fx Fr Wx Wr HD. pose proof u_small as (U0 & U1). pose proof (p2_pos (-100)) as P100. destruct (dist_err x xr Fx Fr Wx Wr) as (Fn & En & N0 & N1). set (N := dist (bpt x) (bpt xr)) in *. unfold location_num, distance_num, sp_distance_num. cbv zeta. set (n := dist_num b64_sqrt x xr) in *.
  assert (UN : u * N <= 1 / 1000000000000000 * N) by (apply Rmult_le_compat_r; lra). assert (TU : p2 (-299) <= N / 1000). { apply Rle_trans with (p2 (-10) * p2 (-100)); [rewrite <- p2_add; apply p2_le; lia|]. change (-10)%Z with (- (10))%Z. rewrite p2_inv, p2_Z by lia. change (2 ^ 10)%Z with 1024%Z. lra. }
  assert (NP : 0 < bval n) by (apply L_FloatEllipse.Rabs_le_inv in En; lra). assert (P1 : 4 <= p2 900) by (apply Rle_trans with (p2 2); [rewrite p2_Z by lia; change (2 ^ 2)%Z with 4%Z; lra|apply p2_le; lia]). assert (Z53 : (Z.abs 1 < 2 ^ 53)%Z /\ (Z.abs 0 < 2 ^ 53)%Z) by (split; reflexivity). destruct Z53 as (Z1 & Z0).
  assert (V1 : bfin (@n1 b64 NumB) /\ bval (@n1 b64 NumB) = 1). { split; [vm_compute; reflexivity|]. assert (Q1 : Qeq (b64q (@n1 b64 NumB)) 1) by (vm_compute; reflexivity). rewrite b64q_R, (Qeq_eqR _ _ Q1). unfold Q2R. cbn. lra. } destruct V1 as (F1 & V1). assert (E1 : 1 = IZR 1 * p2 (- 0)) by (change (p2 (- 0)) with 1; ring). assert (E0 : 0 = IZR 0 * p2 (- 0)) by ring.
  assert (sq : forall t, bfin t -> bval t = 1 -> bfin (SFmul 53 1024 t t) /\ bval (SFmul 53 1024 t t) = 1). { intros t F V. destruct (mul_near t t F F) as (Fd & _ & X); [rewrite V, Rmult_1_r, Rabs_R1; lra|]. split; [exact Fd|]. rewrite V, Rmult_1_r in X. apply (X 1%Z 0%Z); [lia|exact Z1|exact E1]. }
  assert (Q : bfin (SFdiv 53 1024 n n) /\ bval (SFdiv 53 1024 n n) = 1). { assert (EQ : bval n / bval n = 1) by (field; lra). destruct (div_near n n Fn Fn) as (Fq & _ & X); [lra|rewrite EQ, Rabs_R1; lra|]. rewrite EQ in X. split; [exact Fq|]. apply (X 1%Z 0%Z); [lia|exact Z1|exact E1]. }
  destruct Q as (Fq & Vq). destruct (sq _ Fq Vq) as (Fd & Vd). unfold nsq. cbn [nltb nmul ndiv nsub nadd NumB].
  assert (S1 : bfin (SFsub 53 1024 n n) /\ bval (SFsub 53 1024 n n) = 0). { destruct (sub_self n Fn) as (s & ->). split; [exact I|reflexivity]. } destruct S1 as (Fs & Vs).
  split; [exact Vd|]. split.
  - rewrite ltb_spec by assumption. destruct (Rltb_spec (bval n) (bval n)); [lra|]. destruct (add_near (SFsub 53 1024 n n) n1 Fs F1) as (Ft & _ & X); [rewrite Vs, V1, Rplus_0_l, Rabs_R1; lra|]. rewrite Vs, V1, Rplus_0_l in X. apply sq; [exact Ft|]. apply (X 1%Z 0%Z); [lia|exact Z1|exact E1].
  - unfold sign_num. cbn [nltb NumB]. destruct (sub_near (SFmul 53 1024 (SFdiv 53 1024 n n) (SFdiv 53 1024 n n)) n1 Fd F1) as (Ft & _ & X); [rewrite Vd, V1, Rminus_diag_eq, Rabs_R0 by reflexivity; lra|]. rewrite Vd, V1, Rminus_diag_eq in X by reflexivity. specialize (X 0%Z 0%Z ltac:(lia) Z0 E0).
    rewrite !ltb_spec by (exact I || exact Ft). match goal with |- context [Rltb (bval ?a) (bval ?b)] => assert (Va : bval a = 0) by reflexivity; assert (Vb : bval b = 0) by exact X; rewrite Va, Vb end. destruct (Rltb_spec 0 0); [lra|]. reflexivity.
Qed.
Print Assumptions C142_border.
(** *** the point (3, 4) seen from (0, 0), the border at (6, 8): 1/4 *)
Example C142_example : let i z : b64 := b64_of_Z z in let x := (i 3%Z, i 4%Z) in let xr := (i 0%Z, i 0%Z) in let b := (i 6%Z, i 8%Z) in
  (bfin_pt x /\ bfin_pt xr /\ bfin_pt b) /\ (within (p2 200) x /\ within (p2 200) xr /\ within (p2 200) b) /\ dist (bpt x) (bpt xr) = 5 /\ dist (bpt b) (bpt xr) = 10 /\ p2 (-100) <= 10 /\ 36 * p2 (-53) <= Rabs ((5 / 10) ^ 2 - 1) /\
  distance_num b64_sqrt x xr b = nlit (1 # 4) /\ sp_distance_num b64_sqrt b xr x = i 36%Z /\ location_num b64_sqrt b xr x = i 1%Z.
Proof.
  cbv zeta. assert (one : forall z, bfin (b64_of_Z z) -> Qeq (b64q (b64_of_Z z)) (inject_Z z) -> bfin (b64_of_Z z) /\ bval (b64_of_Z z) = IZR z) by (intros y F Q; split; [exact F|]; rewrite b64q_R, (Qeq_eqR _ _ Q); unfold Q2R, inject_Z; cbn [Qnum Qden]; rewrite Rinv_1, Rmult_1_r; reflexivity).
  destruct (one 0%Z) as (F0 & V0); try (vm_compute; reflexivity). destruct (one 3%Z) as (F3 & V3); try (vm_compute; reflexivity). destruct (one 4%Z) as (F4 & V4); try (vm_compute; reflexivity). destruct (one 6%Z) as (F6 & V6); try (vm_compute; reflexivity). destruct (one 8%Z) as (F8 & V8); try (vm_compute; reflexivity). clear one.
  assert (P4 : 16 <= p2 200) by (apply Rle_trans with (p2 4); [rewrite p2_Z by lia; change (2 ^ 4)%Z with 16%Z; lra|apply p2_le; lia]). assert (A : forall y, 0 <= y <= 8 -> Rabs y <= p2 200) by (intros y H; rewrite Rabs_pos_eq; lra).
  unfold bfin_pt, within, bpt. cbn [fst snd]. rewrite V0, V3, V4, V6, V8. split; [auto|]. split; [repeat split; apply A; lra|]. split; [apply dist_eq; [lra|unfold norm2, dot, vsub; cbn [fst snd]; lra]|]. split; [apply dist_eq; [lra|unfold norm2, dot, vsub; cbn [fst snd]; lra]|].
  split; [apply Rle_trans with (p2 0); [apply p2_le; lia|rewrite p2_0; lra]|]. split; [|repeat split; vm_compute; reflexivity]. pose proof u_small as (U0 & U1). rewrite Rabs_left by lra. lra.
Qed.
