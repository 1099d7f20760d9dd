(** Property C140: reference_direction and vel_intertial_frame of obstacles/starshaped_obstacle.py in binary64 arithmetic. *)
From Coq Require Import ZArith QArith Qreals Reals SpecFloat Bool Lia Lra List.
From Verif Require Import Num Spec L_Geom M_Cg L_Cg M_Motion M_Obstacle M_Float S_Float L_Float L_FloatCmp L_FloatCg L_FloatDiv L_FloatNorm L_FloatGrid L_Obstacle P_Cg P_Float P_FloatAffine M_FloatDirection L_FloatEllipse.
Import ListNotations.
Local Open Scope R_scope.

(** with real numbers and a pose of the motion model: the methods of M_Obstacle *)
Theorem C140_same_code : forall m xr x fi fo, (fi = GLOBAL \/ fi = OBSTACLE) -> (fo = GLOBAL \/ fo = OBSTACLE) -> transform m x fi fo <> transform m xr OBSTACLE fo ->
  reference_direction_num cos sin sqrt (option_map (fun m => (m_pos m, m_rot m)) m) xr x fi fo = reference_direction m xr x fi fo.
Proof.
  intros m xr x fi fo Hi Ho N. assert (Tr : forall z f f', transform_num cos sin (option_map (fun m => (m_pos m, m_rot m)) m) z f f' = transform m z f f').
  { intros z f f'. destruct m as [m|]; [|reflexivity]. cbn [option_map transform_num transform]. rewrite !affine_num_R. reflexivity. }
  unfold reference_direction_num, reference_direction. rewrite !Tr. destruct (transform m x fi fo) as [xo|]; cbn [bind]; [|reflexivity]. destruct (transform m xr OBSTACLE fo) as [q|]; cbn [bind]; [|reflexivity].
  cbv zeta. rewrite np_norm_norm. change (norm (psub xo q)) with (dist xo q). destruct (Reqb_spec (dist xo q) 0) as [Z|Z].
  - exfalso. apply N. f_equal. apply dist_zero. exact Z.
  - f_equal. unfold unit_num, norm_num, scale, psub. cbn [fst snd nadd nsub nmul ndiv NumR]. change (sqrt _) with (dist xo q). unfold Rdiv. apply pair_eq; ring.
Qed.
Print Assumptions C140_same_code.
Theorem C140_same_velocity : forall m xr x i v, lin_vel m = Vel i v -> transform (Some m) xr OBSTACLE GLOBAL <> Ret x ->
  vel_num cos sin sqrt (m_pos m, m_rot m) v (rot_vel m) xr x = vel_intertial_frame (Some m) xr x.
Proof.
  intros m xr x i v Ev N. unfold vel_num. cbn [vel_intertial_frame]. change (Some (m_pos m, m_rot m)) with (option_map (fun m => (m_pos m, m_rot m)) (Some m)).
  rewrite C140_same_code by (auto; intros E; apply N; symmetry; exact E). destruct (reference_direction (Some m) xr x GLOBAL GLOBAL) as [d|]; cbn [bind]; [|reflexivity]. rewrite Ev. f_equal. unfold padd. cbn [fst snd nadd nsub nmul NumR]. assert (Z0 : (@n0 R NumR) = 0) by (unfold n0; cbn; try unfold Q2R; cbn; lra). rewrite Z0. reflexivity.
Qed.
Print Assumptions C140_same_velocity.
Lemma abs_norm (v : Pt) : Rabs (fst v) <= norm v /\ Rabs (snd v) <= norm v.
Proof.
  destruct v as (x, y). assert (N : norm (x, y) = sqrt (x * x + y * y)) by reflexivity. rewrite N. cbn [fst snd]. pose proof (Rle_0_sqr x) as X. pose proof (Rle_0_sqr y) as Y. unfold Rsqr in X, Y.
  split; [rewrite <- (sqrt_Rsqr_abs x)|rewrite <- (sqrt_Rsqr_abs y)]; apply sqrt_le_1_alt; unfold Rsqr; lra.
Qed.
Lemma norm_abs (v : Pt) : norm v <= Rabs (fst v) + Rabs (snd v).
Proof.
  destruct v as (x, y). assert (N : norm (x, y) = sqrt (x * x + y * y)) by reflexivity. rewrite N. cbn [fst snd]. pose proof (Rabs_pos x) as X. pose proof (Rabs_pos y) as Y. rewrite <- (sqrt_Rsqr (Rabs x + Rabs y)) by lra. apply sqrt_le_1_alt. unfold Rsqr.
  assert (Rabs x * Rabs x = x * x) by (rewrite <- Rabs_mult; apply Rabs_pos_eq, Rle_0_sqr). assert (Rabs y * Rabs y = y * y) by (rewrite <- Rabs_mult; apply Rabs_pos_eq, Rle_0_sqr). pose proof (Rmult_le_pos _ _ X Y). lra.
Qed.
Local Notation u := (p2 (-53)).
Lemma quotient_err (dx n X D : R) : 0 < D -> p2 (-200) <= D -> Rabs X <= D -> Rabs (dx - X) <= u * Rabs X + p2 (-1075) -> Rabs (n - D) <= 7 * u * D + p2 (-299) -> 999 / 1000 * D <= n /\ Rabs (dx / n - X / D) <= (9 + 1 / 20) * u.
Proof.
  intros D0 D1 HX Hd Hn. pose proof u_small as (U0 & U1). assert (T1 : p2 (-299) <= u * D). { apply Rle_trans with (u * p2 (-200)); [rewrite <- p2_add; apply p2_le; lia|apply Rmult_le_compat_l; lra]. }
  assert (T2 : p2 (-1075) <= u * D / 1000). { apply Rle_trans with (p2 (-10) * (u * p2 (-200))); [rewrite <- !p2_add; apply p2_le; lia|]. change (-10)%Z with (- (10))%Z. rewrite p2_inv, p2_Z by lia. change (2 ^ 10)%Z with 1024%Z.
    assert (u * p2 (-200) <= u * D) by (apply Rmult_le_compat_l; lra). assert (0 <= u * p2 (-200)) by (apply Rmult_le_pos; [lra|left; apply p2_pos]). lra. }
  assert (UD : 0 < u * D) by (apply Rmult_lt_0_compat; lra). assert (UD1 : u * D <= 1 / 1000000000000000 * D) by (apply Rmult_le_compat_r; lra).
  assert (N8 : Rabs (n - D) <= 8 * (u * D)) by lra. assert (NL : 999 / 1000 * D <= n) by (apply L_FloatEllipse.Rabs_le_inv in N8; lra). split; [exact NL|]. assert (UX : u * Rabs X <= u * D) by (apply Rmult_le_compat_l; lra).
  replace (dx / n - X / D) with (((dx - X) * D - X * (n - D)) / (n * D)) by (field; lra).
  assert (A : Rabs ((dx - X) * D - X * (n - D)) <= (u * D + u * D / 1000) * D + D * (8 * (u * D))). { apply abs_dif; apply abs_mul; try lra. rewrite Rabs_pos_eq; lra. }
  unfold Rdiv at 1. rewrite Rabs_mult, (Rabs_pos_eq (/ (n * D))) by (left; apply Rinv_0_lt_compat, Rmult_lt_0_compat; lra).
  apply Rmult_le_reg_r with (n * D); [apply Rmult_lt_0_compat; lra|]. rewrite Rmult_assoc, Rinv_l, Rmult_1_r by (apply Rgt_not_eq, Rmult_lt_0_compat; lra).
  eapply Rle_trans; [exact A|]. apply Rle_trans with ((9 + 1 / 20) * u * (999 / 1000 * D * D)); [|apply Rmult_le_compat_l; [lra|apply Rmult_le_compat_r; lra]].
  replace ((u * D + u * D / 1000) * D + D * (8 * (u * D))) with ((9 + 1 / 1000) * (u * (D * D))) by field. replace ((9 + 1 / 20) * u * (999 / 1000 * D * D)) with ((9 + 1 / 20) * (999 / 1000) * (u * (D * D))) by ring. apply Rmult_le_compat_r; [|lra]. apply Rmult_le_pos; [lra|apply Rmult_le_pos; lra].
Qed.
(** the quotient of two given points *)
Lemma unit_err p q : bfin_pt p -> bfin_pt q -> within (p2 400) p -> within (p2 400) q -> let D := dist (bpt p) (bpt q) in p2 (-200) <= D -> let c := unit_num b64_sqrt p q in
  bfin_pt c /\ Rabs (bval (fst c) - (bval (fst p) - bval (fst q)) / D) <= 11 * u /\ Rabs (bval (snd c) - (bval (snd p) - bval (snd q)) / D) <= 11 * u.
Proof.
  intros Fp Fq Wp Wq D HD c. destruct (norm_near p q Fp Fq Wp Wq) as (Fn & Hn & _). fold D in Hn. pose proof (p2_pos (-200)) as P200. pose proof u_small as (U0 & U1). pose proof eta_small as (E0 & E1).
  set (n := norm_num b64_sqrt _) in *. assert (D0 : 0 < D) by lra.
  assert (BX : Rabs (bval (fst p) - bval (fst q)) <= D /\ Rabs (bval (snd p) - bval (snd q)) <= D) by (apply (abs_norm (vsub (bpt p) (bpt q)))).
  assert (one : forall a b, bfin a -> bfin b -> Rabs (bval a) <= p2 400 -> Rabs (bval b) <= p2 400 -> Rabs (bval a - bval b) <= D -> bfin (SFdiv 53 1024 (SFsub 53 1024 a b) n) /\ Rabs (bval (SFdiv 53 1024 (SFsub 53 1024 a b) n) - (bval a - bval b) / D) <= 11 * u).
  { intros a b Fa Fb Wa Wb B. pose proof (p2_le 400 899 ltac:(lia)) as P4. assert (P9 : 2 * p2 899 = p2 900) by (change 900%Z with (1 + 899)%Z; rewrite p2_add; change (p2 1) with (2 * 1); lra).
    destruct (sub_near a b Fa Fb) as (Fd & Nd & _); [pose proof (abs_dif _ _ _ _ Wa Wb); lra|]. set (dx := SFsub 53 1024 a b) in *. set (X := bval a - bval b) in *.
    destruct (quotient_err (bval dx) (bval n) X D D0 HD B Nd Hn) as (NL & Q). assert (QX : Rabs (X / D) <= 1). { unfold Rdiv. rewrite Rabs_mult, (Rabs_pos_eq (/ D)) by (left; apply Rinv_0_lt_compat; exact D0). apply Rmult_le_reg_r with D; [exact D0|]. rewrite Rmult_assoc, Rinv_l by lra. lra. }
    assert (QB : Rabs (bval dx / bval n) <= 1 + 10 * u). { replace (bval dx / bval n) with (X / D + (bval dx / bval n - X / D)) by ring. eapply Rle_trans; [apply Rabs_triang|]. lra. }
    destruct (div_near dx n Fd Fn) as (Fr & Nr & _); [lra| |]. { apply Rle_trans with (p2 1); [change (p2 1) with (2 * 1); lra|apply p2_le; lia]. }
    split; [exact Fr|]. match goal with |- Rabs (?r - _) <= _ => replace (r - X / D) with ((r - bval dx / bval n) + (bval dx / bval n - X / D)) by ring end. eapply Rle_trans; [apply Rabs_triang|].
    assert (u * Rabs (bval dx / bval n) <= u * (1 + 10 * u)) by (apply Rmult_le_compat_l; lra). assert (u * (10 * u) <= u * (1 / 100)) by (apply Rmult_le_compat_l; lra). lra. }
  destruct Fp as (F1 & F2), Fq as (F3 & F4), Wp as (W1 & W2), Wq as (W3 & W4), BX as (B1 & B2). destruct (one _ _ F1 F3 W1 W3 B1) as (G1 & H1). destruct (one _ _ F2 F4 W2 W4 B2) as (G2 & H2). split; [split; assumption|]. split; assumption.
Qed.
(** the exact quotient changes little when both points are moved a little *)
Lemma unit_pert (P Q P' Q' : Pt) e : 0 <= e -> Rabs (fst P - fst P') <= e -> Rabs (snd P - snd P') <= e -> Rabs (fst Q - fst Q') <= e -> Rabs (snd Q - snd Q') <= e -> 0 < dist P Q -> 0 < dist P' Q' ->
  Rabs (dist P Q - dist P' Q') <= 4 * e /\ Rabs ((fst P - fst Q) / dist P Q - (fst P' - fst Q') / dist P' Q') <= 6 * e / dist P' Q' /\ Rabs ((snd P - snd Q) / dist P Q - (snd P' - snd Q') / dist P' Q') <= 6 * e / dist P' Q'.
Proof.
  intros E0 A1 A2 B1 B2 D0 D1. set (D := dist P Q) in *. set (D' := dist P' Q') in *.
  assert (S1 : dist P P' <= 2 * e). { unfold dist. eapply Rle_trans; [apply norm_abs|]. unfold vsub. cbn [fst snd]. lra. } assert (S2 : dist Q Q' <= 2 * e). { unfold dist. eapply Rle_trans; [apply norm_abs|]. unfold vsub. cbn [fst snd]. lra. }
  assert (DD : Rabs (D - D') <= 4 * e). { apply Rabs_le. unfold D, D'. pose proof (dist_triangle P P' Q). pose proof (dist_triangle P' Q' Q). pose proof (dist_triangle P' P Q'). pose proof (dist_triangle P Q Q'). rewrite (dist_sym P' P) in *. rewrite (dist_sym Q' Q) in *. lra. }
  split; [exact DD|]. assert (big1 : Rabs (fst P - fst Q) <= D /\ Rabs (snd P - snd Q) <= D) by (apply (abs_norm (vsub P Q))).
  assert (one : forall X X', Rabs X <= D -> Rabs (X - X') <= 2 * e -> Rabs (X / D - X' / D') <= 6 * e / D').
  { intros X X' BX DX. replace (X / D - X' / D') with ((X / D * (D' - D) + (X - X')) / D') by (field; lra). unfold Rdiv at 1. rewrite Rabs_mult, (Rabs_pos_eq (/ D')) by (left; apply Rinv_0_lt_compat; exact D1). apply Rmult_le_compat_r; [left; apply Rinv_0_lt_compat; exact D1|].
    assert (QX : Rabs (X / D) <= 1). { unfold Rdiv. rewrite Rabs_mult, (Rabs_pos_eq (/ D)) by (left; apply Rinv_0_lt_compat; exact D0). apply Rmult_le_reg_r with D; [exact D0|]. rewrite Rmult_assoc, Rinv_l by lra. lra. }
    rewrite Rabs_minus_sym in DD. pose proof (abs_mul _ _ _ _ QX DD). eapply Rle_trans; [apply Rabs_triang|]. lra. }
  split; apply one; try tauto; [replace (fst P - fst Q - (fst P' - fst Q')) with ((fst P - fst P') - (fst Q - fst Q')) by ring|replace (snd P - snd Q - (snd P' - snd Q')) with ((snd P - snd P') - (snd Q - snd Q')) by ring]; [pose proof (abs_dif _ _ _ _ A1 B1)|pose proof (abs_dif _ _ _ _ A2 B2)]; lra.
Qed.
(** the pose of the motion model, as the code has it and exactly *)
Definition same_pose (M : R) (ncos nsin : b64 -> b64) (pose : option (pt b64 * b64)) (m : option mm) : Prop :=
  match pose, m with
  | None, None => True
  | Some (pos, rot), Some m' => bfin_pt pos /\ within M pos /\ bfin rot /\ trig_near ncos nsin rot /\ m_pos m' = bpt pos /\ m_rot m' = bval rot
  | _, _ => False
  end.
Lemma affine_size M x r t i : 0 <= M -> Rabs (fst x) <= M -> Rabs (snd x) <= M -> Rabs (fst t) <= M -> Rabs (snd t) <= M -> let Y := affine_transform x r t i in Rabs (fst Y) <= 4 * M /\ Rabs (snd Y) <= 4 * M.
Proof.
  intros M0 X1 X2 T1 T2 Y. assert (C : Rabs (cos r) <= 1) by (apply Rabs_le; pose proof (COS_bound r); lra). assert (S0 : Rabs (sin r) <= 1) by (apply Rabs_le; pose proof (SIN_bound r); lra).
  unfold Y, affine_transform. destruct i.
  - pose proof (abs_dif _ _ _ _ X1 T1) as D1. pose proof (abs_dif _ _ _ _ X2 T2) as D2. destruct (Reqb r 0); cbn [negb fst snd]; [lra|].
    pose proof (abs_mul _ _ _ _ C D1). pose proof (abs_mul _ _ _ _ S0 D1). pose proof (abs_mul _ _ _ _ C D2). pose proof (abs_mul _ _ _ _ S0 D2). split; (eapply Rle_trans; [apply Rabs_triang|]); rewrite ?Ropp_mult_distr_l_reverse, ?Rabs_Ropp; lra.
  - destruct (Reqb r 0); cbn [negb fst snd]; [split; (eapply Rle_trans; [apply Rabs_triang|]); lra|].
    pose proof (abs_mul _ _ _ _ C X1). pose proof (abs_mul _ _ _ _ S0 X1). pose proof (abs_mul _ _ _ _ C X2) as K3. pose proof (abs_mul _ _ _ _ S0 X2) as K4. split; (eapply Rle_trans; [apply Rabs_triang|]).
    + pose proof (abs_dif _ _ _ _ (abs_mul _ _ _ _ C X1) K4). lra.
    + pose proof (Rabs_triang (sin r * fst x) (cos r * snd x)). lra.
Qed.
Lemma transform_err M ncos nsin pose m x fi fo : 1 <= M -> M <= p2 300 -> same_pose M ncos nsin pose m -> bfin_pt x -> within M x -> (fi = GLOBAL \/ fi = OBSTACLE) -> (fo = GLOBAL \/ fo = OBSTACLE) ->
  exists y Y, transform_num ncos nsin pose x fi fo = Ret y /\ transform m (bpt x) fi fo = Ret Y /\ bfin_pt y /\ within (p2 400) y /\ Rabs (bval (fst y) - fst Y) <= 17 * M * u /\ Rabs (bval (snd y) - snd Y) <= 17 * M * u.
Proof.
  intros M1 M2 SP Fx Wx Hi Ho. pose proof u_small as (U0 & U1). assert (MU : 0 <= 17 * M * u) by (apply Rmult_le_pos; lra). assert (MU1 : 17 * M * u <= 17 * M * (1 / 1000000000000000)) by (apply Rmult_le_compat_l; lra).
  assert (B5 : 5 * M <= p2 400). { apply Rle_trans with (p2 3 * p2 300); [rewrite (p2_Z 3) by lia; change (2 ^ 3)%Z with 8%Z; lra|rewrite <- p2_add; apply p2_le; lia]. }
  assert (M400 : M <= p2 400) by lra.
  assert (Id : transform_num ncos nsin pose x fi fo = Ret x -> transform m (bpt x) fi fo = Ret (bpt x) -> exists y Y, transform_num ncos nsin pose x fi fo = Ret y /\ transform m (bpt x) fi fo = Ret Y /\ bfin_pt y /\ within (p2 400) y /\ Rabs (bval (fst y) - fst Y) <= 17 * M * u /\ Rabs (bval (snd y) - snd Y) <= 17 * M * u).
  { intros E1 E2. exists x, (bpt x). split; [exact E1|]. split; [exact E2|]. split; [exact Fx|]. destruct Wx. split; [split; lra|]. cbn [bpt fst snd]. unfold Rminus. rewrite !Rplus_opp_r, Rabs_R0. lra. }
  destruct pose as [(pos, rot)|], m as [m|]; try contradiction; [|apply Id; reflexivity]. destruct SP as (Fp & Wp & Fr & Tr & Ep & Er).
  assert (Aff : forall i, let y := affine_num ncos nsin x rot pos i in let Y := affine_transform (bpt x) (m_rot m) (m_pos m) i in bfin_pt y /\ within (p2 400) y /\ Rabs (bval (fst y) - fst Y) <= 17 * M * u /\ Rabs (bval (snd y) - snd Y) <= 17 * M * u).
  { intros i y Y. destruct (C115_transforms M ncos nsin x rot pos M1 M400 Fx Fp Fr Wx Wp Tr) as (H1 & H2). change (/ 2 ^ 53) with u in H1, H2. cbv zeta in H1, H2. assert (H : bfin_pt y /\ Rabs (bval (fst y) - fst Y) <= 17 * M * u /\ Rabs (bval (snd y) - snd Y) <= 17 * M * u).
    { unfold y, Y. rewrite Ep, Er. destruct i; [exact H2|]. destruct H1 as (F & A & B). split; [exact F|]. assert (10 * M * u <= 17 * M * u) by (apply Rmult_le_compat_r; lra). lra. }
    destruct H as (F & A & B). split; [exact F|]. destruct (affine_size M (bpt x) (m_rot m) (m_pos m) i) as (S1 & S2); [lra|apply Wx|apply Wx|rewrite Ep; apply Wp|rewrite Ep; apply Wp|]. fold Y in S1, S2.
    split; [|split; assumption]. split; [replace (bval (fst y)) with (fst Y + (bval (fst y) - fst Y)) by ring|replace (bval (snd y)) with (snd Y + (bval (snd y) - snd Y)) by ring]; (eapply Rle_trans; [apply Rabs_triang|]); lra. }
  destruct Hi as [-> | ->], Ho as [-> | ->]; try (apply Id; reflexivity); cbn [transform_num transform frame_eqb]; eexists _, _; (split; [reflexivity|]); (split; [reflexivity|]); apply Aff.
Qed.
(** the direction: each coordinate within (11 + 102 M / D) units of 2^-53, D the distance of the two points *)
Theorem C140_direction : forall M ncos nsin pose m xr x fi fo P Q, 1 <= M -> M <= p2 300 -> same_pose M ncos nsin pose m -> bfin_pt x -> within M x -> bfin_pt xr -> within M xr -> (fi = GLOBAL \/ fi = OBSTACLE) -> (fo = GLOBAL \/ fo = OBSTACLE) ->
  transform m (bpt x) fi fo = Ret P -> transform m (bpt xr) OBSTACLE fo = Ret Q -> p2 (-40) * M <= dist P Q ->
  exists d d', reference_direction_num ncos nsin b64_sqrt pose xr x fi fo = Ret d /\ reference_direction m (bpt xr) (bpt x) fi fo = Ret d' /\ bfin_pt d /\
    let E := (11 + 102 * (M / dist P Q)) * p2 (-53) in Rabs (bval (fst d) - fst d') <= E /\ Rabs (bval (snd d) - snd d') <= E.
Proof.
  intros M ncos nsin pose m xr x fi fo P Q M1 M2 SP Fx Wx Fr Wr Hi Ho EP EQ HD. pose proof u_small as (U0 & U1). pose proof (p2_pos (-40)) as P40. assert (D0 : 0 < dist P Q). { apply Rlt_le_trans with (p2 (-40) * M); [apply Rmult_lt_0_compat; lra|exact HD]. }
  destruct (transform_err M ncos nsin pose m x fi fo M1 M2 SP Fx Wx Hi Ho) as (y & Y & Ey & EY & Fy & Wy & A1 & A2). rewrite EP in EY. injection EY as <-.
  destruct (transform_err M ncos nsin pose m xr OBSTACLE fo M1 M2 SP Fr Wr (or_intror eq_refl) Ho) as (z & Z & Ez & EZ & Fz & Wz & B1 & B2). rewrite EQ in EZ. injection EZ as <-.
  set (e := 17 * M * u) in *. assert (E0 : 0 <= e) by (apply Rmult_le_pos; lra). assert (ED : 4 * e <= dist P Q / 4). { apply Rle_trans with (p2 (-42) * M); [|change (-42)%Z with (-40 + -2)%Z; rewrite p2_add; change (p2 (-2)) with (/ (2 * (2 * 1))); lra].
    unfold e. replace (4 * (17 * M * u)) with (68 * u * M) by ring. apply Rmult_le_compat_r; [lra|]. apply Rle_trans with (p2 7 * u); [rewrite (p2_Z 7) by lia; change (2 ^ 7)%Z with 128%Z; lra|rewrite <- p2_add; apply p2_le; lia]. }
  assert (DR : 3 / 4 * dist P Q <= dist (bpt y) (bpt z)). { pose proof (dist_triangle P (bpt y) Q) as T1. pose proof (dist_triangle (bpt y) (bpt z) Q) as T2. assert (dist P (bpt y) <= 2 * e). { unfold dist. eapply Rle_trans; [apply norm_abs|]. unfold vsub. cbn [fst snd bpt]. rewrite (Rabs_minus_sym (fst P)), (Rabs_minus_sym (snd P)). lra. }
    assert (dist (bpt z) Q <= 2 * e). { unfold dist. eapply Rle_trans; [apply norm_abs|]. unfold vsub. cbn [fst snd bpt]. lra. } lra. }
  assert (D200 : p2 (-200) <= dist (bpt y) (bpt z)). { apply Rle_trans with (p2 (-41) * M); [apply Rle_trans with (p2 (-41) * 1); [rewrite Rmult_1_r; apply p2_le; lia|apply Rmult_le_compat_l; [left; apply p2_pos|exact M1]]|]. change (-41)%Z with (-40 + -1)%Z. rewrite p2_add. change (p2 (-1)) with (/ (2 * 1)). lra. }
  destruct (unit_err y z Fy Fz Wy Wz D200) as (Fc & C1 & C2). destruct (unit_pert (bpt y) (bpt z) P Q e E0 A1 A2 B1 B2 ltac:(lra) D0) as (_ & G1 & G2).
  exists (unit_num b64_sqrt y z), (scale (/ np_norm (psub P Q)) (psub P Q)). split; [unfold reference_direction_num; rewrite Ey, Ez; reflexivity|].
  split; [unfold reference_direction; rewrite EP, EQ; cbn [bind]; cbv zeta; rewrite np_norm_norm; change (norm (psub P Q)) with (dist P Q); destruct (Reqb_spec (dist P Q) 0); [lra|reflexivity]|]. split; [exact Fc|].
  rewrite np_norm_norm. change (norm (psub P Q)) with (dist P Q). cbv zeta. assert (EE : (11 + 102 * (M / dist P Q)) * u = 11 * u + 6 * e / dist P Q) by (unfold e; field; lra). rewrite EE. unfold scale, psub. cbn [fst snd nsub nmul NumR].
  cbn [bpt fst snd] in G1, G2. split.
  - match goal with |- Rabs (?r - ?w) <= _ => replace (r - w) with ((r - (bval (fst y) - bval (fst z)) / dist (bpt y) (bpt z)) + ((bval (fst y) - bval (fst z)) / dist (bpt y) (bpt z) - (fst P - fst Q) / dist P Q)) by (unfold Rdiv; ring) end. eapply Rle_trans; [apply Rabs_triang|]. apply Rplus_le_compat; assumption.
  - match goal with |- Rabs (?r - ?w) <= _ => replace (r - w) with ((r - (bval (snd y) - bval (snd z)) / dist (bpt y) (bpt z)) + ((bval (snd y) - bval (snd z)) / dist (bpt y) (bpt z) - (snd P - snd Q) / dist P Q)) by (unfold Rdiv; ring) end. eapply Rle_trans; [apply Rabs_triang|]. apply Rplus_le_compat; assumption.
Qed.
Print Assumptions C140_direction.
Lemma sub_self x : bfin x -> exists s, SFsub 53 1024 x x = S754_zero s.
Proof.
  destruct x as [s|s| |s m e]; cbn [bfin]; intros F; try contradiction; [destruct s; cbn; eauto|]. unfold SFsub. rewrite Z.sub_diag. cbn [binary_normalize]. eauto.
Qed.
Lemma unit_self p : bfin_pt p -> unit_num b64_sqrt p p = (S754_nan, S754_nan).
Proof.
  intros (F1 & F2). unfold unit_num, norm_num. cbn [nsub nadd nmul ndiv NumB fst snd]. destruct (sub_self _ F1) as (s & ->). destruct (sub_self _ F2) as (s' & ->). destruct s, s'; reflexivity.
Qed.
(** for the reference point itself, given in the obstacle frame, whichever frame the direction is wanted in: not a number *)
Theorem C140_at_xr : forall M ncos nsin pose m xr fo, 1 <= M -> M <= p2 300 -> same_pose M ncos nsin pose m -> bfin_pt xr -> within M xr -> (fo = GLOBAL \/ fo = OBSTACLE) ->
  reference_direction_num ncos nsin b64_sqrt pose xr xr OBSTACLE fo = Ret (S754_nan, S754_nan).
Proof.
  intros M ncos nsin pose m xr fo M1 M2 SP F W Ho. destruct (transform_err M ncos nsin pose m xr OBSTACLE fo M1 M2 SP F W (or_intror eq_refl) Ho) as (y & Y & E & _ & Fy & _).
  unfold reference_direction_num. rewrite E. cbn [bind]. rewrite unit_self by assumption. reflexivity.
Qed.
Print Assumptions C140_at_xr.
(** the velocity, from the computed velocities of the motion model: W bounds |omega|, V the linear velocity, E the error of the direction *)
Theorem C140_velocity : forall M V W ncos nsin pose m xr x v omega Q, 1 <= M -> M <= p2 300 -> same_pose M ncos nsin (Some pose) (Some m) -> bfin_pt x -> within M x -> bfin_pt xr -> within M xr ->
  transform (Some m) (bpt xr) OBSTACLE GLOBAL = Ret Q -> p2 (-40) * M <= dist (bpt x) Q ->
  bfin_pt v -> within V v -> bfin omega -> Rabs (bval omega) <= W -> V <= p2 300 -> W <= p2 300 -> rot_vel m = bval omega -> (exists i, lin_vel m = Vel i (bpt v)) ->
  exists w w', vel_num ncos nsin b64_sqrt pose v omega xr x = Ret w /\ vel_intertial_frame (Some m) (bpt xr) (bpt x) = Ret w' /\ bfin_pt w /\
    let E := W * ((11 + 102 * (M / dist (bpt x) Q)) * p2 (-53)) + (V + 4 * W + 1) * p2 (-53) in Rabs (bval (fst w) - fst w') <= E /\ Rabs (bval (snd w) - snd w') <= E.
Proof.
  intros M V W ncos nsin pose m xr x v omega Q M1 M2 SP Fx Wx Fr Wr EQ HD (Fv1 & Fv2) (Wv1 & Wv2) Fo Wo V3 W3 Eo (i & Ev). pose proof u_small as (U0 & U1). pose proof eta_small as (T0 & T1).
  destruct (C140_direction M ncos nsin (Some pose) (Some m) xr x GLOBAL GLOBAL (bpt x) Q M1 M2 SP Fx Wx Fr Wr (or_introl eq_refl) (or_introl eq_refl) eq_refl EQ HD) as (d & d' & Ed & Ed' & (Fd1 & Fd2) & D1 & D2). cbv zeta in D1, D2.
  set (D := dist (bpt x) Q) in *. pose proof (p2_pos (-40)) as P40. assert (D0 : 0 < D). { apply Rlt_le_trans with (p2 (-40) * M); [apply Rmult_lt_0_compat; lra|exact HD]. }
  set (E := (11 + 102 * (M / D)) * u) in *. assert (E1 : 0 <= E <= 1 / 8).
  { assert (MD : 0 <= M / D <= p2 40). { split; [apply Rmult_le_pos; [lra|left; apply Rinv_0_lt_compat; exact D0]|]. apply Rmult_le_reg_r with D; [exact D0|]. unfold Rdiv. rewrite Rmult_assoc, Rinv_l, Rmult_1_r by lra. apply Rle_trans with (p2 40 * (p2 (-40) * M)); [rewrite <- Rmult_assoc, <- p2_add; change (p2 (40 + -40)) with 1; lra|apply Rmult_le_compat_l; [left; apply p2_pos|exact HD]]. }
    unfold E. split; [apply Rmult_le_pos; lra|]. apply Rle_trans with (p2 49 * u); [|rewrite <- p2_add; change (49 + -53)%Z with (-4)%Z; change (p2 (-4)) with (/ (2 * (2 * (2 * (2 * 1))))); lra].
    apply Rmult_le_compat_r; [lra|]. replace 49%Z with (9 + 40)%Z by lia. rewrite p2_add. rewrite (p2_Z 9) by lia. change (2 ^ 9)%Z with 512%Z. assert (1 <= p2 40) by (rewrite <- p2_0; apply p2_le; lia). lra. }
  assert (ND : Rabs (fst d') <= 1 /\ Rabs (snd d') <= 1).
  { unfold reference_direction in Ed'. rewrite EQ in Ed'. change (transform (Some m) (bpt x) GLOBAL GLOBAL) with (Ret (bpt x)) in Ed'. cbn [bind] in Ed'. cbv zeta in Ed'. rewrite np_norm_norm in Ed'. change (norm (psub (bpt x) Q)) with D in Ed'. destruct (Reqb_spec D 0); [lra|]. injection Ed' as <-.
    destruct (abs_norm (vsub (bpt x) Q)) as (N1 & N2). change (norm (vsub (bpt x) Q)) with D in N1, N2. unfold scale, psub. cbn [fst snd vsub nsub NumR] in *. assert (ID : 0 < / D) by (apply Rinv_0_lt_compat; exact D0).
    split; rewrite Rabs_mult, (Rabs_pos_eq (/ D)) by lra; apply Rmult_le_reg_l with D; try exact D0; rewrite <- Rmult_assoc, Rinv_r by lra; lra. }
  destruct ND as (ND1 & ND2).
  assert (W0 : 0 <= W) by (pose proof (Rabs_pos (bval omega)); lra). assert (V0 : 0 <= V) by (pose proof (Rabs_pos (bval (fst v))); lra). assert (P9 : 8 * p2 300 <= p2 900) by (replace (8 * p2 300) with (p2 303); [apply p2_le; lia|change 303%Z with (3 + 300)%Z; rewrite p2_add, (p2_Z 3) by lia; change (2 ^ 3)%Z with 8%Z; lra]).
  assert (P1 : 1 <= p2 300) by (rewrite <- p2_0; apply p2_le; lia).
  assert (Pr : forall a A, bfin a -> Rabs (bval a - A) <= E -> Rabs A <= 1 -> let z := SFmul 53 1024 omega a in bfin z /\ Rabs (bval z - bval omega * A) <= W * E + 1.13 * (W * u) + u / 1000 /\ Rabs (bval z) <= 1.2 * W + 1 / 1000).
  { intros a A Fa Da HA z. assert (Ba : Rabs (bval a) <= 9 / 8). { replace (bval a) with (A + (bval a - A)) by ring. eapply Rle_trans; [apply Rabs_triang|]. lra. } pose proof (abs_mul _ _ _ _ Wo Ba) as Bz. destruct (mul_near omega a Fo Fa) as (Fz & Nz & _); [lra|]. fold z in Fz, Nz. split; [exact Fz|].
    assert (UW : 0 <= W * u) by (apply Rmult_le_pos; lra). assert (UW1 : W * u <= W * (1 / 1000000000000000)) by (apply Rmult_le_compat_l; lra). assert (UB : u * Rabs (bval omega * bval a) <= 9 / 8 * (W * u)) by (apply Rle_trans with (u * (W * (9 / 8))); [apply Rmult_le_compat_l; lra|lra]). split.
    - replace (bval z - bval omega * A) with ((bval z - bval omega * bval a) + bval omega * (bval a - A)) by ring. eapply Rle_trans; [apply Rabs_triang|]. pose proof (abs_mul _ _ _ _ Wo Da). lra.
    - replace (bval z) with ((bval z - bval omega * bval a) + bval omega * bval a) by ring. eapply Rle_trans; [apply Rabs_triang|]. lra. }
  destruct (Pr (snd d) (snd d') Fd2 D2 ND2) as (Fz & Nz & Bz). destruct (Pr (fst d) (fst d') Fd1 D1 ND1) as (Fy & Ny & By). clear Pr. set (z := SFmul 53 1024 omega (snd d)) in *. set (y := SFmul 53 1024 omega (fst d)) in *.
  set (zero := SFmul 53 1024 (@n0 b64 NumB) n0). assert (F0 : bfin zero) by (vm_compute; reflexivity). assert (Z0 : bval zero = 0) by (vm_compute; reflexivity).
  assert (UW : 0 <= W * u) by (apply Rmult_le_pos; lra). assert (UV : 0 <= V * u) by (apply Rmult_le_pos; lra). assert (UW1 : W * u <= W * (1 / 1000000000000000)) by (apply Rmult_le_compat_l; lra).
  destruct (sub_near zero z F0 Fz) as (Fs & Ns & _); [rewrite Z0; unfold Rminus; rewrite Rplus_0_l, Rabs_Ropp; lra|]. destruct (sub_near y zero Fy F0) as (Ft & Nt & _); [rewrite Z0, Rminus_0_r; lra|]. rewrite Z0 in Ns, Nt. rewrite Rminus_0_r in Nt. unfold Rminus in Ns at 2 3. rewrite Rplus_0_l, Rabs_Ropp in Ns.
  set (s := SFsub 53 1024 zero z) in *. set (t := SFsub 53 1024 y zero) in *.
  assert (Uz : u * Rabs (bval z) <= 1.2 * (W * u) + u / 1000) by (apply Rle_trans with (u * (1.2 * W + 1 / 1000)); [apply Rmult_le_compat_l; lra|lra]). assert (Uy : u * Rabs (bval y) <= 1.2 * (W * u) + u / 1000) by (apply Rle_trans with (u * (1.2 * W + 1 / 1000)); [apply Rmult_le_compat_l; lra|lra]).
  assert (Bs : Rabs (bval s) <= 1.3 * W + 1 / 100). { replace (bval s) with ((bval s - - bval z) + - bval z) by ring. eapply Rle_trans; [apply Rabs_triang|]. rewrite Rabs_Ropp. lra. }
  assert (Bt : Rabs (bval t) <= 1.3 * W + 1 / 100). { replace (bval t) with ((bval t - bval y) + bval y) by ring. eapply Rle_trans; [apply Rabs_triang|]. lra. }
  assert (Add : forall a b, bfin a -> bfin b -> Rabs (bval a) <= V -> Rabs (bval b) <= 1.3 * W + 1 / 100 -> bfin (SFadd 53 1024 a b) /\ Rabs (bval (SFadd 53 1024 a b) - (bval a + bval b)) <= V * u + 1.3 * (W * u) + u / 50).
  { intros a b Fa Fb Ba Bb. assert (Bab : Rabs (bval a + bval b) <= V + (1.3 * W + 1 / 100)) by (eapply Rle_trans; [apply Rabs_triang|lra]). destruct (add_near a b Fa Fb) as (F & Na & _); [lra|]. split; [exact F|]. assert (u * Rabs (bval a + bval b) <= u * (V + (1.3 * W + 1 / 100))) by (apply Rmult_le_compat_l; lra). lra. }
  destruct (Add (fst v) s Fv1 Fs Wv1 Bs) as (Fa & Na). destruct (Add (snd v) t Fv2 Ft Wv2 Bt) as (Fb & Nb).
  exists (SFadd 53 1024 (fst v) s, SFadd 53 1024 (snd v) t). eexists. split; [unfold vel_num; rewrite Ed; reflexivity|]. split; [cbn [vel_intertial_frame]; rewrite Ed'; cbn [bind]; rewrite Ev, Eo; reflexivity|]. split; [split; assumption|].
  cbv zeta. unfold padd. cbn [fst snd nadd NumR bpt]. split.
  - match goal with |- Rabs (?r - ?w) <= _ => replace (r - w) with (((r - (bval (fst v) + bval s)) + (bval s - - bval z)) + - (bval z - bval omega * snd d')) by ring end. eapply Rle_trans; [apply Rabs_triang|]. rewrite Rabs_Ropp. eapply Rle_trans; [apply Rplus_le_compat_r, Rabs_triang|]. lra.
  - match goal with |- Rabs (?r - ?w) <= _ => replace (r - w) with (((r - (bval (snd v) + bval t)) + (bval t - bval y)) + (bval y - bval omega * fst d')) by ring end. eapply Rle_trans; [apply Rabs_triang|]. eapply Rle_trans; [apply Rplus_le_compat_r, Rabs_triang|]. lra.
Qed.
Print Assumptions C140_velocity.
(** *** an obstacle at (5, 6) that turns with velocity 2 and moves with velocity 3, its reference point at its centre, seen from (1, 6) *)
Example C140_example : let i z : b64 := b64_of_Z z in let pose := ((i 5%Z, i 6%Z), i 0%Z) in let m := sinus_new (Some (5, 6)) 0 false 3 1 2 1 in let x := (i 1%Z, i 6%Z) in let xr := (i 0%Z, i 0%Z) in let v := (i 3%Z, i 0%Z) in let omega := i 2%Z in
  (1 <= 8 /\ 8 <= p2 300) /\ same_pose 8 (fun _ => i 1%Z) (fun _ => i 0%Z) (Some pose) (Some m) /\ (bfin_pt x /\ within 8 x) /\ (bfin_pt xr /\ within 8 xr) /\
  transform (Some m) (bpt xr) OBSTACLE GLOBAL = Ret (5, 6) /\ p2 (-40) * 8 <= dist (bpt x) (5, 6) /\ (bfin_pt v /\ within 3 v) /\ (bfin omega /\ Rabs (bval omega) <= 2) /\ (3 <= p2 300 /\ 2 <= p2 300) /\ rot_vel m = bval omega /\ lin_vel m = Vel 0 (bpt v).
Proof.
  cbv zeta. assert (I : forall z, (-8 <= z <= 8)%Z -> bfin (b64_of_Z z) /\ bval (b64_of_Z z) = IZR z).
  { intros z Hz. assert (z = -8 \/ z = -7 \/ z = -6 \/ z = -5 \/ z = -4 \/ z = -3 \/ z = -2 \/ z = -1 \/ z = 0 \/ z = 1 \/ z = 2 \/ z = 3 \/ z = 4 \/ z = 5 \/ z = 6 \/ z = 7 \/ z = 8)%Z as C by lia.
    assert (one : forall z, bfin (b64_of_Z z) -> Qeq (b64q (b64_of_Z z)) (inject_Z z) -> bfin (b64_of_Z z) /\ bval (b64_of_Z z) = IZR z) by (intros y F Q; split; [exact F|]; rewrite b64q_R, (Qeq_eqR _ _ Q); unfold Q2R, inject_Z; cbn [Qnum Qden]; rewrite Rinv_1, Rmult_1_r; reflexivity).
    repeat destruct C as [-> | C]; try subst z; apply one; vm_compute; reflexivity. }
  destruct (I 0%Z ltac:(lia)) as (F0 & V0). destruct (I 1%Z ltac:(lia)) as (F1 & V1). destruct (I 2%Z ltac:(lia)) as (F2 & V2). destruct (I 3%Z ltac:(lia)) as (F3 & V3). destruct (I 5%Z ltac:(lia)) as (F5 & V5). destruct (I 6%Z ltac:(lia)) as (F6 & V6). clear I.
  assert (A : forall y B, 0 <= y <= B -> Rabs y <= B) by (intros y B H; rewrite Rabs_pos_eq; lra). assert (P3 : 8 <= p2 300) by (apply Rle_trans with (p2 3); [rewrite p2_Z by lia; change (2 ^ 3)%Z with 8%Z; lra|apply p2_le; lia]).
  split; [lra|]. split; [|split; [|split; [|split; [|split; [|split; [|split; [|split; [|split]]]]]]]].
  - cbn [same_pose sinus_new m_pos m_rot]. unfold bfin_pt, within, bpt, trig_near. cbn [fst snd]. rewrite V0, V1, V5, V6, cos_0, sin_0. unfold Rminus. rewrite !Rplus_opp_r, Rabs_R0. assert (0 < / 2 ^ 53) by (apply Rinv_0_lt_compat, pow_lt; lra).
    split; [auto|]. split; [split; apply A; lra|]. split; [exact F0|]. split; [repeat split; auto; lra|]. split; reflexivity.
  - unfold bfin_pt, within. cbn [fst snd]. rewrite V1, V6. split; [auto|]. split; apply A; lra.
  - unfold bfin_pt, within. cbn [fst snd]. rewrite V0. split; [auto|]. split; apply A; lra.
  - cbn [transform frame_eqb sinus_new m_rot m_pos]. rewrite affine_forward. unfold place, rotv, vadd, bpt. cbn [fst snd]. rewrite V0. f_equal. apply pair_eq; rewrite ?cos_0, ?sin_0; lra.
  - unfold bpt. cbn [fst snd]. rewrite V1, V6. rewrite (dist_eq (1, 6) (5, 6) 4) by (try lra; unfold norm2, dot, vsub; cbn [fst snd]; lra). apply Rle_trans with (p2 (- (10)) * 8); [apply Rmult_le_compat_r; [lra|apply p2_le; lia]|]. rewrite p2_inv, p2_Z by lia. change (2 ^ 10)%Z with 1024%Z. lra.
  - unfold bfin_pt, within. cbn [fst snd]. rewrite V0, V3. split; [auto|]. split; apply A; lra.
  - rewrite V2. split; [exact F2|apply A; lra].
  - lra.
  - rewrite V2. unfold rot_vel, sinus_new. cbn [m_class m_t]. rewrite Rmult_0_r, cos_0. lra.
  - unfold lin_vel, sinus_new, bpt. cbn [m_class m_t m_rot m_idx fst snd]. rewrite V0, V3, Rmult_0_r, cos_0, sin_0. f_equal. apply pair_eq; lra.
Qed.
