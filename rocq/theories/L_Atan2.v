(** arctan2 is the polar angle in (-PI, PI]. *)
From Coq Require Import Reals Lra Psatz List Bool.
From Verif Require Import Num Spec M_Cg M_ConePolygon L_Geom L_Polar.
Open Scope R_scope.

Lemma atan_cos_pos a : 0 < cos (atan a).
Proof. destruct (atan_bound a). apply cos_gt_0; lra. Qed.
Lemma atan_sin a : sin (atan a) = a * cos (atan a).
Proof.
  pose proof (tan_atan a) as H. unfold tan in H. pose proof (atan_cos_pos a).
  rewrite <- H at 2. field. lra.
Qed.
Lemma polar_atan x y : 0 < x -> (x, y) = polar (norm (x, y)) (atan (y / x)).
Proof.
  intros Hx. set (k := y / x). assert (Hy : y = k * x) by (unfold k; field; lra).
  pose proof (atan_cos_pos k) as Hc. pose proof (atan_sin k) as Hs.
  pose proof (sin2_cos2 (atan k)) as H1. unfold Rsqr in H1. rewrite Hs in H1.
  assert (Hn : norm (x, y) = x / cos (atan k)).
  { apply norm_eq.
    - apply Rmult_le_pos; [lra|]. left; apply Rinv_0_lt_compat; auto.
    - unv. rewrite Hy. 
      replace (x / cos (atan k) * (x / cos (atan k))) with (x * x * 1 / (cos (atan k) * cos (atan k))) by (field; lra).
      rewrite <- H1. field. lra. }
  rewrite Hn. unfold polar. rewrite Hs. apply pair_eq.
  - field. lra.
  - rewrite Hy. field. lra.
Qed.
Lemma norm_neg x y : norm (- x, - y) = norm (x, y).
Proof. unfold norm. f_equal. unv. ring. Qed.
Lemma arctan2_polar x y : (x, y) = polar (norm (x, y)) (arctan2 y x).
Proof.
  unfold arctan2. destruct (Rltb_spec 0 x) as [Hx|Hx]; [apply polar_atan; auto|].
  destruct (Rltb_spec x 0) as [Hx'|Hx'].
  - assert (E : (- x, - y) = polar (norm (x, y)) (atan (y / x))).
    { rewrite <- norm_neg. replace (y / x) with (- y / - x) by (field; lra). apply polar_atan. lra. }
    unfold polar in *. injection E; intros E2 E1.
    destruct (Rleb_spec 0 y).
    + rewrite neg_cos, neg_sin. apply pair_eq; lra.
    + rewrite cos_minus, sin_minus, cos_PI, sin_PI. apply pair_eq; lra.
  - assert (x = 0) by lra. subst x. unfold polar.
    destruct (Rltb_spec 0 y) as [Hy|Hy].
    + rewrite cos_PI2, sin_PI2. replace (norm (0, y)) with y.
      * apply pair_eq; ring.
      * symmetry. apply norm_eq; [lra|]. unv; ring.
    + destruct (Rltb_spec y 0) as [Hy'|Hy'].
      * rewrite cos_neg, sin_neg, cos_PI2, sin_PI2. replace (norm (0, y)) with (- y).
        -- apply pair_eq; ring.
        -- symmetry. apply norm_eq; [lra|]. unv; ring.
      * assert (y = 0) by lra. subst y. replace (norm (0, 0)) with 0.
        -- apply pair_eq; ring.
        -- symmetry. apply norm_eq; [lra|]. unv; ring.
Qed.
Lemma arctan2_bound x y : - PI < arctan2 y x <= PI.
Proof.
  pose proof PI_RGT_0. unfold arctan2.
  pose proof (atan_bound (y / x)) as [B1 B2].
  destruct (Rltb_spec 0 x) as [Hx|Hx]; [lra|].
  destruct (Rltb_spec x 0) as [Hx'|Hx'].
  - destruct (Rleb_spec 0 y).
    + split; [lra|]. assert (atan (y / x) <= 0); [|lra].
      rewrite <- atan_0. destruct (Req_dec y 0) as [->|].
      * unfold Rdiv. rewrite Rmult_0_l. lra.
      * left. apply atan_increasing. unfold Rdiv. assert (/ x < 0) by (apply Rinv_lt_0_compat; auto). nra.
    + split; [|lra]. assert (0 < atan (y / x)); [|lra].
      rewrite <- atan_0. apply atan_increasing. unfold Rdiv.
      assert (/ x < 0) by (apply Rinv_lt_0_compat; auto). nra.
  - destruct (Rltb_spec 0 y), (Rltb_spec y 0); lra.
Qed.
