(** Polar coordinates. *)
From Coq Require Import Reals Lra Psatz List.
From Verif Require Import Spec L_Geom.
Open Scope R_scope.


Lemma polar_exists p : p <> (0, 0) -> exists t, 0 <= t < 2 * PI /\ p = polar (norm p) t.
Proof.
  intros Hp. pose proof (norm_pos p Hp) as Hr. pose proof (norm_sq p) as Hs.
  destruct p as [x y]. set (r := norm (x, y)) in *. unv.
  assert (Hc : -1 <= x / r <= 1).
  { split; [apply Rmult_le_reg_r with r | apply Rmult_le_reg_r with r]; auto;
    unfold Rdiv; rewrite Rmult_assoc, Rinv_l, Rmult_1_r by lra; nra. }
  pose proof (acos_bound (x / r)) as Hb.
  pose proof (cos_acos (x / r) Hc) as Hcos.
  pose proof (sin2_cos2 (acos (x / r))) as H1. unfold Rsqr in H1. rewrite Hcos in H1.
  assert (Hx : r * (x / r) = x) by (field; lra).
  pose proof PI_RGT_0.
  assert (Hs2 : (r * sin (acos (x / r))) * (r * sin (acos (x / r))) = y * y).
  { replace ((r * sin (acos (x / r))) * (r * sin (acos (x / r))))
      with (r * r * (sin (acos (x / r)) * sin (acos (x / r)))) by ring.
    replace (sin (acos (x / r)) * sin (acos (x / r))) with (1 - x / r * (x / r)) by lra.
    replace (r * r * (1 - x / r * (x / r))) with (r * r - (r * (x / r)) * (r * (x / r))) by ring.
    rewrite Hx. lra. }
  assert (Hsn : 0 <= sin (acos (x / r))) by (apply sin_ge_0; lra).
  assert (Hrs : 0 <= r * sin (acos (x / r))) by (apply Rmult_le_pos; lra).
  destruct (Rle_dec 0 y) as [Hy|Hy].
  - exists (acos (x / r)). split; [lra|]. unfold polar. rewrite Hcos, Hx.
    f_equal. nra.
  - assert (acos (x / r) <> 0).
    { intro E. rewrite E, sin_0 in Hs2. nra. }
    exists (2 * PI - acos (x / r)). split; [lra|]. unfold polar.
    replace (2 * PI - acos (x / r)) with (- acos (x / r) + 2 * PI) by ring.
    rewrite cos_plus, sin_plus, cos_2PI, sin_2PI, cos_neg, sin_neg, Hcos.
    f_equal; [lra|]. nra.
Qed.

Lemma cross_polar r1 t1 r2 t2 : cross (polar r1 t1) (polar r2 t2) = r1 * r2 * sin (t2 - t1).
Proof. unfold polar; unv. rewrite sin_minus. ring. Qed.
Lemma dot_polar r1 t1 r2 t2 : dot (polar r1 t1) (polar r2 t2) = r1 * r2 * cos (t2 - t1).
Proof. unfold polar; unv. rewrite cos_minus. ring. Qed.
Lemma polar_shift r t : polar r (t + 2 * PI) = polar r t.
Proof. unfold polar. rewrite cos_plus, sin_plus, cos_2PI, sin_2PI. f_equal; ring. Qed.
Lemma polar_shift_m r t : polar r (t - 2 * PI) = polar r t.
Proof. rewrite <- (polar_shift r (t - 2 * PI)). f_equal. ring. Qed.
Lemma norm_polar r t : 0 <= r -> norm (polar r t) = r.
Proof.
  intros. apply norm_eq; auto. pose proof (sin2_cos2 t). unfold Rsqr in *. unfold polar; unv. nra.
Qed.
Lemma polar_nonzero r t : 0 < r -> polar r t <> (0, 0).
Proof. intros H E. pose proof (norm_polar r t). rewrite E in H0.
  assert (norm (0,0) = 0). { unfold norm. replace (norm2 (0,0)) with 0 by (unv; ring). apply sqrt_0. } lra. Qed.

(** angle in the window (t0, t0 + 2 PI] or [t0, t0 + 2 PI) *)
Lemma polar_from t0 p : p <> (0, 0) -> exists t, t0 <= t < t0 + 2 * PI /\ p = polar (norm p) t.
Proof.
  intros Hp.
  assert (Hq : rotv (- t0) p <> (0, 0)).
  { intros E. apply Hp. destruct p as [x y]. unv. rewrite cos_neg, sin_neg in E.
    injection E; intros E2 E1. pose proof (sin2_cos2 t0). unfold Rsqr in *.
    f_equal.
    - transitivity (x * (sin t0 * sin t0 + cos t0 * cos t0)); [rewrite H; ring|].
      transitivity (cos t0 * (cos t0 * x - - sin t0 * y) - sin t0 * (- sin t0 * x + cos t0 * y)); [ring|].
      rewrite E1, E2; ring.
    - transitivity (y * (sin t0 * sin t0 + cos t0 * cos t0)); [rewrite H; ring|].
      transitivity (sin t0 * (cos t0 * x - - sin t0 * y) + cos t0 * (- sin t0 * x + cos t0 * y)); [ring|].
      rewrite E1, E2; ring. }
  destruct (polar_exists _ Hq) as (t & Ht & E).
  assert (Hn : norm (rotv (- t0) p) = norm p).
  { unfold norm. f_equal. pose proof (sin2_cos2 t0). unfold Rsqr in *. destruct p as [x y]; unv.
    rewrite cos_neg, sin_neg.
    replace (x * x + y * y) with ((x*x+y*y) * (sin t0 * sin t0 + cos t0 * cos t0)) by (rewrite H; ring). ring. }
  rewrite Hn in E. exists (t0 + t). split; [lra|].
  pose proof (sin2_cos2 t0) as H. unfold Rsqr in *.
  set (n := norm p) in *. clearbody n. destruct p as [x y].
  unfold polar in *; unv. rewrite cos_neg, sin_neg in E.
  injection E; intros E2 E1. rewrite cos_plus, sin_plus.
  replace (n * (cos t0 * cos t - sin t0 * sin t)) with (cos t0 * (n * cos t) - sin t0 * (n * sin t)) by ring.
  replace (n * (sin t0 * cos t + cos t0 * sin t)) with (sin t0 * (n * cos t) + cos t0 * (n * sin t)) by ring.
  rewrite <- E1, <- E2.
  f_equal.
  - transitivity (x * (sin t0 * sin t0 + cos t0 * cos t0)); [rewrite H; ring|]. ring.
  - transitivity (y * (sin t0 * sin t0 + cos t0 * cos t0)); [rewrite H; ring|]. ring.
Qed.

Lemma sin_sign_pos a : - PI < a < 2 * PI -> 0 < sin a -> 0 < a < PI.
Proof.
  intros H Hs. pose proof PI_RGT_0. split; apply Rnot_le_lt; intro.
  - assert (sin a <= 0). { replace a with (- (- a)) by ring. rewrite sin_neg.
      assert (0 <= sin (- a)) by (apply sin_ge_0; lra). lra. } lra.
  - assert (sin a <= 0) by (apply sin_le_0; lra). lra.
Qed.
