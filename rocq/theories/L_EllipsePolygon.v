(** The polygon representation of an ellipse. *)
From Coq Require Import Reals Lra Psatz Lia List Bool Arith.
From Verif Require Import Num Spec M_Cg M_Motion M_Obstacle M_Ellipse L_Geom L_Polar L_Cg L_Hull L_Gen L_Motion L_Obstacle L_Ellipse.
Import ListNotations.
Open Scope R_scope.

Lemma cos_series x n : rsum (map (fun k => cos (INR k * x)) (seq 0 n)) * (2 * sin (x / 2)) = sin (INR n * x - x / 2) + sin (x / 2).
Proof.
  induction n as [|n IH].
  - cbn [seq map rsum fold_right]. cbn [INR]. replace (0 * x - x / 2) with (- (x / 2)) by ring. rewrite sin_neg. ring.
  - rewrite seq_S, map_app, rsum_app, Rmult_plus_distr_r, IH. cbn [map plus]. unfold rsum. cbn [fold_right]. rewrite Rplus_0_r.
    rewrite S_INR. set (u := INR n * x).
    replace ((INR n + 1) * x - x / 2) with (u + x / 2) by (unfold u; field). rewrite sin_plus, sin_minus. ring.
Qed.
Lemma sin_series x n : rsum (map (fun k => sin (INR k * x)) (seq 0 n)) * (2 * sin (x / 2)) = cos (x / 2) - cos (INR n * x - x / 2).
Proof.
  induction n as [|n IH].
  - cbn [seq map rsum fold_right]. cbn [INR]. replace (0 * x - x / 2) with (- (x / 2)) by ring. rewrite cos_neg. ring.
  - rewrite seq_S, map_app, rsum_app, Rmult_plus_distr_r, IH. cbn [map plus]. unfold rsum. cbn [fold_right]. rewrite Rplus_0_r.
    rewrite S_INR. set (u := INR n * x).
    replace ((INR n + 1) * x - x / 2) with (u + x / 2) by (unfold u; field). rewrite cos_plus, cos_minus. ring.
Qed.
Lemma wsum_const w l : wsum (map (fun _ => w) l) l = smul w (psum l).
Proof. induction l as [|p l IH]; cbn [map wsum]; [unfold psum, smul; cbn; apply pair_eq; ring|]. rewrite IH. unfold psum, smul, vadd. cbn [fold_right fst snd]. apply pair_eq; ring. Qed.
Lemma psum_map {A} (f : A -> Pt) l : psum (map f l) = (rsum (map (fun k => fst (f k)) l), rsum (map (fun k => snd (f k)) l)).
Proof. induction l as [|x l IH]; [reflexivity|]. unfold psum in *. cbn [map fold_right]. rewrite IH. unfold vadd, rsum. cbn [fold_right map fst snd]. reflexivity. Qed.
Lemma rsum_const {A} (w : R) (l : list A) : rsum (map (fun _ => w) l) = INR (length l) * w.
Proof. induction l as [|x l IH]; cbn [map length]; [cbn; ring|]. rewrite S_INR. unfold rsum in *. cbn [fold_right]. rewrite IH. ring. Qed.
Lemma rsum_scale k f (l : list nat) : rsum (map (fun i => k * f i) l) = k * rsum (map f l).
Proof. induction l as [|x l IH]; cbn [map]; [cbn; ring|]. unfold rsum in *. cbn [fold_right]. rewrite IH. ring. Qed.

Section Poly.
Variable a : Pt.
Variable n : nat.
Hypothesis Hn : (3 <= n)%nat.
Hypothesis A0 : 0 < fst a.
Hypothesis A1 : 0 < snd a.
Let X := 2 * PI / INR n.
Let V (k : nat) : Pt := ((fst a + 1 / 1000) * cos (INR k * X), (snd a + 1 / 1000) * sin (INR k * X)).

Lemma nR : 3 <= INR n.
Proof. replace 3 with (INR 3) by (cbn; lra). apply le_INR. exact Hn. Qed.
Lemma Xb : 0 < X /\ X <= 2 * PI / 3 /\ X / 2 = PI / INR n /\ INR n * X = 2 * PI.
Proof.
  pose proof nR. pose proof PI_RGT_0. unfold X. split; [apply Rdiv_lt_0_compat; lra|]. split; [|split; field; lra].
  apply Rmult_le_reg_r with (INR n); [lra|]. replace (2 * PI / INR n * INR n) with (2 * PI) by (field; lra). nra.
Qed.
Lemma Vin k : (k < n)%nat -> In (V k) (ell_polygon a n).
Proof. intros H. unfold ell_polygon. apply in_map_iff. exists k. split; [reflexivity|]. apply in_seq. lia. Qed.
Lemma Vwrap : V n = V 0.
Proof. unfold V. destruct Xb as (_ & _ & _ & E). rewrite E. cbn [INR]. rewrite Rmult_0_l, cos_2PI, sin_2PI, cos_0, sin_0. reflexivity. Qed.
Lemma Vin' k : (k <= n)%nat -> In (V k) (ell_polygon a n).
Proof. intros H. destruct (Nat.eq_dec k n) as [->|]; [rewrite Vwrap; apply Vin; lia|apply Vin; lia]. Qed.

Lemma origin_in : in_hull (ell_polygon a n) (0, 0).
Proof.
  pose proof nR. destruct Xb as (P & Q & H2 & NX).
  exists (map (fun _ => / INR n) (ell_polygon a n)). split; [apply map_length|]. split; [|split].
  - apply Forall_forall. intros w Hw. apply in_map_iff in Hw. destruct Hw as (_ & <- & _). left. apply Rinv_0_lt_compat. lra.
  - rewrite rsum_const. unfold ell_polygon. rewrite map_length, seq_length. field. lra.
  - rewrite wsum_const. unfold ell_polygon. rewrite psum_map. cbn [fst snd]. fold X.
    assert (S : 0 < sin (X / 2)) by (apply sin_gt_0; pose proof PI_RGT_0; lra).
    pose proof (cos_series X n) as C. pose proof (sin_series X n) as D. rewrite NX in C, D.
    rewrite sin_minus, sin_2PI, cos_2PI in C. rewrite cos_minus, sin_2PI, cos_2PI in D.
    assert (C0 : rsum (map (fun k => cos (INR k * X)) (seq 0 n)) = 0) by (apply Rmult_eq_reg_r with (2 * sin (X / 2)); lra).
    assert (D0 : rsum (map (fun k => sin (INR k * X)) (seq 0 n)) = 0) by (apply Rmult_eq_reg_r with (2 * sin (X / 2)); lra).
    rewrite (rsum_scale (fst a + 1 / 1000) (fun k => cos (INR k * X))), (rsum_scale (snd a + 1 / 1000) (fun k => sin (INR k * X))), C0, D0.
    unfold smul. cbn [fst snd]. apply pair_eq; ring.
Qed.
Lemma hull_comb p q al be : in_hull (ell_polygon a n) p -> in_hull (ell_polygon a n) q -> 0 <= al -> 0 <= be -> al + be <= 1 ->
  in_hull (ell_polygon a n) (vadd (smul al p) (smul be q)).
Proof.
  intros Hp Hq Ha Hb Hs. destruct (Req_dec (al + be) 0) as [Z|Z].
  - replace al with 0 by lra. replace be with 0 by lra. replace (vadd (smul 0 p) (smul 0 q)) with ((0, 0) : Pt); [apply origin_in|].
    unfold vadd, smul. cbn [fst snd]. apply pair_eq; ring.
  - apply (in_hull_convex (ell_polygon a n) (0, 0) (vadd (smul (al / (al + be)) p) (smul (be / (al + be)) q))); [apply origin_in| |].
    + apply (in_hull_convex (ell_polygon a n) p q); auto. exists (be / (al + be)). split.
      * split; [apply Rmult_le_pos; [lra|left; apply Rinv_0_lt_compat; lra]|]. apply Rmult_le_reg_r with (al + be); [lra|]. replace (be / (al + be) * (al + be)) with be by (field; lra). lra.
      * unfold along, vadd, smul, vsub. destruct p, q. cbn [fst snd]. apply pair_eq; field; lra.
    + exists (al + be). split; [lra|]. unfold along, vadd, smul, vsub. destruct p, q. cbn [fst snd]. apply pair_eq; field; lra.
Qed.

Lemma covers y : ell_form (fst a + 1 / 1000, snd a + 1 / 1000) y <= cos (PI / INR n) ^ 2 -> in_hull (ell_polygon a n) y.
Proof.
  intros H. pose proof nR. pose proof PI_RGT_0. destruct Xb as (XP & XQ & XH & NX).
  set (A := (fst a + 1 / 1000, snd a + 1 / 1000)) in *.
  set (u := scaled A y). assert (Y : y = (fst A * fst u, snd A * snd u)).
  { unfold u, scaled, A. cbn [fst snd]. destruct y. cbn [fst snd]. apply pair_eq; field; lra. }
  destruct (Req_dec (norm u) 0) as [Z|Z].
  { apply norm_zero in Z. rewrite Y, Z. cbn [fst snd]. rewrite !Rmult_0_r. apply origin_in. }
  assert (U : u <> (0, 0)). { intros E. rewrite E in Z. apply Z. unfold norm, norm2, dot. cbn. rewrite !Rmult_0_l, Rplus_0_l. apply sqrt_0. }
  destruct (polar_exists u U) as (th & Hth & E). set (r := norm u) in *. pose proof (norm_pos u U) as RP. fold r in RP.
  (* sector *)
  assert (SEC : exists k, (k < n)%nat /\ INR k * X <= th < INR k * X + X).
  { assert (G : forall m, (m <= n)%nat -> th < INR m * X -> exists k, (k < n)%nat /\ INR k * X <= th < INR k * X + X).
    { induction m as [|m IH]; intros Hm Ht; [cbn [INR] in Ht; lra|]. destruct (Rlt_dec th (INR m * X)) as [L|L]; [apply IH; [lia|exact L]|].
      exists m. split; [lia|]. rewrite S_INR in Ht. lra. }
    apply (G n); [lia|]. rewrite NX. lra. }
  destruct SEC as (k & Hk & T1 & T2). set (ph := th - INR k * X) in *.
  assert (PH : 0 <= ph < X) by (unfold ph; lra).
  assert (CP : 0 < cos (X / 2)) by (apply cos_gt_0; lra).
  assert (SP : 0 < sin (X / 2)) by (apply sin_gt_0; lra).
  assert (SX : sin X = 2 * sin (X / 2) * cos (X / 2)) by (replace X with (2 * (X / 2)) at 1 by field; apply sin_2a).
  assert (SXP : 0 < sin X) by (rewrite SX; nra).
  set (al := r * sin (X - ph) / sin X). set (be := r * sin ph / sin X).
  assert (AL : 0 <= al) by (unfold al; apply Rmult_le_pos; [apply Rmult_le_pos; [lra|apply sin_ge_0; lra]|left; apply Rinv_0_lt_compat; lra]).
  assert (BE : 0 <= be) by (unfold be; apply Rmult_le_pos; [apply Rmult_le_pos; [lra|apply sin_ge_0; lra]|left; apply Rinv_0_lt_compat; lra]).
  assert (RC : r <= cos (X / 2)).
  { apply sq_le; [lra|]. unfold r. rewrite norm_sq. unfold u. rewrite scaled_form. rewrite XH. lra. }
  assert (SUM : al + be <= 1).
  { assert (S : sin (X - ph) + sin ph = 2 * sin (X / 2) * cos (X / 2 - ph)).
    { set (w := X / 2 - ph). replace (X - ph) with (X / 2 + w) by (unfold w; field). replace ph with (X / 2 - w) by (unfold w; ring). clearbody w.
      rewrite sin_plus, sin_minus. ring. }
    unfold al, be. replace (r * sin (X - ph) / sin X + r * sin ph / sin X) with (r * (sin (X - ph) + sin ph) / sin X) by (field; lra).
    rewrite S, SX. replace (r * (2 * sin (X / 2) * cos (X / 2 - ph)) / (2 * sin (X / 2) * cos (X / 2))) with (r * cos (X / 2 - ph) / cos (X / 2)) by (field; lra).
    apply Rmult_le_reg_r with (cos (X / 2)); [lra|]. replace (r * cos (X / 2 - ph) / cos (X / 2) * cos (X / 2)) with (r * cos (X / 2 - ph)) by (field; lra).
    pose proof (COS_bound (X / 2 - ph)). nra. }
  replace y with (vadd (smul al (V k)) (smul be (V (S k)))).
  - apply hull_comb; auto; apply in_hull_mem; apply Vin'; lia.
  - rewrite Y, E. unfold V, polar, vadd, smul, A. cbn [fst snd]. rewrite S_INR.
    replace ((INR k + 1) * X) with (INR k * X + X) by ring.
    replace th with (INR k * X + ph) by (unfold ph; ring). set (w := INR k * X).
    rewrite !cos_plus, !sin_plus. unfold al, be. rewrite sin_minus. apply pair_eq; field; lra.
Qed.

(** the tangent at an edge midpoint separates *)
Lemma cos_step k : (k < n)%nat -> cos (INR k * X - PI / INR n) <= cos (PI / INR n).
Proof.
  intros Hk. pose proof nR. pose proof PI_RGT_0. destruct Xb as (XP & XQ & XH & NX). rewrite <- XH.
  destruct k as [|k].
  - cbn [INR]. replace (0 * X - X / 2) with (- (X / 2)) by ring. rewrite cos_neg. lra.
  - rewrite S_INR. assert (K : INR k + 1 <= INR n - 1).
    { rewrite <- S_INR. replace (INR n - 1) with (INR (n - 1)) by (rewrite minus_INR by lia; cbn; ring). apply le_INR. lia. }
    pose proof (pos_INR k).
    assert (L : X / 2 <= (INR k + 1) * X - X / 2) by nra. assert (U : (INR k + 1) * X - X / 2 <= 2 * PI - X / 2) by nra.
    destruct (Rle_dec ((INR k + 1) * X - X / 2) PI) as [C|C].
    + apply cos_decr_1; lra.
    + replace (cos ((INR k + 1) * X - X / 2)) with (cos (2 * PI - ((INR k + 1) * X - X / 2))) by (rewrite cos_minus, cos_2PI, sin_2PI; ring).
      apply cos_decr_1; lra.
Qed.
Lemma hull_bound y : fst a = snd a -> in_hull (ell_polygon a n) y ->
  fst y * cos (PI / INR n) + snd y * sin (PI / INR n) <= (fst a + 1 / 1000) * cos (PI / INR n).
Proof.
  intros Ea Hy. set (p := PI / INR n). set (m := (fst a + 1 / 1000) * cos p).
  set (u := (m * cos p, m * sin p)). set (v := (m * cos p - sin p, m * sin p + cos p)).
  assert (AR : forall q, area2 u v q = m - (fst q * cos p + snd q * sin p)).
  { intros [q1 q2]. unfold u, v, area2, cross, vsub. cbn [fst snd].
    replace ((m * cos p - sin p - m * cos p) * (q2 - m * sin p) - (m * sin p + cos p - m * sin p) * (q1 - m * cos p))
      with (m * (sin p * sin p + cos p * cos p) - (sin p * q2 + cos p * q1)) by ring.
    pose proof (sin2_cos2 p) as S. unfold Rsqr in S. rewrite S. ring. }
  assert (0 <= area2 u v y); [|rewrite AR in H; lra].
  apply (area_hull u v (ell_polygon a n)); [|exact Hy]. intros q Hq. rewrite AR.
  unfold ell_polygon in Hq. apply in_map_iff in Hq. destruct Hq as (k & <- & Hk). apply in_seq in Hk. cbn [fst snd]. fold X.
  pose proof (cos_step k ltac:(lia)) as C. rewrite cos_minus in C. fold p in C. unfold m. rewrite <- Ea.
  assert (0 <= (fst a + 1 / 1000) * (cos p - (cos (INR k * X) * cos p + sin (INR k * X) * sin p))) by (apply Rmult_le_pos; lra). lra.
Qed.
End Poly.
