(** Elementary plane geometry used by the proofs. *)
From Coq Require Import Reals Lra Psatz List Qreals QArith.
From Verif Require Import Num Spec M_Cg.
Import ListNotations.
Open Scope R_scope.

Ltac unv := unfold area2, along, place, rotv, dist, norm, norm2, dot, cross, vadd, vsub, smul in *; cbn [fst snd p1 p2] in *.

Lemma pair_eq (a b c d : R) : a = c -> b = d -> (a, b) = (c, d).
Proof. congruence. Qed.

Lemma norm2_nonneg p : 0 <= norm2 p.
Proof. destruct p; unv; nra. Qed.
Lemma norm_nonneg p : 0 <= norm p.
Proof. apply sqrt_pos. Qed.
Lemma norm_sq p : norm p * norm p = norm2 p.
Proof. apply sqrt_sqrt, norm2_nonneg. Qed.
Lemma norm_pos p : p <> (0, 0) -> 0 < norm p.
Proof.
  intros H. apply sqrt_lt_R0. destruct p as [x y]; unv.
  destruct (Req_dec x 0) as [->|Hx].
  - destruct (Req_dec y 0) as [->|Hy]; [contradiction H; reflexivity|]. nra.
  - nra.
Qed.
Lemma norm_zero p : norm p = 0 -> p = (0, 0).
Proof.
  intros H. pose proof (norm_sq p) as E. rewrite H in E. destruct p as [x y]; unv. f_equal; nra.
Qed.
Lemma norm_le p k : 0 <= k -> norm2 p <= k * k -> norm p <= k.
Proof.
  intros Hk H. rewrite <- (sqrt_square k Hk). apply sqrt_le_1_alt, H.
Qed.
Lemma norm_eq p k : 0 <= k -> norm2 p = k * k -> norm p = k.
Proof. intros Hk H. unfold norm. rewrite H. apply sqrt_square, Hk. Qed.
Lemma sq_le a b : 0 <= b -> a * a <= b * b -> a <= b.
Proof. intros; nra. Qed.
Lemma norm_smul k p : norm (smul k p) = Rabs k * norm p.
Proof.
  apply norm_eq.
  - apply Rmult_le_pos; [apply Rabs_pos | apply norm_nonneg].
  - replace (Rabs k * norm p * (Rabs k * norm p)) with ((Rabs k * Rabs k) * (norm p * norm p)) by ring.
    rewrite norm_sq. rewrite <- Rabs_mult, Rabs_pos_eq by nra. destruct p; unv; ring.
Qed.

Lemma dot_cross_id p q : dot p q * dot p q + cross p q * cross p q = norm2 p * norm2 q.
Proof. destruct p, q; unv; ring. Qed.
Lemma cauchy p q : dot p q <= norm p * norm q.
Proof.
  apply sq_le.
  - apply Rmult_le_pos; apply norm_nonneg.
  - replace (norm p * norm q * (norm p * norm q)) with ((norm p * norm p) * (norm q * norm q)) by ring.
    rewrite !norm_sq. pose proof (dot_cross_id p q). nra.
Qed.
Lemma norm_triangle p q : norm (vadd p q) <= norm p + norm q.
Proof.
  apply norm_le.
  - pose proof (norm_nonneg p); pose proof (norm_nonneg q); lra.
  - pose proof (cauchy p q). pose proof (norm_sq p). pose proof (norm_sq q).
    replace (norm2 (vadd p q)) with (norm2 p + norm2 q + 2 * dot p q) by (destruct p, q; unv; ring). nra.
Qed.
Lemma norm_opp p : norm (smul (-1) p) = norm p.
Proof. unfold norm. f_equal. destruct p; unv; ring. Qed.

Lemma dist_sym p q : dist p q = dist q p.
Proof. unfold dist, norm. f_equal. destruct p, q; unv; ring. Qed.
Lemma dist_nonneg p q : 0 <= dist p q.
Proof. apply norm_nonneg. Qed.
Lemma dist_triangle p q r : dist p r <= dist p q + dist q r.
Proof.
  unfold dist. replace (vsub p r) with (vadd (vsub p q) (vsub q r)).
  - apply norm_triangle.
  - destruct p, q, r; unv. f_equal; ring.
Qed.
Lemma dist_refl p : dist p p = 0.
Proof. unfold dist, norm. replace (norm2 (vsub p p)) with 0 by (destruct p; unv; ring). apply sqrt_0. Qed.
Lemma dist_zero p q : dist p q = 0 -> p = q.
Proof. intros H. apply norm_zero in H. destruct p, q; unv. injection H; intros; f_equal; lra. Qed.
Lemma dist_along a b t : 0 <= t -> dist a (along a b t) = t * dist a b.
Proof.
  intros Ht. unfold dist.
  replace (vsub a (along a b t)) with (smul t (vsub a b)) by (destruct a, b; unv; f_equal; ring).
  rewrite norm_smul, Rabs_pos_eq; auto.
Qed.

(** area *)
Lemma area2_cyc a b c : area2 b c a = area2 a b c.
Proof. destruct a, b, c; unv; ring. Qed.
Lemma area2_rev a b c : area2 c b a = - area2 a b c.
Proof. destruct a, b, c; unv; ring. Qed.
Lemma area2_swap a b c : area2 a c b = - area2 a b c.
Proof. destruct a, b, c; unv; ring. Qed.
Lemma area2_along a b c t : area2 a b (along a c t) = t * area2 a b c.
Proof. destruct a, b, c; unv; ring. Qed.

(** segments *)
Lemma on_seg_l a b : on_seg a b a.
Proof. exists 0. split; [lra|]. destruct a, b; unv; f_equal; ring. Qed.
Lemma on_seg_r a b : on_seg a b b.
Proof. exists 1. split; [lra|]. destruct a, b; unv; f_equal; ring. Qed.
Lemma on_seg_sym a b p : on_seg a b p -> on_seg b a p.
Proof. intros (t & Ht & ->). exists (1 - t). split; [lra|]. destruct a, b; unv; f_equal; ring. Qed.
Lemma on_seg_line a b p : on_seg a b p -> on_line a b p.
Proof. intros (t & _ & ->). exists t. reflexivity. Qed.
Lemma on_seg_ray a b p : on_seg a b p -> on_ray a b p.
Proof. intros (t & Ht & ->). exists t. split; [lra|reflexivity]. Qed.

(** *** The code's orientation value is minus twice the signed area *)
Lemma orientation_area (a b c : Pt) : orientation_val a b c = - area2 a b c.
Proof. destruct a, b, c; unfold orientation_val; nR; unv; ring. Qed.

Lemma TH_pos : 0 < TH.
Proof. unfold TH; lra. Qed.
Lemma threshold_eq : COLLINEAR_THRESHOLD (T := R) = TH.
Proof. unfold COLLINEAR_THRESHOLD, TH; nR. unfold Q2R. simpl. lra. Qed.
Lemma parallel_eq : PARALLEL_THRESHOLD (T := R) = TH.
Proof. unfold PARALLEL_THRESHOLD, TH; nR. unfold Q2R. simpl. lra. Qed.

Lemma is_ccw_iff (a b c : Pt) : is_ccw a b c = true <-> TH < area2 a b c.
Proof.
  unfold is_ccw. rewrite threshold_eq, orientation_area. nR. rewrite Rltb_true. split; lra.
Qed.
Lemma is_cw_iff (a b c : Pt) : is_cw a b c = true <-> area2 a b c < - TH.
Proof.
  unfold is_cw. rewrite threshold_eq, orientation_area. nR. rewrite Rltb_true. split; lra.
Qed.
Lemma is_collinear_iff (a b c : Pt) : is_collinear a b c = true <-> - TH < area2 a b c < TH.
Proof.
  unfold is_collinear. rewrite threshold_eq, orientation_area. nR. rewrite Rltb_true, Rabs_Ropp.
  split; [intros H; apply Rabs_def2 in H; lra | intros []; apply Rabs_def1; lra].
Qed.
Lemma is_ccw_false (a b c : Pt) : is_ccw a b c = false <-> area2 a b c <= TH.
Proof.
  pose proof (is_ccw_iff a b c). destruct (is_ccw a b c).
  - split; [discriminate|]. intros. assert (TH < area2 a b c) by (apply H; reflexivity). lra.
  - split; [|reflexivity]. intros _. apply Rnot_lt_le. intro HH. apply H in HH. discriminate.
Qed.
Lemma is_cw_false (a b c : Pt) : is_cw a b c = false <-> - TH <= area2 a b c.
Proof.
  pose proof (is_cw_iff a b c). destruct (is_cw a b c).
  - split; [discriminate|]. intros. assert (area2 a b c < - TH) by (apply H; reflexivity). lra.
  - split; [|reflexivity]. intros _. apply Rnot_lt_le. intro HH. apply H in HH. discriminate.
Qed.

(** *** Transfer of the generic predicates from Q to R *)
Definition q2p (p : Q * Q) : Pt := (Q2R (fst p), Q2R (snd p)).

Lemma q2r_orientation (a b c : Q * Q) :
  Q2R (orientation_val a b c) = orientation_val (q2p a) (q2p b) (q2p c).
Proof.
  unfold orientation_val. rewrite !transfer_sub, !transfer_mul, !transfer_sub. reflexivity.
Qed.
Lemma q2r_is_ccw (a b c : Q * Q) : is_ccw (q2p a) (q2p b) (q2p c) = is_ccw a b c.
Proof.
  unfold is_ccw. rewrite transfer_ltb, q2r_orientation, transfer_opp. reflexivity.
Qed.
Lemma q2r_is_cw (a b c : Q * Q) : is_cw (q2p a) (q2p b) (q2p c) = is_cw a b c.
Proof.
  unfold is_cw. rewrite transfer_ltb, q2r_orientation. reflexivity.
Qed.
Lemma q2r_is_collinear (a b c : Q * Q) : is_collinear (q2p a) (q2p b) (q2p c) = is_collinear a b c.
Proof.
  unfold is_collinear. rewrite transfer_ltb, transfer_abs, q2r_orientation. reflexivity.
Qed.
Lemma q2r_intersect (a b c d : Q * Q) : intersect (q2p a) (q2p b) (q2p c) (q2p d) = intersect a b c d.
Proof. unfold intersect. rewrite !q2r_is_ccw. reflexivity. Qed.

Lemma dist_ge_x p q : Rabs (fst p - fst q) <= dist p q.
Proof.
  unfold dist, norm. rewrite <- sqrt_Rsqr_abs. apply sqrt_le_1_alt. unfold Rsqr. destruct p as [a b], q as [c d]; unv.
  pose proof (Rle_0_sqr (b - d)) as H. unfold Rsqr in H. lra.
Qed.
Lemma dist_ge_y p q : Rabs (snd p - snd q) <= dist p q.
Proof.
  unfold dist, norm. rewrite <- sqrt_Rsqr_abs. apply sqrt_le_1_alt. unfold Rsqr. destruct p as [a b], q as [c d]; unv.
  pose proof (Rle_0_sqr (a - c)) as H. unfold Rsqr in H. lra.
Qed.
Lemma dist_eq p q k : 0 <= k -> norm2 (vsub p q) = k * k -> dist p q = k.
Proof. intros. apply norm_eq; auto. Qed.
