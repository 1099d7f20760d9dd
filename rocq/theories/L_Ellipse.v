(** Lemmas about the ellipse model. *)
From Coq Require Import Reals Lra Psatz Lia List Bool Arith.
From Verif Require Import Num Spec M_Cg M_Motion M_Obstacle M_Ellipse L_Geom L_Polar L_Cg L_Gen L_Motion L_Obstacle.
Import ListNotations.
Open Scope R_scope.

(** bilinear form of the ellipse *)
Definition bform (a y z : Pt) : R := fst y * fst z / fst a ^ 2 + snd y * snd z / snd a ^ 2.
Lemma bform_diag a y : fst a <> 0 -> snd a <> 0 -> bform a y y = ell_form a y.
Proof. intros. unfold bform, ell_form. field. auto. Qed.
Lemma bform_le a t z : 0 < fst a -> 0 < snd a -> on_ellipse a t -> in_ellipse a z -> bform a t z <= 1.
Proof.
  intros A B T Z. unfold on_ellipse, in_ellipse, ell_form, bform in *.
  replace (fst t * fst z / fst a ^ 2) with ((fst t / fst a) * (fst z / fst a)) by (field; lra).
  replace (snd t * snd z / snd a ^ 2) with ((snd t / snd a) * (snd z / snd a)) by (field; lra).
  pose proof (pow2_ge_0 (fst t / fst a - fst z / fst a)). pose proof (pow2_ge_0 (snd t / snd a - snd z / snd a)). lra.
Qed.
Lemma bform_eq a t z : 0 < fst a -> 0 < snd a -> on_ellipse a t -> in_ellipse a z -> bform a t z = 1 -> z = t.
Proof.
  intros A B T Z E. unfold on_ellipse, in_ellipse, ell_form, bform in *.
  replace (fst t * fst z / fst a ^ 2) with ((fst t / fst a) * (fst z / fst a)) in E by (field; lra).
  replace (snd t * snd z / snd a ^ 2) with ((snd t / snd a) * (snd z / snd a)) in E by (field; lra).
  set (p := fst t / fst a) in *. set (q := snd t / snd a) in *. set (u := fst z / fst a) in *. set (v := snd z / snd a) in *.
  assert (H : (u - p) ^ 2 + (v - q) ^ 2 <= 0) by lra. pose proof (pow2_ge_0 (u - p)). pose proof (pow2_ge_0 (v - q)).
  assert (U : u = p) by nra. assert (V : v = q) by nra.
  destruct z as [z1 z2], t as [t1 t2]. cbn [fst snd] in *.
  apply pair_eq.
  - replace z1 with (u * fst a) by (unfold u; field; lra). rewrite U. unfold p. field. lra.
  - replace z2 with (v * snd a) by (unfold v; field; lra). rewrite V. unfold q. field. lra.
Qed.

(** a tangent line with slope m from x *)
Lemma tangent_at_spec a x m : 0 < fst a -> 0 < snd a ->
  (snd x - m * fst x) ^ 2 = fst a ^ 2 * m ^ 2 + snd a ^ 2 ->
  let t := ell_tangent_at a x m in
  on_ellipse a t /\ forall z, area2 x t z = (fst x * snd x - m * (fst x ^ 2 - fst a ^ 2)) * (1 - bform a t z).
Proof.
  intros A B H t. destruct a as [a0 a1], x as [px py]. cbn [fst snd] in *.
  set (c := py - m * px) in *.
  assert (P : 0 < a0 ^ 2 * m ^ 2 + a1 ^ 2) by nra.
  assert (Hc : c <> 0) by nra.
  assert (D : a1 ^ 2 / a0 ^ 2 + m ^ 2 = c ^ 2 / a0 ^ 2) by (rewrite H; field; lra).
  assert (Ht : t = (- (a0 ^ 2 * m) / c, a1 ^ 2 / c)).
  { unfold t, ell_tangent_at. cbn [fst snd]. rewrite D. replace (px * m ^ 2 - py * m) with (- m * c) by (unfold c; ring).
    assert (E : - m * c / (c ^ 2 / a0 ^ 2) = - (a0 ^ 2 * m) / c) by (field; lra). rewrite E. apply pair_eq; [reflexivity|].
    replace py with (c + m * px) by (unfold c; ring).
    replace (m * (- (a0 ^ 2 * m) / c - px) + (c + m * px)) with ((c ^ 2 - a0 ^ 2 * m ^ 2) / c) by (field; exact Hc).
    f_equal. lra. }
  rewrite Ht. split.
  - unfold on_ellipse, ell_form. cbn [fst snd].
    replace ((- (a0 ^ 2 * m) / c / a0) ^ 2 + (a1 ^ 2 / c / a1) ^ 2) with ((a0 ^ 2 * m ^ 2 + a1 ^ 2) / c ^ 2) by (field; lra).
    rewrite <- H. field. exact Hc.
  - intros [z1 z2]. unfold area2, cross, vsub, bform. cbn [fst snd].
    replace py with (c + m * px) by (unfold c; ring).
    replace ((- (a0 ^ 2 * m) / c - px) * (z2 - (c + m * px)) - (a1 ^ 2 / c - (c + m * px)) * (z1 - px))
      with ((- (a0 ^ 2 * m + px * c) * (z2 - (c + m * px)) - (a1 ^ 2 - c ^ 2 - m * px * c) * (z1 - px)) / c) by (field; exact Hc).
    replace (a1 ^ 2 - c ^ 2) with (- (a0 ^ 2 * m ^ 2)) by lra. field. lra.
Qed.

(** the two slopes *)
Lemma slopes a x : 0 < fst a -> 0 < snd a -> 1 < ell_form a x -> fst x ^ 2 - fst a ^ 2 <> 0 ->
  let tmp := fst x ^ 2 - fst a ^ 2 in
  let c1 := fst x * snd x / tmp in let c2 := (snd a ^ 2 - snd x ^ 2) / tmp in let s := sqrt (c1 ^ 2 + c2) in
  0 < s /\ c1 ^ 2 + c2 = (fst a * snd a) ^ 2 * (ell_form a x - 1) / tmp ^ 2 /\
  (forall m, m = c1 + s \/ m = c1 - s -> (snd x - m * fst x) ^ 2 = fst a ^ 2 * m ^ 2 + snd a ^ 2) /\
  fst x * snd x - (c1 + s) * tmp = - (s * tmp) /\ fst x * snd x - (c1 - s) * tmp = s * tmp.
Proof.
  intros A B L N tmp c1 c2 s.
  assert (E : c1 ^ 2 + c2 = (fst a * snd a) ^ 2 * (ell_form a x - 1) / tmp ^ 2).
  { unfold c1, c2, ell_form. unfold tmp in *. field. lra. }
  assert (T2 : 0 < tmp ^ 2) by (unfold tmp in *; nra).
  assert (P : 0 < c1 ^ 2 + c2).
  { rewrite E. apply Rdiv_lt_0_compat; [|exact T2]. apply Rmult_lt_0_compat; [|lra]. assert (0 < fst a * snd a) by nra. nra. }
  assert (S : s * s = c1 ^ 2 + c2) by (apply sqrt_sqrt; lra).
  assert (Sp : 0 < s) by (apply sqrt_lt_R0; exact P).
  split; [exact Sp|]. split; [exact E|]. split; [|split].
  - assert (C1 : c1 * tmp = fst x * snd x) by (unfold c1; field; exact N).
    assert (C2 : c2 * tmp = snd a ^ 2 - snd x ^ 2) by (unfold c2; field; exact N).
    intros m Hm.
    assert (Q : m * m - 2 * c1 * m - c2 = 0) by (destruct Hm as [-> | ->]; nra).
    assert (Q' : tmp * (m * m - 2 * c1 * m - c2) = 0) by (rewrite Q; ring).
    replace (tmp * (m * m - 2 * c1 * m - c2)) with (tmp * (m * m) - 2 * (c1 * tmp) * m - c2 * tmp) in Q' by ring.
    rewrite C1, C2 in Q'. unfold tmp in Q'. lra.
  - unfold c1. field. exact N.
  - unfold c1. field. exact N.
Qed.

Lemma orth_parallel (w u v : Pt) : w <> (0, 0) -> dot w u = 0 -> dot w v = 0 -> cross u v = 0.
Proof.
  intros W A B. destruct w as [w1 w2], u as [u1 u2], v as [v1 v2]. unfold dot, cross in *. cbn [fst snd] in *.
  assert (P : 0 < w1 * w1 + w2 * w2).
  { destruct (Req_dec w1 0); [|nra]. destruct (Req_dec w2 0); [|nra]. subst. contradiction. }
  assert (E : (u1 * v2 - u2 * v1) * (w1 * w1 + w2 * w2) = (w1 * u1 + w2 * u2) * (w1 * v2 - w2 * v1) - (w1 * v1 + w2 * v2) * (w1 * u2 - w2 * u1)) by ring.
  rewrite A, B in E. assert (Z : (u1 * v2 - u2 * v1) * (w1 * w1 + w2 * w2) = 0) by lra.
  apply Rmult_integral in Z. lra.
Qed.
(** two different unit vectors with the same product 1 with u *)
Lemma unit_pair (p q u : Pt) : norm2 p = 1 -> norm2 q = 1 -> dot p u = 1 -> dot q u = 1 -> p <> q ->
  norm2 u * (2 + 2 * dot p q) = 4.
Proof.
  intros P Q PU QU N.
  assert (W : vsub p q <> (0, 0)).
  { intros E. apply N. destruct p, q. unfold vsub in E. cbn in E. injection E as E1 E2. apply pair_eq; lra. }
  assert (A : dot (vsub p q) u = 0) by (destruct p, q, u; unfold dot, vsub in *; cbn in *; lra).
  assert (B : dot (vsub p q) (vadd p q) = 0) by (destruct p, q; unfold norm2, dot, vsub, vadd in *; cbn in *; lra).
  pose proof (orth_parallel _ _ _ W A B) as C. pose proof (dot_cross_id u (vadd p q)) as D. rewrite C in D.
  assert (S : dot u (vadd p q) = 2) by (destruct p, q, u; unfold dot, vadd in *; cbn in *; lra).
  assert (M : norm2 (vadd p q) = 2 + 2 * dot p q) by (destruct p, q; unfold norm2, dot, vadd in *; cbn in *; lra).
  rewrite S, M in D. lra.
Qed.
Definition scaled (a y : Pt) : Pt := (fst y / fst a, snd y / snd a).
Lemma scaled_form a y : norm2 (scaled a y) = ell_form a y.
Proof. unfold norm2, dot, scaled, ell_form. cbn [fst snd]. ring. Qed.
Lemma scaled_bform a y z : fst a <> 0 -> snd a <> 0 -> dot (scaled a y) (scaled a z) = bform a y z.
Proof. intros. unfold dot, scaled, bform. cbn [fst snd]. field. auto. Qed.

Lemma ell_tangents_spec a x : 0 < fst a -> 0 < snd a -> 1 < ell_form a x ->
  1 / 100000 <= Rabs (fst a ^ 2 - fst x ^ 2) \/ fst x ^ 2 = fst a ^ 2 ->
  exists t1 t2 K, ell_tangents a x = Some (t1, t2) /\ on_ellipse a t1 /\ on_ellipse a t2 /\ K <> 0 /\
    (forall z, area2 x t1 z = K * (1 - bform a t1 z)) /\ (forall z, area2 x t2 z = - K * (1 - bform a t2 z)) /\
    K * K = (fst a * snd a) ^ 2 * (ell_form a x - 1).
Proof.
  intros A B L [N|V]; unfold ell_tangents; cbv zeta.
  { destruct (Rltb_spec (Rabs (fst a ^ 2 - fst x ^ 2)) (1 / 100000)); [lra|].
    assert (NZ : fst x ^ 2 - fst a ^ 2 <> 0).
    { intros Z. replace (fst a ^ 2 - fst x ^ 2) with 0 in N by lra. rewrite Rabs_R0 in N. lra. }
    pose proof (slopes a x A B L NZ) as (Sp & E & M & K1 & K2). cbv zeta in *.
    set (tmp := fst x ^ 2 - fst a ^ 2) in *. set (c1 := fst x * snd x / tmp) in *. set (c2 := (snd a ^ 2 - snd x ^ 2) / tmp) in *.
    set (s := sqrt (c1 ^ 2 + c2)) in *.
    exists (ell_tangent_at a x (c1 + s)), (ell_tangent_at a x (c1 - s)), (- (s * tmp)).
    destruct (tangent_at_spec a x (c1 + s) A B (M _ (or_introl eq_refl))) as [O1 F1].
    destruct (tangent_at_spec a x (c1 - s) A B (M _ (or_intror eq_refl))) as [O2 F2].
    split; [reflexivity|]. split; [exact O1|]. split; [exact O2|]. split; [nra|]. split; [|split].
    - intros z. rewrite F1. fold tmp. rewrite K1. ring.
    - intros z. rewrite F2. fold tmp. rewrite K2. ring.
    - assert (S2 : s * s = c1 ^ 2 + c2) by (apply sqrt_sqrt; rewrite E; apply Rlt_le; apply Rdiv_lt_0_compat; [|nra];
        apply Rmult_lt_0_compat; [|lra]; assert (0 < fst a * snd a) by nra; nra).
      replace (- (s * tmp) * - (s * tmp)) with (s * s * tmp ^ 2) by ring. rewrite S2, E. field. exact NZ. }
  destruct (Rltb_spec (Rabs (fst a ^ 2 - fst x ^ 2)) (1 / 100000)) as [_|C]; [|rewrite V, Rminus_diag_eq, Rabs_R0 in C by reflexivity; lra].
  destruct a as [a0 a1], x as [px py]. cbn [fst snd] in *.
  assert (PX : px <> 0) by nra.
  assert (F0 : ell_form (a0, a1) (px, py) - 1 = (py / a1) ^ 2).
  { unfold ell_form. cbn [fst snd]. replace ((px / a0) ^ 2) with (px ^ 2 / a0 ^ 2) by (field; lra). rewrite V. field. lra. }
  assert (PY : py <> 0). { intros ->. replace (0 / a1) with 0 in F0 by (field; lra). lra. }
  assert (PP : 2 * px * py <> 0) by (apply Rmult_integral_contrapositive_currified; [lra|exact PY]).
  destruct (Reqb_spec (2 * px * py) 0) as [Z|_]; [contradiction|].
  set (m := (py ^ 2 - a1 ^ 2) / (2 * px * py)).
  assert (M : (py - m * px) ^ 2 = a0 ^ 2 * m ^ 2 + a1 ^ 2).
  { rewrite <- V. unfold m. field. split; assumption. }
  exists (px, 0), (ell_tangent_at (a0, a1) (px, py) m), (- (px * py)).
  destruct (tangent_at_spec (a0, a1) (px, py) m A B M) as [O2 F2].
  split; [reflexivity|]. split; [|split; [exact O2|split; [|split; [|split]]]].
  - unfold on_ellipse, ell_form. cbn [fst snd]. replace ((px / a0) ^ 2) with (px ^ 2 / a0 ^ 2) by (field; lra). rewrite V. field. lra.
  - intros Z. assert (px * py = 0) by lra. apply Rmult_integral in H. destruct H; contradiction.
  - intros [z1 z2]. unfold area2, cross, vsub, bform. cbn [fst snd]. rewrite <- V. field. split; [lra|exact PX].
  - intros z. rewrite F2. cbn [fst snd]. rewrite V. ring.
  - rewrite F0. replace (- (px * py) * - (px * py)) with (px ^ 2 * py ^ 2) by ring. rewrite V. cbn [fst snd]. field. lra.
Qed.

Lemma pair_facts a x t1 t2 K : 0 < fst a -> 0 < snd a -> 1 < ell_form a x -> on_ellipse a t1 -> on_ellipse a t2 -> K <> 0 ->
  (forall z, area2 x t1 z = K * (1 - bform a t1 z)) -> (forall z, area2 x t2 z = - K * (1 - bform a t2 z)) ->
  t1 <> t2 /\ (1 - bform a t1 t2) * ell_form a x = 2 * (ell_form a x - 1).
Proof.
  intros A B L O1 O2 NK F1 F2.
  assert (Z : area2 x t1 x = 0 /\ area2 x t2 x = 0) by (split; unfold area2, cross, vsub; cbn; ring).
  assert (B1 : bform a t1 x = 1). { destruct Z as [Z _]. rewrite F1 in Z. apply Rmult_integral in Z. lra. }
  assert (B2 : bform a t2 x = 1). { destruct Z as [_ Z]. rewrite F2 in Z. apply Rmult_integral in Z. lra. }
  assert (N : t1 <> t2).
  { intros ->. specialize (F1 (0, 0)). specialize (F2 (0, 0)). rewrite F1 in F2.
    assert (V : bform a t2 (0, 0) = 0) by (unfold bform; cbn [fst snd]; field; lra). rewrite V in F2. lra. }
  split; [exact N|].
  assert (U : norm2 (scaled a x) * (2 + 2 * dot (scaled a t1) (scaled a t2)) = 4).
  { apply unit_pair; rewrite ?scaled_form, ?scaled_bform by lra; auto.
    intros E. apply N. unfold scaled in E. injection E as E1 E2. destruct t1 as [p q], t2 as [p' q']. cbn [fst snd] in *.
    apply pair_eq.
    - replace p with (p / fst a * fst a) by (field; lra). rewrite E1. field. lra.
    - replace q with (q / snd a * snd a) by (field; lra). rewrite E2. field. lra. }
  rewrite scaled_form, scaled_bform in U by lra. lra.
Qed.
(** area of the tangent triangle *)
Lemma tangent_area a x t1 t2 K : 0 < fst a -> 0 < snd a -> 1 < ell_form a x -> on_ellipse a t1 -> on_ellipse a t2 -> K <> 0 ->
  (forall z, area2 x t1 z = K * (1 - bform a t1 z)) -> (forall z, area2 x t2 z = - K * (1 - bform a t2 z)) ->
  K * K = (fst a * snd a) ^ 2 * (ell_form a x - 1) ->
  (ell_form a x * area2 x t1 t2) ^ 2 = 4 * (fst a * snd a) ^ 2 * (ell_form a x - 1) ^ 3.
Proof.
  intros A B L O1 O2 NK F1 F2 K2. destruct (pair_facts a x t1 t2 K A B L O1 O2 NK F1 F2) as [_ P].
  rewrite F1. replace (ell_form a x * (K * (1 - bform a t1 t2))) with (K * ((1 - bform a t1 t2) * ell_form a x)) by ring.
  rewrite P. replace ((K * (2 * (ell_form a x - 1))) ^ 2) with (K * K * 4 * (ell_form a x - 1) ^ 2) by ring. rewrite K2. ring.
Qed.
(** sign of K decides which point is on the left *)
Lemma tangent_pair_from a x t1 t2 K : 0 < fst a -> 0 < snd a -> 1 < ell_form a x -> on_ellipse a t1 -> on_ellipse a t2 -> K < 0 ->
  (forall z, area2 x t1 z = K * (1 - bform a t1 z)) -> (forall z, area2 x t2 z = - K * (1 - bform a t2 z)) ->
  tangent_pair (in_ellipse a) x t1 t2.
Proof.
  intros A B L O1 O2 NK F1 F2. destruct (pair_facts a x t1 t2 K A B L O1 O2 ltac:(lra) F1 F2) as [N P].
  assert (I : forall t, on_ellipse a t -> in_ellipse a t) by (unfold on_ellipse, in_ellipse; intros; lra).
  split; [auto|]. split; [auto|]. split.
  - rewrite F1. assert (0 < 1 - bform a t1 t2); [|nra].
    apply Rmult_lt_reg_r with (ell_form a x); lra.
  - intros o Ho. rewrite F1, F2. pose proof (bform_le a t1 o A B O1 Ho). pose proof (bform_le a t2 o A B O2 Ho). split; nra.
Qed.
Lemma touches_from a x t K : 0 < fst a -> 0 < snd a -> on_ellipse a t -> K <> 0 ->
  (forall z, area2 x t z = K * (1 - bform a t z)) -> touches_only_at (in_ellipse a) x t.
Proof.
  intros A B O NK F. split; [unfold on_ellipse, in_ellipse in *; lra|]. intros o Ho Z. rewrite F in Z. apply Rmult_integral in Z.
  apply (bform_eq a t o A B O Ho). lra.
Qed.

(** sloped lines *)
Lemma sloped_quadratic a m c X : 0 < fst a -> 0 < snd a ->
  let kx2 := fst a ^ 2 * m ^ 2 + snd a ^ 2 in
  ell_form a (X, m * X + c) - 1 =
    kx2 / (fst a ^ 2 * snd a ^ 2) * ((X + fst a ^ 2 * m * c / kx2) ^ 2 - fst a ^ 2 * snd a ^ 2 * (kx2 - c ^ 2) / kx2 ^ 2).
Proof.
  intros A B kx2. assert (0 < kx2) by (unfold kx2; nra). unfold ell_form. cbn [fst snd].
  unfold kx2 in *. field. repeat split; lra.
Qed.

Definition half2 (a : Pt) (m c : R) : R :=
  let kx2 := fst a ^ 2 * m ^ 2 + snd a ^ 2 in fst a ^ 2 * snd a ^ 2 * (kx2 - c ^ 2) / kx2 ^ 2.
Definition mid (a : Pt) (m c : R) : R := - (fst a ^ 2 * m * c / (fst a ^ 2 * m ^ 2 + snd a ^ 2)).
Lemma kx2_pos a m : 0 < fst a -> 0 < snd a -> 0 < fst a ^ 2 * m ^ 2 + snd a ^ 2.
Proof. intros. nra. Qed.
Lemma on_ellipse_sloped a m c X : 0 < fst a -> 0 < snd a ->
  (on_ellipse a (X, m * X + c) <-> (X - mid a m c) ^ 2 = half2 a m c).
Proof.
  intros A B. pose proof (sloped_quadratic a m c X A B) as Q. cbv zeta in Q. pose proof (kx2_pos a m A B) as P.
  unfold on_ellipse, half2, mid. cbv zeta. set (kx2 := fst a ^ 2 * m ^ 2 + snd a ^ 2) in *.
  assert (G : 0 < kx2 / (fst a ^ 2 * snd a ^ 2)) by (apply Rdiv_lt_0_compat; [exact P|]; assert (0 < fst a * snd a) by nra; nra).
  set (g := kx2 / (fst a ^ 2 * snd a ^ 2)) in *.
  replace (X - - (fst a ^ 2 * m * c / kx2)) with (X + fst a ^ 2 * m * c / kx2) by ring.
  set (w := (X + fst a ^ 2 * m * c / kx2) ^ 2) in *. set (h := fst a ^ 2 * snd a ^ 2 * (kx2 - c ^ 2) / kx2 ^ 2) in *.
  split; intros E.
  - rewrite E in Q. replace (1 - 1) with 0 in Q by ring. symmetry in Q. apply Rmult_integral in Q. lra.
  - rewrite E in Q. replace (h - h) with 0 in Q by ring. lra.
Qed.
Lemma half2_sign a m c : 0 < fst a -> 0 < snd a -> (half2 a m c < 0 <-> fst a ^ 2 * m ^ 2 + snd a ^ 2 - c ^ 2 < 0).
Proof.
  intros A B. pose proof (kx2_pos a m A B) as P. unfold half2. cbv zeta. set (kx2 := fst a ^ 2 * m ^ 2 + snd a ^ 2) in *.
  assert (G : 0 < fst a ^ 2 * snd a ^ 2 / kx2 ^ 2) by (apply Rdiv_lt_0_compat; [assert (0 < fst a * snd a) by nra; nra|nra]).
  replace (fst a ^ 2 * snd a ^ 2 * (kx2 - c ^ 2) / kx2 ^ 2) with (fst a ^ 2 * snd a ^ 2 / kx2 ^ 2 * (kx2 - c ^ 2)) by (field; lra).
  set (g := fst a ^ 2 * snd a ^ 2 / kx2 ^ 2) in *. split; intros; nra.
Qed.
Lemma on_seg_sloped sl sr m c p : sl < sr ->
  (on_seg (sl, m * sl + c) (sr, m * sr + c) p <-> exists X, sl <= X <= sr /\ p = (X, m * X + c)).
Proof.
  intros H. split.
  - intros (t & Ht & ->). exists (sl + t * (sr - sl)). split; [nra|]. unfold along, vadd, smul, vsub. cbn [fst snd]. apply pair_eq; ring.
  - intros (X & HX & ->). exists ((X - sl) / (sr - sl)). split.
    + split; [apply Rmult_le_pos; [lra|left; apply Rinv_0_lt_compat; lra]|].
      apply Rmult_le_reg_r with (sr - sl); [lra|]. replace ((X - sl) / (sr - sl) * (sr - sl)) with (X - sl) by (field; lra). lra.
    + unfold along, vadd, smul, vsub. cbn [fst snd]. apply pair_eq; field; lra.
Qed.
Lemma sq_roots x y : 0 <= y -> (x ^ 2 = y <-> x = sqrt y \/ x = - sqrt y).
Proof.
  intros H. pose proof (sqrt_sqrt y H). split.
  - intros E. assert ((x - sqrt y) * (x + sqrt y) = 0) by nra. apply Rmult_integral in H1. lra.
  - intros [-> | ->]; nra.
Qed.
Lemma nodup2 (p q : RPt) : p <> q -> NoDup [p; q].
Proof. intros H. constructor; [intros [E|[]]; auto|]. constructor; [intros []|constructor]. Qed.
Lemma nodup1 (p : RPt) : NoDup [p].
Proof. constructor; [intros []|constructor]. Qed.

Lemma ell_sloped_exact a sl sr m c : 0 < fst a -> 0 < snd a -> sl < sr ->
  half2 a m c < 0 \/ 1 / 100000000 < half2 a m c ->
  let L := ell_sloped a (sl, m * sl + c) (sr, m * sr + c) m c in
  NoDup L /\ forall p, In p L <-> on_seg (sl, m * sl + c) (sr, m * sr + c) p /\ on_ellipse a p.
Proof.
  intros A B S H L.
  assert (C : forall p, on_seg (sl, m * sl + c) (sr, m * sr + c) p /\ on_ellipse a p <->
    exists X, sl <= X <= sr /\ (X - mid a m c) ^ 2 = half2 a m c /\ p = (X, m * X + c)).
  { intros p. rewrite (on_seg_sloped sl sr m c p S). split.
    - intros [(X & HX & ->) E]. exists X. apply (on_ellipse_sloped a m c X A B) in E. auto.
    - intros (X & HX & E & ->). split; [exists X; auto|]. apply (on_ellipse_sloped a m c X A B). exact E. }
  unfold L, ell_sloped. cbv zeta. cbn [fst snd].
  destruct (Rltb_spec (fst a ^ 2 * m ^ 2 + snd a ^ 2 - c ^ 2) 0) as [D|D].
  { split; [constructor|]. intros p. rewrite C. split; [intros []|]. intros (X & _ & E & _).
    apply (half2_sign a m c A B) in D. pose proof (pow2_ge_0 (X - mid a m c)). lra. }
  assert (H2 : 1 / 100000000 < half2 a m c).
  { destruct H as [H|H]; [|exact H]. apply (half2_sign a m c A B) in H. lra. }
  pose proof (kx2_pos a m A B) as P.
  destruct (Reqb_spec (fst a ^ 2 * m ^ 2 + snd a ^ 2 - c ^ 2) 0) as [Z|Z].
  { unfold half2 in H2. cbv zeta in H2. rewrite Z in H2. unfold Rdiv in H2. rewrite Rmult_0_r, Rmult_0_l in H2. lra. }
  assert (IS : (2 * fst a ^ 2 * m * c) ^ 2 / (4 * (fst a ^ 2 * m ^ 2 + snd a ^ 2) ^ 2) - fst a ^ 2 * (c ^ 2 - snd a ^ 2) / (fst a ^ 2 * m ^ 2 + snd a ^ 2) = half2 a m c).
  { unfold half2. cbv zeta. field. lra. }
  rewrite IS.
  assert (MD : - (2 * fst a ^ 2 * m * c) / (2 * (fst a ^ 2 * m ^ 2 + snd a ^ 2)) = mid a m c) by (unfold mid; field; lra).
  rewrite MD.
  assert (NC : np_isclose (half2 a m c) 0 (1 / 100000) (1 / 100000000) = false).
  { unfold np_isclose. rewrite Rabs_R0, Rminus_0_r, Rabs_pos_eq by lra.
    match goal with |- Rleb ?u ?v = false => destruct (Rleb_spec u v); [lra|reflexivity] end. }
  rewrite NC. set (h := half2 a m c) in *. set (x0 := mid a m c) in *.
  assert (Sq : 0 < sqrt h) by (apply sqrt_lt_R0; lra).
  assert (C' : forall p, on_seg (sl, m * sl + c) (sr, m * sr + c) p /\ on_ellipse a p <->
    (sl <= x0 + sqrt h <= sr /\ p = (x0 + sqrt h, m * (x0 + sqrt h) + c)) \/ (sl <= x0 - sqrt h <= sr /\ p = (x0 - sqrt h, m * (x0 - sqrt h) + c))).
  { intros p. rewrite C. split.
    - intros (X & HX & E & ->). apply sq_roots in E; [|lra]. destruct E as [E|E]; [left|right].
      + replace (x0 + sqrt h) with X by lra. auto.
      + replace (x0 - sqrt h) with X by lra. auto.
    - intros [[HX ->]|[HX ->]].
      + exists (x0 + sqrt h). split; [exact HX|]. split; [|reflexivity]. replace (x0 + sqrt h - x0) with (sqrt h) by ring. apply pow2_sqrt. lra.
      + exists (x0 - sqrt h). split; [exact HX|]. split; [|reflexivity]. replace (x0 - sqrt h - x0) with (- sqrt h) by ring.
        replace ((- sqrt h) ^ 2) with (sqrt h ^ 2) by ring. apply pow2_sqrt. lra. }
  clear C IS MD NC.
  set (xl := x0 - sqrt h) in *. set (xr := x0 + sqrt h) in *.
  assert (LT : xl < xr) by (unfold xl, xr; lra). clearbody xl xr.
  assert (Split : (Rltb sr xl || Rltb xr sl || (Rltb xl sl && Rltb sl sr && Rltb sr xr)) = true <-> sr < xl \/ xr < sl \/ (xl < sl /\ sr < xr)).
  { destruct (Rltb_spec sr xl), (Rltb_spec xr sl), (Rltb_spec xl sl), (Rltb_spec sl sr), (Rltb_spec sr xr); cbn; split; intros; try reflexivity; try discriminate; lra. }
  destruct (Rltb sr xl || Rltb xr sl || (Rltb xl sl && Rltb sl sr && Rltb sr xr)).
  { destruct Split as [Split _]. specialize (Split eq_refl). split; [constructor|]. intros p. rewrite C'. split; [intros []|]. intros [[K _]|[K _]]; lra. }
  assert (NS : ~ (sr < xl \/ xr < sl \/ (xl < sl /\ sr < xr))) by (intros K; apply Split in K; discriminate).
  destruct (Rltb_spec xl sl).
  { split; [apply nodup1|]. intros p. rewrite C'. split.
    - intros [<-|[]]. left. split; [lra|reflexivity].
    - intros [[_ ->]|[K _]]; [left; reflexivity|lra]. }
  destruct (Rltb_spec sr xr).
  { split; [apply nodup1|]. intros p. rewrite C'. split.
    - intros [<-|[]]. right. split; [lra|reflexivity].
    - intros [[K _]|[_ ->]]; [lra|left; reflexivity]. }
  split; [apply nodup2; intros E; injection E; intros; lra|]. intros p. rewrite C'. split.
  - intros [<-|[<-|[]]]; [right|left]; split; try reflexivity; lra.
  - intros [[_ ->]|[_ ->]]; [right; left|left]; reflexivity.
Qed.

(** ell_line for segments that are neither vertical nor steep *)
Lemma ell_line_sloped a l0 l1 : gentle l0 l1 -> exists sl sr m c, sl < sr /\
  ell_line a l0 l1 = ell_sloped a (sl, m * sl + c) (sr, m * sr + c) m c /\
  ((l0 = (sl, m * sl + c) /\ l1 = (sr, m * sr + c)) \/ (l1 = (sl, m * sl + c) /\ l0 = (sr, m * sr + c))).
Proof.
  intros [G1 G2]. destruct l0 as [x0 y0], l1 as [x1 y1]. cbn [fst snd] in *. unfold ell_line. cbn [fst snd].
  assert (K : forall x y X Y, 1 / 10000 <= Rabs (X - x) -> Rabs (Y - y) <= 100 * Rabs (X - x) -> x < X -> 
    (if (if Rltb (Rabs (X - x)) (1 / 10000) then true else Rltb 100 (Rabs ((Y - y) / (X - x)))) then ell_vertical a (x, y) (X, Y)
     else ell_sloped a (x, y) (X, Y) ((Y - y) / (X - x)) (y - (Y - y) / (X - x) * x)) = ell_sloped a (x, y) (X, Y) ((Y - y) / (X - x)) (y - (Y - y) / (X - x) * x) /\
    (x, y) = (x, (Y - y) / (X - x) * x + (y - (Y - y) / (X - x) * x)) /\ (X, Y) = (X, (Y - y) / (X - x) * X + (y - (Y - y) / (X - x) * x))).
  { intros x y X Y H1 H2 H3. destruct (Rltb_spec (Rabs (X - x)) (1 / 10000)); [lra|].
    assert (M : Rabs ((Y - y) / (X - x)) <= 100).
    { unfold Rdiv. rewrite Rabs_mult, (Rabs_pos_eq (/ (X - x))) by (left; apply Rinv_0_lt_compat; lra).
      rewrite (Rabs_pos_eq (X - x)) in H2 by lra. apply Rmult_le_reg_r with (X - x); [lra|].
      replace (Rabs (Y - y) * / (X - x) * (X - x)) with (Rabs (Y - y)) by (field; lra). exact H2. }
    destruct (Rltb_spec 100 (Rabs ((Y - y) / (X - x)))); [lra|]. split; [reflexivity|].
    split; apply pair_eq; try reflexivity; field; lra. }
  destruct (Rltb_spec x0 x1) as [C|C]; cbn [fst snd].
  - destruct (K x0 y0 x1 y1 G1 G2 C) as (E & E1 & E2).
    exists x0, x1, ((y1 - y0) / (x1 - x0)), (y0 - (y1 - y0) / (x1 - x0) * x0). split; [exact C|]. split; [|left; auto].
    rewrite E. rewrite <- E1, <- E2. reflexivity.
  - assert (C' : x1 < x0).
    { destruct (Req_dec x0 x1) as [Z|Z]; [|lra]. rewrite Z, Rminus_diag_eq, Rabs_R0 in G1; [lra|reflexivity]. }
    rewrite (Rabs_minus_sym x1 x0), (Rabs_minus_sym y1 y0) in *.
    destruct (K x1 y1 x0 y0 G1 G2 C') as (E & E1 & E2).
    exists x1, x0, ((y0 - y1) / (x0 - x1)), (y1 - (y0 - y1) / (x0 - x1) * x1). split; [exact C'|]. split; [|right; auto].
    rewrite E. rewrite <- E1, <- E2. reflexivity.
Qed.

(** a line that misses the ellipse or crosses it in two points more than 2e-4 apart horizontally *)
Lemma line_sloped l0 l1 sl sr m c p : sl < sr ->
  ((l0 = (sl, m * sl + c) /\ l1 = (sr, m * sr + c)) \/ (l1 = (sl, m * sl + c) /\ l0 = (sr, m * sr + c))) ->
  (on_line l0 l1 p <-> p = (fst p, m * fst p + c)).
Proof.
  intros S [[-> ->]|[-> ->]].
  - split.
    + intros (t & ->). unfold along, vadd, smul, vsub. cbn [fst snd]. apply pair_eq; ring.
    + intros ->. cbn [fst]. exists ((fst p - sl) / (sr - sl)). unfold along, vadd, smul, vsub. cbn [fst snd]. apply pair_eq; field; lra.
  - split.
    + intros (t & ->). unfold along, vadd, smul, vsub. cbn [fst snd]. apply pair_eq; ring.
    + intros ->. cbn [fst]. exists ((fst p - sr) / (sl - sr)). unfold along, vadd, smul, vsub. cbn [fst snd]. apply pair_eq; field; lra.
Qed.
Lemma ell_line_exact a l0 l1 : 0 < fst a -> 0 < snd a -> gentle l0 l1 -> clear_crossing a l0 l1 ->
  NoDup (ell_line a l0 l1) /\ forall p, In p (ell_line a l0 l1) <-> on_seg l0 l1 p /\ on_ellipse a p.
Proof.
  intros A B G CC. destruct (ell_line_sloped a l0 l1 G) as (sl & sr & m & c & S & E & O). rewrite E.
  assert (Q : forall p, on_seg l0 l1 p <-> on_seg (sl, m * sl + c) (sr, m * sr + c) p).
  { intros p. destruct O as [[-> ->]|[-> ->]]; [tauto|]. split; apply on_seg_sym. }
  assert (H : half2 a m c < 0 \/ 1 / 100000000 < half2 a m c).
  { destruct CC as [N|(p & q & Lp & Lq & Ep & Eq & D)].
    - left. apply Rnot_le_lt. intros K. apply (N (mid a m c + sqrt (half2 a m c), m * (mid a m c + sqrt (half2 a m c)) + c)).
      + apply (line_sloped l0 l1 sl sr m c); auto.
      + apply on_ellipse_sloped; auto. replace (mid a m c + sqrt (half2 a m c) - mid a m c) with (sqrt (half2 a m c)) by ring. apply pow2_sqrt. exact K.
    - right. apply (line_sloped l0 l1 sl sr m c p S O) in Lp. apply (line_sloped l0 l1 sl sr m c q S O) in Lq. rewrite Lp in Ep. rewrite Lq in Eq.
      apply on_ellipse_sloped in Ep; auto. apply on_ellipse_sloped in Eq; auto.
      set (u := fst p - mid a m c) in *. set (v := fst q - mid a m c) in *. replace (fst p - fst q) with (u - v) in D by (unfold u, v; ring).
      assert (D2 : 4 / 100000000 < (u - v) ^ 2).
      { rewrite <- pow2_abs. pose proof (Rabs_pos (u - v)). nra. }
      pose proof (pow2_ge_0 (u + v)). lra. }
  destruct (ell_sloped_exact a sl sr m c A B S H) as [ND I]. split; [exact ND|]. intros p. rewrite Q. apply I.
Qed.

(** frames *)
Definition to_frame (m : option mm) (f : frame) (p : RPt) : RPt := match transform m p OBSTACLE f with Ret q => q | Exn _ => p end.
Lemma to_frame_ok m f p : good f -> transform m p OBSTACLE f = Ret (to_frame m f p).
Proof. intros G. unfold to_frame. destruct (transform_good m p OBSTACLE f (or_intror eq_refl) G) as [q E]. rewrite E. reflexivity. Qed.
Lemma map_res_frames m f l : good f -> map_res (fun p => transform m p OBSTACLE f) l = Ret (map (to_frame m f) l).
Proof. intros G. induction l as [|p l IH]; cbn [map_res map]; [reflexivity|]. rewrite (to_frame_ok m f p G). cbn [bind]. rewrite IH. reflexivity. Qed.
Lemma to_frame_obs m p : to_frame m OBSTACLE p = p.
Proof. unfold to_frame. destruct m; reflexivity. Qed.
Lemma to_frame_inj m f p q : good f -> to_frame m f p = to_frame m f q -> p = q.
Proof.
  intros G E. pose proof (to_frame_ok m f p G) as P. pose proof (to_frame_ok m f q G) as Q. rewrite E in P.
  apply transform_roundtrip in P; [|right; reflexivity|exact G]. apply transform_roundtrip in Q; [|right; reflexivity|exact G]. congruence.
Qed.
(** orientation does not change with the frame *)
Lemma to_frame_area m f p q r : good f -> area2 (to_frame m f p) (to_frame m f q) (to_frame m f r) = area2 p q r.
Proof.
  intros G. unfold to_frame. destruct m as [m|]; [|reflexivity]. destruct G as [->| ->]; [|reflexivity].
  cbn [transform frame_eqb]. rewrite !affine_forward. unfold area2, cross, place, rotv, vadd, vsub. cbn [fst snd].
  pose proof (sin2_cos2 (m_rot m)) as S. unfold Rsqr in S. set (c := cos _) in *. set (s := sin _) in *.
  match goal with |- ?L = ?R => replace L with (R * (s * s + c * c)) by ring; rewrite S; ring end.
Qed.
Lemma from_frame m f x : good f -> exists xo, transform m x f OBSTACLE = Ret xo /\ to_frame m f xo = x.
Proof.
  intros G. destruct (transform_good m x f OBSTACLE G (or_intror eq_refl)) as [xo E]. exists xo. split; [exact E|].
  unfold to_frame. rewrite (transform_roundtrip m x f OBSTACLE xo G (or_intror eq_refl) E). reflexivity.
Qed.

(** vertical segments on the axis of the ellipse *)
Lemma ell_line_axis a y0 y1 : 0 < fst a -> 0 < snd a ->
  forall p, In p (ell_line a (0, y0) (0, y1)) <-> on_seg (0, y0) (0, y1) p /\ on_ellipse a p.
Proof.
  intros A B p. unfold ell_line. cbn [fst snd].
  destruct (Rltb_spec 0 0); [lra|]. cbn [fst snd]. rewrite Rminus_0_r, Rabs_R0. destruct (Rltb_spec 0 (1 / 10000)); [|lra].
  assert (Seg : forall u v, u <= v -> (on_seg (0, u) (0, v) p <-> fst p = 0 /\ u <= snd p <= v)).
  { intros u v Huv. split.
    - intros (t & Ht & ->). unfold along, vadd, smul, vsub. cbn [fst snd]. split; [ring|nra].
    - intros [P1 P2]. destruct p as [p1 p2]. cbn [fst snd] in *. subst p1. destruct (Req_dec u v) as [->|N].
      + exists 0. split; [lra|]. unfold along, vadd, smul, vsub. cbn [fst snd]. apply pair_eq; lra.
      + exists ((p2 - u) / (v - u)). split.
        * split; [apply Rmult_le_pos; [lra|left; apply Rinv_0_lt_compat; lra]|]. apply Rmult_le_reg_r with (v - u); [lra|].
          replace ((p2 - u) / (v - u) * (v - u)) with (p2 - u) by (field; lra). lra.
        * unfold along, vadd, smul, vsub. cbn [fst snd]. apply pair_eq; field; lra. }
  assert (On : fst p = 0 -> (on_ellipse a p <-> snd p = snd a \/ snd p = - snd a)).
  { intros P. unfold on_ellipse, ell_form. rewrite P. replace (0 / fst a) with 0 by (field; lra). split.
    - intros E. assert (Z : (snd p - snd a) * (snd p + snd a) = 0).
      { replace ((snd p - snd a) * (snd p + snd a)) with (((snd p / snd a) ^ 2 - 1) * snd a ^ 2) by (field; lra). replace ((snd p / snd a) ^ 2 - 1) with 0 by lra. ring. }
      apply Rmult_integral in Z. lra.
    - intros [-> | ->]; field; lra. }
  unfold ell_vertical. cbn [fst snd]. destruct (Rltb_spec 0 (- fst a)); [lra|]. destruct (Rltb_spec (fst a) 0); [lra|]. cbn [orb].
  assert (G : forall u v, u <= v ->
    (In p (if Rleb (snd a) v && Rleb u (- snd a) then [(0, snd a); (0, - snd a)]
    else if Rleb (snd a) v && Rleb u (snd a) then [(0, snd a)]
    else if Rleb (- snd a) v && Rleb u (- snd a) then [(0, - snd a)] else []) <-> on_seg (0, u) (0, v) p /\ on_ellipse a p)).
  { intros u v Huv. rewrite (Seg u v Huv).
    assert (R1 : forall y, (0, y) = p <-> fst p = 0 /\ snd p = y).
    { intros y. split; [intros <-; auto|intros [P1 P2]; destruct p; cbn in *; subst; reflexivity]. }
    destruct (Rleb_spec (snd a) v), (Rleb_spec u (- snd a)); cbn [andb].
    - cbn [In]. rewrite !R1. split; [intros [[P1 P2]|[[P1 P2]|[]]]; (split; [split; [exact P1|lra]|apply On; auto])|].
      intros [[P1 P2] E]. apply (On P1) in E. tauto.
    - destruct (Rleb_spec u (snd a)); cbn [andb].
      + cbn [In]. rewrite !R1. split; [intros [[P1 P2]|[]]; (split; [split; [exact P1|lra]|apply On; auto])|].
        intros [[P1 P2] E]. apply (On P1) in E. destruct E; [tauto|lra].
      + destruct (Rleb_spec (- snd a) v); cbn; (split; [intros []|]); intros [[P1 P2] E]; apply (On P1) in E; lra.
    - destruct (Rleb_spec (- snd a) v); cbn [andb].
      + cbn [In]. rewrite !R1. split; [intros [[P1 P2]|[]]; (split; [split; [exact P1|lra]|apply On; auto])|].
        intros [[P1 P2] E]. apply (On P1) in E. destruct E; [lra|tauto].
      + cbn. split; [intros []|]. intros [[P1 P2] E]; apply (On P1) in E; lra.
    - destruct (Rleb_spec (- snd a) v); cbn; (split; [intros []|]); intros [[P1 P2] E]; apply (On P1) in E; lra. }
  destruct (Rltb_spec y1 y0); cbn [fst snd].
  - rewrite (G y1 y0) by lra. split; intros [K1 K2]; (split; [apply on_seg_sym; exact K1|exact K2]).
  - apply G. lra.
Qed.

(** leaving the ellipse along a ray *)
Lemma ray_exit a x v : 0 < fst a -> 0 < snd a -> ell_form a x < 1 -> v <> (0, 0) ->
  exists t, 0 < t /\ on_ellipse a (vadd x (smul t v)) /\
    (forall s, 0 <= s -> on_ellipse a (vadd x (smul s v)) -> s = t) /\
    (forall s, 0 <= s -> 1 < ell_form a (vadd x (smul s v)) -> t < s).
Proof.
  intros A B I V. set (al := ell_form a v). set (be := 2 * bform a x v). set (ga := ell_form a x - 1).
  assert (F : forall s, ell_form a (vadd x (smul s v)) - 1 = al * s ^ 2 + be * s + ga).
  { intros s. unfold al, be, ga, ell_form, bform, vadd, smul. cbn [fst snd]. field. lra. }
  assert (P : 0 < al).
  { unfold al, ell_form. destruct v as [v1 v2]. cbn [fst snd].
    pose proof (pow2_ge_0 (v1 / fst a)). pose proof (pow2_ge_0 (v2 / snd a)).
    destruct (Req_dec v1 0) as [->|N].
    - assert (v2 <> 0) by (intros ->; apply V; reflexivity). assert (v2 / snd a <> 0) by (apply Rmult_integral_contrapositive_currified; [auto|apply Rinv_neq_0_compat; lra]). nra.
    - assert (v1 / fst a <> 0) by (apply Rmult_integral_contrapositive_currified; [auto|apply Rinv_neq_0_compat; lra]). nra. }
  assert (G : ga < 0) by (unfold ga; lra). clearbody al be ga.
  set (D := be * be - 4 * al * ga). assert (DP : be * be < D) by (unfold D; nra).
  assert (SD : sqrt D * sqrt D = D) by (apply sqrt_sqrt; nra). assert (SP : 0 < sqrt D) by (apply sqrt_lt_R0; nra).
  assert (SA : Rabs be < sqrt D).
  { apply Rnot_le_lt. intros K. pose proof (Rabs_pos be). assert (be * be = Rabs be * Rabs be) by (rewrite <- Rabs_mult, Rabs_pos_eq; [ring|]; apply Rle_0_sqr). nra. }
  pose proof (Rle_abs be) as A1. pose proof (Rle_abs (- be)) as A2. rewrite Rabs_Ropp in A2.
  set (t := (- be + sqrt D) / (2 * al)). set (t' := (- be - sqrt D) / (2 * al)).
  assert (T : 0 < t) by (apply Rdiv_lt_0_compat; lra).
  assert (T' : t' < 0).
  { unfold t'. replace ((- be - sqrt D) / (2 * al)) with (- ((be + sqrt D) / (2 * al))) by (field; lra).
    assert (0 < (be + sqrt D) / (2 * al)) by (apply Rdiv_lt_0_compat; lra). lra. }
  assert (Fac : forall s, al * s ^ 2 + be * s + ga = al * ((s - t) * (s - t'))).
  { intros s. unfold t, t'. replace (al * ((s - (- be + sqrt D) / (2 * al)) * (s - (- be - sqrt D) / (2 * al)))) with (al * s ^ 2 + be * s + (be * be - sqrt D * sqrt D) / (4 * al)) by (field; lra).
    rewrite SD. unfold D. field. lra. }
  clearbody t t'. exists t. split; [exact T|]. split; [|split].
  - unfold on_ellipse. pose proof (F t) as E. rewrite Fac in E. replace (t - t) with 0 in E by ring. lra.
  - intros s S E. unfold on_ellipse in E. pose proof (F s) as E'. rewrite E, Fac in E'.
    assert (Z : al * ((s - t) * (s - t')) = 0) by lra. apply Rmult_integral in Z. destruct Z as [Z|Z]; [lra|]. apply Rmult_integral in Z. lra.
  - intros s S E. pose proof (F s) as E'. rewrite Fac in E'. assert (0 < al * ((s - t) * (s - t'))) by lra.
    apply Rnot_le_lt. intros K. assert (0 <= (t - s) * (s - t')) by (apply Rmult_le_pos; lra). nra.
Qed.
Lemma amax_bound a x : 0 < fst a -> 0 < snd a -> norm2 x <= Rmax (fst a) (snd a) ^ 2 * ell_form a x.
Proof.
  intros A B. unfold norm2, dot, ell_form. destruct a as [a0 a1], x as [x y]. cbn [fst snd] in *.
  pose proof (Rmax_l a0 a1). pose proof (Rmax_r a0 a1). set (M := Rmax a0 a1) in *.
  replace (x * x + y * y) with (a0 ^ 2 * (x / a0) ^ 2 + a1 ^ 2 * (y / a1) ^ 2) by (field; lra).
  pose proof (pow2_ge_0 (x / a0)). pose proof (pow2_ge_0 (y / a1)). assert (a0 ^ 2 <= M ^ 2) by nra. assert (a1 ^ 2 <= M ^ 2) by nra. nra.
Qed.
Lemma seg_along x e p d T : 0 < T -> e = vadd x (smul T d) -> (on_seg x e p <-> exists s, 0 <= s <= T /\ p = vadd x (smul s d)).
Proof.
  intros HT ->. split.
  - intros (t & Ht & ->). exists (t * T). split; [nra|]. unfold along, vadd, smul, vsub. destruct x, d. cbn [fst snd]. apply pair_eq; ring.
  - intros (s & Hs & ->). exists (s / T). split.
    + split; [apply Rmult_le_pos; [lra|left; apply Rinv_0_lt_compat; lra]|]. apply Rmult_le_reg_r with T; [lra|]. replace (s / T * T) with s by (field; lra). lra.
    + unfold along, vadd, smul, vsub. destruct x, d. cbn [fst snd]. apply pair_eq; field; lra.
Qed.
Lemma line_along x e z p d T : T <> 0 -> e = vadd x (smul T d) -> (exists k, k <> 0 /\ z = vadd x (smul k d)) ->
  on_line x e p <-> on_line x z p.
Proof.
  intros HT -> (k & Hk & ->). split; intros (t & ->).
  - exists (t * T / k). unfold along, vadd, smul, vsub. destruct x, d. cbn [fst snd]. apply pair_eq; field; exact Hk.
  - exists (t * k / T). unfold along, vadd, smul, vsub. destruct x, d. cbn [fst snd]. apply pair_eq; field; exact HT.
Qed.
Lemma nodup_singleton (l : list RPt) b : NoDup l -> (forall p, In p l <-> p = b) -> l = [b].
Proof.
  intros N I. destruct l as [|p l]; [exfalso; apply (I b); reflexivity|]. assert (p = b) by (apply I; left; reflexivity). subst p.
  destruct l as [|q l]; [reflexivity|]. exfalso. assert (q = b) by (apply I; right; left; reflexivity). subst q. inversion N. apply H1. left; reflexivity.
Qed.

Lemma boundary_mapping_core E x fi fo xo : good fi -> good fo -> 0 < fst (e_a E) -> 0 < snd (e_a E) ->
  transform (e_mm E) x fi OBSTACLE = Ret xo -> ell_form (e_a E) (e_xr E) < 1 -> xo <> e_xr E ->
  (forall d T, T = 11 / 10 * e_diam E -> 0 < T -> norm d = 1 -> d = smul (/ norm (vsub xo (e_xr E))) (vsub xo (e_xr E)) ->
     (xo = vadd (e_xr E) (smul (norm (vsub xo (e_xr E))) d)) -> 0 < norm (vsub xo (e_xr E)) ->
     forall p, In p (ell_line (e_a E) (e_xr E) (vadd (e_xr E) (smul T d))) <-> on_seg (e_xr E) (vadd (e_xr E) (smul T d)) p /\ on_ellipse (e_a E) p) ->
  exists b, e_boundary_mapping E x fi fo = Ret (Some (to_frame (e_mm E) fo b)) /\ on_ellipse (e_a E) b /\ on_ray (e_xr E) xo b /\
    forall b', on_ellipse (e_a E) b' -> on_ray (e_xr E) xo b' -> b' = b.
Proof.
  intros Gi Go A B Tx I N HL. set (a := e_a E) in *. set (xr := e_xr E) in *.
  set (v := vsub xo xr). assert (V : v <> (0, 0)).
  { intros Z. apply N. unfold v, vsub in Z. destruct xo, xr. cbn in Z. injection Z as Z1 Z2. apply pair_eq; lra. }
  pose proof (norm_pos v V) as VP. set (d := smul (/ norm v) v).
  assert (RD : reference_direction (e_mm E) xr xo OBSTACLE OBSTACLE = Ret d).
  { unfold reference_direction. assert (O : forall y, transform (e_mm E) y OBSTACLE OBSTACLE = Ret y) by (intros; destruct (e_mm E); reflexivity).
    rewrite !O. cbn [bind]. change (psub xo xr) with v. rewrite np_norm_norm. destruct (Reqb_spec (norm v) 0); [lra|]. reflexivity. }
  unfold e_boundary_mapping. rewrite Tx. cbn [bind]. fold xr. rewrite RD. cbn [bind].
  set (T := 11 / 10 * e_diam E). change (padd xr (scale T d)) with (vadd xr (smul T d)). set (e := vadd xr (smul T d)).
  assert (Lin : e_line_intersection E xr e OBSTACLE OBSTACLE = Ret (ell_line a xr e)).
  { unfold e_line_intersection. assert (O : forall y, transform (e_mm E) y OBSTACLE OBSTACLE = Ret y) by (intros; destruct (e_mm E); reflexivity).
    rewrite !O. cbn [bind]. rewrite map_res_frames by (right; reflexivity). f_equal. fold a. rewrite <- map_id. apply map_ext. intros. apply to_frame_obs. }
  rewrite Lin. cbn [bind].
  assert (DN : norm d = 1) by (unfold d; rewrite norm_smul, Rabs_pos_eq; [field; lra|left; apply Rinv_0_lt_compat; lra]).
  assert (DV : d <> (0, 0)). { intros Z. rewrite Z in DN. unfold norm, norm2, dot in DN. cbn in DN. rewrite !Rmult_0_l, Rplus_0_l, sqrt_0 in DN. lra. }
  assert (TP : 0 < T) by (unfold T, e_diam; fold a; pose proof (Rmax_l (2 * fst a) (2 * snd a)); lra).
  set (M := Rmax (fst a) (snd a)). assert (MP : 0 < M) by (unfold M; pose proof (Rmax_l (fst a) (snd a)); lra).
  assert (DM : e_diam E = 2 * M) by (unfold e_diam, M; fold a; rewrite <- RmaxRmult by lra; reflexivity).
  (* the far end is outside *)
  assert (OUT : 1 < ell_form a e).
  { pose proof (amax_bound a xr A B) as X1. pose proof (amax_bound a e A B) as X2. fold M in X1, X2.
    assert (NX : norm xr < M).
    { apply Rnot_le_lt. intros K. pose proof (norm_sq xr) as Q.
      assert (M2 : 0 < M ^ 2) by (apply pow_lt; exact MP).
      assert (K2 : M ^ 2 * ell_form a xr < M ^ 2 * 1) by (apply Rmult_lt_compat_l; assumption).
      assert (K3 : M * M <= norm xr * norm xr) by (apply Rmult_le_compat; lra). lra. }
    assert (NE : 12 / 10 * M <= norm e).
    { pose proof (norm_triangle e (smul (-1) xr)) as TR. rewrite norm_opp in TR.
      replace (vadd e (smul (-1) xr)) with (smul T d) in TR by (unfold e, vadd, smul; destruct xr, d; cbn [fst snd]; apply pair_eq; ring).
      rewrite norm_smul, DN, Rabs_pos_eq in TR by lra. unfold T in TR. rewrite DM in TR. lra. }
    pose proof (norm_sq e) as Q.
    assert (K3 : 12 / 10 * M * (12 / 10 * M) <= norm e * norm e) by (apply Rmult_le_compat; lra).
    assert (M2 : 0 < M * M) by (apply Rmult_lt_0_compat; exact MP).
    assert (M ^ 2 * 1 < M ^ 2 * ell_form a e) by lra.
    apply Rmult_lt_reg_l with (M ^ 2); [nra|lra]. }
  destruct (ray_exit a xr d A B I DV) as (t & Ht & Hon & Huniq & Hout).
  assert (TT : t < T) by (apply Hout; [lra|exact OUT]).
  set (b := vadd xr (smul t d)) in *.
  (* the ray through x is the ray in direction d *)
  assert (XO : xo = vadd xr (smul (norm v) d)).
  { unfold d. unfold v at 3. destruct xo as [x1 x2], xr as [r1 r2]. unfold vadd, smul, vsub. cbn [fst snd]. apply pair_eq; field; lra. }
  assert (RAY : forall p, on_ray xr xo p <-> exists s, 0 <= s /\ p = vadd xr (smul s d)).
  { intros p. rewrite XO. split; intros (s & Hs & ->).
    - exists (s * norm v). split; [nra|]. unfold along, vadd, smul, vsub. destruct xr, d. cbn [fst snd]. apply pair_eq; ring.
    - exists (s / norm v). split; [apply Rmult_le_pos; [lra|left; apply Rinv_0_lt_compat; lra]|].
      unfold along, vadd, smul, vsub. destruct xr, d. cbn [fst snd]. apply pair_eq; field; lra. }
  pose proof (HL d T eq_refl TP DN eq_refl XO VP) as IN. fold xr a e in IN. clear HL.
  assert (L1 : forall p, In p (ell_line a xr e) <-> p = b).
  { intros p. rewrite IN, (seg_along xr e p d T TP eq_refl). split.
    - intros [(s & Hs & ->) Hp]. unfold b. rewrite (Huniq s ltac:(lra) Hp). reflexivity.
    - intros ->. split; [|exact Hon]. exists t. split; [lra|reflexivity]. }
  exists b. split; [|split; [exact Hon|split]].
  - destruct (ell_line a xr e) as [|p0 [|p1 l]].
    + destruct (proj2 (L1 b) eq_refl).
    + rewrite (proj1 (L1 p0) (or_introl eq_refl)), (to_frame_ok _ _ _ Go). reflexivity.
    + rewrite (proj1 (L1 p0) (or_introl eq_refl)), (proj1 (L1 p1) (or_intror (or_introl eq_refl))).
      destruct Rltb; rewrite (to_frame_ok _ _ _ Go); reflexivity.
  - apply RAY. exists t. split; [lra|reflexivity].
  - intros b' Hb Hr. apply RAY in Hr. destruct Hr as (s & Hs & ->). unfold b. rewrite (Huniq s Hs Hb). reflexivity.
Qed.
Lemma boundary_mapping_gentle E x fi fo xo : good fi -> good fo -> 0 < fst (e_a E) -> 0 < snd (e_a E) ->
  transform (e_mm E) x fi OBSTACLE = Ret xo -> ell_form (e_a E) (e_xr E) < 1 -> xo <> e_xr E ->
  Rabs (snd xo - snd (e_xr E)) <= 100 * Rabs (fst xo - fst (e_xr E)) -> 1 / 100 <= e_diam E ->
  clear_crossing (e_a E) (e_xr E) xo ->
  exists b, e_boundary_mapping E x fi fo = Ret (Some (to_frame (e_mm E) fo b)) /\ on_ellipse (e_a E) b /\ on_ray (e_xr E) xo b /\
    forall b', on_ellipse (e_a E) b' -> on_ray (e_xr E) xo b' -> b' = b.
Proof.
  intros Gi Go A B Tx I N St Dm CC. apply boundary_mapping_core; auto.
  intros d T TE TP DN ED XO VP. set (a := e_a E) in *. set (xr := e_xr E) in *. set (v := vsub xo xr) in *. set (e := vadd xr (smul T d)).
  assert (GE : gentle xr e).
  { assert (D2 : Rabs (snd d) <= 100 * Rabs (fst d)).
    { rewrite ED. unfold smul. cbn [fst snd]. rewrite !Rabs_mult. pose proof (Rabs_pos (/ norm v)).
      assert (St' : Rabs (snd v) <= 100 * Rabs (fst v)) by exact St.
      apply Rmult_le_compat_l with (r := Rabs (/ norm v)) in St'; [lra|assumption]. }
    assert (D0 : 1 / 101 <= Rabs (fst d)).
    { assert (Q : Rabs (fst d) * Rabs (fst d) + Rabs (snd d) * Rabs (snd d) = 1).
      { pose proof (norm_sq d) as Q. rewrite DN in Q. unfold norm2, dot in Q. rewrite <- !Rabs_mult.
        rewrite !Rabs_pos_eq by apply Rle_0_sqr. lra. }
      pose proof (Rabs_pos (fst d)). pose proof (Rabs_pos (snd d)). nra. }
    split; unfold e, vadd, smul; cbn [fst snd].
    - replace (fst xr + T * fst d - fst xr) with (T * fst d) by ring. rewrite Rabs_mult, (Rabs_pos_eq T) by lra. rewrite TE. nra.
    - replace (fst xr + T * fst d - fst xr) with (T * fst d) by ring. replace (snd xr + T * snd d - snd xr) with (T * snd d) by ring.
      rewrite !Rabs_mult, (Rabs_pos_eq T) by lra. nra. }
  assert (LE : forall p, on_line xr e p <-> on_line xr xo p).
  { intros p. apply line_along with (d := d) (T := T); [lra|reflexivity|]. exists (norm v). split; [lra|exact XO]. }
  assert (CE : clear_crossing a xr e).
  { destruct CC as [K|(p & q & K1 & K2 & K3 & K4 & K5)].
    - left. intros p Hp. apply K. apply LE. exact Hp.
    - right. exists p, q. rewrite !LE. auto. }
  exact (proj2 (ell_line_exact a xr e A B GE CE)).
Qed.
Lemma boundary_mapping_axis E x fi fo xo : good fi -> good fo -> 0 < fst (e_a E) -> 0 < snd (e_a E) ->
  transform (e_mm E) x fi OBSTACLE = Ret xo -> ell_form (e_a E) (e_xr E) < 1 -> xo <> e_xr E ->
  fst (e_xr E) = 0 -> fst xo = 0 ->
  exists b, e_boundary_mapping E x fi fo = Ret (Some (to_frame (e_mm E) fo b)) /\ on_ellipse (e_a E) b /\ on_ray (e_xr E) xo b.
Proof.
  intros Gi Go A B Tx I N X0 X1. destruct (boundary_mapping_core E x fi fo xo) as (b & Q & O & R & _); eauto.
  intros d T _ _ _ ED _ _. assert (D0 : fst d = 0) by (rewrite ED; unfold smul, vsub; cbn [fst snd]; rewrite X0, X1; ring).
  clear ED. assert (EX : exists yr, e_xr E = (0, yr)) by (exists (snd (e_xr E)); rewrite <- X0; destruct (e_xr E); reflexivity). destruct EX as [yr EX]. rewrite EX.
  replace (vadd (0, yr) (smul T d)) with ((0, yr + T * snd d) : Pt) by (unfold vadd, smul; cbn [fst snd]; rewrite D0; apply pair_eq; ring).
  apply ell_line_axis; assumption.
Qed.

(** convexity *)
Lemma ellipse_convex a : 0 < fst a -> 0 < snd a -> convex (in_ellipse a).
Proof.
  intros A B p q r P Q (t & Ht & ->). unfold in_ellipse, ell_form, along, vadd, smul, vsub in *. cbn [fst snd].
  replace ((fst p + t * (fst q - fst p)) / fst a) with ((1 - t) * (fst p / fst a) + t * (fst q / fst a)) by (field; lra).
  replace ((snd p + t * (snd q - snd p)) / snd a) with ((1 - t) * (snd p / snd a) + t * (snd q / snd a)) by (field; lra).
  set (p1 := fst p / fst a) in *. set (q1 := fst q / fst a) in *. set (p2 := snd p / snd a) in *. set (q2 := snd q / snd a) in *.
  assert (E : ((1 - t) * p1 + t * q1) ^ 2 + ((1 - t) * p2 + t * q2) ^ 2 =
    (1 - t) * (p1 ^ 2 + p2 ^ 2) + t * (q1 ^ 2 + q2 ^ 2) - t * (1 - t) * ((p1 - q1) ^ 2 + (p2 - q2) ^ 2)) by ring.
  rewrite E. pose proof (pow2_ge_0 (p1 - q1)). pose proof (pow2_ge_0 (p2 - q2)).
  assert (0 <= t * (1 - t) * ((p1 - q1) ^ 2 + (p2 - q2) ^ 2)) by (apply Rmult_le_pos; [apply Rmult_le_pos|]; lra). nra.
Qed.
Lemma hull_in_convex (S : region) ps q : convex S -> (forall p, In p ps -> S p) -> in_hull ps q -> S q.
Proof.
  intros C.
  assert (G : forall ps ws, length ws = length ps -> Forall (fun w => 0 <= w) ws -> 0 < rsum ws -> (forall p, In p ps -> S p) -> S (smul (/ rsum ws) (wsum ws ps))).
  { clear ps q. induction ps as [|p ps IH]; intros ws L F Q I.
    - destruct ws; [cbn in Q; lra|discriminate].
    - destruct ws as [|w ws]; [discriminate|]. cbn in L. injection L as L. inversion F; subst. cbn [wsum].
      change (rsum (w :: ws)) with (w + rsum ws) in *.
      assert (RN : 0 <= rsum ws). { clear - H2. induction ws; cbn; [lra|]. inversion H2; subst. specialize (IHws H3). unfold rsum in IHws. lra. }
      destruct (Req_dec (rsum ws) 0) as [Z|Z].
      + assert (W0 : wsum ws ps = (0, 0)).
        { clear - H2 Z L. revert ws H2 Z L. induction ps as [|p ps IH]; intros [|w ws] H2 Z L; try reflexivity; try discriminate.
          cbn [wsum]. change (rsum (w :: ws)) with (w + rsum ws) in Z. inversion H2; subst.
          assert (0 <= rsum ws). { clear - H3. induction ws; cbn; [lra|]. inversion H3; subst. specialize (IHws H2). unfold rsum in IHws. lra. }
          rewrite (IH ws); auto; [|lra]. unfold vadd, smul. cbn [fst snd]. apply pair_eq; replace w with 0 by lra; ring. }
        rewrite W0, Z. replace (smul (/ (w + 0)) (vadd (smul w p) (0, 0))) with p; [apply I; left; reflexivity|].
        destruct p. unfold vadd, smul. cbn [fst snd]. apply pair_eq; field; lra.
      + apply (C p (smul (/ rsum ws) (wsum ws ps))).
        * apply I. left. reflexivity.
        * apply IH; auto; [lra|]. intros; apply I; right; assumption.
        * exists (rsum ws / (w + rsum ws)). split.
          -- split; [apply Rmult_le_pos; [lra|left; apply Rinv_0_lt_compat; lra]|]. apply Rmult_le_reg_r with (w + rsum ws); [lra|].
             replace (rsum ws / (w + rsum ws) * (w + rsum ws)) with (rsum ws) by (field; lra). lra.
          -- destruct p, (wsum ws ps). unfold along, vadd, smul, vsub. cbn [fst snd]. apply pair_eq; field; lra. }
  intros I (ws & L & F & R1 & <-). specialize (G ps ws L F ltac:(lra) I). rewrite R1 in G.
  replace (smul (/ 1) (wsum ws ps)) with (wsum ws ps) in G; [exact G|]. destruct (wsum ws ps). unfold smul. cbn [fst snd]. apply pair_eq; field.
Qed.

(** what a frame shows of the point with obstacle coordinates [z] *)
Definition shown (m : option mm) (f : frame) (z : Pt) : Pt :=
  match m, f with Some m', GLOBAL => place (m_rot m') (m_pos m') z | _, _ => z end.
Lemma to_frame_shown m f z : good f -> to_frame m f z = shown m f z.
Proof. intros [->| ->]; destruct m as [m|]; unfold to_frame; cbn; try reflexivity. apply affine_forward. Qed.
Lemma from_shown m f z : good f -> transform m (shown m f z) f OBSTACLE = Ret z.
Proof.
  intros Hf. rewrite <- to_frame_shown by exact Hf. apply transform_roundtrip; [right; reflexivity|exact Hf|]. apply to_frame_ok. exact Hf.
Qed.
