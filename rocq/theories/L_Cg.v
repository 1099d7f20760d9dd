(** Proofs about the model of utils/cg.py (transforms, orientation, intersections). *)
From Coq Require Import Reals Lra Psatz List Bool Qreals QArith.
From Verif Require Import Num Spec M_Cg L_Geom.
Import ListNotations.
Open Scope R_scope.

(** *** affine_transform *)
Lemma affine_forward x rot tr : affine_transform x rot tr false = place rot tr x.
Proof.
  unfold affine_transform. destruct (Reqb_spec rot 0) as [->|]; simpl; unv.
  - rewrite cos_0, sin_0. f_equal; ring.
  - reflexivity.
Qed.
Lemma affine_back x rot tr : affine_transform x rot tr true = rotv (- rot) (vsub x tr).
Proof.
  unfold affine_transform. destruct (Reqb_spec rot 0) as [->|]; simpl; unv.
  - rewrite Ropp_0, cos_0, sin_0. f_equal; ring.
  - rewrite cos_neg, sin_neg. f_equal; ring.
Qed.
Lemma rotv_cancel r p : rotv (- r) (rotv r p) = p.
Proof.
  destruct p as [x y]; unv. rewrite cos_neg, sin_neg. pose proof (sin2_cos2 r) as H. unfold Rsqr in H.
  f_equal.
  - transitivity (x * (sin r * sin r + cos r * cos r)); [ring | rewrite H; ring].
  - transitivity (y * (sin r * sin r + cos r * cos r)); [ring | rewrite H; ring].
Qed.
Lemma rotv_cancel' r p : rotv r (rotv (- r) p) = p.
Proof. rewrite <- (Ropp_involutive r) at 1. apply rotv_cancel. Qed.
Lemma affine_roundtrip x rot tr :
  affine_transform (affine_transform x rot tr false) rot tr true = x /\
  affine_transform (affine_transform x rot tr true) rot tr false = x.
Proof.
  rewrite !affine_back, !affine_forward. unfold place. split.
  - replace (vsub (vadd (rotv rot x) tr) tr) with (rotv rot x).
    + apply rotv_cancel.
    + destruct (rotv rot x), tr; unv. f_equal; ring.
  - rewrite rotv_cancel'. destruct x, tr; unv. f_equal; ring.
Qed.
Lemma rotv_cross r p q : cross (rotv r p) (rotv r q) = cross p q.
Proof.
  destruct p as [a b], q as [c d]; unv. pose proof (sin2_cos2 r) as H. unfold Rsqr in H.
  transitivity ((a * d - b * c) * (sin r * sin r + cos r * cos r)); [ring | rewrite H; ring].
Qed.
Lemma rotv_dot r p q : dot (rotv r p) (rotv r q) = dot p q.
Proof.
  destruct p as [a b], q as [c d]; unv. pose proof (sin2_cos2 r) as H. unfold Rsqr in H.
  transitivity ((a * c + b * d) * (sin r * sin r + cos r * cos r)); [ring | rewrite H; ring].
Qed.
Lemma rotv_norm r p : norm (rotv r p) = norm p.
Proof. unfold norm, norm2. rewrite rotv_dot. reflexivity. Qed.
Lemma rotv_sub r p q : rotv r (vsub p q) = vsub (rotv r p) (rotv r q).
Proof. destruct p, q; unv; f_equal; ring. Qed.
Lemma vsub_place r t p q : vsub (place r t p) (place r t q) = rotv r (vsub p q).
Proof. destruct p, q, t; unv; f_equal; ring. Qed.
Lemma place_area r t a b c : area2 (place r t a) (place r t b) (place r t c) = area2 a b c.
Proof. unfold area2. rewrite !vsub_place. apply rotv_cross. Qed.
Lemma place_dist r t a b : dist (place r t a) (place r t b) = dist a b.
Proof. unfold dist. rewrite vsub_place. apply rotv_norm. Qed.
Lemma back_area r t a b c :
  area2 (rotv r (vsub a t)) (rotv r (vsub b t)) (rotv r (vsub c t)) = area2 a b c.
Proof.
  unfold area2. rewrite <- !rotv_sub, rotv_cross. destruct a, b, c, t; unv; ring.
Qed.
Lemma affine_rigid rot tr inv a b :
  dist (affine_transform a rot tr inv) (affine_transform b rot tr inv) = dist a b.
Proof.
  destruct inv; rewrite ?affine_forward, ?affine_back.
  - unfold dist. rewrite <- rotv_sub, rotv_norm. f_equal. destruct a, b, tr; unv; f_equal; ring.
  - apply place_dist.
Qed.
Lemma affine_orientation rot tr inv a b c :
  orientation_val (affine_transform a rot tr inv) (affine_transform b rot tr inv)
    (affine_transform c rot tr inv) = orientation_val a b c.
Proof.
  rewrite !orientation_area. f_equal.
  destruct inv; rewrite ?affine_forward, ?affine_back; [apply back_area | apply place_area].
Qed.
Lemma affine_turns rot tr inv a b c :
  let f p := affine_transform p rot tr inv in
  is_ccw (f a) (f b) (f c) = is_ccw a b c /\ is_cw (f a) (f b) (f c) = is_cw a b c /\
  is_collinear (f a) (f b) (f c) = is_collinear a b c.
Proof.
  cbv zeta. unfold is_ccw, is_cw, is_collinear. rewrite affine_orientation. auto.
Qed.

(** *** orientation *)
Lemma turn_exclusive a b c : ~ (is_cw a b c = true /\ is_ccw a b c = true).
Proof. rewrite is_cw_iff, is_ccw_iff. pose proof TH_pos. lra. Qed.
Lemma bool_iff (b c : bool) : (b = true <-> c = true) -> b = c.
Proof. destruct b, c; intros [H1 H2]; try reflexivity; [symmetry; auto | auto]. Qed.
Lemma turn_reverse a b c : is_ccw c b a = is_cw a b c /\ is_cw c b a = is_ccw a b c.
Proof.
  split; apply bool_iff; rewrite is_ccw_iff, is_cw_iff, area2_rev; lra.
Qed.
Lemma turn_cyclic a b c :
  is_ccw b c a = is_ccw a b c /\ is_cw b c a = is_cw a b c /\ is_collinear b c a = is_collinear a b c.
Proof.
  split; [|split]; apply bool_iff; rewrite ?is_ccw_iff, ?is_cw_iff, ?is_collinear_iff, area2_cyc; lra.
Qed.
Lemma np_orientation_rows a b c :
  length a = length b -> length b = length c ->
  np_orientation_val a b c = map (fun t => orientation_val (fst (fst t)) (snd (fst t)) (snd t))
                                 (combine (combine a b) c).
Proof.
  revert b c; induction a as [|x a IH]; intros [|y b] [|z c] H1 H2; simpl in *; try discriminate; auto.
  f_equal. apply IH; congruence.
Qed.
Lemma trichotomy_off_threshold a b c :
  Rabs (area2 a b c) <> TH ->
  (is_cw a b c = true /\ is_ccw a b c = false /\ is_collinear a b c = false) \/
  (is_cw a b c = false /\ is_ccw a b c = true /\ is_collinear a b c = false) \/
  (is_cw a b c = false /\ is_ccw a b c = false /\ is_collinear a b c = true).
Proof.
  intros H. pose proof TH_pos.
  assert (Hc : is_collinear a b c = false <-> ~ (- TH < area2 a b c < TH)).
  { pose proof (is_collinear_iff a b c) as [P Q]. destruct (is_collinear a b c); split; intros; auto.
    - discriminate.
    - exfalso; auto.
    - intro K. specialize (Q K). discriminate. }
  rewrite !is_cw_iff, !is_cw_false, !is_ccw_iff, !is_ccw_false, !is_collinear_iff, !Hc.
  unfold Rabs in H. destruct (Rcase_abs (area2 a b c)).
  - destruct (Rlt_dec (area2 a b c) (- TH)); [left; lra | right; right; lra].
  - destruct (Rlt_dec TH (area2 a b c)); [right; left; lra | right; right; lra].
Qed.

(** *** is_between *)
Lemma np_norm_norm p : np_norm p = norm p.
Proof. reflexivity. Qed.
Lemma psub_vsub (a b : Pt) : psub a b = vsub a b.
Proof. reflexivity. Qed.
Lemma is_between_iff a b c :
  is_between a b c = true <-> dist a b + dist b c <= dist a c + btw_eps (dist a c).
Proof.
  unfold is_between, np_isclose. rewrite Rleb_true.
  assert (E : forall p q : Pt, np_norm (psub p q) = dist p q) by reflexivity.
  rewrite !E, (dist_sym c b).
  pose proof (dist_nonneg a c). pose proof (dist_triangle a b c).
  rewrite (Rabs_pos_eq (dist a c)), Rabs_pos_eq by lra. unfold btw_eps. lra.
Qed.
Lemma seg_additive a b c : on_seg a c b -> dist a b + dist b c = dist a c.
Proof.
  intros (t & Ht & ->). rewrite dist_along by lra.
  rewrite (dist_sym (along a c t) c).
  replace (along a c t) with (along c a (1 - t)) by (destruct a, c; unv; f_equal; ring).
  rewrite dist_along by lra. rewrite (dist_sym c a). ring.
Qed.
Lemma is_between_accepts a b c : on_seg a c b -> is_between a b c = true.
Proof.
  intros H. apply is_between_iff. rewrite (seg_additive _ _ _ H).
  pose proof (dist_nonneg a c). unfold btw_eps. lra.
Qed.
Lemma is_between_thin a b c :
  is_between a b c = true ->
  let L := dist a c in let e := btw_eps L in
  exists q, on_seg a c q /\
    (dist b q <= e \/ dist b q * dist b q <= e * (2 * L + e) / 4).
Proof.
  intros H L e. rewrite is_between_iff in H. fold L e in H.
  pose proof (dist_nonneg a c) as HL. fold L in HL.
  assert (He : 0 < e) by (unfold e, btw_eps; lra).
  pose proof (dist_nonneg a b) as H1. pose proof (dist_nonneg b c) as H2.
  destruct (Req_dec L 0) as [L0|L0].
  - exists a. split; [apply on_seg_l|]. left. rewrite (dist_sym b a). lra.
  - assert (HLp : 0 < L) by (destruct HL; [assumption | congruence]).
    assert (HLLp : 0 < L * L) by (apply Rmult_lt_0_compat; assumption).
    assert (HLL : L * L = norm2 (vsub a c)) by apply norm_sq.
    assert (HAB : dist a b * dist a b = norm2 (vsub a b)) by apply norm_sq.
    assert (HBC : dist b c * dist b c = norm2 (vsub b c)) by apply norm_sq.
    set (t := dot (vsub b a) (vsub c a) / (L * L)).
    assert (Ht : t * (L * L) = dot (vsub b a) (vsub c a)) by (unfold t; field; auto).
    destruct (Rlt_dec t 0) as [Hlt|Hge].
    { exists a. split; [apply on_seg_l|]. left. rewrite (dist_sym b a).
      assert (L <= dist b c).
      { apply sq_le; auto. rewrite HBC, HLL.
        assert (t * (L * L) < 0) by nra. rewrite Ht in H0.
        destruct a, b, c; unv. nra. }
      lra. }
    destruct (Rlt_dec 1 t) as [Hgt|Hle].
    { exists c. split; [apply on_seg_r|]. left.
      assert (L <= dist a b).
      { apply sq_le; auto. rewrite HAB, HLL.
        assert (0 < (t - 1) * (L * L)) by nra.
        replace ((t - 1) * (L * L)) with (t * (L * L) - L * L) in H0 by ring.
        rewrite Ht, HLL in H0. destruct a, b, c; unv. nra. }
      lra. }
    exists (along a c t). split; [exists t; split; [lra|reflexivity]|]. right.
    set (q := along a c t). assert (Hq : dist b q * dist b q = norm2 (vsub b q)) by apply norm_sq.
    set (y2 := dist b q * dist b q) in *.
    set (r1 := dist a b) in *. set (r2 := dist b c) in *.
    (* Pythagoras *)
    assert (P1 : r1 * r1 = t * t * (L * L) + y2).
    { rewrite HAB, Hq. unfold q. clearbody t.
      replace (norm2 (vsub b (along a c t))) with
        (norm2 (vsub a b) - 2 * t * dot (vsub b a) (vsub c a) + t * t * norm2 (vsub a c))
        by (destruct a, b, c; unv; ring).
      rewrite <- Ht, <- HLL. ring. }
    assert (P2 : r2 * r2 = (1 - t) * (1 - t) * (L * L) + y2).
    { rewrite HBC, Hq. unfold q. clearbody t.
      replace (norm2 (vsub b (along a c t))) with
        (norm2 (vsub b c) + 2 * (1 - t) * (norm2 (vsub b a) - norm2 (vsub b a) + dot (vsub b a) (vsub c a) - norm2 (vsub a c)) + (1 - t) * (1 - t) * norm2 (vsub a c))
        by (destruct a, b, c; unv; ring).
      replace (norm2 (vsub b a) - norm2 (vsub b a) + dot (vsub b a) (vsub c a) - norm2 (vsub a c))
        with ((t - 1) * (L * L)) by (rewrite <- HLL, <- Ht; ring).
      rewrite <- HLL. ring. }
    assert (Hy : 0 <= y2) by (unfold y2; nra).
    clearbody y2 r1 r2 t. clear q Hq HAB HBC HLL Ht.
    (* r1 + r2 <= L + e *)
    set (S := r1 + r2) in *. set (D := r1 - r2).
    assert (SD : S * D = (2 * t - 1) * (L * L)) by (unfold S, D; nra).
    assert (S2 : S * S + D * D = (L * L) * (1 + (2 * t - 1) * (2 * t - 1)) + 4 * y2) by (unfold S, D; nra).
    assert (HS : L <= S).
    { unfold S. apply sq_le; [lra|].
      assert (t * L <= r1) by (apply sq_le; nra).
      assert ((1 - t) * L <= r2) by (apply sq_le; nra). nra. }
    assert (HS' : S <= L + e) by lra.
    (* D = (2t-1) L^2 / S *)
    assert (E : 4 * y2 * (S * S) = (S * S - L * L) * (S * S - (2 * t - 1) * (2 * t - 1) * (L * L))).
    { assert (S * S * (D * D) = (2 * t - 1) * (2 * t - 1) * (L * L) * (L * L)).
      { replace (S * S * (D * D)) with ((S * D) * (S * D)) by ring. rewrite SD. ring. }
      replace (4 * y2) with (S * S + D * D - (L * L) * (1 + (2 * t - 1) * (2 * t - 1))) by lra.
      ring_simplify. ring_simplify in H0. lra. }
    assert (F : 4 * y2 * (S * S) <= (S * S - L * L) * (S * S)).
    { rewrite E. apply Rmult_le_compat_l; [nra|]. nra. }
    assert (G : 4 * y2 <= S * S - L * L) by (apply Rmult_le_reg_r with (S * S); nra).
    nra.
Qed.

(** *** get_intersection *)
Lemma denom_cross a1 a2 b1 b2 : crossing_denom a1 a2 b1 b2 = cross (vsub a2 a1) (vsub b2 b1).
Proof. destruct a1, a2, b1, b2; unfold crossing_denom; nR; unv; ring. Qed.
Lemma denom_diff a1 a2 b1 b2 : crossing_denom a1 a2 b1 b2 = area2 a1 a2 b2 - area2 a1 a2 b1.
Proof. rewrite denom_cross. destruct a1, a2, b1, b2; unv; ring. Qed.
Lemma denom_diff' a1 a2 b1 b2 : crossing_denom a1 a2 b1 b2 = area2 a1 b1 b2 - area2 a2 b1 b2.
Proof. rewrite denom_cross. destruct a1, a2, b1, b2; unv; ring. Qed.
Lemma num_area a1 a2 b1 : crossing_num a1 a2 b1 = - area2 a1 a2 b1.
Proof. destruct a1, a2, b1; unfold crossing_num; nR; unv; ring. Qed.
Lemma intersect_denom a1 a2 b1 b2 : intersect a1 a2 b1 b2 = true -> crossing_denom a1 a2 b1 b2 <> 0.
Proof.
  unfold intersect. intros H. apply andb_prop in H as [_ H]. rewrite denom_diff.
  destruct (is_ccw a1 a2 b1) eqn:E1, (is_ccw a1 a2 b2) eqn:E2; try discriminate;
    rewrite ?is_ccw_iff in E1; rewrite ?is_ccw_false in E1; rewrite ?is_ccw_iff in E2; rewrite ?is_ccw_false in E2; lra.
Qed.
Lemma crossing_on_b a1 a2 b1 b2 :
  crossing_point a1 a2 b1 b2 =
  along b1 b2 (- area2 a1 a2 b1 / crossing_denom a1 a2 b1 b2).
Proof.
  unfold crossing_point. rewrite num_area. nR. destruct b1, b2; unv; f_equal; ring.
Qed.
Lemma crossing_on_a a1 a2 b1 b2 : crossing_denom a1 a2 b1 b2 <> 0 ->
  crossing_point a1 a2 b1 b2 =
  along a1 a2 (area2 a1 b1 b2 / crossing_denom a1 a2 b1 b2).
Proof.
  intros H. rewrite crossing_on_b. rewrite denom_cross in *.
  destruct a1, a2, b1, b2; unv; f_equal; field; auto.
Qed.
Lemma crossing_lines a1 a2 b1 b2 : intersect a1 a2 b1 b2 = true ->
  crossing_denom a1 a2 b1 b2 <> 0 /\
  exists p, get_intersection a1 a2 b1 b2 = Some p /\ on_line a1 a2 p /\ on_line b1 b2 p.
Proof.
  intros H. pose proof (intersect_denom _ _ _ _ H) as Hd. split; auto.
  exists (crossing_point a1 a2 b1 b2). unfold get_intersection. rewrite H. simpl. split; auto. split.
  - rewrite crossing_on_a by auto. eexists; reflexivity.
  - rewrite crossing_on_b. eexists; reflexivity.
Qed.
Lemma line_unique a1 a2 b1 b2 p q :
  cross (vsub a2 a1) (vsub b2 b1) <> 0 ->
  on_line a1 a2 p -> on_line b1 b2 p -> on_line a1 a2 q -> on_line b1 b2 q -> p = q.
Proof.
  intros H (s & E1) (t & E2) (u & E3) (v & E4).
  assert (E : vsub p q = smul (s - u) (vsub a2 a1)).
  { rewrite E1, E3. destruct a1, a2; unv; f_equal; ring. }
  assert (E' : vsub p q = smul (t - v) (vsub b2 b1)).
  { rewrite E2, E4. destruct b1, b2; unv; f_equal; ring. }
  assert (s - u = 0).
  { assert (K : (s - u) * cross (vsub a2 a1) (vsub b2 b1) = 0).
    { transitivity (cross (smul (s - u) (vsub a2 a1)) (vsub b2 b1)).
      - destruct (vsub a2 a1), (vsub b2 b1); unv; ring.
      - rewrite <- E, E'. destruct (vsub b2 b1); unv; ring. }
    apply Rmult_integral in K. destruct K; auto; contradiction. }
  rewrite H0 in E. destruct p, q, (vsub a2 a1); unv. injection E; intros; f_equal; lra.
Qed.

Lemma properly_cross_intersect a1 a2 b1 b2 : properly_cross a1 a2 b1 b2 -> intersect a1 a2 b1 b2 = true.
Proof.
  pose proof TH_pos as HT. intros [H1 H2]. unfold intersect. apply andb_true_intro.
  assert (G : forall a b c a' b' c', opposite (area2 a b c) (area2 a' b' c') ->
    xorb (is_ccw a b c) (is_ccw a' b' c') = true).
  { intros a b c a' b' c' [[A B]|[A B]].
    - assert (is_ccw a b c = true) as -> by (apply is_ccw_iff; auto).
      assert (is_ccw a' b' c' = false) as -> by (apply is_ccw_false; lra). reflexivity.
    - assert (is_ccw a' b' c' = true) as -> by (apply is_ccw_iff; auto).
      assert (is_ccw a b c = false) as -> by (apply is_ccw_false; lra). reflexivity. }
  split; apply G; assumption.
Qed.
Lemma ratio01 x y : (0 < x /\ y < 0) \/ (x < 0 /\ 0 < y) -> 0 <= x / (x - y) <= 1.
Proof.
  intros [[A B]|[A B]].
  - assert (E : x - y > 0) by lra. split; [apply Rmult_le_reg_r with (x - y) | apply Rmult_le_reg_r with (x - y)]; auto;
    unfold Rdiv; rewrite Rmult_assoc, Rinv_l by lra; lra.
  - replace (x / (x - y)) with ((- x) / (y - x)) by (field; lra).
    split; [apply Rmult_le_reg_r with (y - x) | apply Rmult_le_reg_r with (y - x)]; try lra;
    unfold Rdiv; rewrite Rmult_assoc, Rinv_l by lra; lra.
Qed.
Lemma get_intersection_proper a1 a2 b1 b2 : properly_cross a1 a2 b1 b2 ->
  exists p, get_intersection a1 a2 b1 b2 = Some p /\ on_seg a1 a2 p /\ on_seg b1 b2 p /\
    forall q, on_seg a1 a2 q -> on_seg b1 b2 q -> q = p.
Proof.
  intros H. pose proof (properly_cross_intersect _ _ _ _ H) as HI.
  pose proof (intersect_denom _ _ _ _ HI) as Hd. pose proof TH_pos.
  destruct H as [H1 H2].
  assert (A : on_seg a1 a2 (crossing_point a1 a2 b1 b2)).
  { rewrite crossing_on_a by auto. eexists; split; [|reflexivity].
    rewrite denom_diff'. apply ratio01. unfold opposite in *. lra. }
  assert (B : on_seg b1 b2 (crossing_point a1 a2 b1 b2)).
  { rewrite crossing_on_b by auto. eexists; split; [|reflexivity].
    rewrite denom_diff.
    replace (- area2 a1 a2 b1 / (area2 a1 a2 b2 - area2 a1 a2 b1))
      with (area2 a1 a2 b1 / (area2 a1 a2 b1 - area2 a1 a2 b2)).
    - apply ratio01. unfold opposite in *. lra.
    - rewrite denom_diff in Hd. field. lra. }
  exists (crossing_point a1 a2 b1 b2). unfold get_intersection. rewrite HI. simpl.
  split; auto. split; auto. split; auto.
  intros q Q1 Q2. apply (line_unique a1 a2 b1 b2); try apply on_seg_line; auto.
  rewrite <- denom_cross; auto.
Qed.
Lemma get_intersection_endpoints a1 a2 b1 b2 p :
  intersect a1 a2 b1 b2 = false -> get_intersection a1 a2 b1 b2 = Some p ->
  ((p = a1 \/ p = a2) /\ is_between b1 p b2 = true) \/ ((p = b1 \/ p = b2) /\ is_between a1 p a2 = true).
Proof.
  unfold get_intersection. intros -> . simpl.
  destruct (is_between b1 a1 b2) eqn:E1; [intros [= <-]; auto|].
  destruct (is_between b1 a2 b2) eqn:E2; [intros [= <-]; auto|].
  destruct (is_between a1 b1 a2) eqn:E3; [intros [= <-]; auto|].
  destruct (is_between a1 b2 a2) eqn:E4; [intros [= <-]; auto|]. discriminate.
Qed.
Lemma get_intersection_none a1 a2 b1 b2 :
  get_intersection a1 a2 b1 b2 = None ->
  ~ on_seg b1 b2 a1 /\ ~ on_seg b1 b2 a2 /\ ~ on_seg a1 a2 b1 /\ ~ on_seg a1 a2 b2 /\
  ~ properly_cross a1 a2 b1 b2.
Proof.
  intros H.
  assert (HP : ~ properly_cross a1 a2 b1 b2).
  { intros HP. destruct (get_intersection_proper _ _ _ _ HP) as (p & E & _). congruence. }
  revert H. unfold get_intersection. destruct (intersect a1 a2 b1 b2) eqn:EI; simpl; [discriminate|].
  destruct (is_between b1 a1 b2) eqn:E1; [discriminate|].
  destruct (is_between b1 a2 b2) eqn:E2; [discriminate|].
  destruct (is_between a1 b1 a2) eqn:E3; [discriminate|].
  destruct (is_between a1 b2 a2) eqn:E4; [discriminate|]. intros _.
  repeat split; auto; intro K; apply is_between_accepts in K; congruence.
Qed.

(** *** Lines, segments, rays *)
Definition ldir (l : line R) : Pt := vsub (p2 l) (p1 l).
Definition ldet (s o : line R) : R := cross (ldir s) (ldir o).

Lemma line_int_none s o : line_intersection s o = None <-> Rabs (ldet s o) < TH.
Proof.
  unfold line_intersection. rewrite parallel_eq. nR.
  replace ((fst (p1 s) - fst (p2 s)) * (snd (p1 o) - snd (p2 o)) - (snd (p1 s) - snd (p2 s)) * (fst (p1 o) - fst (p2 o)))
    with (ldet s o) by (unfold ldet, ldir; unv; ring).
  destruct (Rltb_spec (Rabs (ldet s o)) TH); split; intros; auto; try discriminate. lra.
Qed.
Lemma line_int_some s o p : line_intersection s o = Some p ->
  TH <= Rabs (ldet s o) /\ on_line (p1 s) (p2 s) p /\ on_line (p1 o) (p2 o) p /\
  (forall q, on_line (p1 s) (p2 s) q -> on_line (p1 o) (p2 o) q -> q = p).
Proof.
  unfold line_intersection. rewrite parallel_eq. nR.
  set (den := (fst (p1 s) - fst (p2 s)) * (snd (p1 o) - snd (p2 o)) - (snd (p1 s) - snd (p2 s)) * (fst (p1 o) - fst (p2 o))).
  assert (Hden : den = ldet s o) by (unfold den, ldet, ldir; unv; ring).
  destruct (Rltb_spec (Rabs den) TH) as [|Hge]; [discriminate|]. intros [= <-].
  assert (Hnz : den <> 0).
  { intros E. rewrite E, Rabs_R0 in Hge. pose proof TH_pos. lra. }
  rewrite <- Hden. split; [auto|].
  assert (A : on_line (p1 s) (p2 s)
     (((fst (p1 s) * snd (p2 s) - snd (p1 s) * fst (p2 s)) * (fst (p1 o) - fst (p2 o)) - (fst (p1 s) - fst (p2 s)) * (fst (p1 o) * snd (p2 o) - snd (p1 o) * fst (p2 o))) / den,
      ((fst (p1 s) * snd (p2 s) - snd (p1 s) * fst (p2 s)) * (snd (p1 o) - snd (p2 o)) - (snd (p1 s) - snd (p2 s)) * (fst (p1 o) * snd (p2 o) - snd (p1 o) * fst (p2 o))) / den)).
  { exists (((fst (p1 s) - fst (p1 o)) * (snd (p1 o) - snd (p2 o)) - (snd (p1 s) - snd (p1 o)) * (fst (p1 o) - fst (p2 o))) / den).
    unv. apply pair_eq; unfold den in *; field; auto. }
  assert (B : on_line (p1 o) (p2 o)
     (((fst (p1 s) * snd (p2 s) - snd (p1 s) * fst (p2 s)) * (fst (p1 o) - fst (p2 o)) - (fst (p1 s) - fst (p2 s)) * (fst (p1 o) * snd (p2 o) - snd (p1 o) * fst (p2 o))) / den,
      ((fst (p1 s) * snd (p2 s) - snd (p1 s) * fst (p2 s)) * (snd (p1 o) - snd (p2 o)) - (snd (p1 s) - snd (p2 s)) * (fst (p1 o) * snd (p2 o) - snd (p1 o) * fst (p2 o))) / den)).
  { exists (((fst (p1 s) - fst (p1 o)) * (snd (p1 s) - snd (p2 s)) - (snd (p1 s) - snd (p1 o)) * (fst (p1 s) - fst (p2 s))) / den).
    unv. apply pair_eq; unfold den in *; field; auto. }
  split; [exact A|]. split; [exact B|].
  intros q Q1 Q2. apply (line_unique (p1 s) (p2 s) (p1 o) (p2 o)); auto.
  change (ldet s o <> 0). rewrite <- Hden. auto.
Qed.
Lemma line_int_sym s o : line_intersection s o = line_intersection o s.
Proof.
  destruct (line_intersection s o) as [p|] eqn:E1, (line_intersection o s) as [q|] eqn:E2; auto.
  - apply line_int_some in E1 as (_ & A & B & _). apply line_int_some in E2 as (_ & _ & _ & U).
    f_equal. apply U; auto.
  - apply line_int_none in E2. apply line_int_some in E1 as (K & _).
    unfold ldet in *. replace (cross (ldir o) (ldir s)) with (- cross (ldir s) (ldir o)) in E2
      by (unfold ldir; unv; ring). rewrite Rabs_Ropp in E2. lra.
  - apply line_int_none in E1. apply line_int_some in E2 as (K & _).
    unfold ldet in *. replace (cross (ldir s) (ldir o)) with (- cross (ldir o) (ldir s)) in E1
      by (unfold ldir; unv; ring). rewrite Rabs_Ropp in E1. lra.
Qed.

(** parameters of the common point *)
Definition tpar (s o : line R) : R :=
  ((fst (p1 s) - fst (p1 o)) * (snd (p1 o) - snd (p2 o)) - (snd (p1 s) - snd (p1 o)) * (fst (p1 o) - fst (p2 o))) /
  ((fst (p1 s) - fst (p2 s)) * (snd (p1 o) - snd (p2 o)) - (snd (p1 s) - snd (p2 s)) * (fst (p1 o) - fst (p2 o))).
Definition upar (s o : line R) : R :=
  ((fst (p1 s) - fst (p1 o)) * (snd (p1 s) - snd (p2 s)) - (snd (p1 s) - snd (p1 o)) * (fst (p1 s) - fst (p2 s))) /
  ((fst (p1 s) - fst (p2 s)) * (snd (p1 o) - snd (p2 o)) - (snd (p1 s) - snd (p2 s)) * (fst (p1 o) - fst (p2 o))).
Lemma ldet_code s o :
  (fst (p1 s) - fst (p2 s)) * (snd (p1 o) - snd (p2 o)) - (snd (p1 s) - snd (p2 s)) * (fst (p1 o) - fst (p2 o)) = ldet s o.
Proof. unfold ldet, ldir; unv; ring. Qed.
Lemma par_common s o : ldet s o <> 0 -> along (p1 s) (p2 s) (tpar s o) = along (p1 o) (p2 o) (upar s o).
Proof.
  intros H. rewrite <- ldet_code in H. unfold tpar, upar. unv. apply pair_eq; field; auto.
Qed.
Lemma cross_smul_l k p q : cross (smul k p) q = k * cross p q.
Proof. destruct p, q; unv; ring. Qed.
Lemma par_unique s o t u : ldet s o <> 0 ->
  along (p1 s) (p2 s) t = along (p1 o) (p2 o) u -> t = tpar s o /\ u = upar s o.
Proof.
  intros H E. pose proof (par_common s o H) as C.
  unfold ldet, ldir in H.
  set (ds := vsub (p2 s) (p1 s)) in *. set (do := vsub (p2 o) (p1 o)) in *.
  assert (D : smul (t - tpar s o) ds = smul (u - upar s o) do).
  { unfold along in E, C. fold ds do in E, C.
    destruct (p1 s), (p1 o), ds, do; unv. injection E; injection C; intros. f_equal; lra. }
  split.
  - assert (K : (t - tpar s o) * cross ds do = 0).
    { rewrite <- cross_smul_l, D. destruct do; unv; ring. }
    apply Rmult_integral in K as [K|K]; [lra|contradiction].
  - assert (K : (u - upar s o) * cross ds do = 0).
    { replace ((u - upar s o) * cross ds do) with (- cross (smul (u - upar s o) do) ds) by (destruct do, ds; unv; ring).
      rewrite <- D. destruct ds; unv; ring. }
    apply Rmult_integral in K as [K|K]; [lra|contradiction].
Qed.
Lemma seg_int_eq s o : line_segment_intersection s o =
  if Rltb (Rabs (ldet s o)) TH then None
  else if Rltb (tpar s o) 0 || Rltb 1 (tpar s o) || Rltb (upar s o) 0 || Rltb 1 (upar s o) then None
  else Some (along (p1 s) (p2 s) (tpar s o)).
Proof.
  unfold line_segment_intersection, n0, n1. rewrite parallel_eq. nR. rewrite Q2R_0, Q2R_1, ldet_code.
  change (?a / ldet s o) with (a / ldet s o). unfold tpar, upar. rewrite ldet_code.
  destruct (Rltb (Rabs (ldet s o)) TH); auto. cbn zeta.
  match goal with |- (if ?b then _ else _) = _ => destruct b; auto end.
  apply (f_equal (@Some Pt)). unv. apply pair_eq; ring.
Qed.
Lemma ray_int_eq s o : ray_intersection s o =
  if Rltb (Rabs (ldet s o)) TH then None
  else if Rltb (tpar s o) 0 || Rltb (upar s o) 0 then None
  else Some (along (p1 s) (p2 s) (tpar s o)).
Proof.
  unfold ray_intersection, n0. rewrite parallel_eq. nR. rewrite Q2R_0, ldet_code.
  unfold tpar, upar. rewrite ldet_code.
  destruct (Rltb (Rabs (ldet s o)) TH); auto. cbn zeta.
  match goal with |- (if ?b then _ else _) = _ => destruct b; auto end.
  apply (f_equal (@Some Pt)). unv. apply pair_eq; ring.
Qed.
Lemma ldet_nz s o : TH <= Rabs (ldet s o) -> ldet s o <> 0.
Proof. intros H E. rewrite E, Rabs_R0 in H. pose proof TH_pos. lra. Qed.

Lemma seg_int_spec s o p : line_segment_intersection s o = Some p <->
  TH <= Rabs (ldet s o) /\ on_seg (p1 s) (p2 s) p /\ on_seg (p1 o) (p2 o) p.
Proof.
  rewrite seg_int_eq. destruct (Rltb_spec (Rabs (ldet s o)) TH) as [H|H].
  - split; [discriminate|]. intros [K _]. lra.
  - pose proof (ldet_nz _ _ H) as Hn. split.
    + destruct (Rltb_spec (tpar s o) 0); simpl; [discriminate|].
      destruct (Rltb_spec 1 (tpar s o)); simpl; [discriminate|].
      destruct (Rltb_spec (upar s o) 0); simpl; [discriminate|].
      destruct (Rltb_spec 1 (upar s o)); simpl; [discriminate|].
      intros [= <-]. split; auto. split; [exists (tpar s o); split; auto; lra|].
      exists (upar s o); split; [lra|apply par_common; auto].
    + intros (_ & (t & Ht & E) & (u & Hu & E')).
      destruct (par_unique s o t u Hn (eq_trans (eq_sym E) E')) as [-> ->].
      destruct (Rltb_spec (tpar s o) 0); [lra|].
      destruct (Rltb_spec 1 (tpar s o)); [lra|].
      destruct (Rltb_spec (upar s o) 0); [lra|].
      destruct (Rltb_spec 1 (upar s o)); [lra|]. simpl. rewrite E. reflexivity.
Qed.
Lemma ray_int_spec s o p : ray_intersection s o = Some p <->
  TH <= Rabs (ldet s o) /\ on_ray (p1 s) (p2 s) p /\ on_ray (p1 o) (p2 o) p.
Proof.
  rewrite ray_int_eq. destruct (Rltb_spec (Rabs (ldet s o)) TH) as [H|H].
  - split; [discriminate|]. intros [K _]. lra.
  - pose proof (ldet_nz _ _ H) as Hn. split.
    + destruct (Rltb_spec (tpar s o) 0); simpl; [discriminate|].
      destruct (Rltb_spec (upar s o) 0); simpl; [discriminate|].
      intros [= <-]. split; auto. split; [exists (tpar s o); split; auto; lra|].
      exists (upar s o); split; [lra|apply par_common; auto].
    + intros (_ & (t & Ht & E) & (u & Hu & E')).
      destruct (par_unique s o t u Hn (eq_trans (eq_sym E) E')) as [-> ->].
      destruct (Rltb_spec (tpar s o) 0); [lra|].
      destruct (Rltb_spec (upar s o) 0); [lra|]. simpl. rewrite E. reflexivity.
Qed.

(** *** Line.intersects *)
Lemma line_intersects_false (s o : line R) : line_intersects s o = false.
Proof.
  unfold line_intersects.
  assert (forall a b : Pt, is_ccw a b b = false).
  { intros. apply is_ccw_false. replace (area2 a b b) with 0 by (unv; ring). pose proof TH_pos; lra. }
  rewrite !H. reflexivity.
Qed.

(** *** equilateral_triangle *)
Lemma sqrt3 : sqrt 3 * sqrt 3 = 3 /\ 0 < sqrt 3.
Proof. split; [apply sqrt_sqrt; lra | apply sqrt_lt_R0; lra]. Qed.
Lemma triangle_facts c L : 0 <= L ->
  let '(t0, t1, t2) := triangle_base c L in
  dist t0 t1 = L /\ dist t1 t2 = L /\ dist t2 t0 = L /\
  dist c t0 = L / sqrt 3 /\ dist c t1 = L / sqrt 3 /\ dist c t2 = L / sqrt 3 /\
  mean [t0; t1; t2] = c.
Proof.
  intros HL. destruct sqrt3 as [H3 Hp]. set (q := sqrt 3) in *. unfold triangle_base. fold q.
  destruct c as [cx cy]. cbn [fst snd].
  assert (Hq : 0 <= L / q) by (apply Rmult_le_pos; [lra|]; left; apply Rinv_0_lt_compat; lra).
  assert (I : / q = q / 3).
  { apply Rmult_eq_reg_l with q; [|lra]. rewrite Rinv_r by lra. unfold Rdiv. rewrite <- Rmult_assoc, H3. lra. }
  assert (I2 : / (2 * q) = q / 6).
  { apply Rmult_eq_reg_l with (2 * q); [|lra]. rewrite Rinv_r by lra. unfold Rdiv.
    replace (2 * q * (q * / 6)) with (2 * (q * q) * / 6) by ring. rewrite H3. lra. }
  unfold dist.
  repeat split.
  1-6: apply norm_eq; auto; unv; unfold Rdiv; rewrite ?I2, ?I.
  - replace (_ + _) with (L * L * (1/4) + (L * L * (q * q) * (1 / 4))) by field. rewrite H3; field.
  - field.
  - replace (_ + _) with (L * L * (1/4) + (L * L * (q * q) * (1 / 4))) by field. rewrite H3; field.
  - replace (_ + _) with (L * (q / 3) * (L * (q / 3))) by field. reflexivity.
  - replace (_ + _) with (L * L * (1/4) + (L * L * (q * q) * (1 / 36))) by field.
    replace (L * (q / 3) * (L * (q / 3))) with (L * L * (q * q) / 9) by field. rewrite H3; field.
  - replace (_ + _) with (L * L * (1/4) + (L * L * (q * q) * (1 / 36))) by field.
    replace (L * (q / 3) * (L * (q / 3))) with (L * L * (q * q) / 9) by field. rewrite H3; field.
  - unfold mean, psum. simpl. unv. unfold Rdiv. rewrite I2, I. f_equal; field.
Qed.
Lemma triangle_rot c L rot :
  equilateral_triangle c L rot =
  let '(t0, t1, t2) := triangle_base c L in (rotv rot t0, rotv rot t1, rotv rot t2).
Proof.
  unfold equilateral_triangle. destruct (triangle_base c L) as [[t0 t1] t2].
  destruct (Reqb_spec rot 0) as [->|].
  - assert (E : forall p, rotv 0 p = p).
    { intros []. unv. rewrite cos_0, sin_0. f_equal; ring. }
    rewrite !E. reflexivity.
  - reflexivity.
Qed.
Lemma dist_rotv r p q : dist (rotv r p) (rotv r q) = dist p q.
Proof. unfold dist. rewrite <- rotv_sub, rotv_norm. reflexivity. Qed.
Lemma triangle_all c L rot : 0 <= L ->
  let '(t0, t1, t2) := equilateral_triangle c L rot in
  dist t0 t1 = L /\ dist t1 t2 = L /\ dist t2 t0 = L /\ mean [t0; t1; t2] = rotv rot c /\
  dist (rotv rot c) t0 = L / sqrt 3 /\ dist (rotv rot c) t1 = L / sqrt 3 /\ dist (rotv rot c) t2 = L / sqrt 3.
Proof.
  intros HL. pose proof (triangle_facts c L HL) as H. rewrite triangle_rot.
  destruct (triangle_base c L) as [[t0 t1] t2].
  destruct H as (A & B & C & D & E & F & G). rewrite !dist_rotv.
  repeat split; auto. rewrite <- G. unfold mean, psum; simpl. destruct t0, t1, t2; unv. f_equal; field.
Qed.

(** *** point_in_triangle *)
Lemma point_in_triangle_eq a b c x y : 
  point_in_triangle a b c x y =
  vadd (smul (Rabs (x - y)) a) (vadd (smul (Rmin x y) b) (smul (1 - Rmax x y) c)).
Proof.
  unfold point_in_triangle, n1. nR. rewrite Q2R_1.
  replace (Q2R (1 # 2)) with (1/2) by (unfold Q2R; simpl; lra).
  destruct (Rle_lt_dec x y) as [H|H].
  - rewrite Rmin_left, Rmax_right, Rabs_left1 by lra. unv; apply pair_eq; field.
  - rewrite Rmin_right, Rmax_left, Rabs_pos_eq by lra. unv; apply pair_eq; field.
Qed.
