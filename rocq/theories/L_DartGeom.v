(** A quadrilateral with a reflex vertex: its kernel, and the tests of the kernel scan on it. *)
From Coq Require Import Reals Lra Psatz List Bool Arith ZArith Lia.
From Verif Require Import Num Spec S_PolHull S_Kernel M_Cg M_Obstacle M_PolHull M_Kernel L_Geom L_Cg L_KernelDart.
Import ListNotations.
Local Open Scope R_scope.

(** points given by coordinates with respect to o, x, y *)
Definition bary (o x y : Pt) (s t : R) : Pt := (fst o + s * fst x + t * fst y, snd o + s * snd x + t * snd y).
Lemma bary_area o x y s1 t1 s2 t2 s3 t3 :
  area2 (bary o x y s1 t1) (bary o x y s2 t2) (bary o x y s3 t3) = cross x y * ((s2 - s1) * (t3 - t1) - (t2 - t1) * (s3 - s1)).
Proof. unfold bary, area2, cross, vsub. cbn [fst snd]. ring. Qed.
Lemma bary_along o x y s1 t1 s2 t2 k :
  along (bary o x y s1 t1) (bary o x y s2 t2) k = bary o x y (s1 + k * (s2 - s1)) (t1 + k * (t2 - t1)).
Proof. unfold bary, along, vadd, smul, vsub. cbn [fst snd]. f_equal; ring. Qed.

(** the coordinates of a dart with respect to the reflex vertex [o] and the two new kernel vertices p, q:
    a = -A y, b = m x + n y, c = -C x *)
Record dart_coords (o a b c p q : Pt) (A C m n : R) : Prop := {
  dc_pos : 0 < cross (vsub p o) (vsub q o);
  dc_A : 0 < A; dc_C : 0 < C; dc_m : 1 < m; dc_n : 1 < n; dc_mC : m = C * (n - 1); dc_nA : n = A * (m - 1);
  dc_o : o = bary o (vsub p o) (vsub q o) 0 0; dc_p : p = bary o (vsub p o) (vsub q o) 1 0; dc_q : q = bary o (vsub p o) (vsub q o) 0 1;
  dc_a : a = bary o (vsub p o) (vsub q o) 0 (- A); dc_b : b = bary o (vsub p o) (vsub q o) m n; dc_c : c = bary o (vsub p o) (vsub q o) (- C) 0 }.

Lemma dart_has_coords o a b c p q al be ga de :
  0 < al -> 0 < be < 1 -> 0 < ga -> 0 < de < 1 ->
  p = along a b be -> p = along o c (- al) -> q = along b c de -> q = along o a (- ga) -> area2 c o a < 0 ->
  dart_coords o a b c p q (/ ga) (/ al) (/ be) (/ (1 - de)).
Proof.
  intros Ha Hb Hg Hd P1 P2 Q1 Q2 R0.
  set (x := vsub p o). set (y := vsub q o).
  assert (Ex : x = smul (- al) (vsub c o)) by (unfold x; rewrite P2; destruct o, c; unv; f_equal; ring).
  assert (Ey : y = smul (- ga) (vsub a o)) by (unfold y; rewrite Q2; destruct o, a; unv; f_equal; ring).
  assert (Ec : vsub c o = smul (- / al) x) by (rewrite Ex; destruct (vsub c o) as [u v]; unv; f_equal; field; lra).
  assert (Ea : vsub a o = smul (- / ga) y) by (rewrite Ey; destruct (vsub a o) as [u v]; unv; f_equal; field; lra).
  assert (D : 0 < cross x y).
  { assert (K : area2 c o a = - (/ al * / ga) * cross x y).
    { transitivity (cross (vsub o c) (vsub a o)); [destruct a, c, o; unv; ring|].
      replace (vsub o c) with (smul (-1) (vsub c o)) by (destruct o, c; unv; f_equal; ring). rewrite Ec, Ea. destruct x, y; unv; ring. }
    pose proof (Rinv_0_lt_compat _ Ha). pose proof (Rinv_0_lt_compat _ Hg). assert (0 < / al * / ga) by (apply Rmult_lt_0_compat; assumption).
    rewrite K in R0. apply Rnot_le_lt. intros L. assert (0 <= (/ al * / ga) * - cross x y) by (apply Rmult_le_pos; lra). lra. }
  assert (Eb1 : vsub b o = vadd (smul (/ be) x) (smul (/ ga * (/ be - 1)) y)).
  { assert (E : vsub b o = vadd (vsub a o) (smul (/ be) (vsub x (vsub a o)))).
    { unfold x. rewrite P1. destruct a, b, o; unv; f_equal; field; lra. }
    rewrite E, Ea. destruct x, y; unv; f_equal; ring. }
  assert (Eb2 : vsub b o = vadd (smul (de / (1 - de) * / al) x) (smul (/ (1 - de)) y)).
  { assert (E : vsub b o = smul (/ (1 - de)) (vsub y (smul de (vsub c o)))).
    { unfold y. rewrite Q1. destruct b, c, o; unv; f_equal; field; lra. }
    rewrite E, Ec. destruct x, y; unv; f_equal; field; lra. }
  assert (Em : / be = de / (1 - de) * / al).
  { assert (K : cross (vsub b o) y = / be * cross x y) by (rewrite Eb1; destruct x, y; unv; ring).
    assert (K' : cross (vsub b o) y = de / (1 - de) * / al * cross x y) by (rewrite Eb2; destruct x, y; unv; ring).
    rewrite K in K'. apply Rmult_eq_reg_r in K'; lra. }
  assert (En : / ga * (/ be - 1) = / (1 - de)).
  { assert (K : cross x (vsub b o) = / ga * (/ be - 1) * cross x y) by (rewrite Eb1; destruct x, y; unv; ring).
    assert (K' : cross x (vsub b o) = / (1 - de) * cross x y) by (rewrite Eb2; destruct x, y; unv; ring).
    rewrite K in K'. apply Rmult_eq_reg_r in K'; lra. }
  constructor; fold x y.
  - exact D.
  - now apply Rinv_0_lt_compat.
  - now apply Rinv_0_lt_compat.
  - rewrite <- Rinv_1. apply Rinv_lt_contravar; lra.
  - rewrite <- Rinv_1. apply Rinv_lt_contravar; lra.
  - rewrite Em. field. lra.
  - symmetry. exact En.
  - unfold bary. rewrite !Rmult_0_l, !Rplus_0_r. now destruct o.
  - unfold bary, x. destruct p, o; unv; f_equal; ring.
  - unfold bary, y. destruct q, o; unv; f_equal; ring.
  - assert (E : a = vadd o (vsub a o)) by (destruct a, o; unv; f_equal; ring). rewrite E, Ea. destruct x, y, o; unfold bary; unv; f_equal; ring.
  - assert (E : b = vadd o (vsub b o)) by (destruct b, o; unv; f_equal; ring). rewrite E, Eb1, En. destruct x, y, o; unfold bary; unv; f_equal; ring.
  - assert (E : c = vadd o (vsub c o)) by (destruct c, o; unv; f_equal; ring). rewrite E, Ec. destruct x, y, o; unfold bary; unv; f_equal; ring.
Qed.

(** crossing and betweenness *)
Lemma gi_cross (a1 a2 b1 b2 w : Pt) : intersect a1 a2 b1 b2 = true -> on_line a1 a2 w -> on_line b1 b2 w -> get_intersection a1 a2 b1 b2 = Some w.
Proof.
  intros H H1 H2. destruct (crossing_lines _ _ _ _ H) as [D [w' [E [L1 L2]]]]. rewrite E. f_equal.
  rewrite denom_cross in D. exact (line_unique _ _ _ _ _ _ D L1 L2 H1 H2).
Qed.
Lemma gi_first (a1 a2 b1 b2 : Pt) : intersect a1 a2 b1 b2 = false -> on_seg b1 b2 a1 -> get_intersection a1 a2 b1 b2 = Some a1.
Proof. intros H H1. unfold get_intersection. rewrite H. cbn [negb]. rewrite (is_between_accepts _ _ _ H1). reflexivity. Qed.
Lemma gi_third (a1 a2 b1 b2 : Pt) : intersect a1 a2 b1 b2 = false -> is_between b1 a1 b2 = false -> is_between b1 a2 b2 = false ->
  on_seg a1 a2 b1 -> get_intersection a1 a2 b1 b2 = Some b1.
Proof. intros H E1 E2 H1. unfold get_intersection. rewrite H. cbn [negb]. rewrite E1, E2, (is_between_accepts _ _ _ H1). reflexivity. Qed.
Lemma cross_norms (u v : Pt) : Rabs (cross u v) <= norm u * norm v.
Proof.
  apply sq_le; [apply Rmult_le_pos; apply norm_nonneg|].
  replace (norm u * norm v * (norm u * norm v)) with (norm u * norm u * (norm v * norm v)) by ring. rewrite !norm_sq.
  pose proof (dot_cross_id u v) as E. pose proof (Rle_0_sqr (dot u v)) as K. unfold Rsqr in K.
  rewrite <- E. replace (Rabs (cross u v) * Rabs (cross u v)) with (cross u v * cross u v); [lra|].
  rewrite <- Rabs_mult. symmetry. apply Rabs_pos_eq. apply Rle_0_sqr.
Qed.
Lemma not_between_high (a b c : Pt) : dist a c = 300 -> 30 <= Rabs (area2 a c b) -> is_between a b c = false.
Proof.
  intros L H. destruct (is_between a b c) eqn:E; [exfalso|reflexivity].
  destruct (is_between_thin _ _ _ E) as [q [S T]]. rewrite L in T.
  assert (K : 1 / 10 <= dist b q).
  { assert (X : area2 a c b = cross (vsub c a) (vsub b q)).
    { destruct S as [t [_ ->]]. destruct a, b, c; unv; ring. }
    rewrite X in H. pose proof (cross_norms (vsub c a) (vsub b q)) as C. fold (dist c a) in C. fold (dist b q) in C.
    rewrite (dist_sym c a), L in C. lra. }
  unfold btw_eps in T. destruct T as [T|T]; [lra|].
  assert (1 / 10 * (1 / 10) <= dist b q * dist b q) by (apply Rmult_le_compat; lra). lra.
Qed.
Lemma not_between_past (a b p : Pt) : on_seg a b p -> dist a b <= 150 -> 1 / 10 <= dist p b -> is_between a b p = false.
Proof.
  intros S H1 H2. destruct (is_between a b p) eqn:E; [exfalso|reflexivity]. rewrite is_between_iff in E.
  pose proof (seg_additive _ _ _ S) as A. rewrite (dist_sym b p) in E. unfold btw_eps in E. pose proof (dist_nonneg a p). lra.
Qed.
Lemma ahead_along (a b : Pt) : 0 < dist a b -> code_ahead a b = Some (along a b (300 / dist a b)).
Proof.
  intros H. unfold code_ahead, inf_along. change (np_norm (psub b a)) with (dist b a). rewrite (dist_sym b a).
  destruct (Reqb_spec (dist a b) 0) as [X|X]; [lra|]. f_equal. unfold INF_VAL, padd, psub. nR. destruct a, b; unv; f_equal; field; lra.
Qed.
Lemma away_along (a b : Pt) : 0 < dist a b -> code_away a b = Some (along a b (- (300 / dist a b))).
Proof.
  intros H. unfold code_away, inf_along. change (np_norm (psub a b)) with (dist a b).
  destruct (Reqb_spec (dist a b) 0) as [X|X]; [lra|]. f_equal. unfold INF_VAL, padd, psub. nR. destruct a, b; unv; f_equal; field; lra.
Qed.
Lemma far_along (a b : Pt) : code_far a b = along a b 300.
Proof. unfold code_far, INF_VAL, padd, psub. nR. destruct a, b; unv; f_equal; ring. Qed.

Lemma area2_edges (u v w : Pt) : area2 u v w = cross (vsub v u) (vsub w v).
Proof. destruct u, v, w; unv; ring. Qed.
Lemma dist_back (u v : Pt) k : 0 <= k -> dist u (along u v (- k)) = k * dist u v.
Proof.
  intros H. unfold dist. rewrite <- (norm_opp (vsub u v)).
  replace (vsub u (along u v (- k))) with (smul k (vsub v u)) by (destruct u, v; unv; f_equal; ring).
  rewrite norm_smul, Rabs_pos_eq by exact H. f_equal. f_equal. destruct u, v; unv; f_equal; ring.
Qed.

Section Tests.
  Variables (o a b c p q : Pt) (A C m n : R).
  Hypothesis DC : dart_coords o a b c p q A C m n.
  Let x := vsub p o. Let y := vsub q o. Let D := cross x y.
  Definition at_ (u : Pt) (s t : R) : Prop := u = bary o (vsub p o) (vsub q o) s t.

  Lemma at_area u v w s1 t1 s2 t2 s3 t3 : at_ u s1 t1 -> at_ v s2 t2 -> at_ w s3 t3 ->
    area2 u v w = D * ((s2 - s1) * (t3 - t1) - (t2 - t1) * (s3 - s1)).
  Proof. unfold at_. intros Hu Hv Hw. rewrite Hu, Hv, Hw. apply bary_area. Qed.
  Lemma at_along u v s1 t1 s2 t2 k : at_ u s1 t1 -> at_ v s2 t2 -> at_ (along u v k) (s1 + k * (s2 - s1)) (t1 + k * (t2 - t1)).
  Proof. unfold at_. intros Hu Hv. rewrite Hu, Hv. rewrite bary_along. reflexivity. Qed.
  Lemma at_eq u v s t s' t' : at_ u s t -> at_ v s' t' -> s = s' -> t = t' -> u = v.
  Proof. unfold at_. intros -> -> -> ->. reflexivity. Qed.
  Let ho : at_ o 0 0 := dc_o _ _ _ _ _ _ _ _ _ _ DC.
  Let ha : at_ a 0 (- A) := dc_a _ _ _ _ _ _ _ _ _ _ DC.
  Let hb : at_ b m n := dc_b _ _ _ _ _ _ _ _ _ _ DC.
  Let hc : at_ c (- C) 0 := dc_c _ _ _ _ _ _ _ _ _ _ DC.
  Let hp : at_ p 1 0 := dc_p _ _ _ _ _ _ _ _ _ _ DC.
  Let hq : at_ q 0 1 := dc_q _ _ _ _ _ _ _ _ _ _ DC.
  Let D0 : 0 < D := dc_pos _ _ _ _ _ _ _ _ _ _ DC.
  Let A0 : 0 < A := dc_A _ _ _ _ _ _ _ _ _ _ DC.
  Let C0 : 0 < C := dc_C _ _ _ _ _ _ _ _ _ _ DC.
  Let m1 : 1 < m := dc_m _ _ _ _ _ _ _ _ _ _ DC.
  Let n1 : 1 < n := dc_n _ _ _ _ _ _ _ _ _ _ DC.
  Let mC : m = C * (n - 1) := dc_mC _ _ _ _ _ _ _ _ _ _ DC.
  Let nA : n = A * (m - 1) := dc_nA _ _ _ _ _ _ _ _ _ _ DC.

  Lemma ar_coa : area2 c o a = - (D * (A * C)). Proof. rewrite (at_area _ _ _ _ _ _ _ _ _ hc ho ha). ring. Qed.
  Lemma ar_oab : area2 o a b = D * (A * m). Proof. rewrite (at_area _ _ _ _ _ _ _ _ _ ho ha hb). ring. Qed.
  Lemma ar_bco : area2 b c o = D * (C * n). Proof. rewrite (at_area _ _ _ _ _ _ _ _ _ hb hc ho). ring. Qed.
  Lemma ar_pbc : area2 p b c = D * (n * (1 + C)). Proof. rewrite (at_area _ _ _ _ _ _ _ _ _ hp hb hc). ring. Qed.
  Lemma ar_abc : area2 a b c = D * (A * m * (1 + C)).
  Proof. rewrite (at_area _ _ _ _ _ _ _ _ _ ha hb hc). replace (n - - A) with (A * m) by (rewrite nA; ring). ring. Qed.
  Lemma abc_ge_pbc : area2 p b c <= area2 a b c.
  Proof.
    rewrite ar_pbc, ar_abc. apply Rmult_le_compat_l; [lra|]. apply Rmult_le_compat_r; [lra|].
    replace (A * m) with (n + A) by (rewrite nA; ring). lra.
  Qed.
  Lemma p_on_ab : on_seg a b p.
  Proof.
    exists (/ m). assert (0 < / m) by (apply Rinv_0_lt_compat; lra). split.
    - split; [lra|]. rewrite <- Rinv_1. apply Rinv_le_contravar; lra.
    - apply (at_eq p _ 1 0 _ _ hp (at_along _ _ _ _ _ _ (/ m) ha hb)); [field; lra|]. rewrite nA. field. lra.
  Qed.
  Lemma q_on_bc : on_seg b c q.
  Proof.
    assert (0 < / n) by (apply Rinv_0_lt_compat; lra).
    assert (/ n < 1) by (rewrite <- Rinv_1; apply Rinv_lt_contravar; lra).
    exists (1 - / n). split; [lra|].
    apply (at_eq q _ 0 1 _ _ hq (at_along _ _ _ _ _ _ (1 - / n) hb hc)); [rewrite mC; field; lra|field; lra].
  Qed.
  Lemma o_on_cp : on_seg c p o.
  Proof.
    exists (C / (1 + C)). split.
    - split; [apply Rmult_le_pos; [lra|left; apply Rinv_0_lt_compat; lra]|]. apply (Rmult_le_reg_r (1 + C)); [lra|]. field_simplify; lra.
    - apply (at_eq o _ 0 0 _ _ ho (at_along _ _ _ _ _ _ (C / (1 + C)) hc hp)); field; lra.
  Qed.
  Lemma o_on_aq : on_seg a q o.
  Proof.
    exists (A / (1 + A)). split.
    - split; [apply Rmult_le_pos; [lra|left; apply Rinv_0_lt_compat; lra]|]. apply (Rmult_le_reg_r (1 + A)); [lra|]. field_simplify; lra.
    - apply (at_eq o _ 0 0 _ _ ho (at_along _ _ _ _ _ _ (A / (1 + A)) ha hq)); field; lra.
  Qed.
  Lemma dist_ne u v w : area2 u v w <> 0 -> 0 < dist u v.
  Proof.
    intros H. pose proof (dist_nonneg u v). destruct (Req_dec (dist u v) 0) as [Z|Z]; [|lra].
    exfalso. apply H. apply dist_zero in Z. subst v. destruct u, w; unv; ring.
  Qed.

  Hypotheses (sz_ab : dist a b <= 150) (sz_bc : dist b c <= 150) (sz_cp : dist c p <= 150) (sz_aq : dist a q <= 150)
    (mg_o : area2 c o a < - TH) (mg_a : TH < area2 o a b) (mg_c : TH < area2 b c o)
    (mg_p : dist b c / 10 <= area2 p b c) (mg_q : 1 / 10 <= dist q c).

  Lemma th0 : 0 < TH. Proof. exact TH_pos. Qed.
  Lemma d_bc : 1 / 10 <= dist b c.
  Proof. pose proof (seg_additive _ _ _ q_on_bc). pose proof (dist_nonneg b q). lra. Qed.
  Lemma d_pb : 1 / 10 <= dist p b.
  Proof.
    pose proof d_bc as B. pose proof (cross_norms (vsub b p) (vsub c b)) as K.
    assert (E : area2 p b c = cross (vsub b p) (vsub c b)) by apply area2_edges.
    rewrite <- E in K. change (norm (vsub b p)) with (dist b p) in K. change (norm (vsub c b)) with (dist c b) in K.
    rewrite (dist_sym b p), (dist_sym c b) in K. pose proof (Rle_abs (area2 p b c)).
    apply Rnot_lt_le. intros L. assert (dist p b * dist b c < 1 / 10 * dist b c) by (apply Rmult_lt_compat_r; lra). lra.
  Qed.
  Lemma d_ab : 0 < dist a b.
  Proof. pose proof d_pb. pose proof (seg_additive _ _ _ p_on_ab). pose proof (dist_nonneg a p). lra. Qed.
  Lemma d_op : 0 < dist o p.
  Proof. apply (dist_ne o p q). rewrite (at_area _ _ _ _ _ _ _ _ _ ho hp hq). rewrite Rmult_comm. intros X. lra. Qed.
  Lemma d_oq : 0 < dist o q.
  Proof. apply (dist_ne o q p). rewrite (at_area _ _ _ _ _ _ _ _ _ ho hq hp). rewrite Rmult_comm. intros X. lra. Qed.

  (* the far points *)
  Let l1 := 300 / dist a b. Let l2 := 300 / dist b c. Let X := 300 / dist o p. Let Y := 300 / dist o q.
  Definition dF : Pt := along o q Y.
  Definition dL : Pt := along o p X.
  Definition dE1 : Pt := along a b l1.
  Definition dE2 : Pt := along b c l2.
  Definition dE3 : Pt := along o p (X - C).
  Lemma two_le (d e : R) : 0 < d -> d <= 150 * e -> 2 <= e * (300 / d).
  Proof. intros H1 H2. apply (Rmult_le_reg_r d); [lra|]. replace (e * (300 / d) * d) with (300 * e) by (field; lra). lra. Qed.
  Lemma l1_ge : 2 <= l1.
  Proof. pose proof d_ab. pose proof (two_le (dist a b) 1 H). unfold l1. lra. Qed.
  Lemma l2_ge : 2 <= l2.
  Proof. pose proof d_bc. assert (H' : 0 < dist b c) by lra. pose proof (two_le (dist b c) 1 H'). unfold l2. lra. Qed.
  Lemma oc_C : dist o c = C * dist o p.
  Proof.
    replace c with (along o p (- C)).
    - apply dist_back. lra.
    - apply (at_eq _ c _ _ (- C) 0 (at_along _ _ _ _ _ _ (- C) ho hp) hc); ring.
  Qed.
  Lemma oa_A : dist o a = A * dist o q.
  Proof.
    replace a with (along o q (- A)).
    - apply dist_back. lra.
    - apply (at_eq _ a _ _ 0 (- A) (at_along _ _ _ _ _ _ (- A) ho hq) ha); ring.
  Qed.
  Lemma X_ge : 2 * (1 + C) <= X.
  Proof.
    pose proof d_op as H. pose proof (seg_additive _ _ _ o_on_cp) as S. rewrite (dist_sym c o), oc_C in S.
    unfold X. apply (Rmult_le_reg_r (dist o p)); [lra|]. replace (300 / dist o p * dist o p) with 300 by (field; lra). lra.
  Qed.
  Lemma Y_ge : 2 * (1 + A) <= Y.
  Proof.
    pose proof d_oq as H. pose proof (seg_additive _ _ _ o_on_aq) as S. rewrite (dist_sym a o), oa_A in S.
    unfold Y. apply (Rmult_le_reg_r (dist o q)); [lra|]. replace (300 / dist o q * dist o q) with 300 by (field; lra). lra.
  Qed.
  Let hF : at_ dF 0 Y. Proof. unfold dF. pose proof (at_along _ _ _ _ _ _ Y ho hq) as H. replace (0 + Y * (0 - 0)) with 0 in H by ring. replace (0 + Y * (1 - 0)) with Y in H by ring. exact H. Qed.
  Let hL : at_ dL X 0. Proof. unfold dL. pose proof (at_along _ _ _ _ _ _ X ho hp) as H. replace (0 + X * (0 - 0)) with 0 in H by ring. replace (0 + X * (1 - 0)) with X in H by ring. exact H. Qed.
  Let hE1 : at_ dE1 (l1 * m) (l1 * (A * m) - A).
  Proof. unfold dE1. pose proof (at_along _ _ _ _ _ _ l1 ha hb) as H. replace (0 + l1 * (m - 0)) with (l1 * m) in H by ring. replace (- A + l1 * (n - - A)) with (l1 * (A * m) - A) in H by (rewrite nA; ring). exact H. Qed.
  Let hE2 : at_ dE2 (m - l2 * (C * n)) (n - l2 * n).
  Proof. unfold dE2. pose proof (at_along _ _ _ _ _ _ l2 hb hc) as H. replace (m + l2 * (- C - m)) with (m - l2 * (C * n)) in H by (rewrite mC; ring). replace (n + l2 * (0 - n)) with (n - l2 * n) in H by ring. exact H. Qed.
  Let hE3 : at_ dE3 (X - C) 0.
  Proof. unfold dE3. pose proof (at_along _ _ _ _ _ _ (X - C) ho hp) as H. replace (0 + (X - C) * (0 - 0)) with 0 in H by ring. replace (0 + (X - C) * (1 - 0)) with (X - C) in H by ring. exact H. Qed.

  Lemma t_sF : code_away o a = Some dF.
  Proof.
    assert (H : 0 < dist o a) by (rewrite oa_A; apply Rmult_lt_0_compat; [lra|exact d_oq]). rewrite (away_along _ _ H). f_equal.
    apply (at_eq _ _ _ _ _ _ (at_along _ _ _ _ _ _ _ ho ha) hF); [ring|]. rewrite oa_A. unfold Y. pose proof d_oq. field. lra.
  Qed.
  Lemma t_sL : code_away o c = Some dL.
  Proof.
    assert (H : 0 < dist o c) by (rewrite oc_C; apply Rmult_lt_0_compat; [lra|exact d_op]). rewrite (away_along _ _ H). f_equal.
    apply (at_eq _ _ _ _ _ _ (at_along _ _ _ _ _ _ _ ho hc) hL); [|ring]. rewrite oc_C. unfold X. pose proof d_op. field. lra.
  Qed.
  Lemma t_A1 : code_ahead a b = Some dE1. Proof. apply ahead_along. exact d_ab. Qed.
  Lemma t_A2 : code_ahead b c = Some dE2. Proof. apply ahead_along. pose proof d_bc. lra. Qed.
  Lemma t_A3 : code_ahead c o = Some dE3.
  Proof.
    assert (H : 0 < dist c o) by (rewrite dist_sym, oc_C; apply Rmult_lt_0_compat; [lra|exact d_op]). rewrite (ahead_along _ _ H). f_equal.
    apply (at_eq _ _ _ _ _ _ (at_along _ _ _ _ _ _ _ hc ho) hE3); [|ring]. rewrite dist_sym, oc_C. unfold X. pose proof d_op. field. lra.
  Qed.

  Lemma neg_le k : 0 <= k -> D * - k <= TH.
  Proof. intros H. pose proof th0. pose proof (Rmult_le_pos _ _ (Rlt_le _ _ D0) H). lra. Qed.
  Lemma big_gt k k' : TH < D * k -> k <= k' -> TH < D * k'.
  Proof. intros H K. pose proof (Rmult_le_compat_l D _ _ (Rlt_le _ _ D0) K). lra. Qed.
  Lemma mo : TH < D * (A * C). Proof. rewrite ar_coa in mg_o. lra. Qed.
  Lemma ma : TH < D * (A * m). Proof. rewrite <- ar_oab. exact mg_a. Qed.
  Lemma mc : TH < D * (C * n). Proof. rewrite <- ar_bco. exact mg_c. Qed.
  Ltac area h1 h2 h3 := rewrite (at_area _ _ _ _ _ _ _ _ _ h1 h2 h3).
  Lemma pp u v : 0 <= u -> 0 <= v -> 0 <= u * v. Proof. apply Rmult_le_pos. Qed.

  Ltac ppos := repeat match goal with |- 0 <= _ * _ => apply Rmult_le_pos | |- 0 < _ * _ => apply Rmult_lt_0_compat end.
  Lemma Am_A : A <= A * m. Proof. replace A with (A * 1) at 1 by ring. apply Rmult_le_compat_l; lra. Qed.
  Lemma t1_pos : 0 <= l1 * (A * m) - A.
  Proof. pose proof l1_ge. pose proof Am_A. assert (1 * (A * m) <= l1 * (A * m)) by (apply Rmult_le_compat_r; lra). lra. Qed.

  Lemma a_aE1L : area2 a dE1 dL = D * - (l1 * m * A * (X - 1)). Proof. area ha hE1 hL. ring. Qed.
  Lemma X1 : 0 <= X - 1. Proof. pose proof X_ge. lra. Qed.
  Lemma Y1 : 0 <= Y - 1. Proof. pose proof Y_ge. lra. Qed.
  Lemma t_B1 : is_ccw a dE1 dL = false.
  Proof. apply is_ccw_false. rewrite a_aE1L. apply neg_le. pose proof l1_ge. pose proof X1. ppos; lra. Qed.
  Lemma xor_ft u v : u = false -> v = true -> xorb u v = true. Proof. now intros -> ->. Qed.
  Lemma xor_tf u v : u = true -> v = false -> xorb u v = true. Proof. now intros -> ->. Qed.
  Lemma t_G1 : get_intersection dL o a dE1 = Some p.
  Proof.
    pose proof l1_ge as G1. pose proof X_ge as GX. pose proof X1 as GX1. pose proof t1_pos as T.
    apply gi_cross.
    - unfold intersect. apply andb_true_intro. split; [apply xor_ft|apply xor_tf].
      + apply is_ccw_false. rewrite <- (area2_cyc dL). rewrite a_aE1L. apply neg_le. ppos; lra.
      + apply is_ccw_iff. area ho ha hE1. apply (big_gt (A * m)); [exact ma|].
        replace ((0 - 0) * (l1 * (A * m) - A - 0) - (- A - 0) * (l1 * m - 0)) with (l1 * (A * m)) by ring.
        assert (0 <= A * m) by (apply pp; lra). assert (1 * (A * m) <= l1 * (A * m)) by (apply Rmult_le_compat_r; lra). lra.
      + apply is_ccw_iff. area hL ho ha. apply (big_gt (A * C)); [exact mo|].
        replace ((0 - X) * (- A - 0) - (0 - 0) * (0 - X)) with (A * X) by ring. apply Rmult_le_compat_l; lra.
      + apply is_ccw_false. area hL ho hE1. replace ((0 - X) * (l1 * (A * m) - A - 0) - (0 - 0) * (l1 * m - X)) with (- (X * (l1 * (A * m) - A))) by ring.
        apply neg_le. apply pp; lra.
    - exists ((X - 1) / X). apply (at_eq _ _ _ _ _ _ hp (at_along _ _ _ _ _ _ _ hL ho)); field; lra.
    - exists (/ (l1 * m)). apply (at_eq _ _ _ _ _ _ hp (at_along _ _ _ _ _ _ _ ha hE1)); field; split; lra.
  Qed.
  Lemma pos3 u v : 0 < u -> 0 < v -> 0 < u * v. Proof. apply Rmult_lt_0_compat. Qed.
  Lemma t_M1 : Rltb 0 (orientation_val o dL dE1 * orientation_val a dE1 dF) = true.
  Proof.
    pose proof l1_ge. pose proof X_ge. pose proof Y_ge.
    assert (0 < l1 * (A * m) - A). { pose proof Am_A. assert (1 * (A * m) < l1 * (A * m)) by (apply Rmult_lt_compat_r; [apply pos3|]; lra). lra. }
    apply Rltb_true. rewrite !orientation_area. area ho hL hE1. area ha hE1 hF.
    match goal with |- 0 < ?g => replace g with (D * (X * (l1 * (A * m) - A)) * (D * (l1 * m * (Y + A)))) by ring end. ppos; lra.
  Qed.
  Lemma t_T1 : is_between a b p = false.
  Proof. exact (not_between_past _ _ _ p_on_ab sz_ab d_pb). Qed.

  (* the turn at b *)
  Lemma a_bE2E1 : area2 b dE2 dE1 = D * - (l2 * (l1 - 1) * (A * m * (1 + C))).
  Proof.
    area hb hE2 hE1. f_equal.
    replace (l1 * (A * m) - A - n) with ((l1 - 1) * (A * m)) by (rewrite nA; ring).
    replace (m - l2 * (C * n) - m) with (- (l2 * (m + C))) by (rewrite mC at 1; ring).
    replace (n - l2 * n - n) with (- (l2 * (A * m - A))) by (rewrite nA; ring). ring.
  Qed.
  Lemma t_B2 : is_ccw b dE2 dE1 = false.
  Proof. apply is_ccw_false. rewrite a_bE2E1. apply neg_le. pose proof l1_ge. pose proof l2_ge. ppos; lra. Qed.
  Lemma a_bE2p : area2 b dE2 p = l2 * area2 p b c.
  Proof. rewrite ar_pbc. area hb hE2 hp. rewrite mC. ring. Qed.
  Lemma d_bE2 : dist b dE2 = 300.
  Proof. pose proof d_bc. pose proof l2_ge. unfold dE2. rewrite dist_along by lra. unfold l2. field. lra. Qed.
  Lemma l2_pbc : 30 <= l2 * area2 p b c.
  Proof.
    pose proof d_bc. pose proof l2_ge. assert (l2 * (dist b c / 10) <= l2 * area2 p b c) by (apply Rmult_le_compat_l; lra).
    assert (l2 * (dist b c / 10) = 30) by (unfold l2; field; lra). lra.
  Qed.
  Lemma t_bt1 : is_between b dE1 dE2 = false.
  Proof.
    apply (not_between_high _ _ _ d_bE2). rewrite a_bE2E1. pose proof l1_ge. pose proof l2_ge. pose proof l2_pbc. pose proof abc_ge_pbc as K. rewrite ar_abc in K.
    replace (D * - (l2 * (l1 - 1) * (A * m * (1 + C)))) with (- ((l1 - 1) * (l2 * (D * (A * m * (1 + C)))))) by ring. rewrite Rabs_Ropp.
    assert (l2 * area2 p b c <= l2 * (D * (A * m * (1 + C)))) by (apply Rmult_le_compat_l; lra).
    assert (1 * (l2 * (D * (A * m * (1 + C)))) <= (l1 - 1) * (l2 * (D * (A * m * (1 + C))))) by (apply Rmult_le_compat_r; lra).
    rewrite Rabs_pos_eq; lra.
  Qed.
  Lemma t_bt2 : is_between b p dE2 = false.
  Proof. apply (not_between_high _ _ _ d_bE2). rewrite a_bE2p. pose proof l2_pbc. rewrite Rabs_pos_eq; lra. Qed.
  Lemma a_pE1E2 : area2 p dE1 dE2 = D * (l2 * (l1 * m - 1) * (A * (1 + C))).
  Proof.
    area hp hE1 hE2. f_equal.
    replace (n - l2 * n - 0) with ((1 - l2) * (A * m - A)) by (rewrite nA; ring).
    replace (m - l2 * (C * n) - 1) with (m - 1 - l2 * (m + C)) by (rewrite mC at 2; ring). ring.
  Qed.
  Lemma l1m : 1 <= l1 * m - 1.
  Proof. pose proof l1_ge. assert (2 * 1 <= l1 * m) by (apply Rmult_le_compat; lra). lra. Qed.
  Lemma t_G2 : get_intersection dE1 p b dE2 = Some b.
  Proof.
    pose proof l1_ge as G1. pose proof l2_ge as G2. pose proof l1m as G3. apply gi_third.
    - unfold intersect. apply andb_false_intro2.
      assert (E1 : is_ccw dE1 p b = false).
      { apply is_ccw_false. area hE1 hp hb. rewrite nA. pose proof th0.
        match goal with |- ?g <= _ => replace g with 0 by ring end. lra. }
      assert (E2 : is_ccw dE1 p dE2 = false).
      { apply is_ccw_false. rewrite <- (area2_cyc dE1), area2_swap, a_pE1E2. rewrite <- Ropp_mult_distr_r_reverse. apply neg_le. ppos; lra. }
      rewrite E1, E2. reflexivity.
    - exact t_bt1.
    - exact t_bt2.
    - exists (m * (l1 - 1) / (l1 * m - 1)). split.
      + split; [apply Rmult_le_pos; [ppos; lra|left; apply Rinv_0_lt_compat; lra]|].
        apply (Rmult_le_reg_r (l1 * m - 1)); [lra|]. replace (m * (l1 - 1) / (l1 * m - 1) * (l1 * m - 1)) with (m * (l1 - 1)) by (field; lra). lra.
      + apply (at_eq _ _ _ _ _ _ hb (at_along _ _ _ _ _ _ _ hE1 hp)); [field; lra|rewrite nA; field; lra].
  Qed.
  Lemma a_bE2F : area2 b dE2 dF = D * - (l2 * (C * n) * (Y - 1)).
  Proof. area hb hE2 hF. rewrite mC. ring. Qed.
  Lemma t_M2 : Rltb 0 (orientation_val p dE1 dE2 * orientation_val b dE2 dF) = false.
  Proof.
    pose proof l1_ge. pose proof l2_ge. pose proof l1m. pose proof Y1.
    apply Rltb_false. rewrite !orientation_area, a_pE1E2, a_bE2F.
    assert (0 <= D * (l2 * (l1 * m - 1) * (A * (1 + C))) * (D * (l2 * (C * n) * (Y - 1)))) by (ppos; lra). lra.
  Qed.
  Lemma t_G3 : get_intersection dF o b dE2 = Some q.
  Proof.
    pose proof l2_ge as G1. pose proof Y_ge as GY. pose proof Y1 as GY1.
    assert (S2 : 0 <= l2 * (C * n) - m).
    { replace (C * n) with (m + C) by (rewrite mC; ring). assert (1 * (m + C) <= l2 * (m + C)) by (apply Rmult_le_compat_r; lra). lra. }
    apply gi_cross.
    - unfold intersect. apply andb_true_intro. split; [apply xor_ft|apply xor_tf].
      + apply is_ccw_false. rewrite <- (area2_cyc dF), a_bE2F. apply neg_le. ppos; lra.
      + apply is_ccw_iff. rewrite <- (area2_cyc o). area hb hE2 ho. apply (big_gt (C * n)); [exact mc|].
        replace ((m - l2 * (C * n) - m) * (0 - n) - (n - l2 * n - n) * (0 - m)) with (l2 * n * (C * n - m)) by ring.
        replace (C * n - m) with C by (rewrite mC; ring).
        assert (1 * (C * n) <= l2 * (C * n)) by (apply Rmult_le_compat_r; [ppos|]; lra). lra.
      + apply is_ccw_iff. area hF ho hb. apply (big_gt (A * m)); [exact ma|].
        replace ((0 - 0) * (n - Y) - (0 - Y) * (m - 0)) with (Y * m) by ring. apply Rmult_le_compat_r; lra.
      + apply is_ccw_false. area hF ho hE2. replace ((0 - 0) * (n - l2 * n - Y) - (0 - Y) * (m - l2 * (C * n) - 0)) with (- (Y * (l2 * (C * n) - m))) by ring.
        apply neg_le. ppos; lra.
    - exists ((Y - 1) / Y). apply (at_eq _ _ _ _ _ _ hq (at_along _ _ _ _ _ _ _ hF ho)); field; lra.
    - exists ((n - 1) / (n * l2)). apply (at_eq _ _ _ _ _ _ hq (at_along _ _ _ _ _ _ _ hb hE2)); [rewrite mC; field; split; lra|field; split; lra].
  Qed.
  Lemma t_T2 : is_between b c b = false.
  Proof.
    destruct (is_between b c b) eqn:E; [exfalso|reflexivity]. rewrite is_between_iff in E. rewrite dist_refl in E. unfold btw_eps in E.
    rewrite (dist_sym c b) in E. pose proof d_bc. lra.
  Qed.
  Lemma t_T3 : is_between b c q = false.
  Proof. exact (not_between_past _ _ _ q_on_bc sz_bc mg_q). Qed.
  Lemma far_ccw u v w : is_ccw u (code_far u v) w = true <-> TH < 300 * area2 u v w.
  Proof. rewrite is_ccw_iff, far_along, (area2_swap u w (along u v 300)), area2_along, (area2_swap u v w). split; intros; lra. Qed.
  Lemma t_S1 : is_ccw c (code_far c q) o = false.
  Proof.
    destruct (is_ccw c (code_far c q) o) eqn:E; [exfalso|reflexivity]. apply far_ccw in E. rewrite (at_area _ _ _ _ _ _ _ _ _ hc hq ho) in E.
    replace ((0 - - C) * (0 - 0) - (1 - 0) * (0 - - C)) with (- C) in E by ring. pose proof th0. assert (0 < D * C) by (ppos; lra). lra.
  Qed.
  Lemma t_S2 : is_ccw c (code_far c o) p = false.
  Proof.
    destruct (is_ccw c (code_far c o) p) eqn:E; [exfalso|reflexivity]. apply far_ccw in E. rewrite (at_area _ _ _ _ _ _ _ _ _ hc ho hp) in E.
    replace ((0 - - C) * (0 - 0) - (0 - 0) * (1 - - C)) with 0 in E by ring. pose proof th0. lra.
  Qed.
  Lemma t_S3 : is_ccw c (code_far c p) b = true.
  Proof.
    apply far_ccw. area hc hp hb. replace ((1 - - C) * (n - 0) - (0 - 0) * (m - - C)) with ((1 + C) * n) by ring. pose proof th0.
    assert (TH < D * ((1 + C) * n)) by (apply (big_gt (C * n)); [exact mc|apply Rmult_le_compat_r; lra]). lra.
  Qed.
  Lemma t_B3 : is_ccw c dE3 p = false.
  Proof. apply is_ccw_false. area hc hE3 hp. pose proof th0. match goal with |- ?g <= _ => replace g with 0 by ring end. lra. Qed.
  Lemma p_on_cE3 : on_seg c dE3 p.
  Proof.
    pose proof X_ge. exists ((1 + C) / X). split.
    - split; [apply Rmult_le_pos; [lra|left; apply Rinv_0_lt_compat; lra]|].
      apply (Rmult_le_reg_r X); [lra|]. replace ((1 + C) / X * X) with (1 + C) by (field; lra). lra.
    - apply (at_eq _ _ _ _ _ _ hp (at_along _ _ _ _ _ _ _ hc hE3)); field; lra.
  Qed.
  Lemma t_G4 : get_intersection p o c dE3 = Some p.
  Proof.
    apply gi_first; [|exact p_on_cE3]. unfold intersect. apply andb_false_intro1.
    assert (E1 : is_ccw p c dE3 = false).
    { apply is_ccw_false. area hp hc hE3. pose proof th0. match goal with |- ?g <= _ => replace g with 0 by ring end. lra. }
    assert (E2 : is_ccw o c dE3 = false).
    { apply is_ccw_false. area ho hc hE3. pose proof th0. match goal with |- ?g <= _ => replace g with 0 by ring end. lra. }
    rewrite E1, E2. reflexivity.
  Qed.
  Lemma t_G5 : get_intersection p b c dE3 = Some p.
  Proof.
    pose proof X_ge. apply gi_cross.
    - unfold intersect. apply andb_true_intro. split; [apply xor_ft|apply xor_tf].
      + apply is_ccw_false. area hp hc hE3. pose proof th0. match goal with |- ?g <= _ => replace g with 0 by ring end. lra.
      + apply is_ccw_iff. area hb hc hE3. apply (big_gt (C * n)); [exact mc|].
        match goal with |- _ <= ?g => replace g with (X * n) by ring end. apply Rmult_le_compat_r; lra.
      + apply is_ccw_iff. rewrite ar_pbc. apply (big_gt (C * n)); [exact mc|]. rewrite (Rmult_comm n). apply Rmult_le_compat_r; lra.
      + apply is_ccw_false. area hp hb hE3. match goal with |- D * ?g <= _ => replace g with (- (n * (X - C - 1))) by ring end. apply neg_le. ppos; lra.
    - exists 0. apply (at_eq _ _ _ _ _ _ hp (at_along _ _ _ _ _ _ _ hp hb)); ring.
    - destruct p_on_cE3 as [t [_ E]]. now exists t.
  Qed.
  Lemma t_eqb u v : k_eq code_ops u v = true <-> u = v.
  Proof.
    cbn [k_eq code_ops]. rewrite andb_true_iff, !Reqb_true. split; [intros [E1 E2]|intros ->; split; reflexivity].
    rewrite (surjective_pairing u), (surjective_pairing v). congruence.
  Qed.
  Lemma t_ne u v w : area2 w u v <> 0 -> k_eq code_ops u v = false.
  Proof.
    intros H. destruct (k_eq code_ops u v) eqn:E; [exfalso|reflexivity]. apply t_eqb in E. apply H. rewrite E. rewrite <- (area2_cyc w).
    unfold area2. unfold cross, vsub. cbn [fst snd]. ring.
  Qed.
  Lemma nz k : k <> 0 -> D * k <> 0.
  Proof. intros H1 H2. apply Rmult_integral in H2. destruct H2; lra. Qed.

  Lemma dart_code v : In v [[o; a; b; c]; [a; b; c; o]; [b; c; o; a]; [c; o; a; b]] -> scan_kernel code_ops v = Ret (Some [o; p; b; q]).
  Proof.
    assert (th := th0). assert (abc : TH < area2 a b c).
    { rewrite ar_abc. apply (big_gt (A * m)); [exact ma|]. rewrite <- (Rmult_1_r (A * m)) at 1. apply Rmult_le_compat_l; [ppos|]; lra. }
    assert (col : forall u v w, TH < area2 u v w -> is_collinear u v w = false /\ is_cw u v w = false).
    { intros u v' w H. split.
      - destruct (is_collinear u v' w) eqn:E; [apply is_collinear_iff in E; lra|reflexivity].
      - apply is_cw_false. lra. }
    destruct (col _ _ _ mg_a) as [c1 w1]. destruct (col _ _ _ abc) as [c2 w2]. destruct (col _ _ _ mg_c) as [c3 w3].
    assert (c0 : is_collinear c o a = false) by (destruct (is_collinear c o a) eqn:E; [apply is_collinear_iff in E; lra|reflexivity]).
    assert (w0 : is_cw c o a = true) by (apply is_cw_iff; exact mg_o).
    refine (dart_scan code_ops o a b c dF dL dE1 dE2 dE3 p q c0 c1 c2 c3 w0 w1 w2 w3 t_sF t_sL t_A1 t_B1 t_G1 t_M1 t_T1
      t_A2 t_B2 t_G2 t_M2 t_G3 t_T2 t_T3 t_S1 t_S2 t_S3 t_A3 t_B3 t_G4 t_G5 _ _ _ _ _ _ _ v).
    - now apply t_eqb.
    - apply (t_ne _ _ q). area hq hp ho. apply nz. lra.
    - apply (t_ne _ _ a). area ha hb ho. apply nz. replace ((m - 0) * (0 - - A) - (n - - A) * (0 - 0)) with (A * m) by ring. assert (0 < A * m) by (ppos; lra). lra.
    - apply (t_ne _ _ c). area hc hb hp. apply nz. replace ((m - - C) * (0 - 0) - (n - 0) * (1 - - C)) with (- (n * (1 + C))) by ring. assert (0 < n * (1 + C)) by (ppos; lra). lra.
    - apply (t_ne _ _ p). area hp hq ho. apply nz. lra.
    - apply (t_ne _ _ o). area ho hq hp. apply nz. lra.
    - apply (t_ne _ _ o). area ho hq hb. apply nz. lra.
  Qed.
End Tests.
