(** The kernel of a quadrilateral with a reflex vertex, and the scan on it. *)
From Coq Require Import Reals Lra Psatz List Bool Arith ZArith Lia.
From Verif Require Import Num Spec S_PolHull S_Kernel M_Cg M_Obstacle M_Polygon M_PolHull M_Kernel L_Geom L_Cg L_KernelDart L_DartGeom P_Polygon.
Import ListNotations.
Local Open Scope R_scope.

(** every simple quadrilateral with one reflex vertex has the two points p and q *)
Lemma dart_exists (o a b c : Pt) : area2 c o a < 0 -> 0 < area2 o a b -> 0 < area2 b c o ->
  let W := - area2 c o a in let U := area2 o a b in let V := area2 b c o in
  let p := along a b (W / (W + V)) in let q := along b c (U / (U + W)) in
  dart_coords o a b c p q ((U + W) / V) ((W + V) / U) ((W + V) / W) ((U + W) / W).
Proof.
  intros H0 H1 H2 W U V p q. assert (HW : 0 < W) by (unfold W; lra). fold U in H1. fold V in H2.
  assert (Eb : vsub b o = vadd (smul (- (U / W)) (vsub c o)) (smul (- (V / W)) (vsub a o))).
  { unfold U, V, W in *. destruct o as [ox oy], a as [ax ay], b as [bx by_], c as [cx cy].
    unfold area2, cross, vsub, vadd, smul in *. cbn [fst snd] in *. f_equal; field; lra. }
  assert (P2 : p = along o c (- (U / (W + V)))).
  { assert (E : p = vadd o (vadd (vsub a o) (smul (W / (W + V)) (vsub (vsub b o) (vsub a o))))) by (unfold p; destruct o, a, b; unv; f_equal; ring).
    rewrite E, Eb. destruct o, a, c; unv; f_equal; field; lra. }
  assert (Q2 : q = along o a (- (V / (U + W)))).
  { assert (E : q = vadd o (vadd (vsub b o) (smul (U / (U + W)) (vsub (vsub c o) (vsub b o))))) by (unfold q; destruct o, c, b; unv; f_equal; ring).
    rewrite E, Eb. destruct o, a, c; unv; f_equal; field; lra. }
  assert (K := dart_has_coords o a b c p q (U / (W + V)) (W / (W + V)) (V / (U + W)) (U / (U + W))).
  assert (F : forall x y, 0 < x -> 0 < y -> 0 < x / (x + y) < 1).
  { intros x y X Y. split; [apply Rdiv_lt_0_compat; lra|]. apply (Rmult_lt_reg_r (x + y)); [lra|]. unfold Rdiv. rewrite Rmult_assoc, Rinv_l; lra. }
  assert (K' := K ltac:(apply Rdiv_lt_0_compat; lra) (F W V HW H2) ltac:(apply Rdiv_lt_0_compat; lra) (F U W H1 HW) eq_refl P2 eq_refl Q2 H0).
  replace ((U + W) / V) with (/ (V / (U + W))) by (field; lra). replace ((W + V) / U) with (/ (U / (W + V))) by (field; lra).
  replace ((W + V) / W) with (/ (W / (W + V))) by (field; lra). replace ((U + W) / W) with (/ (1 - U / (U + W))) by (field; lra). exact K'.
Qed.

Section Dart.
  Variables (o a b c p q : Pt) (A C m n : R).
  Hypothesis dc : dart_coords o a b c p q A C m n.
  Let x := vsub p o.
  Let y := vsub q o.
  Let D := cross x y.
  Let pos : 0 < D := dc_pos _ _ _ _ _ _ _ _ _ _ dc.
  Let hA : 0 < A := dc_A _ _ _ _ _ _ _ _ _ _ dc.
  Let hC : 0 < C := dc_C _ _ _ _ _ _ _ _ _ _ dc.
  Let hm : 1 < m := dc_m _ _ _ _ _ _ _ _ _ _ dc.
  Let hn : 1 < n := dc_n _ _ _ _ _ _ _ _ _ _ dc.
  Let mC : m = C * (n - 1) := dc_mC _ _ _ _ _ _ _ _ _ _ dc.
  Let nA : n = A * (m - 1) := dc_nA _ _ _ _ _ _ _ _ _ _ dc.

  Definition cs (z : Pt) : R := cross (vsub z o) y / D.
  Definition ct (z : Pt) : R := cross x (vsub z o) / D.
  Lemma has_coords z : z = bary o x y (cs z) (ct z).
  Proof.
    unfold cs, ct. pose proof pos as P. revert P. unfold D. generalize x y. intros [x1 x2] [y1 y2]. destruct z, o. unfold bary. unv. intros P.
    f_equal; field; lra.
  Qed.
  Lemma cs_along u v k : cs (along u v k) = (1 - k) * cs u + k * cs v.
  Proof. unfold cs. pose proof pos as P. revert P. unfold D. generalize x y. intros [x1 x2] [y1 y2]. destruct u, v, o. unv. intros P. field. lra. Qed.
  Lemma ct_along u v k : ct (along u v k) = (1 - k) * ct u + k * ct v.
  Proof. unfold ct. pose proof pos as P. revert P. unfold D. generalize x y. intros [x1 x2] [y1 y2]. destruct u, v, o. unv. intros P. field. lra. Qed.
  Lemma cs_bary s t : cs (bary o x y s t) = s.
  Proof. unfold cs. pose proof pos as P. revert P. unfold D. generalize x y. intros [x1 x2] [y1 y2]. destruct o. unfold bary. unv. intros P. field. lra. Qed.
  Lemma ct_bary s t : ct (bary o x y s t) = t.
  Proof. unfold ct. pose proof pos as P. revert P. unfold D. generalize x y. intros [x1 x2] [y1 y2]. destruct o. unfold bary. unv. intros P. field. lra. Qed.

  (** the lines of the edges in the coordinates *)
  Definition eab s t := t - A * (s - 1).
  Definition ebc s t := s - C * (t - 1).
  Lemma ar z u v s1 t1 s2 t2 : u = bary o x y s1 t1 -> v = bary o x y s2 t2 ->
    area2 u v z = D * ((s2 - s1) * (ct z - t1) - (t2 - t1) * (cs z - s1)).
  Proof. intros -> ->. rewrite (has_coords z) at 1. apply bary_area. Qed.
  Let ho := dc_o _ _ _ _ _ _ _ _ _ _ dc.
  Let hp := dc_p _ _ _ _ _ _ _ _ _ _ dc.
  Let hq := dc_q _ _ _ _ _ _ _ _ _ _ dc.
  Let ha := dc_a _ _ _ _ _ _ _ _ _ _ dc.
  Let hb := dc_b _ _ _ _ _ _ _ _ _ _ dc.
  Let hc := dc_c _ _ _ _ _ _ _ _ _ _ dc.
  Lemma ar_oa z : area2 o a z = D * A * cs z.
  Proof. rewrite (ar z _ _ _ _ _ _ ho ha). ring. Qed.
  Lemma ar_co z : area2 c o z = D * C * ct z.
  Proof. rewrite (ar z _ _ _ _ _ _ hc ho). ring. Qed.
  Lemma ar_ab z : area2 a b z = D * m * eab (cs z) (ct z).
  Proof. rewrite (ar z _ _ _ _ _ _ ha hb). unfold eab. replace (n - - A) with (A * m) by (rewrite nA; ring). ring. Qed.
  Lemma ar_bc z : area2 b c z = D * n * ebc (cs z) (ct z).
  Proof.
    rewrite (ar z _ _ _ _ _ _ hb hc). unfold ebc. replace (- C - m) with (- (C * n)) by (rewrite mC; ring).
    replace (cs z - m) with (cs z - C * (n - 1)) by (rewrite <- mC; ring). ring.
  Qed.
  Lemma ar_ob z : area2 o b z = D * (m * ct z - n * cs z).
  Proof. rewrite (ar z _ _ _ _ _ _ ho hb). ring. Qed.
  Lemma ar_bo z : area2 b o z = D * (n * cs z - m * ct z).
  Proof. rewrite (ar z _ _ _ _ _ _ hb ho). ring. Qed.
  Lemma ar_op z : area2 o p z = D * ct z.
  Proof. rewrite (ar z _ _ _ _ _ _ ho hp). ring. Qed.
  Lemma ar_qo z : area2 q o z = D * cs z.
  Proof. rewrite (ar z _ _ _ _ _ _ hq ho). ring. Qed.
  Lemma ar_pb z : area2 p b z = D * (m - 1) * eab (cs z) (ct z).
  Proof. rewrite (ar z _ _ _ _ _ _ hp hb). unfold eab. replace (n - 0) with (A * (m - 1)) by (rewrite <- nA; ring). ring. Qed.
  Lemma ar_bq z : area2 b q z = D * (n - 1) * ebc (cs z) (ct z).
  Proof.
    rewrite (ar z _ _ _ _ _ _ hb hq). unfold ebc. replace (0 - m) with (- (C * (n - 1))) by (rewrite <- mC; ring).
    replace (cs z - m) with (cs z - C * (n - 1)) by (rewrite <- mC; ring). ring.
  Qed.
  Lemma sg k e : 0 < k -> (0 <= D * k * e <-> 0 <= e).
  Proof.
    intros K. assert (0 < D * k) by (apply Rmult_lt_0_compat; [exact pos|exact K]). split; intros H1.
    - apply Rnot_lt_le. intros L. assert (0 < D * k * - e) by (apply Rmult_lt_0_compat; lra). lra.
    - apply Rmult_le_pos; lra.
  Qed.
  Lemma sg1 e : 0 <= D * e <-> 0 <= e.
  Proof. rewrite <- (sg 1 e) by lra. now rewrite Rmult_1_r. Qed.

  Definition k1 z := 0 <= cs z /\ 0 <= eab (cs z) (ct z) /\ 0 <= n * cs z - m * ct z.
  Definition k2 z := 0 <= m * ct z - n * cs z /\ 0 <= ebc (cs z) (ct z) /\ 0 <= ct z.
  Lemma tri1 z : in_triangle_of o a b z <-> k1 z.
  Proof. unfold in_triangle_of, k1. rewrite ar_oa, ar_ab, ar_bo, !sg, sg1 by lra. tauto. Qed.
  Lemma tri2 z : in_triangle_of o b c z <-> k2 z.
  Proof. unfold in_triangle_of, k2. rewrite ar_ob, ar_bc, ar_co, !sg, sg1 by lra. tauto. Qed.
  Lemma quad_coords z : quad o a b c z <-> k1 z \/ k2 z.
  Proof. unfold quad. now rewrite tri1, tri2. Qed.
  Definition kk z := 0 <= cs z /\ 0 <= ct z /\ 0 <= eab (cs z) (ct z) /\ 0 <= ebc (cs z) (ct z).
  Lemma left4 u1 u2 u3 u4 z : left_of_all [u1; u2; u3; u4] z <-> 0 <= area2 u1 u2 z /\ 0 <= area2 u2 u3 z /\ 0 <= area2 u3 u4 z /\ 0 <= area2 u4 u1 z.
  Proof.
    unfold left_of_all. cbn [cyc_edges app combine]. split.
    - intros H. repeat split; apply H; cbn; tauto.
    - intros (H1 & H2 & H3 & H4) u v [E|[E|[E|[E|[]]]]]; injection E as <- <-; assumption.
  Qed.
  Lemma left_dart z : left_of_all [o; a; b; c] z <-> kk z.
  Proof. rewrite left4, ar_oa, ar_ab, ar_bc, ar_co, !sg by lra. unfold kk. tauto. Qed.
  Lemma left_kernel z : left_of_all [o; p; b; q] z <-> kk z.
  Proof. rewrite left4, ar_op, ar_pb, ar_bq, ar_qo, !sg, !sg1 by lra. unfold kk. tauto. Qed.

  Lemma k1_ebc z : k1 z -> 0 <= ebc (cs z) (ct z).
  Proof.
    intros (H1 & H2 & H3). unfold eab, ebc in *. destruct (Rle_or_lt (ct z) 1) as [L|L].
    - assert (0 <= C * (1 - ct z)) by (apply Rmult_le_pos; lra). lra.
    - (* n s >= m t, m = C (n - 1): n (s - C (t - 1)) >= C ((n - 1) t - n t + n) = C (n - t) *)
      assert (T : ct z <= n).
      { apply Rnot_lt_le. intros N. assert (0 < A * m * (ct z - n)) by (apply Rmult_lt_0_compat; [apply Rmult_lt_0_compat|]; lra).
        assert (0 <= n * (ct z - A * (cs z - 1))) by (apply Rmult_le_pos; lra). assert (0 <= A * (n * cs z - m * ct z)) by (apply Rmult_le_pos; lra).
        assert (n * ct z + n * A - A * m * ct z >= 0) by lra. assert (E : A * m = n + A) by (rewrite nA; ring). rewrite E in *.
        assert (A * (n - ct z) >= 0) by lra. assert (0 < A * (ct z - n)) by (apply Rmult_lt_0_compat; lra). lra. }
      assert (0 <= C * (n - ct z)) by (apply Rmult_le_pos; lra).
      assert (Q : 0 <= n * (cs z - C * (ct z - 1))).
      { replace (n * (cs z - C * (ct z - 1))) with (n * cs z - C * (n - 1) * ct z + C * (n - ct z)) by ring. rewrite <- mC. lra. }
      apply Rnot_lt_le. intros N. assert (0 < n * - (cs z - C * (ct z - 1))) by (apply Rmult_lt_0_compat; lra). lra.
  Qed.
  Lemma k2_eab z : k2 z -> 0 <= eab (cs z) (ct z).
  Proof.
    intros (H1 & H2 & H3). unfold eab, ebc in *. destruct (Rle_or_lt (cs z) 1) as [L|L].
    - assert (0 <= A * (1 - cs z)) by (apply Rmult_le_pos; lra). lra.
    - assert (T : cs z <= m).
      { apply Rnot_lt_le. intros N.
        assert (0 <= m * (cs z - C * (ct z - 1))) by (apply Rmult_le_pos; lra). assert (0 <= C * (m * ct z - n * cs z)) by (apply Rmult_le_pos; lra).
        assert (m * cs z + m * C - C * n * cs z >= 0) by lra. assert (E : C * n = m + C) by (rewrite mC; ring). rewrite E in *.
        assert (C * (m - cs z) >= 0) by lra. assert (0 < C * (cs z - m)) by (apply Rmult_lt_0_compat; lra). lra. }
      assert (0 <= A * (m - cs z)) by (apply Rmult_le_pos; lra).
      assert (Q : 0 <= m * (ct z - A * (cs z - 1))).
      { replace (m * (ct z - A * (cs z - 1))) with (m * ct z - A * (m - 1) * cs z + A * (m - cs z)) by ring. rewrite <- nA. lra. }
      apply Rnot_lt_le. intros N. assert (0 < m * - (ct z - A * (cs z - 1))) by (apply Rmult_lt_0_compat; lra). lra.
  Qed.
  Lemma eab_mix k u v s t : eab ((1 - k) * u + k * v) ((1 - k) * s + k * t) = (1 - k) * eab u s + k * eab v t.
  Proof. unfold eab. ring. Qed.
  Lemma ebc_mix k u v s t : ebc ((1 - k) * u + k * v) ((1 - k) * s + k * t) = (1 - k) * ebc u s + k * ebc v t.
  Proof. unfold ebc. ring. Qed.
  Lemma mix_nonneg k u v : 0 <= k <= 1 -> 0 <= u -> 0 <= v -> 0 <= (1 - k) * u + k * v.
  Proof. intros K U V. apply Rplus_le_le_0_compat; apply Rmult_le_pos; lra. Qed.
  Lemma kk_quad z : kk z -> k1 z \/ k2 z.
  Proof. intros (H1 & H2 & H3 & H4). destruct (Rle_or_lt 0 (n * cs z - m * ct z)); [left|right]; repeat split; try assumption; lra. Qed.

  Lemma dart_kernel z : kernel_of (quad o a b c) z <-> left_of_all [o; a; b; c] z.
  Proof.
    rewrite left_dart. unfold kernel_of, starshaped_from. rewrite quad_coords. split.
    - intros [Z S].
      assert (EAB : 0 <= eab (cs z) (ct z)) by (destruct Z as [Z|Z]; [apply Z|now apply k2_eab]).
      assert (EBC : 0 <= ebc (cs z) (ct z)) by (destruct Z as [Z|Z]; [now apply k1_ebc|apply Z]).
      assert (Ca : cs a = 0) by (rewrite ha; apply cs_bary). assert (Ta : ct a = - A) by (rewrite ha; apply ct_bary).
      assert (Cc : cs c = - C) by (rewrite hc; apply cs_bary). assert (Tc : ct c = 0) by (rewrite hc; apply ct_bary).
      assert (Qa : quad o a b c a).
      { apply quad_coords. left. unfold k1, eab. rewrite Ca, Ta. repeat split; [lra|lra|]. assert (0 < m * A) by (apply Rmult_lt_0_compat; lra). lra. }
      assert (Qc : quad o a b c c).
      { apply quad_coords. right. unfold k2, ebc. rewrite Cc, Tc. repeat split; [|lra|lra]. assert (0 < n * C) by (apply Rmult_lt_0_compat; lra). lra. }
      unfold kk. repeat split; try assumption.
      + (* a point near a *)
        apply Rnot_lt_le. intros L. assert (T : 0 <= ct z) by (destruct Z as [Z|Z]; [destruct Z; lra|apply Z]).
        set (k := A / (2 * (ct z + A))).
        assert (K : 0 < k) by (apply Rdiv_lt_0_compat; lra). assert (KE : k * (ct z + A) = A / 2) by (unfold k; field; lra).
        assert (K1 : k <= 1) by (apply Rnot_lt_le; intros N; assert (0 <= (k - 1) * (ct z + A)) by (apply Rmult_le_pos; lra); lra).
        assert (Q := S a (along z a (1 - k)) Qa ltac:(exists (1 - k); split; [lra|reflexivity])).
        apply quad_coords in Q. unfold k1, k2 in Q. rewrite cs_along, ct_along, Ca, Ta in Q.
        assert (0 < k * - cs z) by (apply Rmult_lt_0_compat; lra). destruct Q as [(Q & _)|(_ & _ & Q)]; lra.
      + (* a point near c *)
        apply Rnot_lt_le. intros L. assert (T : 0 <= cs z) by (destruct Z as [Z|Z]; [apply Z|destruct Z as (_ & _ & Z); lra]).
        set (k := C / (2 * (cs z + C))).
        assert (K : 0 < k) by (apply Rdiv_lt_0_compat; lra). assert (KE : k * (cs z + C) = C / 2) by (unfold k; field; lra).
        assert (K1 : k <= 1) by (apply Rnot_lt_le; intros N; assert (0 <= (k - 1) * (cs z + C)) by (apply Rmult_le_pos; lra); lra).
        assert (Q := S c (along z c (1 - k)) Qc ltac:(exists (1 - k); split; [lra|reflexivity])).
        apply quad_coords in Q. unfold k1, k2 in Q. rewrite cs_along, ct_along, Cc, Tc in Q.
        assert (0 < k * - ct z) by (apply Rmult_lt_0_compat; lra). destruct Q as [(Q & _)|(_ & _ & Q)]; lra.
    - intros K. split; [now apply kk_quad|]. intros u r U (k & Hk & ->). apply quad_coords in U. apply quad_coords. destruct K as (K1 & K2 & K3 & K4).
      set (w := along z u k).
      assert (EAB : 0 <= eab (cs w) (ct w)).
      { unfold w. rewrite cs_along, ct_along, eab_mix. apply mix_nonneg; [exact Hk|exact K3|]. destruct U as [U|U]; [apply U|now apply k2_eab]. }
      assert (EBC : 0 <= ebc (cs w) (ct w)).
      { unfold w. rewrite cs_along, ct_along, ebc_mix. apply mix_nonneg; [exact Hk|exact K4|]. destruct U as [U|U]; [now apply k1_ebc|apply U]. }
      assert (PP : forall k e, 0 < k -> 0 <= k * e -> 0 <= e).
      { intros j e J E. apply Rnot_lt_le. intros N. assert (0 < j * - e) by (apply Rmult_lt_0_compat; lra). lra. }
      destruct U as [U|U].
      + assert (Sw : 0 <= cs w) by (unfold w; rewrite cs_along; apply mix_nonneg; [exact Hk|exact K1|apply U]).
        assert (0 <= n * cs w) by (apply Rmult_le_pos; lra).
        destruct (Rle_or_lt 0 (n * cs w - m * ct w)); [left|right]; repeat split; try assumption; [lra|]. apply (PP m); lra.
      + assert (Sw : 0 <= ct w) by (unfold w; rewrite ct_along; apply mix_nonneg; [exact Hk|exact K2|apply U]).
        assert (0 <= m * ct w) by (apply Rmult_le_pos; lra).
        destruct (Rle_or_lt 0 (n * cs w - m * ct w)); [left|right]; repeat split; try assumption; [|lra]. apply (PP n); lra.
  Qed.

  Lemma dart_encloses : encloses [o; a; b; c] (quad o a b c).
  Proof.
    assert (P1 : 0 < area2 o a b).
    { rewrite ar_oa. rewrite hb, cs_bary. assert (0 < D * A) by (apply Rmult_lt_0_compat; [exact pos|exact hA]). apply Rmult_lt_0_compat; lra. }
    assert (P2 : 0 < area2 o b c).
    { rewrite ar_ob. rewrite hc, ct_bary, cs_bary. apply Rmult_lt_0_compat; [exact pos|]. assert (0 < n * C) by (apply Rmult_lt_0_compat; lra). lra. }
    eapply enc_same; [apply (enc_ear o a b [c] _ P1 (enc_triangle o b c P2))|intros z; unfold quad; tauto].
    intros z Z2 Z1. apply tri1 in Z1. apply tri2 in Z2. destruct Z1 as (S1 & E1 & L1), Z2 as (L2 & E2 & T2).
    assert (E : m * ct z = n * cs z) by lra.
    assert (Cb : cs b = m) by (rewrite hb; apply cs_bary). assert (Tb : ct b = n) by (rewrite hb; apply ct_bary).
    assert (Co : cs o = 0) by (rewrite ho at 1; apply cs_bary). assert (To : ct o = 0) by (rewrite ho at 1; apply ct_bary).
    exists (cs z / m). split.
    - split; [apply Rmult_le_pos; [exact S1|left; apply Rinv_0_lt_compat; lra]|].
      apply (Rmult_le_reg_r m); [lra|]. replace (cs z / m * m) with (cs z) by (field; lra). rewrite Rmult_1_l.
      unfold eab in E1. assert (0 <= m * (ct z - A * (cs z - 1))) by (apply Rmult_le_pos; lra).
      assert (A * m = n + A) by (rewrite nA; ring). assert (0 <= n * cs z - A * m * (cs z - 1)) by lra. rewrite H0 in H1.
      assert (0 <= A * (m - cs z)) by (rewrite nA in H1; lra).
      apply Rnot_lt_le. intros N. assert (0 < A * (cs z - m)) by (apply Rmult_lt_0_compat; lra). lra.
    - rewrite (has_coords z) at 1. rewrite (has_coords (along o b (cs z / m))). rewrite cs_along, ct_along, Co, To, Cb, Tb. f_equal; [field; lra|].
      apply (Rmult_eq_reg_l m); [|lra]. rewrite E. field. lra.
  Qed.
End Dart.
