(** Two starshaped regions whose hulls meet only if one region meets the hull of the other. *)
From Coq Require Import Reals Lra Psatz List.
From Verif Require Import Spec L_Geom L_Hull.
Import ListNotations.
Open Scope R_scope.

(** a non-negative combination of three vectors of the plane is one of two of them, with no larger sum of weights *)
Lemma min_ratio3 l1 l2 l3 a1 a2 a3 : 0 <= l1 -> 0 <= l2 -> 0 <= l3 -> 0 <= a1 + a2 + a3 -> (0 < a1 \/ 0 < a2 \/ 0 < a3) ->
  exists t, 0 <= t /\ 0 <= l1 - t * a1 /\ 0 <= l2 - t * a2 /\ 0 <= l3 - t * a3 /\ (l1 - t * a1 = 0 \/ l2 - t * a2 = 0 \/ l3 - t * a3 = 0).
Proof.
  intros H1 H2 H3 _ P.
  assert (Q : forall l a t, 0 < a -> t = l / a -> l - t * a = 0) by (intros; subst; field; lra).
  assert (Ge : forall l a t, 0 < a -> t <= l / a -> 0 <= l - t * a).
  { intros l a t A T. assert (t * a <= l); [|lra]. replace l with (l / a * a) by (field; lra). apply Rmult_le_compat_r; lra. }
  assert (Gn : forall l a t, 0 <= l -> a <= 0 -> 0 <= t -> 0 <= l - t * a) by (intros; nra).
  assert (Z : forall l a, 0 <= l -> 0 < a -> 0 <= l / a) by (intros; apply Rmult_le_pos; [assumption|left; apply Rinv_0_lt_compat; assumption]).
  assert (K : exists t, 0 <= t /\ (0 < a1 -> t <= l1 / a1) /\ (0 < a2 -> t <= l2 / a2) /\ (0 < a3 -> t <= l3 / a3) /\
              ((0 < a1 /\ t = l1 / a1) \/ (0 < a2 /\ t = l2 / a2) \/ (0 < a3 /\ t = l3 / a3))).
  { destruct (Rlt_dec 0 a1) as [A1|A1]; destruct (Rlt_dec 0 a2) as [A2|A2]; destruct (Rlt_dec 0 a3) as [A3|A3];
      try (exfalso; lra);
      pose proof (fun h => Z l1 a1 H1 h) as Z1; pose proof (fun h => Z l2 a2 H2 h) as Z2; pose proof (fun h => Z l3 a3 H3 h) as Z3.
    - specialize (Z1 A1). specialize (Z2 A2). specialize (Z3 A3).
      destruct (Rle_dec (l1 / a1) (l2 / a2)); [destruct (Rle_dec (l1 / a1) (l3 / a3))|destruct (Rle_dec (l2 / a2) (l3 / a3))];
        [exists (l1 / a1)|exists (l3 / a3)|exists (l2 / a2)|exists (l3 / a3)]; repeat split; intros; try lra; tauto.
    - specialize (Z1 A1). specialize (Z2 A2).
      destruct (Rle_dec (l1 / a1) (l2 / a2)); [exists (l1 / a1)|exists (l2 / a2)]; repeat split; intros; try lra; tauto.
    - specialize (Z1 A1). specialize (Z3 A3).
      destruct (Rle_dec (l1 / a1) (l3 / a3)); [exists (l1 / a1)|exists (l3 / a3)]; repeat split; intros; try lra; tauto.
    - specialize (Z1 A1). exists (l1 / a1); repeat split; intros; try lra; tauto.
    - specialize (Z2 A2). specialize (Z3 A3).
      destruct (Rle_dec (l2 / a2) (l3 / a3)); [exists (l2 / a2)|exists (l3 / a3)]; repeat split; intros; try lra; tauto.
    - specialize (Z2 A2). exists (l2 / a2); repeat split; intros; try lra; tauto.
    - specialize (Z3 A3). exists (l3 / a3); repeat split; intros; try lra; tauto. }
  destruct K as (t & T & K1 & K2 & K3 & E). exists t. split; [exact T|].
  split; [destruct (Rlt_dec 0 a1); [apply Ge; auto|apply Gn; lra]|].
  split; [destruct (Rlt_dec 0 a2); [apply Ge; auto|apply Gn; lra]|].
  split; [destruct (Rlt_dec 0 a3); [apply Ge; auto|apply Gn; lra]|].
  destruct E as [[A E]|[[A E]|[A E]]]; [left|right; left|right; right]; apply Q; auto.
Qed.

Lemma dependency (u1 u2 u3 : R * R) : exists a1 a2 a3, (a1 <> 0 \/ a2 <> 0 \/ a3 <> 0) /\
  vadd (smul a1 u1) (vadd (smul a2 u2) (smul a3 u3)) = (0, 0).
Proof.
  destruct u1 as [x1 y1], u2 as [x2 y2], u3 as [x3 y3].
  destruct (Req_dec (x2 * y3 - y2 * x3) 0) as [D1|D1].
  - destruct (Req_dec x2 0) as [X2|X2]; [destruct (Req_dec y2 0) as [Y2|Y2]|].
    + exists 0, 1, 0. split; [right; left; lra|]. unv. f_equal; subst; ring.
    + exists 0, y3, (- y2). split; [right; right; lra|]. unv. f_equal; [|ring].
      assert (y2 * x3 = 0) by (rewrite X2 in D1; lra). assert (x3 = 0) by (destruct (Rmult_integral _ _ H); [contradiction|assumption]). subst. ring.
    + exists 0, x3, (- x2). split; [right; right; lra|]. unv. f_equal; [ring|]. lra.
  - exists (x2 * y3 - y2 * x3), (x3 * y1 - y3 * x1), (x1 * y2 - y1 * x2). split; [left; exact D1|]. unv. f_equal; ring.
Qed.

Lemma reduce3 (u1 u2 u3 : R * R) l1 l2 l3 : 0 <= l1 -> 0 <= l2 -> 0 <= l3 ->
  exists v1 v2 m1 m2, In v1 [u1; u2; u3] /\ In v2 [u1; u2; u3] /\ 0 <= m1 /\ 0 <= m2 /\ m1 + m2 <= l1 + l2 + l3 /\
    vadd (smul m1 v1) (smul m2 v2) = vadd (smul l1 u1) (vadd (smul l2 u2) (smul l3 u3)).
Proof.
  intros H1 H2 H3. destruct (dependency u1 u2 u3) as (a1 & a2 & a3 & N & D).
  assert (K : exists b1 b2 b3, 0 <= b1 + b2 + b3 /\ (0 < b1 \/ 0 < b2 \/ 0 < b3) /\ vadd (smul b1 u1) (vadd (smul b2 u2) (smul b3 u3)) = (0, 0)).
  { destruct (Rle_dec 0 (a1 + a2 + a3)).
    - destruct (Rlt_dec 0 a1); [exists a1, a2, a3; auto|]. destruct (Rlt_dec 0 a2); [exists a1, a2, a3; auto|]. destruct (Rlt_dec 0 a3); [exists a1, a2, a3; auto|].
      exfalso. assert (a1 = 0) by lra. assert (a2 = 0) by lra. assert (a3 = 0) by lra. tauto.
    - exists (- a1), (- a2), (- a3). split; [lra|]. split.
      + destruct (Rlt_dec a1 0); [left; lra|]. destruct (Rlt_dec a2 0); [right; left; lra|]. right; right; lra.
      + revert D. unv. intros D. injection D as D1 D2. f_equal; lra. }
  destruct K as (b1 & b2 & b3 & Sm & Ps & B). destruct (min_ratio3 l1 l2 l3 b1 b2 b3 H1 H2 H3 Sm Ps) as (t & T & K1 & K2 & K3 & E).
  assert (Tot : 0 <= t * (b1 + b2 + b3)) by (apply Rmult_le_pos; assumption).
  revert B. unv. intros B. injection B as B1 B2.
  assert (E1 : t * (b1 * fst u1 + (b2 * fst u2 + b3 * fst u3)) = 0) by (rewrite B1; ring).
  assert (E2 : t * (b1 * snd u1 + (b2 * snd u2 + b3 * snd u3)) = 0) by (rewrite B2; ring).
  destruct E as [E|[E|E]].
  - exists u2, u3, (l2 - t * b2), (l3 - t * b3). cbn. repeat split; auto; try lra.
    assert (Z1 : (l1 - t * b1) * fst u1 = 0) by (rewrite E; ring). assert (Z2 : (l1 - t * b1) * snd u1 = 0) by (rewrite E; ring). f_equal; lra.
  - exists u1, u3, (l1 - t * b1), (l3 - t * b3). cbn. repeat split; auto; try lra.
    assert (Z1 : (l2 - t * b2) * fst u2 = 0) by (rewrite E; ring). assert (Z2 : (l2 - t * b2) * snd u2 = 0) by (rewrite E; ring). f_equal; lra.
  - exists u1, u2, (l1 - t * b1), (l2 - t * b2). cbn. repeat split; auto; try lra.
    assert (Z1 : (l3 - t * b3) * fst u3 = 0) by (rewrite E; ring). assert (Z2 : (l3 - t * b3) * snd u3 = 0) by (rewrite E; ring). f_equal; lra.
Qed.

(** points of the hull of a starshaped region lie between two of its points *)
Lemma conic2 (k : R * R) : forall ps ws, length ws = length ps -> ps <> [] -> Forall (fun w => 0 <= w) ws ->
  exists v1 v2 m1 m2, In v1 ps /\ In v2 ps /\ 0 <= m1 /\ 0 <= m2 /\ m1 + m2 <= rsum ws /\
    vadd (smul m1 (vsub v1 k)) (smul m2 (vsub v2 k)) = vsub (wsum ws ps) (smul (rsum ws) k).
Proof.
  induction ps as [|p ps IH]; intros ws L N F; [congruence|]. destruct ws as [|w ws]; [discriminate|]. inversion F as [|? ? W F']; subst. cbn in L. injection L as L.
  destruct ps as [|p' ps'].
  - destruct ws; [|discriminate]. exists p, p, w, 0. cbn. repeat split; auto; try lra. unv. f_equal; ring.
  - destruct (IH ws L ltac:(discriminate) F') as (v1 & v2 & m1 & m2 & I1 & I2 & P1 & P2 & Sm & E). clear IH.
    set (qs := p' :: ps') in *. destruct (reduce3 (vsub p k) (vsub v1 k) (vsub v2 k) w m1 m2 W P1 P2) as (z1 & z2 & n1 & n2 & J1 & J2 & Q1 & Q2 & Sn & E').
    assert (B : forall z, In z [vsub p k; vsub v1 k; vsub v2 k] -> exists v, In v (p :: qs) /\ z = vsub v k).
    { intros z [<-|[<-|[<-|[]]]]; [exists p|exists v1|exists v2]; split; auto; cbn [In]; auto. }
    destruct (B z1 J1) as (a1 & A1 & ->). destruct (B z2 J2) as (a2 & A2 & ->). exists a1, a2, n1, n2. repeat split; auto.
    + unfold rsum in *. cbn [fold_right] in *. lra.
    + rewrite E'. rewrite E. cbn [wsum rsum fold_right]. fold (rsum ws). unv. f_equal; ring.
Qed.
Lemma hull_star (A : region) k q : starshaped_from A k -> hull_region A q ->
  exists s s', A s /\ A s' /\ (forall z, on_seg k s z -> A z) /\ (forall z, on_seg k s' z -> A z) /\ on_seg s s' q.
Proof.
  intros St (ps & HA & ws & L & F & Sm & E).
  assert (N : ps <> []). { intros ->. destruct ws; [|discriminate]. cbn in Sm. lra. }
  destruct (conic2 k ps ws L N F) as (v1 & v2 & m1 & m2 & I1 & I2 & P1 & P2 & Sl & Eq). rewrite Sm, E in *.
  set (t := m1 + m2) in *.
  assert (V : forall v, In v ps -> A (along k v t)). { intros v Hv. apply (St v); [apply HA, Hv|]. exists t. split; [unfold t in *; lra|reflexivity]. }
  exists (along k v1 t), (along k v2 t). split; [apply V, I1|]. split; [apply V, I2|].
  split; [intros z Hz; apply (St _ z (V v1 I1) Hz)|]. split; [intros z Hz; apply (St _ z (V v2 I2) Hz)|].
  revert Eq. unv. intros Eq. injection Eq as E1 E2. destruct (Req_dec t 0) as [Z|Z].
  - exists 0. split; [lra|]. assert (m1 = 0) by (unfold t in *; lra). assert (m2 = 0) by (unfold t in *; lra). destruct q as [qx qy]. unv. rewrite Z. subst m1 m2. f_equal; lra.
  - assert (Tp : 0 < t) by (unfold t in *; lra). exists (m2 / t). split.
    + split; [apply Rmult_le_pos; [lra|left; apply Rinv_0_lt_compat, Tp]|]. apply Rmult_le_reg_r with t; [exact Tp|]. unfold Rdiv. rewrite Rmult_assoc, Rinv_l by exact Z. unfold t. lra.
    + destruct q as [qx qy]. unv. assert (M : m1 = t - m2) by (unfold t; lra). rewrite M in E1, E2. f_equal.
      * transitivity (fst k + ((t - m2) * (fst v1 - fst k) + m2 * (fst v2 - fst k))); [lra|]. field. exact Z.
      * transitivity (snd k + ((t - m2) * (snd v1 - snd k) + m2 * (snd v2 - snd k))); [lra|]. field. exact Z.
Qed.

(** leaving the triangle k s s' from a point of its base towards the side of k *)
Lemma leave_triangle k s s' p t (bk bs bs' sg : R) : 0 <= sg <= 1 -> p = vadd (smul (1 - sg) s) (smul sg s') ->
  0 <= bk -> bk + bs + bs' = 1 -> (bs < 0 \/ bs' < 0) -> t = vadd (smul bk k) (vadd (smul bs s) (smul bs' s')) ->
  exists q, on_seg p t q /\ (on_seg k s q \/ on_seg k s' q).
Proof.
  intros Sg -> Bk Sm Neg ->.
  (* the coordinate of s along the segment is (1-w)(1-sg) + w bs *)
  assert (K : forall sg bs bs' : R, 0 <= sg <= 1 -> bk + bs + bs' = 1 -> bs < 0 -> (bs' < 0 -> sg * (1 - sg - bs) >= (1 - sg) * (sg - bs')) ->
     exists w, 0 <= w <= 1 /\ (1 - w) * (1 - sg) + w * bs = 0 /\ 0 <= (1 - w) * sg + w * bs').
  { clear Neg Sm bs bs' Sg sg. intros sg bs bs' Sg Sm B Min. exists ((1 - sg) / (1 - sg - bs)).
    assert (D : 0 < 1 - sg - bs) by lra. assert (Iv := Rinv_0_lt_compat _ D).
    assert (E : (1 - sg) / (1 - sg - bs) * (1 - sg - bs) = 1 - sg) by (field; lra).
    set (w := (1 - sg) / (1 - sg - bs)) in *. assert (W0 : 0 <= w) by (unfold w; apply Rmult_le_pos; lra).
    assert (W1 : w <= 1) by (apply Rmult_le_reg_r with (1 - sg - bs); lra).
    split; [lra|]. split; [lra|].
    destruct (Rle_dec 0 bs') as [P|P]; [assert (0 <= (1 - w) * sg) by (apply Rmult_le_pos; lra); assert (0 <= w * bs') by (apply Rmult_le_pos; lra); lra|].
    specialize (Min ltac:(lra)). apply Rmult_le_reg_r with (1 - sg - bs); [exact D|].
    replace (((1 - w) * sg + w * bs') * (1 - sg - bs)) with (sg * (1 - sg - bs) - (w * (1 - sg - bs)) * (sg - bs')) by ring. rewrite E. lra. }
  assert (Pt : forall w, (1 - w) * (1 - sg) + w * bs = 0 -> 0 <= w <= 1 -> 0 <= (1 - w) * sg + w * bs' ->
     exists q, on_seg (vadd (smul (1 - sg) s) (smul sg s')) (vadd (smul bk k) (vadd (smul bs s) (smul bs' s'))) q /\ (on_seg k s q \/ on_seg k s' q)).
  { intros w E W P. eexists. split; [exists w; split; [exact W|reflexivity]|]. right. exists ((1 - w) * sg + w * bs').
    assert (T : w * bk + ((1 - w) * (1 - sg) + w * bs) + ((1 - w) * sg + w * bs') = 1) by (replace bk with (1 - bs - bs') by lra; ring).
    rewrite E in T. split; [split; [exact P|]; assert (0 <= w * bk) by (apply Rmult_le_pos; lra); lra|].
    assert (Ek : w * bk = 1 - ((1 - w) * sg + w * bs')) by lra. destruct k as [k1 k2], s as [s1 s2], s' as [t1 t2]. unv. f_equal.
    - transitivity ((w * bk) * k1 + ((1 - w) * (1 - sg) + w * bs) * s1 + ((1 - w) * sg + w * bs') * t1); [ring|]. rewrite E, Ek. ring.
    - transitivity ((w * bk) * k2 + ((1 - w) * (1 - sg) + w * bs) * s2 + ((1 - w) * sg + w * bs') * t2); [ring|]. rewrite E, Ek. ring. }
  assert (Pt' : forall w, (1 - w) * sg + w * bs' = 0 -> 0 <= w <= 1 -> 0 <= (1 - w) * (1 - sg) + w * bs ->
     exists q, on_seg (vadd (smul (1 - sg) s) (smul sg s')) (vadd (smul bk k) (vadd (smul bs s) (smul bs' s'))) q /\ (on_seg k s q \/ on_seg k s' q)).
  { intros w E W P. eexists. split; [exists w; split; [exact W|reflexivity]|]. left. exists ((1 - w) * (1 - sg) + w * bs).
    assert (T : w * bk + ((1 - w) * (1 - sg) + w * bs) + ((1 - w) * sg + w * bs') = 1) by (replace bk with (1 - bs - bs') by lra; ring).
    rewrite E in T. split; [split; [exact P|]; assert (0 <= w * bk) by (apply Rmult_le_pos; lra); lra|].
    assert (Ek : w * bk = 1 - ((1 - w) * (1 - sg) + w * bs)) by lra. destruct k as [k1 k2], s as [s1 s2], s' as [t1 t2]. unv. f_equal.
    - transitivity ((w * bk) * k1 + ((1 - w) * (1 - sg) + w * bs) * s1 + ((1 - w) * sg + w * bs') * t1); [ring|]. rewrite E, Ek. ring.
    - transitivity ((w * bk) * k2 + ((1 - w) * (1 - sg) + w * bs) * s2 + ((1 - w) * sg + w * bs') * t2); [ring|]. rewrite E, Ek. ring. }
  destruct (Rlt_dec bs 0) as [B|B]; destruct (Rlt_dec bs' 0) as [B'|B']; [| | |lra].
  - destruct (Rle_dec ((1 - sg) * (sg - bs')) (sg * (1 - sg - bs))) as [C|C].
    + destruct (K sg bs bs' Sg Sm B ltac:(lra)) as (w & W & E & P). apply (Pt w E W P).
    + destruct (K (1 - sg) bs' bs ltac:(lra) ltac:(lra) B' ltac:(intros; lra)) as (w & W & E & P). apply (Pt' w); [lra|exact W|lra].
  - destruct (K sg bs bs' Sg Sm B ltac:(lra)) as (w & W & E & P). apply (Pt w E W P).
  - destruct (K (1 - sg) bs' bs ltac:(lra) ltac:(lra) B' ltac:(intros; lra)) as (w & W & E & P). apply (Pt' w); [lra|exact W|lra].
Qed.

Lemma barycentric k s s' t : area2 k s s' <> 0 -> exists bk bs bs', bk + bs + bs' = 1 /\ t = vadd (smul bk k) (vadd (smul bs s) (smul bs' s')) /\ bk = area2 t s s' / area2 k s s'.
Proof.
  intros D. exists (area2 t s s' / area2 k s s'), (area2 k t s' / area2 k s s'), (area2 k s t / area2 k s s').
  destruct k as [k1 k2], s as [s1 s2], s' as [t1 t2], t as [x y]. unv. split; [field; exact D|]. split; [|reflexivity]. f_equal; field; exact D.
Qed.
Lemma parallel_multiple u v : cross u v = 0 -> 0 < norm2 u -> v = smul (dot u v / norm2 u) u.
Proof.
  destruct u as [u1 u2], v as [v1 v2]. unv. intros C N.
  assert (E1 : u2 * (u1 * v2 - u2 * v1) = 0) by (rewrite C; ring). assert (E2 : u1 * (u1 * v2 - u2 * v1) = 0) by (rewrite C; ring).
  f_equal; apply Rmult_eq_reg_r with (u1 * u1 + u2 * u2); try lra.
  - replace ((u1 * v1 + u2 * v2) / (u1 * u1 + u2 * u2) * u1 * (u1 * u1 + u2 * u2)) with ((u1 * v1 + u2 * v2) * u1) by (field; lra). lra.
  - replace ((u1 * v1 + u2 * v2) / (u1 * u1 + u2 * u2) * u2 * (u1 * u1 + u2 * u2)) with ((u1 * v1 + u2 * v2) * u2) by (field; lra). lra.
Qed.
Lemma on_seg_collinear k s s' p : area2 k s s' = 0 -> on_seg s s' p -> on_seg k s p \/ on_seg k s' p.
Proof.
  intros D (t & T & ->).
  assert (Kp : forall s s' t, 0 <= t <= 1 -> area2 k s s' = 0 -> dot (vsub s k) (vsub s' k) <= 0 -> norm2 (vsub s k) <> 0 -> on_seg k s (along s s' t) \/ on_seg k s' (along s s' t)).
  { clear. intros s s' t T D Ng N0.
    set (u := vsub s k) in *. set (v := vsub s' k) in *.
    assert (Cr : cross u v = 0) by (unfold area2 in D; exact D).
    assert (N : 0 < norm2 u). { unfold norm2, dot in *. nra. }
    set (lam := dot u v / norm2 u).
    assert (Ev : v = smul lam u).
    { apply parallel_multiple; assumption. }
    assert (Lm : lam <= 0). { unfold lam. apply Rmult_le_reg_r with (norm2 u); [exact N|]. unfold Rdiv. rewrite Rmult_assoc, Rinv_l by lra. lra. }
    assert (Es : s = vadd k u) by (unfold u; destruct s, k; unv; f_equal; ring).
    assert (Es' : s' = vadd k (smul lam u)) by (rewrite <- Ev; unfold v; destruct s', k; unv; f_equal; ring).
    clearbody u v lam. subst s s'. set (z := 1 - t + t * lam). destruct (Rle_dec 0 z).
    - left. exists z. split; [unfold z; split; [assumption|nra]|]. unfold z. destruct k, u. unv. f_equal; ring.
    - right. assert (L0 : lam < 0) by (unfold z in *; nra). exists (z / lam). split.
      + split; [assert (0 <= (- z) * / (- lam)) by (apply Rmult_le_pos; [lra|left; apply Rinv_0_lt_compat; lra]); replace (z / lam) with (- z * / - lam) by (field; lra); assumption|].
        apply Rmult_le_reg_r with (- lam); [lra|]. replace (z / lam * - lam) with (- z) by (field; lra). unfold z. nra.
      + unfold z. destruct k, u. unv. f_equal; field; lra. }
  assert (Kd : norm2 (vsub s k) = 0 -> s = k). { intros E. destruct s, k. unfold norm2, dot, vsub in E. cbn in E. assert (r - r1 = 0) by (apply Rsqr_0_uniq; unfold Rsqr; pose proof (Rle_0_sqr (r - r1)); pose proof (Rle_0_sqr (r0 - r2)); unfold Rsqr in *; lra). assert (r0 - r2 = 0) by (apply Rsqr_0_uniq; unfold Rsqr; pose proof (Rle_0_sqr (r - r1)); pose proof (Rle_0_sqr (r0 - r2)); unfold Rsqr in *; lra). f_equal; lra. }
  destruct (Req_dec (norm2 (vsub s k)) 0) as [Z|Z].
  - rewrite (Kd Z). right. exists t. auto.
  - destruct (Rle_dec (dot (vsub s k) (vsub s' k)) 0) as [Ng|Ps]; [apply Kp; assumption|].
    (* both on the same side of k: the point is between k and the farther one *)
    set (u := vsub s k) in *. set (v := vsub s' k) in *.
    assert (Cr : cross u v = 0) by (unfold area2 in D; exact D).
    assert (N : 0 < norm2 u) by (unfold norm2, dot in *; nra).
    set (lam := dot u v / norm2 u).
    assert (Ev : v = smul lam u).
    { apply parallel_multiple; assumption. }
    assert (Lm : 0 < lam) by (unfold lam; apply Rmult_lt_0_compat; [lra|apply Rinv_0_lt_compat, N]).
    assert (Es : s = vadd k u) by (unfold u; destruct s, k; unv; f_equal; ring).
    assert (Es' : s' = vadd k (smul lam u)) by (rewrite <- Ev; unfold v; destruct s', k; unv; f_equal; ring).
    clearbody u v lam. subst s s'. set (z := 1 - t + t * lam). assert (0 <= z) by (unfold z; nra). destruct (Rle_dec z 1).
    + left. exists z. split; [lra|]. unfold z. destruct k, u. unv. f_equal; ring.
    + right. assert (1 < lam) by (unfold z in *; nra). exists (z / lam). split.
      * split; [apply Rmult_le_pos; [lra|left; apply Rinv_0_lt_compat; lra]|]. apply Rmult_le_reg_r with lam; [lra|]. replace (z / lam * lam) with z by (field; lra). unfold z. nra.
      * unfold z. destruct k, u. unv. f_equal; field; lra.
Qed.

Lemma hull_mem (A : region) p : A p -> hull_region A p.
Proof. intros H. exists [p]. split; [intros q [<-|[]]; exact H|]. apply in_hull_mem. left. reflexivity. Qed.
Lemma hull_region_convex A : convex (hull_region A).
Proof.
  intros p q r (ps & P & Hp) (qs & Q & Hq) Hr. exists (ps ++ qs). split; [intros z Hz; apply in_app_iff in Hz as [Hz|Hz]; auto|].
  apply (in_hull_convex (ps ++ qs) p q r); [| |exact Hr]; [apply (in_hull_sub _ ps)|apply (in_hull_sub _ qs)]; auto; intros z Hz; apply in_app_iff; auto.
Qed.

Lemma seg_sym a b p : on_seg a b p -> on_seg b a p.
Proof. intros (t & T & ->). exists (1 - t). split; [lra|]. destruct a, b. unv. f_equal; ring. Qed.

Theorem hulls_disjoint (A B : region) k l : starshaped_from A k -> starshaped_from B l ->
  disjoint (hull_region A) B -> disjoint A (hull_region B) -> disjoint (hull_region A) (hull_region B).
Proof.
  intros SA SB D1 D2 p [HA HB].
  destruct (hull_star A k p SA HA) as (s & s' & As & As' & Ls & Ls' & Sp).
  destruct (hull_star B l p SB HB) as (t & t' & Bt & Bt' & _ & _ & Tp).
  destruct (Req_dec (area2 k s s') 0) as [Z|Z].
  { destruct (on_seg_collinear k s s' p Z Sp) as [H|H]; apply (D2 p); split; auto. }
  (* one end of the segment through p is on the side of k *)
  assert (W : exists t0, B t0 /\ on_seg p t0 t0 /\ (forall q, on_seg p t0 q -> hull_region B q) /\ 0 <= area2 t0 s s' / area2 k s s').
  { assert (Ap : area2 p s s' = 0) by (destruct Sp as (w & _ & ->); destruct s, s'; unv; ring).
    destruct Tp as (w & W & E).
    assert (Lin : (1 - w) * (area2 t s s' / area2 k s s') + w * (area2 t' s s' / area2 k s s') = 0).
    { replace ((1 - w) * (area2 t s s' / area2 k s s') + w * (area2 t' s s' / area2 k s s')) with (area2 p s s' / area2 k s s'); [rewrite Ap; field; exact Z|].
      rewrite E. destruct t, t', s, s', k. unv. field. exact Z. }
    assert (Hq : forall t0 q, B t0 -> on_seg p t0 q -> hull_region B q).
    { intros t0 q B0 Hq. apply (hull_region_convex B p t0 q); [exact HB|apply hull_mem, B0|exact Hq]. }
    assert (En : forall a b : R * R, on_seg a b b) by (intros a b; exists 1; split; [lra|]; destruct a, b; unv; f_equal; ring).
    destruct (Rle_dec 0 (area2 t s s' / area2 k s s')); [exists t; repeat split; [exact Bt|apply En|intros q; apply (Hq t q), Bt|assumption]|]. exists t'. split; [exact Bt'|]. split; [apply En|]. split; [intros q; apply (Hq t' q), Bt'|].
    destruct (Rle_dec 0 (area2 t' s s' / area2 k s s')); [assumption|]. exfalso.
    set (x := area2 t s s' / area2 k s s') in *. set (y := area2 t' s s' / area2 k s s') in *. destruct (Req_dec w 0); [subst w; lra|]. nra. }
  destruct W as (t0 & B0 & _ & Hq & Bk). destruct (barycentric k s s' t0 Z) as (bk & bs & bs' & Sm & E & Ek). rewrite <- Ek in Bk.
  destruct Sp as (sg & Sg & Ep).
  assert (Ep' : p = vadd (smul (1 - sg) s) (smul sg s')) by (rewrite Ep; destruct s, s'; unv; f_equal; ring).
  destruct (Rlt_dec bs 0) as [N|N]; [|destruct (Rlt_dec bs' 0) as [N'|N']].
  3: { (* t0 in the triangle *) apply (D1 t0). split; [|exact B0]. rewrite E.
       assert (Hk : hull_region A k). { apply hull_mem, Ls. exists 0. split; [lra|]. destruct k, s. unv. f_equal; ring. }
       assert (C := convex_triangle (hull_region A) k s s' bk bs bs' (hull_region_convex A) Hk (hull_mem _ _ As) (hull_mem _ _ As')).
       replace (vadd (smul bk k) (vadd (smul bs s) (smul bs' s'))) with (vadd (smul bk k) (vadd (smul bs s) (smul bs' s'))) by reflexivity.
       apply C; lra. }
  all: destruct (leave_triangle k s s' p t0 bk bs bs' sg Sg Ep' Bk Sm ltac:(auto) E) as (q & Q1 & Q2); apply (D2 q); split; [destruct Q2; auto|apply Hq, Q1].
Qed.
Print Assumptions hulls_disjoint.
