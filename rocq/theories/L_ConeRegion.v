(** The region of the vertex list of Cone.polygon. *)
From Coq Require Import Reals Lra Psatz List Bool Arith Lia.
From Verif Require Import Num Spec S_ConeRegion M_Cg M_ConePolygon L_Geom L_Polar L_Atan2 L_Cg L_Cone L_Ellipse L_Hull L_ConePolygon.
Import ListNotations.
Open Scope R_scope.

(** *** chains of directions *)
Definition between (u w v : Pt) : Prop := exists al be, 0 <= al /\ 0 <= be /\ v = vadd (smul al u) (smul be w).
Fixpoint chain_ok (e0 e : Pt) (l : list Pt) : Prop :=
  match l with
  | [] => True
  | e' :: r => (e' = e \/ (0 < cross e e' /\ ~ (0 < cross e e0 /\ 0 <= cross e0 e'))) /\ chain_ok e0 e' r
  end.
Definition last_of (e : Pt) (l : list Pt) : Pt := last l e.
Lemma last_cons (e e' : Pt) r : last_of e (e' :: r) = last_of e' r.
Proof. unfold last_of. revert e e'. induction r as [|a r IH]; intros e e'; [reflexivity|]. cbn [last] in *. destruct r; [reflexivity|]. apply (IH e e'). Qed.

Lemma between_sector t s s' z r r' rv : 0 < r -> 0 < r' -> 0 < rv -> 0 <= s -> s' < 2 * PI -> 0 <= z < 2 * PI -> 0 < s' - s < PI ->
  (between (polar r (t + s)) (polar r' (t + s')) (polar rv (t + z)) <-> s <= z <= s').
Proof.
  intros Hr Hr' Hv Hs Hs' Hz D. pose proof PI_RGT_0.
  assert (C : cross (polar r (t + s)) (polar r' (t + s')) = r * r' * sin (s' - s)) by (rewrite cross_polar; do 2 f_equal; ring).
  assert (C1 : cross (polar r (t + s)) (polar rv (t + z)) = r * rv * sin (z - s)) by (rewrite cross_polar; do 2 f_equal; ring).
  assert (C2 : cross (polar rv (t + z)) (polar r' (t + s')) = rv * r' * sin (s' - z)) by (rewrite cross_polar; do 2 f_equal; ring).
  assert (P : 0 < r * r' * sin (s' - s)) by (apply mulpos; auto; apply sin_gt_0; lra). rewrite <- C in P.
  set (u := polar r (t + s)) in *. set (w := polar r' (t + s')) in *. set (v := polar rv (t + z)) in *. split.
  - intros (al & be & A & B & E).
    assert (X1 : cross u v = be * cross u w) by (rewrite E; destruct u, w; unv; ring).
    assert (X2 : cross v w = al * cross u w) by (rewrite E; destruct u, w; unv; ring).
    assert (S1 : 0 <= sin (z - s)). { apply Rnot_lt_le. intros N. apply (mulneg r rv) in N; auto. rewrite <- C1, X1 in N. nra. }
    assert (S2 : 0 <= sin (s' - z)). { apply Rnot_lt_le. intros N. apply (mulneg rv r') in N; auto. rewrite <- C2, X2 in N. nra. }
    split.
    + apply Rnot_lt_le. intros N. assert (PI <= s - z).
      { apply Rnot_lt_le. intros Q. assert (0 < sin (s - z)) by (apply sin_gt_0; lra). replace (z - s) with (- (s - z)) in S1 by ring. rewrite sin_neg in S1. lra. }
      assert (sin (s' - z) < 0) by (apply sin_lt_0; lra). lra.
    + apply Rnot_lt_le. intros N. assert (z - s <= PI). { apply Rnot_lt_le. intros Q. assert (sin (z - s) < 0) by (apply sin_lt_0; lra). lra. }
      assert (0 < sin (z - s')) by (apply sin_gt_0; lra). replace (s' - z) with (- (z - s')) in S2 by ring. rewrite sin_neg in S2. lra.
  - intros Z. exists (cross v w / cross u w), (cross u v / cross u w).
    assert (S1 : 0 <= cross u v) by (rewrite C1; apply Rmult_le_pos; [nra|apply sin_ge_0; lra]).
    assert (S2 : 0 <= cross v w) by (rewrite C2; apply Rmult_le_pos; [nra|apply sin_ge_0; lra]).
    split; [apply divpos; auto|]. split; [apply divpos; auto|]. clearbody u v w. clear - P. destruct u as [u1 u2], v as [v1 v2], w as [w1 w2]. unv. apply pair_eq; field; lra.
Qed.
Lemma between_same t s z r rv : 0 < r -> 0 < rv -> 0 <= s < 2 * PI -> 0 <= z < 2 * PI ->
  (between (polar r (t + s)) (polar r (t + s)) (polar rv (t + z)) <-> z = s).
Proof.
  intros Hr Hv Hs Hz. split.
  - intros (al & be & A & B & E). assert (E' : polar rv (t + z) = polar ((al + be) * r) (t + s)) by (rewrite E; unfold polar; unv; f_equal; ring).
    assert (Q : 0 < (al + be) * r).
    { destruct (Rlt_dec 0 ((al + be) * r)) as [|N]; [assumption|exfalso]. assert (Z0 : (al + be) * r = 0) by nra. rewrite Z0 in E'.
      apply (polar_nonzero rv (t + z) Hv). rewrite E'. unfold polar. f_equal; ring. }
    apply polar_eq_angle in E'; auto; lra.
  - intros ->. exists (rv / r), 0. split; [apply divpos; lra|]. split; [lra|]. unfold polar. unv. apply pair_eq; field; lra.
Qed.

Lemma chain_next t r0 e0 e e' r s : 0 < r0 -> e0 = polar r0 t -> 0 < r -> e = polar r (t + s) -> 0 <= s < 2 * PI ->
  (e' = e \/ (0 < cross e e' /\ ~ (0 < cross e e0 /\ 0 <= cross e0 e'))) ->
  exists r' s', 0 < r' /\ e' = polar r' (t + s') /\ s <= s' < 2 * PI /\ s' < s + PI /\
    forall rv z, 0 < rv -> 0 <= z < 2 * PI -> (between e e' (polar rv (t + z)) <-> s <= z <= s').
Proof.
  intros R0 E0 Hr Ee Hs St. pose proof PI_RGT_0. destruct St as [->|[Cp Np]].
  - exists r, s. split; [exact Hr|]. split; [exact Ee|]. split; [lra|]. split; [lra|]. intros rv z Hv Hz. rewrite Ee, between_same by auto. lra.
  - assert (Nz : e' <> (0, 0)) by (intros ->; rewrite Ee in Cp; unfold polar in Cp; unv; cbn in Cp; lra).
    destruct (polar_from (t + s) e' Nz) as (th & Ht & E'). pose proof (norm_pos _ Nz) as Np'.
    set (r' := norm e') in *. set (dl := th - (t + s)). assert (Eth : th = t + (s + dl)) by (unfold dl; ring). rewrite Eth in E'.
    assert (Dl : 0 < dl < PI).
    { rewrite Ee, E', cross_polar in Cp. replace (t + (s + dl) - (t + s)) with dl in Cp by ring. apply (proj1 (mulpos _ _ _ Hr Np')) in Cp. apply sin_sign_pos in Cp; unfold dl in *; lra. }
    assert (L2 : s + dl < 2 * PI).
    { apply Rnot_le_lt. intros N. apply Np. rewrite Ee, E', E0, !cross_polar.
      replace (t - (t + s)) with (- s) by ring. replace (t + (s + dl) - t) with (s + dl - 2 * PI + 2 * PI) by ring.
      assert (A1 : sin (- s) = sin (2 * PI - s)). { replace (2 * PI - s) with (- s + 2 * PI) by ring. rewrite (sin_plus (- s)), cos_2PI, sin_2PI. ring. }
      assert (A2 : sin (s + dl - 2 * PI + 2 * PI) = sin (s + dl - 2 * PI)) by (rewrite (sin_plus (s + dl - 2 * PI)), cos_2PI, sin_2PI; ring).
      rewrite A1, A2. split; [apply mulpos; auto; apply sin_gt_0; lra|]. apply Rmult_le_pos; [nra|apply sin_ge_0; lra]. }
    exists r', (s + dl). split; [exact Np'|]. split; [exact E'|]. split; [lra|]. split; [lra|]. intros rv z Hv Hz. rewrite Ee, E'. apply between_sector; auto; lra.
Qed.
Lemma chain_turning a t r0 e0 : 0 < r0 -> e0 = polar r0 t -> forall l e r s, 0 < r -> e = polar r (t + s) -> 0 <= s < 2 * PI ->
  chain_ok e0 e (map (fun v => vsub v a) l) -> turning a t s l.
Proof.
  intros R0 E0. induction l as [|v l IH]; intros e r s Hr Ee Hs Ch; [exact I|]. cbn [map chain_ok] in Ch. destruct Ch as [St Ch].
  destruct (chain_next t r0 e0 e _ r s R0 E0 Hr Ee Hs St) as (r' & s' & Hr' & E' & Hs' & Sp & _). exists s', r'. split; [exact Hr'|]. split; [exact E'|]. split; [lra|]. split; [lra|].
  apply (IH _ r' s' Hr' E' ltac:(lra) Ch).
Qed.
Lemma chain_angles t r0 e0 : 0 < r0 -> e0 = polar r0 t -> forall l e r s, 0 < r -> e = polar r (t + s) -> 0 <= s < 2 * PI -> chain_ok e0 e l ->
  exists sm rm, s <= sm < 2 * PI /\ 0 < rm /\ last_of e l = polar rm (t + sm) /\
    forall rv z, 0 < rv -> 0 <= z < 2 * PI -> (exists u w, consecutive u w (e :: l) /\ between u w (polar rv (t + z))) <-> l <> [] /\ s <= z <= sm.
Proof.
  intros R0 E0. pose proof PI_RGT_0. induction l as [|e' l IH]; intros e r s Hr Ee Hs Ch.
  - exists s, r. split; [lra|]. split; [exact Hr|]. split; [exact Ee|]. intros rv z _ _. split; [|tauto].
    intros (u & w & (l1 & l2 & E) & _). exfalso. apply (f_equal (@length Pt)) in E. rewrite app_length in E. cbn in E. lia.
  - cbn [chain_ok] in Ch. destruct Ch as [St Ch].
    destruct (chain_next t r0 e0 e e' r s R0 E0 Hr Ee Hs St) as (r' & s' & Hr' & E' & Hs' & _ & Bt). destruct (IH e' r' s' Hr' E' ltac:(lra) Ch) as (sm & rm & Hsm & Hrm & El & Un).
    exists sm, rm. split; [lra|]. split; [exact Hrm|]. split; [rewrite last_cons; exact El|]. intros rv z Hv Hz.
    assert (Sp : (exists u w, consecutive u w (e :: e' :: l) /\ between u w (polar rv (t + z))) <->
                 between e e' (polar rv (t + z)) \/ exists u w, consecutive u w (e' :: l) /\ between u w (polar rv (t + z))).
    { split.
      - intros (u & w & ([|b l1] & l2 & E) & B); cbn in E; [injection E as <- <- _; left; exact B|]. injection E as _ E. right. exists u, w. split; [exists l1, l2; exact E|exact B].
      - intros [B|(u & w & (l1 & l2 & E) & B)]; [exists e, e'; split; [exists [], l; reflexivity|exact B]|]. exists u, w. split; [exists (e :: l1), l2; cbn; f_equal; exact E|exact B]. }
    rewrite Sp, (Bt rv z Hv Hz), (Un rv z Hv Hz). split.
    + intros [Q|[_ Q]]; (split; [discriminate|lra]).
    + intros [_ Q]. destruct (Rle_dec z s'); [left; lra|]. right. split; [|lra]. intros ->. unfold last_of in El. cbn in El. rewrite E' in El. apply polar_eq_angle in El; auto; lra.
Qed.

(** *** sides of the box *)
Definition nrm (k : nat) (p : Pt) : R := match (k mod 4)%nat with 0%nat => - snd p | 1%nat => fst p | 2%nat => snd p | _ => - fst p end.
Lemma box_nrm p : in_box p <-> forall k, nrm k p <= 1000000.
Proof.
  unfold in_box, max_coord. destruct p as [x y]. cbn [fst snd]. split.
  - intros H k. pose proof (Rmax_l (Rabs x) (Rabs y)). pose proof (Rmax_r (Rabs x) (Rabs y)). pose proof (Rle_abs x). pose proof (Rle_abs y). pose proof (Rle_abs (- x)) as A. pose proof (Rle_abs (- y)) as B. rewrite Rabs_Ropp in A, B.
    unfold nrm. cbn [fst snd]. destruct (k mod 4)%nat as [|[|[|]]]; lra.
  - intros H. pose proof (H 0%nat). pose proof (H 1%nat). pose proof (H 2%nat). pose proof (H 3%nat). unfold nrm in *. cbn in *. apply Rmax_lub; apply Rabs_le; lra.
Qed.
Lemma nrm_lin k a b t : nrm k (along a b t) = (1 - t) * nrm k a + t * nrm k b.
Proof. unfold nrm. destruct a, b. unv. destruct (k mod 4)%nat as [|[|[|]]]; ring. Qed.
Lemma nrm_comb k a u w al be : nrm k (vadd a (vadd (smul al (vsub u a)) (smul be (vsub w a)))) = (1 - al - be) * nrm k a + al * nrm k u + be * nrm k w.
Proof. unfold nrm. destruct a, u, w. unv. destruct (k mod 4)%nat as [|[|[|]]]; ring. Qed.
Lemma nrm_convex k : convex (fun p => nrm k p <= 1000000).
Proof. intros a b r A B (t & Ht & ->). rewrite nrm_lin. nra. Qed.
Lemma hull3 a u w p : in_hull [a; u; w] p <-> exists al be, 0 <= al /\ 0 <= be /\ al + be <= 1 /\ p = vadd a (vadd (smul al (vsub u a)) (smul be (vsub w a))).
Proof.
  split.
  - intros (ws & L & Pw & Sw & Ew). destruct ws as [|x [|y [|z [|]]]]; try discriminate. inversion Pw as [|? ? X Pw1]; subst. inversion Pw1 as [|? ? Y Pw2]; subst. inversion Pw2 as [|? ? Z _]; subst.
    cbn in Sw. exists y, z. split; [exact Y|]. split; [exact Z|]. split; [lra|]. destruct a as [a1 a2], u as [u1 u2], w as [w1 w2]. cbn. unv. assert (x = 1 - y - z) by lra. subst x. apply pair_eq; ring.
  - intros (al & be & A & B & C & ->). exists [1 - al - be; al; be]. split; [reflexivity|]. split; [constructor; [lra|constructor; [lra|constructor; [lra|constructor]]]|]. split; [cbn; lra|]. destruct a, u, w. cbn. unv. apply pair_eq; ring.
Qed.
(* a triangle from an inner point over a piece of side k *)
Lemma side_triangle k a u w p : (forall j, nrm j a < 1000000) -> in_box u -> in_box w -> nrm k u = 1000000 -> nrm k w = 1000000 ->
  (in_hull [a; u; w] p <-> in_box p /\ between (vsub u a) (vsub w a) (vsub p a)).
Proof.
  intros Ha Bu Bw Su Sw. rewrite hull3. split.
  - intros (al & be & A & B & C & ->). split.
    + rewrite box_nrm in *. intros j. rewrite nrm_comb. specialize (Ha j). specialize (Bu j). specialize (Bw j). nra.
    + exists al, be. split; [exact A|]. split; [exact B|]. destruct a, u, w. unv. apply pair_eq; ring.
  - intros [Bp (al & be & A & B & E)]. exists al, be. split; [exact A|]. split; [exact B|].
    assert (Ep : p = vadd a (vadd (smul al (vsub u a)) (smul be (vsub w a)))) by (rewrite <- E; destruct a, p; unv; apply pair_eq; ring).
    split; [|exact Ep]. rewrite box_nrm in Bp. specialize (Bp k). rewrite Ep, nrm_comb, Su, Sw in Bp. specialize (Ha k). nra.
Qed.
(* the frame in which side k is the bottom *)
Definition turn (k : nat) (p : Pt) : Pt := (nrm (k + 1) p, - nrm k p).
Lemma mod4 k : (k mod 4 = 0 \/ k mod 4 = 1 \/ k mod 4 = 2 \/ k mod 4 = 3)%nat.
Proof. pose proof (Nat.mod_upper_bound k 4). lia. Qed.
Lemma mod4_add k j : ((k + j) mod 4 = (k mod 4 + j) mod 4)%nat.
Proof. rewrite Nat.add_mod_idemp_l; [reflexivity|lia]. Qed.
Lemma turn_form k p : turn k p = match (k mod 4)%nat with 0%nat => p | 1%nat => (snd p, - fst p) | 2%nat => (- fst p, - snd p) | _ => (- snd p, fst p) end.
Proof. unfold turn, nrm. rewrite (mod4_add k 1). destruct p as [x y]. destruct (mod4 k) as [E|[E|[E|E]]]; rewrite E; cbn; f_equal; ring. Qed.
Lemma turn_cross k u w : cross (turn k u) (turn k w) = cross u w.
Proof. rewrite !turn_form. destruct u, w. destruct (mod4 k) as [E|[E|[E|E]]]; rewrite E; unv; ring. Qed.
Lemma turn_sub k u w : turn k (vsub u w) = vsub (turn k u) (turn k w).
Proof. rewrite !turn_form. destruct u, w. destruct (mod4 k) as [E|[E|[E|E]]]; rewrite E; unv; cbn [fst snd]; f_equal; ring. Qed.
Lemma turn_inj k u w : turn k u = turn k w -> u = w.
Proof. rewrite !turn_form. destruct u as [a b], w as [c d]. destruct (mod4 k) as [E|[E|[E|E]]]; rewrite E; cbn [fst snd]; intros Q; injection Q as Q1 Q2; f_equal; lra. Qed.
Lemma turn_corner k j : turn k (box_corner (k + j)) = box_corner j.
Proof. rewrite turn_form. unfold box_corner. rewrite (mod4_add k j), <- (Nat.add_mod_idemp_r (k mod 4) j 4) by lia.
  destruct (mod4 k) as [E|[E|[E|E]]], (mod4 j) as [F|[F|[F|F]]]; rewrite E, F; cbn; f_equal; lra. Qed.
Lemma turn_box k p : in_box p -> in_box (turn k p).
Proof. rewrite turn_form. unfold in_box, max_coord. destruct p as [x y]. destruct (mod4 k) as [E|[E|[E|E]]]; rewrite E; cbn [fst snd]; rewrite ?Rabs_Ropp; auto; rewrite Rmax_comm; auto. Qed.
Lemma nrm_turn k j p : nrm j (turn k p) = nrm (k + j) p.
Proof. rewrite turn_form. unfold nrm. rewrite (mod4_add k j), <- (Nat.add_mod_idemp_r (k mod 4) j 4) by lia.
  destruct p as [x y]. destruct (mod4 k) as [E|[E|[E|E]]], (mod4 j) as [F|[F|[F|F]]]; rewrite E, F; cbn; ring. Qed.
Lemma chain_turn k a : forall l e0 e, chain_ok (vsub (turn k e0) (turn k a)) (vsub (turn k e) (turn k a)) (map (fun v => vsub (turn k v) (turn k a)) l) ->
  chain_ok (vsub e0 a) (vsub e a) (map (fun v => vsub v a) l).
Proof.
  induction l as [|e' l IH]; intros e0 e; [auto|]. cbn [map chain_ok]. intros [St Ch]. split; [|apply IH, Ch]. rewrite <- !turn_sub in St. rewrite !turn_cross in St.
  destruct St as [St|St]; [left; apply turn_inj in St; exact St|right; exact St].
Qed.

(** the corners between two border points, seen from an inner point *)
Definition corners_from (i n : nat) : list Pt := map (fun k => box_corner (i + k)) (seq 0 n).
Ltac nz := match goal with |- _ <> _ => intros ?; lra end.
Lemma chain_bottom (ax ay s : R) n q2 : -1000000 < ax < 1000000 -> -1000000 < ay < 1000000 -> -1000000 <= s <= 1000000 -> in_box q2 -> nrm n q2 = 1000000 -> (n <= 4)%nat ->
  let a := (ax, ay) in let q1 := (s, -1000000) in cross (vsub q1 a) (vsub q2 a) <> 0 ->
  (n = 0%nat -> 0 < cross (vsub q1 a) (vsub q2 a)) -> (n = 4%nat -> cross (vsub q1 a) (vsub q2 a) < 0) ->
  chain_ok (vsub q1 a) (vsub q1 a) (map (fun v => vsub v a) (corners_from 0 n ++ [q2])).
Proof.
  intros Hx Hy Hs Bq Sq Ln a q1 Nc C0 C4. subst a q1. rewrite box_nrm in Bq.
  pose proof (Bq 0%nat) as B0. pose proof (Bq 1%nat) as B1. pose proof (Bq 2%nat) as B2. pose proof (Bq 3%nat) as B3. clear Bq. destruct q2 as [x y]. unfold nrm in B0, B1, B2, B3. cbn in B0, B1, B2, B3.
  assert (P : forall u v : R, 0 < u -> 0 < v -> 0 < u * v) by (intros; apply Rmult_lt_0_compat; auto).
  assert (FIRST : chain_ok (vsub (s, -1000000) (ax, ay)) (vsub (s, -1000000) (ax, ay)) [vsub (1000000, -1000000) (ax, ay)]).
  { cbn [chain_ok]. split; [|exact I]. destruct (Req_dec s 1000000) as [->|N]; [left; reflexivity|right]. split; [pose proof (P (1000000 - s) (1000000 + ay) ltac:(lra) ltac:(lra)); unv; lra|]. unv. lra. }
  cbn [chain_ok] in FIRST. destruct FIRST as [FIRST _].
  assert (RIGHT : forall y', -1000000 <= y' <= 1000000 -> vsub (1000000, y') (ax, ay) = vsub (1000000, -1000000) (ax, ay) \/
     (0 < cross (vsub (1000000, -1000000) (ax, ay)) (vsub (1000000, y') (ax, ay)) /\
      ~ (0 < cross (vsub (1000000, -1000000) (ax, ay)) (vsub (s, -1000000) (ax, ay)) /\ 0 <= cross (vsub (s, -1000000) (ax, ay)) (vsub (1000000, y') (ax, ay))))).
  { intros y' Hy'. destruct (Req_dec y' (-1000000)) as [->|N]; [left; reflexivity|right]. split; [pose proof (P (1000000 - ax) (y' + 1000000) ltac:(lra) ltac:(lra)); unv; lra|].
    intros [Q _]. unv. cbn [fst snd] in Q. nra. }
  assert (TOP : forall x', -1000000 <= x' <= 1000000 -> vsub (x', 1000000) (ax, ay) = vsub (1000000, 1000000) (ax, ay) \/
     (0 < cross (vsub (1000000, 1000000) (ax, ay)) (vsub (x', 1000000) (ax, ay)) /\
      ~ (0 < cross (vsub (1000000, 1000000) (ax, ay)) (vsub (s, -1000000) (ax, ay)) /\ 0 <= cross (vsub (s, -1000000) (ax, ay)) (vsub (x', 1000000) (ax, ay))))).
  { intros x' Hx'. destruct (Req_dec x' 1000000) as [->|N]; [left; reflexivity|right]. split; [pose proof (P (1000000 - ay) (1000000 - x') ltac:(lra) ltac:(lra)); unv; lra|].
    intros [Q1 Q2]. unv. cbn [fst snd] in Q1, Q2.
    (* slopes: q1 below a, the two points above *)
    assert (L1 : (1000000 - ay) * (s - ax) < (- 1000000 - ay) * (1000000 - ax)) by lra.
    assert (L2 : (- 1000000 - ay) * (x' - ax) <= (s - ax) * (1000000 - ay)) by lra.
    assert ((- 1000000 - ay) * (x' - ax) < (- 1000000 - ay) * (1000000 - ax)) by lra. nra. }
  assert (LEFT : forall y', -1000000 <= y' <= 1000000 -> (y' = -1000000 -> -1000000 < s) -> vsub (-1000000, y') (ax, ay) = vsub (-1000000, 1000000) (ax, ay) \/
     (0 < cross (vsub (-1000000, 1000000) (ax, ay)) (vsub (-1000000, y') (ax, ay)) /\
      ~ (0 < cross (vsub (-1000000, 1000000) (ax, ay)) (vsub (s, -1000000) (ax, ay)) /\ 0 <= cross (vsub (s, -1000000) (ax, ay)) (vsub (-1000000, y') (ax, ay))))).
  { intros y' Hy' Hn. destruct (Req_dec y' 1000000) as [->|N]; [left; reflexivity|right]. split; [pose proof (P (1000000 + ax) (1000000 - y') ltac:(lra) ltac:(lra)); unv; lra|].
    intros [Q1 Q2]. unv. cbn [fst snd] in Q1, Q2.
    destruct (Rle_lt_dec ax s) as [G|G].
    - assert ((s - ax) * (1000000 - ay) >= 0) by nra. assert ((1000000 + ax) * (1000000 + ay) > 0) by nra. destruct (Req_dec y' (-1000000)) as [->|N2].
      + assert ((s - ax) * (-1000000 - ay) <= 0) by nra. nra.
      + nra.
    - assert (E1 : (ax - s) * (ay - y') >= (1000000 + ay) * (1000000 + ax)) by lra. assert (ax - s <= 1000000 + ax) by lra. assert (ay - y' <= 1000000 + ay) by lra.
      destruct (Req_dec y' (-1000000)) as [E|N2]; [specialize (Hn E); nra|]. nra. }
  destruct n as [|[|[|[|[|]]]]]; [| | | | |lia]; cbn [corners_from seq map app Nat.add]; unfold box_corner; cbn [Nat.modulo Nat.divmod fst snd Nat.sub]; cbn [chain_ok]; unfold nrm in Sq; cbn in Sq.
  - assert (y = -1000000) by lra. subst y. split; [right; split; [apply C0; reflexivity|unv; lra]|exact I].
  - subst x. split; [exact FIRST|]. split; [apply RIGHT; lra|exact I].
  - subst y. split; [exact FIRST|]. split; [apply RIGHT; lra|]. split; [apply TOP; lra|exact I].
  - assert (x = -1000000) by lra. subst x. split; [exact FIRST|]. split; [apply RIGHT; lra|]. split; [apply TOP; lra|]. split; [|exact I]. apply LEFT; [lra|].
    intros ->. destruct (Req_dec s (-1000000)) as [->|]; [exfalso; apply Nc; unv; ring|lra].
  - assert (y = -1000000) by lra. subst y. specialize (C4 eq_refl). assert (Lt : x < s) by (unv; cbn [fst snd] in C4; nra).
    split; [exact FIRST|]. split; [apply RIGHT; lra|]. split; [apply TOP; lra|]. split; [apply LEFT; lra|]. split; [|exact I].
    destruct (Req_dec x (-1000000)) as [->|N]; [left; reflexivity|right]. split; [pose proof (P (1000000 + ay) (x + 1000000) ltac:(lra) ltac:(lra)); unv; lra|]. intros [_ Q]. lra.
Qed.
