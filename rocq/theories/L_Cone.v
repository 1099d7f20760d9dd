(** Cones: membership, intersection with common apex. *)
From Coq Require Import Reals Lra Psatz List Bool.
From Verif Require Import Num Spec M_Cg L_Geom L_Polar L_Cg.
Import ListNotations.
Open Scope R_scope.

(** sign of the cross product *)
Definition sgn (u v : Pt) : bool := Rltb 0 (cross u v).
Lemma sgn_true u v : sgn u v = true <-> 0 < cross u v.
Proof. apply Rltb_true. Qed.
Lemma sgn_false u v : sgn u v = false <-> cross u v <= 0.
Proof. apply Rltb_false. Qed.
Lemma cross_anti u v : cross v u = - cross u v.
Proof. destruct u, v; unv; ring. Qed.
Lemma apart_sym u v : apart u v -> apart v u.
Proof. unfold apart. rewrite (cross_anti u v), Rabs_Ropp. auto. Qed.
Lemma apart_cases u v : apart u v -> TH < cross u v \/ cross u v < - TH.
Proof. unfold apart, Rabs. destruct (Rcase_abs (cross u v)); intros; lra. Qed.
Lemma sgn_anti u v : apart u v -> sgn v u = negb (sgn u v).
Proof.
  intros H. apply apart_cases in H. pose proof TH_pos. unfold sgn. rewrite (cross_anti u v).
  destruct (Rltb_spec 0 (cross u v)), (Rltb_spec 0 (- cross u v)); simpl; auto; lra.
Qed.

Lemma area_apex a d x : area2 a (padd a d) x = cross d (vsub x a).
Proof. destruct a, d, x; unfold padd; nR; unv; ring. Qed.
Lemma ccw_sgn a d x : apart d (vsub x a) -> is_ccw a (padd a d) x = sgn d (vsub x a).
Proof.
  intros H. apply apart_cases in H. pose proof TH_pos. apply bool_iff. rewrite is_ccw_iff, sgn_true, area_apex. lra.
Qed.
Lemma cw_sgn a d x : apart d (vsub x a) -> is_cw a (padd a d) x = negb (sgn d (vsub x a)).
Proof.
  intros H. apply apart_cases in H. pose proof TH_pos. apply bool_iff.
  rewrite is_cw_iff, negb_true_iff, sgn_false, area_apex. lra.
Qed.
Lemma ccw0_sgn (d e : Pt) : apart d e -> is_ccw (n0, n0) d e = sgn d e.
Proof.
  intros H. apply apart_cases in H. pose proof TH_pos. apply bool_iff. rewrite is_ccw_iff, sgn_true.
  replace (area2 (n0, n0) d e) with (cross d e); [lra|].
  unfold n0; nR. rewrite Q2R_0. destruct d, e; unv; ring.
Qed.

Definition wf_cone (c : cone R) : Prop := c = Cone (apex c) (dir1 c) (dir2 c).
Lemma Cone_wf a d e : wf_cone (Cone a d e).
Proof. reflexivity. Qed.

(** membership in terms of signs *)
Definition pic (cvx s1 s2 : bool) : bool := if cvx then s1 && negb s2 else negb (s2 && negb s1).
Lemma point_in_cone_sgn (c : cone R) x : wf_cone c ->
  apart (dir1 c) (dir2 c) -> apart (dir1 c) (vsub x (apex c)) -> apart (dir2 c) (vsub x (apex c)) ->
  point_in_cone c x = pic (sgn (dir1 c) (dir2 c)) (sgn (dir1 c) (vsub x (apex c))) (sgn (dir2 c) (vsub x (apex c))).
Proof.
  intros W H0 H1 H2. rewrite W. unfold point_in_cone, Cone; cbn [is_convex apex dir1 dir2].
  rewrite ccw0_sgn, !ccw_sgn, !cw_sgn by auto. reflexivity.
Qed.

(** *** C15: membership is the open counter-clockwise sector *)
Lemma apart_nz_l u v : apart u v -> u <> (0, 0).
Proof.
  intros H ->. apply apart_cases in H. pose proof TH_pos. unv. destruct v; simpl in *; lra.
Qed.
Lemma apart_nz_r u v : apart u v -> v <> (0, 0).
Proof. intros H. apply (apart_nz_l v u), apart_sym, H. Qed.
Lemma mulpos a b c : 0 < a -> 0 < b -> (0 < a * b * c <-> 0 < c).
Proof.
  intros Ha Hb. pose proof (Rmult_lt_0_compat a b Ha Hb). split; intros.
  - apply Rmult_lt_reg_l with (a * b); lra.
  - apply Rmult_lt_0_compat; auto.
Qed.
Lemma mulneg a b c : 0 < a -> 0 < b -> (a * b * c < 0 <-> c < 0).
Proof.
  intros Ha Hb. pose proof (mulpos a b (- c) Ha Hb) as [P Q]. split; intros.
  - assert (0 < - c) by (apply P; lra). lra.
  - assert (0 < a * b * - c) by (apply Q; lra). lra.
Qed.
Lemma sin_pos_iff a : 0 < a < 2 * PI -> (0 < sin a <-> a < PI).
Proof.
  intros H. pose proof PI_RGT_0. split; intros K.
  - apply sin_sign_pos in K; lra.
  - apply sin_gt_0; lra.
Qed.
Lemma sin_neg_iff a : 0 < a < 2 * PI -> (sin a < 0 <-> PI < a).
Proof.
  intros H. pose proof PI_RGT_0. split; intros K.
  - apply Rnot_le_lt. intros L. assert (0 <= sin a) by (apply sin_ge_0; lra). lra.
  - apply sin_lt_0; lra.
Qed.
Lemma sector_sign d1 d2 v t w s r1 r2 r :
  0 < r1 -> 0 < r2 -> 0 < r -> 0 < s < 2 * PI -> 0 < w < 2 * PI ->
  d1 = polar r1 t -> d2 = polar r2 (t + w) -> v = polar r (t + s) ->
  apart d1 d2 -> apart d1 v -> apart d2 v ->
  (pic (sgn d1 d2) (sgn d1 v) (sgn d2 v) = true <-> s < w).
Proof.
  intros R1 R2 R0 Hs Hw -> -> -> A12 A1 A2.
  pose proof TH_pos. pose proof PI_RGT_0 as HPI.
  apply apart_cases in A12. apply apart_cases in A1. apply apart_cases in A2.
  unfold sgn. rewrite !cross_polar in *.
  replace (t + w - t) with w in * by ring. replace (t + s - t) with s in * by ring.
  replace (t + s - (t + w)) with (s - w) in * by ring.
  destruct (Rltb_spec 0 (r1 * r2 * sin w)) as [C|C].
  - apply mulpos in C; auto. apply sin_pos_iff in C; auto. simpl.
    destruct (Rltb_spec 0 (r1 * r * sin s)) as [D|D]; simpl.
    + apply mulpos in D; auto. apply sin_pos_iff in D; auto.
      destruct (Rltb_spec 0 (r2 * r * sin (s - w))) as [E|E]; simpl.
      * apply mulpos in E; auto. apply sin_sign_pos in E; [|lra]. split; intros; [discriminate|lra].
      * split; auto. intros _. assert (E' : r2 * r * sin (s - w) < 0) by lra. apply mulneg in E'; auto.
        apply Rnot_le_lt. intros K. assert (0 <= sin (s - w)) by (apply sin_ge_0; lra). lra.
    + assert (D' : r1 * r * sin s < 0) by lra. apply mulneg in D'; auto. apply sin_neg_iff in D'; auto.
      split; intros; [discriminate|lra].
  - assert (C' : r1 * r2 * sin w < 0) by lra. apply mulneg in C'; auto. apply sin_neg_iff in C'; auto. simpl.
    destruct (Rltb_spec 0 (r1 * r * sin s)) as [D|D]; simpl.
    + apply mulpos in D; auto. apply sin_pos_iff in D; auto. rewrite andb_false_r. simpl.
      split; intros; auto. lra.
    + assert (D' : r1 * r * sin s < 0) by lra. apply mulneg in D'; auto. apply sin_neg_iff in D'; auto.
      destruct (Rltb_spec 0 (r2 * r * sin (s - w))) as [E|E]; simpl.
      * apply mulpos in E; auto. apply sin_sign_pos in E; [|lra]. split; intros; [discriminate|lra].
      * split; auto. intros _. assert (E' : r2 * r * sin (s - w) < 0) by lra. apply mulneg in E'; auto.
        apply Rnot_le_lt. intros K. assert (0 <= sin (s - w)) by (apply sin_ge_0; lra). lra.
Qed.
Lemma polar_apart_window d v r t : 0 < r -> d = polar r t -> apart d v ->
  exists s, 0 < s < 2 * PI /\ v = polar (norm v) (t + s).
Proof.
  intros Hr -> A. destruct (polar_from t v (apart_nz_r _ _ A)) as (u & Hu & E).
  exists (u - t). split; [|rewrite E at 1; f_equal; ring].
  destruct Hu as [[Hu| <-] Hu2]; [lra|].
  exfalso. rewrite E in A. unfold apart in A. rewrite cross_polar in A.
  replace (t - t) with 0 in A by ring. rewrite sin_0, Rmult_0_r, Rabs_R0 in A. pose proof TH_pos. lra.
Qed.
Lemma polar_eq_angle r1 t1 r2 t2 : 0 < r1 -> 0 < r2 -> - 2 * PI < t1 - t2 < 2 * PI ->
  polar r1 t1 = polar r2 t2 -> r1 = r2 /\ t1 = t2.
Proof.
  intros H1 H2 Ht E. assert (Er : r1 = r2).
  { rewrite <- (norm_polar r1 t1), <- (norm_polar r2 t2) by lra. rewrite E. reflexivity. }
  split; auto. subst r2.
  assert (D : dot (polar r1 t1) (polar r1 t2) = r1 * r1).
  { rewrite E. rewrite dot_polar. replace (t2 - t2) with 0 by ring. rewrite cos_0. ring. }
  rewrite dot_polar in D. assert (Hc : cos (t2 - t1) = 1).
  { assert (0 < r1 * r1) by (apply Rmult_lt_0_compat; auto). apply Rmult_eq_reg_l with (r1 * r1); lra. }
  assert (Hs : sin (t2 - t1) = 0).
  { pose proof (sin2_cos2 (t2 - t1)). unfold Rsqr in *. rewrite Hc in *. nra. }
  pose proof PI_RGT_0.
  destruct (Rtotal_order t1 t2) as [L|[->|L]]; auto; exfalso.
  - destruct (Rtotal_order (t2 - t1) PI) as [K|[K|K]].
    + assert (0 < sin (t2 - t1)) by (apply sin_gt_0; lra). lra.
    + rewrite K, cos_PI in Hc. lra.
    + assert (sin (t2 - t1) < 0) by (apply sin_lt_0; lra). lra.
  - replace (t2 - t1) with (- (t1 - t2)) in * by ring. rewrite cos_neg in Hc. rewrite sin_neg in Hs.
    destruct (Rtotal_order (t1 - t2) PI) as [K|[K|K]].
    + assert (0 < sin (t1 - t2)) by (apply sin_gt_0; lra). lra.
    + rewrite K, cos_PI in Hc. lra.
    + assert (sin (t1 - t2) < 0) by (apply sin_lt_0; lra). lra.
Qed.
Lemma point_in_cone_sector a d1 d2 x :
  apart d1 d2 -> apart d1 (vsub x a) -> apart d2 (vsub x a) ->
  (point_in_cone (Cone a d1 d2) x = true <-> in_sector d1 d2 (vsub x a)).
Proof.
  intros A12 A1 A2. rewrite point_in_cone_sgn by (auto using Cone_wf). cbn [apex dir1 dir2 Cone].
  set (v := vsub x a) in *. split.
  - intros H.
    destruct (polar_exists d1 (apart_nz_l _ _ A12)) as (t & _ & E1).
    pose proof (norm_pos _ (apart_nz_l _ _ A12)) as N1.
    pose proof (norm_pos _ (apart_nz_r _ _ A12)) as N2.
    pose proof (norm_pos _ (apart_nz_r _ _ A1)) as Nv.
    destruct (polar_apart_window d1 d2 _ t N1 E1 A12) as (w & Hw & E2).
    destruct (polar_apart_window d1 v _ t N1 E1 A1) as (s & Hs & Ev).
    apply (sector_sign d1 d2 v t w s _ _ _ N1 N2 Nv Hs Hw E1 E2 Ev A12 A1 A2) in H.
    exists (norm d1), (norm d2), (norm v), t, w, s. repeat split; auto; lra.
  - intros (r1 & r2 & r & t & w & s & R1 & R2 & R0 & Hs & Hw & E1 & E2 & Ev).
    apply (sector_sign d1 d2 v t w s r1 r2 r); auto; lra.
Qed.

(** *** C16: intersection, by the consistency of the signs of the cross products *)
(** no sign pattern may violate the identity ab*cd - ac*bd + ad*bc = 0 *)
Definition plu (ab cd ac bd ad bc : bool) : bool :=
  let x := Bool.eqb ab cd in let y := Bool.eqb ac bd in let z := Bool.eqb ad bc in
  negb (x && negb y && z) && negb (negb x && y && negb z).
Lemma plucker a b c d : cross a b * cross c d - cross a c * cross b d + cross a d * cross b c = 0.
Proof. destruct a, b, c, d; unv; ring. Qed.
Lemma eqb_sgn a b c d : apart a b -> apart c d ->
  (Bool.eqb (sgn a b) (sgn c d) = true -> 0 < cross a b * cross c d) /\
  (Bool.eqb (sgn a b) (sgn c d) = false -> cross a b * cross c d < 0).
Proof.
  intros H1 H2. apply apart_cases in H1. apply apart_cases in H2. pose proof TH_pos.
  unfold sgn. destruct (Rltb_spec 0 (cross a b)), (Rltb_spec 0 (cross c d)); simpl; split; intros; try discriminate; nra.
Qed.
Lemma plu_true a b c d : apart a b -> apart c d -> apart a c -> apart b d -> apart a d -> apart b c ->
  plu (sgn a b) (sgn c d) (sgn a c) (sgn b d) (sgn a d) (sgn b c) = true.
Proof.
  intros H1 H2 H3 H4 H5 H6. unfold plu. pose proof (plucker a b c d) as P.
  destruct (eqb_sgn a b c d H1 H2) as [A1 A2].
  destruct (eqb_sgn a c b d H3 H4) as [B1 B2].
  destruct (eqb_sgn a d b c H5 H6) as [C1 C2].
  destruct (Bool.eqb (sgn a b) (sgn c d)), (Bool.eqb (sgn a c) (sgn b d)), (Bool.eqb (sgn a d) (sgn b c));
    simpl; auto; exfalso;
    try specialize (A1 eq_refl); try specialize (A2 eq_refl);
    try specialize (B1 eq_refl); try specialize (B2 eq_refl);
    try specialize (C1 eq_refl); try specialize (C2 eq_refl); lra.
Qed.

(** The boolean content: d1, d2 (self), e1, e2 (other), v (point). *)
Definition inter_b (dd ee d1e1 d1e2 d2e1 d2e2 d1v d2v e1v e2v : bool) : bool :=
  let e1in := pic dd d1e1 d2e1 in
  let e2in := pic dd d1e2 d2e2 in
  let d1in := pic ee (negb d1e1) (negb d1e2) in
  let other := pic ee e1v e2v in
  let self := pic dd d1v d2v in
  let c12 := pic d1e2 d1v e2v in               (* Cone d1 e2 *)
  let c21 := pic (negb d2e1) e1v d2v in         (* Cone e1 d2 *)
  if e1in && e2in then (if d1in then c12 || c21 else other)
  else if e1in then c21
  else if e2in then c12
  else if d1in then self
  else false.
Definition cons_b (dd ee d1e1 d1e2 d2e1 d2e2 d1v d2v e1v e2v : bool) : bool :=
  plu dd ee d1e1 d2e2 d1e2 d2e1 &&          (* d1 d2 e1 e2 *)
  plu dd e1v d1e1 d2v d1v d2e1 &&           (* d1 d2 e1 v *)
  plu dd e2v d1e2 d2v d1v d2e2 &&           (* d1 d2 e2 v *)
  plu d1e1 e2v d1e2 e1v d1v ee &&           (* d1 e1 e2 v *)
  plu d2e1 e2v d2e2 e1v d2v ee.             (* d2 e1 e2 v *)
Definition all2 (f : bool -> bool) : bool := f true && f false.
Definition table : bool :=
  all2 (fun dd => all2 (fun ee => all2 (fun a => all2 (fun b => all2 (fun c =>
  all2 (fun d => all2 (fun e => all2 (fun f => all2 (fun g => all2 (fun h =>
    implb (cons_b dd ee a b c d e f g h)
      (Bool.eqb (inter_b dd ee a b c d e f g h) (pic dd e f && pic ee g h)))))))))))).
Lemma all2_spec f b : all2 f = true -> f b = true.
Proof. unfold all2. intros H. apply andb_prop in H as []. destruct b; auto. Qed.
Lemma table_ok : table = true.
Proof. vm_compute. reflexivity. Qed.
Lemma inter_b_ok dd ee a b c d e f g h :
  cons_b dd ee a b c d e f g h = true ->
  inter_b dd ee a b c d e f g h = pic dd e f && pic ee g h.
Proof.
  intros H. pose proof table_ok as T. unfold table in T.
  apply (all2_spec _ dd) in T. apply (all2_spec _ ee) in T. apply (all2_spec _ a) in T.
  apply (all2_spec _ b) in T. apply (all2_spec _ c) in T. apply (all2_spec _ d) in T.
  apply (all2_spec _ e) in T. apply (all2_spec _ f) in T. apply (all2_spec _ g) in T.
  apply (all2_spec _ h) in T. cbv beta in T. rewrite H in T. simpl in T. apply Bool.eqb_prop in T. exact T.
Qed.

Lemma vsub_padd (a d : Pt) : vsub (padd a d) a = d.
Proof. destruct a, d; unfold padd; nR; unv; f_equal; ring. Qed.

Definition in_any (l : list (cone R)) (x : Pt) : bool := existsb (fun c => point_in_cone c x) l.

Lemma intersection_cones_ok (a d1 d2 e1 e2 x : Pt) :
  apart d1 d2 -> apart e1 e2 -> apart d1 e1 -> apart d1 e2 -> apart d2 e1 -> apart d2 e2 ->
  apart d1 (vsub x a) -> apart d2 (vsub x a) -> apart e1 (vsub x a) -> apart e2 (vsub x a) ->
  in_any (intersection_same_apex (Cone a d1 d2) (Cone a e1 e2)) x
  = point_in_cone (Cone a d1 d2) x && point_in_cone (Cone a e1 e2) x.
Proof.
  intros Hdd Hee H11 H12 H21 H22 V1 V2 V3 V4. set (v := vsub x a) in *.
  assert (P : forall u w z, apart u w -> apart u (vsub z a) -> apart w (vsub z a) ->
     point_in_cone (Cone a u w) z = pic (sgn u w) (sgn u (vsub z a)) (sgn w (vsub z a))).
  { intros u w z A B C. rewrite point_in_cone_sgn by (auto using Cone_wf). reflexivity. }
  rewrite (P d1 d2 x) by auto. rewrite (P e1 e2 x) by auto. fold v.
  rewrite <- (inter_b_ok _ _ (sgn d1 e1) (sgn d1 e2) (sgn d2 e1) (sgn d2 e2)).
  2:{ unfold cons_b. rewrite !plu_true by auto. reflexivity. }
  unfold intersection_same_apex. cbn [apex dir1 dir2 Cone].
  rewrite (P d1 d2 (padd a e1)), (P d1 d2 (padd a e2)), (P e1 e2 (padd a d1))
    by (rewrite ?vsub_padd; auto using apart_sym).
  rewrite !vsub_padd. unfold inter_b.
  rewrite (sgn_anti d1 e1), (sgn_anti d1 e2) by auto.
  destruct (pic (sgn d1 d2) (sgn d1 e1) (sgn d2 e1) && pic (sgn d1 d2) (sgn d1 e2) (sgn d2 e2)).
  - destruct (pic (sgn e1 e2) (negb (sgn d1 e1)) (negb (sgn d1 e2))); cbn [in_any existsb].
    + unfold in_any; cbn [existsb]. rewrite (P d1 e2 x), (P e1 d2 x) by auto using apart_sym.
      fold v. rewrite (sgn_anti d2 e1) by auto. rewrite orb_false_r. reflexivity.
    + unfold in_any; cbn [existsb]. rewrite (P e1 e2 x) by auto. rewrite orb_false_r. reflexivity.
  - destruct (pic (sgn d1 d2) (sgn d1 e1) (sgn d2 e1)).
    { unfold in_any; cbn [existsb]. rewrite (P e1 d2 x) by auto using apart_sym. fold v.
      rewrite (sgn_anti d2 e1) by auto. rewrite orb_false_r. reflexivity. }
    destruct (pic (sgn d1 d2) (sgn d1 e2) (sgn d2 e2)).
    { unfold in_any; cbn [existsb]. rewrite (P d1 e2 x) by auto using apart_sym. fold v.
      rewrite orb_false_r. reflexivity. }
    destruct (pic (sgn e1 e2) (negb (sgn d1 e1)) (negb (sgn d1 e2))).
    { unfold in_any; cbn [existsb]. rewrite (P d1 d2 x) by auto. rewrite orb_false_r. reflexivity. }
    reflexivity.
Qed.

Lemma intersection_same_apex_ok (self other : cone R) (x : Pt) :
  wf_cone self -> wf_cone other -> apex self = apex other ->
  apart (dir1 self) (dir2 self) -> apart (dir1 other) (dir2 other) ->
  apart (dir1 self) (dir1 other) -> apart (dir1 self) (dir2 other) ->
  apart (dir2 self) (dir1 other) -> apart (dir2 self) (dir2 other) ->
  apart (dir1 self) (vsub x (apex self)) -> apart (dir2 self) (vsub x (apex self)) ->
  apart (dir1 other) (vsub x (apex self)) -> apart (dir2 other) (vsub x (apex self)) ->
  in_any (intersection_same_apex self other) x = point_in_cone self x && point_in_cone other x.
Proof.
  intros W1 W2 EA. destruct self as [a d1 d2 k1], other as [a' e1 e2 k2].
  unfold wf_cone in W1, W2. cbn [apex dir1 dir2] in *. subst a'. rewrite W1, W2.
  intros. apply intersection_cones_ok; auto.
Qed.

(** *** C17: folding *)
Definition dirs (l : list (cone R)) : list Pt := flat_map (fun c => [dir1 c; dir2 c]) l.
Definition good (a : Pt) (D : list Pt) (c : cone R) : Prop :=
  wf_cone c /\ apex c = a /\ In (dir1 c) D /\ In (dir2 c) D /\ apart (dir1 c) (dir2 c).

Lemma inter_good a D c1 c2 c : good a D c1 -> wf_cone c2 -> apex c2 = a -> apart (dir1 c2) (dir2 c2) ->
  (forall u w, In u D -> In w [dir1 c2; dir2 c2] -> apart u w) ->
  In c (intersection_same_apex c1 c2) -> good a (D ++ [dir1 c2; dir2 c2]) c.
Proof.
  intros (W1 & A1 & I1 & I2 & P1) W2 A2 P2 HD.
  assert (Gs : good a (D ++ [dir1 c2; dir2 c2]) c1).
  { repeat split; auto; apply in_or_app; auto. }
  assert (Go : good a (D ++ [dir1 c2; dir2 c2]) c2).
  { repeat split; auto; apply in_or_app; right; simpl; auto. }
  assert (G12 : good a (D ++ [dir1 c2; dir2 c2]) (Cone (apex c1) (dir1 c1) (dir2 c2))).
  { repeat split; simpl; auto; try (apply in_or_app; simpl; auto). apply HD; simpl; auto. }
  assert (G21 : good a (D ++ [dir1 c2; dir2 c2]) (Cone (apex c1) (dir1 c2) (dir2 c1))).
  { repeat split; simpl; auto; try (apply in_or_app; simpl; auto). apply apart_sym, HD; simpl; auto. }
  unfold intersection_same_apex.
  destruct (point_in_cone c1 _ && point_in_cone c1 _).
  - destruct (point_in_cone c2 _); simpl; [intros [<-|[<-|[]]]; auto | intros [<-|[]]; auto].
  - destruct (point_in_cone c1 _); [simpl; intros [<-|[]]; auto|].
    destruct (point_in_cone c1 _); [simpl; intros [<-|[]]; auto|].
    destruct (point_in_cone c2 _); [simpl; intros [<-|[]]; auto|]. intros [].
Qed.
Lemma in_any_flat x f (l : list (cone R)) :
  in_any (flat_map f l) x = existsb (fun c => in_any (f c) x) l.
Proof.
  induction l; simpl; auto. unfold in_any in *. rewrite existsb_app, IHl. reflexivity.
Qed.
Lemma existsb_andb {A} (f : A -> bool) b l : existsb (fun c => f c && b) l = existsb f l && b.
Proof. induction l; simpl; auto. rewrite IHl. destruct (f a), b, (existsb f l); auto. Qed.
Lemma existsb_ext_in {A} (f g : A -> bool) l : (forall a, In a l -> f a = g a) -> existsb f l = existsb g l.
Proof. induction l; simpl; auto. intros H. rewrite H, IHl; auto. Qed.

Lemma list_loop_ok a x : forall cones D cur,
  (forall c, In c cur -> good a D c) ->
  (forall u, In u D -> apart u (vsub x a)) ->
  (forall c, In c cones -> wf_cone c /\ apex c = a) ->
  (forall u w, In u D -> In w (dirs cones) -> apart u w) ->
  (forall u, In u (dirs cones) -> apart u (vsub x a)) ->
  ForallOrdPairs apart (dirs cones) ->
  match list_intersection_loop cur cones with
  | None => false
  | Some l => in_any l x
  end = in_any cur x && forallb (fun c => point_in_cone c x) cones.
Proof.
  induction cones as [|c cones IH]; intros D cur Hcur HDv Hc HDc Hcv Hp.
  - simpl. rewrite andb_true_r. reflexivity.
  - destruct (Hc c (or_introl eq_refl)) as [Wc Ac].
    cbn [dirs flat_map app] in *. fold (dirs cones) in *.
    assert (P12 : apart (dir1 c) (dir2 c)).
    { inversion_clear Hp. inversion_clear H. auto. }
    assert (E : in_any (flat_map (fun ci => intersection_same_apex ci c) cur) x
                = in_any cur x && point_in_cone c x).
    { rewrite in_any_flat. unfold in_any at 2. rewrite <- existsb_andb. apply existsb_ext_in.
      intros ci Hi. destruct (Hcur ci Hi) as (W & A & I1 & I2 & P).
      apply intersection_same_apex_ok; auto; try (apply HDc; simpl; auto; fail); try congruence;
        rewrite A; try (apply HDv; auto; fail); apply Hcv; simpl; auto. }
    assert (Hnew : forall ci, In ci (flat_map (fun ci => intersection_same_apex ci c) cur) ->
        good a (D ++ [dir1 c; dir2 c]) ci).
    { intros ci Hi. apply in_flat_map in Hi as (cj & Hj & Hi).
      eapply inter_good; eauto. intros u w Hu Hw. apply HDc; auto. simpl in *; tauto. }
    cbn [list_intersection_loop forallb]. rewrite andb_assoc, <- E.
    remember (flat_map (fun ci => intersection_same_apex ci c) cur) as new eqn:En.
    destruct new as [|n0 new0]; [reflexivity|].
    apply (IH (D ++ [dir1 c; dir2 c]) (n0 :: new0)); auto.
    + intros u Hu. apply in_app_or in Hu as [Hu|Hu]; auto. apply Hcv. simpl in *; tauto.
    + intros c' Hc'. apply Hc. right; auto.
    + inversion_clear Hp. inversion_clear H0. rewrite Forall_forall in H, H1.
      intros u w Hu Hw. apply in_app_or in Hu as [Hu|[<-|[<-|[]]]]; auto.
      * apply HDc; simpl; auto.
      * apply H; simpl; auto.
    + intros u Hu. apply Hcv; simpl; auto.
    + inversion_clear Hp. inversion_clear H0. auto.
Qed.
Lemma list_intersection_ok a x cones :
  cones <> [] ->
  (forall c, In c cones -> wf_cone c /\ apex c = a) ->
  (forall u, In u (dirs cones) -> apart u (vsub x a)) ->
  ForallOrdPairs apart (dirs cones) ->
  match list_intersection cones with
  | IndexError => False
  | EmptyPolygon => ~ (forall c, In c cones -> point_in_cone c x = true)
  | UnionOf l => l <> [] /\
      ((exists c, In c l /\ point_in_cone c x = true) <-> (forall c, In c cones -> point_in_cone c x = true))
  end.
Proof.
  intros Hne Hc Hv Hp. destruct cones as [|c cs]; [congruence|].
  cbn [dirs flat_map app] in *. fold (dirs cs) in *.
  pose proof (list_loop_ok a x cs [dir1 c; dir2 c] [c]) as H.
  assert (P12 : apart (dir1 c) (dir2 c)) by (inversion_clear Hp; inversion_clear H0; auto).
  assert (H' : match list_intersection_loop [c] cs with None => false | Some l => in_any l x end =
     in_any [c] x && forallb (fun c => point_in_cone c x) cs).
  { apply H.
    - intros c' [<-|[]]. destruct (Hc c (or_introl eq_refl)). repeat split; simpl; auto.
    - intros u Hu. apply Hv. simpl in *; tauto.
    - intros c' Hi. apply Hc; right; auto.
    - inversion_clear Hp. inversion_clear H1. rewrite Forall_forall in H0, H2.
      intros u w [<-|[<-|[]]] Hw; auto. apply H0; right; auto.
    - intros u Hu. apply Hv; simpl; auto.
    - inversion_clear Hp. inversion_clear H1. auto. }
  clear H. unfold in_any at 2 in H'. cbn [existsb] in H'. rewrite orb_false_r in H'.
  assert (A : (point_in_cone c x && forallb (fun c => point_in_cone c x) cs = true) <->
              (forall c', In c' (c :: cs) -> point_in_cone c' x = true)).
  { rewrite andb_true_iff, forallb_forall. split.
    - intros [H1 H2] c' [<-|Hi]; auto.
    - intros H; split; intros; apply H; simpl; auto. }
  assert (Lne : forall cs cur l, cur <> [] -> list_intersection_loop cur cs = Some l -> l <> []).
  { clear. induction cs as [|c' cs IH]; simpl; intros cur l Hc E; [congruence|].
    destruct (flat_map (fun ci => intersection_same_apex ci c') cur) eqn:F; [discriminate|].
    eapply IH; [|exact E]. discriminate. }
  unfold list_intersection. destruct (list_intersection_loop [c] cs) as [l|] eqn:E.
  - split; [eapply Lne; [|exact E]; discriminate|].
    rewrite <- A, <- H'. unfold in_any. rewrite existsb_exists. reflexivity.
  - rewrite <- A, <- H'. discriminate.
Qed.

(** *** C18 *)
Lemma self_turn (a d : Pt) : is_ccw a (padd a d) (padd a d) = false /\ is_cw a (padd a d) (padd a d) = false.
Proof.
  pose proof TH_pos. rewrite is_ccw_false, is_cw_false, area_apex, vsub_padd.
  replace (cross d d) with 0 by (destruct d; unv; ring). lra.
Qed.
Lemma self_intersection_convex a d1 d2 : is_ccw (n0, n0) d1 d2 = true ->
  intersection_same_apex (Cone a d1 d2) (Cone a d1 d2) = ([] : list (cone R)).
Proof.
  intros H. unfold intersection_same_apex, point_in_cone. cbn [apex dir1 dir2 is_convex Cone].
  unfold Cone. cbn [apex dir1 dir2 is_convex]. rewrite H.
  destruct (self_turn a d1) as [A B], (self_turn a d2) as [C D]. rewrite !A, !D, !andb_false_r. reflexivity.
Qed.
Lemma self_intersection_nonconvex a d1 d2 : is_ccw (n0, n0) d1 d2 = false ->
  intersection_same_apex (Cone a d1 d2) (Cone a d1 d2) = [Cone a d1 d2; Cone a d1 d2].
Proof.
  intros H. unfold intersection_same_apex, point_in_cone. cbn [apex dir1 dir2 is_convex Cone].
  unfold Cone. cbn [apex dir1 dir2 is_convex]. rewrite H.
  destruct (self_turn a d1) as [A B], (self_turn a d2) as [C D]. rewrite !B, !C, !andb_false_r. reflexivity.
Qed.
