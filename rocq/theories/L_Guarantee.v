(** Geometry of admissible kernels: a point in the interior of the polygons of the cones never has the obstacle behind x. *)
From Coq Require Import Reals List Bool Lra Lia Psatz.
From Verif Require Import Num Spec S_Guarantee M_Cg M_Motion M_Obstacle M_StarHull L_Geom L_Cg L_Cone P_Cone P_StarHull.
Import ListNotations.
Open Scope R_scope.

Definition box (c : Pt) (r : R) (q : Pt) : Prop := Rabs (fst q - fst c) < r /\ Rabs (snd q - snd c) < r.
Lemma box_self c r : 0 < r -> box c r c.
Proof. intros H. split; rewrite Rminus_diag_eq by reflexivity; rewrite Rabs_R0; exact H. Qed.
Lemma cross_bound d v r : Rabs (fst v) <= r -> Rabs (snd v) <= r -> Rabs (cross d v) <= (Rabs (fst d) + Rabs (snd d)) * r.
Proof.
  intros A B. unfold cross. replace (fst d * snd v - snd d * fst v) with (fst d * snd v + - (snd d * fst v)) by ring.
  eapply Rle_trans; [apply Rabs_triang|]. rewrite Rabs_Ropp, !Rabs_mult. pose proof (Rabs_pos (fst d)). pose proof (Rabs_pos (snd d)). nra.
Qed.
Definition size (d : Pt) : R := Rabs (fst d) + Rabs (snd d).
Lemma size_pos d : d <> (0, 0) -> 0 < size d.
Proof.
  intros H. unfold size. pose proof (Rabs_pos (fst d)). pose proof (Rabs_pos (snd d)).
  destruct (Req_dec (fst d) 0) as [A|A]; [|apply Rabs_pos_lt in A; lra].
  destruct (Req_dec (snd d) 0) as [B|B]; [|apply Rabs_pos_lt in B; lra]. destruct d; cbn in *; subst. congruence.
Qed.
(** around a point off the line there is a box on the same side of it *)
Lemma keep_side d x c e : 0 < e -> e <= cross d (vsub c x) -> forall q, box c (e / (2 * (size d + 1))) q -> 0 < cross d (vsub q x).
Proof.
  intros He H q [A B]. set (r := e / (2 * (size d + 1))) in *. assert (S0 : 0 <= size d) by (unfold size; pose proof (Rabs_pos (fst d)); pose proof (Rabs_pos (snd d)); lra).
  assert (E : e = 2 * (size d + 1) * r) by (unfold r; field; lra). assert (0 < r) by (unfold r; apply Rmult_lt_0_compat; [lra|apply Rinv_0_lt_compat; lra]).
  assert (K : Rabs (cross d (vsub q c)) <= size d * r) by (apply cross_bound; cbn [vsub fst snd]; lra).
  replace (cross d (vsub q x)) with (cross d (vsub c x) + cross d (vsub q c)) by (unfold cross, vsub; cbn [fst snd]; ring).
  assert (- (size d * r) <= cross d (vsub q c)) by (pose proof (Rle_abs (- cross d (vsub q c))) as K'; rewrite Rabs_Ropp in K'; lra). nra.
Qed.
Lemma cross_opp_l d v : cross (smul (-1) d) v = - cross d v.
Proof. unfold cross, smul. cbn [fst snd]. ring. Qed.
Lemma avoid_line d x c r : d <> (0, 0) -> 0 < r -> exists c' r', 0 < r' /\ forall q, box c' r' q -> box c r q /\ cross d (vsub q x) <> 0.
Proof.
  intros Hd Hr. pose proof (size_pos d Hd) as Sz.
  assert (C : exists c', Rabs (fst c' - fst c) <= r / 2 /\ Rabs (snd c' - snd c) <= r / 2 /\ cross d (vsub c' x) <> 0).
  { destruct (Req_dec (cross d (vsub c x)) 0) as [Z|Z].
    - exists (fst c - r / 2 * (snd d / size d), snd c + r / 2 * (fst d / size d)). cbn [fst snd].
      assert (L : forall y, Rabs y <= size d -> Rabs (r / 2 * (y / size d)) <= r / 2).
      { intros y Hy. rewrite Rabs_mult, (Rabs_right (r / 2)) by lra. unfold Rdiv at 2. rewrite Rabs_mult, (Rabs_right (/ size d)) by (left; apply Rinv_0_lt_compat; lra).
        rewrite <- (Rmult_1_r (r / 2)) at 2. apply Rmult_le_compat_l; [lra|]. apply Rmult_le_reg_r with (size d); [lra|]. rewrite Rmult_assoc, Rinv_l, Rmult_1_r, Rmult_1_l by lra. exact Hy. }
      split; [|split].
      + replace (fst c - r / 2 * (snd d / size d) - fst c) with (- (r / 2 * (snd d / size d))) by ring. rewrite Rabs_Ropp. apply L. unfold size. pose proof (Rabs_pos (fst d)). lra.
      + replace (snd c + r / 2 * (fst d / size d) - snd c) with (r / 2 * (fst d / size d)) by ring. apply L. unfold size. pose proof (Rabs_pos (snd d)). lra.
      + replace (cross d (vsub (fst c - r / 2 * (snd d / size d), snd c + r / 2 * (fst d / size d)) x)) with (cross d (vsub c x) + r / 2 * ((fst d * fst d + snd d * snd d) / size d)) by (unfold cross, vsub; cbn [fst snd]; field; lra).
        rewrite Z, Rplus_0_l. assert (0 < fst d * fst d + snd d * snd d).
        { destruct d as [a b]. cbn [fst snd]. destruct (Req_dec a 0) as [->|Na]; [destruct (Req_dec b 0) as [->|Nb]; [congruence|nra]|nra]. }
        assert (0 < (fst d * fst d + snd d * snd d) / size d) by (apply Rmult_lt_0_compat; [assumption|apply Rinv_0_lt_compat; lra]). nra.
    - exists c. rewrite !Rminus_diag_eq by reflexivity. rewrite Rabs_R0. repeat split; try lra; exact Z. }
  destruct C as (c' & C1 & C2 & C3). set (e := Rabs (cross d (vsub c' x))). assert (He : 0 < e) by (apply Rabs_pos_lt, C3).
  exists c', (Rmin (r / 2) (e / (2 * (size d + 1)))). assert (P : 0 < e / (2 * (size d + 1))) by (apply Rmult_lt_0_compat; [lra|apply Rinv_0_lt_compat; lra]).
  split; [apply Rmin_glb_lt; lra|]. intros q [Q1 Q2]. pose proof (Rmin_l (r / 2) (e / (2 * (size d + 1)))). pose proof (Rmin_r (r / 2) (e / (2 * (size d + 1)))). split.
  - split.
    + replace (fst q - fst c) with ((fst q - fst c') + (fst c' - fst c)) by ring. eapply Rle_lt_trans; [apply Rabs_triang|]. lra.
    + replace (snd q - snd c) with ((snd q - snd c') + (snd c' - snd c)) by ring. eapply Rle_lt_trans; [apply Rabs_triang|]. lra.
  - assert (Bq : box c' (e / (2 * (size d + 1))) q) by (split; lra). unfold e in *. destruct (Rcase_abs (cross d (vsub c' x))) as [N|N].
    + rewrite (Rabs_left _ N) in *. assert (Sd : size (smul (-1) d) = size d) by (unfold size, smul; cbn [fst snd]; rewrite !Rabs_mult, Rabs_left by lra; ring).
      pose proof (keep_side (smul (-1) d) x c' (- cross d (vsub c' x)) He) as K. rewrite Sd, cross_opp_l in K. specialize (K (Rle_refl _) q Bq). rewrite cross_opp_l in K. lra.
    + rewrite (Rabs_right _ N) in *. pose proof (keep_side d x c' _ He (Rle_refl _) q Bq). lra.
Qed.
Lemma avoid_lines x : forall ds c r, (forall d, In d ds -> d <> (0, 0)) -> 0 < r ->
  exists c' r', 0 < r' /\ forall q, box c' r' q -> box c r q /\ forall d, In d ds -> cross d (vsub q x) <> 0.
Proof.
  induction ds as [|d ds IH]; intros c r H Hr; [exists c, r; split; [exact Hr|]; intros q Hq; split; [exact Hq|intros ? []]|].
  destruct (avoid_line d x c r (H d (or_introl eq_refl)) Hr) as (c1 & r1 & R1 & B1).
  destruct (IH c1 r1) as (c2 & r2 & R2 & B2); [intros; apply H; right; assumption|exact R1|].
  exists c2, r2. split; [exact R2|]. intros q Hq. destruct (B2 q Hq) as [I N]. destruct (B1 q I) as [I' N']. split; [exact I'|].
  intros d' [<-|Hd]; auto.
Qed.
Lemma box_dist c r q : 0 < r -> box c (r / 2) q -> dist c q < r.
Proof.
  intros Hr [A B]. unfold dist, norm. apply Rabs_def2 in A as [A1 A2]. apply Rabs_def2 in B as [B1 B2].
  rewrite <- (sqrt_Rsqr r) by lra. apply sqrt_lt_1_alt. unfold norm2, dot, vsub, Rsqr. cbn [fst snd].
  assert (Sq : forall y z, y - z < r / 2 -> - (r / 2) < y - z -> (z - y) * (z - y) < r * r / 4) by (intros; nra).
  pose proof (Sq _ _ A1 A2). pose proof (Sq _ _ B1 B2). split; [pose proof (Rle_0_sqr (fst c - fst q)); pose proof (Rle_0_sqr (snd c - snd q)); unfold Rsqr in *; lra|nra].
Qed.

(** *** not blocked *)
Lemma not_blocked (S O : region) x t1 t2 ds k : ~ O x -> tangent_pair O x t1 t2 -> (forall d, In d ds -> d <> (0, 0)) -> interior S k ->
  (forall q, S q -> (forall d, In d ds -> cross d (vsub q x) <> 0) -> ~ (0 < area2 x t1 q /\ area2 x t2 q < 0)) ->
  ~ hides_behind O x k.
Proof.
  intros Nx (O1 & O2 & T & B) Hd (r & Hr & Sr) Free (o & Ho & Sg). destruct (B o Ho) as [B1 B2]. assert (N : x <> o) by (intros ->; contradiction).
  destruct (blocked_side x k o t1 Sg N) as (l1 & L1 & E1). destruct (blocked_side x k o t2 Sg N) as (l2 & L2 & E2).
  assert (K1 : 0 <= area2 x t1 k) by (rewrite E1; nra). assert (K2 : area2 x t2 k <= 0) by (rewrite E2; nra).
  set (w := vadd (vsub x t1) (vsub x t2)). set (m := size w + 1). assert (Hm : 0 < m) by (unfold m, size; pose proof (Rabs_pos (fst w)); pose proof (Rabs_pos (snd w)); lra).
  set (s := r / 4 / m). assert (Hs : 0 < s) by (unfold s; apply Rmult_lt_0_compat; [lra|apply Rinv_0_lt_compat, Hm]).
  set (c := vadd k (smul s w)). set (e := - (s * area2 x t1 t2)). assert (He : 0 < e) by (unfold e; nra).
  assert (C1 : e <= cross (vsub t1 x) (vsub c x)).
  { replace (cross (vsub t1 x) (vsub c x)) with (area2 x t1 k + e); [lra|]. unfold e, c, w. destruct x, k, t1, t2. unv. ring. }
  assert (C2 : e <= cross (smul (-1) (vsub t2 x)) (vsub c x)).
  { rewrite cross_opp_l. replace (cross (vsub t2 x) (vsub c x)) with (area2 x t2 k - e); [lra|]. unfold e, c, w. destruct x, k, t1, t2. unv. ring. }
  set (r1 := e / (2 * (size (vsub t1 x) + 1))). set (r2 := e / (2 * (size (smul (-1) (vsub t2 x)) + 1))).
  assert (P : forall d, 0 < e / (2 * (size d + 1))) by (intros d; apply Rmult_lt_0_compat; [lra|apply Rinv_0_lt_compat; unfold size; pose proof (Rabs_pos (fst d)); pose proof (Rabs_pos (snd d)); lra]).
  assert (Hmin : 0 < Rmin (r / 4) (Rmin r1 r2)) by (repeat apply Rmin_glb_lt; [lra|apply P|apply P]).
  destruct (avoid_lines x ds c _ Hd Hmin) as (c' & r' & R' & Bx). destruct (Bx c' (box_self c' r' R')) as [[Q1 Q2] Gen].
  pose proof (Rmin_l (r / 4) (Rmin r1 r2)) as M0. pose proof (Rmin_r (r / 4) (Rmin r1 r2)) as M1. pose proof (Rmin_l r1 r2) as M2. pose proof (Rmin_r r1 r2) as M3.
  apply (Free c'); [|exact Gen|].
  - apply Sr, box_dist; [exact Hr|].
    assert (W : forall y, Rabs y <= size w -> Rabs (s * y) <= r / 4).
    { intros y Hy. rewrite Rabs_mult, (Rabs_right s) by lra. apply Rle_trans with (s * m); [apply Rmult_le_compat_l; unfold m; lra|]. unfold s. right. field. lra. }
    split.
    + replace (fst c' - fst k) with ((fst c' - fst c) + s * fst w) by (unfold c, vadd, smul; cbn [fst]; ring). eapply Rle_lt_trans; [apply Rabs_triang|].
      assert (Rabs (s * fst w) <= r / 4) by (apply W; unfold size; pose proof (Rabs_pos (snd w)); lra). lra.
    + replace (snd c' - snd k) with ((snd c' - snd c) + s * snd w) by (unfold c, vadd, smul; cbn [snd]; ring). eapply Rle_lt_trans; [apply Rabs_triang|].
      assert (Rabs (s * snd w) <= r / 4) by (apply W; unfold size; pose proof (Rabs_pos (fst w)); lra). lra.
  - split.
    + apply (keep_side (vsub t1 x) x c e He C1). split; fold r1; lra.
    + assert (Y : 0 < cross (smul (-1) (vsub t2 x)) (vsub c' x)) by (apply (keep_side _ x c e He C2); split; fold r2; lra).
      rewrite cross_opp_l in Y. unfold area2. lra.
Qed.

(** *** the cones of list_intersection *)
Lemma loop_good a : forall cones D cur l, (forall c, In c cur -> good a D c) -> (forall c, In c cones -> wf_cone c /\ apex c = a) ->
  (forall u w, In u D -> In w (dirs cones) -> apart u w) -> ForallOrdPairs apart (dirs cones) ->
  list_intersection_loop cur cones = Some l -> forall c, In c l -> good a (D ++ dirs cones) c.
Proof.
  induction cones as [|c cones IH]; intros D cur l Hcur Hc HDc Hp E c0 H0; cbn [list_intersection_loop] in E.
  - injection E as <-. cbn [dirs flat_map]. rewrite app_nil_r. auto.
  - destruct (Hc c (or_introl eq_refl)) as [Wc Ac]. cbn [dirs flat_map app] in *. fold (dirs cones) in *.
    assert (P12 : apart (dir1 c) (dir2 c)) by (inversion_clear Hp; inversion_clear H; auto).
    assert (Hnew : forall ci, In ci (flat_map (fun ci => intersection_same_apex ci c) cur) -> good a (D ++ [dir1 c; dir2 c]) ci).
    { intros ci Hi. apply in_flat_map in Hi as (cj & Hj & Hi). eapply inter_good; eauto. intros u w Hu Hw. apply HDc; auto. cbn in *; tauto. }
    remember (flat_map (fun ci => intersection_same_apex ci c) cur) as new eqn:En. destruct new as [|m0 new0]; [discriminate|].
    replace (D ++ dir1 c :: dir2 c :: dirs cones) with ((D ++ [dir1 c; dir2 c]) ++ dirs cones) by (rewrite <- app_assoc; reflexivity).
    refine (IH (D ++ [dir1 c; dir2 c]) _ l Hnew _ _ _ E c0 H0).
    + intros c' Hc'. apply Hc. right; auto.
    + inversion_clear Hp. inversion_clear H1. rewrite Forall_forall in H, H2.
      intros u w Hu Hw. apply in_app_or in Hu as [Hu|[<-|[<-|[]]]]; auto.
      * apply HDc; cbn; auto.
      * apply H; cbn; auto.
    + inversion_clear Hp. inversion_clear H1. auto.
Qed.
Lemma list_good a cones l : (forall c, In c cones -> wf_cone c /\ apex c = a) -> ForallOrdPairs apart (dirs cones) ->
  list_intersection cones = UnionOf l -> forall c, In c l -> good a (dirs cones) c.
Proof.
  intros Hc Hp E c0 H0. destruct cones as [|c cs]; [discriminate|]. unfold list_intersection in E.
  destruct (list_intersection_loop [c] cs) as [l'|] eqn:F; [|discriminate]. injection E as <-. cbn [dirs flat_map app] in *. fold (dirs cs) in *.
  assert (P12 : apart (dir1 c) (dir2 c)) by (inversion_clear Hp; inversion_clear H; auto).
  change (dir1 c :: dir2 c :: dirs cs) with ([dir1 c; dir2 c] ++ dirs cs). refine (loop_good a cs [dir1 c; dir2 c] [c] l' _ _ _ _ F c0 H0).
  - intros c' [<-|[]]. destruct (Hc c (or_introl eq_refl)). repeat split; cbn; auto.
  - intros c' Hi. apply Hc; right; auto.
  - inversion_clear Hp. inversion_clear H1. rewrite Forall_forall in H, H2. intros u w [<-|[<-|[]]] Hw; auto. apply H; right; auto.
  - inversion_clear Hp. inversion_clear H1. auto.
Qed.
Lemma in_sector_scale d1 d2 v l : 0 < l -> in_sector d1 d2 v -> in_sector d1 d2 (smul l v).
Proof.
  intros Hl (r1 & r2 & r & t & w & s & A1 & A2 & A3 & A4 & A5 & A6 & A7 & ->). exists r1, r2, (l * r), t, w, s.
  repeat (split; [first [assumption|nra]|]). unfold smul, polar. cbn [fst snd]. f_equal; ring.
Qed.
(** far enough along its ray, a point off finitely many lines clears the tolerance *)
Lemma far_out ds (v : Pt) : (forall d, In d ds -> cross d v <> 0) -> exists l, 1 <= l /\ forall d, In d ds -> apart d (smul l v).
Proof.
  induction ds as [|d ds IH]; intros H; [exists 1; split; [lra|intros ? []]|]. destruct IH as (l & L & A); [intros; apply H; right; assumption|].
  pose proof (H d (or_introl eq_refl)) as N. apply Rabs_pos_lt in N. pose proof TH_pos. set (m := TH / Rabs (cross d v) + 1).
  assert (Hm : 1 <= m) by (unfold m; assert (0 < TH / Rabs (cross d v)) by (apply Rmult_lt_0_compat; [lra|apply Rinv_0_lt_compat, N]); lra).
  exists (Rmax l m). pose proof (Rmax_l l m). pose proof (Rmax_r l m). split; [lra|].
  assert (Sc : forall d' k, cross d' (smul k v) = k * cross d' v) by (intros; unfold cross, smul; cbn [fst snd]; ring).
  assert (Up : forall d' k k', 0 < k -> k <= k' -> TH < k * Rabs (cross d' v) -> apart d' (smul k' v)).
  { intros d' k k' K1 K2 K3. unfold apart. rewrite Sc, Rabs_mult, (Rabs_right k') by lra. pose proof (Rabs_pos (cross d' v)). nra. }
  intros d' [<-|Hd].
  - apply (Up d m); [lra|lra|]. unfold m. rewrite Rmult_plus_distr_r. unfold Rdiv. rewrite Rmult_assoc, Rinv_l by lra. lra.
  - apply (Up d' l); [lra|lra|]. specialize (A d' Hd). unfold apart in A. rewrite Sc, Rabs_mult, (Rabs_right l) in A by lra. exact A.
Qed.
