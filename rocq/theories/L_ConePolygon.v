(** Cone.polygon finds its border points. *)
From Coq Require Import Reals Lra Psatz List Bool Arith Lia.
From Verif Require Import Num Spec M_Cg M_ConePolygon L_Geom L_Polar L_Atan2 L_Cg L_Cone.
Import ListNotations.
Open Scope R_scope.

(** largest coordinate of a direction, and margin of a point to the sides of the box *)
Notation W := bb_width.

Lemma sc_pi4 a : exists k, 0 < k /\ sin a - cos a = k * sin (a - PI / 4) /\ sin a + cos a = k * cos (a - PI / 4).
Proof.
  exists (sqrt 2). pose proof Rlt_sqrt2_0. pose proof (sqrt_sqrt 2 ltac:(lra)) as E.
  rewrite sin_minus, cos_minus, cos_PI4, sin_PI4.
  split; auto. split; field; lra.
Qed.
Lemma edge_index_dir (d : Pt) : d <> (0, 0) ->
  match edge_index (arctan2 (snd d) (fst d) + PI) with
  | 0%nat => snd d < 0 /\ Rabs (fst d) <= - snd d
  | 1%nat => 0 < fst d /\ Rabs (snd d) <= fst d
  | 2%nat => 0 < snd d /\ Rabs (fst d) <= snd d
  | _ => fst d < 0 /\ Rabs (snd d) <= - fst d
  end.
Proof.
  intros Hd. destruct d as [x y]. cbn [fst snd].
  pose proof (arctan2_polar x y) as E. pose proof (arctan2_bound x y) as B.
  pose proof (norm_pos _ Hd) as Hr. set (r := norm (x, y)) in *.
  set (a := arctan2 y x + PI) in *. assert (Ea : arctan2 y x = a - PI) by (unfold a; ring).
  assert (Ba : 0 < a <= 2 * PI) by (unfold a; lra).
  rewrite Ea in E. unfold polar in E. rewrite cos_minus, sin_minus, cos_PI, sin_PI in E.
  injection E; intros Ey Ex.
  destruct (sc_pi4 a) as (k & Hk & S1 & S2).
  pose proof PI_RGT_0. set (f := a - PI / 4) in *.
  assert (Hf : a = f + PI / 4) by (unfold f; ring).
  assert (SP : forall u v, 0 < u -> 0 < v -> 0 < u * v) by (intros; apply Rmult_lt_0_compat; auto).
  unfold edge_index, bb_corner_angle.
  destruct (Rleb_spec (PI / 4 * 1) a); cbn [andb].
  - destruct (Rltb_spec a (PI / 4 * 3)).
    { assert (0 <= sin f) by (apply sin_ge_0; lra). assert (0 < cos f) by (apply cos_gt_0; lra).
      assert (0 <= sin a - cos a) by (rewrite S1; nra). assert (0 < sin a + cos a) by (rewrite S2; apply SP; auto).
      assert (0 < r * (sin a)) by (apply SP; lra).
      assert (0 <= r * (sin a - cos a)) by (apply Rmult_le_pos; lra).
      assert (0 <= r * (sin a + cos a)) by (apply Rmult_le_pos; lra).
      split; [lra|]. apply Rabs_le. lra. }
    destruct (Rleb_spec (PI / 4 * 3) a); [|lra]. cbn [andb].
    destruct (Rltb_spec a (PI / 4 * 5)).
    { assert (0 < sin f) by (apply sin_gt_0; lra).
      assert (cos f <= 0) by (apply cos_le_0; lra).
      assert (0 < sin a - cos a) by (rewrite S1; nra). assert (sin a + cos a <= 0) by (rewrite S2; nra).
      assert (0 < r * - cos a) by (apply SP; lra).
      assert (0 <= r * (sin a - cos a)) by (apply Rmult_le_pos; lra).
      assert (0 <= r * - (sin a + cos a)) by (apply Rmult_le_pos; lra).
      split; [lra|]. apply Rabs_le. lra. }
    destruct (Rleb_spec (PI / 4 * 5) a); [|lra]. cbn [andb].
    destruct (Rltb_spec a (PI / 4 * 7)).
    { assert (sin f <= 0) by (apply sin_le_0; lra).
      assert (cos f < 0) by (apply cos_lt_0; lra).
      assert (sin a - cos a <= 0) by (rewrite S1; nra). assert (sin a + cos a < 0) by (rewrite S2; nra).
      assert (0 < r * - sin a) by (apply SP; lra).
      assert (0 <= r * - (sin a - cos a)) by (apply Rmult_le_pos; lra).
      assert (0 <= r * - (sin a + cos a)) by (apply Rmult_le_pos; lra).
      split; [lra|]. apply Rabs_le. lra. }
    { assert (sin f < 0) by (apply sin_lt_0; lra).
      assert (0 <= cos f).
      { rewrite <- (Ropp_involutive (cos f)), <- neg_cos.
        replace (f + PI) with ((f - PI) + 2 * PI) by ring.
        replace (cos (f - PI + 2 * PI)) with (cos (f - PI)).
        - assert (cos (f - PI) <= 0) by (apply cos_le_0; lra). lra.
        - rewrite (cos_plus _ (2 * PI)), cos_2PI, sin_2PI. ring. }
      assert (sin a - cos a < 0) by (rewrite S1; nra). assert (0 <= sin a + cos a) by (rewrite S2; nra).
      assert (0 < r * cos a) by (apply SP; lra).
      assert (0 <= r * - (sin a - cos a)) by (apply Rmult_le_pos; lra).
      assert (0 <= r * (sin a + cos a)) by (apply Rmult_le_pos; lra).
      split; [lra|]. apply Rabs_le. lra. }
  - destruct (Rleb_spec (PI / 4 * 3) a); [lra|]. cbn [andb].
    destruct (Rleb_spec (PI / 4 * 5) a); [lra|]. cbn [andb].
    assert (sin f < 0). { apply sin_lt_0_var; lra. }
    assert (0 < cos f) by (apply cos_gt_0; lra).
    assert (sin a - cos a < 0) by (rewrite S1; nra). assert (0 < sin a + cos a) by (rewrite S2; apply SP; auto).
    assert (0 < r * cos a) by (apply SP; lra).
    assert (0 <= r * - (sin a - cos a)) by (apply Rmult_le_pos; lra).
    assert (0 <= r * (sin a + cos a)) by (apply Rmult_le_pos; lra).
    split; [lra|]. apply Rabs_le. lra.
Qed.
Lemma edge_index_lt a : (edge_index a < 4)%nat.
Proof.
  unfold edge_index. destruct (_ && _); [lia|]. destruct (_ && _); [lia|]. destruct (_ && _); lia.
Qed.

(** hits *)
Definition Wray (a d : Pt) : line R := Line a (padd a d).
Lemma hit_gen (a d : Pt) (e : line R) t u p :
  TH <= Rabs (ldet (Wray a d) e) -> 0 <= t -> 0 <= u ->
  p = vadd a (smul t d) -> p = along (p1 e) (p2 e) u -> ray_intersection (Wray a d) e <> None.
Proof.
  intros H Ht Hu E1 E2.
  assert (K : ray_intersection (Wray a d) e = Some p).
  { apply ray_int_spec. split; auto. split.
    - exists t. split; auto. rewrite E1. unfold Wray; cbn [p1 p2]. unfold along.
      change (vsub (padd a d) a) with (vsub (padd a d) a). rewrite vsub_padd. reflexivity.
    - exists u. auto. }
  congruence.
Qed.
Lemma det_wray (a d : Pt) e : ldet (Wray a d) e = cross d (vsub (p2 e) (p1 e)).
Proof. unfold ldet, ldir, Wray. cbn [p1 p2]. rewrite vsub_padd. reflexivity. Qed.
Lemma Wpos : 0 < W.
Proof. unfold W; lra. Qed.

Ltac edges := unfold bottom_line, right_line, top_line, left_line, bottom_left, bottom_right, top_left, top_right in *; cbn [p1 p2 fst snd] in *.

Lemma divpos a b : 0 <= a -> 0 < b -> 0 <= a / b.
Proof. intros. apply Rmult_le_pos; auto. left; apply Rinv_0_lt_compat; auto. Qed.
Lemma hit_bottom (a d : Pt) : snd d < 0 -> - W < snd a -> - W <= fst a + (W + snd a) / (- snd d) * fst d ->
  TH <= - snd d * (2 * W) -> ray_intersection (Wray a d) bottom_line <> None.
Proof.
  intros Hd Ha Hx HT. pose proof Wpos.
  apply hit_gen with (t := (W + snd a) / (- snd d)) (u := (fst a + (W + snd a) / (- snd d) * fst d + W) / (2 * W))
    (p := vadd a (smul ((W + snd a) / (- snd d)) d)); auto.
  - rewrite det_wray. edges. unv. rewrite Rabs_pos_eq; nra.
  - apply divpos; lra.
  - apply divpos; lra.
  - edges. destruct a, d; unv. apply pair_eq; field; lra.
Qed.
Lemma hit_top (a d : Pt) : 0 < snd d -> snd a < W -> - W <= fst a + (W - snd a) / snd d * fst d ->
  TH <= snd d * (2 * W) -> ray_intersection (Wray a d) top_line <> None.
Proof.
  intros Hd Ha Hx HT. pose proof Wpos.
  apply hit_gen with (t := (W - snd a) / snd d) (u := (fst a + (W - snd a) / snd d * fst d + W) / (2 * W))
    (p := vadd a (smul ((W - snd a) / snd d) d)); auto.
  - rewrite det_wray. edges. unv. rewrite Rabs_left; nra.
  - apply divpos; lra.
  - apply divpos; lra.
  - edges. destruct a, d; unv. apply pair_eq; field; lra.
Qed.
Lemma hit_right (a d : Pt) : 0 < fst d -> fst a < W -> - W <= snd a + (W - fst a) / fst d * snd d ->
  TH <= fst d * (2 * W) -> ray_intersection (Wray a d) right_line <> None.
Proof.
  intros Hd Ha Hx HT. pose proof Wpos.
  apply hit_gen with (t := (W - fst a) / fst d) (u := (snd a + (W - fst a) / fst d * snd d + W) / (2 * W))
    (p := vadd a (smul ((W - fst a) / fst d) d)); auto.
  - rewrite det_wray. edges. unv. rewrite Rabs_pos_eq; nra.
  - apply divpos; lra.
  - apply divpos; lra.
  - edges. destruct a, d; unv. apply pair_eq; field; lra.
Qed.
Lemma hit_left (a d : Pt) : fst d < 0 -> - W < fst a -> snd a + (W + fst a) / (- fst d) * snd d <= W ->
  TH <= - fst d * (2 * W) -> ray_intersection (Wray a d) left_line <> None.
Proof.
  intros Hd Ha Hx HT. pose proof Wpos.
  apply hit_gen with (t := (W + fst a) / (- fst d)) (u := (W - (snd a + (W + fst a) / (- fst d) * snd d)) / (2 * W))
    (p := vadd a (smul ((W + fst a) / (- fst d)) d)); auto.
  - rewrite det_wray. edges. unv. rewrite Rabs_pos_eq; nra.
  - apply divpos; lra.
  - apply divpos; lra.
  - edges. destruct a, d; unv. apply pair_eq; field; lra.
Qed.

(** Fall-back: if the ray leaves [-W] on one axis before reaching the first side, it reaches the other. *)
Lemma fallback_num g h A B m L : (* g: component towards the first side, h: sideways component towards the other *)
  0 < g -> 0 < A -> m <= B -> 0 < m -> A <= 2 * W -> L <= g -> TH <= m * L ->
  B < A / g * h -> 0 < h /\ TH <= h * (2 * W).
Proof.
  intros Hg HA HB Hm HA2 HL HT H. pose proof TH_pos.
  assert (H1 : B * g < A * h).
  { apply (Rmult_lt_compat_r g) in H; auto. replace (A / g * h * g) with (A * h) in H by (field; lra). lra. }
  assert (Hh : 0 < h).
  { apply Rnot_le_lt. intros K. assert (A * h <= 0) by nra. assert (0 < B * g) by (apply Rmult_lt_0_compat; lra). lra. }
  split; auto. nra.
Qed.

Definition margin (a : Pt) : R := W - Rmax (Rabs (fst a)) (Rabs (snd a)).
Definition reach (d : Pt) : R := Rmax (Rabs (fst d)) (Rabs (snd d)).
Lemma margin_facts a : 0 < margin a ->
  margin a <= W - fst a /\ margin a <= W + fst a /\ margin a <= W - snd a /\ margin a <= W + snd a.
Proof.
  unfold margin. intros H. pose proof (Rmax_l (Rabs (fst a)) (Rabs (snd a))). pose proof (Rmax_r (Rabs (fst a)) (Rabs (snd a))).
  pose proof (Rle_abs (fst a)). pose proof (Rle_abs (snd a)).
  pose proof (Rle_abs (- fst a)) as A. pose proof (Rle_abs (- snd a)) as B. rewrite Rabs_Ropp in A, B. lra.
Qed.

Lemma border_found (a d : Pt) :
  0 < margin a -> TH <= margin a * reach d ->
  exists i p, border (Wray a d) (edge_index (arctan2 (snd d) (fst d) + PI)) = (i, Some p) /\
    (i < 4)%nat /\ on_ray a (padd a d) p /\ ray_intersection (Wray a d) (bb_edge i) = Some p.
Proof.
  intros Hm HT. pose proof (margin_facts a Hm) as (M1 & M2 & M3 & M4). pose proof Wpos. pose proof TH_pos.
  assert (Hd : d <> (0, 0)).
  { intros ->. unfold reach in HT. cbn [fst snd] in HT. rewrite Rabs_R0, Rmax_left in HT by lra. lra. }
  pose proof (edge_index_dir d Hd) as HE. pose proof (edge_index_lt (arctan2 (snd d) (fst d) + PI)) as HL.
  set (idx := edge_index (arctan2 (snd d) (fst d) + PI)) in *. clearbody idx.
  assert (Hmw : margin a <= W).
  { unfold margin. pose proof (Rabs_pos (fst a)). pose proof (Rmax_l (Rabs (fst a)) (Rabs (snd a))). lra. }
  assert (K : exists i p, border (Wray a d) idx = (i, Some p) /\ (i < 4)%nat /\ ray_intersection (Wray a d) (bb_edge i) = Some p).
  { unfold border.
    destruct (ray_intersection (Wray a d) (bb_edge idx)) as [p|] eqn:E1; [exists idx, p; auto|].
    destruct (ray_intersection (Wray a d) (bb_edge ((idx + 1) mod 4))) as [p|] eqn:E2.
    { exists ((idx + 1) mod 4)%nat, p. split; auto. split; [apply Nat.mod_upper_bound; lia|auto]. }
    destruct (ray_intersection (Wray a d) (bb_edge (((idx + 1) mod 4 + 2) mod 4))) as [p|] eqn:E3.
    { eexists _, p. split; [reflexivity|]. split; [apply Nat.mod_upper_bound; lia|auto]. }
    exfalso.
    destruct idx as [|[|[|[|]]]]; [| | | |lia]; cbn in E3; cbn in E1; cbn in E2.
    - (* bottom, then left *)
      destruct HE as [Hs Hab]. pose proof (Rle_abs (fst d)). pose proof (Rle_abs (- fst d)) as Q. rewrite Rabs_Ropp in Q.
      assert (HR : reach d = - snd d).
      { unfold reach. rewrite (Rabs_left (snd d)) by auto. apply Rmax_right; auto. }
      rewrite HR in HT.
      assert (HT1 : TH <= - snd d * (2 * W)) by nra.
      destruct (Rle_lt_dec (- W) (fst a + (W + snd a) / (- snd d) * fst d)) as [C|C];
        [apply (hit_bottom a d) in C; auto; lra|].
      destruct (fallback_num (- snd d) (- fst d) (W + snd a) (W + fst a) (margin a) (- snd d)) as [F1 F2]; auto; try lra.
      revert E3. apply hit_left; try lra.
      assert (0 <= (W + fst a) / - fst d) by (apply divpos; lra). nra.
    - (* right, then bottom *)
      destruct HE as [Hs Hab]. pose proof (Rle_abs (snd d)). pose proof (Rle_abs (- snd d)) as Q. rewrite Rabs_Ropp in Q.
      assert (HR : reach d = fst d).
      { unfold reach. rewrite (Rabs_pos_eq (fst d)) by lra. apply Rmax_left; auto. }
      rewrite HR in HT.
      assert (HT1 : TH <= fst d * (2 * W)) by nra.
      destruct (Rle_lt_dec (- W) (snd a + (W - fst a) / fst d * snd d)) as [C|C];
        [apply (hit_right a d) in C; auto; lra|].
      destruct (fallback_num (fst d) (- snd d) (W - fst a) (W + snd a) (margin a) (fst d)) as [F1 F2]; auto; try lra.
      revert E3. apply hit_bottom; try lra.
      assert (0 <= (W + snd a) / - snd d) by (apply divpos; lra). nra.
    - (* top, then left *)
      destruct HE as [Hs Hab]. pose proof (Rle_abs (fst d)). pose proof (Rle_abs (- fst d)) as Q. rewrite Rabs_Ropp in Q.
      assert (HR : reach d = snd d).
      { unfold reach. rewrite (Rabs_pos_eq (snd d)) by lra. apply Rmax_right; auto. }
      rewrite HR in HT.
      assert (HT1 : TH <= snd d * (2 * W)) by nra.
      destruct (Rle_lt_dec (- W) (fst a + (W - snd a) / snd d * fst d)) as [C|C];
        [apply (hit_top a d) in C; auto; lra|].
      destruct (fallback_num (snd d) (- fst d) (W - snd a) (W + fst a) (margin a) (snd d)) as [F1 F2]; auto; try lra.
      revert E2. apply hit_left; try lra.
      (* y on the left side is below the top *)
      assert (G : (W + fst a) / - fst d <= (W - snd a) / snd d).
      { assert (W + fst a < (W - snd a) / snd d * - fst d) by lra.
        apply Rmult_le_reg_r with (- fst d); [lra|].
        replace ((W + fst a) / - fst d * - fst d) with (W + fst a) by (field; lra). lra. }
      apply Rmult_le_compat_r with (r := snd d) in G; [|lra].
      replace ((W - snd a) / snd d * snd d) with (W - snd a) in G by (field; lra). lra.
    - (* left, then top *)
      destruct HE as [Hs Hab]. pose proof (Rle_abs (snd d)). pose proof (Rle_abs (- snd d)) as Q. rewrite Rabs_Ropp in Q.
      assert (HR : reach d = - fst d).
      { unfold reach. rewrite (Rabs_left (fst d)) by lra. apply Rmax_left; auto. }
      rewrite HR in HT.
      assert (HT1 : TH <= - fst d * (2 * W)) by nra.
      destruct (Rle_lt_dec (snd a + (W + fst a) / (- fst d) * snd d) W) as [C|C];
        [apply (hit_left a d) in C; auto; lra|].
      destruct (fallback_num (- fst d) (snd d) (W + fst a) (W - snd a) (margin a) (- fst d)) as [F1 F2]; auto; try lra.
      revert E3. apply hit_top; try lra.
      assert (G : (W - snd a) / snd d <= (W + fst a) / - fst d).
      { assert (W - snd a < (W + fst a) / - fst d * snd d) by lra.
        apply Rmult_le_reg_r with (snd d); [lra|].
        replace ((W - snd a) / snd d * snd d) with (W - snd a) by (field; lra). lra. }
      apply Rmult_le_compat_r with (r := - fst d) in G; [|lra].
      replace ((W + fst a) / - fst d * - fst d) with (W + fst a) in G by (field; lra). lra. }
  destruct K as (i & p & E & Hi & Hp). exists i, p. split; auto. split; auto. split; auto.
  apply ray_int_spec in Hp. tauto.
Qed.

Lemma corner_walk_ok i j : (i < 4)%nat -> (j < 4)%nat ->
  exists n, corner_walk 4 i j = Some (map (fun k => box_corner (i + k)) (seq 0 n)) /\ (1 <= n <= 4)%nat /\ ((i + n) mod 4 = j)%nat.
Proof.
  assert (E : forall x y : R, x = y -> x = y) by auto.
  intros Hi Hj.
  destruct i as [|[|[|[|]]]]; [| | | |lia]; (destruct j as [|[|[|[|]]]]; [| | | |lia]);
  (solve [exists 1%nat; split; [cbn; unfold bottom_right, top_right, top_left, bottom_left, bb_width; reflexivity|split; [lia|reflexivity]]
         |exists 2%nat; split; [cbn; unfold bottom_right, top_right, top_left, bottom_left, bb_width; reflexivity|split; [lia|reflexivity]]
         |exists 3%nat; split; [cbn; unfold bottom_right, top_right, top_left, bottom_left, bb_width; reflexivity|split; [lia|reflexivity]]
         |exists 4%nat; split; [cbn; unfold bottom_right, top_right, top_left, bottom_left, bb_width; reflexivity|split; [lia|reflexivity]]]).
Qed.
Lemma on_edge_side i q : (i < 4)%nat -> on_ray (p1 (bb_edge i)) (p2 (bb_edge i)) q -> on_side_line i q.
Proof.
  intros Hi (u & Hu & ->). destruct i as [|[|[|[|]]]]; [| | | |lia]; unfold bb_edge; edges; unfold on_side_line; cbn; unfold bb_width; ring.
Qed.

Lemma cone_polygon_total (c : cone R) :
  0 < margin (apex c) -> TH <= margin (apex c) * reach (dir1 c) -> TH <= margin (apex c) * reach (dir2 c) ->
  exists i1 q1 n i2 q2, cone_polygon c = Vertices ([apex c; q1] ++ map (fun k => box_corner (i1 + k)) (seq 0 n) ++ [q2]) /\
    on_ray (apex c) (vadd (apex c) (dir1 c)) q1 /\ on_side_line i1 q1 /\
    on_ray (apex c) (vadd (apex c) (dir2 c)) q2 /\ on_side_line i2 q2 /\
    (i1 < 4)%nat /\ (i2 < 4)%nat /\ (n <= 4)%nat /\ ((i1 + n) mod 4 = i2)%nat /\ (n = 0%nat <-> is_convex c = true /\ i1 = i2).
Proof.
  intros Hm H1 H2.
  destruct (border_found _ _ Hm H1) as (i1 & b1 & E1 & L1 & R1 & S1).
  destruct (border_found _ _ Hm H2) as (i2 & b2 & E2 & L2 & R2 & S2).
  apply ray_int_spec in S1, S2. destruct S1 as (_ & _ & S1), S2 as (_ & _ & S2).
  apply (on_edge_side i1 b1 L1) in S1. apply (on_edge_side i2 b2 L2) in S2.
  unfold cone_polygon. unfold Wray in E1, E2. rewrite E1, E2.
  destruct (is_convex c && (i1 =? i2)%nat) eqn:B; cbn [negb].
  - apply andb_prop in B. destruct B as [B1 B2]. apply Nat.eqb_eq in B2. subst i2.
    exists i1, b1, 0%nat, i1, b2. split; [reflexivity|]. split; [exact R1|]. split; [exact S1|]. split; [exact R2|]. split; [exact S2|].
    split; [exact L1|]. split; [exact L1|]. split; [lia|]. split; [rewrite Nat.add_0_r; apply Nat.mod_small; exact L1|tauto].
  - destruct (corner_walk_ok i1 i2 L1 L2) as (n & El & Hl & Hq). rewrite El.
    exists i1, b1, n, i2, b2. split; [reflexivity|]. split; [exact R1|]. split; [exact S1|]. split; [exact R2|]. split; [exact S2|].
    split; [exact L1|]. split; [exact L2|]. split; [lia|]. split; [exact Hq|]. split; [lia|]. intros [X Y]. rewrite X in B. cbn in B.
    apply Nat.eqb_neq in B. contradiction.
Qed.

(** directions clear of the diagonals: the border point is where the ray leaves the box *)
Lemma border_on_box (a d : Pt) :
  0 < margin a -> TH <= margin a * reach d ->
  (Rabs (fst d) * (2 * W - margin a) <= Rabs (snd d) * margin a \/ Rabs (snd d) * (2 * W - margin a) <= Rabs (fst d) * margin a) ->
  exists i p, border (Wray a d) (edge_index (arctan2 (snd d) (fst d) + PI)) = (i, Some p) /\ on_ray a (padd a d) p /\ on_box p.
Proof.
  intros Hm HT Hc. destruct (border_found a d Hm HT) as (i & p & E & Hi & R & S).
  exists i, p. split; [exact E|]. split; [exact R|].
  pose proof (margin_facts a Hm) as (M1 & M2 & M3 & M4). pose proof Wpos. pose proof TH_pos.
  assert (Hd : d <> (0, 0)).
  { intros ->. unfold reach in HT. cbn [fst snd] in HT. rewrite Rabs_R0, Rmax_left in HT by lra. lra. }
  pose proof (edge_index_dir d Hd) as HE.
  assert (Hmw : margin a <= W).
  { unfold margin. pose proof (Rabs_pos (fst a)). pose proof (Rmax_l (Rabs (fst a)) (Rabs (snd a))). lra. }
  assert (BOX : forall x y, (Rabs x = W /\ Rabs y <= W) \/ (Rabs y = W /\ Rabs x <= W) -> on_box (x, y)).
  { intros x y [[X Y]|[Y X]]; unfold on_box, max_coord; cbn [fst snd]; change 1000000 with W; [rewrite Rmax_left|rewrite Rmax_right]; lra. }
  (* the hit on the first side is inside that side, so it is the one returned *)
  assert (FIRST : forall e t u, bb_edge (edge_index (arctan2 (snd d) (fst d) + PI)) = e ->
     TH <= Rabs (ldet (Wray a d) e) -> 0 <= t -> 0 <= u -> vadd a (smul t d) = along (p1 e) (p2 e) u -> p = vadd a (smul t d)).
  { intros e t u He Hdet Ht Hu Hq.
    assert (K : ray_intersection (Wray a d) e = Some (vadd a (smul t d))).
    { apply ray_int_spec. split; [exact Hdet|]. split; [exists t; split; [exact Ht|]; unfold Wray, along; cbn [p1 p2]; rewrite vsub_padd; reflexivity|exists u; auto]. }
    unfold border in E. rewrite He, K in E. injection E as _ <-. reflexivity. }
  destruct a as [ax ay], d as [dx dy]. cbn [fst snd] in *.
  assert (SIDE : forall g h A B, 0 < g -> 0 < A -> A <= 2 * W - margin (ax, ay) -> Rabs B <= W - margin (ax, ay) ->
     Rabs h * (2 * W - margin (ax, ay)) <= g * margin (ax, ay) -> Rabs (B + A / g * h) <= W).
  { intros g h A B Hg HA HA2 HB Hh. eapply Rle_trans; [apply Rabs_triang|].
    assert (Q : Rabs (A / g * h) <= margin (ax, ay)).
    { rewrite Rabs_mult, (Rabs_pos_eq (A / g)) by (apply divpos; lra).
      apply Rmult_le_reg_r with g; [lra|]. replace (A / g * Rabs h * g) with (A * Rabs h) by (field; lra).
      pose proof (Rabs_pos h). nra. }
    lra. }
  assert (AX : Rabs ax <= W - margin (ax, ay)) by (apply Rabs_le; lra).
  assert (AY : Rabs ay <= W - margin (ax, ay)) by (apply Rabs_le; lra).
  assert (STEEP : forall g h, 0 < g -> Rabs h <= g -> (Rabs h * (2 * W - margin (ax, ay)) <= g * margin (ax, ay) \/ g * (2 * W - margin (ax, ay)) <= Rabs h * margin (ax, ay)) ->
     Rabs h * (2 * W - margin (ax, ay)) <= g * margin (ax, ay)).
  { intros g h Hg Hh [C|C]; [exact C|]. pose proof (Rabs_pos h). nra. }
  destruct (edge_index (arctan2 dy dx + PI)) as [|[|[|]]] eqn:EI.
  - destruct HE as [Hs Hab]. rewrite (Rabs_left dy) in Hc by lra.
    assert (C : Rabs dx * (2 * W - margin (ax, ay)) <= - dy * margin (ax, ay)) by (apply STEEP; [lra|lra|tauto]).
    assert (HR : reach (dx, dy) = - dy) by (unfold reach; cbn [fst snd]; rewrite (Rabs_left dy) by lra; apply Rmax_right; lra).
    assert (B := SIDE (- dy) dx (W + ay) ax ltac:(lra) ltac:(lra) ltac:(lra) AX C).
    assert (P := FIRST bottom_line ((W + ay) / - dy) ((ax + (W + ay) / - dy * dx + W) / (2 * W)) eq_refl).
    assert (B2 : - W <= ax + (W + ay) / - dy * dx) by (revert B; unfold Rabs; destruct (Rcase_abs _); lra).
    rewrite P.
    + unfold vadd, smul. cbn [fst snd]. apply BOX. right. split; [|exact B].
      replace (ay + (W + ay) / - dy * dy) with (- W) by (field; lra). rewrite Rabs_Ropp. apply Rabs_pos_eq. lra.
    + rewrite det_wray. edges. unv. rewrite HR in HT. rewrite Rabs_pos_eq; nra.
    + apply divpos; lra.
    + apply divpos; lra.
    + edges. unv. apply pair_eq; field; lra.
  - destruct HE as [Hs Hab]. rewrite (Rabs_pos_eq dx) in Hc by lra.
    assert (C : Rabs dy * (2 * W - margin (ax, ay)) <= dx * margin (ax, ay)) by (apply STEEP; [lra|lra|tauto]).
    assert (HR : reach (dx, dy) = dx) by (unfold reach; cbn [fst snd]; rewrite (Rabs_pos_eq dx) by lra; apply Rmax_left; lra).
    assert (B := SIDE dx dy (W - ax) ay ltac:(lra) ltac:(lra) ltac:(lra) AY C).
    assert (P := FIRST right_line ((W - ax) / dx) ((ay + (W - ax) / dx * dy + W) / (2 * W)) eq_refl).
    assert (B2 : - W <= ay + (W - ax) / dx * dy) by (revert B; unfold Rabs; destruct (Rcase_abs _); lra).
    rewrite P.
    + unfold vadd, smul. cbn [fst snd]. apply BOX. left. split; [|exact B].
      replace (ax + (W - ax) / dx * dx) with W by (field; lra). apply Rabs_pos_eq. lra.
    + rewrite det_wray. edges. unv. rewrite HR in HT. rewrite Rabs_pos_eq; nra.
    + apply divpos; lra.
    + apply divpos; lra.
    + edges. unv. apply pair_eq; field; lra.
  - destruct HE as [Hs Hab]. rewrite (Rabs_pos_eq dy) in Hc by lra.
    assert (C : Rabs dx * (2 * W - margin (ax, ay)) <= dy * margin (ax, ay)) by (apply STEEP; [lra|lra|tauto]).
    assert (HR : reach (dx, dy) = dy) by (unfold reach; cbn [fst snd]; rewrite (Rabs_pos_eq dy) by lra; apply Rmax_right; lra).
    assert (B := SIDE dy dx (W - ay) ax ltac:(lra) ltac:(lra) ltac:(lra) AX C).
    assert (P := FIRST top_line ((W - ay) / dy) ((ax + (W - ay) / dy * dx + W) / (2 * W)) eq_refl).
    assert (B2 : - W <= ax + (W - ay) / dy * dx) by (revert B; unfold Rabs; destruct (Rcase_abs _); lra).
    rewrite P.
    + unfold vadd, smul. cbn [fst snd]. apply BOX. right. split; [|exact B].
      replace (ay + (W - ay) / dy * dy) with W by (field; lra). apply Rabs_pos_eq. lra.
    + rewrite det_wray. edges. unv. rewrite HR in HT. rewrite Rabs_left; nra.
    + apply divpos; lra.
    + apply divpos; lra.
    + edges. unv. apply pair_eq; field; lra.
  - destruct HE as [Hs Hab]. rewrite (Rabs_left dx) in Hc by lra.
    assert (C : Rabs dy * (2 * W - margin (ax, ay)) <= - dx * margin (ax, ay)) by (apply STEEP; [lra|lra|tauto]).
    assert (HR : reach (dx, dy) = - dx) by (unfold reach; cbn [fst snd]; rewrite (Rabs_left dx) by lra; apply Rmax_left; lra).
    assert (B := SIDE (- dx) dy (W + ax) ay ltac:(lra) ltac:(lra) ltac:(lra) AY C).
    assert (P := FIRST left_line ((W + ax) / - dx) ((W - (ay + (W + ax) / - dx * dy)) / (2 * W)) eq_refl).
    assert (B2 : ay + (W + ax) / - dx * dy <= W) by (revert B; unfold Rabs; destruct (Rcase_abs _); lra).
    rewrite P.
    + unfold vadd, smul. cbn [fst snd]. apply BOX. left. split; [|exact B].
      replace (ax + (W + ax) / - dx * dx) with (- W) by (field; lra). rewrite Rabs_Ropp. apply Rabs_pos_eq. lra.
    + rewrite det_wray. edges. unv. rewrite HR in HT. rewrite Rabs_pos_eq; nra.
    + apply divpos; lra.
    + apply divpos; lra.
    + edges. unv. apply pair_eq; field; lra.
Qed.

Lemma ray_none (s o : line R) : Rabs (ldet s o) < TH -> ray_intersection s o = None.
Proof.
  intros H. rewrite ray_int_eq. destruct (Rltb_spec (Rabs (ldet s o)) TH); [reflexivity|lra].
Qed.
Lemma cone_polygon_short (c : cone R) : reach (dir1 c) * (2 * W) < TH -> cone_polygon c = AttributeError.
Proof.
  intros H. pose proof Wpos.
  assert (N : forall i, ray_intersection (Wray (apex c) (dir1 c)) (bb_edge i) = None).
  { intros i. apply ray_none. rewrite det_wray. eapply Rle_lt_trans; [|exact H]. unfold reach.
    pose proof (Rmax_l (Rabs (fst (dir1 c))) (Rabs (snd (dir1 c)))). pose proof (Rmax_r (Rabs (fst (dir1 c))) (Rabs (snd (dir1 c)))).
    assert (A : forall x y z, Rabs (x * y) = Rabs x * y -> Rabs x <= z -> 0 <= y -> Rabs (x * y) <= z * y) by (intros; nra).
    assert (B : forall x, Rabs (x * (2 * W)) = Rabs x * (2 * W)) by (intros; rewrite Rabs_mult, (Rabs_pos_eq (2 * W)); lra).
    destruct i as [|[|[|]]]; unfold bb_edge; edges; unv.
    - replace (_ - _) with (- (snd (dir1 c) * (2 * W))) by ring. rewrite Rabs_Ropp. apply A; auto; lra.
    - replace (_ - _) with (fst (dir1 c) * (2 * W)) by ring. apply A; auto; lra.
    - replace (_ - _) with (- (snd (dir1 c) * (2 * W))) by ring. rewrite Rabs_Ropp. apply A; auto; lra.
    - replace (_ - _) with (- (fst (dir1 c) * (2 * W))) by ring. rewrite Rabs_Ropp. apply A; auto; lra. }
  unfold cone_polygon. unfold Wray in N. unfold border at 1. rewrite !N.
  destruct (border _ _). reflexivity.
Qed.

Lemma cone_polygon_on_box (c : cone R) :
  let m := margin (apex c) in
  let clear d := Rabs (fst d) * (2000000 - m) <= Rabs (snd d) * m \/ Rabs (snd d) * (2000000 - m) <= Rabs (fst d) * m in
  0 < m -> TH <= m * reach (dir1 c) -> TH <= m * reach (dir2 c) -> clear (dir1 c) -> clear (dir2 c) ->
  exists q1 l q2, cone_polygon c = Vertices ([apex c; q1] ++ l ++ [q2]) /\ on_box q1 /\ on_box q2 /\
    on_ray (apex c) (vadd (apex c) (dir1 c)) q1 /\ on_ray (apex c) (vadd (apex c) (dir2 c)) q2.
Proof.
  cbv zeta. intros Hm H1 H2 C1 C2. assert (W2 : 2 * W = 2000000) by (unfold bb_width; lra). rewrite <- W2 in C1, C2.
  destruct (border_on_box _ _ Hm H1 C1) as (i1 & b1 & E1 & R1 & B1). destruct (border_on_box _ _ Hm H2 C2) as (i2 & b2 & E2 & R2 & B2).
  destruct (border_found _ _ Hm H1) as (i1' & b1' & E1' & L1 & _). rewrite E1 in E1'. injection E1' as <- <-.
  destruct (border_found _ _ Hm H2) as (i2' & b2' & E2' & L2 & _). rewrite E2 in E2'. injection E2' as <- <-.
  unfold cone_polygon. unfold Wray in E1, E2. rewrite E1, E2.
  destruct (negb (is_convex c && (i1 =? i2)%nat)).
  - destruct (corner_walk_ok i1 i2 L1 L2) as (n & El & _). rewrite El. eexists b1, _, b2. split; [reflexivity|]. auto.
  - exists b1, [], b2. split; [reflexivity|]. auto.
Qed.
