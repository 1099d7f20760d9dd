(** Lemmas about the vertex table, facing edges and boundary mapping of starshaped polygons. *)
From Coq Require Import Reals Lra Lia Psatz List Bool Arith Permutation ZArith.
From Verif Require Import Num Spec M_Cg M_ConePolygon M_Motion M_Obstacle M_Ellipse M_Polygon M_StarPolygon L_Geom L_Polar L_Cg L_Atan2 L_Cone L_Obstacle L_Ellipse L_Polygon.
Import ListNotations.
Local Open Scope R_scope.
Local Arguments affine_transform : simpl never.

(** *** ordered pairs *)
Lemma fop_map {A B} (g : A -> B) (P : B -> B -> Prop) l : ForallOrdPairs P (map g l) <-> ForallOrdPairs (fun a b => P (g a) (g b)) l.
Proof.
  induction l as [|a l IH]; cbn [map]; split; intros H; inversion H; subst; constructor; try (apply IH; assumption).
  - rewrite Forall_map in H2. exact H2.
  - rewrite Forall_map. exact H2.
Qed.
Lemma fop_impl {A} (P Q : A -> A -> Prop) l : (forall a b, In a l -> In b l -> P a b -> Q a b) -> ForallOrdPairs P l -> ForallOrdPairs Q l.
Proof.
  intros I H. induction H as [|a l F H IH]; constructor.
  - rewrite Forall_forall in *. intros b Hb. apply I; [left; reflexivity|right; exact Hb|apply F; exact Hb].
  - apply IH. intros; apply I; try (right; assumption). assumption.
Qed.
Lemma fop_app {A} (P : A -> A -> Prop) l l' : ForallOrdPairs P l -> ForallOrdPairs P l' -> (forall a b, In a l -> In b l' -> P a b) -> ForallOrdPairs P (l ++ l').
Proof.
  intros H H' X. induction H as [|a l F H IH]; cbn [app]; [exact H'|]. constructor.
  - rewrite Forall_forall in *. intros b Hb. apply in_app_or in Hb as [Hb|Hb]; [apply F; exact Hb|apply X; [left; reflexivity|exact Hb]].
  - apply IH. intros; apply X; [right; assumption|assumption].
Qed.
Lemma fop_nth (P : R -> R -> Prop) l i j : ForallOrdPairs P l -> (i < j)%nat -> (j < length l)%nat -> P (nth i l 0) (nth j l 0).
Proof.
  intros H. revert i j. induction H as [|a l F H IH]; intros i j I J; [cbn in J; lia|].
  destruct i, j as [|j]; try lia; cbn [nth]; cbn in J.
  - rewrite Forall_forall in F. apply F, nth_In. lia.
  - apply IH; lia.
Qed.
(** a sorted arrangement is unique when some arrangement is strictly sorted *)
Lemma sorted_unique {A} (f : A -> R) l1 l2 : ascending f l1 -> strictly_ascending f l2 -> Permutation l1 l2 -> l1 = l2.
Proof.
  intros H1 H2. revert l1 H1. induction H2 as [|b l2 F2 H2 IH]; intros l1 H1 P.
  - apply Permutation_sym, Permutation_nil in P. exact P.
  - destruct l1 as [|a l1]; [apply Permutation_nil in P; discriminate|]. inversion H1 as [|? ? F1 H1']; subst.
    assert (E : a = b).
    { assert (Ia : In a (b :: l2)) by (apply (Permutation_in _ P); left; reflexivity).
      assert (Ib : In b (a :: l1)) by (apply (Permutation_in _ (Permutation_sym P)); left; reflexivity).
      destruct Ia as [|Ia]; [congruence|]. destruct Ib as [|Ib]; [congruence|].
      rewrite Forall_forall in F1, F2. specialize (F1 b Ib). specialize (F2 a Ia). cbn in F1, F2. lra. }
    subst b. f_equal. apply IH; [exact H1'|]. apply Permutation_cons_inv in P. exact P.
Qed.
Lemma map_nth_seq {A} (l : list A) d : map (fun i => nth i l d) (seq 0 (length l)) = l.
Proof.
  induction l as [|a l IH]; [reflexivity|]. cbn [length seq map nth]. f_equal. rewrite <- seq_shift, map_map. exact IH.
Qed.

(** *** the table *)
Lemma table_angles argsort xr v : (forall l, sorts l (argsort l)) ->
  Permutation v (fst (update_angles argsort xr v)) /\
  ascending (vertex_angle xr) (fst (update_angles argsort xr v)) /\
  (v <> [] -> snd (update_angles argsort xr v) = map (vertex_angle xr) (fst (update_angles argsort xr v)) ++ [vertex_angle xr (nth 0 (fst (update_angles argsort xr v)) (0, 0)) + 2 * PI]).
Proof.
  intros A. unfold update_angles. cbn [fst snd]. set (phi := map (vertex_angle xr) v). destruct (A phi) as [P S].
  set (ids := argsort phi) in *. assert (LP : length phi = length v) by apply map_length. rewrite LP in P.
  assert (IB : forall i, In i ids -> (i < length v)%nat).
  { intros i Hi. apply (Permutation_in _ P) in Hi. apply in_seq in Hi. lia. }
  assert (E : map (fun i => nth i phi 0) ids = map (vertex_angle xr) (map (fun i => nth i v (0, 0)) ids)).
  { rewrite map_map. apply map_ext_in. intros i Hi. unfold phi. rewrite nth_indep with (d' := vertex_angle xr (0, 0)) by (rewrite map_length; apply IB; exact Hi). apply map_nth. }
  split; [|split].
  - rewrite <- (map_nth_seq v (0, 0)) at 1. apply Permutation_map, Permutation_sym, P.
  - unfold ascending in *. apply fop_map. eapply fop_impl; [|exact S]. intros a b Ia Ib H. cbn beta in H. unfold phi in H.
    rewrite !(nth_indep _ 0 (vertex_angle xr (0, 0))) in H by (rewrite map_length; apply IB; assumption). rewrite !map_nth in H. exact H.
  - intros NE. rewrite E. f_equal. f_equal. f_equal.
    destruct ids as [|i ids'] eqn:EI; [|reflexivity]. exfalso. apply Permutation_length in P. rewrite seq_length in P. destruct v; [congruence|discriminate].
Qed.
Lemma vertex_angle_sees xr p : p <> xr -> sees xr p (vertex_angle xr p) /\ - PI < vertex_angle xr p <= PI.
Proof.
  intros N. split; [|apply arctan2_bound]. exists (norm (fst p - fst xr, snd p - snd xr)). split; [|unfold vertex_angle, vsub; apply arctan2_polar].
  apply norm_pos. intros Z. apply N. injection Z as Z1 Z2. destruct p, xr; cbn [fst snd] in *. apply pair_eq; lra.
Qed.
Lemma angle_unique xr p t : sees xr p t -> - PI < t <= PI -> vertex_angle xr p = t.
Proof.
  intros S B. assert (N : p <> xr).
  { intros ->. apply sees_ne in S. apply S. destruct xr; unfold vsub; cbn [fst snd]. apply pair_eq; ring. }
  destruct (vertex_angle_sees xr p N) as [S' B']. destruct (sees_mod _ _ _ _ S' S) as (k & K).
  assert (Y : vertex_angle xr p - t = 2 * PI * IZR k) by lra. apply z_unique in Y; lra.
Qed.

(** *** facing edge *)
Lemma first_above_spec a l : match first_above a l with
  | Some i => (i < length l)%nat /\ a < nth i l 0 /\ forall j, (j < i)%nat -> nth j l 0 <= a
  | None => forall t, In t l -> t <= a end.
Proof.
  induction l as [|t l IH]; cbn [first_above]; [intros ? []|]. destruct (Rltb_spec a t) as [L|L].
  - cbn [nth length]. split; [lia|]. split; [exact L|]. intros; lia.
  - destruct (first_above a l) as [i|]; cbn [option_map].
    + destruct IH as (A & B & C). cbn [length nth]. split; [lia|]. split; [exact B|]. intros [|j] Hj; [lra|apply C; lia].
    + intros y [<-|Hy]; [lra|apply IH; exact Hy].
Qed.
Lemma polar_shift_Z r t k : polar r (t + 2 * PI * IZR k) = polar r t.
Proof.
  assert (N : forall n t, polar r (t + 2 * PI * INR n) = polar r t).
  { induction n as [|n IH]; intros u; [cbn [INR]; f_equal; ring|]. rewrite S_INR. replace (u + 2 * PI * (INR n + 1)) with ((u + 2 * PI * INR n) + 2 * PI) by ring. rewrite polar_shift. apply IH. }
  destruct (Z_le_gt_dec 0 k) as [L|L].
  - rewrite <- (Z2Nat.id k L), <- INR_IZR_INZ. apply N.
  - rewrite <- (N (Z.to_nat (- k)) (t + 2 * PI * IZR k)). f_equal. rewrite INR_IZR_INZ, Z2Nat.id by lia. rewrite opp_IZR. ring.
Qed.

(** *** shapely intersections *)
Lemma proper_two l : proper_chain l -> exists p q, on_chain l p /\ on_chain l q /\ p <> q.
Proof.
  intros [L D]. destruct l as [|a [|b l]]; cbn in L; try lia. exists a, b.
  assert (I : In (a, b) (combine (a :: b :: l) (tl (a :: b :: l)))) by (left; reflexivity).
  split; [exists a, b; split; [exact I|exists 0; split; [lra|destruct a, b; unfold along, vadd, smul, vsub; cbn [fst snd]; apply pair_eq; ring]]|].
  split; [exists a, b; split; [exact I|exists 1; split; [lra|destruct a, b; unfold along, vadd, smul, vsub; cbn [fst snd]; apply pair_eq; ring]]|].
  apply D. exact I.
Qed.
Lemma describes_one g (A : Pt -> Prop) b : describes g A -> (forall p, A p <-> p = b) -> g = GPoint b.
Proof.
  intros D H. assert (ONE : forall p q, A p -> A q -> p = q) by (intros p q P Q; apply H in P, Q; congruence).
  assert (CH : forall l, proper_chain l -> (forall p, on_chain l p -> A p) -> False).
  { intros l Pl I. destruct (proper_two l Pl) as (p & q & P & Q & N). apply N, ONE; auto. }
  destruct g; cbn [describes] in D.
  - exfalso. apply (D b). apply H. reflexivity.
  - f_equal. apply H, D. reflexivity.
  - exfalso. destruct D as (L & ND & I). destruct l as [|p [|q l]]; cbn in L; try lia. inversion ND as [|? ? NI _]; subst. apply NI. left. apply ONE; apply I; cbn; auto.
  - exfalso. destruct D as (P & I). apply (CH l P). intros p Hp. apply I. exact Hp.
  - exfalso. destruct D as (NE & F & I). destruct ll as [|l ll]; [congruence|]. inversion F; subst. apply (CH l); [assumption|]. intros p Hp. apply I. exists l. split; [left; reflexivity|exact Hp].
  - exfalso. destruct D as (_ & NE & F & I). destruct ll as [|l ll]; [congruence|]. inversion F; subst. apply (CH l); [assumption|]. intros p Hp. apply I. right. exists l. split; [left; reflexivity|exact Hp].
Qed.
Lemma describes_none g (A : Pt -> Prop) : describes g A -> (forall p, ~ A p) -> g = GEmpty.
Proof.
  intros D H.
  assert (CH : forall l, proper_chain l -> (forall p, on_chain l p -> A p) -> False).
  { intros l Pl I. destruct (proper_two l Pl) as (p & q & P & _). apply (H p), I, P. }
  destruct g; cbn [describes] in D.
  - reflexivity.
  - exfalso. apply (H p), D. reflexivity.
  - exfalso. destruct D as (L & ND & I). destruct l as [|p l]; cbn in L; [lia|]. apply (H p), I. left. reflexivity.
  - exfalso. destruct D as (P & I). apply (CH l P). intros p Hp. apply I. exact Hp.
  - exfalso. destruct D as (NE & F & I). destruct ll as [|l ll]; [congruence|]. inversion F; subst. apply (CH l); [assumption|]. intros p Hp. apply I. exists l. split; [left; reflexivity|exact Hp].
  - exfalso. destruct D as (_ & NE & F & I). destruct ll as [|l ll]; [congruence|]. inversion F; subst. apply (CH l); [assumption|]. intros p Hp. apply I. right. exists l. split; [left; reflexivity|exact Hp].
Qed.

(** *** rays *)
Lemma box_reach (v : list Pt) x y : within_box v x -> within_box v y -> dist x y <= width v + height v /\ dist x y ^ 2 <= width v ^ 2 + height v ^ 2 /\ 0 <= width v /\ 0 <= height v.
Proof.
  intros ((a & Ia & A) & (b & Ib & B) & (c & Ic & C) & (d & Id & D)) ((a' & Ia' & A') & (b' & Ib' & B') & (c' & Ic' & C') & (d' & Id' & D')).
  assert (MI : forall l e, In e l -> lmin l <= e).
  { intros l e. destruct l as [|z l]; [intros []|]. cbn [lmin]. revert z e. induction l as [|g l IH]; intros z e [->|H]; cbn [fold_left]; [lra|destruct H| |].
    - eapply Rle_trans; [apply IH; left; reflexivity|apply Rmin_l].
    - destruct H as [->|H]; [eapply Rle_trans; [apply IH; left; reflexivity|apply Rmin_r]|apply IH; right; exact H]. }
  assert (MA : forall l e, In e l -> e <= lmax l).
  { intros l e. destruct l as [|z l]; [intros []|]. cbn [lmax]. revert z e. induction l as [|g l IH]; intros z e [->|H]; cbn [fold_left]; [lra|destruct H| |].
    - eapply Rle_trans; [|apply IH; left; reflexivity]. apply Rmax_l.
    - destruct H as [->|H]; [eapply Rle_trans; [|apply IH; left; reflexivity]; apply Rmax_r|apply IH; right; exact H]. }
  unfold width, height.
  pose proof (MI _ _ (in_map fst _ _ Ia)). pose proof (MI _ _ (in_map fst _ _ Ia')). pose proof (MA _ _ (in_map fst _ _ Ib)). pose proof (MA _ _ (in_map fst _ _ Ib')).
  pose proof (MI _ _ (in_map snd _ _ Ic)). pose proof (MI _ _ (in_map snd _ _ Ic')). pose proof (MA _ _ (in_map snd _ _ Id)). pose proof (MA _ _ (in_map snd _ _ Id')).
  set (x0 := lmin (map fst v)) in *. set (x1 := lmax (map fst v)) in *. set (y0 := lmin (map snd v)) in *. set (y1 := lmax (map snd v)) in *.
  assert (W : - (x1 - x0) <= fst x - fst y <= x1 - x0) by lra. assert (Hh : - (y1 - y0) <= snd x - snd y <= y1 - y0) by lra.
  assert (SQ : dist x y ^ 2 = (fst x - fst y) ^ 2 + (snd x - snd y) ^ 2).
  { unfold dist, norm, norm2, dot, vsub. cbn [fst snd]. rewrite pow2_sqrt; [ring|apply Rplus_le_le_0_compat; apply Rle_0_sqr]. }
  assert (DN : 0 <= dist x y) by apply sqrt_pos.
  assert (SB : dist x y ^ 2 <= (x1 - x0) ^ 2 + (y1 - y0) ^ 2) by (rewrite SQ; nra).
  split; [|split; [exact SB|lra]]. apply Rsqr_incr_0_var; [|lra]. unfold Rsqr. nra.
Qed.
(** the probe segment from [x0] in the direction of [x] *)
Lemma probe_points x0 x L p : x <> x0 -> 0 <= L ->
  on_seg x0 (vadd x0 (smul L (smul (/ dist x x0) (vsub x x0)))) p <-> exists k, 0 <= k <= L / dist x x0 /\ p = along x0 x k.
Proof.
  intros N HL. assert (DP : 0 < dist x x0).
  { unfold dist. apply norm_pos. intros Z. apply N. unfold vsub in Z. injection Z as Z1 Z2. destruct x, x0; cbn [fst snd] in *. apply pair_eq; lra. }
  split.
  - intros (t & Ht & ->). exists (t * (L / dist x x0)). assert (0 <= L / dist x x0) by (apply Rmult_le_pos; [lra|left; apply Rinv_0_lt_compat; lra]). split; [nra|].
    destruct x, x0. unfold along, vadd, smul, vsub. cbn [fst snd]. apply pair_eq; field; exact (Rgt_not_eq _ _ DP).
  - intros (k & Hk & ->). destruct (Req_dec L 0) as [Z|Z].
    + exists 0. split; [lra|]. assert (k = 0) by (subst L; unfold Rdiv in Hk; lra). subst k. destruct x, x0. unfold along, vadd, smul, vsub. cbn [fst snd]. apply pair_eq; ring.
    + exists (k * dist x x0 / L). split.
      * split; [apply Rmult_le_pos; [nra|left; apply Rinv_0_lt_compat; lra]|]. apply Rmult_le_reg_r with L; [lra|]. unfold Rdiv. rewrite Rmult_assoc, Rinv_l by lra.
        assert (k * dist x x0 <= L); [|lra]. apply Rle_trans with (L / dist x x0 * dist x x0); [apply Rmult_le_compat_r; lra|]. right. field. lra.
      * destruct x, x0. unfold along, vadd, smul, vsub. cbn [fst snd]. apply pair_eq; (field; split; [exact (Rgt_not_eq _ _ DP)|exact Z]).
Qed.
Lemma dist_along x0 x k : 0 <= k -> dist (along x0 x k) x0 = k * dist x x0.
Proof.
  intros K. unfold dist. replace (vsub (along x0 x k) x0) with (smul k (vsub x x0)) by (destruct x, x0; unfold along, vadd, smul, vsub; cbn [fst snd]; apply pair_eq; ring).
  rewrite norm_smul, Rabs_right by lra. reflexivity.
Qed.
