(** The tests and constructions of the kernel scan do not depend on the pose. *)
From Coq Require Import QArith Qreals Reals Lra Psatz List Bool Arith ZArith Lia.
From Verif Require Import Num Spec M_Cg M_Motion M_Obstacle M_Polygon M_PolHull M_Kernel L_Geom L_Cg W_PolTransfer L_KernelSim.
Import ListNotations.
Local Open Scope R_scope.

Section Move.
  Variables (r : R) (t : RPt).
  Let f : RPt -> RPt := place r t.

  Lemma cs1 : cos r * cos r + sin r * sin r = 1.
  Proof. pose proof (sin2_cos2 r) as H. unfold Rsqr in H. lra. Qed.
  Lemma move_ov (a b c : RPt) : orientation_val (f a) (f b) (f c) = orientation_val a b c.
  Proof.
    unfold orientation_val, f, place, rotv, vadd. nR. cbn [fst snd]. destruct a as [a1 a2], b as [b1 b2], c as [c1 c2]. cbn [fst snd].
    pose proof cs1 as E. set (C := cos r) in *. set (D := sin r) in *.
    transitivity ((C * C + D * D) * ((b2 - a2) * (c1 - b1) - (b1 - a1) * (c2 - b2))); [ring|rewrite E; ring].
  Qed.
  Lemma move_cw a b c : is_cw (f a) (f b) (f c) = is_cw a b c.
  Proof. unfold is_cw. now rewrite move_ov. Qed.
  Lemma move_ccw a b c : is_ccw (f a) (f b) (f c) = is_ccw a b c.
  Proof. unfold is_ccw. now rewrite move_ov. Qed.
  Lemma move_col a b c : is_collinear (f a) (f b) (f c) = is_collinear a b c.
  Proof. unfold is_collinear. now rewrite move_ov. Qed.
  Lemma move_sub (a b : RPt) : psub (f a) (f b) = rotv r (psub a b).
  Proof. unfold psub, f, place, rotv, vadd. nR. cbn [fst snd]. f_equal; ring. Qed.
  Lemma rotv_norm (w : RPt) : np_norm (rotv r w) = np_norm w.
  Proof.
    unfold np_norm, rotv. cbn [fst snd]. f_equal. destruct w as [x y]. cbn [fst snd].
    pose proof cs1 as E. set (C := cos r) in *. set (D := sin r) in *.
    transitivity ((C * C + D * D) * (x * x + y * y)); [ring|rewrite E; ring].
  Qed.
  Lemma move_between a b c : is_between (f a) (f b) (f c) = is_between a b c.
  Proof. unfold is_between. now rewrite !move_sub, !rotv_norm. Qed.
  Lemma move_intersect a b c d : intersect (f a) (f b) (f c) (f d) = intersect a b c d.
  Proof. unfold intersect. now rewrite !move_ccw. Qed.
  Lemma move_crossing (a b c d : RPt) : crossing_denom a b c d <> 0 ->
    crossing_point (f a) (f b) (f c) (f d) = f (crossing_point a b c d).
  Proof.
    intros H.
    assert (E1 : crossing_denom (f a) (f b) (f c) (f d) = crossing_denom a b c d).
    { unfold crossing_denom, f, place, rotv, vadd. nR. cbn [fst snd]. destruct a as [a1 a2], b as [b1 b2], c as [c1 c2], d as [d1 d2]. cbn [fst snd].
      pose proof cs1 as E. set (C := cos r) in *. set (D := sin r) in *.
      transitivity ((C * C + D * D) * (- (b2 - a2) * (d1 - c1) + (b1 - a1) * (d2 - c2))); [ring|rewrite E; ring]. }
    assert (E2 : crossing_num (f a) (f b) (f c) = crossing_num a b c).
    { unfold crossing_num, f, place, rotv, vadd. nR. cbn [fst snd]. destruct a as [a1 a2], b as [b1 b2], c as [c1 c2]. cbn [fst snd].
      pose proof cs1 as E. set (C := cos r) in *. set (D := sin r) in *.
      transitivity ((C * C + D * D) * (- (b2 - a2) * (a1 - c1) + (b1 - a1) * (a2 - c2))); [ring|rewrite E; ring]. }
    unfold crossing_point. rewrite E1, E2. set (k := crossing_num a b c) in *. set (m := crossing_denom a b c d) in *.
    unfold f, place, rotv, vadd. nR. cbn [fst snd]. f_equal; field; exact H.
  Qed.
  Lemma move_gi a b c d : get_intersection (f a) (f b) (f c) (f d) = option_map f (get_intersection a b c d).
  Proof.
    unfold get_intersection. rewrite move_intersect, !move_between. destruct (intersect a b c d) eqn:E; cbn [negb option_map].
    - f_equal. apply move_crossing. now apply intersect_denom.
    - repeat (destruct (is_between _ _ _); [reflexivity|]). reflexivity.
  Qed.
  Lemma move_along w : inf_along (rotv r w) = option_map (rotv r) (inf_along w).
  Proof.
    unfold inf_along. rewrite rotv_norm. destruct (Reqb_spec (np_norm w) 0) as [H|H]; [reflexivity|]. cbn [option_map]. f_equal.
    unfold rotv. cbn [fst snd]. f_equal; field; exact H.
  Qed.
  Lemma move_padd (a w : RPt) : padd (f a) (rotv r w) = f (padd a w).
  Proof. unfold padd, f, place, rotv, vadd. nR. cbn [fst snd]. f_equal; ring. Qed.
  Lemma move_psub (a w : RPt) : psub (f a) (rotv r w) = f (psub a w).
  Proof. unfold psub, f, place, rotv, vadd. nR. cbn [fst snd]. f_equal; ring. Qed.
  Lemma move_inj (a b : RPt) : f a = f b -> a = b.
  Proof.
    intros H. assert (E : rotv r (psub a b) = (0, 0)).
    { rewrite <- move_sub, H. unfold psub. nR. f_equal; ring. }
    destruct a as [a1 a2], b as [b1 b2]. unfold rotv, psub in E. cbn [fst snd] in E. nR.
    pose proof (f_equal fst E) as E1. pose proof (f_equal snd E) as E2. cbn [fst snd] in E1, E2. pose proof cs1 as E0.
    set (C := cos r) in *. set (D := sin r) in *. unfold nsub in E1, E2. cbn [NumR] in E1, E2.
    assert (a1 - b1 = 0). { transitivity ((C * C + D * D) * (a1 - b1)); [rewrite E0; ring|].
      transitivity (C * (C * (a1 - b1) - D * (a2 - b2)) + D * (D * (a1 - b1) + C * (a2 - b2))); [ring|rewrite E1, E2; ring]. }
    assert (a2 - b2 = 0). { transitivity ((C * C + D * D) * (a2 - b2)); [rewrite E0; ring|].
      transitivity (C * (D * (a1 - b1) + C * (a2 - b2)) - D * (C * (a1 - b1) - D * (a2 - b2))); [ring|rewrite E1, E2; ring]. }
    f_equal; lra.
  Qed.

  Lemma sim_move : sim f code_ops code_ops.
  Proof.
    constructor; cbn [k_cw k_ccw k_col k_same k_between k_gi k_far k_eq code_ops].
    - apply move_cw.
    - apply move_ccw.
    - apply move_col.
    - intros. now rewrite !move_ov.
    - apply move_between.
    - apply move_gi.
    - intros a b. unfold code_far. rewrite move_sub, <- move_padd. f_equal. unfold rotv. cbn [fst snd]. f_equal; ring.
    - intros a b. apply eq_true_iff_eq. rewrite !andb_true_iff, !Reqb_true. split; intros [H1 H2].
      + assert (E : f a = f b) by (rewrite (surjective_pairing (f a)), (surjective_pairing (f b)); congruence).
        apply move_inj in E. subst b. split; reflexivity.
      + assert (E : a = b) by (rewrite (surjective_pairing a), (surjective_pairing b); congruence). subst b. split; reflexivity.
  Qed.
  Lemma sim_move_edge a b : sim_edge f code_ops code_ops a b.
  Proof.
    constructor; cbn [k_away k_ahead k_before code_ops]; unfold code_away, code_ahead, code_before; rewrite move_sub, move_along;
      destruct (inf_along _) as [w|]; cbn [option_map]; try reflexivity; f_equal; [apply move_padd|apply move_padd|apply move_psub].
  Qed.

  Lemma corner_move (v : list RPt) i : (0 < length v)%nat -> (i < length v)%nat -> corner (map f v) i = (let '(a, b, c) := corner v i in (f a, f b, f c)).
  Proof.
    intros H0 Hi. unfold corner. rewrite map_length.
    assert (N : forall k, (k < length v)%nat -> nth k (map f v) (0, 0) = f (nth k v (0, 0))).
    { intros k Hk. rewrite (nth_indep _ (0, 0) (f (0, 0))) by (rewrite map_length; lia). apply map_nth. }
    assert (M : ((i + 1) mod length v < length v)%nat) by (apply Nat.mod_upper_bound; lia).
    rewrite !N; try reflexivity; try lia; try exact M. unfold pred_idx. destruct i; lia.
  Qed.
  Lemma at_corner_move g (v : list RPt) i : (forall a b c, g (f a) (f b) (f c) = g a b c) -> (i < length v)%nat -> at_corner g (map f v) i = at_corner g v i.
  Proof. intros G Hi. unfold at_corner. rewrite corner_move by lia. destruct (corner v i) as [[a b] c]. apply G. Qed.
  Lemma skip_move (v : list RPt) fuel : forall i, skip_collinear fuel i (map f v) = skip_collinear fuel i v.
  Proof.
    induction fuel as [|n IH]; intros i; cbn [skip_collinear]; [reflexivity|]. rewrite map_length.
    unfold pt in *. destruct (Nat.leb_spec (length v) i) as [H|H]; [reflexivity|]. rewrite (at_corner_move _ _ _ move_col H).
    destruct (at_corner is_collinear v i); [|reflexivity]. destruct (Nat.ltb _ _); [reflexivity|]. apply IH.
  Qed.
  Lemma existsb_move g (v : list RPt) is : (forall a b c, g (f a) (f b) (f c) = g a b c) -> (forall i, In i is -> (i < length v)%nat) ->
    existsb (at_corner g (map f v)) is = existsb (at_corner g v) is.
  Proof.
    intros G. induction is as [|i is IH]; intros H; cbn [existsb]; [reflexivity|].
    rewrite at_corner_move by (assumption || (apply H; now left)). rewrite IH; [reflexivity|]. intros j Hj. apply H. now right.
  Qed.
  Lemma check_move (v : list RPt) : check_convexity (map f v) = check_convexity v.
  Proof.
    unfold check_convexity. cbv zeta. rewrite map_length, skip_move.
    destruct (skip_collinear (length v + 2) 0 v) as [i|e]; [|reflexivity]. cbn [bind].
    destruct (Nat.leb_spec (length v) (i + 1)) as [H|H]; [reflexivity|].
    assert (N : forall k, (k < length v)%nat -> nth k (map f v) (0, 0) = f (nth k v (0, 0))).
    { intros k Hk. rewrite (nth_indep _ (0, 0) (f (0, 0))) by (rewrite map_length; lia). apply map_nth. }
    rewrite !N, move_cw by (try lia; unfold pred_idx; destruct i; lia).
    rewrite (existsb_move is_ccw), (existsb_move is_cw); try apply move_cw; try apply move_ccw; try reflexivity;
      intros j Hj; apply in_seq in Hj; lia.
  Qed.
  Lemma compute_kernel_move (v : list RPt) : compute_kernel (map f v) = rmap (option_map (map f)) (compute_kernel v).
  Proof.
    unfold compute_kernel. rewrite check_move. destruct (check_convexity v) as [[|]|e]; cbn [bind]; try reflexivity.
    apply (sim_scan_kernel_all f code_ops code_ops sim_move v sim_move_edge).
  Qed.
End Move.
