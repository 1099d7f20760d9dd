From Coq Require Import Reals Lra Lia List Bool Arith ZArith.
From Verif Require Import Num Spec M_Cg M_Motion L_Geom L_Cg L_Gen.
Import ListNotations.
Local Open Scope R_scope.

Lemma scale_smul k p : scale k p = smul k p.
Proof. reflexivity. Qed.
Lemma padd_vadd (a b : Pt) : padd a b = vadd a b.
Proof. reflexivity. Qed.
Lemma moves_app m l1 l2 : moves m (l1 ++ l2) =
  match moves m l1 with Some m' => moves m' l2 | None => None end.
Proof.
  unfold moves. rewrite fold_left_app.
  destruct (fold_left _ l1 (Some m)); auto. induction l2; auto.
Qed.
Lemma moves_nil m : moves m [] = Some m.
Proof. reflexivity. Qed.
Lemma moves_one m d : moves m [d] = move d m.
Proof. reflexivity. Qed.

(** Static *)
Lemma static_moves p r dts : exists m, moves (static_new p r) dts = Some m /\
  m_pos m = match p with None => (0, 0) | Some q => q end /\ m_rot m = r /\ m_t m = rsum dts.
Proof.
  enough (exists m, moves (static_new p r) dts = Some m /\ m_class m = CStatic /\
    m_pos m = match p with None => (0, 0) | Some q => q end /\ m_rot m = r /\ m_t m = rsum dts)
    as (m & A & _ & B) by (exists m; tauto).
  induction dts as [|d dts IH] using rev_ind.
  - exists (static_new p r). repeat split.
  - destruct IH as (m & E & C & P & Q & T). rewrite moves_app, E, moves_one. unfold move, lin_vel, rot_vel. rewrite C.
    eexists. split; [reflexivity|]. cbn [m_class m_pos m_rot m_t]. split; [reflexivity|]. split; [|split].
    + rewrite padd_vadd, scale_smul. rewrite <- P. unfold vadd, smul. cbn [fst snd].
      destruct (m_pos m); apply pair_eq; cbn; ring.
    + lra.
    + rewrite rsum_app, T. unfold rsum; cbn; ring.
Qed.

(** SinusVelocity *)
Lemma freq_spec period : (period = 0 -> freq period = 0) /\ (period <> 0 -> freq period = 2 * PI / period).
Proof. unfold freq. destruct (Reqb_spec period 0); tauto. Qed.
Lemma cos_sum_snoc mag f dts d : cos_sum mag f (dts ++ [d]) = cos_sum mag f dts + mag * cos (f * rsum dts) * d.
Proof.
  unfold cos_sum. rewrite app_length, seq_app, map_app, rsum_app. f_equal.
  - f_equal. apply map_ext_in. intros k H. apply in_seq in H. rewrite firstn_app, app_nth1 by lia.
    replace (k - length dts)%nat with 0%nat by lia. cbn [firstn]. rewrite app_nil_r. reflexivity.
  - cbn [length seq map Nat.add]. rewrite firstn_app, Nat.sub_diag, firstn_all. cbn [firstn].
    rewrite app_nil_r, app_nth2, Nat.sub_diag by lia. cbn [nth]. unfold rsum at 1. cbn [fold_right]. ring.
Qed.
Lemma sinus_cartesian p r a1 t1 a2 t2 dts : exists m, moves (sinus_new p r true a1 t1 a2 t2) dts = Some m /\
  m_pos m = vadd (match p with None => (0, 0) | Some q => q end) (cos_sum a1 (freq t1) dts, cos_sum a2 (freq t2) dts) /\
  m_rot m = r /\ m_t m = rsum dts.
Proof.
  set (f1 := freq t1). set (f2 := freq t2). set (p0 := match p with None => (0, 0) | Some q => q end).
  enough (exists m, moves (sinus_new p r true a1 t1 a2 t2) dts = Some m /\ m_class m = CSinus true a1 f1 a2 f2 /\
    m_pos m = vadd p0 (cos_sum a1 f1 dts, cos_sum a2 f2 dts) /\ m_rot m = r /\ m_t m = rsum dts)
    as (m & A & _ & B) by (exists m; tauto).
  induction dts as [|d dts IH] using rev_ind.
  - eexists. split; [reflexivity|]. split; [reflexivity|]. split; [|split; reflexivity].
    unfold sinus_new. cbn [m_pos]. fold p0. unfold cos_sum, vadd. cbn. destruct p0; apply pair_eq; cbn; ring.
  - destruct IH as (m & E & C & P & Q & T). rewrite moves_app, E, moves_one. unfold move, lin_vel, rot_vel. rewrite C, T.
    eexists. split; [reflexivity|]. cbn [m_class m_pos m_rot m_t]. split; [reflexivity|]. split; [|split].
    + rewrite padd_vadd, scale_smul, !cos_sum_snoc, P. unfold vadd, smul. cbn [fst snd]. apply pair_eq; ring.
    + lra.
    + rewrite rsum_app. unfold rsum; cbn; ring.
Qed.
Lemma cos_sq_le a : cos a * cos a <= 1.
Proof. pose proof (COS_bound a). nra. Qed.
Lemma sinus_step_cart m a1 f1 a2 f2 dt m' : m_class m = CSinus true a1 f1 a2 f2 -> move dt m = Some m' ->
  dist (m_pos m) (m_pos m') <= norm (a1, a2) * Rabs dt /\ m_rot m' = m_rot m /\ m_t m' = m_t m + dt /\ m_class m' = m_class m.
Proof.
  intros C. unfold move, lin_vel, rot_vel. rewrite C. injection 1 as <-. cbn [m_pos m_rot m_t m_class].
  split; [|repeat split; lra]. rewrite padd_vadd, scale_smul. unfold dist.
  replace (vsub _ _) with (smul (- dt) (a1 * cos (f1 * m_t m), a2 * cos (f2 * m_t m)))
    by (unfold vsub, vadd, smul; cbn [fst snd]; apply pair_eq; ring).
  rewrite norm_smul, Rabs_Ropp, Rmult_comm. apply Rmult_le_compat_r; [apply Rabs_pos|].
  apply norm_le; [apply norm_nonneg|]. rewrite norm_sq. unfold norm2, dot. cbn [fst snd].
  pose proof (cos_sq_le (f1 * m_t m)). pose proof (cos_sq_le (f2 * m_t m)). nra.
Qed.
Lemma sinus_step_polar m a1 f1 a2 f2 dt m' : m_class m = CSinus false a1 f1 a2 f2 -> move dt m = Some m' ->
  m_pos m' = vadd (m_pos m) (polar (a1 * cos (f1 * m_t m) * dt) (m_rot m)) /\
  dist (m_pos m) (m_pos m') <= Rabs a1 * Rabs dt /\
  m_rot m' = m_rot m + a2 * cos (f2 * m_t m) * dt /\ Rabs (m_rot m' - m_rot m) <= Rabs a2 * Rabs dt /\
  m_t m' = m_t m + dt /\ m_class m' = m_class m.
Proof.
  intros C. unfold move, lin_vel, rot_vel. rewrite C. injection 1 as <-. cbn [m_pos m_rot m_t m_class].
  assert (K : forall a f, Rabs (a * cos (f * m_t m) * dt) <= Rabs a * Rabs dt).
  { intros. rewrite !Rabs_mult. apply Rmult_le_compat_r; [apply Rabs_pos|].
    pose proof (Rabs_pos a). assert (Rabs (cos (f * m_t m)) <= 1) by (apply Rabs_le, COS_bound).
    rewrite <- (Rmult_1_r (Rabs a)) at 2. apply Rmult_le_compat_l; auto. }
  assert (E : padd (m_pos m) (scale dt (cos (m_rot m) * (a1 * cos (f1 * m_t m)) + - sin (m_rot m) * 0,
     sin (m_rot m) * (a1 * cos (f1 * m_t m)) + cos (m_rot m) * 0)) =
     vadd (m_pos m) (polar (a1 * cos (f1 * m_t m) * dt) (m_rot m))).
  { rewrite padd_vadd, scale_smul. unfold vadd, smul, polar. cbn [fst snd]. apply pair_eq; ring. }
  split; [exact E|]. split.
  - rewrite E. unfold dist. replace (vsub _ _) with (smul (- (a1 * cos (f1 * m_t m) * dt)) (polar 1 (m_rot m)))
      by (unfold vsub, vadd, smul, polar; cbn [fst snd]; apply pair_eq; ring).
    rewrite norm_smul, Rabs_Ropp. replace (norm (polar 1 (m_rot m))) with 1.
    + rewrite Rmult_1_r. apply K.
    + symmetry. apply norm_eq; [lra|]. unfold norm2, dot, polar. cbn [fst snd]. pose proof (sin2_cos2 (m_rot m)). unfold Rsqr in *. lra.
  - split; [reflexivity|]. split; [|split; reflexivity].
    replace (m_rot m + a2 * cos (f2 * m_t m) * dt - m_rot m) with (a2 * cos (f2 * m_t m) * dt) by ring. apply K.
Qed.

(** Interval *)
Lemma running_nth l : forall acc k, (k < length l)%nat -> nth k (running acc l) 0 = acc + rsum (firstn (S k) l).
Proof.
  induction l as [|x r IH]; intros acc k H; [cbn in H; lia|]. destruct k.
  - cbn. unfold rsum. cbn. ring.
  - cbn [running nth]. cbn in H. rewrite IH by lia. change (firstn (S (S k)) (x :: r)) with (x :: firstn (S k) r).
    unfold rsum. cbn [fold_right]. ring.
Qed.
Lemma running_length l : forall acc, length (running acc l) = length l.
Proof. induction l; intros; cbn; auto. Qed.
Lemma first_true_some l : forall i j, first_true l i = Some j ->
  (i <= j < i + length l)%nat /\ nth (j - i) l false = true /\ forall k, (i <= k < j)%nat -> nth (k - i) l false = false.
Proof.
  induction l as [|b r IH]; intros i j; cbn [first_true]; [discriminate|]. destruct b.
  - injection 1 as <-. cbn [length]. split; [lia|]. rewrite Nat.sub_diag. split; [reflexivity|]. intros; lia.
  - intros H. apply IH in H as (A & B & C). cbn [length]. split; [lia|].
    replace (j - i)%nat with (S (j - S i)) by lia. cbn [nth]. split; [exact B|].
    intros k Hk. destruct (Nat.eq_dec k i) as [->|N]; [rewrite Nat.sub_diag; reflexivity|].
    replace (k - i)%nat with (S (k - S i)) by lia. apply C. lia.
Qed.
Lemma first_true_none l : forall i, first_true l i = None -> forall k, nth k l false = false.
Proof.
  induction l as [|b r IH]; intros i H k; [destruct k; reflexivity|]. cbn in H. destruct b; [discriminate|].
  destruct k; cbn; eauto.
Qed.
Lemma time_point_nth (tps : list (R * RPt)) k : (k <= length tps)%nat ->
  nth k (running 0 (0 :: map fst tps)) 0 = break_time tps k.
Proof.
  intros H. rewrite running_nth by (cbn; rewrite map_length; lia).
  unfold break_time. cbn [firstn]. unfold rsum. cbn [fold_right]. ring.
Qed.
Lemma time_point_length (tps : list (R * RPt)) : length (running 0 (0 :: map fst tps)) = S (length tps).
Proof. rewrite running_length. cbn. rewrite map_length. reflexivity. Qed.
Lemma break_mono tps : Forall (fun d => 0 < d) (map fst tps) -> forall i j, (i < j <= length tps)%nat -> break_time tps i < break_time tps j.
Proof.
  unfold break_time. intros F. rewrite <- (map_length fst). set (l := map fst tps) in *. clearbody l.
  induction l as [|x r IH]; intros i j H; [cbn in H; lia|]. inversion_clear F. cbn [length] in H.
  destruct j; [lia|]. destruct i.
  - cbn. assert (0 <= rsum (firstn j r)).
    { clear - H1. revert j. induction r; intros j; destruct j; cbn; try lra. inversion_clear H1. specialize (IHr H0 j). unfold rsum in *. lra. }
    unfold rsum in *. lra.
  - cbn. specialize (IH H1 i j ltac:(lia)). unfold rsum in *. lra.
Qed.
Lemma break_le tps : Forall (fun d => 0 < d) (map fst tps) -> forall i j, (i <= j <= length tps)%nat -> break_time tps i <= break_time tps j.
Proof. intros F i j H. destruct (Nat.eq_dec i j) as [->|]; [lra|]. left. apply break_mono; auto; lia. Qed.
(* the velocity on the i-th interval *)
Lemma interval_vel_on init tps pos t idx i : Forall (fun d => 0 < d) (map fst tps) -> (i < length tps)%nat ->
  break_time tps i <= t < break_time tps (S i) ->
  interval_vel (init :: map snd tps) (running 0 (0 :: map fst tps)) pos t idx =
  Vel idx (smul (/ (break_time tps (S i) - break_time tps i)) (vsub (listed_position init tps (S i)) (listed_position init tps i))).
Proof.
  intros F Hi Ht. unfold interval_vel. rewrite time_point_length. cbv zeta.
  replace (S (length tps) - 1)%nat with (length tps) by lia. rewrite time_point_nth by lia.
  assert (t < break_time tps (length tps)) by (pose proof (break_le tps F (S i) (length tps) ltac:(lia)); lra).
  destruct (Rltb_spec (break_time tps (length tps)) t); [lra|].
  assert (E : argmax_bool (map (fun x => Rltb t x) (running 0 (0 :: map fst tps))) = S i).
  { unfold argmax_bool. set (l := map _ _).
    assert (L : length l = S (length tps)) by (unfold l; rewrite map_length; apply time_point_length).
    assert (N : forall k, (k <= length tps)%nat -> nth k l false = Rltb t (break_time tps k)).
    { intros k Hk. unfold l. rewrite (nth_indep _ false (Rltb t 0)) by (fold l; lia).
      rewrite (map_nth (fun x => Rltb t x)), time_point_nth by lia. reflexivity. }
    destruct (first_true l 0) as [j|] eqn:Ej.
    - apply first_true_some in Ej as (A & B & C). rewrite Nat.sub_0_r in B. rewrite N in B by lia.
      destruct (Rltb_spec t (break_time tps j)) as [B'|]; [|discriminate].
      destruct (Nat.lt_trichotomy j (S i)) as [J|[J|J]]; [|exact J|].
      + pose proof (break_le tps F j i ltac:(lia)). lra.
      + specialize (C (S i) ltac:(lia)). rewrite Nat.sub_0_r, N in C by lia.
        destruct (Rltb_spec t (break_time tps (S i))); [discriminate|lra].
    - pose proof (first_true_none l 0 Ej (S i)) as Z. rewrite N in Z by lia.
      destruct (Rltb_spec t (break_time tps (S i))); [discriminate|lra]. }
  rewrite E. cbn [pred_idx]. rewrite !time_point_nth by lia.
  destruct (Reqb_spec (break_time tps (S i) - break_time tps i) 0); [lra|]. reflexivity.
Qed.
Lemma firstn_nonneg_le l : Forall (fun d => 0 <= d) l -> forall i j, (i <= j)%nat -> rsum (firstn i l) <= rsum (firstn j l).
Proof.
  induction 1; intros i j Hij; [rewrite !firstn_nil; lra|]. destruct i, j; try lia; cbn.
  - lra.
  - assert (0 <= rsum (firstn j l)). { apply (IHForall 0%nat j). lia. } unfold rsum in *. lra.
  - specialize (IHForall i j ltac:(lia)). unfold rsum in *. lra.
Qed.
Lemma locate tps t : Forall (fun d => 0 < d) (map fst tps) -> 0 <= t < break_time tps (length tps) ->
  exists i, (i < length tps)%nat /\ break_time tps i <= t < break_time tps (S i).
Proof.
  intros F. assert (G : forall n, (n <= length tps)%nat -> 0 <= t < break_time tps n -> exists i, (i < n)%nat /\ break_time tps i <= t < break_time tps (S i)).
  { induction n; intros Hn Ht; [unfold break_time in Ht; cbn in Ht; lra|].
    destruct (Rlt_dec t (break_time tps n)) as [L|L].
    - destruct IHn as (i & A & B); [lia|lra|]. exists i. split; [lia|lra].
    - exists n. split; [lia|lra]. }
  apply G. lia.
Qed.
Lemma interval_follows init tps dts : tps <> [] -> Forall (fun d => 0 < d) (map fst tps) -> Forall (fun d => 0 <= d) dts ->
  rsum dts <= break_time tps (length tps) ->
  (forall i, (i <= length tps)%nat -> break_time tps i <= rsum dts -> lands_on dts (break_time tps i)) ->
  exists m, moves (interval_new init tps) dts = Some m /\ m_class m = m_class (interval_new init tps) /\ m_rot m = 0 /\
    m_t m = rsum dts /\ m_idx m = 0%nat /\
    forall i, (i < length tps)%nat -> break_time tps i <= rsum dts <= break_time tps (S i) ->
      m_pos m = along (listed_position init tps i) (listed_position init tps (S i)) ((rsum dts - break_time tps i) / (break_time tps (S i) - break_time tps i)).
Proof.
  intros NE F. induction dts as [|d dts IH] using rev_ind; intros Fd Hle Hl.
  - exists (interval_new init tps). repeat split.
    intros i Hi Hb. cbn [rsum fold_right] in *. destruct i.
    + unfold listed_position at 1. cbn [nth m_pos interval_new]. unfold break_time at 1 3. cbn. unfold along, vadd, smul.
      destruct init as [a b]. apply pair_eq; cbn [fst snd]; unfold Rdiv; rewrite ?Rminus_0_r; ring.
    + pose proof (break_mono tps F 0 (S i) ltac:(lia)). unfold break_time at 1 in H. cbn in H. unfold rsum in Hb. cbn in Hb. lra.
  - apply Forall_app in Fd as [Fd Fd1]. inversion_clear Fd1 as [|? ? Hd0 _].
    rewrite rsum_app in Hle, Hl. assert (Ed : rsum [d] = d) by (unfold rsum; cbn; ring). rewrite Ed in Hle, Hl.
    assert (S0 : 0 <= rsum dts).
    { pose proof (firstn_nonneg_le dts Fd 0 (length dts) ltac:(lia)) as Z. rewrite firstn_all in Z. cbn in Z. exact Z. }
    destruct IH as (m & E & C & Rr & T & X & P); [exact Fd|lra| |].
    { intros i Hi Hb. destruct (Hl i Hi ltac:(lra)) as (k & Hk & Ek). rewrite app_length in Hk. cbn in Hk.
      destruct (le_lt_dec k (length dts)) as [K|K].
      - exists k. split; auto. rewrite firstn_app in Ek. replace (k - length dts)%nat with 0%nat in Ek by lia.
        cbn [firstn] in Ek. rewrite app_nil_r in Ek. exact Ek.
      - exists (length dts). split; auto. rewrite firstn_all. rewrite firstn_all2 in Ek by (rewrite app_length; cbn; lia).
        rewrite rsum_app, Ed in Ek. lra. }
    rewrite moves_app, E, moves_one. unfold move, lin_vel, rot_vel. rewrite C, T, X, Rr.
    cbn [m_class interval_new]. rewrite rsum_app, Ed.
    destruct (Req_dec d 0) as [D0|D0].
    + (* no time passes: any velocity will do, but it must be finite *)
      subst d. rewrite Rplus_0_r in *.
      assert (V : exists v, interval_vel (init :: map snd tps) (running 0 (0 :: map fst tps)) (m_pos m) (rsum dts) 0 = Vel 0 v).
      { destruct (Rle_lt_or_eq_dec _ _ Hle) as [L|L].
        - destruct (locate tps (rsum dts) F) as (i & Hi & Hb); [lra|]. rewrite (interval_vel_on init tps _ _ _ i F Hi Hb). eauto.
        - unfold interval_vel. rewrite time_point_length. cbv zeta. replace (S (length tps) - 1)%nat with (length tps) by lia.
          rewrite time_point_nth by lia. rewrite L. destruct (Rltb_spec (break_time tps (length tps)) (break_time tps (length tps))); [lra|].
          assert (A : argmax_bool (map (fun x => Rltb (break_time tps (length tps)) x) (running 0 (0 :: map fst tps))) = 0%nat).
          { unfold argmax_bool. destruct (first_true _ 0) as [j|] eqn:Ej; auto.
            apply first_true_some in Ej as (A & B & _). rewrite map_length, time_point_length in A. rewrite Nat.sub_0_r in B.
            rewrite (nth_indep _ false (Rltb (break_time tps (length tps)) 0)) in B by (rewrite map_length, time_point_length; lia).
            rewrite (map_nth (fun x => Rltb _ x)), time_point_nth in B by lia.
            destruct (Rltb_spec (break_time tps (length tps)) (break_time tps j)) as [B'|]; [|discriminate].
            pose proof (break_le tps F j (length tps) ltac:(lia)). lra. }
          rewrite A. cbn [pred_idx]. replace (S (length tps) - 1)%nat with (length tps) by lia.
          rewrite !time_point_nth by lia.
          assert (0 < length tps)%nat by (destruct tps; [congruence|cbn; lia]).
          pose proof (break_mono tps F 0 (length tps) ltac:(lia)).
          destruct (Reqb_spec (break_time tps 0 - break_time tps (length tps)) 0); [lra|]. eauto. }
      destruct V as [v Ev]. rewrite Ev. eexists. split; [reflexivity|]. cbn [m_class m_pos m_rot m_t m_idx].
      split; [reflexivity|]. split; [lra|]. split; [lra|]. split; [reflexivity|].
      intros i Hi Hb. rewrite <- (P i Hi Hb). rewrite padd_vadd, scale_smul. unfold vadd, smul. destruct (m_pos m).
      apply pair_eq; cbn; ring.
    + assert (Dp : 0 < d) by lra. destruct (locate tps (rsum dts) F) as (i & Hi & Hb); [lra|].
      rewrite (interval_vel_on init tps _ _ _ i F Hi Hb).
      (* the step does not jump over the next break *)
      assert (Hn : rsum dts + d <= break_time tps (S i)).
      { destruct (Rle_dec (rsum dts + d) (break_time tps (S i))) as [|N]; auto. exfalso.
        destruct (Hl (S i) ltac:(lia) ltac:(lra)) as (k & Hk & Ek). rewrite app_length in Hk. cbn in Hk.
        destruct (le_lt_dec k (length dts)) as [K|K].
        - pose proof (firstn_nonneg_le dts Fd k (length dts) K) as Z. rewrite firstn_all in Z.
          rewrite firstn_app in Ek. replace (k - length dts)%nat with 0%nat in Ek by lia.
          cbn [firstn] in Ek. rewrite app_nil_r in Ek. lra.
        - rewrite firstn_all2 in Ek by (rewrite app_length; cbn; lia). rewrite rsum_app, Ed in Ek. lra. }
      eexists. split; [reflexivity|]. cbn [m_class m_pos m_rot m_t m_idx].
      split; [reflexivity|]. split; [lra|]. split; [reflexivity|]. split; [reflexivity|].
      assert (G : padd (m_pos m) (scale d (smul (/ (break_time tps (S i) - break_time tps i)) (vsub (listed_position init tps (S i)) (listed_position init tps i)))) =
        along (listed_position init tps i) (listed_position init tps (S i)) ((rsum dts + d - break_time tps i) / (break_time tps (S i) - break_time tps i))).
      { rewrite padd_vadd, scale_smul, (P i Hi ltac:(lra)). unfold along, vadd, smul, vsub. cbn [fst snd].
        apply pair_eq; field; lra. }
      intros j Hj Hbj. rewrite G. destruct (Nat.lt_trichotomy j i) as [J|[->|J]]; [|reflexivity|].
      * pose proof (break_le tps F (S j) i ltac:(lia)). lra.
      * pose proof (break_le tps F (S i) j ltac:(lia)). assert (rsum dts + d = break_time tps (S i)) by lra.
        assert (break_time tps (S i) = break_time tps j) by lra.
        assert (j = S i). { destruct (Nat.eq_dec j (S i)); auto. pose proof (break_mono tps F (S i) j ltac:(lia)). lra. }
        subst j. rewrite H0. replace ((break_time tps (S i) - break_time tps (S i)) / (break_time tps (S (S i)) - break_time tps (S i))) with 0 by (unfold Rdiv; ring).
        replace ((break_time tps (S i) - break_time tps i) / (break_time tps (S i) - break_time tps i)) with 1 by (field; lra).
        unfold along, vadd, smul, vsub. apply pair_eq; cbn [fst snd]; ring.
Qed.

(** Interval after the last time *)
Lemma interval_vel_after init tps pos t idx : tps <> [] -> Forall (fun d => 0 < d) (map fst tps) -> break_time tps (length tps) < t ->
  interval_vel (init :: map snd tps) (running 0 (0 :: map fst tps)) pos t idx =
  Vel idx (smul (last_speed init tps)
    (if Rltb (last_speed init tps) (dist (listed_position init tps (length tps)) pos)
     then smul (/ dist (listed_position init tps (length tps)) pos) (vsub (listed_position init tps (length tps)) pos)
     else vsub (listed_position init tps (length tps)) pos)).
Proof.
  intros NE F H. assert (0 < length tps)%nat by (destruct tps; [congruence|cbn; lia]).
  unfold interval_vel. rewrite time_point_length. cbv zeta.
  replace (S (length tps) - 1)%nat with (length tps) by lia.
  replace (S (length tps) - 2)%nat with (length tps - 1)%nat by lia. rewrite !time_point_nth by lia.
  destruct (Rltb_spec (break_time tps (length tps)) t); [|lra].
  destruct (Nat.ltb_spec (S (length tps)) 2); [lia|].
  pose proof (break_mono tps F (length tps - 1) (length tps) ltac:(lia)).
  destruct (Reqb_spec (break_time tps (length tps) - break_time tps (length tps - 1)) 0); [lra|].
  rewrite !np_norm_norm. reflexivity.
Qed.
Lemma interval_rest init tps m : tps <> [] -> Forall (fun d => 0 < d) (map fst tps) ->
  m_class m = m_class (interval_new init tps) -> break_time tps (length tps) < m_t m -> m_pos m = listed_position init tps (length tps) ->
  forall dts, Forall (fun d => 0 <= d) dts -> exists m', moves m dts = Some m' /\ m_pos m' = m_pos m /\ m_rot m' = m_rot m /\
    m_class m' = m_class m /\ m_t m' = m_t m + rsum dts.
Proof.
  intros NE F C T P. induction dts as [|d dts IH] using rev_ind; intros Fd.
  - exists m. repeat split. unfold rsum; cbn; ring.
  - apply Forall_app in Fd as [Fd Fd1]. inversion_clear Fd1 as [|? ? Hd0 _].
    destruct (IH Fd) as (m1 & E & P1 & R1 & C1 & T1). rewrite moves_app, E, moves_one. unfold move, lin_vel, rot_vel.
    rewrite C1, C. cbn [m_class interval_new].
    assert (S0 : 0 <= rsum dts).
    { pose proof (firstn_nonneg_le dts Fd 0 (length dts) ltac:(lia)) as Z. rewrite firstn_all in Z. cbn in Z. exact Z. }
    rewrite interval_vel_after; auto; [|lra]. eexists. split; [reflexivity|]. cbn [m_class m_pos m_rot m_t m_idx].
    rewrite rsum_app. split; [|split; [|split; [|]]].
    + rewrite P1, P. assert (Z : vsub (listed_position init tps (length tps)) (listed_position init tps (length tps)) = (0, 0))
        by (unfold vsub; apply pair_eq; ring).
      unfold dist. rewrite Z. replace (norm (0, 0)) with 0 by (symmetry; apply norm_eq; [lra|]; unfold norm2, dot; cbn; ring).
      assert (0 <= last_speed init tps) by apply norm_nonneg. destruct (Rltb_spec (last_speed init tps) 0); [lra|].
      rewrite padd_vadd, scale_smul. unfold vadd, smul. destruct (listed_position init tps (length tps)); apply pair_eq; cbn; ring.
    + lra.
    + reflexivity.
    + rewrite T1. unfold rsum. cbn [fold_right]. ring.
Qed.
Lemma vsub_anti p q k : vsub q (vadd p (smul k (vsub q p))) = smul (1 - k) (vsub q p).
Proof. unfold vsub, vadd, smul; cbn [fst snd]; apply pair_eq; ring. Qed.
Lemma interval_homes init tps m dt m' : tps <> [] -> Forall (fun d => 0 < d) (map fst tps) ->
  m_class m = m_class (interval_new init tps) -> break_time tps (length tps) < m_t m ->
  0 <= dt <= 1 -> last_speed init tps * dt <= 1 -> move dt m = Some m' ->
  dist (listed_position init tps (length tps)) (m_pos m') <= dist (listed_position init tps (length tps)) (m_pos m).
Proof.
  intros NE F C T D V. unfold move, lin_vel, rot_vel. rewrite C. cbn [m_class interval_new].
  rewrite interval_vel_after; auto. injection 1 as <-. cbn [m_pos].
  set (q := listed_position init tps (length tps)) in *. set (s := last_speed init tps) in *.
  assert (0 <= s) by apply norm_nonneg. assert (0 <= s * dt) by nra.
  pose proof (dist_nonneg q (m_pos m)). rewrite padd_vadd, scale_smul.
  destruct (Rltb_spec s (dist q (m_pos m))) as [L|L].
  - replace (smul dt _) with (smul (s * dt / dist q (m_pos m)) (vsub q (m_pos m)))
      by (unfold smul; cbn [fst snd]; apply pair_eq; field; lra).
    unfold dist at 1. rewrite vsub_anti, norm_smul. fold (dist q (m_pos m)).
    assert (0 <= s * dt / dist q (m_pos m) <= 1).
    { split; [apply Rmult_le_pos; [lra|]; left; apply Rinv_0_lt_compat; lra|].
      apply (Rmult_le_reg_r (dist q (m_pos m))); [lra|]. unfold Rdiv. rewrite Rmult_assoc, Rinv_l by lra. nra. }
    rewrite Rabs_pos_eq by lra. nra.
  - replace (smul dt _) with (smul (s * dt) (vsub q (m_pos m))) by (unfold smul; cbn [fst snd]; apply pair_eq; ring).
    unfold dist at 1. rewrite vsub_anti, norm_smul. fold (dist q (m_pos m)). rewrite Rabs_pos_eq by lra. nra.
Qed.

(** Waypoints *)
Lemma waypoint_vel_spec rest : forall idx pos vel thr,
  match waypoint_vel rest idx pos vel thr with
  | VelIndexError => False
  | VelNotFinite => thr <= 0 /\ exists w rest', rest = w :: rest' /\ w = pos
  | Vel idx' v => exists k, idx' = (idx + k)%nat /\ (k <= length rest)%nat /\
      (forall j, (j < k)%nat -> dist (nth j rest (0, 0)) pos < thr) /\
      (k = length rest -> v = (0, 0)) /\
      ((k < length rest)%nat -> 0 < dist (nth k rest (0, 0)) pos /\ thr <= dist (nth k rest (0, 0)) pos /\
         v = smul (vel / dist (nth k rest (0, 0)) pos) (vsub (nth k rest (0, 0)) pos))
  end.
Proof.
  induction rest as [|w rest IH]; intros idx pos vel thr.
  - cbn [waypoint_vel]. exists 0%nat. split; [lia|]. split; [cbn; lia|]. split; [intros; lia|]. split; [reflexivity|]. cbn. lia.
  - cbn [waypoint_vel]. cbv zeta. rewrite !np_norm_norm. change (norm (psub w pos)) with (dist w pos).
    pose proof (dist_nonneg w pos).
    destruct (Rltb_spec (dist w pos) thr) as [L|L].
    + specialize (IH (S idx) pos vel thr). destruct (waypoint_vel rest (S idx) pos vel thr) as [| |idx' v]; [exact IH| |].
      * destruct IH as [A _]. lra.
      * destruct IH as (k & A & B & C & D & E). exists (S k). cbn [length]. split; [lia|]. split; [lia|]. split; [|split].
        -- intros [|j] Hj; cbn [nth]; [exact L|]. apply C. lia.
        -- intros Hk. apply D. lia.
        -- intros Hk. cbn [nth]. apply E. lia.
    + destruct (Reqb_spec (dist w pos) 0) as [Z|Z].
      * split; [lra|]. exists w, rest. split; [reflexivity|]. apply dist_zero, Z.
      * exists 0%nat. split; [lia|]. cbn [length]. split; [lia|]. split; [intros; lia|]. split; [intros; lia|].
        intros _. cbn [nth]. split; [lra|]. split; [lra|]. unfold scale, smul. cbn [fst snd]. unfold psub, vsub; cbn [fst snd].
        change nsub with Rminus. apply pair_eq; unfold Rdiv; ring.
Qed.
Lemma nth_skipn {A} (l : list A) i j d : nth j (skipn i l) d = nth (i + j) l d.
Proof.
  revert l; induction i; intros l; [reflexivity|]. destruct l; [cbn; destruct j; reflexivity|]. cbn. apply IHi.
Qed.
Lemma nat_above x : exists M, x < INR M.
Proof.
  exists (Z.to_nat (up x)). destruct (archimed x) as [A _].
  destruct (Z_lt_le_dec (up x) 0) as [L|L].
  - apply IZR_lt in L. pose proof (pos_INR (Z.to_nat (up x))). lra.
  - rewrite INR_IZR_INZ, Z2Nat.id by exact L. lra.
Qed.
Section Reach.
  Context (wps : list RPt) (vel thr dt : R).
  Hypothesis (Hv : 0 < vel * dt) (Ht : vel * dt <= thr).
  Let is_wp (m : mm) := m_class m = CWaypoints wps vel thr /\ (m_idx m <= length wps)%nat.
  Lemma wp_move m : is_wp m -> exists m' v k, move dt m = Some m' /\ is_wp m' /\ m_idx m' = (m_idx m + k)%nat /\
    m_pos m' = vadd (m_pos m) (smul dt v) /\ (m_idx m + k <= length wps)%nat /\
    (forall j, (m_idx m <= j < m_idx m + k)%nat -> dist (nth j wps (0, 0)) (m_pos m) < thr) /\
    (m_idx m' = length wps -> v = (0, 0)) /\
    ((m_idx m' < length wps)%nat -> thr <= dist (nth (m_idx m') wps (0, 0)) (m_pos m) /\
       v = smul (vel / dist (nth (m_idx m') wps (0, 0)) (m_pos m)) (vsub (nth (m_idx m') wps (0, 0)) (m_pos m))).
  Proof.
    intros [C I]. unfold move, lin_vel. rewrite C.
    pose proof (waypoint_vel_spec (skipn (m_idx m) wps) (m_idx m) (m_pos m) vel thr) as W.
    destruct (waypoint_vel _ _ _ _ _) as [| |idx' v]; [destruct W|destruct W as [W _]; lra|].
    destruct W as (k & A & B & D & E & G). rewrite skipn_length in B, E, G.
    eexists _, v, k. split; [reflexivity|]. unfold is_wp. cbn [m_class m_idx m_pos]. subst idx'.
    split; [split; [reflexivity|lia]|]. split; [reflexivity|]. split; [reflexivity|]. split; [lia|]. split; [|split].
    - intros j Hj. specialize (D (j - m_idx m)%nat ltac:(lia)). rewrite nth_skipn in D.
      replace (m_idx m + (j - m_idx m))%nat with j in D by lia. exact D.
    - intros H. apply E. lia.
    - intros H. specialize (G ltac:(lia)). rewrite nth_skipn in G. tauto.
  Qed.
  Lemma wp_approach : forall M m, is_wp m -> (m_idx m < length wps)%nat ->
    dist (nth (m_idx m) wps (0, 0)) (m_pos m) < thr + INR M * (vel * dt) ->
    exists N m', moves m (repeat dt N) = Some m' /\ is_wp m' /\ m_idx m' = m_idx m /\
      dist (nth (m_idx m) wps (0, 0)) (m_pos m') < thr.
  Proof.
    induction M; intros m W I H.
    - exists 0%nat, m. cbn in H. split; [reflexivity|]. split; [exact W|]. split; [reflexivity|]. lra.
    - destruct (Rlt_dec (dist (nth (m_idx m) wps (0, 0)) (m_pos m)) thr) as [L|L].
      { exists 0%nat, m. split; [reflexivity|]. split; [exact W|]. split; [reflexivity|]. exact L. }
      destruct (wp_move m W) as (m1 & v & k & E & W1 & I1 & P1 & B & D & _ & G).
      assert (k = 0)%nat. { destruct k; auto. specialize (D (m_idx m) ltac:(lia)). lra. }
      subst k. rewrite Nat.add_0_r in I1. rewrite I1 in G. destruct (G I) as [_ Ev].
      destruct (IHM m1) as (N & m2 & E2 & W2 & I2 & D2); [exact W1|lia| |].
      + rewrite I1, P1, Ev. set (w := nth (m_idx m) wps (0, 0)) in *. set (p := m_pos m) in *.
        replace (smul dt _) with (smul (vel * dt / dist w p) (vsub w p))
          by (unfold smul; cbn [fst snd]; apply pair_eq; field; lra).
        unfold dist at 1. rewrite vsub_anti, norm_smul. fold (dist w p).
        assert (0 <= vel * dt / dist w p <= 1).
        { split; [apply Rmult_le_pos; [lra|]; left; apply Rinv_0_lt_compat; lra|].
          apply (Rmult_le_reg_r (dist w p)); [lra|]. unfold Rdiv. rewrite Rmult_assoc, Rinv_l by lra. lra. }
        rewrite Rabs_pos_eq by lra. rewrite S_INR in H.
        replace ((1 - vel * dt / dist w p) * dist w p) with (dist w p - vel * dt) by (field; lra). lra.
      + exists (S N), m2. change (repeat dt (S N)) with ([dt] ++ repeat dt N). rewrite moves_app, moves_one, E.
        split; [exact E2|]. split; [exact W2|]. rewrite I1 in *. split; [exact I2|exact D2].
  Qed.
  Lemma repeat_add {A} (x : A) a b : repeat x (a + b) = repeat x a ++ repeat x b.
  Proof. induction a; cbn; [reflexivity|]. f_equal. auto. Qed.
  Lemma wp_reach_all : forall n m, is_wp m -> (length wps - m_idx m <= n)%nat ->
    exists N m', moves m (repeat dt N) = Some m' /\ is_wp m' /\ m_idx m' = length wps /\
      forall j, (m_idx m <= j < length wps)%nat -> exists k mk, (k <= N)%nat /\ moves m (repeat dt k) = Some mk /\
        dist (nth j wps (0, 0)) (m_pos mk) < thr.
  Proof.
    induction n; intros m W Hn.
    - exists 0%nat, m. split; [reflexivity|]. split; [exact W|]. destruct W as [_ W]. split; [lia|]. intros; lia.
    - destruct (le_lt_dec (length wps) (m_idx m)) as [L|L].
      { exists 0%nat, m. split; [reflexivity|]. split; [exact W|]. destruct W as [_ W]. split; [lia|]. intros; lia. }
      destruct (nat_above ((dist (nth (m_idx m) wps (0, 0)) (m_pos m) - thr) / (vel * dt))) as [M HM].
      assert (HM' : dist (nth (m_idx m) wps (0, 0)) (m_pos m) < thr + INR M * (vel * dt)).
      { apply (Rmult_lt_compat_r (vel * dt)) in HM; [|lra]. unfold Rdiv in HM. rewrite Rmult_assoc, Rinv_l in HM by lra. lra. }
      destruct (wp_approach M m W L HM') as (N1 & m1 & E1 & W1 & I1 & D1).
      destruct (wp_move m1 W1) as (m2 & v & k & E2 & W2 & I2 & P2 & B2 & D2 & Z2 & G2).
      assert (1 <= k)%nat.
      { destruct k; [|lia]. rewrite Nat.add_0_r in I2. rewrite I2, I1 in G2. destruct (G2 L) as [G _]. lra. }
      destruct (IHn m2 W2 ltac:(lia)) as (N3 & m3 & E3 & W3 & I3 & D3).
      exists (N1 + S N3)%nat, m3.
      assert (EE : forall q, moves m (repeat dt (N1 + S q)) = moves m2 (repeat dt q)).
      { intros q. rewrite repeat_add, moves_app, E1. change (repeat dt (S q)) with ([dt] ++ repeat dt q).
        rewrite moves_app, moves_one, E2. reflexivity. }
      split; [rewrite EE; exact E3|]. split; [exact W3|]. split; [exact I3|].
      intros j Hj. destruct (le_lt_dec (m_idx m2) j) as [J|J].
      + destruct (D3 j ltac:(lia)) as (q & mq & Hq & Eq & Dq). exists (N1 + S q)%nat, mq. rewrite EE. split; [lia|]. split; auto.
      + exists N1, m1. split; [lia|]. split; [exact E1|]. apply D2. lia.
  Qed.
  Lemma wp_rest m : is_wp m -> m_idx m = length wps -> forall dts, exists m', moves m dts = Some m' /\ m_pos m' = m_pos m /\
    m_idx m' = length wps /\ is_wp m'.
  Proof.
    intros W I. induction dts as [|d dts IH] using rev_ind; [exists m; auto|].
    destruct IH as (m1 & E & P & J & [C K]). rewrite moves_app, E, moves_one. unfold move, lin_vel. rewrite C.
    rewrite J, skipn_all. cbn [waypoint_vel]. eexists. split; [reflexivity|]. unfold is_wp. cbn [m_pos m_idx m_class]. split; [|auto].
    rewrite <- P. unfold padd, scale. cbn [fst snd]. destruct (m_pos m1). unfold nadd; cbn. apply pair_eq; ring.
  Qed.
  Lemma wp_all m : is_wp m -> exists N p, forall k, (N <= k)%nat -> exists mk, moves m (repeat dt k) = Some mk /\
     m_idx mk = length wps /\ m_pos mk = p /\
     forall j, (m_idx m <= j < length wps)%nat -> exists i mi, (i <= N)%nat /\ moves m (repeat dt i) = Some mi /\
        dist (nth j wps (0, 0)) (m_pos mi) < thr.
  Proof.
    intros W. destruct (wp_reach_all (length wps - m_idx m) m W (le_n _)) as (N & m' & E & W' & I & D).
    exists N, (m_pos m'). intros k Hk. destruct (wp_rest m' W' I (repeat dt (k - N))) as (m2 & E2 & P2 & I2 & _).
    exists m2. replace k with (N + (k - N))%nat by lia. rewrite repeat_add, moves_app, E. auto.
  Qed.
End Reach.
