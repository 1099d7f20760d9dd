(** Properties C33-C39: obstacles/motion_model.py. *)
From Coq Require Import Reals Lra Lia List.
From Verif Require Import Num Spec M_Cg M_Motion L_Geom L_Gen L_Motion.
Import ListNotations.
Open Scope R_scope.

(** C33 *)
Theorem C33_static : forall p r dts, exists m, moves (static_new (Some p) r) dts = Some m /\
  m_pos m = p /\ m_rot m = r /\ m_t m = rsum dts.
Proof. intros p r dts. apply (static_moves (Some p) r dts). Qed.
Print Assumptions C33_static.
Example C33_example : exists m, moves (static_new (Some (1, 2)) 3) [1; 5] = Some m /\ m_pos m = (1, 2) /\ m_t m = 6.
Proof. destruct (C33_static (1, 2) 3 [1; 5]) as (m & E & P & _ & T). exists m. rewrite T. unfold rsum; cbn. split; auto. split; auto. lra. Qed.

(** C34 *)
Theorem C34_cartesian : forall p r a1 t1 a2 t2 dts f1 f2,
  (t1 = 0 -> f1 = 0) -> (t1 <> 0 -> f1 = 2 * PI / t1) -> (t2 = 0 -> f2 = 0) -> (t2 <> 0 -> f2 = 2 * PI / t2) ->
  exists m, moves (sinus_new (Some p) r true a1 t1 a2 t2) dts = Some m /\
    m_pos m = vadd p (cos_sum a1 f1 dts, cos_sum a2 f2 dts) /\ m_rot m = r /\ m_t m = rsum dts.
Proof.
  intros p r a1 t1 a2 t2 dts f1 f2 A B C D.
  replace f1 with (freq t1) by (destruct (freq_spec t1), (Req_dec t1 0); intuition congruence).
  replace f2 with (freq t2) by (destruct (freq_spec t2), (Req_dec t2 0); intuition congruence).
  apply (sinus_cartesian (Some p)).
Qed.
Print Assumptions C34_cartesian.
(** the state reached by any step sequence is again a SinusVelocity object, so this bounds every step *)
Theorem C34_step_bound : forall m cart a1 f1 a2 f2 dt m', m_class m = CSinus cart a1 f1 a2 f2 -> move dt m = Some m' ->
  m_class m' = m_class m /\ m_t m' = m_t m + dt /\
  (cart = true -> dist (m_pos m) (m_pos m') <= norm (a1, a2) * Rabs dt /\ m_rot m' = m_rot m) /\
  (cart = false ->
     m_pos m' = vadd (m_pos m) (polar (a1 * cos (f1 * m_t m) * dt) (m_rot m)) /\
     dist (m_pos m) (m_pos m') <= Rabs a1 * Rabs dt /\
     m_rot m' = m_rot m + a2 * cos (f2 * m_t m) * dt /\ Rabs (m_rot m' - m_rot m) <= Rabs a2 * Rabs dt).
Proof.
  intros m [] a1 f1 a2 f2 dt m' C M.
  - destruct (sinus_step_cart _ _ _ _ _ _ _ C M) as (A & B & D & E). split; auto. split; auto. split; [auto|discriminate].
  - destruct (sinus_step_polar _ _ _ _ _ _ _ C M) as (A & B & D & E & F & G). split; auto. split; auto. split; [discriminate|auto].
Qed.
Print Assumptions C34_step_bound.
Example C34_example : exists m, moves (sinus_new (Some (1, 1)) 0 true 3 0 0 0) [1; 2] = Some m /\ m_pos m = (10, 1).
Proof.
  destruct (C34_cartesian (1, 1) 0 3 0 0 0 [1; 2] 0 0) as (m & E & P & _); try lra; try (intros; exfalso; lra).
  exists m. split; auto. rewrite P. unfold cos_sum, rsum, vadd; cbn [length seq map firstn nth fold_right fst snd].
  rewrite !Rmult_0_l, cos_0. apply pair_eq; lra.
Qed.

(** C35 *)
Theorem C35_interval_on_time : forall start tps dts, tps <> [] ->
  Forall (fun d => 0 < d) (map fst tps) -> Forall (fun d => 0 <= d) dts ->
  (forall i, (i <= length tps)%nat -> break_time tps i <= rsum dts -> lands_on dts (break_time tps i)) ->
  rsum dts <= break_time tps (length tps) ->
  exists m, moves (interval_new start tps) dts = Some m /\ m_rot m = 0 /\ m_t m = rsum dts /\
    (forall i, (i <= length tps)%nat -> rsum dts = break_time tps i -> m_pos m = listed_position start tps i) /\
    (forall i, (i < length tps)%nat -> break_time tps i <= rsum dts <= break_time tps (S i) ->
       m_pos m = along (listed_position start tps i) (listed_position start tps (S i))
         ((rsum dts - break_time tps i) / (break_time tps (S i) - break_time tps i))).
Proof.
  intros start tps dts NE F Fd L H. destruct (interval_follows start tps dts NE F Fd H L) as (m & E & _ & R0 & T & _ & P).
  exists m. split; [exact E|]. split; [exact R0|]. split; [exact T|]. split; [|exact P].
  intros i Hi Hb. destruct i.
  - destruct tps as [|tp tps']; [congruence|]. set (l := tp :: tps') in *.
    assert (L0 : (0 < length l)%nat) by (cbn; lia). pose proof (break_mono l F 0 1 ltac:(lia)).
    rewrite (P 0%nat L0 ltac:(lra)), Hb. replace ((break_time l 0 - break_time l 0) / _) with 0 by (unfold Rdiv; ring).
    unfold along, vadd, smul. destruct (listed_position start l 0). apply pair_eq; cbn [fst snd]; ring.
  - pose proof (break_mono tps F i (S i) ltac:(lia)). rewrite (P i ltac:(lia) ltac:(lra)), Hb.
    replace ((break_time tps (S i) - break_time tps i) / (break_time tps (S i) - break_time tps i)) with 1 by (field; lra).
    unfold along, vadd, smul, vsub. destruct (listed_position start tps (S i)). apply pair_eq; cbn [fst snd]; ring.
Qed.
Print Assumptions C35_interval_on_time.
Example C35_example : exists m, moves (interval_new (0, 0) [(2, (4, 0)); (1, (4, 5))]) [1; 1; 1/5] = Some m /\ m_pos m = (4, 1).
Proof.
  destruct (C35_interval_on_time (0, 0) [(2, (4, 0)); (1, (4, 5))] [1; 1; 1/5]) as (m & E & _ & _ & _ & P).
  - discriminate.
  - repeat constructor; cbn; lra.
  - repeat constructor; lra.
  - intros i Hi Hb. unfold lands_on, break_time, rsum in *. cbn [length map firstn fold_right fst snd] in *.
    destruct i as [|[|[|i]]]; cbn in Hi, Hb |- *; try lia; try (exfalso; lra).
    + exists 0%nat. split; [lia|]. reflexivity.
    + exists 2%nat. split; [lia|]. cbn. lra.
  - unfold break_time, rsum; cbn; lra.
  - exists m. split; auto. rewrite (P 1%nat).
    + unfold along, vadd, smul, vsub, break_time, listed_position, rsum. cbn. apply pair_eq; field.
    + cbn; lia.
    + unfold break_time, rsum; cbn; lra.
Qed.

(** C36: at the exact last time one more step is taken away from the last point *)
Theorem C36_rests_refuted : exists start tps dts dt m m', tps <> [] /\ Forall (fun d => 0 < d) (map fst tps) /\
  Forall (fun d => 0 <= d) dts /\ 0 < dt /\ rsum dts = break_time tps (length tps) /\
  moves (interval_new start tps) dts = Some m /\ m_pos m = listed_position start tps (length tps) /\
  move dt m = Some m' /\ m_pos m' <> listed_position start tps (length tps).
Proof.
  exists (0, 0), [(1, (1, 0))], [1], 1.
  destruct (C35_interval_on_time (0, 0) [(1, (1, 0))] [1]) as (m & E & _ & T & P & _).
  - discriminate.
  - repeat constructor; cbn; lra.
  - repeat constructor; lra.
  - intros i Hi Hb. unfold lands_on, break_time, rsum in *. destruct i as [|[|i]]; cbn in Hi, Hb |- *; try lia.
    + exists 0%nat. split; [lia|]. reflexivity.
    + exists 1%nat. split; [lia|]. reflexivity.
  - unfold break_time, rsum; cbn; lra.
  - specialize (P 1%nat ltac:(cbn; lia) ltac:(unfold break_time, rsum; cbn; lra)).
    exists m. assert (C : m_class m = m_class (interval_new (0, 0) [(1, (1, 0))]) /\ m_idx m = 0%nat).
    { rewrite moves_one in E. unfold move in E. destruct (lin_vel (interval_new (0, 0) [(1, (1, 0))])) as [| |idx v] eqn:V; try discriminate.
      injection E as <-. split; [reflexivity|]. cbn [m_idx]. unfold lin_vel, interval_vel in V. cbn [m_class interval_new] in V. cbv zeta in V.
      destruct (Rltb _ _) in V.
      - destruct (Nat.ltb _ _); [discriminate|]. destruct (Reqb _ _); [discriminate|]. injection V. intros _ <-. reflexivity.
      - destruct (Reqb _ _); [discriminate|]. injection V. intros _ <-. reflexivity. }
    destruct C as [C I].
    assert (M : exists m', move 1 m = Some m' /\ m_pos m' = (2, 0)).
    { unfold move, lin_vel, interval_vel. rewrite C, T, P. cbn [m_class interval_new]. cbv zeta. unfold rsum, listed_position, argmax_bool.
      cbn [running map length fst snd fold_right Nat.sub nth first_true].
      destruct (Rltb_spec (0 + 0 + 1) (1 + 0)); [lra|]. destruct (Rltb_spec (1 + 0) (0 + 0)); [lra|].
      destruct (Rltb_spec (1 + 0) (0 + 0 + 1)); [lra|]. cbn [pred_idx nth Nat.sub].
      destruct (Reqb_spec (0 + 0 - (0 + 0 + 1)) 0); [lra|]. eexists. split; [reflexivity|]. cbn [m_pos].
      unfold padd, psub, scale; cbn [fst snd]. unfold nadd, nsub; cbn. apply pair_eq; field. }
    destruct M as (m' & M & Q). exists m'. split; [discriminate|]. split; [repeat constructor; cbn; lra|].
    split; [repeat constructor; lra|]. split; [lra|]. split; [unfold break_time, rsum; cbn; lra|].
    split; [exact E|]. split; [exact P|]. split; [exact M|]. rewrite Q. unfold listed_position. cbn. intros Z. injection Z. lra.
Qed.
Print Assumptions C36_rests_refuted.
(** strictly after the last time: the last point is a rest point, and the obstacle never gets further from it when
    the step is at most 1 and at most the reciprocal of the last speed *)
Theorem C36_rests_partial : forall start tps m, tps <> [] -> Forall (fun d => 0 < d) (map fst tps) ->
  m_class m = m_class (interval_new start tps) -> break_time tps (length tps) < m_t m ->
  (m_pos m = listed_position start tps (length tps) -> forall dts, Forall (fun d => 0 <= d) dts ->
     exists m', moves m dts = Some m' /\ m_pos m' = listed_position start tps (length tps)) /\
  (forall dt m', 0 <= dt <= 1 -> last_speed start tps * dt <= 1 -> move dt m = Some m' ->
     dist (listed_position start tps (length tps)) (m_pos m') <= dist (listed_position start tps (length tps)) (m_pos m)).
Proof.
  intros start tps m NE F C T. split.
  - intros P dts Fd. destruct (interval_rest start tps m NE F C T P dts Fd) as (m' & E & P' & _).
    exists m'. split; auto. rewrite P'. exact P.
  - intros dt m' D V M. apply (interval_homes start tps m dt m'); auto.
Qed.
Print Assumptions C36_rests_partial.
Example C36_example : let m := MM (m_class (interval_new (0, 0) [(1, (1, 0))])) (1, 0) 0 2 0 in
  exists m', moves m [3; 4] = Some m' /\ m_pos m' = (1, 0).
Proof.
  intros m. destruct (C36_rests_partial (0, 0) [(1, (1, 0))] m) as [H _].
  - discriminate.
  - repeat constructor; cbn; lra.
  - reflexivity.
  - unfold break_time, rsum; cbn; lra.
  - apply H; [reflexivity|]. repeat constructor; lra.
Qed.

(** C37 *)
Theorem C37_waypoint_query : forall m wps vel thr, m_class m = CWaypoints wps vel thr -> (m_idx m <= length wps)%nat ->
  match lin_vel m with
  | VelIndexError => False
  (* only with a non-positive threshold, standing exactly on the current waypoint *)
  | VelNotFinite => thr <= 0 /\ (m_idx m < length wps)%nat /\ nth (m_idx m) wps (0, 0) = m_pos m
  | Vel idx v =>
      (m_idx m <= idx <= length wps)%nat /\
      (forall j, (m_idx m <= j < idx)%nat -> dist (nth j wps (0, 0)) (m_pos m) < thr) /\
      (idx = length wps -> v = (0, 0)) /\
      ((idx < length wps)%nat -> thr <= dist (nth idx wps (0, 0)) (m_pos m) /\ norm v = Rabs vel /\
         exists k, 0 < k /\ v = smul (vel * k) (vsub (nth idx wps (0, 0)) (m_pos m)))
  end.
Proof.
  intros m wps vel thr C I. unfold lin_vel. rewrite C.
  pose proof (waypoint_vel_spec (skipn (m_idx m) wps) (m_idx m) (m_pos m) vel thr) as W.
  destruct (waypoint_vel _ _ _ _ _) as [| |idx' v]; [exact W| |].
  - destruct W as (A & w & r & E & P). split; [exact A|].
    assert (L : length (skipn (m_idx m) wps) = S (length r)) by (rewrite E; reflexivity). rewrite skipn_length in L. split; [lia|].
    pose proof (nth_skipn wps (m_idx m) 0 (0, 0)) as N. rewrite E, Nat.add_0_r in N. rewrite <- N. exact P.
  - destruct W as (k & A & B & D & E & G). rewrite skipn_length in B, E, G. subst idx'. split; [lia|]. split; [|split].
    + intros j Hj. specialize (D (j - m_idx m)%nat ltac:(lia)). rewrite nth_skipn in D.
      replace (m_idx m + (j - m_idx m))%nat with j in D by lia. exact D.
    + intros H. apply E. lia.
    + intros H. destruct (G ltac:(lia)) as (G1 & G2 & G3). rewrite nth_skipn in G1, G2, G3. split; [exact G2|].
      set (w := nth (m_idx m + k) wps (0, 0)) in *. split.
      * rewrite G3, norm_smul. fold (dist w (m_pos m)). unfold Rdiv. rewrite Rabs_mult, Rabs_inv, (Rabs_pos_eq (dist _ _)) by lra.
        field. lra.
      * exists (/ dist w (m_pos m)). split; [apply Rinv_0_lt_compat; lra|exact G3].
Qed.
Print Assumptions C37_waypoint_query.
Example C37_example : let m := waypoints_new (0, 0) [(1/10, 0); (0, 5)] 2 (2/10) in
  exists v, lin_vel m = Vel 2 v /\ norm v = 2.
Proof.
  intros m. pose proof (C37_waypoint_query m [(0, 0); (1/10, 0); (0, 5)] 2 (2/10) eq_refl ltac:(cbn; lia)) as H.
  assert (D0 : dist (0, 0) (0, 0) = 0) by apply dist_refl.
  assert (D1 : dist (1/10, 0) (0, 0) = 1/10) by (apply dist_eq; [lra|]; unfold norm2, dot, vsub; cbn [fst snd]; field).
  assert (D2 : dist (0, 5) (0, 0) = 5) by (apply dist_eq; [lra|]; unfold norm2, dot, vsub; cbn [fst snd]; field).
  destruct (lin_vel m) as [| |idx v]; [destruct H|destruct H; lra|].
  destruct H as ([_ B] & Sk & _ & G). cbn [length m_idx waypoints_new m] in B, Sk, G.
  assert (idx = 2)%nat.
  { destruct idx as [|[|[|[|]]]]; auto; try lia.
    - destruct (G ltac:(lia)) as [G1 _]. cbn [nth m_pos waypoints_new m] in G1. unfold m in G1; cbn [m_pos waypoints_new] in G1. lra.
    - destruct (G ltac:(lia)) as [G1 _]. unfold m in G1; cbn [nth m_pos waypoints_new] in G1. lra.
    - specialize (Sk 2%nat ltac:(lia)). unfold m in Sk; cbn [nth m_pos waypoints_new] in Sk. lra. }
  subst idx. exists v. split; [reflexivity|]. destruct (G ltac:(lia)) as [_ [G2 _]]. rewrite G2. apply Rabs_pos_eq. lra.
Qed.

(** C38 *)
Theorem C38_waypoints_reached : forall start wps vel thr dt, 0 < vel * dt <= thr ->
  exists N p, forall k, (N <= k)%nat ->
    exists m, moves (waypoints_new start wps vel thr) (repeat dt k) = Some m /\ m_idx m = S (length wps) /\ m_pos m = p /\
      forall w, In w wps -> exists i mi, (i <= N)%nat /\ moves (waypoints_new start wps vel thr) (repeat dt i) = Some mi /\
        dist w (m_pos mi) < thr.
Proof.
  intros start wps vel thr dt [A B].
  destruct (wp_all (start :: wps) vel thr dt A B (waypoints_new start wps vel thr)) as (N & p & H).
  - split; [reflexivity|]. cbn; lia.
  - exists N, p. intros k Hk. destruct (H k Hk) as (m & E & I & P & D). exists m. split; [exact E|]. split; [exact I|]. split; [exact P|].
    intros w Hw. apply (In_nth _ _ (0, 0)) in Hw as (j & Hj & Ew).
    destruct (D (S j)) as (i & mi & Hi & Ei & Di); [cbn; lia|]. exists i, mi. split; auto. split; auto.
    cbn [nth] in Di. rewrite <- Ew. exact Di.
Qed.
Print Assumptions C38_waypoints_reached.
Example C38_example : exists N p, forall k, (N <= k)%nat -> exists m,
  moves (waypoints_new (0, 0) [(1, 0); (1, 3)] 1 (2/10)) (repeat (1/10) k) = Some m /\ m_idx m = 3%nat /\ m_pos m = p.
Proof.
  destruct (C38_waypoints_reached (0, 0) [(1, 0); (1, 3)] 1 (2/10) (1/10) ltac:(lra)) as (N & p & H).
  exists N, p. intros k Hk. destruct (H k Hk) as (m & A & B & C & _). exists m. auto.
Qed.

(** C39: without the bound on the step, (a) zero threshold gives nan at once, (b) a long step oscillates for ever *)
Theorem C39_any_step_refuted :
  (forall start wps vel dt, move dt (waypoints_new start wps vel 0) = None) /\
  (exists start wps vel thr dt, 0 < vel /\ 0 < dt /\ 0 < thr /\
     forall k, exists m, moves (waypoints_new start wps vel thr) (repeat dt k) = Some m /\ (m_idx m <= 1)%nat /\
       forall w, In w wps -> thr <= dist w (m_pos m)).
Proof.
  split.
  - intros. unfold move. pose proof (C37_waypoint_query (waypoints_new start wps vel 0) (start :: wps) vel 0 eq_refl ltac:(cbn; lia)) as H.
    destruct (lin_vel _) as [| |idx v] eqn:E; auto. exfalso. destruct H as ([A B] & S & _ & G).
    destruct idx.
    + unfold lin_vel, waypoints_new in E. cbn [m_class m_idx m_pos skipn waypoint_vel] in E. cbv zeta in E.
      rewrite L_Cg.np_norm_norm in E. change (norm (psub start start)) with (dist start start) in E. rewrite dist_refl in E.
      destruct (Rltb_spec 0 0); [lra|]. destruct (Reqb_spec 0 0); [discriminate|lra].
    + specialize (S 0%nat ltac:(cbn; lia)). pose proof (dist_nonneg (nth 0 (start :: wps) (0, 0)) (m_pos (waypoints_new start wps vel 0))). lra.
  - exists (0, 0), [(1, 0)], 2, (2/10), 1. split; [lra|]. split; [lra|]. split; [lra|].
    set (m0 := waypoints_new (0, 0) [(1, 0)] 2 (2/10)).
    assert (N : forall x, dist (1, 0) (x, 0) = Rabs (1 - x)).
    { intros x. apply dist_eq; [apply Rabs_pos|]. unfold norm2, dot, vsub; cbn [fst snd]. rewrite <- Rabs_mult, Rabs_pos_eq; [ring|]. pose proof (Rle_0_sqr (1 - x)) as Q. exact Q. }
    assert (step : forall x i t, (i <= 1)%nat -> (i = 0%nat -> x = 0) -> x = 0 \/ x = 2 ->
       exists m', move 1 (MM (m_class m0) (x, 0) 0 t i) = Some m' /\ m' = MM (m_class m0) (2 - x, 0) 0 (t + 1) 1).
    { intros x i t Hi H0 Hx. eexists. split; [|reflexivity].
      assert (V : waypoint_vel [(1, 0)] 1 (x, 0) 2 (2/10) = Vel 1 (scale 2 (scale (/ dist (1, 0) (x, 0)) (1 - x, 0 - 0)))).
      { cbn [waypoint_vel]. cbv zeta. rewrite !L_Cg.np_norm_norm. change (norm (psub (1, 0) (x, 0))) with (dist (1, 0) (x, 0)).
        assert (dist (1, 0) (x, 0) = 1). { rewrite N. destruct Hx; subst x; unfold Rabs; destruct (Rcase_abs _); lra. }
        destruct (Rltb_spec (dist (1, 0) (x, 0)) (2/10)); [lra|]. destruct (Reqb_spec (dist (1, 0) (x, 0)) 0); [lra|]. reflexivity. }
      assert (LV : lin_vel (MM (m_class m0) (x, 0) 0 t i) = Vel 1 (scale 2 (scale (/ dist (1, 0) (x, 0)) (1 - x, 0 - 0)))).
      { unfold lin_vel, m0, waypoints_new. cbn [m_class m_idx m_pos]. destruct i as [|[|]]; try lia.
        - cbn [skipn]. rewrite (H0 eq_refl) in *.
          change (waypoint_vel [(0, 0); (1, 0)] 0 (0, 0) 2 (2 / 10)) with
            (if Rltb (np_norm (psub (0, 0) (0, 0))) (2/10) then waypoint_vel [(1, 0)] 1 (0, 0) 2 (2/10)
             else if Reqb (np_norm (psub (0, 0) (0, 0))) 0 then VelNotFinite else Vel 0 (scale 2 (scale (/ np_norm (psub (0, 0) (0, 0))) (psub (0, 0) (0, 0))))).
          rewrite !L_Cg.np_norm_norm. change (norm (psub (0, 0) (0, 0))) with (dist (0, 0) (0, 0)). rewrite dist_refl.
          destruct (Rltb_spec 0 (2/10)); [|lra]. exact V.
        - cbn [skipn]. exact V. }
      unfold move. rewrite LV. f_equal. unfold rot_vel, m0, waypoints_new. cbn [m_class m_pos m_rot m_t]. f_equal; [|lra].
      unfold padd, scale. cbn [fst snd]. unfold nadd; cbn.
      assert (dist (1, 0) (x, 0) = 1). { rewrite N. destruct Hx; subst x; unfold Rabs; destruct (Rcase_abs _); lra. }
      rewrite H. apply pair_eq; destruct Hx; subst x; field. }
    assert (G : forall k, exists x i t, moves m0 (repeat 1 k) = Some (MM (m_class m0) (x, 0) 0 t i) /\ (i <= 1)%nat /\ (i = 0%nat -> x = 0) /\ (x = 0 \/ x = 2)).
    { induction k as [|k IH].
      - exists 0, 0%nat, 0. split; [reflexivity|]. split; [lia|]. split; [reflexivity|]. left; reflexivity.
      - destruct IH as (x & i & t & E & I & Z & X). replace (S k) with (k + 1)%nat by lia.
        rewrite repeat_add, moves_app, E. change (repeat 1 1) with [1]. rewrite moves_one.
        destruct (step x i t I Z X) as (m' & M & ->). exists (2 - x), 1%nat, (t + 1). split; [exact M|]. split; [lia|]. split; [discriminate|].
        destruct X; subst x; [right|left]; lra. }
    intros k. destruct (G k) as (x & i & t & E & I & _ & X). eexists. split; [exact E|]. split; [exact I|].
    intros w [<-|[]]. cbn [m_pos]. rewrite N. destruct X; subst x; unfold Rabs; destruct (Rcase_abs _); lra.
Qed.
Print Assumptions C39_any_step_refuted.
