(** Property C129: Interval of obstacles/motion_model.py in binary64 arithmetic. *)
From Coq Require Import ZArith QArith Qreals Reals SpecFloat Bool Lia Lra List.
From Verif Require Import Num Spec M_Cg M_Motion M_Float M_FloatMotion S_Float L_Float L_FloatCmp L_FloatDiv L_FloatCg L_FloatGrid L_Geom L_Gen L_Motion L_FloatEllipse L_FloatMotion P_Float.
Import ListNotations.
Local Open Scope R_scope.

(** a time: a multiple of 2^-s *)
Definition time_on (s : Z) (d : b64) : Prop := bfin d /\ exists k : Z, bval d = IZR k * p2 (- s).
(** the list of durations and positions as real numbers *)
Definition btps (tps : list (b64 * pt b64)) : list (R * (R * R)) := map (fun e => (bval (fst e), bpt (snd e))) tps.
(** each coordinate of [p] is within [e] of the one of [q] *)
Definition coords_within (e : R) (p q : R * R) : Prop := Rabs (fst p - fst q) <= e /\ Rabs (snd p - snd q) <= e.

Section Grid.
  Variable s : Z.
  Hypothesis Hs : (0 <= s <= 500)%Z.
  Lemma n0_val : bval n0 = 0. Proof. rewrite b64q_R; unfold Q2R; cbn; lra. Qed.
  Lemma n0_time : time_on s n0. Proof. split; [exact I|]. exists 0%Z. rewrite n0_val. ring. Qed.
  Lemma p2_grid k : IZR k * p2 (- s) < p2 (53 - s) -> (k < 2 ^ 53)%Z.
  Proof.
    intros H. replace (53 - s)%Z with (53 + - s)%Z in H by lia. rewrite p2_add in H. pose proof (p2_pos (- s)). apply Rmult_lt_reg_r in H; auto. rewrite p2_Z in H by lia. apply lt_IZR. exact H.
  Qed.
  Lemma grid_nonneg k : 0 <= IZR k * p2 (- s) -> (0 <= k)%Z.
  Proof. intros H. pose proof (p2_pos (- s)). apply le_IZR. apply Rmult_le_reg_r with (p2 (- s)); auto. lra. Qed.
  Lemma grid_top : p2 (53 - s) <= p2 900. Proof. apply p2_le. lia. Qed.
  Lemma add_exact x y : time_on s x -> time_on s y -> 0 <= bval x -> 0 <= bval y -> bval x + bval y < p2 (53 - s) ->
    time_on s (SFadd 53 1024 x y) /\ bval (SFadd 53 1024 x y) = bval x + bval y.
  Proof.
    intros (Fx & k & Ek) (Fy & l & El) X0 Y0 H. pose proof grid_top. assert (E : bval x + bval y = IZR (k + l) * p2 (- s)) by (rewrite plus_IZR, Ek, El; ring).
    destruct (add_near x y Fx Fy) as (F & _ & X); [rewrite Rabs_pos_eq; lra|]. assert (V : bval (SFadd 53 1024 x y) = bval x + bval y).
    { apply (X (k + l)%Z s); [lia| |exact E]. rewrite Ek in X0. rewrite El in Y0. apply grid_nonneg in X0, Y0. rewrite E in H. apply p2_grid in H. lia. }
    split; [|exact V]. split; auto. exists (k + l)%Z. congruence.
  Qed.
  Lemma sub_exact x y : time_on s x -> time_on s y -> 0 <= bval x < bval y -> bval y < p2 (53 - s) ->
    bfin (SFsub 53 1024 y x) /\ bval (SFsub 53 1024 y x) = bval y - bval x /\ p2 (-500) <= bval y - bval x <= p2 53.
  Proof.
    intros (Fx & k & Ek) (Fy & l & El) X0 H. pose proof grid_top. assert (E : bval y - bval x = IZR (l - k) * p2 (- s)) by (rewrite minus_IZR, Ek, El; ring).
    assert (KL : (0 <= k < l)%Z). { split; [apply grid_nonneg; lra|]. apply lt_IZR. apply Rmult_lt_reg_r with (p2 (- s)); [apply p2_pos|lra]. }
    assert (L2 : (l < 2 ^ 53)%Z) by (apply p2_grid; lra).
    destruct (sub_near y x Fy Fx) as (F & _ & X); [rewrite Rabs_pos_eq; lra|]. assert (V : bval (SFsub 53 1024 y x) = bval y - bval x) by (apply (X (l - k)%Z s); [lia|lia|exact E]).
    split; [exact F|]. split; [exact V|]. split.
    - apply Rle_trans with (p2 (- s)); [apply p2_le; lia|]. rewrite E. rewrite <- (Rmult_1_l (p2 (- s))) at 1. apply Rmult_le_compat_r; [left; apply p2_pos|]. apply IZR_le. lia.
    - apply Rle_trans with (p2 (53 - s)); [lra|]. apply p2_le. lia.
  Qed.
  Lemma rsum_nonneg l : Forall (fun x => 0 <= x) l -> 0 <= rsum l.
  Proof. induction 1; unfold rsum in *; cbn; lra. Qed.
  Lemma running_exact l : forall acc, time_on s acc -> 0 <= bval acc -> Forall (fun d => time_on s d /\ 0 <= bval d) l -> bval acc + rsum (map bval l) < p2 (53 - s) ->
    Forall (time_on s) (running_num acc l) /\ map bval (running_num acc l) = running (bval acc) (map bval l).
  Proof.
    induction l as [|d l IH]; intros acc Ta A0 F H; [split; [constructor|reflexivity]|]. inversion_clear F as [|? ? (Td & D0) F'].
    assert (0 <= rsum (map bval l)). { apply rsum_nonneg. rewrite Forall_map. eapply Forall_impl; [|exact F']. cbn. tauto. }
    unfold rsum in *. cbn [map fold_right] in H. destruct (add_exact acc d Ta Td A0 D0 ltac:(lra)) as (Ts & Vs).
    cbn [running_num map running]. destruct (IH (acc + d)%num) as (G & E); auto.
    - cbn [nadd NumB]. lra.
    - cbn [nadd NumB]. lra.
    - split; [constructor; auto|]. rewrite E. cbn [nadd NumB] in *. rewrite Vs. reflexivity.
  Qed.
End Grid.

Section Run.
  Variables (s : Z) (M : R) (start : pt b64) (tps : list (b64 * pt b64)).
  Hypotheses (Hs : (0 <= s <= 500)%Z) (M1 : 1 <= M) (M2 : M <= p2 300) (NE : tps <> []).
  Hypotheses (Fs : bfin_pt start) (Ws : within M start).
  Hypothesis HF : Forall (fun e => time_on s (fst e) /\ 0 < bval (fst e) /\ bfin_pt (snd e) /\ within M (snd e)) tps.
  Hypothesis HT : break_time (btps tps) (length tps) < p2 (53 - s).
  Let rstart := bpt start.
  Let rt := btps tps.
  Lemma rt_length : length rt = length tps. Proof. apply map_length. Qed.
  Lemma rt_fst : map fst rt = map bval (map fst tps). Proof. unfold rt, btps. rewrite !map_map. reflexivity. Qed.
  Lemma rt_pos : Forall (fun d => 0 < d) (map fst rt).
  Proof. rewrite rt_fst, map_map, Forall_map. eapply Forall_impl; [|exact HF]. cbn. tauto. Qed.
  Lemma rt_ne : rt <> []. Proof. unfold rt, btps. destruct tps; [congruence|discriminate]. Qed.
  Lemma tp_spec : Forall (time_on s) (time_points tps) /\ map bval (time_points tps) = running 0 (0 :: map fst rt) /\ length (time_points tps) = S (length tps).
  Proof.
    assert (R : Forall (time_on s) (running_num n0 (map fst tps)) /\ map bval (running_num n0 (map fst tps)) = running (bval n0) (map bval (map fst tps))).
    { apply running_exact; auto; [apply n0_time|rewrite n0_val; lra| |].
      - rewrite Forall_map. eapply Forall_impl; [|exact HF]. cbn. intros e (A & B & _). split; [exact A|lra].
      - rewrite n0_val, Rplus_0_l. unfold break_time in HT. rewrite <- rt_fst. fold rt in HT. rewrite firstn_all2 in HT; [exact HT|]. rewrite map_length, rt_length. lia. }
    destruct R as (A & B). rewrite n0_val, <- rt_fst in B. assert (C : map bval (time_points tps) = running 0 (0 :: map fst rt)).
    { unfold time_points. cbn [map running]. rewrite n0_val, Rplus_0_l, B. reflexivity. }
    split; [constructor; [apply n0_time|exact A]|]. split; [exact C|]. rewrite <- (map_length bval), C, time_point_length, rt_length. reflexivity.
  Qed.
  Lemma tp_nth k : (k <= length tps)%nat -> time_on s (nth k (time_points tps) n0) /\ bval (nth k (time_points tps) n0) = break_time rt k /\ 0 <= break_time rt k < p2 (53 - s).
  Proof.
    intros Hk. destruct tp_spec as (A & B & C). split; [|split].
    - rewrite Forall_forall in A. apply A. apply nth_In. lia.
    - rewrite <- (map_nth bval), B, n0_val. apply time_point_nth. rewrite rt_length. exact Hk.
    - split; [|pose proof (break_le rt rt_pos k (length tps)) as L; rewrite rt_length in L; specialize (L ltac:(lia)); fold rt in HT; lra].
      pose proof (break_le rt rt_pos 0 k) as L. rewrite rt_length in L. specialize (L ltac:(lia)). unfold break_time at 1 in L. cbn in L. exact L.
  Qed.
  Lemma pp_nth k : (k <= length tps)%nat -> bfin_pt (nth k (pos_points start tps) (n0, n0)) /\ within M (nth k (pos_points start tps) (n0, n0)) /\ bpt (nth k (pos_points start tps) (n0, n0)) = listed_position rstart rt k.
  Proof.
    intros Hk. assert (F : Forall (fun p => bfin_pt p /\ within M p) (pos_points start tps)).
    { unfold pos_points. constructor; [auto|]. rewrite Forall_map. eapply Forall_impl; [|exact HF]. cbn. tauto. }
    rewrite Forall_forall in F. destruct (F (nth k (pos_points start tps) (n0, n0))) as (A & B). { apply nth_In. unfold pos_points. cbn. rewrite map_length. lia. }
    split; [exact A|]. split; [exact B|]. unfold listed_position, rstart, rt, btps, pos_points. rewrite map_map. cbn [snd].
    replace (0, 0) with (bpt (n0, n0)) by (unfold bpt; cbn [fst snd]; rewrite n0_val; reflexivity). rewrite <- (map_nth bpt). cbn [map]. rewrite map_map. reflexivity.
  Qed.
  Lemma vel_leg nsqrt pos t i : time_on s t -> (i < length tps)%nat -> break_time rt i <= bval t < break_time rt (S i) ->
    let D := SFsub 53 1024 (nth (S i) (time_points tps) n0) (nth i (time_points tps) n0) in
    let q := nth (S i) (pos_points start tps) (n0, n0) in let p := nth i (pos_points start tps) (n0, n0) in
    interval_vel_num nsqrt (pos_points start tps) (time_points tps) pos t = Some (SFdiv 53 1024 (SFsub 53 1024 (fst q) (fst p)) D, SFdiv 53 1024 (SFsub 53 1024 (snd q) (snd p)) D).
  Proof.
    intros (Ft & _) Hi Ht D q p. destruct tp_spec as (A & B & C). unfold interval_vel_num. rewrite C. cbv zeta. replace (S (length tps) - 1)%nat with (length tps) by lia.
    destruct (tp_nth (length tps) ltac:(lia)) as ((F1 & _) & V1 & _). cbn [nltb NumB]. rewrite ltb_spec, V1 by auto.
    assert (bval t < break_time rt (length tps)) by (pose proof (break_le rt rt_pos (S i) (length tps)) as L; rewrite rt_length in L; specialize (L ltac:(lia)); lra).
    destruct (Rltb_spec (break_time rt (length tps)) (bval t)); [lra|].
    assert (E : argmax_bool (map (fun x : b64 => SFltb t x) (time_points tps)) = S i).
    { unfold argmax_bool. set (l := map _ _). assert (L : length l = S (length tps)) by (unfold l; rewrite map_length; apply C).
      assert (N : forall k, (k <= length tps)%nat -> nth k l false = Rltb (bval t) (break_time rt k)).
      { intros k Hk. unfold l. rewrite (nth_indep _ false (SFltb t (@n0 b64 NumB))) by (fold l; lia). rewrite (map_nth (fun x : b64 => SFltb t x)). destruct (tp_nth k Hk) as ((F & _) & V & _). transitivity (Rltb (bval t) (bval (nth k (time_points tps) n0))); [apply ltb_spec; auto|rewrite V; reflexivity]. }
      destruct (first_true l 0) as [j|] eqn:Ej.
      - apply first_true_some in Ej as (A' & B' & C'). rewrite Nat.sub_0_r in B'. rewrite N in B' by lia. destruct (Rltb_spec (bval t) (break_time rt j)) as [B''|]; [|discriminate].
        destruct (Nat.lt_trichotomy j (S i)) as [J|[J|J]]; [|exact J|].
        + pose proof (break_le rt rt_pos j i) as K. rewrite rt_length in K. specialize (K ltac:(lia)). lra.
        + specialize (C' (S i) ltac:(lia)). rewrite Nat.sub_0_r, N in C' by lia. destruct (Rltb_spec (bval t) (break_time rt (S i))); [discriminate|lra].
      - pose proof (first_true_none l 0 Ej (S i)) as Z. rewrite N in Z by lia. destruct (Rltb_spec (bval t) (break_time rt (S i))); [discriminate|lra]. }
    rewrite E. reflexivity.
  Qed.
  Lemma run_snoc nsqrt dts d : interval_run nsqrt start tps (dts ++ [d]) =
    match interval_run nsqrt start tps dts with Some st => interval_move_num nsqrt (pos_points start tps) (time_points tps) d st | None => None end.
  Proof. unfold interval_run. rewrite fold_left_app. reflexivity. Qed.
  Lemma lands_prefix dts d b : 0 < d -> lands_on (dts ++ [d]) b -> b <= rsum dts -> lands_on dts b.
  Proof.
    intros D0 (k & Hk & Ek) Hb. rewrite app_length in Hk. cbn in Hk. destruct (le_lt_dec k (length dts)) as [K|K].
    - exists k. split; auto. rewrite firstn_app in Ek. replace (k - length dts)%nat with 0%nat in Ek by lia. cbn [firstn] in Ek. rewrite app_nil_r in Ek. exact Ek.
    - rewrite firstn_all2 in Ek by (rewrite app_length; cbn; lia). rewrite rsum_app in Ek. unfold rsum in Ek at 2. cbn in Ek. lra.
  Qed.
  Lemma lands_last dts d b : Forall (fun x => 0 <= x) dts -> lands_on (dts ++ [d]) b -> rsum dts < b -> b = rsum dts + d.
  Proof.
    intros F (k & Hk & Ek) Hb. rewrite app_length in Hk. cbn in Hk. destruct (le_lt_dec k (length dts)) as [K|K].
    - rewrite firstn_app in Ek. replace (k - length dts)%nat with 0%nat in Ek by lia. cbn [firstn] in Ek. rewrite app_nil_r in Ek.
      pose proof (firstn_nonneg_le dts F k (length dts) K) as L. rewrite firstn_all in L. lra.
    - rewrite firstn_all2 in Ek by (rewrite app_length; cbn; lia). rewrite rsum_app in Ek. unfold rsum in Ek at 2. cbn in Ek. lra.
  Qed.
  Lemma mix_bound a b l : Rabs a <= M -> Rabs b <= M -> 0 <= l <= 1 -> Rabs (a + l * (b - a)) <= M.
  Proof. intros A B L. apply Rabs_le. apply Rabs_le_inv in A; apply Rabs_le_inv in B. nra. Qed.
  Lemma run_close nsqrt dts : Forall (fun d => time_on s d /\ 0 < bval d) dts -> rsum (map bval dts) <= break_time rt (length tps) ->
    (forall i, (i <= length tps)%nat -> break_time rt i <= rsum (map bval dts) -> lands_on (map bval dts) (break_time rt i)) -> INR (length dts) <= p2 49 ->
    exists pos t m, interval_run nsqrt start tps dts = Some (pos, t) /\ moves (interval_new rstart rt) (map bval dts) = Some m /\ bfin_pt pos /\ time_on s t /\ bval t = rsum (map bval dts) /\
      coords_within (10 * INR (length dts) * p2 (-53) * M) (bpt pos) (m_pos m).
  Proof.
    induction dts as [|d dts IH] using rev_ind; intros Fd Hle Hl HN.
    - exists start, n0, (interval_new rstart rt). split; [reflexivity|]. split; [reflexivity|]. split; [exact Fs|]. split; [apply n0_time|]. split; [apply n0_val|].
      cbn [m_pos interval_new length INR]. unfold rstart, coords_within. rewrite !Rminus_diag_eq, Rabs_R0 by reflexivity. lra.
    - apply Forall_app in Fd as (Fd & Fd1). inversion_clear Fd1 as [|? ? (Td & D0) _]. rewrite map_app in Hle, Hl |- *. cbn [map] in *. pose proof Hl as Hl'. rewrite rsum_app in Hle, Hl'.
      assert (Ed : rsum [bval d] = bval d) by (unfold rsum; cbn; ring). rewrite Ed in Hle, Hl'.
      assert (Fn : Forall (fun x => 0 <= x) (map bval dts)). { rewrite Forall_map. eapply Forall_impl; [|exact Fd]. cbn. intros x (_ & X). lra. }
      pose proof (rsum_nonneg _ Fn) as S0. rewrite app_length, plus_INR in HN |- *. cbn [length INR] in HN |- *.
      destruct IH as (pos & t & m & E & Em & Fp & Ft & Vt & (C1 & C2)); auto; [lra| |lra|].
      { intros i Hi Hb. apply (lands_prefix _ (bval d)); auto. apply Hl'; auto. lra. }
      destruct (locate rt (rsum (map bval dts)) rt_pos) as (i & Hi & Hb); [rewrite rt_length; lra|]. rewrite rt_length in Hi.
      assert (Hn : rsum (map bval dts) + bval d <= break_time rt (S i)).
      { destruct (Rle_lt_dec (rsum (map bval dts) + bval d) (break_time rt (S i))) as [|L]; auto.
        pose proof (lands_last _ _ _ Fn (Hl' (S i) ltac:(lia) ltac:(lra)) ltac:(lra)). lra. }
      (* the exact object *)
      destruct (interval_follows rstart rt (map bval dts) rt_ne rt_pos Fn) as (m1 & Em1 & Cm & Rm & Tm & Xm & Pm); [rewrite rt_length; lra| |].
      { intros j Hj Hjb. rewrite rt_length in Hj. apply (lands_prefix _ (bval d)); auto. apply Hl'; auto. lra. }
      assert (m1 = m) by congruence. subst m1. specialize (Pm i ltac:(rewrite rt_length; lia) ltac:(lra)).
      set (A := listed_position rstart rt i) in *. set (B := listed_position rstart rt (S i)) in *. set (DD := break_time rt (S i) - break_time rt i) in *.
      assert (DP : 0 < DD) by (unfold DD; pose proof (break_mono rt rt_pos i (S i)) as K; rewrite rt_length in K; specialize (K ltac:(lia)); lra).
      assert (Mv : move (bval d) m = Some (MM (m_class m) (padd (m_pos m) (scale (bval d) (smul (/ DD) (vsub B A)))) (0 + 0 * bval d) (rsum (map bval dts) + bval d) 0)).
      { unfold move, lin_vel, rot_vel. rewrite Cm, Tm, Rm, Xm. cbn [m_class interval_new]. rewrite (interval_vel_on rstart rt _ _ _ i rt_pos) by (rewrite ?rt_length; lia || lra). reflexivity. }
      (* the numbers *)
      destruct (tp_nth i ltac:(lia)) as (T1 & V1 & B1). destruct (tp_nth (S i) ltac:(lia)) as (T2 & V2 & B2). destruct (pp_nth i ltac:(lia)) as ((F1 & F2) & (W1 & W2) & E1). destruct (pp_nth (S i) ltac:(lia)) as ((F3 & F4) & (W3 & W4) & E2).
      fold A in E1. fold B in E2. set (p := nth i (pos_points start tps) (n0, n0)) in *. set (q := nth (S i) (pos_points start tps) (n0, n0)) in *.
      destruct (sub_exact s Hs _ _ T1 T2 ltac:(lra) ltac:(lra)) as (FD & VD & BD). rewrite V1, V2 in VD, BD. fold DD in VD, BD. set (D := SFsub 53 1024 _ _) in *.
      pose proof (vel_leg nsqrt pos t i Ft Hi ltac:(rewrite Vt; lra)) as Vl. cbv zeta in Vl. fold p q D in Vl.
      destruct (add_exact s Hs t d Ft Td ltac:(lra) ltac:(lra)) as (Ts & Vs); [rewrite Vt; fold rt in HT; lra|].
      pose proof (pos_INR (length dts)) as N0. pose proof (p2_pos (-53)) as U0. set (n := INR (length dts)) in *. set (u := p2 (-53)) in *.
      assert (Un : 16 * (n * u) <= 1). { replace 1 with (p2 4 * (p2 49 * p2 (-53))) by (rewrite <- !p2_add; reflexivity). fold u. rewrite (p2_Z 4) by lia. change (2 ^ 4)%Z with 16%Z. apply Rmult_le_compat_l; [lra|]. apply Rmult_le_compat_r; lra. }
      assert (Em0 : 0 <= 10 * n * u * M). { repeat apply Rmult_le_pos; lra. }
      assert (Em1' : 10 * n * u * M <= M). { rewrite <- (Rmult_1_l M) at 2. apply Rmult_le_compat_r; lra. }
      set (X := m_pos m) in *. set (la := (rsum (map bval dts) + bval d - break_time rt i) / DD).
      assert (La : 0 <= la <= 1). { unfold la. split; [apply Rmult_le_pos; [lra|left; apply Rinv_0_lt_compat; lra]|]. apply Rmult_le_reg_r with DD; auto. unfold Rdiv. rewrite Rmult_assoc, Rinv_l by lra. unfold DD. lra. }
      assert (X1 : fst X + (fst B - fst A) / DD * bval d = fst A + la * (fst B - fst A)). { rewrite Pm. unfold along, vadd, smul, vsub, la. cbn [fst snd]. field. lra. }
      assert (X2 : snd X + (snd B - snd A) / DD * bval d = snd A + la * (snd B - snd A)). { rewrite Pm. unfold along, vadd, smul, vsub, la. cbn [fst snd]. field. lra. }
      assert (A1 : fst A = bval (fst p)) by (rewrite <- E1; reflexivity). assert (A2 : snd A = bval (snd p)) by (rewrite <- E1; reflexivity).
      assert (A3 : fst B = bval (fst q)) by (rewrite <- E2; reflexivity). assert (A4 : snd B = bval (snd q)) by (rewrite <- E2; reflexivity).
      pose proof (mix_bound (fst A) (fst B) la ltac:(rewrite A1; auto) ltac:(rewrite A3; auto) La) as G1. pose proof (mix_bound (snd A) (snd B) la ltac:(rewrite A2; auto) ltac:(rewrite A4; auto) La) as G2.
      rewrite <- X1 in G1. rewrite <- X2 in G2. rewrite <- VD in G1, G2, DP. rewrite A1, A3 in G1. rewrite A2, A4 in G2. destruct Fp as (P1 & P2).
      assert (dD : bval d <= bval D) by (rewrite VD; unfold DD; lra). destruct Td as (Fdd & Td).
      destruct (step_err M (10 * n * u * M) (fst p) (fst q) D d (fst pos) (fst X) F1 F3 FD Fdd P1 M1 M2 W1 W3 ltac:(lra) ltac:(lra) D0 dD Em1' C1 G1) as (R1 & R2).
      destruct (step_err M (10 * n * u * M) (snd p) (snd q) D d (snd pos) (snd X) F2 F4 FD Fdd P2 M1 M2 W2 W4 ltac:(lra) ltac:(lra) D0 dD Em1' C2 G2) as (R3 & R4).
      rewrite run_snoc, E. cbn [interval_move_num]. rewrite Vl. cbn [fst snd nadd nmul NumB]. rewrite moves_app, Em, moves_one, Mv.
      eexists _, _, _. split; [reflexivity|]. split; [reflexivity|]. split; [split; assumption|]. split; [exact Ts|]. split; [rewrite Vs, rsum_app, Ed, Vt; reflexivity|].
      cbn [m_pos]. fold u in R2, R4. split; cbn [fst snd bpt]; eapply Rle_trans; [|apply Req_le| |apply Req_le].
      + unfold padd, scale, smul, vsub. cbn [fst snd nadd NumR]. rewrite A1, A3, <- VD. replace (fst X + bval d * (/ bval D * (bval (fst q) - bval (fst p)))) with (fst X + (bval (fst q) - bval (fst p)) / bval D * bval d) by (unfold Rdiv; ring). exact R2.
      + ring.
      + unfold padd, scale, smul, vsub. cbn [fst snd nadd NumR]. rewrite A2, A4, <- VD. replace (snd X + bval d * (/ bval D * (bval (snd q) - bval (snd p)))) with (snd X + (bval (snd q) - bval (snd p)) / bval D * bval d) by (unfold Rdiv; ring). exact R4.
      + ring.
  Qed.
End Run.

(** C129: durations and steps are multiples of 2^-s below 2^(53-s), the listed coordinates are at most M in magnitude, and the steps land on the break times. Then the clock
    is exact, each leg is left when its time has come, and after N steps the position is within 10 N 2^-53 M of the one at the time-proportional place of the leg. *)
Theorem C129_interval : forall nsqrt s M start tps dts, (0 <= s <= 500)%Z -> 1 <= M <= p2 300 -> tps <> [] -> bfin_pt start -> within M start ->
  Forall (fun e => time_on s (fst e) /\ 0 < bval (fst e) /\ bfin_pt (snd e) /\ within M (snd e)) tps -> Forall (fun d => time_on s d /\ 0 < bval d) dts ->
  let legs := btps tps in let now := rsum (map bval dts) in
  break_time legs (length tps) < p2 (53 - s) -> now <= break_time legs (length tps) ->
  (forall i, (i <= length tps)%nat -> break_time legs i <= now -> lands_on (map bval dts) (break_time legs i)) -> INR (length dts) <= p2 49 ->
  exists pos t, interval_run nsqrt start tps dts = Some (pos, t) /\ bfin_pt pos /\ bfin t /\ bval t = now /\
    forall i, (i < length tps)%nat -> break_time legs i <= now <= break_time legs (S i) ->
      coords_within (10 * INR (length dts) * p2 (-53) * M) (bpt pos)
        (along (listed_position (bpt start) legs i) (listed_position (bpt start) legs (S i)) ((now - break_time legs i) / (break_time legs (S i) - break_time legs i))).
Proof.
  intros nsqrt s M start tps dts Hs (M1 & M2) NE Fs Ws HF Fd legs now HT Hle Hl HN.
  destruct (run_close s M start tps Hs M1 M2 NE Fs Ws HF HT nsqrt dts Fd Hle Hl HN) as (pos & t & m & E & Em & Fp & Ft & Vt & C).
  exists pos, t. split; [exact E|]. split; [exact Fp|]. split; [apply Ft|]. split; [exact Vt|]. intros i Hi Hb.
  assert (L : length legs = length tps) by apply map_length.
  destruct (interval_follows (bpt start) legs (map bval dts)) as (m1 & Em1 & _ & _ & _ & _ & P).
  - unfold legs, btps. destruct tps; [congruence|discriminate].
  - eapply (rt_pos s M); eauto.
  - rewrite Forall_map. eapply Forall_impl; [|exact Fd]. cbn. intros x (_ & X). lra.
  - rewrite L. exact Hle.
  - rewrite L. exact Hl.
  - assert (m1 = m) by (unfold legs in Em1; congruence). subst m1. rewrite L in P. specialize (P i Hi Hb). fold now in P. rewrite <- P. exact C.
Qed.
Print Assumptions C129_interval.
(** *** two legs of one second each, four steps of a quarter and one of a half *)
Definition fz (z : Z) : b64 := binary_normalize 53 1024 z 0 false.
Definition two_legs : list (b64 * pt b64) := [(fz 1, (fz 1, fz 0)); (fz 1, (fz 1, fz 1))].
Definition quarter : b64 := binary_normalize 53 1024 1 (-2) false.
Definition half : b64 := binary_normalize 53 1024 1 (-1) false.
Example C129_example : interval_run b64_sqrt (fz 0, fz 0) two_legs [quarter; quarter; quarter; quarter; half] = Some ((fz 1, half), binary_normalize 53 1024 3 (-1) false) /\
  Forall (fun e => time_on 2 (fst e) /\ 0 < bval (fst e) /\ bfin_pt (snd e) /\ within 1 (snd e)) two_legs /\ Forall (fun d => time_on 2 d /\ 0 < bval d) [quarter; half] /\
  break_time (btps two_legs) 2 = 2 /\
  (let dts := map bval [quarter; quarter; quarter; quarter; half] in forall i, (i <= 2)%nat -> break_time (btps two_legs) i <= rsum dts -> lands_on dts (break_time (btps two_legs) i)).
Proof.
  split; [vm_compute; reflexivity|].
  assert (V1 : bval (fz 1) = 1) by (rewrite b64q_R; unfold Q2R; vm_compute b64q; cbn; lra). assert (V0 : bval (fz 0) = 0) by (rewrite b64q_R; unfold Q2R; vm_compute b64q; cbn; lra).
  assert (Vq : bval quarter = / 4) by (rewrite b64q_R; unfold Q2R; vm_compute b64q; cbn; lra). assert (Vh : bval half = / 2) by (rewrite b64q_R; unfold Q2R; vm_compute b64q; cbn; lra).
  assert (P : p2 (- (2)) = / 4) by (rewrite p2_inv, p2_Z by lia; change (2 ^ 2)%Z with 4%Z; reflexivity).
  assert (T1 : time_on 2 (fz 1)) by (split; [vm_compute; reflexivity|]; exists 4%Z; rewrite V1, P; lra). assert (Tq : time_on 2 quarter) by (split; [vm_compute; reflexivity|]; exists 1%Z; rewrite Vq, P; lra).
  assert (Th : time_on 2 half) by (split; [vm_compute; reflexivity|]; exists 2%Z; rewrite Vh, P; lra).
  split; [|split; [|split]].
  - assert (W : forall x y, (x = 0 \/ x = 1)%Z -> (y = 0 \/ y = 1)%Z -> time_on 2 (fz 1) /\ 0 < bval (fz 1) /\ bfin_pt (fz x, fz y) /\ within 1 (fz x, fz y)).
    { intros x y [-> | ->] [-> | ->]; (split; [exact T1|]; split; [rewrite V1; lra|]; split; [split; vm_compute; auto|]; split; cbn [fst snd]; rewrite ?V1, ?V0, ?Rabs_R0, ?Rabs_R1; lra). }
    constructor; [apply (W 1%Z 0%Z); lia|]. constructor; [apply (W 1%Z 1%Z); lia|constructor].
  - constructor; [split; [exact Tq|lra]|]. constructor; [split; [exact Th|lra]|constructor].
  - unfold break_time, btps, two_legs, rsum. cbn [map fst snd firstn fold_right]. rewrite V1. lra.
  - cbv zeta. intros i Hi. unfold break_time, btps, two_legs, rsum, lands_on. cbn [map fst snd]. rewrite V1, Vq, Vh. destruct i as [|[|[|i]]]; [| | |lia]; cbn [firstn fold_right]; intros Hb.
    + exists 0%nat. split; [lia|]. reflexivity.
    + exists 4%nat. split; [cbn; lia|]. unfold rsum. cbn [firstn fold_right]. lra.
    + lra.
Qed.
(** with steps of 0.1 the clock misses the break time 1: after eleven steps the second leg is under way, but the obstacle has gone on along the first one and is off the second by 0.09 *)
Theorem C129_decimal_refuted : exists start tps dts pos t, tps <> [] /\ Forall (fun e => 0 < bval (fst e) /\ bfin_pt (snd e) /\ within 1 (snd e)) tps /\ Forall (fun d => bfin d /\ 0 < bval d) dts /\
  bfin_pt start /\ within 1 start /\ interval_run b64_sqrt start tps dts = Some (pos, t) /\
  let legs := btps tps in let now := rsum (map bval dts) in
  break_time legs 1 < now < break_time legs 2 /\
  forall k, 0.09 < Rabs (fst (bpt pos) - fst (along (listed_position (bpt start) legs 1) (listed_position (bpt start) legs 2) k)).
Proof.
  set (tenth := @nlit b64 NumB (1 # 10)). exists (fz 0, fz 0), two_legs, (repeat tenth 11).
  assert (V1 : bval (fz 1) = 1) by (rewrite b64q_R; unfold Q2R; vm_compute b64q; cbn; lra). assert (V0 : bval (fz 0) = 0) by (rewrite b64q_R; unfold Q2R; vm_compute b64q; cbn; lra).
  assert (Vt : 0.1 <= bval tenth <= 0.1001). { rewrite b64q_R. replace 0.1 with (Q2R (1 # 10)) by (unfold Q2R; cbn; lra). replace 0.1001 with (Q2R (1001 # 10000)) by (unfold Q2R; cbn; lra). split; apply Qle_Rle; vm_compute; discriminate. }
  set (r := interval_run b64_sqrt (fz 0, fz 0) two_legs (repeat tenth 11)). destruct r as [(pos, t)|] eqn:E; [|vm_compute in E; discriminate]. exists pos, t.
  split; [discriminate|]. split.
  { assert (W : forall x y, (x = 0 \/ x = 1)%Z -> (y = 0 \/ y = 1)%Z -> 0 < bval (fz 1) /\ bfin_pt (fz x, fz y) /\ within 1 (fz x, fz y)).
    { intros x y [-> | ->] [-> | ->]; (split; [rewrite V1; lra|]; split; [split; vm_compute; auto|]; split; cbn [fst snd]; rewrite ?V1, ?V0, ?Rabs_R0, ?Rabs_R1; lra). }
    constructor; [apply (W 1%Z 0%Z); lia|]. constructor; [apply (W 1%Z 1%Z); lia|constructor]. }
  split. { apply Forall_forall. intros d Hd. apply repeat_spec in Hd. subst d. split; [vm_compute; reflexivity|lra]. }
  split; [split; exact I|]. split; [split; cbn [fst snd]; rewrite V0, Rabs_R0; lra|]. split; [reflexivity|]. cbv zeta. split.
  - unfold break_time, btps, two_legs, rsum. cbn [map fst snd firstn fold_right repeat]. rewrite V1. lra.
  - intros k. assert (X : 1.095 <= bval (fst pos)).
    { assert (Eq : Qle_bool (1095 # 1000) (b64q (match r with Some (p, _) => fst p | None => fz 0 end)) = true) by (vm_compute; reflexivity). rewrite E in Eq. apply Qle_bool_iff, Qle_Rle in Eq. rewrite <- b64q_R in Eq. unfold Q2R in Eq. cbn in Eq. lra. }
    unfold btps, two_legs, listed_position, along, vadd, smul, vsub. cbn [map nth fst snd bpt]. rewrite V1. unfold Rabs. destruct (Rcase_abs _); lra.
Qed.
Print Assumptions C129_decimal_refuted.
