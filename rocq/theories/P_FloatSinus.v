(** Property C137: Static and SinusVelocity of obstacles/motion_model.py in binary64 arithmetic. *)
From Coq Require Import ZArith QArith Qreals Reals SpecFloat Bool Lia Lra List.
From Verif Require Import Num Spec M_Cg M_Motion M_Float M_FloatSinus S_Float L_Float L_FloatCmp L_FloatDiv L_FloatCg L_FloatGrid L_Geom L_Gen L_Motion L_FloatMotion L_FloatEllipse P_Float P_FloatAffine P_FloatMotion P_FloatPast P_FloatPolygon.
Import ListNotations.
Local Open Scope R_scope.

(** the steps: nonnegative multiples of 2^-s whose sum is below 2^(53-s) and at most 2^100 *)
Definition steps_on (s : Z) (dts : list b64) : Prop :=
  Forall (fun d => time_on s d /\ 0 <= bval d) dts /\ rsum (map bval dts) < p2 (53 - s) /\ rsum (map bval dts) <= p2 100.
(** the sum over the steps of  mag cos(f T) g(heading at T) dt : [T] the time before the step, the heading [rot + cos_sum mag2 f2] of the steps before it *)
Definition heading_sum (g : R -> R) (mag f rot mag2 f2 : R) (dts : list R) : R :=
  rsum (map (fun k => mag * cos (f * rsum (firstn k dts)) * g (rot + cos_sum mag2 f2 (firstn k dts)) * nth k dts 0) (seq 0 (length dts))).
(** np.cos and np.sin are within 2^-53 at every number *)
Definition trig_near_all (ncos nsin : b64 -> b64) : Prop := forall r, bfin r -> trig_near ncos nsin r.

Lemma sin_abs x : Rabs (sin x) <= Rabs x.
Proof.
  assert (P : forall y, 0 < y -> Rabs (sin y) <= y).
  { intros y Y. pose proof (sin_lt_x y Y). pose proof (SIN_bound y). apply Rabs_le. split; [|lra]. destruct (Rle_dec 1 y); [lra|]. pose proof PI_4. pose proof PI2_1. assert (0 <= sin y) by (apply sin_ge_0; unfold PI2 in *; lra). lra. }
  destruct (Rtotal_order x 0) as [H|[->|H]].
  - rewrite (Rabs_left x) by lra. rewrite <- (Rabs_Ropp (sin x)), <- sin_neg. apply P. lra.
  - rewrite sin_0. lra.
  - rewrite (Rabs_right x) by lra. apply P. exact H.
Qed.
Lemma cos_lip a b : Rabs (cos a - cos b) <= Rabs (a - b).
Proof.
  rewrite form2. rewrite !Rabs_mult. pose proof (sin_abs ((a - b) / 2)) as S1. pose proof (SIN_bound ((a + b) / 2)) as S2. assert (S3 : Rabs (sin ((a + b) / 2)) <= 1) by (apply Rabs_le; lra).
  replace (Rabs (a - b)) with (2 * Rabs ((a - b) / 2) * 1) by (unfold Rdiv; rewrite Rabs_mult, (Rabs_right (/ 2)); lra). rewrite (Rabs_left (-2)) by lra.
  apply Rmult_le_compat; [|apply Rabs_pos| |exact S3].
  - pose proof (Rabs_pos (sin ((a - b) / 2))). lra.
  - lra.
Qed.
Lemma sin_lip a b : Rabs (sin a - sin b) <= Rabs (a - b).
Proof. rewrite <- !cos_shift. rewrite (Rabs_minus_sym a b). eapply Rle_trans; [apply cos_lip|]. right. f_equal. lra. Qed.

Lemma acc_step M e k z v d Zr V : 1 <= M -> M <= p2 300 -> bfin z -> bfin v -> bfin d -> Rabs (bval z - Zr) <= e -> e <= M / 1000 -> Rabs (bval v * bval d - V) <= k -> k <= M / 1000 -> Rabs V <= M -> Rabs (Zr + V) <= M ->
  bfin (SFadd 53 1024 z (SFmul 53 1024 v d)) /\ Rabs (bval (SFadd 53 1024 z (SFmul 53 1024 v d)) - (Zr + V)) <= e + k + 21 / 10 * (p2 (-53) * M).
Proof.
  intros M1 M2 Fz Fv Fd Ez E1 Ev K1 BV BZ. destruct (consts M M1) as (U0 & U1 & UM & UM' & E0 & E2 & _). set (u := p2 (-53)) in *. set (eta := p2 (-1075)) in *.
  assert (A1 : Rabs (bval v * bval d) <= 1.001 * M) by (replace (bval v * bval d) with ((bval v * bval d - V) + V) by ring; eapply Rle_trans; [apply abs_sum; [exact Ev|exact BV]|lra]).
  destruct (mul_near v d Fv Fd) as (Fw & Nw & _); [apply (big M M1 M2); lra|]. fold u eta in Nw. set (w := SFmul 53 1024 v d) in *.
  assert (N1 : u * Rabs (bval v * bval d) <= u * (1.001 * M)) by (apply Rmult_le_compat_l; lra).
  assert (Ew : Rabs (bval w - V) <= k + 1.002 * (u * M)) by (replace (bval w - V) with ((bval w - bval v * bval d) + (bval v * bval d - V)) by ring; eapply Rle_trans; [apply abs_sum; [exact Nw|exact Ev]|lra]).
  assert (S1 : Rabs ((bval z + bval w) - (Zr + V)) <= e + k + 1.002 * (u * M)) by (replace (bval z + bval w - (Zr + V)) with ((bval z - Zr) + (bval w - V)) by ring; eapply Rle_trans; [apply abs_sum; [exact Ez|exact Ew]|lra]).
  assert (S2 : Rabs (bval z + bval w) <= 1.01 * M) by (replace (bval z + bval w) with ((bval z + bval w - (Zr + V)) + (Zr + V)) by ring; eapply Rle_trans; [apply abs_sum; [exact S1|exact BZ]|lra]).
  destruct (add_near z w Fz Fw) as (Fs & Ns & _); [apply (big M M1 M2); lra|]. fold u eta in Ns. split; [exact Fs|].
  assert (N2 : u * Rabs (bval z + bval w) <= u * (1.01 * M)) by (apply Rmult_le_compat_l; lra).
  replace (bval (SFadd 53 1024 z w) - (Zr + V)) with ((bval (SFadd 53 1024 z w) - (bval z + bval w)) + ((bval z + bval w) - (Zr + V))) by ring. eapply Rle_trans; [apply abs_sum; [exact Ns|exact S1]|]. lra.
Qed.

Section Velocity.
  Variables (ncos nsin : b64 -> b64).
  Hypothesis TN : trig_near_all ncos nsin.
  Variables (M Th : R) (mag fr t d : b64).
  Hypotheses (M1 : 1 <= M) (M2 : M <= p2 300) (Th0 : 0 <= Th) (Th1 : Th <= p2 30) (Fm : bfin mag) (Ff : bfin fr) (Ft : bfin t) (Fd : bfin d).
  Hypotheses (Bm : Rabs (bval mag) <= p2 300) (D0 : 0 <= bval d) (D1 : bval d <= p2 100) (MD : Rabs (bval mag) * bval d <= M) (BT : Rabs (bval fr * bval t) <= Th).
  Let v := SFmul 53 1024 mag (ncos (SFmul 53 1024 fr t)).
  Let C := cos (bval fr * bval t).
  Lemma th_u : p2 (-53) * Th <= 1 / 1000000.
  Proof. apply Rle_trans with (p2 (-53) * p2 30); [apply Rmult_le_compat_l; [left; apply p2_pos|exact Th1]|]. rewrite <- p2_add. change (-53 + 30)%Z with (- (23))%Z. rewrite p2_inv, p2_Z by lia. change (2 ^ 23)%Z with 8388608%Z. lra. Qed.
  Lemma vel_err : bfin v /\ Rabs (bval v * bval d - bval mag * C * bval d) <= (Th + 21 / 10) * (p2 (-53) * M) /\ Rabs (bval v) <= p2 301.
  Proof.
    destruct (consts M M1) as (U0 & U1 & UM & UM' & E0 & E2 & E3). pose proof th_u as TU. set (u := p2 (-53)) in *. set (eta := p2 (-1075)) in *.
    destruct (mul_near fr t Ff Ft) as (Fa & Na & _); [apply Rle_trans with Th; [exact BT|]; apply Rle_trans with (p2 30); [exact Th1|apply p2_le; lia]|]. fold u eta in Na. set (a := SFmul 53 1024 fr t) in *.
    assert (N1 : u * Rabs (bval fr * bval t) <= u * Th) by (apply Rmult_le_compat_l; lra).
    destruct (TN a Fa) as (Fc & _ & Nc & _). set (c := ncos a) in *. assert (I53 : / 2 ^ 53 = u) by (unfold u; change (-53)%Z with (- (53))%Z; rewrite p2_inv, p2_Z by lia; rewrite pow_IZR; reflexivity). rewrite I53 in Nc.
    assert (Ec : Rabs (bval c - C) <= u + u * Th + eta).
    { replace (bval c - C) with ((bval c - cos (bval a)) + (cos (bval a) - C)) by ring. eapply Rle_trans; [apply abs_sum; [exact Nc|eapply Rle_trans; [apply cos_lip|exact Na]]|]. lra. }
    assert (C1 : Rabs C <= 1) by (pose proof (COS_bound (bval fr * bval t)); apply Rabs_le; unfold C; lra).
    assert (Bc : Rabs (bval c) <= 1.001) by (replace (bval c) with ((bval c - C) + C) by ring; eapply Rle_trans; [apply abs_sum; [exact Ec|exact C1]|lra]).
    pose proof (abs_mul _ _ _ _ Bm Bc) as Bmc. assert (P1 : p2 301 = 2 * p2 300) by (change 301%Z with (1 + 300)%Z; rewrite p2_add; f_equal; rewrite p2_Z by lia; reflexivity). pose proof (p2_pos 300) as P0.
    destruct (mul_near mag c Fm Fc) as (Fv & Nv & _); [apply Rle_trans with (p2 301); [lra|apply p2_le; lia]|]. fold u eta in Nv. fold v in Fv, Nv. split; [exact Fv|].
    set (g := Rabs (bval mag)) in *. assert (G0 : 0 <= g) by apply Rabs_pos.
    assert (Bmc' : Rabs (bval mag * bval c) <= g * 1.001) by (apply abs_mul; [apply Rle_refl|exact Bc]).
    assert (Nv' : Rabs (bval v - bval mag * bval c) <= g * (1.001 * u) + eta) by (assert (u * Rabs (bval mag * bval c) <= u * (g * 1.001)) by (apply Rmult_le_compat_l; lra); lra).
    split.
    - assert (Ev : Rabs (bval v - bval mag * C) <= g * (2.002 * u + u * Th) + 2 * eta * (1 + g)).
      { replace (bval v - bval mag * C) with ((bval v - bval mag * bval c) + bval mag * (bval c - C)) by ring. eapply Rle_trans; [apply abs_sum; [exact Nv'|apply abs_mul; [apply Rle_refl|exact Ec]]|]. fold g.
        assert (0 <= g * eta) by (apply Rmult_le_pos; lra). assert (0 <= g * u) by (apply Rmult_le_pos; lra). lra. }
      replace (bval v * bval d - bval mag * C * bval d) with ((bval v - bval mag * C) * bval d) by ring. rewrite Rabs_mult, (Rabs_pos_eq (bval d)) by exact D0.
      apply Rle_trans with ((g * (2.002 * u + u * Th) + 2 * eta * (1 + g)) * bval d); [apply Rmult_le_compat_r; lra|].
      replace ((g * (2.002 * u + u * Th) + 2 * eta * (1 + g)) * bval d) with ((g * bval d) * (2.002 * u + u * Th + 2 * eta) + 2 * (eta * bval d)) by ring.
      assert (0 <= u * Th) by (apply Rmult_le_pos; lra). assert (X1 : (g * bval d) * (2.002 * u + u * Th + 2 * eta) <= M * (2.002 * u + u * Th + 2 * eta)) by (apply Rmult_le_compat_r; lra).
      assert (X2 : M * eta <= M * (u / 1000000)) by (apply Rmult_le_compat_l; lra). assert (X3 : eta * bval d <= u / 1000000).
      { apply Rle_trans with (eta * p2 302); [apply Rmult_le_compat_l; [lra|]; apply Rle_trans with (p2 100); [exact D1|apply p2_le; lia]|exact E3]. }
      lra.
    - replace (bval v) with ((bval v - bval mag * bval c) + bval mag * bval c) by ring. eapply Rle_trans; [apply abs_sum; [exact Nv'|exact Bmc']|]. assert (g * u <= g * (1 / 1000000000000000)) by (apply Rmult_le_compat_l; lra). assert (1 <= p2 300) by lra. lra.
  Qed.
End Velocity.

Lemma rsum_snoc l x : rsum (l ++ [x]) = rsum l + x.
Proof. rewrite rsum_app. unfold rsum at 2. cbn [fold_right]. ring. Qed.
Lemma steps_snoc s dts d : steps_on s (dts ++ [d]) ->
  steps_on s dts /\ time_on s d /\ 0 <= bval d /\ bval d <= p2 100 /\ 0 <= rsum (map bval dts) /\ rsum (map bval dts) + bval d < p2 (53 - s) /\ rsum (map bval (dts ++ [d])) = rsum (map bval dts) + bval d.
Proof.
  intros (F & L & B). apply Forall_app in F as (F1 & F2). inversion F2 as [|? ? (Td & D0) _]; subst. assert (E : rsum (map bval (dts ++ [d])) = rsum (map bval dts) + bval d) by (rewrite map_app; cbn [map]; apply rsum_snoc). rewrite E in L, B.
  assert (P : 0 <= rsum (map bval dts)). { clear - F1. induction dts as [|x l IH]; [unfold rsum; cbn; lra|]. inversion F1 as [|? ? (_ & X) G]; subst. apply IH in G. unfold rsum in *. cbn [map fold_right]. lra. }
  split; [split; [exact F1|lra]|]. split; [exact Td|]. split; [exact D0|]. split; [lra|]. split; [exact P|]. split; [lra|exact E].
Qed.
Lemma cos_sum_bound mag f dts : Forall (fun d => 0 <= d) dts -> Rabs (cos_sum mag f dts) <= Rabs mag * rsum dts.
Proof.
  induction dts as [|d l IH] using rev_ind; intros F; [unfold cos_sum, rsum; cbn; rewrite Rabs_R0; lra|]. apply Forall_app in F as (F1 & F2). inversion F2 as [|? ? D0 _]; subst. specialize (IH F1). rewrite cos_sum_snoc, rsum_snoc.
  assert (C1 : Rabs (cos (f * rsum l)) <= 1) by (pose proof (COS_bound (f * rsum l)); apply Rabs_le; lra).
  pose proof (abs_mul _ _ _ _ (abs_mul _ _ _ _ (Rle_refl (Rabs mag)) C1) (Rle_refl (Rabs d))) as B. rewrite (Rabs_pos_eq d D0) in B. pose proof (abs_sum _ _ _ _ IH B). lra.
Qed.
Lemma heading_snoc g mag f rot mag2 f2 dts d :
  heading_sum g mag f rot mag2 f2 (dts ++ [d]) = heading_sum g mag f rot mag2 f2 dts + mag * cos (f * rsum dts) * g (rot + cos_sum mag2 f2 dts) * d.
Proof.
  unfold heading_sum. rewrite app_length, seq_app, map_app, rsum_app. f_equal.
  - f_equal. apply map_ext_in. intros k H. apply in_seq in H. rewrite firstn_app, app_nth1 by lia. replace (k - length dts)%nat with 0%nat by lia. cbn [firstn]. rewrite app_nil_r. reflexivity.
  - cbn [length seq map Nat.add]. rewrite firstn_app, Nat.sub_diag, firstn_all. cbn [firstn]. rewrite app_nil_r, app_nth2, Nat.sub_diag by lia. cbn [nth]. unfold rsum at 1. cbn [fold_right]. ring.
Qed.
Lemma heading_bound g mag f rot mag2 f2 dts : (forall x, Rabs (g x) <= 1) -> Forall (fun d => 0 <= d) dts -> Rabs (heading_sum g mag f rot mag2 f2 dts) <= Rabs mag * rsum dts.
Proof.
  intros G. induction dts as [|d l IH] using rev_ind; intros F; [unfold heading_sum, rsum; cbn; rewrite Rabs_R0; lra|]. apply Forall_app in F as (F1 & F2). inversion F2 as [|? ? D0 _]; subst. specialize (IH F1). rewrite heading_snoc, rsum_snoc.
  assert (C1 : Rabs (cos (f * rsum l)) <= 1) by (pose proof (COS_bound (f * rsum l)); apply Rabs_le; lra).
  pose proof (abs_mul _ _ _ _ (abs_mul _ _ _ _ (abs_mul _ _ _ _ (Rle_refl (Rabs mag)) C1) (G (rot + cos_sum mag2 f2 l))) (Rle_refl (Rabs d))) as B. rewrite (Rabs_pos_eq d D0) in B. pose proof (abs_sum _ _ _ _ IH B). lra.
Qed.
Lemma steps_nonneg s dts : steps_on s dts -> Forall (fun d => 0 <= d) (map bval dts).
Proof. intros (F & _). apply Forall_map. eapply Forall_impl; [|exact F]. cbn. tauto. Qed.

Notation bstate := (@mstate b64).
Section Run.
  Variables (lin : bstate -> pt b64) (rot : bstate -> b64) (p0 : pt b64) (r0 : b64).
  Let run (dts : list b64) : bstate := fold_left (@advance_num b64 NumB lin rot) dts (p0, r0, n0).
  Lemma run_snoc dts d : run (dts ++ [d]) = advance_num lin rot (run dts) d.
  Proof. unfold run. rewrite fold_left_app. reflexivity. Qed.
  Lemma run_clock s dts : (0 <= s <= 500)%Z -> steps_on s dts -> time_on s (snd (run dts)) /\ bval (snd (run dts)) = rsum (map bval dts).
  Proof.
    intros Hs. induction dts as [|d l IH] using rev_ind; intros H.
    - cbn [run fold_left snd]. split; [exact (n0_time s)|]. rewrite n0_val. reflexivity.
    - apply steps_snoc in H as (H & Td & D0 & _ & T0 & L & E). destruct (IH H) as (Tt & V). rewrite run_snoc, E. destruct (run l) as ((p, r), t) eqn:Er. cbn [advance_num snd nadd NumB] in *. rewrite <- V in *. apply add_exact; auto.
  Qed.
End Run.

Lemma small_err M Th n : 1 <= M -> 0 <= Th -> INR n * (Th + 5) <= p2 40 -> INR n * (Th + 5) * (p2 (-53) * M) <= M / 1000.
Proof.
  intros M1 T0 B. destruct (consts M M1) as (U0 & _). apply Rle_trans with (p2 40 * (p2 (-53) * M)); [apply Rmult_le_compat_r; [apply Rmult_le_pos; lra|exact B]|]. rewrite <- Rmult_assoc, <- p2_add. change (40 + -53)%Z with (- (13))%Z. rewrite p2_inv, p2_Z by lia. change (2 ^ 13)%Z with 8192%Z. lra.
Qed.

Section Scalar.
  Variables (ncos nsin : b64 -> b64).
  Hypothesis TN : trig_near_all ncos nsin.
  Variables (lin : bstate -> pt b64) (rot : bstate -> b64) (p0 : pt b64) (r0 : b64) (proj : bstate -> b64) (mag fr : b64) (s : Z) (M Th : R).
  Let run (dts : list b64) : bstate := fold_left (@advance_num b64 NumB lin rot) dts (p0, r0, n0).
  Hypothesis Step : forall st d, proj (advance_num lin rot st d) = SFadd 53 1024 (proj st) (SFmul 53 1024 (SFmul 53 1024 mag (ncos (SFmul 53 1024 fr (snd st)))) d).
  Hypotheses (Hs : (0 <= s <= 500)%Z) (M1 : 1 <= M) (M2 : M <= p2 300) (Th0 : 0 <= Th) (Th1 : Th <= p2 30) (Fz : bfin (proj (p0, r0, n0))) (Fm : bfin mag) (Ff : bfin fr) (Bm : Rabs (bval mag) <= p2 300).
  Lemma scalar_run dts : steps_on s dts -> Rabs (bval (proj (p0, r0, n0))) + Rabs (bval mag) * rsum (map bval dts) <= M -> Rabs (bval fr) * rsum (map bval dts) <= Th -> INR (length dts) * (Th + 5) <= p2 40 ->
    bfin (proj (run dts)) /\ Rabs (bval (proj (run dts)) - (bval (proj (p0, r0, n0)) + cos_sum (bval mag) (bval fr) (map bval dts))) <= INR (length dts) * (Th + 5) * (p2 (-53) * M).
  Proof.
    induction dts as [|d l IH] using rev_ind; intros H BM BT BN.
    - cbn [run fold_left length INR]. split; [exact Fz|]. unfold cos_sum, rsum; cbn [length seq map fold_right]. rewrite Rplus_0_r. unfold Rminus. rewrite Rplus_opp_r, Rabs_R0. lra.
    - pose proof (steps_nonneg _ _ H) as NN. pose proof (steps_snoc _ _ _ H) as (H1 & Td & D0 & D1 & T0 & L & E). rewrite app_length in *. cbn [length] in *. rewrite plus_INR in *. cbn [INR] in *. rewrite E in *.
      pose proof (Rabs_pos (bval mag)) as G0. pose proof (Rabs_pos (bval fr)) as F0. pose proof (Rabs_pos (bval (proj (p0, r0, n0)))) as Z0.
      assert (X1 : 0 <= Rabs (bval mag) * rsum (map bval l)) by (apply Rmult_le_pos; lra). assert (X2 : 0 <= Rabs (bval mag) * bval d) by (apply Rmult_le_pos; lra). assert (X3 : 0 <= Rabs (bval fr) * bval d) by (apply Rmult_le_pos; lra).
      destruct IH as (Fl & El); auto; try lra. destruct (run_clock lin rot p0 r0 s l Hs H1) as ((Ft & _) & Vt). fold (run l) in Ft, Vt. fold run. rewrite (run_snoc lin rot p0 r0 l d : run (l ++ [d]) = _), Step. fold (run l).
      destruct Td as (Fd & _). set (T := rsum (map bval l)) in *.
      destruct (vel_err ncos nsin TN M Th mag fr (snd (run l)) d) as (Fv & Ev & _); auto; try lra; [rewrite Vt, Rabs_mult, (Rabs_pos_eq T); lra|]. rewrite Vt in Ev.
      assert (C1 : Rabs (cos (bval fr * T)) <= 1) by (pose proof (COS_bound (bval fr * T)); apply Rabs_le; lra).
      assert (TU := th_u Th Th1). destruct (consts M M1) as (U0 & U1 & UM & UM' & _).
      assert (MTU : p2 (-53) * Th * M <= 1 / 1000000 * M) by (apply Rmult_le_compat_r; lra).
      destruct (acc_step M _ ((Th + 21 / 10) * (p2 (-53) * M)) (proj (run l)) (SFmul 53 1024 mag (ncos (SFmul 53 1024 fr (snd (run l))))) d _ (bval mag * cos (bval fr * T) * bval d) M1 M2 Fl Fv Fd El) as (Fr & Er).
      + apply small_err; auto. lra.
      + exact Ev.
      + lra.
      + eapply Rle_trans; [apply abs_mul; [apply abs_mul; [apply Rle_refl|exact C1]|apply Rle_refl]|]. rewrite (Rabs_pos_eq (bval d)); lra.
      + pose proof (cos_sum_bound (bval mag) (bval fr) _ NN) as CB. rewrite E in CB. fold T in CB. rewrite map_app in CB. cbn [map] in CB. rewrite cos_sum_snoc in CB. fold T in CB.
        rewrite Rplus_assoc. eapply Rle_trans; [apply abs_sum; [apply Rle_refl|exact CB]|]. lra.
      + split; [exact Fr|]. rewrite map_app. cbn [map]. rewrite cos_sum_snoc. fold T. rewrite <- Rplus_assoc. eapply Rle_trans; [exact Er|]. assert (0 <= p2 (-53) * M) by lra. lra.
  Qed.
End Scalar.

(** one coordinate of the velocity in direction of the heading: [q] the computed cosine or sine of the heading, [z] a zero *)
Lemma heading_vel M Th er q z v d W G : 1 <= M -> M <= p2 300 -> 0 <= Th -> Th <= p2 30 -> bfin q -> bfin z -> bval z = 0 -> bfin v -> Rabs (bval v) <= p2 301 -> 0 <= bval d -> bval d <= p2 100 ->
  Rabs (bval q - G) <= p2 (-53) + er -> Rabs G <= 1 -> 0 <= er -> er <= 1 / 1000 -> Rabs (bval v * bval d - W) <= (Th + 21 / 10) * (p2 (-53) * M) -> Rabs W <= M ->
  bfin (SFadd 53 1024 (SFmul 53 1024 q v) z) /\
  Rabs (bval (SFadd 53 1024 (SFmul 53 1024 q v) z) * bval d - W * G) <= (1.01 * Th + 4.3) * (p2 (-53) * M) + er * M.
Proof.
  intros M1 M2 T0 T1 Fq Fz Vz Fv Bv D0 D1 Eq BG E0 E1 Ev BW. destruct (consts M M1) as (U0 & U1 & UM & UM' & X0 & X2 & X3). pose proof (th_u Th T1) as TU. set (u := p2 (-53)) in *. set (eta := p2 (-1075)) in *.
  assert (Bq : Rabs (bval q) <= 1.01) by (replace (bval q) with ((bval q - G) + G) by ring; eapply Rle_trans; [apply abs_sum; [exact Eq|exact BG]|lra]).
  pose proof (abs_mul _ _ _ _ Bq Bv) as Bqv. destruct (mul_near q v Fq Fv) as (Fw & Nw & _).
  { eapply Rle_trans; [exact Bqv|]. apply Rle_trans with (p2 302); [|apply p2_le; lia]. change 302%Z with (1 + 301)%Z. rewrite p2_add, (p2_Z 1) by lia. change (2 ^ 1)%Z with 2%Z. pose proof (p2_pos 301). lra. }
  fold u eta in Nw. set (w := SFmul 53 1024 q v) in *. destruct (add_zero w z Fw Fz Vz) as (Fs & Es). split; [exact Fs|]. rewrite Es.
  assert (MTU : u * Th * M <= 1 / 1000000 * M) by (apply Rmult_le_compat_r; lra).
  assert (Bvd : Rabs (bval v * bval d) <= 1.001 * M) by (replace (bval v * bval d) with ((bval v * bval d - W) + W) by ring; eapply Rle_trans; [apply abs_sum; [exact Ev|exact BW]|lra]).
  assert (P1 : Rabs ((bval w - bval q * bval v) * bval d) <= 1.02 * (u * M)).
  { rewrite Rabs_mult, (Rabs_pos_eq (bval d)) by exact D0. apply Rle_trans with ((u * Rabs (bval q * bval v) + eta) * bval d); [apply Rmult_le_compat_r; [exact D0|exact Nw]|].
    assert (Q1 : u * (Rabs (bval q) * Rabs (bval v * bval d)) <= u * (1.01 * (1.001 * M))) by (apply Rmult_le_compat_l; [lra|]; apply Rmult_le_compat; auto; apply Rabs_pos).
    rewrite (Rabs_mult (bval v)), (Rabs_pos_eq (bval d)) in Q1 by exact D0. rewrite (Rabs_mult (bval q)).
    assert (Q2 : eta * bval d <= u / 1000000). { apply Rle_trans with (eta * p2 302); [apply Rmult_le_compat_l; [lra|]; apply Rle_trans with (p2 100); [exact D1|apply p2_le; lia]|exact X3]. }
    lra. }
  pose proof (abs_mul _ _ _ _ Bq Ev) as P2. pose proof (abs_mul _ _ _ _ Eq BW) as P3.
  replace (bval w * bval d - W * G) with ((bval w - bval q * bval v) * bval d + (bval q * (bval v * bval d - W) + (bval q - G) * W)) by ring.
  eapply Rle_trans; [apply abs_sum; [exact P1|apply abs_sum; [exact P2|exact P3]]|]. lra.
Qed.
Lemma small_X M X : 1 <= M -> X <= p2 40 -> X * (p2 (-53) * M) <= M / 1000.
Proof.
  intros M1 B. destruct (consts M M1) as (U0 & _). apply Rle_trans with (p2 40 * (p2 (-53) * M)); [apply Rmult_le_compat_r; [apply Rmult_le_pos; lra|exact B]|]. rewrite <- Rmult_assoc, <- p2_add. change (40 + -53)%Z with (- (13))%Z. rewrite p2_inv, p2_Z by lia. change (2 ^ 13)%Z with 8192%Z. lra.
Qed.

Section Heading.
  Variables (ncos nsin : b64 -> b64).
  Hypothesis TN : trig_near_all ncos nsin.
  Variables (m1 f1 m2 f2 : b64) (p0 : pt b64) (r0 : b64) (proj : bstate -> b64) (q z : b64 -> b64) (g : R -> R) (s : Z) (M L Th : R).
  Let lin := @sinus_lin_num b64 NumB ncos nsin false m1 f1 m2 f2.
  Let rot := @sinus_rot_num b64 NumB ncos false m2 f2.
  Let run (dts : list b64) : bstate := fold_left (@advance_num b64 NumB lin rot) dts (p0, r0, n0).
  Hypothesis Step : forall st d, proj (advance_num lin rot st d) =
    SFadd 53 1024 (proj st) (SFmul 53 1024 (SFadd 53 1024 (SFmul 53 1024 (q (snd (fst st))) (SFmul 53 1024 m1 (ncos (SFmul 53 1024 f1 (snd st))))) (z (snd (fst st)))) d).
  Hypothesis Q : forall r, bfin r -> bfin (q r) /\ Rabs (bval (q r) - g (bval r)) <= p2 (-53) /\ bfin (z r) /\ bval (z r) = 0.
  Hypotheses (Lip : forall a b, Rabs (g a - g b) <= Rabs (a - b)) (G1 : forall a, Rabs (g a) <= 1).
  Hypotheses (Hs : (0 <= s <= 500)%Z) (M1 : 1 <= M) (M2 : M <= p2 300) (L1 : 1 <= L) (L2 : L <= p2 300) (Th0 : 0 <= Th) (Th1 : Th <= p2 30).
  Hypotheses (Fz : bfin (proj (p0, r0, n0))) (Fr : bfin r0) (Fm1 : bfin m1) (Ff1 : bfin f1) (Bm1 : Rabs (bval m1) <= p2 300) (Fm2 : bfin m2) (Ff2 : bfin f2) (Bm2 : Rabs (bval m2) <= p2 300).
  Lemma rot_run dts : steps_on s dts -> Rabs (bval r0) + Rabs (bval m2) * rsum (map bval dts) <= L -> Rabs (bval f2) * rsum (map bval dts) <= Th -> INR (length dts) * (Th + 5) <= p2 40 ->
    bfin (snd (fst (run dts))) /\ Rabs (bval (snd (fst (run dts))) - (bval r0 + cos_sum (bval m2) (bval f2) (map bval dts))) <= INR (length dts) * (Th + 5) * (p2 (-53) * L).
  Proof. apply (scalar_run ncos nsin TN lin rot p0 r0 (fun st => snd (fst st)) m2 f2 s L Th); auto. intros ((p, r), t) d. reflexivity. Qed.
  Lemma heading_run dts : steps_on s dts -> Rabs (bval (proj (p0, r0, n0))) + Rabs (bval m1) * rsum (map bval dts) <= M -> Rabs (bval f1) * rsum (map bval dts) <= Th ->
    Rabs (bval r0) + Rabs (bval m2) * rsum (map bval dts) <= L -> Rabs (bval f2) * rsum (map bval dts) <= Th -> INR (length dts) * (Th + 5) * (2 + INR (length dts) * L) <= p2 40 ->
    bfin (proj (run dts)) /\
    Rabs (bval (proj (run dts)) - (bval (proj (p0, r0, n0)) + heading_sum g (bval m1) (bval f1) (bval r0) (bval m2) (bval f2) (map bval dts))) <= INR (length dts) * (Th + 5) * (2 + INR (length dts) * L) * (p2 (-53) * M).
  Proof.
    induction dts as [|d l IH] using rev_ind; intros H BM BT BL BT2 BN.
    - cbn [run fold_left length INR]. split; [exact Fz|]. unfold heading_sum, rsum; cbn [length seq map fold_right]. rewrite Rplus_0_r. unfold Rminus. rewrite Rplus_opp_r, Rabs_R0. lra.
    - pose proof (steps_nonneg _ _ H) as NN. pose proof (steps_snoc _ _ _ H) as (H1 & Td & D0 & D1 & T0 & LL & E). rewrite app_length in *. cbn [length] in *. rewrite plus_INR in *. cbn [INR] in *. rewrite E in *.
      pose proof (Rabs_pos (bval m1)) as A1. pose proof (Rabs_pos (bval f1)) as A2. pose proof (Rabs_pos (bval m2)) as A3. pose proof (Rabs_pos (bval f2)) as A4. pose proof (Rabs_pos (bval (proj (p0, r0, n0)))) as A5. pose proof (pos_INR (length l)) as K0.
      assert (X1 : 0 <= Rabs (bval m1) * rsum (map bval l)) by (apply Rmult_le_pos; lra). assert (X2 : 0 <= Rabs (bval m1) * bval d) by (apply Rmult_le_pos; lra). assert (X3 : 0 <= Rabs (bval f1) * bval d) by (apply Rmult_le_pos; lra).
      assert (X4 : 0 <= Rabs (bval m2) * bval d) by (apply Rmult_le_pos; lra). assert (X5 : 0 <= Rabs (bval f2) * bval d) by (apply Rmult_le_pos; lra).
      set (k := INR (length l)) in *. assert (Y1 : 0 <= k * L) by (apply Rmult_le_pos; lra). assert (Y2 : 0 <= k * (Th + 5)) by (apply Rmult_le_pos; lra).
      assert (Y3 : k * (Th + 5) * (2 + k * L) <= p2 40).
      { eapply Rle_trans; [|exact BN]. apply Rmult_le_compat; try lra. }
      assert (Y4 : k * (Th + 5) <= p2 40). { eapply Rle_trans; [|exact Y3]. rewrite <- (Rmult_1_r (k * (Th + 5))) at 1. apply Rmult_le_compat_l; lra. }
      destruct IH as (Fl & El); auto; try lra. destruct (rot_run l H1) as (Fh & Eh); try lra; [fold k; exact Y4|]. fold k in Eh. fold k in El. destruct (run_clock lin rot p0 r0 s l Hs H1) as ((Ft & _) & Vt). fold (run l) in Ft, Vt. rewrite (run_snoc lin rot p0 r0 l d : run (l ++ [d]) = _), Step. fold (run l).
      destruct Td as (Fd & _). set (T := rsum (map bval l)) in *. set (h := snd (fst (run l))) in *. set (HH := bval r0 + cos_sum (bval m2) (bval f2) (map bval l)) in *.
      destruct (vel_err ncos nsin TN M Th m1 f1 (snd (run l)) d) as (Fv & Ev & Bv); auto; try lra; [rewrite Vt, Rabs_mult, (Rabs_pos_eq T); lra|]. rewrite Vt in Ev.
      assert (C1 : Rabs (cos (bval f1 * T)) <= 1) by (pose proof (COS_bound (bval f1 * T)); apply Rabs_le; lra).
      assert (TU := th_u Th Th1). destruct (consts M M1) as (U0 & U1 & UM & UM' & _).
      assert (MTU : p2 (-53) * Th * M <= 1 / 1000000 * M) by (apply Rmult_le_compat_r; lra).
      assert (BW : Rabs (bval m1 * cos (bval f1 * T) * bval d) <= M).
      { eapply Rle_trans; [apply abs_mul; [apply abs_mul; [apply Rle_refl|exact C1]|apply Rle_refl]|]. rewrite (Rabs_pos_eq (bval d)); lra. }
      (* the error of the heading *)
      assert (KK : k <= k * k). { unfold k. clear. destruct (length l) as [|n]; [cbn; lra|]. rewrite <- (Rmult_1_r (INR (S n))) at 1. apply Rmult_le_compat_l; [apply pos_INR|]. rewrite S_INR. pose proof (pos_INR n). lra. }
      assert (Y5 : k * (Th + 5) * L <= p2 40).
      { eapply Rle_trans; [|exact Y3]. assert (k * ((Th + 5) * L) <= k * k * ((Th + 5) * L)) by (apply Rmult_le_compat_r; [apply Rmult_le_pos; lra|exact KK]). lra. }
      assert (ER : k * (Th + 5) * (p2 (-53) * L) <= 1 / 1000). { pose proof (small_X 1 (k * (Th + 5) * L) ltac:(lra) Y5). lra. }
      assert (ER0 : 0 <= k * (Th + 5) * (p2 (-53) * L)) by (apply Rmult_le_pos; [exact Y2|apply Rmult_le_pos; lra]).
      assert (ERM : k * (Th + 5) * (p2 (-53) * L) * M <= 1 / 1000 * M) by (apply Rmult_le_compat_r; lra).
      destruct (Q h Fh) as (Fq & Eq & Fzz & Vzz).
      assert (Eq' : Rabs (bval (q h) - g HH) <= p2 (-53) + k * (Th + 5) * (p2 (-53) * L)).
      { replace (bval (q h) - g HH) with ((bval (q h) - g (bval h)) + (g (bval h) - g HH)) by ring. apply abs_sum; [exact Eq|]. eapply Rle_trans; [apply Lip|exact Eh]. }
      assert (ER2 : k * (Th + 5) * (p2 (-53) * L) * M <= M / 2000).
      { assert (P40 : p2 40 * p2 (-53) <= 1 / 2000) by (rewrite <- p2_add; change (40 + -53)%Z with (- (13))%Z; rewrite p2_inv, p2_Z by lia; change (2 ^ 13)%Z with 8192%Z; lra).
        assert (k * (Th + 5) * L * p2 (-53) <= p2 40 * p2 (-53)) by (apply Rmult_le_compat_r; lra).
        replace (k * (Th + 5) * (p2 (-53) * L) * M) with (k * (Th + 5) * L * p2 (-53) * M) by ring. apply Rle_trans with (1 / 2000 * M); [apply Rmult_le_compat_r; lra|lra]. }
      destruct (heading_vel M Th (k * (Th + 5) * (p2 (-53) * L)) (q h) (z h) (SFmul 53 1024 m1 (ncos (SFmul 53 1024 f1 (snd (run l))))) d (bval m1 * cos (bval f1 * T) * bval d) (g HH)) as (Fw & Ew); auto.
      destruct (acc_step M _ _ (proj (run l)) _ d _ (bval m1 * cos (bval f1 * T) * bval d * g HH) M1 M2 Fl Fw Fd El (small_X M _ M1 Y3) Ew) as (Fs & Es).
      + lra.
      + rewrite <- (Rmult_1_r M). apply abs_mul; [exact BW|apply G1].
      + pose proof (heading_bound g (bval m1) (bval f1) (bval r0) (bval m2) (bval f2) _ G1 NN) as CB. rewrite E in CB. fold T in CB. rewrite map_app in CB. cbn [map] in CB. rewrite heading_snoc in CB. fold T HH in CB.
        replace (bval (proj (p0, r0, n0)) + heading_sum g (bval m1) (bval f1) (bval r0) (bval m2) (bval f2) (map bval l) + bval m1 * cos (bval f1 * T) * bval d * g HH)
          with (bval (proj (p0, r0, n0)) + (heading_sum g (bval m1) (bval f1) (bval r0) (bval m2) (bval f2) (map bval l) + bval m1 * cos (bval f1 * T) * g HH * bval d)) by ring.
        eapply Rle_trans; [apply abs_sum; [apply Rle_refl|exact CB]|]. lra.
      + split; [exact Fs|]. rewrite map_app. cbn [map]. rewrite heading_snoc. fold T HH.
        replace (bval (proj (p0, r0, n0)) + (heading_sum g (bval m1) (bval f1) (bval r0) (bval m2) (bval f2) (map bval l) + bval m1 * cos (bval f1 * T) * g HH * bval d))
          with (bval (proj (p0, r0, n0)) + heading_sum g (bval m1) (bval f1) (bval r0) (bval m2) (bval f2) (map bval l) + bval m1 * cos (bval f1 * T) * bval d * g HH) by ring.
        eapply Rle_trans; [exact Es|]. set (um := p2 (-53) * M) in *. assert (0 <= um) by lra.
        replace (k * (Th + 5) * (p2 (-53) * L) * M) with (k * (Th + 5) * L * um) by (unfold um; ring).
        assert (Z1 : 0 <= (Th + 5) * L * um) by (apply Rmult_le_pos; [apply Rmult_le_pos; lra|lra]). assert (Z2 : 0 <= k * (Th + 5) * L * um) by (apply Rmult_le_pos; [apply Rmult_le_pos; lra|lra]). assert (Z3 : 0 <= Th * um) by (apply Rmult_le_pos; lra). lra.
  Qed.
End Heading.

(** C137: with exact arithmetic the model is the one of M_Motion *)
Theorem C137_same_code :
  (forall cart m1 t1 m2 t2 (p : Pt) r dts, exists m, moves (sinus_new (Some p) r cart m1 t1 m2 t2) dts = Some m /\
     (m_pos m, m_rot m, m_t m) = sinus_run cos sin cart m1 (freq_num PI t1) m2 (freq_num PI t2) p r dts) /\
  (forall (p : Pt) r dts, exists m, moves (static_new (Some p) r) dts = Some m /\ (m_pos m, m_rot m, m_t m) = static_run p r dts).
Proof.
  assert (L2 : @nlit R NumR 2 = 2) by (cbv [nlit NumR]; unfold Q2R; cbn; lra).
  assert (Fq : forall t, @freq_num R NumR PI t = freq t). { intros t. unfold freq_num, freq. rewrite n0_R, L2. reflexivity. }
  split.
  - intros cart m1 t1 m2 t2 p r dts. rewrite !Fq. unfold moves, sinus_run. rewrite n0_R.
    assert (G : forall dts q r0 t i, exists m, fold_left (fun o dt => match o with Some m' => move dt m' | None => None end) dts (Some (MM (CSinus cart m1 (freq t1) m2 (freq t2)) q r0 t i)) = Some m /\
      (m_pos m, m_rot m, m_t m) = fold_left (advance_num (sinus_lin_num cos sin cart m1 (freq t1) m2 (freq t2)) (sinus_rot_num cos cart m2 (freq t2))) dts (q, r0, t)).
    { clear dts r p. induction dts as [|d l IH]; intros q r0 t i; [eexists; split; reflexivity|]. cbn [fold_left].
      assert (E : move d (MM (CSinus cart m1 (freq t1) m2 (freq t2)) q r0 t i) =
        let '(q', r', t') := advance_num (sinus_lin_num cos sin cart m1 (freq t1) m2 (freq t2)) (sinus_rot_num cos cart m2 (freq t2)) (q, r0, t) d in Some (MM (CSinus cart m1 (freq t1) m2 (freq t2)) q' r' t' i)).
      { unfold move, lin_vel, rot_vel, advance_num, sinus_lin_num, sinus_rot_num, padd, scale. rewrite n0_R. destruct cart; cbn [m_class m_idx m_pos m_rot m_t fst snd nadd nmul nopp NumR]; f_equal; f_equal; f_equal; ring. }
      destruct (advance_num _ _ (q, r0, t) d) as ((q', r'), t'). rewrite E. apply IH. }
    apply G.
  - intros p r dts. unfold moves, static_run. rewrite n0_R.
    assert (G : forall dts q r0 t i, exists m, fold_left (fun o dt => match o with Some m' => move dt m' | None => None end) dts (Some (MM CStatic q r0 t i)) = Some m /\
      (m_pos m, m_rot m, m_t m) = fold_left (@advance_num R NumR (fun _ => (0, 0)) (fun _ => 0)) dts (q, r0, t)).
    { clear dts r p. induction dts as [|d l IH]; intros q r0 t i; [eexists; split; reflexivity|]. cbn [fold_left].
      assert (E : move d (MM CStatic q r0 t i) = let '(q', r', t') := @advance_num R NumR (fun _ => (0, 0)) (fun _ => 0) (q, r0, t) d in Some (MM CStatic q' r' t' i)).
      { unfold move, lin_vel, rot_vel, advance_num, padd, scale. cbn [m_class m_idx m_pos m_rot m_t fst snd nadd nmul NumR]; f_equal; f_equal; f_equal; ring. }
      destruct (advance_num _ _ (q, r0, t) d) as ((q', r'), t'). rewrite E. apply IH. }
    apply G.
Qed.
Print Assumptions C137_same_code.

(** a Static stays where it is, exactly, whatever the finite steps *)
Theorem C137_static : forall p r dts, bfin_pt p -> bfin r -> Forall bfin dts ->
  let '(p', r', _) := @static_run b64 NumB p r dts in bfin_pt p' /\ bfin r' /\ bpt p' = bpt p /\ bval r' = bval r.
Proof.
  intros p r dts Fp Fr. assert (Z1 : forall d, bfin d -> bfin (SFmul 53 1024 (@n0 b64 NumB) d) /\ bval (SFmul 53 1024 (@n0 b64 NumB) d) = 0).
  { intros d Fd. change (@n0 b64 NumB) with (S754_zero false). destruct d; try contradiction; split; try exact I; reflexivity. }
  unfold static_run. induction dts as [|d l IH] using rev_ind; intros F; [cbn; auto|]. apply Forall_app in F as (F1 & F2). inversion F2 as [|? ? Fd _]; subst. rewrite fold_left_app. cbn [fold_left]. specialize (IH F1).
  destruct (fold_left _ l _) as ((p1, r1), t1). destruct IH as ((Fa & Fb) & Fc & E1 & E2). cbn [advance_num fst snd]. destruct (Z1 d Fd) as (Fz & Vz).
  change (@nmul b64 NumB) with (SFmul 53 1024). change (@nadd b64 NumB) with (SFadd 53 1024).
  destruct (add_zero _ _ Fa Fz Vz) as (A1 & A2). destruct (add_zero _ _ Fb Fz Vz) as (B1 & B2). destruct (add_zero _ _ Fc Fz Vz) as (D1 & D2).
  split; [split; assumption|]. split; [exact D1|]. split; [|congruence]. rewrite <- E1. unfold bpt. cbn [fst snd]. rewrite A2, B2. reflexivity.
Qed.
Print Assumptions C137_static.

(** Cartesian SinusVelocity: the rotation stays, the clock is exact, each coordinate is within n (Th+5) 2^-53 M of the exact sum *)
Theorem C137_cartesian : forall ncos nsin s M Th m1 f1 m2 f2 p r dts, trig_near_all ncos nsin -> (0 <= s <= 500)%Z -> 1 <= M -> M <= p2 300 -> 0 <= Th -> Th <= p2 30 ->
  bfin m1 -> bfin f1 -> bfin m2 -> bfin f2 -> bfin_pt p -> bfin r -> Rabs (bval m1) <= p2 300 -> Rabs (bval m2) <= p2 300 -> steps_on s dts ->
  let T := rsum (map bval dts) in
  Rabs (bval (fst p)) + Rabs (bval m1) * T <= M -> Rabs (bval (snd p)) + Rabs (bval m2) * T <= M -> Rabs (bval f1) * T <= Th -> Rabs (bval f2) * T <= Th -> INR (length dts) * (Th + 5) <= p2 40 ->
  let '(p', r', t') := sinus_run ncos nsin true m1 f1 m2 f2 p r dts in
  bfin_pt p' /\ bval t' = T /\ bval r' = bval r /\
  Rabs (bval (fst p') - (bval (fst p) + cos_sum (bval m1) (bval f1) (map bval dts))) <= INR (length dts) * (Th + 5) * (/ 2 ^ 53 * M) /\
  Rabs (bval (snd p') - (bval (snd p) + cos_sum (bval m2) (bval f2) (map bval dts))) <= INR (length dts) * (Th + 5) * (/ 2 ^ 53 * M).
Proof.
  intros ncos nsin s M Th m1 f1 m2 f2 p r dts TN Hs M1 M2 T0 T1 Fm1 Ff1 Fm2 Ff2 (Fp1 & Fp2) Fr B1 B2 H T P1 P2 Q1 Q2 BN. assert (I53 : / 2 ^ 53 = p2 (-53)) by (change (-53)%Z with (- (53))%Z; rewrite p2_inv, p2_Z by lia; rewrite pow_IZR; reflexivity). rewrite I53.
  set (lin := @sinus_lin_num b64 NumB ncos nsin true m1 f1 m2 f2). set (rot := @sinus_rot_num b64 NumB ncos true m2 f2).
  destruct (scalar_run ncos nsin TN lin rot p r (fun st => fst (fst (fst st))) m1 f1 s M Th) with (dts := dts) as (Fx & Ex); auto. { intros ((q, h), t) d. reflexivity. }
  destruct (scalar_run ncos nsin TN lin rot p r (fun st => snd (fst (fst st))) m2 f2 s M Th) with (dts := dts) as (Fy & Ey); auto. { intros ((q, h), t) d. reflexivity. }
  destruct (run_clock lin rot p r s dts Hs H) as (_ & Vt).
  assert (Rr : bfin (snd (fst (fold_left (@advance_num b64 NumB lin rot) dts (p, r, n0)))) /\ bval (snd (fst (fold_left (@advance_num b64 NumB lin rot) dts (p, r, n0)))) = bval r).
  { clear - H Fr. destruct H as (F & _). induction dts as [|d l IH] using rev_ind; [cbn; auto|]. apply Forall_app in F as (F1 & F2). inversion F2 as [|? ? ((Fd & _) & _) _]; subst. rewrite fold_left_app. cbn [fold_left]. destruct (IH F1) as (A & B). destruct (fold_left _ l _) as ((p1, r1), t1).
    cbn [advance_num fst snd] in *. destruct (add_zero r1 (SFmul 53 1024 (@n0 b64 NumB) d) A) as (C1 & C2); [change (@n0 b64 NumB) with (S754_zero false); destruct d; try contradiction; exact I|change (@n0 b64 NumB) with (S754_zero false); destruct d; try contradiction; reflexivity|].
    change (bfin (SFadd 53 1024 r1 (SFmul 53 1024 (@n0 b64 NumB) d)) /\ bval (SFadd 53 1024 r1 (SFmul 53 1024 (@n0 b64 NumB) d)) = bval r). split; congruence. }
  unfold sinus_run. fold lin rot. destruct (fold_left _ dts _) as ((p1, r1), t1). cbn [fst snd] in *. split; [split; assumption|]. split; [exact Vt|]. split; [apply Rr|]. split; [exact Ex|exact Ey].
Qed.
Print Assumptions C137_cartesian.

(** linear and rotational velocity: the rotation is within n (Th+5) 2^-53 L, each coordinate within n (Th+5) (2 + n L) 2^-53 M of the exact sums *)
Theorem C137_heading : forall ncos nsin s M L Th m1 f1 m2 f2 p r dts, trig_near_all ncos nsin -> (0 <= s <= 500)%Z -> 1 <= M -> M <= p2 300 -> 1 <= L -> L <= p2 300 -> 0 <= Th -> Th <= p2 30 ->
  bfin m1 -> bfin f1 -> bfin m2 -> bfin f2 -> bfin_pt p -> bfin r -> Rabs (bval m1) <= p2 300 -> Rabs (bval m2) <= p2 300 -> steps_on s dts ->
  let T := rsum (map bval dts) in let n := INR (length dts) in
  Rabs (bval (fst p)) + Rabs (bval m1) * T <= M -> Rabs (bval (snd p)) + Rabs (bval m1) * T <= M -> Rabs (bval r) + Rabs (bval m2) * T <= L -> Rabs (bval f1) * T <= Th -> Rabs (bval f2) * T <= Th ->
  n * (Th + 5) * (2 + n * L) <= p2 40 ->
  let '(p', r', t') := sinus_run ncos nsin false m1 f1 m2 f2 p r dts in
  bfin_pt p' /\ bval t' = T /\
  Rabs (bval r' - (bval r + cos_sum (bval m2) (bval f2) (map bval dts))) <= n * (Th + 5) * (/ 2 ^ 53 * L) /\
  Rabs (bval (fst p') - (bval (fst p) + heading_sum cos (bval m1) (bval f1) (bval r) (bval m2) (bval f2) (map bval dts))) <= n * (Th + 5) * (2 + n * L) * (/ 2 ^ 53 * M) /\
  Rabs (bval (snd p') - (bval (snd p) + heading_sum sin (bval m1) (bval f1) (bval r) (bval m2) (bval f2) (map bval dts))) <= n * (Th + 5) * (2 + n * L) * (/ 2 ^ 53 * M).
Proof.
  intros ncos nsin s M L Th m1 f1 m2 f2 p r dts TN Hs M1 M2 L1 L2 T0 T1 Fm1 Ff1 Fm2 Ff2 (Fp1 & Fp2) Fr B1 B2 H T n P1 P2 P3 Q1 Q2 BN. assert (I53 : / 2 ^ 53 = p2 (-53)) by (change (-53)%Z with (- (53))%Z; rewrite p2_inv, p2_Z by lia; rewrite pow_IZR; reflexivity). rewrite I53.
  set (lin := @sinus_lin_num b64 NumB ncos nsin false m1 f1 m2 f2). set (rot := @sinus_rot_num b64 NumB ncos false m2 f2).
  assert (ZR : forall q, bfin q -> bfin (SFmul 53 1024 q (@n0 b64 NumB)) /\ bval (SFmul 53 1024 q (@n0 b64 NumB)) = 0). { intros q Fq. change (@n0 b64 NumB) with (S754_zero false). destruct q; try contradiction; split; try exact I; reflexivity. }
  destruct (heading_run ncos nsin TN m1 f1 m2 f2 p r (fun st => fst (fst (fst st))) ncos (fun h => SFmul 53 1024 (SFopp (nsin h)) (@n0 b64 NumB)) cos s M L Th) with (dts := dts) as (Fx & Ex); auto.
  { intros ((q, h), t) d. reflexivity. }
  { intros h Fh. destruct (TN h Fh) as (F1 & F2 & E1 & E2). rewrite <- I53. destruct (ZR (SFopp (nsin h))) as (Z1 & Z2); [apply opp_spec; exact F2|]. auto. }
  { apply cos_lip. } { intros a. pose proof (COS_bound a). apply Rabs_le. lra. }
  destruct (heading_run ncos nsin TN m1 f1 m2 f2 p r (fun st => snd (fst (fst st))) nsin (fun h => SFmul 53 1024 (ncos h) (@n0 b64 NumB)) sin s M L Th) with (dts := dts) as (Fy & Ey); auto.
  { intros ((q, h), t) d. reflexivity. }
  { intros h Fh. destruct (TN h Fh) as (F1 & F2 & E1 & E2). rewrite <- I53. destruct (ZR (ncos h) F1) as (Z1 & Z2). auto. }
  { apply sin_lip. } { intros a. pose proof (SIN_bound a). apply Rabs_le. lra. }
  destruct (run_clock lin rot p r s dts Hs H) as (_ & Vt).
  destruct (rot_run ncos nsin TN m1 f1 m2 f2 p r s L Th) with (dts := dts) as (Fh & Eh); auto.
  { eapply Rle_trans; [|exact BN]. fold n. pose proof (pos_INR (length dts)) as K0. fold n in K0. assert (0 <= n * L) by (apply Rmult_le_pos; lra). assert (0 <= n * (Th + 5)) by (apply Rmult_le_pos; lra). rewrite <- (Rmult_1_r (n * (Th + 5))) at 1. apply Rmult_le_compat_l; lra. }
  fold lin rot in Fx, Ex, Fy, Ey, Fh, Eh. fold n in Ex, Ey, Eh. unfold sinus_run. fold lin rot. destruct (fold_left _ dts _) as ((p1, r1), t1). cbn [fst snd] in *. split; [split; assumption|]. split; [exact Vt|]. split; [exact Eh|]. split; [exact Ex|exact Ey].
Qed.
Print Assumptions C137_heading.

(** the stored frequency *)
Theorem C137_frequency : forall npi period, bfin npi -> Rabs (bval npi - PI) <= / 2 ^ 52 -> bfin period ->
  (bval period = 0 -> bval (freq_num npi period) = 0) /\
  (bval period <> 0 -> p2 (-300) <= Rabs (bval period) <= p2 300 -> bfin (freq_num npi period) /\ Rabs (bval (freq_num npi period) - 2 * PI / bval period) <= 3 * / 2 ^ 53 * Rabs (2 * PI / bval period)).
Proof.
  intros npi period Fn En Fp. assert (E0 : SFeqb period (@n0 b64 NumB) = Reqb (bval period) 0) by (change (@n0 b64 NumB) with (S754_zero false); rewrite eqb_spec; auto; exact I).
  unfold freq_num. change (@neqb b64 NumB) with SFeqb. rewrite E0. unfold Reqb. destruct (Req_EM_T (bval period) 0) as [Z0|Z0]; split; intros Hp; try contradiction.
  - apply n0_val.
  - intros (P1 & P2). change (@ndiv b64 NumB) with (SFdiv 53 1024). change (@nmul b64 NumB) with (SFmul 53 1024). set (two := @nlit b64 NumB 2). assert (F2 : bfin two) by (vm_compute; reflexivity). assert (V2 : bval two = 2) by (unfold two; rewrite b64q_R; unfold Q2R; vm_compute b64q; cbn; lra).
    assert (I53 : / 2 ^ 53 = p2 (-53)) by (change (-53)%Z with (- (53))%Z; rewrite p2_inv, p2_Z by lia; rewrite pow_IZR; reflexivity). rewrite I53. assert (I52 : / 2 ^ 52 = 2 * p2 (-53)) by (rewrite <- I53; lra). rewrite I52 in En.
    pose proof u_small as (U0 & U1). destruct eta_tiny as (_ & E2). pose proof (p2_pos (-1075)) as E1. pose proof PI_4 as PI4. pose proof PI2_3_2 as PI3. unfold PI2 in PI3. set (u := p2 (-53)) in *. set (eta := p2 (-1075)) in *. apply Rabs_le_inv in En.
    set (P := bval period) in *. assert (AP : 0 < Rabs P) by (apply Rabs_pos_lt; exact Z0).
    assert (Bn : Rabs (bval two * bval npi) <= 9) by (rewrite V2; apply Rabs_le; lra). destruct (mul_near two npi F2 Fn) as (Fm & Nm & _); [apply Rle_trans with (p2 4); [rewrite (p2_Z 4) by lia; change (2 ^ 4)%Z with 16%Z; lra|apply p2_le; lia]|]. fold u eta in Nm. set (m := SFmul 53 1024 two npi) in *.
    assert (Em : Rabs (bval m - 2 * PI) <= 1.7 * u * (2 * PI)).
    { rewrite V2 in Nm. replace (bval m - 2 * PI) with ((bval m - 2 * bval npi) + (2 * bval npi - 2 * PI)) by ring. assert (X : Rabs (2 * bval npi) <= 2 * PI + 4 * u) by (apply Rabs_le; lra). assert (u * Rabs (2 * bval npi) <= u * (2 * PI + 4 * u)) by (apply Rmult_le_compat_l; lra).
      assert (u * u <= u * (1 / 1000000000000000)) by (apply Rmult_le_compat_l; lra). assert (Y : Rabs (2 * bval npi - 2 * PI) <= 4 * u) by (apply Rabs_le; lra). assert (u * 3 <= u * PI) by (apply Rmult_le_compat_l; lra).
      eapply Rle_trans; [apply abs_sum; [exact Nm|exact Y]|]. lra. }
    set (F := 2 * PI / P). assert (Eq : Rabs (bval m / P - F) <= 1.7 * u * Rabs F).
    { unfold F. replace (bval m / P - 2 * PI / P) with ((bval m - 2 * PI) * / P) by (unfold Rdiv; ring). unfold Rdiv. rewrite !Rabs_mult. rewrite <- Rmult_assoc. apply Rmult_le_compat_r; [apply Rabs_pos|]. rewrite <- Rabs_mult, (Rabs_pos_eq (2 * PI)) by lra. exact Em. }
    assert (AF : Rabs F = 2 * PI * / Rabs P) by (unfold F, Rdiv; rewrite Rabs_mult, (Rabs_pos_eq (2 * PI)), Rabs_inv by lra; reflexivity).
    assert (F1 : 6 * p2 (-300) <= Rabs F). { rewrite AF. apply Rmult_le_compat; [lra|left; apply p2_pos|lra|]. change (-300)%Z with (- (300))%Z. rewrite p2_inv. apply Rinv_le_contravar; [exact AP|exact P2]. }
    assert (F3 : Rabs F <= 8 * p2 300). { rewrite AF. apply Rmult_le_compat; [lra|left; apply Rinv_0_lt_compat; exact AP|lra|]. replace (p2 300) with (/ p2 (-300)) by (change (-300)%Z with (- (300))%Z; rewrite p2_inv, Rinv_inv; reflexivity). apply Rinv_le_contravar; [apply p2_pos|exact P1]. }
    assert (Et : eta <= u * (1 / 1000 * p2 (-300))).
    { unfold eta, u. replace (-1075)%Z with (-53 + (- (10) + (-300 + -712)))%Z by lia. rewrite (p2_add (-53)). apply Rmult_le_compat_l; [left; apply p2_pos|]. rewrite (p2_add (- (10))). apply Rmult_le_compat; [left; apply p2_pos|left; apply p2_pos|rewrite p2_inv, p2_Z by lia; change (2 ^ 10)%Z with 1024%Z; lra|apply p2_le; lia]. }
    pose proof (Rabs_pos F) as AF0. assert (UF : u * Rabs F <= 1 / 1000000000000000 * Rabs F) by (apply Rmult_le_compat_r; lra).
    assert (Bq : Rabs (bval m / P) <= 1.001 * Rabs F) by (replace (bval m / P) with ((bval m / P - F) + F) by ring; eapply Rle_trans; [apply abs_sum; [exact Eq|apply Rle_refl]|lra]).
    destruct (div_near m period Fm Fp Z0) as (Fd & Nd & _).
    { fold P. eapply Rle_trans; [exact Bq|]. apply Rle_trans with (p2 4 * p2 300); [rewrite (p2_Z 4) by lia; change (2 ^ 4)%Z with 16%Z; pose proof (p2_pos 300); lra|]. rewrite <- p2_add. apply p2_le. lia. }
    fold u eta P in Nd. split; [exact Fd|]. set (f := SFdiv 53 1024 m period) in *.
    assert (X1 : u * Rabs (bval m / P) <= u * (1.001 * Rabs F)) by (apply Rmult_le_compat_l; lra). assert (X2 : u * p2 (-300) <= u * (Rabs F / 6)) by (apply Rmult_le_compat_l; lra).
    replace (bval f - F) with ((bval f - bval m / P) + (bval m / P - F)) by ring. eapply Rle_trans; [apply abs_sum; [exact Nd|exact Eq]|]. lra.
Qed.
Print Assumptions C137_frequency.

(** functions as accurate as assumed exist: the value cut to a multiple of 2^-53 *)
Definition cut_cos (r : b64) : b64 := down (cos (bval r)).
Definition cut_sin (r : b64) : b64 := down (sin (bval r)).
Lemma cut_trig : trig_near_all cut_cos cut_sin.
Proof.
  intros r _. destruct (down_near (cos (bval r))) as (A & B); [pose proof (COS_bound (bval r)); lra|]. destruct (down_near (sin (bval r))) as (C & D); [pose proof (SIN_bound (bval r)); lra|]. split; [exact A|]. split; [exact C|]. split; [exact B|exact D].
Qed.
(** speed amplitude 3 and turning amplitude 2, frequencies 1 and 2, from (1, -2) and rotation 1, three steps; and a Static *)
Definition steps3 : list b64 := [half; quarter; half].
Example C137_example : trig_near_all cut_cos cut_sin /\ steps_on 2 steps3 /\ rsum (map bval steps3) = 5 / 4 /\
  (let '(p', r', t') := sinus_run cut_cos cut_sin false (fz 3) (fz 1) (fz 2) (fz 2) (fz 1, fz (-2)) (fz 1) steps3 in
   bval t' = 5 / 4 /\ Rabs (bval (fst p') - (1 + heading_sum cos 3 1 1 2 2 [1 / 2; 1 / 4; 1 / 2])) <= 3 * 8 * (2 + 3 * 4) * (/ 2 ^ 53 * 8)) /\
  @static_run b64 NumB (fz 1, fz (-2)) (fz 1) steps3 = ((fz 1, fz (-2)), fz 1, binary_normalize 53 1024 5 (-2) false).
Proof.
  assert (V : forall z : Z, bfin (fz z) -> bfin (fz z)) by auto.
  assert (V1 : bval (fz 1) = 1) by (rewrite b64q_R; unfold Q2R; vm_compute b64q; cbn; lra). assert (V2 : bval (fz 2) = 2) by (rewrite b64q_R; unfold Q2R; vm_compute b64q; cbn; lra).
  assert (V3 : bval (fz 3) = 3) by (rewrite b64q_R; unfold Q2R; vm_compute b64q; cbn; lra). assert (Vm : bval (fz (-2)) = -2) by (rewrite b64q_R; unfold Q2R; vm_compute b64q; cbn; lra).
  assert (Vh : bval half = 1 / 2) by (rewrite b64q_R; unfold Q2R; vm_compute b64q; cbn; lra). assert (Vq : bval quarter = 1 / 4) by (rewrite b64q_R; unfold Q2R; vm_compute b64q; cbn; lra).
  assert (P4 : p2 (- (2)) = / 4) by (rewrite p2_inv, p2_Z by lia; reflexivity).
  assert (Th : time_on 2 half) by (split; [vm_compute; reflexivity|]; exists 2%Z; rewrite Vh; change (- 2)%Z with (- (2))%Z; rewrite P4; lra). assert (Tq : time_on 2 quarter) by (split; [vm_compute; reflexivity|]; exists 1%Z; rewrite Vq; change (- 2)%Z with (- (2))%Z; rewrite P4; lra).
  assert (E : rsum (map bval steps3) = 5 / 4) by (unfold steps3, rsum; cbn [map fold_right]; rewrite Vh, Vq; lra).
  assert (B : 16 <= p2 4) by (rewrite (p2_Z 4) by lia; change (2 ^ 4)%Z with 16%Z; lra). assert (B1 : p2 4 <= p2 30) by (apply p2_le; lia). assert (B2 : p2 30 <= p2 100) by (apply p2_le; lia). assert (B3 : p2 100 <= p2 300) by (apply p2_le; lia). assert (B4 : p2 4 <= p2 (53 - 2)) by (apply p2_le; lia).
  assert (S1 : steps_on 2 steps3). { split; [|rewrite E; split; lra]. repeat (apply Forall_cons; [split; [assumption|lra]|]). apply Forall_nil. }
  split; [exact cut_trig|]. split; [exact S1|]. split; [exact E|]. split; [|vm_compute; reflexivity].
  pose proof (C137_heading cut_cos cut_sin 2 8 4 3 (fz 3) (fz 1) (fz 2) (fz 2) (fz 1, fz (-2)) (fz 1) steps3 cut_trig) as H. cbv zeta in H. rewrite E in H. cbn [fst snd] in H. rewrite V1, V2, V3, Vm in H.
  rewrite (Rabs_pos_eq 1), (Rabs_pos_eq 2), (Rabs_pos_eq 3), (Rabs_left (-2)) in H by lra. assert (L3 : INR (length steps3) = 3) by (cbn; lra). rewrite L3 in H. assert (MS : map bval steps3 = [1 / 2; 1 / 4; 1 / 2]) by (unfold steps3; cbn [map]; rewrite Vh, Vq; reflexivity). rewrite MS in H.
  destruct (sinus_run _ _ _ _ _ _ _ _ _ _) as ((p', r'), t'). destruct H as (_ & H1 & _ & H2 & _); try lra; try lia; try (vm_compute; reflexivity); try exact S1; try (split; vm_compute; reflexivity).
  apply Rle_trans with (p2 12); [rewrite (p2_Z 12) by lia; change (2 ^ 12)%Z with 4096%Z; lra|apply p2_le; lia].
Qed.
