(** Property C132: Interval of obstacles/motion_model.py past the last time, in binary64 arithmetic. *)
From Coq Require Import ZArith QArith Qreals Reals SpecFloat Bool Lia Lra List.
From Verif Require Import Num Spec M_Cg M_Motion M_Float M_FloatMotion S_Float L_Float L_FloatCmp L_FloatDiv L_FloatCg L_FloatGrid L_FloatNorm L_Geom L_Gen L_Motion L_FloatMotion L_FloatEllipse P_Float P_FloatMotion P_FloatWaypoints.
Import ListNotations.
Local Open Scope R_scope.

Lemma zero_val z : bfin z -> bval z = 0 -> exists b, z = S754_zero b.
Proof.
  destruct z as [b|b| |b m e]; intros F V; try contradiction; [exists b; reflexivity|]. rewrite bval_finite in V. pose proof (p2_pos e). apply Rmult_integral in V as [V|V]; [|lra].
  exfalso. destruct b; cbn [cond_Zopp] in V; apply eq_IZR in V; discriminate.
Qed.
Lemma add_zero x z : bfin x -> bfin z -> bval z = 0 -> bfin (SFadd 53 1024 x z) /\ bval (SFadd 53 1024 x z) = bval x.
Proof.
  intros Fx Fz Vz. destruct (zero_val z Fz Vz) as (b & ->). destruct x as [s|s| |s m e]; try contradiction; cbn [SFadd].
  - destruct (Bool.eqb s b); split; try exact I; reflexivity.
  - split; [exact Fx|reflexivity].
Qed.
Lemma near_0 r X : near r X -> X = 0 -> bfin r /\ bval r = 0.
Proof. intros (F & _ & E) ->. split; [exact F|]. apply (E 0%Z 0%Z); [lia|lia|]. ring. Qed.

Section Past.
  Variables (M : R) (a b vn dt : b64).
  Hypotheses (M1 : 1 <= M) (M2 : M <= p2 300) (Fa : bfin a) (Fb : bfin b) (Fv : bfin vn) (Ft : bfin dt).
  Hypotheses (Ba : Rabs (bval a) <= M) (Bb : Rabs (bval b) <= 2 * M) (V0 : 0 <= bval vn) (V1 : bval vn <= p2 302) (T0 : 0 <= bval dt) (T1 : bval dt <= 1) (VT : bval vn * bval dt <= 3 / 2).
  Let d := SFsub 53 1024 a b.
  Let X := bval a - bval b.
  Let u := p2 (-53).
  Let eta := p2 (-1075).
  Lemma big z : z <= 10 * M -> z <= p2 900.
  Proof. intros Hz. apply Rle_trans with (p2 4 * p2 300); [rewrite (p2_Z 4) by lia; change (2 ^ 4)%Z with 16%Z; lra|]. rewrite <- p2_add. apply p2_le. lia. Qed.
  Lemma consts : 0 < u /\ u <= 1 / 1000000000000000 /\ u <= u * M /\ u * M <= M / 1000000000000000 /\ 0 < eta /\ eta <= u / 1000000 /\ eta * p2 302 <= u / 1000000.
  Proof.
    pose proof u_small as (U0 & U1). destruct eta_tiny as (_ & H3). fold u in U0, U1, H3. fold eta in H3. split; [exact U0|]. split; [exact U1|]. split; [rewrite <- (Rmult_1_r u) at 1; apply Rmult_le_compat_l; lra|].
    split; [apply Rle_trans with (1 / 1000000000000000 * M); [apply Rmult_le_compat_r; lra|lra]|]. split; [apply p2_pos|]. split; [exact H3|].
    unfold eta, u. rewrite <- p2_add. replace (-1075 + 302)%Z with (-53 + -720)%Z by lia. rewrite p2_add. unfold Rdiv. apply Rmult_le_compat_l; [left; apply p2_pos|]. apply Rle_trans with (p2 (- (20))); [apply p2_le; lia|]. rewrite p2_inv, (p2_Z 20) by lia. change (2 ^ 20)%Z with 1048576%Z. lra.
  Qed.
  Lemma d_near : bfin d /\ Rabs (bval d - X) <= 3.1 * (u * M) /\ Rabs (bval d) <= 3.1 * M /\ near d X /\ Rabs (bval d - X) <= u * Rabs X + eta.
  Proof.
    destruct consts as (U0 & U1 & UM & UM' & E0 & E1 & E2). pose proof (abs_dif _ _ _ _ Ba Bb) as A1. fold X in A1. assert (N : near d X) by (apply sub_near; auto; apply big; fold X; lra).
    pose proof N as (F & N1 & _). fold u eta in N1. assert (u * Rabs X <= u * (3 * M)) by (apply Rmult_le_compat_l; lra). assert (K : Rabs (bval d - X) <= 3.1 * (u * M)) by lra. split; [exact F|]. split; [exact K|]. split; [|split; [exact N|exact N1]].
    replace (bval d) with ((bval d - X) + X) by ring. eapply Rle_trans; [apply Rabs_triang|]. lra.
  Qed.
  (** the last part of both cases: w is near W, |W| at most 4.7 M *)
  Lemma finish w W e : bfin w -> Rabs (bval w - W) <= e -> e <= M / 100 -> Rabs W <= 4.8 * M -> bfin (SFadd 53 1024 b w) /\ Rabs (bval (SFadd 53 1024 b w) - (bval b + W)) <= e + 7 * (u * M).
  Proof.
    intros Fw Ew e1 BW. destruct consts as (U0 & U1 & UM & UM' & E0 & E1 & E2). assert (Bw : Rabs (bval w) <= 4.9 * M). { replace (bval w) with ((bval w - W) + W) by ring. eapply Rle_trans; [apply Rabs_triang|]. lra. }
    pose proof (abs_sum _ _ _ _ Bb Bw) as Bs. destruct (add_near b w Fb Fw) as (F & N & _); [apply big; lra|]. fold u eta in N. split; [exact F|].
    replace (bval (SFadd 53 1024 b w) - (bval b + W)) with ((bval (SFadd 53 1024 b w) - (bval b + bval w)) + (bval w - W)) by ring. eapply Rle_trans; [apply Rabs_triang|].
    assert (u * Rabs (bval b + bval w) <= u * (6.9 * M)) by (apply Rmult_le_compat_l; lra). lra.
  Qed.
  (** m is near vn y: the product with dt *)
  Lemma times_dt m y B : bfin m -> Rabs (bval m - bval vn * y) <= u * (bval vn * B) + eta -> Rabs y <= B -> B <= 3.1 * M -> 0 <= B ->
    bfin (SFmul 53 1024 m dt) /\ Rabs (bval (SFmul 53 1024 m dt) - bval vn * bval dt * y) <= 9.4 * (u * M).
  Proof.
    intros Fm Em By BM B0. destruct consts as (U0 & U1 & UM & UM' & E0 & E1 & E2). set (la := bval vn * bval dt) in *. assert (L0 : 0 <= la) by (apply Rmult_le_pos; auto).
    assert (K : Rabs (bval m * bval dt - la * y) <= 4.66 * (u * M)).
    { replace (bval m * bval dt - la * y) with ((bval m - bval vn * y) * bval dt) by (unfold la; ring). rewrite Rabs_mult, (Rabs_pos_eq (bval dt)) by auto.
      apply Rle_trans with ((u * (bval vn * B) + eta) * bval dt); [apply Rmult_le_compat_r; auto|]. replace ((u * (bval vn * B) + eta) * bval dt) with (u * (la * B) + eta * bval dt) by (unfold la; ring).
      assert (la * B <= 3 / 2 * (3.1 * M)) by (apply Rmult_le_compat; lra). assert (u * (la * B) <= u * (3 / 2 * (3.1 * M))) by (apply Rmult_le_compat_l; lra). assert (eta * bval dt <= eta * 1) by (apply Rmult_le_compat_l; lra). lra. }
    assert (BY : Rabs (la * y) <= 3 / 2 * (3.1 * M)). { apply abs_mul; [rewrite Rabs_pos_eq; auto|lra]. }
    assert (BY' : Rabs (bval m * bval dt) <= 4.7 * M). { replace (bval m * bval dt) with ((bval m * bval dt - la * y) + la * y) by ring. eapply Rle_trans; [apply Rabs_triang|]. lra. }
    destruct (mul_near m dt Fm Ft) as (F & N & _); [apply big; lra|]. fold u eta in N. split; [exact F|].
    replace (bval (SFmul 53 1024 m dt) - la * y) with ((bval (SFmul 53 1024 m dt) - bval m * bval dt) + (bval m * bval dt - la * y)) by ring. eapply Rle_trans; [apply Rabs_triang|].
    assert (u * Rabs (bval m * bval dt) <= u * (4.7 * M)) by (apply Rmult_le_compat_l; lra). lra.
  Qed.
  Lemma near_coord : let x' := SFadd 53 1024 b (SFmul 53 1024 (SFmul 53 1024 vn d) dt) in
    bfin x' /\ Rabs (bval x' - (bval b + bval vn * bval dt * X)) <= 22 * (u * M) /\ (X = 0 -> bval x' = bval b).
  Proof.
    intros x'. destruct consts as (U0 & U1 & UM & UM' & E0 & E1 & E2). destruct d_near as (Fd & Kd & Bd & Nd & _).
    assert (BV : Rabs (bval vn * bval d) <= p2 900). { apply Rle_trans with (p2 302 * (3.1 * M)); [apply abs_mul; [rewrite Rabs_pos_eq; auto|exact Bd]|]. apply Rle_trans with (p2 302 * (p2 4 * p2 300)); [apply Rmult_le_compat_l; [left; apply p2_pos|]; rewrite (p2_Z 4) by lia; change (2 ^ 4)%Z with 16%Z; lra|]. rewrite <- !p2_add. apply p2_le. lia. }
    pose proof (mul_near vn d Fv Fd BV) as Nm. pose proof Nm as (Fm & Em & _). fold u eta in Em. set (m := SFmul 53 1024 vn d) in *.
    destruct (times_dt m (bval d) (Rabs (bval d)) Fm) as (Fw & Ew); [|lra|lra|apply Rabs_pos|]. { rewrite Rabs_mult, (Rabs_pos_eq (bval vn)) in Em by auto. exact Em. }
    set (w := SFmul 53 1024 m dt) in *. set (la := bval vn * bval dt) in *. assert (L0 : 0 <= la) by (apply Rmult_le_pos; auto).
    assert (K : Rabs (bval w - la * X) <= 14.5 * (u * M)). { replace (bval w - la * X) with ((bval w - la * bval d) + la * (bval d - X)) by ring. eapply Rle_trans; [apply Rabs_triang|].
      assert (Rabs (la * (bval d - X)) <= 3 / 2 * (3.1 * (u * M))) by (apply abs_mul; [rewrite Rabs_pos_eq; auto|exact Kd]). lra. }
    pose proof (abs_dif _ _ _ _ Ba Bb) as A1. fold X in A1. destruct (finish w (la * X) _ Fw K) as (F & E); [lra| |].
    { apply Rle_trans with (3 / 2 * (3 * M)); [apply abs_mul; [rewrite Rabs_pos_eq; auto|lra]|lra]. }
    split; [exact F|]. split; [fold x' in E; lra|]. intros X0. destruct (near_0 _ _ Nd X0) as (_ & Vd). destruct (near_0 _ _ Nm ltac:(rewrite Vd; ring)) as (_ & Vm).
    assert (Nw : near w (bval m * bval dt)). { apply mul_near; auto. rewrite Vm, Rmult_0_l, Rabs_R0. left. apply p2_pos. } destruct (near_0 _ _ Nw ltac:(rewrite Vm; ring)) as (_ & Vw). apply add_zero; auto.
  Qed.
  Lemma far_coord l : bfin l -> 0 < bval l -> bval vn <= bval l -> Rabs (bval d) <= 1.1 * bval l -> let x' := SFadd 53 1024 b (SFmul 53 1024 (SFmul 53 1024 vn (SFdiv 53 1024 d l)) dt) in
    bfin x' /\ Rabs (bval x' - (bval b + bval vn * bval dt / bval l * X)) <= 22 * (u * M).
  Proof.
    intros Fl l0 Lv Ld x'. destruct consts as (U0 & U1 & UM & UM' & E0 & E1 & E2). destruct d_near as (Fd & Kd & Bd & Nd & _). set (y := bval d / bval l).
    assert (By : Rabs y <= 1.1). { unfold y, Rdiv. rewrite Rabs_mult, Rabs_inv, (Rabs_pos_eq (bval l)) by lra. apply Rmult_le_reg_r with (bval l); [lra|]. rewrite Rmult_assoc, Rinv_l by lra. lra. }
    destruct (div_near d l Fd Fl ltac:(lra)) as (Fq & Eq & _); [apply big; fold y; lra|]. fold u eta y in Eq. set (q := SFdiv 53 1024 d l) in *.
    assert (Eq' : Rabs (bval q - y) <= 1.11 * u). { assert (u * Rabs y <= u * 1.1) by (apply Rmult_le_compat_l; lra). lra. }
    assert (Bq : Rabs (bval q) <= 1.11). { replace (bval q) with ((bval q - y) + y) by ring. eapply Rle_trans; [apply Rabs_triang|]. lra. }
    assert (BV : Rabs (bval vn * bval q) <= bval vn * 1.11). { apply abs_mul; [rewrite Rabs_pos_eq; lra|exact Bq]. }
    assert (P302 : bval vn * 1.11 <= p2 900). { apply Rle_trans with (p2 302 * p2 1); [rewrite p2_1; apply Rmult_le_compat; lra|]. rewrite <- p2_add. apply p2_le. lia. }
    destruct (mul_near vn q Fv Fq ltac:(lra)) as (Fm & Em & _). fold u eta in Em. set (m := SFmul 53 1024 vn q) in *.
    destruct (times_dt m y 2.3 Fm) as (Fw & Ew); [|lra|lra|lra|].
    { replace (bval m - bval vn * y) with ((bval m - bval vn * bval q) + bval vn * (bval q - y)) by ring. eapply Rle_trans; [apply Rabs_triang|].
      assert (Rabs (bval vn * (bval q - y)) <= bval vn * (1.11 * u)) by (apply abs_mul; [rewrite Rabs_pos_eq; lra|exact Eq']). assert (u * Rabs (bval vn * bval q) <= u * (bval vn * 1.11)) by (apply Rmult_le_compat_l; lra).
      assert (0 <= u * bval vn) by (apply Rmult_le_pos; lra). lra. }
    set (w := SFmul 53 1024 m dt) in *. set (la := bval vn * bval dt) in *. assert (L0 : 0 <= la) by (apply Rmult_le_pos; auto).
    assert (L1 : 0 <= la / bval l <= 1). { split; [apply Rmult_le_pos; [auto|left; apply Rinv_0_lt_compat; auto]|]. apply Rmult_le_reg_r with (bval l); auto. unfold Rdiv. rewrite Rmult_assoc, Rinv_l by lra. unfold la. assert (bval vn * bval dt <= bval l * 1) by (apply Rmult_le_compat; lra). lra. }
    assert (K : Rabs (bval w - la / bval l * X) <= 12.6 * (u * M)). { replace (bval w - la / bval l * X) with ((bval w - la * y) + la / bval l * (bval d - X)) by (unfold y; field; lra). eapply Rle_trans; [apply Rabs_triang|].
      assert (Rabs (la / bval l * (bval d - X)) <= 1 * (3.1 * (u * M))) by (apply abs_mul; [rewrite Rabs_pos_eq; lra|exact Kd]). lra. }
    pose proof (abs_dif _ _ _ _ Ba Bb) as A1. fold X in A1. destruct (finish w (la / bval l * X) _ Fw K) as (F & E); [lra| |].
    { apply Rle_trans with (1 * (3 * M)); [apply abs_mul; [rewrite Rabs_pos_eq; lra|lra]|lra]. }
    split; [exact F|]. fold x' in E. lra.
  Qed.
End Past.

Lemma sub0_sq x : bfin x -> SFmul 53 1024 (SFsub 53 1024 x (S754_zero false)) (SFsub 53 1024 x (S754_zero false)) = SFmul 53 1024 x x.
Proof. destruct x as [s|s| |s m e]; intros F; try contradiction; [destruct s; reflexivity|reflexivity]. Qed.
Lemma norm_of v : bfin_pt v -> within (p2 400) v -> bfin (norm_num b64_sqrt v) /\ Rabs (bval (norm_num b64_sqrt v) - norm (bpt v)) <= 7 * p2 (-53) * norm (bpt v) + p2 (-299).
Proof.
  intros Fv Wv. assert (Z : bval (S754_zero false) = 0) by apply n0_val. assert (Fz : bfin_pt (S754_zero false, S754_zero false)) by (split; exact I).
  assert (Wz : within (p2 400) (S754_zero false, S754_zero false)) by (split; cbn [fst snd]; rewrite Z, Rabs_R0; left; apply p2_pos).
  destruct (norm_near v (S754_zero false, S754_zero false) Fv Fz Wv Wz) as (F & N & _). destruct Fv as (F1 & F2).
  assert (E : norm_num b64_sqrt (SFsub 53 1024 (fst v) (S754_zero false), SFsub 53 1024 (snd v) (S754_zero false)) = norm_num b64_sqrt v).
  { unfold norm_num. cbn [fst snd nmul nadd NumB]. rewrite !sub0_sq by auto. reflexivity. }
  cbn [fst snd] in F, N. rewrite E in F, N. split; [exact F|]. replace (norm (bpt v)) with (dist (bpt v) (bpt (S754_zero false, S754_zero false))); [exact N|].
  unfold dist. f_equal. unfold vsub, bpt. cbn [fst snd]. rewrite Z. f_equal; ring.
Qed.
Lemma quot_near M p q D : 1 <= M -> M <= p2 300 -> bfin p -> bfin q -> bfin D -> Rabs (bval p) <= M -> Rabs (bval q) <= M -> p2 (-500) <= bval D ->
  let A := (bval q - bval p) / bval D in let v := SFdiv 53 1024 (SFsub 53 1024 q p) D in Rabs A <= p2 300 -> bfin v /\ Rabs (bval v - A) <= 0.001 * Rabs A + p2 (-570).
Proof.
  intros M1 M2 Fp Fq FD Bp Bq D0 A v BA. pose proof u_small as (U0 & U1). pose proof (p2_pos (-500)) as P5. pose proof (p2_pos (-1075)) as E0. set (u := p2 (-53)) in *. set (eta := p2 (-1075)) in *. assert (dD : 0 < bval D) by lra.
  pose proof (abs_dif _ _ _ _ Bq Bp) as A1. destruct (sub_near q p Fq Fp) as (F1 & N1 & _); [apply (big M); lra|]. fold u eta in N1. set (a := SFsub 53 1024 q p) in *. set (X := bval q - bval p) in *.
  assert (I5 : / bval D <= p2 500). { replace (p2 500) with (/ p2 (-500)) by (change (-500)%Z with (- (500))%Z; rewrite p2_inv, Rinv_inv; reflexivity). apply Rinv_le_contravar; lra. }
  assert (I0 : 0 < / bval D) by (apply Rinv_0_lt_compat; auto). assert (E5 : eta * p2 500 = p2 (-575)) by (unfold eta; rewrite <- p2_add; reflexivity).
  assert (K1 : Rabs (bval a / bval D - A) <= u * Rabs A + p2 (-575)).
  { unfold A. replace (bval a / bval D - X / bval D) with ((bval a - X) * / bval D) by (unfold Rdiv; ring). rewrite Rabs_mult, (Rabs_pos_eq (/ bval D)) by lra. apply Rle_trans with ((u * Rabs X + eta) * / bval D); [apply Rmult_le_compat_r; lra|].
    unfold Rdiv. rewrite (Rabs_mult X), (Rabs_pos_eq (/ bval D)) by lra. assert (eta * / bval D <= eta * p2 500) by (apply Rmult_le_compat_l; lra). lra. }
  assert (P575 : p2 (-575) = p2 (-570) * / 32). { replace (-575)%Z with (-570 + - (5))%Z by lia. rewrite p2_add, p2_inv, (p2_Z 5) by lia. reflexivity. } pose proof (p2_pos (-570)) as P70. assert (Eq : eta <= p2 (-575)) by (apply p2_le; lia).
  assert (A0 : 0 <= Rabs A) by apply Rabs_pos. assert (uA : u * Rabs A <= 1 / 1000000000000000 * Rabs A) by (apply Rmult_le_compat_r; lra).
  assert (BA' : Rabs (bval a / bval D) <= 1.001 * Rabs A + p2 (-570)). { replace (bval a / bval D) with ((bval a / bval D - A) + A) by ring. eapply Rle_trans; [apply Rabs_triang|]. lra. }
  assert (P570 : p2 (-570) <= 1) by (rewrite <- p2_0; apply p2_le; lia). assert (P1 : 1 <= p2 300) by (rewrite <- p2_0; apply p2_le; lia).
  destruct (div_near a D F1 FD ltac:(lra)) as (F2 & N2 & _); [apply (big (p2 300)); lra|]. fold u eta v in N2. split; [exact F2|].
  replace (bval v - A) with ((bval v - bval a / bval D) + (bval a / bval D - A)) by ring. eapply Rle_trans; [apply Rabs_triang|].
  assert (u * Rabs (bval a / bval D) <= 1 / 1000000000000000 * (1.001 * Rabs A + p2 (-570))) by (apply Rmult_le_compat; try lra; apply Rabs_pos). lra.
Qed.
Lemma speed_near M p q D : 1 <= M -> M <= p2 300 -> bfin_pt p -> bfin_pt q -> bfin D -> within M p -> within M q -> p2 (-500) <= bval D ->
  let V := norm (smul (/ bval D) (vsub (bpt q) (bpt p))) in
  let vn := norm_num b64_sqrt (SFdiv 53 1024 (SFsub 53 1024 (fst q) (fst p)) D, SFdiv 53 1024 (SFsub 53 1024 (snd q) (snd p)) D) in
  p2 (-200) <= V <= p2 300 -> bfin vn /\ Rabs (bval vn - V) <= V / 100.
Proof.
  intros M1 M2 (F1 & F2) (F3 & F4) FD (W1 & W2) (W3 & W4) D0 V vn (V0 & V1).
  assert (E1 : (bval (fst q) - bval (fst p)) / bval D = fst (smul (/ bval D) (vsub (bpt q) (bpt p)))) by (unfold smul, vsub, bpt; cbn [fst snd]; unfold Rdiv; ring).
  assert (E2 : (bval (snd q) - bval (snd p)) / bval D = snd (smul (/ bval D) (vsub (bpt q) (bpt p)))) by (unfold smul, vsub, bpt; cbn [fst snd]; unfold Rdiv; ring).
  set (Av := smul (/ bval D) (vsub (bpt q) (bpt p))) in *. assert (B1 : Rabs (fst Av) <= V). { pose proof (dist_ge_x Av (0, 0)) as K. unfold dist in K. replace (vsub Av (0, 0)) with Av in K by (destruct Av; unfold vsub; cbn; f_equal; ring). cbn [fst] in K. rewrite Rminus_0_r in K. exact K. }
  assert (B2 : Rabs (snd Av) <= V). { pose proof (dist_ge_y Av (0, 0)) as K. unfold dist in K. replace (vsub Av (0, 0)) with Av in K by (destruct Av; unfold vsub; cbn; f_equal; ring). cbn [snd] in K. rewrite Rminus_0_r in K. exact K. }
  destruct (quot_near M (fst p) (fst q) D M1 M2 F1 F3 FD W1 W3 D0) as (G1 & N1); [rewrite E1; lra|]. destruct (quot_near M (snd p) (snd q) D M1 M2 F2 F4 FD W2 W4 D0) as (G2 & N2); [rewrite E2; lra|].
  rewrite E1 in N1. rewrite E2 in N2. set (v := (SFdiv 53 1024 (SFsub 53 1024 (fst q) (fst p)) D, SFdiv 53 1024 (SFsub 53 1024 (snd q) (snd p)) D)) in *.
  assert (P200 : p2 (-570) <= p2 (-200) / 1000). { replace (-570)%Z with (-200 + -370)%Z by lia. rewrite p2_add. unfold Rdiv. apply Rmult_le_compat_l; [left; apply p2_pos|]. apply Rle_trans with (p2 (- (10))); [apply p2_le; lia|]. rewrite p2_inv, (p2_Z 10) by lia. change (2 ^ 10)%Z with 1024%Z. lra. }
  assert (P299 : p2 (-299) <= p2 (-200) / 1000). { replace (-299)%Z with (-200 + -99)%Z by lia. rewrite p2_add. unfold Rdiv. apply Rmult_le_compat_l; [left; apply p2_pos|]. apply Rle_trans with (p2 (- (10))); [apply p2_le; lia|]. rewrite p2_inv, (p2_Z 10) by lia. change (2 ^ 10)%Z with 1024%Z. lra. }
  assert (K : dist (bpt v) Av <= 0.002 * V + 0.002 * V). { apply dist_le_sum; cbn [bpt fst snd v]; [eapply Rle_trans; [exact N1|]; lra|eapply Rle_trans; [exact N2|]; lra]. }
  assert (Bv : forall x y, Rabs (x - y) <= 0.001 * Rabs y + p2 (-570) -> Rabs y <= V -> Rabs x <= p2 400).
  { intros x y H Hy. apply Rle_trans with (p2 300 * p2 1); [rewrite p2_1|rewrite <- p2_add; apply p2_le; lia]. replace x with ((x - y) + y) by ring. eapply Rle_trans; [apply Rabs_triang|]. lra. }
  destruct (norm_of v) as (Fn & Nn); [split; auto|split; [apply (Bv _ _ N1 B1)|apply (Bv _ _ N2 B2)]|]. split; [exact Fn|].
  assert (Tr : Rabs (norm (bpt v) - V) <= 0.004 * V).
  { assert (EV : V = dist Av (0, 0)) by (unfold V, dist; f_equal; destruct Av; unfold vsub; cbn; f_equal; ring). assert (Ev : norm (bpt v) = dist (bpt v) (0, 0)) by (unfold dist; f_equal; unfold vsub, bpt; cbn; f_equal; ring).
    pose proof (dist_triangle (bpt v) Av (0, 0)) as T1. pose proof (dist_triangle Av (bpt v) (0, 0)) as T2. rewrite (dist_sym Av (bpt v)) in T2. rewrite <- EV, <- Ev in T1, T2. apply Rabs_le. lra. }
  apply Rabs_le_inv in Tr as (T1 & T2). pose proof u_small as (U0 & U1). assert (7 * p2 (-53) * norm (bpt v) <= 7 * (1 / 1000000000000000) * (1.004 * V)). { pose proof (norm_nonneg (bpt v)). apply Rmult_le_compat; lra. }
  apply Rabs_le_inv in Nn as (N3 & N4). fold vn in N3, N4. apply Rabs_le. lra.
Qed.

(** C132: after the last time, when the speed on the last leg is at least 2^-200, a step of at most 1 and at most the reciprocal of that speed takes the obstacle no further
    from the last position than it was, up to 2^-48 M; an obstacle at the last position stays. *)
Theorem C132_past_end : forall s M start tps pos t dt, (0 <= s <= 500)%Z -> 1 <= M <= p2 300 -> tps <> [] -> bfin_pt start -> within M start ->
  Forall (fun e => time_on s (fst e) /\ 0 < bval (fst e) /\ bfin_pt (snd e) /\ within M (snd e)) tps ->
  let legs := btps tps in let goal := listed_position (bpt start) legs (length tps) in let speed := last_speed (bpt start) legs in
  break_time legs (length tps) < p2 (53 - s) -> p2 (-200) <= speed <= p2 300 -> bfin_pt pos -> within (2 * M) pos -> bfin t -> break_time legs (length tps) < bval t ->
  bfin dt -> 0 <= bval dt <= 1 -> speed * bval dt <= 1 ->
  exists pos' t', interval_move_num b64_sqrt (pos_points start tps) (time_points tps) dt (pos, t) = Some (pos', t') /\ bfin_pt pos' /\
    dist goal (bpt pos') <= dist goal (bpt pos) + p2 (-48) * M /\ (bpt pos = goal -> bpt pos' = goal).
Proof.
  intros s M start tps pos t dt Hs (M1 & M2) NE Fs Ws HF legs goal speed HT (S0 & S1) Fp Wp Ft Ht Fd (d0 & d1) Sd.
  set (n := length tps) in *. assert (n1 : (1 <= n)%nat) by (unfold n; destruct tps; [congruence|cbn; lia]).
  destruct (tp_spec s M tps Hs HF HT) as (_ & _ & TL). fold n in TL.
  destruct (tp_nth s M start tps Hs HF HT n (le_n _)) as (T1 & V1 & B1). destruct (tp_nth s M start tps Hs HF HT (n - 1) ltac:(unfold n; lia)) as (T2 & V2 & B2). fold legs in V1, V2, B1, B2.
  destruct (pp_nth s M start tps Hs Fs Ws HF n (le_n _)) as (F1 & W1 & E1). destruct (pp_nth s M start tps Hs Fs Ws HF (n - 1) ltac:(unfold n; lia)) as (F2 & W2 & E2). fold legs in E1, E2. fold goal in E1.
  set (q := nth n (pos_points start tps) (n0, n0)) in *. set (p := nth (n - 1) (pos_points start tps) (n0, n0)) in *.
  assert (Mono : break_time legs (n - 1) < break_time legs n). { pose proof (break_mono legs) as K. unfold legs in K. rewrite rt_length in K. fold legs n in K. apply K; [|lia]. apply (rt_pos s M start tps Hs HF). }
  destruct (sub_exact s Hs _ _ T2 T1 ltac:(lra) ltac:(lra)) as (FD & VD & BD). set (D := SFsub 53 1024 _ _) in *. rewrite V1, V2 in VD, BD.
  assert (Sp : speed = norm (smul (/ bval D) (vsub (bpt q) (bpt p)))). { unfold speed, last_speed. rewrite VD, E1, E2. unfold legs. rewrite rt_length. reflexivity. }
  rewrite Sp in S0, S1. destruct (speed_near M p q D M1 M2 F2 F1 FD W2 W1 ltac:(lra) (conj S0 S1)) as (Fv & Nv). rewrite <- Sp in S0, S1, Nv.
  set (vn := norm_num b64_sqrt _) in *. apply Rabs_le_inv in Nv as (Nv1 & Nv2). pose proof (p2_pos (-200)) as P200.
  assert (Wp6 : within (6 * M) pos) by (destruct Wp; split; lra). destruct (seen_near M M1 M2 q pos F1 Fp W1 Wp6) as (Fl & Nl & L0). set (L := dist (bpt q) (bpt pos)) in *. set (l := seen_at q pos) in *.
  assert (Mv : interval_move_num b64_sqrt (pos_points start tps) (time_points tps) dt (pos, t) =
    let dir := (SFsub 53 1024 (fst q) (fst pos), SFsub 53 1024 (snd q) (snd pos)) in let dir' := if SFltb vn l then (SFdiv 53 1024 (fst dir) l, SFdiv 53 1024 (snd dir) l) else dir in
    Some ((SFadd 53 1024 (fst pos) (SFmul 53 1024 (SFmul 53 1024 vn (fst dir')) dt), SFadd 53 1024 (snd pos) (SFmul 53 1024 (SFmul 53 1024 vn (snd dir')) dt)), SFadd 53 1024 t dt)).
  { unfold interval_move_num, interval_vel_num. rewrite TL. replace (S n - 1)%nat with n by lia. replace (S n - 2)%nat with (n - 1)%nat by lia. cbv zeta. fold p q. destruct T1 as (Ft1 & _).
    cbn [nltb nsub ndiv nmul nadd NumB]. rewrite ltb_spec, V1 by auto. destruct (Rltb_spec (break_time legs n) (bval t)) as [_|]; [|lra].
    destruct (Nat.ltb_spec (S n) 2); [lia|]. cbv zeta. reflexivity. }
  rewrite Mv. clear Mv. cbv zeta. cbn [fst snd]. destruct F1 as (Fq1 & Fq2), Fp as (Fp1 & Fp2), W1 as (Wq1 & Wq2), Wp as (Wp1 & Wp2).
  pose proof (p2_pos 300) as P3. assert (vn0 : 0 <= bval vn) by lra. assert (vn1 : bval vn <= p2 302). { replace 302%Z with (300 + 2)%Z by lia. rewrite p2_add, (p2_Z 2) by lia. change (2 ^ 2)%Z with 4%Z. lra. }
  assert (vd : bval vn * bval dt <= 3 / 2). { assert (bval vn * bval dt <= 1.01 * speed * bval dt) by (apply Rmult_le_compat_r; lra). lra. } assert (vd0 : 0 <= bval vn * bval dt) by (apply Rmult_le_pos; lra).
  pose proof u_small as (U0 & U1). apply Rabs_le_inv in Nl as (Nl1 & Nl2).
  assert (P299 : p2 (-299) <= p2 (-200) / 1000). { replace (-299)%Z with (-200 + -99)%Z by lia. rewrite p2_add. unfold Rdiv. apply Rmult_le_compat_l; [lra|]. apply Rle_trans with (p2 (- (10))); [apply p2_le; lia|]. rewrite p2_inv, (p2_Z 10) by lia. change (2 ^ 10)%Z with 1024%Z. lra. }
  assert (uL : p2 (-53) * L <= 1 / 1000000000000000 * L) by (apply Rmult_le_compat_r; lra).
  assert (Fin : forall la x y, 0 <= la <= 2 -> bfin x -> bfin y -> Rabs (bval x - (bval (fst pos) + la * (bval (fst q) - bval (fst pos)))) <= 22 * (p2 (-53) * M) -> Rabs (bval y - (bval (snd pos) + la * (bval (snd q) - bval (snd pos)))) <= 22 * (p2 (-53) * M) ->
     dist goal (bpt (x, y)) <= dist goal (bpt pos) + p2 (-48) * M).
  { intros la x y La Fx Fy Ex Ey. rewrite <- E1. set (z := vadd (bpt pos) (smul la (vsub (bpt q) (bpt pos)))). assert (Q1 : dist z (bpt (x, y)) <= p2 (-48) * M).
    { unfold dist. assert (E48 : p2 (-48) = 32 * p2 (-53)). { replace (-48)%Z with (5 + -53)%Z by lia. rewrite p2_add, (p2_Z 5) by lia. reflexivity. } rewrite E48, Rmult_assoc. assert (0 <= p2 (-53) * M) by (apply Rmult_le_pos; lra). apply norm_le; [lra|].
      unfold norm2, dot, z, vsub, vadd, smul, bpt. cbn [fst snd]. assert (SQ : forall g c, Rabs g <= c -> g * g <= c * c) by (intros g c Hg; rewrite <- (Rabs_pos_eq (g * g)), Rabs_mult by apply Rle_0_sqr; apply Rmult_le_compat; auto; apply Rabs_pos).
      rewrite Rabs_minus_sym in Ex, Ey. apply SQ in Ex, Ey. set (k := p2 (-53) * M) in *. assert (0 <= k * k) by (apply Rmult_le_pos; lra). lra. }
    assert (Q2 : dist (bpt q) z <= L). { unfold dist, z. rewrite vsub_anti, norm_smul. fold (dist (bpt q) (bpt pos)). fold L. rewrite <- (Rmult_1_l L) at 2. apply Rmult_le_compat_r; [lra|]. apply Rabs_le. lra. }
    fold L. pose proof (dist_triangle (bpt q) z (bpt (x, y))). lra. }
  destruct (SFltb vn l) eqn:El.
  - assert (Lv : bval vn < bval l) by (rewrite ltb_spec in El by auto; apply Rltb_true in El; exact El). cbn [fst snd].
    assert (Lp : p2 (-200) / 2 <= L) by lra.
    assert (Dd : forall a b, bfin a -> bfin b -> Rabs (bval a) <= M -> Rabs (bval b) <= 2 * M -> Rabs (bval a - bval b) <= L -> Rabs (bval (SFsub 53 1024 a b)) <= 1.1 * bval l).
    { intros a b Fa Fb Ba Bb Bab. destruct (d_near M a b M1 M2 Fa Fb Ba Bb) as (_ & _ & _ & _ & K). assert (p2 (-1075) <= p2 (-299)) by (apply p2_le; lia). assert (p2 (-53) * Rabs (bval a - bval b) <= 1 / 1000000000000000 * L) by (apply Rmult_le_compat; try lra; apply Rabs_pos).
      replace (bval (SFsub 53 1024 a b)) with ((bval (SFsub 53 1024 a b) - (bval a - bval b)) + (bval a - bval b)) by ring. eapply Rle_trans; [apply Rabs_triang|]. lra. }
    destruct (far_coord M (fst q) (fst pos) vn dt M1 M2 Fq1 Fp1 Fv Fd Wq1 Wp1 vn0 vn1 d0 d1 vd l Fl ltac:(lra) ltac:(lra) (Dd _ _ Fq1 Fp1 Wq1 Wp1 (dist_ge_x (bpt q) (bpt pos)))) as (G1 & X1).
    destruct (far_coord M (snd q) (snd pos) vn dt M1 M2 Fq2 Fp2 Fv Fd Wq2 Wp2 vn0 vn1 d0 d1 vd l Fl ltac:(lra) ltac:(lra) (Dd _ _ Fq2 Fp2 Wq2 Wp2 (dist_ge_y (bpt q) (bpt pos)))) as (G2 & X2).
    eexists _, _. split; [reflexivity|]. split; [split; assumption|]. split.
    + apply (Fin (bval vn * bval dt / bval l)); auto. split; [apply Rmult_le_pos; [auto|left; apply Rinv_0_lt_compat; lra]|]. apply Rmult_le_reg_r with (bval l); [lra|]. unfold Rdiv. rewrite Rmult_assoc, Rinv_l by lra. assert (bval vn * bval dt <= bval l * 1) by (apply Rmult_le_compat; lra). lra.
    + intros Eg. exfalso. assert (L = 0) by (unfold L; rewrite Eg, E1; apply dist_refl). lra.
  - destruct (near_coord M (fst q) (fst pos) vn dt M1 M2 Fq1 Fp1 Fv Fd Wq1 Wp1 vn0 vn1 d0 d1 vd) as (G1 & X1 & Z1). destruct (near_coord M (snd q) (snd pos) vn dt M1 M2 Fq2 Fp2 Fv Fd Wq2 Wp2 vn0 vn1 d0 d1 vd) as (G2 & X2 & Z2).
    eexists _, _. split; [reflexivity|]. split; [split; assumption|]. split; [apply (Fin (bval vn * bval dt)); auto; lra|].
    intros Eg. rewrite <- E1 in Eg. unfold bpt in Eg. injection Eg as Eg1 Eg2. rewrite <- E1. unfold bpt. cbn [fst snd]. rewrite Z1, Z2 by lra. congruence.
Qed.
Print Assumptions C132_past_end.
(** *** one leg from (0, 0) to (1, 0) in the time 1; at the time 2 the obstacle is at (1/2, 0) and moves by half the way *)
Example C132_example : let tps := [(fz 1, (fz 1, fz 0))] in let start := (fz 0, fz 0) in
  interval_move_num b64_sqrt (pos_points start tps) (time_points tps) half ((half, fz 0), fz 2) = Some ((binary_normalize 53 1024 3 (-2) false, fz 0), binary_normalize 53 1024 5 (-1) false) /\
  Forall (fun e => time_on 2 (fst e) /\ 0 < bval (fst e) /\ bfin_pt (snd e) /\ within 1 (snd e)) tps /\ break_time (btps tps) (length tps) = 1 /\ last_speed (bpt start) (btps tps) = 1 /\ bval half = / 2.
Proof.
  cbv zeta. split; [vm_compute; reflexivity|].
  assert (V1 : bval (fz 1) = 1) by (rewrite b64q_R; unfold Q2R; vm_compute b64q; cbn; lra). assert (V0 : bval (fz 0) = 0) by (rewrite b64q_R; unfold Q2R; vm_compute b64q; cbn; lra). assert (Vh : bval half = / 2) by (rewrite b64q_R; unfold Q2R; vm_compute b64q; cbn; lra).
  assert (P : p2 (- (2)) = / 4) by (rewrite p2_inv, p2_Z by lia; change (2 ^ 2)%Z with 4%Z; reflexivity).
  split; [|split; [|split; [|exact Vh]]].
  - apply Forall_cons; [|apply Forall_nil]. cbn [fst snd]. split; [split; [vm_compute; reflexivity|exists 4%Z; rewrite V1, P; lra]|]. split; [rewrite V1; lra|]. split; [split; vm_compute; auto|]. split; cbn [fst snd]; rewrite ?V1, ?V0, ?Rabs_R0, ?Rabs_R1; lra.
  - unfold break_time, btps, rsum. cbn [map fst snd firstn fold_right length]. rewrite V1. lra.
  - unfold last_speed, break_time, btps, listed_position, rsum, norm, norm2, dot, smul, vsub, bpt. cbn [map fst snd firstn fold_right length Nat.sub nth]. rewrite V1, V0.
    match goal with |- sqrt ?e = 1 => replace e with 1 by field end. apply sqrt_1.
Qed.
(** C132, the bound on the step is needed: near the last position the velocity is speed times the distance left, so that a longer step jumps past it, further away than before *)
Theorem C132_overshoot_refuted : exists start tps pos t dt pos' t', Forall (fun e => time_on 2 (fst e) /\ 0 < bval (fst e) /\ bfin_pt (snd e) /\ within 4 (snd e)) tps /\ bfin_pt start /\ bfin_pt pos /\
  break_time (btps tps) (length tps) < bval t /\ 0 < bval dt <= 1 /\
  interval_move_num b64_sqrt (pos_points start tps) (time_points tps) dt (pos, t) = Some (pos', t') /\
  let goal := listed_position (bpt start) (btps tps) (length tps) in dist goal (bpt pos) = 1 /\ dist goal (bpt pos') = 3.
Proof.
  exists (fz 0, fz 0), [(fz 1, (fz 4, fz 0))], (fz 3, fz 0), (fz 2), (fz 1), (fz 7, fz 0), (fz 3).
  assert (V : forall z, In z [0; 1; 2; 3; 4; 7]%Z -> bval (fz z) = IZR z) by (intros z Hz; repeat destruct Hz as [<-|Hz]; try (rewrite b64q_R; unfold Q2R; vm_compute b64q; cbn; lra); destruct Hz).
  assert (P : p2 (- (2)) = / 4) by (rewrite p2_inv, p2_Z by lia; change (2 ^ 2)%Z with 4%Z; reflexivity).
  split; [|split; [apply fin_ptb_R; vm_compute; reflexivity|split; [apply fin_ptb_R; vm_compute; reflexivity|split; [|split; [|split]]]]].
  - apply Forall_cons; [|apply Forall_nil]. cbn [fst snd]. split; [split; [vm_compute; reflexivity|exists 4%Z; rewrite V by (cbn; tauto); rewrite P; lra]|]. split; [rewrite V by (cbn; tauto); lra|]. split; [apply fin_ptb_R; vm_compute; reflexivity|].
    split; cbn [fst snd]; rewrite V by (cbn; tauto); rewrite Rabs_pos_eq; lra.
  - unfold break_time, btps, rsum. cbn [map fst snd firstn fold_right length]. rewrite !V by (cbn; tauto). lra.
  - rewrite V by (cbn; tauto). lra.
  - vm_compute. reflexivity.
  - cbv zeta. unfold listed_position, btps, dist, norm, norm2, dot, vsub, bpt. cbn [map fst snd nth length]. rewrite !V by (cbn; tauto). split; [replace (_ + _) with (1 * 1) by ring|replace (_ + _) with (3 * 3) by ring]; apply sqrt_square; lra.
Qed.
Print Assumptions C132_overshoot_refuted.
