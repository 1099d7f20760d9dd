(** Property C131: Waypoints of obstacles/motion_model.py in binary64 arithmetic. *)
From Coq Require Import ZArith QArith Qreals Reals SpecFloat Bool Lia Lra List.
From Verif Require Import Num Spec M_Cg M_Motion M_Float M_FloatMotion S_Float L_Float L_FloatCmp L_FloatDiv L_FloatCg L_FloatGrid L_FloatNorm L_Geom L_Gen L_Motion L_FloatEllipse P_Float.
Import ListNotations.
Local Open Scope R_scope.

Section Coordinate.
  Variables (M delta L : R) (a b n vel dt : b64).
  Hypotheses (Fa : bfin a) (Fb : bfin b) (Fn : bfin n) (Fv : bfin vel) (Ft : bfin dt).
  Hypotheses (M1 : 1 <= M) (M2 : M <= p2 300) (Ba : Rabs (bval a) <= M) (Bb : Rabs (bval b) <= 6 * M).
  Hypotheses (V0 : 0 < bval vel) (V1 : bval vel <= p2 300) (T0 : 0 < bval dt) (T1 : bval dt <= p2 100) (Ed : delta = bval vel * bval dt).
  Hypotheses (D0 : p2 (-45) * M <= delta) (D1 : delta <= M) (L0 : delta / 2 <= L) (LX : Rabs (bval a - bval b) <= L) (LN : Rabs (bval n - L) <= 8 * p2 (-53) * L).
  Let x' := SFadd 53 1024 b (SFmul 53 1024 (SFmul 53 1024 vel (SFdiv 53 1024 (SFsub 53 1024 a b) n)) dt).
  Lemma coord_step : bfin x' /\ Rabs (bval x' - (bval b + delta * ((bval a - bval b) / L))) <= 0.034 * delta.
  Proof.
    pose proof u_small as (U0 & U1). set (u := p2 (-53)) in *. set (eta := p2 (-1075)).
    assert (P45 : 0 < p2 (-45)) by apply p2_pos. assert (E0 : 0 < eta) by apply p2_pos. assert (dp : 0 < delta) by nra.
    assert (Dm : p2 (-45) <= delta). { apply Rle_trans with (p2 (-45) * M); [|lra]. rewrite <- (Rmult_1_r (p2 (-45))) at 1. apply Rmult_le_compat_l; lra. }
    assert (E1 : eta * p2 100 <= u * delta / 1000000). { apply Rle_trans with (u * p2 (-45) / 1000000); [|assert (u * p2 (-45) <= u * delta) by (apply Rmult_le_compat_l; lra); lra].
      unfold eta, u. rewrite <- !p2_add. change (-1075 + 100)%Z with (-975)%Z. change (-53 + -45)%Z with (-98)%Z. replace (-975)%Z with (-98 + -877)%Z by lia. rewrite p2_add. unfold Rdiv. apply Rmult_le_compat_l; [left; apply p2_pos|].
      apply Rle_trans with (p2 (- (20))); [apply p2_le; lia|]. rewrite p2_inv, (p2_Z 20) by lia. change (2 ^ 20)%Z with 1048576%Z. lra. }
    assert (P100 : 1 <= p2 100) by (rewrite <- p2_0; apply p2_le; lia). assert (E2 : eta <= u * delta / 1000000). { apply Rle_trans with (eta * p2 100); [|exact E1]. rewrite <- (Rmult_1_r eta) at 1. apply Rmult_le_compat_l; lra. }
    assert (ud : u * delta <= delta / 1000000000000000). { unfold Rdiv. rewrite Rmult_comm. apply Rmult_le_compat_l; lra. }
    assert (uL : u * L <= L / 1000000000000000). { unfold Rdiv. rewrite Rmult_comm. apply Rmult_le_compat_l; lra. }
    assert (udL : u * delta <= u * (2 * L)) by (apply Rmult_le_compat_l; lra). assert (uM : u * M <= delta / 256).
    { unfold u. replace (-53)%Z with (-45 + - (8))%Z by lia. rewrite p2_add, p2_inv, (p2_Z 8) by lia. change (2 ^ 8)%Z with 256%Z. lra. }
    assert (Lp : 0 < L) by lra. assert (PX : forall z, z <= 20 * M -> z <= p2 900). { intros z Hz. apply Rle_trans with (p2 5 * p2 300); [rewrite (p2_Z 5) by lia; change (2 ^ 5)%Z with 32%Z; lra|]. rewrite <- p2_add. apply p2_le. lia. }
    assert (PY : forall z, z <= 20 * p2 300 -> z <= p2 900). { intros z Hz. apply Rle_trans with (p2 5 * p2 300); [rewrite (p2_Z 5) by lia; change (2 ^ 5)%Z with 32%Z; pose proof (p2_pos 300); lra|]. rewrite <- p2_add. apply p2_le. lia. }
    (* a - b *)
    pose proof (abs_dif _ _ _ _ Ba Bb) as A1. destruct (sub_near a b Fa Fb) as (F1 & N1 & _); [apply PX; lra|]. fold u eta in N1. set (X := bval a - bval b) in *. set (d := SFsub 53 1024 a b) in *.
    assert (K1 : Rabs (bval d - X) <= 1.01 * (u * L)). { assert (u * Rabs X <= u * L) by (apply Rmult_le_compat_l; lra). lra. }
    apply Rabs_le_inv in LN as (LN1 & LN2). assert (n0 : 0.99 * L <= bval n) by lra.
    (* the quotient *)
    assert (K2 : Rabs (bval d / bval n - X / L) <= 9.3 * u).
    { replace (bval d / bval n - X / L) with (((bval d - X) + X / L * (L - bval n)) / bval n) by (field; lra). unfold Rdiv at 1. rewrite Rabs_mult, Rabs_inv, (Rabs_pos_eq (bval n)) by lra.
      assert (XL : Rabs (X / L) <= 1). { unfold Rdiv. rewrite Rabs_mult, Rabs_inv, (Rabs_pos_eq L) by lra. apply Rmult_le_reg_r with L; [lra|]. rewrite Rmult_assoc, Rinv_l by lra. lra. }
      assert (Rabs (L - bval n) <= 8 * u * L) by (apply Rabs_le; lra). pose proof (abs_mul _ _ _ _ XL H) as Y. pose proof (abs_sum _ _ _ _ K1 Y) as Z.
      apply Rle_trans with (9.02 * (u * L) * / (0.99 * L)). { apply Rmult_le_compat; [apply Rabs_pos|left; apply Rinv_0_lt_compat; lra|lra|apply Rinv_le_contravar; lra]. }
      replace (9.02 * (u * L) * / (0.99 * L)) with (9.02 / 0.99 * u) by (field; lra). apply Rmult_le_compat_r; lra. }
    assert (XL : Rabs (X / L) <= 1). { unfold Rdiv. rewrite Rabs_mult, Rabs_inv, (Rabs_pos_eq L) by lra. apply Rmult_le_reg_r with L; [lra|]. rewrite Rmult_assoc, Rinv_l by lra. lra. }
    assert (Q1 : Rabs (bval d / bval n) <= 1.0001). { replace (bval d / bval n) with ((bval d / bval n - X / L) + X / L) by ring. pose proof (abs_sum _ _ _ _ K2 XL). lra. }
    assert (P9 : 2 <= p2 900) by (rewrite <- p2_1; apply p2_le; lia). destruct (div_near d n F1 Fn ltac:(lra)) as (F2 & N2 & _); [lra|]. fold u eta in N2. set (c := SFdiv 53 1024 d n) in *.
    assert (eu : eta <= u / 1000). { unfold eta, u. replace (-1075)%Z with (-53 + -1022)%Z by lia. rewrite p2_add. apply Rmult_le_compat_l; [left; apply p2_pos|]. apply Rle_trans with (p2 (- (10))); [apply p2_le; lia|]. rewrite p2_inv, (p2_Z 10) by lia. change (2 ^ 10)%Z with 1024%Z. lra. }
    assert (K3 : Rabs (bval c - X / L) <= 10.4 * u). { replace (bval c - X / L) with ((bval c - bval d / bval n) + (bval d / bval n - X / L)) by ring. pose proof (abs_sum _ _ _ _ N2 K2). assert (u * Rabs (bval d / bval n) <= u * 1.0001) by (apply Rmult_le_compat_l; lra). lra. }
    assert (C1 : Rabs (bval c) <= 1.001). { replace (bval c) with ((bval c - X / L) + X / L) by ring. pose proof (abs_sum _ _ _ _ K3 XL). lra. }
    (* times vel *)
    assert (Vc : Rabs (bval vel * bval c) <= bval vel * 1.001) by (apply abs_mul; [rewrite Rabs_pos_eq; lra|exact C1]).
    destruct (mul_near vel c Fv F2) as (F3 & N3 & _); [apply PY; pose proof (p2_pos 300); lra|]. fold u eta in N3. set (v := SFmul 53 1024 vel c) in *.
    (* times dt *)
    assert (K4 : Rabs (bval v * bval dt - delta * bval c) <= 1.002 * (u * delta)).
    { replace (bval v * bval dt - delta * bval c) with ((bval v - bval vel * bval c) * bval dt) by (rewrite Ed; ring). rewrite Rabs_mult, (Rabs_pos_eq (bval dt)) by lra.
      apply Rle_trans with ((u * (bval vel * 1.001) + eta) * bval dt). { apply Rmult_le_compat_r; [lra|]. assert (u * Rabs (bval vel * bval c) <= u * (bval vel * 1.001)) by (apply Rmult_le_compat_l; lra). lra. }
      replace ((u * (bval vel * 1.001) + eta) * bval dt) with (1.001 * (u * delta) + eta * bval dt) by (rewrite Ed; ring). assert (eta * bval dt <= eta * p2 100) by (apply Rmult_le_compat_l; lra). lra. }
    assert (dc : Rabs (delta * bval c) <= delta * 1.001) by (apply abs_mul; [rewrite Rabs_pos_eq; lra|exact C1]).
    assert (Vd : Rabs (bval v * bval dt) <= 1.01 * delta). { replace (bval v * bval dt) with ((bval v * bval dt - delta * bval c) + delta * bval c) by ring. pose proof (abs_sum _ _ _ _ K4 dc). lra. }
    destruct (mul_near v dt F3 Ft) as (F4 & N4 & _); [apply PX; lra|]. fold u eta in N4. set (s := SFmul 53 1024 v dt) in *.
    assert (K5 : Rabs (bval s - delta * (X / L)) <= 13 * (u * delta)).
    { replace (bval s - delta * (X / L)) with ((bval s - bval v * bval dt) + ((bval v * bval dt - delta * bval c) + delta * (bval c - X / L))) by ring.
      assert (Z : Rabs (delta * (bval c - X / L)) <= delta * (10.4 * u)) by (apply abs_mul; [rewrite Rabs_pos_eq; lra|exact K3]).
      pose proof (abs_sum _ _ _ _ K4 Z) as Z2. pose proof (abs_sum _ _ _ _ N4 Z2). assert (u * Rabs (bval v * bval dt) <= u * (1.01 * delta)) by (apply Rmult_le_compat_l; lra). lra. }
    assert (Bs : Rabs (bval s) <= 1.02 * delta). { assert (Z : Rabs (delta * (X / L)) <= delta * 1) by (apply abs_mul; [rewrite Rabs_pos_eq; lra|exact XL]). replace (bval s) with ((bval s - delta * (X / L)) + delta * (X / L)) by ring. pose proof (abs_sum _ _ _ _ K5 Z). lra. }
    pose proof (abs_sum _ _ _ _ Bb Bs) as BS. destruct (add_near b s Fb F4) as (F5 & N5 & _); [apply PX; lra|]. fold u eta in N5. fold x' in F5, N5. split; [exact F5|].
    replace (bval x' - (bval b + delta * (X / L))) with ((bval x' - (bval b + bval s)) + (bval s - delta * (X / L))) by ring. pose proof (abs_sum _ _ _ _ N5 K5).
    assert (u * Rabs (bval b + bval s) <= u * (7.02 * M)) by (apply Rmult_le_compat_l; lra). lra.
  Qed.
End Coordinate.

(** the obstacle moved towards [w] *)
Definition headed (w pos : pt b64) (vel dt : b64) : pt b64 :=
  let n := norm_num b64_sqrt (SFsub 53 1024 (fst w) (fst pos), SFsub 53 1024 (snd w) (snd pos)) in
  (SFadd 53 1024 (fst pos) (SFmul 53 1024 (SFmul 53 1024 vel (SFdiv 53 1024 (SFsub 53 1024 (fst w) (fst pos)) n)) dt),
   SFadd 53 1024 (snd pos) (SFmul 53 1024 (SFmul 53 1024 vel (SFdiv 53 1024 (SFsub 53 1024 (snd w) (snd pos)) n)) dt)).
Definition seen_at (w pos : pt b64) : b64 := norm_num b64_sqrt (SFsub 53 1024 (fst w) (fst pos), SFsub 53 1024 (snd w) (snd pos)).
Lemma dist_le_sum (p q : Pt) a b : Rabs (fst p - fst q) <= a -> Rabs (snd p - snd q) <= b -> dist p q <= a + b.
Proof.
  intros A B. pose proof (Rabs_pos (fst p - fst q)). pose proof (Rabs_pos (snd p - snd q)). unfold dist. apply norm_le; [lra|]. unfold norm2, dot, vsub. cbn [fst snd].
  assert (E : forall z c, Rabs z <= c -> z * z <= c * c) by (intros z c Hz; rewrite <- (Rabs_pos_eq (z * z)), Rabs_mult by apply Rle_0_sqr; apply Rmult_le_compat; auto; apply Rabs_pos).
  assert (0 <= a * b) by (apply Rmult_le_pos; lra). apply E in A. apply E in B. lra.
Qed.
Section Heading.
  Variables (M : R) (vel thr dt : b64).
  Hypotheses (M1 : 1 <= M) (M2 : M <= p2 300) (Fv : bfin vel) (Fh : bfin thr) (Ft : bfin dt).
  Hypotheses (V0 : 0 < bval vel) (V1 : bval vel <= p2 300) (T0 : 0 < bval dt) (T1 : bval dt <= p2 100).
  Let delta := bval vel * bval dt.
  Hypotheses (D0 : p2 (-45) * M <= delta) (D1 : delta <= bval thr) (D2 : bval thr <= M).
  Lemma delta_pos : p2 (-45) <= delta.
  Proof. apply Rle_trans with (p2 (-45) * M); [|exact D0]. rewrite <- (Rmult_1_r (p2 (-45))) at 1. apply Rmult_le_compat_l; [left; apply p2_pos|lra]. Qed.
  Lemma small_tail : p2 (-299) <= p2 (-53) * delta / 1000.
  Proof.
    pose proof delta_pos. assert (p2 (-53) * p2 (-45) <= p2 (-53) * delta) by (apply Rmult_le_compat_l; [left; apply p2_pos|lra]).
    apply Rle_trans with (p2 (-53) * p2 (-45) / 1000); [|lra]. rewrite <- p2_add. change (-53 + -45)%Z with (-98)%Z. replace (-299)%Z with (-98 + -201)%Z by lia. rewrite p2_add. apply Rmult_le_compat_l; [left; apply p2_pos|].
    apply Rle_trans with (p2 (- (10))); [apply p2_le; lia|]. rewrite p2_inv, (p2_Z 10) by lia. change (2 ^ 10)%Z with 1024%Z. lra.
  Qed.
  Section At.
    Variables w pos : pt b64.
    Hypotheses (Fw : bfin_pt w) (Fp : bfin_pt pos) (Ww : within M w) (Wp : within (6 * M) pos).
    Let L := dist (bpt w) (bpt pos).
    Lemma seen_near : bfin (seen_at w pos) /\ Rabs (bval (seen_at w pos) - L) <= 7 * p2 (-53) * L + p2 (-299) /\ 0 <= L.
    Proof.
      assert (B : 6 * M <= p2 400). { apply Rle_trans with (p2 5 * p2 300); [rewrite (p2_Z 5) by lia; change (2 ^ 5)%Z with 32%Z; lra|]. rewrite <- p2_add. apply p2_le. lia. }
      destruct (norm_near w pos Fw Fp) as (F & N & K & _); [split; [apply Rle_trans with M; [apply Ww|lra]|apply Rle_trans with M; [apply Ww|lra]]|split; eapply Rle_trans; try apply Wp; lra|]. auto.
    Qed.
    Lemma seen_close : bval (seen_at w pos) < bval thr -> L <= (1 + p2 (-49)) * bval thr.
    Proof.
      intros H. destruct seen_near as (_ & N & L0). apply Rabs_le_inv in N as (N1 & _). pose proof small_tail as ST. pose proof delta_pos as DP. pose proof u_small as (U0 & U1). pose proof (p2_pos (-45)).
      assert (E : p2 (-49) = 16 * p2 (-53)). { replace (-49)%Z with (4 + -53)%Z by lia. rewrite p2_add, (p2_Z 4) by lia. reflexivity. } rewrite E. set (u := p2 (-53)) in *. set (T := bval thr) in *.
      assert (u * delta <= u * T) by (apply Rmult_le_compat_l; lra). assert (0 <= u * delta) by (apply Rmult_le_pos; lra). assert (A : (1 - 7 * u) * L <= (1 + u) * T) by lra. assert (T2 : 0 < T) by lra.
      apply Rmult_le_reg_l with (1 - 7 * u); [lra|]. eapply Rle_trans; [exact A|]. rewrite <- Rmult_assoc. apply Rmult_le_compat_r; [lra|]. assert (u * u <= u * (1 / 1000000000000000)) by (apply Rmult_le_compat_l; lra). lra.
    Qed.
    Lemma heads : bval thr <= bval (seen_at w pos) -> bfin_pt (headed w pos vel dt) /\ dist (bpt w) (bpt (headed w pos vel dt)) <= L - delta / 2.
    Proof.
      intros H. destruct seen_near as (Fn & N & L0). pose proof small_tail as ST. pose proof delta_pos as DP. pose proof u_small as (U0 & U1). pose proof (p2_pos (-45)). pose proof N as N'. apply Rabs_le_inv in N' as (N1 & N2).
      set (u := p2 (-53)) in *. assert (uL : u * L <= 1 / 1000000000000000 * L) by (apply Rmult_le_compat_r; lra). assert (ud : u * delta <= 1 / 1000000000000000 * delta) by (apply Rmult_le_compat_r; lra). assert (0 <= u * delta) by (apply Rmult_le_pos; lra).
      assert (L1 : 0.99 * delta <= L) by lra. assert (udL : u * (0.99 * delta) <= u * L) by (apply Rmult_le_compat_l; lra).
      assert (LN : Rabs (bval (seen_at w pos) - L) <= 8 * u * L) by lra. destruct Fw as (F1 & F2), Fp as (F3 & F4), Ww as (W1 & W2), Wp as (W3 & W4).
      assert (D1' : delta <= M) by lra. assert (L2 : delta / 2 <= L) by lra.
      destruct (coord_step M delta L (fst w) (fst pos) (seen_at w pos) vel dt F1 F3 Fn Fv Ft M1 M2 W1 W3 V0 V1 T0 T1 eq_refl D0 D1' L2 (dist_ge_x (bpt w) (bpt pos)) LN) as (G1 & X1).
      destruct (coord_step M delta L (snd w) (snd pos) (seen_at w pos) vel dt F2 F4 Fn Fv Ft M1 M2 W2 W4 V0 V1 T0 T1 eq_refl D0 D1' L2 (dist_ge_y (bpt w) (bpt pos)) LN) as (G2 & X2).
      split; [split; assumption|]. set (p' := bpt (headed w pos vel dt)). set (q := vadd (bpt pos) (smul (delta / L) (vsub (bpt w) (bpt pos)))).
      assert (Q1 : dist q p' <= 0.034 * delta + 0.034 * delta).
      { apply dist_le_sum; rewrite Rabs_minus_sym.
        - replace (fst p' - fst q) with (bval (fst (headed w pos vel dt)) - (bval (fst pos) + delta * ((bval (fst w) - bval (fst pos)) / L))); [exact X1|]. unfold p', q, vadd, smul, vsub, bpt. cbn [fst snd]. unfold Rdiv. ring.
        - replace (snd p' - snd q) with (bval (snd (headed w pos vel dt)) - (bval (snd pos) + delta * ((bval (snd w) - bval (snd pos)) / L))); [exact X2|]. unfold p', q, vadd, smul, vsub, bpt. cbn [fst snd]. unfold Rdiv. ring. }
      assert (Q2 : dist (bpt w) q = Rabs (L - delta)). { unfold dist, q. rewrite vsub_anti, norm_smul. fold (dist (bpt w) (bpt pos)). fold L. rewrite <- (Rabs_pos_eq L) at 2 by lra. rewrite <- Rabs_mult. f_equal. field. lra. }
      pose proof (dist_triangle (bpt w) q p') as T. rewrite Q2 in T. assert (Q3 : Rabs (L - delta) <= L - delta + 0.1 * delta). { unfold Rabs. destruct (Rcase_abs (L - delta)); lra. } lra.
    Qed.
  End At.
End Heading.

Lemma iter_r {A} n (f : A -> A) x : Nat.iter (S n) f x = Nat.iter n f (f x).
Proof. induction n as [|n IH]; [reflexivity|]. change (f (Nat.iter (S n) f x) = f (Nat.iter n f (f x))). rewrite IH. reflexivity. Qed.
Lemma iter_plus {A} n m (f : A -> A) x : Nat.iter (n + m) f x = Nat.iter n f (Nat.iter m f x).
Proof. induction n as [|n IH]; [reflexivity|]. change (f (Nat.iter (n + m) f x) = f (Nat.iter n f (Nat.iter m f x))). rewrite IH. reflexivity. Qed.

Section Reach.
  Variables (M : R) (vel thr dt : b64) (W : list (pt b64)).
  Hypotheses (M1 : 1 <= M) (M2 : M <= p2 300) (Fv : bfin vel) (Fh : bfin thr) (Ft : bfin dt).
  Hypotheses (V0 : 0 < bval vel) (V1 : bval vel <= p2 300) (T0 : 0 < bval dt) (T1 : bval dt <= p2 100).
  Let delta := bval vel * bval dt.
  Hypotheses (D0 : p2 (-45) * M <= delta) (D1 : delta <= bval thr) (D2 : bval thr <= M).
  Hypothesis FW : Forall (fun w => bfin_pt w /\ within M w) W.
  Let mv := waypoint_move_num b64_sqrt W vel thr dt.
  Let wp j := nth j W (n0, n0).
  Lemma vel_spec rest : forall idx pos, exists k, fst (waypoint_vel_num b64_sqrt rest idx pos vel thr) = (idx + k)%nat /\ (k <= length rest)%nat /\
    (forall j, (j < k)%nat -> SFltb (seen_at (nth j rest (n0, n0)) pos) thr = true) /\
    (k = length rest -> snd (waypoint_vel_num b64_sqrt rest idx pos vel thr) = (n0, n0)) /\
    ((k < length rest)%nat -> let w := nth k rest (n0, n0) in SFltb (seen_at w pos) thr = false /\
       snd (waypoint_vel_num b64_sqrt rest idx pos vel thr) = (SFmul 53 1024 vel (SFdiv 53 1024 (SFsub 53 1024 (fst w) (fst pos)) (seen_at w pos)), SFmul 53 1024 vel (SFdiv 53 1024 (SFsub 53 1024 (snd w) (snd pos)) (seen_at w pos)))).
  Proof.
    induction rest as [|w rest IH]; intros idx pos; cbn [waypoint_vel_num].
    - exists 0%nat. cbn [fst snd length]. split; [lia|]. split; [lia|]. split; [intros; lia|]. split; [reflexivity|]. intros; lia.
    - change (norm_num b64_sqrt ((fst w - fst pos)%num, (snd w - snd pos)%num)) with (seen_at w pos). cbn [fst snd nltb nmul ndiv nsub NumB].
      destruct (SFltb (seen_at w pos) thr) eqn:E.
      + destruct (IH (S idx) pos) as (k & A & B & C & D & G). exists (S k). cbn [length]. split; [rewrite A; lia|]. split; [lia|]. split; [|split].
        * intros [|j] Hj; cbn [nth]; [exact E|]. apply C. lia.
        * intros Hk. apply D. lia.
        * intros Hk. cbn [nth]. apply G. lia.
      + exists 0%nat. cbn [fst snd length]. split; [lia|]. split; [lia|]. split; [intros; lia|]. split; [intros; lia|]. intros _. cbn [nth]. split; [exact E|]. reflexivity.
  Qed.
  Lemma mv_spec pos idx : (idx <= length W)%nat -> exists k, snd (mv (pos, idx)) = (idx + k)%nat /\ (idx + k <= length W)%nat /\
    (forall j, (idx <= j < idx + k)%nat -> SFltb (seen_at (wp j) pos) thr = true) /\
    ((idx + k)%nat = length W -> fst (mv (pos, idx)) = (SFadd 53 1024 (fst pos) (SFmul 53 1024 n0 dt), SFadd 53 1024 (snd pos) (SFmul 53 1024 n0 dt))) /\
    ((idx + k < length W)%nat -> SFltb (seen_at (wp (idx + k)) pos) thr = false /\ fst (mv (pos, idx)) = headed (wp (idx + k)) pos vel dt).
  Proof.
    intros Hi. destruct (vel_spec (skipn idx W) idx pos) as (k & A & B & C & D & E). rewrite skipn_length in B, D, E. unfold mv, waypoint_move_num.
    destruct (waypoint_vel_num b64_sqrt (skipn idx W) idx pos vel thr) as (i', v). cbn [fst snd] in *. exists k. split; [exact A|]. split; [lia|]. split; [|split].
    - intros j Hj. specialize (C (j - idx)%nat ltac:(lia)). rewrite nth_skipn in C. replace (idx + (j - idx))%nat with j in C by lia. exact C.
    - intros H. rewrite D by lia. reflexivity.
    - intros H. destruct (E ltac:(lia)) as (E1 & E2). rewrite nth_skipn in E1, E2. fold (wp (idx + k)) in E1, E2. split; [exact E1|]. rewrite E2. reflexivity.
  Qed.
  Lemma rest_coord x : bfin x -> bfin (SFadd 53 1024 x (SFmul 53 1024 n0 dt)) /\ bval (SFadd 53 1024 x (SFmul 53 1024 n0 dt)) = bval x.
  Proof.
    intros Fx. match goal with |- context [SFmul 53 1024 ?z dt] => assert (E : exists b, SFmul 53 1024 z dt = S754_zero b) by (destruct dt; try contradiction; cbn; eauto) end. destruct E as (b & ->).
    destruct x as [s|s| |s m e]; try contradiction; cbn [SFadd].
    - destruct (Bool.eqb s b); split; try exact I; reflexivity.
    - split; [exact Fx|reflexivity].
  Qed.
  Lemma wp_ok j : (j < length W)%nat -> bfin_pt (wp j) /\ within M (wp j).
  Proof. intros H. rewrite Forall_forall in FW. apply FW. apply nth_In. exact H. Qed.
  Lemma box w pos r : within M w -> dist (bpt w) (bpt pos) <= r -> within (M + r) pos.
  Proof.
    intros (A & B) D. pose proof (dist_ge_x (bpt w) (bpt pos)) as X. pose proof (dist_ge_y (bpt w) (bpt pos)) as Y. unfold bpt in X at 1 2. unfold bpt in Y at 1 2. cbn [fst snd] in X, Y.
    apply Rabs_le_inv in A as (A1 & A2). apply Rabs_le_inv in B as (B1 & B2). assert (X' := Rle_trans _ _ _ X D). assert (Y' := Rle_trans _ _ _ Y D). apply Rabs_le_inv in X' as (X1 & X2). apply Rabs_le_inv in Y' as (Y1 & Y2).
    split; apply Rabs_le; lra.
  Qed.
  Lemma box6 w pos : within M w -> dist (bpt w) (bpt pos) <= 4.7 * M -> within (6 * M) pos.
  Proof. intros A B. destruct (box w pos _ A B) as (C & D). split; lra. Qed.
  Lemma delta_pos' : 0 < delta. Proof. pose proof (p2_pos (-45)). assert (0 < p2 (-45) * M) by (apply Rmult_lt_0_compat; lra). unfold delta in *. lra. Qed.
  Lemma approach K : forall pos idx, (idx < length W)%nat -> bfin_pt pos -> dist (bpt (wp idx)) (bpt pos) <= 4.7 * M -> dist (bpt (wp idx)) (bpt pos) <= bval thr / 2 + INR K * (delta / 2) ->
    exists N pos', Nat.iter N mv (pos, idx) = (pos', idx) /\ bfin_pt pos' /\ within (6 * M) pos' /\ SFltb (seen_at (wp idx) pos') thr = true.
  Proof.
    pose proof delta_pos' as dp. pose proof (small_tail M vel dt M1 D0) as ST. fold delta in ST. pose proof u_small as (U0 & U1).
    induction K as [|K IH]; intros pos idx Hi Fp B4 BK; destruct (wp_ok idx Hi) as (Fw & Ww); pose proof (box6 _ _ Ww B4) as W6; destruct (seen_near M M1 M2 (wp idx) pos Fw Fp Ww W6) as (Fs & Ns & L0).
    - exists 0%nat, pos. split; [reflexivity|]. split; [exact Fp|]. split; [exact W6|]. rewrite ltb_spec by auto. apply Rltb_true. cbn [INR] in BK. apply Rabs_le_inv in Ns as (_ & N2).
      set (u := p2 (-53)) in *. set (L := dist (bpt (wp idx)) (bpt pos)) in *. assert (u * L <= 1 / 1000000000000000 * L) by (apply Rmult_le_compat_r; lra). assert (u * delta <= 1 / 1000000000000000 * delta) by (apply Rmult_le_compat_r; lra). lra.
    - destruct (SFltb (seen_at (wp idx) pos) thr) eqn:E; [exists 0%nat, pos; auto|].
      assert (H : bval thr <= bval (seen_at (wp idx) pos)) by (rewrite ltb_spec in E by auto; apply Rltb_false in E; exact E).
      destruct (heads M vel thr dt M1 M2 Fv Ft V0 V1 T0 T1 D0 D1 D2 (wp idx) pos Fw Fp Ww W6 H) as (F' & D'). fold delta in D'.
      destruct (mv_spec pos idx ltac:(lia)) as (k & A & B & C & _ & G). assert (k = 0)%nat by (destruct k; auto; specialize (C idx ltac:(lia)); congruence). subst k. rewrite Nat.add_0_r in *. destruct (G Hi) as (_ & G').
      destruct (IH (headed (wp idx) pos vel dt) idx Hi F' ltac:(lra)) as (N & pos' & E' & R); [rewrite S_INR in BK; lra|].
      exists (S N), pos'. split; [|exact R]. rewrite iter_r. rewrite (surjective_pairing (mv (pos, idx))), G', A. exact E'.
  Qed.
  Definition well (pos : pt b64) (idx : nat) : Prop := bfin_pt pos /\ (idx <= length W)%nat /\ ((idx < length W)%nat -> dist (bpt (wp idx)) (bpt pos) <= 4.7 * M).
  Lemma next_far w pos : within M w -> within (2.2 * M) pos -> dist (bpt w) (bpt pos) <= 4.7 * M.
  Proof.
    intros (A & B) (C & D). unfold dist. apply norm_le; [lra|]. unfold norm2, dot, vsub, bpt. cbn [fst snd].
    assert (X : Rabs (bval (fst w) - bval (fst pos)) <= 3.2 * M) by (pose proof (abs_dif _ _ _ _ A C); lra). assert (Y : Rabs (bval (snd w) - bval (snd pos)) <= 3.2 * M) by (pose proof (abs_dif _ _ _ _ B D); lra).
    assert (E : forall z c, Rabs z <= c -> z * z <= c * c) by (intros z c Hz; rewrite <- (Rabs_pos_eq (z * z)), Rabs_mult by apply Rle_0_sqr; apply Rmult_le_compat; auto; apply Rabs_pos).
    apply E in X. apply E in Y. assert (0 <= M * M) by (apply Rmult_le_pos; lra). lra.
  Qed.
  Lemma reach_all n : forall pos idx, well pos idx -> (length W - idx <= n)%nat -> exists N pos', Nat.iter N mv (pos, idx) = (pos', length W) /\ bfin_pt pos' /\
    forall j, (idx <= j < length W)%nat -> exists i pi ii, (i <= N)%nat /\ Nat.iter i mv (pos, idx) = (pi, ii) /\ dist (bpt (wp j)) (bpt pi) <= (1 + p2 (-49)) * bval thr.
  Proof.
    induction n as [|n IH]; intros pos idx (Fp & Hi & Hd) Hn.
    - exists 0%nat, pos. cbn. split; [f_equal; lia|]. split; [exact Fp|]. intros; lia.
    - destruct (le_lt_dec (length W) idx) as [L|L]; [exists 0%nat, pos; cbn; split; [f_equal; lia|]; split; [exact Fp|]; intros; lia|]. specialize (Hd L).
      pose proof delta_pos' as dp. destruct (nat_above ((dist (bpt (wp idx)) (bpt pos)) / (delta / 2))) as [K HK].
      assert (HK' : dist (bpt (wp idx)) (bpt pos) <= bval thr / 2 + INR K * (delta / 2)). { apply (Rmult_lt_compat_r (delta / 2)) in HK; [|lra]. unfold Rdiv in HK at 1. rewrite Rmult_assoc, Rinv_l in HK by lra. lra. }
      destruct (approach K pos idx L Fp Hd HK') as (N1 & p1 & E1 & F1 & W1 & S1).
      destruct (wp_ok idx L) as (Fw & Ww).
      assert (Near : forall j, (j < length W)%nat -> SFltb (seen_at (wp j) p1) thr = true -> dist (bpt (wp j)) (bpt p1) <= (1 + p2 (-49)) * bval thr).
      { intros j Hj Sj. destruct (wp_ok j Hj) as (Fj & Wj). destruct (seen_near M M1 M2 (wp j) p1 Fj F1 Wj W1) as (Fs & _). rewrite ltb_spec in Sj by auto. apply Rltb_true in Sj. apply (seen_close M vel thr dt M1 M2 D0 D1); auto. }
      pose proof (Near idx L S1) as C1. assert (B1 : within (2.2 * M) p1).
      { assert (E49 : p2 (-49) <= 1 / 10). { apply Rle_trans with (p2 (- (10))); [apply p2_le; lia|]. rewrite p2_inv, (p2_Z 10) by lia. change (2 ^ 10)%Z with 1024%Z. lra. }
        pose proof (p2_pos (-49)). assert ((1 + p2 (-49)) * bval thr <= 1.1 * M) by (apply Rmult_le_compat; lra). destruct (box (wp idx) p1 (1.1 * M) Ww ltac:(lra)) as (X & Y). split; lra. }
      destruct (mv_spec p1 idx ltac:(lia)) as (k & A & B & C & Z & G). assert (1 <= k)%nat. { destruct k; [|lia]. rewrite Nat.add_0_r in *. destruct (G L) as (G1 & _). congruence. }
      set (p2' := fst (mv (p1, idx))) in *. assert (Em : mv (p1, idx) = (p2', idx + k)%nat) by (rewrite (surjective_pairing (mv (p1, idx))), A; reflexivity).
      assert (Wl : well p2' (idx + k)).
      { destruct (le_lt_dec (length W) (idx + k)) as [Q|Q].
        - assert (Q' : (idx + k)%nat = length W) by lia. rewrite (Z Q'). destruct F1 as (X & Y). split; [split; [apply rest_coord, X|apply rest_coord, Y]|]. split; [lia|]. intros; lia.
        - destruct (G Q) as (G1 & G2). rewrite G2. destruct (wp_ok (idx + k) Q) as (Fj & Wj). destruct (seen_near M M1 M2 (wp (idx + k)) p1 Fj F1 Wj W1) as (Fs & _).
          assert (H' : bval thr <= bval (seen_at (wp (idx + k)) p1)) by (rewrite ltb_spec in G1 by auto; apply Rltb_false in G1; exact G1).
          destruct (heads M vel thr dt M1 M2 Fv Ft V0 V1 T0 T1 D0 D1 D2 (wp (idx + k)) p1 Fj F1 Wj W1 H') as (F' & D'). fold delta in D'.
          split; [exact F'|]. split; [lia|]. intros _. pose proof (next_far _ _ Wj B1). lra. }
      destruct (IH p2' (idx + k)%nat Wl ltac:(lia)) as (N3 & p3 & E3 & F3 & R3). exists (N1 + S N3)%nat, p3.
      assert (EE : forall q, Nat.iter (N1 + S q) mv (pos, idx) = Nat.iter q mv (p2', (idx + k)%nat)).
      { intros q. replace (N1 + S q)%nat with (S q + N1)%nat by lia. rewrite iter_plus, E1, iter_r, Em. reflexivity. }
      split; [rewrite EE; exact E3|]. split; [exact F3|]. intros j Hj. destruct (le_lt_dec (idx + k) j) as [J|J].
      + destruct (R3 j ltac:(lia)) as (q & pq & iq & Hq & Eq & Dq). exists (N1 + S q)%nat, pq, iq. rewrite EE. split; [lia|]. split; auto.
      + exists N1, p1, idx. split; [lia|]. split; [exact E1|]. apply Near; [lia|]. apply C. lia.
  Qed.
  Lemma stays q : forall pos, bfin_pt pos -> exists pos', Nat.iter q mv (pos, length W) = (pos', length W) /\ bfin_pt pos' /\ bpt pos' = bpt pos.
  Proof.
    induction q as [|q IH]; intros pos Fp; [exists pos; auto|]. rewrite iter_r. destruct (mv_spec pos (length W) (le_n _)) as (k & A & B & _ & Z & _). assert (k = 0)%nat by lia. subst k. rewrite Nat.add_0_r in *. specialize (Z eq_refl).
    set (p1 := fst (mv (pos, length W))) in *. assert (Em : mv (pos, length W) = (p1, length W)) by (rewrite (surjective_pairing (mv (pos, length W))), A; reflexivity).
    destruct Fp as (F1 & F2). destruct (rest_coord _ F1) as (G1 & V1'). destruct (rest_coord _ F2) as (G2 & V2'). destruct (IH p1) as (p' & E & F & V); [rewrite Z; split; auto|]. exists p'. rewrite Em. split; [exact E|]. split; [exact F|].
    rewrite V, Z. unfold bpt. cbn [fst snd]. rewrite V1', V2'. reflexivity.
  Qed.
End Reach.
Lemma run_iter start wps vel thr dt k : waypoint_run b64_sqrt start wps vel thr (repeat dt k) = Nat.iter k (waypoint_move_num b64_sqrt (start :: wps) vel thr dt) (start, 0%nat).
Proof.
  unfold waypoint_run. generalize (start, 0%nat) as st. induction k as [|k IH]; intros st; [reflexivity|]. cbn [repeat fold_left]. rewrite IH, <- iter_r. reflexivity.
Qed.

(** C131: coordinates of magnitude at most M; the length vel dt of a step is at least 2^-45 M and at most the threshold. Then every way-point is passed within
    the threshold (up to the relative error 2^-49), and after that the obstacle is at rest. *)
Theorem C131_waypoints : forall M start wps vel thr dt, 1 <= M <= p2 300 -> Forall (fun w => bfin_pt w /\ within M w) (start :: wps) -> bfin vel -> bfin thr -> bfin dt ->
  0 < bval vel <= p2 300 -> 0 < bval dt <= p2 100 -> p2 (-45) * M <= bval vel * bval dt <= bval thr -> bval thr <= M ->
  exists N p, forall k, (N <= k)%nat -> exists pos, waypoint_run b64_sqrt start wps vel thr (repeat dt k) = (pos, S (length wps)) /\ bfin_pt pos /\ bpt pos = p /\
    forall w, In w wps -> exists i pi idx, (i <= N)%nat /\ waypoint_run b64_sqrt start wps vel thr (repeat dt i) = (pi, idx) /\ dist (bpt w) (bpt pi) <= (1 + p2 (-49)) * bval thr.
Proof.
  intros M start wps vel thr dt (M1 & M2) FW Fv Fh Ft (V0 & V1) (T0 & T1) (D0 & D1) D2. set (W := start :: wps) in *.
  assert (Wl : well M W start 0). { split; [|split; [lia|]]. - inversion_clear FW as [|? ? (A & _) _]. exact A. - intros _. cbn [nth W]. rewrite dist_refl. lra. }
  destruct (reach_all M vel thr dt W M1 M2 Fv Fh Ft V0 V1 T0 T1 D0 D1 D2 FW (length W) start 0 Wl ltac:(lia)) as (N & pos & E & F & R).
  exists N, (bpt pos). intros k Hk. destruct (Nat.le_exists_sub N k Hk) as (q & -> & _). destruct (stays M vel thr dt W Ft T0 T1 D0 D1 q pos F) as (pos' & E' & F' & V'). exists pos'. rewrite run_iter, iter_plus.
  fold W. rewrite E. split; [exact E'|]. split; [exact F'|]. split; [exact V'|]. intros w Hw. apply (In_nth _ _ (n0, n0)) in Hw as (j & Hj & Ew).
  destruct (R (S j)) as (i & pi & ii & Hi & Ei & Di); [split; [lia|apply -> Nat.succ_lt_mono; exact Hj]|]. exists i, pi, ii. rewrite run_iter. split; [exact Hi|]. split; [exact Ei|]. rewrite <- Ew. exact Di.
Qed.
Print Assumptions C131_waypoints.

Definition bz (z e : Z) : b64 := binary_normalize 53 1024 z e false.
Lemma bz_val (x : b64) (q : Q) r : b64q x = q -> Q2R q = r -> bval x = r.
Proof. intros A B. rewrite b64q_R, A. exact B. Qed.
(** from (0, 0) over (1, 0) to (1, 1) in steps of 1/4 with the threshold 1/4 *)
Example C131_example : exists M start wps vel thr dt, 1 <= M <= p2 300 /\ Forall (fun w => bfin_pt w /\ within M w) (start :: wps) /\ bfin vel /\ bfin thr /\ bfin dt /\
  0 < bval vel <= p2 300 /\ 0 < bval dt <= p2 100 /\ p2 (-45) * M <= bval vel * bval dt <= bval thr /\ bval thr <= M /\ length wps = 2%nat /\
  snd (waypoint_run b64_sqrt start wps vel thr (repeat dt 3)) = 1%nat /\ snd (waypoint_run b64_sqrt start wps vel thr (repeat dt 9)) = 3%nat.
Proof.
  exists 1, (bz 0 0, bz 0 0), [(bz 1 0, bz 0 0); (bz 1 0, bz 1 0)], (bz 1 0), (bz 1 (-2)), (bz 1 (-2)).
  assert (V0 : bval (bz 0 0) = 0) by (apply (bz_val _ 0%Q); [vm_compute; reflexivity|unfold Q2R; cbn; lra]).
  assert (V1 : bval (bz 1 0) = 1) by (apply (bz_val _ (b64q (bz 1 0))); [reflexivity|vm_compute b64q; unfold Q2R; cbn; lra]).
  assert (V2 : bval (bz 1 (-2)) = 1 / 4) by (apply (bz_val _ (b64q (bz 1 (-2)))); [reflexivity|vm_compute b64q; unfold Q2R; cbn; lra]).
  assert (P3 : 1 <= p2 300) by (rewrite <- p2_0; apply p2_le; lia). assert (P1 : 1 <= p2 100) by (rewrite <- p2_0; apply p2_le; lia).
  assert (P45 : p2 (-45) <= 1 / 4). { apply Rle_trans with (p2 (- (10))); [apply p2_le; lia|]. rewrite p2_inv, (p2_Z 10) by lia. change (2 ^ 10)%Z with 1024%Z. lra. }
  split; [lra|]. split.
  { assert (F : forall x, Rabs (bval x) <= 1 -> Rabs (bval x) <= 1) by auto. assert (A0 : Rabs (bval (bz 0 0)) <= 1) by (rewrite V0, Rabs_R0; lra). assert (A1 : Rabs (bval (bz 1 0)) <= 1) by (rewrite V1, Rabs_R1; lra).
    apply Forall_cons; [|apply Forall_cons; [|apply Forall_cons; [|apply Forall_nil]]]; (split; [apply fin_ptb_R; vm_compute; reflexivity|split; auto]). }
  split; [vm_compute; reflexivity|]. split; [vm_compute; reflexivity|]. split; [vm_compute; reflexivity|]. rewrite V1, V2. split; [lra|]. split; [lra|]. split; [lra|]. split; [lra|]. split; [reflexivity|]. split; vm_compute; reflexivity.
Qed.

(** C131, the bound on the length of a step is needed: with a step below half the distance between neighbouring numbers the obstacle never leaves its place, although the
    way-point is five times the threshold away and every step is positive. *)
Theorem C131_stuck_refuted : exists start w vel thr dt, bfin_pt start /\ within 1 start /\ bfin_pt w /\ within 2 w /\ bfin vel /\ bfin thr /\ bfin dt /\ 0 < bval vel /\ 0 < bval dt /\
  bval vel * bval dt <= bval thr /\ bval thr <= 1 / 4 /\ dist (bpt w) (bpt start) = 1 /\
  (forall k, waypoint_run b64_sqrt start [w] vel thr (repeat dt (S k)) = (start, 1%nat)).
Proof.
  exists (bz 1 0, bz 0 0), (bz 2 0, bz 0 0), (bz 1 0), (bz 1 (-2)), (bz 1 (-54)).
  assert (V0 : bval (bz 0 0) = 0) by (apply (bz_val _ 0%Q); [vm_compute; reflexivity|unfold Q2R; cbn; lra]).
  assert (V1 : bval (bz 1 0) = 1) by (apply (bz_val _ (b64q (bz 1 0))); [reflexivity|vm_compute b64q; unfold Q2R; cbn; lra]).
  assert (V3 : bval (bz 2 0) = 2) by (apply (bz_val _ (b64q (bz 2 0))); [reflexivity|vm_compute b64q; unfold Q2R; cbn; lra]).
  assert (V2 : bval (bz 1 (-2)) = 1 / 4) by (apply (bz_val _ (b64q (bz 1 (-2)))); [reflexivity|vm_compute b64q; unfold Q2R; cbn; lra]).
  assert (V4 : bval (bz 1 (-54)) = / 18014398509481984) by (apply (bz_val _ (b64q (bz 1 (-54)))); [reflexivity|vm_compute b64q; unfold Q2R; cbn; lra]).
  split; [apply fin_ptb_R; vm_compute; reflexivity|]. split; [split; cbn [fst snd]; [rewrite V1, Rabs_R1; lra|rewrite V0, Rabs_R0; lra]|]. split; [apply fin_ptb_R; vm_compute; reflexivity|]. split; [split; cbn [fst snd]; [rewrite V3, Rabs_pos_eq; lra|rewrite V0, Rabs_R0; lra]|].
  split; [vm_compute; reflexivity|]. split; [vm_compute; reflexivity|]. split; [vm_compute; reflexivity|]. rewrite V1, V2, V4. split; [lra|]. split; [lra|]. split; [lra|]. split; [lra|]. split.
  - unfold dist, norm, norm2, dot, vsub, bpt. cbn [fst snd]. rewrite V1, V3, V0. replace ((2 - 1) * (2 - 1) + (0 - 0) * (0 - 0)) with (1 * 1) by ring. apply sqrt_square. lra.
  - intros k. rewrite run_iter, iter_r. match goal with |- Nat.iter k ?f (?f ?s) = ?r => assert (E1 : f s = r) by (vm_compute; reflexivity); assert (E2 : f r = r) by (vm_compute; reflexivity) end.
    rewrite E1. clear E1. induction k as [|k IH]; [reflexivity|]. rewrite iter_r, E2. exact IH.
Qed.
Print Assumptions C131_stuck_refuted.
