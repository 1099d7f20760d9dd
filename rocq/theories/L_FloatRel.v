(** Relative errors of products, quotients and sums of positive numbers in binary64, with a bound for what is lost by underflow. *)
From Coq Require Import ZArith QArith Qreals Reals SpecFloat Bool Lia Lra List.
From Verif Require Import Num Spec M_Float S_Float L_Float L_FloatCmp L_FloatCg L_FloatDiv L_FloatNorm L_FloatGrid L_FloatEllipse.
Local Open Scope R_scope.
Local Notation u := (p2 (-53)).

(** r is X up to k roundings and 2^n *)
Definition rel (k : R) (n : Z) (r : b64) (X : R) : Prop := bfin r /\ Rabs (bval r - X) <= k * u * Rabs X + p2 n.
Lemma rel_exact k n r : 0 <= k -> bfin r -> rel k n r (bval r).
Proof. intros K F. split; [exact F|]. rewrite Rminus_diag_eq, Rabs_R0 by reflexivity. pose proof (p2_pos n). pose proof (p2_pos (-53)). assert (0 <= k * u * Rabs (bval r)) by (apply Rmult_le_pos; [apply Rmult_le_pos; lra|apply Rabs_pos]). lra. Qed.
Lemma rel_weak k n k' n' r X : k <= k' -> (n <= n')%Z -> rel k n r X -> rel k' n' r X.
Proof.
  intros K N (F & E). split; [exact F|]. pose proof (p2_le _ _ N). assert (k * u * Rabs X <= k' * u * Rabs X). { apply Rmult_le_compat_r; [apply Rabs_pos|]. apply Rmult_le_compat_r; [left; apply p2_pos|exact K]. } lra.
Qed.
Lemma rel_opp k n r X : rel k n r X -> rel k n (SFopp r) (- X).
Proof. intros (F & E). destruct (opp_spec r F) as (F' & V). split; [exact F'|]. rewrite V, Rabs_Ropp. replace (- bval r - - X) with (- (bval r - X)) by ring. rewrite Rabs_Ropp. exact E. Qed.
(** the last rounding *)
Lemma rel_round k n r Y X : near r Y -> 0 <= k <= 1000 -> (-1070 <= n <= -1)%Z -> Rabs (Y - X) <= k * u * Rabs X + p2 n -> rel (k + 1.001) (n + 1) r X.
Proof.
  intros (F & E & _) K N H. split; [exact F|]. pose proof u_small as (U0 & U1). pose proof (p2_pos n) as T. assert (T1 : p2 n <= 1) by (rewrite <- p2_0; apply p2_le; lia).
  assert (TE : p2 (-1075) <= p2 n / 16). { apply Rle_trans with (p2 (n + - (4))); [apply p2_le; lia|]. rewrite p2_add, p2_inv, (p2_Z 4) by lia. change (2 ^ 4)%Z with 16%Z. lra. }
  assert (P2n : p2 (n + 1) = 2 * p2 n) by apply p2_S. pose proof (Rabs_pos X) as X0.
  assert (YX : Rabs Y <= Rabs X + Rabs (Y - X)) by (replace Y with (X + (Y - X)) at 1 by ring; apply Rabs_triang).
  assert (KU : k * u <= 1000 * (1 / 1000000000000000)) by (apply Rmult_le_compat; lra). assert (KX : k * u * Rabs X <= 0.000000000001 * Rabs X) by (apply Rmult_le_compat_r; lra).
  assert (UY : u * Rabs Y <= u * (1.000000000001 * Rabs X + p2 n)) by (apply Rmult_le_compat_l; lra). assert (UT : u * p2 n <= 1 / 1000000000000000 * p2 n) by (apply Rmult_le_compat_r; lra).
  assert (UX : 0 <= u * Rabs X) by (apply Rmult_le_pos; lra).
  replace (bval r - X) with ((bval r - Y) + (Y - X)) by ring. eapply Rle_trans; [apply Rabs_triang|]. rewrite P2n. replace ((k + 1.001) * u * Rabs X) with (k * u * Rabs X + 1.001 * (u * Rabs X)) by ring. lra.
Qed.
Lemma rel_mul k1 k2 n b x y X Y : rel k1 n x X -> rel k2 n y Y -> 0 <= k1 <= 400 -> 0 <= k2 <= 400 -> (0 <= b <= 400)%Z -> (-1070 <= n)%Z -> (n + b <= -10)%Z -> Rabs X <= p2 b -> Rabs Y <= p2 b ->
  rel (k1 + k2 + 1.01) (n + b + 3) (SFmul 53 1024 x y) (X * Y).
Proof.
  intros (Fx & Ex) (Fy & Ey) K1 K2 B N NB BX BY. pose proof u_small as (U0 & U1). pose proof (p2_pos n) as T. pose proof (Rabs_pos X) as X0. pose proof (Rabs_pos Y) as Y0. pose proof (p2_pos b) as PB. assert (PB1 : 1 <= p2 b) by (rewrite <- p2_0; apply p2_le; lia).
  assert (T1 : p2 n <= 0.001). { apply Rle_trans with (p2 (- (10))); [apply p2_le; lia|]. rewrite p2_inv, p2_Z by lia. change (2 ^ 10)%Z with 1024%Z. lra. }
  assert (K1U : 0 <= k1 * u <= 0.000000000001). { split; [apply Rmult_le_pos; lra|]. apply Rle_trans with (400 * (1 / 1000000000000000)); [apply Rmult_le_compat; lra|lra]. }
  assert (K2U : 0 <= k2 * u <= 0.000000000001). { split; [apply Rmult_le_pos; lra|]. apply Rle_trans with (400 * (1 / 1000000000000000)); [apply Rmult_le_compat; lra|lra]. }
  set (t := p2 n) in *. set (P := p2 b) in *. set (e1 := k1 * u * Rabs X + t) in *. set (e2 := k2 * u * Rabs Y + t) in *.
  assert (XY : Rabs (X * Y) = Rabs X * Rabs Y) by apply Rabs_mult. set (ax := Rabs X) in *. set (ay := Rabs Y) in *. assert (XYp : 0 <= ax * ay) by (apply Rmult_le_pos; lra).
  assert (TP : t <= P * t) by (rewrite <- (Rmult_1_l t) at 1; apply Rmult_le_compat_r; lra). assert (axt : ax * t <= P * t) by (apply Rmult_le_compat_r; lra). assert (ayt : ay * t <= P * t) by (apply Rmult_le_compat_r; lra).
  assert (D : Rabs (bval x * bval y - X * Y) <= (k1 + k2 + 0.004) * u * (ax * ay) + 4 * (P * t)).
  { replace (bval x * bval y - X * Y) with (X * (bval y - Y) + Y * (bval x - X) + (bval x - X) * (bval y - Y)) by ring.
    assert (A1 : Rabs (X * (bval y - Y)) <= ax * e2) by (rewrite Rabs_mult; apply Rmult_le_compat_l; [exact X0|exact Ey]). assert (A2 : Rabs (Y * (bval x - X)) <= ay * e1) by (rewrite Rabs_mult; apply Rmult_le_compat_l; [exact Y0|exact Ex]).
    assert (A3 : Rabs ((bval x - X) * (bval y - Y)) <= e1 * e2) by (rewrite Rabs_mult; apply Rmult_le_compat; try apply Rabs_pos; assumption).
    eapply Rle_trans; [apply Rabs_triang|]. eapply Rle_trans; [apply Rplus_le_compat_r, Rabs_triang|].
    assert (S1 : ax * e2 + ay * e1 = (k1 + k2) * u * (ax * ay) + ax * t + ay * t) by (unfold e1, e2; ring).
    assert (S2 : e1 * e2 = k1 * u * (k2 * u) * (ax * ay) + k1 * u * (ax * t) + k2 * u * (ay * t) + t * t) by (unfold e1, e2; ring).
    assert (Z1 : k1 * u * (k2 * u) <= 0.004 * u). { replace (k1 * u * (k2 * u)) with (k1 * (k2 * u) * u) by ring. apply Rmult_le_compat_r; [lra|]. apply Rle_trans with (400 * 0.000000000001); [apply Rmult_le_compat; lra|lra]. }
    assert (Z2 : k1 * u * (k2 * u) * (ax * ay) <= 0.004 * u * (ax * ay)) by (apply Rmult_le_compat_r; lra).
    assert (axt0 : 0 <= ax * t) by (apply Rmult_le_pos; lra). assert (ayt0 : 0 <= ay * t) by (apply Rmult_le_pos; lra).
    assert (Z3 : k1 * u * (ax * t) <= 0.001 * (ax * t)) by (apply Rmult_le_compat_r; lra). assert (Z4 : k2 * u * (ay * t) <= 0.001 * (ay * t)) by (apply Rmult_le_compat_r; lra). assert (Z5 : t * t <= 0.001 * t) by (apply Rmult_le_compat_r; lra).
    replace ((k1 + k2 + 0.004) * u * (ax * ay)) with ((k1 + k2) * u * (ax * ay) + 0.004 * u * (ax * ay)) by ring. lra. }
  assert (EP : 4 * (P * t) = p2 (n + b + 2)). { rewrite !p2_add. change (p2 2) with (2 * (2 * 1)). unfold t, P. ring. }
  rewrite EP, <- XY in D. replace (n + b + 3)%Z with (n + b + 2 + 1)%Z by ring. apply rel_weak with (k := (k1 + k2 + 0.004) + 1.001) (n := (n + b + 2 + 1)%Z); [lra|lia|].
  apply rel_round with (Y := bval x * bval y); [|lra|lia|exact D]. apply mul_near; [exact Fx|exact Fy|].
  assert (BX' : Rabs (bval x) <= 2 * P). { replace (bval x) with (X + (bval x - X)) by ring. eapply Rle_trans; [apply Rabs_triang|]. assert (k1 * u * ax <= 0.001 * ax) by (apply Rmult_le_compat_r; lra). unfold e1 in Ex. fold ax. lra. }
  assert (BY' : Rabs (bval y) <= 2 * P). { replace (bval y) with (Y + (bval y - Y)) by ring. eapply Rle_trans; [apply Rabs_triang|]. assert (k2 * u * ay <= 0.001 * ay) by (apply Rmult_le_compat_r; lra). unfold e2 in Ey. fold ay. lra. }
  rewrite Rabs_mult. apply Rle_trans with (2 * P * (2 * P)); [apply Rmult_le_compat; try apply Rabs_pos; assumption|].
  apply Rle_trans with (p2 (2 + b + b)); [|apply p2_le; lia]. rewrite !p2_add. change (p2 2) with (2 * (2 * 1)). unfold P. lra.
Qed.
Lemma rel_div k1 k2 n b x y X Y : rel k1 n x X -> rel k2 n y Y -> 0 <= k1 <= 400 -> 0 <= k2 <= 400 -> (0 <= b <= 400)%Z -> (-1070 <= n)%Z -> (n + b <= -100)%Z -> Rabs X <= p2 b -> p2 (- b) <= Rabs Y ->
  rel (k1 + k2 + 1.03) (n + b + 3) (SFdiv 53 1024 x y) (X / Y) /\ bval y <> 0.
Proof.
  intros (Fx & Ex) (Fy & Ey) K1 K2 B N NB BX BY. pose proof u_small as (U0 & U1). pose proof (p2_pos n) as T. pose proof (Rabs_pos X) as X0. pose proof (p2_pos (- b)) as PB.
  assert (K1U : 0 <= k1 * u <= 0.000000000001). { split; [apply Rmult_le_pos; lra|]. apply Rle_trans with (400 * (1 / 1000000000000000)); [apply Rmult_le_compat; lra|lra]. }
  assert (K2U : 0 <= k2 * u <= 0.000000000001). { split; [apply Rmult_le_pos; lra|]. apply Rle_trans with (400 * (1 / 1000000000000000)); [apply Rmult_le_compat; lra|lra]. }
  assert (TY : p2 n <= 0.001 * u * Rabs Y). { apply Rle_trans with (p2 (- (10)) * u * p2 (- b)); [rewrite <- !p2_add; apply p2_le; lia|]. rewrite p2_inv, p2_Z by lia. change (2 ^ 10)%Z with 1024%Z. apply Rmult_le_compat; [apply Rmult_le_pos; lra|lra| |exact BY]. apply Rmult_le_compat_r; lra. }
  assert (YN : Y <> 0) by (intros ->; rewrite Rabs_R0 in BY; lra). set (ay := Rabs Y) in *. assert (AY : 0 < ay) by lra.
  set (d := (bval y - Y) / Y). assert (Ed : bval y = Y * (1 + d)) by (unfold d; field; exact YN).
  assert (Bd : Rabs d <= (k2 + 0.001) * u). { unfold d, Rdiv. rewrite Rabs_mult, Rabs_inv. fold ay. apply Rmult_le_reg_r with ay; [exact AY|]. rewrite Rmult_assoc, Rinv_l, Rmult_1_r by lra. replace ((k2 + 0.001) * u * ay) with (k2 * u * ay + 0.001 * u * ay) by ring. lra. }
  assert (Bd1 : Rabs d <= 0.000000000002) by lra. pose proof (Rabs_le_inv _ _ Bd1) as Bd2. assert (yN : bval y <> 0) by (rewrite Ed; apply Rmult_integral_contrapositive_currified; lra). split; [|exact yN].
  set (Q := X / Y). assert (EQ : X = Q * Y) by (unfold Q; field; exact YN). assert (AQ : Rabs X = Rabs Q * ay) by (rewrite EQ; apply Rabs_mult). set (q := Rabs Q) in *. assert (Q0 : 0 <= q) by apply Rabs_pos.
  assert (EV : bval x / bval y - Q = ((bval x - X) / Y - Q * d) * / (1 + d)). { rewrite Ed. unfold Q. field. split; [lra|exact YN]. }
  assert (I1 : 0 < / (1 + d) <= 1.000000000003). { split; [apply Rinv_0_lt_compat; lra|]. apply Rmult_le_reg_r with (1 + d); [lra|]. rewrite Rinv_l by lra. lra. }
  assert (TB : p2 n / ay <= p2 n * p2 b). { unfold Rdiv. apply Rmult_le_compat_l; [lra|]. apply Rmult_le_reg_r with ay; [exact AY|]. rewrite Rinv_l by lra. apply Rle_trans with (p2 b * p2 (- b)); [rewrite <- p2_add; replace (b + - b)%Z with 0%Z by lia; rewrite p2_0; lra|apply Rmult_le_compat_l; [left; apply p2_pos|exact BY]]. }
  assert (D1 : Rabs ((bval x - X) / Y) <= k1 * u * q + p2 n * p2 b). { unfold Rdiv. rewrite Rabs_mult, Rabs_inv. fold ay. apply Rle_trans with (k1 * u * q + p2 n / ay); [|lra]. apply Rmult_le_reg_r with ay; [exact AY|]. rewrite Rmult_assoc, Rinv_l, Rmult_1_r by lra. replace ((k1 * u * q + p2 n / ay) * ay) with (k1 * u * (q * ay) + p2 n) by (field; lra). rewrite <- AQ. exact Ex. }
  assert (D2 : Rabs (Q * d) <= q * ((k2 + 0.001) * u)) by (rewrite Rabs_mult; apply Rmult_le_compat_l; [exact Q0|exact Bd]).
  pose proof (p2_pos b) as PBp. assert (NBp : 0 < p2 n * p2 b) by (apply Rmult_lt_0_compat; lra).
  assert (D : Rabs (bval x / bval y - Q) <= (k1 + k2 + 0.02) * u * q + p2 (n + b + 1)).
  { rewrite EV, Rabs_mult, (Rabs_pos_eq (/ (1 + d))) by lra. assert (D3 : Rabs ((bval x - X) / Y - Q * d) <= (k1 + k2 + 0.001) * u * q + p2 n * p2 b). { eapply Rle_trans; [apply Rabs_triang|]. rewrite Rabs_Ropp. replace ((k1 + k2 + 0.001) * u * q) with (k1 * u * q + q * ((k2 + 0.001) * u)) by ring. lra. }
    apply Rle_trans with (((k1 + k2 + 0.001) * u * q + p2 n * p2 b) * 1.000000000003); [apply Rmult_le_compat; try lra; apply Rabs_pos|].
    assert (UQ : 0 <= u * q) by (apply Rmult_le_pos; lra). assert (KK : (k1 + k2 + 0.001) * (u * q) <= 801 * (u * q)) by (apply Rmult_le_compat_r; lra). assert (EP : p2 (n + b + 1) = 2 * (p2 n * p2 b)) by (rewrite p2_S, p2_add; reflexivity). rewrite EP. set (w := k1 + k2 + 0.001) in *. replace (k1 + k2 + 0.02) with (w + 0.019) by (unfold w; lra). replace ((w + 0.019) * u * q) with (w * (u * q) + 0.019 * (u * q)) by ring. replace (w * u * q) with (w * (u * q)) by ring. lra. }
  replace (n + b + 3)%Z with (n + b + 2 + 1)%Z by ring. apply rel_weak with (k := (k1 + k2 + 0.02) + 1.001) (n := (n + b + 1 + 1)%Z); [lra|lia|].
  apply rel_round with (Y := bval x / bval y); [|lra|lia|exact D]. apply div_near; [exact Fx|exact Fy|exact yN|].
  assert (Bq : q <= p2 b * p2 b). { apply Rmult_le_reg_r with ay; [exact AY|]. rewrite <- AQ. apply Rle_trans with (p2 b * 1); [lra|]. rewrite Rmult_assoc. apply Rmult_le_compat_l; [lra|]. apply Rle_trans with (p2 b * p2 (- b)); [rewrite <- p2_add; replace (b + - b)%Z with 0%Z by lia; rewrite p2_0; lra|apply Rmult_le_compat_l; lra]. }
  assert (Bq' : q <= p2 800) by (eapply Rle_trans; [exact Bq|]; rewrite <- p2_add; apply p2_le; lia). assert (P8 : p2 (n + b + 1) <= 1) by (rewrite <- p2_0; apply p2_le; lia). assert (P81 : 1 <= p2 800) by (rewrite <- p2_0; apply p2_le; lia).
  assert (P9 : p2 900 = p2 100 * p2 800) by (rewrite <- p2_add; reflexivity). assert (P91 : 16 <= p2 100) by (apply Rle_trans with (p2 4); [rewrite p2_Z by lia; change (2 ^ 4)%Z with 16%Z; lra|apply p2_le; lia]). assert (P92 : 16 * p2 800 <= p2 100 * p2 800) by (apply Rmult_le_compat_r; lra).
  replace (bval x / bval y) with (Q + (bval x / bval y - Q)) by ring. eapply Rle_trans; [apply Rabs_triang|]. fold q. assert ((k1 + k2 + 0.02) * u * q <= 1 * q) by (apply Rmult_le_compat_r; [exact Q0|lra]). lra.
Qed.
Lemma rel_add k n x y X Y : rel k n x X -> rel k n y Y -> 0 <= X -> 0 <= Y -> X <= p2 800 -> Y <= p2 800 -> 0 <= k <= 400 -> (-1070 <= n <= -10)%Z -> rel (k + 1.01) (n + 2) (SFadd 53 1024 x y) (X + Y).
Proof.
  intros (Fx & Ex) (Fy & Ey) X0 Y0 BX BY K N. pose proof u_small as (U0 & U1). rewrite (Rabs_pos_eq X) in Ex by assumption. rewrite (Rabs_pos_eq Y) in Ey by assumption. pose proof (p2_S n) as T.
  assert (D : Rabs (bval x + bval y - (X + Y)) <= k * u * Rabs (X + Y) + p2 (n + 1)). { rewrite (Rabs_pos_eq (X + Y)) by lra. replace (bval x + bval y - (X + Y)) with ((bval x - X) + (bval y - Y)) by ring. eapply Rle_trans; [apply Rabs_triang|]. rewrite T. lra. }
  replace (n + 2)%Z with (n + 1 + 1)%Z by ring. apply rel_weak with (k := k + 1.001) (n := (n + 1 + 1)%Z); [lra|lia|]. apply rel_round with (Y := bval x + bval y); [|lra|lia|exact D]. apply add_near; [exact Fx|exact Fy|].
  assert (KU : k * u <= 1) by (apply Rle_trans with (400 * (1 / 1000000000000000)); [apply Rmult_le_compat; lra|lra]). rewrite (Rabs_pos_eq (X + Y)) in D by lra. assert (k * u * (X + Y) <= 1 * (X + Y)) by (apply Rmult_le_compat_r; lra). assert (P8 : p2 (n + 1) <= 1) by (rewrite <- p2_0; apply p2_le; lia). assert (P81 : 1 <= p2 800) by (rewrite <- p2_0; apply p2_le; lia).
  assert (P9 : p2 900 = p2 100 * p2 800) by (rewrite <- p2_add; reflexivity). assert (P91 : 16 <= p2 100) by (apply Rle_trans with (p2 4); [rewrite p2_Z by lia; change (2 ^ 4)%Z with 16%Z; lra|apply p2_le; lia]). assert (P92 : 16 * p2 800 <= p2 100 * p2 800) by (apply Rmult_le_compat_r; lra).
  replace (bval x + bval y) with ((X + Y) + (bval x + bval y - (X + Y))) by ring. eapply Rle_trans; [apply Rabs_triang|]. rewrite (Rabs_pos_eq (X + Y)) by lra. lra.
Qed.
