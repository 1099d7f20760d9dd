(** Rounding in Ellipse.point_location and Ellipse.tangent_points *)
From Coq Require Import ZArith QArith Qreals Reals SpecFloat Bool Lia Lra Psatz List.
From Verif Require Import Num Spec M_Cg M_Float S_Float L_Float L_FloatCmp L_FloatCg L_FloatDiv M_FloatEllipse.
Import ListNotations.
Local Open Scope R_scope.
Local Notation u := (p2 (-53)).
Local Notation eta := (p2 (-1075)).

(** *** sizes *)
Lemma Rabs_le_inv x b : Rabs x <= b -> - b <= x <= b.
Proof. intros H. unfold Rabs in H. destruct (Rcase_abs x); lra. Qed.
Definition sized (n : Z) (x : b64) : Prop := bfin x /\ Rabs (bval x) <= p2 n.
Lemma p2_ge1 n : (0 <= n)%Z -> 1 <= p2 n.
Proof. intros H. rewrite <- p2_0. apply p2_le. lia. Qed.
Lemma p2_S n : p2 (n + 1) = 2 * p2 n.
Proof. rewrite p2_add, p2_1. ring. Qed.
Lemma near_sized r X n : near r X -> (0 <= n)%Z -> Rabs X <= p2 n -> sized (n + 1) r.
Proof.
  intros (F & E & _) H B. split; [exact F|]. rewrite p2_S. pose proof (p2_ge1 n H). pose proof u_small. pose proof eta_small. pose proof (Rabs_pos X).
  replace (bval r) with ((bval r - X) + X) by ring. eapply Rle_trans; [apply Rabs_triang|]. assert (u * Rabs X <= 1 / 1000 * p2 n) by (apply Rmult_le_compat; lra). lra.
Qed.
Lemma sized_le m n x : (m <= n)%Z -> sized m x -> sized n x.
Proof. intros H (F & B). split; [exact F|]. eapply Rle_trans; [exact B|apply p2_le; exact H]. Qed.
Lemma mul_sized m n x y : (0 <= m)%Z -> (0 <= n)%Z -> (m + n <= 900)%Z -> sized m x -> sized n y -> sized (m + n + 1) (SFmul 53 1024 x y).
Proof.
  intros Hm Hn H (Fx & Bx) (Fy & By). assert (B : Rabs (bval x * bval y) <= p2 (m + n)) by (rewrite p2_add; apply abs_mul; assumption).
  apply near_sized with (X := bval x * bval y); [apply mul_near; try assumption|lia|exact B]. eapply Rle_trans; [exact B|apply p2_le; lia].
Qed.
Lemma add_sized n x y : (0 <= n)%Z -> (n <= 899)%Z -> sized n x -> sized n y -> sized (n + 2) (SFadd 53 1024 x y).
Proof.
  intros H H2 (Fx & Bx) (Fy & By). assert (B : Rabs (bval x + bval y) <= p2 (n + 1)) by (rewrite p2_S; eapply Rle_trans; [apply Rabs_triang|lra]).
  replace (n + 2)%Z with (n + 1 + 1)%Z by lia. apply near_sized with (X := bval x + bval y); [apply add_near; try assumption|lia|exact B]. eapply Rle_trans; [exact B|apply p2_le; lia].
Qed.
Lemma sub_sized n x y : (0 <= n)%Z -> (n <= 899)%Z -> sized n x -> sized n y -> sized (n + 2) (SFsub 53 1024 x y).
Proof.
  intros H H2 (Fx & Bx) (Fy & By). assert (B : Rabs (bval x - bval y) <= p2 (n + 1)) by (rewrite p2_S; eapply Rle_trans; [apply abs_dif; eassumption|lra]).
  replace (n + 2)%Z with (n + 1 + 1)%Z by lia. apply near_sized with (X := bval x - bval y); [apply sub_near; try assumption|lia|exact B]. eapply Rle_trans; [exact B|apply p2_le; lia].
Qed.
Lemma div_sized m k x y : (0 <= m)%Z -> (0 <= k)%Z -> (m + k <= 900)%Z -> sized m x -> bfin y -> p2 (- k) <= Rabs (bval y) ->
  near (SFdiv 53 1024 x y) (bval x / bval y) /\ Rabs (bval x / bval y) <= p2 (m + k) /\ sized (m + k + 1) (SFdiv 53 1024 x y).
Proof.
  intros Hm Hk H (Fx & Bx) Fy By. assert (P := p2_pos (- k)). assert (N0 : bval y <> 0) by (intros E; rewrite E, Rabs_R0 in By; lra).
  assert (B : Rabs (bval x / bval y) <= p2 (m + k)).
  { unfold Rdiv. rewrite Rabs_mult, Rabs_inv, p2_add. apply Rmult_le_compat; [apply Rabs_pos| |exact Bx|].
    - left. apply Rinv_0_lt_compat. lra.
    - replace (p2 k) with (/ p2 (- k)) by (rewrite p2_inv, Rinv_inv; reflexivity). apply Rinv_le_contravar; [exact P|exact By]. }
  assert (Nr : near (SFdiv 53 1024 x y) (bval x / bval y)) by (apply div_near; try assumption; eapply Rle_trans; [exact B|apply p2_le; lia]).
  split; [exact Nr|]. split; [exact B|]. apply near_sized with (X := bval x / bval y); [exact Nr|lia|exact B].
Qed.

(** *** point_location *)
Lemma one_run : @n1 b64 NumB = S754_finite false 4503599627370496 (-52). Proof. vm_compute. reflexivity. Qed.
Lemma one_fin : bfin (@n1 b64 NumB). Proof. rewrite one_run. reflexivity. Qed.
Lemma one_val : bval (@n1 b64 NumB) = 1.
Proof. rewrite one_run. cbn [bval]. change (-52)%Z with (- (52))%Z. rewrite p2_inv, p2_Z by lia. change (2 ^ 52)%Z with 4503599627370496%Z. field. Qed.
Lemma zero_run : @n0 b64 NumB = S754_zero false. Proof. vm_compute. reflexivity. Qed.

Lemma abs_half x : Rabs x <= 0.5 + 0.5 * (x * x).
Proof. assert (0 <= (x - 1) * (x - 1)) by apply Rle_0_sqr. assert (0 <= (x + 1) * (x + 1)) by apply Rle_0_sqr. apply Rabs_le. lra. Qed.
Lemma sq_err x a : bfin x -> bfin a -> bval a <> 0 -> Rabs (bval x / bval a) <= p2 400 ->
  let X := bval x / bval a in let s := nsq (ndiv x a) in bfin s /\ Rabs (bval s - X * X) <= u * (3.01 * (X * X) + 0.01) /\ X * X <= p2 800.
Proof.
  intros Fx Fa Na B X s. fold X in B. assert (B4 : X * X <= p2 800).
  { replace 800%Z with (400 + 400)%Z by reflexivity. rewrite p2_add. apply Rabs_le_inv in B as (B1 & B2). pose proof (p2_pos 400). clear - B1 B2 H. nra. }
  assert (Nq : near (SFdiv 53 1024 x a) X) by (apply div_near; try assumption; eapply Rle_trans; [exact B|apply p2_le; lia]).
  destruct Nq as (Fq & Eq & _). set (q := SFdiv 53 1024 x a) in *. change (bfin (SFmul 53 1024 q q) /\ Rabs (bval (SFmul 53 1024 q q) - X * X) <= u * (3.01 * (X * X) + 0.01) /\ X * X <= p2 800).
  clearbody q X. pose proof u_small as U. pose proof eta_small as Et.
  pose proof (Rle_0_sqr X : 0 <= X * X) as XX. pose proof (abs_half X) as Ax. pose proof (Rabs_pos X) as Px.
  assert (E1 : Rabs (bval q - X) <= u * (Rabs X + 0.001)) by lra.
  assert (E2 : Rabs (bval q * bval q - X * X) <= u * (2.004 * (X * X) + 0.004)).
  { replace (bval q * bval q - X * X) with ((bval q - X) * (bval q - X) + 2 * (bval q - X) * X) by ring.
    apply Rabs_le_inv in E1 as (E3 & E4). set (e := bval q - X) in *.
    assert (X2 : Rabs X * Rabs X = X * X) by (rewrite <- Rabs_mult; apply Rabs_pos_eq; nra).
    set (ax := Rabs X) in *. assert (Ar : (ax + 0.001) * (ax + 0.001) <= 1.1 * (X * X) + 0.01) by nra. assert (Ar2 : (ax + 0.001) * ax <= 1.001 * (X * X) + 0.001) by nra.
    assert (Ae : Rabs e <= u * (ax + 0.001)) by (apply Rabs_le; lra). pose proof (Rabs_pos e) as Pe.
    assert (e * e <= 0.001 * u * (X * X + 0.1)).
    { replace (e * e) with (Rabs e * Rabs e) by (rewrite <- Rabs_mult; apply Rabs_pos_eq, Rle_0_sqr).
      apply Rle_trans with (u * (ax + 0.001) * (u * (ax + 0.001))); [apply Rmult_le_compat; assumption|]. set (r := ax + 0.001) in *. clearbody r.
      replace (u * r * (u * r)) with (u * (u * (r * r))) by ring. assert (u * (r * r) <= 0.0001 * (r * r)) by (apply Rmult_le_compat_r; [apply Rle_0_sqr|lra]).
      assert (u * (u * (r * r)) <= u * (0.001 * (X * X + 0.1))) by (apply Rmult_le_compat_l; lra). lra. }
    assert (Rabs (2 * e * X) <= u * (2.002 * (X * X) + 0.002)).
    { rewrite !Rabs_mult, (Rabs_pos_eq 2) by lra. fold ax.
      assert (Rabs e * ax <= u * (ax + 0.001) * ax) by (apply Rmult_le_compat_r; assumption). set (r := ax + 0.001) in *. clearbody r.
      assert (u * (r * ax) <= u * (1.001 * (X * X) + 0.001)) by (apply Rmult_le_compat_l; lra). lra. }
    eapply Rle_trans; [apply Rabs_triang|]. rewrite (Rabs_pos_eq (e * e)) by nra. nra. }
  assert (Q1 : bval q * bval q <= 1.001 * (X * X) + 0.001) by (apply Rabs_le_inv in E2; nra).
  assert (Q0 : 0 <= bval q * bval q) by nra.
  assert (Nm : near (SFmul 53 1024 q q) (bval q * bval q)).
  { apply mul_near; try assumption. rewrite Rabs_pos_eq by exact Q0. rewrite p2_1000. pose proof (p2_ge1 800 ltac:(lia)).
    assert (2 <= p2 100) by (rewrite <- p2_1; apply p2_le; lia). nra. }
  destruct Nm as (Fm & Em & _). rewrite (Rabs_pos_eq _ Q0) in Em. split; [exact Fm|]. split; [|exact B4].
  replace (bval (SFmul 53 1024 q q) - X * X) with ((bval (SFmul 53 1024 q q) - bval q * bval q) + (bval q * bval q - X * X)) by ring.
  eapply Rle_trans; [apply Rabs_triang|]. nra.
Qed.

(** the quadratic form of the ellipse: 1 on the boundary, less inside *)
Definition ell_form (a x : R * R) : R := (fst x / fst a) * (fst x / fst a) + (snd x / snd a) * (snd x / snd a).
Lemma loc_err a x : bfin_pt a -> bfin_pt x -> 0 < bval (fst a) -> 0 < bval (snd a) -> Rabs (bval (fst x) / bval (fst a)) <= p2 400 -> Rabs (bval (snd x) / bval (snd a)) <= p2 400 ->
  bfin (ell_loc_num a x) /\ Rabs (bval (ell_loc_num a x) - (ell_form (bpt a) (bpt x) - 1)) <= u * (5.1 * ell_form (bpt a) (bpt x) + 1.1).
Proof.
  intros (Fa0 & Fa1) (Fx0 & Fx1) A0 A1 B0 B1. unfold ell_form, bpt. cbn [fst snd].
  destruct (sq_err (fst x) (fst a) Fx0 Fa0 ltac:(lra) B0) as (G0 & E0 & L0). destruct (sq_err (snd x) (snd a) Fx1 Fa1 ltac:(lra) B1) as (G1 & E1 & L1).
  unfold ell_loc_num. set (X := bval (fst x) / bval (fst a)) in *. set (Y := bval (snd x) / bval (snd a)) in *. set (s := nsq (ndiv (fst x) (fst a))) in *. set (t := nsq (ndiv (snd x) (snd a))) in *.
  cbn [nadd nsub NumB]. pose proof u_small as U. pose proof eta_small as Et. assert (0 <= X * X) by nra. assert (0 <= Y * Y) by nra. set (F := X * X + Y * Y).
  assert (E2 : Rabs (bval s + bval t - F) <= u * (3.01 * F + 0.02)).
  { unfold F. replace (bval s + bval t - (X * X + Y * Y)) with ((bval s - X * X) + (bval t - Y * Y)) by ring. eapply Rle_trans; [apply Rabs_triang|]. lra. }
  assert (F0 : 0 <= F) by (unfold F; lra). assert (FM : F <= 2 * p2 800) by (unfold F; lra).
  assert (uF : u * F <= 0.0001 * F) by (apply Rmult_le_compat_r; lra). assert (uF0 : 0 <= u * F) by (apply Rmult_le_pos; lra).
  pose proof (p2_ge1 800 ltac:(lia)) as P8. assert (P9 : 8 * p2 800 <= p2 900). { rewrite p2_1000. assert (8 <= p2 100) by (apply Rle_trans with (p2 3); [rewrite p2_Z by lia; simpl; lra|apply p2_le; lia]). nra. }
  assert (E2a : Rabs (bval s + bval t) <= 1.001 * F + 0.001) by (apply Rabs_le_inv in E2; apply Rabs_le; split; nra).
  assert (N1 : near (SFadd 53 1024 s t) (bval s + bval t)) by (apply add_near; try assumption; lra).
  destruct N1 as (G2 & E3 & _). set (w := SFadd 53 1024 s t) in *.
  assert (E4 : Rabs (bval w - F) <= u * (4.02 * F + 0.03)).
  { replace (bval w - F) with ((bval w - (bval s + bval t)) + (bval s + bval t - F)) by ring. eapply Rle_trans; [apply Rabs_triang|].
    assert (u * Rabs (bval s + bval t) <= u * (1.001 * F + 0.001)) by (apply Rmult_le_compat_l; lra). lra. }
  assert (E5 : Rabs (bval w - 1) <= 1.001 * F + 1.001) by (apply Rabs_le_inv in E4; apply Rabs_le; split; nra).
  assert (N2 : near (SFsub 53 1024 w n1) (bval w - bval n1)) by (apply sub_near; [assumption|apply one_fin|rewrite one_val; lra]).
  destruct N2 as (G3 & E6 & _). rewrite one_val in E6. split; [exact G3|].
  replace (bval (SFsub 53 1024 w n1) - (F - 1)) with ((bval (SFsub 53 1024 w n1) - (bval w - 1)) + (bval w - F)) by ring.
  eapply Rle_trans; [apply Rabs_triang|]. assert (u * Rabs (bval w - 1) <= u * (1.001 * F + 1.001)) by (apply Rmult_le_compat_l; lra). lra.
Qed.

(** *** the tangent points *)
Lemma near_bounds r X n : near r X -> Rabs X <= n -> Rabs (bval r - X) <= u * n + eta.
Proof. intros (_ & E & _) B. pose proof u_small. assert (u * Rabs X <= u * n) by (apply Rmult_le_compat_l; lra). lra. Qed.
Lemma quotient_back c n t : near c (n / t) -> t <> 0 -> Rabs (bval c * t - n) <= u * Rabs n + eta * Rabs t.
Proof.
  intros (_ & E & _) N. replace (bval c * t - n) with ((bval c - n / t) * t) by (field; exact N). rewrite Rabs_mult.
  apply Rle_trans with ((u * Rabs (n / t) + eta) * Rabs t); [apply Rmult_le_compat_r; [apply Rabs_pos|exact E]|].
  replace (Rabs n) with (Rabs (n / t) * Rabs t) by (rewrite <- Rabs_mult; f_equal; field; exact N). lra.
Qed.
(** the signed sum of the discriminant, from the errors of its parts *)
Lemma disc_bound MM T tau w N2 C1 Q C2 : 1 <= MM -> MM * u <= 0.0001 -> Rabs T <= 1.001 * MM -> Rabs (T - tau) <= 3.01 * (MM * u) -> Rabs w <= MM -> Rabs N2 <= MM ->
  Rabs (C1 * T - w) <= 2.01 * (MM * u) -> Rabs (Q - C1 * C1) <= u * (C1 * C1) + eta -> Rabs (C2 * T - N2) <= 4.02 * (MM * u) ->
  Rabs ((Q + C2) * (T * T) - (w * w + N2 * tau)) <= 12.2 * (MM * MM * u).
Proof.
  intros H1 HU BT ET Bw BN E1 EQ E2. pose proof u_small as U. pose proof eta_small as Eta. set (m := MM * u) in *. assert (m0 : 0 < m) by (apply Rmult_lt_0_compat; lra).
  set (z := C1 * T) in *. assert (Ez : Rabs (z * z - w * w) <= 4.03 * (MM * m)).
  { replace (z * z - w * w) with ((z - w) * (z - w + 2 * w)) by ring. apply Rle_trans with (2.01 * m * (2.001 * MM)); [apply abs_mul; [exact E1|]|].
    - eapply Rle_trans; [apply Rabs_triang|]. rewrite (Rabs_mult 2), (Rabs_pos_eq 2) by lra. lra.
    - assert (0 <= MM * m) by (apply Rmult_le_pos; lra). replace (2.01 * m * (2.001 * MM)) with (2.01 * 2.001 * (MM * m)) by ring. lra. }
  assert (Bz : z * z <= 1.001 * (MM * MM)).
  { assert (w * w <= MM * MM) by (apply Rabs_le_inv in Bw; nra). apply Rabs_le_inv in Ez. assert (MM * m <= MM * 0.0001) by (apply Rmult_le_compat_l; lra). nra. }
  assert (BT2 : T * T <= 1.0021 * (MM * MM)) by (apply Rabs_le_inv in BT; nra). assert (T0 : 0 <= T * T) by apply Rle_0_sqr. assert (z0 : 0 <= z * z) by apply Rle_0_sqr.
  assert (K : MM * MM * u = MM * m) by (unfold m; ring). rewrite K.
  assert (Eq : Rabs (Q * (T * T) - z * z) <= 1.01 * (MM * m)).
  { replace (Q * (T * T) - z * z) with ((Q - C1 * C1) * (T * T)) by (unfold z; ring). rewrite Rabs_mult, (Rabs_pos_eq _ T0).
    apply Rle_trans with ((u * (C1 * C1) + eta) * (T * T)); [apply Rmult_le_compat_r; [exact T0|exact EQ]|]. replace ((u * (C1 * C1) + eta) * (T * T)) with (u * (z * z) + eta * (T * T)) by (unfold z; ring).
    assert (u * (z * z) <= u * (1.001 * (MM * MM))) by (apply Rmult_le_compat_l; lra). assert (eta * (T * T) <= u / 1000 * (1.0021 * (MM * MM))) by (apply Rmult_le_compat; lra). rewrite <- K. assert (0 <= MM * MM * u) by (rewrite K; apply Rmult_le_pos; lra). lra. }
  assert (E3 : Rabs (C2 * (T * T) - N2 * tau) <= 7.1 * (MM * m)).
  { replace (C2 * (T * T) - N2 * tau) with ((C2 * T - N2) * T + N2 * (T - tau)) by ring. eapply Rle_trans; [apply Rabs_triang|].
    assert (A : Rabs ((C2 * T - N2) * T) <= 4.02 * m * (1.001 * MM)) by (apply abs_mul; assumption). assert (B : Rabs (N2 * (T - tau)) <= MM * (3.01 * m)) by (apply abs_mul; assumption).
    assert (0 <= MM * m) by (apply Rmult_le_pos; lra). lra. }
  replace ((Q + C2) * (T * T) - (w * w + N2 * tau)) with ((Q * (T * T) - z * z) + (z * z - w * w) + (C2 * (T * T) - N2 * tau)) by ring.
  eapply Rle_trans; [apply Rabs_triang|]. eapply Rle_trans; [apply Rplus_le_compat_r, Rabs_triang|]. assert (0 <= MM * m) by (apply Rmult_le_pos; lra). lra.
Qed.
Lemma near_lower r X n : near r X -> (-900 <= n)%Z -> p2 n <= Rabs X -> p2 (n - 1) <= Rabs (bval r).
Proof.
  intros (_ & E & _) H B. pose proof u_small as U. pose proof (p2_pos (n - 1)) as Pn. assert (p2 n = 2 * p2 (n - 1)) by (rewrite <- p2_S; f_equal; lia).
  assert (eta <= 0.01 * p2 (n - 1)). { apply Rle_trans with (p2 (n - 1 + - (10))); [apply p2_le; lia|]. rewrite p2_add, (p2_inv 10), (p2_Z 10) by lia. pose proof (p2_pos (n - 1)). replace (IZR (2 ^ 10)) with 1024 by (simpl; lra). lra. }
  assert (Rabs X <= Rabs (bval r) + Rabs (bval r - X)) by (replace X with (bval r - (bval r - X)) at 1 by ring; eapply Rle_trans; [apply Rabs_triang|rewrite Rabs_Ropp; lra]).
  assert (u * Rabs X <= 0.001 * Rabs X) by (apply Rmult_le_compat_r; [apply Rabs_pos|lra]). lra.
Qed.
Lemma near_pos r X : near r X -> p2 (-900) <= X -> 0 < bval r.
Proof.
  intros (_ & E & _) B. pose proof u_small as U. pose proof (p2_pos (-900)). rewrite (Rabs_pos_eq X) in E by lra. apply Rabs_le_inv in E. assert (u * X <= 0.001 * X) by (apply Rmult_le_compat_r; lra).
  assert (eta <= 0.01 * p2 (-900)). { apply Rle_trans with (p2 (-900 + - (10))); [apply p2_le; lia|]. rewrite p2_add, (p2_inv 10), (p2_Z 10) by lia. pose proof (p2_pos (-900)). replace (IZR (2 ^ 10)) with 1024 by (simpl; lra). lra. } lra.
Qed.
Lemma at_fin (x : pt b64) k m : sized 10 (fst x) -> sized 10 (snd x) -> sized 90 m -> sized 50 k -> p2 (-44) <= bval k -> bfin_pt (ell_tangent_at_num x k m).
Proof.
  intros X0 X1 Sm Sk Lk. unfold ell_tangent_at_num. cbv zeta. cbn [nadd nsub nmul ndiv NumB].
  assert (Q : sized 181 (nsq m)) by (apply (mul_sized 90 90 m m); [lia|lia|lia|exact Sm|exact Sm]).
  assert (Q0 : - eta <= bval (nsq m)).
  { assert (N : near (nsq m) (bval m * bval m)) by (apply mul_near; try apply Sm; destruct Sm as (_ & Sm); eapply Rle_trans; [apply abs_mul; exact Sm|]; rewrite <- p2_add; apply p2_le; lia).
    destruct N as (_ & E & _). rewrite (Rabs_pos_eq (bval m * bval m)) in E by apply Rle_0_sqr. apply Rabs_le_inv in E. pose proof u_small as U. pose proof (Rle_0_sqr (bval m) : 0 <= bval m * bval m).
    assert (u * (bval m * bval m) <= 0.001 * (bval m * bval m)) by (apply Rmult_le_compat_r; lra). lra. }
  set (num := SFsub 53 1024 (SFmul 53 1024 (fst x) (nsq m)) (SFmul 53 1024 (snd x) m)).
  assert (Sn : sized 194 num). { apply (sub_sized 192); [lia|lia|apply (mul_sized 10 181); auto; lia|]. apply (sized_le 101); [lia|]. apply (mul_sized 10 90); auto; lia. }
  set (den := SFadd 53 1024 k (nsq m)).
  assert (Bd : Rabs (bval k + bval (nsq m)) <= p2 182). { change 182%Z with (181 + 1)%Z. rewrite p2_S. eapply Rle_trans; [apply Rabs_triang|]. destruct (sized_le 50 181 k ltac:(lia) Sk) as (_ & A), Q as (_ & B). lra. }
  assert (Nd : near den (bval k + bval (nsq m))) by (apply add_near; [apply Sk|apply Q|]; eapply Rle_trans; [exact Bd|apply p2_le; lia]).
  assert (Ld : p2 (- (46)) <= Rabs (bval den)).
  { change (- (46))%Z with (-45 - 1)%Z. apply (near_lower den _ (-45) Nd); [lia|]. assert (p2 (-44) = 2 * p2 (-45)) by (rewrite <- p2_S; reflexivity).
    assert (eta <= p2 (-45)) by (apply p2_le; lia). pose proof (p2_pos (-45)). rewrite Rabs_pos_eq; lra. }
  destruct (div_sized 194 46 num den) as (_ & _ & Sx); [lia|lia|lia|exact Sn|apply Nd|exact Ld|]. set (x1 := SFdiv 53 1024 num den) in *. change (sized 241 x1) in Sx.
  split; cbn [fst snd]; [apply Sx|]. apply (add_sized 334); [lia|lia| |apply (sized_le 10); [lia|exact X1]].
  apply (mul_sized 90 243); [lia|lia|lia|exact Sm|]. apply (sub_sized 241); [lia|lia|exact Sx|apply (sized_le 10); [lia|exact X0]].
Qed.
Lemma lit5_fin : bfin (@nlit b64 NumB (1 # 100000)). Proof. vm_compute. reflexivity. Qed.
Lemma two_run : @nlit b64 NumB 2 = S754_finite false 4503599627370496 (-51). Proof. vm_compute. reflexivity. Qed.
Lemma two_val : bval (@nlit b64 NumB 2) = 2.
Proof. rewrite two_run. cbn [bval]. change (-51)%Z with (- (51))%Z. rewrite p2_inv, p2_Z by lia. change (2 ^ 51)%Z with 2251799813685248%Z. field. Qed.
Section Tangents.
  Variables (M : R) (a x : pt b64).
  Hypothesis (M1 : 1 <= M) (M2 : M <= 1024).
  Hypothesis (Fa : bfin_pt a) (Fx : bfin_pt x) (Wx : within M x).
  Hypothesis (A0 : / M <= bval (fst a) <= M) (A1 : / M <= bval (snd a) <= M).
  Let px := bval (fst x). Let py := bval (snd x). Let a0 := bval (fst a). Let a1 := bval (snd a).
  Let G := px * px * (a1 * a1) + py * py * (a0 * a0) - a0 * a0 * (a1 * a1).
  Local Notation M4 := (M * M * (M * M)).
  Lemma MM_pos : 1 <= M * M <= 1048576. Proof. split; nra. Qed.
  Lemma Mp : M <= p2 10. Proof. rewrite p2_Z by lia. simpl. lra. Qed.
  Lemma Mi : p2 (-10) <= / M. Proof. replace (p2 (-10)) with (/ p2 10) by (symmetry; apply (p2_inv 10)). apply Rinv_le_contravar; [lra|apply Mp]. Qed.
  Lemma square_err v : bfin v -> Rabs (bval v) <= M -> bfin (nsq v) /\ 0 <= bval v * bval v <= M * M /\ Rabs (bval (nsq v) - bval v * bval v) <= 1.001 * (M * M * u).
  Proof.
    intros F B. apply Rabs_le_inv in B as B'. assert (S0 : 0 <= bval v * bval v <= M * M) by (split; [apply Rle_0_sqr|nra]). pose proof MM_pos as MM. pose proof u_small. pose proof eta_small.
    assert (N : near (SFmul 53 1024 v v) (bval v * bval v)) by (apply mul_near; try assumption; rewrite Rabs_pos_eq by lra; apply Rle_trans with (p2 20); [rewrite p2_Z by lia; simpl; lra|apply p2_le; lia]).
    assert (Rabs (bval v * bval v) <= M * M) by (rewrite Rabs_pos_eq; lra).
    split; [apply N|]. split; [exact S0|]. cbn [nsq nmul NumB]. eapply Rle_trans; [apply (near_bounds _ _ (M * M) N); assumption|]. nra.
  Qed.
  Lemma dif_square_err v w : bfin v -> bfin w -> Rabs (bval v) <= M -> Rabs (bval w) <= M ->
    let d := nsub (nsq v) (nsq w) in bfin d /\ Rabs (bval d - (bval v * bval v - bval w * bval w)) <= 3.01 * (M * M * u) /\ Rabs (bval v * bval v - bval w * bval w) <= M * M /\
    near d (bval (nsq v) - bval (nsq w)) /\ Rabs (bval d) <= 1.001 * (M * M).
  Proof.
    intros Fv Fw Bv Bw d. destruct (square_err v Fv Bv) as (F1 & S1 & E1). destruct (square_err w Fw Bw) as (F2 & S2 & E2). pose proof MM_pos as MM. pose proof u_small as U. pose proof eta_small as Et.
    apply Rabs_le_inv in E1, E2. set (V := bval v * bval v) in *. set (W := bval w * bval w) in *. assert (MU : 0 < M * M * u <= 0.0001) by (split; [apply Rmult_lt_0_compat; lra|apply Rle_trans with (1048576 * (1 / 1000000000000000)); [apply Rmult_le_compat; lra|lra]]).
    assert (B : Rabs (bval (nsq v) - bval (nsq w)) <= 1.0005 * (M * M)) by (apply Rabs_le; lra).
    assert (N : near d (bval (nsq v) - bval (nsq w))) by (apply sub_near; try assumption; eapply Rle_trans; [exact B|]; apply Rle_trans with (p2 21); [rewrite p2_Z by lia; simpl; lra|apply p2_le; lia]).
    pose proof (near_bounds _ _ _ N B) as E3. apply Rabs_le_inv in E3. assert (u * (1.0005 * (M * M)) = 1.0005 * (M * M * u)) by lra. assert (eta <= 0.001 * (M * M * u)) by nra.
    split; [apply N|]. split; [apply Rabs_le; lra|]. split; [apply Rabs_le; lra|]. split; [exact N|apply Rabs_le; lra].
  Qed.
  (** the argument of the square root is positive *)
  Lemma disc_pos t : bfin t -> Rabs (bval t - (px * px - a0 * a0)) <= 3.01 * (M * M * u) -> 0.9 * (1 / 100000) <= Rabs (bval t) -> Rabs (bval t) <= 1.001 * (M * M) -> 13 * M4 * u <= G ->
    let c1 := ndiv (nmul (fst x) (snd x)) t in let c2 := ndiv (nsub (nsq (snd a)) (nsq (snd x))) t in let d := nadd (nsq c1) c2 in
    sized 40 c1 /\ sized 83 d /\ 0 <= bval d.
  Proof.
    intros Ft Et Lt Bt HG c1 c2 d. destruct Fa as (Fa0 & Fa1), Fx as (Fx0 & Fx1), Wx as (Wx0 & Wx1). pose proof MM_pos as MM. pose proof u_small as U. pose proof eta_small as Eta.
    assert (MU : 0 < M * M * u <= 0.0001) by (split; [apply Rmult_lt_0_compat; lra|apply Rle_trans with (1048576 * (1 / 1000000000000000)); [apply Rmult_le_compat; lra|lra]]).
    assert (IM : 0 < / M) by (apply Rinv_0_lt_compat; lra).
    assert (Ba1 : Rabs (bval (snd a)) <= M) by (rewrite Rabs_pos_eq; lra). assert (Ba0 : Rabs (bval (fst a)) <= M) by (rewrite Rabs_pos_eq; lra).
    destruct (dif_square_err (snd a) (snd x) Fa1 Fx1 Ba1 Wx1) as (Fn2 & En2 & Bn2 & _ & Sn2). fold py a1 in En2, Bn2. set (n2 := nsub (nsq (snd a)) (nsq (snd x))) in *.
    assert (Pxy : Rabs (px * py) <= M * M) by (apply abs_mul; assumption).
    assert (Nn : near (SFmul 53 1024 (fst x) (snd x)) (px * py)) by (apply mul_near; try assumption; eapply Rle_trans; [exact Pxy|]; apply Rle_trans with (p2 20); [rewrite p2_Z by lia; simpl; lra|apply p2_le; lia]).
    pose proof (near_bounds _ _ _ Nn Pxy) as En. assert (Fn : bfin (SFmul 53 1024 (fst x) (snd x))) by apply Nn. change (nmul (fst x) (snd x)) with (SFmul 53 1024 (fst x) (snd x)) in c1. set (n := SFmul 53 1024 (fst x) (snd x)) in *.
    assert (e1 : eta <= 0.001 * (M * M * u)) by nra. replace (u * (M * M)) with (M * M * u) in En by ring.
    assert (Bn : Rabs (bval n) <= 1.001 * (M * M)) by (apply Rabs_le_inv in En, Pxy; apply Rabs_le; lra).
    assert (P21 : 1.001 * (M * M) <= p2 21) by (rewrite p2_Z by lia; simpl; lra).
    assert (T18 : p2 (- (18)) <= Rabs (bval t)) by (eapply Rle_trans; [|exact Lt]; rewrite p2_inv, p2_Z by lia; simpl; lra).
    assert (N0 : bval t <> 0) by (intros E; rewrite E, Rabs_R0 in Lt; lra).
    destruct (div_sized 21 18 n t) as (Nc1 & _ & Sc1); [lia|lia|lia|split; [exact Fn|lra]|exact Ft|exact T18|].
    destruct (div_sized 21 18 n2 t) as (Nc2 & _ & Sc2); [lia|lia|lia|split; [exact Fn2|lra]|exact Ft|exact T18|].
    change (SFdiv 53 1024 n t) with c1 in Nc1, Sc1. change (SFdiv 53 1024 n2 t) with c2 in Nc2, Sc2. change (sized 40 c1) in Sc1. change (sized 40 c2) in Sc2.
    assert (Sq : sized 81 (nsq c1)) by (apply (mul_sized 40 40 c1 c1); [lia|lia|lia|exact Sc1|exact Sc1]).
    assert (Bs : Rabs (bval (nsq c1) + bval c2) <= p2 82).
    { change 82%Z with (81 + 1)%Z. rewrite p2_S. eapply Rle_trans; [apply Rabs_triang|]. destruct Sq as (_ & Sq), (sized_le 40 81 c2 ltac:(lia) Sc2) as (_ & Sc). lra. }
    split; [exact Sc1|].
    assert (Nd : near d (bval (nsq c1) + bval c2)) by (apply add_near; [apply Sq|apply Sc2|]; eapply Rle_trans; [exact Bs|apply p2_le; lia]).
    split; [apply (near_sized d _ 82 Nd); [lia|exact Bs]|].
    assert (Ec1 : Rabs (bval c1 * bval t - px * py) <= 2.01 * (M * M * u)).
    { pose proof (quotient_back c1 (bval n) (bval t) Nc1 N0) as H. assert (u * Rabs (bval n) <= u * (1.001 * (M * M))) by (apply Rmult_le_compat_l; lra).
      assert (eta * Rabs (bval t) <= u / 1000 * (1.001 * (M * M))) by (apply Rmult_le_compat; try lra; apply Rabs_pos). apply Rabs_le_inv in H, En. apply Rabs_le. lra. }
    assert (Ec2 : Rabs (bval c2 * bval t - (a1 * a1 - py * py)) <= 4.02 * (M * M * u)).
    { pose proof (quotient_back c2 (bval n2) (bval t) Nc2 N0) as H. assert (u * Rabs (bval n2) <= u * (1.001 * (M * M))) by (apply Rmult_le_compat_l; lra).
      assert (eta * Rabs (bval t) <= u / 1000 * (1.001 * (M * M))) by (apply Rmult_le_compat; try lra; apply Rabs_pos). apply Rabs_le_inv in H, En2. apply Rabs_le. lra. }
    assert (Nq : near (nsq c1) (bval c1 * bval c1)).
    { apply mul_near; try apply Sc1. destruct Sc1 as (_ & Sc1). eapply Rle_trans; [apply abs_mul; exact Sc1|]. rewrite <- p2_add. apply p2_le. lia. }
    destruct Nq as (_ & Eq & _). rewrite (Rabs_pos_eq (bval c1 * bval c1)) in Eq by apply Rle_0_sqr.
    pose proof (disc_bound (M * M) (bval t) (px * px - a0 * a0) (px * py) (a1 * a1 - py * py) (bval c1) (bval (nsq c1)) (bval c2) ltac:(lra) ltac:(lra) Bt Et Pxy Bn2 Ec1 Eq Ec2) as D.
    replace (px * py * (px * py) + (a1 * a1 - py * py) * (px * px - a0 * a0)) with G in D by (unfold G; ring).
    set (S0 := bval (nsq c1) + bval c2) in *. destruct Nd as (_ & Ed & _). assert (M4p : 1 <= M4) by nra. assert (M4u : u <= M4 * u) by nra.
    assert (T2 : bval t * bval t <= 1.0021 * M4) by (apply Rabs_le_inv in Bt; nra). assert (0 <= bval t * bval t) by apply Rle_0_sqr.
    assert (L : 0.7 * u <= S0).
    { destruct (Rle_dec (0.7 * u) S0) as [|C]; [assumption|exfalso]. apply Rabs_le_inv in D.
      assert (S0 * (bval t * bval t) <= 0.7 * u * (1.0021 * M4)) by (destruct (Rle_dec 0 S0); [apply Rmult_le_compat; lra|apply Rle_trans with 0; [nra|nra]]). lra. }
    rewrite (Rabs_pos_eq S0) in Ed by lra. apply Rabs_le_inv in Ed. assert (u * S0 <= 0.001 * S0) by (apply Rmult_le_compat_r; lra). lra.
  Qed.

  Lemma tangents_fin : 0.99 * (1 / 100000) <= bval (@nlit b64 NumB (1 # 100000)) <= 1.01 * (1 / 100000) -> 13 * M4 * u <= G ->
    (2 * (1 / 100000) <= Rabs (px * px - a0 * a0) \/ (/ M <= Rabs px /\ / M <= Rabs py)) ->
    let r := ell_tangents_num b64_sqrt a x in bfin_pt (fst r) /\ bfin_pt (snd r).
  Proof.
    intros Lit HG Hv. cbv zeta. destruct Fa as (Fa0 & Fa1), Fx as (Fx0 & Fx1), Wx as (Wx0 & Wx1). pose proof MM_pos as MM. pose proof u_small as U. pose proof eta_small as Eta. pose proof Mp as Mp'. pose proof Mi as Mi'.
    assert (MU : 0 < M * M * u <= 0.00000001) by (split; [apply Rmult_lt_0_compat; lra|apply Rle_trans with (1048576 * (1 / 1000000000000000)); [apply Rmult_le_compat; lra|lra]]).
    assert (IM : 0 < / M) by (apply Rinv_0_lt_compat; lra).
    assert (Ba1 : Rabs (bval (snd a)) <= M) by (rewrite Rabs_pos_eq; lra). assert (Ba0 : Rabs (bval (fst a)) <= M) by (rewrite Rabs_pos_eq; lra).
    assert (X0 : sized 10 (fst x)) by (split; [exact Fx0|lra]). assert (X1 : sized 10 (snd x)) by (split; [exact Fx1|lra]).
    (* the quotient of the axes *)
    destruct (square_err (fst a) Fa0 Ba0) as (Fs0 & Q0 & Es0). destruct (square_err (snd a) Fa1 Ba1) as (Fs1 & Q1 & Es1). apply Rabs_le_inv in Es0, Es1.
    assert (P20 : forall v, / M <= v -> p2 (-20) <= v * v) by (intros v Hv'; change (-20)%Z with (-10 + -10)%Z; rewrite p2_add; pose proof (p2_pos (-10)); apply Rmult_le_compat; lra).
    assert (Lw : p2 (-20) = 1 / 1048576) by (change (-20)%Z with (- (20))%Z; rewrite p2_inv, p2_Z by lia; simpl; lra).
    pose proof (P20 _ (proj1 A0)) as L0. pose proof (P20 _ (proj1 A1)) as L1.
    assert (H21 : p2 (-20) = 2 * p2 (- (21))) by (rewrite <- p2_S; reflexivity). assert (P21 : 1.001 * (M * M) <= p2 21) by (rewrite p2_Z by lia; simpl; lra).
    assert (B1 : p2 (- (21)) <= bval (nsq (snd a)) <= p2 21) by lra. assert (B0 : p2 (- (21)) <= bval (nsq (fst a)) <= p2 21) by lra. pose proof (p2_pos (- (21))) as Pp.
    destruct (div_sized 21 21 (nsq (snd a)) (nsq (fst a))) as (Nk & _ & Sk); [lia|lia|lia|split; [exact Fs1|rewrite Rabs_pos_eq; lra]|exact Fs0|rewrite Rabs_pos_eq; lra|].
    set (k := SFdiv 53 1024 (nsq (snd a)) (nsq (fst a))) in *. change (sized 43 k) in Sk.
    assert (Rk : p2 (-42) <= bval (nsq (snd a)) / bval (nsq (fst a))).
    { change (-42)%Z with (- (21) + - (21))%Z. rewrite p2_add. unfold Rdiv. apply Rmult_le_compat; try lra. rewrite (p2_inv 21). apply Rinv_le_contravar; lra. }
    assert (Lk : p2 (-44) <= bval k).
    { assert (0 < bval k) by (apply (near_pos k _ Nk); apply Rle_trans with (p2 (-42)); [apply p2_le; lia|exact Rk]). apply Rle_trans with (p2 (-42 - 1)); [apply p2_le; lia|].
      rewrite <- (Rabs_pos_eq (bval k)) by lra. apply (near_lower k _ (-42) Nk); [lia|]. pose proof (p2_pos (-42)). rewrite Rabs_pos_eq; lra. }
    apply (sized_le 43 50) in Sk; [|lia].
    destruct (dif_square_err (fst a) (fst x) Fa0 Fx0 Ba0 Wx0) as (Fd & Ed & Bd & Nd & Sd). destruct (dif_square_err (fst x) (fst a) Fx0 Fa0 Wx0 Ba0) as (Ft & Et & Bt & Nt & St).
    fold px a0 in Ed, Bd, Et, Bt.
    destruct (abs_spec _ Fd) as (Fd' & Vd). unfold ell_tangents_num. cbv zeta.
    change (nltb (nabs (nsub (nsq (fst a)) (nsq (fst x)))) (nlit (1 # 100000))) with (SFltb (SFabs (nsub (nsq (fst a)) (nsq (fst x)))) (@nlit b64 NumB (1 # 100000))).
    rewrite ltb_spec by (try exact Fd'; exact lit5_fin). rewrite Vd.
    destruct (Rltb (Rabs (bval (nsub (nsq (fst a)) (nsq (fst x))))) (bval (@nlit b64 NumB (1 # 100000)))) eqn:V.
    - (* vertical *) apply Rltb_true in V. destruct Hv as [Hv|[Hx Hy]].
      + exfalso. unfold Rabs in V, Hv, Ed. destruct (Rcase_abs (bval _)) in V; destruct (Rcase_abs (px * px - a0 * a0)) in Hv; destruct (Rcase_abs (bval _ - (a0 * a0 - px * px))) in Ed; lra.
      + cbn [fst snd]. split; [split; [exact Fx0|rewrite zero_run; exact I]|].
        apply at_fin; try assumption. destruct (dif_square_err (snd x) (snd a) Fx1 Fa1 Wx1 Ba1) as (Fn & _ & _ & _ & Sn).
        assert (S2 : sized 1 (@nlit b64 NumB 2)) by (split; [rewrite two_run; reflexivity|rewrite two_val, p2_1, Rabs_pos_eq; lra]).
        assert (N2 : near (nmul (nlit 2) (fst x)) (2 * px)).
        { rewrite <- two_val. apply mul_near; [apply S2|exact Fx0|]. rewrite two_val, Rabs_mult, (Rabs_pos_eq 2) by lra. apply Rle_trans with (2 * p2 10); [apply Rmult_le_compat_l; [lra|exact (proj2 X0)]|]. rewrite <- p2_S. apply p2_le. lia. }
        assert (Sz : sized 12 (nmul (nlit 2) (fst x))) by (apply (mul_sized 1 10); auto; lia).
        assert (Lz : p2 (-10) <= Rabs (bval (nmul (nlit 2) (fst x)))).
        { change (-10)%Z with (-9 - 1)%Z. apply (near_lower _ _ (-9) N2); [lia|]. rewrite Rabs_mult, (Rabs_pos_eq 2) by lra. change (-9)%Z with (-10 + 1)%Z. rewrite p2_S. fold px in Hx. lra. }
        set (z := nmul (nlit 2) (fst x)) in *.
        assert (N3 : near (nmul z (snd x)) (bval z * py)).
        { apply mul_near; [apply Sz|exact Fx1|]. apply Rle_trans with (p2 12 * p2 10); [apply abs_mul; [apply Sz|apply X1]|]. rewrite <- p2_add. apply p2_le. lia. }
        assert (L3 : p2 (- (21)) <= Rabs (bval (nmul z (snd x)))).
        { change (- (21))%Z with (-20 - 1)%Z. apply (near_lower _ _ (-20) N3); [lia|]. rewrite Rabs_mult. change (-20)%Z with (-10 + -10)%Z. rewrite p2_add. pose proof (p2_pos (-10)). fold py in Hy. apply Rmult_le_compat; lra. }
        destruct (div_sized 21 21 (nsub (nsq (snd x)) (nsq (snd a))) (nmul z (snd x))) as (_ & _ & S3); [lia|lia|lia|split; [exact Fn|lra]|apply N3|exact L3|].
        apply (sized_le 43); [lia|exact S3].
    - apply Rltb_false in V. set (t := nsub (nsq (fst x)) (nsq (fst a))) in *.
      assert (Lt : 0.9 * (1 / 100000) <= Rabs (bval t)).
      { unfold Rabs in V, Ed, Et |- *. destruct (Rcase_abs (bval (nsub (nsq (fst a)) (nsq (fst x))))) in V; destruct (Rcase_abs (bval _ - (a0 * a0 - px * px))) in Ed; destruct (Rcase_abs (bval t - _)) in Et; destruct (Rcase_abs (bval t)); lra. }
      destruct (disc_pos t Ft Et Lt St HG) as (Sc & Sdd & Pd). set (c1 := ndiv (nmul (fst x) (snd x)) t) in *. set (d := nadd (nsq c1) _) in *.
      pose proof (sqrt_near d (proj1 Sdd) Pd) as Ns.
      assert (Bs : sqrt (bval d) <= p2 83).
      { destruct Sdd as (_ & Sdd). rewrite Rabs_pos_eq in Sdd by exact Pd. pose proof (p2_ge1 83 ltac:(lia)). apply Rle_trans with (sqrt (p2 83 * p2 83)); [apply sqrt_le_1_alt; nra|]. rewrite sqrt_square; lra. }
      assert (Ss : sized 84 (b64_sqrt d)) by (apply (near_sized (b64_sqrt d) (sqrt (bval d)) 83 Ns); [lia|rewrite Rabs_pos_eq; [exact Bs|apply sqrt_pos]]).
      apply (sized_le 40 84) in Sc; [|lia]. cbn [fst snd]. split; apply at_fin; try assumption; apply (sized_le 86); try lia; [apply (add_sized 84)|apply (sub_sized 84)]; auto; lia.
  Qed.
End Tangents.
