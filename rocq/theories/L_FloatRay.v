(** Line.line_intersection and Ray.ray_intersection of utils/cg.py:109-122, 157-174 in binary64 *)
From Coq Require Import ZArith QArith Qreals Reals SpecFloat Bool Lia Lra List.
From Verif Require Import Num Spec L_Geom M_Cg L_Cg M_Float S_Float L_Float L_FloatCmp L_FloatDiv L_FloatCg L_FloatGrid L_FloatLine L_FloatSeg.
Local Open Scope R_scope.
Local Notation u := (p2 (-53)).

Section Ray.
  Variables (M D W : R). Hypothesis M1 : 1 <= M. Hypothesis M2 : M <= 160. Hypothesis HD : 2 * TH <= D. Hypothesis HD' : D <= 8 * (M * M). Hypothesis EW : W * D = M * M * u.
  Lemma W_bounds : 0 < D /\ 0 < W <= 0.0145 /\ u <= 8 * W /\ 33 * (M * M) * u <= 0.4785 * D.
  Proof. apply (seg_consts M D W); auto. Qed.
  Lemma big x K : Rabs x <= K -> K <= 10 ^ 24 -> Rabs x <= p2 900.
  Proof. intros H H'. apply Rle_trans with (p2 80); [|apply p2_le; lia]. rewrite p2_Z by lia. change (2 ^ 80)%Z with 1208925819614629174706176%Z. lra. Qed.
  Section Quotient.
    Variables (n d : b64) (num den t : R).
    Hypothesis Fn : bfin n. Hypothesis Fd : bfin d. Hypothesis En : Rabs (bval n - num) <= 33 * (M * M) * u. Hypothesis Bn : Rabs num <= 8 * (M * M).
    Hypothesis Ed : Rabs (bval d - den) <= 33 * (M * M) * u. Hypothesis Bd : Rabs den = D. Hypothesis Et : t * den = num.
    Lemma ray_consts : 0.52 * D <= Rabs (bval d) /\ Rabs (bval d) <= 1.48 * D /\ Rabs (bval n) <= 9 * (M * M) /\ Rabs (bval n / bval d) <= 10 ^ 16 /\ Rabs t <= 10 ^ 16.
    Proof.
      destruct W_bounds as (D0 & (W0 & W1) & uW & HE). pose proof u_small as (U0 & U1). pose proof TH0 as T. set (x := bval n) in *. set (y := bval d) in *.
      assert (Dy : 0.52 * D <= Rabs y). { pose proof (Rabs_triang_inv den (den - y)). replace (den - (den - y)) with y in H by ring. rewrite (Rabs_minus_sym den y) in H. lra. }
      assert (Dy' : Rabs y <= 1.48 * D). { replace y with ((y - den) + den) by ring. assert (Bd' : Rabs den <= D) by lra. pose proof (abs_sum _ _ _ _ Ed Bd'). lra. }
      assert (y0 : 0 < Rabs y) by lra. assert (y1 : y <> 0) by (intros Z; rewrite Z, Rabs_R0 in y0; lra).
      assert (BX : Rabs x <= 9 * (M * M)). { replace x with ((x - num) + num) by ring. pose proof (abs_sum _ _ _ _ En Bn). assert (M * M * u <= M * M * 0.001) by (apply Rmult_le_compat_l; [nra|lra]). assert (1 <= M * M) by nra. lra. }
      assert (MM : M * M <= 25600) by nra. split; [auto|]. split; [auto|]. split; [auto|]. split.
      - apply Rmult_le_reg_r with (Rabs y); auto. rewrite <- Rabs_mult. replace (x / y * y) with x by (field; auto). apply Rle_trans with (1 := BX). apply Rle_trans with (10 ^ 16 * (0.52 * (2 * TH))); [|apply Rmult_le_compat_l; lra]. rewrite T. lra.
      - apply Rmult_le_reg_r with D; auto. rewrite <- Bd at 1. rewrite <- Rabs_mult, Et. apply Rle_trans with (1 := Bn). apply Rle_trans with (10 ^ 16 * (2 * TH)); [|apply Rmult_le_compat_l; lra]. rewrite T. lra.
    Qed.
    Lemma ray_quot T : 1 <= T -> Rabs t <= T -> bfin (SFdiv 53 1024 n d) /\ Rabs (bval (SFdiv 53 1024 n d) - t) <= 150 * (T * W).
    Proof.
      intros T1 Ht. destruct W_bounds as (D0 & (W0 & W1) & uW & HE). pose proof u_small as (U0 & U1). pose proof eta_small as (_ & ET). destruct ray_consts as (Dy & _ & _ & Q & _). set (x := bval n) in *. set (y := bval d) in *.
      assert (y0 : 0 < Rabs y) by lra. assert (y1 : y <> 0) by (intros Z; rewrite Z, Rabs_R0 in y0; lra). destruct (div_near n d Fn Fd y1 (big _ _ Q ltac:(lra))) as (F & N & _). fold x y in N. set (q := SFdiv 53 1024 n d) in *. split; auto.
      assert (TW : 0 < T * W) by nra. assert (TW1 : T * W <= 0.0145 * T) by nra. assert (uT : u * T <= 8 * (T * W)) by nra. assert (uT0 : u <= u * T) by nra.
      assert (K : Rabs (x / y - t) <= 127 * (T * W)).
      { apply Rmult_le_reg_r with (Rabs y); auto. rewrite <- Rabs_mult. replace ((x / y - t) * y) with ((x - num) - t * (y - den)) by (rewrite <- Et; field; auto). apply Rle_trans with (1 := abs_dif _ _ _ _ En (abs_mul _ _ _ _ Ht Ed)).
        apply Rle_trans with (127 * (T * W) * (0.52 * D)); [|apply Rmult_le_compat_l; lra]. replace (127 * (T * W) * (0.52 * D)) with (66.04 * T * (W * D)) by lra. rewrite EW. assert (0 < M * M * u) by nra. nra. }
      assert (K1 : Rabs (x / y) <= 2.85 * T). { replace (x / y) with ((x / y - t) + t) by ring. pose proof (abs_sum _ _ _ _ K Ht). lra. }
      replace (bval q - t) with ((bval q - x / y) + (x / y - t)) by ring. pose proof (abs_sum _ _ _ _ N K). assert (u * Rabs (x / y) <= u * (2.85 * T)) by (apply Rmult_le_compat_l; lra). lra.
    Qed.
    (** the sign of the quotient *)
    Lemma ray_sign : (34 * W <= t -> 0 <= bval (SFdiv 53 1024 n d)) /\ (0 <= bval (SFdiv 53 1024 n d) -> - (34 * W) <= t).
    Proof.
      destruct W_bounds as (D0 & (W0 & W1) & uW & HE). pose proof u_small as (U0 & U1). pose proof eta_small as (_ & ET). destruct ray_consts as (Dy & Dy' & _ & Q & _). set (x := bval n) in *. set (y := bval d) in *.
      assert (y0 : 0 < Rabs y) by lra. assert (y1 : y <> 0) by (intros Z; rewrite Z, Rabs_R0 in y0; lra). destruct (div_near n d Fn Fd y1 (big _ _ Q ltac:(lra))) as (_ & N & _). fold x y in N. set (q := SFdiv 53 1024 n d) in *.
      assert (MU : 0 < M * M) by nra.
      assert (L : forall s, s = 1 \/ s = -1 -> 34 * W <= s * t -> 0 < s * bval q).
      { intros s Hs H. assert (P : u / 12 <= s * (x / y)).
        { apply Rmult_le_reg_r with (y * y); [nra|]. replace (s * (x / y) * (y * y)) with (s * x * y) by (field; auto).
          assert (SY : s * x * y = Rabs (s * x * y)).
          { symmetry. apply Rabs_pos_eq. assert (A : forall a b, Rabs (a - b) <= b * 0 + 33 * (M * M) * u -> b - 33 * (M * M) * u <= a <= b + 33 * (M * M) * u) by (intros a b HA; pose proof (Rle_abs (a - b)); pose proof (Rle_abs (- (a - b))); rewrite Rabs_Ropp in *; lra).
            assert (X1 := A x num ltac:(lra)). assert (X2 := A y den ltac:(lra)). destruct (Rcase_abs den) as [g|g].
            - rewrite Rabs_left in Bd by lra. assert (y < 0) by lra. assert (den = - D) by lra. subst den. destruct Hs as [-> | ->].
              + assert (num <= - (34 * (W * D))) by nra. assert (x <= 0) by lra. nra.
              + assert (34 * (W * D) <= num) by nra. assert (0 <= x) by lra. nra.
            - rewrite Rabs_right in Bd by lra. assert (0 < y) by lra. assert (den = D) by lra. subst den. destruct Hs as [-> | ->].
              + assert (34 * (W * D) <= num) by nra. assert (0 <= x) by lra. nra.
              + assert (num <= - (34 * (W * D))) by nra. assert (x <= 0) by lra. nra. }
          rewrite SY, !Rabs_mult. assert (Rabs s = 1) as -> by (destruct Hs as [-> | ->]; unfold Rabs; destruct (Rcase_abs _); lra). rewrite Rmult_1_l.
          assert (X : M * M * u <= Rabs x).
          { assert (Nn : 34 * (W * D) <= Rabs num). { rewrite <- Et, Rabs_mult, Bd. replace (34 * (W * D)) with (34 * W * D) by ring. apply Rmult_le_compat_r; [lra|]. apply Rle_trans with (1 := H). apply Rle_trans with (1 := Rle_abs _). rewrite Rabs_mult. destruct Hs as [-> | ->]; unfold Rabs at 1; destruct (Rcase_abs _); lra. }
            pose proof (Rabs_triang_inv num (num - x)) as HT. replace (num - (num - x)) with x in HT by ring. rewrite (Rabs_minus_sym num x) in HT. lra. }
          assert (YY : y * y = Rabs y * Rabs y) by (rewrite <- Rabs_mult; symmetry; apply Rabs_pos_eq; nra). rewrite YY. rewrite <- Rmult_assoc. apply Rmult_le_compat_r; [lra|]. apply Rle_trans with (2 := X). apply Rle_trans with (u / 12 * (12 * (M * M))); [|lra]. apply Rmult_le_compat_l; lra. }
        assert (Q1 : Rabs (x / y) = s * (x / y)). { assert (0 < s * (x / y)) by lra. destruct Hs as [-> | ->]; unfold Rabs; destruct (Rcase_abs _); lra. }
        rewrite Q1 in N. assert (0 <= s * (bval q - x / y) + Rabs (bval q - x / y)) by (destruct Hs as [-> | ->]; unfold Rabs; destruct (Rcase_abs _); lra).
        assert (u * (s * (x / y)) <= 0.001 * (s * (x / y))) by (apply Rmult_le_compat_r; lra). lra. }
      split; intros H.
      - pose proof (L 1 ltac:(auto) ltac:(lra)). lra.
      - destruct (Rle_dec (- (34 * W)) t) as [|g]; auto. pose proof (L (-1) ltac:(auto) ltac:(lra)). lra.
    Qed.
  End Quotient.
  (** x - k (x - y) for k near t *)
  Lemma ray_step x y k t T : bfin x -> bfin y -> bfin k -> Rabs (bval x) <= M -> Rabs (bval y) <= M -> 1 <= T -> T <= 10 ^ 16 -> Rabs t <= T -> Rabs (bval k - t) <= 150 * (T * W) ->
    bfin (SFsub 53 1024 x (SFmul 53 1024 k (SFsub 53 1024 x y))) /\ Rabs (bval (SFsub 53 1024 x (SFmul 53 1024 k (SFsub 53 1024 x y))) - (bval x + t * (bval y - bval x))) <= 600 * (M * (T * W)).
  Proof.
    intros Fx Fy Fk Bx By T1 T2 Bt Ek. destruct W_bounds as (D0 & (W0 & W1) & uW & HE). pose proof u_small as (U0 & U1). pose proof eta_small as (_ & ET). pose proof (Mb400 M M2) as Mb.
    destruct (dif_err M M1 Mb _ _ Fx Fy Bx By) as (G & X & Y & Z). set (d := SFsub 53 1024 x y) in *.
    assert (TW : 0 < T * W <= 0.0145 * T) by nra. assert (Bk : Rabs (bval k) <= 3.2 * T). { replace (bval k) with ((bval k - t) + t) by ring. pose proof (abs_sum _ _ _ _ Ek Bt). lra. }
    pose proof (abs_mul _ _ _ _ Bk Y) as P. set (m := M * T) in *. assert (m1 : M <= m) by (unfold m; nra). assert (m2 : m <= 160 * 10 ^ 16) by (unfold m; apply Rmult_le_compat; lra). set (mw := M * (T * W)) in *.
    assert (mu0 : m * u <= 8 * mw). { unfold m, mw. replace (8 * (M * (T * W))) with (M * T * (8 * W)) by ring. apply Rmult_le_compat_l; [nra|lra]. } assert (mu1 : u <= m * u) by nra. assert (mu2 : m * u <= 0.001 * m) by nra. assert (Mu : M * u <= m * u) by nra.
    assert (P' : 3.2 * T * (2.001 * M) = 6.4032 * m) by (unfold m; lra). rewrite P' in P.
    destruct (mul_near k d Fk G (big _ _ P ltac:(lra))) as (F & N & _). set (p := SFmul 53 1024 k d) in *. assert (u * Rabs (bval k * bval d) <= u * (6.4032 * m)) by (apply Rmult_le_compat_l; lra).
    assert (N' : Rabs (bval p - bval k * bval d) <= 6.41 * (m * u)) by lra.
    assert (E : Rabs (bval k * bval d - t * (bval x - bval y)) <= 300 * mw + 6.41 * (m * u)).
    { replace (bval k * bval d - t * (bval x - bval y)) with ((bval k - t) * (bval x - bval y) + bval k * (bval d - (bval x - bval y))) by ring. pose proof (abs_sum _ _ _ _ (abs_mul _ _ _ _ Ek Z) (abs_mul _ _ _ _ Bk X)) as H0.
      replace (150 * (T * W) * (2 * M)) with (300 * mw) in H0 by (unfold mw; ring). replace (3.2 * T * (2.001 * (M * u))) with (6.4032 * (m * u)) in H0 by (unfold m; lra). lra. }
    assert (Ep : Rabs (bval p - t * (bval x - bval y)) <= 300 * mw + 12.82 * (m * u)).
    { replace (bval p - t * (bval x - bval y)) with ((bval p - bval k * bval d) + (bval k * bval d - t * (bval x - bval y))) by ring. pose proof (abs_sum _ _ _ _ N' E). lra. }
    assert (Bp : Rabs (bval x - bval p) <= 7.5 * m).
    { replace (bval x - bval p) with (bval x - (bval p - bval k * bval d) - bval k * bval d) by ring. pose proof (abs_dif _ _ _ _ (abs_dif _ _ _ _ Bx N') P). lra. }
    destruct (sub_near x p Fx F (big _ _ Bp ltac:(lra))) as (F' & N'' & _). split; auto. assert (u * Rabs (bval x - bval p) <= u * (7.5 * m)) by (apply Rmult_le_compat_l; lra).
    match goal with |- Rabs (?z - _) <= _ => replace (z - (bval x + t * (bval y - bval x))) with ((z - (bval x - bval p)) - (bval p - t * (bval x - bval y))) by ring end.
    pose proof (abs_dif _ _ _ _ N'' Ep). lra.
  Qed.
  (** *** Line.line_intersection: (tmp1 * other_d - self_d * tmp2) / den *)
  (* px * qy - py * qx *)
  Lemma tmp_err a b c d : bfin a -> bfin b -> bfin c -> bfin d -> Rabs (bval a) <= M -> Rabs (bval b) <= M -> Rabs (bval c) <= M -> Rabs (bval d) <= M ->
    let z := SFsub 53 1024 (SFmul 53 1024 a b) (SFmul 53 1024 c d) in let Z := bval a * bval b - bval c * bval d in
    bfin z /\ Rabs (bval z - Z) <= 4.01 * (M * M * u) /\ Rabs Z <= 2 * (M * M) /\ Rabs (bval z) <= 2.01 * (M * M).
  Proof.
    intros Fa Fb Fc Fd Ba Bb Bc Bd z Z. pose proof u_small as (U0 & U1). pose proof eta_small as (_ & ET). assert (MM : 1 <= M * M <= 25600) by nra.
    pose proof (abs_mul _ _ _ _ Ba Bb) as P1. pose proof (abs_mul _ _ _ _ Bc Bd) as P2. destruct (mul_near a b Fa Fb (big _ _ P1 ltac:(lra))) as (F1 & N1 & _). destruct (mul_near c d Fc Fd (big _ _ P2 ltac:(lra))) as (F2 & N2 & _).
    set (p := SFmul 53 1024 a b) in *. set (q := SFmul 53 1024 c d) in *. assert (u * Rabs (bval a * bval b) <= u * (M * M)) by (apply Rmult_le_compat_l; lra). assert (u * Rabs (bval c * bval d) <= u * (M * M)) by (apply Rmult_le_compat_l; lra).
    assert (u <= M * M * u) by nra. assert (M * M * u <= 0.001 * (M * M)) by nra. assert (N1' : Rabs (bval p - bval a * bval b) <= 1.001 * (M * M * u)) by lra. assert (N2' : Rabs (bval q - bval c * bval d) <= 1.001 * (M * M * u)) by lra.
    pose proof (abs_dif _ _ _ _ P1 P2) as BZ. fold Z in BZ.
    assert (E : Rabs (bval p - bval q - Z) <= 2.002 * (M * M * u)). { unfold Z. replace (bval p - bval q - (bval a * bval b - bval c * bval d)) with ((bval p - bval a * bval b) - (bval q - bval c * bval d)) by ring. pose proof (abs_dif _ _ _ _ N1' N2'). lra. }
    assert (B : Rabs (bval p - bval q) <= 2.003 * (M * M)). { replace (bval p - bval q) with ((bval p - bval q - Z) + Z) by ring. pose proof (abs_sum _ _ _ _ E BZ). lra. }
    destruct (sub_near p q F1 F2 (big _ _ B ltac:(lra))) as (F & N & _). fold z in F, N. split; [exact F|]. assert (u * Rabs (bval p - bval q) <= u * (2.003 * (M * M))) by (apply Rmult_le_compat_l; lra).
    assert (K : Rabs (bval z - Z) <= 4.01 * (M * M * u)). { replace (bval z - Z) with ((bval z - (bval p - bval q)) + (bval p - bval q - Z)) by ring. pose proof (abs_sum _ _ _ _ N E). lra. }
    split; [exact K|]. split; [lra|]. replace (bval z) with ((bval z - Z) + Z) by ring. pose proof (abs_sum _ _ _ _ K BZ). lra.
  Qed.
  Lemma num_err z w d e Z Wv Dv Ev : bfin z -> bfin w -> bfin d -> bfin e ->
    Rabs (bval z - Z) <= 4.01 * (M * M * u) -> Rabs Z <= 2 * (M * M) -> Rabs (bval z) <= 2.01 * (M * M) -> Rabs (bval w - Wv) <= 4.01 * (M * M * u) -> Rabs Wv <= 2 * (M * M) -> Rabs (bval w) <= 2.01 * (M * M) ->
    Rabs (bval d - Dv) <= 2.001 * (M * u) -> Rabs (bval d) <= 2.001 * M -> Rabs Dv <= 2 * M -> Rabs (bval e - Ev) <= 2.001 * (M * u) -> Rabs (bval e) <= 2.001 * M -> Rabs Ev <= 2 * M ->
    let n := SFsub 53 1024 (SFmul 53 1024 z d) (SFmul 53 1024 e w) in bfin n /\ Rabs (bval n - (Z * Dv - Ev * Wv)) <= 42 * (M * M * M * u).
  Proof.
    intros Fz Fw Fd Fe Ez BZ Bz Ew BW Bw Ed Bd BD Ee Be BE n. pose proof u_small as (U0 & U1). pose proof eta_small as (_ & ET). assert (MM : 1 <= M * M <= 25600) by nra.
    set (m := M * M * M) in *. assert (m1 : 1 <= m <= 160 * 25600) by (unfold m; split; nra). assert (mu : u <= m * u) by nra. assert (mu2 : m * u <= 0.001 * m) by nra.
    assert (K : forall a b A B, bfin a -> bfin b -> Rabs (bval a - A) <= 4.01 * (M * M * u) -> Rabs (bval a) <= 2.01 * (M * M) -> Rabs (bval b - B) <= 2.001 * (M * u) -> Rabs B <= 2 * M -> Rabs (bval b) <= 2.001 * M ->
      Rabs (bval a * bval b - A * B) <= 12.1 * (m * u) /\ Rabs (bval a * bval b) <= 4.03 * m).
    { intros a b A B Fa Fb Ea Ba Eb BB Bb. split.
      - replace (bval a * bval b - A * B) with (bval a * (bval b - B) + (bval a - A) * B) by ring. pose proof (abs_sum _ _ _ _ (abs_mul _ _ _ _ Ba Eb) (abs_mul _ _ _ _ Ea BB)) as H.
        replace (2.01 * (M * M) * (2.001 * (M * u))) with (4.02201 * (m * u)) in H by (unfold m; lra). replace (4.01 * (M * M * u) * (2 * M)) with (8.02 * (m * u)) in H by (unfold m; lra). assert (0 < m * u) by nra. lra.
      - pose proof (abs_mul _ _ _ _ Ba Bb) as H. replace (2.01 * (M * M) * (2.001 * M)) with (4.02201 * m) in H by (unfold m; lra). lra. }
    destruct (K z d Z Dv) as (K1 & B1); auto. destruct (K w e Wv Ev) as (K2 & B2); auto. rewrite (Rmult_comm (bval w)) in K2, B2. rewrite (Rmult_comm Wv) in K2.
    destruct (mul_near z d Fz Fd (big _ _ B1 ltac:(lra))) as (F1 & N1 & _). destruct (mul_near e w Fe Fw (big _ _ B2 ltac:(lra))) as (F2 & N2 & _). set (p := SFmul 53 1024 z d) in *. set (q := SFmul 53 1024 e w) in *.
    assert (u * Rabs (bval z * bval d) <= u * (4.03 * m)) by (apply Rmult_le_compat_l; lra). assert (u * Rabs (bval e * bval w) <= u * (4.03 * m)) by (apply Rmult_le_compat_l; lra).
    assert (N1' : Rabs (bval p - bval z * bval d) <= 4.04 * (m * u)) by lra. assert (N2' : Rabs (bval q - bval e * bval w) <= 4.04 * (m * u)) by lra.
    assert (E : Rabs (bval p - bval q - (Z * Dv - Ev * Wv)) <= 32.28 * (m * u)).
    { replace (bval p - bval q - (Z * Dv - Ev * Wv)) with (((bval p - bval z * bval d) + (bval z * bval d - Z * Dv)) - ((bval q - bval e * bval w) + (bval e * bval w - Ev * Wv))) by ring.
      pose proof (abs_dif _ _ _ _ (abs_sum _ _ _ _ N1' K1) (abs_sum _ _ _ _ N2' K2)). lra. }
    assert (B : Rabs (bval p - bval q) <= 8.1 * m). { replace (bval p - bval q) with ((bval p - bval z * bval d) - (bval q - bval e * bval w) + (bval z * bval d - bval e * bval w)) by ring. pose proof (abs_sum _ _ _ _ (abs_dif _ _ _ _ N1' N2') (abs_dif _ _ _ _ B1 B2)). lra. }
    destruct (sub_near p q F1 F2 (big _ _ B ltac:(lra))) as (F & N & _). fold n in F, N. split; [exact F|]. assert (u * Rabs (bval p - bval q) <= u * (8.1 * m)) by (apply Rmult_le_compat_l; lra).
    match goal with |- Rabs (bval n - ?X) <= _ => replace (bval n - X) with ((bval n - (bval p - bval q)) + (bval p - bval q - X)) by ring end. pose proof (abs_sum _ _ _ _ N E). lra.
  Qed.
  Lemma line_quot n d num den P K : bfin n -> bfin d -> Rabs (bval n - num) <= 42 * (M * M * M * u) -> Rabs (bval d - den) <= 33 * (M * M) * u -> Rabs den = D -> P * den = num -> M <= K -> Rabs P <= K -> Rabs num <= 8 * (M * M * M) ->
    bfin (SFdiv 53 1024 n d) /\ Rabs (bval (SFdiv 53 1024 n d) - P) <= 180 * (K * W).
  Proof.
    intros Fn Fd En Ed Bd Et MK PK Bn. destruct W_bounds as (D0 & (W0 & W1) & uW & HE). pose proof u_small as (U0 & U1). pose proof eta_small as (_ & ET). pose proof TH0 as T. set (x := bval n) in *. set (y := bval d) in *.
    assert (Dy : 0.52 * D <= Rabs y). { pose proof (Rabs_triang_inv den (den - y)). replace (den - (den - y)) with y in H by ring. rewrite (Rabs_minus_sym den y) in H. lra. }
    assert (y0 : 0 < Rabs y) by lra. assert (y1 : y <> 0) by (intros Z; rewrite Z, Rabs_R0 in y0; lra). assert (MM : 1 <= M * M <= 25600) by nra. assert (m1 : 1 <= M * M * M <= 160 * 25600) by (split; nra).
    assert (BX : Rabs x <= 9 * (M * M * M)). { replace x with ((x - num) + num) by ring. pose proof (abs_sum _ _ _ _ En Bn). assert (M * M * M * u <= M * M * M * 0.001) by (apply Rmult_le_compat_l; [nra|lra]). lra. }
    assert (Q : Rabs (x / y) <= 10 ^ 20).
    { apply Rmult_le_reg_r with (Rabs y); auto. rewrite <- Rabs_mult. replace (x / y * y) with x by (field; auto). apply Rle_trans with (1 := BX). apply Rle_trans with (10 ^ 20 * (0.52 * (2 * TH))); [|apply Rmult_le_compat_l; lra]. rewrite T. lra. }
    destruct (div_near n d Fn Fd y1 (big _ _ Q ltac:(lra))) as (F & N & _). fold x y in N. set (q := SFdiv 53 1024 n d) in *. split; auto.
    assert (K0 : 1 <= K) by lra. assert (KW : 0 < K * W <= 0.0145 * K) by (clear - K0 W0 W1; split; nra). assert (uK : u * K <= 8 * (K * W)) by nra. assert (uK0 : u <= u * K) by nra.
    assert (B : Rabs (x / y - P) <= 145 * (K * W)).
    { apply Rmult_le_reg_r with (Rabs y); auto. rewrite <- Rabs_mult. replace ((x / y - P) * y) with ((x - num) - P * (y - den)) by (rewrite <- Et; field; auto). apply Rle_trans with (1 := abs_dif _ _ _ _ En (abs_mul _ _ _ _ PK Ed)).
      apply Rle_trans with (145 * (K * W) * (0.52 * D)); [|apply Rmult_le_compat_l; lra]. replace (145 * (K * W) * (0.52 * D)) with (75.4 * K * (W * D)) by lra. rewrite EW. assert (0 < M * M * u) by nra.
      assert (M * M * M * u <= K * (M * M * u)) by nra. assert (0 < K * (M * M * u)) by nra. nra. }
    assert (K1 : Rabs (x / y) <= 3.2 * K). { replace (x / y) with ((x / y - P) + P) by ring. pose proof (abs_sum _ _ _ _ B PK). lra. }
    replace (bval q - P) with ((bval q - x / y) + (x / y - P)) by ring. pose proof (abs_sum _ _ _ _ N B). assert (u * Rabs (x / y) <= u * (3.2 * K)) by (apply Rmult_le_compat_l; lra). lra.
  Qed.
End Ray.
