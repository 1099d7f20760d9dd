(** Norms and utils/cg.py:69-70 in binary64 *)
From Coq Require Import ZArith QArith Qreals Reals SpecFloat Bool Lia Lra List.
From Verif Require Import Num Spec L_Geom M_Cg L_Cg M_Float S_Float L_Float L_FloatCmp L_FloatDiv L_FloatCg L_FloatGrid.
Local Open Scope R_scope.
Local Notation u := (p2 (-53)).

(** *** no sign *)
Definition nosign (x : b64) : Prop := match x with S754_finite true _ _ => False | _ => True end.
Lemma nosign_val x : nosign x -> 0 <= bval x.
Proof. destruct x as [| | |[|] m e]; cbn [nosign bval]; intros H; try contradiction; try lra. apply Rmult_le_pos; [apply IZR_le; lia|apply Rlt_le, p2_pos]. Qed.
Lemma nosign_round m e l : nosign (binary_round_aux 53 1024 false m e l).
Proof. unfold binary_round_aux. destruct (shr_fexp 53 1024 m e l) as [r e']. destruct (shr_fexp 53 1024 _ e' _) as [r' e'']. destruct (shr_m r'); cbn; auto. destruct (Zle_bool _ _); cbn; auto. Qed.
Lemma nosign_mul x : nosign (SFmul 53 1024 x x).
Proof. destruct x as [| | |s m e]; cbn [SFmul nosign]; auto. rewrite xorb_nilpotent. apply nosign_round. Qed.
Lemma nosign_add x y : nosign x -> nosign y -> nosign (SFadd 53 1024 x y).
Proof.
  destruct x as [s| s| |[|] m e], y as [s'|s'| |[|] m' e']; cbn [SFadd nosign]; intros Hx Hy; try contradiction; auto; try (destruct (Bool.eqb _ _); exact I).
  cbn [cond_Zopp Z.add]. unfold binary_normalize, binary_round. destruct (shl_align _ _ _) as [m0 e0]. apply nosign_round.
Qed.

(** *** a perturbed root *)
Lemma sqrt_pert s t al be : 0 <= s -> 0 <= t -> 0 <= al -> 0 <= be -> Rabs (s - t) <= al * t + be * be -> Rabs (sqrt s - sqrt t) <= al * sqrt t + be.
Proof.
  intros Hs Ht Ha Hb H. pose proof (sqrt_sqrt s Hs) as E1. pose proof (sqrt_sqrt t Ht) as E2. pose proof (sqrt_pos s) as P1. pose proof (sqrt_pos t) as P2. set (x := sqrt s) in *. set (y := sqrt t) in *.
  rewrite <- E1, <- E2 in H. apply Rabs_le.
  assert (H1 : x * x - y * y <= al * (y * y) + be * be) by (apply Rle_trans with (2 := H); apply Rle_abs).
  assert (H2 : y * y - x * x <= al * (y * y) + be * be) by (apply Rle_trans with (2 := H); rewrite Rabs_minus_sym; apply Rle_abs).
  split.
  - apply Rnot_lt_le. intros C. assert (D : al * y + be < y - x) by lra. assert (0 <= al * y) by (apply Rmult_le_pos; auto). assert (be <= y) by lra.
    assert ((al * y + be) * y <= (y - x) * y) by (apply Rmult_le_compat_r; lra). assert (be * be <= be * y) by (apply Rmult_le_compat_l; lra).
    assert (0 <= (y - x) * x) by (apply Rmult_le_pos; lra). destruct (Rle_lt_dec x 0) as [X0|X0].
    + assert (x = 0) by lra. assert ((al * y + be) * y < (y - x) * y) by (apply Rmult_lt_compat_r; lra). nra.
    + assert (0 < (y - x) * x) by (apply Rmult_lt_0_compat; lra). nra.
  - apply Rnot_lt_le. intros C. assert (D : al * y + be < x - y) by lra. assert (0 <= al * y) by (apply Rmult_le_pos; auto).
    assert ((al * y + be) * (al * y + be) <= (x - y) * (x - y)) by (apply Rmult_le_compat; lra). assert (be * be <= (al * y + be) * (al * y + be)) by (apply Rmult_le_compat; lra).
    destruct (Req_dec y 0) as [Y0|Y0]; [rewrite Y0 in *; assert (be * be < x * x) by (apply Rmult_le_0_lt_compat; lra); nra|].
    assert ((al * y + be) * y < (x - y) * y) by (apply Rmult_lt_compat_r; lra). assert (0 <= be * y) by (apply Rmult_le_pos; lra). nra.
Qed.

Section Norm.
  Notation et := (p2 (-1075)).
  Lemma et_big : 0 < et /\ et * (p2 401) <= p2 (-640) /\ et <= p2 (-640) /\ p2 (-640) * 1024 <= p2 (-600) /\ p2 (-640) < 1 /\ p2 (-600) < 1 / 2 /\ 0 < p2 (-600).
  Proof.
    split; [apply p2_pos|]. rewrite <- p2_add. split; [apply p2_le; lia|]. split; [apply p2_le; lia|]. split; [|split; [rewrite <- p2_0; apply p2_lt; lia|split; [|apply p2_pos]]].
    - replace 1024 with (p2 10) by (rewrite p2_Z by lia; simpl; lra). rewrite <- p2_add. apply p2_le; lia.
    - apply Rlt_le_trans with (p2 (-1)); [apply p2_lt; lia|]. change (-1)%Z with (- (1))%Z. rewrite p2_inv. unfold p2; simpl; lra.
  Qed.
  (** the square of a difference *)
  Lemma square_err x y : bfin x -> bfin y -> Rabs (bval x) <= p2 400 -> Rabs (bval y) <= p2 400 ->
    let d := SFsub 53 1024 x y in let X := bval x - bval y in
    bfin (SFmul 53 1024 d d) /\ Rabs (bval (SFmul 53 1024 d d) - X * X) <= 3.02 * u * (X * X) + p2 (-600) / 8 /\ X * X <= p2 802.
  Proof.
    intros Fx Fy Bx By d X. pose proof (abs_dif _ _ _ _ Bx By) as BX. fold X in BX. replace (p2 400 + p2 400) with (p2 401) in BX by (change 401%Z with (400 + 1)%Z; rewrite p2_add; change (p2 1) with (2 * 1); lra).
    destruct et_big as (T0 & T1 & T2 & T3 & T4 & T5 & T6). pose proof u_small as (U0 & U1). assert (L : p2 401 <= p2 900) by (apply p2_le; lia). destruct (sub_near x y Fx Fy) as (F & N & _); [fold X; lra|]. fold d X in F, N.
    pose proof (Rabs_pos X) as PX. assert (XX : X * X = Rabs X * Rabs X) by (rewrite <- Rabs_mult, Rabs_pos_eq; [reflexivity|apply Rle_0_sqr]).
    assert (Bd : Rabs (bval d) <= 1.001 * Rabs X + et). { replace (bval d) with ((bval d - X) + X) by ring. pose proof (abs_sum _ _ _ _ N (Rle_refl (Rabs X))). nra. }
    assert (A : Rabs (bval d * bval d - X * X) <= 2.01 * u * (X * X) + 4 * p2 (-640)).
    { replace (bval d * bval d - X * X) with ((bval d - X) * (bval d + X)) by ring. assert (S1 : Rabs (bval d + X) <= 2.001 * Rabs X + et) by (pose proof (abs_sum _ _ _ _ Bd (Rle_refl (Rabs X))); lra).
      apply Rle_trans with (1 := abs_mul _ _ _ _ N S1). rewrite XX. set (z := Rabs X) in *. assert (Z1 : et * z <= p2 (-640)) by (apply Rle_trans with (2 := T1); apply Rmult_le_compat_l; lra).
      assert (Z2 : et * et <= et * 1) by (apply Rmult_le_compat_l; lra). assert (Z3 : u * (et * z) <= 1 / 1000000000000000 * (p2 (-640))) by (apply Rmult_le_compat; try lra; apply Rmult_le_pos; lra).
      assert (0 <= z * z) by nra. assert (0 <= u * (z * z)) by nra. assert (0 <= p2 (-640)) by (apply Rlt_le, p2_pos). lra. }
    assert (UX : 0 <= u * (X * X)) by (apply Rmult_le_pos; [lra|apply Rle_0_sqr]). assert (X2 : X * X <= p2 802). { rewrite XX. replace 802%Z with (401 + 401)%Z by lia. rewrite p2_add. apply Rmult_le_compat; lra. }
    assert (L8 : 2 * p2 802 <= p2 900). { replace (2 * p2 802) with (p2 803); [apply p2_le; lia|]. change 803%Z with (802 + 1)%Z. rewrite p2_add. change (p2 1) with (2 * 1). lra. }
    assert (L9 : 1 <= p2 802) by (rewrite <- p2_0; apply p2_le; lia). assert (UX' : u * (X * X) <= 1 / 1000000000000000 * (X * X)) by (apply Rmult_le_compat_r; [apply Rle_0_sqr|lra]). assert (X0 : 0 <= X * X) by apply Rle_0_sqr.
    assert (B2 : Rabs (bval d * bval d) <= 1.001 * (X * X) + 4 * p2 (-640)). { replace (bval d * bval d) with ((bval d * bval d - X * X) + X * X) by ring. pose proof (abs_sum _ _ _ _ A (Req_le _ _ (Rabs_pos_eq _ X0))). lra. }
    destruct (mul_near d d F F) as (F' & N' & _); [lra|]. split; auto. split; auto.
    match goal with |- Rabs (?z - _) <= _ => replace (z - X * X) with ((z - bval d * bval d) + (bval d * bval d - X * X)) by ring end.
    pose proof (abs_sum _ _ _ _ N' A). assert (u * Rabs (bval d * bval d) <= u * (1.001 * (X * X) + 4 * p2 (-640))) by (apply Rmult_le_compat_l; lra).
    assert (u * p2 (-640) <= 1 * p2 (-640)) by (apply Rmult_le_compat_r; [apply Rlt_le, p2_pos|lra]). lra.
  Qed.
  Lemma norm_near a b : bfin_pt a -> bfin_pt b -> within (p2 400) a -> within (p2 400) b ->
    let n := norm_num b64_sqrt (SFsub 53 1024 (fst a) (fst b), SFsub 53 1024 (snd a) (snd b)) in
    bfin n /\ Rabs (bval n - dist (bpt a) (bpt b)) <= 7 * u * dist (bpt a) (bpt b) + p2 (-299) /\ 0 <= dist (bpt a) (bpt b) <= p2 402.
  Proof.
    intros (F1 & F2) (F3 & F4) (W1 & W2) (W3 & W4) n. destruct (square_err _ _ F1 F3 W1 W3) as (G1 & E1 & B1), (square_err _ _ F2 F4 W2 W4) as (G2 & E2 & B2). set (dx := SFsub 53 1024 (fst a) (fst b)) in *. set (dy := SFsub 53 1024 (snd a) (snd b)) in *.
    set (X := bval (fst a) - bval (fst b)) in *. set (Y := bval (snd a) - bval (snd b)) in *. destruct et_big as (T0 & T1 & T2 & T3 & T4 & T5 & T6). pose proof u_small as (U0 & U1).
    assert (ED : dist (bpt a) (bpt b) = sqrt (X * X + Y * Y)) by reflexivity. rewrite ED. set (S0 := X * X + Y * Y) in *. assert (X0 : 0 <= X * X) by apply Rle_0_sqr. assert (Y0 : 0 <= Y * Y) by apply Rle_0_sqr. assert (HS : 0 <= S0) by (unfold S0; lra).
    set (p := SFmul 53 1024 dx dx) in *. set (q := SFmul 53 1024 dy dy) in *. assert (EQ : Rabs (bval p + bval q - S0) <= 3.02 * u * S0 + p2 (-600) / 4).
    { replace (bval p + bval q - S0) with ((bval p - X * X) + (bval q - Y * Y)) by (unfold S0; ring). pose proof (abs_sum _ _ _ _ E1 E2). unfold S0. lra. }
    assert (US : 0 <= u * S0) by (apply Rmult_le_pos; lra). assert (US' : u * S0 <= 1 / 1000000000000000 * S0) by (apply Rmult_le_compat_r; lra). assert (L9 : 1 <= p2 802) by (rewrite <- p2_0; apply p2_le; lia).
    assert (S1 : S0 <= p2 803). { change 803%Z with (802 + 1)%Z. rewrite p2_add. change (p2 1) with (2 * 1). unfold S0. lra. }
    assert (L8 : 2 * p2 803 <= p2 900). { replace (2 * p2 803) with (p2 804); [apply p2_le; lia|]. change 804%Z with (803 + 1)%Z. rewrite p2_add. change (p2 1) with (2 * 1). lra. }
    assert (BQ : Rabs (bval p + bval q) <= 1.001 * S0 + p2 (-600)). { replace (bval p + bval q) with ((bval p + bval q - S0) + S0) by ring. pose proof (abs_sum _ _ _ _ EQ (Req_le _ _ (Rabs_pos_eq _ HS))). lra. }
    assert (L803 : p2 802 <= p2 803) by (apply p2_le; lia). destruct (add_near p q G1 G2) as (F & N & _); [lra|]. set (s := SFadd 53 1024 p q) in *.
    assert (ES : Rabs (bval s - S0) <= 4.03 * u * S0 + p2 (-300) * p2 (-300)).
    { rewrite <- p2_add. change (-300 + -300)%Z with (-600)%Z. replace (bval s - S0) with ((bval s - (bval p + bval q)) + (bval p + bval q - S0)) by ring. pose proof (abs_sum _ _ _ _ N EQ).
      assert (u * Rabs (bval p + bval q) <= u * (1.001 * S0 + p2 (-600))) by (apply Rmult_le_compat_l; lra). assert (u * p2 (-600) <= 1 / 4 * p2 (-600)) by (apply Rmult_le_compat_r; lra). lra. }
    assert (P : 0 <= bval s) by (apply nosign_val, nosign_add; apply nosign_mul). assert (P3 : 0 <= p2 (-300)) by apply Rlt_le, p2_pos.
    pose proof (sqrt_pert (bval s) S0 (4.03 * u) (p2 (-300)) P HS ltac:(lra) P3 ES) as RS. pose proof (sqrt_pos S0) as R0. set (r := sqrt S0) in *.
    assert (BR : Rabs (sqrt (bval s)) <= 1.001 * r + p2 (-300)). { replace (sqrt (bval s)) with ((sqrt (bval s) - r) + r) by ring. pose proof (abs_sum _ _ _ _ RS (Req_le _ _ (Rabs_pos_eq _ R0))). assert (u * r <= 1 / 1000000000000000 * r) by (apply Rmult_le_compat_r; lra). lra. }
    destruct (sqrt_near s F P) as (Fn & Nn & _). change (SFsqrt 53 1024 s) with n in *. split; auto. split.
    - replace (bval n - r) with ((bval n - sqrt (bval s)) + (sqrt (bval s) - r)) by ring. pose proof (abs_sum _ _ _ _ Nn RS). assert (u * Rabs (sqrt (bval s)) <= u * (1.001 * r + p2 (-300))) by (apply Rmult_le_compat_l; lra).
      assert (u * p2 (-300) <= 1 / 4 * p2 (-300)) by (apply Rmult_le_compat_r; lra). assert (E9 : p2 (-299) = 2 * p2 (-300)). { change (-299)%Z with (-300 + 1)%Z. rewrite p2_add. change (p2 1) with (2 * 1). lra. }
      assert (et <= p2 (-300) / 4). { apply Rle_trans with (p2 (-302)); [apply p2_le; lia|]. change (-302)%Z with (-300 + -2)%Z. rewrite p2_add. change (p2 (-2)) with (/ (2 * (2 * 1))). lra. }
      assert (0 <= u * r) by (apply Rmult_le_pos; lra). lra.
    - split; auto. unfold r. apply Rle_trans with (sqrt (p2 402 * p2 402)); [|rewrite sqrt_square; [lra|apply Rlt_le, p2_pos]]. apply sqrt_le_1_alt. rewrite <- p2_add. apply Rle_trans with (1 := S1). apply p2_le; lia.
  Qed.
End Norm.
