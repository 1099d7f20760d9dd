(** LineSegment.line_segment_intersection of utils/cg.py:132-151 in binary64 *)
From Coq Require Import ZArith QArith Qreals Reals SpecFloat Bool Lia Lra List.
From Verif Require Import Num Spec L_Geom M_Cg L_Cg M_Float S_Float L_Float L_FloatCmp L_FloatDiv L_FloatCg L_FloatGrid L_FloatLine.
Local Open Scope R_scope.
Local Notation u := (p2 (-53)).

(** (bx - ax) * (dy - cy) - (by - ay) * (dx - cx) *)
Definition crsB (a b c d : pt b64) : b64 :=
  SFsub 53 1024 (SFmul 53 1024 (SFsub 53 1024 (fst b) (fst a)) (SFsub 53 1024 (snd d) (snd c))) (SFmul 53 1024 (SFsub 53 1024 (snd b) (snd a)) (SFsub 53 1024 (fst d) (fst c))).
Lemma crs_err M a b c d : 1 <= M -> M <= p2 400 -> bfin_pt a -> bfin_pt b -> bfin_pt c -> bfin_pt d -> within M a -> within M b -> within M c -> within M d ->
  bfin (crsB a b c d) /\ Rabs (bval (crsB a b c d) - cross (vsub (bpt b) (bpt a)) (vsub (bpt d) (bpt c))) <= 33 * (M * M) * u /\ Rabs (cross (vsub (bpt b) (bpt a)) (vsub (bpt d) (bpt c))) <= 8 * (M * M).
Proof.
  intros M1 Mb Fa Fb Fc Fd Wa Wb Wc Wd. destruct Fa as (F1 & F2), Fb as (F3 & F4), Fc as (F5 & F6), Fd as (F7 & F8), Wa as (W1 & W2), Wb as (W3 & W4), Wc as (W5 & W6), Wd as (W7 & W8). unfold crsB.
  destruct (dif_err M M1 Mb _ _ F4 F2 W4 W2) as (G1 & X1 & Y1 & Z1). destruct (dif_err M M1 Mb _ _ F7 F5 W7 W5) as (G2 & X2 & Y2 & Z2).
  destruct (dif_err M M1 Mb _ _ F3 F1 W3 W1) as (G3 & X3 & Y3 & Z3). destruct (dif_err M M1 Mb _ _ F8 F6 W8 W6) as (G4 & X4 & Y4 & Z4).
  destruct (prod_err M M1 Mb _ _ _ _ G3 G4 X3 X4 Y4 Y3 Z3) as (H1 & P1 & Q1). destruct (prod_err M M1 Mb _ _ _ _ G1 G2 X1 X2 Y2 Y1 Z1) as (H2 & P2 & Q2).
  set (p := SFmul 53 1024 (SFsub 53 1024 (fst b) (fst a)) _) in *. set (q := SFmul 53 1024 (SFsub 53 1024 (snd b) (snd a)) _) in *.
  pose proof (abs_dif _ _ _ _ Q1 Q2) as D. pose proof (MMb M M1 Mb). pose proof (MM1 M M1). destruct (sub_near p q H1 H2) as (F & N & _); [lra|]. set (z := SFsub 53 1024 p q) in *. split; [exact F|].
  pose proof u_small as (U0 & U1). pose proof eta_small as (_ & E1). assert (Rabs (bval p - bval q) * u <= (4.005 * (M * M) + 4.005 * (M * M)) * u) by (apply Rmult_le_compat_r; lra).
  assert (u <= M * M * u) by nra. assert (N' : Rabs (bval z - (bval p - bval q)) <= 8.011 * (M * M * u)) by lra.
  assert (EC : cross (vsub (bpt b) (bpt a)) (vsub (bpt d) (bpt c)) = (bval (fst b) - bval (fst a)) * (bval (snd d) - bval (snd c)) - (bval (snd b) - bval (snd a)) * (bval (fst d) - bval (fst c))).
  { unfold cross, vsub, bpt. cbn [fst snd]. ring. }
  rewrite EC. split.
  - match goal with |- Rabs (?z - (?x - ?y)) <= _ => replace (z - (x - y)) with ((z - (bval p - bval q)) + ((bval p - x) - (bval q - y))) by ring end.
    pose proof (abs_sum _ _ _ _ N' (abs_dif _ _ _ _ P1 P2)). lra.
  - pose proof (abs_dif _ _ _ _ (abs_mul _ _ _ _ Z3 Z4) (abs_mul _ _ _ _ Z1 Z2)). lra.
Qed.

Section Quot.
  Variables (M D W : R). Hypothesis M1 : 1 <= M. Hypothesis M2 : M <= 160. Hypothesis HD : 2 * TH <= D. Hypothesis HD' : D <= 8 * (M * M). Hypothesis EW : W * D = M * M * u.
  Lemma seg_consts : 0 < D /\ 0 < W <= 0.0145 /\ u <= 8 * W /\ 33 * (M * M) * u <= 0.4785 * D.
  Proof.
    pose proof TH_pos as T. pose proof (MM3 M M1 M2) as (E0 & E1). assert (D0 : 0 < D) by lra. pose proof u_small as (U0 & _). split; auto. assert (W0 : 0 < W) by nra. split; [split; [auto|nra]|]. split; [|nra].
    apply Rmult_le_reg_r with D; auto. replace (8 * W * D) with (8 * (W * D)) by ring. rewrite EW. nra.
  Qed.
  (** the quotient of two values with errors *)
  Lemma quot_err n d num den t : bfin n -> bfin d -> Rabs (bval n - num) <= 33 * (M * M) * u -> Rabs num <= 8 * (M * M) -> Rabs (bval d - den) <= 33 * (M * M) * u -> Rabs den = D -> t * den = num ->
    bfin (SFdiv 53 1024 n d) /\ (Rabs t <= 1 -> Rabs (bval (SFdiv 53 1024 n d) - t) <= 150 * W) /\ (Rabs (bval (SFdiv 53 1024 n d)) <= 1 -> Rabs (bval (SFdiv 53 1024 n d) - t) <= 80 * W).
  Proof.
    intros Fn Fd En Bn Ed Bd Et. destruct seg_consts as (D0 & (W0 & W1) & uW & HE). pose proof u_small as (U0 & U1). pose proof eta_small as (_ & ET). pose proof TH_pos as T. pose proof (MM3 M M1 M2) as (MU & _). set (x := bval n) in *. set (y := bval d) in *.
    assert (Dy : 0.52 * D <= Rabs y). { pose proof (Rabs_triang_inv den (den - y)). replace (den - (den - y)) with y in H by ring. rewrite (Rabs_minus_sym den y) in H. lra. }
    assert (y0 : 0 < Rabs y) by lra. assert (y1 : y <> 0) by (intros Z; rewrite Z, Rabs_R0 in y0; lra).
    assert (BX : Rabs x <= 9 * (M * M)). { replace x with ((x - num) + num) by ring. pose proof (abs_sum _ _ _ _ En Bn). assert (M * M * u <= M * M * 0.001) by (apply Rmult_le_compat_l; [nra|lra]). assert (1 <= M * M) by nra. lra. }
    assert (Q : Rabs (x / y) <= p2 900).
    { apply Rle_trans with (p2 100); [|apply p2_le; lia]. apply Rmult_le_reg_r with (Rabs y); auto. rewrite <- Rabs_mult. replace (x / y * y) with x by (field; auto). apply Rle_trans with (1 := BX).
      apply Rle_trans with (p2 100 * (0.52 * (2 * TH))); [|apply Rmult_le_compat_l; [apply Rlt_le, p2_pos|lra]]. rewrite p2_Z by lia. change (2 ^ 100)%Z with 1267650600228229401496703205376%Z. rewrite TH0. assert (M * M <= 25600) by nra. lra. }
    destruct (div_near n d Fn Fd y1 Q) as (F & N & _). fold x y in N. set (q := SFdiv 53 1024 n d) in *. split; auto. split.
    - intros Ht. assert (K : Rabs (x / y - t) <= 127 * W).
      { apply Rmult_le_reg_r with (Rabs y); auto. rewrite <- Rabs_mult. replace ((x / y - t) * y) with ((x - num) - t * (y - den)) by (rewrite <- Et; field; auto). apply Rle_trans with (1 := abs_dif _ _ _ _ En (abs_mul _ _ _ _ Ht Ed)).
        apply Rle_trans with (127 * W * (0.52 * D)); [|apply Rmult_le_compat_l; lra]. replace (127 * W * (0.52 * D)) with (66.04 * (W * D)) by lra. rewrite EW. lra. }
      assert (K1 : Rabs (x / y) <= 2.85). { replace (x / y) with ((x / y - t) + t) by ring. pose proof (abs_sum _ _ _ _ K Ht). lra. }
      replace (bval q - t) with ((bval q - x / y) + (x / y - t)) by ring. pose proof (abs_sum _ _ _ _ N K). assert (u * Rabs (x / y) <= u * 2.85) by (apply Rmult_le_compat_l; lra). lra.
    - intros Hq. assert (K1 : Rabs (x / y) <= 1.01).
      { assert (A : Rabs (x / y) <= Rabs (bval q) + Rabs (bval q - x / y)) by (pose proof (Rabs_triang (bval q) (- (bval q - x / y))); rewrite Rabs_Ropp in H; replace (bval q + - (bval q - x / y)) with (x / y) in H by ring; lra).
        assert (u * Rabs (x / y) <= 0.001 * Rabs (x / y)) by (apply Rmult_le_compat_r; [apply Rabs_pos|lra]). lra. }
      assert (K : Rabs (x / y - t) <= 67 * W).
      { apply Rmult_le_reg_r with D; auto. rewrite <- Bd at 1. rewrite <- Rabs_mult. replace ((x / y - t) * den) with ((x - num) - (x / y) * (y - den)) by (rewrite <- Et; field; auto). apply Rle_trans with (1 := abs_dif _ _ _ _ En (abs_mul _ _ _ _ K1 Ed)).
        replace (67 * W * D) with (67 * (W * D)) by ring. rewrite EW. lra. }
      replace (bval q - t) with ((bval q - x / y) + (x / y - t)) by ring. pose proof (abs_sum _ _ _ _ N K). assert (u * Rabs (x / y) <= u * 1.01) by (apply Rmult_le_compat_l; lra). lra.
  Qed.
  (** x - k (x - y) *)
  Lemma step_err x y k t : bfin x -> bfin y -> bfin k -> Rabs (bval x) <= M -> Rabs (bval y) <= M -> Rabs (bval k) <= 1 -> Rabs (bval k - t) <= 80 * W ->
    bfin (SFsub 53 1024 x (SFmul 53 1024 k (SFsub 53 1024 x y))) /\ Rabs (bval (SFsub 53 1024 x (SFmul 53 1024 k (SFsub 53 1024 x y))) - (bval x + t * (bval y - bval x))) <= 300 * (M * W).
  Proof.
    intros Fx Fy Fk Bx By Bk Ek. destruct seg_consts as (D0 & (W0 & W1) & uW & HE). pose proof u_small as (U0 & U1). pose proof eta_small as (_ & ET). pose proof (Mb400 M M2) as Mb.
    assert (uMW : M * u <= 8 * (M * W)) by nra. assert (MW : 0 < M * W <= 0.0145 * M) by (split; nra). assert (Mu1 : u <= M * u) by nra. assert (Mu2 : M * u <= 0.001 * M) by nra.
    destruct (dif_err M M1 Mb _ _ Fx Fy Bx By) as (G & X & Y & Z). set (d := SFsub 53 1024 x y) in *. pose proof (abs_mul _ _ _ _ Bk Y) as P.
    assert (big : forall q, q <= 10 * M -> q <= p2 900). { intros q Hq. apply Rle_trans with (p2 11); [rewrite p2_Z by lia; simpl; lra|apply p2_le; lia]. }
    destruct (mul_near k d Fk G) as (F & N & _); [apply big; lra|]. set (p := SFmul 53 1024 k d) in *. assert (u * Rabs (bval k * bval d) <= u * (1 * (2.001 * M))) by (apply Rmult_le_compat_l; lra).
    assert (N' : Rabs (bval p - bval k * bval d) <= 2.01 * (M * u)) by lra.
    assert (E : Rabs (bval k * bval d - t * (bval x - bval y)) <= 160.1 * (M * W) + 2.01 * (M * u)).
    { replace (bval k * bval d - t * (bval x - bval y)) with ((bval k - t) * (bval x - bval y) + bval k * (bval d - (bval x - bval y))) by ring. pose proof (abs_sum _ _ _ _ (abs_mul _ _ _ _ Ek Z) (abs_mul _ _ _ _ Bk X)). lra. }
    assert (Ep : Rabs (bval p - t * (bval x - bval y)) <= 160.1 * (M * W) + 4.02 * (M * u)).
    { replace (bval p - t * (bval x - bval y)) with ((bval p - bval k * bval d) + (bval k * bval d - t * (bval x - bval y))) by ring. pose proof (abs_sum _ _ _ _ N' E). lra. }
    assert (Bp : Rabs (bval x - bval p) <= 3.1 * M).
    { replace (bval x - bval p) with (bval x - (bval p - bval k * bval d) - bval k * bval d) by ring. pose proof (abs_dif _ _ _ _ (abs_dif _ _ _ _ Bx N') P). lra. }
    destruct (sub_near x p Fx F) as (F' & N'' & _); [apply big; lra|]. split; auto. assert (u * Rabs (bval x - bval p) <= u * (3.1 * M)) by (apply Rmult_le_compat_l; lra).
    match goal with |- Rabs (?z - _) <= _ => replace (z - (bval x + t * (bval y - bval x))) with ((z - (bval x - bval p)) - (bval p - t * (bval x - bval y))) by ring end.
    pose proof (abs_dif _ _ _ _ N'' Ep). lra.
  Qed.
End Quot.
