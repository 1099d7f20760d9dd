(** The orientation value of utils/cg.py:51-64 in binary64 *)
From Coq Require Import ZArith QArith Qreals Reals SpecFloat Bool Lia Lra List.
From Verif Require Import Num Spec M_Cg L_Cg M_Float S_Float L_Float L_FloatCmp.
Local Open Scope R_scope.

Lemma p2_inv e : p2 (- e) = / p2 e.
Proof. pose proof (p2_opp e). pose proof (p2_pos e). apply Rmult_eq_reg_l with (p2 e); [|lra]. rewrite Rinv_r; lra. Qed.
Lemma u_small : 0 < p2 (-53) <= 1 / 1000000000000000.
Proof. split; [apply p2_pos|]. change (-53)%Z with (- (53))%Z. rewrite p2_inv, p2_Z by lia. apply Rmult_le_reg_l with (IZR (2 ^ 53)); [apply IZR_lt; reflexivity|]. rewrite Rinv_r; [|apply not_0_IZR; discriminate]. change (2 ^ 53)%Z with 9007199254740992%Z. lra. Qed.
Lemma u_val : p2 (-53) * 9007199254740992 = 1.
Proof. change (-53)%Z with (- (53))%Z. rewrite p2_inv, p2_Z by lia. change (2 ^ 53)%Z with 9007199254740992%Z. lra. Qed.
Lemma eta_small : 0 < p2 (-1075) <= p2 (-53) / 1000.
Proof.
  split; [apply p2_pos|]. apply Rle_trans with (p2 (-63)); [apply p2_le; lia|]. replace (-63)%Z with (-53 + - (10))%Z by lia. rewrite p2_add, p2_inv, (p2_Z 10) by lia. change (2 ^ 10)%Z with 1024%Z.
  pose proof (p2_pos (-53)). lra.
Qed.
Lemma abs_mul a b A B : Rabs a <= A -> Rabs b <= B -> Rabs (a * b) <= A * B.
Proof. intros Ha Hb. rewrite Rabs_mult. apply Rmult_le_compat; auto; apply Rabs_pos. Qed.
Lemma abs_sum a b A B : Rabs a <= A -> Rabs b <= B -> Rabs (a + b) <= A + B.
Proof. intros Ha Hb. pose proof (Rabs_triang a b). lra. Qed.
Lemma abs_dif a b A B : Rabs a <= A -> Rabs b <= B -> Rabs (a - b) <= A + B.
Proof. intros Ha Hb. unfold Rminus. apply abs_sum; auto. rewrite Rabs_Ropp. auto. Qed.
Lemma p2_1000 : p2 900 = p2 800 * p2 100. Proof. rewrite <- p2_add. reflexivity. Qed.

Section Orient.
  Variables (M : R) (a b c : pt b64).
  Hypothesis M1 : 1 <= M. Hypothesis Mb : M <= p2 400.
  Hypothesis Fa : bfin_pt a. Hypothesis Fb : bfin_pt b. Hypothesis Fc : bfin_pt c.
  Hypothesis Wa : within M a. Hypothesis Wb : within M b. Hypothesis Wc : within M c.
  Notation u := (p2 (-53)).
  Lemma MMb : 9 * (M * M) <= p2 900.
  Proof.
    rewrite p2_1000. assert (M * M <= p2 800). { replace 800%Z with (400 + 400)%Z by lia. rewrite p2_add. apply Rmult_le_compat; lra. }
    assert (16 <= p2 100). { apply Rle_trans with (p2 4); [rewrite p2_Z by lia; simpl; lra|apply p2_le; lia]. }
    pose proof (p2_pos 800). apply Rle_trans with (p2 800 * 9); [lra|]. apply Rmult_le_compat_l; lra.
  Qed.
  Lemma MM1 : M <= M * M. Proof. nra. Qed.
  Lemma dif_err x y : bfin x -> bfin y -> Rabs (bval x) <= M -> Rabs (bval y) <= M ->
    bfin (SFsub 53 1024 x y) /\ Rabs (bval (SFsub 53 1024 x y) - (bval x - bval y)) <= 2.001 * (M * u) /\ Rabs (bval (SFsub 53 1024 x y)) <= 2.001 * M /\ Rabs (bval x - bval y) <= 2 * M.
  Proof.
    intros Fx Fy Bx By. pose proof (abs_dif _ _ _ _ Bx By) as D. pose proof MMb. pose proof MM1. destruct (sub_near x y Fx Fy) as (F & N & _); [lra|].
    pose proof u_small as (U0 & U1). pose proof eta_small as (_ & E1). assert (Rabs (bval x - bval y) * u <= 2 * M * u) by (apply Rmult_le_compat_r; lra).
    assert (u <= M * u) by nra. assert (N' : Rabs (bval (SFsub 53 1024 x y) - (bval x - bval y)) <= 2.001 * (M * u)) by lra. assert (M * u <= M * (1 / 1000000000000000)) by (apply Rmult_le_compat_l; lra).
    split; auto. split; auto. split; [|lra]. replace (bval (SFsub 53 1024 x y)) with ((bval (SFsub 53 1024 x y) - (bval x - bval y)) + (bval x - bval y)) by ring.
    pose proof (abs_sum _ _ _ _ N' D). lra.
  Qed.
  Lemma prod_err x y X Y : bfin x -> bfin y -> Rabs (bval x - X) <= 2.001 * (M * u) -> Rabs (bval y - Y) <= 2.001 * (M * u) -> Rabs (bval y) <= 2.001 * M -> Rabs (bval x) <= 2.001 * M -> Rabs X <= 2 * M ->
    bfin (SFmul 53 1024 x y) /\ Rabs (bval (SFmul 53 1024 x y) - X * Y) <= 12.02 * (M * M * u) /\ Rabs (bval (SFmul 53 1024 x y)) <= 4.005 * (M * M).
  Proof.
    intros Fx Fy Ex Ey By Bx BX. pose proof (abs_mul _ _ _ _ Bx By) as P. pose proof MMb. pose proof MM1.
    assert (P' : Rabs (bval x * bval y) <= 4.0041 * (M * M)) by nra.
    destruct (mul_near x y Fx Fy) as (F & N & _); [lra|]. pose proof u_small as (U0 & U1). pose proof eta_small as (_ & E1).
    pose proof (abs_mul _ _ _ _ Ex By) as A1. pose proof (abs_mul _ _ _ _ BX Ey) as A2.
    assert (Rabs (bval x * bval y) * u <= 4.0041 * (M * M) * u) by (apply Rmult_le_compat_r; lra).
    assert (M1' : 1 <= M * M) by lra. assert (u <= M * M * u) by nra. assert (B : M * M * u <= M * M * (1 / 1000000000000000)) by (apply Rmult_le_compat_l; lra).
    assert (N' : Rabs (bval (SFmul 53 1024 x y) - bval x * bval y) <= 4.0052 * (M * M * u)) by lra.
    split; auto. split.
    - replace (bval (SFmul 53 1024 x y) - X * Y) with ((bval (SFmul 53 1024 x y) - bval x * bval y) + ((bval x - X) * bval y + X * (bval y - Y))) by ring.
      pose proof (abs_sum _ _ _ _ N' (abs_sum _ _ _ _ A1 A2)). replace (2.001 * (M * u) * (2.001 * M)) with (4.004001 * (M * M * u)) in H3 by lra. replace (2 * M * (2.001 * (M * u))) with (4.002 * (M * M * u)) in H3 by lra. lra.
    - replace (bval (SFmul 53 1024 x y)) with ((bval (SFmul 53 1024 x y) - bval x * bval y) + bval x * bval y) by ring. pose proof (abs_sum _ _ _ _ N' P'). lra.
  Qed.
  Lemma orient_err : bfin (orientation_val a b c) /\ Rabs (bval (orientation_val a b c) + area2 (bpt a) (bpt b) (bpt c)) <= 33 * (M * M) * u.
  Proof.
    destruct Fa as (F1 & F2), Fb as (F3 & F4), Fc as (F5 & F6), Wa as (W1 & W2), Wb as (W3 & W4), Wc as (W5 & W6).
    unfold orientation_val. cbn [nsub nmul NumB].
    destruct (dif_err _ _ F4 F2 W4 W2) as (G1 & X1 & Y1 & Z1). destruct (dif_err _ _ F5 F3 W5 W3) as (G2 & X2 & Y2 & Z2).
    destruct (dif_err _ _ F3 F1 W3 W1) as (G3 & X3 & Y3 & Z3). destruct (dif_err _ _ F6 F4 W6 W4) as (G4 & X4 & Y4 & Z4).
    destruct (prod_err _ _ _ _ G1 G2 X1 X2 Y2 Y1 Z1) as (H1 & P1 & Q1). destruct (prod_err _ _ _ _ G3 G4 X3 X4 Y4 Y3 Z3) as (H2 & P2 & Q2).
    set (p := SFmul 53 1024 (SFsub 53 1024 (snd b) (snd a)) (SFsub 53 1024 (fst c) (fst b))) in *. set (q := SFmul 53 1024 (SFsub 53 1024 (fst b) (fst a)) (SFsub 53 1024 (snd c) (snd b))) in *.
    pose proof (abs_dif _ _ _ _ Q1 Q2) as D. pose proof MMb. pose proof MM1. destruct (sub_near p q H1 H2) as (F & N & _); [lra|]. split; [exact F|].
    pose proof u_small as (U0 & U1). pose proof eta_small as (_ & E1). assert (Rabs (bval p - bval q) * u <= (4.005 * (M * M) + 4.005 * (M * M)) * u) by (apply Rmult_le_compat_r; lra).
    assert (u <= M * M * u) by nra. assert (N' : Rabs (bval (SFsub 53 1024 p q) - (bval p - bval q)) <= 8.011 * (M * M * u)) by lra.
    match goal with |- Rabs ?g <= _ => replace g with ((bval (SFsub 53 1024 p q) - (bval p - bval q)) + ((bval p - (bval (snd b) - bval (snd a)) * (bval (fst c) - bval (fst b))) - (bval q - (bval (fst b) - bval (fst a)) * (bval (snd c) - bval (snd b))))) by (unfold area2, bpt, cross, vsub; cbn [fst snd]; ring) end.
    pose proof (abs_sum _ _ _ _ N' (abs_dif _ _ _ _ P1 P2)). lra.
  Qed.
End Orient.

(** *** the threshold *)
Lemma th_run : @COLLINEAR_THRESHOLD b64 NumB = S754_finite false 7737125245533627 (-86).
Proof. vm_compute. reflexivity. Qed.
Lemma th_fin : bfin (@COLLINEAR_THRESHOLD b64 NumB). Proof. rewrite th_run. reflexivity. Qed.
Lemma th_val : bval (@COLLINEAR_THRESHOLD b64 NumB) * 77371252455336267181195264 = 7737125245533627.
Proof. rewrite th_run. cbn [bval]. change (-86)%Z with (- (86))%Z. rewrite p2_inv, p2_Z by lia. change (2 ^ 86)%Z with 77371252455336267181195264%Z. lra. Qed.
Lemma th_near : 0.999 * TH < bval (@COLLINEAR_THRESHOLD b64 NumB) < 1.001 * TH.
Proof. pose proof th_val. unfold TH. lra. Qed.
