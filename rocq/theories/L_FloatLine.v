(** The crossing point of utils/cg.py:197-203 and the norm of a difference in binary64 *)
From Coq Require Import ZArith QArith Qreals Reals SpecFloat Bool Lia Lra List.
From Verif Require Import Num Spec L_Geom M_Cg L_Cg M_Float S_Float L_Float L_FloatCmp L_FloatDiv L_FloatCg L_FloatGrid.
Local Open Scope R_scope.
Notation u := (p2 (-53)).

(** *** the two scalar products *)
Section Dot.
  Variable M : R. Hypothesis M1 : 1 <= M. Hypothesis Mb : M <= p2 400.
  (** - (y2 - y1) * (x4 - x3) + (x2 - x1) * (y4 - y3) *)
  Lemma dot_err a b c d : bfin_pt a -> bfin_pt b -> bfin_pt c -> bfin_pt d -> within M a -> within M b -> within M c -> within M d ->
    let z := SFadd 53 1024 (SFmul 53 1024 (SFopp (SFsub 53 1024 (snd b) (snd a))) (SFsub 53 1024 (fst d) (fst c))) (SFmul 53 1024 (SFsub 53 1024 (fst b) (fst a)) (SFsub 53 1024 (snd d) (snd c))) in
    bfin z /\ Rabs (bval z - cross (vsub (bpt b) (bpt a)) (vsub (bpt d) (bpt c))) <= 33 * (M * M) * u /\ Rabs (cross (vsub (bpt b) (bpt a)) (vsub (bpt d) (bpt c))) <= 8 * (M * M).
  Proof.
    intros Fa Fb Fc Fd Wa Wb Wc Wd. destruct Fa as (F1 & F2), Fb as (F3 & F4), Fc as (F5 & F6), Fd as (F7 & F8), Wa as (W1 & W2), Wb as (W3 & W4), Wc as (W5 & W6), Wd as (W7 & W8). intros z.
    destruct (dif_err M M1 Mb _ _ F4 F2 W4 W2) as (G1 & X1 & Y1 & Z1). destruct (dif_err M M1 Mb _ _ F7 F5 W7 W5) as (G2 & X2 & Y2 & Z2).
    destruct (dif_err M M1 Mb _ _ F3 F1 W3 W1) as (G3 & X3 & Y3 & Z3). destruct (dif_err M M1 Mb _ _ F8 F6 W8 W6) as (G4 & X4 & Y4 & Z4).
    destruct (opp_spec _ G1) as (G1' & O1).
    assert (X1' : Rabs (bval (SFopp (SFsub 53 1024 (snd b) (snd a))) - - (bval (snd b) - bval (snd a))) <= 2.001 * (M * u)).
    { rewrite O1. replace (- bval (SFsub 53 1024 (snd b) (snd a)) - - (bval (snd b) - bval (snd a))) with (- (bval (SFsub 53 1024 (snd b) (snd a)) - (bval (snd b) - bval (snd a)))) by ring. now rewrite Rabs_Ropp. }
    assert (Y1' : Rabs (bval (SFopp (SFsub 53 1024 (snd b) (snd a)))) <= 2.001 * M) by (rewrite O1, Rabs_Ropp; auto). assert (Z1' : Rabs (- (bval (snd b) - bval (snd a))) <= 2 * M) by (rewrite Rabs_Ropp; auto).
    destruct (prod_err M M1 Mb _ _ _ _ G1' G2 X1' X2 Y2 Y1' Z1') as (H1 & P1 & Q1). destruct (prod_err M M1 Mb _ _ _ _ G3 G4 X3 X4 Y4 Y3 Z3) as (H2 & P2 & Q2).
    set (p := SFmul 53 1024 (SFopp _) _) in *. set (q := SFmul 53 1024 (SFsub 53 1024 (fst b) (fst a)) _) in *.
    pose proof (abs_sum _ _ _ _ Q1 Q2) as D. pose proof (MMb M M1 Mb). pose proof (MM1 M M1). destruct (add_near p q H1 H2) as (F & N & _); [lra|]. fold z in F, N. split; [exact F|].
    pose proof u_small as (U0 & U1). pose proof eta_small as (_ & E1). assert (Rabs (bval p + bval q) * u <= (4.005 * (M * M) + 4.005 * (M * M)) * u) by (apply Rmult_le_compat_r; lra).
    assert (u <= M * M * u) by nra. assert (N' : Rabs (bval z - (bval p + bval q)) <= 8.011 * (M * M * u)) by lra.
    assert (EC : cross (vsub (bpt b) (bpt a)) (vsub (bpt d) (bpt c)) = - (bval (snd b) - bval (snd a)) * (bval (fst d) - bval (fst c)) + (bval (fst b) - bval (fst a)) * (bval (snd d) - bval (snd c))).
    { unfold cross, vsub, bpt. cbn [fst snd]. ring. }
    rewrite EC. split.
    - match goal with |- Rabs (?z - (?x + ?y)) <= _ => replace (z - (x + y)) with ((z - (bval p + bval q)) + ((bval p - x) + (bval q - y))) by ring end.
      pose proof (abs_sum _ _ _ _ N' (abs_sum _ _ _ _ P1 P2)). lra.
    - pose proof (abs_sum _ _ _ _ (abs_mul _ _ _ _ Z1' Z2) (abs_mul _ _ _ _ Z3 Z4)). lra.
  Qed.
End Dot.

(** *** the point *)
Section Point.
  Variable M : R. Hypothesis M1 : 1 <= M. Hypothesis M2 : M <= 160.
  Variables a1 a2 b1 b2 : pt b64.
  Hypothesis Fa1 : bfin_pt a1. Hypothesis Fa2 : bfin_pt a2. Hypothesis Fb1 : bfin_pt b1. Hypothesis Fb2 : bfin_pt b2.
  Hypothesis Wa1 : within M a1. Hypothesis Wa2 : within M a2. Hypothesis Wb1 : within M b1. Hypothesis Wb2 : within M b2.
  Notation A1 := (bpt a1). Notation A2 := (bpt a2). Notation B1 := (bpt b1). Notation B2 := (bpt b2).
  Definition den : R := cross (vsub A2 A1) (vsub B2 B1).
  Hypothesis HD : 4 * TH <= Rabs den.
  Variable t : R. Hypothesis Ht : Rabs t <= 1.5. Hypothesis Et : t * den = - area2 A1 A2 B1.
  Lemma Mb400 : M <= p2 400.
  Proof. apply Rle_trans with (p2 8); [rewrite p2_Z by lia; simpl; lra|apply p2_le; lia]. Qed.
  Definition W : R := M * M * u / Rabs den.
  Lemma TH0 : TH = 1 / 10000000000. Proof. reflexivity. Qed.
  Lemma den0 : 0 < Rabs den. Proof. pose proof TH_pos. lra. Qed.
  Lemma W_mul : W * Rabs den = M * M * u. Proof. pose proof den0. unfold W. field. lra. Qed.
  Lemma MM3 : 0 < M * M * u <= 0.029 * TH.
  Proof. pose proof u_val. rewrite TH0. assert (0 < u) by apply p2_pos. assert (M * M <= 25600) by nra. assert (1 <= M * M) by nra. split; [nra|]. assert (M * M * u <= 25600 * u) by (apply Rmult_le_compat_r; lra). lra. Qed.
  Lemma W_small : 0 < W <= 0.00725.
  Proof. pose proof den0. pose proof W_mul. pose proof MM3. pose proof TH_pos. split; nra. Qed.
  Lemma crossing_near :
    let x := crossing_point a1 a2 b1 b2 in bfin_pt x /\
    Rabs (bval (fst x) - (fst B1 + t * (fst B2 - fst B1))) <= 400 * (M * W) /\ Rabs (bval (snd x) - (snd B1 + t * (snd B2 - snd B1))) <= 400 * (M * W).
  Proof.
    pose proof Mb400 as Mb. pose proof den0 as D0. pose proof W_mul as WM. pose proof MM3 as (E0 & E1). pose proof W_small as (W0 & W1). pose proof u_small as (U0 & U1). pose proof eta_small as (_ & ET).
    destruct (dot_err M M1 Mb a1 a2 b1 b2) as (FD & ED & BD); auto. change (SFadd _ _ _ _) with (crossing_denom a1 a2 b1 b2) in FD, ED. fold den in ED, BD.
    destruct (dot_err M M1 Mb a1 a2 b1 a1) as (FN & EN & BN); auto. change (SFadd _ _ _ _) with (crossing_num a1 a2 b1) in FN, EN.
    replace (cross (vsub A2 A1) (vsub A1 B1)) with (t * den) in EN, BN by (rewrite Et; unfold area2, cross, vsub; cbn [fst snd]; ring).
    set (dn := bval (crossing_denom a1 a2 b1 b2)) in *. set (nm := bval (crossing_num a1 a2 b1)) in *.
    assert (uW : u <= 8 * W). { apply Rmult_le_reg_r with (Rabs den); auto. replace (8 * W * Rabs den) with (8 * (W * Rabs den)) by ring. rewrite WM. apply Rle_trans with (u * (8 * (M * M))); [apply Rmult_le_compat_l; lra|lra]. }
    assert (Ds : 0.76 * Rabs den <= Rabs dn). { pose proof (Rabs_triang_inv den (den - dn)). replace (den - (den - dn)) with dn in H by ring. rewrite (Rabs_minus_sym den dn) in H. pose proof TH_pos. lra. }
    assert (dn0 : 0 < Rabs dn) by lra. assert (dn1 : dn <> 0) by (intros Z; rewrite Z, Rabs_R0 in dn0; lra).
    assert (K : Rabs (nm / dn - t) <= 109 * W).
    { apply Rmult_le_reg_r with (Rabs dn); auto. rewrite <- Rabs_mult. replace ((nm / dn - t) * dn) with ((nm - t * den) - t * (dn - den)) by (field; auto).
      apply Rle_trans with (1 := abs_dif _ _ _ _ EN (abs_mul _ _ _ _ Ht ED)). apply Rle_trans with (109 * W * (0.76 * Rabs den)); [|apply Rmult_le_compat_l; lra].
      replace (109 * W * (0.76 * Rabs den)) with (82.84 * (W * Rabs den)) by lra. rewrite WM. lra. }
    assert (K1 : Rabs (nm / dn) <= 2.3). { replace (nm / dn) with ((nm / dn - t) + t) by ring. pose proof (abs_sum _ _ _ _ K Ht). lra. }
    unfold crossing_point. set (k := ndiv _ _). assert (NK : near k (nm / dn)). { apply div_near; auto. apply Rle_trans with (1 := K1). apply Rle_trans with (p2 8); [rewrite p2_Z by lia; simpl; lra|apply p2_le; lia]. }
    destruct NK as (FK & NK & _). assert (EK : Rabs (bval k - t) <= 128.5 * W).
    { replace (bval k - t) with ((bval k - nm / dn) + (nm / dn - t)) by ring. pose proof (abs_sum _ _ _ _ NK K). assert (u * Rabs (nm / dn) <= u * 2.3) by (apply Rmult_le_compat_l; lra). lra. }
    assert (BK : Rabs (bval k) <= 2.44). { replace (bval k) with ((bval k - t) + t) by ring. pose proof (abs_sum _ _ _ _ EK Ht). lra. }
    assert (uMW : M * u <= 8 * (M * W)) by nra. assert (MW : 0 < M * W <= 0.00725 * M) by (split; nra). assert (Mu1 : u <= M * u) by nra.
    assert (L : forall x y, bfin x -> bfin y -> Rabs (bval x) <= M -> Rabs (bval y) <= M ->
      bfin (SFadd 53 1024 (SFmul 53 1024 k (SFsub 53 1024 y x)) x) /\ Rabs (bval (SFadd 53 1024 (SFmul 53 1024 k (SFsub 53 1024 y x)) x) - (bval x + t * (bval y - bval x))) <= 400 * (M * W)).
    { intros x y Fx Fy Bx By. destruct (dif_err M M1 Mb _ _ Fy Fx By Bx) as (G & X & Y & Z). set (d := SFsub 53 1024 y x) in *.
      pose proof (abs_mul _ _ _ _ BK Y) as P. assert (big : forall q, q <= 10 * M -> q <= p2 900). { intros q Hq. apply Rle_trans with (p2 11); [rewrite p2_Z by lia; simpl; lra|apply p2_le; lia]. }
      destruct (mul_near k d FK G) as (F & N & _); [apply big; lra|]. set (p := SFmul 53 1024 k d) in *. assert (u * Rabs (bval k * bval d) <= u * (2.44 * (2.001 * M))) by (apply Rmult_le_compat_l; lra).
      assert (N' : Rabs (bval p - bval k * bval d) <= 4.89 * (M * u)) by lra.
      assert (E : Rabs (bval k * bval d - t * (bval y - bval x)) <= 257.2 * (M * W) + 3.01 * (M * u)).
      { replace (bval k * bval d - t * (bval y - bval x)) with ((bval k - t) * bval d + t * (bval d - (bval y - bval x))) by ring. pose proof (abs_sum _ _ _ _ (abs_mul _ _ _ _ EK Y) (abs_mul _ _ _ _ Ht X)). lra. }
      assert (Ep : Rabs (bval p - t * (bval y - bval x)) <= 257.2 * (M * W) + 7.9 * (M * u)).
      { replace (bval p - t * (bval y - bval x)) with ((bval p - bval k * bval d) + (bval k * bval d - t * (bval y - bval x))) by ring. pose proof (abs_sum _ _ _ _ N' E). lra. }
      assert (Bp : Rabs (bval p + bval x) <= 6 * M).
      { replace (bval p + bval x) with ((bval p - t * (bval y - bval x)) + (t * (bval y - bval x) + bval x)) by ring. pose proof (abs_sum _ _ _ _ Ep (abs_sum _ _ _ _ (abs_mul _ _ _ _ Ht Z) Bx)). assert (M * u <= M * (1 / 1000000000000000)) by (apply Rmult_le_compat_l; lra). lra. }
      destruct (add_near p x F Fx) as (F' & N'' & _); [apply big; lra|]. split; auto. assert (u * Rabs (bval p + bval x) <= u * (6 * M)) by (apply Rmult_le_compat_l; lra).
      match goal with |- Rabs (?z - _) <= _ => replace (z - (bval x + t * (bval y - bval x))) with ((z - (bval p + bval x)) + (bval p - t * (bval y - bval x))) by ring end.
      pose proof (abs_sum _ _ _ _ N'' Ep). lra. }
    destruct Fb1 as (F1 & F2), Fb2 as (F3 & F4), Wb1 as (V1 & V2), Wb2 as (V3 & V4). destruct (L _ _ F1 F3 V1 V3) as (L1 & L2), (L _ _ F2 F4 V2 V4) as (L3 & L4). cbn [fst snd]. unfold bpt. cbn [fst snd]. split; [split; assumption|split; assumption].
  Qed.
End Point.
