(** One step of an Interval in binary64 *)
From Coq Require Import ZArith QArith Qreals Reals SpecFloat Bool Lia Lra List.
From Verif Require Import Num Spec M_Cg M_Motion M_Float M_FloatMotion S_Float L_Float L_FloatCmp L_FloatDiv L_FloatCg L_FloatGrid L_Geom L_Gen L_Motion.
Import ListNotations.
Local Open Scope R_scope.

Lemma eta_tiny : p2 (-1075) * p2 53 <= p2 (-53) / 1000 /\ p2 (-1075) <= p2 (-53) / 1000000.
Proof.
  assert (A : p2 (-1022) = p2 (-53) * p2 (-969)) by (rewrite <- p2_add; reflexivity). assert (B : p2 (-1075) = p2 (-53) * p2 (-1022)) by (rewrite <- p2_add; reflexivity).
  assert (C : p2 (-1022) <= p2 (- (30))) by (apply p2_le; lia). assert (D : p2 (-969) <= p2 (- (30))) by (apply p2_le; lia).
  rewrite (p2_inv 30), (p2_Z 30) in C, D by lia. change (2 ^ 30)%Z with 1073741824%Z in *. pose proof (p2_pos (-53)).
  replace (p2 (-1075) * p2 53) with (p2 (-1022)) by (rewrite <- p2_add; reflexivity). rewrite A, B. split; apply Rle_trans with (p2 (-53) * / 1073741824); try (apply Rmult_le_compat_l; lra); lra.
Qed.
Section Step.
  Variables (M E : R) (p q D dt x : b64) (X : R).
  Hypotheses (Fp : bfin p) (Fq : bfin q) (FD : bfin D) (Fdt : bfin dt) (Fx : bfin x).
  Hypotheses (M1 : 1 <= M) (M2 : M <= p2 300) (Bp : Rabs (bval p) <= M) (Bq : Rabs (bval q) <= M).
  Hypotheses (D0 : p2 (-500) <= bval D) (D1 : bval D <= p2 53) (T0 : 0 < bval dt) (T1 : bval dt <= bval D).
  Hypotheses (E0 : 0 <= E) (E1 : E <= M) (Ex : Rabs (bval x - X) <= E) (BX : Rabs (X + (bval q - bval p) / bval D * bval dt) <= M).
  Let x' := SFadd 53 1024 x (SFmul 53 1024 (SFdiv 53 1024 (SFsub 53 1024 q p) D) dt).
  Lemma step_err : bfin x' /\ Rabs (bval x' - (X + (bval q - bval p) / bval D * bval dt)) <= E + 10 * p2 (-53) * M.
  Proof.
    pose proof u_small as (U0 & U1). pose proof eta_small as (H0 & _). destruct eta_tiny as (H2 & H3). pose proof (p2_pos (-500)) as Pm. set (u := p2 (-53)) in *. set (eta := p2 (-1075)) in *.
    assert (UM : u <= u * M) by (rewrite <- (Rmult_1_r u) at 1; apply Rmult_le_compat_l; lra). assert (UM' : u * M <= M / 1000000000000000). { apply Rle_trans with (1 / 1000000000000000 * M); [apply Rmult_le_compat_r; lra|lra]. }
    assert (P900 : forall z, z <= 10 * M -> z <= p2 900). { intros z Hz. apply Rle_trans with (p2 4 * p2 300); [rewrite (p2_Z 4) by lia; change (2 ^ 4)%Z with 16%Z; lra|]. rewrite <- p2_add. apply p2_le. lia. }
    assert (dD : 0 < bval D) by lra.
    (* q - p *)
    pose proof (abs_dif _ _ _ _ Bq Bp) as A1. destruct (sub_near q p Fq Fp) as (F1 & N1 & _); [apply P900; lra|].  fold u eta in N1. set (a := SFsub 53 1024 q p) in *.
    assert (K1 : Rabs (bval a - (bval q - bval p)) <= 2.1 * (u * M)). { assert (u * Rabs (bval q - bval p) <= u * (M + M)) by (apply Rmult_le_compat_l; lra). lra. }
    assert (Ba : Rabs (bval a) <= 2.1 * M). { replace (bval a) with ((bval a - (bval q - bval p)) + (bval q - bval p)) by ring. eapply Rle_trans; [apply Rabs_triang|]. lra. }
    (* the quotient *)
    assert (Q : Rabs (bval a / bval D) <= 2.1 * M * p2 500).
    { unfold Rdiv. apply abs_mul; auto. rewrite Rabs_inv, Rabs_pos_eq by lra. replace (p2 500) with (/ p2 (-500)) by (change (-500)%Z with (- (500))%Z; rewrite p2_inv, Rinv_inv; reflexivity). apply Rinv_le_contravar; lra. }
    assert (Q' : Rabs (bval a / bval D) <= p2 900). { eapply Rle_trans; [exact Q|]. apply Rle_trans with (p2 4 * p2 300 * p2 500); [apply Rmult_le_compat_r; [left; apply p2_pos|]; rewrite (p2_Z 4) by lia; change (2 ^ 4)%Z with 16%Z; lra|]. rewrite <- !p2_add. apply p2_le. lia. }
    destruct (div_near a D F1 FD ltac:(lra) Q') as (F2 & N2 & _).  fold u eta in N2. set (v := SFdiv 53 1024 a D) in *.
    (* times dt *)
    assert (R0 : 0 < bval dt / bval D <= 1). { split; [apply Rdiv_lt_0_compat; lra|]. apply Rmult_le_reg_r with (bval D); [lra|]. unfold Rdiv. rewrite Rmult_assoc, Rinv_l by lra. lra. }
    assert (K2 : Rabs (bval v * bval dt - bval a * (bval dt / bval D)) <= 2.2 * (u * M)).
    { replace (bval v * bval dt - bval a * (bval dt / bval D)) with ((bval v - bval a / bval D) * bval dt) by (field; lra). rewrite Rabs_mult, (Rabs_pos_eq (bval dt)) by lra.
      apply Rle_trans with ((u * Rabs (bval a / bval D) + eta) * bval dt); [apply Rmult_le_compat_r; lra|].
      replace ((u * Rabs (bval a / bval D) + eta) * bval dt) with (u * (Rabs (bval a) * (bval dt / bval D)) + eta * bval dt) by (unfold Rdiv; rewrite Rabs_mult, Rabs_inv, (Rabs_pos_eq (bval D)) by lra; ring).
      assert (eta * bval dt <= eta * p2 53) by (apply Rmult_le_compat_l; lra). assert (Rabs (bval a) * (bval dt / bval D) <= 2.1 * M * 1) by (apply Rmult_le_compat; try lra; apply Rabs_pos).
      assert (u * (Rabs (bval a) * (bval dt / bval D)) <= u * (2.1 * M)) by (apply Rmult_le_compat_l; lra). lra. }
    assert (K3 : Rabs (bval a * (bval dt / bval D) - (bval q - bval p) / bval D * bval dt) <= 2.1 * (u * M)).
    { replace (bval a * (bval dt / bval D) - (bval q - bval p) / bval D * bval dt) with ((bval a - (bval q - bval p)) * (bval dt / bval D)) by (field; lra).
      rewrite <- (Rmult_1_r (2.1 * (u * M))). apply abs_mul; auto. rewrite Rabs_pos_eq; lra. }
    assert (Ba' : Rabs (bval a * (bval dt / bval D)) <= 2.1 * M). { rewrite <- (Rmult_1_r (2.1 * M)). apply abs_mul; auto. rewrite Rabs_pos_eq; lra. }
    assert (Bv : Rabs (bval v * bval dt) <= 2.2 * M). { replace (bval v * bval dt) with ((bval v * bval dt - bval a * (bval dt / bval D)) + bval a * (bval dt / bval D)) by ring. eapply Rle_trans; [apply Rabs_triang|]. lra. }
    destruct (mul_near v dt F2 Fdt) as (F3 & N3 & _); [apply P900; lra|].  fold u eta in N3. set (w := SFmul 53 1024 v dt) in *.
    assert (K4 : Rabs (bval w - bval v * bval dt) <= 2.3 * (u * M)). { assert (u * Rabs (bval v * bval dt) <= u * (2.2 * M)) by (apply Rmult_le_compat_l; lra). lra. }
    set (d := (bval q - bval p) / bval D * bval dt) in *.
    assert (K5 : Rabs (bval w - d) <= 6.6 * (u * M)).
    { replace (bval w - d) with ((bval w - bval v * bval dt) + ((bval v * bval dt - bval a * (bval dt / bval D)) + (bval a * (bval dt / bval D) - d))) by ring.
      eapply Rle_trans; [apply Rabs_triang|]. eapply Rle_trans; [apply Rplus_le_compat_l, Rabs_triang|]. lra. }
    assert (K6 : Rabs (bval x + bval w - (X + d)) <= E + 6.6 * (u * M)). { replace (bval x + bval w - (X + d)) with ((bval x - X) + (bval w - d)) by ring. eapply Rle_trans; [apply Rabs_triang|]. lra. }
    assert (Bs : Rabs (bval x + bval w) <= 2.1 * M). { replace (bval x + bval w) with ((bval x + bval w - (X + d)) + (X + d)) by ring. eapply Rle_trans; [apply Rabs_triang|]. lra. }
    destruct (add_near x w Fx F3) as (F4 & N4 & _); [apply P900; lra|].  fold u eta in N4. fold x' in F4, N4. split; [exact F4|].
    replace (bval x' - (X + d)) with ((bval x' - (bval x + bval w)) + (bval x + bval w - (X + d))) by ring. eapply Rle_trans; [apply Rabs_triang|].
    assert (u * Rabs (bval x + bval w) <= u * (2.1 * M)) by (apply Rmult_le_compat_l; lra). lra.
  Qed.
End Step.
