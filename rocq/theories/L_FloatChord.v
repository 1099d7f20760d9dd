(** Lemmas for C143: the errors in Ellipse.line_intersection of obstacles/ellipse.py. *)
From Coq Require Import ZArith QArith Qreals Reals SpecFloat Bool Lia Lra List.
From Verif Require Import Num Spec L_Geom M_Cg L_Cg M_Motion M_Obstacle M_Ellipse M_Float S_Float L_Float L_FloatCmp L_FloatCg L_FloatDiv L_FloatNorm L_FloatGrid L_FloatEllipse L_FloatRel P_Float M_FloatEllipse P_FloatEllipse M_FloatChord.
Import ListNotations.
Local Open Scope R_scope.
Local Notation u := (p2 (-53)).


Section Sloped.
  Variables (a : pt b64) (m c : b64).
  Hypotheses (Fa : bfin_pt a) (Fm : bfin m) (Fc : bfin c).
  Let A0 := bval (fst a). Let A1 := bval (snd a). Let mu := bval m. Let ga := bval c.
  Hypotheses (H0 : p2 (-20) <= A0 <= p2 10) (H1 : p2 (-20) <= A1 <= p2 20) (Hm : Rabs mu <= p2 7) (Hc : Rabs ga <= p2 30).
  Let s0 := A0 * A0. Let s1 := A1 * A1. Let K := s0 * (mu * mu) + s1. Let hh := s0 * mu * ga / K.
  Let S := s0 * s1 * (K - ga * ga) / (K * K).

  Lemma sq_size x n : Rabs x <= p2 n -> 0 <= x * x <= p2 (n + n).
  Proof. intros H. rewrite p2_add. pose proof (Rabs_pos x). replace (x * x) with (Rabs x * Rabs x) by (rewrite <- Rabs_mult; apply Rabs_pos_eq; apply Rle_0_sqr). split; [apply Rmult_le_pos; lra|apply Rmult_le_compat; lra]. Qed.
  Lemma s0_size : p2 (-40) <= s0 <= p2 20.
  Proof. pose proof (p2_pos (-20)). unfold s0. split; [change (-40)%Z with (-20 + -20)%Z|change 20%Z with (10 + 10)%Z]; rewrite p2_add; apply Rmult_le_compat; lra. Qed.
  Lemma s1_size : p2 (-40) <= s1 <= p2 40.
  Proof. pose proof (p2_pos (-20)). unfold s1. split; [change (-40)%Z with (-20 + -20)%Z|change 40%Z with (20 + 20)%Z]; rewrite p2_add; apply Rmult_le_compat; lra. Qed.
  Lemma m2_size : 0 <= mu * mu <= p2 14. Proof. apply (sq_size mu 7), Hm. Qed.
  Lemma c2_size : 0 <= ga * ga <= p2 60. Proof. apply (sq_size ga 30), Hc. Qed.
  Lemma sm_size : 0 <= s0 * (mu * mu) <= p2 34.
  Proof. pose proof s0_size. pose proof m2_size. pose proof (p2_pos (-40)). change 34%Z with (20 + 14)%Z. rewrite p2_add. split; [apply Rmult_le_pos; lra|apply Rmult_le_compat; lra]. Qed.
  Lemma K_size : p2 (-40) <= K <= p2 41.
  Proof. pose proof sm_size. pose proof s1_size. assert (p2 34 <= p2 40) by (apply p2_le; lia). assert (p2 41 = 2 * p2 40) by apply (p2_S 40). unfold K. lra. Qed.

  Lemma s0_rel : rel 1.01 (-1057) (nsq (fst a)) s0.
  Proof. destruct Fa as (F & _). pose proof (p2_pos (-20)). assert (B : Rabs A0 <= p2 10) by (rewrite Rabs_pos_eq; lra). eapply rel_weak; [| |apply (rel_mul 0 0 (-1070) 10); try apply rel_exact; try exact F; try exact B; try lia; lra]; [lra|lia]. Qed.
  Lemma s1_rel : rel 1.01 (-1047) (nsq (snd a)) s1.
  Proof. destruct Fa as (_ & F). pose proof (p2_pos (-20)). assert (B : Rabs A1 <= p2 20) by (rewrite Rabs_pos_eq; lra). eapply rel_weak; [| |apply (rel_mul 0 0 (-1070) 20); try apply rel_exact; try exact F; try exact B; try lia; lra]; [lra|lia]. Qed.
  Lemma m2_rel : rel 1.01 (-1057) (nsq m) (mu * mu).
  Proof. eapply rel_weak; [| |apply (rel_mul 0 0 (-1070) 7); try apply rel_exact; try exact Fm; try exact Hm; try lia; lra]; [lra|lia]. Qed.
  Lemma c2_rel : rel 1.01 (-1032) (nsq c) (ga * ga).
  Proof. eapply rel_weak; [| |apply (rel_mul 0 0 (-1070) 30); try apply rel_exact; try exact Fc; try exact Hc; try lia; lra]; [lra|lia]. Qed.
  Lemma kx2_rel : rel 4.04 (-1032) (chord_kx2 a m) K.
  Proof.
    pose proof s0_size. pose proof m2_size. pose proof sm_size. pose proof s1_size. pose proof (p2_pos (-40)). assert (p2 14 <= p2 20) by (apply p2_le; lia). assert (p2 34 <= p2 800) by (apply p2_le; lia). assert (p2 40 <= p2 800) by (apply p2_le; lia).
    assert (P : rel 3.03 (-1034) (SFmul 53 1024 (nsq (fst a)) (nsq m)) (s0 * (mu * mu))).
    { eapply rel_weak; [| |apply (rel_mul 1.01 1.01 (-1057) 20 _ _ _ _ s0_rel m2_rel); try lia; try lra; rewrite Rabs_pos_eq; lra]; [lra|lia]. }
    eapply rel_weak; [| |apply (rel_add 3.03 (-1034) _ _ _ _ P); try lia; try lra; apply rel_weak with (k := 1.01) (n := (-1047)%Z); [lra|lia|exact s1_rel]]; [lra|lia].
  Qed.
  Lemma two_rel n : rel 0 n (@nlit b64 NumB 2) 2.
  Proof. rewrite <- two_val. apply rel_exact; [lra|vm_compute; reflexivity]. Qed.
  Lemma four_rel n : rel 0 n (@nlit b64 NumB 4) 4.
  Proof. assert (V : bval (@nlit b64 NumB 4) = 4). { assert (Q1 : Qeq (b64q (@nlit b64 NumB 4)) 4) by (vm_compute; reflexivity). rewrite b64q_R, (Qeq_eqR _ _ Q1). unfold Q2R. cbn. lra. } rewrite <- V. apply rel_exact; [lra|vm_compute; reflexivity]. Qed.
  Lemma p2_half n x : 0 <= x <= p2 n -> 0 <= 2 * x <= p2 (n + 1). Proof. rewrite p2_S. lra. Qed.
  Lemma kx_rel : rel 4.06 (-977) (chord_kx a m c) (2 * s0 * mu * ga) /\ Rabs (2 * s0 * mu * ga) <= p2 58.
  Proof.
    pose proof s0_size as B0. pose proof (p2_pos (-40)). assert (P2 : 2 <= p2 20) by (apply Rle_trans with (p2 1); [rewrite p2_Z by lia; change (2 ^ 1)%Z with 2%Z; lra|apply p2_le; lia]).
    assert (E1 : rel 2.02 (-1034) (SFmul 53 1024 (nlit 2) (nsq (fst a))) (2 * s0)).
    { eapply rel_weak; [| |apply (rel_mul 0 1.01 (-1057) 20 _ _ _ _ (two_rel _) s0_rel); try lia; try lra; rewrite Rabs_pos_eq; lra]; [lra|lia]. }
    assert (B1 : Rabs (2 * s0) <= p2 21) by (rewrite Rabs_pos_eq by lra; change 21%Z with (20 + 1)%Z; rewrite p2_S; lra).
    assert (E2 : rel 3.04 (-1010) (SFmul 53 1024 (SFmul 53 1024 (nlit 2) (nsq (fst a))) m) (2 * s0 * mu)).
    { eapply rel_weak; [| |apply (rel_mul 2.02 0 (-1034) 21 _ _ _ _ E1 (rel_exact 0 _ m (Rle_refl 0) Fm)); try lia; try lra; try exact B1; eapply Rle_trans; [exact Hm|apply p2_le; lia]]; [lra|lia]. }
    assert (B2 : Rabs (2 * s0 * mu) <= p2 28) by (rewrite Rabs_mult; change 28%Z with (21 + 7)%Z; rewrite p2_add; apply Rmult_le_compat; try apply Rabs_pos; [exact B1|exact Hm]).
    split; [|rewrite Rabs_mult; change 58%Z with (28 + 30)%Z; rewrite p2_add; apply Rmult_le_compat; try apply Rabs_pos; [exact B2|exact Hc]].
    eapply rel_weak; [| |apply (rel_mul 3.04 0 (-1010) 30 _ _ _ _ E2 (rel_exact 0 _ c (Rle_refl 0) Fc)); try lia; try lra; try exact Hc; eapply Rle_trans; [exact B2|apply p2_le; lia]]; [lra|lia].
  Qed.
  Lemma mid_rel : rel 10.2 (-900) (chord_mid a m c) (- hh).
  Proof.
    destruct kx_rel as (Ek & Bk). pose proof K_size as KS. pose proof (p2_pos (-40)). assert (P2 : 2 <= p2 41) by (apply Rle_trans with (p2 1); [rewrite p2_Z by lia; change (2 ^ 1)%Z with 2%Z; lra|apply p2_le; lia]).
    assert (E1 : rel 5.06 (-977) (SFmul 53 1024 (nlit 2) (chord_kx2 a m)) (2 * K)).
    { eapply rel_weak; [| |apply (rel_mul 0 4.04 (-1032) 41 _ _ _ _ (two_rel _) kx2_rel); try lia; try lra; rewrite Rabs_pos_eq; lra]; [lra|lia]. }
    assert (BL : p2 (- (58)) <= Rabs (2 * K)) by (rewrite Rabs_pos_eq by lra; assert (p2 (- (58)) <= p2 (-40)) by (apply p2_le; lia); lra).
    destruct (rel_div 4.06 5.06 (-977) 58 _ _ _ _ (rel_opp _ _ _ _ Ek) E1) as (D & _); try lia; try lra; [rewrite Rabs_Ropp; exact Bk|].
    replace (- hh) with (- (2 * s0 * mu * ga) / (2 * K)) by (unfold hh; field; lra). eapply rel_weak; [| |exact D]; [lra|lia].
  Qed.
  Lemma square_rel : rel 20.4 (-700) (SFdiv 53 1024 (nsq (chord_kx a m c)) (SFmul 53 1024 (nlit 4) (nsq (chord_kx2 a m)))) (hh * hh).
  Proof.
    destruct kx_rel as (Ek & Bk). pose proof K_size as KS. pose proof (p2_pos (-40)). assert (BK : Rabs K <= p2 41) by (rewrite Rabs_pos_eq; lra).
    assert (E1 : rel 9.13 (-903) (nsq (chord_kx a m c)) (2 * s0 * mu * ga * (2 * s0 * mu * ga))). { eapply rel_weak; [| |apply (rel_mul 4.06 4.06 (-977) 58 _ _ _ _ Ek Ek); try lia; try lra; exact Bk]; [lra|lia]. }
    assert (E2 : rel 9.09 (-988) (nsq (chord_kx2 a m)) (K * K)). { eapply rel_weak; [| |apply (rel_mul 4.04 4.04 (-1032) 41 _ _ _ _ kx2_rel kx2_rel); try lia; try lra; exact BK]; [lra|lia]. }
    assert (KK : p2 (-80) <= K * K <= p2 82). { split; [change (-80)%Z with (-40 + -40)%Z|change 82%Z with (41 + 41)%Z]; rewrite p2_add; apply Rmult_le_compat; lra. } pose proof (p2_pos (-80)).
    assert (P4 : 4 <= p2 82) by (apply Rle_trans with (p2 2); [rewrite p2_Z by lia; change (2 ^ 2)%Z with 4%Z; lra|apply p2_le; lia]).
    assert (E3 : rel 10.1 (-903) (SFmul 53 1024 (nlit 4) (nsq (chord_kx2 a m))) (4 * (K * K))). { eapply rel_weak; [| |apply (rel_mul 0 9.09 (-988) 82 _ _ _ _ (four_rel _) E2); try lia; try lra; rewrite Rabs_pos_eq; lra]; [lra|lia]. }
    assert (BL : p2 (- (116)) <= Rabs (4 * (K * K))) by (rewrite Rabs_pos_eq by lra; assert (p2 (- (116)) <= p2 (-80)) by (apply p2_le; lia); lra).
    destruct (rel_div 9.13 10.1 (-903) 116 _ _ _ _ E1 E3) as (D & _); try lia; try lra; [apply (sq_size _ 58) in Bk; change (58 + 58)%Z with 116%Z in Bk; rewrite Rabs_pos_eq; lra|].
    replace (hh * hh) with (2 * s0 * mu * ga * (2 * s0 * mu * ga) / (4 * (K * K))) by (unfold hh; field; lra). eapply rel_weak; [| |exact D]; [lra|lia].
  Qed.
  Lemma tinies : p2 (-700) <= u * s0 / 1000000 /\ p2 (-700) <= u * K / 1000000 /\ p2 (-700) <= u * A0 / 1000000 /\ p2 (-700) <= u * (s0 * K) / 1000000 /\ 0 < s0 /\ 0 < s1 /\ 0 < K /\ 0 < A0 /\ 0 < A1.
  Proof.
    pose proof u_small as (U0 & U1). pose proof s0_size as (B0 & _). pose proof s1_size as (B1 & _). pose proof K_size as (BK & _). pose proof (p2_pos (-40)) as P40. pose proof (p2_pos (-20)) as P20.
    assert (G : forall x, p2 (-80) <= x -> p2 (-700) <= u * x / 1000000).
    { intros x Hx. apply Rle_trans with (u * p2 (-80) * p2 (- (20))); [rewrite <- !p2_add; apply p2_le; lia|]. unfold Rdiv. assert (p2 (- (20)) <= / 1000000) by (rewrite p2_inv, p2_Z by lia; change (2 ^ 20)%Z with 1048576%Z; lra). assert (0 < p2 (- (20))) by apply p2_pos. apply Rmult_le_compat; try lra; [apply Rmult_le_pos; [lra|left; apply p2_pos]|apply Rmult_le_compat_l; lra]. }
    assert (p2 (-80) <= p2 (-40)) by (apply p2_le; lia). assert (p2 (-80) <= p2 (-20)) by (apply p2_le; lia). assert (p2 (-80) <= s0 * K) by (change (-80)%Z with (-40 + -40)%Z; rewrite p2_add; apply Rmult_le_compat; lra).
    repeat split; try apply G; lra.
  Qed.
  Lemma kx2_val : bfin (chord_kx2 a m) /\ Rabs (bval (chord_kx2 a m) - K) <= 4.05 * (u * K).
  Proof. destruct kx2_rel as (F & E). split; [exact F|]. destruct tinies as (_ & T & _ & _ & _ & _ & K0 & _). assert (p2 (-1032) <= p2 (-700)) by (apply p2_le; lia). rewrite (Rabs_pos_eq K) in E by lra. pose proof (p2_pos (-700)). lra. Qed.
  Lemma disc_near : bfin (chord_disc a m c) /\ (0 <= bval (chord_disc a m c) -> ga * ga <= K + 5.1 * (u * K)) /\ (bval (chord_disc a m c) <= 0 -> K - 5.1 * (u * K) <= ga * ga).
  Proof.
    destruct kx2_val as (Fk & Ek). destruct c2_rel as (Fc2 & Ec). pose proof u_small as (U0 & U1). pose proof c2_size as (G0 & G1). pose proof K_size as (_ & KB). destruct tinies as (_ & T & _ & _ & _ & _ & K0 & _). set (G := ga * ga) in *. rewrite (Rabs_pos_eq G) in Ec by lra.
    assert (T1 : p2 (-1032) <= p2 (-700)) by (apply p2_le; lia). assert (T2 : p2 (-1075) <= p2 (-700)) by (apply p2_le; lia). unfold chord_disc. cbn [nsub NumB]. set (k := bval (chord_kx2 a m)) in *. set (d := bval (nsq c)) in *.
    assert (UK : u * K <= 1 / 1000000000000000 * K) by (apply Rmult_le_compat_r; lra). assert (UG : u * G <= 1 / 1000000000000000 * G) by (apply Rmult_le_compat_r; lra). assert (UKp : 0 < u * K) by (apply Rmult_lt_0_compat; lra). assert (UUK : u * (u * K) <= 1 / 1000000000000000 * (u * K)) by (apply Rmult_le_compat_r; lra).
    apply L_FloatEllipse.Rabs_le_inv in Ek. apply L_FloatEllipse.Rabs_le_inv in Ec. assert (P41 : p2 41 <= p2 60) by (apply p2_le; lia). assert (P60 : 1 <= p2 60) by (rewrite <- p2_0; apply p2_le; lia). assert (P7 : p2 (-700) <= 1) by (rewrite <- p2_0; apply p2_le; lia).
    destruct (sub_near (chord_kx2 a m) (nsq c) Fk Fc2) as (Fd & Ed & _).
    { fold k d. apply Rle_trans with (4 * p2 60); [apply Rabs_le; lra|]. replace (4 * p2 60) with (p2 62) by (change 62%Z with (2 + 60)%Z; rewrite p2_add; change (p2 2) with (2 * (2 * 1)); ring). apply p2_le; lia. }
    fold k d in Ed. set (D := k - d) in *. split; [exact Fd|]. set (z := bval (SFsub 53 1024 (chord_kx2 a m) (nsq c))) in *. apply L_FloatEllipse.Rabs_le_inv in Ed. split; intros Z.
    - assert (D1 : - (1.1 * p2 (-700)) <= D). { destruct (Rle_lt_dec 0 D) as [C|C]; [pose proof (p2_pos (-700)); lra|]. rewrite Rabs_left in Ed by exact C. assert (u * - D <= 1 / 1000000000000000 * - D) by (apply Rmult_le_compat_r; lra). lra. }
      destruct (Rle_lt_dec G (K + 5.1 * (u * K))) as [C|C]; [exact C|]. exfalso. assert (M : (K + 5.1 * (u * K)) * (1 - 1.01 * u) < G * (1 - 1.01 * u)) by (apply Rmult_lt_compat_r; lra).
      replace ((K + 5.1 * (u * K)) * (1 - 1.01 * u)) with (K + 5.1 * (u * K) - 1.01 * (u * K) - 5.1 * 1.01 * (u * (u * K))) in M by field. replace (G * (1 - 1.01 * u)) with (G - 1.01 * (u * G)) in M by field. unfold D in D1. lra.
    - assert (D1 : D <= 1.1 * p2 (-700)). { destruct (Rle_lt_dec D 0) as [C|C]; [pose proof (p2_pos (-700)); lra|]. rewrite Rabs_pos_eq in Ed by lra. assert (u * D <= 1 / 1000000000000000 * D) by (apply Rmult_le_compat_r; lra). lra. }
      destruct (Rle_lt_dec (K - 5.1 * (u * K)) G) as [C|C]; [exact C|]. exfalso. assert (u * G <= u * K) by (apply Rmult_le_compat_l; lra). unfold D in D1. lra.
  Qed.
  Hypothesis HG : ga * ga <= K + 5.1 * (u * K).
  Lemma HG' : ga * ga <= 1.000001 * K.
  Proof. pose proof u_small as (U0 & U1). destruct tinies as (_ & _ & _ & _ & _ & _ & K0 & _). assert (u * K <= 1 / 1000000000000000 * K) by (apply Rmult_le_compat_r; lra). lra. Qed.
  Lemma abs_of_sq x b : 0 <= b -> x * x <= b * b -> Rabs x <= b.
  Proof. intros B H. destruct (Rle_lt_dec (Rabs x) b) as [C|C]; [exact C|]. exfalso. assert (E : Rabs x * Rabs x = x * x) by (rewrite <- Rabs_mult; apply Rabs_pos_eq, Rle_0_sqr). assert (b * b <= b * Rabs x) by (apply Rmult_le_compat_l; lra). assert (b * Rabs x < Rabs x * Rabs x) by (apply Rmult_lt_compat_r; lra). lra. Qed.
  Lemma hh_size : hh * hh <= 1.000001 * s0 /\ Rabs hh <= 1.000001 * A0.
  Proof.
    destruct tinies as (_ & _ & _ & _ & S0 & S1 & K0 & A0p & _). pose proof HG' as G1. pose proof c2_size as (G0 & _). pose proof sm_size as (M0 & _). assert (MK : s0 * (mu * mu) <= K) by (unfold K; lra).
    assert (E : hh * hh * (K * K) = s0 * (s0 * (mu * mu) * (ga * ga))) by (unfold hh; field; lra). assert (KK : 0 < K * K) by (apply Rmult_lt_0_compat; lra).
    assert (B : hh * hh <= 1.000001 * s0). { apply Rmult_le_reg_r with (K * K); [exact KK|]. rewrite E. apply Rle_trans with (s0 * (K * (1.000001 * K))); [apply Rmult_le_compat_l; [lra|apply Rmult_le_compat; lra]|right; ring]. }
    split; [exact B|]. apply abs_of_sq; [lra|]. eapply Rle_trans; [exact B|]. unfold s0. assert (0 < A0 * A0) by (apply Rmult_lt_0_compat; lra). replace (1.000001 * A0 * (1.000001 * A0)) with (1.000001 * 1.000001 * (A0 * A0)) by ring. lra.
  Qed.
  Let V := s0 * (ga * ga - s1) / K.
  Lemma S_val : hh * hh - V = S. Proof. destruct tinies as (_ & _ & _ & _ & S0 & S1 & K0 & _). unfold V, S, hh. assert (E : K = s0 * (mu * mu) + s1) by reflexivity. apply Rmult_eq_reg_r with (K * K); [|apply Rmult_integral_contrapositive_currified; lra]. replace ((s0 * mu * ga / K * (s0 * mu * ga / K) - s0 * (ga * ga - s1) / K) * (K * K)) with (s0 * (s0 * (mu * mu) * (ga * ga) - (ga * ga - s1) * K)) by (field; lra). replace (s0 * s1 * (K - ga * ga) / (K * K) * (K * K)) with (s0 * s1 * (K - ga * ga)) by (field; lra). rewrite E. ring. Qed.
  Lemma S_size : - (5.1 * (u * s0)) <= S <= s0.
  Proof.
    destruct tinies as (_ & _ & _ & _ & S0 & S1 & K0 & _). pose proof u_small as (U0 & U1). pose proof c2_size as (G0 & _). pose proof sm_size as (M0 & _). assert (MK : s1 <= K) by (unfold K; lra). assert (KK : 0 < K * K) by (apply Rmult_lt_0_compat; lra).
    assert (ES : S * (K * K) = s0 * (s1 * (K - ga * ga))) by (unfold S; field; lra). assert (UK : 0 <= u * K) by (apply Rmult_le_pos; lra).
    split; apply Rmult_le_reg_r with (K * K); try exact KK; rewrite ES.
    - replace (- (5.1 * (u * s0)) * (K * K)) with (s0 * (- (K * (5.1 * (u * K))))) by ring. apply Rmult_le_compat_l; [lra|]. apply Rle_trans with (s1 * (- (5.1 * (u * K)))); [|apply Rmult_le_compat_l; lra]. replace (s1 * - (5.1 * (u * K))) with (- (s1 * (5.1 * (u * K)))) by ring. apply Ropp_le_contravar. apply Rmult_le_compat_r; lra.
    - apply Rmult_le_compat_l; [lra|]. apply Rle_trans with (s1 * K); [apply Rmult_le_compat_l; lra|apply Rmult_le_compat_r; lra].
  Qed.
  Lemma k1_val : bfin (chord_k1 a c) /\ Rabs (bval (chord_k1 a c) - s0 * (ga * ga - s1)) <= 5.3 * (u * (s0 * K)).
  Proof.
    destruct tinies as (TS & TK & _ & TSK & S0 & S1 & K0 & _). pose proof u_small as (U0 & U1). pose proof c2_size as (G0 & G1). pose proof sm_size as (M0 & _). assert (MK : s1 <= K) by (unfold K; lra). pose proof HG' as G2. destruct c2_rel as (Fc2 & Ec). destruct s1_rel as (Fs & Es). destruct s0_rel as (F0 & E0). pose proof K_size as (_ & KB). pose proof s0_size as (_ & SB).
    set (G := ga * ga) in *. rewrite (Rabs_pos_eq G) in Ec by lra. rewrite (Rabs_pos_eq s1) in Es by lra. rewrite (Rabs_pos_eq s0) in E0 by lra. assert (T1 : p2 (-1032) <= p2 (-700)) by (apply p2_le; lia). assert (T2 : p2 (-1075) <= p2 (-700)) by (apply p2_le; lia). assert (T3 : p2 (-1047) <= p2 (-700)) by (apply p2_le; lia). assert (T4 : p2 (-1057) <= p2 (-700)) by (apply p2_le; lia).
    assert (UG : u * G <= 1.000001 * (u * K)) by (replace (1.000001 * (u * K)) with (u * (1.000001 * K)) by ring; apply Rmult_le_compat_l; lra). assert (US : u * s1 <= u * K) by (apply Rmult_le_compat_l; lra). assert (UK : u * K <= 1 / 1000000000000000 * K) by (apply Rmult_le_compat_r; lra). assert (UKp : 0 < u * K) by (apply Rmult_lt_0_compat; lra).
    assert (GS : Rabs (G - s1) <= 1.000001 * K) by (apply Rabs_le; lra).
    assert (D1 : Rabs (bval (nsq c) - bval (nsq (snd a)) - (G - s1)) <= 2.03 * (u * K)). { replace (bval (nsq c) - bval (nsq (snd a)) - (G - s1)) with ((bval (nsq c) - G) - (bval (nsq (snd a)) - s1)) by ring. pose proof (abs_dif _ _ _ _ Ec Es). lra. }
    assert (D2 : Rabs (bval (nsq c) - bval (nsq (snd a))) <= 1.0001 * K). { replace (bval (nsq c) - bval (nsq (snd a))) with ((G - s1) + (bval (nsq c) - bval (nsq (snd a)) - (G - s1))) by ring. eapply Rle_trans; [apply Rabs_triang|]. lra. }
    assert (P9 : 2 * p2 61 <= p2 900) by (replace (2 * p2 61) with (p2 62) by (apply (p2_S 61)); apply p2_le; lia). assert (P41 : p2 41 <= p2 61) by (apply p2_le; lia). assert (P61 : p2 61 = p2 20 * p2 41) by (rewrite <- p2_add; reflexivity).
    destruct (sub_near (nsq c) (nsq (snd a)) Fc2 Fs) as (Fw & Ew & _); [lra|]. set (w := SFsub 53 1024 (nsq c) (nsq (snd a))) in *.
    assert (Dw : Rabs (bval w - (G - s1)) <= 3.05 * (u * K)). { replace (bval w - (G - s1)) with ((bval w - (bval (nsq c) - bval (nsq (snd a)))) + (bval (nsq c) - bval (nsq (snd a)) - (G - s1))) by ring. eapply Rle_trans; [apply Rabs_triang|]. assert (u * Rabs (bval (nsq c) - bval (nsq (snd a))) <= u * (1.0001 * K)) by (apply Rmult_le_compat_l; lra). lra. }
    assert (US0 : 0 < u * s0) by (apply Rmult_lt_0_compat; lra). assert (D0 : Rabs (bval (nsq (fst a)) - s0) <= 1.02 * (u * s0)) by lra. assert (US1 : u * s0 <= 1 / 1000000000000000 * s0) by (apply Rmult_le_compat_r; lra). assert (UP : 0 < u * (s0 * K)) by (apply Rmult_lt_0_compat; [lra|apply Rmult_lt_0_compat; lra]).
    assert (Bw : Rabs (bval w) <= 1.0001 * K). { replace (bval w) with ((G - s1) + (bval w - (G - s1))) by ring. eapply Rle_trans; [apply Rabs_triang|]. lra. }
    assert (DP : Rabs (bval (nsq (fst a)) * bval w - s0 * (G - s1)) <= 4.1 * (u * (s0 * K))).
    { replace (bval (nsq (fst a)) * bval w - s0 * (G - s1)) with (s0 * (bval w - (G - s1)) + (bval (nsq (fst a)) - s0) * bval w) by ring. eapply Rle_trans; [apply Rabs_triang|]. pose proof (abs_mul _ _ _ _ D0 Bw) as Q1. assert (Q2 : Rabs (s0 * (bval w - (G - s1))) <= s0 * (3.05 * (u * K))) by (rewrite Rabs_mult, (Rabs_pos_eq s0) by lra; apply Rmult_le_compat_l; lra). replace (s0 * (3.05 * (u * K))) with (3.05 * (u * (s0 * K))) in Q2 by ring. replace (1.02 * (u * s0) * (1.0001 * K)) with (1.02 * 1.0001 * (u * (s0 * K))) in Q1 by ring. lra. }
    assert (BP : Rabs (s0 * (G - s1)) <= 1.000001 * (s0 * K)) by (rewrite Rabs_mult, (Rabs_pos_eq s0) by lra; replace (1.000001 * (s0 * K)) with (s0 * (1.000001 * K)) by ring; apply Rmult_le_compat_l; lra).
    assert (UPS : u * (s0 * K) <= 1 / 1000000000000000 * (s0 * K)) by (apply Rmult_le_compat_r; [left; apply Rmult_lt_0_compat; lra|lra]). assert (BQ : Rabs (bval (nsq (fst a)) * bval w) <= 1.0001 * (s0 * K)). { replace (bval (nsq (fst a)) * bval w) with (s0 * (G - s1) + (bval (nsq (fst a)) * bval w - s0 * (G - s1))) by ring. eapply Rle_trans; [apply Rabs_triang|]. lra. }
    assert (SK : s0 * K <= p2 61) by (rewrite P61; apply Rmult_le_compat; lra).
    destruct (mul_near (nsq (fst a)) w F0 Fw) as (Fk & Ek & _); [lra|]. change (chord_k1 a c) with (SFmul 53 1024 (nsq (fst a)) w). split; [exact Fk|]. assert (UQ : u * Rabs (bval (nsq (fst a)) * bval w) <= u * (1.0001 * (s0 * K))) by (apply Rmult_le_compat_l; lra).
    replace (bval (SFmul 53 1024 (nsq (fst a)) w) - s0 * (G - s1)) with ((bval (SFmul 53 1024 (nsq (fst a)) w) - bval (nsq (fst a)) * bval w) + (bval (nsq (fst a)) * bval w - s0 * (G - s1))) by ring. eapply Rle_trans; [apply Rabs_triang|]. lra.
  Qed.
  Lemma V_size : Rabs V <= 1.000001 * s0.
  Proof.
    destruct tinies as (_ & _ & _ & _ & S0 & S1 & K0 & _). pose proof c2_size as (G0 & _). pose proof sm_size as (M0 & _). assert (MK : s1 <= K) by (unfold K; lra). pose proof HG' as G2. unfold V, Rdiv. rewrite Rabs_mult, (Rabs_pos_eq (/ K)) by (left; apply Rinv_0_lt_compat; lra).
    apply Rmult_le_reg_r with K; [lra|]. rewrite Rmult_assoc, Rinv_l, Rmult_1_r by lra. rewrite Rabs_mult, (Rabs_pos_eq s0) by lra. replace (1.000001 * s0 * K) with (s0 * (1.000001 * K)) by ring. apply Rmult_le_compat_l; [lra|]. apply Rabs_le. lra.
  Qed.
  Lemma quot_val : let q := SFdiv 53 1024 (chord_k1 a c) (chord_kx2 a m) in bfin q /\ Rabs (bval q - V) <= 10.5 * (u * s0).
  Proof.
    destruct tinies as (TS & TK & _ & TSK & S0 & S1 & K0 & _). pose proof u_small as (U0 & U1). destruct k1_val as (Fk & Ek). destruct kx2_val as (F2 & E2). pose proof V_size as BV. pose proof s0_size as (_ & SB). set (g := bval (chord_k1 a c)) in *. set (k := bval (chord_kx2 a m)) in *. intros q.
    assert (UK : u * K <= 1 / 1000000000000000 * K) by (apply Rmult_le_compat_r; lra). pose proof (L_FloatEllipse.Rabs_le_inv _ _ E2) as E2'. assert (k0 : 0.9999 * K <= k) by lra. assert (US0 : 0 < u * s0) by (apply Rmult_lt_0_compat; lra). assert (US1 : u * s0 <= 1 / 1000000000000000 * s0) by (apply Rmult_le_compat_r; lra).
    assert (EV : V * K = s0 * (ga * ga - s1)) by (unfold V; field; lra).
    assert (D : Rabs (g / k - V) <= 9.37 * (u * s0)).
    { replace (g / k - V) with ((g - V * k) * / k) by (field; lra). rewrite Rabs_mult, (Rabs_pos_eq (/ k)) by (left; apply Rinv_0_lt_compat; lra). apply Rmult_le_reg_r with k; [lra|]. rewrite Rmult_assoc, Rinv_l, Rmult_1_r by lra.
      replace (g - V * k) with ((g - s0 * (ga * ga - s1)) - V * (k - K)) by (rewrite <- EV; ring). assert (Q1 : Rabs (V * (k - K)) <= 1.000001 * s0 * (4.05 * (u * K))) by (apply abs_mul; assumption). pose proof (abs_dif _ _ _ _ Ek Q1) as Q2. eapply Rle_trans; [exact Q2|].
      apply Rle_trans with (9.37 * (u * s0) * (0.9999 * K)); [|apply Rmult_le_compat_l; lra]. assert (P : 0 < u * (s0 * K)) by (apply Rmult_lt_0_compat; [lra|apply Rmult_lt_0_compat; lra]). replace (1.000001 * s0 * (4.05 * (u * K))) with (1.000001 * 4.05 * (u * (s0 * K))) by ring. replace (9.37 * (u * s0) * (0.9999 * K)) with (9.37 * 0.9999 * (u * (s0 * K))) by ring. lra. }
    assert (BQ : Rabs (g / k) <= 1.0001 * s0). { replace (g / k) with (V + (g / k - V)) by ring. eapply Rle_trans; [apply Rabs_triang|]. lra. }
    assert (P9 : 2 * p2 20 <= p2 900) by (replace (2 * p2 20) with (p2 21) by (apply (p2_S 20)); apply p2_le; lia).
    destruct (div_near (chord_k1 a c) (chord_kx2 a m) Fk F2) as (Fq & Eq & _); [fold k; lra|fold g k; lra|]. fold q in Fq, Eq. fold g k in Eq. split; [exact Fq|]. assert (UQ : u * Rabs (g / k) <= u * (1.0001 * s0)) by (apply Rmult_le_compat_l; lra). assert (T2 : p2 (-1075) <= p2 (-700)) by (apply p2_le; lia).
    replace (bval q - V) with ((bval q - g / k) + (g / k - V)) by ring. eapply Rle_trans; [apply Rabs_triang|]. lra.
  Qed.
  Let vnum := SFsub 53 1024 (SFdiv 53 1024 (nsq (chord_kx a m c)) (SFmul 53 1024 (nlit 4) (nsq (chord_kx2 a m)))) (SFdiv 53 1024 (chord_k1 a c) (chord_kx2 a m)).
  Lemma v_val : bfin vnum /\ Rabs (bval vnum - S) <= 32.1 * (u * s0).
  Proof.
    destruct tinies as (TS & _ & _ & _ & S0 & S1 & K0 & _). pose proof u_small as (U0 & U1). destruct quot_val as (Fq & Eq). destruct square_rel as (Ft & Et). destruct hh_size as (HS & _). pose proof S_size as SS. pose proof S_val as SV. pose proof s0_size as (_ & SB). unfold vnum.
    set (q := SFdiv 53 1024 (chord_k1 a c) (chord_kx2 a m)) in *. set (t := SFdiv 53 1024 (nsq (chord_kx a m c)) _) in *. rewrite (Rabs_pos_eq (hh * hh)) in Et by apply Rle_0_sqr. assert (US0 : 0 < u * s0) by (apply Rmult_lt_0_compat; lra). assert (US1 : u * s0 <= 1 / 1000000000000000 * s0) by (apply Rmult_le_compat_r; lra).
    assert (UH : u * (hh * hh) <= u * (1.000001 * s0)) by (apply Rmult_le_compat_l; lra). assert (Et' : Rabs (bval t - hh * hh) <= 20.45 * (u * s0)) by lra.
    assert (D : Rabs (bval t - bval q - S) <= 30.95 * (u * s0)). { rewrite <- SV. replace (bval t - bval q - (hh * hh - V)) with ((bval t - hh * hh) - (bval q - V)) by ring. pose proof (abs_dif _ _ _ _ Et' Eq). lra. }
    assert (B : Rabs (bval t - bval q) <= 1.0001 * s0). { replace (bval t - bval q) with (S + (bval t - bval q - S)) by ring. eapply Rle_trans; [apply Rabs_triang|]. assert (Rabs S <= s0) by (apply Rabs_le; lra). lra. }
    assert (P9 : 2 * p2 20 <= p2 900) by (replace (2 * p2 20) with (p2 21) by (apply (p2_S 20)); apply p2_le; lia).
    destruct (sub_near t q Ft Fq) as (Fv & Ev & _); [lra|]. split; [exact Fv|]. assert (UQ : u * Rabs (bval t - bval q) <= u * (1.0001 * s0)) by (apply Rmult_le_compat_l; lra). assert (T2 : p2 (-1075) <= p2 (-700)) by (apply p2_le; lia).
    replace (bval (SFsub 53 1024 t q) - S) with ((bval (SFsub 53 1024 t q) - (bval t - bval q)) + (bval t - bval q - S)) by ring. eapply Rle_trans; [apply Rabs_triang|]. lra.
  Qed.
  Lemma us0_small : u * s0 <= 0.00000000011642.
  Proof. pose proof s0_size as (_ & B). pose proof u_small as (U0 & _). apply Rle_trans with (u * p2 20); [apply Rmult_le_compat_l; lra|]. rewrite <- p2_add. change (-53 + 20)%Z with (- (33))%Z. rewrite p2_inv, p2_Z by lia. change (2 ^ 33)%Z with 8589934592%Z. lra. Qed.
  (** the argument of the square root: never negative, and exact up to 33 roundings of the squared axis unless it is taken for 0 *)
  Lemma sqrt_arg : let z := chord_in_sqrt a m c in bfin z /\ 0 <= bval z <= 1.0001 * s0 /\ Rabs (bval z - S) <= 33 * (u * s0) + 1.000001 / 100000000 /\ (1.5 / 100000000 <= S -> Rabs (bval z - S) <= 33 * (u * s0)).
  Proof.
    destruct v_val as (Fv & Ev). pose proof us0_small as US. pose proof S_size as SS. destruct tinies as (_ & _ & _ & _ & S0 & _). pose proof u_small as (U0 & U1). pose proof s0_size as (_ & SB). assert (US0 : 0 < u * s0) by (apply Rmult_lt_0_compat; lra). assert (US1 : u * s0 <= 1 / 1000000000000000 * s0) by (apply Rmult_le_compat_r; lra). pose proof (L_FloatEllipse.Rabs_le_inv _ _ Ev) as Ev'.
    assert (P9 : 2 * p2 20 <= p2 899) by (replace (2 * p2 20) with (p2 21) by (apply (p2_S 20)); apply p2_le; lia).
    destruct (boundary_close vnum Fv) as (B1 & B2); [apply Rabs_le; lra|]. change (chord_in_sqrt a m c) with (if isclose_num vnum n0 (nlit (1 # 100000)) (nlit (1 # 100000000)) then n0 else vnum).
    intros z. unfold z. clear z. clearbody vnum. destruct (isclose_num vnum n0 (nlit (1 # 100000)) (nlit (1 # 100000000))) eqn:EC.
    - assert (C : Rabs (bval vnum) < 1.00000095 * (1 / 100000000)). { destruct (Rlt_le_dec (Rabs (bval vnum)) (1.00000095 * (1 / 100000000))) as [C|C]; [exact C|]. specialize (B2 C). pose proof (eq_trans (eq_sym EC) B2) as XX. discriminate XX. }
      match goal with |- bfin ?z /\ _ => change z with (S754_zero false) end. cbn [bfin bval]. split; [exact I|]. split; [lra|]. apply Rlt_le, L_FloatEllipse.Rabs_le_inv in C. split; [apply Rabs_le; lra|intros; exfalso; lra].
    - assert (C : 0.99999905 * (1 / 100000000) < Rabs (bval vnum)). { destruct (Rlt_le_dec (0.99999905 * (1 / 100000000)) (Rabs (bval vnum))) as [C|C]; [exact C|]. specialize (B1 C). pose proof (eq_trans (eq_sym EC) B1) as XX. discriminate XX. }
      assert (V0 : 0 <= bval vnum). { destruct (Rle_lt_dec 0 (bval vnum)) as [N|N]; [exact N|]. rewrite Rabs_left in C by exact N. exfalso. lra. }
      split; [exact Fv|]. split; [lra|]. split; [lra|intros; lra].
  Qed.
  (** a point over an x near - hh + r, r being a square root *)
  Lemma point_err (x : b64) r E : bfin x -> Rabs r <= 1.0001 * A0 -> Rabs (bval x - (- hh + r)) <= 13.4 * (u * A0) -> Rabs (r * r - S) <= 33 * (u * s0) + E -> 0 <= E ->
    let p := chord_point m c x in (bfin_pt p /\ Rabs (bval (fst p)) <= 2.001 * A0) /\ Rabs (bval (snd p) - (mu * bval (fst p) + ga)) <= 5.2 * (u * sqrt K) /\ Rabs (ell_loc (bpt a) (bpt p)) <= (92 * u + E / s0) * (K / s1).
  Proof.
    intros Fx Br Ex Er E0 p. destruct tinies as (_ & TK & TA & _ & S0 & S1 & K0 & A0p & A1p). pose proof u_small as (U0 & U1). destruct hh_size as (_ & HB). pose proof HG' as G2. pose proof (sqrt_sqrt K (Rlt_le _ _ K0)) as QQ. pose proof (sqrt_lt_R0 K K0) as Q0. set (q := sqrt K) in *.
    assert (UA : 0 < u * A0) by (apply Rmult_lt_0_compat; lra). assert (UA1 : u * A0 <= 1 / 1000000000000000 * A0) by (apply Rmult_le_compat_r; lra). set (X := bval x) in *.
    assert (BX : Rabs X <= 2.001 * A0). { replace X with ((- hh + r) + (X - (- hh + r))) by ring. eapply Rle_trans; [apply Rabs_triang|]. assert (Rabs (- hh + r) <= 1.000001 * A0 + 1.0001 * A0) by (eapply Rle_trans; [apply Rabs_triang|]; rewrite Rabs_Ropp; lra). lra. }
    assert (Bm : Rabs (mu * A0) <= q). { apply abs_of_sq; [lra|]. rewrite QQ. replace (mu * A0 * (mu * A0)) with (s0 * (mu * mu)) by (unfold s0; ring). unfold K. lra. }
    assert (Bc : Rabs ga <= 1.000001 * q). { apply abs_of_sq; [lra|]. replace (1.000001 * q * (1.000001 * q)) with (1.000001 * 1.000001 * (q * q)) by ring. rewrite QQ. lra. }
    assert (BmX : Rabs (mu * X) <= 2.001 * q). { rewrite Rabs_mult. rewrite Rabs_mult, (Rabs_pos_eq A0) in Bm by lra. apply Rle_trans with (Rabs mu * (2.001 * A0)); [apply Rmult_le_compat_l; [apply Rabs_pos|exact BX]|]. replace (Rabs mu * (2.001 * A0)) with (2.001 * (Rabs mu * A0)) by ring. lra. }
    assert (qB : p2 (-20) <= q <= p2 21). { pose proof K_size as (KL & KU). split.
      - destruct (Rle_lt_dec (p2 (-20)) q) as [C|C]; [exact C|]. exfalso. assert (q * q < p2 (-20) * p2 (-20)) by (apply Rmult_le_0_lt_compat; lra). rewrite QQ, <- p2_add in H. change (-20 + -20)%Z with (-40)%Z in H. lra.
      - destruct (Rle_lt_dec q (p2 21)) as [C|C]; [exact C|]. exfalso. pose proof (p2_pos 21). assert (p2 21 * p2 21 < q * q) by (apply Rmult_le_0_lt_compat; lra). rewrite QQ, <- p2_add in H2. change (21 + 21)%Z with 42%Z in H2. assert (p2 41 <= p2 42) by (apply p2_le; lia). lra. }
    assert (Tq : p2 (-1075) <= u * q / 1000000). { apply Rle_trans with (u * p2 (-20) * p2 (- (20))); [rewrite <- !p2_add; apply p2_le; lia|]. unfold Rdiv. assert (p2 (- (20)) <= / 1000000) by (rewrite p2_inv, p2_Z by lia; change (2 ^ 20)%Z with 1048576%Z; lra). pose proof (p2_pos (- (20))). pose proof (p2_pos (-20)). apply Rmult_le_compat; try lra; [apply Rmult_le_pos; lra|apply Rmult_le_compat_l; lra]. }
    assert (Uq : 0 < u * q) by (apply Rmult_lt_0_compat; lra). assert (Uq1 : u * q <= 1 / 1000000000000000 * q) by (apply Rmult_le_compat_r; lra). assert (P9 : 4 * p2 21 <= p2 900) by (replace (4 * p2 21) with (p2 23) by (change 23%Z with (2 + 21)%Z; rewrite p2_add; change (p2 2) with (2 * (2 * 1)); ring); apply p2_le; lia).
    destruct (mul_near m x Fm Fx) as (Ft & Et & _); [fold mu X; lra|]. fold mu X in Et. set (t := SFmul 53 1024 m x) in *. assert (Et' : Rabs (bval t - mu * X) <= 2.002 * (u * q)) by (assert (u * Rabs (mu * X) <= u * (2.001 * q)) by (apply Rmult_le_compat_l; lra); lra).
    set (z := mu * X + ga). assert (Bz : Rabs z <= 3.0011 * q) by (unfold z; eapply Rle_trans; [apply Rabs_triang|]; lra).
    assert (Bs : Rabs (bval t + ga) <= 3.0012 * q). { replace (bval t + ga) with (z + (bval t - mu * X)) by (unfold z; ring). eapply Rle_trans; [apply Rabs_triang|]. lra. }
    destruct (add_near t c Ft Fc) as (Fy & Ey & _); [fold ga; lra|]. fold ga in Ey. assert (Ep : p = (x, SFadd 53 1024 t c)) by reflexivity. set (y := SFadd 53 1024 t c) in *. rewrite Ep. cbn [fst snd].
    assert (Dy : Rabs (bval y - z) <= 5.1 * (u * q)). { replace (bval y - z) with ((bval y - (bval t + ga)) + (bval t - mu * X)) by (unfold z; ring). eapply Rle_trans; [apply Rabs_triang|]. assert (u * Rabs (bval t + ga) <= u * (3.0012 * q)) by (apply Rmult_le_compat_l; lra). lra. }
    split; [split; [split; [exact Fx|exact Fy]|fold X; exact BX]|]. split; [fold X z; lra|].
    set (f := bval y - z) in *. set (e := X - (- hh + r)) in *. assert (EX : X + hh = r + e) by (unfold e; ring).
    assert (EF : ell_loc (bpt a) (bpt (x, y)) = (K * (r * r - S + 2 * (e * r) + e * e) + s0 * (2 * (z * f) + f * f)) / (s0 * s1)).
    { unfold ell_loc, bpt. cbn [fst snd]. fold A0 A1 X. replace (bval y) with (z + f) by (unfold f; ring). assert (E1 : K * (r * r - S + 2 * (e * r) + e * e) = s1 * (X * X) + s0 * (z * z) - s0 * s1).
      { replace (r * r - S + 2 * (e * r) + e * e) with ((X + hh) * (X + hh) - (hh * hh - V)) by (rewrite EX, S_val; ring). assert (EK : K * hh = s0 * mu * ga) by (unfold hh; field; lra). assert (EV : K * V = s0 * (ga * ga - s1)) by (unfold V; field; lra).
        replace (K * ((X + hh) * (X + hh) - (hh * hh - V))) with (K * (X * X) + 2 * (K * hh) * X + K * V) by ring. rewrite EK, EV. unfold z, K. ring. }
      rewrite E1. unfold s0, s1. field. split; lra. }
    rewrite EF. unfold Rdiv at 1. assert (SP : 0 < s0 * s1) by (apply Rmult_lt_0_compat; lra). rewrite Rabs_mult, (Rabs_pos_eq (/ (s0 * s1))) by (left; apply Rinv_0_lt_compat; lra). apply Rmult_le_reg_r with (s0 * s1); [exact SP|]. rewrite Rmult_assoc, Rinv_l, Rmult_1_r by lra.
    replace ((92 * u + E / s0) * (K / s1) * (s0 * s1)) with (92 * (u * (s0 * K)) + K * E) by (field; lra). set (w := u * (s0 * K)) in *. assert (W0 : 0 < w) by (apply Rmult_lt_0_compat; [lra|apply Rmult_lt_0_compat; lra]).
    assert (US : u * s0 = u * A0 * A0) by (unfold s0; ring).
    assert (Q1 : Rabs (e * r) <= 13.4 * (u * A0) * (1.0001 * A0)) by (apply abs_mul; assumption). replace (13.4 * (u * A0) * (1.0001 * A0)) with (13.4 * 1.0001 * (u * s0)) in Q1 by (rewrite US; ring).
    assert (Q2 : Rabs (e * e) <= 13.4 * (u * A0) * (0.0001 * A0)) by (apply abs_mul; lra). replace (13.4 * (u * A0) * (0.0001 * A0)) with (13.4 * 0.0001 * (u * s0)) in Q2 by (rewrite US; ring). assert (US0 : 0 < u * s0) by (apply Rmult_lt_0_compat; lra).
    assert (Q3 : Rabs (r * r - S + 2 * (e * r) + e * e) <= 60 * (u * s0) + E). { eapply Rle_trans; [apply Rabs_triang|]. eapply Rle_trans; [apply Rplus_le_compat_r, Rabs_triang|]. rewrite (Rabs_mult 2), (Rabs_pos_eq 2) by lra. lra. }
    assert (Q4 : Rabs (K * (r * r - S + 2 * (e * r) + e * e)) <= K * (60 * (u * s0) + E)) by (rewrite Rabs_mult, (Rabs_pos_eq K) by lra; apply Rmult_le_compat_l; lra). replace (K * (60 * (u * s0) + E)) with (60 * w + K * E) in Q4 by (unfold w; ring).
    assert (Q5 : Rabs (z * f) <= 3.0011 * q * (5.1 * (u * q))) by (apply abs_mul; assumption). replace (3.0011 * q * (5.1 * (u * q))) with (3.0011 * 5.1 * (u * (q * q))) in Q5 by ring. rewrite QQ in Q5. assert (Q6 : Rabs (f * f) <= 5.1 * (u * q) * (0.0001 * q)) by (apply abs_mul; lra). replace (5.1 * (u * q) * (0.0001 * q)) with (5.1 * 0.0001 * (u * (q * q))) in Q6 by ring. rewrite QQ in Q6.
    assert (UK : 0 < u * K) by (apply Rmult_lt_0_compat; lra). assert (Q7 : Rabs (2 * (z * f) + f * f) <= 30.7 * (u * K)). { eapply Rle_trans; [apply Rabs_triang|]. rewrite (Rabs_mult 2), (Rabs_pos_eq 2) by lra. lra. }
    assert (Q8 : Rabs (s0 * (2 * (z * f) + f * f)) <= s0 * (30.7 * (u * K))) by (rewrite Rabs_mult, (Rabs_pos_eq s0) by lra; apply Rmult_le_compat_l; lra). replace (s0 * (30.7 * (u * K))) with (30.7 * w) in Q8 by (unfold w; ring).
    eapply Rle_trans; [apply Rabs_triang|]. lra.
  Qed.
  Lemma mid_val : bfin (chord_mid a m c) /\ Rabs (bval (chord_mid a m c) - - hh) <= 10.3 * (u * A0).
  Proof.
    destruct mid_rel as (F & E). split; [exact F|]. destruct hh_size as (_ & HB). destruct tinies as (_ & _ & TA & _ & _ & _ & _ & A0p & _). pose proof u_small as (U0 & _). rewrite Rabs_Ropp in E. assert (u * Rabs hh <= u * (1.000001 * A0)) by (apply Rmult_le_compat_l; lra). assert (p2 (-900) <= p2 (-700)) by (apply p2_le; lia). assert (0 < u * A0) by (apply Rmult_lt_0_compat; lra). lra.
  Qed.
  (** the two values of x *)
  Lemma ends_val : let z := chord_in_sqrt a m c in let r := sqrt (bval z) in 0 <= r <= 1.0001 * A0 /\
    (let x := SFsub 53 1024 (chord_mid a m c) (b64_sqrt z) in bfin x /\ Rabs (bval x - (- hh + - r)) <= 13.4 * (u * A0)) /\ (let x := SFadd 53 1024 (chord_mid a m c) (b64_sqrt z) in bfin x /\ Rabs (bval x - (- hh + r)) <= 13.4 * (u * A0)).
  Proof.
    intros z r. destruct sqrt_arg as (Fz & (Z0 & Z1) & _). fold z in Fz, Z0, Z1. destruct tinies as (_ & _ & TA & _ & _ & _ & _ & A0p & _). pose proof u_small as (U0 & U1). destruct mid_val as (Fd & Ed). destruct hh_size as (_ & HB). destruct (sqrt_near z Fz Z0) as (Fr & Er & _). fold r in Er. pose proof (sqrt_pos (bval z)) as R0. fold r in R0.
    assert (R1 : r <= 1.0001 * A0). { pose proof (sqrt_sqrt (bval z) Z0) as RR. fold r in RR. assert (0 < A0 * A0) by (apply Rmult_lt_0_compat; lra). assert (B : Rabs r <= 1.0001 * A0) by (apply abs_of_sq; [lra|]; rewrite RR; replace (1.0001 * A0 * (1.0001 * A0)) with (1.0001 * 1.0001 * (A0 * A0)) by ring; unfold s0 in Z1; lra). rewrite Rabs_pos_eq in B; lra. }
    split; [lra|]. rewrite (Rabs_pos_eq r) in Er by exact R0. assert (UA : 0 < u * A0) by (apply Rmult_lt_0_compat; lra). assert (UA1 : u * A0 <= 1 / 1000000000000000 * A0) by (apply Rmult_le_compat_r; lra). assert (T2 : p2 (-1075) <= p2 (-700)) by (apply p2_le; lia). assert (UR : u * r <= u * (1.0001 * A0)) by (apply Rmult_le_compat_l; lra).
    assert (Er' : Rabs (bval (b64_sqrt z) - r) <= 1.001 * (u * A0)) by (unfold b64_sqrt; lra). set (s := b64_sqrt z) in *. change (SFsqrt 53 1024 z) with s in Fr. set (d := chord_mid a m c) in *. assert (P9 : 4 * p2 10 <= p2 900) by (replace (4 * p2 10) with (p2 12) by (change 12%Z with (2 + 10)%Z; rewrite p2_add; change (p2 2) with (2 * (2 * 1)); ring); apply p2_le; lia).
    assert (HB1 : Rabs (- hh) <= 1.000001 * A0) by (rewrite Rabs_Ropp; exact HB). apply L_FloatEllipse.Rabs_le_inv in HB1. apply L_FloatEllipse.Rabs_le_inv in Ed. apply L_FloatEllipse.Rabs_le_inv in Er'. split; intros x.
    - assert (B : Rabs (bval d - bval s) <= 2.001 * A0) by (apply Rabs_le; lra). destruct (sub_near d s Fd Fr) as (Fx & Ex & _); [lra|]. fold x in Fx, Ex. split; [exact Fx|]. assert (u * Rabs (bval d - bval s) <= u * (2.001 * A0)) by (apply Rmult_le_compat_l; lra). apply L_FloatEllipse.Rabs_le_inv in Ex. apply Rabs_le. lra.
    - assert (B : Rabs (bval d + bval s) <= 2.001 * A0) by (apply Rabs_le; lra). destruct (add_near d s Fd Fr) as (Fx & Ex & _); [lra|]. fold x in Fx, Ex. split; [exact Fx|]. assert (u * Rabs (bval d + bval s) <= u * (2.001 * A0)) by (apply Rmult_le_compat_l; lra). apply L_FloatEllipse.Rabs_le_inv in Ex. apply Rabs_le. lra.
  Qed.
  Lemma size_x : 0 <= S -> Rabs (- hh + sqrt S) <= A0 /\ Rabs (- hh + - sqrt S) <= A0.
  Proof.
    intros SP. destruct tinies as (_ & _ & _ & _ & S0 & S1 & K0 & A0p & _). pose proof (sqrt_sqrt S SP) as RR.
    assert (G : forall r, r * r = S -> Rabs (- hh + r) <= A0).
    { intros r Er. apply abs_of_sq; [lra|]. fold s0. set (X := - hh + r). set (z := mu * X + ga). assert (E1 : 0 = s1 * (X * X) + s0 * (z * z) - s0 * s1).
      { assert (EK : K * hh = s0 * mu * ga) by (unfold hh; field; lra). assert (EV : K * V = s0 * (ga * ga - s1)) by (unfold V; field; lra). replace 0 with (K * ((X + hh) * (X + hh) - (hh * hh - V))) by (rewrite S_val; unfold X; replace (- hh + r + hh) with r by ring; rewrite Er; ring).
        replace (K * ((X + hh) * (X + hh) - (hh * hh - V))) with (K * (X * X) + 2 * (K * hh) * X + K * V) by ring. rewrite EK, EV. unfold z, K. ring. }
      pose proof (Rle_0_sqr z) as ZZ. unfold Rsqr in ZZ. assert (0 <= s0 * (z * z)) by (apply Rmult_le_pos; lra). apply Rmult_le_reg_l with s1; [exact S1|]. lra. }
    split; apply G; [exact RR|]. rewrite Rmult_opp_opp. exact RR.
  Qed.
  Lemma ends_inside : 0 <= S -> let r := sqrt (bval (chord_in_sqrt a m c)) in Rabs (- hh + r) <= 1.0002 * A0 /\ Rabs (- hh + - r) <= 1.0002 * A0.
  Proof.
    intros SP r. destruct (size_x SP) as (X1 & X2). destruct tinies as (_ & _ & _ & _ & S0 & S1 & K0 & A0p & _). pose proof u_small as (U0 & U1). destruct v_val as (Fv & Ev). destruct sqrt_arg as (Fz & (Z0 & _) & _).
    assert (B : 0 <= r <= sqrt S + 0.0001 * A0).
    { split; [apply sqrt_pos|]. pose proof (sqrt_pos S) as Q0. pose proof (sqrt_sqrt S SP) as QQ. pose proof (sqrt_sqrt _ Z0) as RR. fold r in RR. assert (US1 : u * s0 <= 1 / 1000000000000000 * s0) by (apply Rmult_le_compat_r; lra). apply L_FloatEllipse.Rabs_le_inv in Ev.
      assert (ZB : bval (chord_in_sqrt a m c) <= S + 0.000000001 * s0).
      { change (chord_in_sqrt a m c) with (if isclose_num vnum n0 (nlit (1 # 100000)) (nlit (1 # 100000000)) then n0 else vnum). clearbody vnum. destruct (isclose_num vnum n0 (nlit (1 # 100000)) (nlit (1 # 100000000))); [|lra]. match goal with |- bval ?z <= _ => change z with (S754_zero false) end. cbn [bval]. lra. }
      pose proof (Rle_abs r). assert (Rabs r <= sqrt S + 0.0001 * A0); [|lra]. apply abs_of_sq; [lra|]. rewrite RR. replace ((sqrt S + 0.0001 * A0) * (sqrt S + 0.0001 * A0)) with (sqrt S * sqrt S + 2 * 0.0001 * (sqrt S * A0) + 0.0001 * 0.0001 * (A0 * A0)) by ring. rewrite QQ. fold s0. assert (0 <= sqrt S * A0) by (apply Rmult_le_pos; lra). lra. }
    apply L_FloatEllipse.Rabs_le_inv in X1. apply L_FloatEllipse.Rabs_le_inv in X2. pose proof (sqrt_pos S). destruct hh_size as (_ & HB). apply L_FloatEllipse.Rabs_le_inv in HB. split; apply Rabs_le; lra.
  Qed.
  Lemma size_end X x : Rabs X <= 1.0002 * A0 -> Rabs (x - X) <= 13.4 * (u * A0) -> Rabs x < 1.001 * A0.
  Proof.
    intros B E. destruct tinies as (_ & _ & _ & _ & _ & _ & _ & A0p & _). pose proof u_small as (U0 & U1). assert (UA1 : u * A0 <= 1 / 1000000000000000 * A0) by (apply Rmult_le_compat_r; lra). apply L_FloatEllipse.Rabs_le_inv in B. apply L_FloatEllipse.Rabs_le_inv in E. apply Rabs_def1; lra.
  Qed.
End Sloped.

(** the computed line: its slope [m] and intercept [c], and the points given *)
Section Line.
  Variables (a ll lr : pt b64) (m c : b64).
  Hypotheses (Fa : bfin_pt a) (Fm : bfin m) (Fc : bfin c) (Fl : bfin_pt ll) (Fr : bfin_pt lr).
  Hypotheses (H0 : p2 (-20) <= bval (fst a) <= p2 10) (H1 : p2 (-20) <= bval (snd a) <= p2 20) (Hm : Rabs (bval m) <= p2 7) (Hc : Rabs (bval c) <= p2 30).
  Let A0 := bval (fst a). Let A1 := bval (snd a).
  Let K := A0 * A0 * (bval m * bval m) + A1 * A1.
  Let S := A0 * A0 * (A1 * A1) * (K - bval c * bval c) / (K * K).
  Lemma zero_fin : bfin (@n0 b64 NumB) /\ bval (@n0 b64 NumB) = 0.
  Proof. rewrite zero_run. split; [exact I|reflexivity]. Qed.
  Lemma sloped_points p : In p (chord_sloped b64_sqrt a ll lr m c) ->
    (bfin_pt p /\ Rabs (bval (fst p)) <= 2.001 * A0) /\ Rabs (bval (snd p) - (bval m * bval (fst p) + bval c)) <= 5.2 * (u * sqrt K) /\ Rabs (ell_loc (bpt a) (bpt p)) <= (92 * u + 1.000001 / 100000000 / (A0 * A0)) * (K / (A1 * A1)) /\
    (1.5 / 100000000 <= S -> Rabs (ell_loc (bpt a) (bpt p)) <= 92 * u * (K / (A1 * A1))).
  Proof.
    destruct (disc_near a m c Fa Fm Fc H0 H1 Hm Hc) as (Fd & D1 & D2). destruct zero_fin as (F0 & V0). unfold chord_sloped. cbn [nltb neqb NumB]. rewrite ltb_spec, eqb_spec, V0 by assumption. destruct (Rltb_spec (bval (chord_disc a m c)) 0) as [C|C]; [intros []|].
    assert (HG := D1 C). pose proof u_small as (U0 & U1). destruct (tinies a m H0 H1 Hm) as (_ & _ & TA & _ & S0 & S1 & K0 & A0p & A1p). fold A0 in TA, S0, A0p. fold A1 in S1, A1p. fold A0 A1 in K0. fold K in K0. assert (US0 : 0 < u * (A0 * A0)) by (apply Rmult_lt_0_compat; assumption).
    assert (E8 : forall E, 0 / (A0 * A0) = 0 /\ (92 * u + 0 / (A0 * A0)) * E = 92 * u * E) by (intros; assert (Z : 0 / (A0 * A0) = 0) by (unfold Rdiv; apply Rmult_0_l); rewrite Z; split; ring).
    destruct (Reqb_spec (bval (chord_disc a m c)) 0) as [Z|Z].
    - intros [<-|[]]. assert (HG2 : K - 5.1 * (u * K) <= bval c * bval c) by (apply D2; lra). destruct (mid_val a m c Fa Fm Fc H0 H1 Hm Hc HG) as (Fx & Ex). assert (UA : 0 < u * A0) by (apply Rmult_lt_0_compat; lra).
      assert (SB : Rabs S <= 5.2 * (u * (A0 * A0))). { destruct (S_size a m c H0 H1 Hm Hc HG) as (L & _). fold A0 A1 K S in L. assert (SU : S <= 5.1 * (u * (A0 * A0))).
        { assert (KK : 0 < K * K) by (apply Rmult_lt_0_compat; exact K0). apply Rmult_le_reg_r with (K * K); [exact KK|]. replace (S * (K * K)) with (A0 * A0 * (A1 * A1 * (K - bval c * bval c))) by (unfold S; field; lra). replace (5.1 * (u * (A0 * A0)) * (K * K)) with (A0 * A0 * (K * (5.1 * (u * K)))) by ring. apply Rmult_le_compat_l; [lra|]. assert (0 <= u * K) by (apply Rmult_le_pos; [lra|apply Rlt_le, K0]).
          apply Rle_trans with (A1 * A1 * (5.1 * (u * K))); [apply Rmult_le_compat_l; lra|]. apply Rmult_le_compat_r; [lra|]. pose proof (sm_size a m H0 Hm) as (M0 & _). fold A0 in M0. unfold K. lra. }
        apply Rabs_le. lra. }
      assert (ER : Rabs (0 * 0 - S) <= 33 * (u * (A0 * A0)) + 0) by (rewrite Rmult_0_l, Rminus_0_l, Rabs_Ropp; lra).
      destruct (point_err a m c Fm Fc H0 H1 Hm Hc HG (chord_mid a m c) 0 0 Fx) as (P1 & P2 & P3); [rewrite Rabs_R0; fold A0; lra|rewrite Rplus_0_r; fold A0; eapply Rle_trans; [exact Ex|]; fold A0; lra|exact ER|lra|]. fold A0 A1 K in P2, P3. destruct (E8 (K / (A1 * A1))) as (_ & E9). unfold S in P3. rewrite E9 in P3.
      split; [exact P1|]. split; [exact P2|]. split; [|intros _; exact P3]. eapply Rle_trans; [exact P3|]. apply Rmult_le_compat_r; [apply Rlt_le, Rdiv_lt_0_compat; assumption|]. assert (0 < 1.000001 / 100000000 / (A0 * A0)) by (apply Rdiv_lt_0_compat; lra). lra.
    - destruct (ends_val a m c Fa Fm Fc H0 H1 Hm Hc HG) as (R1 & (X1 & X2) & (X3 & X4)). destruct (sqrt_arg a m c Fa Fm Fc H0 H1 Hm Hc HG) as (_ & (Z0 & _) & Z1 & Z2). pose proof (sqrt_sqrt _ Z0) as RR. set (r := sqrt (bval (chord_in_sqrt a m c))) in *. rewrite <- RR in Z1, Z2. fold A0 A1 K in Z1, Z2, X2, X4, R1. fold S in Z1, Z2.
      assert (G : forall x r', bfin x -> r' * r' = r * r -> Rabs r' <= 1.0001 * A0 -> Rabs (bval x - (- (A0 * A0 * bval m * bval c / K) + r')) <= 13.4 * (u * A0) -> let p := chord_point m c x in
        (bfin_pt p /\ Rabs (bval (fst p)) <= 2.001 * A0) /\ Rabs (bval (snd p) - (bval m * bval (fst p) + bval c)) <= 5.2 * (u * sqrt K) /\ Rabs (ell_loc (bpt a) (bpt p)) <= (92 * u + 1.000001 / 100000000 / (A0 * A0)) * (K / (A1 * A1)) /\ (1.5 / 100000000 <= S -> Rabs (ell_loc (bpt a) (bpt p)) <= 92 * u * (K / (A1 * A1)))).
      { intros x r' Fx Er Br Ex p'. rewrite <- Er in Z1, Z2. destruct (point_err a m c Fm Fc H0 H1 Hm Hc HG x r' (1.000001 / 100000000) Fx Br Ex Z1) as (P1 & P2 & P3); [lra|]. split; [exact P1|]. split; [exact P2|]. split; [exact P3|]. intros SS. specialize (Z2 SS).
        destruct (point_err a m c Fm Fc H0 H1 Hm Hc HG x r' 0 Fx Br Ex) as (_ & _ & P4); [rewrite Rplus_0_r; exact Z2|lra|]. destruct (E8 (K / (A1 * A1))) as (_ & E9). fold A0 A1 K in P4. rewrite E9 in P4. exact P4. }
      assert (GL := G _ (- r) X1 (Rmult_opp_opp r r)). assert (GR := G _ r X3 eq_refl). rewrite Rabs_Ropp in GL. assert (AR : Rabs r <= 1.0001 * A0) by (rewrite Rabs_pos_eq; lra). specialize (GL AR X2). specialize (GR AR X4). clear G.
      repeat match goal with |- In p (if ?b then _ else _) -> _ => destruct b end; cbn [In]; intros IN; repeat destruct IN as [<-|IN]; try contradiction; first [exact GL|exact GR].
  Qed.
  Lemma sloped_missed : K + 6 * (u * K) <= bval c * bval c -> chord_sloped b64_sqrt a ll lr m c = [].
  Proof.
    intros HM. destruct (disc_near a m c Fa Fm Fc H0 H1 Hm Hc) as (Fd & D1 & _). destruct zero_fin as (F0 & V0). destruct (tinies a m H0 H1 Hm) as (_ & _ & _ & _ & _ & _ & K0 & _). fold A0 A1 in K0. fold K in K0. pose proof u_small as (U0 & _). assert (0 < u * K) by (apply Rmult_lt_0_compat; [lra|exact K0]).
    unfold chord_sloped. cbn [nltb neqb NumB]. rewrite ltb_spec, V0 by assumption. destruct (Rltb_spec (bval (chord_disc a m c)) 0) as [C|C]; [reflexivity|]. specialize (D1 C). fold A0 A1 K in D1. exfalso. lra.
  Qed.
  Lemma sloped_crossed : bval c * bval c <= K - 6 * (u * K) -> bval (fst ll) <= - (1.001 * A0) -> 1.001 * A0 <= bval (fst lr) -> exists p q, chord_sloped b64_sqrt a ll lr m c = [p; q] /\ bval (fst p) <= bval (fst q) + 27 * (u * A0).
  Proof.
    intros HM HL HR. destruct (disc_near a m c Fa Fm Fc H0 H1 Hm Hc) as (Fd & D1 & D2). destruct zero_fin as (F0 & V0). destruct (tinies a m H0 H1 Hm) as (_ & _ & _ & _ & S0 & S1 & K0 & _). fold A0 in S0. fold A1 in S1. fold A0 A1 in K0. fold K in K0. pose proof u_small as (U0 & U1). assert (UK : 0 < u * K) by (apply Rmult_lt_0_compat; [lra|exact K0]).
    assert (Dp : 0 < bval (chord_disc a m c)). { destruct (Rlt_le_dec 0 (bval (chord_disc a m c))) as [C|C]; [exact C|]. specialize (D2 C). fold A0 A1 K in D2. exfalso. lra. }
    assert (HG := D1 (Rlt_le _ _ Dp)). assert (SP : 0 <= S). { unfold S, Rdiv. apply Rmult_le_pos; [apply Rmult_le_pos; [apply Rlt_le, Rmult_lt_0_compat; assumption|lra]|]. apply Rlt_le, Rinv_0_lt_compat, Rmult_lt_0_compat; assumption. }
    destruct (ends_val a m c Fa Fm Fc H0 H1 Hm Hc HG) as (R1 & (X1 & X2) & (X3 & X4)). destruct (ends_inside a m c Fa Fm Fc H0 H1 Hm Hc HG SP) as (I1 & I2).
    pose proof (size_end a m H0 H1 Hm _ _ I2 X2) as Y1. pose proof (size_end a m H0 H1 Hm _ _ I1 X4) as Y2. apply Rabs_def2 in Y1. apply Rabs_def2 in Y2. fold A0 in Y1, Y2. destruct Fl as (Fl0 & _). destruct Fr as (Fr0 & _).
    unfold chord_sloped. cbn [nltb neqb nsub nadd NumB]. set (xl := SFsub 53 1024 (chord_mid a m c) (b64_sqrt (chord_in_sqrt a m c))) in *. set (xr := SFadd 53 1024 (chord_mid a m c) (b64_sqrt (chord_in_sqrt a m c))) in *. rewrite !ltb_spec, eqb_spec, V0 by assumption.
    destruct (Rltb_spec (bval (chord_disc a m c)) 0) as [C|_]; [exfalso; lra|]. destruct (Reqb_spec (bval (chord_disc a m c)) 0) as [C|_]; [exfalso; lra|]. destruct (Rltb_spec (bval (fst lr)) (bval xl)) as [C|_]; [exfalso; lra|]. destruct (Rltb_spec (bval xr) (bval (fst ll))) as [C|_]; [exfalso; lra|]. destruct (Rltb_spec (bval xl) (bval (fst ll))) as [C|_]; [exfalso; lra|]. cbn [orb andb].
    destruct (Rltb_spec (bval (fst lr)) (bval xr)) as [C|_]; [exfalso; lra|]. eexists. eexists. split; [reflexivity|]. unfold chord_point. cbn [fst snd]. apply Rabs_le_inv in X2. apply Rabs_le_inv in X4. fold A0 in X2, X4. clearbody xl xr. set (r := sqrt (bval (chord_in_sqrt a m c))) in *. clear - X2 X4 R1 U0 S0 H0. assert (0 < A0) by (pose proof (p2_pos (-20)); fold A0 in H0; lra). assert (0 < u * A0) by (apply Rmult_lt_0_compat; lra). lra.
  Qed.
  Lemma in_margin A r y : 0 < A -> 0 <= r <= 1.0001 * A -> 37 * (u * (A * A)) <= r * r - y * y -> Rabs y + 14 * (u * A) <= r.
  Proof.
    intros PA (R0 & R1) HD. pose proof u_small as (U0 & U1). pose proof (Rabs_pos y) as Y0. assert (UA : 0 < u * A) by (apply Rmult_lt_0_compat; lra). assert (UAA : 0 < u * (A * A)) by (repeat apply Rmult_lt_0_compat; lra). apply Rnot_lt_le. intros C.
    assert (YR : Rabs y <= r). { apply abs_of_sq; lra. } replace (y * y) with (Rabs y * Rabs y) in HD by (rewrite <- Rabs_mult; apply Rabs_pos_eq, Rle_0_sqr). set (z := Rabs y) in *.
    assert ((r - z) * (r + z) <= 14 * (u * A) * (2.0002 * A)) by (apply Rmult_le_compat; lra). assert ((r - z) * (r + z) = r * r - z * z) by ring. assert (14 * (u * A) * (2.0002 * A) = 14 * 2.0002 * (u * (A * A))) by ring. lra.
  Qed.
  Lemma out_margin A r y : 0 < A -> 0 <= r <= 1.0001 * A -> 37 * (u * (A * A)) <= y * y - r * r -> r + 14 * (u * A) <= Rabs y.
  Proof.
    intros PA (R0 & R1) HD. pose proof u_small as (U0 & U1). pose proof (Rabs_pos y) as Y0. assert (UA : 0 < u * A) by (apply Rmult_lt_0_compat; lra). assert (UA1 : u * A <= 1 / 1000000000000000 * A) by (apply Rmult_le_compat_r; lra). assert (UAA : 0 < u * (A * A)) by (repeat apply Rmult_lt_0_compat; lra). apply Rnot_lt_le. intros C.
    replace (y * y) with (Rabs y * Rabs y) in HD by (rewrite <- Rabs_mult; apply Rabs_pos_eq, Rle_0_sqr). set (z := Rabs y) in *. assert (ZR : r <= z). { rewrite <- (Rabs_pos_eq r) by lra. apply abs_of_sq; lra. }
    assert ((z - r) * (z + r) <= 14 * (u * A) * (2.001 * A)) by (apply Rmult_le_compat; lra). assert ((z - r) * (z + r) = z * z - r * r) by ring. assert (14 * (u * A) * (2.001 * A) = 14 * 2.001 * (u * (A * A))) by ring. lra.
  Qed.
  Let h := A0 * A0 * bval m * bval c / K.
  (** one end inside the ellipse and the other outside: one point, between them *)
  Lemma sloped_one : let e := 70 * (u * (A0 * A0)) + 1.1 / 100000000 in let XL := bval (fst ll) in let XR := bval (fst lr) in XL <= XR ->
    ((XL + h) * (XL + h) <= S - e /\ S + e <= (XR + h) * (XR + h) \/ (XR + h) * (XR + h) <= S - e /\ S + e <= (XL + h) * (XL + h)) ->
    exists p, chord_sloped b64_sqrt a ll lr m c = [p] /\ XL <= bval (fst p) <= XR.
  Proof.
    intros e XL XR LE HE. destruct (disc_near a m c Fa Fm Fc H0 H1 Hm Hc) as (Fd & D1 & D2). destruct zero_fin as (F0 & V0). destruct (tinies a m H0 H1 Hm) as (_ & _ & _ & _ & S0 & S1 & K0 & A0p & _). fold A0 in S0, A0p. fold A1 in S1. fold A0 A1 in K0. fold K in K0. pose proof u_small as (U0 & U1). assert (UK : 0 < u * K) by (apply Rmult_lt_0_compat; [lra|exact K0]). assert (US : 0 < u * (A0 * A0)) by (apply Rmult_lt_0_compat; lra). assert (UA : 0 < u * A0) by (apply Rmult_lt_0_compat; lra).
    assert (SE : e <= S) by (pose proof (Rle_0_sqr (XL + h)); pose proof (Rle_0_sqr (XR + h)); unfold Rsqr in *; destruct HE as [(? & _)|(? & _)]; lra).
    assert (HM : bval c * bval c <= K - 6 * (u * K)). { assert (E : S * (K * K) = A0 * A0 * (A1 * A1) * (K - bval c * bval c)) by (unfold S; field; lra). assert (KS : A1 * A1 <= K) by (unfold K; pose proof (Rmult_le_pos _ _ (Rlt_le _ _ S0) (Rle_0_sqr (bval m))); unfold Rsqr in *; lra).
      apply Rnot_lt_le. intros C. assert (L1 : A0 * A0 * (A1 * A1) * (K - bval c * bval c) <= A0 * A0 * (A1 * A1) * (6 * (u * K))) by (apply Rmult_le_compat_l; [apply Rlt_le, Rmult_lt_0_compat; assumption|lra]). assert (L2 : 70 * (u * (A0 * A0)) * (K * K) <= S * (K * K)) by (apply Rmult_le_compat_r; [apply Rlt_le, Rmult_lt_0_compat; assumption|unfold e in SE; lra]).
      assert (L3 : A0 * A0 * (A1 * A1) * (6 * (u * K)) <= A0 * A0 * K * (6 * (u * K))) by (apply Rmult_le_compat_r; [lra|apply Rmult_le_compat_l; lra]). assert (0 < u * (A0 * A0) * (K * K)) by (repeat apply Rmult_lt_0_compat; lra). lra. }
    assert (Dp : 0 < bval (chord_disc a m c)). { destruct (Rlt_le_dec 0 (bval (chord_disc a m c))) as [C|C]; [exact C|]. specialize (D2 C). fold A0 A1 K in D2. exfalso. lra. }
    assert (HG := D1 (Rlt_le _ _ Dp)). destruct (ends_val a m c Fa Fm Fc H0 H1 Hm Hc HG) as (R1 & (X1 & X2) & (X3 & X4)). destruct (sqrt_arg a m c Fa Fm Fc H0 H1 Hm Hc HG) as (Fz & (Z0 & _) & Ez & _). cbv zeta in Z0, Ez. fold A0 A1 in X2, X4, Ez, R1. fold K in X2, X4, Ez. fold S in Ez. fold h in X2, X4. pose proof (sqrt_sqrt _ Z0) as RR.
    set (r := sqrt (bval (chord_in_sqrt a m c))) in *. rewrite <- RR in Ez. apply Rabs_le_inv in Ez. apply Rabs_le_inv in X2. apply Rabs_le_inv in X4. destruct Fl as (Fl0 & _). destruct Fr as (Fr0 & _).
    unfold chord_sloped. cbn [nltb neqb nsub nadd NumB]. set (xl := SFsub 53 1024 (chord_mid a m c) (b64_sqrt (chord_in_sqrt a m c))) in *. set (xr := SFadd 53 1024 (chord_mid a m c) (b64_sqrt (chord_in_sqrt a m c))) in *. rewrite !ltb_spec, eqb_spec, V0 by assumption. fold XL XR.
    destruct (Rltb_spec (bval (chord_disc a m c)) 0) as [C|_]; [exfalso; lra|]. destruct (Reqb_spec (bval (chord_disc a m c)) 0) as [C|_]; [exfalso; lra|]. clear D1 D2 HG Dp HM X1 X3.
    destruct HE as [(E1 & E2)|(E1 & E2)].
    - assert (I1 : Rabs (XL + h) + 14 * (u * A0) <= r) by (apply in_margin; [exact A0p|exact R1|unfold e in *; lra]). assert (I2 : r + 14 * (u * A0) <= Rabs (XR + h)) by (apply out_margin; [exact A0p|exact R1|unfold e in *; lra]). assert (I1' : Rabs (XL + h) <= r - 14 * (u * A0)) by lra. apply Rabs_le_inv in I1'. assert (I2' : r + 14 * (u * A0) <= XR + h) by (unfold Rabs in I2; destruct (Rcase_abs (XR + h)); lra).
      destruct (Rltb_spec XR (bval xl)) as [C|_]; [exfalso; lra|]. destruct (Rltb_spec (bval xr) XL) as [C|_]; [exfalso; lra|]. destruct (Rltb_spec (bval xl) XL) as [_|C]; [|exfalso; lra]. destruct (Rltb_spec XR (bval xr)) as [C|_]; [exfalso; lra|]. rewrite Bool.andb_false_r. cbn [orb]. eexists. split; [reflexivity|]. unfold chord_point. cbn [fst]. split; lra.
    - assert (I1 : Rabs (XR + h) + 14 * (u * A0) <= r) by (apply in_margin; [exact A0p|exact R1|unfold e in *; lra]). assert (I2 : r + 14 * (u * A0) <= Rabs (XL + h)) by (apply out_margin; [exact A0p|exact R1|unfold e in *; lra]). assert (I1' : Rabs (XR + h) <= r - 14 * (u * A0)) by lra. apply Rabs_le_inv in I1'. assert (I2' : XL + h <= - (r + 14 * (u * A0))) by (unfold Rabs in I2; destruct (Rcase_abs (XL + h)); lra).
      destruct (Rltb_spec XR (bval xl)) as [C|_]; [exfalso; lra|]. destruct (Rltb_spec (bval xr) XL) as [C|_]; [exfalso; lra|]. destruct (Rltb_spec (bval xl) XL) as [C|_]; [exfalso; lra|]. cbn [orb andb]. destruct (Rltb_spec XR (bval xr)) as [_|C]; [|exfalso; lra]. eexists. split; [reflexivity|]. unfold chord_point. cbn [fst]. split; lra.
  Qed.
End Line.

