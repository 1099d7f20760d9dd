(** Division and square root of binary64 numbers *)
From Coq Require Import ZArith QArith Reals SpecFloat Bool Lia Lra List.
From Verif Require Import Num M_Float S_Float L_Float L_FloatCmp.
Local Open Scope R_scope.

Lemma location_stands q n r : (0 <= q)%Z -> (0 <= r < n)%Z -> stands (shr_record_of_loc q (new_location n r)) (IZR q + IZR r / IZR n).
Proof.
  intros Hq Hr. assert (N0 : 0 < IZR n) by (apply IZR_lt; lia). assert (Hr' : 0 <= IZR r < IZR n) by (split; [apply IZR_le|apply IZR_lt]; lia).
  assert (E : IZR r / IZR n * IZR n = IZR r) by (field; lra). set (t := IZR r / IZR n) in *.
  unfold new_location, new_location_even, new_location_odd. destruct (Z.even n) eqn:Ev; destruct (Zeq_bool r 0) eqn:Er.
  - apply Zeq_bool_eq in Er. split; [cbn; lia|]. cbn [shr_record_of_loc shr_m shr_r shr_s]. subst r. unfold t. lra.
  - assert (r <> 0%Z) by (intros ->; discriminate). assert (0 < IZR r) by (apply IZR_lt; lia).
    destruct (Z.compare_spec (2 * r) n) as [C|C|C]; (split; [cbn; lia|]); cbn [shr_record_of_loc shr_m shr_r shr_s].
    + apply (f_equal IZR) in C. rewrite mult_IZR in C. nra.
    + apply IZR_lt in C. rewrite mult_IZR in C. split; nra.
    + apply IZR_lt in C. rewrite mult_IZR in C. split; nra.
  - apply Zeq_bool_eq in Er. split; [cbn; lia|]. cbn [shr_record_of_loc shr_m shr_r shr_s]. subst r. unfold t. lra.
  - assert (r <> 0%Z) by (intros ->; discriminate). assert (0 < IZR r) by (apply IZR_lt; lia).
    destruct (Z.compare_spec (2 * r + 1) n) as [C|C|C]; (split; [cbn; lia|]); cbn [shr_record_of_loc shr_m shr_r shr_s].
    + apply (f_equal IZR) in C. rewrite plus_IZR, mult_IZR in C. split; nra.
    + apply IZR_lt in C. rewrite plus_IZR, mult_IZR in C. split; nra.
    + assert (C' : (n < 2 * r)%Z). { destruct (Z.eq_dec n (2 * r)) as [->|]; [|lia]. rewrite Z.even_mul in Ev. discriminate. }
      apply IZR_lt in C'. rewrite mult_IZR in C'. split; nra.
Qed.
Lemma zdigits_pos p : Zdigits2 (Zpos p) = Zpos (digits2_pos p). Proof. reflexivity. Qed.
Lemma zdigits_lower m k : (0 <= m)%Z -> p2 (k - 1) <= IZR m + 1 -> (0 < m)%Z -> p2 (k - 1) <= IZR m -> (k <= Zdigits2 m)%Z.
Proof.
  intros Hm _ M0 H. destruct m as [|p|p]; try lia. rewrite zdigits_pos. destruct (digits_spec p) as (_ & U). assert (p2 (k - 1) < p2 (Zpos (digits2_pos p))) by lra. apply p2_lt_inv in H0. lia.
Qed.
(** an integer part at least a power of two *)
Lemma floor_digits x q k : IZR q <= x < IZR q + 1 -> (0 <= q)%Z -> p2 (k - 1) <= x -> (k <= Zdigits2 q)%Z.
Proof.
  intros Hx Hq H. destruct (Z_le_gt_dec k 0) as [K|K]; [pose proof (zdigits_spec q Hq); lia|].
  rewrite p2_Z in H by lia. assert (IZR (2 ^ (k - 1)) < IZR (q + 1)) by (rewrite plus_IZR; lra). apply lt_IZR in H0. assert (L : (2 ^ (k - 1) <= q)%Z) by lia.
  assert (0 < 2 ^ (k - 1))%Z by (apply Z.pow_pos_nonneg; lia). apply IZR_le in L. apply zdigits_lower; try lia; rewrite p2_Z by lia; lra.
Qed.
Theorem div_near x y : bfin x -> bfin y -> bval y <> 0 -> Rabs (bval x / bval y) <= p2 900 -> near (SFdiv 53 1024 x y) (bval x / bval y).
Proof.
  intros Fx Fy Ny H. destruct x as [sx|sx| |sx mx ex], y as [sy|sy| |sy my ey]; try (cbn in Fx, Fy; contradiction); try (cbn in Ny; lra).
  - apply near_exact; [exact I|]. cbn [SFdiv bval]. unfold Rdiv. rewrite Rmult_0_l. reflexivity.
  - cbn [SFdiv]. unfold SFdiv_core_binary. rewrite !zdigits_pos. set (d1 := Zpos (digits2_pos mx)). set (d2 := Zpos (digits2_pos my)).
    set (e' := Z.min (fe (d1 + ex - (d2 + ey))) (ex - ey)). set (s := (ex - ey - e')%Z). assert (S0 : (0 <= s)%Z) by (unfold s, e'; lia).
    assert (Em : (match s with Zpos _ => Z.shiftl (Zpos mx) s | Z0 => Zpos mx | Zneg _ => 0 end = Zpos mx * 2 ^ s)%Z).
    { destruct s as [|p|p] eqn:Es; [cbn; lia| |lia]. rewrite Z.shiftl_mul_pow2; lia. }
    rewrite Em. set (m' := (Zpos mx * 2 ^ s)%Z). assert (P2 : (0 < 2 ^ s)%Z) by (apply Z.pow_pos_nonneg; lia). assert (Hm' : (0 < m')%Z) by (unfold m'; lia).
    pose proof (Z_div_mod m' (Zpos my) ltac:(lia)) as DM. destruct (Z.div_eucl m' (Zpos my)) as [q r]. destruct DM as (DM & Hr).
    assert (Hq : (0 <= q)%Z) by nia. set (X := IZR q + IZR r / IZR (Zpos my)). assert (St : stands (shr_record_of_loc q (new_location (Zpos my) r)) X) by (apply location_stands; lia).
    assert (My : 0 < IZR (Zpos my)) by (apply IZR_lt; lia). assert (Mx : 0 < IZR (Zpos mx)) by (apply IZR_lt; lia).
    assert (EX : X * IZR (Zpos my) = IZR (Zpos mx) * p2 s). { unfold X. rewrite p2_Z, <- mult_IZR by lia. fold m'. rewrite DM, plus_IZR, mult_IZR. field. lra. }
    assert (BX : IZR q <= X < IZR q + 1). { assert (Hr' : 0 <= IZR r < IZR (Zpos my)) by (split; [apply IZR_le|apply IZR_lt]; lia). assert (E : IZR r / IZR (Zpos my) * IZR (Zpos my) = IZR r) by (field; lra). unfold X. set (t := IZR r / IZR (Zpos my)) in *. split; nra. }
    assert (EV : bval (S754_finite sx mx ex) / bval (S754_finite sy my ey) = sgn (xorb sx sy) (X * p2 e')).
    { assert (E1 : X * p2 e' = IZR (Zpos mx) * p2 ex / (IZR (Zpos my) * p2 ey)).
      { pose proof (p2_pos ey). apply Rmult_eq_reg_r with (IZR (Zpos my) * p2 ey); [|nra]. replace (X * p2 e' * (IZR (Zpos my) * p2 ey)) with ((X * IZR (Zpos my)) * (p2 e' * p2 ey)) by ring. rewrite EX.
        unfold Rdiv. rewrite (Rmult_assoc _ (/ _)), Rinv_l by nra. rewrite Rmult_1_r. rewrite <- p2_add, Rmult_assoc, <- p2_add. do 2 f_equal. unfold s. lia. }
      rewrite E1. pose proof (p2_pos ey). cbn [bval]. destruct sx, sy; cbn [xorb sgn]; field; split; lra. }
    rewrite EV in *. rewrite sgn_abs in H. pose proof (p2_pos e') as Pe. assert (X0 : 0 < X). { apply Rmult_lt_reg_r with (IZR (Zpos my)); [lra|]. rewrite Rmult_0_l, EX. apply Rmult_lt_0_compat; [lra|apply p2_pos]. } assert (X1 : 0 < X * p2 e') by (apply Rmult_lt_0_compat; lra). rewrite Rabs_pos_eq in H by lra.
    destruct (digits_spec mx) as (Lx & Ux), (digits_spec my) as (Ly & Uy). fold d1 in Lx, Ux. fold d2 in Ly, Uy.
    assert (DQ : (d1 + s - d2 <= Zdigits2 q)%Z).
    { apply (floor_digits X); auto. replace (d1 + s - d2 - 1)%Z with ((d1 - 1) + s + - d2)%Z by lia. rewrite !p2_add. pose proof (p2_pos s) as Ps. pose proof (p2_pos (- d2)) as Pd. pose proof (p2_opp d2) as Od. pose proof (p2_pos (d1 - 1)).
      apply Rmult_le_reg_r with (p2 d2); [apply p2_pos|]. replace (p2 (d1 - 1) * p2 s * p2 (- d2) * p2 d2) with (p2 (d1 - 1) * p2 s * (p2 d2 * p2 (- d2))) by ring. rewrite Od, Rmult_1_r.
      apply Rle_trans with (IZR (Zpos mx) * p2 s); [apply Rmult_le_compat_r; lra|]. rewrite <- EX. apply Rmult_le_compat_l; lra. }
    apply gen_near; auto.
    + assert (fe (d1 + ex - (d2 + ey)) <= fe (Zdigits2 q + e'))%Z; [rewrite !fe_eq; unfold s in DQ; lia|unfold e' at 1; lia].
    + destruct (zdigits_spec q Hq) as (D0 & _ & DL). destruct (Z.eq_dec q 0) as [->|NQ].
      { cbn [Zdigits2]. cbn [Zdigits2] in DQ. apply canonical_digits in Fx as (_ & D1 & _). fold d1 in D1. assert (0 < d2)%Z by (unfold d2; lia).
        pose proof (fe_eq (d1 + ex - (d2 + ey))) as FE. unfold s in DQ. assert (e' = Z.min (fe (d1 + ex - (d2 + ey))) (ex - ey)) by reflexivity. clearbody e' d1 d2. lia. }
      specialize (DL ltac:(lia)). assert (p2 (Zdigits2 q - 1 + e') < p2 901).
      { rewrite p2_add. apply Rle_lt_trans with (p2 900); [|apply p2_lt; lia]. apply Rle_trans with (2 := H). apply Rmult_le_compat_r; lra. }
      apply p2_lt_inv in H0. lia.
Qed.
Lemma sqrt_stands q r m : (0 < q)%Z -> (m = q * q + r)%Z -> (0 <= r <= 2 * q)%Z ->
  stands (shr_record_of_loc q (if Zeq_bool r 0 then loc_Exact else loc_Inexact (if Zle_bool r q then Lt else Gt))) (sqrt (IZR m)) /\ IZR q <= sqrt (IZR m) < IZR q + 1.
Proof.
  intros Q0 Em Hr. assert (M0 : 0 <= IZR m) by (apply IZR_le; nia). pose proof (sqrt_pos (IZR m)) as P. pose proof (sqrt_sqrt (IZR m) M0) as SS. set (x := sqrt (IZR m)) in *.
  assert (Q0' : 0 < IZR q) by (apply IZR_lt; lia). rewrite Em, plus_IZR, mult_IZR in SS. assert (Hr' : 0 <= IZR r <= 2 * IZR q) by (split; [apply IZR_le; lia|rewrite <- mult_IZR; apply IZR_le; lia]).
  assert (B : IZR q <= x < IZR q + 1) by (split; nra). split; auto. destruct (Zeq_bool r 0) eqn:Er.
  - apply Zeq_bool_eq in Er. subst r. split; [cbn; lia|]. cbn [shr_record_of_loc shr_m shr_r shr_s]. nra.
  - assert (r <> 0%Z) by (intros ->; discriminate). assert (0 < IZR r) by (apply IZR_lt; lia). destruct (Zle_bool r q) eqn:L; (split; [cbn; lia|]); cbn [shr_record_of_loc shr_m shr_r shr_s].
    + apply Zle_bool_imp_le, IZR_le in L. split; nra.
    + assert (L' : (q + 1 <= r)%Z). { destruct (Z_le_gt_dec r q) as [C|C]; [|lia]. apply Zle_imp_le_bool in C. congruence. } apply IZR_le in L'. rewrite plus_IZR in L'. split; nra.
Qed.
(** the root of a finite number that is not negative (the root of a negative zero is that zero) *)
Theorem sqrt_near x : bfin x -> 0 <= bval x -> near (SFsqrt 53 1024 x) (sqrt (bval x)).
Proof.
  intros Fx H. destruct x as [sx|sx| |sx m e]; try (cbn in Fx; contradiction).
  - apply near_exact; [exact I|]. cbn [SFsqrt bval]. now rewrite sqrt_0.
  - assert (M0 : 0 < IZR (Zpos m)) by (apply IZR_lt; lia). pose proof (p2_pos e) as Pe. assert (ME : 0 < IZR (Zpos m) * p2 e) by (apply Rmult_lt_0_compat; lra).
    destruct sx; [cbn [bval] in H; lra|]. cbn [SFsqrt]. unfold SFsqrt_core_binary. rewrite zdigits_pos. set (d := Zpos (digits2_pos m)).
    set (e' := Z.min (fe (Z.div2 (d + e + 1))) (Z.div2 e)). set (s := (e - 2 * e')%Z). assert (Ed : e' = Z.min (fe (Z.div2 (d + e + 1))) (Z.div2 e)) by reflexivity. rewrite !Z.div2_div in Ed.
    assert (S0 : (0 <= s)%Z). { unfold s. clearbody e'. pose proof (Z.div_mod e 2 ltac:(lia)). pose proof (Z.mod_pos_bound e 2 ltac:(lia)). lia. }
    assert (Em : (match s with Zpos _ => Z.shiftl (Zpos m) s | Z0 => Zpos m | Zneg _ => 0 end = Zpos m * 2 ^ s)%Z).
    { destruct s as [|p|p] eqn:Es; [cbn; lia| |lia]. rewrite Z.shiftl_mul_pow2; lia. }
    rewrite Em. set (m' := (Zpos m * 2 ^ s)%Z). assert (P2 : (0 < 2 ^ s)%Z) by (apply Z.pow_pos_nonneg; lia). assert (Hm' : (0 < m')%Z) by (unfold m'; lia).
    pose proof (Z.sqrtrem_spec m' ltac:(lia)) as SP. destruct (Z.sqrtrem m') as [q r]. destruct SP as (SP & Hr). assert (Hq : (0 < q)%Z) by nia.
    destruct (sqrt_stands q r m' Hq SP Hr) as (St & BX). set (X := sqrt (IZR m')) in *.
    assert (XX : X * X = IZR (Zpos m) * p2 s). { unfold X. rewrite sqrt_sqrt by (apply IZR_le; lia). unfold m'. rewrite mult_IZR, p2_Z by lia. reflexivity. }
    assert (Q0 : 0 < IZR q) by (apply IZR_lt; lia). pose proof (p2_pos e') as Pe'.
    assert (EV : sqrt (bval (S754_finite false m e)) = sgn false (X * p2 e')).
    { cbn [sgn]. apply sqrt_lem_1; [exact H|apply Rmult_le_pos; lra|]. replace (X * p2 e' * (X * p2 e')) with (X * X * (p2 e' * p2 e')) by ring. rewrite XX, <- p2_add, Rmult_assoc, <- p2_add.
      cbn [bval]. do 2 f_equal. unfold s. lia. }
    rewrite EV. destruct (digits_spec m) as (L & U). fold d in L, U. pose proof (p2_pos s) as Ps.
    assert (Es : s = (e - 2 * e')%Z) by reflexivity. clearbody s e' d.
    assert (DQ : ((d + s + 1) / 2 <= Zdigits2 q)%Z).
    { apply (floor_digits X); [auto|lia|]. set (k := ((d + s + 1) / 2)%Z). assert (K : (2 * (k - 1) <= d - 1 + s)%Z) by (unfold k; pose proof (Z.div_mod (d + s + 1) 2 ltac:(lia)); pose proof (Z.mod_pos_bound (d + s + 1) 2 ltac:(lia)); lia).
      apply p2_le in K. replace (2 * (k - 1))%Z with ((k - 1) + (k - 1))%Z in K by lia. rewrite !p2_add in K. pose proof (p2_pos (k - 1)). assert (p2 (d - 1) * p2 s <= X * X) by (rewrite XX; apply Rmult_le_compat_r; lra). nra. }
    assert (DU : (2 * (Zdigits2 q - 1) < d + s)%Z).
    { destruct (zdigits_spec q ltac:(lia)) as (_ & _ & DL). specialize (DL ltac:(lia)). apply p2_lt_inv. replace (2 * (Zdigits2 q - 1))%Z with ((Zdigits2 q - 1) + (Zdigits2 q - 1))%Z by lia. rewrite !p2_add. pose proof (p2_pos (Zdigits2 q - 1)).
      assert (X * X < p2 d * p2 s) by (rewrite XX; apply Rmult_lt_compat_r; lra). nra. }
    replace ((d + s + 1) / 2)%Z with ((d + e + 1) / 2 - e')%Z in DQ.
    2:{ rewrite Es. replace (d + (e - 2 * e') + 1)%Z with (d + e + 1 + (- e') * 2)%Z by lia. rewrite Z.div_add by lia. lia. }
    pose proof (fe_eq ((d + e + 1) / 2)) as FE. pose proof (fe_eq (Zdigits2 q + e')) as FE'. apply canonical_digits in Fx as (E1 & D1 & _).
    apply gen_near; [lia|exact St|lia|].
    enough (d <= 53)%Z by lia. destruct (Z_le_gt_dec d 53) as [C|C]; auto. exfalso. assert (p2 (Zpos (digits2_pos m)) <= p2 (d - 1)) by (apply p2_le; lia). destruct (digits_spec m) as (_ & U'). lra.
Qed.
