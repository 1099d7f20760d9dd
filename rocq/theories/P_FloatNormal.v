(** Property C141: Ellipse.normal of obstacles/ellipse.py, called with x_is_boundary = True, in binary64 arithmetic. *)
From Coq Require Import ZArith QArith Qreals Reals SpecFloat Bool Lia Lra List.
From Verif Require Import Num Spec L_Geom M_Cg L_Cg M_Motion M_Obstacle M_Ellipse M_Float S_Float L_Float L_FloatCmp L_FloatCg L_FloatDiv L_FloatNorm L_FloatGrid L_Obstacle P_Cg P_Float P_FloatAffine M_FloatDirection L_FloatEllipse P_FloatDirection M_FloatNormal.
Import ListNotations.
Local Open Scope R_scope.
Local Notation u := (p2 (-53)).

(** with real numbers: the method of M_Ellipse *)
Theorem C141_same_code : forall E x fi fo B, transform (e_mm E) x fi OBSTACLE = Ret B -> norm (snd (e_a E) ^ 2 * fst B, fst (e_a E) ^ 2 * snd B) <> 0 ->
  bind (normal_num cos sin sqrt (option_map (fun m => (m_pos m, m_rot m)) (e_mm E)) (e_a E) x fi fo) (fun n => Ret (Some n)) = e_normal E x fi fo true.
Proof.
  intros E x fi fo B EB NZ. assert (Z0 : (@n0 R NumR) = 0) by (unfold n0; cbn; unfold Q2R; cbn; lra).
  assert (Tr : forall z f f', transform_num cos sin (option_map (fun m => (m_pos m, m_rot m)) (e_mm E)) z f f' = transform (e_mm E) z f f').
  { intros z f f'. destruct (e_mm E) as [m|]; [|reflexivity]. cbn [option_map transform_num transform]. rewrite !affine_num_R. reflexivity. }
  assert (Ro : forall z f f', rotate_num cos sin (option_map (fun m => (m_pos m, m_rot m)) (e_mm E)) z f f' = rotate (e_mm E) z f f').
  { intros z f f'. destruct (e_mm E) as [m|]; [|reflexivity]. cbn [option_map rotate_num rotate]. rewrite !affine_num_R, Z0. reflexivity. }
  unfold normal_num, e_normal. rewrite Tr, EB. cbn [bind]. rewrite Ro. unfold ell_normal. cbv zeta. rewrite np_norm_norm. destruct (Reqb_spec (norm (snd (e_a E) ^ 2 * fst B, fst (e_a E) ^ 2 * snd B)) 0) as [Z|_]; [contradiction|]. cbn [bind].
  assert (V : ell_normal_num sqrt (e_a E) B = scale (/ norm (snd (e_a E) ^ 2 * fst B, fst (e_a E) ^ 2 * snd B)) (snd (e_a E) ^ 2 * fst B, fst (e_a E) ^ 2 * snd B)).
  { unfold ell_normal_num, scale, norm_num, nsq. cbn [fst snd nadd nmul ndiv NumR]. replace (snd (e_a E) * snd (e_a E)) with (snd (e_a E) ^ 2) by ring. replace (fst (e_a E) * fst (e_a E)) with (fst (e_a E) ^ 2) by ring.
    match goal with |- context [sqrt ?r] => change (sqrt r) with (norm (snd (e_a E) ^ 2 * fst B, fst (e_a E) ^ 2 * snd B)) end. unfold Rdiv. apply pair_eq; ring. }
  rewrite V. reflexivity.
Qed.
Print Assumptions C141_same_code.

Lemma sub_zero x : bfin x -> SFsub 53 1024 x (S754_zero false) = x.
Proof. destruct x as [s|s| |s m e]; cbn [bfin]; intros F; try contradiction; [destruct s|]; reflexivity. Qed.
Definition ozero : pt b64 := (S754_zero false, S754_zero false).
(** the vector before it is normalised, and the quotient *)
Lemma ell_err a b B K A : bfin_pt a -> bfin_pt b -> p2 (-50) <= bval (fst a) -> p2 (-50) <= bval (snd a) -> bval (fst a) ^ 2 <= A -> bval (snd a) ^ 2 <= A -> A <= p2 200 -> within (p2 150) b ->
  0 <= K -> Rabs (bval (fst b) - fst B) <= K * u -> Rabs (bval (snd b) - snd B) <= K * u -> let V := (bval (snd a) ^ 2 * fst B, bval (fst a) ^ 2 * snd B) : Pt in let D := norm V in p2 (-140) <= D -> A * (K * u) <= D / 400 ->
  let c := ell_normal_num b64_sqrt a b in bfin_pt c /\ Rabs (bval (fst c) - fst V / D) <= (24 + 6 * (K * A / D)) * u /\ Rabs (bval (snd c) - snd V / D) <= (24 + 6 * (K * A / D)) * u.
Proof.
  intros (Fa1 & Fa2) (Fb1 & Fb2) L1 L2 A1 A2 A3 (W1 & W2) K0 E1 E2 V D HD HK c. pose proof u_small as (U0 & U1). pose proof (p2_pos (-140)) as P140. assert (D0 : 0 < D) by lra.
  destruct (abs_norm V) as (V1 & V2). fold D in V1, V2. unfold V in V1, V2. cbn [fst snd] in V1, V2.
  assert (UD : 0 < u * D) by (apply Rmult_lt_0_compat; lra). assert (KU : 0 <= K * u) by (apply Rmult_le_pos; lra).
  assert (TD : p2 (-1075) <= u * D / 1000). { apply Rle_trans with (p2 (-10) * (u * p2 (-140))); [rewrite <- !p2_add; apply p2_le; lia|]. change (-10)%Z with (- (10))%Z. rewrite p2_inv, p2_Z by lia. change (2 ^ 10)%Z with 1024%Z. assert (u * p2 (-140) <= u * D) by (apply Rmult_le_compat_l; lra). assert (0 <= u * p2 (-140)) by (apply Rmult_le_pos; lra). lra. }
  set (e := 2.02 * (u * D) + A * (K * u)).
  assert (P350 : 2 * p2 350 <= p2 400) by (replace (2 * p2 350) with (p2 351); [apply p2_le; lia|change 351%Z with (1 + 350)%Z; rewrite p2_add; change (p2 1) with (2 * 1); lra]). assert (P900 : p2 400 <= p2 900) by (apply p2_le; lia).
  assert (one : forall s t X, bfin s -> bfin t -> p2 (-50) <= bval s -> bval s ^ 2 <= A -> Rabs (bval t) <= p2 150 -> Rabs (bval t - X) <= K * u -> Rabs (bval s ^ 2 * X) <= D ->
    let p := SFmul 53 1024 (SFmul 53 1024 s s) t in bfin p /\ Rabs (bval p - bval s ^ 2 * X) <= e /\ Rabs (bval p) <= p2 400).
  { intros s t X Fs Ft Ls As Wt Et Vt p. set (q := bval s ^ 2) in *. assert (Eq : bval s * bval s = q) by (unfold q; ring). pose proof (p2_pos (-50)) as P50. assert (Q0 : p2 (-100) <= q). { rewrite <- Eq. change (-100)%Z with (-50 + -50)%Z. rewrite p2_add. apply Rmult_le_compat; lra. } pose proof (p2_pos (-100)) as P100.
    assert (TQ : p2 (-1075) <= u * q / 1000). { apply Rle_trans with (p2 (-10) * (u * p2 (-100))); [rewrite <- !p2_add; apply p2_le; lia|]. change (-10)%Z with (- (10))%Z. rewrite p2_inv, p2_Z by lia. change (2 ^ 10)%Z with 1024%Z. assert (u * p2 (-100) <= u * q) by (apply Rmult_le_compat_l; lra). assert (0 <= u * p2 (-100)) by (apply Rmult_le_pos; lra). lra. }
    assert (UQ : u * q <= 1 / 1000000000000000 * q) by (apply Rmult_le_compat_r; lra).
    destruct (mul_near s s Fs Fs) as (FS & NS & _); [rewrite Eq, Rabs_pos_eq by lra; apply Rle_trans with (p2 200); [lra|apply p2_le; lia]|]. rewrite Eq in NS. rewrite (Rabs_pos_eq q) in NS by lra. fold p. set (S1 := SFmul 53 1024 s s) in *.
    assert (NS1 : Rabs (bval S1 - q) <= 1.001 * (u * q)) by lra. assert (BS : Rabs (bval S1) <= 1.01 * q). { replace (bval S1) with ((bval S1 - q) + q) by ring. eapply Rle_trans; [apply Rabs_triang|]. rewrite (Rabs_pos_eq q) by lra. lra. }
    assert (QT : q * Rabs (bval t) <= 1.0025 * D). { assert (Rabs (bval t) <= Rabs X + K * u). { replace (bval t) with (X + (bval t - X)) by ring. eapply Rle_trans; [apply Rabs_triang|]. lra. } apply Rle_trans with (q * (Rabs X + K * u)); [apply Rmult_le_compat_l; lra|]. rewrite Rmult_plus_distr_l. rewrite Rabs_mult, (Rabs_pos_eq q) in Vt by lra. assert (q * (K * u) <= A * (K * u)) by (apply Rmult_le_compat_r; lra). lra. }
    assert (QB : q * Rabs (bval t) <= p2 350). { change 350%Z with (200 + 150)%Z. rewrite p2_add. apply Rmult_le_compat; try lra. apply Rabs_pos. }
    assert (BP : Rabs (bval S1 * bval t) <= 1.01 * (q * Rabs (bval t))). { rewrite Rabs_mult, <- Rmult_assoc. apply Rmult_le_compat_r; [apply Rabs_pos|exact BS]. }
    pose proof (p2_pos 350) as P35.
    destruct (mul_near S1 t FS Ft) as (Fp & Np & _); [lra|]. fold p in Fp, Np. split; [exact Fp|].
    assert (UP : u * Rabs (bval S1 * bval t) <= u * (1.01 * (q * Rabs (bval t)))) by (apply Rmult_le_compat_l; lra). assert (UT : u * (q * Rabs (bval t)) <= u * (1.0025 * D)) by (apply Rmult_le_compat_l; lra).
    split.
    - replace (bval p - q * X) with ((bval p - bval S1 * bval t) + ((bval S1 - q) * bval t + q * (bval t - X))) by ring. eapply Rle_trans; [apply Rabs_triang|].
      assert (G1 : Rabs ((bval S1 - q) * bval t) <= 1.001 * (u * (q * Rabs (bval t)))). { rewrite Rabs_mult. replace (1.001 * (u * (q * Rabs (bval t)))) with (1.001 * (u * q) * Rabs (bval t)) by ring. apply Rmult_le_compat_r; [apply Rabs_pos|exact NS1]. }
      assert (G2 : Rabs (q * (bval t - X)) <= A * (K * u)). { rewrite Rabs_mult, (Rabs_pos_eq q) by lra. apply Rmult_le_compat; try lra. apply Rabs_pos. }
      pose proof (Rabs_triang ((bval S1 - q) * bval t) (q * (bval t - X))). unfold e. lra.
    - replace (bval p) with ((bval p - bval S1 * bval t) + bval S1 * bval t) by ring. eapply Rle_trans; [apply Rabs_triang|]. assert (u * (1.01 * (q * Rabs (bval t))) <= 1 / 100 * (1.01 * (q * Rabs (bval t)))) by (apply Rmult_le_compat_r; [pose proof (Rabs_pos (bval t)); apply Rmult_le_pos; [lra|apply Rmult_le_pos; lra]|lra]).
      pose proof eta_small as (H0 & H1). assert (1 <= p2 350) by (rewrite <- p2_0; apply p2_le; lia). lra. }
  destruct (one (snd a) (fst b) (fst B) Fa2 Fb1 L2 A2 W1 E1 V1) as (Fp & Ep & Wp). destruct (one (fst a) (snd b) (snd B) Fa1 Fb2 L1 A1 W2 E2 V2) as (Fq & Eq & Wq). clear one.
  set (p := SFmul 53 1024 (SFmul 53 1024 (snd a) (snd a)) (fst b)) in *. set (q := SFmul 53 1024 (SFmul 53 1024 (fst a) (fst a)) (snd b)) in *.
  assert (EC : c = unit_num b64_sqrt (p, q) ozero). { unfold unit_num, ozero. cbn [fst snd nsub NumB]. rewrite !sub_zero by assumption. reflexivity. }
  assert (UD1 : u * D <= 1 / 1000000000000000 * D) by (apply Rmult_le_compat_r; lra). assert (E0 : 0 <= e) by (unfold e; assert (0 <= A * (K * u)) by (apply Rmult_le_pos; [pose proof (pow2_ge_0 (bval (fst a))); lra|lra]); lra). assert (ED : e <= D / 300) by (unfold e; lra).
  assert (Z0 : bpt ozero = (0, 0)) by reflexivity. set (P := bpt (p, q)). assert (DV : dist V (0, 0) = D) by (unfold dist, vsub, D; f_equal; cbn [fst snd]; rewrite !Rminus_0_r; reflexivity).
  assert (DP : 98 / 100 * D <= dist P (0, 0)). { assert (dist P V <= 2 * e). { unfold dist. eapply Rle_trans; [apply norm_abs|]. unfold vsub, P, V, bpt. cbn [fst snd]. lra. } pose proof (dist_triangle V P (0, 0)) as TR. rewrite (dist_sym V P), DV in TR. lra. }
  assert (HP : p2 (-200) <= dist P (0, 0)). { apply Rle_trans with (p2 (-141)); [apply p2_le; lia|]. replace (p2 (-141)) with (p2 (-140) / 2); [lra|]. change (-141)%Z with (-140 + -1)%Z. rewrite p2_add. change (p2 (-1)) with (/ (2 * 1)). lra. }
  destruct (unit_err (p, q) ozero (conj Fp Fq) (conj I I) (conj Wp Wq)) as (Fc & C1 & C2).
  { split; cbn [fst snd ozero bval]; rewrite Rabs_R0; left; apply p2_pos. } { rewrite Z0. exact HP. }
  rewrite Z0 in C1, C2. fold P in C1, C2. rewrite <- EC in Fc, C1, C2. cbn [fst snd ozero bval] in C1, C2. rewrite Rminus_0_r in C1, C2.
  destruct (unit_pert P (0, 0) V (0, 0) e E0) as (_ & Q1 & Q2); try (cbn [fst snd P V bpt]; try rewrite Rminus_diag_eq by reflexivity; try rewrite Rabs_R0; assumption); [lra|rewrite DV; exact D0|].
  rewrite DV in Q1, Q2. cbn [fst snd] in Q1, Q2. rewrite !Rminus_0_r in Q1, Q2. change (fst P) with (bval p) in Q1. change (snd P) with (bval q) in Q2.
  assert (EE : 6 * e / D = (12.12 + 6 * (K * A / D)) * u) by (unfold e; replace 2.02 with (202 / 100) by lra; replace 12.12 with (1212 / 100) by lra; generalize u; intros uu; field; lra). rewrite EE in Q1, Q2. clear EE.
  split; [exact Fc|]. split.
  - replace (bval (fst c) - fst V / D) with ((bval (fst c) - bval p / dist P (0, 0)) + (bval p / dist P (0, 0) - fst V / D)) by ring. eapply Rle_trans; [apply Rabs_triang|]. lra.
  - replace (bval (snd c) - snd V / D) with ((bval (snd c) - bval q / dist P (0, 0)) + (bval q / dist P (0, 0) - snd V / D)) by ring. eapply Rle_trans; [apply Rabs_triang|]. lra.
Qed.
(** rotating adds the error of the rotation to that of the vector *)
Lemma rotate_err M ncos nsin pose m d d' E fo : same_pose M ncos nsin pose m -> bfin_pt d -> (fo = GLOBAL \/ fo = OBSTACLE) -> 0 <= E <= 1 / 8 -> Rabs (fst d') <= 1 -> Rabs (snd d') <= 1 -> Rabs (bval (fst d) - fst d') <= E -> Rabs (bval (snd d) - snd d') <= E ->
  exists r r', rotate_num ncos nsin pose d OBSTACLE fo = Ret r /\ rotate m d' OBSTACLE fo = Ret r' /\ bfin_pt r /\ Rabs (bval (fst r) - fst r') <= 2 * E + 12 * u /\ Rabs (bval (snd r) - snd r') <= 2 * E + 12 * u.
Proof.
  intros SP Fd Ho (E0 & E1) N1 N2 D1 D2. pose proof u_small as (U0 & U1).
  assert (same : exists r r', Ret d = Ret r /\ Ret d' = Ret r' /\ bfin_pt r /\ Rabs (bval (fst r) - fst r') <= 2 * E + 12 * u /\ Rabs (bval (snd r) - snd r') <= 2 * E + 12 * u) by (exists d, d'; do 2 (split; [reflexivity|]); split; [exact Fd|]; lra).
  unfold same_pose in SP. destruct pose as [[pos rot]|], m as [m|]; try contradiction; [|exact same]. destruct SP as (_ & _ & Fr & Tr & _ & Er). cbn [rotate_num rotate]. destruct Ho as [-> | ->]; cbn [frame_eqb]; [|exact same]. clear same.
  assert (B1 : Rabs (bval (fst d)) <= 9 / 8). { replace (bval (fst d)) with (fst d' + (bval (fst d) - fst d')) by ring. eapply Rle_trans; [apply Rabs_triang|]. lra. }
  assert (B2 : Rabs (bval (snd d)) <= 9 / 8). { replace (bval (snd d)) with (snd d' + (bval (snd d) - snd d')) by ring. eapply Rle_trans; [apply Rabs_triang|]. lra. }
  assert (M2 : 9 / 8 <= p2 400) by (apply Rle_trans with (p2 1); [change (p2 1) with (2 * 1); lra|apply p2_le; lia]).
  destruct (C115_transforms (9 / 8) ncos nsin d rot ozero ltac:(lra) M2 Fd (conj I I) Fr (conj B1 B2)) as ((Fy & Y1 & Y2) & _); [split; cbn [fst snd ozero bval]; rewrite Rabs_R0; lra|exact Tr|]. change (bpt ozero) with ((0, 0) : Pt) in Y1, Y2. change (/ 2 ^ 53) with u in Y1, Y2.
  eexists _, _. split; [reflexivity|]. split; [reflexivity|]. split; [exact Fy|]. rewrite Er. change (n0, n0) with ozero.
  assert (L : Rabs (fst (affine_transform (bpt d) (bval rot) (0, 0) false) - fst (affine_transform d' (bval rot) (0, 0) false)) <= 2 * E /\ Rabs (snd (affine_transform (bpt d) (bval rot) (0, 0) false) - snd (affine_transform d' (bval rot) (0, 0) false)) <= 2 * E).
  { unfold affine_transform. destruct (Reqb (bval rot) 0); cbn [negb fst snd bpt]; cbv zeta.
    - split; match goal with |- Rabs (?x + 0 - (?y + 0)) <= _ => replace (x + 0 - (y + 0)) with (x - y) by ring end; lra.
    - pose proof (COS_bound (bval rot)) as C. pose proof (SIN_bound (bval rot)) as S1. assert (C1 : Rabs (cos (bval rot)) <= 1) by (apply Rabs_le; lra). assert (S2 : Rabs (sin (bval rot)) <= 1) by (apply Rabs_le; lra).
      pose proof (abs_mul _ _ _ _ C1 D1). pose proof (abs_mul _ _ _ _ C1 D2). pose proof (abs_mul _ _ _ _ S2 D1). pose proof (abs_mul _ _ _ _ S2 D2). split.
      + match goal with |- Rabs ?z <= _ => replace z with (cos (bval rot) * (bval (fst d) - fst d') - sin (bval rot) * (bval (snd d) - snd d')) by (cbn [fst snd]; ring) end. eapply Rle_trans; [apply abs_dif; eassumption|]. lra.
      + match goal with |- Rabs ?z <= _ => replace z with (sin (bval rot) * (bval (fst d) - fst d') + cos (bval rot) * (bval (snd d) - snd d')) by (cbn [fst snd]; ring) end. eapply Rle_trans; [apply abs_sum; eassumption|]. lra. }
  destruct L as (L1 & L2). set (y := affine_num ncos nsin d rot ozero false) in *. set (Y := affine_transform (bpt d) (bval rot) (0, 0) false) in *. set (Y' := affine_transform d' (bval rot) (0, 0) false) in *. split.
  - replace (bval (fst y) - fst Y') with ((bval (fst y) - fst Y) + (fst Y - fst Y')) by ring. eapply Rle_trans; [apply Rabs_triang|]. lra.
  - replace (bval (snd y) - snd Y') with ((bval (snd y) - snd Y) + (snd Y - snd Y')) by ring. eapply Rle_trans; [apply Rabs_triang|]. lra.
Qed.
Lemma transform_size M ncos nsin pose m X fi fo Y : 0 <= M -> same_pose M ncos nsin pose m -> Rabs (fst X) <= M -> Rabs (snd X) <= M -> transform m X fi fo = Ret Y -> Rabs (fst Y) <= 4 * M /\ Rabs (snd Y) <= 4 * M.
Proof.
  intros M0 SP X1 X2 E. assert (same : Y = X -> Rabs (fst Y) <= 4 * M /\ Rabs (snd Y) <= 4 * M) by (intros ->; lra). unfold same_pose in SP. destruct pose as [[pos rot]|], m as [m|]; try contradiction; [|apply same; cbn in E; congruence].
  destruct SP as (_ & (W1 & W2) & _ & _ & Ep & _). cbn [transform] in E. destruct (frame_eqb fi fo); [apply same; congruence|]. destruct fi, fo; try discriminate; match type of E with Ret ?z = Ret _ => assert (EY : Y = z) by congruence end; rewrite EY; apply affine_size; rewrite ?Ep; assumption.
Qed.
Lemma unit_le V : 0 < norm V -> Rabs (fst V / norm V) <= 1 /\ Rabs (snd V / norm V) <= 1.
Proof.
  intros D0. destruct (abs_norm V) as (N1 & N2). assert (0 < / norm V) by (apply Rinv_0_lt_compat; exact D0). unfold Rdiv. split; rewrite Rabs_mult, (Rabs_pos_eq (/ norm V)) by lra; apply Rmult_le_reg_r with (norm V); try exact D0; rewrite Rmult_assoc, Rinv_l by lra; lra.
Qed.
Lemma exact_normal E x fi fo B : transform (e_mm E) x fi OBSTACLE = Ret B -> let V := (snd (e_a E) ^ 2 * fst B, fst (e_a E) ^ 2 * snd B) : Pt in 0 < norm V ->
  e_normal E x fi fo true = bind (rotate (e_mm E) (fst V / norm V, snd V / norm V) OBSTACLE fo) (fun r => Ret (Some r)).
Proof.
  intros EB V D0. unfold e_normal. rewrite EB. cbn [bind]. unfold ell_normal. cbv zeta. fold V. rewrite np_norm_norm. destruct (Reqb_spec (norm V) 0) as [Z|_]; [lra|]. cbn [bind]. unfold scale. replace (/ norm V * fst V) with (fst V / norm V) by (unfold Rdiv; ring). replace (/ norm V * snd V) with (snd V / norm V) by (unfold Rdiv; ring). reflexivity.
Qed.
(** a point given in the obstacle frame: the error does not depend on the axes, nor on where the point is *)
Theorem C141_own_frame : forall ncos nsin pose m a b fo k xr, same_pose (p2 300) ncos nsin pose m -> bfin_pt a -> bfin_pt b -> (fo = GLOBAL \/ fo = OBSTACLE) ->
  p2 (-50) <= bval (fst a) <= p2 100 -> p2 (-50) <= bval (snd a) <= p2 100 -> within (p2 150) b -> p2 (-140) <= norm (bval (snd a) ^ 2 * bval (fst b), bval (fst a) ^ 2 * bval (snd b)) ->
  exists n n', normal_num ncos nsin b64_sqrt pose a b OBSTACLE fo = Ret n /\ e_normal (Ell (bpt a) k m xr) (bpt b) OBSTACLE fo true = Ret (Some n') /\ bfin_pt n /\
    let E := match fo with OBSTACLE => 24 * p2 (-53) | _ => 60 * p2 (-53) end in Rabs (bval (fst n) - fst n') <= E /\ Rabs (bval (snd n) - snd n') <= E.
Proof.
  intros ncos nsin pose m a b fo k xr SP Fa Fb Ho (L1 & H1) (L2 & H2) Wb HD. pose proof u_small as (U0 & U1). pose proof (p2_pos (-50)) as P50. pose proof (p2_pos (-140)) as P140.
  assert (SQ : forall t, p2 (-50) <= t -> t <= p2 100 -> t ^ 2 <= p2 200). { intros t T1 T2. replace (t ^ 2) with (t * t) by ring. change 200%Z with (100 + 100)%Z. rewrite p2_add. apply Rmult_le_compat; lra. }
  assert (Z1 : Rabs (bval (fst b) - fst (bpt b)) <= 0 * u /\ Rabs (bval (snd b) - snd (bpt b)) <= 0 * u) by (cbn [bpt fst snd]; rewrite !Rminus_diag_eq by reflexivity; rewrite Rabs_R0; lra).
  destruct (ell_err a b (bpt b) 0 (p2 200) Fa Fb L1 L2 (SQ _ L1 H1) (SQ _ L2 H2) (Rle_refl _) Wb (Rle_refl 0) (proj1 Z1) (proj2 Z1) HD) as (Fc & C1 & C2). { cbn [bpt fst snd]. lra. }
  set (V := (bval (snd a) ^ 2 * fst (bpt b), bval (fst a) ^ 2 * snd (bpt b)) : Pt) in *. assert (D0 : 0 < norm V) by (change (p2 (-140) <= norm V) in HD; lra). assert (EE : (24 + 6 * (0 * p2 200 / norm V)) * u = 24 * u) by (field; lra). rewrite EE in C1, C2. clear EE.
  assert (EB : transform m (bpt b) OBSTACLE OBSTACLE = Ret (bpt b)) by (destruct m; reflexivity). assert (Eb : transform_num ncos nsin pose b OBSTACLE OBSTACLE = Ret b) by (destruct pose as [[pos rot]|]; reflexivity).
  destruct (unit_le V D0) as (N1 & N2). pose proof (exact_normal (Ell (bpt a) k m xr) (bpt b) OBSTACLE fo (bpt b) EB D0) as EN. cbn [e_a e_mm] in EN. change (snd (bpt a) ^ 2 * fst (bpt b), fst (bpt a) ^ 2 * snd (bpt b)) with V in EN.
  unfold normal_num. rewrite Eb. cbn [bind]. destruct Ho as [-> | ->].
  - destruct (rotate_err (p2 300) ncos nsin pose m _ (fst V / norm V, snd V / norm V) (24 * u) GLOBAL SP Fc (or_introl eq_refl) ltac:(lra) N1 N2 C1 C2) as (r & r' & E1 & E2 & Fr & G1 & G2). rewrite EN, E2. exists r, r'. cbn [bind]. cbv zeta. repeat split; try assumption; try apply Fr; lra.
  - exists (ell_normal_num b64_sqrt a b), (fst V / norm V, snd V / norm V). split; [destruct pose as [[pos rot]|]; reflexivity|]. rewrite EN. split; [destruct m; reflexivity|]. split; [exact Fc|]. cbv zeta. cbn [fst snd]. split; assumption.
Qed.
Print Assumptions C141_own_frame.
(** a point given in either frame: A bounds the squared axes, D is the length of the vector before it is normalised *)
Theorem C141_normal : forall M A ncos nsin pose m a x fi fo B k xr, 1 <= M -> M <= p2 100 -> same_pose M ncos nsin pose m -> bfin_pt a -> bfin_pt x -> within M x -> (fi = GLOBAL \/ fi = OBSTACLE) -> (fo = GLOBAL \/ fo = OBSTACLE) ->
  p2 (-50) <= bval (fst a) -> p2 (-50) <= bval (snd a) -> bval (fst a) ^ 2 <= A -> bval (snd a) ^ 2 <= A -> A <= p2 200 -> transform m (bpt x) fi OBSTACLE = Ret B ->
  let D := norm (bval (snd a) ^ 2 * fst B, bval (fst a) ^ 2 * snd B) in p2 (-40) * (M * A) <= D ->
  exists n n', normal_num ncos nsin b64_sqrt pose a x fi fo = Ret n /\ e_normal (Ell (bpt a) k m xr) (bpt x) fi fo true = Ret (Some n') /\ bfin_pt n /\
    let E := (60 + 204 * (M * A / D)) * p2 (-53) in Rabs (bval (fst n) - fst n') <= E /\ Rabs (bval (snd n) - snd n') <= E.
Proof.
  intros M A ncos nsin pose m a x fi fo B k xr M1 M2 SP Fa Fx Wx Hi Ho L1 L2 A1 A2 A3 EB D HD. pose proof u_small as (U0 & U1). pose proof (p2_pos (-50)) as P50. pose proof (p2_pos (-140)) as P140. pose proof (p2_pos (-40)) as P40.
  assert (M3 : M <= p2 300) by (apply Rle_trans with (p2 100); [exact M2|apply p2_le; lia]).
  destruct (transform_err M ncos nsin pose m x fi OBSTACLE M1 M3 SP Fx Wx Hi (or_intror eq_refl)) as (b & B' & Eb & EB' & Fb & _ & E1 & E2). rewrite EB in EB'. injection EB' as <-.
  destruct (transform_size M ncos nsin pose m (bpt x) fi OBSTACLE B ltac:(lra) SP (proj1 Wx) (proj2 Wx) EB) as (S1 & S2).
  assert (A0 : p2 (-100) <= A). { apply Rle_trans with (bval (fst a) ^ 2); [|exact A1]. replace (bval (fst a) ^ 2) with (bval (fst a) * bval (fst a)) by ring. change (-100)%Z with (-50 + -50)%Z. rewrite p2_add. apply Rmult_le_compat; lra. } pose proof (p2_pos (-100)) as P100.
  assert (MA : p2 (-100) <= M * A) by (apply Rle_trans with (1 * A); [lra|apply Rmult_le_compat_r; lra]).
  assert (HD2 : p2 (-140) <= D). { apply Rle_trans with (p2 (-40) * (M * A)); [|exact HD]. change (-140)%Z with (-40 + -100)%Z. rewrite p2_add. apply Rmult_le_compat_l; lra. }
  assert (UM : M * u <= M / 1000) by (unfold Rdiv; apply Rmult_le_compat_l; lra).
  assert (Wb : within (p2 150) b). { assert (8 * p2 100 <= p2 150) by (replace (8 * p2 100) with (p2 103); [apply p2_le; lia|change 103%Z with (3 + 100)%Z; rewrite p2_add, (p2_Z 3) by lia; change (2 ^ 3)%Z with 8%Z; lra]). split.
    - replace (bval (fst b)) with (fst B + (bval (fst b) - fst B)) by ring. eapply Rle_trans; [apply Rabs_triang|]. lra.
    - replace (bval (snd b)) with (snd B + (bval (snd b) - snd B)) by ring. eapply Rle_trans; [apply Rabs_triang|]. lra. }
  assert (HU : 8192 * u = p2 (-40)). { change (-40)%Z with (13 + -53)%Z. rewrite p2_add, (p2_Z 13) by lia. change (2 ^ 13)%Z with 8192%Z. reflexivity. }
  assert (HMA : u * (M * A) <= D / 8192). { rewrite <- HU in HD. rewrite Rmult_assoc in HD. lra. } assert (UMA : 0 <= u * (M * A)) by (apply Rmult_le_pos; lra).
  destruct (ell_err a b B (17 * M) A Fa Fb L1 L2 A1 A2 A3 Wb ltac:(lra) E1 E2 HD2) as (Fc & C1 & C2). { fold D. replace (A * (17 * M * u)) with (17 * (u * (M * A))) by ring. lra. }
  set (V := (bval (snd a) ^ 2 * fst B, bval (fst a) ^ 2 * snd B) : Pt) in *. fold D in C1, C2. assert (D0 : 0 < D) by lra.
  assert (EE : (24 + 6 * (17 * M * A / D)) * u = 24 * u + 102 * (u * (M * A) / D)) by (field; lra). rewrite EE in C1, C2. clear EE. set (w := u * (M * A) / D) in *.
  assert (W1 : 0 <= w <= 1 / 8192). { unfold w, Rdiv. assert (0 < / D) by (apply Rinv_0_lt_compat; exact D0). split; [apply Rmult_le_pos; lra|]. apply Rmult_le_reg_r with D; [exact D0|]. rewrite Rmult_assoc, Rinv_l by lra. lra. }
  destruct (unit_le V D0) as (N1 & N2). fold D in N1, N2. pose proof (exact_normal (Ell (bpt a) k m xr) (bpt x) fi fo B EB D0) as EN. cbn [e_a e_mm] in EN. change (snd (bpt a) ^ 2 * fst B, fst (bpt a) ^ 2 * snd B) with V in EN. fold D in EN.
  destruct (rotate_err M ncos nsin pose m _ (fst V / D, snd V / D) (24 * u + 102 * w) fo SP Fc Ho ltac:(lra) N1 N2 C1 C2) as (r & r' & F1 & F2 & Fr & G1 & G2).
  exists r, r'. split; [unfold normal_num; rewrite Eb; exact F1|]. split; [rewrite EN, F2; reflexivity|]. split; [exact Fr|]. cbv zeta. replace ((60 + 204 * (M * A / D)) * u) with (60 * u + 204 * w) by (unfold w; field; lra). split; lra.
Qed.
Print Assumptions C141_normal.
(** at the centre: not a number *)
Theorem C141_centre : forall ncos nsin pose a, bfin_pt a -> bval (fst a) <= p2 400 -> bval (snd a) <= p2 400 -> 0 <= bval (fst a) -> 0 <= bval (snd a) ->
  normal_num ncos nsin b64_sqrt pose a ozero OBSTACLE OBSTACLE = Ret (S754_nan, S754_nan).
Proof.
  intros ncos nsin pose a (F1 & F2) H1 H2 L1 L2.
  assert (SQ : forall s, bfin s -> 0 <= bval s -> bval s <= p2 400 -> bfin (SFmul 53 1024 s s)). { intros s F L H. assert (Rabs (bval s * bval s) <= p2 900). { rewrite Rabs_pos_eq by (apply Rmult_le_pos; exact L). apply Rle_trans with (p2 400 * p2 400); [apply Rmult_le_compat; assumption|rewrite <- p2_add; apply p2_le; lia]. } apply (mul_near s s F F H0). }
  assert (MZ : forall s, bfin s -> exists g, SFmul 53 1024 s (S754_zero false) = S754_zero g) by (intros [g|g| |g m e]; cbn [bfin]; intros F; try contradiction; cbn; eauto).
  destruct (MZ _ (SQ _ F2 L2 H2)) as (g & G). destruct (MZ _ (SQ _ F1 L1 H1)) as (h & H).
  assert (R0 : ell_normal_num b64_sqrt a ozero = (S754_nan, S754_nan)). { unfold ell_normal_num, ozero, nsq, norm_num. cbn [fst snd nmul nadd ndiv NumB]. rewrite G, H. destruct g, h; reflexivity. }
  unfold normal_num. destruct pose as [[pos rot]|]; cbn [transform_num frame_eqb bind rotate_num]; rewrite R0; reflexivity.
Qed.
Print Assumptions C141_centre.
(** *** an ellipse with axes 3 and 2 at (5, 6), its point (8, 6) *)
Example C141_example : let i z : b64 := b64_of_Z z in let pose := ((i 5%Z, i 6%Z), i 0%Z) in let m := static_new (Some (5, 6)) 0 in let x := (i 8%Z, i 6%Z) in let a := (i 3%Z, i 2%Z) in
  (1 <= 8 /\ 8 <= p2 100) /\ same_pose 8 (fun _ => i 1%Z) (fun _ => i 0%Z) (Some pose) (Some m) /\ bfin_pt a /\ (bfin_pt x /\ within 8 x) /\ (p2 (-50) <= bval (fst a) /\ p2 (-50) <= bval (snd a)) /\
  (bval (fst a) ^ 2 <= 9 /\ bval (snd a) ^ 2 <= 9 /\ 9 <= p2 200) /\ transform (Some m) (bpt x) GLOBAL OBSTACLE = Ret (3, 0) /\ p2 (-40) * (8 * 9) <= norm (bval (snd a) ^ 2 * 3, bval (fst a) ^ 2 * 0).
Proof.
  cbv zeta. assert (one : forall z, bfin (b64_of_Z z) -> Qeq (b64q (b64_of_Z z)) (inject_Z z) -> bfin (b64_of_Z z) /\ bval (b64_of_Z z) = IZR z) by (intros y F Q; split; [exact F|]; rewrite b64q_R, (Qeq_eqR _ _ Q); unfold Q2R, inject_Z; cbn [Qnum Qden]; rewrite Rinv_1, Rmult_1_r; reflexivity).
  destruct (one 0%Z) as (F0 & V0); try (vm_compute; reflexivity). destruct (one 1%Z) as (F1 & V1); try (vm_compute; reflexivity). destruct (one 2%Z) as (F2 & V2); try (vm_compute; reflexivity). destruct (one 3%Z) as (F3 & V3); try (vm_compute; reflexivity).
  destruct (one 5%Z) as (F5 & V5); try (vm_compute; reflexivity). destruct (one 6%Z) as (F6 & V6); try (vm_compute; reflexivity). destruct (one 8%Z) as (F8 & V8); try (vm_compute; reflexivity). clear one.
  assert (A : forall y B, 0 <= y <= B -> Rabs y <= B) by (intros y B H; rewrite Rabs_pos_eq; lra). assert (P4 : forall z, (4 <= z)%Z -> 16 <= p2 z) by (intros z Hz; apply Rle_trans with (p2 4); [rewrite p2_Z by lia; change (2 ^ 4)%Z with 16%Z; lra|apply p2_le; lia]).
  pose proof (P4 100%Z ltac:(lia)) as P100. pose proof (P4 200%Z ltac:(lia)) as P200. assert (P50 : p2 (-50) <= 1) by (rewrite <- p2_0; apply p2_le; lia). unfold bfin_pt, within, bpt. cbn [fst snd]. rewrite V2, V3, V6, V8.
  split; [lra|]. split; [|split; [|split; [|split; [|split; [|split]]]]].
  - cbn [same_pose static_new m_pos m_rot]. unfold bfin_pt, within, bpt, trig_near. cbn [fst snd]. rewrite V0, V1, V5, V6, cos_0, sin_0. unfold Rminus. rewrite !Rplus_opp_r, Rabs_R0. assert (0 < / 2 ^ 53) by (apply Rinv_0_lt_compat, pow_lt; lra).
    split; [auto|]. split; [split; apply A; lra|]. split; [exact F0|]. split; [repeat split; auto; lra|]. split; reflexivity.
  - auto.
  - split; [auto|]. split; apply A; lra.
  - lra.
  - lra.
  - cbn [transform frame_eqb static_new m_rot m_pos]. unfold affine_transform. destruct (Reqb_spec 0 0); [|lra]. cbn [fst snd]. f_equal. apply pair_eq; lra.
  - destruct (abs_norm (2 ^ 2 * 3, 3 ^ 2 * 0)) as (H & _). cbn [fst] in H. rewrite Rabs_pos_eq in H by lra. eapply Rle_trans; [|exact H]. apply Rle_trans with (p2 (- (10)) * (8 * 9)); [apply Rmult_le_compat_r; [lra|apply p2_le; lia]|]. rewrite p2_inv, p2_Z by lia. change (2 ^ 10)%Z with 1024%Z. lra.
Qed.
