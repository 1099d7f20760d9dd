(** Property C144: Ellipse.boundary_mapping of obstacles/ellipse.py in binary64 arithmetic. *)
From Coq Require Import ZArith QArith Qreals Reals SpecFloat Bool Lia Lra List.
From Verif Require Import Num Spec L_Geom M_Cg L_Cg M_Motion M_Obstacle L_Obstacle M_Ellipse M_Float S_Float L_Float L_FloatCmp L_FloatCg L_FloatDiv L_FloatNorm L_FloatGrid L_FloatEllipse L_FloatRel P_Float M_FloatEllipse P_FloatEllipse M_FloatChord L_FloatChord P_FloatChord M_FloatDirection P_FloatDirection M_FloatBoundary.
Import ListNotations.
Local Open Scope R_scope.
Local Notation u := (p2 (-53)).

Lemma map_res_same m (l : list RPt) : map_res (fun p => transform m p OBSTACLE OBSTACLE) l = Ret l.
Proof. assert (OO : forall y, transform m y OBSTACLE OBSTACLE = Ret y) by (intros y; destruct m; reflexivity). induction l as [|p l IH]; [reflexivity|]. cbn [map_res]. rewrite OO, IH. reflexivity. Qed.
(** with real numbers: the method of M_Ellipse *)
Theorem C144_same_code : forall E x, x <> e_xr E -> e_boundary_mapping E x OBSTACLE OBSTACLE = Ret (boundary_num sqrt (e_a E) (e_xr E) x).
Proof.
  intros E x N. assert (OO : forall y, transform (e_mm E) y OBSTACLE OBSTACLE = Ret y) by (intros y; destruct (e_mm E); reflexivity). unfold e_boundary_mapping, reference_direction, e_line_intersection. repeat (rewrite OO; cbn [bind]). cbv zeta. set (xr := e_xr E) in *. set (a := e_a E).
  assert (DP : np_norm (psub x xr) <> 0). { rewrite np_norm_norm. change (norm (vsub x xr) <> 0). apply Rgt_not_eq, Rlt_gt, norm_pos. intros Z. apply N. unfold vsub in Z. injection Z as Z1 Z2. destruct x, xr; cbn [fst snd] in *. apply pair_eq; lra. }
  match goal with |- context [if ?b then Exn NotFinite else _] => replace b with false by (symmetry; destruct (Reqb_spec (np_norm (psub x xr)) 0) as [C|_]; [exfalso; exact (DP C)|reflexivity]) end. cbn [bind]. rewrite !OO. cbn [bind]. rewrite map_res_same. cbn [bind].
  assert (EE : padd xr (scale (11 / 10 * e_diam E) (scale (/ np_norm (psub x xr)) (psub x xr))) = ray_end_num sqrt a xr x).
  { unfold ray_end_num, unit_num, ell_diam_num, e_diam. fold a. cbv zeta. change (norm_num sqrt (fst x - fst xr, snd x - snd xr)%num) with (np_norm (psub x xr)). set (n := np_norm (psub x xr)). assert (L2 : @nlit R NumR 2 = 2) by (cbn; unfold Q2R; cbn; lra). assert (L11 : @nlit R NumR (11 # 10) = 11 / 10) by (cbn; unfold Q2R; cbn; lra). rewrite L2, L11. unfold padd, scale, psub. cbn [fst snd nadd nsub nmul ndiv nltb NumR].
    assert (EM : Rmax (2 * fst a) (2 * snd a) = if Rltb (2 * fst a) (2 * snd a) then 2 * snd a else 2 * fst a) by (destruct (Rltb_spec (2 * fst a) (2 * snd a)); unfold Rmax; destruct Rle_dec; lra). rewrite EM. apply pair_eq; unfold Rdiv; ring. }
  rewrite EE. unfold boundary_num. rewrite C143_same_code. destruct (ell_line a xr (ray_end_num sqrt a xr x)) as [|p [|q l]]; [reflexivity|rewrite OO; reflexivity|]. rewrite OO. reflexivity.
Qed.
Print Assumptions C144_same_code.

Lemma u_val : u = / 9007199254740992.
Proof. change (-53)%Z with (- (53))%Z. rewrite p2_inv, p2_Z by lia. reflexivity. Qed.
Lemma lit11_val : bfin (@nlit b64 NumB (11 # 10)) /\ Rabs (bval (@nlit b64 NumB (11 # 10)) - 1.1) <= u.
Proof.
  split; [vm_compute; reflexivity|]. rewrite b64q_R. assert (H : Q2R (11 # 10) - Q2R (1 # 10000000000000000) <= Q2R (b64q (@nlit b64 NumB (11 # 10))) <= Q2R (11 # 10) + Q2R (1 # 10000000000000000)).
  { rewrite <- Q2R_minus, <- Q2R_plus. split; apply Qle_Rle, Qle_bool_iff; vm_compute; reflexivity. }
  replace (Q2R (11 # 10)) with 1.1 in H by (unfold Q2R; cbn; lra). replace (Q2R (1 # 10000000000000000)) with (/ 10000000000000000) in H by (unfold Q2R; cbn; lra). rewrite u_val. apply Rabs_le. lra.
Qed.
Lemma tiny_D D : p2 (-20) <= D -> p2 (-1075) <= u * D / 1000000.
Proof.
  intros H. apply Rle_trans with (u * p2 (-20) * p2 (- (20))); [rewrite <- !p2_add; apply p2_le; lia|]. assert (T : p2 (- (20)) <= / 1000000) by (rewrite p2_inv, p2_Z by lia; change (2 ^ 20)%Z with 1048576%Z; lra). pose proof u_small as (U0 & U1). pose proof (p2_pos (-20)).
  apply Rmult_le_compat; [apply Rmult_le_pos; lra|left; apply p2_pos| |exact T]. apply Rmult_le_compat_l; lra.
Qed.
Section Ray.
  Variables (a xr x : pt b64).
  Hypotheses (Fa : bfin_pt a) (Fr : bfin_pt xr) (Fx : bfin_pt x) (H0 : p2 (-20) <= bval (fst a) <= p2 10) (H1 : p2 (-20) <= bval (snd a) <= p2 10).
  Let D := 2 * Rmax (bval (fst a)) (bval (snd a)).
  Lemma D_size : p2 (-20) <= D <= 2048 /\ 2 * bval (fst a) <= D /\ 2 * bval (snd a) <= D.
  Proof. unfold D. assert (p2 10 = 1024) by (rewrite p2_Z by lia; reflexivity). pose proof (p2_pos (-20)). unfold Rmax. destruct Rle_dec; lra. Qed.
  Lemma twice_err z : bfin z -> p2 (-20) <= bval z <= p2 10 -> bfin (SFmul 53 1024 (@nlit b64 NumB 2) z) /\ Rabs (bval (SFmul 53 1024 (@nlit b64 NumB 2) z) - 2 * bval z) <= 1.001 * (u * (2 * bval z)).
  Proof.
    intros F (L & U). assert (F2 : bfin (@nlit b64 NumB 2)) by (vm_compute; reflexivity). assert (P10 : p2 10 = 1024) by (rewrite p2_Z by lia; reflexivity). assert (P9 : 4096 <= p2 900) by (apply Rle_trans with (p2 12); [rewrite p2_Z by lia; change (2 ^ 12)%Z with 4096%Z; lra|apply p2_le; lia]). pose proof (p2_pos (-20)). pose proof u_small as (U0 & U1).
    destruct (mul_near _ z F2 F) as (Fm & Em & _); rewrite two_val in *; [rewrite Rabs_pos_eq; lra|]. split; [exact Fm|]. rewrite (Rabs_pos_eq (2 * bval z)) in Em by lra. pose proof (tiny_D (bval z) L) as T. assert (0 < u * bval z) by (apply Rmult_lt_0_compat; lra). lra.
  Qed.
  Lemma scale_err : let s := SFmul 53 1024 (@nlit b64 NumB (11 # 10)) (ell_diam_num a) in bfin s /\ Rabs (bval s - 1.1 * D) <= 3.5 * (u * D).
  Proof.
    destruct D_size as ((D0 & D1) & D2 & D3). pose proof u_small as (U0 & U1). pose proof (p2_pos (-20)) as P20. assert (UD : 0 < u * D) by (apply Rmult_lt_0_compat; lra). assert (UD1 : u * D <= 1 / 1000000000000000 * D) by (apply Rmult_le_compat_r; lra).
    assert (ED : bfin (ell_diam_num a) /\ Rabs (bval (ell_diam_num a) - D) <= 1.001 * (u * D)).
    { destruct Fa as (F0 & F1). destruct (twice_err _ F0 H0) as (G0 & E0). destruct (twice_err _ F1 H1) as (G1 & E1). unfold ell_diam_num. cbn [nltb nmul NumB]. rewrite ltb_spec by assumption. set (t0 := SFmul 53 1024 (@nlit b64 NumB 2) (fst a)) in *. set (t1 := SFmul 53 1024 (@nlit b64 NumB 2) (snd a)) in *.
      assert (Q0 : u * (2 * bval (fst a)) <= u * D) by (apply Rmult_le_compat_l; lra). assert (Q1 : u * (2 * bval (snd a)) <= u * D) by (apply Rmult_le_compat_l; lra). apply Rabs_le_inv in E0. apply Rabs_le_inv in E1. destruct (Rltb_spec (bval t0) (bval t1)) as [C|C]; [split; [exact G1|]; change (Rabs (bval t1 - D) <= 1.001 * (u * D))|split; [exact G0|]; change (Rabs (bval t0 - D) <= 1.001 * (u * D))]; clearbody t0 t1; apply Rabs_le; unfold D in *; unfold Rmax in *; destruct Rle_dec; lra. }
    destruct ED as (Fd & Ed). destruct lit11_val as (F11 & E11). intros s. apply Rabs_le_inv in Ed. apply Rabs_le_inv in E11. set (l := bval (@nlit b64 NumB (11 # 10))) in *. set (d := bval (ell_diam_num a)) in *. assert (P9 : 4096 <= p2 900) by (apply Rle_trans with (p2 12); [rewrite p2_Z by lia; change (2 ^ 12)%Z with 4096%Z; lra|apply p2_le; lia]).
    assert (EL : Rabs (l * d - 1.1 * D) <= 2.2 * (u * D)). { replace (l * d - 1.1 * D) with ((l - 1.1) * d + 1.1 * (d - D)) by ring. eapply Rle_trans; [apply Rabs_triang|]. rewrite !Rabs_mult, (Rabs_pos_eq 1.1), (Rabs_pos_eq d) by lra. assert (Rabs (l - 1.1) * d <= u * (1.001 * D)) by (apply Rmult_le_compat; [apply Rabs_pos|lra|apply Rabs_le; lra|lra]). assert (Rabs (d - D) <= 1.001 * (u * D)) by (apply Rabs_le; lra). lra. }
    apply Rabs_le_inv in EL. assert (P : 0 <= l * d <= 1.11 * D) by lra. destruct (mul_near _ _ F11 Fd) as (Fs & Es & _); [fold l d; rewrite Rabs_pos_eq; lra|]. fold s in Fs, Es. fold l d in Es. split; [exact Fs|]. rewrite (Rabs_pos_eq (l * d)) in Es by lra. assert (u * (l * d) <= u * (1.11 * D)) by (apply Rmult_le_compat_l; lra). pose proof (tiny_D D D0). apply Rabs_le_inv in Es. apply Rabs_le. lra.
  Qed.
  Lemma coord_err z d X : bfin z -> bfin d -> Rabs (bval z) <= D / 2 -> Rabs X <= 1 -> Rabs (bval d - X) <= 11 * u -> let s := SFmul 53 1024 (@nlit b64 NumB (11 # 10)) (ell_diam_num a) in
    let l := SFadd 53 1024 z (SFmul 53 1024 s d) in bfin l /\ Rabs (bval l - (bval z + 1.1 * D * X)) <= 19 * (u * D).
  Proof.
    intros Fz Fd Bz BX Ed s l. destruct scale_err as (Fs & Es). fold s in Fs, Es. destruct D_size as ((D0 & D1) & _). pose proof u_small as (U0 & U1). pose proof (p2_pos (-20)) as P20. assert (UD : 0 < u * D) by (apply Rmult_lt_0_compat; lra). assert (UD1 : u * D <= 1 / 1000000000000000 * D) by (apply Rmult_le_compat_r; lra). pose proof (tiny_D D D0) as TD.
    assert (P9 : 8192 <= p2 900) by (apply Rle_trans with (p2 13); [rewrite p2_Z by lia; change (2 ^ 13)%Z with 8192%Z; lra|apply p2_le; lia]).
    assert (E1 : Rabs (bval s * bval d - 1.1 * D * X) <= 15.7 * (u * D)). { replace (bval s * bval d - 1.1 * D * X) with ((bval s - 1.1 * D) * X + bval s * (bval d - X)) by ring. eapply Rle_trans; [apply Rabs_triang|]. rewrite !Rabs_mult. assert (Bs : Rabs (bval s) <= 1.101 * D) by (apply Rabs_le_inv in Es; apply Rabs_le; lra). assert (Rabs (bval s - 1.1 * D) * Rabs X <= 3.5 * (u * D) * 1) by (apply Rmult_le_compat; try apply Rabs_pos; assumption). assert (Rabs (bval s) * Rabs (bval d - X) <= 1.101 * D * (11 * u)) by (apply Rmult_le_compat; try apply Rabs_pos; assumption). lra. }
    assert (BDX : Rabs (1.1 * D * X) <= 1.1 * D) by (rewrite Rabs_mult, (Rabs_pos_eq (1.1 * D)) by lra; rewrite <- (Rmult_1_r (1.1 * D)) at 2; apply Rmult_le_compat_l; lra).
    assert (BP : Rabs (bval s * bval d) <= 1.101 * D) by (apply Rabs_le_inv in E1; apply Rabs_le_inv in BDX; apply Rabs_le; lra). destruct (mul_near s d Fs Fd) as (Ft & Et & _); [lra|]. set (t := SFmul 53 1024 s d) in *. assert (u * Rabs (bval s * bval d) <= u * (1.101 * D)) by (apply Rmult_le_compat_l; lra).
    assert (BT : Rabs (bval t) <= 1.102 * D) by (apply Rabs_le_inv in Et; apply Rabs_le_inv in BP; apply Rabs_le; lra). assert (BZ : Rabs (bval z + bval t) <= 1.61 * D) by (eapply Rle_trans; [apply Rabs_triang|lra]). destruct (add_near z t Fz Ft) as (Fl & El & _); [lra|]. fold l in Fl, El. split; [exact Fl|]. assert (u * Rabs (bval z + bval t) <= u * (1.61 * D)) by (apply Rmult_le_compat_l; lra).
    apply Rabs_le_inv in El. apply Rabs_le_inv in Et. apply Rabs_le_inv in E1. apply Rabs_le. lra.
  Qed.
End Ray.

(** by how much the reference point must be inside the ellipse, for a ray of slope w *)
Definition ray_margin (A : Pt) (M w : R) : R := 22 * (p2 (-53) * M ^ 2 * (1 + Rabs w)) / snd A ^ 2 + (72 * p2 (-53) + 1.12 / 100000000 / fst A ^ 2) * (1 + (fst A * w / snd A) ^ 2).
Lemma norm2_sq (p q : Pt) : dist p q * dist p q = (fst p - fst q) * (fst p - fst q) + (snd p - snd q) * (snd p - snd q).
Proof. unfold dist, norm. rewrite sqrt_sqrt; [reflexivity|]. unfold norm2, dot, vsub. cbn [fst snd]. pose proof (Rle_0_sqr (fst p - fst q)). pose proof (Rle_0_sqr (snd p - snd q)). unfold Rsqr in *. lra. Qed.
Lemma inside_round (A z : Pt) m : 0 < fst A <= m -> 0 < snd A <= m -> ell_loc A z <= 0 -> Rabs (fst z) <= fst A /\ Rabs (snd z) <= snd A /\ dist z (0, 0) <= m.
Proof.
  intros (A0 & A1) (B0 & B1) L. unfold ell_loc in L. set (s := fst z / fst A) in *. set (t := snd z / snd A) in *. assert (ES : fst z = s * fst A) by (unfold s; field; lra). assert (ET : snd z = t * snd A) by (unfold t; field; lra). pose proof (pow2_ge_0 s). pose proof (pow2_ge_0 t).
  assert (AB : forall k, k ^ 2 <= 1 -> Rabs k <= 1). { intros k Hk. apply abs_of_sq; lra. }
  assert (S1 : Rabs s <= 1) by (apply AB; lra). assert (T1 : Rabs t <= 1) by (apply AB; lra). split; [rewrite ES, Rabs_mult, (Rabs_pos_eq (fst A)) by lra; rewrite <- (Rmult_1_l (fst A)) at 2; apply Rmult_le_compat_r; lra|]. split; [rewrite ET, Rabs_mult, (Rabs_pos_eq (snd A)) by lra; rewrite <- (Rmult_1_l (snd A)) at 2; apply Rmult_le_compat_r; lra|].
  assert (0 <= dist z (0, 0)) by apply sqrt_pos. apply Rsqr_incr_0_var; [|lra]. unfold Rsqr. rewrite norm2_sq. cbn [fst snd]. rewrite ES, ET. replace ((s * fst A - 0) * (s * fst A - 0) + (t * snd A - 0) * (t * snd A - 0)) with (s ^ 2 * (fst A * fst A) + t ^ 2 * (snd A * snd A)) by ring.
  assert (fst A * fst A <= m * m) by (apply Rmult_le_compat; lra). assert (snd A * snd A <= m * m) by (apply Rmult_le_compat; lra). assert (s ^ 2 * (fst A * fst A) <= s ^ 2 * (m * m)) by (apply Rmult_le_compat_l; lra). assert (t ^ 2 * (snd A * snd A) <= t ^ 2 * (m * m)) by (apply Rmult_le_compat_l; lra). assert (0 <= m * m) by (apply Rle_0_sqr). assert ((s ^ 2 + t ^ 2) * (m * m) <= 1 * (m * m)) by (apply Rmult_le_compat_r; lra). lra.
Qed.
Lemma outside_round (A z : Pt) m k : 0 < fst A <= m -> 0 < snd A <= m -> 0 <= k -> k * m <= dist z (0, 0) -> k * k - 1 <= ell_loc A z.
Proof.
  intros (A0 & A1) (B0 & B1) K0 L. unfold ell_loc. set (s := fst z / fst A) in *. set (t := snd z / snd A) in *. assert (ES : fst z = s * fst A) by (unfold s; field; lra). assert (ET : snd z = t * snd A) by (unfold t; field; lra). pose proof (pow2_ge_0 s). pose proof (pow2_ge_0 t).
  assert (SQ : k * m * (k * m) <= dist z (0, 0) * dist z (0, 0)) by (apply Rmult_le_compat; try (apply Rmult_le_pos; lra); assumption). rewrite norm2_sq in SQ. cbn [fst snd] in SQ. rewrite ES, ET in SQ. replace ((s * fst A - 0) * (s * fst A - 0) + (t * snd A - 0) * (t * snd A - 0)) with (s ^ 2 * (fst A * fst A) + t ^ 2 * (snd A * snd A)) in SQ by ring.
  assert (fst A * fst A <= m * m) by (apply Rmult_le_compat; lra). assert (snd A * snd A <= m * m) by (apply Rmult_le_compat; lra). assert (s ^ 2 * (fst A * fst A) <= s ^ 2 * (m * m)) by (apply Rmult_le_compat_l; lra). assert (t ^ 2 * (snd A * snd A) <= t ^ 2 * (m * m)) by (apply Rmult_le_compat_l; lra). assert (0 < m * m) by (apply Rmult_lt_0_compat; lra). assert (k * k * (m * m) <= (s ^ 2 + t ^ 2) * (m * m)) by lra. apply Rmult_le_reg_r in H6; lra.
Qed.
Section Answer.
  Variables (a xr x : pt b64) (M : R).
  Let A := bpt a. Let D := 2 * Rmax (bval (fst a)) (bval (snd a)). Let L := dist (bpt x) (bpt xr). Let w := line_slope (bpt xr) (bpt x).
  Let X := (bval (fst x) - bval (fst xr)) / L. Let Y := (bval (snd x) - bval (snd xr)) / L. Let e := ray_end_num b64_sqrt a xr x.
  Hypotheses (Fa : bfin_pt a) (Fr : bfin_pt xr) (Fx : bfin_pt x) (H0 : p2 (-20) <= bval (fst a) <= p2 10) (H1 : p2 (-20) <= bval (snd a) <= p2 10).
  Hypotheses (Wx : within (p2 400) x) (HL : p2 (-200) <= L) (HX : 1.001 / 10000 <= 1.1 * D * Rabs X) (HY : Rabs Y <= 99 * Rabs X) (HI : ell_loc A (bpt xr) <= 0).
  Lemma XY : Rabs X <= 1 /\ Rabs Y <= 1 /\ X * X + Y * Y = 1 /\ 1 / 100 <= Rabs X /\ Rabs w <= 99 /\ Y = w * X /\ X <> 0.
  Proof.
    assert (L0 : 0 < L) by (pose proof (p2_pos (-200)); lra). pose proof (abs_norm (vsub (bpt x) (bpt xr))) as (B1 & B2). fold (dist (bpt x) (bpt xr)) in B1, B2. fold L in B1, B2. unfold vsub, bpt in B1, B2. cbn [fst snd] in B1, B2.
    assert (Q1 : X * X + Y * Y = 1). { pose proof (norm2_sq (bpt x) (bpt xr)) as N. fold L in N. unfold bpt in N. cbn [fst snd] in N. unfold X, Y. set (p := bval (fst x) - bval (fst xr)) in *. set (q := bval (snd x) - bval (snd xr)) in *. replace (p / L * (p / L) + q / L * (q / L)) with ((p * p + q * q) / (L * L)) by (field; lra). rewrite <- N. field. lra. }
    assert (ax : forall v, Rabs v <= L -> Rabs (v / L) <= 1). { intros v Hv. unfold Rdiv. rewrite Rabs_mult, Rabs_inv, (Rabs_pos_eq L) by lra. apply Rmult_le_reg_r with L; [exact L0|]. rewrite Rmult_assoc, Rinv_l by lra. lra. }
    assert (X1 : Rabs X <= 1) by (apply ax, B1). assert (Y1 : Rabs Y <= 1) by (apply ax, B2). assert (XX : X * X = Rabs X * Rabs X) by (rewrite <- Rabs_mult; symmetry; apply Rabs_pos_eq, Rle_0_sqr). assert (YY : Y * Y = Rabs Y * Rabs Y) by (rewrite <- Rabs_mult; symmetry; apply Rabs_pos_eq, Rle_0_sqr). pose proof (Rabs_pos X) as PX. pose proof (Rabs_pos Y) as PY.
    assert (X2 : 1 / 100 <= Rabs X). { apply Rnot_lt_le. intros C. assert (Rabs Y * Rabs Y <= 99 * Rabs X * (99 * Rabs X)) by (apply Rmult_le_compat; lra). assert (Rabs X * Rabs X <= 1 / 100 * (1 / 100)) by (apply Rmult_le_compat; lra). lra. }
    assert (XN : X <> 0) by (intros Z; rewrite Z, Rabs_R0 in X2; lra). assert (NX : bval (fst x) - bval (fst xr) <> 0) by (intros Z; apply XN; unfold X; rewrite Z; field; lra).
    assert (EY : Y = w * X). { unfold w, line_slope, X, Y, bpt. cbn [fst snd]. field. split; lra. } assert (BW : Rabs w <= 99). { apply Rmult_le_reg_r with (Rabs X); [lra|]. rewrite <- Rabs_mult, <- EY. exact HY. }
    split; [exact X1|]. split; [exact Y1|]. split; [exact Q1|]. split; [exact X2|]. split; [exact BW|]. split; [exact EY|exact XN].
  Qed.
  Lemma sizes_A : 0 < fst A <= D / 2 /\ 0 < snd A <= D / 2 /\ p2 (-20) <= D <= 2048.
  Proof. destruct (D_size a H0 H1) as (D1 & D2 & D3). fold D in D1, D2, D3. pose proof (p2_pos (-20)). change (fst A) with (bval (fst a)). change (snd A) with (bval (snd a)). lra. Qed.
  Lemma end_err : bfin_pt e /\ Rabs (bval (fst e) - (bval (fst xr) + 1.1 * D * X)) <= 19 * (u * D) /\ Rabs (bval (snd e) - (bval (snd xr) + 1.1 * D * Y)) <= 19 * (u * D) /\ (Rabs (bval (fst xr)) <= fst A /\ Rabs (bval (snd xr)) <= snd A /\ dist (bpt xr) (0, 0) <= D / 2).
  Proof.
    destruct sizes_A as (SA & SB & SD). destruct (inside_round A (bpt xr) (D / 2) SA SB HI) as (I0 & I1 & I2). destruct XY as (X1 & Y1 & _).
    assert (B : D / 2 <= p2 400) by (apply Rle_trans with (p2 10); [rewrite p2_Z by lia; change (2 ^ 10)%Z with 1024%Z; lra|apply p2_le; lia]).
    change (fst (bpt xr)) with (bval (fst xr)) in I0. change (snd (bpt xr)) with (bval (snd xr)) in I1. assert (Wr : within (p2 400) xr) by (split; lra). destruct (unit_err x xr Fx Fr Wx Wr HL) as ((Fd0 & Fd1) & E0 & E1). fold L in E0, E1. fold X in E0. fold Y in E1. destruct Fr as (Fr0 & Fr1).
    destruct (coord_err a Fa H0 H1 _ _ X Fr0 Fd0) as (G0 & J0); try assumption; [fold D; lra|]. destruct (coord_err a Fa H0 H1 _ _ Y Fr1 Fd1) as (G1 & J1); try assumption; [fold D; lra|]. split; [split; [exact G0|exact G1]|]. split; [exact J0|]. split; [exact J1|]. split; [exact I0|]. split; [exact I1|exact I2].
  Qed.
  Let w' := line_slope (bpt xr) (bpt e). Let dx := bval (fst e) - bval (fst xr). Let dy := bval (snd e) - bval (snd xr).
  Lemma end_slope : 1.0001 / 10000 <= Rabs dx /\ Rabs dy <= 99.999 * Rabs dx /\ Rabs (w' - w) * Rabs dx <= 19 * (u * D) * (1 + Rabs w) /\ Rabs (w' - w) <= 1800 * u * (1 + Rabs w) /\ 0 <= dx * X /\ 2.198 * (D / 2) <= dist (bpt e) (bpt xr).
  Proof.
    destruct end_err as (_ & E0 & E1 & _). destruct XY as (X1 & Y1 & Q1 & X2 & BW & EY & XN). destruct sizes_A as (_ & _ & D0 & D1). pose proof u_small as (U0 & U1). pose proof (p2_pos (-20)) as P20. assert (UD : 0 < u * D) by (apply Rmult_lt_0_compat; lra). assert (UD1 : u * D <= 1 / 1000000000000000 * D) by (apply Rmult_le_compat_r; lra).
    set (t := 1.1 * D * X) in *. assert (ET : Rabs t = 1.1 * D * Rabs X) by (unfold t; rewrite Rabs_mult, (Rabs_pos_eq (1.1 * D)) by lra; reflexivity). rewrite <- ET in HX. assert (EW : 1.1 * D * Y = w * t) by (unfold t; rewrite EY; ring). rewrite EW in E1. set (e0 := dx - t). set (e1 := dy - w * t).
    assert (B0 : Rabs e0 <= 19 * (u * D)) by (unfold e0, dx; replace (bval (fst e) - bval (fst xr) - t) with (bval (fst e) - (bval (fst xr) + t)) by ring; exact E0). assert (B1 : Rabs e1 <= 19 * (u * D)) by (unfold e1, dy; replace (bval (snd e) - bval (snd xr) - w * t) with (bval (snd e) - (bval (snd xr) + w * t)) by ring; exact E1).
    assert (TX : Rabs t <= Rabs dx + 19 * (u * D)). { replace t with (dx - e0) by (unfold e0; ring). eapply Rle_trans; [apply Rabs_triang|]. rewrite Rabs_Ropp. lra. }
    assert (TY : Rabs dy <= 99 * Rabs t + 19 * (u * D)). { replace dy with (w * t + e1) by (unfold e1; ring). eapply Rle_trans; [apply Rabs_triang|]. rewrite Rabs_mult. assert (Rabs w * Rabs t <= 99 * Rabs t) by (apply Rmult_le_compat_r; [apply Rabs_pos|exact BW]). lra. }
    assert (T2 : 0.011 * D <= Rabs t) by (rewrite ET; assert (1.1 * D * (1 / 100) <= 1.1 * D * Rabs X) by (apply Rmult_le_compat_l; lra); lra). pose proof (Rabs_pos w) as W0.
    assert (NZ : dx <> 0) by (intros Z; rewrite Z, Rabs_R0 in TX; lra). assert (EWW : (w' - w) * dx = e1 - w * e0). { unfold w', line_slope, bpt. cbn [fst snd]. fold dx dy. unfold e0, e1. field. exact NZ. }
    assert (F1 : Rabs (w' - w) * Rabs dx <= 19 * (u * D) * (1 + Rabs w)). { rewrite <- Rabs_mult, EWW. eapply Rle_trans; [apply Rabs_triang|]. rewrite Rabs_Ropp, Rabs_mult. assert (Rabs w * Rabs e0 <= Rabs w * (19 * (u * D))) by (apply Rmult_le_compat_l; lra). lra. }
    split; [lra|]. split; [lra|]. split; [exact F1|]. split; [|split].
    - apply Rmult_le_reg_r with (Rabs dx); [lra|]. eapply Rle_trans; [exact F1|]. replace (19 * (u * D) * (1 + Rabs w)) with (u * (1 + Rabs w) * (19 * D)) by ring. replace (1800 * u * (1 + Rabs w) * Rabs dx) with (u * (1 + Rabs w) * (1800 * Rabs dx)) by ring. apply Rmult_le_compat_l; [apply Rmult_le_pos; lra|lra].
    - apply Rabs_le_inv in B0. assert (ED : dx = t + e0) by (unfold e0; ring). assert (ST : 0 <= dx * t). { rewrite ED. destruct (Rle_lt_dec 0 t) as [C|C]; [rewrite (Rabs_pos_eq t C) in *; apply Rmult_le_pos; lra|]. rewrite (Rabs_left t C) in *. replace ((t + e0) * t) with ((- (t + e0)) * (- t)) by ring. apply Rmult_le_pos; lra. }
      unfold t in ST. replace (dx * (1.1 * D * X)) with (1.1 * D * (dx * X)) in ST by ring. apply Rmult_le_reg_l with (1.1 * D); [lra|]. rewrite Rmult_0_r. exact ST.
    - assert (0 <= dist (bpt e) (bpt xr)) by apply sqrt_pos. apply Rsqr_incr_0_var; [|assumption]. unfold Rsqr. rewrite norm2_sq. unfold bpt. cbn [fst snd]. fold dx dy. set (q := 1.1 * D * Y) in *. replace dx with (t + e0) by (unfold e0; ring). replace dy with (q + e1) by (unfold e1; rewrite EW; ring).
      assert (TQ : t * t + q * q = 1.21 * (D * D)) by (unfold t, q; replace (1.1 * D * X * (1.1 * D * X) + 1.1 * D * Y * (1.1 * D * Y)) with (1.21 * (D * D) * (X * X + Y * Y)) by lra; rewrite Q1; ring). assert (TT : Rabs t <= 1.1 * D) by (rewrite ET; rewrite <- (Rmult_1_r (1.1 * D)) at 2; apply Rmult_le_compat_l; lra). assert (QQ : Rabs q <= 1.1 * D) by (unfold q; rewrite Rabs_mult, (Rabs_pos_eq (1.1 * D)) by lra; rewrite <- (Rmult_1_r (1.1 * D)) at 2; apply Rmult_le_compat_l; lra).
      assert (C0 : Rabs (t * e0) <= 1.1 * D * (0.0000001 * D)) by (rewrite Rabs_mult; apply Rmult_le_compat; try apply Rabs_pos; lra). assert (C1 : Rabs (q * e1) <= 1.1 * D * (0.0000001 * D)) by (rewrite Rabs_mult; apply Rmult_le_compat; try apply Rabs_pos; lra). apply Rabs_le_inv in C0. apply Rabs_le_inv in C1. pose proof (Rle_0_sqr e0) as S0. pose proof (Rle_0_sqr e1) as S1. unfold Rsqr in S0, S1. assert (DD : 0 < D * D) by (apply Rmult_lt_0_compat; lra). lra.
  Qed.
  Hypotheses (M1 : 1 <= M) (MA : 4 * fst A <= M) (MB : 4 * snd A <= M) (HM : ray_margin A M w <= 1 / 3) (HR : ell_loc A (bpt xr) <= - ray_margin A M w).
  Lemma answer : exists b, boundary_num b64_sqrt a xr x = Some b /\ bfin_pt b /\ Rabs (ell_loc A (bpt b)) <= (94 * u + 1.001 / 100000000 / fst A ^ 2) * (1 + (fst A * w / snd A) ^ 2) /\
    Rabs (bval (snd b) - (bval (snd xr) + w * (bval (fst b) - bval (fst xr)))) <= 29 * (u * M * (1 + Rabs w)) /\ 0 <= (bval (fst b) - bval (fst xr)) * (bval (fst x) - bval (fst xr)).
  Proof.
    destruct end_err as (Fe & E0 & E1 & I0 & I1 & I2). destruct end_slope as (S1 & S2 & S3 & S4 & S5 & S6). destruct XY as (X1 & Y1 & Q1 & X2 & BW & EY & XN). destruct sizes_A as ((A0 & A1) & (B0 & B1) & D0 & D1). pose proof u_small as (U0 & U1). pose proof (p2_pos (-20)) as P20. pose proof (Rabs_pos w) as W0.
    assert (UD : 0 < u * D) by (apply Rmult_lt_0_compat; lra). assert (UD1 : u * D <= 1 / 1000000000000000 * D) by (apply Rmult_le_compat_r; lra). assert (MD : D <= M / 2) by (unfold D; change (bval (fst a)) with (fst A); change (bval (snd a)) with (snd A); unfold Rmax; destruct Rle_dec; lra).
    assert (AX : forall v B, 0 <= B -> Rabs v <= 1 -> Rabs (B * v) <= B) by (intros v B HB Hv; rewrite Rabs_mult, (Rabs_pos_eq B) by exact HB; rewrite <- (Rmult_1_r B) at 2; apply Rmult_le_compat_l; assumption).
    assert (BE : Rabs (bval (fst e)) <= 1.61 * D /\ Rabs (bval (snd e)) <= 1.61 * D). { pose proof (AX X (1.1 * D) ltac:(lra) X1) as G0. pose proof (AX Y (1.1 * D) ltac:(lra) Y1) as G1. apply Rabs_le_inv in G0. apply Rabs_le_inv in G1. apply Rabs_le_inv in E0. apply Rabs_le_inv in E1. assert (J0 : Rabs (bval (fst xr)) <= D / 2) by lra. assert (J1 : Rabs (bval (snd xr)) <= D / 2) by lra. apply Rabs_le_inv in J0. apply Rabs_le_inv in J1. split; apply Rabs_le; lra. }
    assert (P20' : p2 20 = 1048576) by (rewrite p2_Z by lia; reflexivity). assert (HS : chord_sizes a xr e). { split; [split; [exact Fa|split; [exact Fr|exact Fe]]|]. split; [split; split; lra|]. split; [exact H0|]. assert (p2 10 <= p2 20) by (apply p2_le; lia). lra. }
    assert (WA : within M a). { split; [change (bval (fst a)) with (fst A)|change (bval (snd a)) with (snd A)]; rewrite Rabs_pos_eq; lra. } assert (WR : within M xr) by (split; lra). assert (WE : within M e) by (split; lra).
    assert (UW : u * (1 + Rabs w) <= 1 / 1000000000000000 * 100) by (apply Rmult_le_compat; lra). assert (W1 : Rabs w' <= Rabs w + 0.000000001). { replace w' with (w + (w' - w)) by ring. eapply Rle_trans; [apply Rabs_triang|]. lra. }
    assert (NN : 1 + (fst A * w' / snd A) ^ 2 <= 1.0007 * (1 + (fst A * w / snd A) ^ 2)).
    { set (k := fst A / snd A). assert (K0 : 0 < k) by (apply Rdiv_lt_0_compat; lra). assert (KU : k * (1800 * u) <= 0.00022). { destruct (axes_pos a xr e HS) as (_ & _ & AP). change (fst (bpt a)) with (fst A) in AP. change (snd (bpt a)) with (snd A) in AP. assert (KP : k <= p2 30). { unfold k. apply Rmult_le_reg_r with (snd A); [lra|]. unfold Rdiv. rewrite Rmult_assoc, Rinv_l by lra. lra. } assert (T : p2 30 * u <= 0.00000012) by (rewrite <- p2_add; change (30 + -53)%Z with (- (23))%Z; rewrite p2_inv, p2_Z by lia; change (2 ^ 23)%Z with 8388608%Z; lra). assert (k * u <= p2 30 * u) by (apply Rmult_le_compat_r; lra). lra. }
      replace (fst A * w' / snd A) with (k * w') by (unfold k; field; lra). replace (fst A * w / snd A) with (k * w) by (unfold k; field; lra). set (z := Rabs (k * w)). assert (Z0 : 0 <= z) by apply Rabs_pos. assert (EZ : (k * w) ^ 2 = z * z) by (unfold z; rewrite <- Rabs_mult, Rabs_pos_eq by apply Rle_0_sqr; ring). rewrite EZ.
      assert (ZW : Rabs (k * w') <= 1.00022 * z + 0.00022). { replace (k * w') with (k * w + k * (w' - w)) by ring. eapply Rle_trans; [apply Rabs_triang|]. fold z. rewrite (Rabs_mult k), (Rabs_pos_eq k) by lra. assert (k * Rabs (w' - w) <= k * (1800 * u * (1 + Rabs w))) by (apply Rmult_le_compat_l; lra). assert (EZ2 : z = k * Rabs w) by (unfold z; rewrite Rabs_mult, (Rabs_pos_eq k) by lra; reflexivity). assert (k * (1800 * u) * Rabs w <= 0.00022 * Rabs w) by (apply Rmult_le_compat_r; assumption).
        assert (UZ : k * (1800 * u) * Rabs w <= 0.00022 * z). { rewrite EZ2. replace (k * (1800 * u) * Rabs w) with (1800 * u * (k * Rabs w)) by ring. apply Rmult_le_compat_r; [apply Rmult_le_pos; lra|lra]. } lra. }
      assert (SQ : (k * w') ^ 2 <= (1.00022 * z + 0.00022) * (1.00022 * z + 0.00022)). { replace ((k * w') ^ 2) with (Rabs (k * w') * Rabs (k * w')) by (rewrite <- Rabs_mult, Rabs_pos_eq by apply Rle_0_sqr; ring). apply Rmult_le_compat; try apply Rabs_pos; exact ZW. } pose proof (Rle_0_sqr (z - 1)) as ZZ. unfold Rsqr in ZZ. lra. }
    set (N := 1 + (fst A * w / snd A) ^ 2) in *. assert (N0 : 1 <= N) by (unfold N; pose proof (pow2_ge_0 (fst A * w / snd A)); lra). assert (I20 : 0 < / fst A ^ 2) by (apply Rinv_0_lt_compat, pow_lt, A0). assert (I21 : 0 < / snd A ^ 2) by (apply Rinv_0_lt_compat, pow_lt, B0).
    set (E' := 21 * (u * M ^ 2 * (1 + Rabs w')) / snd A ^ 2 + (71 * u + 1.11 / 100000000 / fst A ^ 2) * (1 + (fst A * w' / snd A) ^ 2)).
    assert (LE : E' <= ray_margin A M w). { unfold E', ray_margin. fold N. clear E'. set (N' := 1 + (fst A * w' / snd A) ^ 2) in *. clearbody N N'. set (i0 := / fst A ^ 2) in *. set (i1 := / snd A ^ 2) in *. change (21 * (u * M ^ 2 * (1 + Rabs w')) * i1 + (71 * u + 1.11 / 100000000 * i0) * N' <= 22 * (u * M ^ 2 * (1 + Rabs w)) * i1 + (72 * u + 1.12 / 100000000 * i0) * N). clearbody i0 i1. assert (MM : 0 <= u * M ^ 2 * i1) by (apply Rmult_le_pos; [apply Rmult_le_pos; [lra|apply pow2_ge_0]|lra]). assert (P1 : u * M ^ 2 * i1 * (21 * (1 + Rabs w')) <= u * M ^ 2 * i1 * (22 * (1 + Rabs w))) by (apply Rmult_le_compat_l; lra).
      assert (P2 : (71 * u + 1.11 / 100000000 * i0) * N' <= (71 * u + 1.11 / 100000000 * i0) * (1.0007 * N)) by (apply Rmult_le_compat_l; lra). assert (P3 : (71 * u + 1.11 / 100000000 * i0) * 1.0007 * N <= (72 * u + 1.12 / 100000000 * i0) * N) by (apply Rmult_le_compat_r; lra). lra. }
    assert (OUT : 0.4 <= ell_loc A (bpt e)). { apply Rle_trans with (1.198 * 1.198 - 1); [lra|]. apply (outside_round A (bpt e) (D / 2)); [split; assumption|split; assumption|lra|]. pose proof (dist_triangle (bpt e) (0, 0) (bpt xr)) as T. rewrite (dist_sym (0, 0) (bpt xr)) in T. lra. }
    destruct (C143_one a xr e M HS S1 S2 M1 WA WR WE) as (b & EB & BB). { left. change (ell_loc A (bpt xr) <= - E' /\ E' <= ell_loc A (bpt e)). split; lra. }
    assert (HB : In b (chord_num b64_sqrt a xr e)) by (rewrite EB; left; reflexivity). destruct (C143_on_ellipse a xr e b HS S1 S2 HB) as (Fb & LB). pose proof (C143_on_line a xr e M b HS S1 S2 M1 WA WR WE HB) as LL. cbv zeta in LL. change (line_slope (bpt xr) (bpt e)) with w' in LB, LL. change (bpt a) with A in LB.
    exists b. split; [unfold boundary_num; fold e; rewrite EB; reflexivity|]. split; [exact Fb|]. split; [|split].
    - eapply Rle_trans; [exact LB|]. set (N' := 1 + (fst A * w' / snd A) ^ 2) in *. set (i0 := / fst A ^ 2) in *. change ((93 * u + 1.00001 / 100000000 * i0) * N' <= (94 * u + 1.001 / 100000000 * i0) * N). clearbody N N' i0. assert (P2 : (93 * u + 1.00001 / 100000000 * i0) * N' <= (93 * u + 1.00001 / 100000000 * i0) * (1.0007 * N)) by (apply Rmult_le_compat_l; lra). assert (P3 : (93 * u + 1.00001 / 100000000 * i0) * 1.0007 * N <= (94 * u + 1.001 / 100000000 * i0) * N) by (apply Rmult_le_compat_r; lra). lra.
    - set (db := bval (fst b) - bval (fst xr)) in *. assert (BD : Rabs db <= Rabs dx). { unfold db. change (bval (fst e)) with (bval (fst xr) + dx) || (replace (bval (fst e)) with (bval (fst xr) + dx) in BB by (unfold dx; ring)). unfold Rmin, Rmax in BB. destruct (Rle_dec (bval (fst xr)) (bval (fst xr) + dx)) as [C|C]; [rewrite (Rabs_pos_eq dx) by lra; apply Rabs_le; lra|rewrite (Rabs_left dx) by lra; apply Rabs_le; lra]. }
      replace (bval (snd b) - (bval (snd xr) + w * db)) with (bval (snd b) - (bval (snd xr) + w' * db) + (w' - w) * db) by ring. eapply Rle_trans; [apply Rabs_triang|]. rewrite (Rabs_mult (w' - w)). assert (T1 : Rabs (w' - w) * Rabs db <= Rabs (w' - w) * Rabs dx) by (apply Rmult_le_compat_l; [apply Rabs_pos|exact BD]). set (Q := u * M * (1 + Rabs w)). assert (T2 : 19 * (u * D) * (1 + Rabs w) <= 9.5 * Q). { unfold Q. replace (9.5 * (u * M * (1 + Rabs w))) with (u * (1 + Rabs w) * (9.5 * M)) by ring. replace (19 * (u * D) * (1 + Rabs w)) with (u * (1 + Rabs w) * (19 * D)) by ring. apply Rmult_le_compat_l; [apply Rmult_le_pos; lra|lra]. }
      assert (UM : 0 < u * M) by (apply Rmult_lt_0_compat; lra). assert (T3 : 19 * (u * M * (1 + Rabs w')) <= 19.001 * Q). { unfold Q. replace (19.001 * (u * M * (1 + Rabs w))) with (u * M * (19.001 * (1 + Rabs w))) by ring. replace (19 * (u * M * (1 + Rabs w'))) with (u * M * (19 * (1 + Rabs w'))) by ring. apply Rmult_le_compat_l; lra. } assert (0 < Q) by (unfold Q; apply Rmult_lt_0_compat; lra). lra.
    - assert (L0 : 0 < L) by (pose proof (p2_pos (-200)); lra). replace (bval (fst x) - bval (fst xr)) with (L * X) by (unfold X; field; lra). assert (SG : 0 <= (bval (fst b) - bval (fst xr)) * X). { replace (bval (fst e)) with (bval (fst xr) + dx) in BB by (unfold dx; ring). unfold Rmin, Rmax in BB. destruct (Rle_dec (bval (fst xr)) (bval (fst xr) + dx)) as [C|C]. - assert (0 <= X). { apply Rnot_lt_le. intros G. assert (0 < dx) by (destruct (Req_dec dx 0) as [Z|Z]; [rewrite Z, Rabs_R0 in S1; lra|lra]). assert (0 < dx * - X) by (apply Rmult_lt_0_compat; lra). lra. } apply Rmult_le_pos; lra. - assert (X <= 0). { apply Rnot_lt_le. intros G. assert (0 < - dx * X) by (apply Rmult_lt_0_compat; lra). lra. } replace ((bval (fst b) - bval (fst xr)) * X) with ((bval (fst xr) - bval (fst b)) * - X) by ring. apply Rmult_le_pos; lra. }
      replace ((bval (fst b) - bval (fst xr)) * (L * X)) with (L * ((bval (fst b) - bval (fst xr)) * X)) by ring. apply Rmult_le_pos; lra.
  Qed.
End Answer.
(** from a reference point inside the ellipse, and in a direction that is not steep, boundary_mapping answers: with a point near the ellipse, near the line through the reference point and x, on the side of x *)
Theorem C144_answer : forall a xr x M, bfin_pt a -> bfin_pt xr -> bfin_pt x -> p2 (-20) <= bval (fst a) <= p2 10 -> p2 (-20) <= bval (snd a) <= p2 10 -> within (p2 400) x ->
  let A := bpt a in let L := dist (bpt x) (bpt xr) in let dx := bval (fst x) - bval (fst xr) in let dy := bval (snd x) - bval (snd xr) in let w := line_slope (bpt xr) (bpt x) in
  p2 (-200) <= L -> 1.001 / 10000 <= 1.1 * (2 * Rmax (fst A) (snd A)) * (Rabs dx / L) -> Rabs dy <= 99 * Rabs dx ->
  1 <= M -> 4 * fst A <= M -> 4 * snd A <= M -> ray_margin A M w <= 1 / 3 -> ell_loc A (bpt xr) <= - ray_margin A M w ->
  exists b, boundary_num b64_sqrt a xr x = Some b /\ bfin_pt b /\ Rabs (ell_loc A (bpt b)) <= (94 * p2 (-53) + 1.001 / 100000000 / fst A ^ 2) * (1 + (fst A * w / snd A) ^ 2) /\
    Rabs (bval (snd b) - (bval (snd xr) + w * (bval (fst b) - bval (fst xr)))) <= 29 * (p2 (-53) * M * (1 + Rabs w)) /\ 0 <= (bval (fst b) - bval (fst xr)) * dx.
Proof.
  intros a xr x M Fa Fr Fx H0 H1 Wx A L dx dy w HL HX HY M1 MA MB HM HR. assert (L0 : 0 < L) by (pose proof (p2_pos (-200)); lra). assert (EA : forall v, Rabs (v / L) = Rabs v / L) by (intros v; unfold Rdiv; rewrite Rabs_mult, Rabs_inv, (Rabs_pos_eq L) by lra; reflexivity).
  assert (HM0 : 0 <= ray_margin A M w). { unfold ray_margin. pose proof u_small as (U0 & U1). pose proof (Rabs_pos w). pose proof (p2_pos (-20)). assert (I0 : 0 < / fst A ^ 2) by (apply Rinv_0_lt_compat, pow_lt; change (fst A) with (bval (fst a)); lra). assert (I1 : 0 < / snd A ^ 2) by (apply Rinv_0_lt_compat, pow_lt; change (snd A) with (bval (snd a)); lra). assert (0 <= M ^ 2) by apply pow2_ge_0. assert (0 <= (fst A * w / snd A) ^ 2) by apply pow2_ge_0.
    apply Rplus_le_le_0_compat; [unfold Rdiv; repeat apply Rmult_le_pos; lra|apply Rmult_le_pos; [unfold Rdiv; lra|lra]]. }
  apply answer; try assumption.
  - change (bval (fst a)) with (fst A). change (bval (snd a)) with (snd A). fold L dx. rewrite EA. exact HX.
  - fold L dx dy. rewrite !EA. unfold Rdiv. rewrite <- Rmult_assoc. apply Rmult_le_compat_r; [left; apply Rinv_0_lt_compat; exact L0|exact HY].
  - fold A. lra.
Qed.
Print Assumptions C144_answer.
Lemma add_nan (x : b64) : SFadd 53 1024 x S754_nan = S754_nan. Proof. destruct x; reflexivity. Qed.
Lemma sub_nan (x : b64) : SFsub 53 1024 x S754_nan = S754_nan. Proof. destruct x; reflexivity. Qed.
Lemma mul_nan (x : b64) : SFmul 53 1024 x S754_nan = S754_nan. Proof. destruct x; reflexivity. Qed.
Lemma ltb_nan (x : b64) : SFltb x S754_nan = false. Proof. destruct x; reflexivity. Qed.
Lemma nan_ltb (x : b64) : SFltb S754_nan x = false. Proof. reflexivity. Qed.
Lemma nan_add (x : b64) : SFadd 53 1024 S754_nan x = S754_nan. Proof. reflexivity. Qed.
Lemma nan_sub (x : b64) : SFsub 53 1024 S754_nan x = S754_nan. Proof. reflexivity. Qed.
Lemma nan_div (x : b64) : SFdiv 53 1024 S754_nan x = S754_nan. Proof. reflexivity. Qed.
(** for the reference point itself the answer is a point that is not a number *)
Theorem C144_at_xr : forall a xr, bfin_pt xr -> boundary_num b64_sqrt a xr xr = Some (S754_nan, S754_nan).
Proof.
  intros a xr Fr. assert (E : ray_end_num b64_sqrt a xr xr = (S754_nan, S754_nan)). { unfold ray_end_num. rewrite unit_self by exact Fr. cbn [fst snd nadd nmul NumB]. rewrite mul_nan. rewrite !add_nan. reflexivity. }
  unfold boundary_num. rewrite E. clear E. assert (E : chord_num b64_sqrt a xr (S754_nan, S754_nan) = [(S754_nan, S754_nan); (S754_nan, S754_nan)]).
  { assert (AL : chord_left xr (S754_nan, S754_nan) = (S754_nan, S754_nan)) by (unfold chord_left; cbn [fst snd nltb NumB]; rewrite ltb_nan; reflexivity). assert (AR : chord_right xr (S754_nan, S754_nan) = xr) by (unfold chord_right; cbn [fst snd nltb NumB]; rewrite ltb_nan; reflexivity).
    unfold chord_num. cbv zeta. rewrite AL, AR. assert (EM : chord_m (S754_nan, S754_nan) xr = S754_nan) by (unfold chord_m; cbn [fst snd nsub ndiv NumB]; rewrite !sub_nan; reflexivity). assert (EC : chord_c (S754_nan, S754_nan) xr = S754_nan) by (unfold chord_c; cbn [fst snd nsub nmul NumB]; reflexivity).
    assert (ES : chord_steep (S754_nan, S754_nan) xr = false). { unfold chord_steep. rewrite EM. cbn [fst snd nsub nabs nltb NumB]. rewrite sub_nan. cbn [SFabs]. rewrite nan_ltb. apply ltb_nan. }
    match goal with |- (if ?s then ?v else chord_sloped ?r ?aa ?nn ?x ?m ?c) = _ => replace s with false by (symmetry; exact ES); replace m with (S754_nan : b64) by (symmetry; exact EM); replace c with (S754_nan : b64) by (symmetry; exact EC) end. assert (EK : chord_kx2 a (S754_nan : b64) = S754_nan) by (unfold chord_kx2, nsq; cbn [nadd nmul NumB]; change (SFmul 53 1024 S754_nan S754_nan) with S754_nan; rewrite mul_nan; reflexivity). assert (EX : chord_kx a (S754_nan : b64) (S754_nan : b64) = S754_nan) by (unfold chord_kx; cbn [nmul NumB]; apply mul_nan).
    assert (ED : chord_disc a (S754_nan : b64) (S754_nan : b64) = S754_nan) by (unfold chord_disc; rewrite EK; reflexivity). assert (EMid : chord_mid a (S754_nan : b64) (S754_nan : b64) = S754_nan) by (unfold chord_mid; rewrite EX; reflexivity).
    assert (EQ : chord_in_sqrt a (S754_nan : b64) (S754_nan : b64) = S754_nan). { unfold chord_in_sqrt. rewrite EX, EK. cbv zeta. cbn [nsub ndiv NumB]. change (@nsq b64 NumB S754_nan) with (S754_nan : b64). rewrite nan_div, nan_sub. reflexivity. }
    unfold chord_sloped. rewrite ED, EMid, EQ. cbn [nltb neqb nsub nadd NumB]. change (b64_sqrt S754_nan) with (S754_nan : b64). change (SFsub 53 1024 S754_nan S754_nan) with (S754_nan : b64). change (SFadd 53 1024 S754_nan S754_nan) with (S754_nan : b64). cbn [fst snd].
    rewrite !ltb_nan. reflexivity. }
  rewrite E. unfold gap_num. cbn [fst snd nltb nsub NumB]. rewrite !nan_sub. reflexivity.
Qed.
Print Assumptions C144_at_xr.
(** half axes 3 and 2, reference point (1, 0), the point (4, 4) *)
Example C144_example : let i z : b64 := b64_of_Z z in let a := (i 3%Z, i 2%Z) in let xr := (i 1%Z, i 0%Z) in let x := (i 4%Z, i 4%Z) in let A := bpt a in let M := 12 in
  bfin_pt a /\ bfin_pt xr /\ bfin_pt x /\ p2 (-20) <= bval (fst a) <= p2 10 /\ p2 (-20) <= bval (snd a) <= p2 10 /\ within (p2 400) x /\ dist (bpt x) (bpt xr) = 5 /\ p2 (-200) <= 5 /\ line_slope (bpt xr) (bpt x) = 4 / 3 /\
  1.001 / 10000 <= 1.1 * (2 * Rmax (fst A) (snd A)) * (Rabs (bval (fst x) - bval (fst xr)) / 5) /\ Rabs (bval (snd x) - bval (snd xr)) <= 99 * Rabs (bval (fst x) - bval (fst xr)) /\ 4 * fst A <= M /\ 4 * snd A <= M /\ ray_margin A M (4 / 3) <= 1 / 3 /\ ell_loc A (bpt xr) <= - ray_margin A M (4 / 3).
Proof.
  cbv zeta. assert (F3 : bfin (b64_of_Z 3) /\ bval (b64_of_Z 3) = 3) by (apply int_val; vm_compute; reflexivity). assert (F2 : bfin (b64_of_Z 2) /\ bval (b64_of_Z 2) = 2) by (apply int_val; vm_compute; reflexivity). assert (F1 : bfin (b64_of_Z 1) /\ bval (b64_of_Z 1) = 1) by (apply int_val; vm_compute; reflexivity). assert (F0 : bfin (b64_of_Z 0) /\ bval (b64_of_Z 0) = 0) by (apply int_val; vm_compute; reflexivity). assert (F4 : bfin (b64_of_Z 4) /\ bval (b64_of_Z 4) = 4) by (apply int_val; vm_compute; reflexivity).
  destruct F3 as (F3 & V3), F2 as (F2 & V2), F1 as (F1 & V1), F0 as (F0 & V0), F4 as (F4 & V4). assert (X10 : 1000 <= p2 10) by (rewrite p2_Z by lia; change (2 ^ 10)%Z with 1024%Z; lra). assert (X0 : p2 (-20) <= 1) by (rewrite <- p2_0; apply p2_le; lia). assert (X400 : 1000 <= p2 400) by (eapply Rle_trans; [exact X10|apply p2_le; lia]). assert (X200 : p2 (-200) <= 1) by (rewrite <- p2_0; apply p2_le; lia). pose proof u_small as (U0 & U1).
  unfold bfin_pt, within, line_slope, ray_margin, ell_loc, bpt. cbn [fst snd]. rewrite V0, V1, V2, V3, V4. rewrite (Rabs_pos_eq 4), (Rabs_pos_eq (4 - 1)), (Rabs_pos_eq (4 - 0)), (Rabs_pos_eq (4 / 3)) by lra. assert (EM : Rmax 3 2 = 3) by (unfold Rmax; destruct Rle_dec; lra). rewrite EM.
  split; [auto|]. split; [auto|]. split; [auto|]. split; [lra|]. split; [lra|]. split; [lra|]. split; [apply dist_eq; [lra|unfold norm2, dot, vsub; cbn [fst snd]; lra]|]. repeat split; lra.
Qed.
(** in a steep direction the answer is the end of the second axis, wherever the ray is: with rounding as without (the special case of line_intersection) *)
Theorem C144_steep : forall a xr x, bfin_pt a -> bfin_pt xr -> bfin_pt x -> p2 (-20) <= bval (fst a) <= p2 10 -> p2 (-20) <= bval (snd a) <= p2 10 -> within (p2 400) x ->
  let A := bpt a in let D := 2 * Rmax (fst A) (snd A) in let L := dist (bpt x) (bpt xr) in let dx := bval (fst x) - bval (fst xr) in let dy := bval (snd x) - bval (snd xr) in
  p2 (-200) <= L -> 101 * Rabs dx <= Rabs dy -> Rabs (bval (fst xr)) + 1.1 * D * (Rabs dx / L) + 19 * (p2 (-53) * D) <= fst A -> Rabs (bval (snd xr)) < snd A ->
  exists b, boundary_num b64_sqrt a xr x = Some b /\ bpt b = (0, if Rltb 0 dy then snd A else - snd A).
Proof.
  intros a xr x Fa Fr Fx H0 H1 Wx A D L dx dy HL HS HX HI. assert (L0 : 0 < L) by (pose proof (p2_pos (-200)); lra). destruct (D_size a H0 H1) as ((D0 & D1) & D2 & D3). fold A in D0, D1, D2, D3. change (bval (fst a)) with (fst A) in *. change (bval (snd a)) with (snd A) in *. fold D in D0, D1, D2, D3.
  pose proof u_small as (U0 & U1). pose proof (p2_pos (-20)) as P20. assert (UD : 0 < u * D) by (apply Rmult_lt_0_compat; lra). assert (UD1 : u * D <= 1 / 1000000000000000 * D) by (apply Rmult_le_compat_r; lra).
  set (X := dx / L). set (Y := dy / L). assert (EA : forall v, Rabs (v / L) = Rabs v / L) by (intros v; unfold Rdiv; rewrite Rabs_mult, Rabs_inv, (Rabs_pos_eq L) by lra; reflexivity).
  assert (Q1 : X * X + Y * Y = 1). { pose proof (norm2_sq (bpt x) (bpt xr)) as N. fold L in N. unfold bpt in N. cbn [fst snd] in N. fold dx dy in N. unfold X, Y. replace (dx / L * (dx / L) + dy / L * (dy / L)) with ((dx * dx + dy * dy) / (L * L)) by (field; lra). rewrite <- N. field. lra. }
  assert (XY : 101 * Rabs X <= Rabs Y). { unfold X, Y. rewrite !EA. unfold Rdiv. rewrite <- Rmult_assoc. apply Rmult_le_compat_r; [left; apply Rinv_0_lt_compat; exact L0|exact HS]. }
  assert (XX : X * X = Rabs X * Rabs X) by (rewrite <- Rabs_mult; symmetry; apply Rabs_pos_eq, Rle_0_sqr). assert (YY : Y * Y = Rabs Y * Rabs Y) by (rewrite <- Rabs_mult; symmetry; apply Rabs_pos_eq, Rle_0_sqr). pose proof (Rabs_pos X) as PX. pose proof (Rabs_pos Y) as PY.
  assert (Y2 : 0.999 <= Rabs Y). { apply Rnot_lt_le. intros C. assert (Rabs Y * Rabs Y <= 0.999 * 0.999) by (apply Rmult_le_compat; lra). assert (Rabs X * Rabs X <= 0.01 * 0.01) by (apply Rmult_le_compat; lra). lra. }
  assert (Y1 : Rabs Y <= 1). { apply Rnot_lt_le. intros C. assert (1 * 1 < Rabs Y * Rabs Y) by (apply Rmult_le_0_lt_compat; lra). pose proof (Rle_0_sqr X) as SX. unfold Rsqr in SX. lra. }
  assert (X1 : Rabs X <= 0.01) by lra. assert (HX' : Rabs (bval (fst xr)) + 1.1 * D * Rabs X + 19 * (u * D) <= fst A) by (unfold X; rewrite EA; exact HX). assert (PDX : 0 <= 1.1 * D * Rabs X) by (apply Rmult_le_pos; lra).
  assert (B : D / 2 <= p2 400) by (apply Rle_trans with (p2 10); [rewrite p2_Z by lia; change (2 ^ 10)%Z with 1024%Z; lra|apply p2_le; lia]). assert (Wr : within (p2 400) xr) by (split; lra).
  destruct (unit_err x xr Fx Fr Wx Wr HL) as ((Fd0 & Fd1) & E0 & E1). fold L in E0, E1. fold dx in E0. fold dy in E1. fold X in E0. fold Y in E1. destruct Fr as (Fr0 & Fr1).
  destruct (coord_err a Fa H0 H1 (fst xr) _ X Fr0 Fd0) as (G0 & J0); [change (Rabs (bval (fst xr)) <= D / 2); lra|lra|exact E0|]. destruct (coord_err a Fa H0 H1 (snd xr) _ Y Fr1 Fd1) as (G1 & J1); [change (Rabs (bval (snd xr)) <= D / 2); lra|exact Y1|exact E1|]. 
  set (e := ray_end_num b64_sqrt a xr x). assert (Fe : bfin_pt e) by (split; [exact G0|exact G1]). change (Rabs (bval (fst e) - (bval (fst xr) + 1.1 * D * X)) <= 19 * (u * D)) in J0. change (Rabs (bval (snd e) - (bval (snd xr) + 1.1 * D * Y)) <= 19 * (u * D)) in J1. clear G0 G1 E0 E1 Fd0 Fd1.
  assert (TX : Rabs (1.1 * D * X) = 1.1 * D * Rabs X) by (rewrite Rabs_mult, (Rabs_pos_eq (1.1 * D)) by lra; reflexivity). assert (TY : Rabs (1.1 * D * Y) = 1.1 * D * Rabs Y) by (rewrite Rabs_mult, (Rabs_pos_eq (1.1 * D)) by lra; reflexivity).
  assert (RY : 1.1 * D * 0.999 <= 1.1 * D * Rabs Y <= 1.1 * D * 1) by (split; apply Rmult_le_compat_l; lra). assert (RX : 1.1 * D * (101 * Rabs X) <= 1.1 * D * Rabs Y) by (apply Rmult_le_compat_l; lra).
  assert (EX : Rabs (bval (fst e)) <= fst A). { replace (bval (fst e)) with (bval (fst e) - (bval (fst xr) + 1.1 * D * X) + (bval (fst xr) + 1.1 * D * X)) by ring. eapply Rle_trans; [apply Rabs_triang|]. pose proof (Rabs_triang (bval (fst xr)) (1.1 * D * X)). lra. }
  assert (EY : Rabs (bval (snd e)) <= 1.61 * D). { replace (bval (snd e)) with (bval (snd e) - (bval (snd xr) + 1.1 * D * Y) + (bval (snd xr) + 1.1 * D * Y)) by ring. eapply Rle_trans; [apply Rabs_triang|]. pose proof (Rabs_triang (bval (snd xr)) (1.1 * D * Y)). lra. }
  assert (P20' : p2 20 = 1048576) by (rewrite p2_Z by lia; reflexivity). assert (Fr : bfin_pt xr) by (split; assumption). assert (WE : within (p2 20) e) by (split; lra). assert (WR : within (p2 20) xr) by (split; lra).
  assert (ST0 : let a0 := bval (fst e) - bval (fst xr) in let b0 := bval (snd e) - bval (snd xr) in 100.001 * Rabs a0 <= Rabs b0).
  { cbv zeta. assert (R0 : Rabs (bval (fst e) - bval (fst xr)) <= 1.1 * D * Rabs X + 19 * (u * D)). { replace (bval (fst e) - bval (fst xr)) with (1.1 * D * X + (bval (fst e) - (bval (fst xr) + 1.1 * D * X))) by ring. eapply Rle_trans; [apply Rabs_triang|]. lra. }
    assert (R1 : 1.1 * D * Rabs Y - 19 * (u * D) <= Rabs (bval (snd e) - bval (snd xr))). { pose proof (Rabs_triang (bval (snd e) - bval (snd xr)) (- (bval (snd e) - (bval (snd xr) + 1.1 * D * Y)))) as T. replace (bval (snd e) - bval (snd xr) + - (bval (snd e) - (bval (snd xr) + 1.1 * D * Y))) with (1.1 * D * Y) in T by ring. rewrite Rabs_Ropp in T. lra. } lra. }
  assert (ST : forall ll lr, (ll = xr /\ lr = e) \/ (ll = e /\ lr = xr) -> chord_steep ll lr = true).
  { intros ll lr E. destruct E as [(-> & ->)|(-> & ->)]; apply steep_cases; try assumption; right; [exact ST0|]. rewrite (Rabs_minus_sym (bval (fst xr))), (Rabs_minus_sym (bval (snd xr))). exact ST0. }
  assert (SY : (0 < dy -> snd A <= bval (snd e)) /\ (dy <= 0 -> bval (snd e) <= - snd A)).
  { apply Rabs_le_inv in J1. pose proof HI as HI'. apply Rlt_le in HI'. apply Rabs_le_inv in HI'. split; intros S.
    - assert (Y0 : 0 < Y) by (apply Rdiv_lt_0_compat; assumption). rewrite (Rabs_pos_eq Y) in RY by lra. lra.
    - assert (Y0 : Y <= 0). { unfold Y, Rdiv. pose proof (Rinv_0_lt_compat L L0). assert (0 <= - dy * / L) by (apply Rmult_le_pos; lra). lra. } rewrite (Rabs_left1 Y Y0) in RY. lra. }
  assert (IX : - fst A <= bval (fst xr) <= fst A) by (apply Rabs_le_inv; lra). apply Rabs_le_inv in EX. assert (IY : - snd A < bval (snd xr) < snd A) by (apply Rabs_def2 in HI; lra).
  assert (V : forall ll lr, (ll = xr /\ lr = e) \/ (ll = e /\ lr = xr) -> ell_vertical A (bpt ll) (bpt lr) = [(0, if Rltb 0 dy then snd A else - snd A)]).
  { intros ll lr E. unfold ell_vertical, bpt. cbv zeta. cbn [fst snd]. change (bval (fst a)) with (fst A). change (bval (snd a)) with (snd A). destruct SY as (SY0 & SY1). assert (S1' : 0 < snd A) by lra.
    destruct (Rltb_spec 0 dy) as [C|C]; [specialize (SY0 C); clear SY1|apply Rnot_lt_le in C || idtac; specialize (SY1 ltac:(lra)); clear SY0]; clear - E SY0 SY1 IX EX IY S1' || clear - E SY0 IX EX IY S1' || clear - E SY1 IX EX IY S1';
    destruct E as [(-> & ->)|(-> & ->)]; cbn [fst snd]; unfold bpt in *; cbn [fst snd] in *;
    repeat (match goal with
      | |- context [Rltb ?p ?q] => destruct (Rltb_spec p q)
      | |- context [Rleb ?p ?q] => destruct (Rleb_spec p q)
      end; cbn [orb andb fst snd]); try reflexivity; exfalso; lra. }
  unfold boundary_num. fold e. assert (CN : exists ll lr, ((ll = xr /\ lr = e) \/ (ll = e /\ lr = xr)) /\ chord_num b64_sqrt a xr e = chord_vertical a ll lr).
  { destruct (left_right xr e Fr Fe) as [(El & Er & C)|(El & Er & C)]; [exists xr, e|exists e, xr]; (split; [(left; split; reflexivity) || (right; split; reflexivity)|]); unfold chord_num; cbv zeta; rewrite El, Er; rewrite ST by ((left; split; reflexivity) || (right; split; reflexivity)); reflexivity. }
  destruct CN as (ll & lr & E & ->). specialize (V ll lr E). assert (Fl : bfin_pt ll /\ bfin_pt lr) by (destruct E as [(-> & ->)|(-> & ->)]; split; assumption). destruct Fl as (Fl & Flr). pose proof (vertical_bpt a ll lr Fa Fl Flr) as VB. change (bpt a) with A in VB. rewrite V in VB.
  destruct (chord_vertical a ll lr) as [|b [|c r]]; try discriminate VB. exists b. split; [reflexivity|]. cbn [map] in VB. congruence.
Qed.
Print Assumptions C144_steep.
(** half axes 3 and 2, reference point (1, 0), the point (1, 4): the answer (0, 2) is not on the ray *)
Example C144_steep_example : let i z : b64 := b64_of_Z z in let a := (i 3%Z, i 2%Z) in let xr := (i 1%Z, i 0%Z) in let x := (i 1%Z, i 4%Z) in let A := bpt a in let D := 2 * Rmax (fst A) (snd A) in
  let dx := bval (fst x) - bval (fst xr) in let dy := bval (snd x) - bval (snd xr) in
  dist (bpt x) (bpt xr) = 4 /\ 101 * Rabs dx <= Rabs dy /\ Rabs (bval (fst xr)) + 1.1 * D * (Rabs dx / 4) + 19 * (p2 (-53) * D) <= fst A /\ Rabs (bval (snd xr)) < snd A /\ 0 < dy.
Proof.
  cbv zeta. assert (F3 : bfin (b64_of_Z 3) /\ bval (b64_of_Z 3) = 3) by (apply int_val; vm_compute; reflexivity). assert (F2 : bfin (b64_of_Z 2) /\ bval (b64_of_Z 2) = 2) by (apply int_val; vm_compute; reflexivity). assert (F1 : bfin (b64_of_Z 1) /\ bval (b64_of_Z 1) = 1) by (apply int_val; vm_compute; reflexivity). assert (F0 : bfin (b64_of_Z 0) /\ bval (b64_of_Z 0) = 0) by (apply int_val; vm_compute; reflexivity). assert (F4 : bfin (b64_of_Z 4) /\ bval (b64_of_Z 4) = 4) by (apply int_val; vm_compute; reflexivity).
  destruct F3 as (_ & V3), F2 as (_ & V2), F1 as (_ & V1), F0 as (_ & V0), F4 as (_ & V4). pose proof u_small as (U0 & U1). unfold bpt. cbn [fst snd]. rewrite V0, V1, V2, V3, V4. assert (EM : Rmax 3 2 = 3) by (unfold Rmax; destruct Rle_dec; lra). rewrite EM. replace (1 - 1) with 0 by ring. rewrite Rabs_R0, (Rabs_pos_eq (4 - 0)), (Rabs_pos_eq 1) by lra.
  split; [|repeat split; lra]. unfold dist, norm, norm2, dot, vsub. cbn [fst snd]. replace ((1 - 1) * (1 - 1) + (4 - 0) * (4 - 0)) with (4 * 4) by ring. apply sqrt_square. lra.
Qed.
