(** Property C143: Ellipse.line_intersection of obstacles/ellipse.py in binary64 arithmetic. *)
From Coq Require Import ZArith QArith Qreals Reals SpecFloat Bool Lia Lra List.
From Verif Require Import Num Spec L_Geom M_Cg L_Cg M_Motion M_Obstacle M_Ellipse M_Float S_Float L_Float L_FloatCmp L_FloatCg L_FloatDiv L_FloatNorm L_FloatGrid L_FloatEllipse L_FloatRel P_Float M_FloatEllipse P_FloatEllipse M_FloatChord L_FloatChord.
Import ListNotations.
Local Open Scope R_scope.
Local Notation u := (p2 (-53)).

Lemma lits_R : Q2R 0 = 0 /\ Q2R 2 = 2 /\ Q2R 4 = 4 /\ Q2R 100 = 100 /\ Q2R (1 # 100000) = 1 / 100000 /\ Q2R (1 # 100000000) = 1 / 100000000 /\ Q2R (1 # 10000) = 1 / 10000.
Proof. unfold Q2R; cbn; repeat split; lra. Qed.
Lemma chord_vertical_R (a ll lr : RPt) : chord_vertical a ll lr = ell_vertical a ll lr.
Proof. destruct lits_R as (L0 & _). unfold chord_vertical, ell_vertical, n0. cbv zeta. cbn [nltb nleb nopp nlit NumR]. rewrite L0. reflexivity. Qed.
Lemma chord_sloped_R (a ll lr : RPt) m c : chord_sloped sqrt a ll lr m c = ell_sloped a ll lr m c.
Proof.
  destruct lits_R as (L0 & L2 & L4 & _ & L5 & L8 & _). assert (SQ : forall z : R, z * z = z ^ 2) by (intros; ring).
  unfold chord_sloped, ell_sloped, chord_disc, chord_mid, chord_in_sqrt, chord_kx, chord_kx2, chord_k1, chord_point, isclose_num, np_isclose, nsq, n0. cbv zeta. cbn [nadd nsub nmul ndiv nopp nabs nltb nleb neqb nlit NumR]. rewrite L0, L2, L4, L5, L8, !SQ. reflexivity.
Qed.
(** with real numbers: the method of M_Ellipse *)
Theorem C143_same_code : forall a l0 l1, chord_num sqrt a l0 l1 = ell_line a l0 l1.
Proof.
  intros a l0 l1. destruct lits_R as (_ & _ & _ & L100 & _ & _ & L10). unfold chord_num, ell_line. cbv zeta. rewrite chord_vertical_R, chord_sloped_R. unfold chord_steep, chord_c, chord_m. cbn [nsub nmul ndiv nabs nltb nlit NumR]. rewrite L10, L100. reflexivity.
Qed.
Print Assumptions C143_same_code.

(** the slope and the intercept computed from the two points *)
Lemma lit4_val : bfin (@nlit b64 NumB (1 # 10000)) /\ 0.0000999999 <= bval (@nlit b64 NumB (1 # 10000)) <= 0.0001000001.
Proof. split; [vm_compute; reflexivity|]. rewrite b64q_R. replace 0.0000999999 with (Q2R (999999 # 10000000000)) by (unfold Q2R; cbn; lra). replace 0.0001000001 with (Q2R (1000001 # 10000000000)) by (unfold Q2R; cbn; lra). split; apply Qle_Rle, Qle_bool_iff; vm_compute; reflexivity. Qed.
Lemma lit100_val : bfin (@nlit b64 NumB 100) /\ bval (@nlit b64 NumB 100) = 100.
Proof. split; [vm_compute; reflexivity|]. assert (Q1 : Qeq (b64q (@nlit b64 NumB 100)) 100) by (vm_compute; reflexivity). rewrite b64q_R, (Qeq_eqR _ _ Q1). unfold Q2R. cbn. lra. Qed.
Lemma dif_rel (x y : b64) : bfin x -> bfin y -> Rabs (bval x) <= p2 20 -> Rabs (bval y) <= p2 20 -> rel 1 (-1070) (SFsub 53 1024 x y) (bval x - bval y) /\ Rabs (bval x - bval y) <= p2 21.
Proof.
  intros Fx Fy Bx By. assert (B : Rabs (bval x - bval y) <= p2 21) by (rewrite (p2_S 20) || (change 21%Z with (20 + 1)%Z; rewrite p2_S); pose proof (abs_dif _ _ _ _ Bx By); lra). split; [|exact B].
  destruct (sub_near x y Fx Fy) as (F & E & _); [eapply Rle_trans; [exact B|apply p2_le; lia]|]. split; [exact F|]. assert (p2 (-1075) <= p2 (-1070)) by (apply p2_le; lia). lra.
Qed.
Definition narrow (ll lr : pt b64) : bool := SFltb (SFabs (SFsub 53 1024 (fst lr) (fst ll))) (@nlit b64 NumB (1 # 10000)).
Definition upright (ll lr : pt b64) : bool := SFltb (@nlit b64 NumB 100) (SFabs (chord_m ll lr)).
Lemma steep_eq ll lr : chord_steep ll lr = if narrow ll lr then true else upright ll lr.
Proof. reflexivity. Qed.
Section Slope.
  Variables (ll lr : pt b64).
  Hypotheses (Fl : bfin_pt ll) (Fr : bfin_pt lr) (Wl : within (p2 20) ll) (Wr : within (p2 20) lr).
  Let dx := bval (fst lr) - bval (fst ll). Let dy := bval (snd lr) - bval (snd ll).
  Lemma dx_test : (Rabs dx <= 0.9999 / 10000 -> narrow ll lr = true) /\ (1.0001 / 10000 <= Rabs dx -> narrow ll lr = false) /\
    (narrow ll lr = false -> 0.9999 / 10000 <= Rabs dx).
  Proof.
    destruct Fl as (F0 & _), Fr as (F1 & _), Wl as (B0 & _), Wr as (B1 & _). destruct (dif_rel _ _ F1 F0 B1 B0) as ((Fd & Ed) & _). fold dx in Ed. destruct (abs_spec _ Fd) as (Fa & Va). destruct lit4_val as (F4 & L4). unfold narrow. rewrite ltb_spec, Va by assumption. pose proof u_small as (U0 & U1). set (z := bval (SFsub 53 1024 (fst lr) (fst ll))) in *.
    pose proof (Rabs_pos dx) as P. assert (UD : u * Rabs dx <= 1 / 1000000000000000 * Rabs dx) by (apply Rmult_le_compat_r; lra). assert (T : p2 (-1070) <= 1 / 1000000000000). { apply Rle_trans with (p2 (- (40))); [apply p2_le; lia|]. rewrite p2_inv, p2_Z by lia. change (2 ^ 40)%Z with 1099511627776%Z. lra. }
    assert (T1 : Rabs z <= Rabs dx + Rabs (z - dx)) by (replace z with (dx + (z - dx)) at 1 by ring; apply Rabs_triang). assert (T2 : Rabs dx <= Rabs z + Rabs (z - dx)) by (replace dx with (z - (z - dx)) at 1 by ring; eapply Rle_trans; [apply Rabs_triang|rewrite Rabs_Ropp; lra]).
    match type of L4 with _ <= ?l <= _ => set (L := l) in * end. match goal with |- context [Rltb (Rabs z) ?l] => change l with L end. clearbody L z. destruct (Rltb_spec (Rabs z) L) as [C|C]; (split; [|split]); intros H; [reflexivity|exfalso; lra|discriminate H|exfalso; lra|reflexivity|lra].
  Qed.
  Lemma slope_rel : 0.9999 / 10000 <= Rabs dx -> rel 3.05 (-1040) (chord_m ll lr) (dy / dx).
  Proof.
    intros DX. destruct Fl as (F0 & F0'), Fr as (F1 & F1'), Wl as (B0 & B0'), Wr as (B1 & B1'). destruct (dif_rel _ _ F1 F0 B1 B0) as (Ed & _). destruct (dif_rel _ _ F1' F0' B1' B0') as (Ey & By). fold dx in Ed. fold dy in Ey, By.
    assert (P : p2 (- (21)) <= Rabs dx) by (rewrite p2_inv, p2_Z by lia; change (2 ^ 21)%Z with 2097152%Z; lra). destruct (rel_div 1 1 (-1070) 21 _ _ _ _ Ey Ed) as (D & _); try lia; try lra. eapply rel_weak; [| |exact D]; [lra|lia].
  Qed.
  (** which case is taken *)
  Lemma steep_cases : ((Rabs dx <= 0.9999 / 10000 \/ 100.001 * Rabs dx <= Rabs dy) -> chord_steep ll lr = true) /\ (1.0001 / 10000 <= Rabs dx -> Rabs dy <= 99.999 * Rabs dx -> chord_steep ll lr = false).
  Proof.
    destruct dx_test as (T1 & T2 & T3). rewrite steep_eq. pose proof u_small as (U0 & U1). destruct lit100_val as (F100 & V100). assert (T : p2 (-1040) <= 1 / 1000000000000). { apply Rle_trans with (p2 (- (40))); [apply p2_le; lia|]. rewrite p2_inv, p2_Z by lia. change (2 ^ 40)%Z with 1099511627776%Z. lra. }
    assert (SL : 0.9999 / 10000 <= Rabs dx -> bfin (chord_m ll lr) /\ Rabs (bval (chord_m ll lr)) <= 1.0000001 * (Rabs dy / Rabs dx) + 0.000001 /\ 0.9999999 * (Rabs dy / Rabs dx) - 0.000001 <= Rabs (bval (chord_m ll lr))).
    { intros DX. destruct (slope_rel DX) as (Fz & Ez). split; [exact Fz|]. assert (E : Rabs (dy / dx) = Rabs dy / Rabs dx) by (unfold Rdiv; rewrite Rabs_mult, Rabs_inv; reflexivity). rewrite <- E. set (w := dy / dx) in *. set (z := bval (chord_m ll lr)) in *. pose proof (Rabs_pos w).
      assert (u * Rabs w <= 1 / 1000000000000000 * Rabs w) by (apply Rmult_le_compat_r; lra). assert (Rabs z <= Rabs w + Rabs (z - w)) by (replace z with (w + (z - w)) at 1 by ring; apply Rabs_triang). assert (Rabs w <= Rabs z + Rabs (z - w)) by (replace w with (z - (z - w)) at 1 by ring; eapply Rle_trans; [apply Rabs_triang|rewrite Rabs_Ropp; lra]). split; lra. }
    split.
    - intros H. destruct (narrow ll lr) eqn:C; [reflexivity|]. specialize (T3 eq_refl). destruct H as [H|H]; [specialize (T1 H); discriminate T1|]. destruct (SL T3) as (Fz & _ & Bz). destruct (abs_spec (chord_m ll lr) Fz) as (Fa & Va). unfold upright. rewrite ltb_spec, Va, V100 by assumption. apply Rltb_true.
      assert (100.001 <= Rabs dy / Rabs dx). { apply Rmult_le_reg_r with (Rabs dx); [lra|]. unfold Rdiv. rewrite Rmult_assoc, Rinv_l, Rmult_1_r by lra. exact H. } lra.
    - intros H1 H2. rewrite (T2 H1). destruct SL as (Fz & Bz & _); [lra|]. destruct (abs_spec (chord_m ll lr) Fz) as (Fa & Va). unfold upright. rewrite ltb_spec, Va, V100 by assumption. apply Rltb_false.
      assert (Rabs dy / Rabs dx <= 99.999). { apply Rmult_le_reg_r with (Rabs dx); [lra|]. unfold Rdiv. rewrite Rmult_assoc, Rinv_l, Rmult_1_r by lra. exact H2. } lra.
  Qed.
  (** the sloped case: slope and intercept *)
  Lemma line_val M : chord_steep ll lr = false -> 1 <= M -> within M ll -> let m := chord_m ll lr in let c := chord_c ll lr in let w := dy / dx in bfin m /\ bfin c /\ Rabs (bval m) <= p2 7 /\ Rabs (bval c) <= p2 30 /\ dx <> 0 /\ Rabs w <= 101 /\
    Rabs (bval m - w) <= 3.1 * u * (1 + Rabs w) /\ Rabs (bval c - (bval (snd ll) - w * bval (fst ll))) <= 7 * u * M * (1 + Rabs w).
  Proof.
    intros SF M1 WM m c w. destruct dx_test as (T1 & T2 & T3). rewrite steep_eq in SF. pose proof u_small as (U0 & U1). destruct lit100_val as (F100 & V100).
    destruct (narrow ll lr); [discriminate SF|]. specialize (T3 eq_refl). destruct (slope_rel T3) as (Fm & Em). fold m in Fm, Em. fold w in Em. destruct (abs_spec m Fm) as (Fa & Va). unfold upright in SF. fold m in SF. rewrite ltb_spec, Va, V100 in SF by assumption.
    destruct (Rltb_spec 100 (Rabs (bval m))) as [C|C]; [discriminate SF|]. assert (Bm : Rabs (bval m) <= 100) by lra. pose proof (Rabs_pos w) as W0. assert (T : p2 (-1040) <= u / 1000000). { assert (T6 : p2 (- (20)) <= / 1000000) by (rewrite p2_inv, p2_Z by lia; change (2 ^ 20)%Z with 1048576%Z; lra). apply Rle_trans with (u * p2 (- (20))); [rewrite <- p2_add; apply p2_le; lia|]. unfold Rdiv. apply Rmult_le_compat_l; lra. }
    assert (UW : u * Rabs w <= 1 / 1000000000000000 * Rabs w) by (apply Rmult_le_compat_r; lra). assert (Bw : Rabs w <= Rabs (bval m) + Rabs (bval m - w)) by (replace w with (bval m - (bval m - w)) at 1 by ring; eapply Rle_trans; [apply Rabs_triang|rewrite Rabs_Ropp; lra]). assert (Bw' : Rabs w <= 101) by lra.
    assert (UW0 : 0 <= u * Rabs w) by (apply Rmult_le_pos; lra). assert (Em' : Rabs (bval m - w) <= 3.1 * u * (1 + Rabs w)) by lra. assert (DN : dx <> 0) by (intros Z; rewrite Z, Rabs_R0 in T3; lra).
    destruct Fl as (F0 & F0'), Wl as (B0 & B0'), WM as (M0 & M0'). set (x := bval (fst ll)) in *. set (y := bval (snd ll)) in *. assert (P20 : p2 20 = 1048576) by (rewrite p2_Z by lia; reflexivity). assert (P7 : p2 7 = 128) by (rewrite p2_Z by lia; reflexivity). assert (P30 : p2 30 = 1073741824) by (rewrite p2_Z by lia; reflexivity). rewrite P20 in B0, B0'.
    assert (P9 : p2 30 <= p2 900) by (apply p2_le; lia). rewrite P30 in P9. assert (Bx : Rabs (bval m * x) <= 100 * 1048576) by (apply abs_mul; assumption).
    destruct (mul_near m (fst ll) Fm F0) as (Ft & Et & _); [fold x; lra|]. fold x in Et. set (t := SFmul 53 1024 m (fst ll)) in *. assert (T5 : p2 (-1075) <= p2 (-1040)) by (apply p2_le; lia).
    assert (BM : Rabs (bval m * x) <= 1.0001 * (1 + Rabs w) * M). { apply abs_mul; [|exact M0]. assert (Rabs (bval m) <= Rabs w + Rabs (bval m - w)) by (replace (bval m) with (w + (bval m - w)) at 1 by ring; apply Rabs_triang). lra. }
    set (Q := (1 + Rabs w) * M). assert (Q1 : 1 <= Q) by (unfold Q; apply Rle_trans with (1 * 1); [lra|apply Rmult_le_compat; lra]). assert (QM : M <= Q) by (unfold Q; rewrite <- (Rmult_1_l M) at 1; apply Rmult_le_compat_r; lra). replace (1.0001 * (1 + Rabs w) * M) with (1.0001 * Q) in BM by (unfold Q; ring).
    assert (UQ : u <= u * Q) by (rewrite <- (Rmult_1_r u) at 1; apply Rmult_le_compat_l; lra). assert (UQ1 : u * Q <= 1 / 1000000000000000 * Q) by (apply Rmult_le_compat_r; lra). assert (UB : u * Rabs (bval m * x) <= u * (1.0001 * Q)) by (apply Rmult_le_compat_l; lra). assert (UB2 : u * Rabs (bval m * x) <= u * (100 * 1048576)) by (apply Rmult_le_compat_l; lra).
    assert (Et' : Rabs (bval t - bval m * x) <= 1.0002 * (u * Q)) by lra. assert (Bt : Rabs (bval t) <= Rabs (bval m * x) + Rabs (bval t - bval m * x)) by (replace (bval t) with (bval m * x + (bval t - bval m * x)) at 1 by ring; apply Rabs_triang).
    assert (Bs : Rabs (y - bval t) <= 102 * 1048576). { eapply Rle_trans; [apply Rabs_triang|]. rewrite Rabs_Ropp. lra. } assert (BsQ : Rabs (y - bval t) <= 2.001 * Q). { eapply Rle_trans; [apply Rabs_triang|]. rewrite Rabs_Ropp. lra. }
    destruct (sub_near (snd ll) t F0' Ft) as (Fc & Ec & _); [fold y; lra|]. fold y in Ec. change (SFsub 53 1024 (snd ll) t) with c in Fc, Ec. assert (UBs : u * Rabs (y - bval t) <= u * (2.001 * Q)) by (apply Rmult_le_compat_l; lra). assert (UBs2 : u * Rabs (y - bval t) <= u * (102 * 1048576)) by (apply Rmult_le_compat_l; lra).
    assert (Bc : Rabs (bval c) <= Rabs (y - bval t) + Rabs (bval c - (y - bval t))) by (replace (bval c) with ((y - bval t) + (bval c - (y - bval t))) at 1 by ring; apply Rabs_triang).
    split; [exact Fm|]. split; [exact Fc|]. split; [lra|]. split; [lra|]. split; [exact DN|]. split; [exact Bw'|]. split; [exact Em'|].
    assert (Q2 : Rabs ((bval m - w) * x) <= 3.1 * u * (1 + Rabs w) * M) by (apply abs_mul; assumption). replace (3.1 * u * (1 + Rabs w) * M) with (3.1 * (u * Q)) in Q2 by (unfold Q; ring).
    replace (7 * u * M * (1 + Rabs w)) with (7 * (u * Q)) by (unfold Q; ring). replace (bval c - (y - w * x)) with ((bval c - (y - bval t)) - ((bval t - bval m * x) + (bval m - w) * x)) by ring. eapply Rle_trans; [apply Rabs_triang|]. rewrite Rabs_Ropp.
    assert (Rabs ((bval t - bval m * x) + (bval m - w) * x) <= 1.0002 * (u * Q) + 3.1 * (u * Q)) by (eapply Rle_trans; [apply Rabs_triang|]; lra). lra.
  Qed.
End Slope.

(** what the theorems ask of the axes a and of the two points of the line *)
Definition chord_sizes (a l0 l1 : pt b64) : Prop :=
  (bfin_pt a /\ bfin_pt l0 /\ bfin_pt l1) /\ (within (p2 20) l0 /\ within (p2 20) l1) /\ p2 (-20) <= bval (fst a) <= p2 10 /\ p2 (-20) <= bval (snd a) <= p2 20.
(** the slope of the line through two points, and where it meets the second axis *)
Definition line_slope (p q : Pt) : R := (snd q - snd p) / (fst q - fst p).
Definition line_cut (p q : Pt) : R := snd p - line_slope p q * fst p.

Lemma left_right l0 l1 : bfin_pt l0 -> bfin_pt l1 -> (chord_left l0 l1 = l0 /\ chord_right l0 l1 = l1 /\ Rltb (bval (fst l0)) (bval (fst l1)) = true) \/ (chord_left l0 l1 = l1 /\ chord_right l0 l1 = l0 /\ Rltb (bval (fst l0)) (bval (fst l1)) = false).
Proof.
  intros (F0 & _) (F1 & _). unfold chord_left, chord_right. change (@nltb b64 NumB (fst l0) (fst l1)) with (SFltb (fst l0) (fst l1)). rewrite ltb_spec by assumption. destruct (Rltb (bval (fst l0)) (bval (fst l1))); [left|right]; repeat split; reflexivity.
Qed.
Lemma vertical_bpt (a ll lr : pt b64) : bfin_pt a -> bfin_pt ll -> bfin_pt lr -> map bpt (chord_vertical a ll lr) = ell_vertical (bpt a) (bpt ll) (bpt lr).
Proof.
  intros (Fa0 & Fa1) (Fl0 & Fl1) (Fr0 & Fr1). rewrite <- chord_vertical_R. unfold chord_vertical. cbv zeta.
  destruct (opp_spec (fst a) Fa0) as (Fo0 & Vo0). destruct (opp_spec (snd a) Fa1) as (Fo1 & Vo1).
  change (@nltb b64 NumB) with SFltb. change (@nleb b64 NumB) with SFleb. change (@nopp b64 NumB) with SFopp. rewrite (ltb_spec (fst lr)), (ltb_spec (fst a)), (ltb_spec (snd ll)) by assumption. rewrite Vo0. cbn [nltb nleb nopp NumR]. change (fst (bpt a)) with (bval (fst a)). change (snd (bpt a)) with (bval (snd a)). change (fst (bpt lr)) with (bval (fst lr)). change (snd (bpt ll)) with (bval (snd ll)). change (snd (bpt lr)) with (bval (snd lr)).
  destruct (Rltb (bval (fst lr)) (- bval (fst a)) || Rltb (bval (fst a)) (bval (fst lr))); [reflexivity|].
  assert (Z0 : bval (@n0 b64 NumB) = @n0 R NumR) by (unfold n0 at 2; cbn [nlit NumR]; destruct lits_R as (L0 & _); rewrite L0, zero_run; reflexivity).
  destruct (Rltb (bval (snd ll)) (bval (snd lr))); rewrite !leb_spec by assumption; rewrite Vo1; cbn [bpt fst snd];
    repeat match goal with |- context [if ?b then _ else _] => destruct b end; cbn [map]; unfold bpt; cbn [fst snd]; rewrite ?Z0, ?Vo1; reflexivity.
Qed.
(** the special case of steep lines involves comparisons only, so that nothing is rounded: the answer is that of the real numbers *)
Theorem C143_vertical : forall a l0 l1, chord_sizes a l0 l1 -> let dx := bval (fst l1) - bval (fst l0) in let dy := bval (snd l1) - bval (snd l0) in
  (Rabs dx <= 0.9999 / 10000 \/ 100.001 * Rabs dx <= Rabs dy) -> map bpt (chord_num b64_sqrt a l0 l1) = ell_line (bpt a) (bpt l0) (bpt l1).
Proof.
  intros a l0 l1 ((Fa & F0 & F1) & (W0 & W1) & _) dx dy H.
  assert (ST : forall ll lr, (ll = l0 /\ lr = l1) \/ (ll = l1 /\ lr = l0) -> chord_steep ll lr = true).
  { intros ll lr E. destruct E as [(-> & ->)|(-> & ->)]; apply steep_cases; try assumption. rewrite (Rabs_minus_sym (bval (fst l0))), (Rabs_minus_sym (bval (snd l0))). exact H. }
  assert (SR : forall ll lr, (ll = l0 /\ lr = l1) \/ (ll = l1 /\ lr = l0) -> (if Rltb (Rabs (fst (bpt lr) - fst (bpt ll))) (1 / 10000) then true else Rltb 100 (Rabs ((snd (bpt lr) - snd (bpt ll)) / (fst (bpt lr) - fst (bpt ll))))) = true).
  { intros ll lr E. assert (H' : let dx := bval (fst lr) - bval (fst ll) in let dy := bval (snd lr) - bval (snd ll) in Rabs dx <= 0.9999 / 10000 \/ 100.001 * Rabs dx <= Rabs dy). { destruct E as [(-> & ->)|(-> & ->)]; [exact H|]. cbv zeta. rewrite (Rabs_minus_sym (bval (fst l0))), (Rabs_minus_sym (bval (snd l0))). exact H. }
    cbv zeta in H'. clear E. unfold bpt. cbn [fst snd]. set (x := bval (fst lr) - bval (fst ll)) in *. set (y := bval (snd lr) - bval (snd ll)) in *. destruct (Rltb_spec (Rabs x) (1 / 10000)) as [C|C]; [reflexivity|]. destruct H' as [H'|H']; [exfalso; lra|]. destruct (Rltb_spec 100 (Rabs (y / x))) as [D|D]; [reflexivity|exfalso].
    unfold Rdiv in D. rewrite Rabs_mult, Rabs_inv in D. assert (Rabs x * (Rabs y * / Rabs x) = Rabs y) by (field; lra). assert (Rabs x * (Rabs y * / Rabs x) <= Rabs x * 100) by (apply Rmult_le_compat_l; lra). lra. }
  unfold chord_num, ell_line. cbv zeta. destruct (left_right l0 l1 F0 F1) as [(-> & -> & C)|(-> & -> & C)]; change (fst (bpt l0)) with (bval (fst l0)); change (fst (bpt l1)) with (bval (fst l1)); rewrite C.
  - rewrite (ST l0 l1), (SR l0 l1) by (left; split; reflexivity). apply vertical_bpt; assumption.
  - rewrite (ST l1 l0), (SR l1 l0) by (right; split; reflexivity). apply vertical_bpt; assumption.
Qed.
Print Assumptions C143_vertical.

Lemma sloped_setup a l0 l1 M : chord_sizes a l0 l1 -> 1.0001 / 10000 <= Rabs (bval (fst l1) - bval (fst l0)) -> Rabs (bval (snd l1) - bval (snd l0)) <= 99.999 * Rabs (bval (fst l1) - bval (fst l0)) -> 1 <= M -> within M l0 -> within M l1 ->
  exists ll lr, ((ll = l0 /\ lr = l1) \/ (ll = l1 /\ lr = l0)) /\ bval (fst ll) <= bval (fst lr) /\ let m := chord_m ll lr in let c := chord_c ll lr in let w := line_slope (bpt l0) (bpt l1) in let g := line_cut (bpt l0) (bpt l1) in
  chord_num b64_sqrt a l0 l1 = chord_sloped b64_sqrt a ll lr m c /\ (bfin_pt ll /\ bfin_pt lr /\ bfin m /\ bfin c) /\ Rabs (bval m) <= p2 7 /\ Rabs (bval c) <= p2 30 /\ Rabs w <= 101 /\ Rabs (bval m - w) <= 3.1 * u * (1 + Rabs w) /\ Rabs (bval c - g) <= 7 * u * M * (1 + Rabs w).
Proof.
  intros ((Fa & F0 & F1) & (W0 & W1) & _) HX HY M1 M0' M1'. exists (chord_left l0 l1), (chord_right l0 l1). cbv zeta. unfold line_cut, line_slope, bpt. cbn [fst snd].
  assert (N : bval (fst l1) - bval (fst l0) <> 0) by (intros E; rewrite E, Rabs_R0 in HX; lra). unfold chord_num. cbv zeta.
  destruct (left_right l0 l1 F0 F1) as [(-> & -> & C)|(-> & -> & C)]; destruct (Rltb_spec (bval (fst l0)) (bval (fst l1))) as [D|D]; try discriminate C; clear C.
  - assert (S : chord_steep l0 l1 = false) by (apply steep_cases; assumption). rewrite S. destruct (line_val l0 l1 F0 F1 W0 W1 M S M1 M0') as (A1 & A2 & A3 & A4 & A5 & A6 & A7 & A8). split; [left; split; reflexivity|]. split; [lra|]. split; [reflexivity|]. split; [split; [exact F0|split; [exact F1|split; [exact A1|exact A2]]]|]. split; [exact A3|]. split; [exact A4|]. split; [exact A6|]. split; [exact A7|exact A8].
  - rewrite Rabs_minus_sym, (Rabs_minus_sym (bval (fst l1))) in HY. rewrite Rabs_minus_sym in HX. assert (S : chord_steep l1 l0 = false) by (apply steep_cases; assumption). rewrite S. destruct (line_val l1 l0 F1 F0 W1 W0 M S M1 M1') as (A1 & A2 & A3 & A4 & A5 & A6 & A7 & A8). cbv zeta in *.
    assert (E : (bval (snd l0) - bval (snd l1)) / (bval (fst l0) - bval (fst l1)) = (bval (snd l1) - bval (snd l0)) / (bval (fst l1) - bval (fst l0))) by (field; split; [exact N|exact A5]). rewrite E in A6, A7, A8. clear E HX HY.
    split; [right; split; reflexivity|]. split; [lra|]. split; [reflexivity|]. split; [split; [exact F1|split; [exact F0|split; [exact A1|exact A2]]]|]. split; [exact A3|]. split; [exact A4|]. split; [exact A6|]. split; [exact A7|].
    set (w := (bval (snd l1) - bval (snd l0)) / (bval (fst l1) - bval (fst l0))) in *. assert (E : bval (snd l0) - w * bval (fst l0) = bval (snd l1) - w * bval (fst l1)) by (assert (w * (bval (fst l1) - bval (fst l0)) = bval (snd l1) - bval (snd l0)) by (unfold w; field; exact N); lra). rewrite E. exact A8.
Qed.
(** half the height, along the second axis, of the band of lines with slope w that meet the ellipse *)
Definition band (a : Pt) (w : R) : R := sqrt ((fst a * w) ^ 2 + snd a ^ 2).
Lemma band_sq a w : band a w = sqrt (fst a * fst a * (w * w) + snd a * snd a).
Proof. unfold band. f_equal. ring. Qed.
Lemma band_lip (a : Pt) m w : 0 <= fst a -> band a m <= band a w + fst a * Rabs (m - w).
Proof.
  intros A. set (d := Rabs (m - w)). assert (D : 0 <= d) by apply Rabs_pos. assert (AD : 0 <= fst a * d) by (apply Rmult_le_pos; assumption). assert (B0 : 0 <= band a w) by apply sqrt_pos.
  assert (Q : band a w * band a w = (fst a * w) ^ 2 + snd a ^ 2) by (apply sqrt_sqrt; pose proof (pow2_ge_0 (fst a * w)); pose proof (pow2_ge_0 (snd a)); lra).
  assert (BW : fst a * Rabs w <= band a w). { unfold band. apply Rsqr_incr_0_var; [|apply sqrt_pos]. rewrite Rsqr_sqrt by (pose proof (pow2_ge_0 (fst a * w)); pose proof (pow2_ge_0 (snd a)); lra). unfold Rsqr. replace (fst a * Rabs w * (fst a * Rabs w)) with (fst a ^ 2 * (Rabs w ^ 2)) by ring. rewrite RPow_abs, Rabs_pos_eq by apply pow2_ge_0. pose proof (pow2_ge_0 (snd a)). lra. }
  assert (MD : Rabs m <= Rabs w + d) by (unfold d; replace m with (w + (m - w)) at 1 by ring; apply Rabs_triang).
  rewrite <- (sqrt_square (band a w + fst a * d)) by lra. unfold band at 1. apply sqrt_le_1_alt.
  assert (M2 : (fst a * m) ^ 2 <= (fst a * Rabs w + fst a * d) ^ 2). { rewrite <- (Rabs_pos_eq ((fst a * m) ^ 2)) by apply pow2_ge_0. rewrite <- RPow_abs, Rabs_mult, (Rabs_pos_eq (fst a)) by assumption. apply pow_incr. split; [apply Rmult_le_pos; [assumption|apply Rabs_pos]|]. replace (fst a * Rabs w + fst a * d) with (fst a * (Rabs w + d)) by ring. apply Rmult_le_compat_l; assumption. }
  assert (fst a * Rabs w * (fst a * d) <= band a w * (fst a * d)) by (apply Rmult_le_compat_r; assumption).
  assert (E2 : (fst a * Rabs w) ^ 2 = (fst a * w) ^ 2) by (rewrite !Rpow_mult_distr; f_equal; rewrite RPow_abs; apply Rabs_pos_eq, pow2_ge_0).
  assert (E3 : (fst a * Rabs w + fst a * d) ^ 2 = (fst a * Rabs w) ^ 2 + 2 * (fst a * Rabs w * (fst a * d)) + fst a * d * (fst a * d)) by ring. assert (E4 : (band a w + fst a * d) * (band a w + fst a * d) = band a w * band a w + 2 * (band a w * (fst a * d)) + fst a * d * (fst a * d)) by ring. lra.
Qed.
Lemma band_le (a : Pt) w M : 0 <= fst a <= M -> 0 <= snd a <= M -> band a w <= M * (1 + Rabs w).
Proof.
  intros A B. pose proof (Rabs_pos w). eapply Rle_trans; [apply (band_lip a w 0); lra|]. unfold band. rewrite Rminus_0_r, Rmult_0_r. replace (0 ^ 2 + snd a ^ 2) with (snd a * snd a) by ring. rewrite sqrt_square by lra. assert (fst a * Rabs w <= M * Rabs w) by (apply Rmult_le_compat_r; lra). lra.
Qed.

Section Statements.
  Variables (a l0 l1 : pt b64) (M : R).
  Let w := line_slope (bpt l0) (bpt l1). Let g := line_cut (bpt l0) (bpt l1). Let A := bpt a.
  Hypotheses (HS : chord_sizes a l0 l1) (HX : 1.0001 / 10000 <= Rabs (bval (fst l1) - bval (fst l0))) (HY : Rabs (bval (snd l1) - bval (snd l0)) <= 99.999 * Rabs (bval (fst l1) - bval (fst l0))).
  Lemma axes_pos : 0 < fst A /\ 0 < snd A /\ fst A <= p2 30 * snd A.
  Proof.
    destruct HS as (_ & _ & (L0 & U0) & (L1 & U1)). pose proof (p2_pos (-20)). change (fst A) with (bval (fst a)). change (snd A) with (bval (snd a)). split; [lra|]. split; [lra|]. eapply Rle_trans; [exact U0|]. change 10%Z with (30 + -20)%Z. rewrite p2_add. apply Rmult_le_compat_l; [apply Rlt_le, p2_pos|exact L1].
  Qed.
  Lemma band_pos v : 0 < band A v /\ snd A <= band A v /\ fst A * Rabs v <= band A v.
  Proof.
    destruct axes_pos as (P0 & P1 & _). assert (Q0 : 0 <= (fst A * v) ^ 2 + snd A ^ 2) by (pose proof (pow2_ge_0 (fst A * v)); pose proof (pow2_ge_0 (snd A)); lra).
    assert (B1 : snd A <= band A v). { rewrite <- (sqrt_square (snd A)) by lra. apply sqrt_le_1_alt. pose proof (pow2_ge_0 (fst A * v)). lra. }
    split; [lra|]. split; [exact B1|]. rewrite <- (Rabs_pos_eq (fst A)) at 1 by lra. rewrite <- Rabs_mult, <- sqrt_Rsqr_abs. apply sqrt_le_1_alt. unfold Rsqr. pose proof (pow2_ge_0 (snd A)). lra.
  Qed.
  Lemma band_near m : Rabs (m - w) <= 3.1 * u * (1 + Rabs w) -> band A m <= 1.0000004 * band A w.
  Proof.
    intros D. destruct axes_pos as (P0 & P1 & P2). destruct (band_pos w) as (B0 & B1 & B2). pose proof u_small as (U0 & U1). eapply Rle_trans; [apply (band_lip A m w); lra|].
    assert (E : fst A * Rabs (m - w) <= fst A * (3.1 * u * (1 + Rabs w))) by (apply Rmult_le_compat_l; lra). assert (T : fst A * u <= 0.00000012 * snd A). { apply Rle_trans with (p2 30 * snd A * u); [apply Rmult_le_compat_r; lra|]. replace (p2 30 * snd A * u) with (p2 30 * u * snd A) by ring. apply Rmult_le_compat_r; [lra|]. rewrite <- p2_add. change (30 + -53)%Z with (- (23))%Z. rewrite p2_inv, p2_Z by lia. change (2 ^ 23)%Z with 8388608%Z. lra. }
    assert (T2 : u * (fst A * Rabs w) <= 1 / 1000000000000000 * band A w). { apply Rmult_le_compat; try lra. apply Rmult_le_pos; [lra|apply Rabs_pos]. } lra.
  Qed.
  (** the points are near the ellipse *)
  Lemma on_ellipse p : In p (chord_num b64_sqrt a l0 l1) -> bfin_pt p /\ Rabs (ell_loc A (bpt p)) <= (93 * u + 1.00001 / 100000000 / fst A ^ 2) * (1 + (fst A * w / snd A) ^ 2).
  Proof.
    destruct HS as ((Fa & F0 & F1) & (W0 & W1) & HA0 & HA1). destruct axes_pos as (P0 & P1 & _). destruct (band_pos w) as (B0 & _). pose proof u_small as (U0 & U1).
    destruct (sloped_setup a l0 l1 (p2 20) HS HX HY) as (ll & lr & _ & _ & E & (Fl & Fr & Fm & Fc) & Bm & Bc & Bw & Dm & Dc); [rewrite <- p2_0; apply p2_le; lia|exact W0|exact W1|]. cbv zeta in *. fold w in Dm.
    intros HI. rewrite E in HI. destruct (sloped_points a ll lr _ _ Fa Fm Fc HA0 HA1 Bm Bc p HI) as ((Fp & _) & _ & EL & _). split; [exact Fp|]. eapply Rle_trans; [exact EL|]. set (m := bval (chord_m ll lr)) in *.
    change (bval (fst a)) with (fst A) in *. change (bval (snd a)) with (snd A) in *. pose proof (band_near m Dm) as BN. destruct (band_pos m) as (B0m & _).
    assert (Qw : forall v, fst A * fst A * (v * v) + snd A * snd A = band A v * band A v). { intros v. rewrite band_sq. symmetry. apply sqrt_sqrt. pose proof (pow2_ge_0 (fst A * v)). pose proof (pow2_ge_0 (snd A)). lra. }
    assert (N : 1 + (fst A * w / snd A) ^ 2 = band A w * band A w / (snd A * snd A)) by (rewrite <- Qw; field; lra). rewrite N, Qw. assert (KK : band A m * band A m <= 1.000001 * (band A w * band A w)). { apply Rle_trans with (1.0000004 * band A w * (1.0000004 * band A w)); [apply Rmult_le_compat; lra|]. assert (0 < band A w * band A w) by (apply Rmult_lt_0_compat; assumption). lra. }
    assert (S0 : 0 < fst A * fst A) by (apply Rmult_lt_0_compat; assumption). assert (S1 : 0 < snd A * snd A) by (apply Rmult_lt_0_compat; assumption). replace (fst A ^ 2) with (fst A * fst A) by ring.
    assert (I0 : 0 < / (fst A * fst A)) by (apply Rinv_0_lt_compat, S0). assert (I1 : 0 < / (snd A * snd A)) by (apply Rinv_0_lt_compat, S1).
    set (i0 := / (fst A * fst A)) in *. set (i1 := / (snd A * snd A)) in *. unfold Rdiv. fold i0 i1. set (X := band A w * band A w) in *. assert (X0 : 0 < X) by (apply Rmult_lt_0_compat; assumption).
    apply Rle_trans with ((92 * u + 1.000001 * / 100000000 * i0) * (1.000001 * X * i1)). { apply Rmult_le_compat_l; [lra|]. apply Rmult_le_compat_r; lra. }
    replace ((92 * u + 1.000001 * / 100000000 * i0) * (1.000001 * X * i1)) with ((92 * 1.000001 * u + 1.000001 * 1.000001 * / 100000000 * i0) * (X * i1)) by ring. apply Rmult_le_compat_r; [apply Rlt_le, Rmult_lt_0_compat; assumption|]. lra.
  Qed.
  Hypotheses (M1 : 1 <= M) (MA : fst A <= M /\ snd A <= M) (M0 : within M l0) (M0' : within M l1).
  Let Q := u * M * (1 + Rabs w).
  Lemma all_parts : exists ll lr, ((ll = l0 /\ lr = l1) \/ (ll = l1 /\ lr = l0)) /\ bval (fst ll) <= bval (fst lr) /\ let m := chord_m ll lr in let c := chord_c ll lr in
    chord_num b64_sqrt a l0 l1 = chord_sloped b64_sqrt a ll lr m c /\ (bfin_pt ll /\ bfin_pt lr /\ bfin m /\ bfin c) /\ Rabs (bval m) <= p2 7 /\ Rabs (bval c) <= p2 30 /\
    Rabs (bval m - w) <= 3.1 * u * (1 + Rabs w) /\ Rabs (bval c - g) <= 7 * Q /\ band A (bval m) <= band A w + 3.1 * Q /\ band A w <= band A (bval m) + 3.1 * Q /\ u * band A (bval m) <= 1.001 * Q /\ 0 < Q.
  Proof.
    destruct axes_pos as (P0 & P1 & _). destruct (band_pos w) as (B0 & _). pose proof u_small as (U0 & U1). pose proof (Rabs_pos w) as W.
    destruct (sloped_setup a l0 l1 M HS HX HY M1 M0 M0') as (ll & lr & O & LE & E & F & Bm & Bc & Bw & Dm & Dc). exists ll, lr. cbv zeta in *. fold w in Dm, Dc. fold g in Dc. split; [exact O|]. split; [exact LE|]. split; [exact E|]. split; [exact F|]. split; [exact Bm|]. split; [exact Bc|]. split; [exact Dm|]. clear E F Bm Bc O LE. set (m := bval (chord_m ll lr)) in *.
    assert (Q0 : 0 < Q) by (unfold Q; repeat apply Rmult_lt_0_compat; lra). assert (D1 : fst A * Rabs (m - w) <= 3.1 * Q). { apply Rle_trans with (M * (3.1 * u * (1 + Rabs w))); [apply Rmult_le_compat; try lra; apply Rabs_pos|unfold Q; lra]. }
    split; [unfold Q; lra|]. split; [eapply Rle_trans; [apply (band_lip A m w); lra|lra]|]. split; [eapply Rle_trans; [apply (band_lip A w m); lra|rewrite (Rabs_minus_sym w m); lra]|]. split; [|exact Q0].
    assert (BM : band A w <= M * (1 + Rabs w)) by (apply band_le; lra). pose proof (band_near m Dm) as BN. apply Rle_trans with (u * (1.0000004 * (M * (1 + Rabs w)))); [apply Rmult_le_compat_l; lra|]. unfold Q in *. lra.
  Qed.
  Lemma on_line p : In p (chord_num b64_sqrt a l0 l1) -> Rabs (bval (snd p) - (w * bval (fst p) + g)) <= 19 * Q.
  Proof.
    destruct HS as ((Fa & F0 & F1) & _ & HA0 & HA1). destruct axes_pos as (P0 & P1 & _). destruct all_parts as (ll & lr & _ & _ & E & (Fl & Fr & Fm & Fc) & Bm & Bc & Dm & Dc & B1 & B2 & B3 & Q0). cbv zeta in *. pose proof u_small as (U0 & U1).
    intros HI. rewrite E in HI. destruct (sloped_points a ll lr _ _ Fa Fm Fc HA0 HA1 Bm Bc p HI) as ((_ & BX) & EL & _). change (bval (fst a)) with (fst A) in *. change (bval (snd a)) with (snd A) in *. rewrite <- band_sq in EL.
    set (m := bval (chord_m ll lr)) in *. set (c := bval (chord_c ll lr)) in *. set (x := bval (fst p)) in *. set (y := bval (snd p)) in *. clearbody m c x y.
    replace (y - (w * x + g)) with ((y - (m * x + c)) + ((m - w) * x + (c - g))) by ring. eapply Rle_trans; [apply Rabs_triang|]. assert (T : Rabs ((m - w) * x + (c - g)) <= Rabs (m - w) * Rabs x + 7 * Q) by (eapply Rle_trans; [apply Rabs_triang|]; rewrite Rabs_mult; lra).
    assert (T2 : Rabs (m - w) * Rabs x <= 3.1 * u * (1 + Rabs w) * (2.001 * M)) by (apply Rmult_le_compat; try apply Rabs_pos; lra). assert (T3 : 3.1 * u * (1 + Rabs w) * (2.001 * M) = 3.1 * 2.001 * Q) by (unfold Q; ring). lra.
  Qed.
  Lemma missed : band A w + 20 * Q <= Rabs g -> chord_num b64_sqrt a l0 l1 = [].
  Proof.
    destruct HS as ((Fa & F0 & F1) & _ & HA0 & HA1). destruct axes_pos as (P0 & P1 & _). destruct all_parts as (ll & lr & _ & _ & E & (Fl & Fr & Fm & Fc) & Bm & Bc & Dm & Dc & B1 & B2 & B3 & Q0). cbv zeta in *. pose proof u_small as (U0 & U1).
    intros HG. rewrite E. apply sloped_missed; try assumption. change (bval (fst a)) with (fst A) in *. change (bval (snd a)) with (snd A) in *. set (m := bval (chord_m ll lr)) in *. set (c := bval (chord_c ll lr)) in *. clearbody m c. destruct (band_pos m) as (B0 & _).
    replace (fst A * fst A * (m * m) + snd A * snd A) with (band A m * band A m) by (rewrite band_sq; apply sqrt_sqrt; pose proof (pow2_ge_0 (fst A * m)); pose proof (pow2_ge_0 (snd A)); lra). set (b := band A m) in *. clearbody b.
    assert (C1 : Rabs g <= Rabs c + 7 * Q). { replace g with (c - (c - g)) by ring. eapply Rle_trans; [apply Rabs_triang|rewrite Rabs_Ropp; lra]. }
    assert (UB : 0 < u * b) by (apply Rmult_lt_0_compat; assumption). assert (C2 : b + 9 * (u * b) <= Rabs c) by lra. replace (c * c) with (Rabs c * Rabs c) by (rewrite <- Rabs_mult; apply Rabs_pos_eq, Rle_0_sqr). apply Rle_trans with ((b + 9 * (u * b)) * (b + 9 * (u * b))); [|apply Rmult_le_compat; lra].
    assert (0 <= u * b * b) by (apply Rmult_le_pos; lra). assert (0 <= u * b * (u * b)) by (apply Rmult_le_pos; lra). lra.
  Qed.
  Lemma crossed : Rabs g <= band A w - 20 * Q -> (bval (fst l0) <= - (1.001 * fst A) /\ 1.001 * fst A <= bval (fst l1) \/ bval (fst l1) <= - (1.001 * fst A) /\ 1.001 * fst A <= bval (fst l0)) ->
    exists p q, chord_num b64_sqrt a l0 l1 = [p; q] /\ bval (fst p) <= bval (fst q) + 27 * (u * fst A).
  Proof.
    destruct HS as ((Fa & F0 & F1) & _ & HA0 & HA1). destruct axes_pos as (P0 & P1 & _). destruct all_parts as (ll & lr & O & LE & E & (Fl & Fr & Fm & Fc) & Bm & Bc & Dm & Dc & B1 & B2 & B3 & Q0). cbv zeta in *. pose proof u_small as (U0 & U1).
    intros HG HE. rewrite E. assert (EE : bval (fst ll) <= - (1.001 * fst A) /\ 1.001 * fst A <= bval (fst lr)) by (destruct O as [(-> & ->)|(-> & ->)]; destruct HE as [(? & ?)|(? & ?)]; split; lra). destruct EE as (E1 & E2). apply (sloped_crossed a ll lr _ _ Fa Fm Fc Fl Fr HA0 HA1 Bm Bc); [|exact E1|exact E2].
    change (bval (fst a)) with (fst A) in *. change (bval (snd a)) with (snd A) in *. set (m := bval (chord_m ll lr)) in *. set (c := bval (chord_c ll lr)) in *. clearbody m c. destruct (band_pos m) as (B0 & _).
    replace (fst A * fst A * (m * m) + snd A * snd A) with (band A m * band A m) by (rewrite band_sq; apply sqrt_sqrt; pose proof (pow2_ge_0 (fst A * m)); pose proof (pow2_ge_0 (snd A)); lra). set (b := band A m) in *. clearbody b.
    assert (C1 : Rabs c <= Rabs g + 7 * Q). { replace c with (g + (c - g)) by ring. eapply Rle_trans; [apply Rabs_triang|lra]. }
    assert (UB : 0 < u * b) by (apply Rmult_lt_0_compat; assumption). assert (C2 : Rabs c <= b - 9 * (u * b)) by lra. replace (c * c) with (Rabs c * Rabs c) by (rewrite <- Rabs_mult; apply Rabs_pos_eq, Rle_0_sqr). pose proof (Rabs_pos c). apply Rle_trans with ((b - 9 * (u * b)) * (b - 9 * (u * b))); [apply Rmult_le_compat; lra|].
    assert (0 <= u * b * b) by (apply Rmult_le_pos; lra). assert (u * b * (u * b) <= u * b * (1 / 1000000 * b)) by (apply Rmult_le_compat_l; [lra|apply Rmult_le_compat_r; lra]). lra.
  Qed.
  Definition one_margin : R := 21 * (u * M ^ 2 * (1 + Rabs w)) / snd A ^ 2 + (71 * u + 1.11 / 100000000 / fst A ^ 2) * (1 + (fst A * w / snd A) ^ 2).
  Lemma side m c x y : Rabs (m - w) <= 3.1 * u * (1 + Rabs w) -> Rabs (c - g) <= 7 * Q -> Rabs w <= 129 -> y = w * x + g -> Rabs x <= M -> Rabs y <= M -> let K := fst A * fst A * (m * m) + snd A * snd A in let S := fst A * fst A * (snd A * snd A) * (K - c * c) / (K * K) in let h := fst A * fst A * m * c / K in
    let e := 70 * (u * (fst A * fst A)) + 1.1 / 100000000 in (ell_loc A (x, y) <= - one_margin -> (x + h) * (x + h) <= S - e) /\ (one_margin <= ell_loc A (x, y) -> S + e <= (x + h) * (x + h)).
  Proof.
    intros Dm Dc Bw EY Bx By K S h e. destruct axes_pos as (P0 & P1 & _). pose proof u_small as (U0 & U1). pose proof (Rabs_pos w) as W. destruct (band_pos w) as (B0 & _). destruct (band_pos m) as (B0m & _).
    set (a0 := fst A) in *. set (a1 := snd A) in *. assert (S0 : 0 < a0 * a0) by (apply Rmult_lt_0_compat; assumption). assert (S1 : 0 < a1 * a1) by (apply Rmult_lt_0_compat; assumption).
    assert (KB : forall v, a0 * a0 * (v * v) + a1 * a1 = band A v * band A v). { intros v. rewrite band_sq. symmetry. apply sqrt_sqrt. fold a0 a1. pose proof (pow2_ge_0 (a0 * v)). lra. }
    assert (EK : K = band A m * band A m) by (unfold K; apply KB). assert (K0 : 0 < K) by (rewrite EK; apply Rmult_lt_0_compat; assumption).
    set (Kw := a0 * a0 * (w * w) + a1 * a1). assert (EKw : Kw = band A w * band A w) by apply KB. assert (KK : K <= 1.000001 * Kw). { pose proof (band_near m Dm) as BN. rewrite EK, EKw. apply Rle_trans with (1.0000004 * band A w * (1.0000004 * band A w)); [apply Rmult_le_compat; lra|]. assert (0 < band A w * band A w) by (apply Rmult_lt_0_compat; assumption). lra. }
    set (y' := m * x + c). assert (Q0 : 0 < Q) by (unfold Q; repeat apply Rmult_lt_0_compat; lra). assert (UW : u * (1 + Rabs w) <= 1 / 1000000000000000 * 130) by (apply Rmult_le_compat; lra). assert (QM : 11 * Q <= 0.001 * M). { unfold Q. replace (11 * (u * M * (1 + Rabs w))) with (11 * (u * (1 + Rabs w)) * M) by ring. apply Rmult_le_compat_r; lra. }
    assert (DY : Rabs (y' - y) <= 10.1 * Q). { unfold y'. rewrite EY. replace (m * x + c - (w * x + g)) with ((m - w) * x + (c - g)) by ring. eapply Rle_trans; [apply Rabs_triang|]. rewrite Rabs_mult. assert (Rabs (m - w) * Rabs x <= 3.1 * u * (1 + Rabs w) * M) by (apply Rmult_le_compat; try apply Rabs_pos; lra). unfold Q in *. lra. }
    assert (DS : Rabs (y' * y' - y * y) <= 20.22 * (Q * M)). { replace (y' * y' - y * y) with ((y' - y) * ((y' - y) + 2 * y)) by ring. rewrite Rabs_mult. assert (Rabs (y' - y + 2 * y) <= 2.001 * M). { eapply Rle_trans; [apply Rabs_triang|]. rewrite (Rabs_mult 2), (Rabs_pos_eq 2) by lra. lra. }
      assert (Rabs (y' - y) * Rabs (y' - y + 2 * y) <= 10.1 * Q * (2.001 * M)) by (apply Rmult_le_compat; try apply Rabs_pos; assumption). assert (0 < Q * M) by (apply Rmult_lt_0_compat; lra). lra. }
    assert (ID : K * ((x + h) * (x + h) - S) = a0 * a0 * (a1 * a1 * ell_loc A (x, y)) + a0 * a0 * (y' * y' - y * y)). { unfold ell_loc, S, h, y'. cbn [fst snd]. fold a0 a1. unfold K. field. split; [|split]; try lra. fold K. lra. }
    set (T := (71 * u + 1.11 / 100000000 / a0 ^ 2) * (1 + (a0 * w / a1) ^ 2)). assert (EM : a1 * a1 * one_margin = 21 * (Q * M) + a1 * a1 * T). { unfold one_margin, Q. fold a0 a1 T. field. lra. }
    assert (ET : a0 * a0 * (a1 * a1 * T) = (71 * (u * (a0 * a0)) + 1.11 / 100000000) * Kw) by (unfold T, Kw; field; lra). assert (KE : K * e <= a0 * a0 * (a1 * a1 * T)). { rewrite ET. assert (UA : 0 < u * (a0 * a0)) by (apply Rmult_lt_0_compat; lra). apply Rle_trans with (1.000001 * Kw * e); [apply Rmult_le_compat_r; [unfold e; lra|exact KK]|]. replace (1.000001 * Kw * e) with (1.000001 * e * Kw) by ring. apply Rmult_le_compat_r; [rewrite EKw; apply Rle_0_sqr|]. unfold e. lra. }
    apply Rabs_le_inv in DS. assert (QM0 : 0 < Q * M) by (apply Rmult_lt_0_compat; lra). clearbody K S h e T. split; intros HL; apply Rmult_le_reg_l with K; try exact K0.
    - assert (L1 : a1 * a1 * ell_loc A (x, y) <= - (a1 * a1 * one_margin)) by (rewrite <- Ropp_mult_distr_r_reverse; apply Rmult_le_compat_l; lra). assert (L2 : a0 * a0 * (a1 * a1 * ell_loc A (x, y) + (y' * y' - y * y)) <= a0 * a0 * (- (a1 * a1 * T))) by (apply Rmult_le_compat_l; lra). lra.
    - assert (L1 : a1 * a1 * one_margin <= a1 * a1 * ell_loc A (x, y)) by (apply Rmult_le_compat_l; lra). assert (L2 : a0 * a0 * (a1 * a1 * T) <= a0 * a0 * (a1 * a1 * ell_loc A (x, y) + (y' * y' - y * y))) by (apply Rmult_le_compat_l; lra). lra.
  Qed.
  Lemma one : (ell_loc A (bpt l0) <= - one_margin /\ one_margin <= ell_loc A (bpt l1) \/ ell_loc A (bpt l1) <= - one_margin /\ one_margin <= ell_loc A (bpt l0)) ->
    exists p, chord_num b64_sqrt a l0 l1 = [p] /\ Rmin (bval (fst l0)) (bval (fst l1)) <= bval (fst p) <= Rmax (bval (fst l0)) (bval (fst l1)).
  Proof.
    intros HE. destruct HS as ((Fa & F0 & F1) & _ & HA0 & HA1). destruct all_parts as (ll & lr & O & LE & E & (Fl & Fr & Fm & Fc) & Bm & Bc & Dm & Dc & _ & _ & _ & Q0). cbv zeta in *. pose proof u_small as (U0 & U1).
    assert (NX : bval (fst l1) - bval (fst l0) <> 0) by (intros Z; rewrite Z, Rabs_R0 in HX; lra). assert (Y0 : bval (snd l0) = w * bval (fst l0) + g) by (unfold g, line_cut; fold w; unfold bpt; cbn [fst snd]; ring). assert (Y1 : bval (snd l1) = w * bval (fst l1) + g). { unfold g, line_cut. fold w. unfold bpt. cbn [fst snd]. assert (w * (bval (fst l1) - bval (fst l0)) = bval (snd l1) - bval (snd l0)) by (unfold w, line_slope, bpt; cbn [fst snd]; field; exact NX). lra. }
    assert (Bw : Rabs w <= 129). { assert (P7 : p2 7 = 128) by (rewrite p2_Z by lia; reflexivity). assert (Rabs w <= Rabs (bval (chord_m ll lr)) + Rabs (bval (chord_m ll lr) - w)) by (replace w with (bval (chord_m ll lr) - (bval (chord_m ll lr) - w)) at 1 by ring; eapply Rle_trans; [apply Rabs_triang|rewrite Rabs_Ropp; lra]). assert (u * (1 + Rabs w) <= 1 / 1000000000000000 * (1 + Rabs w)) by (apply Rmult_le_compat_r; pose proof (Rabs_pos w); lra). lra. }
    pose proof (side _ _ _ _ Dm Dc Bw Y0 (proj1 M0) (proj2 M0)) as (I0 & I1). pose proof (side _ _ _ _ Dm Dc Bw Y1 (proj1 M0') (proj2 M0')) as (J0 & J1). change (bval (fst l0), bval (snd l0)) with (bpt l0) in I0, I1. change (bval (fst l1), bval (snd l1)) with (bpt l1) in J0, J1. rewrite E.
    destruct (sloped_one a ll lr _ _ Fa Fm Fc Fl Fr HA0 HA1 Bm Bc LE) as (p & EP & BP).
    - change (bval (fst a)) with (fst A). change (bval (snd a)) with (snd A). destruct O as [(-> & ->)|(-> & ->)]; destruct HE as [(G1 & G2)|(G1 & G2)]; [left|right|right|left]; split; auto.
    - exists p. split; [exact EP|]. destruct O as [(-> & ->)|(-> & ->)]; unfold Rmin, Rmax; repeat destruct Rle_dec; lra.
  Qed.
End Statements.

(** every other line: the points returned are finite and near the ellipse *)
Theorem C143_on_ellipse : forall a l0 l1 p, chord_sizes a l0 l1 -> 1.0001 / 10000 <= Rabs (bval (fst l1) - bval (fst l0)) -> Rabs (bval (snd l1) - bval (snd l0)) <= 99.999 * Rabs (bval (fst l1) - bval (fst l0)) -> In p (chord_num b64_sqrt a l0 l1) ->
  bfin_pt p /\ Rabs (ell_loc (bpt a) (bpt p)) <= (93 * p2 (-53) + 1.00001 / 100000000 / fst (bpt a) ^ 2) * (1 + (fst (bpt a) * line_slope (bpt l0) (bpt l1) / snd (bpt a)) ^ 2).
Proof. intros a l0 l1 p HS HX HY HI. exact (on_ellipse a l0 l1 HS HX HY p HI). Qed.
Print Assumptions C143_on_ellipse.
(** they are near the line *)
Theorem C143_on_line : forall a l0 l1 M p, chord_sizes a l0 l1 -> 1.0001 / 10000 <= Rabs (bval (fst l1) - bval (fst l0)) -> Rabs (bval (snd l1) - bval (snd l0)) <= 99.999 * Rabs (bval (fst l1) - bval (fst l0)) ->
  1 <= M -> within M a -> within M l0 -> within M l1 -> In p (chord_num b64_sqrt a l0 l1) -> let w := line_slope (bpt l0) (bpt l1) in
  Rabs (bval (snd p) - (bval (snd l0) + w * (bval (fst p) - bval (fst l0)))) <= 19 * (p2 (-53) * M * (1 + Rabs w)).
Proof.
  intros a l0 l1 M p HS HX HY M1 (MA & MA') M0 M0' HI w. apply Rabs_le_inv in MA. apply Rabs_le_inv in MA'. assert (H : fst (bpt a) <= M /\ snd (bpt a) <= M) by (split; [exact (proj2 MA)|exact (proj2 MA')]).
  pose proof (on_line a l0 l1 M HS HX HY M1 H M0 M0' p HI) as L. unfold line_cut in L. fold w in L. unfold bpt in L at 1 2. cbn [fst snd] in L. replace (bval (snd l0) + w * (bval (fst p) - bval (fst l0))) with (w * bval (fst p) + (bval (snd l0) - w * bval (fst l0))) by ring. exact L.
Qed.
Print Assumptions C143_on_line.
(** a line that passes the ellipse by more than the rounding gives no point *)
Theorem C143_missed : forall a l0 l1 M, chord_sizes a l0 l1 -> 1.0001 / 10000 <= Rabs (bval (fst l1) - bval (fst l0)) -> Rabs (bval (snd l1) - bval (snd l0)) <= 99.999 * Rabs (bval (fst l1) - bval (fst l0)) ->
  1 <= M -> within M a -> within M l0 -> within M l1 -> let w := line_slope (bpt l0) (bpt l1) in
  band (bpt a) w + 20 * (p2 (-53) * M * (1 + Rabs w)) <= Rabs (line_cut (bpt l0) (bpt l1)) -> chord_num b64_sqrt a l0 l1 = [].
Proof.
  intros a l0 l1 M HS HX HY M1 (MA & MA') M0 M0' w HG. apply Rabs_le_inv in MA. apply Rabs_le_inv in MA'. assert (H : fst (bpt a) <= M /\ snd (bpt a) <= M) by (split; [exact (proj2 MA)|exact (proj2 MA')]). exact (missed a l0 l1 M HS HX HY M1 H M0 M0' HG).
Qed.
Print Assumptions C143_missed.
(** one that crosses it by more than the rounding, with both given points well to the left and to the right of the ellipse, gives exactly two, the left one first *)
Theorem C143_crossed : forall a l0 l1 M, chord_sizes a l0 l1 -> 1.0001 / 10000 <= Rabs (bval (fst l1) - bval (fst l0)) -> Rabs (bval (snd l1) - bval (snd l0)) <= 99.999 * Rabs (bval (fst l1) - bval (fst l0)) ->
  1 <= M -> within M a -> within M l0 -> within M l1 -> let w := line_slope (bpt l0) (bpt l1) in
  Rabs (line_cut (bpt l0) (bpt l1)) <= band (bpt a) w - 20 * (p2 (-53) * M * (1 + Rabs w)) ->
  (bval (fst l0) <= - (1.001 * bval (fst a)) /\ 1.001 * bval (fst a) <= bval (fst l1) \/ bval (fst l1) <= - (1.001 * bval (fst a)) /\ 1.001 * bval (fst a) <= bval (fst l0)) ->
  exists p q, chord_num b64_sqrt a l0 l1 = [p; q] /\ bval (fst p) <= bval (fst q) + 27 * (p2 (-53) * bval (fst a)).
Proof.
  intros a l0 l1 M HS HX HY M1 (MA & MA') M0 M0' w HG HE. apply Rabs_le_inv in MA. apply Rabs_le_inv in MA'. assert (H : fst (bpt a) <= M /\ snd (bpt a) <= M) by (split; [exact (proj2 MA)|exact (proj2 MA')]). exact (crossed a l0 l1 M HS HX HY M1 H M0 M0' HG HE).
Qed.
Print Assumptions C143_crossed.
(** one end inside the ellipse and the other outside, both by more than the rounding: exactly one point, between them *)
Theorem C143_one : forall a l0 l1 M, chord_sizes a l0 l1 -> 1.0001 / 10000 <= Rabs (bval (fst l1) - bval (fst l0)) -> Rabs (bval (snd l1) - bval (snd l0)) <= 99.999 * Rabs (bval (fst l1) - bval (fst l0)) ->
  1 <= M -> within M a -> within M l0 -> within M l1 -> let w := line_slope (bpt l0) (bpt l1) in let A := bpt a in
  let E := 21 * (p2 (-53) * M ^ 2 * (1 + Rabs w)) / snd A ^ 2 + (71 * p2 (-53) + 1.11 / 100000000 / fst A ^ 2) * (1 + (fst A * w / snd A) ^ 2) in
  (ell_loc A (bpt l0) <= - E /\ E <= ell_loc A (bpt l1) \/ ell_loc A (bpt l1) <= - E /\ E <= ell_loc A (bpt l0)) ->
  exists p, chord_num b64_sqrt a l0 l1 = [p] /\ Rmin (bval (fst l0)) (bval (fst l1)) <= bval (fst p) <= Rmax (bval (fst l0)) (bval (fst l1)).
Proof.
  intros a l0 l1 M HS HX HY M1 (MA & MA') M0 M0' w A E HE. apply Rabs_le_inv in MA. apply Rabs_le_inv in MA'. assert (H : fst (bpt a) <= M /\ snd (bpt a) <= M) by (split; [exact (proj2 MA)|exact (proj2 MA')]). exact (one a l0 l1 M HS HX HY M1 H M0 M0' HE).
Qed.
Print Assumptions C143_one.
(** what band and line_cut say: the line with slope w and cut g has points strictly inside the ellipse just if |g| < band *)
Theorem C143_band : forall (a : Pt) w g, 0 < fst a -> 0 < snd a -> (exists x, ell_loc a (x, w * x + g) < 0) <-> Rabs g < band a w.
Proof.
  intros a w g P0 P1. destruct a as (a0, a1). cbn [fst snd] in *. set (k := (a0 * w) ^ 2 + a1 ^ 2). assert (K0 : 0 < k) by (unfold k; pose proof (pow2_ge_0 (a0 * w)); assert (0 < a1 ^ 2) by (apply pow_lt; assumption); lra). assert (BB : band (a0, a1) w * band (a0, a1) w = k) by (apply sqrt_sqrt; cbn [fst snd]; fold k; lra). assert (B0 : 0 < band (a0, a1) w) by (apply sqrt_lt_R0; exact K0).
  assert (E : forall x, ell_loc (a0, a1) (x, w * x + g) * (a0 ^ 2 * a1 ^ 2) * k = (k * x + a0 ^ 2 * w * g) ^ 2 - a0 ^ 2 * a1 ^ 2 * (k - g ^ 2)). { intros x. unfold ell_loc, k. cbn [fst snd]. field. lra. }
  assert (S : 0 < a0 ^ 2 * a1 ^ 2) by (apply Rmult_lt_0_compat; apply pow_lt; assumption). assert (GG : g ^ 2 = Rabs g * Rabs g) by (rewrite <- Rabs_mult, Rabs_pos_eq by apply Rle_0_sqr; ring). pose proof (Rabs_pos g) as G0. split.
  - intros (x & H). apply Rnot_le_lt. intros C. specialize (E x). assert (ell_loc (a0, a1) (x, w * x + g) * (a0 ^ 2 * a1 ^ 2) * k < 0). { apply Ropp_lt_cancel. rewrite Ropp_0, !Ropp_mult_distr_l. apply Rmult_lt_0_compat; [apply Rmult_lt_0_compat; lra|lra]. }
    assert (k <= g ^ 2) by (rewrite GG, <- BB; apply Rmult_le_compat; lra). pose proof (pow2_ge_0 (k * x + a0 ^ 2 * w * g)). assert (0 <= a0 ^ 2 * a1 ^ 2 * (g ^ 2 - k)) by (apply Rmult_le_pos; lra). lra.
  - intros C. exists (- (a0 ^ 2 * w * g) / k). set (x := - (a0 ^ 2 * w * g) / k). specialize (E x). replace (k * x + a0 ^ 2 * w * g) with 0 in E by (unfold x; field; lra). assert (g ^ 2 < k) by (rewrite GG, <- BB; apply Rmult_le_0_lt_compat; lra). assert (0 < a0 ^ 2 * a1 ^ 2 * (k - g ^ 2)) by (apply Rmult_lt_0_compat; lra).
    apply Rnot_le_lt. intros D. assert (0 <= ell_loc (a0, a1) (x, w * x + g) * (a0 ^ 2 * a1 ^ 2) * k) by (apply Rmult_le_pos; [apply Rmult_le_pos; lra|lra]). lra.
Qed.
Print Assumptions C143_band.

Lemma int_val z : bfin (b64_of_Z z) -> Qeq (b64q (b64_of_Z z)) (inject_Z z) -> bfin (b64_of_Z z) /\ bval (b64_of_Z z) = IZR z.
Proof. intros F Q1. split; [exact F|]. rewrite b64q_R, (Qeq_eqR _ _ Q1). unfold Q2R, inject_Z. cbn [Qnum Qden]. rewrite Rinv_1, Rmult_1_r. reflexivity. Qed.
(** with a first half axis beyond 1024 the number under the square root may be rounded to one below -1e-8, and the points of a line that crosses the ellipse are nan *)
Theorem C143_nan_refuted : exists a l0 l1 : pt b64, bfin_pt a /\ bfin_pt l0 /\ bfin_pt l1 /\ 0 < bval (fst a) /\ 0 < bval (snd a) /\
  (exists t, 0 < t < 1 /\ ell_loc (bpt a) (bval (fst l0) + t * (bval (fst l1) - bval (fst l0)), bval (snd l0) + t * (bval (snd l1) - bval (snd l0))) < 0) /\
  chord_num b64_sqrt a l0 l1 = [(S754_nan, S754_nan); (S754_nan, S754_nan)].
Proof.
  assert (F1 : bfin (b64_of_Z 8439) /\ bval (b64_of_Z 8439) = IZR 8439) by (apply int_val; vm_compute; reflexivity). destruct F1 as (F1 & V1). assert (F2 : bfin (b64_of_Z 2) /\ bval (b64_of_Z 2) = IZR 2) by (apply int_val; vm_compute; reflexivity). destruct F2 as (F2 & V2). assert (F3 : bfin (b64_of_Z (-10000)) /\ bval (b64_of_Z (-10000)) = -10000) by (apply int_val; vm_compute; reflexivity). destruct F3 as (F3 & V3). assert (F4 : bfin (b64_of_Z (-17171)) /\ bval (b64_of_Z (-17171)) = IZR (-17171)) by (apply int_val; vm_compute; reflexivity). destruct F4 as (F4 & V4). assert (F5 : bfin (b64_of_Z 0) /\ bval (b64_of_Z 0) = IZR 0) by (apply int_val; vm_compute; reflexivity). destruct F5 as (F5 & V5). assert (F6 : bfin (b64_of_Z 92829) /\ bval (b64_of_Z 92829) = IZR 92829) by (apply int_val; vm_compute; reflexivity). destruct F6 as (F6 & V6).
  exists (b64_of_Z 8439, b64_of_Z 2), (b64_of_Z (-10000), b64_of_Z (-17171)), (b64_of_Z 0, b64_of_Z 92829). split; [split; assumption|]. split; [split; assumption|]. split; [split; assumption|]. unfold bpt. cbn [fst snd]. rewrite V1, V2, V3, V4, V5, V6. split; [lra|]. split; [lra|]. split; [|vm_compute; reflexivity].
  exists ((1561 + 4 / 1000000) / 10000). split; [lra|]. unfold ell_loc. cbn [fst snd]. lra.
Qed.
Print Assumptions C143_nan_refuted.
(** half axes 3 and 2: the line through (4, 2) and (-4, 1) crosses the ellipse, the one through (-4, 3) and (4, 3) misses it, the one through (1, -5) and (1, 5) is steep *)
Example C143_example : let i z : b64 := b64_of_Z z in let a := (i 3%Z, i 2%Z) in let l0 := (i 4%Z, i 2%Z) in let l1 := (i (-4)%Z, i 1%Z) in let k0 := (i (-4)%Z, i 3%Z) in let k1 := (i 4%Z, i 3%Z) in let v0 := (i 1%Z, i (-5)%Z) in let v1 := (i 1%Z, i 5%Z) in
  chord_sizes a l0 l1 /\ chord_sizes a k0 k1 /\ chord_sizes a v0 v1 /\ within 4 a /\ within 4 l0 /\ within 4 l1 /\ within 4 k0 /\ within 4 k1 /\
  (1.0001 / 10000 <= Rabs (bval (fst l1) - bval (fst l0)) /\ Rabs (bval (snd l1) - bval (snd l0)) <= 99.999 * Rabs (bval (fst l1) - bval (fst l0)) /\ line_slope (bpt l0) (bpt l1) = 1 / 8 /\ line_cut (bpt l0) (bpt l1) = 3 / 2 /\
   3 / 2 <= band (bpt a) (1 / 8) - 20 * (p2 (-53) * 4 * (1 + 1 / 8)) /\ bval (fst l1) <= - (1.001 * bval (fst a)) /\ 1.001 * bval (fst a) <= bval (fst l0)) /\
  (1.0001 / 10000 <= Rabs (bval (fst k1) - bval (fst k0)) /\ Rabs (bval (snd k1) - bval (snd k0)) <= 99.999 * Rabs (bval (fst k1) - bval (fst k0)) /\ line_slope (bpt k0) (bpt k1) = 0 /\ line_cut (bpt k0) (bpt k1) = 3 /\ band (bpt a) 0 + 20 * (p2 (-53) * 4 * (1 + 0)) <= 3) /\
  Rabs (bval (fst v1) - bval (fst v0)) <= 0.9999 / 10000 /\ length (chord_num b64_sqrt a l0 l1) = 2%nat /\ chord_num b64_sqrt a k0 k1 = [] /\ length (chord_num b64_sqrt a v0 v1) = 2%nat.
Proof.
  cbv zeta. assert (F3 : bfin (b64_of_Z 3) /\ bval (b64_of_Z 3) = IZR 3) by (apply int_val; vm_compute; reflexivity). destruct F3 as (F3 & V3). assert (F2 : bfin (b64_of_Z 2) /\ bval (b64_of_Z 2) = IZR 2) by (apply int_val; vm_compute; reflexivity). destruct F2 as (F2 & V2). assert (F4 : bfin (b64_of_Z 4) /\ bval (b64_of_Z 4) = IZR 4) by (apply int_val; vm_compute; reflexivity). destruct F4 as (F4 & V4). assert (F4' : bfin (b64_of_Z (-4)) /\ bval (b64_of_Z (-4)) = IZR (-4)) by (apply int_val; vm_compute; reflexivity). destruct F4' as (F4' & V4'). assert (F1 : bfin (b64_of_Z 1) /\ bval (b64_of_Z 1) = IZR 1) by (apply int_val; vm_compute; reflexivity). destruct F1 as (F1 & V1). assert (F5' : bfin (b64_of_Z (-5)) /\ bval (b64_of_Z (-5)) = IZR (-5)) by (apply int_val; vm_compute; reflexivity). destruct F5' as (F5' & V5'). assert (F5 : bfin (b64_of_Z 5) /\ bval (b64_of_Z 5) = IZR 5) by (apply int_val; vm_compute; reflexivity). destruct F5 as (F5 & V5).
  assert (X20 : 1000000 <= p2 20) by (rewrite p2_Z by lia; change (2 ^ 20)%Z with 1048576%Z; lra). assert (X10 : 1000 <= p2 10) by (rewrite p2_Z by lia; change (2 ^ 10)%Z with 1024%Z; lra). assert (X0 : p2 (-20) <= 1) by (rewrite <- p2_0; apply p2_le; lia). pose proof u_small as (U0 & U1).
  assert (AB : forall x B, - B <= x <= B -> Rabs x <= B) by (intros x B H; apply Rabs_le; exact H). unfold chord_sizes, bfin_pt, within, line_cut, line_slope, band, bpt. cbn [fst snd]. rewrite V1, V2, V3, V4, V4', V5, V5'.
  split; [repeat split; try assumption; try apply AB; lra|]. split; [repeat split; try assumption; try apply AB; lra|]. split; [repeat split; try assumption; try apply AB; lra|]. do 5 (split; [split; apply AB; lra|]). split; [|split; [|split; [|split; [|split]]]]; [| | |vm_compute; reflexivity|vm_compute; reflexivity|vm_compute; reflexivity].
  - replace (-4 - 4) with (-8) by ring. replace (1 - 2) with (-1) by ring. rewrite (Rabs_left (-8)), (Rabs_left (-1)) by lra. split; [lra|]. split; [lra|]. split; [lra|]. split; [lra|]. split; [|split; lra]. assert (B : 2 <= sqrt ((3 * (1 / 8)) ^ 2 + 2 ^ 2)) by (rewrite <- (sqrt_square 2) at 1 by lra; apply sqrt_le_1_alt; lra). lra.
  - replace (4 - -4) with 8 by ring. replace (3 - 3) with 0 by ring. rewrite Rabs_R0, (Rabs_pos_eq 8) by lra. split; [lra|]. split; [lra|]. split; [lra|]. split; [lra|]. replace ((3 * 0) ^ 2 + 2 ^ 2) with (2 * 2) by ring. rewrite sqrt_square by lra. lra.
  - replace (1 - 1) with 0 by ring. rewrite Rabs_R0. lra.
Qed.
