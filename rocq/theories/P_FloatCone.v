(** Property C128: Cone and Cone.point_in_cone of utils/cg.py in binary64 arithmetic. *)
From Coq Require Import ZArith QArith Qreals Reals SpecFloat Bool Lia Lra List.
From Verif Require Import Num Spec L_Geom M_Cg L_Cg M_Hull M_Float S_Float L_Float L_FloatCmp L_FloatCg L_FloatGrid W_Hull W_PolTransfer P_Float.
Import ListNotations.
Local Open Scope R_scope.

(** the cross product of a direction and the vector from the apex to the point, in exact arithmetic; positive: the point is to the left *)
Definition left_of (a d x : pt b64) : R := bval (fst d) * (bval (snd x) - bval (snd a)) - bval (snd d) * (bval (fst x) - bval (fst a)).
Definition turn_dirs (d1 d2 : pt b64) : R := bval (fst d1) * bval (snd d2) - bval (snd d1) * bval (fst d2).

Lemma sum79 x y : bfin x -> bfin y -> Rabs (bval x) <= 79 -> Rabs (bval y) <= 79 ->
  bfin (SFadd 53 1024 x y) /\ Rabs (bval (SFadd 53 1024 x y) - (bval x + bval y)) <= 159 * p2 (-53) /\ Rabs (bval (SFadd 53 1024 x y)) <= 160.
Proof.
  intros Fx Fy Bx By. pose proof (Rabs_triang (bval x) (bval y)) as T. pose proof u_small as (U0 & U1). pose proof eta_small as (E0 & E1).
  destruct (add_near x y Fx Fy) as (F & N & _). { apply Rle_trans with (p2 8); [rewrite p2_Z by lia; simpl; lra|apply p2_le; lia]. }
  assert (N' : Rabs (bval (SFadd 53 1024 x y) - (bval x + bval y)) <= 159 * p2 (-53)). { assert (p2 (-53) * Rabs (bval x + bval y) <= p2 (-53) * 158) by (apply Rmult_le_compat_l; lra). lra. }
  split; [exact F|]. split; [exact N'|]. replace (bval (SFadd 53 1024 x y)) with ((bval (SFadd 53 1024 x y) - (bval x + bval y)) + (bval x + bval y)) by ring.
  eapply Rle_trans; [apply Rabs_triang|]. lra.
Qed.
Section Side.
  Variables a d x : pt b64.
  Hypotheses (Fa : bfin_pt a) (Fd : bfin_pt d) (Fx : bfin_pt x) (Wa : within 79 a) (Wd : within 79 d) (Wx : within 79 x).
  Lemma side_tests : (is_ccw a (padd a d) x = true -> 0 < left_of a d x) /\ (is_cw a (padd a d) x = true -> left_of a d x < 0) /\
    (2 * TH <= left_of a d x -> is_ccw a (padd a d) x = true) /\ (left_of a d x <= - 2 * TH -> is_cw a (padd a d) x = true).
  Proof.
    destruct Fa as (F1 & F2), Fd as (F3 & F4), Wa as (W1 & W2), Wd as (W3 & W4), Wx as (W5 & W6).
    destruct (sum79 _ _ F1 F3 W1 W3) as (G1 & X1 & Y1). destruct (sum79 _ _ F2 F4 W2 W4) as (G2 & X2 & Y2). set (b := padd a d).
    change (SFadd 53 1024 (fst a) (fst d)) with (fst b) in *. change (SFadd 53 1024 (snd a) (snd d)) with (snd b) in *.
    assert (B : 160 <= p2 400). { apply Rle_trans with (p2 8); [rewrite p2_Z by lia; simpl; lra|apply p2_le; lia]. }
    assert (V : forall p, within 79 p -> within 160 p) by (intros p (P1 & P2); split; lra).
    destruct (orient_err 160 a b x ltac:(lra) B Fa (conj G1 G2) Fx (V a Wa) (conj Y1 Y2) (V x Wx)) as (F & E).
    rewrite is_ccw_B, is_cw_B by exact F. pose proof u_val as U. pose proof u_small as (U0 & U1). pose proof th_near as T. pose proof TH_pos as TP.
    assert (D : Rabs (area2 (bpt a) (bpt b) (bpt x) - left_of a d x) <= 2 * (159 * p2 (-53) * 158)).
    { replace (area2 (bpt a) (bpt b) (bpt x) - left_of a d x) with
        ((bval (fst b) - (bval (fst a) + bval (fst d))) * (bval (snd x) - bval (snd a)) - (bval (snd b) - (bval (snd a) + bval (snd d))) * (bval (fst x) - bval (fst a))).
      - pose proof (abs_dif _ _ _ _ W5 W1) as D1. pose proof (abs_dif _ _ _ _ W6 W2) as D2.
        pose proof (abs_mul _ _ _ _ X1 D2) as M1. pose proof (abs_mul _ _ _ _ X2 D1) as M2. pose proof (abs_dif _ _ _ _ M1 M2). lra.
      - unfold left_of, area2, vsub, bpt. unfold cross. cbn [fst snd]. ring. }
    assert (E' : Rabs (bval (orientation_val a b x) + left_of a d x) < 0.995 * TH).
    { replace (bval (orientation_val a b x) + left_of a d x) with ((bval (orientation_val a b x) + area2 (bpt a) (bpt b) (bpt x)) - (area2 (bpt a) (bpt b) (bpt x) - left_of a d x)) by ring.
      eapply Rle_lt_trans; [apply Rabs_triang|]. rewrite Rabs_Ropp. unfold TH. lra. }
    apply Rabs_def2 in E' as (E1 & E2). set (v := bval (orientation_val a b x)) in *. set (L := left_of a d x) in *. set (th := bval _) in *. clearbody v L th.
    unfold Rltb. split; [|split; [|split]]; intros Q; (destruct (Rlt_dec _ _) as [K|K]; [|]); try discriminate; try reflexivity; try lra.
  Qed.
End Side.
Lemma convex_tests d1 d2 : bfin_pt d1 -> bfin_pt d2 -> within 79 d1 -> within 79 d2 ->
  (is_ccw (n0, n0) d1 d2 = true -> 0 < turn_dirs d1 d2) /\ (2 * TH <= turn_dirs d1 d2 -> is_ccw (n0, n0) d1 d2 = true).
Proof.
  intros F1 F2 W1 W2. assert (V : forall p, within 79 p -> within 160 p) by (intros p (P1 & P2); split; lra).
  assert (Z0 : bval n0 = 0) by (rewrite b64q_R; unfold Q2R; cbn; lra).
  destruct (C112_turn_tests (n0, n0) d1 d2) as (T1 & _ & _ & T4 & _); auto.
  - apply fin_ptb_R. reflexivity.
  - split; cbn [fst snd]; rewrite Z0, Rabs_R0; lra.
  - replace (area2 (bpt (n0, n0)) (bpt d1) (bpt d2)) with (turn_dirs d1 d2) in *; [auto|]. unfold turn_dirs, area2, vsub, bpt, cross. cbn [fst snd]. rewrite Z0. ring.
Qed.

(** C128: coordinates of magnitude at most 79. A convex cone: an accepted point is strictly inside, also with exact numbers, and a point whose cross products are both
    beyond twice the threshold is accepted. Otherwise: a rejected point is strictly in the wedge that is left out, and every point well in that wedge is rejected. *)
Theorem C128_point_in_cone : forall a d1 d2 x, bfin_pt a -> bfin_pt d1 -> bfin_pt d2 -> bfin_pt x -> within 79 a -> within 79 d1 -> within 79 d2 -> within 79 x ->
  let c := Cone a d1 d2 in
  (2 * TH <= turn_dirs d1 d2 ->
     (point_in_cone c x = true -> 0 < left_of a d1 x /\ left_of a d2 x < 0) /\
     (2 * TH <= left_of a d1 x /\ left_of a d2 x <= - 2 * TH -> point_in_cone c x = true)) /\
  (turn_dirs d1 d2 <= 0 ->
     (point_in_cone c x = false -> 0 < left_of a d2 x /\ left_of a d1 x < 0) /\
     (2 * TH <= left_of a d2 x /\ left_of a d1 x <= - 2 * TH -> point_in_cone c x = false)).
Proof.
  intros a d1 d2 x Fa F1 F2 Fx Wa W1 W2 Wx c. destruct (convex_tests d1 d2 F1 F2 W1 W2) as [C1 C2].
  destruct (side_tests a d1 x Fa F1 Fx Wa W1 Wx) as (A1 & A2 & A3 & A4). destruct (side_tests a d2 x Fa F2 Fx Wa W2 Wx) as (B1 & B2 & B3 & B4).
  unfold point_in_cone. cbn [c Cone is_convex apex dir1 dir2]. split; intros Hc.
  - rewrite (C2 Hc). split; [intros H; apply andb_prop in H as [H1 H2]; auto|]. intros [H1 H2]. rewrite A3, B4 by assumption. reflexivity.
  - assert (Nc : is_ccw (n0, n0) d1 d2 = false) by (destruct (is_ccw (n0, n0) d1 d2); [specialize (C1 eq_refl); lra|reflexivity]). rewrite Nc. split.
    + intros H. apply negb_false_iff, andb_prop in H as [H1 H2]. auto.
    + intros [H1 H2]. rewrite B3, A4 by assumption. reflexivity.
Qed.
Print Assumptions C128_point_in_cone.
(** *** a cone to the right with apex 0, and a point in it *)
Definition cone_pt (x y : Z) : pt b64 := (binary_normalize 53 1024 x 0 false, binary_normalize 53 1024 y 0 false).
Example C128_example : let a := cone_pt 0 0 in let d1 := cone_pt 1 (-1) in let d2 := cone_pt 1 1 in let x := cone_pt 5 1 in
  (bfin_pt a /\ bfin_pt d1 /\ bfin_pt d2 /\ bfin_pt x) /\ (within 79 a /\ within 79 d1 /\ within 79 d2 /\ within 79 x) /\ 2 * TH <= turn_dirs d1 d2 /\ 2 * TH <= left_of a d1 x /\
  left_of a d2 x <= - 2 * TH /\ point_in_cone (Cone a d1 d2) x = true /\ point_in_cone (Cone a d2 d1) x = false.
Proof.
  cbv zeta. split; [repeat split; apply fin_ptb_R; vm_compute; reflexivity|]. assert (Q3 : 79 = Q2R 79) by (unfold Q2R; cbn; lra). rewrite Q3.
  split; [repeat apply conj; apply withinb_R; vm_compute; reflexivity|]. pose proof TH_pos. unfold turn_dirs, left_of. rewrite !b64q_R.
  assert (E : forall q z, Qeq_bool q (z # 1) = true -> Q2R q = IZR z) by (intros q z Hq; apply Qeq_bool_eq, Qeq_eqR in Hq; rewrite Hq; unfold Q2R; cbn; lra).
  repeat match goal with |- context [Q2R (b64q (?f (cone_pt ?x ?y)))] => first [rewrite (E (b64q (f (cone_pt x y))) x) by (vm_compute; reflexivity) | rewrite (E (b64q (f (cone_pt x y))) y) by (vm_compute; reflexivity)] end.
  unfold TH. repeat (split; [lra|]). split; vm_compute; reflexivity.
Qed.
(** a convex cone with short directions, (1e-6, 0) and (0, 1e-6), is not recognised as convex, and a point to the right of it, 7 away from it, is accepted *)
Theorem C128_short_refuted : exists a d1 d2 x, bfin_pt a /\ bfin_pt d1 /\ bfin_pt d2 /\ bfin_pt x /\ within 79 a /\ within 79 d1 /\ within 79 d2 /\ within 79 x /\
  0 < turn_dirs d1 d2 /\ left_of a d1 x < 0 /\ point_in_cone (Cone a d1 d2) x = true.
Proof.
  set (e := @nlit b64 NumB (1 # 1000000)). exists (cone_pt 0 0), (e, n0), (n0, e), (cone_pt 7 (-7)).
  do 4 (split; [apply fin_ptb_R; vm_compute; reflexivity|]). assert (Q3 : 79 = Q2R 79) by (unfold Q2R; cbn; lra). rewrite Q3. do 4 (split; [apply withinb_R; vm_compute; reflexivity|]).
  unfold turn_dirs, left_of. rewrite !b64q_R. rewrite <- !Q2R_minus, <- !Q2R_mult, <- !Q2R_minus. replace 0 with (Q2R 0) by (unfold Q2R; cbn; lra).
  do 2 (split; [apply Qlt_Rlt; vm_compute; reflexivity|]). vm_compute. reflexivity.
Qed.
Print Assumptions C128_short_refuted.
