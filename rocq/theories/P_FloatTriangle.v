(** Property C136: point_in_triangle of utils/cg.py in binary64 arithmetic. *)
From Coq Require Import ZArith QArith Qreals Reals SpecFloat Bool Lia Lra List.
From Verif Require Import Num Spec L_Geom M_Cg L_Cg M_Float S_Float L_Float L_FloatCmp L_FloatCg L_FloatGrid L_FloatMotion P_Cg P_Float P_FloatCones.
Import ListNotations.
Local Open Scope R_scope.

(** within k units of 2^-53 M *)
Definition close (M k : R) (x : b64) (X : R) : Prop := bfin x /\ Rabs (bval x - X) <= k * (p2 (-53) * M).
Section Close.
  Variable M : R.
  Hypotheses (M1 : 1 <= M) (M2 : M <= p2 300).
  Lemma unit_M : 0 < p2 (-53) * M /\ p2 (-53) * M <= M / 1000000000000000 /\ p2 (-53) <= p2 (-53) * M /\ p2 (-1075) <= p2 (-53) * M / 1000 /\ 0 < p2 (-1075).
  Proof.
    pose proof u_small as (U0 & U1). pose proof eta_small as (E0 & E1). assert (p2 (-53) * 1 <= p2 (-53) * M) by (apply Rmult_le_compat_l; lra).
    split; [apply Rmult_lt_0_compat; lra|]. split; [apply Rle_trans with (1 / 1000000000000000 * M); [apply Rmult_le_compat_r; lra|lra]|]. lra.
  Qed.
  Lemma big_M z : z <= 8 * M -> z <= p2 900.
  Proof. intros Hz. apply Rle_trans with (p2 3 * p2 300); [rewrite (p2_Z 3) by lia; change (2 ^ 3)%Z with 8%Z; lra|]. rewrite <- p2_add. apply p2_le. lia. Qed.
  (* one rounded operation whose exact result on the rounded arguments is Z, wanted W *)
  Lemma round_close r Z0 W k B : near r Z0 -> Rabs (Z0 - W) <= k * (p2 (-53) * M) -> Rabs W <= B * M -> 0 <= k <= 100 -> 0 <= B <= 4 -> close M (k + B + 1 / 100) r W.
  Proof.
    intros (F & N & _) D HW Hk HB. split; [exact F|]. destruct unit_M as (U0 & U1 & U2 & E1 & E0). assert (A : Rabs Z0 <= B * M + k * (p2 (-53) * M)). { replace Z0 with (W + (Z0 - W)) by ring. eapply Rle_trans; [apply Rabs_triang|]. lra. }
    assert (P : p2 (-53) * Rabs Z0 <= p2 (-53) * (B * M + k * (p2 (-53) * M))) by (apply Rmult_le_compat_l; [left; apply p2_pos|exact A]).
    assert (Q : p2 (-53) * (k * (p2 (-53) * M)) <= 1 / 1000 * (p2 (-53) * M)). { pose proof u_small as (V0 & V1). rewrite <- Rmult_assoc. apply Rmult_le_compat_r; [lra|]. apply Rle_trans with (1 / 1000000000000000 * 100); [apply Rmult_le_compat; lra|lra]. }
    replace (bval r - W) with ((bval r - Z0) + (Z0 - W)) by ring. eapply Rle_trans; [apply Rabs_triang|]. rewrite Rmult_plus_distr_l in P. replace (p2 (-53) * (B * M)) with (B * (p2 (-53) * M)) in P by ring. lra.
  Qed.
  Lemma close_bound k x X B : close M k x X -> Rabs X <= B * M -> 0 <= k <= 100 -> Rabs (bval x) <= (B + 1 / 1000) * M.
  Proof.
    intros (F & D) HX Hk. destruct unit_M as (U0 & U1 & _). assert (k * (p2 (-53) * M) <= 100 * (M / 1000000000000000)) by (apply Rmult_le_compat; lra).
    replace (bval x) with (X + (bval x - X)) by ring. eapply Rle_trans; [apply Rabs_triang|]. lra.
  Qed.
  Lemma close_add k l x y X Y B C D : close M k x X -> close M l y Y -> Rabs X <= C * M -> Rabs Y <= D * M -> C + D <= 7 -> Rabs (X + Y) <= B * M -> 0 <= k <= 50 -> 0 <= l <= 50 -> 0 <= B <= 4 -> close M (k + l + B + 1 / 100) (SFadd 53 1024 x y) (X + Y).
  Proof.
    intros Hx Hy HC HD CD HB Hk Hl B4. pose proof (close_bound _ _ _ _ Hx HC ltac:(lra)) as Bx. pose proof (close_bound _ _ _ _ Hy HD ltac:(lra)) as By. destruct Hx as (Fx & Dx), Hy as (Fy & Dy).
    apply (round_close _ (bval x + bval y)); [|replace (bval x + bval y - (X + Y)) with ((bval x - X) + (bval y - Y)) by ring; eapply Rle_trans; [apply Rabs_triang|]; lra|exact HB|lra|exact B4].
    apply add_near; auto. apply big_M. eapply Rle_trans; [apply Rabs_triang|]. assert ((C + D + 2 / 1000) * M <= 8 * M) by (apply Rmult_le_compat_r; lra). lra.
  Qed.
  Lemma close_sub k l x y X Y B C D : close M k x X -> close M l y Y -> Rabs X <= C * M -> Rabs Y <= D * M -> C + D <= 7 -> Rabs (X - Y) <= B * M -> 0 <= k <= 50 -> 0 <= l <= 50 -> 0 <= B <= 4 -> close M (k + l + B + 1 / 100) (SFsub 53 1024 x y) (X - Y).
  Proof.
    intros Hx Hy HC HD CD HB Hk Hl B4. pose proof (close_bound _ _ _ _ Hx HC ltac:(lra)) as Bx. pose proof (close_bound _ _ _ _ Hy HD ltac:(lra)) as By. destruct Hx as (Fx & Dx), Hy as (Fy & Dy).
    apply (round_close _ (bval x - bval y)); [|replace (bval x - bval y - (X - Y)) with ((bval x - X) - (bval y - Y)) by ring; apply abs_dif with (1 := Dx) in Dy; lra|exact HB|lra|exact B4].
    apply sub_near; auto. apply big_M. assert (T1 : Rabs (bval x - bval y) <= (C + 1 / 1000) * M + (D + 1 / 1000) * M) by (apply abs_dif; assumption). assert ((C + D + 2 / 1000) * M <= 8 * M) by (apply Rmult_le_compat_r; lra). lra.
  Qed.
  (* a weight close to W in [0, 1], up to k 2^-53, and a number of magnitude at most M *)
  Lemma close_mul k x y W : bfin x -> Rabs (bval x - W) <= k * p2 (-53) -> 0 <= W <= 1 -> bfin y -> Rabs (bval y) <= M -> 0 <= k <= 100 -> close M (k + 1 + 1 / 100) (SFmul 53 1024 x y) (W * bval y).
  Proof.
    intros Fx Dx HW Fy By Hk. pose proof u_small as (U0 & U1). assert (Bx : Rabs (bval x) <= 2). { replace (bval x) with (W + (bval x - W)) by ring. eapply Rle_trans; [apply Rabs_triang|]. rewrite (Rabs_pos_eq W) by lra. assert (k * p2 (-53) <= 100 * (1 / 1000000000000000)) by (apply Rmult_le_compat; lra). lra. }
    apply (round_close _ (bval x * bval y)); [apply mul_near; auto; apply big_M; pose proof (abs_mul _ _ _ _ Bx By); lra| | |exact Hk|lra].
    - replace (bval x * bval y - W * bval y) with ((bval x - W) * bval y) by ring. pose proof (abs_mul _ _ _ _ Dx By). lra.
    - apply (abs_mul _ _ 1 M); [rewrite Rabs_pos_eq; lra|exact By].
  Qed.
End Close.

Section Weights.
  Variables x y : b64.
  Hypotheses (Fx : bfin x) (Fy : bfin y) (Hx : 0 <= bval x <= 1) (Hy : 0 <= bval y <= 1).
  Let X := bval x.
  Let Y := bval y.
  Let half : b64 := nlit (1 # 2).
  Lemma half_val : bfin half /\ bval half = 1 / 2.
  Proof. split; [vm_compute; reflexivity|]. rewrite b64q_R. transitivity (Q2R (1 # 2)); [apply Qeq_eqR; vm_compute; reflexivity|unfold Q2R; cbn; lra]. Qed.
  Lemma one_val : bfin (@n1 b64 NumB) /\ bval (@n1 b64 NumB) = 1.
  Proof. split; [vm_compute; reflexivity|]. rewrite b64q_R. transitivity (Q2R 1); [apply Qeq_eqR; vm_compute; reflexivity|unfold Q2R; cbn; lra]. Qed.
  Let q := SFabs (SFsub 53 1024 x y).
  Lemma m1 : 1 <= 1 <= p2 300. Proof. split; [lra|]. rewrite p2_Z by lia. apply IZR_le. change 1%Z with (2 ^ 0)%Z. apply Z.pow_le_mono_r; lia. Qed.
  Lemma exact_close z : bfin z -> close 1 0 z (bval z).
  Proof. intros F. split; [exact F|]. unfold Rminus. rewrite Rplus_opp_r, Rabs_R0. lra. Qed.
  Lemma q_close : close 1 (1 + 1 / 50) q (Rabs (X - Y)).
  Proof.
    destruct m1 as (A & B). destruct (close_sub 1 A B 0 0 x y X Y 1 1 1 (exact_close x Fx) (exact_close y Fy)) as (F & D); unfold X, Y in *; try lra; try (rewrite Rabs_pos_eq; lra). { apply Rabs_le. lra. }
    destruct (abs_spec _ F) as (F' & V). split; [exact F'|]. unfold q. rewrite V. eapply Rle_trans; [|eapply Rle_trans; [exact D|]]; [|pose proof (p2_pos (-53)); lra]. apply Rabs_triang_inv2.
  Qed.
  (* half a number close to Z0 *)
  Lemma half_close k z Z0 : close 1 k z Z0 -> Rabs Z0 <= 2 -> 0 <= k <= 20 -> close 1 (k / 2 + 1 + 1 / 100) (SFmul 53 1024 half z) (Z0 / 2).
  Proof.
    intros Cz HZ Hk. destruct m1 as (A & B). pose proof (close_bound 1 A k z Z0 2 Cz ltac:(lra) ltac:(lra)) as Bz. destruct Cz as (F & D). destruct half_val as (Fh & Vh).
    apply (round_close 1 A _ (bval half * bval z)); [apply mul_near; auto; apply (big_M 1 B); rewrite Vh; pose proof (abs_mul (1 / 2) _ (1 / 2) _ ltac:(rewrite Rabs_pos_eq; lra) Bz); lra| | |lra|lra].
    - rewrite Vh. replace (1 / 2 * bval z - Z0 / 2) with (1 / 2 * (bval z - Z0)) by field. pose proof (abs_mul (1 / 2) _ (1 / 2) _ ltac:(rewrite Rabs_pos_eq; lra) D). lra.
    - replace (Z0 / 2) with (1 / 2 * Z0) by field. pose proof (abs_mul (1 / 2) _ (1 / 2) _ ltac:(rewrite Rabs_pos_eq; lra) HZ). lra.
  Qed.
  Lemma t_close : close 1 4 (SFmul 53 1024 half (SFsub 53 1024 (SFadd 53 1024 x y) q)) (Rmin X Y).
  Proof.
    destruct m1 as (A & B). pose proof q_close as Cq. assert (HX : 0 <= X <= 1) by exact Hx. assert (HY : 0 <= Y <= 1) by exact Hy.
    assert (Ab : Rabs (X - Y) <= 1) by (apply Rabs_le; lra). assert (Ev : X + Y - Rabs (X - Y) = 2 * Rmin X Y) by (unfold Rmin, Rabs; destruct (Rle_dec X Y), (Rcase_abs (X - Y)); lra). assert (Hm : 0 <= Rmin X Y <= 1) by (unfold Rmin; destruct (Rle_dec X Y); lra).
    pose proof (close_add 1 A B 0 0 x y X Y 2 1 1 (exact_close x Fx) (exact_close y Fy) ltac:(rewrite Rabs_pos_eq; lra) ltac:(rewrite Rabs_pos_eq; lra) ltac:(lra) ltac:(rewrite Rabs_pos_eq; lra) ltac:(lra) ltac:(lra) ltac:(lra)) as C1.
    pose proof (close_sub 1 A B _ _ _ _ _ _ 2 2 1 C1 Cq ltac:(rewrite Rabs_pos_eq; lra) ltac:(rewrite Rabs_Rabsolu; lra) ltac:(lra) ltac:(rewrite Ev, Rabs_pos_eq; lra) ltac:(lra) ltac:(lra) ltac:(lra)) as C2.
    pose proof (half_close _ _ _ C2 ltac:(rewrite Ev, Rabs_pos_eq; lra) ltac:(lra)) as (F & D). split; [exact F|]. rewrite Ev in D. replace (2 * Rmin X Y / 2) with (Rmin X Y) in D by field. eapply Rle_trans; [exact D|]. pose proof (p2_pos (-53)). lra.
  Qed.
  Lemma u_close : close 1 5 (SFsub 53 1024 n1 (SFmul 53 1024 half (SFadd 53 1024 (SFadd 53 1024 q x) y))) (1 - Rmax X Y).
  Proof.
    destruct m1 as (A & B). pose proof q_close as Cq. assert (HX : 0 <= X <= 1) by exact Hx. assert (HY : 0 <= Y <= 1) by exact Hy. destruct one_val as (F1 & V1).
    assert (Ab : 0 <= Rabs (X - Y) <= 1) by (split; [apply Rabs_pos|apply Rabs_le; lra]). assert (Ev : Rabs (X - Y) + X + Y = 2 * Rmax X Y) by (unfold Rmax, Rabs; destruct (Rle_dec X Y), (Rcase_abs (X - Y)); lra). assert (Hm : 0 <= Rmax X Y <= 1) by (unfold Rmax; destruct (Rle_dec X Y); lra).
    pose proof (close_add 1 A B _ 0 _ x _ X 2 1 1 Cq (exact_close x Fx) ltac:(rewrite Rabs_pos_eq; lra) ltac:(rewrite Rabs_pos_eq; lra) ltac:(lra) ltac:(rewrite Rabs_pos_eq; lra) ltac:(lra) ltac:(lra) ltac:(lra)) as C1.
    pose proof (close_add 1 A B _ 0 _ y _ Y 2 2 1 C1 (exact_close y Fy) ltac:(rewrite Rabs_pos_eq; lra) ltac:(rewrite Rabs_pos_eq; lra) ltac:(lra) ltac:(rewrite Ev, Rabs_pos_eq; lra) ltac:(lra) ltac:(lra) ltac:(lra)) as C2.
    pose proof (half_close _ _ _ C2 ltac:(rewrite Ev, Rabs_pos_eq; lra) ltac:(lra)) as C3. rewrite Ev in C3. replace (2 * Rmax X Y / 2) with (Rmax X Y) in C3 by field.
    pose proof (exact_close n1 F1) as C4. rewrite V1 in C4.
    pose proof (close_sub 1 A B _ _ _ _ _ _ 1 1 1 C4 C3 ltac:(rewrite Rabs_pos_eq; lra) ltac:(rewrite Rabs_pos_eq; lra) ltac:(lra) ltac:(rewrite Rabs_pos_eq; lra) ltac:(lra) ltac:(lra) ltac:(lra)) as (F & D).
    split; [exact F|]. eapply Rle_trans; [exact D|]. pose proof (p2_pos (-53)). lra.
  Qed.
End Weights.

(** C136: for a triangle with coordinates up to M and draws between 0 and 1, the point is within 2^-49 M, in each coordinate, of the point that exact arithmetic gives, which is a point of the triangle *)
Theorem C136_point_in_triangle : forall M a b c x y, 1 <= M <= p2 300 -> bfin_pt a -> bfin_pt b -> bfin_pt c -> within M a -> within M b -> within M c ->
  bfin x -> bfin y -> 0 <= bval x <= 1 -> 0 <= bval y <= 1 ->
  let p := vadd (smul (Rabs (bval x - bval y)) (bpt a)) (vadd (smul (Rmin (bval x) (bval y)) (bpt b)) (smul (1 - Rmax (bval x) (bval y)) (bpt c))) in
  let r := point_in_triangle a b c x y in
  in_hull [bpt a; bpt b; bpt c] p /\ bfin_pt r /\ Rabs (bval (fst r) - fst p) <= p2 (-49) * M /\ Rabs (bval (snd r) - snd p) <= p2 (-49) * M.
Proof.
  intros M a b c x y (A & B) (Fa1 & Fa2) (Fb1 & Fb2) (Fc1 & Fc2) (Wa1 & Wa2) (Wb1 & Wb2) (Wc1 & Wc2) Fx Fy Hx Hy p r. set (X := bval x) in *. set (Y := bval y) in *.
  pose proof (q_close x y Fx Fy Hx Hy) as (Fq & Dq). pose proof (t_close x y Fx Fy Hx Hy) as (Ft & Dt). pose proof (u_close x y Fx Fy Hx Hy) as (Fu & Du). fold X Y in Dq, Dt, Du. rewrite Rmult_1_r in Dq, Dt, Du.
  assert (W1 : 0 <= Rabs (X - Y) <= 1) by (split; [apply Rabs_pos|apply Rabs_le; lra]). assert (W2 : 0 <= Rmin X Y <= 1) by (unfold Rmin; destruct (Rle_dec X Y); lra). assert (W3 : 0 <= 1 - Rmax X Y <= 1) by (unfold Rmax; destruct (Rle_dec X Y); lra).
  assert (S1 : Rabs (X - Y) + Rmin X Y + (1 - Rmax X Y) = 1) by (unfold Rmax, Rmin, Rabs; destruct (Rle_dec X Y), (Rcase_abs (X - Y)); lra). set (wa := Rabs (X - Y)) in *. set (wb := Rmin X Y) in *. set (wc := 1 - Rmax X Y) in *.
  assert (K : forall ya yb yc, bfin ya -> bfin yb -> bfin yc -> Rabs (bval ya) <= M -> Rabs (bval yb) <= M -> Rabs (bval yc) <= M -> forall s t u, bfin s -> bfin t -> bfin u ->
     Rabs (bval s - wa) <= (1 + 1 / 50) * p2 (-53) -> Rabs (bval t - wb) <= 4 * p2 (-53) -> Rabs (bval u - wc) <= 5 * p2 (-53) ->
     let z := SFadd 53 1024 (SFadd 53 1024 (SFmul 53 1024 s ya) (SFmul 53 1024 t yb)) (SFmul 53 1024 u yc) in bfin z /\ Rabs (bval z - (wa * bval ya + (wb * bval yb + wc * bval yc))) <= p2 (-49) * M).
  { intros ya yb yc F1 F2 F3 B1 B2 B3 s t u Fs Ft' Fu' Ds Dt' Du' z.
    assert (P : forall w v, 0 <= w <= 1 -> Rabs v <= M -> Rabs (w * v) <= w * M) by (intros w v Hw Hv; rewrite Rabs_mult, (Rabs_pos_eq w) by lra; apply Rmult_le_compat_l; lra).
    pose proof (close_mul M A B _ s ya wa Fs Ds W1 F1 B1 ltac:(lra)) as C1. pose proof (close_mul M A B _ t yb wb Ft' Dt' W2 F2 B2 ltac:(lra)) as C2. pose proof (close_mul M A B _ u yc wc Fu' Du' W3 F3 B3 ltac:(lra)) as C3.
    pose proof (P wa (bval ya) W1 B1) as P1. pose proof (P wb (bval yb) W2 B2) as P2. pose proof (P wc (bval yc) W3 B3) as P3. pose proof (abs_sum _ _ _ _ P1 P2) as P12. pose proof (abs_sum _ _ _ _ P12 P3) as P123.
    pose proof (close_add M A B _ _ _ _ _ _ 1 wa wb C1 C2 P1 P2 ltac:(lra) ltac:(assert ((wa + wb) * M <= 1 * M) by (apply Rmult_le_compat_r; lra); lra) ltac:(lra) ltac:(lra) ltac:(lra)) as C4.
    pose proof (close_add M A B _ _ _ _ _ _ 1 1 wc C4 C3 ltac:(assert ((wa + wb) * M <= 1 * M) by (apply Rmult_le_compat_r; lra); lra) P3 ltac:(lra) ltac:(replace (wa * M + wb * M + wc * M) with ((wa + wb + wc) * M) in P123 by ring; rewrite S1 in P123; lra) ltac:(lra) ltac:(lra) ltac:(lra)) as (F & D).
    split; [exact F|]. rewrite <- Rplus_assoc. unfold z. eapply Rle_trans; [exact D|]. replace (p2 (-49)) with (16 * p2 (-53)). { destruct (unit_M M A) as (U0 & _). lra. }
    replace (-49)%Z with (4 + -53)%Z by lia. rewrite p2_add, (p2_Z 4) by lia. reflexivity. }
  split.
  - exists [wa; wb; wc]. split; [reflexivity|]. split; [repeat (apply Forall_cons; [lra|]); apply Forall_nil|]. split; [cbn [rsum fold_right]; lra|]. unfold p, wsum. cbn. unfold vadd, smul. cbn [fst snd]. f_equal; ring.
  - unfold r, point_in_triangle. cbn [nadd nsub nmul nabs NumB]. destruct (K (fst a) (fst b) (fst c) Fa1 Fb1 Fc1 Wa1 Wb1 Wc1 _ _ _ Fq Ft Fu Dq Dt Du) as (G1 & H1). destruct (K (snd a) (snd b) (snd c) Fa2 Fb2 Fc2 Wa2 Wb2 Wc2 _ _ _ Fq Ft Fu Dq Dt Du) as (G2 & H2).
    split; [split; [exact G1|exact G2]|]. split; [exact H1|exact H2].
Qed.
Print Assumptions C136_point_in_triangle.
(** *** the draws 0.1 and 0.7; the point (0.4, 1.2) is not met exactly *)
Example C136_example : let g := grid_cone_pt in within 4 (g 0%Z 0%Z) /\ within 4 (g 4%Z 0%Z) /\ within 4 (g 0%Z 4%Z) /\ bfin f01 /\ bfin f07 /\ 0 <= bval f01 <= 1 /\ 0 <= bval f07 <= 1 /\
  let r := point_in_triangle (g 0%Z 0%Z) (g 4%Z 0%Z) (g 0%Z 4%Z) f01 f07 in fst r <> f04 /\ 1.1999999999 < bval (snd r) < 1.2000000001.
Proof.
  cbv zeta. assert (Q3 : 4 = Q2R 4) by (unfold Q2R; cbn; lra). rewrite Q3. do 3 (split; [apply withinb_R; vm_compute; reflexivity|]). do 2 (split; [vm_compute; reflexivity|]). rewrite !b64q_R.
  assert (I1 : forall q, (Qle_bool 0 q && Qle_bool q 1)%bool = true -> 0 <= Q2R q <= 1). { intros q H. apply andb_prop in H as (H1 & H2). apply Qle_bool_iff, Qle_Rle in H1, H2. unfold Q2R in H1 at 1, H2 at 2. cbn in H1, H2. lra. }
  do 2 (split; [apply I1; vm_compute; reflexivity|]). split; [vm_compute; discriminate|].
  assert (I2 : forall q lo hi, (Qle_bool q lo || Qle_bool hi q)%bool = false -> Q2R lo < Q2R q < Q2R hi). { intros q lo hi H. apply orb_false_iff in H as (H1 & H2). split; apply Qlt_Rlt; apply Qnot_le_lt; intros L; apply Qle_bool_iff in L; congruence. }
  pose proof (I2 (b64q (snd (@point_in_triangle b64 NumB (grid_cone_pt 0 0) (grid_cone_pt 4 0) (grid_cone_pt 0 4) f01 f07))) (11999999999 # 10000000000) (12000000001 # 10000000000) ltac:(vm_compute; reflexivity)) as H.
  exact H.
Qed.
