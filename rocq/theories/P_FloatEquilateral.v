(** Property C139: equilateral_triangle of utils/cg.py in binary64 arithmetic. *)
From Coq Require Import ZArith QArith Qreals Reals SpecFloat Bool Lia Lra List.
From Verif Require Import Num Spec L_Geom M_Cg L_Cg M_Float S_Float L_Float L_FloatCmp L_FloatCg L_FloatDiv L_FloatGrid L_FloatMotion P_Cg P_Float P_FloatCones P_FloatTriangle M_FloatTriangle L_FloatEllipse.
Import ListNotations.
Local Open Scope R_scope.

Theorem C139_same_code : forall c L r, equilateral_num cos sin sqrt c L r = equilateral_triangle c L r.
Proof.
  intros c L r. unfold equilateral_num, equilateral_triangle, triangle_base_num, triangle_base, n0, n1. cbn [nadd nsub nmul ndiv neqb nlit NumR].
  replace (Q2R 0) with 0 by (unfold Q2R; cbn; lra). replace (Q2R 1) with 1 by (unfold Q2R; cbn; lra). replace (Q2R 2) with 2 by (unfold Q2R; cbn; lra). replace (Q2R 3) with 3 by (unfold Q2R; cbn; lra). replace (Q2R (-1)) with (-1) by (unfold Q2R; cbn; lra).
  replace (- (1)) with (-1) by lra. reflexivity.
Qed.
Print Assumptions C139_same_code.

(** the constants *)
Definition c_top : b64 := SFdiv 53 1024 (nlit 1) (b64_sqrt (nlit 3)).
Definition c_low : b64 := SFdiv 53 1024 (nlit (-1)) (SFmul 53 1024 (nlit 2) (b64_sqrt (nlit 3))).
Definition c_half : b64 := SFdiv 53 1024 (nlit 1) (nlit 2).
Definition c_mhalf : b64 := SFdiv 53 1024 (nlit (-1)) (nlit 2).
Lemma by_square q e v : 0 < v -> 0 <= q - e -> 0 <= e -> (q - e) * (q - e) <= v * v -> v * v <= (q + e) * (q + e) -> Rabs (q - v) <= e.
Proof.
  intros V Q E A B. apply Rabs_le. split.
  - assert (v <= q + e) by (apply Rsqr_incr_0_var; unfold Rsqr; lra). lra.
  - assert (q - e <= v) by (apply Rsqr_incr_0_var; unfold Rsqr; lra). lra.
Qed.
Lemma Qle_R a b : Qle_bool a b = true -> Q2R a <= Q2R b.
Proof. intros H. apply Qle_Rle. apply Qle_bool_iff. exact H. Qed.
Lemma inv_sqrt3 : 0 < 1 / sqrt 3 /\ (1 / sqrt 3) * (1 / sqrt 3) = 1 / 3.
Proof.
  assert (0 < sqrt 3) by (apply sqrt_lt_R0; lra). split; [unfold Rdiv; rewrite Rmult_1_l; apply Rinv_0_lt_compat; assumption|].
  replace (1 / sqrt 3 * (1 / sqrt 3)) with (1 / (sqrt 3 * sqrt 3)) by (field; lra). rewrite sqrt_sqrt by lra. reflexivity.
Qed.
Lemma u_Q : p2 (-53) = Q2R (1 # 9007199254740992).
Proof. pose proof u_val. unfold Q2R; cbn [Qnum Qden]; lra. Qed.
Lemma top_val : bfin c_top /\ Rabs (bval c_top - 1 / sqrt 3) <= p2 (-53).
Proof.
  split; [vm_compute; reflexivity|]. rewrite b64q_R. destruct inv_sqrt3 as (P & S). rewrite u_Q. apply by_square; [exact P| | |rewrite S|rewrite S].
  - rewrite <- Q2R_minus. replace 0 with (Q2R 0) by (unfold Q2R; cbn; lra). apply Qle_R. vm_compute. reflexivity.
  - replace 0 with (Q2R 0) by (unfold Q2R; cbn; lra). apply Qle_R. vm_compute. reflexivity.
  - rewrite <- Q2R_minus, <- Q2R_mult. replace (1 / 3) with (Q2R (1 # 3)) by (unfold Q2R; cbn; lra). apply Qle_R. vm_compute. reflexivity.
  - rewrite <- Q2R_plus, <- Q2R_mult. replace (1 / 3) with (Q2R (1 # 3)) by (unfold Q2R; cbn; lra). apply Qle_R. vm_compute. reflexivity.
Qed.
Lemma low_val : bfin c_low /\ Rabs (bval c_low - - 1 / (2 * sqrt 3)) <= p2 (-53).
Proof.
  split; [vm_compute; reflexivity|]. rewrite b64q_R. destruct inv_sqrt3 as (P & S). assert (0 < sqrt 3) by (apply sqrt_lt_R0; lra). replace (-1 / (2 * sqrt 3)) with (- (1 / sqrt 3 / 2)) by (field; lra).
  replace (Q2R (b64q c_low) - - (1 / sqrt 3 / 2)) with (- (- Q2R (b64q c_low) - 1 / sqrt 3 / 2)) by ring. rewrite Rabs_Ropp, <- Q2R_opp, u_Q. assert (S' : 1 / sqrt 3 / 2 * (1 / sqrt 3 / 2) = 1 / 12) by lra. apply by_square; [lra| | |rewrite S'|rewrite S'].
  - rewrite <- Q2R_minus. replace 0 with (Q2R 0) by (unfold Q2R; cbn; lra). apply Qle_R. vm_compute. reflexivity.
  - replace 0 with (Q2R 0) by (unfold Q2R; cbn; lra). apply Qle_R. vm_compute. reflexivity.
  - rewrite <- Q2R_minus, <- Q2R_mult. replace (1 / 12) with (Q2R (1 # 12)) by (unfold Q2R; cbn; lra). apply Qle_R. vm_compute. reflexivity.
  - rewrite <- Q2R_plus, <- Q2R_mult. replace (1 / 12) with (Q2R (1 # 12)) by (unfold Q2R; cbn; lra). apply Qle_R. vm_compute. reflexivity.
Qed.
Lemma c_half_val : bfin c_half /\ bval c_half = 1 / 2.
Proof. split; [vm_compute; reflexivity|]. rewrite b64q_R. transitivity (Q2R (1 # 2)); [apply Qeq_eqR; vm_compute; reflexivity|unfold Q2R; cbn; lra]. Qed.
Lemma c_mhalf_val : bfin c_mhalf /\ bval c_mhalf = - 1 / 2.
Proof. split; [vm_compute; reflexivity|]. rewrite b64q_R. transitivity (Q2R (-1 # 2)); [apply Qeq_eqR; vm_compute; reflexivity|unfold Q2R; cbn; lra]. Qed.

Lemma close_weak M k k' x X : 1 <= M -> close M k x X -> k <= k' -> close M k' x X.
Proof. intros M1 (F & D) K. split; [exact F|]. eapply Rle_trans; [exact D|]. apply Rmult_le_compat_r; [|exact K]. pose proof (p2_pos (-53)). apply Rmult_le_pos; lra. Qed.
Lemma close_self M z : 1 <= M -> bfin z -> close M 0 z (bval z).
Proof. intros M1 F. split; [exact F|]. unfold Rminus. rewrite Rplus_opp_r, Rabs_R0. lra. Qed.
Lemma close_prod M k l x y W Y B : 1 <= M -> M <= p2 300 -> bfin x -> Rabs (bval x - W) <= k * p2 (-53) -> Rabs W <= 1 -> close M l y Y -> Rabs Y <= B * M -> 0 <= k <= 5 -> 0 <= l <= 20 -> 0 <= B <= 3 ->
  close M (k * (B + 1 / 1000) + l + B + 1 / 100) (SFmul 53 1024 x y) (W * Y).
Proof.
  intros M1 M2 Fx Dx HW Cy HY Hk Hl HB. pose proof (close_bound M M1 _ _ _ _ Cy HY ltac:(lra)) as By. destruct Cy as (Fy & Dy). pose proof u_small as (U0 & U1).
  assert (KU : k * p2 (-53) <= 1). { apply Rle_trans with (5 * (1 / 1000000000000000)); [apply Rmult_le_compat; lra|lra]. }
  assert (Bx : Rabs (bval x) <= 2). { replace (bval x) with (W + (bval x - W)) by ring. eapply Rle_trans; [apply Rabs_triang|]. lra. }
  assert (K5 : 0 <= k * (B + 1 / 1000) <= 5 * (3 + 1 / 1000)) by (split; [apply Rmult_le_pos; lra|apply Rmult_le_compat; lra]).
  apply (round_close M M1 _ (bval x * bval y)); [apply mul_near; auto; apply (big_M M M2); pose proof (abs_mul _ _ _ _ Bx By) as H; assert ((B + 1 / 1000) * M <= 4 * M) by (apply Rmult_le_compat_r; lra); lra| | |lra|lra].
  - replace (bval x * bval y - W * Y) with ((bval x - W) * bval y + W * (bval y - Y)) by ring. eapply Rle_trans; [apply Rabs_triang|]. pose proof (abs_mul _ _ _ _ Dx By) as H1. pose proof (abs_mul _ _ _ _ HW Dy) as H2. lra.
  - pose proof (abs_mul _ _ _ _ HW HY). lra.
Qed.
(** finite, and each coordinate within e of that of P *)
Definition coord_near (e : R) (p : b64 * b64) (P : Pt) : Prop := (bfin (fst p) /\ Rabs (bval (fst p) - fst P) <= e) /\ (bfin (snd p) /\ Rabs (bval (snd p) - snd P) <= e).
Definition all3 (e : R) (t : (b64 * b64) * (b64 * b64) * (b64 * b64)) (t' : Pt * Pt * Pt) : Prop := coord_near e (fst (fst t)) (fst (fst t')) /\ coord_near e (snd (fst t)) (snd (fst t')) /\ coord_near e (snd t) (snd t').
Definition rv (p : b64 * b64) : Pt := (bval (fst p), bval (snd p)).

Section Vertices.
  Variables (M : R) (c : b64 * b64) (side : b64).
  Hypotheses (M1 : 1 <= M) (M2 : M <= p2 300) (Fx : bfin (fst c)) (Fy : bfin (snd c)) (Fs : bfin side)
    (Bx : Rabs (bval (fst c)) <= M) (By : Rabs (bval (snd c)) <= M) (Bs : Rabs (bval side) <= M).
  Lemma term_close w W z : bfin w -> Rabs (bval w - W) <= p2 (-53) -> Rabs W <= 1 -> bfin z -> Rabs (bval z) <= M ->
    close M 5 (SFadd 53 1024 z (SFmul 53 1024 w side)) (bval z + W * bval side) /\ Rabs (bval z + W * bval side) <= 2 * M.
  Proof.
    intros Fw Dw HW Fz Bz. assert (P : close M (1 * (1 + 1 / 1000) + 0 + 1 + 1 / 100) (SFmul 53 1024 w side) (W * bval side)).
    { apply (close_prod M 1 0 _ _ _ _ 1); try lra; auto; apply close_self; auto. }
    assert (Q : Rabs (W * bval side) <= 1 * M) by (apply abs_mul; assumption). assert (T : Rabs (bval z + W * bval side) <= 2 * M) by (eapply Rle_trans; [apply Rabs_triang|]; lra). split; [|exact T].
    eapply close_weak; [exact M1|apply (close_add M M1 M2 0 _ z _ (bval z) (W * bval side) 2 1 1 (close_self M z M1 Fz) P); lra|lra].
  Qed.
  Lemma zero_close z : bfin z -> Rabs (bval z) <= M -> close M 5 (SFadd 53 1024 z n0) (bval z + 0) /\ Rabs (bval z + 0) <= 2 * M.
  Proof.
    intros Fz Bz. assert (F0 : bfin (@n0 b64 NumB)) by (vm_compute; reflexivity). assert (V0 : bval (@n0 b64 NumB) = 0) by (vm_compute; reflexivity). split; [|rewrite Rplus_0_r; lra].
    pose proof (close_self M _ M1 F0) as C0. rewrite V0 in C0. eapply close_weak; [exact M1|apply (close_add M M1 M2 0 0 z _ (bval z) 0 1 1 0 (close_self M z M1 Fz) C0); rewrite ?Rabs_R0, ?Rplus_0_r; lra|lra].
  Qed.
  Lemma half_abs : Rabs (1 / 2) <= 1 /\ Rabs (- 1 / 2) <= 1 /\ Rabs (1 / sqrt 3) <= 1 /\ Rabs (- 1 / (2 * sqrt 3)) <= 1.
  Proof.
    destruct inv_sqrt3 as (P & S). assert (0 < sqrt 3) by (apply sqrt_lt_R0; lra). assert (Q : 1 / sqrt 3 <= 1) by nra.
    split; [apply Rabs_le; lra|]. split; [apply Rabs_le; lra|]. split; [apply Rabs_le; lra|]. replace (-1 / (2 * sqrt 3)) with (- (1 / sqrt 3 / 2)) by (field; lra). apply Rabs_le. lra.
  Qed.
  Definition vertex_close (p : b64 * b64) (P : Pt) : Prop := close M 5 (fst p) (fst P) /\ close M 5 (snd p) (snd P) /\ Rabs (fst P) <= 2 * M /\ Rabs (snd P) <= 2 * M.
  Lemma base_close : let t := triangle_base_num b64_sqrt c side in let t' := triangle_base (rv c) (bval side) in
    vertex_close (fst (fst t)) (fst (fst t')) /\ vertex_close (snd (fst t)) (snd (fst t')) /\ vertex_close (snd t) (snd t').
  Proof.
    cbv zeta. unfold triangle_base_num, triangle_base, vertex_close, rv. cbn [fst snd nadd nsub nmul ndiv NumB]. destruct half_abs as (H1 & H2 & H3 & H4).
    destruct top_val as (Ft & Dt), low_val as (Fl & Dl), c_half_val as (Fh & Vh), c_mhalf_val as (Fm & Vm). pose proof (p2_pos (-53)) as U.
    assert (Dh : Rabs (bval c_half - 1 / 2) <= p2 (-53)) by (rewrite Vh; unfold Rminus; rewrite Rplus_opp_r, Rabs_R0; lra). assert (Dm : Rabs (bval c_mhalf - - 1 / 2) <= p2 (-53)) by (rewrite Vm; unfold Rminus; rewrite Rplus_opp_r, Rabs_R0; lra).
    destruct (term_close _ _ (snd c) Ft Dt H3 Fy By) as (A1 & A2). destruct (term_close _ _ (snd c) Fl Dl H4 Fy By) as (B1 & B2). destruct (term_close _ _ (fst c) Fh Dh H1 Fx Bx) as (D1 & D2). destruct (term_close _ _ (fst c) Fm Dm H2 Fx Bx) as (E1 & E2). destruct (zero_close (fst c) Fx Bx) as (G1 & G2).
    split; [|split]; (split; [|split; [|split]]); assumption.
  Qed.
  Lemma rot_close (cc ss : b64) C S0 p P : bfin cc -> bfin ss -> Rabs (bval cc - C) <= p2 (-53) -> Rabs (bval ss - S0) <= p2 (-53) -> Rabs C <= 1 -> Rabs S0 <= 1 -> vertex_close p P ->
    close M 23 (SFsub 53 1024 (SFmul 53 1024 cc (fst p)) (SFmul 53 1024 ss (snd p))) (C * fst P - S0 * snd P) /\ close M 23 (SFadd 53 1024 (SFmul 53 1024 ss (fst p)) (SFmul 53 1024 cc (snd p))) (S0 * fst P + C * snd P).
  Proof.
    intros Fc Fs' Dc Ds HC HS (V1 & V2 & V3 & V4). assert (Z : forall w W y Y, bfin w -> Rabs (bval w - W) <= p2 (-53) -> Rabs W <= 1 -> close M 5 y Y -> Rabs Y <= 2 * M -> close M (1 * (2 + 1 / 1000) + 5 + 2 + 1 / 100) (SFmul 53 1024 w y) (W * Y) /\ Rabs (W * Y) <= 2 * M).
    { intros w W y Y Fw Dw HW Cy HY. split; [apply (close_prod M 1 5 _ _ _ _ 2); try lra; auto; lra|]. pose proof (abs_mul _ _ _ _ HW HY). lra. }
    destruct (Z cc C _ _ Fc Dc HC V1 V3) as (A1 & A2). destruct (Z ss S0 _ _ Fs' Ds HS V2 V4) as (B1 & B2). destruct (Z ss S0 _ _ Fs' Ds HS V1 V3) as (D1 & D2). destruct (Z cc C _ _ Fc Dc HC V2 V4) as (E1 & E2). split.
    - eapply close_weak; [exact M1|apply (close_sub M M1 M2 _ _ _ _ _ _ 4 2 2 A1 B1 A2 B2); try lra; pose proof (abs_dif _ _ _ _ A2 B2); lra|lra].
    - eapply close_weak; [exact M1|apply (close_add M M1 M2 _ _ _ _ _ _ 4 2 2 D1 E1 D2 E2); try lra; pose proof (Rabs_triang (S0 * fst P) (C * snd P)); lra|lra].
  Qed.
End Vertices.

(** without rotation: every coordinate within 5 units of 2^-53 M *)
Theorem C139_accuracy : forall ncos nsin M (c : b64 * b64) (side : b64), 1 <= M -> M <= p2 300 -> bfin (fst c) -> bfin (snd c) -> bfin side -> Rabs (bval (fst c)) <= M -> Rabs (bval (snd c)) <= M -> Rabs (bval side) <= M ->
  all3 (5 * (p2 (-53) * M)) (equilateral_num ncos nsin b64_sqrt c side n0) (equilateral_triangle (rv c) (bval side) 0).
Proof.
  intros ncos nsin M c side M1 M2 Fx Fy Fs Bx By Bs. pose proof (base_close M c side M1 M2 Fx Fy Fs Bx By Bs) as H. cbv zeta in H. unfold equilateral_num, equilateral_triangle.
  destruct (triangle_base_num b64_sqrt c side) as ((t0, t1), t2), (triangle_base (rv c) (bval side)) as ((T0, T1), T2). cbn [fst snd] in H.
  assert (E : neqb (@n0 b64 NumB) n0 = true) by (vm_compute; reflexivity). rewrite E. destruct (Reqb_spec 0 0) as [_|N]; [|congruence].
  destruct H as ((A1 & A2 & _) & (B1 & B2 & _) & (D1 & D2 & _)). repeat split; cbn [fst snd]; first [apply A1|apply A2|apply B1|apply B2|apply D1|apply D2].
Qed.
Print Assumptions C139_accuracy.
(** with a rotation (about the origin, as the code has it): within 23 units, if np.cos and np.sin are within 2^-53 *)
Theorem C139_rotated : forall ncos nsin M (c : b64 * b64) (side rot : b64), 1 <= M -> M <= p2 300 -> bfin (fst c) -> bfin (snd c) -> bfin side -> Rabs (bval (fst c)) <= M -> Rabs (bval (snd c)) <= M -> Rabs (bval side) <= M ->
  bfin rot -> bval rot <> 0 -> bfin (ncos rot) -> bfin (nsin rot) -> Rabs (bval (ncos rot) - cos (bval rot)) <= p2 (-53) -> Rabs (bval (nsin rot) - sin (bval rot)) <= p2 (-53) ->
  all3 (23 * (p2 (-53) * M)) (equilateral_num ncos nsin b64_sqrt c side rot) (equilateral_triangle (rv c) (bval side) (bval rot)).
Proof.
  intros ncos nsin M c side rot M1 M2 Fx Fy Fs Bx By Bs Fr Nr Fc Fn Dc Dn. pose proof (base_close M c side M1 M2 Fx Fy Fs Bx By Bs) as H. cbv zeta in H. unfold equilateral_num, equilateral_triangle.
  destruct (triangle_base_num b64_sqrt c side) as ((t0, t1), t2), (triangle_base (rv c) (bval side)) as ((T0, T1), T2). cbn [fst snd] in H.
  assert (E : neqb rot (@n0 b64 NumB) = false). { cbn [neqb NumB]. assert (F0 : bfin (@n0 b64 NumB)) by (vm_compute; reflexivity). rewrite (eqb_spec rot n0 Fr F0). assert (V0 : bval (@n0 b64 NumB) = 0) by (vm_compute; reflexivity). rewrite V0. destruct (Reqb_spec (bval rot) 0) as [K|K]; [congruence|reflexivity]. }
  rewrite E. destruct (Reqb_spec (bval rot) 0) as [N|_]; [congruence|]. cbn [nadd nsub nmul NumB]. assert (HC : Rabs (cos (bval rot)) <= 1) by (apply Rabs_le; pose proof (COS_bound (bval rot)); lra). assert (HS : Rabs (sin (bval rot)) <= 1) by (apply Rabs_le; pose proof (SIN_bound (bval rot)); lra).
  destruct H as (A & B & D). destruct (rot_close M M1 M2 _ _ _ _ _ _ Fc Fn Dc Dn HC HS A) as (A1 & A2). destruct (rot_close M M1 M2 _ _ _ _ _ _ Fc Fn Dc Dn HC HS B) as (B1 & B2). destruct (rot_close M M1 M2 _ _ _ _ _ _ Fc Fn Dc Dn HC HS D) as (D1 & D2).
  repeat split; cbn [fst snd]; first [apply A1|apply A2|apply B1|apply B2|apply D1|apply D2].
Qed.
Print Assumptions C139_rotated.

(** a side of at least 2^-43 M: a triangle indeed, listed clockwise, with the given point strictly inside *)
Theorem C139_shape : forall ncos nsin M (c : b64 * b64) (side : b64), 1 <= M -> M <= p2 300 -> bfin (fst c) -> bfin (snd c) -> bfin side -> Rabs (bval (fst c)) <= M -> Rabs (bval (snd c)) <= M -> p2 (-43) * M <= bval side -> bval side <= M ->
  let '(t0, t1, t2) := equilateral_num ncos nsin b64_sqrt c side n0 in
  area2 (rv t0) (rv t1) (rv t2) < 0 /\ area2 (rv t0) (rv t1) (rv c) < 0 /\ area2 (rv t1) (rv t2) (rv c) < 0 /\ area2 (rv t2) (rv t0) (rv c) < 0.
Proof.
  intros ncos nsin M c side M1 M2 Fx Fy Fs Bx By S1 S2. assert (P43 : 0 < p2 (-43) * M) by (pose proof (p2_pos (-43)); apply Rmult_lt_0_compat; lra).
  assert (Bs : Rabs (bval side) <= M) by (apply Rabs_le; lra). pose proof (C139_accuracy ncos nsin M c side M1 M2 Fx Fy Fs Bx By Bs) as H. unfold equilateral_triangle, triangle_base, rv in H. destruct (Reqb_spec 0 0) as [_|N]; [|congruence].
  destruct (equilateral_num ncos nsin b64_sqrt c side n0) as ((t0, t1), t2). unfold all3, coord_near in H. cbn [fst snd] in H. destruct H as (((_ & A0) & (_ & B0)) & ((_ & A1) & (_ & B1)) & ((_ & A2) & (_ & B2))).
  set (L := bval side) in *. assert (E : 5 * (p2 (-53) * M) <= L / 200). { replace (-53)%Z with (-10 + -43)%Z by lia. rewrite p2_add. change (-10)%Z with (- (10))%Z. rewrite p2_inv, p2_Z by lia. change (2 ^ 10)%Z with 1024%Z. lra. }
  assert (LP : 0 < L) by lra. destruct inv_sqrt3 as (V & S3). assert (0 < sqrt 3) by (apply sqrt_lt_R0; lra). replace (-1 / (2 * sqrt 3)) with (- (1 / sqrt 3 / 2)) in B1, B2 by (field; lra). set (v := 1 / sqrt 3) in *.
  assert (V1 : 577 / 1000 <= v <= 578 / 1000) by nra. assert (VL : 577 / 1000 * L <= v * L <= 578 / 1000 * L) by (split; apply Rmult_le_compat_r; lra).
  apply Rabs_le_inv in A0, A1, A2, B0, B1, B2. destruct t0 as (x0, y0), t1 as (x1, y1), t2 as (x2, y2), c as (cx, cy). unfold rv. cbn [fst snd] in *.
  set (X0 := bval x0) in *. set (X1 := bval x1) in *. set (X2 := bval x2) in *. set (Y0 := bval y0) in *. set (Y1 := bval y1) in *. set (Y2 := bval y2) in *. set (CX := bval cx) in *. set (CY := bval cy) in *.
  set (a0 := X0 - CX). set (a1 := X1 - CX). set (a2 := X2 - CX). set (b0 := Y0 - CY). set (b1 := Y1 - CY). set (b2 := Y2 - CY).
  assert (Q : area2 (X0, Y0) (X1, Y1) (CX, CY) = a0 * b1 - b0 * a1 /\ area2 (X1, Y1) (X2, Y2) (CX, CY) = a1 * b2 - b1 * a2 /\ area2 (X2, Y2) (X0, Y0) (CX, CY) = a2 * b0 - b2 * a0 /\
     area2 (X0, Y0) (X1, Y1) (X2, Y2) = (a0 * b1 - b0 * a1) + (a1 * b2 - b1 * a2) + (a2 * b0 - b2 * a0)).
  { unfold area2, cross, vsub, a0, a1, a2, b0, b1, b2. cbn [fst snd]. repeat split; ring. }
  destruct Q as (Q1 & Q2 & Q3 & Q4). rewrite Q1, Q2, Q3, Q4.
  assert (LL : 0 < L * L) by (apply Rmult_lt_0_compat; exact LP).
  assert (Ha0 : Rabs a0 <= L / 200) by (apply Rabs_le; unfold a0; lra). assert (Hb1 : Rabs b1 <= 3 / 10 * L) by (apply Rabs_le; unfold b1; lra). assert (Hb2 : Rabs b2 <= 3 / 10 * L) by (apply Rabs_le; unfold b2; lra).
  assert (P1 : a0 * b1 <= L / 200 * (3 / 10 * L)) by (eapply Rle_trans; [apply Rle_abs|apply abs_mul; assumption]).
  assert (P2 : - (b2 * a0) <= 3 / 10 * L * (L / 200)) by (eapply Rle_trans; [apply Rle_abs|rewrite Rabs_Ropp; apply abs_mul; assumption]).
  assert (P3 : 57 / 100 * L * (49 / 100 * L) <= b0 * a1) by (apply Rmult_le_compat; unfold b0, a1; lra).
  assert (P4 : 49 / 100 * L * (28 / 100 * L) <= a1 * - b2) by (apply Rmult_le_compat; unfold a1, b2; lra).
  assert (P5 : 28 / 100 * L * (49 / 100 * L) <= - b1 * - a2) by (apply Rmult_le_compat; unfold b1, a2; lra).
  assert (P6 : 49 / 100 * L * (57 / 100 * L) <= - a2 * b0) by (apply Rmult_le_compat; unfold b0, a2; lra).
  clearbody a0 a1 a2 b0 b1 b2. lra.
Qed.
Print Assumptions C139_shape.
(** a side that is small beside the coordinates: the three vertices are the same point *)
Theorem C139_collapse : exists (c : b64 * b64) (side : b64), bfin (fst c) /\ bfin (snd c) /\ bfin side /\ 0 < bval side /\
  forall ncos nsin, equilateral_num ncos nsin b64_sqrt c side n0 = (c, c, c).
Proof.
  exists (b64_of_Z 10000000000000000, b64_of_Z 10000000000000000), (nlit (1 # 10)). cbn [fst snd]. split; [vm_compute; reflexivity|]. split; [vm_compute; reflexivity|]. split; [vm_compute; reflexivity|]. split.
  - rewrite b64q_R. replace 0 with (Q2R 0) by (unfold Q2R; cbn; lra). apply Qlt_Rlt. vm_compute. reflexivity.
  - intros ncos nsin. vm_compute. reflexivity.
Qed.
Print Assumptions C139_collapse.
(** *** a triangle of side 1/10 around (3, -5) *)
Example C139_example : let c := (b64_of_Z 3, b64_of_Z (-5)) in let side : b64 := nlit (1 # 10) in
  (1 <= 5 /\ 5 <= p2 300) /\ (bfin (fst c) /\ bfin (snd c) /\ bfin side) /\ (Rabs (bval (fst c)) <= 5 /\ Rabs (bval (snd c)) <= 5 /\ p2 (-43) * 5 <= bval side <= 5).
Proof.
  cbv zeta. cbn [fst snd]. assert (E3 : bval (b64_of_Z 3) = 3) by (rewrite b64q_R; transitivity (Q2R 3); [apply Qeq_eqR; vm_compute; reflexivity|unfold Q2R; cbn; lra]). assert (E5 : bval (b64_of_Z (-5)) = -5) by (rewrite b64q_R; transitivity (Q2R (-5)); [apply Qeq_eqR; vm_compute; reflexivity|unfold Q2R; cbn; lra]).
  assert (S : 1 / 20 <= bval (nlit (1 # 10)) <= 1). { rewrite b64q_R. replace (1 / 20) with (Q2R (1 # 20)) by (unfold Q2R; cbn; lra). replace 1 with (Q2R 1) by (unfold Q2R; cbn; lra). split; apply Qle_R; vm_compute; reflexivity. }
  split; [split; [lra|]|split].
  - apply Rle_trans with (p2 3); [rewrite p2_Z by lia; change (2 ^ 3)%Z with 8%Z; lra|apply p2_le; lia].
  - split; [vm_compute; reflexivity|]. split; vm_compute; reflexivity.
  - rewrite E3, E5. split; [apply Rabs_le; lra|]. split; [apply Rabs_le; lra|]. split; [|lra]. apply Rle_trans with (p2 (- (10)) * 5); [apply Rmult_le_compat_r; [lra|apply p2_le; lia]|]. rewrite p2_inv, p2_Z by lia. change (2 ^ 10)%Z with 1024%Z. lra.
Qed.
